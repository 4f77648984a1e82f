(** Vocabulary for the transport theorems. *)
From Coq Require Import Reals ZArith List.
From Verif Require Import Base BoxR VofSpec Advance.
Open Scope R_scope.

Definition dirn (d : Z) : Prop := (d = 0 \/ d = 1 \/ d = 2)%Z.
Definition nonempty (b : box) : Prop :=
  (icomp (blo b) 0 <= icomp (bhi b) 0 /\ icomp (blo b) 1 <= icomp (bhi b) 1 /\ icomp (blo b) 2 <= icomp (bhi b) 2)%Z.
(** What enters through the low faces of the domain minus what leaves through the high faces,
    per unit of time and of cell volume. *)
Definition inflow (g : grid) (F : Z -> ivec -> R) : R :=
  total (low_layer (gr_dom g) 0) (fun c => F 0%Z c - F 0%Z (opposite (gr_dom g) 0 c)) / gr_dx g 0%Z +
  total (low_layer (gr_dom g) 1) (fun c => F 1%Z c - F 1%Z (opposite (gr_dom g) 1 c)) / gr_dx g 1%Z +
  total (low_layer (gr_dom g) 2) (fun c => F 2%Z c - F 2%Z (opposite (gr_dom g) 2 c)) / gr_dx g 2%Z.
(** Nothing passes the boundary of the domain: no flux through walls, the same flux on both
    sides of periodic boundaries. *)
Definition closed_flux (g : grid) (F : Z -> ivec -> R) : Prop :=
  forall d c, dirn d -> in_box (low_layer (gr_dom g) d) c ->
    if gr_per g d then F d (opposite (gr_dom g) d c) = F d c else F d c = 0 /\ F d (opposite (gr_dom g) d c) = 0.
Definition all_cells (g : grid) (P : ivec -> Prop) : Prop := forall c, in_box (gr_dom g) c -> P c.
