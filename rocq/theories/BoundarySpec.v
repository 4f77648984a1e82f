(** What the boundary-condition theorems say, independently of the code. *)
From Coq Require Import Reals String Ascii.
From Verif Require Import Base BoxR BoundaryCond.
Open Scope R_scope.
Open Scope string_scope.

(** The names of the user manual (docs: boundary conditions) with their
    abbreviations. *)
Inductive names : string -> bct -> Prop :=
| n_po : names "pressure_outflow" PressureOutflow | a_po : names "po" PressureOutflow
| n_mi : names "mass_inflow" MassInflow | a_mi : names "mi" MassInflow
| n_mio : names "mass_inflow_outflow" MassInflowOutflow | a_mio : names "mio" MassInflowOutflow
| n_nsw : names "no_slip_wall" NoSlipWall | a_nsw : names "nsw" NoSlipWall
| n_sw : names "slip_wall" SlipWall | a_sw : names "sw" SlipWall
| n_wm : names "wall_model" WallModel | a_wm : names "wm" WallModel
| n_zg : names "zero_gradient" ZeroGradient | a_zg : names "zg" ZeroGradient
| n_fg : names "fixed_gradient" FixedGradient | a_fg : names "fg" FixedGradient
| n_wg : names "wave_generation" WaveGeneration | a_wg : names "wg" WaveGeneration
| n_symw : names "symmetric_wall" SymmetricWall | a_symw : names "symw" SymmetricWall.

(** Two characters, two strings that differ at most in the case of letters. *)
Definition same_letter (a b : ascii) : Prop :=
  a = b \/
  exists i, String.get i "ABCDEFGHIJKLMNOPQRSTUVWXYZ" = Some a /\
            String.get i "abcdefghijklmnopqrstuvwxyz" = Some b \/
            String.get i "ABCDEFGHIJKLMNOPQRSTUVWXYZ" = Some b /\
            String.get i "abcdefghijklmnopqrstuvwxyz" = Some a.
Inductive same_letters : string -> string -> Prop :=
| sl_nil : same_letters "" ""
| sl_cons a b s t : same_letter a b -> same_letters s t ->
    same_letters (String a s) (String b t).

(** The word the input gives for a face: the field's own, else the general one,
    else "null". *)
Definition word (i : face_in) : string :=
  match fi_ftype i, fi_type i with
  | Some t, _ => t
  | None, Some t => t
  | None, None => "null"
  end.

(** The type [b] of face [f] is what the input asks for, and is allowed. *)
Definition asked (per : nat -> bool) (inp : nat -> face_in) (f : nat) (b : bct) : Prop :=
  if per (fdir f)
  then b = Periodic /\ (same_letters (word (inp f)) "null" \/ same_letters (word (inp f)) "periodic")
  else exists s, names s b /\ same_letters (word (inp f)) s.

(** Faces through which the whole state is prescribed. *)
Definition value_face (b : bct) : Prop :=
  b = MassInflow \/ b = MassInflowOutflow \/ b = NoSlipWall \/ b = WaveGeneration.
(** Walls that only prescribe the normal velocity. *)
Definition normal_face (b : bct) : Prop :=
  b = SlipWall \/ b = WallModel \/ b = SymmetricWall.

Definition sets_value (t : fill) : Prop := t = ExtDir \/ t = DirDependent.

(** A cell [c] lies beyond face [f] of the domain. *)
Definition beyond (dom : box) (f : nat) (c : ivec) : Prop :=
  if flow f then (ix c (fdir f) < blo_ dom (fdir f))%Z
  else (bhi_ dom (fdir f) < ix c (fdir f))%Z.

(** A cell is in a box. *)
Definition within (b : box) (c : ivec) : Prop :=
  forall d, (d < 3)%nat -> (blo_ b d <= ix c d <= bhi_ b d)%Z.

(** [c] is the ghost cell directly outside face [f] of box [b]. *)
Definition next_to (b : box) (f : nat) (c : ivec) : Prop :=
  ix c (fdir f) = (if flow f then blo_ b (fdir f) - 1 else bhi_ b (fdir f) + 1)%Z /\
  forall d, (d < 3)%nat -> d <> fdir f -> (blo_ b d <= ix c d <= bhi_ b d)%Z.

(** The same, the cells one further along the face included. *)
Definition next_to_grown (b : box) (f : nat) (c : ivec) : Prop :=
  ix c (fdir f) = (if flow f then blo_ b (fdir f) - 1 else bhi_ b (fdir f) + 1)%Z /\
  forall d, (d < 3)%nat -> d <> fdir f -> (blo_ b d - 1 <= ix c d <= bhi_ b d + 1)%Z.

(** The box [b] reaches face [f] of the domain. *)
Definition reaches (dom b : box) (f : nat) : Prop :=
  if flow f then blo_ b (fdir f) = blo_ dom (fdir f)
  else bhi_ b (fdir f) = bhi_ dom (fdir f).

(** Velocity [w] through face [f] leaves the domain. *)
Definition leaves (f : nat) (w : R) : Prop := if flow f then w < 0 else 0 < w.

(** The cell of the domain next to the ghost cell [c] outside face [f]. *)
Definition mirror (f : nat) (c : ivec) : ivec :=
  step c (fdir f) (if flow f then 1 else -1)%Z.

(** The face index [c] lies on face [f] of the domain (face-centred data). *)
Definition on_face (dom : box) (f : nat) (c : ivec) : Prop :=
  ix c (fdir f) = (if flow f then blo_ dom (fdir f) else bhi_ dom (fdir f) + 1)%Z /\
  forall d, (d < 3)%nat -> d <> fdir f -> (blo_ dom d <= ix c d <= bhi_ dom d)%Z.

(** Enough numbers are given where any are. *)
Definition enough (m : nat) (i : face_in) : Prop :=
  forall l, fi_vals i = Some l -> (m <= List.length l)%nat.
Definition given (m : nat) (i : face_in) : Prop :=
  exists l, fi_vals i = Some l /\ (m <= List.length l)%nat.

(** A cell or, for data on the faces normal to [d] ([fd = Some d]), a face index
    lies beyond face [f] of the domain: face data reach one index further up. *)
Definition beyond_at (dom : box) (fd : option nat) (f : nat) (c : ivec) : Prop :=
  if flow f then (ix c (fdir f) < blo_ dom (fdir f))%Z
  else (bhi_ dom (fdir f) + match fd with
          | Some d => if Nat.eqb d (fdir f) then 1 else 0 | None => 0 end < ix c (fdir f))%Z.

Definition is_inflow (t : bct) : Prop := t = MassInflow \/ t = MassInflowOutflow.
