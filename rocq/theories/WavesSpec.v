(** What the prescribed waves are: solutions of the linear water-wave problem,
    and divergence-free irrotational flows. *)
From Coquelicot Require Import Coquelicot.
From Verif Require Import BoxR.
Open Scope R_scope.

(** Partial derivatives of a function of time and the vertical plane. *)
Definition dt (f : R -> R -> R -> R) (t x z v : R) : Prop := is_derive (fun s => f s x z) t v.
Definition dx (f : R -> R -> R -> R) (t x z v : R) : Prop := is_derive (fun s => f t s z) x v.
Definition dz (f : R -> R -> R -> R) (t x z v : R) : Prop := is_derive (fun s => f t x s) z v.

(** (u, w) has no divergence and no vorticity at the point. *)
Definition solenoidal (u w : R -> R -> R -> R) (t x z : R) : Prop :=
  exists a, dx u t x z a /\ dz w t x z (- a).
Definition irrotational (u w : R -> R -> R -> R) (t x z : R) : Prop :=
  exists a, dz u t x z a /\ dx w t x z a.
