(** What the boundary is to be given. *)
From Coq Require Import Reals ZArith.
From Verif Require Import BoxR BoundaryCond.
Open Scope R_scope.

(** The kinds of side through which waves come in. *)
Definition waves_enter (t : bct) : Prop := t = MassInflow \/ t = MassInflowOutflow \/ t = WaveGeneration.
(** A cell one step outside side [f] of the domain. *)
Definition first_outside (dom : box) (f : nat) (c : ivec) : Prop :=
  ix c (fdir f) = (if flow f then blo_ dom (fdir f) - 1 else bhi_ dom (fdir f) + 1)%Z.
(** Along the side it is in the domain, or one step past it where the domain repeats. *)
Definition alongside (dom : box) (per : nat -> Z) (f : nat) (c : ivec) : Prop :=
  forall e, (e < 3)%nat -> e <> fdir f -> (blo_ dom e - per e <= ix c e <= bhi_ dom e + per e)%Z.
(** The cells of an array with one layer around it. *)
Definition in_array (vb : box) (c : ivec) : Prop :=
  forall e, (e < 3)%nat -> (blo_ vb e - 1 <= ix c e <= bhi_ vb e + 1)%Z.
(** The neighbour across the side. *)
Definition across (f : nat) (c : ivec) : ivec := step c (fdir f) (if flow f then 1 else -1).

(** The density of a mixture. *)
Definition mixture (rho1 rho2 a : R) : R := a * rho1 + (1 - a) * rho2.
