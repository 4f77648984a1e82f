(** What is asked of the wall models of the channel, without reference to the model. *)
From Coq Require Import Reals List.
Import ListNotations.
Local Open Scope R_scope.

(** The law of the wall: the speed at height [z] over a wall with friction velocity [u] *)
Definition law_of_the_wall (z nu u speed : R) : Prop :=
  speed = u * (ln (z * u / nu) / (384 / 1000) + 427 / 100).
(** the branch of the law on which the speed grows with the friction velocity *)
Definition growing (z nu u : R) : Prop := 0 < (1 + ln (z * u / nu)) / (384 / 1000) + 427 / 100.

(** The values a search goes through: the k-th value from a start *)
Fixpoint value (step : R -> option R) (start : R) (k : nat) : option R :=
  match k with O => Some start | S m => match value step start m with Some v => step v | None => None end end.
(** the k-th value exists and is further than a hundred-thousandth from the one before *)
Definition moved (step : R -> option R) (start : R) (k : nat) : Prop :=
  exists v, value step start k = Some v /\
  match k with O => / 100000 < Rabs (- 1 - v)
             | S m => exists p, value step start m = Some p /\ / 100000 < Rabs (p - v) end.

(** The force per area of a wall on the fluid, given the derivative of the velocity along z: below the fluid, above it *)
Definition force_from_floor (mu grad : R) : R := - (mu * grad).
Definition force_from_lid (mu grad : R) : R := mu * grad.

(** Height of the centre of the n-th cell above the floor *)
Definition centre (dz : R) (n : Z) : R := (IZR n + / 2) * dz.

Definition mean (l : list R) : R := fold_right Rplus 0 l / INR (length l).
