(** Vocabulary of C87. *)
From Coq Require Import Reals.
From Verif Require Import BoxR VecSpace ModPower.
Local Open Scope R_scope.

(** Where a wind from a compass direction blows to. *)
Definition blows_to (deg : R) : vec := V3 (- sin (PI * deg / 180)) (- cos (PI * deg / 180)) 0.
(** The time spent between start and stop by a run from [t0] to [t]. *)
Definition time_between (t0 t start stop : R) : R := Rmax 0 (Rmin t stop - Rmax t0 start).
(** Steps of size at most [h] that follow each other, from [t0] to [t1]. *)
Fixpoint follow (h t0 : R) (steps : list (R * R)) (t1 : R) : Prop :=
  match steps with
  | [] => t1 = t0
  | (t, dt) :: s => t = t0 /\ 0 <= dt <= h /\ follow h (t0 + dt) s t1
  end.
(** A smooth step of thickness [th] at [zc]. *)
Definition step_up (zc th z : R) : R := (1 + tanh ((z - zc) / th)) / 2.
