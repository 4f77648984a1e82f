(** Vocabulary of C88. *)
From Coq Require Import Reals List.
From Verif Require Import BoxR VecSpace.
Import ListNotations.
Local Open Scope R_scope.

(** A flow step of a solver: [nsub] steps with the same velocities. *)
Definition flow_step {St Vel : Type} (step : St -> Vel -> St) (nsub : nat) (s : St) (v : Vel) : St :=
  Nat.iter nsub (fun s => step s v) s.
(** The solver after flow steps with the velocities [vs]. *)
Definition flow_steps {St Vel : Type} (step : St -> Vel -> St) (nsub : nat) (s : St) (vs : list Vel) : St :=
  fold_left (flow_step step nsub) vs s.
(** The records of flow steps [k], [k+1], ... : the time of the solver and the velocities. *)
Fixpoint records {Vel : Type} (nsub : nat) (dt_ext : R) (k : nat) (vs : list Vel) : list (R * Vel) :=
  match vs with [] => [] | v :: w => (INR (k * nsub) * dt_ext, v) :: records nsub dt_ext (S k) w end.
(** [k] is a multiple of [every]. *)
Definition each (every : Z) (k : nat) : Prop := exists q : Z, (Z.of_nat k = q * every)%Z.
(** A right-handed frame of unit vectors. *)
Definition frame3 (x y z : vec) : Prop :=
  vdot x x = 1 /\ vdot y y = 1 /\ vdot z z = 1 /\ vdot x y = 0 /\ vdot y z = 0 /\ vdot z x = 0 /\ vcross x y = z.
