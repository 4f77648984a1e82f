(** What a lidar with two turning prisms should do, without the code of the model.  From Spinner.v: the settings, the
    calls and the lines that are stored.  From VecSpaceSpec.v: inner product. *)
From Coq Require Import List ZArith.
From Verif Require Import BoxR VecSpace VecSpaceSpec Spinner.
Import ListNotations.
Open Scope R_scope.

(** A facet whose normal makes the angle [a] with the axis, turned about it by [th]; mirror image in a facet. *)
Definition facet (a th : R) : vec := V3 (cos a) (sin a * cos th) (sin a * sin th).
Definition mirror (n v : vec) : vec := lin 1 v (- 2 * inner n v) n.
(** Degrees. *)
Definition deg (x : R) : R := x * PI / 180.

(** The times of the beams that were stored, in order. *)
Fixpoint beam_times (l : list entry) : list R :=
  match l with
  | [] => []
  | Beam T _ _ :: l => T :: beam_times l
  | Fill :: l => beam_times l
  end.

(** [d] leads from the angle [a] to the angle [b] the short way. *)
Definition leads (a b d : R) : Prop := (exists n : Z, b = a + d + 2 * PI * IZR n) /\ - PI <= d < PI.

(** One output for every step: each call is one step after the one before. *)
Fixpoint every_step (t : R) (xs : list call) : Prop :=
  match xs with
  | [] => True
  | x :: xs => 0 <= c_dt x /\ c_time x = t + c_dt x /\ every_step (c_time x) xs
  end.
Definition last_time (t : R) (xs : list call) : R := fold_left (fun _ x => c_time x) xs t.

(** A hub that moves evenly, without turning. *)
Definition evenly (a v : vec) (t : R) : vec := lin 1 a t v.
Definition at_hub (a v : vec) (t : R) : pose := Pose 0 0 0 (evenly a v t).
(** Calls from [t] on, at equal steps. *)
Fixpoint even_calls (a v : vec) (t dt : R) (m : nat) : list call :=
  match m with
  | O => []
  | S m => Call (t + dt) dt (at_hub a v (t + dt)) :: even_calls a v (t + dt) dt m
  end.
(** Outputs of a steady run that are further apart than its steps. *)
Fixpoint sparse_calls (p : pose) (t gap dt : R) (m : nat) : list call :=
  match m with
  | O => []
  | S m => Call (t + gap) dt p :: sparse_calls p (t + gap) gap dt m
  end.
(** Turned about the three axes, by an angle in radians. *)
Definition roll_by (a : R) (v : vec) : vec := V3 (vx v) (vy v * cos a - vz v * sin a) (vy v * sin a + vz v * cos a).
Definition pitch_by (a : R) (v : vec) : vec := V3 (vx v * cos a + vz v * sin a) (vy v) (vz v * cos a - vx v * sin a).
Definition yaw_by (a : R) (v : vec) : vec := V3 (vx v * cos a - vy v * sin a) (vx v * sin a + vy v * cos a) (vz v).
(** Where the instrument looks at time [t] before it is turned. *)
Definition looks (i o : prism) (t : R) : vec :=
  mirror (facet (deg (p_az o / 2)) (deg (p_theta0 o + p_rot o * t * 360)))
    (mirror (facet (deg (- (p_az i / 2 + 90))) (deg (p_theta0 i + p_rot i * t * 360))) (V3 1 0 0)).
