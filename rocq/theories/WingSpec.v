(** What a user of a wing actuator relies on, in textbook terms. *)
From Verif Require Import BoxR VecSpace VecSpaceSpec.
Open Scope R_scope.

(** The point a fraction [f] along the segment from [a] to [b], moved by [d]. *)
Definition along_segment (a b : vec) (f : R) (d : vec) : vec :=
  V3 (vx a + f * (vx b - vx a) + vx d)
     (vy a + f * (vy b - vy a) + vy d)
     (vz a + f * (vz b - vz a) + vz d).
Definition dist_pts (a b : vec) : R := len (V3 (vx b - vx a) (vy b - vy a) (vz b - vz a)).

(** Prescribed motion: displacement at time [t]. *)
Inductive path : Type :=
| at_rest : path
| uniform : vec -> path            (* velocity *)
| oscillating : vec -> R -> path.  (* amplitude, period *)
Definition displaced (p : path) (t : R) : vec :=
  match p with
  | at_rest => V3 0 0 0
  | uniform v => V3 (vx v * t) (vy v * t) (vz v * t)
  | oscillating s T => V3 (vx s * sin (2 * PI * t / T)) (vy s * sin (2 * PI * t / T)) (vz s * sin (2 * PI * t / T))
  end.
Definition moved (p : path) (t0 t : R) : vec :=
  V3 (vx (displaced p t) - vx (displaced p t0))
     (vy (displaced p t) - vy (displaced p t0))
     (vz (displaced p t) - vz (displaced p t0)).

(** Part of [u] at right angles to the unit vector [n]. *)
Definition across (n u : vec) : vec :=
  V3 (vx u - inner u n * vx n) (vy u - inner u n * vy n) (vz u - inner u n * vz n).

(** [e1], [e2], [e3] are orthonormal and right-handed. *)
Definition frame (e1 e2 e3 : vec) : Prop :=
  inner e1 e1 = 1 /\ inner e2 e2 = 1 /\ inner e3 e3 = 1 /\
  inner e1 e2 = 0 /\ inner e2 e3 = 0 /\ inner e3 e1 = 0 /\ triple e1 e2 e3 = 1.

(** [a] is the angle of the plane vector [(x, y)]. *)
Definition is_angle (a x y : R) : Prop :=
  - PI < a <= PI /\ x = sqrt (x * x + y * y) * cos a /\ y = sqrt (x * x + y * y) * sin a.
