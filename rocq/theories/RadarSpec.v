(** What a scanning instrument is taken to do, in terms of directions, angles and times. *)
From Coq Require Import QArith Qreals.
From Verif Require Import BoxR VecSpace VecSpaceSpec.
Local Close Scope Q_scope.
Local Open Scope list_scope.
Local Open Scope R_scope.

(** The direction with azimuth [az] (from x towards y) and elevation [el] (from the horizontal),
    in degrees. *)
Definition heading (az el : R) : vec :=
  V3 (cos (radians el) * cos (radians az)) (cos (radians el) * sin (radians az)) (sin (radians el)).
Definition along (o : vec) (d : R) (u : vec) : vec := V3 (vx o + d * vx u) (vy o + d * vy u) (vz o + d * vz u).
(** [k] full periods from [t] to [t']. *)
Definition periods_apart (t t' p : Q) : Prop := exists k : Z, (t' == t + inject_Z k * p)%Q.

(** The direction [a] turned by [phi] about the vertical [v] (from [a] towards v x a), then raised by
    [e] towards the vertical; degrees. *)
Definition pointing (a v : vec) (phi e : R) : vec :=
  let s := lin (cos (radians phi)) a (sin (radians phi))
             (V3 (vy v * vz a - vz v * vy a) (vz v * vx a - vx v * vz a) (vx v * vy a - vy v * vx a)) in
  lin (cos (radians e)) s (sin (radians e)) v.
Definition orthonormal (a v : vec) : Prop := inner a a = 1 /\ inner v v = 1 /\ inner a v = 0.
(** Not within the machine epsilon of the z axis (the sine of the angle between them). *)
Definition off_vertical (a : vec) : Prop := veps <= sqrt (vx a * vx a + vy a * vy a).

(** The triangle wave with rests: forth from -s/2 to s/2 at speed [w], rest [r], back, rest. *)
Definition sweeping (s w r p x : R) : Prop :=
  (0 <= p <= s / w -> x = - (s / 2) + w * p) /\
  (s / w <= p <= s / w + r -> x = s / 2) /\
  (s / w + r <= p <= 2 * (s / w) + r -> x = s / 2 - w * (p - s / w - r)) /\
  (2 * (s / w) + r <= p -> x = - (s / 2)).

Fixpoint total (l : list R) : R := match l with [] => 0 | x :: r => x + total r end.
Fixpoint weighted (ws xs : list R) : R :=
  match ws, xs with w :: ws', x :: xs' => w * x + weighted ws' xs' | _, _ => 0 end.
