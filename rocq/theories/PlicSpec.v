(** What a cut volume is, without reference to the code: the measure of the
    part of a slab that lies below a plane, as an iterated integral. *)
From Verif Require Import BoxR.
From Coquelicot Require Import Coquelicot.
Open Scope R_scope.

(** [t] limited to [0,1]. *)
Definition clamp01 (t : R) : R := Rmax 0 (Rmin 1 t).

(** Length of { x in [0,1] | m * x <= c } for m <> 0. *)
Definition seg_length (m c : R) : R :=
  if Rlt_dec 0 m then clamp01 (c / m) else 1 - clamp01 (c / m).

(** Area of { (y,z) in [0,1]^2 | m2 * y + m3 * z <= c }. *)
Definition cross_area (m2 m3 c : R) : R :=
  RInt (fun y => seg_length m3 (c - m2 * y)) 0 1.

(** Volume of { (x,y,z) in [r,r+d] x [0,1]^2 | m1 x + m2 y + m3 z <= alpha }. *)
Definition slab_volume (m1 m2 m3 alpha r d : R) : R :=
  RInt (fun x => cross_area m2 m3 (alpha - m1 * x)) r (r + d).
