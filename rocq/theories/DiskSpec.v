(** Cylinder geometry and area sums for actuator disks, in textbook terms. *)
From Verif Require Import BoxR VecSpace VecSpaceSpec.
Open Scope R_scope.

(** Index pairs (ring, angle) of a disk with [nr] rings of [nt] points. *)
Definition grid2 (nr nt : nat) : list (nat * nat) :=
  flat_map (fun i => map (fun j => (i, j)) (seq 0 nt)) (seq 0 nr).
(** Sums over the rings and over all points of a disk. *)
Definition sum1 (n : nat) (f : nat -> R) : R := rsum (map f (seq 0 n)).
Definition sum2 (nr nt : nat) (f : nat -> nat -> R) : R :=
  sum1 nr (fun i => sum1 nt (fun j => f i j)).

(** Component along the axis through [c] with unit direction [n], and distance
    from that axis. *)
Definition along (c n p : vec) : R :=
  (vx p - vx c) * vx n + (vy p - vy c) * vy n + (vz p - vz c) * vz n.
Definition off_axis (c n p : vec) : vec :=
  V3 (vx p - vx c - along c n p * vx n)
     (vy p - vy c - along c n p * vy n)
     (vz p - vz c - along c n p * vz n).
Definition axis_dist (c n p : vec) : R := len (off_axis c n p).

(** Area of the ring between the fractions [i]/[nr] and [i+1]/[nr] of the radius. *)
Definition ring_area (radius : R) (nr i : nat) : R :=
  PI * (radius * (INR i + 1) / INR nr) ^ 2 - PI * (radius * INR i / INR nr) ^ 2.

(** Total force of a list of forces, seen along an arbitrary direction [w]. *)
Definition total_along (w : vec) (fs : list vec) : R := rsum (map (fun f => inner f w) fs).

Definition is_unit (v : vec) : Prop := inner v v = 1.

(** Distance from the axis of the points of ring [i]: the middle of the ring, or
    the axis itself when there is a single ring. *)
Definition ring_radius (diam : R) (nr i : nat) : R :=
  if (nr =? 1)%nat then 0 else diam / 2 * (INR i + 1 / 2) / INR nr.

(** Fraction of the full pressure at the distance [r] from the axis: 1 between
    the middle of the first and of the last ring, falling linearly to 1/2 at the
    axis and to 0 half a ring outside the rim. *)
Definition pressure_profile (radius dr r : R) : R :=
  Rmax 0 (Rmin 1 (Rmin (r / dr + 1 / 2) ((radius - r) / dr + 1 / 2))).
