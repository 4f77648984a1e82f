(** What spreading the forces of a rotor over a disk means. *)
From Coq Require Import List Arith.
From Verif Require Import BoxR VecSpace VecSpaceSpec DiskSpec DiskActuator RotorDisk.
Import ListNotations.
Open Scope R_scope.

(** the sum of the forces of a list of points, each times its weight *)
Fixpoint total (w : apoint -> R) (l : list apoint) : vec :=
  match l with
  | [] => V3 0 0 0
  | p :: l => let s := total w l in
      V3 (w p * vx (a_force p) + vx s) (w p * vy (a_force p) + vy s) (w p * vz (a_force p) + vz s)
  end.

(** the points of the blades, of the tower and the hub *)
Definition blade_points (r : rotor) : list apoint := firstn (r_nb r * r_npb r) (skipn 1 (r_pts r)).
Definition tower_points (r : rotor) : list apoint := firstn (r_npt r) (skipn (1 + r_nb r * r_npb r) (r_pts r)).
Definition whole (r : rotor) : Prop := length (r_pts r) = (1 + r_nb r * r_npb r + r_npt r)%nat.

(** the Gaussian of the distance, measured in the axes of the point *)
Definition around (cc : vec) (p : apoint) : R := gaussian3d (tapp (a_ori p) (vsub cc (a_pos p))) (a_eps p).

(** a hat of unit area and half-width [w] *)
Definition hat (w s : R) : R := Rmax 0 (1 - s / w) / w.

(** the distance from the rotor axis *)
Definition radius (r : rotor) (p : vec) : R := axis_dist (r_center r) (r_normal r) p.
