(** What the theorems about the states at the start mean: where the water is, what weighs on a
    point, a rotation, and the differences at a node of what the cells around it hold. *)
From Coq Require Import Reals ZArith.
Local Open Scope R_scope.

(** Inside the dam that stands at [(xc, zc)]. *)
Definition in_dam (xc zc width height x z : R) : Prop := x - xc < width /\ z - zc < height.
(** Beyond it. *)
Definition out_of_dam (xc zc width height x z : R) : Prop := width < x - xc \/ height < z - zc.
(** Mass above a point of a column with a surface at [z0] and an end at [hi]. *)
Definition above (rho1 rho2 z0 hi z : R) : R := rho1 * (Rmax z z0 - z) + rho2 * (hi - Rmax z z0).
(** A point turned about the middle of the unit square. *)
Definition turned_x (alpha x y : R) : R := / 2 + cos alpha * (x - / 2) - sin alpha * (y - / 2).
Definition turned_y (alpha x y : R) : R := / 2 + sin alpha * (x - / 2) + cos alpha * (y - / 2).
(** Differences at a node of what the eight cells around it hold: the mean over four of them on the
    one side minus the mean over the four on the other. *)
Definition mean4 (a b c d : R) : R := (a + b + c + d) / 4.
Definition node_dx (f : Z -> Z -> Z -> R) (d : R) (i j k : Z) : R :=
  let side i := mean4 (f i (j - 1)%Z (k - 1)%Z) (f i j (k - 1)%Z) (f i (j - 1)%Z k) (f i j k) in (side i - side (i - 1)%Z) / d.
Definition node_dy (f : Z -> Z -> Z -> R) (d : R) (i j k : Z) : R :=
  let side j := mean4 (f (i - 1)%Z j (k - 1)%Z) (f i j (k - 1)%Z) (f (i - 1)%Z j k) (f i j k) in (side j - side (j - 1)%Z) / d.
Definition node_dz (f : Z -> Z -> Z -> R) (d : R) (i j k : Z) : R :=
  let side k := mean4 (f (i - 1)%Z (j - 1)%Z k) (f i (j - 1)%Z k) (f (i - 1)%Z j k) (f i j k) in (side k - side (k - 1)%Z) / d.
(** The divergence at the nodes, which the nodal projection removes. *)
Definition node_div (u v w : Z -> Z -> Z -> R) (dx dy dz : R) (i j k : Z) : R :=
  node_dx u dx i j k + node_dy v dy i j k + node_dz w dz i j k.
