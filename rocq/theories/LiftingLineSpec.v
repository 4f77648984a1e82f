(** What the lifting line correction is meant to compute. *)
From Verif Require Import BoxR VecSpace VecSpaceSpec DiskSpec WingSpec.
Open Scope R_scope.

(** A table whose arguments increase. *)
Definition increasing (xs : list R) : Prop := forall i, (S i < length xs)%nat -> nth i xs 0 < nth (S i) xs 0.
(** [y] is the value at [x] of the broken line through the points (xs_i, ys_i),
    continued by constants. *)
Definition on_broken_line (xs ys : list R) (x y : R) : Prop :=
  (x <= nth 0 xs 0 /\ y = nth 0 ys 0) \/
  (last xs 0 <= x /\ y = last ys 0) \/
  (exists i, (S i < length xs)%nat /\ nth i xs 0 <= x <= nth (S i) xs 0 /\
     y * (nth (S i) xs 0 - nth i xs 0) = nth i ys 0 * (nth (S i) xs 0 - x) + nth (S i) ys 0 * (x - nth i xs 0)).
(** The points lie on a line, in order. *)
Definition straight (pos : list vec) : Prop :=
  forall i j, (i < length pos)%nat -> (j < length pos)%nat ->
    dist_pts (nth j pos (V3 0 0 0)) (nth i pos (V3 0 0 0))
    = Rabs (dist_pts (nth 0 pos (V3 0 0 0)) (nth i pos (V3 0 0 0)) - dist_pts (nth 0 pos (V3 0 0 0)) (nth j pos (V3 0 0 0))).
(** Vortex sheet: velocity induced at a distance [r] by the vortex shed at one
    point, smoothed over [eps]; [side] is 1 on one side of it and -1 on the
    other, 0 at the point itself. *)
Definition side (i j : nat) : R := if (j <? i)%nat then 1 else if (i <? j)%nat then -1 else 0.
Definition shed_velocity (strength r speed eps : R) : R :=
  strength * (1 - exp (- (r / eps)²)) / (4 * PI * r * speed).
(** Kernel for a chord that varies, away from the point. *)
Definition line_kernel (r eps : R) : R := exp (- (r / eps)²) / eps² - (1 - exp (- (r / eps)²)) / (2 * r²).
(** Lift per unit length in the direction [k]: the part of the force [F] across the wind [v]. *)
Definition circulation (F v : vec) (dr : R) (k : vec) : R := (inner F k - inner F v / (len v)² * inner v k) / dr.
(** What is shed at point [j] of [n]: the change of the circulation, from and to nothing at the ends. *)
Definition shed_strength (n : nat) (gam : nat -> R) (j : nat) : R :=
  if (j =? 0)%nat then gam 0%nat else if (j =? n - 1)%nat then - gam (n - 1)%nat else (gam (S j) - gam (j - 1)%nat) / 2.
