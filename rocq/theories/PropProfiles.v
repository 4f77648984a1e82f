(** C66: inflow profiles (user-defined functions of the velocity). *)
From Coq Require Import Reals.
From Verif Require Import Base BoxR BoxRFacts BoundaryCond.
From Coq Require Import Lra Lia Psatz.
Open Scope R_scope.

(** * Linear profile *)

(** Constant below the start and above the stop, and the straight line between. *)
Theorem c66_linear zmin zmax vmin vmax z n : zmin < zmax ->
  (z <= zmin -> linear_profile zmin zmax vmin vmax z n = vmin n) /\
  (zmax <= z -> linear_profile zmin zmax vmin vmax z n = vmax n) /\
  (zmin <= z <= zmax ->
     (linear_profile zmin zmax vmin vmax z n - vmin n) * (zmax - zmin) = (vmax n - vmin n) * (z - zmin)).
Proof.
  intro H. unfold linear_profile.
  destruct (Rltb z zmin) eqn:A; [apply Rltb_spec in A|apply Rltb_false in A].
  - repeat split; intros; lra.
  - destruct (Rltb zmax z) eqn:B; [apply Rltb_spec in B|apply Rltb_false in B].
    + repeat split; intros; lra.
    + repeat split; intros.
      * assert (z = zmin) by lra. subst z. field. lra.
      * assert (z = zmax) by lra. subst z. field. lra.
      * field. lra.
Qed.

(** It never leaves the range of the two given values. *)
Theorem c66_linear_range zmin zmax vmin vmax z n : zmin < zmax ->
  Rmin (vmin n) (vmax n) <= linear_profile zmin zmax vmin vmax z n <= Rmax (vmin n) (vmax n).
Proof.
  intro H. destruct (c66_linear zmin zmax vmin vmax z n H) as [A [B C]].
  pose proof (Rmin_l (vmin n) (vmax n)). pose proof (Rmin_r (vmin n) (vmax n)).
  pose proof (Rmax_l (vmin n) (vmax n)). pose proof (Rmax_r (vmin n) (vmax n)).
  destruct (Rle_dec z zmin) as [L|L]; [rewrite A by exact L; lra|].
  destruct (Rle_dec zmax z) as [U|U]; [rewrite B by exact U; lra|].
  specialize (C ltac:(lra)). set (w := linear_profile _ _ _ _ _ _) in *. clearbody w.
  split.
  - apply Rnot_lt_le. intro K. nra.
  - apply Rnot_lt_le. intro K. nra.
Qed.

(** * Power law *)

(** Speed of a vector. *)
Definition speed (v : nat -> R) : R :=
  sqrt (v 0%nat * v 0%nat + v 1%nat * v 1%nat + v 2%nat * v 2%nat).

Definition clamp (lo hi x : R) : R := Rmin hi (Rmax lo x).

Lemma speed_scale v a : 0 <= a -> speed (fun n => v n * a) = a * speed v.
Proof.
  intro H. unfold speed.
  replace (v 0%nat * a * (v 0%nat * a) + v 1%nat * a * (v 1%nat * a) + v 2%nat * a * (v 2%nat * a))
    with (a ^ 2 * (v 0%nat * v 0%nat + v 1%nat * v 1%nat + v 2%nat * v 2%nat)) by ring.
  rewrite sqrt_mult.
  - rewrite sqrt_pow2 by exact H. reflexivity.
  - apply pow2_ge_0.
  - pose proof (Rle_0_sqr (v 0%nat)). pose proof (Rle_0_sqr (v 1%nat)). pose proof (Rle_0_sqr (v 2%nat)).
    unfold Rsqr in *. lra.
Qed.

(** The factor by which the code multiplies the reference velocity. *)
Lemma power_factor zoff zref shear umin umax uref z : 0 < speed uref -> 0 <= umin <= umax ->
  exists a, 0 <= a /\ (forall n, power_law zoff zref shear umin umax uref z n = uref n * a) /\
  a * speed uref = clamp umin umax (if Rlt_dec zoff z then speed uref * Rpower ((z - zoff) / zref) shear else 0).
Proof.
  intros S U. unfold power_law, pow_pos. change (mag3 uref) with (speed uref).
  set (m := speed uref) in *. clearbody m.
  set (p := if Rltb 0 (z - zoff) then Rpower ((z - zoff) / zref) shear else 0).
  assert (P : (if Rlt_dec zoff z then m * Rpower ((z - zoff) / zref) shear else 0) = m * p).
  { unfold p. destruct (Rltb 0 (z - zoff)) eqn:A; [apply Rltb_spec in A|apply Rltb_false in A];
    destruct (Rlt_dec zoff z); try lra. }
  rewrite P. clearbody p.
  eexists. split; [|split; [intro n; reflexivity|]].
  - assert (L : 0 <= umin / m) by (apply Rmult_le_pos; [lra|left; apply Rinv_0_lt_compat; lra]).
    assert (H : umin / m <= umax / m) by (apply Rmult_le_compat_r; [left; apply Rinv_0_lt_compat; lra|lra]).
    destruct (Rltb p (umin / m)) eqn:A; [apply Rltb_spec in A|apply Rltb_false in A];
    match goal with |- context [Rltb (umax / m) ?a] =>
      destruct (Rltb (umax / m) a) eqn:B; [apply Rltb_spec in B|apply Rltb_false in B] end; lra.
  - unfold clamp.
    assert (E1 : umin / m * m = umin) by (field; lra).
    assert (E2 : umax / m * m = umax) by (field; lra).
    destruct (Rltb p (umin / m)) eqn:A; [apply Rltb_spec in A|apply Rltb_false in A].
    + assert (p * m < umin) by (rewrite <- E1; apply Rmult_lt_compat_r; assumption).
      rewrite (Rmax_left umin) by lra. rewrite Rmin_right by lra.
      destruct (Rltb (umax / m) (umin / m)) eqn:B; [apply Rltb_spec in B|apply Rltb_false in B]; [|exact E1].
      assert (umax / m * m < umin / m * m) by (apply Rmult_lt_compat_r; assumption). lra.
    + assert (umin <= p * m) by (rewrite <- E1; apply Rmult_le_compat_r; lra).
      rewrite (Rmax_right umin) by lra.
      destruct (Rltb (umax / m) p) eqn:B; [apply Rltb_spec in B|apply Rltb_false in B].
      * assert (umax < p * m) by (rewrite <- E2; apply Rmult_lt_compat_r; assumption).
        rewrite Rmin_left by lra. exact E2.
      * assert (p * m <= umax) by (rewrite <- E2; apply Rmult_le_compat_r; lra).
        rewrite Rmin_right by lra. ring.
Qed.

(** The velocity points along the reference velocity and its speed is
    |uref| ((z - zoffset)/zref)^shear, zero at or below the offset, limited to
    [umin, umax]. *)
Theorem c66_power_law zoff zref shear umin umax uref z : 0 < speed uref -> 0 <= umin <= umax ->
  let u := power_law zoff zref shear umin umax uref z in
  speed u = clamp umin umax (if Rlt_dec zoff z then speed uref * Rpower ((z - zoff) / zref) shear else 0) /\
  (forall n m, u n * uref m = u m * uref n) /\ (forall n, 0 <= u n * uref n).
Proof.
  intros S U u. destruct (power_factor zoff zref shear umin umax uref z S U) as [a [A [E F]]].
  fold u in E. split; [|split].
  - rewrite <- F. unfold speed at 1. rewrite !E. rewrite <- speed_scale by exact A. reflexivity.
  - intros n m. rewrite !E. ring.
  - intro n. rewrite E. pose proof (Rle_0_sqr (uref n)) as Q. unfold Rsqr in Q. nra.
Qed.

(** At the reference height it is the reference velocity, when the limits allow it. *)
Theorem c66_power_reference zoff zref shear umin umax uref : 0 < speed uref -> 0 <= umin ->
  umin <= speed uref <= umax -> 0 < zref ->
  forall n, power_law zoff zref shear umin umax uref (zoff + zref) n = uref n.
Proof.
  intros S U B Z n. destruct (power_factor zoff zref shear umin umax uref (zoff + zref) S ltac:(lra)) as [a [A [E F]]].
  rewrite E. destruct (Rlt_dec zoff (zoff + zref)); [|lra].
  replace ((zoff + zref - zoff) / zref) with 1 in F by (field; lra).
  assert (P : Rpower 1 shear = 1) by (unfold Rpower; rewrite ln_1, Rmult_0_r; apply exp_0).
  rewrite P, Rmult_1_r in F. unfold clamp in F. rewrite Rmax_right in F by lra. rewrite Rmin_right in F by lra.
  assert (a = 1) by (apply (Rmult_eq_reg_r (speed uref)); lra). subst a. ring.
Qed.

(** For a non-negative shear exponent the speed does not decrease with height. *)
Theorem c66_power_monotone zoff zref shear umin umax uref z1 z2 :
  0 < speed uref -> 0 <= umin <= umax -> 0 < zref -> 0 <= shear -> z1 <= z2 ->
  speed (power_law zoff zref shear umin umax uref z1) <= speed (power_law zoff zref shear umin umax uref z2).
Proof.
  intros S U Z P L.
  destruct (c66_power_law zoff zref shear umin umax uref z1 S U) as [E1 _].
  destruct (c66_power_law zoff zref shear umin umax uref z2 S U) as [E2 _].
  cbv zeta in E1, E2. rewrite E1, E2. unfold clamp.
  apply Rle_min_compat_l, Rle_max_compat_l.
  destruct (Rlt_dec zoff z1), (Rlt_dec zoff z2); try lra.
  - apply Rmult_le_compat_l; [lra|]. apply Rle_Rpower_l; [exact P|].
    split; [apply Rmult_lt_0_compat; [lra|apply Rinv_0_lt_compat; lra]|].
    apply Rmult_le_compat_r; [left; apply Rinv_0_lt_compat; lra|lra].
  - apply Rmult_le_pos; [lra|]. left. unfold Rpower. apply exp_pos.
Qed.

(** * Burggraf lid *)

(** On a cavity spanning [0, 1] the lid starts and ends at rest, is symmetric,
    never moves backwards and reaches speed one in the middle only. *)
Theorem c66_burggraf x : 
  burggraf 0 0 = 0 /\ burggraf 1 0 = 0 /\ burggraf (1/2) 0 = 1 /\
  burggraf (1 - x) 0 = burggraf x 0 /\ 0 <= burggraf x 0 /\
  (0 <= x <= 1 -> burggraf x 0 <= 1 /\ (burggraf x 0 = 1 -> x = 1/2)) /\
  burggraf x 1 = 0 /\ burggraf x 2 = 0.
Proof.
  assert (E : forall y, burggraf y 0 = (4 * (y * (1 - y))) * (4 * (y * (1 - y)))) by (intro y; unfold burggraf; ring).
  rewrite !E. pose proof (Rle_0_sqr (4 * (x * (1 - x)))) as Q. unfold Rsqr in Q.
  split; [ring|]. split; [ring|]. split; [field|]. split; [ring|]. split; [exact Q|].
  split; [|split; reflexivity].
  intros B. assert (S : 4 * (x * (1 - x)) = 1 - (2 * x - 1) * (2 * x - 1)) by ring.
  pose proof (Rle_0_sqr (2 * x - 1)) as Q2. unfold Rsqr in Q2.
  assert (L : 0 <= 4 * (x * (1 - x))) by (pose proof (Rmult_le_pos x (1 - x) ltac:(lra) ltac:(lra)); lra).
  assert (U : 4 * (x * (1 - x)) <= 1) by lra.
  set (w := 4 * (x * (1 - x))) in *. split.
  - pose proof (Rmult_le_compat w 1 w 1 L L U U). lra.
  - intro K. assert (w = 1) by nra. assert ((2 * x - 1) * (2 * x - 1) = 0) by lra.
    apply Rmult_integral in H0. lra.
Qed.

(** * Two layers *)

(** Horizontal velocity of the layer the point lies in, scaled by the
    perturbation at time zero only. *)
Theorem c66_two_layer top bot zp pert z t n : (n < 2)%nat ->
  two_layer top bot zp pert z t n =
  (if Rle_dec zp z then top n else bot n) * (if Req_EM_T t 0 then pert else 1).
Proof.
  intro H. unfold two_layer.
  assert (B : (if Rltb z zp then bot else top) = if Rle_dec zp z then top else bot).
  { destruct (Rltb z zp) eqn:A; [apply Rltb_spec in A|apply Rltb_false in A]; destruct (Rle_dec zp z); try reflexivity; lra. }
  rewrite B. destruct n as [|[|n]]; [| |lia]; destruct (Rle_dec zp z), (Req_EM_T t 0); ring.
Qed.

(** A vertical velocity given in the input is ignored. *)
Theorem c66_two_layer_vertical_refuted : exists top bot, top 2%nat = 1 /\ bot 2%nat = 1 /\
  forall zp pert z t, two_layer top bot zp pert z t 2 = 0.
Proof.
  exists (fun _ => 1), (fun _ => 1). split; [reflexivity|]. split; [reflexivity|].
  intros. unfold two_layer. reflexivity.
Qed.

(** * Rankine vortex *)

(** Away from its centre, which moves with the background wind, the vortex adds a
    velocity at right angles to the radius whose size is Umax r/Rmax inside the
    core and Umax Rmax/r outside; it turns counter-clockwise. *)
Theorem c66_rankine Umax Rmax_ start vref x y t : 0 < Rmax_ ->
  let xr := x - (start 0%nat + vref 0%nat * t) in
  let yr := y - (start 1%nat + vref 1%nat * t) in
  let r := sqrt (xr * xr + yr * yr) in
  r <> 0 ->
  exists du dv,
    rankine Umax Rmax_ start vref x y t 0 = Some (vref 0%nat + du) /\
    rankine Umax Rmax_ start vref x y t 1 = Some (vref 1%nat + dv) /\
    rankine Umax Rmax_ start vref x y t 2 = Some (vref 2%nat) /\
    du * xr + dv * yr = 0 /\
    du * du + dv * dv = (Umax * (if Rle_dec r Rmax_ then r / Rmax_ else Rmax_ / r)) ^ 2 /\
    dv * xr - du * yr = Umax * (if Rle_dec r Rmax_ then r / Rmax_ else Rmax_ / r) * r.
Proof.
  intros HR xr yr r NR. unfold rankine. fold xr yr. fold r.
  destruct (Req_EM_T r 0); [contradiction|].
  assert (B : (if Rltb Rmax_ r then Rmax_ / r else r / Rmax_) = if Rle_dec r Rmax_ then r / Rmax_ else Rmax_ / r).
  { destruct (Rltb Rmax_ r) eqn:A; [apply Rltb_spec in A|apply Rltb_false in A]; destruct (Rle_dec r Rmax_); try reflexivity; lra. }
  rewrite B. set (V := Umax * _).
  assert (R2 : r * r = xr * xr + yr * yr).
  { unfold r. apply sqrt_sqrt. pose proof (Rle_0_sqr xr). pose proof (Rle_0_sqr yr). unfold Rsqr in *. lra. }
  exists (- (V * (yr / r))), (V * (xr / r)).
  split; [reflexivity|]. split; [reflexivity|]. split; [f_equal; ring|].
  split; [field; exact NR|]. split.
  - replace (- (V * (yr / r)) * - (V * (yr / r)) + V * (xr / r) * (V * (xr / r)))
      with (V ^ 2 * ((xr * xr + yr * yr) / (r * r))) by (field; exact NR).
    rewrite <- R2. field. exact NR.
  - replace (V * (xr / r) * xr - - (V * (yr / r)) * yr) with (V * ((xr * xr + yr * yr) / r)) by (field; exact NR).
    rewrite <- R2. field. exact NR.
Qed.

(** The added speed never exceeds Umax. *)
Theorem c66_rankine_bound Umax Rmax_ r : 0 <= Umax -> 0 < Rmax_ -> 0 < r ->
  0 <= Umax * (if Rle_dec r Rmax_ then r / Rmax_ else Rmax_ / r) <= Umax /\
  (r = Rmax_ -> Umax * (if Rle_dec r Rmax_ then r / Rmax_ else Rmax_ / r) = Umax).
Proof.
  intros U HR Hr.
  assert (K : 0 <= (if Rle_dec r Rmax_ then r / Rmax_ else Rmax_ / r) <= 1).
  { destruct (Rle_dec r Rmax_).
    - split; [apply Rmult_le_pos; [lra|left; apply Rinv_0_lt_compat; lra]|].
      apply (Rmult_le_reg_r Rmax_); [lra|]. unfold Rdiv. rewrite Rmult_assoc, Rinv_l by lra. lra.
    - split; [apply Rmult_le_pos; [lra|left; apply Rinv_0_lt_compat; lra]|].
      apply (Rmult_le_reg_r r); [lra|]. unfold Rdiv. rewrite Rmult_assoc, Rinv_l by lra. lra. }
  split; [nra|]. intros ->. destruct (Rle_dec Rmax_ Rmax_); [|lra]. field. lra.
Qed.

(** The whole pattern travels with the background wind. *)
Theorem c66_rankine_travels Umax Rmax_ start vref x y t n :
  rankine Umax Rmax_ start vref (x + vref 0%nat * t) (y + vref 1%nat * t) t n =
  rankine Umax Rmax_ start vref x y 0 n.
Proof.
  unfold rankine.
  replace (x + vref 0%nat * t - (start 0%nat + vref 0%nat * t)) with (x - (start 0%nat + vref 0%nat * 0)) by ring.
  replace (y + vref 1%nat * t - (start 1%nat + vref 1%nat * t)) with (y - (start 1%nat + vref 1%nat * 0)) by ring.
  reflexivity.
Qed.

(** A cell centre that meets the centre of the vortex divides zero by zero. *)
Theorem c66_rankine_centre_refuted Umax Rmax_ start vref t :
  rankine Umax Rmax_ start vref (start 0%nat + vref 0%nat * t) (start 1%nat + vref 1%nat * t) t 0 = None.
Proof.
  unfold rankine.
  replace (start 0%nat + vref 0%nat * t - (start 0%nat + vref 0%nat * t)) with 0 by ring.
  replace (start 1%nat + vref 1%nat * t - (start 1%nat + vref 1%nat * t)) with 0 by ring.
  replace (0 * 0 + 0 * 0) with 0 by ring. rewrite sqrt_0.
  destruct (Req_EM_T 0 0); [reflexivity|contradiction].
Qed.

(** A reference wind of (6, 8, 0) has speed 10. *)
Example c66_case : speed (fun n => match n with O => 6 | S O => 8 | _ => 0 end) = 10.
Proof.
  unfold speed. replace (6 * 6 + 8 * 8 + 0 * 0) with (10 * 10) by ring. apply sqrt_square. lra.
Qed.

Print Assumptions c66_linear_range. Print Assumptions c66_power_law. Print Assumptions c66_rankine.
