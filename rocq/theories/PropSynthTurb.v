(** C85: turbulence from a file. *)
From Verif Require Import BoxR BoxRFacts VecSpace VecSpaceProofs SynthTurb SynthTurbSpec SynthTurbProofs.
Local Open Scope R_scope.

(** After every history of steps and regrids the force is that of the present time: in the cells of the box
    the formula of the specification, zero in all other cells and after the given duration. *)
Theorem c85_force : forall C S (es : list (tevent C)) pos t rho, fits (ts_box S) ->
  exists st, run S (es ++ [Advance t rho]) pos start = Ret (mesh_after es pos, st) /\
  forall c, let x := mesh_after es pos c in
    (active S t -> inside S x -> st_force st c = force S t x (rho c)) /\
    (~ active S t \/ ~ inside S x -> st_force st c = vzero).
Proof.
  intros C S es pos t rho Hf. rewrite run_app.
  assert (G0 : good S pos (@start C)) by (split; cbn; [discriminate|reflexivity]).
  destruct (run_ok S es Hf pos start G0) as (st1 & -> & G1). cbn [obind fst snd run].
  destruct (advance_ok S (mesh_after es pos) rho t st1 Hf G1) as (st2 & -> & _ & R). cbn [obind]. exists st2. split; [reflexivity|exact R].
Qed.

(** The frame of the box: the first axis points where the wind blows to, the second to its left. *)
Theorem c85_frame : forall S x u v w,
  tapp (frame S) (vsub x (ts_origin S)) = V3 (SynthTurbSpec.along S x) (aside S x) (above S x) /\
  vapp (V3 u v w) (frame S) = vadd (vadd (vscale (downwind (ts_wind S)) u) (vscale (leftward (ts_wind S)) v)) (vscale up w) /\
  vmag_sqr (vapp (V3 u v w) (frame S)) = u * u + v * v + w * w.
Proof.
  intros S x u v w. split; [apply local_coords|]. split; [apply global_velocity|]. rewrite global_velocity.
  unfold vmag_sqr, vadd, vscale, downwind, leftward, up. cbn. pose proof (sin2_cos2 (PI * ts_wind S / 180)) as H. unfold Rsqr in H.
  set (s := sin _) in *. set (c := cos _) in *. replace (u * u + v * v + w * w) with (u * u * (s * s + c * c) + v * v * (s * s + c * c) + w * w) by (rewrite H; ring). ring.
Qed.
(** A wind from the west blows east, one from the south blows north. *)
Example compass : downwind 270 = V3 1 0 0 /\ downwind 180 = V3 0 1 0.
Proof.
  unfold downwind. replace (PI * 270 / 180) with (PI / 2 + PI) by field. replace (PI * 180 / 180) with PI by field.
  rewrite neg_sin, neg_cos, sin_PI2, cos_PI2, sin_PI, cos_PI. split; f_equal; ring.
Qed.

(** Every read of the planes in memory is inside them, and the weights are weights. *)
Theorem c85_reads : forall T y z, fits T ->
  let jl := left_index T 1 y in let kl := left_index T 2 z in
  (forall q, In q (corners T jl (right_index T 1 jl) kl (right_index T 2 kl)) -> (0 <= q < plane_size T)%Z) /\
  0 <= right_weight T 1 y < 1 /\ 0 <= right_weight T 2 z < 1.
Proof.
  intros T y z Hf. cbv zeta.
  destruct (indices T 1 y Hf ltac:(lia)) as (A1 & B1 & C1 & R1). destruct (indices T 2 z Hf ltac:(lia)) as (A2 & B2 & C2 & R2).
  assert (S1 : (0 <= right_index T 1 (left_index T 1 y) < tb_n T 1)%Z) by (rewrite B1; apply Z.mod_pos_bound; lia).
  assert (S2 : (0 <= right_index T 2 (left_index T 2 z) < tb_n T 2)%Z) by (rewrite B2; apply Z.mod_pos_bound; lia).
  split.
  - intros q [<-|[<-|[<-|[<-|[]]]]]; unfold plane_size; nia.
  - rewrite C1, C2. pose proof (rfloor_bounds (y / tb_dx T 1)). pose proof (rfloor_bounds (z / tb_dx T 2)). lra.
Qed.

(** ** The turbulence *)
Lemma lerp_int f i : lerp f (IZR i) = f i.
Proof. unfold lerp. change Int_part with rfloor. rewrite (rfloor_unique (IZR i) i) by lra. cbv zeta. ring. Qed.
Lemma lerp_range f s lo hi : (forall i, lo <= f i <= hi) -> lo <= lerp f s <= hi.
Proof.
  intros H. unfold lerp. change Int_part with rfloor. cbv zeta. pose proof (rfloor_bounds s). pose proof (H (rfloor s)). pose proof (H (rfloor s + 1)%Z).
  set (t := s - IZR (rfloor s)). assert (0 <= t <= 1) by (unfold t; lra). clearbody t. nra.
Qed.
Lemma lerp_shift f s n : lerp f (s + IZR n) = lerp (fun i => f (i + n)%Z) s.
Proof.
  unfold lerp. change Int_part with rfloor. cbv zeta.
  assert (E : rfloor (s + IZR n) = (rfloor s + n)%Z) by (apply rfloor_unique; rewrite plus_IZR; pose proof (rfloor_bounds s); lra).
  rewrite E, plus_IZR. replace (rfloor s + n + 1)%Z with (rfloor s + 1 + n)%Z by ring. ring.
Qed.
Lemma lerp_ext f g s : (forall i, f i = g i) -> lerp f s = lerp g s.
Proof. intros H. unfold lerp. cbv zeta. rewrite !H. reflexivity. Qed.
Lemma lerp_close f g s e : (forall i, Rabs (f i - g i) <= e) -> Rabs (lerp f s - lerp g s) <= e.
Proof.
  intros H. unfold lerp. change Int_part with rfloor. cbv zeta. pose proof (rfloor_bounds s) as B. pose proof (H (rfloor s)) as H0. pose proof (H (rfloor s + 1)%Z) as H1.
  set (t := s - IZR (rfloor s)). assert (T : 0 <= t <= 1) by (unfold t; lra). clearbody t.
  replace ((1 - t) * f (rfloor s) + t * f (rfloor s + 1)%Z - ((1 - t) * g (rfloor s) + t * g (rfloor s + 1)%Z))
    with ((1 - t) * (f (rfloor s) - g (rfloor s)) + t * (f (rfloor s + 1)%Z - g (rfloor s + 1)%Z)) by ring.
  eapply Rle_trans; [apply Rabs_triang|]. rewrite !Rabs_mult, (Rabs_right (1 - t)), (Rabs_right t) by lra. nra.
Qed.
Lemma walk f K : (forall i : Z, Rabs (f (i + 1)%Z - f i) <= K) -> forall (n : nat) a, Rabs (f (a + Z.of_nat n)%Z - f a) <= K * INR n.
Proof.
  intros H. induction n as [|n IH]; intros a.
  - rewrite Z.add_0_r. replace (f a - f a) with 0 by ring. rewrite Rabs_R0. cbn. lra.
  - rewrite S_INR. replace (a + Z.of_nat (S n))%Z with (a + Z.of_nat n + 1)%Z by lia.
    replace (f (a + Z.of_nat n + 1)%Z - f a) with ((f (a + Z.of_nat n + 1)%Z - f (a + Z.of_nat n)%Z) + (f (a + Z.of_nat n)%Z - f a)) by ring.
    eapply Rle_trans; [apply Rabs_triang|]. pose proof (H (a + Z.of_nat n)%Z). pose proof (IH a). lra.
Qed.
Lemma lerp_lip f K s s' : (forall i : Z, Rabs (f (i + 1)%Z - f i) <= K) -> s <= s' -> Rabs (lerp f s' - lerp f s) <= K * (s' - s).
Proof.
  intros H L. assert (K0 : 0 <= K) by (pose proof (H 0%Z); pose proof (Rabs_pos (f (0 + 1)%Z - f 0%Z)); lra).
  unfold lerp. change Int_part with rfloor. cbv zeta. pose proof (rfloor_bounds s) as B. pose proof (rfloor_bounds s') as B'.
  set (i := rfloor s) in *. set (j := rfloor s') in *. set (t := s - IZR i). set (t' := s' - IZR j).
  assert (IJ : (i <= j)%Z) by (assert (IZR i < IZR j + 1) as Q by lra; rewrite <- plus_IZR in Q; apply lt_IZR in Q; lia).
  pose proof (H i) as Hi. pose proof (H j) as Hj.
  destruct (Z.eq_dec i j) as [E|E].
  - replace ((1 - t') * f j + t' * f (j + 1)%Z - ((1 - t) * f i + t * f (i + 1)%Z)) with ((t' - t) * (f (i + 1)%Z - f i)) by (rewrite E; ring).
    rewrite Rabs_mult. assert (T : t' - t = s' - s) by (unfold t, t'; rewrite E; ring). rewrite T, (Rabs_right (s' - s)) by lra. nra.
  - pose proof (walk f K H (Z.to_nat (j - (i + 1))) (i + 1)%Z) as W. rewrite Z2Nat.id in W by lia. rewrite INR_IZR_INZ, Z2Nat.id in W by lia.
    replace (i + 1 + (j - (i + 1)))%Z with j in W by ring. rewrite minus_IZR, plus_IZR in W.
    replace ((1 - t') * f j + t' * f (j + 1)%Z - ((1 - t) * f i + t * f (i + 1)%Z))
      with (t' * (f (j + 1)%Z - f j) + (f j - f (i + 1)%Z) + (1 - t) * (f (i + 1)%Z - f i)) by ring.
    assert (T : 0 <= t < 1) by (unfold t; lra). assert (T' : 0 <= t' < 1) by (unfold t'; lra).
    eapply Rle_trans; [apply Rabs_triang|]. eapply Rle_trans; [apply Rplus_le_compat_r, Rabs_triang|].
    rewrite !Rabs_mult, (Rabs_right t'), (Rabs_right (1 - t)) by lra.
    replace (K * (s' - s)) with (t' * K + K * (IZR j - (IZR i + 1)) + (1 - t) * K) by (unfold t, t'; ring). nra.
Qed.

(** At the points of the file it is the value of the file, between them within its range. *)
Theorem c85_nodes : forall T F comp i j k, fits T ->
  interpolated T F comp (IZR i * tb_dx T 0) (IZR j * tb_dx T 1) (IZR k * tb_dx T 2)
  = F comp (i mod tb_n T 0)%Z (j mod tb_n T 1)%Z (k mod tb_n T 2)%Z.
Proof.
  intros T F comp i j k Hf. destruct (Hf 0%Z ltac:(lia)) as (_ & P0 & _). destruct (Hf 1%Z ltac:(lia)) as (_ & P1 & _). destruct (Hf 2%Z ltac:(lia)) as (_ & P2 & _).
  unfold interpolated. replace (IZR i * tb_dx T 0 / tb_dx T 0) with (IZR i) by (field; lra).
  replace (IZR j * tb_dx T 1 / tb_dx T 1) with (IZR j) by (field; lra). replace (IZR k * tb_dx T 2 / tb_dx T 2) with (IZR k) by (field; lra).
  rewrite !lerp_int. reflexivity.
Qed.
Theorem c85_range : forall T F comp lo hi x y z, fits T ->
  (forall i j k, (0 <= i < tb_n T 0)%Z -> (0 <= j < tb_n T 1)%Z -> (0 <= k < tb_n T 2)%Z -> lo <= F comp i j k <= hi) ->
  lo <= interpolated T F comp x y z <= hi.
Proof.
  intros T F comp lo hi x y z Hf H. destruct (Hf 0%Z ltac:(lia)) as (N0 & _). destruct (Hf 1%Z ltac:(lia)) as (N1 & _). destruct (Hf 2%Z ltac:(lia)) as (N2 & _).
  unfold interpolated. repeat (apply lerp_range; intros). unfold repeated. apply H; apply Z.mod_pos_bound; lia.
Qed.
(** It repeats when the file has passed through once ... *)
Theorem c85_period : forall S t x n, fits (ts_box S) -> ref_speed (ts_profile S) <> 0 ->
  turbulence S (t + IZR n * (tb_len (ts_box S) 0 / ref_speed (ts_profile S))) x = turbulence S t x.
Proof.
  intros S t x n Hf V. destruct (Hf 0%Z ltac:(lia)) as (N0 & P0 & L0). unfold turbulence. cbv zeta.
  assert (E : forall comp y z, interpolated (ts_box S) (ts_file S) comp
      (ref_speed (ts_profile S) * (t + IZR n * (tb_len (ts_box S) 0 / ref_speed (ts_profile S)) - ts_offset S)) y z
      = interpolated (ts_box S) (ts_file S) comp (ref_speed (ts_profile S) * (t - ts_offset S)) y z).
  { intros comp y z. unfold interpolated. rewrite L0.
    replace (ref_speed (ts_profile S) * (t + IZR n * (IZR (tb_n (ts_box S) 0) * tb_dx (ts_box S) 0 / ref_speed (ts_profile S)) - ts_offset S) / tb_dx (ts_box S) 0)
      with (ref_speed (ts_profile S) * (t - ts_offset S) / tb_dx (ts_box S) 0 + IZR (n * tb_n (ts_box S) 0)) by (rewrite mult_IZR; field; split; lra || auto).
    rewrite lerp_shift. apply lerp_ext. intros i. apply lerp_ext. intros j. apply lerp_ext. intros k. unfold repeated. rewrite Z_mod_plus_full. reflexivity. }
  rewrite !E. reflexivity.
Qed.
(** ... and does not jump, not even when it starts again: neighbouring values of the repeated file that differ
    by at most K bound every change in time and place. *)
Theorem c85_no_jump : forall T F comp K, fits T ->
  (forall i j k, Rabs (repeated T F comp (i + 1) j k - repeated T F comp i j k) <= K /\
     Rabs (repeated T F comp i (j + 1) k - repeated T F comp i j k) <= K /\ Rabs (repeated T F comp i j (k + 1) - repeated T F comp i j k) <= K) ->
  forall x y z a, 0 <= a ->
  Rabs (interpolated T F comp (x + a) y z - interpolated T F comp x y z) <= K * (a / tb_dx T 0) /\
  Rabs (interpolated T F comp x (y + a) z - interpolated T F comp x y z) <= K * (a / tb_dx T 1) /\
  Rabs (interpolated T F comp x y (z + a) - interpolated T F comp x y z) <= K * (a / tb_dx T 2).
Proof.
  intros T F comp K Hf H x y z a A.
  assert (Q : forall d u, (d = 0 \/ d = 1 \/ d = 2)%Z -> u / tb_dx T d <= (u + a) / tb_dx T d /\ (u + a) / tb_dx T d - u / tb_dx T d = a / tb_dx T d).
  { intros d u Hd. destruct (Hf d Hd) as (_ & P & _). split; [|field; lra]. unfold Rdiv. apply Rmult_le_compat_r; [apply Rlt_le, Rinv_0_lt_compat, P|lra]. }
  unfold interpolated. split; [|split].
  - destruct (Q 0%Z x ltac:(lia)) as [L <-]. apply lerp_lip; [|exact L]. intros i. apply lerp_close. intros j. apply lerp_close. intros k. apply H.
  - apply lerp_close. intros i. destruct (Q 1%Z y ltac:(lia)) as [L <-]. apply lerp_lip; [|exact L]. intros j. apply lerp_close. intros k. apply H.
  - apply lerp_close. intros i. apply lerp_close. intros j. destruct (Q 2%Z z ltac:(lia)) as [L <-]. apply lerp_lip; [|exact L]. intros k. apply H.
Qed.
(** Size and direction of the force. *)
Theorem c85_size : forall S t x rho, 0 <= rho -> 0 < ts_eps S -> 0 <= mean_speed (ts_profile S) (component x (shear_dir (ts_profile S))) ->
  let v := turbulence S t x in
  vmag (force S t x rho) = rho * vmag v * (mean_speed (ts_profile S) (component x (shear_dir (ts_profile S))) + vmag v / 2) * gaussian (ts_eps S) (SynthTurbSpec.along S x) /\
  vcross (force S t x rho) v = vzero /\ 0 <= vdot (force S t x rho) v.
Proof.
  intros S t x rho R E M v. unfold force. fold v. set (V := mean_speed _ _) in *.
  assert (G : 0 <= gaussian (ts_eps S) (SynthTurbSpec.along S x)).
  { unfold gaussian. apply Rmult_le_pos; [apply Rlt_le, exp_pos|]. apply Rlt_le, Rinv_0_lt_compat, Rmult_lt_0_compat; [exact E|apply sqrt_lt_R0, PI_RGT_0]. }
  set (g := gaussian _ _) in *. clearbody g V v. assert (Mv : 0 <= vmag v) by apply sqrt_pos.
  set (f := rho * (V + vmag v / 2) * g). assert (F : 0 <= f) by (unfold f; repeat apply Rmult_le_pos; lra).
  split; [|split].
  - unfold vmag at 1. replace (vmag_sqr (vscale v f)) with (vmag_sqr v * (f * f)) by (unfold vmag_sqr, vscale; cbn; ring).
    rewrite sqrt_mult_alt by (unfold vmag_sqr; nra). rewrite sqrt_square by exact F. fold (vmag v). unfold f. ring.
  - unfold vcross, vscale, vzero. cbn. f_equal; ring.
  - unfold vdot, vscale. cbn. pose proof (Rle_0_sqr (vx v)) as X. pose proof (Rle_0_sqr (vy v)) as Y. pose proof (Rle_0_sqr (vz v)) as W. unfold Rsqr in *.
    cbn in X, Y, W |- *. replace (vx v * f * vx v + vy v * f * vy v + vz v * f * vz v) with (f * (vx v * vx v + vy v * vy v + vz v * vz v)) by ring. apply Rmult_le_pos; [exact F|]. lra.
Qed.

(** ** Mean wind *)

(** A profile that grows with height: linear between the two heights, constant outside. *)
Theorem c85_linear_profile : forall z0 z1 v0 v1 d P h, make_profile (MLinear z0 z1 v0 v1 d) = Ret P -> z0 < z1 -> vmag v0 <= vmag v1 ->
  (h <= z0 -> mean_speed P h = vmag v0) /\ (z1 <= h -> mean_speed P h = vmag v1) /\
  (z0 <= h <= z1 -> mean_speed P h = vmag v0 + (vmag v1 - vmag v0) * ((h - z0) / (z1 - z0))) /\
  ref_speed P = (vmag v0 + vmag v1) / 2 /\ shear_dir P = d.
Proof.
  intros z0 z1 v0 v1 d P h E Hz Hv. injection E as <-. cbn [mean_speed ref_speed shear_dir].
  set (a := vmag v0) in *. set (b := vmag v1) in *. set (q := (h - z0) / (z1 - z0)).
  assert (Q : a + (b - a) * (h - z0) / (z1 - z0) = a + (b - a) * q) by (unfold q; field; lra). rewrite Q.
  assert (Hq : q * (z1 - z0) = h - z0) by (unfold q; field; lra).
  rewrite rmax_spec, rmin_spec, half_dot.
  split; [|split; [|split; [|split; [lra|reflexivity]]]].
  - intros H. assert (q <= 0) by nra. assert (a + (b - a) * q <= a) by nra.
    rewrite Rmax_left; [reflexivity|]. eapply Rle_trans; [apply Rmin_l|assumption].
  - intros H. assert (1 <= q) by nra. assert (b <= a + (b - a) * q) by nra. rewrite Rmin_right by assumption. apply Rmax_right, Hv.
  - intros H. assert (0 <= q <= 1) by nra. rewrite Rmin_left by nra. apply Rmax_right. nra.
Qed.
(** A power law: the reference speed at the reference height above the offset, always within the limits. *)
Theorem c85_power_profile : forall zref vel alpha zoff umin umax d P h, make_profile (MPower zref vel alpha zoff umin umax d) = Ret P ->
  0 < vmag vel -> 0 < zref -> umin <= umax ->
  umin <= mean_speed P h <= umax /\ ref_speed P = vmag vel /\ shear_dir P = d /\
  (zoff < h -> umin <= vmag vel * Rpower ((h - zoff) / zref) alpha <= umax -> mean_speed P h = vmag vel * Rpower ((h - zoff) / zref) alpha) /\
  (umin <= vmag vel <= umax -> mean_speed P (zoff + zref) = vmag vel).
Proof.
  intros zref vel alpha zoff umin umax d P h E V Z U. injection E as <-. cbn [mean_speed ref_speed shear_dir].
  set (u := vmag vel) in *.
  assert (L : umin / u <= umax / u) by (unfold Rdiv; apply Rmult_le_compat_r; [apply Rlt_le, Rinv_0_lt_compat, V|exact U]).
  assert (Em : u * (umin / u) = umin) by (field; lra). assert (EM : u * (umax / u) = umax) by (field; lra).
  assert (Cl : forall p, umin <= u * rmin (rmax p (umin / u)) (umax / u) <= umax /\ (umin <= u * p <= umax -> u * rmin (rmax p (umin / u)) (umax / u) = u * p)).
  { intros p. rewrite rmin_spec, rmax_spec. split.
    - split; [rewrite <- Em at 1|rewrite <- EM at 2]; apply Rmult_le_compat_l; try lra; [apply Rmin_glb; [apply Rmax_r|exact L]|apply Rmin_r].
    - intros [A B]. rewrite Rmax_left, Rmin_left; [reflexivity| |]; apply (Rmult_le_reg_l u); lra. }
  split; [apply Cl|]. split; [reflexivity|]. split; [reflexivity|]. split.
  - intros H B. assert (Q : Rltb 0 (h - zoff) = true) by (apply Rltb_spec; lra). rewrite Q. apply Cl, B.
  - intros B. assert (Q : Rltb 0 (zoff + zref - zoff) = true) by (apply Rltb_spec; lra). rewrite Q.
    replace ((zoff + zref - zoff) / zref) with 1 by (field; lra). unfold Rpower. rewrite ln_1, Rmult_0_r, exp_0.
    rewrite (proj2 (Cl 1)); lra.
Qed.
(** A constant wind. *)
Theorem c85_constant_profile : forall vel P h, make_profile (MConst vel) = Ret P -> mean_speed P h = vmag vel /\ ref_speed P = vmag vel.
Proof. intros vel P h E. injection E as <-. split; reflexivity. Qed.

(** ** Limits *)

(** The density is applied twice: once in the force, once for all source terms of the momentum equation. The
    change of velocity in a step is proportional to the density. *)
Theorem c85_density_refuted : forall S t x rho v dt, rho <> 0 ->
  velocity_after rho v dt (vx (force S t x rho)) = v + dt * (rho * vx (force S t x 1)).
Proof. intros S t x rho v dt R. unfold velocity_after, momentum_source, force, vscale. cbn. field. exact R. Qed.
(** A linear profile that decreases with height is constant. *)
Theorem c85_decreasing_refuted : forall z0 z1 v0 v1 d P h, make_profile (MLinear z0 z1 v0 v1 d) = Ret P -> vmag v1 <= vmag v0 -> mean_speed P h = vmag v0.
Proof.
  intros z0 z1 v0 v1 d P h E H. injection E as <-. cbn [mean_speed]. rewrite rmax_spec, rmin_spec. apply Rmax_left.
  eapply Rle_trans; [apply Rmin_r|exact H].
Qed.
Lemma in_period_small len x : 0 <= x < len -> in_period len x = x.
Proof.
  intros H. unfold in_period. rewrite (rfloor_unique (x / len) 0); [cbn; ring|].
  split; [apply (Rmult_le_reg_r len)|apply (Rmult_lt_reg_r len)]; try lra; unfold Rdiv; rewrite Rmult_assoc, Rinv_l by lra; lra.
Qed.
(** A file whose spacings fall short of the length of the box is accepted; a point of the box is looked for in
    a row behind the last, in the second plane past the end of the memory. *)
Theorem c85_short_refuted : forall T, 0 < tb_dx T 1 -> (1 <= tb_n T 1)%Z -> (1 <= tb_n T 2)%Z -> IZR (tb_n T 1) * tb_dx T 1 < tb_len T 1 ->
  exists y, 0 <= y <= tb_len T 1 /\ forall jr kl kr, (0 <= kl)%Z ->
    exists q, In q (map (fun i => i + plane_size T)%Z (corners T (left_index T 1 y) jr kl kr)) /\ (2 * plane_size T <= q)%Z.
Proof.
  intros T P N1 N2 L. exists (IZR (tb_n T 1) * tb_dx T 1). assert (N : 1 <= IZR (tb_n T 1)) by (apply (IZR_le 1); lia).
  split; [nra|]. intros jr kl kr K. assert (E : left_index T 1 (IZR (tb_n T 1) * tb_dx T 1) = tb_n T 1).
  { unfold left_index. rewrite in_period_small by nra. apply rfloor_unique. replace (IZR (tb_n T 1) * tb_dx T 1 / tb_dx T 1) with (IZR (tb_n T 1)) by (field; lra). lra. }
  rewrite E. eexists. split; [left; reflexivity|]. unfold plane_size. nia.
Qed.
(** A file that holds both ends of the box: up to the upper edge the last two rows are used, on the edge
    the first row. *)
Theorem c85_edge_refuted : forall T y, 0 < tb_dx T 1 -> (2 <= tb_n T 1)%Z -> tb_len T 1 = IZR (tb_n T 1 - 1) * tb_dx T 1 ->
  (tb_len T 1 - tb_dx T 1 <= y < tb_len T 1 -> left_index T 1 y = (tb_n T 1 - 2)%Z /\ right_index T 1 (left_index T 1 y) = (tb_n T 1 - 1)%Z) /\
  left_index T 1 (tb_len T 1) = 0%Z /\ right_weight T 1 (tb_len T 1) = 0.
Proof.
  intros T y P N L. assert (N' : 1 <= IZR (tb_n T 1 - 1)) by (apply (IZR_le 1); lia). split.
  - intros Y. assert (E : left_index T 1 y = (tb_n T 1 - 2)%Z).
    { unfold left_index. rewrite in_period_small by nra. apply rfloor_unique.
      assert (Q : y / tb_dx T 1 * tb_dx T 1 = y) by (field; lra). rewrite minus_IZR in *. set (q := y / tb_dx T 1) in *. nra. }
    rewrite E. split; [reflexivity|]. unfold right_index. destruct (Z.leb_spec (tb_n T 1) (tb_n T 1 - 2 + 1)); lia.
  - assert (E : in_period (tb_len T 1) (tb_len T 1) = 0).
    { unfold in_period. rewrite (rfloor_unique _ 1); [cbn; ring|]. replace (tb_len T 1 / tb_len T 1) with 1 by (field; rewrite L; nra). lra. }
    assert (F : left_index T 1 (tb_len T 1) = 0%Z).
    { unfold left_index. rewrite E. apply rfloor_unique. unfold Rdiv. rewrite Rmult_0_l. lra. }
    split; [exact F|]. unfold right_weight. rewrite E, F. field. lra.
Qed.

(** ** A case *)
Definition ex_box : tbox := TB (fun d => if (d =? 0)%Z then 8%Z else 4%Z) (fun d => if (d =? 0)%Z then 16 else 4) (fun d => if (d =? 0)%Z then 2 else 1).
Definition ex_file : tfile := fun comp i j k => if (comp =? 0)%Z then IZR (i + j + k) else 0.
Definition ex_set : tset := TS ex_box ex_file 270 (V3 0 0 10) (PConst 2) 1 0 5.
Example case_fits : fits ex_box.
Proof. intros d [->|[->| ->]]; cbn; (split; [lia|split; lra]). Qed.
Example case_inside : inside ex_set (V3 0 0 10) /\ ~ inside ex_set (V3 0 3 10) /\ active ex_set 1 /\ ~ active ex_set 6.
Proof.
  assert (A : forall y, aside ex_set (V3 0 y 10) = y).
  { intros y. unfold aside, leftward, vdot. cbn. replace (PI * 270 / 180) with (PI / 2 + PI) by field. rewrite neg_cos, neg_sin, cos_PI2, sin_PI2. ring. }
  assert (B : forall y, above ex_set (V3 0 y 10) = 0) by (intros y; unfold above; cbn; ring).
  unfold inside, active. rewrite !A, !B, Rabs_R0, (Rabs_right 3) by lra. cbn. repeat split; lra.
Qed.
(** At time 1 the second plane of the file has arrived; in the middle of the box its value is 1 + 2 + 2. *)
Example case_value : turbulence ex_set 1 (V3 0 0 10) = V3 5 0 0.
Proof.
  unfold turbulence. cbv zeta. destruct compass as [C _]. unfold aside, above. cbn [ts_wind ts_box ts_file ts_profile ts_offset ts_origin ex_set ref_speed]. rewrite C.
  assert (A : vdot (vsub (V3 0 0 10) (V3 0 0 10)) (leftward 270) = 0) by (unfold vdot; cbn; ring). rewrite A.
  assert (E : forall comp, interpolated ex_box ex_file comp (2 * (1 - 0)) (0 + tb_len ex_box 1 / 2) (vz (V3 0 0 10) - vz (V3 0 0 10) + tb_len ex_box 2 / 2) = ex_file comp 1%Z 2%Z 2%Z).
  { intros comp. replace (2 * (1 - 0)) with (IZR 1 * tb_dx ex_box 0) by (cbn; lra). replace (0 + tb_len ex_box 1 / 2) with (IZR 2 * tb_dx ex_box 1) by (cbn; lra).
    replace (vz (V3 0 0 10) - vz (V3 0 0 10) + tb_len ex_box 2 / 2) with (IZR 2 * tb_dx ex_box 2) by (cbn; lra). rewrite c85_nodes by apply case_fits. reflexivity. }
  rewrite !E. unfold vadd, vscale, up, leftward. cbn. f_equal; ring.
Qed.
Example case_run : exists st, run ex_set ([Advance 1 (fun _ => 1); Regrid (fun n : nat => V3 (INR n) 0 10)] ++ [Advance 6 (fun _ => 1)]) (fun _ => V3 0 0 10) start
  = Ret (fun n : nat => V3 (INR n) 0 10, st) /\ st_force st 3%nat = vzero.
Proof.
  destruct (c85_force nat ex_set [Advance 1 (fun _ => 1); Regrid (fun n : nat => V3 (INR n) 0 10)] (fun _ => V3 0 0 10) 6 (fun _ => 1) case_fits) as (st & E & H).
  exists st. split; [exact E|]. apply (H 3%nat). left. apply case_inside.
Qed.
Example case_power : exists P, make_profile (MPower 90 (V3 8 0 0) 0.2 0 1 20 2) = Ret P /\ 0 < vmag (V3 8 0 0).
Proof. eexists. split; [reflexivity|]. apply sqrt_lt_R0. unfold vmag_sqr. cbn. lra. Qed.

Print Assumptions c85_force.
Print Assumptions c85_frame.
Print Assumptions c85_reads.
Print Assumptions c85_nodes.
Print Assumptions c85_range.
Print Assumptions c85_period.
Print Assumptions c85_no_jump.
Print Assumptions c85_size.
Print Assumptions c85_linear_profile.
Print Assumptions c85_power_profile.
Print Assumptions c85_constant_profile.
Print Assumptions c85_density_refuted.
Print Assumptions c85_decreasing_refuted.
Print Assumptions c85_short_refuted.
Print Assumptions c85_edge_refuted.
