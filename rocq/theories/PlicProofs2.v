(** The cut volume of the code is the measure of the slab below the plane. *)
From Verif Require Import BoxR BoxRFacts Plic PlicSpec PlicVol PlicProofs.
Open Scope R_scope.

Lemma cut_volume_clipped : forall e m1 m2 m3 alpha r d,
  cut_volume_e e m1 m2 m3 alpha r d =
  let tmp := Rabs m1 * d + Rabs m2 + Rabs m3 in
  let '(b1, b2, b3) := sort3 (Rabs m1 / tmp * d) (Rabs m2 / tmp) (Rabs m3 / tmp) in
  clipped_volume e b1 b2 b3
    ((alpha - m1 * r + rmax 0 (- m1 * d) + rmax 0 (- m2) + rmax 0 (- m3)) / tmp).
Proof. reflexivity. Qed.

Lemma vol3_abs1 : forall x y z c, x <> 0 -> y <> 0 -> z <> 0 ->
  vol3 (Rabs x) y z (c + rmax 0 (- x)) = vol3 x y z c.
Proof.
  intros. rewrite rmax_Rmax. destruct (Rle_dec 0 x).
  - rewrite Rabs_right, Rmax_left by lra. f_equal; ring.
  - rewrite Rabs_left, Rmax_right by lra.
    replace (c + - x) with (c - x) by ring. apply vol3_refl; assumption.
Qed.
Lemma area2_abs1 : forall x y c, x <> 0 -> y <> 0 ->
  area2 (Rabs x) y (c + rmax 0 (- x)) = area2 x y c.
Proof.
  intros. rewrite rmax_Rmax. destruct (Rle_dec 0 x).
  - rewrite Rabs_right, Rmax_left by lra. f_equal; ring.
  - rewrite Rabs_left, Rmax_right by lra.
    replace (c + - x) with (c - x) by ring. apply area2_refl; assumption.
Qed.
Lemma Rabs_nz : forall x, x <> 0 -> Rabs x <> 0.
Proof. intros. pose proof (Rabs_pos_lt x H). lra. Qed.

Lemma vol3_abs : forall x y z c, x <> 0 -> y <> 0 -> z <> 0 ->
  vol3 (Rabs x) (Rabs y) (Rabs z) (c + rmax 0 (- x) + rmax 0 (- y) + rmax 0 (- z)) = vol3 x y z c.
Proof.
  intros. pose proof (Rabs_nz x H). pose proof (Rabs_nz y H0). pose proof (Rabs_nz z H1).
  rewrite vol3_sym23, vol3_sym12 by assumption. rewrite vol3_abs1 by assumption.
  rewrite vol3_sym23, vol3_sym12 by assumption. rewrite vol3_abs1 by assumption.
  rewrite vol3_sym23, vol3_sym12 by assumption. rewrite vol3_abs1 by assumption. reflexivity.
Qed.
Lemma area2_abs : forall x y c, x <> 0 -> y <> 0 ->
  area2 (Rabs x) (Rabs y) (c + rmax 0 (- x) + rmax 0 (- y)) = area2 x y c.
Proof.
  intros. pose proof (Rabs_nz x H). pose proof (Rabs_nz y H0).
  rewrite area2_sym by assumption. rewrite area2_abs1 by assumption.
  rewrite area2_sym by assumption. rewrite area2_abs1 by assumption. reflexivity.
Qed.
Lemma seg_abs : forall x c, x <> 0 ->
  (pos (c + rmax 0 (- x)) - pos (c + rmax 0 (- x) - Rabs x)) / Rabs x = (pos c - pos (c - x)) / x.
Proof.
  intros. rewrite rmax_Rmax. destruct (Rle_dec 0 x).
  - rewrite Rabs_right, Rmax_left by lra. rewrite Rplus_0_r. reflexivity.
  - rewrite Rabs_left, Rmax_right by lra.
    replace (c + - x - - x) with c by ring. replace (c + - x) with (c - x) by ring. field; lra.
Qed.

Lemma usorted_nz : forall x y z b1 b2 b3 a, 0 < x -> 0 < y -> 0 < z ->
  sort3 x y z = (b1, b2, b3) -> usorted b1 b2 b3 a = vol3 x y z a.
Proof.
  intros x y z b1 b2 b3 a Hx Hy Hz E. apply sort3_spec in E. destruct E as [O P].
  unfold usorted. destruct (Req_EM_T b1 0) as [Z|Z]; [intuition lra|].
  destruct P as [P|[P|[P|[P|[P|P]]]]]; destruct P as (-> & -> & ->).
  - reflexivity.
  - apply vol3_sym23; lra.
  - apply vol3_sym12; lra.
  - rewrite vol3_sym23, vol3_sym12 by lra. reflexivity.
  - rewrite vol3_sym12, vol3_sym23 by lra. reflexivity.
  - rewrite vol3_sym12, vol3_sym23, vol3_sym12 by lra. reflexivity.
Qed.

Lemma usorted_z1 : forall y z b1 b2 b3 a, 0 < y -> 0 < z ->
  sort3 0 y z = (b1, b2, b3) -> usorted b1 b2 b3 a = area2 y z a.
Proof.
  intros y z b1 b2 b3 a Hy Hz E. apply sort3_spec in E. destruct E as [O P].
  assert (Hb : b1 = 0) by (intuition lra).
  unfold usorted. destruct (Req_EM_T b1 0) as [Z|Z]; [|contradiction].
  destruct (Req_EM_T b2 0) as [Z2|Z2]; [intuition lra|].
  destruct P as [P|[P|[P|[P|[P|P]]]]]; destruct P as (? & ? & ?); subst; try lra;
    first [reflexivity | apply area2_sym; lra].
Qed.

Lemma usorted_z2 : forall x z b1 b2 b3 a, 0 < x -> 0 < z ->
  sort3 x 0 z = (b1, b2, b3) -> usorted b1 b2 b3 a = area2 x z a.
Proof.
  intros x z b1 b2 b3 a Hx Hz E. destruct (sort3_perm x 0 z) as [Q _].
  rewrite Q in E. eapply usorted_z1; eauto.
Qed.

Lemma usorted_z12 : forall z b1 b2 b3 a, 0 < z ->
  sort3 0 0 z = (b1, b2, b3) -> usorted b1 b2 b3 a = (pos a - pos (a - z)) / z.
Proof.
  intros z b1 b2 b3 a Hz E. apply sort3_spec in E. destruct E as [O P].
  assert (b1 = 0 /\ b2 = 0 /\ b3 = z) as (-> & -> & ->) by (intuition lra).
  unfold usorted. destruct (Req_EM_T 0 0); [|lra]. reflexivity.
Qed.

Lemma tmp_pos : forall m1 m2 m3 d, m3 <> 0 -> 0 < d -> 0 < Rabs m1 * d + Rabs m2 + Rabs m3.
Proof.
  intros. pose proof (Rabs_pos m1). pose proof (Rabs_pos m2). pose proof (Rabs_pos_lt m3 H).
  assert (0 <= Rabs m1 * d) by (apply Rmult_le_pos; lra). lra.
Qed.

Lemma sorted_facts : forall m1 m2 m3 d b1 b2 b3,
  0 < Rabs m1 * d + Rabs m2 + Rabs m3 -> 0 < d ->
  sort3 (Rabs m1 / (Rabs m1 * d + Rabs m2 + Rabs m3) * d)
        (Rabs m2 / (Rabs m1 * d + Rabs m2 + Rabs m3))
        (Rabs m3 / (Rabs m1 * d + Rabs m2 + Rabs m3)) = (b1, b2, b3) ->
  0 <= b1 <= b2 /\ b2 <= b3 /\ b1 + b2 + b3 = 1.
Proof.
  intros m1 m2 m3 d b1 b2 b3 Ht Hd E. set (N := Rabs m1 * d + Rabs m2 + Rabs m3) in *.
  assert (Hi : 0 < / N) by (apply Rinv_0_lt_compat; exact Ht).
  pose proof (Rabs_pos m1). pose proof (Rabs_pos m2). pose proof (Rabs_pos m3).
  assert (0 <= Rabs m1 / N * d) by (apply Rmult_le_pos; [apply Rmult_le_pos; lra|lra]).
  assert (0 <= Rabs m2 / N) by (apply Rmult_le_pos; lra).
  assert (0 <= Rabs m3 / N) by (apply Rmult_le_pos; lra).
  assert (S : Rabs m1 / N * d + Rabs m2 / N + Rabs m3 / N = 1).
  { unfold N. field. unfold N in Ht. lra. }
  apply sort3_spec in E. destruct E as [O P]. intuition lra.
Qed.

Lemma absdiv_pos : forall m t, m <> 0 -> 0 < / t -> 0 < Rabs m / t.
Proof. intros. apply Rmult_lt_0_compat; [apply Rabs_pos_lt; assumption|assumption]. Qed.

(** From the ordered, normalised form back to the slab. *)
Lemma usorted_slab : forall m1 m2 m3 alpha r d b1 b2 b3,
  m3 <> 0 -> 0 < d ->
  let tmp := Rabs m1 * d + Rabs m2 + Rabs m3 in
  sort3 (Rabs m1 / tmp * d) (Rabs m2 / tmp) (Rabs m3 / tmp) = (b1, b2, b3) ->
  d * usorted b1 b2 b3
    ((alpha - m1 * r + rmax 0 (- m1 * d) + rmax 0 (- m2) + rmax 0 (- m3)) / tmp)
  = slab_volume m1 m2 m3 alpha r d.
Proof.
  intros m1 m2 m3 alpha r d b1 b2 b3 H3 Hd tmp E.
  assert (Ht : 0 < tmp) by (apply tmp_pos; assumption).
  assert (Hi : 0 < / tmp) by (apply Rinv_0_lt_compat; exact Ht).
  assert (Hd' : Rabs m1 * d = Rabs (m1 * d)) by (rewrite Rabs_mult, (Rabs_right d) by lra; reflexivity).
  replace (- m1 * d) with (- (m1 * d)) by ring.
  destruct (Req_EM_T m1 0) as [Z1|Z1]; destruct (Req_EM_T m2 0) as [Z2|Z2].
  - subst m1 m2.
    rewrite Rabs_R0 in E. replace (0 / tmp * d) with 0 in E by (field; lra).
    replace (0 / tmp) with 0 in E by (field; lra).
    rewrite (usorted_z12 (Rabs m3 / tmp) b1 b2 b3) by (try exact E; apply absdiv_pos; assumption).
    rewrite slab_volume_0, cross_area_seg by assumption.
    rewrite <- (seg_abs m3 alpha) by assumption.
    replace (rmax 0 (- (0 * d))) with 0 by (rewrite rmax_Rmax, Rmax_left; lra).
    replace (rmax 0 (- 0)) with 0 by (rewrite rmax_Rmax, Rmax_left; lra).
    replace (alpha - 0 * r + 0 + 0) with alpha by ring.
    set (c := alpha + rmax 0 (- m3)).
    replace (c / tmp - Rabs m3 / tmp) with (/ tmp * (c - Rabs m3)) by (unfold Rdiv; ring).
    replace (c / tmp) with (/ tmp * c) by (unfold Rdiv; ring).
    rewrite !pos_scale by assumption. f_equal. pose proof (Rabs_nz m3 H3). field. split; lra.
  - subst m1.
    rewrite Rabs_R0 in E. replace (0 / tmp * d) with 0 in E by (field; lra).
    rewrite (usorted_z1 (Rabs m2 / tmp) (Rabs m3 / tmp) b1 b2 b3)
      by (try exact E; apply absdiv_pos; assumption).
    rewrite slab_volume_0, cross_area_eq by assumption.
    rewrite <- (area2_abs m2 m3 alpha) by assumption.
    replace (rmax 0 (- (0 * d))) with 0 by (rewrite rmax_Rmax, Rmax_left; lra).
    replace (alpha - 0 * r + 0) with alpha by ring.
    unfold Rdiv. rewrite (Rmult_comm (Rabs m2)), (Rmult_comm (Rabs m3)), (Rmult_comm _ (/ tmp)).
    rewrite area2_scale by (auto using Rabs_nz). reflexivity.
  - subst m2.
    rewrite Rabs_R0 in E. replace (0 / tmp) with 0 in E by (field; lra).
    rewrite (usorted_z2 (Rabs m1 / tmp * d) (Rabs m3 / tmp) b1 b2 b3).
    2:{ apply Rmult_lt_0_compat; [apply Rmult_lt_0_compat; [apply Rabs_pos_lt; auto|auto]|auto]. }
    2:{ apply Rmult_lt_0_compat; [apply Rabs_pos_lt; auto|auto]. }
    2:{ exact E. }
    rewrite slab_volume_mid0 by (auto; lra).
    assert (m1 * d <> 0) by (apply Rmult_integral_contrapositive_currified; lra).
    rewrite <- (area2_abs (m1 * d) m3) by auto.
    replace (rmax 0 (- 0)) with 0 by (rewrite rmax_Rmax, Rmax_left; lra).
    rewrite Rplus_0_r.
    replace (Rabs m1 / tmp * d) with (/ tmp * (Rabs (m1 * d))) by (rewrite <- Hd'; field; lra).
    unfold Rdiv. rewrite (Rmult_comm (Rabs m3)), (Rmult_comm _ (/ tmp)).
    rewrite area2_scale by (auto using Rabs_nz). reflexivity.
  - rewrite (usorted_nz (Rabs m1 / tmp * d) (Rabs m2 / tmp) (Rabs m3 / tmp) b1 b2 b3).
    2:{ apply Rmult_lt_0_compat; [apply Rmult_lt_0_compat; [apply Rabs_pos_lt; auto|auto]|auto]. }
    2:{ apply Rmult_lt_0_compat; [apply Rabs_pos_lt; auto|auto]. }
    2:{ apply Rmult_lt_0_compat; [apply Rabs_pos_lt; auto|auto]. }
    2:{ exact E. }
    rewrite slab_volume_eq by (auto; lra).
    assert (m1 * d <> 0) by (apply Rmult_integral_contrapositive_currified; lra).
    rewrite <- (vol3_abs (m1 * d) m2 m3) by auto.
    replace (Rabs m1 / tmp * d) with (/ tmp * (Rabs (m1 * d))) by (rewrite <- Hd'; field; lra).
    unfold Rdiv. rewrite (Rmult_comm (Rabs m2)), (Rmult_comm (Rabs m3)), (Rmult_comm _ (/ tmp)).
    rewrite vol3_scale by (auto using Rabs_nz). reflexivity.
Qed.

(** The measure theorem: the code's value times the slab width is the volume,
    up to the guard in the second branch. *)
Theorem cut_volume_measure : forall e m1 m2 m3 alpha r d,
  0 <= e -> m3 <> 0 -> 0 < d ->
  Rabs (d * cut_volume_e e m1 m2 m3 alpha r d - slab_volume m1 m2 m3 alpha r d) <= d * e / 4.
Proof.
  intros e m1 m2 m3 alpha r d He H3 Hd. rewrite cut_volume_clipped. cbv zeta.
  destruct (sort3 _ _ _) as [[b1 b2] b3] eqn:E.
  pose proof (tmp_pos m1 m2 m3 d H3 Hd) as Ht.
  destruct (sorted_facts _ _ _ _ _ _ _ Ht Hd E) as (O1 & O2 & Hs).
  rewrite <- (usorted_slab m1 m2 m3 alpha r d b1 b2 b3 H3 Hd E).
  rewrite <- Rmult_minus_distr_l, Rabs_mult, (Rabs_right d) by lra.
  unfold Rdiv. rewrite Rmult_assoc. apply Rmult_le_compat_l; [lra|].
  apply clipped_volume_usorted; assumption.
Qed.

(** Without the guard the value is the volume exactly. *)
Theorem cut_volume_measure_exact : forall m1 m2 m3 alpha r d,
  m3 <> 0 -> 0 < d -> d * cut_volume_e 0 m1 m2 m3 alpha r d = slab_volume m1 m2 m3 alpha r d.
Proof.
  intros. pose proof (cut_volume_measure 0 m1 m2 m3 alpha r d (Rle_refl 0) H H0) as B.
  replace (d * 0 / 4) with 0 in B by field.
  assert (R0 : d * cut_volume_e 0 m1 m2 m3 alpha r d - slab_volume m1 m2 m3 alpha r d = 0).
  { destruct (Req_EM_T (d * cut_volume_e 0 m1 m2 m3 alpha r d - slab_volume m1 m2 m3 alpha r d) 0) as [Q|Q]; [exact Q|].
    pose proof (Rabs_pos_lt _ Q). lra. }
  lra.
Qed.

(** Range. *)
Lemma usorted_mono_range : forall e b1 b2 b3 a,
  0 <= e -> 0 <= b1 <= b2 -> b2 <= b3 -> b1 + b2 + b3 = 1 -> 0 <= a <= /2 ->
  0 <= lower_volume e b1 b2 b3 a <= /2.
Proof.
  intros e b1 b2 b3 a He H1 H2 Hs Ha. unfold lower_volume.
  rcase; [|lra].
  rcase.
  { (* a < b1 *)
    assert (0 < b1 * b2 * b3) by (apply Rmult_lt_0_compat; [apply Rmult_lt_0_compat|]; lra).
    assert (a * a <= b1 * b2) by (apply Rmult_le_compat; lra).
    assert (0 <= a * a) by nra.
    assert (a * a * a <= b1 * b2 * b3) by (apply Rmult_le_compat; lra).
    assert (0 <= a * a * a) by nra.
    split.
    - apply Rmult_le_pos; [lra|]. left; apply Rinv_0_lt_compat; lra.
    - apply Rmult_le_reg_r with (6 * b1 * b2 * b3); [lra|].
      unfold Rdiv; rewrite Rmult_assoc, Rinv_l by lra. lra. }
  rcase.
  { (* a < b2 *)
    assert (0 < b2 * b3) by (apply Rmult_lt_0_compat; lra).
    assert (X1 : 0 <= a * (a - b1) / (2 * b2 * b3)).
    { apply Rmult_le_pos; [nra|]. left; apply Rinv_0_lt_compat; lra. }
    assert (X2 : 0 <= b1 * b1 / (6 * b2 * b3 + e)).
    { apply Rmult_le_pos; [nra|]. left; apply Rinv_0_lt_compat; lra. }
    split; [lra|].
    assert (X3 : b1 * b1 / (6 * b2 * b3 + e) <= b1 * b1 / (6 * b2 * b3)).
    { unfold Rdiv. apply Rmult_le_compat_l; [nra|]. apply Rinv_le_contravar; lra. }
    assert (a * (a - b1) / (2 * b2 * b3) + b1 * b1 / (6 * b2 * b3) <= /2).
    { apply Rmult_le_reg_r with (6 * b2 * b3); [lra|].
      replace ((a * (a - b1) / (2 * b2 * b3) + b1 * b1 / (6 * b2 * b3)) * (6 * b2 * b3))
        with (3 * (a * (a - b1)) + b1 * b1) by (field; split; lra).
      assert (a * (a - b1) <= b2 * (b2 - b1)) by (apply Rmult_le_compat; lra).
      assert (b2 * b2 <= b2 * b3) by nra. assert (b1 * b1 <= b1 * b2) by nra.
      assert (0 <= b1 * b2) by nra. lra. }
    lra. }
  (* remaining branches: monotone cubic with value one half at one half *)
  assert (Mono : forall V : R, (0 <= V) -> (V <= /2) -> 0 <= V <= /2) by (intros; split; assumption).
  rcase.
  { rewrite rmin_Rmin in *.
    assert (A1 : a < b1 + b2) by (eapply Rlt_le_trans; [exact C2|apply Rmin_l]).
    assert (A2 : a < b3) by (eapply Rlt_le_trans; [exact C2|apply Rmin_r]).
    assert (P : 0 < b1 * b2 * b3) by (apply Rmult_lt_0_compat; [apply Rmult_lt_0_compat|]; lra).
    assert (Num : a * a * (3 * (b1 + b2) - a) + b1 * b1 * (b1 - 3 * a) + b2 * b2 * (b2 - 3 * a)
                  = 6 * b1 * b2 * (a - (b1 + b2) / 2) + (b1 + b2 - a) * (b1 + b2 - a) * (b1 + b2 - a)) by field.
    set (s := b1 + b2 - a) in *.
    assert (S0 : 0 < s <= b1) by (unfold s; lra).
    split.
    - apply Rmult_le_pos; [|left; apply Rinv_0_lt_compat; lra].
      rewrite Num. replace (a - (b1 + b2) / 2) with ((b1 + b2) / 2 - s) by (unfold s; field).
      assert (0 <= s * s * s) by (apply Rmult_le_pos; nra).
      assert (0 <= b1 * b2) by nra.
      destruct (Rle_dec s ((b1 + b2) / 2)).
      + assert (0 <= b1 * b2 * ((b1 + b2) / 2 - s)) by (apply Rmult_le_pos; lra). lra.
      + exfalso. lra.
    - apply Rmult_le_reg_r with (6 * b1 * b2 * b3); [lra|].
      unfold Rdiv; rewrite Rmult_assoc, Rinv_l by lra. rewrite Num.
      replace (a - (b1 + b2) / 2) with ((b1 + b2) / 2 - s) by (unfold s; field).
      (* 6 b1 b2 ((b1+b2)/2 - s) + s^3 <= 3 b1 b2 b3, with b3 > a = b1+b2-s *)
      assert (s * s <= b1 * b2) by (apply Rmult_le_compat; lra).
      assert (s * s * s <= b1 * b2 * s) by (apply Rmult_le_compat_r; lra).
      assert (0 <= b1 * b2) by nra.
      assert (0 <= b1 * b2 * (b3 - (b1 + b2 - s))).
      { apply Rmult_le_pos; [lra|]. unfold s; lra. }
      assert (0 <= b1 * b2 * s) by (apply Rmult_le_pos; lra).
      nra. }
  rcase.
  { rewrite rmin_Rmin in *.
    assert (A2 : b3 <= a).
    { destruct (Rle_dec (b1 + b2) b3); [lra|]. rewrite Rmin_right in C2 by lra. lra. }
    assert (P : 0 < b1 * b2 * b3) by (apply Rmult_lt_0_compat; [apply Rmult_lt_0_compat|]; lra).
    set (t := /2 - a).
    assert (Num : a * a * (3 - 2 * a) + b1 * b1 * (b1 - 3 * a) + b2 * b2 * (b2 - 3 * a) + b3 * b3 * (b3 - 3 * a)
             = 3 * (b1 * b2 * b3) - 6 * (b1 * b2 + b1 * b3 + b2 * b3 - /4) * t + 2 * (t * t * t)).
    { unfold t. replace b3 with (1 - b1 - b2) by lra. field. }
    set (p := b1 * b2 + b1 * b3 + b2 * b3 - /4) in *.
    assert (T0 : 0 <= t <= /2 - b3) by (unfold t; lra).
    assert (Hp : 2 * (t * t) <= p).
    { assert (t * t <= (/2 - b3) * (/2 - b3)) by (apply Rmult_le_compat; lra).
      assert (p - 2 * ((/2 - b3) * (/2 - b3)) = b1 * b2 - 3 * ((/2 - b3) * (/2 - b3))).
      { unfold p. replace b2 with (1 - b1 - b3) by lra. field. }
      assert (2 * (/2 - b3) <= b1) by lra.
      assert ((2 * (/2 - b3)) * (2 * (/2 - b3)) <= b1 * b2) by (apply Rmult_le_compat; lra).
      nra. }
    split.
    - apply Rmult_le_pos; [|left; apply Rinv_0_lt_compat; lra].
      rewrite Num.
      (* 3 b1b2b3 >= 6 p t for t <= 1/2 - b3 *)
      assert (Hpt : p * t <= p * (/2 - b3)) by (apply Rmult_le_compat_l; nra).
      assert (t * t * t >= 0) by (apply Rle_ge; apply Rmult_le_pos; nra).
      assert (F : 2 * (p * (/2 - b3)) <= b1 * b2 * b3).
      { set (w := /2 - b3) in *.
        assert (p = b1 * b2 - w * w) by (unfold p, w; replace b2 with (1 - b1 - b3) by lra; field).
        assert (b3 = /2 - w) by (unfold w; lra).
        assert (0 <= w <= / 6) by (unfold w; lra).
        assert (0 <= b1 * b2) by nra.
        rewrite H0, H3.
        assert (0 <= b1 * b2 * (/2 - 3 * w)) by (apply Rmult_le_pos; lra).
        assert (0 <= w * w * w) by (apply Rmult_le_pos; nra).
        nra. }
      nra.
    - apply Rmult_le_reg_r with (6 * b1 * b2 * b3); [lra|].
      unfold Rdiv; rewrite Rmult_assoc, Rinv_l by lra. rewrite Num.
      assert (2 * (t * t) * t <= p * t) by (apply Rmult_le_compat_r; lra). nra. }
  { rewrite rmin_Rmin in *.
    assert (b1 + b2 <= a) by (rewrite Rmin_left in C2 by lra; lra).
    split.
    - apply Rmult_le_pos; [lra|]. left; apply Rinv_0_lt_compat; lra.
    - apply Rmult_le_reg_r with b3; [lra|].
      unfold Rdiv; rewrite Rmult_assoc, Rinv_l by lra. lra. }
Qed.

Lemma clipped_volume_range : forall e b1 b2 b3 x,
  0 <= e -> 0 <= b1 <= b2 -> b2 <= b3 -> b1 + b2 + b3 = 1 ->
  0 <= clipped_volume e b1 b2 b3 x <= 1.
Proof.
  intros e b1 b2 b3 x He H1 H2 Hs. unfold clipped_volume. rewrite rmax_Rmax, !rmin_Rmin.
  set (al := Rmax 0 (Rmin 1 x)).
  assert (Hal : 0 <= al <= 1).
  { unfold al. split; [apply Rmax_l|]. apply Rmax_lub; [lra|apply Rmin_l]. }
  clearbody al. rcase.
  - rewrite Rmin_left by lra. pose proof (usorted_mono_range e b1 b2 b3 al He H1 H2 Hs). lra.
  - rewrite Rmin_right by lra. pose proof (usorted_mono_range e b1 b2 b3 (1 - al) He H1 H2 Hs). lra.
Qed.

Lemma cut_volume_range : forall e m1 m2 m3 alpha r d,
  0 <= e -> 0 < d -> (m1 <> 0 \/ m2 <> 0 \/ m3 <> 0) ->
  0 <= cut_volume_e e m1 m2 m3 alpha r d <= 1.
Proof.
  intros e m1 m2 m3 alpha r d He Hd Hn. rewrite cut_volume_clipped. cbv zeta.
  destruct (sort3 _ _ _) as [[b1 b2] b3] eqn:E.
  assert (Ht : 0 < Rabs m1 * d + Rabs m2 + Rabs m3).
  { pose proof (Rabs_pos m1). pose proof (Rabs_pos m2). pose proof (Rabs_pos m3).
    assert (0 <= Rabs m1 * d) by (apply Rmult_le_pos; lra).
    destruct Hn as [Hn|[Hn|Hn]]; pose proof (Rabs_pos_lt _ Hn); [|lra|lra].
    assert (0 < Rabs m1 * d) by (apply Rmult_lt_0_compat; lra). lra. }
  destruct (sorted_facts _ _ _ _ _ _ _ Ht Hd E) as (O1 & O2 & Hs).
  apply clipped_volume_range; assumption.
Qed.
