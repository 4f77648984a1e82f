(** The plane offset computed from a volume fraction reproduces it. *)
From Verif Require Import BoxR BoxRFacts Plic PlicSpec PlicVol PlicProofs.
Open Scope R_scope.

Lemma cos_3a : forall t, cos (3 * t) = 4 * (cos t * cos t * cos t) - 3 * cos t.
Proof.
  intros. replace (3 * t) with (2 * t + t) by ring. rewrite cos_plus, cos_2a_cos, sin_2a.
  pose proof (sin2_cos2 t) as H. unfold Rsqr in H.
  replace (2 * sin t * cos t * sin t) with (2 * (sin t * sin t) * cos t) by ring.
  replace (sin t * sin t) with (1 - cos t * cos t) by lra. ring.
Qed.

(** The trigonometric root of u^3 - 3u = 2x. *)
Definition troot (x : R) : R :=
  let cs := cos (acos x / 3) in sqrt (3 * (1 - cs * cs)) - cs.

Lemma troot_spec : forall x, 0 <= x <= 1 ->
  -1 <= troot x <= 0 /\ troot x * troot x * troot x - 3 * troot x = 2 * x.
Proof.
  intros x Hx. unfold troot. set (t := acos x / 3). cbv zeta.
  assert (Hc : cos (3 * t) = x).
  { unfold t. replace (3 * (acos x / 3)) with (acos x) by field. apply cos_acos; lra. }
  rewrite cos_3a in Hc.
  assert (Hb : 0 <= t <= PI / 6).
  { unfold t. pose proof (acos_bound x) as B. split; [lra|].
    assert (acos x <= PI / 2).
    { destruct (Rle_dec (acos x) (PI / 2)); [assumption|].
      assert (cos (acos x) < 0) by (apply cos_lt_0; lra).
      rewrite cos_acos in H by lra. lra. }
    lra. }
  pose proof PI_RGT_0 as PIp.
  assert (C6 : cos (PI / 6) <= cos t).
  { destruct (Req_dec t (PI / 6)) as [->|]; [lra|]. left. apply cos_decreasing_1; lra. }
  rewrite cos_PI6 in C6.
  pose proof (COS_bound t) as Cb.
  set (c := cos t) in *. clearbody c.
  assert (S3 : sqrt 3 * sqrt 3 = 3) by (apply sqrt_sqrt; lra).
  assert (S3p : 0 < sqrt 3) by (apply sqrt_lt_R0; lra).
  assert (Cc : 3 / 4 <= c * c) by nra.
  assert (Cp : 0 < c) by nra.
  set (r := sqrt (3 * (1 - c * c))).
  assert (Rr : r * r = 3 * (1 - c * c)) by (apply sqrt_sqrt; nra).
  assert (Rp : 0 <= r) by apply sqrt_pos.
  assert (Rc : r <= c) by nra.
  split; [lra|].
  replace ((r - c) * (r - c) * (r - c) - 3 * (r - c))
    with (r * (r * r) - 3 * (r * r) * c + 3 * r * (c * c) - c * c * c - 3 * r + 3 * c) by ring.
  rewrite Rr.
  replace (r * (3 * (1 - c * c)) - 3 * (3 * (1 - c * c)) * c + 3 * r * (c * c) - c * c * c - 3 * r + 3 * c)
    with (2 * (4 * (c * c * c) - 3 * c)) by ring.
  lra.
Qed.

Lemma g_decr : forall u v, -1 <= u <= 1 -> -1 <= v <= 1 ->
  u * u * u - 3 * u <= v * v * v - 3 * v -> v <= u.
Proof.
  intros u v Hu Hv H. destruct (Rle_dec v u); [assumption|].
  exfalso. assert (D : 0 < (v - u) * (3 - (u * u + u * v + v * v))).
  { apply Rmult_lt_0_compat; [lra|].
    assert (u * u <= 1) by nra. assert (v * v <= 1) by nra.
    assert (u * v < 1).
    { destruct (Rle_dec u 0); destruct (Rle_dec 0 v); nra. }
    lra. }
  nra.
Qed.

Lemma cubic_root_troot : forall e p q c,
  cubic_root e p q c = sqrt p * troot (q / (p * sqrt p + e)) + c.
Proof. reflexivity. Qed.

(** Volume on the two cubic pieces. *)
Lemma vol3_mid : forall m1 m2 m3 a, 0 < m1 <= m2 -> m2 <= m3 -> m2 <= a <= m1 + m2 -> 
  vol3 m1 m2 m3 a =
  (6 * (m1 * m2) * ((m1 + m2) / 2 - (m1 + m2 - a))
   + (m1 + m2 - a) * (m1 + m2 - a) * (m1 + m2 - a) - cu (a - m3)) / (6 * m1 * m2 * m3).
Proof.
  intros m1 m2 m3 a H1 H2 H. unfold vol3.
  rewrite (cu_ge a), (cu_ge (a - m1)), (cu_ge (a - m2)),
    (cu_le (a - m1 - m2)), (cu_le (a - m1 - m3)), (cu_le (a - m2 - m3)), (cu_le (a - m1 - m2 - m3)) by lra.
  field. repeat split; lra.
Qed.

Lemma vol3_hex : forall m1 m2 m3 a, 0 < m1 <= m2 -> m2 <= m3 -> m1 + m2 + m3 = 1 ->
  m3 <= a <= /2 -> 
  vol3 m1 m2 m3 a =
  (3 * (m1 * m2 * m3) - 6 * (m1 * (m2 + m3) + m2 * m3 - /4) * (/2 - a)
   + 2 * ((/2 - a) * (/2 - a) * (/2 - a))) / (6 * m1 * m2 * m3).
Proof.
  intros m1 m2 m3 a H1 H2 Hs H. unfold vol3.
  rewrite (cu_ge a), (cu_ge (a - m1)), (cu_ge (a - m2)), (cu_ge (a - m3)),
    (cu_le (a - m1 - m2)), (cu_le (a - m1 - m3)), (cu_le (a - m2 - m3)), (cu_le (a - m1 - m2 - m3)) by lra.
  replace m3 with (1 - m1 - m2) by lra. field. repeat split; lra.
Qed.

Lemma vol3_m1 : forall m1 m2 m3, 0 < m1 <= m2 -> m2 <= m3 ->
  vol3 m1 m2 m3 m1 = m1 * m1 / (6 * m2 * m3).
Proof.
  intros m1 m2 m3 H1 H2. unfold vol3.
  rewrite (cu_ge m1), (cu_le (m1 - m1)), (cu_le (m1 - m2)), (cu_le (m1 - m3)),
    (cu_le (m1 - m1 - m2)), (cu_le (m1 - m1 - m3)), (cu_le (m1 - m2 - m3)), (cu_le (m1 - m1 - m2 - m3)) by lra.
  field. repeat split; lra.
Qed.

(** First piece. *)
Lemma rcbrt_spec : forall x, 0 <= x -> 0 <= rcbrt x /\ rcbrt x * rcbrt x * rcbrt x = x.
Proof.
  intros x Hx. unfold rcbrt. rcase.
  - split; [left; apply exp_pos|].
    rewrite <- !Rpower_plus. replace (/3 + /3 + /3) with 1 by field. apply Rpower_1; assumption.
  - assert (x = 0) by lra. subst. split; lra.
Qed.

Lemma cube_lt : forall a b, 0 <= a -> 0 <= b -> a * a * a < b * b * b -> a < b.
Proof.
  intros a b Ha Hb H. destruct (Rlt_dec a b); [assumption|]. exfalso.
  assert (b <= a) by lra. assert (b * b <= a * a) by nra.
  assert (b * b * b <= a * a * a) by (apply Rmult_le_compat; nra). lra.
Qed.

Lemma piece1 : forall m1 m2 m3 a, 0 < m1 <= m2 -> m2 <= m3 -> 0 <= a <= m1 ->
  vol3 m1 m2 m3 a = a * a * a / (6 * m1 * m2 * m3).
Proof.
  intros m1 m2 m3 a H1 H2 H. unfold vol3.
  rewrite (cu_ge a), (cu_le (a - m1)), (cu_le (a - m2)), (cu_le (a - m3)),
    (cu_le (a - m1 - m2)), (cu_le (a - m1 - m3)), (cu_le (a - m2 - m3)), (cu_le (a - m1 - m2 - m3)) by lra.
  field. repeat split; lra.
Qed.

Lemma piece2 : forall m1 m2 m3 a, 0 < m1 <= m2 -> m2 <= m3 -> m1 <= a <= m2 ->
  vol3 m1 m2 m3 a = a * (a - m1) / (2 * m2 * m3) + m1 * m1 / (6 * m2 * m3).
Proof.
  intros m1 m2 m3 a H1 H2 H. unfold vol3.
  rewrite (cu_ge a), (cu_ge (a - m1)), (cu_le (a - m2)), (cu_le (a - m3)),
    (cu_le (a - m1 - m2)), (cu_le (a - m1 - m3)), (cu_le (a - m2 - m3)), (cu_le (a - m1 - m2 - m3)) by lra.
  field. repeat split; lra.
Qed.

Lemma piece4 : forall m1 m2 m3 a, 0 < m1 <= m2 -> m2 <= m3 -> m1 + m2 <= a <= m3 ->
  vol3 m1 m2 m3 a = (a - (m1 + m2) / 2) / m3.
Proof.
  intros m1 m2 m3 a H1 H2 H. unfold vol3.
  rewrite (cu_ge a), (cu_ge (a - m1)), (cu_ge (a - m2)), (cu_le (a - m3)),
    (cu_ge (a - m1 - m2)), (cu_le (a - m1 - m3)), (cu_le (a - m2 - m3)), (cu_le (a - m1 - m2 - m3)) by lra.
  field. repeat split; lra.
Qed.

(** Second branch: for any shift [V1] of the fraction. *)
Lemma branch2 : forall m1 m2 m3 d, 0 <= m1 <= m2 -> 0 < m2 -> m2 <= m3 ->
  0 <= d -> d <= (m2 - m1) / (2 * m3) ->
  let a := /2 * (m1 + sqrt (m1 * m1 + 8 * m2 * m3 * d)) in
  m1 <= a <= m2 /\ a * (a - m1) = 2 * m2 * m3 * d.
Proof.
  intros m1 m2 m3 d H1 Hp H2 Hd Hu a.
  assert (H23 : 0 < m2 * m3) by (apply Rmult_lt_0_compat; lra).
  assert (Hd2 : 2 * m3 * d <= m2 - m1).
  { apply Rmult_le_compat_l with (r := 2 * m3) in Hu; [|lra].
    replace (2 * m3 * ((m2 - m1) / (2 * m3))) with (m2 - m1) in Hu by (field; lra). lra. }
  assert (0 <= m2 * m3 * d) by (apply Rmult_le_pos; lra).
  set (D := m1 * m1 + 8 * m2 * m3 * d) in *.
  assert (HD : 0 <= D) by (unfold D; nra).
  set (s := sqrt D) in *.
  assert (Ss : s * s = D) by (apply sqrt_sqrt; exact HD).
  assert (Sp : 0 <= s) by apply sqrt_pos.
  assert (S1 : m1 <= s).
  { destruct (Rle_dec m1 s); [assumption|exfalso]. assert (s * s < m1 * m1) by nra. unfold D in Ss. lra. }
  assert (S2 : s <= 2 * m2 - m1).
  { destruct (Rle_dec s (2 * m2 - m1)); [assumption|exfalso].
    assert ((2 * m2 - m1) * (2 * m2 - m1) < s * s) by (apply Rmult_le_0_lt_compat; lra).
    rewrite Ss in H0. unfold D in H0.
    assert (4 * (m2 * (2 * m3 * d)) <= 4 * (m2 * (m2 - m1))) by (apply Rmult_le_compat_l; [lra|apply Rmult_le_compat_l; lra]).
    lra. }
  unfold a. split; [lra|].
  replace (/2 * (m1 + s) * (/2 * (m1 + s) - m1)) with ((s * s - m1 * m1) / 4) by field.
  rewrite Ss. unfold D. field.
Qed.

Lemma sqrt_cube : forall p, 0 <= p -> 0 <= sqrt p /\ sqrt p * sqrt p = p.
Proof. intros; split; [apply sqrt_pos|apply sqrt_sqrt; assumption]. Qed.

Lemma div_range : forall q P e, 0 <= q -> 0 < P -> 0 <= e -> q <= P ->
  0 <= q / (P + e) <= q / P /\ q / P <= 1.
Proof.
  intros q P e Hq HP He Hle.
  assert (0 < / (P + e)) by (apply Rinv_0_lt_compat; lra).
  split; [split|].
  - apply Rmult_le_pos; lra.
  - unfold Rdiv. apply Rmult_le_compat_l; [lra|]. apply Rinv_le_contravar; lra.
  - apply Rmult_le_reg_r with P; [lra|]. unfold Rdiv; rewrite Rmult_assoc, Rinv_l; lra.
Qed.

(** Third branch. *)
Lemma branch3 : forall e m1 m2 m3 ch, 0 <= e -> 0 < m1 <= m2 -> m2 <= m3 ->
  m1 * m1 / (6 * m2 * m3) + (m2 - m1) / (2 * m3) <= ch ->
  ch <= (m1 + m2) / (2 * m3) ->
  (m3 < m1 + m2 -> ch <= vol3 m1 m2 m3 m3) ->
  let P := 2 * m1 * m2 * sqrt (2 * m1 * m2) in
  let a := cubic_root e (2 * m1 * m2) (3/2 * m1 * m2 * (m1 + m2 - 2 * m3 * ch)) (m1 + m2) in
  0 < P /\ m2 <= a <= m1 + m2 /\
  0 <= vol3 m1 m2 m3 a - ch <= e / (P + e) * ((m1 + m2) / (2 * m3) - ch).
Proof.
  intros e m1 m2 m3 ch He H1 H2 Hlo Hhi H3 P a.
  assert (Hp : 0 < 2 * m1 * m2) by (assert (0 < m1 * m2) by (apply Rmult_lt_0_compat; lra); lra).
  set (p := 2 * m1 * m2) in *.
  destruct (sqrt_cube p) as [Ks Kq]; [lra|].
  assert (Kp : 0 < sqrt p) by (apply sqrt_lt_R0; exact Hp).
  set (k := sqrt p) in *.
  assert (HP : 0 < P) by (unfold P; apply Rmult_lt_0_compat; lra).
  assert (HPk : P = k * k * k) by (unfold P; rewrite <- Kq; ring).
  set (w := m1 + m2 - 2 * m3 * ch).
  assert (Hw0 : 0 <= w).
  { unfold w. apply Rmult_le_compat_r with (r := 2 * m3) in Hhi; [|lra].
    replace ((m1 + m2) / (2 * m3) * (2 * m3)) with (m1 + m2) in Hhi by (field; lra). lra. }
  assert (Hw1 : w <= 2 * m1 - m1 * m1 / (3 * m2)).
  { unfold w. apply Rmult_le_compat_r with (r := 2 * m3) in Hlo; [|lra].
    replace ((m1 * m1 / (6 * m2 * m3) + (m2 - m1) / (2 * m3)) * (2 * m3))
      with (m1 * m1 / (3 * m2) + (m2 - m1)) in Hlo by (field; lra). lra. }
  set (q := 3/2 * m1 * m2 * w).
  assert (Hq : q = 3/4 * p * w) by (unfold q, p; field).
  assert (Hq0 : 0 <= q) by (rewrite Hq; apply Rmult_le_pos; lra).
  assert (Hq1 : 2 * q <= 3 * p * m1 - m1 * m1 * m1).
  { rewrite Hq. assert (3/4 * p * w <= 3/4 * p * (2 * m1 - m1 * m1 / (3 * m2))) by (apply Rmult_le_compat_l; lra).
    replace (3/4 * p * (2 * m1 - m1 * m1 / (3 * m2))) with (3/2 * p * m1 - m1 * m1 * m1 / 2) in H
      by (unfold p; field; lra). lra. }
  (* lower end of the branch *)
  set (ul := - m1 / k).
  assert (Hul : k * ul = - m1) by (unfold ul; field; lra).
  assert (Hm1k : m1 <= k).
  { destruct (Rle_dec m1 k) as [|N]; [assumption|exfalso].
    assert (k * k < m1 * m1) by (apply Rmult_le_0_lt_compat; lra).
    assert (m1 * m1 <= m1 * m2) by (apply Rmult_le_compat_l; lra).
    assert (p = 2 * (m1 * m2)) by (unfold p; ring). lra. }
  assert (Hul1 : -1 <= ul <= 0).
  { split.
    - apply Rmult_le_reg_l with k; [lra|]. rewrite Hul. lra.
    - apply Rmult_le_reg_l with k; [lra|]. rewrite Hul. lra. }
  assert (Hgl : P * (ul * ul * ul - 3 * ul) = 3 * p * m1 - m1 * m1 * m1).
  { rewrite HPk. replace (k * k * k * (ul * ul * ul - 3 * ul))
      with ((k * ul) * (k * ul) * (k * ul) - 3 * (k * k) * (k * ul)) by ring.
    rewrite Hul, Kq. ring. }
  assert (HqP : q <= P).
  { assert (ul * ul * ul - 3 * ul <= 2).
    { assert (0 <= (1 + ul) * (1 + ul) * (2 - ul)) by (apply Rmult_le_pos; [nra|lra]). nra. }
    assert (P * (ul * ul * ul - 3 * ul) <= P * 2) by (apply Rmult_le_compat_l; lra). lra. }
  destruct (div_range q P e Hq0 HP He HqP) as [[X0 X1] X2].
  set (x' := q / (P + e)) in *. set (x := q / P) in *.
  destruct (troot_spec x') as [[U0 U1] U2]; [lra|].
  destruct (troot_spec x) as [[W0 W1] W2]; [lra|].
  assert (Ea : a = k * troot x' + (m1 + m2)) by (unfold a; rewrite cubic_root_troot; reflexivity).
  set (u' := troot x') in *. set (u := troot x) in *.
  assert (HxP : P * x = q) by (unfold x; field; lra).
  assert (HxP' : (P + e) * x' = q) by (unfold x'; field; lra).
  assert (Huu : u <= u') by (apply g_decr; lra).
  assert (Hlu : ul <= u).
  { apply g_decr; try lra. rewrite W2. apply Rmult_le_reg_l with P; [exact HP|]. rewrite Hgl.
    replace (P * (2 * x)) with (2 * (P * x)) by ring. rewrite HxP. exact Hq1. }
  assert (Hku : forall z, ul <= z -> z <= 0 -> m2 <= k * z + (m1 + m2) <= m1 + m2).
  { intros z Z0 Z1. assert (k * ul <= k * z) by (apply Rmult_le_compat_l; lra).
    assert (k * z <= k * 0) by (apply Rmult_le_compat_l; lra). lra. }
  (* the volume as a function of the root *)
  assert (F : forall z y, ul <= z -> z <= 0 -> z * z * z - 3 * z = 2 * y ->
     vol3 m1 m2 m3 (k * z + (m1 + m2)) =
     (m1 + m2) / (2 * m3) - 2 * P * y / (6 * m1 * m2 * m3) - cu (k * z + (m1 + m2) - m3) / (6 * m1 * m2 * m3)).
  { intros z y Z0 Z1 Zy. rewrite vol3_mid by (auto; apply Hku; assumption).
    replace (m1 + m2 - (k * z + (m1 + m2))) with (- (k * z)) by ring.
    replace (6 * (m1 * m2) * ((m1 + m2) / 2 - - (k * z)) + - (k * z) * - (k * z) * - (k * z))
      with (3 * (m1 * m2) * (m1 + m2) - P * (z * z * z - 3 * z)).
    2:{ rewrite HPk. replace (k * k * k * (z * z * z - 3 * z))
          with ((k * z) * (k * z) * (k * z) - 3 * (k * k) * (k * z)) by ring.
        rewrite Kq. unfold p. field. }
    rewrite Zy. field. repeat split; lra. }
  assert (D6 : 0 < 6 * m1 * m2 * m3).
  { assert (0 < m1 * m2 * m3) by (apply Rmult_lt_0_compat; [apply Rmult_lt_0_compat|]; lra). lra. }
  (* the exact root gives ch *)
  assert (Hch : (m1 + m2) / (2 * m3) - 2 * P * x / (6 * m1 * m2 * m3) = ch).
  { replace (2 * P * x) with (2 * (P * x)) by ring. rewrite HxP. unfold q, w. field. repeat split; lra. }
  assert (Hcu : cu (k * u + (m1 + m2) - m3) = 0).
  { apply cu_le. destruct (Rlt_dec m3 (m1 + m2)) as [L|L].
    - specialize (H3 L).
      (* m3 corresponds to um with g(um) <= 2 x *)
      set (um := (m3 - (m1 + m2)) / k).
      assert (Hum : k * um = m3 - (m1 + m2)) by (unfold um; field; lra).
      assert (um <= 0) by (apply Rmult_le_reg_l with k; [lra|rewrite Hum; lra]).
      assert (ul <= um) by (apply Rmult_le_reg_l with k; [lra|rewrite Hum, Hul; lra]).
      pose proof (F um ((um * um * um - 3 * um) / 2) H0 H ltac:(field)) as Fm.
      rewrite Hum in Fm. replace (m3 - (m1 + m2) + (m1 + m2)) with m3 in Fm by ring.
      rewrite (cu_le (m3 - m3)) in Fm by lra.
      assert (G : 2 * P * ((um * um * um - 3 * um) / 2) / (6 * m1 * m2 * m3) <= 2 * P * x / (6 * m1 * m2 * m3)).
      { replace (0 / (6 * m1 * m2 * m3)) with 0 in Fm by (field; lra). lra. }
      assert (G2 : (um * um * um - 3 * um) <= 2 * x).
      { apply Rmult_le_reg_l with (P / (6 * m1 * m2 * m3)); [apply Rdiv_lt_0_compat; lra|].
        unfold Rdiv in *. lra. }
      assert (u <= um) by (apply g_decr; lra).
      assert (k * u <= k * um) by (apply Rmult_le_compat_l; lra). lra.
    - destruct (Hku u Hlu W1). lra. }
  pose proof (F u x Hlu W1 W2) as Fu. rewrite Hcu in Fu. replace (0 / (6 * m1 * m2 * m3)) with 0 in Fu by (field; lra).
  pose proof (F u' x' ltac:(lra) U1 U2) as Fu'.
  assert (Hau : k * u + (m1 + m2) <= k * u' + (m1 + m2))
    by (assert (k * u <= k * u') by (apply Rmult_le_compat_l; lra); lra).
  split; [exact HP|]. rewrite Ea. split; [apply Hku; lra|].
  split.
  - pose proof (vol3_mono_lip m1 m2 m3 _ _ ltac:(lra) ltac:(lra) ltac:(lra) Hau). lra.
  - rewrite Fu'.
    assert (0 <= cu (k * u' + (m1 + m2) - m3) / (6 * m1 * m2 * m3)).
    { apply Rmult_le_pos; [unfold cu; pose proof (pos_nonneg (k * u' + (m1 + m2) - m3));
        apply Rmult_le_pos; [nra|lra]|left; apply Rinv_0_lt_compat; lra]. }
    assert (E : (m1 + m2) / (2 * m3) - 2 * P * x' / (6 * m1 * m2 * m3) - ch
             = e / (P + e) * ((m1 + m2) / (2 * m3) - ch)).
    { rewrite <- Hch. unfold x', x. field. repeat split; lra. }
    lra.
Qed.

(** Last branch. *)
Lemma branch5 : forall e m1 m2 m3 ch, 0 <= e -> 0 < m1 <= m2 -> m2 <= m3 -> m1 + m2 + m3 = 1 ->
  m3 <= m1 + m2 -> vol3 m1 m2 m3 m3 <= ch -> ch <= /2 ->
  let p := m1 * (m2 + m3) + m2 * m3 - /4 in
  let a := cubic_root e p (3/2 * m1 * m2 * m3 * (/2 - ch)) (/2) in
  0 < p * sqrt p /\ m3 <= a <= /2 /\
  vol3 m1 m2 m3 a - ch = e / (p * sqrt p + e) * (/2 - ch).
Proof.
  intros e m1 m2 m3 ch He H1 H2 Hs H3 Hlo Hhi p a.
  set (t := /2 - m3).
  assert (T0 : 0 <= 2 * t <= m1) by (unfold t; lra).
  assert (Ep : p = m1 * m2 - t * t) by (unfold p, t; replace m2 with (1 - m1 - m3) by lra; field).
  assert (Hm : m1 * m1 <= m1 * m2) by (apply Rmult_le_compat_l; lra).
  assert (Hp1 : 3 * (t * t) <= p) by nra.
  assert (Hp : 0 < p) by nra.
  destruct (sqrt_cube p) as [Ks Kq]; [lra|].
  assert (Kp : 0 < sqrt p) by (apply sqrt_lt_R0; exact Hp).
  assert (Ea : a = sqrt p * troot (3/2 * m1 * m2 * m3 * (/2 - ch) / (p * sqrt p + e)) + /2)
    by (unfold a; rewrite cubic_root_troot; reflexivity).
  set (k := sqrt p) in *.
  set (P := p * k) in *.
  assert (HP : 0 < P) by (unfold P; apply Rmult_lt_0_compat; lra).
  assert (HPk : P = k * k * k) by (unfold P; rewrite <- Kq; ring).
  set (e3 := m1 * m2 * m3).
  assert (He3 : 0 < e3) by (unfold e3; apply Rmult_lt_0_compat; [apply Rmult_lt_0_compat|]; lra).
  set (q := 3/2 * m1 * m2 * m3 * (/2 - ch)) in *.
  assert (Hq : q = 3/2 * e3 * (/2 - ch)) by (unfold q, e3; ring).
  assert (Hq0 : 0 <= q) by (rewrite Hq; apply Rmult_le_pos; lra).
  set (ul := - t / k).
  assert (Hul : k * ul = - t) by (unfold ul; field; lra).
  assert (Htk : t <= k).
  { destruct (Rle_dec t k) as [|N]; [assumption|exfalso].
    assert (0 <= t * t) by nra.
    assert (k * k < t * t) by (apply Rmult_le_0_lt_compat; lra). lra. }
  assert (Hul1 : -1 <= ul <= 0).
  { split; apply Rmult_le_reg_l with k; try lra; rewrite Hul; lra. }
  assert (F : forall z y, ul <= z -> z <= 0 -> z * z * z - 3 * z = 2 * y ->
     m3 <= k * z + /2 <= /2 /\
     vol3 m1 m2 m3 (k * z + /2) = /2 - 2 * P * y / (3 * e3)).
  { intros z y Z0 Z1 Zy.
    assert (k * ul <= k * z) by (apply Rmult_le_compat_l; lra).
    assert (k * z <= k * 0) by (apply Rmult_le_compat_l; lra).
    assert (R : m3 <= k * z + /2 <= /2) by (unfold t in *; lra).
    split; [exact R|]. rewrite vol3_hex by auto.
    replace (/2 - (k * z + /2)) with (- (k * z)) by ring. fold p.
    replace (3 * (m1 * m2 * m3) - 6 * p * - (k * z) + 2 * (- (k * z) * - (k * z) * - (k * z)))
      with (3 * e3 - 2 * (P * (z * z * z - 3 * z))).
    2:{ rewrite HPk. replace (k * k * k * (z * z * z - 3 * z))
          with ((k * z) * (k * z) * (k * z) - 3 * (k * k) * (k * z)) by ring.
        rewrite Kq. unfold e3. ring. }
    rewrite Zy. unfold e3. field. repeat split; lra. }
  assert (Hgl : 2 * q <= P * (ul * ul * ul - 3 * ul)).
  { destruct (F ul ((ul * ul * ul - 3 * ul) / 2) (Rle_refl _) (proj2 Hul1) ltac:(field)) as [_ Fl].
    rewrite Hul in Fl. replace (- t + /2) with m3 in Fl by (unfold t; lra).
    rewrite Fl in Hlo.
    assert (X : (/2 - ch) <= 2 * P * ((ul * ul * ul - 3 * ul) / 2) / (3 * e3)) by lra.
    apply Rmult_le_compat_l with (r := 3 * e3) in X; [|lra].
    replace (3 * e3 * (2 * P * ((ul * ul * ul - 3 * ul) / 2) / (3 * e3)))
      with (P * (ul * ul * ul - 3 * ul)) in X by (field; lra). rewrite Hq. lra. }
  assert (HqP : q <= P).
  { assert (ul * ul * ul - 3 * ul <= 2).
    { assert (0 <= (1 + ul) * (1 + ul) * (2 - ul)) by (apply Rmult_le_pos; [nra|lra]). nra. }
    assert (P * (ul * ul * ul - 3 * ul) <= P * 2) by (apply Rmult_le_compat_l; lra). lra. }
  destruct (div_range q P e Hq0 HP He HqP) as [[X0 X1] X2].
  set (x' := q / (P + e)) in *. set (x := q / P) in *.
  destruct (troot_spec x') as [[U0 U1] U2]; [lra|].
  set (u' := troot x') in *.
  assert (HxP : P * x = q) by (unfold x; field; lra).
  assert (Hlu : ul <= u').
  { apply g_decr; try lra. rewrite U2. apply Rmult_le_reg_l with P; [exact HP|].
    assert (P * x' <= P * x) by (apply Rmult_le_compat_l; lra). lra. }
  split; [exact HP|]. rewrite Ea. destruct (F u' x' Hlu U1 U2) as [G1 G2].
  split; [exact G1|]. rewrite G2. unfold x'. rewrite Hq. field. split; lra.
Qed.
