(** The plane offset computed from a volume fraction reproduces it:
    all branches and the guarded regime. *)
From Verif Require Import BoxR BoxRFacts Plic PlicSpec PlicVol PlicProofs PlicIntercept.
Open Scope R_scope.

Lemma V3_hex : forall m1 m2 m3, 0 < m1 <= m2 -> m2 <= m3 -> m3 <= m1 + m2 ->
  vol3 m1 m2 m3 m3 = (m3 * m3 * (3 * (m1 + m2) - m3) + m1 * m1 * (m1 - 3 * m3)
                      + m2 * m2 * (m2 - 3 * m3)) / (6 * m1 * m2 * m3).
Proof.
  intros. rewrite vol3_mid by lra. rewrite (cu_le (m3 - m3)) by lra. field. repeat split; lra.
Qed.

Lemma V3_le : forall m1 m2 m3, 0 < m1 <= m2 -> m2 <= m3 -> m3 <= m1 + m2 ->
  vol3 m1 m2 m3 m3 <= (m1 + m2) / (2 * m3).
Proof.
  intros m1 m2 m3 H1 H2 H3. rewrite vol3_mid by lra. rewrite (cu_le (m3 - m3)) by lra.
  assert (0 < m1 * m2) by (apply Rmult_lt_0_compat; lra).
  assert (0 < m1 * m2 * m3) by (apply Rmult_lt_0_compat; lra).
  set (s := m1 + m2 - m3). assert (0 <= s <= m1) by (unfold s; lra).
  apply Rmult_le_reg_r with (6 * m1 * m2 * m3); [lra|].
  replace ((6 * (m1 * m2) * ((m1 + m2) / 2 - s) + s * s * s - 0) / (6 * m1 * m2 * m3) * (6 * m1 * m2 * m3))
    with (6 * (m1 * m2) * ((m1 + m2) / 2 - s) + s * s * s) by (field; repeat split; lra).
  replace ((m1 + m2) / (2 * m3) * (6 * m1 * m2 * m3)) with (3 * (m1 * m2) * (m1 + m2)) by (field; lra).
  assert (s * s <= m1 * m2) by (apply Rmult_le_compat; lra).
  assert (s * s * s <= m1 * m2 * s) by (apply Rmult_le_compat_r; lra).
  assert (0 <= m1 * m2 * s) by (apply Rmult_le_pos; lra). lra.
Qed.

Lemma vol3_half : forall m1 m2 m3, 0 < m1 <= m2 -> m2 <= m3 -> m1 + m2 + m3 = 1 ->
  vol3 m1 m2 m3 (/2) = /2.
Proof.
  intros. pose proof (vol3_compl m1 m2 m3 (/2) ltac:(lra) ltac:(lra) ltac:(lra)) as E.
  rewrite H1 in E. replace (1 - /2) with (/2) in E by field. lra.
Qed.

Lemma third : forall m1 m2 m3, 0 <= m1 <= m2 -> m2 <= m3 -> m1 + m2 + m3 = 1 -> / m3 <= 3.
Proof.
  intros. replace 3 with (/ (/3)) by field. apply Rinv_le_contravar; lra.
Qed.

Lemma over_m3 : forall m1 m2 m3 x, 0 <= m1 <= m2 -> m2 <= m3 -> m1 + m2 + m3 = 1 -> 0 <= x ->
  x / m3 <= 3 * x.
Proof.
  intros. unfold Rdiv. rewrite (Rmult_comm 3). apply Rmult_le_compat_l; [assumption|].
  eapply third; eauto.
Qed.

Lemma piece5_gap : forall m1 m2 m3, 0 < m1 <= m2 -> m2 <= m3 -> m1 + m2 + m3 = 1 -> m3 <= m1 + m2 ->
  /2 - vol3 m1 m2 m3 m3 <= 3 * m1.
Proof.
  intros m1 m2 m3 H1 H2 Hs H3. 
  pose proof (vol3_half m1 m2 m3 H1 H2 Hs) as Hh.
  pose proof (vol3_mono_lip m1 m2 m3 m3 (/2) ltac:(lra) ltac:(lra) ltac:(lra) ltac:(lra)) as [_ L].
  pose proof (over_m3 m1 m2 m3 (/2 - m3) ltac:(lra) H2 Hs ltac:(lra)). lra.
Qed.

(** The result where the guard on [pr] is inactive. *)
Lemma intercept_main : forall e m1 m2 m3 ch, 0 <= e ->
  0 <= m1 <= m2 -> m2 <= m3 -> m1 + m2 + m3 = 1 -> 0 <= ch <= /2 ->
  (m1 = 0 \/ (0 < m1 /\ e <= 6 * m1 * m2 * m3)) ->
  usorted m1 m2 m3 (intercept_sorted e m1 m2 m3 ch) = ch \/
  (0 < m1 /\ exists P, m1 * m1 * m1 / 2 <= P /\
    0 <= usorted m1 m2 m3 (intercept_sorted e m1 m2 m3 ch) - ch <= e / (P + e) * (3 * m1)).
Proof.
  intros e m1 m2 m3 ch He H1 H2 Hs Hch [Z|[H0 Hg]].
  { (* two-dimensional plane *)
    left. subst m1. unfold intercept_sorted, usorted.
    destruct (Req_EM_T 0 0) as [_|N]; [|lra].
    replace (0 * 0 * 0 / rmax (6 * 0 * m2 * m3) e) with 0 by (unfold Rdiv; ring).
    rewrite !Rplus_0_l, !Rminus_0_r.
    destruct (Rltb m3 m2) eqn:C0; [apply Rltb_spec in C0; lra|clear C0].
    destruct (Rltb ch 0) eqn:C; [apply Rltb_spec in C; lra|clear C].
    rcase.
    - assert (Hm2 : 0 < m2).
      { destruct (Req_EM_T m2 0) as [->|]; [|lra]. unfold Rdiv in C. rewrite Rmult_0_r, Rmult_0_l in C. lra. }
      destruct (Req_EM_T m2 0); [lra|].
      destruct (branch2 0 m2 m3 ch ltac:(lra) Hm2 H2 ltac:(lra)) as [A B].
      { replace ((m2 - 0) / (2 * m3)) with (/2 * m2 / m3) by (field; lra). lra. }
      cbv zeta in A, B. rewrite Rplus_0_l in A, B.
      set (a := / 2 * sqrt (0 * 0 + 8 * m2 * m3 * ch)) in *.
      replace (/ 2 * sqrt (0 * 0 + 8 * m2 * m3 * ch)) with a by reflexivity.
      unfold area2. rewrite (sq_ge a), (sq_le (a - m2)), (sq_le (a - m3)), (sq_le (a - m2 - m3)) by lra.
      rewrite Rminus_0_r in B. replace (a * a - 0 - 0 + 0) with (a * a) by ring. rewrite B. field. split; lra.
    - rcase.
      + set (a := m3 * ch + /2 * m2).
        assert (Hm3c : /2 * m2 <= m3 * ch).
        { apply Rmult_le_compat_r with (r := m3) in C; [|lra].
          unfold Rdiv in C. rewrite Rmult_assoc, Rinv_l in C by lra. lra. }
        assert (m3 * ch <= m3 * /2) by (apply Rmult_le_compat_l; lra).
        destruct (Req_EM_T m2 0) as [->|N2].
        * assert (m3 = 1) by lra. subst m3. unfold a. rewrite (pos_ge), (pos_le) by lra. field.
        * unfold area2. rewrite (sq_ge a), (sq_ge (a - m2)), (sq_le (a - m3)), (sq_le (a - m2 - m3)) by (unfold a; lra).
          unfold a. field. split; lra.
      + assert (m2 = /2 /\ m3 = /2) as [-> ->] by lra.
        assert (Hc2 : ch = /2).
        { assert (X : / 2 * / 2 / / 2 = /2) by field. lra. }
        subst ch.
        destruct (Req_EM_T (/2) 0); [lra|].
        unfold cubic_root.
        replace (0 * (/ 2 + / 2) + / 2 * / 2 - / 4) with 0 by field.
        rewrite sqrt_0, Rmult_0_l. rewrite Rplus_0_l.
        unfold area2. rewrite (sq_ge (/2)), (sq_le (/2 - /2)), (sq_le (/2 - /2 - /2)) by lra. field. }
  (* three-dimensional plane, exact products *)
  assert (Hpr : rmax (6 * m1 * m2 * m3) e = 6 * m1 * m2 * m3) by (rewrite rmax_Rmax, Rmax_left; lra).
  assert (D6 : 0 < m1 * m2 * m3) by (apply Rmult_lt_0_compat; [apply Rmult_lt_0_compat|]; lra).
  assert (V1e : m1 * m1 * m1 / (6 * m1 * m2 * m3) = m1 * m1 / (6 * m2 * m3)) by (field; repeat split; lra).
  assert (Hm1m3 : 0 <= m1 * m1 / (6 * m2 * m3)).
  { apply Rmult_le_pos; [nra|]. left; apply Rinv_0_lt_compat.
    assert (0 < m2 * m3) by (apply Rmult_lt_0_compat; lra). lra. }
  unfold usorted. destruct (Req_EM_T m1 0) as [Z|Z]; [lra|].
  unfold intercept_sorted. rewrite Hpr.
  rcase.
  { left. destruct (rcbrt_spec (6 * m1 * m2 * m3 * ch)) as [R0 R3]; [apply Rmult_le_pos; lra|].
    set (a := rcbrt (6 * m1 * m2 * m3 * ch)) in *.
    assert (a < m1).
    { apply cube_lt; try lra. rewrite R3.
      apply Rmult_lt_compat_l with (r := 6 * m1 * m2 * m3) in C; [|lra].
      replace (6 * m1 * m2 * m3 * (m1 * m1 * m1 / (6 * m1 * m2 * m3))) with (m1 * m1 * m1) in C
        by (field; repeat split; lra). lra. }
    rewrite piece1 by lra. rewrite R3. field. repeat split; lra. }
  rewrite V1e in *.
  rcase.
  { left.
    destruct (branch2 m1 m2 m3 (ch - m1 * m1 / (6 * m2 * m3)) ltac:(lra) ltac:(lra) H2 ltac:(lra)) as [A B].
    { replace ((m2 - m1) / (2 * m3)) with (/2 * (m2 - m1) / m3) by (field; lra). lra. }
    cbv zeta in A, B. set (a := / 2 * (m1 + sqrt (m1 * m1 + 8 * m2 * m3 * (ch - m1 * m1 / (6 * m2 * m3))))) in *.
    rewrite piece2 by lra. rewrite B. field. split; lra. }
  assert (C0' : m1 * m1 / (6 * m2 * m3) + (m2 - m1) / (2 * m3) <= ch).
  { replace ((m2 - m1) / (2 * m3)) with (/2 * (m2 - m1) / m3) by (field; lra). exact C0. }
  set (V3 := if Rltb m3 (m1 + m2) then _ else _).
  assert (HV3 : (m3 < m1 + m2 /\ V3 = vol3 m1 m2 m3 m3) \/ (m1 + m2 <= m3 /\ V3 = (m1 + m2) / (2 * m3))).
  { unfold V3. rcase.
    - left. split; [assumption|]. symmetry. apply V3_hex; lra.
    - right. split; [assumption|]. field. lra. }
  clearbody V3.
  rcase.
  { right. split; [assumption|].
    assert (L1 : ch <= (m1 + m2) / (2 * m3)).
    { destruct HV3 as [[L E]|[L E]]; [|lra]. pose proof (V3_le m1 m2 m3 ltac:(lra) H2 ltac:(lra)). lra. }
    assert (L2 : m3 < m1 + m2 -> ch <= vol3 m1 m2 m3 m3) by (intros; destruct HV3 as [[L E]|[L E]]; lra).
    destruct (branch3 e m1 m2 m3 ch He ltac:(lra) H2 C0' L1 L2) as (P0 & A & B).
    cbv zeta in P0, A, B. exists (2 * m1 * m2 * sqrt (2 * m1 * m2)). split.
    - assert (Hmm : m1 * m1 <= m1 * m2) by (apply Rmult_le_compat_l; lra).
      assert (m1 <= sqrt (2 * m1 * m2)).
      { rewrite <- (sqrt_square m1) at 1 by lra. apply sqrt_le_1_alt. nra. }
      assert (m1 * m1 * m1 <= 2 * m1 * m2 * sqrt (2 * m1 * m2)) by (apply Rmult_le_compat; nra).
      assert (0 <= m1 * m1 * m1) by (apply Rmult_le_pos; nra). lra.
    - split; [lra|]. eapply Rle_trans; [apply B|].
      apply Rmult_le_compat_l.
      { apply Rmult_le_pos; [lra|]. left; apply Rinv_0_lt_compat; lra. }
      assert ((m1 + m2) / (2 * m3) - ch <= m1 / m3).
      { replace (m1 / m3) with ((m1 + m2) / (2 * m3) - (m2 - m1) / (2 * m3)) by (field; lra). lra. }
      pose proof (over_m3 m1 m2 m3 m1 H1 H2 Hs ltac:(lra)). lra. }
  rcase.
  { left. set (a := m3 * ch + _).
    assert (Ea : a = m3 * ch + (m1 + m2) / 2).
    { unfold a. destruct (Rltb m3 (m1 + m2)) eqn:Q; [apply Rltb_spec in Q; lra|]. field. }
    destruct HV3 as [[L E]|[L E]]; [lra|].
    assert ((m1 + m2) / 2 <= m3 * ch).
    { apply Rmult_le_compat_l with (r := m3) in C1; [|lra]. rewrite E in C1.
      replace (m3 * ((m1 + m2) / (2 * m3))) with ((m1 + m2) / 2) in C1 by (field; lra). exact C1. }
    assert (m3 * ch <= m3 * /2) by (apply Rmult_le_compat_l; lra).
    rewrite piece4 by lra. rewrite Ea. field. lra. }
  { right. split; [assumption|].
    assert (L3 : vol3 m1 m2 m3 m3 <= ch).
    { destruct HV3 as [[L E]|[L E]]; [lra|].
      assert (E3 : m3 = /2) by lra. rewrite E3 at 2.
      rewrite vol3_half by lra. rewrite E in C1.
      replace ((m1 + m2) / (2 * m3)) with (/2) in C1; [lra|]. replace (m1 + m2) with m3 by lra. field; lra. }
    destruct (branch5 e m1 m2 m3 ch He ltac:(lra) H2 Hs C2 L3 ltac:(lra)) as (P0 & A & B).
    cbv zeta in P0, A, B.
    set (p := m1 * (m2 + m3) + m2 * m3 - /4) in *.
    exists (p * sqrt p). split.
    - set (t := /2 - m3).
      assert (T0 : 0 <= 2 * t <= m1) by (unfold t; lra).
      assert (Ep : p = m1 * m2 - t * t) by (unfold p, t; replace m2 with (1 - m1 - m3) by lra; field).
      assert (Hm : m1 * m1 <= m1 * m2) by (apply Rmult_le_compat_l; lra).
      assert (Hp : 3/4 * (m1 * m1) <= p).
      { assert (4 * (t * t) <= m1 * m1).
        { assert ((2 * t) * (2 * t) <= m1 * m1) by (apply Rmult_le_compat; lra). lra. }
        lra. }
      assert (Hsq : 3/4 * m1 <= sqrt p).
      { rewrite <- (sqrt_square (3/4 * m1)) by lra. apply sqrt_le_1_alt.
        assert (0 <= m1 * m1) by nra. lra. }
      assert ((3/4 * (m1 * m1)) * (3/4 * m1) <= p * sqrt p).
      { apply Rmult_le_compat; try lra. nra. }
      assert (0 <= m1 * m1 * m1) by (apply Rmult_le_pos; nra). lra.
    - rewrite B.
      assert (Hfrac : 0 <= e / (p * sqrt p + e)).
      { apply Rmult_le_pos; [lra|]. left; apply Rinv_0_lt_compat; lra. }
      split; [apply Rmult_le_pos; lra|].
      apply Rmult_le_compat_l; [exact Hfrac|].
      pose proof (piece5_gap m1 m2 m3 ltac:(lra) H2 Hs C2). lra. }
Qed.

(** Without guards the fraction is reproduced exactly. *)
Lemma intercept_exact : forall m1 m2 m3 ch,
  0 <= m1 <= m2 -> m2 <= m3 -> m1 + m2 + m3 = 1 -> 0 <= ch <= /2 ->
  usorted m1 m2 m3 (intercept_sorted 0 m1 m2 m3 ch) = ch.
Proof.
  intros m1 m2 m3 ch H1 H2 Hs Hch.
  destruct (intercept_main 0 m1 m2 m3 ch (Rle_refl 0) H1 H2 Hs Hch) as [E|(H0 & P & HP & E)].
  - destruct (Req_EM_T m1 0); [left; assumption|right]. split; [lra|].
    assert (0 < m1 * m2 * m3) by (apply Rmult_lt_0_compat; [apply Rmult_lt_0_compat|]; lra). lra.
  - exact E.
  - unfold Rdiv at 1 in E. rewrite !Rmult_0_l in E. lra.
Qed.

Definition tol : R := / 32768.

Lemma guard_bound : forall m P, 0 <= m -> m * m * m / 2 <= P ->
  0 < P + eps64 -> eps64 / (P + eps64) * (3 * m) <= tol.
Proof.
  intros m P Hm HP Hd. unfold tol.
  apply Rmult_le_reg_r with (P + eps64); [exact Hd|].
  replace (eps64 / (P + eps64) * (3 * m) * (P + eps64)) with (3 * m * eps64) by (field; lra).
  set (m0 := / 262144).
  assert (T : 3 * (m0 * m0) * m - 2 * (m0 * m0 * m0) <= m * m * m).
  { assert (0 <= (m - m0) * (m - m0) * (m + 2 * m0)).
    { apply Rmult_le_pos; [apply Rle_0_sqr|]. unfold m0. lra. }
    replace ((m - m0) * (m - m0) * (m + 2 * m0)) with (m * m * m - 3 * (m0 * m0) * m + 2 * (m0 * m0 * m0)) in H by ring.
    lra. }
  assert (3 * m * eps64 <= / 32768 * ((3 * (m0 * m0) * m - 2 * (m0 * m0 * m0)) / 2 + eps64)).
  { unfold eps64, m0. lra. }
  lra.
Qed.

(** Where the guard on the product of the coefficients is active. *)
Lemma intercept_guard : forall m1 m2 m3 ch,
  0 < m1 <= m2 -> m2 <= m3 -> m1 + m2 + m3 = 1 -> 0 <= ch <= /2 ->
  6 * m1 * m2 * m3 < eps64 ->
  Rabs (vol3 m1 m2 m3 (intercept_sorted eps64 m1 m2 m3 ch) - ch) <= tol.
Proof.
  intros m1 m2 m3 ch H1 H2 Hs Hch Hg.
  assert (Hpr : rmax (6 * m1 * m2 * m3) eps64 = eps64) by (rewrite rmax_Rmax, Rmax_right; lra).
  assert (He : 0 < eps64) by (unfold eps64; lra).
  set (s := / 67108864).
  assert (Hss : s * s = eps64) by (unfold s, eps64; field).
  assert (Hsp : 0 < s) by (unfold s; lra).
  assert (P12 : 0 < m1 * m2) by (apply Rmult_lt_0_compat; lra).
  assert (D6 : 0 < m1 * m2 * m3) by (apply Rmult_lt_0_compat; lra).
  assert (G2 : 2 * (m1 * m2) < eps64).
  { assert (m1 * m2 * (/3) <= m1 * m2 * m3) by (apply Rmult_le_compat_l; lra). lra. }
  assert (Gm : m1 <= s).
  { destruct (Rle_dec m1 s); [assumption|exfalso].
    assert (s * s < m1 * m1) by (apply Rmult_le_0_lt_compat; lra).
    assert (m1 * m1 <= m1 * m2) by (apply Rmult_le_compat_l; lra). lra. }
  assert (Gs : forall p, 0 <= p -> p < eps64 -> 0 <= sqrt p <= s).
  { intros p P0 P1. split; [apply sqrt_pos|].
    rewrite <- (sqrt_square s) by lra. apply sqrt_le_1_alt. lra. }
  assert (V1 : vol3 m1 m2 m3 m1 = m1 * m1 / (6 * m2 * m3)) by (apply vol3_m1; lra).
  assert (P23 : 0 < m2 * m3) by (apply Rmult_lt_0_compat; lra).
  assert (V1b : 0 <= vol3 m1 m2 m3 m1 <= 3 * m1).
  { rewrite V1. split.
    - apply Rmult_le_pos; [nra|left; apply Rinv_0_lt_compat; lra].
    - apply Rmult_le_reg_r with (6 * m2 * m3); [lra|].
      unfold Rdiv. rewrite Rmult_assoc, Rinv_l by lra.
      assert (m1 * m1 <= m1 * m2) by (apply Rmult_le_compat_l; lra).
      assert (m1 * m2 * (/3) <= m1 * m2 * m3) by (apply Rmult_le_compat_l; lra).
      lra. }
  assert (Htol : 20 * s <= tol) by (unfold s, tol; lra).
  assert (V1c : m1 * m1 * m1 / eps64 <= vol3 m1 m2 m3 m1).
  { rewrite V1. replace (m1 * m1 / (6 * m2 * m3)) with (m1 * m1 * m1 / (6 * m1 * m2 * m3)) by (field; repeat split; lra).
    unfold Rdiv. apply Rmult_le_compat_l; [apply Rmult_le_pos; nra|]. apply Rinv_le_contravar; lra. }
  assert (V1n : 0 <= m1 * m1 * m1 / eps64).
  { apply Rmult_le_pos; [apply Rmult_le_pos; nra|left; apply Rinv_0_lt_compat; lra]. }
  pose proof (over_m3 m1 m2 m3 m1 ltac:(lra) H2 Hs ltac:(lra)) as Om1.
  unfold intercept_sorted. rewrite Hpr.
  rcase.
  { destruct (rcbrt_spec (eps64 * ch)) as [R0 R3]; [apply Rmult_le_pos; lra|].
    set (a := rcbrt (eps64 * ch)) in *.
    assert (a < m1).
    { apply cube_lt; try lra. rewrite R3.
      apply Rmult_lt_compat_l with (r := eps64) in C; [|lra].
      replace (eps64 * (m1 * m1 * m1 / eps64)) with (m1 * m1 * m1) in C by (field; lra). lra. }
    pose proof (vol3_mono_lip m1 m2 m3 a m1 ltac:(lra) ltac:(lra) ltac:(lra) ltac:(lra)).
    pose proof (vol3_mono_lip m1 m2 m3 0 a ltac:(lra) ltac:(lra) ltac:(lra) ltac:(lra)).
    rewrite (vol3_neg m1 m2 m3 0) in * by lra.
    apply Rabs_le. lra. }
  rcase.
  { set (W := m1 * m1 * m1 / eps64) in *.
    destruct (branch2 m1 m2 m3 (ch - W) ltac:(lra) ltac:(lra) H2 ltac:(lra)) as [A B].
    { replace ((m2 - m1) / (2 * m3)) with (/2 * (m2 - m1) / m3) by (field; lra). lra. }
    cbv zeta in A, B. set (a := / 2 * (m1 + sqrt (m1 * m1 + 8 * m2 * m3 * (ch - W)))) in *.
    rewrite piece2 by lra. rewrite B. rewrite <- V1.
    replace (2 * m2 * m3 * (ch - W) / (2 * m2 * m3)) with (ch - W) by (field; split; lra).
    apply Rabs_le. lra. }
  set (W := m1 * m1 * m1 / eps64) in *.
  assert (C0' : (m2 - m1) / (2 * m3) <= ch).
  { replace ((m2 - m1) / (2 * m3)) with (/2 * (m2 - m1) / m3) by (field; lra). lra. }
  set (V3 := if Rltb m3 (m1 + m2) then _ else _).
  assert (HV3 : (m3 < m1 + m2 /\ V3 <= (m1 + m2) / (2 * m3)) \/ (m1 + m2 <= m3 /\ V3 = (m1 + m2) / (2 * m3))).
  { unfold V3. rcase.
    - left. split; [assumption|].
      eapply Rle_trans; [|apply (V3_le m1 m2 m3); lra].
      rewrite V3_hex by lra. unfold Rdiv. apply Rmult_le_compat_l; [|apply Rinv_le_contravar; lra].
      replace (m3 * m3 * (3 * (m1 + m2) - m3) + m1 * m1 * (m1 - 3 * m3) + m2 * m2 * (m2 - 3 * m3))
        with (6 * (m1 * m2) * ((m1 + m2) / 2 - (m1 + m2 - m3)) + (m1 + m2 - m3) * (m1 + m2 - m3) * (m1 + m2 - m3)) by field.
      assert (0 <= m1 * m2 * ((m1 + m2) / 2 - (m1 + m2 - m3))) by (apply Rmult_le_pos; lra).
      assert (0 <= (m1 + m2 - m3) * (m1 + m2 - m3) * (m1 + m2 - m3)) by (apply Rmult_le_pos; nra). lra.
    - right. split; [assumption|]. field. lra. }
  clearbody V3.
  assert (Gap : (m1 + m2) / (2 * m3) - ch <= 3 * m1).
  { assert ((m1 + m2) / (2 * m3) - ch <= m1 / m3).
    { replace (m1 / m3) with ((m1 + m2) / (2 * m3) - (m2 - m1) / (2 * m3)) by (field; lra). lra. }
    lra. }
  rcase.
  { assert (L1 : ch <= (m1 + m2) / (2 * m3)) by (destruct HV3 as [[L E]|[L E]]; lra).
    set (w := m1 + m2 - 2 * m3 * ch).
    assert (Hw0 : 0 <= w <= 1).
    { unfold w. apply Rmult_le_compat_r with (r := 2 * m3) in L1; [|lra].
      replace ((m1 + m2) / (2 * m3) * (2 * m3)) with (m1 + m2) in L1 by (field; lra).
      assert (0 <= m3 * ch) by (apply Rmult_le_pos; lra). lra. }
    destruct (Gs (2 * m1 * m2) ltac:(lra) ltac:(lra)) as [K0 K1].
    rewrite cubic_root_troot.
    set (P := 2 * m1 * m2 * sqrt (2 * m1 * m2)).
    assert (HP : 0 <= P) by (unfold P; apply Rmult_le_pos; lra).
    assert (X : 0 <= 3/2 * m1 * m2 * w / (P + eps64) <= 1).
    { assert (0 <= m1 * m2 * w) by (apply Rmult_le_pos; lra).
      assert (m1 * m2 * w <= m1 * m2 * 1) by (apply Rmult_le_compat_l; lra).
      split.
      - apply Rmult_le_pos; [lra|left; apply Rinv_0_lt_compat; lra].
      - apply Rmult_le_reg_r with (P + eps64); [lra|].
        unfold Rdiv. rewrite Rmult_assoc, Rinv_l by lra. lra. }
    destruct (troot_spec _ X) as [[U0 U1] _].
    set (u := troot (3/2 * m1 * m2 * w / (P + eps64))) in *.
    set (k := sqrt (2 * m1 * m2)) in *.
    assert (Kn : - s <= k * u <= 0).
    { assert (0 <= k * (- u)) by (apply Rmult_le_pos; lra).
      assert (k * (- u) <= s * 1) by (apply Rmult_le_compat; lra). lra. }
    pose proof (vol3_mono_lip m1 m2 m3 (k * u + (m1 + m2)) (m1 + m2) ltac:(lra) ltac:(lra) ltac:(lra) ltac:(lra)) as [L2 L3].
    pose proof (over_m3 m1 m2 m3 (m1 + m2 - (k * u + (m1 + m2))) ltac:(lra) H2 Hs ltac:(lra)).
    assert (Vm : (m1 + m2) / (2 * m3) - 3 * m1 <= vol3 m1 m2 m3 (m1 + m2) <= (m1 + m2) / (2 * m3)).
    { rewrite vol3_mid by lra. replace (m1 + m2 - (m1 + m2)) with 0 by ring.
      replace ((6 * (m1 * m2) * ((m1 + m2) / 2 - 0) + 0 * 0 * 0 - cu (m1 + m2 - m3)) / (6 * m1 * m2 * m3))
        with ((m1 + m2) / (2 * m3) - cu (m1 + m2 - m3) / (6 * m1 * m2 * m3)) by (field; repeat split; lra).
      assert (0 <= cu (m1 + m2 - m3) / (6 * m1 * m2 * m3) <= 3 * m1); [|lra].
      assert (Hcu : 0 <= cu (m1 + m2 - m3) <= m1 * m1 * m1).
      { destruct (Rle_dec (m1 + m2) m3).
        - rewrite cu_le by lra. split; [lra|apply Rmult_le_pos; nra].
        - rewrite cu_ge by lra. set (t := m1 + m2 - m3). assert (0 <= t <= m1) by (unfold t; lra).
          assert (t * t <= m1 * m1) by (apply Rmult_le_compat; lra).
          assert (0 <= t * t) by nra.
          split; [apply Rmult_le_pos; lra|apply Rmult_le_compat; lra]. }
      split.
      - apply Rmult_le_pos; [lra|left; apply Rinv_0_lt_compat; lra].
      - apply Rmult_le_reg_r with (6 * m1 * m2 * m3); [lra|].
        unfold Rdiv. rewrite Rmult_assoc, Rinv_l by lra.
        assert (m1 * m1 * m1 <= m1 * (m1 * m2)).
        { rewrite Rmult_assoc. apply Rmult_le_compat_l; [lra|]. apply Rmult_le_compat_l; lra. }
        assert (m1 * (m1 * m2) * (/3) <= m1 * (m1 * m2) * m3).
        { apply Rmult_le_compat_l; [apply Rmult_le_pos; lra|lra]. }
        lra. }
    apply Rabs_le. lra. }
  rcase.
  { set (a := m3 * ch + _).
    assert (Ea : a = m3 * ch + (m1 + m2) / 2).
    { unfold a. destruct (Rltb m3 (m1 + m2)) eqn:Q; [apply Rltb_spec in Q; lra|]. field. }
    destruct HV3 as [[L E]|[L E]]; [lra|].
    assert ((m1 + m2) / 2 <= m3 * ch).
    { apply Rmult_le_compat_l with (r := m3) in C1; [|lra]. rewrite E in C1.
      replace (m3 * ((m1 + m2) / (2 * m3))) with ((m1 + m2) / 2) in C1 by (field; lra). exact C1. }
    assert (m3 * ch <= m3 * /2) by (apply Rmult_le_compat_l; lra).
    rewrite piece4 by lra. rewrite Ea.
    replace ((m3 * ch + (m1 + m2) / 2 - (m1 + m2) / 2) / m3 - ch) with 0 by (field; lra).
    rewrite Rabs_R0. unfold tol; lra. }
  { set (p := m1 * (m2 + m3) + m2 * m3 - /4).
    set (t := /2 - m3).
    assert (T0 : 0 <= 2 * t <= m1) by (unfold t; lra).
    assert (Ep : p = m1 * m2 - t * t) by (unfold p, t; replace m2 with (1 - m1 - m3) by lra; field).
    assert (Hm : m1 * m1 <= m1 * m2) by (apply Rmult_le_compat_l; lra).
    assert (Htt : (2 * t) * (2 * t) <= m1 * m1) by (apply Rmult_le_compat; lra).
    assert (Htn : 0 <= t * t) by nra.
    destruct (Gs p ltac:(lra) ltac:(lra)) as [K0 K1].
    rewrite cubic_root_troot.
    set (P := p * sqrt p).
    assert (HP : 0 <= P) by (unfold P; apply Rmult_le_pos; lra).
    assert (X : 0 <= 3/2 * m1 * m2 * m3 * (/2 - ch) / (P + eps64) <= 1).
    { assert (0 <= m1 * m2 * m3 * (/2 - ch)) by (apply Rmult_le_pos; lra).
      assert (m1 * m2 * m3 * (/2 - ch) <= m1 * m2 * m3 * 1) by (apply Rmult_le_compat_l; lra).
      split.
      - apply Rmult_le_pos; [lra|left; apply Rinv_0_lt_compat; lra].
      - apply Rmult_le_reg_r with (P + eps64); [lra|].
        unfold Rdiv. rewrite Rmult_assoc, Rinv_l by lra. lra. }
    destruct (troot_spec _ X) as [[U0 U1] _].
    set (u := troot _) in *.
    set (k := sqrt p) in *.
    assert (Kn : - s <= k * u <= 0).
    { assert (0 <= k * (- u)) by (apply Rmult_le_pos; lra).
      assert (k * (- u) <= s * 1) by (apply Rmult_le_compat; lra). lra. }
    pose proof (vol3_mono_lip m1 m2 m3 (k * u + /2) (/2) ltac:(lra) ltac:(lra) ltac:(lra) ltac:(lra)) as [L2 L3].
    rewrite vol3_half in L2, L3 by lra.
    pose proof (over_m3 m1 m2 m3 (/2 - (k * u + /2)) ltac:(lra) H2 Hs ltac:(lra)).
    assert (/2 - ch <= 3 * m1).
    { assert (/2 - ch <= m1 / m3); [|lra].
      assert (/2 - m1 / m3 <= (m2 - m1) / (2 * m3)); [|lra].
      apply Rmult_le_reg_r with (2 * m3); [lra|].
      replace ((m2 - m1) / (2 * m3) * (2 * m3)) with (m2 - m1) by (field; lra).
      replace ((/2 - m1 / m3) * (2 * m3)) with (m3 - 2 * m1) by (field; lra). lra. }
    apply Rabs_le. lra. }
Qed.

(** All cases, for the guards of the code. *)
Lemma intercept_close : forall m1 m2 m3 ch,
  0 <= m1 <= m2 -> m2 <= m3 -> m1 + m2 + m3 = 1 -> 0 <= ch <= /2 ->
  Rabs (usorted m1 m2 m3 (intercept_sorted eps64 m1 m2 m3 ch) - ch) <= tol.
Proof.
  intros m1 m2 m3 ch H1 H2 Hs Hch.
  assert (He : 0 < eps64) by (unfold eps64; lra).
  assert (Ht : 0 <= tol) by (unfold tol; lra).
  destruct (Req_EM_T m1 0) as [Z|Z].
  - destruct (intercept_main eps64 m1 m2 m3 ch ltac:(lra) H1 H2 Hs Hch (or_introl Z)) as [E|(H0 & _)]; [|lra].
    rewrite E. replace (ch - ch) with 0 by ring. rewrite Rabs_R0. exact Ht.
  - destruct (Rlt_dec (6 * m1 * m2 * m3) eps64) as [G|G].
    + unfold usorted. destruct (Req_EM_T m1 0); [contradiction|]. apply intercept_guard; auto; lra.
    + destruct (intercept_main eps64 m1 m2 m3 ch ltac:(lra) H1 H2 Hs Hch) as [E|(H0 & P & HP & E)].
      { right. split; lra. }
      * rewrite E. replace (ch - ch) with 0 by ring. rewrite Rabs_R0. exact Ht.
      * apply Rabs_le.
        assert (0 <= m1 * m1 * m1) by (apply Rmult_le_pos; nra).
        pose proof (guard_bound m1 P ltac:(lra) HP ltac:(lra)). lra.
Qed.
