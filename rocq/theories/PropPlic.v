(** C30: the geometry of the reconstructed interface.  [slab_volume] and
    [seg_length] are the measures of PlicSpec.v. *)
From Verif Require Import BoxR BoxRFacts Plic PlicSpec PlicVol PlicProofs PlicProofs2 PlicIntercept PlicIntercept2 PlicProofs3.
Open Scope R_scope.

Lemma eps_pos : 0 < eps64. Proof. unfold eps64. lra. Qed.

(** The cut volume of any slab by any plane is a fraction. *)
Theorem c30_range : forall m1 m2 m3 alpha r d, 0 < d -> (m1 <> 0 \/ m2 <> 0 \/ m3 <> 0) ->
  0 <= cut_volume m1 m2 m3 alpha r d <= 1.
Proof. intros. apply cut_volume_range; auto. left; apply eps_pos. Qed.

(** No point of the slab strictly below the plane: exactly 0.
    No point strictly above it: exactly 1. *)
Theorem c30_empty : forall m1 m2 m3 alpha r d, 0 < d -> (m1 <> 0 \/ m2 <> 0 \/ m3 <> 0) ->
  (forall x y z, r <= x <= r + d -> 0 <= y <= 1 -> 0 <= z <= 1 -> alpha <= m1 * x + m2 * y + m3 * z) ->
  cut_volume m1 m2 m3 alpha r d = 0.
Proof. intros. apply cut_empty; auto. Qed.
Theorem c30_full : forall m1 m2 m3 alpha r d, 0 < d -> (m1 <> 0 \/ m2 <> 0 \/ m3 <> 0) ->
  (forall x y z, r <= x <= r + d -> 0 <= y <= 1 -> 0 <= z <= 1 -> m1 * x + m2 * y + m3 * z <= alpha) ->
  cut_volume m1 m2 m3 alpha r d = 1.
Proof. intros. apply cut_full; auto. Qed.

(** The two transverse axes may always be exchanged; on the whole cell all
    three may. *)
Theorem c30_exchange_transverse : forall m1 m2 m3 alpha r d,
  cut_volume m1 m3 m2 alpha r d = cut_volume m1 m2 m3 alpha r d.
Proof. intros. apply cut_swap23. Qed.
Theorem c30_exchange_cell : forall m1 m2 m3 alpha,
  cut_volume m2 m1 m3 alpha 0 1 = cut_volume m1 m2 m3 alpha 0 1 /\
  cut_volume m3 m2 m1 alpha 0 1 = cut_volume m1 m2 m3 alpha 0 1 /\
  cut_volume m2 m3 m1 alpha 0 1 = cut_volume m1 m2 m3 alpha 0 1.
Proof.
  intros. unfold cut_volume. split; [apply cut_swap12|]. split.
  - rewrite (cut_swap23 _ m3), cut_swap12, cut_swap23. reflexivity.
  - rewrite (cut_swap23 _ m2), cut_swap12. reflexivity.
Qed.

(** The two sides of the plane add up to the slab. *)
Theorem c30_complement : forall m1 m2 m3 alpha r d, 0 < d -> (m1 <> 0 \/ m2 <> 0 \/ m3 <> 0) ->
  cut_volume m1 m2 m3 alpha r d + cut_volume (- m1) (- m2) (- m3) (- alpha) r d = 1.
Proof. intros. unfold cut_volume. rewrite cut_complement by assumption. ring. Qed.

(** Mirror images: x -> 2r + d - x, y -> 1 - y, z -> 1 - z. *)
Theorem c30_mirror : forall m1 m2 m3 alpha r d,
  cut_volume (- m1) m2 m3 (alpha - m1 * (2 * r + d)) r d = cut_volume m1 m2 m3 alpha r d /\
  cut_volume m1 (- m2) m3 (alpha - m2) r d = cut_volume m1 m2 m3 alpha r d /\
  cut_volume m1 m2 (- m3) (alpha - m3) r d = cut_volume m1 m2 m3 alpha r d.
Proof. intros. split; [apply cut_mirror1|]. split; [apply cut_mirror2|apply cut_mirror3]. Qed.

(** The same plane written with another scale. *)
Theorem c30_scale : forall t m1 m2 m3 alpha r d, 0 < t -> 0 < d -> (m1 <> 0 \/ m2 <> 0 \/ m3 <> 0) ->
  cut_volume (t * m1) (t * m2) (t * m3) (t * alpha) r d = cut_volume m1 m2 m3 alpha r d.
Proof. intros. apply cut_scale; assumption. Qed.

(** It is the measure of the part of the slab below the plane, to within a
    quarter of the machine epsilon (the code's guard against division by 0).
    By [c30_exchange_transverse] the same holds when m2 <> 0. *)
Theorem c30_measure : forall m1 m2 m3 alpha r d, m3 <> 0 -> 0 < d ->
  Rabs (d * cut_volume m1 m2 m3 alpha r d - slab_volume m1 m2 m3 alpha r d) <= d * eps64 / 4.
Proof. intros. apply cut_volume_measure; auto. left; apply eps_pos. Qed.
(** ... and exactly so when the plane is normal to the slab. *)
Theorem c30_measure_normal : forall m alpha r d, m <> 0 -> 0 < d ->
  cut_volume m 0 0 alpha r d = seg_length (m * d) (alpha - m * r).
Proof. intros. apply cut_axis; assumption. Qed.
(** Without the guard the formula is exact. *)
Theorem c30_measure_unguarded : forall m1 m2 m3 alpha r d, m3 <> 0 -> 0 < d ->
  d * cut_volume_e 0 m1 m2 m3 alpha r d = slab_volume m1 m2 m3 alpha r d.
Proof. intros. apply cut_volume_measure_exact; assumption. Qed.

(** Raising the plane does not lower the volume, up to half a machine
    epsilon.  Missing for the full claim: exact monotonicity, which is false,
    see the next theorem. *)
Theorem c30_monotone_partial : forall m1 m2 m3 alpha alpha' r d, 0 < d ->
  (m1 <> 0 \/ m2 <> 0 \/ m3 <> 0) -> alpha <= alpha' ->
  cut_volume m1 m2 m3 alpha r d <= cut_volume m1 m2 m3 alpha' r d + eps64 / 2.
Proof. intros. apply cut_mono; auto. left; apply eps_pos. Qed.
Theorem c30_monotone_unguarded : forall m1 m2 m3 alpha alpha' r d, 0 < d ->
  (m1 <> 0 \/ m2 <> 0 \/ m3 <> 0) -> alpha <= alpha' ->
  cut_volume_e 0 m1 m2 m3 alpha r d <= cut_volume_e 0 m1 m2 m3 alpha' r d.
Proof. intros. pose proof (cut_mono 0 m1 m2 m3 alpha alpha' r d). lra. Qed.

Lemma cut_123 : forall a, 0 <= a <= /2 ->
  cut_volume (/6) (/3) (/2) a 0 1 = lower_volume eps64 (/6) (/3) (/2) a.
Proof.
  intros a Ha. unfold cut_volume. rewrite cut_volume_clipped. cbv zeta.
  rewrite !Rabs_right by lra.
  assert (E : / 6 * 1 + / 3 + / 2 = 1) by field. rewrite E.
  replace (/ 6 / 1 * 1) with (/6) by field. replace (/3 / 1) with (/3) by field. replace (/2/1) with (/2) by field.
  assert (S : sort3 (/6) (/3) (/2) = (/6, /3, /2)).
  { unfold sort3, rmin, rmax. repeat (rcase; try lra). reflexivity. }
  rewrite S.
  rewrite !rmax_Rmax, !Rmax_left by lra.
  replace ((a - / 6 * 0 + 0 + 0 + 0) / 1) with a by field.
  unfold clipped_volume. rewrite rmax_Rmax, !rmin_Rmin.
  rewrite (Rmin_right 1 a) by lra. rewrite (Rmax_right 0 a) by lra. rewrite Rmin_left by lra.
  rcase; [reflexivity|lra].
Qed.

(** The guard makes the volume drop when the plane is raised past a corner. *)
Theorem c30_monotone_refuted : exists m1 m2 m3 alpha alpha',
  0 < m1 /\ 0 < m2 /\ 0 < m3 /\ alpha < alpha' /\
  cut_volume m1 m2 m3 alpha' 0 1 < cut_volume m1 m2 m3 alpha 0 1.
Proof.
  exists (/6), (/3), (/2), (/6 - eps64 / 100), (/6).
  pose proof eps_pos as He. assert (He2 : eps64 < /1000) by (unfold eps64; lra).
  split; [lra|]. split; [lra|]. split; [lra|]. split; [lra|].
  rewrite !cut_123 by lra.
  assert (A : lower_volume eps64 (/6) (/3) (/2) (/6) = /36 / (1 + eps64)).
  { unfold lower_volume. repeat (rcase; try lra). all: field; lra. }
  assert (B : lower_volume eps64 (/6) (/3) (/2) (/6 - eps64 / 100)
              = 6 * ((/6 - eps64 / 100) * (/6 - eps64 / 100) * (/6 - eps64 / 100))).
  { unfold lower_volume. repeat (rcase; try lra). all: field. }
  rewrite A, B. apply Rmult_lt_reg_r with (1 + eps64); [lra|].
  replace (/ 36 / (1 + eps64) * (1 + eps64)) with (/36) by (field; lra). unfold eps64. lra.
Qed.

(** The plane fitted to a cell cuts off that cell's volume fraction, to within
    1/30000.  Missing for the full claim: exactness, false by the last theorem
    of this group; the error bound is reached by nearly axis-aligned planes. *)
Theorem c30_offset_reproduces_partial : forall f i j k m alpha,
  0 <= at3 f i j k <= 1 -> fit_plane f i j k = (m, alpha) ->
  Rabs (cut_volume (w0 m) (w1 m) (w2 m) alpha 0 1 - at3 f i j k) <= / 30000.
Proof.
  intros f i j k m al Hf E. pose proof eps_pos as He.
  pose proof (fit_plane_repro eps64 tol f i j k m al (Rlt_le _ _ He) intercept_close Hf E) as A.
  pose proof (cut_guard eps64 (w0 m) (w1 m) (w2 m) al 0 1 (Rlt_le _ _ He) ltac:(lra) (fit_plane_nz _ _ _ _ _ _ _ E)) as B.
  fold cut_volume in B. eapply Rle_trans.
  - replace (cut_volume (w0 m) (w1 m) (w2 m) al 0 1 - at3 f i j k) with
      ((cut_volume (w0 m) (w1 m) (w2 m) al 0 1 - cut_volume_e 0 (w0 m) (w1 m) (w2 m) al 0 1)
       + (cut_volume_e 0 (w0 m) (w1 m) (w2 m) al 0 1 - at3 f i j k)) by ring.
    apply Rabs_triang.
  - unfold cut_volume in *. unfold tol in A. assert (eps64 < / 10000000) by (unfold eps64; lra). lra.
Qed.
(** Without the guards it is exact, for every field and every cell. *)
Theorem c30_offset_unguarded : forall f i j k m alpha,
  0 <= at3 f i j k <= 1 -> fit_plane_e 0 f i j k = (m, alpha) ->
  cut_volume_e 0 (w0 m) (w1 m) (w2 m) alpha 0 1 = at3 f i j k.
Proof.
  intros f i j k m al Hf E.
  pose proof (fit_plane_repro 0 0 f i j k m al (Rle_refl 0) intercept_exact0 Hf E) as A.
  destruct (Req_EM_T (cut_volume_e 0 (w0 m) (w1 m) (w2 m) al 0 1 - at3 f i j k) 0) as [Q|Q]; [lra|].
  pose proof (Rabs_pos_lt _ Q). lra.
Qed.

(** The normal handed to the cut-volume function is always a genuine
    direction, with components of unit total magnitude. *)
Theorem c30_normal_unit : forall f i j k m alpha, fit_plane f i j k = (m, alpha) ->
  Rabs (w0 m) + Rabs (w1 m) + Rabs (w2 m) = 1.
Proof. intros f i j k m al E. destruct (fit_plane_shape _ _ _ _ _ _ _ E) as [L _]. exact L. Qed.

(** Every cell gets a plane whose cut volume is a fraction. *)
Theorem c30_fit_range : forall f i j k m alpha r d, fit_plane f i j k = (m, alpha) -> 0 < d ->
  0 <= cut_volume (w0 m) (w1 m) (w2 m) alpha r d <= 1.
Proof. intros. apply c30_range; [assumption|]. eapply fit_plane_nz; eassumption. Qed.

(** The guards are visible: an offset that misses the fraction by more than
    1e-11, tens of thousands of machine epsilons. *)
Theorem c30_offset_exact_refuted : exists m1 m2 m3 v,
  0 < m1 /\ 0 < m2 /\ 0 < m3 /\ m1 + m2 + m3 = 1 /\ 0 < v < 1 /\
  Rabs (cut_volume m1 m2 m3 (volume_intercept m1 m2 m3 v) 0 1 - v) > / 100000000000.
Proof.
  set (s := / 17179869184).  (* 2^-34 *)
  assert (Hs : 0 < s < / 10000000000) by (unfold s; lra).
  exists (2 * s), (/2 - s), (/2 - s), (/2 - s).
  split; [lra|]. split; [lra|]. split; [lra|]. split; [field|]. split; [lra|].
  pose proof eps_pos as He.
  set (m1 := 2 * s). set (m3 := /2 - s).
  assert (O : sort3 m1 m3 m3 = (m1, m3, m3)).
  { unfold sort3, rmin, rmax, m1, m3. repeat (rcase; try lra). reflexivity. }
  assert (Hlo : vol3 m1 m3 m3 m3 <= m3).
  { rewrite V3_hex by (unfold m1, m3; lra). unfold m1, m3, s. lra. }
  set (p := m1 * (m3 + m3) + m3 * m3 - /4).
  assert (Hp : 0 < p <= s) by (unfold p, m1, m3, s; lra).
  assert (Hq : 0 < sqrt p <= / 131072).
  { split; [apply sqrt_lt_R0; lra|].
    rewrite <- (sqrt_square (/131072)) by lra. apply sqrt_le_1_alt. unfold s in *. lra. }
  assert (HP : 0 < p * sqrt p <= s * / 131072).
  { split; [apply Rmult_lt_0_compat; lra|]. apply Rmult_le_compat; lra. }
  destruct (branch5 eps64 m1 m3 m3 m3 ltac:(lra) ltac:(unfold m1, m3; lra) ltac:(lra)
     ltac:(unfold m1, m3; field) ltac:(unfold m1, m3; lra) Hlo ltac:(unfold m3; lra)) as (_ & A & B).
  cbv zeta in A, B. fold p in A, B.
  assert (I : volume_intercept m1 m3 m3 m3 = cubic_root eps64 p (3/2 * m1 * m3 * m3 * (/2 - m3)) (/2)).
  { unfold volume_intercept, volume_intercept_e. rewrite O. rewrite rmin_Rmin, Rmin_left by (unfold m3; lra).
    destruct (Rltb (/2) m3) eqn:Q; [apply Rltb_spec in Q; unfold m3 in Q; lra|].
    unfold intercept_sorted.
    assert (Hpr : rmax (6 * m1 * m3 * m3) eps64 = 6 * m1 * m3 * m3).
    { rewrite rmax_Rmax, Rmax_left; [reflexivity|]. unfold m1, m3, s, eps64. lra. }
    rewrite Hpr.
    assert (D1 : 0 < m1) by (unfold m1; lra). assert (D3 : 0 < m3) by (unfold m3; lra).
    assert (V1 : m1 * m1 * m1 / (6 * m1 * m3 * m3) < / 10000).
    { replace (m1 * m1 * m1 / (6 * m1 * m3 * m3)) with (m1 * m1 / (6 * m3 * m3)) by (field; lra).
      unfold m1, m3, s. lra. }
    destruct (Rltb m3 (m1 * m1 * m1 / (6 * m1 * m3 * m3))) eqn:Q1; [apply Rltb_spec in Q1; assert (/4 < m3) by (unfold m3; lra); lra|clear Q1].
    replace (/ 2 * (m3 - m1) / m3) with (/2 - /2 * (m1 / m3)) by (field; lra).
    destruct (Rltb m3 (m1 + m3)) eqn:Q3; [|apply Rltb_false in Q3; lra].
    destruct (Rltb m3 (m1 * m1 * m1 / (6 * m1 * m3 * m3) + (/ 2 - / 2 * (m1 / m3)))) eqn:Q2.
    { exfalso. apply Rltb_spec in Q2.
      assert (V1' : m1 * m1 * m1 / (6 * m1 * m3 * m3) = m1 * m1 / (6 * m3 * m3)) by (field; lra).
      rewrite V1' in Q2. unfold m1, m3, s in Q2. lra. }
    rewrite <- V3_hex by (unfold m1, m3; lra).
    destruct (Rltb m3 (vol3 m1 m3 m3 m3)) eqn:Q4; [apply Rltb_spec in Q4; lra|].
    destruct (Rltb (m1 + m3) m3) eqn:Q5; [apply Rltb_spec in Q5; lra|]. reflexivity. }
  rewrite I. set (a := cubic_root eps64 p _ _) in *.
  assert (C : cut_volume m1 m3 m3 a 0 1 = clipped_volume eps64 m1 m3 m3 a).
  { unfold cut_volume. rewrite cut_volume_clipped. cbv zeta.
    rewrite !Rabs_right by (unfold m1, m3; lra).
    assert (E : m1 * 1 + m3 + m3 = 1) by (unfold m1, m3; field). rewrite E.
    replace (m1 / 1 * 1) with m1 by field. replace (m3 / 1) with m3 by field. rewrite O.
    rewrite !rmax_Rmax, !Rmax_left by (unfold m1, m3; lra). f_equal. field. }
  rewrite C.
  pose proof (clipped_volume_usorted eps64 m1 m3 m3 a ltac:(lra) ltac:(unfold m1, m3; lra) ltac:(lra) ltac:(unfold m1, m3; field)) as G.
  assert (U : usorted m1 m3 m3 a = vol3 m1 m3 m3 a).
  { unfold usorted. destruct (Req_EM_T m1 0) as [Z|Z]; [unfold m1 in Z; lra|reflexivity]. }
  rewrite U in G.
  assert (L : / 60000000000 <= vol3 m1 m3 m3 a - m3).
  { rewrite B. replace (/2 - m3) with s by (unfold m3; ring).
    assert (F : /3 <= eps64 / (p * sqrt p + eps64)).
    { apply Rmult_le_reg_r with (p * sqrt p + eps64); [lra|].
      replace (eps64 / (p * sqrt p + eps64) * (p * sqrt p + eps64)) with eps64 by (field; lra).
      unfold s, eps64 in *. lra. }
    apply Rle_trans with (/3 * s); [unfold s; lra|]. apply Rmult_le_compat_r; lra. }
  assert (Ge : eps64 / 4 < / 1000000000000000) by (unfold eps64; lra).
  unfold Rabs in G. destruct (Rcase_abs (clipped_volume eps64 m1 m3 m3 a - vol3 m1 m3 m3 a)) in G;
  (rewrite Rabs_right; lra).
Qed.

(** The volume fraction initialised from a level set is a fraction wherever
    the level set is not locally flat. *)
Theorem c30_levelset_range : forall phi i j k eps,
  (w0 (youngs phi i j k) <> 0 \/ w1 (youngs phi i j k) <> 0 \/ w2 (youngs phi i j k) <> 0) ->
  0 <= levelset_to_vof phi i j k eps <= 1.
Proof.
  intros phi i j k eps H. unfold levelset_to_vof, levelset_to_vof_e.
  destruct (Rleb 1 _); [lra|]. destruct (Rleb _ 0); [lra|].
  apply cut_volume_range; [left; apply eps_pos|lra|].
  set (y := youngs phi i j k) in *.
  assert (N : 0 < Rabs (w0 y / 32) + Rabs (w1 y / 32) + Rabs (w2 y / 32)).
  { pose proof (Rabs_pos (w0 y / 32)). pose proof (Rabs_pos (w1 y / 32)). pose proof (Rabs_pos (w2 y / 32)).
    destruct H as [A|[A|A]]; [pose proof (Rabs_pos_lt (w0 y / 32))|pose proof (Rabs_pos_lt (w1 y / 32))|pose proof (Rabs_pos_lt (w2 y / 32))];
    lra. }
  assert (D : forall x, x <> 0 -> Rabs (x / 32) / (Rabs (w0 y / 32) + Rabs (w1 y / 32) + Rabs (w2 y / 32)) <> 0).
  { intros. unfold Rdiv at 1. apply Rmult_integral_contrapositive. split.
    - apply Rabs_no_R0. lra.
    - apply Rinv_neq_0_compat. lra. }
  destruct H as [A|[A|A]]; auto.
Qed.
(** Deep on one side of the zero level the cell is full, deep on the other it
    is empty. *)
Theorem c30_levelset_sides : forall phi i j k eps, 0 <= eps ->
  let y := youngs phi i j k in
  let n := Rabs (w0 y / 32) + Rabs (w1 y / 32) + Rabs (w2 y / 32) in
  0 < n ->
  (n / 2 <= at3 phi i j k -> levelset_to_vof phi i j k eps = 1) /\
  (at3 phi i j k <= - n / 2 -> levelset_to_vof phi i j k eps = 0).
Proof.
  intros phi i j k eps He y n Hn. unfold levelset_to_vof, levelset_to_vof_e. fold y. cbv zeta. fold n. split; intros H.
  - destruct (Rltb (at3 phi i j k) (- eps)) eqn:C.
    + apply Rltb_spec in C. lra.
    + assert (A : 1 <= at3 phi i j k / n + /2).
      { apply Rmult_le_compat_r with (r := / n) in H; [|left; apply Rinv_0_lt_compat; exact Hn].
        replace (n / 2 * / n) with (/2) in H by (field; lra). unfold Rdiv. lra. }
      destruct (Rleb 1 _) eqn:B; [reflexivity|]. apply Rleb_false in B. lra.
  - assert (A : at3 phi i j k / n + /2 <= 0).
    { apply Rmult_le_compat_r with (r := / n) in H; [|left; apply Rinv_0_lt_compat; exact Hn].
      replace (- n / 2 * / n) with (- / 2) in H by (field; lra). unfold Rdiv. lra. }
    set (al := if Rltb _ _ then _ else _). assert (al <= 0) by (unfold al; destruct (Rltb _ _); lra).
    destruct (Rleb 1 al) eqn:B; [apply Rleb_spec in B; lra|].
    destruct (Rleb al 0) eqn:D; [reflexivity|]. apply Rleb_false in D. lra.
Qed.

(** A level set that is affine near the cell: the fraction is the measure of
    the part of the cell where it is positive.  [phi] is [a.x] plus a constant,
    [x] measured in cells from the centre of cell (i,j,k); its values on the
    27 neighbours determine the result. *)
Lemma youngs_affine : forall phi i j k a0 a1 a2 b,
  (forall p q r, (-1 <= p <= 1)%Z -> (-1 <= q <= 1)%Z -> (-1 <= r <= 1)%Z ->
     phi (IV (i + p) (j + q) (k + r)%Z) = a0 * IZR p + a1 * IZR q + a2 * IZR r + b) ->
  youngs phi i j k = W3 (- 32 * a0) (- 32 * a1) (- 32 * a2).
Proof.
  intros phi i j k a0 a1 a2 b H. unfold youngs, at3. rewrite !H by lia. f_equal; ring.
Qed.

Theorem c30_levelset_plane : forall phi i j k a0 a1 a2 b eps,
  (forall p q r, (-1 <= p <= 1)%Z -> (-1 <= q <= 1)%Z -> (-1 <= r <= 1)%Z ->
     phi (IV (i + p) (j + q) (k + r)%Z) = a0 * IZR p + a1 * IZR q + a2 * IZR r + b) ->
  a2 <> 0 -> (Rabs a0 + Rabs a1 + Rabs a2) / 2 <= eps ->
  Rabs (levelset_to_vof phi i j k eps
        - slab_volume (- a0) (- a1) (- a2) (b - a0 / 2 - a1 / 2 - a2 / 2) 0 1) <= eps64 / 4.
Proof.
  intros phi i j k a0 a1 a2 b eps H H2 He. pose proof eps_pos as Hp.
  pose proof (c30_measure (- a0) (- a1) (- a2) (b - a0 / 2 - a1 / 2 - a2 / 2) 0 1 ltac:(lra) ltac:(lra)) as M.
  rewrite !Rmult_1_l in M.
  assert (E : levelset_to_vof phi i j k eps = cut_volume (- a0) (- a1) (- a2) (b - a0 / 2 - a1 / 2 - a2 / 2) 0 1);
    [|rewrite E; exact M].
  clear M. pose proof (Rabs_pos a0). pose proof (Rabs_pos a1). pose proof (Rabs_pos_lt a2 H2).
  set (n := Rabs a0 + Rabs a1 + Rabs a2) in *. assert (Hn : 0 < n) by (unfold n; lra).
  unfold levelset_to_vof, levelset_to_vof_e. rewrite (youngs_affine phi i j k a0 a1 a2 b H). simpl.
  assert (A : forall x, Rabs (- (32) * x / 32) = Rabs x).
  { intros. replace (- (32) * x / 32) with (- x) by field. apply Rabs_Ropp. }
  rewrite !A. fold n.
  assert (Hb : at3 phi i j k = b).
  { unfold at3. specialize (H 0 0 0 ltac:(lia) ltac:(lia) ltac:(lia))%Z.
    rewrite !Z.add_0_r in H. rewrite H. ring. }
  rewrite Hb.
  (* rewrite the target with positive coefficients *)
  assert (T : cut_volume (- a0) (- a1) (- a2) (b - a0 / 2 - a1 / 2 - a2 / 2) 0 1
              = cut_volume (Rabs a0) (Rabs a1) (Rabs a2) (b + n / 2) 0 1).
  { assert (F : forall x, x = Rabs x \/ x = - Rabs x) by (intros; unfold Rabs; destruct Rcase_abs; lra).
    assert (S1 : forall x y z al, cut_volume (- x) y z (al - x / 2) 0 1 = cut_volume (Rabs x) y z (al + Rabs x / 2) 0 1).
    { intros x y z al. destruct (F x) as [Q|Q].
      - rewrite <- Q. rewrite <- (proj1 (c30_mirror x y z (al + x / 2) 0 1)). f_equal. field.
      - rewrite Q at 1 2. f_equal; lra. }
    assert (S2 : forall x y z al, cut_volume x (- y) z (al - y / 2) 0 1 = cut_volume x (Rabs y) z (al + Rabs y / 2) 0 1).
    { intros x y z al. destruct (F y) as [Q|Q].
      - rewrite <- Q. rewrite <- (proj1 (proj2 (c30_mirror x y z (al + y / 2) 0 1))). f_equal. field.
      - rewrite Q at 1 2. f_equal; lra. }
    assert (S3 : forall x y z al, cut_volume x y (- z) (al - z / 2) 0 1 = cut_volume x y (Rabs z) (al + Rabs z / 2) 0 1).
    { intros x y z al. destruct (F z) as [Q|Q].
      - rewrite <- Q. rewrite <- (proj2 (proj2 (c30_mirror x y z (al + z / 2) 0 1))). f_equal. field.
      - rewrite Q at 1 2. f_equal; lra. }
    rewrite S3. replace (b - a0 / 2 - a1 / 2 + Rabs a2 / 2) with (b - a0 / 2 + Rabs a2 / 2 - a1 / 2) by ring.
    rewrite S2. replace (b - a0 / 2 + Rabs a2 / 2 + Rabs a1 / 2) with (b + Rabs a2 / 2 + Rabs a1 / 2 - a0 / 2) by ring.
    rewrite S1. f_equal. unfold n. field. }
  rewrite T.
  rewrite <- (c30_scale (/ n) (Rabs a0) (Rabs a1) (Rabs a2) (b + n / 2) 0 1)
    by (first [apply Rinv_0_lt_compat; exact Hn|lra|right; right; lra]).
  assert (Hi : 0 < / n) by (apply Rinv_0_lt_compat; exact Hn).
  assert (G1 : 1 <= b / n + / 2 -> cut_volume (/ n * Rabs a0) (/ n * Rabs a1) (/ n * Rabs a2) (/ n * (b + n / 2)) 0 1 = 1).
  { intros G. rewrite c30_scale by (try exact Hi; try lra; right; right; lra).
    apply c30_full; [lra|right; right; lra|]. intros x y z Hx Hy Hz.
    assert (n / 2 <= b).
    { apply Rmult_le_compat_r with (r := n) in G; [|lra].
      replace ((b / n + / 2) * n) with (b + n / 2) in G by (field; lra). lra. }
    assert (Rabs a0 * x <= Rabs a0 * 1) by (apply Rmult_le_compat_l; lra).
    assert (Rabs a1 * y <= Rabs a1 * 1) by (apply Rmult_le_compat_l; lra).
    assert (Rabs a2 * z <= Rabs a2 * 1) by (apply Rmult_le_compat_l; lra). unfold n in *; lra. }
  assert (G0 : b <= - (n / 2) -> cut_volume (/ n * Rabs a0) (/ n * Rabs a1) (/ n * Rabs a2) (/ n * (b + n / 2)) 0 1 = 0).
  { intros G. rewrite c30_scale by (try exact Hi; try lra; right; right; lra).
    apply c30_empty; [lra|right; right; lra|]. intros x y z Hx Hy Hz.
    assert (0 <= Rabs a0 * x) by (apply Rmult_le_pos; lra).
    assert (0 <= Rabs a1 * y) by (apply Rmult_le_pos; lra).
    assert (0 <= Rabs a2 * z) by (apply Rmult_le_pos; lra). lra. }
  assert (K : b / n + / 2 <= 0 -> b <= - (n / 2)).
  { intros G. apply Rmult_le_compat_r with (r := n) in G; [|lra].
    replace ((b / n + / 2) * n) with (b + n / 2) in G by (field; lra). lra. }
  destruct (Rltb b (- eps)) eqn:C.
  - apply Rltb_spec in C. destruct (Rleb 1 (-1)) eqn:C1; [apply Rleb_spec in C1; lra|].
    destruct (Rleb (-1) 0) eqn:C2; [|apply Rleb_false in C2; lra]. rewrite G0; [reflexivity|lra].
  - destruct (Rleb 1 (b / n + / 2)) eqn:C1; [apply Rleb_spec in C1; rewrite G1; [reflexivity|exact C1]|].
    destruct (Rleb (b / n + / 2) 0) eqn:C2; [apply Rleb_spec in C2; rewrite G0; [reflexivity|apply K; exact C2]|].
    unfold cut_volume. f_equal; field; lra.
Qed.

(** A cell belongs to the interface band of half-width [n] exactly when its
    neighbourhood holds a mixed cell or two cells differing by more than the
    tolerance. *)
Lemma fold_max : forall l a, (forall v, In v l -> v <= fold_left (fun a v => rmax a v) l a) /\
  a <= fold_left (fun a v => rmax a v) l a /\
  (fold_left (fun a v => rmax a v) l a = a \/ In (fold_left (fun a v => rmax a v) l a) l).
Proof.
  induction l as [|x l IH]; intros a; simpl.
  - split; [intros v []|]. split; [lra|auto].
  - destruct (IH (rmax a x)) as (A & B & C). rewrite rmax_Rmax in *.
    pose proof (Rmax_l a x). pose proof (Rmax_r a x).
    split; [intros v [<-|Hv]; [lra|apply A; exact Hv]|]. split; [lra|].
    destruct C as [C|C]; [|auto]. unfold Rmax in C at 2. destruct (Rle_dec a x); auto.
Qed.
Lemma fold_min : forall l a, (forall v, In v l -> fold_left (fun a v => rmin a v) l a <= v) /\
  fold_left (fun a v => rmin a v) l a <= a /\
  (fold_left (fun a v => rmin a v) l a = a \/ In (fold_left (fun a v => rmin a v) l a) l).
Proof.
  induction l as [|x l IH]; intros a; simpl.
  - split; [intros v []|]. split; [lra|auto].
  - destruct (IH (rmin a x)) as (A & B & C). rewrite rmin_Rmin in *.
    pose proof (Rmin_l a x). pose proof (Rmin_r a x).
    split; [intros v [<-|Hv]; [lra|apply A; exact Hv]|]. split; [lra|].
    destruct C as [C|C]; [|auto]. unfold Rmin in C at 2. destruct (Rle_dec a x); auto.
Qed.
Lemma fold_any : forall (p : R -> bool) l b,
  fold_left (fun b v => if p v then true else b) l b = true <-> b = true \/ exists v, In v l /\ p v = true.
Proof.
  induction l as [|x l IH]; intros b; simpl.
  - split; [auto|]. intros [H|(v & [] & _)]; exact H.
  - rewrite IH. destruct (p x) eqn:E.
    + split; [intros _; right; exists x; auto|auto].
    + split; [intros [H|(v & A & B)]; [auto|right; exists v; auto]|].
      intros [H|(v & [<-|A] & B)]; [auto|congruence|right; exists v; auto].
Qed.
Lemma in_offsets : forall n o, In o (band_offsets n) <->
  (- n <= iv0 o <= n /\ - n <= iv1 o <= n /\ - n <= iv2 o <= n)%Z.
Proof.
  intros n o. unfold band_offsets. rewrite in_flat_map. split.
  - intros (a & Ha & H). rewrite in_flat_map in H. destruct H as (b & Hb & H).
    rewrite in_map_iff in H. destruct H as (c & <- & Hc). rewrite In_zrange in *. simpl. auto.
  - intros (A & B & C). exists (iv0 o). rewrite In_zrange. split; [exact A|].
    rewrite in_flat_map. exists (iv1 o). rewrite In_zrange. split; [exact B|].
    rewrite in_map_iff. exists (iv2 o). rewrite In_zrange. destruct o; auto.
Qed.

Theorem c30_interface_band : forall f i j k n tiny, (0 <= n)%Z -> 0 <= tiny ->
  (forall a b c, (- n <= a <= n)%Z -> (- n <= b <= n)%Z -> (- n <= c <= n)%Z ->
     0 <= f (IV (i + a) (j + b) (k + c)%Z) <= 1) ->
  (interface_band f i j k n tiny = true <->
   (exists a b c, (- n <= a <= n)%Z /\ (- n <= b <= n)%Z /\ (- n <= c <= n)%Z /\
      tiny < f (IV (i + a) (j + b) (k + c)%Z) < 1 - tiny) \/
   (exists a b c a' b' c', (- n <= a <= n)%Z /\ (- n <= b <= n)%Z /\ (- n <= c <= n)%Z /\
      (- n <= a' <= n)%Z /\ (- n <= b' <= n)%Z /\ (- n <= c' <= n)%Z /\
      f (IV (i + a) (j + b) (k + c)%Z) - f (IV (i + a') (j + b') (k + c')%Z) > tiny)).
Proof.
  intros f i j k n tiny Hn Ht Hf. unfold interface_band.
  set (vals := map _ (band_offsets n)).
  assert (HV : forall v, In v vals <-> exists a b c, (- n <= a <= n)%Z /\ (- n <= b <= n)%Z /\ (- n <= c <= n)%Z /\
      v = f (IV (i + a) (j + b) (k + c)%Z)).
  { intros v. unfold vals. rewrite in_map_iff. split.
    - intros (o & <- & Ho). rewrite in_offsets in Ho. exists (iv0 o), (iv1 o), (iv2 o). tauto.
    - intros (a & b & c & A & B & C & ->). exists (IV a b c). rewrite in_offsets. simpl. auto. }
  assert (HR : forall v, In v vals -> 0 <= v <= 1).
  { intros v Hv. apply HV in Hv. destruct Hv as (a & b & c & A & B & C & ->). apply Hf; assumption. }
  assert (HN : In (f (IV (i + 0) (j + 0) (k + 0)%Z)) vals).
  { apply HV. exists 0%Z, 0%Z, 0%Z. repeat split; auto; lia. }
  destruct (fold_max vals 0) as (X1 & X2 & X3). destruct (fold_min vals 1) as (Y1 & Y2 & Y3).
  set (vmax := fold_left (fun a v => rmax a v) vals 0) in *.
  set (vmin := fold_left (fun a v => rmin a v) vals 1) in *.
  assert (In vmax vals \/ vmax <= vmin).
  { destruct X3 as [X3|]; [|auto]. right. destruct Y3 as [Y3|Y3]; [|apply HR in Y3; lra].
    pose proof (X1 _ HN). pose proof (Y1 _ HN). lra. }
  assert (Hle : vmin <= vmax) by (pose proof (X1 _ HN); pose proof (Y1 _ HN); lra).
  rewrite Rabs_right by lra.
  rewrite Bool.orb_true_iff, (fold_any (fun v => Rltb v (1 - tiny) && Rltb tiny v)), Rltb_spec.
  split.
  - intros [H1|[H1|(v & Hv & Hp)]]; [|discriminate|].
    + right. destruct X3 as [X3|X3]; [destruct H as [H|H]; [|lra]|].
      * apply HV in H. destruct H as (a & b & c & A & B & C & E).
        destruct Y3 as [Y3|Y3]; [lra|]. apply HV in Y3. destruct Y3 as (a' & b' & c' & A' & B' & C' & E').
        exists a, b, c, a', b', c'. do 6 (split; [assumption|]). lra.
      * apply HV in X3. destruct X3 as (a & b & c & A & B & C & E).
        destruct Y3 as [Y3|Y3].
        { pose proof (Y1 _ HN). pose proof (HR _ HN). assert (vmax <= 1) by (rewrite E; apply Hf; assumption). lra. }
        apply HV in Y3. destruct Y3 as (a' & b' & c' & A' & B' & C' & E').
        exists a, b, c, a', b', c'. do 6 (split; [assumption|]). lra.
    + left. apply Bool.andb_true_iff in Hp. rewrite !Rltb_spec in Hp.
      apply HV in Hv. destruct Hv as (a & b & c & A & B & C & ->). exists a, b, c. tauto.
  - intros [(a & b & c & A & B & C & Hm)|(a & b & c & a' & b' & c' & A & B & C & A' & B' & C' & Hd)].
    + right; right. exists (f (IV (i + a) (j + b) (k + c)%Z)). split; [apply HV; eauto 10|].
      apply Bool.andb_true_iff. rewrite !Rltb_spec. lra.
    + left. assert (f (IV (i + a) (j + b) (k + c)%Z) <= vmax) by (apply X1, HV; eauto 10).
      assert (vmin <= f (IV (i + a') (j + b') (k + c')%Z)) by (apply Y1, HV; eauto 10). lra.
Qed.

(** Non-vacuity: the middle cell of a horizontal interface in the upper
    quarter.  The plane is found, and the slab next to the bottom is full. *)
Example c30_ex_cut : cut_volume 0 0 1 (/4) 0 1 = /4.
Proof.
  unfold cut_volume. rewrite <- cut_swap23, <- cut_swap12. fold cut_volume.
  change (cut_volume 1 0 0 (/ 4) 0 1 = / 4). rewrite c30_measure_normal by lra.
  unfold seg_length. destruct (Rlt_dec 0 (1 * 1)); [|lra].
  unfold clamp01. rewrite Rmin_right, Rmax_right by lra. field.
Qed.
Example c30_ex_full : cut_volume (/6) (/3) (/2) 2 0 (/2) = 1.
Proof. apply c30_full; [lra|lra|]. intros. lra. Qed.
Example c30_ex_empty : cut_volume (/6) (/3) (-/2) (-1) 0 (/2) = 0.
Proof. apply c30_empty; [lra|lra|]. intros. lra. Qed.
Definition ex_layer : fld := fun c => if (iv2 c <? 0)%Z then 1 else if (iv2 c =? 0)%Z then /4 else 0.
Example c30_ex_layer_hyp : 0 <= at3 ex_layer 0 0 0 <= 1.
Proof. unfold at3, ex_layer. simpl. lra. Qed.
Example c30_ex_layer : exists m alpha, fit_plane ex_layer 0 0 0 = (m, alpha) /\
  Rabs (cut_volume (w0 m) (w1 m) (w2 m) alpha 0 1 - /4) <= / 30000.
Proof.
  destruct (fit_plane ex_layer 0 0 0) as [m al] eqn:E. exists m, al. split; [reflexivity|].
  exact (c30_offset_reproduces_partial ex_layer 0 0 0 m al c30_ex_layer_hyp E).
Qed.
Example c30_ex_levelset : let phi := fun c : ivec => IZR (iv2 c) in
  w2 (youngs phi 0 0 0) <> 0.
Proof. unfold youngs, at3; simpl. lra. Qed.

Print Assumptions c30_range.
Print Assumptions c30_empty.
Print Assumptions c30_full.
Print Assumptions c30_exchange_transverse.
Print Assumptions c30_exchange_cell.
Print Assumptions c30_complement.
Print Assumptions c30_mirror.
Print Assumptions c30_scale.
Print Assumptions c30_measure.
Print Assumptions c30_measure_normal.
Print Assumptions c30_measure_unguarded.
Print Assumptions c30_monotone_partial.
Print Assumptions c30_monotone_unguarded.
Print Assumptions c30_monotone_refuted.
Print Assumptions c30_offset_reproduces_partial.
Print Assumptions c30_offset_unguarded.
Print Assumptions c30_normal_unit.
Print Assumptions c30_fit_range.
Print Assumptions c30_offset_exact_refuted.
Print Assumptions c30_levelset_range.
Print Assumptions c30_levelset_sides.
Print Assumptions c30_levelset_plane.
Print Assumptions c30_interface_band.
