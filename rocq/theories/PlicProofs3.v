(** Symmetries of the cut volume, the empty and full cases, and the
    reconstruction reproducing the volume fraction. *)
From Verif Require Import BoxR BoxRFacts Plic PlicSpec PlicVol PlicProofs PlicProofs2 PlicIntercept PlicIntercept2.
Open Scope R_scope.

Lemma norm_pos : forall m1 m2 m3 d, 0 < d -> (m1 <> 0 \/ m2 <> 0 \/ m3 <> 0) ->
  0 < Rabs m1 * d + Rabs m2 + Rabs m3.
Proof.
  intros m1 m2 m3 d Hd Hn. pose proof (Rabs_pos m1). pose proof (Rabs_pos m2). pose proof (Rabs_pos m3).
  assert (0 <= Rabs m1 * d) by (apply Rmult_le_pos; lra).
  destruct Hn as [N|[N|N]]; pose proof (Rabs_pos_lt _ N); try lra.
  assert (0 < Rabs m1 * d) by (apply Rmult_lt_0_compat; lra). lra.
Qed.

Lemma cut_guard : forall e m1 m2 m3 alpha r d,
  0 <= e -> 0 < d -> (m1 <> 0 \/ m2 <> 0 \/ m3 <> 0) ->
  Rabs (cut_volume_e e m1 m2 m3 alpha r d - cut_volume_e 0 m1 m2 m3 alpha r d) <= e / 4.
Proof.
  intros e m1 m2 m3 alpha r d He Hd Hn. rewrite !cut_volume_clipped. cbv zeta.
  destruct (sort3 _ _ _) as [[b1 b2] b3] eqn:E.
  pose proof (norm_pos _ _ _ _ Hd Hn) as Ht.
  destruct (sorted_facts _ _ _ _ _ _ _ Ht Hd E) as (O1 & O2 & Hs).
  match goal with |- Rabs (clipped_volume _ _ _ _ ?x - _) <= _ => set (X := x) end.
  pose proof (clipped_volume_usorted e b1 b2 b3 X He O1 O2 Hs).
  pose proof (clipped_volume_usorted 0 b1 b2 b3 X (Rle_refl 0) O1 O2 Hs) as Z.
  replace (0 / 4) with 0 in Z by field.
  assert (clipped_volume 0 b1 b2 b3 X = usorted b1 b2 b3 X) as ->; [|assumption].
  destruct (Req_EM_T (clipped_volume 0 b1 b2 b3 X - usorted b1 b2 b3 X) 0) as [Q|Q]; [lra|].
  pose proof (Rabs_pos_lt _ Q). lra.
Qed.

Lemma lower_half : forall e b1 b2 b3, 0 <= b1 <= b2 -> b2 <= b3 -> b1 + b2 + b3 = 1 ->
  lower_volume e b1 b2 b3 (/2) = /2.
Proof.
  intros e b1 b2 b3 H1 H2 Hs.
  assert (L : lower_volume e b1 b2 b3 (/2) = lower_volume 0 b1 b2 b3 (/2)).
  { unfold lower_volume. rcase; [|reflexivity]. rcase; [reflexivity|]. rcase; [lra|]. reflexivity. }
  rewrite L.
  destruct (lower_volume_usorted 0 b1 b2 b3 (/2) (Rle_refl 0) H1 H2 Hs) as [_ E]; [lra|].
  rewrite E by reflexivity.
  pose proof (usorted_compl b1 b2 b3 (/2) H1 H2 Hs) as C. replace (1 - /2) with (/2) in C by field. lra.
Qed.

Lemma clipped_compl : forall e b1 b2 b3 x, 0 <= b1 <= b2 -> b2 <= b3 -> b1 + b2 + b3 = 1 ->
  clipped_volume e b1 b2 b3 (1 - x) = 1 - clipped_volume e b1 b2 b3 x.
Proof.
  intros e b1 b2 b3 x H1 H2 Hs. unfold clipped_volume.
  assert (E : rmax 0 (rmin 1 (1 - x)) = 1 - rmax 0 (rmin 1 x)).
  { rewrite !rmax_Rmax, !rmin_Rmin. unfold Rmax, Rmin. repeat destruct Rle_dec; lra. }
  rewrite E. set (al := rmax 0 (rmin 1 x)).
  replace (1 - (1 - al)) with al by ring.
  assert (M : rmin (1 - al) al = rmin al (1 - al)) by (rewrite !rmin_Rmin; apply Rmin_comm).
  rewrite M. set (v := lower_volume e b1 b2 b3 (rmin al (1 - al))).
  destruct (Rtotal_order al (/2)) as [L|[L|L]].
  - destruct (Rleb (1 - al) (/2)) eqn:A; [apply Rleb_spec in A; lra|].
    destruct (Rleb al (/2)) eqn:B; [|apply Rleb_false in B; lra]. reflexivity.
  - assert (v = /2).
    { unfold v. rewrite L. replace (1 - /2) with (/2) by field. rewrite rmin_Rmin, Rmin_left by lra.
      apply lower_half; assumption. }
    destruct (Rleb (1 - al) (/2)); destruct (Rleb al (/2)); lra.
  - destruct (Rleb (1 - al) (/2)) eqn:A; [|apply Rleb_false in A; lra].
    destruct (Rleb al (/2)) eqn:B; [apply Rleb_spec in B; lra|]. lra.
Qed.

Lemma cut_complement : forall e m1 m2 m3 alpha r d,
  0 < d -> (m1 <> 0 \/ m2 <> 0 \/ m3 <> 0) ->
  cut_volume_e e (- m1) (- m2) (- m3) (- alpha) r d = 1 - cut_volume_e e m1 m2 m3 alpha r d.
Proof.
  intros e m1 m2 m3 alpha r d Hd Hn. rewrite !cut_volume_clipped. cbv zeta. rewrite !Rabs_Ropp.
  destruct (sort3 _ _ _) as [[b1 b2] b3] eqn:E.
  pose proof (norm_pos _ _ _ _ Hd Hn) as Ht.
  destruct (sorted_facts _ _ _ _ _ _ _ Ht Hd E) as (O1 & O2 & Hs).
  rewrite <- clipped_compl by assumption. f_equal.
  set (N := Rabs m1 * d + Rabs m2 + Rabs m3) in *.
  apply Rmult_eq_reg_r with N; [|lra].
  match goal with |- ?a / N * N = (1 - ?b / N) * N =>
    replace (a / N * N) with a by (field; lra); replace ((1 - b / N) * N) with (N - b) by (field; lra) end.
  unfold N.
  assert (A : forall x, rmax 0 (- - x) = Rabs x - rmax 0 (- x)).
  { intros. rewrite !rmax_Rmax. unfold Rmax, Rabs. repeat destruct Rle_dec; destruct Rcase_abs; lra. }
  assert (B : rmax 0 (- - m1 * d) = Rabs m1 * d - rmax 0 (- m1 * d)).
  { pose proof (A (m1 * d)) as A1. rewrite Rabs_mult in A1. rewrite (Rabs_right d) in A1 by lra.
    replace (- m1 * d) with (- (m1 * d)) by ring. replace (- - m1 * d) with (- - (m1 * d)) by ring. exact A1. }
  rewrite B, !A. ring.
Qed.

(** Mirror images. *)
Lemma cut_mirror1 : forall e m1 m2 m3 alpha r d,
  cut_volume_e e (- m1) m2 m3 (alpha - m1 * (2 * r + d)) r d = cut_volume_e e m1 m2 m3 alpha r d.
Proof.
  intros. rewrite !cut_volume_clipped. cbv zeta. rewrite !Rabs_Ropp.
  destruct (sort3 _ _ _) as [[b1 b2] b3]. do 2 f_equal.
  assert (E : rmax 0 (- - m1 * d) = rmax 0 (- m1 * d) + m1 * d).
  { rewrite !rmax_Rmax. replace (- - m1 * d) with (- (- m1 * d)) by ring.
    set (t := - m1 * d). replace (m1 * d) with (- t) by (unfold t; ring).
    unfold Rmax. repeat destruct Rle_dec; lra. }
  rewrite E. ring.
Qed.
Lemma rmax_opp : forall m, rmax 0 (- - m) = rmax 0 (- m) + m.
Proof. intros. rewrite !rmax_Rmax. unfold Rmax. repeat destruct Rle_dec; lra. Qed.
Lemma cut_mirror2 : forall e m1 m2 m3 alpha r d,
  cut_volume_e e m1 (- m2) m3 (alpha - m2) r d = cut_volume_e e m1 m2 m3 alpha r d.
Proof.
  intros. rewrite !cut_volume_clipped. cbv zeta. rewrite !Rabs_Ropp.
  destruct (sort3 _ _ _) as [[b1 b2] b3]. do 2 f_equal. rewrite (rmax_opp m2). ring.
Qed.
Lemma cut_mirror3 : forall e m1 m2 m3 alpha r d,
  cut_volume_e e m1 m2 (- m3) (alpha - m3) r d = cut_volume_e e m1 m2 m3 alpha r d.
Proof.
  intros. rewrite !cut_volume_clipped. cbv zeta. rewrite !Rabs_Ropp.
  destruct (sort3 _ _ _) as [[b1 b2] b3]. do 2 f_equal. rewrite (rmax_opp m3). ring.
Qed.

(** Exchange of axes. *)
Lemma cut_swap23 : forall e m1 m2 m3 alpha r d,
  cut_volume_e e m1 m3 m2 alpha r d = cut_volume_e e m1 m2 m3 alpha r d.
Proof.
  intros. rewrite !cut_volume_clipped. cbv zeta.
  replace (Rabs m1 * d + Rabs m3 + Rabs m2) with (Rabs m1 * d + Rabs m2 + Rabs m3) by ring.
  set (N := Rabs m1 * d + Rabs m2 + Rabs m3).
  destruct (sort3_perm (Rabs m1 / N * d) (Rabs m2 / N) (Rabs m3 / N)) as [_ P]. rewrite <- P.
  destruct (sort3 _ _ _) as [[b1 b2] b3]. do 2 f_equal. ring.
Qed.
Lemma cut_swap12 : forall e m1 m2 m3 alpha,
  cut_volume_e e m2 m1 m3 alpha 0 1 = cut_volume_e e m1 m2 m3 alpha 0 1.
Proof.
  intros. rewrite !cut_volume_clipped. cbv zeta. rewrite !Rmult_1_r.
  replace (Rabs m2 + Rabs m1 + Rabs m3) with (Rabs m1 + Rabs m2 + Rabs m3) by ring.
  set (N := Rabs m1 + Rabs m2 + Rabs m3).
  destruct (sort3_perm (Rabs m1 / N) (Rabs m2 / N) (Rabs m3 / N)) as [P _]. rewrite <- P.
  destruct (sort3 _ _ _) as [[b1 b2] b3]. do 2 f_equal. ring.
Qed.

(** Scaling the plane's equation. *)
Lemma cut_scale : forall e t m1 m2 m3 alpha r d, 0 < t -> 0 < d -> (m1 <> 0 \/ m2 <> 0 \/ m3 <> 0) ->
  cut_volume_e e (t * m1) (t * m2) (t * m3) (t * alpha) r d = cut_volume_e e m1 m2 m3 alpha r d.
Proof.
  intros e t m1 m2 m3 alpha r d Ht Hd Hn. rewrite !cut_volume_clipped. cbv zeta.
  pose proof (norm_pos _ _ _ _ Hd Hn) as HN.
  rewrite !Rabs_mult, !(Rabs_right t) by lra.
  replace (t * Rabs m1 * d + t * Rabs m2 + t * Rabs m3) with (t * (Rabs m1 * d + Rabs m2 + Rabs m3)) by ring.
  set (N := Rabs m1 * d + Rabs m2 + Rabs m3) in *.
  assert (D : forall x, t * x / (t * N) = x / N) by (intros; field; lra).
  rewrite !D.
  assert (X : forall x, rmax 0 (t * x) = t * rmax 0 x).
  { intros. rewrite !rmax_Rmax. destruct (Rle_dec 0 x).
    - rewrite !Rmax_right; [reflexivity|lra|apply Rmult_le_pos; lra].
    - rewrite !Rmax_left; [ring|lra|]. assert (0 <= t * (- x)) by (apply Rmult_le_pos; lra). lra. }
  replace (- (t * m1) * d) with (t * (- m1 * d)) by ring.
  replace (- (t * m2)) with (t * - m2) by ring. replace (- (t * m3)) with (t * - m3) by ring.
  rewrite !X.
  replace (t * alpha - t * m1 * r + t * rmax 0 (- m1 * d) + t * rmax 0 (- m2) + t * rmax 0 (- m3))
    with (t * (alpha - m1 * r + rmax 0 (- m1 * d) + rmax 0 (- m2) + rmax 0 (- m3))) by ring.
  rewrite D. reflexivity.
Qed.

(** Nothing below the plane, everything below the plane. *)
Lemma clipped_neg : forall e b1 b2 b3 x, x <= 0 -> clipped_volume e b1 b2 b3 x = 0.
Proof.
  intros. unfold clipped_volume.
  assert (rmax 0 (rmin 1 x) = 0) as ->.
  { rewrite rmax_Rmax, rmin_Rmin. unfold Rmax, Rmin. repeat destruct Rle_dec; lra. }
  destruct (Rleb 0 (/2)) eqn:B; [|apply Rleb_false in B; lra].
  rewrite rmin_Rmin, Rmin_left by lra. unfold lower_volume. rcase; [lra|]. reflexivity.
Qed.

Lemma corner : forall m d, 0 <= d -> exists x, 0 <= x <= d /\ m * x = - rmax 0 (- m * d).
Proof.
  intros m d Hd. rewrite rmax_Rmax. unfold Rmax. destruct (Rle_dec 0 (- m * d)).
  - exists d. split; [lra|ring].
  - exists 0. split; [lra|ring].
Qed.

Lemma cut_empty : forall e m1 m2 m3 alpha r d, 0 < d -> (m1 <> 0 \/ m2 <> 0 \/ m3 <> 0) ->
  (forall x y z, r <= x <= r + d -> 0 <= y <= 1 -> 0 <= z <= 1 -> alpha <= m1 * x + m2 * y + m3 * z) ->
  cut_volume_e e m1 m2 m3 alpha r d = 0.
Proof.
  intros e m1 m2 m3 alpha r d Hd Hn H. rewrite cut_volume_clipped. cbv zeta.
  pose proof (norm_pos _ _ _ _ Hd Hn) as HN.
  destruct (sort3 _ _ _) as [[b1 b2] b3]. apply clipped_neg.
  destruct (corner m1 d ltac:(lra)) as (x & Hx & Ex).
  destruct (corner m2 1 ltac:(lra)) as (y & Hy & Ey).
  destruct (corner m3 1 ltac:(lra)) as (z & Hz & Ez).
  rewrite !Rmult_1_r in *.
  specialize (H (r + x) y z ltac:(lra) Hy Hz).
  set (N := Rabs m1 * d + Rabs m2 + Rabs m3) in *.
  unfold Rdiv. assert (0 < / N) by (apply Rinv_0_lt_compat; exact HN).
  match goal with |- ?A * _ <= 0 => assert (A <= 0) end.
  { rewrite Rmult_plus_distr_l in H. lra. }
  match goal with |- ?A * _ <= 0 => assert (0 <= (- A) * / N) by (apply Rmult_le_pos; lra) end. lra.
Qed.

Lemma cut_full : forall e m1 m2 m3 alpha r d, 0 < d -> (m1 <> 0 \/ m2 <> 0 \/ m3 <> 0) ->
  (forall x y z, r <= x <= r + d -> 0 <= y <= 1 -> 0 <= z <= 1 -> m1 * x + m2 * y + m3 * z <= alpha) ->
  cut_volume_e e m1 m2 m3 alpha r d = 1.
Proof.
  intros e m1 m2 m3 alpha r d Hd Hn H.
  pose proof (cut_complement e m1 m2 m3 alpha r d Hd Hn) as C.
  rewrite cut_empty in C; [lra|assumption|intuition lra|].
  intros x y z Hx Hy Hz. specialize (H x y z Hx Hy Hz). lra.
Qed.

(** Offset order. *)
Lemma usorted_mono : forall b1 b2 b3 a a', 0 <= b1 <= b2 -> b2 <= b3 -> b1 + b2 + b3 = 1 ->
  a <= a' -> usorted b1 b2 b3 a <= usorted b1 b2 b3 a'.
Proof.
  intros b1 b2 b3 a a' H1 H2 Hs Ha. unfold usorted.
  destruct (Req_EM_T b1 0); [destruct (Req_EM_T b2 0)|].
  - rewrite <- !seg_length_pos by lra. apply seg_mono_lip; lra.
  - apply area2_mono_lip; lra.
  - apply vol3_mono_lip; lra.
Qed.

Lemma cut_mono : forall e m1 m2 m3 alpha alpha' r d, 0 <= e -> 0 < d ->
  (m1 <> 0 \/ m2 <> 0 \/ m3 <> 0) -> alpha <= alpha' ->
  cut_volume_e e m1 m2 m3 alpha r d <= cut_volume_e e m1 m2 m3 alpha' r d + e / 2.
Proof.
  intros e m1 m2 m3 alpha alpha' r d He Hd Hn Ha. rewrite !cut_volume_clipped. cbv zeta.
  destruct (sort3 _ _ _) as [[b1 b2] b3] eqn:E.
  pose proof (norm_pos _ _ _ _ Hd Hn) as Ht.
  destruct (sorted_facts _ _ _ _ _ _ _ Ht Hd E) as (O1 & O2 & Hs).
  set (N := Rabs m1 * d + Rabs m2 + Rabs m3) in *.
  match goal with |- clipped_volume _ _ _ _ ?x <= clipped_volume _ _ _ _ ?y + _ =>
    assert (M : x <= y); [|set (X := x) in *; set (Y := y) in *] end.
  { unfold Rdiv. apply Rmult_le_compat_r; [left; apply Rinv_0_lt_compat; exact Ht|lra]. }
  pose proof (clipped_volume_usorted e b1 b2 b3 X He O1 O2 Hs) as A.
  pose proof (clipped_volume_usorted e b1 b2 b3 Y He O1 O2 Hs) as B.
  pose proof (usorted_mono b1 b2 b3 X Y O1 O2 Hs M).
  apply Rabs_def2 in A || (unfold Rabs in A; destruct Rcase_abs in A; unfold Rabs in B; destruct Rcase_abs in B; lra).
Qed.

(** The reconstructed normal never vanishes. *)
Definition vnz (m : v3) : Prop := w0 m <> 0 \/ w1 m <> 0 \/ w2 m <> 0.

Lemma sgn_abs : forall a b, Rabs (sgn_gt a b) = 1.
Proof. intros. unfold sgn_gt. destruct (Rltb b a); [apply Rabs_R1|]. rewrite Rabs_left; lra. Qed.
Lemma l1_nz : forall m, l1 m <> 0 -> vnz m.
Proof.
  intros m H. unfold vnz. destruct (Req_EM_T (w0 m) 0) as [A|A]; [|auto].
  destruct (Req_EM_T (w1 m) 0) as [B|B]; [|auto]. destruct (Req_EM_T (w2 m) 0) as [C|C]; [|auto].
  exfalso; apply H. unfold l1. rewrite A, B, C, Rabs_R0. ring.
Qed.
Lemma l1_pos : forall m, vnz m -> 0 < l1 m.
Proof.
  intros m H. unfold l1. pose proof (Rabs_pos (w0 m)). pose proof (Rabs_pos (w1 m)). pose proof (Rabs_pos (w2 m)).
  destruct H as [N|[N|N]]; pose proof (Rabs_pos_lt _ N); lra.
Qed.
Lemma vnz_over : forall m t, vnz m -> t <> 0 -> vnz (vover m t).
Proof.
  intros m t H Ht. unfold vnz, vover; simpl.
  assert (D : forall x, x <> 0 -> x / t <> 0).
  { intros. unfold Rdiv. apply Rmult_integral_contrapositive. split; [assumption|apply Rinv_neq_0_compat; assumption]. }
  destruct H as [N|[N|N]]; auto.
Qed.
Lemma unit_nz : forall m, vnz m -> vnz (vover m (l1 m)).
Proof. intros. apply vnz_over; [assumption|]. pose proof (l1_pos m H). lra. Qed.
Lemma abs1_nz : forall x, Rabs x = 1 -> x <> 0.
Proof. intros x H E. rewrite E, Rabs_R0 in H. lra. Qed.

Lemma mixed_nz : forall e f i j k, vnz (mixed_normal_e e f i j k).
Proof.
  intros. unfold mixed_normal_e.
  assert (A0 : vnz (vover (central0 f i j k) (l1 (central0 f i j k)))).
  { apply unit_nz. left. simpl. apply abs1_nz, sgn_abs. }
  assert (A1 : vnz (vover (central1 f i j k) (l1 (central1 f i j k)))).
  { apply unit_nz. right; left. simpl. apply abs1_nz, sgn_abs. }
  assert (A2 : vnz (vover (central2 f i j k) (l1 (central2 f i j k)))).
  { apply unit_nz. right; right. simpl. apply abs1_nz, sgn_abs. }
  set (c0 := vover (central0 f i j k) _) in *. set (c1 := vover (central1 f i j k) _) in *.
  set (c2 := vover (central2 f i j k) _) in *. set (c3 := vover (youngs f i j k) _).
  cbv zeta.
  match goal with |- vnz (if ?b1 && ?b2 then _ else ?x) => assert (D : vnz x); [|destruct b1; [destruct b2 eqn:E|]] end;
  simpl; try exact D.
  - repeat match goal with |- context [if ?b then _ else _] => destruct b end; simpl; assumption.
  - apply Rltb_spec in E. rewrite !rmax_Rmax in E.
    unfold vnz. destruct (Req_EM_T (w0 c3) 0) as [Z0|Z0]; [|auto].
    destruct (Req_EM_T (w1 c3) 0) as [Z1|Z1]; [|auto]. destruct (Req_EM_T (w2 c3) 0) as [Z2|Z2]; [|auto].
    exfalso. rewrite Z0, Z1, Z2, Rabs_R0 in E. unfold Rmax in E. repeat destruct Rle_dec in E; lra.
Qed.

(** The plane returned by [fit_plane] has a unit normal (sum of magnitudes)
    and the cell's offset measured from its lowest corner is the intercept. *)
Lemma fit_plane_shape : forall e f i j k m al, fit_plane_e e f i j k = (m, al) ->
  l1 m = 1 /\
  al + rmax 0 (- w0 m) + rmax 0 (- w1 m) + rmax 0 (- w2 m)
  = volume_intercept_e e (Rabs (w0 m)) (Rabs (w1 m)) (Rabs (w2 m)) (at3 f i j k).
Proof.
  intros e f i j k m al E. unfold fit_plane_e in E. pose proof (mixed_nz e f i j k) as Hn.
  set (n := mixed_normal_e e f i j k) in *.
  pose proof (l1_pos n Hn) as Hp.
  assert (FL : forall x, (if Rltb x 0 then - x else x) = Rabs x).
  { intros. unfold Rltb, Rabs. destruct Rlt_dec, Rcase_abs; lra. }
  rewrite !FL in E. fold (l1 n) in E.
  assert (IV : forall x, (if Rltb x 0 then -1 else 1) * (Rabs x / l1 n) = x / l1 n).
  { intros. unfold Rltb, Rabs. destruct Rlt_dec, Rcase_abs; try lra; field; lra. }
  rewrite !IV in E. injection E as <- <-. simpl.
  assert (AB : forall x, Rabs (x / l1 n) = Rabs x / l1 n).
  { intros. unfold Rdiv. rewrite Rabs_mult, (Rabs_right (/ l1 n)); [reflexivity|].
    left. apply Rinv_0_lt_compat. exact Hp. }
  split.
  - unfold l1 at 1. simpl. rewrite !AB. unfold l1 in *. field. lra.
  - rewrite !AB. set (A := volume_intercept_e _ _ _ _ _).
    assert (MM : forall x, rmin 0 x + rmax 0 (- x) = 0).
    { intros. rewrite rmin_Rmin, rmax_Rmax. unfold Rmin, Rmax. repeat destruct Rle_dec; lra. }
    pose proof (MM (w0 n / l1 n)). pose proof (MM (w1 n / l1 n)). pose proof (MM (w2 n / l1 n)). lra.
Qed.

Lemma sort3_sum : forall x y z a b c, sort3 x y z = (a, b, c) -> 0 <= x -> 0 <= y -> 0 <= z ->
  0 <= a <= b /\ b <= c /\ a + b + c = x + y + z.
Proof. intros x y z a b c E Hx Hy Hz. apply sort3_spec in E. destruct E as [O P]. intuition lra. Qed.

(** Reproduction error of the exact volume, given that of the ordered
    intercept. *)
Lemma intercept_repro : forall e t x y z f b1 b2 b3,
  (forall m1 m2 m3 ch, 0 <= m1 <= m2 -> m2 <= m3 -> m1 + m2 + m3 = 1 -> 0 <= ch <= /2 ->
     Rabs (usorted m1 m2 m3 (intercept_sorted e m1 m2 m3 ch) - ch) <= t) ->
  0 <= x -> 0 <= y -> 0 <= z -> x + y + z = 1 -> 0 <= f <= 1 ->
  sort3 x y z = (b1, b2, b3) ->
  Rabs (usorted b1 b2 b3 (volume_intercept_e e x y z f) - f) <= t.
Proof.
  intros e t x y z f b1 b2 b3 H Hx Hy Hz Hs Hf E. unfold volume_intercept_e. rewrite E.
  destruct (sort3_sum _ _ _ _ _ _ E Hx Hy Hz) as (O1 & O2 & Os). rewrite Hs in Os.
  rewrite rmin_Rmin. destruct (Rltb (/2) f) eqn:C.
  - apply Rltb_spec in C. rewrite Rmin_right by lra.
    pose proof (usorted_compl b1 b2 b3 (intercept_sorted e b1 b2 b3 (1 - f)) O1 O2 Os) as K.
    specialize (H b1 b2 b3 (1 - f) O1 O2 Os ltac:(lra)).
    rewrite <- Rabs_Ropp in H.
    match goal with |- Rabs ?a <= _ => match type of H with Rabs ?b <= _ => replace a with b by lra end end. exact H.
  - apply Rltb_false in C. rewrite Rmin_left by lra. apply H; auto. lra.
Qed.

Lemma intercept_exact0 : forall m1 m2 m3 ch, 0 <= m1 <= m2 -> m2 <= m3 -> m1 + m2 + m3 = 1 -> 0 <= ch <= /2 ->
  Rabs (usorted m1 m2 m3 (intercept_sorted 0 m1 m2 m3 ch) - ch) <= 0.
Proof. intros. rewrite intercept_exact by assumption. rewrite Rminus_diag_eq by reflexivity. rewrite Rabs_R0. lra. Qed.

Lemma fit_plane_repro : forall e t f i j k m al,
  0 <= e ->
  (forall m1 m2 m3 ch, 0 <= m1 <= m2 -> m2 <= m3 -> m1 + m2 + m3 = 1 -> 0 <= ch <= /2 ->
     Rabs (usorted m1 m2 m3 (intercept_sorted e m1 m2 m3 ch) - ch) <= t) ->
  0 <= at3 f i j k <= 1 -> fit_plane_e e f i j k = (m, al) ->
  Rabs (cut_volume_e 0 (w0 m) (w1 m) (w2 m) al 0 1 - at3 f i j k) <= t.
Proof.
  intros e t f i j k m al He Hi Hf E. destruct (fit_plane_shape _ _ _ _ _ _ _ E) as [L A].
  rewrite cut_volume_clipped. cbv zeta. rewrite !Rmult_1_r, Rmult_0_r, Rminus_0_r. rewrite A.
  unfold l1 in L. rewrite L. unfold Rdiv. rewrite !Rinv_1, !Rmult_1_r.
  destruct (sort3 _ _ _) as [[b1 b2] b3] eqn:S.
  pose proof (Rabs_pos (w0 m)). pose proof (Rabs_pos (w1 m)). pose proof (Rabs_pos (w2 m)).
  destruct (sort3_sum _ _ _ _ _ _ S ltac:(lra) ltac:(lra) ltac:(lra)) as (O1 & O2 & Os). rewrite L in Os.
  set (X := volume_intercept_e e _ _ _ _).
  pose proof (clipped_volume_usorted 0 b1 b2 b3 X (Rle_refl 0) O1 O2 Os) as Z.
  replace (0 / 4) with 0 in Z by field.
  pose proof (intercept_repro e t _ _ _ (at3 f i j k) b1 b2 b3 Hi H H0 H1 L Hf S) as Q.
  fold X in Q.
  assert (clipped_volume 0 b1 b2 b3 X = usorted b1 b2 b3 X) as ->; [|exact Q].
  destruct (Req_EM_T (clipped_volume 0 b1 b2 b3 X - usorted b1 b2 b3 X) 0) as [Q1|Q1]; [lra|].
  pose proof (Rabs_pos_lt _ Q1). lra.
Qed.
Lemma fit_plane_nz : forall e f i j k m al, fit_plane_e e f i j k = (m, al) -> vnz m.
Proof. intros e f i j k m al E. destruct (fit_plane_shape _ _ _ _ _ _ _ E) as [L _]. apply l1_nz. lra. Qed.

(** Only the first axis matters: a plain interval. *)
Lemma cut_axis : forall e m alpha r d, m <> 0 -> 0 < d ->
  cut_volume_e e m 0 0 alpha r d = seg_length (m * d) (alpha - m * r).
Proof.
  intros e m alpha r d Hm Hd. rewrite cut_volume_clipped. cbv zeta. rewrite !Rabs_R0.
  pose proof (Rabs_pos_lt m Hm) as Hp.
  assert (Hpd : 0 < Rabs m * d) by (apply Rmult_lt_0_compat; assumption).
  replace (Rabs m * d + 0 + 0) with (Rabs m * d) by ring.
  replace (Rabs m / (Rabs m * d) * d) with 1 by (field; lra).
  replace (0 / (Rabs m * d)) with 0 by (field; lra).
  replace (rmax 0 (- 0)) with 0 by (rewrite rmax_Rmax, Ropp_0, Rmax_left; lra).
  rewrite !Rplus_0_r.
  assert (S : sort3 1 0 0 = (0, 0, 1)).
  { destruct (sort3 1 0 0) as [[a b] c] eqn:E. apply sort3_spec in E. destruct E as [O P].
    assert (a = 0 /\ b = 0 /\ c = 1) as (-> & -> & ->) by (intuition lra). reflexivity. }
  rewrite S.
  assert (C : forall x, clipped_volume e 0 0 1 x = clamp01 x).
  { intros. unfold clipped_volume, clamp01. rewrite rmax_Rmax, !rmin_Rmin.
    set (al := Rmax 0 (Rmin 1 x)).
    assert (Hal : 0 <= al <= 1).
    { unfold al. split; [apply Rmax_l|]. apply Rmax_lub; [lra|apply Rmin_l]. }
    assert (LV : forall a, 0 <= a <= /2 -> lower_volume e 0 0 1 a = a).
    { intros a Ha. unfold lower_volume. rewrite rmin_Rmin.
      rewrite (Rmin_left (0 + 0) 1) by lra. rcase; [|lra].
      repeat (rcase; [lra|]). field. }
    destruct (Rleb al (/2)) eqn:B.
    - apply Rleb_spec in B. rewrite Rmin_left by lra. apply LV. lra.
    - apply Rleb_false in B. rewrite Rmin_right by lra. rewrite LV by lra. ring. }
  rewrite C. unfold seg_length.
  destruct (Rlt_dec 0 (m * d)) as [P|P].
  - assert (0 < m).
    { destruct (Rle_dec m 0); [|lra]. assert (0 <= - m * d) by (apply Rmult_le_pos; lra). lra. }
    rewrite Rabs_right by lra. rewrite rmax_Rmax, Rmax_left, Rplus_0_r by lra. reflexivity.
  - assert (m < 0).
    { destruct (Rle_dec 0 m); [|lra]. assert (0 < m * d) by (apply Rmult_lt_0_compat; lra). lra. }
    rewrite Rabs_left by lra.
    assert (0 < - m * d) by (apply Rmult_lt_0_compat; lra).
    rewrite rmax_Rmax, Rmax_right by lra.
    replace ((alpha - m * r + - m * d) / (- m * d)) with (1 - (alpha - m * r) / (m * d)) by (field; lra).
    unfold clamp01, Rmax, Rmin. repeat destruct Rle_dec; lra.
Qed.
