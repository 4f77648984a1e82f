(** Facts about the wing model. *)
From Verif Require Import BoxR BoxRFacts VecSpace VecSpaceSpec VecSpaceProofs Tagging DiskActuator DiskSpec DiskProofs
  Wing WingSpec.
Open Scope R_scope.

Lemma rsum_app_w l r : rsum (l ++ r) = rsum l + rsum r.
Proof. induction l; cbn [app]; [change (rsum []) with 0; ring|]. rewrite !rsum_cons, IHl. ring. Qed.

Lemma scale_last_app f l x : scale_last f (l ++ [x]) = (l ++ [x * f])%list.
Proof. induction l as [|a [|b l] IH]; [reflexivity|reflexivity|]. cbn [app scale_last] in *. rewrite IH. reflexivity. Qed.

Lemma rsum_repeat m n : rsum (repeat m n) = INR n * m.
Proof. induction n; [cbn; change (rsum []) with 0; ring|]. cbn [repeat]. rewrite rsum_cons, IHn, S_INR. ring. Qed.

(** *** Points *)
Lemma n1_INR n : (2 <= n)%nat -> IZR (Z.of_nat n - 1) = INR (n - 1) /\ 0 < INR (n - 1).
Proof.
  intros H. split.
  - rewrite INR_IZR_INZ. f_equal. lia.
  - apply (lt_INR 0). lia.
Qed.

Lemma w_point_ok w i : (2 <= w_n w)%nat ->
  w_point w i = along_segment (w_start w) (w_end w) (INR i / INR (w_n w - 1)) vzero.
Proof.
  intros H. destruct (n1_INR _ H) as [E P]. unfold w_point, w_dx, w_span, along_segment. rewrite E.
  unfold vadd, vscale, vsub, vzero; cbn [vx vy vz]. apply vec_eq; field; lra.
Qed.

Lemma w_point_nth w i : (i < w_n w)%nat -> nth i (w_points w) vzero = w_point w i.
Proof.
  intros H. unfold w_points. rewrite (nth_indep _ vzero (w_point w 0)) by (rewrite map_length, seq_length; exact H).
  rewrite map_nth, seq_nth by exact H. f_equal.
Qed.

Lemma mag_dx w : (2 <= w_n w)%nat -> vmag (w_dx w) = len (w_span w) / INR (w_n w - 1).
Proof.
  intros H. destruct (n1_INR _ H) as [E P]. unfold w_dx. rewrite E.
  unfold vmag, len. replace (vmag_sqr (vscale (w_span w) (1 / INR (w_n w - 1))))
    with (inner (w_span w) (w_span w) * Rsqr (/ INR (w_n w - 1)))
    by (unfold vmag_sqr, inner, Rsqr; unfold vadd, vscale, vsub, vzero; cbn [vx vy vz]; field; lra).
  assert (0 <= / INR (w_n w - 1)) by (left; apply Rinv_0_lt_compat; lra).
  rewrite sqrt_mult_alt by apply inner_pos. rewrite sqrt_Rsqr by assumption. reflexivity.
Qed.

Lemma w_widths_form w : (2 <= w_n w)%nat ->
  let m := vmag (w_dx w) in
  w_widths w = ((m * 0.5) :: repeat m (w_n w - 2) ++ [m * 0.5])%list.
Proof.
  intros H m. unfold w_widths. fold m. destruct (w_n w) as [|[|k]] eqn:E; [lia|lia|].
  replace (S (S k) - 2)%nat with k by lia. cbn [repeat scale_first].
  replace (m :: repeat m k)%list with (repeat m k ++ [m])%list by (clear; induction k; cbn; [reflexivity|congruence]).
  change ((m * 0.5) :: repeat m k ++ [m])%list with (((m * 0.5) :: repeat m k) ++ [m])%list.
  rewrite scale_last_app. reflexivity.
Qed.

Lemma w_widths_sum w : (2 <= w_n w)%nat -> rsum (w_widths w) = len (w_span w).
Proof.
  intros H. rewrite (w_widths_form w H). cbn zeta. rewrite rsum_cons, rsum_app_w, rsum_cons, rsum_repeat, mag_dx by exact H.
  change (rsum []) with 0. destruct (n1_INR _ H) as [_ P].
  replace (INR (w_n w - 2)) with (INR (w_n w - 1) - 1)
    by (replace (w_n w - 1)%nat with (S (w_n w - 2)) by lia; rewrite S_INR; ring).
  replace 0.5 with (1 / 2) by lra. field. lra.
Qed.

(** *** Motion *)
Definition path_of (w : wing) (v0 : vec) : path :=
  match w_motion w with MNone => at_rest | MLinear => uniform v0 | MSine => oscillating (w_svec w) (w_period w) end.

Definition pos_at (w : wing) (v0 : vec) (t0 t : R) : list vec :=
  map (fun p => vadd p (moved (path_of w v0) t0 t)) (w_points w).

Definition vtr_ok (w : wing) (v0 : vec) (s : wstate) : Prop := w_motion w = MLinear -> s_vtr s = v0.

Lemma disp_moved w v0 s t t' : vtr_ok w v0 s ->
  w_disp w (s_vtr s) t t' = moved (path_of w v0) t t'.
Proof.
  intros V. unfold w_disp, moved, path_of. unfold vtr_ok in V.
  destruct (w_motion w); cbn; [unfold vzero; apply vec_eq; ring|rewrite V by reflexivity; apply vec_eq; ring|apply vec_eq; ring].
Qed.

Lemma moved_trans p t0 t t' : vadd (moved p t0 t) (moved p t t') = moved p t0 t'.
Proof. unfold moved, vadd; cbn. apply vec_eq; ring. Qed.
Lemma moved_refl p t : moved p t t = vzero.
Proof. unfold moved, vzero. apply vec_eq; ring. Qed.
Lemma vadd_assoc_w a b c : vadd (vadd a b) c = vadd a (vadd b c).
Proof. unfold vadd; cbn. apply vec_eq; ring. Qed.
Lemma vadd_zero_w a : vadd a vzero = a.
Proof. destruct a. unfold vadd; cbn. apply vec_eq; ring. Qed.

Lemma w_step_ok w v0 t0 t t' s : vtr_ok w v0 s -> s_pos s = pos_at w v0 t0 t ->
  (forall a b, s_src s = Some (a, b) -> a = pos_at w v0 t0 t) ->
  let s' := w_step w t t' s in
  vtr_ok w v0 s' /\ s_pos s' = pos_at w v0 t0 t' /\ s_vpos s' = pos_at w v0 t0 t /\
  (s_src s <> None -> s_src s' = Some (pos_at w v0 t0 t', pos_at w v0 t0 t)) /\
  (s_src s = None -> s_src s' = Some (pos_at w v0 t0 t', pos_at w v0 t0 t')).
Proof.
  intros V P A s'.
  assert (E : map (fun p => vadd p (w_disp w (s_vtr s) t t')) (s_pos s) = pos_at w v0 t0 t').
  { rewrite P, (disp_moved w v0 s t t' V). unfold pos_at. rewrite map_map. apply map_ext. intros a.
    rewrite vadd_assoc_w, moved_trans. reflexivity. }
  unfold s', w_step. cbn [s_pos s_vpos s_vtr s_src]. cbv zeta. rewrite E. split; [|split; [|split; [|split]]].
  - intros M. cbn [s_vtr]. unfold w_vtr. rewrite M. apply V, M.
  - reflexivity.
  - exact P.
  - destruct (s_src s) as [[a b]|] eqn:S; [intros _; rewrite (A _ _ eq_refl); reflexivity|congruence].
  - intros ->. reflexivity.
Qed.

Lemma init_ok w v0 t0 : let s := w_step w t0 t0 (w_init w v0) in
  vtr_ok w v0 s /\ s_pos s = pos_at w v0 t0 t0 /\ s_vpos s = pos_at w v0 t0 t0 /\
  s_src s = Some (pos_at w v0 t0 t0, pos_at w v0 t0 t0).
Proof.
  assert (E : w_points w = pos_at w v0 t0 t0).
  { unfold pos_at. rewrite moved_refl. rewrite <- (map_id (w_points w)) at 1. apply map_ext. intros a.
    symmetry. apply vadd_zero_w. }
  destruct (w_step_ok w v0 t0 t0 t0 (w_init w v0)) as (A & B & C & _ & D);
    [intros _; reflexivity|exact E|discriminate|].
  cbv zeta. auto.
Qed.

Lemma last_other {A} (l : list A) x d d' : last (x :: l) d = last (x :: l) d'.
Proof. revert x. induction l as [|y l IH]; intros x; [reflexivity|]. change (last (y :: l) d = last (y :: l) d'). apply IH. Qed.

Lemma w_steps_app w t ts t' s : w_steps w t (ts ++ [t']) s = w_step w (last ts t) t' (w_steps w t ts s).
Proof.
  revert t s. induction ts as [|a r IH]; intros t s; [reflexivity|].
  cbn [app w_steps]. rewrite IH. f_equal. destruct r as [|b r]; [reflexivity|].
  change (last (a :: b :: r) t) with (last (b :: r) t). apply last_other.
Qed.

Lemma last_snoc {A} (l : list A) x d : last (l ++ [x]) d = x.
Proof. apply last_last. Qed.

Lemma w_run_ok w v0 t0 ts : let s := w_run w v0 t0 ts in let tl := last ts t0 in let tp := last (removelast ts) t0 in
  vtr_ok w v0 s /\ s_pos s = pos_at w v0 t0 tl /\ s_vpos s = pos_at w v0 t0 tp /\
  s_src s = Some (pos_at w v0 t0 tl, pos_at w v0 t0 tp).
Proof.
  cbv zeta. induction ts as [|t' ts IH] using rev_ind.
  - destruct (init_ok w v0 t0) as (A & B & C & D). unfold w_run; cbn [w_steps last removelast]. auto.
  - destruct IH as (A & B & C & D). rewrite last_snoc, removelast_last.
    assert (R : w_run w v0 t0 (ts ++ [t']) = w_step w (last ts t0) t' (w_run w v0 t0 ts)).
    { unfold w_run. apply w_steps_app. }
    rewrite R.
    destruct (w_step_ok w v0 t0 (last ts t0) t' (w_run w v0 t0 ts)) as (A' & B' & C' & D' & _); [exact A|exact B| |].
    + intros a b E. rewrite D in E. injection E as <- _. reflexivity.
    + rewrite D in D'. split; [exact A'|split; [exact B'|split; [exact C'|apply D'; discriminate]]].
Qed.

(** *** Angles *)
Lemma atan_sc t : cos (atan t) = 1 / sqrt (1 + t * t) /\ sin (atan t) = t / sqrt (1 + t * t).
Proof.
  pose proof (cos_atan t) as C. pose proof (sin_atan t) as S. unfold Rsqr in *. auto.
Qed.

Lemma atan2_ok y x : is_angle (atan2 y x) x y.
Proof.
  assert (Gen : forall x, x <> 0 -> x = sqrt (x * x + y * y) * (if Rltb 0 x then 1 else -1) * cos (atan (y / x)) /\
                          y = sqrt (x * x + y * y) * (if Rltb 0 x then 1 else -1) * sin (atan (y / x))).
  { intros z Z. destruct (atan_sc (y / z)) as [C S]. rewrite C, S.
    assert (P : 0 < 1 + y / z * (y / z)) by (pose proof (Rle_0_sqr (y / z)) as K; unfold Rsqr in K; lra).
    assert (Q : sqrt (z * z + y * y) = Rabs z * sqrt (1 + y / z * (y / z))).
    { replace (z * z + y * y) with (Rsqr z * (1 + y / z * (y / z))) by (unfold Rsqr; field; exact Z).
      rewrite sqrt_mult_alt by apply Rle_0_sqr. rewrite sqrt_Rsqr_abs. reflexivity. }
    assert (sqrt (1 + y / z * (y / z)) <> 0) by (apply Rgt_not_eq, sqrt_lt_R0, P).
    rewrite Q. set (q := sqrt (1 + y / z * (y / z))) in *.
    assert (Ab : Rabs z * (if Rltb 0 z then 1 else -1) = z).
    { unfold Rabs. destruct (Rcase_abs z).
      - rewrite (proj2 (Rltb_false 0 z)) by lra. ring.
      - rewrite (proj2 (Rltb_spec 0 z)) by lra. ring. }
    split.
    - transitivity (Rabs z * (if Rltb 0 z then 1 else -1) * (q * (1 / q))); [rewrite Ab; field; assumption|ring].
    - transitivity (Rabs z * (if Rltb 0 z then 1 else -1) * (q * (y / z / q))); [rewrite Ab; field; auto|ring]. }
  pose proof PI_RGT_0 as P. unfold is_angle, atan2.
  destruct (atan_bound (y / x)) as [B1 B2].
  destruct (Rtotal_order x 0) as [X|[X|X]].
  - rewrite (proj2 (Rltb_false 0 x)) by lra. rewrite (proj2 (Rltb_spec x 0)) by lra.
    specialize (Gen x ltac:(lra)). rewrite (proj2 (Rltb_false 0 x)) in Gen by lra. destruct Gen as [G1 G2].
    destruct (Rlt_or_le y 0) as [Y|Y].
    + rewrite (proj2 (Rltb_spec y 0)) by lra.
      assert (0 < atan (y / x)).
      { rewrite <- atan_0. apply atan_increasing. replace (y / x) with (- y * / (- x)) by (field; lra).
        apply Rmult_lt_0_compat; [lra|apply Rinv_0_lt_compat; lra]. }
      split; [lra|]. replace (atan (y / x) - PI) with (- (PI - atan (y / x))) by ring.
      rewrite cos_neg, sin_neg, sin_PI_x, Rtrigo_facts.cos_pi_minus. split; [rewrite G1 at 1; ring|rewrite G2 at 1; ring].
    + rewrite (proj2 (Rltb_false y 0)) by lra.
      assert (atan (y / x) <= 0).
      { assert (y / x <= 0).
        { replace (y / x) with (- (y * / (- x))) by (field; lra).
          assert (0 <= y * / - x) by (apply Rmult_le_pos; [lra|left; apply Rinv_0_lt_compat; lra]). lra. }
        rewrite <- atan_0. destruct H as [H|H]; [left; apply atan_increasing, H|rewrite H; lra]. }
      split; [lra|]. rewrite neg_cos, neg_sin. split; [rewrite G1 at 1; ring|rewrite G2 at 1; ring].
  - subst x. rewrite (proj2 (Rltb_false 0 0)) by lra.
    rewrite Rmult_0_l, Rplus_0_l.
    destruct (Rtotal_order y 0) as [Y|[Y|Y]].
    + rewrite (proj2 (Rltb_false 0 y)) by lra. rewrite (proj2 (Rltb_spec y 0)) by lra.
      rewrite cos_neg, sin_neg, cos_PI2, sin_PI2. split; [lra|].
      replace (y * y) with (Rsqr y) by reflexivity. rewrite sqrt_Rsqr_abs, Rabs_left by lra. split; ring.
    + subst y. rewrite !(proj2 (Rltb_false 0 0)) by lra. rewrite Rmult_0_l, sqrt_0. split; [lra|split; ring].
    + rewrite (proj2 (Rltb_spec 0 y)) by lra. rewrite cos_PI2, sin_PI2. split; [lra|].
      rewrite sqrt_square by lra. split; ring.
  - rewrite (proj2 (Rltb_spec 0 x)) by lra. specialize (Gen x ltac:(lra)).
    rewrite (proj2 (Rltb_spec 0 x)) in Gen by lra. destruct Gen as [G1 G2].
    split; [lra|]. split; [rewrite G1 at 1; ring|rewrite G2 at 1; ring].
Qed.

(** An angle is determined by its cosine and sine. *)
Lemma angle_unique a b : - PI < a <= PI -> - PI < b <= PI -> cos a = cos b -> sin a = sin b -> a = b.
Proof.
  intros A B C S. pose proof PI_RGT_0 as P.
  assert (K : forall x, 0 <= x <= PI -> forall z, 0 <= z <= PI -> cos x = cos z -> x = z) by
    (intros x X z Z E; apply cos_inj; assumption).
  destruct (Rle_or_lt 0 a) as [a0|a0]; destruct (Rle_or_lt 0 b) as [b0|b0].
  - apply K; lra.
  - exfalso. assert (0 <= sin a) by (apply sin_ge_0; lra).
    assert (sin b < 0) by (apply sin_lt_0_var; lra). lra.
  - exfalso. assert (0 <= sin b) by (apply sin_ge_0; lra).
    assert (sin a < 0) by (apply sin_lt_0_var; lra). lra.
  - assert (- a = - b) by (apply K; [lra|lra|rewrite !cos_neg; exact C]). lra.
Qed.

Lemma atan2_unique y x r a : 0 < r -> - PI < a <= PI -> x = r * cos a -> y = r * sin a -> atan2 y x = a.
Proof.
  intros R0 A X Y. destruct (atan2_ok y x) as (B & C & S).
  assert (Q : sqrt (x * x + y * y) = r).
  { replace (x * x + y * y) with (r * r).
    - apply sqrt_square. lra.
    - rewrite X, Y. pose proof (sc1 a). nra. }
  rewrite Q in C, S. apply angle_unique; [exact B|exact A| |].
  - apply (Rmult_eq_reg_l r); [|lra]. rewrite <- C. exact X.
  - apply (Rmult_eq_reg_l r); [|lra]. rewrite <- S. exact Y.
Qed.
