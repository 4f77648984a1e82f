(** Closed form of the slab volume of PlicSpec.v. *)
From Verif Require Import BoxR BoxRFacts Plic PlicSpec.
From Coquelicot Require Import Coquelicot.
Open Scope R_scope.

Definition pos (t : R) : R := Rmax 0 t.

Lemma pos_ge : forall t, 0 <= t -> pos t = t.
Proof. intros; unfold pos; rewrite Rmax_right; lra. Qed.
Lemma pos_le : forall t, t <= 0 -> pos t = 0.
Proof. intros; unfold pos; rewrite Rmax_left; lra. Qed.
Lemma pos_nonneg : forall t, 0 <= pos t.
Proof. intros; unfold pos; apply Rmax_l. Qed.
Lemma pos_lip : forall s t, Rabs (pos s - pos t) <= Rabs (s - t).
Proof.
  intros. unfold pos, Rmax.
  destruct (Rle_dec 0 s); destruct (Rle_dec 0 t);
  unfold Rabs; repeat destruct Rcase_abs; lra.
Qed.

Lemma pos_cont : forall t, continuity_pt pos t.
Proof.
  intros t e He. exists e. split; [exact He|].
  intros x [_ Hx]. simpl in *. unfold R_dist in *.
  eapply Rle_lt_trans; [apply pos_lip|exact Hx].
Qed.

Lemma pos2_bound : forall t h,
  0 <= pos (t + h) * pos (t + h) - pos t * pos t - 2 * pos t * h <= h * h.
Proof.
  intros. unfold pos, Rmax.
  destruct (Rle_dec 0 (t + h)); destruct (Rle_dec 0 t); nra.
Qed.

Lemma pos3_bound : forall t h,
  Rabs (pos (t + h) * pos (t + h) * pos (t + h) - pos t * pos t * pos t
        - 3 * pos t * pos t * h) <= (3 * pos t + Rabs h) * (h * h).
Proof.
  intros. pose proof (Rabs_pos h).
  assert (Hh: h * h = Rabs h * Rabs h).
  { unfold Rabs; destruct Rcase_abs; ring. }
  unfold pos, Rmax.
  destruct (Rle_dec 0 (t + h)); destruct (Rle_dec 0 t).
  - replace ((t+h)*(t+h)*(t+h) - t*t*t - 3*t*t*h) with ((3*t+h)*(h*h)) by ring.
    rewrite Rabs_mult. rewrite (Rabs_right (h*h)) by (apply Rle_ge; nra).
    apply Rmult_le_compat_r; [nra|].
    eapply Rle_trans; [apply Rabs_triang|]. rewrite (Rabs_right (3*t)); lra.
  - (* t < 0 <= t + h : 0 <= (t+h) <= h *)
    assert (0 <= t + h <= h) by lra. rewrite (Rabs_right h) by lra.
    rewrite Rabs_right.
    + assert ((t+h)*(t+h) <= h*h) by nra.
      assert ((t+h)*((t+h)*(t+h)) <= h*(h*h)) by (apply Rmult_le_compat; nra). lra.
    + assert (0 <= (t+h)*((t+h)*(t+h))) by (apply Rmult_le_pos; nra). lra.
  - (* t + h < 0 <= t *)
    assert (0 <= t <= - h) by lra. rewrite (Rabs_left1 h) by lra.
    replace (0*0*0 - t*t*t - 3*t*t*h) with (t*t*(3*(-h) - t)) by ring.
    rewrite Rabs_right by (apply Rle_ge; apply Rmult_le_pos; nra).
    assert (0 <= t * (-h) * ((-h) - t)) by (apply Rmult_le_pos; nra).
    assert (0 <= t * t * t) by (apply Rmult_le_pos; nra).
    assert (0 <= (-h) * (-h) * (-h)) by (apply Rmult_le_pos; nra).
    nra.
  - replace (0*0*0 - 0*0*0 - 3*0*0*h) with 0 by ring. rewrite Rabs_R0. nra.
Qed.

Lemma derive_pos2 : forall t, is_derive (fun x => pos x * pos x) t (2 * pos t).
Proof.
  intros t. apply is_derive_Reals. intros e He.
  exists (mkposreal e He). intros h Hh0 Hh. cbn [pos] in *. simpl in Hh.
  assert (Hp : 0 < Rabs h) by (apply Rabs_pos_lt; exact Hh0).
  apply Rmult_lt_reg_r with (Rabs h); [exact Hp|].
  rewrite <- Rabs_mult.
  replace (((pos (t + h) * pos (t + h) - pos t * pos t) / h - 2 * pos t) * h)
    with (pos (t + h) * pos (t + h) - pos t * pos t - 2 * pos t * h) by (field; exact Hh0).
  destruct (pos2_bound t h). rewrite Rabs_right by lra.
  assert (h * h = Rabs h * Rabs h) by (unfold Rabs; destruct Rcase_abs; ring).
  nra.
Qed.

Lemma derive_pos3 : forall t,
  is_derive (fun x => pos x * pos x * pos x) t (3 * (pos t * pos t)).
Proof.
  intros t. apply is_derive_Reals. intros e He.
  pose proof (pos_nonneg t) as Ht.
  assert (Hd : 0 < Rmin 1 (e / (3 * pos t + 1))).
  { apply Rmin_pos; [lra|]. apply Rdiv_lt_0_compat; lra. }
  exists (mkposreal _ Hd). intros h Hh0 Hh. simpl in Hh.
  assert (Hp : 0 < Rabs h) by (apply Rabs_pos_lt; exact Hh0).
  assert (Hh1 : Rabs h < 1) by (eapply Rlt_le_trans; [exact Hh|apply Rmin_l]).
  assert (Hh2 : Rabs h < e / (3 * pos t + 1)) by (eapply Rlt_le_trans; [exact Hh|apply Rmin_r]).
  apply Rmult_lt_reg_r with (Rabs h); [exact Hp|].
  rewrite <- Rabs_mult.
  match goal with |- Rabs ?X < _ =>
    replace X with (pos (t + h) * pos (t + h) * pos (t + h) - pos t * pos t * pos t
        - 3 * pos t * pos t * h) by (field; exact Hh0) end.
  eapply Rle_lt_trans; [apply pos3_bound|].
  assert (HH : h * h = Rabs h * Rabs h) by (unfold Rabs; destruct Rcase_abs; ring).
  rewrite HH.
  assert (Rabs h * (3 * pos t + 1) < e).
  { apply Rmult_lt_reg_r with (/ (3 * pos t + 1)); [apply Rinv_0_lt_compat; lra|].
    rewrite Rmult_assoc, Rinv_r by lra. unfold Rdiv in Hh2. lra. }
  nra.
Qed.

(** Antiderivatives along a line [x |-> c - m x]. *)
Lemma int_pos1 : forall c m a b, m <> 0 ->
  is_RInt (fun x => pos (c - m * x)) a b
    ((pos (c - m * a) * pos (c - m * a) - pos (c - m * b) * pos (c - m * b)) / (2 * m)).
Proof.
  intros c m a b Hm.
  replace ((pos (c - m * a) * pos (c - m * a) - pos (c - m * b) * pos (c - m * b)) / (2 * m))
    with (minus ((fun x => - / (2*m) * (pos (c - m * x) * pos (c - m * x))) b)
                ((fun x => - / (2*m) * (pos (c - m * x) * pos (c - m * x))) a)).
  2:{ unfold minus, plus, opp; simpl. field. exact Hm. }
  apply (is_RInt_derive (V := R_CompleteNormedModule) (fun x => - / (2*m) * (pos (c - m * x) * pos (c - m * x)))).
  - intros x _.
    replace (pos (c - m * x)) with (scal (- / (2*m)) (scal (- m) (2 * pos (c - m * x)))) at 1.
    2:{ unfold scal; simpl; unfold mult; simpl. field. exact Hm. }
    apply (is_derive_scal (fun x => pos (c - m * x) * pos (c - m * x)) x (- / (2*m))).
    apply (is_derive_comp (fun t => pos t * pos t) (fun x => c - m * x)).
    + apply derive_pos2.
    + auto_derive; [exact Logic.I|ring].
  - intros x _. apply continuity_pt_filterlim.
    apply (continuity_pt_comp (fun x => c - m * x) pos).
    + apply continuity_pt_minus; [apply continuity_pt_const; intros ??; reflexivity|].
      apply continuity_pt_scal. apply derivable_continuous_pt, derivable_pt_id.
    + apply pos_cont.
Qed.

Lemma int_pos2 : forall c m a b, m <> 0 ->
  is_RInt (fun x => pos (c - m * x) * pos (c - m * x)) a b
    ((pos (c - m * a) * pos (c - m * a) * pos (c - m * a)
      - pos (c - m * b) * pos (c - m * b) * pos (c - m * b)) / (3 * m)).
Proof.
  intros c m a b Hm.
  set (F := fun x => - / (3*m) * (pos (c - m * x) * pos (c - m * x) * pos (c - m * x))).
  match goal with |- is_RInt _ _ _ ?V => replace V with (minus (F b) (F a)) end.
  2:{ unfold minus, plus, opp, F; simpl. field. exact Hm. }
  apply (is_RInt_derive (V := R_CompleteNormedModule) F).
  - intros x _.
    replace (pos (c - m * x) * pos (c - m * x))
      with (scal (- / (3*m)) (scal (- m) (3 * (pos (c - m * x) * pos (c - m * x))))) at 1.
    2:{ unfold scal; simpl; unfold mult; simpl. field. exact Hm. }
    apply (is_derive_scal (fun x => pos (c - m * x) * pos (c - m * x) * pos (c - m * x)) x (- / (3*m))).
    apply (is_derive_comp (fun t => pos t * pos t * pos t) (fun x => c - m * x)).
    + apply derive_pos3.
    + auto_derive; [exact Logic.I|ring].
  - intros x _. apply continuity_pt_filterlim.
    assert (H : continuity_pt (fun x => pos (c - m * x)) x).
    { apply (continuity_pt_comp (fun x => c - m * x) pos).
      + apply continuity_pt_minus; [apply continuity_pt_const; intros ??; reflexivity|].
        apply continuity_pt_scal. apply derivable_continuous_pt, derivable_pt_id.
      + apply pos_cont. }
    apply (continuity_pt_mult (fun x => pos (c - m * x)) (fun x => pos (c - m * x))); exact H.
Qed.

Lemma seg_length_pos : forall m c, m <> 0 ->
  seg_length m c = (pos c - pos (c - m)) / m.
Proof.
  intros m c Hm. unfold seg_length, clamp01.
  destruct (Rlt_dec 0 m) as [Hp|Hn].
  - destruct (Rle_dec c 0) as [H|H].
    + rewrite (pos_le c), (pos_le (c - m)) by lra.
      assert (c / m <= 0). { apply Rmult_le_reg_r with m; [lra|]. unfold Rdiv; rewrite Rmult_assoc, Rinv_l by lra; lra. }
      rewrite Rmin_right by lra. rewrite Rmax_left by lra. field; lra.
    + rewrite (pos_ge c) by lra.
      assert (0 < c / m) by (apply Rdiv_lt_0_compat; lra).
      destruct (Rle_dec c m).
      * rewrite (pos_le (c - m)) by lra.
        assert (c / m <= 1). { apply Rmult_le_reg_r with m; [lra|]. unfold Rdiv; rewrite Rmult_assoc, Rinv_l by lra; lra. }
        rewrite Rmin_right by lra. rewrite Rmax_right by lra. field; lra.
      * rewrite (pos_ge (c - m)) by lra.
        assert (1 <= c / m). { apply Rmult_le_reg_r with m; [lra|]. unfold Rdiv; rewrite Rmult_assoc, Rinv_l by lra; lra. }
        rewrite Rmin_left by lra. rewrite Rmax_right by lra. field; lra.
  - assert (Hl : m < 0) by lra.
    destruct (Rle_dec 0 c) as [H|H].
    + rewrite (pos_ge c), (pos_ge (c - m)) by lra.
      assert (c / m <= 0). { replace (c / m) with (- (c / - m)) by (field; lra).
        assert (0 <= c / - m) by (apply Rmult_le_pos; [lra|left; apply Rinv_0_lt_compat; lra]). lra. }
      rewrite Rmin_right by lra. rewrite Rmax_left by lra. field; lra.
    + rewrite (pos_le c) by lra.
      replace (c / m) with ((- c) / (- m)) by (field; lra).
      assert (0 < (-c) / (- m)) by (apply Rdiv_lt_0_compat; lra).
      destruct (Rle_dec m c).
      * rewrite (pos_ge (c - m)) by lra.
        assert ((-c) / (-m) <= 1). { apply Rmult_le_reg_r with (-m); [lra|]. unfold Rdiv; rewrite Rmult_assoc, Rinv_l by lra; lra. }
        rewrite Rmin_right by lra. rewrite Rmax_right by lra. field; lra.
      * rewrite (pos_le (c - m)) by lra.
        assert (1 <= (-c) / (-m)). { apply Rmult_le_reg_r with (-m); [lra|]. unfold Rdiv; rewrite Rmult_assoc, Rinv_l by lra; lra. }
        rewrite Rmin_left by lra. rewrite Rmax_right by lra. field; lra.
Qed.

(** Second and third differences of the powers of [pos]. *)
Definition sq (t : R) : R := pos t * pos t.
Definition cu (t : R) : R := pos t * pos t * pos t.
Definition area2 (m2 m3 c : R) : R :=
  (sq c - sq (c - m2) - sq (c - m3) + sq (c - m2 - m3)) / (2 * m2 * m3).
Definition vol3 (m1 m2 m3 c : R) : R :=
  (cu c - cu (c - m1) - cu (c - m2) - cu (c - m3)
   + cu (c - m1 - m2) + cu (c - m1 - m3) + cu (c - m2 - m3)
   - cu (c - m1 - m2 - m3)) / (6 * m1 * m2 * m3).

Lemma cross_is : forall m2 m3 c, m2 <> 0 -> m3 <> 0 ->
  is_RInt (fun y => seg_length m3 (c - m2 * y)) 0 1 (area2 m2 m3 c).
Proof.
  intros m2 m3 c H2 H3.
  apply is_RInt_ext with (fun y => scal (/ m3) (minus (pos (c - m2 * y)) (pos (c - m3 - m2 * y)))).
  { intros y _. rewrite seg_length_pos by exact H3. unfold scal, minus, plus, opp; simpl; unfold mult; simpl.
    replace (c - m2 * y - m3) with (c - m3 - m2 * y) by ring. field; exact H3. }
  replace (area2 m2 m3 c) with
    (scal (/ m3) (minus
       ((pos (c - m2 * 0) * pos (c - m2 * 0) - pos (c - m2 * 1) * pos (c - m2 * 1)) / (2 * m2))
       ((pos (c - m3 - m2 * 0) * pos (c - m3 - m2 * 0) - pos (c - m3 - m2 * 1) * pos (c - m3 - m2 * 1)) / (2 * m2)))).
  2:{ unfold scal, minus, plus, opp, area2, sq; simpl; unfold mult; simpl.
      replace (c - m2 * 0) with c by ring. replace (c - m2 * 1) with (c - m2) by ring.
      replace (c - m3 - m2 * 0) with (c - m3) by ring.
      replace (c - m3 - m2 * 1) with (c - m2 - m3) by ring. field. split; assumption. }
  apply (is_RInt_scal (V := R_NormedModule)). apply (is_RInt_minus (V := R_NormedModule)); apply int_pos1; exact H2.
Qed.

Lemma cross_area_eq : forall m2 m3 c, m2 <> 0 -> m3 <> 0 ->
  cross_area m2 m3 c = area2 m2 m3 c.
Proof.
  intros m2 m3 c H2 H3. unfold cross_area. apply is_RInt_unique. apply cross_is; assumption.
Qed.

Lemma cross_area_0 : forall m3 c, cross_area 0 m3 c = seg_length m3 c.
Proof.
  intros. unfold cross_area. apply is_RInt_unique.
  apply is_RInt_ext with (fun _ => seg_length m3 c).
  { intros; f_equal; ring. }
  pose proof (is_RInt_const (V := R_NormedModule) 0 1 (seg_length m3 c)) as H.
  unfold scal in H; simpl in H; unfold mult in H; simpl in H.
  replace ((1 - 0) * seg_length m3 c) with (seg_length m3 c) in H by ring.
  exact H.
Qed.

Lemma slab_is : forall m1 m2 m3 al r d, m1 <> 0 -> m2 <> 0 -> m3 <> 0 -> d <> 0 ->
  is_RInt (fun x => area2 m2 m3 (al - m1 * x)) r (r + d)
    (d * vol3 (m1 * d) m2 m3 (al - m1 * r)).
Proof.
  intros m1 m2 m3 al r d H1 H2 H3 Hd.
  apply is_RInt_ext with (fun x => scal (/ (2 * m2 * m3))
    (plus (minus (minus (sq (al - m1 * x)) (sq (al - m2 - m1 * x))) (sq (al - m3 - m1 * x)))
          (sq (al - m2 - m3 - m1 * x)))).
  { intros x _. unfold area2, scal, plus, minus, opp; simpl; unfold mult, plus; simpl.
    replace (al - m1 * x - m2) with (al - m2 - m1 * x) by ring.
    replace (al - m1 * x - m3) with (al - m3 - m1 * x) by ring.
    replace (al - m2 - m1 * x - m3) with (al - m2 - m3 - m1 * x) by ring. field. split; assumption. }
  set (I := fun c => (cu (c - m1 * r) - cu (c - m1 * (r + d))) / (3 * m1)).
  replace (d * vol3 (m1 * d) m2 m3 (al - m1 * r)) with
    (scal (/ (2 * m2 * m3)) (plus (minus (minus (I al) (I (al - m2))) (I (al - m3))) (I (al - m2 - m3)))).
  2:{ unfold I, vol3, scal, plus, minus, opp; simpl; unfold mult, plus; simpl.
      replace (al - m1 * r - m1 * d) with (al - m1 * (r + d)) by ring.
      replace (al - m1 * r - m2) with (al - m2 - m1 * r) by ring.
      replace (al - m1 * r - m3) with (al - m3 - m1 * r) by ring.
      replace (al - m1 * (r + d) - m2) with (al - m2 - m1 * (r + d)) by ring.
      replace (al - m1 * (r + d) - m3) with (al - m3 - m1 * (r + d)) by ring.
      replace (al - m2 - m1 * r - m3) with (al - m2 - m3 - m1 * r) by ring.
      replace (al - m2 - m1 * (r + d) - m3) with (al - m2 - m3 - m1 * (r + d)) by ring.
      field. repeat split; assumption. }
  assert (HI : forall c, is_RInt (fun x => sq (c - m1 * x)) r (r + d) (I c)).
  { intros c. apply int_pos2; exact H1. }
  apply (is_RInt_scal (V := R_NormedModule)).
  apply (is_RInt_plus (V := R_NormedModule)); [|apply HI].
  apply (is_RInt_minus (V := R_NormedModule)); [|apply HI].
  apply (is_RInt_minus (V := R_NormedModule)); apply HI.
Qed.

(** All three coefficients nonzero. *)
Lemma slab_volume_eq : forall m1 m2 m3 al r d, m1 <> 0 -> m2 <> 0 -> m3 <> 0 -> d <> 0 ->
  slab_volume m1 m2 m3 al r d = d * vol3 (m1 * d) m2 m3 (al - m1 * r).
Proof.
  intros. unfold slab_volume. apply is_RInt_unique.
  apply is_RInt_ext with (fun x => area2 m2 m3 (al - m1 * x)).
  { intros x _. symmetry; apply cross_area_eq; assumption. }
  apply slab_is; assumption.
Qed.

(** The slab direction does not appear in the plane. *)
Lemma slab_volume_0 : forall m2 m3 al r d,
  slab_volume 0 m2 m3 al r d = d * cross_area m2 m3 al.
Proof.
  intros. unfold slab_volume. apply is_RInt_unique.
  apply is_RInt_ext with (fun _ => cross_area m2 m3 al).
  { intros; f_equal; ring. }
  pose proof (is_RInt_const (V := R_NormedModule) r (r + d) (cross_area m2 m3 al)) as H.
  unfold scal in H; simpl in H; unfold mult in H; simpl in H.
  replace ((r + d - r) * cross_area m2 m3 al) with (d * cross_area m2 m3 al) in H by ring.
  exact H.
Qed.

(** The middle coefficient vanishes. *)
Lemma slab_volume_mid0 : forall m1 m3 al r d, m1 <> 0 -> m3 <> 0 -> d <> 0 ->
  slab_volume m1 0 m3 al r d = d * area2 (m1 * d) m3 (al - m1 * r).
Proof.
  intros m1 m3 al r d H1 H3 Hd. unfold slab_volume. apply is_RInt_unique.
  apply is_RInt_ext with (fun x => scal (/ m3) (minus (pos (al - m1 * x)) (pos (al - m3 - m1 * x)))).
  { intros x _. rewrite cross_area_0, seg_length_pos by exact H3.
    unfold scal, minus, plus, opp; simpl; unfold mult; simpl.
    replace (al - m1 * x - m3) with (al - m3 - m1 * x) by ring. field; exact H3. }
  set (I := fun c => (sq (c - m1 * r) - sq (c - m1 * (r + d))) / (2 * m1)).
  replace (d * area2 (m1 * d) m3 (al - m1 * r)) with (scal (/ m3) (minus (I al) (I (al - m3)))).
  2:{ unfold I, area2, scal, minus, plus, opp; simpl; unfold mult; simpl.
      replace (al - m1 * r - m1 * d) with (al - m1 * (r + d)) by ring.
      replace (al - m1 * r - m3) with (al - m3 - m1 * r) by ring.
      replace (al - m1 * (r + d) - m3) with (al - m3 - m1 * (r + d)) by ring.
      field. repeat split; assumption. }
  apply (is_RInt_scal (V := R_NormedModule)). apply (is_RInt_minus (V := R_NormedModule)); apply int_pos1; exact H1.
Qed.

Lemma cross_area_seg : forall m3 c, m3 <> 0 -> cross_area 0 m3 c = (pos c - pos (c - m3)) / m3.
Proof. intros; rewrite cross_area_0; apply seg_length_pos; assumption. Qed.

(** Monotonicity and Lipschitz bound in the offset. *)
Lemma pos_mono : forall a b, a <= b -> pos a <= pos b.
Proof. intros; unfold pos, Rmax. repeat destruct Rle_dec; lra. Qed.

Lemma seg_mono_lip : forall m c c', 0 < m -> c <= c' ->
  seg_length m c <= seg_length m c' <= seg_length m c + (c' - c) / m.
Proof.
  intros m c c' Hm Hc. rewrite !seg_length_pos by lra.
  assert (Hi : 0 < / m) by (apply Rinv_0_lt_compat; exact Hm).
  assert (H : pos c - pos (c - m) <= pos c' - pos (c' - m) <= pos c - pos (c - m) + (c' - c)).
  { unfold pos, Rmax. repeat destruct Rle_dec; lra. }
  unfold Rdiv. rewrite <- Rmult_plus_distr_r.
  split; apply Rmult_le_compat_r; lra.
Qed.

Lemma int_shift : forall f a b v k, is_RInt f a b v -> is_RInt (fun x => f x + k) a b (v + (b - a) * k).
Proof.
  intros. apply (is_RInt_plus (V := R_NormedModule) f (fun _ => k) a b v ((b - a) * k) H).
  apply (is_RInt_const (V := R_NormedModule) a b k).
Qed.

Lemma area2_mono_lip : forall m2 m3 c c', 0 < m2 -> 0 < m3 -> c <= c' ->
  area2 m2 m3 c <= area2 m2 m3 c' <= area2 m2 m3 c + (c' - c) / m3.
Proof.
  intros m2 m3 c c' H2 H3 Hc.
  assert (I1 := cross_is m2 m3 c ltac:(lra) ltac:(lra)).
  assert (I2 := cross_is m2 m3 c' ltac:(lra) ltac:(lra)).
  assert (I3 := int_shift _ _ _ _ ((c' - c) / m3) I1).
  replace (area2 m2 m3 c + (1 - 0) * ((c' - c) / m3)) with (area2 m2 m3 c + (c' - c) / m3) in I3 by ring.
  split.
  - eapply (is_RInt_le _ _ 0 1); [lra|exact I1|exact I2|].
    intros x _. apply (seg_mono_lip m3 (c - m2 * x) (c' - m2 * x)); lra.
  - eapply (is_RInt_le _ _ 0 1); [lra|exact I2|exact I3|].
    intros x _. simpl. replace (c' - c) with ((c' - m2 * x) - (c - m2 * x)) by ring.
    apply (seg_mono_lip m3 (c - m2 * x) (c' - m2 * x)); lra.
Qed.

Lemma vol3_mono_lip : forall m1 m2 m3 c c', 0 < m1 -> 0 < m2 -> 0 < m3 -> c <= c' ->
  vol3 m1 m2 m3 c <= vol3 m1 m2 m3 c' <= vol3 m1 m2 m3 c + (c' - c) / m3.
Proof.
  intros m1 m2 m3 c c' H1 H2 H3 Hc.
  assert (I1 := slab_is m1 m2 m3 c 0 1 ltac:(lra) ltac:(lra) ltac:(lra) ltac:(lra)).
  assert (I2 := slab_is m1 m2 m3 c' 0 1 ltac:(lra) ltac:(lra) ltac:(lra) ltac:(lra)).
  assert (I3 := int_shift _ _ _ _ ((c' - c) / m3) I1).
  replace (1 * vol3 (m1 * 1) m2 m3 (c - m1 * 0)) with (vol3 m1 m2 m3 c) in *
    by (rewrite Rmult_1_l; f_equal; ring).
  replace (1 * vol3 (m1 * 1) m2 m3 (c' - m1 * 0)) with (vol3 m1 m2 m3 c') in *
    by (rewrite Rmult_1_l; f_equal; ring).
  replace (vol3 m1 m2 m3 c + (0 + 1 - 0) * ((c' - c) / m3)) with (vol3 m1 m2 m3 c + (c' - c) / m3) in I3 by ring.
  split.
  - eapply (is_RInt_le _ _ 0 (0 + 1)); [lra|exact I1|exact I2|].
    intros x _. apply (area2_mono_lip m2 m3 (c - m1 * x) (c' - m1 * x)); lra.
  - eapply (is_RInt_le _ _ 0 (0 + 1)); [lra|exact I2|exact I3|].
    intros x _. simpl. replace (c' - c) with ((c' - m1 * x) - (c - m1 * x)) by ring.
    apply (area2_mono_lip m2 m3 (c - m1 * x) (c' - m1 * x)); lra.
Qed.
