(** Proofs about the volume-fraction advection: ranges, upwinding, donor
    limits, debris removal. *)
From Coq Require Import Permutation.
From Verif Require Import BoxR BoxRFacts Plic PlicSpec PlicVol PlicProofs PlicProofs2 PlicIntercept2 PlicProofs3 VofAdvect VofSpec VofSetting.
Open Scope R_scope.

Lemma in_boxb_spec : forall b c, in_boxb b c = true <-> in_box b c.
Proof.
  intros. unfold in_boxb, in_box. rewrite !Bool.andb_true_iff, !Z.leb_le. tauto.
Qed.

Lemma shift_up : forall c d, shift c d 1 = up c d.
Proof. reflexivity. Qed.
Lemma shift_down : forall c d, shift c d (-1) = down c d.
Proof. reflexivity. Qed.
Lemma shift_0 : forall c d, shift c d 0 = c.
Proof. intros [a b k] d. unfold shift; simpl. destruct (d =? 0)%Z, (d =? 1)%Z; rewrite ?Z.add_0_r; reflexivity. Qed.
Lemma shift_add : forall c d s t, shift (shift c d s) d t = shift c d (s + t).
Proof. intros [a b k] d s t. unfold shift; simpl. destruct (d =? 0)%Z, (d =? 1)%Z; simpl; f_equal; lia. Qed.
Lemma up_down : forall c d, up (down c d) d = c.
Proof. intros. rewrite <- shift_up, <- shift_down, shift_add. apply shift_0. Qed.
Lemma down_up : forall c d, down (up c d) d = c.
Proof. intros. rewrite <- shift_up, <- shift_down, shift_add. apply shift_0. Qed.

Lemma clip01_range : forall x, 0 <= clip01 x <= 1.
Proof. intros. unfold clip01. rewrite rmax_Rmax, rmin_Rmin. unfold Rmax, Rmin. repeat destruct Rle_dec; lra. Qed.
Lemma clip01_id : forall x, 0 <= x <= 1 -> clip01 x = x.
Proof. intros. unfold clip01. rewrite rmax_Rmax, rmin_Rmin. unfold Rmax, Rmin. repeat destruct Rle_dec; lra. Qed.
Lemma clip01_near : forall x d, 0 <= d -> - d <= x <= 1 + d -> Rabs (clip01 x - x) <= d.
Proof.
  intros. unfold clip01. rewrite rmax_Rmax, rmin_Rmin. unfold Rmax, Rmin, Rabs.
  repeat destruct Rle_dec; destruct Rcase_abs; lra.
Qed.

Lemma abs_between : forall x d, Rabs x <= d -> - d <= x <= d.
Proof. intros x d H. unfold Rabs in H. destruct Rcase_abs in H; lra. Qed.

(** ** Ranges *)
Lemma sweep_range : forall e g dir dt vel f C c, in_box (vdom g) c ->
  0 <= sweep e g dir dt vel f C c <= 1.
Proof.
  intros. unfold sweep. apply in_boxb_spec in H. rewrite H. apply clip01_range.
Qed.

Lemma debris1_either : forall f c x, debris1 f c x = f x \/ (debris1 f c x = 0 /\ x = c /\ 0 < f c).
Proof.
  intros f c x. unfold debris1.
  match goal with |- context [if ?b then _ else _] => destruct b eqn:E end; [|auto].
  repeat (apply Bool.andb_true_iff in E; destruct E as [E ?]). apply Rltb_spec in E.
  destruct ((iv0 x =? iv0 c)%Z && (iv1 x =? iv1 c)%Z && (iv2 x =? iv2 c)%Z)%bool eqn:X; [|auto].
  repeat (apply Bool.andb_true_iff in X; destruct X as [X ?]). apply Z.eqb_eq in X, H5, H6.
  right. split; [reflexivity|]. split; [destruct x, c; simpl in *; congruence|exact E].
Qed.
Lemma debris_either : forall order f x,
  debris_loop order f x = f x \/ (debris_loop order f x = 0 /\ 0 < f x).
Proof.
  unfold debris_loop. induction order as [|c l IH]; intros f x; simpl; [auto|].
  destruct (IH (debris1 f c) x) as [E|[E P]]; destruct (debris1_either f c x) as [D|(D & -> & Q)]; rewrite ?D in *.
  - left. exact E.
  - right. split; [rewrite E; reflexivity|exact Q].
  - right. split; [exact E|exact P].
  - lra.
Qed.
Lemma debris_level_either : forall bs old new x,
  debris_level bs old new x = new x \/ (debris_level bs old new x = 0 /\ 0 < new x).
Proof.
  induction bs as [|bo r IH]; intros old new x; simpl; [auto|].
  destruct (in_boxb (fst bo) x) eqn:B; [|apply IH].
  unfold debris_box.
  destruct (debris_either (snd bo) (fun c => if in_boxb (fst bo) c then new c else old c) x) as [E|[E P]];
    rewrite ?B in *; auto.
Qed.

(** Ghost-cell filling leaves the cells of the level alone. *)

Lemma split_step_range : forall e g v s o C f c, keeps_valid (vdom g) (ve_fill v) ->
  in_box (vdom g) c -> 0 <= split_step e g v s o C f c <= 1.
Proof.
  intros e g v s o C f c K Hc. unfold split_step. rewrite K by exact Hc.
  set (f1 := sweep _ _ _ _ _ _ _).
  assert (0 <= f1 c <= 1) by (apply sweep_range; exact Hc).
  destruct (ve_debris v) as [bs|]; [|assumption].
  destruct (o =? 2)%Z; [|assumption].
  destruct (debris_level_either bs f f1 c) as [->|[-> _]]; [assumption|lra].
Qed.
Lemma vof_step_range : forall e g v s f c, keeps_valid (vdom g) (ve_fill v) ->
  in_box (vdom g) c -> 0 <= vof_step e g v s f c <= 1.
Proof. intros. unfold vof_step. apply split_step_range; assumption. Qed.

Lemma vof_run_range : forall e g vs st,
  vs <> nil -> (forall v, In v vs -> keeps_valid (vdom g) (ve_fill v)) ->
  forall c, in_box (vdom g) c -> 0 <= snd (vof_run e g vs st) c <= 1.
Proof.
  intros e g vs. induction vs as [|v r IH]; intros st Hn Hk c Hc; [congruence|].
  simpl. destruct r as [|w r'].
  - simpl. apply vof_step_range; [apply Hk; left; reflexivity|exact Hc].
  - apply IH; [discriminate| |exact Hc]. intros u Hu. apply Hk. right. exact Hu.
Qed.

(** ** Face fractions *)
Lemma cut_dir_range : forall e dir m al r d, 0 <= e -> 0 < d -> vnz m -> 0 <= cut_dir e dir m al r d <= 1.
Proof.
  intros e dir m al r d He Hd Hn. unfold cut_dir. unfold vnz in Hn.
  destruct (dir =? 0)%Z; [|destruct (dir =? 1)%Z]; apply cut_volume_range; auto; tauto.
Qed.

Lemma eulerian_fst : forall e dir k uL uR f c, 0 <= e ->
  0 <= fst (eulerian e dir k uL uR f c) <= 1 /\ (0 <= uL * k -> fst (eulerian e dir k uL uR f c) = 0).
Proof.
  intros e dir k uL uR f c He. unfold eulerian.
  destruct (Rleb _ tiny_vof); [simpl; rcase; split; intros; lra|].
  destruct (Rltb tiny_vof _); [|simpl; split; intros; lra].
  destruct (fit_plane_e e f _ _ _) as [m al] eqn:E. simpl.
  rcase; split; intros; try lra. apply cut_dir_range; [exact He|lra|]. eapply fit_plane_nz; exact E.
Qed.
Lemma eulerian_snd : forall e dir k uL uR f c, 0 <= e ->
  0 <= snd (eulerian e dir k uL uR f c) <= 1 /\ (uR * k <= 0 -> snd (eulerian e dir k uL uR f c) = 0).
Proof.
  intros e dir k uL uR f c He. unfold eulerian.
  destruct (Rleb _ tiny_vof); [simpl; rcase; split; intros; lra|].
  destruct (Rltb tiny_vof _); [|simpl; split; intros; lra].
  destruct (fit_plane_e e f _ _ _) as [m al] eqn:E. simpl.
  rcase; split; intros; try lra. apply cut_dir_range; [exact He|lra|]. eapply fit_plane_nz; exact E.
Qed.


Lemma face_fraction_eq : forall e g dir dt vel f c,
  face_fraction e g dir dt vel f c =
  if wall_face g dir c then 0
  else snd (vofLR e g dir dt vel f (down c dir)) + fst (vofLR e g dir dt vel f c).
Proof.
  intros. unfold face_fraction, wall_face. rewrite shift_down.
  destruct (is_wall (vbclo g dir) && _)%bool; destruct (is_wall (vbchi g dir) && _)%bool; simpl; ring || reflexivity.
Qed.

Lemma left_zero : forall e g dir dt vel f c, 0 <= e ->
  vel c * (dt / vdx g dir) <= 0 -> snd (vofLR e g dir dt vel f (down c dir)) = 0.
Proof.
  intros. unfold vofLR. rewrite shift_up, up_down. apply eulerian_snd; assumption.
Qed.
Lemma right_zero : forall e g dir dt vel f c, 0 <= e ->
  0 <= vel c * (dt / vdx g dir) -> fst (vofLR e g dir dt vel f c) = 0.
Proof. intros. unfold vofLR. apply eulerian_fst; assumption. Qed.

Lemma face_fraction_range : forall e g dir dt vel f c, 0 <= e ->
  0 <= face_fraction e g dir dt vel f c <= 1.
Proof.
  intros. rewrite face_fraction_eq. destruct (wall_face g dir c); [lra|].
  destruct (Rle_dec 0 (vel c * (dt / vdx g dir))).
  - rewrite right_zero by assumption. unfold vofLR.
    pose proof (proj1 (eulerian_snd e dir (dt / vdx g dir) (vel (down c dir)) (vel (shift (down c dir) dir 1)) f (down c dir) H)). lra.
  - rewrite left_zero by (assumption || lra). unfold vofLR.
    pose proof (proj1 (eulerian_fst e dir (dt / vdx g dir) (vel c) (vel (shift c dir 1)) f c H)). lra.
Qed.

(** ** Only the neighbourhood of the donor matters *)
Lemma fit_plane_local : forall e f f' c, (forall x, near c x -> f x = f' x) ->
  fit_plane_e e f (iv0 c) (iv1 c) (iv2 c) = fit_plane_e e f' (iv0 c) (iv1 c) (iv2 c).
Proof.
  intros e f f' c H.
  assert (V : forall p q r, (-1 <= p <= 1)%Z -> (-1 <= q <= 1)%Z -> (-1 <= r <= 1)%Z ->
     at3 f (iv0 c + p) (iv1 c + q) (iv2 c + r) = at3 f' (iv0 c + p) (iv1 c + q) (iv2 c + r)).
  { intros. apply H. unfold near; simpl. lia. }
  assert (V0 : at3 f (iv0 c) (iv1 c) (iv2 c) = at3 f' (iv0 c) (iv1 c) (iv2 c)).
  { apply H. unfold near; simpl; lia. }
  assert (Y : youngs f (iv0 c) (iv1 c) (iv2 c) = youngs f' (iv0 c) (iv1 c) (iv2 c)).
  { unfold youngs. rewrite !V by lia. reflexivity. }
  assert (K0 : central0 f (iv0 c) (iv1 c) (iv2 c) = central0 f' (iv0 c) (iv1 c) (iv2 c)).
  { unfold central0. rewrite !V by lia. reflexivity. }
  assert (K1 : central1 f (iv0 c) (iv1 c) (iv2 c) = central1 f' (iv0 c) (iv1 c) (iv2 c)).
  { unfold central1. rewrite !V by lia. reflexivity. }
  assert (K2 : central2 f (iv0 c) (iv1 c) (iv2 c) = central2 f' (iv0 c) (iv1 c) (iv2 c)).
  { unfold central2. rewrite !V by lia. reflexivity. }
  unfold fit_plane_e, mixed_normal_e. rewrite Y, K0, K1, K2, V0. reflexivity.
Qed.
Lemma vofLR_local : forall e g dir dt vel f f' c, (forall x, near c x -> f x = f' x) ->
  vofLR e g dir dt vel f c = vofLR e g dir dt vel f' c.
Proof.
  intros e g dir dt vel f f' c H. unfold vofLR, eulerian. rewrite (fit_plane_local e f f' c H).
  rewrite (H c); [reflexivity|]. unfold near. lia.
Qed.

(** ** Slab additivity and donor limits *)
Definition slab0 (m1 m2 m3 al r d : R) : R := d * cut_volume_e 0 m1 m2 m3 al r d.

Lemma slab_add3 : forall m1 m2 m3 al r d1 d2, m3 <> 0 -> 0 < d1 -> 0 < d2 ->
  slab0 m1 m2 m3 al r d1 + slab0 m1 m2 m3 al (r + d1) d2 = slab0 m1 m2 m3 al r (d1 + d2).
Proof.
  intros m1 m2 m3 al r d1 d2 H3 P1 P2. unfold slab0.
  rewrite !cut_volume_measure_exact by lra.
  destruct (Req_EM_T m1 0) as [->|H1].
  - rewrite !slab_volume_0. ring.
  - destruct (Req_EM_T m2 0) as [->|H2].
    + rewrite !slab_volume_mid0 by lra. unfold area2.
      replace (al - m1 * (r + d1)) with (al - m1 * r - m1 * d1) by ring.
      replace (al - m1 * r - m1 * d1 - m1 * d2) with (al - m1 * r - m1 * (d1 + d2)) by ring.
      field. repeat split; lra.
    + rewrite !slab_volume_eq by lra. unfold vol3.
      replace (al - m1 * (r + d1)) with (al - m1 * r - m1 * d1) by ring.
      replace (al - m1 * r - m1 * d1 - m1 * d2) with (al - m1 * r - m1 * (d1 + d2)) by ring.
      field. repeat split; lra.
Qed.
Lemma slab_add : forall m1 m2 m3 al r d1 d2, (m1 <> 0 \/ m2 <> 0 \/ m3 <> 0) -> 0 <= d1 -> 0 <= d2 ->
  slab0 m1 m2 m3 al r d1 + slab0 m1 m2 m3 al (r + d1) d2 = slab0 m1 m2 m3 al r (d1 + d2).
Proof.
  intros m1 m2 m3 al r d1 d2 H P1 P2.
  destruct (Req_EM_T d1 0) as [->|]; [rewrite Rplus_0_r, Rplus_0_l; unfold slab0 at 1; ring|].
  destruct (Req_EM_T d2 0) as [->|]; [rewrite Rplus_0_r; unfold slab0 at 2; ring|].
  destruct (Req_EM_T m3 0) as [->|]; [|apply slab_add3; lra].
  destruct (Req_EM_T m2 0) as [->|].
  - assert (m1 <> 0) by tauto. unfold slab0. rewrite !cut_axis by lra.
    rewrite !seg_length_pos by (apply Rmult_integral_contrapositive; split; lra).
    replace (al - m1 * (r + d1)) with (al - m1 * r - m1 * d1) by ring.
    replace (al - m1 * r - m1 * d1 - m1 * d2) with (al - m1 * r - m1 * (d1 + d2)) by ring.
    field. repeat split; lra.
  - unfold slab0. rewrite !(cut_swap23 0 m1 0 m2). apply slab_add3; lra.
Qed.
Lemma slab0_range : forall m1 m2 m3 al r d, (m1 <> 0 \/ m2 <> 0 \/ m3 <> 0) -> 0 <= d ->
  0 <= slab0 m1 m2 m3 al r d <= d.
Proof.
  intros. unfold slab0. destruct (Req_EM_T d 0) as [->|]; [rewrite Rmult_0_l; lra|].
  pose proof (cut_volume_range 0 m1 m2 m3 al r d (Rle_refl 0) ltac:(lra) H) as [A B].
  split; [apply Rmult_le_pos; lra|]. apply Rle_trans with (d * 1); [apply Rmult_le_compat_l; lra|lra].
Qed.

(** The slabs leaving at both ends of the unit cell hold at most its liquid
    and leave room for at most its gas. *)
Lemma two_slabs : forall m1 m2 m3 al a b, (m1 <> 0 \/ m2 <> 0 \/ m3 <> 0) -> 0 <= a -> 0 <= b -> a + b <= 1 ->
  let V := cut_volume_e 0 m1 m2 m3 al 0 1 in
  slab0 m1 m2 m3 al 0 a + slab0 m1 m2 m3 al (1 - b) b <= V /\
  V - (1 - a - b) <= slab0 m1 m2 m3 al 0 a + slab0 m1 m2 m3 al (1 - b) b.
Proof.
  intros m1 m2 m3 al a b H Ha Hb Hab V.
  pose proof (slab_add m1 m2 m3 al 0 a (1 - a - b) H Ha ltac:(lra)) as E1.
  pose proof (slab_add m1 m2 m3 al 0 (a + (1 - a - b)) b H ltac:(lra) Hb) as E2.
  replace (0 + (a + (1 - a - b))) with (1 - b) in E2 by ring.
  replace (a + (1 - a - b) + b) with 1 in E2 by ring.
  assert (EV : slab0 m1 m2 m3 al 0 1 = V) by (unfold slab0, V; ring).
  pose proof (slab0_range m1 m2 m3 al (0 + a) (1 - a - b) H ltac:(lra)).
  lra.
Qed.

(** Same for the guarded volumes in any direction. *)
Lemma cut_dir_guard : forall e dir m al r d, 0 <= e -> 0 < d -> vnz m ->
  Rabs (cut_dir e dir m al r d - cut_dir 0 dir m al r d) <= e / 4.
Proof.
  intros e dir m al r d He Hd Hn. unfold cut_dir, vnz in *.
  destruct (dir =? 0)%Z; [|destruct (dir =? 1)%Z]; apply cut_guard; auto; tauto.
Qed.
Lemma cut_dir_cell : forall e dir m al, cut_dir e dir m al 0 1 = cut_volume_e e (w0 m) (w1 m) (w2 m) al 0 1.
Proof.
  intros. unfold cut_dir. destruct (dir =? 0)%Z; [reflexivity|]. destruct (dir =? 1)%Z.
  - rewrite cut_swap23, cut_swap12. reflexivity.
  - rewrite cut_swap12, cut_swap23. reflexivity.
Qed.
Lemma two_slabs_dir : forall dir m al a b, vnz m -> 0 <= a -> 0 <= b -> a + b <= 1 ->
  let V := cut_volume_e 0 (w0 m) (w1 m) (w2 m) al 0 1 in
  let S := a * cut_dir 0 dir m al 0 a + b * cut_dir 0 dir m al (1 - b) b in
  S <= V /\ V - (1 - a - b) <= S.
Proof.
  intros dir m al a b Hn Ha Hb Hab V S.
  assert (EV : V = cut_dir 0 dir m al 0 1) by (symmetry; apply cut_dir_cell).
  rewrite EV. unfold S, cut_dir. unfold vnz in Hn.
  destruct (dir =? 0)%Z; [|destruct (dir =? 1)%Z]; apply two_slabs; auto; tauto.
Qed.

Definition intercept_within (e t : R) : Prop :=
  forall m1 m2 m3 ch, 0 <= m1 <= m2 -> m2 <= m3 -> m1 + m2 + m3 = 1 -> 0 <= ch <= /2 ->
    Rabs (usorted m1 m2 m3 (intercept_sorted e m1 m2 m3 ch) - ch) <= t.
Lemma within_nonneg : forall e t, intercept_within e t -> 0 <= t.
Proof.
  intros e t H. specialize (H 0 0 1 0 ltac:(lra) ltac:(lra) ltac:(lra) ltac:(lra)).
  eapply Rle_trans; [apply Rabs_pos|exact H].
Qed.

(** Liquid leaving a cell: [a] and [b] are the widths of the slabs leaving at
    the low and high face. *)
Lemma guarded_term : forall e dir m al r d, 0 <= e -> 0 <= d -> vnz m ->
  Rabs (d * cut_dir e dir m al r d - d * cut_dir 0 dir m al r d) <= d * (e / 4).
Proof.
  intros e dir m al r d He Hd Hn. rewrite <- Rmult_minus_distr_l, Rabs_mult, (Rabs_right d) by lra.
  destruct (Req_EM_T d 0) as [->|]; [lra|]. apply Rmult_le_compat_l; [lra|]. apply cut_dir_guard; auto. lra.
Qed.

Lemma donor : forall e t dir k uL uR f c, 0 <= e -> intercept_within e t -> 0 <= f c <= 1 ->
  let a := Rmax 0 (- (uL * k)) in let b := Rmax 0 (uR * k) in
  a + b <= /2 ->
  let LO := a * fst (eulerian e dir k uL uR f c) + b * snd (eulerian e dir k uL uR f c) in
  LO <= f c + (t + e / 4) /\ (a + b) - LO <= 1 - f c + (t + e / 4).
Proof.
  intros e t dir k uL uR f c He Hw Hf a b Hab LO.
  pose proof (within_nonneg _ _ Hw) as Ht.
  assert (Ha : 0 <= a) by apply Rmax_l. assert (Hb : 0 <= b) by apply Rmax_l.
  assert (Tv : 0 <= tiny_vof <= /4) by (unfold tiny_vof, eps64; lra).
  unfold LO, eulerian. clear LO.
  destruct (Rleb (Rabs (f c - 1)) tiny_vof) eqn:C1.
  { apply Rleb_spec in C1. assert (/2 <= f c) by (unfold Rabs in C1; destruct Rcase_abs in C1; lra).
    simpl.
    assert (E1 : a * (if Rltb (uL * k) 0 then 1 else 0) = a).
    { unfold a, Rmax. rcase; destruct Rle_dec; lra. }
    assert (E2 : b * (if Rltb 0 (uR * k) then 1 else 0) = b).
    { unfold b, Rmax. rcase; destruct Rle_dec; lra. }
    rewrite E1, E2. lra. }
  destruct (Rltb tiny_vof (f c)) eqn:C2.
  2:{ apply Rltb_false in C2. simpl. lra. }
  destruct (fit_plane_e e f (iv0 c) (iv1 c) (iv2 c)) as [m al] eqn:E. simpl.
  pose proof (fit_plane_nz _ _ _ _ _ _ _ E) as Hn.
  assert (Hat : at3 f (iv0 c) (iv1 c) (iv2 c) = f c) by (unfold at3; destruct c; reflexivity).
  pose proof (fit_plane_repro e t f _ _ _ m al He Hw ltac:(rewrite Hat; exact Hf) E) as Q. rewrite Hat in Q.
  assert (E1 : a * (if Rltb (uL * k) 0 then cut_dir e dir m al 0 (- (uL * k)) else 0) = a * cut_dir e dir m al 0 a).
  { rcase.
    - replace a with (- (uL * k)) by (unfold a; rewrite Rmax_right; lra). reflexivity.
    - replace a with 0 by (unfold a; rewrite Rmax_left; lra). ring. }
  assert (E2 : b * (if Rltb 0 (uR * k) then cut_dir e dir m al (1 - uR * k) (uR * k) else 0) = b * cut_dir e dir m al (1 - b) b).
  { rcase.
    - replace b with (uR * k) by (unfold b; rewrite Rmax_right; lra). reflexivity.
    - replace b with 0 by (unfold b; rewrite Rmax_left; lra). ring. }
  rewrite E1, E2.
  pose proof (guarded_term e dir m al 0 a He Ha Hn) as G1.
  pose proof (guarded_term e dir m al (1 - b) b He Hb Hn) as G2.
  destruct (two_slabs_dir dir m al a b Hn Ha Hb ltac:(lra)) as [S1 S2].
  assert (W : a * (e / 4) + b * (e / 4) <= e / 4).
  { rewrite <- Rmult_plus_distr_r. rewrite <- (Rmult_1_l (e / 4)) at 2. apply Rmult_le_compat_r; lra. }
  set (V := cut_volume_e 0 (w0 m) (w1 m) (w2 m) al 0 1) in *.
  apply abs_between in G1. apply abs_between in G2. apply abs_between in Q. lra.
Qed.

(** ** One sweep in one cell *)
Lemma raw_eq : forall e g dir dt vel f C c,
  let k := dt / vdx g dir in
  balance_raw e g dir dt vel f C c =
  f c + face_fraction e g dir dt vel f c * (vel c * k)
      - face_fraction e g dir dt vel f (up c dir) * (vel (up c dir) * k)
      + C c * (vel (up c dir) * k - vel c * k).
Proof. intros. unfold balance_raw, face_flux, k, Rdiv. rewrite !shift_up. ring. Qed.


Lemma sweep_cell : forall e t g dir dt vel f C c,
  0 <= e -> intercept_within e t -> walls_still g dir vel ->
  0 <= f c <= 1 -> (C c = 0 \/ C c = 1) ->
  let k := dt / vdx g dir in
  out_width vel k c dir <= /2 ->
  let raw := balance_raw e g dir dt vel f C c in
  (C c = 0 -> - (t + e / 4) <= raw <= f c + in_width vel k c dir) /\
  (C c = 1 -> - (t + e / 4) <= 1 - raw <= 1 - f c + in_width vel k c dir).
Proof.
  intros e t g dir dt vel f C c He Hw Hws Hf HC k Ho raw.
  assert (Er : raw = f c + face_fraction e g dir dt vel f c * (vel c * k)
      - face_fraction e g dir dt vel f (up c dir) * (vel (up c dir) * k)
      + C c * (vel (up c dir) * k - vel c * k)) by (apply raw_eq).
  unfold out_width in Ho. unfold in_width.
  set (pL := face_fraction e g dir dt vel f c) in *. set (pR := face_fraction e g dir dt vel f (up c dir)) in *.
  pose proof (face_fraction_range e g dir dt vel f c He) as RL. fold pL in RL.
  pose proof (face_fraction_range e g dir dt vel f (up c dir) He) as RR. fold pR in RR.
  set (uL := vel c * k) in *. set (uR := vel (up c dir) * k) in *.
  destruct (donor e t dir k (vel c) (vel (up c dir)) f c He Hw Hf Ho) as [D1 D2].
  fold uL uR in D1, D2.
  set (sL := fst (eulerian e dir k (vel c) (vel (up c dir)) f c)) in *.
  set (sR := snd (eulerian e dir k (vel c) (vel (up c dir)) f c)) in *.
  assert (FL : Rmax 0 (- uL) * pL = Rmax 0 (- uL) * sL).
  { unfold Rmax at 1 2. destruct (Rle_dec 0 (- uL)) as [N|N]; [|lra].
    destruct (Req_EM_T uL 0) as [Z|Z]; [rewrite Z; ring|].
    f_equal. unfold pL. rewrite face_fraction_eq.
    destruct (wall_face g dir c) eqn:WF; [apply Hws in WF; exfalso; apply Z; unfold uL; rewrite WF; ring|].
    rewrite left_zero by (auto; fold k uL; lra). unfold vofLR. rewrite shift_up. fold k. unfold sL. ring. }
  assert (FR : Rmax 0 uR * pR = Rmax 0 uR * sR).
  { unfold Rmax at 1 2. destruct (Rle_dec 0 uR) as [N|N]; [|lra].
    destruct (Req_EM_T uR 0) as [Z|Z]; [rewrite Z; ring|].
    f_equal. unfold pR. rewrite face_fraction_eq.
    destruct (wall_face g dir (up c dir)) eqn:WF; [apply Hws in WF; exfalso; apply Z; unfold uR; rewrite WF; ring|].
    rewrite right_zero by (auto; fold k uR; lra). unfold vofLR. rewrite down_up, shift_up. fold k. unfold sR. ring. }
  assert (PL : pL * uL = Rmax 0 uL * pL - Rmax 0 (- uL) * pL).
  { unfold Rmax. repeat destruct Rle_dec; try lra. assert (uL = 0) by lra. rewrite H. ring. }
  assert (PR : pR * uR = Rmax 0 uR * pR - Rmax 0 (- uR) * pR).
  { unfold Rmax. repeat destruct Rle_dec; try lra. assert (uR = 0) by lra. rewrite H. ring. }
  assert (UL : uL = Rmax 0 uL - Rmax 0 (- uL)) by (unfold Rmax; repeat destruct Rle_dec; lra).
  assert (UR : uR = Rmax 0 uR - Rmax 0 (- uR)) by (unfold Rmax; repeat destruct Rle_dec; lra).
  assert (IL : 0 <= Rmax 0 uL * pL <= Rmax 0 uL).
  { pose proof (Rmax_l 0 uL). split; [apply Rmult_le_pos; lra|]. rewrite <- (Rmult_1_r (Rmax 0 uL)) at 2. apply Rmult_le_compat_l; lra. }
  assert (IR : 0 <= Rmax 0 (- uR) * pR <= Rmax 0 (- uR)).
  { pose proof (Rmax_l 0 (- uR)). split; [apply Rmult_le_pos; lra|]. rewrite <- (Rmult_1_r (Rmax 0 (- uR))) at 2. apply Rmult_le_compat_l; lra. }
  assert (OL : 0 <= Rmax 0 (- uL) * pL <= Rmax 0 (- uL)).
  { pose proof (Rmax_l 0 (- uL)). split; [apply Rmult_le_pos; lra|]. rewrite <- (Rmult_1_r (Rmax 0 (- uL))) at 2. apply Rmult_le_compat_l; lra. }
  assert (OR : 0 <= Rmax 0 uR * pR <= Rmax 0 uR).
  { pose proof (Rmax_l 0 uR). split; [apply Rmult_le_pos; lra|]. rewrite <- (Rmult_1_r (Rmax 0 uR)) at 2. apply Rmult_le_compat_l; lra. }
  rewrite FL in OL. rewrite FR in OR.
  cbv zeta in D1, D2. split; intros HCc; rewrite HCc in Er; rewrite FL in PL; rewrite FR in PR; rewrite PL, PR in Er; clear HC; lra.
Qed.

(** ** Debris *)
Lemma debris1_at : forall f c, debris1 f c c = 0 <->
  f c = 0 \/ droplet f c.
Proof.
  intros f c. unfold debris1, droplet, face_neighbours.
  match goal with |- context [if ?b then _ else _] => destruct b eqn:E end.
  - rewrite !Z.eqb_refl. simpl. split; [|reflexivity]. intros _. right.
    repeat (apply Bool.andb_true_iff in E; destruct E as [E ?]).
    unfold shift in *; simpl in *. rewrite ?Rltb_spec in *. unfold small_vof in *.
    split; [assumption|]. intros b Hb.
    repeat (destruct Hb as [<-|Hb]; [assumption|]). destruct Hb.
  - split; [auto|]. intros [H|[P H]]; [exact H|]. exfalso.
    apply Bool.not_true_iff_false in E. apply E. clear E.
    unfold shift; simpl. rewrite !Bool.andb_true_iff, !Rltb_spec. unfold small_vof.
    repeat split; try exact P; apply H; simpl; unfold Z.sub; auto 10.
Qed.
Lemma debris1_other : forall f c x, x <> c -> debris1 f c x = f x.
Proof. intros f c x H. destruct (debris1_either f c x) as [E|(_ & E & _)]; [exact E|contradiction]. Qed.

Lemma nb_sym : forall b c, In b (face_neighbours c) -> In c (face_neighbours b).
Proof.
  intros b [i j k] H. unfold face_neighbours in *; simpl in *.
  repeat (destruct H as [<-|H]; [simpl; (left + (do 2 right; left) + (right; left) + (do 3 right; left) + (do 4 right; left) + (do 5 right; left)); f_equal; lia|]).
  destruct H.
Qed.

(** A cell that holds at least a millionth is emptied exactly when it starts
    as a droplet. *)
Lemma debris_big : forall order f c,
  / 1000000 <= f c ->
  (~ droplet f c -> debris_loop order f c = f c) /\
  (droplet f c -> In c order -> debris_loop order f c = 0).
Proof.
  intros order f c Hb.
  assert (INV : forall l g, (forall x, g x = f x \/ (g x = 0 /\ 0 < f x)) ->
     (forall x, / 1000000 <= f x -> ~ droplet f x -> g x = f x) ->
     (forall x, debris_loop l g x = f x \/ (debris_loop l g x = 0 /\ 0 < f x)) /\
     (forall x, / 1000000 <= f x -> ~ droplet f x -> debris_loop l g x = f x)).
  { unfold debris_loop. induction l as [|y l IH]; intros g H1 H2; simpl; [auto|].
    apply IH.
    - intros x. destruct (debris1_either g y x) as [E|(E & -> & P)]; rewrite E; [apply H1|].
      right. split; [reflexivity|]. destruct (H1 y) as [Q|[Q _]]; lra.
    - intros x Hx Nx. destruct (debris1_either g y x) as [E|(E & -> & P)]; rewrite E; [apply H2; assumption|].
      exfalso. apply Nx. apply debris1_at in E. pose proof (H2 y Hx Nx) as Gy.
      destruct E as [E|[_ D]]; [lra|]. split; [lra|]. intros b Hbn.
      destruct (Rle_dec (/ 1000000) (f b)) as [Fb|Fb]; [|lra].
      assert (Nb : ~ droplet f b).
      { intros [_ K]. specialize (K y (nb_sym _ _ Hbn)). lra. }
      rewrite <- (H2 b Fb Nb). apply D. exact Hbn. }
  split.
  - intros Nd. apply (INV order f); auto.
  - intros Dr Hin. apply in_split in Hin. destruct Hin as (l1 & l2 & ->).
    unfold debris_loop. rewrite fold_left_app. simpl. fold (debris_loop l1 f).
    set (g := debris_loop l1 f).
    assert (G : forall x, g x = f x \/ (g x = 0 /\ 0 < f x)) by (intros; apply debris_either).
    assert (Z : debris1 g c c = 0).
    { apply debris1_at. destruct (G c) as [E|[E _]]; [|left; exact E]. right. split; [lra|].
      intros b Hbn. destruct Dr as [_ D]. specialize (D b Hbn). destruct (G b) as [->|[-> _]]; lra. }
    destruct (debris_either l2 (debris1 g c) c) as [E|[E _]]; unfold debris_loop in E; rewrite E; [exact Z|reflexivity].
Qed.
