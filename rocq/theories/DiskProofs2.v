From Verif Require Import BoxR BoxRFacts VecSpace VecSpaceSpec VecSpaceProofs Tagging
  DiskActuator DiskSpec DiskProofs.
Open Scope R_scope.

Lemma degrees_radians th : radians (degrees th) = th.
Proof. unfold radians, degrees. pose proof PI_RGT_0. field. lra. Qed.

Lemma vapp_zero t : vapp vzero t = vzero.
Proof. unfold vapp, vzero; cbn. apply vec_eq; ring. Qed.

Lemma disk_point_turned d axis off i j : is_unit axis -> 
  disk_point d axis off i j =
  vadd (turned axis (2 * PI / INR (d_nt d) * INR j)
    (vadd (vscale (coplanar_vector axis)
             (d_diam d * 0.5 / INR (d_nr d) * (INR i + if (d_nr d =? 1)%nat then 0 else 0.5)))
          (vscale axis (off * d_diam d)))) (d_center d).
Proof. intros U. unfold disk_point. cbn zeta. rewrite quat_point by exact U. reflexivity. Qed.

Lemma along_add c n q : along c n (vadd q c) = inner q n.
Proof. unfold along, inner, vadd; cbn. ring. Qed.
Lemma off_axis_add c n q : off_axis c n (vadd q c) = vsub q (vscale n (inner q n)).
Proof.
  unfold off_axis. rewrite along_add. unfold vsub, vscale, vadd, inner; cbn. apply vec_eq; ring.
Qed.

Lemma disk_point_facts d axis off i j : is_unit axis -> veps <= len (vcross (khat 1) axis) ->
  let p := disk_point d axis off i j in
  let r := d_diam d * 0.5 / INR (d_nr d) * (INR i + if (d_nr d =? 1)%nat then 0 else 0.5) in
  along (d_center d) axis p = off * d_diam d /\ axis_dist (d_center d) axis p = Rabs r.
Proof.
  intros U L. cbn zeta. rewrite disk_point_turned by exact U.
  destruct (coplanar_facts axis L) as (V & O & _).
  set (r := d_diam d * 0.5 / INR (d_nr d) * _). set (th := 2 * PI / INR (d_nt d) * INR j).
  destruct (turned_facts axis th (coplanar_vector axis) r (off * d_diam d) U V O) as (E1 & E2).
  cbn zeta in E1, E2. unfold axis_dist. rewrite along_add, off_axis_add, E1. split; [reflexivity|].
  unfold len. rewrite E2. apply sqrt_Rsqr_abs.
Qed.

Lemma ring_radius_ok diam nr i : (0 < nr)%nat -> (i < nr)%nat ->
  diam * 0.5 / INR nr * (INR i + if (nr =? 1)%nat then 0 else 0.5) = ring_radius diam nr i.
Proof.
  intros H Hi. unfold ring_radius. pose proof (lt_INR _ _ H) as Q. cbn in Q.
  replace 0.5 with (1 / 2) by lra.
  destruct (Nat.eqb_spec nr 1) as [->|N]; [|field; lra].
  replace i with 0%nat by lia. cbn. field.
Qed.

(** ** Pressure spreading *)
Lemma hat_sum n x : (0 < n)%nat ->
  sum1 n (fun i => Rmax 0 (1 - Rabs (x - INR i))) = Rmax 0 (Rmin 1 (Rmin (x + 1) (INR n - x))).
Proof.
  intros H. destruct n as [|n]; [lia|]. clear H. induction n as [|n IH].
  - rewrite sum1_S. unfold sum1; cbn. unfold Rmax, Rmin, Rabs.
    repeat (destruct (Rle_dec _ _) || destruct (Rcase_abs _)); lra.
  - rewrite sum1_S, IH. rewrite !S_INR. pose proof (pos_INR n). set (m := INR n) in *. clearbody m.
    unfold Rmax, Rmin, Rabs.
    repeat (destruct (Rle_dec _ _) || destruct (Rcase_abs _)); lra.
Qed.

Lemma delta_cyl_x o n p q : is_unit n ->
  vx (delta_pnts_cyl o n p q) = Rabs (axis_dist o n p - axis_dist o n q) /\
  vz (delta_pnts_cyl o n p q) = along o n p - along o n q.
Proof.
  intros U. unfold is_unit in U. unfold delta_pnts_cyl. cbn zeta. cbn [vx vz].
  change vdot with inner. rewrite U.
  assert (A : forall p, inner (vsub p o) n / 1 = along o n p)
    by (intros; unfold inner, vsub, along; cbn; field).
  rewrite !A. split; [|reflexivity]. f_equal.
  assert (B : forall p, vsub (vsub p o) (vscale n (along o n p)) = off_axis o n p)
    by (intros; unfold vsub, vscale, off_axis; cbn; apply vec_eq; ring).
  rewrite !B. reflexivity.
Qed.

Lemma axis_dist_self o n : axis_dist o n o = 0.
Proof.
  unfold axis_dist, len, inner, off_axis, along; cbn.
  replace (_ + _) with 0 by ring. apply sqrt_0.
Qed.

Lemma uniform_pos_facts d i : built d -> 0 <= d_dr d ->
  axis_dist (d_center d) (d_normal d) (uniform_pos d i) = (INR i + 0.5) * d_dr d /\
  along (d_center d) (d_normal d) (uniform_pos d i) = 0.
Proof.
  intros [U L C] P. destruct (coplanar_facts _ L) as (V & O & _). rewrite <- C in *.
  unfold uniform_pos.
  replace (vadd (d_center d) (vscale (d_coplanar d) ((INR i + 0.5) * d_dr d)))
    with (vadd (vscale (d_coplanar d) ((INR i + 0.5) * d_dr d)) (d_center d))
    by (unfold vadd; cbn; apply vec_eq; ring).
  unfold axis_dist. rewrite along_add, off_axis_add, inner_vscale, O. split; [|ring].
  unfold len. rewrite Rmult_0_l, inner_vsub, !inner_vsub_r, !inner_vscale, !inner_vscale_r.
  unfold is_unit in V. rewrite V.
  match goal with |- sqrt ?e = _ =>
    replace e with (((INR i + 0.5) * d_dr d) * ((INR i + 0.5) * d_dr d)) by ring end.
  apply sqrt_square. pose proof (pos_INR i). nra.
Qed.

Lemma inner_weighted_sum n w fs u :
  inner (weighted_sum n w fs) u = sum1 n (fun ip => inner (nth ip fs vzero) u * w ip).
Proof.
  unfold weighted_sum, sum1.
  assert (G : forall l s, inner (fold_left (fun s ip => vadd s (vscale (nth ip fs vzero) (w ip))) l s) u
    = inner s u + rsum (map (fun ip => inner (nth ip fs vzero) u * w ip) l)).
  { induction l as [|a l IH]; intros s; cbn [fold_left map]; [unfold rsum; cbn; ring|].
    rewrite IH, inner_vadd, inner_vscale, rsum_cons. ring. }
  rewrite G, inner_vzero. ring.
Qed.

Lemma nth_map_seq {A} (f : nat -> A) n i d : (i < n)%nat -> nth i (map f (seq 0 n)) d = f i.
Proof.
  intros H. erewrite nth_indep by (rewrite map_length, seq_length; exact H).
  rewrite (map_nth f (seq 0 n) 0%nat i), seq_nth by exact H. reflexivity.
Qed.

Lemma sqrt_speed u n : sqrt (ref_speed_sqr u n) = Rabs (inner u n).
Proof. unfold ref_speed_sqr. rewrite vdot_inner. apply sqrt_Rsqr_abs. Qed.

Lemma uniform_force_ring d ct refv rho i :
  uniform_force d ct refv rho i =
  vscale (d_normal d) (1 / 2 * rho * (inner refv (d_normal d)) ^ 2 * ct (Rabs (inner refv (d_normal d)))
    * (PI * (2 * ((INR i + 0.5) * d_dr d) * d_dr d))).
Proof.
  unfold uniform_force. cbn zeta. rewrite sqrt_speed. unfold ref_speed_sqr. rewrite vdot_inner.
  f_equal. replace 0.5 with (1 / 2) by lra. field.
Qed.

Lemma linear_source_exact d ct refv rho cc : built d -> (0 < d_nf d)%nat -> 0 < d_dr d ->
  linear_source d (map (uniform_pos d) (seq 0 (d_nf d))) (uniform_forces d ct refv rho) cc =
  vscale (d_normal d)
    (1 / 2 * rho * (inner refv (d_normal d)) ^ 2 * ct (Rabs (inner refv (d_normal d)))
     * gaussian1d (along (d_center d) (d_normal d) cc) (d_eps d)
     * pressure_profile (INR (d_nf d) * d_dr d) (d_dr d) (axis_dist (d_center d) (d_normal d) cc)).
Proof.
  intros B N P. apply inner_ext. intros w. unfold linear_source.
  rewrite inner_weighted_sum, inner_vscale.
  set (r := axis_dist (d_center d) (d_normal d) cc).
  set (g := gaussian1d (along (d_center d) (d_normal d) cc) (d_eps d)).
  set (pr := 1 / 2 * rho * inner refv (d_normal d) ^ 2 * ct (Rabs (inner refv (d_normal d)))).
  rewrite (sum1_ext _ _ (fun i => inner (d_normal d) w * (pr * g)
             * Rmax 0 (1 - Rabs ((r / d_dr d - 0.5) - INR i)))).
  - rewrite sum1_scale, hat_sum by exact N.
    unfold pressure_profile.
    replace (r / d_dr d - 0.5 + 1) with (r / d_dr d + 1 / 2) by lra.
    replace (INR (d_nf d) - (r / d_dr d - 0.5)) with ((INR (d_nf d) * d_dr d - r) / d_dr d + 1 / 2).
    + ring.
    + replace 0.5 with (1 / 2) by lra. field. lra.
  - intros i Hi. unfold linear_weight. cbn zeta.
    rewrite nth_map_seq by exact Hi. unfold uniform_forces. rewrite nth_map_seq by exact Hi.
    rewrite uniform_force_ring. fold pr. rewrite inner_vscale.
    destruct (delta_cyl_x (d_center d) (d_normal d) (d_center d) (uniform_pos d i) (b_normal d B)) as (E1 & _).
    destruct (delta_cyl_x (d_center d) (d_normal d) cc (uniform_pos d i) (b_normal d B)) as (E2 & E3).
    destruct (uniform_pos_facts d i B (Rlt_le _ _ P)) as (F1 & F2).
    rewrite E1, E2, E3, F1, F2, axis_dist_self, Rminus_0_r. fold r g.
    rewrite Rminus_0_l, Rabs_Ropp.
    assert (Q : 0 < (INR i + 0.5) * d_dr d) by (pose proof (pos_INR i); nra).
    rewrite (Rabs_pos_eq _ (Rlt_le _ _ Q)).
    unfold linear_basis_1d. rewrite rmax_spec.
    replace (1 - Rabs (r - (INR i + 0.5) * d_dr d) / d_dr d)
      with (1 - Rabs (r / d_dr d - 0.5 - INR i)).
    + pose proof PI_RGT_0. pose proof (pos_INR i). replace 0.5 with (1 / 2) by lra. field. lra.
    + f_equal. replace 0.5 with (1 / 2) by lra. replace (r - (INR i + 1 / 2) * d_dr d) with ((r / d_dr d - 1 / 2 - INR i) * d_dr d) by (field; lra).
      rewrite Rabs_mult, (Rabs_pos_eq _ (Rlt_le _ _ P)). field. lra.
Qed.

Lemma total_forces d ct refv rho w :
  total_along w (uniform_forces d ct refv rho) =
  1 / 2 * rho * (inner refv (d_normal d)) ^ 2 * ct (Rabs (inner refv (d_normal d)))
    * (PI * (INR (d_nf d) * d_dr d) ^ 2) * inner (d_normal d) w.
Proof.
  unfold total_along, uniform_forces. rewrite map_map.
  change (rsum (map ?f (seq 0 (d_nf d)))) with (sum1 (d_nf d) f).
  set (pr := 1 / 2 * rho * _ * _).
  rewrite (sum1_ext _ _ (fun i => pr * PI * d_dr d ^ 2 * inner (d_normal d) w
             * ((INR i + 1) ^ 2 - INR i ^ 2))).
  - rewrite sum1_scale, sum_squares_diff. ring.
  - intros i _. rewrite uniform_force_ring. fold pr. rewrite inner_vscale. replace 0.5 with (1 / 2) by lra. field.
Qed.
