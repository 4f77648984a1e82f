(** C70-C72, continued: default sampling, and the weights of the Gaussian and the
    azimuthal spreading of actuator disks. *)
From Verif Require Import BoxR BoxRFacts VecSpace VecSpaceSpec VecSpaceProofs Tagging
  DiskActuator DiskSpec DiskProofs DiskProofs2 PropDisk.
Open Scope R_scope.

(** With no sampling direction in the input, every upstream point is the disk point of
    the same number moved [up] diameters along the disk normal. *)
Theorem c70_default_sampling : forall mk c n eps diam up nr nt d north east,
  known_maker mk -> mk c n (sample_dir north east n None None None) eps diam up nr nt = Ret d ->
  0 < diam -> (0 < nr)%nat -> (0 < nt)%nat ->
  forall i j, (i < nr)%nat -> (j < nt)%nat ->
    let p := nth (nr * nt + (j + i * nt)) (vel_positions d) vzero in
    let q := nth (j + i * nt) (vel_positions d) vzero in
    vsub q p = vscale (d_normal d) (up * diam).
Proof.
  intros mk c n eps diam up nr nt d north east K E P Hr Ht i j Hi Hj p q.
  destruct (maker_facts _ _ _ _ _ _ _ _ _ _ K E) as (B & Ec & En & Es & _ & Ed & _ & Er & Et & Eu).
  pose proof (b_normal d B) as UN.
  assert (SN : d_sample d = d_normal d).
  { rewrite Es. cbn [sample_dir]. rewrite <- En. apply vnormalize_unit, UN. }
  assert (LL : length (disk_points d (d_sample d) (d_up d)) = (nr * nt)%nat)
    by (unfold disk_points; rewrite length_flat, Er, Et; reflexivity).
  assert (A1 : p = disk_point d (d_normal d) 0 i j).
  { unfold p, vel_positions. rewrite app_nth2 by (rewrite LL; lia). rewrite LL.
    replace (nr * nt + (j + i * nt) - nr * nt)%nat with (j + i * nt)%nat by lia.
    unfold disk_points. rewrite Er, Et. apply nth_flat; assumption. }
  assert (A2 : q = disk_point d (d_normal d) up i j).
  { unfold q, vel_positions. rewrite app_nth1 by (rewrite LL; nia). rewrite SN, Eu.
    unfold disk_points. rewrite Er, Et. apply nth_flat; assumption. }
  rewrite A1, A2, !disk_point_turned by exact UN. rewrite Ed.
  generalize (vscale (coplanar_vector (d_normal d)) (diam * 0.5 / INR (d_nr d) * (INR i + (if (d_nr d =? 1)%nat then 0 else 0.5)))).
  intros u. set (th := 2 * PI / INR (d_nt d) * INR j). set (N := d_normal d) in *.
  pose proof (turned_axis N th (up * diam) UN) as T1.
  assert (LIN : forall h, turned N th (vadd u (vscale N h)) = vadd (turned N th u) (turned N th (V3 (h * vx N) (h * vy N) (h * vz N)))).
  { intros h. unfold turned, vadd, vscale, inner; cbn [vx vy vz]. apply vec_eq; ring. }
  rewrite !LIN, (turned_axis N th (up * diam) UN), (turned_axis N th (0 * diam) UN).
  unfold vsub, vadd, vscale; cbn [vx vy vz]. apply vec_eq; ring.
Qed.
Print Assumptions c70_default_sampling.

Lemma inner_loop2 nr nt (f : nat -> nat -> vec) k s :
  inner (loop2 nr nt (fun i j s => vadd s (f i j)) s) k = inner s k + sum2 nr nt (fun i j => inner (f i j) k).
Proof.
  unfold loop2.
  assert (I : forall i m s, inner (fold_left (fun s j => vadd s (f i j)) (seq 0 m) s) k = inner s k + sum1 m (fun j => inner (f i j) k)).
  { intros i m. induction m as [|m IH]; intros s0.
    - cbn. unfold sum1; cbn. change (rsum []) with 0. ring.
    - rewrite seq_S, fold_left_app. cbn [fold_left plus]. rewrite inner_vadd, IH, sum1_S. ring. }
  unfold sum2. induction nr as [|m IH].
  - cbn. unfold sum1; cbn. change (rsum []) with 0. ring.
  - rewrite seq_S, fold_left_app. cbn [fold_left plus]. rewrite I, IH, sum1_S. ring.
Qed.

(** Spreading with Gaussians: the force of each ring is divided evenly over [nt]
    points, the ring's point turned by multiples of a full turn over [nt], and each share is
    multiplied by the Gaussian of the disk's width about its point. *)
Theorem c71_gauss_source : forall c n s eps diam up nr nt d force p k,
  uniform_disk c n s eps diam up nr nt = Ret d -> (0 < nt)%nat ->
  let pos := map (uniform_pos d) (seq 0 nr) in
  inner (gauss_source d pos force p) k =
  sum2 nr nt (fun i j =>
    inner (nth i force vzero) k / INR nt *
    gaussian3d (vsub (turned (d_normal d) (INR j * (2 * PI / INR nt)) (uniform_pos d i)) p) (V3 eps eps eps)).
Proof.
  intros c n s eps diam up nr nt d force p k H Ht pos.
  destruct (maker_facts uniform_disk _ _ _ _ _ _ _ _ _ (or_introl eq_refl) H)
    as (B & Ec & _ & _ & Ee & Ed & Edr & Er & Et & _).
  assert (Enf : d_nft d = nt /\ d_nf d = nr).
  { unfold uniform_disk, with_coplanar in H. cbn zeta in H. destruct (Rltb _ _); [|discriminate].
    injection H as <-. split; reflexivity. }
  destruct Enf as [E1 E2]. unfold gauss_source. cbn zeta. rewrite inner_loop2, inner_vzero, Rplus_0_l, E1, E2.
  assert (Q : 0 < INR nt) by (apply (lt_INR 0); lia).
  apply sum2_ext. intros i j Hi Hj. rewrite inner_vscale.
  assert (G : gauss_point d pos i j = turned (d_normal d) (INR j * (2 * PI / INR nt)) (uniform_pos d i)).
  { unfold gauss_point, pos. cbn zeta. rewrite nth_map_seq by exact Hi.
    rewrite quat_point by apply (b_normal d B). rewrite E1. reflexivity. }
  rewrite G, Ee. f_equal.
  - unfold inner, vdivs; cbn [vx vy vz]. field. lra.
  - f_equal. unfold vscale, vone; cbn [vx vy vz]. apply vec_eq; ring.
Qed.
Print Assumptions c71_gauss_source.

Lemma cauchy u v : inner u v <= len u * len v /\ - (len u * len v) <= inner u v.
Proof.
  assert (S : inner u v * inner u v <= (len u * len v) * (len u * len v)).
  { replace ((len u * len v) * (len u * len v)) with ((len u * len u) * (len v * len v)) by ring. rewrite !len_sqr.
    assert (0 <= inner u u * inner v v - inner u v * inner u v); [|lra].
    replace (inner u u * inner v v - inner u v * inner u v) with (inner (vcross u v) (vcross u v))
      by (unfold inner, vcross; cbn; ring).
    unfold inner. pose proof (Rle_0_sqr (vx (vcross u v))). pose proof (Rle_0_sqr (vy (vcross u v))).
    pose proof (Rle_0_sqr (vz (vcross u v))). unfold Rsqr in *. lra. }
  assert (P : 0 <= len u * len v) by (apply Rmult_le_pos; apply sqrt_pos).
  split; nra.
Qed.

(** Spreading with linear functions in radius and azimuth: the weight of a point is the
    product of a hat function of the difference in distance from the axis, a hat
    function of the arc between the two (at the point's distance), and the Gaussian
    of the distance along the axis; both hats have unit integral. *)
Theorem c72_azimuthal_weight : forall d pos p i, is_unit (d_normal d) ->
  let q := nth i pos vzero in
  let a := off_axis (d_center d) (d_normal d) p in
  let b := off_axis (d_center d) (d_normal d) q in
  let arc := 2 * PI / INR (d_nt d) * len b in
  exists th, 0 <= th <= PI /\ cos th * (len a * len b + / 4503599627370496) = inner a b /\
    theta_weight d pos p i =
      Rmax 0 (1 - Rabs (len a - len b) / d_dr d) / d_dr d *
      (Rmax 0 (1 - th * len b / arc) / arc) *
      gaussian1d (along (d_center d) (d_normal d) p - along (d_center d) (d_normal d) q) (d_eps d).
Proof.
  intros d pos p i U q a b arc.
  assert (V : 0 < veps) by (unfold veps; lra).
  destruct (cauchy a b) as [C1 C2].
  assert (P : 0 <= len a * len b) by (apply Rmult_le_pos; apply sqrt_pos).
  set (x := inner a b / (len a * len b + veps)).
  assert (X : -1 <= x <= 1).
  { assert (Q : 0 < / (len a * len b + veps)) by (apply Rinv_0_lt_compat; lra).
    unfold x, Rdiv. split.
    - apply (Rmult_le_reg_r (len a * len b + veps)); [lra|]. rewrite Rmult_assoc, Rinv_l by lra. lra.
    - apply (Rmult_le_reg_r (len a * len b + veps)); [lra|]. rewrite Rmult_assoc, Rinv_l by lra. lra. }
  exists (acos x). split; [apply acos_bound|]. split.
  - rewrite cos_acos by exact X. unfold x. change (/ 4503599627370496) with veps. field. lra.
  - unfold theta_weight. cbn zeta. fold q.
    destruct (delta_cyl_x (d_center d) (d_normal d) p q U) as [E1 E2].
    destruct (delta_cyl_x (d_center d) (d_normal d) (d_center d) q U) as [E3 _].
    rewrite axis_dist_self in E3.
    assert (R : vx (delta_pnts_cyl (d_center d) (d_normal d) (d_center d) q) = len b).
    { rewrite E3. rewrite Rminus_0_l, Rabs_Ropp. apply Rabs_pos_eq, sqrt_pos. }
    assert (A : vy (delta_pnts_cyl (d_center d) (d_normal d) p q) = acos x).
    { unfold delta_pnts_cyl. cbn zeta. cbn [vy]. change vdot with inner. unfold is_unit in U. rewrite U.
      assert (K : forall p, vsub (vsub p (d_center d)) (vscale (d_normal d) (inner (vsub p (d_center d)) (d_normal d) / 1)) = off_axis (d_center d) (d_normal d) p).
      { intros r. assert (AL : inner (vsub r (d_center d)) (d_normal d) / 1 = along (d_center d) (d_normal d) r)
          by (unfold inner, vsub, along; cbn; field).
        rewrite AL. unfold vsub, vscale, off_axis; cbn [vx vy vz]. apply vec_eq; ring. }
      rewrite !K. fold a b. change (vmag a) with (len a). change (vmag b) with (len b). fold x.
      rewrite rmin_spec, Rmin_left by lra. reflexivity. }
    rewrite R, A, E1, E2. unfold linear_basis_1d. rewrite !rmax_spec. change (axis_dist (d_center d) (d_normal d) p) with (len a).
    change (axis_dist (d_center d) (d_normal d) q) with (len b). unfold arc. rewrite (Rmult_comm (len b)). reflexivity.
Qed.
Print Assumptions c72_azimuthal_weight.

(** A disk facing x meets the hypotheses. *)
Example spread_case : exists d, uniform_disk vzero (V3 1 0 0) (sample_dir (V3 0 1 0) (V3 1 0 0) (V3 1 0 0) None None None) 1 100 2 5 8 = Ret d /\
  vsub (nth 0 (vel_positions d) vzero) (nth 40 (vel_positions d) vzero) = V3 200 0 0.
Proof.
  assert (U : vnormalize (V3 1 0 0) = V3 1 0 0) by (apply vnormalize_unit; unfold is_unit, inner; cbn; ring).
  destruct (uniform_disk vzero (V3 1 0 0) (sample_dir (V3 0 1 0) (V3 1 0 0) (V3 1 0 0) None None None) 1 100 2 5 8) as [d| |] eqn:E.
  - exists d. split; [reflexivity|].
    pose proof (c70_default_sampling uniform_disk vzero (V3 1 0 0) 1 100 2 5 8 d (V3 0 1 0) (V3 1 0 0) (or_introl eq_refl) E
      ltac:(lra) ltac:(lia) ltac:(lia) 0%nat 0%nat ltac:(lia) ltac:(lia)) as K. cbn zeta in K.
    change (5 * 8 + (0 + 0 * 8))%nat with 40%nat in K. change (0 + 0 * 8)%nat with 0%nat in K. rewrite K.
    destruct (maker_facts uniform_disk _ _ _ _ _ _ _ _ _ (or_introl eq_refl) E) as (_ & _ & En & _). rewrite En, U.
    unfold vscale; cbn. apply vec_eq; ring.
  - exfalso. unfold uniform_disk, with_coplanar in E. cbn zeta in E. cbn [d_normal] in E. rewrite U in E.
    rewrite (proj2 (Rltb_spec _ _)) in E; [discriminate|]. unfold vmag_sqr, vcross, khat, veps; cbn. lra.
  - exfalso. unfold uniform_disk, with_coplanar in E. cbn zeta in E. destruct (Rltb _ _); discriminate.
Qed.
