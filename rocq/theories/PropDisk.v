(** C70 and C71: actuator disks sample and average the flow by area, and the
    uniform disk applies the thrust given by its coefficient. *)
From Verif Require Import BoxR BoxRFacts VecSpace VecSpaceSpec VecSpaceProofs Tagging
  DiskActuator DiskSpec DiskProofs DiskProofs2.
Open Scope R_scope.

Definition disk_maker := vec -> vec -> vec -> R -> R -> R -> nat -> nat -> outcome disk.
Definition known_maker (mk : disk_maker) : Prop := mk = uniform_disk \/ mk = joukowsky_disk.

Lemma maker_facts mk c n s eps diam up nr nt d : known_maker mk ->
  mk c n s eps diam up nr nt = Ret d ->
  built d /\ d_center d = c /\ d_normal d = vnormalize n /\ d_sample d = vnormalize s /\
  d_eps d = eps /\ d_diam d = diam /\ d_dr d = diam / 2 / INR nr /\
  d_nr d = nr /\ d_nt d = nt /\ d_up d = up.
Proof.
  intros [-> | ->] H; pose proof (with_coplanar_built _ _ H) as B;
  unfold uniform_disk, joukowsky_disk, with_coplanar in H; cbn zeta in H;
  destruct (Rltb _ _); try discriminate; injection H as <-; cbn in *;
  (split; [exact B|]); repeat split; lra.
Qed.

(** *** C70 *)

(** The area sections are positive, the [nt] sections of a ring make up that
    ring, all sections together make up the disk, and the averaging weights are
    the fractions of the disk area. *)
Theorem c70_areas : forall radius nr nt, 0 < radius -> (0 < nr)%nat -> (0 < nt)%nat ->
  (forall i, (i < nr)%nat ->
     0 < area_section radius nr nt i /\
     INR nt * area_section radius nr nt i = ring_area radius nr i /\
     area_weight radius nr nt i = area_section radius nr nt i / (PI * radius ^ 2)) /\
  sum2 nr nt (fun i _ => area_section radius nr nt i) = PI * radius ^ 2 /\
  sum2 nr nt (fun i _ => area_weight radius nr nt i) = 1.
Proof.
  intros r nr nt H Hr Ht. split; [|split].
  - intros i _. repeat split.
    + apply section_pos; assumption.
    + apply section_ring; assumption.
    + unfold area_weight, area_total. f_equal. ring.
  - apply sum_sections; assumption.
  - apply weight_sections; assumption.
Qed.
Print Assumptions c70_areas.

(** Sampled values are averaged by area, separately over the upstream points
    (first half) and over the disk points (second half): along every direction
    the average is the area-weighted sum, it lies between the smallest and the
    largest sampled value, and a constant is returned unchanged. *)
Theorem c70_averages : forall mk c n s eps diam up nr nt d vel dens,
  known_maker mk -> mk c n s eps diam up nr nt = Ret d ->
  0 < diam -> (0 < nr)%nat -> (0 < nt)%nat ->
  forall rho refv diskv, update_vel d vel dens = (rho, refv, diskv) ->
  let share i := ring_area (diam / 2) nr i / INR nt / (PI * (diam / 2) ^ 2) in
  let value half w i j := inner (nth (half * (nr * nt) + (j + i * nt)) vel vzero) w in
  (rho = sum2 nr nt (fun i j => nth (j + i * nt) dens 0 * share i)) /\
  (forall w, inner refv w = sum2 nr nt (fun i j => value 0%nat w i j * share i)) /\
  (forall w, inner diskv w = sum2 nr nt (fun i j => value 1%nat w i j * share i)) /\
  (forall w lo hi, (forall i j, (i < nr)%nat -> (j < nt)%nat -> lo <= value 0%nat w i j <= hi) ->
     lo <= inner refv w <= hi) /\
  (forall w lo hi, (forall i j, (i < nr)%nat -> (j < nt)%nat -> lo <= value 1%nat w i j <= hi) ->
     lo <= inner diskv w <= hi) /\
  (forall lo hi, (forall k, (k < nr * nt)%nat -> lo <= nth k dens 0 <= hi) -> lo <= rho <= hi).
Proof.
  intros mk c n s eps diam up nr nt d vel dens K E P Hr Ht rho refv diskv H share value.
  destruct (maker_facts _ _ _ _ _ _ _ _ _ _ K E) as (_ & _ & _ & _ & _ & Ed & _ & Er & Et & _).
  destruct (update_vel_sums d vel dens) as (S1 & S2 & S3). rewrite H in S1, S2, S3.
  cbn zeta in S1, S2, S3. cbn [fst snd] in S1, S2, S3.
  unfold d_radius in S1, S2, S3. rewrite Ed, Er, Et in S1, S2, S3.
  assert (W : forall i, area_weight (0.5 * diam) nr nt i = share i).
  { intros i. unfold share. rewrite <- (section_ring _ nr nt i Hr Ht).
    unfold area_weight, area_total. replace (0.5 * diam) with (diam / 2) by lra.
    pose proof PI_RGT_0. pose proof (lt_INR _ _ Ht) as Q. cbn in Q. field. lra. }
  assert (R0 : 0 < 0.5 * diam) by lra.
  assert (I1 : forall i j, (j + i * nt + nr * nt = 1 * (nr * nt) + (j + i * nt))%nat) by (intros; lia).
  repeat apply conj.
  - rewrite S1. apply sum2_ext. intros. rewrite W. reflexivity.
  - intros w. rewrite S2. apply sum2_ext. intros. rewrite W. reflexivity.
  - intros w. rewrite S3. apply sum2_ext. intros. rewrite W. unfold value. rewrite I1. reflexivity.
  - intros w lo hi B. rewrite S2. apply weighted_between; try assumption.
  - intros w lo hi B. rewrite S3. apply weighted_between; try assumption.
    intros i j Hi Hj. rewrite I1. apply B; assumption.
  - intros lo hi B. rewrite S1.
    apply (weighted_between _ nr nt (fun i j => nth (j + i * nt) dens 0)); try assumption.
    intros i j Hi Hj. apply B. nia.
Qed.
Print Assumptions c70_averages.

(** A uniform flow is averaged to itself. *)
Theorem c70_uniform_flow : forall mk c n s eps diam up nr nt d u r,
  known_maker mk -> mk c n s eps diam up nr nt = Ret d ->
  0 < diam -> (0 < nr)%nat -> (0 < nt)%nat ->
  update_vel d (repeat u (2 * (nr * nt))) (repeat r (2 * (nr * nt))) = (r, u, u).
Proof.
  intros mk c n s eps diam up nr nt d u r K E P Hr Ht.
  destruct (update_vel d _ _) as [[rho a] b] eqn:H.
  destruct (c70_averages mk c n s eps diam up nr nt d _ _ K E P Hr Ht rho a b H)
    as (_ & _ & _ & A & B & C). cbn zeta in A, B, C.
  assert (N : forall k, (k < 2 * (nr * nt))%nat -> forall X (x y : X), nth k (repeat x (2 * (nr * nt))) y = x).
  { intros k Hk X x y. rewrite (nth_indep _ y x) by (rewrite repeat_length; exact Hk). apply nth_repeat. }
  assert (I : forall h i j, (h < 2)%nat -> (i < nr)%nat -> (j < nt)%nat ->
            (h * (nr * nt) + (j + i * nt) < 2 * (nr * nt))%nat) by (intros; nia).
  assert (rho = r).
  { apply Rle_antisym; [apply (C r r)|apply (C r r)]; intros k Hk; rewrite N by lia; lra. }
  assert (a = u).
  { apply inner_ext. intros w. specialize (A w (inner u w) (inner u w)).
    apply Rle_antisym; apply A; intros i j Hi Hj; rewrite N by (apply I; lia); lra. }
  assert (b = u).
  { apply inner_ext. intros w. specialize (B w (inner u w) (inner u w)).
    apply Rle_antisym; apply B; intros i j Hi Hj; rewrite N by (apply I; lia); lra. }
  subst. reflexivity.
Qed.
Print Assumptions c70_uniform_flow.

(** Sampling points.  Point (ring i, angle j) of the disk half lies in the disk
    plane, at the middle radius of its ring, and is the first point of the ring
    turned by j/nt of a full turn about the normal.  The upstream points are the
    same pattern about the sampling direction, [up] diameters away. *)
Theorem c70_points : forall mk c n s eps diam up nr nt d,
  known_maker mk -> mk c n s eps diam up nr nt = Ret d ->
  0 < diam -> (0 < nr)%nat -> (0 < nt)%nat ->
  length (vel_positions d) = (2 * (nr * nt))%nat /\
  forall i j, (i < nr)%nat -> (j < nt)%nat ->
    let p := nth (nr * nt + (j + i * nt)) (vel_positions d) vzero in
    let p0 := nth (nr * nt + (0 + i * nt)) (vel_positions d) vzero in
    let q := nth (j + i * nt) (vel_positions d) vzero in
    let q0 := nth (0 + i * nt) (vel_positions d) vzero in
    let N := d_normal d in
    let T := d_sample d in
    (along c N p = 0 /\ axis_dist c N p = ring_radius diam nr i /\
     vsub p c = turned N (2 * PI * INR j / INR nt) (vsub p0 c) /\ vz p0 = vz c) /\
    (/ 4503599627370496 <= len s -> / 4503599627370496 <= len (vcross (V3 0 0 1) T) ->
     along c T q = up * diam /\ axis_dist c T q = ring_radius diam nr i /\
     vsub q c = turned T (2 * PI * INR j / INR nt) (vsub q0 c) /\
     vz q0 = vz c + up * diam * vz T).
Proof.
  intros mk c n s eps diam up nr nt d K E P Hr Ht.
  destruct (maker_facts _ _ _ _ _ _ _ _ _ _ K E) as (B & Ec & En & Es & _ & Ed & _ & Er & Et & Eu).
  assert (LL : length (disk_points d (d_sample d) (d_up d)) = (nr * nt)%nat)
    by (unfold disk_points; rewrite length_flat, Er, Et; reflexivity).
  split.
  - unfold vel_positions. rewrite app_length, LL. unfold disk_points. rewrite length_flat, Er, Et. lia.
  - intros i j Hi Hj. cbn zeta.
    assert (A1 : forall jj, (jj < nt)%nat -> nth (nr * nt + (jj + i * nt)) (vel_positions d) vzero
                 = disk_point d (d_normal d) 0 i jj).
    { intros jj Hjj. unfold vel_positions. rewrite app_nth2 by (rewrite LL; lia). rewrite LL.
      replace (nr * nt + (jj + i * nt) - nr * nt)%nat with (jj + i * nt)%nat by lia.
      unfold disk_points. rewrite Er, Et. apply nth_flat; assumption. }
    assert (A2 : forall jj, (jj < nt)%nat -> nth (jj + i * nt) (vel_positions d) vzero
                 = disk_point d (d_sample d) (d_up d) i jj).
    { intros jj Hjj. unfold vel_positions. rewrite app_nth1 by (rewrite LL; nia).
      unfold disk_points. rewrite Er, Et. apply nth_flat; assumption. }
    rewrite (A1 j Hj), (A1 0%nat Ht), (A2 j Hj), (A2 0%nat Ht).
    assert (RR : Rabs (ring_radius diam nr i) = ring_radius diam nr i).
    { apply Rabs_pos_eq. unfold ring_radius. destruct (nr =? 1)%nat; [lra|].
      pose proof (pos_INR i). pose proof (lt_INR _ _ Hr) as Q. cbn in Q.
      unfold Rdiv. pose proof (Rinv_0_lt_compat _ Q).
      apply Rmult_le_pos; [|lra]. apply Rmult_le_pos; lra. }
    assert (G : forall axis off, is_unit axis -> veps <= len (vcross (khat 1) axis) ->
      let p := disk_point d axis off i j in let p0 := disk_point d axis off i 0 in
      along c axis p = off * diam /\ axis_dist c axis p = ring_radius diam nr i /\
      vsub p c = turned axis (2 * PI * INR j / INR nt) (vsub p0 c) /\
      vz p0 = vz c + off * diam * vz axis).
    { intros axis off U L. cbn zeta.
      destruct (disk_point_facts d axis off i j U L) as (F1 & F2). cbn zeta in F1, F2.
      rewrite Ec, Ed in F1. rewrite Ec, Ed, Er, (ring_radius_ok diam nr i Hr Hi), RR in F2.
      rewrite !disk_point_turned in * by exact U. rewrite Ec in *.
      assert (Z0 : 2 * PI / INR (d_nt d) * INR 0 = 0) by (cbn; ring). rewrite Z0, turned_zero.
      repeat split; try assumption.
      - set (v := vadd (vscale _ _) (vscale axis _)).
        replace (vsub (vadd v c) c) with v by (destruct v; unfold vsub, vadd; cbn; apply vec_eq; ring).
        rewrite Et. set (m := turned _ _ v).
        replace (vsub (vadd m c) c) with m by (destruct m; unfold vsub, vadd; cbn; apply vec_eq; ring).
        unfold m. f_equal. pose proof (lt_INR _ _ Ht) as Q. cbn in Q. field. lra.
      - destruct (coplanar_facts axis L) as (_ & _ & Z). cbn. rewrite Z, Ed. ring. }
    split.
    + destruct (G (d_normal d) 0 (b_normal d B) (b_flat d B)) as (G1 & G2 & G3 & G4).
      cbn zeta in *. repeat split; try assumption; [rewrite G1; ring|rewrite G4; ring].
    + intros Ls Lc. rewrite Es in *.
      destruct (G (vnormalize s) up (vnormalize_is_unit s Ls) Lc) as (G1 & G2 & G3 & G4).
      rewrite Eu. repeat split; assumption.
Qed.
Print Assumptions c70_points.

(** The ring radius of the points lies inside its ring. *)
Theorem c70_points_in_ring : forall diam nr i, 0 < diam -> (i < nr)%nat ->
  diam / 2 * INR i / INR nr <= ring_radius diam nr i < diam / 2 * (INR i + 1) / INR nr.
Proof.
  intros diam nr i P Hi. assert (Q : 0 < INR nr) by (apply (lt_INR 0); lia).
  assert (D : 0 < diam / 2 / INR nr) by (apply Rdiv_lt_0_compat; lra).
  unfold ring_radius. destruct (Nat.eqb_spec nr 1) as [->|N].
  - replace i with 0%nat by lia. cbn. lra.
  - replace (diam / 2 * INR i / INR nr) with (diam / 2 / INR nr * INR i) by (field; lra).
    replace (diam / 2 * (INR i + 1 / 2) / INR nr) with (diam / 2 / INR nr * (INR i + 1 / 2)) by (field; lra).
    replace (diam / 2 * (INR i + 1) / INR nr) with (diam / 2 / INR nr * (INR i + 1)) by (field; lra).
    split; [apply Rmult_le_compat_l|apply Rmult_lt_compat_l]; lra.
Qed.
Print Assumptions c70_points_in_ring.

(** The sampling direction is not checked as the normal is: with a vertical
    sampling direction the disk is accepted and all upstream points are one
    single point, so the area average is a point sample. *)
Theorem c70_vertical_sampling_refuted : forall c eps diam up nr nt,
  (0 < nr)%nat -> (0 < nt)%nat ->
  exists d, uniform_disk c (V3 1 0 0) (V3 0 0 1) eps diam up nr nt = Ret d /\
    forall i j, (i < nr)%nat -> (j < nt)%nat ->
      nth (j + i * nt) (vel_positions d) vzero = V3 (vx c) (vy c) (vz c + up * diam).
Proof.
  intros c eps diam up nr nt Hr Ht.
  assert (N1 : vnormalize (V3 1 0 0) = V3 1 0 0) by (apply vnormalize_unit; unfold is_unit, inner; cbn; ring).
  assert (N2 : vnormalize (V3 0 0 1) = V3 0 0 1) by (apply vnormalize_unit; unfold is_unit, inner; cbn; ring).
  unfold uniform_disk, with_coplanar. cbn zeta. cbn [d_normal d_sample]. rewrite N1, N2.
  rewrite (proj2 (Rltb_spec _ _)) by (unfold vmag_sqr, vcross, veps; cbn; lra).
  eexists. split; [reflexivity|]. intros i j Hi Hj.
  unfold vel_positions. rewrite app_nth1 by (unfold disk_points; rewrite length_flat; cbn; nia).
  unfold disk_points. cbn [d_nr d_nt d_up d_sample].
  rewrite nth_flat by assumption.
  rewrite disk_point_turned by (unfold is_unit, inner; cbn; ring). cbn [d_center d_diam d_nt d_nr].
  assert (Z : coplanar_vector (V3 0 0 1) = vzero).
  { unfold coplanar_vector, vnormalize. cbn zeta. rewrite (proj2 (Rltb_spec _ _)); [reflexivity|].
    unfold vmag, vmag_sqr, vcross; cbn. replace (_ + _) with 0 by ring. rewrite sqrt_0. unfold veps. lra. }
  rewrite Z. unfold turned, inner, vadd, vscale, vzero; cbn. apply vec_eq; ring.
Qed.
Print Assumptions c70_vertical_sampling_refuted.

(** Yaw is a compass bearing and tilt an elevation angle: with north = y and
    east = x, the normal of a disk with yaw [y] and tilt [t] degrees points to
    the bearing [y], below the horizon by [t]. *)
Theorem c70_bearing : forall t y,
  oriented (V3 0 1 0) (V3 1 0 0) (Some t) (Some y) =
    V3 (cos (radians t) * sin (radians y)) (cos (radians t) * cos (radians y)) (- sin (radians t)) /\
  oriented (V3 0 1 0) (V3 1 0 0) None (Some y) = V3 (sin (radians y)) (cos (radians y)) 0 /\
  oriented (V3 0 1 0) (V3 1 0 0) (Some t) None = V3 0 (cos (radians t)) (- sin (radians t)) /\
  oriented (V3 0 1 0) (V3 1 0 0) None None = V3 0 1 0.
Proof.
  intros t y.
  assert (RN : forall a, radians (- a) = - radians a) by (intros; unfold radians; field).
  assert (VM : forall v a b, vapp v (tmul a b) = vapp (vapp v a) b)
    by (intros v a b; unfold vapp, tmul; cbn; apply vec_eq; ring).
  assert (VI : forall v, vapp v tid = v)
    by (intros [a b c]; unfold vapp, tid; cbn; apply vec_eq; ring).
  assert (X : forall v a, vapp v (quaternion (V3 1 0 0) (- a))
            = V3 (vx v) (vy v * cos (radians a) + vz v * sin (radians a))
                 (vz v * cos (radians a) - vy v * sin (radians a))).
  { intros v a. assert (U : inner (V3 1 0 0) (V3 1 0 0) = 1) by (unfold inner; cbn; ring).
    rewrite (vapp_turned _ (V3 1 0 0) (- a)) by (constructor; apply unit_not_zero; exact U).
    rewrite (unitv_of_unit _ U), RN. unfold turned, inner; cbn. rewrite cos_neg, sin_neg.
    apply vec_eq; ring. }
  assert (Y : forall v a, vapp v (zrot (- a))
            = V3 (vx v * cos (radians a) + vy v * sin (radians a))
                 (vy v * cos (radians a) - vx v * sin (radians a)) (vz v)).
  { intros v a. unfold zrot, vapp. cbn zeta. rewrite RN, cos_neg, sin_neg. cbn. apply vec_eq; ring. }
  pose proof (sc1 (radians t)) as St. pose proof (sc1 (radians y)) as Sy.
  set (ct := cos (radians t)) in *. set (sn := sin (radians t)) in *.
  set (cy := cos (radians y)) in *. set (sy := sin (radians y)) in *.
  assert (C2 : ct * ct = 1 - sn * sn) by lra.
  assert (C3 : cy * cy = 1 - sy * sy) by lra.
  unfold oriented, rot_op. cbn zeta.
  repeat apply conj; rewrite ?VM, ?VI, ?X, ?Y, ?X; cbn [vx vy vz]; fold ct sn cy sy;
  rewrite vnormalize_unit; try (apply vec_eq; ring);
  unfold is_unit, inner; cbn [vx vy vz].
  - match goal with |- ?e = 1 => replace e with ((sy * sy + cy * cy) * (ct * ct) + sn * sn) by ring end.
    rewrite Sy. lra.
  - lra.
  - lra.
  - lra.
Qed.
Print Assumptions c70_bearing.

(** *** C71 *)

(** The forces of the uniform disk are pressure times ring area along the
    normal, and they add up to the thrust 1/2 rho U^2 Ct A, with U the component
    of the reference velocity along the normal and A the disk area. *)
Theorem c71_thrust : forall c n s eps diam up nr nt d ct refv rho,
  uniform_disk c n s eps diam up nr nt = Ret d -> (0 < nr)%nat ->
  let N := d_normal d in
  let U := inner refv N in
  let pressure := 1 / 2 * rho * U ^ 2 * ct (Rabs U) in
  length (uniform_forces d ct refv rho) = nr /\
  (forall i, (i < nr)%nat ->
     nth i (uniform_forces d ct refv rho) vzero = vscale N (pressure * ring_area (diam / 2) nr i)) /\
  (forall w, total_along w (uniform_forces d ct refv rho)
             = pressure * (PI * (diam / 2) ^ 2) * inner N w).
Proof.
  intros c n s eps diam up nr nt d ct refv rho H Hr N U pressure.
  destruct (maker_facts uniform_disk _ _ _ _ _ _ _ _ _ (or_introl eq_refl) H)
    as (B & _ & _ & _ & _ & Ed & Edr & Er & _ & _).
  assert (Enf : d_nf d = nr).
  { unfold uniform_disk, with_coplanar in H. cbn zeta in H. destruct (Rltb _ _); [|discriminate].
    injection H as <-. reflexivity. }
  pose proof (lt_INR _ _ Hr) as Q. cbn in Q.
  repeat apply conj.
  - unfold uniform_forces. rewrite map_length, seq_length. exact Enf.
  - intros i Hi. unfold uniform_forces. rewrite Enf, nth_map_seq by exact Hi.
    rewrite uniform_force_ring. fold N U. fold pressure. f_equal. f_equal.
    rewrite Edr. unfold ring_area. replace 0.5 with (1 / 2) by lra. field. lra.
  - intros w. rewrite total_forces. fold N U. fold pressure. rewrite Enf, Edr. field. lra.
Qed.
Print Assumptions c71_thrust.

(** In a uniform wind that blows against the normal the disk takes energy out
    of the flow (work of the force on the wind is not positive), and it never
    pushes sideways. *)
Theorem c71_takes_energy : forall c n s eps diam up nr nt d ct u rho,
  uniform_disk c n s eps diam up nr nt = Ret d -> (0 < nr)%nat ->
  0 <= rho -> (forall v, 0 <= ct v) -> inner u (d_normal d) <= 0 ->
  total_along u (uniform_forces d ct u rho) <= 0 /\
  (forall w, inner (d_normal d) w = 0 -> total_along w (uniform_forces d ct u rho) = 0).
Proof.
  intros c n s eps diam up nr nt d ct u rho H Hr Hrho Hct Hu.
  destruct (c71_thrust c n s eps diam up nr nt d ct u rho H Hr) as (_ & _ & T).
  cbn zeta in T. split.
  - rewrite T, (inner_sym (d_normal d) u). set (U := inner u (d_normal d)) in *.
    specialize (Hct (Rabs U)). set (k := ct (Rabs U)) in *. pose proof PI_RGT_0.
    pose proof (pow2_ge_0 U). pose proof (pow2_ge_0 (diam / 2)).
    assert (0 <= 1 / 2 * rho * U ^ 2 * k * (PI * (diam / 2) ^ 2)).
    { apply Rmult_le_pos; [|apply Rmult_le_pos; lra].
      apply Rmult_le_pos; [|lra]. apply Rmult_le_pos; lra. }
    nra.
  - intros w Hw. rewrite T, Hw. ring.
Qed.
Print Assumptions c71_takes_energy.

(** The direction of the thrust is that of the normal whatever the wind
    direction: a wind from behind is accelerated. *)
Theorem c71_wind_from_behind_refuted :
  exists d u, uniform_disk vzero (V3 0 1 0) (V3 0 1 0) 10 100 0 10 1 = Ret d /\
    0 < total_along u (uniform_forces d (fun _ => 1 / 2) u 1).
Proof.
  assert (N1 : vnormalize (V3 0 1 0) = V3 0 1 0) by (apply vnormalize_unit; unfold is_unit, inner; cbn; ring).
  destruct (uniform_disk vzero (V3 0 1 0) (V3 0 1 0) 10 100 0 10 1) as [d| |] eqn:H.
  - exists d, (V3 0 10 0). split; [reflexivity|].
    destruct (c71_thrust _ _ _ _ _ _ _ _ d (fun _ => 1 / 2) (V3 0 10 0) 1 H ltac:(lia)) as (_ & _ & T).
    cbn zeta in T. rewrite T.
    destruct (maker_facts uniform_disk _ _ _ _ _ _ _ _ _ (or_introl eq_refl) H) as (_ & _ & En & _).
    rewrite En, N1. unfold inner; cbn. pose proof PI_RGT_0. lra.
  - exfalso. unfold uniform_disk, with_coplanar in H. cbn zeta in H. cbn [d_normal] in H. rewrite N1 in H.
    rewrite (proj2 (Rltb_spec _ _)) in H by (unfold vmag_sqr, vcross, veps; cbn; lra). discriminate.
  - exfalso. unfold uniform_disk, with_coplanar in H. cbn zeta in H. destruct (Rltb _ _); discriminate.
Qed.
Print Assumptions c71_wind_from_behind_refuted.

(** Spreading with linear functions: at every point of space the source is along
    the normal, of size pressure times the Gaussian in the distance from the disk
    plane times the radial profile. *)
Theorem c71_spread : forall c n s eps diam up nr nt d ct refv rho p,
  uniform_disk c n s eps diam up nr nt = Ret d -> (0 < nr)%nat -> 0 < diam ->
  let N := d_normal d in
  let U := inner refv N in
  linear_source d (map (uniform_pos d) (seq 0 nr)) (uniform_forces d ct refv rho) p =
  vscale N (1 / 2 * rho * U ^ 2 * ct (Rabs U) * gaussian1d (along c N p) eps
            * pressure_profile (diam / 2) (diam / 2 / INR nr) (axis_dist c N p)).
Proof.
  intros c n s eps diam up nr nt d ct refv rho p H Hr P N U.
  destruct (maker_facts uniform_disk _ _ _ _ _ _ _ _ _ (or_introl eq_refl) H)
    as (B & Ec & _ & _ & Ee & Ed & Edr & Er & _ & _).
  assert (Enf : d_nf d = nr).
  { unfold uniform_disk, with_coplanar in H. cbn zeta in H. destruct (Rltb _ _); [|discriminate].
    injection H as <-. reflexivity. }
  pose proof (lt_INR _ _ Hr) as Q. cbn in Q.
  assert (D : 0 < d_dr d) by (rewrite Edr; apply Rdiv_lt_0_compat; lra).
  pose proof (linear_source_exact d ct refv rho p B) as L. rewrite Enf in L.
  rewrite (L Hr D), Ec, Ee, Edr. fold N U. f_equal. f_equal. f_equal. field. lra.
Qed.
Print Assumptions c71_spread.

(** The radial profile is 1 between the middle radii of the first and the last
    ring, 1/2 on the axis and at the rim, 0 from half a ring outside the rim, and never outside [0,1]. *)
Theorem c71_profile : forall radius dr r, 0 < dr -> dr <= radius -> 0 <= r ->
  0 <= pressure_profile radius dr r <= 1 /\
  (dr / 2 <= r <= radius - dr / 2 -> pressure_profile radius dr r = 1) /\
  (radius + dr / 2 <= r -> pressure_profile radius dr r = 0) /\
  pressure_profile radius dr 0 = 1 / 2 /\
  pressure_profile radius dr radius = 1 / 2.
Proof.
  intros radius dr r P Q H. unfold pressure_profile.
  assert (S : forall a b, a <= b * dr -> a / dr <= b).
  { intros a b L. apply (Rmult_le_reg_r dr); [exact P|]. unfold Rdiv.
    rewrite Rmult_assoc, Rinv_l by lra. lra. }
  assert (T : forall a b, b * dr <= a -> b <= a / dr).
  { intros a b L. apply (Rmult_le_reg_r dr); [exact P|]. unfold Rdiv.
    rewrite Rmult_assoc, Rinv_l by lra. lra. }
  repeat apply conj.
  - apply Rmax_l.
  - apply Rmax_lub; [lra|apply Rmin_l].
  - intros [L1 L2]. rewrite (Rmin_left 1), Rmax_right; [reflexivity|lra|].
    apply Rmin_glb; [pose proof (T r (1/2)); lra|pose proof (T (radius - r) (1/2)); lra].
  - intros L. apply Rmax_left. eapply Rle_trans; [apply Rmin_r|].
    eapply Rle_trans; [apply Rmin_r|]. pose proof (S (radius - r) (-1/2)). lra.
  - replace (0 / dr) with 0 by (field; lra). pose proof (T (radius - 0) 1).
    rewrite (Rmin_left (0 + 1/2)), Rmin_right, Rmax_right by lra. lra.
  - replace ((radius - radius) / dr) with 0 by (field; lra). pose proof (T radius 1).
    rewrite (Rmin_right (radius / dr + 1/2)), Rmin_right, Rmax_right by lra. lra.
Qed.
Print Assumptions c71_profile.

(** The Gaussian in the distance from the disk plane: largest on the plane,
    symmetric, positive below 16 widths and zero from there on. *)
Theorem c71_gaussian : forall x y eps, 0 < eps ->
  gaussian1d (- x) eps = gaussian1d x eps /\
  (Rabs x < 16 * eps -> 0 < gaussian1d x eps) /\
  (16 * eps <= Rabs x -> gaussian1d x eps = 0) /\
  (Rabs x <= Rabs y -> gaussian1d y eps <= gaussian1d x eps) /\
  gaussian1d 0 eps = 1 / (sqrt PI * eps).
Proof.
  intros x y eps P. pose proof PI_RGT_0 as PP.
  pose proof (sqrt_lt_R0 PI PP) as SP. pose proof (Rinv_0_lt_compat _ SP) as SI.
  pose proof (Rinv_0_lt_compat _ P) as EI.
  assert (AD : forall z, Rabs (z / eps) = Rabs z / eps).
  { intros z. unfold Rdiv. rewrite Rabs_mult, (Rabs_pos_eq (/ eps)) by lra. reflexivity. }
  assert (C : forall z, 16 <= Rabs (z / eps) <-> 16 * eps <= Rabs z).
  { intros z. rewrite AD. split; intros H.
    - apply (Rmult_le_compat_r eps) in H; [|lra]. unfold Rdiv in H.
      rewrite Rmult_assoc, Rinv_l in H by lra. lra.
    - apply (Rmult_le_reg_r eps); [lra|]. unfold Rdiv. rewrite Rmult_assoc, Rinv_l by lra. lra. }
  assert (IN : forall z, Rabs z < 16 * eps ->
     gaussian1d z eps = / sqrt PI / eps * exp (- (z * z) / (eps * eps))).
  { intros z H. unfold gaussian1d. cbn zeta.
    rewrite (proj2 (Rleb_false _ _)); [reflexivity|]. apply Rnot_le_lt. rewrite C. lra. }
  assert (OUT : forall z, 16 * eps <= Rabs z -> gaussian1d z eps = 0).
  { intros z H. unfold gaussian1d. cbn zeta.
    rewrite (proj2 (Rleb_spec _ _)); [reflexivity|]. apply C, H. }
  assert (POS : forall z, 0 <= / sqrt PI / eps * exp (- (z * z) / (eps * eps))).
  { intros z. apply Rmult_le_pos; [unfold Rdiv; apply Rmult_le_pos; lra|left; apply exp_pos]. }
  repeat apply conj.
  - destruct (Rlt_le_dec (Rabs x) (16 * eps)) as [H|H].
    + rewrite !IN by (rewrite ?Rabs_Ropp; exact H). f_equal. f_equal. f_equal. ring.
    + rewrite !OUT by (rewrite ?Rabs_Ropp; exact H). reflexivity.
  - intros H. rewrite IN by exact H. apply Rmult_lt_0_compat; [unfold Rdiv; apply Rmult_lt_0_compat; lra|apply exp_pos].
  - apply OUT.
  - intros H. destruct (Rlt_le_dec (Rabs y) (16 * eps)) as [Hy|Hy].
    + rewrite !IN by lra. apply Rmult_le_compat_l; [unfold Rdiv; apply Rmult_le_pos; lra|].
      assert (L : - (y * y) / (eps * eps) <= - (x * x) / (eps * eps)).
      { unfold Rdiv. apply Rmult_le_compat_r; [left; apply Rinv_0_lt_compat; nra|].
        assert (x * x <= y * y); [|lra].
        change (Rsqr x <= Rsqr y). rewrite (Rsqr_abs x), (Rsqr_abs y).
        apply Rsqr_incr_1; [exact H|apply Rabs_pos|apply Rabs_pos]. }
      destruct L as [L|L]; [left; apply exp_increasing, L|right; rewrite L; reflexivity].
    + rewrite (OUT y Hy). destruct (Rlt_le_dec (Rabs x) (16 * eps)) as [Hx|Hx].
      * rewrite IN by exact Hx. apply POS.
      * rewrite (OUT x Hx). lra.
  - rewrite IN by (rewrite Rabs_R0; lra).
    replace (- (0 * 0) / (eps * eps)) with 0 by (field; lra). rewrite exp_0. field. lra.
Qed.
Print Assumptions c71_gaussian.

(** Spreading with Gaussians about points of the ring: the ring points are made
    by turning the stored position, as a vector from the coordinate origin, about
    the normal.  They lie on the disk only if the disk axis goes through the
    origin. *)
Theorem c71_gauss_points_partial : forall c n s eps diam up nr nt d ip it,
  uniform_disk c n s eps diam up nr nt = Ret d -> (ip < nr)%nat -> (0 < nt)%nat -> 0 < diam ->
  let pos := map (uniform_pos d) (seq 0 nr) in
  gauss_point d pos ip it = turned (d_normal d) (INR it * (2 * PI / INR nt)) (uniform_pos d ip) /\
  (axis_dist vzero (d_normal d) c = 0 ->
   along c (d_normal d) (gauss_point d pos ip it) = 0 /\
   axis_dist c (d_normal d) (gauss_point d pos ip it) = diam / 2 * (INR ip + 1 / 2) / INR nr).
Proof.
  intros c n s eps diam up nr nt d ip it H Hi Ht P pos.
  destruct (maker_facts uniform_disk _ _ _ _ _ _ _ _ _ (or_introl eq_refl) H)
    as (B & Ec & _ & _ & _ & Ed & Edr & Er & _ & _).
  assert (Enf : d_nft d = nt).
  { unfold uniform_disk, with_coplanar in H. cbn zeta in H. destruct (Rltb _ _); [|discriminate].
    injection H as <-. reflexivity. }
  assert (G : gauss_point d pos ip it = turned (d_normal d) (INR it * (2 * PI / INR nt)) (uniform_pos d ip)).
  { unfold gauss_point, pos. cbn zeta. rewrite nth_map_seq by exact Hi.
    rewrite quat_point by apply (b_normal d B). rewrite Enf. reflexivity. }
  split; [exact G|]. intros Z. rewrite G. clear G.
  assert (Q : 0 < INR nr) by (apply (lt_INR 0); lia).
  destruct B as [U L C]. destruct (coplanar_facts _ L) as (V & O & _). rewrite <- C in V, O.
  (* the centre is a multiple of the normal *)
  set (h := along vzero (d_normal d) c).
  assert (Zc : c = vscale (d_normal d) h).
  { unfold axis_dist in Z. assert (Z2 : off_axis vzero (d_normal d) c = V3 0 0 0).
    { apply inner_zero. rewrite <- len_sqr, Z. ring. }
    unfold off_axis in Z2. fold h in Z2. injection Z2 as E1 E2 E3. cbn in E1, E2, E3.
    destruct c as [a b e]. unfold vscale; cbn in *. apply vec_eq; lra. }
  set (r := (INR ip + 0.5) * d_dr d).
  set (th := INR it * (2 * PI / INR nt)).
  assert (E : uniform_pos d ip = vadd (vscale (d_coplanar d) r) (vscale (d_normal d) h)).
  { unfold uniform_pos. fold r. rewrite Ec, Zc at 1. unfold vadd, vscale; cbn. apply vec_eq; ring. }
  rewrite E. destruct (turned_facts (d_normal d) th (d_coplanar d) r h U V O) as (F1 & F2).
  cbn zeta in F1, F2. set (q := turned _ _ _) in *.
  assert (Eq : q = vadd (vsub q c) c) by (destruct q; unfold vadd, vsub; cbn; apply vec_eq; ring).
  assert (Ep : inner (vsub q c) (d_normal d) = 0).
  { rewrite inner_vsub, F1. rewrite Zc, inner_vscale. unfold is_unit in U. rewrite U. ring. }
  rewrite Eq. unfold axis_dist. rewrite along_add, off_axis_add, Ep. split; [reflexivity|].
  replace (vsub (vsub q c) (vscale (d_normal d) 0)) with (vsub q c)
    by (unfold vsub, vscale; cbn; apply vec_eq; ring).
  rewrite Zc. unfold len. rewrite F2, sqrt_square.
  - unfold r. rewrite Edr. replace 0.5 with (1 / 2) by lra. field. lra.
  - unfold r. rewrite Edr. pose proof (pos_INR ip).
    assert (0 < diam / 2 / INR nr) by (apply Rdiv_lt_0_compat; lra). nra.
Qed.
Print Assumptions c71_gauss_points_partial.

(** Refuted: with Gaussian spreading the force points stay on the disk.  A disk
    of diameter 100 centred 500 off the origin puts half of its force about 1000
    from its centre, at a point that is the centre's mirror image. *)
Theorem c71_gauss_placement_refuted :
  exists d, uniform_disk (V3 500 0 0) (V3 0 1 0) (V3 0 1 0) 10 100 0 1 2 = Ret d /\
    nth 0 (map (uniform_pos d) (seq 0 1)) vzero = V3 475 0 0 /\
    gauss_point d (map (uniform_pos d) (seq 0 1)) 0 1 = V3 (-475) 0 0.
Proof.
  assert (N1 : vnormalize (V3 0 1 0) = V3 0 1 0) by (apply vnormalize_unit; unfold is_unit, inner; cbn; ring).
  assert (C1 : coplanar_vector (V3 0 1 0) = V3 (-1) 0 0).
  { unfold coplanar_vector. replace (vcross (khat 1) (V3 0 1 0)) with (V3 (-1) 0 0)
      by (unfold vcross; cbn; apply vec_eq; ring).
    apply vnormalize_unit. unfold is_unit, inner; cbn; ring. }
  destruct (uniform_disk (V3 500 0 0) (V3 0 1 0) (V3 0 1 0) 10 100 0 1 2) as [d| |] eqn:H.
  - exists d. split; [reflexivity|].
    destruct (c71_gauss_points_partial _ _ _ _ _ _ _ _ d 0 1 H ltac:(lia) ltac:(lia) ltac:(lra)) as (G & _).
    cbn zeta in G. rewrite G. cbn [seq map nth].
    destruct (maker_facts uniform_disk _ _ _ _ _ _ _ _ _ (or_introl eq_refl) H)
      as (B & Ec & En & _ & _ & _ & Edr & _).
    unfold uniform_pos. rewrite (b_coplanar d B), Ec, En, N1, C1, Edr. cbn.
    replace (1 * (2 * PI / (1 + 1))) with PI by field.
    split; [unfold vadd, vscale; cbn; apply vec_eq; lra|].
    unfold turned, inner, vadd, vscale; cbn. rewrite cos_PI, sin_PI. apply vec_eq; lra.
  - exfalso. unfold uniform_disk, with_coplanar in H. cbn zeta in H. cbn [d_normal] in H. rewrite N1 in H.
    rewrite (proj2 (Rltb_spec _ _)) in H by (unfold vmag_sqr, vcross, veps; cbn; lra). discriminate.
  - exfalso. unfold uniform_disk, with_coplanar in H. cbn zeta in H. destruct (Rltb _ _); discriminate.
Qed.
Print Assumptions c71_gauss_placement_refuted.

(** A concrete disk: the makers accept ordinary inputs. *)
Example disk_accepted : exists d,
  uniform_disk (V3 0 0 90) (V3 0 2 0) (V3 0 2 0) 10 126 (5/2) 20 12 = Ret d /\ d_dr d = 63 / 20.
Proof.
  assert (N1 : vnormalize (V3 0 2 0) = V3 0 1 0).
  { unfold vnormalize, vmag, vmag_sqr. cbn zeta. cbn [vx vy vz].
    replace (0 * 0 + 2 * 2 + 0 * 0) with (2 * 2) by ring. rewrite sqrt_square by lra.
    rewrite (proj2 (Rltb_false _ _)) by (unfold veps; lra). unfold vdivs; cbn. apply vec_eq; field. }
  unfold uniform_disk, with_coplanar. cbn zeta. cbn [d_normal d_sample]. rewrite N1.
  rewrite (proj2 (Rltb_spec _ _)) by (unfold vmag_sqr, vcross, veps; cbn; lra).
  eexists. split; [reflexivity|]. cbn [d_dr]. replace (INR 20) with 20 by (cbn; lra). lra.
Qed.
