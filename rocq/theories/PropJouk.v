(** C72: the Joukowsky disk applies the thrust and torque of its tables. *)
From Verif Require Import BoxR BoxRFacts VecSpace VecSpaceSpec VecSpaceProofs Tagging
  DiskActuator DiskSpec DiskProofs DiskProofs2 PropDisk JoukProofs.
Open Scope R_scope.

Lemma jouk_maker c n s eps diam up nr nt d :
  joukowsky_disk c n s eps diam up nr nt = Ret d -> d_nf d = (nr * nt)%nat.
Proof.
  intros H. unfold joukowsky_disk, with_coplanar in H. cbn zeta in H.
  destruct (Rltb _ _); [|discriminate]. injection H as <-. reflexivity.
Qed.

(** The force points: in the disk plane, at the ring radius. *)
Lemma force_point c n s eps diam up nr nt d i j :
  joukowsky_disk c n s eps diam up nr nt = Ret d -> 0 < diam -> (i < nr)%nat -> (j < nt)%nat ->
  let p := nth (j + i * nt) (disk_points d (d_normal d) 0) vzero in
  p = disk_point d (d_normal d) 0 i j /\
  along c (d_normal d) p = 0 /\ axis_dist c (d_normal d) p = ring_radius diam nr i.
Proof.
  intros H P Hi Hj. cbn zeta.
  destruct (maker_facts joukowsky_disk _ _ _ _ _ _ _ _ _ (or_intror eq_refl) H)
    as (B & Ec & _ & _ & _ & Ed & _ & Er & Et & _).
  unfold disk_points. rewrite Er, Et, nth_flat by assumption.
  split; [reflexivity|].
  destruct (disk_point_facts d (d_normal d) 0 i j (b_normal d B) (b_flat d B)) as (F1 & F2).
  cbn zeta in F1, F2. rewrite Ec, ?Ed in F1, F2. split; [rewrite F1; ring|].
  rewrite F2, Er, (ring_radius_ok diam nr i ltac:(lia) Hi). apply Rabs_pos_eq.
  destruct (c70_points_in_ring diam nr i P Hi) as [L _].
  eapply Rle_trans; [|exact L]. pose proof (pos_INR i).
  assert (0 < INR nr) by (apply (lt_INR 0); lia).
  unfold Rdiv. apply Rmult_le_pos; [apply Rmult_le_pos; lra|left; apply Rinv_0_lt_compat; lra].
Qed.

(** One force, split into its part along the normal and around it. *)
Lemma force_parts c n s eps diam up nr nt d p ct omega refv rho t vel i j w :
  joukowsky_disk c n s eps diam up nr nt = Ret d -> 0 < diam -> (i < nr)%nat -> (j < nt)%nat ->
  let N := d_normal d in
  let U := inner refv N in
  let lam := j_lambda d omega refv in
  let S0 := solid_body p (ct (Rabs U)) in
  let pt := nth (j + i * nt) (disk_points d N 0) vzero in
  let f := j_force p d ct omega refv rho t vel (disk_points d N 0) i j in
  inner f w =
    rho * U ^ 2 * area_section (d_radius d) (d_nr d) (d_nt d) i *
    ((1 + j_amp p * cos (j_freq p * t + j_clock p - IZR (j_mode p) * (INR j * (2 * PI / INR nt)))) *
       j_fz (j_gamma p d ct omega refv) S0 lam (jx d i) (root_correction p d i) (tip_correction p d lam i)
       * inner N w +
     j_ftheta p d ct omega refv vel i (j + i * nt) * inner (vneg (tangential_vector c N pt)) w).
Proof.
  intros H P Hi Hj. cbn zeta.
  destruct (maker_facts joukowsky_disk _ _ _ _ _ _ _ _ _ (or_intror eq_refl) H)
    as (B & Ec & _ & _ & _ & Ed & _ & Er & Et & _).
  unfold j_force. cbn zeta. rewrite !inner_vscale, inner_vadd, !inner_vscale.
  rewrite sqrt_speed. unfold ref_speed_sqr. change vdot with inner. rewrite Ec, Et.
  replace (j_freq p * t - IZR (j_mode p) * (INR j * (2 * PI / INR nt)) + j_clock p)
    with (j_freq p * t + j_clock p - IZR (j_mode p) * (INR j * (2 * PI / INR nt))) by ring.
  ring.
Qed.

(** The sums of the program over the rings, and the quantity under the square
    root: the thrust equation has a solution when it is not negative. *)
Definition solvable (p : jouk) (d : disk) (ct omega : R -> R) (refv : vec) : Prop :=
  let lam := j_lambda d omega refv in
  let c := ct (Rabs (inner refv (d_normal d))) in
  let S0 := solid_body p c in
  let F := tip_correction p d lam in
  let g := root_correction p d in
  / 4503599627370496 <= j_a1 d F g /\
  0 <= (j_a2 d F g * lam + j_a3 d F g * S0) ^ 2 +
       j_a1 d F g * (c / 2 - 2 * j_a4 d F g * lam * S0 - j_a5 d F g * S0 * S0).

(** Thrust.  Whatever the tip and root corrections, the solid-body term, the
    rotation rate and the sampled disk velocity, the forces add up along the
    normal to 1/2 rho U^2 Ct A; active wake control changes this only when its
    azimuthal mode is a multiple of the number of points per ring. *)
Theorem c72_thrust : forall c n s eps diam up nr nt d p ct omega refv rho t vel,
  joukowsky_disk c n s eps diam up nr nt = Ret d ->
  0 < diam -> (0 < nr)%nat -> INR nr <= 2 ^ 51 -> (0 < nt)%nat ->
  solvable p d ct omega refv ->
  let N := d_normal d in
  let U := inner refv N in
  let res := joukowsky_forces p d ct omega refv rho t vel (disk_points d N 0) in
  let wave := if (j_mode p mod Z.of_nat nt =? 0)%Z then cos (j_freq p * t + j_clock p) else 0 in
  length (r_forces res) = (nr * nt)%nat /\
  (forall w, inner (r_total res) w = total_along w (r_forces res)) /\
  inner (r_total res) N =
    1 / 2 * rho * U ^ 2 * ct (Rabs U) * (PI * (diam / 2) ^ 2) * (1 + j_amp p * wave).
Proof.
  intros c n s eps diam up nr nt d p ct omega refv rho t vel H P Hr Fine Ht [A1 Disc] N U res wave.
  destruct (maker_facts joukowsky_disk _ _ _ _ _ _ _ _ _ (or_intror eq_refl) H)
    as (B & Ec & _ & _ & _ & Ed & Edr & Er & Et & _).
  destruct (jouk_sums p d ct omega refv rho t vel (disk_points d N 0)) as (S1 & S2 & _).
  fold res in S1, S2. cbn zeta in S1, S2. rewrite Er, Et in S1, S2.
  assert (W : forall w, inner (r_total res) w = total_along w (r_forces res)).
  { intros w. rewrite S2. unfold total_along. rewrite S1, map_map, <- rsum_map_grid2. reflexivity. }
  split; [|split; [exact W|]].
  - rewrite S1, map_length. unfold grid2. apply length_flat.
  - rewrite S2.
    set (lam := j_lambda d omega refv) in *.
    set (S0 := solid_body p (ct (Rabs U))).
    set (q := j_gamma p d ct omega refv).
    set (fz := fun i => j_fz q S0 lam (jx d i) (root_correction p d i) (tip_correction p d lam i)).
    set (arg := fun j => j_freq p * t + j_clock p - IZR (j_mode p) * (INR j * (2 * PI / INR nt))).
    assert (NN : inner N N = 1) by exact (b_normal d B).
    pose proof (lt_INR _ _ Hr) as Q. pose proof (lt_INR _ _ Ht) as Q'. cbn in Q, Q'.
    assert (Dr : d_dr d = d_diam d / 2 / INR (d_nr d)) by (rewrite Ed, Er; exact Edr).
    assert (Dd : 0 < d_diam d) by (rewrite Ed; exact P).
    assert (Rn : (0 < d_nr d)%nat) by (rewrite Er; exact Hr).
    assert (Tn : (0 < d_nt d)%nat) by (rewrite Et; exact Ht).
    assert (Fn : INR (d_nr d) <= 2251799813685248) by (rewrite Er; lra).
    assert (E : forall i j, (i < nr)%nat -> (j < nt)%nat ->
      inner (j_force p d ct omega refv rho t vel (disk_points d N 0) i j) N =
      rho * U ^ 2 * (2 * PI * d_radius d ^ 2) / INR nt * (fz i * (jx d i / INR nr)) * (1 + j_amp p * cos (arg j))).
    { intros i j Hi Hj.
      pose proof (force_parts c n s eps diam up nr nt d p ct omega refv rho t vel i j N H P Hi Hj) as FP; cbn zeta in FP; fold N in FP; rewrite FP; clear FP.
      destruct (force_point c n s eps diam up nr nt d i j H P Hi Hj) as (_ & F1 & _).
      destruct (tangent_facts c N _ (b_normal d B) F1) as (T & _). cbn zeta in T.
      fold N in T. rewrite T, NN.
      rewrite (section_jx d Dr Dd Rn Tn Fn i), Er, Et.
      fold U lam S0 q. fold (arg j). unfold fz. field. lra. }
    rewrite (sum2_ext _ _ _ _ E).
    unfold sum2.
    rewrite (sum1_ext _ _ (fun i => rho * U ^ 2 * (2 * PI * d_radius d ^ 2) / INR nt
              * (INR nt + j_amp p * sum1 nt (fun j => cos (arg j))) * (fz i * (jx d i / INR nr)))).
    2: { intros i _. rewrite sum1_scale.
         rewrite (sum1_plus nt (fun _ => 1) (fun j => j_amp p * cos (arg j))), sum1_const, sum1_scale. ring. }
    rewrite sum1_scale.
    assert (TI : sum1 nr (fun i => fz i * (jx d i / INR nr)) = ct (Rabs U) / 4).
    { pose proof (thrust_identity d Dr Dd Rn Fn lam S0 (ct (Rabs U))
                   (tip_correction p d lam) (root_correction p d)) as TI.
      cbn zeta in TI. rewrite Er in TI. rewrite <- (TI A1 Disc). apply sum1_ext. intros i _.
      unfold fz, q, j_gamma. cbn zeta. rewrite sqrt_speed. fold N U lam S0. reflexivity. }
    rewrite TI.
    assert (WV : sum1 nt (fun j => cos (arg j)) = INR nt * wave).
    { unfold arg, wave. destruct (Z.eqb_spec (j_mode p mod Z.of_nat nt) 0) as [M|M].
      - apply cos_sum_multiple; assumption.
      - rewrite cos_sum_zero by assumption. ring. }
    rewrite WV. unfold d_radius. rewrite Ed. replace 0.5 with (1 / 2) by lra. field. lra.
Qed.
Print Assumptions c72_thrust.

(** Without corrections and solid-body term the thrust equation always has a
    solution. *)
Theorem c72_solvable_plain : forall c n s eps diam up nr nt d p ct omega refv,
  joukowsky_disk c n s eps diam up nr nt = Ret d ->
  0 < diam -> (0 < nr)%nat -> INR nr <= 2 ^ 51 -> (0 < nt)%nat ->
  j_tip p = false -> j_root p = false -> j_ct_rated p <= 0 ->
  0 <= ct (Rabs (inner refv (d_normal d))) ->
  solvable p d ct omega refv.
Proof.
  intros c n s eps diam up nr nt d p ct omega refv H P Hr Fine Ht Tip Root Rated Hct.
  destruct (maker_facts joukowsky_disk _ _ _ _ _ _ _ _ _ (or_intror eq_refl) H)
    as (B & Ec & _ & _ & _ & Ed & Edr & Er & Et & _).
  assert (Dr : d_dr d = d_diam d / 2 / INR (d_nr d)) by (rewrite Ed, Er; exact Edr).
  assert (Dd : 0 < d_diam d) by (rewrite Ed; exact P).
  assert (Rn : (0 < d_nr d)%nat) by (rewrite Er; exact Hr).
  assert (Fn : INR (d_nr d) <= 2251799813685248) by (rewrite Er; lra).
  pose proof (lt_INR _ _ Hr) as Q. cbn in Q.
  unfold solvable. cbn zeta.
  assert (A1 : 2 <= j_a1 d (tip_correction p d (j_lambda d omega refv)) (root_correction p d)).
  { unfold j_a1. rewrite jsum_sum1, (dx_eq d Dr Dd Rn), Er.
    assert (T : forall i, tip_correction p d (j_lambda d omega refv) i ^ 2 * root_correction p d i ^ 2
                / jx d i * / INR nr = / (INR i + 1 / 2)).
    { intros i. unfold tip_correction, root_correction. rewrite Tip, Root, (jx_eq d Dr Dd Rn Fn i), Er.
      pose proof (pos_INR i). field. lra. }
    rewrite (sum1_ext _ _ _ (fun i _ => T i)).
    destruct nr as [|m]; [lia|]. clear. induction m as [|m IH].
    - rewrite sum1_S. unfold sum1; cbn. lra.
    - rewrite sum1_S. assert (0 < / (INR (S m) + 1 / 2)) by (apply Rinv_0_lt_compat; pose proof (pos_INR (S m)); lra).
      lra. }
  assert (S0 : solid_body p (ct (Rabs (inner refv (d_normal d)))) = 0).
  { unfold solid_body. rewrite (proj2 (Rltb_false _ _)) by exact Rated. reflexivity. }
  rewrite S0. split; [lra|].
  set (c0 := ct _) in *. set (a1 := j_a1 _ _ _) in *.
  match goal with |- 0 <= ?x ^ 2 + _ => pose proof (pow2_ge_0 x) end.
  assert (0 <= a1 * (c0 / 2)) by (apply Rmult_le_pos; lra). lra.
Qed.
Print Assumptions c72_solvable_plain.

(** Blade-element form.  There is one circulation number G per ring, the same
    for all points of the ring and for all sampled disk velocities, such that
    with Omega r + G U / 2 for the speed around the axis and u for the speed
    through the disk the force is G times these two speeds crosswise: the force
    is perpendicular to the velocity seen by the blade.  G is not negative for an
    ordinary rotor. *)
Theorem c72_blade_element : forall c n s eps diam up nr nt d p ct omega refv rho t,
  joukowsky_disk c n s eps diam up nr nt = Ret d ->
  0 < diam -> (1 < nr)%nat -> INR nr <= 2 ^ 51 -> (0 < nt)%nat ->
  / 4503599627370496 <= diam / INR nr / 4 ->
  let N := d_normal d in
  let U := Rmax (Rabs (inner refv N)) (/ 4503599627370496) in
  let Om := omega (Rabs (inner refv N)) in
  j_amp p = 0 ->
  exists G : nat -> R,
    (j_ct_rated p <= 0 -> 0 <= ct (Rabs (inner refv N)) -> 0 <= j_root_a p ->
     forall i, (i < nr)%nat -> 0 <= G i) /\
    forall vel i j, (i < nr)%nat -> (j < nt)%nat ->
      let pt := nth (j + i * nt) (disk_points d N 0) vzero in
      let r := axis_dist c N pt in
      let around := vcross N (vscale (vsub pt c) (/ r)) in
      let u := - inner N (nth (nr * nt + (j + i * nt)) vel vzero) in
      let f := j_force p d ct omega refv rho t vel (disk_points d N 0) i j in
      let k := rho * (inner refv N) ^ 2 * (ring_area (diam / 2) nr i / INR nt) in
      r = diam / 2 * (INR i + 1 / 2) / INR nr /\ is_unit around /\
      f = vadd (vscale N (k * G i * (Om * r / U + G i / 2))) (vscale around (k * G i * (u / U))).
Proof.
  intros c n s eps diam up nr nt d p ct omega refv rho t H P Hr Fine Ht Small N U Om Amp.
  destruct (maker_facts joukowsky_disk _ _ _ _ _ _ _ _ _ (or_intror eq_refl) H)
    as (B & Ec & _ & _ & _ & Ed & Edr & Er & Et & _).
  pose proof (jouk_maker _ _ _ _ _ _ _ _ _ H) as Enf.
  assert (Hr0 : (0 < nr)%nat) by lia.
  assert (Dr : d_dr d = d_diam d / 2 / INR (d_nr d)) by (rewrite Ed, Er; exact Edr).
  assert (Dd : 0 < d_diam d) by (rewrite Ed; exact P).
  assert (Rn : (0 < d_nr d)%nat) by (rewrite Er; exact Hr0).
  assert (Tn : (0 < d_nt d)%nat) by (rewrite Et; exact Ht).
  assert (Fn : INR (d_nr d) <= 2251799813685248) by (rewrite Er; lra).
  pose proof (lt_INR _ _ Hr0) as Q. pose proof (lt_INR _ _ Ht) as Q'. cbn in Q, Q'.
  set (lam := j_lambda d omega refv).
  set (S0 := solid_body p (ct (Rabs (inner refv N)))).
  set (q := j_gamma p d ct omega refv).
  assert (EU : j_uref d refv = U).
  { unfold j_uref. rewrite sqrt_speed, rmax_spec. reflexivity. }
  assert (PU : 0 < U) by (unfold U; eapply Rlt_le_trans; [|apply Rmax_r]; lra).
  exists (fun i => (q / jx d i + S0 * jx d i) * root_correction p d i * tip_correction p d lam i).
  split.
  - intros Rated Hct Ra i Hi.
    assert (Z : S0 = 0) by (unfold S0, solid_body; rewrite (proj2 (Rltb_false _ _)) by exact Rated; reflexivity).
    rewrite Z, Rmult_0_l, Rplus_0_r.
    assert (Gp : 0 <= root_correction p d i).
    { unfold root_correction. destruct (j_root p); [|lra]. cbn zeta.
      set (y := Rpower _ _). assert (0 < y) by apply exp_pos.
      assert (E : exp (- j_root_a p * y) <= exp 0).
      { destruct (Req_dec (j_root_a p * y) 0) as [e|e].
        - right. f_equal. lra.
        - left. apply exp_increasing. assert (0 <= j_root_a p * y) by (apply Rmult_le_pos; lra). lra. }
      rewrite exp_0 in E. lra. }
    assert (Fp : 0 <= tip_correction p d lam i).
    { unfold tip_correction. destruct (j_tip p); [|lra]. cbn zeta.
      apply Rmult_le_pos; [|apply acos_bound]. pose proof PI_RGT_0. left. apply Rdiv_lt_0_compat; lra. }
    assert (Qp : 0 <= q).
    { unfold q, j_gamma. cbn zeta. rewrite sqrt_speed. fold N S0. rewrite Z. unfold j_q0. cbn zeta.
      set (a1 := j_a1 _ _ _). set (a2 := j_a2 _ _ _).
      assert (Ap : 0 <= a1).
      { unfold a1, j_a1. rewrite jsum_sum1.
        replace 0 with (sum1 (d_nr d) (fun _ => 0)) by (rewrite sum1_const; ring).
        apply sum1_le. intros k _. pose proof (jx_pos d Dr Dd Rn Fn k).
        rewrite (dx_eq d Dr Dd Rn).
        assert (0 < / INR (d_nr d)) by (apply Rinv_0_lt_compat; apply (lt_INR 0); exact Rn).
        assert (0 < / jx d k) by (apply Rinv_0_lt_compat; assumption).
        pose proof (pow2_ge_0 (tip_correction p d (j_lambda d omega refv) k)).
        pose proof (pow2_ge_0 (root_correction p d k)).
        unfold Rdiv. apply Rmult_le_pos; [|lra]. apply Rmult_le_pos; [|lra]. apply Rmult_le_pos; assumption. }
      apply Rmult_le_pos.
      - set (k := a2 * _ + _ * 0).
        match goal with |- 0 <= sqrt ?e - _ => assert (L : Rabs k <= sqrt e) end.
        { rewrite <- sqrt_Rsqr_abs. apply sqrt_le_1_alt. unfold Rsqr.
          assert (0 <= a1 * (0.5 * ct (Rabs (inner refv N)))) by (apply Rmult_le_pos; lra). lra. }
        pose proof (Rle_abs k). lra.
      - left. apply Rinv_0_lt_compat. rewrite rmax_spec.
        eapply Rlt_le_trans; [|apply Rmax_r]. unfold veps. lra. }
    pose proof (jx_pos d Dr Dd Rn Fn i).
    apply Rmult_le_pos; [|exact Fp]. apply Rmult_le_pos; [|exact Gp].
    unfold Rdiv. apply Rmult_le_pos; [exact Qp|]. left. apply Rinv_0_lt_compat. assumption.
  - intros vel i j Hi Hj. cbn zeta.
    destruct (force_point c n s eps diam up nr nt d i j H P Hi Hj) as (_ & F1 & F2). fold N in F1, F2.
    destruct (tangent_facts c N _ (b_normal d B) F1) as (T & T2). cbn zeta in T, T2.
    set (pt := nth (j + i * nt) (disk_points d N 0) vzero) in *.
    assert (RR : ring_radius diam nr i = diam / 2 * (INR i + 1 / 2) / INR nr).
    { unfold ring_radius. destruct (Nat.eqb_spec nr 1); [lia|reflexivity]. }
    rewrite RR in F2.
    assert (Big : / 4503599627370496 <= diam / 2 * (INR i + 1 / 2) / INR nr).
    { eapply Rle_trans; [exact Small|].
      replace (diam / INR nr / 4) with (diam / 2 / INR nr * (1 / 2)) by (field; lra).
      replace (diam / 2 * (INR i + 1 / 2) / INR nr) with (diam / 2 / INR nr * (INR i + 1 / 2)) by (field; lra).
      apply Rmult_le_compat_l; [left; apply Rdiv_lt_0_compat; lra|]. pose proof (pos_INR i). lra. }
    assert (Big2 : veps <= axis_dist c N pt) by (rewrite F2; exact Big).
    destruct (T2 Big2) as (_ & _ & T3).
    assert (Ar : vneg (tangential_vector c N pt) = vcross N (vscale (vsub pt c) (/ axis_dist c N pt))).
    { assert (Eo : off_axis c N pt = vsub pt c).
      { unfold off_axis. rewrite F1. unfold vsub. apply vec_eq; ring. }
      assert (El : len (vsub pt c) = axis_dist c N pt) by (unfold axis_dist; rewrite Eo; reflexivity).
      unfold tangential_vector. cbn zeta.
      assert (En : vnormalize (vsub pt c) = vscale (vsub pt c) (/ axis_dist c N pt)).
      { unfold vnormalize. cbn zeta. change (vmag (vsub pt c)) with (len (vsub pt c)).
        rewrite El, (proj2 (Rltb_false _ _) Big2). reflexivity. }
      rewrite En, quat_back by exact (b_normal d B). apply turned_back.
      rewrite inner_vscale. replace (inner (vsub pt c) N) with 0 by (symmetry; exact F1). ring. }
    rewrite <- Ar. split; [exact F2|split; [exact T3|]].
    apply inner_ext. intros w.
    pose proof (force_parts c n s eps diam up nr nt d p ct omega refv rho t vel i j w H P Hi Hj) as FP; cbn zeta in FP; fold N in FP; rewrite FP; clear FP.
    fold N. fold pt. rewrite inner_vadd, !inner_vscale, Amp, Rmult_0_l, Rplus_0_r, Rmult_1_l.
    fold lam S0 q.
    assert (Lx : lam * jx d i = Om * (diam / 2 * (INR i + 1 / 2) / INR nr) / U).
    { unfold lam, j_lambda. rewrite EU, sqrt_speed. fold N. fold Om.
      rewrite (jx_eq d Dr Dd Rn Fn i), Er. unfold d_radius. rewrite Ed.
      replace 0.5 with (1 / 2) by lra. field. lra. }
    assert (Ft : j_ftheta p d ct omega refv vel i (j + i * nt) =
      - inner N (nth (nr * nt + (j + i * nt)) vel vzero) / U * (q / jx d i + S0 * jx d i)
      * root_correction p d i * tip_correction p d lam i).
    { unfold j_ftheta. cbn zeta. rewrite sqrt_speed, EU. fold N. fold S0 q lam.
      change vdot with inner. rewrite inner_vneg, Enf. reflexivity. }
    rewrite Ft, F2. unfold j_fz. rewrite Lx.
    assert (Sr : area_section (d_radius d) (d_nr d) (d_nt d) i = ring_area (diam / 2) nr i / INR nt).
    { rewrite Er, Et, <- (section_ring _ nr nt i Hr0 Ht). unfold d_radius. rewrite Ed.
      replace (0.5 * diam) with (diam / 2) by lra. field. lra. }
    rewrite Sr. replace 0.5 with (1 / 2) by lra. field.
    repeat split; try lra. pose proof (jx_pos d Dr Dd Rn Fn i). lra.
Qed.
Print Assumptions c72_blade_element.

(** Power.  With more than one ring the reported power is the rotation rate
    times the torque of the applied forces about the axis; the power coefficient
    is the power over 1/2 rho A U^3 and the tip speed ratio Omega R / U. *)
Theorem c72_power : forall c n s eps diam up nr nt d p ct omega refv rho t vel,
  joukowsky_disk c n s eps diam up nr nt = Ret d ->
  0 < diam -> (1 < nr)%nat -> INR nr <= 2 ^ 51 -> (0 < nt)%nat ->
  / 4503599627370496 <= diam / INR nr / 4 ->
  let N := d_normal d in
  let U := Rabs (inner refv N) in
  let pos := disk_points d N 0 in
  let res := joukowsky_forces p d ct omega refv rho t vel pos in
  r_power res = omega U *
    sum2 nr nt (fun i j => triple (vsub (nth (j + i * nt) pos vzero) c)
                                  (nth (j + i * nt) (r_forces res) vzero) N) /\
  (/ 4503599627370496 <= U -> / 4503599627370496 <= 1 / 2 * rho * (PI * (diam / 2) ^ 2) * U ^ 3 ->
   r_cp res = r_power res / (1 / 2 * rho * (PI * (diam / 2) ^ 2) * U ^ 3) /\
   r_tsr res = omega U * (diam / 2) / U).
Proof.
  intros c n s eps diam up nr nt d p ct omega refv rho t vel H P Hr Fine Ht Small N U pos res.
  destruct (maker_facts joukowsky_disk _ _ _ _ _ _ _ _ _ (or_intror eq_refl) H)
    as (B & Ec & _ & _ & _ & Ed & Edr & Er & Et & _).
  assert (Hr0 : (0 < nr)%nat) by lia.
  assert (Dr : d_dr d = d_diam d / 2 / INR (d_nr d)) by (rewrite Ed, Er; exact Edr).
  assert (Dd : 0 < d_diam d) by (rewrite Ed; exact P).
  assert (Rn : (0 < d_nr d)%nat) by (rewrite Er; exact Hr0).
  assert (Tn : (0 < d_nt d)%nat) by (rewrite Et; exact Ht).
  assert (Fn : INR (d_nr d) <= 2251799813685248) by (rewrite Er; lra).
  pose proof (lt_INR _ _ Hr0) as Q. pose proof (lt_INR _ _ Ht) as Q'. cbn in Q, Q'.
  destruct (jouk_sums p d ct omega refv rho t vel pos) as (S1 & S2 & S3 & S4 & S5 & S6).
  fold res in S1, S2, S3, S4, S5, S6. cbn zeta in S1, S2, S3, S4, S5, S6.
  rewrite Er, Et in S1, S3. rewrite sqrt_speed in S4. fold N in S4. fold U in S4.
  split.
  - rewrite S4, S3.
    transitivity (omega U * (rho * ref_speed_sqr refv N *
      sum2 nr nt (fun i j => jx d i * d_radius d * j_ftheta p d ct omega refv vel i (j + i * nt) *
          area_section (d_radius d) nr nt i))); [ring|]. f_equal.
    rewrite <- sum2_scale. apply sum2_ext. intros i j Hi Hj.
    assert (Fe : nth (j + i * nt) (r_forces res) vzero = j_force p d ct omega refv rho t vel pos i j).
    { rewrite S1. unfold grid2. rewrite flat_map_concat_map, concat_map, map_map, <- flat_map_concat_map.
      rewrite (flat_map_ext _ (fun i => map (fun j => j_force p d ct omega refv rho t vel pos i j) (seq 0 nt)))
        by (intros a; rewrite map_map; reflexivity).
      apply nth_flat; assumption. }
    rewrite Fe.
    destruct (force_point c n s eps diam up nr nt d i j H P Hi Hj) as (_ & F1 & F2). fold N in F1, F2.
    destruct (tangent_facts c N _ (b_normal d B) F1) as (T & T2). cbn zeta in T, T2.
    fold pos in F1, F2, T, T2. set (pt := nth (j + i * nt) pos vzero) in *.
    assert (RR : ring_radius diam nr i = diam / 2 * (INR i + 1 / 2) / INR nr).
    { unfold ring_radius. destruct (Nat.eqb_spec nr 1); [lia|reflexivity]. }
    rewrite RR in F2.
    assert (Big : / 4503599627370496 <= diam / 2 * (INR i + 1 / 2) / INR nr).
    { eapply Rle_trans; [exact Small|].
      replace (diam / INR nr / 4) with (diam / 2 / INR nr * (1 / 2)) by (field; lra).
      replace (diam / 2 * (INR i + 1 / 2) / INR nr) with (diam / 2 / INR nr * (INR i + 1 / 2)) by (field; lra).
      apply Rmult_le_compat_l; [left; apply Rdiv_lt_0_compat; lra|]. pose proof (pos_INR i). lra. }
    assert (Big2 : veps <= axis_dist c N pt) by (rewrite F2; exact Big).
    destruct (T2 Big2) as (T3 & _ & _).
    (* triple with the force = inner with (N cross arm) *)
    assert (TL : forall f, triple (vsub pt c) f N = inner f (vcross N (vsub pt c)))
      by (intros f; unfold triple, inner, vcross; cbn; ring).
    rewrite TL.
    pose proof (force_parts c n s eps diam up nr nt d p ct omega refv rho t vel i j (vcross N (vsub pt c)) H P Hi Hj) as FP; cbn zeta in FP; fold N in FP; fold pos in FP; rewrite FP; clear FP.
    fold N. fold pos. fold pt.
    assert (Z : inner N (vcross N (vsub pt c)) = 0) by (unfold inner, vcross; cbn; ring).
    rewrite Z, <- TL, T3, F2, (jx_eq d Dr Dd Rn Fn i), Er, Et.
    unfold d_radius, ref_speed_sqr. rewrite Ed. change vdot with inner. replace 0.5 with (1 / 2) by lra. field. lra.
  - intros BU BD.
    assert (EU : j_uref d refv = U).
    { unfold j_uref. rewrite sqrt_speed, rmax_spec. fold N U. apply Rmax_left. exact BU. }
    assert (De : rmax (0.5 * PI * rho * d_radius d ^ 2 * j_uref d refv ^ 3) veps
                 = 1 / 2 * rho * (PI * (diam / 2) ^ 2) * U ^ 3).
    { rewrite EU, rmax_spec. unfold d_radius. rewrite Ed.
      replace (0.5 * PI * rho * (0.5 * diam) ^ 2 * U ^ 3) with (1 / 2 * rho * (PI * (diam / 2) ^ 2) * U ^ 3)
        by (replace 0.5 with (1 / 2) by lra; field).
      apply Rmax_left. exact BD. }
    rewrite De in S5. split; [exact S5|].
    rewrite S6. unfold j_lambda. rewrite EU, sqrt_speed. fold N U. unfold d_radius. rewrite Ed.
    replace 0.5 with (1 / 2) by lra. field. lra.
Qed.
Print Assumptions c72_power.

(** With a single ring the force points lie on the axis and the forces have no
    torque, yet a power is reported. *)
Theorem c72_single_ring_refuted : forall c n s eps diam up nt d p ct omega refv rho t vel,
  joukowsky_disk c n s eps diam up 1 nt = Ret d -> 0 < diam -> (0 < nt)%nat ->
  j_tip p = false -> j_root p = false -> j_ct_rated p <= 0 ->
  let N := d_normal d in
  let U := Rabs (inner refv N) in
  0 < U -> 0 < ct U -> 0 < omega U -> 0 < rho ->
  (forall j, (j < nt)%nat -> inner N (nth (nt + j) vel vzero) < 0) ->
  let pos := disk_points d N 0 in
  let res := joukowsky_forces p d ct omega refv rho t vel pos in
  (forall j w, (j < nt)%nat -> triple (vsub (nth j pos vzero) c) (nth j (r_forces res) vzero) w = 0) /\
  0 < r_power res.
Proof.
  intros c n s eps diam up nt d p ct omega refv rho t vel H P Ht Tip Root Rated N U PU Pct Pom Prho Pv pos res.
  destruct (maker_facts joukowsky_disk _ _ _ _ _ _ _ _ _ (or_intror eq_refl) H)
    as (B & Ec & _ & _ & _ & Ed & Edr & Er & Et & _).
  pose proof (jouk_maker _ _ _ _ _ _ _ _ _ H) as Enf.
  assert (Dr : d_dr d = d_diam d / 2 / INR (d_nr d)) by (rewrite Ed, Er; exact Edr).
  assert (Dd : 0 < d_diam d) by (rewrite Ed; exact P).
  assert (Rn : (0 < d_nr d)%nat) by (rewrite Er; lia).
  assert (Tn : (0 < d_nt d)%nat) by (rewrite Et; exact Ht).
  assert (Fn : INR (d_nr d) <= 2251799813685248) by (rewrite Er; cbn; lra).
  pose proof (lt_INR _ _ Ht) as Q'. cbn in Q'.
  split.
  - intros j w Hj.
    destruct (force_point c n s eps diam up 1 nt d 0 j H P ltac:(lia) Hj) as (_ & F1 & F2).
    fold N in F1, F2. fold pos in F1, F2. rewrite Nat.add_0_r in F1, F2.
    set (pt := nth j pos vzero) in *.
    assert (Z : vsub pt c = V3 0 0 0).
    { apply inner_zero. rewrite <- len_sqr.
      assert (Eo : off_axis c N pt = vsub pt c).
      { unfold off_axis. rewrite F1. unfold vsub. apply vec_eq; ring. }
      unfold axis_dist in F2. rewrite Eo in F2. rewrite F2. unfold ring_radius. cbn. lra. }
    rewrite Z. unfold triple; cbn. ring.
  - destruct (jouk_sums p d ct omega refv rho t vel pos) as (_ & _ & S3 & S4 & _).
    fold res in S3, S4. cbn zeta in S3, S4. rewrite sqrt_speed in S4. fold N in S4. fold U in S4.
    rewrite S4. clear S4. rewrite Er, Et in S3.
    assert (Ru : 0 < rho * ref_speed_sqr refv N).
    { unfold ref_speed_sqr. change vdot with inner. apply Rmult_lt_0_compat; [exact Prho|].
      replace (inner refv N * inner refv N) with (Rsqr (inner refv N)) by reflexivity.
      rewrite Rsqr_abs. fold U. unfold Rsqr. apply Rmult_lt_0_compat; exact PU. }
    fold N. apply Rmult_lt_0_compat; [|exact Pom]. apply Rmult_lt_0_compat; [exact Ru|].
    assert (S0 : solid_body p (ct U) = 0).
    { unfold solid_body. rewrite (proj2 (Rltb_false _ _)) by exact Rated. reflexivity. }
    assert (PUr : 0 < j_uref d refv).
    { unfold j_uref. rewrite rmax_spec. eapply Rlt_le_trans; [|apply Rmax_r]. unfold veps. lra. }
    assert (Gq : 0 < j_gamma p d ct omega refv).
    { unfold j_gamma. cbn zeta. rewrite sqrt_speed. fold N. fold U. rewrite S0. unfold j_q0. cbn zeta.
      assert (A1 : j_a1 d (tip_correction p d (j_lambda d omega refv)) (root_correction p d) = 2).
      { unfold j_a1. rewrite jsum_sum1, Er, sum1_S. unfold sum1 at 1. cbn [seq map]. 
        rewrite (dx_eq d Dr Dd Rn), (jx_eq d Dr Dd Rn Fn 0), Er.
        unfold tip_correction, root_correction. rewrite Tip, Root. cbn. field. }
      rewrite A1. set (k := _ * j_lambda d omega refv + _ * 0).
      assert (L : k < sqrt (k ^ 2 + 2 * (0.5 * ct U - 2 * j_a4 d (tip_correction p d (j_lambda d omega refv)) (root_correction p d) * j_lambda d omega refv * 0 -
         j_a5 d (tip_correction p d (j_lambda d omega refv)) (root_correction p d) * 0 * 0))).
      { eapply Rle_lt_trans; [apply (Rle_abs k)|]. rewrite <- sqrt_Rsqr_abs. apply sqrt_lt_1_alt.
        split; [apply Rle_0_sqr|]. unfold Rsqr. lra. }
      apply Rdiv_lt_0_compat; [lra|]. rewrite rmax_spec. eapply Rlt_le_trans; [|apply Rmax_l]. lra. }
    rewrite S3. unfold sum2. rewrite sum1_S. unfold sum1 at 1. cbn [seq map]. change (rsum []) with 0.
    rewrite Rplus_0_l.
    assert (Pt : forall j, (j < nt)%nat ->
      0 < jx d 0 * d_radius d * j_ftheta p d ct omega refv vel 0 (j + 0 * nt) * area_section (d_radius d) 1 nt 0).
    { intros j Hj. pose proof (jx_pos d Dr Dd Rn Fn 0) as Px.
      assert (Prd : 0 < d_radius d) by (unfold d_radius; lra).
      assert (Pa : 0 < area_section (d_radius d) 1 nt 0).
      { rewrite <- Er, <- Et, (section_jx d Dr Dd Rn Tn Fn 0), Er, Et. cbn [INR].
        pose proof PI_RGT_0.
        assert (0 < d_radius d ^ 2) by (apply pow_lt; assumption).
        match goal with |- 0 < ?e => replace e with (2 * PI * (d_radius d ^ 2 * jx d 0) * / INR nt) by (field; lra) end.
        assert (0 < d_radius d ^ 2 * jx d 0) by (apply Rmult_lt_0_compat; assumption).
        apply Rmult_lt_0_compat; [|apply Rinv_0_lt_compat; lra].
        apply Rmult_lt_0_compat; [lra|assumption]. }
      apply Rmult_lt_0_compat; [|exact Pa]. apply Rmult_lt_0_compat; [apply Rmult_lt_0_compat; assumption|].
      unfold j_ftheta. cbn zeta. rewrite sqrt_speed. fold N. fold U. rewrite S0, Rmult_0_l, Rplus_0_r.
      unfold root_correction, tip_correction. rewrite Tip, Root, !Rmult_1_r.
      apply Rmult_lt_0_compat; [|apply Rdiv_lt_0_compat; assumption].
      apply Rdiv_lt_0_compat; [|exact PUr].
      change vdot with inner. rewrite inner_vneg, Enf. specialize (Pv j Hj).
      replace (1 * nt + (j + 0 * nt))%nat with (nt + j)%nat by lia. lra. }
    clear - Pt Ht. destruct nt as [|m]; [lia|]. rewrite sum1_S. specialize (Pt m ltac:(lia)) as Pm.
    assert (0 <= sum1 m (fun j => jx d 0 * d_radius d * j_ftheta p d ct omega refv vel 0 (j + 0 * S m)
              * area_section (d_radius d) 1 (S m) 0)).
    { replace 0 with (sum1 m (fun _ => 0)) by (rewrite sum1_const; ring).
      apply sum1_le. intros j Hj. left. apply Pt. lia. }
    lra.
Qed.
Print Assumptions c72_single_ring_refuted.

(** acos decreases. *)
Lemma acos_le x y : 0 <= x <= 1 -> 0 <= y <= 1 -> x <= y -> acos y <= acos x.
Proof.
  intros X Y L. destruct (Rle_or_lt (acos y) (acos x)) as [K|K]; [exact K|exfalso].
  pose proof (acos_bound x). pose proof (acos_bound y).
  pose proof (cos_decreasing_1 (acos x) (acos y) ltac:(lra) ltac:(lra) ltac:(lra) ltac:(lra) K) as M.
  rewrite !cos_acos in M by lra. lra.
Qed.

(** The corrections are fractions; the tip correction falls towards the tip and
    the root correction rises away from the root. *)
Theorem c72_corrections : forall c n s eps diam up nr nt d p lam,
  joukowsky_disk c n s eps diam up nr nt = Ret d -> 0 < diam -> (0 < nr)%nat ->
  (forall i, (i < nr)%nat -> 0 <= tip_correction p d lam i <= 1) /\
  (forall i, (S i < nr)%nat -> tip_correction p d lam (S i) <= tip_correction p d lam i) /\
  (0 <= j_root_a p -> forall i, 0 <= root_correction p d i <= 1) /\
  (0 <= j_root_a p -> 0 <= j_root_b p ->
   forall i, root_correction p d i <= root_correction p d (S i)).
Proof.
  intros c n s eps diam up nr nt d p lam H P Hr.
  destruct (maker_facts joukowsky_disk _ _ _ _ _ _ _ _ _ (or_intror eq_refl) H)
    as (B & Ec & _ & _ & _ & Ed & Edr & Er & Et & _).
  assert (Dr : d_dr d = d_diam d / 2 / INR (d_nr d)) by (rewrite Ed, Er; exact Edr).
  assert (Dd : 0 < d_diam d) by (rewrite Ed; exact P).
  assert (Rn : (0 < d_nr d)%nat) by (rewrite Er; exact Hr).
  pose proof (lt_INR _ _ Hr) as Q. cbn in Q. pose proof PI_RGT_0 as PP.
  set (K := 0.5 * INR (j_blades p) * sqrt (1 + lam * lam)).
  assert (PK : 0 <= K).
  { unfold K. apply Rmult_le_pos; [|apply sqrt_pos]. pose proof (pos_INR (j_blades p)). lra. }
  set (x := fun i : nat => (INR i + 1 / 2) / INR nr).
  assert (ET : forall i, tip_correction p d lam i =
     if j_tip p then 2 / PI * acos (exp (- (K * (1 - x i)))) else 1).
  { intros i. unfold tip_correction. destruct (j_tip p); [|reflexivity]. cbn zeta.
    rewrite (dx_eq d Dr Dd Rn), Er. do 3 f_equal. unfold K, x. lra. }
  assert (Xb : forall i, (i < nr)%nat -> 0 <= 1 - x i).
  { intros i Hi. unfold x. apply lt_INR in Hi as Hi'. 
    assert (INR i + 1 <= INR nr) by (rewrite <- S_INR; apply le_INR; lia).
    assert ((INR i + 1 / 2) / INR nr <= 1).
    { apply Rmult_le_reg_r with (INR nr); [lra|]. unfold Rdiv. rewrite Rmult_assoc, Rinv_l by lra. lra. }
    lra. }
  assert (Eb : forall y, 0 <= y -> 0 <= exp (- y) <= 1).
  { intros y Hy. split; [left; apply exp_pos|]. rewrite <- exp_0.
    destruct Hy as [Hy| <-]; [left; apply exp_increasing; lra|right; f_equal; lra]. }
  assert (El : forall y z, y <= z -> exp y <= exp z).
  { intros y z [L| ->]; [left; apply exp_increasing, L|lra]. }
  repeat apply conj.
  - intros i Hi. rewrite ET. destruct (j_tip p); [|lra].
    set (e := exp _). assert (0 <= e <= 1) by (apply Eb, Rmult_le_pos; [exact PK|apply Xb, Hi]).
    assert (A : acos e <= PI / 2).
    { rewrite <- acos_0. apply acos_le; lra. }
    pose proof (acos_bound e). split.
    + apply Rmult_le_pos; [left; apply Rdiv_lt_0_compat; lra|lra].
    + apply Rmult_le_reg_l with (PI / 2); [lra|].
      replace (PI / 2 * (2 / PI * acos e)) with (acos e) by (field; lra). lra.
  - intros i Hi. rewrite !ET. destruct (j_tip p); [|lra].
    apply Rmult_le_compat_l; [left; apply Rdiv_lt_0_compat; lra|].
    assert (X1 : 0 <= K * (1 - x i)) by (apply Rmult_le_pos; [exact PK|apply Xb; lia]).
    assert (X2 : 0 <= K * (1 - x (S i))) by (apply Rmult_le_pos; [exact PK|apply Xb; lia]).
    apply acos_le; [apply Eb, X1|apply Eb, X2|]. apply El.
    assert (x i <= x (S i)).
    { unfold x. rewrite S_INR. unfold Rdiv. apply Rmult_le_compat_r; [left; apply Rinv_0_lt_compat; lra|lra]. }
    assert (K * (1 - x (S i)) <= K * (1 - x i)) by (apply Rmult_le_compat_l; lra). lra.
  - intros Ra i. unfold root_correction. destruct (j_root p); [|lra]. cbn zeta.
    set (y := Rpower _ _). assert (0 < y) by apply exp_pos.
    replace (- j_root_a p * y) with (- (j_root_a p * y)) by ring.
    pose proof (Eb (j_root_a p * y) ltac:(apply Rmult_le_pos; lra)). lra.
  - intros Ra Rb i. unfold root_correction. destruct (j_root p); [|lra]. cbn zeta.
    set (f := 1 / INR (d_nr d) / rmax (j_core p / d_radius d) veps).
    assert (Pf : 0 < f).
    { unfold f. apply Rdiv_lt_0_compat; [rewrite Er; apply Rdiv_lt_0_compat; lra|].
      rewrite rmax_spec. eapply Rlt_le_trans; [|apply Rmax_r]. unfold veps. lra. }
    pose proof (pos_INR i).
    assert (L : Rpower ((INR i + 0.5) * f) (j_root_b p) <= Rpower ((INR (S i) + 0.5) * f) (j_root_b p)).
    { apply Rle_Rpower_l; [exact Rb|]. split; [apply Rmult_lt_0_compat; lra|].
      rewrite S_INR. apply Rmult_le_compat_r; lra. }
    set (y := Rpower ((INR i + 0.5) * f) _) in *. set (z := Rpower ((INR (S i) + 0.5) * f) _) in *.
    assert (j_root_a p * y <= j_root_a p * z) by (apply Rmult_le_compat_l; lra).
    pose proof (El (- j_root_a p * z) (- j_root_a p * y) ltac:(lra)). lra.
Qed.
Print Assumptions c72_corrections.

(** Side force.  With at least two points per ring and a disk velocity that is
    the same all around each ring, the forces have no resultant across the axis. *)
Theorem c72_side_force : forall c n s eps diam up nr nt d p ct omega refv rho t vel u w,
  joukowsky_disk c n s eps diam up nr nt = Ret d ->
  0 < diam -> (1 < nr)%nat -> (1 < nt)%nat ->
  / 4503599627370496 <= diam / INR nr / 4 ->
  let N := d_normal d in
  let res := joukowsky_forces p d ct omega refv rho t vel (disk_points d N 0) in
  (forall i j, (i < nr)%nat -> (j < nt)%nat -> inner N (nth (nr * nt + (j + i * nt)) vel vzero) = u i) ->
  inner w N = 0 -> inner (r_total res) w = 0.
Proof.
  intros c n s eps diam up nr nt d p ct omega refv rho t vel u w H P Hr Ht Small N res Hu Hw.
  destruct (maker_facts joukowsky_disk _ _ _ _ _ _ _ _ _ (or_intror eq_refl) H)
    as (B & Ec & _ & _ & _ & Ed & Edr & Er & Et & _).
  pose proof (jouk_maker _ _ _ _ _ _ _ _ _ H) as Enf.
  assert (Hr0 : (0 < nr)%nat) by lia. assert (Ht0 : (0 < nt)%nat) by lia.
  pose proof (lt_INR _ _ Hr0) as Q. pose proof (lt_INR _ _ Ht0) as Q'. cbn in Q, Q'.
  destruct (jouk_sums p d ct omega refv rho t vel (disk_points d N 0)) as (_ & S2 & _).
  fold res in S2. cbn zeta in S2. rewrite S2, Er, Et.
  unfold sum2. rewrite (sum1_ext _ _ (fun _ => 0)); [rewrite sum1_const; ring|].
  intros i Hi.
  set (lam := j_lambda d omega refv). 
  set (k := rho * inner refv N ^ 2 * area_section (d_radius d) (d_nr d) (d_nt d) i).
  set (v := vscale (coplanar_vector N) (d_diam d * 0.5 / INR (d_nr d) * (INR i + 0.5))).
  set (ft := - u i / j_uref d refv * (j_gamma p d ct omega refv / jx d i
     + solid_body p (ct (Rabs (inner refv N))) * jx d i) * root_correction p d i * tip_correction p d lam i).
  set (r := diam / 2 * (INR i + 1 / 2) / INR nr).
  assert (Vn : inner v N = 0).
  { unfold v. rewrite inner_vscale. destruct (coplanar_facts (d_normal d) (b_flat d B)) as (_ & O & _).
    fold N in O. rewrite O. ring. }
  rewrite (sum1_ext _ _ (fun j => k * ft * / r * (inner (vcross N v) w * cos (0 - IZR 1 * (INR j * (2 * PI / INR nt)))
      + inner (vcross N (vcross N v)) w * cos (PI / 2 - IZR 1 * (INR j * (2 * PI / INR nt)))))).
  - rewrite sum1_scale, sum1_plus, !sum1_scale, !cos_sum_zero;
      [ring| | | |]; try assumption; rewrite Z.mod_1_l by lia; lia.
  - intros j Hj.
    pose proof (force_parts c n s eps diam up nr nt d p ct omega refv rho t vel i j w H P Hi Hj) as FP.
    cbn zeta in FP. fold N in FP. rewrite FP. clear FP.
    destruct (force_point c n s eps diam up nr nt d i j H P Hi Hj) as (Fp & F1 & F2).
    fold N in F1, F2, Fp.
    set (pt := nth (j + i * nt) (disk_points d N 0) vzero) in *.
    assert (RR : ring_radius diam nr i = r).
    { unfold ring_radius. destruct (Nat.eqb_spec nr 1); [lia|reflexivity]. }
    rewrite RR in F2.
    assert (Big : / 4503599627370496 <= r).
    { eapply Rle_trans; [exact Small|]. unfold r.
      replace (diam / INR nr / 4) with (diam / 2 / INR nr * (1 / 2)) by (field; lra).
      replace (diam / 2 * (INR i + 1 / 2) / INR nr) with (diam / 2 / INR nr * (INR i + 1 / 2)) by (field; lra).
      apply Rmult_le_compat_l; [left; apply Rdiv_lt_0_compat; lra|]. pose proof (pos_INR i). lra. }
    assert (Ar : vneg (tangential_vector c N pt) = vcross N (vscale (vsub pt c) (/ r))).
    { assert (Eo : off_axis c N pt = vsub pt c).
      { unfold off_axis. rewrite F1. unfold vsub. apply vec_eq; ring. }
      assert (Elen : len (vsub pt c) = r) by (unfold axis_dist in F2; rewrite Eo in F2; exact F2).
      unfold tangential_vector. cbn zeta.
      assert (En : vnormalize (vsub pt c) = vscale (vsub pt c) (/ r)).
      { unfold vnormalize. cbn zeta. change (vmag (vsub pt c)) with (len (vsub pt c)).
        rewrite Elen, (proj2 (Rltb_false r veps) Big). reflexivity. }
      rewrite En, quat_back by exact (b_normal d B). apply turned_back.
      rewrite inner_vscale. replace (inner (vsub pt c) N) with 0 by (symmetry; exact F1). ring. }
    assert (Vp : vsub pt c = turned N (INR j * (2 * PI / INR nt)) v).
    { rewrite Fp, (disk_point_turned d N 0 i j (b_normal d B)), Ec, Et.
      destruct (Nat.eqb_spec (d_nr d) 1) as [e|_]; [lia|].
      replace (2 * PI / INR nt * INR j) with (INR j * (2 * PI / INR nt)) by ring.
      generalize (INR j * (2 * PI / INR nt)). intros a. fold v.
      replace (vadd v (vscale N (0 * d_diam d))) with v by (unfold vadd, vscale; apply vec_eq; cbn; ring).
      unfold vsub, vadd. apply vec_eq; cbn; ring. }
    assert (Ft : j_ftheta p d ct omega refv vel i (j + i * nt) = ft).
    { unfold j_ftheta. cbn zeta. rewrite sqrt_speed. fold N lam.
      change vdot with inner. rewrite inner_vneg, Enf, (Hu i j Hi Hj). reflexivity. }
    rewrite Ft, Ar, Vp. rewrite (inner_sym N w), Hw. fold k.
    unfold turned. rewrite (inner_sym N v), Vn. cbn zeta.
    rewrite Rmult_1_l. generalize (INR j * (2 * PI / INR nt)). intros a.
    rewrite Rminus_0_l, cos_neg, (cos_minus (PI / 2) a), cos_PI2, sin_PI2.
    unfold inner, vcross, vscale; cbn. ring.
Qed.
Print Assumptions c72_side_force.

(** The solid-body term: off unless a rated thrust coefficient is given; below
    it a cubic deficit times the first constant, above it a linear one times the
    second; continuous at the rated value, where it vanishes. *)
Theorem c72_solid_body : forall p ct,
  (j_ct_rated p <= 0 -> solid_body p ct = 0) /\
  (0 < j_ct_rated p -> ct < j_ct_rated p -> solid_body p ct = j_alpha1 p * (1 - ct / j_ct_rated p) ^ 3) /\
  (0 < j_ct_rated p -> j_ct_rated p <= ct -> solid_body p ct = j_alpha2 p * (1 - ct / j_ct_rated p)) /\
  solid_body p (j_ct_rated p) = 0.
Proof.
  intros p ct. unfold solid_body. repeat apply conj.
  - intros H. rewrite (proj2 (Rltb_false _ _) H). reflexivity.
  - intros H L. rewrite (proj2 (Rltb_spec _ _) H), (proj2 (Rltb_spec _ _) L).
    replace ((j_ct_rated p - ct) / j_ct_rated p) with (1 - ct / j_ct_rated p) by (field; lra). reflexivity.
  - intros H L. rewrite (proj2 (Rltb_spec _ _) H), (proj2 (Rltb_false _ _) L). field. lra.
  - destruct (Rltb 0 (j_ct_rated p)) eqn:E; [|reflexivity].
    rewrite (proj2 (Rltb_false _ _)) by lra. unfold Rdiv. ring.
Qed.
Print Assumptions c72_solid_body.

(** A concrete rotor meets the hypotheses of the thrust and power theorems. *)
Example jouk_case : exists d,
  joukowsky_disk (V3 0 0 90) (V3 0 2 0) (V3 0 2 0) 10 126 (5/2) 20 12 = Ret d /\
  solvable (Jouk false false 3 0 2 1 0 0 0 0 0 0 0) d (fun _ => 8 / 10) (fun _ => 1) (V3 1 (-10) 0) /\
  INR 20 <= 2 ^ 51 /\ / 4503599627370496 <= 126 / INR 20 / 4.
Proof.
  assert (N1 : vnormalize (V3 0 2 0) = V3 0 1 0).
  { unfold vnormalize, vmag, vmag_sqr. cbn zeta. cbn [vx vy vz].
    replace (0 * 0 + 2 * 2 + 0 * 0) with (2 * 2) by ring. rewrite sqrt_square by lra.
    rewrite (proj2 (Rltb_false _ _)) by (unfold veps; lra). unfold vdivs; cbn. apply vec_eq; field. }
  assert (E : exists d, joukowsky_disk (V3 0 0 90) (V3 0 2 0) (V3 0 2 0) 10 126 (5/2) 20 12 = Ret d).
  { unfold joukowsky_disk, with_coplanar. cbn zeta. cbn [d_normal d_sample]. rewrite N1.
    rewrite (proj2 (Rltb_spec _ _)) by (unfold vmag_sqr, vcross, veps; cbn; lra).
    eexists. reflexivity. }
  destruct E as [d E]. exists d.
  assert (N20 : INR 20 = 20) by (cbn; lra).
  split; [exact E|split; [|rewrite N20; split; lra]].
  apply (c72_solvable_plain _ _ _ _ _ _ _ _ _ _ _ _ _ E); try reflexivity; try lia; cbn; lra.
Qed.
