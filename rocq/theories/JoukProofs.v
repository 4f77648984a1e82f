From Verif Require Import BoxR BoxRFacts VecSpace VecSpaceSpec VecSpaceProofs Tagging
  DiskActuator DiskSpec DiskProofs DiskProofs2.
Open Scope R_scope.

Lemma jsum_sum1 n f : jsum n f = sum1 n f.
Proof.
  unfold jsum, sum1.
  assert (G : forall l s, fold_left (fun s i => s + f i) l s = s + rsum (map f l)).
  { induction l as [|a l IH]; intros s; cbn [fold_left map]; [unfold rsum; cbn; ring|].
    rewrite IH, rsum_cons. ring. }
  rewrite G. ring.
Qed.

(** The accumulating loop. *)
Lemma fold_jouk (f : nat -> nat -> vec) (m : nat -> nat -> R) l : forall fs tot mom,
  let res := fold_left (fun s ij => let '(fs, total, moment) := s in
      ((fs ++ [f (fst ij) (snd ij)])%list, vadd total (f (fst ij) (snd ij)), moment + m (fst ij) (snd ij)))
      l (fs, tot, mom) in
  fst (fst res) = (fs ++ map (fun ij => f (fst ij) (snd ij)) l)%list /\
  (forall w, inner (snd (fst res)) w = inner tot w + rsum (map (fun ij => inner (f (fst ij) (snd ij)) w) l)) /\
  snd res = mom + rsum (map (fun ij => m (fst ij) (snd ij)) l).
Proof.
  induction l as [|x l IH]; intros fs tot mom; cbn.
  - repeat split; intros; try ring. rewrite app_nil_r. reflexivity.
  - destruct (IH (fs ++ [f (fst x) (snd x)])%list (vadd tot (f (fst x) (snd x))) (mom + m (fst x) (snd x)))
      as (E1 & E2 & E3). cbn in E1, E2, E3.
    repeat split.
    + rewrite E1, <- app_assoc. reflexivity.
    + intros w. rewrite E2, inner_vadd. unfold rsum. ring.
    + rewrite E3. unfold rsum. ring.
Qed.

Lemma jouk_sums p d ct omega refv rho t vel pos :
  let res := joukowsky_forces p d ct omega refv rho t vel pos in
  let f i j := j_force p d ct omega refv rho t vel pos i j in
  let m i j := jx d i * d_radius d * j_ftheta p d ct omega refv vel i (j + i * d_nt d)
                  * area_section (d_radius d) (d_nr d) (d_nt d) i in
  let usq := ref_speed_sqr refv (d_normal d) in
  r_forces res = map (fun ij => f (fst ij) (snd ij)) (grid2 (d_nr d) (d_nt d)) /\
  (forall w, inner (r_total res) w = sum2 (d_nr d) (d_nt d) (fun i j => inner (f i j) w)) /\
  r_moment res = sum2 (d_nr d) (d_nt d) m /\
  r_power res = rho * usq * r_moment res * omega (sqrt usq) /\
  r_cp res = r_power res / rmax (0.5 * PI * rho * d_radius d ^ 2 * j_uref d refv ^ 3) veps /\
  r_tsr res = j_lambda d omega refv.
Proof.
  cbn zeta. unfold joukowsky_forces. cbn zeta. rewrite loop2_grid.
  set (f := j_force p d ct omega refv rho t vel pos).
  set (m := fun i j => jx d i * d_radius d * j_ftheta p d ct omega refv vel i (j + i * d_nt d)
                  * area_section (d_radius d) (d_nr d) (d_nt d) i).
  pose proof (fold_jouk f m (grid2 (d_nr d) (d_nt d)) [] vzero 0) as (E1 & E2 & E3).
  cbn zeta in E1, E2, E3. fold (m) in E3.
  change (fold_left _ (grid2 (d_nr d) (d_nt d)) ([], vzero, 0)) with
    (fold_left (fun s ij => let '(fs, total, moment) := s in
      ((fs ++ [f (fst ij) (snd ij)])%list, vadd total (f (fst ij) (snd ij)), moment + m (fst ij) (snd ij)))
      (grid2 (d_nr d) (d_nt d)) ([], vzero, 0)).
  destruct (fold_left _ _ _) as [[fs tot] mom]. cbn [fst snd] in E1, E2, E3. cbn.
  repeat split.
  - exact E1.
  - intros w. rewrite E2, inner_vzero, Rplus_0_l, <- rsum_map_grid2. reflexivity.
  - rewrite E3, Rplus_0_l, <- rsum_map_grid2. reflexivity.
Qed.

(** ** Sums of cosines over a full turn *)
Lemma cos_sum_core n a th : 2 * sin (th / 2) * sum1 n (fun j => cos (a - INR j * th))
  = sin (a + th / 2) - sin (a + th / 2 - INR n * th).
Proof.
  induction n as [|n IH].
  - unfold sum1; cbn. replace (a + th / 2 - 0 * th) with (a + th / 2) by ring. ring.
  - rewrite sum1_S, Rmult_plus_distr_l, IH, S_INR.
    replace (a + th / 2 - INR n * th) with ((a - INR n * th) + th / 2) by ring.
    replace (a + th / 2 - (INR n + 1) * th) with ((a - INR n * th) - th / 2) by field.
    generalize (sin (a + th / 2)). intros z. cbv beta. generalize (a - INR n * th). intros y. rewrite sin_plus, sin_minus. ring.
Qed.

Lemma sin_period_Z x (k : Z) : sin (x + 2 * IZR k * PI) = sin x.
Proof.
  destruct (Z_le_gt_dec 0 k) as [H|H].
  - rewrite <- (Z2Nat.id k H), <- INR_IZR_INZ. apply sin_period.
  - rewrite <- (sin_period (x + 2 * IZR k * PI) (Z.to_nat (- k))). f_equal.
    rewrite INR_IZR_INZ, Z2Nat.id by lia. rewrite opp_IZR. ring.
Qed.
Lemma cos_period_Z x (k : Z) : cos (x + 2 * IZR k * PI) = cos x.
Proof.
  rewrite !cos_sin. rewrite <- (sin_period_Z (PI / 2 + x) k). f_equal. ring.
Qed.

Lemma cos_sum_zero n a (m : Z) : (0 < n)%nat -> (m mod Z.of_nat n <> 0)%Z ->
  sum1 n (fun j => cos (a - IZR m * (INR j * (2 * PI / INR n)))) = 0.
Proof.
  intros Hn Hm. pose proof (lt_INR _ _ Hn) as Q. cbn in Q. pose proof PI_RGT_0 as PP.
  set (th := IZR m * (2 * PI / INR n)).
  rewrite (sum1_ext _ _ (fun j => cos (a - INR j * th))).
  2: { intros j _. f_equal. unfold th. ring. }
  pose proof (cos_sum_core n a th) as E.
  replace (a + th / 2 - INR n * th) with (a + th / 2 + 2 * IZR (- m) * PI) in E
    by (rewrite opp_IZR; unfold th; field; lra).
  rewrite sin_period_Z in E.
  assert (S : sin (th / 2) <> 0).
  { intros S. apply sin_eq_0_0 in S. destruct S as [k K]. apply Hm.
    assert (IZR m = IZR k * INR n).
    { apply (Rmult_eq_reg_r PI); [|lra]. transitivity (th / 2 * INR n); [unfold th; field; lra|rewrite K; ring]. }
    rewrite INR_IZR_INZ, <- mult_IZR in H. apply eq_IZR in H. rewrite H. apply Z.mod_mul. lia. }
  apply (Rmult_eq_reg_l (2 * sin (th / 2))); [rewrite E; ring|lra].
Qed.

Lemma cos_sum_multiple n a (m : Z) : (0 < n)%nat -> (m mod Z.of_nat n = 0)%Z ->
  sum1 n (fun j => cos (a - IZR m * (INR j * (2 * PI / INR n)))) = INR n * cos a.
Proof.
  intros Hn Hm. pose proof (lt_INR _ _ Hn) as Q. cbn in Q.
  rewrite <- sum1_const. apply sum1_ext. intros j _.
  apply Z.mod_divide in Hm; [|lia]. destruct Hm as [k ->].
  rewrite <- (cos_period_Z a (- (k * Z.of_nat j))). f_equal.
  rewrite opp_IZR, !mult_IZR, <- !INR_IZR_INZ. field. lra.
Qed.

(** ** Geometry of the force points *)
Lemma quat_back n v : is_unit n -> tapp (quaternion n 90) v = turned n (- (PI / 2)) v.
Proof.
  intros U. rewrite quaternion_turned by (apply unit_not_zero, U).
  rewrite (unitv_of_unit n U). f_equal. unfold radians. field.
Qed.

Lemma turned_back n v : inner v n = 0 ->
  vneg (turned n (- (PI / 2)) v) = vcross n v.
Proof.
  intros O. unfold turned. rewrite (inner_sym n v), O. cbn zeta.
  rewrite cos_neg, sin_neg, cos_PI2, sin_PI2. unfold vneg, vcross; cbn. apply vec_eq; ring.
Qed.

Lemma vnormalize_scaled v : veps <= len v -> v = vscale (vnormalize v) (len v).
Proof.
  intros H. unfold vnormalize. cbn zeta. change (vmag v) with (len v).
  rewrite (proj2 (Rltb_false _ _) H). assert (P : 0 < len v) by (unfold veps in H; lra).
  set (l := len v) in *. clearbody l. destruct v as [a b c]. unfold vdivs, vscale; cbn.
  apply vec_eq; field; lra.
Qed.

(** Tangential direction at a point of the disk plane. *)
Lemma tangent_facts c n p : is_unit n -> along c n p = 0 ->
  let th := vneg (tangential_vector c n p) in
  inner th n = 0 /\ (veps <= axis_dist c n p ->
    triple (vsub p c) th n = axis_dist c n p /\ inner th (vsub p c) = 0 /\ is_unit th).
Proof.
  intros U A. cbn zeta. unfold tangential_vector. cbn zeta.
  assert (O : inner (vsub p c) n = 0) by exact A.
  assert (Eo : off_axis c n p = vsub p c).
  { unfold off_axis. rewrite A. unfold vsub. apply vec_eq; ring. }
  unfold axis_dist. rewrite Eo. clear Eo. set (v := vsub p c) in *. clearbody v.
  assert (On : inner (vnormalize v) n = 0).
  { unfold vnormalize. cbn zeta. destruct (Rltb _ _); [apply inner_vzero|].
    unfold inner, vdivs in *; cbn. unfold Rdiv.
    transitivity ((vx v * vx n + vy v * vy n + vz v * vz n) * / vmag v); [ring|rewrite O; ring]. }
  rewrite quat_back, turned_back by assumption.
  set (b := vnormalize v) in *. split.
  - unfold inner, vcross; cbn. ring.
  - intros L. pose proof (vnormalize_scaled v L) as E. fold b in E.
    pose proof (vnormalize_is_unit v L) as Ub. fold b in Ub. set (r := len v) in *. clearbody r b.
    subst v. unfold is_unit, inner in *. destruct n as [n1 n2 n3], b as [b1 b2 b3]. cbn in *.
    unfold triple, vcross, vscale; cbn. repeat apply conj.
    + transitivity (r * ((b1*b1+b2*b2+b3*b3) * (n1*n1+n2*n2+n3*n3) - (b1*n1+b2*n2+b3*n3)*(b1*n1+b2*n2+b3*n3)));
        [ring|]. rewrite U, Ub, On. ring.
    + ring.
    + transitivity ((b1*b1+b2*b2+b3*b3) * (n1*n1+n2*n2+n3*n3) - (b1*n1+b2*n2+b3*n3)*(b1*n1+b2*n2+b3*n3));
        [ring|]. rewrite U, Ub, On. ring.
Qed.

(** ** The circulation solves the thrust equation *)
Lemma q0_root a1 a2 a3 a4 a5 L S ct : veps <= a1 ->
  0 <= (a2 * L + a3 * S) ^ 2 + a1 * (ct / 2 - 2 * a4 * L * S - a5 * S * S) ->
  let q := j_q0 a1 a2 a3 a4 a5 L S ct in
  a1 * q ^ 2 + 2 * (a2 * L + a3 * S) * q + 2 * a4 * L * S + a5 * S * S = ct / 2.
Proof.
  intros P D. cbn zeta. unfold j_q0. cbn zeta. rewrite rmax_spec, (Rmax_left a1 veps) by exact P.
  assert (A : 0 < a1) by (unfold veps in P; lra).
  replace (0.5 * ct) with (ct / 2) by lra.
  set (k := a2 * L + a3 * S) in *. set (dd := k ^ 2 + a1 * (ct / 2 - 2 * a4 * L * S - a5 * S * S)) in *.
  pose proof (sqrt_sqrt dd D) as E. set (s := sqrt dd) in *. clearbody s.
  assert (Q : a1 * (a1 * ((s - k) / a1) ^ 2 + 2 * k * ((s - k) / a1)) = s * s - k ^ 2) by (field; lra).
  rewrite E in Q. unfold dd in Q.
  apply (Rmult_eq_reg_l a1); [|lra]. lra.
Qed.

Section Thrust.
Variables (p : jouk) (d : disk) (ct omega : R -> R) (refv : vec).
Hypothesis dr_ok : d_dr d = d_diam d / 2 / INR (d_nr d).
Hypothesis diam_ok : 0 < d_diam d.
Hypothesis nr_ok : (0 < d_nr d)%nat.
Hypothesis nt_ok : (0 < d_nt d)%nat.
Hypothesis nr_fine : INR (d_nr d) <= 2251799813685248.

Lemma dx_eq : d_dr d / d_radius d = / INR (d_nr d).
Proof.
  pose proof (lt_INR _ _ nr_ok) as Q. cbn in Q. rewrite dr_ok. unfold d_radius.
  replace 0.5 with (1 / 2) by lra. field. lra.
Qed.
Lemma jx_eq i : jx d i = (INR i + 1 / 2) / INR (d_nr d).
Proof.
  pose proof (lt_INR _ _ nr_ok) as Q. cbn in Q. unfold jx. rewrite dx_eq, rmax_spec, Rmax_left.
  - replace 0.5 with (1 / 2) by lra. reflexivity.
  - pose proof (pos_INR i). unfold veps.
    assert (I : / 2251799813685248 <= / INR (d_nr d)) by (apply Rinv_le_contravar; lra).
    assert (0 < / INR (d_nr d)) by (apply Rinv_0_lt_compat; exact Q). nra.
Qed.
Lemma jx_pos i : 0 < jx d i.
Proof.
  rewrite jx_eq. apply Rdiv_lt_0_compat; [pose proof (pos_INR i); lra|].
  apply (lt_INR 0). exact nr_ok.
Qed.
Lemma section_jx i : area_section (d_radius d) (d_nr d) (d_nt d) i
  = 2 * PI * d_radius d ^ 2 * (jx d i / INR (d_nr d)) / INR (d_nt d).
Proof.
  rewrite jx_eq. pose proof (lt_INR _ _ nr_ok) as Q. pose proof (lt_INR _ _ nt_ok) as Q'. cbn in Q, Q'.
  unfold area_section, geometry_factor. field. lra.
Qed.

Lemma thrust_identity lam S c (F g : nat -> R) :
  let a1 := j_a1 d F g in let a2 := j_a2 d F g in let a3 := j_a3 d F g in
  let a4 := j_a4 d F g in let a5 := j_a5 d F g in
  let q := j_q0 a1 a2 a3 a4 a5 lam S c in
  veps <= a1 -> 0 <= (a2 * lam + a3 * S) ^ 2 + a1 * (c / 2 - 2 * a4 * lam * S - a5 * S * S) ->
  sum1 (d_nr d) (fun i => j_fz q S lam (jx d i) (g i) (F i) * (jx d i / INR (d_nr d))) = c / 4.
Proof.
  cbn zeta. intros P D.
  pose proof (q0_root _ _ _ _ _ lam S c P D) as E. cbn zeta in E.
  set (q := j_q0 _ _ _ _ _ _ _ _) in *.
  rewrite (sum1_ext _ _ (fun i =>
     q * lam * (F i * g i * jx d i * (d_dr d / d_radius d)) +
     (S * lam * (F i * g i * jx d i ^ 3 * (d_dr d / d_radius d)) +
     (q ^ 2 / 2 * (F i ^ 2 * g i ^ 2 / jx d i * (d_dr d / d_radius d)) +
     (q * S * (F i ^ 2 * g i ^ 2 * jx d i * (d_dr d / d_radius d)) +
      S ^ 2 / 2 * (F i ^ 2 * g i ^ 2 * jx d i ^ 3 * (d_dr d / d_radius d))))))).
  - rewrite !sum1_plus, !sum1_scale.
    unfold j_a1, j_a2, j_a3, j_a4, j_a5 in E. rewrite !jsum_sum1 in E. lra.
  - intros i _. rewrite dx_eq. pose proof (jx_pos i) as J.
    pose proof (lt_INR _ _ nr_ok) as Q. cbn in Q. unfold j_fz. replace 0.5 with (1 / 2) by lra. field. lra.
Qed.
End Thrust.
