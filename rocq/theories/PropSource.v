(** C39, C52-C57: source terms. *)
From Coq Require Import Reals Lra ZArith List Bool Lia ZifyBool ZifyNat Psatz.
From Coquelicot Require Import Coquelicot.
From Verif Require Import BoxR BoxRFacts VecSpace SourceTerms.
Local Open Scope R_scope.

Lemma vec_eq a b : vx a = vx b -> vy a = vy b -> vz a = vz b -> a = b.
Proof. destruct a, b; cbn; intros; subst; reflexivity. Qed.
Lemma rmax_cases a b : (a <= b /\ rmax a b = b) \/ (b <= a /\ rmax a b = a).
Proof. unfold rmax. destruct (Rltb a b) eqn:E; [apply Rltb_spec in E|apply Rltb_false in E]; lra. Qed.
Lemma rmin_cases a b : (a <= b /\ rmin a b = a) \/ (b <= a /\ rmin a b = b).
Proof. unfold rmin. destruct (Rltb b a) eqn:E; [apply Rltb_spec in E|apply Rltb_false in E]; lra. Qed.
Lemma Rltb_case a b : (a < b /\ Rltb a b = true) \/ (b <= a /\ Rltb a b = false).
Proof. destruct (Rltb a b) eqn:E; [apply Rltb_spec in E|apply Rltb_false in E]; lra. Qed.
Lemma Rleb_case a b : (a <= b /\ Rleb a b = true) \/ (b < a /\ Rleb a b = false).
Proof. destruct (Rleb a b) eqn:E; [apply Rleb_spec in E|apply Rleb_false in E]; lra. Qed.
Lemma ceps_pos : 0 < ceps.
Proof. unfold ceps. apply Rinv_0_lt_compat. lra. Qed.
Lemma sqrt_self x : 0 <= x -> sqrt x * sqrt x = x.
Proof. apply sqrt_sqrt. Qed.

(** *** C39: Coriolis *)
Theorem c39_no_work : forall p u, vdot (coriolis p u) u = 0.
Proof.
  intros p u. unfold coriolis, vdot. cbv zeta.
  set (e := unit_of (c_east p)). set (n := unit_of (c_north p)). set (up := vcross e n).
  clearbody e n up. cbn [vx vy vz]. ring.
Qed.

Theorem c39_linear : forall p a b u w,
  coriolis p (vadd (vscale u a) (vscale w b)) = vadd (vscale (coriolis p u) a) (vscale (coriolis p w) b) /\
  coriolis p vzero = vzero.
Proof.
  intros p a b u w. unfold coriolis. cbv zeta.
  set (e := unit_of (c_east p)). set (n := unit_of (c_north p)). set (up := vcross e n).
  clearbody e n up. split; apply vec_eq; unfold vadd, vscale, vzero; cbn [vx vy vz]; ring.
Qed.

(** The planet turns with angular velocity Omega = omega (cos phi North + sin phi Up);
    the source is - 2 Omega x u. *)
Definition orthonormal (e n : vec) : Prop := vdot e e = 1 /\ vdot n n = 1 /\ vdot e n = 0.
Lemma unit_of_unit v : 0 < vdot v v -> vdot (unit_of v) (unit_of v) = 1.
Proof.
  intros H. unfold unit_of, vdot at 1. cbn [vx vy vz].
  set (s := sqrt (vdot v v)). assert (S : s * s = vdot v v) by (apply sqrt_self; lra).
  assert (s <> 0) by (intros E; rewrite E in S; lra).
  replace (vx v * (1 / s) * (vx v * (1 / s)) + vy v * (1 / s) * (vy v * (1 / s)) + vz v * (1 / s) * (vz v * (1 / s)))
    with (vdot v v / (s * s)) by (unfold vdot; field; assumption).
  rewrite S. field. lra.
Qed.
Lemma unit_of_id v : vdot v v = 1 -> unit_of v = v.
Proof.
  intros H. unfold unit_of. rewrite H, sqrt_1. apply vec_eq; cbn; field.
Qed.
Lemma unit_of_ortho v w : vdot v w = 0 -> vdot (unit_of v) (unit_of w) = 0.
Proof.
  intros H. unfold unit_of, vdot at 1. cbn [vx vy vz]. unfold vdot in H.
  replace (vx v * (1 / sqrt (vdot v v)) * (vx w * (1 / sqrt (vdot w w))) +
           vy v * (1 / sqrt (vdot v v)) * (vy w * (1 / sqrt (vdot w w))) +
           vz v * (1 / sqrt (vdot v v)) * (vz w * (1 / sqrt (vdot w w))))
    with ((vx v * vx w + vy v * vy w + vz v * vz w) * ((1 / sqrt (vdot v v)) * (1 / sqrt (vdot w w)))) by ring.
  rewrite H. ring.
Qed.

(** Completeness of an orthonormal triad built by the cross product: u x e etc. *)
Lemma cross_e e n : orthonormal e n -> vcross n (vcross e n) = e /\ vcross (vcross e n) e = n.
Proof.
  intros (E & N & O). unfold vdot in *. destruct e as [e1 e2 e3], n as [n1 n2 n3].
  unfold vcross; cbn [vx vy vz] in *. split; apply vec_eq; cbn [vx vy vz].
  - replace (n2 * (e1 * n2 - e2 * n1) - n3 * (e3 * n1 - e1 * n3))
      with (e1 * (n1 * n1 + n2 * n2 + n3 * n3) - n1 * (e1 * n1 + e2 * n2 + e3 * n3)) by ring.
    rewrite N, O. ring.
  - replace (n3 * (e2 * n3 - e3 * n2) - n1 * (e1 * n2 - e2 * n1))
      with (e2 * (n1 * n1 + n2 * n2 + n3 * n3) - n2 * (e1 * n1 + e2 * n2 + e3 * n3)) by ring.
    rewrite N, O. ring.
  - replace (n1 * (e3 * n1 - e1 * n3) - n2 * (e2 * n3 - e3 * n2))
      with (e3 * (n1 * n1 + n2 * n2 + n3 * n3) - n3 * (e1 * n1 + e2 * n2 + e3 * n3)) by ring.
    rewrite N, O. ring.
  - replace ((e3 * n1 - e1 * n3) * e3 - (e1 * n2 - e2 * n1) * e2)
      with (n1 * (e1 * e1 + e2 * e2 + e3 * e3) - e1 * (e1 * n1 + e2 * n2 + e3 * n3)) by ring.
    rewrite E, O. ring.
  - replace ((e1 * n2 - e2 * n1) * e1 - (e2 * n3 - e3 * n2) * e3)
      with (n2 * (e1 * e1 + e2 * e2 + e3 * e3) - e2 * (e1 * n1 + e2 * n2 + e3 * n3)) by ring.
    rewrite E, O. ring.
  - replace ((e2 * n3 - e3 * n2) * e2 - (e3 * n1 - e1 * n3) * e1)
      with (n3 * (e1 * e1 + e2 * e2 + e3 * e3) - e3 * (e1 * n1 + e2 * n2 + e3 * n3)) by ring.
    rewrite E, O. ring.
Qed.
Lemma triple a b u : vcross (vcross a b) u = vsub (vscale b (vdot a u)) (vscale a (vdot b u)).
Proof. apply vec_eq; unfold vcross, vsub, vscale, vdot; cbn [vx vy vz]; ring. Qed.

Theorem c39_rotation : forall p u,
  0 < vdot (c_east p) (c_east p) -> 0 < vdot (c_north p) (c_north p) ->
  vdot (c_east p) (c_north p) = 0 -> c_horizontal p = false ->
  let north := unit_of (c_north p) in
  let up := vcross (unit_of (c_east p)) north in
  let phi := radians (c_latitude p) in
  let omega := vscale (vadd (vscale north (cos phi)) (vscale up (sin phi))) (2 * PI / c_period p) in
  coriolis p u = vscale (vcross omega u) (-2).
Proof.
  intros p u He Hn Ho Hh north up phi omega.
  set (e := unit_of (c_east p)) in *.
  assert (O : orthonormal e north).
  { split; [apply unit_of_unit; exact He|split; [apply unit_of_unit; exact Hn|apply unit_of_ortho; exact Ho]]. }
  destruct (cross_e e north O) as (_ & C2). fold up in C2.
  assert (U : vcross up u = vsub (vscale north (vdot e u)) (vscale e (vdot north u))) by apply triple.
  assert (N : vcross north u = vsub (vscale e (vdot up u)) (vscale up (vdot e u))).
  { rewrite <- C2 at 1. apply triple. }
  assert (L : vcross omega u = vscale (vadd (vscale (vcross north u) (cos phi)) (vscale (vcross up u) (sin phi)))
                                 (2 * PI / c_period p)).
  { unfold omega. apply vec_eq; unfold vcross, vadd, vscale; cbn [vx vy vz]; ring. }
  rewrite L, N, U. unfold coriolis. cbv zeta. rewrite Hh. fold e north up phi. unfold cor_omega.
  clearbody e north up phi. apply vec_eq; unfold vsub, vadd, vscale, vdot; cbn [vx vy vz]; ring.
Qed.

(** Horizontal mode with axis-aligned east and north: no vertical part, rotation of the
    horizontal velocity by f = 2 omega sin phi. *)
Theorem c39_horizontal : forall lat per u,
  coriolis (CorPar lat per (V3 1 0 0) (V3 0 1 0) true) u =
  let f := 2 * (2 * PI / per) * sin (radians lat) in V3 (f * vy u) (- f * vx u) 0.
Proof.
  intros lat per u. unfold coriolis. cbv zeta. cbn [c_east c_north c_latitude c_period c_horizontal].
  rewrite !unit_of_id by (unfold vdot; cbn; ring).
  unfold cor_omega. apply vec_eq; unfold vcross; cbn [vx vy vz c_period]; ring.
Qed.
(** Southern hemisphere: the horizontal deflection changes side. *)
Theorem c39_hemisphere : forall lat per u,
  coriolis (CorPar (- lat) per (V3 1 0 0) (V3 0 1 0) true) u =
  vneg (coriolis (CorPar lat per (V3 1 0 0) (V3 0 1 0) true) u).
Proof.
  intros lat per u. rewrite !c39_horizontal. cbv zeta.
  replace (radians (- lat)) with (- radians lat) by (unfold radians; field).
  rewrite sin_neg. apply vec_eq; unfold vneg; cbn; ring.
Qed.

Example c39_case : let p := CorPar 30 default_period (V3 2 0 0) (V3 0 3 0) false in
  0 < vdot (c_east p) (c_east p) /\ 0 < vdot (c_north p) (c_north p) /\
  vdot (c_east p) (c_north p) = 0 /\ 0 < vx (coriolis p (V3 0 1 0)).
Proof.
  cbv zeta. cbn [c_east c_north]. split; [unfold vdot; cbn; lra|]. split; [unfold vdot; cbn; lra|].
  split; [unfold vdot; cbn; ring|].
  rewrite (c39_rotation _ _) by (unfold vdot; cbn; try lra; reflexivity). cbv zeta.
  assert (U1 : unit_of (V3 2 0 0) = V3 1 0 0).
  { unfold unit_of, vdot. cbn. replace (2 * 2 + 0 * 0 + 0 * 0) with (2 * 2) by ring.
    rewrite sqrt_square by lra. apply vec_eq; cbn; field. }
  assert (U2 : unit_of (V3 0 3 0) = V3 0 1 0).
  { unfold unit_of, vdot. cbn. replace (0 * 0 + 3 * 3 + 0 * 0) with (3 * 3) by ring.
    rewrite sqrt_square by lra. apply vec_eq; cbn; field. }
  cbn [c_east c_north c_latitude c_period]. rewrite U1, U2.
  unfold vcross, vscale, vadd; cbn [vx vy vz].
  replace (radians 30) with (PI / 6) by (unfold radians; field). rewrite sin_PI6.
  pose proof PI_RGT_0. unfold default_period.
  match goal with |- 0 < ?a => replace a with (2 * PI * (1000 / 86164091)) by field end.
  apply Rmult_lt_0_compat; [lra|]. apply Rdiv_lt_0_compat; lra.
Qed.

(** *** C52: balances between Coriolis and the driving terms *)
Theorem c52_geostrophic : forall lat per gu gv u,
  let p := CorPar lat per (V3 1 0 0) (V3 0 1 0) true in
  let f := 2 * (2 * PI / per) * sin (radians lat) in
  (vx u = gu -> vy u = gv -> vadd (coriolis p u) (geostrophic p gu gv 1) = vzero) /\
  vadd (coriolis p u) (geostrophic p gu gv 1) = V3 (f * (vy u - gv)) (- f * (vx u - gu)) 0.
Proof.
  intros lat per gu gv u p f.
  assert (E : vadd (coriolis p u) (geostrophic p gu gv 1) = V3 (f * (vy u - gv)) (- f * (vx u - gu)) 0).
  { unfold p. rewrite c39_horizontal. cbv zeta. unfold geostrophic, geo_factor, cor_omega. cbn [c_horizontal c_latitude c_period].
    fold f. apply vec_eq; unfold vadd; cbn [vx vy vz]; unfold f; ring. }
  split; [|exact E]. intros A B. rewrite E, A, B. apply vec_eq; cbn; ring.
Qed.
(** With the full Coriolis term the horizontal balance is the same as long as there is no
    vertical motion; only a vertical residual remains. *)
Theorem c52_geostrophic_full : forall lat per u,
  let p := CorPar lat per (V3 1 0 0) (V3 0 1 0) false in vz u = 0 ->
  vadd (coriolis p u) (geostrophic p (vx u) (vy u) 1) =
  V3 0 0 (2 * (2 * PI / per) * cos (radians lat) * vx u).
Proof.
  intros lat per u p Hz. unfold p, coriolis, geostrophic, geo_factor, cor_omega. cbv zeta.
  cbn [c_east c_north c_latitude c_period c_horizontal].
  rewrite !unit_of_id by (unfold vdot; cbn; ring).
  apply vec_eq; unfold vadd, vcross; cbn [vx vy vz]; rewrite ?Hz; ring.
Qed.
(** A table of speed and direction gives a forcing of magnitude f * speed, a quarter turn
    from the wind, which does no work on that wind. *)
Theorem c52_table : forall p spd dir w,
  let g := geostrophic_table p spd dir w in
  vmag_sqr g = (w * geo_factor p * spd) * (w * geo_factor p * spd) /\
  vdot g (V3 (spd * cos dir) (spd * sin dir) 0) = 0.
Proof.
  intros p spd dir w. cbv zeta. unfold geostrophic_table, geostrophic, vmag_sqr, vdot. cbn [vx vy vz].
  pose proof (sin2_cos2 dir) as S. unfold Rsqr in S. split; [|ring].
  destruct (c_horizontal p);
  match goal with |- ?a = ?b =>
    replace a with ((w * geo_factor p * spd) * (w * geo_factor p * spd) * (sin dir * sin dir + cos dir * cos dir)) by ring end;
  rewrite S; ring.
Qed.
(** Gradient wind: u = 0, v = V(z) is steady under Hurricane + Coriolis when both use the
    same Coriolis parameter, for any radius and decay. *)
Theorem c52_hurricane : forall lat per rad v dvdr vzh ht, rad <> 0 -> vzh <> 0 ->
  let v_z := v * (vzh - ht) / vzh in
  vadd (coriolis (CorPar lat per (V3 1 0 0) (V3 0 1 0) true) (V3 0 v_z 0))
       (hurricane (hurricane_factor lat per) rad v dvdr vzh ht 0 v_z) = vzero.
Proof.
  intros lat per rad v dvdr vzh ht Hr Hv v_z. rewrite c39_horizontal. cbv zeta.
  unfold hurricane, hurricane_factor. cbv zeta. fold v_z. clearbody v_z.
  apply vec_eq; unfold vadd, vzero; cbn [vx vy vz]; unfold Rdiv; ring.
Qed.
(** Without an explicit period the two terms use different days. *)
Theorem c52_hurricane_default_refuted : exists lat rad v dvdr vzh ht, 0 < rad /\ 0 < vzh /\
  let v_z := v * (vzh - ht) / vzh in
  vx (vadd (coriolis (CorPar lat default_period (V3 1 0 0) (V3 0 1 0) true) (V3 0 v_z 0))
       (hurricane (hurricane_factor lat hurricane_default_period) rad v dvdr vzh ht 0 v_z)) > 0.
Proof.
  exists 90, 40000, 40, 0, 18000, 0. split; [lra|]. split; [lra|]. cbv zeta. rewrite c39_horizontal. cbv zeta.
  unfold hurricane, hurricane_factor, default_period, hurricane_default_period, vadd. cbn [vx vy vz].
  replace (radians 90) with (PI / 2) by (unfold radians; field). rewrite sin_PI2.
  pose proof PI_RGT_0.
  match goal with |- ?a > 0 => replace a with (160 * PI * (1000 / 86164091 - / 86400)) by field end.
  apply Rmult_lt_0_compat; [lra|]. apply Rlt_Rminus. lra.
Qed.

(** *** C53: ramps and nudging *)
Lemma cos_range x : -1 <= cos x <= 1.
Proof. exact (COS_bound x). Qed.

(** Rayleigh layer: coefficient between 0 and 1, full in the top [dFull], none below
    [dFull + dRD], never increasing with depth, and without jumps. *)
Theorem c53_rayleigh_range : forall hi z dRD dFull, 0 <= rayleigh_coeff hi z dRD dFull <= 1 /\
  (hi - z <= dFull -> 0 <= dRD -> rayleigh_coeff hi z dRD dFull = 1) /\
  (dRD + dFull < hi - z -> rayleigh_coeff hi z dRD dFull = 0).
Proof.
  intros hi z dRD dFull. unfold rayleigh_coeff.
  destruct (Rltb_case (dRD + dFull) (hi - z)) as [(A & ->)|(A & ->)].
  - split; [lra|]. split; [intros; lra|reflexivity].
  - destruct (Rltb_case dFull (hi - z)) as [(B & ->)|(B & ->)].
    + pose proof (cos_range (PI * (hi - dFull - z) / dRD)). split; [lra|]. split; intros; lra.
    + split; [lra|]. split; [reflexivity|intros; lra].
Qed.

(** The layer as a function of the depth below the full layer. *)
Definition ray_shape (dRD t : R) : R :=
  if Rltb dRD t then 0 else if Rltb 0 t then 1/2 * cos (PI * t / dRD) + 1/2 else 1.
Lemma ray_shape_eq hi z dRD dFull : rayleigh_coeff hi z dRD dFull = ray_shape dRD (hi - dFull - z).
Proof.
  unfold rayleigh_coeff, ray_shape.
  destruct (Rltb_case (dRD + dFull) (hi - z)) as [(A & ->)|(A & ->)];
  destruct (Rltb_case dRD (hi - dFull - z)) as [(B & ->)|(B & ->)]; try lra; try reflexivity.
  destruct (Rltb_case dFull (hi - z)) as [(C & ->)|(C & ->)];
  destruct (Rltb_case 0 (hi - dFull - z)) as [(D & ->)|(D & ->)]; try lra; reflexivity.
Qed.
Theorem c53_rayleigh_monotone : forall hi z z' dRD dFull, 0 < dRD -> z <= z' ->
  rayleigh_coeff hi z dRD dFull <= rayleigh_coeff hi z' dRD dFull.
Proof.
  intros hi z z' dRD dFull Hd Hz. rewrite !ray_shape_eq. unfold ray_shape.
  set (t := hi - dFull - z). set (t' := hi - dFull - z'). assert (T : t' <= t) by (unfold t, t'; lra).
  clearbody t t'. pose proof PI_RGT_0 as P.
  destruct (Rltb_case dRD t) as [(A & ->)|(A & ->)]; destruct (Rltb_case dRD t') as [(A' & ->)|(A' & ->)]; try lra.
  - destruct (Rltb_case 0 t') as [(C & ->)|(C & ->)]; [pose proof (cos_range (PI * t' / dRD)); lra|lra].
  - destruct (Rltb_case 0 t) as [(C & ->)|(C & ->)]; destruct (Rltb_case 0 t') as [(D & ->)|(D & ->)]; try lra.
    + assert (F : forall s, 0 <= s <= dRD -> 0 <= PI * s / dRD <= PI).
      { intros s Hs. assert (E : PI * s / dRD = PI * (s * / dRD)) by (unfold Rdiv; ring). rewrite E.
        assert (0 <= s * / dRD <= 1).
        { assert (0 < / dRD) by (apply Rinv_0_lt_compat; lra). split; [apply Rmult_le_pos; lra|].
          rewrite <- (Rinv_r dRD) by lra. apply Rmult_le_compat_r; lra. }
        split; [apply Rmult_le_pos; lra|]. rewrite <- (Rmult_1_r PI) at 2. apply Rmult_le_compat_l; lra. }
      assert (cos (PI * t / dRD) <= cos (PI * t' / dRD)); [|lra].
      apply cos_decr_1; try (apply F; lra).
      unfold Rdiv. apply Rmult_le_compat_r; [left; apply Rinv_0_lt_compat; lra|]. apply Rmult_le_compat_l; lra.
    + pose proof (cos_range (PI * t / dRD)). lra.
Qed.
Theorem c53_rayleigh_no_jump : forall dRD, 0 < dRD ->
  1/2 * cos (PI * 0 / dRD) + 1/2 = 1 /\ 1/2 * cos (PI * dRD / dRD) + 1/2 = 0 /\
  (forall hi z dFull, hi - z = dRD + dFull -> rayleigh_coeff hi z dRD dFull = 0).
Proof.
  intros dRD Hd. replace (PI * 0 / dRD) with 0 by (field; lra). replace (PI * dRD / dRD) with PI by (field; lra).
  rewrite cos_0, cos_PI. split; [lra|]. split; [lra|].
  intros hi z dFull E. rewrite ray_shape_eq. unfold ray_shape.
  replace (hi - dFull - z) with dRD by lra.
  destruct (Rltb_case dRD dRD) as [(A & _)|(_ & ->)]; [lra|].
  destruct (Rltb_case 0 dRD) as [(_ & ->)|(A & _)]; [|lra].
  replace (PI * dRD / dRD) with PI by (field; lra). rewrite cos_PI. lra.
Qed.
(** Damping moves the velocity towards the reference, and for steps not longer than the time
    scale never past it. *)
Theorem c53_rayleigh_damps : forall coeff ref vel tau dt,
  0 <= coeff <= 1 -> 0 < tau -> 0 <= dt <= tau ->
  let v1 := vel + dt * rayleigh 1 coeff ref vel tau in
  Rmin vel ref <= v1 <= Rmax vel ref /\ Rabs (v1 - ref) <= Rabs (vel - ref) /\
  rayleigh 0 coeff ref vel tau = 0 /\ rayleigh 1 coeff ref ref tau = 0.
Proof.
  intros c ref vel tau dt Hc Ht Hdt v1.
  set (w := c * (dt / tau)).
  assert (W : 0 <= w <= 1).
  { assert (0 <= dt / tau <= 1).
    { assert (0 < / tau) by (apply Rinv_0_lt_compat; lra). unfold Rdiv. split; [apply Rmult_le_pos; lra|].
      rewrite <- (Rinv_r tau) by lra. apply Rmult_le_compat_r; lra. }
    unfold w. split; [apply Rmult_le_pos; lra|]. nra. }
  assert (E : v1 = vel + w * (ref - vel)) by (unfold v1, w, rayleigh; field; lra).
  rewrite E. clearbody w. split; [|split; [|split]].
  - unfold Rmin, Rmax. destruct (Rle_dec vel ref); split; nra.
  - replace (vel + w * (ref - vel) - ref) with ((1 - w) * (vel - ref)) by ring.
    rewrite Rabs_mult, (Rabs_right (1 - w)) by lra. pose proof (Rabs_pos (vel - ref)). nra.
  - unfold rayleigh. field. lra.
  - unfold rayleigh. field. lra.
Qed.

(** Forcing over water: none below the off height or near liquid, full above the ramp,
    between 0 and 1 in between, increasing with height. *)
Theorem c53_ramp : forall ph near z wlev h0 h1, 0 < h1 ->
  0 <= phase_ramp ph near z wlev h0 h1 <= 1 /\
  (ph = false -> phase_ramp ph near z wlev h0 h1 = 1) /\
  (ph = true -> near = true -> phase_ramp ph near z wlev h0 h1 = 0) /\
  (ph = true -> z - wlev < h0 -> phase_ramp ph near z wlev h0 h1 = 0) /\
  (ph = true -> z - wlev = h0 -> phase_ramp ph near z wlev h0 h1 = 0) /\
  (near = false -> h0 + h1 <= z - wlev -> phase_ramp ph near z wlev h0 h1 = 1).
Proof.
  intros ph near z wlev h0 h1 H1. unfold phase_ramp. destruct ph; [|repeat split; intros; try lra; discriminate].
  destruct (Rltb_case (z - wlev) (h0 + h1)) as [(A & ->)|(A & ->)].
  - destruct (Rltb_case (z - wlev) h0) as [(B & ->)|(B & ->)].
    + destruct near; repeat split; intros; try lra; discriminate.
    + pose proof (cos_range (PI * (z - wlev - h0) / h1)).
      destruct near; repeat split; intros; try lra; try discriminate.
      replace (PI * (z - wlev - h0) / h1) with 0 by (rewrite H2; field; lra). rewrite cos_0. lra.
  - destruct near; repeat split; intros; try lra; discriminate.
Qed.
Theorem c53_ramp_monotone : forall ph z z' wlev h0 h1, 0 < h1 -> z <= z' ->
  phase_ramp ph false z wlev h0 h1 <= phase_ramp ph false z' wlev h0 h1.
Proof.
  intros ph z z' wlev h0 h1 H1 Hz.
  destruct ph; [|unfold phase_ramp; lra].
  unfold phase_ramp. pose proof PI_RGT_0.
  set (t := z - wlev - h0). set (t' := z' - wlev - h0).
  destruct (Rltb_case (z - wlev) (h0 + h1)) as [(A & ->)|(A & ->)];
  destruct (Rltb_case (z' - wlev) (h0 + h1)) as [(A' & ->)|(A' & ->)]; try lra.
  - destruct (Rltb_case (z - wlev) h0) as [(B & ->)|(B & ->)];
    destruct (Rltb_case (z' - wlev) h0) as [(B' & ->)|(B' & ->)]; try lra.
    + pose proof (cos_range (PI * t' / h1)). lra.
    + assert (F : forall s, 0 <= s <= h1 -> 0 <= PI * s / h1 <= PI).
      { intros s Hs. assert (E : PI * s / h1 = PI * (s * / h1)) by (unfold Rdiv; ring). rewrite E.
        assert (0 <= s * / h1 <= 1).
        { assert (0 < / h1) by (apply Rinv_0_lt_compat; lra). split; [apply Rmult_le_pos; lra|].
          rewrite <- (Rinv_r h1) by lra. apply Rmult_le_compat_r; lra. }
        split; [apply Rmult_le_pos; lra|]. rewrite <- (Rmult_1_r PI) at 2. apply Rmult_le_compat_l; lra. }
      assert (cos (PI * t' / h1) <= cos (PI * t / h1)); [|lra].
      apply cos_decr_1; try (apply F; unfold t, t'; lra).
      unfold Rdiv. apply Rmult_le_compat_r; [left; apply Rinv_0_lt_compat; lra|].
      apply Rmult_le_compat_l; unfold t, t'; lra.
  - destruct (Rltb_case (z - wlev) h0) as [(B & ->)|(B & ->)]; [lra|].
    pose proof (cos_range (PI * t / h1)). lra.
Qed.

(** ABL forcing: adding it for one step brings the mean exactly to the target. *)
Theorem c53_abl : forall tu tv mu mv dt, 0 < dt ->
  let f := abl_forcing tu tv mu mv dt 1 in
  mu + dt * vx f = tu /\ mv + dt * vy f = tv /\ vz f = 0 /\
  abl_forcing tu tv tu tv dt 1 = vzero.
Proof.
  intros tu tv mu mv dt Hd f. unfold f, abl_forcing, abl_force, vzero. cbn [vx vy vz].
  split; [field; lra|]. split; [field; lra|]. split; [reflexivity|]. apply vec_eq; cbn; field; lra.
Qed.

(** Met mast: the weight is between 0 and 1, 1 at the mast, decreasing with distance, zero
    outside the cut-off, so that the forcing pulls towards the measured value. *)
Theorem c53_mast : forall terrain rad r r' ts vel ref dt, 0 <= r -> r <= r' -> 0 < ts -> 0 <= dt <= ts ->
  let w := mast_weight terrain rad r in
  0 <= w <= 1 /\ mast_weight terrain rad r' <= w /\
  Rmin vel ref <= vel + dt * mast_forcing w ts vel ref <= Rmax vel ref.
Proof.
  intros terrain rad r r' ts vel ref dt Hr Hrr Hts Hdt w.
  assert (W : 0 <= w <= 1).
  { unfold w, mast_weight. destruct (Rleb r (if terrain then rad else 100)); [|lra].
    pose proof (exp_pos (- (1/4) * r)). split; [lra|].
    destruct (Req_dec r 0) as [->|]; [replace (- (1/4) * 0) with 0 by ring; rewrite exp_0; lra|].
    assert (exp (- (1/4) * r) < exp 0) by (apply exp_increasing; lra). rewrite exp_0 in *. lra. }
  split; [exact W|]. split.
  - unfold w, mast_weight. set (cut := if terrain then rad else 100).
    destruct (Rleb_case r' cut) as [(A & ->)|(A & ->)].
    + destruct (Rleb_case r cut) as [(B & ->)|(B & ->)]; [|lra].
      destruct (Req_dec r r') as [->|]; [lra|]. left. apply exp_increasing. lra.
    + unfold w, mast_weight in W. fold cut in W. lra.
  - set (a := w * (dt / ts)).
    assert (A : 0 <= a <= 1).
    { assert (0 <= dt / ts <= 1).
      { assert (0 < / ts) by (apply Rinv_0_lt_compat; lra). unfold Rdiv. split; [apply Rmult_le_pos; lra|].
        rewrite <- (Rinv_r ts) by lra. apply Rmult_le_compat_r; lra. }
      unfold a. split; [apply Rmult_le_pos; lra|]. nra. }
    assert (E : vel + dt * mast_forcing w ts vel ref = vel + a * (ref - vel)).
    { unfold mast_forcing, a. field. lra. }
    rewrite E. clearbody a. unfold Rmin, Rmax. destruct (Rle_dec vel ref); split; nra.
Qed.
Theorem c53_mast_centre : forall terrain rad mx my mz lr vr, 0 < lr -> 0 < vr -> 0 <= rad ->
  mast_ri2 mx my mz mx my mz lr vr = 0 /\ mast_weight terrain rad (mast_ri2 mx my mz mx my mz lr vr) = 1 /\
  (forall x y z, 0 <= mast_ri2 x y z mx my mz lr vr) /\
  (forall r, rad < r -> mast_weight true rad r = 0).
Proof.
  intros terrain rad mx my mz lr vr Hl Hv Hr.
  assert (E : mast_ri2 mx my mz mx my mz lr vr = 0) by (unfold mast_ri2; field; lra).
  split; [exact E|]. split; [|split].
  - rewrite E. unfold mast_weight. rewrite (proj2 (Rleb_spec _ _)) by (destruct terrain; lra).
    rewrite Rmult_0_r. apply exp_0.
  - intros x y z. unfold mast_ri2.
    assert (D : forall a b, 0 < b -> 0 <= a * a / (b * b)).
    { intros a b Hb. apply Rmult_le_pos; [apply Rle_0_sqr|]. left. apply Rinv_0_lt_compat. nra. }
    pose proof (D (x - mx) lr Hl). pose proof (D (y - my) lr Hl). pose proof (D (z - mz) vr Hv). lra.
  - intros r Hrr. unfold mast_weight. destruct (Rleb_case r rad) as [(A & _)|(_ & ->)]; [lra|reflexivity].
Qed.
(** Without terrain the user's cut-off is ignored. *)
Theorem c53_mast_radius_refuted : exists rad r, 0 < rad /\ rad < r /\ 0 < mast_weight false rad r.
Proof.
  exists 4, 9. split; [lra|]. split; [lra|]. unfold mast_weight. rewrite (proj2 (Rleb_spec _ _)) by lra. apply exp_pos.
Qed.

(** Free-atmosphere nudging: nothing below the start of the layer, towards the profile
    above it. *)
Theorem c53_free : forall n start hi z prof v ts dt, start < hi -> 0 < ts -> 0 < dt ->
  (z <= start -> free_velocity n start hi z prof v ts dt = 0 /\ free_temperature n start hi z prof v ts dt = 0) /\
  (start < z -> (0 < n)%nat ->
    v + ts * free_temperature n start hi z prof v ts dt = prof /\
    v + dt * free_velocity n start hi z prof v ts dt = prof).
Proof.
  intros n start hi z prof v ts dt H Ht Hd. unfold free_velocity, free_temperature, free_ref.
  assert (I : 0 < / (hi - start)) by (apply Rinv_0_lt_compat; lra). split.
  - intros Hz. assert (R0 : rmax ((z - start) / (hi - start)) 0 = 0).
    { assert ((z - start) / (hi - start) <= 0) by (unfold Rdiv; nra).
      destruct (rmax_cases ((z - start) / (hi - start)) 0) as [(_ & ->)|(A & ->)]; lra. }
    rewrite R0. destruct (Rltb_case 0 0) as [(A & _)|(_ & ->)]; [lra|]. split; field; lra.
  - intros Hz Hn. assert (R0 : 0 < rmax ((z - start) / (hi - start)) 0).
    { assert (0 < (z - start) / (hi - start)) by (apply Rmult_lt_0_compat; lra).
      destruct (rmax_cases ((z - start) / (hi - start)) 0) as [(A & ->)|(A & ->)]; lra. }
    destruct (Rltb_case 0 (rmax ((z - start) / (hi - start)) 0)) as [(_ & ->)|(A & _)]; [|lra].
    replace (0 <? n)%nat with true by lia. split; field; lra.
Qed.
(** The velocity version does not use the time scale the user gave: any two give the same
    forcing, unlike for temperature. *)
Theorem c53_timescale_refuted : exists n start hi z prof v ts dt, start < hi /\ 0 < dt < ts /\
  free_velocity n start hi z prof v ts dt <> free_temperature n start hi z prof v ts dt /\
  forall ts', free_velocity n start hi z prof v ts' dt = free_velocity n start hi z prof v ts dt.
Proof.
  exists 1%nat, 0, 1, (1/2), 1, 0, 10, 1. split; [lra|]. split; [lra|]. split; [|reflexivity].
  destruct (c53_free 1 0 1 (1/2) 1 0 10 1 ltac:(lra) ltac:(lra) ltac:(lra)) as (_ & H).
  destruct (H ltac:(lra) ltac:(lia)) as (H1 & H2). intros E. rewrite E in H2. lra.
Qed.

(** Sponges of the terrain forcing: with the sign convention of the defaults (positive
    distance at the high end, negative at the low end) the coefficient is zero in the
    interior, the full strength at the boundary, monotone and quadratic in between. *)
Theorem c53_sponge_high : forall strength hi d x, 0 <= strength -> 0 < d -> x <= hi ->
  (x <= hi - d -> sponge_end 1 strength hi d x = 0) /\
  (hi - d <= x -> sponge_end 1 strength hi d x = strength * ((x - (hi - d)) / d) * ((x - (hi - d)) / d)) /\
  0 <= sponge_end 1 strength hi d x <= strength /\
  sponge_end 0 strength hi d x = 0 /\ sponge_end 1 strength hi d hi = strength /\
  sponge_end_y 1 strength hi d x = sponge_end 1 strength hi d x /\ sponge_end_y 0 strength hi d x = 0.
Proof.
  intros s hi d x Hs Hd Hx. unfold sponge_end, sponge_end_y. cbv zeta.
  replace (hi - (hi - d)) with d by ring.
  assert (I : 0 < / d) by (apply Rinv_0_lt_compat; lra).
  assert (L : (x - (hi - d)) / d <= 1).
  { unfold Rdiv. rewrite <- (Rinv_r d) by lra. apply Rmult_le_compat_r; lra. }
  assert (M : forall y, y <= hi - d -> rmax ((y - (hi - d)) / d) 0 = 0).
  { intros y Hy. assert ((y - (hi - d)) / d <= 0) by (unfold Rdiv; nra).
    destruct (rmax_cases ((y - (hi - d)) / d) 0) as [(_ & ->)|(A & ->)]; lra. }
  assert (M' : forall y, hi - d <= y -> rmax ((y - (hi - d)) / d) 0 = (y - (hi - d)) / d).
  { intros y Hy. assert (0 <= (y - (hi - d)) / d) by (apply Rmult_le_pos; lra).
    destruct (rmax_cases ((y - (hi - d)) / d) 0) as [(A & ->)|(_ & ->)]; lra. }
  split; [intros H; rewrite (M x H); ring|]. split; [intros H; rewrite (M' x H); ring|].
  split.
  { set (q := rmax ((x - (hi - d)) / d) 0). assert (0 <= q <= 1).
    { unfold q. destruct (rmax_cases ((x - (hi - d)) / d) 0) as [(A & ->)|(A & ->)]; lra. }
    clearbody q. replace (1 * s * (1 * q) * (1 * q)) with (s * (q * q)) by ring.
    assert (0 <= q * q <= 1) by nra. nra. }
  split; [ring|]. split; [|split; ring].
  match goal with |- context [rmax (?a / ?a) 0] => replace (a / a) with 1 by (field; lra) end.
  destruct (rmax_cases 1 0) as [(A & _)|(_ & ->)]; [lra|ring].
Qed.
Theorem c53_sponge_low : forall strength lo d x, 0 <= strength -> d < 0 -> lo <= x ->
  (lo - d <= x -> sponge_start 1 strength lo d x = 0) /\
  (x <= lo - d -> sponge_start 1 strength lo d x = strength * ((lo - d - x) / (- d)) * ((lo - d - x) / (- d))) /\
  0 <= sponge_start 1 strength lo d x <= strength /\
  sponge_start 0 strength lo d x = 0 /\ sponge_start 1 strength lo d lo = strength /\
  sponge_start_y 1 strength lo d x = sponge_start 1 strength lo d x /\ sponge_start_y 0 strength lo d x = 0.
Proof.
  intros s lo d x Hs Hd Hx. unfold sponge_start, sponge_start_y. cbv zeta.
  replace (lo - d - lo) with (- d) by ring.
  assert (I : 0 < / (- d)) by (apply Rinv_0_lt_compat; lra).
  assert (L : (lo - d - x) / (- d) <= 1).
  { unfold Rdiv. rewrite <- (Rinv_r (- d)) by lra. apply Rmult_le_compat_r; lra. }
  assert (M : forall y, lo - d <= y -> rmax ((lo - d - y) / (- d)) 0 = 0).
  { intros y Hy. assert ((lo - d - y) / (- d) <= 0) by (unfold Rdiv; nra).
    destruct (rmax_cases ((lo - d - y) / (- d)) 0) as [(_ & ->)|(A & ->)]; lra. }
  assert (M' : forall y, y <= lo - d -> rmax ((lo - d - y) / (- d)) 0 = (lo - d - y) / (- d)).
  { intros y Hy. assert (0 <= (lo - d - y) / (- d)) by (apply Rmult_le_pos; lra).
    destruct (rmax_cases ((lo - d - y) / (- d)) 0) as [(A & ->)|(_ & ->)]; lra. }
  split; [intros H; rewrite (M x H); ring|]. split; [intros H; rewrite (M' x H); ring|].
  split.
  { set (q := rmax ((lo - d - x) / (- d)) 0). assert (0 <= q <= 1).
    { unfold q. destruct (rmax_cases ((lo - d - x) / (- d)) 0) as [(A & ->)|(A & ->)]; lra. }
    clearbody q. replace (1 * s * (1 * q) * (1 * q)) with (s * (q * q)) by ring.
    assert (0 <= q * q <= 1) by nra. nra. }
  split; [ring|]. split; [|split; ring].
  match goal with |- context [rmax (?a / ?a) 0] => replace (a / a) with 1 by (field; lra) end.
  destruct (rmax_cases 1 0) as [(A & _)|(_ & ->)]; [lra|ring].
Qed.
(** With a positive distance on the low side (as on the high side) the sponge covers the
    whole domain and is strongest at the far end. *)
Theorem c53_sponge_sign_refuted : forall strength lo d x, 0 < strength -> 0 < d -> lo < x ->
  strength < sponge_start 1 strength lo d x.
Proof.
  intros s lo d x Hs Hd Hx. unfold sponge_start. cbv zeta.
  assert (I : 0 < / d) by (apply Rinv_0_lt_compat; lra).
  replace ((lo - d - x) / (lo - d - lo)) with ((x - lo + d) / d) by (field; lra).
  assert (G : 1 < (x - lo + d) / d).
  { unfold Rdiv. rewrite <- (Rinv_r d) at 1 by lra. apply Rmult_lt_compat_r; lra. }
  destruct (rmax_cases ((x - lo + d) / d) 0) as [(A & ->)|(A & ->)]; [lra|].
  set (q := (x - lo + d) / d) in *. clearbody q.
  replace (1 * s * (1 * q) * (1 * q)) with (s * (q * q)) by ring. assert (1 < q * q) by nra. nra.
Qed.

(** *** C54: buoyancy *)
Theorem c54_boussinesq : forall g beta t0 t,
  boussinesq g beta t0 t0 = vzero /\
  (0 < beta -> t0 < t -> 0 < vmag_sqr g -> vdot (boussinesq g beta t0 t) g < 0) /\
  (0 < beta -> t < t0 -> 0 < vmag_sqr g -> 0 < vdot (boussinesq g beta t0 t) g).
Proof.
  intros g beta t0 t. split; [apply vec_eq; cbn; ring|].
  assert (E : vdot (boussinesq g beta t0 t) g = vmag_sqr g * (beta * (t0 - t))).
  { unfold boussinesq, vdot, vmag_sqr. cbn [vx vy vz]. ring. }
  rewrite E. split; intros Hb Ht Hg.
  - assert (0 < vmag_sqr g * (beta * (t - t0))); [|nra].
    apply Rmult_lt_0_compat; [exact Hg|]. apply Rmult_lt_0_compat; lra.
  - apply Rmult_lt_0_compat; [exact Hg|]. apply Rmult_lt_0_compat; lra.
Qed.
(** Together with the mean-profile term only departures from the mean matter; the
    reference temperature drops out. *)
Theorem c54_mean : forall g beta t0 tmean t,
  vadd (boussinesq g beta t0 t) (mean_boussinesq g beta t0 tmean) = vscale g (beta * (tmean - t)) /\
  vadd (boussinesq g beta t0 tmean) (mean_boussinesq g beta t0 tmean) = vzero.
Proof.
  intros. split; apply vec_eq; unfold vadd, boussinesq, mean_boussinesq, vscale, vzero; cbn [vx vy vz]; ring.
Qed.
Theorem c54_density : forall g rho0 rho, 0 < rho -> 0 < rho0 ->
  density_buoyancy g rho0 rho0 = vzero /\
  (rho < rho0 -> 0 < vmag_sqr g -> vdot (density_buoyancy g rho0 rho) g < 0) /\
  (rho0 < rho -> 0 < vmag_sqr g -> 0 < vdot (density_buoyancy g rho0 rho) g).
Proof.
  intros g rho0 rho Hr H0. split; [apply vec_eq; unfold density_buoyancy; cbn; field; lra|].
  assert (E : vdot (density_buoyancy g rho0 rho) g = vmag_sqr g * ((rho - rho0) / rho)).
  { unfold density_buoyancy, vdot, vmag_sqr. cbn [vx vy vz]. field. lra. }
  rewrite E. assert (0 < / rho) by (apply Rinv_0_lt_compat; lra). split; intros Hl Hg.
  - assert (0 < vmag_sqr g * ((rho0 - rho) * / rho)); [|unfold Rdiv; nra].
    apply Rmult_lt_0_compat; [exact Hg|]. apply Rmult_lt_0_compat; lra.
  - apply Rmult_lt_0_compat; [exact Hg|]. apply Rmult_lt_0_compat; lra.
Qed.
(** Gravity: g by itself; with perturbational pressure, rho times the term is
    g (rho - reference), so that the weight of the reference is exactly what is removed. *)
Theorem c54_gravity : forall ir0 g rf rc rho, rho <> 0 ->
  gravity_forcing false ir0 g rf rc rho = g /\
  vscale (gravity_forcing true ir0 g rf rc rho) rho = vscale g (rho - (if ir0 then rf else rc)) /\
  gravity_forcing true false g rf rc rho = density_buoyancy g rc rho.
Proof.
  intros ir0 g rf rc rho H. unfold gravity_forcing, density_buoyancy, vscale.
  split; [apply vec_eq; cbn; ring|]. split; [|reflexivity].
  destruct ir0; apply vec_eq; cbn [negb vx vy vz]; field; exact H.
Qed.
(** A temperature profile file is used only when no file name was given. *)
Theorem c54_profile_file_refuted :
  mean_profile_source true true = FromStatistics /\ mean_profile_source true false = FromFile false /\
  forall file, mean_profile_source false file = FromStatistics.
Proof. repeat split. Qed.
(** Body force: constant, or oscillating around zero with the given amplitude, evaluated
    half way through the step. *)
Theorem c54_body : forall omega t t' f,
  body_force false omega t t' f = f /\
  (forall b, Rabs (vx (body_force b omega t t' f)) <= Rabs (vx f) /\
             Rabs (vy (body_force b omega t t' f)) <= Rabs (vy f) /\
             Rabs (vz (body_force b omega t t' f)) <= Rabs (vz f)) /\
  (omega <> 0 -> body_force true omega (t + 2 * PI / omega) (t' + 2 * PI / omega) f = body_force true omega t t' f).
Proof.
  intros omega t t' f. split; [apply vec_eq; cbn; ring|]. split.
  - intros b. unfold body_force. cbv zeta. cbn [vx vy vz].
    set (c := if b then cos (omega * (1 / 2 * (t + t'))) else 1).
    assert (Rabs c <= 1).
    { unfold c. destruct b; [|rewrite Rabs_R1; lra]. apply Rabs_le. pose proof (cos_range (omega * (1 / 2 * (t + t')))). lra. }
    rewrite !Rabs_mult. pose proof (Rabs_pos (vx f)). pose proof (Rabs_pos (vy f)). pose proof (Rabs_pos (vz f)).
    repeat split; nra.
  - intros Ho. unfold body_force. cbv zeta.
    replace (omega * (1 / 2 * (t + 2 * PI / omega + (t' + 2 * PI / omega))))
      with (omega * (1 / 2 * (t + t')) + 2 * INR 1 * PI) by (cbn [INR]; field; exact Ho).
    rewrite cos_period. reflexivity.
Qed.

(** *** C55: drag *)
Theorem c55_forest : forall drag u, 0 <= drag ->
  vdot (forest drag u) u = - (drag * vmag_sqr u * vmag u) /\ vdot (forest drag u) u <= 0 /\
  vmag_sqr (forest drag u) = drag * drag * vmag_sqr u * vmag_sqr u /\ forest 0 u = vzero.
Proof.
  intros d u Hd. unfold forest. cbv zeta.
  set (w := sqrt (vx u * vx u + vy u * vy u + vz u * vz u)).
  assert (W2 : w * w = vmag_sqr u).
  { unfold w, vmag_sqr. apply sqrt_self. pose proof (Rle_0_sqr (vx u)). pose proof (Rle_0_sqr (vy u)).
    pose proof (Rle_0_sqr (vz u)). unfold Rsqr in *. lra. }
  assert (W : vmag u = w) by reflexivity. assert (W0 : 0 <= w) by apply sqrt_pos.
  assert (E : vdot (V3 (- (d * vx u * w)) (- (d * vy u * w)) (- (d * vz u * w))) u = - (d * vmag_sqr u * vmag u)).
  { rewrite W. unfold vdot, vmag_sqr. cbn [vx vy vz]. ring. }
  split; [exact E|]. split; [|split].
  - rewrite E, W, <- W2. assert (0 <= d * (w * w) * w); [|lra].
    repeat apply Rmult_le_pos; assumption.
  - unfold vmag_sqr at 1. cbn [vx vy vz]. rewrite <- W2.
    replace (d * d * (w * w) * (w * w)) with (d * d * (vmag_sqr u) * (w * w)) by (rewrite <- W2; ring).
    unfold vmag_sqr. ring.
  - apply vec_eq; unfold vzero; cbn [vx vy vz]; ring.
Qed.

Lemma drag_cdm_bounds cd m dz : 0 <= cd -> 0 <= m -> 0 < dz ->
  0 <= drag_cdm cd m dz /\ drag_cdm cd m dz * m <= cd.
Proof.
  intros Hc Hm Hz. pose proof ceps_pos as E. unfold drag_cdm.
  assert (A : 0 <= cd / (m + ceps)) by (apply Rmult_le_pos; [lra|left; apply Rinv_0_lt_compat; lra]).
  assert (B : 0 < 1000 / drag_scale dz).
  { unfold drag_scale. destruct (Rltb dz 1); [lra|]. apply Rdiv_lt_0_compat; [lra|apply Rdiv_lt_0_compat; lra]. }
  assert (C : cd / (m + ceps) * m <= cd).
  { replace (cd / (m + ceps) * m) with (cd * (m * / (m + ceps))) by (unfold Rdiv; ring).
    assert (m * / (m + ceps) <= 1).
    { rewrite <- (Rinv_r (m + ceps)) by lra. apply Rmult_le_compat_r; [left; apply Rinv_0_lt_compat; lra|lra]. }
    nra. }
  destruct (rmin_cases (cd / (m + ceps)) (1000 / drag_scale dz)) as [(D & ->)|(D & ->)]; split; try lra.
  apply Rle_trans with (cd / (m + ceps) * m); [|exact C]. apply Rmult_le_compat_r; lra.
Qed.

(** Inside the terrain: the force opposes the velocity relative to the prescribed one and
    its rate is bounded by the drag coefficient over the cell height, for any speed. *)
Theorem c55_blanked : forall d, d_blank d = 1 -> d_drag d = 0%Z -> d_damp d = 0 ->
  0 <= d_coef d -> 0 < d_dz d ->
  let rel := vsub (d_u1 d) (d_target d) in
  exists rate, drag_forcing d = vscale rel (- rate) /\
    0 <= rate <= drag_cd (d_laminar d) (d_coef d) (d_dz d) /\ vdot (drag_forcing d) rel <= 0.
Proof.
  intros d Hb Hd Hs Hc Hz rel. unfold drag_forcing. cbv zeta. rewrite Hd, Hb, Hs. cbn [Z.eqb andb].
  set (m := sqrt (vx (d_u1 d) * vx (d_u1 d) + vy (d_u1 d) * vy (d_u1 d) + vz (d_u1 d) * vz (d_u1 d))).
  set (cd := drag_cd (d_laminar d) (d_coef d) (d_dz d)).
  assert (Hcd : 0 <= cd).
  { unfold cd, drag_cd. destruct (d_laminar d && Rltb (d_dz d) 1); [exact Hc|].
    apply Rmult_le_pos; [exact Hc|left; apply Rinv_0_lt_compat; exact Hz]. }
  assert (Hm : 0 <= m) by apply sqrt_pos.
  destruct (drag_cdm_bounds cd m (d_dz d) Hcd Hm Hz) as (K1 & K2).
  exists (drag_cdm cd m (d_dz d) * m).
  assert (E : V3 (- (drag_cdm cd m (d_dz d) * m * (vx (d_u1 d) - vx (d_target d)) * 1 + 0 * 0 + 0 * 0 +
                     0 * (vx (d_u1 d) - d_density d * vx (d_sponge d))))
                 (- (drag_cdm cd m (d_dz d) * m * (vy (d_u1 d) - vy (d_target d)) * 1 + 0 * 0 + 0 * 0 +
                     0 * (vy (d_u1 d) - d_density d * vy (d_sponge d))))
                 (- (drag_cdm cd m (d_dz d) * m * (vz (d_u1 d) - vz (d_target d)) * 1 +
                     0 * (vz (d_u1 d) - d_density d * vz (d_sponge d)))) =
              vscale rel (- (drag_cdm cd m (d_dz d) * m))).
  { apply vec_eq; unfold vscale, rel, vsub; cbn [vx vy vz]; ring. }
  rewrite E. split; [reflexivity|]. split.
  - split; [apply Rmult_le_pos; assumption|exact K2].
  - replace (vdot (vscale rel (- (drag_cdm cd m (d_dz d) * m))) rel)
      with (- (drag_cdm cd m (d_dz d) * m * vmag_sqr rel)) by (unfold vdot, vscale, vmag_sqr; cbn; ring).
    assert (0 <= drag_cdm cd m (d_dz d) * m * vmag_sqr rel); [|lra].
    apply Rmult_le_pos; [apply Rmult_le_pos; assumption|].
    unfold vmag_sqr. pose proof (Rle_0_sqr (vx rel)). pose proof (Rle_0_sqr (vy rel)). pose proof (Rle_0_sqr (vz rel)).
    unfold Rsqr in *. lra.
Qed.

(** Away from terrain: only the sponge, relaxing towards the reference profile. *)
Theorem c55_free_air : forall d, d_blank d = 0 -> d_drag d = 0%Z ->
  drag_forcing d = vscale (vsub (d_u1 d) (vscale (d_sponge d) (d_density d))) (- d_damp d).
Proof.
  intros d Hb Hd. unfold drag_forcing. cbv zeta. rewrite Hd, Hb. cbn [Z.eqb andb].
  apply vec_eq; unfold vscale, vsub; cbn [vx vy vz]; ring.
Qed.

(** First cell above the terrain.  The log law between the cell above and this one: the
    target speed is below the speed above and not negative (neutral, roughness below the
    cell centre). *)
Lemma ln_pos x : 1 < x -> 0 < ln x.
Proof. intros H. rewrite <- ln_1. apply ln_increasing; lra. Qed.
Theorem c55_log_law : forall u2 v2 z0 dz, 0 < z0 -> z0 < dz / 2 ->
  let us := drag_ustar u2 v2 z0 dz dkappa 0 in
  let ut := drag_utarget us z0 dz dkappa 0 in
  ut * ln (3/2 * dz / z0) = sqrt (u2 * u2 + v2 * v2) * ln (1/2 * dz / z0) /\
  0 <= ut <= sqrt (u2 * u2 + v2 * v2).
Proof.
  intros u2 v2 z0 dz Hz Hd us ut. set (s := sqrt (u2 * u2 + v2 * v2)). assert (S : 0 <= s) by apply sqrt_pos.
  assert (L1 : 0 < ln (1/2 * dz / z0)).
  { apply ln_pos. unfold Rdiv at 1. rewrite <- (Rinv_r z0) at 1 by lra.
    apply Rmult_lt_compat_r; [apply Rinv_0_lt_compat; lra|lra]. }
  assert (L2 : ln (1/2 * dz / z0) < ln (3/2 * dz / z0)).
  { apply ln_increasing.
    - apply Rmult_lt_0_compat; [lra|apply Rinv_0_lt_compat; lra].
    - unfold Rdiv. apply Rmult_lt_compat_r; [apply Rinv_0_lt_compat; lra|lra]. }
  set (a := ln (1/2 * dz / z0)) in *. set (b := ln (3/2 * dz / z0)) in *.
  assert (E : ut = s * (a / b)).
  { unfold ut, us, drag_utarget, drag_ustar, dkappa. fold s. fold a. fold b. field. lra. }
  rewrite E. split; [field; lra|].
  assert (0 <= a / b <= 1).
  { split; [apply Rmult_le_pos; [lra|left; apply Rinv_0_lt_compat; lra]|].
    unfold Rdiv. rewrite <- (Rinv_r b) by lra. apply Rmult_le_compat_r; [left; apply Rinv_0_lt_compat; lra|lra]. }
  split; [apply Rmult_le_pos; lra|nra].
Qed.
(** The boundary part moves the horizontal velocity to the target in one step. *)
Theorem c55_bc : forall ut c2 u2 v2 c1 dt, dt <> 0 ->
  c1 + dt * - drag_bc ut c2 u2 v2 c1 dt = ut * c2 / (ceps + sqrt (u2 * u2 + v2 * v2)).
Proof. intros. unfold drag_bc. pose proof ceps_pos. pose proof (sqrt_pos (u2 * u2 + v2 * v2)). field. lra. Qed.

(** The viscous wall stress enters with a sign that accelerates the flow along the wall:
    the power of its contribution to the source term is never negative, and positive
    whenever there is a wind. *)
Theorem c55_viscous_refuted : forall us u1 v1 dz, 0 < dz -> us <> 0 -> 0 < u1 * u1 + v1 * v1 ->
  0 < (- viscous_d us u1 u1 v1 dz) * u1 + (- viscous_d us v1 u1 v1 dz) * v1.
Proof.
  intros us u1 v1 dz Hz Hu Hs. unfold viscous_d. pose proof ceps_pos as E.
  set (q := ceps + sqrt (u1 * u1 + v1 * v1)). assert (0 < q) by (unfold q; pose proof (sqrt_pos (u1 * u1 + v1 * v1)); lra).
  clearbody q.
  match goal with |- 0 < ?a => replace a with (us * us * (u1 * u1 + v1 * v1) * / q * / dz) by (field; lra) end.
  apply Rmult_lt_0_compat; [|apply Rinv_0_lt_compat; lra]. apply Rmult_lt_0_compat; [|apply Rinv_0_lt_compat; lra].
  apply Rmult_lt_0_compat; [|lra]. assert (0 < us * us) by nra. lra.
Qed.
(** The wave form stress is along the slope, acts only on air overtaking the slope, and
    again its contribution accelerates that air. *)
Theorem c55_form : forall ex ey u1 v1, 0 < ex * ex + ey * ey ->
  (u1 * ex + v1 * ey < 0 -> form_tau ex ey u1 v1 = (0, 0)) /\
  (0 < u1 * ex + v1 * ey -> 0 <= fst (form_tau ex ey u1 v1) * u1 + snd (form_tau ex ey u1 v1) * v1) /\
  fst (form_tau ex ey u1 v1) * ey = snd (form_tau ex ey u1 v1) * ex.
Proof.
  intros ex ey u1 v1 H. unfold form_tau. cbv zeta. set (ge := sqrt (ex * ex + ey * ey)).
  assert (G : 0 < ge) by (apply sqrt_lt_R0; exact H).
  set (ur := sqrt (u1 * u1 * (ex / ge) * (ex / ge) + v1 * v1 * (ey / ge) * (ey / ge))).
  set (a := u1 * ex + v1 * ey) in *. pose proof PI_RGT_0 as P. cbn [fst snd].
  split; [|split].
  - intros Ha. rewrite Rabs_left by exact Ha. replace (a + - a) with 0 by ring.
    f_equal; unfold Rdiv; ring.
  - intros Ha. rewrite Rabs_right by lra.
    match goal with |- 0 <= ?x => replace x with (/ PI * (ur * ur) * (ge * ge) * (a * / ge)) end.
    + assert (0 <= ur * ur) by apply Rle_0_sqr.
      assert (0 <= / PI) by (left; apply Rinv_0_lt_compat; exact P).
      assert (0 <= / ge) by (left; apply Rinv_0_lt_compat; exact G).
      apply Rmult_le_pos; [|apply Rmult_le_pos; lra].
      apply Rmult_le_pos; [|apply Rmult_le_pos; lra]. apply Rmult_le_pos; assumption.
    + replace ((a + a) / (2 * a)) with 1 by (field; lra). unfold a. field. split; lra.
  - unfold Rdiv. ring.
Qed.

(** The same as an effect on the source term: switching the wave form stress on changes it
    only in cells above the surface, and there by an amount that gives power to air moving
    up the slope. *)
Theorem c55_form_refuted : forall u1 u2 wall tgt z0 dz dt pn pc ex ey damp sp rho coef,
  0 < dz -> 0 < ex * ex + ey * ey ->
  let cell sl dr := DragCell u1 u2 wall tgt 0 dr z0 dz dt pn pc sl damp sp rho false coef in
  let rel := vsub u1 wall in
  drag_forcing (cell (Some (ex, ey)) 0%Z) = drag_forcing (cell None 0%Z) /\
  let effect := vsub (drag_forcing (cell (Some (ex, ey)) 1%Z)) (drag_forcing (cell None 1%Z)) in
  vz effect = 0 /\ (0 < vdot rel (V3 ex ey 0) -> 0 <= vdot effect rel) /\
  effect = V3 (fst (form_tau ex ey (vx rel) (vy rel)) / dz) (snd (form_tau ex ey (vx rel) (vy rel)) / dz) 0.
Proof.
  intros u1 u2 wall tgt z0 dz dt pn pc ex ey damp sp rho coef Hz He cell rel.
  split; [reflexivity|]. intros effect.
  assert (E : effect = V3 (fst (form_tau ex ey (vx rel) (vy rel)) / dz) (snd (form_tau ex ey (vx rel) (vy rel)) / dz) 0).
  { unfold effect, cell, drag_forcing. cbv zeta.
    cbn [d_drag d_blank d_damp d_z0 d_dz d_dt d_u1 d_u2 d_wall d_target d_laminar d_psin d_psic d_slope d_coef d_sponge d_density negb andb Z.eqb Pos.eqb].
    apply vec_eq; unfold vsub; cbn [vx vy vz fst snd]; unfold rel, vsub; cbn [vx vy vz]; unfold Rdiv; ring. }
  rewrite E. split; [reflexivity|]. split; [|reflexivity]. intros Hp.
  destruct (c55_form ex ey (vx rel) (vy rel) He) as (_ & F & _).
  assert (Hp' : 0 < vx rel * ex + vy rel * ey) by (unfold vdot in Hp; cbn [vx vy vz] in Hp; lra).
  specialize (F Hp'). unfold vdot. cbn [vx vy vz].
  match goal with |- 0 <= ?a => replace a with
    ((fst (form_tau ex ey (vx rel) (vy rel)) * vx rel + snd (form_tau ex ey (vx rel) (vy rel)) * vy rel) * / dz)
    by (unfold Rdiv; ring) end.
  apply Rmult_le_pos; [exact F|left; apply Rinv_0_lt_compat; exact Hz].
Qed.

(** Waves: the target is taken from the velocity relative to the moving surface but
    compared with the absolute velocity, so air moving with the surface is slowed down. *)
Theorem c55_moving_wall_refuted : exists d, d_drag d = 1%Z /\ d_blank d = 0 /\ d_damp d = 0 /\
  0 < d_z0 d < d_dz d / 2 /\ 0 < d_dt d /\
  d_u1 d = d_wall d /\ d_u2 d = d_wall d /\ vx (d_u1 d) > 0 /\
  vx (d_u1 d) + d_dt d * vx (drag_forcing d) = 0.
Proof.
  exists (DragCell (V3 5 0 0) (V3 5 0 0) (V3 5 0 0) (V3 5 0 0) 0 1 (1/10) 10 1 0 0 None 0 vzero 1 false 10).
  cbn [d_drag d_blank d_damp d_z0 d_dz d_dt d_u1 d_u2 d_wall vx].
  split; [reflexivity|]. split; [reflexivity|]. split; [reflexivity|]. split; [lra|]. split; [lra|].
  split; [reflexivity|]. split; [reflexivity|]. split; [lra|].
  unfold drag_forcing. cbv zeta.
  cbn [d_drag d_blank d_damp d_z0 d_dz d_dt d_u1 d_u2 d_wall d_target d_laminar d_psin d_psic d_slope d_coef d_sponge d_density vx vy vz negb andb Z.eqb Pos.eqb fst snd].
  unfold drag_bc, viscous_d, drag_utarget, drag_ustar.
  replace (5 - 5) with 0 by ring. replace (0 - 0) with 0 by ring.
  replace (0 * 0 + 0 * 0) with 0 by ring. rewrite sqrt_0. pose proof ceps_pos.
  assert (L : 0 < ln (3 / 2 * 10 / dz0 (1 / 10))).
  { apply ln_pos. unfold dz0. destruct (rmax_cases (1/10) (1/10000)) as [(A & _)|(A & ->)]; lra. }
  unfold vzero. cbn [vx]. field. unfold dkappa. lra.
Qed.

(** Temperature: within the terrain relaxation towards the soil temperature, at a bounded
    rate; in the first cell above it the boundary value in one step. *)
Theorem c55_temperature : forall coef dz th th2 soil ws m ud pn pc kap g mol z0 dt,
  0 <= coef -> 0 < dz -> 0 <= m -> dt <> 0 ->
  (exists rate, drag_temperature coef dz th th2 soil 1 0 ws m ud pn pc kap g mol z0 dt = - rate * (th - soil) /\
     0 <= rate <= 10 / dz) /\
  drag_temperature coef dz th th2 soil 0 0 ws m ud pn pc kap g mol z0 dt = 0 /\
  drag_temperature coef dz soil th2 soil 1 0 ws m ud pn pc kap g mol z0 dt = 0.
Proof.
  intros coef dz th th2 soil ws m ud pn pc kap g mol z0 dt Hc Hz Hm Hd. unfold drag_temperature. cbv zeta.
  pose proof ceps_pos as E.
  assert (A : 0 <= coef / dz / (m + ceps)).
  { apply Rmult_le_pos; [apply Rmult_le_pos; [lra|left; apply Rinv_0_lt_compat; lra]|left; apply Rinv_0_lt_compat; lra]. }
  assert (B : 0 < 10 / dz) by (apply Rdiv_lt_0_compat; lra).
  split; [|split; ring].
  exists (rmin (coef / dz / (m + ceps)) (10 / dz)). split; [ring|].
  destruct (rmin_cases (coef / dz / (m + ceps)) (10 / dz)) as [(D & ->)|(D & ->)]; lra.
Qed.
(** Surface cell: after the step the temperature lies on the similarity profile through the
    cell above, theta2 - theta(dz/2) = theta* / kappa times the difference of the profile
    functions, whatever the roughness. *)
Theorem c55_temperature_surface : forall coef dz th th2 soil ws m ud pn pc kap g mol z0 dt,
  0 < dz -> dt <> 0 -> kap <> 0 ->
  let us := ws * kap / ud in
  let ts := th * us * us / (kap * g * mol) in
  th + dt * drag_temperature coef dz th th2 soil 0 1 ws m ud pn pc kap g mol z0 dt =
  th2 - ts / kap * (ln 3 - (pn - pc)).
Proof.
  intros coef dz th th2 soil ws m ud pn pc kap g mol z0 dt Hz Hd Hk us ts.
  unfold drag_temperature. cbv zeta. fold us. fold ts. clearbody us ts.
  assert (Z : 0 < dz0 z0) by (unfold dz0; destruct (rmax_cases z0 (1/10000)) as [(A & ->)|(A & ->)]; lra).
  set (z := dz0 z0) in *. clearbody z.
  assert (L : ln (3/2 * dz / z) = ln 3 + ln (1/2 * dz / z)).
  { rewrite <- ln_mult; [f_equal; field; lra|lra|].
    apply Rmult_lt_0_compat; [lra|apply Rinv_0_lt_compat; exact Z]. }
  rewrite L. field. split; assumption.
Qed.
Theorem c55_temperature_inputs_refuted : exists gm gh, drag_temp_gamma_h gm gh <> gh.
Proof. exists 5, 7. unfold drag_temp_gamma_h. lra. Qed.

Example c55_case : let d := DragCell (V3 3 4 0) (V3 6 8 0) vzero vzero 1 0 (1/10) 10 1 0 0 None 0 vzero 1 false 10 in
  d_blank d = 1 /\ d_drag d = 0%Z /\ d_damp d = 0 /\ 0 <= d_coef d /\ 0 < d_dz d /\
  vmag (vsub (d_u1 d) (d_target d)) = 5.
Proof.
  cbv zeta. cbn. repeat split; try lra. unfold vmag, vmag_sqr. cbn.
  replace ((3 - 0) * (3 - 0) + (4 - 0) * (4 - 0) + (0 - 0) * (0 - 0)) with (5 * 5) by ring. apply sqrt_square. lra.
Qed.

(** *** C56: terrain flags *)
Theorem c56_blank : forall lo dz h k, 0 < dz ->
  (terrain_blank lo dz h k = 1%Z <-> ((0 <= k)%Z /\ lo + (IZR k + 1/2) * dz <= h)) /\
  (terrain_blank lo dz h k = 0%Z \/ terrain_blank lo dz h k = 1%Z).
Proof.
  intros lo dz h k Hd. unfold terrain_blank, cell_z.
  assert (K : lo < lo + (IZR k + 1/2) * dz <-> (0 <= k)%Z).
  { split.
    - intros H. apply Znot_gt_le. intros G. assert (IZR k <= -1) by (apply IZR_le; lia). nra.
    - intros H. assert (0 <= IZR k) by (apply IZR_le; lia). nra. }
  destruct (Rleb_case (lo + (IZR k + 1/2) * dz) h) as [(A & ->)|(A & ->)];
  destruct (Rltb_case lo (lo + (IZR k + 1/2) * dz)) as [(B & ->)|(B & ->)]; cbn [andb].
  - split; [|right; reflexivity]. split; [intros _; split; [apply K; exact B|exact A]|reflexivity].
  - split; [|left; reflexivity]. split; [discriminate|]. intros (C & _). apply K in C. lra.
  - split; [|left; reflexivity]. split; [discriminate|]. intros (_ & C). lra.
  - split; [|left; reflexivity]. split; [discriminate|]. intros (_ & C). lra.
Qed.
(** In every column the terrain is a stack from the bottom, the drag flag marks exactly the
    first cell above it, and there is at most one. *)
Theorem c56_column : forall lo dz h, 0 < dz ->
  let b := terrain_blank lo dz h in
  (forall k k', (0 <= k' <= k)%Z -> b k = 1%Z -> b k' = 1%Z) /\
  (forall k, drag_flag b k = 1%Z <-> ((0 < k)%Z /\ b k = 0%Z /\ b (k - 1)%Z = 1%Z)) /\
  (forall k, drag_flag b k = 1%Z <->
     ((0 < k)%Z /\ lo + (IZR (k - 1) + 1/2) * dz <= h < lo + (IZR k + 1/2) * dz)) /\
  (forall k k', drag_flag b k = 1%Z -> drag_flag b k' = 1%Z -> k = k') /\
  (forall k, ~ (b k = 1%Z /\ drag_flag b k = 1%Z)).
Proof.
  intros lo dz h Hd b.
  assert (B : forall k, (b k = 1%Z <-> ((0 <= k)%Z /\ lo + (IZR k + 1/2) * dz <= h)) /\ (b k = 0%Z \/ b k = 1%Z)).
  { intros k. apply c56_blank. exact Hd. }
  assert (S : forall k k', (0 <= k' <= k)%Z -> b k = 1%Z -> b k' = 1%Z).
  { intros k k' Hk H. apply B. apply B in H. destruct H as (_ & H). split; [lia|].
    assert (IZR k' <= IZR k) by (apply IZR_le; lia). nra. }
  assert (D : forall k, drag_flag b k = 1%Z <-> ((0 < k)%Z /\ b k = 0%Z /\ b (k - 1)%Z = 1%Z)).
  { intros k. unfold drag_flag. destruct (b k =? 0)%Z eqn:E1; destruct (0 <? k)%Z eqn:E2; destruct (b (k - 1)%Z =? 1)%Z eqn:E3;
    cbn [andb]; split; try discriminate; try lia. }
  split; [exact S|]. split; [exact D|]. split; [|split].
  - intros k. rewrite D. destruct (B k) as (B1 & B2). destruct (B (k - 1)%Z) as (B3 & B4). split.
    + intros (H1 & H2 & H3). split; [exact H1|]. apply B3 in H3. split; [lra|].
      apply Rnot_le_lt. intros G. assert (b k = 1%Z) by (apply B1; split; [lia|exact G]). lia.
    + intros (H1 & H2). split; [exact H1|]. split.
      * destruct B2 as [E|E]; [exact E|]. apply B1 in E. lra.
      * apply B3. split; [lia|lra].
  - assert (L : forall k k', drag_flag b k = 1%Z -> drag_flag b k' = 1%Z -> (k' <= k)%Z).
    { intros k k' H H'. apply D in H. apply D in H'. apply Znot_gt_le. intros G.
      assert (b k = 1%Z) by (apply (S (k' - 1)%Z); [lia|apply H']). lia. }
    intros k k' H H'. pose proof (L k k' H H'). pose proof (L k' k H' H). lia.
  - intros k (H1 & H2). apply D in H2. lia.
Qed.
(** A column whose bottom cell is terrain and which is not all terrain has a drag cell. *)
Theorem c56_drag_exists : forall lo dz h, 0 < dz -> lo + (1/2) * dz <= h ->
  exists k, drag_flag (terrain_blank lo dz h) k = 1%Z.
Proof.
  intros lo dz h Hd Hh.
  set (k := up ((h - lo) / dz - 1/2)).
  destruct (archimed ((h - lo) / dz - 1/2)) as (A1 & A2). fold k in A1, A2.
  exists k. apply (proj1 (proj2 (proj2 (c56_column lo dz h Hd)))).
  assert (Q : h = lo + ((h - lo) / dz) * dz) by (field; lra).
  set (q := (h - lo) / dz) in *. clearbody q.
  assert (1/2 <= q) by nra. split; [|split].
  - apply lt_IZR. lra.
  - rewrite Q, minus_IZR. assert ((IZR k - 1 + 1/2) * dz <= q * dz) by (apply Rmult_le_compat_r; lra). lra.
  - rewrite Q. assert (q * dz < (IZR k + 1/2) * dz) by (apply Rmult_lt_compat_r; lra). lra.
Qed.
(** Waves: no flag below the domain, drag only directly above a blanked cell. *)
Theorem c56_waves : forall lo dz vf k, 0 < dz ->
  (wave_blank lo dz vf k = 1%Z <-> ((0 <= k)%Z /\ 1/2 <= vf k)) /\
  (drag_flag (wave_blank lo dz vf) k = 1%Z <-> ((0 < k)%Z /\ vf k < 1/2 /\ 1/2 <= vf (k - 1)%Z)).
Proof.
  intros lo dz vf k Hd.
  assert (W : forall k, (wave_blank lo dz vf k = 1%Z <-> ((0 <= k)%Z /\ 1/2 <= vf k)) /\
                        (wave_blank lo dz vf k = 0%Z \/ wave_blank lo dz vf k = 1%Z)).
  { clear k. intros k. unfold wave_blank, cell_z.
    assert (K : lo < lo + (IZR k + 1/2) * dz <-> (0 <= k)%Z).
    { split.
      - intros H. apply Znot_gt_le. intros G. assert (IZR k <= -1) by (apply IZR_le; lia). nra.
      - intros H. assert (0 <= IZR k) by (apply IZR_le; lia). nra. }
    destruct (Rleb_case (1/2) (vf k)) as [(A & ->)|(A & ->)];
    destruct (Rltb_case lo (lo + (IZR k + 1/2) * dz)) as [(B & ->)|(B & ->)]; cbn [andb];
    (split; [|auto]); split; try discriminate; try reflexivity.
    - intros _. split; [apply K; exact B|exact A].
    - intros (C & _). apply K in C. lra.
    - intros (_ & C). lra.
    - intros (_ & C). lra. }
  split; [apply W|]. destruct (W k) as (W1 & W2). destruct (W (k - 1)%Z) as (W3 & W4).
  unfold drag_flag. set (b := wave_blank lo dz vf) in *.
  destruct (b k =? 0)%Z eqn:E1; destruct (0 <? k)%Z eqn:E2; destruct (b (k - 1)%Z =? 1)%Z eqn:E3; cbn [andb]; split; try discriminate.
  - intros _. assert (b (k - 1)%Z = 1%Z) by lia. split; [lia|]. split; [|apply W3; assumption].
    apply Rnot_le_lt. intros G. assert (b k = 1%Z) by (apply W1; split; [lia|exact G]). lia.
  - reflexivity.
  - intros (H1 & H2 & H3). assert (b (k - 1)%Z = 1%Z) by (apply W3; split; [lia|exact H3]). lia.
  - intros (H1 & _). lia.
  - intros (H1 & _). lia.
  - intros (H1 & H2 & H3). destruct W2 as [E|E]; [lia|]. apply W1 in E. lra.
  - intros (H1 & H2 & H3). destruct W2 as [E|E]; [lia|]. apply W1 in E. lra.
  - intros (H1 & _). lia.
  - intros (H1 & _). lia.
Qed.
Example c56_case : terrain_blank 0 10 25 1 = 1%Z /\ terrain_blank 0 10 25 2 = 1%Z /\
  terrain_blank 0 10 25 3 = 0%Z /\ drag_flag (terrain_blank 0 10 25) 3 = 1%Z /\ terrain_blank 0 10 25 (-1) = 0%Z.
Proof.
  assert (B : forall k, _) by (intros k; exact (c56_blank 0 10 25 k ltac:(lra))).
  assert (N : forall k, ~ ((0 <= k)%Z /\ 0 + (IZR k + 1/2) * 10 <= 25) -> terrain_blank 0 10 25 k = 0%Z).
  { intros k H. destruct (B k) as (B1 & [E|E]); [exact E|]. apply B1 in E. contradiction. }
  assert (T1 : terrain_blank 0 10 25 1 = 1%Z) by (apply B; split; [lia|lra]).
  assert (T2 : terrain_blank 0 10 25 2 = 1%Z) by (apply B; split; [lia|lra]).
  assert (T3 : terrain_blank 0 10 25 3 = 0%Z) by (apply N; intros (_ & H); lra).
  split; [exact T1|]. split; [exact T2|]. split; [exact T3|]. split.
  - unfold drag_flag. rewrite T3. cbn [Z.sub Z.eqb]. change (3 - 1)%Z with 2%Z. rewrite T2. reflexivity.
  - apply N. intros (H & _). lia.
Qed.

(** *** C57: turbulence energy *)
(** However many wall boundaries a cell touches, the stored dissipation is the one of the
    wall coefficient (or the local one away from walls), the source contains it exactly
    once, and it is a sink. *)
Theorem c57_m84 : forall walls ce k l ds shear buoy src0, 0 <= ce -> 0 <= k -> 0 < l -> 0 < ds ->
  let '(src, dis) := m84_source walls ce k l ds shear buoy src0 in
  src = src0 + shear + buoy - dis /\ 0 <= dis /\
  dis = (match walls with O => ceps_local ce l ds | S _ => ceps_ground ce end) * sqrt k * k / l.
Proof.
  intros walls ce k l ds shear buoy src0 Hc Hk Hl Hd.
  assert (P : forall c, 0 <= c -> 0 <= m84_dissip c k l).
  { intros c Hcc. unfold m84_dissip. apply Rmult_le_pos; [|left; apply Rinv_0_lt_compat; exact Hl].
    apply Rmult_le_pos; [|exact Hk]. apply Rmult_le_pos; [exact Hcc|apply sqrt_pos]. }
  assert (CL : 0 <= ceps_local ce l ds).
  { unfold ceps_local. apply Rmult_le_pos; [unfold Rdiv; apply Rmult_le_pos; [exact Hc|lra]|].
    assert (0 <= 74 / 100 * l / ds); [|lra]. apply Rmult_le_pos; [lra|left; apply Rinv_0_lt_compat; exact Hd]. }
  assert (CG : 0 <= ceps_ground ce) by (unfold ceps_ground; apply Rmult_le_pos; lra).
  assert (W : forall w src dis, exists dis', m84_walls w ce k l src dis = (src + dis - dis', dis') /\
     dis' = (match w with O => dis | S _ => m84_dissip (ceps_ground ce) k l end)).
  { induction w as [|w IH]; intros src dis; cbn [m84_walls].
    - exists dis. split; [f_equal; ring|reflexivity].
    - destruct (IH (src + dis - m84_dissip (ceps_ground ce) k l) (m84_dissip (ceps_ground ce) k l)) as (d' & E1 & E2).
      exists d'. rewrite E1. split; [f_equal; ring|]. destruct w; exact E2. }
  unfold m84_source. cbv zeta.
  destruct (W walls (src0 + (shear + buoy - m84_dissip (ceps_local ce l ds) k l)) (m84_dissip (ceps_local ce l ds) k l))
    as (d' & E1 & E2). rewrite E1. split; [ring|]. subst d'. split; [destruct walls; apply P; assumption|].
  destruct walls; reflexivity.
Qed.
(** No energy, no dissipation; the wall coefficient is larger than the local one as long as
    the length scale does not exceed the cell size. *)
Theorem c57_m84_wall : forall ce k l ds, 0 <= ce -> 0 <= k -> 0 < l <= ds ->
  m84_dissip ce 0 l = 0 /\ m84_dissip (ceps_local ce l ds) k l <= m84_dissip (ceps_ground ce) k l /\
  ceps_local ce ds ds = ce.
Proof.
  intros ce k l ds Hc Hk Hl. split; [|split].
  - unfold m84_dissip. unfold Rdiv. ring.
  - assert (R0 : l / ds <= 1).
    { unfold Rdiv. rewrite <- (Rinv_r ds) by lra. apply Rmult_le_compat_r; [left; apply Rinv_0_lt_compat; lra|lra]. }
    assert (C : ceps_local ce l ds <= ceps_ground ce).
    { unfold ceps_local, ceps_ground. replace (74 / 100 * l / ds) with (74 / 100 * (l / ds)) by (field; lra).
      replace (39 / 10 / (93 / 100) * ce) with (ce / (93 / 100) * (39 / 10)) by field.
      apply Rmult_le_compat_l; [|lra]. unfold Rdiv. apply Rmult_le_pos; lra. }
    unfold m84_dissip. apply Rmult_le_compat_r; [left; apply Rinv_0_lt_compat; lra|].
    apply Rmult_le_compat_r; [exact Hk|]. apply Rmult_le_compat_r; [apply sqrt_pos|exact C].
  - unfold ceps_local. field. lra.
Qed.
Theorem c57_kwsst : forall shear diss buoy,
  kwsst_source true shear diss buoy = shear + diss / 2 + buoy /\
  kwsst_source false shear diss buoy = shear + diss + buoy.
Proof. intros. unfold kwsst_source. split; field. Qed.
(** One-equation RANS model: dissipation is a sink; with the sources switched off the ground
    cell goes to the surface value in one step, cells in the free atmosphere to the profile. *)
Theorem c57_axell : forall kidx cmu k l us rb shear buoy kref dt, 0 <= cmu -> 0 <= k -> 0 <= l -> 0 < dt ->
  0 <= axell_dissip cmu k l /\ axell_dissip cmu 0 l = 0 /\
  (kidx = 0%Z -> kref = k ->
     k + dt * (axell_source kidx cmu k l us rb shear buoy kref dt - (shear + buoy - axell_dissip cmu k l))
       = us * us / (cmu * cmu) + rb) /\
  (kidx <> 0%Z ->
     k + dt * (axell_source kidx cmu k l us rb shear buoy kref dt - (shear + buoy - axell_dissip cmu k l)) = kref).
Proof.
  intros kidx cmu k l us rb shear buoy kref dt Hc Hk Hl Hd. pose proof ceps_pos as E.
  split; [|split; [|split]].
  - unfold axell_dissip. apply Rmult_le_pos; [|left; apply Rinv_0_lt_compat; lra].
    apply Rmult_le_pos; [repeat apply Rmult_le_pos; exact Hc|]. apply Rmult_le_pos; [exact Hk|apply sqrt_pos].
  - unfold axell_dissip, Rdiv. ring.
  - intros -> ->. unfold axell_source, axell_surface. cbn [Z.eqb]. set (t := us * us / (cmu * cmu)). field. lra.
  - intros Hn. unfold axell_source. replace (kidx =? 0)%Z with false by lia. field. lra.
Qed.
(** Terrain version: in blanked cells the turbulent sources are dropped and the energy decays;
    in drag cells it is brought to the surface value. *)
Theorem c57_axell_terrain : forall kidx src cmu k us rb kref m dz dt, 0 <= k -> 0 <= m -> 0 < dz -> 0 < dt ->
  (kidx <> 0%Z -> kref = k ->
     axell_terrain kidx 1 0 src cmu k us rb kref m dz dt <= 0 /\
     (forall src', axell_terrain kidx 1 0 src' cmu k us rb kref m dz dt = axell_terrain kidx 1 0 src cmu k us rb kref m dz dt)) /\
  (kidx <> 0%Z -> kref = k ->
     k + dt * (axell_terrain kidx 0 1 src cmu k us rb kref m dz dt - src) = us * us / (cmu * cmu) + rb) /\
  (kidx = 0%Z -> kref = k ->
     k + dt * (axell_terrain kidx 0 0 src cmu k us rb kref m dz dt - src) = us * us / (cmu * cmu) + rb).
Proof.
  intros kidx src cmu k us rb kref m dz dt Hk Hm Hz Hd. pose proof ceps_pos as E. unfold axell_terrain. cbv zeta.
  set (cd := rmin (10 / (dz * m + ceps)) (100 / dz)).
  assert (C : 0 <= cd).
  { unfold cd. assert (0 <= dz * m) by (apply Rmult_le_pos; lra).
    assert (0 < 10 / (dz * m + ceps)) by (apply Rdiv_lt_0_compat; lra).
    assert (0 < 100 / dz) by (apply Rdiv_lt_0_compat; lra).
    destruct (rmin_cases (10 / (dz * m + ceps)) (100 / dz)) as [(A & ->)|(A & ->)]; lra. }
  clearbody cd. split; [|split].
  - intros Hn ->. replace (kidx =? 0)%Z with false by lia. split; [|intros; ring].
    replace (k - k) with 0 by ring. assert (0 <= cd * m * k) by (repeat apply Rmult_le_pos; assumption).
    replace ((1 - 1) * src + 0 * axell_surface us cmu rb k dt + 1 * (- cd * m * k) - (1 / dt * 0 - 0))
      with (- (cd * m * k)) by (field; lra). lra.
  - intros Hn ->. replace (kidx =? 0)%Z with false by lia. unfold axell_surface. set (t := us * us / (cmu * cmu)). field. lra.
  - intros -> ->. cbn [Z.eqb]. unfold axell_surface. set (t := us * us / (cmu * cmu)). field. lra.
Qed.
Example c57_case : let '(src, dis) := m84_source 2 (93/100) 4 2 2 1 (1/2) 0 in dis = 156/10 /\ src = 15/10 - 156/10.
Proof.
  pose proof (c57_m84 2 (93/100) 4 2 2 1 (1/2) 0 ltac:(lra) ltac:(lra) ltac:(lra) ltac:(lra)) as H.
  destruct (m84_source 2 (93/100) 4 2 2 1 (1/2) 0) as (src, dis). destruct H as (H1 & H2 & H3).
  assert (S : sqrt 4 = 2) by (replace 4 with (2 * 2) by ring; apply sqrt_square; lra).
  rewrite S in H3. unfold ceps_ground in H3. split; lra.
Qed.

Print Assumptions c39_no_work.
Print Assumptions c39_linear.
Print Assumptions c39_rotation.
Print Assumptions c39_horizontal.
Print Assumptions c39_hemisphere.
Print Assumptions c52_geostrophic.
Print Assumptions c52_geostrophic_full.
Print Assumptions c52_table.
Print Assumptions c52_hurricane.
Print Assumptions c52_hurricane_default_refuted.
Print Assumptions c53_rayleigh_range.
Print Assumptions c53_rayleigh_monotone.
Print Assumptions c53_rayleigh_no_jump.
Print Assumptions c53_rayleigh_damps.
Print Assumptions c53_ramp.
Print Assumptions c53_ramp_monotone.
Print Assumptions c53_abl.
Print Assumptions c53_mast.
Print Assumptions c53_mast_centre.
Print Assumptions c53_mast_radius_refuted.
Print Assumptions c53_free.
Print Assumptions c53_timescale_refuted.
Print Assumptions c53_sponge_high.
Print Assumptions c53_sponge_low.
Print Assumptions c53_sponge_sign_refuted.
Print Assumptions c54_boussinesq.
Print Assumptions c54_mean.
Print Assumptions c54_density.
Print Assumptions c54_gravity.
Print Assumptions c54_profile_file_refuted.
Print Assumptions c54_body.
Print Assumptions c55_forest.
Print Assumptions c55_blanked.
Print Assumptions c55_free_air.
Print Assumptions c55_log_law.
Print Assumptions c55_bc.
Print Assumptions c55_viscous_refuted.
Print Assumptions c55_form.
Print Assumptions c55_form_refuted.
Print Assumptions c55_moving_wall_refuted.
Print Assumptions c55_temperature.
Print Assumptions c55_temperature_surface.
Print Assumptions c55_temperature_inputs_refuted.
Print Assumptions c56_blank.
Print Assumptions c56_column.
Print Assumptions c56_drag_exists.
Print Assumptions c56_waves.
Print Assumptions c57_m84.
Print Assumptions c57_m84_wall.
Print Assumptions c57_kwsst.
Print Assumptions c57_axell.
Print Assumptions c57_axell_terrain.
