(** C90: flows in closed form. *)
From Coq Require Import Reals ZArith List Bool Lra Lia.
From Coquelicot Require Import Coquelicot.
From Verif Require Import BoxR BoxRFacts VecSpace SourceTerms Turbulence TurbProofs MultiPhase PropMultiPhase ExactFlow ExactFlowSpec.
Import ListNotations.
Local Open Scope R_scope.

Ltac der := match goal with |- is_derive _ _ _ => auto_derive; [repeat split; auto|] end.

(** ** Convecting vortex *)

Lemma cs1 : forall x, sin x * sin x + cos x * cos x = 1.
Proof. intros x. pose proof (sin2_cos2 x). unfold Rsqr in *. lra. Qed.

Section ctv.
Variables u0 v0 om : R.
Let X x t := PI * (x - u0 * t).
Let Y y t := PI * (y - v0 * t).
Let E t := exp (- 2 * om * t).
Let c_ut x y t := - PI * u0 * sin (X x t) * sin (Y y t) * E t + PI * v0 * cos (X x t) * cos (Y y t) * E t + 2 * om * cos (X x t) * sin (Y y t) * E t.
Let c_ux x y t := PI * sin (X x t) * sin (Y y t) * E t.
Let c_uy x y t := - PI * cos (X x t) * cos (Y y t) * E t.
Let c_u2 x y t := PI * PI * cos (X x t) * sin (Y y t) * E t.
Let c_vt x y t := - PI * u0 * cos (X x t) * cos (Y y t) * E t + PI * v0 * sin (X x t) * sin (Y y t) * E t - 2 * om * sin (X x t) * cos (Y y t) * E t.
Let c_vx x y t := PI * cos (X x t) * cos (Y y t) * E t.
Let c_vy x y t := - PI * sin (X x t) * sin (Y y t) * E t.
Let c_v2 x y t := - PI * PI * sin (X x t) * cos (Y y t) * E t.

Lemma ctv_du : derivatives (ctv_u u0 v0 om) c_ut c_ux c_uy c_u2 c_u2.
Proof.
  intros x y t. unfold ctv_u, c_ut, c_ux, c_uy, c_u2, X, Y, E.
  split; [|split; [|split; [|split]]]; (der; unfold Rminus; ring).
Qed.
Lemma ctv_dv : derivatives (ctv_v u0 v0 om) c_vt c_vx c_vy c_v2 c_v2.
Proof.
  intros x y t. unfold ctv_v, c_vt, c_vx, c_vy, c_v2, X, Y, E.
  split; [|split; [|split; [|split]]]; (der; unfold Rminus; ring).
Qed.
Lemma ctv_residual : forall nu x y t, om = ctv_omega nu ->
  c_ux x y t + c_vy x y t = 0 /\
  c_ut x y t + ctv_u u0 v0 om x y t * c_ux x y t + ctv_v u0 v0 om x y t * c_uy x y t = - ctv_gpx u0 om x t + nu * (c_u2 x y t + c_u2 x y t) /\
  c_vt x y t + ctv_u u0 v0 om x y t * c_vx x y t + ctv_v u0 v0 om x y t * c_vy x y t = - ctv_gpy v0 om y t + nu * (c_v2 x y t + c_v2 x y t).
Proof.
  intros nu x y t O. unfold ctv_gpx, ctv_gpy, ctv_u, ctv_v, c_ut, c_ux, c_uy, c_u2, c_vt, c_vx, c_vy, c_v2.
  replace (2 * PI * (x - u0 * t)) with (2 * X x t) by (unfold X; ring).
  replace (2 * PI * (y - v0 * t)) with (2 * Y y t) by (unfold Y; ring).
  replace (exp (- 4 * om * t)) with (E t * E t) by (unfold E; rewrite <- exp_plus; f_equal; ring).
  fold (X x t) (Y y t) (E t). rewrite !sin_2a.
  pose proof (cs1 (X x t)) as CX. pose proof (cs1 (Y y t)) as CY.
  set (sx := sin (X x t)) in *. set (cx := cos (X x t)) in *. set (sy := sin (Y y t)) in *. set (cy := cos (Y y t)) in *. set (e := E t).
  clearbody sx cx sy cy e. unfold ctv_omega in O. split; [ring|]. split.
  - replace (- PI * u0 * sx * sy * e + PI * v0 * cx * cy * e + 2 * om * cx * sy * e + (u0 - cx * sy * e) * (PI * sx * sy * e) + (v0 + sx * cy * e) * (- PI * cx * cy * e))
      with (2 * om * cx * sy * e - PI * sx * cx * e * e * (sy * sy + cy * cy)) by ring. rewrite CY, O. field.
  - replace (- PI * u0 * cx * cy * e + PI * v0 * sx * sy * e - 2 * om * sx * cy * e + (u0 - cx * sy * e) * (PI * cx * cy * e) + (v0 + sx * cy * e) * (- PI * sx * sy * e))
      with (- 2 * om * sx * cy * e - PI * sy * cy * e * e * (sx * sx + cx * cx)) by ring. rewrite CX, O. field.
Qed.
End ctv.

(** The convecting vortex is a flow: at every place and time it conserves mass and momentum at
    density one, with the pressure gradients it is compared with; these are the gradient of a pressure that
    starts as the one set, and what is set at the start is the flow at time zero. *)
Theorem c90_vortex : forall u0 v0 nu, let om := ctv_omega nu in
  solves 1 nu (ctv_u u0 v0 om) (ctv_v u0 v0 om) (fun x _ t => ctv_gpx u0 om x t) (fun _ y t => ctv_gpy v0 om y t) (fun _ _ _ => 0) (fun _ _ _ => 0) /\
  exists p, gradient_of p (fun x _ t => ctv_gpx u0 om x t) (fun _ y t => ctv_gpy v0 om y t) /\
    (forall x y, p x y 0 = ctv_p x y) /\ (forall x y t, p x y t = ctv_p (x - u0 * t) (y - v0 * t) * exp (- 4 * om * t)).
Proof.
  intros u0 v0 nu om. split.
  - do 10 eexists. split; [apply ctv_du|]. split; [apply ctv_dv|]. intros x y t. rewrite !Rmult_1_l.
    destruct (ctv_residual u0 v0 om nu x y t eq_refl) as [D [U V]]. split; [exact D|]. rewrite U, V. split; ring.
  - exists (fun x y t => ctv_p (x - u0 * t) (y - v0 * t) * exp (- 4 * om * t)). split; [|split; [|reflexivity]].
    + intros x y t. unfold ctv_p, ctv_gpx, ctv_gpy. split; (der; unfold Rminus; field).
    + intros x y. rewrite !Rmult_0_r, !Rminus_0_r, exp_0. ring.
Qed.
Example c90_vortex_moves : ctv_u 1 1 (ctv_omega 1) 0 (/ 2) 0 = 0 /\ ctv_u 1 1 (ctv_omega 1) 0 0 0 = 1.
Proof.
  unfold ctv_u. rewrite !Rmult_0_r, !Rminus_0_r, exp_0, Rmult_0_r, cos_0, sin_0. replace (PI * / 2) with (PI / 2) by field. rewrite sin_PI2. split; ring.
Qed.

(** With any other density it is not: the viscosity of the input is divided by the density in the solver and not in the
    vortex, so the vortex decays at another rate. *)
Theorem c90_vortex_density_refuted : forall u0 v0 nu rho, nu <> 0 -> rho <> 1 -> let om := ctv_omega nu in
  ~ solves rho nu (ctv_u u0 v0 om) (ctv_v u0 v0 om) (fun x _ t => ctv_gpx u0 om x t) (fun _ y t => ctv_gpy v0 om y t) (fun _ _ _ => 0) (fun _ _ _ => 0).
Proof.
  intros u0 v0 nu rho N R1 om [ut [ux [uy [uxx [uyy [vt [vx [vy [vxx [vyy [DU [DV H]]]]]]]]]]]].
  pose proof (ctv_du u0 v0 om) as EU. cbv zeta in EU.
  destruct (ctv_residual u0 v0 om nu 0 (/ 2) 0 eq_refl) as [_ [U _]].
  destruct (H 0 (/ 2) 0) as [_ [HU _]].
  destruct (DU 0 (/ 2) 0) as [a1 [a2 [a3 [a4 a5]]]]. destruct (EU 0 (/ 2) 0) as [b1 [b2 [b3 [b4 b5]]]].
  apply is_derive_unique in a1, a2, a3, b1, b2, b3. rewrite b1 in a1. rewrite b2 in a2. rewrite b3 in a3.
  assert (EX : forall s, Derive (fun r => ux r (/ 2) 0) s = Derive (fun r => PI * sin (PI * (r - u0 * 0)) * sin (PI * (/ 2 - v0 * 0)) * exp (- 2 * om * 0)) s).
  { intros s. apply Derive_ext. intros r. destruct (DU r (/ 2) 0) as [_ [q _]]. destruct (EU r (/ 2) 0) as [_ [q' _]].
    apply is_derive_unique in q, q'. rewrite <- q. exact q'. }
  assert (EY : forall s, Derive (fun r => uy 0 r 0) s = Derive (fun r => - PI * cos (PI * (0 - u0 * 0)) * cos (PI * (r - v0 * 0)) * exp (- 2 * om * 0)) s).
  { intros s. apply Derive_ext. intros r. destruct (DU 0 r 0) as [_ [_ [q _]]]. destruct (EU 0 r 0) as [_ [_ [q' _]]].
    apply is_derive_unique in q, q'. rewrite <- q. exact q'. }
  apply is_derive_unique in a4, a5, b4, b5. pose proof (eq_trans (eq_trans (eq_sym a4) (EX 0)) b4) as A4. pose proof (eq_trans (eq_trans (eq_sym a5) (EY (/ 2))) b5) as A5.
  rewrite <- a1, <- a2, <- a3, A4, A5, U in HU.
  revert HU. unfold ctv_gpx. rewrite !Rmult_0_r, !Rminus_0_r, exp_0, !Rmult_0_r, cos_0, sin_0. replace (PI * / 2) with (PI / 2) by field. rewrite sin_PI2.
  intros HU. assert (Z : (rho - 1) * (nu * (PI * PI)) = 0) by lra.
  apply Rmult_integral in Z. destruct Z as [Z|Z]; [lra|]. apply Rmult_integral in Z. destruct Z as [Z|Z]; [contradiction|].
  pose proof PI_RGT_0. nra.
Qed.

(** ** Ekman spiral *)

Definition north_pole (period : R) (horizontal : bool) : corpar := CorPar 90 period (V3 1 0 0) (V3 0 1 0) horizontal.
Lemma pole : forall period h, sin (radians (c_latitude (north_pole period h))) = 1 /\ cos (radians (c_latitude (north_pole period h))) = 0.
Proof. intros p h. cbn [c_latitude north_pole]. unfold radians. replace (_ * 90 / 180) with (PI / 2) by field. split; [apply sin_PI2|apply cos_PI2]. Qed.
Lemma pole_coriolis : forall period h u v, coriolis (north_pole period h) (V3 u v 0) = V3 (ek_factor period * v) (- ek_factor period * u) 0.
Proof.
  intros p h u v. unfold coriolis. destruct (pole p h) as [-> ->]. unfold unit_of, vdot, vcross, north_pole, cor_omega, ek_factor. cbn.
  replace (1 * 1 + 0 * 0 + 0 * 0) with 1 by ring. replace (0 * 0 + 1 * 1 + 0 * 0) with 1 by ring. rewrite sqrt_1. destruct h; unfold Rdiv; rewrite Rinv_1; f_equal; ring.
Qed.
Lemma ek_a_sq : forall visc period, 0 < visc -> 0 < period -> visc * (2 * (ek_a visc period * ek_a visc period)) = ek_factor period /\ 0 < ek_a visc period.
Proof.
  intros m p M P. unfold ek_a, ek_depth. assert (F : 0 < ek_factor p). { unfold ek_factor. apply Rdiv_lt_0_compat; [pose proof PI_RGT_0; lra|exact P]. }
  assert (Q : 0 < 2 * m / ek_factor p) by (apply Rdiv_lt_0_compat; lra). pose proof (sqrt_lt_R0 _ Q). pose proof (sqrt_sqrt _ (Rlt_le _ _ Q)) as S.
  set (d := sqrt (2 * m / ek_factor p)) in *. split; [|apply Rdiv_lt_0_compat; lra].
  replace (m * (2 * (1 / d * (1 / d)))) with (2 * m / (d * d)) by (field; lra). rewrite S. field. lra.
Qed.
Definition ek_u1 (v0 a z : R) : R := v0 * a * exp (- a * z) * (cos (- a * z) - sin (- a * z)).
Definition ek_v1 (v0 a z : R) : R := v0 * a * exp (- a * z) * (sin (- a * z) + cos (- a * z)).
Definition ek_u2 (v0 a z : R) : R := 2 * (a * a) * v0 * exp (- a * z) * sin (- a * z).
Definition ek_v2 (v0 a z : R) : R := - 2 * (a * a) * v0 * exp (- a * z) * cos (- a * z).
Lemma ek_twice_u : forall v0 a, twice (ek_u v0 a) (ek_u1 v0 a) (ek_u2 v0 a).
Proof. intros v0 a z. unfold ek_u, ek_u1, ek_u2. split; (der; unfold Rminus; ring). Qed.
Lemma ek_twice_v : forall v0 a, twice (ek_v v0 a) (ek_v1 v0 a) (ek_v2 v0 a).
Proof. intros v0 a z. unfold ek_v, ek_v1, ek_v2. split; (der; unfold Rminus; ring). Qed.

(** The spiral is the steady flow over a wall at height zero under the Coriolis and geostrophic forces of the solver, at
    density one: at every height the two forces and the viscous stress balance, the air rests at the wall
    and takes up the geostrophic wind with height, closer than any distance. *)
Theorem c90_spiral : forall v0 visc period h, 0 < visc -> 0 < period -> let a := ek_a visc period in
  exists u1 u2 v1 v2, twice (ek_u v0 a) u1 u2 /\ twice (ek_v v0 a) v1 v2 /\
  (forall z, let c := coriolis (north_pole period h) (V3 (ek_u v0 a z) (ek_v v0 a z) 0) in
     let g := geostrophic (north_pole period h) v0 0 1 in
     vx c + vx g + visc * u2 z = 0 /\ vy c + vy g + visc * v2 z = 0 /\ vz c + vz g = 0) /\
  ek_u v0 a 0 = 0 /\ ek_v v0 a 0 = 0 /\
  (forall eps, 0 < eps -> exists top, forall z, top <= z -> Rabs (ek_u v0 a z - v0) <= eps /\ Rabs (ek_v v0 a z) <= eps).
Proof.
  intros v0 m p h M P a. destruct (ek_a_sq m p M P) as [F A]. fold a in F, A.
  exists (ek_u1 v0 a), (ek_u2 v0 a), (ek_v1 v0 a), (ek_v2 v0 a). split; [apply ek_twice_u|]. split; [apply ek_twice_v|]. split.
  { intros z. cbv zeta. rewrite pole_coriolis. unfold geostrophic, geo_factor. destruct (pole p h) as [-> _].
    replace (2 * cor_omega (north_pole p h) * 1) with (ek_factor p) by (unfold cor_omega, ek_factor; cbn; unfold Rdiv; ring).
    rewrite <- F. cbn [vx vy vz]. unfold ek_u, ek_v, ek_u2, ek_v2. split; [ring|]. split; [ring|]. ring. }
  split. { unfold ek_u. rewrite Rmult_0_r, exp_0, cos_0. ring. }
  split. { unfold ek_v. rewrite Rmult_0_r, sin_0. ring. }
  intros eps E. exists (Rabs v0 / (eps * a)). intros z Z.
  assert (B : Rabs v0 * exp (- a * z) <= eps).
  { assert (Z0 : 0 <= Rabs v0 / (eps * a)) by (apply Rmult_le_pos; [apply Rabs_pos|apply Rlt_le, Rinv_0_lt_compat, Rmult_lt_0_compat; lra]).
    assert (V : Rabs v0 <= eps * (a * z)).
    { replace (Rabs v0) with (Rabs v0 / (eps * a) * (eps * a)) by (field; lra). replace (eps * (a * z)) with (z * (eps * a)) by ring. apply Rmult_le_compat_r; [apply Rlt_le, Rmult_lt_0_compat; lra|exact Z]. }
    replace (- a * z) with (- (a * z)) by ring. rewrite exp_Ropp. pose proof (exp_pos (a * z)) as EP.
    apply Rmult_le_reg_r with (exp (a * z)); [exact EP|]. replace (Rabs v0 * / exp (a * z) * exp (a * z)) with (Rabs v0) by (field; lra).
    assert (X : 1 + a * z <= exp (a * z)). { destruct (Req_dec (a * z) 0) as [e|e]; [rewrite e, exp_0; lra|apply Rlt_le, exp_ineq1; exact e]. }
    apply Rle_trans with (eps * (a * z)); [exact V|]. apply Rmult_le_compat_l; lra. }
  pose proof (exp_pos (- a * z)) as EP.
  split.
  - unfold ek_u. replace (v0 * (1 - exp (- a * z) * cos (- a * z)) - v0) with (v0 * (- (exp (- a * z)) * cos (- a * z))) by ring.
    rewrite !Rabs_mult, Rabs_Ropp, (Rabs_pos_eq (exp _)) by lra. apply Rle_trans with (Rabs v0 * exp (- a * z)); [|exact B].
    rewrite <- Rmult_assoc. rewrite <- (Rmult_1_r (Rabs v0 * exp _)) at 2. apply Rmult_le_compat_l; [apply Rmult_le_pos; [apply Rabs_pos|lra]|]. apply Rabs_le. destruct (COS_bound (- a * z)). lra.
  - unfold ek_v. rewrite !Rabs_mult, Rabs_Ropp, (Rabs_pos_eq (exp _)) by lra. apply Rle_trans with (Rabs v0 * exp (- a * z)); [|exact B].
    rewrite <- (Rmult_1_r (Rabs v0 * exp _)) at 2. apply Rmult_le_compat_l; [apply Rmult_le_pos; [apply Rabs_pos|lra]|]. apply Rabs_le. destruct (SIN_bound (- a * z)). lra.
Qed.
(** Heights are measured from zero and not from the floor of the domain: over a floor above zero the air is set in motion at
    the wall. *)
Theorem c90_spiral_floor_refuted : forall v0 visc period floor, 0 < visc -> 0 < period -> 0 < floor -> v0 <> 0 ->
  ek_u v0 (ek_a visc period) floor <> 0.
Proof.
  intros v0 m p z M P Z V. destruct (ek_a_sq m p M P) as [_ A]. set (a := ek_a m p) in *. unfold ek_u. intros H.
  apply Rmult_integral in H. destruct H as [H|H]; [contradiction|].
  assert (exp (- a * z) < 1). { rewrite <- exp_0. apply exp_increasing. replace (- a * z) with (- (a * z)) by ring. pose proof (Rmult_lt_0_compat _ _ A Z). lra. }
  pose proof (exp_pos (- a * z)). destruct (COS_bound (- a * z)).
  assert (exp (- a * z) * cos (- a * z) <= exp (- a * z) * 1) by (apply Rmult_le_compat_l; lra). lra.
Qed.
(** With another density the forces do not balance: the stress that the solver divides by the density is too small or too large. *)
Theorem c90_spiral_density_refuted : forall v0 visc period h rho, 0 < visc -> 0 < period -> v0 <> 0 -> rho <> 1 -> rho <> 0 ->
  let a := ek_a visc period in
  forall v1 v2, twice (ek_v v0 a) v1 v2 ->
  vy (coriolis (north_pole period h) (V3 (ek_u v0 a 0) (ek_v v0 a 0) 0)) + vy (geostrophic (north_pole period h) v0 0 1) + visc / rho * v2 0 <> 0.
Proof.
  intros v0 m p h rho M P V R1 R0 a v1 v2 T. destruct (ek_a_sq m p M P) as [F A]. fold a in F, A.
  assert (E : v2 0 = ek_v2 v0 a 0).
  { destruct (T 0) as [_ d]. destruct (ek_twice_v v0 a 0) as [_ d']. apply is_derive_unique in d, d'.
    assert (X : Derive v1 0 = Derive (ek_v1 v0 a) 0).
    { apply Derive_ext. intros z. destruct (T z) as [q _]. destruct (ek_twice_v v0 a z) as [q' _]. apply is_derive_unique in q, q'. rewrite <- q. exact q'. }
    exact (eq_trans (eq_trans (eq_sym d) X) d'). }
  rewrite E, pole_coriolis. unfold geostrophic, geo_factor. destruct (pole p h) as [-> _].
  replace (2 * cor_omega (north_pole p h) * 1) with (ek_factor p) by (unfold cor_omega, ek_factor; cbn; unfold Rdiv; ring).
  cbn [vy]. unfold ek_u, ek_v2. rewrite !Rmult_0_r, exp_0, cos_0. rewrite <- F. intros H.
  assert (Z : v0 * (m * (a * a)) * (1 - 1 / rho) = 0). { unfold Rdiv in *. lra. }
  assert (0 < m * (a * a)) by (apply Rmult_lt_0_compat; [lra|apply Rmult_lt_0_compat; lra]).
  apply Rmult_integral in Z. destruct Z as [Z|Z].
  - apply Rmult_integral in Z. destruct Z; [contradiction|lra].
  - apply R1. apply (f_equal (Rmult rho)) in Z. replace (rho * (1 - 1 / rho)) with (rho - 1) in Z by (field; exact R0). lra.
Qed.

(** ** Flow in a box under a lid *)

(** The flow under the lid is steady: with the force of the physics it conserves mass and momentum for some pressure, rests at
    the three other walls of the unit square, and moves with the lid at the fourth. *)
Theorem c90_lid : forall nu, nu <> 0 ->
  (exists p gx gy, gradient_of p gx gy /\
    solves 1 nu (fun x y _ => bg_u x y) (fun x y _ => bg_v x y) gx gy (fun _ _ _ => 0) (fun x y _ => bg_src nu x y)) /\
  (forall s, bg_u 0 s = 0 /\ bg_v 0 s = 0 /\ bg_u 1 s = 0 /\ bg_v 1 s = 0 /\ bg_u s 0 = 0 /\ bg_v s 0 = 0 /\
     bg_u s 1 = lid s 0 /\ bg_v s 1 = lid s 1 /\ 0 = lid s 2).
Proof.
  intros nu N. split; [|intros s; unfold bg_u, bg_v, lid; repeat split; ring].
  pose (f x := x ^ 4 - 2 * x ^ 3 + x ^ 2). pose (f1 x := 4 * x ^ 3 - 6 * x ^ 2 + 2 * x). pose (f2 x := 12 * x ^ 2 - 12 * x + 2). pose (f3 x := 24 * x - 12).
  pose (g y := y ^ 4 - y ^ 2). pose (g1 y := 4 * y ^ 3 - 2 * y). pose (g2 y := 12 * y ^ 2 - 2). pose (g3 y := 24 * y).
  pose (F x := x ^ 5 / 5 - x ^ 4 / 2 + x ^ 3 / 3).
  exists (fun x y _ => 8 * nu * (F x * g3 y + f1 x * g1 y) + 32 * (f x * f x) * (g y * g2 y - g1 y * g1 y)).
  exists (fun x y _ => 8 * nu * (f x * g3 y + f2 x * g1 y) + 64 * (f x * f1 x) * (g y * g2 y - g1 y * g1 y)).
  exists (fun x y _ => 8 * nu * (F x * 24 + f1 x * g2 y) + 32 * (f x * f x) * (g y * g3 y - g1 y * g2 y)).
  split.
  - intros x y t. unfold F, f, f1, f2, g, g1, g2, g3. split; (der; field).
  - exists (fun _ _ _ => 0), (fun x y _ => 8 * f1 x * g1 y), (fun x y _ => 8 * f x * g2 y), (fun x y _ => 8 * f2 x * g1 y), (fun x y _ => 8 * f x * g3 y).
    exists (fun _ _ _ => 0), (fun x y _ => - 8 * f2 x * g y), (fun x y _ => - 8 * f1 x * g1 y), (fun x y _ => - 8 * f3 x * g y), (fun x y _ => - 8 * f1 x * g2 y).
    split; [|split].
    + intros x y t. unfold bg_u, f, f1, f2, g1, g2, g3. split; [|split; [|split; [|split]]]; (der; ring).
    + intros x y t. unfold bg_v, f1, f2, f3, g, g1, g2. split; [|split; [|split; [|split]]]; (der; ring).
    + intros x y t. unfold bg_u, bg_v, bg_src, F, f, f1, f2, f3, g, g1, g2, g3. split; [ring|]. split; [field|field; exact N].
Qed.
(** The force is there in every cell as long as the mesh is the one of the start; *)
Theorem c90_lid_force : forall nu x y n, bg_cell nu x y (Scratch :: repeat Step n) = Some (bg_src nu x y).
Proof. intros nu x y n. unfold bg_cell. cbn [fold_left bg_after]. induction n; [reflexivity|exact IHn]. Qed.
(** once a level was made again, or after a restart, it is whatever the memory held, however many steps follow. *)
Theorem c90_lid_force_refuted : forall nu x y before e n, e = Regrid \/ e = Restarted ->
  bg_cell nu x y (before ++ e :: repeat Step n) = None.
Proof.
  intros nu x y b e n E. unfold bg_cell. rewrite fold_left_app. cbn [fold_left].
  assert (H : bg_after nu x y (fold_left (bg_after nu x y) b None) e = None) by (destruct E as [-> | ->]; reflexivity). rewrite H. clear. induction n; [reflexivity|exact IHn].
Qed.

(** ** Starting vortices *)

(** The vortices of Taylor and Green start without divergence in a domain as long as it is wide; *)
Theorem c90_taylor_green : forall l lz x y z, l <> 0 -> lz <> 0 ->
  divergence_at (tg_u l l lz) (tg_v l l lz) (fun _ _ _ => 0) x y z 0 /\
  (tg_u l l lz (x + l) y z = tg_u l l lz x y z /\ tg_u l l lz x (y + l) z = tg_u l l lz x y z /\ tg_u l l lz x y (z + lz) = tg_u l l lz x y z) /\
  (tg_v l l lz (x + l) y z = tg_v l l lz x y z /\ tg_v l l lz x (y + l) z = tg_v l l lz x y z /\ tg_v l l lz x y (z + lz) = tg_v l l lz x y z).
Proof.
  intros l lz x y z L LZ. split.
  - exists (2 * PI / l * cos (2 * PI * x / l) * cos (2 * PI * y / l) * cos (2 * PI * z / lz)), (- (2 * PI / l) * cos (2 * PI * x / l) * cos (2 * PI * y / l) * cos (2 * PI * z / lz)), 0.
    unfold tg_u, tg_v. split; [der; unfold Rdiv; ring|]. split; [der; unfold Rdiv; ring|]. split; [der; reflexivity|]. ring.
  - unfold tg_u, tg_v.
    replace (2 * PI * (x + l) / l) with (2 * PI * x / l + 2 * PI) by (field; exact L). replace (2 * PI * (y + l) / l) with (2 * PI * y / l + 2 * PI) by (field; exact L).
    replace (2 * PI * (z + lz) / lz) with (2 * PI * z / lz + 2 * PI) by (field; exact LZ).
    assert (S : forall a, sin (a + 2 * PI) = sin a) by (intros a; pose proof (sin_period a 1) as H; simpl INR in H; rewrite <- H; f_equal; ring).
    assert (C : forall a, cos (a + 2 * PI) = cos a) by (intros a; pose proof (cos_period a 1) as H; simpl INR in H; rewrite <- H; f_equal; ring).
    rewrite !S, !C. repeat split; reflexivity.
Qed.
(** Whatever the shape of the domain, the start repeats over its lengths and is still on the planes a length apart. *)
Theorem c90_taylor_green_repeats : forall lx ly lz x y z, lx <> 0 -> ly <> 0 -> lz <> 0 ->
  (tg_u lx ly lz (x + lx) y z = tg_u lx ly lz x y z /\ tg_u lx ly lz x (y + ly) z = tg_u lx ly lz x y z /\ tg_u lx ly lz x y (z + lz) = tg_u lx ly lz x y z) /\
  (tg_v lx ly lz (x + lx) y z = tg_v lx ly lz x y z /\ tg_v lx ly lz x (y + ly) z = tg_v lx ly lz x y z /\ tg_v lx ly lz x y (z + lz) = tg_v lx ly lz x y z) /\
  tg_u lx ly lz 0 y z = 0 /\ tg_v lx ly lz x 0 z = 0 /\ tg_u lx ly lz (lx / 4) 0 0 = 1 /\ tg_v lx ly lz 0 (ly / 4) 0 = - 1 /\
  tg_u lx ly lz x (ly / 4) z = 0 /\ tg_u lx ly lz x y (lz / 4) = 0 /\ tg_v lx ly lz (lx / 4) y z = 0 /\ tg_v lx ly lz x y (lz / 4) = 0.
Proof.
  intros lx ly lz x y z LX LY LZ. unfold tg_u, tg_v.
  replace (2 * PI * (x + lx) / lx) with (2 * PI * x / lx + 2 * PI) by (field; exact LX). replace (2 * PI * (y + ly) / ly) with (2 * PI * y / ly + 2 * PI) by (field; exact LY).
  replace (2 * PI * (z + lz) / lz) with (2 * PI * z / lz + 2 * PI) by (field; exact LZ).
  replace (2 * PI * (lx / 4) / lx) with (PI / 2) by (field; exact LX). replace (2 * PI * (ly / 4) / ly) with (PI / 2) by (field; exact LY).
  replace (2 * PI * (lz / 4) / lz) with (PI / 2) by (field; exact LZ).
  replace (2 * PI * 0 / lx) with 0 by (field; exact LX). replace (2 * PI * 0 / ly) with 0 by (field; exact LY). replace (2 * PI * 0 / lz) with 0 by (field; exact LZ).
  assert (S : forall a, sin (a + 2 * PI) = sin a) by (intros a; pose proof (sin_period a 1) as H; simpl INR in H; rewrite <- H; f_equal; ring).
  assert (C : forall a, cos (a + 2 * PI) = cos a) by (intros a; pose proof (cos_period a 1) as H; simpl INR in H; rewrite <- H; f_equal; ring).
  rewrite !S, !C, sin_0, cos_0, sin_PI2, cos_PI2. repeat split; ring.
Qed.
(** in any other domain they do not: there is divergence at the corner of the coordinates, and the start is not a flow. *)
Theorem c90_taylor_green_refuted : forall lx ly lz d, 0 < lx -> 0 < ly -> lx <> ly ->
  divergence_at (tg_u lx ly lz) (tg_v lx ly lz) (fun _ _ _ => 0) 0 0 0 d -> d <> 0.
Proof.
  intros lx ly lz d X Y N [a [b [c [A [B [C D]]]]]].
  assert (A' : is_derive (fun s => tg_u lx ly lz s 0 0) 0 (2 * PI / lx)).
  { unfold tg_u. der. unfold Rdiv. rewrite !Rmult_0_r, !Rmult_0_l, !cos_0. ring. }
  assert (B' : is_derive (fun s => tg_v lx ly lz 0 s 0) 0 (- (2 * PI / ly))).
  { unfold tg_v. der. unfold Rdiv. rewrite !Rmult_0_r, !Rmult_0_l, !cos_0. ring. }
  assert (C' : is_derive (fun _ : R => 0) 0 0) by (der; reflexivity).
  apply is_derive_unique in A, B, C, A', B', C'. pose proof (eq_trans (eq_sym A) A') as EA. pose proof (eq_trans (eq_sym B) B') as EB. pose proof (eq_trans (eq_sym C) C') as EC. rewrite D, EA, EB, EC. intros H.
  apply N. assert (E : 2 * PI / lx = 2 * PI / ly) by lra. pose proof PI_RGT_0.
  apply (f_equal (fun q => q * (lx * ly) / (2 * PI))) in E.
  replace (2 * PI / lx * (lx * ly) / (2 * PI)) with ly in E by (field; lra). replace (2 * PI / ly * (lx * ly) / (2 * PI)) with lx in E by (field; lra). lra.
Qed.

(** The pair of vortices starts without divergence, for any core that is not a point. *)
Theorem c90_dipole : forall ub vb wb w r0 x1 z1 x2 z2 x y z, r0 <> 0 ->
  divergence_at (fun x _ z => dip_u ub w r0 x1 z1 x2 z2 x z) (fun _ _ _ => vb) (fun x _ z => dip_w wb w r0 x1 z1 x2 z2 x z) x y z 0.
Proof.
  intros ub vb wb w r0 x1 z1 x2 z2 x y z R0.
  assert (SQ : forall p q a b, - (dip_r p q a b / r0) * (dip_r p q a b / r0) = - ((p - a) * (p - a) + (q - b) * (q - b)) / (r0 * r0)).
  { intros p q a b. unfold dip_r. set (s := (p - a) * (p - a) + (q - b) * (q - b)). assert (P : 0 <= s) by (unfold s; pose proof (Rle_0_sqr (p - a)); pose proof (Rle_0_sqr (q - b)); unfold Rsqr in *; lra).
    replace (- (sqrt s / r0) * (sqrt s / r0)) with (- (sqrt s * sqrt s) / (r0 * r0)) by (field; exact R0). rewrite sqrt_sqrt by exact P. reflexivity. }
  pose (e a b := exp (- ((x - a) * (x - a) + (z - b) * (z - b)) / (r0 * r0))).
  exists (w * (z - z1) * (x - x1) / (r0 * r0) * e x1 z1 - w * (z - z2) * (x - x2) / (r0 * r0) * e x2 z2), 0, (- (w * (z - z1) * (x - x1) / (r0 * r0) * e x1 z1) + w * (z - z2) * (x - x2) / (r0 * r0) * e x2 z2).
  split; [|split; [|split]].
  - apply is_derive_ext with (fun s => ub + - / 2 * w * (z - z1) * exp (- ((s - x1) * (s - x1) + (z - z1) * (z - z1)) / (r0 * r0)) + / 2 * w * (z - z2) * exp (- ((s - x2) * (s - x2) + (z - z2) * (z - z2)) / (r0 * r0))).
    { intros s. unfold dip_u. rewrite !SQ. reflexivity. }
    unfold e. der. unfold Rminus, Rdiv. field. exact R0.
  - der. reflexivity.
  - apply is_derive_ext with (fun s => wb + / 2 * w * (x - x1) * exp (- ((x - x1) * (x - x1) + (s - z1) * (s - z1)) / (r0 * r0)) + - / 2 * w * (x - x2) * exp (- ((x - x2) * (x - x2) + (s - z2) * (s - z2)) / (r0 * r0))).
    { intros s. unfold dip_w. rewrite !SQ. reflexivity. }
    unfold e. der. unfold Rminus, Rdiv. field. exact R0.
  - ring.
Qed.

(** The waves added to the turbulent channel are without divergence. *)
Theorem c90_channel_waves : forall amp ky kz x y z,
  divergence_at (fun _ _ _ => 0) (fun _ y z => ch_perty amp ky kz y z) (fun _ y z => ch_pertz amp ky kz y z) x y z 0.
Proof.
  intros amp ky kz x y z. exists 0, (ky * kz * amp * cos (ky * y) * cos (kz * z)), (- (ky * kz * amp * cos (ky * y) * cos (kz * z))).
  unfold ch_perty, ch_pertz. split; [der; reflexivity|]. split; [der; ring|]. split; [der; ring|]. ring.
Qed.

(** and with a whole number of periods they fit the domain. *)
Theorem c90_channel_waves_fit : forall amp (n m : nat) ly lz y z, ly <> 0 -> lz <> 0 ->
  let ky := ch_wave (INR n) ly in let kz := ch_wave (INR m) lz in
  ch_perty amp ky kz (y + ly) z = ch_perty amp ky kz y z /\ ch_perty amp ky kz y (z + lz) = ch_perty amp ky kz y z /\
  ch_pertz amp ky kz (y + ly) z = ch_pertz amp ky kz y z /\ ch_pertz amp ky kz y (z + lz) = ch_pertz amp ky kz y z.
Proof.
  intros amp n m ly lz y z LY LZ ky kz.
  assert (EY : ky * (y + ly) = ky * y + 2 * INR n * PI) by (unfold ky, ch_wave; field; exact LY).
  assert (EZ : kz * (z + lz) = kz * z + 2 * INR m * PI) by (unfold kz, ch_wave; field; exact LZ).
  unfold ch_perty, ch_pertz. rewrite EY, EZ, !sin_period, !cos_period. repeat split; reflexivity.
Qed.

(** ** Channel *)

(** The distance to the wall is that to the nearer wall, *)
Theorem c90_wall_distance : forall h, 0 <= h <= 2 -> ch_fold h = Rmin h (2 - h).
Proof. intros h H. unfold ch_fold, Rmin. destruct (Rltb 1 h) eqn:B; [apply Rltb_spec in B|apply Rltb_false in B]; destruct Rle_dec; lra. Qed.
(** but only in a channel between zero and two. *)
Theorem c90_wall_distance_refuted : forall lo hi, lo < hi ->
  (forall h, lo <= h <= hi -> ch_fold h = Rmin (h - lo) (hi - h)) <-> lo = 0 /\ hi = 2.
Proof.
  intros lo hi L. split.
  - intros H. pose proof (H lo ltac:(lra)) as A. pose proof (H hi ltac:(lra)) as B. unfold ch_fold, Rmin in *.
    destruct (Rltb 1 lo) eqn:C; [apply Rltb_spec in C|apply Rltb_false in C]; (destruct (Rltb 1 hi) eqn:D; [apply Rltb_spec in D|apply Rltb_false in D]); repeat destruct Rle_dec; lra.
  - intros [-> ->] h H. rewrite c90_wall_distance by exact H. f_equal. lra.
Qed.
(** The velocity the turbulent channel starts with is zero at the wall and rises there by the friction velocity in every wall unit. *)
Theorem c90_channel_law : forall utau kappa ytau, 0 < kappa -> 0 < ytau ->
  ch_law utau kappa ytau 0 = 0 /\ is_derive (ch_law utau kappa ytau) 0 (utau / ytau).
Proof.
  intros u k y K Y. split.
  - unfold ch_law. replace (0 / y) with 0 by (field; lra). replace (- 0 / 11) with 0 by field. rewrite Rmult_0_r, Rplus_0_r, ln_1, exp_0. field. lra.
  - unfold ch_law. auto_derive; [replace (0 * / y) with 0 by ring; rewrite Rmult_0_r; lra|]. replace (0 * / y) with 0 by ring. replace (- 0 * / 11) with 0 by ring. replace (- 0 * / 3) with 0 by ring.
    rewrite exp_0. field. repeat split; lra.
Qed.

(** The laminar profile is the steady flow between walls at zero and at the height, and with half a channel the flow below a plane
    without stress at the top, when the floor is at zero and the density is one: stress and force balance. *)
Theorem c90_channel : forall mu force hi, mu <> 0 ->
  (forall half, exists u1 u2, twice (ch_exact mu force (ch_height half 0 hi)) u1 u2 /\ (forall y, mu * u2 y + force = 0) /\
     ch_exact mu force (ch_height half 0 hi) 0 = 0 /\ (half = false -> ch_exact mu force (ch_height half 0 hi) hi = 0) /\ (half = true -> u1 hi = 0)).
Proof.
  intros mu f hi M half. exists (fun y => 1 / (2 * mu) * - f * (2 * y - ch_height half 0 hi)), (fun _ => 1 / (2 * mu) * - f * 2). unfold ch_exact. split.
  - intros y. split; (der; ring).
  - split; [intros y; field; exact M|]. split; [ring|]. unfold ch_height. split; intros ->; field; exact M.
Qed.
(** Heights are not measured from the floor: with a floor elsewhere the profile moves at the floor and, the force not being zero,
    at no height rests where the wall is. *)
Theorem c90_channel_floor_refuted : forall mu force lo hi, mu <> 0 -> force <> 0 -> lo < hi -> lo <> 0 -> 2 * lo <> hi ->
  ch_exact mu force (ch_height false lo hi) lo <> 0.
Proof.
  intros mu f lo hi M F L Z D. unfold ch_exact, ch_height. intros H.
  replace (1 / (2 * mu) * - f * (lo * lo - lo * (hi - lo))) with (- f * lo * (2 * lo - hi) * / (2 * mu)) in H by (field; exact M).
  apply Rmult_integral in H. destruct H as [H|H]; [|apply Rinv_neq_0_compat in H; [exact H|lra]].
  apply Rmult_integral in H. destruct H as [H|H]; [apply Rmult_integral in H; destruct H; lra|lra].
Qed.
Definition shear (d : R) : Stencil.grad9 := Stencil.Grad 0 0 d 0 0 0 0 0 0.
Definition eddy_slope (h cs d rho mu dpdx c1 : R) : R := - mu / (rho * (cs * cs * (d * d))) + sqrt (smag_arg h cs d rho mu dpdx c1).
Lemma eddy_derive : forall h cs d rho mu dpdx c0 c1, 0 < cs -> 0 < d -> 0 < rho -> dpdx <> 0 -> 0 < smag_arg h cs d rho mu dpdx c1 ->
  is_derive (fun s => smag_profile s cs d rho mu dpdx c0 c1) h (eddy_slope h cs d rho mu dpdx c1).
Proof.
  intros h cs d rho mu dp c0 c1 C D R P Q. unfold eddy_slope. set (a := cs * cs * (d * d)). assert (A : 0 < a) by (unfold a; apply Rmult_lt_0_compat; apply Rmult_lt_0_compat; assumption).
  unfold smag_profile, smag_arg, Rpower in *. fold a. fold a in Q. auto_derive; [exact Q|].
  set (q := 2 / a * dp * h + mu / (rho * a) * (mu / (rho * a)) + c1) in *.
  change (exp (3 / 2 * ln q)) with (Rpower q (3 / 2)). replace (3 / 2) with (1 + / 2) by field. rewrite Rpower_plus, Rpower_1, Rpower_sqrt by exact Q.
  set (r := sqrt q). clearbody r. clearbody q. field. repeat split; first [exact P | lra].
Qed.
Lemma cube_width : forall d, 0 < d -> filter_width (fun _ => d) = d.
Proof.
  intros d D. unfold filter_width. destruct (TurbProofs.cbrt_cube (d * d * d)) as [P E]; [apply Rmult_lt_0_compat; [apply Rmult_lt_0_compat|]; exact D|].
  set (c := cbrt (d * d * d)) in *. clearbody c. assert (Z : (c - d) * (c * c + c * d + d * d) = 0) by (cbn in E; lra).
  apply Rmult_integral in Z. destruct Z as [Z|Z]; [lra|]. pose proof (Rmult_lt_0_compat _ _ P P). pose proof (Rmult_lt_0_compat _ _ P D). pose proof (Rmult_lt_0_compat _ _ D D). lra.
Qed.
Lemma eddy_shear : forall cs d rho s, 0 < d -> 0 <= s -> smagorinsky cs (fun _ => d) rho (Stencil.strainrate_of (shear s)) = rho * (cs * cs * (d * d)) * s.
Proof.
  intros cs d rho s D S. unfold smagorinsky, smag_factor. rewrite cube_width by exact D. unfold Stencil.strainrate_of, shear. cbn [Stencil.ux Stencil.uy Stencil.uz Stencil.vx Stencil.vy Stencil.vz Stencil.wx Stencil.wy Stencil.wz].
  replace (2 * 0 ^ 2 + 2 * 0 ^ 2 + 2 * 0 ^ 2 + (0 + 0) ^ 2 + (0 + 0) ^ 2 + (0 + s) ^ 2) with (s * s) by ring. rewrite sqrt_square by exact S. ring.
Qed.
Lemma eddy_half : forall h cs d rho mu dpdx c1, 0 < cs -> 0 < d -> 0 < rho -> 0 < smag_arg h cs d rho mu dpdx c1 ->
  let u1 := eddy_slope h cs d rho mu dpdx c1 in
  mu * u1 + rho * (cs * cs * (d * d)) * (u1 * u1) / 2 = rho * (dpdx * h + cs * cs * (d * d) * c1 / 2).
Proof.
  intros h cs d rho mu dp c1 C D R Q u1. subst u1. unfold eddy_slope. set (a := cs * cs * (d * d)). assert (A : 0 < a) by (unfold a; apply Rmult_lt_0_compat; apply Rmult_lt_0_compat; assumption).
  pose proof (sqrt_sqrt _ (Rlt_le _ _ Q)) as S. set (r := sqrt (smag_arg h cs d rho mu dp c1)) in *. clearbody r.
  replace (mu * (- mu / (rho * a) + r) + rho * a * ((- mu / (rho * a) + r) * (- mu / (rho * a) + r)) / 2) with (rho * a / 2 * (r * r - mu / (rho * a) * (mu / (rho * a)))) by (field; lra).
  rewrite S. unfold smag_arg. fold a. field. lra.
Qed.

(** The profile with an eddy viscosity balances the force with half of the eddy viscosity of the model: *)
Theorem c90_eddy_profile_partial : forall h cs d rho mu dpdx c0 c1, 0 < cs -> 0 < d -> 0 < rho -> dpdx <> 0 ->
  0 < smag_arg h cs d rho mu dpdx c1 ->
  exists u1, is_derive (fun s => smag_profile s cs d rho mu dpdx c0 c1) h u1 /\
  (0 <= u1 -> (mu + / 2 * smagorinsky cs (fun _ => d) rho (Stencil.strainrate_of (shear u1))) * u1 = rho * (dpdx * h + cs * cs * (d * d) * c1 / 2)).
Proof.
  intros h cs d rho mu dp c0 c1 C D R P Q. exists (eddy_slope h cs d rho mu dp c1). split; [apply eddy_derive; assumption|].
  intros U. rewrite eddy_shear by assumption. rewrite <- eddy_half with (1 := C) (2 := D) (3 := R) (mu := mu) by exact Q. field.
Qed.
(** with the whole of it, as the solver has it, stress and force do not balance between any two heights. *)
Theorem c90_eddy_profile_refuted : forall h k cs d rho mu dpdx c0 c1 uh uk, 0 < cs -> 0 < d -> 0 < rho -> dpdx <> 0 -> h <> k ->
  0 < smag_arg h cs d rho mu dpdx c1 -> 0 < smag_arg k cs d rho mu dpdx c1 ->
  is_derive (fun s => smag_profile s cs d rho mu dpdx c0 c1) h uh -> is_derive (fun s => smag_profile s cs d rho mu dpdx c0 c1) k uk ->
  0 <= uh -> 0 <= uk ->
  let stress u := (mu + smagorinsky cs (fun _ => d) rho (Stencil.strainrate_of (shear u))) * u in
  stress uh - stress uk <> rho * dpdx * (h - k).
Proof.
  intros h k cs d rho mu dp c0 c1 uh uk C D R P N Qh Qk Dh Dk Uh Uk stress.
  apply is_derive_unique in Dh, Dk. pose proof (is_derive_unique _ _ _ (eddy_derive h cs d rho mu dp c0 c1 C D R P Qh)) as Eh.
  pose proof (is_derive_unique _ _ _ (eddy_derive k cs d rho mu dp c0 c1 C D R P Qk)) as Ek.
  pose proof (eq_trans (eq_sym Dh) Eh) as Hh. pose proof (eq_trans (eq_sym Dk) Ek) as Hk. unfold stress. rewrite !eddy_shear by assumption.
  pose proof (eddy_half h cs d rho mu dp c1 C D R Qh) as Bh. pose proof (eddy_half k cs d rho mu dp c1 C D R Qk) as Bk. cbv zeta in Bh, Bk. rewrite <- Hh in Bh. rewrite <- Hk in Bk.
  set (a := cs * cs * (d * d)) in *. assert (A : 0 < a) by (unfold a; apply Rmult_lt_0_compat; apply Rmult_lt_0_compat; assumption).
  intros H. assert (Z : rho * a * (uh * uh - uk * uk) = 0) by lra.
  apply Rmult_integral in Z. destruct Z as [Z|Z]; [pose proof (Rmult_lt_0_compat _ _ R A); lra|].
  assert (E : uh = uk). { assert (W : (uh - uk) * (uh + uk) = 0) by lra. apply Rmult_integral in W. destruct W; lra. }
  apply N. rewrite E in Bh. assert (W : rho * dp * (h - k) = 0) by lra. apply Rmult_integral in W. destruct W as [W|W]; [|lra]. apply Rmult_integral in W. destruct W; [lra|contradiction].
Qed.
Example c90_eddy_case : 0 < smag_arg 0 (/ 10) 1 1 0 (-1) 4 /\ 0 <= eddy_slope 0 (/ 10) 1 1 0 (-1) 4.
Proof.
  unfold smag_arg, eddy_slope, smag_arg. split; [lra|]. unfold Rdiv. rewrite Ropp_0, !Rmult_0_l, Rmult_0_r, !Rplus_0_l. apply sqrt_pos.
Qed.

(** ** The patch in a vortex *)

Lemma sin2_diff : forall p q, sin p * sin p - sin q * sin q = sin (p + q) * sin (p - q).
Proof.
  intros p q. rewrite sin_plus, sin_minus. replace ((sin p * cos q + cos p * sin q) * (sin p * cos q - cos p * sin q)) with (sin p * sin p * (cos q * cos q) - cos p * cos p * (sin q * sin q)) by ring.
  replace (cos q * cos q) with (1 - sin q * sin q) by (pose proof (cs1 q); lra). replace (cos p * cos p) with (1 - sin p * sin p) by (pose proof (cs1 p); lra). ring.
Qed.
Lemma face_diff : forall lo d i, sin (PI * face lo d (i + 1)) * sin (PI * face lo d (i + 1)) - sin (PI * face lo d i) * sin (PI * face lo d i) = sin (2 * PI * centre lo d i) * sin (PI * d).
Proof.
  intros lo d i. rewrite sin2_diff. unfold face, centre. rewrite plus_IZR. f_equal; f_equal; field.
Qed.
(** The velocity of the vortex is without divergence at every place and time; *)
Theorem c90_patch : forall tt t x y z,
  divergence_at (fun x y z => vp_u tt x y z t) (fun x y z => vp_v tt x y z t) (fun x y z => vp_w tt x y z t) x y z 0.
Proof.
  intros tt t x y z. set (c := cos (PI * t / tt)).
  exists (2 * PI * sin (2 * PI * x) * sin (2 * PI * y) * sin (2 * PI * z) * c), (- PI * sin (2 * PI * x) * sin (2 * PI * y) * sin (2 * PI * z) * c), (- PI * sin (2 * PI * x) * sin (2 * PI * y) * sin (2 * PI * z) * c).
  unfold vp_u, vp_v, vp_w. fold c. clearbody c. rewrite (Rmult_assoc 2 PI x), (Rmult_assoc 2 PI y), (Rmult_assoc 2 PI z), !(sin_2a (PI * _)).
  split; [der; ring|]. split; [der; ring|]. split; [der; ring|]. ring.
Qed.
(** and so are the velocities on the faces of every cell with equal sides, exactly, wherever the mesh begins. *)
Theorem c90_patch_faces : forall tt t lox loy loz d i j k, d <> 0 ->
  let u := vp_umac tt lox loy loz d d d t in let v := vp_vmac tt lox loy loz d d d t in let w := vp_wmac tt lox loy loz d d d t in
  (u (i + 1)%Z j k - u i j k) / d + (v i (j + 1)%Z k - v i j k) / d + (w i j (k + 1)%Z - w i j k) / d = 0.
Proof.
  intros tt t lox loy loz d i j k D u v w. unfold u, v, w, vp_umac, vp_vmac, vp_wmac, vp_u, vp_v, vp_w.
  pose proof (face_diff lox d i) as X. pose proof (face_diff loy d j) as Y. pose proof (face_diff loz d k) as Z.
  set (c := cos (PI * t / tt)). clearbody c.
  set (sx := sin (2 * PI * centre lox d i)) in *. set (sy := sin (2 * PI * centre loy d j)) in *. set (sz := sin (2 * PI * centre loz d k)) in *.
  set (a1 := sin (PI * face lox d (i + 1))) in *. set (a0 := sin (PI * face lox d i)) in *.
  set (b1 := sin (PI * face loy d (j + 1))) in *. set (b0 := sin (PI * face loy d j)) in *.
  set (e1 := sin (PI * face loz d (k + 1))) in *. set (e0 := sin (PI * face loz d k)) in *. set (q := sin (PI * d)) in *.
  clearbody sx sy sz a1 a0 b1 b0 e1 e0 q.
  replace ((2 * a1 * a1 * sy * sz * c - 2 * a0 * a0 * sy * sz * c) / d + (- b1 * b1 * sx * sz * c - - b0 * b0 * sx * sz * c) / d + (- e1 * e1 * sx * sy * c - - e0 * e0 * sx * sy * c) / d)
    with ((2 * (a1 * a1 - a0 * a0) * sy * sz * c - (b1 * b1 - b0 * b0) * sx * sz * c - (e1 * e1 - e0 * e0) * sx * sy * c) / d) by (field; exact D).
  rewrite X, Y, Z. field. exact D.
Qed.
(** With other cells they are not: in a cell half as high as it is long and wide the fluid is created or lost. *)
Theorem c90_patch_faces_refuted : exists tt t lo d dz i j k, 0 < d /\ 0 < dz /\
  let u := vp_umac tt lo lo lo d d dz t in let v := vp_vmac tt lo lo lo d d dz t in let w := vp_wmac tt lo lo lo d d dz t in
  (u (i + 1)%Z j k - u i j k) / d + (v i (j + 1)%Z k - v i j k) / d + (w i j (k + 1)%Z - w i j k) / dz <> 0.
Proof.
  exists 1, 0, 0, (/ 2), (/ 6), 0%Z, 0%Z, 0%Z. split; [lra|]. split; [lra|]. cbv zeta. unfold vp_umac, vp_vmac, vp_wmac, vp_u, vp_v, vp_w.
  pose proof (face_diff 0 (/ 2) 0) as X. pose proof (face_diff 0 (/ 6) 0) as Z. change (0 + 1)%Z with 1%Z in *.
  replace (PI * 0 / 1) with 0 by field. rewrite cos_0.
  replace (sin (2 * PI * centre 0 (/ 2) 0)) with 1 in * by (unfold centre; replace (2 * PI * (0 + (0 + / 2) * / 2)) with (PI / 2) by field; rewrite sin_PI2; reflexivity).
  replace (sin (2 * PI * centre 0 (/ 6) 0)) with (/ 2) in * by (unfold centre; replace (2 * PI * (0 + (0 + / 2) * / 6)) with (PI / 6) by field; rewrite sin_PI6; field).
  replace (PI * / 2) with (PI / 2) in X by field. replace (PI * / 6) with (PI / 6) in Z by field. rewrite sin_PI2 in X. rewrite sin_PI6 in Z.
  set (a1 := sin (PI * face 0 (/ 2) 1)) in *. set (a0 := sin (PI * face 0 (/ 2) 0)) in *. set (e1 := sin (PI * face 0 (/ 6) 1)) in *. set (e0 := sin (PI * face 0 (/ 6) 0)) in *.
  clearbody a1 a0 e1 e0.
  replace ((2 * a1 * a1 * 1 * / 2 * 1 - 2 * a0 * a0 * 1 * / 2 * 1) / / 2 + (- a1 * a1 * 1 * / 2 * 1 - - a0 * a0 * 1 * / 2 * 1) / / 2 + (- e1 * e1 * 1 * 1 * 1 - - e0 * e0 * 1 * 1 * 1) / / 6)
    with ((a1 * a1 - a0 * a0) - 6 * (e1 * e1 - e0 * e0)) by field. rewrite X, Z. lra.
Qed.
(** The second half of a period undoes the first: when the steps have one size and fill the period, the velocities of a step from the
    end are those of the same step from the beginning, turned around. *)
Theorem c90_patch_returns : forall tt x y z n m dt, 0 < tt -> (n < m)%nat -> INR m * dt = tt ->
  let early := vp_time (INR n * dt) dt in let late := vp_time (INR (m - 1 - n) * dt) dt in
  vp_u tt x y z late = - vp_u tt x y z early /\ vp_v tt x y z late = - vp_v tt x y z early /\ vp_w tt x y z late = - vp_w tt x y z early.
Proof.
  intros tt x y z n m dt T N M early late.
  assert (E : late = tt - early). { unfold late, early, vp_time. rewrite minus_INR, minus_INR by lia. change (INR 1) with 1. rewrite <- M. field. }
  assert (C : cos (PI * late / tt) = - cos (PI * early / tt)).
  { rewrite E. replace (PI * (tt - early) / tt) with (PI - PI * early / tt) by (field; lra). rewrite cos_minus, cos_PI, sin_PI. ring. }
  unfold vp_u, vp_v, vp_w. rewrite C. repeat split; ring.
Qed.

(** ** The slotted disk *)

(** The disk turns as a rigid body about the middle of the unit square, once in a period. *)
Theorem c90_disk_turns : forall tt, 0 < tt ->
  (forall x y z, divergence_at (fun _ y _ => zal_u tt y) (fun x _ _ => zal_v tt x) (fun _ _ _ => 0) x y z 0) /\
  (forall x0 y0, exists px py : R -> R, px 0 = x0 /\ py 0 = y0 /\ px tt = x0 /\ py tt = y0 /\
     (forall t, is_derive px t (zal_u tt (py t)) /\ is_derive py t (zal_v tt (px t))) /\
     (forall t, (px t - / 2) ^ 2 + (py t - / 2) ^ 2 = (x0 - / 2) ^ 2 + (y0 - / 2) ^ 2)).
Proof.
  intros tt T. split.
  - intros x y z. exists 0, 0, 0. split; [der; reflexivity|]. split; [der; reflexivity|]. split; [der; reflexivity|]. ring.
  - intros x0 y0. exists (fun t => / 2 + (x0 - / 2) * cos (2 * PI / tt * t) - (y0 - / 2) * sin (2 * PI / tt * t)), (fun t => / 2 + (x0 - / 2) * sin (2 * PI / tt * t) + (y0 - / 2) * cos (2 * PI / tt * t)).
    split; [rewrite Rmult_0_r, cos_0, sin_0; ring|]. split; [rewrite Rmult_0_r, cos_0, sin_0; ring|]. replace (2 * PI / tt * tt) with (2 * PI) by (field; lra). rewrite cos_2PI, sin_2PI.
    split; [ring|]. split; [ring|]. split.
    + intros t. unfold zal_u, zal_v. split; (der; unfold Rminus; ring).
    + intros t. pose proof (cs1 (2 * PI / tt * t)) as CS. set (s := sin _) in *. set (c := cos _) in *.
      replace ((/ 2 + (x0 - / 2) * c - (y0 - / 2) * s - / 2) ^ 2 + (/ 2 + (x0 - / 2) * s + (y0 - / 2) * c - / 2) ^ 2) with (((x0 - / 2) ^ 2 + (y0 - / 2) ^ 2) * (s * s + c * c)) by ring. rewrite CS. ring.
Qed.
Lemma max_abs : forall h a, rmax (- h + a) (- h - a) = Rabs a - h.
Proof. intros h a. unfold rmax. destruct (Rltb (- h + a) (- h - a)) eqn:L; [apply Rltb_spec in L; rewrite Rabs_left by lra; ring|apply Rltb_false in L; rewrite Rabs_pos_eq by lra; ring]. Qed.
(** The distance that is set is above zero exactly inside the ball and outside the slot, and below zero exactly outside the ball or
    inside the slot. *)
Theorem c90_disk_shape : forall radius hwidth depth xc yc zc x y z,
  let inside := sqrt ((x - xc) * (x - xc) + (y - yc) * (y - yc) + (z - zc) * (z - zc)) < radius in
  let outside := radius < sqrt ((x - xc) * (x - xc) + (y - yc) * (y - yc) + (z - zc) * (z - zc)) in
  (0 < zal_phi radius hwidth depth xc yc zc x y z <-> inside /\ (hwidth < Rabs (x - xc) \/ y - yc < radius - depth)) /\
  (zal_phi radius hwidth depth xc yc zc x y z < 0 <-> outside \/ (Rabs (x - xc) < hwidth /\ radius - depth < y - yc) ).
Proof.
  intros r hw dp xc yc zc x y z ins out. unfold zal_phi. rewrite max_abs. unfold ins, out, ball. set (dd := sqrt ((x - xc) * (x - xc) + (y - yc) * (y - yc) + (z - zc) * (z - zc))). clearbody dd. clear ins out.
  set (ax := Rabs (x - xc)) in *. clearbody ax. set (r2 := sqrt ((y - yc) ^ 2 + (z - zc) ^ 2)). set (rr := sqrt (r * r - hw * hw)). clearbody r2 rr.
  destruct (Rltb (r - dp) (y - yc)) eqn:A; [apply Rltb_spec in A|apply Rltb_false in A]; (destruct (Rltb ax hw) eqn:B; [apply Rltb_spec in B|apply Rltb_false in B]); cbn [andb].
  - assert (N : (if Rltb r2 rr then rmax (ax - hw) (r - dp - (y - yc)) else - sqrt ((r2 - rr) ^ 2 + (ax - hw) ^ 2)) < 0).
    { destruct (Rltb r2 rr).
      - unfold rmax. destruct (Rltb (ax - hw) (r - dp - (y - yc))); lra.
      - assert (P : 0 < (ax - hw) ^ 2) by (rewrite <- Rsqr_pow2; apply Rlt_0_sqr; lra). pose proof (pow2_ge_0 (r2 - rr)). pose proof (sqrt_lt_R0 ((r2 - rr) ^ 2 + (ax - hw) ^ 2)). lra. }
    set (p := if Rltb r2 rr then _ else _) in *. clearbody p. split; [split; [lra|intros [_ [?|?]]; lra]|split; [intros _; right; lra|intros _; exact N]].
  - unfold rmin, rmax. destruct (Rltb (ax - hw) (r - dp - (y - yc))) eqn:C; [apply Rltb_spec in C; lra|apply Rltb_false in C].
    destruct (Rltb (ax - hw) (r - dd)) eqn:D; [apply Rltb_spec in D|apply Rltb_false in D]; split; split; try lra; intros [?|?]; lra.
  - unfold rmin, rmax. destruct (Rltb (ax - hw) (r - dp - (y - yc))) eqn:C; [apply Rltb_spec in C|apply Rltb_false in C];
    [destruct (Rltb (r - dp - (y - yc)) (r - dd)) eqn:D|destruct (Rltb (ax - hw) (r - dd)) eqn:D]; (apply Rltb_spec in D || apply Rltb_false in D); split; split; try lra; intros [?|?]; lra.
  - unfold rmin, rmax. destruct (Rltb (ax - hw) (r - dp - (y - yc))) eqn:C; [apply Rltb_spec in C|apply Rltb_false in C];
    [destruct (Rltb (r - dp - (y - yc)) (r - dd)) eqn:D|destruct (Rltb (ax - hw) (r - dd)) eqn:D]; (apply Rltb_spec in D || apply Rltb_false in D); split; split; try lra; intros [?|?]; lra.
Qed.
(** The density set at the start is between those of the two fluids, that of the first deep inside and that of the second far outside. *)
Theorem c90_start_density : forall rho1 rho2 eps phi, 0 < eps -> rho2 <= rho1 ->
  rho2 <= mixed_density rho1 rho2 eps phi <= rho1 /\
  (eps <= phi -> mixed_density rho1 rho2 eps phi = rho1) /\ (phi <= - eps -> mixed_density rho1 rho2 eps phi = rho2) /\
  mixed_density rho1 rho2 eps 0 = (rho1 + rho2) / 2 /\
  (forall psi, phi <= psi -> mixed_density rho1 rho2 eps phi <= mixed_density rho1 rho2 eps psi).
Proof.
  intros r1 r2 e p E R. destruct (c32_heaviside e p E) as [B [M [H [L _]]]]. unfold mixed_density. split.
  - assert (0 <= (r1 - r2) * heaviside e p) by (apply Rmult_le_pos; lra). assert ((r1 - r2) * heaviside e p <= (r1 - r2) * 1) by (apply Rmult_le_compat_l; lra). lra.
  - split; [intros A; rewrite (H A); ring|]. split; [intros A; rewrite (L A); ring|]. split; [rewrite M; field|].
    intros q Q. pose proof (c32_heaviside_monotone e p q E Q) as V. assert ((r1 - r2) * heaviside e p <= (r1 - r2) * heaviside e q) by (apply Rmult_le_compat_l; lra). lra.
Qed.

(** ** Pulses *)

(** A square pulse no narrower than a cell is set in every cell to its average over the cell; *)
Theorem c90_square : forall x d x0 amplitude w, 0 < d -> d <= w ->
  square_pulse x d x0 amplitude w = amplitude * overlap x d x0 w / d.
Proof.
  intros x d x0 am w D W. unfold square_pulse, overlap.
  assert (SYM : Rmin (x + d / 2) (x0 + w / 2) - Rmax (x - d / 2) (x0 - w / 2) = Rmin (Rabs (x - x0) + d / 2) (w / 2) - Rmax (Rabs (x - x0) - d / 2) (- (w / 2))).
  { unfold Rabs. destruct (Rcase_abs (x - x0)); unfold Rmin, Rmax; repeat destruct Rle_dec; lra. }
  rewrite SYM. pose proof (Rabs_pos (x - x0)) as A0. set (a := Rabs (x - x0)) in *. clearbody a. clear SYM.
  destruct (Rltb (Rabs (a - w / 2)) (d / 2)) eqn:B; [apply Rltb_spec in B; apply Rabs_def2 in B|apply Rltb_false in B].
  - replace (Rmax 0 (Rmin (a + d / 2) (w / 2) - Rmax (a - d / 2) (- (w / 2)))) with (w / 2 - a + d / 2); [reflexivity|]. unfold Rmin, Rmax; repeat destruct Rle_dec; lra.
  - destruct (Rltb a (w / 2)) eqn:C; [apply Rltb_spec in C|apply Rltb_false in C].
    + assert (E : a <= w / 2 - d / 2) by (unfold Rabs in B; destruct (Rcase_abs (a - w / 2)); lra).
      replace (Rmax 0 (Rmin (a + d / 2) (w / 2) - Rmax (a - d / 2) (- (w / 2)))) with d; [field; lra|]. unfold Rmin, Rmax; repeat destruct Rle_dec; lra.
    + assert (E : w / 2 + d / 2 <= a) by (unfold Rabs in B; destruct (Rcase_abs (a - w / 2)); lra).
      replace (Rmax 0 (Rmin (a + d / 2) (w / 2) - Rmax (a - d / 2) (- (w / 2)))) with 0; [field; lra|]. unfold Rmin, Rmax; repeat destruct Rle_dec; lra.
Qed.
(** a narrower pulse is set too high in the cell around it, and there is more of it than was asked for. *)
Theorem c90_narrow_square_refuted : forall d x0 amplitude w, 0 < w -> w < d -> 0 < amplitude ->
  amplitude * overlap x0 d x0 w / d < square_pulse x0 d x0 amplitude w.
Proof.
  intros d x0 am w W D A. unfold square_pulse, overlap. replace (x0 - x0) with 0 by ring. rewrite Rabs_R0.
  assert (B : Rabs (0 - w / 2) < d / 2) by (apply Rabs_def1; lra). rewrite (proj2 (Rltb_spec _ _) B).
  replace (Rmax 0 (Rmin (x0 + d / 2) (x0 + w / 2) - Rmax (x0 - d / 2) (x0 - w / 2))) with w; [|unfold Rmin, Rmax; repeat destruct Rle_dec; lra].
  unfold Rdiv at 1 2. apply Rmult_lt_compat_r; [apply Rinv_0_lt_compat; lra|]. apply Rmult_lt_compat_l; lra.
Qed.

Lemma gauss_cont : forall s, continuous (fun r => exp (- r ^ 2)) s.
Proof. intros s. apply (ex_derive_continuous (fun r => exp (- r ^ 2))). auto_derive. exact I. Qed.
Lemma gauss_int : forall a b, ex_RInt (fun r => exp (- r ^ 2)) a b.
Proof. intros a b. apply (ex_RInt_continuous (fun r => exp (- r ^ 2))). intros s _. apply gauss_cont. Qed.
Lemma erf_diff : forall a b, the_erf b - the_erf a = 2 / sqrt PI * RInt (fun r => exp (- r ^ 2)) a b.
Proof.
  intros a b. unfold the_erf. rewrite <- (RInt_Chasles (fun r => exp (- r ^ 2)) 0 a b) by apply gauss_int. change plus with Rplus. ring.
Qed.
Lemma gauss_average : forall x d x0 w, 0 < w -> 0 < d ->
  average (fun s => exp (- (s - x0) ^ 2 / (2 * w ^ 2))) x d =
  sqrt (PI / 2) * w * (the_erf ((x - x0 + d / 2) / (sqrt 2 * w)) - the_erf ((x - x0 - d / 2) / (sqrt 2 * w))) / d.
Proof.
  intros x d x0 w W D. rewrite erf_diff. unfold average.
  assert (S2 : 0 < sqrt 2) by (apply sqrt_lt_R0; lra). pose proof (sqrt_sqrt 2 ltac:(lra)) as Q2. pose proof PI_RGT_0 as P. assert (SP : 0 < sqrt PI) by (apply sqrt_lt_R0; exact P).
  set (k := / (sqrt 2 * w)). assert (K : 0 < k) by (apply Rinv_0_lt_compat, Rmult_lt_0_compat; assumption).
  pose proof (RInt_comp_lin (fun r => exp (- r ^ 2)) k (- k * x0) (x - d / 2) (x + d / 2) (gauss_int _ _)) as L.
  replace (k * (x - d / 2) + - k * x0) with ((x - x0 - d / 2) / (sqrt 2 * w)) in L by (unfold k, Rdiv; ring).
  replace (k * (x + d / 2) + - k * x0) with ((x - x0 + d / 2) / (sqrt 2 * w)) in L by (unfold k, Rdiv; ring).
  assert (E : RInt (fun y => scal k (exp (- (k * y + - k * x0) ^ 2))) (x - d / 2) (x + d / 2) = k * RInt (fun s => exp (- (s - x0) ^ 2 / (2 * w ^ 2))) (x - d / 2) (x + d / 2)).
  { assert (X : ex_RInt (fun y => exp (- (k * y + - k * x0) ^ 2)) (x - d / 2) (x + d / 2)).
    { apply (ex_RInt_continuous (fun y => exp (- (k * y + - k * x0) ^ 2))). intros s _. apply (ex_derive_continuous (fun y => exp (- (k * y + - k * x0) ^ 2))). auto_derive. exact I. }
    apply (eq_trans (RInt_scal (fun y => exp (- (k * y + - k * x0) ^ 2)) (x - d / 2) (x + d / 2) k X)).
    change (scal k) with (Rmult k). f_equal. apply RInt_ext. intros s _. f_equal. unfold k. replace (2 * w ^ 2) with (sqrt 2 * w * (sqrt 2 * w)) by (rewrite <- Q2 at 3; ring). field. split; lra. }
  pose proof (eq_trans (eq_sym L) E) as LE. rewrite LE. set (I := RInt (fun s => exp (- (s - x0) ^ 2 / (2 * w ^ 2))) (x - d / 2) (x + d / 2)). clearbody I.
  rewrite sqrt_div_alt by lra. unfold k. replace (sqrt PI / sqrt 2 * w * (2 / sqrt PI * (/ (sqrt 2 * w) * I)) / d) with (2 / (sqrt 2 * sqrt 2) * (I / d)) by (field; repeat split; lra).
  rewrite Q2. field. lra.
Qed.
(** The pulse of Gauss is set in the cells within six widths to its average over the cell, with the error function of mathematics, and to zero further out; *)
Theorem c90_gauss : forall x d x0 amplitude w, 0 < w -> 0 < d ->
  (Rabs (x - x0) < 6 * w -> gaussian_pulse the_erf x d x0 amplitude w = amplitude * average (fun s => exp (- (s - x0) ^ 2 / (2 * w ^ 2))) x d) /\
  (6 * w <= Rabs (x - x0) -> gaussian_pulse the_erf x d x0 amplitude w = 0).
Proof.
  intros x d x0 am w W D. unfold gaussian_pulse. split; intros H.
  - rewrite (proj2 (Rltb_spec _ _) H), gauss_average by assumption. field. lra.
  - rewrite (proj2 (Rltb_false _ _) H). reflexivity.
Qed.
(** in two directions to the product of the averages. *)
Theorem c90_gauss2 : forall x y dx dy x0 y0 amplitude wx wy, 0 < wx -> 0 < wy -> 0 < dx -> 0 < dy ->
  (Rabs (x - x0) < 6 * wx -> Rabs (y - y0) < 6 * wy ->
     gaussian_pulse2 the_erf x y dx dy x0 y0 amplitude wx wy =
     amplitude * average (fun s => exp (- (s - x0) ^ 2 / (2 * wx ^ 2))) x dx * average (fun s => exp (- (s - y0) ^ 2 / (2 * wy ^ 2))) y dy) /\
  (6 * wx <= Rabs (x - x0) \/ 6 * wy <= Rabs (y - y0) -> gaussian_pulse2 the_erf x y dx dy x0 y0 amplitude wx wy = 0).
Proof.
  intros x y dx dy x0 y0 am wx wy WX WY DX DY. unfold gaussian_pulse2. split.
  - intros HX HY. rewrite (proj2 (Rltb_spec _ _) HX), (proj2 (Rltb_spec _ _) HY), !gauss_average by assumption. cbn [andb].
    pose proof PI_RGT_0 as P. pose proof (sqrt_sqrt (PI / 2) ltac:(lra)) as Q. rewrite <- Q at 1. field. lra.
  - intros [H|H]; rewrite (proj2 (Rltb_false _ _) H); [reflexivity|rewrite Bool.andb_false_r; reflexivity].
Qed.
(** What the packet of waves is set to is not quite an average: the three weights add up to a little more than they should, so that even a constant
    is not set to itself, though no further from it than half of ten to the minus tenth; *)
Theorem c90_packet_weights : forall c x d, quad_average (fun _ => c) x d = c * (1 + 5 / 10 ^ 11).
Proof. intros c x d. unfold quad_average, quad_side, quad_mid. field. Qed.
(** for a polynomial of degree up to three it is the average up to that factor and up to the rounding of the nodes. *)
Theorem c90_packet_partial : forall a0 a1 a2 a3 x d, d <> 0 ->
  let f s := a0 + a1 * (s - x) + a2 * (s - x) ^ 2 + a3 * (s - x) ^ 3 in
  quad_average f x d = a0 * (1 + 5 / 10 ^ 11) + a2 * d ^ 2 * (quad_side * quad_node ^ 2 / 4) /\
  average f x d = a0 + a2 * d ^ 2 / 12 /\
  Rabs (quad_side * quad_node ^ 2 / 4 - / 12) <= / 10 ^ 10.
Proof.
  intros a0 a1 a2 a3 x d e f. split; [|split].
  - unfold quad_average, f. unfold quad_side at 1 2, quad_mid. unfold quad_side. field.
  - unfold average.
    assert (I : is_RInt f (x - d / 2) (x + d / 2) ((a0 + a2 * d ^ 2 / 12) * d)).
    { pose (F s := a0 * s + a1 * (s - x) ^ 2 / 2 + a2 * (s - x) ^ 3 / 3 + a3 * (s - x) ^ 4 / 4).
      replace ((a0 + a2 * d ^ 2 / 12) * d) with (minus (F (x + d / 2)) (F (x - d / 2))) by (unfold F, minus, plus, opp; cbn; field).
      apply (is_RInt_derive F f).
      - intros s _. unfold F, f. auto_derive; [exact I|field].
      - intros s _. apply (ex_derive_continuous f). unfold f. auto_derive. exact I. }
    rewrite (is_RInt_unique _ _ _ _ I). field. exact e.
  - unfold quad_side, quad_node. apply Rabs_le. lra.
Qed.
(** What the pulse is compared with at a time is the pulse set at the start, carried along with the flow. *)
Theorem c90_advected : forall shape u v x y t,
  advected shape u v 0 x y = shape x y /\ advected shape u v t (x + u * t) (y + v * t) = shape x y.
Proof. intros s u v x y t. unfold advected. rewrite !Rmult_0_r, !Rminus_0_r. split; [reflexivity|]. f_equal; ring. Qed.

(** ** Norms *)

Lemma rsum_cons : forall a l, rsum (a :: l) = a + rsum l.
Proof.
  intros a l. unfold rsum. cbn [fold_left]. rewrite Rplus_0_l. assert (G : forall m b, fold_left Rplus m b = b + fold_left Rplus m 0).
  { induction m as [|c m IH]; intros b; cbn [fold_left]; [ring|]. rewrite IH, (IH (0 + c)). ring. } apply G.
Qed.
Definition good (c : ecell) : Prop := 0 < e_vol c.
Lemma err_nonneg : forall c, good c -> 0 <= e_err c.
Proof.
  intros c G. unfold good in G. unfold e_err, e_on. pose proof (Rle_0_sqr (e_val c - e_exact c)) as S. unfold Rsqr in S. destruct (e_mask c).
  - replace (e_vol c * 1 * (e_val c - e_exact c) * (e_val c - e_exact c)) with (e_vol c * ((e_val c - e_exact c) * (e_val c - e_exact c))) by ring. apply Rmult_le_pos; lra.
  - replace (e_vol c * 0 * (e_val c - e_exact c) * (e_val c - e_exact c)) with 0 by ring. lra.
Qed.
Lemma err_zero : forall c, good c -> e_err c = 0 <-> (e_mask c = true -> e_val c = e_exact c).
Proof.
  intros c G. unfold good in G. unfold e_err, e_on. destruct (e_mask c).
  - split; [intros H _|intros H; rewrite (H eq_refl); ring]. rewrite Rmult_1_r in H. apply Rmult_integral in H. destruct H as [H|H]; [apply Rmult_integral in H; destruct H; lra|lra].
  - split; [intros _ H; discriminate|intros _; ring].
Qed.
Lemma sum_nonneg : forall l, Forall good l -> 0 <= rsum (map e_err l).
Proof. induction l as [|c l IH]; intros F; cbn [map]; [unfold rsum; cbn; lra|]. rewrite rsum_cons. inversion F; subst. pose proof (err_nonneg c H1). pose proof (IH H2). lra. Qed.
Lemma sum_zero : forall l, Forall good l -> rsum (map e_err l) = 0 <-> Forall (fun c => e_mask c = true -> e_val c = e_exact c) l.
Proof.
  induction l as [|c l IH]; intros F; cbn [map]; [split; [constructor|reflexivity]|]. rewrite rsum_cons. inversion F; subst. pose proof (err_nonneg c H1). pose proof (sum_nonneg l H2). split.
  - intros S. constructor; [apply err_zero; [assumption|lra]|apply IH; [assumption|lra]].
  - intros S. inversion S; subst. rewrite (proj2 (err_zero c H1) H5), (proj2 (IH H2) H6). ring.
Qed.
Lemma sum_uniform : forall l e, Forall (fun c => e_mask c = true -> Rabs (e_val c - e_exact c) = e) l -> rsum (map e_err l) = e * e * rsum (map (fun c => e_vol c * e_on c) l).
Proof.
  induction l as [|c l IH]; intros e F; cbn [map]; [unfold rsum; cbn; ring|]. rewrite !rsum_cons. inversion F; subst. rewrite (IH e H2). unfold e_err, e_on. destruct (e_mask c).
  - specialize (H1 eq_refl). assert (S : (e_val c - e_exact c) * (e_val c - e_exact c) = e * e) by (rewrite <- H1; unfold Rabs; destruct (Rcase_abs (e_val c - e_exact c)); ring).
    replace (e_vol c * 1 * (e_val c - e_exact c) * (e_val c - e_exact c)) with (e_vol c * ((e_val c - e_exact c) * (e_val c - e_exact c))) by ring. rewrite S. ring.
  - ring.
Qed.
(** The number written for the vortex is zero exactly when every cell that counts holds the exact value, and if all of them are off by the same amount
    it is that amount, for any mesh, mapping and choice of cells that count, as long as there is one. *)
Theorem c90_norm_counted : forall l, Forall good l -> 0 < rsum (map (fun c => e_vol c * e_on c) l) ->
  (norm_counted l = 0 <-> Forall (fun c => e_mask c = true -> e_val c = e_exact c) l) /\
  (forall e, 0 <= e -> Forall (fun c => e_mask c = true -> Rabs (e_val c - e_exact c) = e) l -> norm_counted l = e).
Proof.
  intros l G V. unfold norm_counted. set (v := rsum (map (fun c => e_vol c * e_on c) l)) in *. pose proof (sum_nonneg l G) as N. split.
  - rewrite <- sum_zero by exact G. split; intros H.
    + apply sqrt_eq_0 in H; [|apply Rmult_le_pos; [exact N|apply Rlt_le, Rinv_0_lt_compat; exact V]]. apply Rmult_integral in H. destruct H as [H|H]; [exact H|]. apply Rinv_neq_0_compat in H; [contradiction|lra].
    + rewrite H. unfold Rdiv. rewrite Rmult_0_l. apply sqrt_0.
  - intros e E F. rewrite (sum_uniform l e F). fold v. replace (e * e * v / v) with (e * e) by (field; lra). apply sqrt_square. exact E.
Qed.
(** The numbers of the other flows have these properties when the cells that count fill the domain. *)
Theorem c90_norm_domain_partial : forall l, Forall good l -> let v := rsum (map (fun c => e_vol c * e_on c) l) in 0 < v ->
  (norm_domain v l = 0 <-> Forall (fun c => e_mask c = true -> e_val c = e_exact c) l) /\
  (forall e, 0 <= e -> Forall (fun c => e_mask c = true -> Rabs (e_val c - e_exact c) = e) l -> norm_domain v l = e).
Proof. exact c90_norm_counted. Qed.
(** On a mapped mesh the cells have their mapped volumes and the domain has not: with cells stretched to [s] times their height everywhere, a flow
    that is off by [e] is reported to be off by the square root of [s] times [e]. *)
Theorem c90_norm_mapped_refuted : forall n d s e exact, (0 < n)%nat -> 0 < d -> 0 < s -> 0 <= e ->
  norm_domain (INR n * (d * d * d)) (repeat (ECell (d, d, d) (1, 1, s) true (exact + e) exact) n) = sqrt s * e.
Proof.
  intros n d s e ex N D S E. unfold norm_domain.
  assert (H : rsum (map e_err (repeat (ECell (d, d, d) (1, 1, s) true (ex + e) ex) n)) = INR n * (d * d * d) * (s * (e * e))).
  { clear N. induction n as [|n IH]; [unfold rsum; cbn; ring|]. cbn [repeat map]. rewrite rsum_cons, IH, S_INR. unfold e_err, e_vol, e_on. cbn. ring. }
  rewrite H. assert (P : 0 < INR n) by (apply lt_0_INR; exact N). replace (INR n * (d * d * d) * (s * (e * e)) / (INR n * (d * d * d))) with (s * (e * e)) by (field; lra).
  rewrite sqrt_mult by (pose proof (Rle_0_sqr e); unfold Rsqr in *; lra). rewrite sqrt_square by exact E. reflexivity.
Qed.
(** The last number of the advected pulse is the norm over all levels, the others are those of the levels; the squares add up. *)
Theorem c90_norm_levels : forall v levels, 0 < v -> Forall (Forall good) levels ->
  length (norm_levels v levels) = S (length levels) /\
  last (norm_levels v levels) 0 * last (norm_levels v levels) 0 = rsum (map (fun q => q * q) (removelast (norm_levels v levels))) /\
  (forall i, (i < length levels)%nat -> nth i (norm_levels v levels) 0 = norm_domain v (nth i levels [])).
Proof.
  intros v ls V G. unfold norm_levels. split; [rewrite app_length, map_length; cbn; lia|]. split.
  - rewrite last_last, removelast_last. rewrite map_map.
    assert (P : forall l, Forall good l -> 0 <= rsum (map e_err l) / v) by (intros l F; apply Rmult_le_pos; [apply sum_nonneg; exact F|apply Rlt_le, Rinv_0_lt_compat; exact V]).
    assert (T : 0 <= rsum (map (fun l => rsum (map e_err l)) ls) /\ rsum (map (fun l => rsum (map e_err l)) ls) / v = rsum (map (fun l => sqrt (rsum (map e_err l) / v) * sqrt (rsum (map e_err l) / v)) ls)).
    { induction ls as [|l ls IH]; cbn [map]; [unfold rsum; cbn; split; [lra|field; lra]|]. inversion G; subst. destruct (IH H2) as [A B]. rewrite !rsum_cons. split; [pose proof (sum_nonneg l H1); lra|].
      rewrite sqrt_sqrt by (apply P; exact H1). rewrite <- B. field. lra. }
    rewrite sqrt_sqrt; [apply T|]. apply Rmult_le_pos; [apply T|apply Rlt_le, Rinv_0_lt_compat; exact V].
  - intros i I. rewrite app_nth1 by (rewrite map_length; exact I). rewrite (nth_indep _ 0 (norm_domain v [])) by (rewrite map_length; exact I). exact (map_nth (norm_domain v) ls [] i).
Qed.

(** ** Cases *)
Definition cells2 : list ecell :=
  [ECell (1, 1, 1) (1, 1, 1) true 3 1; ECell (1, 1, 1) (1, 1, 1) false 9 1; ECell (/ 2, / 2, / 2) (1, 1, 2) true (-1) 1].
Example c90_norm_case : Forall good cells2 /\ norm_counted cells2 = 2.
Proof.
  assert (G : Forall good cells2) by (repeat constructor; unfold good, e_vol; cbn; lra). split; [exact G|].
  apply c90_norm_counted; [exact G| |lra|].
  - unfold cells2, rsum, e_vol, e_on. cbn. lra.
  - repeat constructor; cbn; intros H; try discriminate H; [rewrite Rabs_right; lra|rewrite Rabs_left; lra].
Qed.
Example c90_square_case : square_pulse (3 / 4) (/ 2) 0 8 2 = 8 /\ square_pulse 1 (/ 2) 0 8 2 = 4 /\ square_pulse 2 (/ 2) 0 8 2 = 0.
Proof.
  rewrite !c90_square by lra. unfold overlap. repeat split; unfold Rmin, Rmax; repeat destruct Rle_dec; lra.
Qed.
Print Assumptions c90_vortex.
Print Assumptions c90_vortex_density_refuted.
Print Assumptions c90_spiral.
Print Assumptions c90_spiral_floor_refuted.
Print Assumptions c90_spiral_density_refuted.
Print Assumptions c90_lid.
Print Assumptions c90_lid_force.
Print Assumptions c90_lid_force_refuted.
Print Assumptions c90_taylor_green.
Print Assumptions c90_taylor_green_repeats.
Print Assumptions c90_taylor_green_refuted.
Print Assumptions c90_dipole.
Print Assumptions c90_channel_waves.
Print Assumptions c90_channel_waves_fit.
Print Assumptions c90_wall_distance.
Print Assumptions c90_wall_distance_refuted.
Print Assumptions c90_channel_law.
Print Assumptions c90_channel.
Print Assumptions c90_channel_floor_refuted.
Print Assumptions c90_eddy_profile_partial.
Print Assumptions c90_eddy_profile_refuted.
Print Assumptions c90_patch.
Print Assumptions c90_patch_faces.
Print Assumptions c90_patch_faces_refuted.
Print Assumptions c90_patch_returns.
Print Assumptions c90_disk_turns.
Print Assumptions c90_disk_shape.
Print Assumptions c90_start_density.
Print Assumptions c90_square.
Print Assumptions c90_narrow_square_refuted.
Print Assumptions c90_gauss.
Print Assumptions c90_gauss2.
Print Assumptions c90_packet_weights.
Print Assumptions c90_packet_partial.
Print Assumptions c90_advected.
Print Assumptions c90_norm_counted.
Print Assumptions c90_norm_domain_partial.
Print Assumptions c90_norm_mapped_refuted.
Print Assumptions c90_norm_levels.
