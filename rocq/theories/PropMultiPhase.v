(** C32 (mixture properties, free surface) and C49 (hydrostatic reference). *)
From Verif Require Import BoxR BoxRFacts MultiPhase MultiPhaseSpec.
Open Scope R_scope.

Lemma rmax_R : forall a b, rmax a b = Rmax a b.
Proof. intros. unfold rmax, Rmax. destruct (Rltb a b) eqn:E; destruct (Rle_dec a b); try reflexivity.
  - apply Rltb_spec in E. lra. - apply Rltb_false in E. lra. Qed.
Lemma rmin_R : forall a b, rmin a b = Rmin a b.
Proof. intros. unfold rmin, Rmin. destruct (Rltb b a) eqn:E; destruct (Rle_dec a b); try reflexivity.
  - apply Rltb_spec in E. lra. - apply Rltb_false in E. lra. Qed.

(** ** C32 *)
Lemma mix_between : forall a b f, 0 <= f <= 1 -> between a b (mix a b f).
Proof.
  intros a b f H. unfold between, mix.
  assert (A : 0 <= f * (b - a) <= b - a \/ b - a <= f * (b - a) <= 0).
  { destruct (Rle_dec a b).
    - left. split; [apply Rmult_le_pos; lra|]. apply Rle_trans with (1 * (b - a)); [apply Rmult_le_compat_r; lra|lra].
    - right. assert (0 <= f * (a - b)) by (apply Rmult_le_pos; lra).
      assert (f * (a - b) <= 1 * (a - b)) by (apply Rmult_le_compat_r; lra). lra. }
  replace (a * f + b * (1 - f)) with (b - f * (b - a)) by ring.
  unfold Rmin, Rmax. destruct (Rle_dec a b); destruct A; lra.
Qed.

(** Density, viscosity: between the phases, equal to them at 0 and 1. *)
Theorem c32_mixture : forall a1 a2 f,
  (0 <= f <= 1 -> between a1 a2 (mix a1 a2 f)) /\ mix a1 a2 0 = a2 /\ mix a1 a2 1 = a1.
Proof. intros. split; [apply mix_between|]. split; unfold mix; ring. Qed.
(** ... positive for positive phases, and more of phase 1 moves it towards phase 1. *)
Theorem c32_mixture_positive : forall a1 a2 f, 0 < a1 -> 0 < a2 -> 0 <= f <= 1 -> 0 < mix a1 a2 f.
Proof.
  intros a1 a2 f A B H. destruct (mix_between a1 a2 f H) as [L _].
  unfold Rmin in L. destruct (Rle_dec a1 a2); lra.
Qed.
Theorem c32_mixture_monotone : forall a1 a2 f g, a2 <= a1 -> f <= g -> mix a1 a2 f <= mix a1 a2 g.
Proof.
  intros a1 a2 f g A B. unfold mix. assert (0 <= (g - f) * (a1 - a2)) by (apply Rmult_le_pos; lra).
  replace (a1 * g + a2 * (1 - g)) with (a1 * f + a2 * (1 - f) + (g - f) * (a1 - a2)) by ring. lra.
Qed.
(** The fraction can be recovered from the density. *)
Theorem c32_mixture_invertible : forall a1 a2 f, a1 <> a2 -> (mix a1 a2 f - a2) / (a1 - a2) = f.
Proof. intros. unfold mix. field. lra. Qed.

(** Thermal and scalar diffusivities. *)
Theorem c32_diffusivities : forall mu1 pr1 mu2 pr2 sc f, 0 < mu1 -> 0 < mu2 -> 0 < pr1 -> 0 < pr2 -> 0 < sc -> 0 <= f <= 1 ->
  between (mu1 / pr1) (mu2 / pr2) (thermal_mix mu1 pr1 mu2 pr2 f) /\ 0 < thermal_mix mu1 pr1 mu2 pr2 f /\
  between (mu1 / sc) (mu2 / sc) (scalar_mix mu1 mu2 sc f) /\ 0 < scalar_mix mu1 mu2 sc f.
Proof.
  intros mu1 pr1 mu2 pr2 sc f A B C D E H.
  assert (P1 : 0 < mu1 / pr1) by (apply Rdiv_lt_0_compat; assumption).
  assert (P2 : 0 < mu2 / pr2) by (apply Rdiv_lt_0_compat; assumption).
  assert (P3 : 0 < mu1 / sc) by (apply Rdiv_lt_0_compat; assumption).
  assert (P4 : 0 < mu2 / sc) by (apply Rdiv_lt_0_compat; assumption).
  split; [exact (mix_between (mu1 / pr1) (mu2 / pr2) f H)|].
  split; [exact (c32_mixture_positive (mu1 / pr1) (mu2 / pr2) f P1 P2 H)|].
  assert (S : scalar_mix mu1 mu2 sc f = mix (mu1 / sc) (mu2 / sc) f) by (unfold scalar_mix, mix, Rdiv; ring).
  rewrite S. split; [apply mix_between; exact H|apply c32_mixture_positive; assumption].
Qed.

(** Smoothed Heaviside of a level set: a fraction, 1/2 on the interface, the
    phase values beyond the interface width, without jumps at its ends,
    increasing. *)
Lemma sin_le_id : forall x, 0 <= x -> sin x <= x.
Proof. intros x H. destruct (Rle_lt_or_eq_dec 0 x H) as [P|<-]; [left; apply sin_lt_x; exact P|rewrite sin_0; lra]. Qed.
Lemma sin_ge_opp : forall x, 0 <= x -> - x <= sin x.
Proof. intros x H. pose proof (sin_le_id x H). 
  destruct (Rle_dec x PI) as [L|L]; [pose proof (sin_ge_0 x H L); lra|].
  pose proof (SIN_bound x). pose proof PI2_1. lra. Qed.
Definition hv (t : R) : R := / 2 * (1 + t + 1 / PI * sin (PI * t)).
Lemma heaviside_mid : forall eps phi, 0 < eps -> - eps <= phi <= eps -> heaviside eps phi = hv (phi / eps).
Proof.
  intros eps phi He H. unfold heaviside.
  rewrite (proj2 (Rltb_false eps phi)) by lra. rewrite (proj2 (Rltb_false phi (- eps))) by lra.
  unfold hv. replace (phi * PI / eps) with (PI * (phi / eps)) by (field; lra). reflexivity.
Qed.
Lemma PI_pos : 0 < PI. Proof. apply PI_RGT_0. Qed.
Lemma hv_ge : forall t, -1 <= t -> 0 <= hv t.
Proof.
  intros t H. unfold hv. pose proof PI_pos.
  assert (S : sin (PI * t) = - sin (PI * (1 + t))).
  { replace (PI * (1 + t)) with (PI * t + PI) by ring. rewrite neg_sin. ring. }
  rewrite S. assert (sin (PI * (1 + t)) <= PI * (1 + t)) by (apply sin_le_id; apply Rmult_le_pos; lra).
  assert (1 / PI * sin (PI * (1 + t)) <= 1 / PI * (PI * (1 + t))).
  { apply Rmult_le_compat_l; [|assumption]. apply Rlt_le, Rdiv_lt_0_compat; lra. }
  replace (1 / PI * (PI * (1 + t))) with (1 + t) in * by (field; lra).
  replace (1 / PI * - sin (PI * (1 + t))) with (- (1 / PI * sin (PI * (1 + t)))) by ring. lra.
Qed.
Lemma hv_opp : forall t, hv (- t) = 1 - hv t.
Proof. intros. unfold hv. replace (PI * - t) with (- (PI * t)) by ring. rewrite sin_neg. field. apply PI_neq0. Qed.
Lemma hv_le : forall t, t <= 1 -> hv t <= 1.
Proof. intros t H. pose proof (hv_ge (- t) ltac:(lra)). rewrite hv_opp in H0. lra. Qed.
Lemma hv_mono : forall s t, s <= t -> hv s <= hv t.
Proof.
  intros s t H. unfold hv. pose proof PI_pos.
  assert (D : PI * (s - t) <= sin (PI * t) - sin (PI * s)).
  { rewrite form4. 
    set (a := (PI * t - PI * s) / 2). set (b := (PI * t + PI * s) / 2).
    assert (A : 0 <= a) by (unfold a; assert (0 <= PI * (t - s)) by (apply Rmult_le_pos; lra); lra).
    pose proof (sin_le_id a A). pose proof (sin_ge_opp a A). pose proof (COS_bound b).
    replace (PI * (s - t)) with (- (2 * a)) by (unfold a; field).
    assert (- a <= cos b * sin a).
    { assert (Rabs (cos b * sin a) <= a).
      { rewrite Rabs_mult. replace a with (1 * a) at 2 by ring. apply Rmult_le_compat; try apply Rabs_pos; apply Rabs_le; lra. }
      unfold Rabs in H4. destruct Rcase_abs in H4; lra. }
    lra. }
  assert (1 / PI * (PI * (s - t)) <= 1 / PI * (sin (PI * t) - sin (PI * s))).
  { apply Rmult_le_compat_l; [|exact D]. apply Rlt_le, Rdiv_lt_0_compat; lra. }
  replace (1 / PI * (PI * (s - t))) with (s - t) in H1 by (field; lra). lra.
Qed.
Theorem c32_heaviside : forall eps phi, 0 < eps ->
  0 <= heaviside eps phi <= 1 /\ heaviside eps 0 = / 2 /\
  (eps <= phi -> heaviside eps phi = 1) /\ (phi <= - eps -> heaviside eps phi = 0) /\
  heaviside eps (- phi) = 1 - heaviside eps phi.
Proof.
  intros eps phi He.
  assert (HI : forall p, eps <= p -> heaviside eps p = 1).
  { intros p Hp. destruct (Rle_lt_or_eq_dec _ _ Hp) as [L|<-].
    - unfold heaviside. rewrite (proj2 (Rltb_spec _ _) L). reflexivity.
    - rewrite heaviside_mid by lra. unfold hv. replace (eps / eps) with 1 by (field; lra). rewrite Rmult_1_r, sin_PI. field. apply PI_neq0. }
  assert (LO : forall p, p <= - eps -> heaviside eps p = 0).
  { intros p Hp. destruct (Rle_lt_or_eq_dec _ _ Hp) as [L| ->].
    - unfold heaviside. rewrite (proj2 (Rltb_false eps p)) by lra. rewrite (proj2 (Rltb_spec _ _) L). reflexivity.
    - rewrite heaviside_mid by lra. replace (- eps / eps) with (- (1)) by (field; lra). rewrite hv_opp. unfold hv. rewrite Rmult_1_r, sin_PI. field. apply PI_neq0. }
  assert (DV : forall p, - eps <= p <= eps -> -1 <= p / eps <= 1).
  { intros p Hp. split.
    - apply Rmult_le_reg_r with eps; [exact He|]. unfold Rdiv. rewrite Rmult_assoc, Rinv_l by lra. lra.
    - apply Rmult_le_reg_r with eps; [exact He|]. unfold Rdiv. rewrite Rmult_assoc, Rinv_l by lra. lra. }
  split; [|split; [|split; [apply HI|split; [apply LO|]]]].
  - destruct (Rle_dec eps phi); [rewrite HI by assumption; lra|]. destruct (Rle_dec phi (- eps)); [rewrite LO by assumption; lra|].
    rewrite heaviside_mid by lra. destruct (DV phi ltac:(lra)). split; [apply hv_ge|apply hv_le]; lra.
  - rewrite heaviside_mid by lra. unfold hv. replace (0 / eps) with 0 by (field; lra). rewrite Rmult_0_r, sin_0. field. apply PI_neq0.
  - destruct (Rle_dec eps phi); [rewrite (HI phi), (LO (- phi)) by lra; ring|]. destruct (Rle_dec phi (- eps)); [rewrite (LO phi), (HI (- phi)) by lra; ring|].
    rewrite !heaviside_mid by lra. replace (- phi / eps) with (- (phi / eps)) by (field; lra). apply hv_opp.
Qed.
Theorem c32_heaviside_monotone : forall eps p q, 0 < eps -> p <= q -> heaviside eps p <= heaviside eps q.
Proof.
  intros eps p q He H.
  destruct (c32_heaviside eps p He) as (RP & _ & HP & LP & _). destruct (c32_heaviside eps q He) as (RQ & _ & HQ & LQ & _).
  destruct (Rle_dec eps q); [rewrite HQ by assumption; lra|]. destruct (Rle_dec p (- eps)); [rewrite LP by assumption; lra|].
  rewrite !heaviside_mid by lra. apply hv_mono. apply Rmult_le_compat_r; [|lra]. left. apply Rinv_0_lt_compat. exact He.
Qed.
(** Level-set density and viscosity. *)
Theorem c32_levelset_mixture : forall a1 a2 eps phi, 0 < eps ->
  between a1 a2 (mix a1 a2 (heaviside eps phi)) /\
  (eps <= phi -> mix a1 a2 (heaviside eps phi) = a1) /\ (phi <= - eps -> mix a1 a2 (heaviside eps phi) = a2).
Proof.
  intros a1 a2 eps phi He. destruct (c32_heaviside eps phi He) as (R1 & _ & H & L & _).
  split; [apply mix_between; exact R1|]. split; intros X; [rewrite (H X)|rewrite (L X)]; unfold mix; ring.
Qed.
(** The buoyancy coefficient vanishes in the liquid and is never larger than
    the gas value nor negative. *)
Theorem c32_beta : forall cb tref tf iface, (0 < tref) -> (forall t, tf = Some t -> 0 < t) ->
  (forall eps phi, iface = inr (eps, phi) -> 0 < eps) ->
  let b := beta_base cb tref tf in
  0 < b /\ 0 <= beta_cell b iface <= b /\
  (iface = inl 1 -> beta_cell b iface = 0) /\ (iface = inl 0 -> beta_cell b iface = b) /\
  (forall eps phi, iface = inr (eps, phi) ->
     (eps <= phi -> beta_cell b iface = 0) /\ (phi <= - eps -> beta_cell b iface = b)).
Proof.
  intros cb tref tf iface Ht Hf Hi b.
  assert (B : 0 < b).
  { unfold b, beta_base. destruct (Rltb 0 cb) eqn:E; [apply Rltb_spec in E; exact E|].
    destruct tf as [t|]; apply Rdiv_lt_0_compat; try lra. apply Hf. reflexivity. }
  clearbody b. split; [exact B|]. split; [|split; [|split]].
  - unfold beta_cell. destruct iface as [f|[eps phi]]; [destruct (Rltb tight_tol f); lra|].
    destruct (c32_heaviside eps phi (Hi eps phi eq_refl)) as (R1 & _).
    split; [apply Rmult_le_pos; lra|]. apply Rle_trans with (b * 1); [apply Rmult_le_compat_l; lra|lra].
  - intros ->. unfold beta_cell, tight_tol. rewrite (proj2 (Rltb_spec _ _)); lra.
  - intros ->. unfold beta_cell, tight_tol. rewrite (proj2 (Rltb_false _ _)); lra.
  - intros eps phi ->. specialize (Hi eps phi eq_refl).
    destruct (c32_heaviside eps phi Hi) as (_ & _ & H1 & H2 & _). cbn [beta_cell].
    split; intros X; [rewrite H1 by lra | rewrite H2 by lra]; ring.
Qed.

(** Fraction from an elevation: the wet part of the cell. *)
Theorem c32_free_surface : forall eta z dz, 0 < dz ->
  0 <= free_surface_to_vof eta z dz <= 1 /\
  dz * free_surface_to_vof eta z dz = wet_length (z - dz / 2) (z + dz / 2) eta.
Proof.
  intros eta z dz Hd.
  assert (A : dz * free_surface_to_vof eta z dz = wet_length (z - dz / 2) (z + dz / 2) eta).
  { unfold free_surface_to_vof, wet_length.
    destruct (Rleb (dz / 2) (eta - z)) eqn:E1; [apply Rleb_spec in E1; unfold Rmin, Rmax; repeat destruct Rle_dec; lra|apply Rleb_false in E1].
    destruct (Rleb (eta - z) (- dz / 2)) eqn:E2; [apply Rleb_spec in E2; unfold Rmin, Rmax; repeat destruct Rle_dec; lra|apply Rleb_false in E2].
    rewrite (proj2 (Rltb_spec _ _)) by (unfold Rabs; destruct Rcase_abs; lra).
    destruct (Rleb eta z) eqn:E3; [apply Rleb_spec in E3|apply Rleb_false in E3].
    - replace (dz * (1 - (z - eta + dz / 2) / dz)) with (eta - z + dz / 2) by (field; lra).
      unfold Rmin, Rmax; repeat destruct Rle_dec; lra.
    - replace (dz * ((eta - z + dz / 2) / dz)) with (eta - z + dz / 2) by (field; lra).
      unfold Rmin, Rmax; repeat destruct Rle_dec; lra. }
  split; [|exact A].
  assert (B : 0 <= dz * free_surface_to_vof eta z dz <= dz * 1).
  { rewrite A. unfold wet_length, Rmin, Rmax. repeat destruct Rle_dec; lra. }
  split; [apply Rmult_le_reg_l with dz; lra|apply Rmult_le_reg_l with dz; lra].
Qed.
(** Summed over a column of any number of cells: the liquid height in it. *)
Theorem c32_column_height : forall eta zlo dz n, 0 < dz ->
  rsum (map (fun k => dz * free_surface_to_vof eta (zlo + (INR k + / 2) * dz) dz) (seq 0 n))
  = wet_length zlo (zlo + INR n * dz) eta.
Proof.
  intros eta zlo dz n Hd. induction n as [|n IH].
  - simpl. change (rsum []) with 0. unfold wet_length, Rmin, Rmax. repeat destruct Rle_dec; lra.
  - rewrite seq_S, map_app, rsum_app, IH. cbn [map]. rewrite rsum_cons. change (rsum []) with 0.
    rewrite (proj2 (c32_free_surface eta _ dz Hd)). rewrite S_INR. simpl (0 + n)%nat.
    assert (N : 0 <= INR n * dz) by (apply Rmult_le_pos; [apply pos_INR|lra]).
    replace (zlo + (INR n + / 2) * dz - dz / 2) with (zlo + INR n * dz) by field.
    replace (zlo + (INR n + / 2) * dz + dz / 2) with (zlo + INR n * dz + dz) by field.
    replace (zlo + (INR n + 1) * dz) with (zlo + INR n * dz + dz) by ring.
    unfold wet_length, Rmin, Rmax. repeat destruct Rle_dec; lra.
Qed.
(** So the mass of the column is exact too. *)
Theorem c32_column_mass : forall rho1 rho2 eta zlo dz n, 0 < dz ->
  rsum (map (fun k => dz * mix rho1 rho2 (free_surface_to_vof eta (zlo + (INR k + / 2) * dz) dz)) (seq 0 n))
  = rho1 * wet_length zlo (zlo + INR n * dz) eta + rho2 * (INR n * dz - wet_length zlo (zlo + INR n * dz) eta).
Proof.
  intros rho1 rho2 eta zlo dz n Hd. rewrite <- (c32_column_height eta zlo dz n Hd).
  induction n as [|n IH]; [cbn; ring|].
  rewrite seq_S, !map_app, !rsum_app, IH. cbn [map]. rewrite !rsum_cons. change (rsum []) with 0. rewrite S_INR. unfold mix. ring.
Qed.
Example c32_ex : free_surface_to_vof (1/4) 0 1 = 3/4 /\ mix 1000 1 (3/4) = 3001/4 /\ between 1000 1 (3001/4) /\
  wet_length 0 2 (3/2) = 3/2 /\ heaviside 1 0 = /2.
Proof.
  split. { unfold free_surface_to_vof.
    rewrite (proj2 (Rleb_false _ _)) by lra. rewrite (proj2 (Rleb_false _ _)) by lra.
    rewrite (proj2 (Rltb_spec _ _)) by (unfold Rabs; destruct Rcase_abs; lra). rewrite (proj2 (Rleb_false _ _)) by lra. field. }
  split; [unfold mix; field|]. split; [unfold between, Rmin, Rmax; repeat destruct Rle_dec; lra|].
  split; [unfold wet_length, Rmin, Rmax; repeat destruct Rle_dec; lra|]. apply (c32_heaviside 1 0); lra.
Qed.

(** ** C49: the hydrostatic reference state *)
(** The reference density is the mixture at the wet fraction of the cell. *)
Theorem c49_reference_density : forall rho1 rho2 problo dz wlev k, 0 < dz ->
  let z := problo + IZR k * dz in
  dz * rho0 rho1 rho2 problo dz wlev k
  = rho1 * wet_length z (z + dz) wlev + rho2 * (dz - wet_length z (z + dz) wlev) /\
  between rho1 rho2 (rho0 rho1 rho2 problo dz wlev k).
Proof.
  intros rho1 rho2 problo dz wlev k Hd z.
  assert (V : dz * rho0_vof problo dz wlev k = wet_length z (z + dz) wlev /\ 0 <= rho0_vof problo dz wlev k <= 1).
  { unfold rho0_vof. fold z. rewrite rmax_R, rmin_R. unfold wet_length.
    set (q := (wlev - z) / dz). assert (Q : wlev - z = q * dz) by (unfold q; field; lra). clearbody q.
    replace (z + dz - z) with dz by ring. rewrite Q. split.
    - unfold Rmin, Rmax. repeat destruct Rle_dec; try (rewrite Rmult_0_r; lra);
      first [ assert (q = 1) by (apply Rmult_eq_reg_r with dz; nra); nra | nra].
    - unfold Rmin, Rmax. repeat destruct Rle_dec; lra. }
  destruct V as [V1 V2]. unfold rho0. split.
  - rewrite <- V1. ring.
  - pose proof (mix_between rho1 rho2 _ V2) as M. unfold mix in M.
    replace (rho0_vof problo dz wlev k * rho1 + (1 - rho0_vof problo dz wlev k) * rho2)
      with (rho1 * rho0_vof problo dz wlev k + rho2 * (1 - rho0_vof problo dz wlev k)) by ring. exact M.
Qed.
(** Reference pressure and density are in discrete hydrostatic balance in every
    cell of the domain, for every water level, inside or outside the domain. *)
Theorem c49_hydrostatic_balance : forall rho1 rho2 problo probhi dz wlev grav k, 0 < dz ->
  (0 <= k)%Z -> problo + (IZR k + 1) * dz <= probhi ->
  p0 rho1 rho2 problo probhi dz wlev grav (k + 1) - p0 rho1 rho2 problo probhi dz wlev grav k
  = dz * rho0 rho1 rho2 problo dz wlev k * grav.
Proof.
  intros rho1 rho2 problo probhi dz wlev grav k Hd Hk Hhi.
  destruct (c49_reference_density rho1 rho2 problo dz wlev k Hd) as [E _]. cbv zeta in E. rewrite E. clear E.
  unfold p0. rewrite plus_IZR.
  assert (K : 0 <= IZR k) by (apply IZR_le; lia).
  assert (KD : 0 <= IZR k * dz) by (apply Rmult_le_pos; lra).
  replace (problo + (IZR k + 1) * dz) with (problo + IZR k * dz + dz) in * by ring.
  set (z := problo + IZR k * dz) in *. rewrite !rmax_R, !rmin_R.
  assert (L : Rmax 0 (Rmin (wlev - z) (wlev - problo)) - Rmax 0 (Rmin (wlev - (z + dz)) (wlev - problo)) = wet_length z (z + dz) wlev).
  { unfold wet_length, Rmin, Rmax. unfold z in *. repeat destruct Rle_dec; lra. }
  assert (G : Rmax 0 (Rmin (probhi - wlev) (probhi - z)) - Rmax 0 (Rmin (probhi - wlev) (probhi - (z + dz))) = dz - wet_length z (z + dz) wlev).
  { unfold wet_length, Rmin, Rmax. repeat destruct Rle_dec; lra. }
  rewrite <- L. rewrite <- L in G.
  set (l0 := Rmax 0 (Rmin (wlev - z) (wlev - problo))) in *. set (l1 := Rmax 0 (Rmin (wlev - (z + dz)) (wlev - problo))) in *.
  set (g0 := Rmax 0 (Rmin (probhi - wlev) (probhi - z))) in *. set (g1 := Rmax 0 (Rmin (probhi - wlev) (probhi - (z + dz)))) in *.
  rewrite <- G. ring.
Qed.
(** At the top of the domain the reference pressure is that of the liquid above
    it, zero when the water level is inside. *)
Theorem c49_pressure_top : forall rho1 rho2 problo dz wlev grav n, 0 < dz -> (0 <= n)%Z ->
  wlev <= problo + IZR n * dz ->
  p0 rho1 rho2 problo (problo + IZR n * dz) dz wlev grav n = 0.
Proof.
  intros rho1 rho2 problo dz wlev grav n Hd Hn Hw. unfold p0. rewrite !rmax_R, !rmin_R.
  assert (K : 0 <= IZR n) by (apply IZR_le; lia).
  assert (KD : 0 <= IZR n * dz) by (apply Rmult_le_pos; lra).
  assert (A : Rmax 0 (Rmin (problo + IZR n * dz - wlev) (problo + IZR n * dz - (problo + IZR n * dz))) = 0) by (unfold Rmin, Rmax; repeat destruct Rle_dec; lra).
  assert (B : Rmax 0 (Rmin (wlev - (problo + IZR n * dz)) (wlev - problo)) = 0) by (unfold Rmin, Rmax; repeat destruct Rle_dec; lra).
  rewrite A, B. ring.
Qed.
(** Below the bottom (ghost nodes) the liquid height stops growing but the gas
    height does not when the liquid does not reach the domain. *)
Example c49_ex : p0 1000 1 0 10 1 5 (-(10)) 0 = 50050 /\ p0 1000 1 0 10 1 5 (-(10)) 10 = 0 /\ rho0 1000 1 0 2 5 2 = 1001 / 2.
Proof.
  unfold p0, rho0, rho0_vof. rewrite !rmax_R, !rmin_R.
  split; [|split]; unfold Rmin, Rmax; repeat destruct Rle_dec; try lra; field_simplify in n; lra.
Qed.

Print Assumptions c32_mixture.
Print Assumptions c32_mixture_positive.
Print Assumptions c32_mixture_monotone.
Print Assumptions c32_mixture_invertible.
Print Assumptions c32_diffusivities.
Print Assumptions c32_heaviside.
Print Assumptions c32_heaviside_monotone.
Print Assumptions c32_levelset_mixture.
Print Assumptions c32_beta.
Print Assumptions c32_free_surface.
Print Assumptions c32_column_height.
Print Assumptions c32_column_mass.
Print Assumptions c49_reference_density.
Print Assumptions c49_hydrostatic_balance.
Print Assumptions c49_pressure_top.
