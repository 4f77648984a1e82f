(** C36: wall shear stress models. *)
From Coq Require Import Reals Lra ZArith List Bool Lia ZifyBool ZifyNat Psatz.
From Verif Require Import BoxR BoxRFacts MoninObukhov MoninObukhovSpec PropMO.
Import ListNotations.
Local Open Scope R_scope.

(** Stress of a model at a sample; [mn] are the plane means of the velocity. *)
Definition tau_x t p s (mn : means) (x : sample) : R := calc_vel t p s (um mn) (su x) (speed x).
Definition tau_y t p s (mn : means) (x : sample) : R := calc_vel t p s (vm mn) (sv x) (speed x).

Lemma speed_sq x : speed x * speed x = su x * su x + sv x * sv x.
Proof. unfold speed. apply sqrt_sqrt. nra. Qed.
Lemma speed_nonneg x : 0 <= speed x.
Proof. apply sqrt_pos. Qed.
Lemma rmax_ge_r a b : b <= rmax a b.
Proof. unfold rmax. destruct (Rltb a b) eqn:E; [lra|apply Rltb_false in E; lra]. Qed.
Lemma rmax_ge_l a b : a <= rmax a b.
Proof. unfold rmax. destruct (Rltb a b) eqn:E; [apply Rltb_spec in E; lra|lra]. Qed.
Lemma rmax_l a b : b <= a -> rmax a b = a.
Proof. intros H. unfold rmax. destruct (Rltb a b) eqn:E; [apply Rltb_spec in E; lra|reflexivity]. Qed.

(** *** Donelan drag coefficient: between 0.001 and 0.0024, never decreasing with the
    wind, and without jumps. *)
Theorem c36_drag : forall w w',
  1/1000 <= donelan_cd w <= 24/10000 /\
  (w <= w' -> 0 <= donelan_cd w' - donelan_cd w <= 7/100000 * (w' - w)) /\
  (w <= 5 -> donelan_cd w = 1/1000) /\ (25 <= w -> donelan_cd w = 24/10000).
Proof.
  intros w w'. unfold donelan_cd.
  destruct (Rleb w 5) eqn:A, (Rleb w' 5) eqn:A', (Rltb w 25) eqn:B, (Rltb w' 25) eqn:B',
    (Rltb 5 w) eqn:C, (Rltb 5 w') eqn:C'; cbn [andb];
    rewrite ?Rleb_spec, ?Rltb_spec, ?Rleb_false, ?Rltb_false in *; repeat split; intros; lra.
Qed.

(** *** Alignment: three of the models return a stress along the local wind *)
Theorem c36_aligned : forall t p s mn x, In t [WLocal; WSchumann; WDonelan] ->
  0 < vmag p -> utau s <> 0 -> 0 < speed x ->
  exists c, 0 < c /\ tau_x t p s mn x = c * su x /\ tau_y t p s mn x = c * sv x.
Proof.
  intros t p s mn x Ht HV HU Hw. assert (U2 : 0 < utau s * utau s) by nra.
  destruct Ht as [<-|[<-|[<-|[]]]]; unfold tau_x, tau_y, calc_vel.
  - exists (utau s * utau s / rmax (speed x) (1/1000000)).
    pose proof (rmax_ge_l (speed x) (1/1000000)). split; [apply Rdiv_lt_0_compat; lra|].
    split; field; lra.
  - exists (utau s * utau s / vmag p). split; [apply Rdiv_lt_0_compat; lra|]. split; field; lra.
  - exists (donelan_cd (vmag p) * speed x). destruct (c36_drag (vmag p) 0) as ((D & _) & _).
    split; [apply Rmult_lt_0_compat; lra|]. split; ring.
Qed.

(** The constant and the Moeng model do not: the first ignores the local wind, the
    second even pushes slow air along. *)
Theorem c36_aligned_refuted :
  (exists p s mn x, 0 < vmag p /\ 0 < utau s /\ 0 < speed x /\
     tau_x WConstant p s mn x * su x + tau_y WConstant p s mn x * sv x < 0) /\
  (exists p s l, 0 < vmag p /\ 0 < utau s /\
     vmag p = average (map speed l) /\
     exists x, In x l /\ 0 < speed x /\
       let mn := Means (average (map su l)) (average (map sv l)) in
       tau_x WMoeng p s mn x * su x + tau_y WMoeng p s mn x * sv x < 0).
Proof.
  assert (SP : forall a b, 0 <= a -> speed (Sample a 0 b) = a).
  { intros a b Ha. unfold speed; cbn. replace (a * a + 0 * 0) with (a * a) by ring.
    apply sqrt_square. exact Ha. }
  split.
  - exists (MoPar 10 1 1 1 1 1 300 5 5 16 16 true), (MoSt 1 1 0 0 0 0 0), (Means 1 0), (Sample (-1) 0 300).
    assert (S1 : speed (Sample (-1) 0 300) = 1).
    { unfold speed; cbn. replace (-1 * -1 + 0 * 0) with 1 by ring. apply sqrt_1. }
    unfold tau_x, tau_y, calc_vel. rewrite S1. cbn. repeat split; lra.
  - exists (MoPar 10 1 1 1 1 4 300 5 5 16 16 true), (MoSt 1 1 0 0 0 0 0),
      [Sample 1 0 300; Sample 7 0 300].
    cbn [map]. rewrite !SP by lra. unfold average, total; cbn [fold_right length su sv map].
    split; [cbn; lra|]. split; [cbn; lra|]. split; [cbn; lra|].
    exists (Sample 1 0 300). split; [left; reflexivity|].
    unfold tau_x, tau_y, calc_vel. rewrite SP by lra. cbn. split; lra.
Qed.

(** *** Plane averages *)
Lemma total_map_lin {A} (f g : A -> R) a b c l :
  total (map (fun x => a * f x + b * g x + c) l) =
  a * total (map f l) + b * total (map g l) + c * INR (length l).
Proof.
  induction l as [|x l IH]; cbn [map total fold_right length]; [cbn; ring|].
  fold (total (map (fun x => a * f x + b * g x + c) l)) (total (map f l)) (total (map g l)).
  rewrite IH, S_INR. ring.
Qed.
Lemma average_lin {A} (f g : A -> R) a b c l : l <> [] ->
  average (map (fun x => a * f x + b * g x + c) l) =
  a * average (map f l) + b * average (map g l) + c.
Proof.
  intros Hl. unfold average. rewrite total_map_lin, !map_length.
  assert (INR (length l) <> 0) by (apply not_0_INR; destruct l; [congruence|discriminate]).
  field. assumption.
Qed.
Lemma average_ext {A} (f g : A -> R) l : (forall x, In x l -> f x = g x) ->
  average (map f l) = average (map g l).
Proof. intros H. f_equal. apply map_ext_in. exact H. Qed.
Lemma average_const {A} c (l : list A) : l <> [] -> average (map (fun _ => c) l) = c.
Proof.
  intros Hl. rewrite (average_ext (fun _ => c) (fun _ => 0 * 0 + 0 * 0 + c)) by (intros; ring).
  rewrite (average_lin (fun _ => 0) (fun _ => 0) 0 0 c) by exact Hl. ring.
Qed.
Lemma average_le {A} (f g : A -> R) l : (forall x, In x l -> f x <= g x) ->
  average (map f l) <= average (map g l).
Proof.
  intros H. unfold average. rewrite !map_length.
  assert (T : total (map f l) <= total (map g l)).
  { induction l as [|x l IH]; cbn; [lra|]. pose proof (H x (or_introl eq_refl)).
    assert (total (map f l) <= total (map g l)) by (apply IH; intros y Hy; apply H; right; exact Hy).
    unfold total in *. lra. }
  destruct l as [|x l]; [cbn; lra|]. unfold Rdiv. apply Rmult_le_compat_r; [|exact T].
  apply Rlt_le, Rinv_0_lt_compat, lt_0_INR. cbn; lia.
Qed.

(** Averaged over the plane the means were taken on, the constant, Schumann and Moeng
    models give the same stress: u*^2 times mean velocity over mean speed. *)
Theorem c36_plane_average : forall t p s l, In t [WConstant; WSchumann; WMoeng] ->
  l <> [] -> 0 < vmag p -> vmag p = average (map speed l) ->
  let mn := Means (average (map su l)) (average (map sv l)) in
  average (map (tau_x t p s mn) l) = um mn / vmag p * (utau s * utau s) /\
  average (map (tau_y t p s mn) l) = vm mn / vmag p * (utau s * utau s).
Proof.
  intros t p s l Ht Hl HV EV mn.
  assert (G : forall f, (f = su \/ f = sv) ->
     average (map (fun x => calc_vel t p s (average (map f l)) (f x) (speed x)) l) =
     average (map f l) / vmag p * (utau s * utau s)).
  { intros f _. set (m := average (map f l)). destruct Ht as [<-|[<-|[<-|[]]]]; unfold calc_vel.
    - apply average_const. exact Hl.
    - rewrite (average_ext _ (fun x => (utau s * utau s / vmag p) * f x + 0 * f x + 0))
        by (intros; field; lra).
      rewrite average_lin by exact Hl. fold m. field. lra.
    - rewrite (average_ext _ (fun x => (utau s * utau s / vmag p) * f x
          + (m * (utau s * utau s) / (vmag p * vmag p)) * speed x
          + - (m * (utau s * utau s) / vmag p))) by (intros; field; lra).
      rewrite average_lin by exact Hl. fold m. rewrite <- EV. field. lra. }
  split; [apply (G su); left; reflexivity|apply (G sv); right; reflexivity].
Qed.

(** Its magnitude never exceeds u*^2 ... *)
Theorem c36_average_bound : forall t p s l, In t [WConstant; WSchumann; WMoeng] ->
  l <> [] -> 0 < vmag p -> vmag p = average (map speed l) ->
  let mn := Means (average (map su l)) (average (map sv l)) in
  let ax := average (map (tau_x t p s mn) l) in
  let ay := average (map (tau_y t p s mn) l) in
  sqrt (ax * ax + ay * ay) <= utau s * utau s.
Proof.
  intros t p s l Ht Hl HV EV mn ax ay.
  destruct (c36_plane_average t p s l Ht Hl HV EV) as (Ex & Ey). fold mn in Ex, Ey.
  fold ax in Ex. fold ay in Ey.
  assert (U2 : 0 <= utau s * utau s) by nra.
  set (a := um mn) in *. set (b := vm mn) in *.
  assert (T : a * a + b * b <= vmag p * vmag p).
  { set (n := sqrt (a * a + b * b)).
    assert (N2 : n * n = a * a + b * b) by (apply sqrt_sqrt; nra).
    assert (N0 : 0 <= n) by apply sqrt_pos.
    destruct (Req_dec n 0) as [E|E]; [rewrite E in N2; nra|].
    assert (A : average (map (fun x => (a * su x + b * sv x) / n) l) <= average (map speed l)).
    { apply average_le. intros x _. apply Rmult_le_reg_r with n; [lra|].
      unfold Rdiv. rewrite Rmult_assoc, Rinv_l, Rmult_1_r by lra.
      pose proof (speed_sq x) as S2. pose proof (speed_nonneg x) as S0.
      destruct (Rle_dec (a * su x + b * sv x) 0) as [Hn|Hp].
      - apply Rle_trans with 0; [exact Hn|]. apply Rmult_le_pos; lra.
      - apply Rsqr_incr_0; [|lra|apply Rmult_le_pos; lra]. unfold Rsqr.
        replace (speed x * n * (speed x * n)) with ((speed x * speed x) * (n * n)) by ring.
        rewrite S2, N2. assert (0 <= (a * sv x - b * su x) * (a * sv x - b * su x)) by apply Rle_0_sqr. nra. }
    rewrite (average_ext _ (fun x => (a / n) * su x + (b / n) * sv x + 0)) in A
      by (intros; field; lra).
    rewrite average_lin in A by exact Hl. rewrite <- EV in A.
    change (average (map su l)) with a in A. change (average (map sv l)) with b in A.
    replace (a / n * a + b / n * b + 0) with ((a * a + b * b) / n) in A by (field; lra).
    rewrite <- N2 in A. replace (n * n / n) with n in A by (field; lra). nra. }
  assert (M : ax * ax + ay * ay =
     (a * a + b * b) / (vmag p * vmag p) * (utau s * utau s * (utau s * utau s))).
  { rewrite Ex, Ey. field. lra. }
  rewrite <- (sqrt_square (utau s * utau s)) by exact U2. apply sqrt_le_1.
  - nra.
  - nra.
  - rewrite M. rewrite <- (Rmult_1_l (utau s * utau s * (utau s * utau s))) at 2.
    apply Rmult_le_compat_r; [nra|]. apply Rmult_le_reg_r with (vmag p * vmag p); [nra|].
    unfold Rdiv. rewrite Rmult_assoc, Rinv_l by nra. lra.
Qed.

(** ... and equals it, along the wind, if the wind is the same everywhere; then every
    similarity model agrees at every point. *)
Theorem c36_homogeneous : forall t p s mn x, In t [WConstant; WLocal; WSchumann; WMoeng] ->
  1/1000000 <= speed x -> vmag p = speed x -> um mn = su x -> vm mn = sv x ->
  tau_x t p s mn x = su x / speed x * (utau s * utau s) /\
  tau_y t p s mn x = sv x / speed x * (utau s * utau s) /\
  sqrt (tau_x t p s mn x * tau_x t p s mn x + tau_y t p s mn x * tau_y t p s mn x) =
    utau s * utau s.
Proof.
  intros t p s mn x Ht Hw EV Eu Ev.
  assert (A : tau_x t p s mn x = su x / speed x * (utau s * utau s) /\
              tau_y t p s mn x = sv x / speed x * (utau s * utau s)).
  { unfold tau_x, tau_y. rewrite Eu, Ev.
    destruct Ht as [<-|[<-|[<-|[<-|[]]]]]; unfold calc_vel; rewrite ?EV;
      [split; reflexivity| |split; reflexivity|split; field; lra].
    rewrite rmax_l by lra. split; reflexivity. }
  destruct A as (-> & ->). split; [reflexivity|]. split; [reflexivity|].
  transitivity (sqrt (utau s * utau s * (utau s * utau s))); [|apply sqrt_square; nra]. f_equal.
  replace (su x / speed x * (utau s * utau s) * (su x / speed x * (utau s * utau s)) +
           sv x / speed x * (utau s * utau s) * (sv x / speed x * (utau s * utau s)))
    with ((su x * su x + sv x * sv x) / (speed x * speed x) * (utau s * utau s * (utau s * utau s)))
    by (field; lra).
  rewrite <- speed_sq. field. lra.
Qed.

(** The local model has magnitude u*^2 in every wind that is not almost still, and less
    in almost still air. *)
Theorem c36_local_magnitude : forall p s mn x,
  let m := sqrt (tau_x WLocal p s mn x * tau_x WLocal p s mn x +
                 tau_y WLocal p s mn x * tau_y WLocal p s mn x) in
  m <= utau s * utau s /\ (1/1000000 <= speed x -> m = utau s * utau s).
Proof.
  intros p s mn x. cbv zeta. unfold tau_x, tau_y, calc_vel.
  set (d := rmax (speed x) (1/1000000)).
  pose proof (rmax_ge_r (speed x) (1/1000000)) as D1. pose proof (rmax_ge_l (speed x) (1/1000000)) as D2.
  fold d in D1, D2. pose proof (speed_nonneg x) as S0.
  assert (E : su x / d * (utau s * utau s) * (su x / d * (utau s * utau s)) +
      sv x / d * (utau s * utau s) * (sv x / d * (utau s * utau s)) =
      (speed x / d * (utau s * utau s)) * (speed x / d * (utau s * utau s))).
  { replace (speed x / d * (utau s * utau s) * (speed x / d * (utau s * utau s)))
      with ((speed x * speed x) / (d * d) * (utau s * utau s * (utau s * utau s))) by (field; lra).
    rewrite speed_sq. field. lra. }
  assert (Q : 0 <= speed x / d <= 1).
  { split; [apply Rle_mult_inv_pos; lra|]. apply Rmult_le_reg_r with d; [lra|].
    unfold Rdiv. rewrite Rmult_assoc, Rinv_l by lra. lra. }
  rewrite E, sqrt_square by nra. split; [nra|].
  intros Hs. unfold d. rewrite rmax_l by lra. field. lra.
Qed.

(** *** Heat flux: with the surface temperature and heat flux related by the temperature
    profile, the average of the modelled gradient is minus the heat flux, for the four
    similarity models. *)
Theorem c36_heat_average : forall t p s l, In t [WConstant; WLocal; WSchumann; WMoeng] ->
  l <> [] -> 0 < vmag p -> vmag p = average (map speed l) -> theta p = average (map sth l) ->
  phi_h p s (zref p) <> 0 ->
  tflux s * phi_h p s (zref p) = utau s * kappa p * (tsurf s - theta p) ->
  average (map (fun x => calc_theta t p s (speed x) (sth x)) l) = - tflux s.
Proof.
  intros t p s l Ht Hl HV EV ET Hphi Hq. set (ph := phi_h p s (zref p)) in *.
  assert (Q : tflux s = utau s * kappa p / ph * (tsurf s - theta p)).
  { apply Rmult_eq_reg_r with ph; [|exact Hphi]. rewrite Hq. field. exact Hphi. }
  assert (G : average (map (fun x => calc_theta t p s (speed x) (sth x)) l) =
     utau s * kappa p / ph * (theta p - tsurf s)).
  { destruct Ht as [<-|[<-|[<-|[<-|[]]]]]; unfold calc_theta; fold ph.
    - apply average_const; exact Hl.
    - rewrite (average_ext _ (fun x => (utau s * kappa p / ph) * sth x + 0 * sth x
          + - (utau s * kappa p / ph * tsurf s))) by (intros; field; lra).
      rewrite average_lin, <- ET by exact Hl. field. lra.
    - rewrite (average_ext _ (fun x => (utau s * kappa p / ph) * sth x + 0 * sth x
          + - (utau s * kappa p / ph * tsurf s))) by (intros; field; lra).
      rewrite average_lin, <- ET by exact Hl. field. lra.
    - rewrite (average_ext _ (fun x => (utau s * kappa p / ph) * sth x
          + (utau s * kappa p / (vmag p * ph) * (theta p - tsurf s)) * speed x
          + - (utau s * kappa p / ph * theta p))) by (intros; field; lra).
      rewrite average_lin, <- ET, <- EV by exact Hl. field. lra. }
  rewrite G, Q. ring.
Qed.

(** The relation holds on return of the iteration when its last step changed neither
    the friction velocity nor the correction. *)
Theorem c36_heat_fixpoint : forall p s, eps64 < Rabs (tflux (mo_body p s)) ->
  utau (mo_body p s) = utau s -> cur_psih (mo_body p s) = cur_psih s ->
  phi_h p (mo_body p s) (zref p) <> 0 -> utau s * kappa p <> 0 ->
  let r := mo_body p s in
  tflux r * phi_h p r (zref p) = utau r * kappa p * (tsurf r - theta p).
Proof.
  intros p s Hn Eu Ep Hphi HU. cbv zeta. rewrite Eu.
  assert (F : phi_h p (mo_body p s) (zref p) = ln (zref p / z0t p) - cur_psih s).
  { unfold phi_h. rewrite <- Ep, body_ph. rewrite body_q in Hn.
    rewrite (proj2 (body_nonneutral p s Hn)). reflexivity. }
  rewrite F in *. rewrite body_q, body_ts. unfold new_q. destruct (flux_mode p).
  - field. split; intros E; rewrite E in HU; lra.
  - field. exact Hphi.
Qed.

(** The Donelan model returns the opposite sign: for the same surface heat flux it
    hands the temperature equation the negative of what the others do. *)
Theorem c36_donelan_heat_refuted :
  (forall p s l, l <> [] -> flux_mode p = true ->
     average (map (fun x => calc_theta WDonelan p s (speed x) (sth x)) l) = tflux s) /\
  (forall p s w th, flux_mode p = false -> 0 < vmag p -> theta p < tsurf s ->
     0 < calc_theta WDonelan p s w th) /\
  (forall p s w th, 0 < utau s -> 0 < kappa p -> 0 < phi_h p s (zref p) -> theta p < tsurf s ->
     calc_theta WConstant p s w th < 0).
Proof.
  split; [|split].
  - intros p s l Hl Hf. unfold calc_theta. rewrite Hf. apply average_const. exact Hl.
  - intros p s w th Hf HV HT. unfold calc_theta. rewrite Hf. apply Rmult_lt_0_compat; lra.
  - intros p s w th HU HK HP HT. unfold calc_theta.
    assert (0 < utau s * kappa p / phi_h p s (zref p)) by (apply Rdiv_lt_0_compat; nra). nra.
Qed.

(** *** Heterogeneous walls with a given Obukhov length *)
(** The velocity gradient handed to the solver is along the local wind and its stress has
    magnitude ustar^2; the temperature gradient has the sign of the Obukhov length. *)
Theorem c36_mol : forall p L z rho mu x, 0 < z0 p < z -> 0 < kappa p -> 0 < beta_m p -> 0 < gamma_m p ->
  0 < rho -> 0 < mu -> 0 < speed x -> L <> 0 ->
  psi_m (beta_m p) (gamma_m p) (z / L) < ln (z / z0 p) ->
  let us := mol_ustar p L z (speed x) in
  let gx := mol_vel_ghost p L z 1 rho mu (su x) (speed x) in
  let gy := mol_vel_ghost p L z 1 rho mu (sv x) (speed x) in
  0 < us /\ (exists c, 0 < c /\ gx = c * su x /\ gy = c * sv x) /\
  sqrt (gx * gx + gy * gy) * mu / rho = us * us /\
  (0 < sth x -> 0 < L * mol_theta_ghost p L z 1 rho mu (speed x) (sth x)).
Proof.
  intros p L z rho mu x Hz K BM GM Hr Hmu Hw HL Hd us gx gy.
  assert (U : 0 < us) by (unfold us, mol_ustar; apply Rdiv_lt_0_compat; nra).
  assert (U2 : 0 < us * us) by nra.
  assert (Ex : gx = us * us * rho / (speed x * mu) * su x) by (unfold gx, mol_vel_ghost; fold us; field; lra).
  assert (Ey : gy = us * us * rho / (speed x * mu) * sv x) by (unfold gy, mol_vel_ghost; fold us; field; lra).
  split; [exact U|]. split; [|split].
  - exists (us * us * rho / (speed x * mu)). split; [|split; assumption].
    apply Rdiv_lt_0_compat; [nra|nra].
  - assert (E : gx * gx + gy * gy = (us * us * rho / mu) * (us * us * rho / mu)).
    { rewrite Ex, Ey. replace (us * us * rho / (speed x * mu) * su x * (us * us * rho / (speed x * mu) * su x) +
        us * us * rho / (speed x * mu) * sv x * (us * us * rho / (speed x * mu) * sv x))
        with ((us * us * rho / (speed x * mu)) * (us * us * rho / (speed x * mu)) * (su x * su x + sv x * sv x)) by ring.
      rewrite <- speed_sq. field. lra. }
    rewrite E, sqrt_square by (apply Rlt_le, Rdiv_lt_0_compat; [apply Rmult_lt_0_compat|]; lra). field. lra.
  - intros Ht. unfold mol_theta_ghost. fold us.
    replace (L * (1 * rho * (us * (sth x * us * us / (kappa p * (981 / 100) * L))) / mu))
      with (rho * us * sth x * (us * us) / (kappa p * (981/100) * mu)) by (field; repeat split; lra).
    clearbody us. apply Rdiv_lt_0_compat; repeat apply Rmult_lt_0_compat; lra.
Qed.

(** Blanked terrain cells get no stress and no heat flux; elsewhere the gradient times
    the diffusivity is the modelled stress. *)
Theorem c36_ghost : forall tau rho mu, mu <> 0 -> rho <> 0 ->
  wall_vel_ghost 0 tau rho mu = 0 /\ wall_theta_ghost 0 tau rho mu = 0 /\
  wall_vel_ghost 1 tau rho mu * mu / rho = tau /\ wall_theta_ghost 1 tau rho mu * mu / rho = tau.
Proof.
  intros tau rho mu Hm Hr. unfold wall_vel_ghost, wall_theta_ghost.
  repeat split; field; try split; assumption.
Qed.

(** The prescribed surface temperature is constant before the start time and changes by
    [rate] kelvin per hour after it. *)
Theorem c36_surface_temperature : forall init rate t0 t,
  (t <= t0 -> surface_temp_rate init rate t0 t = init) /\
  (t0 <= t -> surface_temp_rate init rate t0 (t + 3600) = surface_temp_rate init rate t0 t + rate).
Proof.
  intros init rate t0 t. unfold surface_temp_rate. split; intros H.
  - unfold rmax. destruct (Rltb (t - t0) 0) eqn:E; [field|].
    apply Rltb_false in E. replace t with t0 by lra. field.
  - rewrite !rmax_l by lra. field.
Qed.

(** Non-vacuity: a plane of two different winds. *)
Example c36_case : exists p s l, l <> [] /\ 0 < vmag p /\ vmag p = average (map speed l) /\
  theta p = average (map sth l) /\
  average (map (tau_x WMoeng p s (Means (average (map su l)) (average (map sv l)))) l) = 1/5.
Proof.
  set (l := [Sample 3 4 299; Sample 0 5 301]).
  assert (S1 : speed (Sample 3 4 299) = 5).
  { unfold speed; cbn. replace (3 * 3 + 4 * 4) with (5 * 5) by ring. apply sqrt_square; lra. }
  assert (S2 : speed (Sample 0 5 301) = 5).
  { unfold speed; cbn. replace (0 * 0 + 5 * 5) with (5 * 5) by ring. apply sqrt_square; lra. }
  assert (EV : average (map speed l) = 5).
  { unfold l, average, total. cbn [map fold_right length]. rewrite S1, S2. cbn. field. }
  exists (MoPar 10 1 1 1 1 5 300 5 5 16 16 true), (MoSt (sqrt (2/3)) 1 0 0 0 0 0), l.
  split; [discriminate|]. split; [cbn; lra|]. split; [symmetry; exact EV|].
  split; [unfold l, average, total; cbn; field|].
  destruct (c36_plane_average WMoeng (MoPar 10 1 1 1 1 5 300 5 5 16 16 true)
    (MoSt (sqrt (2/3)) 1 0 0 0 0 0) l ltac:(right; right; left; reflexivity) ltac:(discriminate)
    ltac:(cbn; lra) ltac:(symmetry; exact EV)) as (E & _).
  rewrite E. cbn [um vmag utau]. rewrite sqrt_sqrt by lra.
  unfold l, average, total; cbn. field.
Qed.

Print Assumptions c36_drag.
Print Assumptions c36_aligned.
Print Assumptions c36_aligned_refuted.
Print Assumptions c36_plane_average.
Print Assumptions c36_average_bound.
Print Assumptions c36_homogeneous.
Print Assumptions c36_local_magnitude.
Print Assumptions c36_heat_average.
Print Assumptions c36_heat_fixpoint.
Print Assumptions c36_donelan_heat_refuted.
Print Assumptions c36_mol.
Print Assumptions c36_ghost.
Print Assumptions c36_surface_temperature.
