(** C68: the k-omega SST model and its hybrid (IDDES) version. *)
From Verif Require Import BoxR BoxRFacts Turbulence TurbSpec TurbProofs PropLES.
From Coq Require Import Lra Lia Psatz.
Open Scope R_scope.

(** Coefficients and states the statements are about. *)
Definition usable (m : sst) : Prop :=
  0 < beta_star m /\ 0 < a1 m /\ 0 <= sigma_omega2 m /\
  0 <= alpha1 m /\ 0 <= alpha2 m /\ 0 <= beta1 m /\ 0 <= beta2 m.
Definition physical (c : scell) : Prop :=
  0 < rho c /\ 0 <= lmu c /\ 0 <= tke c /\ 0 < sdr c /\ 0 < wd c /\ 0 <= strain c.

Lemma cdkomega_pos m c : 0 < cdkomega m c.
Proof. unfold cdkomega. pose proof floor6_pos. pose proof (rmax_le_l floor6 (2 * rho c * sigma_omega2 m * gko c / (sdr c + floor10))). lra. Qed.
Lemma tmp1_nonneg m c : usable m -> physical c -> 0 <= sst_tmp1 m c.
Proof.
  intros (?&?&?&_) (?&?&?&?&?&?). pose proof (cdkomega_pos m c). unfold sst_tmp1. apply div_nonneg.
  - repeat (apply Rmult_le_pos; try lra).
  - repeat (apply Rmult_lt_0_compat; try lra).
Qed.
Lemma tmp2_den m c : usable m -> physical c -> 0 < beta_star m * sdr c * wd c + floor10.
Proof.
  intros (?&?&?&_) (?&?&?&?&?&?). pose proof floor10_pos.
  assert (0 < beta_star m * sdr c * wd c) by (repeat (apply Rmult_lt_0_compat; try lra)). lra.
Qed.
Lemma tmp2_nonneg m c : usable m -> physical c -> 0 <= sst_tmp2 m c.
Proof. intros U P. unfold sst_tmp2. apply div_nonneg; [apply sqrt_pos|apply tmp2_den; assumption]. Qed.
Lemma tmp3_den c : physical c -> 0 < wd c * wd c * sdr c * rho c + floor10.
Proof.
  intros (?&?&?&?&?&?). pose proof floor10_pos.
  assert (0 < wd c * wd c * sdr c * rho c) by (repeat (apply Rmult_lt_0_compat; try lra)). lra.
Qed.
Lemma tmp3_nonneg c : physical c -> 0 <= sst_tmp3 c.
Proof. intros P. unfold sst_tmp3. apply div_nonneg; [destruct P; lra|apply tmp3_den; assumption]. Qed.

Lemma f1_range m c : 0 <= sst_f1 m c < 1.
Proof.
  unfold sst_f1. cbv zeta. split; [|apply tanh_lt1]. apply tanh_nonneg.
  set (x := rmin _ _). replace (x * x * x * x) with ((x * x) * (x * x)) by ring. nra.
Qed.
Lemma f2_range m c : 0 <= sst_f2 m c < 1.
Proof. unfold sst_f2. cbv zeta. split; [|apply tanh_lt1]. apply tanh_nonneg. nra. Qed.
Lemma blend_between f a b : 0 <= f <= 1 -> Rmin a b <= blend f a b <= Rmax a b.
Proof.
  intro F. unfold blend. pose proof (Rmin_l a b). pose proof (Rmin_r a b).
  pose proof (Rmax_l a b). pose proof (Rmax_r a b). split; nra.
Qed.

(** The blending function lies in [0,1), so every blended coefficient lies between the two it
    blends; away from walls it is the second. *)
Theorem c68_blending m d dt c :
  let f := o_f1 (sst_update m d dt c) in
  0 <= f < 1 /\ (forall a b, Rmin a b <= blend f a b <= Rmax a b) /\
  (forall a b, f = 0 -> blend f a b = b) /\
  (forall lam mut, exists s, sst_diff m (Some true) lam f mut = Base.Ret (lam + s * mut) /\
     Rmin (sigma_k1 m) (sigma_k2 m) <= s <= Rmax (sigma_k1 m) (sigma_k2 m)) /\
  (forall lam mut, exists s, sst_diff m (Some false) lam f mut = Base.Ret (lam + s * mut) /\
     Rmin (sigma_omega1 m) (sigma_omega2 m) <= s <= Rmax (sigma_omega1 m) (sigma_omega2 m)).
Proof.
  intro f. assert (E : f = sst_f1 m c) by (unfold f, sst_update; destruct d; reflexivity).
  pose proof (f1_range m c) as F. rewrite <- E in F.
  split; [exact F|]. split; [intros; apply blend_between; lra|].
  split; [intros a b Z; rewrite Z; unfold blend; ring|].
  split; intros lam mut; eexists; (split; [reflexivity|apply blend_between; lra]).
Qed.

(** ** Eddy viscosity *)
Lemma mu_of m d dt c : o_mu (sst_update m d dt c) = sst_mu m c.
Proof. unfold sst_update; destruct d; reflexivity. Qed.
Lemma mu_den m c : usable m -> physical c -> 0 < rmax (a1 m * sdr c) (strain c * sst_f2 m c).
Proof.
  intros (?&?&?&_) (?&?&?&?&?&?). pose proof (rmax_le_l (a1 m * sdr c) (strain c * sst_f2 m c)). nra.
Qed.

(** Between zero and rho k / omega, below the Bradshaw limit inside boundary layers, and equal to
    rho k / omega where the strain is moderate. *)
Theorem c68_viscosity m d dt c : usable m -> physical c ->
  let mu := o_mu (sst_update m d dt c) in
  0 <= mu <= rho c * tke c / sdr c /\
  mu * (strain c * sst_f2 m c) <= rho c * a1 m * tke c /\
  mu * strain c * sst_f2 m c * strain c <= rho c * a1 m * tke c * strain c /\
  (strain c <= a1 m * sdr c -> mu = rho c * tke c / sdr c) /\
  (tke c = 0 -> mu = 0).
Proof.
  intros U P mu. pose proof (mu_den m c U P) as D. pose proof (f2_range m c) as F.
  assert (E : mu = rho c * a1 m * tke c / rmax (a1 m * sdr c) (strain c * sst_f2 m c))
    by (unfold mu; rewrite mu_of; reflexivity).
  destruct U as (U1&U2&_). destruct P as (P1&P2&P3&P4&P5&P6).
  set (den := rmax (a1 m * sdr c) (strain c * sst_f2 m c)) in *.
  assert (D1 : a1 m * sdr c <= den) by apply rmax_le_l.
  assert (D2 : strain c * sst_f2 m c <= den) by apply rmax_le_r.
  assert (N : 0 <= rho c * a1 m * tke c) by (repeat (apply Rmult_le_pos; try lra)).
  assert (M0 : 0 <= mu) by (rewrite E; apply div_nonneg; lra).
  assert (MD : mu * den = rho c * a1 m * tke c) by (rewrite E; field; lra).
  assert (B : mu * (strain c * sst_f2 m c) <= rho c * a1 m * tke c).
  { rewrite <- MD. apply Rmult_le_compat_l; lra. }
  repeat apply conj.
  - exact M0.
  - apply le_div; [lra|]. apply Rmult_le_reg_l with (a1 m); [lra|].
    replace (a1 m * (mu * sdr c)) with (mu * (a1 m * sdr c)) by ring.
    replace (a1 m * (rho c * tke c)) with (mu * den) by (rewrite MD; ring).
    apply Rmult_le_compat_l; lra.
  - exact B.
  - replace (mu * strain c * sst_f2 m c * strain c) with (mu * (strain c * sst_f2 m c) * strain c) by ring.
    apply Rmult_le_compat_r; lra.
  - intro Q. rewrite E. assert (X : den = a1 m * sdr c).
    { unfold den. apply rmax_left. nra. }
    rewrite X. field. lra.
  - intro Q. rewrite E, Q, Rmult_0_r. unfold Rdiv. ring.
Qed.

(** The same cell at another distance from the wall. *)
Definition at_distance (c : scell) (d : R) : scell :=
  Cell (rho c) (lmu c) (tke c) (sdr c) d (strain c) (gko c) (grho c).
Lemma min_mono a b a' b' : a <= a' -> b <= b' -> rmin a b <= rmin a' b'.
Proof.
  intros. apply rmin_glb; [eapply Rle_trans; [apply rmin_le_l|]; assumption|
                           eapply Rle_trans; [apply rmin_le_r|]; assumption].
Qed.
Lemma max_mono a b a' b' : a <= a' -> b <= b' -> rmax a b <= rmax a' b'.
Proof.
  intros. apply rmax_lub; [eapply Rle_trans; [|apply rmax_le_l]; assumption|
                           eapply Rle_trans; [|apply rmax_le_r]; assumption].
Qed.
Lemma phys_at c d : physical c -> 0 < d -> physical (at_distance c d).
Proof. intros (?&?&?&?&?&?) D. unfold physical, at_distance; cbn. tauto. Qed.
Lemma tmp_mono m c d1 d2 : usable m -> physical c -> 0 < d1 -> d1 <= d2 ->
  sst_tmp1 m (at_distance c d2) <= sst_tmp1 m (at_distance c d1) /\
  sst_tmp2 m (at_distance c d2) <= sst_tmp2 m (at_distance c d1) /\
  sst_tmp3 (at_distance c d2) <= sst_tmp3 (at_distance c d1).
Proof.
  intros U P D L.
  pose proof (phys_at c d1 P D) as P1. assert (D2 : 0 < d2) by lra. pose proof (phys_at c d2 P D2) as P2.
  pose proof (tmp2_den m _ U P1) as T1. pose proof (tmp3_den _ P1) as T3.
  destruct U as (U1&U2&U3&_). destruct P as (Q1&Q2&Q3&Q4&Q5&Q6).
  cbn in *. assert (DD : d1 * d1 <= d2 * d2) by nra.
  repeat split.
  - unfold sst_tmp1. cbn. change (cdkomega m (at_distance c d2)) with (cdkomega m c).
    change (cdkomega m (at_distance c d1)) with (cdkomega m c).
    pose proof (cdkomega_pos m c) as C. apply div_mono.
    + repeat (apply Rmult_le_pos; try lra).
    + repeat (apply Rmult_lt_0_compat; try lra).
    + rewrite !Rmult_assoc. apply Rmult_le_compat_l; lra.
  - unfold sst_tmp2. cbn. apply div_mono; [apply sqrt_pos|exact T1|].
    assert (0 < beta_star m * sdr c) by nra. nra.
  - unfold sst_tmp3. cbn. apply div_mono; [lra|exact T3|].
    assert (0 < sdr c * rho c) by nra.
    replace (d1 * d1 * sdr c * rho c) with (d1 * d1 * (sdr c * rho c)) by ring.
    replace (d2 * d2 * sdr c * rho c) with (d2 * d2 * (sdr c * rho c)) by ring. nra.
Qed.

(** Moving away from the wall the blending functions fall and the viscosity grows. *)
Theorem c68_wall m d dt c d1 d2 : usable m -> physical c -> 0 < d1 -> d1 <= d2 ->
  o_f1 (sst_update m d dt (at_distance c d2)) <= o_f1 (sst_update m d dt (at_distance c d1)) /\
  o_mu (sst_update m d dt (at_distance c d1)) <= o_mu (sst_update m d dt (at_distance c d2)).
Proof.
  intros U P D L. destruct (tmp_mono m c d1 d2 U P D L) as [T1 [T2 T3]].
  pose proof (phys_at c d1 P D) as P1. assert (D2 : 0 < d2) by lra. pose proof (phys_at c d2 P D2) as P2.
  assert (F : forall x, o_f1 (sst_update m d dt x) = sst_f1 m x) by (intro; unfold sst_update; destruct d; reflexivity).
  rewrite !F, !mu_of. split.
  - unfold sst_f1. cbv zeta. apply tanh_mono.
    set (x := rmin _ (sst_tmp1 m (at_distance c d2))). set (y := rmin _ (sst_tmp1 m (at_distance c d1))).
    assert (X : 0 <= x).
    { apply rmin_glb; [|apply tmp1_nonneg; assumption].
      eapply Rle_trans; [apply (tmp2_nonneg m (at_distance c d2) U P2)|apply rmax_le_l]. }
    assert (XY : x <= y) by (apply min_mono; [apply max_mono; assumption|assumption]).
    clearbody x y. assert (x * x <= y * y) by nra.
    replace (x * x * x * x) with ((x * x) * (x * x)) by ring.
    replace (y * y * y * y) with ((y * y) * (y * y)) by ring. nra.
  - unfold sst_mu. cbn [rho tke sdr strain at_distance].
    apply div_mono.
    + destruct U as (?&?&_), P as (?&?&?&_). repeat (apply Rmult_le_pos; try lra).
    + exact (mu_den m (at_distance c d2) U P2).
    + apply max_mono; [lra|]. apply Rmult_le_compat_l; [destruct P; tauto|].
      unfold sst_f2. cbv zeta. apply tanh_mono.
      set (x := rmax _ (sst_tmp3 (at_distance c d2))). set (y := rmax _ (sst_tmp3 (at_distance c d1))).
      assert (X : 0 <= x) by (eapply Rle_trans; [apply (tmp3_nonneg _ P2)|apply rmax_le_r]).
      assert (XY : x <= y) by (apply max_mono; lra).
      nra.
Qed.

(** ** Production *)
Theorem c68_production m d dt c : usable m -> physical c ->
  let o := sst_update m d dt c in
  o_shear o = Rmin (o_mu o * strain c ^ 2) (10 * (beta_star m * rho c * tke c * sdr c)) /\
  0 <= o_shear o /\
  (strain c = 0 -> o_shear o = 0) /\
  (d <> Explicit_ -> 0 <= o_wsrc o <=
     rho c * Rmax (alpha1 m) (alpha2 m) * Rmin (strain c ^ 2) (10 * beta_star m * sdr c ^ 2)).
Proof.
  intros U P o. destruct (c68_viscosity m d dt c U P) as [[M0 _] _]. fold o in M0.
  pose proof U as (U1&U2&U3&U4&U5&_). pose proof P as (P1&P2&P3&P4&P5&P6).
  assert (E : o_shear o = Rmin (o_mu o * strain c ^ 2) (10 * (beta_star m * rho c * tke c * sdr c))).
  { unfold o. rewrite mu_of. unfold sst_update. destruct d; cbn [by_treatment o_shear];
      rewrite rmin_spec, rmax_left;
      try (f_equal; ring);
      try (replace (sst_mu m c * strain c * strain c) with (sst_mu m c * (strain c * strain c)) by ring;
           apply Rmult_le_pos; [|nra]; unfold o in M0; rewrite mu_of in M0; exact M0). }
  assert (K : 0 <= 10 * (beta_star m * rho c * tke c * sdr c)).
  { apply Rmult_le_pos; [lra|]. repeat (apply Rmult_le_pos; try lra). }
  repeat apply conj.
  - exact E.
  - rewrite E. apply Rmin_glb; [nra|exact K].
  - intro Z. rewrite E, Z. rewrite Rmin_left; [ring|]. replace (o_mu o * 0 ^ 2) with 0 by ring. exact K.
  - intro ND. set (q := Rmin (strain c ^ 2) (10 * beta_star m * sdr c ^ 2)).
    assert (Q : 0 <= q).
    { apply Rmin_glb; [nra|]. apply Rmult_le_pos; [lra|nra]. }
    assert (W : o_wsrc o = rho c * blend (sst_f1 m c) (alpha1 m) (alpha2 m) * q).
    { unfold o, sst_update, q. destruct d; [congruence| |]; cbn [by_treatment o_wsrc];
        rewrite rmin_spec; do 2 f_equal; ring. }
    pose proof (f1_range m c) as F.
    destruct (blend_between (sst_f1 m c) (alpha1 m) (alpha2 m) ltac:(lra)) as [B1 B2].
    pose proof (Rmin_glb _ _ 0 U4 U5). rewrite W. clearbody q. split.
    + apply Rmult_le_pos; [apply Rmult_le_pos; lra|exact Q].
    + apply Rmult_le_compat_r; [exact Q|]. apply Rmult_le_compat_l; lra.
Qed.

(** The blending functions, the viscosity and the other terms in the notation of the literature. *)
Theorem c68_formulas m d dt c : 0 < rho c ->
  let o := sst_update m d dt c in
  let k := tke c in let w := sdr c in let y := wd c in
  let cd := Rmax (1000000 * eps) (2 * rho c * sigma_omega2 m * gko c / (w + 10 * eps)) in
  let a := sqrt k / (beta_star m * w * y + 10 * eps) in
  let b := 500 * lmu c / (y ^ 2 * w * rho c + 10 * eps) in
  let f1 := tanh (Rmin (Rmax a b) (4 * rho c * sigma_omega2 m * k / (cd * y ^ 2)) ^ 4) in
  let f2 := tanh (Rmax (2 * a) b ^ 2) in
  o_f1 o = f1 /\
  o_mu o = rho c * a1 m * k / Rmax (a1 m * w) (strain c * f2) /\
  cross_diffusion m c = 2 * (1 - f1) * rho c * sigma_omega2 m * gko c / (w + 10 * eps) /\
  o_buoy o = - bfac m * (grad_product (grav m) (grho c)) * (o_mu o / rho c) / sigma_t m.
Proof.
  intros R0 o k w y cd a b f1 f2.
  assert (T10 : floor10 = 10 * eps) by (unfold floor10; ring).
  assert (T6 : floor6 = 1000000 * eps) by (unfold floor6; ring).
  assert (CD : cdkomega m c = cd) by (unfold cdkomega, cd, w; rewrite rmax_spec, T10, T6; reflexivity).
  assert (A : sst_tmp2 m c = a) by (unfold sst_tmp2, a, k, w, y; rewrite T10; reflexivity).
  assert (B : sst_tmp3 c = b).
  { unfold sst_tmp3, b, w, y. rewrite T10. replace (wd c ^ 2) with (wd c * wd c) by ring. reflexivity. }
  assert (E1 : sst_tmp1 m c = 4 * rho c * sigma_omega2 m * k / (cd * y ^ 2)).
  { unfold sst_tmp1, k, y. rewrite CD. replace (cd * wd c ^ 2) with (cd * wd c * wd c) by ring. reflexivity. }
  assert (F1 : sst_f1 m c = f1).
  { unfold sst_f1, f1. cbv zeta. rewrite rmin_spec, rmax_spec, A, B, E1. f_equal. ring. }
  assert (F2 : sst_f2 m c = f2).
  { unfold sst_f2, f2. cbv zeta. rewrite rmax_spec, A, B. f_equal. ring. }
  assert (MU : o_mu o = rho c * a1 m * k / Rmax (a1 m * w) (strain c * f2)).
  { unfold o. rewrite mu_of. unfold sst_mu. rewrite rmax_spec, F2. reflexivity. }
  repeat apply conj.
  - unfold o, sst_update; destruct d; exact F1.
  - exact MU.
  - unfold cross_diffusion. rewrite F1, T10. unfold w, Rdiv. ring.
  - assert (BU : o_buoy o = sst_buoy m c) by (unfold o, sst_update; destruct d; reflexivity).
    rewrite BU. unfold sst_buoy, grad_product. unfold o. rewrite mu_of. unfold Rdiv. ring.
Qed.

(** ** Budgets *)

(** One step of one cell without transport: the linear system [(rho + lhs) q' = rho q + dt src]. *)
Definition one_step (r lhs q dt src : R) : R := (r * q + dt * src) / (r + lhs).

(** Fully implicit: the decay is exactly beta* rho k omega, whatever the time state; energy stays
    nonnegative for every time step when it is not drained by buoyancy. *)
Theorem c68_implicit m nph dt c : usable m -> physical c -> 0 <= dt ->
  let o := sst_update m Implicit_ dt c in
  tke_net nph Implicit_ o (tke c) dt =
    dt * (o_shear o + o_buoy o - beta_star m * rho c * tke c * sdr c) /\
  0 <= o_klhs o /\ 0 <= o_wlhs o /\
  let k' := one_step (rho c) (o_klhs o) (tke c) dt (o_shear o + state_factor nph * o_diss o + o_buoy o) in
  (0 <= o_buoy o -> 0 <= k') /\
  (o_shear o + o_buoy o <= beta_star m * rho c * tke c * sdr c -> k' <= tke c).
Proof.
  intros U P DT o. destruct (c68_production m Implicit_ dt c U P) as [_ [S0 _]]. fold o in S0.
  pose proof U as (U1&U2&U3&U4&U5&U6&U7). pose proof P as (P1&P2&P3&P4&P5&P6).
  assert (D0 : o_diss o = 0) by reflexivity.
  assert (L : o_klhs o = beta_star m * rho c * sdr c * dt) by reflexivity.
  assert (L0 : 0 <= o_klhs o) by (rewrite L; repeat (apply Rmult_le_pos; try lra)).
  assert (W : o_wlhs o = (2 * rho c * blend (sst_f1 m c) (beta1 m) (beta2 m) * sdr c +
                          Rabs (cross_diffusion m c) / (sdr c + floor10)) * dt) by reflexivity.
  pose proof floor10_pos as F10. pose proof (f1_range m c) as F.
  destruct (blend_between (sst_f1 m c) (beta1 m) (beta2 m) ltac:(lra)) as [B1 _].
  pose proof (Rmin_glb _ _ 0 U6 U7) as B0.
  repeat apply conj.
  - unfold tke_net. rewrite D0. cbn [solved]. rewrite L. ring.
  - exact L0.
  - rewrite W. apply Rmult_le_pos; [|exact DT].
    assert (0 <= Rabs (cross_diffusion m c) / (sdr c + floor10)) by (apply div_nonneg; [apply Rabs_pos|lra]).
    assert (0 <= 2 * rho c * blend (sst_f1 m c) (beta1 m) (beta2 m) * sdr c)
      by (repeat (apply Rmult_le_pos; try lra)). lra.
  - intro B. unfold one_step. rewrite D0. apply div_nonneg; [|lra].
    assert (0 <= rho c * tke c) by nra.
    assert (0 <= dt * (o_shear o + state_factor nph * 0 + o_buoy o)) by (apply Rmult_le_pos; lra). lra.
  - intro B. unfold one_step. rewrite D0. apply div_le; [lra|]. rewrite L.
    assert (dt * (o_shear o + o_buoy o) <= dt * (beta_star m * rho c * tke c * sdr c))
      by (apply Rmult_le_compat_l; lra). nra.
Qed.

(** Explicit, source evaluated at the old time: the whole budget with the ambient terms; in the
    ambient state production alone is left. *)
Theorem c68_explicit m dt c :
  let o := sst_update m Explicit_ dt c in
  tke_net false Explicit_ o (tke c) dt =
    dt * (o_shear o + o_buoy o - beta_star m * rho c * (tke c * sdr c - tke_amb m * sdr_amb m)) /\
  (tke c = tke_amb m -> sdr c = sdr_amb m ->
     tke_net false Explicit_ o (tke c) dt = dt * (o_shear o + o_buoy o)) /\
  exists b, Rmin (beta1 m) (beta2 m) <= b <= Rmax (beta1 m) (beta2 m) /\
  exists a, Rmin (alpha1 m) (alpha2 m) <= a <= Rmax (alpha1 m) (alpha2 m) /\
  sdr_net false Explicit_ o (sdr c) dt =
    dt * (rho c * a * Rmin (strain c ^ 2) (10 * beta_star m * sdr c ^ 2) + cross_diffusion m c
          - b * rho c * (sdr c ^ 2 - sdr_amb m ^ 2)).
Proof.
  intro o. pose proof (f1_range m c) as F.
  assert (E : tke_net false Explicit_ o (tke c) dt =
    dt * (o_shear o + o_buoy o - beta_star m * rho c * (tke c * sdr c - tke_amb m * sdr_amb m))).
  { unfold tke_net. cbn [solved state_factor].
    assert (D : o_diss o = - beta_star m * rho c * tke c * sdr c + beta_star m * rho c * sdr_amb m * tke_amb m) by reflexivity.
    rewrite D. ring. }
  split; [exact E|]. split.
  { intros K W. rewrite E, K, W. ring. }
  exists (blend (sst_f1 m c) (beta1 m) (beta2 m)). split; [apply blend_between; lra|].
  exists (blend (sst_f1 m c) (alpha1 m) (alpha2 m)). split; [apply blend_between; lra|].
  unfold sdr_net. cbn [solved state_factor]. unfold o, sst_update. cbn [by_treatment o_wdiss o_wsrc].
  rewrite rmin_spec. replace (strain c ^ 2) with (strain c * strain c) by ring.
  replace (10 * beta_star m * sdr c ^ 2) with (10 * beta_star m * sdr c * sdr c) by ring. ring.
Qed.

(** What a predictor step does: the source is evaluated with the time state that halves the
    dissipation.  With a Crank-Nicolson solve the other half comes from the left side, but the
    ambient term is halved; with an explicit step half of the dissipation is lost; implicitly the
    ambient term is lost. *)
Theorem c68_predictor_partial m dt c :
  (let o := sst_update m Crank_Nicolson_ dt c in
   tke_net true Crank_Nicolson_ o (tke c) dt =
   dt * (o_shear o + o_buoy o - beta_star m * rho c * (tke c * sdr c - tke_amb m * sdr_amb m / 2))) /\
  (let o := sst_update m Explicit_ dt c in
   tke_net true Explicit_ o (tke c) dt =
   dt * (o_shear o + o_buoy o - 1/2 * (beta_star m * rho c * (tke c * sdr c - tke_amb m * sdr_amb m)))) /\
  (let o := sst_update m Implicit_ dt c in
   tke_net true Implicit_ o (tke c) dt =
   dt * (o_shear o + o_buoy o - beta_star m * rho c * (tke c * sdr c))).
Proof.
  repeat split; intro o; unfold tke_net; cbn [solved state_factor].
  - assert (D : o_diss o = - beta_star m * rho c * tke c * sdr c + beta_star m * rho c * sdr_amb m * tke_amb m) by reflexivity.
    assert (L : o_klhs o = 1/2 * (beta_star m * rho c * sdr c * dt)) by reflexivity.
    rewrite D, L. field.
  - assert (D : o_diss o = - beta_star m * rho c * tke c * sdr c + beta_star m * rho c * sdr_amb m * tke_amb m) by reflexivity.
    rewrite D. field.
  - assert (D : o_diss o = 0) by reflexivity.
    assert (L : o_klhs o = beta_star m * rho c * sdr c * dt) by reflexivity.
    rewrite D, L. ring.
Qed.

Definition defaults : sst :=
  Sst (9/100) (5/9) (44/100) (75/1000) (828/10000) (85/100) 1 (1/2) (856/1000) (31/100) 0 0 0 (85/100) (fun _ => 0).
Definition calm : scell := Cell 1 (1/100000) 1 1 1 0 0 (fun _ => 0).
Example c68_defaults : usable defaults /\ physical calm.
Proof. unfold usable, physical, defaults, calm; cbn. repeat split; lra. Qed.
Lemma calm_shear d : o_shear (sst_update defaults d 1 calm) = 0.
Proof. apply (c68_production defaults d 1 calm (proj1 c68_defaults) (proj2 c68_defaults)). reflexivity. Qed.
Lemma calm_buoy d : o_buoy (sst_update defaults d 1 calm) = 0.
Proof.
  assert (E : o_buoy (sst_update defaults d 1 calm) = sst_buoy defaults calm) by (destruct d; reflexivity).
  rewrite E. unfold sst_buoy. cbn. unfold Rdiv. ring.
Qed.

(** So the decay of turbulence is not the same for the three treatments of diffusion: with an
    explicit predictor it is half of beta* rho k omega. *)
Theorem c68_explicit_predictor_refuted :
  ~ (forall m dt c, usable m -> physical c -> tke_amb m = 0 ->
       let o := sst_update m Explicit_ dt c in
       tke_net true Explicit_ o (tke c) dt =
       dt * (o_shear o + o_buoy o - beta_star m * rho c * tke c * sdr c)).
Proof.
  intro H. specialize (H defaults 1 calm (proj1 c68_defaults) (proj2 c68_defaults) eq_refl). cbv zeta in H.
  destruct (c68_predictor_partial defaults 1 calm) as [_ [E _]]. cbv zeta in E. rewrite E in H.
  rewrite calm_shear, calm_buoy in H. cbn in H. lra.
Qed.
(** And with ambient values the implicit treatment is not at rest in the ambient state. *)
Theorem c68_ambient_refuted :
  ~ (forall m dt c, usable m -> physical c -> 0 < dt -> strain c = 0 -> gko c = 0 -> bfac m = 0 ->
       tke c = tke_amb m -> sdr c = sdr_amb m ->
       tke_net true Implicit_ (sst_update m Implicit_ dt c) (tke c) dt = 0).
Proof.
  intro H.
  set (m := Sst (9/100) (5/9) (44/100) (75/1000) (828/10000) (85/100) 1 (1/2) (856/1000) (31/100) 1 1 0 (85/100) (fun _ => 0)).
  assert (U : usable m) by (unfold usable, m; cbn; repeat split; lra).
  assert (P : physical calm) by apply c68_defaults.
  specialize (H m 1 calm U P ltac:(lra) eq_refl eq_refl eq_refl eq_refl eq_refl).
  destruct (c68_predictor_partial m 1 calm) as [_ [_ E]]. cbv zeta in E. rewrite E in H.
  assert (S : o_shear (sst_update m Implicit_ 1 calm) = 0) by (apply (c68_production m Implicit_ 1 calm U P); reflexivity).
  assert (B : o_buoy (sst_update m Implicit_ 1 calm) = 0).
  { assert (Q : o_buoy (sst_update m Implicit_ 1 calm) = sst_buoy m calm) by reflexivity.
    rewrite Q. unfold sst_buoy. cbn. unfold Rdiv. ring. }
  rewrite S, B in H. cbn in H. lra.
Qed.
(** The implicit treatment of omega subtracts twice the decay beta rho omega^2 and the magnitude of
    the cross diffusion; the explicit one subtracts it once and adds cross diffusion with its sign. *)
Theorem c68_omega_decay_partial m nph dt c : physical c ->
  exists b a, Rmin (beta1 m) (beta2 m) <= b <= Rmax (beta1 m) (beta2 m) /\
  Rmin (alpha1 m) (alpha2 m) <= a <= Rmax (alpha1 m) (alpha2 m) /\
  sdr_net nph Implicit_ (sst_update m Implicit_ dt c) (sdr c) dt =
    dt * (rho c * a * Rmin (strain c ^ 2) (10 * beta_star m * sdr c ^ 2)
          - 2 * (b * rho c * sdr c ^ 2)
          - Rabs (cross_diffusion m c) * (sdr c / (sdr c + floor10))) /\
  sdr_net true Crank_Nicolson_ (sst_update m Crank_Nicolson_ dt c) (sdr c) dt =
    dt * (rho c * a * Rmin (strain c ^ 2) (10 * beta_star m * sdr c ^ 2)
          - b * rho c * sdr c ^ 2
          + 1/2 * (cross_diffusion m c - Rabs (cross_diffusion m c) * (sdr c / (sdr c + floor10)))).
Proof.
  intros (P1&P2&P3&P4&P5&P6). pose proof (f1_range m c) as F. pose proof floor10_pos as F10.
  exists (blend (sst_f1 m c) (beta1 m) (beta2 m)), (blend (sst_f1 m c) (alpha1 m) (alpha2 m)).
  split; [apply blend_between; lra|]. split; [apply blend_between; lra|].
  replace (strain c ^ 2) with (strain c * strain c) by ring.
  replace (10 * beta_star m * sdr c ^ 2) with (10 * beta_star m * sdr c * sdr c) by ring.
  split; unfold sdr_net, sst_update; cbn [by_treatment o_wdiss o_wsrc o_wlhs solved state_factor];
    rewrite rmin_spec; field; lra.
Qed.
Theorem c68_omega_decay_refuted :
  ~ (forall m dt c, usable m -> physical c -> strain c = 0 -> gko c = 0 -> sdr_amb m = 0 -> 0 < dt ->
       sdr_net false Implicit_ (sst_update m Implicit_ dt c) (sdr c) dt =
       sdr_net false Explicit_ (sst_update m Explicit_ dt c) (sdr c) dt).
Proof.
  intro H. specialize (H defaults 1 calm (proj1 c68_defaults) (proj2 c68_defaults) eq_refl eq_refl eq_refl ltac:(lra)).
  assert (C : cross_diffusion defaults calm = 0) by (unfold cross_diffusion; cbn; unfold Rdiv; ring).
  revert H. unfold sdr_net, sst_update. cbn [by_treatment o_wdiss o_wsrc o_wlhs solved state_factor].
  rewrite C, Rabs_R0. set (b := blend (sst_f1 defaults calm) (beta1 defaults) (beta2 defaults)).
  assert (B : 75/1000 <= b).
  { pose proof (f1_range defaults calm) as F.
    destruct (blend_between (sst_f1 defaults calm) (beta1 defaults) (beta2 defaults) ltac:(lra)) as [B1 _].
    fold b in B1. cbn in B1. rewrite Rmin_left in B1 by lra. exact B1. }
  clearbody b. cbn. rewrite Rmult_0_l. rewrite rmin_left by lra. unfold Rdiv. intro H. ring_simplify in H. lra.
Qed.

(** ** Hybrid *)
Lemma exp_ge x : 1 + x <= exp x.
Proof.
  destruct (Req_dec x 0) as [->|N]; [rewrite exp_0; lra|]. left. apply exp_ineq1; exact N.
Qed.
Lemma pow4 x y : 0 <= pow_ x y.
Proof. apply pow_nonneg. Qed.
Lemma fdtilde_range m w h r : 0 < des_fdtilde m w h r <= 1.
Proof.
  unfold des_fdtilde. cbv zeta. set (t := tanh _). set (e := rmin _ 1).
  assert (T : 0 <= t < 1) by (split; [apply tanh_nonneg, pow_nonneg|apply tanh_lt1]).
  replace (1 - (1 - t)) with t by ring.
  assert (E : 0 < e <= 1).
  { split; [|apply rmin_le_r]. unfold e. rewrite rmin_spec. apply Rmin_glb_lt; [|lra].
    pose proof (exp_pos (- 9 * (1/4 - w / h) * (1/4 - w / h))). lra. }
  split.
  - pose proof (rmax_le_r t e). lra.
  - apply rmax_lub; lra.
Qed.
Lemma fdtilde_wall m w h r : 0 < h -> 0 <= w -> w <= h / 2 -> des_fdtilde m w h r = 1.
Proof.
  intros H W1 W2. unfold des_fdtilde. cbv zeta.
  set (a := 1/4 - w / h).
  assert (A : -(1/4) <= a <= 1/4).
  { assert (0 <= w / h) by (apply div_nonneg; lra). assert (w / h <= 1/2) by (apply div_le; lra). unfold a. lra. }
  replace (rmin (2 * exp (- 9 * a * a)) 1) with 1.
  - set (t := tanh _). pose proof (tanh_lt1 (pow_ (cdt1 m * r) (cdt2 m))) as T. fold t in T.
    apply rmax_right. lra.
  - symmetry. apply rmin_right.
    assert (E : exp (- (9/32)) * exp (- (9/32)) <= exp (- 9 * a * a)).
    { rewrite <- exp_plus. assert (L : - (9/32) + - (9/32) <= - 9 * a * a) by nra.
      destruct (Req_dec (- (9/32) + - (9/32)) (- 9 * a * a)) as [->|N]; [lra|]. left. apply exp_increasing. lra. }
    pose proof (exp_ge (- (9/32))). nra.
Qed.

(** The elevating function is never active: it takes the production coefficient of the omega
    equation where the distance to the wall should enter. *)
Lemma fe_zero m alpha rdl rdt : 31/100 <= alpha -> des_fe m alpha rdl rdt = 0.
Proof.
  intro A. unfold des_fe, des_fe1. rewrite (proj2 (Rltb_false alpha 0)) by lra.
  rewrite (rmax_right (_ - 1) 0); [ring|].
  assert (E : exp (- (1109 / 100) * alpha * alpha) * exp (1109/100 * (alpha * alpha)) = 1).
  { rewrite <- exp_plus. replace (- (1109 / 100) * alpha * alpha + 1109 / 100 * (alpha * alpha)) with 0 by ring. apply exp_0. }
  pose proof (exp_ge (1109/100 * (alpha * alpha))) as G.
  pose proof (exp_pos (- (1109 / 100) * alpha * alpha)) as P.
  assert (X : 2 <= exp (1109/100 * (alpha * alpha))) by nra.
  set (u := exp (- (1109 / 100) * alpha * alpha)) in *. set (v := exp _) in *. clearbody u v. nra.
Qed.
Definition hybrid_usable (m : iddes) : Prop :=
  usable (i_sst m) /\ 31/100 <= alpha1 (i_sst m) /\ 31/100 <= alpha2 (i_sst m) /\
  0 <= cdes1 m /\ 0 <= cdes2 m /\ 0 <= cw m.
Lemma alpha_ge m f : hybrid_usable m -> 0 <= f <= 1 -> 31/100 <= blend f (alpha1 (i_sst m)) (alpha2 (i_sst m)).
Proof.
  intros (_&A&B&_) F. destruct (blend_between f (alpha1 (i_sst m)) (alpha2 (i_sst m)) F) as [L _].
  pose proof (Rmin_glb _ _ _ A B). lra.
Qed.

Theorem c68_hybrid_blend m dx c vort : hybrid_usable m ->
  let ri := des_rans_ind m dx c vort in
  0 < ri <= 1 /\
  ri = des_fdtilde m (wd c) (hmax dx) (sst_mu (i_sst m) c / des_denom m c vort) /\
  forall lr ll, eps <= lr -> eps <= ll ->
    Rmin lr ll <= des_length ri ri lr ll <= Rmax lr ll.
Proof.
  intros U ri. pose proof (f1_range (i_sst m) c) as F.
  pose proof (alpha_ge m (sst_f1 (i_sst m) c) U ltac:(lra)) as A.
  assert (E : ri = des_fdtilde m (wd c) (hmax dx) (sst_mu (i_sst m) c / des_denom m c vort)).
  { unfold ri, des_rans_ind. cbv zeta. rewrite fe_zero by exact A. ring. }
  pose proof (fdtilde_range m (wd c) (hmax dx) (sst_mu (i_sst m) c / des_denom m c vort)) as R.
  rewrite <- E in R. split; [exact R|]. split; [exact E|].
  intros lr ll Hr Hl. unfold des_length. rewrite rmax_spec.
  pose proof (blend_between ri lr ll ltac:(lra)) as [B1 B2]. unfold blend in B1, B2.
  pose proof (Rmin_glb _ _ _ Hr Hl).
  replace (ri * lr + (1 - ri) * ll) with (ri * (lr - ll) + ll) by ring.
  rewrite Rmax_right by lra. lra.
Qed.

(** Within half of the longest cell edge of the wall the hybrid is the SST model (without its
    buoyancy term): the same viscosity, production, dissipation and left sides. *)
Theorem c68_hybrid_near_wall m dx d dt c vort : hybrid_usable m -> physical c -> mesh dx ->
  0 < tke c -> wd c <= hmax dx / 2 ->
  eps <= sqrt (tke c) / (beta_star (i_sst m) * sdr c) ->
  tke_amb (i_sst m) = 0 -> sdr_amb (i_sst m) = 0 -> clip m = 10 -> bfac (i_sst m) = 0 ->
  iddes_update m dx d dt c vort = sst_update (i_sst m) d dt c.
Proof.
  intros U P M K W L T0 S0 C B. pose proof (f1_range (i_sst m) c) as F.
  pose proof P as (P1&P2&P3&P4&P5&P6). pose proof U as ((U1&U2&_)&_).
  assert (H : 0 < hmax dx).
  { unfold hmax. pose proof (M 2%Z ax2). pose proof (rmax_le_r (rmax (dx 0%Z) (dx 1%Z)) (dx 2%Z)). lra. }
  destruct (c68_hybrid_blend m dx c vort U) as [_ [E _]]. cbv zeta in E.
  rewrite fdtilde_wall in E by lra.
  set (s := i_sst m) in *.
  assert (LE : des_length 1 1 (des_lrans m c) (des_lles m (sst_f1 s c) (wd c) (hmax dx)) =
               sqrt (tke c) / (beta_star s * sdr c)).
  { unfold des_length, des_lrans. fold s. rewrite rmax_right; [ring|]. lra. }
  assert (SP : 0 < sqrt (tke c)) by (apply sqrt_lt_R0; exact K).
  assert (SS : sqrt (tke c) * sqrt (tke c) = tke c) by (apply sqrt_sqrt; lra).
  assert (BS : 0 < beta_star s * sdr c) by nra.
  unfold iddes_update. fold s. cbv zeta. rewrite E, fdtilde_wall by lra. rewrite LE, T0.
  rewrite Rmult_0_r, Rmult_0_l. 
  assert (BU : sst_buoy s c = 0) by (unfold sst_buoy; rewrite B; unfold Rdiv; ring).
  assert (X1 : 10 * rho c * tke c * sqrt (tke c) / (sqrt (tke c) / (beta_star s * sdr c)) =
               10 * beta_star s * rho c * tke c * sdr c) by (field; lra).
  assert (X2 : - rho c * sqrt (tke c) * tke c / (sqrt (tke c) / (beta_star s * sdr c)) =
               - beta_star s * rho c * tke c * sdr c) by (field; lra).
  assert (X3 : rho c * sqrt (tke c) / (sqrt (tke c) / (beta_star s * sdr c)) * dt =
               beta_star s * rho c * sdr c * dt) by (field; lra).
  assert (X4 : clip m * rmax (sdr c) 0 * sqrt (tke c) / (sqrt (tke c) / (beta_star s * sdr c)) =
               10 * beta_star s * sdr c * sdr c) by (rewrite C, rmax_left by lra; field; lra).
  rewrite X1, X2, X3, X4.
  unfold sst_update. cbv zeta. rewrite T0, BU, Rmult_0_r.
  unfold Rdiv at 1. rewrite !Rmult_0_l. reflexivity.
Qed.

(** Everywhere: dissipation is rho k^(3/2) / l and production is limited to ten times it. *)
Theorem c68_hybrid_budget m dx dt c vort : hybrid_usable m -> physical c -> mesh dx ->
  tke_amb (i_sst m) = 0 -> 
  exists l, eps <= l /\
  let o := iddes_update m dx Explicit_ dt c vort in
  o_diss o = - (rho c * tke c * sqrt (tke c) / l) /\
  o_shear o = Rmin (o_mu o * strain c ^ 2) (10 * (rho c * tke c * sqrt (tke c) / l)) /\
  0 <= o_shear o /\ o_mu o = o_mu (sst_update (i_sst m) Explicit_ dt c).
Proof.
  intros U P M T0. pose proof P as (P1&P2&P3&P4&P5&P6). destruct U as [U _]. pose proof U as (U1&U2&_).
  set (l := des_length (des_rans_ind m dx c vort)
              (des_fdtilde m (wd c) (hmax dx) (sst_mu (i_sst m) c / des_denom m c vort))
              (des_lrans m c) (des_lles m (sst_f1 (i_sst m) c) (wd c) (hmax dx))).
  exists l. assert (L : eps <= l) by (unfold l, des_length; apply rmax_le_l).
  split; [exact L|]. intro o. pose proof eps_pos as Ep.
  assert (MU : o_mu o = sst_mu (i_sst m) c) by reflexivity.
  destruct (c68_viscosity (i_sst m) Explicit_ dt c U P) as [[M0 _] _]. rewrite mu_of in M0.
  assert (SH : o_shear o = rmin (rmax (sst_mu (i_sst m) c * strain c * strain c) 0)
                                (10 * rho c * tke c * sqrt (tke c) / l)) by reflexivity.
  pose proof (sqrt_pos (tke c)) as SQ.
  assert (Q : 0 <= rho c * tke c * sqrt (tke c) / l).
  { apply div_nonneg; [|lra]. repeat (apply Rmult_le_pos; try lra). }
  assert (SE : o_shear o = Rmin (o_mu o * strain c ^ 2) (10 * (rho c * tke c * sqrt (tke c) / l))).
  { rewrite SH, rmin_spec, MU. f_equal; [|unfold Rdiv; ring].
    rewrite rmax_left; [ring|]. rewrite Rmult_assoc. apply Rmult_le_pos; [exact M0|nra]. }
  repeat apply conj.
  - unfold o, iddes_update. cbn [by_treatment o_diss]. fold l. rewrite T0. unfold Rdiv. ring.
  - exact SE.
  - rewrite SE. apply Rmin_glb; [|lra]. rewrite MU. apply Rmult_le_pos; [exact M0|nra].
  - rewrite MU, mu_of. reflexivity.
Qed.

(** The lengths: RANS length sqrt k / (beta* omega); LES length C_DES min(Cw max(y,h), h), with C_DES
    between its two values, so at most that times the longest edge of the cell; h is attained. *)
Theorem c68_hybrid_lengths m dx f1 y c : 0 <= f1 <= 1 -> mesh dx -> 0 <= cw m -> 0 <= y ->
  longest dx (hmax dx) /\
  des_lrans m c = sqrt (tke c) / (beta_star (i_sst m) * sdr c) /\
  exists cdes, Rmin (cdes1 m) (cdes2 m) <= cdes <= Rmax (cdes1 m) (cdes2 m) /\
    des_lles m f1 y (hmax dx) = cdes * Rmin (cw m * Rmax y (hmax dx)) (hmax dx) /\
    (0 <= cdes -> 0 <= des_lles m f1 y (hmax dx) <= cdes * hmax dx).
Proof.
  intros F M W Y.
  assert (L : longest dx (hmax dx)).
  { unfold hmax. rewrite !rmax_spec. set (p := dx 0%Z). set (q := dx 1%Z). set (r := dx 2%Z).
    pose proof (Rmax_l (Rmax p q) r). pose proof (Rmax_r (Rmax p q) r).
    pose proof (Rmax_l p q). pose proof (Rmax_r p q). split.
    - intros d [-> | [-> | ->]]; fold p q r; lra.
    - destruct (Rle_dec (Rmax p q) r) as [A|A].
      + exists 2%Z. split; [ax|]. rewrite Rmax_right by exact A. reflexivity.
      + rewrite (Rmax_left (Rmax p q) r) by lra. destruct (Rle_dec p q) as [B|B].
        * exists 1%Z. split; [ax|]. rewrite Rmax_right by exact B. reflexivity.
        * exists 0%Z. split; [ax|]. rewrite Rmax_left by lra. reflexivity. }
  split; [exact L|]. split; [reflexivity|].
  exists (blend f1 (cdes1 m) (cdes2 m)). split; [apply blend_between; exact F|].
  assert (E : des_lles m f1 y (hmax dx) = blend f1 (cdes1 m) (cdes2 m) * Rmin (cw m * Rmax y (hmax dx)) (hmax dx)).
  { unfold des_lles. rewrite rmin_spec, rmax_spec. reflexivity. }
  split; [exact E|]. intro C. rewrite E.
  assert (H : 0 < hmax dx).
  { pose proof (proj1 L 0%Z ax0). pose proof (M 0%Z ax0). lra. }
  assert (N : 0 <= Rmin (cw m * Rmax y (hmax dx)) (hmax dx) <= hmax dx).
  { split; [|apply Rmin_r]. apply Rmin_glb; [|lra]. apply Rmult_le_pos; [exact W|].
    pose proof (Rmax_l y (hmax dx)). lra. }
  split; [apply Rmult_le_pos; lra|apply Rmult_le_compat_l; lra].
Qed.

(** The published hybrid raises the RANS length by (1 + fe) with fe a function of the distance to
    the wall; the code's fe is zero where the published one is positive. *)
Theorem c68_hybrid_elevation_refuted :
  ~ (forall m dx c vort, hybrid_usable m -> physical c -> mesh dx ->
       let den := des_denom m c vort in
       des_rans_ind m dx c vort =
       des_fdtilde m (wd c) (hmax dx) (sst_mu (i_sst m) c / den) *
       (1 + des_fe m (1/4 - wd c / hmax dx) (lmu c / den) (sst_mu (i_sst m) c / den))).
Proof.
  intro H.
  set (m := Idd defaults (78/100) (61/100) 20 3 5 (187/100) (15/100) (41/100) 10).
  assert (U : hybrid_usable m).
  { unfold hybrid_usable, m. split; [apply c68_defaults|]. cbn. lra. }
  specialize (H m (fun _ => 4) calm 1 U (proj2 c68_defaults) ltac:(intros d _; lra)). cbv zeta in H.
  destruct (c68_hybrid_blend m (fun _ => 4) calm 1 U) as [_ [E _]]. cbv zeta in E. rewrite E in H.
  assert (HM : hmax (fun _ => 4) = 4).
  { unfold hmax. rewrite (rmax_left 4 4) by lra. apply rmax_left. lra. }
  rewrite HM, fdtilde_wall in H by (cbn; lra).
  revert H. set (rdl := lmu calm / _). set (rdt := sst_mu _ _ / _).
  unfold des_fe. cbv zeta.
  assert (A : 1 / 4 - wd calm / 4 = 0) by (cbn; field). rewrite A.
  assert (F1 : des_fe1 0 = 2).
  { unfold des_fe1. rewrite (proj2 (Rltb_false 0 0)) by lra. rewrite Rmult_0_r, exp_0. ring. }
  rewrite F1. rewrite (rmax_left (2 - 1) 0) by lra.
  set (mx := rmax _ _).
  assert (MX : mx < 1).
  { unfold mx. rewrite rmax_spec. apply Rmax_lub_lt; apply tanh_lt1. }
  intro H. lra.
Qed.

Print Assumptions c68_viscosity. Print Assumptions c68_implicit. Print Assumptions c68_hybrid_near_wall.
