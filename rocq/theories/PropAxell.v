(** C69: Axell's k-l model. *)
From Verif Require Import BoxR BoxRFacts Turbulence TurbSpec TurbProofs.
From Coq Require Import Lra Lia Psatz.
Open Scope R_scope.

(** Coefficients the statements are about (default: 0.556, 0.25, 0.35). *)
Definition usable_kl (x : axell) : Prop := 351/1000 <= x_cmu x /\ 0 < x_cbs x /\ 0 < x_cbu x.

(** ** The limited Richardson number *)
Theorem c69_limited rt :
  -3 < rt_limit rt /\ rt <= rt_limit rt /\
  (-1 <= rt -> rt_limit rt = rt) /\ (rt <= -1 -> rt_limit rt <= -1).
Proof.
  unfold rt_limit. destruct (Rltb (-1) rt) eqn:E.
  - apply Rltb_spec in E. repeat split; lra.
  - apply Rltb_false in E.
    set (v := rt - (rt - -1) ^ 2 / (rt + -3 - 2 * -1)).
    assert (V : v * (1 - rt) = 3 * rt + 1) by (unfold v; field; lra).
    assert (V1 : -3 < v) by nra. assert (V2 : v <= -1) by nra. clearbody v.
    assert (V3 : rt <= v) by nra.
    rewrite rmax_right by exact V3. repeat split; try lra.
Qed.
(** It keeps order. *)
Theorem c69_limited_order a b : a <= b -> rt_limit a <= rt_limit b.
Proof.
  intro L. destruct (Rlt_le_dec (-1) a) as [A|A].
  - rewrite (proj1 (proj2 (proj2 (c69_limited a)))) by lra.
    rewrite (proj1 (proj2 (proj2 (c69_limited b)))) by lra. exact L.
  - destruct (Rle_lt_dec (-1) b) as [B|B].
    + rewrite (proj1 (proj2 (proj2 (c69_limited b))) B).
      pose proof (proj2 (proj2 (proj2 (c69_limited a))) A). lra.
    + assert (F : forall r, r <= -1 -> rt_limit r * (1 - r) = 3 * r + 1).
      { intros r H. unfold rt_limit. rewrite (proj2 (Rltb_false (-1) r)) by lra.
        set (v := r - (r - -1) ^ 2 / (r + -3 - 2 * -1)).
        assert (V : v * (1 - r) = 3 * r + 1) by (unfold v; field; lra).
        rewrite rmax_right; [exact V|]. clearbody v. nra. }
      pose proof (F a A) as Fa. pose proof (F b ltac:(lra)) as Fb.
      set (u := rt_limit a) in *. set (v := rt_limit b) in *. clearbody u v.
      apply Rmult_le_reg_r with ((1 - a) * (1 - b)); [nra|].
      replace (u * ((1 - a) * (1 - b))) with ((3 * a + 1) * (1 - b)) by (rewrite <- Fa; ring).
      replace (v * ((1 - a) * (1 - b))) with ((3 * b + 1) * (1 - a)) by (rewrite <- Fb; ring). nra.
Qed.

Lemma cmu_den rt : -3 < rt -> 0 < 1 + 308/1000 * rt + 837/100000 * rt ^ 2.
Proof. intro H. nra. Qed.

(** ** Stability functions: positive on the whole range, falling below the neutral value in stable
    air; the two are related by the turbulent Prandtl number to one percent. *)
Theorem c69_functions cmu rt : 351/1000 <= cmu -> -3 < rt ->
  0 < cmu_rt cmu rt /\ 0 < cmup_rt cmu rt /\
  42/100 < axell_prandtl rt < 64/10 /\
  cmu_rt cmu 0 = cmu /\ cmup_rt cmu 0 = cmu /\ axell_prandtl 0 = 1 /\
  (0 <= rt -> cmu_rt cmu rt <= cmu /\ cmup_rt cmu rt <= cmu /\ 1 <= axell_prandtl rt) /\
  (rt <= 0 -> axell_prandtl rt <= 1 /\ cmu <= cmup_rt cmu rt).
Proof.
  intros C R. pose proof (cmu_den rt R) as D. unfold cmu_rt, cmup_rt, axell_prandtl.
  assert (D2 : 0 < 1 + 277/1000 * rt) by lra. assert (D3 : 0 < 1 + 302/10000 * rt) by lra.
  repeat apply conj; try (intro S; repeat apply conj).
  - apply Rdiv_lt_0_compat; lra.
  - apply Rdiv_lt_0_compat; lra.
  - apply Rmult_lt_reg_r with (1 + 302/10000 * rt); [lra|]. unfold Rdiv at 3. rewrite Rmult_assoc, Rinv_l by lra. lra.
  - apply Rmult_lt_reg_r with (1 + 302/10000 * rt); [lra|]. unfold Rdiv at 1. rewrite Rmult_assoc, Rinv_l by lra. lra.
  - field.
  - field.
  - field.
  - apply div_le; [lra|]. assert (0 <= cmu * rt ^ 2) by nra. assert (351/1000 * rt <= cmu * rt) by nra. nra.
  - apply div_le; [lra|]. nra.
  - apply le_div; lra.
  - apply div_le; lra.
  - apply le_div; [lra|]. nra.
Qed.
Theorem c69_prandtl_consistent rt : -3 < rt ->
  let cmu := 556/1000 in
  99/100 * (cmu_rt cmu rt / axell_prandtl rt) <= cmup_rt cmu rt <=
  101/100 * (cmu_rt cmu rt / axell_prandtl rt).
Proof.
  intros R cmu. pose proof (cmu_den rt R) as D. unfold cmu_rt, cmup_rt, axell_prandtl.
  set (t := rt + 3). assert (T : 0 < t) by (unfold t; lra). replace rt with (t - 3) in * by (unfold t; ring).
  clearbody t. assert (D2 : 0 < 1 + 277/1000 * (t - 3)) by lra. assert (D3 : 0 < 1 + 302/10000 * (t - 3)) by lra.
  assert (D4 : 0 < 1 + 193/1000 * (t - 3)) by lra.
  set (N := 1 + 308/1000 * (t - 3) + 837/100000 * (t - 3) ^ 2) in *.
  set (A := 1 + 277/1000 * (t - 3)) in *. set (Q := 1 + 302/10000 * (t - 3)) in *.
  set (P := 1 + 193/1000 * (t - 3)) in *. set (B := cmu + 108/1000 * (t - 3)).
  assert (BP : 0 < B) by (unfold B, cmu; lra).
  assert (T2 : 0 < t * t) by nra. assert (T3 : 0 < t * t * t) by nra.
  assert (L : 99/100 * (B * A * Q) <= cmu * N * P) by (unfold B, A, Q, N, P, cmu; nra).
  assert (H : cmu * N * P <= 101/100 * (B * A * Q)) by (unfold B, A, Q, N, P, cmu; nra).
  replace (B / N / (P / Q)) with (B * Q / (N * P)) by (field; lra).
  assert (NP : 0 < N * P) by nra.
  split.
  - apply le_div; [lra|]. replace (99 / 100 * (B * Q / (N * P)) * A) with (99/100 * (B * A * Q) / (N * P)) by (field; lra).
    apply div_le; [exact NP|]. lra.
  - apply div_le; [lra|]. replace (101 / 100 * (B * Q / (N * P)) * A) with (101/100 * (B * A * Q) / (N * P)) by (field; lra).
    apply le_div; [exact NP|]. lra.
Qed.

(** ** Length scales *)
(** Near the ground kappa z, far from it at most 30: the inverses add up. *)
Theorem c69_wall_length z : 0 < z ->
  0 < axell_ls z /\ axell_ls z < 30 /\ axell_ls z < 41/100 * z /\
  / axell_ls z = / 30 + / (41/100 * z).
Proof.
  intro Z. unfold axell_ls. repeat split.
  - apply Rdiv_lt_0_compat; lra.
  - apply Rmult_lt_reg_r with (30 + 41/100 * z); [lra|]. unfold Rdiv at 1. rewrite Rmult_assoc, Rinv_l by lra. lra.
  - apply Rmult_lt_reg_r with (30 + 41/100 * z); [lra|]. unfold Rdiv at 1. rewrite Rmult_assoc, Rinv_l by lra. nra.
  - field. lra.
Qed.
(** Height over the ground: that of the cell centre, at least half a cell. *)
Theorem c69_height h problo2 dz k : 0 < dz ->
  axell_z None problo2 dz k = problo2 + (IZR k + 1/2) * dz /\
  1/2 * dz <= axell_z (Some h) problo2 dz k /\
  (h + dz / 2 <= problo2 + (IZR k + 1/2) * dz ->
     axell_z (Some h) problo2 dz k = axell_z None problo2 dz k - h).
Proof.
  intro D. unfold axell_z. repeat split.
  - apply rmax_le_r.
  - intro H. apply rmax_left. lra.
Qed.

Lemma rt_nonpos k l0 strat cmu : strat <= 0 -> axell_rt k (axell_eps cmu k l0) strat <= 0.
Proof.
  intro S. unfold axell_rt. set (q := (k / axell_eps cmu k l0) ^ 2 * strat).
  assert (Q : q <= 0) by (unfold q; pose proof (Rle_0_sqr (k / axell_eps cmu k l0)); unfold Rsqr in *; nra).
  destruct (Rlt_le_dec (-1) q) as [A|A].
  - rewrite (proj1 (proj2 (proj2 (c69_limited q)))) by lra. exact Q.
  - pose proof (proj2 (proj2 (proj2 (c69_limited q))) A). lra.
Qed.
Lemma rt_nonneg k l0 strat cmu : 0 <= strat -> 0 <= axell_rt k (axell_eps cmu k l0) strat.
Proof.
  intro S. unfold axell_rt. set (q := (k / axell_eps cmu k l0) ^ 2 * strat).
  assert (Q : 0 <= q) by (unfold q; pose proof (Rle_0_sqr (k / axell_eps cmu k l0)); unfold Rsqr in *; nra).
  pose proof (proj1 (proj2 (c69_limited q))). lra.
Qed.

(** Stable air: at most the wall length, at most the buoyancy length [cb sqrt(k/N2)] and at most
    [sqrt(cmu k / N2)]; unstable air: between the wall length and a fixed multiple of it, whatever
    the length of the step before. *)
Theorem c69_length x z blank rho k strat s l0 : usable_kl x -> 0 < z -> 0 < k ->
  let l := x_l (axell_update x z blank rho k strat s l0) in
  0 < l /\
  (0 < strat -> l <= axell_ls z) /\
  (eps <= strat -> axell_neutral x z = false ->
     l <= x_cbs x * sqrt (k / strat) /\ l <= sqrt (x_cmu x * k / strat)) /\
  (strat <= 0 -> axell_ls z <= l <= axell_ls z * sqrt (1 + 3 * (x_cmu x ^ 6 / x_cbu x ^ 2))) /\
  (axell_neutral x z = true -> l = axell_ls z).
Proof.
  intros (C1&C2&C3) Z K l. destruct (c69_wall_length z Z) as [L0 _].
  set (ls := axell_ls z) in *. unfold l, axell_update. cbv zeta. cbn [x_l]. fold ls.
  set (rt := axell_rt k (axell_eps (x_cmu x) k l0) strat).
  set (q := x_cmu x ^ 6 * / x_cbu x ^ 2).
  assert (Q : 0 < q).
  { unfold q. apply Rmult_lt_0_compat; [apply pow_lt; lra|]. apply Rinv_0_lt_compat. apply pow_lt; lra. }
  assert (RT : -3 < rt) by (unfold rt, axell_rt; apply c69_limited).
  assert (STAB : 0 < strat -> 0 < axell_l0 x ls k strat rt <= ls /\
     (eps <= strat -> axell_l0 x ls k strat rt <= x_cbs x * sqrt (k / strat) /\
                      axell_l0 x ls k strat rt <= sqrt (x_cmu x * k / strat))).
  { intro S. unfold axell_l0. rewrite (proj2 (Rltb_spec 0 strat) S). cbv zeta.
    set (lb := x_cbs x * sqrt (k / rmax strat eps)).
    assert (MP : 0 < rmax strat eps) by (pose proof (rmax_le_l strat eps); lra).
    assert (LB : 0 < lb) by (unfold lb; apply Rmult_lt_0_compat; [lra|]; apply sqrt_lt_R0, Rdiv_lt_0_compat; lra).
    assert (LL : 0 < ls ^ 2 + lb ^ 2) by nra.
    assert (B1 : sqrt ((ls * lb) ^ 2 / (ls ^ 2 + lb ^ 2)) <= ls).
    { rewrite <- (sqrt_square ls) at 3 by lra. apply sqrt_le_1_alt. apply div_le; [exact LL|].
      assert (0 <= ls * ls * (ls * ls)) by nra. nra. }
    assert (B2 : sqrt ((ls * lb) ^ 2 / (ls ^ 2 + lb ^ 2)) <= lb).
    { rewrite <- (sqrt_square lb) at 3 by lra. apply sqrt_le_1_alt. apply div_le; [exact LL|].
      assert (0 <= lb * lb * (lb * lb)) by nra. nra. }
    assert (B3 : 0 < sqrt ((ls * lb) ^ 2 / (ls ^ 2 + lb ^ 2))).
    { apply sqrt_lt_R0, Rdiv_lt_0_compat; [|exact LL]. assert (0 < ls * lb) by nra. nra. }
    assert (B4 : 0 < sqrt (x_cmu x * k / strat)) by (apply sqrt_lt_R0, Rdiv_lt_0_compat; nra).
    split.
    - split; [rewrite rmin_spec; apply Rmin_glb_lt; assumption|]. eapply Rle_trans; [apply rmin_le_l|exact B1].
    - intro E. split; [|apply rmin_le_r]. eapply Rle_trans; [apply rmin_le_l|].
      eapply Rle_trans; [exact B2|]. unfold lb. rewrite rmax_left by exact E. lra. }
  assert (UNST : strat <= 0 -> ls <= axell_l0 x ls k strat rt <= ls * sqrt (1 + 3 * q)).
  { intro S. unfold axell_l0. rewrite (proj2 (Rltb_false 0 strat) S). cbv zeta. fold q.
    pose proof (rt_nonpos k l0 strat (x_cmu x) S) as RN. fold rt in RN. split.
    - rewrite <- (Rmult_1_r ls) at 1. apply Rmult_le_compat_l; [lra|].
      rewrite <- sqrt_1 at 1. apply sqrt_le_1_alt. nra.
    - apply Rmult_le_compat_l; [lra|]. apply sqrt_le_1_alt. nra. }
  assert (S1 : 1 <= sqrt (1 + 3 * q)) by (rewrite <- sqrt_1 at 1; apply sqrt_le_1_alt; nra).
  change (x_cmu x ^ 6 / x_cbu x ^ 2) with q.
  destruct (axell_neutral x z) eqn:N.
  - repeat split; try lra; try discriminate. 
  - repeat apply conj.
    + destruct (Rlt_le_dec 0 strat) as [S|S]; [apply STAB; exact S|]. pose proof (UNST S). lra.
    + intro S. apply STAB; exact S.
    + intros E _. pose proof eps_pos. apply STAB; lra.
    + exact UNST.
    + discriminate.
Qed.

(** The formulas: with N2 the stratification, the Richardson number is
    (l0 + eps)^2 N2 / (cmu^6 k), limited; in stable air the inverse squares of the wall length and
    of the buoyancy length add up, cut at sqrt(cmu k / N2); in unstable air the wall length is
    multiplied by sqrt(1 - cmu^6 / cb^2 Rt); the neutral layer has no surface heat flux and ends at
    the given height. *)
Theorem c69_formulas x z blank rho k strat s l0 : usable_kl x -> 0 < z -> 0 < k -> 0 <= l0 ->
  let o := axell_update x z blank rho k strat s l0 in
  let ri := rt_limit ((l0 + eps) ^ 2 * strat / (x_cmu x ^ 6 * k)) in
  (axell_neutral x z = true <-> Rabs (x_flux x) < 1/100000 /\ z <= x_switch x) /\
  (axell_neutral x z = false ->
     x_mu o = rho * cmu_rt (x_cmu x) ri * x_l o * sqrt k * (1 - blank) /\
     x_buoy o = - (rho * cmup_rt (x_cmu x) ri * x_l o * sqrt k * (1 - blank)) * strat /\
     (strat <= 0 -> x_l o = axell_ls z * sqrt (1 - x_cmu x ^ 6 / x_cbu x ^ 2 * ri)) /\
     (eps <= strat -> exists lc, 0 < lc /\
        / lc ^ 2 = / axell_ls z ^ 2 + / (x_cbs x ^ 2 * (k / strat)) /\
        x_l o = Rmin lc (sqrt (x_cmu x * k / strat)))).
Proof.
  intros (C1&C2&C3) Z K L o ri. pose proof eps_pos as EP. split.
  - unfold axell_neutral. rewrite andb_true_iff, Rltb_spec, Rleb_spec. reflexivity.
  - intro N.
    assert (RT : axell_rt k (axell_eps (x_cmu x) k l0) strat = ri).
    { unfold axell_rt, ri. f_equal. unfold axell_eps.
      assert (SP : 0 < sqrt k) by (apply sqrt_lt_R0; exact K).
      assert (SS : sqrt k * sqrt k = k) by (apply sqrt_sqrt; lra).
      assert (C6 : 0 < x_cmu x ^ 3) by (apply pow_lt; lra).
      replace (k / (x_cmu x ^ 3 * (k * sqrt k) / (l0 + eps))) with ((l0 + eps) / (x_cmu x ^ 3 * sqrt k))
        by (field; repeat split; lra).
      replace (x_cmu x ^ 6 * k) with ((x_cmu x ^ 3 * sqrt k) ^ 2) by (replace ((x_cmu x ^ 3 * sqrt k) ^ 2) with (x_cmu x ^ 6 * (sqrt k * sqrt k)) by ring; rewrite SS; reflexivity).
      field. split; lra. }
    assert (LL : x_l o = axell_l0 x (axell_ls z) k strat ri).
    { unfold o, axell_update. cbv zeta. cbn [x_l]. rewrite N, RT. reflexivity. }
    repeat apply conj.
    + unfold o, axell_update. cbv zeta. cbn [x_l x_mu]. rewrite N, RT. reflexivity.
    + unfold o, axell_update. cbv zeta. cbn [x_l x_buoy]. rewrite N, RT. reflexivity.
    + intro S. rewrite LL. unfold axell_l0. rewrite (proj2 (Rltb_false 0 strat) S). cbv zeta.
      unfold Rdiv. reflexivity.
    + intro S. destruct (c69_wall_length z Z) as [W0 _]. set (ls := axell_ls z) in *.
      rewrite LL. unfold axell_l0. rewrite (proj2 (Rltb_spec 0 strat)) by lra. cbv zeta.
      rewrite (rmax_left strat eps) by exact S. set (lb := x_cbs x * sqrt (k / strat)).
      assert (KS : 0 < k / strat) by (apply Rdiv_lt_0_compat; lra).
      assert (LB : 0 < lb) by (unfold lb; apply Rmult_lt_0_compat; [lra|apply sqrt_lt_R0; exact KS]).
      assert (LB2 : lb ^ 2 = x_cbs x ^ 2 * (k / strat)).
      { unfold lb. replace ((x_cbs x * sqrt (k / strat)) ^ 2) with (x_cbs x ^ 2 * (sqrt (k / strat)) ^ 2) by ring.
        rewrite pow2_sqrt by lra. reflexivity. }
      assert (LP : 0 < (ls * lb) ^ 2 / (ls ^ 2 + lb ^ 2)).
      { apply Rdiv_lt_0_compat; [|nra]. assert (0 < ls * lb) by nra. nra. }
      exists (sqrt ((ls * lb) ^ 2 / (ls ^ 2 + lb ^ 2))). repeat apply conj.
      * apply sqrt_lt_R0; exact LP.
      * rewrite pow2_sqrt by lra. rewrite <- LB2. field. nra.
      * apply rmin_spec.
Qed.

(** ** Viscosity and production *)
Theorem c69_viscosity x z blank rho k strat s l0 : usable_kl x -> 0 < z -> 0 < k -> 0 <= rho ->
  0 <= blank <= 1 ->
  let o := axell_update x z blank rho k strat s l0 in
  0 <= x_mu o /\ x_shear o = x_mu o * s ^ 2 /\ 0 <= x_shear o /\
  (0 <= strat -> x_mu o <= rho * x_cmu x * x_l o * sqrt k /\ x_buoy o <= 0) /\
  (strat <= 0 -> 0 <= x_buoy o) /\
  (axell_neutral x z = true -> x_mu o = rho * x_cmu x * axell_ls z * sqrt k * (1 - blank) /\
                               x_buoy o = - x_mu o * strat) /\
  (blank = 1 -> x_mu o = 0 /\ x_buoy o = 0 /\ x_shear o = 0).
Proof.
  intros U Z K R0 B o. pose proof U as (C1&C2&C3).
  destruct (c69_length x z blank rho k strat s l0 U Z K) as [LP [_ [_ [_ LN]]]]. fold o in LP, LN.
  set (rt := if axell_neutral x z then 0 else axell_rt k (axell_eps (x_cmu x) k l0) strat).
  assert (RT : -3 < rt) by (unfold rt; destruct (axell_neutral x z); [lra|unfold axell_rt; apply c69_limited]).
  destruct (c69_functions (x_cmu x) rt C1 RT) as [F1 [F2 [_ [N1 [N2 [_ [FS _]]]]]]].
  assert (M : x_mu o = rho * cmu_rt (x_cmu x) rt * x_l o * sqrt k * (1 - blank)) by reflexivity.
  assert (Y : x_buoy o = - (rho * cmup_rt (x_cmu x) rt * x_l o * sqrt k * (1 - blank)) * strat) by reflexivity.
  assert (S : x_shear o = s * (s * x_mu o)) by reflexivity.
  pose proof (sqrt_pos k) as SQ.
  assert (G : forall a, 0 <= a -> 0 <= rho * a * x_l o * sqrt k * (1 - blank))
    by (intros a A; repeat (apply Rmult_le_pos; try lra)).
  assert (M0 : 0 <= x_mu o) by (rewrite M; apply G; lra).
  pose proof (G (cmup_rt (x_cmu x) rt) ltac:(lra)) as P0.
  repeat apply conj.
  - exact M0.
  - rewrite S; ring.
  - rewrite S. nra.
  - intro H. assert (RP : 0 <= rt).
    { unfold rt. destruct (axell_neutral x z); [lra|apply rt_nonneg; exact H]. }
    destruct (FS RP) as [FA _]. split.
    + rewrite M. pose proof (G (cmu_rt (x_cmu x) rt) ltac:(lra)).
      assert (X : 0 <= rho * x_l o * sqrt k) by (repeat (apply Rmult_le_pos; try lra)).
      replace (rho * cmu_rt (x_cmu x) rt * x_l o * sqrt k * (1 - blank))
        with (rho * x_l o * sqrt k * (cmu_rt (x_cmu x) rt * (1 - blank))) by ring.
      replace (rho * x_cmu x * x_l o * sqrt k) with (rho * x_l o * sqrt k * x_cmu x) by ring.
      apply Rmult_le_compat_l; [exact X|]. nra.
    + rewrite Y. nra.
  - intro H. rewrite Y. nra.
  - intro N. assert (RZ : rt = 0) by (unfold rt; rewrite N; reflexivity).
    rewrite RZ in M, Y. rewrite N1 in M. rewrite N2 in Y. rewrite (LN N) in M, Y.
    split; [exact M|]. rewrite Y, M. ring.
  - intro H. rewrite H in M, Y. assert (MZ : x_mu o = 0) by (rewrite M; ring).
    repeat split; [exact MZ|rewrite Y; ring|rewrite S, MZ; ring].
Qed.

(** Heat: the effective diffusivity is the laminar one plus the viscosity over a Prandtl number
    between 0.42 and 6.4, above one in stable air and below in unstable. *)
Theorem c69_heat cmu alpha mut k l strat : 0 <= mut ->
  exists pr, 42/100 < pr < 64/10 /\ axell_alphaeff cmu alpha mut k l strat = alpha + mut / pr /\
  alpha <= axell_alphaeff cmu alpha mut k l strat /\
  (0 <= strat -> 1 <= pr) /\ (strat <= 0 -> pr <= 1).
Proof.
  intro M. set (rt := axell_rt k (cmu ^ 3 * (k * sqrt k) / l) strat).
  assert (R : -3 < rt) by (unfold rt, axell_rt; apply c69_limited).
  destruct (c69_functions (351/1000) rt ltac:(lra) R) as [_ [_ [P [_ [_ [_ [PS PU]]]]]]].
  exists (axell_prandtl rt). split; [exact P|]. split; [reflexivity|].
  assert (D : 0 <= mut / axell_prandtl rt) by (apply div_nonneg; lra).
  split; [unfold axell_alphaeff; fold rt; lra|].
  unfold rt, axell_rt in PS, PU |- *. set (q := (k / (cmu ^ 3 * (k * sqrt k) / l)) ^ 2 * strat) in *.
  assert (SQ : 0 <= (k / (cmu ^ 3 * (k * sqrt k) / l)) ^ 2) by (pose proof (Rle_0_sqr (k / (cmu ^ 3 * (k * sqrt k) / l))); unfold Rsqr in *; nra).
  split; intro S.
  - assert (0 <= q) by (unfold q; nra). pose proof (proj1 (proj2 (c69_limited q))). apply PS. lra.
  - assert (QN : q <= 0) by (unfold q; nra). apply PU.
    destruct (Rlt_le_dec (-1) q) as [A|A].
    + rewrite (proj1 (proj2 (proj2 (c69_limited q)))) by lra. exact QN.
    + pose proof (proj2 (proj2 (proj2 (c69_limited q))) A). lra.
Qed.

(** The length of the step before does not matter in stable air. *)
Theorem c69_memory x z blank rho k strat s l0 l1 : 0 < strat ->
  x_l (axell_update x z blank rho k strat s l0) = x_l (axell_update x z blank rho k strat s l1).
Proof.
  intro S. unfold axell_update. cbv zeta. cbn [x_l]. unfold axell_l0.
  rewrite (proj2 (Rltb_spec 0 strat) S). reflexivity.
Qed.

(** * A case: default coefficients, 100 m above the ground, stable. *)
Example c69_case : usable_kl (Axl (556/1000) (1/4) (35/100) 1 2000) /\
  axell_neutral (Axl (556/1000) (1/4) (35/100) 1 2000) 100 = false /\
  axell_ls 100 = 1230/71 /\ rt_limit (-9) = -13/5.
Proof.
  unfold usable_kl, axell_neutral, axell_ls, rt_limit. cbn [x_cmu x_cbs x_cbu x_flux x_switch].
  split; [lra|]. split; [|split; [field|]].
  - rewrite Rabs_R1. rewrite (proj2 (Rltb_false 1 (1/100000))) by lra. reflexivity.
  - rewrite (proj2 (Rltb_false (-1) (-9))) by lra. rewrite rmax_right; lra.
Qed.

Print Assumptions c69_length. Print Assumptions c69_viscosity. Print Assumptions c69_heat.
