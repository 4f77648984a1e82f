(** C87: modulated power law as inflow. *)
From Coq Require Import Reals Lra Lia Psatz List.
From Coquelicot Require Import Coquelicot.
From Verif Require Import BoxR BoxRFacts VecSpace VecSpaceProofs ABLInit ABLInitSpec ABLInitProofs ModPower ModPowerSpec.
Import ListNotations.
Local Open Scope R_scope.

(** ** Direction *)

(** The wind has the given speed and blows from the given compass direction. *)
Theorem c87_wind : forall S dir, uvec S dir = vscale (blows_to dir) (m_speed S) /\ (0 <= m_speed S -> vmag (uvec S dir) = m_speed S).
Proof.
  intros S dir. unfold uvec, blows_to, vscale, radians. cbv zeta.
  replace (PI * (- dir + 270) / 180) with (- (PI * dir / 180) + (PI / 2 + PI)) by field.
  set (a := PI * dir / 180). split.
  - replace (PI / 2 + PI) with (3 * (PI / 2)) by field. rewrite cos_plus, sin_plus, cos_3PI2, sin_3PI2, cos_neg, sin_neg. cbn. f_equal; ring.
  - intros P. unfold vmag, vmag_sqr. cbn. set (b := - a + _). pose proof (sin2_cos2 b) as Q. unfold Rsqr in Q.
    replace (m_speed S * cos b * (m_speed S * cos b) + m_speed S * sin b * (m_speed S * sin b) + 0 * 0) with (m_speed S * m_speed S * (sin b * sin b + cos b * cos b)) by ring.
    rewrite Q, Rmult_1_r. apply sqrt_square, P.
Qed.
Lemma between_step S h t0 t dt : m_start S <= m_stop S -> t0 <= t -> 0 <= dt <= h ->
  forall e, (t <= m_start S -> e = 0) /\ (m_start S < t <= m_stop S -> - h <= e <= 0) /\ (m_stop S < t -> - h <= e <= h) ->
  let c := if (Rltb (m_start S) t && Rltb t (m_stop S))%bool then dt else 0 in
  let e' := e + c - (time_between t0 (t + dt) (m_start S) (m_stop S) - time_between t0 t (m_start S) (m_stop S)) in
  (t + dt <= m_start S -> e' = 0) /\ (m_start S < t + dt <= m_stop S -> - h <= e' <= 0) /\ (m_stop S < t + dt -> - h <= e' <= h).
Proof.
  intros SS L D e (E1 & E2 & E3) c e'. unfold e', c, time_between. clear e' c. set (a := m_start S) in *. set (b := m_stop S) in *.
  destruct (Rltb a t) eqn:A; [apply Rltb_spec in A|apply Rltb_false in A]; (destruct (Rltb t b) eqn:B; [apply Rltb_spec in B|apply Rltb_false in B]); cbn [andb];
  unfold Rmax, Rmin; repeat destruct (Rle_dec _ _); repeat split; intros; try lra;
  try (assert (- h <= e <= 0) by (apply E2; lra); lra); try (assert (e = 0) by (apply E1; lra); lra); try (assert (- h <= e <= h) by (apply E3; lra); lra).
Qed.
(** Over every run the direction turns by the rate times the time between start and stop, up to one step. *)
Theorem c87_turning : forall S h t0 steps t1, follow h t0 steps t1 -> 0 <= h -> m_start S <= m_stop S ->
  Rabs (m_dir S - directions S steps (m_dir S) - m_rate S * time_between t0 t1 (m_start S) (m_stop S)) <= Rabs (m_rate S) * h.
Proof.
  intros S h t0 steps t1 F Hh SS.
  assert (G : forall steps t dir e, follow h t steps t1 -> t0 <= t ->
     (t <= m_start S -> e = 0) /\ (m_start S < t <= m_stop S -> - h <= e <= 0) /\ (m_stop S < t -> - h <= e <= h) ->
     m_dir S - dir = m_rate S * (time_between t0 t (m_start S) (m_stop S) + e) ->
     exists e', - h <= e' <= h /\ m_dir S - directions S steps dir = m_rate S * (time_between t0 t1 (m_start S) (m_stop S) + e')).
  { clear steps F. induction steps as [|[t dt] s IH]; intros t' dir e F L E Q.
    - cbn in F. subst t1. exists e. split; [|exact Q]. destruct E as (E1 & E2 & E3). destruct (Rle_dec t' (m_start S)) as [X|X]; [rewrite (E1 X); lra|].
      destruct (Rle_dec t' (m_stop S)) as [Y|Y]; [assert (- h <= e <= 0) by (apply E2; lra); lra|apply E3; lra].
    - cbn in F. destruct F as (-> & D & F). cbn [directions].
      apply (IH (t' + dt) _ (e + (if (Rltb (m_start S) t' && Rltb t' (m_stop S))%bool then dt else 0) - (time_between t0 (t' + dt) (m_start S) (m_stop S) - time_between t0 t' (m_start S) (m_stop S))) F); [lra| |].
      + apply (between_step S h t0 t' dt SS L D e E).
      + unfold turn. destruct (Rltb (m_start S) t' && Rltb t' (m_stop S))%bool; lra. }
  destruct (G steps t0 (m_dir S) 0 F ltac:(lra)) as (e & He & Q).
  - repeat split; intros; lra.
  - assert (Z : time_between t0 t0 (m_start S) (m_stop S) = 0) by (unfold time_between, Rmax, Rmin; repeat destruct (Rle_dec _ _); lra). rewrite Z. ring.
  - rewrite Q. replace (m_rate S * (time_between t0 t1 (m_start S) (m_stop S) + e) - m_rate S * time_between t0 t1 (m_start S) (m_stop S)) with (m_rate S * e) by ring.
    rewrite Rabs_mult. apply Rmult_le_compat_l; [apply Rabs_pos|]. apply Rabs_le. lra.
Qed.
(** A restart forgets the turning so far: the run goes on with the direction of the input. *)
Theorem c87_restart_refuted : forall S before after,
  directions S (before ++ after) (m_dir S) - directions S after (m_dir S) = directions S before (m_dir S) - m_dir S.
Proof.
  intros S before after. assert (A : forall l d, directions S (before ++ after) d = directions S after (directions S before d) /\ directions S l d = d + directions S l 0).
  { intros l d. split.
    - revert d. induction before as [|[t dt] b IH]; intros d; [reflexivity|]. cbn [app directions]. apply IH.
    - revert d. assert (G : forall d c, directions S l (d + c) = d + directions S l c).
      { induction l as [|[t dt] l IH]; intros d c; [reflexivity|]. cbn [directions]. rewrite <- IH. f_equal. unfold turn. destruct (_ && _)%bool; ring. }
      intros d. rewrite <- (G d 0). f_equal. ring. }
  rewrite (proj1 (A [] (m_dir S))). rewrite (proj2 (A after (directions S before (m_dir S)))), (proj2 (A after (m_dir S))). ring.
Qed.

(** ** Profile *)

(** Every inflow velocity is along the wind: the power law up to its cap, and a smooth step. *)
Theorem c87_profile : forall S dir H z, 0 < m_speed S -> 0 < m_thick S -> 0 < m_zref S -> 1 <= m_umax S -> 0 < m_shear S ->
  exists a, inflow S dir H z = vscale (blows_to dir) (m_speed S * Rmin (if Rlt_dec 0 z then Rpower (z / m_zref S) (m_shear S) else 0) (m_umax S) + a * step_up (m_zc S) (m_thick S) z) /\
            a = upper S (m_speed S) H.
Proof.
  intros S dir H z Sp Th Zr Um Sh. exists (upper S (m_speed S) H). split; [|reflexivity]. unfold inflow. cbv zeta.
  destruct (c87_wind S dir) as [U V]. rewrite (V ltac:(lra)). rewrite U.
  assert (P : pfac S z = Rmin (if Rlt_dec 0 z then Rpower (z / m_zref S) (m_shear S) else 0) (m_umax S)).
  { unfold pfac. cbv zeta. rewrite rmin_spec, rmax_spec. f_equal.
    destruct (Rltb 0 z) eqn:E, (Rlt_dec 0 z) as [L|L]; try (apply Rltb_spec in E; lra); try (apply Rltb_false in E; lra).
    - apply Rmax_left, Rlt_le, exp_pos.
    - apply Rmax_left. lra. }
  assert (T : tanhterm S (m_speed S) H z = upper S (m_speed S) H * step_up (m_zc S) (m_thick S) z / m_speed S).
  { unfold tanhterm, step_up, coeff. replace (1 / m_thick S * (z - m_zc S)) with ((z - m_zc S) / m_thick S) by (field; lra). rewrite half_dot. field. lra. }
  rewrite P, T. unfold vscale, blows_to. cbn. f_equal; field; lra.
Qed.
(** At the reference height the power law has the given speed. *)
Theorem c87_reference : forall S, 0 < m_zref S -> 1 <= m_umax S -> pfac S (m_zref S) = 1.
Proof.
  intros S Z U. unfold pfac. cbv zeta. rewrite (proj2 (Rltb_spec 0 (m_zref S)) Z). replace (m_zref S / m_zref S) with 1 by (field; lra).
  unfold Rpower. rewrite ln_1, Rmult_0_r, exp_0, rmin_spec, rmax_spec. rewrite Rmax_left by lra. apply Rmin_left, U.
Qed.

(** ** Bulk velocity *)
Lemma cosh_pos x : 0 < cosh x. Proof. unfold cosh. pose proof (exp_pos x). pose proof (exp_pos (- x)). lra. Qed.
Lemma step_cont zc th z : continuous (step_up zc th) z.
Proof.
  apply (ex_derive_continuous (step_up zc th)). unfold step_up, tanh, cosh, sinh. auto_derive.
  pose proof (exp_pos ((z + - zc) * / th)). pose proof (exp_pos (- ((z + - zc) * / th))). repeat split; lra.
Qed.
Lemma step_int zc th a b : 0 < th -> is_RInt (step_up zc th) a b (/ 2 * (ln (cosh ((b - zc) / th)) * th - ln (cosh ((a - zc) / th)) * th + (b - a))).
Proof.
  intros T. set (F := fun z => / 2 * (ln (cosh ((z - zc) / th)) * th + z)).
  replace (/ 2 * (ln (cosh ((b - zc) / th)) * th - ln (cosh ((a - zc) / th)) * th + (b - a))) with (minus (F b) (F a)) by (unfold F, minus, plus, opp; cbn; field).
  apply (is_RInt_derive F).
  - intros z _. unfold F, step_up, tanh, cosh, sinh. auto_derive.
    + pose proof (exp_pos ((z + - zc) * / th)). pose proof (exp_pos (- ((z + - zc) * / th))). lra.
    + unfold cosh, sinh. fold (z - zc). fold ((z - zc) / th). set (w := (z - zc) / th). pose proof (exp_pos w). pose proof (exp_pos (- w)). field. lra.
  - intros z _. apply step_cont.
Qed.
Definition law (S : mset) (z : R) : R := if Rlt_dec 0 z then Rpower (z / m_zref S) (m_shear S) else 0.
Definition prim (S : mset) (z : R) : R := if Rlt_dec 0 z then z * Rpower (z / m_zref S) (m_shear S) / (m_shear S + 1) else 0.
Lemma law_small S eps : 0 < m_zref S -> 0 < m_shear S -> 0 < eps -> exists d, 0 < d /\ forall z, z < d -> Rabs (law S z) < eps.
Proof.
  intros Z A E. exists (m_zref S * Rpower eps (1 / m_shear S)). split; [apply Rmult_lt_0_compat; [exact Z|apply exp_pos]|]. intros z Hz. unfold law.
  destruct (Rlt_dec 0 z) as [L|L]; [|rewrite Rabs_R0; exact E]. rewrite Rabs_right by (apply Rle_ge, Rlt_le, exp_pos).
  assert (Q : 0 < z / m_zref S < Rpower eps (1 / m_shear S)).
  { split; [apply Rdiv_lt_0_compat; assumption|]. apply (Rmult_lt_reg_r (m_zref S)); [exact Z|]. replace (z / m_zref S * m_zref S) with z by (field; lra). lra. }
  replace eps with (Rpower (Rpower eps (1 / m_shear S)) (m_shear S)) at 1.
  - apply Rlt_Rpower_l; assumption.
  - rewrite Rpower_mult. replace (1 / m_shear S * m_shear S) with 1 by (field; lra). apply Rpower_1, E.
Qed.
Lemma law_int S b : 0 < m_zref S -> 0 < m_shear S -> 0 <= b -> is_RInt (law S) 0 b (prim S b).
Proof.
  intros Z A B. replace (prim S b) with (minus (prim S b) (prim S 0)) by (unfold prim at 2; destruct (Rlt_dec 0 0); [lra|]; unfold minus, plus, opp; cbn; ring).
  apply (is_RInt_derive (prim S)); rewrite Rmin_left, Rmax_right by lra; intros z [L _].
  - destruct (Rle_lt_or_eq_dec _ _ L) as [P| <-].
    + apply (is_derive_ext_loc (fun z => z * Rpower (z / m_zref S) (m_shear S) / (m_shear S + 1))).
      * exists (mkposreal z P). intros y Hy. unfold ball in Hy. cbn in Hy. unfold AbsRing_ball, abs, minus, plus, opp in Hy. cbn in Hy. apply Rabs_def2 in Hy.
        unfold prim. destruct (Rlt_dec 0 y); [reflexivity|lra].
      * unfold law. destruct (Rlt_dec 0 z); [|lra]. unfold Rpower. auto_derive; [apply Rmult_lt_0_compat; [exact P|apply Rinv_0_lt_compat, Z]|].
        set (g := exp _). field. split; [lra|split; lra].
    + apply is_derive_Reals. intros eps E. destruct (law_small S eps Z A E) as (d & D & Hd). exists (mkposreal d D). intros h N Hh. cbn in Hh. apply Rabs_def2 in Hh.
      rewrite Rplus_0_l. unfold prim at 2. destruct (Rlt_dec 0 0); [lra|]. unfold law at 1. destruct (Rlt_dec 0 0); [lra|]. rewrite !Rminus_0_r.
      specialize (Hd h ltac:(lra)). unfold prim, law in *. destruct (Rlt_dec 0 h) as [P|P].
      * set (g := Rpower _ _) in *. assert (0 < g) by apply exp_pos. replace (h * g / (m_shear S + 1) / h) with (g / (m_shear S + 1)) by (field; lra).
        rewrite Rabs_right in Hd by lra. assert (0 < / (m_shear S + 1) < 1) by (split; [apply Rinv_0_lt_compat; lra|rewrite <- Rinv_1; apply Rinv_lt_contravar; lra]).
        unfold Rdiv. rewrite Rabs_right by nra. nra.
      * unfold Rdiv. rewrite Rmult_0_l, Rabs_R0. exact E.
  - destruct (Rle_lt_or_eq_dec _ _ L) as [P| <-].
    + apply (continuous_ext_loc (law S) (fun z => Rpower (z / m_zref S) (m_shear S))).
      * exists (mkposreal z P). intros y Hy. unfold ball in Hy. cbn in Hy. unfold AbsRing_ball, abs, minus, plus, opp in Hy. cbn in Hy. apply Rabs_def2 in Hy.
        unfold law. destruct (Rlt_dec 0 y); [reflexivity|lra].
      * apply (ex_derive_continuous (fun z => Rpower (z / m_zref S) (m_shear S))). unfold Rpower. auto_derive. apply Rmult_lt_0_compat; [exact P|apply Rinv_0_lt_compat, Z].
    + apply continuity_pt_filterlim. intros eps E. destruct (law_small S eps Z A E) as (d & D & Hd). exists d. split; [exact D|]. intros x [_ Hx].
      unfold dist in *. cbn in *. unfold R_dist in *. apply Rabs_def2 in Hx. unfold law at 2. destruct (Rlt_dec 0 0); [lra|]. rewrite Rminus_0_r. apply Hd. lra.
Qed.
(** The integral of the inflow over the height of the domain, for a domain that starts at zero: the wanted
    bulk velocity, and what the step contributes below the height where the power law is capped. *)
Theorem c87_bulk_partial : forall S H, 0 < m_speed S -> 0 < m_thick S -> 0 < m_zref S -> 1 <= m_umax S -> 0 < m_shear S -> z2 S <= H -> denom S H <> 0 ->
  0 < z2 S /\ (exists tail, is_RInt (step_up (m_zc S) (m_thick S)) 0 (z2 S) tail /\
    is_RInt (fun z => m_speed S * (pfac S z + tanhterm S (m_speed S) H z)) 0 H (m_bulk S * H + upper S (m_speed S) H * tail)).
Proof.
  intros S H Sp Th Zr Um Sh HH DN.
  assert (Z2 : z2 S = m_zref S * Rpower (m_umax S) (1 / m_shear S)).
  { unfold z2. rewrite (proj2 (Rltb_spec _ _)) by (rewrite Rabs_right; lra). unfold rpow. rewrite (proj2 (Rleb_false _ _)) by lra. reflexivity. }
  assert (P2 : 0 < z2 S) by (rewrite Z2; apply Rmult_lt_0_compat; [exact Zr|apply exp_pos]). split; [exact P2|].
  set (u := m_speed S) in *. set (a := upper S u H).
  assert (Cap : Rpower (z2 S / m_zref S) (m_shear S) = m_umax S).
  { rewrite Z2. replace (m_zref S * Rpower (m_umax S) (1 / m_shear S) / m_zref S) with (Rpower (m_umax S) (1 / m_shear S)) by (field; lra).
    rewrite Rpower_mult. replace (1 / m_shear S * m_shear S) with 1 by (field; lra). apply Rpower_1. lra. }
  assert (Zge : m_zref S <= z2 S).
  { rewrite Z2. rewrite <- (Rmult_1_r (m_zref S)) at 1. apply Rmult_le_compat_l; [lra|]. unfold Rpower. rewrite <- exp_0 at 1.
    assert (0 <= 1 / m_shear S * ln (m_umax S)).
    { apply Rmult_le_pos; [apply Rlt_le, Rdiv_lt_0_compat; lra|]. destruct (Req_dec (m_umax S) 1) as [->|N]; [rewrite ln_1; lra|]. rewrite <- ln_1. apply Rlt_le, ln_increasing; lra. }
    destruct (Req_dec (1 / m_shear S * ln (m_umax S)) 0) as [->|N]; [lra|]. apply Rlt_le, exp_increasing. lra. }
  assert (PF : forall z, pfac S z = Rmin (law S z) (m_umax S)).
  { intros z. unfold pfac, law. cbv zeta. rewrite rmin_spec, rmax_spec. f_equal.
    destruct (Rltb 0 z) eqn:E, (Rlt_dec 0 z) as [L|L]; try (apply Rltb_spec in E; lra); try (apply Rltb_false in E; lra); [apply Rmax_left, Rlt_le, exp_pos|apply Rmax_left; lra]. }
  assert (TH : forall z, tanhterm S u H z = a * step_up (m_zc S) (m_thick S) z / u).
  { intros z. unfold tanhterm, step_up, coeff, a. replace (1 / m_thick S * (z - m_zc S)) with ((z - m_zc S) / m_thick S) by (field; lra). rewrite half_dot. field. lra. }
  set (T := fun x y => / 2 * (ln (cosh ((y - m_zc S) / m_thick S)) * m_thick S - ln (cosh ((x - m_zc S) / m_thick S)) * m_thick S + (y - x))).
  assert (TI : forall x y, is_RInt (step_up (m_zc S) (m_thick S)) x y (T x y)) by (intros; apply step_int, Th).
  exists (T 0 (z2 S)). split; [apply TI|].
  assert (DT : denom S H = T (z2 S) H).
  { unfold denom, T, coeff. rewrite half_dot. assert (E : forall y, cosh (- (1 / m_thick S) * y) = cosh (y / m_thick S)).
    { intros y. unfold cosh. replace (- (1 / m_thick S) * y) with (- (y / m_thick S)) by (field; lra). rewrite Ropp_involutive. f_equal. ring. }
    rewrite !E. field. lra. }
  assert (N1 : num1 S u = u * prim S (z2 S)).
  { unfold num1, prim, rpow. destruct (Rlt_dec 0 (z2 S)); [|lra]. rewrite !(proj2 (Rleb_false _ _)) by lra. rewrite Rpower_plus, Rpower_1 by exact P2.
    assert (E : Rpower (z2 S / m_zref S) (m_shear S) = Rpower (z2 S) (m_shear S) / Rpower (m_zref S) (m_shear S)).
    { unfold Rpower, Rdiv. rewrite ln_mult, ln_Rinv by (try apply Rinv_0_lt_compat; assumption). rewrite Rmult_plus_distr_l, exp_plus. f_equal. rewrite <- exp_Ropp. f_equal. ring. }
    rewrite E. assert (0 < Rpower (m_zref S) (m_shear S)) by apply exp_pos. field. split; lra. }
  assert (VM : vmax S u = u * m_umax S) by (unfold vmax; rewrite (proj2 (Rltb_false _ _)) by lra; reflexivity).
  assert (AT : a * T (z2 S) H = m_bulk S * H - u * prim S (z2 S) - u * m_umax S * (H - z2 S)).
  { unfold a, upper. rewrite N1. unfold num2. rewrite VM, <- DT. field. exact DN. }
  assert (V : m_bulk S * H + a * T 0 (z2 S) = plus (plus (u * prim S (z2 S)) (a * T 0 (z2 S))) (plus (u * m_umax S * (H - z2 S)) (a * T (z2 S) H))).
  { unfold plus. cbn. rewrite AT. ring. }
  rewrite V. apply (is_RInt_Chasles (V := R_NormedModule) _ 0 (z2 S) H).
  - apply (is_RInt_ext (fun z => plus (scal u (law S z)) (scal a (step_up (m_zc S) (m_thick S) z)))).
    + rewrite Rmin_left, Rmax_right by lra. intros z Hz. rewrite PF, TH. unfold plus, scal. cbn. unfold mult. cbn.
      rewrite Rmin_left; [field; lra|]. unfold law. destruct (Rlt_dec 0 z); [|lra]. rewrite <- Cap. apply Rle_Rpower_l; [lra|]. split; [apply Rdiv_lt_0_compat; lra|].
      unfold Rdiv. apply Rmult_le_compat_r; [apply Rlt_le, Rinv_0_lt_compat, Zr|lra].
    + apply (is_RInt_plus (V := R_NormedModule)); apply (is_RInt_scal (V := R_NormedModule)); [apply law_int; lra|apply TI].
  - apply (is_RInt_ext (fun z => plus (u * m_umax S) (scal a (step_up (m_zc S) (m_thick S) z)))).
    + rewrite Rmin_left, Rmax_right by lra. intros z Hz. rewrite PF, TH. unfold plus, scal. cbn. unfold mult. cbn.
      rewrite Rmin_right; [field; lra|]. unfold law. destruct (Rlt_dec 0 z); [|lra]. rewrite <- Cap. apply Rle_Rpower_l; [lra|]. split; [apply Rdiv_lt_0_compat; lra|].
      unfold Rdiv. apply Rmult_le_compat_r; [apply Rlt_le, Rinv_0_lt_compat, Zr|lra].
    + apply (is_RInt_plus (V := R_NormedModule)); [|apply (is_RInt_scal (V := R_NormedModule)), TI].
      replace (u * m_umax S * (H - z2 S)) with (scal (H - z2 S) (u * m_umax S)) by (unfold scal; cbn; unfold mult; cbn; ring). apply (is_RInt_const (V := R_NormedModule)).
Qed.
(** With a power law the bulk velocity is missed whenever the step is needed at all. *)
Theorem c87_bulk_refuted : forall S H I, 0 < m_speed S -> 0 < m_thick S -> 0 < m_zref S -> 1 <= m_umax S -> 0 < m_shear S -> z2 S <= H -> denom S H <> 0 ->
  upper S (m_speed S) H <> 0 -> is_RInt (fun z => m_speed S * (pfac S z + tanhterm S (m_speed S) H z)) 0 H I -> I <> m_bulk S * H.
Proof.
  intros S H I Sp Th Zr Um Sh HH DN UN HI E.
  destruct (c87_bulk_partial S H Sp Th Zr Um Sh HH DN) as (P2 & tail & T & J).
  pose proof (is_RInt_unique _ _ _ _ HI) as U1. pose proof (is_RInt_unique _ _ _ _ J) as U2.
  assert (TP : 0 < tail).
  { pose proof (step_int (m_zc S) (m_thick S) 0 (z2 S) Th) as K. rewrite <- (is_RInt_unique _ _ _ _ T).
    apply RInt_gt_0; [exact P2| |].
    - intros x _. unfold step_up, tanh, sinh, cosh. set (w := (x - m_zc S) / m_thick S). pose proof (exp_pos w). pose proof (exp_pos (- w)).
      replace ((1 + (exp w - exp (- w)) / 2 / ((exp w + exp (- w)) / 2)) / 2) with (exp w / (exp w + exp (- w))) by (field; lra). apply Rdiv_lt_0_compat; lra.
    - intros x _. apply step_cont. }
  apply (Rmult_integral_contrapositive (upper S (m_speed S) H) tail); [split; lra|]. assert (I = m_bulk S * H + upper S (m_speed S) H * tail) by (rewrite <- U1; exact U2). lra.
Qed.
Lemma step_is S u H z : 0 < m_thick S -> 0 < u -> tanhterm S u H z = upper S u H * step_up (m_zc S) (m_thick S) z / u.
Proof.
  intros T U. unfold tanhterm, step_up, coeff. replace (1 / m_thick S * (z - m_zc S)) with ((z - m_zc S) / m_thick S) by (field; lra). rewrite half_dot. field. lra.
Qed.
Lemma denom_is S H : 0 < m_thick S -> is_RInt (step_up (m_zc S) (m_thick S)) (z2 S) H (denom S H).
Proof.
  intros T. replace (denom S H) with (/ 2 * (ln (cosh ((H - m_zc S) / m_thick S)) * m_thick S - ln (cosh ((z2 S - m_zc S) / m_thick S)) * m_thick S + (H - z2 S))); [apply step_int, T|].
  unfold denom, coeff. rewrite half_dot. assert (E : forall y, cosh (- (1 / m_thick S) * y) = cosh (y / m_thick S)).
  { intros y. unfold cosh. replace (- (1 / m_thick S) * y) with (- (y / m_thick S)) by (field; lra). rewrite Ropp_involutive. f_equal. ring. }
  rewrite !E. field. lra.
Qed.
(** Without shear the bulk velocity is met exactly. *)
Theorem c87_bulk_uniform : forall S H, m_shear S = 0 -> 0 < m_speed S -> 0 < m_thick S -> 0 < m_zref S -> 1 <= m_umax S -> 0 < H -> denom S H <> 0 ->
  is_RInt (fun z => m_speed S * (pfac S z + tanhterm S (m_speed S) H z)) 0 H (m_bulk S * H).
Proof.
  intros S H S0 Sp Th Zr Um HH DN. set (u := m_speed S) in *. clearbody u.
  assert (Z2 : z2 S = 0) by (unfold z2; rewrite S0, Rabs_R0, (proj2 (Rltb_false 0 0)) by lra; reflexivity).
  assert (VM : vmax S u = u) by (unfold vmax; rewrite Z2, (proj2 (Rltb_spec _ _) Zr); reflexivity).
  assert (N1 : num1 S u = 0) by (unfold num1, rpow; rewrite Z2, (proj2 (Rleb_spec 0 0)) by lra; unfold Rdiv; ring).
  pose proof (denom_is S H Th) as D. rewrite Z2 in D.
  assert (V : m_bulk S * H = plus (u * H) (upper S u H * denom S H)).
  { unfold upper. rewrite N1. unfold num2. rewrite VM, Z2. unfold plus. cbn. field. exact DN. }
  rewrite V. apply (is_RInt_ext (fun z => plus u (scal (upper S u H) (step_up (m_zc S) (m_thick S) z)))).
  - rewrite Rmin_left, Rmax_right by lra. intros z Hz. rewrite step_is by assumption. unfold plus, scal. cbn. unfold mult. cbn.
    assert (P : pfac S z = 1).
    { unfold pfac. cbv zeta. rewrite (proj2 (Rltb_spec 0 z)) by lra. rewrite S0, Rpower_O by (apply Rdiv_lt_0_compat; lra). rewrite rmin_spec, rmax_spec, Rmax_left, Rmin_left by lra. reflexivity. }
    rewrite P. field. lra.
  - apply (is_RInt_plus (V := R_NormedModule)); [|apply (is_RInt_scal (V := R_NormedModule)), D].
    replace (u * H) with (scal (H - 0) u) by (unfold scal; cbn; unfold mult; cbn; ring). apply (is_RInt_const (V := R_NormedModule)).
Qed.
(** With a cap below the reference speed, the balance counts the full reference speed above the height of the cap, where the inflow is capped. *)
Theorem c87_low_cap_refuted : forall S u H z, 0 < u -> 0 < m_zref S -> 0 < m_shear S -> 0 < m_umax S < 1 -> z2 S <= z ->
  num2 S u H = u * (H - z2 S) /\ u * pfac S z = u * m_umax S /\ u * pfac S z < u.
Proof.
  intros S u H z U Zr Sh Um Hz.
  assert (Z2 : z2 S = m_zref S * Rpower (m_umax S) (1 / m_shear S)).
  { unfold z2. rewrite (proj2 (Rltb_spec _ _)) by (rewrite Rabs_right; lra). unfold rpow. rewrite (proj2 (Rleb_false _ _)) by lra. reflexivity. }
  assert (R1 : 0 < Rpower (m_umax S) (1 / m_shear S) < 1).
  { split; [apply exp_pos|]. unfold Rpower. apply Rlt_le_trans with (exp 0); [|rewrite exp_0; lra]. apply exp_increasing. assert (0 < 1 / m_shear S) by (apply Rdiv_lt_0_compat; lra).
    assert (ln (m_umax S) < 0) by (rewrite <- ln_1; apply ln_increasing; lra). set (q := 1 / m_shear S) in *. clearbody q. nra. }
  assert (P2 : 0 < z2 S < m_zref S) by (rewrite Z2; set (r := Rpower _ _) in *; split; [apply Rmult_lt_0_compat; lra|rewrite <- (Rmult_1_r (m_zref S)) at 2; apply Rmult_lt_compat_l; lra]).
  assert (Cap : Rpower (z2 S / m_zref S) (m_shear S) = m_umax S).
  { rewrite Z2. replace (m_zref S * Rpower (m_umax S) (1 / m_shear S) / m_zref S) with (Rpower (m_umax S) (1 / m_shear S)) by (field; lra).
    rewrite Rpower_mult. replace (1 / m_shear S * m_shear S) with 1 by (field; lra). apply Rpower_1. lra. }
  split; [unfold num2, vmax; rewrite (proj2 (Rltb_spec _ _)) by lra; reflexivity|].
  assert (P : pfac S z = m_umax S).
  { unfold pfac. cbv zeta. rewrite (proj2 (Rltb_spec 0 z)) by lra. rewrite rmin_spec, rmax_spec, Rmax_left by (apply Rlt_le, exp_pos). apply Rmin_right.
    rewrite <- Cap. apply Rle_Rpower_l; [lra|]. split; [apply Rdiv_lt_0_compat; lra|]. unfold Rdiv. apply Rmult_le_compat_r; [apply Rlt_le, Rinv_0_lt_compat, Zr|lra]. }
  rewrite P. split; [reflexivity|nra].
Qed.

(** ** Temperature *)

(** Up to the top of the table the inflow has the temperature of the table, with random numbers below the cut-off only. *)
Theorem c87_temperature : forall S z random, m_theta S <> [] -> rises (m_theta S) -> z <= hgt (m_theta S) (length (m_theta S) - 1) ->
  exists q, table_value (m_theta S) z q /\
   (z < m_cutoff S -> inflow_theta S z random = Ret (q + m_delta S * random)) /\ (m_cutoff S <= z -> inflow_theta S z random = Ret q).
Proof.
  intros S z random N R Z. exists (scan (m_theta S) z (val (m_theta S) 0)). split; [apply scan_ok; [exact R|destruct (m_theta S); [contradiction|cbn; lia]|exact Z]|].
  assert (F : first_value (m_theta S) = Ret (val (m_theta S) 0)) by (destruct (m_theta S) as [|[a b] t]; [contradiction|reflexivity]).
  unfold inflow_theta. rewrite F. cbn [obind]. split; intros L.
  - rewrite (proj2 (Rltb_spec _ _) L). reflexivity.
  - rewrite (proj2 (Rltb_false _ _) L). reflexivity.
Qed.
(** Above the table it has the temperature of the ground. *)
Theorem c87_temperature_above_refuted : forall S z random, m_theta S <> [] -> rises (m_theta S) -> hgt (m_theta S) (length (m_theta S) - 1) < z -> m_cutoff S <= z ->
  inflow_theta S z random = Ret (val (m_theta S) 0).
Proof.
  intros S z random N R Z L. assert (F : first_value (m_theta S) = Ret (val (m_theta S) 0)) by (destruct (m_theta S) as [|[a b] t]; [contradiction|reflexivity]).
  unfold inflow_theta. rewrite F. cbn [obind]. rewrite (proj2 (Rltb_false _ _) L), scan_high by assumption. reflexivity.
Qed.

(** ** A case *)
Definition ex_set : mset := MS 90 1 2 15 600 30 8 270 0 100 (2 / 100) [(0, 300); (1000, 305)] (8 / 10) 250.
Example case_turn : directions ex_set [(0, 50); (50, 50); (100, 50)] 270 = 269 /\ follow 50 0 [(0, 50); (50, 50); (100, 50)] 150.
Proof.
  split; [|cbn; lra]. cbn. unfold turn. cbn.
  rewrite (proj2 (Rltb_false 0 0)), (proj2 (Rltb_spec 0 50)), (proj2 (Rltb_spec 50 100)), (proj2 (Rltb_false 100 100)) by lra. cbn [andb]. rewrite Bool.andb_false_r. lra.
Qed.
Example case_z2 : z2 ex_set = 180.
Proof.
  unfold z2, rpow. cbn. rewrite Rabs_R1, (proj2 (Rltb_spec 0 1)), (proj2 (Rleb_false 2 0)) by lra. replace (1 / 1) with 1 by field. rewrite Rpower_1 by lra. lra.
Qed.
Example case_bulk : 0 < m_speed ex_set /\ z2 ex_set <= 1000 /\ denom ex_set 1000 <> 0.
Proof.
  split; [cbn; lra|]. split; [rewrite case_z2; lra|]. unfold denom, coeff. rewrite case_z2. cbn [m_thick m_zc ex_set].
  assert (C : cosh (- (1 / 30) * (180 - 600)) < cosh (- (1 / 30) * (1000 - 600)) * exp 1).
  { unfold cosh. replace (- (1 / 30) * (180 - 600)) with 14 by lra. replace (- (1 / 30) * (1000 - 600)) with (- (40 / 3)) by lra. rewrite Ropp_involutive.
    assert (exp 14 < exp (40 / 3) * exp 1) by (rewrite <- exp_plus; apply exp_increasing; lra).
    assert (exp (- (14)) < exp (- (40 / 3))) by (apply exp_increasing; lra). assert (1 < exp 1) by (apply Rle_lt_trans with (exp 0); [rewrite exp_0; lra|apply exp_increasing; lra]).
    pose proof (exp_pos (- (40 / 3))). nra. }
  assert (L : ln (cosh (- (1 / 30) * (180 - 600))) < ln (cosh (- (1 / 30) * (1000 - 600))) + 1).
  { rewrite <- (ln_exp 1) at 3. rewrite <- ln_mult by (try apply exp_pos; apply cosh_pos). apply ln_increasing; [apply cosh_pos|exact C]. }
  assert (E : forall x, x / (1 / 30) = 30 * x) by (intros; field). rewrite !E. apply Rgt_not_eq. lra.
Qed.

Print Assumptions c87_wind.
Print Assumptions c87_turning.
Print Assumptions c87_restart_refuted.
Print Assumptions c87_profile.
Print Assumptions c87_reference.
Print Assumptions c87_bulk_partial.
Print Assumptions c87_bulk_refuted.
Print Assumptions c87_bulk_uniform.
Print Assumptions c87_low_cap_refuted.
Print Assumptions c87_temperature.
Print Assumptions c87_temperature_above_refuted.
