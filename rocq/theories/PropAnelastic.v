(** C93: the reference state of the anelastic boundary layer. *)
From Coq Require Import Reals List Bool Arith Lia Lra.
From Coquelicot Require Import Coquelicot.
From Verif Require Import BoxR BoxRFacts Anelastic AnelasticSpec.
Import ListNotations.
Local Open Scope R_scope.

Lemma air_gas_pos : 0 < air_gas.
Proof. unfold air_gas. apply Rdiv_lt_0_compat; [apply Rmult_lt_0_compat|]; apply Rdiv_lt_0_compat; try lra; apply pow_lt; lra. Qed.
Lemma tol_pos : 0 < loose_tol.
Proof. unfold loose_tol. apply Rmult_lt_0_compat; [apply Rinv_0_lt_compat|]; apply pow_lt; lra. Qed.
Lemma cpow_pos : forall x y, 0 < x -> cpow x y = Some (Rpower x y).
Proof. intros x y P. unfold cpow. destruct (Rltb 0 x) eqn:E; [reflexivity|]. apply Rltb_false in E. lra. Qed.
Lemma cpow_0 : forall y, cpow 0 y = Some 0.
Proof. intros y. unfold cpow. destruct (Rltb 0 0) eqn:E; [apply Rltb_spec in E; lra|]. destruct (Req_EM_T 0 0); [reflexivity|lra]. Qed.
Lemma cpow_neg : forall x y, x < 0 -> cpow x y = None.
Proof. intros x y N. unfold cpow. destruct (Rltb 0 x) eqn:E; [apply Rltb_spec in E; lra|]. destruct (Req_EM_T x 0); [lra|reflexivity]. Qed.

(** ** The air *)
Theorem c93_air : forall p0 theta rho p, 0 < p0 -> 0 < theta -> 0 < rho -> 0 < p ->
  (p_rth p0 rho theta = Some p <-> air p0 theta rho p).
Proof.
  intros p0 theta rho p P0 T D P. pose proof air_gas_pos as A.
  assert (Q : 0 < air_gas * (rho * theta) * (1 / p0)).
  { apply Rmult_lt_0_compat; [apply Rmult_lt_0_compat; [exact A|nra]|apply Rdiv_lt_0_compat; lra]. }
  assert (LQ : ln (air_gas * (rho * theta) * (1 / p0)) = ln air_gas + ln rho + ln theta - ln p0).
  { assert (I0 : 0 < / p0) by (apply Rinv_0_lt_compat; exact P0). assert (RT : 0 < rho * theta) by nra. assert (ART : 0 < air_gas * (rho * theta)) by nra.
    unfold Rdiv. rewrite Rmult_1_l. rewrite (ln_mult _ _ ART I0), (ln_mult _ _ A RT), (ln_mult _ _ D T), (ln_Rinv _ P0). lra. }
  unfold p_rth. rewrite cpow_pos by exact Q. unfold Rpower. rewrite LQ.
  assert (LP : forall q, 0 < q -> (p0 * exp (gamma * (ln air_gas + ln rho + ln theta - ln p0)) = q <-> ln q = ln p0 + gamma * (ln air_gas + ln rho + ln theta - ln p0))).
  { intros q Hq. split; intros H.
    - rewrite <- H. rewrite ln_mult; [|assumption|apply exp_pos]. rewrite ln_exp. reflexivity.
    - apply ln_inv; [apply Rmult_lt_0_compat; [assumption|apply exp_pos]|assumption|]. rewrite ln_mult; [|assumption|apply exp_pos]. rewrite ln_exp. lra. }
  change gas_constant with air_gas in *.
  assert (LT : forall t, 0 < t -> p = rho * air_gas * t -> (theta = t * Rpower (p0 / p) (1 - 1 / (14 / 10)) <-> ln theta = ln t + (1 - 1 / (14 / 10)) * (ln p0 - ln p))).
  { intros t Ht _. unfold Rpower, Rdiv at 1 3. 
    assert (L : ln (p0 / p) = ln p0 - ln p) by (unfold Rdiv; rewrite ln_mult, ln_Rinv; [lra|assumption|assumption|apply Rinv_0_lt_compat; assumption]).
    split; intros H.
    - rewrite H. rewrite ln_mult; [|assumption|apply exp_pos]. rewrite ln_exp. unfold Rdiv in L |- *. rewrite L. reflexivity.
    - apply ln_inv; [assumption|apply Rmult_lt_0_compat; [assumption|apply exp_pos]|]. rewrite ln_mult; [|assumption|apply exp_pos]. rewrite ln_exp.
      unfold Rdiv in L, H |- *. rewrite L. exact H. }
  split.
  - intros H. injection H as H. apply LP in H; [|exact P].
    exists (p / (rho * air_gas)). assert (TP : 0 < p / (rho * air_gas)) by (apply Rdiv_lt_0_compat; [assumption|nra]).
    assert (G : p = rho * air_gas * (p / (rho * air_gas))) by (field; lra). split; [exact G|].
    apply LT; [exact TP|exact G|]. unfold Rdiv at 1. rewrite ln_mult, ln_Rinv, ln_mult; try assumption; [|nra|apply Rinv_0_lt_compat; nra].
    rewrite H. unfold gamma. field_simplify. lra.
  - intros [t [G H]]. unfold ideal_gas, potential_temperature in *.
    change gas_constant with air_gas in G. assert (TP : 0 < t).
    { destruct (Rle_or_lt t 0) as [N|N]; [|exact N]. exfalso. assert (0 < rho * air_gas) by nra. nra. }
    apply LT in H; [|exact TP|exact G]. f_equal. apply LP; [exact P|].
    assert (LG : ln p = ln rho + ln air_gas + ln t) by (rewrite G, !ln_mult; try assumption; [reflexivity|nra]).
    unfold gamma. lra.
Qed.
(** standard air at the reference pressure: the density p0/(R theta) has the pressure p0 *)
Example air_at_p0 : p_rth (10 ^ 5) (10 ^ 5 / (air_gas * 300)) 300 = Some (10 ^ 5).
Proof.
  pose proof air_gas_pos. unfold p_rth. replace (air_gas * (10 ^ 5 / (air_gas * 300) * 300) * (1 / 10 ^ 5)) with 1 by (field; lra).
  rewrite cpow_pos by lra. f_equal. unfold Rpower. rewrite ln_1, Rmult_0_r, exp_0. ring.
Qed.

Section Column.
Variables (p0 theta : R).
Hypotheses (P0 : 0 < p0) (TH : 0 < theta).
Let c := p0 * Rpower (air_gas * theta * (1 / p0)) gamma.
Let Pf (d : R) := if Req_EM_T d 0 then 0 else c * Rpower d gamma.
Let Df (d : R) := if Req_EM_T d 0 then 0 else gamma * c * Rpower d (gamma - 1).

Lemma base_pos : 0 < air_gas * theta * (1 / p0).
Proof. pose proof air_gas_pos. apply Rmult_lt_0_compat; [nra|apply Rdiv_lt_0_compat; lra]. Qed.
Lemma c_pos : 0 < c.
Proof. unfold c. apply Rmult_lt_0_compat; [exact P0|apply exp_pos]. Qed.
Lemma p_pos : forall d, 0 < d -> p_rth p0 d theta = Some (c * Rpower d gamma).
Proof.
  intros d D. unfold p_rth. replace (air_gas * (d * theta) * (1 / p0)) with (air_gas * theta * (1 / p0) * d) by ring.
  rewrite cpow_pos by (apply Rmult_lt_0_compat; [exact base_pos|exact D]). f_equal. unfold c.
  rewrite <- (Rpower_mult_distr _ _ gamma base_pos D). ring.
Qed.
Lemma p_eq : forall d, 0 <= d -> p_rth p0 d theta = Some (Pf d).
Proof.
  intros d [D|<-].
  - unfold Pf. destruct (Req_EM_T d 0); [lra|]. apply p_pos. exact D.
  - unfold p_rth, Pf. replace (air_gas * (0 * theta) * (1 / p0)) with 0 by ring. rewrite cpow_0. destruct (Req_EM_T 0 0); [f_equal; ring|lra].
Qed.
Lemma d_eq : forall d, 0 <= d -> dp_rth p0 d theta = Some (Df d).
Proof.
  intros d D. unfold dp_rth. rewrite cpow_pos by exact base_pos. destruct D as [D|<-].
  - rewrite cpow_pos by exact D. unfold Df. destruct (Req_EM_T d 0); [lra|]. f_equal. unfold c. ring.
  - rewrite cpow_0. unfold Df. destruct (Req_EM_T 0 0); [f_equal; ring|lra].
Qed.
Lemma p_none : forall d, d < 0 -> p_rth p0 d theta = None.
Proof.
  intros d D. unfold p_rth. rewrite cpow_neg; [reflexivity|].
  replace (air_gas * (d * theta) * (1 / p0)) with (air_gas * theta * (1 / p0) * d) by ring. pose proof base_pos. nra.
Qed.
Lemma bern : forall t, 14 / 10 * exp t <= exp (14 / 10 * t) + 4 / 10.
Proof.
  intros t. pose proof (exp_ineq1_le (4 / 10 * t)) as A. pose proof (exp_ineq1_le (- t)) as B. pose proof (exp_pos t) as E.
  replace (14 / 10 * t) with (t + 4 / 10 * t) by field. rewrite exp_plus.
  rewrite exp_Ropp in B. apply (Rmult_le_compat_l (exp t)) in B; [|lra]. rewrite Rinv_r in B by lra.
  apply (Rmult_le_compat_l (exp t)) in A; [|lra]. nra.
Qed.
Lemma tangent : forall x y, 0 <= x -> 0 <= y -> Pf y + Df y * (x - y) <= Pf x.
Proof.
  intros x y X Y. pose proof c_pos as C. unfold Pf, Df.
  destruct (Req_EM_T y 0) as [Ey|Ny]; destruct (Req_EM_T x 0) as [Ex|Nx].
  - lra.
  - pose proof (exp_pos (gamma * ln x)). unfold Rpower. nra.
  - subst x. assert (HY : 0 < y) by lra. replace (Rpower y gamma) with (Rpower y (gamma - 1) * y).
    + pose proof (exp_pos ((gamma - 1) * ln y)) as E. change (0 < Rpower y (gamma - 1)) in E. unfold gamma in *. set (r := Rpower y (14 / 10 - 1)) in *. clearbody r. assert (0 < c * r * y) by (apply Rmult_lt_0_compat; [nra|exact HY]). nra.
    + rewrite <- (Rpower_1 y) at 2 by exact HY. rewrite <- Rpower_plus. f_equal. ring.
  - assert (HX : 0 < x) by lra. assert (HY : 0 < y) by lra.
    pose proof (bern (ln x - ln y)) as B.
    assert (E1 : Rpower x gamma = Rpower y gamma * exp (14 / 10 * (ln x - ln y))).
    { unfold Rpower, gamma. rewrite <- exp_plus. f_equal. ring. }
    assert (E2 : Rpower y (gamma - 1) * x = Rpower y gamma * exp (ln x - ln y)).
    { rewrite <- (exp_ln x HX) at 1. unfold Rpower. rewrite <- !exp_plus. f_equal. ring. }
    assert (E3 : Rpower y (gamma - 1) * y = Rpower y gamma).
    { rewrite <- (Rpower_1 y) at 2 by exact HY. rewrite <- Rpower_plus. f_equal. ring. }
    assert (R : 0 < Rpower y gamma) by apply exp_pos.
    replace (c * Rpower y gamma + gamma * c * Rpower y (gamma - 1) * (x - y))
      with (c * (Rpower y gamma + gamma * (Rpower y (gamma - 1) * x - Rpower y (gamma - 1) * y))) by ring.
    rewrite E2, E3, E1. apply Rmult_le_compat_l; [lra|]. set (r := Rpower y gamma) in *. unfold gamma. nra.
Qed.
Lemma slope_mono : forall x y, 0 <= x <= y -> 0 <= Df x <= Df y.
Proof.
  intros x y L. pose proof c_pos as C. unfold Df.
  assert (QQ : forall z, 0 < gamma * c * Rpower z (gamma - 1)) by (intros; apply Rmult_lt_0_compat; [unfold gamma; lra|apply exp_pos]).
  destruct (Req_EM_T x 0) as [Ex|Nx]; destruct (Req_EM_T y 0) as [Ey|Ny]; try lra.
  - split; [lra|]. apply Rlt_le, QQ.
  - split; [apply Rlt_le, QQ|].
    apply Rmult_le_compat_l; [unfold gamma; nra|]. unfold Rpower. destruct L as [L0 [L| ->]]; [|lra].
    apply Rlt_le, exp_increasing. assert (ln x < ln y) by (apply ln_increasing; lra). unfold gamma. lra.
Qed.
Lemma slope_p : forall d, 0 < d -> Df d * d = gamma * Pf d.
Proof.
  intros d D. unfold Df, Pf. destruct (Req_EM_T d 0); [lra|].
  assert (E3 : Rpower d (gamma - 1) * d = Rpower d gamma).
  { rewrite <- (Rpower_1 d) at 2 by exact D. rewrite <- Rpower_plus. f_equal. ring. }
  rewrite Rmult_assoc, E3. ring.
Qed.
Lemma pf_pos : forall d, 0 < d -> 0 < Pf d.
Proof. intros d D. unfold Pf. destruct (Req_EM_T d 0); [lra|]. apply Rmult_lt_0_compat; [exact c_pos|apply exp_pos]. Qed.
Lemma df_pos : forall d, 0 < d -> 0 < Df d.
Proof. intros d D. unfold Df. destruct (Req_EM_T d 0); [lra|]. apply Rmult_lt_0_compat; [pose proof c_pos; unfold gamma; lra|apply exp_pos]. Qed.

(** The slope of the search is the derivative of the pressure with the density, at a given potential temperature. *)
Theorem c93_slope : forall d, 0 < d -> exists p s, dp_rth p0 d theta = Some s /\
  (forall r, 0 < r -> p_rth p0 r theta = Some (p r)) /\ is_derive p d s.
Proof.
  intros d D. exists (fun r => c * exp (gamma * ln r)), (Df d). split; [apply d_eq; lra|].
  split; [intros r R; apply p_pos; exact R|]. unfold Df. destruct (Req_EM_T d 0); [lra|].
  assert (E3 : Rpower d (gamma - 1) = Rpower d gamma * / d).
  { rewrite <- (Rpower_1 d) at 3 by exact D. rewrite <- Rpower_Ropp, <- Rpower_plus. f_equal. }
  rewrite E3. unfold Rpower. auto_derive; [exact D|]. field. lra.
Qed.

Section Step.
Variables (dx g : R).
Hypotheses (DX : 0 < dx) (G : g <= 0).

Lemma change_eq : forall below pb d, 0 <= d -> Df d - dx * g <> 0 ->
  next_change p0 theta dx g below pb d = Some ((pb + dx * (/ 2 * (below + d)) * g - Pf d) / (Df d - dx * g)).
Proof.
  intros below pb d D N. unfold next_change. rewrite p_eq, d_eq by exact D.
  destruct (Req_EM_T (Df d - dx * g) 0); [contradiction|reflexivity].
Qed.
Lemma change_some : forall below pb d dd, 0 <= d -> next_change p0 theta dx g below pb d = Some dd ->
  0 < Df d - dx * g /\ dd * (Df d - dx * g) = pb + dx * (/ 2 * (below + d)) * g - Pf d.
Proof.
  intros below pb d dd D H. unfold next_change in H. rewrite p_eq, d_eq in H by exact D.
  destruct (Req_EM_T (Df d - dx * g) 0) as [E|E]; [discriminate H|]. injection H as <-.
  pose proof (slope_mono d d ltac:(lra)). split; [nra|]. field. exact E.
Qed.

(** Nothing is left to change exactly if the balance holds. *)
Theorem c93_settled_balance : forall below pb d p, 0 < d -> air p0 theta d p -> 0 < p ->
  (next_change p0 theta dx g below pb d = Some 0 <-> balanced dx g below d pb p).
Proof.
  intros below pb d p D A P. apply c93_air in A; try assumption. rewrite p_eq in A by lra. injection A as A.
  pose proof (df_pos d D) as S. rewrite change_eq by (try lra; nra). unfold balanced. rewrite <- A.
  assert (N : Df d - dx * g <> 0) by nra. split; intros H.
  - injection H as H. assert (Q : (pb + dx * (/ 2 * (below + d)) * g - Pf d) / (Df d - dx * g) * (Df d - dx * g) = pb + dx * (/ 2 * (below + d)) * g - Pf d) by (field; exact N).
    rewrite H in Q. lra.
  - f_equal. rewrite H. replace (pb + dx * (/ 2 * (below + d)) * g - (pb + dx * ((below + d) / 2) * g)) with 0 by field. unfold Rdiv. ring.
Qed.
Theorem c93_settled_floor : forall d p, 0 < d -> air p0 theta d p -> 0 < p ->
  (low_change p0 theta (/ 2 * dx) g d = Some 0 <-> balanced (dx / 2) g d d p0 p).
Proof.
  intros d p D A P. apply c93_air in A; try assumption. rewrite p_eq in A by lra. injection A as A.
  pose proof (df_pos d D) as S. unfold low_change. rewrite p_eq, d_eq by lra.
  assert (N : Df d - / 2 * dx * g <> 0) by nra. destruct (Req_EM_T (Df d - / 2 * dx * g) 0); [contradiction|]. unfold balanced. rewrite <- A.
  split; intros H.
  - injection H as H. assert (Q : (p0 + / 2 * dx * d * g - Pf d) / (Df d - / 2 * dx * g) * (Df d - / 2 * dx * g) = p0 + / 2 * dx * d * g - Pf d) by (unfold Rdiv; rewrite Rmult_assoc, Rinv_l by exact N; ring).
    rewrite H in Q. lra.
  - f_equal. rewrite H. replace (p0 + / 2 * dx * d * g - (p0 + dx / 2 * ((d + d) / 2) * g)) with 0 by field. unfold Rdiv. ring.
Qed.

(** There is one balanced density over a given cell, and one over the floor, whatever the guess. *)
Theorem c93_one_density : forall below pb d1 d2 p1 p2, 0 < d1 -> 0 < d2 -> 0 < p1 -> 0 < p2 ->
  air p0 theta d1 p1 -> air p0 theta d2 p2 ->
  balanced dx g below d1 pb p1 -> balanced dx g below d2 pb p2 -> d1 = d2.
Proof.
  intros below pb d1 d2 p1 p2 D1 D2 Q1 Q2 A1 A2 B1 B2. apply c93_air in A1, A2; try assumption. rewrite p_eq in A1, A2 by lra.
  injection A1 as A1. injection A2 as A2. unfold balanced in *.
  pose proof (tangent d1 d2 ltac:(lra) ltac:(lra)) as T1. pose proof (tangent d2 d1 ltac:(lra) ltac:(lra)) as T2.
  pose proof (df_pos d1 D1). pose proof (df_pos d2 D2). rewrite A1, A2 in *. subst p1 p2.
  destruct (Rtotal_order d1 d2) as [L|[L|L]]; [exfalso|exact L|exfalso].
  - assert (0 < Df d1 * (d2 - d1)) by nra. assert (dx * g <= 0) by nra. assert (dx * ((below + d2) / 2) * g <= dx * ((below + d1) / 2) * g) by nra. lra.
  - assert (0 < Df d2 * (d1 - d2)) by nra. assert (dx * g <= 0) by nra. assert (dx * ((below + d1) / 2) * g <= dx * ((below + d2) / 2) * g) by nra. lra.
Qed.
Theorem c93_one_floor_density : forall d1 d2 p1 p2, 0 < d1 -> 0 < d2 -> 0 < p1 -> 0 < p2 ->
  air p0 theta d1 p1 -> air p0 theta d2 p2 ->
  balanced (dx / 2) g d1 d1 p0 p1 -> balanced (dx / 2) g d2 d2 p0 p2 -> d1 = d2.
Proof.
  intros d1 d2 p1 p2 D1 D2 Q1 Q2 A1 A2 B1 B2. apply c93_air in A1, A2; try assumption. rewrite p_eq in A1, A2 by lra.
  injection A1 as A1. injection A2 as A2. unfold balanced in *.
  pose proof (tangent d1 d2 ltac:(lra) ltac:(lra)) as T1. pose proof (tangent d2 d1 ltac:(lra) ltac:(lra)) as T2.
  pose proof (df_pos d1 D1). pose proof (df_pos d2 D2). rewrite A1, A2 in *. subst p1 p2.
  destruct (Rtotal_order d1 d2) as [L|[L|L]]; [exfalso|exact L|exfalso].
  - assert (0 < Df d1 * (d2 - d1)) by nra. assert (dx * g <= 0) by nra. assert (dx / 2 * ((d2 + d2) / 2) * g <= dx / 2 * ((d1 + d1) / 2) * g) by nra. lra.
  - assert (0 < Df d2 * (d1 - d2)) by nra. assert (dx * g <= 0) by nra. assert (dx / 2 * ((d1 + d1) / 2) * g <= dx / 2 * ((d2 + d2) / 2) * g) by nra. lra.
Qed.

Let F (below pb d : R) := Pf d - (pb + dx * (/ 2 * (below + d)) * g).

Lemma settle_inv : forall n below pb tol d r, 0 <= d <= below -> 0 <= F below pb d ->
  settle (next_change p0 theta dx g below pb) tol n d = Some r ->
  exists e dd, 0 <= e <= below /\ next_change p0 theta dx g below pb e = Some dd /\ dd <= 0 /\ Rabs dd < tol /\ r = e + dd.
Proof.
  induction n as [|n IH]; intros below pb tol d r D FD H; [discriminate H|]. cbn [settle] in H.
  destruct (next_change p0 theta dx g below pb d) as [dd|] eqn:E; [|discriminate H].
  destruct (change_some _ _ _ _ (proj1 D) E) as [S Q].
  assert (N : dd <= 0) by (unfold F in FD; nra).
  destruct (Rltb (Rabs dd) tol) eqn:T.
  - injection H as <-. apply Rltb_spec in T. exists d, dd. repeat split; try assumption; lra.
  - destruct (Rlt_or_le (d + dd) 0) as [B|B].
    + destruct n as [|n']; [discriminate H|]. cbn [settle] in H. unfold next_change at 1 in H. rewrite p_none in H by exact B. discriminate H.
    + apply (IH below pb tol (d + dd) r); [lra| |exact H].
      pose proof (tangent (d + dd) d B (proj1 D)) as TG. unfold F in *. replace (d + dd - d) with dd in TG by ring.
      assert (dx * g <= 0) by nra. nra.
Qed.

Lemma residual : forall below pb e dd, 0 <= e <= below -> 0 <= e + dd -> dd <= 0 -> 0 < below -> pb = Pf below ->
  next_change p0 theta dx g below pb e = Some dd ->
  Rabs (Pf (e + dd) - (pb + dx * ((below + (e + dd)) / 2) * g)) <= Rabs dd * (Df below + dx * (- g) / 2).
Proof.
  intros below pb e dd E R N B PB H. destruct (change_some _ _ _ _ (proj1 E) H) as [S Q].
  pose proof (tangent (e + dd) e R (proj1 E)) as T1. pose proof (tangent e (e + dd) (proj1 E) R) as T2.
  replace (e + dd - e) with dd in T1 by ring. replace (e - (e + dd)) with (- dd) in T2 by ring.
  pose proof (slope_mono (e + dd) e ltac:(lra)) as M1. pose proof (slope_mono e below ltac:(lra)) as M2.
  rewrite (Rabs_left1 dd) by exact N.
  replace (Pf (e + dd) - (pb + dx * ((below + (e + dd)) / 2) * g))
    with ((Pf (e + dd) - Pf e - Df e * dd) + dx * g * dd / 2) by (field_simplify; lra).
  assert (DG : dx * g <= 0) by nra. set (a := dx * g) in *.
  replace (dx * - g) with (- a) by (unfold a; ring). clearbody a.
  apply Rabs_le. split; nra.
Qed.

Lemma above_spec : forall n d l, 0 < dx -> cells_above p0 theta dx g n d = Some l -> 
  length l = n /\ falls (d :: l) /\
  (forall k lo hi, nth_error (d :: l) k = Some lo -> nth_error l k = Some hi -> 0 < lo /\
     (0 <= hi -> Rabs (Pf hi - (Pf lo + dx * ((lo + hi) / 2) * g)) <= loose_tol * (14 / 10 * Pf lo + dx * (- g) * lo / 2))).
Proof.
  induction n as [|n IH]; intros d l X H.
  - injection H as <-. split; [reflexivity|]. split; [exact I|]. intros [|k] lo hi A B; discriminate B.
  - cbn [cells_above] in H. destruct (p_rth p0 d theta) as [p|] eqn:EP; [|discriminate H].
    destruct (settle (next_change p0 theta dx g d p) (loose_tol * d) max_changes d) as [d'|] eqn:ES; [|discriminate H].
    destruct (cells_above p0 theta dx g n d') as [l'|] eqn:EA; [|discriminate H]. injection H as <-.
    assert (D0 : 0 <= d) by (destruct (Rlt_or_le d 0) as [Q|Q]; [rewrite p_none in EP by exact Q; discriminate EP|exact Q]).
    assert (EP' : p = Pf d) by (rewrite p_eq in EP by exact D0; injection EP as EP; symmetry; exact EP).
    assert (FD : 0 <= F d p d) by (unfold F; rewrite EP'; assert (dx * g <= 0) by nra; nra).
    destruct (settle_inv _ _ _ _ _ _ (conj D0 (Rle_refl d)) FD ES) as [e [dd [E [CH [N [T R]]]]]].
    assert (D1 : 0 < d) by (pose proof (Rabs_pos dd); pose proof tol_pos; nra).
    destruct (IH d' l' X EA) as [A [B C]].
    split; [simpl; rewrite A; reflexivity|]. split; [split; [lra|exact B]|].
    intros [|k] lo hi K1 K2.
    + injection K1 as <-. injection K2 as <-. split; [exact D1|]. intros HI. subst d'.
      pose proof (residual d p e dd E HI N D1 EP' CH) as RS. rewrite EP' in RS.
      eapply Rle_trans; [exact RS|].
      assert (SP : Df d * d = 14 / 10 * Pf d) by (apply slope_p; exact D1).
      pose proof (df_pos d D1). assert (0 <= dx * - g) by nra.
      replace (loose_tol * (14 / 10 * Pf d + dx * - g * d / 2)) with (loose_tol * d * (Df d + dx * - g / 2)) by (rewrite <- SP; field).
      apply Rmult_le_compat_r; [lra|lra].
    + apply (C k); assumption.
Qed.
(** The lowest density is the last but one value of the search and a change below the tolerance; its pressure is at or above
    that of the balance over half a cell, by no more than the tolerance times the slopes of the pressure at the two. *)
Theorem c93_column_floor : forall guess n d l,
  column p0 theta dx g guess n = Some (d :: l) ->
  exists e, 0 <= e /\ Rabs (d - e) < / 2 ^ 52 * 10 ^ 8 /\
    (0 < d -> 0 < e -> forall p pe, 0 < p -> 0 < pe -> air p0 theta d p -> air p0 theta e pe ->
      0 <= p - (p0 + dx / 2 * d * g) <= / 2 ^ 52 * 10 ^ 8 * (14 / 10 * (p / d + pe / e))).
Proof.
  intros guess n d l H. unfold column in H.
  destruct (settle (low_change p0 theta (/ 2 * dx) g) loose_tol max_changes guess) as [d'|] eqn:S; [|discriminate H].
  destruct (cells_above p0 theta dx g n d') as [l'|]; [|discriminate H]. injection H as <- _.
  assert (SE : exists e dd, low_change p0 theta (/ 2 * dx) g e = Some dd /\ Rabs dd < loose_tol /\ d' = e + dd).
  { clear - S. revert S. generalize max_changes. intros m. revert guess. induction m as [|m IH]; intros q S; [discriminate S|]. cbn [settle] in S.
    destruct (low_change p0 theta (/ 2 * dx) g q) as [dd|] eqn:E; [|discriminate S]. destruct (Rltb (Rabs dd) loose_tol) eqn:T.
    - injection S as <-. apply Rltb_spec in T. exists q, dd. repeat split; assumption.
    - apply (IH _ S). }
  destruct SE as [e [dd [CH [T ->]]]]. exists e.
  assert (E0 : 0 <= e).
  { destruct (Rlt_or_le e 0) as [Q|Q]; [|exact Q]. unfold low_change in CH. rewrite p_none in CH by exact Q. discriminate CH. }
  split; [exact E0|]. replace (e + dd - e) with dd by ring. split; [exact T|].
  intros D1 E1 p pe PP PE AP AE. apply c93_air in AP, AE; try assumption. rewrite p_eq in AP, AE by lra.
  injection AP as AP. injection AE as AE.
  unfold low_change in CH. rewrite p_eq, d_eq in CH by lra.
  pose proof (tangent (e + dd) e ltac:(lra) ltac:(lra)) as T1. pose proof (tangent e (e + dd) ltac:(lra) ltac:(lra)) as T2.
  pose proof (slope_p (e + dd) D1) as S1. pose proof (slope_p e E1) as S2.
  pose proof (df_pos (e + dd) D1) as K1. pose proof (df_pos e E1) as K2.
  rewrite AP in *. rewrite AE in *.
  set (D1' := Df (e + dd)) in *. set (D2' := Df e) in *.
  clearbody D1' D2'.
  destruct (Req_EM_T (D2' - / 2 * dx * g) 0) as [Z|Z]; [discriminate CH|]. injection CH as CH.
  assert (Q : dd * (D2' - / 2 * dx * g) = p0 + / 2 * dx * e * g - pe) by (rewrite <- CH; unfold Rdiv; rewrite Rmult_assoc, Rinv_l by exact Z; ring).
  replace (e + dd - e) with dd in T1 by ring. replace (e - (e + dd)) with (- dd) in T2 by ring.
  assert (RES : p - (p0 + dx / 2 * (e + dd) * g) = p - pe - D2' * dd) by lra.
  rewrite RES. split; [lra|].
  replace (14 / 10 * (p / (e + dd) + pe / e)) with (D1' + D2').
  - assert (A1 : p - pe - D2' * dd <= (D1' - D2') * dd) by lra.
    assert (A2 : (D1' - D2') * dd <= Rabs dd * (D1' + D2')).
    { unfold Rabs. destruct (Rcase_abs dd); nra. }
    unfold loose_tol in T. nra.
  - unfold gamma in *. replace D1' with (D1' * (e + dd) / (e + dd)) by (field; lra). replace D2' with (D2' * e / e) at 1 by (field; lra).
    rewrite S1, S2. field. lra.
Qed.

End Step.
End Column.

(** Whenever a column is found, its density does not rise with the height, every density that has another above it is
    positive, and any two neighbours are in hydrostatic balance to the tolerance. *)
Theorem c93_column : forall p0 theta dx g guess n l, 0 < p0 -> 0 < theta -> 0 < dx -> g <= 0 ->
  column p0 theta dx g guess n = Some l ->
  length l = S n /\ falls l /\
  (forall k lo hi, nth_error l k = Some lo -> nth_error l (S k) = Some hi -> 0 < lo /\
     (0 < hi -> forall plo phi, 0 < plo -> 0 < phi -> air p0 theta lo plo -> air p0 theta hi phi ->
       Rabs (phi - (plo + dx * ((lo + hi) / 2) * g)) <= / 2 ^ 52 * 10 ^ 8 * (14 / 10 * plo + dx * (- g) * lo / 2))).
Proof.
  intros p0 theta dx g guess n l P0 TH DX G H. unfold column in H.
  destruct (settle (low_change p0 theta (/ 2 * dx) g) loose_tol max_changes guess) as [d|]; [|discriminate H].
  destruct (cells_above p0 theta dx g n d) as [l'|] eqn:EA; [|discriminate H]. injection H as <-.
  destruct (above_spec p0 theta P0 TH dx g DX G n d l' DX EA) as [A [B C]].
  split; [simpl; rewrite A; reflexivity|]. split; [exact B|].
  intros k lo hi K1 K2. destruct (C k lo hi K1 K2) as [C1 C2]. split; [exact C1|].
  intros HI plo phi PL PH AL AH. specialize (C2 (Rlt_le _ _ HI)).
  apply c93_air in AL, AH; try assumption. rewrite (p_eq p0 theta P0 TH) in AL, AH by lra. injection AL as AL. injection AH as AH.
  rewrite <- AL, <- AH. exact C2.
Qed.

(** What the search returns is a value and its last change, which is below the tolerance; otherwise the run stops. *)
Theorem c93_search : forall change tol n d r, settle change tol n d = Some r ->
  exists e dd, change e = Some dd /\ Rabs dd < tol /\ r = e + dd.
Proof.
  intros change tol n. induction n as [|n IH]; intros d r H; [discriminate H|]. cbn [settle] in H.
  destruct (change d) as [dd|] eqn:E; [|discriminate H]. destruct (Rltb (Rabs dd) tol) eqn:T.
  - injection H as <-. apply Rltb_spec in T. exists d, dd. repeat split; assumption.
  - apply (IH _ _ H).
Qed.
Theorem c93_search_stops : forall change tol n d,
  (forall e dd, change e = Some dd -> tol <= Rabs dd) -> settle change tol n d = None.
Proof.
  intros change tol n. induction n as [|n IH]; intros d H; [reflexivity|]. cbn [settle].
  destruct (change d) as [dd|] eqn:E; [|reflexivity]. destruct (Rltb (Rabs dd) tol) eqn:T; [|apply IH; exact H].
  apply Rltb_spec in T. specialize (H d dd E). lra.
Qed.
(** A guess that is the answer is kept at once. *)
Theorem c93_search_keeps : forall change tol n d, 0 < tol -> change d = Some 0 -> settle change tol (S n) d = Some d.
Proof.
  intros change tol n d T E. cbn [settle]. rewrite E, Rabs_R0. destruct (Rltb 0 tol) eqn:Q; [f_equal; ring|]. apply Rltb_false in Q. lra.
Qed.

(** Non-vacuity: air under gravity. In a cell in which the pressure falls to 1/128 of that of the floor the density is
    1/32 of that at the floor. *)
Definition ex_d : R := 10 ^ 5 / (air_gas * 300) / 32.
Definition ex_dx : R := 2 * (10 ^ 5 * (127 / 128)) / (981 / 100 * ex_d).
Lemma ex_d_pos : 0 < ex_d.
Proof. unfold ex_d. pose proof air_gas_pos. apply Rdiv_lt_0_compat; [apply Rdiv_lt_0_compat; nra|lra]. Qed.
Example column_case : column (10 ^ 5) 300 ex_dx (- (981 / 100)) ex_d 0 = Some [ex_d] /\ 0 < ex_dx.
Proof.
  pose proof ex_d_pos as D. pose proof air_gas_pos as A.
  assert (X : 0 < ex_dx) by (unfold ex_dx; apply Rdiv_lt_0_compat; nra). split; [|exact X].
  assert (P : p_rth (10 ^ 5) ex_d 300 = Some (10 ^ 5 / 128)).
  { unfold p_rth. replace (air_gas * (ex_d * 300) * (1 / 10 ^ 5)) with (/ 32) by (unfold ex_d; field; lra).
    rewrite cpow_pos by lra. unfold Rpower. replace (gamma * ln (/ 32)) with (ln (/ 128)).
    - rewrite exp_ln by lra. f_equal; field.
    - replace (/ 128) with ((/ 2) ^ 7) by field. replace (/ 32) with ((/ 2) ^ 5) by field. rewrite !ln_pow by lra. simpl INR. unfold gamma. field. }
  assert (E : low_change (10 ^ 5) 300 (/ 2 * ex_dx) (- (981 / 100)) ex_d = Some 0).
  { apply c93_settled_floor with (p := 10 ^ 5 / 128); try lra. apply c93_air; try lra. exact P.
    unfold balanced, ex_dx. field. lra. }
  unfold column. change max_changes with (S 9). rewrite (c93_search_keeps _ _ _ _ tol_pos E). reflexivity.
Qed.

(** ** Where the pressure is put *)
(** The pressure at the uppermost nodes is zero, whatever the column, although the pressure of the cells below is not. *)
Theorem c93_top_pressure_refuted : forall p0 theta dx g guess n l, column p0 theta dx g guess n = Some l ->
  copied (node_pressures p0 theta l) (S n) = Some (Some 0).
Proof.
  intros p0 theta dx g guess n l H. unfold copied, node_pressures.
  assert (L : length l = S n).
  { unfold column in H. destruct (settle _ _ _ _) as [d|]; [|discriminate H].
    destruct (cells_above p0 theta dx g n d) as [l'|] eqn:E; [|discriminate H]. injection H as <-. simpl. f_equal.
    clear guess. revert d l' E. induction n as [|n IH]; intros d l' E; [injection E as <-; reflexivity|]. cbn [cells_above] in E.
    destruct (p_rth p0 d theta); [|discriminate E]. destruct (settle _ _ _ _) as [d'|]; [|discriminate E].
    destruct (cells_above p0 theta dx g n d') as [l2|] eqn:E2; [|discriminate E]. injection E as <-. simpl. f_equal. apply (IH _ _ E2). }
  rewrite nth_error_app2; rewrite map_length, L; [|lia]. rewrite Nat.sub_diag. reflexivity.
Qed.
(** At the nodes of the floor, where the pressure is the one asked for, stands that of half a cell above. *)
Theorem c93_floor_pressure_refuted : forall p0 theta dx g d l p, 0 < p0 -> 0 < theta -> 0 < dx -> g < 0 -> 0 < d -> 0 < p ->
  air p0 theta d p -> balanced (dx / 2) g d d p0 p ->
  copied (node_pressures p0 theta (d :: l)) 0 = Some (Some p) /\ p < p0.
Proof.
  intros p0 theta dx g d l p P0 TH DX G D P A B. apply c93_air in A; try assumption. split; [simpl; rewrite A; reflexivity|].
  unfold balanced in B. assert (0 < dx / 2 * ((d + d) / 2)) by nra. nra.
Qed.
(** The nodes between hold the pressure of the cell above them. *)
Theorem c93_node_pressure : forall p0 theta l k d, nth_error l k = Some d ->
  copied (node_pressures p0 theta l) k = Some (p_rth p0 d theta).
Proof.
  intros p0 theta l k d H. unfold copied, node_pressures. rewrite nth_error_app1.
  - rewrite nth_error_map, H. reflexivity.
  - rewrite map_length. apply nth_error_Some. rewrite H. discriminate.
Qed.
(** The run stops unless all the levels the mesh may have exist: a level that appears later cannot be left for later. *)
Theorem c93_levels_refuted : forall max_level active, levels_ok max_level active = true <-> active = S max_level.
Proof. intros m a. unfold levels_ok. apply Nat.eqb_eq. Qed.
Example levels_case : levels_ok 1 1 = false /\ levels_ok 0 1 = true.
Proof. split; reflexivity. Qed.
(** Without an input the bottom pressure is 100000 Pa, not the 101325 Pa of the documentation. *)
Theorem c93_default_pressure_refuted : bottom_pressure None = 100000 /\ bottom_pressure None <> 101325 /\ forall p, bottom_pressure (Some p) = p.
Proof. unfold bottom_pressure. repeat split; try (intros); try lra. Qed.
(** Air in the reference state is not moved by gravity; denser air is pulled along it. *)
Theorem c93_rest : forall g rho0 rho, 0 < rho0 -> 0 < rho -> g < 0 ->
  (gravity_force g rho0 rho = 0 <-> rho = rho0) /\ (gravity_force g rho0 rho < 0 <-> rho0 < rho).
Proof.
  intros g r0 r A B G. unfold gravity_force.
  assert (Q : r0 / r * r = r0) by (field; lra). set (q := r0 / r) in *. clearbody q.
  split; split; intros H.
  - assert (q = 1) by nra. subst q. lra.
  - subst r. assert (q = 1) by nra. subst q. ring.
  - destruct (Rlt_or_le r0 r) as [L|L]; [exact L|exfalso]. assert (1 <= q) by nra. nra.
  - assert (q < 1) by nra. nra.
Qed.

Print Assumptions c93_air.
Print Assumptions c93_slope.
Print Assumptions c93_settled_balance.
Print Assumptions c93_settled_floor.
Print Assumptions c93_one_density.
Print Assumptions c93_one_floor_density.
Print Assumptions c93_column.
Print Assumptions c93_column_floor.
Print Assumptions c93_search.
Print Assumptions c93_search_stops.
Print Assumptions c93_search_keeps.
Print Assumptions c93_top_pressure_refuted.
Print Assumptions c93_floor_pressure_refuted.
Print Assumptions c93_node_pressure.
Print Assumptions c93_levels_refuted.
Print Assumptions c93_default_pressure_refuted.
Print Assumptions c93_rest.
