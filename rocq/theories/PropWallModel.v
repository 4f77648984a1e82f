(** C92: the wall models of the channel. *)
From Coq Require Import Reals ZArith Lia Lra List Bool.
From Verif Require Import BoxR BoxRFacts WallModel WallModelSpec.
Import ListNotations.
Local Open Scope R_scope.

(** ** The friction velocity *)
Lemma tol_eq : ll_tol = / 100000.
Proof. unfold ll_tol. f_equal. ring. Qed.

Lemma ln_le_sub : forall x, 0 < x -> ln x <= x - 1.
Proof.
  intros x P. pose proof (exp_ineq1_le (x - 1)) as H. replace (1 + (x - 1)) with x in H by ring.
  destruct H as [H|H]; [|rewrite H at 1; rewrite ln_exp; lra].
  apply Rlt_le. rewrite <- (ln_exp (x - 1)). apply ln_increasing; assumption.
Qed.

Lemma speed_above_tangent : forall z nu u v, 0 < z -> 0 < nu -> 0 < u -> 0 < v ->
  ll_speed z nu u + ll_slope z nu u * (v - u) <= ll_speed z nu v.
Proof.
  intros z nu u v Z N U V. unfold ll_speed, ll_slope, ll_kappa, ll_b.
  assert (E : ln (z * u / nu) = ln (z * v / nu) + ln (u / v)).
  { rewrite <- ln_mult; [f_equal; field; lra| |].
    - apply Rdiv_lt_0_compat; [nra|assumption].
    - apply Rdiv_lt_0_compat; assumption. }
  rewrite E. set (a := ln (z * v / nu)). set (d := ln (u / v)).
  assert (D : v * d <= u - v).
  { pose proof (ln_le_sub (u / v) ltac:(apply Rdiv_lt_0_compat; assumption)) as H. fold d in H.
    apply (Rmult_le_compat_l v) in H; [|lra]. replace (v * (u / v - 1)) with (u - v) in H by (field; lra). exact H. }
  apply Rminus_le. 
  replace (u * ((a + d) / (384 / 1000) + 427 / 100) + ((1 + (a + d)) / (384 / 1000) + 427 / 100) * (v - u) - v * (a / (384 / 1000) + 427 / 100))
    with (1000 / 384 * (v * d - (u - v))) by field.
  lra.
Qed.

Lemma slope_grows : forall z nu u v, 0 < z -> 0 < nu -> 0 < u -> u <= v -> ll_slope z nu u <= ll_slope z nu v.
Proof.
  intros z nu u v Z N U L. unfold ll_slope, ll_kappa, ll_b.
  assert (ln (z * u / nu) <= ln (z * v / nu)).
  { destruct L as [L| ->]; [|lra]. apply Rlt_le, ln_increasing.
    - apply Rdiv_lt_0_compat; [nra|assumption].
    - apply Rmult_lt_compat_r; [apply Rinv_0_lt_compat; assumption|nra]. }
  lra.
Qed.

(** A friction velocity on the growing branch is the only one for its speed. *)
Theorem c92_friction_unique : forall z nu speed u v, 0 < z -> 0 < nu -> 0 < u -> 0 < v ->
  growing z nu u -> law_of_the_wall z nu u speed ->
  growing z nu v -> law_of_the_wall z nu v speed -> u = v.
Proof.
  intros z nu speed u v Z N U V GU LU GV LV. unfold law_of_the_wall in *.
  pose proof (speed_above_tangent z nu u v Z N U V) as A. pose proof (speed_above_tangent z nu v u Z N V U) as B.
  unfold growing in *. change (0 < ll_slope z nu u) in GU. change (0 < ll_slope z nu v) in GV.
  change (speed = ll_speed z nu u) in LU. change (speed = ll_speed z nu v) in LV.
  rewrite <- LU, <- LV in *. nra.
Qed.

(** The step leaves a friction velocity alone exactly if it obeys the law of the wall. *)
Theorem c92_step_fixed : forall z nu speed u, 0 < z -> 0 < nu -> 0 < u -> growing z nu u ->
  (ll_step z nu speed u = Some u <-> law_of_the_wall z nu u speed).
Proof.
  intros z nu speed u Z N U G. change (0 < ll_slope z nu u) in G. unfold law_of_the_wall.
  change (ll_step z nu speed u = Some u <-> speed = ll_speed z nu u).
  assert (P : 0 < z * u / nu) by (apply Rdiv_lt_0_compat; [nra|assumption]).
  unfold ll_step. destruct (Rltb 0 (z * u / nu)) eqn:E; [|apply Rltb_false in E; lra].
  destruct (Req_EM_T (ll_slope z nu u) 0) as [X|X]; [lra|]. split.
  - intros H. injection H as H. assert (Q : (ll_speed z nu u - speed) / ll_slope z nu u = 0) by lra.
    assert (Q2 : (ll_speed z nu u - speed) / ll_slope z nu u * ll_slope z nu u = ll_speed z nu u - speed) by (field; exact X).
    rewrite Q in Q2. lra.
  - intros ->. f_equal. unfold Rminus at 2. rewrite Rplus_opp_r. unfold Rdiv. ring.
Qed.

Lemma step_some : forall z nu speed u, 0 < z -> 0 < nu -> 0 < u -> 0 < ll_slope z nu u ->
  ll_step z nu speed u = Some (u - (ll_speed z nu u - speed) / ll_slope z nu u).
Proof.
  intros z nu speed u Z N U G. unfold ll_step.
  destruct (Rltb 0 (z * u / nu)) eqn:E.
  - destruct (Req_EM_T (ll_slope z nu u) 0) as [X|X]; [lra|reflexivity].
  - apply Rltb_false in E. assert (0 < z * u / nu) by (apply Rdiv_lt_0_compat; [nra|assumption]). lra.
Qed.

Lemma step_bounds : forall z nu speed s u, 0 < z -> 0 < nu -> 0 < s -> 0 < u ->
  growing z nu s -> law_of_the_wall z nu s speed -> growing z nu u ->
  exists v, ll_step z nu speed u = Some v /\ s <= v /\ (s <= u -> v <= u).
Proof.
  intros z nu speed s u Z N S U GS LS GU. exists (u - (ll_speed z nu u - speed) / ll_slope z nu u).
  change (0 < ll_slope z nu u) in GU. change (speed = ll_speed z nu s) in LS.
  pose proof (speed_above_tangent z nu u s Z N U S) as T. rewrite <- LS in T.
  split; [apply step_some; assumption|].
  set (d := ll_slope z nu u) in *. set (f := ll_speed z nu u) in *.
  assert (Q : (f - speed) / d * d = f - speed) by (field; lra).
  set (q := (f - speed) / d) in *. clearbody q d. split; [nra|].
  intros L. assert (0 <= q); [|lra].
  pose proof (speed_above_tangent z nu s u Z N S U) as T2. change (0 < ll_slope z nu s) in GS. rewrite <- LS in T2. fold f in T2.
  assert (0 <= f - speed) by nra. nra.
Qed.

(** From any start on the growing branch every value of the search is a number; from the first step on the values lie
    at or above the friction velocity of the law of the wall and never rise again. *)
Theorem c92_search_descends : forall z nu speed s start, 0 < z -> 0 < nu -> 0 < s -> 0 < start ->
  growing z nu s -> law_of_the_wall z nu s speed -> growing z nu start ->
  forall k, exists v w, value (ll_step z nu speed) start (S k) = Some v /\
    value (ll_step z nu speed) start (S (S k)) = Some w /\ s <= w /\ w <= v.
Proof.
  intros z nu speed s start Z N S ST GS LS G0.
  assert (UP : forall v, s <= v -> growing z nu v).
  { intros v L. unfold growing in *. pose proof (slope_grows z nu s v Z N S L) as M. unfold ll_slope, ll_kappa, ll_b in M. lra. }
  assert (P : forall k, exists v, value (ll_step z nu speed) start (Datatypes.S k) = Some v /\ s <= v).
  { induction k as [|k [v [E L]]].
    - destruct (step_bounds z nu speed s start Z N S ST GS LS G0) as [v [E [L _]]]. exists v. split; [exact E|exact L].
    - destruct (step_bounds z nu speed s v Z N S ltac:(lra) GS LS (UP v L)) as [w [E2 [L2 _]]]. exists w. split; [|exact L2].
      change (match value (ll_step z nu speed) start (Datatypes.S k) with Some v => ll_step z nu speed v | None => None end = Some w). rewrite E. exact E2. }
  intros k. destruct (P k) as [v [E L]].
  destruct (step_bounds z nu speed s v Z N S ltac:(lra) GS LS (UP v L)) as [w [E2 [L2 L3]]].
  exists v, w. split; [exact E|]. split; [|split; [exact L2|exact (L3 L)]].
  change (match value (ll_step z nu speed) start (Datatypes.S k) with Some v => ll_step z nu speed v | None => None end = Some w). rewrite E. exact E2.
Qed.

(** If a step from such a value moves it by no more than a hundred-thousandth, the speed the law of the wall gives to the
    new value is at least the speed asked for, and too large by no more than the slope over a hundred thousand. *)
Theorem c92_search_settled : forall z nu speed s u v, 0 < z -> 0 < nu -> 0 < s -> s <= u ->
  growing z nu s -> law_of_the_wall z nu s speed ->
  ll_step z nu speed u = Some v -> Rabs (u - v) <= / 100000 ->
  exists got, law_of_the_wall z nu v got /\ speed <= got <= speed + / 100000 * ((1 + ln (z * u / nu)) / (384 / 1000) + 427 / 100).
Proof.
  intros z nu speed s u v Z N S L GS LS E A.
  pose proof (slope_grows z nu s u Z N S L) as M. change (0 < ll_slope z nu s) in GS.
  assert (GU : 0 < ll_slope z nu u) by lra.
  destruct (step_bounds z nu speed s u Z N S ltac:(lra) GS LS GU) as [w [E2 [L2 L3]]]. rewrite E in E2. injection E2 as <-.
  specialize (L3 L). rewrite step_some in E by (try assumption; lra). injection E as E.
  exists (ll_speed z nu v). split; [reflexivity|]. change (speed <= ll_speed z nu v <= speed + / 100000 * ll_slope z nu u).
  pose proof (speed_above_tangent z nu u v Z N ltac:(lra) ltac:(lra)) as T1.
  pose proof (speed_above_tangent z nu v u Z N ltac:(lra) ltac:(lra)) as T2.
  pose proof (slope_grows z nu s v Z N S L2) as M2.
  assert (Q : ll_slope z nu u * (u - v) = ll_speed z nu u - speed) by (rewrite <- E; field; lra).
  rewrite Rabs_right in A by lra. split; [nra|nra].
Qed.

Lemma run_spec : forall step start n k p u, (n + k = 26)%nat -> value step start k = u ->
  match k with O => p = -1 | S m => value step start m = Some p end ->
  (forall j, (j < k)%nat -> moved step start j) ->
  exists i, ll_run step n p u k = (value step start i, i) /\ (k <= i <= 26)%nat /\
    (forall j, (j < i)%nat -> moved step start j) /\ ((i < 26)%nat -> ~ moved step start i).
Proof.
  intros step start n. induction n as [|n IH]; intros k p u E V P M.
  - exists k. simpl. rewrite V. split; [reflexivity|]. split; [lia|]. split; [exact M|]. intros L. lia.
  - cbn [ll_run]. destruct u as [v|].
    + destruct (Rltb ll_tol (Rabs (p - v))) eqn:R.
      * apply Rltb_spec in R. rewrite tol_eq in R.
        assert (MK : moved step start k).
        { exists v. split; [exact V|]. destruct k as [|m]; [rewrite P in R; exact R|]. exists p. split; [exact P|exact R]. }
        destruct (IH (S k) v (step v)) as [i [A [B [C D]]]]; [lia| | | |].
        { simpl. rewrite V. reflexivity. } { exact V. }
        { intros j J. destruct (Nat.eq_dec j k) as [->|]; [exact MK|apply M; lia]. }
        exists i. split; [exact A|]. split; [lia|]. split; assumption.
      * apply Rltb_false in R. rewrite tol_eq in R. exists k. rewrite V. split; [reflexivity|]. split; [lia|]. split; [exact M|].
        intros _ [w [W Q]]. rewrite V in W. injection W as <-.
        destruct k as [|m]; [rewrite P in R; lra|]. destruct Q as [q [Q1 Q2]]. rewrite P in Q1. injection Q1 as <-. lra.
    + exists k. rewrite V. split; [reflexivity|]. split; [lia|]. split; [exact M|]. intros _ [w [W _]]. rewrite V in W. discriminate W.
Qed.

(** What a search gives is a value at which it settled, or the value after the last step. *)
Theorem c92_search : forall step start r, ll_utau step start = Ret r ->
  exists i, value step start i = r /\ (i <= 26)%nat /\ i <> 25%nat /\
    (forall j, (j < i)%nat -> moved step start j) /\ ((i < 26)%nat -> ~ moved step start i).
Proof.
  intros step start r H. unfold ll_utau in H.
  destruct (run_spec step start 26 0 (-1) (Some start)) as [i [A [B [C D]]]]; [reflexivity|reflexivity|reflexivity|intros j J; lia|].
  change (S ll_max) with 26%nat in H. rewrite A in H. destruct (Nat.eqb_spec i ll_max) as [X|X]; [discriminate H|].
  injection H as H. exists i. split; [exact H|]. split; [lia|]. split; [exact X|]. split; assumption.
Qed.

Lemma stop_unique : forall step start i, (i <= 26)%nat -> (forall j, (j < i)%nat -> moved step start j) ->
  ((i < 26)%nat -> ~ moved step start i) ->
  ll_utau step start = (if Nat.eqb i 25 then Abort else Ret (value step start i)).
Proof.
  intros step start i L M N. unfold ll_utau.
  destruct (run_spec step start 26 0 (-1) (Some start)) as [i' [A [B [C D]]]]; [reflexivity|reflexivity|reflexivity|intros j J; lia|].
  change (S ll_max) with 26%nat. rewrite A. assert (X : i' = i).
  { destruct (Nat.lt_trichotomy i' i) as [X|[X|X]]; [|exact X|].
    - exfalso. apply D; [lia|]. apply M. exact X.
    - exfalso. apply N; [lia|]. apply C. exact X. }
  rewrite X. reflexivity.
Qed.

(** The limit on the steps is meant to stop the run when the search has not settled.  It stops the run exactly when the
    search ends at the twenty-fifth step. *)
Theorem c92_search_stops_refuted : forall step start,
  ll_utau step start = Abort <-> (forall j, (j < 25)%nat -> moved step start j) /\ ~ moved step start 25.
Proof.
  intros step start. split.
  - intros H. unfold ll_utau in H.
    destruct (run_spec step start 26 0 (-1) (Some start)) as [i [A [B [C D]]]]; [reflexivity|reflexivity|reflexivity|intros j J; lia|].
    change (S ll_max) with 26%nat in H. rewrite A in H. destruct (Nat.eqb_spec i ll_max) as [X|X]; [|discriminate H].
    change ll_max with 25%nat in X. subst i. split; [exact C|apply D; lia].
  - intros [A B]. rewrite (stop_unique step start 25); [reflexivity|lia|exact A|intros _; exact B].
Qed.
(** A search that has not settled in twenty-five steps does not stop the run: the value of one more step is used. *)
Theorem c92_search_unsettled_refuted : forall step start,
  (forall j, (j <= 25)%nat -> moved step start j) -> ll_utau step start = Ret (value step start 26).
Proof. intros step start M. rewrite (stop_unique step start 26); [reflexivity|lia|intros j J; apply M; lia|intros; lia]. Qed.
(** searches of both sorts: one that settles at the twenty-fifth step stops the run, one that never settles does not *)
Example settles_at_25 : ll_utau (fun v => if Rltb v 24 then Some (v + 1) else Some 24) 0 = Abort.
Proof.
  assert (V : forall j, (j <= 24)%nat -> value (fun v => if Rltb v 24 then Some (v + 1) else Some 24) 0 j = Some (INR j)).
  { induction j as [|j IH]; intros L; [reflexivity|]. cbn [value]. rewrite IH by lia.
    destruct (Rltb (INR j) 24) eqn:E; [rewrite S_INR; reflexivity|]. apply Rltb_false in E.
    assert (INR j < INR 24) by (apply lt_INR; lia). replace (INR 24) with 24 in H by (simpl; lra). lra. }
  assert (V25 : value (fun v => if Rltb v 24 then Some (v + 1) else Some 24) 0 25 = Some 24).
  { cbn [value]. change 25%nat with (S 24). cbn [value] in *. pose proof (V 24%nat ltac:(lia)) as H. cbn [value] in H. rewrite H.
    destruct (Rltb (INR 24) 24) eqn:E; [|reflexivity]. apply Rltb_spec in E. replace (INR 24) with 24 in E by (simpl; lra). lra. }
  apply c92_search_stops_refuted. split.
  - intros j J. exists (INR j). split; [apply V; lia|]. destruct j as [|m].
    + simpl INR. rewrite Rabs_left by lra. lra.
    + exists (INR m). split; [apply V; lia|]. rewrite S_INR. replace (INR m - (INR m + 1)) with (-1) by ring. rewrite Rabs_left by lra. lra.
  - intros [v [E [p [E2 Q]]]]. rewrite V25 in E. assert (Ev : v = 24) by congruence. rewrite V in E2 by lia. assert (Ep : p = INR 24) by congruence.
    rewrite Ev, Ep in Q. replace (INR 24 - 24) with 0 in Q by (replace (INR 24) with 24 by (simpl; lra); lra). rewrite Rabs_R0 in Q. lra.
Qed.
Example never_settles : ll_utau (fun v => Some (v + 1)) 0 = Ret (Some 26).
Proof.
  assert (V : forall j, value (fun v => Some (v + 1)) 0 j = Some (INR j)).
  { induction j as [|j IH]; [reflexivity|]. cbn [value]. rewrite IH, S_INR. reflexivity. }
  rewrite c92_search_unsettled_refuted.
  - rewrite V. replace (INR 26) with 26 by (simpl; lra). reflexivity.
  - intros j J. exists (INR j). split; [apply V|]. destruct j as [|m].
    + simpl INR. rewrite Rabs_left by lra. lra.
    + exists (INR m). split; [apply V|]. rewrite S_INR. replace (INR m - (INR m + 1)) with (-1) by ring. rewrite Rabs_left by lra. lra.
Qed.

(** A search that starts from rest, or at a height that is not above the origin of the coordinates, gives no number. *)
Theorem c92_search_number_refuted : forall z nu speed start, 0 < nu -> z * start <= 0 -> 0 <= start ->
  ll_utau (ll_step z nu speed) start = Ret None.
Proof.
  intros z nu speed start N L S.
  assert (V : value (ll_step z nu speed) start 1 = None).
  { cbn [value]. unfold ll_step. destruct (Rltb 0 (z * start / nu)) eqn:E; [|reflexivity]. apply Rltb_spec in E.
    assert (z * start / nu <= 0); [|lra]. unfold Rdiv. pose proof (Rinv_0_lt_compat nu N). nra. }
  rewrite (stop_unique _ _ 1); [exact (f_equal Ret V)|lia| |].
  - intros j J. assert (j = 0%nat) by lia. subst j. exists start. split; [reflexivity|]. rewrite Rabs_left by lra. lra.
  - intros _ [v [E _]]. rewrite V in E. discriminate E.
Qed.

(** Non-vacuity: at height 1 with viscosity 1 a friction velocity of 1 belongs to a speed of 4.27; a start there is returned. *)
Example friction_one : ll_utau (ll_step 1 1 (427 / 100)) 1 = Ret (Some 1) /\ growing 1 1 1 /\ law_of_the_wall 1 1 1 (427 / 100).
Proof.
  assert (G : growing 1 1 1) by (unfold growing; replace (1 * 1 / 1) with 1 by field; rewrite ln_1; lra).
  assert (W : law_of_the_wall 1 1 1 (427 / 100)) by (unfold law_of_the_wall; replace (1 * 1 / 1) with 1 by field; rewrite ln_1; lra).
  split; [|split; assumption].
  pose proof (proj2 (c92_step_fixed 1 1 (427 / 100) 1 ltac:(lra) ltac:(lra) ltac:(lra) G) W) as F.
  rewrite (stop_unique _ _ 1); [simpl; rewrite F; reflexivity|lia| |].
  - intros j J. assert (j = 0%nat) by lia. subst j. exists 1. split; [reflexivity|]. rewrite Rabs_left by lra. lra.
  - intros _ [v [E [p [E2 Q]]]]. cbn [value] in *. rewrite F in E. assert (Ev : v = 1) by congruence. assert (Ep : p = 1) by congruence. rewrite Ev, Ep in Q. replace (1 - 1) with 0 in Q by ring. rewrite Rabs_R0 in Q. lra.
Qed.

(** ** The height *)
(** In a domain whose floor is at zero, on the coarsest level, the height in the law of the wall is that of the centre of
    the cell the velocity is taken from. *)
Theorem c92_height : forall dz ref, wf_zref 0 dz ref = centre dz (wf_cell 0 ref).
Proof. intros dz ref. unfold wf_zref, centre, wf_cell. rewrite Z.add_0_l. ring. Qed.
(** On any other level, and in any other domain, it is not: the height of level 0 and the coordinate, not the distance
    from the floor, are used. *)
Theorem c92_height_refuted : forall problo dz ref lev, 0 < dz -> (0 <= ref)%Z ->
  (wf_zref problo dz ref = centre (dz / 2 ^ lev) (wf_cell 0 ref) <-> problo = - ((1 - / 2 ^ lev) * centre dz ref)).
Proof.
  intros problo dz ref lev D L. unfold wf_zref, centre, wf_cell. rewrite Z.add_0_l. unfold Rdiv.
  split; intros H; [lra|]. rewrite H. ring.
Qed.
Example height_lev1 : wf_zref 0 1 0 <> centre (1 / 2 ^ 1) (wf_cell 0 0).
Proof. unfold wf_zref, centre, wf_cell. simpl Z.add. replace (1 / 2 ^ 1) with (/ 2) by (simpl; field). lra. Qed.
(** In a channel around the height zero, taken in its first cell, the law of the wall gives no number at all. *)
Theorem c92_centred_channel_refuted : forall half dz nu speed bx by_, 0 < dz <= half -> 0 < nu ->
  ll_utau (ll_step (wf_zref (- half) dz 0) nu speed) (start_utau bx by_) = Ret None.
Proof.
  intros half dz nu speed bx by_ D N. apply c92_search_number_refuted; [exact N| |].
  - pose proof (sqrt_pos (sqrt (bx * bx + by_ * by_))). unfold start_utau, wf_zref. simpl IZR. nra.
  - apply sqrt_pos.
Qed.

(** ** The friction velocity from the body force *)
(** The friction velocity squared is the size of the horizontal body force: the two walls of a channel of height [h]
    balance the body force exactly if the height is 2. *)
Theorem c92_balance : forall bx by_ h, bx * bx + by_ * by_ <> 0 ->
  (2 * (start_utau bx by_ * start_utau bx by_) = sqrt (bx * bx + by_ * by_) * h <-> h = 2).
Proof.
  intros bx by_ h N. unfold start_utau. rewrite sqrt_sqrt by apply sqrt_pos.
  assert (P : 0 < bx * bx + by_ * by_) by (pose proof (Rle_0_sqr bx); pose proof (Rle_0_sqr by_); unfold Rsqr in *; lra).
  pose proof (sqrt_lt_R0 _ P). split; intros E; [nra|rewrite E; ring].
Qed.
(** Without a horizontal body force there is no number. *)
Theorem c92_no_force_refuted : forall z nu speed, 0 < nu -> ll_utau (ll_step z nu speed) (start_utau 0 0) = Ret None.
Proof.
  intros z nu speed N. assert (E : start_utau 0 0 = 0) by (unfold start_utau; replace (0 * 0 + 0 * 0) with 0 by ring; rewrite !sqrt_0; reflexivity).
  rewrite E. apply c92_search_number_refuted; lra.
Qed.

(** ** The stress *)
(** The log law stress lies along the velocity and has the size of the friction velocity squared. *)
Theorem c92_stress_loglaw : forall utau u v, u * u + v * v <> 0 ->
  let tx := shear_loglaw utau u (wspd u v) in let ty := shear_loglaw utau v (wspd u v) in
  tx * v = ty * u /\ 0 <= tx * u + ty * v /\ sqrt (tx * tx + ty * ty) = utau * utau.
Proof.
  intros utau u v N tx ty. set (w := wspd u v) in *.
  assert (P : 0 < u * u + v * v) by (pose proof (Rle_0_sqr u); pose proof (Rle_0_sqr v); unfold Rsqr in *; lra).
  assert (W : 0 < w) by (unfold w, wspd; apply sqrt_lt_R0; exact P).
  assert (WW : w * w = u * u + v * v) by (unfold w, wspd; apply sqrt_sqrt; lra).
  unfold tx, ty, shear_loglaw. split; [field; lra|].
  assert (T : utau * utau * u / w * u + utau * utau * v / w * v = utau * utau * w).
  { replace (utau * utau * u / w * u + utau * utau * v / w * v) with (utau * utau * (u * u + v * v) / w) by (field; lra).
    rewrite <- WW. field. lra. }
  split.
  - rewrite T. pose proof (Rle_0_sqr utau). unfold Rsqr in *. nra.
  - replace (utau * utau * u / w * (utau * utau * u / w) + utau * utau * v / w * (utau * utau * v / w))
      with (utau * utau * (utau * utau)).
    + apply sqrt_square. pose proof (Rle_0_sqr utau). exact H.
    + replace (utau * utau * u / w * (utau * utau * u / w) + utau * utau * v / w * (utau * utau * v / w))
        with (utau * utau * (utau * utau) * (u * u + v * v) / (w * w)) by (field; lra).
      rewrite <- WW. field. lra.
Qed.

Lemma fold_map_scal : forall (c : R) f (l : list R), (forall x, f x = c * x) ->
  fold_right Rplus 0 (map f l) = c * fold_right Rplus 0 l.
Proof. intros c f l F. induction l as [|a l IH]; simpl; [ring|rewrite IH, F; ring]. Qed.
(** The Schumann stress over the wall has the mean of the velocity, in units of the mean speed, times the friction velocity
    of the body force squared: the friction velocity is never brought up to date with the flow. *)
Theorem c92_stress_schumann : forall us wm utau, us <> [] -> wm <> 0 ->
  mean (map (shear_schumann wm utau) us) = mean us / wm * (utau * utau).
Proof.
  intros us wm utau N W. unfold mean. rewrite map_length.
  rewrite (fold_map_scal (utau * utau / wm)); [|intros x; unfold shear_schumann; field; exact W].
  assert (INR (length us) <> 0) by (destruct us; [contradiction|]; simpl length; apply not_0_INR; discriminate).
  field. split; assumption.
Qed.
Example schumann_mean : mean (map (shear_schumann 3 2) [2; 4]) = 4.
Proof. rewrite c92_stress_schumann; [unfold mean; simpl; field|discriminate|lra]. Qed.

(** Both walls hold the fluid back with the density times the stress. *)
Theorem c92_walls_hold_back : forall shear mu rho, mu <> 0 ->
  force_from_floor mu (floor_grad shear mu rho) = - (rho * shear) /\
  force_from_lid mu (lid_grad shear mu rho) = - (rho * shear).
Proof. intros shear mu rho M. unfold force_from_floor, force_from_lid, floor_grad, lid_grad. split; field; exact M. Qed.
(** With the constant stress the floor does. *)
Theorem c92_constant_floor : forall utau mu rho, mu <> 0 ->
  let '(gx, gy, gz) := floor_const utau mu rho in
  force_from_floor mu gx = - (rho * (utau * utau)) /\ gy = 0 /\ gz = 0.
Proof. intros utau mu rho M. unfold floor_const, force_from_floor. split; [field; exact M|split; reflexivity]. Qed.
(** The lid drives the fluid on: the stresses of the two walls cancel, and nothing holds the body force. *)
Theorem c92_constant_lid_refuted : forall utau mu rho, mu <> 0 -> utau <> 0 -> 0 < rho ->
  let '(gf, _, _) := floor_const utau mu rho in let '(gl, _, _) := lid_const utau mu rho in
  0 < force_from_lid mu gl /\ force_from_floor mu gf + force_from_lid mu gl = 0.
Proof.
  intros utau mu rho M U P. unfold floor_const, lid_const, force_from_floor, force_from_lid.
  replace (mu * (utau * utau / mu * rho)) with (utau * utau * rho) by (field; exact M). split; [|lra].
  assert (0 < utau * utau) by nra. nra.
Qed.
(** The constant stress is along x whatever the direction of the body force: a force along y is not held at all. *)
Theorem c92_constant_direction_refuted : forall b mu rho, 0 < b -> 0 < mu -> 0 < rho ->
  let '(gx, gy, _) := floor_const (start_utau 0 b) mu rho in
  force_from_floor mu gx = - (rho * b) /\ force_from_floor mu gy = 0.
Proof.
  intros b mu rho B M P. unfold floor_const, force_from_floor, start_utau.
  rewrite sqrt_sqrt by apply sqrt_pos. replace (0 * 0 + b * b) with (b * b) by ring. rewrite sqrt_square by lra.
  split; [field; lra|ring].
Qed.

(** ** The velocity a cell size above the wall *)
Lemma rf : forall x, IZR (rfloor x) <= x < IZR (rfloor x) + 1.
Proof. exact rfloor_spec. Qed.
(** For cells longer than they are high, with both cells in the box, a velocity that is linear in the height is found exactly. *)
Theorem c92_at_dx : forall dx dz blo bhi k f a b, 0 < dz < dx ->
  (forall n, f n = a + b * centre dz n) -> (blo <= 0)%Z -> (rfloor (dx / dz - / 2) + 1 <= bhi)%Z ->
  at_dx dx dz blo bhi k f = a + b * dx.
Proof.
  intros dx dz blo bhi k f a b D F L H. unfold at_dx.
  destruct (Rleb dx dz) eqn:E; [apply Rleb_spec in E; lra|].
  set (n := rfloor (dx / dz - / 2)) in *. assert (N0 : (0 <= n)%Z).
  { pose proof (rf (dx / dz - / 2)) as R. fold n in R. assert (1 < dx / dz) by (apply (Rmult_lt_reg_r dz); [lra|]; unfold Rdiv; rewrite Rmult_assoc, Rinv_l by lra; lra).
    assert (0 < n + 1)%Z; [|lia]. apply lt_IZR. rewrite plus_IZR. lra. }
  replace ((blo <=? n) && (n <=? bhi) && ((blo <=? n + 1) && (n + 1 <=? bhi)))%Z%bool with true
    by (symmetry; rewrite !andb_true_iff, !Z.leb_le; lia).
  rewrite !F. unfold centre. rewrite plus_IZR. field. lra.
Qed.
(** in general the value lies between those of the two cells around the height. *)
Theorem c92_at_dx_between : forall dx dz blo bhi k f lo hi, 0 < dz < dx ->
  (forall n, lo <= f n <= hi) -> lo <= at_dx dx dz blo bhi k f <= hi.
Proof.
  intros dx dz blo bhi k f lo hi D F. unfold at_dx.
  destruct (Rleb dx dz) eqn:E; [apply F|]. set (n := rfloor (dx / dz - / 2)).
  destruct ((blo <=? n) && (n <=? bhi) && ((blo <=? n + 1) && (n + 1 <=? bhi)))%Z%bool; [|apply F].
  pose proof (rf (dx / dz - / 2)) as R. fold n in R. pose proof (F n). pose proof (F (n + 1)%Z). rewrite plus_IZR.
  set (w := (dx - (IZR n + / 2) * dz) / ((IZR n + 1 + / 2) * dz - (IZR n + / 2) * dz)).
  assert (W : w = dx / dz - / 2 - IZR n) by (unfold w; field; lra).
  assert (0 <= w < 1) by lra. clearbody w. nra.
Qed.
(** For cells at least as high as long the cell taken is not always the nearest to the height: from half the height of a
    cell on it is the second cell, although the first is nearer. *)
Theorem c92_at_dx_nearest_refuted : forall dx dz blo bhi k f, 0 < dz -> dz / 2 <= dx < dz ->
  at_dx dx dz blo bhi k f = f 1%Z /\ Rabs (centre dz 0 - dx) < Rabs (centre dz 1 - dx).
Proof.
  intros dx dz blo bhi k f P L. split.
  - unfold at_dx. destruct (Rleb dx dz) eqn:E; [|apply Rleb_false in E; lra]. f_equal. unfold cround.
    assert (A : / 2 <= dx / dz) by (apply (Rmult_le_reg_r dz); [lra|]; unfold Rdiv; rewrite Rmult_assoc, Rinv_l by lra; lra).
    assert (B : dx / dz < 1) by (apply (Rmult_lt_reg_r dz); [lra|]; unfold Rdiv; rewrite Rmult_assoc, Rinv_l by lra; lra).
    destruct (Rleb 0 (dx / dz)) eqn:E2; [|apply Rleb_false in E2; lra].
    pose proof (rf (dx / dz + / 2)) as R. assert (0 < rfloor (dx / dz + / 2) < 2)%Z; [|lia].
    split; apply lt_IZR; lra.
  - unfold centre. rewrite Rabs_left1 by lra. rewrite Rabs_right by lra. lra.
Qed.
(** When the two cells are not both in the box the first cell is used: the same flow in boxes cut differently gives
    different values. *)
Theorem c92_at_dx_boxes_refuted : exists dx dz f, 0 < dz < dx /\ (forall n, f n = centre dz n) /\
  at_dx dx dz 0 7 0 f = dx /\ at_dx dx dz 0 3 0 f = / 2.
Proof.
  exists 5, 1, (fun n => centre 1 n). split; [lra|]. split; [reflexivity|].
  assert (R : rfloor (5 / 1 - / 2) = 4%Z).
  { pose proof (rf (5 / 1 - / 2)) as R. assert (3 < rfloor (5 / 1 - / 2) < 5)%Z; [|lia]. split; apply lt_IZR; lra. }
  split.
  - rewrite (c92_at_dx _ _ _ _ _ _ 0 1); [ring|lra|intros n; ring|lia|rewrite R; lia].
  - unfold at_dx. destruct (Rleb 5 1) eqn:E; [apply Rleb_spec in E; lra|]. rewrite R. simpl andb. cbn. unfold centre. simpl IZR. lra.
Qed.

(** ** The stress of the waves *)
(** Where the surface is not level, the stress of the waves is that of the wind over a wave of speed omega/k: the square of
    the relative velocity times the square of the slope over pi, along the slope, where the relative velocity blows up the slope,
    and nothing where it blows down. *)
Theorem c92_waves : forall amp k om t u v x, amp * k * sin (k * x - om * t) <> 0 -> u <> om / k ->
  let slope := - amp * k * sin (k * x - om * t) in
  let rel := u - om / k in
  mo_tau amp k om t u v x 1 = Some 0 /\
  ((0 < rel * slope) -> mo_tau amp k om t u v x 0 = Some (rel * Rabs rel * (slope * slope) / PI)) /\
  ((rel * slope < 0) -> mo_tau amp k om t u v x 0 = Some 0).
Proof.
  intros amp k om t u v x N U slope rel.
  assert (S : slope <> 0) by (unfold slope; intros E; apply N; lra).
  assert (K : k <> 0) by (intros ->; apply N; ring).
  pose proof PI_RGT_0 as PP.
  assert (G : sqrt (mo_dx amp k om t x * mo_dx amp k om t x + 0 * 0) = Rabs slope).
  { replace (mo_dx amp k om t x * mo_dx amp k om t x + 0 * 0) with (Rsqr slope) by (unfold mo_dx, slope, Rsqr; ring). apply sqrt_Rsqr_abs. }
  assert (AS : 0 < Rabs slope) by (apply Rabs_pos_lt; exact S).
  assert (GG : Rabs slope * Rabs slope = slope * slope) by (rewrite <- Rabs_mult; apply Rabs_right; pose proof (Rle_0_sqr slope); unfold Rsqr in *; lra).
  assert (SI : sin (k * x - om * t) <> 0) by (intros E; apply N; rewrite E; ring).
  assert (AM : amp <> 0) by (intros ->; apply N; ring).
  assert (CX : - mo_dt amp k om t x * mo_dx amp k om t x * (1 / (Rabs slope * Rabs slope)) = om / k).
  { rewrite GG. unfold mo_dt, mo_dx, slope. field. repeat split; assumption. }
  unfold mo_tau. cbv zeta. rewrite G. rewrite CX. change (mo_dx amp k om t x) with slope.
  destruct (Req_EM_T (Rabs slope) 0) as [X|X]; [lra|].
  fold rel. assert (RN : rel <> 0) by (unfold rel; lra).
  assert (A0 : forall y, rel * slope + y * 0 = rel * slope) by (intros y; ring). rewrite !A0.
  destruct (Req_EM_T (rel * slope) 0) as [Y|Y].
  { exfalso. apply Rmult_integral in Y. tauto. }
  assert (MM : forall y, sqrt (rel * rel * (slope / Rabs slope) * (slope / Rabs slope) + y * y * (0 / Rabs slope) * (0 / Rabs slope)) = Rabs rel).
  { intros y. replace (rel * rel * (slope / Rabs slope) * (slope / Rabs slope) + y * y * (0 / Rabs slope) * (0 / Rabs slope)) with (Rsqr rel).
    - apply sqrt_Rsqr_abs.
    - unfold Rsqr. replace (rel * rel * (slope / Rabs slope) * (slope / Rabs slope)) with (rel * rel * (slope * slope) / (Rabs slope * Rabs slope)) by (field; lra).
      rewrite GG. field. split; [lra|exact S]. }
  rewrite MM. split; [f_equal; unfold Rdiv; ring|]. split.
  - intros P. f_equal. rewrite (Rabs_right (rel * slope)) by lra.
    replace ((rel * slope + rel * slope) / (2 * (rel * slope))) with 1 by (field; split; assumption).
    assert (RR : Rabs rel * Rabs rel = rel * rel) by (rewrite <- Rabs_mult; apply Rabs_right; pose proof (Rle_0_sqr rel); unfold Rsqr in *; lra).
    replace (1 / PI * Rabs rel * Rabs rel * Rabs slope * Rabs slope * 1 * (slope / Rabs slope))
      with ((Rabs rel * Rabs rel) * (slope * Rabs slope) / PI) by (field; lra).
    rewrite RR. destruct (Rle_or_lt 0 slope) as [Q|Q].
    + assert (0 < rel) by nra. rewrite !Rabs_right by lra. field. lra.
    + assert (rel < 0) by nra. rewrite !Rabs_left by lra. field. lra.
  - intros P. f_equal. rewrite (Rabs_left (rel * slope)) by lra. unfold Rdiv. rewrite Rplus_opp_r. ring.
Qed.
(** a wave of height 1, wave number 1 and frequency 1 under a wind of 3, a quarter of a period ahead: the wind blows up the slope *)
Example waves_case : mo_tau 1 1 1 (PI / 2) 3 0 0 0 = Some (4 / PI).
Proof.
  assert (S : sin (1 * 0 - 1 * (PI / 2)) = -1).
  { replace (1 * 0 - 1 * (PI / 2)) with (- (PI / 2)) by ring. rewrite sin_neg, sin_PI2. reflexivity. }
  destruct (c92_waves 1 1 1 (PI / 2) 3 0 0) as [_ [H _]]; rewrite ?S in *; [lra|lra|].
  rewrite H by lra. f_equal. replace (3 - 1 / 1) with 2 by field. rewrite Rabs_right by lra. pose proof PI_RGT_0. field. lra.
Qed.
(** At crests and troughs, for waves of no height, and for a wind at the speed of the waves, there is no number. *)
Theorem c92_waves_number_refuted : forall amp k om t u v x c,
  (amp * k * sin (k * x - om * t) = 0 \/ u = om / k /\ k <> 0) -> mo_tau amp k om t u v x c = None.
Proof.
  intros amp k om t u v x c H. unfold mo_tau. cbv zeta.
  set (g := sqrt (mo_dx amp k om t x * mo_dx amp k om t x + 0 * 0)).
  destruct (Req_EM_T g 0) as [E|E]; [reflexivity|].
  assert (N : mo_dx amp k om t x <> 0).
  { intros Z. apply E. unfold g. rewrite Z. replace (0 * 0 + 0 * 0) with 0 by ring. apply sqrt_0. }
  destruct H as [H|[H K]].
  - exfalso. apply N. unfold mo_dx. lra.
  - assert (GG : g * g = mo_dx amp k om t x * mo_dx amp k om t x).
    { unfold g. rewrite sqrt_sqrt; [ring|]. pose proof (Rle_0_sqr (mo_dx amp k om t x)). unfold Rsqr in *. lra. }
    assert (CX : - mo_dt amp k om t x * mo_dx amp k om t x * (1 / (g * g)) = om / k).
    { rewrite GG. unfold mo_dt. unfold mo_dx in *. field. repeat split; try exact K; intros Z; apply N; rewrite Z; ring. }
    rewrite CX, H. match goal with |- (if Req_EM_T ?a 0 then _ else _) = _ => destruct (Req_EM_T a 0) as [Y|Y]; [reflexivity|exfalso; apply Y; ring] end.
Qed.

Print Assumptions c92_friction_unique.
Print Assumptions c92_step_fixed.
Print Assumptions c92_search_descends.
Print Assumptions c92_search_settled.
Print Assumptions c92_search.
Print Assumptions c92_search_stops_refuted.
Print Assumptions c92_search_unsettled_refuted.
Print Assumptions c92_search_number_refuted.
Print Assumptions c92_height.
Print Assumptions c92_height_refuted.
Print Assumptions c92_centred_channel_refuted.
Print Assumptions c92_balance.
Print Assumptions c92_no_force_refuted.
Print Assumptions c92_stress_loglaw.
Print Assumptions c92_stress_schumann.
Print Assumptions c92_walls_hold_back.
Print Assumptions c92_constant_floor.
Print Assumptions c92_constant_lid_refuted.
Print Assumptions c92_constant_direction_refuted.
Print Assumptions c92_at_dx.
Print Assumptions c92_at_dx_between.
Print Assumptions c92_at_dx_nearest_refuted.
Print Assumptions c92_at_dx_boxes_refuted.
Print Assumptions c92_waves.
Print Assumptions c92_waves_number_refuted.
