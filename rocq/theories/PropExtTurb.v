(** C88: turbines computed by an external solver. *)
From Coq Require Import Reals Lra Lia Psatz List Arith SpecFloat.
From Verif Require Import BoxR BoxRFacts VecSpace VecSpaceProofs ABLInitProofs ExtTurb ExtTurbSpec.
Import ListNotations.
Local Open Scope R_scope.

(** ** Sub-steps *)

(** A flow step that is a whole number of solver steps is accepted with that number. *)
Theorem c88_substeps : forall tol n dt_ext, 0 <= tol -> (1 <= n)%nat -> 0 < dt_ext -> substeps tol (INR n * dt_ext) dt_ext = Ret n.
Proof.
  intros tol n d T N D. unfold substeps. replace (INR n * d / d) with (INR n) by (field; lra).
  assert (F : rfloor (INR n) = Z.of_nat n) by (apply rfloor_unique; rewrite <- INR_IZR_INZ; lra). rewrite F.
  destruct (Z.leb_spec (Z.of_nat n) 0) as [L|L]; [lia|]. rewrite <- INR_IZR_INZ.
  assert (P : 0 < INR n) by (apply lt_0_INR; lia). replace (INR n * d / (INR n * d) - 1) with 0 by (field; lra).
  rewrite (proj2 (Rltb_false _ _)) by lra. rewrite Nat2Z.id. reflexivity.
Qed.
(** Accepted steps keep the solver's clock behind the flow's by at most the tolerance, over any number of flow steps. *)
Theorem c88_clocks : forall tol dt_cfd dt_ext n k, 0 < dt_ext -> substeps tol dt_cfd dt_ext = Ret n ->
  (1 <= n)%nat /\ 0 <= INR k * dt_cfd - INR (k * n) * dt_ext <= tol * (INR (k * n) * dt_ext).
Proof.
  intros tol a d n k D H. unfold substeps in H. cbv zeta in H. pose proof (rfloor_spec (a / d)) as [F1 F2]. set (z := rfloor (a / d)) in *. clearbody z.
  destruct (Z.leb_spec z 0) as [L|L]; [discriminate|]. destruct (Rltb tol (a / (IZR z * d) - 1)) eqn:E; [discriminate|]. injection H as <-. apply Rltb_false in E.
  assert (Z1 : 1 <= IZR z) by (apply IZR_le; lia). assert (I : INR (Z.to_nat z) = IZR z) by (rewrite INR_IZR_INZ, Z2Nat.id by lia; reflexivity).
  split; [lia|]. rewrite mult_INR, I. pose proof (pos_INR k) as K.
  assert (A1 : IZR z * d <= a) by (apply (Rmult_le_compat_r d) in F1; [|lra]; replace (a / d * d) with a in F1 by (field; lra); exact F1).
  assert (P : 0 < IZR z * d) by (apply Rmult_lt_0_compat; lra).
  assert (A2 : a <= (1 + tol) * (IZR z * d)).
  { apply (Rmult_le_compat_r (IZR z * d)) in E; [|lra]. replace ((a / (IZR z * d) - 1) * (IZR z * d)) with (a - IZR z * d) in E by (field; split; lra). lra. }
  split.
  - replace (INR k * a - INR k * IZR z * d) with (INR k * (a - IZR z * d)) by ring. apply Rmult_le_pos; lra.
  - replace (INR k * a - INR k * IZR z * d) with (INR k * (a - IZR z * d)) by ring. replace (tol * (INR k * IZR z * d)) with (INR k * (tol * (IZR z * d))) by ring.
    apply Rmult_le_compat_l; lra.
Qed.
(** In binary64 a flow step of 0.3 with solver steps of 0.1 is refused: the quotient is below three, so two sub-steps are counted. *)
Theorem c88_substeps_float_refuted :
  SFleb (b64n 2) (quotient_b64 (b64frac 3 10) (b64frac 1 10)) = true /\ SFltb (quotient_b64 (b64frac 3 10) (b64frac 1 10)) (b64n 3) = true /\
  SFltb (b64frac 1 10000) (error_b64 2 (b64frac 3 10) (b64frac 1 10)) = true.
Proof. repeat split; vm_compute; reflexivity. Qed.

(** ** Runs *)
Lemma steps_iter {St Vel} (step : St -> Vel -> St) n v s : steps step n v s = flow_step step n s v.
Proof.
  unfold flow_step. revert s. induction n as [|n IH]; intros s; [reflexivity|]. cbn [steps]. rewrite IH.
  clear IH. induction n as [|n IH]; [reflexivity|]. exact (f_equal (fun s => step s v) IH).
Qed.
Lemma records_app {Vel} nsub dt k (vs ws : list Vel) : records nsub dt k (vs ++ ws) = records nsub dt k vs ++ records nsub dt (k + length vs) ws.
Proof.
  revert k. induction vs as [|v vs IH]; intros k; [cbn; rewrite Nat.add_0_r; reflexivity|]. cbn [records app length]. rewrite IH. do 2 f_equal. f_equal. lia.
Qed.
(** The solver's checkpoints of flow steps [k+1], ... *)
Fixpoint saved {St Vel} (step : St -> Vel -> St) (nsub : nat) (every : Z) (k : nat) (s : St) (vs : list Vel) : list (nat * St) :=
  match vs with
  | [] => []
  | v :: w => let s' := flow_step step nsub s v in
     (if flow_checkpoint every (S k) then [((S k * nsub)%nat, s')] else []) ++ saved step nsub every (S k) s' w
  end.
Lemma run_going {St Vel} (sol0 step : St -> Vel -> St) nsub dt every vs : (1 <= nsub)%nat -> forall k s f c,
  run sol0 step nsub dt every vs (TB s (k * nsub) false f c) =
  TB (flow_steps step nsub s vs) ((k + length vs) * nsub) false (f ++ records nsub dt k vs) (c ++ saved step nsub every k s vs).
Proof.
  intros N. induction vs as [|v vs IH]; intros k s f c.
  - cbn. rewrite Nat.add_0_r, !app_nil_r. reflexivity.
  - unfold run in *. cbn [fold_left]. unfold ext_step at 2. cbn [t_pending]. unfold advance_turbine. cbn [t_index t_state t_file t_chk t_pending].
    replace (k * nsub + nsub)%nat with (S k * nsub)%nat by lia. rewrite Nat.div_mul by lia. rewrite IH. rewrite steps_iter. cbn [records saved length].
    unfold flow_checkpoint. f_equal.
    + f_equal. lia.
    + rewrite <- app_assoc. reflexivity.
    + destruct ((0 <? every) && (Z.of_nat (S k) mod every =? 0))%Z%bool; [rewrite <- app_assoc|]; reflexivity.
Qed.
Lemma run_first {St Vel} (sol0 step : St -> Vel -> St) nsub dt every v0 vs k s f : (1 <= nsub)%nat ->
  run sol0 step nsub dt every (v0 :: vs) (TB s (k * nsub) true f []) =
  TB (flow_steps step nsub (sol0 s v0) vs) ((k + length vs) * nsub) false (f ++ records nsub dt k vs) (saved step nsub every k (sol0 s v0) vs).
Proof. intros N. change (run sol0 step nsub dt every (v0 :: vs) (TB s (k * nsub) true f [])) with (run sol0 step nsub dt every vs (TB (sol0 s v0) (k * nsub) false f [])). exact (run_going sol0 step nsub dt every vs N k (sol0 s v0) f []). Qed.
(** A clean start: one initial solution with the first velocities, then every flow step takes the solver the given number
    of steps with the velocities of that step, and these are written behind what the file holds. *)
Theorem c88_run : forall (St Vel : Type) (sol0 step : St -> Vel -> St) nsub dt every s0 file v0 vs, (1 <= nsub)%nat ->
  let t := run sol0 step nsub dt every (v0 :: vs) (start_clean s0 file) in
  t_state t = flow_steps step nsub (sol0 s0 v0) vs /\ t_index t = (length vs * nsub)%nat /\ t_file t = file ++ records nsub dt 0 vs.
Proof.
  intros St Vel sol0 step nsub dt every s0 file v0 vs N t. unfold t, start_clean. pose proof (run_first sol0 step nsub dt every v0 vs 0 s0 file N) as R. change (0 * nsub)%nat with 0%nat in R. rewrite R. repeat split.
Qed.
Lemma saved_In {St Vel} (step : St -> Vel -> St) nsub every vs : forall k s i c, (1 <= nsub)%nat ->
  In (i, c) (saved step nsub every k s vs) <-> exists j, (1 <= j <= length vs)%nat /\ i = ((k + j) * nsub)%nat /\ flow_checkpoint every (k + j) = true /\ c = flow_steps step nsub s (firstn j vs).
Proof.
  induction vs as [|v vs IH]; intros k s i c N; cbn [saved length].
  - split; [intros []|intros (j & J & _); lia].
  - rewrite in_app_iff, IH by exact N. split.
    + intros [H|(j & J & -> & F & ->)].
      * destruct (flow_checkpoint every (S k)) eqn:E; [|destruct H]. destruct H as [H|[]]. injection H as <- <-. exists 1%nat. split; [lia|]. split; [lia|]. split; [rewrite Nat.add_1_r; exact E|reflexivity].
      * exists (S j). split; [lia|]. split; [lia|]. split; [rewrite <- F; f_equal; lia|reflexivity].
    + intros (j & J & -> & F & ->). destruct j as [|[|j]]; [lia| |].
      * left. rewrite Nat.add_1_r in F. rewrite F. left. f_equal. lia.
      * right. exists (S j). split; [lia|]. split; [lia|]. split; [rewrite <- F; f_equal; lia|reflexivity].
Qed.
Lemma each_ok every k : flow_checkpoint every k = true <-> (0 < every)%Z /\ each every k.
Proof.
  unfold flow_checkpoint, each. rewrite Bool.andb_true_iff, Z.ltb_lt, Z.eqb_eq. split; intros [P H]; (split; [exact P|]).
  - exists (Z.of_nat k / every)%Z. rewrite Z.mul_comm. apply Z_div_exact_2; lia.
  - destruct H as [q ->]. apply Z_mod_mult.
Qed.
(** After a clean start the solver's checkpoints are those of the flow: after every flow step that is a multiple of the
    interval, with the state the solver has then. *)
Theorem c88_checkpoints : forall (St Vel : Type) (sol0 step : St -> Vel -> St) nsub dt every s0 file v0 vs i c, (1 <= nsub)%nat ->
  In (i, c) (t_chk (run sol0 step nsub dt every (v0 :: vs) (start_clean s0 file))) <->
  exists j, (1 <= j <= length vs)%nat /\ (0 < every)%Z /\ each every j /\ i = (j * nsub)%nat /\ c = flow_steps step nsub (sol0 s0 v0) (firstn j vs).
Proof.
  intros St Vel sol0 step nsub dt every s0 file v0 vs i c N. unfold start_clean. pose proof (run_first sol0 step nsub dt every v0 vs 0 s0 file N) as R. change (0 * nsub)%nat with 0%nat in R. rewrite R. cbn [t_chk]. rewrite saved_In by exact N. cbn [Nat.add].
  split; intros (j & J & A); exists j; (split; [exact J|]).
  - destruct A as (-> & F & ->). apply each_ok in F. tauto.
  - destruct A as (P & E & -> & ->). repeat split. apply each_ok. tauto.
Qed.

(** ** Replay *)
Lemma replay_ok {St Vel} (step : St -> Vel -> St) nsub f : forall s, replay_steps step nsub f s = flow_steps step nsub s (map snd f).
Proof.
  induction f as [|[t v] f IH]; intros s; [reflexivity|]. cbn [replay_steps map snd]. rewrite IH, steps_iter. reflexivity.
Qed.
Lemma records_vel {Vel} nsub dt k (vs : list Vel) : map snd (records nsub dt k vs) = vs.
Proof. revert k. induction vs as [|v vs IH]; intros k; [reflexivity|]. cbn. rewrite IH. reflexivity. Qed.
Lemma replay_state {St Vel} (sol0 step : St -> Vel -> St) nsub dt k s0 (file : list (R * Vel)) d : (1 <= nsub)%nat -> 0 < dt -> (1 <= length file)%nat -> (k <= length file)%nat ->
  start_replay sol0 step nsub dt (INR (k * nsub) * dt) s0 file =
  Ret (TB (flow_steps step nsub (sol0 s0 (nth 0 (map snd file) d)) (firstn k (map snd file))) (k * nsub) false file []).
Proof.
  intros N D L1 L. unfold start_replay. replace (INR (k * nsub) * dt / dt) with (INR (k * nsub)) by (field; lra).
  assert (F : rfloor (INR (k * nsub)) = Z.of_nat (k * nsub)) by (apply rfloor_unique; rewrite <- INR_IZR_INZ; lra). rewrite F, Nat2Z.id, Nat.div_mul by lia. cbv zeta.
  destruct (Nat.ltb_spec (length file) k); [lia|]. destruct file as [|[t v] f]; [cbn in L1; lia|]. rewrite Nat.eqb_refl, replay_ok, firstn_map. reflexivity.
Qed.
(** A replay from the start of flow step [k] takes the solver through the velocities of the first [k] flow steps, where a
    clean run had it if its initial solution used the velocities of the first step. *)
Theorem c88_replay : forall (St Vel : Type) (sol0 step : St -> Vel -> St) nsub dt every s0 v1 vs ws, (1 <= nsub)%nat -> 0 < dt ->
  let before := run sol0 step nsub dt every (v1 :: v1 :: vs) (start_clean s0 []) in
  exists t, start_replay sol0 step nsub dt (INR (S (length vs) * nsub) * dt) s0 (t_file before ++ ws) = Ret t /\ t_state t = t_state before /\ t_index t = t_index before.
Proof.
  intros St Vel sol0 step nsub dt every s0 v1 vs ws N D before.
  destruct (c88_run St Vel sol0 step nsub dt every s0 [] v1 (v1 :: vs) N) as (A & B & C). cbn zeta in *. fold before in A, B, C. rewrite A, B, C. clear before A B C. cbn [app].
  assert (L : length (records nsub dt 0 (v1 :: vs)) = S (length vs)) by (rewrite <- (map_length snd), records_vel; reflexivity).
  rewrite (replay_state sol0 step nsub dt (S (length vs)) s0 _ v1 N D) by (rewrite app_length, L; lia).
  rewrite map_app, records_vel. eexists. split; [reflexivity|]. cbn [t_state t_index length]. split; [|reflexivity].
  cbn [app nth]. rewrite (app_comm_cons vs (map snd ws) v1), firstn_app. replace (S (length vs) - length (v1 :: vs))%nat with 0%nat by (cbn; lia).
  rewrite firstn_O, app_nil_r, firstn_all2 by (cbn; lia). reflexivity.
Qed.
(** With other velocities at the start than in the first step, the replay's initial solution is not the one of the run: the
    file does not hold the velocities it was computed with. *)
Theorem c88_replay_initial_refuted : exists (sol0 step : nat -> nat -> nat) v0 v1,
  let before := run sol0 step 1 1 0 [v0; v1] (start_clean 0%nat []) in
  exists t, start_replay sol0 step 1 1 1 0%nat (t_file before) = Ret t /\ t_index t = t_index before /\ t_state t <> t_state before.
Proof.
  exists (fun s v => s + 10 * v)%nat, (fun s v => s + v)%nat, 1%nat, 2%nat. cbn zeta.
  destruct (c88_run nat nat (fun s v => s + 10 * v)%nat (fun s v => s + v)%nat 1 1 0 0%nat [] 1%nat [2%nat] ltac:(lia)) as (A & B & C). cbn zeta in *. rewrite A, B, C.
  pose proof (replay_state (fun s v => s + 10 * v)%nat (fun s v => s + v)%nat 1 1 1 0%nat (records 1 1 0 [2%nat]) 0%nat ltac:(lia) ltac:(lra) ltac:(cbn; lia) ltac:(cbn; lia)) as R.
  replace (INR (1 * 1) * 1) with 1 in R by (cbn; ring). rewrite app_nil_l, R. eexists. split; [reflexivity|]. cbn. split; [reflexivity|]. discriminate.
Qed.
(** After the replay the start of the run takes the solver one more flow step, before the first flow step: from there on
    the solver is one flow step ahead. *)
Theorem c88_replay_ahead_refuted : forall (St Vel : Type) (sol0 step : St -> Vel -> St) nsub dt every k s0 file t v0 vs, (1 <= nsub)%nat -> 0 < dt -> (1 <= length file)%nat -> (k <= length file)%nat ->
  start_replay sol0 step nsub dt (INR (k * nsub) * dt) s0 file = Ret t ->
  t_index (run sol0 step nsub dt every (v0 :: vs) t) = ((k + length vs + 1) * nsub)%nat /\
  t_state (run sol0 step nsub dt every (v0 :: vs) t) = flow_steps step nsub (t_state t) (v0 :: vs).
Proof.
  intros St Vel sol0 step nsub dt every k s0 file t v0 vs N D L1 L H.
  rewrite (replay_state sol0 step nsub dt k s0 file v0 N D L1 L) in H. injection H as <-. rewrite run_going by exact N. cbn [t_index t_state length].
  split; [f_equal; lia|reflexivity].
Qed.
(** A file left by an earlier run is what a later replay reads: the velocities of the run itself do not matter. *)
Theorem c88_old_file_refuted : forall (St Vel : Type) (sol0 step : St -> Vel -> St) nsub dt every k s0 old v0 vs w0 ws, (1 <= nsub)%nat -> 0 < dt -> (1 <= k <= length old)%nat ->
  exists s f1 f2,
  start_replay sol0 step nsub dt (INR (k * nsub) * dt) s0 (t_file (run sol0 step nsub dt every (v0 :: vs) (start_clean s0 old))) = Ret (TB s (k * nsub) false f1 []) /\
  start_replay sol0 step nsub dt (INR (k * nsub) * dt) s0 (t_file (run sol0 step nsub dt every (w0 :: ws) (start_clean s0 old))) = Ret (TB s (k * nsub) false f2 []) /\
  s = flow_steps step nsub (sol0 s0 (nth 0 (map snd old) v0)) (firstn k (map snd old)).
Proof.
  intros St Vel sol0 step nsub dt every k s0 old v0 vs w0 ws N D L.
  destruct (c88_run St Vel sol0 step nsub dt every s0 old v0 vs N) as (_ & _ & C1). destruct (c88_run St Vel sol0 step nsub dt every s0 old w0 ws N) as (_ & _ & C2). cbn zeta in C1, C2.
  rewrite C1, C2. rewrite !(fun f => replay_state sol0 step nsub dt k s0 f v0 N D) by (rewrite app_length; lia). rewrite !map_app.
  assert (X : forall l, nth 0 (map snd old ++ l) v0 = nth 0 (map snd old) v0) by (intros l; apply app_nth1; rewrite map_length; lia).
  assert (Y : forall l, firstn k (map snd old ++ l) = firstn k (map snd old)).
  { intros l. rewrite firstn_app, map_length. replace (k - length old)%nat with 0%nat by lia. rewrite firstn_O, app_nil_r. reflexivity. }
  rewrite !X, !Y. do 3 eexists. split; [reflexivity|]. split; [reflexivity|]. reflexivity.
Qed.
(** The velocities after a replay are written behind all records of the interrupted run, so that record [k] is no longer
    that of flow step [k] when that run had gone further than the point of restart. *)
Theorem c88_resumed_file_refuted : forall (St Vel : Type) (sol0 step : St -> Vel -> St) nsub dt every k s0 file t v0 vs, (1 <= nsub)%nat -> 0 < dt -> (1 <= length file)%nat -> (k <= length file)%nat ->
  start_replay sol0 step nsub dt (INR (k * nsub) * dt) s0 file = Ret t ->
  t_file (run sol0 step nsub dt every (v0 :: vs) t) = file ++ records nsub dt k (v0 :: vs).
Proof.
  intros St Vel sol0 step nsub dt every k s0 file t v0 vs N D L1 L H.
  rewrite (replay_state sol0 step nsub dt k s0 file v0 N D L1 L) in H. injection H as <-. rewrite run_going by exact N. reflexivity.
Qed.

(** ** Restart from a checkpoint of the solver *)

(** The step index, the file and the checkpoints go on from the solver's checkpoint; but the first call computes the initial
    solution again (missing: that the state goes on as well, see the next theorem). *)
Theorem c88_restart_partial : forall (St Vel : Type) (sol0 step : St -> Vel -> St) nsub dt every k s file v0 vs, (1 <= nsub)%nat ->
  let t := run sol0 step nsub dt every (v0 :: vs) (start_restart ((k * nsub)%nat, s) file) in
  t_index t = ((k + length vs) * nsub)%nat /\ t_state t = flow_steps step nsub (sol0 s v0) vs /\ t_file t = file ++ records nsub dt k vs /\
  forall i c, In (i, c) (t_chk t) <-> exists j, (1 <= j <= length vs)%nat /\ (0 < every)%Z /\ each every (k + j) /\ i = ((k + j) * nsub)%nat /\ c = flow_steps step nsub (sol0 s v0) (firstn j vs).
Proof.
  intros St Vel sol0 step nsub dt every k s file v0 vs N t. unfold t, start_restart. cbn [fst snd]. rewrite (run_first sol0 step nsub dt every v0 vs k s file N). cbn [t_state t_index t_file t_chk].
  split; [reflexivity|]. split; [reflexivity|]. split; [reflexivity|]. intros i c. split.
  - intros H. apply saved_In in H; [|exact N]. destruct H as (j & J & A & F & B). apply each_ok in F. exists j. tauto.
  - intros (j & J & P & E & A & B). apply saved_In; [exact N|]. exists j. repeat split; try tauto. apply each_ok. tauto.
Qed.
(** The uninterrupted run and the run restarted from its checkpoint part: the initial solution is computed twice. *)
Theorem c88_restart_refuted : exists (sol0 step : nat -> nat -> nat) v0 v1 v2,
  let whole := run sol0 step 1 1 1 [v0; v1; v2] (start_clean 0%nat []) in
  exists c, In c (t_chk (run sol0 step 1 1 1 [v0; v1] (start_clean 0%nat []))) /\
  t_index (run sol0 step 1 1 1 [v2; v2] (start_restart c (records 1 1 0 [v1]))) = t_index whole /\
  t_state (run sol0 step 1 1 1 [v2; v2] (start_restart c (records 1 1 0 [v1]))) <> t_state whole.
Proof.
  exists (fun s v => s + 100 + v)%nat, (fun s v => s + v)%nat, 1%nat, 2%nat, 3%nat. cbn zeta. exists (1, 103)%nat. split; [left; reflexivity|]. split; [reflexivity|]. cbn. lia.
Qed.
(** After a restart from solver checkpoint [k] the checkpoints of flow and solver fall together exactly when [k] is a multiple
    of the interval: the flow counts from its restart. *)
Theorem c88_restart_checkpoints : forall every k, (0 < every)%Z ->
  (forall j, flow_checkpoint every j = flow_checkpoint every (k + j)) <-> each every k.
Proof.
  intros every k P. split.
  - intros H. specialize (H 0%nat). rewrite Nat.add_0_r in H. apply each_ok. rewrite <- H. apply each_ok. split; [exact P|]. exists 0%Z. reflexivity.
  - intros [q E] j. unfold flow_checkpoint. rewrite Nat2Z.inj_add, E. rewrite Z.add_comm, Z.mod_add by lia. reflexivity.
Qed.

(** ** Checks at the start *)

(** A run that ends at a time is allowed only with a solver that can go on to that time, up to a microsecond. *)
Theorem c88_duration : forall stop_time stop_index dt now start stop, 0 < stop_time -> (stop_index = -1)%Z ->
  long_enough stop_time stop_index dt now start stop = true <-> stop_time - now < stop - start + / 10 ^ 6.
Proof.
  intros st i dt now a b S ->. unfold long_enough. rewrite (proj2 (Rltb_spec 0 st) S). change (-1 >? -1)%Z with false. cbv iota zeta. rewrite Rltb_spec. set (e := / 10 ^ 6). clearbody e. split; lra.
Qed.
(** With a last time and a last step the earlier of the two ends counts, with neither no duration is enough. *)
Theorem c88_duration_both : forall stop_time stop_index dt now start stop, 0 < stop_time ->
  ((0 <= stop_index)%Z -> long_enough stop_time stop_index dt now start stop = true <->
     stop_time - now < stop - start + / 10 ^ 6 \/ IZR stop_index * dt - now < stop - start + / 10 ^ 6) /\
  ((0 <= stop_index)%Z -> long_enough 0 stop_index dt now start stop = true <-> IZR stop_index * dt - now < stop - start + / 10 ^ 6) /\
  long_enough 0 (-1) dt now start stop = false.
Proof.
  intros st i dt now a b S. unfold long_enough. rewrite (proj2 (Rltb_spec 0 st) S), (proj2 (Rltb_false 0 0)) by lra. change (-1 >? -1)%Z with false. cbv iota zeta.
  set (e := / 10 ^ 6). clearbody e. split; [|split; [|reflexivity]]; intros I; rewrite Z.gtb_ltb; destruct (Z.ltb_spec (-1) i); try lia; rewrite Rltb_spec.
  - unfold rmin. destruct (Rltb (IZR i * dt) st) eqn:L; [apply Rltb_spec in L|apply Rltb_false in L]; split; lra.
  - split; lra.
Qed.
(** A run that ends at a step is measured as if all steps had the present size: after a precursor with larger steps
    any duration of the solver is accepted. *)
Theorem c88_duration_refuted : forall n more dt big start stop, 0 < dt -> 2 * dt <= big -> (0 < more <= n)%Z -> start <= stop ->
  let now := IZR n * big in
  long_enough 0 (n + more) dt now start stop = true /\ 0 < IZR more * dt.
Proof.
  intros n more dt big a b D B M AB now. unfold long_enough. rewrite (proj2 (Rltb_false 0 0)) by lra. rewrite Z.gtb_ltb. destruct (Z.ltb_spec (-1) (n + more)); [|lia].
  assert (M1 : 1 <= IZR more <= IZR n) by (split; apply IZR_le; lia). assert (E : 0 < / 10 ^ 6) by (apply Rinv_0_lt_compat, pow_lt; lra). split.
  - apply Rltb_spec. unfold now. rewrite plus_IZR. set (e := / 10 ^ 6) in *. clearbody e. assert (IZR n * (2 * dt) <= IZR n * big) by (apply Rmult_le_compat_l; lra). assert (IZR more * dt <= IZR n * dt) by (apply Rmult_le_compat_r; lra). lra.
  - apply Rmult_lt_0_compat; lra.
Qed.
(** A turbine is accepted exactly when its density is that of the flow, where the input names one, unless the check is overridden. *)
Theorem c88_density : forall rho override incflo const,
  density_ok rho override incflo const = true <->
  override = true \/ ((forall r, incflo = Some r -> Rabs (r - rho) <= veps) /\ (forall r, const = Some r -> Rabs (r - rho) <= veps)).
Proof.
  intros rho o a b. unfold density_ok. cbv zeta. rewrite Bool.andb_true_iff.
  assert (K : forall x : option R, (match x with Some r => negb (Rltb veps (Rabs (r - rho))) || o | None => true end)%bool = true <-> o = true \/ (forall r, x = Some r -> Rabs (r - rho) <= veps)).
  { intros [r|].
    - rewrite Bool.orb_true_iff, Bool.negb_true_iff, Rltb_false. split; [intros [H|H]; [right; intros ? [= <-]; exact H|left; exact H]|intros [H|H]; [right; exact H|left; apply H; reflexivity]].
    - split; [intros _; right; discriminate|reflexivity]. }
  rewrite !K. tauto.
Qed.

(** ** Widths and the nacelle *)

(** The width of a blade point is along each axis the largest of the three given ones, with the first two axes exchanged. *)
Theorem c88_blade_width : forall emin einp echord chord,
  let e := blade_eps emin einp echord chord in
  vx e = Rmax (Rmax (vy emin) (vy einp)) (vy echord * chord) /\ vy e = Rmax (Rmax (vx emin) (vx einp)) (vx echord * chord) /\
  vz e = Rmax (Rmax (vz emin) (vz einp)) (vz echord * chord).
Proof. intros a b c d e. unfold e, blade_eps, vmax3, rmax3, swap_xy, vscale. cbn. rewrite !rmax_spec. repeat split. Qed.
Theorem c88_tower_width : forall emin einp etower,
  let e := tower_eps emin einp etower in
  vx e = Rmax (Rmax (vy emin) (vy einp)) (vy etower) /\ vy e = Rmax (Rmax (vx emin) (vx einp)) (vx etower) /\ vz e = Rmax (Rmax (vz emin) (vz einp)) (vz etower).
Proof. intros a b c e. unfold e, tower_eps, vmax3, rmax3, swap_xy. cbn. rewrite !rmax_spec. repeat split. Qed.
(** The nacelle is dragged along the sampled velocity, with a correction of that velocity between one and 8/7. *)
Theorem c88_nacelle : forall rho cd area emin vel, 0 < cd * area ->
  exists c, 1 <= c <= 8 / 7 /\ nacelle_force rho cd area emin vel = vscale vel (rho * (cd * area) / 2 * vmag vel * (c * c)).
Proof.
  intros rho cd area emin vel P. unfold nacelle_force, nacelle_eps. cbv zeta. cbn [vx]. rewrite rmax_spec.
  pose proof PI_RGT_0 as PP. replace (2 / PI * cd * area) with (2 / PI * (cd * area)) by ring. set (A := cd * area) in *.
  assert (S0 : 0 < 2 / PI * A) by (apply Rmult_lt_0_compat; [apply Rdiv_lt_0_compat; lra|exact P]).
  set (e := Rmax (sqrt (2 / PI * A)) _). assert (E1 : sqrt (2 / PI * A) <= e) by apply Rmax_l. pose proof (sqrt_lt_R0 _ S0) as S1. assert (E0 : 0 < e) by lra. clearbody e.
  assert (EE : 2 / PI * A <= e * e) by (rewrite <- (sqrt_sqrt (2 / PI * A)) by lra; apply Rmult_le_compat; lra).
  rewrite (proj2 (Rltb_spec 0 e) E0). set (q := A / (2 * (2 * PI) * e * e)).
  assert (Q : 0 < q <= / 8).
  { unfold q. assert (PE : 0 < 2 * (2 * PI) * e * e) by (apply Rmult_lt_0_compat; [apply Rmult_lt_0_compat|]; lra). split; [apply Rdiv_lt_0_compat; [exact P|exact PE]|].
    apply (Rmult_le_reg_r (2 * (2 * PI) * e * e)); [exact PE|]. unfold Rdiv. rewrite Rmult_assoc, Rinv_l, Rmult_1_r by lra.
    apply (Rmult_le_compat_l (PI / 2)) in EE; [|lra]. replace (PI / 2 * (2 / PI * A)) with A in EE by (field; lra). lra. }
  clearbody q. assert (Q1 : 0 < 1 - q) by lra. exists (1 / (1 - q)). split.
  - split; apply (Rmult_le_reg_r (1 - q)); try lra; replace (1 / (1 - q) * (1 - q)) with 1 by (field; lra); lra.
  - unfold vscale. rewrite half_dot. f_equal; field; lra.
Qed.

(** ** Points of the parts and the exchange *)

(** Every force point belongs to exactly one part: hub, a blade, or the tower. *)
Theorem c88_parts : forall blades pts tower i, (1 <= pts)%nat -> (i < 1 + blades * pts + tower)%nat ->
  (i = 0%nat /\ fst hub_view = 0%nat /\ snd hub_view = 1%nat) \/
  (exists ib, (ib < blades)%nat /\ (fst (blade_view pts ib) <= i < fst (blade_view pts ib) + snd (blade_view pts ib))%nat /\
     (i < fst (tower_view blades pts tower))%nat /\
     forall jb, (fst (blade_view pts jb) <= i < fst (blade_view pts jb) + snd (blade_view pts jb))%nat -> jb = ib) \/
  ((fst (tower_view blades pts tower) <= i < fst (tower_view blades pts tower) + snd (tower_view blades pts tower))%nat /\
   forall ib, (ib < blades)%nat -> (fst (blade_view pts ib) + snd (blade_view pts ib) <= i)%nat).
Proof.
  intros nb n tw i N I. unfold hub_view, blade_view, tower_view. cbn [fst snd]. destruct (Nat.eq_dec i 0) as [->|Z]; [left; repeat split|right].
  destruct (le_lt_dec (1 + nb * n) i) as [T|B]; [right|left].
  - split; [lia|]. intros ib H. nia.
  - exists ((i - 1) / n)%nat. pose proof (Nat.div_mod (i - 1) n ltac:(lia)) as D. pose proof (Nat.mod_upper_bound (i - 1) n ltac:(lia)) as M. set (q := ((i - 1) / n)%nat) in *. set (r := ((i - 1) mod n)%nat) in *. clearbody q r.
    split; [nia|]. split; [nia|]. split; [lia|]. intros jb J. nia.
Qed.
(** The velocities of a blade, for the lifting-line correction, start at the point of the hub: the first blade has the hub's
    velocity for its root, and every blade lacks that of its tip. *)
Theorem c88_blade_velocities_refuted : forall pts, (1 <= pts)%nat ->
  fst (blade_view pts 0) = 1%nat /\ fst (blade_vel_view pts 0) = fst hub_view /\
  forall ib, (fst (blade_vel_view pts ib) + snd (blade_vel_view pts ib) <= fst (blade_view pts ib) + pts - 1)%nat.
Proof. intros pts P. unfold blade_view, blade_vel_view, hub_view. cbn [fst snd]. repeat split. intros. lia. Qed.
Lemma rd_app_l (a b : list R) i : (i < length a)%nat -> rd (a ++ b) i = rd a i.
Proof. intros H. unfold rd. apply app_nth1, H. Qed.
Lemma rd_app_r (a b : list R) n i : length a = n -> rd (a ++ b) (n + i) = rd b i.
Proof. intros <-. unfold rd. rewrite app_nth2 by lia. f_equal. lia. Qed.
(** Every influenced rank gets, for any number of points, the solver's force with the sign changed over the density, its positions
    moved to the base of the turbine, and its matrices transposed. *)
Theorem c88_exchange : forall n fx fy fz px py pz ori rho base i, length fx = n -> length fy = n -> length fz = n -> length px = n -> length py = n -> length pz = n ->
  length ori = (9 * n)%nat -> (i < n)%nat ->
  let buf := pack fx fy fz px py pz ori in
  length buf = (n * 15)%nat /\
  got_force buf n rho i = V3 (- nth i fx 0 / rho) (- nth i fy 0 / rho) (- nth i fz 0 / rho) /\
  got_pos buf n base i = V3 (nth i px 0 + vx base) (nth i py 0 + vy base) (nth i pz 0 + vz base) /\
  got_ori buf n i = T9 (nth (9 * i) ori 0) (nth (9 * i + 3) ori 0) (nth (9 * i + 6) ori 0)
                       (nth (9 * i + 1) ori 0) (nth (9 * i + 4) ori 0) (nth (9 * i + 7) ori 0)
                       (nth (9 * i + 2) ori 0) (nth (9 * i + 5) ori 0) (nth (9 * i + 8) ori 0).
Proof.
  intros n fx fy fz px py pz ori rho base i A B C D E F G I buf.
  assert (P0 : rd buf i = nth i fx 0) by (unfold buf, pack; rewrite rd_app_l by lia; reflexivity).
  assert (P1 : rd buf (n + i) = nth i fy 0) by (unfold buf, pack; rewrite rd_app_r by assumption; rewrite rd_app_l by lia; reflexivity).
  assert (P2 : rd buf (n + n + i) = nth i fz 0) by (rewrite <- Nat.add_assoc; unfold buf, pack; rewrite !rd_app_r by assumption; rewrite rd_app_l by lia; reflexivity).
  assert (P3 : rd buf (n + n + n + i) = nth i px 0) by (rewrite <- !Nat.add_assoc; unfold buf, pack; rewrite !rd_app_r by assumption; rewrite rd_app_l by lia; reflexivity).
  assert (P4 : rd buf (n + n + n + n + i) = nth i py 0) by (rewrite <- !Nat.add_assoc; unfold buf, pack; rewrite !rd_app_r by assumption; rewrite rd_app_l by lia; reflexivity).
  assert (P5 : rd buf (n + n + n + n + n + i) = nth i pz 0) by (rewrite <- !Nat.add_assoc; unfold buf, pack; rewrite !rd_app_r by assumption; rewrite rd_app_l by lia; reflexivity).
  assert (Ori : forall j, rd buf (n + (n + (n + (n + (n + (n + j)))))) = nth j ori 0).
  { intros j. unfold buf, pack. rewrite !rd_app_r by assumption. reflexivity. }
  split; [unfold buf, pack; rewrite !app_length; lia|]. split; [|split].
  - unfold got_force. rewrite P0, P1, P2. reflexivity.
  - unfold got_pos. rewrite P3, P4, P5. reflexivity.
  - unfold got_ori. cbv zeta. f_equal; rewrite <- Ori; f_equal; lia.
Qed.
(** The frame of the rotor: for a shaft that is not vertical, unit vectors at right angles, right-handed, the first along the shaft,
    the second level, the third upwards. *)
Theorem c88_rotor_frame : forall o, veps <= vmag (V3 (txx o) (txy o) (txz o)) ->
  veps * vmag (V3 (txx o) (txy o) (txz o)) <= sqrt (txx o * txx o + txy o * txy o) ->
  let f := rotor_frame o in
  frame3 (V3 (txx f) (txy f) (txz f)) (V3 (tyx f) (tyy f) (tyz f)) (V3 (tzx f) (tzy f) (tzz f)) /\
  (exists c, 0 < c /\ V3 (txx f) (txy f) (txz f) = vscale (V3 (txx o) (txy o) (txz o)) c) /\ tyz f = 0 /\ 0 < tzz f.
Proof.
  intros o M H f. set (a := txx o) in *. set (b := txy o) in *. set (c := txz o) in *.
  assert (EP : 0 < veps) by (unfold veps; lra). set (m := vmag (V3 a b c)) in *. assert (MP : 0 < m) by lra.
  assert (MM : m * m = a * a + b * b + c * c) by (unfold m, vmag, vmag_sqr; cbn; apply sqrt_sqrt; nra).
  set (h := sqrt (a * a + b * b)) in *. assert (HH : h * h = a * a + b * b) by (unfold h; apply sqrt_sqrt; nra).
  assert (HP : 0 < h) by (assert (0 < veps * m) by (apply Rmult_lt_0_compat; lra); lra).
  set (x := vnormalize (V3 a b c)). assert (X : x = V3 (a / m) (b / m) (c / m)).
  { unfold x, vnormalize. fold m. rewrite (proj2 (Rltb_false _ _)) by lra. reflexivity. }
  set (y := vcross (khat 1) x). assert (Y : y = V3 (- b / m) (a / m) 0) by (unfold y; rewrite X; unfold vcross, khat; cbn; f_equal; field; lra).
  set (z := vcross x y). assert (Z : z = V3 (- (a * c) / (m * m)) (- (b * c) / (m * m)) (h * h / (m * m))).
  { unfold z. rewrite X, Y, HH. unfold vcross; cbn; f_equal; field; lra. }
  assert (YM : vmag y = h / m).
  { unfold vmag, vmag_sqr. rewrite Y. cbn. replace (- b / m * (- b / m) + a / m * (a / m) + 0 * 0) with (h / m * (h / m)); [apply sqrt_square; apply Rlt_le, Rdiv_lt_0_compat; lra|].
    replace (h / m * (h / m)) with (h * h / (m * m)) by (field; lra). rewrite HH. field. lra. }
  assert (ZM : vmag z = h / m).
  { unfold vmag, vmag_sqr. rewrite Z. cbn. match goal with |- sqrt ?q = _ => replace q with (h / m * (h / m)) end; [apply sqrt_square; apply Rlt_le, Rdiv_lt_0_compat; lra|].
    replace (h / m * (h / m)) with (h * h * (m * m) / (m * m * (m * m))) by (field; lra).
    replace (- (a * c) / (m * m) * (- (a * c) / (m * m)) + - (b * c) / (m * m) * (- (b * c) / (m * m)) + h * h / (m * m) * (h * h / (m * m))) with (((a * a + b * b) * (c * c) + h * h * (h * h)) / (m * m * (m * m))) by (field; lra).
    f_equal. rewrite MM, HH. ring. }
  assert (BIG : veps <= h / m) by (apply (Rmult_le_reg_r m); [exact MP|]; replace (h / m * m) with h by (field; lra); exact H).
  assert (Y' : vnormalize y = V3 (- b / h) (a / h) 0).
  { unfold vnormalize. rewrite YM, (proj2 (Rltb_false _ _)) by lra. rewrite Y. unfold vdivs. cbn. f_equal; field; lra. }
  assert (Z' : vnormalize z = V3 (- (a * c) / (m * h)) (- (b * c) / (m * h)) (h / m)).
  { unfold vnormalize. rewrite ZM, (proj2 (Rltb_false _ _)) by lra. rewrite Z. unfold vdivs. cbn. f_equal; field; lra. }
  assert (FF : f = T9 (a / m) (b / m) (c / m) (- b / h) (a / h) 0 (- (a * c) / (m * h)) (- (b * c) / (m * h)) (h / m)).
  { unfold f, rotor_frame. fold a b c. fold x. fold y. fold z. cbv zeta. rewrite Y', Z', X. reflexivity. }
  rewrite FF. cbn [txx txy txz tyx tyy tyz tzx tzy tzz]. split; [|split; [|split]].
  - unfold frame3, vdot, vcross. cbn. repeat split.
    + replace (a / m * (a / m) + b / m * (b / m) + c / m * (c / m)) with ((a * a + b * b + c * c) / (m * m)) by (field; lra). rewrite <- MM. field. lra.
    + replace (- b / h * (- b / h) + a / h * (a / h) + 0 * 0) with ((a * a + b * b) / (h * h)) by (field; lra). rewrite <- HH. field. lra.
    + replace (- (a * c) / (m * h) * (- (a * c) / (m * h)) + - (b * c) / (m * h) * (- (b * c) / (m * h)) + h / m * (h / m)) with (((a * a + b * b) * (c * c) + h * h * (h * h)) / (m * m * (h * h))) by (field; lra).
      rewrite <- HH. replace (h * h * (c * c) + h * h * (h * h)) with (h * h * (m * m)) by (rewrite MM, HH; ring). field. lra.
    + field. lra.
    + field. lra.
    + replace (- (a * c) / (m * h) * (a / m) + - (b * c) / (m * h) * (b / m) + h / m * (c / m)) with (c * (h * h - (a * a + b * b)) / (m * m * h)) by (field; lra). rewrite HH. field. lra.
    + f_equal; try (field; lra). replace (a / m * (a / h) - b / m * (- b / h)) with ((a * a + b * b) / (m * h)) by (field; lra). rewrite <- HH. field. lra.
  - exists (/ m). split; [apply Rinv_0_lt_compat, MP|]. unfold vscale. cbn. reflexivity.
  - reflexivity.
  - apply Rdiv_lt_0_compat; lra.
Qed.
(** The relative velocities are of the velocities handed over in the step before, not of those just sampled. *)
Theorem c88_relative_refuted : forall fluid solid vel r next i, update_vel fluid solid vel = Ret (r, next) -> (i < length solid)%nat ->
  nth i r vzero = vsub (nth i fluid vzero) (nth i solid vzero) /\ next = vel.
Proof.
  intros fluid solid vel r next i H I. unfold update_vel in H. destruct (relative fluid solid) as [q| |] eqn:E; try discriminate. injection H as <- <-. split; [|reflexivity].
  revert fluid q i E I. induction solid as [|s ss IH]; intros fluid q i E I; [cbn in I; lia|]. destruct fluid as [|f fs]; [discriminate|]. cbn [relative] in E.
  destruct (relative fs ss) as [q'| |] eqn:E'; try discriminate. injection E as <-. destruct i as [|i]; [reflexivity|]. cbn [nth]. apply (IH fs q' i E'). cbn in I. lia.
Qed.
(** With more force points than velocity points the reading runs off the end of the solver's arrays. *)
Theorem c88_relative_range_refuted : forall fluid solid vel, (length fluid < length solid)%nat -> update_vel fluid solid vel = UB.
Proof.
  intros fluid solid vel L. unfold update_vel. assert (E : relative fluid solid = UB); [|rewrite E; reflexivity].
  revert fluid L. induction solid as [|s ss IH]; intros fluid L; [cbn in L; lia|]. destruct fluid as [|f fs]; [reflexivity|]. cbn [relative]. rewrite IH; [reflexivity|cbn in L; lia].
Qed.

(** ** Cases *)
Example case_substeps : substeps tol_init (INR 5 * (/ 50)) (/ 50) = Ret 5%nat.
Proof. apply c88_substeps; [apply Rlt_le, Rinv_0_lt_compat, pow_lt; lra|lia|lra]. Qed.
Example case_run : let t := run (fun s v => s + 10 * v)%nat (fun s v => s + v)%nat 2 (/ 10) 2 [1; 2; 3; 4]%nat (start_clean 0%nat []) in
  t_state t = 28%nat /\ t_index t = 6%nat /\ t_chk t = [(4, 20)]%nat.
Proof. repeat split. Qed.
Example case_align : flow_checkpoint 30 30 = true /\ flow_checkpoint 30 (100 + 30) = false.
Proof. split; reflexivity. Qed.
Example case_frame : exists o, veps <= vmag (V3 (txx o) (txy o) (txz o)) /\ veps * vmag (V3 (txx o) (txy o) (txz o)) <= sqrt (txx o * txx o + txy o * txy o).
Proof.
  exists (T9 3 0 4 0 1 0 (- 4) 0 3). unfold vmag, vmag_sqr. cbn. replace (3 * 3 + 0 * 0 + 4 * 4) with (5 * 5) by lra. replace (3 * 3 + 0 * 0) with (3 * 3) by lra.
  rewrite !sqrt_square by lra. unfold veps. lra.
Qed.

Print Assumptions c88_substeps.
Print Assumptions c88_clocks.
Print Assumptions c88_substeps_float_refuted.
Print Assumptions c88_run.
Print Assumptions c88_checkpoints.
Print Assumptions c88_replay.
Print Assumptions c88_replay_initial_refuted.
Print Assumptions c88_replay_ahead_refuted.
Print Assumptions c88_old_file_refuted.
Print Assumptions c88_resumed_file_refuted.
Print Assumptions c88_restart_partial.
Print Assumptions c88_restart_refuted.
Print Assumptions c88_restart_checkpoints.
Print Assumptions c88_duration.
Print Assumptions c88_duration_both.
Print Assumptions c88_duration_refuted.
Print Assumptions c88_density.
Print Assumptions c88_blade_width.
Print Assumptions c88_tower_width.
Print Assumptions c88_nacelle.
Print Assumptions c88_parts.
Print Assumptions c88_blade_velocities_refuted.
Print Assumptions c88_exchange.
Print Assumptions c88_rotor_frame.
Print Assumptions c88_relative_refuted.
Print Assumptions c88_relative_range_refuted.
