(** Lifting of the loop facts to complete runs. *)
From Verif Require Import BaseFacts SimTime SimTimeSpec SimTimeProofs SimTimeProofs2 SimTimeProofs3 SimTimeProofs4.
From Coq Require Import Setoid ZifyBool Znumtheory.
Local Open Scope Q_scope.

Lemma evolve_last sq p g c inp s cf evs :
  evolve sq p g c inp = (s, cf, evs) -> s = Finished ->
  (k_idx cf, k_new cf) = last (marks (steps_of evs)) (k_idx c, k_new c).
Proof.
  intros He Hs. destruct (evolve_trace _ _ _ _ _ _ _ _ He) as (cs & E1 & E2 & E3 & E4).
  destruct (E3 Hs) as (F1 & F2 & _). unfold marks. rewrite E2, map_step_mark.
  change (k_idx c, k_new c) with (mark c). rewrite last_map. unfold mark. rewrite F1, F2. reflexivity.
Qed.

Lemma run_time_adaptive sq p idx t inp s cf evs :
  inputs_ok p -> adaptive p = true -> p_delay_time p <= t -> 0 < p_stop_time p -> t <= p_stop_time p ->
  is_run sq p idx t inp (s, cf, evs) ->
  chained idx t (steps_of evs)
  /\ Forall (fun st => 0 < st_dt st /\ st_t1 st <= p_stop_time p) (steps_of evs)
  /\ (s = Finished -> (p_max_step p < 0)%Z ->
      p_stop_time p - stop_eps <= snd (last (marks (steps_of evs)) (idx, t))
      /\ snd (last (marks (steps_of evs)) (idx, t)) <= p_stop_time p).
Proof.
  intros Hok Had Hdl Hs Ht Hr. apply is_run_inv in Hr.
  destruct Hr as [(-> & ->) | (g & c & ev & evs' & He & <- & <- & Hev & Hst)].
  - cbn. split; [exact Logic.I|]. split; [constructor|]. discriminate.
  - destruct (evolve_time_adaptive _ _ _ _ _ _ _ _ Hok Had Hdl Hs Ht He) as (A & B & C).
    rewrite Hst. split; [exact A|]. split; [exact B|]. intros Hf Hm. specialize (C Hf Hm).
    rewrite <- (evolve_last _ _ _ _ _ _ _ _ He Hf). exact C.
Qed.

Lemma run_time_fixed sq p idx t inp s cf evs :
  adaptive p = false -> p_delay_time p <= t ->
  is_run sq p idx t inp (s, cf, evs) ->
  chained idx t (steps_of evs)
  /\ Forall (fun st => st_dt st == p_fixed_dt p
                       /\ (0 < p_stop_time p -> st_t1 st < p_stop_time p + p_fixed_dt p)) (steps_of evs)
  /\ (0 < p_stop_time p -> s = Finished -> (p_max_step p < 0)%Z ->
        p_stop_time p - stop_eps <= snd (last (marks (steps_of evs)) (idx, t))).
Proof.
  intros Had Hdl Hr. apply is_run_inv in Hr.
  destruct Hr as [(-> & ->) | (g & c & ev & evs' & He & <- & <- & Hev & Hst)].
  - cbn. split; [exact Logic.I|]. split; [constructor|]. discriminate.
  - destruct (evolve_time_fixed _ _ _ _ _ _ _ _ Had Hdl He) as (A & B & _ & C & _).
    rewrite Hst. split; [exact A|]. split; [exact B|]. intros Hs Hf Hm.
    rewrite <- (evolve_last _ _ _ _ _ _ _ _ He Hf). apply C; auto.
Qed.

Lemma run_terminates_max_step sq p idx t inp s cf evs :
  (0 <= p_max_step p)%Z ->
  is_run sq p idx t inp (s, cf, evs) ->
  (Z.of_nat (length (steps_of evs)) <= Z.max 0 (p_max_step p - idx))%Z
  /\ ((Z.max 0 (p_max_step p - idx) < Z.of_nat (length inp))%Z -> s <> Running).
Proof.
  intros Hm Hr. apply is_run_inv in Hr.
  destruct Hr as [(-> & ->) | (g & c & ev & evs' & He & <- & <- & Hev & Hst)].
  - cbn [steps_of length]. split; [lia | discriminate].
  - rewrite Hst. eapply evolve_terminates_max_step; eauto.
Qed.

Lemma run_terminates_fixed sq p idx t inp s cf evs :
  adaptive p = false -> p_delay_time p <= t -> 0 < p_stop_time p ->
  is_run sq p idx t inp (s, cf, evs) ->
  (steps_of evs <> [] ->
        inject_Z (Z.of_nat (length (steps_of evs)) - 1) * p_fixed_dt p < p_stop_time p - t)
  /\ (inp <> [] ->
        p_stop_time p - t <= inject_Z (Z.of_nat (length inp) - 1) * p_fixed_dt p -> s <> Running).
Proof.
  intros Had Hdl Hs Hr. apply is_run_inv in Hr.
  destruct Hr as [(-> & ->) | (g & c & ev & evs' & He & <- & <- & Hev & Hst)].
  - split; [intro K; exfalso; apply K; reflexivity | discriminate].
  - rewrite Hst. destruct (evolve_time_fixed _ _ _ _ _ _ _ _ Had Hdl He) as (_ & _ & A & _ & B). auto.
Qed.

Lemma run_terminates_adaptive sq p idx t inp m s cf evs :
  inputs_ok p -> adaptive p = true -> p_delay_time p <= t ->
  0 < p_stop_time p -> t <= p_stop_time p ->
  0 < m -> m <= p_min_dt p -> enforce_floor p m ->
  is_run sq p idx t inp (s, cf, evs) ->
  (steps_of evs <> [] ->
     inject_Z (Z.of_nat (length (steps_of evs)) - 1) * m < p_stop_time p - t)
  /\ (inp <> [] -> p_stop_time p - t <= inject_Z (Z.of_nat (length inp) - 1) * m -> s <> Running).
Proof.
  intros Hok Had Hdl Hs Ht Hm Hmm Hfl Hr. apply is_run_inv in Hr.
  destruct Hr as [(-> & ->) | (g & c & ev & evs' & He & <- & <- & Hev & Hst)].
  - split; [intro K; exfalso; apply K; reflexivity | discriminate].
  - rewrite Hst. eapply evolve_terminates_adaptive; eauto.
Qed.

Lemma run_step_limits sq p idx t inp s cf evs :
  inputs_ok p -> adaptive p = true -> p_delay_time p <= t ->
  is_run sq p idx t inp (s, cf, evs) ->
  growth_limited (1 + p_growth p) (steps_of evs)
  /\ Forall (fun st =>
       0 < st_dt st
       /\ (0 < p_max_dt p -> st_dt st <= p_max_dt p)
       /\ (p_initial_dt p * eps <= 2 * p_cfl p -> st_cfl st <= p_cfl p)
       /\ (0 < p_min_dt p -> p_min_dt p <= st_dt st \/ ends_at_target p (st_t1 st))) (steps_of evs).
Proof.
  intros Hok Had Hdl Hr. apply is_run_inv in Hr.
  destruct Hr as [(-> & ->) | (g & c & ev & evs' & He & <- & <- & Hev & Hst)].
  - split; [exact Logic.I | constructor].
  - rewrite Hst.
    destruct (evolve_adaptive _ _ _ _ _ _ _ _ Hok Had Hdl He) as (cs & A & B & _).
    split; [rewrite A; eapply chain_growth; exact B|].
    assert (F1 : Forall (fun st => 0 < st_dt st
       /\ (0 < p_max_dt p -> st_dt st <= p_max_dt p)
       /\ (p_initial_dt p * eps <= 2 * p_cfl p -> st_cfl st <= p_cfl p)) (steps_of evs')).
    { rewrite A. eapply chain_forall; [|exact B].
      intros x y (P1 & P2 & P3 & P4 & P5 & P6 & P7 & P8 & _). cbn. auto. }
    destruct (Qlt_le_dec 0 (p_min_dt p)) as [L|L].
    + assert (F2 := evolve_min_dt _ _ _ _ _ _ _ _ Hok Had Hdl L He).
      rewrite Forall_forall in F1, F2 |- *. intros st Hin. destruct (F1 st Hin) as (X & Y & Z).
      specialize (F2 st Hin). auto.
    + rewrite Forall_forall in F1 |- *. intros st Hin. destruct (F1 st Hin) as (X & Y & Z).
      split; [exact X|]. split; [exact Y|]. split; [exact Z|]. intro; lra.
Qed.


Lemma run_enforced sq p idx t inp s cf evs :
  inputs_ok p -> adaptive p = true -> p_delay_time p <= t ->
  is_run sq p idx t inp (s, cf, evs) ->
  forall iv tol dl, enforced p iv tol dl ->
  Forall (fun st => st_t1 st < dl \/ forall k : Z, st_t0 st + tol * iv < inject_Z k * iv -> st_t1 st <= inject_Z k * iv)
    (steps_of evs)
  /\ (forall k : Z, dl <= inject_Z k * iv - tol * iv -> t < inject_Z k * iv - tol * iv ->
      inject_Z k * iv - tol * iv <= snd (last (marks (steps_of evs)) (idx, t)) ->
      exists st, In st (steps_of evs) /\ inject_Z k * iv - tol * iv <= st_t1 st /\ st_t1 st <= inject_Z k * iv).
Proof.
  intros Hok Had Hdl Hr iv tol dl Hen. assert (Hr' := Hr). apply is_run_inv in Hr.
  destruct Hr as [(-> & ->) | (g & c & ev & evs' & He & <- & <- & Hev & Hst)].
  - split; [constructor|]. cbn. intros. lra.
  - rewrite Hst. assert (F := evolve_enforced _ _ _ _ _ _ _ _ Hok Had Hdl He iv tol dl Hen).
    split; [exact F|]. intros k Hk1 Hk2 Hk3.
    destruct (evolve_adaptive _ _ _ _ _ _ _ _ Hok Had Hdl He) as (cs & A & B & _).
    assert (Hiv : 0 < iv) by apply Hen.
    assert (Htol : 0 <= tol).
    { destruct Hok as (_ & _ & _ & Oc & Op & Oq).
      destruct Hen as (_ & [(Hon & _ & -> & _) | [(Hon & _ & -> & _) | (q & Hin & Hon & _ & -> & _)]]); auto. }
    eapply hits_of_steps with (dl := dl); eauto.
    + rewrite A. eapply chain_chained; exact B.
    + rewrite A. eapply chain_forall; [|exact B]. intros x y (_ & _ & _ & P4 & _). exact P4.
Qed.

(** ** Files *)

Lemma sched_dec o si i : (0 < o_interval o)%Z -> sched o si i \/ ~ sched o si i.
Proof.
  intro H. unfold sched. destruct (Z_le_gt_dec (o_delay o) i); [|right; intros [? _]; lia].
  destruct (Zdivide_dec (o_interval o) (i - si)); [left; auto|right; tauto].
Qed.

Lemma in_last {A} (l : list A) d : In (last l d) (d :: l).
Proof.
  destruct l as [|a l]; [left; reflexivity|]. right. apply last_in. discriminate.
Qed.

(** [fin]: the (index, time) the run ends at. *)
Lemma run_plots_fresh sq p init inp s cf evs :
  (0 < o_interval (p_plt p))%Z -> o_tinterval (p_plt p) <= 0 ->
  run_fresh sq p init inp = (s, cf, evs) -> s <> Aborted ->
  let si := odef (o_start (p_plt p)) 0%Z in
  let states := (0%Z, 0) :: marks (steps_of evs) in
  (forall i t, In (i, t) (plots_of evs) <->
     (In (i, t) states /\ sched (p_plt p) si i)
     \/ (s = Finished /\ (i, t) = last states (0%Z, 0) /\ ~ (o_interval (p_plt p) | i - si)%Z))
  /\ NoDup (map fst (plots_of evs)).
Proof.
  intros Hi Ht Hr Hna si states. apply run_fresh_inv in Hr.
  destruct Hr as [(-> & _) | (c1 & ev & evs' & Hin & He & -> & Hn & Hx & Hs & Hst)]; [congruence|].
  apply initialise_inv in Hin. destruct Hin as (_ & _ & _ & _ & Hp & _).
  destruct (plot_schedule _ _ _ _ _ _ _ _ Hi Ht He) as [P1 P2].
  rewrite Hn, Hx in P1. change (g_plt_start (fresh_origin p)) with si in *.
  assert (Elast : last states (0%Z, 0) = last (marks (steps_of evs')) (0%Z, 0)).
  { unfold states. rewrite Hst, last_cons. reflexivity. }
  rewrite Elast. unfold states. rewrite Hst, plots_of_app, Hp.
  assert (W : write_plot_file p (fresh_origin p) c1 = true <-> sched (p_plt p) si 0).
  { unfold write_plot_file. rewrite write_file_steps by assumption. rewrite Hx. reflexivity. }
  destruct (evolve_trace _ _ _ _ _ _ _ _ He) as (cs & E1 & E2 & E3 & E4).
  assert (HP : forall a b : clock, (k_idx b = (k_idx a + 1)%Z /\ k_cur b = k_new a) -> k_idx b = (k_idx a + 1)%Z) by tauto.
  assert (Lt := chain_idx_lt _ _ _ _ _ HP E4). rewrite Hx in Lt.
  assert (M0 : mark c1 = (0%Z, 0)) by (unfold mark; rewrite Hx, Hn; reflexivity).
  split.
  - intros i t. rewrite in_app_iff, P1. unfold sel_mark. rewrite M0.
    destruct (write_plot_file p (fresh_origin p) c1) eqn:Ew.
    + assert (W1 := proj1 W eq_refl). cbn [In]. split.
      * intros [[H|[]]|[H|H]]; [|left; tauto|right; tauto].
        left. inversion H; subst. auto.
      * intros [[[H|H] K]|H]; [left; left; exact H | right; left; auto | right; right; exact H].
    + cbn [In]. split.
      * intros [[]|[H|H]]; [left; tauto | right; exact H].
      * intros [[[H|H] K]|H]; [|right; left; auto|right; right; exact H].
        inversion H; subst. apply W in K. discriminate.
  - rewrite map_app. unfold sel_mark. rewrite M0.
    destruct (write_plot_file p (fresh_origin p) c1) eqn:Ew; [|exact P2].
    cbn [map app fst]. constructor; [|exact P2].
    intro Hin. apply in_map_iff in Hin. destruct Hin as ((i & t) & Hm & Hin). cbn in Hm. subst i.
    apply P1 in Hin. assert (W1 := proj1 W eq_refl). destruct Hin as [[Hin _]|(_ & _ & Hnd)].
    + unfold marks in Hin. rewrite E2, map_step_mark in Hin. apply in_map_iff in Hin.
      destruct Hin as (x & Hm & Hin). rewrite Forall_forall in Lt. specialize (Lt x Hin).
      unfold mark in Hm. inversion Hm. lia.
    + apply Hnd. apply W1.
Qed.

Lemma run_chks_fresh sq p init inp s cf evs :
  (0 < o_interval (p_chk p))%Z -> o_tinterval (p_chk p) <= 0 ->
  run_fresh sq p init inp = (s, cf, evs) -> s <> Aborted ->
  let si := odef (o_start (p_chk p)) 0%Z in
  let states := (0%Z, 0) :: marks (steps_of evs) in
  (forall i t, In (i, t) (chks_of evs) <->
     (In (i, t) states /\ sched (p_chk p) si i)
     \/ (s = Finished /\ (i, t) = last states (0%Z, 0) /\ ~ (o_interval (p_chk p) | i - si)%Z))
  /\ NoDup (map fst (chks_of evs)).
Proof.
  intros Hi Ht Hr Hna si states. apply run_fresh_inv in Hr.
  destruct Hr as [(-> & _) | (c1 & ev & evs' & Hin & He & -> & Hn & Hx & Hs & Hst)]; [congruence|].
  apply initialise_inv in Hin. destruct Hin as (_ & _ & _ & _ & _ & Hp & _).
  destruct (chk_schedule _ _ _ _ _ _ _ _ Hi Ht He) as [P1 P2].
  rewrite Hn, Hx in P1. change (g_chk_start (fresh_origin p)) with si in *.
  assert (Elast : last states (0%Z, 0) = last (marks (steps_of evs')) (0%Z, 0)).
  { unfold states. rewrite Hst, last_cons. reflexivity. }
  rewrite Elast. unfold states. rewrite Hst, chks_of_app, Hp.
  assert (W : write_checkpoint p (fresh_origin p) c1 = true <-> sched (p_chk p) si 0).
  { unfold write_checkpoint. rewrite write_file_steps by assumption. rewrite Hx. reflexivity. }
  destruct (evolve_trace _ _ _ _ _ _ _ _ He) as (cs & E1 & E2 & E3 & E4).
  assert (HP : forall a b : clock, (k_idx b = (k_idx a + 1)%Z /\ k_cur b = k_new a) -> k_idx b = (k_idx a + 1)%Z) by tauto.
  assert (Lt := chain_idx_lt _ _ _ _ _ HP E4). rewrite Hx in Lt.
  assert (M0 : mark c1 = (0%Z, 0)) by (unfold mark; rewrite Hx, Hn; reflexivity).
  split.
  - intros i t. rewrite in_app_iff, P1. unfold sel_mark. rewrite M0.
    destruct (write_checkpoint p (fresh_origin p) c1) eqn:Ew.
    + assert (W1 := proj1 W eq_refl). cbn [In]. split.
      * intros [[H|[]]|[H|H]]; [|left; tauto|right; tauto].
        left. inversion H; subst. auto.
      * intros [[[H|H] K]|H]; [left; left; exact H | right; left; auto | right; right; exact H].
    + cbn [In]. split.
      * intros [[]|[H|H]]; [left; tauto | right; exact H].
      * intros [[[H|H] K]|H]; [|right; left; auto|right; right; exact H].
        inversion H; subst. apply W in K. discriminate.
  - rewrite map_app. unfold sel_mark. rewrite M0.
    destruct (write_checkpoint p (fresh_origin p) c1) eqn:Ew; [|exact P2].
    cbn [map app fst]. constructor; [|exact P2].
    intro Hin. apply in_map_iff in Hin. destruct Hin as ((i & t) & Hm & Hin). cbn in Hm. subst i.
    apply P1 in Hin. assert (W1 := proj1 W eq_refl). destruct Hin as [[Hin _]|(_ & _ & Hnd)].
    + unfold marks in Hin. rewrite E2, map_step_mark in Hin. apply in_map_iff in Hin.
      destruct Hin as (x & Hm & Hin). rewrite Forall_forall in Lt. specialize (Lt x Hin).
      unfold mark in Hm. inversion Hm. lia.
    + apply Hnd. apply W1.
Qed.

Lemma run_plots_restart sq p idx t0 d1 d2 inp s cf evs :
  (0 < o_interval (p_plt p))%Z -> o_tinterval (p_plt p) <= 0 ->
  run_restart sq p idx t0 d1 d2 inp = (s, cf, evs) ->
  let si := odef (o_start (p_plt p)) idx in
  (forall i t, In (i, t) (plots_of evs) <->
     (In (i, t) (marks (steps_of evs)) /\ sched (p_plt p) si i)
     \/ (s = Finished /\ (i, t) = last (marks (steps_of evs)) (idx, t0) /\ ~ (o_interval (p_plt p) | i - si)%Z))
  /\ NoDup (map fst (plots_of evs)).
Proof.
  intros Hi Ht Hr si. apply run_restart_inv in Hr.
  destruct Hr as [(-> & ->) | (evs' & He & -> & Hst)].
  - cbn. split; [|constructor]. intros i t. split; [intros []|]. intros [[[] _]|(? & _)]. discriminate.
  - destruct (plot_schedule _ _ _ _ _ _ _ _ Hi Ht He) as [P1 P2].
    rewrite Hst, plots_of_app, plots_post_events. cbn [app]. split; [exact P1 | exact P2].
Qed.

Lemma run_chks_restart sq p idx t0 d1 d2 inp s cf evs :
  (0 < o_interval (p_chk p))%Z -> o_tinterval (p_chk p) <= 0 ->
  run_restart sq p idx t0 d1 d2 inp = (s, cf, evs) ->
  let si := odef (o_start (p_chk p)) idx in
  (forall i t, In (i, t) (chks_of evs) <->
     (In (i, t) (marks (steps_of evs)) /\ sched (p_chk p) si i)
     \/ (s = Finished /\ (i, t) = last (marks (steps_of evs)) (idx, t0) /\ ~ (o_interval (p_chk p) | i - si)%Z))
  /\ NoDup (map fst (chks_of evs)).
Proof.
  intros Hi Ht Hr si. apply run_restart_inv in Hr.
  destruct Hr as [(-> & ->) | (evs' & He & -> & Hst)].
  - cbn. split; [|constructor]. intros i t. split; [intros []|]. intros [[[] _]|(? & _)]. discriminate.
  - destruct (chk_schedule _ _ _ _ _ _ _ _ Hi Ht He) as [P1 P2].
    rewrite Hst, chks_of_app, chks_post_events. cbn [app]. split; [exact P1 | exact P2].
Qed.

(** The last state is written (once), provided the delay has passed. *)
Lemma last_state_written_fresh sq p init inp cf evs :
  (0 < o_interval (p_plt p))%Z -> o_tinterval (p_plt p) <= 0 ->
  run_fresh sq p init inp = (Finished, cf, evs) ->
  let fin := last ((0%Z, 0) :: marks (steps_of evs)) (0%Z, 0) in
  (o_delay (p_plt p) <= fst fin)%Z -> In fin (plots_of evs).
Proof.
  intros Hi Ht Hr fin Hd.
  destruct (run_plots_fresh _ _ _ _ _ _ _ Hi Ht Hr) as [P _]; [discriminate|].
  destruct fin as [i t] eqn:E. apply P. cbn in Hd.
  destruct (Zdivide_dec (o_interval (p_plt p)) (i - odef (o_start (p_plt p)) 0%Z)) as [D|D].
  - left. split; [|split; assumption]. rewrite <- E. unfold fin. rewrite last_cons. apply in_last.
  - right. split; [reflexivity|]. split; [symmetry; exact E | exact D].
Qed.

Lemma last_chk_written_fresh sq p init inp cf evs :
  (0 < o_interval (p_chk p))%Z -> o_tinterval (p_chk p) <= 0 ->
  run_fresh sq p init inp = (Finished, cf, evs) ->
  let fin := last ((0%Z, 0) :: marks (steps_of evs)) (0%Z, 0) in
  (o_delay (p_chk p) <= fst fin)%Z -> In fin (chks_of evs).
Proof.
  intros Hi Ht Hr fin Hd.
  destruct (run_chks_fresh _ _ _ _ _ _ _ Hi Ht Hr) as [P _]; [discriminate|].
  destruct fin as [i t] eqn:E. apply P. cbn in Hd.
  destruct (Zdivide_dec (o_interval (p_chk p)) (i - odef (o_start (p_chk p)) 0%Z)) as [D|D].
  - left. split; [|split; assumption]. rewrite <- E. unfold fin. rewrite last_cons. apply in_last.
  - right. split; [reflexivity|]. split; [symmetry; exact E | exact D].
Qed.

(** ** Regrid *)

Lemma run_regrids sq p idx t inp s cf evs :
  is_run sq p idx t inp (s, cf, evs) ->
  let rs := odef (p_regrid_start p) idx in
  forall i, In i (regrids_of evs) <->
    In i (map st_idx (steps_of evs)) /\ (0 < p_regrid_interval p)%Z
    /\ exists k, (0 < k)%Z /\ (i - rs = k * p_regrid_interval p)%Z.
Proof.
  intros [(-> & -> & init & H) | (d1 & d2 & H)] rs i.
  - apply run_fresh_inv in H. destruct H as [(-> & ->)|(c1 & ev & evs' & H1 & H2 & -> & H4 & H5 & H6 & H7)].
    + cbn. split; [intros []|intros [[] _]].
    + apply initialise_inv in H1. destruct H1 as (_ & _ & _ & _ & _ & _ & H1 & _).
      rewrite regrids_of_app, H1, H7. cbn [app]. apply (regrid_schedule _ _ _ _ _ _ _ _ H2 i).
  - apply run_restart_inv in H. destruct H as [(-> & ->)|(evs' & H1 & -> & H3)].
    + cbn. split; [intros []|intros [[] _]].
    + rewrite regrids_of_app, regrids_post_events, H3. cbn [app].
      apply (regrid_schedule _ _ _ _ _ _ _ _ H1 i).
Qed.

(** ** Post-processing *)

Lemma post_face_neg p g q c : k_dt0 c <= 0 -> (q_interval q <= 0)%Z -> post_now p g c q = false.
Proof.
  intros Hd Hi. unfold post_now, do_output_now.
  assert (E : (0 <? q_interval q)%Z = false) by lia. rewrite E. cbn [andb orb].
  destruct (Qltb 0 (q_tinterval q)) eqn:Et; [|reflexivity]. qprop. cbn [andb].
  match goal with |- _ && Qltb (?x - qfloor (?y / ?D) * ?D2) ?d = _ =>
    assert (K : Qltb (x - qfloor (y / D) * D2) d = false); [|rewrite K; apply andb_false_r] end.
  apply Qltb_false.
  set (x := k_new c - _ + _). assert (F := qfloor_le (x / q_tinterval q)).
  assert (E2 : x / q_tinterval q * q_tinterval q == x) by (field; lra).
  assert (F2 : qfloor (x / q_tinterval q) * q_tinterval q <= x / q_tinterval q * q_tinterval q)
    by (apply Qmult_le_compat_r; lra). lra.
Qed.

Lemma post_step_face p g q a b :
  k_idx a = k_idx b -> (0 < q_interval q)%Z -> q_tinterval q <= 0 -> post_now p g a q = post_now p g b q.
Proof.
  intros E Hi Ht. unfold post_now, do_output_now.
  assert (K : Qltb 0 (q_tinterval q) = false) by (apply Qltb_false; exact Ht).
  rewrite K, E. cbn [andb]. reflexivity.
Qed.
