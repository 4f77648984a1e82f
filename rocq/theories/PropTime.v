(** C01-C04: simulated time, termination, step-size limits, enforced output times. *)
From Verif Require Import BaseFacts SimTime SimTimeSpec SimTimeProofs SimTimeProofs2 SimTimeProofs3
  SimTimeProofs4 SimTimeProofs5 SimTimeProofs8 SimTimeProofs6.
Local Open Scope Q_scope.

(** A square root that is exact on squares of rationals, for the examples. *)
Definition qsqrt (x : Q) : Q := let r := Qred x in Z.sqrt (Qnum r) # Pos.sqrt (Qden r).

Definition no_out : outspec := {|
  o_interval := -1; o_tinterval := -1 # 1; o_delay := 0; o_tdelay := 0; o_force := false;
  o_ttol := 1 # 100; o_ftol := 1 # 1000; o_start := None; o_start_time := None |}.

(** Adaptive run to time 1 with CFL 1/2, plot files every 3/10 enforced. *)
Definition ex_p : params := {|
  p_stop_time := 1; p_max_step := -1; p_delay_time := 0; p_fixed_dt := -1 # 1; p_initial_dt := -1 # 1;
  p_max_dt := 1 # 4; p_min_dt := 1 # 100000; p_init_shrink := 1 # 10; p_growth := 1 # 10; p_cfl := 1 # 2;
  p_regrid_interval := 2; p_regrid_start := None;
  p_plt := {| o_interval := -1; o_tinterval := 3 # 10; o_delay := 0; o_tdelay := 0; o_force := true;
              o_ttol := 1 # 100; o_ftol := 1 # 1000; o_start := None; o_start_time := None |};
  p_chk := no_out; p_post := [] |}.
Definition flow (u : Q) : cfl_in := {| i_conv := u; i_diff := 0; i_src := 0 |}.

(** ** C01 *)

(** Time advances, never passes stop_time, and a run that ends because of
    stop_time ends there (tolerance [stop_eps] = 1e4 machine epsilon). *)
Theorem c01_time_advances_adaptive sq p idx t inp s cf evs :
  inputs_ok p -> adaptive p = true -> p_delay_time p <= t -> 0 < p_stop_time p -> t <= p_stop_time p ->
  is_run sq p idx t inp (s, cf, evs) ->
  chained idx t (steps_of evs)
  /\ Forall (fun st => 0 < st_dt st /\ st_t1 st <= p_stop_time p) (steps_of evs)
  /\ (s = Finished -> (p_max_step p < 0)%Z ->
      p_stop_time p - stop_eps <= snd (last (marks (steps_of evs)) (idx, t))
      /\ snd (last (marks (steps_of evs)) (idx, t)) <= p_stop_time p).
Proof. exact (run_time_adaptive sq p idx t inp s cf evs). Qed.
Print Assumptions c01_time_advances_adaptive.

(** With fixed_dt a run passes stop_time by less than one step. *)
Theorem c01_time_advances_fixed sq p idx t inp s cf evs :
  adaptive p = false -> p_delay_time p <= t ->
  is_run sq p idx t inp (s, cf, evs) ->
  chained idx t (steps_of evs)
  /\ Forall (fun st => st_dt st == p_fixed_dt p
                       /\ (0 < p_stop_time p -> st_t1 st < p_stop_time p + p_fixed_dt p)) (steps_of evs)
  /\ (0 < p_stop_time p -> s = Finished -> (p_max_step p < 0)%Z ->
        p_stop_time p - stop_eps <= snd (last (marks (steps_of evs)) (idx, t))).
Proof. exact (run_time_fixed sq p idx t inp s cf evs). Qed.
Print Assumptions c01_time_advances_fixed.

Example c01_example :
  inputs_ok ex_p /\ adaptive ex_p = true /\
  let '(s, cf, evs) := run_fresh qsqrt ex_p None (repeat (flow 2) 20) in
  s = Finished /\ map (fun st => (st_idx st, Qred (st_t1 st))) (steps_of evs) =
    [(1%Z, 1 # 4); (2%Z, 3 # 10); (3%Z, 71 # 200); (4%Z, 831 # 2000); (5%Z, 9641 # 20000); (6%Z, 111051 # 200000);
     (7%Z, 3 # 5); (8%Z, 1298439 # 2000000); (9%Z, 14067219 # 20000000); (10%Z, 152583309 # 200000000);
     (11%Z, 1656855399 # 2000000000); (12%Z, 9 # 10); (13%Z, 19574590611 # 20000000000); (14%Z, 1)].
Proof.
  split; [|split; [reflexivity|]].
  - unfold inputs_ok. cbn. repeat split; try (vm_compute; congruence); try tauto.
  - vm_compute. split; reflexivity.
Qed.

(** Within the delay_time window the claim is false: with initial_dt unset the
    step taken is -1 and the simulated time goes backwards. *)
Definition delay_p : params := {|
  p_stop_time := 5; p_max_step := 10; p_delay_time := 1; p_fixed_dt := -1 # 1; p_initial_dt := -1 # 1;
  p_max_dt := -1 # 1; p_min_dt := -1 # 1; p_init_shrink := 1 # 10; p_growth := 1 # 10; p_cfl := 1 # 2;
  p_regrid_interval := -1; p_regrid_start := None; p_plt := no_out; p_chk := no_out; p_post := [] |}.

Theorem c01_delay_window_refuted :
  exists p inp, parse_aborts p = false /\
  let '(s, cf, evs) := run_fresh qsqrt p None inp in
  exists st, In st (steps_of evs) /\ st_t1 st < st_t0 st.
Proof.
  exists delay_p, (repeat (flow 2) 2). split; [reflexivity|].
  vm_compute. eexists. split; [left; reflexivity|]. reflexivity.
Qed.
Print Assumptions c01_delay_window_refuted.

(** ** C02 *)

Theorem c02_max_step_bounds_run sq p idx t inp s cf evs :
  (0 <= p_max_step p)%Z ->
  is_run sq p idx t inp (s, cf, evs) ->
  (Z.of_nat (length (steps_of evs)) <= Z.max 0 (p_max_step p - idx))%Z
  /\ ((Z.max 0 (p_max_step p - idx) < Z.of_nat (length inp))%Z -> s <> Running).
Proof. exact (run_terminates_max_step sq p idx t inp s cf evs). Qed.
Print Assumptions c02_max_step_bounds_run.

Theorem c02_fixed_dt_terminates sq p idx t inp s cf evs :
  adaptive p = false -> p_delay_time p <= t -> 0 < p_stop_time p ->
  is_run sq p idx t inp (s, cf, evs) ->
  (steps_of evs <> [] ->
        inject_Z (Z.of_nat (length (steps_of evs)) - 1) * p_fixed_dt p < p_stop_time p - t)
  /\ (inp <> [] ->
        p_stop_time p - t <= inject_Z (Z.of_nat (length inp) - 1) * p_fixed_dt p -> s <> Running).
Proof. exact (run_terminates_fixed sq p idx t inp s cf evs). Qed.
Print Assumptions c02_fixed_dt_terminates.

(** [m]: any positive number below min_dt and below tolerance*interval of the
    enforced outputs.  Then there are fewer than (stop - t)/m + 1 steps. *)
Theorem c02_adaptive_terminates sq p idx t inp m s cf evs :
  inputs_ok p -> adaptive p = true -> p_delay_time p <= t ->
  0 < p_stop_time p -> t <= p_stop_time p ->
  0 < m -> m <= p_min_dt p -> enforce_floor p m ->
  is_run sq p idx t inp (s, cf, evs) ->
  (steps_of evs <> [] ->
     inject_Z (Z.of_nat (length (steps_of evs)) - 1) * m < p_stop_time p - t)
  /\ (inp <> [] -> p_stop_time p - t <= inject_Z (Z.of_nat (length inp) - 1) * m -> s <> Running).
Proof. exact (run_terminates_adaptive sq p idx t inp m s cf evs). Qed.
Print Assumptions c02_adaptive_terminates.

Example c02_example : enforce_floor ex_p (1 # 100000) /\ 1 # 100000 <= p_min_dt ex_p /\
  fst (fst (run_fresh qsqrt ex_p None (repeat (flow 2) 20))) = Finished.
Proof.
  split; [|split; [vm_compute; congruence | vm_compute; reflexivity]].
  unfold enforce_floor. cbn. repeat split; try discriminate; try (vm_compute; congruence); try tauto.
Qed.

(** ** C03 *)

Theorem c03_step_limits sq p idx t inp s cf evs :
  inputs_ok p -> adaptive p = true -> p_delay_time p <= t ->
  is_run sq p idx t inp (s, cf, evs) ->
  growth_limited (1 + p_growth p) (steps_of evs)
  /\ Forall (fun st =>
       0 < st_dt st
       /\ (0 < p_max_dt p -> st_dt st <= p_max_dt p)
       /\ (p_initial_dt p * eps <= 2 * p_cfl p -> st_cfl st <= p_cfl p)
       /\ (0 < p_min_dt p -> p_min_dt p <= st_dt st \/ ends_at_target p (st_t1 st))) (steps_of evs).
Proof. exact (run_step_limits sq p idx t inp s cf evs). Qed.
Print Assumptions c03_step_limits.

(** The CFL number recorded for the n-th step is the one of the flow at that step. *)
Theorem c03_cfl_number sq p idx t inp s cf evs :
  is_run sq p idx t inp (s, cf, evs) ->
  Forall2 (fun st i => st_cfl st == cfl_number sq i (st_dt st))
    (steps_of evs) (firstn (length (steps_of evs)) inp).
Proof. exact (run_cfl_inputs sq p idx t inp s cf evs). Qed.
Print Assumptions c03_cfl_number.

(** Start-up: with initial iterations (flow maxima [i0]) the first step is within the
    growth factor of a step [d] whose CFL number is at most init_shrink * cfl, and
    which respects a positive initial_dt. *)
Theorem c03_first_step sq p i0 inp s cf evs st rest :
  inputs_ok p -> adaptive p = true -> p_delay_time p <= 0 ->
  run_fresh sq p (Some i0) inp = (s, cf, evs) -> steps_of evs = st :: rest ->
  exists d, 0 < d /\ st_dt st <= (1 + p_growth p) * d
    /\ cfl_number sq i0 d <= p_init_shrink p * p_cfl p
    /\ (0 < p_initial_dt p -> d <= p_initial_dt p).
Proof. exact (run_first_step sq p i0 inp s cf evs st rest). Qed.
Print Assumptions c03_first_step.

Example c03_first_step_example :
  let '(s, cf, evs) := run_fresh qsqrt ex_p (Some (flow 2)) [flow 2; flow 2] in
  map (fun st => Qred (st_dt st)) (steps_of evs) = [11 # 400; 121 # 4000].
Proof. vm_compute. reflexivity. Qed.

Example c03_example :
  let '(s, cf, evs) := run_fresh qsqrt ex_p None [flow 2; flow 8; flow 2; flow 1; flow 1] in
  map (fun st => (Qred (st_dt st), Qred (st_cfl st))) (steps_of evs) =
  [(1 # 4, 1 # 2); (1 # 20, 2 # 5); (11 # 200, 11 # 100); (121 # 2000, 121 # 2000); (1331 # 20000, 1331 # 20000)].
Proof. vm_compute. reflexivity. Qed.

(** min_dt is compared with the growth-limited step, so a step that was shortened
    to hit an output time can make the next one abort although the flow's own CFL
    step is far above min_dt. *)
Definition min_p (chk : outspec) : params := {|
  p_stop_time := 10; p_max_step := -1; p_delay_time := 0; p_fixed_dt := -1 # 1; p_initial_dt := -1 # 1;
  p_max_dt := -1 # 1; p_min_dt := 1 # 10; p_init_shrink := 1 # 10; p_growth := 1 # 10; p_cfl := 1 # 2;
  p_regrid_interval := -1; p_regrid_start := None;
  p_plt := {| o_interval := -1; o_tinterval := 51 # 50; o_delay := 0; o_tdelay := 0; o_force := true;
              o_ttol := 1 # 100; o_ftol := 1 # 1000; o_start := None; o_start_time := None |};
  p_chk := chk; p_post := [] |}.

Theorem c03_min_dt_spurious_abort_refuted :
  exists p inp, inputs_ok p /\ adaptive p = true /\ parse_aborts p = false
    /\ (forall i, In i inp -> 10 * p_min_dt p <= 2 * p_cfl p / cfl_unit qsqrt i)
    /\ fst (fst (run_fresh qsqrt p None inp)) = Aborted.
Proof.
  exists (min_p no_out), (repeat (flow (1 # 2)) 3).
  split. { unfold inputs_ok. cbn. repeat split; try (vm_compute; congruence); try tauto. }
  split; [reflexivity|]. split; [reflexivity|]. split; [|vm_compute; reflexivity].
  intros i Hin. cbn in Hin. destruct Hin as [<-|[<-|[<-|[]]]]; vm_compute; congruence.
Qed.
Print Assumptions c03_min_dt_spurious_abort_refuted.

(** ** C04 *)

(** For every enforced output (interval iv, relative tolerance tol, delay dl): a
    step that ends after the delay never crosses a multiple of iv that lies more
    than tol*iv ahead of its start, and every multiple the run gets to (after the
    delay) is the end of a step up to tol*iv - never overshot. *)
Theorem c04_enforced_times_hit sq p idx t inp s cf evs :
  inputs_ok p -> adaptive p = true -> p_delay_time p <= t ->
  is_run sq p idx t inp (s, cf, evs) ->
  forall iv tol dl, enforced p iv tol dl ->
  Forall (fun st => st_t1 st < dl \/ forall k : Z, st_t0 st + tol * iv < inject_Z k * iv -> st_t1 st <= inject_Z k * iv)
    (steps_of evs)
  /\ (forall k : Z, dl <= inject_Z k * iv - tol * iv -> t < inject_Z k * iv - tol * iv ->
      inject_Z k * iv - tol * iv <= snd (last (marks (steps_of evs)) (idx, t)) ->
      exists st, In st (steps_of evs) /\ inject_Z k * iv - tol * iv <= st_t1 st /\ st_t1 st <= inject_Z k * iv).
Proof. exact (run_enforced sq p idx t inp s cf evs). Qed.
Print Assumptions c04_enforced_times_hit.

Example c04_example : enforced ex_p (3 # 10) (1 # 1000) 0.
Proof. split; [vm_compute; reflexivity|]. right; left. cbn. auto. Qed.

(** After a restart at a time that is not a multiple of the interval the plot
    files are due at restart_time + k*interval, while the enforced step ends are
    multiples of the interval counted from 0: enforced plot files are then written
    at times that are neither. *)
Definition enf_p : params := {|
  p_stop_time := 4; p_max_step := -1; p_delay_time := 0; p_fixed_dt := -1 # 1; p_initial_dt := -1 # 1;
  p_max_dt := -1 # 1; p_min_dt := -1 # 1; p_init_shrink := 1 # 10; p_growth := 1 # 10; p_cfl := 1 # 2;
  p_regrid_interval := -1; p_regrid_start := None;
  p_plt := {| o_interval := -1; o_tinterval := 1; o_delay := 0; o_tdelay := 0; o_force := true;
              o_ttol := 1 # 100; o_ftol := 1 # 1000; o_start := None; o_start_time := None |};
  p_chk := no_out; p_post := [] |}.

Lemma off_grid (a t tol : Q) (m : Z) :
  a + inject_Z m + tol < t -> t < a + inject_Z (m + 1) - tol ->
  forall k : Z, ~ (a + inject_Z k - tol <= t /\ t <= a + inject_Z k + tol).
Proof.
  intros H1 H2 k [K1 K2].
  destruct (Z_le_gt_dec k m) as [L|L].
  - rewrite Zle_Qle in L. lra.
  - assert (L2 : (m + 1 <= k)%Z) by lia. rewrite Zle_Qle in L2. lra.
Qed.

Theorem c04_enforced_after_restart_refuted :
  exists p inp, inputs_ok p /\ parse_aborts p = false /\ enforced p 1 (1 # 1000) 0 /\
  exists i t, In (i, t) (plots_of (snd (run_restart qsqrt p 1 (1 # 2) (-1 # 1) (-1 # 1) inp))) /\
    (forall k : Z, ~ (0 + inject_Z k - (1 # 1000) <= t /\ t <= 0 + inject_Z k + (1 # 1000))) /\
    (forall k : Z, ~ ((1 # 2) + inject_Z k - (1 # 1000) <= t /\ t <= (1 # 2) + inject_Z k + (1 # 1000))).
Proof.
  exists enf_p, (repeat (flow (5 # 4)) 6).
  split. { unfold inputs_ok. cbn. repeat split; try (vm_compute; congruence); try tauto. }
  split; [reflexivity|]. split. { split; [reflexivity|]. right; left. cbn. auto. }
  set (l := plots_of _).
  assert (E : exists t, l = [(7%Z, t)] /\ t == 151051 # 100000).
  { eexists. split; [vm_compute; reflexivity|]. vm_compute. reflexivity. }
  destruct E as (t & -> & Et). exists 7%Z, t. split; [left; reflexivity|].
  split; [apply (off_grid _ _ _ 1) | apply (off_grid _ _ _ 1)]; rewrite Et; vm_compute; reflexivity.
Qed.
Print Assumptions c04_enforced_after_restart_refuted.
