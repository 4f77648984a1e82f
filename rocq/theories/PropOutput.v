(** C05-C08, C43, C47: output, restart, dry-run and regrid schedules. *)
From Verif Require Import BaseFacts SimTime SimTimeSpec SimTimeProofs SimTimeProofs2 SimTimeProofs3
  SimTimeProofs4 SimTimeProofs5 SimTimeProofs6 SimTimeProofs7.
Local Open Scope Q_scope.

(** Constant "square root": the examples below need no source term. *)
Definition sq0 (x : Q) : Q := 0.
Definition cflow (u : Q) : cfl_in := {| i_conv := u; i_diff := 0; i_src := 0 |}.

Definition nofile : outspec := {|
  o_interval := -1; o_tinterval := -1 # 1; o_delay := 0; o_tdelay := 0; o_force := false;
  o_ttol := 1 # 100; o_ftol := 1 # 1000; o_start := None; o_start_time := None |}.
Definition every (n d : Z) : outspec := {|
  o_interval := n; o_tinterval := -1 # 1; o_delay := d; o_tdelay := 0; o_force := false;
  o_ttol := 1 # 100; o_ftol := 1 # 1000; o_start := None; o_start_time := None |}.
Definition every_t (D : Q) : outspec := {|
  o_interval := -1; o_tinterval := D; o_delay := 0; o_tdelay := 0; o_force := false;
  o_ttol := 1 # 100; o_ftol := 1 # 1000; o_start := None; o_start_time := None |}.
Definition mk (fixed : Q) (steps regrid : Z) (plt chk : outspec) (post : list postspec) : params := {|
  p_stop_time := -1 # 1; p_max_step := steps; p_delay_time := 0; p_fixed_dt := fixed; p_initial_dt := -1 # 1;
  p_max_dt := -1 # 1; p_min_dt := -1 # 1; p_init_shrink := 1 # 10; p_growth := 1 # 10; p_cfl := 1 # 2;
  p_regrid_interval := regrid; p_regrid_start := None; p_plt := plt; p_chk := chk; p_post := post |}.

(** ** C05 *)

(** A fresh run writes a plot file for the states (step index, time) on the
    schedule - the initial state included - and the last state if it is not on the
    interval; no state twice. *)
Theorem c05_plot_schedule_fresh sq p init inp s cf evs :
  (0 < o_interval (p_plt p))%Z -> o_tinterval (p_plt p) <= 0 ->
  run_fresh sq p init inp = (s, cf, evs) -> s <> Aborted ->
  let si := odef (o_start (p_plt p)) 0%Z in
  let states := (0%Z, 0) :: marks (steps_of evs) in
  (forall i t, In (i, t) (plots_of evs) <->
     (In (i, t) states /\ sched (p_plt p) si i)
     \/ (s = Finished /\ (i, t) = last states (0%Z, 0) /\ ~ (o_interval (p_plt p) | i - si)%Z))
  /\ NoDup (map fst (plots_of evs)).
Proof. exact (run_plots_fresh sq p init inp s cf evs). Qed.
Print Assumptions c05_plot_schedule_fresh.

Theorem c05_checkpoint_schedule_fresh sq p init inp s cf evs :
  (0 < o_interval (p_chk p))%Z -> o_tinterval (p_chk p) <= 0 ->
  run_fresh sq p init inp = (s, cf, evs) -> s <> Aborted ->
  let si := odef (o_start (p_chk p)) 0%Z in
  let states := (0%Z, 0) :: marks (steps_of evs) in
  (forall i t, In (i, t) (chks_of evs) <->
     (In (i, t) states /\ sched (p_chk p) si i)
     \/ (s = Finished /\ (i, t) = last states (0%Z, 0) /\ ~ (o_interval (p_chk p) | i - si)%Z))
  /\ NoDup (map fst (chks_of evs)).
Proof. exact (run_chks_fresh sq p init inp s cf evs). Qed.
Print Assumptions c05_checkpoint_schedule_fresh.

Theorem c05_plot_schedule_restart sq p idx t0 d1 d2 inp s cf evs :
  (0 < o_interval (p_plt p))%Z -> o_tinterval (p_plt p) <= 0 ->
  run_restart sq p idx t0 d1 d2 inp = (s, cf, evs) ->
  let si := odef (o_start (p_plt p)) idx in
  (forall i t, In (i, t) (plots_of evs) <->
     (In (i, t) (marks (steps_of evs)) /\ sched (p_plt p) si i)
     \/ (s = Finished /\ (i, t) = last (marks (steps_of evs)) (idx, t0) /\ ~ (o_interval (p_plt p) | i - si)%Z))
  /\ NoDup (map fst (plots_of evs)).
Proof. exact (run_plots_restart sq p idx t0 d1 d2 inp s cf evs). Qed.
Print Assumptions c05_plot_schedule_restart.

Theorem c05_checkpoint_schedule_restart sq p idx t0 d1 d2 inp s cf evs :
  (0 < o_interval (p_chk p))%Z -> o_tinterval (p_chk p) <= 0 ->
  run_restart sq p idx t0 d1 d2 inp = (s, cf, evs) ->
  let si := odef (o_start (p_chk p)) idx in
  (forall i t, In (i, t) (chks_of evs) <->
     (In (i, t) (marks (steps_of evs)) /\ sched (p_chk p) si i)
     \/ (s = Finished /\ (i, t) = last (marks (steps_of evs)) (idx, t0) /\ ~ (o_interval (p_chk p) | i - si)%Z))
  /\ NoDup (map fst (chks_of evs)).
Proof. exact (run_chks_restart sq p idx t0 d1 d2 inp s cf evs). Qed.
Print Assumptions c05_checkpoint_schedule_restart.

(** The final state is on disk (by NoDup above: once) when the run got past the
    output delay. *)
Theorem c05_final_state_written_partial sq p init inp cf evs :
  (0 < o_interval (p_plt p))%Z -> o_tinterval (p_plt p) <= 0 ->
  (0 < o_interval (p_chk p))%Z -> o_tinterval (p_chk p) <= 0 ->
  run_fresh sq p init inp = (Finished, cf, evs) ->
  let fin := last ((0%Z, 0) :: marks (steps_of evs)) (0%Z, 0) in
  ((o_delay (p_plt p) <= fst fin)%Z -> In fin (plots_of evs))
  /\ ((o_delay (p_chk p) <= fst fin)%Z -> In fin (chks_of evs)).
Proof.
  intros A B C D H fin. split.
  - exact (last_state_written_fresh sq p init inp cf evs A B H).
  - exact (last_chk_written_fresh sq p init inp cf evs C D H).
Qed.
Print Assumptions c05_final_state_written_partial.

(** Without the delay hypothesis it is false: with plot_delay beyond the last step
    and the last step on the interval, no plot file is written at all, although a
    last step off the interval is. *)
Theorem c05_final_state_written_refuted :
  (exists p inp, let '(s, cf, evs) := run_fresh sq0 p None inp in
     s = Finished /\ (0 < o_interval (p_plt p))%Z /\ steps_of evs <> [] /\ plots_of evs = [])
  /\ (let '(s, cf, evs) := run_fresh sq0 (mk (1#2) 5 (-1) (every 4 10) nofile []) None (repeat (cflow 1) 9) in
      s = Finished /\ map fst (plots_of evs) = [5%Z]).
Proof.
  split.
  - exists (mk (1#2) 4 (-1) (every 4 10) nofile []), (repeat (cflow 1) 9).
    vm_compute. repeat split; discriminate.
  - vm_compute. split; reflexivity.
Qed.
Print Assumptions c05_final_state_written_refuted.

Example c05_example :
  let '(s, cf, evs) := run_fresh sq0 (mk (1#2) 7 (-1) (every 3 0) (every 2 3) []) None (repeat (cflow 1) 9) in
  s = Finished /\ map fst (plots_of evs) = [0; 3; 6; 7]%Z /\ map fst (chks_of evs) = [4; 6; 7]%Z.
Proof. vm_compute. repeat split. Qed.

(** ** C06 *)

(** Restarting from any checkpoint of a fresh run continues its steps: index, times,
    step sizes, CFL numbers and the way the run ends - for fixed_dt always, for
    adaptive stepping when the first step after the checkpoint is limited by the
    flow's CFL number rather than by max_dt_growth.  The restarted run sees the
    same flow ([skipn]).  Missing: adaptive runs whose first step is limited by
    growth, see the refutation. *)
Theorem c06_restart_continues_partial sq p init inp s cf evs i t d d1 d2 s' cf' evs' d1' d2' :
  run_fresh sq p init inp = (s, cf, evs) -> In (EChk i t d d1 d2) evs ->
  (adaptive p = false \/
   match skipn (Z.to_nat i) inp with
   | [] => True
   | x :: _ => 2 * p_cfl p / qmax (cfl_unit sq x) eps <= (1 + p_growth p) * d /\ eps <= cfl_unit sq x
   end) ->
  run_restart sq p i t d1' d2' (skipn (Z.to_nat i) inp) = (s', cf', evs') ->
  s' = s /\ steps_of evs' = skipn (Z.to_nat i) (steps_of evs).
Proof. exact (run_restart_same sq p init inp s cf evs i t d d1 d2 s' cf' evs' d1' d2'). Qed.
Print Assumptions c06_restart_continues_partial.

Example c06_example :
  let '(s, cf, evs) := run_fresh sq0 (mk (1#2) 5 (-1) nofile (every 2 0) []) None (repeat (cflow 1) 9) in
  s = Finished /\ chks_of evs <> [] /\ skipn 2 (steps_of evs) <> [] /\
  let '(s', cf', evs') := run_restart sq0 (mk (1#2) 5 (-1) nofile (every 2 0) []) 2 1 0 0 (repeat (cflow 1) 7) in
  s' = Finished /\ map (fun x => (fst x, Qred (snd x))) (marks (steps_of evs')) = [(3%Z, 3 # 2); (4%Z, 2); (5%Z, 5 # 2)]
  /\ map (fun x => (fst x, Qred (snd x))) (skipn 2 (marks (steps_of evs))) = [(3%Z, 3 # 2); (4%Z, 2); (5%Z, 5 # 2)].
Proof. vm_compute. repeat split; discriminate. Qed.

(** The step size read from the checkpoint is never used, so an adaptive run loses
    the growth limit on its first step after a restart. *)
Theorem c06_restart_adaptive_refuted :
  exists p inp,
  let '(s, cf, evs) := run_fresh sq0 p None inp in
  exists t d d1 d2, In (EChk 2 t d d1 d2) evs /\
  let '(s', cf', evs') := run_restart sq0 p 2 t d1 d2 (skipn 2 inp) in
  exists a b, nth_error (steps_of evs) 2 = Some a /\ nth_error (steps_of evs') 0 = Some b
   /\ st_idx a = st_idx b /\ ~ st_dt a == st_dt b /\ (1 + p_growth p) * d < st_dt b.
Proof.
  exists (mk (-1#1) 4 (-1) nofile (every 2 0) []), [cflow 10; cflow 10; cflow 1; cflow 1].
  destruct (run_fresh _ _ _ _) as [[s cf] evs] eqn:E.
  vm_compute in E. inversion E; subst; clear E.
  match goal with |- context [EChk 2 ?t ?a ?b ?c] => exists t, a, b, c end.
  split; [cbn; tauto|].
  destruct (run_restart _ _ _ _ _ _ _) as [[s' cf'] evs'] eqn:E.
  vm_compute in E. inversion E; subst; clear E.
  eexists. eexists. split; [reflexivity|]. split; [reflexivity|]. split; [reflexivity|].
  split; [vm_compute; discriminate|vm_compute; reflexivity].
Qed.
Print Assumptions c06_restart_adaptive_refuted.

(** ** C07 *)

(** Post-processing specifications are what the input parser accepts: step-based
    or time-based, never both. *)
Theorem c07_schedules_exclusive n q : parse_post n = Ret q ->
  (step_based q \/ time_based q) /\ (q_enforce q = true -> 0 < q_tinterval q).
Proof. exact (parse_post_exclusive n q). Qed.
Print Assumptions c07_schedules_exclusive.

(** Every object outputs a state at most once, only states of the run, and with
    output_after_final_step the last one. *)
Theorem c07_post_once_fresh sq p init inp s cf evs k q :
  nth_error (p_post p) k = Some q -> step_based q \/ time_based q -> p_delay_time p <= 0 ->
  run_fresh sq p init inp = (s, cf, evs) ->
  NoDup (map fst (posts_of k evs))
  /\ (forall m, In m (posts_of k evs) -> In m ((0%Z, 0) :: marks (steps_of evs)))
  /\ (s = Finished -> q_final q = true -> steps_of evs <> [] ->
      In (last (marks (steps_of evs)) (0%Z, 0)) (posts_of k evs)).
Proof. exact (run_post_fresh sq p init inp s cf evs k q). Qed.
Print Assumptions c07_post_once_fresh.

Theorem c07_post_once_restart sq p idx t d1 d2 inp s cf evs k q :
  nth_error (p_post p) k = Some q ->
  run_restart sq p idx t d1 d2 inp = (s, cf, evs) ->
  NoDup (map fst (posts_of k evs))
  /\ (forall m, In m (posts_of k evs) -> In m ((idx, t) :: marks (steps_of evs)))
  /\ (s = Finished -> q_final q = true -> In (last (marks (steps_of evs)) (idx, t)) (posts_of k evs)).
Proof. exact (run_post_restart sq p idx t d1 d2 inp s cf evs k q). Qed.
Print Assumptions c07_post_once_restart.

(** Step-based objects: the outputs are precisely those on the schedule plus the
    final state on request. *)
Theorem c07_post_step_schedule sq p idx t inp s cf evs k q :
  nth_error (p_post p) k = Some q -> step_based q -> s <> Aborted ->
  is_run sq p idx t inp (s, cf, evs) ->
  let states := (idx, t) :: marks (steps_of evs) in
  let on i := (q_delay q <= i)%Z /\ (q_interval q | i - post_origin q idx)%Z in
  forall i u, In (i, u) (posts_of k evs) <->
    (In (i, u) states /\ on i)
    \/ (s = Finished /\ q_final q = true /\ (i, u) = last states (idx, t) /\ ~ on i).
Proof. exact (run_post_steps sq p idx t inp s cf evs k q). Qed.
Print Assumptions c07_post_step_schedule.

Definition post_every (n : Z) (final : bool) : postspec := {|
  q_interval := n; q_tinterval := -1 # 1; q_delay := 0; q_tdelay := 0; q_from_restart := false;
  q_start := -1; q_start_time := -1 # 1; q_ttol := 1 # 100; q_ftol := 1 # 1000; q_enforce := false; q_final := final |}.
Definition post_every_t (D : Q) (final : bool) : postspec := {|
  q_interval := -1; q_tinterval := D; q_delay := 0; q_tdelay := 0; q_from_restart := false;
  q_start := -1; q_start_time := -1 # 1; q_ttol := 1 # 100; q_ftol := 1 # 1000; q_enforce := false; q_final := final |}.

Example c07_example :
  let p := mk (1#2) 7 (-1) nofile nofile [post_every 3 true; post_every 4 false; post_every_t 1 true] in
  let '(s, cf, evs) := run_fresh sq0 p None (repeat (cflow 1) 9) in
  s = Finished /\ map fst (posts_of 0 evs) = [0; 3; 6; 7]%Z /\ map fst (posts_of 1 evs) = [0; 4]%Z
  /\ map fst (posts_of 2 evs) = [0; 2; 4; 6; 7]%Z.
Proof. vm_compute. repeat split. Qed.

(** ** C08 *)

(** General step sizes: a step that reaches a multiple writes the file (once the
    delay is over), and a file is written only for such a step, for the initial
    state or for the final state. *)
Theorem c08_plot_times sq p idx t inp s cf evs :
  (o_interval (p_plt p) <= 0)%Z -> 0 < o_tinterval (p_plt p) ->
  is_run sq p idx t inp (s, cf, evs) ->
  let start := odef (o_start_time (p_plt p)) t in
  (forall x, In x (steps_of evs) -> o_tdelay (p_plt p) <= st_t1 x + file_tol p (p_plt p) (st_dt x) ->
     due p (p_plt p) start x -> In (st_idx x, st_t1 x) (plots_of evs))
  /\ (forall i u, In (i, u) (plots_of evs) ->
       (exists x, In x (steps_of evs) /\ (i, u) = (st_idx x, st_t1 x) /\ due p (p_plt p) start x)
       \/ (i, u) = (idx, t)
       \/ (s = Finished /\ (i, u) = last (marks (steps_of evs)) (idx, t))).
Proof.
  intros Hi Ht Hr. exact (run_time_files sq p idx t inp s cf evs (p_plt p) _ plots_of
    (or_introl (conj eq_refl (conj eq_refl eq_refl))) Hi Ht Hr).
Qed.
Print Assumptions c08_plot_times.

Theorem c08_checkpoint_times sq p idx t inp s cf evs :
  (o_interval (p_chk p) <= 0)%Z -> 0 < o_tinterval (p_chk p) ->
  is_run sq p idx t inp (s, cf, evs) ->
  let start := odef (o_start_time (p_chk p)) t in
  (forall x, In x (steps_of evs) -> o_tdelay (p_chk p) <= st_t1 x + file_tol p (p_chk p) (st_dt x) ->
     due p (p_chk p) start x -> In (st_idx x, st_t1 x) (chks_of evs))
  /\ (forall i u, In (i, u) (chks_of evs) ->
       (exists x, In x (steps_of evs) /\ (i, u) = (st_idx x, st_t1 x) /\ due p (p_chk p) start x)
       \/ (i, u) = (idx, t)
       \/ (s = Finished /\ (i, u) = last (marks (steps_of evs)) (idx, t))).
Proof.
  intros Hi Ht Hr. exact (run_time_files sq p idx t inp s cf evs (p_chk p) _ chks_of
    (or_intror (conj eq_refl (conj eq_refl eq_refl))) Hi Ht Hr).
Qed.
Print Assumptions c08_checkpoint_times.

(** With a fixed step size every multiple passed by the run has exactly one step
    that writes it: the step ending in [target - tol, target - tol + dt). *)
Theorem c08_plot_once_fixed_dt_partial sq p idx t inp s cf evs :
  (o_interval (p_plt p) <= 0)%Z -> 0 < o_tinterval (p_plt p) ->
  adaptive p = false -> p_delay_time p <= t ->
  is_run sq p idx t inp (s, cf, evs) ->
  let tol := file_tol p (p_plt p) (p_fixed_dt p) in
  forall k : Z,
  let target := odef (o_start_time (p_plt p)) t + inject_Z k * o_tinterval (p_plt p) in
  o_tdelay (p_plt p) <= target -> t + tol < target ->
  target <= snd (last (marks (steps_of evs)) (idx, t)) + tol ->
  exists x, In x (steps_of evs) /\ In (st_idx x, st_t1 x) (plots_of evs)
    /\ target - tol <= st_t1 x < target - tol + p_fixed_dt p
    /\ forall y, In y (steps_of evs) -> target - tol <= st_t1 y < target - tol + p_fixed_dt p -> y = x.
Proof.
  intros Hi Ht Ha Hd Hr. exact (run_time_files_fixed sq p idx t inp s cf evs (p_plt p) _ plots_of
    (or_introl (conj eq_refl (conj eq_refl eq_refl))) Hi Ht Ha Hd Hr).
Qed.
Print Assumptions c08_plot_once_fixed_dt_partial.

Theorem c08_checkpoint_once_fixed_dt_partial sq p idx t inp s cf evs :
  (o_interval (p_chk p) <= 0)%Z -> 0 < o_tinterval (p_chk p) ->
  adaptive p = false -> p_delay_time p <= t ->
  is_run sq p idx t inp (s, cf, evs) ->
  let tol := file_tol p (p_chk p) (p_fixed_dt p) in
  forall k : Z,
  let target := odef (o_start_time (p_chk p)) t + inject_Z k * o_tinterval (p_chk p) in
  o_tdelay (p_chk p) <= target -> t + tol < target ->
  target <= snd (last (marks (steps_of evs)) (idx, t)) + tol ->
  exists x, In x (steps_of evs) /\ In (st_idx x, st_t1 x) (chks_of evs)
    /\ target - tol <= st_t1 x < target - tol + p_fixed_dt p
    /\ forall y, In y (steps_of evs) -> target - tol <= st_t1 y < target - tol + p_fixed_dt p -> y = x.
Proof.
  intros Hi Ht Ha Hd Hr. exact (run_time_files_fixed sq p idx t inp s cf evs (p_chk p) _ chks_of
    (or_intror (conj eq_refl (conj eq_refl eq_refl))) Hi Ht Ha Hd Hr).
Qed.
Print Assumptions c08_checkpoint_once_fixed_dt_partial.

Theorem c08_post_once_fixed_dt_partial sq p idx t inp s cf evs k q :
  nth_error (p_post p) k = Some q -> time_based q -> adaptive p = false -> p_delay_time p <= t ->
  is_run sq p idx t inp (s, cf, evs) ->
  let tol := post_tol p q (p_fixed_dt p) in
  forall m : Z, let target := post_time_origin q t + inject_Z m * q_tinterval q in
  q_tdelay q <= target -> t + tol < target ->
  target <= snd (last (marks (steps_of evs)) (idx, t)) + tol ->
  exists x, In x (steps_of evs) /\ In (st_idx x, st_t1 x) (posts_of k evs)
    /\ target - tol <= st_t1 x < target - tol + p_fixed_dt p
    /\ forall y, In y (steps_of evs) -> target - tol <= st_t1 y < target - tol + p_fixed_dt p -> y = x.
Proof. exact (run_time_post_fixed sq p idx t inp s cf evs k q). Qed.
Print Assumptions c08_post_once_fixed_dt_partial.

Example c08_example :
  let p := mk (2#10) 10 (-1) (every_t (1#2)) nofile [post_every_t (1#2) false] in
  adaptive p = false /\ (o_interval (p_plt p) <= 0)%Z /\ 0 < o_tinterval (p_plt p)
  /\ let '(s, cf, evs) := run_fresh sq0 p None (repeat (cflow 1) 10) in
     s = Finished /\ map fst (plots_of evs) = [0; 3; 5; 8; 10]%Z
     /\ map fst (posts_of 0 evs) = [0; 3; 5; 8; 10]%Z.
Proof. vm_compute. repeat split; congruence. Qed.

(** Varying steps: the tolerance is a fraction of the current step, so windows of
    neighbouring steps need not match.  A multiple can be missed ... *)
Theorem c08_skipped_refuted :
  exists p inp, (o_interval (p_plt p) <= 0)%Z /\ 0 < o_tinterval (p_plt p)
  /\ let '(s, cf, evs) := run_fresh sq0 p None inp in
     s = Finished
     /\ (forall x, In x (steps_of evs) -> 0 < st_dt x /\ st_dt x < o_tinterval (p_plt p))
     /\ 0 < o_tinterval (p_plt p) < snd (last (marks (steps_of evs)) (0%Z, 0)) - 1
     /\ forall i t, In (i, t) (plots_of evs) ->
          (i, t) = last (marks (steps_of evs)) (0%Z, 0).
Proof.
  exists (mk (-1#1) 3 (-1) (every_t (4021#2000)) nofile []),
    [cflow 1; cflow 1; cflow (10#11)].
  split; [vm_compute; congruence|]. split; [vm_compute; reflexivity|].
  destruct (run_fresh _ _ _ _) as [[s cf] evs] eqn:E.
  vm_compute in E. inversion E; subst; clear E. split; [reflexivity|]. split.
  { intros x Hx. cbn [steps_of] in Hx.
    repeat (destruct Hx as [<-|Hx]; [split; vm_compute; reflexivity|]). destruct Hx. }
  split; [split; vm_compute; reflexivity|].
  intros i t Hx. cbn [plots_of] in Hx.
  repeat (destruct Hx as [<-|Hx]; [vm_compute; reflexivity|]). destruct Hx.
Qed.
Print Assumptions c08_skipped_refuted.

(** ... or output twice. *)
Theorem c08_duplicated_refuted :
  exists p inp, (o_interval (p_plt p) <= 0)%Z /\ 0 < o_tinterval (p_plt p)
  /\ let '(s, cf, evs) := run_fresh sq0 p None inp in
     exists x y, In x (steps_of evs) /\ In y (steps_of evs) /\ st_idx x <> st_idx y
     /\ In (st_idx x, st_t1 x) (plots_of evs) /\ In (st_idx y, st_t1 y) (plots_of evs)
     /\ st_idx y <> fst (last (marks (steps_of evs)) (0%Z, 0))
     /\ 0 < st_t1 x /\ st_t1 x < st_t1 y /\ st_t1 y < 2 * o_tinterval (p_plt p).
Proof.
  exists (mk (-1#1) 3 (-1) (every_t (1005#1000)) nofile []), [cflow 1; cflow 10; cflow 10].
  split; [vm_compute; congruence|]. split; [vm_compute; reflexivity|].
  destruct (run_fresh _ _ _ _) as [[s cf] evs] eqn:E.
  vm_compute in E. inversion E; subst; clear E. cbn [steps_of plots_of marks map].
  do 2 eexists. split; [left; reflexivity|]. split; [right; left; reflexivity|].
  split; [discriminate|]. split; [left; reflexivity|]. split; [right; left; reflexivity|].
  split; [discriminate|]. split; [|split]; vm_compute; reflexivity.
Qed.
Print Assumptions c08_duplicated_refuted.

(** ** C43 *)

(** A dry run never takes a step, from a clean start or from a checkpoint. *)
Theorem c43_dry_run_no_step sq p r inp : steps_of (snd (run_dry sq p r inp)) = [].
Proof. exact (dry_no_step sq p r inp). Qed.
Print Assumptions c43_dry_run_no_step.

(** One plot file, no checkpoint: proved when checkpoints are not requested and the
    plot schedule is a step schedule whose delay has passed. *)
Theorem c43_dry_run_files_partial sq p r inp :
  o_tinterval (p_plt p) <= 0 -> o_force (p_plt p) = false -> o_force (p_chk p) = false ->
  (o_delay (p_plt p) <= fst (dry_state r))%Z ->
  (o_interval (p_chk p) <= 0)%Z -> o_tinterval (p_chk p) <= 0 ->
  let '(s, cf, evs) := run_dry sq p r inp in
  s = Finished /\ plots_of evs = [dry_state r] /\ chks_of evs = [].
Proof. exact (dry_files sq p r inp). Qed.
Print Assumptions c43_dry_run_files_partial.

Example c43_example :
  let p := mk (1#10) 100 (-1) (every 20 0) nofile [] in
  let '(s, cf, evs) := run_dry sq0 p (Some (40%Z, 4, 1#10, 1#10)) [] in
  s = Finished /\ plots_of evs = [(40%Z, 4)] /\ chks_of evs = [].
Proof. vm_compute. repeat split. Qed.

(** The key that should switch checkpoints off is misspelt: a user's
    checkpoint_interval stays in force and the dry run writes a checkpoint. *)
Theorem c43_dry_run_checkpoint_refuted :
  exists p, (0 < o_interval (p_chk p))%Z
  /\ let '(s, cf, evs) := run_dry sq0 p None [] in s = Finished /\ chks_of evs <> [].
Proof. exists (mk (1#10) 100 (-1) (every 20 0) (every 5 0) []). vm_compute. repeat split; discriminate. Qed.
Print Assumptions c43_dry_run_checkpoint_refuted.

(** A user's plot_delay suppresses the plot file, and a plot_time_interval makes the
    dry run abort on conflicting plot intervals. *)
Theorem c43_dry_run_plot_refuted :
  (exists p, let '(s, cf, evs) := run_dry sq0 p None [] in s = Finished /\ plots_of evs = [])
  /\ (exists p, parse_aborts p = false /\ fst (fst (run_dry sq0 p None [])) = Aborted).
Proof.
  split.
  - exists (mk (1#10) 100 (-1) (every 20 10) nofile []). vm_compute. repeat split.
  - exists (mk (1#10) 100 (-1) (every_t (1#2)) nofile []). vm_compute. repeat split.
Qed.
Print Assumptions c43_dry_run_plot_refuted.

(** ** C47 *)

(** Mesh adaptation precedes exactly the steps whose distance from the regrid start
    is a positive multiple of a positive interval. *)
Theorem c47_regrid_schedule sq p idx t inp s cf evs :
  is_run sq p idx t inp (s, cf, evs) ->
  let rs := odef (p_regrid_start p) idx in
  forall i, In i (regrids_of evs) <->
    In i (map st_idx (steps_of evs)) /\ (0 < p_regrid_interval p)%Z
    /\ exists k, (0 < k)%Z /\ (i - rs = k * p_regrid_interval p)%Z.
Proof. exact (run_regrids sq p idx t inp s cf evs). Qed.
Print Assumptions c47_regrid_schedule.

Example c47_example :
  let p := mk (1#10) 9 3 nofile nofile [] in
  regrids_of (snd (run_fresh sq0 p None (repeat (cflow 1) 9))) = [3; 6; 9]%Z
  /\ regrids_of (snd (run_restart sq0 p 2 (2#10) (1#10) (1#10) (repeat (cflow 1) 9))) = [5; 8]%Z.
Proof. vm_compute. repeat split. Qed.
