(** Model of the time manager (amr-wind/core/SimTime.H, SimTime.cpp), of the
    post-processing schedule (utilities/PostProcessing.H/.cpp) and of the evolve
    loop that drives them (incflo.cpp).

    Reals are exact rationals.  [std::sqrt] is the argument [sq]; nothing is
    assumed about it.  Plot-file and checkpoint code is textually duplicated in
    SimTime.cpp (same expressions over m_plt_* / m_chkpt_* members); the model
    has one function over an [outspec] record and instantiates it twice. *)
From Verif Require Import Base.

(** Output controls of one kind of file.
    core/SimTime.H:239-271, 280-302, 322-326 (members m_plt_..., m_chkpt_...). *)
Record outspec := {
  o_interval : Z;        (* plot_interval / checkpoint_interval *)
  o_tinterval : Q;       (* plot_time_interval / checkpoint_time_interval *)
  o_delay : Z;           (* plot_delay *)
  o_tdelay : Q;          (* plot_time_delay *)
  o_force : bool;        (* enforce_plot_time_dt *)
  o_ttol : Q;            (* plot_time_interval_reltol *)
  o_ftol : Q;            (* enforce_plot_dt_reltol *)
  o_start : option Z;    (* plot_start, if given by the user *)
  o_start_time : option Q (* plot_start_time, if given by the user *)
}.

(** One post-processing object: the protected members of PostProcessBase after
    populate_output_parameters, utilities/PostProcessing.H:190-211. *)
Record postspec := {
  q_interval : Z;
  q_tinterval : Q;
  q_delay : Z;
  q_tdelay : Q;
  q_from_restart : bool;
  q_start : Z;
  q_start_time : Q;
  q_ttol : Q;            (* m_out_time_tol, constant 1e-2 in the code *)
  q_ftol : Q;            (* m_enforce_dt_tol *)
  q_enforce : bool;
  q_final : bool
}.

(** What the input file says about the timing of one post-processing object;
    [None] = key absent.  utilities/PostProcessing.H:61-91. *)
Record post_input := {
  n_interval : option Z;          (* output_interval *)
  n_frequency : option Z;         (* output_frequency (legacy) *)
  n_tinterval : option Q;         (* output_time_interval *)
  n_delay : Z; n_tdelay : Q;
  n_from_restart : bool;
  n_start : option Z; n_start_time : option Q;
  n_enforce : bool; n_ftol : Q; n_final : bool
}.

(** PostProcessBase::populate_output_parameters, PostProcessing.H:59-140;
    defaults PostProcessing.H:190-211; [Abort] is amrex::Abort. *)
Definition parse_post (n : post_input) : outcome postspec :=
  let has_interval := match n_interval n with Some _ => true | None => false end in
  let has_frequency := match n_frequency n with Some _ => true | None => false end in
  let m_int := match n_interval n, n_frequency n with
               | Some i, _ => i | None, Some f => f | None, None => 10%Z end in
  let m_tint := match n_tinterval n with Some d => d | None => -1 # 1 end in
  let valid_int := if has_interval || has_frequency then (0 <? m_int)%Z else true in
  let valid_int_present := if has_interval || has_frequency then (0 <? m_int)%Z else false in
  let valid_tint := match n_tinterval n with Some d => Qltb 0 d | None => false end in
  let conflict := n_from_restart n && (match n_start n, n_start_time n with None, None => false | _, _ => true end) in
  if conflict then Abort
  else if negb (valid_int || valid_tint) then Abort
  else if valid_int_present && valid_tint then Abort
  else if negb valid_tint && n_enforce n then Abort
  else Ret {|
    q_interval := if valid_tint && negb (has_interval || has_frequency) then (-1)%Z else m_int;
    q_tinterval := m_tint;
    q_delay := n_delay n; q_tdelay := n_tdelay n;
    q_from_restart := n_from_restart n;
    q_start := match n_start n with Some i => i | None => (-1)%Z end;
    q_start_time := match n_start_time n with Some t => t | None => -1 # 1 end;
    q_ttol := 1 # 100; q_ftol := n_ftol n;
    q_enforce := n_enforce n; q_final := n_final n |}.

(** User inputs of the "time" namespace plus the list of post-processing
    objects.  core/SimTime.H:200-311, SimTime.cpp:19-53. *)
Record params := {
  p_stop_time : Q;
  p_max_step : Z;
  p_delay_time : Q;
  p_fixed_dt : Q;
  p_initial_dt : Q;
  p_max_dt : Q;
  p_min_dt : Q;
  p_init_shrink : Q;
  p_growth : Q;
  p_cfl : Q;
  p_regrid_interval : Z;
  p_regrid_start : option Z;
  p_plt : outspec;
  p_chk : outspec;
  p_post : list postspec
}.

(** m_adaptive, SimTime.cpp:56-60. *)
Definition adaptive (p : params) : bool := negb (Qltb 0 (p_fixed_dt p)).

(** Consistency checks of one output kind, SimTime.cpp:62-86. *)
Definition outspec_conflict (o : outspec) : bool :=
  ((0 <? o_interval o)%Z && Qltb 0 (o_tinterval o))
  || (Qleb (o_tinterval o) 0 && o_force o).

(** SimTime::parse_parameters: the abort conditions, SimTime.cpp:62-92. *)
Definition parse_aborts (p : params) : bool :=
  outspec_conflict (p_plt p) || outspec_conflict (p_chk p)
  || (negb (adaptive p) && (o_force (p_plt p) || o_force (p_chk p))).

(** SimTime::calculate_minimum_enforce_dt_abs_tol, SimTime.cpp:436-456, after
    all post-processing parameters were added (PostProcessing.cpp:49-57). The
    code runs it twice on an accumulating minimum; min is idempotent, so the
    model computes it once, starting from the initial 1e8 (SimTime.H:265). *)
Definition abs_tol (p : params) : Q :=
  let t0 := inject_Z 100000000 in
  let t1 := if o_force (p_chk p) then qmin t0 (o_ftol (p_chk p) * o_tinterval (p_chk p)) else t0 in
  let t2 := if o_force (p_plt p) then qmin t1 (o_ftol (p_plt p) * o_tinterval (p_plt p)) else t1 in
  fold_left (fun t q => if q_enforce q then qmin t (q_ftol q * q_tinterval q) else t)
            (p_post p) t2.

(** Origins of the schedules: m_start_time, m_start_time_index and the
    per-output start members, SimTime.H:197-198, 267-286. *)
Record origin := {
  g_start_time : Q;
  g_start_idx : Z;
  g_regrid_start : Z;
  g_plt_start : Z;
  g_chk_start : Z;
  g_plt_start_time : Q;
  g_chk_start_time : Q
}.

Definition odef {A} (o : option A) (d : A) : A := match o with Some a => a | None => d end.

(** Mutable clock: m_dt[0..2], m_cur_time, m_new_time, m_time_index, m_is_init,
    m_current_cfl, m_dt_calc. SimTime.H:187-195, 222, 230, 274, 317.  The
    category CFLs and the verbosity only feed print statements. *)
Record clock := {
  k_dt0 : Q; k_dt1 : Q; k_dt2 : Q;
  k_cur : Q; k_new : Q;
  k_idx : Z;
  k_init : bool;
  k_cflnum : Q;
  k_dt_calc : Q
}.

(** Fresh start: default members plus parse_parameters, SimTime.cpp:13-16, 42-46,
    56-57; defaults SimTime.H:191-198, 267-286. *)
Definition fresh_origin (p : params) : origin := {|
  g_start_time := 0;
  g_start_idx := 0;
  g_regrid_start := odef (p_regrid_start p) 0%Z;
  g_plt_start := odef (o_start (p_plt p)) 0%Z;
  g_chk_start := odef (o_start (p_chk p)) 0%Z;
  g_plt_start_time := odef (o_start_time (p_plt p)) 0;
  g_chk_start_time := odef (o_start_time (p_chk p)) 0 |}.

Definition fresh_clock (p : params) : clock := {|
  k_dt0 := if Qltb 0 (p_fixed_dt p) then p_fixed_dt p else -1 # 1;
  k_dt1 := -1 # 1; k_dt2 := -1 # 1;
  k_cur := 0; k_new := 0; k_idx := 0; k_init := true;
  k_cflnum := 0; k_dt_calc := 0 |}.

(** SimTime::set_restart_time, SimTime.cpp:413-434 (origins), plus the loads of
    delta_t_nm1 and delta_t_nm2 in incflo::ReadCheckpointFile
    (utilities/io.cpp:48-68; the value read for delta_t itself, dt_restart, is
    dropped there).  [idx], [t], [dt1], [dt2] are the checkpoint's contents. *)
Definition restart_origin (p : params) (idx : Z) (t : Q) : origin := {|
  g_start_time := t;
  g_start_idx := idx;
  g_regrid_start := odef (p_regrid_start p) idx;
  g_plt_start := odef (o_start (p_plt p)) idx;
  g_chk_start := odef (o_start (p_chk p)) idx;
  g_plt_start_time := odef (o_start_time (p_plt p)) t;
  g_chk_start_time := odef (o_start_time (p_chk p)) t |}.

Definition restart_clock (p : params) (idx : Z) (t dt1 dt2 : Q) : clock := {|
  k_dt0 := if Qltb 0 (p_fixed_dt p) then p_fixed_dt p else -1 # 1;
  k_dt1 := dt1; k_dt2 := dt2;
  k_cur := t; k_new := t; k_idx := idx; k_init := true;
  k_cflnum := 0; k_dt_calc := 0 |}.

(** [eps * 1e4] of SimTime::continue_simulation, SimTime.cpp:323-324. *)
Definition stop_eps : Q := eps * inject_Z 10000.

(** SimTime::continue_simulation, SimTime.cpp:321-340. *)
Definition continue_simulation (p : params) (c : clock) : bool :=
  if (p_max_step p =? 0)%Z then false
  else if Qltb 0 (p_stop_time p) && Qleb (p_stop_time p) (k_new c + stop_eps) then false
  else if (0 <? p_max_step p)%Z && (p_max_step p <=? k_idx c)%Z then false
  else true.

(** SimTime::new_timestep, SimTime.cpp:108-155. *)
Definition new_timestep (p : params) (c : clock) : bool * clock :=
  if continue_simulation p c then
    (true, {| k_dt0 := k_dt0 c; k_dt1 := k_dt0 c; k_dt2 := k_dt1 c;
              k_cur := k_new c; k_new := k_new c; k_idx := (k_idx c + 1)%Z;
              k_init := false; k_cflnum := k_cflnum c; k_dt_calc := k_dt_calc c |})
  else
    (false, {| k_dt0 := k_dt0 c; k_dt1 := k_dt1 c; k_dt2 := k_dt2 c;
               k_cur := k_new c; k_new := k_new c; k_idx := k_idx c;
               k_init := false; k_cflnum := k_cflnum c; k_dt_calc := k_dt_calc c |}).

(** get_enforced_dt_for_output, SimTime.H:14-24. *)
Definition get_enforced_dt_for_output (dt cur interval tol : Q) : Q :=
  qmin dt ((qfloor (cur / interval + tol) + 1) * interval - cur).

(** One "shorten timestep to hit output" clause, SimTime.cpp:222-226, 235-240,
    243-250. *)
Definition enforce (on : bool) (interval tol delay cur dt : Q) : Q :=
  if Qltb 0 interval && on && Qleb 0 (cur + dt - delay)
  then get_enforced_dt_for_output dt cur interval tol else dt.

(** All clauses in code order: checkpoint, plot, post-processing objects,
    SimTime.cpp:220-251. *)
Definition enforce_all (p : params) (cur dt : Q) : Q :=
  let d1 := enforce (o_force (p_chk p)) (o_tinterval (p_chk p)) (o_ftol (p_chk p)) (o_tdelay (p_chk p)) cur dt in
  let d2 := enforce (o_force (p_plt p)) (o_tinterval (p_plt p)) (o_ftol (p_plt p)) (o_tdelay (p_plt p)) cur d1 in
  fold_left (fun d q => enforce (q_enforce q) (q_tinterval q) (q_ftol q) (q_tdelay q) cur d)
            (p_post p) d2.

(** The CFL maxima handed over by incflo::compute_dt. *)
Record cfl_in := { i_conv : Q; i_diff : Q; i_src : Q }.

(** cfl_unit_time, SimTime.cpp:163-165. *)
Definition cfl_unit (sq : Q -> Q) (i : cfl_in) : Q :=
  let cd := i_conv i + i_diff i in cd + sq (cd * cd + 4 * i_src i).

(** The delay_time test, SimTime.cpp:257-258 and 265-266. *)
Definition in_delay (p : params) (cur : Q) : bool :=
  Qltb cur (p_delay_time p - (1 # 10) * qmax (p_initial_dt p) 0).

(** dt_new after the CFL formula, init shrink and growth limit,
    SimTime.cpp:162-200; [None] is amrex::Abort (lines 172-182). *)
Definition cfl_dt (sq : Q -> Q) (p : params) (c : clock) (i : cfl_in) : option Q :=
  let unit := cfl_unit sq i in
  let small := adaptive p && negb (k_init c) && Qltb unit eps in
  let first := Qltb (k_cur c) eps in
  let has_init := Qltb 0 (p_initial_dt p) in
  if small && negb (first && has_init) then None
  else
    let dt1 := if small then p_initial_dt p else 2 * p_cfl p / qmax unit eps in
    let dt2 := if k_init c then dt1 * p_init_shrink p else dt1 in
    Some (if Qltb 0 (k_dt0 c) && adaptive p then qmin dt2 ((1 + p_growth p) * k_dt0 c) else dt2).

(** The adaptive branch up to the delay test, SimTime.cpp:202-255; [None] is the
    min_dt abort (lines 207-213). *)
Definition adaptive_dt (p : params) (c : clock) (dt : Q) : option Q :=
  let d1 := if Qltb 0 (p_max_dt p) then qmin dt (p_max_dt p) else dt in
  if Qltb 0 (p_min_dt p) && Qltb d1 (p_min_dt p) then None
  else
    let d2 := if Qltb 0 (p_stop_time p) && Qltb (p_stop_time p) (k_cur c + d1)
              then p_stop_time p - k_cur c else d1 in
    let d3 := enforce_all p (k_cur c) d2 in
    Some (if k_init c && Qltb 0 (p_initial_dt p) then qmin d3 (p_initial_dt p) else d3).

(** SimTime::set_current_cfl, SimTime.cpp:157-286. *)
Definition set_current_cfl (sq : Q -> Q) (p : params) (c : clock) (i : cfl_in) : outcome clock :=
  match cfl_dt sq p c i with
  | None => Abort
  | Some dt =>
    let fin (dtnew dt0 : Q) :=
      Ret {| k_dt0 := dt0; k_dt1 := k_dt1 c; k_dt2 := k_dt2 c;
             k_cur := k_cur c; k_new := k_new c; k_idx := k_idx c; k_init := k_init c;
             k_cflnum := (1 # 2) * cfl_unit sq i * dt0; k_dt_calc := dtnew |} in
    if adaptive p then
      match adaptive_dt p c dt with
      | None => Abort
      | Some d => fin d (if in_delay p (k_cur c) then p_initial_dt p else d)
      end
    else fin dt (if in_delay p (k_cur c) then p_initial_dt p else p_fixed_dt p)
  end.

(** SimTime::advance_time, SimTime.cpp:288-319 (the rest of the body prints). *)
Definition advance_time (c : clock) : clock :=
  {| k_dt0 := k_dt0 c; k_dt1 := k_dt1 c; k_dt2 := k_dt2 c;
     k_cur := k_cur c; k_new := k_cur c + k_dt0 c; k_idx := k_idx c;
     k_init := k_init c; k_cflnum := k_cflnum c; k_dt_calc := k_dt_calc c |}.

(** SimTime::do_regrid, SimTime.cpp:342-348.  C [%] truncates: [Z.rem]. *)
Definition do_regrid (p : params) (g : origin) (c : clock) : bool :=
  (0 <? p_regrid_interval p)%Z
  && (0 <? k_idx c - g_regrid_start g)%Z
  && (Z.rem (k_idx c - g_regrid_start g) (p_regrid_interval p) =? 0)%Z.

(** Fractional position of the clock in the time interval and its comparison
    with dt, SimTime.cpp:361-364 (and 378-382, 392-395, 406-410). *)
Definition in_time_window (o : outspec) (st : Q) (p : params) (c : clock) : bool :=
  let tol := qmin (o_ttol o * k_dt0 c) (abs_tol p) in
  let x := (k_new c - st + tol) / o_tinterval o in
  Qltb (x - qfloor x) (k_dt0 c / o_tinterval o).

(** SimTime::write_plot_file / write_checkpoint, SimTime.cpp:350-365 / 367-382. *)
Definition write_file (o : outspec) (si : Z) (st : Q) (p : params) (c : clock) : bool :=
  ((0 <? o_interval o)%Z && (0 <=? k_idx c - o_delay o)%Z
   && (Z.rem (k_idx c - si) (o_interval o) =? 0)%Z)
  || (Qltb 0 (o_tinterval o)
      && Qleb 0 (k_new c + qmin (o_ttol o * k_dt0 c) (abs_tol p) - o_tdelay o)
      && in_time_window o st p c).

(** SimTime::write_last_plot_file / write_last_checkpoint, SimTime.cpp:384-396 /
    398-411. *)
Definition write_last_file (o : outspec) (si : Z) (st : Q) (p : params) (c : clock) : bool :=
  ((0 <? o_interval o)%Z && negb (Z.rem (k_idx c - si) (o_interval o) =? 0)%Z)
  || (Qltb 0 (o_tinterval o) && negb (in_time_window o st p c)).

Definition write_plot_file p g c := write_file (p_plt p) (g_plt_start g) (g_plt_start_time g) p c.
Definition write_checkpoint p g c := write_file (p_chk p) (g_chk_start g) (g_chk_start_time g) p c.
Definition write_last_plot_file p g c := write_last_file (p_plt p) (g_plt_start g) (g_plt_start_time g) p c.
Definition write_last_checkpoint p g c := write_last_file (p_chk p) (g_chk_start g) (g_chk_start_time g) p c.

(** PostProcessBase::do_output_now, utilities/PostProcessing.H:142-173. *)
Definition do_output_now (q : postspec) (ntime ntime0_in : Z) (time time0_in dt tol_in : Q) : bool :=
  let tol := qmin tol_in (q_ttol q * dt) in
  let n0 := if q_from_restart q then ntime0_in else 0%Z in
  let t0 := if q_from_restart q then time0_in else 0 in
  let n0 := if (0 <=? q_start q)%Z then q_start q else n0 in
  let t0 := if Qltb (- (1 # 2)) (q_start_time q) then q_start_time q else t0 in
  ((0 <? q_interval q)%Z && (0 <=? ntime - q_delay q)%Z
   && (Z.rem (ntime - n0) (q_interval q) =? 0)%Z)
  || (Qltb 0 (q_tinterval q) && Qleb 0 (time + tol - q_tdelay q)
      && Qltb (time - t0 + tol - qfloor ((time - t0 + tol) / q_tinterval q) * q_tinterval q) dt).

Definition post_now (p : params) (g : origin) (c : clock) (q : postspec) : bool :=
  do_output_now q (k_idx c) (g_start_idx g) (k_new c) (g_start_time g) (k_dt0 c) (abs_tol p).

(** Observable events of a run. *)
Inductive event :=
| EStep (idx : Z) (t0 t1 dt cfl : Q)   (* a completed advance from t0 to t1 *)
| ERegrid (idx : Z)
| EPlot (idx : Z) (t : Q)              (* plot file of the state (idx, t) *)
| EChk (idx : Z) (t dt dt1 dt2 : Q)    (* checkpoint header contents *)
| EPost (n : nat) (idx : Z) (t : Q).   (* output_actions of the n-th object *)

Definition ev_if (b : bool) (e : event) : list event := if b then [e] else [].

Definition chk_event (c : clock) : event :=
  EChk (k_idx c) (k_new c) (k_dt0 c) (k_dt1 c) (k_dt2 c).

(** The loops over m_post, PostProcessing.cpp:58-66, 69-82, 84-98. *)
Fixpoint post_events (sel : postspec -> bool) (c : clock) (n : nat) (l : list postspec) : list event :=
  match l with
  | [] => []
  | q :: r => ev_if (sel q) (EPost n (k_idx c) (k_new c)) ++ post_events sel c (S n) r
  end.

(** Output part of incflo::post_advance_work, incflo.cpp:261-272. *)
Definition post_advance_work (p : params) (g : origin) (c : clock) : list event :=
  post_events (post_now p g c) c 0 (p_post p)
  ++ ev_if (write_plot_file p g c) (EPlot (k_idx c) (k_new c))
  ++ ev_if (write_checkpoint p g c) (chk_event c).

(** Output after the loop, incflo.cpp:343-350 and
    PostProcessManager::final_output, PostProcessing.cpp:84-98. *)
Definition final_events (p : params) (g : origin) (c : clock) : list event :=
  ev_if (write_last_plot_file p g c) (EPlot (k_idx c) (k_new c))
  ++ ev_if (write_last_checkpoint p g c) (chk_event c)
  ++ post_events (fun q => q_final q && negb (post_now p g c q)) c 0 (p_post p).

(** Body of the while loop of incflo::Evolve after new_timestep() returned true,
    incflo.cpp:291-338: regrid, compute_dt (-> set_current_cfl), advance_time,
    the flow solve (not modelled), output. *)
Definition evolve_body (sq : Q -> Q) (p : params) (g : origin) (c : clock) (i : cfl_in)
  : outcome (clock * list event) :=
  obind (set_current_cfl sq p c i) (fun c1 =>
    let c2 := advance_time c1 in
    Ret (c2, ev_if (do_regrid p g c) (ERegrid (k_idx c))
             ++ EStep (k_idx c2) (k_cur c2) (k_new c2) (k_dt0 c2) (k_cflnum c2)
             :: post_advance_work p g c2)).

(** How a run ends: the loop left normally, it aborted, or the supplied list of
    CFL inputs is used up while the loop still runs. *)
Inductive status := Finished | Aborted | Running.

(** incflo::Evolve, incflo.cpp:283-351, driven by the list of CFL maxima that the
    successive compute_dt calls report. *)
Fixpoint evolve (sq : Q -> Q) (p : params) (g : origin) (c : clock) (inp : list cfl_in)
  : status * clock * list event :=
  let '(go, c1) := new_timestep p c in
  if go then
    match inp with
    | [] => (Running, c, [])
    | i :: r =>
      match evolve_body sq p g c1 i with
      | Ret (c2, ev) =>
        let '(s, cf, evs) := evolve sq p g c2 r in (s, cf, ev ++ evs)
      | _ => (Aborted, c1, [])
      end
    end
  else (Finished, c1, final_events p g c1).

(** incflo::init_amr_wind_modules (PostProcessManager::post_init_actions,
    PostProcessing.cpp:47-67) followed by
    incflo::prepare_for_time_integration, incflo.cpp:135-162: initial iterations
    compute one dt in the initialisation phase; then initial files.
    [init] = [Some i] when initial_iterations > 0. *)
Definition initialise (sq : Q -> Q) (p : params) (g : origin) (c : clock) (init : option cfl_in)
  : outcome (clock * list event) :=
  let evp := post_events (post_now p g c) c 0 (p_post p) in
  let oc := match init with None => Ret c | Some i => set_current_cfl sq p c i end in
  obind oc (fun c1 =>
    Ret (c1, evp ++ ev_if (write_plot_file p g c1) (EPlot (k_idx c1) (k_new c1))
                 ++ ev_if (write_checkpoint p g c1) (chk_event c1))).

(** A complete fresh run: parse, InitData, Evolve. *)
Definition run_fresh (sq : Q -> Q) (p : params) (init : option cfl_in) (inp : list cfl_in)
  : status * clock * list event :=
  if parse_aborts p then (Aborted, fresh_clock p, [])
  else
    let g := fresh_origin p in
    match initialise sq p g (fresh_clock p) init with
    | Ret (c1, ev) => let '(s, cf, evs) := evolve sq p g c1 inp in (s, cf, ev ++ evs)
    | _ => (Aborted, fresh_clock p, [])
    end.

(** A run restarted from a checkpoint: prepare_for_time_integration returns at
    once (incflo.cpp:140-142), post_init_actions still happens. *)
Definition run_restart (sq : Q -> Q) (p : params) (idx : Z) (t dt1 dt2 : Q) (inp : list cfl_in)
  : status * clock * list event :=
  if parse_aborts p then (Aborted, fresh_clock p, [])
  else
    let g := restart_origin p idx t in
    let c := restart_clock p idx t dt1 dt2 in
    let evp := post_events (post_now p g c) c 0 (p_post p) in
    let '(s, cf, evs) := evolve sq p g c inp in (s, cf, evp ++ evs).

(** incflo::CheckAndSetUpDryRun, setup/init.cpp:14-44: entries added to the input
    table after the user's; ParmParse::query takes the last one.  Line 35 adds
    "checkpoint_inteval" (sic), which nothing reads. *)
Definition dry_run_inputs (p : params) : params := {|
  p_stop_time := p_stop_time p; p_max_step := 0; p_delay_time := p_delay_time p;
  p_fixed_dt := p_fixed_dt p; p_initial_dt := p_initial_dt p; p_max_dt := p_max_dt p;
  p_min_dt := p_min_dt p; p_init_shrink := p_init_shrink p; p_growth := p_growth p;
  p_cfl := p_cfl p; p_regrid_interval := p_regrid_interval p; p_regrid_start := p_regrid_start p;
  p_plt := {| o_interval := 1; o_tinterval := o_tinterval (p_plt p); o_delay := o_delay (p_plt p);
              o_tdelay := o_tdelay (p_plt p); o_force := o_force (p_plt p); o_ttol := o_ttol (p_plt p);
              o_ftol := o_ftol (p_plt p); o_start := o_start (p_plt p); o_start_time := o_start_time (p_plt p) |};
  p_chk := p_chk p; p_post := p_post p |}.

(** A dry run: initial_iterations is forced to 0 (init.cpp:27); on a restart
    prepare_for_time_integration does not return early (incflo.cpp:140). *)
Definition run_dry (sq : Q -> Q) (p0 : params) (restart : option (Z * Q * Q * Q)) (inp : list cfl_in)
  : status * clock * list event :=
  let p := dry_run_inputs p0 in
  if parse_aborts p then (Aborted, fresh_clock p, [])
  else
    let g := match restart with None => fresh_origin p | Some (idx, t, _, _) => restart_origin p idx t end in
    let c := match restart with None => fresh_clock p | Some (idx, t, d1, d2) => restart_clock p idx t d1 d2 end in
    match initialise sq p g c None with
    | Ret (c1, ev) => let '(s, cf, evs) := evolve sq p g c1 inp in (s, cf, ev ++ evs)
    | _ => (Aborted, c, [])
    end.
