(** Specification vocabulary for runs: what an outside observer can read off the
    event trace.  Nothing here mentions how the code computes its decisions. *)
From Verif Require Import Base SimTime.

(** One completed time step, as printed by the code:
    index, time before, time after, step size, CFL number. *)
Record step := { st_idx : Z; st_t0 : Q; st_t1 : Q; st_dt : Q; st_cfl : Q }.

Fixpoint steps_of (evs : list event) : list step :=
  match evs with
  | [] => []
  | EStep i a b d f :: r => {| st_idx := i; st_t0 := a; st_t1 := b; st_dt := d; st_cfl := f |} :: steps_of r
  | _ :: r => steps_of r
  end.

(** The steps are numbered idx+1, idx+2, ... and each starts where the previous
    one ended, the first at time [t]. *)
Fixpoint chained (idx : Z) (t : Q) (l : list step) : Prop :=
  match l with
  | [] => True
  | s :: r => st_idx s = (idx + 1)%Z /\ st_t0 s == t /\ st_t1 s == st_t0 s + st_dt s
              /\ chained (st_idx s) (st_t1 s) r
  end.

(** Each step size is at most [f] times the one before. *)
Fixpoint growth_limited (f : Q) (l : list step) : Prop :=
  match l with
  | a :: ((b :: _) as r) => st_dt b <= f * st_dt a /\ growth_limited f r
  | _ => True
  end.

(** Indices of the steps after which a plot (checkpoint) file was written. *)
Fixpoint plots_of (evs : list event) : list (Z * Q) :=
  match evs with [] => [] | EPlot i t :: r => (i, t) :: plots_of r | _ :: r => plots_of r end.
Fixpoint chks_of (evs : list event) : list (Z * Q) :=
  match evs with [] => [] | EChk i t _ _ _ :: r => (i, t) :: chks_of r | _ :: r => chks_of r end.
Fixpoint posts_of (n : nat) (evs : list event) : list (Z * Q) :=
  match evs with
  | [] => []
  | EPost m i t :: r => if Nat.eqb m n then (i, t) :: posts_of n r else posts_of n r
  | _ :: r => posts_of n r
  end.
Fixpoint regrids_of (evs : list event) : list Z :=
  match evs with [] => [] | ERegrid i :: r => i :: regrids_of r | _ :: r => regrids_of r end.

(** Inputs a user may sensibly give: positive CFL and shrink factor, non-negative
    growth, non-negative enforcement tolerances of the outputs that are enforced. *)
Definition inputs_ok (p : params) : Prop :=
  0 < p_cfl p /\ 0 <= p_growth p /\ 0 < p_init_shrink p
  /\ (o_force (p_chk p) = true -> 0 <= o_ftol (p_chk p))
  /\ (o_force (p_plt p) = true -> 0 <= o_ftol (p_plt p))
  /\ (forall q, In q (p_post p) -> q_enforce q = true -> 0 <= q_ftol q).

(** [m] is a lower bound of the shortest step that output enforcement may ask
    for. *)
Definition enforce_floor (p : params) (m : Q) : Prop :=
  (o_force (p_chk p) = true -> 0 < o_tinterval (p_chk p) -> m <= o_ftol (p_chk p) * o_tinterval (p_chk p))
  /\ (o_force (p_plt p) = true -> 0 < o_tinterval (p_plt p) -> m <= o_ftol (p_plt p) * o_tinterval (p_plt p))
  /\ (forall q, In q (p_post p) -> q_enforce q = true -> 0 < q_tinterval q -> m <= q_ftol q * q_tinterval q).

(** The outputs with enforced times: (interval, tolerance, delay). *)
Definition enforced (p : params) (iv tol delay : Q) : Prop :=
  0 < iv /\
  ((o_force (p_chk p) = true /\ iv = o_tinterval (p_chk p) /\ tol = o_ftol (p_chk p) /\ delay = o_tdelay (p_chk p))
   \/ (o_force (p_plt p) = true /\ iv = o_tinterval (p_plt p) /\ tol = o_ftol (p_plt p) /\ delay = o_tdelay (p_plt p))
   \/ (exists q, In q (p_post p) /\ q_enforce q = true /\ iv = q_tinterval q /\ tol = q_ftol q /\ delay = q_tdelay q)).

(** Marks of a run: (index, time) after every completed step. *)
Definition marks (l : list step) : list (Z * Q) := map (fun s => (st_idx s, st_t1 s)) l.

(** The step-interval schedule: not before the delay, every [o_interval] steps from
    the start index [si]. *)
Definition sched (o : outspec) (si : Z) (i : Z) : Prop :=
  (o_delay o <= i)%Z /\ (o_interval o | i - si)%Z.

(** A run of either kind, started at (idx, t). *)
Definition is_run (sq : Q -> Q) (p : params) (idx : Z) (t : Q) (inp : list cfl_in)
  (r : status * clock * list event) : Prop :=
  (idx = 0%Z /\ t = 0 /\ exists init, run_fresh sq p init inp = r)
  \/ (exists d1 d2, run_restart sq p idx t d1 d2 inp = r).

(** A step end that the user asked to be hit exactly: the stop time or a multiple
    of an enforced output interval. *)
Definition ends_at_target (p : params) (t1 : Q) : Prop :=
  t1 == p_stop_time p \/ exists iv tol dl (k : Z), enforced p iv tol dl /\ t1 == inject_Z k * iv.

(** Position of a target time within a step, for tolerance [tol]. *)
Definition reaches (tol : Q) (t0 t1 target : Q) : Prop := t0 + tol < target /\ target <= t1 + tol.

(** Step-based and time-based schedules of a post-processing object are exclusive. *)
Definition step_based (q : postspec) : Prop := (0 < q_interval q)%Z /\ q_tinterval q <= 0.
Definition time_based (q : postspec) : Prop := (q_interval q <= 0)%Z /\ 0 < q_tinterval q.

(** Step from which a post-processing object counts: output_start when given, else
    the restart step with output_from_restart, else 0. *)
Definition post_origin (q : postspec) (idx : Z) : Z :=
  if (0 <=? q_start q)%Z then q_start q else if q_from_restart q then idx else 0%Z.

(** Tolerance of the time-interval tests of a file for a step of size [dt]: the
    relative tolerance, capped by the absolute tolerance of enforced outputs. *)
Definition file_tol (p : params) (o : outspec) (dt : Q) : Q := qmin (o_ttol o * dt) (abs_tol p).

(** Step [st] reaches one of the times start + k * interval. *)
Definition due (p : params) (o : outspec) (start : Q) (st : step) : Prop :=
  exists k : Z, reaches (file_tol p o (st_dt st)) (st_t0 st) (st_t1 st) (start + inject_Z k * o_tinterval o).

(** CFL number of a step of size [dt] in a flow with convective, diffusive and
    source rates c, d, s: dt/2 * ((c+d) + sqrt((c+d)^2 + 4 s)). *)
Definition cfl_number (sq : Q -> Q) (i : cfl_in) (dt : Q) : Q :=
  dt * ((i_conv i + i_diff i) + sq ((i_conv i + i_diff i) * (i_conv i + i_diff i) + 4 * i_src i)) / 2.

(** Post-processing objects with a time interval: tolerance, origin of the times and
    "step st reaches one of the times". *)
Definition post_tol (p : params) (q : postspec) (dt : Q) : Q := qmin (abs_tol p) (q_ttol q * dt).
Definition post_time_origin (q : postspec) (t : Q) : Q :=
  if Qltb (- (1 # 2)) (q_start_time q) then q_start_time q else if q_from_restart q then t else 0.
Definition post_due (p : params) (q : postspec) (t : Q) (st : step) : Prop :=
  exists k : Z, reaches (post_tol p q (st_dt st)) (st_t0 st) (st_t1 st) (post_time_origin q t + inject_Z k * q_tinterval q).
