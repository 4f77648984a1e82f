(** Specification vocabulary for running averages. *)
From Coq Require Import String.
From Verif Require Import Base Averaging SimTime SimTimeSpec.
Local Open Scope string_scope.
Local Open Scope Q_scope.

(** A sample is due after the step that ends at [t] with size [dt] when [t] is in
    the averaging period and, with phase averaging, the (tolerance-shifted) step
    contains a whole multiple of the interval after the start time. *)
Definition due (p : avg_params) (t dt : Q) : Prop :=
  v_start p <= t /\ t < v_stop p
  /\ (v_interval p < 0
      \/ exists k : Z, inject_Z k * v_interval p <= t - v_start p + loose_tol * dt
                       /\ t - v_start p + loose_tol * dt < inject_Z k * v_interval p + dt).

(** Calls of one run: the first at initialisation, then one per step; times chain. *)
Fixpoint steps_from (t : Q) (cs : list call) : Prop :=
  match cs with
  | [] => True
  | c :: r => 0 < c_dt c /\ c_t c == t + c_dt c /\ steps_from (c_t c) r
  end.
Definition call_sequence (t0 : Q) (cs : list call) : Prop :=
  match cs with
  | [] => True
  | c :: r => c_t c == t0 /\ 0 < c_dt c /\ steps_from (c_t c) r
  end.

(** Every call sees flow fields with the declared numbers of components. *)
Definition well_shaped (ncomp : string -> option nat) (cs : list call) : Prop :=
  forall c f n, In c cs -> ncomp f = Some n -> length (c_val c f) = n.

Fixpoint dot (w : list Q) (xs : list Q) : Q :=
  match w, xs with a :: w', x :: r => a * x + dot w' r | _, _ => 0 end.
Fixpoint total (w : list Q) : Q := match w with [] => 0 | a :: r => a + total r end.

(** [sum of (t_i - t_(i-1)) f_i] over samples (t_i, f_i), with t_0 = [prev]. *)
Fixpoint integral (prev : Q) (samples : list (Q * Q)) : Q :=
  match samples with
  | [] => 0
  | (t, f) :: r => (t - prev) * f + integral t r
  end.

(** Component [j] of the average of field [f] under label [lbl] after the calls. *)
Definition mean_is (lbl : string) (a : tavg) (f : string) (j : nat) (v : Q) : Prop :=
  exists l x, ta_store a (avg_name f lbl) = Some l /\ nth_error l j = Some (Some x) /\ x == v.
Definition field_is (a : tavg) (name : string) (j : nat) (v : Q) : Prop :=
  exists l x, ta_store a name = Some l /\ nth_error l j = Some (Some x) /\ x == v.

(** No field is averaged twice by the same kind of average. *)
Definition requested (es : list entry) : list (string * string) :=
  flat_map (fun '(_, typ, fs) => map (fun f => (typ, f)) fs) es.

(** The calls a run makes: initialisation with the clock of that moment, then the
    steps of the run; the flow seen at each is arbitrary. *)
Definition run_calls (c0 : clock) (evs : list event) (flow : nat -> string -> list Q) : list call :=
  {| c_t := k_new c0; c_dt := k_dt0 c0; c_val := flow 0%nat |}
  :: map (fun '(n, s) => {| c_t := st_t1 s; c_dt := st_dt s; c_val := flow (S n) |})
       (combine (seq 0 (length (steps_of evs))) (steps_of evs)).

(** [sampled p cs smp]: [smp] are the calls of [cs], in order, at which a sample is due. *)
Inductive sampled (p : avg_params) : list call -> list call -> Prop :=
| sampled_nil : sampled p [] []
| sampled_take c cs smp : due p (c_t c) (c_dt c) -> sampled p cs smp -> sampled p (c :: cs) (c :: smp)
| sampled_skip c cs smp : ~ due p (c_t c) (c_dt c) -> sampled p cs smp -> sampled p (c :: cs) smp.

(** The values of component [j] of field [f] at the calls. *)
Definition values (f : string) (j : nat) (smp : list call) : list Q :=
  map (fun c => nth j (c_val c f) 0) smp.

(** Tensor components in the order they are stored: xx, xy, xz, yy, yz, zz. *)
Definition tensor : list (nat * (nat * nat)) :=
  [(0, (0, 0)); (1, (1, 0)); (2, (2, 0)); (3, (1, 1)); (4, (2, 1)); (5, (2, 2))]%nat.
