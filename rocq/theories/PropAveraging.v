(** C19: running time averages. *)
From Coq Require Import String.
From Verif Require Import BaseFacts SimTime Averaging SimTimeSpec AveragingSpec AveragingProofs AveragingProofs2 AveragingProofs3 AveragingProofs4.
Local Open Scope string_scope.
Local Open Scope list_scope.
Local Open Scope Q_scope.

(** No averaged field changes at a call where no sample is due. *)
Theorem c19_nothing_outside_period p a c : ~ v_interval p == 0 -> 0 < c_dt c -> ~ due p (c_t c) (c_dt c) ->
  ta_store (post_advance p a c) = ta_store a.
Proof. exact (skipped_call p a c). Qed.
Print Assumptions c19_nothing_outside_period.

(** While the samples fit in the window, the average times the averaged duration is
    the sum of sample times sample duration, durations counted from the start time. *)
Theorem c19_time_average ncomp lbl es a p t0 cs smp f n j :
  setup ncomp lbl es = Ret a -> NoDup (requested es) -> ~ v_interval p == 0 ->
  call_sequence t0 cs -> t0 <= v_start p -> well_shaped ncomp cs -> sampled p cs smp ->
  In ("ReAveraging", f) (requested es) -> ncomp f = Some n -> (j < n)%nat ->
  (smp = [] -> field_is (averages p a cs) (avg_name f lbl) j 0)
  /\ (smp <> [] -> (forall c, In c smp -> c_t c - v_start p <= v_window p) ->
      exists v, field_is (averages p a cs) (avg_name f lbl) j v
      /\ v * (last (map c_t smp) 0 - v_start p)
         == integral (v_start p) (map (fun c => (c_t c, nth j (c_val c f) 0)) smp)
      /\ (forall c, smp = [c] -> v == nth j (c_val c f) 0)).
Proof.
  intros Hs Hd Hi Hc Ht Hw Hm Hf Hn Hj. split.
  - exact (mean_none ncomp lbl es a p t0 cs smp Hs Hd Hi Hc Hw Hm f n j Hf Hn Hj).
  - exact (mean_average ncomp lbl es a p t0 cs smp Hs Hd Hi Hc Ht Hw Hm f n j Hf Hn Hj).
Qed.
Print Assumptions c19_time_average.

(** The hypothesis [call_sequence] is what a fresh fixed-step run produces. *)
Theorem c19_fixed_step_calls sq p init inp s cf evs flow :
  adaptive p = false -> p_delay_time p <= 0 -> run_fresh sq p init inp = (s, cf, evs) ->
  call_sequence 0 (run_calls (fresh_clock p) evs flow).
Proof.
  intros Ha Hd Hr. apply (fixed_calls sq p 0 0 inp s cf evs); auto.
  - left. split; [reflexivity|]. split; [reflexivity|]. exists init. assumption.
  - reflexivity.
  - unfold fresh_clock. cbn. unfold adaptive in Ha. apply negb_false_iff in Ha. rewrite Ha. reflexivity.
Qed.
Print Assumptions c19_fixed_step_calls.

(** Whatever the window: all averages and stresses are weighted means of the
    samples with the same non-negative weights of sum 1, and the Reynolds stress is
    the weighted covariance. *)
Theorem c19_common_weights ncomp lbl es a p t0 cs smp :
  setup ncomp lbl es = Ret a -> NoDup (requested es) -> ~ v_interval p == 0 ->
  call_sequence t0 cs -> t0 <= v_start p -> well_shaped ncomp cs -> sampled p cs smp ->
  smp <> [] ->
  exists w, length w = length smp /\ Forall (Qle 0) w /\ total w == 1
  /\ (forall f n j, In ("ReAveraging", f) (requested es) -> ncomp f = Some n -> (j < n)%nat ->
        field_is (averages p a cs) (avg_name f lbl) j (dot w (values f j smp)))
  /\ (In ("ReynoldsStress", "velocity") (requested es) -> ncomp "velocity" = Some 3%nat ->
      forall mn m n, In (mn, (m, n)) tensor ->
        let u c := nth m (c_val c "velocity") 0 in
        let v c := nth n (c_val c "velocity") 0 in
        let um := dot w (map u smp) in
        let vm := dot w (map v smp) in
        field_is (averages p a cs) (stress_name "velocity" lbl) mn (dot w (map (fun c => u c * v c) smp))
        /\ field_is (averages p a cs) (re_stress_name "velocity" lbl) mn
             (dot w (map (fun c => (u c - um) * (v c - vm)) smp))).
Proof. exact (common_weights ncomp lbl es a p t0 cs smp). Qed.
Print Assumptions c19_common_weights.

Theorem c19_within_samples ncomp lbl es a p t0 cs smp f n j lo hi v :
  setup ncomp lbl es = Ret a -> NoDup (requested es) -> ~ v_interval p == 0 ->
  call_sequence t0 cs -> t0 <= v_start p -> well_shaped ncomp cs -> sampled p cs smp ->
  In ("ReAveraging", f) (requested es) -> ncomp f = Some n -> (j < n)%nat -> smp <> [] ->
  (forall c, In c smp -> lo <= nth j (c_val c f) 0 /\ nth j (c_val c f) 0 <= hi) ->
  field_is (averages p a cs) (avg_name f lbl) j v -> lo <= v /\ v <= hi.
Proof.
  intros Hs Hd Hi Hc Ht Hw Hm Hf Hn Hj Hne.
  exact (mean_within ncomp lbl es a p t0 cs smp Hs Hd Hi Hc Ht Hw Hm f n j lo hi v Hf Hn Hj Hne).
Qed.
Print Assumptions c19_within_samples.

(** Reynolds stresses are realizable. *)
Theorem c19_reynolds_realizable ncomp lbl es a p t0 cs smp mi mj mij m n vi vj vij :
  setup ncomp lbl es = Ret a -> NoDup (requested es) -> ~ v_interval p == 0 ->
  call_sequence t0 cs -> t0 <= v_start p -> well_shaped ncomp cs -> sampled p cs smp -> smp <> [] ->
  In ("ReynoldsStress", "velocity") (requested es) -> ncomp "velocity" = Some 3%nat ->
  In (mi, (m, m)) tensor -> In (mj, (n, n)) tensor -> In (mij, (m, n)) tensor ->
  field_is (averages p a cs) (re_stress_name "velocity" lbl) mi vi ->
  field_is (averages p a cs) (re_stress_name "velocity" lbl) mj vj ->
  field_is (averages p a cs) (re_stress_name "velocity" lbl) mij vij ->
  0 <= vi /\ 0 <= vj /\ vij * vij <= vi * vj.
Proof.
  intros Hs Hd Hi Hc Ht Hw Hm.
  exact (reynolds_realizable ncomp lbl es a p t0 cs smp Hs Hd Hi Hc Ht Hw Hm mi mj mij m n vi vj vij).
Qed.
Print Assumptions c19_reynolds_realizable.

(** *** A case meeting the hypotheses: two averages, start time 1, step 1/2 *)
Definition ex_ncomp (f : string) : option nat :=
  if String.eqb f "velocity" then Some 3%nat else if String.eqb f "temperature" then Some 1%nat else None.
Definition ex_es : list entry :=
  [("means", "ReAveraging", ["velocity"; "temperature"]); ("st", "ReynoldsStress", ["velocity"])].
Definition ex_ap : avg_params := {| v_start := 1; v_stop := 4; v_interval := -1; v_window := 100 |}.
Definition ex_call (t u : Q) : call :=
  {| c_t := t; c_dt := 1#2;
     c_val := fun f => if String.eqb f "velocity" then [u; 2 * u; 1] else if String.eqb f "temperature" then [u + 300] else [] |}.
Definition ex_calls : list call :=
  [ex_call 0 0; ex_call (1#2) 7; ex_call 1 5; ex_call (3#2) 2; ex_call 2 4; ex_call (5#2) 9].

Example c19_example :
  NoDup (requested ex_es) /\ ~ v_interval ex_ap == 0 /\ call_sequence 0 ex_calls /\ well_shaped ex_ncomp ex_calls
  /\ sampled ex_ap ex_calls [ex_call 1 5; ex_call (3#2) 2; ex_call 2 4; ex_call (5#2) 9]
  /\ exists a, setup ex_ncomp "avg" ex_es = Ret a
     /\ field_is (averages ex_ap a ex_calls) "velocity_mean_avg" 0 5
     /\ field_is (averages ex_ap a ex_calls) "temperature_mean_avg" 0 305
     /\ field_is (averages ex_ap a ex_calls) "velocity_reynolds_stress_avg" 0 (26 # 3).
Proof.
  split. { repeat constructor; simpl; intuition discriminate. }
  split. { discriminate. }
  split. { vm_compute. repeat split. }
  split. { intros c f n Hc Hn. unfold ex_calls in Hc. simpl in Hc.
           unfold ex_ncomp in Hn.
           destruct (String.eqb f "velocity") eqn:E1; [|destruct (String.eqb f "temperature") eqn:E2; [|discriminate]];
           injection Hn as <-;
           repeat (destruct Hc as [<-|Hc]; [cbn [ex_call c_val]; rewrite ?E1, ?E2; reflexivity|]); destruct Hc. }
  split. { assert (D : forall t, 1 <= t -> t < 4 -> due ex_ap t (1#2)).
           { intros t H1 H2. unfold due. cbn. split; [assumption|]. split; [assumption|]. left. reflexivity. }
           assert (N : forall t, t < 1 -> ~ due ex_ap t (1#2)).
           { intros t H [H1 _]. cbn in H1. lra. }
           apply sampled_skip; [apply N; reflexivity|]. apply sampled_skip; [apply N; reflexivity|].
           repeat (apply sampled_take; [apply D; cbn; lra|]). constructor. }
  eexists. split; [reflexivity|].
  split; [|split]; eexists; eexists; (split; [vm_compute; reflexivity|split; [vm_compute; reflexivity|vm_compute; reflexivity]]).
Qed.

(** *** Where the property fails *)

(** With an adaptive time step the initialisation call happens before any step size
    is known (delta_t is -1).  If averaging starts at time 0, every average is
    infinite or NaN after it and stays so for the whole run. *)
Theorem c19_adaptive_start_refuted ncomp lbl es a p q evs flow f n j :
  setup ncomp lbl es = Ret a -> NoDup (requested es) ->
  In ("ReAveraging", f) (requested es) -> ncomp f = Some n -> (j < n)%nat ->
  adaptive q = true -> v_start p == 0 -> 0 < v_stop p -> v_interval p < 0 -> 0 <= v_window p ->
  well_shaped ncomp (run_calls (fresh_clock q) evs flow) ->
  exists l, ta_store (averages p a (run_calls (fresh_clock q) evs flow)) (avg_name f lbl) = Some l
            /\ nth_error l j = Some None.
Proof. exact (adaptive_start ncomp lbl es a p q evs flow f n j). Qed.
Print Assumptions c19_adaptive_start_refuted.

(** Averages are not the same when a fixed-step run is restarted: the state in the
    checkpoint is sampled a second time. *)
Definition ex_ap0 : avg_params := {| v_start := 0; v_stop := 100; v_interval := -1; v_window := 100 |}.
Definition one_entry : list entry := [("m", "ReAveraging", ["temperature"])].
Theorem c19_restart_refuted :
  exists a before after, setup ex_ncomp "avg" one_entry = Ret a
  /\ call_sequence 0 (before ++ after)
  /\ field_is (averages ex_ap0 a (before ++ after)) "temperature_mean_avg" 0 (301)
  /\ field_is (averages ex_ap0 (restarted (averages ex_ap0 a before)) (last before (ex_call 0 0) :: after))
       "temperature_mean_avg" 0 (904 # 3).
Proof.
  eexists. exists [ex_call 0 0; ex_call (1#2) 0; ex_call 1 2], [ex_call (3#2) 1].
  split; [reflexivity|]. split; [vm_compute; repeat split|].
  split; eexists; eexists; (split; [vm_compute; reflexivity|split; [vm_compute; reflexivity|vm_compute; reflexivity]]).
Qed.
Print Assumptions c19_restart_refuted.

(** After the restart of an adaptive run (delta_t is -1 at initialisation) the
    average leaves the range of the samples: all samples lie in [300, 302]. *)
Definition at_dt (c : call) (d : Q) : call := {| c_t := c_t c; c_dt := d; c_val := c_val c |}.
Theorem c19_restart_adaptive_refuted q : adaptive q = true ->
  exists a before, setup ex_ncomp "avg" one_entry = Ret a /\ call_sequence 0 before
  /\ Forall (fun c => 300 <= nth 0 (c_val c "temperature") 0 /\ nth 0 (c_val c "temperature") 0 <= 302) before
  /\ field_is (averages ex_ap0 a before) "temperature_mean_avg" 0 301
  /\ let c0 := restart_clock q 2 (1#2) 0 0 in
     field_is (averages ex_ap0 (restarted (averages ex_ap0 a before))
                 [at_dt (last before (ex_call 0 0)) (k_dt0 c0)]) "temperature_mean_avg" 0 299.
Proof.
  intro Ha.
  assert (K : k_dt0 (restart_clock q 2 (1#2) 0 0) = (-1 # 1)).
  { unfold restart_clock. cbn. unfold adaptive in Ha. apply negb_true_iff in Ha. rewrite Ha. reflexivity. }
  eexists. exists [at_dt (ex_call 0 0) (1#4); at_dt (ex_call (1#4) 0) (1#4); at_dt (ex_call (1#2) 2) (1#4)].
  cbv zeta. rewrite K.
  split; [reflexivity|]. split; [vm_compute; repeat split|].
  split; [repeat constructor; discriminate|].
  split; eexists; eexists; (split; [vm_compute; reflexivity|split; [vm_compute; reflexivity|vm_compute; reflexivity]]).
Qed.
Print Assumptions c19_restart_adaptive_refuted.

(** A field listed under two labels (or requested twice through add_averaging) is
    updated twice per sample: the average of 300, 302 with equal durations is not
    301. *)
Theorem c19_duplicate_refuted :
  exists a b cs, setup ex_ncomp "avg" [("m1", "ReAveraging", ["temperature"]); ("m2", "ReAveraging", ["temperature"])] = Ret a
  /\ obind (setup ex_ncomp "avg" []) (fun x =>
       obind (add_averaging ex_ncomp "avg" "temperature" "ReAveraging" x)
             (add_averaging ex_ncomp "avg" "temperature" "ReAveraging")) = Ret b
  /\ call_sequence 0 cs
  /\ field_is (averages ex_ap0 a cs) "temperature_mean_avg" 0 (603 # 2)
  /\ field_is (averages ex_ap0 b cs) "temperature_mean_avg" 0 (603 # 2)
  /\ exists c, setup ex_ncomp "avg" one_entry = Ret c
     /\ field_is (averages ex_ap0 c cs) "temperature_mean_avg" 0 301.
Proof.
  eexists. eexists. exists [ex_call 0 0; ex_call (1#2) 0; ex_call 1 2].
  split; [reflexivity|]. split; [reflexivity|]. split; [vm_compute; repeat split|].
  split; [|split].
  3: eexists; split; [reflexivity|].
  all: eexists; eexists; (split; [vm_compute; reflexivity|split; [vm_compute; reflexivity|vm_compute; reflexivity]]).
Qed.
Print Assumptions c19_duplicate_refuted.

(** Code that asks for an average the input file already configured gets that
    one: nothing is added.  Asking for another kind of average of the same field,
    or for another field, adds exactly one average. *)
Theorem c19_request_configured ncomp lbl es a l typ fs f :
  setup ncomp lbl es = Ret a -> In (l, typ, fs) es -> In f fs -> add_averaging ncomp lbl f typ a = Ret a.
Proof. exact (request_configured ncomp lbl es a l typ fs f). Qed.
Print Assumptions c19_request_configured.
Theorem c19_request_new ncomp lbl es a typ f a' :
  setup ncomp lbl es = Ret a -> typ = "ReAveraging" \/ typ = "ReynoldsStress" ->
  (forall l fs, In (l, typ, fs) es -> ~ In f fs) ->
  add_averaging ncomp lbl f typ a = Ret a' ->
  exists o s, create ncomp lbl typ f (ta_store a) = Ret (o, s) /\ ta_objs a' = (ta_objs a ++ [o])%list /\ ta_store a' = s.
Proof. exact (request_new ncomp lbl es a typ f a'). Qed.
Print Assumptions c19_request_new.
Example c19_request_example :
  exists a a', setup (fun _ => Some 3%nat) "avg" [("m", "ReAveraging", ["velocity"])] = Ret a
    /\ add_averaging (fun _ => Some 3%nat) "avg" "velocity" "ReynoldsStress" a = Ret a'
    /\ length (ta_objs a') = 2%nat.
Proof. eexists. eexists. split; [reflexivity|]. split; reflexivity. Qed.
