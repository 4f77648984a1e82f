(** Run-level facts: C01-C04 for complete runs, enforced output times, time-interval
    output windows (C08), restart (C06). *)
From Verif Require Import BaseFacts SimTime SimTimeSpec SimTimeProofs SimTimeProofs2 SimTimeProofs3.
From Coq Require Import Setoid ZifyBool.

(** ** Runs *)

Lemma initialise_inv sq p g c init c1 ev :
  initialise sq p g c init = Ret (c1, ev) ->
  k_cur c1 = k_cur c /\ k_new c1 = k_new c /\ k_idx c1 = k_idx c /\ steps_of ev = []
  /\ plots_of ev = sel_mark (write_plot_file p g) c1
  /\ chks_of ev = sel_mark (write_checkpoint p g) c1
  /\ regrids_of ev = []
  /\ (forall k q, nth_error (p_post p) k = Some q -> posts_of k ev = sel_mark (fun c => post_now p g c q) c).
Proof.
  unfold initialise. intro H.
  assert (A : exists c1', (match init with None => Ret c | Some i => set_current_cfl sq p c i end) = Ret c1'
     /\ k_cur c1' = k_cur c /\ k_new c1' = k_new c /\ k_idx c1' = k_idx c).
  { destruct init as [i|].
    - destruct (set_current_cfl sq p c i) as [c'| |] eqn:E; try discriminate.
      exists c'. apply set_cfl_inv in E. destruct E as (A & B & C & _). auto.
    - exists c. auto. }
  destruct A as (c1' & E & A1 & A2 & A3). rewrite E in H. cbn [obind] in H.
  inversion H; subst c1' ev; clear H.
  split; [exact A1|]. split; [exact A2|]. split; [exact A3|].
  rewrite !steps_of_app, !plots_of_app, !chks_of_app, !regrids_of_app,
    steps_post_events, plots_post_events, chks_post_events, regrids_post_events.
  unfold sel_mark, mark.
  split; [destruct (write_plot_file p g c1), (write_checkpoint p g c1); reflexivity|].
  split; [destruct (write_plot_file p g c1), (write_checkpoint p g c1); reflexivity|].
  split; [destruct (write_plot_file p g c1), (write_checkpoint p g c1); reflexivity|].
  split; [destruct (write_plot_file p g c1), (write_checkpoint p g c1); reflexivity|].
  intros k q Hk. rewrite !posts_of_app, posts_ev_plot, posts_ev_chk, !app_nil_r.
  apply (posts_post_events _ _ _ 0 k q Hk).
Qed.

Lemma run_fresh_inv sq p init inp s cf evs :
  run_fresh sq p init inp = (s, cf, evs) ->
  (s = Aborted /\ evs = [])
  \/ exists c1 ev evs', initialise sq p (fresh_origin p) (fresh_clock p) init = Ret (c1, ev)
       /\ evolve sq p (fresh_origin p) c1 inp = (s, cf, evs') /\ evs = ev ++ evs'
       /\ k_new c1 = 0 /\ k_idx c1 = 0%Z /\ steps_of ev = [] /\ steps_of evs = steps_of evs'.
Proof.
  unfold run_fresh. destruct (parse_aborts p); [intro H; inversion H; left; auto|].
  destruct (initialise sq p (fresh_origin p) (fresh_clock p) init) as [[c1 ev]| |] eqn:Ei;
    try (intro H; inversion H; left; auto; fail).
  destruct (evolve sq p (fresh_origin p) c1 inp) as [[s' cf'] evs'] eqn:Ee.
  intro H; inversion H; subst. right. exists c1, ev, evs'.
  assert (B := initialise_inv _ _ _ _ _ _ _ Ei). destruct B as (_ & B1 & B2 & B3 & _).
  split; [reflexivity|]. split; [exact Ee|]. split; [reflexivity|].
  split; [exact B1|]. split; [exact B2|]. split; [exact B3|].
  rewrite steps_of_app, B3. reflexivity.
Qed.

Lemma run_restart_inv sq p idx t d1 d2 inp s cf evs :
  run_restart sq p idx t d1 d2 inp = (s, cf, evs) ->
  (s = Aborted /\ evs = [])
  \/ exists evs', evolve sq p (restart_origin p idx t) (restart_clock p idx t d1 d2) inp = (s, cf, evs')
       /\ evs = post_events (post_now p (restart_origin p idx t) (restart_clock p idx t d1 d2))
                  (restart_clock p idx t d1 d2) 0 (p_post p) ++ evs'
       /\ steps_of evs = steps_of evs'.
Proof.
  unfold run_restart. destruct (parse_aborts p); [intro H; inversion H; left; auto|].
  destruct (evolve sq p (restart_origin p idx t) (restart_clock p idx t d1 d2) inp) as [[s' cf'] evs'] eqn:Ee.
  intro H; inversion H; subst. right. exists evs'. split; [reflexivity|]. split; [reflexivity|].
  rewrite steps_of_app, steps_post_events. reflexivity.
Qed.

Lemma is_run_inv sq p idx t inp s cf evs :
  is_run sq p idx t inp (s, cf, evs) ->
  (s = Aborted /\ evs = [])
  \/ exists g c ev evs', evolve sq p g c inp = (s, cf, evs')
       /\ k_new c = t /\ k_idx c = idx /\ evs = ev ++ evs' /\ steps_of evs = steps_of evs'.
Proof.
  intros [(-> & -> & init & H) | (d1 & d2 & H)].
  - apply run_fresh_inv in H. destruct H as [H|(c1 & ev & evs' & H1 & H2 & H3 & H4 & H5 & H6 & H7)]; [left; exact H|].
    right. exists (fresh_origin p), c1, ev, evs'. auto.
  - apply run_restart_inv in H. destruct H as [H|(evs' & H1 & H2 & H3)]; [left; exact H|].
    right. exists (restart_origin p idx t), (restart_clock p idx t d1 d2), 
      (post_events (post_now p (restart_origin p idx t) (restart_clock p idx t d1 d2))
         (restart_clock p idx t d1 d2) 0 (p_post p)), evs'. auto.
Qed.

(** ** C03: min_dt *)

Lemma enforce_cases on iv tol dl cur d :
  enforce on iv tol dl cur d = d \/
  (on = true /\ 0 < iv /\ exists k : Z, cur + enforce on iv tol dl cur d == inject_Z k * iv).
Proof.
  unfold enforce, get_enforced_dt_for_output.
  destruct (Qltb 0 iv && on && Qleb 0 (cur + d - dl)) eqn:E; [|left; reflexivity].
  qprop. unfold qmin at 1.
  destruct (Qltb ((qfloor (cur / iv + tol) + 1) * iv - cur) d) eqn:E2; [|left; reflexivity].
  right. split; [assumption|]. split; [assumption|].
  exists (Qfloor (cur / iv + tol) + 1)%Z. unfold qmin. rewrite E2. unfold qfloor.
  rewrite inject_Z_plus. change (inject_Z 1) with 1. lra.
Qed.

Lemma enforce_fold_cases cur l : forall d,
  let e := fold_left (fun d q => enforce (q_enforce q) (q_tinterval q) (q_ftol q) (q_tdelay q) cur d) l d in
  e = d \/ exists q (k : Z), In q l /\ q_enforce q = true /\ 0 < q_tinterval q /\ cur + e == inject_Z k * q_tinterval q.
Proof.
  induction l as [|q l IH]; intro d; cbn [fold_left]; [left; reflexivity|].
  set (d1 := enforce (q_enforce q) (q_tinterval q) (q_ftol q) (q_tdelay q) cur d).
  destruct (IH d1) as [E | (q' & k & A & B & C & D)].
  - cbv zeta. rewrite E.
    destruct (enforce_cases (q_enforce q) (q_tinterval q) (q_ftol q) (q_tdelay q) cur d) as [F|(F1 & F2 & k & F3)].
    + left. exact F.
    + right. exists q, k. split; [left; reflexivity|]. auto.
  - right. exists q', k. split; [right; exact A|]. auto.
Qed.

Lemma enforce_all_cases p cur d :
  enforce_all p cur d = d \/
  exists iv tol dl (k : Z), enforced p iv tol dl /\ cur + enforce_all p cur d == inject_Z k * iv.
Proof.
  unfold enforce_all.
  set (d1 := enforce (o_force (p_chk p)) (o_tinterval (p_chk p)) (o_ftol (p_chk p)) (o_tdelay (p_chk p)) cur d).
  set (d2 := enforce (o_force (p_plt p)) (o_tinterval (p_plt p)) (o_ftol (p_plt p)) (o_tdelay (p_plt p)) cur d1).
  destruct (enforce_fold_cases cur (p_post p) d2) as [E | (q & k & A & B & C & D)].
  - rewrite E.
    destruct (enforce_cases (o_force (p_plt p)) (o_tinterval (p_plt p)) (o_ftol (p_plt p)) (o_tdelay (p_plt p)) cur d1)
      as [F|(F1 & F2 & k & F3)]; fold d2 in F || fold d2 in F3.
    + rewrite F.
      destruct (enforce_cases (o_force (p_chk p)) (o_tinterval (p_chk p)) (o_ftol (p_chk p)) (o_tdelay (p_chk p)) cur d)
        as [G|(G1 & G2 & k & G3)]; fold d1 in G || fold d1 in G3.
      * left. exact G.
      * right. exists (o_tinterval (p_chk p)), (o_ftol (p_chk p)), (o_tdelay (p_chk p)), k.
        split; [|exact G3]. split; [exact G2|]. left. auto.
    + right. exists (o_tinterval (p_plt p)), (o_ftol (p_plt p)), (o_tdelay (p_plt p)), k.
      split; [|exact F3]. split; [exact F2|]. right; left. auto.
  - right. exists (q_tinterval q), (q_ftol q), (q_tdelay q), k.
    split; [|exact D]. split; [exact C|]. right; right. exists q. auto.
Qed.

Lemma adaptive_dt_min p c d e :
  k_init c = false -> 0 < p_min_dt p -> adaptive_dt p c d = Some e ->
  p_min_dt p <= e \/ ends_at_target p (k_cur c + e).
Proof.
  intros Hi Hm H. unfold adaptive_dt in H. rewrite Hi in H. cbn [andb] in H.
  set (d1 := if Qltb 0 (p_max_dt p) then qmin d (p_max_dt p) else d) in *.
  destruct (Qltb 0 (p_min_dt p) && Qltb d1 (p_min_dt p)) eqn:E; [discriminate|].
  assert (Hd1 : p_min_dt p <= d1).
  { apply andb_false_iff in E. destruct E as [E|E]; qprop; lra. }
  set (d2 := if Qltb 0 (p_stop_time p) && Qltb (p_stop_time p) (k_cur c + d1)
              then p_stop_time p - k_cur c else d1) in *.
  inversion H; subst e; clear H.
  destruct (enforce_all_cases p (k_cur c) d2) as [F | (iv & tol & dl & k & F1 & F2)].
  - rewrite F. unfold d2. destruct (Qltb 0 (p_stop_time p) && _) eqn:G; [|left; exact Hd1].
    right. left. lra.
  - right. right. exists iv, tol, dl, k. auto.
Qed.

Definition adaptive_step_min (p : params) (c c2 : clock) : Prop :=
  p_min_dt p <= k_dt0 c2 \/ ends_at_target p (k_new c2).

Lemma ends_at_target_eq p a b : a == b -> ends_at_target p a -> ends_at_target p b.
Proof.
  intros E [H | (iv & tol & dl & k & H1 & H2)].
  - left. rewrite <- E. exact H.
  - right. exists iv, tol, dl, k. split; [exact H1|]. rewrite <- E. exact H2.
Qed.

Lemma evolve_min_dt sq p g c inp s cf evs :
  inputs_ok p -> adaptive p = true -> p_delay_time p <= k_new c -> 0 < p_min_dt p ->
  evolve sq p g c inp = (s, cf, evs) ->
  Forall (fun st => p_min_dt p <= st_dt st \/ ends_at_target p (st_t1 st)) (steps_of evs).
Proof.
  intros Hok Had Hdl Hm He.
  destruct (evolve_invariant sq p g (adaptive_inv p) (adaptive_step_min p)) with (inp := inp) (c := c) (s := s) (cf := cf) (evs := evs)
    as (cs & A & B & _); auto.
  - intros a i a1 a2 HI Hc Hset Hadv. split.
    + apply (adaptive_step sq p a i a1 a2 Hok Had HI Hc Hset Hadv).
    + subst a2. unfold adaptive_step_min. cbn.
      destruct (new_timestep p a) as [b c0] eqn:En. cbn [snd] in Hset.
      apply new_timestep_inv in En. destruct En as (Hb & N1 & N2 & N3 & N4 & N5 & _).
      apply set_cfl_inv in Hset. destruct Hset as (S1 & S2 & S3 & S4 & _ & _ & S7 & d & Hd & S8).
      rewrite Had in S8. destruct S8 as (e & Hde & S9 & S10).
      rewrite not_in_delay in S10 by (rewrite N2; exact HI).
      rewrite S10, S1. apply (adaptive_dt_min p c0 d e N3 Hm Hde).
  - rewrite A. eapply chain_forall; [|exact B]. intros x y H. exact H.
Qed.

(** ** C04 *)

Lemma floor_gap cur iv tol (k : Z) :
  0 < iv -> cur + tol * iv < inject_Z k * iv -> (qfloor (cur / iv + tol) + 1) * iv <= inject_Z k * iv.
Proof.
  intros Hiv Hk.
  assert (H1 : cur / iv + tol < inject_Z k).
  { apply Qmult_lt_r with (z := iv); [exact Hiv|].
    assert (E : (cur / iv + tol) * iv == cur + tol * iv) by (field; lra).
    rewrite E. exact Hk. }
  assert (H2 := qfloor_le (cur / iv + tol)). unfold qfloor in *.
  assert (H3 : inject_Z (Qfloor (cur / iv + tol)) < inject_Z k) by lra.
  rewrite <- Zlt_Qlt in H3.
  assert (H4 : (Qfloor (cur / iv + tol) + 1 <= k)%Z) by lia.
  rewrite Zle_Qle, inject_Z_plus in H4. change (inject_Z 1) with 1 in H4.
  apply Qmult_le_compat_r; lra.
Qed.

Lemma evolve_enforced sq p g c inp s cf evs :
  inputs_ok p -> adaptive p = true -> p_delay_time p <= k_new c ->
  evolve sq p g c inp = (s, cf, evs) ->
  forall iv tol dl, enforced p iv tol dl ->
  Forall (fun st => st_t1 st < dl \/ forall k : Z, st_t0 st + tol * iv < inject_Z k * iv -> st_t1 st <= inject_Z k * iv)
    (steps_of evs).
Proof.
  intros Hok Had Hdl He iv tol dl Hen.
  destruct (evolve_adaptive _ _ _ _ _ _ _ _ Hok Had Hdl He) as (cs & A & B & _).
  rewrite A. eapply chain_forall; [|exact B].
  intros x y (P1 & P2 & P3 & P4 & P5 & P6 & P7 & P8 & P9 & _). cbn.
  destruct (P9 iv tol dl Hen) as [K|K]; [left; lra|].
  right. intros k Hk. rewrite P2 in Hk. destruct Hen as (Hiv & _).
  assert (G := floor_gap _ _ _ _ Hiv Hk). lra.
Qed.

Lemma last_time_cons (s : step) l (i : Z) (t : Q) :
  last (marks (s :: l)) (i, t) = last (marks l) (st_idx s, st_t1 s).
Proof. unfold marks. cbn [map]. apply last_cons. Qed.

(** Every enforced time a run reaches is the end of one of its steps, up to the
    tolerance. *)
Lemma hits_of_steps (iv tol dl : Q) : forall (l : list step) idx t,
  chained idx t l -> 0 < iv -> 0 <= tol ->
  Forall (fun st => 0 < st_dt st) l ->
  Forall (fun st => st_t1 st < dl \/ forall k : Z, st_t0 st + tol * iv < inject_Z k * iv -> st_t1 st <= inject_Z k * iv) l ->
  forall k : Z, dl <= inject_Z k * iv - tol * iv ->
  t < inject_Z k * iv - tol * iv ->
  inject_Z k * iv - tol * iv <= snd (last (marks l) (idx, t)) ->
  exists st, In st l /\ inject_Z k * iv - tol * iv <= st_t1 st /\ st_t1 st <= inject_Z k * iv.
Proof.
  induction l as [|a l IH]; intros idx t Hch Hiv Htol Hpos Hen k Hdl Hlo Hhi.
  - cbn in Hhi. lra.
  - rewrite last_time_cons in Hhi. cbn [chained] in Hch. destruct Hch as (C1 & C2 & C3 & C4).
    inversion Hpos as [|? ? Hp1 Hp2]; subst. inversion Hen as [|? ? He1 He2]; subst.
    destruct (Qlt_le_dec (st_t1 a) (inject_Z k * iv - tol * iv)) as [L|L].
    + destruct (IH (st_idx a) (st_t1 a) C4 Hiv Htol Hp2 He2 k Hdl L Hhi) as (st & S1 & S2 & S3).
      exists st. split; [right; exact S1|]. auto.
    + exists a. split; [left; reflexivity|]. split; [exact L|].
      destruct He1 as [K|K]; [lra|]. apply K. lra.
Qed.

(** ** C08: output windows *)

Lemma window_iff (D x dt : Q) : 0 < D ->
  Qltb (x / D - qfloor (x / D)) (dt / D) = true <->
  exists k : Z, x - dt < inject_Z k * D /\ inject_Z k * D <= x.
Proof.
  intro HD. rewrite Qltb_true.
  assert (Ex : x / D * D == x) by (field; lra).
  assert (Ed : dt / D * D == dt) by (field; lra).
  split.
  - intro H. exists (Qfloor (x / D)).
    assert (H1 := qfloor_le (x / D)). unfold qfloor in *.
    assert (H2 : inject_Z (Qfloor (x / D)) * D <= x / D * D) by (apply Qmult_le_compat_r; lra).
    assert (H3 : (x / D - inject_Z (Qfloor (x / D))) * D < dt / D * D) by (apply Qmult_lt_r; lra).
    split; lra.
  - intros (k & H1 & H2).
    assert (H3 : inject_Z k <= x / D).
    { apply Qmult_le_r with (z := D); [exact HD|]. rewrite Ex. exact H2. }
    assert (H4 : inject_Z k <= qfloor (x / D)).
    { unfold qfloor. rewrite <- Zle_Qle. apply Qfloor_resp_le in H3. rewrite Qfloor_Z in H3. exact H3. }
    assert (H5 : (x / D - inject_Z k) * D < dt / D * D) by lra.
    apply Qmult_lt_r in H5; [|exact HD]. lra.
Qed.

Lemma write_file_time o si st p c :
  (o_interval o <= 0)%Z -> 0 < o_tinterval o -> k_new c == k_cur c + k_dt0 c ->
  let tol := qmin (o_ttol o * k_dt0 c) (abs_tol p) in
  write_file o si st p c = true <->
  o_tdelay o <= k_new c + tol /\ exists k : Z, reaches tol (k_cur c) (k_new c) (st + inject_Z k * o_tinterval o).
Proof.
  intros Hi Ht Hn tol. unfold write_file, in_time_window. fold tol.
  assert (E : (0 <? o_interval o)%Z = false) by lia.
  assert (E2 : Qltb 0 (o_tinterval o) = true) by (apply Qltb_true; exact Ht).
  rewrite E, E2. cbn [andb orb]. rewrite andb_true_iff, (window_iff _ _ _ Ht), Qleb_true.
  unfold reaches. split.
  - intros (A & k & B1 & B2). split; [lra|]. exists k. split; lra.
  - intros (A & k & B1 & B2). split; [lra|]. exists k. split; lra.
Qed.

Lemma window_cover (tol target : Q) : forall l idx t,
  chained idx t l ->
  t + tol < target -> target <= snd (last (marks l) (idx, t)) + tol ->
  exists st, In st l /\ reaches tol (st_t0 st) (st_t1 st) target.
Proof.
  induction l as [|a l IH]; intros idx t Hch Hlo Hhi.
  - cbn in Hhi. lra.
  - rewrite last_time_cons in Hhi. cbn [chained] in Hch. destruct Hch as (C1 & C2 & C3 & C4).
    destruct (Qlt_le_dec (st_t1 a + tol) target) as [L|L].
    + destruct (IH _ _ C4 L Hhi) as (st & S1 & S2). exists st. split; [right; exact S1|exact S2].
    + exists a. split; [left; reflexivity|]. split; lra.
Qed.

Lemma chained_later : forall l idx t,
  chained idx t l -> Forall (fun st => 0 < st_dt st) l ->
  Forall (fun st => (idx < st_idx st)%Z /\ t <= st_t0 st) l.
Proof.
  induction l as [|a l IH]; intros idx t Hch Hpos; [constructor|].
  cbn [chained] in Hch. destruct Hch as (C1 & C2 & C3 & C4).
  inversion Hpos as [|? ? Hp1 Hp2]; subst.
  constructor; [split; [lia|lra]|].
  eapply Forall_impl; [|exact (IH _ _ C4 Hp2)]. cbn. intros st [S1 S2]. split; [lia|lra].
Qed.

Lemma window_unique (tol target : Q) : forall l idx t,
  chained idx t l -> Forall (fun st => 0 < st_dt st) l ->
  forall a b, In a l -> In b l ->
  reaches tol (st_t0 a) (st_t1 a) target -> reaches tol (st_t0 b) (st_t1 b) target -> a = b.
Proof.
  induction l as [|s l IH]; intros idx t Hch Hpos a b Ha Hb Ra Rb; [destruct Ha|].
  cbn [chained] in Hch. destruct Hch as (C1 & C2 & C3 & C4).
  inversion Hpos as [|? ? Hp1 Hp2]; subst.
  assert (L := chained_later _ _ _ C4 Hp2). rewrite Forall_forall in L.
  destruct Ha as [<-|Ha], Hb as [<-|Hb]; auto.
  - exfalso. destruct (L _ Hb) as [_ L2]. destruct Ra, Rb. lra.
  - exfalso. destruct (L _ Ha) as [_ L2]. destruct Ra, Rb. lra.
  - eapply IH; eauto.
Qed.

(** ** C06: restart *)

Lemma cfl_dt_fixed sq p c i : adaptive p = false -> exists d, cfl_dt sq p c i = Some d.
Proof.
  intro H. unfold cfl_dt. rewrite H. cbn [andb]. eexists. reflexivity.
Qed.

Lemma body_fixed sq p g c i : adaptive p = false ->
  let d := if in_delay p (k_cur c) then p_initial_dt p else p_fixed_dt p in
  exists c2 ev, evolve_body sq p g c i = Ret (c2, ev)
    /\ step_of c2 = {| st_idx := k_idx c; st_t0 := k_cur c; st_t1 := k_cur c + d; st_dt := d;
                       st_cfl := (1 # 2) * cfl_unit sq i * d |}.
Proof.
  intros Had d. destruct (cfl_dt_fixed sq p c i Had) as [e He].
  unfold evolve_body, set_current_cfl. rewrite He, Had. cbn [obind].
  eexists. eexists. split; [reflexivity|]. reflexivity.
Qed.

Lemma continue_face p a b : k_idx a = k_idx b -> k_new a = k_new b ->
  continue_simulation p a = continue_simulation p b.
Proof. intros E1 E2. unfold continue_simulation. rewrite E1, E2. reflexivity. Qed.

Lemma new_timestep_go p c : continue_simulation p c = true ->
  k_idx (snd (new_timestep p c)) = (k_idx c + 1)%Z /\ k_cur (snd (new_timestep p c)) = k_new c
  /\ k_dt0 (snd (new_timestep p c)) = k_dt0 c /\ k_init (snd (new_timestep p c)) = false.
Proof. intro H. unfold new_timestep. rewrite H. cbn. auto. Qed.

Lemma evolve_fixed_same sq p g g' : adaptive p = false -> forall inp a b s cf evs s' cf' evs',
  k_idx a = k_idx b -> k_new a = k_new b ->
  evolve sq p g a inp = (s, cf, evs) -> evolve sq p g' b inp = (s', cf', evs') ->
  s = s' /\ steps_of evs = steps_of evs'.
Proof.
  intros Had. induction inp as [|i r IH]; intros a b s cf evs s' cf' evs' Ei En Ha Hb;
  assert (Ec := continue_face p a b Ei En); destruct (continue_simulation p a) eqn:E; symmetry in Ec.
  - rewrite evolve_nil in Ha by exact E. rewrite evolve_nil in Hb by exact Ec.
    inversion Ha; inversion Hb; subst. auto.
  - rewrite evolve_stop in Ha by exact E. rewrite evolve_stop in Hb by exact Ec.
    inversion Ha; inversion Hb; subst. rewrite !steps_final. auto.
  - rewrite evolve_cons in Ha by exact E. rewrite evolve_cons in Hb by exact Ec.
    cbv zeta in Ha, Hb.
    destruct (new_timestep_go p a E) as (A1 & A2 & _). destruct (new_timestep_go p b Ec) as (B1 & B2 & _).
    destruct (body_fixed sq p g (snd (new_timestep p a)) i Had) as (ca & eva & Ea & Sa).
    destruct (body_fixed sq p g' (snd (new_timestep p b)) i Had) as (cb & evb & Eb & Sb).
    rewrite Ea in Ha. rewrite Eb in Hb.
    destruct (evolve sq p g ca r) as [[s1 cf1] ev1] eqn:E1.
    destruct (evolve sq p g' cb r) as [[s2 cf2] ev2] eqn:E2.
    assert (Sab : step_of ca = step_of cb) by (rewrite Sa, Sb, A1, A2, B1, B2, Ei, En; reflexivity).
    assert (Hi : k_idx ca = k_idx cb) by (apply (f_equal st_idx) in Sab; exact Sab).
    assert (Hn : k_new ca = k_new cb) by (apply (f_equal st_t1) in Sab; exact Sab).
    destruct (IH _ _ _ _ _ _ _ _ Hi Hn E1 E2) as [K1 K2].
    inversion Ha; inversion Hb; subst. split; [reflexivity|].
    rewrite !steps_of_app, K2, (steps_body _ _ _ _ _ _ _ Ea), (steps_body _ _ _ _ _ _ _ Eb), Sab. reflexivity.
  - rewrite evolve_stop in Ha by exact E. rewrite evolve_stop in Hb by exact Ec.
    inversion Ha; inversion Hb; subst. rewrite !steps_final. auto.
Qed.

(** Adaptive: once idx, time and the current dt agree the runs agree. *)
Lemma body_adaptive_same sq p g g' a b i ca eva :
  k_idx a = k_idx b -> k_cur a = k_cur b -> k_init a = k_init b ->
  cfl_dt sq p a i = cfl_dt sq p b i ->
  evolve_body sq p g a i = Ret (ca, eva) ->
  exists cb evb, evolve_body sq p g' b i = Ret (cb, evb) /\ step_of ca = step_of cb.
Proof.
  intros Ei Ec Ein Ed H. unfold evolve_body, set_current_cfl in *. rewrite <- Ed, <- Ec.
  destruct (cfl_dt sq p a i) as [d|]; [|discriminate].
  assert (Ea : adaptive_dt p b d = adaptive_dt p a d).
  { unfold adaptive_dt. rewrite Ec, Ein. reflexivity. }
  rewrite Ea. destruct (adaptive p).
  - destruct (adaptive_dt p a d) as [e|]; [|discriminate].
    cbn [obind] in *. inversion H; subst. eexists. eexists. split; [reflexivity|].
    unfold step_of. cbn. rewrite Ei, Ec. reflexivity.
  - cbn [obind] in *. inversion H; subst. eexists. eexists. split; [reflexivity|].
    unfold step_of. cbn. rewrite Ei, Ec. reflexivity.
Qed.

Lemma body_adaptive_abort sq p g g' a b i :
  k_cur a = k_cur b -> k_init a = k_init b ->
  cfl_dt sq p a i = cfl_dt sq p b i ->
  (forall ca eva, evolve_body sq p g a i <> Ret (ca, eva)) ->
  (forall cb evb, evolve_body sq p g' b i <> Ret (cb, evb)).
Proof.
  intros Ec Ein Ed H cb evb K. unfold evolve_body, set_current_cfl in *. rewrite <- Ed in K.
  destruct (cfl_dt sq p a i) as [d|]; [|discriminate].
  assert (Ea : adaptive_dt p b d = adaptive_dt p a d).
  { unfold adaptive_dt. rewrite Ec, Ein. reflexivity. }
  rewrite Ea in K. destruct (adaptive p).
  - destruct (adaptive_dt p a d) as [e|]; [|discriminate].
    cbn [obind] in *. eapply H. reflexivity.
  - cbn [obind] in *. eapply H. reflexivity.
Qed.

(** [same_cfl]: the two clocks get the same CFL step from the first input. *)
Definition same_cfl sq p a b (inp : list cfl_in) : Prop :=
  match inp with [] => True | i :: _ => cfl_dt sq p (snd (new_timestep p a)) i = cfl_dt sq p (snd (new_timestep p b)) i end.

Lemma cfl_dt_face sq p a b i : k_cur a = k_cur b -> k_init a = k_init b -> k_dt0 a = k_dt0 b ->
  cfl_dt sq p a i = cfl_dt sq p b i.
Proof. intros A B C. unfold cfl_dt. rewrite A, B, C. reflexivity. Qed.

Lemma evolve_same sq p g g' : forall inp a b s cf evs s' cf' evs',
  k_idx a = k_idx b -> k_new a = k_new b -> same_cfl sq p a b inp ->
  evolve sq p g a inp = (s, cf, evs) -> evolve sq p g' b inp = (s', cf', evs') ->
  s = s' /\ steps_of evs = steps_of evs'.
Proof.
  induction inp as [|i r IH]; intros a b s cf evs s' cf' evs' Ei En Hs Ha Hb;
  assert (Ec := continue_face p a b Ei En); destruct (continue_simulation p a) eqn:E; symmetry in Ec.
  - rewrite evolve_nil in Ha by exact E. rewrite evolve_nil in Hb by exact Ec.
    inversion Ha; inversion Hb; subst. auto.
  - rewrite evolve_stop in Ha by exact E. rewrite evolve_stop in Hb by exact Ec.
    inversion Ha; inversion Hb; subst. rewrite !steps_final. auto.
  - rewrite evolve_cons in Ha by exact E. rewrite evolve_cons in Hb by exact Ec.
    cbv zeta in Ha, Hb.
    destruct (new_timestep_go p a E) as (A1 & A2 & A3 & A4). destruct (new_timestep_go p b Ec) as (B1 & B2 & B3 & B4).
    cbn [same_cfl] in Hs.
    set (a1 := snd (new_timestep p a)) in *. set (b1 := snd (new_timestep p b)) in *.
    assert (I1 : k_idx a1 = k_idx b1) by congruence.
    assert (I2 : k_cur a1 = k_cur b1) by congruence.
    assert (I3 : k_init a1 = k_init b1) by congruence.
    destruct (evolve_body sq p g a1 i) as [[ca eva]| |] eqn:Ea.
    + destruct (body_adaptive_same sq p g g' a1 b1 i ca eva I1 I2 I3 Hs Ea) as (cb & evb & Eb & Sab).
      rewrite Eb in Hb.
      destruct (evolve sq p g ca r) as [[s1 cf1] ev1] eqn:E1.
      destruct (evolve sq p g' cb r) as [[s2 cf2] ev2] eqn:E2.
      assert (Hi : k_idx ca = k_idx cb) by (apply (f_equal st_idx) in Sab; exact Sab).
      assert (Hn : k_new ca = k_new cb) by (apply (f_equal st_t1) in Sab; exact Sab).
      assert (Hd : k_dt0 ca = k_dt0 cb) by (apply (f_equal st_dt) in Sab; exact Sab).
      assert (Hsc : same_cfl sq p ca cb r).
      { destruct r as [|j r]; [exact Logic.I|]. cbn [same_cfl].
        assert (K := continue_face p ca cb Hi Hn). unfold new_timestep. rewrite <- K.
        destruct (continue_simulation p ca); apply cfl_dt_face; cbn; congruence. }
      destruct (IH _ _ _ _ _ _ _ _ Hi Hn Hsc E1 E2) as [K1 K2].
      inversion Ha; inversion Hb; subst. split; [reflexivity|].
      rewrite !steps_of_app, K2, (steps_body _ _ _ _ _ _ _ Ea), (steps_body _ _ _ _ _ _ _ Eb), Sab. reflexivity.
    + assert (N : forall cb evb, evolve_body sq p g' b1 i <> Ret (cb, evb)).
      { apply (body_adaptive_abort sq p g g' a1 b1 i I2 I3 Hs). intros ca eva. rewrite Ea. discriminate. }
      destruct (evolve_body sq p g' b1 i) as [[cb evb]| |] eqn:Eb; [exfalso; apply (N cb evb); reflexivity| |];
      inversion Ha; inversion Hb; subst; auto.
    + assert (N : forall cb evb, evolve_body sq p g' b1 i <> Ret (cb, evb)).
      { apply (body_adaptive_abort sq p g g' a1 b1 i I2 I3 Hs). intros ca eva. rewrite Ea. discriminate. }
      destruct (evolve_body sq p g' b1 i) as [[cb evb]| |] eqn:Eb; [exfalso; apply (N cb evb); reflexivity| |];
      inversion Ha; inversion Hb; subst; auto.
  - rewrite evolve_stop in Ha by exact E. rewrite evolve_stop in Hb by exact Ec.
    inversion Ha; inversion Hb; subst. rewrite !steps_final. auto.
Qed.

(** Where a state reached by a run sits in it. *)
Definition face (s : step) : Z * Q * Q := (st_idx s, st_t1 s, st_dt s).
Definition cface (c : clock) : Z * Q * Q := (k_idx c, k_new c, k_dt0 c).

Lemma evolve_split sq p g : forall inp c s cf evs,
  evolve sq p g c inp = (s, cf, evs) ->
  forall n, (n <= length (steps_of evs))%nat ->
  exists ck cf' evs', evolve sq p g ck (skipn n inp) = (s, cf', evs')
    /\ steps_of evs' = skipn n (steps_of evs)
    /\ k_idx ck = (k_idx c + Z.of_nat n)%Z
    /\ cface ck = nth n (cface c :: map face (steps_of evs)) (0%Z, 0, 0).
Proof.
  induction inp as [|i r IH]; intros c s cf evs He n Hn.
  - assert (L : steps_of evs = []).
    { destruct (continue_simulation p c) eqn:Ec.
      - rewrite evolve_nil in He by exact Ec. inversion He; reflexivity.
      - rewrite evolve_stop in He by exact Ec. inversion He. apply steps_final. }
    rewrite L in Hn. cbn in Hn. assert (n = O) by lia. subst n.
    exists c, cf, evs. rewrite L. cbn. repeat split; auto; lia.
  - destruct n as [|n].
    { exists c, cf, evs. cbn [skipn nth]. repeat split; auto; lia. }
    destruct (continue_simulation p c) eqn:Ec.
    + rewrite evolve_cons in He by exact Ec. cbv zeta in He.
      destruct (evolve_body sq p g (snd (new_timestep p c)) i) as [[c2 ev]| |] eqn:Eb;
        try (inversion He; subst; cbn in Hn; lia).
      destruct (evolve sq p g c2 r) as [[s' cf'] evs'] eqn:Er.
      inversion He; subst s cf evs; clear He.
      rewrite steps_of_app, (steps_body _ _ _ _ _ _ _ Eb) in Hn |- *.
      cbn [app length] in Hn |- *. assert (Hn' : (n <= length (steps_of evs'))%nat) by lia.
      destruct (IH _ _ _ _ Er n Hn') as (ck & cf1 & evs1 & K1 & K3 & K4 & K5).
      exists ck, cf1, evs1. cbn [skipn].
      assert (Hidx : k_idx c2 = (k_idx c + 1)%Z).
      { assert (B := Eb). apply body_inv in B. destruct B as (c1 & Hset & Hadv & _).
        apply set_cfl_inv in Hset. destruct Hset as (_ & _ & S3 & _).
        destruct (new_timestep_go p c Ec) as (A1 & _). subst c2. cbn. congruence. }
      split; [exact K1|]. split; [exact K3|].
      split; [rewrite K4, Hidx; lia|].
      rewrite K5. reflexivity.
    + rewrite evolve_stop in He by exact Ec. inversion He; subst. rewrite steps_final in Hn.
      cbn in Hn. lia.
Qed.

(** A checkpoint event carries the index, time and dt of the state after step
    number idx of the run. *)
Definition full_chk (e : event) : option (Z * Q * Q) :=
  match e with EChk i t d _ _ => Some (i, t, d) | _ => None end.

Lemma no_chk_post sel c l e : forall n, In e (post_events sel c n l) -> full_chk e = None.
Proof.
  induction l as [|q l IH]; intros n H; [destruct H|]. cbn [post_events] in H.
  apply in_app_iff in H. destruct H as [H|H]; [|eapply IH; exact H].
  destruct (sel q); [destruct H as [<-|[]]; reflexivity|destruct H].
Qed.

Lemma chk_in_work p g c e x : In e (post_advance_work p g c) -> full_chk e = Some x -> x = cface c.
Proof.
  unfold post_advance_work. rewrite !in_app_iff. intros [H|[H|H]] Hx.
  - rewrite (no_chk_post _ _ _ _ _ H) in Hx. discriminate.
  - destruct (write_plot_file p g c); [destruct H as [<-|[]]; discriminate|destruct H].
  - destruct (write_checkpoint p g c); [destruct H as [<-|[]]|destruct H]. cbn in Hx. inversion Hx. reflexivity.
Qed.

Lemma chk_in_loop p g c e x : In e (loop_events p g c) -> full_chk e = Some x -> x = cface c.
Proof.
  unfold loop_events. rewrite in_app_iff. cbn [In]. intros [H|[H|H]] Hx.
  - destruct (do_regrid p g c); [destruct H as [<-|[]]; discriminate|destruct H].
  - subst e. discriminate.
  - eapply chk_in_work; eauto.
Qed.

Lemma chk_in_final p g c e x : In e (final_events p g c) -> full_chk e = Some x -> x = cface c.
Proof.
  unfold final_events. rewrite !in_app_iff. intros [H|[H|H]] Hx.
  - destruct (write_last_plot_file p g c); [destruct H as [<-|[]]; discriminate|destruct H].
  - destruct (write_last_checkpoint p g c); [destruct H as [<-|[]]|destruct H]. cbn in Hx. inversion Hx. reflexivity.
  - rewrite (no_chk_post _ _ _ _ _ H) in Hx. discriminate.
Qed.

Lemma chain_nth_idx p I (P : clock -> clock -> Prop) cs : forall c,
  (forall a b, P a b -> k_idx b = (k_idx a + 1)%Z) -> chain p I P c cs ->
  forall x, In x (c :: cs) ->
  exists n, (n <= length cs)%nat /\ k_idx x = (k_idx c + Z.of_nat n)%Z /\ nth n (c :: cs) c = x.
Proof.
  induction cs as [|c2 cs IH]; intros c HP H x Hx.
  - destruct Hx as [<-|[]]. exists O. cbn. repeat split; auto; lia.
  - cbn [chain] in H. destruct H as (P1 & _ & _ & H). assert (K := HP _ _ P1).
    destruct Hx as [<-|Hx]; [exists O; cbn; repeat split; auto; lia|].
    destruct (IH c2 HP H x Hx) as (n & N1 & N2 & N3). exists (S n). cbn [length].
    split; [lia|]. split; [lia|]. change (nth n (c2 :: cs) c = x).
    rewrite (nth_indep (c2 :: cs) c c2) by (cbn; lia). exact N3.
Qed.

Lemma chk_event_position sq p g c inp s cf evs i t d d1 d2 :
  evolve sq p g c inp = (s, cf, evs) -> In (EChk i t d d1 d2) evs ->
  exists n, (n <= length (steps_of evs))%nat /\ i = (k_idx c + Z.of_nat n)%Z
    /\ (i, t, d) = nth n (cface c :: map face (steps_of evs)) (0%Z, 0, 0).
Proof.
  intros He Hin.
  destruct (evolve_trace _ _ _ _ _ _ _ _ He) as (cs & E1 & E2 & E3 & E4).
  assert (HP : forall a b : clock, (k_idx b = (k_idx a + 1)%Z /\ k_cur b = k_new a) -> k_idx b = (k_idx a + 1)%Z) by tauto.
  assert (X : exists x, In x (c :: cs) /\ (i, t, d) = cface x).
  { rewrite E1 in Hin. apply in_app_iff in Hin. destruct Hin as [Hin|Hin].
    - apply in_flat_map in Hin. destruct Hin as (x & Hx & Hin). exists x. split; [right; exact Hx|].
      eapply chk_in_loop; [exact Hin | reflexivity].
    - destruct s; try (destruct Hin; fail). destruct (E3 eq_refl) as (F1 & F2 & F3).
      exists (last cs c). split.
      + destruct cs as [|y cs]; [left; reflexivity|]. right. apply last_in. discriminate.
      + unfold cface. rewrite <- F1, <- F2, <- F3.
        eapply chk_in_final; [exact Hin | reflexivity]. }
  destruct X as (x & Hx & Ex).
  destruct (chain_nth_idx _ _ _ _ _ HP E4 x Hx) as (n & N1 & N2 & N3).
  exists n. rewrite E2, map_length. split; [exact N1|].
  split; [unfold cface in Ex; inversion Ex; exact N2|].
  rewrite map_map. change (cface c :: map (fun y => face (step_of y)) cs) with (map cface (c :: cs)).
  rewrite Ex, <- N3.
  rewrite (nth_indep (map cface (c :: cs)) (0%Z, 0, 0) (cface c)) by (rewrite map_length; cbn; lia).
  symmetry. apply map_nth.
Qed.
