(** Time-interval outputs at run level (C08) and dry runs (C43). *)
From Verif Require Import BaseFacts SimTime SimTimeSpec SimTimeProofs SimTimeProofs2 SimTimeProofs3
  SimTimeProofs4 SimTimeProofs5 SimTimeProofs6.
From Coq Require Import Setoid ZifyBool.
Local Open Scope Q_scope.

Lemma post_now_time p g c q :
  time_based q -> k_new c == k_cur c + k_dt0 c ->
  let tol := post_tol p q (k_dt0 c) in
  post_now p g c q = true <->
  q_tdelay q <= k_new c + tol /\
  exists k : Z, reaches tol (k_cur c) (k_new c) (post_time_origin q (g_start_time g) + inject_Z k * q_tinterval q).
Proof.
  intros [Hi Ht] Hn tol. unfold post_now, do_output_now.
  assert (E : (0 <? q_interval q)%Z = false) by lia.
  assert (E2 : Qltb 0 (q_tinterval q) = true) by (apply Qltb_true; exact Ht).
  rewrite E, E2. cbn [andb orb].
  fold (post_time_origin q (g_start_time g)).
  change (qmin (abs_tol p) (q_ttol q * k_dt0 c)) with tol.
  set (o := post_time_origin q (g_start_time g)). set (D := q_tinterval q) in *.
  set (x := k_new c - o + tol).
  assert (W : Qltb (x - qfloor (x / D) * D) (k_dt0 c) = true <->
              exists k : Z, x - k_dt0 c < inject_Z k * D /\ inject_Z k * D <= x).
  { rewrite <- (window_iff D x (k_dt0 c) Ht), !Qltb_true.
    assert (Ex : x / D * D == x) by (field; lra).
    assert (Ed : k_dt0 c / D * D == k_dt0 c) by (field; lra).
    split; intro H.
    - apply Qmult_lt_r with (z := D); [exact Ht|]. lra.
    - assert (H3 : (x / D - qfloor (x / D)) * D < k_dt0 c / D * D) by (apply Qmult_lt_r; lra). lra. }
  rewrite andb_true_iff, W, Qleb_true. unfold reaches, x. split.
  - intros (A & k & B1 & B2). split; [lra|]. exists k. split; lra.
  - intros (A & k & B1 & B2). split; [lra|]. exists k. split; lra.
Qed.

Lemma evolve_post_time sq p g c inp s cf evs k q :
  nth_error (p_post p) k = Some q -> time_based q ->
  evolve sq p g c inp = (s, cf, evs) ->
  (forall x, In x (steps_of evs) -> q_tdelay q <= st_t1 x + post_tol p q (st_dt x) ->
     post_due p q (g_start_time g) x -> In (st_idx x, st_t1 x) (posts_of k evs))
  /\ (forall i t, In (i, t) (posts_of k evs) ->
       (exists x, In x (steps_of evs) /\ (i, t) = (st_idx x, st_t1 x) /\ post_due p q (g_start_time g) x)
       \/ (s = Finished /\ q_final q = true /\ (i, t) = last (marks (steps_of evs)) (k_idx c, k_new c))).
Proof.
  intros Hk Hq He.
  destruct (evolve_chain_new _ _ _ _ _ _ _ _ He) as (cs & E1 & E2 & E3 & E4 & E5).
  assert (Ep : posts_of k evs = flat_map (in_loop p g q) cs
                 ++ match s with Finished => sel_mark (fun c => q_final q && negb (post_now p g c q)) cf | _ => [] end).
  { rewrite E1, posts_of_app.
    rewrite (flat_map_proj (posts_of k) p g _ cs (posts_of_app k) eq_refl (fun c => posts_loop p g c k q Hk)).
    f_equal. destruct s; try reflexivity. apply posts_final. exact Hk. }
  rewrite Forall_forall in E4. split.
  - intros x Hx Hd Hdue. rewrite Ep, in_app_iff. left. rewrite E2 in Hx.
    apply in_map_iff in Hx. destruct Hx as (y & <- & Hy). unfold in_loop. apply flat_sel_mark_in.
    exists y. split; [exact Hy|]. split; [|reflexivity].
    apply (post_now_time p g y q Hq); [rewrite (E4 y Hy); reflexivity|]. split; assumption.
  - intros i t Hin. rewrite Ep, in_app_iff in Hin. destruct Hin as [Hin|Hin].
    + left. unfold in_loop in Hin. apply flat_sel_mark_in in Hin. destruct Hin as (y & Hy & Hw & Hm).
      exists (step_of y). split; [rewrite E2; apply in_map; exact Hy|]. split; [exact Hm|].
      apply (post_now_time p g y q Hq) in Hw; [|rewrite (E4 y Hy); reflexivity]. apply Hw.
    + right. destruct s; try (destruct Hin; fail).
      unfold sel_mark in Hin. destruct (q_final q); [|destruct Hin]. cbn [andb] in Hin.
      destruct (negb (post_now p g cf q)); [|destruct Hin].
      destruct Hin as [Hin|[]]. destruct (E3 eq_refl) as (F1 & F2 & _).
      split; [reflexivity|]. split; [reflexivity|]. rewrite <- Hin.
      unfold marks. rewrite E2, map_step_mark. change (k_idx c, k_new c) with (mark c).
      rewrite last_map. unfold mark. rewrite F1, F2. reflexivity.
Qed.

(** *** Runs *)

Definition plt_origin_time (p : params) (t : Q) : Q := odef (o_start_time (p_plt p)) t.

Lemma is_run_evolve sq p idx t inp s cf evs :
  is_run sq p idx t inp (s, cf, evs) ->
  (s = Aborted /\ evs = []) \/
  exists g c ev evs', evolve sq p g c inp = (s, cf, evs') /\ k_idx c = idx /\ k_new c = t /\ evs = ev ++ evs'
    /\ steps_of evs = steps_of evs' /\ g_start_time g = t /\ g_start_idx g = idx
    /\ g_plt_start_time g = odef (o_start_time (p_plt p)) t
    /\ g_chk_start_time g = odef (o_start_time (p_chk p)) t
    /\ (forall m, In m (plots_of ev) -> m = (idx, t))
    /\ (forall m, In m (chks_of ev) -> m = (idx, t))
    /\ (forall k q m, nth_error (p_post p) k = Some q -> In m (posts_of k ev) -> m = (idx, t)).
Proof.
  intros [(-> & -> & init & H) | (d1 & d2 & H)].
  - apply run_fresh_inv in H. destruct H as [H|(c1 & ev & evs' & H1 & H2 & -> & H4 & H5 & H6 & H7)]; [left; exact H|].
    right. exists (fresh_origin p), c1, ev, evs'.
    apply initialise_inv in H1. destruct H1 as (_ & _ & _ & _ & Hp & Hc & _ & Hq).
    split; [exact H2|]. split; [exact H5|]. split; [exact H4|]. split; [reflexivity|]. split; [exact H7|].
    split; [reflexivity|]. split; [reflexivity|]. split; [reflexivity|]. split; [reflexivity|].
    unfold sel_mark, mark in *. rewrite H5, H4 in *.
    split; [|split].
    + intros m Hm. rewrite Hp in Hm. destruct (write_plot_file _ _ _); [destruct Hm as [<-|[]]; reflexivity|destruct Hm].
    + intros m Hm. rewrite Hc in Hm. destruct (write_checkpoint _ _ _); [destruct Hm as [<-|[]]; reflexivity|destruct Hm].
    + intros k q m Hk Hm. rewrite (Hq k q Hk) in Hm.
      destruct (post_now _ _ _ _); [destruct Hm as [<-|[]]; reflexivity|destruct Hm].
  - apply run_restart_inv in H. destruct H as [H|(evs' & H1 & H2 & H3)]; [left; exact H|].
    right. eexists. eexists. eexists. exists evs'. split; [exact H1|].
    split; [reflexivity|]. split; [reflexivity|]. split; [exact H2|]. split; [exact H3|].
    split; [reflexivity|]. split; [reflexivity|]. split; [reflexivity|]. split; [reflexivity|].
    rewrite plots_post_events, chks_post_events.
    split; [intros m []|]. split; [intros m []|].
    intros k q m Hk Hm. rewrite (posts_post_events _ _ _ 0 k q Hk) in Hm.
    destruct (post_now _ _ _ _); [destruct Hm as [<-|[]]; reflexivity|destruct Hm].
Qed.

Lemma run_time_files sq p idx t inp s cf evs o start (proj : list event -> list (Z * Q)) :
  (o = p_plt p /\ start = odef (o_start_time (p_plt p)) t /\ proj = plots_of)
  \/ (o = p_chk p /\ start = odef (o_start_time (p_chk p)) t /\ proj = chks_of) ->
  (o_interval o <= 0)%Z -> 0 < o_tinterval o ->
  is_run sq p idx t inp (s, cf, evs) ->
  (forall x, In x (steps_of evs) -> o_tdelay o <= st_t1 x + file_tol p o (st_dt x) -> due p o start x ->
     In (st_idx x, st_t1 x) (proj evs))
  /\ (forall i u, In (i, u) (proj evs) ->
       (exists x, In x (steps_of evs) /\ (i, u) = (st_idx x, st_t1 x) /\ due p o start x)
       \/ (i, u) = (idx, t)
       \/ (s = Finished /\ (i, u) = last (marks (steps_of evs)) (idx, t))).
Proof.
  intros Hsel Hi Ht Hr. apply is_run_evolve in Hr.
  destruct Hr as [(-> & ->) | (g & c & ev & evs' & He & Hx & Hn & -> & Hs & Hg1 & Hg2 & Hg3 & Hg4 & Hp & Hc & _)].
  { split; [intros x []|]. destruct Hsel as [(_ & _ & ->)|(_ & _ & ->)]; intros i u []. }
  rewrite Hs. subst idx t.
  destruct Hsel as [(-> & -> & ->)|(-> & -> & ->)].
  - destruct (time_file _ _ _ _ _ _ _ _ (p_plt p) (g_plt_start g) (g_plt_start_time g) plots_of
      plots_of_app eq_refl (plots_loop p g) (plots_final p g) Hi Ht He) as (A & B & _).
    rewrite Hg3 in A, B. split.
    + intros x Hin Hd Hdue. rewrite plots_of_app, in_app_iff. right. apply A; assumption.
    + intros i u Hin. rewrite plots_of_app, in_app_iff in Hin. destruct Hin as [Hin|Hin].
      * right; left. apply Hp. exact Hin.
      * destruct (B i u Hin) as [K|K]; [left; exact K | right; right; exact K].
  - destruct (time_file _ _ _ _ _ _ _ _ (p_chk p) (g_chk_start g) (g_chk_start_time g) chks_of
      chks_of_app eq_refl (chks_loop p g) (chks_final p g) Hi Ht He) as (A & B & _).
    rewrite Hg4 in A, B. split.
    + intros x Hin Hd Hdue. rewrite chks_of_app, in_app_iff. right. apply A; assumption.
    + intros i u Hin. rewrite chks_of_app, in_app_iff in Hin. destruct Hin as [Hin|Hin].
      * right; left. apply Hc. exact Hin.
      * destruct (B i u Hin) as [K|K]; [left; exact K | right; right; exact K].
Qed.

Lemma run_chained sq p idx t inp s cf evs :
  is_run sq p idx t inp (s, cf, evs) -> chained idx t (steps_of evs).
Proof.
  intro Hr. apply is_run_inv in Hr.
  destruct Hr as [(-> & ->) | (g & c & ev & evs' & He & <- & <- & Hev & Hst)]; [exact Logic.I|].
  rewrite Hst. destruct (evolve_chain_new _ _ _ _ _ _ _ _ He) as (_ & _ & _ & _ & _ & H). exact H.
Qed.

(** Exactly one step reaches each target when the tolerance does not change. *)
Lemma one_step_per_target sq p idx t inp s cf evs (tolf : Q -> Q) tol target :
  is_run sq p idx t inp (s, cf, evs) ->
  Forall (fun x => 0 < st_dt x /\ tolf (st_dt x) == tol) (steps_of evs) ->
  t + tol < target -> target <= snd (last (marks (steps_of evs)) (idx, t)) + tol ->
  exists x, In x (steps_of evs) /\ reaches (tolf (st_dt x)) (st_t0 x) (st_t1 x) target
    /\ forall y, In y (steps_of evs) -> reaches (tolf (st_dt y)) (st_t0 y) (st_t1 y) target -> y = x.
Proof.
  intros Hr Hall Hlo Hhi. assert (Hch := run_chained _ _ _ _ _ _ _ _ Hr).
  destruct (window_cover tol target _ _ _ Hch Hlo Hhi) as (x & Hx & Rx).
  rewrite Forall_forall in Hall.
  assert (E : forall y, In y (steps_of evs) ->
            (reaches (tolf (st_dt y)) (st_t0 y) (st_t1 y) target <-> reaches tol (st_t0 y) (st_t1 y) target)).
  { intros y Hy. destruct (Hall y Hy) as [_ Et]. unfold reaches. split; intros [? ?]; split; lra. }
  exists x. split; [exact Hx|]. split; [apply E; assumption|].
  intros y Hy Ry. apply E in Ry; [|exact Hy].
  apply (window_unique tol target _ _ _ Hch) with (a := y) (b := x); auto.
  rewrite Forall_forall. intros z Hz. apply (Hall z Hz).
Qed.

Lemma qmin_compat a b c d : a == b -> c == d -> qmin a c == qmin b d.
Proof.
  intros E F. unfold qmin. destruct (Qltb c a) eqn:X, (Qltb d b) eqn:Y; qprop; lra.
Qed.

Lemma fixed_tol sq p idx t inp s cf evs o :
  adaptive p = false -> p_delay_time p <= t -> is_run sq p idx t inp (s, cf, evs) ->
  Forall (fun x => 0 < st_dt x /\ file_tol p o (st_dt x) == file_tol p o (p_fixed_dt p)) (steps_of evs).
Proof.
  intros Had Hd Hr. destruct (run_time_fixed _ _ _ _ _ _ _ _ Had Hd Hr) as (_ & F & _).
  assert (Hf : 0 < p_fixed_dt p).
  { unfold adaptive in Had. apply negb_false_iff in Had. qprop. exact Had. }
  eapply Forall_impl; [|exact F]. cbn. intros x [E _]. split; [rewrite E; exact Hf|].
  unfold file_tol. apply qmin_compat; [rewrite E|]; reflexivity.
Qed.

Lemma fixed_post_tol sq p idx t inp s cf evs q :
  adaptive p = false -> p_delay_time p <= t -> is_run sq p idx t inp (s, cf, evs) ->
  Forall (fun x => 0 < st_dt x /\ post_tol p q (st_dt x) == post_tol p q (p_fixed_dt p)) (steps_of evs).
Proof.
  intros Had Hd Hr. destruct (run_time_fixed _ _ _ _ _ _ _ _ Had Hd Hr) as (_ & F & _).
  assert (Hf : 0 < p_fixed_dt p).
  { unfold adaptive in Had. apply negb_false_iff in Had. qprop. exact Had. }
  eapply Forall_impl; [|exact F]. cbn. intros x [E _]. split; [rewrite E; exact Hf|].
  unfold post_tol. apply qmin_compat; [|rewrite E]; reflexivity.
Qed.

Lemma run_time_files_fixed sq p idx t inp s cf evs o start (proj : list event -> list (Z * Q)) :
  (o = p_plt p /\ start = odef (o_start_time (p_plt p)) t /\ proj = plots_of)
  \/ (o = p_chk p /\ start = odef (o_start_time (p_chk p)) t /\ proj = chks_of) ->
  (o_interval o <= 0)%Z -> 0 < o_tinterval o -> adaptive p = false -> p_delay_time p <= t ->
  is_run sq p idx t inp (s, cf, evs) ->
  let tol := file_tol p o (p_fixed_dt p) in
  forall k : Z, let target := start + inject_Z k * o_tinterval o in
  o_tdelay o <= target -> t + tol < target ->
  target <= snd (last (marks (steps_of evs)) (idx, t)) + tol ->
  exists x, In x (steps_of evs) /\ In (st_idx x, st_t1 x) (proj evs)
    /\ target - tol <= st_t1 x < target - tol + p_fixed_dt p
    /\ forall y, In y (steps_of evs) -> target - tol <= st_t1 y < target - tol + p_fixed_dt p -> y = x.
Proof.
  intros Hsel Hi Ht Had Hd Hr tol k target Hdl Hlo Hhi.
  destruct (one_step_per_target _ _ _ _ _ _ _ _ (file_tol p o) tol target Hr
     (fixed_tol _ _ _ _ _ _ _ _ o Had Hd Hr) Hlo Hhi) as (x & Hx & Rx & U).
  destruct (run_time_files _ _ _ _ _ _ _ _ _ _ _ Hsel Hi Ht Hr) as (A & _).
  destruct (run_time_fixed _ _ _ _ _ _ _ _ Had Hd Hr) as (Hch & F & _).
  assert (Fx : forall y, In y (steps_of evs) -> st_dt y == p_fixed_dt p /\ file_tol p o (st_dt y) == tol
       /\ st_t1 y == st_t0 y + st_dt y).
  { intros y Hy. assert (Ft := fixed_tol _ _ _ _ _ _ _ _ o Had Hd Hr).
    rewrite Forall_forall in F, Ft. destruct (F y Hy) as [E _]. destruct (Ft y Hy) as [_ E2].
    split; [exact E|]. split; [exact E2|].
    clear - Hch Hy. revert idx t Hch Hy. induction (steps_of evs) as [|a l IH]; intros idx t Hch Hy; [destruct Hy|].
    cbn [chained] in Hch. destruct Hch as (_ & _ & E & C). destruct Hy as [<-|Hy]; [exact E|]. eapply IH; eauto. }
  exists x. split; [exact Hx|]. destruct (Fx x Hx) as (E1 & E2 & E3). destruct Rx as [R1 R2].
  split.
  { apply A; [exact Hx | rewrite E2 in *; lra |]. exists k. split; assumption. }
  split; [split; lra|].
  intros y Hy [Y1 Y2]. apply U; [exact Hy|]. destruct (Fx y Hy) as (G1 & G2 & G3). split; lra.
Qed.

Lemma run_time_post_fixed sq p idx t inp s cf evs k q :
  nth_error (p_post p) k = Some q -> time_based q -> adaptive p = false -> p_delay_time p <= t ->
  is_run sq p idx t inp (s, cf, evs) ->
  let tol := post_tol p q (p_fixed_dt p) in
  forall m : Z, let target := post_time_origin q t + inject_Z m * q_tinterval q in
  q_tdelay q <= target -> t + tol < target ->
  target <= snd (last (marks (steps_of evs)) (idx, t)) + tol ->
  exists x, In x (steps_of evs) /\ In (st_idx x, st_t1 x) (posts_of k evs)
    /\ target - tol <= st_t1 x < target - tol + p_fixed_dt p
    /\ forall y, In y (steps_of evs) -> target - tol <= st_t1 y < target - tol + p_fixed_dt p -> y = x.
Proof.
  intros Hk Hq Had Hd Hr tol m target Hdl Hlo Hhi.
  destruct (one_step_per_target _ _ _ _ _ _ _ _ (post_tol p q) tol target Hr
     (fixed_post_tol _ _ _ _ _ _ _ _ q Had Hd Hr) Hlo Hhi) as (x & Hx & Rx & U).
  destruct (run_time_fixed _ _ _ _ _ _ _ _ Had Hd Hr) as (Hch & F & _).
  assert (Fx : forall y, In y (steps_of evs) -> st_dt y == p_fixed_dt p /\ post_tol p q (st_dt y) == tol
       /\ st_t1 y == st_t0 y + st_dt y).
  { intros y Hy. assert (Ft := fixed_post_tol _ _ _ _ _ _ _ _ q Had Hd Hr).
    rewrite Forall_forall in F, Ft. destruct (F y Hy) as [E _]. destruct (Ft y Hy) as [_ E2].
    split; [exact E|]. split; [exact E2|].
    clear - Hch Hy. revert idx t Hch Hy. induction (steps_of evs) as [|a l IH]; intros idx t Hch Hy; [destruct Hy|].
    cbn [chained] in Hch. destruct Hch as (_ & _ & E & C). destruct Hy as [<-|Hy]; [exact E|]. eapply IH; eauto. }
  exists x. split; [exact Hx|]. destruct (Fx x Hx) as (E1 & E2 & E3). destruct Rx as [R1 R2].
  split.
  { apply is_run_evolve in Hr.
    destruct Hr as [(_ & ->) | (g & c & ev & evs' & He & Hix & Hn & -> & Hs & Hg1 & _)]; [destruct Hx|].
    destruct (evolve_post_time _ _ _ _ _ _ _ _ _ _ Hk Hq He) as (A & _).
    rewrite posts_of_app, in_app_iff. right. rewrite Hs in Hx. apply A; [exact Hx | rewrite E2 in *; lra |].
    rewrite Hg1. exists m. split; assumption. }
  split; [split; lra|].
  intros y Hy [Y1 Y2]. apply U; [exact Hy|]. destruct (Fx y Hy) as (G1 & G2 & G3). split; lra.
Qed.

(** ** Dry runs *)

Lemma dry_evolve sq p g c inp : p_max_step p = 0%Z ->
  evolve sq p g c inp = (Finished, snd (new_timestep p c), final_events p g (snd (new_timestep p c))).
Proof.
  intro H. apply evolve_stop. unfold continue_simulation. rewrite H. reflexivity.
Qed.

Lemma dry_no_step sq p r inp : steps_of (snd (run_dry sq p r inp)) = [].
Proof.
  unfold run_dry. destruct (parse_aborts (dry_run_inputs p)); [reflexivity|].
  destruct (initialise _ _ _ _ None) as [[c1 ev]| |] eqn:Ei; try reflexivity.
  rewrite dry_evolve by reflexivity. cbn [snd]. apply initialise_inv in Ei.
  destruct Ei as (_ & _ & _ & Hs & _). rewrite steps_of_app, Hs, steps_final. reflexivity.
Qed.

Definition dry_state (r : option (Z * Q * Q * Q)) : Z * Q :=
  match r with None => (0%Z, 0) | Some (idx, t, _, _) => (idx, t) end.

Lemma dry_files sq p r inp :
  o_tinterval (p_plt p) <= 0 -> o_force (p_plt p) = false -> o_force (p_chk p) = false ->
  (o_delay (p_plt p) <= fst (dry_state r))%Z ->
  (o_interval (p_chk p) <= 0)%Z -> o_tinterval (p_chk p) <= 0 ->
  let '(s, cf, evs) := run_dry sq p r inp in
  s = Finished /\ plots_of evs = [dry_state r] /\ chks_of evs = [].
Proof.
  intros Ht Hf Hfc Hd Hi Htc. unfold run_dry.
  assert (Hpa : parse_aborts (dry_run_inputs p) = false).
  { unfold parse_aborts, outspec_conflict. cbn. rewrite Hf, Hfc.
    assert (E1 : Qltb 0 (o_tinterval (p_plt p)) = false) by (apply Qltb_false; exact Ht).
    assert (E2 : (0 <? o_interval (p_chk p))%Z = false) by lia.
    rewrite E1, E2. rewrite !andb_false_r. reflexivity. }
  rewrite Hpa.
  set (g := match r with None => _ | _ => _ end). set (c := match r with None => _ | _ => _ end).
  assert (Ini : initialise sq (dry_run_inputs p) g c None =
     Ret (c, post_events (post_now (dry_run_inputs p) g c) c 0 (p_post p)
             ++ ev_if (write_plot_file (dry_run_inputs p) g c) (EPlot (k_idx c) (k_new c))
             ++ ev_if (write_checkpoint (dry_run_inputs p) g c) (chk_event c))) by reflexivity.
  rewrite Ini. apply initialise_inv in Ini. destruct Ini as (_ & _ & _ & _ & Hp & Hc & _).
  rewrite dry_evolve by reflexivity.
  assert (Ec : forall x, write_checkpoint (dry_run_inputs p) g x = false /\ write_last_checkpoint (dry_run_inputs p) g x = false).
  { intro x. unfold write_checkpoint, write_last_checkpoint, write_file, write_last_file. cbn.
    assert (E1 : Qltb 0 (o_tinterval (p_chk p)) = false) by (apply Qltb_false; exact Htc).
    assert (E2 : (0 <? o_interval (p_chk p))%Z = false) by lia. rewrite E1, E2. auto. }
  assert (Er : forall a, Z.rem a 1 = 0%Z) by (intro a; apply Z.rem_1_r).
  assert (Ep : forall x, write_last_plot_file (dry_run_inputs p) g x = false).
  { intro x. unfold write_last_plot_file, write_last_file. cbn.
    assert (E1 : Qltb 0 (o_tinterval (p_plt p)) = false) by (apply Qltb_false; exact Ht).
    rewrite E1, Er. reflexivity. }
  split; [reflexivity|]. rewrite plots_of_app, chks_of_app, Hp, Hc, plots_final, chks_final.
  unfold sel_mark. destruct (Ec c) as [E1 _].
  destruct (Ec (snd (new_timestep (dry_run_inputs p) c))) as [_ E2]. rewrite E1, E2, Ep.
  assert (Hm : mark c = dry_state r /\ k_idx c = fst (dry_state r)).
  { unfold c, mark, dry_state. destruct r as [[[[idx t] a] b]|]; split; reflexivity. }
  destruct Hm as [Hm Hk].
  assert (W : write_plot_file (dry_run_inputs p) g c = true).
  { unfold write_plot_file. apply write_file_steps; cbn; [lia | exact Ht|]. rewrite Hk. split; [exact Hd|apply Z.divide_1_l]. }
  rewrite W, Hm. split; reflexivity.
Qed.
