(** Trace decomposition of the evolve loop and output schedules: C05, C07, C08,
    C47; run-level versions of C01-C04. *)
From Verif Require Import BaseFacts SimTime SimTimeSpec SimTimeProofs SimTimeProofs2.
From Coq Require Import Setoid ZifyBool.

(** ** Trace decomposition *)

Definition loop_events (p : params) (g : origin) (c : clock) : list event :=
  ev_if (do_regrid p g c) (ERegrid (k_idx c))
  ++ EStep (k_idx c) (k_cur c) (k_new c) (k_dt0 c) (k_cflnum c) :: post_advance_work p g c.

Definition same_face (a b : clock) : Prop :=
  k_idx a = k_idx b /\ k_new a = k_new b /\ k_dt0 a = k_dt0 b.

Lemma evolve_trace sq p g : forall inp c s cf evs,
  evolve sq p g c inp = (s, cf, evs) ->
  exists cs, evs = flat_map (loop_events p g) cs ++ (match s with Finished => final_events p g cf | _ => [] end)
    /\ steps_of evs = map step_of cs
    /\ (s = Finished -> same_face cf (last cs c))
    /\ chain p (fun _ => True) (fun c c2 => k_idx c2 = (k_idx c + 1)%Z /\ k_cur c2 = k_new c) c cs.
Proof.
  induction inp as [|i r IH]; intros c s cf evs He.
  - destruct (continue_simulation p c) eqn:Ec.
    + rewrite evolve_nil in He by exact Ec. inversion He; subst. exists []. cbn.
      repeat split; try discriminate.
    + rewrite evolve_stop in He by exact Ec. inversion He; subst. exists [].
      cbn [flat_map app map]. rewrite steps_final.
      split; [reflexivity|]. split; [reflexivity|]. split; [|exact Logic.I].
      intros _. unfold new_timestep. rewrite Ec. cbn. split; [|split]; reflexivity.
  - destruct (continue_simulation p c) eqn:Ec.
    + rewrite evolve_cons in He by exact Ec. cbv zeta in He.
      destruct (evolve_body sq p g (snd (new_timestep p c)) i) as [[c2 ev]| |] eqn:Eb.
      * destruct (evolve sq p g c2 r) as [[s' cf'] evs'] eqn:Er.
        inversion He; subst s cf evs; clear He.
        destruct (IH c2 s' cf' evs' Er) as (cs & E1 & E2 & E3 & E4).
        assert (B := Eb). apply body_inv in B. destruct B as (c1 & Hset & Hadv & Hev).
        destruct (new_timestep p c) as [b c0] eqn:En. cbn [snd] in *.
        apply new_timestep_inv in En. destruct En as (Hb & N1 & N2 & N3 & N4 & N5 & _).
        rewrite Ec in Hb. subst b.
        apply set_cfl_inv in Hset. destruct Hset as (S1 & S2 & S3 & S4 & _).
        assert (Ei : k_idx c2 = k_idx c0) by (subst c2; cbn; exact S3).
        exists (c2 :: cs). cbn [flat_map map chain].
        split.
        { rewrite <- app_assoc, <- E1. f_equal. rewrite Hev. unfold loop_events.
          unfold do_regrid. rewrite Ei. reflexivity. }
        split.
        { rewrite steps_of_app, (steps_body _ _ _ _ _ _ _ Eb), E2. reflexivity. }
        split.
        { intro Hf. rewrite last_cons. apply E3. exact Hf. }
        split; [|split; [exact Logic.I | split; [exact Ec | exact E4]]].
        split; [rewrite Ei, N5; reflexivity|]. subst c2; cbn. rewrite S1, N2. reflexivity.
      * inversion He; subst. exists []. cbn. repeat split; try discriminate.
      * inversion He; subst. exists []. cbn. repeat split; try discriminate.
    + rewrite evolve_stop in He by exact Ec. inversion He; subst. exists [].
      cbn [flat_map app map]. rewrite steps_final.
      split; [reflexivity|]. split; [reflexivity|]. split; [|exact Logic.I].
      intros _. unfold new_timestep. rewrite Ec. cbn. split; [|split]; reflexivity.
Qed.

(** ** Projections of the parts *)

Lemma plots_of_app a b : plots_of (a ++ b) = plots_of a ++ plots_of b.
Proof. induction a as [|e a IH]; [reflexivity|]. destruct e; cbn; rewrite ?IH; reflexivity. Qed.
Lemma chks_of_app a b : chks_of (a ++ b) = chks_of a ++ chks_of b.
Proof. induction a as [|e a IH]; [reflexivity|]. destruct e; cbn; rewrite ?IH; reflexivity. Qed.
Lemma regrids_of_app a b : regrids_of (a ++ b) = regrids_of a ++ regrids_of b.
Proof. induction a as [|e a IH]; [reflexivity|]. destruct e; cbn; rewrite ?IH; reflexivity. Qed.
Lemma posts_of_app n a b : posts_of n (a ++ b) = posts_of n a ++ posts_of n b.
Proof.
  induction a as [|e a IH]; [reflexivity|].
  destruct e; cbn; rewrite ?IH; try reflexivity. destruct (Nat.eqb _ _); reflexivity.
Qed.

Lemma plots_post_events sel c l : forall n, plots_of (post_events sel c n l) = [].
Proof. induction l as [|q l IH]; intro n; [reflexivity|]. cbn [post_events].
  rewrite plots_of_app, IH. destruct (sel q); reflexivity. Qed.
Lemma chks_post_events sel c l : forall n, chks_of (post_events sel c n l) = [].
Proof. induction l as [|q l IH]; intro n; [reflexivity|]. cbn [post_events].
  rewrite chks_of_app, IH. destruct (sel q); reflexivity. Qed.
Lemma regrids_post_events sel c l : forall n, regrids_of (post_events sel c n l) = [].
Proof. induction l as [|q l IH]; intro n; [reflexivity|]. cbn [post_events].
  rewrite regrids_of_app, IH. destruct (sel q); reflexivity. Qed.

Definition mark (c : clock) : Z * Q := (k_idx c, k_new c).

Lemma posts_post_events_lt m sel c l : forall n, (m < n)%nat -> posts_of m (post_events sel c n l) = [].
Proof. induction l as [|q l IH]; intros n Hn; [reflexivity|]. cbn [post_events].
  rewrite posts_of_app, IH by lia. destruct (sel q); cbn; [|reflexivity].
  destruct (Nat.eqb n m) eqn:E; [apply Nat.eqb_eq in E; lia|reflexivity]. Qed.

Lemma posts_post_events sel c l : forall n k q, nth_error l k = Some q ->
  posts_of (n + k) (post_events sel c n l) = if sel q then [mark c] else [].
Proof.
  induction l as [|a l IH]; intros n k q Hk; [destruct k; discriminate|].
  cbn [post_events]. rewrite posts_of_app.
  destruct k as [|k].
  - cbn in Hk. inversion Hk; subst a. rewrite posts_post_events_lt by lia.
    replace (n + 0)%nat with n by lia.
    destruct (sel q); cbn; [rewrite Nat.eqb_refl|]; reflexivity.
  - cbn in Hk. replace (n + S k)%nat with (S n + k)%nat by lia. rewrite (IH (S n) k q Hk).
    destruct (sel a); cbn; [|reflexivity].
    destruct (Nat.eqb n (S (n + k))) eqn:E; [apply Nat.eqb_eq in E; lia|reflexivity].
Qed.

Lemma posts_ev_plot n b i t : posts_of n (ev_if b (EPlot i t)) = [].
Proof. destruct b; reflexivity. Qed.
Lemma posts_ev_chk n b c : posts_of n (ev_if b (chk_event c)) = [].
Proof. destruct b; reflexivity. Qed.

Definition sel_mark (f : clock -> bool) (c : clock) : list (Z * Q) := if f c then [mark c] else [].

Lemma plots_loop p g c : plots_of (loop_events p g c) = sel_mark (write_plot_file p g) c.
Proof.
  unfold loop_events, post_advance_work, sel_mark, mark. rewrite plots_of_app. cbn [plots_of].
  rewrite !plots_of_app, plots_post_events.
  destruct (do_regrid p g c), (write_plot_file p g c), (write_checkpoint p g c); reflexivity.
Qed.
Lemma chks_loop p g c : chks_of (loop_events p g c) = sel_mark (write_checkpoint p g) c.
Proof.
  unfold loop_events, post_advance_work, sel_mark, mark. rewrite chks_of_app. cbn [chks_of].
  rewrite !chks_of_app, chks_post_events.
  destruct (do_regrid p g c), (write_plot_file p g c), (write_checkpoint p g c); reflexivity.
Qed.
Lemma regrids_loop p g c : regrids_of (loop_events p g c) = if do_regrid p g c then [k_idx c] else [].
Proof.
  unfold loop_events, post_advance_work. rewrite regrids_of_app. cbn [regrids_of].
  rewrite !regrids_of_app, regrids_post_events.
  destruct (do_regrid p g c), (write_plot_file p g c), (write_checkpoint p g c); reflexivity.
Qed.
Lemma posts_loop p g c k q : nth_error (p_post p) k = Some q ->
  posts_of k (loop_events p g c) = sel_mark (fun c => post_now p g c q) c.
Proof.
  intro Hk. unfold loop_events, post_advance_work, sel_mark. rewrite posts_of_app. cbn [posts_of].
  rewrite !posts_of_app. rewrite (posts_post_events _ _ _ 0 k q Hk).
  rewrite posts_ev_plot, posts_ev_chk, !app_nil_r. destruct (do_regrid p g c); reflexivity.
Qed.

Lemma plots_final p g c : plots_of (final_events p g c) = sel_mark (write_last_plot_file p g) c.
Proof.
  unfold final_events, sel_mark, mark. rewrite !plots_of_app, plots_post_events.
  destruct (write_last_plot_file p g c), (write_last_checkpoint p g c); reflexivity.
Qed.
Lemma chks_final p g c : chks_of (final_events p g c) = sel_mark (write_last_checkpoint p g) c.
Proof.
  unfold final_events, sel_mark, mark. rewrite !chks_of_app, chks_post_events.
  destruct (write_last_plot_file p g c), (write_last_checkpoint p g c); reflexivity.
Qed.
Lemma regrids_final p g c : regrids_of (final_events p g c) = [].
Proof.
  unfold final_events. rewrite !regrids_of_app, regrids_post_events.
  destruct (write_last_plot_file p g c), (write_last_checkpoint p g c); reflexivity.
Qed.
Lemma posts_final p g c k q : nth_error (p_post p) k = Some q ->
  posts_of k (final_events p g c) = sel_mark (fun c => q_final q && negb (post_now p g c q)) c.
Proof.
  intro Hk. unfold final_events, sel_mark. rewrite !posts_of_app, posts_ev_plot, posts_ev_chk.
  cbn [app]. rewrite (posts_post_events _ _ _ 0 k q Hk). reflexivity.
Qed.

Lemma flat_map_proj {B} (proj : list event -> list B) p g (f : clock -> list B) cs :
  (forall a b, proj (a ++ b) = proj a ++ proj b) -> proj [] = [] ->
  (forall c, proj (loop_events p g c) = f c) ->
  proj (flat_map (loop_events p g) cs) = flat_map f cs.
Proof.
  intros Ha Hn Hf. induction cs as [|c cs IH]; [exact Hn|]. cbn [flat_map]. rewrite Ha, Hf, IH. reflexivity.
Qed.

(** ** Step-interval schedules *)

(** Specification of the step schedule (C mod with positive modulus). *)
Lemma rem_zero_divide a n : (0 < n)%Z -> ((Z.rem a n =? 0)%Z = true <-> (n | a)%Z).
Proof.
  intro Hn. rewrite Z.eqb_eq. split; intro H.
  - apply Z.rem_divide in H; [exact H|lia].
  - apply Z.rem_divide; [lia|exact H].
Qed.

Lemma write_file_steps o si st p c :
  (0 < o_interval o)%Z -> o_tinterval o <= 0 ->
  write_file o si st p c = true <-> (o_delay o <= k_idx c)%Z /\ (o_interval o | k_idx c - si)%Z.
Proof.
  intros Hn Ht. unfold write_file.
  assert (E : Qltb 0 (o_tinterval o) = false) by (apply Qltb_false; exact Ht).
  rewrite E. cbn [andb]. rewrite orb_false_r.
  rewrite !andb_true_iff, (rem_zero_divide _ _ Hn), Z.ltb_lt, Z.leb_le.
  split; [intros [[_ A] B]|intros [A B]]; (split; [try split|]); try assumption; lia.
Qed.

Lemma write_last_steps o si st p c :
  (0 < o_interval o)%Z -> o_tinterval o <= 0 ->
  write_last_file o si st p c = true <-> ~ (o_interval o | k_idx c - si)%Z.
Proof.
  intros Hn Ht. unfold write_last_file.
  assert (E : Qltb 0 (o_tinterval o) = false) by (apply Qltb_false; exact Ht).
  rewrite E. cbn [andb]. rewrite orb_false_r, andb_true_iff, negb_true_iff.
  rewrite <- (rem_zero_divide _ _ Hn), Z.ltb_lt.
  destruct (Z.rem _ _ =? 0)%Z; split; intro H.
  - destruct H; discriminate.
  - exfalso; apply H; reflexivity.
  - discriminate.
  - split; [exact Hn|reflexivity].
Qed.

(** Steps are numbered consecutively, hence without repetition. *)
Lemma chain_idx_lt p I (P : clock -> clock -> Prop) cs : forall c,
  (forall a b, P a b -> k_idx b = (k_idx a + 1)%Z) ->
  chain p I P c cs -> Forall (fun x => (k_idx c < k_idx x)%Z) cs.
Proof.
  induction cs as [|c2 cs IH]; intros c HP H; [constructor|].
  cbn [chain] in H. destruct H as (P1 & _ & _ & H). assert (K := HP _ _ P1).
  constructor; [lia|]. specialize (IH c2 HP H).
  eapply Forall_impl; [|exact IH]. cbn. intros; lia.
Qed.

Lemma chain_idx_nodup p I (P : clock -> clock -> Prop) cs : forall c,
  (forall a b, P a b -> k_idx b = (k_idx a + 1)%Z) ->
  chain p I P c cs -> NoDup (map k_idx cs).
Proof.
  induction cs as [|c2 cs IH]; intros c HP H; [constructor|].
  cbn [chain] in H. destruct H as (P1 & _ & _ & H).
  cbn [map]. constructor; [|eauto].
  assert (F := chain_idx_lt _ _ _ _ _ HP H). intro Hin. apply in_map_iff in Hin.
  destruct Hin as (x & Hx & Hin). rewrite Forall_forall in F. specialize (F x Hin). lia.
Qed.

Lemma flat_sel_mark_in f cs m : In m (flat_map (sel_mark f) cs) <-> exists c, In c cs /\ f c = true /\ m = mark c.
Proof.
  rewrite in_flat_map. split.
  - intros (c & Hc & Hm). unfold sel_mark in Hm. destruct (f c) eqn:E; [|destruct Hm].
    destruct Hm as [Hm|[]]. exists c. auto.
  - intros (c & Hc & Hf & ->). exists c. split; [exact Hc|]. unfold sel_mark. rewrite Hf. left; reflexivity.
Qed.

Lemma flat_sel_mark_nodup f cs :
  NoDup (map k_idx cs) -> NoDup (map fst (flat_map (sel_mark f) cs)).
Proof.
  induction cs as [|c cs IH]; intro H; [constructor|].
  cbn [map] in H. inversion H as [|x y Hx Hy]; subst. cbn [flat_map]. rewrite map_app.
  unfold sel_mark at 1. destruct (f c); cbn [map app]; [|auto].
  constructor; [|auto]. intro Hin. apply Hx. rewrite in_map_iff in Hin.
  destruct Hin as (m & Hm & Hin). apply flat_sel_mark_in in Hin.
  destruct Hin as (d & Hd & _ & ->). cbn in Hm. rewrite <- Hm. apply in_map. exact Hd.
Qed.

Lemma last_in {A} (cs : list A) c : cs <> [] -> In (last cs c) cs.
Proof.
  revert c. induction cs as [|a cs IH]; intros c H; [congruence|]. rewrite last_cons.
  destruct cs as [|b cs]; [left; reflexivity|]. right. apply IH. discriminate.
Qed.

Lemma map_step_mark cs : map (fun s => (st_idx s, st_t1 s)) (map step_of cs) = map mark cs.
Proof. rewrite map_map. apply map_ext. reflexivity. Qed.

Lemma last_map {A B} (f : A -> B) l d : last (map f l) (f d) = f (last l d).
Proof.
  revert d. induction l as [|a l IH]; intro d; [reflexivity|].
  cbn [map]. rewrite !last_cons. apply IH.
Qed.

(** Generic schedule theorem for plot and checkpoint files. *)
Lemma file_schedule sq p g c inp s cf evs o si st (proj : list event -> list (Z * Q)) :
  (forall a b, proj (a ++ b) = proj a ++ proj b) -> proj [] = [] ->
  (forall c, proj (loop_events p g c) = sel_mark (write_file o si st p) c) ->
  (forall c, proj (final_events p g c) = sel_mark (write_last_file o si st p) c) ->
  (0 < o_interval o)%Z -> o_tinterval o <= 0 ->
  evolve sq p g c inp = (s, cf, evs) ->
  let lastm := last (marks (steps_of evs)) (mark c) in
  (forall i t, In (i, t) (proj evs) <->
     (In (i, t) (marks (steps_of evs)) /\ sched o si i)
     \/ (s = Finished /\ (i, t) = lastm /\ ~ (o_interval o | i - si)%Z))
  /\ NoDup (map fst (proj evs)).
Proof.
  intros Ha Hn Hl Hfi Hi Ht He lastm.
  destruct (evolve_trace _ _ _ _ _ _ _ _ He) as (cs & E1 & E2 & E3 & E4).
  assert (HP : forall a b : clock, (k_idx b = (k_idx a + 1)%Z /\ k_cur b = k_new a) -> k_idx b = (k_idx a + 1)%Z) by tauto.
  assert (Nd := chain_idx_nodup _ _ _ _ _ HP E4).
  assert (Lt := chain_idx_lt _ _ _ _ _ HP E4).
  assert (Eproj : proj evs = flat_map (sel_mark (write_file o si st p)) cs
                   ++ match s with Finished => sel_mark (write_last_file o si st p) cf | _ => [] end).
  { rewrite E1, Ha, (flat_map_proj proj p g _ cs Ha Hn Hl). f_equal. destruct s; auto. }
  assert (El : lastm = mark (last cs c)).
  { unfold lastm, marks. rewrite E2, map_step_mark. apply last_map. }
  assert (Ef : s = Finished -> mark cf = lastm /\ k_idx cf = k_idx (last cs c)).
  { intro Hs. destruct (E3 Hs) as (F1 & F2 & _). rewrite El. unfold mark. rewrite F1, F2. auto. }
  split.
  - intros i t. rewrite Eproj, in_app_iff, flat_sel_mark_in.
    unfold marks. rewrite E2, map_step_mark, in_map_iff. split.
    + intros [(x & Hx & Hw & Hm) | Hm].
      * left. unfold mark in Hm. inversion Hm; subst.
        split; [exists x; auto|]. apply write_file_steps in Hw; auto.
      * right. destruct s; try (destruct Hm; fail).
        unfold sel_mark in Hm. destruct (write_last_file o si st p cf) eqn:Ew; [|destruct Hm].
        destruct Hm as [Hm|[]]. apply write_last_steps in Ew; auto.
        destruct (Ef eq_refl) as [F1 F2]. split; [reflexivity|]. rewrite <- Hm.
        split; [exact F1|]. unfold mark in Hm. inversion Hm; subst. exact Ew.
    + intros [((x & Hm & Hx) & Hs) | (Hs & Hm & Hd)].
      * left. exists x. split; [exact Hx|]. unfold mark in Hm. inversion Hm; subst.
        split; [|reflexivity]. apply write_file_steps; auto.
      * right. subst s. destruct (Ef eq_refl) as [F1 F2]. rewrite <- F1 in Hm.
        unfold sel_mark. assert (W : write_last_file o si st p cf = true).
        { apply write_last_steps; auto. unfold mark in Hm. inversion Hm; subst. exact Hd. }
        rewrite W. left. symmetry. exact Hm.
  - rewrite Eproj, map_app.
    assert (N1 := flat_sel_mark_nodup (write_file o si st p) cs Nd).
    destruct s; try (rewrite app_nil_r; exact N1).
    unfold sel_mark at 2. destruct (write_last_file o si st p cf) eqn:Ew;
      [|rewrite app_nil_r; exact N1].
    cbn [map]. apply write_last_steps in Ew; auto. destruct (Ef eq_refl) as [F1 F2].
    assert (Hnot : ~ In (k_idx cf) (map fst (flat_map (sel_mark (write_file o si st p)) cs))).
    { intro Hin. apply in_map_iff in Hin. destruct Hin as (m & Hm & Hin).
      apply flat_sel_mark_in in Hin. destruct Hin as (x & Hx & Hw & ->). cbn in Hm.
      apply write_file_steps in Hw; auto. rewrite Hm in Hw. tauto. }
    clear - N1 Hnot. change (fst (mark cf)) with (k_idx cf).
    induction (map fst (flat_map (sel_mark (write_file o si st p)) cs)) as [|a l IH].
    + constructor; [intros []|constructor].
    + cbn [app]. inversion N1; subst. constructor.
      * rewrite in_app_iff. intros [K|[K|[]]]; [auto|]. apply Hnot. left. auto.
      * apply IH; [assumption|]. intro. apply Hnot. right. assumption.
Qed.

Theorem plot_schedule sq p g c inp s cf evs :
  (0 < o_interval (p_plt p))%Z -> o_tinterval (p_plt p) <= 0 ->
  evolve sq p g c inp = (s, cf, evs) ->
  (forall i t, In (i, t) (plots_of evs) <->
     (In (i, t) (marks (steps_of evs)) /\ sched (p_plt p) (g_plt_start g) i)
     \/ (s = Finished /\ (i, t) = last (marks (steps_of evs)) (k_idx c, k_new c)
         /\ ~ (o_interval (p_plt p) | i - g_plt_start g)%Z))
  /\ NoDup (map fst (plots_of evs)).
Proof.
  intros Hi Ht He.
  apply (file_schedule sq p g c inp s cf evs (p_plt p) (g_plt_start g) (g_plt_start_time g) plots_of
           plots_of_app eq_refl (plots_loop p g) (plots_final p g) Hi Ht He).
Qed.

Theorem chk_schedule sq p g c inp s cf evs :
  (0 < o_interval (p_chk p))%Z -> o_tinterval (p_chk p) <= 0 ->
  evolve sq p g c inp = (s, cf, evs) ->
  (forall i t, In (i, t) (chks_of evs) <->
     (In (i, t) (marks (steps_of evs)) /\ sched (p_chk p) (g_chk_start g) i)
     \/ (s = Finished /\ (i, t) = last (marks (steps_of evs)) (k_idx c, k_new c)
         /\ ~ (o_interval (p_chk p) | i - g_chk_start g)%Z))
  /\ NoDup (map fst (chks_of evs)).
Proof.
  intros Hi Ht He.
  apply (file_schedule sq p g c inp s cf evs (p_chk p) (g_chk_start g) (g_chk_start_time g) chks_of
           chks_of_app eq_refl (chks_loop p g) (chks_final p g) Hi Ht He).
Qed.

(** ** Regrid schedule *)

Theorem regrid_schedule sq p g c inp s cf evs :
  evolve sq p g c inp = (s, cf, evs) ->
  forall i, In i (regrids_of evs) <->
    In i (map st_idx (steps_of evs)) /\ (0 < p_regrid_interval p)%Z
    /\ exists k, (0 < k)%Z /\ (i - g_regrid_start g = k * p_regrid_interval p)%Z.
Proof.
  intros He i.
  destruct (evolve_trace _ _ _ _ _ _ _ _ He) as (cs & E1 & E2 & E3 & E4).
  assert (Er : regrids_of evs = flat_map (fun c => if do_regrid p g c then [k_idx c] else []) cs).
  { rewrite E1, regrids_of_app, (flat_map_proj regrids_of p g _ cs regrids_of_app eq_refl (regrids_loop p g)).
    destruct s; cbn [regrids_of]; rewrite ?regrids_final, ?app_nil_r; reflexivity. }
  rewrite Er, E2, in_flat_map, map_map, in_map_iff.
  assert (D : forall x, do_regrid p g x = true <->
            (0 < p_regrid_interval p)%Z /\ exists k, (0 < k)%Z /\ (k_idx x - g_regrid_start g = k * p_regrid_interval p)%Z).
  { intro x. unfold do_regrid. rewrite !andb_true_iff. split.
    - intros [[A B] C]. apply Z.ltb_lt in A. apply (rem_zero_divide _ _ A) in C.
      destruct C as [k C]. split; [exact A|]. exists k. split; [|exact C]. apply Z.ltb_lt in B. nia.
    - intros (A & k & B & C). split; [split; [lia|]|].
      + apply Z.ltb_lt. nia.
      + apply (rem_zero_divide _ _ A). exists k. exact C. }
  split.
  - intros (x & Hx & Hi). destruct (do_regrid p g x) eqn:Ed; [|destruct Hi].
    destruct Hi as [Hi|[]]. subst i. split; [exists x; auto|]. apply D. exact Ed.
  - intros ((x & Hx & Hin) & H). exists x. split; [exact Hin|]. cbn in Hx. subst i.
    apply D in H. rewrite H. left. reflexivity.
Qed.

(** ** Post-processing schedule *)

Definition in_loop (p : params) (g : origin) (q : postspec) := sel_mark (fun c => post_now p g c q).

Lemma post_trace sq p g c inp s cf evs k q :
  nth_error (p_post p) k = Some q ->
  evolve sq p g c inp = (s, cf, evs) ->
  exists cs, posts_of k evs = flat_map (in_loop p g q) cs
                 ++ match s with Finished => sel_mark (fun c => q_final q && negb (post_now p g c q)) cf | _ => [] end
    /\ steps_of evs = map step_of cs
    /\ (s = Finished -> same_face cf (last cs c))
    /\ NoDup (map k_idx cs) /\ Forall (fun x => (k_idx c < k_idx x)%Z) cs.
Proof.
  intros Hk He.
  destruct (evolve_trace _ _ _ _ _ _ _ _ He) as (cs & E1 & E2 & E3 & E4).
  assert (HP : forall a b : clock, (k_idx b = (k_idx a + 1)%Z /\ k_cur b = k_new a) -> k_idx b = (k_idx a + 1)%Z) by tauto.
  exists cs. split; [|split; [exact E2 | split; [exact E3 | split;
    [exact (chain_idx_nodup _ _ _ _ _ HP E4) | exact (chain_idx_lt _ _ _ _ _ HP E4)]]]].
  rewrite E1, posts_of_app.
  rewrite (flat_map_proj (posts_of k) p g _ cs (posts_of_app k) eq_refl (fun c => posts_loop p g c k q Hk)).
  f_equal. destruct s; try reflexivity. apply posts_final. exact Hk.
Qed.

Lemma post_now_face p g q a b : same_face a b -> post_now p g a q = post_now p g b q.
Proof. intros (A & B & C). unfold post_now. rewrite A, B, C. reflexivity. Qed.

(** At most one output per step; with output_after_final_step exactly one for
    the last step (when there is one). *)
Theorem post_once sq p g c inp s cf evs k q :
  nth_error (p_post p) k = Some q ->
  evolve sq p g c inp = (s, cf, evs) ->
  NoDup (map fst (posts_of k evs))
  /\ (forall i t, In (i, t) (posts_of k evs) -> In (i, t) (marks (steps_of evs)) \/ (steps_of evs = [] /\ (i, t) = (k_idx c, k_new c)))
  /\ (s = Finished -> q_final q = true -> steps_of evs <> [] ->
      In (last (marks (steps_of evs)) (k_idx c, k_new c)) (posts_of k evs)).
Proof.
  intros Hk He.
  destruct (post_trace _ _ _ _ _ _ _ _ _ _ Hk He) as (cs & E1 & E2 & E3 & Nd & Lt).
  assert (N1 := flat_sel_mark_nodup (fun c => post_now p g c q) cs Nd).
  fold (in_loop p g q) in N1.
  split; [|split].
  - rewrite E1, map_app. destruct s; try (rewrite app_nil_r; exact N1).
    unfold sel_mark. destruct (q_final q && negb (post_now p g cf q)) eqn:Ew; [|rewrite app_nil_r; exact N1].
    qprop. assert (F := E3 eq_refl).
    assert (Hnot : ~ In (k_idx cf) (map fst (flat_map (in_loop p g q) cs))).
    { intro Hin. apply in_map_iff in Hin. destruct Hin as (m & Hm & Hin).
      apply flat_sel_mark_in in Hin. destruct Hin as (x & Hx & Hw & ->). cbn in Hm.
      destruct F as (F1 & F2 & F3).
      assert (Hl : x = last cs c).
      { destruct cs as [|y cs]; [destruct Hx|].
        assert (Hl := last_in (y :: cs) c). assert (y :: cs <> []) by discriminate. specialize (Hl H1).
        rewrite F1 in Hm. clear - Nd Hx Hl Hm.
        revert Nd Hx Hl Hm. generalize (last (y :: cs) c) as z. generalize (y :: cs) as l.
        induction l as [|a l IH]; intros z Nd Hx Hl Hm; [destruct Hx|].
        cbn [map] in Nd. inversion Nd as [|u v Hu Hv]; subst.
        destruct Hx as [->|Hx], Hl as [->|Hl]; auto.
        - exfalso. apply Hu. rewrite Hm. apply in_map. exact Hl.
        - exfalso. apply Hu. rewrite <- Hm. apply in_map. exact Hx. }
      subst x. assert (post_now p g cf q = post_now p g (last cs c) q)
        by (apply post_now_face; repeat split; assumption). congruence. }
    cbn [map]. change (fst (mark cf)) with (k_idx cf). clear - N1 Hnot.
    induction (map fst (flat_map (in_loop p g q) cs)) as [|a l IH].
    + constructor; [intros []|constructor].
    + cbn [app]. inversion N1; subst. constructor.
      * rewrite in_app_iff. intros [K|[K|[]]]; [auto|]. apply Hnot. left. auto.
      * apply IH; [assumption|]. intro. apply Hnot. right. assumption.
  - intros i t Hin. rewrite E1, in_app_iff in Hin. destruct Hin as [Hin|Hin].
    + left. unfold in_loop in Hin. apply flat_sel_mark_in in Hin. destruct Hin as (x & Hx & _ & ->).
      unfold marks. rewrite E2, map_step_mark. apply in_map. exact Hx.
    + destruct s; try (destruct Hin; fail). unfold sel_mark in Hin.
      destruct (q_final q && negb (post_now p g cf q)); [|destruct Hin].
      destruct Hin as [Hin|[]]. destruct (E3 eq_refl) as (F1 & F2 & _).
      rewrite <- Hin. unfold mark. rewrite F1, F2.
      destruct cs as [|y cs].
      * right. rewrite E2. cbn. auto.
      * left. unfold marks. rewrite E2, map_step_mark.
        change (k_idx (last (y :: cs) c), k_new (last (y :: cs) c)) with (mark (last (y :: cs) c)).
        apply in_map. apply last_in. discriminate.
  - intros Hs Hq Hne. subst s. assert (F := E3 eq_refl).
    assert (Hcs : cs <> []) by (intro; subst cs; apply Hne; exact E2).
    unfold marks. rewrite E2, map_step_mark.
    change (k_idx c, k_new c) with (mark c). rewrite last_map.
    rewrite E1, in_app_iff.
    destruct (post_now p g (last cs c) q) eqn:En.
    + left. unfold in_loop. apply flat_sel_mark_in. exists (last cs c).
      split; [apply last_in; exact Hcs | auto].
    + right. unfold sel_mark. rewrite (post_now_face p g q _ _ F), En, Hq. cbn [andb negb].
      left. destruct F as (F1 & F2 & _). unfold mark. rewrite F1, F2. reflexivity.
Qed.
