(** Post-processing schedules, time-interval outputs and restart at run level. *)
From Verif Require Import BaseFacts SimTime SimTimeSpec SimTimeProofs SimTimeProofs2 SimTimeProofs3
  SimTimeProofs4 SimTimeProofs5.
From Coq Require Import Setoid ZifyBool.
Local Open Scope Q_scope.

(** ** Parsing *)

Lemma parse_post_exclusive n q : parse_post n = Ret q ->
  (step_based q \/ time_based q) /\ (q_enforce q = true -> 0 < q_tinterval q).
Proof.
  unfold parse_post, step_based, time_based.
  assert (N : -1 # 1 <= 0) by lra.
  assert (D : forall d, Qltb 0 d = true \/ Qltb 0 d = false) by (intro d; destruct (Qltb 0 d); auto).
  assert (Z : forall d, (0 <? d)%Z = true \/ (0 <? d)%Z = false) by (intro d; destruct (0 <? d)%Z; auto).
  destruct (n_from_restart n && _); [discriminate|].
  destruct (n_interval n) as [i|]; [|destruct (n_frequency n) as [f|]]; cbn [orb andb negb].
  - destruct (n_tinterval n) as [d|]; cbn [orb andb negb].
    + destruct (D d) as [Ed|Ed], (Z i) as [Ei|Ei]; rewrite Ed, Ei; cbn [orb andb negb]; try discriminate.
      * intro H; inversion H; subst q; cbn. qprop. split; [right; split; [lia|assumption]|auto].
      * destruct (n_enforce n) eqn:En; [discriminate|]. intro H; inversion H; subst q; cbn. qprop.
        split; [left; split; [lia|assumption]|congruence].
    + destruct (Z i) as [Ei|Ei]; rewrite Ei; cbn [orb andb negb]; try discriminate.
      destruct (n_enforce n) eqn:En; [discriminate|]. intro H; inversion H; subst q; cbn.
      split; [left; split; [lia|assumption]|congruence].
  - destruct (n_tinterval n) as [d|]; cbn [orb andb negb].
    + destruct (D d) as [Ed|Ed], (Z f) as [Ei|Ei]; rewrite Ed, Ei; cbn [orb andb negb]; try discriminate.
      * intro H; inversion H; subst q; cbn. qprop. split; [right; split; [lia|assumption]|auto].
      * destruct (n_enforce n) eqn:En; [discriminate|]. intro H; inversion H; subst q; cbn. qprop.
        split; [left; split; [lia|assumption]|congruence].
    + destruct (Z f) as [Ei|Ei]; rewrite Ei; cbn [orb andb negb]; try discriminate.
      destruct (n_enforce n) eqn:En; [discriminate|]. intro H; inversion H; subst q; cbn.
      split; [left; split; [lia|assumption]|congruence].
  - destruct (n_tinterval n) as [d|]; cbn [orb andb negb].
    + destruct (D d) as [Ed|Ed]; rewrite Ed; cbn [orb andb negb].
      * intro H; inversion H; subst q; cbn. qprop. split; [right; split; [lia|assumption]|auto].
      * destruct (n_enforce n) eqn:En; [discriminate|]. intro H; inversion H; subst q; cbn. qprop.
        split; [left; split; [lia|assumption]|congruence].
    + destruct (n_enforce n) eqn:En; [discriminate|]. intro H; inversion H; subst q; cbn.
      split; [left; split; [lia|assumption]|congruence].
Qed.

(** ** Post-processing, step based *)

Lemma post_now_steps p g c q : step_based q ->
  post_now p g c q = true <->
  (q_delay q <= k_idx c)%Z /\ (q_interval q | k_idx c - post_origin q (g_start_idx g))%Z.
Proof.
  intros [Hi Ht]. unfold post_now, do_output_now.
  assert (E : Qltb 0 (q_tinterval q) = false) by (apply Qltb_false; exact Ht).
  rewrite E. cbn [andb]. rewrite orb_false_r, !andb_true_iff, Z.ltb_lt, Z.leb_le.
  fold (post_origin q (g_start_idx g)).
  rewrite (rem_zero_divide _ _ Hi).
  split; [intros [[_ A] B]|intros [A B]]; (split; [try split|]); try assumption; lia.
Qed.

Lemma nodup_app_one {A} (l : list A) x : NoDup l -> ~ In x l -> NoDup (l ++ [x]).
Proof.
  induction l as [|a l IH]; intros N H; cbn; [constructor; [intros []|constructor]|].
  inversion N; subst. constructor.
  - rewrite in_app_iff. intros [K|[K|[]]]; [auto|]. apply H. left. auto.
  - apply IH; [assumption|]. intro. apply H. right. assumption.
Qed.

Lemma evolve_marks_later sq p g c inp s cf evs i t :
  evolve sq p g c inp = (s, cf, evs) -> In (i, t) (marks (steps_of evs)) -> (k_idx c < i)%Z.
Proof.
  intros He Hin.
  destruct (evolve_trace _ _ _ _ _ _ _ _ He) as (cs & E1 & E2 & E3 & E4).
  assert (HP : forall a b : clock, (k_idx b = (k_idx a + 1)%Z /\ k_cur b = k_new a) -> k_idx b = (k_idx a + 1)%Z) by tauto.
  assert (Lt := chain_idx_lt _ _ _ _ _ HP E4).
  unfold marks in Hin. rewrite E2, map_step_mark in Hin. apply in_map_iff in Hin.
  destruct Hin as (x & Hm & Hin). rewrite Forall_forall in Lt. specialize (Lt x Hin).
  unfold mark in Hm. inversion Hm; subst. exact Lt.
Qed.

(** With no steps the loop outputs at most the final state. *)
Lemma evolve_no_steps sq p g c inp s cf evs k q :
  nth_error (p_post p) k = Some q ->
  evolve sq p g c inp = (s, cf, evs) -> steps_of evs = [] ->
  posts_of k evs = (if match s with Finished => q_final q && negb (post_now p g c q) | _ => false end then [mark c] else []).
Proof.
  intros Hk He Hs.
  destruct (post_trace _ _ _ _ _ _ _ _ _ _ Hk He) as (cs & E1 & E2 & E3 & _).
  rewrite Hs in E2. destruct cs; [|discriminate]. rewrite E1. cbn [flat_map app].
  destruct s; try reflexivity. cbn [last] in E3. assert (F := E3 eq_refl).
  unfold sel_mark. rewrite (post_now_face p g q _ _ F).
  destruct F as (F1 & F2 & _). unfold mark. rewrite F1, F2. reflexivity.
Qed.

(** [init]: what was output before the loop. *)
Lemma post_once_with sq p g c inp s cf evs k q (b : bool) :
  nth_error (p_post p) k = Some q ->
  evolve sq p g c inp = (s, cf, evs) ->
  (b = true -> steps_of evs = [] -> s = Finished -> q_final q = true -> post_now p g c q = true) ->
  let all := (if b then [mark c] else []) ++ posts_of k evs in
  NoDup (map fst all)
  /\ (forall m, In m all -> In m (mark c :: marks (steps_of evs))).
Proof.
  intros Hk He Hb all.
  destruct (post_once _ _ _ _ _ _ _ _ _ _ Hk He) as (N & I & _).
  split.
  - unfold all. destruct b; [|exact N]. cbn [app map]. constructor; [|exact N].
    intro Hin. apply in_map_iff in Hin. destruct Hin as ((i & t) & Hm & Hin). cbn in Hm. subst i.
    destruct (I _ _ Hin) as [K|(K1 & K2)].
    + assert (L := evolve_marks_later _ _ _ _ _ _ _ _ _ _ He K). cbn in L. lia.
    + rewrite (evolve_no_steps _ _ _ _ _ _ _ _ _ _ Hk He K1) in Hin.
      destruct s; try (destruct Hin; fail).
      destruct (q_final q) eqn:Eq; [|destruct Hin].
      rewrite (Hb eq_refl K1 eq_refl eq_refl) in Hin. destruct Hin.
  - intros (i & t) Hin. unfold all in Hin. apply in_app_iff in Hin. destruct Hin as [Hin|Hin].
    + destruct b; [|destruct Hin]. destruct Hin as [Hin|[]]. left. exact Hin.
    + destruct (I _ _ Hin) as [K|(K1 & K2)]; [right; exact K | left; symmetry; exact K2].
Qed.

Lemma fresh_init_post sq p init c1 ev q :
  initialise sq p (fresh_origin p) (fresh_clock p) init = Ret (c1, ev) ->
  p_delay_time p <= 0 -> step_based q \/ time_based q ->
  post_now p (fresh_origin p) (fresh_clock p) q = true -> post_now p (fresh_origin p) c1 q = true.
Proof.
  intros Hin Hdl Hx Hp.
  assert (B := initialise_inv _ _ _ _ _ _ _ Hin). destruct B as (B0 & B1 & B2 & _).
  destruct Hx as [Hx|Hx].
  - rewrite <- Hp. symmetry. apply post_step_face; [symmetry; exact B2 | apply Hx | apply Hx].
  - destruct (adaptive p) eqn:Ea.
    + rewrite post_face_neg in Hp; [discriminate| | apply Hx].
      unfold fresh_clock, adaptive in *. cbn. destruct (Qltb 0 (p_fixed_dt p)); [discriminate|]. lra.
    + rewrite <- Hp. apply post_now_face. split; [exact B2|]. split; [exact B1|].
      unfold initialise in Hin. destruct init as [i|].
      * destruct (set_current_cfl sq p (fresh_clock p) i) as [c'| |] eqn:E; try discriminate.
        cbn [obind] in Hin. inversion Hin; subst c'. apply set_cfl_inv in E.
        destruct E as (_ & _ & _ & _ & _ & _ & _ & d & _ & E). rewrite Ea in E. destruct E as [_ E].
        rewrite not_in_delay in E by exact Hdl. rewrite E. cbn.
        unfold adaptive in Ea. apply negb_false_iff in Ea. rewrite Ea. reflexivity.
      * cbn [obind] in Hin. inversion Hin; subst. reflexivity.
Qed.

Lemma run_post_fresh sq p init inp s cf evs k q :
  nth_error (p_post p) k = Some q -> step_based q \/ time_based q -> p_delay_time p <= 0 ->
  run_fresh sq p init inp = (s, cf, evs) ->
  NoDup (map fst (posts_of k evs))
  /\ (forall m, In m (posts_of k evs) -> In m ((0%Z, 0) :: marks (steps_of evs)))
  /\ (s = Finished -> q_final q = true -> steps_of evs <> [] ->
      In (last (marks (steps_of evs)) (0%Z, 0)) (posts_of k evs)).
Proof.
  intros Hk Hx Hdl Hr. apply run_fresh_inv in Hr.
  destruct Hr as [(-> & ->) | (c1 & ev & evs' & Hin & He & -> & Hn & Hi & Hs & Hst)].
  - cbn. split; [constructor|]. split; [intros m []|discriminate].
  - assert (B := initialise_inv _ _ _ _ _ _ _ Hin). destruct B as (_ & _ & _ & _ & _ & _ & _ & Bp).
    specialize (Bp k q Hk). rewrite posts_of_app, Bp, Hst.
    assert (M0 : mark c1 = (0%Z, 0)) by (unfold mark; rewrite Hi, Hn; reflexivity).
    assert (M1 : mark (fresh_clock p) = (0%Z, 0)) by reflexivity.
    unfold sel_mark. rewrite M1, <- M0.
    destruct (post_once_with _ _ _ _ _ _ _ _ _ _ (post_now p (fresh_origin p) (fresh_clock p) q) Hk He) as [A B].
    { intros Hb _ _ _. eapply fresh_init_post; eauto. }
    split; [exact A|]. split; [exact B|].
    intros Hf Hq Hne. apply in_app_iff. right.
    destruct (post_once _ _ _ _ _ _ _ _ _ _ Hk He) as (_ & _ & C). apply C; auto.
Qed.

Lemma run_post_restart sq p idx t d1 d2 inp s cf evs k q :
  nth_error (p_post p) k = Some q ->
  run_restart sq p idx t d1 d2 inp = (s, cf, evs) ->
  NoDup (map fst (posts_of k evs))
  /\ (forall m, In m (posts_of k evs) -> In m ((idx, t) :: marks (steps_of evs)))
  /\ (s = Finished -> q_final q = true -> In (last (marks (steps_of evs)) (idx, t)) (posts_of k evs)).
Proof.
  intros Hk Hr. apply run_restart_inv in Hr.
  destruct Hr as [(-> & ->) | (evs' & He & -> & Hst)].
  - cbn. split; [constructor|]. split; [intros m []|discriminate].
  - rewrite posts_of_app, (posts_post_events _ _ _ 0 k q Hk), Hst.
    set (c := restart_clock p idx t d1 d2) in *.
    destruct (post_once_with _ _ _ _ _ _ _ _ _ _ (post_now p (restart_origin p idx t) c q) Hk He) as [A B]; [auto|].
    split; [exact A|]. split; [exact B|]. intros Hf Hq. apply in_app_iff.
    destruct (steps_of evs') as [|a l] eqn:El.
    + cbn [marks map last]. destruct (post_now p (restart_origin p idx t) c q) eqn:Ep; [left; left; reflexivity|].
      right. rewrite (evolve_no_steps _ _ _ _ _ _ _ _ _ _ Hk He El), Ep, Hq, Hf. left. reflexivity.
    + right. destruct (post_once _ _ _ _ _ _ _ _ _ _ Hk He) as (_ & _ & C).
      rewrite El in C. apply C; auto. discriminate.
Qed.

(** In-loop outputs of a step-based object: precisely the scheduled steps. *)
Lemma evolve_post_steps sq p g c inp s cf evs k q :
  nth_error (p_post p) k = Some q -> step_based q ->
  evolve sq p g c inp = (s, cf, evs) ->
  forall i t, In (i, t) (posts_of k evs) <->
    (In (i, t) (marks (steps_of evs)) /\ (q_delay q <= i)%Z /\ (q_interval q | i - post_origin q (g_start_idx g))%Z)
    \/ (s = Finished /\ q_final q = true /\ (i, t) = last (marks (steps_of evs)) (k_idx c, k_new c)
        /\ ~ ((q_delay q <= i)%Z /\ (q_interval q | i - post_origin q (g_start_idx g))%Z)).
Proof.
  intros Hk Hx He i t.
  destruct (post_trace _ _ _ _ _ _ _ _ _ _ Hk He) as (cs & E1 & E2 & E3 & _).
  rewrite E1, in_app_iff. unfold in_loop. rewrite flat_sel_mark_in.
  unfold marks. rewrite E2, map_step_mark, in_map_iff.
  change (k_idx c, k_new c) with (mark c). rewrite last_map.
  split.
  - intros [(x & Hxx & Hw & Hm)|Hm].
    + left. unfold mark in Hm. inversion Hm; subst. split; [exists x; auto|].
      apply (post_now_steps p g x q Hx). exact Hw.
    + right. destruct s; try (destruct Hm; fail). unfold sel_mark in Hm.
      destruct (q_final q && negb (post_now p g cf q)) eqn:Ew; [|destruct Hm].
      apply andb_true_iff in Ew. destruct Ew as [Ew1 Ew2].
      destruct Hm as [Hm|[]]. destruct (E3 eq_refl) as (F1 & F2 & F3).
      split; [reflexivity|]. split; [exact Ew1|]. split.
      * rewrite <- Hm. unfold mark. rewrite F1, F2. reflexivity.
      * unfold mark in Hm. inversion Hm; subst. rewrite <- (post_now_steps p g cf q Hx).
        apply negb_true_iff in Ew2. rewrite Ew2. discriminate.
  - intros [((x & Hm & Hin) & Hs)|(Hs & Hq & Hm & Hn)].
    + left. exists x. split; [exact Hin|]. unfold mark in Hm. inversion Hm; subst.
      split; [apply (post_now_steps p g x q Hx); exact Hs | reflexivity].
    + right. subst s. destruct (E3 eq_refl) as (F1 & F2 & F3).
      assert (Em : mark cf = mark (last cs c)) by (unfold mark; rewrite F1, F2; reflexivity).
      rewrite <- Em in Hm. unfold mark in Hm. inversion Hm; subst.
      unfold sel_mark. destruct (post_now p g cf q) eqn:Ep.
      * exfalso. apply Hn. apply (post_now_steps p g cf q Hx). exact Ep.
      * rewrite Hq. left. reflexivity.
Qed.

(** ** Time-interval files *)

Lemma evolve_chain_new sq p g : forall inp c s cf evs,
  evolve sq p g c inp = (s, cf, evs) ->
  exists cs, evs = flat_map (loop_events p g) cs ++ (match s with Finished => final_events p g cf | _ => [] end)
    /\ steps_of evs = map step_of cs /\ (s = Finished -> same_face cf (last cs c))
    /\ Forall (fun x => k_new x = k_cur x + k_dt0 x) cs
    /\ chained (k_idx c) (k_new c) (steps_of evs).
Proof.
  intros inp c s cf evs He.
  destruct (evolve_trace _ _ _ _ _ _ _ _ He) as (cs & E1 & E2 & E3 & E4).
  exists cs. split; [exact E1|]. split; [exact E2|]. split; [exact E3|].
  destruct (evolve_invariant sq p g (fun _ => True)
     (fun a b => (k_idx b = (k_idx a + 1)%Z /\ k_cur b = k_new a) /\ k_new b = k_cur b + k_dt0 b)) with (inp := inp) (c := c) (s := s) (cf := cf) (evs := evs)
    as (cs' & A & B & _); auto.
  { intros a i a1 a2 _ Hc Hset ->. split; [exact Logic.I|].
    destruct (new_timestep_go p a Hc) as (A1 & A2 & _).
    apply set_cfl_inv in Hset. destruct Hset as (S1 & _ & S3 & _).
    cbn. split; [split; congruence | reflexivity]. }
  assert (Hc : Forall (fun st => st_t1 st = st_t0 st + st_dt st) (map step_of cs')).
  { eapply chain_forall; [|exact B]. intros x y (_ & P). exact P. }
  split.
  - rewrite <- A, E2 in Hc. rewrite Forall_map in Hc. exact Hc.
  - rewrite A. clear - B. revert c B. induction cs' as [|x l IH]; intros c B; [exact Logic.I|].
    cbn [chain] in B. destruct B as (((P1 & P2) & P3) & _ & _ & B).
    cbn [map chained step_of st_idx st_t0 st_t1 st_dt].
    split; [exact P1|]. split; [rewrite P2; reflexivity|]. split; [rewrite P3; reflexivity|].
    apply IH. exact B.
Qed.

Lemma time_file sq p g c inp s cf evs o si st (proj : list event -> list (Z * Q)) :
  (forall a b, proj (a ++ b) = proj a ++ proj b) -> proj [] = [] ->
  (forall c, proj (loop_events p g c) = sel_mark (write_file o si st p) c) ->
  (forall c, proj (final_events p g c) = sel_mark (write_last_file o si st p) c) ->
  (o_interval o <= 0)%Z -> 0 < o_tinterval o ->
  evolve sq p g c inp = (s, cf, evs) ->
  (forall x, In x (steps_of evs) -> o_tdelay o <= st_t1 x + file_tol p o (st_dt x) -> due p o st x ->
     In (st_idx x, st_t1 x) (proj evs))
  /\ (forall i t, In (i, t) (proj evs) ->
       (exists x, In x (steps_of evs) /\ (i, t) = (st_idx x, st_t1 x) /\ due p o st x)
       \/ (s = Finished /\ (i, t) = last (marks (steps_of evs)) (k_idx c, k_new c)))
  /\ NoDup (map fst (proj evs)).
Proof.
  intros Ha Hnil Hl Hfi Hi Ht He.
  destruct (evolve_chain_new _ _ _ _ _ _ _ _ He) as (cs & E1 & E2 & E3 & E4 & E5).
  destruct (evolve_trace _ _ _ _ _ _ _ _ He) as (cs2 & _ & E2' & _ & E4').
  assert (HP : forall a b : clock, (k_idx b = (k_idx a + 1)%Z /\ k_cur b = k_new a) -> k_idx b = (k_idx a + 1)%Z) by tauto.
  assert (Nd := chain_idx_nodup _ _ _ _ _ HP E4').
  assert (Nd' : NoDup (map k_idx cs)).
  { assert (Em : map k_idx cs = map k_idx cs2).
    { assert (G : forall l, map k_idx l = map st_idx (map step_of l)) by (intro l; rewrite map_map; reflexivity).
      rewrite !G, <- E2, <- E2'. reflexivity. }
    rewrite Em. exact Nd. }
  assert (Eproj : proj evs = flat_map (sel_mark (write_file o si st p)) cs
                   ++ match s with Finished => sel_mark (write_last_file o si st p) cf | _ => [] end).
  { rewrite E1, Ha, (flat_map_proj proj p g _ cs Ha Hnil Hl). f_equal. destruct s; auto. }
  assert (El : last (marks (steps_of evs)) (k_idx c, k_new c) = mark (last cs c)).
  { unfold marks. rewrite E2, map_step_mark. apply (last_map mark). }
  rewrite Forall_forall in E4.
  split; [|split].
  - intros x Hx Hd Hdue. rewrite Eproj, in_app_iff. left. rewrite E2 in Hx.
    apply in_map_iff in Hx. destruct Hx as (y & <- & Hy). apply flat_sel_mark_in.
    exists y. split; [exact Hy|]. split; [|reflexivity].
    apply (write_file_time o si st p y Hi Ht); [rewrite (E4 y Hy); reflexivity|]. split; assumption.
  - intros i t Hin. rewrite Eproj, in_app_iff in Hin. destruct Hin as [Hin|Hin].
    + left. apply flat_sel_mark_in in Hin. destruct Hin as (y & Hy & Hw & Hm).
      exists (step_of y). split; [rewrite E2; apply in_map; exact Hy|]. split; [exact Hm|].
      apply (write_file_time o si st p y Hi Ht) in Hw; [|rewrite (E4 y Hy); reflexivity]. apply Hw.
    + right. destruct s; try (destruct Hin; fail). split; [reflexivity|]. rewrite El.
      unfold sel_mark in Hin. destruct (write_last_file o si st p cf); [|destruct Hin].
      destruct Hin as [Hin|[]]. rewrite <- Hin. destruct (E3 eq_refl) as (F1 & F2 & _).
      unfold mark. rewrite F1, F2. reflexivity.
  - rewrite Eproj, map_app.
    assert (N1 := flat_sel_mark_nodup (write_file o si st p) cs Nd').
    destruct s; try (rewrite app_nil_r; exact N1).
    unfold sel_mark at 2. destruct (write_last_file o si st p cf) eqn:Ew; [|rewrite app_nil_r; exact N1].
    cbn [map]. apply nodup_app_one; [exact N1|].
    change (fst (mark cf)) with (k_idx cf). destruct (E3 eq_refl) as (F1 & F2 & F3).
    intro Hin. apply in_map_iff in Hin. destruct Hin as (m & Hm & Hin).
    apply flat_sel_mark_in in Hin. destruct Hin as (x & Hx & Hw & ->). cbn in Hm.
    assert (Hl2 : x = last cs c).
    { destruct cs as [|y cs]; [destruct Hx|].
      assert (Hl2 := last_in (y :: cs) c). assert (Hne : y :: cs <> []) by discriminate. specialize (Hl2 Hne).
      rewrite F1 in Hm. clear - Nd' Hx Hl2 Hm.
      revert Nd' Hx Hl2 Hm. generalize (last (y :: cs) c) as z. generalize (y :: cs) as l.
      induction l as [|a l IH]; intros z Nd Hx Hl Hm; [destruct Hx|].
      cbn [map] in Nd. inversion Nd as [|u v Hu Hv]; subst.
      destruct Hx as [->|Hx], Hl as [->|Hl]; auto.
      - exfalso. apply Hu. rewrite Hm. apply in_map. exact Hl.
      - exfalso. apply Hu. rewrite <- Hm. apply in_map. exact Hx. }
    subst x. unfold write_last_file, write_file in *.
    assert (Ei : (0 <? o_interval o)%Z = false) by lia. rewrite Ei in *. cbn [andb orb] in *.
    assert (Ewin : in_time_window o st p cf = in_time_window o st p (last cs c)).
    { unfold in_time_window. rewrite F2, F3. reflexivity. }
    rewrite Ewin in Ew. apply andb_true_iff in Hw. destruct Hw as [_ Hw]. rewrite Hw in Ew.
    rewrite andb_false_r in Ew. discriminate.
Qed.

(** Exactly one file per target when the tolerance is the same at every step. *)
Lemma time_file_once sq p g c inp s cf evs o si st tol (proj : list event -> list (Z * Q)) :
  (forall a b, proj (a ++ b) = proj a ++ proj b) -> proj [] = [] ->
  (forall c, proj (loop_events p g c) = sel_mark (write_file o si st p) c) ->
  (forall c, proj (final_events p g c) = sel_mark (write_last_file o si st p) c) ->
  (o_interval o <= 0)%Z -> 0 < o_tinterval o ->
  evolve sq p g c inp = (s, cf, evs) ->
  Forall (fun x => 0 < st_dt x /\ file_tol p o (st_dt x) == tol) (steps_of evs) ->
  forall k : Z, let target := st + inject_Z k * o_tinterval o in
  o_tdelay o <= target -> k_new c + tol < target ->
  target <= snd (last (marks (steps_of evs)) (k_idx c, k_new c)) + tol ->
  exists x, In x (steps_of evs) /\ reaches tol (st_t0 x) (st_t1 x) target
    /\ In (st_idx x, st_t1 x) (proj evs)
    /\ forall y, In y (steps_of evs) -> reaches tol (st_t0 y) (st_t1 y) target -> y = x.
Proof.
  intros Ha Hnil Hl Hfi Hi Ht He Hall k target Hd Hlo Hhi.
  destruct (evolve_chain_new _ _ _ _ _ _ _ _ He) as (cs & _ & _ & _ & _ & Hch).
  destruct (window_cover tol target _ _ _ Hch Hlo Hhi) as (x & Hx & Rx).
  exists x. split; [exact Hx|]. split; [exact Rx|].
  destruct (time_file _ _ _ _ _ _ _ _ o si st proj Ha Hnil Hl Hfi Hi Ht He) as (T1 & _ & _).
  rewrite Forall_forall in Hall. destruct (Hall x Hx) as [Hp Htol].
  split.
  - apply T1; [exact Hx | |].
    + rewrite Htol. destruct Rx. lra.
    + exists k. destruct Rx as [R1 R2]. split; rewrite Htol; assumption.
  - intros y Hy Ry. apply (window_unique tol target _ _ _ Hch) with (a := y) (b := x); auto.
    rewrite Forall_forall. intros z Hz. apply (Hall z Hz).
Qed.

(** ** Restart *)

Lemma skipn_marks n l : skipn n (marks l) = marks (skipn n l).
Proof. unfold marks. apply skipn_map. Qed.

Lemma run_restart_same sq p init inp s cf evs i t d d1 d2 s' cf' evs' d1' d2' :
  run_fresh sq p init inp = (s, cf, evs) -> In (EChk i t d d1 d2) evs ->
  (adaptive p = false \/
   (* the flow's own CFL step limits the first step after the checkpoint *)
   match skipn (Z.to_nat i) inp with
   | [] => True
   | x :: _ => 2 * p_cfl p / qmax (cfl_unit sq x) eps <= (1 + p_growth p) * d /\ eps <= cfl_unit sq x
   end) ->
  run_restart sq p i t d1' d2' (skipn (Z.to_nat i) inp) = (s', cf', evs') ->
  s' = s /\ steps_of evs' = skipn (Z.to_nat i) (steps_of evs).
Proof.
  intros Hr Hin Hcase Hrs.
  assert (Hna : parse_aborts p = false).
  { unfold run_fresh in Hr. destruct (parse_aborts p); [inversion Hr; subst; destruct Hin|reflexivity]. }
  apply run_fresh_inv in Hr.
  destruct Hr as [(_ & ->) | (c1 & ev & evs1 & Hini & He & -> & Hn & Hi & Hs & Hst)]; [destruct Hin|].
  assert (Pos : exists n, (n <= length (steps_of evs1))%nat /\ i = Z.of_nat n
    /\ (i, t, d) = nth n (cface c1 :: map face (steps_of evs1)) (0%Z, 0, 0)).
  { apply in_app_iff in Hin. destruct Hin as [Hin|Hin].
    - exists O. split; [lia|].
      assert (E : (i, t, d) = cface c1).
      { unfold initialise in Hini. destruct init as [x|].
        - destruct (set_current_cfl sq p (fresh_clock p) x) as [c'| |]; try discriminate.
          cbn [obind] in Hini. inversion Hini; subst c' ev.
          apply in_app_iff in Hin. destruct Hin as [Hin|Hin].
          { apply no_chk_post in Hin. discriminate. }
          apply in_app_iff in Hin. destruct Hin as [Hin|Hin].
          { destruct (write_plot_file p (fresh_origin p) c1); [destruct Hin as [Hin|[]]; discriminate|destruct Hin]. }
          destruct (write_checkpoint p (fresh_origin p) c1); [destruct Hin as [Hin|[]]|destruct Hin].
          inversion Hin. reflexivity.
        - cbn [obind] in Hini. inversion Hini; subst c1 ev.
          apply in_app_iff in Hin. destruct Hin as [Hin|Hin].
          { apply no_chk_post in Hin. discriminate. }
          apply in_app_iff in Hin. destruct Hin as [Hin|Hin].
          { destruct (write_plot_file p (fresh_origin p) (fresh_clock p)); [destruct Hin as [Hin|[]]; discriminate|destruct Hin]. }
          destruct (write_checkpoint p (fresh_origin p) (fresh_clock p)); [destruct Hin as [Hin|[]]|destruct Hin].
          inversion Hin. reflexivity. }
      split; [unfold cface in E; inversion E; rewrite Hi; reflexivity|]. exact E.
    - destruct (chk_event_position _ _ _ _ _ _ _ _ _ _ _ _ _ He Hin) as (n & N1 & N2 & N3).
      exists n. rewrite Hi in N2. split; [exact N1|]. split; [lia|]. exact N3. }
  destruct Pos as (n & N1 & N2 & N3).
  assert (En : Z.to_nat i = n) by lia. rewrite En in *.
  destruct (evolve_split _ _ _ _ _ _ _ _ He n N1) as (ck & cf2 & evs2 & K1 & K2 & K3 & K4).
  rewrite <- K4 in N3. unfold cface in N3. inversion N3 as [[X1 X2 X3]].
  unfold run_restart in Hrs. rewrite Hna in Hrs.
  destruct (evolve sq p (restart_origin p i t) (restart_clock p i t d1' d2') (skipn n inp)) as [[s3 cf3] evs3] eqn:E3.
  inversion Hrs; subst s' cf' evs'; clear Hrs.
  rewrite steps_of_app, steps_post_events. cbn [app]. rewrite Hst, <- K2.
  assert (Sc : adaptive p = false \/ same_cfl sq p ck (restart_clock p i t d1' d2') (skipn n inp)).
  { destruct Hcase as [Ha|Hc]; [left; exact Ha|]. destruct (adaptive p) eqn:Ea; [right|left; reflexivity].
    destruct (skipn n inp) as [|x r]; [exact Logic.I|]. destruct Hc as [Hc1 Hc2].
    cbn [same_cfl]. unfold new_timestep.
    assert (Ec := continue_face p ck (restart_clock p i t d1' d2') (eq_sym X1) (eq_sym X2)). rewrite <- Ec.
    assert (G : forall a b, k_cur a = k_cur b -> k_init a = false -> k_init b = false ->
              k_dt0 a = d -> k_dt0 b = -1 # 1 -> cfl_dt sq p a x = cfl_dt sq p b x).
    { intros a b G1 G2 G3 G4 G5. unfold cfl_dt. rewrite G1, G2, G3, G4, G5, Ea. cbn [andb negb].
      assert (Es : Qltb (cfl_unit sq x) eps = false) by (apply Qltb_false; exact Hc2).
      rewrite Es. cbn [andb]. change (Qltb 0 (-1 # 1)) with false. cbn [andb].
      f_equal. destruct (Qltb 0 d); cbn [andb]; [|reflexivity].
      unfold qmin. assert (El : Qltb ((1 + p_growth p) * d) (2 * p_cfl p / qmax (cfl_unit sq x) eps) = false)
        by (apply Qltb_false; exact Hc1). rewrite El. reflexivity. }
    assert (Hrd : (if Qltb 0 (p_fixed_dt p) then p_fixed_dt p else -1 # 1) = -1 # 1).
    { unfold adaptive in Ea. destruct (Qltb 0 (p_fixed_dt p)); [discriminate|reflexivity]. }
    destruct (continue_simulation p ck); apply G; cbn; auto. }
  destruct Sc as [Ha|Sc].
  - destruct (evolve_fixed_same sq p (restart_origin p i t) (fresh_origin p) Ha (skipn n inp)
      (restart_clock p i t d1' d2') ck s3 cf3 evs3 s cf2 evs2) as [L1 L2]; auto.
  - destruct (evolve_same sq p (fresh_origin p) (restart_origin p i t) (skipn n inp)
      ck (restart_clock p i t d1' d2') s cf2 evs2 s3 cf3 evs3) as [L1 L2]; auto.
Qed.

(** ** The k-th step uses the k-th CFL input *)
Lemma evolve_cfl_inputs sq p g : forall inp c s cf evs,
  evolve sq p g c inp = (s, cf, evs) ->
  Forall2 (fun st i => st_cfl st == cfl_number sq i (st_dt st))
    (steps_of evs) (firstn (length (steps_of evs)) inp).
Proof.
  induction inp as [|i r IH]; intros c s cf evs He.
  - destruct (continue_simulation p c) eqn:Ec.
    + rewrite evolve_nil in He by exact Ec. inversion He; subst. constructor.
    + rewrite evolve_stop in He by exact Ec. inversion He; subst. rewrite steps_final. constructor.
  - destruct (continue_simulation p c) eqn:Ec.
    + rewrite evolve_cons in He by exact Ec. cbv zeta in He.
      destruct (evolve_body sq p g (snd (new_timestep p c)) i) as [[c2 ev]| |] eqn:Eb;
        try (inversion He; subst; constructor).
      destruct (evolve sq p g c2 r) as [[s' cf'] evs'] eqn:Er.
      inversion He; subst s cf evs; clear He.
      rewrite steps_of_app, (steps_body _ _ _ _ _ _ _ Eb). cbn [app length firstn].
      constructor; [|eapply IH; exact Er].
      apply body_inv in Eb. destruct Eb as (c1 & Hset & -> & _).
      apply set_cfl_inv in Hset. destruct Hset as (_ & _ & _ & _ & _ & _ & S7 & _).
      cbn. rewrite S7. unfold cfl_unit, cfl_number. field.
    + rewrite evolve_stop in He by exact Ec. inversion He; subst. rewrite steps_final. constructor.
Qed.

Lemma run_cfl_inputs sq p idx t inp s cf evs :
  is_run sq p idx t inp (s, cf, evs) ->
  Forall2 (fun st i => st_cfl st == cfl_number sq i (st_dt st))
    (steps_of evs) (firstn (length (steps_of evs)) inp).
Proof.
  intro Hr. apply is_run_inv in Hr.
  destruct Hr as [(-> & ->) | (g & c & ev & evs' & He & <- & <- & Hev & Hst)]; [constructor|].
  rewrite Hst. eapply evolve_cfl_inputs; exact He.
Qed.

Lemma run_post_steps sq p idx t inp s cf evs k q :
  nth_error (p_post p) k = Some q -> step_based q -> s <> Aborted ->
  is_run sq p idx t inp (s, cf, evs) ->
  let states := (idx, t) :: marks (steps_of evs) in
  let on i := (q_delay q <= i)%Z /\ (q_interval q | i - post_origin q idx)%Z in
  forall i u, In (i, u) (posts_of k evs) <->
    (In (i, u) states /\ on i)
    \/ (s = Finished /\ q_final q = true /\ (i, u) = last states (idx, t) /\ ~ on i).
Proof.
  intros Hk Hx Hna Hr states on.
  assert (G : exists g c0 c1 evs', evolve sq p g c1 inp = (s, cf, evs') /\ k_idx c1 = idx /\ k_new c1 = t
     /\ k_idx c0 = idx /\ k_new c0 = t /\ g_start_idx g = idx
     /\ posts_of k evs = sel_mark (fun c => post_now p g c q) c0 ++ posts_of k evs' /\ steps_of evs = steps_of evs').
  { destruct Hr as [(-> & -> & init & H) | (d1 & d2 & H)].
    - apply run_fresh_inv in H. destruct H as [(-> & _)|(c1 & ev & evs' & H1 & H2 & -> & H4 & H5 & H6 & H7)]; [congruence|].
      exists (fresh_origin p), (fresh_clock p), c1, evs'. split; [exact H2|]. split; [exact H5|]. split; [exact H4|].
      split; [reflexivity|]. split; [reflexivity|]. split; [reflexivity|].
      apply initialise_inv in H1. destruct H1 as (_ & _ & _ & _ & _ & _ & _ & H1).
      rewrite posts_of_app, (H1 k q Hk). auto.
    - apply run_restart_inv in H. destruct H as [(-> & _)|(evs' & H1 & -> & H3)]; [congruence|].
      exists (restart_origin p idx t), (restart_clock p idx t d1 d2), (restart_clock p idx t d1 d2), evs'.
      split; [exact H1|]. repeat (split; [reflexivity|]).
      rewrite posts_of_app, (posts_post_events _ _ _ 0 k q Hk). auto. }
  destruct G as (g & c0 & c1 & evs' & He & I1 & N1 & I0 & N0 & Ig & Hp & Hs).
  intros i u. rewrite Hp, in_app_iff, (evolve_post_steps _ _ _ _ _ _ _ _ _ _ Hk Hx He i u), Ig, I1, N1.
  unfold states. rewrite last_cons, Hs. fold (on i).
  unfold sel_mark, mark. rewrite I0, N0.
  assert (W := post_now_steps p g c0 q Hx). rewrite I0, Ig in W. fold (on idx) in W.
  cbn [In]. destruct (post_now p g c0 q) eqn:Ep.
  - assert (W1 := proj1 W eq_refl). split.
    + intros [[H|[]]|[H|H]]; [|left; tauto|right; exact H]. left. inversion H; subst. auto.
    + intros [[[H|H] K]|H]; [left; left; exact H|right; left; auto|right; right; exact H].
  - split.
    + intros [[]|[H|H]]; [left; tauto|right; exact H].
    + intros [[[H|H] K]|H]; [|right; left; auto|right; right; exact H].
      inversion H; subst i. apply W in K. discriminate.
Qed.
