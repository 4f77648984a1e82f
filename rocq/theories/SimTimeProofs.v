(** Lemmas about the time manager and the evolve loop. *)
From Verif Require Import BaseFacts SimTime SimTimeSpec.
From Coq Require Import Setoid.

(** ** Enforced output times *)

Lemma enforced_gap cur iv tol :
  0 < iv -> 0 <= tol ->
  tol * iv < (qfloor (cur / iv + tol) + 1) * iv - cur.
Proof.
  intros Hiv Htol.
  pose proof (qfloor_lt (cur / iv + tol)) as H.
  pose proof (Qdiv_mul_cancel cur iv Hiv) as E.
  set (x := cur / iv) in *. set (f := qfloor (x + tol)) in *.
  assert (0 < (f + 1 - (x + tol)) * iv) by (apply Qmult_lt_0_compat; lra).
  lra.
Qed.

Lemma enforce_le on iv tol dl cur d : enforce on iv tol dl cur d <= d.
Proof.
  unfold enforce, get_enforced_dt_for_output.
  destruct (_ && _); [apply qmin_l | lra].
Qed.

Lemma enforce_pos on iv tol dl cur d :
  (on = true -> 0 <= tol) -> 0 < d -> 0 < enforce on iv tol dl cur d.
Proof.
  intros Ht Hd. unfold enforce, get_enforced_dt_for_output.
  destruct (_ && _) eqn:E; [|exact Hd]. qprop.
  assert (T := Ht H1). assert (G := enforced_gap cur iv tol H T).
  apply qmin_pos; [exact Hd|].
  assert (0 <= tol * iv) by (apply Qmult_le_0_compat; lra). lra.
Qed.

Lemma enforce_floor1 on iv tol dl cur d m :
  (on = true -> 0 <= tol) -> (on = true -> 0 < iv -> m <= tol * iv) ->
  m <= d -> m <= enforce on iv tol dl cur d.
Proof.
  intros Ht Hm Hd. unfold enforce, get_enforced_dt_for_output.
  destruct (_ && _) eqn:E; [|exact Hd]. qprop.
  assert (T := Ht H1). assert (G := enforced_gap cur iv tol H T).
  specialize (Hm H1 H).
  apply qmin_glb; [exact Hd|]. lra.
Qed.

Lemma enforce_fold_le cur (l : list postspec) : forall d,
  fold_left (fun d q => enforce (q_enforce q) (q_tinterval q) (q_ftol q) (q_tdelay q) cur d) l d <= d.
Proof.
  induction l as [|q l IH]; cbn [fold_left]; intro d; [lra|].
  eapply Qle_trans; [apply IH|]. apply enforce_le.
Qed.

Lemma enforce_fold_pos cur (l : list postspec) :
  (forall q, In q l -> q_enforce q = true -> 0 <= q_ftol q) -> forall d,
  0 < d -> 0 < fold_left (fun d q => enforce (q_enforce q) (q_tinterval q) (q_ftol q) (q_tdelay q) cur d) l d.
Proof.
  induction l as [|q l IH]; cbn [fold_left]; intros H d Hd; [exact Hd|].
  apply IH; [intros q' Hq; apply H; right; exact Hq|].
  apply enforce_pos; [apply H; left; reflexivity | exact Hd].
Qed.

Lemma enforce_fold_floor cur (l : list postspec) m :
  (forall q, In q l -> q_enforce q = true -> 0 <= q_ftol q) ->
  (forall q, In q l -> q_enforce q = true -> 0 < q_tinterval q -> m <= q_ftol q * q_tinterval q) ->
  forall d, m <= d ->
  m <= fold_left (fun d q => enforce (q_enforce q) (q_tinterval q) (q_ftol q) (q_tdelay q) cur d) l d.
Proof.
  induction l as [|q l IH]; cbn [fold_left]; intros H Hm d Hd; [exact Hd|].
  apply IH; [intros q' Hq; apply H; right; exact Hq | intros q' Hq; apply Hm; right; exact Hq |].
  apply enforce_floor1; [apply H; left; reflexivity | apply Hm; left; reflexivity | exact Hd].
Qed.

Lemma enforce_all_le p cur d : enforce_all p cur d <= d.
Proof.
  unfold enforce_all. eapply Qle_trans; [apply enforce_fold_le|].
  eapply Qle_trans; [apply enforce_le|]. apply enforce_le.
Qed.

Lemma enforce_all_pos p cur d : inputs_ok p -> 0 < d -> 0 < enforce_all p cur d.
Proof.
  intros (_ & _ & _ & Hc & Hp & Hq) Hd. unfold enforce_all.
  apply enforce_fold_pos; [exact Hq|].
  apply enforce_pos; [exact Hp|]. apply enforce_pos; [exact Hc | exact Hd].
Qed.

Lemma enforce_all_floor p cur d m :
  inputs_ok p -> enforce_floor p m -> m <= d -> m <= enforce_all p cur d.
Proof.
  intros (_ & _ & _ & Hc & Hp & Hq) (Fc & Fp & Fq) Hd. unfold enforce_all.
  apply enforce_fold_floor; [exact Hq | exact Fq|].
  apply enforce_floor1; [exact Hp | exact Fp|].
  apply enforce_floor1; [exact Hc | exact Fc | exact Hd].
Qed.

(** Every enforced output: either its delay has not passed for the resulting
    step, or the step ends at or before the next output time. *)
Lemma enforce_hits on iv tol dl cur d e :
  on = true -> 0 < iv -> e <= enforce on iv tol dl cur d ->
  cur + e - dl < 0 \/ cur + e <= (qfloor (cur / iv + tol) + 1) * iv.
Proof.
  intros -> Hiv He. unfold enforce, get_enforced_dt_for_output in He.
  apply Qltb_true in Hiv. rewrite Hiv in He. cbn [andb] in He.
  destruct (Qleb 0 (cur + d - dl)) eqn:E.
  - right. assert (M := qmin_r d ((qfloor (cur / iv + tol) + 1) * iv - cur)). lra.
  - left. qprop. lra.
Qed.

Lemma enforce_fold_hits cur q (l : list postspec) : forall d,
  In q l -> q_enforce q = true -> 0 < q_tinterval q ->
  forall e, e <= fold_left (fun d q => enforce (q_enforce q) (q_tinterval q) (q_ftol q) (q_tdelay q) cur d) l d ->
  cur + e - q_tdelay q < 0 \/ cur + e <= (qfloor (cur / q_tinterval q + q_ftol q) + 1) * q_tinterval q.
Proof.
  induction l as [|a l IH]; cbn [fold_left]; intros d Hin Hon Hiv e He; [destruct Hin|].
  destruct Hin as [-> | Hin].
  - eapply enforce_hits; [exact Hon | exact Hiv |].
    eapply Qle_trans; [exact He|]. apply enforce_fold_le.
  - eapply IH; eauto.
Qed.

Lemma enforce_all_hits p cur d iv tol dl e :
  enforced p iv tol dl -> e <= enforce_all p cur d ->
  cur + e - dl < 0 \/ cur + e <= (qfloor (cur / iv + tol) + 1) * iv.
Proof.
  unfold enforce_all. intros (Hiv & [(Hon & -> & -> & ->) | [(Hon & -> & -> & ->) | (q & Hin & Hon & -> & -> & ->)]]) He.
  - eapply enforce_hits; [exact Hon | exact Hiv|].
    eapply Qle_trans; [exact He|]. eapply Qle_trans; [apply enforce_fold_le|]. apply enforce_le.
  - eapply enforce_hits; [exact Hon | exact Hiv|].
    eapply Qle_trans; [exact He|]. apply enforce_fold_le.
  - eapply enforce_fold_hits; eauto.
Qed.

(** ** One CFL evaluation *)

Lemma qmax_eps_pos u : 0 < qmax u eps.
Proof. assert (M := qmax_r u eps). unfold eps in *. lra. Qed.

Lemma cfl_dt_pos sq p c i d :
  inputs_ok p -> cfl_dt sq p c i = Some d -> 0 < d.
Proof.
  intros (Hcfl & Hg & Hs & _) H. unfold cfl_dt in H.
  set (u := cfl_unit sq i) in *.
  destruct (adaptive p && negb (k_init c) && Qltb u eps) eqn:Es; cbn [andb] in H.
  - destruct (Qltb (k_cur c) eps && Qltb 0 (p_initial_dt p)) eqn:Ei; cbn [negb] in H; [|discriminate].
    qprop.
    destruct (k_init c); [discriminate|].
    destruct (Qltb 0 (k_dt0 c) && adaptive p) eqn:Eg; inversion H; subst; [|exact H1].
    qprop. apply qmin_pos; [exact H1|]. apply Qmult_lt_0_compat; lra.
  - assert (P : 0 < 2 * p_cfl p / qmax u eps).
    { apply Qdiv_pos; [lra | apply qmax_eps_pos]. }
    assert (P2 : 0 < (if k_init c then 2 * p_cfl p / qmax u eps * p_init_shrink p else 2 * p_cfl p / qmax u eps)).
    { destruct (k_init c); [apply Qmult_lt_0_compat|]; auto. }
    destruct (Qltb 0 (k_dt0 c) && adaptive p) eqn:Eg; inversion H; subst; [|exact P2].
    qprop. apply qmin_pos; [exact P2|]. apply Qmult_lt_0_compat; lra.
Qed.

Lemma adaptive_dt_props p c d e :
  inputs_ok p -> 0 < d ->
  (0 < p_stop_time p -> k_cur c < p_stop_time p) ->
  adaptive_dt p c d = Some e ->
  0 < e /\ e <= d
  /\ (0 < p_stop_time p -> k_cur c + e <= p_stop_time p)
  /\ (0 < p_max_dt p -> e <= p_max_dt p)
  /\ (0 < p_min_dt p -> p_min_dt p <= d)
  /\ (forall iv tol dl, enforced p iv tol dl ->
        k_cur c + e - dl < 0 \/ k_cur c + e <= (qfloor (k_cur c / iv + tol) + 1) * iv).
Proof.
  intros Hok Hd Hstop H. unfold adaptive_dt in H.
  set (d1 := if Qltb 0 (p_max_dt p) then qmin d (p_max_dt p) else d) in *.
  assert (D1 : 0 < d1 /\ d1 <= d /\ (0 < p_max_dt p -> d1 <= p_max_dt p)).
  { unfold d1. destruct (Qltb 0 (p_max_dt p)) eqn:E; qprop.
    - assert (M := qmin_l d (p_max_dt p)). assert (M2 := qmin_r d (p_max_dt p)).
      split; [apply qmin_pos; auto | split; auto].
    - split; [auto | split; [lra | intro; lra]]. }
  destruct (Qltb 0 (p_min_dt p) && Qltb d1 (p_min_dt p)) eqn:Em; [discriminate|].
  assert (Dmin : 0 < p_min_dt p -> p_min_dt p <= d1).
  { intro Hm. apply Qltb_true in Hm. rewrite Hm in Em. cbn [andb] in Em. qprop. exact Em. }
  set (d2 := if Qltb 0 (p_stop_time p) && Qltb (p_stop_time p) (k_cur c + d1)
             then p_stop_time p - k_cur c else d1) in *.
  assert (D2 : 0 < d2 /\ d2 <= d1 /\ (0 < p_stop_time p -> k_cur c + d2 <= p_stop_time p)).
  { unfold d2. destruct (Qltb 0 (p_stop_time p) && Qltb (p_stop_time p) (k_cur c + d1)) eqn:E.
    - qprop. assert (K := Hstop H0). split; [lra | split; [lra | intros _; lra]].
    - split; [lra | split; [lra |]]. intro Hs. apply Qltb_true in Hs. rewrite Hs in E.
      cbn [andb] in E. qprop. exact E. }
  set (d3 := enforce_all p (k_cur c) d2) in *.
  assert (D3 : 0 < d3 /\ d3 <= d2).
  { split; [apply enforce_all_pos | apply enforce_all_le]; tauto. }
  assert (E3 : 0 < e /\ e <= d3).
  { destruct (k_init c && Qltb 0 (p_initial_dt p)) eqn:E; inversion H; subst.
    - qprop. split; [apply qmin_pos; tauto | apply qmin_l].
    - split; [tauto | lra]. }
  destruct D1 as (D1a & D1b & D1c). destruct D2 as (D2a & D2b & D2c).
  destruct D3 as (D3a & D3b). destruct E3 as (E3a & E3b).
  split; [exact E3a|]. split; [lra|].
  split; [intro Hs; specialize (D2c Hs); lra|].
  split; [intro Hm; specialize (D1c Hm); lra|].
  split; [intro Hm; specialize (Dmin Hm); lra|].
  intros iv tol dl He. eapply enforce_all_hits; [exact He | exact E3b].
Qed.

(** A step already shorter than every enforcement floor is left alone. *)
Lemma enforce_small on iv tol dl cur d m :
  (on = true -> 0 <= tol) -> (on = true -> 0 < iv -> m <= tol * iv) ->
  d < m -> enforce on iv tol dl cur d = d.
Proof.
  intros Ht Hm Hd. unfold enforce, get_enforced_dt_for_output.
  destruct (_ && _) eqn:E; [|reflexivity]. qprop.
  assert (T := Ht H1). assert (G := enforced_gap cur iv tol H T).
  specialize (Hm H1 H). unfold qmin.
  match goal with |- (if ?b then _ else _) = _ => destruct b eqn:F; [|reflexivity] end.
  qprop. lra.
Qed.

Lemma enforce_fold_small cur (l : list postspec) m :
  (forall q, In q l -> q_enforce q = true -> 0 <= q_ftol q) ->
  (forall q, In q l -> q_enforce q = true -> 0 < q_tinterval q -> m <= q_ftol q * q_tinterval q) ->
  forall d, d < m ->
  fold_left (fun d q => enforce (q_enforce q) (q_tinterval q) (q_ftol q) (q_tdelay q) cur d) l d = d.
Proof.
  induction l as [|q l IH]; cbn [fold_left]; intros H Hm d Hd; [reflexivity|].
  rewrite (enforce_small _ _ _ _ _ _ m); [|apply H; left; reflexivity|apply Hm; left; reflexivity|exact Hd].
  apply IH; [intros q' Hq; apply H; right; exact Hq | intros q' Hq; apply Hm; right; exact Hq | exact Hd].
Qed.

Lemma enforce_all_small p cur d m :
  inputs_ok p -> enforce_floor p m -> d < m -> enforce_all p cur d = d.
Proof.
  intros (_ & _ & _ & Hc & Hp & Hq) (Fc & Fp & Fq) Hd. unfold enforce_all.
  rewrite (enforce_small _ _ _ _ _ d m Hc Fc Hd).
  rewrite (enforce_small _ _ _ _ _ d m Hp Fp Hd).
  apply (enforce_fold_small _ _ m Hq Fq _ Hd).
Qed.

(** In [adaptive_dt] a result below every floor can only be the final step that
    lands on the stop time. *)
Lemma adaptive_dt_floor p c d e m :
  inputs_ok p -> enforce_floor p m -> 0 < p_min_dt p -> m <= p_min_dt p ->
  k_init c = false ->
  adaptive_dt p c d = Some e ->
  m <= e \/ (0 < p_stop_time p /\ e = p_stop_time p - k_cur c).
Proof.
  intros Hok Hf Hmin Hmm Hi H. unfold adaptive_dt in H. rewrite Hi in H. cbn [andb] in H.
  set (d1 := if Qltb 0 (p_max_dt p) then qmin d (p_max_dt p) else d) in *.
  destruct (Qltb 0 (p_min_dt p) && Qltb d1 (p_min_dt p)) eqn:Em; [discriminate|].
  assert (M : m <= d1).
  { apply Qltb_true in Hmin. rewrite Hmin in Em. cbn [andb] in Em. qprop. lra. }
  inversion H; subst e; clear H.
  destruct (Qltb 0 (p_stop_time p) && Qltb (p_stop_time p) (k_cur c + d1)) eqn:E.
  - qprop.
    destruct (Qlt_le_dec (p_stop_time p - k_cur c) m) as [C|C].
    + right. split; [assumption|]. apply (enforce_all_small _ _ _ m Hok Hf C).
    + left. apply enforce_all_floor; auto.
  - left. apply enforce_all_floor; auto.
Qed.

Lemma set_cfl_inv sq p c i c' :
  set_current_cfl sq p c i = Ret c' ->
  k_cur c' = k_cur c /\ k_new c' = k_new c /\ k_idx c' = k_idx c /\ k_init c' = k_init c
  /\ k_dt1 c' = k_dt1 c /\ k_dt2 c' = k_dt2 c
  /\ k_cflnum c' = (1 # 2) * cfl_unit sq i * k_dt0 c'
  /\ exists d, cfl_dt sq p c i = Some d /\
     (if adaptive p
      then exists e, adaptive_dt p c d = Some e /\ k_dt_calc c' = e
                     /\ k_dt0 c' = (if in_delay p (k_cur c) then p_initial_dt p else e)
      else k_dt_calc c' = d /\ k_dt0 c' = (if in_delay p (k_cur c) then p_initial_dt p else p_fixed_dt p)).
Proof.
  unfold set_current_cfl. intro H.
  destruct (cfl_dt sq p c i) as [d|]; [|discriminate].
  destruct (adaptive p).
  - destruct (adaptive_dt p c d) as [e|] eqn:Ee; [|discriminate].
    inversion H; subst; cbn. do 7 (split; [reflexivity|]). exists d. split; [reflexivity|]. exists e. auto.
  - inversion H; subst; cbn. do 7 (split; [reflexivity|]). exists d. auto.
Qed.

Lemma new_timestep_inv p c b c1 :
  new_timestep p c = (b, c1) ->
  b = continue_simulation p c
  /\ k_new c1 = k_new c /\ k_cur c1 = k_new c /\ k_init c1 = false /\ k_dt0 c1 = k_dt0 c
  /\ k_idx c1 = (if b then k_idx c + 1 else k_idx c)%Z
  /\ (b = true -> k_dt1 c1 = k_dt0 c /\ k_dt2 c1 = k_dt1 c)
  /\ (b = false -> k_dt1 c1 = k_dt1 c /\ k_dt2 c1 = k_dt2 c)
  /\ k_cflnum c1 = k_cflnum c /\ k_dt_calc c1 = k_dt_calc c.
Proof.
  unfold new_timestep. destruct (continue_simulation p c); intro H; inversion H; subst; cbn;
    repeat split; auto; discriminate.
Qed.

Lemma continue_stop p c :
  continue_simulation p c = true -> 0 < p_stop_time p -> k_new c + stop_eps < p_stop_time p.
Proof.
  unfold continue_simulation. destruct (p_max_step p =? 0)%Z; [discriminate|].
  destruct (Qltb 0 (p_stop_time p)) eqn:E; cbn [andb].
  - destruct (Qleb (p_stop_time p) (k_new c + stop_eps)) eqn:F; [discriminate|].
    intros _ _. qprop. exact F.
  - intros _ H. qprop. lra.
Qed.

Lemma stop_eps_pos : 0 < stop_eps.
Proof. reflexivity. Qed.

(** ** Induction principle for the evolve loop *)

(** Facts about one full loop iteration that starts from clock [c]. *)
Lemma evolve_cons sq p g c i r :
  continue_simulation p c = true ->
  evolve sq p g c (i :: r) =
    let c1 := snd (new_timestep p c) in
    match evolve_body sq p g c1 i with
    | Ret (c2, ev) => let '(s, cf, evs) := evolve sq p g c2 r in (s, cf, ev ++ evs)
    | _ => (Aborted, c1, [])
    end.
Proof.
  intro H. cbn [evolve]. unfold new_timestep. rewrite H. reflexivity.
Qed.

Lemma evolve_stop sq p g c l :
  continue_simulation p c = false ->
  evolve sq p g c l = (Finished, snd (new_timestep p c), final_events p g (snd (new_timestep p c))).
Proof.
  intro H. destruct l; cbn [evolve]; unfold new_timestep; rewrite H; reflexivity.
Qed.

Lemma evolve_nil sq p g c :
  continue_simulation p c = true -> evolve sq p g c [] = (Running, c, []).
Proof. intro H. cbn [evolve]. unfold new_timestep. rewrite H. reflexivity. Qed.

Lemma steps_of_app a b : steps_of (a ++ b) = steps_of a ++ steps_of b.
Proof.
  induction a as [|e a IH]; [reflexivity|]. destruct e; cbn; rewrite ?IH; reflexivity.
Qed.

Lemma steps_post_events sel c l : forall n, steps_of (post_events sel c n l) = [].
Proof.
  induction l as [|q l IH]; intro n; [reflexivity|]. cbn [post_events].
  rewrite steps_of_app, IH. destruct (sel q); reflexivity.
Qed.

Lemma steps_post_advance p g c : steps_of (post_advance_work p g c) = [].
Proof.
  unfold post_advance_work. rewrite !steps_of_app, steps_post_events.
  destruct (write_plot_file p g c), (write_checkpoint p g c); reflexivity.
Qed.

Lemma steps_final p g c : steps_of (final_events p g c) = [].
Proof.
  unfold final_events. rewrite !steps_of_app, steps_post_events.
  destruct (write_last_plot_file p g c), (write_last_checkpoint p g c); reflexivity.
Qed.

Definition step_of (c : clock) : step :=
  {| st_idx := k_idx c; st_t0 := k_cur c; st_t1 := k_new c; st_dt := k_dt0 c; st_cfl := k_cflnum c |}.

Lemma body_inv sq p g c i c2 ev :
  evolve_body sq p g c i = Ret (c2, ev) ->
  exists c1, set_current_cfl sq p c i = Ret c1 /\ c2 = advance_time c1
             /\ ev = ev_if (do_regrid p g c) (ERegrid (k_idx c))
                     ++ EStep (k_idx c2) (k_cur c2) (k_new c2) (k_dt0 c2) (k_cflnum c2)
                     :: post_advance_work p g c2.
Proof.
  unfold evolve_body. destruct (set_current_cfl sq p c i) as [c1| |]; cbn [obind]; try discriminate.
  intro H. inversion H; subst. exists c1. auto.
Qed.

Lemma steps_body sq p g c i c2 ev :
  evolve_body sq p g c i = Ret (c2, ev) -> steps_of ev = [step_of c2].
Proof.
  intro H. apply body_inv in H. destruct H as (c1 & _ & _ & ->).
  rewrite steps_of_app. cbn [steps_of]. rewrite steps_post_advance.
  destruct (do_regrid p g c); reflexivity.
Qed.

(** Clocks at the end of successive iterations. *)
Fixpoint chain (p : params) (I : clock -> Prop) (P : clock -> clock -> Prop) (c : clock) (l : list clock) : Prop :=
  match l with
  | [] => True
  | c2 :: r => P c c2 /\ I c2 /\ continue_simulation p c = true /\ chain p I P c2 r
  end.

(** General invariant rule.  [I] holds at the loop head; [P c c2] is what one
    iteration from head clock [c] to end clock [c2] guarantees. *)
Lemma evolve_invariant sq p g (I : clock -> Prop) (P : clock -> clock -> Prop) :
  (forall c i c1 c2, I c -> continue_simulation p c = true ->
     set_current_cfl sq p (snd (new_timestep p c)) i = Ret c1 -> c2 = advance_time c1 ->
     I c2 /\ P c c2) ->
  forall inp c s cf evs, I c -> evolve sq p g c inp = (s, cf, evs) ->
  exists cs, steps_of evs = map step_of cs
    /\ chain p I P c cs
    /\ (s = Finished -> exists cl, I cl /\ cl = last cs c /\ continue_simulation p cl = false
                        /\ cf = snd (new_timestep p cl))
    /\ (s = Running -> length cs = length inp)
    /\ (length cs <= length inp)%nat.
Proof.
  intros Hstep. induction inp as [|i r IH]; intros c s cf evs HI He.
  - destruct (continue_simulation p c) eqn:Ec.
    + rewrite evolve_nil in He by exact Ec. inversion He; subst. exists []. cbn.
      repeat split; auto. discriminate.
    + rewrite evolve_stop in He by exact Ec. inversion He; subst. exists [].
      rewrite steps_final. cbn [map last length]. repeat split; auto; try discriminate.
      intros _. exists c. auto.
  - destruct (continue_simulation p c) eqn:Ec.
    + rewrite evolve_cons in He by exact Ec. cbv zeta in He.
      destruct (evolve_body sq p g (snd (new_timestep p c)) i) as [[c2 ev]| |] eqn:Eb.
      * destruct (evolve sq p g c2 r) as [[s' cf'] evs'] eqn:Er.
        inversion He; subst s cf evs; clear He.
        assert (B := Eb). apply body_inv in B. destruct B as (c1 & Hset & Hadv & _).
        destruct (Hstep c i c1 c2 HI Ec Hset Hadv) as [HI2 HP].
        destruct (IH c2 s' cf' evs' HI2 Er) as (cs & Hs & Hch & Hfin & Hrun & Hlen).
        exists (c2 :: cs). rewrite steps_of_app, (steps_body _ _ _ _ _ _ _ Eb), Hs.
        split; [reflexivity|]. split; [cbn; auto|].
        split.
        { intro Hf. destruct (Hfin Hf) as (cl & A & B & C). exists cl.
          split; [exact A|]. split; [|exact C].
          rewrite B. destruct cs as [|x cs]; [reflexivity|].
          clear. cbn [last]. revert x. induction cs; intros; cbn [last]; auto. }
        split; [intro Hr; cbn; rewrite (Hrun Hr); reflexivity | cbn; lia].
      * inversion He; subst. exists []. cbn. repeat split; auto; try discriminate. lia.
      * inversion He; subst. exists []. cbn. repeat split; auto; try discriminate. lia.
    + rewrite evolve_stop in He by exact Ec. inversion He; subst. exists [].
      rewrite steps_final. cbn [map last length]. repeat split; auto; try discriminate; try lia.
      intros _. exists c. auto.
Qed.
