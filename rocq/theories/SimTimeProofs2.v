(** Adaptive and fixed stepping over whole runs: properties C01-C04. *)
From Verif Require Import BaseFacts SimTime SimTimeSpec SimTimeProofs.

Lemma not_in_delay p cur : p_delay_time p <= cur -> in_delay p cur = false.
Proof.
  intro H. unfold in_delay. apply Qltb_false.
  assert (M := qmax_r (p_initial_dt p) 0). lra.
Qed.

(** CFL part of dt_new. *)
Lemma cfl_dt_bounds sq p c i d :
  inputs_ok p -> adaptive p = true -> p_initial_dt p * eps <= 2 * p_cfl p ->
  cfl_dt sq p c i = Some d ->
  0 < d /\ (0 < k_dt0 c -> d <= (1 + p_growth p) * k_dt0 c)
  /\ d * cfl_unit sq i <= 2 * p_cfl p * (if k_init c then p_init_shrink p else 1).
Proof.
  intros Hok Had Hi H. split; [eapply cfl_dt_pos; eauto|].
  assert (Hd := cfl_dt_pos _ _ _ _ _ Hok H).
  destruct Hok as (Hcfl & Hg & Hs & _).
  unfold cfl_dt in H. rewrite Had in H. cbn [andb] in H. rewrite andb_true_r in H.
  set (u := cfl_unit sq i) in *.
  set (sm := negb (k_init c) && Qltb u eps) in *.
  destruct (sm && negb (Qltb (k_cur c) eps && Qltb 0 (p_initial_dt p))) eqn:E0; [discriminate|].
  set (d1 := if sm then p_initial_dt p else 2 * p_cfl p / qmax u eps) in *.
  set (d2 := if k_init c then d1 * p_init_shrink p else d1) in *.
  assert (D1 : d1 * u <= 2 * p_cfl p /\ 0 < d1).
  { unfold d1. destruct sm eqn:Es.
    - cbn [andb] in E0. apply negb_false_iff in E0. unfold sm in Es. qprop.
      split; [|assumption].
      assert (0 <= p_initial_dt p * (eps - u)) by (apply Qmult_le_0_compat; lra). lra.
    - assert (M := qmax_l u eps). assert (M2 := qmax_eps_pos u).
      set (m := qmax u eps) in *.
      assert (P : 0 < 2 * p_cfl p / m) by (apply Qdiv_pos; lra).
      split; [|exact P].
      assert (A : 2 * p_cfl p / m * m == 2 * p_cfl p) by (apply Qdiv_mul_cancel; exact M2).
      assert (0 <= 2 * p_cfl p / m * (m - u)) by (apply Qmult_le_0_compat; lra). lra. }
  destruct D1 as [D1 D1p].
  assert (D2 : d2 * u <= 2 * p_cfl p * (if k_init c then p_init_shrink p else 1) /\ 0 < d2).
  { unfold d2. destruct (k_init c).
    - split; [|apply Qmult_lt_0_compat; auto].
      assert (0 <= p_init_shrink p * (2 * p_cfl p - d1 * u)) by (apply Qmult_le_0_compat; lra). lra.
    - split; [lra|auto]. }
  destruct D2 as [D2 D2p].
  assert (Hdle : d <= d2 /\ (0 < k_dt0 c -> d <= (1 + p_growth p) * k_dt0 c)).
  { destruct (Qltb 0 (k_dt0 c)) eqn:E; inversion H; subst d.
    - split; [apply qmin_l | intros _; apply qmin_r].
    - qprop. split; [lra | intro; lra]. }
  destruct Hdle as [Hdle Hgr].
  split; [exact Hgr|].
  destruct (Qlt_le_dec u 0) as [Hu|Hu].
  - assert (0 <= d * (- u)) by (apply Qmult_le_0_compat; lra).
    assert (0 <= 2 * p_cfl p * (if k_init c then p_init_shrink p else 1)).
    { destruct (k_init c); [apply Qmult_le_0_compat|]; lra. }
    lra.
  - assert (0 <= (d2 - d) * u) by (apply Qmult_le_0_compat; lra). lra.
Qed.

(** What one adaptive loop iteration guarantees. *)
Definition adaptive_step_ok (p : params) (c c2 : clock) : Prop :=
  k_idx c2 = (k_idx c + 1)%Z /\ k_cur c2 = k_new c /\ k_new c2 = k_cur c2 + k_dt0 c2
  /\ 0 < k_dt0 c2
  /\ (0 < p_stop_time p -> k_new c2 <= p_stop_time p)
  /\ (0 < k_dt0 c -> k_dt0 c2 <= (1 + p_growth p) * k_dt0 c)
  /\ (0 < p_max_dt p -> k_dt0 c2 <= p_max_dt p)
  /\ (p_initial_dt p * eps <= 2 * p_cfl p -> k_cflnum c2 <= p_cfl p)
  /\ (forall iv tol dl, enforced p iv tol dl ->
        k_new c2 - dl < 0 \/ k_new c2 <= (qfloor (k_new c / iv + tol) + 1) * iv)
  /\ k_dt1 c2 = k_dt0 c /\ k_dt2 c2 = k_dt1 c.

Definition adaptive_inv (p : params) (c : clock) : Prop :=
  p_delay_time p <= k_new c.

Lemma adaptive_step sq p c i c1 c2 :
  inputs_ok p -> adaptive p = true -> adaptive_inv p c ->
  continue_simulation p c = true ->
  set_current_cfl sq p (snd (new_timestep p c)) i = Ret c1 -> c2 = advance_time c1 ->
  adaptive_inv p c2 /\ adaptive_step_ok p c c2.
Proof.
  intros Hok Had Hdl Hc Hset ->.
  destruct (new_timestep p c) as [b c0] eqn:En. cbn [snd] in Hset.
  apply new_timestep_inv in En. destruct En as (Hb & N1 & N2 & N3 & N4 & N5 & N6 & _ & N8 & N9).
  rewrite Hc in Hb. subst b. destruct (N6 eq_refl) as [N6a N6b]. clear N6.
  apply set_cfl_inv in Hset. destruct Hset as (S1 & S2 & S3 & S4 & S5 & S6 & S7 & d & Hd & S8).
  rewrite Had in S8. destruct S8 as (e & He & S9 & S10).
  rewrite not_in_delay in S10 by (rewrite N2; exact Hdl).
  assert (Hdpos := cfl_dt_pos _ _ _ _ _ Hok Hd).
  assert (Hstop : 0 < p_stop_time p -> k_cur c0 < p_stop_time p).
  { intro Hs. rewrite N2. assert (K := continue_stop _ _ Hc Hs). assert (L := stop_eps_pos). lra. }
  destruct (adaptive_dt_props _ _ _ _ Hok Hdpos Hstop He) as (A1 & A2 & A3 & A4 & A5 & A6).
  split.
  { unfold adaptive_inv in *. cbn. rewrite S1, S10, N2. lra. }
  unfold adaptive_step_ok. cbn [advance_time k_idx k_cur k_new k_dt0 k_dt1 k_dt2 k_cflnum].
  rewrite S1, S3, S5, S6, S10, N2, N5, N6a, N6b.
  split; [reflexivity|]. split; [reflexivity|]. split; [reflexivity|].
  split; [exact A1|].
  split; [intro Hs; specialize (A3 Hs); rewrite N2 in A3; exact A3|].
  split.
  { intro Hp. assert (Hp0 : 0 < k_dt0 c0) by (rewrite N4; exact Hp).
    unfold cfl_dt in Hd. rewrite Had in Hd. cbn [andb] in Hd.
    destruct (_ && negb _); [discriminate|].
    apply Qltb_true in Hp0. rewrite Hp0 in Hd. cbn [andb] in Hd. rewrite N4 in Hd.
    match type of Hd with Some (qmin ?x ?y) = _ =>
      assert (M := qmin_r x y); inversion Hd; subst d end. lra. }
  split; [exact A4|].
  split.
  { intro Hie. destruct (cfl_dt_bounds _ _ _ _ _ Hok Had Hie Hd) as (_ & _ & B).
    rewrite N3 in B. rewrite S7, S10.
    set (u := cfl_unit sq i) in *.
    destruct (Qlt_le_dec u 0) as [Hu|Hu].
    - destruct Hok as (Hcfl & _). assert (0 <= e * (- u)) by (apply Qmult_le_0_compat; lra). lra.
    - assert (0 <= (d - e) * u) by (apply Qmult_le_0_compat; lra). lra. }
  split; [|auto].
  intros iv tol dl Hen. specialize (A6 iv tol dl Hen). rewrite N2 in A6. exact A6.
Qed.

Lemma evolve_adaptive sq p g c inp s cf evs :
  inputs_ok p -> adaptive p = true -> p_delay_time p <= k_new c ->
  evolve sq p g c inp = (s, cf, evs) ->
  exists cs, steps_of evs = map step_of cs
    /\ chain p (adaptive_inv p) (adaptive_step_ok p) c cs
    /\ (s = Finished -> continue_simulation p (last cs c) = false /\ cf = snd (new_timestep p (last cs c)))
    /\ (s = Running -> length cs = length inp)
    /\ (length cs <= length inp)%nat.
Proof.
  intros Hok Had Hdl He.
  destruct (evolve_invariant sq p g (adaptive_inv p) (adaptive_step_ok p)
              (fun c i c1 c2 HI Hc Hs H2 => adaptive_step sq p c i c1 c2 Hok Had HI Hc Hs H2)
              inp c s cf evs Hdl He) as (cs & A & B & C & D & E).
  exists cs. split; [exact A|]. split; [exact B|]. split; [|auto].
  intro Hf. destruct (C Hf) as (cl & _ & -> & C2 & C3). auto.
Qed.

Lemma chain_chained p I cs : forall c, chain p I (adaptive_step_ok p) c cs ->
  chained (k_idx c) (k_new c) (map step_of cs).
Proof.
  induction cs as [|c2 cs IH]; intros c H; [exact Logic.I|].
  cbn [chain] in H. destruct H as ((P1 & P2 & P3 & _) & _ & _ & H).
  cbn [map chained step_of st_idx st_t0 st_t1 st_dt].
  split; [exact P1|]. split; [rewrite P2; reflexivity|]. split; [rewrite P3; reflexivity|].
  apply IH. exact H.
Qed.

Lemma chain_forall p I (P : clock -> clock -> Prop) (Q : step -> Prop) cs : forall c,
  (forall c c2, P c c2 -> Q (step_of c2)) -> chain p I P c cs -> Forall Q (map step_of cs).
Proof.
  induction cs as [|c2 cs IH]; intros c HQ H; [constructor|].
  cbn [chain] in H. destruct H as (P1 & _ & _ & H). cbn [map]. constructor; eauto.
Qed.

Lemma chain_growth p I cs : forall c, chain p I (adaptive_step_ok p) c cs ->
  growth_limited (1 + p_growth p) (map step_of cs).
Proof.
  induction cs as [|c2 cs IH]; intros c H; [exact Logic.I|].
  cbn [chain] in H. destruct H as (P1 & _ & _ & H).
  destruct cs as [|c3 cs]; [exact Logic.I|].
  cbn [map growth_limited]. split.
  - cbn [chain] in H. destruct H as ((_ & _ & _ & _ & _ & G & _) & _).
    cbn. apply G. apply P1.
  - apply (IH c2). exact H.
Qed.

Lemma chain_last_stop p I cs : forall c,
  0 < p_stop_time p -> k_new c <= p_stop_time p ->
  chain p I (adaptive_step_ok p) c cs -> k_new (last cs c) <= p_stop_time p.
Proof.
  induction cs as [|c2 cs IH]; intros c Hs Hc H; [exact Hc|].
  cbn [chain] in H. destruct H as (P1 & _ & _ & H).
  destruct P1 as (_ & _ & _ & _ & P5 & _).
  assert (K := IH c2 Hs (P5 Hs) H).
  destruct cs as [|c3 cs]; [exact K|].
  assert (L : last (c2 :: c3 :: cs) c = last (c3 :: cs) c2).
  { clear. cbn [last]. revert c3. induction cs; intros; cbn [last]; auto. }
  rewrite L. exact K.
Qed.

Lemma last_cons {A} (a c : A) l : last (a :: l) c = last l a.
Proof.
  revert a c. induction l as [|b l IH]; intros a c; [reflexivity|].
  change (last (b :: l) c = last (b :: l) a). rewrite IH, IH. reflexivity.
Qed.

(** What the run looks like when the evolve loop starts from clock [c]. *)
Theorem evolve_time_adaptive sq p g c inp s cf evs :
  inputs_ok p -> adaptive p = true ->
  p_delay_time p <= k_new c -> 0 < p_stop_time p -> k_new c <= p_stop_time p ->
  evolve sq p g c inp = (s, cf, evs) ->
  chained (k_idx c) (k_new c) (steps_of evs)
  /\ Forall (fun st => 0 < st_dt st /\ st_t1 st <= p_stop_time p) (steps_of evs)
  /\ (s = Finished -> (p_max_step p < 0)%Z ->
        p_stop_time p - stop_eps <= k_new cf /\ k_new cf <= p_stop_time p).
Proof.
  intros Hok Had Hdl Hs Hc He.
  destruct (evolve_adaptive _ _ _ _ _ _ _ _ Hok Had Hdl He) as (cs & A & B & C & _).
  rewrite A. split; [eapply chain_chained; exact B|]. split.
  - eapply chain_forall; [|exact B]. intros x y (_ & _ & _ & P4 & P5 & _). cbn. split; auto.
  - intros Hf Hm. destruct (C Hf) as [C1 C2]. subst cf.
    assert (L := chain_last_stop _ _ _ _ Hs Hc B).
    set (cl := last cs c) in *.
    assert (E : k_new (snd (new_timestep p cl)) = k_new cl).
    { unfold new_timestep. rewrite C1. reflexivity. }
    rewrite E. split; [|exact L].
    unfold continue_simulation in C1.
    destruct (p_max_step p =? 0)%Z eqn:E0; [apply Z.eqb_eq in E0; lia|].
    destruct (Qltb 0 (p_stop_time p) && Qleb (p_stop_time p) (k_new cl + stop_eps)) eqn:E1.
    + qprop. lra.
    + destruct ((0 <? p_max_step p)%Z) eqn:E2; [apply Z.ltb_lt in E2; lia|]. discriminate.
Qed.

(** ** Termination *)

Lemma continue_max_step p c :
  continue_simulation p c = true -> (0 <= p_max_step p)%Z ->
  (0 < p_max_step p)%Z /\ (k_idx c < p_max_step p)%Z.
Proof.
  unfold continue_simulation. intros H Hm.
  destruct (p_max_step p =? 0)%Z eqn:E0; [discriminate|]. apply Z.eqb_neq in E0.
  destruct (_ && Qleb _ _); [discriminate|].
  destruct (0 <? p_max_step p)%Z eqn:E1; [|apply Z.ltb_ge in E1; lia].
  destruct (p_max_step p <=? k_idx c)%Z eqn:E2; [discriminate|].
  apply Z.leb_gt in E2. lia.
Qed.

Definition idx_step (c c2 : clock) : Prop := k_idx c2 = (k_idx c + 1)%Z.

Lemma idx_step_ok sq p c i c1 c2 :
  continue_simulation p c = true ->
  set_current_cfl sq p (snd (new_timestep p c)) i = Ret c1 -> c2 = advance_time c1 -> idx_step c c2.
Proof.
  intros Hc Hset ->. destruct (new_timestep p c) as [b c0] eqn:En. cbn [snd] in Hset.
  apply new_timestep_inv in En. destruct En as (Hb & _ & _ & _ & _ & N5 & _).
  rewrite Hc in Hb. subst b.
  apply set_cfl_inv in Hset. destruct Hset as (_ & _ & S3 & _).
  unfold idx_step. cbn. rewrite S3, N5. reflexivity.
Qed.

Lemma chain_idx_count p I cs : forall c, (0 <= p_max_step p)%Z ->
  chain p I idx_step c cs -> cs <> [] -> (k_idx c + Z.of_nat (length cs) <= p_max_step p)%Z.
Proof.
  induction cs as [|c2 cs IH]; intros c Hm H Hne; [congruence|].
  cbn [chain] in H. destruct H as (P1 & _ & Hc & H). unfold idx_step in P1.
  destruct (continue_max_step _ _ Hc Hm) as [K1 K2].
  destruct cs as [|c3 cs]; [cbn [length]; lia|].
  specialize (IH c2 Hm H). cbn [length] in *. assert (c3 :: cs <> []) by discriminate.
  specialize (IH H0). lia.
Qed.

(** Whatever the flow does, a non-negative max_step bounds the number of steps. *)
Theorem evolve_terminates_max_step sq p g c inp s cf evs :
  (0 <= p_max_step p)%Z ->
  evolve sq p g c inp = (s, cf, evs) ->
  (Z.of_nat (length (steps_of evs)) <= Z.max 0 (p_max_step p - k_idx c))%Z
  /\ ((Z.max 0 (p_max_step p - k_idx c) < Z.of_nat (length inp))%Z -> s <> Running).
Proof.
  intros Hm He.
  destruct (evolve_invariant sq p g (fun _ => True) idx_step
              (fun c i c1 c2 _ Hc Hs H2 => conj Logic.I (idx_step_ok sq p c i c1 c2 Hc Hs H2))
              inp c s cf evs Logic.I He) as (cs & A & B & _ & D & _).
  rewrite A, map_length.
  assert (L : (Z.of_nat (length cs) <= Z.max 0 (p_max_step p - k_idx c))%Z).
  { destruct cs as [|c2 cs]; [cbn; lia|].
    assert (K := chain_idx_count p (fun _ => True) (c2 :: cs) c Hm B).
    assert (c2 :: cs <> []) by discriminate. specialize (K H). lia. }
  split; [exact L|]. intros Hl Hr. specialize (D Hr). lia.
Qed.

(** ** Fixed time step *)

Definition fixed_step_ok (p : params) (c c2 : clock) : Prop :=
  k_idx c2 = (k_idx c + 1)%Z /\ k_cur c2 = k_new c /\ k_new c2 = k_cur c2 + k_dt0 c2
  /\ k_dt0 c2 = p_fixed_dt p
  /\ (0 < p_stop_time p -> k_cur c2 + stop_eps < p_stop_time p).

Lemma fixed_step sq p c i c1 c2 :
  adaptive p = false -> adaptive_inv p c -> continue_simulation p c = true ->
  set_current_cfl sq p (snd (new_timestep p c)) i = Ret c1 -> c2 = advance_time c1 ->
  adaptive_inv p c2 /\ fixed_step_ok p c c2.
Proof.
  intros Had Hdl Hc Hset ->.
  destruct (new_timestep p c) as [b c0] eqn:En. cbn [snd] in Hset.
  apply new_timestep_inv in En. destruct En as (Hb & N1 & N2 & N3 & N4 & N5 & _).
  rewrite Hc in Hb. subst b.
  apply set_cfl_inv in Hset. destruct Hset as (S1 & S2 & S3 & S4 & _ & _ & S7 & d & Hd & S8).
  rewrite Had in S8. destruct S8 as [S8 S9]. rewrite not_in_delay in S9 by (rewrite N2; exact Hdl).
  assert (Hf : 0 < p_fixed_dt p).
  { unfold adaptive in Had. apply negb_false_iff in Had. qprop. exact Had. }
  split.
  - unfold adaptive_inv in *. cbn. rewrite S1, S9, N2. lra.
  - unfold fixed_step_ok. cbn. rewrite S1, S3, S9, N2, N5.
    repeat (split; [reflexivity|]). intro Hs. apply continue_stop; auto.
Qed.

Lemma evolve_fixed sq p g c inp s cf evs :
  adaptive p = false -> p_delay_time p <= k_new c ->
  evolve sq p g c inp = (s, cf, evs) ->
  exists cs, steps_of evs = map step_of cs
    /\ chain p (adaptive_inv p) (fixed_step_ok p) c cs
    /\ (s = Finished -> continue_simulation p (last cs c) = false /\ cf = snd (new_timestep p (last cs c)))
    /\ (s = Running -> length cs = length inp)
    /\ (length cs <= length inp)%nat.
Proof.
  intros Had Hdl He.
  destruct (evolve_invariant sq p g (adaptive_inv p) (fixed_step_ok p)
              (fun c i c1 c2 HI Hc Hs H2 => fixed_step sq p c i c1 c2 Had HI Hc Hs H2)
              inp c s cf evs Hdl He) as (cs & A & B & C & D & E).
  exists cs. split; [exact A|]. split; [exact B|]. split; [|auto].
  intro Hf. destruct (C Hf) as (cl & _ & -> & C2 & C3). auto.
Qed.

Lemma chain_chained_fixed p I cs : forall c, chain p I (fixed_step_ok p) c cs ->
  chained (k_idx c) (k_new c) (map step_of cs).
Proof.
  induction cs as [|c2 cs IH]; intros c H; [exact Logic.I|].
  cbn [chain] in H. destruct H as ((P1 & P2 & P3 & _) & _ & _ & H).
  cbn [map chained step_of st_idx st_t0 st_t1 st_dt].
  split; [exact P1|]. split; [rewrite P2; reflexivity|]. split; [rewrite P3; reflexivity|].
  apply IH. exact H.
Qed.

Lemma chain_fixed_count p I cs : forall c,
  0 < p_fixed_dt p -> 0 < p_stop_time p -> chain p I (fixed_step_ok p) c cs -> cs <> [] ->
  inject_Z (Z.of_nat (length cs) - 1) * p_fixed_dt p < p_stop_time p - k_new c.
Proof.
  induction cs as [|c2 cs IH]; intros c Hf Hs H Hne; [congruence|].
  cbn [chain] in H. destruct H as ((P1 & P2 & P3 & P4 & P5) & _ & Hc & H).
  assert (Le := stop_eps_pos). specialize (P5 Hs).
  destruct cs as [|c3 cs].
  - cbn [length]. change (inject_Z (Z.of_nat 1 - 1)) with 0. rewrite P2 in P5. lra.
  - assert (Hne2 : c3 :: cs <> []) by discriminate.
    specialize (IH c2 Hf Hs H Hne2).
    replace (Z.of_nat (length (c2 :: c3 :: cs)) - 1)%Z
      with ((Z.of_nat (length (c3 :: cs)) - 1) + 1)%Z by (cbn [length]; lia).
    rewrite inject_Z_plus. change (inject_Z 1) with 1.
    rewrite P3, P4, P2 in IH. lra.
Qed.

Theorem evolve_time_fixed sq p g c inp s cf evs :
  adaptive p = false -> p_delay_time p <= k_new c ->
  evolve sq p g c inp = (s, cf, evs) ->
  chained (k_idx c) (k_new c) (steps_of evs)
  /\ Forall (fun st => st_dt st == p_fixed_dt p
                       /\ (0 < p_stop_time p -> st_t1 st < p_stop_time p + p_fixed_dt p)) (steps_of evs)
  /\ (0 < p_stop_time p -> steps_of evs <> [] ->
        inject_Z (Z.of_nat (length (steps_of evs)) - 1) * p_fixed_dt p < p_stop_time p - k_new c)
  /\ (0 < p_stop_time p -> s = Finished -> (p_max_step p < 0)%Z -> p_stop_time p - stop_eps <= k_new cf)
  /\ (0 < p_stop_time p -> inp <> [] ->
        p_stop_time p - k_new c <= inject_Z (Z.of_nat (length inp) - 1) * p_fixed_dt p -> s <> Running).
Proof.
  intros Had Hdl He.
  assert (Hf : 0 < p_fixed_dt p).
  { unfold adaptive in Had. apply negb_false_iff in Had. qprop. exact Had. }
  destruct (evolve_fixed _ _ _ _ _ _ _ _ Had Hdl He) as (cs & A & B & C & D & _).
  rewrite A. split; [eapply chain_chained_fixed; exact B|]. split.
  { eapply chain_forall; [|exact B]. intros x y (P1 & P2 & P3 & P4 & P5). cbn. split.
    - rewrite P4. reflexivity.
    - intro Hs. specialize (P5 Hs). assert (L := stop_eps_pos). rewrite P3, P4. lra. }
  split.
  { intros Hs Hne. rewrite map_length. eapply chain_fixed_count; eauto.
    intro; subst cs; apply Hne; reflexivity. }
  split.
  { intros Hs Hfin Hm. destruct (C Hfin) as [C1 C2]. subst cf.
    set (cl := last cs c) in *.
    assert (E : k_new (snd (new_timestep p cl)) = k_new cl).
    { unfold new_timestep. rewrite C1. reflexivity. }
    rewrite E. unfold continue_simulation in C1.
    destruct (p_max_step p =? 0)%Z eqn:E0; [apply Z.eqb_eq in E0; lia|].
    destruct (Qltb 0 (p_stop_time p) && Qleb (p_stop_time p) (k_new cl + stop_eps)) eqn:E1.
    - qprop. lra.
    - destruct ((0 <? p_max_step p)%Z) eqn:E2; [apply Z.ltb_lt in E2; lia|]. discriminate. }
  intros Hs Hne Hlong Hr. specialize (D Hr).
  assert (Hcs : cs <> []).
  { intro; subst cs. destruct inp; [congruence|discriminate]. }
  assert (K := chain_fixed_count _ _ _ _ Hf Hs B Hcs). rewrite D in K. lra.
Qed.

(** ** Adaptive termination *)

Definition adaptive_step_floor (p : params) (m : Q) (c c2 : clock) : Prop :=
  adaptive_step_ok p c c2 /\ (m <= k_dt0 c2 \/ k_new c2 == p_stop_time p).

Lemma adaptive_floor_step sq p m c i c1 c2 :
  inputs_ok p -> adaptive p = true -> enforce_floor p m -> 0 < p_min_dt p -> m <= p_min_dt p ->
  adaptive_inv p c ->
  continue_simulation p c = true ->
  set_current_cfl sq p (snd (new_timestep p c)) i = Ret c1 -> c2 = advance_time c1 ->
  adaptive_inv p c2 /\ adaptive_step_floor p m c c2.
Proof.
  intros Hok Had Hfl Hmin Hmm Hdl Hc Hset Hadv.
  destruct (adaptive_step sq p c i c1 c2 Hok Had Hdl Hc Hset Hadv) as [I2 P].
  split; [exact I2|]. split; [exact P|]. subst c2.
  destruct (new_timestep p c) as [b c0] eqn:En. cbn [snd] in Hset.
  apply new_timestep_inv in En. destruct En as (Hb & N1 & N2 & N3 & N4 & N5 & _).
  apply set_cfl_inv in Hset. destruct Hset as (S1 & S2 & S3 & S4 & _ & _ & S7 & d & Hd & S8).
  rewrite Had in S8. destruct S8 as (e & He & S9 & S10).
  rewrite not_in_delay in S10 by (rewrite N2; exact Hdl).
  destruct (adaptive_dt_floor _ _ _ _ m Hok Hfl Hmin Hmm N3 He) as [K | (K1 & K2)].
  - left. cbn. rewrite S10. exact K.
  - right. cbn. rewrite S10, S1, K2. lra.
Qed.

Lemma chain_floor_count p I m cs : forall c,
  0 < m -> 0 < p_stop_time p -> k_new c <= p_stop_time p ->
  chain p I (adaptive_step_floor p m) c cs -> cs <> [] ->
  inject_Z (Z.of_nat (length cs) - 1) * m < p_stop_time p - k_new c.
Proof.
  induction cs as [|c2 cs IH]; intros c Hm Hs Hc H Hne; [congruence|].
  cbn [chain] in H. destruct H as ((P & F) & _ & Hcc & H).
  destruct P as (P1 & P2 & P3 & P4 & P5 & _).
  assert (Hlt := continue_stop _ _ Hcc Hs). assert (Le := stop_eps_pos).
  destruct cs as [|c3 cs].
  - cbn [length]. change (inject_Z (Z.of_nat 1 - 1)) with 0. lra.
  - assert (Hne2 : c3 :: cs <> []) by discriminate.
    assert (K := IH c2 Hm Hs (P5 Hs) H Hne2).
    cbn [chain] in H. destruct H as (_ & _ & Hcc2 & _).
    assert (Hlt2 := continue_stop _ _ Hcc2 Hs).
    replace (Z.of_nat (length (c2 :: c3 :: cs)) - 1)%Z
      with ((Z.of_nat (length (c3 :: cs)) - 1) + 1)%Z by (cbn [length]; lia).
    rewrite inject_Z_plus. change (inject_Z 1) with 1.
    destruct F as [F|F]; [|lra].
    rewrite P3, P2 in K. lra.
Qed.

(** An adaptive run with a stop time and a min_dt stops, whatever the flow. *)
Theorem evolve_terminates_adaptive sq p g c inp m s cf evs :
  inputs_ok p -> adaptive p = true -> p_delay_time p <= k_new c ->
  0 < p_stop_time p -> k_new c <= p_stop_time p ->
  0 < m -> m <= p_min_dt p -> enforce_floor p m ->
  evolve sq p g c inp = (s, cf, evs) ->
  (steps_of evs <> [] ->
     inject_Z (Z.of_nat (length (steps_of evs)) - 1) * m < p_stop_time p - k_new c)
  /\ (inp <> [] -> p_stop_time p - k_new c <= inject_Z (Z.of_nat (length inp) - 1) * m -> s <> Running).
Proof.
  intros Hok Had Hdl Hs Hc Hm Hmm Hfl He.
  assert (Hmin : 0 < p_min_dt p) by lra.
  destruct (evolve_invariant sq p g (adaptive_inv p) (adaptive_step_floor p m)
              (fun c i c1 c2 HI Hc Hs H2 => adaptive_floor_step sq p m c i c1 c2 Hok Had Hfl Hmin Hmm HI Hc Hs H2)
              inp c s cf evs Hdl He) as (cs & A & B & _ & D & _).
  rewrite A, map_length. split.
  - intro Hne. eapply chain_floor_count; eauto. intro; subst cs; apply Hne; reflexivity.
  - intros Hne Hl Hr. specialize (D Hr).
    assert (Hcs : cs <> []).
    { intro; subst cs. destruct inp; [congruence|discriminate]. }
    assert (K := chain_floor_count _ _ _ _ _ Hm Hs Hc B Hcs). rewrite D in K. lra.
Qed.
