(** The theorems on the field repository. *)
From Coq Require Import String.
From Verif Require Import BaseFacts FieldRepo FieldRepoSpec FieldRepoProofs FieldRepoProofs2 FieldRepoProofs3 FieldRepoProofs4.
Local Open Scope string_scope.
Local Open Scope list_scope.
Local Open Scope Q_scope.

(** *** Where infos come from *)
Lemma add_field_len r k s r' : add_field r k s = Ret r' -> length (r_infos r') = length (r_infos r).
Proof.
  unfold add_field. destruct (if r_init r then _ else _); cbn [obind]; try discriminate. intros [= <-]. cbn. apply lupd_length.
Qed.
Lemma add_states_len : forall n j r k r', add_states n j r k = Ret r' -> length (r_infos r') = length (r_infos r).
Proof.
  induction n as [|n IH]; intros j r k r' H; cbn [add_states] in H; [congruence|].
  destruct (add_field r k (fstate_of j)) as [r1| |] eqn:E; cbn [obind] in H; try discriminate.
  rewrite (IH _ _ _ _ H). eapply add_field_len; eauto.
Qed.

Lemma exec_infos r o r' : wf r -> allowed r o -> exec r o = Ret r' ->
  forall k i', nth_error (r_infos r') k = Some i' ->
    (exists i, nth_error (r_infos r) k = Some i /\ same_shape i i')
    \/ (o = ODeclare (i_name i') (i_ncomp i') (i_ngrow i') (i_nstates i') (i_loc i') /\ r_map r (i_name i') = None).
Proof.
  intros W A E k i' Hk. assert (C := wf_core r W).
  destruct (exec_ok r o W A) as [E'|(r1 & E' & W1 & L)]; [congruence|]. assert (r1 = r') by congruence. subst r1.
  destruct (nth_error (r_infos r) k) as [i|] eqn:Ei.
  { left. exists i. split; [reflexivity|]. destruct (l_infos _ _ L _ _ Ei) as (i2 & H1 & H2 & _). congruence. }
  right. apply nth_error_None in Ei. assert (Lk := nth_error_lt _ _ _ Hk).
  destruct o; cbn [exec] in E; cbn [allowed] in A.
  - destruct (r_map r name) as [fid|] eqn:Em.
    { destruct (declare_old r name ncomp ngrow nstates loc fid C Em) as (f & i & _ & _ & D). rewrite D in E.
      destruct (_ && _ && _); [|discriminate]. cbn [obind] in E. injection E as <-. lia. }
    destruct (Z.le_gt_cases nstates 3).
    2:{ exfalso. unfold declare_field in E. rewrite Em in E. destruct (Z.ltb_spec 3 nstates); [discriminate|lia]. }
    destruct (is_valid_field_name name) eqn:Ev.
    2:{ exfalso. unfold declare_field in E. rewrite Em, Ev in E. destruct (Z.ltb 3 nstates); discriminate. }
    destruct (declare_new r name ncomp ngrow nstates loc W Em) as (r2 & E2 & W2 & X2 & _ & (i & I1 & I2 & I3 & I4 & I5 & I6) & _); [lia|assumption|].
    assert (Ln : length (r_infos r') = S (length (r_infos r))).
    { unfold declare_field in E. rewrite Em, Ev in E. destruct (Z.ltb_spec 3 nstates); [lia|]. cbn [negb] in E.
      match type of E with context[add_states ?n ?j ?rr ?kk] => destruct (add_states n j rr kk) as [r3| |] eqn:E3; cbn [obind] in E; try discriminate;
        apply add_states_len in E3; cbn in E3; rewrite app_length in E3; cbn in E3 end.
      destruct (r_map r3 name); cbn [obind] in E; [injection E as <-; lia|]. cbn in E. destruct (r_fields r3); [discriminate|]. cbn [obind] in E.
      injection E as <-. cbn. lia. }
    assert (k = length (r_infos r)) by lia. subst k. rewrite E2 in E. cbn [obind] in E. injection E as <-.
    rewrite I1 in Hk. injection Hk as <-. split; congruence.
  - exfalso. unfold create_state in E. destruct (nth_error (r_fields r) fid); [|discriminate].
    destruct (i_states (info_of r f) s); cbn [obind] in E; [injection E as <-; lia|].
    destruct (add_field r (f_info f) s) as [r1| |] eqn:E1; cbn [obind] in E; try discriminate. injection E as <-.
    apply add_field_len in E1. lia.
  - exfalso. destruct (set_fillpatch_sim r fid b A) as (r1 & E1 & S & _). assert (r1 = r') by congruence. subst. rewrite (s_infos _ _ S) in Lk. lia.
  - exfalso. injection E as <-. cbn in Lk. lia.
  - exfalso. injection E as <-. destruct (regrid_spec r fill lbase grids A C) as (E1 & _). rewrite E1 in Lk. lia.
  - exfalso. destruct A as [A1 A2]. destruct (get_ok r fid lev C A1 A2) as (m & Em). destruct (put_val_spec r fid lev v m Em) as (r1 & E1 & S & _).
    assert (r1 = r') by congruence. subst. rewrite (s_infos _ _ S) in Lk. lia.
  - exfalso. destruct A as [(a & Ea) (b & Eb)]. unfold copy_state in E. rewrite Ea, Eb in E. cbn [obind] in E.
    destruct (copy_levels_spec (m_nlev (r_mesh r)) r a b C) as (r1 & E1 & S & _); [eapply state_of_lt; eauto|eapply state_of_lt; eauto|lia|].
    assert (r1 = r') by congruence. subst. rewrite (s_infos _ _ S) in Lk. lia.
  - exfalso. destruct (advance_states_spec r W) as (r1 & E1 & S & _). assert (r1 = r') by congruence. subst. rewrite (s_infos _ _ S) in Lk. lia.
  - exfalso. destruct A as [A1 A2]. unfold handle in A1. destruct (nth_error (r_fields r) fid) as [f|] eqn:Ef; [|apply nth_error_None in Ef; lia].
    destruct (to_space_spec true r fid f W Ef A2) as [E1|[(_ & E1)|(_ & r1 & fac & det & E1 & S & _)]]; unfold to_uniform_space in E; rewrite E1 in E;
      [discriminate|injection E as <-; lia|injection E as <-]. rewrite (s_infos _ _ S) in Lk. lia.
  - exfalso. destruct A as [A1 A2]. unfold handle in A1. destruct (nth_error (r_fields r) fid) as [f|] eqn:Ef; [|apply nth_error_None in Ef; lia].
    destruct (to_space_spec false r fid f W Ef A2) as [E1|[(_ & E1)|(_ & r1 & fac & det & E1 & S & _)]]; unfold to_stretched_space in E; rewrite E1 in E;
      [discriminate|injection E as <-; lia|injection E as <-]. rewrite (s_infos _ _ S) in Lk. lia.
Qed.

Lemma declared_shape : forall os r, reach empty_repo os r -> forall k i, nth_error (r_infos r) k = Some i ->
  exists pre post, os = pre ++ ODeclare (i_name i) (i_ncomp i) (i_ngrow i) (i_nstates i) (i_loc i) :: post
    /\ forall r0, reach empty_repo pre r0 -> field_exists r0 (i_name i) NP1 = false.
Proof.
  induction os as [|o os IH] using rev_ind; intros r R k i Hk.
  - inversion R; subst. destruct k; discriminate.
  - apply reach_snoc_inv in R. destruct R as (r1 & R1 & A & E). assert (W1 := reach_empty _ _ R1).
    destruct (exec_infos r1 o r W1 A E k i Hk) as [(i1 & H1 & H2)|(H1 & H2)].
    + destruct (IH r1 R1 k i1 H1) as (pre & post & -> & P). destruct H2 as (-> & -> & -> & -> & ->).
      exists pre, (post ++ [o]). split; [rewrite <- app_assoc; reflexivity|assumption].
    + exists os, []. split; [rewrite <- H1; reflexivity|]. intros r0 R0. assert (r0 = r1) by (eapply reach_det; eauto). subst.
      unfold field_exists. cbn. rewrite H2. reflexivity.
Qed.

(** Field behind a name. *)
Lemma get_field_info r name s fid : wf r -> is_valid_field_name name = true -> get_field r name s = Ret fid ->
  exists f i, nth_error (r_fields r) fid = Some f /\ nth_error (r_infos r) (f_info f) = Some i
    /\ i_name i = name /\ f_state f = s /\ i_states i s = Some fid.
Proof.
  intros W Hv G. assert (C := wf_core r W). apply (get_field_core r name s fid C) in G. apply (w_map r C) in G. destruct G as (f & F1 & F2).
  destruct (w_field r C _ _ F1) as (i & I1 & I2 & I3). rewrite I2 in F2. apply state_name_inj in F2; [|eapply (w_valid r C); eauto|assumption].
  destruct F2 as [F2 F3]. exists f, i. rewrite <- F3. auto.
Qed.
Lemma info_get_field r k i s fid : wf r -> nth_error (r_infos r) k = Some i -> i_states i s = Some fid -> get_field r (i_name i) s = Ret fid.
Proof.
  intros W Hk Hs. assert (C := wf_core r W). apply (get_field_core r _ s fid C). apply (w_map r C).
  destruct (w_states r C _ _ _ _ Hk Hs) as (f & F1 & F2 & F3). exists f. split; [assumption|].
  destruct (w_field r C _ _ F1) as (i' & I1 & I2 & I3). rewrite F2, Hk in I1. injection I1 as <-. rewrite I2, F3. reflexivity.
Qed.

Lemma lookup_layout os r name s fid : reach empty_repo os r -> is_valid_field_name name = true -> get_field r name s = Ret fid ->
  exists pre ncomp ngrow nstates loc post, os = pre ++ ODeclare name ncomp ngrow nstates loc :: post
    /\ (forall r0, reach empty_repo pre r0 -> field_exists r0 name NP1 = false)
    /\ (forall lev, (lev < m_nlev (r_mesh r))%nat -> exists m, get_multifab r fid lev = Ret m
          /\ layout m = (m_ba (r_mesh r) lev, m_dm (r_mesh r) lev, loc, ncomp, ngrow))
    /\ (forall lev, (m_nlev (r_mesh r) <= lev)%nat -> r_levels r lev = None).
Proof.
  intros R Hv G. assert (W := reach_empty _ _ R). assert (C := wf_core r W).
  destruct (get_field_info r name s fid W Hv G) as (f & i & F1 & I1 & I2 & I3 & I4).
  destruct (declared_shape os r R _ _ I1) as (pre & post & E & P). rewrite I2 in E, P.
  exists pre, (i_ncomp i), (i_ngrow i), (i_nstates i), (i_loc i), post. split; [assumption|]. split; [assumption|]. split.
  - intros lev Hl. destruct (core_val r fid lev C) as (f' & l & m & A1 & A2 & A3 & A4); [eapply nth_error_lt; eauto|assumption|].
    exists m. split; [unfold get_multifab; rewrite A2, A3; reflexivity|]. rewrite F1 in A1. injection A1 as <-.
    rewrite (info_of_nth r f i I1) in A4. exact A4.
  - apply (w_none r C).
Qed.

Lemma lookup_inj r n1 s1 n2 s2 fid : wf r -> is_valid_field_name n1 = true -> is_valid_field_name n2 = true ->
  get_field r n1 s1 = Ret fid -> get_field r n2 s2 = Ret fid -> n1 = n2 /\ s1 = s2.
Proof.
  intros W V1 V2 G1 G2. destruct (get_field_info r n1 s1 fid W V1 G1) as (f & i & F1 & I1 & I2 & I3 & I4).
  destruct (get_field_info r n2 s2 fid W V2 G2) as (f' & i' & F1' & I1' & I2' & I3' & I4').
  rewrite F1 in F1'. injection F1' as <-. rewrite I1 in I1'. injection I1' as <-. split; congruence.
Qed.

Lemma write_spec r fid lev v : wf r -> handle r fid -> (lev < m_nlev (r_mesh r))%nat ->
  exists r', exec r (OWrite fid lev v) = Ret r' /\ at_level r' fid lev v
    /\ forall g l, g <> fid \/ l <> lev -> forall w, at_level r g l w <-> at_level r' g l w.
Proof.
  intros W H Hl. assert (C := wf_core r W). destruct (get_ok r fid lev C H Hl) as (m & Em).
  destruct (put_val_spec r fid lev v m Em) as (r' & E & S & F & V). exists r'. split; [exact E|].
  assert (X : forall rr g l w, at_level rr g l w <-> val rr g l = Some w).
  { intros rr g l w. unfold at_level, val. destruct (get_multifab rr g l).
    - split; [intros (m' & H1 & H2); congruence|]. intros [= <-]. eauto.
    - split; [intros (m' & H1 & H2); congruence|discriminate].
    - split; [intros (m' & H1 & H2); congruence|discriminate]. }
  split.
  - apply X. rewrite V, !Nat.eqb_refl. reflexivity.
  - intros g l Hg w. rewrite !X, V. destruct (Nat.eqb_spec g fid); [|reflexivity]. destruct (Nat.eqb_spec l lev); [|reflexivity].
    exfalso. destruct Hg; congruence.
Qed.

(** *** Registration *)
Lemma redeclare r name ncomp ngrow nstates loc fid r1 os r2 ncomp' ngrow' nstates' loc' :
  wf r -> (1 <= nstates)%Z -> declare_field r name ncomp ngrow nstates loc = Ret (fid, r1) -> reach r1 os r2 ->
  declare_field r2 name ncomp' ngrow' nstates' loc' =
    if Nat.eqb ncomp' ncomp && Z.eqb nstates nstates' && floc_eqb loc' loc then Ret (fid, r2) else Abort.
Proof.
  intros W Hn D R. assert (C := wf_core r W).
  destruct (declare_wf r name ncomp ngrow nstates loc W Hn) as [E|(g & r1' & E & W1 & X1)]; [congruence|].
  rewrite D in E. injection E as <- <-.
  assert (S1 : r_map r1 name = Some fid /\ exists f i, nth_error (r_fields r1) fid = Some f /\ nth_error (r_infos r1) (f_info f) = Some i
            /\ i_ncomp i = ncomp /\ i_nstates i = nstates /\ i_loc i = loc).
  { destruct (r_map r name) as [g|] eqn:Em.
    - destruct (declare_old r name ncomp ngrow nstates loc g C Em) as (f & i & F1 & I1 & E). rewrite D in E.
      destruct (Nat.eqb_spec ncomp (i_ncomp i)); [|discriminate]. destruct (Z.eqb_spec (i_nstates i) nstates); [|discriminate].
      destruct (floc_eqb_spec loc (i_loc i)); [|discriminate]. cbn in E. injection E as -> ->. split; [assumption|]. exists f, i. auto.
    - destruct (is_valid_field_name name) eqn:Ev.
      2:{ unfold declare_field in D. rewrite Em, Ev in D. destruct (Z.ltb 3 nstates); discriminate. }
      destruct (Z.le_gt_cases nstates 3).
      2:{ unfold declare_field in D. rewrite Em in D. destruct (Z.ltb_spec 3 nstates); [discriminate|lia]. }
      destruct (declare_new r name ncomp ngrow nstates loc W Em) as (r3 & E3 & W3 & X3 & L3 & (i & I1 & I2 & I3 & I4 & I5 & I6) & M3 & _); [lia|assumption|].
      rewrite D in E3. injection E3 as -> <-.
      assert (M0 : r_map r1 name = Some (length (r_fields r))) by (rewrite <- (Nat.add_0_r (length (r_fields r))); apply (M3 0%nat); lia).
      split; [assumption|]. assert (C1 := wf_core r1 W1). assert (M1 := M0). apply (w_map r1 C1) in M1. destruct M1 as (f & F1 & F2).
      destruct (w_field r1 C1 _ _ F1) as (i' & J1 & J2 & J3). exists f, i'. split; [assumption|]. split; [assumption|].
      assert (i_name i' = name).
      { rewrite J2 in F2. destruct (state_name_inj (i_name i') name (f_state f) NP1) as [? _]; auto; try (eapply (w_valid r1 C1); eauto). }
      assert (f_info f = length (r_infos r)) by (eapply (w_unique r1 C1); eauto; congruence).
      rewrite H1, I1 in J1. injection J1 as <-. auto. }
  destruct S1 as (M1 & f & i & F1 & I1 & A1 & A2 & A3).
  destruct (reach_wf _ _ _ R W1) as (W2 & L). assert (M2 := l_map _ _ L _ _ M1).
  destruct (declare_old r2 name ncomp' ngrow' nstates' loc' fid (wf_core r2 W2) M2) as (f2 & i2 & F2 & I2 & ->).
  destruct (l_fields _ _ L _ _ F1) as (f2' & G1 & _ & G3 & _). rewrite F2 in G1. injection G1 as <-.
  destruct (l_infos _ _ L _ _ I1) as (i2' & K1 & (_ & K2 & _ & K3 & K4) & _). rewrite <- G3, I2 in K1. injection K1 as <-.
  rewrite K2, K3, K4, A1, A2, A3. reflexivity.
Qed.

Lemma declare_rejects r name ncomp ngrow nstates loc :
  field_exists r name NP1 = false -> (3 < nstates)%Z \/ is_valid_field_name name = false ->
  declare_field r name ncomp ngrow nstates loc = Abort.
Proof.
  unfold field_exists, declare_field. cbn [field_name_with_state]. destruct (r_map r name); [discriminate|]. intros _ H.
  destruct (Z.ltb_spec 3 nstates); [reflexivity|]. destruct H as [H|H]; [lia|rewrite H; reflexivity].
Qed.

Lemma declare_fresh r name ncomp ngrow nstates loc : wf r -> field_exists r name NP1 = false -> (1 <= nstates <= 3)%Z ->
  is_valid_field_name name = true ->
  exists fid r', declare_field r name ncomp ngrow nstates loc = Ret (fid, r')
    /\ get_field r' name NP1 = Ret fid /\ num_states r' name nstates
    /\ (forall j, (j < Z.to_nat nstates)%nat -> exists g, get_field r' name (fstate_of j) = Ret g /\ (length (r_fields r) <= g)%nat
           /\ forall lev, (lev < m_nlev (r_mesh r'))%nat -> at_level r' g lev zero)
    /\ (forall s, (forall j, (j < Z.to_nat nstates)%nat -> s <> fstate_of j) -> field_exists r' name s = false)
    /\ (forall g lev, (g < length (r_fields r))%nat -> get_multifab r' g lev = get_multifab r g lev).
Proof.
  intros W He Hn Hv. assert (C := wf_core r W). unfold field_exists in He. cbn in He. destruct (r_map r name) as [?|] eqn:Em; [discriminate|].
  destruct (declare_new r name ncomp ngrow nstates loc W Em Hn Hv) as (r' & E & W' & X & L & (i & I1 & I2 & I3 & I4 & I5 & I6) & M & M').
  assert (C' := wf_core r' W'). exists (length (r_fields r)), r'. split; [assumption|].
  assert (G : forall j, (j < Z.to_nat nstates)%nat -> get_field r' name (fstate_of j) = Ret (length (r_fields r) + j)%nat).
  { intros j Hj. apply (get_field_core r' _ _ _ C'). apply M. assumption. }
  assert (G0 : get_field r' name NP1 = Ret (length (r_fields r))) by (rewrite <- (Nat.add_0_r (length (r_fields r))); apply (G 0%nat); lia).
  split; [assumption|]. split; [|split; [|split]].
  - destruct (get_field_info r' name NP1 _ W' Hv G0) as (f & i' & F1 & J1 & J2 & J3 & J4). exists (length (r_fields r)), f. split; [assumption|].
    split; [assumption|]. rewrite (info_of_nth r' f i' J1). assert (f_info f = length (r_infos r)) by (eapply (w_unique r' C'); eauto; congruence).
    rewrite H, I1 in J1. injection J1 as <-. assumption.
  - intros j Hj. eexists. split; [apply G; assumption|]. split; [lia|]. intros lev Hl.
    destruct (get_ok r' (length (r_fields r) + j) lev C') as (m & E2); [lia|assumption|]. exists m. split; [assumption|].
    eapply (e_new _ _ X); [|exact E2]. lia.
  - intros s Hs. unfold field_exists. rewrite M'.
    + destruct (r_map r (field_name_with_state name s)) as [g|] eqn:Eg; [|reflexivity]. exfalso.
      assert (Gf : get_field r name s = Ret g) by (apply (get_field_core r _ _ _ C); assumption).
      destruct (get_field_info r name s g W Hv Gf) as (f & i' & F1 & J1 & J2 & J3 & J4).
      destruct (wf_all r W _ _ J1) as (A1 & A2). destruct (i_states i' NP1) as [p|] eqn:Ep; [|apply (A2 0%nat); [lia|assumption]].
      assert (X2 := info_get_field r _ _ _ _ W J1 Ep). apply (get_field_core r _ _ _ C) in X2. cbn in X2. congruence.
    + intros m Hm Heq. apply state_name_inj in Heq; [|assumption|assumption]. destruct Heq as [_ Heq]. eapply Hs; eauto.
  - apply (e_val _ _ X).
Qed.

(** *** Advancing *)
Lemma advance_values r name n lev : wf r -> is_valid_field_name name = true -> num_states r name n -> (lev < m_nlev (r_mesh r))%nat ->
  exists r', exec r OAdvance = Ret r'
    /\ (forall s, shift_src n s = s -> values r' name s lev = values r name s lev)
    /\ (forall s, field_exists r name s = true -> values r' name s lev = values r name (shift_src n s) lev)
    /\ (forall s, field_exists r name s = true -> exists v, values r name s lev = Ret v)
    /\ (forall j, (j < Z.to_nat n)%nat -> field_exists r name (fstate_of j) = true).
Proof.
  intros W Hv (fid & f & G & F1 & Hn) Hl. assert (C := wf_core r W).
  destruct (get_field_info r name NP1 fid W Hv G) as (f' & i & F1' & I1 & I2 & I3 & I4). rewrite F1 in F1'. injection F1' as <-.
  rewrite (info_of_nth r f i I1) in Hn.
  destruct (advance_states_spec r W) as (r' & E & S & F & V & _). exists r'. split; [exact E|].
  assert (GF : forall s, get_field r' name s = get_field r name s) by (intro s; unfold get_field; rewrite (s_map _ _ S), F; reflexivity).
  assert (ST : forall s g, get_field r name s = Ret g <-> i_states i s = Some g).
  { intros s g. split.
    - intro Hg. destruct (get_field_info r name s g W Hv Hg) as (f2 & i2 & K1 & K2 & K3 & K4 & K5).
      assert (f_info f2 = f_info f) by (eapply (w_unique r C); eauto; congruence). rewrite H, I1 in K2. injection K2 as <-. assumption.
    - intro Hg. rewrite <- I2. eapply info_get_field; eauto. }
  assert (NE : forall s, i_states i s = None -> get_field r name s = Abort).
  { intros s Hs. destruct (get_field r name s) as [g| |] eqn:Eg; [apply ST in Eg; congruence|reflexivity|exfalso; eapply get_field_not_ub; eauto]. }
  assert (FE : forall s, field_exists r name s = true <-> exists g, i_states i s = Some g).
  { intro s. unfold field_exists. destruct (r_map r (field_name_with_state name s)) as [g|] eqn:Eg.
    - split; [intros _|auto]. exists g. apply ST. apply (get_field_core r _ _ _ C). assumption.
    - split; [discriminate|]. intros (g & Hg). apply ST in Hg. apply (get_field_core r _ _ _ C) in Hg. congruence. }
  destruct (wf_all r W _ _ I1) as (B1 & B2).
  assert (BS : forall j, (j < Z.to_nat n)%nat -> exists g, i_states i (fstate_of j) = Some g).
  { intros j Hj. rewrite <- Hn in Hj. destruct (i_states i (fstate_of j)) eqn:Ex; [eauto|]. exfalso. eapply B2; eauto. }
  assert (SR : forall s g, i_states i s = Some g -> exists h, i_states i (shift_src n s) = Some h).
  { intros s g Hg. destruct s; cbn; eauto.
    - destruct (Z.leb_spec 2 n); [|eauto]. apply (BS 0%nat). lia.
    - destruct (Z.leb_spec 3 n); [|eauto]. apply (BS 1%nat). lia. }
  assert (MAIN : forall s g, i_states i s = Some g -> values r' name s lev = values r name (shift_src n s) lev).
  { intros s g Hg. destruct (SR s g Hg) as (h & Hh). destruct (w_states r C _ _ _ _ I1 Hg) as (f2 & K1 & K2 & K3).
    rewrite (values_val r' name s lev g) by (rewrite GF; apply ST; assumption).
    rewrite (values_val r name (shift_src n s) lev h) by (apply ST; assumption).
    rewrite (V g f2 i lev K1) by (rewrite ?K2; assumption). unfold src_of. rewrite K3, Hn, Hh. reflexivity. }
  split; [|split; [|split]].
  - intros s Hs. destruct (i_states i s) as [g|] eqn:Eg.
    + rewrite (MAIN s g Eg), Hs. reflexivity.
    + unfold values. rewrite GF, (NE s Eg). reflexivity.
  - intros s Hs. apply FE in Hs. destruct Hs as (g & Hg). eapply MAIN; eauto.
  - intros s Hs. apply FE in Hs. destruct Hs as (g & Hg). rewrite (values_val r name s lev g) by (apply ST; assumption).
    destruct (val_ok r g lev C) as (v & ->); [eapply state_lt; eauto|assumption|]. eauto.
  - intros j Hj. apply FE. apply BS. assumption.
Qed.

Lemma num_states_later r os r' name n : wf r -> reach r os r' -> num_states r name n -> num_states r' name n.
Proof.
  intros W R (fid & f & G & F & H). destruct (reach_wf _ _ _ R W) as (W' & L).
  destruct (l_fields _ _ L _ _ F) as (f' & F' & _ & F2 & _). exists fid, f'. split; [eapply later_get; eauto; apply wf_core; assumption|]. split; [assumption|].
  destruct (w_field r (wf_core r W) _ _ F) as (i & I1 & _). destruct (l_infos _ _ L _ _ I1) as (i' & I2 & (_ & _ & _ & K & _) & _).
  rewrite (info_of_nth r f i I1) in H. rewrite (info_of_nth r' f' i'); [congruence|]. rewrite F2. assumption.
Qed.

Lemma exec_reach r o r1 : allowed r o -> exec r o = Ret r1 -> reach r [o] r1.
Proof. intros. econstructor; eauto. constructor. Qed.

Lemma old_state_since r r1 seg r2 name n lev : wf r -> is_valid_field_name name = true -> num_states r name n -> (2 <= n)%Z -> (lev < m_nlev (r_mesh r))%nat ->
  exec r OAdvance = Ret r1 -> reach r1 seg r2 -> undisturbed name N lev r1 seg ->
  values r2 name N lev = values r name NP1 lev /\ exists v, values r name NP1 lev = Ret v.
Proof.
  intros W Hv Hn H2 Hl E R U. destruct (advance_values r name n lev W Hv Hn Hl) as (r1' & E' & _ & A2 & A3 & A4).
  rewrite E in E'. injection E' as <-. assert (R0 := exec_reach r OAdvance r1 Logic.I E).
  destruct (reach_wf _ _ _ R0 W) as (W1 & L1).
  assert (FN : field_exists r name N = true) by (apply (A4 1%nat); lia).
  assert (F0 : field_exists r name NP1 = true) by (apply (A4 0%nat); lia).
  assert (exists g, get_field r1 name N = Ret g) as (g & G).
  { unfold field_exists in FN. destruct (r_map r (field_name_with_state name N)) as [g|] eqn:Eg; [|discriminate]. exists g.
    apply (get_field_core r1 _ _ _ (wf_core r1 W1)). apply (l_map _ _ L1). assumption. }
  assert (HL1 : (lev < m_nlev (r_mesh r1))%nat).
  { destruct (advance_states_spec r W) as (r1' & E'' & S & _). cbn [exec] in E. rewrite E in E''. injection E'' as <-. rewrite (s_mesh _ _ S). assumption. }
  destruct (undisturbed_ok name N lev seg r1 r2 g W1 R U G HL1) as (B1 & B2 & B3).
  split; [|apply A3; assumption].
  rewrite (values_val r2 name N lev g B2), B3, <- (values_val r1 name N lev g G), (A2 N FN). cbn [shift_src].
  destruct (Z.leb_spec 2 n); [reflexivity|lia].
Qed.

Lemma nm1_state_since r r1 seg r2 r3 seg2 r4 name n lev : wf r -> is_valid_field_name name = true -> num_states r name n -> (3 <= n)%Z -> (lev < m_nlev (r_mesh r))%nat ->
  exec r OAdvance = Ret r1 -> reach r1 seg r2 -> undisturbed name N lev r1 seg ->
  exec r2 OAdvance = Ret r3 -> reach r3 seg2 r4 -> undisturbed name NM1 lev r3 seg2 ->
  values r4 name NM1 lev = values r name NP1 lev.
Proof.
  intros W Hv Hn H3 Hl E R U E2 R2 U2.
  destruct (old_state_since r r1 seg r2 name n lev W Hv Hn) as (X & _); try assumption; [lia|]. rewrite <- X.
  assert (R0 := exec_reach r OAdvance r1 Logic.I E). destruct (reach_wf _ _ _ R0 W) as (W1 & L1). destruct (reach_wf _ _ _ R W1) as (W2 & L2).
  assert (HL2 : (lev < m_nlev (r_mesh r2))%nat).
  { destruct (advance_values r name n lev W Hv Hn Hl) as (_ & _ & _ & _ & _ & A4).
    assert (FN : field_exists r name N = true) by (apply (A4 1%nat); lia).
    unfold field_exists in FN. destruct (r_map r (field_name_with_state name N)) as [g|] eqn:Eg; [|discriminate].
    assert (G : get_field r1 name N = Ret g) by (apply (get_field_core r1 _ _ _ (wf_core r1 W1)); apply (l_map _ _ L1); assumption).
    destruct (advance_states_spec r W) as (r1' & E'' & S & _). cbn [exec] in E. rewrite E in E''. injection E'' as <-.
    eapply (undisturbed_ok name N lev seg r1 r2 g W1 R U G). rewrite (s_mesh _ _ S). assumption. }
  assert (Hn2 : num_states r2 name n). { eapply num_states_later; [exact W| |exact Hn]. eapply (reach_app r [OAdvance] r1 seg r2); eassumption. }
  destruct (advance_values r2 name n lev W2 Hv Hn2 HL2) as (r3' & E' & _ & A2 & _ & A4). rewrite E2 in E'. injection E' as <-.
  assert (R02 := exec_reach r2 OAdvance r3 Logic.I E2). destruct (reach_wf _ _ _ R02 W2) as (W3 & L3).
  assert (FN : field_exists r2 name NM1 = true) by (apply (A4 2%nat); lia).
  assert (exists g, get_field r3 name NM1 = Ret g) as (g & G).
  { unfold field_exists in FN. destruct (r_map r2 (field_name_with_state name NM1)) as [g|] eqn:Eg; [|discriminate]. exists g.
    apply (get_field_core r3 _ _ _ (wf_core r3 W3)). apply (l_map _ _ L3). assumption. }
  assert (HL3 : (lev < m_nlev (r_mesh r3))%nat).
  { destruct (advance_states_spec r2 W2) as (r3' & E'' & S & _). cbn [exec] in E2. rewrite E2 in E''. injection E'' as <-. rewrite (s_mesh _ _ S). assumption. }
  destruct (undisturbed_ok name NM1 lev seg2 r3 r4 g W3 R2 U2 G HL3) as (B1 & B2 & B3).
  rewrite (values_val r4 name NM1 lev g B2), B3, <- (values_val r3 name NM1 lev g G), (A2 NM1 FN). cbn [shift_src].
  destruct (Z.leb_spec 3 n); [reflexivity|lia].
Qed.

(** *** Conversions *)
Definition data_eq (a b : data) : Prop := forall pt c, a pt c == b pt c.

Lemma scaled_back b nc v vf vd : (forall pt c, (c < nc)%nat -> ~ vf pt c == 0) -> (forall pt, ~ vd pt 0%nat == 0) ->
  data_eq (scaled b nc (scaled (negb b) nc v vf vd) vf vd) v.
Proof.
  intros Hf Hd pt c. unfold scaled. destruct (Nat.ltb_spec c nc) as [H|H]; [|reflexivity].
  specialize (Hf pt c H). specialize (Hd pt). destruct b; cbn; field; auto.
Qed.
Lemma scaled_ext b nc v v' vf vd : data_eq v v' -> data_eq (scaled b nc v vf vd) (scaled b nc v' vf vd).
Proof. intros H pt c. unfold scaled. destruct (Nat.ltb c nc); destruct b; rewrite ?(H pt c); reflexivity. Qed.

Lemma at_val r g l w : at_level r g l w <-> val r g l = Some w.
Proof.
  unfold at_level, val. destruct (get_multifab r g l).
  - split; [intros (m' & H1 & H2); congruence|]. intros [= <-]. eauto.
  - split; [intros (m' & H1 & H2); congruence|discriminate].
  - split; [intros (m' & H1 & H2); congruence|discriminate].
Qed.

Lemma conversions_spec fac det lev vf vd : forall bs r r' fid f v, wf r -> reach r (conversions fid bs) r' ->
  nth_error (r_fields r) fid = Some f -> mapped_by r fid fac det ->
  at_level r fac lev vf -> at_level r det lev vd -> (forall pt c, (c < num_comp r fid)%nat -> ~ vf pt c == 0) -> (forall pt, ~ vd pt 0%nat == 0) ->
  at_level r fid lev v ->
  exists f' v', nth_error (r_fields r') fid = Some f' /\ at_level r' fid lev v'
    /\ (forall b, last (map Some bs) None = Some b -> f_mapped f' = b) /\ (bs = [] -> f_mapped f' = f_mapped f)
    /\ (f_mapped f' = f_mapped f -> data_eq v' v)
    /\ (f_mapped f' = negb (f_mapped f) -> data_eq v' (scaled (f_mapped f') (num_comp r fid) v vf vd))
    /\ (forall g l w, g <> fid -> (at_level r' g l w <-> at_level r g l w)).
Proof.
  induction bs as [|b bs IH]; intros r r' fid f v W R Hf MB Af Ad Nf Nd Av.
  - inversion R; subst. exists f, v. split; [assumption|]. split; [assumption|]. split; [discriminate|]. split; [reflexivity|].
    split; [intros _ pt c; reflexivity|]. split; [intro X; destruct (f_mapped f); discriminate|]. reflexivity.
  - cbn [conversions map] in R. inversion R as [|? ? r1 ? ? A E R1]; subst. fold (conversions fid bs) in R1.
    assert (C := wf_core r W).
    assert (NC : num_comp r fid = i_ncomp (info_of r f)) by (unfold num_comp; rewrite Hf; reflexivity).
    assert (A2 : mappable r fid) by (destruct b; apply A).
    assert (E2 : to_space b r fid = Ret r1) by (destruct b; exact E).
    assert (Lv : (lev < m_nlev (r_mesh r))%nat).
    { destruct (Nat.lt_ge_cases lev (m_nlev (r_mesh r))) as [H|H]; [assumption|]. exfalso. destruct Av as (m & Hm & _).
      unfold get_multifab in Hm. rewrite (w_none r C) in Hm by assumption. discriminate. }
    assert (LAST : forall x, last (map Some (b :: bs)) None = Some x -> (bs = [] /\ x = b) \/ last (map Some bs) None = Some x).
    { intros x Hx. destruct bs; cbn in *; [left; split; congruence|right; exact Hx]. }
    destruct (to_space_spec b r fid f W Hf A2) as [E3|[(Hb & E3)|(Hb & r1' & fac' & det' & E3 & S & M1 & M2 & (f1 & F1 & F2) & V1 & V2)]]; [congruence| |].
    + assert (r1 = r) by congruence. subst r1. destruct (IH r r' fid f v W R1 Hf MB Af Ad Nf Nd Av) as (f' & v' & B1 & B2 & B3 & B4 & B5).
      exists f', v'. split; [assumption|]. split; [assumption|]. split; [|split; [discriminate|assumption]].
      intros x Hx. destruct (LAST x Hx) as [(-> & ->)|H]; [rewrite B4 by reflexivity; assumption|auto].
    + assert (r1' = r1) by congruence. subst r1'. clear E3.
      destruct MB as (f0 & G0 & G1 & G2 & G3 & G4). rewrite Hf in G0. injection G0 as <-.
      rewrite M1 in G1. injection G1 as ->. rewrite M2 in G2. injection G2 as ->.
      assert (W1 := sim_wf _ _ W S).
      assert (I1 : info_of r1 f1 = info_of r f).
      { apply (sim_info r r1 f f1 S). destruct (sim_nth _ _ _ _ S Hf) as (f1' & X1 & _ & X2 & _). congruence. }
      assert (NC1 : num_comp r1 fid = num_comp r fid) by (rewrite NC; unfold num_comp; rewrite F1, I1; reflexivity).
      assert (OTH : forall g l w, g <> fid -> (at_level r1 g l w <-> at_level r g l w)) by (intros; rewrite !at_val, V1 by auto; reflexivity).
      assert (MB1 : mapped_by r1 fid fac det).
      { exists f1. split; [assumption|]. rewrite I1.
        assert (GG : forall n s, get_field r1 n s = get_field r n s) by (intros; unfold get_field; rewrite (s_map _ _ S), (sim_length _ _ S); reflexivity).
        unfold map_field, map_det in *. rewrite !GG. auto. }
      destruct (IH r1 r' fid f1 (scaled b (num_comp r fid) v vf vd) W1 R1 F1 MB1) as (f' & v' & B1 & B2 & B3 & B4 & B5 & B6 & B7).
      * apply OTH; assumption.
      * apply OTH; assumption.
      * rewrite NC1. assumption.
      * assumption.
      * rewrite NC. apply at_val. apply V2; [assumption|apply at_val; assumption|apply at_val; assumption|apply at_val; assumption].
      * rewrite NC1 in B6. exists f', v'. split; [assumption|]. split; [assumption|].
        split. { intros x Hx. destruct (LAST x Hx) as [(-> & ->)|H]; [rewrite B4 by reflexivity; assumption|auto]. }
        split; [discriminate|]. rewrite F2 in B5, B6. split; [|split].
        -- intro X. assert (X1 : f_mapped f' = negb b) by congruence. intros pt c. rewrite (B6 X1 pt c). rewrite X1.
           assert (Y := scaled_back (negb b) (num_comp r fid) v vf vd Nf Nd). rewrite negb_involutive in Y. apply Y.
        -- intro X. assert (X1 : f_mapped f' = b) by (rewrite X, Hb, negb_involutive; reflexivity). rewrite X1. apply B5. assumption.
        -- intros g l w Hg. rewrite B7 by assumption. apply OTH. assumption.
Qed.

(** *** Regridding *)
Lemma regrid_data r fill lbase grids fid f : wf r -> (lbase < m_nlev (r_mesh r))%nat -> nth_error (r_fields r) fid = Some f ->
  let r' := regrid r fill lbase grids in
  m_nlev (r_mesh r') = (S lbase + length grids)%nat
  /\ (forall lev, (lev <= lbase)%nat -> get_multifab r' fid lev = get_multifab r fid lev
        /\ m_ba (r_mesh r') lev = m_ba (r_mesh r) lev /\ m_dm (r_mesh r') lev = m_dm (r_mesh r) lev)
  /\ (forall lev, (S lbase + length grids <= lev)%nat -> r_levels r' lev = None)
  /\ (forall j ba dm, let lev := (S lbase + j)%nat in nth_error grids j = Some (ba, dm) ->
        m_ba (r_mesh r') lev = ba /\ m_dm (r_mesh r') lev = dm
        /\ ((lev < m_nlev (r_mesh r))%nat /\ ba = m_ba (r_mesh r) lev /\ dm = m_dm (r_mesh r) lev ->
              get_multifab r' fid lev = get_multifab r fid lev)
        /\ (~ ((lev < m_nlev (r_mesh r))%nat /\ ba = m_ba (r_mesh r) lev /\ dm = m_dm (r_mesh r) lev) ->
              exists rr m, get_multifab r' fid lev = Ret m
                /\ layout m = (ba, dm, i_loc (info_of r f), i_ncomp (info_of r f), i_ngrow (info_of r f))
                /\ mf_val m = (if f_regrid f then fill rr lev fid else zero)
                /\ (forall g l, (l < lev)%nat -> get_multifab rr g l = get_multifab r' g l)
                /\ (forall g l, (lev <= l)%nat -> get_multifab rr g l = get_multifab r g l))).
Proof.
  intros W Hl Hf. assert (C := wf_core r W). cbn zeta.
  destruct (regrid_spec r fill lbase grids Hl C) as (E1 & E2 & E3 & E4 & _ & E6 & E7 & E8). set (r' := regrid r fill lbase grids) in *.
  split; [assumption|]. split; [|split; [assumption|]].
  - intros lev H. destruct (E7 lev H) as (A1 & A2). split; [unfold get_multifab; rewrite A1; reflexivity|].
    split; [exact (f_equal fst A2)|exact (f_equal snd A2)].
  - intros j ba dm Hj. destruct (E8 j _ Hj) as (P1 & P2 & P3). set (lev := (S lbase + j)%nat) in *.
    split; [exact (f_equal fst P1)|]. split; [exact (f_equal snd P1)|].
    assert (K : keeps r lev (ba, dm) = true <-> (lev < m_nlev (r_mesh r))%nat /\ ba = m_ba (r_mesh r) lev /\ dm = m_dm (r_mesh r) lev).
    { unfold keeps. cbn [fst snd]. rewrite !andb_true_iff, Nat.ltb_lt, !Nat.eqb_eq. tauto. }
    split.
    + intro H. apply K in H. unfold get_multifab. rewrite (P2 H). reflexivity.
    + intro H. destruct (keeps r lev (ba, dm)) eqn:Ek; [exfalso; apply H, K; reflexivity|].
      destruct (P3 eq_refl) as (rr & _ & R2 & R3 & R4). exists rr.
      destruct (fill_level_spec rr fill lev (r_fields r) 0 (allocate_level r ba dm)) as (_ & F2).
      { unfold allocate_level. apply map_length. }
      eexists. split.
      { unfold get_multifab. rewrite R4. cbn [fst snd].
        rewrite (F2 fid f (new_mfab ba dm (info_of r f)) Hf); [reflexivity|]. apply (map_nth_error (fun f => new_mfab ba dm (info_of r f)) fid (r_fields r) Hf). }
      split; [destruct (f_regrid f); reflexivity|]. split; [destruct (f_regrid f); reflexivity|]. split.
      * intros g l Hlt. destruct (R2 l Hlt) as (X & _). unfold get_multifab. rewrite X. reflexivity.
      * intros g l Hge. destruct (R3 l Hge) as (X & _). unfold get_multifab. rewrite X. reflexivity.
Qed.

(** *** Checking concrete histories by computation *)
Definition mappableb (r : repo) (fid : nat) : bool :=
  match nth_error (r_fields r) fid with
  | None => true
  | Some f => match map_field r (i_loc (info_of r f)) with
              | Ret fac => match nth_error (r_fields r) fac with
                           | Some g => Nat.leb (i_ncomp (info_of r f)) (i_ncomp (info_of r g))
                           | None => true
                           end
              | _ => true
              end
  end.
Definition is_ret {A} (o : outcome A) : bool := match o with Ret _ => true | _ => false end.
Definition allowedb (r : repo) (o : op) : bool :=
  match o with
  | ODeclare _ _ _ nstates _ => Z.leb 1 nstates
  | OCreateState fid _ | OFillpatch fid _ => Nat.ltb fid (length (r_fields r))
  | OScratch lev _ _ => Nat.leb lev (m_nlev (r_mesh r))
  | ORegrid _ lbase _ => Nat.ltb lbase (m_nlev (r_mesh r))
  | OWrite fid lev _ => Nat.ltb fid (length (r_fields r)) && Nat.ltb lev (m_nlev (r_mesh r))
  | OCopyState fid a b => is_ret (state_of r fid a) && is_ret (state_of r fid b)
  | OAdvance => true
  | OUniform fid | OStretched fid => Nat.ltb fid (length (r_fields r)) && mappableb r fid
  end.
Fixpoint checkb (r : repo) (os : list op) : bool :=
  match os with
  | [] => true
  | o :: rest => allowedb r o && match exec r o with Ret r1 => checkb r1 rest | _ => false end
  end.
Lemma allowedb_ok r o : allowedb r o = true -> allowed r o.
Proof.
  assert (M : forall fid, Nat.ltb fid (length (r_fields r)) && mappableb r fid = true -> handle r fid /\ mappable r fid).
  { intros fid H. apply andb_true_iff in H. destruct H as [H1 H2]. split; [apply Nat.ltb_lt; assumption|].
    intros f fac g A1 A2 A3. unfold mappableb in H2. rewrite A1, A2, A3 in H2. apply Nat.leb_le. assumption. }
  destruct o; cbn [allowedb allowed]; intro H; unfold handle in *.
  - apply Z.leb_le. assumption.
  - apply Nat.ltb_lt. assumption.
  - apply Nat.ltb_lt. assumption.
  - apply Nat.leb_le. assumption.
  - apply Nat.ltb_lt. assumption.
  - apply andb_true_iff in H. destruct H. split; apply Nat.ltb_lt; assumption.
  - apply andb_true_iff in H. destruct H as [H1 H2]. unfold has_state.
    destruct (state_of r fid to); try discriminate. destruct (state_of r fid from); try discriminate. eauto.
  - exact Logic.I.
  - apply M. assumption.
  - apply M. assumption.
Qed.
Definition repo_of (o : outcome repo) : repo := match o with Ret r => r | _ => empty_repo end.
Lemma checkb_ok : forall os r, checkb r os = true -> reach r os (repo_of (run r os)).
Proof.
  induction os as [|o os IH]; intros r H; cbn in *; [constructor|].
  apply andb_true_iff in H. destruct H as [H1 H2]. destruct (exec r o) as [r1| |] eqn:E; try discriminate. cbn [obind].
  econstructor; [apply allowedb_ok; assumption|eassumption|]. apply IH. assumption.
Qed.
