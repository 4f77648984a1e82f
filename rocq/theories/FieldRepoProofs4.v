(** Mesh mapping; reachable states; frame theorem. *)
From Coq Require Import String.
From Verif Require Import BaseFacts FieldRepo FieldRepoSpec FieldRepoProofs FieldRepoProofs2 FieldRepoProofs3.
Local Open Scope string_scope.
Local Open Scope list_scope.
Local Open Scope Q_scope.

Definition scaled (uniform : bool) (nc : nat) (v vf vd : data) : data := fun pt c =>
  if Nat.ltb c nc then
    (if uniform then v pt c * (vd pt 0%nat / vf pt c) else v pt c * (vf pt c / vd pt 0%nat))
  else v pt c.

Lemma val_mfab r g lev m : get_multifab r g lev = Ret m -> val r g lev = Some (mf_val m).
Proof. intro H. unfold val. rewrite H. reflexivity. Qed.

Lemma core_ncomp r fid f lev m : core r -> nth_error (r_fields r) fid = Some f -> get_multifab r fid lev = Ret m -> mf_ncomp m = i_ncomp (info_of r f).
Proof.
  intros C Hf Hm. destruct (Nat.lt_ge_cases lev (m_nlev (r_mesh r))).
  - destruct (core_val r fid lev C) as (f' & l & m' & A1 & A2 & A3 & A4); [eapply nth_error_lt; eauto|assumption|].
    unfold get_multifab in Hm. rewrite A2, A3 in Hm. injection Hm as ->. rewrite Hf in A1. injection A1 as <-.
    unfold laid_out, layout in A4. congruence.
  - unfold get_multifab in Hm. rewrite (w_none r C) in Hm by assumption. discriminate.
Qed.

Lemma scale_levels_spec u fid fac det f ff : forall n r, core r ->
  nth_error (r_fields r) fid = Some f -> nth_error (r_fields r) fac = Some ff -> (det < length (r_fields r))%nat ->
  (i_ncomp (info_of r f) <= i_ncomp (info_of r ff))%nat -> (n <= m_nlev (r_mesh r))%nat ->
  exists r', scale_levels n r u fid fac det = Ret r' /\ sim r r' /\ r_fields r' = r_fields r
    /\ (forall g lev, g <> fid \/ (n <= lev)%nat -> val r' g lev = val r g lev)
    /\ (forall lev v vf vd, (lev < n)%nat -> val r fid lev = Some v -> val r fac lev = Some vf -> val r det lev = Some vd ->
          val r' fid lev = Some (scaled u (i_ncomp (info_of r f)) v vf vd)).
Proof.
  induction n as [|n IH]; intros r C Hf Hff Hd Hc Hn.
  - exists r. split; [reflexivity|]. split; [apply sim_refl|]. split; [reflexivity|]. split; [auto|]. intros; lia.
  - destruct (IH r C Hf Hff Hd Hc) as (r1 & E1 & S1 & F1 & V1 & V2); [lia|]. cbn [scale_levels]. rewrite E1. cbn [obind].
    assert (C1 := sim_core _ _ C S1).
    destruct (get_ok r1 fid n C1) as (m & Em); [rewrite F1; eapply nth_error_lt; eauto|rewrite (s_mesh _ _ S1); lia|].
    destruct (get_ok r1 fac n C1) as (mf & Emf); [rewrite F1; eapply nth_error_lt; eauto|rewrite (s_mesh _ _ S1); lia|].
    destruct (get_ok r1 det n C1) as (md & Emd); [rewrite F1; assumption|rewrite (s_mesh _ _ S1); lia|].
    rewrite Em, Emf, Emd. cbn [obind].
    assert (N1 : mf_ncomp m = i_ncomp (info_of r f)).
    { rewrite (core_ncomp r1 fid f n m C1) by (rewrite ?F1; assumption). rewrite (sim_info r r1 f f S1); reflexivity. }
    assert (N2 : mf_ncomp mf = i_ncomp (info_of r ff)).
    { rewrite (core_ncomp r1 fac ff n mf C1) by (rewrite ?F1; assumption). rewrite (sim_info r r1 ff ff S1); reflexivity. }
    rewrite N1, N2. destruct (Nat.ltb_spec (i_ncomp (info_of r ff)) (i_ncomp (info_of r f))); [lia|].
    match goal with |- context[put_val r1 fid n ?w] => destruct (put_val_spec r1 fid n w m Em) as (r2 & E2 & S2 & F2 & V3) end.
    exists r2. split; [assumption|]. split; [eapply sim_trans; eauto|]. split; [congruence|]. split.
    + intros g lev Hg. rewrite V3. destruct (Nat.eqb_spec g fid); cbn [andb].
      * destruct (Nat.eqb_spec lev n); [exfalso; subst; destruct Hg; [congruence|lia]|]. apply V1. right. destruct Hg; [congruence|lia].
      * apply V1. auto.
    + intros lev v vf vd Hlev Hv Hvf Hvd. rewrite V3, Nat.eqb_refl. cbn [andb]. destruct (Nat.eqb_spec lev n).
      * subst lev. assert (A1 := val_mfab _ _ _ _ Em). assert (A2 := val_mfab _ _ _ _ Emf). assert (A3 := val_mfab _ _ _ _ Emd).
        rewrite V1 in A1, A2, A3 by (right; lia). rewrite Hv in A1. rewrite Hvf in A2. rewrite Hvd in A3.
        injection A1 as ->. injection A2 as ->. injection A3 as ->. reflexivity.
      * apply V2; [lia|assumption|assumption|assumption].
Qed.

Lemma set_mapped_sim r fid b : sim r (set_mapped r fid b).
Proof.
  unfold set_mapped. destruct (nth_error (r_fields r) fid) as [f|] eqn:E; [|apply sim_refl].
  constructor; try reflexivity. cbn. revert fid E. induction (r_fields r) as [|x l IH]; intros fid E; [destruct fid; discriminate|].
  destruct fid; cbn in *; [injection E as ->; reflexivity|]. f_equal. eauto.
Qed.
Lemma set_fillpatch_sim r fid b : handle r fid -> exists r', set_fillpatch r fid b = Ret r' /\ sim r r' /\ (forall g lev, get_multifab r' g lev = get_multifab r g lev).
Proof.
  unfold handle, set_fillpatch. intro H. destruct (nth_error (r_fields r) fid) as [f|] eqn:E; [|apply nth_error_None in E; lia].
  eexists. split; [reflexivity|]. split; [|reflexivity]. clear H.
  constructor; try reflexivity. cbn. revert fid E. induction (r_fields r) as [|x l IH]; intros fid E; [destruct fid; discriminate|].
  destruct fid; cbn in *; [injection E as ->; reflexivity|]. f_equal. eauto.
Qed.
Lemma set_mapped_get r fid b g lev : get_multifab (set_mapped r fid b) g lev = get_multifab r g lev.
Proof. unfold set_mapped. destruct (nth_error (r_fields r) fid); reflexivity. Qed.

Lemma get_field_core r name s fid : core r -> (get_field r name s = Ret fid <-> r_map r (field_name_with_state name s) = Some fid).
Proof.
  intro C. unfold get_field. split.
  - destruct (r_map r _) as [g|]; [|discriminate]. destruct (Nat.ltb g _); [congruence|discriminate].
  - intro H. rewrite H. apply (w_map r C) in H. destruct H as (f & F & _). apply nth_error_lt in F.
    apply Nat.ltb_lt in F. rewrite F. reflexivity.
Qed.
Lemma get_field_not_ub r name s : get_field r name s <> UB.
Proof. unfold get_field. destruct (r_map r _); [destruct (Nat.ltb _ _)|]; discriminate. Qed.
Lemma get_field_lt r name s fid : get_field r name s = Ret fid -> (fid < length (r_fields r))%nat.
Proof.
  unfold get_field. destruct (r_map r _); [|discriminate]. destruct (Nat.ltb_spec n (length (r_fields r))); [|discriminate].
  intros [= <-]. assumption.
Qed.

Lemma to_space_spec b r fid f : wf r -> nth_error (r_fields r) fid = Some f -> mappable r fid ->
  to_space b r fid = Abort
  \/ (f_mapped f = b /\ to_space b r fid = Ret r)
  \/ (f_mapped f = negb b /\ exists r' fac det, to_space b r fid = Ret r' /\ sim r r'
       /\ map_field r (i_loc (info_of r f)) = Ret fac /\ map_det r (i_loc (info_of r f)) = Ret det
       /\ (exists f', nth_error (r_fields r') fid = Some f' /\ f_mapped f' = b)
       /\ (forall g lev, g <> fid \/ (m_nlev (r_mesh r) <= lev)%nat -> val r' g lev = val r g lev)
       /\ (forall lev v vf vd, (lev < m_nlev (r_mesh r))%nat -> val r fid lev = Some v -> val r fac lev = Some vf -> val r det lev = Some vd ->
            val r' fid lev = Some (scaled b (i_ncomp (info_of r f)) v vf vd))).
Proof.
  intros W Hf Hm. assert (C := wf_core r W). unfold to_space. rewrite Hf.
  destruct (Nat.ltb (i_ncomp (info_of r f)) 3); [auto|].
  destruct (Bool.eqb (f_mapped f) b) eqn:Eb; [right; left; apply eqb_prop in Eb; auto|].
  destruct (map_field r (i_loc (info_of r f))) as [fac| |] eqn:Ef; [|auto|exfalso; eapply get_field_not_ub; exact Ef].
  destruct (map_det r (i_loc (info_of r f))) as [det| |] eqn:Ed; [|auto|exfalso; eapply get_field_not_ub; exact Ed].
  cbn [obind]. right. right. split; [destruct (f_mapped f), b; cbn in *; congruence|].
  assert (Lf := get_field_lt _ _ _ _ Ef). assert (Ld := get_field_lt _ _ _ _ Ed).
  destruct (nth_error (r_fields r) fac) as [ff|] eqn:Eff; [|apply nth_error_None in Eff; lia].
  destruct (scale_levels_spec b fid fac det f ff (m_nlev (r_mesh r)) r C Hf Eff Ld) as (r1 & E1 & S1 & F1 & V1 & V2); [eapply Hm; eauto|lia|].
  rewrite E1. cbn [obind]. exists (set_mapped r1 fid b), fac, det. split; [reflexivity|].
  split; [eapply sim_trans; [eassumption|apply set_mapped_sim]|]. split; [reflexivity|]. split; [reflexivity|]. split; [|split].
  - unfold set_mapped. rewrite F1, Hf. eexists. split; [cbn; apply lupd_same; eapply nth_error_lt; eauto|reflexivity].
  - intros g lev Hg. unfold val. rewrite set_mapped_get. apply V1. assumption.
  - intros lev v vf vd H1 H2 H3 H4. unfold val. rewrite set_mapped_get. apply V2; assumption.
Qed.

(** *** What every operation keeps *)
Record later (r r' : repo) : Prop := {
  l_fields : forall fid f, nth_error (r_fields r) fid = Some f -> exists f', nth_error (r_fields r') fid = Some f'
     /\ f_name f' = f_name f /\ f_info f' = f_info f /\ f_state f' = f_state f;
  l_map : forall n fid, r_map r n = Some fid -> r_map r' n = Some fid;
  l_infos : forall k i, nth_error (r_infos r) k = Some i -> exists i', nth_error (r_infos r') k = Some i'
     /\ same_shape i i' /\ (forall s g, i_states i s = Some g -> i_states i' s = Some g) }.

Lemma sim_later r r' : sim r r' -> later r r'.
Proof.
  intro S. constructor.
  - intros fid f H. eapply sim_nth; eauto.
  - intros n fid. rewrite (s_map _ _ S). auto.
  - intros k i. rewrite (s_infos _ _ S). intro H. exists i. split; [assumption|]. split; [apply same_shape_refl|auto].
Qed.
Lemma ext_later r r' : ext r r' -> later r r'.
Proof.
  intro E. constructor.
  - intros fid f H. exists f. split; [apply (e_fields _ _ E); assumption|auto].
  - apply (e_map _ _ E).
  - apply (e_infos _ _ E).
Qed.
Lemma later_refl r : later r r.
Proof. apply sim_later, sim_refl. Qed.
Lemma later_trans a b c : later a b -> later b c -> later a c.
Proof.
  intros A B. constructor.
  - intros fid f H. destruct (l_fields _ _ A _ _ H) as (f1 & H1 & H2 & H3 & H4). destruct (l_fields _ _ B _ _ H1) as (f2 & G1 & G2 & G3 & G4).
    exists f2. split; [assumption|]. split; [|split]; congruence.
  - intros. apply (l_map _ _ B), (l_map _ _ A). assumption.
  - intros k i H. destruct (l_infos _ _ A _ _ H) as (i1 & H1 & H2 & H3). destruct (l_infos _ _ B _ _ H1) as (i2 & G1 & G2 & G3).
    exists i2. split; [assumption|]. split; [eapply same_shape_trans; eauto|auto].
Qed.

Lemma declare_wf r name ncomp ngrow nstates loc : wf r -> (1 <= nstates)%Z ->
  declare_field r name ncomp ngrow nstates loc = Abort
  \/ exists fid r', declare_field r name ncomp ngrow nstates loc = Ret (fid, r') /\ wf r' /\ ext r r'.
Proof.
  intros W Hn. assert (C := wf_core r W). destruct (r_map r name) as [fid|] eqn:Em.
  - destruct (declare_old r name ncomp ngrow nstates loc fid C Em) as (f & i & _ & _ & E).
    destruct (_ && _ && _); [|auto]. right. exists fid, r. split; [assumption|]. split; [assumption|apply ext_refl; assumption].
  - destruct (Z.le_gt_cases nstates 3).
    + destruct (is_valid_field_name name) eqn:Ev.
      * destruct (declare_new r name ncomp ngrow nstates loc W Em) as (r' & E & W' & X & _); [lia|assumption|]. right. eauto 6.
      * left. unfold declare_field. rewrite Em, Ev. destruct (Z.ltb 3 nstates); reflexivity.
    + left. unfold declare_field. rewrite Em. destruct (Z.ltb_spec 3 nstates); [reflexivity|lia].
Qed.

Lemma state_of_lt r fid s g : core r -> state_of r fid s = Ret g -> (g < length (r_fields r))%nat.
Proof.
  intros C H. unfold state_of in H. destruct (nth_error (r_fields r) fid) as [f|] eqn:Ef; [|discriminate].
  destruct (w_field r C _ _ Ef) as (i & I1 & _). rewrite (info_of_nth r f i I1) in H.
  destruct (i_states i s) eqn:Es; [|discriminate]. injection H as ->. eapply state_lt; eauto.
Qed.

Lemma exec_ok r o : wf r -> allowed r o -> exec r o = Abort \/ exists r', exec r o = Ret r' /\ wf r' /\ later r r'.
Proof.
  intros W A. assert (C := wf_core r W). destruct o; cbn [exec]; cbn [allowed] in A.
  - destruct (declare_wf r name ncomp ngrow nstates loc W A) as [E|(fid & r' & E & W' & X)]; rewrite E; cbn [obind]; [auto|].
    right. exists r'. split; [reflexivity|]. split; [assumption|apply ext_later; assumption].
  - destruct (create_spec r fid s W A) as (g & r' & E & W' & X & _). rewrite E. cbn [obind]. right. exists r'. split; [reflexivity|].
    split; [assumption|apply ext_later; assumption].
  - destruct (set_fillpatch_sim r fid b A) as (r' & E & S & _). right. exists r'. split; [assumption|]. split; [eapply sim_wf; eauto|apply sim_later; assumption].
  - right. eexists. split; [reflexivity|]. split; [apply scratch_wf; assumption|].
    constructor; cbn; eauto. intros k i H. exists i. split; [assumption|]. split; [apply same_shape_refl|auto].
  - right. eexists. split; [reflexivity|]. split; [apply regrid_wf; assumption|].
    destruct (regrid_spec r fill lbase grids A C) as (E1 & E2 & E3 & _). constructor.
    + rewrite E2. eauto.
    + rewrite E3. auto.
    + rewrite E1. intros k i H. exists i. split; [assumption|]. split; [apply same_shape_refl|auto].
  - destruct A as [A1 A2]. destruct (get_ok r fid lev C A1 A2) as (m & Em). destruct (put_val_spec r fid lev v m Em) as (r' & E & S & _).
    right. exists r'. split; [assumption|]. split; [eapply sim_wf; eauto|apply sim_later; assumption].
  - destruct A as [(a & Ea) (b & Eb)]. unfold copy_state. rewrite Ea, Eb. cbn [obind].
    destruct (copy_levels_spec (m_nlev (r_mesh r)) r a b C) as (r' & E & S & _); [eapply state_of_lt; eauto|eapply state_of_lt; eauto|lia|].
    right. exists r'. split; [assumption|]. split; [eapply sim_wf; eauto|apply sim_later; assumption].
  - destruct (advance_states_spec r W) as (r' & E & S & _). right. exists r'. split; [assumption|]. split; [eapply sim_wf; eauto|apply sim_later; assumption].
  - destruct A as [A1 A2]. unfold handle in A1. destruct (nth_error (r_fields r) fid) as [f|] eqn:Ef; [|apply nth_error_None in Ef; lia].
    destruct (to_space_spec true r fid f W Ef A2) as [E|[(_ & E)|(_ & r' & fac & det & E & S & _)]].
    + auto.
    + right. exists r. split; [assumption|]. split; [assumption|apply later_refl].
    + right. exists r'. split; [assumption|]. split; [eapply sim_wf; eauto|apply sim_later; assumption].
  - destruct A as [A1 A2]. unfold handle in A1. destruct (nth_error (r_fields r) fid) as [f|] eqn:Ef; [|apply nth_error_None in Ef; lia].
    destruct (to_space_spec false r fid f W Ef A2) as [E|[(_ & E)|(_ & r' & fac & det & E & S & _)]].
    + auto.
    + right. exists r. split; [assumption|]. split; [assumption|apply later_refl].
    + right. exists r'. split; [assumption|]. split; [eapply sim_wf; eauto|apply sim_later; assumption].
Qed.

Lemma reach_wf r os r' : reach r os r' -> wf r -> wf r' /\ later r r'.
Proof.
  induction 1; intro W; [split; [assumption|apply later_refl]|].
  destruct (exec_ok r o W H) as [E|(r1' & E & W1 & L)]; [congruence|]. assert (r1' = r1) by congruence. subst r1'.
  destruct (IHreach W1) as (A & B). split; [assumption|]. eapply later_trans; eauto.
Qed.
Lemma reach_empty os r : reach empty_repo os r -> wf r.
Proof. intro H. apply (reach_wf _ _ _ H), empty_wf. Qed.
Lemma reach_app r os1 r1 os2 r2 : reach r os1 r1 -> reach r1 os2 r2 -> reach r (os1 ++ os2) r2.
Proof. induction 1; cbn; intro H2; [assumption|]. econstructor; eauto. Qed.
Lemma reach_snoc_inv : forall os r o r2, reach r (os ++ [o]) r2 -> exists r1, reach r os r1 /\ allowed r1 o /\ exec r1 o = Ret r2.
Proof.
  induction os as [|a os IH]; intros r o r2 H; cbn in H; inversion H; subst.
  - inversion H6; subst. exists r. split; [constructor|auto].
  - destruct (IH _ _ _ H6) as (r3 & A & B). exists r3. split; [econstructor; eauto|assumption].
Qed.
Lemma reach_det : forall os r r1 r2, reach r os r1 -> reach r os r2 -> r1 = r2.
Proof.
  induction os as [|a os IH]; intros r r1 r2 H1 H2; inversion H1; inversion H2; subst; [reflexivity|].
  assert (r3 = r6) by congruence. subst. eapply IH; eauto.
Qed.

(** *** Frame *)
Lemma values_val r name s lev fid : get_field r name s = Ret fid ->
  values r name s lev = match val r fid lev with Some v => Ret v | None => UB end.
Proof.
  intro H. unfold values, val. rewrite H. cbn [obind]. unfold get_multifab.
  destruct (r_levels r lev); [|reflexivity]. destruct (nth_error l fid); reflexivity.
Qed.

Lemma later_get r r' name s fid : core r -> core r' -> later r r' -> get_field r name s = Ret fid -> get_field r' name s = Ret fid.
Proof. intros C C' L H. apply (get_field_core r' name s fid C'). apply (l_map _ _ L). apply (get_field_core r name s fid C). assumption. Qed.

Lemma leaves_ok r o r' name s lev fid : wf r -> allowed r o -> exec r o = Ret r' -> leaves r name s lev o ->
  get_field r name s = Ret fid -> (lev < m_nlev (r_mesh r))%nat ->
  (lev < m_nlev (r_mesh r'))%nat /\ val r' fid lev = val r fid lev.
Proof.
  intros W A E LV G HL. assert (C := wf_core r W). assert (Lt := get_field_lt _ _ _ _ G).
  destruct o; cbn [exec] in E; cbn [allowed] in A; cbn [leaves] in LV.
  - destruct (declare_wf r name0 ncomp ngrow nstates loc W A) as [E'|(g & r1 & E' & W' & X)]; rewrite E' in E; cbn [obind] in E; [discriminate|].
    injection E as ->. rewrite (e_mesh _ _ X). split; [assumption|]. unfold val. rewrite (e_val _ _ X) by assumption. reflexivity.
  - destruct (create_spec r fid0 s0 W A) as (g & r1 & E' & W' & X & _). rewrite E' in E; cbn [obind] in E. injection E as ->.
    rewrite (e_mesh _ _ X). split; [assumption|]. unfold val. rewrite (e_val _ _ X) by assumption. reflexivity.
  - destruct (set_fillpatch_sim r fid0 b A) as (r1 & E' & S & V). assert (r1 = r') by congruence. subst r1.
    rewrite (s_mesh _ _ S). split; [assumption|]. unfold val. rewrite V. reflexivity.
  - injection E as <-. split; [cbn; lia|]. unfold val. rewrite scratch_other by congruence. reflexivity.
  - injection E as <-. destruct (regrid_spec r fill lbase grids A C) as (E1 & E2 & E3 & E4 & _ & _ & E7 & E8). rewrite E4.
    destruct (Nat.le_gt_cases lev lbase) as [H|H].
    + split; [lia|]. unfold val, get_multifab. destruct (E7 lev H) as (-> & _). reflexivity.
    + destruct LV as [LV|LV]; [lia|]. destruct (E8 _ _ LV) as (P1 & P2 & _). assert (X := nth_error_lt _ _ _ LV).
      replace (S lbase + (lev - S lbase))%nat with lev in P2 by lia. split; [lia|].
      unfold val, get_multifab. rewrite P2; [reflexivity|]. unfold keeps. cbn [fst snd]. rewrite !Nat.eqb_refl.
      destruct (Nat.ltb_spec lev (m_nlev (r_mesh r))); [reflexivity|lia].
  - destruct A as [A1 A2]. destruct (get_ok r fid0 lev0 C A1 A2) as (m & Em). destruct (put_val_spec r fid0 lev0 v m Em) as (r1 & E' & S & _ & V).
    assert (r1 = r') by congruence. subst r1. rewrite (s_mesh _ _ S). split; [assumption|]. rewrite V.
    destruct (Nat.eqb_spec fid fid0); [|reflexivity]. destruct (Nat.eqb_spec lev lev0); [|reflexivity]. exfalso. subst. destruct LV; congruence.
  - destruct A as [(a & Ea) (b & Eb)]. unfold copy_state in E. rewrite Ea, Eb in E. cbn [obind] in E.
    destruct (copy_levels_spec (m_nlev (r_mesh r)) r a b C) as (r1 & E' & S & _ & V); [eapply state_of_lt; eauto|eapply state_of_lt; eauto|lia|].
    assert (r1 = r') by congruence. subst r1. rewrite (s_mesh _ _ S). split; [assumption|]. rewrite V.
    destruct (Nat.eqb_spec fid a); [|reflexivity]. exfalso. subst. congruence.
  - contradiction.
  - destruct A as [A1 A2]. unfold handle in A1. destruct (nth_error (r_fields r) fid0) as [f|] eqn:Ef; [|apply nth_error_None in Ef; lia].
    destruct (to_space_spec true r fid0 f W Ef A2) as [E'|[(_ & E')|(_ & r1 & fac & det & E' & S & _ & _ & _ & V & _)]]; unfold to_uniform_space in E; rewrite E' in E.
    + discriminate.
    + injection E as <-. auto.
    + injection E as <-. rewrite (s_mesh _ _ S). split; [assumption|]. apply V. left. congruence.
  - destruct A as [A1 A2]. unfold handle in A1. destruct (nth_error (r_fields r) fid0) as [f|] eqn:Ef; [|apply nth_error_None in Ef; lia].
    destruct (to_space_spec false r fid0 f W Ef A2) as [E'|[(_ & E')|(_ & r1 & fac & det & E' & S & _ & _ & _ & V & _)]]; unfold to_stretched_space in E; rewrite E' in E.
    + discriminate.
    + injection E as <-. auto.
    + injection E as <-. rewrite (s_mesh _ _ S). split; [assumption|]. apply V. left. congruence.
Qed.

Lemma undisturbed_ok name s lev : forall os r r' fid, wf r -> reach r os r' -> undisturbed name s lev r os ->
  get_field r name s = Ret fid -> (lev < m_nlev (r_mesh r))%nat ->
  (lev < m_nlev (r_mesh r'))%nat /\ get_field r' name s = Ret fid /\ val r' fid lev = val r fid lev.
Proof.
  induction os as [|o os IH]; intros r r' fid W R U G HL; inversion R; inversion U; subst.
  - auto.
  - assert (r4 = r1) by congruence. subst r4.
    destruct (leaves_ok r o r1 name s lev fid W H1 H3 H8 G HL) as (A1 & A2).
    destruct (exec_ok r o W H1) as [E|(r1' & E & W1 & L)]; [congruence|]. assert (r1' = r1) by congruence. subst r1'.
    assert (G1 := later_get _ _ _ _ _ (wf_core r W) (wf_core r1 W1) L G).
    destruct (IH r1 r' fid W1 H5 H11 G1 A1) as (B1 & B2 & B3). split; [assumption|]. split; [assumption|]. congruence.
Qed.
