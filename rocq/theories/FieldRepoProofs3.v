(** Declaring fields, making levels, mapping. *)
From Coq Require Import String.
From Verif Require Import BaseFacts FieldRepo FieldRepoSpec FieldRepoProofs FieldRepoProofs2.
Local Open Scope string_scope.
Local Open Scope list_scope.
Local Open Scope Q_scope.

Lemma Forall2_length {A B} (P : A -> B -> Prop) l1 l2 : Forall2 P l1 l2 -> length l1 = length l2.
Proof. induction 1; cbn; congruence. Qed.

Record ext (r r' : repo) : Prop := {
  e_mesh : r_mesh r' = r_mesh r;
  e_init : r_init r' = r_init r;
  e_len : (length (r_fields r) <= length (r_fields r'))%nat;
  e_fields : forall fid f, nth_error (r_fields r) fid = Some f -> nth_error (r_fields r') fid = Some f;
  e_map : forall n fid, r_map r n = Some fid -> r_map r' n = Some fid;
  e_infos : forall k i, nth_error (r_infos r) k = Some i -> exists i', nth_error (r_infos r') k = Some i'
     /\ same_shape i i' /\ (forall s g, i_states i s = Some g -> i_states i' s = Some g);
  e_val : forall g lev, (g < length (r_fields r))%nat -> get_multifab r' g lev = get_multifab r g lev;
  e_new : forall g lev m, (length (r_fields r) <= g)%nat -> get_multifab r' g lev = Ret m -> mf_val m = zero }.

Lemma same_shape_refl i : same_shape i i.
Proof. repeat split. Qed.
Lemma same_shape_trans a b c : same_shape a b -> same_shape b c -> same_shape a c.
Proof. unfold same_shape. intuition congruence. Qed.
Lemma ext_refl r : core r -> ext r r.
Proof.
  intro C. constructor; auto.
  - intros k i H. exists i. split; [assumption|]. split; [apply same_shape_refl|auto].
  - intros g lev m Hg Hm. exfalso. unfold get_multifab in Hm. destruct (r_levels r lev) as [l|] eqn:El; [|discriminate].
    destruct (Nat.lt_ge_cases lev (m_nlev (r_mesh r))).
    + destruct (w_data r C lev H) as (l' & E & F). rewrite El in E. injection E as <-.
      apply Forall2_length in F. destruct (nth_error l g) eqn:En; [|discriminate]. apply nth_error_lt in En. lia.
    + rewrite (w_none r C) in El by assumption. discriminate.
Qed.
Lemma ext_trans a b c : ext a b -> ext b c -> ext a c.
Proof.
  intros A B. constructor.
  - rewrite (e_mesh _ _ B). apply A.
  - rewrite (e_init _ _ B). apply A.
  - assert (X := e_len _ _ A). assert (Y := e_len _ _ B). lia.
  - intros. apply (e_fields _ _ B), (e_fields _ _ A). assumption.
  - intros. apply (e_map _ _ B), (e_map _ _ A). assumption.
  - intros k i H. destruct (e_infos _ _ A _ _ H) as (i1 & H1 & H2 & H3). destruct (e_infos _ _ B _ _ H1) as (i2 & G1 & G2 & G3).
    exists i2. split; [assumption|]. split; [eapply same_shape_trans; eauto|auto].
  - intros g lev H. rewrite (e_val _ _ B), (e_val _ _ A); [reflexivity|assumption|assert (X := e_len _ _ A); lia].
  - intros g lev m Hg Hm. destruct (Nat.lt_ge_cases g (length (r_fields b))).
    + rewrite (e_val _ _ B) in Hm by assumption. eapply (e_new _ _ A); eauto.
    + eapply (e_new _ _ B); eauto.
Qed.

Lemma add_field_ext r k s i : core r -> nth_error (r_infos r) k = Some i -> i_states i s = None ->
  exists r', add_field r k s = Ret r' /\ core r' /\ ext r r'
    /\ length (r_fields r') = S (length (r_fields r))
    /\ (forall k', k' <> k -> nth_error (r_infos r') k' = nth_error (r_infos r) k')
    /\ (exists i', nth_error (r_infos r') k = Some i' /\ same_shape i i' /\ i_states i' = stupd (i_states i) s (Some (length (r_fields r))))
    /\ r_map r' (field_name_with_state (i_name i) s) = Some (length (r_fields r))
    /\ (forall n, n <> field_name_with_state (i_name i) s -> r_map r' n = r_map r n).
Proof.
  intros C Hk Hs. destruct (add_field_spec r k s i C Hk Hs) as (r' & E & C' & M & I & F & O & (i' & K1 & K2 & K3) & MP & FR & LV).
  exists r'. split; [assumption|]. split; [assumption|].
  assert (LN : length (r_fields r') = S (length (r_fields r))) by (rewrite F, app_length; cbn; lia).
  split.
  { constructor.
    - assumption.
    - assumption.
    - lia.
    - intros fid f Hf. rewrite F. apply nth_error_app_old. assumption.
    - intros n fid Hn. rewrite MP. unfold supd. destruct (String.eqb_spec n (field_name_with_state (i_name i) s)); [congruence|assumption].
    - intros k' j Hj. destruct (Nat.eq_dec k' k).
      + subst. rewrite Hk in Hj. injection Hj as <-. exists i'. split; [assumption|]. split; [assumption|].
        intros t g Ht. rewrite K3. unfold stupd. destruct (fstate_eqb_spec t s); [congruence|assumption].
      + exists j. rewrite O by assumption. split; [assumption|]. split; [apply same_shape_refl|auto].
    - intros g lev Hg. unfold get_multifab. destruct (Nat.lt_ge_cases lev (m_nlev (r_mesh r))).
      + destruct (w_data r C lev H) as (l & E1 & E2). rewrite E1. destruct (LV lev l E1) as (x & -> & _).
        rewrite nth_error_app1; [reflexivity|]. apply Forall2_length in E2. lia.
      + rewrite (w_none r C) by assumption. rewrite (w_none r' C'); [reflexivity|]. rewrite M. assumption.
    - intros g lev m Hg Hm. unfold get_multifab in Hm. destruct (Nat.lt_ge_cases lev (m_nlev (r_mesh r))).
      + destruct (w_data r C lev H) as (l & E1 & E2). destruct (LV lev l E1) as (x & E3 & Ez). rewrite E3 in Hm.
        destruct (nth_error (l ++ [x]) g) eqn:En; [|discriminate]. injection Hm as ->.
        apply nth_error_snoc in En. destruct En as [En|[_ ->]]; [|auto]. apply Forall2_length in E2. apply nth_error_lt in En. lia.
      + rewrite (w_none r' C') in Hm by (rewrite M; assumption). discriminate. }
  split; [assumption|]. split; [assumption|]. split; [eauto|]. rewrite !MP. unfold supd. rewrite String.eqb_refl.
  split; [reflexivity|]. intros n Hn. rewrite MP. unfold supd. destruct (String.eqb_spec n (field_name_with_state (i_name i) s)); [congruence|reflexivity].
Qed.

Lemma fstate_of_inj a b : (a <= 2)%nat -> (b <= 2)%nat -> fstate_of a = fstate_of b -> a = b.
Proof. intros. destruct a as [|[|[|a]]], b as [|[|[|b]]]; cbn in *; try lia; discriminate. Qed.

Lemma add_states_spec : forall n j r k i, core r -> nth_error (r_infos r) k = Some i -> (j + n <= 3)%nat ->
  (forall m, (j <= m < j + n)%nat -> i_states i (fstate_of m) = None) ->
  exists r', add_states n j r k = Ret r' /\ core r' /\ ext r r'
    /\ length (r_fields r') = (length (r_fields r) + n)%nat
    /\ (forall k', k' <> k -> nth_error (r_infos r') k' = nth_error (r_infos r) k')
    /\ (exists i', nth_error (r_infos r') k = Some i' /\ same_shape i i'
          /\ forall m, (j <= m < j + n)%nat -> i_states i' (fstate_of m) = Some (length (r_fields r) + (m - j))%nat)
    /\ (forall m, (j <= m < j + n)%nat -> r_map r' (field_name_with_state (i_name i) (fstate_of m)) = Some (length (r_fields r) + (m - j))%nat)
    /\ (forall nm, (forall m, (j <= m < j + n)%nat -> nm <> field_name_with_state (i_name i) (fstate_of m)) -> r_map r' nm = r_map r nm).
Proof.
  induction n as [|n IH]; intros j r k i C Hk Hj Hs.
  - exists r. split; [reflexivity|]. split; [assumption|]. split; [apply ext_refl; assumption|]. split; [lia|]. split; [reflexivity|].
    split; [exists i; split; [assumption|]; split; [apply same_shape_refl|intros; lia]|]. split; [intros; lia|reflexivity].
  - cbn [add_states]. destruct (add_field_ext r k (fstate_of j) i C Hk) as (r1 & E1 & C1 & X1 & L1 & O1 & (i1 & K1 & K2 & K3) & M1 & M1').
    { apply Hs. lia. }
    rewrite E1. cbn [obind].
    destruct (IH (S j) r1 k i1 C1 K1) as (r2 & E2 & C2 & X2 & L2 & O2 & (i2 & J1 & J2 & J3) & M2 & M2'); [lia| |].
    { intros m Hm. rewrite K3. unfold stupd. destruct (fstate_eqb_spec (fstate_of m) (fstate_of j)) as [e|e].
      - apply fstate_of_inj in e; lia.
      - apply Hs. lia. }
    destruct K2 as (K2 & K2'). 
    exists r2. split; [assumption|]. split; [assumption|]. split; [eapply ext_trans; eauto|]. split; [lia|].
    split; [intros; rewrite O2, O1 by assumption; reflexivity|].
    split; [|split].
    + exists i2. split; [assumption|]. split; [eapply same_shape_trans; [|eassumption]; split; assumption|].
      intros m Hm. destruct (Nat.eq_dec m j).
      * subst m. destruct (e_infos _ _ X2 _ _ K1) as (i2' & Y1 & _ & Y2). rewrite J1 in Y1. injection Y1 as <-.
        apply Y2. rewrite K3. unfold stupd. destruct (fstate_eqb_spec (fstate_of j) (fstate_of j)); [|congruence].
        f_equal. lia.
      * rewrite J3 by lia. f_equal. lia.
    + intros m Hm. destruct (Nat.eq_dec m j).
      * subst m. apply (e_map _ _ X2). rewrite M1. f_equal. lia.
      * rewrite <- K2. rewrite M2 by lia. f_equal. lia.
    + intros nm Hnm. rewrite M2'; [apply M1'; apply Hnm; lia|]. intros m Hm. rewrite K2. apply Hnm. lia.
Qed.

(** Declaring a field that is not there yet. *)
Lemma declare_new r name ncomp ngrow nstates loc : wf r -> r_map r name = None ->
  (1 <= nstates <= 3)%Z -> is_valid_field_name name = true ->
  exists r', declare_field r name ncomp ngrow nstates loc = Ret (length (r_fields r), r') /\ wf r' /\ ext r r'
    /\ length (r_fields r') = (length (r_fields r) + Z.to_nat nstates)%nat
    /\ (exists i, nth_error (r_infos r') (length (r_infos r)) = Some i /\ i_name i = name /\ i_ncomp i = ncomp /\ i_ngrow i = ngrow
          /\ i_nstates i = nstates /\ i_loc i = loc)
    /\ (forall m, (m < Z.to_nat nstates)%nat -> r_map r' (field_name_with_state name (fstate_of m)) = Some (length (r_fields r) + m)%nat)
    /\ (forall nm, (forall m, (m < Z.to_nat nstates)%nat -> nm <> field_name_with_state name (fstate_of m)) -> r_map r' nm = r_map r nm).
Proof.
  intros W Hm Hn Hv. assert (C := wf_core r W). unfold declare_field. rewrite Hm. destruct (Z.ltb_spec 3 nstates); [lia|]. rewrite Hv. cbn [negb].
  set (i0 := {| i_name := name; i_ncomp := ncomp; i_ngrow := ngrow; i_nstates := nstates; i_loc := loc; i_states := fun _ => None |}).
  set (r1 := {| r_mesh := r_mesh r; r_infos := r_infos r ++ [i0]; r_fields := r_fields r; r_map := r_map r; r_levels := r_levels r; r_init := r_init r |}).
  assert (Nm : forall k i, nth_error (r_infos r) k = Some i -> i_name i <> name).
  { intros k i Hk En. destruct (wf_all r W _ _ Hk) as (A & B).
    destruct (i_states i NP1) as [g|] eqn:Eg; [|apply (B 0%nat); [lia|assumption]].
    destruct (w_states r C _ _ _ _ Hk Eg) as (f & F1 & F2 & F3). destruct (w_field r C _ _ F1) as (i' & G1 & G2 & G3).
    rewrite F2, Hk in G1. injection G1 as <-. rewrite F3 in G2. cbn in G2.
    assert (X : r_map r name = Some g) by (apply (w_map r C); exists f; split; [assumption|congruence]). congruence. }
  assert (IO : forall f, In f (r_fields r) -> info_of r1 f = info_of r f).
  { intros f Hf. apply In_nth_error in Hf. destruct Hf as (fid & Hf). destruct (w_field r C _ _ Hf) as (i & J & _).
    rewrite (info_of_nth r f i J). apply info_of_nth. cbn. apply nth_error_app_old. assumption. }
  assert (C1 : core r1).
  { constructor; cbn.
    - apply (w_map r C).
    - intros fid f Hf. destruct (w_field r C _ _ Hf) as (i & J1 & J2). exists i. split; [apply nth_error_app_old; assumption|assumption].
    - intros k i s fid Hk Hs. apply nth_error_snoc in Hk. destruct Hk as [Hk|[_ ->]]; [eapply (w_states r C); eauto|discriminate].
    - intros k i Hk. apply nth_error_snoc in Hk. destruct Hk as [Hk|[_ ->]]; [eapply (w_valid r C); eauto|assumption].
    - intros k k' i i' H1 H2 He. apply nth_error_snoc in H1, H2. destruct H1 as [H1|[-> ->]], H2 as [H2|[-> ->]].
      + eapply (w_unique r C); eauto.
      + exfalso. eapply Nm; eauto.
      + exfalso. eapply Nm; eauto. 
      + reflexivity.
    - intros lev Hl. destruct (w_data r C lev Hl) as (l & L1 & L2). exists l. split; [assumption|].
      refine (Forall2_in_impl _ _ _ _ L2 _). intros f x Hf Hx. change (laid_out (r_mesh r) lev (info_of r1 f) x). rewrite IO by assumption. assumption.
    - apply (w_none r C).
    - apply (w_init r C). }
  assert (X1 : ext r r1).
  { constructor; cbn; auto.
    - intros k i Hk. exists i. split; [apply nth_error_app_old; assumption|]. split; [apply same_shape_refl|auto].
    - apply (e_new r r (ext_refl r C)). }
  destruct (add_states_spec (Z.to_nat nstates) 0 r1 (length (r_infos r)) i0 C1) as (r2 & E2 & C2 & X2 & L2 & O2 & (i2 & J1 & J2 & J3) & M2 & M2').
  { cbn. apply nth_error_end. } { lia. } { reflexivity. }
  rewrite E2. cbn [obind].
  assert (M0 : r_map r2 name = Some (length (r_fields r))).
  { rewrite <- (Nat.add_0_r (length (r_fields r))). apply (M2 0%nat). lia. }
  rewrite M0. exists r2. split; [reflexivity|]. split.
  { constructor; [assumption|]. intros k i Hk. destruct (Nat.eq_dec k (length (r_infos r))).
    - subst k. rewrite J1 in Hk. injection Hk as <-. destruct J2 as (_ & _ & _ & J2 & _). split; [rewrite J2; cbn; lia|].
      intros j Hj. rewrite J2 in Hj. cbn in Hj. rewrite J3 by lia. discriminate.
    - rewrite O2 in Hk by assumption. cbn in Hk. apply nth_error_snoc in Hk. destruct Hk as [Hk|[E _]]; [|congruence]. eapply wf_all; eauto. }
  split; [eapply ext_trans; eauto|]. split; [assumption|].
  split. { destruct J2 as (A1 & A2 & A3 & A4 & A5). exists i2. cbn in *. auto 10. }
  split.
  - intros m Hm2. rewrite <- (Nat.sub_0_r m) at 2. apply M2. lia.
  - intros nm Hnm. apply M2'. intros m Hm2. apply Hnm. lia.
Qed.

(** Declaring a name that is there. *)
Lemma declare_old r name ncomp ngrow nstates loc fid : core r -> r_map r name = Some fid ->
  exists f i, nth_error (r_fields r) fid = Some f /\ nth_error (r_infos r) (f_info f) = Some i
   /\ declare_field r name ncomp ngrow nstates loc =
      if Nat.eqb ncomp (i_ncomp i) && Z.eqb (i_nstates i) nstates && floc_eqb loc (i_loc i) then Ret (fid, r) else Abort.
Proof.
  intros C Hm. assert (H := Hm). apply (w_map r C) in H. destruct H as (f & F1 & F2).
  destruct (w_field r C _ _ F1) as (i & I1 & _). exists f, i. split; [assumption|]. split; [assumption|].
  unfold declare_field. rewrite Hm, F1, (info_of_nth r f i I1).
  destruct (Nat.eqb ncomp (i_ncomp i)), (Z.eqb (i_nstates i) nstates), (floc_eqb loc (i_loc i)); reflexivity.
Qed.

Lemma create_spec r fid s : wf r -> handle r fid ->
  exists g r', create_state r fid s = Ret (g, r') /\ wf r' /\ ext r r' /\ state_of r' fid s = Ret g.
Proof.
  intros W Hf. assert (C := wf_core r W). unfold handle in Hf. unfold create_state.
  destruct (nth_error (r_fields r) fid) as [f|] eqn:Ef; [|apply nth_error_None in Ef; lia].
  destruct (w_field r C _ _ Ef) as (i & I1 & I2 & I3). rewrite (info_of_nth r f i I1).
  destruct (i_states i s) as [g|] eqn:Eg.
  - exists g, r. split; [reflexivity|]. split; [assumption|]. split; [apply ext_refl; assumption|].
    rewrite (state_of_info r fid f i s Ef I1), Eg. reflexivity.
  - destruct (add_field_ext r (f_info f) s i C I1 Eg) as (r1 & E1 & C1 & X1 & L1 & O1 & (i1 & K1 & K2 & K3) & _).
    rewrite E1. cbn [obind]. exists (length (r_fields r)), r1. split; [reflexivity|]. split; [|split; [assumption|]].
    + constructor; [assumption|]. intros k j Hj. destruct (Nat.eq_dec k (f_info f)).
      * subst k. rewrite K1 in Hj. injection Hj as <-. destruct K2 as (_ & _ & _ & A & _). destruct (wf_all r W _ _ I1) as (B1 & B2).
        split; [rewrite A; assumption|]. rewrite A. intros j Hj. rewrite K3. unfold stupd. destruct (fstate_eqb (fstate_of j) s); [discriminate|auto].
      * rewrite O1 in Hj by assumption. eapply wf_all; eauto.
    + rewrite (state_of_info r1 fid f i1 s); [|apply (e_fields _ _ X1); assumption|assumption].
      rewrite K3. unfold stupd. destruct (fstate_eqb_spec s s); [reflexivity|congruence].
Qed.

(** *** Levels *)
Lemma map_laid_out (P : field -> mfab -> Prop) (g : field -> mfab) l : (forall f, In f l -> P f (g f)) -> Forall2 P l (map g l).
Proof. intro H. induction l; cbn; constructor; [apply H; left; reflexivity|]. apply IHl. intros. apply H. right. assumption. Qed.

Lemma scratch_wf r lev ba dm : wf r -> (lev <= m_nlev (r_mesh r))%nat -> wf (level_from_scratch r lev ba dm).
Proof.
  intros W Hl. assert (C := wf_core r W). constructor; [|intros k i; cbn; apply (wf_all r W)].
  constructor; cbn.
  - apply (w_map r C).
  - apply (w_field r C).
  - apply (w_states r C).
  - apply (w_valid r C).
  - apply (w_unique r C).
  - intros lev' Hl'. unfold fupd. destruct (Nat.eqb_spec lev' lev).
    + subst. eexists. split; [reflexivity|]. unfold allocate_level. apply map_laid_out. intros f _.
      unfold laid_out. cbn. unfold fupd. rewrite Nat.eqb_refl. reflexivity.
    + assert (L : (lev' < m_nlev (r_mesh r))%nat) by lia. destruct (w_data r C lev' L) as (l & L1 & L2). exists l. split; [assumption|].
      refine (Forall2_in_impl _ _ _ _ L2 _). intros f x _ Hx. unfold laid_out in *. cbn. unfold fupd.
      destruct (Nat.eqb_spec lev' lev); [congruence|]. assumption.
  - intros lev' Hl'. unfold fupd. destruct (Nat.eqb_spec lev' lev); [lia|]. apply (w_none r C). lia.
  - discriminate.
Qed.
Lemma scratch_other r lev ba dm g lev' : lev' <> lev -> get_multifab (level_from_scratch r lev ba dm) g lev' = get_multifab r g lev'.
Proof. intro H. unfold get_multifab. cbn. unfold fupd. destruct (Nat.eqb_spec lev' lev); [congruence|reflexivity]. Qed.

(** State of the repository between the levels of a regrid: everything but the
    level data and the grids is as before. *)
Record frame (r r' : repo) : Prop := {
  fr_infos : r_infos r' = r_infos r;
  fr_fields : r_fields r' = r_fields r;
  fr_map : r_map r' = r_map r;
  fr_nlev : m_nlev (r_mesh r') = m_nlev (r_mesh r) }.

Definition grids_of (r : repo) (lev : nat) : nat * nat := (m_ba (r_mesh r) lev, m_dm (r_mesh r) lev).
Definition level_ok (r : repo) (m : mesh) (lev : nat) (o : option (list mfab)) : Prop :=
  exists l, o = Some l /\ Forall2 (fun f x => laid_out m lev (info_of r f) x) (r_fields r) l.

Definition keeps (r : repo) (lev : nat) (g : nat * nat) : bool :=
  Nat.ltb lev (m_nlev (r_mesh r)) && Nat.eqb (fst g) (m_ba (r_mesh r) lev) && Nat.eqb (snd g) (m_dm (r_mesh r) lev).

Lemma fill_level_spec r fill lev : forall fs fid l, length l = length fs ->
  length (fill_level r fill lev fs fid l) = length fs
  /\ forall j f m, nth_error fs j = Some f -> nth_error l j = Some m ->
       nth_error (fill_level r fill lev fs fid l) j = Some (if f_regrid f then set_val m (fill r lev (fid + j)%nat) else m).
Proof.
  induction fs as [|f fs IH]; intros fid l Hl; destruct l as [|m l]; try discriminate.
  - split; [reflexivity|]. intros j f m H. destruct j; discriminate.
  - cbn [fill_level]. destruct (IH (S fid) l) as (A & B); [cbn in Hl; lia|]. split; [cbn; lia|].
    intros j f' m' Hf Hm. destruct j; cbn in *.
    + injection Hf as <-. injection Hm as <-. rewrite Nat.add_0_r. reflexivity.
    + rewrite (B j f' m' Hf Hm). do 2 f_equal. rewrite <- Nat.add_succ_r. reflexivity.
Qed.

Lemma make_level_spec r fill lev ba dm fid f : nth_error (r_fields r) fid = Some f ->
  get_multifab (make_level r fill lev ba dm) fid lev =
    Ret (if f_regrid f then set_val (new_mfab ba dm (info_of r f)) (fill r lev fid) else new_mfab ba dm (info_of r f)).
Proof.
  intro Hf. unfold get_multifab. cbn. unfold fupd. rewrite Nat.eqb_refl.
  destruct (fill_level_spec r fill lev (r_fields r) 0 (allocate_level r ba dm)) as (_ & B).
  { unfold allocate_level. apply map_length. }
  rewrite (B fid f (new_mfab ba dm (info_of r f)) Hf); [reflexivity|]. unfold allocate_level.
  apply (map_nth_error (fun f => new_mfab ba dm (info_of r f)) fid (r_fields r) Hf).
Qed.

Lemma Forall2_nth {A B} (P : A -> B -> Prop) : forall l1 l2, length l1 = length l2 ->
  (forall j a b, nth_error l1 j = Some a -> nth_error l2 j = Some b -> P a b) -> Forall2 P l1 l2.
Proof.
  induction l1 as [|a l1 IH]; intros [|b l2] L H; try discriminate; constructor.
  - apply (H 0%nat); reflexivity.
  - apply IH; [cbn in L; lia|]. intros j x y Hx Hy. apply (H (S j)); assumption.
Qed.

Lemma regrid_levels_spec fill : forall grids r lev,
  (* levels from [lev] on that exist have data *)
  let r' := regrid_levels r fill lev grids in
  frame r r' /\ (r_init r = true -> r_init r' = true) /\ (grids <> [] -> (m_nlev (r_mesh r) <= lev)%nat -> r_init r' = true)
  /\ (forall l, (l < lev)%nat \/ (lev + length grids <= l)%nat -> r_levels r' l = r_levels r l /\ grids_of r' l = grids_of r l)
  /\ (forall j g, nth_error grids j = Some g ->
        grids_of r' (lev + j) = g
        /\ (keeps r (lev + j) g = true -> r_levels r' (lev + j)%nat = r_levels r (lev + j)%nat)
        /\ (keeps r (lev + j) g = false ->
              exists rr, frame r rr
                /\ (forall l, (l < lev + j)%nat -> r_levels rr l = r_levels r' l /\ grids_of rr l = grids_of r' l)
                /\ (forall l, (lev + j <= l)%nat -> r_levels rr l = r_levels r l /\ grids_of rr l = grids_of r l)
                /\ r_levels r' (lev + j)%nat = Some (fill_level rr fill (lev + j) (r_fields r) 0 (allocate_level r (fst g) (snd g))))).
Proof.
  induction grids as [|[ba dm] grids IH]; intros r lev; cbn zeta.
  - cbn [regrid_levels]. split; [constructor; reflexivity|]. split; [auto|]. split; [congruence|]. split; [auto|]. intros j g H; destruct j; discriminate.
  - cbn [regrid_levels].
    set (same := Nat.ltb lev (m_nlev (r_mesh r)) && Nat.eqb ba (m_ba (r_mesh r) lev) && Nat.eqb dm (m_dm (r_mesh r) lev)).
    set (r1 := if same then r else set_mesh {| m_nlev := m_nlev (r_mesh r); m_ba := fupd (m_ba (r_mesh r)) lev ba; m_dm := fupd (m_dm (r_mesh r)) lev dm |} (make_level r fill lev ba dm)).
    assert (F1 : frame r r1) by (unfold r1; destruct same; constructor; reflexivity).
    assert (O1 : forall l, l <> lev -> r_levels r1 l = r_levels r l /\ grids_of r1 l = grids_of r l).
    { intros l Hl. unfold r1. destruct same; [auto|]. unfold grids_of. cbn. unfold fupd.
      destruct (Nat.eqb_spec l lev); [congruence|]. auto. }
    assert (G1 : grids_of r1 lev = (ba, dm)).
    { unfold r1. destruct same eqn:Es.
      - subst same. apply andb_true_iff in Es. destruct Es as [Es E3]. apply andb_true_iff in Es. destruct Es as [_ E2].
        apply Nat.eqb_eq in E2, E3. unfold grids_of. congruence.
      - unfold grids_of. cbn. unfold fupd. rewrite Nat.eqb_refl. reflexivity. }
    destruct (IH r1 (S lev)) as (F & I1 & I2 & O & P). set (r' := regrid_levels r1 fill (S lev) grids) in *.
    destruct F1 as [Fa Fb Fc Fd]. destruct F as [Ga Gb Gc Gd].
    assert (FF : frame r r') by (constructor; congruence).
    split; [assumption|].
    split. { intro Hi. apply I1. unfold r1. destruct same; [assumption|reflexivity]. }
    split. { intros _ Hl. apply I1. unfold r1, same. destruct (Nat.ltb_spec lev (m_nlev (r_mesh r))); [lia|]. reflexivity. }
    split.
    + intros l Hl. cbn [length] in Hl. destruct (O l) as (A1 & A2); [lia|]. destruct (O1 l) as (B1 & B2); [lia|]. split; congruence.
    + intros j g Hj. destruct j.
      * cbn in Hj. injection Hj as <-. rewrite Nat.add_0_r. destruct (O lev) as (A1 & A2); [lia|].
        split; [congruence|]. split.
        -- intro K. rewrite A1. unfold r1. change (keeps r lev (ba, dm)) with same in K. rewrite K. reflexivity.
        -- intro K. change (keeps r lev (ba, dm)) with same in K. exists r. split; [constructor; reflexivity|]. split.
           ++ intros l Hl. destruct (O l) as (B1 & B2); [lia|]. destruct (O1 l) as (C1 & C2); [lia|]. split; congruence.
           ++ split; [auto|]. rewrite A1. unfold r1. rewrite K. cbn. unfold fupd. rewrite Nat.eqb_refl. reflexivity.
      * cbn in Hj. destruct (P j g Hj) as (P1 & P2 & P3). rewrite <- Nat.add_succ_comm.
        assert (K : keeps r1 (S lev + j) g = keeps r (S lev + j) g).
        { unfold keeps. rewrite Fd. destruct (O1 (S lev + j)%nat) as (_ & B); [lia|]. assert (B1 := f_equal fst B). assert (B2 := f_equal snd B). cbn [fst snd grids_of] in B1, B2. rewrite B1, B2. reflexivity. }
        rewrite K in P2, P3. destruct (O1 (S lev + j)%nat) as (B1 & B2); [lia|].
        split; [assumption|]. split.
        -- intro Kt. rewrite P2 by assumption. assumption.
        -- intro Kf. destruct (P3 Kf) as (rr & [Ha Hb Hc Hd] & R2 & R3 & R4). exists rr.
           split; [constructor; congruence|]. split; [assumption|]. split.
           ++ intros l Hl. destruct (R3 l Hl) as (C1 & C2). destruct (O1 l) as (D1 & D2); [lia|]. split; congruence.
           ++ rewrite R4, Fb. unfold allocate_level. rewrite Fb. do 2 f_equal. apply map_ext. intro f. unfold info_of. rewrite Fa. reflexivity.
Qed.

Lemma clear_levels_spec : forall n r from, let r' := clear_levels r from n in
  frame r r' /\ r_init r' = r_init r /\ r_mesh r' = r_mesh r
  /\ forall l, r_levels r' l = if Nat.leb from l && Nat.ltb l (from + n) then None else r_levels r l.
Proof.
  induction n as [|n IH]; intros r from; cbn zeta.
  - cbn [clear_levels]. split; [constructor; reflexivity|]. split; [reflexivity|]. split; [reflexivity|]. intro l.
    destruct (Nat.leb_spec from l); destruct (Nat.ltb_spec l (from + 0)); try lia; reflexivity.
  - cbn [clear_levels]. destruct (IH (clear_level r from) (S from)) as ([] & I & M & L).
    split; [constructor; assumption|]. split; [assumption|]. split; [assumption|]. intro l. rewrite L. cbn [clear_level set_levels r_levels]. unfold fupd.
    destruct (Nat.leb_spec (S from) l); destruct (Nat.ltb_spec l (S from + n)); destruct (Nat.leb_spec from l);
      destruct (Nat.ltb_spec l (from + S n)); destruct (Nat.eqb_spec l from); cbn [andb]; try lia; try reflexivity.
Qed.

Lemma regrid_spec r fill lbase grids : let r' := regrid r fill lbase grids in
  (lbase < m_nlev (r_mesh r))%nat -> core r ->
  r_infos r' = r_infos r /\ r_fields r' = r_fields r /\ r_map r' = r_map r /\ m_nlev (r_mesh r') = (S lbase + length grids)%nat
  /\ r_init r' = true
  /\ (forall l, (S lbase + length grids <= l)%nat -> r_levels r' l = None)
  /\ (forall l, (l <= lbase)%nat -> r_levels r' l = r_levels r l /\ grids_of r' l = grids_of r l)
  /\ (forall j g, nth_error grids j = Some g ->
        grids_of r' (S lbase + j) = g
        /\ (keeps r (S lbase + j) g = true -> r_levels r' (S lbase + j)%nat = r_levels r (S lbase + j)%nat)
        /\ (keeps r (S lbase + j) g = false ->
              exists rr, frame r rr
                /\ (forall l, (l < S lbase + j)%nat -> r_levels rr l = r_levels r' l /\ grids_of rr l = grids_of r' l)
                /\ (forall l, (S lbase + j <= l)%nat -> r_levels rr l = r_levels r l /\ grids_of rr l = grids_of r l)
                /\ r_levels r' (S lbase + j)%nat = Some (fill_level rr fill (S lbase + j) (r_fields r) 0 (allocate_level r (fst g) (snd g))))).
Proof.
  cbn zeta. intros Hl C. unfold regrid.
  destruct (regrid_levels_spec fill grids r (S lbase)) as ([A1 A2 A3 A4] & I1 & I2 & O & P). set (r1 := regrid_levels r fill (S lbase) grids) in *.
  destruct (clear_levels_spec (m_nlev (r_mesh r) - (S lbase + length grids)) r1 (S lbase + length grids)) as ([B1 B2 B3 B4] & BI & BM & BL).
  set (r2 := clear_levels r1 (S lbase + length grids) (m_nlev (r_mesh r) - (S lbase + length grids))) in *.
  assert (L2 : forall l, (l < S lbase + length grids)%nat -> r_levels r2 l = r_levels r1 l).
  { intros l Hk. rewrite BL. destruct (Nat.leb_spec (S lbase + length grids) l); [lia|]. reflexivity. }
  assert (G2 : forall l, grids_of (set_mesh {| m_nlev := S lbase + length grids; m_ba := m_ba (r_mesh r2); m_dm := m_dm (r_mesh r2) |} r2) l = grids_of r1 l).
  { intro l. unfold grids_of. cbn. rewrite BM. reflexivity. }
  cbn [set_mesh r_infos r_fields r_map r_mesh m_nlev r_init r_levels].
  split; [congruence|]. split; [congruence|]. split; [congruence|]. split; [reflexivity|].
  split. { rewrite BI. apply I1. destruct (r_init r) eqn:Ei; [reflexivity|]. assert (X := w_init r C Ei). lia. }
  split.
  { intros l Hk. rewrite BL. destruct (Nat.leb_spec (S lbase + length grids) l); [|lia].
    destruct (Nat.ltb_spec l (S lbase + length grids + (m_nlev (r_mesh r) - (S lbase + length grids)))); cbn; [reflexivity|].
    destruct (O l) as (-> & _); [lia|]. apply (w_none r C). lia. }
  split.
  { intros l Hk. rewrite L2 by lia. change (grids_of _ l) with (grids_of r2 l) at 1. destruct (O l) as (O1 & O2); [lia|]. split; [assumption|].
    unfold grids_of in *. cbn. rewrite BM. assumption. }
  intros j g Hj. destruct (P j g Hj) as (P1 & P2 & P3). assert (Hjl := nth_error_lt _ _ _ Hj).
  rewrite G2. split; [assumption|]. rewrite L2 by lia. split; [assumption|].
  intro K. destruct (P3 K) as (rr & R1 & R2 & R3 & R4). exists rr. split; [assumption|]. split; [|split; [assumption|assumption]].
  intros l Hk. destruct (R2 l Hk) as (X1 & X2). rewrite L2 by lia. rewrite G2. auto.
Qed.

Lemma regrid_wf r fill lbase grids : wf r -> (lbase < m_nlev (r_mesh r))%nat -> wf (regrid r fill lbase grids).
Proof.
  intros W Hl. assert (C := wf_core r W).
  destruct (regrid_spec r fill lbase grids Hl C) as (E1 & E2 & E3 & E4 & E5 & E6 & E7 & E8).
  set (r' := regrid r fill lbase grids) in *.
  assert (IO : forall f, info_of r' f = info_of r f) by (intro; unfold info_of; rewrite E1; reflexivity).
  constructor; [|intros k i; rewrite E1; apply (wf_all r W)].
  constructor.
  - intros n fid. rewrite E2, E3. apply (w_map r C).
  - intros fid f. rewrite E1, E2. apply (w_field r C).
  - intros k i s fid. rewrite E1, E2. apply (w_states r C).
  - intros k i. rewrite E1. apply (w_valid r C).
  - intros k k' i i'. rewrite E1. apply (w_unique r C).
  - intros lev Hlev. rewrite E4 in Hlev.
    assert (Keep : (lev < m_nlev (r_mesh r))%nat -> r_levels r' lev = r_levels r lev -> grids_of r' lev = grids_of r lev ->
             exists l, r_levels r' lev = Some l /\ Forall2 (fun f x => laid_out (r_mesh r') lev (info_of r' f) x) (r_fields r') l).
    { intros H1 H2 H3. destruct (w_data r C lev H1) as (l & L1 & L2). exists l. split; [congruence|]. rewrite E2.
      refine (Forall2_in_impl _ _ _ _ L2 _). intros f x _ Hx. rewrite IO. unfold laid_out in *. assert (B1 := f_equal fst H3). assert (B2 := f_equal snd H3). cbn [fst snd grids_of] in B1, B2. rewrite B1, B2. assumption. }
    destruct (Nat.le_gt_cases lev lbase) as [H|H].
    + destruct (E7 lev H) as (A1 & A2). apply Keep; [lia|assumption|assumption].
    + assert (exists j g, lev = (S lbase + j)%nat /\ nth_error grids j = Some g) as (j & g & -> & Hg).
      { destruct (nth_error grids (lev - S lbase)) as [g|] eqn:En; [|apply nth_error_None in En; lia].
        exists (lev - S lbase)%nat, g. split; [lia|assumption]. }
      destruct (E8 j g Hg) as (P1 & P2 & P3). destruct (keeps r (S lbase + j) g) eqn:K.
      * assert (K2 := K). unfold keeps in K2. apply andb_true_iff in K2. destruct K2 as [K2 K3]. apply andb_true_iff in K2. destruct K2 as [K1 K2].
        apply Nat.ltb_lt in K1. apply Nat.eqb_eq in K2, K3. apply Keep; [assumption|auto|]. rewrite P1. unfold grids_of. destruct g; cbn in *; congruence.
      * destruct (P3 eq_refl) as (rr & R1 & R2 & R3 & R4). eexists. split; [exact R4|]. rewrite E2.
        destruct (fill_level_spec rr fill (S lbase + j) (r_fields r) 0 (allocate_level r (fst g) (snd g))) as (F1 & F2).
        { unfold allocate_level. apply map_length. }
        apply Forall2_nth; [symmetry; assumption|]. intros q f x Hf Hx.
        rewrite (F2 q f (new_mfab (fst g) (snd g) (info_of r f)) Hf) in Hx.
        -- injection Hx as <-. rewrite IO. unfold laid_out. unfold grids_of in P1. rewrite <- P1. destruct (f_regrid f); reflexivity.
        -- apply (map_nth_error (fun f => new_mfab (fst g) (snd g) (info_of r f)) q (r_fields r) Hf).
  - intros lev Hlev. rewrite E4 in Hlev. apply E6. assumption.
  - rewrite E5. discriminate.
Qed.
