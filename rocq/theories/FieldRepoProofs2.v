(** Every operation keeps the invariant; what each does to the values. *)
From Coq Require Import String.
From Verif Require Import BaseFacts FieldRepo FieldRepoSpec FieldRepoProofs.
Local Open Scope string_scope.
Local Open Scope list_scope.
Local Open Scope Q_scope.

Definition val (r : repo) (g lev : nat) : option data :=
  match get_multifab r g lev with Ret m => Some (mf_val m) | _ => None end.

(** *** Changes that keep the structure *)
Definition key (f : field) := (f_name f, f_info f, f_state f).
Record sim (r r' : repo) : Prop := {
  s_mesh : r_mesh r' = r_mesh r;
  s_infos : r_infos r' = r_infos r;
  s_map : r_map r' = r_map r;
  s_init : r_init r' = r_init r;
  s_fields : map key (r_fields r') = map key (r_fields r);
  s_levels : forall lev, option_map (map layout) (r_levels r' lev) = option_map (map layout) (r_levels r lev) }.

Lemma sim_refl r : sim r r.
Proof. constructor; reflexivity. Qed.
Lemma sim_trans a b c : sim a b -> sim b c -> sim a c.
Proof. intros [] []. constructor; intros; congruence. Qed.
Lemma sim_sym a b : sim a b -> sim b a.
Proof. intros []. constructor; intros; congruence. Qed.

Lemma sim_length r r' : sim r r' -> length (r_fields r') = length (r_fields r).
Proof. intros S. rewrite <- (map_length key (r_fields r')), (s_fields _ _ S), map_length. reflexivity. Qed.
Lemma sim_nth r r' fid f : sim r r' -> nth_error (r_fields r) fid = Some f ->
  exists f', nth_error (r_fields r') fid = Some f' /\ f_name f' = f_name f /\ f_info f' = f_info f /\ f_state f' = f_state f.
Proof.
  intros S H. assert (E : nth_error (map key (r_fields r')) fid = Some (key f)).
  { rewrite (s_fields _ _ S). apply map_nth_error. assumption. }
  destruct (nth_error (r_fields r') fid) as [f'|] eqn:E'.
  - rewrite (map_nth_error key _ _ E') in E. injection E as E1 E2 E3. eauto.
  - apply nth_error_None in E'. assert (X := nth_error_lt _ _ _ E). rewrite map_length in X. lia.
Qed.
Lemma sim_info r r' f f' : sim r r' -> f_info f' = f_info f -> info_of r' f' = info_of r f.
Proof. intros S E. unfold info_of. rewrite E, (s_infos _ _ S). reflexivity. Qed.

Lemma sim_core r r' : core r -> sim r r' -> core r'.
Proof.
  intros C S. assert (S' := sim_sym _ _ S). constructor.
  - intros n fid. rewrite (s_map _ _ S), (w_map r C). split; intros (f & H & E).
    + destruct (sim_nth _ _ _ _ S H) as (f' & H1 & H2 & _). exists f'. split; congruence.
    + destruct (sim_nth _ _ _ _ S' H) as (f' & H1 & H2 & _). exists f'. split; congruence.
  - intros fid f H. destruct (sim_nth _ _ _ _ S' H) as (f' & H1 & H2 & H3 & H4).
    destruct (w_field r C _ _ H1) as (i & A1 & A2 & A3). exists i. rewrite (s_infos _ _ S). rewrite <- H3, <- H2, <- H4. auto.
  - intros k i s fid Hk Hs. rewrite (s_infos _ _ S) in Hk. destruct (w_states r C _ _ _ _ Hk Hs) as (f & F1 & F2 & F3).
    destruct (sim_nth _ _ _ _ S F1) as (f' & H1 & H2 & H3 & H4). exists f'. split; [assumption|]. split; congruence.
  - intros k i. rewrite (s_infos _ _ S). apply (w_valid r C).
  - intros k k' i i'. rewrite (s_infos _ _ S). apply (w_unique r C).
  - intros lev. rewrite (s_mesh _ _ S). intro Hl. destruct (w_data r C lev Hl) as (l & L1 & L2).
    assert (E := s_levels _ _ S lev). rewrite L1 in E. cbn in E.
    destruct (r_levels r' lev) as [l'|]; [|discriminate]. exists l'. split; [reflexivity|]. injection E as E.
    assert (F := s_fields _ _ S). clear - L2 E F S. revert l' E F. generalize (r_fields r').
    induction L2 as [|f x fs xs H1 H2 IH]; intros fs' l' E F.
    + destruct fs'; [|discriminate]. destruct l'; [|discriminate]. constructor.
    + destruct fs' as [|f' fs']; [discriminate|]. destruct l' as [|x' l']; [discriminate|]. cbn in E, F.
      injection E as E1 E2 E3 E4 E5 E6. injection F as F1 F2 F3 F4. constructor.
      * unfold laid_out in *. rewrite (sim_info r r' f f' S F2). unfold layout in *. congruence.
      * apply IH; assumption.
  - intros lev Hl. rewrite (s_mesh _ _ S) in Hl. assert (E := s_levels _ _ S lev). rewrite (w_none r C lev Hl) in E. cbn in E.
    destruct (r_levels r' lev); [discriminate|reflexivity].
  - rewrite (s_init _ _ S), (s_mesh _ _ S). apply (w_init r C).
Qed.
Lemma sim_wf r r' : wf r -> sim r r' -> wf r'.
Proof.
  intros W S. constructor; [eapply sim_core; [apply W|assumption]|].
  intros k i. rewrite (s_infos _ _ S). apply (wf_all r W).
Qed.

(** *** Accessing data *)
Lemma core_val r fid lev : core r -> (fid < length (r_fields r))%nat -> (lev < m_nlev (r_mesh r))%nat ->
  exists f l m, nth_error (r_fields r) fid = Some f /\ r_levels r lev = Some l /\ nth_error l fid = Some m
    /\ laid_out (r_mesh r) lev (info_of r f) m.
Proof.
  intros C Hf Hl. destruct (w_data r C lev Hl) as (l & L1 & L2).
  destruct (nth_error (r_fields r) fid) as [f|] eqn:Ef; [|apply nth_error_None in Ef; lia].
  exists f, l. revert Ef. rewrite L1. clear - L2. revert fid. induction L2 as [|f' x fs xs H1 H2 IH]; intros fid E.
  - destruct fid; discriminate.
  - destruct fid; cbn in E.
    + injection E as <-. exists x. auto.
    + destruct (IH _ E) as (m & _ & _ & A). exists m. split; [reflexivity|]. split; [reflexivity|exact A].
Qed.
Lemma get_ok r fid lev : core r -> (fid < length (r_fields r))%nat -> (lev < m_nlev (r_mesh r))%nat ->
  exists m, get_multifab r fid lev = Ret m.
Proof.
  intros C Hf Hl. destruct (core_val r fid lev C Hf Hl) as (f & l & m & A1 & A2 & A3 & _).
  exists m. unfold get_multifab. rewrite A2, A3. reflexivity.
Qed.
Lemma val_ok r fid lev : core r -> (fid < length (r_fields r))%nat -> (lev < m_nlev (r_mesh r))%nat -> exists v, val r fid lev = Some v.
Proof. intros. destruct (get_ok r fid lev) as (m & E); auto. unfold val. rewrite E. eauto. Qed.

Lemma get_multifab_sim r r' fid lev m : sim r r' -> get_multifab r fid lev = Ret m ->
  exists m', get_multifab r' fid lev = Ret m' /\ layout m' = layout m.
Proof.
  intros S H. unfold get_multifab in *. assert (E := s_levels _ _ S lev).
  destruct (r_levels r lev) as [l|]; [|discriminate]. destruct (r_levels r' lev) as [l'|]; [|discriminate].
  cbn in E. injection E as E. destruct (nth_error l fid) as [x|] eqn:Ex; [|discriminate]. injection H as ->.
  assert (X := map_nth_error layout _ _ Ex). rewrite <- E in X.
  destruct (nth_error l' fid) as [x'|] eqn:Ex'.
  - exists x'. split; [reflexivity|]. rewrite (map_nth_error layout _ _ Ex') in X. congruence.
  - exfalso. apply nth_error_None in Ex'. apply nth_error_lt in X. rewrite map_length in X. lia.
Qed.

Lemma put_val_spec r fid lev v m : get_multifab r fid lev = Ret m ->
  exists r', put_val r fid lev v = Ret r' /\ sim r r' /\ r_fields r' = r_fields r
    /\ forall g l, val r' g l = if Nat.eqb g fid && Nat.eqb l lev then Some v else val r g l.
Proof.
  unfold get_multifab, put_val. destruct (r_levels r lev) as [l|] eqn:El; [|discriminate].
  destruct (nth_error l fid) as [m'|] eqn:Em; [|discriminate]. intros [= ->].
  eexists. split; [reflexivity|]. split.
  - constructor; try reflexivity. intro lev'. cbn. unfold fupd. destruct (Nat.eqb_spec lev' lev); [|reflexivity].
    subst. rewrite El. cbn. f_equal. clear El. revert fid Em. induction l as [|x l IH]; intros fid Em; [reflexivity|].
    destruct fid; cbn in *; [injection Em as ->; reflexivity|]. f_equal. apply IH. assumption.
  - split; [reflexivity|]. intros g lev'. unfold val, get_multifab. cbn. unfold fupd. destruct (Nat.eqb_spec lev' lev).
    + subst. rewrite El. destruct (Nat.eqb_spec g fid).
      * subst. rewrite lupd_same by (eapply nth_error_lt; eauto). reflexivity.
      * rewrite lupd_other by congruence. reflexivity.
    + rewrite andb_false_r. reflexivity.
Qed.

Lemma copy_levels_spec : forall n r dst src, core r -> (dst < length (r_fields r))%nat -> (src < length (r_fields r))%nat ->
  (n <= m_nlev (r_mesh r))%nat ->
  exists r', copy_levels n r dst src = Ret r' /\ sim r r' /\ r_fields r' = r_fields r
    /\ forall g lev, val r' g lev = if Nat.eqb g dst && Nat.ltb lev n then val r src lev else val r g lev.
Proof.
  induction n as [|n IH]; intros r dst src C Hd Hs Hn.
  - exists r. split; [reflexivity|]. split; [apply sim_refl|]. split; [reflexivity|].
    intros. rewrite andb_false_r. reflexivity.
  - destruct (IH r dst src C Hd Hs) as (r1 & E1 & S1 & F1 & V1); [lia|]. cbn [copy_levels]. rewrite E1. cbn [obind].
    assert (C1 := sim_core _ _ C S1).
    destruct (get_ok r1 src n) as (ms & Ms); [assumption|rewrite F1; assumption|rewrite (s_mesh _ _ S1); lia|].
    destruct (get_ok r1 dst n) as (md & Md); [assumption|rewrite F1; assumption|rewrite (s_mesh _ _ S1); lia|].
    rewrite Ms. cbn [obind].
    destruct (put_val_spec r1 dst n (mf_val ms) md Md) as (r2 & E2 & S2 & F2 & V2).
    exists r2. split; [assumption|]. split; [eapply sim_trans; eauto|]. split; [congruence|].
    intros g lev. rewrite V2, V1. destruct (Nat.eqb_spec g dst); cbn [andb]; [|reflexivity].
    subst g. destruct (Nat.eqb_spec lev n).
    + subst lev. destruct (Nat.ltb_spec n (S n)); [|lia].
      assert (X : val r1 src n = Some (mf_val ms)) by (unfold val; rewrite Ms; reflexivity).
      rewrite V1 in X. rewrite Nat.ltb_irrefl, andb_false_r in X. symmetry. exact X.
    + destruct (Nat.ltb_spec lev n); destruct (Nat.ltb_spec lev (S n)); try lia; reflexivity.
Qed.

(** *** States *)
Lemma state_lt r k i s g : core r -> nth_error (r_infos r) k = Some i -> i_states i s = Some g -> (g < length (r_fields r))%nat.
Proof. intros C H1 H2. destruct (w_states r C _ _ _ _ H1 H2) as (f & F & _). eapply nth_error_lt; eauto. Qed.
Lemma state_inj r k i s t g : core r -> nth_error (r_infos r) k = Some i -> i_states i s = Some g -> i_states i t = Some g -> s = t.
Proof.
  intros C H1 H2 H3. destruct (w_states r C _ _ _ _ H1 H2) as (f & F & _ & F2).
  destruct (w_states r C _ _ _ _ H1 H3) as (f' & F' & _ & F2'). congruence.
Qed.
Lemma state_of_info r fid f i s : nth_error (r_fields r) fid = Some f -> nth_error (r_infos r) (f_info f) = Some i ->
  state_of r fid s = match i_states i s with Some g => Ret g | None => UB end.
Proof. intros H1 H2. unfold state_of. rewrite H1, (info_of_nth r f i H2). reflexivity. Qed.

(** Source of the data of a state in a shift of a field with [n] states. *)
Definition shift_src (n : Z) (s : fstate) : fstate :=
  match s with
  | N => if Z.leb 2 n then NP1 else N
  | NM1 => if Z.leb 3 n then N else NM1
  | t => t
  end.
Definition src_of (i : finfo) (g : nat) (s : fstate) : nat :=
  match i_states i (shift_src (i_nstates i) s) with Some h => h | None => g end.

Lemma advance_field_spec r fid f i : wf r -> nth_error (r_fields r) fid = Some f -> nth_error (r_infos r) (f_info f) = Some i ->
  exists r', advance_field r fid = Ret r' /\ sim r r' /\ r_fields r' = r_fields r
   /\ (forall g lev, (forall s, i_states i s <> Some g) -> val r' g lev = val r g lev)
   /\ (forall s g lev, i_states i s = Some g -> (lev < m_nlev (r_mesh r))%nat -> val r' g lev = val r (src_of i g s) lev)
   /\ (forall g lev, (m_nlev (r_mesh r) <= lev)%nat -> val r' g lev = val r g lev).
Proof.
  intros W Hf Hi. assert (C := wf_core r W). destruct (wf_all r W _ _ Hi) as (Hn & Ha).
  unfold advance_field. rewrite Hf, (info_of_nth r f i Hi).
  assert (St : forall j, (j < Z.to_nat (i_nstates i))%nat -> exists g, i_states i (fstate_of j) = Some g).
  { intros j Hj. destruct (i_states i (fstate_of j)) eqn:E; [eauto|]. exfalso. eapply Ha; eauto. }
  destruct (Z.ltb_spec (i_nstates i) 2).
  - exists r. split; [reflexivity|]. split; [apply sim_refl|]. split; [reflexivity|]. split; [reflexivity|].
    split; [|reflexivity]. intros s g lev Hs _. unfold src_of, shift_src.
    assert (i_nstates i = 1%Z) as -> by lia. destruct s; cbn; rewrite ?Hs; reflexivity.
  - destruct (St 0%nat) as (g0 & G0); [lia|]. destruct (St 1%nat) as (g1 & G1); [lia|]. cbn in G0, G1.
    assert (L0 := state_lt _ _ _ _ _ C Hi G0). assert (L1 := state_lt _ _ _ _ _ C Hi G1).
    assert (D01 : g0 <> g1) by (intro; subst; discriminate (state_inj _ _ _ _ _ _ C Hi G0 G1)).
    destruct (Z.ltb_spec (i_nstates i) 3).
    + assert (E2 : i_nstates i = 2%Z) by lia. rewrite E2. change (Z.to_nat (2 - 1)) with 1%nat.
      cbn [shift_states]. rewrite !(state_of_info r fid f i _ Hf Hi). cbn [fstate_of]. rewrite G0, G1. cbn [obind].
      destruct (copy_levels_spec (m_nlev (r_mesh r)) r g1 g0 C L1 L0) as (r' & E & S & F & V); [lia|].
      rewrite E. cbn [obind]. exists r'. split; [reflexivity|]. split; [assumption|]. split; [assumption|].
      split; [|split].
      * intros g lev Hg. rewrite V. destruct (Nat.eqb_spec g g1); [|reflexivity]. subst. exfalso. apply (Hg N). assumption.
      * intros s g lev Hs Hl. rewrite V. destruct (Nat.ltb_spec lev (m_nlev (r_mesh r))); [|lia]. rewrite andb_true_r.
        unfold src_of, shift_src. rewrite E2. destruct (Nat.eqb_spec g g1).
        -- subst. assert (s = N) as -> by (eapply state_inj; eauto). cbn. rewrite G0. reflexivity.
        -- destruct s; cbn; rewrite ?Hs; try reflexivity. congruence.
      * intros g lev Hl. rewrite V. destruct (Nat.ltb_spec lev (m_nlev (r_mesh r))); [lia|]. rewrite andb_false_r. reflexivity.
    + assert (E3 : i_nstates i = 3%Z) by lia. rewrite E3. change (Z.to_nat (3 - 1)) with 2%nat.
      destruct (St 2%nat) as (g2 & G2); [lia|]. cbn in G2. assert (L2 := state_lt _ _ _ _ _ C Hi G2).
      assert (D02 : g0 <> g2) by (intro; subst; discriminate (state_inj _ _ _ _ _ _ C Hi G0 G2)).
      assert (D12 : g1 <> g2) by (intro; subst; discriminate (state_inj _ _ _ _ _ _ C Hi G1 G2)).
      cbn [shift_states]. rewrite !(state_of_info r fid f i _ Hf Hi). cbn [fstate_of]. rewrite G2, G1. cbn [obind].
      destruct (copy_levels_spec (m_nlev (r_mesh r)) r g2 g1 C L2 L1) as (r1 & E1 & S1 & F1 & V1); [lia|].
      rewrite E1. cbn [obind].
      assert (Hf1 : nth_error (r_fields r1) fid = Some f) by congruence.
      assert (Hi1 : nth_error (r_infos r1) (f_info f) = Some i) by (rewrite (s_infos _ _ S1); assumption).
      rewrite !(state_of_info r1 fid f i _ Hf1 Hi1). rewrite G0, G1. cbn [obind].
      destruct (copy_levels_spec (m_nlev (r_mesh r1)) r1 g1 g0) as (r' & E & S & F & V);
        [eapply sim_core; eauto|rewrite F1; assumption|rewrite F1; assumption|lia|].
      rewrite E. cbn [obind]. exists r'. split; [reflexivity|]. split; [eapply sim_trans; eauto|]. split; [congruence|].
      rewrite (s_mesh _ _ S1) in V.
      split; [|split].
      * intros g lev Hg. rewrite V. destruct (Nat.eqb_spec g g1); [subst; exfalso; apply (Hg N); assumption|]. cbn.
        rewrite V1. destruct (Nat.eqb_spec g g2); [subst; exfalso; apply (Hg NM1); assumption|]. reflexivity.
      * intros s g lev Hs Hl. rewrite V, !V1. destruct (Nat.ltb_spec lev (m_nlev (r_mesh r))); [|lia]. rewrite !andb_true_r.
        destruct (Nat.eqb_spec g0 g2); [congruence|].
        unfold src_of, shift_src. rewrite E3. destruct (Nat.eqb_spec g g1).
        -- subst. assert (s = N) as -> by (eapply state_inj; eauto). cbn. rewrite G0. reflexivity.
        -- destruct (Nat.eqb_spec g g2).
           ++ subst. assert (s = NM1) as -> by (eapply state_inj; eauto). cbn. rewrite G1. reflexivity.
           ++ destruct s; cbn; rewrite ?Hs; try reflexivity; congruence.
      * intros g lev Hl. rewrite V, !V1. destruct (Nat.ltb_spec lev (m_nlev (r_mesh r))); [lia|]. rewrite !andb_false_r. reflexivity.
Qed.

(** The shift of all fields; [lo]: fields before it are done. *)
Lemma advance_from_spec : forall l fid r, wf r -> skipn fid (r_fields r) = l ->
  exists r', advance_from l fid r = Ret r' /\ sim r r' /\ r_fields r' = r_fields r
   /\ (forall g f i p lev, nth_error (r_fields r) g = Some f -> nth_error (r_infos r) (f_info f) = Some i -> i_states i NP1 = Some p ->
         (lev < m_nlev (r_mesh r))%nat ->
         val r' g lev = if Nat.leb fid p then val r (src_of i g (f_state f)) lev else val r g lev)
   /\ (forall g lev, (m_nlev (r_mesh r) <= lev)%nat -> val r' g lev = val r g lev).
Proof.
  induction l as [|f0 l IH]; intros fid r W Hl.
  - exists r. split; [reflexivity|]. split; [apply sim_refl|]. split; [reflexivity|]. split; [|reflexivity].
    intros g f i p lev Hf Hi Hp _. assert (X := state_lt _ _ _ _ _ (wf_core r W) Hi Hp).
    assert (length (r_fields r) <= fid)%nat.
    { assert (Y := skipn_length fid (r_fields r)). rewrite Hl in Y. cbn in Y. lia. }
    destruct (Nat.leb_spec fid p); [lia|]. reflexivity.
  - assert (C := wf_core r W).
    assert (N0 : nth_error (r_fields r) fid = Some f0 /\ skipn (S fid) (r_fields r) = l).
    { clear - Hl. revert fid Hl. induction (r_fields r) as [|x xs IHx]; intros fid Hl.
      - destruct fid; discriminate.
      - destruct fid; cbn in *; [injection Hl as -> ->; auto|]. apply IHx. assumption. }
    destruct N0 as [N0 N1]. cbn [advance_from].
    destruct (w_field r C _ _ N0) as (i0 & I1 & I2 & I3).
    destruct (f_state f0) eqn:Es.
    + destruct (advance_field_spec r fid f0 i0 W N0 I1) as (r1 & E1 & S1 & F1 & V1 & V2 & V3). rewrite E1. cbn [obind].
      destruct (IH (S fid) r1) as (r' & E & SS & F & V & V'); [eapply sim_wf; eauto|rewrite F1; assumption|].
      rewrite E. exists r'. split; [reflexivity|]. split; [eapply sim_trans; eauto|]. split; [congruence|].
      rewrite F1, (s_infos _ _ S1), (s_mesh _ _ S1) in V. rewrite (s_mesh _ _ S1) in V'. split.
      * intros g f i p lev Hf Hi Hp Hl2. rewrite (V g f i p lev Hf Hi Hp Hl2).
        destruct (w_field r C _ _ Hf) as (ii & J1 & J2 & J3). rewrite Hi in J1. injection J1 as <-.
        destruct (Nat.eq_dec p fid) as [->|Hp2].
        -- destruct (w_states r C _ _ _ _ Hi Hp) as (f' & G1 & G2 & G3). rewrite N0 in G1. injection G1 as <-.
           rewrite G2, Hi in I1. injection I1 as <-.
           destruct (Nat.leb_spec (S fid) fid); [lia|]. destruct (Nat.leb_spec fid fid); [|lia].
           apply V2; assumption.
        -- assert (Dif : forall s h, i_states i s = Some h -> forall t, i_states i0 t <> Some h).
           { intros s h Hs t Ht. destruct (w_states r C _ _ _ _ Hi Hs) as (a & A1 & A2 & _).
             destruct (w_states r C _ _ _ _ I1 Ht) as (b & B1 & B2 & _). rewrite A1 in B1. injection B1 as <-.
             rewrite <- A2, B2, I1 in Hi. injection Hi as ->. congruence. }
           assert (Same : val r1 g lev = val r g lev) by (apply V1; eapply Dif; eauto).
           assert (Same2 : val r1 (src_of i g (f_state f)) lev = val r (src_of i g (f_state f)) lev).
           { unfold src_of. destruct (i_states i (shift_src (i_nstates i) (f_state f))) eqn:Ex; [|assumption].
             apply V1. eapply Dif; eauto. }
           destruct (Nat.leb_spec (S fid) p); destruct (Nat.leb_spec fid p); try lia; assumption.
      * intros g lev Hl2. rewrite V' by assumption. apply V3. assumption.
    + cbn [obind]. destruct (IH (S fid) r W N1) as (r' & E & SS & F & V & V'). rewrite E. exists r'.
      split; [reflexivity|]. split; [assumption|]. split; [assumption|]. split; [|assumption].
      intros g f i p lev Hf Hi Hp Hl2. rewrite (V g f i p lev Hf Hi Hp Hl2).
      assert (p <> fid). { intro; subst p. destruct (w_states r C _ _ _ _ Hi Hp) as (f' & G1 & G2 & G3). congruence. }
      destruct (Nat.leb_spec (S fid) p); destruct (Nat.leb_spec fid p); try lia; reflexivity.
    + cbn [obind]. destruct (IH (S fid) r W N1) as (r' & E & SS & F & V & V'). rewrite E. exists r'.
      split; [reflexivity|]. split; [assumption|]. split; [assumption|]. split; [|assumption].
      intros g f i p lev Hf Hi Hp Hl2. rewrite (V g f i p lev Hf Hi Hp Hl2).
      assert (p <> fid). { intro; subst p. destruct (w_states r C _ _ _ _ Hi Hp) as (f' & G1 & G2 & G3). congruence. }
      destruct (Nat.leb_spec (S fid) p); destruct (Nat.leb_spec fid p); try lia; reflexivity.
    + cbn [obind]. destruct (IH (S fid) r W N1) as (r' & E & SS & F & V & V'). rewrite E. exists r'.
      split; [reflexivity|]. split; [assumption|]. split; [assumption|]. split; [|assumption].
      intros g f i p lev Hf Hi Hp Hl2. rewrite (V g f i p lev Hf Hi Hp Hl2).
      assert (p <> fid). { intro; subst p. destruct (w_states r C _ _ _ _ Hi Hp) as (f' & G1 & G2 & G3). congruence. }
      destruct (Nat.leb_spec (S fid) p); destruct (Nat.leb_spec fid p); try lia; reflexivity.
    + cbn [obind]. destruct (IH (S fid) r W N1) as (r' & E & SS & F & V & V'). rewrite E. exists r'.
      split; [reflexivity|]. split; [assumption|]. split; [assumption|]. split; [|assumption].
      intros g f i p lev Hf Hi Hp Hl2. rewrite (V g f i p lev Hf Hi Hp Hl2).
      assert (p <> fid). { intro; subst p. destruct (w_states r C _ _ _ _ Hi Hp) as (f' & G1 & G2 & G3). congruence. }
      destruct (Nat.leb_spec (S fid) p); destruct (Nat.leb_spec fid p); try lia; reflexivity.
Qed.

Lemma advance_states_spec r : wf r ->
  exists r', advance_states r = Ret r' /\ sim r r' /\ r_fields r' = r_fields r
   /\ (forall g f i lev, nth_error (r_fields r) g = Some f -> nth_error (r_infos r) (f_info f) = Some i ->
         (lev < m_nlev (r_mesh r))%nat -> val r' g lev = val r (src_of i g (f_state f)) lev)
   /\ (forall g lev, (m_nlev (r_mesh r) <= lev)%nat -> val r' g lev = val r g lev).
Proof.
  intro W. destruct (advance_from_spec (r_fields r) 0 r W eq_refl) as (r' & E & SS & F & V & V').
  exists r'. split; [assumption|]. split; [assumption|]. split; [assumption|]. split; [|assumption].
  intros g f i lev Hf Hi Hl. destruct (wf_all r W _ _ Hi) as (Hn & Ha).
  destruct (i_states i NP1) as [p|] eqn:Ep; [|exfalso; apply (Ha 0%nat); [lia|assumption]].
  rewrite (V g f i p lev Hf Hi Ep Hl). reflexivity.
Qed.
