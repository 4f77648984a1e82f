(** Invariant of the repository. *)
From Coq Require Import String.
From Verif Require Import BaseFacts FieldRepo FieldRepoSpec AveragingProofs2.
Local Open Scope string_scope.
Local Open Scope list_scope.
Local Open Scope Q_scope.

(** *** Lists and updates *)
Lemma lupd_length {A} (l : list A) i v : length (lupd l i v) = length l.
Proof. revert i; induction l; destruct i; simpl; auto. Qed.
Lemma lupd_same {A} (l : list A) i v : (i < length l)%nat -> nth_error (lupd l i v) i = Some v.
Proof. revert i; induction l; destruct i; simpl; intro H; try lia; auto. apply IHl. lia. Qed.
Lemma lupd_other {A} (l : list A) i j v : i <> j -> nth_error (lupd l i v) j = nth_error l j.
Proof. revert i j; induction l; destruct i, j; simpl; intro H; try congruence; auto. Qed.
Lemma nth_error_lt {A} (l : list A) i x : nth_error l i = Some x -> (i < length l)%nat.
Proof. intro H. apply nth_error_Some. congruence. Qed.
Lemma nth_error_app_old {A} (l : list A) y i x : nth_error l i = Some x -> nth_error (l ++ [y]) i = Some x.
Proof. intro H. rewrite nth_error_app1; [assumption|eapply nth_error_lt; eauto]. Qed.
Lemma nth_error_snoc {A} (l : list A) y i x : nth_error (l ++ [y]) i = Some x ->
  nth_error l i = Some x \/ (i = length l /\ x = y).
Proof.
  intro H. destruct (Nat.lt_ge_cases i (length l)).
  - rewrite nth_error_app1 in H by assumption. auto.
  - right. rewrite nth_error_app2 in H by assumption.
    destruct (i - length l)%nat eqn:E; simpl in H; [|destruct n; discriminate].
    split; [lia|congruence].
Qed.
Lemma nth_error_end {A} (l : list A) y : nth_error (l ++ [y]) (length l) = Some y.
Proof. rewrite nth_error_app2, Nat.sub_diag by lia. reflexivity. Qed.

Lemma fstate_eqb_spec a b : reflect (a = b) (fstate_eqb a b).
Proof. destruct a, b; simpl; constructor; congruence. Qed.
Lemma floc_eqb_spec a b : reflect (a = b) (floc_eqb a b).
Proof. destruct a, b; simpl; constructor; congruence. Qed.

(** *** Names *)
Lemma substring_append b c n : (n <= String.length c)%nat ->
  substring (String.length b) n (b ++ c)%string = substring 0 n c.
Proof. intro H. induction b; simpl; [reflexivity|exact IHb]. Qed.

Lemma valid_no_suffix b c : substring 0 5 c = "__FS_" -> is_valid_field_name (b ++ c)%string = false.
Proof.
  intro H. unfold is_valid_field_name. destruct (index 0 "__FS_" (b ++ c)) eqn:E; [reflexivity|].
  exfalso. assert (L : (5 <= String.length c)%nat).
  { do 5 (destruct c as [|? c]; [simpl in H; discriminate|]). simpl. lia. }
  apply (index_correct3 _ (String.length b) _ _) in E; [|discriminate|lia].
  apply E. change (String.length "__FS_") with 5%nat. rewrite substring_append by assumption. assumption.
Qed.

Lemma append_inj_len a b c d : String.length c = String.length d -> (a ++ c = b ++ d)%string -> a = b /\ c = d.
Proof.
  revert b; induction a as [|x a IH]; destruct b as [|y b]; simpl; intros L H.
  - auto.
  - exfalso. apply (f_equal String.length) in H. simpl in H. rewrite append_length in H. lia.
  - exfalso. apply (f_equal String.length) in H. simpl in H. rewrite append_length in H. lia.
  - injection H as -> H. destruct (IH b L H). subst. auto.
Qed.

Lemma state_name_inj a b s t : is_valid_field_name a = true -> is_valid_field_name b = true ->
  field_name_with_state a s = field_name_with_state b t -> a = b /\ s = t.
Proof.
  intros Ha Hb H.
  destruct s, t; simpl in H;
    try (rewrite H in Ha; rewrite valid_no_suffix in Ha by reflexivity; discriminate);
    try (rewrite <- H in Hb; rewrite valid_no_suffix in Hb by reflexivity; discriminate);
    try (apply append_inj_len in H; [|reflexivity]; destruct H as [H1 H2]; try discriminate H2);
    auto.
Qed.

(** *** The invariant *)
Definition laid_out (m : mesh) (lev : nat) (i : finfo) (x : mfab) : Prop :=
  layout x = (m_ba m lev, m_dm m lev, i_loc i, i_ncomp i, i_ngrow i).

Record core (r : repo) : Prop := {
  w_map : forall n fid, r_map r n = Some fid <-> exists f, nth_error (r_fields r) fid = Some f /\ f_name f = n;
  w_field : forall fid f, nth_error (r_fields r) fid = Some f ->
     exists i, nth_error (r_infos r) (f_info f) = Some i
       /\ f_name f = field_name_with_state (i_name i) (f_state f) /\ i_states i (f_state f) = Some fid;
  w_states : forall k i s fid, nth_error (r_infos r) k = Some i -> i_states i s = Some fid ->
     exists f, nth_error (r_fields r) fid = Some f /\ f_info f = k /\ f_state f = s;
  w_valid : forall k i, nth_error (r_infos r) k = Some i -> is_valid_field_name (i_name i) = true;
  w_unique : forall k k' i i', nth_error (r_infos r) k = Some i -> nth_error (r_infos r) k' = Some i' ->
     i_name i = i_name i' -> k = k';
  w_data : forall lev, (lev < m_nlev (r_mesh r))%nat -> exists l, r_levels r lev = Some l
     /\ Forall2 (fun f x => laid_out (r_mesh r) lev (info_of r f) x) (r_fields r) l;
  w_none : forall lev, (m_nlev (r_mesh r) <= lev)%nat -> r_levels r lev = None;
  w_init : r_init r = false -> m_nlev (r_mesh r) = 0%nat }.

Definition complete (i : finfo) : Prop :=
  (1 <= i_nstates i <= 3)%Z /\ forall j, (j < Z.to_nat (i_nstates i))%nat -> i_states i (fstate_of j) <> None.
Record wf (r : repo) : Prop := {
  wf_core : core r;
  wf_all : forall k i, nth_error (r_infos r) k = Some i -> complete i }.

Lemma info_of_nth r f i : nth_error (r_infos r) (f_info f) = Some i -> info_of r f = i.
Proof. intro H. unfold info_of. apply nth_error_nth. assumption. Qed.

Lemma empty_wf : wf empty_repo.
Proof.
  constructor; [constructor|]; simpl.
  - intros n fid. split; [discriminate|]. intros (f & H & _). destruct fid; discriminate.
  - intros fid f H. destruct fid; discriminate.
  - intros k i s fid H. destruct k; discriminate.
  - intros k i H. destruct k; discriminate.
  - intros k k' i i' H. destruct k; discriminate.
  - intros lev H. lia.
  - reflexivity.
  - reflexivity.
  - intros k i H. destruct k; discriminate.
Qed.

(** *** Adding one field *)
Lemma allocate_on_spec m i : forall n lv,
  (forall lev, (lev < n)%nat -> lv lev <> None) ->
  exists lv', allocate_on n m i lv = Ret lv'
    /\ (forall lev, (n <= lev)%nat -> lv' lev = lv lev)
    /\ (forall lev l, (lev < n)%nat -> lv lev = Some l ->
          lv' lev = Some (l ++ [new_mfab (m_ba m lev) (m_dm m lev) i])).
Proof.
  induction n as [|n IH]; intros lv H; simpl.
  - exists lv. split; [reflexivity|]. split; [auto|]. intros; lia.
  - destruct (IH lv) as (lv' & E1 & E2 & E3); [intros; apply H; lia|].
    rewrite E1. cbn [obind]. rewrite (E2 n) by lia.
    destruct (lv n) as [l|] eqn:E; [|exfalso; apply (H n); [lia|assumption]].
    eexists. split; [reflexivity|]. split.
    + intros lev Hl. unfold fupd. destruct (Nat.eqb_spec lev n); [lia|]. apply E2. lia.
    + intros lev l' Hl El. unfold fupd. destruct (Nat.eqb_spec lev n).
      * subst. rewrite E in El. injection El as <-. reflexivity.
      * apply E3; [lia|assumption].
Qed.

Lemma Forall2_snoc {A B} (P : A -> B -> Prop) l1 l2 a b : Forall2 P l1 l2 -> P a b -> Forall2 P (l1 ++ [a]) (l2 ++ [b]).
Proof. intros H1 H2. apply Forall2_app; [assumption|]. constructor; [assumption|constructor]. Qed.

Lemma Forall2_in_impl {A B} (P Q : A -> B -> Prop) l1 l2 :
  Forall2 P l1 l2 -> (forall a b, In a l1 -> P a b -> Q a b) -> Forall2 Q l1 l2.
Proof.
  induction 1; intro H1; constructor; [apply H1; [left; reflexivity|assumption]|].
  apply IHForall2. intros a b Ha. apply H1. right. assumption.
Qed.

Definition same_shape (i i' : finfo) : Prop :=
  i_name i' = i_name i /\ i_ncomp i' = i_ncomp i /\ i_ngrow i' = i_ngrow i
  /\ i_nstates i' = i_nstates i /\ i_loc i' = i_loc i.

Lemma add_field_spec r k s i : core r -> nth_error (r_infos r) k = Some i -> i_states i s = None ->
  exists r', add_field r k s = Ret r' /\ core r'
    /\ r_mesh r' = r_mesh r /\ r_init r' = r_init r
    /\ r_fields r' = r_fields r ++ [{| f_name := field_name_with_state (i_name i) s; f_info := k; f_state := s; f_regrid := false; f_mapped := false |}]
    /\ (forall k', k' <> k -> nth_error (r_infos r') k' = nth_error (r_infos r) k')
    /\ (exists i', nth_error (r_infos r') k = Some i' /\ same_shape i i' /\ i_states i' = stupd (i_states i) s (Some (length (r_fields r))))
    /\ (forall n, r_map r' n = supd (r_map r) (field_name_with_state (i_name i) s) (Some (length (r_fields r))) n)
    /\ r_map r (field_name_with_state (i_name i) s) = None
    /\ (forall lev l, r_levels r lev = Some l -> exists x, r_levels r' lev = Some (l ++ [x])
          /\ ((lev < m_nlev (r_mesh r))%nat -> mf_val x = zero)).
Proof.
  intros C Hk Hs.
  assert (En : nth k (r_infos r) dummy_info = i) by (apply nth_error_nth; assumption).
  unfold add_field. rewrite En.
  set (fname := field_name_with_state (i_name i) s).
  assert (Fresh : r_map r fname = None).
  { destruct (r_map r fname) as [fid|] eqn:E; [|reflexivity]. exfalso.
    apply (w_map r C) in E. destruct E as (f & E1 & E2).
    destruct (w_field r C _ _ E1) as (i' & A1 & A2 & A3).
    rewrite A2 in E2. apply state_name_inj in E2.
    - destruct E2 as [E2 E3]. assert (f_info f = k) by (eapply (w_unique r C); eauto). subst k.
      rewrite Hk in A1. injection A1 as <-. congruence.
    - eapply (w_valid r C); eauto.
    - eapply (w_valid r C); eauto. }
  assert (AL : exists lv, (if r_init r then allocate_on (m_nlev (r_mesh r)) (r_mesh r) i (r_levels r) else Ret (r_levels r)) = Ret lv
     /\ (forall lev, (m_nlev (r_mesh r) <= lev)%nat -> lv lev = None)
     /\ (forall lev l, (lev < m_nlev (r_mesh r))%nat -> r_levels r lev = Some l ->
           lv lev = Some (l ++ [new_mfab (m_ba (r_mesh r) lev) (m_dm (r_mesh r) lev) i]))).
  { destruct (r_init r) eqn:Ei.
    - destruct (allocate_on_spec (r_mesh r) i (m_nlev (r_mesh r)) (r_levels r)) as (lv & E1 & E2 & E3).
      { intros lev Hl. destruct (w_data r C lev Hl) as (l & -> & _). discriminate. }
      exists lv. split; [assumption|]. split; [|assumption].
      intros lev Hl. rewrite E2 by assumption. apply (w_none r C). assumption.
    - assert (Z := w_init r C Ei). exists (r_levels r). split; [reflexivity|]. split; [intros; apply (w_none r C); assumption|].
      intros; lia. }
  destruct AL as (lv & -> & AL1 & AL2). cbn [obind].
  set (i2 := {| i_name := i_name i; i_ncomp := i_ncomp i; i_ngrow := i_ngrow i; i_nstates := i_nstates i; i_loc := i_loc i;
                i_states := stupd (i_states i) s (Some (length (r_fields r))) |}).
  set (f2 := {| f_name := fname; f_info := k; f_state := s; f_regrid := false; f_mapped := false |}).
  assert (Kl : (k < length (r_infos r))%nat) by (eapply nth_error_lt; eauto).
  assert (I2 : nth_error (lupd (r_infos r) k i2) k = Some i2) by (apply lupd_same; assumption).
  assert (IO : forall k', k' <> k -> nth_error (lupd (r_infos r) k i2) k' = nth_error (r_infos r) k') by (intros; apply lupd_other; congruence).
  (* info of old and new fields *)
  set (r' := {| r_mesh := r_mesh r; r_infos := lupd (r_infos r) k i2; r_fields := r_fields r ++ [f2];
                r_map := supd (r_map r) fname (Some (length (r_fields r))); r_levels := lv; r_init := r_init r |}).
  assert (SH : forall k' j, nth_error (r_infos r) k' = Some j ->
             exists j', nth_error (lupd (r_infos r) k i2) k' = Some j' /\ same_shape j j'
               /\ (forall t g, i_states j t = Some g -> i_states j' t = Some g)).
  { intros k' j Hj. destruct (Nat.eq_dec k' k).
    - subst k'. rewrite Hk in Hj. injection Hj as <-. exists i2. split; [assumption|]. split; [repeat split|].
      intros t g Ht. cbn. unfold stupd. destruct (fstate_eqb_spec t s); [congruence|assumption].
    - rewrite IO by assumption. exists j. split; [assumption|]. split; [repeat split|auto]. }
  exists r'. split; [reflexivity|].
  assert (LV : forall f x lev, In f (r_fields r) -> laid_out (r_mesh r) lev (info_of r f) x -> laid_out (r_mesh r') lev (info_of r' f) x).
  { intros f x lev Hf Hx. apply In_nth_error in Hf. destruct Hf as (fid & Hf).
    destruct (w_field r C _ _ Hf) as (j & J1 & _). destruct (SH _ _ J1) as (j' & J2 & (_ & S1 & S2 & _ & S3) & _).
    rewrite (info_of_nth r f j J1) in Hx. unfold laid_out in *. rewrite (info_of_nth r' f j' J2), S1, S2, S3. assumption. }
  split.
  { constructor.
    - intros n fid. cbn. unfold supd. destruct (String.eqb_spec n fname).
      + subst n. split.
        * intros [= <-]. exists f2. split; [apply nth_error_end|reflexivity].
        * intros (f & Hf & En2). apply nth_error_snoc in Hf. destruct Hf as [Hf|[-> ->]]; [|reflexivity].
          exfalso. assert (X : r_map r fname = Some fid) by (apply (w_map r C); eauto). congruence.
      + rewrite (w_map r C). split.
        * intros (f & Hf & En2). exists f. split; [apply nth_error_app_old; assumption|assumption].
        * intros (f & Hf & En2). apply nth_error_snoc in Hf. destruct Hf as [Hf|[-> ->]]; [eauto|]. cbn in En2. congruence.
    - intros fid f Hf. cbn in Hf |- *. apply nth_error_snoc in Hf. destruct Hf as [Hf|[-> ->]].
      + destruct (w_field r C _ _ Hf) as (j & J1 & J2 & J3). destruct (SH _ _ J1) as (j' & K1 & (K2 & _) & K3).
        exists j'. split; [assumption|]. split; [rewrite K2; assumption|]. apply K3. assumption.
      + exists i2. split; [assumption|]. split; [reflexivity|]. cbn. unfold stupd.
        destruct (fstate_eqb_spec s s); [reflexivity|congruence].
    - intros k' j t fid Hj Ht. cbn in Hj |- *. destruct (Nat.eq_dec k' k).
      + subst k'. rewrite I2 in Hj. injection Hj as <-. cbn in Ht. unfold stupd in Ht.
        destruct (fstate_eqb_spec t s).
        * injection Ht as <-. exists f2. split; [apply nth_error_end|]. split; [reflexivity|]. subst; reflexivity.
        * destruct (w_states r C _ _ _ _ Hk Ht) as (f & F1 & F2). exists f. split; [apply nth_error_app_old; assumption|assumption].
      + rewrite IO in Hj by assumption. destruct (w_states r C _ _ _ _ Hj Ht) as (f & F1 & F2).
        exists f. split; [apply nth_error_app_old; assumption|assumption].
    - intros k' j Hj. cbn in Hj. destruct (Nat.eq_dec k' k).
      + subst k'. rewrite I2 in Hj. injection Hj as <-. cbn. eapply (w_valid r C); eauto.
      + rewrite IO in Hj by assumption. eapply (w_valid r C); eauto.
    - intros k1 k2 j1 j2 H1 H2 E. cbn in H1, H2.
      assert (X : forall k' j, nth_error (lupd (r_infos r) k i2) k' = Some j -> exists j0, nth_error (r_infos r) k' = Some j0 /\ i_name j0 = i_name j).
      { intros k' j Hj. destruct (Nat.eq_dec k' k); [subst; rewrite I2 in Hj; injection Hj as <-; eauto|].
        rewrite IO in Hj by assumption. eauto. }
      destruct (X _ _ H1) as (x1 & X1 & Y1). destruct (X _ _ H2) as (x2 & X2 & Y2).
      eapply (w_unique r C); eauto. congruence.
    - intros lev Hl. cbn in Hl. destruct (w_data r C lev Hl) as (l & L1 & L2).
      exists (l ++ [new_mfab (m_ba (r_mesh r) lev) (m_dm (r_mesh r) lev) i]).
      split; [apply AL2; assumption|]. cbn [r_fields r'].
      apply Forall2_snoc.
      + refine (Forall2_in_impl _ _ _ _ L2 _). intros f x Hf Hx. apply LV; assumption.
      + unfold laid_out. rewrite (info_of_nth r' f2 i2 I2). reflexivity.
    - intros lev Hl. cbn in Hl |- *. apply AL1. assumption.
    - intro Hi. cbn in Hi |- *. apply (w_init r C). assumption. }
  split; [reflexivity|]. split; [reflexivity|]. split; [reflexivity|].
  split; [assumption|].
  split. { exists i2. split; [assumption|]. split; [repeat split|reflexivity]. }
  split; [reflexivity|]. split; [exact Fresh|].
  intros lev l Hl. destruct (Nat.lt_ge_cases lev (m_nlev (r_mesh r))).
  - eexists. split; [apply AL2; assumption|]. reflexivity.
  - exfalso. rewrite (w_none r C) in Hl by assumption. discriminate.
Qed.
