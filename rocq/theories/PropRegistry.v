(** C42: run-time registries.  C45: plot-file variables and data components. *)
From Coq Require Import String Ascii Arith DecimalString Decimal DecimalNat Bool List Lia Sorted Permutation.
From Verif Require Import Base Registry.
Import ListNotations.
Local Open Scope nat_scope.
Local Open Scope string_scope.
Local Open Scope list_scope.
Notation length := List.length.

Lemma eqb_case a b : (a = b /\ String.eqb a b = true) \/ (a <> b /\ String.eqb a b = false).
Proof. destruct (String.eqb_spec a b); [left|right]; split; auto. Qed.
Lemma eqb_neq a b : a <> b -> String.eqb a b = false.
Proof. apply String.eqb_neq. Qed.

(** *** Maps *)
Lemma adel_cons {V} (m : amap V) k q v : adel ((q, v) :: m) k = if String.eqb k q then adel m k else (q, v) :: adel m k.
Proof. unfold adel. cbn. destruct (String.eqb k q); reflexivity. Qed.
Lemma aget_cons {V} (m : amap V) k q v : aget ((q, v) :: m) k = if String.eqb k q then Some v else aget m k.
Proof. reflexivity. Qed.
Lemma aget_adel_same {V} (m : amap V) k : aget (adel m k) k = None.
Proof.
  induction m as [|(k', v) m IH]; [reflexivity|]. rewrite adel_cons. destruct (eqb_case k k') as [(-> & E)|(N & E)]; rewrite E; [exact IH|].
  rewrite aget_cons, E. exact IH.
Qed.
Lemma aget_adel_other {V} (m : amap V) k k' : k' <> k -> aget (adel m k) k' = aget m k'.
Proof.
  intros N. induction m as [|(q, v) m IH]; [reflexivity|]. rewrite adel_cons, aget_cons.
  destruct (eqb_case k q) as [(-> & E)|(M & E)]; rewrite E.
  - rewrite IH. rewrite eqb_neq by exact N. reflexivity.
  - rewrite aget_cons. destruct (String.eqb k' q); [reflexivity|exact IH].
Qed.
Lemma aget_aset_same {V} (m : amap V) k v : aget (aset m k v) k = Some v.
Proof. unfold aset. rewrite aget_cons, String.eqb_refl. reflexivity. Qed.
Lemma aget_aset_other {V} (m : amap V) k k' v : k' <> k -> aget (aset m k v) k' = aget m k'.
Proof. intros N. unfold aset. rewrite aget_cons, eqb_neq by exact N. apply aget_adel_other. exact N. Qed.

(** *** C42: factories *)
Lemma factory_table_snoc {C} (regs : list (string * C)) r : factory_table (regs ++ [r]) = factory_register (factory_table regs) (fst r) (snd r).
Proof. unfold factory_table. rewrite fold_left_app. reflexivity. Qed.
Lemma factory_none {C} (regs : list (string * C)) key : ~ In key (map fst regs) -> aget (factory_table regs) key = None.
Proof.
  induction regs as [|r regs IH] using rev_ind; intros H; [reflexivity|].
  rewrite map_app, in_app_iff in H. rewrite factory_table_snoc. unfold factory_register.
  rewrite aget_aset_other; [apply IH; tauto|]. intros E. apply H. right. left. symmetry. exact E.
Qed.
Lemma factory_last {C} (post pre : list (string * C)) key c : ~ In key (map fst post) ->
  aget (factory_table (pre ++ (key, c) :: post)) key = Some c.
Proof.
  induction post as [|r post IH] using rev_ind; intros H.
  - change (pre ++ [(key, c)]) with (pre ++ [(key, c)]). rewrite factory_table_snoc. apply aget_aset_same.
  - rewrite map_app, in_app_iff in H. replace (pre ++ (key, c) :: post ++ [r]) with ((pre ++ (key, c) :: post) ++ [r])
      by (rewrite <- app_assoc; reflexivity).
    rewrite factory_table_snoc. unfold factory_register.
    rewrite aget_aset_other; [apply IH; tauto|]. intros E. apply H. right. left. symmetry. exact E.
Qed.
(** A keyword creates an instance of the class last registered under it; an unknown one
    ends the run. *)
Theorem c42_create : forall (A B : Type) (regs : list (string * (A -> B))) key args,
  (forall pre c post, regs = pre ++ (key, c) :: post -> ~ In key (map fst post) ->
     factory_create (factory_table regs) key args = Ret (c args)) /\
  (~ In key (map fst regs) -> factory_create (factory_table regs) key args = Abort).
Proof.
  intros A B regs key args. unfold factory_create. split.
  - intros pre c post -> H. rewrite factory_last by exact H. reflexivity.
  - intros H. rewrite factory_none by exact H. reflexivity.
Qed.
(** So if no keyword is used twice, the order of the registrations (which C++ leaves open
    between translation units) is irrelevant and each keyword creates its own class. *)
Theorem c42_distinct : forall (A B : Type) (regs : list (string * (A -> B))) key c args,
  NoDup (map fst regs) -> In (key, c) regs -> factory_create (factory_table regs) key args = Ret (c args).
Proof.
  intros A B regs key c args N H. apply in_split in H. destruct H as (pre & post & ->).
  apply (proj1 (c42_create A B (pre ++ (key, c) :: post) key args) pre c post eq_refl).
  rewrite map_app in N. cbn in N. apply NoDup_remove_2 in N. intros E. apply N. apply in_or_app. right. exact E.
Qed.
(** That is the case for everything the code base itself registers. *)
Fixpoint nodupb (l : list string) : bool :=
  match l with [] => true | x :: r => negb (mem x r) && nodupb r end.
Lemma mem_spec x l : mem x l = true <-> In x l.
Proof.
  unfold mem. rewrite existsb_exists. split.
  - intros (y & H & E). apply String.eqb_eq in E. subst. exact H.
  - intros H. exists x. split; [exact H|apply String.eqb_refl].
Qed.
Lemma mem_false x l : mem x l = false <-> ~ In x l.
Proof. rewrite <- mem_spec. destruct (mem x l); split; intros; congruence || (intros E; congruence). Qed.
Lemma nodupb_spec l : nodupb l = true -> NoDup l.
Proof.
  induction l as [|x l IH]; cbn; intros H; [constructor|]. apply andb_true_iff in H. destruct H as (A & B).
  constructor; [|apply IH; exact B]. apply mem_false. apply negb_true_iff. exact A.
Qed.
Theorem c42_shipped : NoDup (map fst shipped) /\ (forall base ids, In (base, ids) shipped -> NoDup ids).
Proof.
  split; [apply nodupb_spec; vm_compute; reflexivity|]. intros base ids H.
  assert (F : forallb (fun p => nodupb (snd p)) shipped = true) by (vm_compute; reflexivity).
  rewrite forallb_forall in F. apply nodupb_spec. exact (F _ H).
Qed.
(** But a second registration under a used keyword silently replaces the first. *)
Theorem c42_register_twice_refuted :
  ~ (forall (regs : list (string * (nat -> nat))) key c args,
       (exists post, regs = (key, c) :: post) -> factory_create (factory_table regs) key args = Ret (c args)).
Proof.
  intros H. specialize (H [("ABL", fun n => n); ("ABL", fun n => S n)] "ABL" (fun n => n) 0
    (ex_intro _ [("ABL", fun n => S n)] eq_refl)). discriminate H.
Qed.

(** *** C42: collections *)
(** Distinct keywords in the order of their first use. *)
Fixpoint firsts (seen : list string) (ks : list string) : list string :=
  match ks with
  | [] => seen
  | k :: r => firsts (if mem k seen then seen else seen ++ [k]) r
  end.
Lemma firsts_nodup ks : forall seen, NoDup seen -> NoDup (firsts seen ks).
Proof.
  induction ks as [|k ks IH]; intros seen H; cbn; [exact H|]. apply IH. destruct (mem k seen) eqn:E; [exact H|].
  apply mem_false in E. apply (Permutation_NoDup (l := k :: seen)); [apply Permutation_cons_append|]. constructor; assumption.
Qed.
Lemma firsts_In ks : forall seen x, In x (firsts seen ks) <-> In x seen \/ In x ks.
Proof.
  induction ks as [|k ks IH]; intros seen x; cbn; [tauto|]. rewrite IH. destruct (mem k seen) eqn:E.
  - apply mem_spec in E. split; [tauto|]. intros [H|[<-|H]]; tauto.
  - rewrite in_app_iff. cbn. tauto.
Qed.
Definition coll_inv {O} (mk : string -> nat -> outcome O) (s : coll O) (fs : list string) : Prop :=
  NoDup fs /\ length (co_vec s) = length fs /\
  (forall i k, nth_error fs i = Some k -> aget (co_map s) k = Some i /\ exists o, mk k i = Ret o /\ nth_error (co_vec s) i = Some o) /\
  (forall k, ~ In k fs -> aget (co_map s) k = None).
Lemma nth_error_snoc {A} (l : list A) x i y : nth_error (l ++ [x]) i = Some y ->
  (nth_error l i = Some y /\ i < length l) \/ (i = length l /\ y = x).
Proof.
  intros H. destruct (Nat.lt_ge_cases i (length l)) as [L|L].
  - left. rewrite nth_error_app1 in H by exact L. tauto.
  - right. rewrite nth_error_app2 in H by exact L. destruct (i - length l) eqn:E; cbn in H.
    + split; [lia|congruence].
    + destruct n; discriminate.
Qed.
Lemma coll_step {O} mk (s : coll O) fs k : (forall n, exists o, mk k n = Ret o) -> coll_inv mk s fs ->
  exists r, coll_create false mk s k = Ret r /\ coll_inv mk (snd r) (if mem k fs then fs else fs ++ [k]) /\
    (In k fs -> snd r = s) /\ coll_lookup (snd r) k = Ret (fst r).
Proof.
  intros T (N & L & I & F). unfold coll_create. cbn [negb andb]. unfold coll_contains.
  destruct (mem k fs) eqn:E.
  - apply mem_spec in E. destruct (In_nth_error _ _ E) as (i & Hi). destruct (I i k Hi) as (G & o & M & V).
    rewrite G. cbn [andb]. unfold coll_lookup. rewrite G, V. cbn. exists (o, s). split; [reflexivity|]. cbn.
    split; [exact (conj N (conj L (conj I F)))|]. split; [reflexivity|]. rewrite G, V. reflexivity.
  - apply mem_false in E. rewrite (F k E). cbn [andb]. destruct (T (length (co_vec s))) as (o & M). rewrite M. cbn [obind].
    eexists. split; [reflexivity|]. cbn [fst snd]. split.
    + split; [|split; [|split]].
      * apply (Permutation_NoDup (l := k :: fs)); [apply Permutation_cons_append|]. constructor; assumption.
      * cbn [co_vec]. rewrite !app_length. cbn. lia.
      * intros i q Hq. cbn [co_map co_vec]. destruct (nth_error_snoc _ _ _ _ Hq) as [(Hi & Li)|(-> & ->)].
        -- destruct (I i q Hi) as (G & o' & M' & V). split.
           ++ rewrite aget_aset_other; [exact G|]. intros ->. apply E. apply (nth_error_In _ _ Hi).
           ++ exists o'. split; [exact M'|]. rewrite nth_error_app1 by lia. exact V.
        -- split; [rewrite aget_aset_same, L; reflexivity|]. exists o. rewrite <- L. split; [exact M|].
           rewrite nth_error_app2 by lia. rewrite Nat.sub_diag. reflexivity.
      * intros q Hq. cbn [co_map]. rewrite in_app_iff in Hq. cbn in Hq. rewrite aget_aset_other; [apply F; tauto|].
        intros ->. tauto.
    + split; [intros H; contradiction|]. unfold coll_lookup. cbn [co_map co_vec]. rewrite aget_aset_same.
      rewrite nth_error_app2 by lia. rewrite Nat.sub_diag. reflexivity.
Qed.
Lemma coll_run_inv {O} mk ks : forall (s : coll O) fs, (forall k, In k ks -> forall n, exists o, mk k n = Ret o) ->
  coll_inv mk s fs -> exists s', coll_run false mk s ks = Ret s' /\ coll_inv mk s' (firsts fs ks).
Proof.
  induction ks as [|k ks IH]; intros s fs T I; cbn [coll_run firsts].
  - exists s. split; [reflexivity|exact I].
  - destruct (coll_step mk s fs k (T k (or_introl eq_refl)) I) as (r & E & I' & _). rewrite E. cbn [obind].
    apply IH; [|exact I']. intros q Hq. apply T. right. exact Hq.
Qed.
(** A collection without duplicates holds one object per keyword, in the order of first
    use; every later request returns the same object and changes nothing; lookup of a
    keyword never used ends the run. *)
Theorem c42_collection : forall (O : Type) (mk : string -> nat -> outcome O) ks,
  (forall k, In k ks -> forall n, exists o, mk k n = Ret o) ->
  exists s, coll_run false mk coll_empty ks = Ret s /\
    length (co_vec s) = length (firsts [] ks) /\
    (forall i k, nth_error (firsts [] ks) i = Some k ->
       exists o, mk k i = Ret o /\ nth_error (co_vec s) i = Some o /\
                 coll_lookup s k = Ret o /\ coll_create false mk s k = Ret (o, s)) /\
    (forall k, coll_contains s k = true <-> In k ks) /\
    (forall k, ~ In k ks -> coll_lookup s k = Abort).
Proof.
  intros O mk ks T.
  assert (I0 : coll_inv mk coll_empty []).
  { split; [constructor|]. split; [reflexivity|]. split; [intros [|i] k; discriminate|reflexivity]. }
  destruct (coll_run_inv mk ks coll_empty [] T I0) as (s & E & I). exists s. split; [exact E|].
  destruct I as (N & L & I & F). split; [exact L|].
  assert (Lk : forall i k, nth_error (firsts [] ks) i = Some k -> exists o, mk k i = Ret o /\ nth_error (co_vec s) i = Some o /\
     aget (co_map s) k = Some i).
  { intros i k H. destruct (I i k H) as (G & o & M & V). exists o. tauto. }
  split; [|split].
  - intros i k H. destruct (Lk i k H) as (o & M & V & G). exists o. split; [exact M|]. split; [exact V|].
    unfold coll_lookup, coll_create, coll_contains. rewrite G, V. cbn. unfold coll_lookup. rewrite G, V. split; reflexivity.
  - intros k. unfold coll_contains. split.
    + intros H. destruct (aget (co_map s) k) eqn:G; [|discriminate].
      destruct (in_dec String.string_dec k (firsts [] ks)) as [Hi|Hn].
      * apply firsts_In in Hi. destruct Hi as [[]|Hi]. exact Hi.
      * rewrite (F k Hn) in G. discriminate.
    + intros H. assert (Hi : In k (firsts [] ks)) by (apply firsts_In; right; exact H).
      destruct (In_nth_error _ _ Hi) as (i & Hi'). destruct (Lk i k Hi') as (o & _ & _ & G). rewrite G. reflexivity.
  - intros k H. unfold coll_lookup. rewrite F; [reflexivity|]. intros Hi. apply firsts_In in Hi. destruct Hi as [[]|Hi]. contradiction.
Qed.
(** With duplicates allowed: one object per request; lookup finds the latest. *)
Theorem c42_collection_dup : forall (O : Type) (mk : string -> nat -> outcome O) ks,
  (forall k, In k ks -> forall n, exists o, mk k n = Ret o) ->
  exists s, coll_run true mk coll_empty ks = Ret s /\ length (co_vec s) = length ks /\
    (forall i k, nth_error ks i = Some k -> exists o, mk k i = Ret o /\ nth_error (co_vec s) i = Some o /\
       ((forall j, i < j -> nth_error ks j <> Some k) -> coll_lookup s k = Ret o)) /\
    (forall k, ~ In k ks -> coll_lookup s k = Abort).
Proof.
  intros O mk ks. 
  assert (App : forall a b (s : coll O), coll_run true mk s (a ++ b) = obind (coll_run true mk s a) (fun s' => coll_run true mk s' b)).
  { induction a as [|k a IH]; intros b s; cbn [coll_run app obind]; [reflexivity|].
    destruct (coll_create true mk s k) as [r| |]; cbn [obind]; [apply IH|reflexivity|reflexivity]. }
  induction ks as [|k ks IH] using rev_ind; intros T.
  - exists coll_empty. split; [reflexivity|]. split; [reflexivity|]. split; [intros [|i] k; discriminate|reflexivity].
  - destruct IH as (s & E & L & I & F); [intros q Hq; apply T; apply in_or_app; left; exact Hq|].
    destruct (T k ltac:(apply in_or_app; right; left; reflexivity) (length (co_vec s))) as (o & M).
    exists (Coll (co_vec s ++ [o]) (aset (co_map s) k (length (co_vec s)))). split.
    { rewrite App, E. cbn [obind coll_run coll_create negb andb]. rewrite M. reflexivity. }
    cbn [co_vec]. split; [rewrite !app_length; cbn; lia|]. split.
    + intros i q Hq. destruct (nth_error_snoc _ _ _ _ Hq) as [(Hi & Li)|(-> & ->)].
      * destruct (I i q Hi) as (o' & M' & V & Lu). exists o'. split; [exact M'|]. split; [rewrite nth_error_app1 by lia; exact V|].
        intros Hl. assert (q <> k).
        { intros ->. apply (Hl (length ks) Li). rewrite nth_error_app2 by lia. rewrite Nat.sub_diag. reflexivity. }
        assert (Lo : coll_lookup s q = Ret o').
        { apply Lu. intros j Hj Ej. apply (Hl j Hj). rewrite nth_error_app1; [exact Ej|]. apply nth_error_Some. congruence. }
        unfold coll_lookup in *. cbn [co_map co_vec]. rewrite aget_aset_other by assumption.
        destruct (aget (co_map s) q) as [x|]; [|discriminate]. destruct (nth_error (co_vec s) x) eqn:Ex; [|discriminate].
        rewrite nth_error_app1 by (apply nth_error_Some; congruence). rewrite Ex. exact Lo.
      * exists o. rewrite <- L. split; [exact M|]. rewrite nth_error_app2 by lia. rewrite Nat.sub_diag. split; [reflexivity|].
        intros _. unfold coll_lookup. cbn [co_map co_vec]. rewrite aget_aset_same, nth_error_app2 by lia. rewrite Nat.sub_diag. reflexivity.
    + intros q Hq. rewrite in_app_iff in Hq. cbn in Hq. unfold coll_lookup. cbn [co_map].
      rewrite aget_aset_other by (intros ->; tauto). specialize (F q). unfold coll_lookup in F.
      destruct (aget (co_map s) q); [|reflexivity]. assert (~ In q ks) by tauto. specialize (F H). destruct (nth_error _ _); discriminate.
Qed.

(** *** C45: derived quantities *)
Lemma strip_idem s : strip_spaces (strip_spaces s) = strip_spaces s.
Proof.
  induction s as [|c s IH]; cbn; [reflexivity|]. destruct (char_eqb c " ") eqn:E; [exact IH|]. cbn. rewrite E, IH. reflexivity.
Qed.
Definition dm_inv (mk : string -> list string -> outcome dqty) (d : dmgr) (qs : list string) : Prop :=
  NoDup qs /\ NoDup (map fst (dm_map d)) /\
  (forall q i, In (q, i) (dm_map d) <-> nth_error qs i = Some q) /\
  Forall2 (fun q o => exists t, parse_derived_qty q = Ret t /\ mk (fst t) (snd t) = Ret o) qs (dm_vec d).
Lemma aget_In {V} (m : amap V) k v : NoDup (map fst m) -> (aget m k = Some v <-> In (k, v) m).
Proof.
  induction m as [|(q, w) m IH]; cbn; intros N; [split; [discriminate|contradiction]|]. inversion N; subst.
  destruct (eqb_case k q) as [(-> & E)|(M & E)]; rewrite E.
  - split; [intros [= ->]; left; reflexivity|]. intros [[= ->]|H]; [reflexivity|].
    exfalso. apply H1. apply in_map_iff. exists (q, v). split; [reflexivity|exact H].
  - rewrite IH by assumption. split; [right; assumption|]. intros [[= -> ->]|H]; [congruence|exact H].
Qed.
Lemma adel_absent {V} (m : amap V) k : ~ In k (map fst m) -> adel m k = m.
Proof.
  induction m as [|(q, v) m IH]; intros H; [reflexivity|]. cbn [map fst In] in H. rewrite adel_cons, eqb_neq by (intros ->; tauto).
  rewrite IH by tauto. reflexivity.
Qed.
Lemma dm_key_iff mk d qs q : dm_inv mk d qs -> In q (map fst (dm_map d)) <-> In q qs.
Proof.
  intros (N & M & I & F). split.
  - intros H. apply in_map_iff in H. destruct H as ((q', i) & <- & H). apply I in H. apply (nth_error_In _ _ H).
  - intros H. destruct (In_nth_error _ _ H) as (i & Hi). apply I in Hi. apply in_map_iff. exists (q, i). split; [reflexivity|exact Hi].
Qed.
Lemma Forall2_nth {A B} (R : A -> B -> Prop) l m i a : Forall2 R l m -> nth_error l i = Some a -> exists b, nth_error m i = Some b /\ R a b.
Proof.
  intros H. revert i. induction H as [|x y l m Hxy H IH]; intros [|i] E; cbn in *; try discriminate.
  - injection E as ->. exists y. split; [reflexivity|exact Hxy].
  - apply IH. exact E.
Qed.
Lemma Forall2_len {A B} (R : A -> B -> Prop) l m : Forall2 R l m -> length l = length m.
Proof. induction 1; cbn; congruence. Qed.
Lemma dm_step mk d qs k o d' : dm_inv mk d qs -> dm_create mk d k = Ret (o, d') ->
  dm_inv mk d' (if mem (strip_spaces k) qs then qs else qs ++ [strip_spaces k]) /\
  (mem (strip_spaces k) qs = true -> d' = d).
Proof.
  intros I H. pose proof I as (N & M & J & F). unfold dm_create in H. set (q := strip_spaces k) in *.
  destruct (mem q qs) eqn:E.
  - apply mem_spec in E. apply (dm_key_iff _ _ _ _ I) in E. apply in_map_iff in E. destruct E as ((q', i) & Eq & Hi). cbn in Eq. subst q'.
    assert (G : aget (dm_map d) q = Some i) by (apply aget_In; assumption). rewrite G in H.
    destruct (nth_error (dm_vec d) i); [|discriminate]. injection H as <- <-. split; [exact I|reflexivity].
  - apply mem_false in E. assert (A : ~ In q (map fst (dm_map d))) by (rewrite (dm_key_iff _ _ _ _ I); exact E).
    assert (G : aget (dm_map d) q = None).
    { destruct (aget (dm_map d) q) eqn:G; [|reflexivity]. exfalso. apply A. apply aget_In in G; [|exact M].
      apply in_map_iff. eexists. split; [|exact G]. reflexivity. }
    rewrite G in H. destruct (parse_derived_qty q) as [t| |] eqn:P; try discriminate. cbn [obind] in H.
    destruct (mk (fst t) (snd t)) as [o'| |] eqn:Mk; try discriminate. cbn [obind] in H. injection H as <- <-.
    split; [|intros X; discriminate]. cbn [dm_map dm_vec]. unfold aset. rewrite adel_absent by exact A.
    assert (L : length qs = length (dm_vec d)) by (apply (Forall2_len _ _ _ F)).
    split; [|split; [|split]].
    + apply (Permutation_NoDup (l := q :: qs)); [apply Permutation_cons_append|]. constructor; assumption.
    + cbn. constructor; assumption.
    + intros q' i. cbn [In]. split.
      * intros [[= <- <-]|Hi]; [rewrite nth_error_app2 by lia; rewrite <- L, Nat.sub_diag; reflexivity|].
        apply J in Hi. rewrite nth_error_app1 by (apply nth_error_Some; congruence). exact Hi.
      * intros Hi. destruct (nth_error_snoc _ _ _ _ Hi) as [(Hi' & _)|(-> & ->)]; [right; apply J; exact Hi'|left; rewrite L; reflexivity].
    + apply Forall2_app; [exact F|]. constructor; [|constructor]. exists t. split; assumption.
Qed.
Lemma dm_all_inv mk ks : forall d qs d', dm_inv mk d qs -> dm_create_all mk d ks = Ret d' ->
  dm_inv mk d' (firsts qs (map strip_spaces ks)).
Proof.
  induction ks as [|k ks IH]; intros d qs d' I H; cbn [dm_create_all map firsts] in *; [injection H as <-; exact I|].
  destruct (dm_create mk d k) as [(o, d1)| |] eqn:E; try discriminate. cbn [obind snd] in H.
  apply (IH d1); [|exact H]. exact (proj1 (dm_step mk d qs k o d1 I E)).
Qed.
Lemma filter_keys_ok erase m : forall v i, (forall j, i <= j < i + length v -> exists q, In (q, j) m) ->
  exists ks, filter_keys erase m i v = Ret ks.
Proof.
  induction v as [|q v IH]; intros i H; cbn [filter_keys]; [exists []; reflexivity|].
  destruct (IH (S i)) as (ks & E); [intros j Hj; apply H; cbn; lia|]. rewrite E.
  destruct (mem (dq_name q) erase); [|exists ks; reflexivity].
  destruct (find (fun p => (snd p =? i)%nat) m) eqn:F; [cbn; eexists; reflexivity|].
  destruct (H i) as (q' & Hq); [cbn; lia|]. apply (find_none _ _ F) in Hq. cbn in Hq. rewrite Nat.eqb_refl in Hq. discriminate.
Qed.
(** The requested derived quantities: one per distinct request (spaces do not count), in
    the order of first request, built from the parsed request; asking again changes
    nothing; filtering removes exactly those whose name is in the given set and keeps
    the order of the rest. *)
Theorem c45_derived : forall mk keys d, dm_create_all mk dm_empty keys = Ret d ->
  let qs := firsts [] (map strip_spaces keys) in
  Forall2 (fun q o => exists t, parse_derived_qty q = Ret t /\ mk (fst t) (snd t) = Ret o) qs (dm_vec d) /\
  (forall k, In (strip_spaces k) (map strip_spaces keys) -> exists o, dm_create mk d k = Ret (o, d)) /\
  (forall erase, exists d', dm_filter erase d = Ret d' /\
     dm_vec d' = filter (fun q => negb (mem (dq_name q) erase)) (dm_vec d)).
Proof.
  intros mk keys d H qs.
  assert (I0 : dm_inv mk dm_empty []).
  { split; [constructor|]. split; [constructor|]. split; [intros q [|i]; cbn; split; intros X; try contradiction; discriminate|constructor]. }
  pose proof (dm_all_inv mk keys dm_empty [] d I0 H) as I. fold qs in I. pose proof I as (N & M & J & F).
  split; [exact F|]. split.
  - intros k Hk. assert (Hq : In (strip_spaces k) qs) by (apply firsts_In; right; exact Hk).
    destruct (In_nth_error _ _ Hq) as (i & Hi). destruct (Forall2_nth _ _ _ _ _ F Hi) as (o & Ho & _).
    exists o. unfold dm_create. assert (G : aget (dm_map d) (strip_spaces k) = Some i) by (apply aget_In; [exact M|apply J; exact Hi]).
    rewrite G, Ho. reflexivity.
  - intros erase. unfold dm_filter. destruct (filter_keys_ok erase (dm_map d) (dm_vec d) 0) as (ks & E).
    { intros j Hj. assert (L : length qs = length (dm_vec d)) by (apply (Forall2_len _ _ _ F)).
      destruct (nth_error qs j) as [q|] eqn:Eq; [|apply nth_error_None in Eq; lia]. exists q. apply J. exact Eq. }
    rewrite E. cbn [obind]. eexists. split; reflexivity.
Qed.
(** After filtering, the manager's own table of positions is stale: asking for a
    quantity that was kept reads past the end of the list. *)
Theorem c45_filter_stale_refuted :
  ~ (forall fld stoi keys d erase d' k, dm_create_all (dq_create fld stoi) dm_empty keys = Ret d ->
       dm_filter erase d = Ret d' -> In k keys -> exists o d'', dm_create (dq_create fld stoi) d' k = Ret (o, d'')).
Proof.
  intros H.
  destruct (H (fun s => if String.eqb s "velocity" then Some 3 else None) (fun _ => None) ["mag_vorticity"; "q_criterion"]
    _ ["mag_vorticity"] _ "q_criterion" eq_refl eq_refl ltac:(right; left; reflexivity)) as (o & d'' & E).
  vm_compute in E. discriminate E.
Qed.

(** Requests are read as name(argument, ...). *)
Definition clean (s : string) : Prop := forall c, In c (list_ascii_of_string s) -> c <> " "%char /\ c <> "("%char /\ c <> ")"%char /\ c <> ","%char.
Fixpoint join (args : list string) : string :=
  match args with [] => EmptyString | [a] => a | a :: r => (a ++ "," ++ join r)%string end.
Lemma clean_cons c s : clean (String c s) -> (c <> " "%char /\ c <> "("%char /\ c <> ")"%char /\ c <> ","%char) /\ clean s.
Proof. intros H. split; [apply H; left; reflexivity|]. intros d Hd. apply H. right. exact Hd. Qed.
Lemma ceqb a b : a <> b -> char_eqb a b = false.
Proof. apply Ascii.eqb_neq. Qed.
Lemma strip_no s : (forall c, In c (list_ascii_of_string s) -> c <> " "%char) -> strip_spaces s = s.
Proof.
  induction s as [|c s IH]; intros H; cbn; [reflexivity|]. rewrite ceqb by (apply H; left; reflexivity).
  rewrite IH; [reflexivity|]. intros d Hd. apply H. right. exact Hd.
Qed.
Lemma find_char_app c a b : (forall d, In d (list_ascii_of_string a) -> d <> c) -> find_char c (a ++ String c b)%string = Some (String.length a).
Proof.
  induction a as [|d a IH]; intros H; cbn.
  - unfold char_eqb. rewrite Ascii.eqb_refl. reflexivity.
  - rewrite ceqb by (intros E; apply (H d); [left; reflexivity|symmetry; exact E]). rewrite IH; [reflexivity|].
    intros x Hx. apply H. right. exact Hx.
Qed.
Lemma substring_prefix a b : String.substring 0 (String.length a) (a ++ b)%string = a.
Proof. induction a as [|c a IH]; cbn; [destruct b; reflexivity|]. rewrite IH. reflexivity. Qed.
Lemma substring_skip a b i n : String.substring (String.length a + i) n (a ++ b)%string = String.substring i n b.
Proof. induction a as [|c a IH]; cbn; [reflexivity|exact IH]. Qed.
Lemma string_app_assoc a b c : ((a ++ b) ++ c = a ++ (b ++ c))%string.
Proof. induction a as [|x a IH]; cbn; [reflexivity|]. rewrite IH. reflexivity. Qed.
Lemma string_app_nil a : (a ++ "" = a)%string.
Proof. induction a as [|x a IH]; cbn; [reflexivity|]. rewrite IH. reflexivity. Qed.
Lemma string_app_length a b : String.length (a ++ b)%string = String.length a + String.length b.
Proof. induction a as [|x a IH]; cbn; [reflexivity|]. rewrite IH. reflexivity. Qed.
Lemma list_ascii_app a b : list_ascii_of_string (a ++ b)%string = list_ascii_of_string a ++ list_ascii_of_string b.
Proof. induction a as [|x a IH]; cbn; [reflexivity|]. rewrite IH. reflexivity. Qed.
Lemma join_chars args c : In c (list_ascii_of_string (join args)) -> c = ","%char \/ exists a, In a args /\ In c (list_ascii_of_string a).
Proof.
  induction args as [|a args IH]; [contradiction|]. destruct args as [|b args].
  - cbn [join]. intros H. right. exists a. split; [left; reflexivity|exact H].
  - change (join (a :: b :: args)) with (a ++ "," ++ join (b :: args))%string. rewrite list_ascii_app, in_app_iff. intros [H|H].
    + right. exists a. split; [left; reflexivity|exact H].
    + cbn [append list_ascii_of_string In] in H. destruct H as [H|H]; [left; symmetry; exact H|].
      destruct (IH H) as [X|(x & Hx & Hc)]; [left; exact X|]. right. exists x. split; [right; exact Hx|exact Hc].
Qed.
Lemma split_one a : (forall d, In d (list_ascii_of_string a) -> d <> ","%char) -> forall r acc,
  split_comma (a ++ String "," r)%string acc = (acc ++ a)%string :: split_comma r EmptyString.
Proof.
  induction a as [|c a IH]; intros H r acc; cbn [append split_comma].
  - unfold char_eqb. rewrite Ascii.eqb_refl, string_app_nil. reflexivity.
  - rewrite ceqb by (apply H; left; reflexivity). rewrite IH by (intros d Hd; apply H; right; exact Hd).
    rewrite string_app_assoc. reflexivity.
Qed.
Lemma split_join args : args <> [] -> (forall a, In a args -> clean a) -> split_comma (join args ++ ",")%string EmptyString = args.
Proof.
  induction args as [|a args IH]; [congruence|]. intros _ H.
  assert (C : forall d, In d (list_ascii_of_string a) -> d <> ","%char) by (intros d Hd; apply (H a (or_introl eq_refl) d Hd)).
  destruct args as [|b args].
  - cbn [join]. rewrite split_one by exact C. reflexivity.
  - change (join (a :: b :: args)) with (a ++ "," ++ join (b :: args))%string. rewrite string_app_assoc. cbn [append].
    rewrite split_one by exact C. f_equal. apply IH; [discriminate|]. intros x Hx. apply H. right. exact Hx.
Qed.
Lemma last_char_app a b : b <> EmptyString -> last_char (a ++ b)%string = last_char b.
Proof.
  intros H. induction a as [|c a IH]; [reflexivity|]. cbn [append last_char].
  destruct (a ++ b)%string eqn:E; [|exact IH]. destruct a; cbn in E; [congruence|discriminate].
Qed.
Lemma last_char_In s c : last_char s = Some c -> In c (list_ascii_of_string s).
Proof.
  induction s as [|d s IH]; cbn; [discriminate|]. destruct s; intros H; [injection H as ->; left; reflexivity|right; apply IH; exact H].
Qed.
Lemma last_char_some s : s <> EmptyString -> exists c, last_char s = Some c.
Proof.
  induction s as [|d s IH]; [congruence|]. intros _. destruct s as [|e s]; [exists d; reflexivity|]. apply IH. discriminate.
Qed.
Lemma join_last args : args <> [] -> (forall a, In a args -> clean a) -> List.last args EmptyString <> EmptyString ->
  exists c, last_char (join args) = Some c /\ c <> ","%char /\ join args <> EmptyString.
Proof.
  induction args as [|a args IH]; [congruence|]. intros _ H L. destruct args as [|b args].
  - cbn [join]. cbn in L. destruct (last_char_some a L) as (c & E). exists c. split; [exact E|]. split; [|exact L].
    apply (H a (or_introl eq_refl)). apply last_char_In. exact E.
  - destruct IH as (c & E & D & Q); [discriminate|intros x Hx; apply H; right; exact Hx|exact L|].
    change (join (a :: b :: args)) with (a ++ "," ++ join (b :: args))%string.
    exists c. split; [|split; [exact D|destruct a; discriminate]].
    rewrite last_char_app by discriminate. change ("," ++ join (b :: args))%string with (String "," EmptyString ++ join (b :: args))%string.
    rewrite last_char_app by exact Q. exact E.
Qed.
Theorem c45_parse : forall f args, clean f -> args <> [] -> (forall a, In a args -> clean a) ->
  List.last args EmptyString <> EmptyString ->
  parse_derived_qty (f ++ "(" ++ join args ++ ")")%string = Ret (f, args) /\ parse_derived_qty f = Ret (f, []).
Proof.
  intros f args Cf Ne Ca La. split.
  - unfold parse_derived_qty. cbn [append].
    rewrite find_char_app by (intros d Hd; apply (Cf d Hd)).
    assert (P : find_char ")" (f ++ String "(" (join args ++ ")"))%string = Some (String.length f + 1 + String.length (join args))).
    { replace (f ++ String "(" (join args ++ ")"))%string with ((f ++ "(" ++ join args) ++ String ")" "")%string
        by (rewrite !string_app_assoc; reflexivity).
      rewrite find_char_app.
      - f_equal. rewrite !string_app_length. cbn. lia.
      - intros d Hd. rewrite !list_ascii_app in Hd. cbn [list_ascii_of_string] in Hd. rewrite !in_app_iff in Hd. cbn [In] in Hd.
        destruct Hd as [Hd|[[<-|[]]|Hd]]; [apply (Cf d Hd)|discriminate|].
        destruct (join_chars _ _ Hd) as [->|(a & Ha & Hc)]; [discriminate|]. apply (Ca a Ha d Hc). }
    rewrite P. cbv zeta. replace (_ <? _)%nat with false by (symmetry; apply Nat.ltb_ge; lia).
    rewrite substring_prefix.
    replace (String.length f + 1 + String.length (join args) - String.length f - 1) with (String.length (join args)) by lia.
    rewrite substring_skip. cbn [String.substring].
    change (String.substring 1 (String.length (join args)) (String "(" (join args ++ ")")))
      with (String.substring 0 (String.length (join args)) (join args ++ ")")%string).
    rewrite substring_prefix.
    rewrite (strip_no f) by (intros c Hc; apply (Cf c Hc)).
    rewrite (strip_no (join args)).
    2:{ intros c Hc. destruct (join_chars _ _ Hc) as [->|(a & Ha & Hx)]; [discriminate|]. apply (Ca a Ha c Hx). }
    destruct (join_last args Ne Ca La) as (c & E & D & _). rewrite E, ceqb by exact D. rewrite split_join by assumption. reflexivity.
  - unfold parse_derived_qty.
    assert (N : find_char "(" f = None).
    { clear - Cf. induction f as [|d f IH]; cbn [find_char]; [reflexivity|]. apply clean_cons in Cf. destruct Cf as ((_ & A & _) & B).
      rewrite ceqb by (intros E; apply A; symmetry; exact E). rewrite IH by exact B. reflexivity. }
    rewrite N. reflexivity.
Qed.
(** An empty argument list runs into undefined behaviour instead of an error. *)
Theorem c45_parse_empty_refuted : ~ (forall key, parse_derived_qty key <> UB).
Proof. intros H. apply (H "grad()"). reflexivity. Qed.

(** Every shipped derived quantity announces as many names as components. *)
Lemma length_var_names f n : length (var_names f n) = n.
Proof.
  destruct n as [|[|[|[|n]]]]; try reflexivity. unfold var_names. rewrite map_length, seq_length. reflexivity.
Qed.
Theorem c45_derived_vars : forall fld stoi nm args o, dq_create fld stoi nm args = Ret o -> length (dq_vars o) = dq_ncomp o.
Proof.
  intros fld stoi nm args o H. unfold dq_create in H. cbv zeta in H.
  assert (M : forall a n, length (dq_vars (dq_make a n)) = dq_ncomp (dq_make a n)) by (intros; apply length_var_names).
  repeat match type of H with
  | (if ?b then _ else _) = _ => destruct b
  | match ?x with _ => _ end = _ => destruct x
  | Ret _ = Ret _ => injection H as <-; apply M
  | Abort = Ret _ => discriminate H
  | obind ?x _ = _ => destruct x; cbn [obind] in H
  | UB = Ret _ => discriminate H
  end.
  injection H as <-. cbn. apply map_length.
Qed.

(** *** C45: ordered sets *)
Definition slt (a b : string) : Prop := String.compare a b = Lt.
Lemma ascii_compare_lt a b : Ascii.compare a b = Lt <-> (N_of_ascii a < N_of_ascii b)%N.
Proof. unfold Ascii.compare. apply N.compare_lt_iff. Qed.
Lemma ascii_compare_eq a b : Ascii.compare a b = Eq <-> a = b.
Proof.
  unfold Ascii.compare. rewrite N.compare_eq_iff. split; [|intros ->; reflexivity].
  intros H. rewrite <- (ascii_N_embedding a), <- (ascii_N_embedding b), H. reflexivity.
Qed.
Lemma slt_trans a : forall b c, slt a b -> slt b c -> slt a c.
Proof.
  unfold slt. induction a as [|x a IH]; intros [|y b] [|z c]; cbn; try discriminate; try reflexivity; intros H1 H2.
  destruct (Ascii.compare x y) eqn:E1; try discriminate; destruct (Ascii.compare y z) eqn:E2; try discriminate.
  - apply ascii_compare_eq in E1. apply ascii_compare_eq in E2. subst. rewrite (proj2 (ascii_compare_eq z z) eq_refl). apply (IH b c); assumption.
  - apply ascii_compare_eq in E1. subst. rewrite E2. reflexivity.
  - apply ascii_compare_eq in E2. subst. rewrite E1. reflexivity.
  - apply ascii_compare_lt in E1. apply ascii_compare_lt in E2. assert (E : Ascii.compare x z = Lt) by (apply ascii_compare_lt; exact (N.lt_trans _ _ _ E1 E2)).
    rewrite E. reflexivity.
Qed.
Lemma compare_refl a : String.compare a a = Eq.
Proof. induction a as [|x a IH]; cbn; [reflexivity|]. rewrite (proj2 (ascii_compare_eq x x) eq_refl). exact IH. Qed.
Lemma slt_irrefl a : ~ slt a a.
Proof. unfold slt. rewrite compare_refl. discriminate. Qed.
Definition sorted (l : list string) : Prop := StronglySorted slt l.
Lemma sinsert_In x l y : In y (sinsert x l) <-> y = x \/ In y l.
Proof.
  induction l as [|z l IH]; cbn; [intuition congruence|]. destruct (String.compare x z) eqn:E; cbn.
  - apply String.compare_eq_iff in E. subst. intuition congruence.
  - intuition congruence.
  - rewrite IH. tauto.
Qed.
Lemma sinsert_sorted x l : sorted l -> sorted (sinsert x l).
Proof.
  induction l as [|z l IH]; cbn; intros H; [constructor; constructor|]. inversion H; subst.
  destruct (String.compare x z) eqn:E.
  - exact H.
  - constructor; [exact H|]. constructor; [exact E|]. rewrite Forall_forall in *. intros w Hw. apply (slt_trans x z w E). apply H3. exact Hw.
  - constructor; [apply IH; exact H2|]. rewrite Forall_forall in *. intros w Hw. apply sinsert_In in Hw. destruct Hw as [->|Hw].
    + unfold slt. rewrite String.compare_antisym, E. reflexivity.
    + apply H3. exact Hw.
Qed.
Lemma set_add_In l : forall s y, In y (set_add s l) <-> In y s \/ In y l.
Proof.
  induction l as [|x l IH]; intros s y; cbn; [tauto|]. change (In y (set_add (sinsert x s) l) <-> In y s \/ x = y \/ In y l).
  rewrite IH, sinsert_In. intuition congruence.
Qed.
Lemma set_add_sorted l : forall s, sorted s -> sorted (set_add s l).
Proof.
  induction l as [|x l IH]; intros s H; cbn; [exact H|]. change (sorted (set_add (sinsert x s) l)). apply IH. apply sinsert_sorted. exact H.
Qed.
Lemma sorted_unique l : forall m, sorted l -> sorted m -> (forall y, In y l <-> In y m) -> l = m.
Proof.
  induction l as [|x l IH]; intros [|y m] Hl Hm E.
  - reflexivity.
  - exfalso. apply (proj2 (E y)). left. reflexivity.
  - exfalso. apply (proj1 (E x)). left. reflexivity.
  - inversion Hl as [|? ? Sl Fl]; subst. inversion Hm as [|? ? Sm Fm]; subst. rewrite Forall_forall in Fl, Fm.
    assert (x = y).
    { destruct (proj1 (E x) (or_introl eq_refl)) as [->|Hx]; [reflexivity|].
      destruct (proj2 (E y) (or_introl eq_refl)) as [->|Hy]; [reflexivity|].
      exfalso. apply (slt_irrefl x). apply (slt_trans x y x); [apply Fl; exact Hy|apply Fm; exact Hx]. }
    subst y. f_equal. apply IH; [assumption|assumption|]. intros z. specialize (E z). cbn in E. split; intros Hz.
    + destruct (proj1 E (or_intror Hz)) as [<-|]; [|assumption]. exfalso. apply (slt_irrefl x). apply Fl. exact Hz.
    + destruct (proj2 E (or_intror Hz)) as [<-|]; [|assumption]. exfalso. apply (slt_irrefl x). apply Fm. exact Hz.
Qed.
Lemma sorted_nodup l : sorted l -> NoDup l.
Proof.
  induction 1 as [|x l H IH F]; constructor; [|exact IH]. rewrite Forall_forall in F. intros E. apply (slt_irrefl x). apply F. exact E.
Qed.
Lemma io_set_sorted i : sorted (io_set i).
Proof.
  unfold io_set. assert (S0 : sorted (set_add [] (in_outputs i))) by (apply set_add_sorted; constructor).
  destruct (in_default_on i); [apply set_add_sorted; exact S0|exact S0].
Qed.
Lemma io_int_set_sorted i : sorted (io_int_set i).
Proof.
  unfold io_int_set. assert (S0 : sorted (set_add [] (in_int_outputs i))) by (apply set_add_sorted; constructor).
  destruct (in_default_on i); [apply set_add_sorted; exact S0|exact S0].
Qed.
(** The set of output variables: what the user lists, plus - unless switched off - the
    registered defaults that are not in the skip list. *)
Theorem c45_selected : forall i n,
  (In n (io_set i) <-> In n (in_outputs i) \/ (in_default_on i = true /\ In n (reg_vars i) /\ ~ In n (in_skip i))) /\
  (In n (io_int_set i) <-> In n (in_int_outputs i) \/ (in_default_on i = true /\ In n (reg_int_vars i))) /\
  NoDup (io_set i) /\ NoDup (io_int_set i).
Proof.
  intros i n. split; [|split; [|split; [apply sorted_nodup, io_set_sorted|apply sorted_nodup, io_int_set_sorted]]].
  - unfold io_set. destruct (in_default_on i).
    + rewrite !set_add_In, filter_In, set_add_In, negb_true_iff, mem_false. cbn [In]. intuition.
    + rewrite set_add_In. cbn [In]. intuition congruence.
  - unfold io_int_set. destruct (in_default_on i); rewrite !set_add_In; cbn [In]; intuition congruence.
Qed.
(** Registering or listing a variable repeatedly or in another order has no effect. *)
Theorem c45_idempotent : forall fld ifld mk i j,
  in_default_on i = in_default_on j -> in_derived i = in_derived j ->
  (forall n, In n (in_outputs i) <-> In n (in_outputs j)) -> (forall n, In n (in_int_outputs i) <-> In n (in_int_outputs j)) ->
  (forall n, In n (in_skip i) <-> In n (in_skip j)) -> (forall n, In n (reg_vars i) <-> In n (reg_vars j)) ->
  (forall n, In n (reg_int_vars i) <-> In n (reg_int_vars j)) ->
  initialize_io fld ifld mk i = initialize_io fld ifld mk j.
Proof.
  intros fld ifld mk i j Hd He Ho Hi Hs Hr Hri.
  assert (E1 : io_set i = io_set j).
  { apply sorted_unique; [apply io_set_sorted|apply io_set_sorted|]. intros n.
    rewrite (proj1 (c45_selected i n)), (proj1 (c45_selected j n)), Hd, Ho, Hs, Hr. tauto. }
  assert (E2 : io_int_set i = io_int_set j).
  { apply sorted_unique; [apply io_int_set_sorted|apply io_int_set_sorted|]. intros n.
    rewrite (proj1 (proj2 (c45_selected i n))), (proj1 (proj2 (c45_selected j n))), Hd, Hi, Hri. tauto. }
  unfold initialize_io. rewrite E1, E2, He. reflexivity.
Qed.

(** *** C45: layout *)
(** The name a component should have. *)
Definition component_name (f : string) (n c : nat) : string :=
  if (n =? 1)%nat then f else if (n =? 3)%nat then (f ++ nth c ["x"; "y"; "z"] "")%string else (f ++ to_string c)%string.
Definition source_name (s : io_state) (fld ifld : string -> option nat) (src : source) : string :=
  match src with
  | FromField n c => component_name n (match fld n with Some k => k | None => 0 end) c
  | FromIntField n c => component_name n (match ifld n with Some k => k | None => 0 end) c
  | FromDerived k c => nth c (dq_vars (nth k (dm_vec (io_derived s)) (DQ "" 0 []))) ""
  end.
Lemma nth_var_names f n c : c < n -> nth c (var_names f n) "" = component_name f n c.
Proof.
  intros H. unfold component_name. destruct n as [|[|[|[|n]]]]; [lia| | | |].
  - destruct c as [|c]; [reflexivity|lia].
  - destruct c as [|[|c]]; [reflexivity|reflexivity|lia].
  - destruct c as [|[|[|c]]]; try reflexivity; lia.
  - cbn [Nat.eqb]. unfold var_names.
    rewrite (nth_indep _ "" ((fun i => (f ++ to_string i)%string) 0)) by (rewrite map_length, seq_length; exact H).
    rewrite (map_nth (fun i => (f ++ to_string i)%string)), seq_nth by exact H. reflexivity.
Qed.
Lemma put_one {A} (pre : list A) x (post : list (option A)) y :
  put (map Some pre ++ y :: post) (length pre) x = Ret (map Some (pre ++ [x]) ++ post).
Proof.
  induction pre as [|p pre IH]; cbn; [reflexivity|]. rewrite IH. reflexivity.
Qed.
Lemma put_all_ok {A} (xs : list A) : forall pre m,
  put_all (map Some pre ++ repeat None (length xs + m)) (length pre) xs = Ret (map Some (pre ++ xs) ++ repeat None m).
Proof.
  induction xs as [|x xs IH]; intros pre m; cbn [put_all length plus repeat].
  - rewrite app_nil_r. reflexivity.
  - rewrite put_one. cbn [obind]. replace (S (length pre)) with (length (pre ++ [x])) by (rewrite app_length; cbn; lia).
    rewrite IH, <- app_assoc. reflexivity.
Qed.
Lemma put_blocks_ok {A} (bs : list (list A)) : forall pre m,
  put_blocks (map Some pre ++ repeat None (length (concat bs) + m)) (length pre) bs = Ret (map Some (pre ++ concat bs) ++ repeat None m).
Proof.
  induction bs as [|b bs IH]; intros pre m; cbn [put_blocks concat].
  - cbn [length plus]. rewrite app_nil_r. reflexivity.
  - rewrite app_length, <- Nat.add_assoc, put_all_ok. cbn [obind].
    replace (length pre + length b) with (length (pre ++ b)) by apply app_length. rewrite IH, <- app_assoc. reflexivity.
Qed.
Definition field_block (f : string * nat) := map (FromField (fst f)) (seq 0 (snd f)).
Definition int_block (f : string * nat) := map (FromIntField (fst f)) (seq 0 (snd f)).
Definition derived_block (s : io_state) (k : nat) := map (FromDerived k) (seq 0 (nth k (map dq_ncomp (dm_vec (io_derived s))) 0)).
Definition all_sources (s : io_state) : list source :=
  flat_map field_block (io_fields s) ++ flat_map int_block (io_int_fields s) ++
  flat_map (derived_block s) (seq 0 (length (dm_vec (io_derived s)))).
Lemma flat_blocks {A} (bl : A -> list source) (sz : A -> nat) l : (forall x, length (bl x) = sz x) ->
  length (flat_map bl l) = list_sum (map sz l).
Proof. intros H. induction l as [|x l IH]; cbn; [reflexivity|]. rewrite app_length, H, IH. reflexivity. Qed.
Lemma derived_block_len s : length (flat_map (derived_block s) (seq 0 (length (dm_vec (io_derived s))))) = dm_num_comp (io_derived s).
Proof.
  rewrite (flat_blocks _ (fun k => nth k (map dq_ncomp (dm_vec (io_derived s))) 0)) by (intros; unfold derived_block; rewrite map_length, seq_length; reflexivity).
  unfold dm_num_comp. f_equal. set (l := map dq_ncomp (dm_vec (io_derived s))).
  rewrite <- (map_length dq_ncomp (dm_vec (io_derived s))). fold l. clearbody l.
  apply (nth_ext _ _ 0 0); [rewrite map_length, seq_length; reflexivity|]. intros n Hn. rewrite map_length, seq_length in Hn.
  rewrite (nth_indep _ 0 (nth 0 l 0)) by (rewrite map_length, seq_length; exact Hn).
  rewrite (map_nth (fun k => nth k l 0)), seq_nth by exact Hn. reflexivity.
Qed.
Lemma flat_names {A} (bl : A -> list source) (nm : A -> list string) (h : source -> string) l :
  (forall x, In x l -> nm x = map h (bl x)) -> flat_map nm l = map h (flat_map bl l).
Proof.
  induction l as [|x l IH]; intros H; cbn; [reflexivity|]. rewrite map_app, (H x) by (left; reflexivity).
  rewrite IH by (intros y Hy; apply H; right; exact Hy). reflexivity.
Qed.
Lemma names_block f n (mkS : nat -> source) (h : source -> string) : (forall c, c < n -> h (mkS c) = component_name f n c) ->
  var_names f n = map h (map mkS (seq 0 n)).
Proof.
  intros H. apply (nth_ext _ _ "" ""); [rewrite !map_length, seq_length, length_var_names; reflexivity|].
  intros c Hc. rewrite length_var_names in Hc. rewrite nth_var_names by exact Hc. rewrite map_map.
  rewrite (nth_indep _ "" (h (mkS 0))) by (rewrite map_length, seq_length; exact Hc).
  rewrite (map_nth (fun c => h (mkS c))), seq_nth by exact Hc. symmetry. apply H. exact Hc.
Qed.
Lemma known_In fld l n k : In (n, k) (known fld l) <-> In n l /\ fld n = Some k.
Proof.
  unfold known. rewrite in_flat_map. split.
  - intros (x & Hx & H). destruct (fld x) eqn:E; [|contradiction]. destruct H as [[= <- <-]|[]]. tauto.
  - intros (H & E). exists n. split; [exact H|]. rewrite E. left. reflexivity.
Qed.
(** The state after initialization: the derived quantities, if any are requested, come
    from the manager filtered by the selected variables. *)
Lemma init_shape fld ifld mk i s : initialize_io fld ifld mk i = Ret s ->
  io_fields s = known fld (io_set i) /\ io_int_fields s = known ifld (io_int_set i) /\
  io_names s = flat_map (fun f => var_names (fst f) (snd f)) (io_fields s) ++
               flat_map (fun f => var_names (fst f) (snd f)) (io_int_fields s) ++ dm_var_names (io_derived s) /\
  io_ncomp s = list_sum (map snd (io_fields s)) + list_sum (map snd (io_int_fields s)) + dm_num_comp (io_derived s) /\
  (in_derived i = [] -> io_derived s = dm_empty) /\
  (in_derived i <> [] -> exists d, dm_create_all mk dm_empty (in_derived i) = Ret d /\ dm_filter (io_set i) d = Ret (io_derived s)).
Proof.
  intros H. unfold initialize_io in H. cbv zeta in H. destruct (in_derived i) as [|k ks] eqn:D.
  - injection H as <-. cbn [io_fields io_int_fields io_names io_ncomp io_derived].
    change (dm_num_comp dm_empty) with 0. change (dm_var_names dm_empty) with (@nil string). rewrite app_nil_r. split; [reflexivity|]. split; [reflexivity|]. split; [reflexivity|]. split; [lia|].
    split; [reflexivity|]. intros X. contradiction X. reflexivity.
  - destruct (dm_create_all mk dm_empty (k :: ks)) as [d| |] eqn:E; try discriminate. cbn [obind] in H.
    destruct (dm_filter (io_set i) d) as [d'| |] eqn:F; try discriminate. cbn [obind] in H. injection H as <-.
    cbn [io_fields io_int_fields io_names io_ncomp io_derived]. rewrite <- app_assoc. split; [reflexivity|]. split; [reflexivity|]. split; [reflexivity|]. split; [lia|].
    split; [discriminate|]. intros _. exists d. split; [reflexivity|exact F].
Qed.
Theorem c45_layout : forall fld ifld mk i s, initialize_io fld ifld mk i = Ret s ->
  (forall nm args o, mk nm args = Ret o -> length (dq_vars o) = dq_ncomp o) ->
  write_plot_file s = Ret (map Some (all_sources s)) /\
  length (all_sources s) = io_ncomp s /\ length (io_names s) = io_ncomp s /\
  (forall c, c < io_ncomp s -> nth c (io_names s) "" = source_name s fld ifld (nth c (all_sources s) (FromDerived 0 0))).
Proof.
  intros fld ifld mk i s H V. destruct (init_shape _ _ _ _ _ H) as (Ef & Ei & En & Ec & D0 & D1).
  assert (DV : forall o, In o (dm_vec (io_derived s)) -> length (dq_vars o) = dq_ncomp o).
  { intros o Ho. destruct (in_derived i) as [|k ks] eqn:E; [rewrite (D0 eq_refl) in Ho; contradiction|].
    destruct (D1 ltac:(discriminate)) as (d & C & F). destruct (c45_derived mk (k :: ks) d C) as (F2 & _ & Fl).
    destruct (Fl (io_set i)) as (d' & Fd & Vd). rewrite F in Fd. injection Fd as <-. rewrite Vd in Ho. apply filter_In in Ho.
    destruct Ho as (Ho & _). clear - F2 Ho V. induction F2 as [|q o' qs os (t & P & M) F2 IH]; [contradiction|].
    destruct Ho as [<-|Ho]; [apply (V _ _ _ M)|apply IH; exact Ho]. }
  assert (LF : forall f, length (field_block f) = snd f) by (intros; unfold field_block; rewrite map_length, seq_length; reflexivity).
  assert (LI : forall f, length (int_block f) = snd f) by (intros; unfold int_block; rewrite map_length, seq_length; reflexivity).
  assert (Len : length (all_sources s) = io_ncomp s).
  { unfold all_sources. rewrite !app_length, derived_block_len, (flat_blocks _ snd _ LF), (flat_blocks _ snd _ LI), Ec. lia. }
  assert (Nm : io_names s = map (source_name s fld ifld) (all_sources s)).
  { rewrite En. unfold all_sources. rewrite !map_app. f_equal; [|f_equal].
    - apply flat_names. intros (n, k) Hx. rewrite Ef in Hx. apply known_In in Hx. cbn [fst snd]. unfold field_block. cbn [fst snd].
      apply names_block. intros c Hc. cbn [source_name]. rewrite (proj2 Hx). reflexivity.
    - apply flat_names. intros (n, k) Hx. rewrite Ei in Hx. apply known_In in Hx. cbn [fst snd]. unfold int_block. cbn [fst snd].
      apply names_block. intros c Hc. cbn [source_name]. rewrite (proj2 Hx). reflexivity.
    - unfold dm_var_names. rewrite <- (flat_names (derived_block s) (fun k => dq_vars (nth k (dm_vec (io_derived s)) (DQ "" 0 [])))).
      + set (v := dm_vec (io_derived s)). clearbody v. clear.
        assert (E : forall (l : list dqty) a pre, length pre = a ->
          flat_map dq_vars l = flat_map (fun k => dq_vars (nth k (pre ++ l) (DQ "" 0 []))) (seq a (length l))).
        { induction l as [|o l IH]; intros a pre Hp; [reflexivity|]. cbn [flat_map length seq]. f_equal.
          - rewrite app_nth2 by lia. rewrite Hp, Nat.sub_diag. reflexivity.
          - rewrite (IH (S a) (pre ++ [o])) by (rewrite app_length; cbn; lia). rewrite <- app_assoc. reflexivity. }
        apply (E v 0 []). reflexivity.
      + intros k Hk. apply in_seq in Hk. unfold derived_block. rewrite map_map. cbn [source_name].
        set (o := nth k (dm_vec (io_derived s)) (DQ "" 0 [])).
        assert (Ho : nth k (map dq_ncomp (dm_vec (io_derived s))) 0 = dq_ncomp o) by (unfold o; rewrite <- (map_nth dq_ncomp); reflexivity).
        rewrite Ho. assert (Lo : length (dq_vars o) = dq_ncomp o) by (apply DV; unfold o; apply nth_In; lia).
        apply (nth_ext _ _ "" ""); [rewrite map_length, seq_length; exact Lo|]. intros c Hc. rewrite Lo in Hc.
        rewrite (nth_indep (map _ _) "" (nth 0 (dq_vars o) "")) by (rewrite map_length, seq_length; exact Hc).
        rewrite (map_nth (fun c => nth c (dq_vars o) "")), seq_nth by exact Hc. reflexivity. }
  split; [|split; [exact Len|split; [rewrite Nm, map_length; exact Len|]]].
  - unfold write_plot_file. cbv zeta. fold (field_block) (int_block). fold (derived_block s).
    change (fun f : string * nat => map (FromField (fst f)) (seq 0 (snd f))) with field_block.
    change (fun f : string * nat => map (FromIntField (fst f)) (seq 0 (snd f))) with int_block.
    set (B1 := map field_block (io_fields s) ++ map int_block (io_int_fields s)).
    assert (L1 : length (concat B1) = list_sum (map snd (io_fields s)) + list_sum (map snd (io_int_fields s))).
    { unfold B1. rewrite concat_app, app_length, <- !flat_map_concat_map, (flat_blocks _ snd _ LF), (flat_blocks _ snd _ LI). reflexivity. }
    assert (E0 : io_ncomp s = length (concat B1) + dm_num_comp (io_derived s)) by lia.
    rewrite E0. pose proof (put_blocks_ok B1 [] (dm_num_comp (io_derived s))) as P. cbn [map app length] in P. rewrite P. cbn [obind].
    assert (LO : length (map Some (concat B1) ++ repeat None (dm_num_comp (io_derived s))) = length (concat B1) + dm_num_comp (io_derived s))
      by (rewrite app_length, map_length, repeat_length; reflexivity).
    rewrite Nat.add_sub, LO, Nat.leb_refl.
    set (B2 := map (derived_block s) (seq 0 (length (dm_vec (io_derived s))))).
    change (map (fun k => map (FromDerived k) (seq 0 (nth k (map dq_ncomp (dm_vec (io_derived s))) 0))) (seq 0 (length (dm_vec (io_derived s))))) with B2.
    assert (L2 : length (concat B2) = dm_num_comp (io_derived s)) by (unfold B2; rewrite <- flat_map_concat_map; apply derived_block_len).
    pose proof (put_blocks_ok B2 (concat B1) 0) as P2. rewrite L2, Nat.add_0_r in P2. rewrite P2. cbn [repeat]. rewrite app_nil_r.
    unfold all_sources, B1, B2. rewrite !flat_map_concat_map, app_assoc, concat_app. reflexivity.
  - intros c Hc. rewrite Nm. rewrite (nth_indep _ "" (source_name s fld ifld (FromDerived 0 0))) by (rewrite map_length; lia).
    apply map_nth.
Qed.
(** The sources: every component of every selected existing field exactly once, the
    components of a field next to each other and in order. *)
Lemma consecutive {A} (bl : A -> list source) l x : In x l -> exists p, forall c, c < length (bl x) ->
  nth_error (flat_map bl l) (p + c) = nth_error (bl x) c.
Proof.
  induction l as [|y l IH]; [contradiction|]. intros [->|H].
  - exists 0. intros c Hc. cbn. rewrite nth_error_app1 by exact Hc. reflexivity.
  - destruct (IH H) as (p & E). exists (length (bl y) + p). intros c Hc. cbn [flat_map].
    rewrite nth_error_app2 by lia. replace (length (bl y) + p + c - length (bl y)) with (p + c) by lia. apply E. exact Hc.
Qed.
Theorem c45_consecutive : forall fld ifld mk i s, initialize_io fld ifld mk i = Ret s ->
  (forall n k, In n (io_set i) -> fld n = Some k -> exists p, forall c, c < k -> nth_error (all_sources s) (p + c) = Some (FromField n c)) /\
  (forall n k, In n (io_int_set i) -> ifld n = Some k -> exists p, forall c, c < k -> nth_error (all_sources s) (p + c) = Some (FromIntField n c)) /\
  (forall d, d < length (dm_vec (io_derived s)) -> exists p, forall c, c < dq_ncomp (nth d (dm_vec (io_derived s)) (DQ "" 0 [])) ->
     nth_error (all_sources s) (p + c) = Some (FromDerived d c)) /\
  NoDup (all_sources s) /\
  (forall src, In src (all_sources s) -> match src with
     | FromField n c => In n (io_set i) /\ exists k, fld n = Some k /\ c < k
     | FromIntField n c => In n (io_int_set i) /\ exists k, ifld n = Some k /\ c < k
     | FromDerived d c => d < length (dm_vec (io_derived s)) end).
Proof.
  intros fld ifld mk i s H. destruct (init_shape _ _ _ _ _ H) as (Ef & Ei & _).
  assert (NE : forall (mkS : nat -> source) k c, c < k -> nth_error (map mkS (seq 0 k)) c = Some (mkS c)).
  { intros mkS k c Hc. rewrite nth_error_map, (nth_error_nth' _ 0) by (rewrite seq_length; exact Hc). rewrite seq_nth by exact Hc. reflexivity. }
  assert (Cov : forall src, In src (all_sources s) -> match src with
     | FromField n c => In n (io_set i) /\ exists k, fld n = Some k /\ c < k
     | FromIntField n c => In n (io_int_set i) /\ exists k, ifld n = Some k /\ c < k
     | FromDerived d c => d < length (dm_vec (io_derived s)) end).
  { intros src Hs. unfold all_sources in Hs. rewrite !in_app_iff, !in_flat_map in Hs. destruct Hs as [(x & Hx & Hs)|[(x & Hx & Hs)|(x & Hx & Hs)]].
    - destruct x as (n, k). rewrite Ef in Hx. apply known_In in Hx. unfold field_block in Hs. apply in_map_iff in Hs. cbn [fst snd] in Hs.
      destruct Hs as (c & <- & Hc). apply in_seq in Hc. split; [tauto|]. exists k. split; [tauto|lia].
    - destruct x as (n, k). rewrite Ei in Hx. apply known_In in Hx. unfold int_block in Hs. apply in_map_iff in Hs. cbn [fst snd] in Hs.
      destruct Hs as (c & <- & Hc). apply in_seq in Hc. split; [tauto|]. exists k. split; [tauto|lia].
    - apply in_map_iff in Hs. destruct Hs as (c & <- & Hc). apply in_seq in Hx. lia. }
  split; [|split; [|split; [|split]]].
  - intros n k Hn Hk. assert (Hx : In (n, k) (io_fields s)) by (rewrite Ef; apply known_In; tauto).
    destruct (consecutive field_block _ _ Hx) as (p & E). exists p. intros c Hc.
    assert (Lb : length (field_block (n, k)) = k) by (unfold field_block; rewrite map_length, seq_length; reflexivity).
    rewrite Lb in E. pose proof (E c Hc) as Ec. unfold field_block in Ec at 2. cbn [fst snd] in Ec. rewrite NE in Ec by exact Hc.
    unfold all_sources. rewrite nth_error_app1; [exact Ec|]. apply nth_error_Some. congruence.
  - intros n k Hn Hk. assert (Hx : In (n, k) (io_int_fields s)) by (rewrite Ei; apply known_In; tauto).
    destruct (consecutive int_block _ _ Hx) as (p & E). exists (length (flat_map field_block (io_fields s)) + p). intros c Hc.
    assert (Lb : length (int_block (n, k)) = k) by (unfold int_block; rewrite map_length, seq_length; reflexivity).
    rewrite Lb in E. pose proof (E c Hc) as Ec. unfold int_block in Ec at 2. cbn [fst snd] in Ec. rewrite NE in Ec by exact Hc.
    unfold all_sources. rewrite nth_error_app2 by lia.
    match goal with |- nth_error _ ?z = _ => replace z with (p + c) by lia end.
    rewrite nth_error_app1; [exact Ec|]. apply nth_error_Some. congruence.
  - intros d Hd. assert (Hx : In d (seq 0 (length (dm_vec (io_derived s))))) by (apply in_seq; lia).
    destruct (consecutive (derived_block s) _ _ Hx) as (p & E).
    exists (length (flat_map field_block (io_fields s)) + (length (flat_map int_block (io_int_fields s)) + p)). intros c Hc.
    assert (Ho : nth d (map dq_ncomp (dm_vec (io_derived s))) 0 = dq_ncomp (nth d (dm_vec (io_derived s)) (DQ "" 0 [])))
      by (rewrite <- (map_nth dq_ncomp); reflexivity).
    assert (Lb : length (derived_block s d) = dq_ncomp (nth d (dm_vec (io_derived s)) (DQ "" 0 [])))
      by (unfold derived_block; rewrite map_length, seq_length; exact Ho).
    rewrite Lb in E. pose proof (E c Hc) as Ec. unfold derived_block in Ec at 2. rewrite Ho, NE in Ec by exact Hc.
    unfold all_sources. rewrite nth_error_app2 by lia.
    match goal with |- nth_error _ ?z = _ => replace z with (length (flat_map int_block (io_int_fields s)) + (p + c)) by lia end.
    rewrite nth_error_app2 by lia.
    match goal with |- nth_error _ ?z = _ => replace z with (p + c) by lia end. exact Ec.
  - assert (NM : forall mkS : nat -> source, (forall a b, mkS a = mkS b -> a = b) -> forall k, NoDup (map mkS (seq 0 k))).
    { intros mkS Inj k. apply FinFun.Injective_map_NoDup; [exact Inj|apply seq_NoDup]. }
    assert (NF : forall (A : Type) (bl : A -> list source) (l : list A), NoDup l -> (forall x, NoDup (bl x)) ->
       (forall x y z, In x l -> In y l -> In z (bl x) -> In z (bl y) -> x = y) -> NoDup (flat_map bl l)).
    { intros A bl l Nl Nb Dj. induction Nl as [|x l Hx Nl IH]; cbn; [constructor|].
      assert (IH' : NoDup (flat_map bl l)) by (apply IH; intros a b z Ha Hb; apply Dj; right; assumption).
      assert (DD : forall z, In z (bl x) -> ~ In z (flat_map bl l)).
      { intros z Hz Hz'. apply in_flat_map in Hz'. destruct Hz' as (y & Hy & Hz').
        assert (x = y) by (apply (Dj x y z); [left; reflexivity|right; exact Hy|exact Hz|exact Hz']). subst. contradiction. }
      clear - IH' DD Nb. specialize (Nb x). induction Nb as [|z b Hz Nb IHb]; cbn; [exact IH'|].
      constructor; [|apply IHb; intros w Hw; apply DD; right; exact Hw].
      rewrite in_app_iff. intros [E|E]; [contradiction|]. apply (DD z); [left; reflexivity|exact E]. }
    assert (ND : forall (l1 l2 : list source), NoDup l1 -> NoDup l2 -> (forall z, In z l1 -> ~ In z l2) -> NoDup (l1 ++ l2)).
    { intros l1 l2 N1 N2 Dj. induction N1 as [|z b Hz N1 IHb]; cbn; [exact N2|].
      constructor; [|apply IHb; intros w Hw; apply Dj; right; exact Hw]. rewrite in_app_iff. intros [E|E]; [contradiction|].
      apply (Dj z); [left; reflexivity|exact E]. }
    assert (KN : forall fl l, NoDup l -> NoDup (known fl l)).
    { intros fl l Nl. induction Nl as [|x l Hx Nl IH]; cbn; [constructor|]. destruct (fl x) as [k|] eqn:E; cbn; [|exact IH].
      constructor; [|exact IH]. intros Hi. apply known_In in Hi. tauto. }
    assert (KU : forall fl l x y, In x (known fl l) -> In y (known fl l) -> fst x = fst y -> x = y).
    { intros fl l (a, b) (c, d) Hx Hy E. cbn in E. subst c. apply known_In in Hx. apply known_In in Hy. f_equal. destruct Hx, Hy. congruence. }
    unfold all_sources. apply ND; [| |].
    + apply NF.
      * rewrite Ef. apply KN. apply c45_selected. exact "".
      * intros x. apply NM. congruence.
      * intros x y z Hx Hy Zx Zy. apply in_map_iff in Zx. apply in_map_iff in Zy. destruct Zx as (a & <- & _). destruct Zy as (b & E & _).
        rewrite Ef in Hx, Hy. apply (KU fld (io_set i)); [exact Hx|exact Hy|congruence].
    + apply ND.
      * apply NF.
        -- rewrite Ei. apply KN. apply c45_selected. exact "".
        -- intros x. apply NM. congruence.
        -- intros x y z Hx Hy Zx Zy. apply in_map_iff in Zx. apply in_map_iff in Zy. destruct Zx as (a & <- & _). destruct Zy as (b & E & _).
           rewrite Ei in Hx, Hy. apply (KU ifld (io_int_set i)); [exact Hx|exact Hy|congruence].
      * apply NF; [apply seq_NoDup|intros x; apply NM; congruence|].
        intros x y z Hx Hy Zx Zy. apply in_map_iff in Zx. apply in_map_iff in Zy. destruct Zx as (a & <- & _). destruct Zy as (b & E & _). congruence.
      * intros z Zx Zy. apply in_flat_map in Zx. apply in_flat_map in Zy. destruct Zx as (x & _ & Zx). destruct Zy as (y & _ & Zy).
        apply in_map_iff in Zx. apply in_map_iff in Zy. destruct Zx as (a & <- & _). destruct Zy as (b & E & _). discriminate.
    + intros z Zx Zy. apply in_flat_map in Zx. destruct Zx as (x & _ & Zx). apply in_map_iff in Zx. destruct Zx as (a & <- & _).
      apply in_app_iff in Zy. destruct Zy as [Zy|Zy]; apply in_flat_map in Zy; destruct Zy as (y & _ & Zy); apply in_map_iff in Zy;
      destruct Zy as (b & E & _); discriminate.
  - exact Cov.
Qed.

(** *** C45: distinct names *)
Definition xyz_or_digit (c : ascii) : Prop :=
  In c ["x"; "y"; "z"; "0"; "1"; "2"; "3"; "4"; "5"; "6"; "7"; "8"; "9"]%char.
Definition no_clash (a b : string) : Prop := forall c s, b = (a ++ String c s)%string -> ~ xyz_or_digit c.
Lemma uint_digit d : forall c s, NilEmpty.string_of_uint d = String c s -> xyz_or_digit c.
Proof. unfold xyz_or_digit. destruct d; cbn; intros c s [= <- <-]; tauto. Qed.
Lemma to_string_inj a b : to_string a = to_string b -> a = b.
Proof.
  intros H. unfold to_string in H.
  assert (E : NilEmpty.uint_of_string (NilEmpty.string_of_uint (Nat.to_uint a)) = NilEmpty.uint_of_string (NilEmpty.string_of_uint (Nat.to_uint b)))
    by (rewrite H; reflexivity).
  rewrite !NilEmpty.usu in E. injection E as E. rewrite <- (DecimalNat.Unsigned.of_to a), <- (DecimalNat.Unsigned.of_to b), E. reflexivity.
Qed.
(** The suffix of a component. *)
Definition suffix (n c : nat) : string := component_name "" n c.
Lemma component_suffix f n c : component_name f n c = (f ++ suffix n c)%string.
Proof. unfold suffix, component_name. destruct (n =? 1)%nat; [rewrite string_app_nil; reflexivity|]. destruct (n =? 3)%nat; reflexivity. Qed.
Lemma suffix_char n c ch s : c < n -> suffix n c = String ch s -> xyz_or_digit ch.
Proof.
  intros Hc H. unfold suffix, component_name in H. cbn [append] in H.
  destruct (n =? 1)%nat eqn:E1; [discriminate|]. destruct (n =? 3)%nat eqn:E3.
  - apply Nat.eqb_eq in E3. subst n. unfold xyz_or_digit. destruct c as [|[|[|c]]]; [| | |lia]; cbn in H; injection H as <- <-; cbn; tauto.
  - apply (uint_digit _ _ _ H).
Qed.
Lemma suffix_inj n a b : a < n -> b < n -> suffix n a = suffix n b -> a = b.
Proof.
  intros Ha Hb H. unfold suffix, component_name in H. cbn [append] in H.
  destruct (n =? 1)%nat eqn:E1; [apply Nat.eqb_eq in E1; lia|]. destruct (n =? 3)%nat eqn:E3.
  - apply Nat.eqb_eq in E3. subst n. destruct a as [|[|[|a]]]; [| | |lia]; (destruct b as [|[|[|b]]]; [| | |lia]); cbn in H; try reflexivity; discriminate.
  - apply to_string_inj. exact H.
Qed.
Lemma string_app_inv a : forall b s t, (a ++ s = b ++ t)%string -> (exists u, b = (a ++ u)%string /\ s = (u ++ t)%string) \/ (exists u, a = (b ++ u)%string /\ t = (u ++ s)%string).
Proof.
  induction a as [|x a IH]; intros b s t H.
  - left. exists b. split; [reflexivity|exact H].
  - destruct b as [|y b]; [right; exists (String x a); split; [reflexivity|symmetry; exact H]|].
    cbn in H. injection H as -> H. destruct (IH b s t H) as [(u & -> & ->)|(u & -> & ->)].
    + left. exists u. split; reflexivity.
    + right. exists u. split; reflexivity.
Qed.
Lemma string_app_inj a s t : (a ++ s = a ++ t)%string -> s = t.
Proof. induction a as [|x a IH]; cbn; intros H; [exact H|]. injection H as H. apply IH. exact H. Qed.
(** All variable names differ, provided no name continues another one with x, y, z or a
    digit. *)
Theorem c45_names_distinct : forall l : list (string * nat), NoDup (map fst l) ->
  (forall a b, In a (map fst l) -> In b (map fst l) -> no_clash a b) ->
  NoDup (flat_map (fun f => var_names (fst f) (snd f)) l).
Proof.
  intros l N C.
  assert (VN : forall f n x, In x (var_names f n) -> exists c, c < n /\ x = (f ++ suffix n c)%string).
  { intros f n x Hx. destruct (In_nth _ _ "" Hx) as (c & Hc & <-). rewrite length_var_names in Hc. exists c. split; [exact Hc|].
    rewrite nth_var_names by exact Hc. apply component_suffix. }
  assert (Key : forall a n b m c d, In a (map fst l) -> In b (map fst l) -> c < n -> d < m -> (a ++ suffix n c = b ++ suffix m d)%string -> a = b).
  { intros a n b m c d Ha Hb Hc Hd E. destruct (string_app_inv _ _ _ _ E) as [(u & Eu & Es)|(u & Eu & Es)].
    - destruct u as [|ch u]; [rewrite string_app_nil in Eu; congruence|]. exfalso. apply (C a b Ha Hb ch u Eu). apply (suffix_char n c ch (u ++ suffix m d)%string Hc). exact Es.
    - destruct u as [|ch u]; [rewrite string_app_nil in Eu; congruence|]. exfalso. apply (C b a Hb Ha ch u Eu). apply (suffix_char m d ch (u ++ suffix n c)%string Hd). exact Es. }
  assert (Own : forall f n, NoDup (var_names f n)).
  { intros f n. apply (NoDup_nth _ ""). intros c d Hc Hd E. rewrite length_var_names in Hc, Hd.
    rewrite !nth_var_names, !component_suffix in E by assumption. apply string_app_inj in E. apply (suffix_inj n); assumption. }
  induction l as [|(f, n) l IH]; cbn [flat_map]; [constructor|]. cbn [map fst] in N. inversion N; subst.
  assert (IHl : NoDup (flat_map (fun f => var_names (fst f) (snd f)) l)).
  { apply IH; [assumption| |].
    - intros a b Ha Hb. apply C; right; assumption.
    - intros a n' b m c d Ha Hb. apply Key; right; assumption. }
  cbn [fst snd]. pose proof (Own f n) as Of.
  assert (DD : forall z, In z (var_names f n) -> ~ In z (flat_map (fun f => var_names (fst f) (snd f)) l)).
  { intros z Hz Hz'. apply in_flat_map in Hz'. destruct Hz' as ((g, m) & Hg & Hz'). cbn [fst snd] in Hz'.
    destruct (VN _ _ _ Hz) as (c & Hc & E1). destruct (VN _ _ _ Hz') as (d & Hd & E2).
    assert (Hgl : In g (map fst l)) by (apply in_map_iff; exists (g, m); split; [reflexivity|exact Hg]).
    assert (f = g) by (apply (Key f n g m c d); [left; reflexivity|right; exact Hgl|exact Hc|exact Hd|congruence]).
    subst g. contradiction. }
  clear - Of DD IHl. induction Of as [|z b Hz Nb IHb]; cbn; [exact IHl|].
  constructor; [|apply IHb; intros w Hw; apply DD; right; exact Hw].
  rewrite in_app_iff. intros [E|E]; [contradiction|]. apply (DD z); [left; reflexivity|exact E].
Qed.
(** Without that, two different variables get the same name in the plot file. *)
Definition no_derived (_ : string) (_ : list string) : outcome dqty := Abort.
Theorem c45_names_collide_refuted :
  ~ (forall fld ifld i s, initialize_io fld ifld no_derived i = Ret s -> NoDup (io_names s)).
Proof.
  intros H.
  specialize (H (fun s => if String.eqb s "velocity" then Some 3 else if String.eqb s "velocityx" then Some 1 else None)
                (fun _ => None) (IOIn true ["velocity"; "velocityx"] [] [] [] [] []) _ eq_refl).
  apply (NoDup_nth _ "") with (i := 0) (j := 3) in H; [discriminate|cbn; lia|cbn; lia|reflexivity].
Qed.
(** A derived quantity is dropped when a variable of that name was asked for, even if no
    such variable exists: then neither is written. *)
Theorem c45_derived_dropped_refuted :
  ~ (forall fld ifld stoi i s k, initialize_io fld ifld (dq_create fld stoi) i = Ret s -> In k (in_derived i) -> In k (io_set i) ->
       In k (io_names s)).
Proof.
  intros H.
  specialize (H (fun s => if String.eqb s "velocity" then Some 3 else None) (fun _ => None) (fun _ => None)
    (IOIn true ["mag_vorticity"] [] ["mag_vorticity"] [] ["velocity"] []) _ "mag_vorticity" eq_refl
    ltac:(left; reflexivity) ltac:(vm_compute; left; reflexivity)).
  vm_compute in H. repeat (destruct H as [H|H]; [discriminate|]). exact H.
Qed.

Example c45_case : initialize_io (fun s => if String.eqb s "velocity" then Some 3 else if String.eqb s "temperature" then Some 1 else None)
    (fun s => if String.eqb s "terrain_blank" then Some 1 else None)
    (dq_create (fun s => if String.eqb s "velocity" then Some 3 else None) (fun _ => Some 2%Z))
    (IOIn true ["temperature"; "velocity"; "nothing"] [] ["grad( velocity )"; "components(velocity,2)"] ["p"] ["p"; "velocity"] ["terrain_blank"])
  = Ret (IO [("temperature", 1); ("velocity", 3)] [("terrain_blank", 1)]
       (DM [dq_make "grad_velocity" 9] [("grad(velocity)", 0)])
       (["temperature"; "velocityx"; "velocityy"; "velocityz"; "terrain_blank"] ++
        ["grad_velocity0"; "grad_velocity1"; "grad_velocity2"; "grad_velocity3"; "grad_velocity4"; "grad_velocity5";
         "grad_velocity6"; "grad_velocity7"; "grad_velocity8"]) 14).
Proof. vm_compute. reflexivity. Qed.

Print Assumptions c42_create.
Print Assumptions c42_distinct.
Print Assumptions c42_shipped.
Print Assumptions c42_register_twice_refuted.
Print Assumptions c42_collection.
Print Assumptions c42_collection_dup.
Print Assumptions c45_derived.
Print Assumptions c45_filter_stale_refuted.
Print Assumptions c45_parse.
Print Assumptions c45_parse_empty_refuted.
Print Assumptions c45_derived_vars.
Print Assumptions c45_selected.
Print Assumptions c45_idempotent.
Print Assumptions c45_layout.
Print Assumptions c45_consecutive.
Print Assumptions c45_names_distinct.
Print Assumptions c45_names_collide_refuted.
Print Assumptions c45_derived_dropped_refuted.
