(** Averages requested through add_averaging after the input file was read. *)
From Coq Require Import String Ascii.
From Verif Require Import BaseFacts Averaging.
Local Open Scope string_scope.
Local Open Scope list_scope.
Local Open Scope Q_scope.

Lemma chars_app a b : list_ascii_of_string (a ++ b)%string = list_ascii_of_string a ++ list_ascii_of_string b.
Proof. induction a; cbn; [reflexivity|]. now rewrite IHa. Qed.
Lemma chars_inj a b : list_ascii_of_string a = list_ascii_of_string b -> a = b.
Proof. intros E. rewrite <- (string_of_list_ascii_of_string a), E. apply string_of_list_ascii_of_string. Qed.

Definition known (typ : string) : Prop := typ = "ReAveraging" \/ typ = "ReynoldsStress".

Lemma key_inj f typ f' typ' : known typ -> known typ' -> avg_key f typ = avg_key f' typ' -> f = f' /\ typ = typ'.
Proof.
  intros K K' E. apply (f_equal list_ascii_of_string) in E. unfold avg_key in E. rewrite !chars_app in E.
  destruct K as [->| ->], K' as [->| ->].
  - apply app_inv_tail in E. split; [apply chars_inj; exact E|reflexivity].
  - exfalso. apply (f_equal (@rev ascii)) in E. rewrite !rev_app_distr in E. cbn in E. discriminate.
  - exfalso. apply (f_equal (@rev ascii)) in E. rewrite !rev_app_distr in E. cbn in E. discriminate.
  - apply app_inv_tail in E. split; [apply chars_inj; exact E|reflexivity].
Qed.

Lemma lookup_none {A} k (l : list (string * A)) : lookup k l = None <-> ~ In k (map fst l).
Proof.
  unfold lookup. destruct (find _ l) as [e|] eqn:E.
  - apply find_some in E. destruct E as [I E]. apply String.eqb_eq in E. split; [discriminate|].
    intros N. exfalso. apply N. rewrite <- E. now apply in_map.
  - split; [intros _|reflexivity]. intros I. apply in_map_iff in I. destruct I as (e & <- & I).
    apply (find_none _ _ E) in I. cbn in I. rewrite String.eqb_refl in I. discriminate.
Qed.

Lemma create_known ncomp label typ f s o s' : create ncomp label typ f s = Ret (o, s') -> known typ.
Proof.
  unfold create, known. intros E. destruct (String.eqb_spec typ "ReAveraging"); [now left|].
  destruct (String.eqb_spec typ "ReynoldsStress"); [now right|]. discriminate.
Qed.

Lemma add_fields_keys ncomp label typ : forall fs a a', add_fields ncomp label typ fs a = Ret a' ->
  (fs <> [] -> known typ)
  /\ forall k, In k (map fst (ta_reg a')) <-> In k (map fst (ta_reg a)) \/ exists f, In f fs /\ k = avg_key f typ.
Proof.
  induction fs as [|f fs IH]; intros a a' E; cbn [add_fields] in E.
  - injection E as <-. split; [congruence|]. intros k. split; [now left|]. intros [H|(f & [] & _)]. exact H.
  - destruct (create ncomp label typ f (ta_store a)) as [[o s]| |] eqn:EC; cbn [obind] in E; try discriminate.
    apply IH in E. destruct E as [_ E]. split; [intros _; eapply create_known; eauto|].
    intros k. rewrite E. cbn [ta_reg]. clear E.
    assert (K : In k (map fst (match lookup (avg_key f typ) (ta_reg a) with
        Some _ => ta_reg a | None => ta_reg a ++ [(avg_key f typ, o)] end)) <->
        In k (map fst (ta_reg a)) \/ k = avg_key f typ).
    { destruct (lookup (avg_key f typ) (ta_reg a)) eqn:L.
      - split; [now left|]. intros [H|H]; [exact H|]. subst k.
        destruct (in_dec String.string_dec (avg_key f typ) (map fst (ta_reg a))) as [I|I]; [exact I|].
        apply lookup_none in I. congruence.
      - rewrite map_app, in_app_iff. cbn. split; [intros [H|[H|[]]]; auto|intros [H|H]; auto]. }
    rewrite K. split.
    + intros [[H|H]|(g & I & H)]; [now left|right; exists f; split; [now left|exact H]|right; exists g; split; [now right|exact H]].
    + intros [H|(g & [->|I] & H)]; [left; now left|left; now right|right; exists g; auto].
Qed.

Lemma add_entries_keys ncomp label : forall es a a', add_entries ncomp label es a = Ret a' ->
  (forall l typ fs, In (l, typ, fs) es -> fs <> [] -> known typ)
  /\ forall k, In k (map fst (ta_reg a')) <->
       In k (map fst (ta_reg a)) \/ exists l typ fs f, In (l, typ, fs) es /\ In f fs /\ k = avg_key f typ.
Proof.
  induction es as [|[[l typ] fs] es IH]; intros a a' E; cbn [add_entries] in E.
  - injection E as <-. split; [intros ? ? ? []|]. intros k. split; [now left|].
    intros [H|(? & ? & ? & ? & [] & _)]. exact H.
  - destruct (all_distinct fs); [|discriminate].
    destruct (add_fields ncomp label typ fs a) as [a1| |] eqn:E1; cbn [obind] in E; try discriminate.
    apply add_fields_keys in E1. destruct E1 as [K1 E1]. apply IH in E. destruct E as [K2 E]. split.
    + intros l' typ' fs' [H|H]; [|eapply K2; eauto]. injection H as <- <- <-. exact K1.
    + intros k. rewrite E, E1. split.
      * intros [[H|(f & I & H)]|(l' & t' & fs' & f & I & J & H)]; [now left| |].
        -- right. exists l, typ, fs, f. split; [now left|]. split; assumption.
        -- right. exists l', t', fs', f. split; [now right|]. split; assumption.
      * intros [H|(l' & t' & fs' & f & [I|I] & J & H)]; [left; now left| |].
        -- injection I as <- <- <-. left. right. exists f. auto.
        -- right. exists l', t', fs', f. auto.
Qed.

Theorem request_configured ncomp lbl es a l typ fs f :
  setup ncomp lbl es = Ret a -> In (l, typ, fs) es -> In f fs -> add_averaging ncomp lbl f typ a = Ret a.
Proof.
  unfold setup. intros E I J. destruct (all_distinct _); [|discriminate].
  apply add_entries_keys in E. destruct E as [_ E].
  unfold add_averaging. destruct (lookup (avg_key f typ) (ta_reg a)) eqn:L; [reflexivity|].
  exfalso. apply lookup_none in L. apply L. apply E. right. exists l, typ, fs, f. auto.
Qed.

Theorem request_new ncomp lbl es a typ f a' :
  setup ncomp lbl es = Ret a -> known typ -> (forall l fs, In (l, typ, fs) es -> ~ In f fs) ->
  add_averaging ncomp lbl f typ a = Ret a' ->
  exists o s, create ncomp lbl typ f (ta_store a) = Ret (o, s) /\ ta_objs a' = ta_objs a ++ [o] /\ ta_store a' = s.
Proof.
  unfold setup. intros E KT NI R. destruct (all_distinct _); [|discriminate].
  apply add_entries_keys in E. destruct E as [K E].
  assert (L : lookup (avg_key f typ) (ta_reg a) = None).
  { apply lookup_none. intros I. apply E in I. destruct I as [[]|(l & t' & fs & f' & I & J & H)].
    apply key_inj in H; [|exact KT|eapply K; eauto; intros ->; exact J].
    destruct H as [-> ->]. exact (NI l fs I J). }
  unfold add_averaging in R. rewrite L in R.
  destruct (create ncomp lbl typ f (ta_store a)) as [[o s]| |]; cbn [obind] in R; try discriminate.
  injection R as <-. exists o, s. auto.
Qed.
