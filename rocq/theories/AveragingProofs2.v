(** The averaged fields in the store follow the scalar recurrences. *)
From Coq Require Import String Ascii.
From Verif Require Import BaseFacts Averaging SimTime SimTimeSpec AveragingSpec AveragingProofs.
Local Open Scope string_scope.
Local Open Scope list_scope.
Local Open Scope Q_scope.

(** *** Names *)
Lemma append_length a b : String.length (a ++ b)%string = (String.length a + String.length b)%nat.
Proof. induction a; simpl; auto. Qed.
Lemma append_inj_r a b c : (a ++ c = b ++ c)%string -> a = b.
Proof.
  revert b; induction a as [|x a IH]; destruct b as [|y b]; simpl; intro H; auto.
  - exfalso. apply (f_equal String.length) in H. simpl in H. rewrite append_length in H. lia.
  - exfalso. apply (f_equal String.length) in H. simpl in H. rewrite append_length in H. lia.
  - injection H as -> H. f_equal. auto.
Qed.
Lemma append_assoc a b c : (a ++ (b ++ c) = (a ++ b) ++ c)%string.
Proof. induction a; simpl; congruence. Qed.

Lemma avg_name_inj f g l : avg_name f l = avg_name g l -> f = g.
Proof. unfold avg_name. apply append_inj_r. Qed.

Lemma mean_not_stress f l : avg_name f l <> stress_name "velocity" l.
Proof.
  intro H. unfold avg_name, stress_name in H. rewrite !append_assoc in H. apply append_inj_r in H.
  simpl in H. do 20 (destruct f as [|? f]; [discriminate H|simpl in H; try discriminate H; injection H as ? H]); discriminate H.
Qed.
Lemma mean_not_re f l : avg_name f l <> re_stress_name "velocity" l.
Proof.
  intro H. unfold avg_name, re_stress_name in H. rewrite !append_assoc in H. apply append_inj_r in H.
  simpl in H. do 30 (destruct f as [|? f]; [discriminate H|simpl in H; try discriminate H; injection H as ? H]); discriminate H.
Qed.
Lemma stress_not_re l : stress_name "velocity" l <> re_stress_name "velocity" l.
Proof.
  intro H. unfold stress_name, re_stress_name in H. rewrite !append_assoc in H. apply append_inj_r in H. discriminate H.
Qed.

(** *** Objects *)
Definition mean_obj (l f : string) : averager := Mean f (avg_name f l).
Definition stress_obj (l : string) : averager :=
  Stress "velocity" (avg_name "velocity" l) (stress_name "velocity" l) (re_stress_name "velocity" l).

Definition obj_of (l : string) (q : string * string) : averager :=
  if String.eqb (fst q) "ReAveraging" then mean_obj l (snd q) else stress_obj l.

Definition targets (o : averager) : list string :=
  match o with Mean _ d => [d] | Stress _ _ s r => [s; r] end.

Definition ours (l : string) (o : averager) : Prop := (exists f, o = mean_obj l f) \/ o = stress_obj l.

Lemma targets_disjoint l o1 o2 n : ours l o1 -> ours l o2 -> In n (targets o1) -> In n (targets o2) -> o1 = o2.
Proof.
  intros [[f ->]| ->] [[g ->]| ->]; simpl; intros H1 H2.
  - destruct H1 as [H1|[]], H2 as [H2|[]]. rewrite <- H2 in H1. apply avg_name_inj in H1. subst f. reflexivity.
  - destruct H1 as [H1|[]]. exfalso. destruct H2 as [H2|[H2|[]]]; rewrite <- H2 in H1.
    + apply mean_not_stress in H1. assumption.
    + apply mean_not_re in H1. assumption.
  - destruct H2 as [H2|[]]. exfalso. destruct H1 as [H1|[H1|[]]]; rewrite <- H1 in H2.
    + apply mean_not_stress in H2. assumption.
    + apply mean_not_re in H2. assumption.
  - reflexivity.
Qed.

Lemma sset_same s n v : sset s n v n = Some v.
Proof. unfold sset. rewrite String.eqb_refl. reflexivity. Qed.
Lemma sset_other s n v m : m <> n -> sset s n v m = s m.
Proof. intro H. unfold sset. destruct (String.eqb_spec m n); [contradiction|reflexivity]. Qed.

Lemma run_avg_other W acc el c s o n : ~ In n (targets o) -> run_avg W acc el c s o n = s n.
Proof.
  destruct o; simpl; intro H.
  - apply sset_other. intro E. apply H. left. auto.
  - rewrite !sset_other; [reflexivity| |]; intro E; apply H; subst; auto.
Qed.

Lemma fold_other W acc el c objs : forall s n, (forall o, In o objs -> ~ In n (targets o)) ->
  fold_left (run_avg W acc el c) objs s n = s n.
Proof.
  induction objs as [|o r IH]; intros s n H; simpl; [reflexivity|].
  rewrite IH by (intros; apply H; right; assumption).
  apply run_avg_other. apply H. left. reflexivity.
Qed.

Lemma nodup_split {A} (l1 l2 : list A) (o o' : A) : NoDup (l1 ++ o :: l2) -> In o' (l1 ++ l2) -> o <> o'.
Proof.
  intros H Hi E. subst. apply NoDup_remove_2 in H. contradiction.
Qed.

Lemma fold_mean l W acc el c objs s f :
  Forall (ours l) objs -> NoDup objs -> In (mean_obj l f) objs ->
  fold_left (run_avg W acc el c) objs s (avg_name f l)
  = Some (map (fun n => update W acc el (rnth (sget s (avg_name f l)) n) (qnth (c_val c f) n))
            (seq 0 (length (c_val c f)))).
Proof.
  intros HO HN HI. destruct (in_split _ _ HI) as (l1 & l2 & E). subst objs.
  rewrite fold_left_app. cbn [fold_left].
  assert (D : forall o, In o (l1 ++ l2) -> ~ In (avg_name f l) (targets o)).
  { intros o Ho Ht. apply (nodup_split _ _ _ _ HN Ho).
    apply (targets_disjoint l _ _ (avg_name f l)).
    - left. exists f. reflexivity.
    - rewrite Forall_forall in HO. apply HO. apply in_or_app. apply in_app_or in Ho. simpl. tauto.
    - left. reflexivity.
    - assumption. }
  rewrite fold_other by (intros; apply D; apply in_or_app; auto).
  unfold run_avg at 1. cbn [mean_obj]. rewrite sset_same. unfold sget.
  rewrite fold_other by (intros; apply D; apply in_or_app; auto). reflexivity.
Qed.

(** The stress object sits behind the mean of the velocity. *)
Definition mean_first (l : string) (objs : list averager) : Prop :=
  forall l1 l2, objs = l1 ++ stress_obj l :: l2 -> In (mean_obj l "velocity") l1.

Lemma fold_stress l W acc el c objs s :
  Forall (ours l) objs -> NoDup objs -> mean_first l objs -> In (stress_obj l) objs ->
  length (c_val c "velocity") = 3%nat ->
  let s' := fold_left (run_avg W acc el c) objs s in
  let new := map (fun '(mn, (m, n)) =>
       update W acc el (rnth (sget s (stress_name "velocity" l)) mn)
          (qnth (c_val c "velocity") m * qnth (c_val c "velocity") n)) tensor in
  s' (stress_name "velocity" l) = Some new
  /\ s' (re_stress_name "velocity" l) =
     Some (map (fun '(mn, (m, n)) => rsub (rnth new mn)
        (rmul (rnth (sget s' (avg_name "velocity" l)) m) (rnth (sget s' (avg_name "velocity" l)) n))) tensor).
Proof.
  intros HO HN HF HI HL s' new.
  destruct (in_split _ _ HI) as (l1 & l2 & E).
  assert (HM := HF l1 l2 E).
  assert (D : forall nm o, In nm (targets (stress_obj l)) -> In o (l1 ++ l2) -> ~ In nm (targets o)).
  { intros nm o Hn Ho Ht. subst objs. apply (nodup_split _ _ _ _ HN Ho).
    apply (targets_disjoint l _ _ nm); try assumption.
    - right. reflexivity.
    - rewrite Forall_forall in HO. apply HO. apply in_or_app. apply in_app_or in Ho. simpl. tauto. }
  assert (DM : forall o, In o l2 -> ~ In (avg_name "velocity" l) (targets o)).
  { intros o Ho Ht. subst objs.
    assert (mean_obj l "velocity" <> o).
    { intro Eo. subst o. rewrite <- app_nil_l in HN.
      apply in_split in HM. destruct HM as (k1 & k2 & ->).
      rewrite app_nil_l, <- app_assoc in HN. cbn [app] in HN.
      apply NoDup_remove_2 in HN. apply HN. apply in_or_app. right. apply in_or_app. right. right. assumption. }
    apply H. apply (targets_disjoint l _ _ (avg_name "velocity" l)).
    - left. eexists; reflexivity.
    - rewrite Forall_forall in HO. apply HO. apply in_or_app. right. right. assumption.
    - left. reflexivity.
    - assumption. }
  assert (M : forall s0, fold_left (run_avg W acc el c) objs s0 (avg_name "velocity" l)
            = fold_left (run_avg W acc el c) l1 s0 (avg_name "velocity" l)).
  { intro s0. subst objs. rewrite fold_left_app. cbn [fold_left].
    rewrite fold_other by assumption. apply run_avg_other. simpl.
    intros [A|[A|[]]]; symmetry in A; [apply mean_not_stress in A|apply mean_not_re in A]; assumption. }
  assert (M' : sget s' (avg_name "velocity" l) = sget (fold_left (run_avg W acc el c) l1 s) (avg_name "velocity" l)).
  { unfold sget, s'. rewrite M. reflexivity. }
  rewrite M'. clear M M'. unfold s'. clear s'.
  subst objs. rewrite fold_left_app. cbn [fold_left].
  rewrite !fold_other by (intros; apply D; [simpl; auto|apply in_or_app; auto]).
  set (s1 := fold_left (run_avg W acc el c) l1 s) in *.
  cbn [run_avg stress_obj]. cbv zeta.
  rewrite HL.
  change (combine (seq 0 6) (pairs 3)) with tensor.
  rewrite (sset_other _ _ _ (stress_name "velocity" l)) by (apply stress_not_re).
  rewrite !sset_same.
  assert (U : sget (fold_left (run_avg W acc el c) l1 s) (stress_name "velocity" l) = sget s (stress_name "velocity" l)).
  { unfold sget. rewrite fold_other; [reflexivity|]. intros; apply D; [simpl; auto|apply in_or_app; auto]. }
  fold s1 in U. rewrite U. split; reflexivity.
Qed.

(** *** Set-up *)
Record ready (ncomp : string -> option nat) (l : string) (reqs : list (string * string)) (a : tavg) : Prop := {
  r_objs : ta_objs a = map (obj_of l) reqs;
  r_kinds : Forall (fun q => fst q = "ReAveraging" \/ q = ("ReynoldsStress", "velocity")) reqs;
  r_acc : ta_acc a = 0;
  r_mean : forall f, In ("ReAveraging", f) reqs ->
      exists n, ncomp f = Some n /\ ta_store a (avg_name f l) = Some (repeat (Some 0) n);
  r_stress : In ("ReynoldsStress", "velocity") reqs ->
      ta_store a (stress_name "velocity" l) = Some (repeat (Some 0) 6)
      /\ ta_store a (re_stress_name "velocity" l) = Some (repeat (Some 0) 6);
  r_first : forall q1 q2, reqs = q1 ++ ("ReynoldsStress", "velocity") :: q2 -> In ("ReAveraging", "velocity") q1;
  r_known : forall n v, ta_store a n = Some v -> exists q, In q reqs /\ In n (targets (obj_of l q)) }.

Lemma declare_keep s n k s1 : declare s n k = Ret s1 ->
  (forall m v, s m = Some v -> s1 m = Some v)
  /\ (forall m, m <> n -> s1 m = s m)
  /\ exists v, s1 n = Some v /\ length v = k /\ (s n = None -> v = repeat (Some 0) k) /\ (forall w, s n = Some w -> v = w).
Proof.
  unfold declare. destruct (s n) as [w|] eqn:E.
  - destruct (Nat.eqb_spec (length w) k); [|discriminate]. intros [= <-].
    split; [auto|]. split; [auto|]. exists w. repeat split; auto; congruence.
  - intros [= <-]. split; [|split].
    + intros m v H. unfold sset. destruct (String.eqb_spec m n); [subst; congruence|assumption].
    + intros m H. apply sset_other. assumption.
    + eexists. rewrite sset_same. split; [reflexivity|]. split; [apply repeat_length|]. split; [auto|congruence].
Qed.

Lemma stress_target_req l q : In (stress_name "velocity" l) (targets (obj_of l q)) -> fst q <> "ReAveraging".
Proof.
  unfold obj_of. destruct (String.eqb_spec (fst q) "ReAveraging"); [|auto]. simpl. intros [H|[]].
  apply mean_not_stress in H. contradiction.
Qed.
Lemma re_target_req l q : In (re_stress_name "velocity" l) (targets (obj_of l q)) -> fst q <> "ReAveraging".
Proof.
  unfold obj_of. destruct (String.eqb_spec (fst q) "ReAveraging"); [|auto]. simpl. intros [H|[]].
  apply mean_not_re in H. contradiction.
Qed.

Lemma mean_target_req l q f : In (avg_name f l) (targets (obj_of l q)) -> q = ("ReAveraging", f).
Proof.
  unfold obj_of. destruct q as [ty g]; simpl. destruct (String.eqb_spec ty "ReAveraging"); simpl.
  - intros [H|[]]. apply avg_name_inj in H. subst. reflexivity.
  - intros [H|[H|[]]]; exfalso; symmetry in H; [apply mean_not_stress in H|apply mean_not_re in H]; assumption.
Qed.

Lemma app_snoc_split {A} (q1 q2 r : list A) x y : r ++ [y] = q1 ++ x :: q2 ->
  (q2 = [] /\ q1 = r /\ x = y) \/ exists q3, q2 = q3 ++ [y] /\ r = q1 ++ x :: q3.
Proof.
  destruct q2 as [|z q2] using rev_ind.
  - intro H. apply app_inj_tail in H. destruct H; subst. auto.
  - intro H. change (x :: q2 ++ [z]) with ((x :: q2) ++ [z]) in H.
    rewrite app_assoc in H. apply app_inj_tail in H. destruct H; subst. right. eauto.
Qed.

Lemma create_ready ncomp l typ f reqs a o s :
  ready ncomp l reqs a -> ~ In (typ, f) reqs ->
  create ncomp l typ f (ta_store a) = Ret (o, s) ->
  forall reg, ready ncomp l (reqs ++ [(typ, f)]) {| ta_objs := ta_objs a ++ [o]; ta_reg := reg; ta_acc := ta_acc a; ta_store := s |}.
Proof.
  intros R HN H reg. unfold create in H.
  destruct (String.eqb_spec typ "ReAveraging").
  - subst typ. destruct (ncomp f) as [n|] eqn:En; [|discriminate].
    destruct (declare (ta_store a) (avg_name f l) n) as [s1| |] eqn:D; cbn in H; try discriminate.
    injection H as <- <-. apply declare_keep in D. destruct D as (D1 & D2 & v & D3 & D4 & D5 & _).
    assert (Fresh : ta_store a (avg_name f l) = None).
    { destruct (ta_store a (avg_name f l)) eqn:E; [|reflexivity]. exfalso.
      apply (r_known _ _ _ _ R) in E. destruct E as (q & Hq & Ht). apply mean_target_req in Ht. subst. contradiction. }
    constructor; cbn [ta_objs ta_acc ta_store].
    + rewrite (r_objs _ _ _ _ R), map_app. reflexivity.
    + apply Forall_app. split; [apply (r_kinds _ _ _ _ R)|]. constructor; [left; reflexivity|constructor].
    + apply (r_acc _ _ _ _ R).
    + intros g Hg. apply in_app_or in Hg. destruct Hg as [Hg|[Hg|[]]].
      * destruct (r_mean _ _ _ _ R g Hg) as (k & K1 & K2). exists k. split; [assumption|]. apply D1. assumption.
      * injection Hg as <-. exists n. split; [assumption|]. rewrite D3, D5; auto.
    + intro Hg. apply in_app_or in Hg. destruct Hg as [Hg|[Hg|[]]]; [|discriminate].
      destruct (r_stress _ _ _ _ R Hg). split; apply D1; assumption.
    + intros q1 q2 E. apply app_snoc_split in E. destruct E as [(-> & -> & E)|(q3 & -> & ->)]; [discriminate|].
      eapply (r_first _ _ _ _ R). reflexivity.
    + intros m w Hm. destruct (String.eqb_spec m (avg_name f l)).
      * exists ("ReAveraging", f). split; [apply in_or_app; simpl; auto|]. subst. left. reflexivity.
      * rewrite D2 in Hm by assumption. apply (r_known _ _ _ _ R) in Hm. destruct Hm as (q & Hq & Ht).
        exists q. split; [apply in_or_app; auto|assumption].
  - destruct (String.eqb_spec typ "ReynoldsStress"); [|discriminate]. subst typ.
    destruct (ncomp "velocity") as [nv|] eqn:En; [|discriminate].
    destruct (ta_store a (avg_name "velocity" l)) as [mv|] eqn:Em; [|discriminate].
    destruct (declare (ta_store a) (stress_name "velocity" l) 6) as [s1| |] eqn:D; cbn [obind] in H; try discriminate.
    destruct (declare s1 (re_stress_name "velocity" l) 6) as [s2| |] eqn:D'; cbn [obind] in H; try discriminate.
    destruct (String.eqb_spec f "velocity"); [|discriminate]. subst f.
    injection H as <- <-. apply declare_keep in D. destruct D as (D1 & D2 & v & D3 & D4 & D5 & _).
    apply declare_keep in D'. destruct D' as (D1' & D2' & v' & D3' & D4' & D5' & _).
    assert (Hm : In ("ReAveraging", "velocity") reqs).
    { apply (r_known _ _ _ _ R) in Em. destruct Em as (q & Hq & Ht). apply mean_target_req in Ht. subst. assumption. }
    assert (NoS : forall q, In q reqs -> fst q = "ReAveraging").
    { intros q Hq. destruct (proj1 (Forall_forall _ _) (r_kinds _ _ _ _ R) q Hq); [assumption|]. subst. contradiction. }
    assert (F1 : ta_store a (stress_name "velocity" l) = None).
    { destruct (ta_store a (stress_name "velocity" l)) eqn:E; [|reflexivity]. exfalso.
      apply (r_known _ _ _ _ R) in E. destruct E as (q & Hq & Ht). apply stress_target_req in Ht. apply Ht, NoS, Hq. }
    assert (F2 : ta_store a (re_stress_name "velocity" l) = None).
    { destruct (ta_store a (re_stress_name "velocity" l)) eqn:E; [|reflexivity]. exfalso.
      apply (r_known _ _ _ _ R) in E. destruct E as (q & Hq & Ht). apply re_target_req in Ht. apply Ht, NoS, Hq. }
    constructor; cbn [ta_objs ta_acc ta_store].
    + rewrite (r_objs _ _ _ _ R), map_app. reflexivity.
    + apply Forall_app. split; [apply (r_kinds _ _ _ _ R)|]. constructor; [right; reflexivity|constructor].
    + apply (r_acc _ _ _ _ R).
    + intros g Hg. apply in_app_or in Hg. destruct Hg as [Hg|[Hg|[]]]; [|discriminate].
      destruct (r_mean _ _ _ _ R g Hg) as (k & K1 & K2). exists k. split; [assumption|]. apply D1', D1. assumption.
    + intros _. split.
      * apply D1'. rewrite D3, D5; auto.
      * rewrite D3', D5'; auto. rewrite D2; [assumption|]. intro E. symmetry in E. apply stress_not_re in E. assumption.
    + intros q1 q2 E. apply app_snoc_split in E. destruct E as [(-> & -> & E)|(q3 & -> & ->)]; [assumption|].
      eapply (r_first _ _ _ _ R). reflexivity.
    + intros m w Hw. destruct (String.eqb_spec m (re_stress_name "velocity" l)).
      { exists ("ReynoldsStress", "velocity"). split; [apply in_or_app; simpl; auto|]. subst. right. left. reflexivity. }
      rewrite D2' in Hw by assumption. destruct (String.eqb_spec m (stress_name "velocity" l)).
      { exists ("ReynoldsStress", "velocity"). split; [apply in_or_app; simpl; auto|]. subst. left. reflexivity. }
      rewrite D2 in Hw by assumption. apply (r_known _ _ _ _ R) in Hw. destruct Hw as (q & Hq & Ht).
      exists q. split; [apply in_or_app; auto|assumption].
Qed.

Lemma nodup_app_l {A} (a b : list A) : NoDup (a ++ b) -> NoDup a.
Proof.
  induction a as [|x a IH]; simpl; intro H; [constructor|]. inversion H; subst.
  constructor; [|auto]. intro C. apply H2. apply in_or_app. auto.
Qed.

Lemma add_fields_ready ncomp l typ : forall fs reqs a a',
  ready ncomp l reqs a -> NoDup (reqs ++ map (fun f => (typ, f)) fs) ->
  add_fields ncomp l typ fs a = Ret a' -> ready ncomp l (reqs ++ map (fun f => (typ, f)) fs) a'.
Proof.
  induction fs as [|f r IH]; intros reqs a a' R HN H; simpl in *.
  - injection H as <-. rewrite app_nil_r. assumption.
  - destruct (create ncomp l typ f (ta_store a)) as [[o s]| |] eqn:C; try discriminate. cbn in H.
    assert (X : ~ In (typ, f) reqs).
    { intro X. apply NoDup_remove_2 in HN. apply HN. apply in_or_app. auto. }
    assert (R2 := create_ready _ _ _ _ _ _ _ _ R X C). clear R.
    change (reqs ++ (typ, f) :: map (fun f0 => (typ, f0)) r) with (reqs ++ [(typ, f)] ++ map (fun f0 => (typ, f0)) r).
    rewrite app_assoc. eapply IH; [apply R2| |exact H].
    rewrite <- app_assoc. assumption.
Qed.

Lemma add_entries_ready ncomp l : forall es reqs a a',
  ready ncomp l reqs a -> NoDup (reqs ++ requested es) ->
  add_entries ncomp l es a = Ret a' -> ready ncomp l (reqs ++ requested es) a'.
Proof.
  induction es as [|[[nm typ] fs] r IH]; intros reqs a a' R HN H; simpl in *.
  - injection H as <-. rewrite app_nil_r. assumption.
  - destruct (all_distinct fs); [|discriminate].
    destruct (add_fields ncomp l typ fs a) as [a1| |] eqn:C; try discriminate. cbn in H.
    unfold requested in *. cbn [flat_map] in *. rewrite app_assoc in HN |- *.
    eapply IH; [|exact HN|exact H].
    eapply add_fields_ready; [exact R| |exact C].
    apply nodup_app_l in HN. assumption.
Qed.

Lemma setup_ready ncomp l es a : setup ncomp l es = Ret a -> NoDup (requested es) -> ready ncomp l (requested es) a.
Proof.
  unfold setup. destruct (all_distinct _); [|discriminate]. intros H HN.
  apply (add_entries_ready ncomp l es [] _ a) in H; [assumption| |assumption].
  constructor; simpl; auto; try contradiction.
  - intros [|] ? E; discriminate.
  - intros; discriminate.
Qed.

(** *** Values along a run *)
Section Run.
  Variables (ncomp : string -> option nat) (l : string) (objs : list averager).
  Hypothesis HO : Forall (ours l) objs.
  Hypothesis HN : NoDup objs.

  Lemma averages_objs p : forall cs a, ta_objs (averages p a cs) = ta_objs a.
  Proof.
    induction cs as [|c r IH]; intro a; [reflexivity|]. cbn. unfold averages in IH. rewrite IH.
    unfold post_advance. destruct (do_avg _ _ _); reflexivity.
  Qed.

  Lemma rnth_map_seq (g : nat -> real) n j : (j < n)%nat -> rnth (map g (seq 0 n)) j = g j.
  Proof.
    intro H. unfold rnth. rewrite (nth_indep _ None (g n)) by (rewrite map_length, seq_length; assumption).
    rewrite map_nth, seq_nth by assumption. reflexivity.
  Qed.

  (** Mean components. *)
  Lemma mean_run p f n j : In (mean_obj l f) objs -> (j < n)%nat -> forall cs a v,
    ta_objs a = objs -> (forall c, In c cs -> length (c_val c f) = n) ->
    ta_store a (avg_name f l) = Some v -> length v = n ->
    exists v', ta_store (averages p a cs) (avg_name f l) = Some v' /\ length v' = n
      /\ rnth v' j = scalar p (fun c => qnth (c_val c f) j) (sched p (ta_acc a) cs) (rnth v j).
  Proof.
    intros HI Hj. induction cs as [|c r IH]; intros a v Ha Hs Hv Hl.
    - exists v. auto.
    - cbn [averages fold_left sched]. unfold post_advance at 2. 
      destruct (do_avg p (c_t c) (c_dt c)) eqn:D.
      + assert (Lc : length (c_val c f) = n) by (apply Hs; left; reflexivity).
        assert (M := fold_mean l (v_window p) (ta_acc a + c_dt c) (c_t c - v_start p) c objs (ta_store a) f HO HN HI).
        unfold sget in M. rewrite Hv in M.
        set (a1 := {| ta_objs := _; ta_reg := _; ta_acc := 0; ta_store := _ |}).
        set (nv := map _ (seq 0 (length (c_val c f)))) in M.
        assert (M1 : ta_store a1 (avg_name f l) = Some nv) by (unfold a1; cbn [ta_store]; rewrite Ha; exact M).
        assert (M2 : length nv = n) by (unfold nv; rewrite map_length, seq_length; assumption).
        destruct (IH a1 nv Ha (fun c0 H0 => Hs c0 (or_intror H0)) M1 M2) as (v' & E1 & E2 & E3).
        exists v'. split; [exact E1|]. split; [exact E2|]. rewrite E3. cbn [ta_acc a1].
        unfold scalar. cbn [fold_left]. f_equal. unfold nv. rewrite rnth_map_seq by lia. reflexivity.
      + destruct (IH {| ta_objs := ta_objs a; ta_reg := ta_reg a; ta_acc := ta_acc a + c_dt c; ta_store := ta_store a |} v Ha
                    (fun c0 H0 => Hs c0 (or_intror H0)) Hv Hl) as (v' & E1 & E2 & E3).
        exists v'. auto.
  Qed.

  Hypothesis HF : mean_first l objs.
  Hypothesis HS : In (stress_obj l) objs.

  Definition velprod (m n : nat) (c : call) : Q := qnth (c_val c "velocity") m * qnth (c_val c "velocity") n.

  Lemma rnth_tensor (g : nat * (nat * nat) -> real) mn m n : In (mn, (m, n)) tensor ->
    rnth (map g tensor) mn = g (mn, (m, n)).
  Proof. unfold tensor. simpl. intros H. repeat (destruct H as [H|H]; [injection H as <- <- <-; reflexivity|]). destruct H. Qed.

  Lemma stress_run p mn m n : In (mn, (m, n)) tensor -> forall cs a v,
    ta_objs a = objs -> (forall c, In c cs -> length (c_val c "velocity") = 3%nat) ->
    ta_store a (stress_name "velocity" l) = Some v -> length v = 6%nat ->
    exists v', ta_store (averages p a cs) (stress_name "velocity" l) = Some v' /\ length v' = 6%nat
      /\ rnth v' mn = scalar p (velprod m n) (sched p (ta_acc a) cs) (rnth v mn)
      /\ (sched p (ta_acc a) cs <> [] ->
          exists rv, ta_store (averages p a cs) (re_stress_name "velocity" l) = Some rv /\ length rv = 6%nat
           /\ let mv := sget (ta_store (averages p a cs)) (avg_name "velocity" l) in
              rnth rv mn = rsub (rnth v' mn) (rmul (rnth mv m) (rnth mv n))).
  Proof.
    intros Hmn. induction cs as [|c r IH] using rev_ind; intros a v Ha Hs Hv Hl.
    - exists v. simpl. repeat split; auto. congruence.
    - destruct (IH a v Ha (fun c0 H0 => Hs c0 (in_or_app _ _ _ (or_introl H0))) Hv Hl) as (v1 & E1 & E2 & E3 & E4).
      clear IH. unfold averages in *. rewrite fold_left_app. cbn [fold_left].
      assert (A1 : ta_objs (averages p a r) = objs) by (rewrite averages_objs; assumption).
      unfold averages in A1. set (a1 := fold_left (post_advance p) r a) in *.
      assert (SA : sched p (ta_acc a) (r ++ [c]) = sched p (ta_acc a) r ++
                   (if do_avg p (c_t c) (c_dt c) then [(ta_acc a1 + c_dt c, c)] else [])).
      { unfold a1. clear. revert a. induction r as [|d r IH]; intro a; simpl.
        - destruct (do_avg _ _ _); reflexivity.
        - specialize (IH (post_advance p a d)). unfold post_advance in IH at 1 2.
          destruct (do_avg p (c_t d) (c_dt d)); cbn [ta_acc app] in *; rewrite IH; reflexivity. }
      rewrite SA. unfold post_advance. destruct (do_avg p (c_t c) (c_dt c)) eqn:D; cbn [ta_store].
      + assert (L3 : length (c_val c "velocity") = 3%nat) by (apply Hs, in_or_app; right; left; reflexivity).
        destruct (fold_stress l (v_window p) (ta_acc a1 + c_dt c) (c_t c - v_start p) c objs (ta_store a1) HO HN HF HS L3) as [S1 S2].
        unfold sget at 1 in S1. rewrite E1 in S1. rewrite A1.
        set (s' := fold_left _ objs _) in *.
        eexists. split; [exact S1|]. split; [reflexivity|]. split.
        * rewrite (rnth_tensor _ mn m n Hmn). unfold scalar. rewrite fold_left_app. cbn [fold_left].
          unfold scalar in E3. rewrite <- E3. reflexivity.
        * intros _. eexists. split; [exact S2|]. split; [reflexivity|].
          cbv zeta. rewrite (rnth_tensor _ mn m n Hmn). unfold sget at 1. rewrite E1. reflexivity.
      + rewrite app_nil_r. exists v1. auto.
  Qed.
End Run.

Lemma obj_of_inj l q1 q2 :
  (fst q1 = "ReAveraging" \/ q1 = ("ReynoldsStress", "velocity")) ->
  (fst q2 = "ReAveraging" \/ q2 = ("ReynoldsStress", "velocity")) ->
  obj_of l q1 = obj_of l q2 -> q1 = q2.
Proof.
  destruct q1 as [t1 f1], q2 as [t2 f2]; simpl. unfold obj_of; simpl.
  intros [->|[= -> ->]] [->|[= -> ->]]; simpl; unfold mean_obj, stress_obj; try discriminate; auto.
  intros [= ->]. reflexivity.
Qed.

Lemma ready_facts ncomp l reqs a : ready ncomp l reqs a -> NoDup reqs ->
  Forall (ours l) (ta_objs a) /\ NoDup (ta_objs a) /\ mean_first l (ta_objs a)
  /\ (forall f, In ("ReAveraging", f) reqs -> In (mean_obj l f) (ta_objs a))
  /\ (In ("ReynoldsStress", "velocity") reqs -> In (stress_obj l) (ta_objs a)).
Proof.
  intros R HN. rewrite (r_objs _ _ _ _ R). assert (K := r_kinds _ _ _ _ R).
  split.
  { apply Forall_map, Forall_forall. intros [ty f] _. unfold ours, obj_of. destruct (String.eqb _ _); [left; eauto|right; reflexivity]. }
  split.
  { clear R. induction reqs as [|q r IH]; simpl; [constructor|]. inversion HN; inversion K; subst.
    constructor; [|apply IH; assumption]. intro Hi. apply in_map_iff in Hi. destruct Hi as (q' & E & Hq').
    apply obj_of_inj in E; [subst; contradiction| |assumption].
    rewrite Forall_forall in H6. apply H6. assumption. }
  split.
  { intros l1 l2 E. apply map_eq_app in E. destruct E as (q1 & q2 & -> & E1 & E2).
    apply map_eq_cons in E2. destruct E2 as (q & q3 & -> & E3 & E4).
    assert (q = ("ReynoldsStress", "velocity")).
    { apply Forall_app in K. destruct K as [_ K]. inversion K; subst. destruct H1 as [H1|H1]; [|assumption].
      unfold obj_of in E3. rewrite H1 in E3. discriminate. }
    subst q. rewrite <- E1. apply in_map_iff. exists ("ReAveraging", "velocity"). split; [reflexivity|].
    eapply (r_first _ _ _ _ R). reflexivity. }
  split; intros; apply in_map_iff.
  - exists ("ReAveraging", f). auto.
  - exists ("ReynoldsStress", "velocity"). auto.
Qed.
