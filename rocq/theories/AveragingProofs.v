(** Scalar averages: schedule of samples, weights, integrals. *)
From Coq Require Import String Qfield.
From Verif Require Import BaseFacts Averaging SimTime SimTimeSpec AveragingSpec.
Local Open Scope Q_scope.

Lemma loose_tol_pos : 0 < loose_tol.
Proof. reflexivity. Qed.

Lemma Qdiv_le_iff a b k : 0 < b -> (k <= a / b <-> k * b <= a).
Proof.
  intro Hb. assert (E : a == a / b * b) by (field; lra).
  split; intro H.
  - setoid_rewrite E at 1. apply Qmult_le_compat_r; lra.
  - rewrite E in H. apply Qmult_le_r in H; lra.
Qed.
Lemma Qdiv_lt_iff a b k : 0 < b -> (a / b < k <-> a < k * b).
Proof.
  intro Hb. assert (E : a == a / b * b) by (field; lra).
  split; intro H.
  - rewrite E. apply Qmult_lt_compat_r; lra.
  - rewrite E in H. apply Qmult_lt_r in H; lra.
Qed.

Lemma do_avg_due p t dt : ~ v_interval p == 0 -> 0 < dt ->
  do_avg p t dt = true <-> due p t dt.
Proof.
  intros Hi Hd. unfold do_avg, due.
  set (y := t - v_start p + loose_tol * dt).
  rewrite !andb_true_iff, orb_true_iff, Qleb_true, !Qltb_true.
  assert (K : v_interval p < 0 \/ (0 < v_interval p /\
     (y / v_interval p - qfloor (y / v_interval p) < dt / v_interval p <->
      exists k : Z, inject_Z k * v_interval p <= y /\ y < inject_Z k * v_interval p + dt))).
  { destruct (Qlt_le_dec (v_interval p) 0) as [|G]; [left; assumption|right].
    assert (P : 0 < v_interval p) by (destruct (Qle_lt_or_eq _ _ G); [assumption|exfalso; apply Hi; symmetry; assumption]).
    split; [assumption|]. set (T := v_interval p) in *.
    assert (Ey : y == y / T * T) by (field; lra).
    assert (Ed : dt == dt / T * T) by (field; lra).
    assert (F1 := qfloor_le (y / T)). assert (F2 := qfloor_lt (y / T)).
    split.
    - intro H. exists (Qfloor (y / T)). change (inject_Z (Qfloor (y / T))) with (qfloor (y / T)).
      split.
      + apply Qdiv_le_iff; assumption.
      + assert (Z : y / T < qfloor (y / T) + dt / T) by lra.
        apply (Qmult_lt_compat_r _ _ T) in Z; [|assumption].
        rewrite <- Ey in Z.
        assert (Z2 : (qfloor (y / T) + dt / T) * T == qfloor (y / T) * T + dt / T * T) by ring.
        rewrite <- Ed in Z2. lra.
    - intros (k & A & B).
      assert (A' : inject_Z k <= y / T) by (apply Qdiv_le_iff; assumption).
      assert (B' : y / T < inject_Z k + dt / T).
      { apply Qdiv_lt_iff; [assumption|].
        assert (Z2 : (inject_Z k + dt / T) * T == inject_Z k * T + dt / T * T) by ring.
        rewrite <- Ed in Z2. lra. }
      assert (C : inject_Z k <= qfloor (y / T)).
      { unfold qfloor. rewrite <- Zle_Qle. rewrite <- (Qfloor_Z k). apply Qfloor_resp_le. assumption. }
      lra. }
  destruct K as [K|[P K]].
  - tauto.
  - fold y. rewrite K. split.
    + intros [[A B] [C|C]]; [lra|]. tauto.
    + intros (A & B & [C|C]); [lra|]. tauto.
Qed.

(** Samples with the accumulated interval the code uses for each. *)
Fixpoint sched (p : avg_params) (acc : Q) (cs : list call) : list (Q * call) :=
  match cs with
  | [] => []
  | c :: r =>
    let acc' := acc + c_dt c in
    if do_avg p (c_t c) (c_dt c) then (acc', c) :: sched p 0 r else sched p acc' r
  end.

(** Running value of one scalar. *)
Definition upd (p : avg_params) (g : call -> Q) (x : real) (e : Q * call) : real :=
  update (v_window p) (fst e) (c_t (snd e) - v_start p) x (g (snd e)).
Definition scalar (p : avg_params) (g : call -> Q) (l : list (Q * call)) (x : real) : real :=
  fold_left (upd p g) l x.

Fixpoint chain (s prev : Q) (l : list (Q * call)) : Prop :=
  match l with
  | [] => True
  | (a, c) :: r => a == c_t c - prev /\ 0 < a /\ s <= c_t c /\ chain s (c_t c) r
  end.

Lemma chain_eq s q1 q2 l : q1 == q2 -> chain s q1 l -> chain s q2 l.
Proof.
  intro E. destruct l as [|[a c] r]; simpl; [auto|].
  intros (A & B & C & D). split; [rewrite A, E; reflexivity|]. auto.
Qed.

Lemma do_avg_start p t dt : do_avg p t dt = true -> v_start p <= t.
Proof. unfold do_avg. intro H. qprop. assumption. Qed.

Lemma sched_chain p : forall cs acc t, 0 <= acc -> steps_from t cs ->
  chain (v_start p) (t - acc) (sched p acc cs).
Proof.
  induction cs as [|c r IH]; intros acc t Ha H; simpl; [exact Logic.I|].
  destruct H as (H1 & H2 & H3).
  destruct (do_avg p (c_t c) (c_dt c)) eqn:D.
  - simpl. split; [rewrite H2; ring|]. split; [lra|]. split; [apply do_avg_start in D; assumption|].
    eapply chain_eq; [|apply IH; [|exact H3]]; lra.
  - eapply chain_eq; [|apply IH; [|exact H3]]; lra.
Qed.

Lemma sched_run p cs t0 : call_sequence t0 cs ->
  exists prev, prev <= t0 /\ chain (v_start p) prev (sched p 0 cs).
Proof.
  destruct cs as [|c r]; simpl; intro H.
  - exists t0. split; [lra|exact Logic.I].
  - destruct H as (H1 & H2 & H3). exists (t0 - c_dt c). split; [lra|].
    destruct (do_avg p (c_t c) (c_dt c)) eqn:D.
    + simpl. split; [rewrite H1; ring|]. split; [lra|]. split; [apply do_avg_start in D; assumption|].
      eapply chain_eq; [|apply sched_chain; [|exact H3]]; lra.
    + eapply chain_eq; [|apply sched_chain; [|exact H3]]; lra.
Qed.

Lemma steps_from_dt t cs : steps_from t cs -> Forall (fun c => 0 < c_dt c) cs.
Proof. revert t; induction cs; simpl; intros t H; [constructor|]. destruct H as (A & _ & B). constructor; eauto. Qed.
Lemma call_sequence_dt t cs : call_sequence t cs -> Forall (fun c => 0 < c_dt c) cs.
Proof. destruct cs; simpl; intro H; [constructor|]. destruct H as (_ & A & B). constructor; [assumption|]. eapply steps_from_dt; eauto. Qed.

Lemma sched_sampled p : ~ v_interval p == 0 -> forall cs smp acc,
  Forall (fun c => 0 < c_dt c) cs -> sampled p cs smp -> map snd (sched p acc cs) = smp.
Proof.
  intro Hi. induction cs as [|c r IH]; intros smp acc F H; inversion H; subst; simpl.
  - reflexivity.
  - inversion F; subst. apply (do_avg_due p _ _ Hi) in H2; [|assumption]. rewrite H2. simpl.
    f_equal. apply IH; assumption.
  - inversion F; subst. destruct (do_avg p (c_t c) (c_dt c)) eqn:D.
    + apply (do_avg_due p _ _ Hi) in D; [|assumption]. contradiction.
    + apply IH; assumption.
Qed.

(** *** Weights *)
Lemma filter_pos W acc el : 0 < acc -> 0 < filter_of W acc el.
Proof. intro H. unfold filter_of. assert (A := qmax_r (qmin W el) acc). lra. Qed.
Lemma factor_eq W acc el : factor_of W acc el == filter_of W acc el - acc.
Proof.
  unfold factor_of. assert (A := qmax_r (qmin W el) acc). fold (filter_of W acc el) in A.
  unfold qmax. destruct (Qltb (filter_of W acc el - acc) 0) eqn:E; qprop; lra.
Qed.

Lemma update_some W acc el x f : 0 < acc ->
  update W acc el (Some x) f = Some ((x * factor_of W acc el + f * acc) / filter_of W acc el).
Proof.
  intro H. unfold update. assert (F := filter_pos W acc el H).
  destruct (Qeq_bool (filter_of W acc el) 0) eqn:E; [|reflexivity].
  apply Qeq_bool_iff in E. lra.
Qed.

Lemma filter_first W acc el : el <= acc -> filter_of W acc el == acc.
Proof.
  intro H. unfold filter_of. assert (A := qmin_r W el). unfold qmax.
  destruct (Qltb (qmin W el) acc) eqn:E; qprop; lra.
Qed.

Lemma dot_app w1 w2 x1 x2 : length w1 = length x1 -> dot (w1 ++ w2) (x1 ++ x2) == dot w1 x1 + dot w2 x2.
Proof.
  revert x1; induction w1; destruct x1; simpl; intro H; try discriminate; [ring|].
  rewrite IHw1 by (injection H; auto). ring.
Qed.
Lemma total_app a b : total (a ++ b) == total a + total b.
Proof. induction a; simpl; [ring|]. rewrite IHa. ring. Qed.
Lemma dot_scale k w xs : dot (map (Qmult k) w) xs == k * dot w xs.
Proof. revert xs; induction w; destruct xs; simpl; try ring. rewrite IHw. ring. Qed.
Lemma total_scale k w : total (map (Qmult k) w) == k * total w.
Proof. induction w; simpl; [ring|]. rewrite IHw. ring. Qed.

Lemma chain_app s prev l1 l2 : chain s prev (l1 ++ l2) ->
  chain s prev l1 /\ chain s (match rev l1 with [] => prev | e :: _ => c_t (snd e) end) l2.
Proof.
  revert prev; induction l1 as [|[a c] r IH]; simpl; intros prev H; [auto|].
  destruct H as (A & B & C & D). apply IH in D. destruct D as [D E].
  split; [auto|]. destruct (rev r) as [|e q] eqn:R.
  - assert (r = []) by (rewrite <- (rev_involutive r), R; reflexivity). subst. assumption.
  - simpl. assumption.
Qed.

Lemma weights p prev l : chain (v_start p) prev l -> prev <= v_start p -> l <> [] ->
  exists w, length w = length l /\ Forall (Qle 0) w /\ total w == 1
    /\ forall g, exists v, scalar p g l (Some 0) = Some v /\ v == dot w (map (fun e => g (snd e)) l).
Proof.
  induction l as [|[a c] l IH] using rev_ind; [congruence|]. intros H Hp _. apply chain_app in H. destruct H as [H1 H2].
  simpl in H2. destruct H2 as (E & P & S & _).
  destruct l as [|e l'].
  - simpl in E. exists [1]. split; [reflexivity|]. split; [constructor; [lra|constructor]|]. split; [simpl; ring|].
    intro g. unfold scalar, upd. cbn [app fold_left fst snd]. rewrite update_some by assumption.
    eexists. split; [reflexivity|].
    assert (F : filter_of (v_window p) a (c_t c - v_start p) == a) by (apply filter_first; lra).
    assert (K := factor_eq (v_window p) a (c_t c - v_start p)).
    rewrite K, F. simpl. field. lra.
  - destruct IH as (w & L & N & T & G); [assumption|assumption|discriminate|].
    set (l0 := e :: l') in *. clearbody l0.
    assert (FP := filter_pos (v_window p) a (c_t c - v_start p) P).
    assert (K := factor_eq (v_window p) a (c_t c - v_start p)).
    set (fi := filter_of (v_window p) a (c_t c - v_start p)) in *.
    set (fa := factor_of (v_window p) a (c_t c - v_start p)) in *.
    assert (Fa0 : 0 <= fa). { unfold fa, factor_of. apply qmax_r. }
    assert (Hinv : 0 <= / fi) by (apply Qinv_le_0_compat; lra).
    exists (map (Qmult (fa / fi)) w ++ [a / fi]).
    split; [rewrite !app_length, map_length, L; reflexivity|].
    split.
    { apply Forall_app. split.
      - apply Forall_map. eapply Forall_impl; [|exact N]. intros x Hx.
        apply Qmult_le_0_compat; [|assumption]. unfold Qdiv. apply Qmult_le_0_compat; assumption.
      - constructor; [|constructor]. unfold Qdiv. apply Qmult_le_0_compat; [lra|assumption]. }
    split.
    { rewrite total_app, total_scale, T. simpl. rewrite K. field. lra. }
    intro g. destruct (G g) as (v & E1 & E2).
    unfold scalar in *. rewrite fold_left_app, E1. unfold upd. cbn [fold_left fst snd].
    rewrite update_some by assumption. fold fi fa.
    eexists. split; [reflexivity|].
    rewrite map_app. rewrite dot_app by (rewrite !map_length; assumption).
    rewrite dot_scale, <- E2. simpl. field. lra.
Qed.

(** *** Exact mean while the window is not full *)
Lemma filter_long W acc el : acc <= el -> el <= W -> filter_of W acc el == el.
Proof.
  intros H1 H2. unfold filter_of, qmin, qmax. destruct (Qltb el W) eqn:E.
  - destruct (Qltb el acc) eqn:E2; qprop; lra.
  - qprop. destruct (Qltb W acc) eqn:E2; qprop; lra.
Qed.

Definition stamped (g : call -> Q) (l : list (Q * call)) : list (Q * Q) :=
  map (fun e => (c_t (snd e), g (snd e))) l.

Lemma integral_eq q1 q2 l : q1 == q2 -> integral q1 l == integral q2 l.
Proof. intro E. destruct l as [|[t f] r]; simpl; [reflexivity|]. rewrite E. reflexivity. Qed.

Lemma mean_continue p g : forall l tp x, chain (v_start p) tp l -> v_start p <= tp ->
  (forall e, In e l -> c_t (snd e) - v_start p <= v_window p) ->
  exists v, scalar p g l (Some x) = Some v
    /\ v * (last (map (fun e => c_t (snd e)) l) tp - v_start p)
       == x * (tp - v_start p) + integral tp (stamped g l).
Proof.
  induction l as [|[a c] r IH]; intros tp x H Ht HW.
  - exists x. split; [reflexivity|]. simpl. ring.
  - simpl in H. destruct H as (E & P & S & C).
    unfold scalar. cbn [fold_left]. unfold upd at 2. cbn [fst snd].
    rewrite update_some by assumption.
    destruct (IH (c_t c) ((x * factor_of (v_window p) a (c_t c - v_start p) + g c * a) /
          filter_of (v_window p) a (c_t c - v_start p)) C S) as (v & E1 & E2).
    { intros e He. apply HW. right. assumption. }
    unfold scalar in E1. exists v. split; [assumption|].
    assert (L : last (map (fun e => c_t (snd e)) ((a, c) :: r)) tp = last (map (fun e => c_t (snd e)) r) (c_t c)).
    { cbn [map snd]. generalize (c_t c) as u. clear. induction r as [|e r IH]; intro u; [reflexivity|].
      cbn [map] in *. change (last (u :: c_t (snd e) :: map (fun e => c_t (snd e)) r) tp) with
        (last (c_t (snd e) :: map (fun e => c_t (snd e)) r) tp).
      rewrite IH. symmetry. destruct r; [reflexivity|].
      cbn [map]. change (last (c_t (snd e) :: c_t (snd p) :: map (fun e => c_t (snd e)) r) u) with
        (last (c_t (snd p) :: map (fun e => c_t (snd e)) r) u).
      clear. generalize (c_t (snd p)) as q. induction r; intro q; [reflexivity|]. cbn [map] in *. cbn [last]. apply IHr. }
    rewrite L, E2. simpl.
    assert (W := HW (a, c) (or_introl eq_refl)). cbn [snd] in W.
    assert (F : filter_of (v_window p) a (c_t c - v_start p) == c_t c - v_start p) by (apply filter_long; lra).
    assert (K := factor_eq (v_window p) a (c_t c - v_start p)).
    rewrite K, F. rewrite E. field. lra.
Qed.

Lemma mean_exact p g prev l : chain (v_start p) prev l -> prev <= v_start p -> l <> [] ->
  (forall e, In e l -> c_t (snd e) - v_start p <= v_window p) ->
  exists v, scalar p g l (Some 0) = Some v
    /\ v * (last (map (fun e => c_t (snd e)) l) 0 - v_start p) == integral (v_start p) (stamped g l)
    /\ (forall e, l = [e] -> v == g (snd e)).
Proof.
  destruct l as [|[a c] r]; [congruence|]. intros H Hp _ HW.
  simpl in H. destruct H as (E & P & S & C).
  unfold scalar. cbn [fold_left]. unfold upd at 2. cbn [fst snd]. rewrite update_some by assumption.
  assert (F : filter_of (v_window p) a (c_t c - v_start p) == a) by (apply filter_first; lra).
  assert (K := factor_eq (v_window p) a (c_t c - v_start p)).
  set (x := (0 * factor_of (v_window p) a (c_t c - v_start p) + g c * a) / filter_of (v_window p) a (c_t c - v_start p)).
  assert (X : x == g c). { unfold x. rewrite F. field. lra. }
  destruct (mean_continue p g r (c_t c) x C S) as (v & E1 & E2).
  { intros e He. apply HW. right. assumption. }
  exists v. split; [exact E1|]. split.
  - destruct r as [|e r']; simpl in *.
    + rewrite E2, X. ring.
    + assert (L : forall q1 q2 (u : list Q) h, last (h :: u) q1 = last (h :: u) q2).
      { clear. intros q1 q2 u; induction u; intro h; [reflexivity|]. cbn [last] in *. apply IHu. }
      fold (stamped g r') in *.
      change (match map (fun e0 => c_t (snd e0)) r' with [] => c_t (snd e) | _ :: _ => last (map (fun e0 => c_t (snd e0)) r') 0 end)
        with (last (c_t (snd e) :: map (fun e0 => c_t (snd e0)) r') 0).
      rewrite (L 0 (c_t c)).
      change (last (c_t (snd e) :: map (fun e0 => c_t (snd e0)) r') (c_t c)) with
        (match map (fun e0 => c_t (snd e0)) r' with [] => c_t (snd e) | _ :: _ => last (map (fun e0 => c_t (snd e0)) r') (c_t c) end).
      rewrite E2, X. ring.
  - intros e [= <- ->]. simpl in E1. injection E1 as <-. assumption.
Qed.
