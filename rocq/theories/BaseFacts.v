(** Facts about the shared vocabulary. *)
From Verif Require Export Base.
From Coq Require Import Qabs Setoid.

Lemma Qltb_true x y : Qltb x y = true <-> x < y.
Proof.
  unfold Qltb. rewrite negb_true_iff. split; intro H.
  - apply Qnot_le_lt. intro C. apply Qle_bool_iff in C. congruence.
  - destruct (Qle_bool y x) eqn:E; [|reflexivity].
    apply Qle_bool_iff in E. exfalso. apply (Qlt_not_le _ _ H E).
Qed.

Lemma Qltb_false x y : Qltb x y = false <-> y <= x.
Proof.
  unfold Qltb. rewrite negb_false_iff. apply Qle_bool_iff.
Qed.

Lemma Qleb_true x y : Qleb x y = true <-> x <= y.
Proof. apply Qle_bool_iff. Qed.

Lemma Qleb_false x y : Qleb x y = false <-> y < x.
Proof.
  unfold Qleb. split; intro H.
  - apply Qnot_le_lt. intro C. apply Qle_bool_iff in C. congruence.
  - destruct (Qle_bool x y) eqn:E; [|reflexivity].
    apply Qle_bool_iff in E. exfalso. apply (Qlt_not_le _ _ H E).
Qed.

(** Turn boolean comparisons in hypotheses into propositions. *)
Ltac qprop :=
  repeat match goal with
  | H : Qltb _ _ = true |- _ => apply Qltb_true in H
  | H : Qltb _ _ = false |- _ => apply Qltb_false in H
  | H : Qleb _ _ = true |- _ => apply Qleb_true in H
  | H : Qleb _ _ = false |- _ => apply Qleb_false in H
  | H : Qle_bool _ _ = true |- _ => apply Qle_bool_iff in H
  | H : andb _ _ = true |- _ => apply andb_true_iff in H; destruct H
  | H : orb _ _ = false |- _ => apply orb_false_iff in H; destruct H
  | H : negb _ = true |- _ => apply negb_true_iff in H
  | H : negb _ = false |- _ => apply negb_false_iff in H
  end.

Lemma qmin_spec a b : (qmin a b <= a /\ qmin a b <= b) /\ (qmin a b = a \/ qmin a b = b).
Proof. unfold qmin. destruct (Qltb b a) eqn:E; qprop; split; auto; split; lra. Qed.

Lemma qmax_spec a b : (a <= qmax a b /\ b <= qmax a b) /\ (qmax a b = a \/ qmax a b = b).
Proof. unfold qmax. destruct (Qltb a b) eqn:E; qprop; split; auto; split; lra. Qed.

Lemma qmin_l a b : qmin a b <= a. Proof. apply qmin_spec. Qed.
Lemma qmin_r a b : qmin a b <= b. Proof. apply qmin_spec. Qed.
Lemma qmax_l a b : a <= qmax a b. Proof. apply qmax_spec. Qed.
Lemma qmax_r a b : b <= qmax a b. Proof. apply qmax_spec. Qed.

Lemma qmin_pos a b : 0 < a -> 0 < b -> 0 < qmin a b.
Proof. intros. unfold qmin. destruct (Qltb b a); auto. Qed.
Lemma qmin_glb a b c : c <= a -> c <= b -> c <= qmin a b.
Proof. intros. unfold qmin. destruct (Qltb b a); auto. Qed.
Lemma qmin_glb_lt a b c : c < a -> c < b -> c < qmin a b.
Proof. intros. unfold qmin. destruct (Qltb b a); auto. Qed.

Lemma qfloor_le x : qfloor x <= x.
Proof. apply Qfloor_le. Qed.
Lemma qfloor_lt x : x < qfloor x + 1.
Proof.
  unfold qfloor. assert (H := Qlt_floor x).
  rewrite inject_Z_plus in H. exact H.
Qed.

Lemma inject_Z_pos z : (0 < z)%Z <-> 0 < inject_Z z.
Proof. rewrite (Zlt_Qlt 0 z). reflexivity. Qed.

Lemma qfloor_unique x z : inject_Z z <= x -> x < inject_Z z + 1 -> Qfloor x = z.
Proof.
  intros H1 H2.
  assert (A := Qfloor_le x). assert (B := Qlt_floor x).
  rewrite inject_Z_plus in B. change (inject_Z 1) with 1 in B.
  assert (inject_Z z < inject_Z (Qfloor x) + inject_Z 1) by (change (inject_Z 1) with 1; lra).
  assert (inject_Z (Qfloor x) < inject_Z z + inject_Z 1) by (change (inject_Z 1) with 1; lra).
  rewrite <- inject_Z_plus in *. rewrite <- Zlt_Qlt in *. lia.
Qed.

Lemma Qdiv_pos a b : 0 < a -> 0 < b -> 0 < a / b.
Proof. intros Ha Hb. unfold Qdiv. apply Qmult_lt_0_compat; auto. apply Qinv_lt_0_compat; auto. Qed.

Lemma Qdiv_nonneg a b : 0 <= a -> 0 < b -> 0 <= a / b.
Proof.
  intros Ha Hb. unfold Qdiv. apply Qmult_le_0_compat; auto.
  apply Qlt_le_weak. apply Qinv_lt_0_compat; auto.
Qed.

Lemma Qdiv_mul_cancel a b : 0 < b -> a / b * b == a.
Proof. intros Hb. field. intro C. rewrite C in Hb. apply (Qlt_irrefl _ Hb). Qed.
