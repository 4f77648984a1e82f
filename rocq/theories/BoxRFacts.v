(** Facts about ranges, boxes and sums. *)
From Coq Require Import Permutation.
From Verif Require Import BoxR.
Open Scope R_scope.

Lemma Rltb_spec x y : Rltb x y = true <-> x < y.
Proof. unfold Rltb. destruct (Rlt_dec x y); split; intros; try reflexivity; try assumption; try discriminate; try contradiction; lra. Qed.
Lemma Rltb_false x y : Rltb x y = false <-> y <= x.
Proof. unfold Rltb. destruct (Rlt_dec x y); split; intros; try reflexivity; try discriminate; try contradiction; lra. Qed.
Lemma Rleb_spec x y : Rleb x y = true <-> x <= y.
Proof. unfold Rleb. destruct (Rle_dec x y); split; intros; try reflexivity; try assumption; try discriminate; try contradiction; lra. Qed.
Lemma Rleb_false x y : Rleb x y = false <-> y < x.
Proof. unfold Rleb. destruct (Rle_dec x y); split; intros; try reflexivity; try discriminate; try contradiction; lra. Qed.
Lemma rmin_spec a b : rmin a b = Rmin a b.
Proof. unfold rmin, Rltb, Rmin. destruct (Rlt_dec b a), (Rle_dec a b); lra. Qed.
Lemma rmax_spec a b : rmax a b = Rmax a b.
Proof. unfold rmax, Rltb, Rmax. destruct (Rlt_dec a b), (Rle_dec a b); lra. Qed.

Lemma rfloor_spec x : IZR (rfloor x) <= x < IZR (rfloor x) + 1.
Proof. unfold rfloor. destruct (base_Int_part x). split; lra. Qed.
Lemma rfloor_unique x z : IZR z <= x < IZR z + 1 -> rfloor x = z.
Proof.
  intros [A B]. pose proof (rfloor_spec x) as [C D].
  assert (IZR z < IZR (rfloor x + 1)) by (rewrite plus_IZR; lra).
  assert (IZR (rfloor x) < IZR (z + 1)) by (rewrite plus_IZR; lra).
  apply lt_IZR in H, H0. lia.
Qed.
Lemma rfloor_mono x y : x <= y -> (rfloor x <= rfloor y)%Z.
Proof.
  intros. pose proof (rfloor_spec x) as [A B]. pose proof (rfloor_spec y) as [C D].
  assert (IZR (rfloor x) < IZR (rfloor y + 1)) by (rewrite plus_IZR; lra).
  apply lt_IZR in H0. lia.
Qed.

Lemma to_int_ok z : (-2147483648 <= z <= 2147483647)%Z -> to_int z = Ret z.
Proof.
  intros [A B]. unfold to_int, int_ok.
  rewrite (proj2 (Z.leb_le _ _) A), (proj2 (Z.leb_le _ _) B). reflexivity.
Qed.

Lemma In_zrange lo hi z : In z (zrange lo hi) <-> (lo <= z <= hi)%Z.
Proof.
  unfold zrange. rewrite in_map_iff. split.
  - intros (n & <- & I). apply in_seq in I. lia.
  - intros. exists (Z.to_nat (z - lo)). split; [lia|]. apply in_seq. lia.
Qed.
Lemma NoDup_zrange lo hi : NoDup (zrange lo hi).
Proof.
  unfold zrange. apply FinFun.Injective_map_NoDup; [|apply seq_NoDup].
  intros x y. lia.
Qed.
Lemma length_zrange lo hi : length (zrange lo hi) = Z.to_nat (hi - lo + 1).
Proof. unfold zrange. rewrite map_length, seq_length. reflexivity. Qed.

Lemma in_cells b c : In c (cells b) <-> in_box b c.
Proof.
  unfold cells, in_box. rewrite in_flat_map. split.
  - intros (k & K & I). apply in_flat_map in I. destruct I as (j & J & I).
    apply in_map_iff in I. destruct I as (i & <- & I). cbn [iv0 iv1 iv2].
    apply In_zrange in I, J, K. tauto.
  - intros (A & B & C). exists (iv2 c). split; [apply In_zrange; lia|].
    apply in_flat_map. exists (iv1 c). split; [apply In_zrange; lia|].
    apply in_map_iff. exists (iv0 c). split; [destruct c; reflexivity|].
    apply In_zrange; lia.
Qed.

Lemma NoDup_flat_map {A B} (f : A -> list B) l :
  NoDup l -> (forall x, In x l -> NoDup (f x)) ->
  (forall x y z, In x l -> In y l -> In z (f x) -> In z (f y) -> x = y) ->
  NoDup (flat_map f l).
Proof.
  induction l as [|a l IH]; intros N F D; cbn [flat_map]; [constructor|].
  inversion N; subst. 
  assert (G : forall l1 l2 : list B, NoDup l1 -> NoDup l2 ->
     (forall z, In z l1 -> ~ In z l2) -> NoDup (l1 ++ l2)).
  { clear. induction l1; intros l2 N1 N2 X; cbn; auto. inversion N1; subst. constructor.
    - rewrite in_app_iff. intros [?|?]; [auto|]. eapply X; eauto. now left.
    - apply IHl1; auto. intros z I. apply X. now right. }
  apply G.
  - apply F. now left.
  - apply IH; auto.
    + intros; apply F; now right.
    + intros; eapply D; eauto; now right.
  - intros z I J. apply in_flat_map in J. destruct J as (y & Iy & J).
    assert (a = y) by (apply (D a y z); auto; [now left|now right]). subst. contradiction.
Qed.

Lemma NoDup_cells b : NoDup (cells b).
Proof.
  unfold cells. apply NoDup_flat_map; [apply NoDup_zrange| |].
  - intros k _. apply NoDup_flat_map; [apply NoDup_zrange| |].
    + intros j _. apply FinFun.Injective_map_NoDup; [|apply NoDup_zrange].
      intros x y E. now injection E.
    + intros x y z _ _ I J. apply in_map_iff in I, J.
      destruct I as (? & <- & _), J as (? & E & _). now injection E.
  - intros x y z _ _ I J. apply in_flat_map in I, J.
    destruct I as (? & _ & I), J as (? & _ & J). apply in_map_iff in I, J.
    destruct I as (? & <- & _), J as (? & E & _). now injection E.
Qed.

Lemma rsum_cons a l : rsum (a :: l) = a + rsum l.
Proof. reflexivity. Qed.
Lemma rsum_app l1 l2 : rsum (l1 ++ l2) = rsum l1 + rsum l2.
Proof. induction l1; cbn [app]; rewrite ?rsum_cons; [cbn; lra|]. rewrite IHl1. lra. Qed.
Lemma rsum_perm l1 l2 : Permutation l1 l2 -> rsum l1 = rsum l2.
Proof.
  induction 1; rewrite ?rsum_cons; try lra.
Qed.
Lemma rsum_scale {A} (f : A -> R) k l :
  rsum (map (fun x => f x * k) l) = rsum (map f l) * k.
Proof. induction l; cbn [map]; rewrite ?rsum_cons; [cbn; lra|]. rewrite IHl. lra. Qed.
Lemma rsum_plus {A} (f g : A -> R) l :
  rsum (map (fun x => f x + g x) l) = rsum (map f l) + rsum (map g l).
Proof. induction l; cbn [map]; rewrite ?rsum_cons; [cbn; lra|]. rewrite IHl. lra. Qed.
Lemma rsum_const {A} k (l : list A) : rsum (map (fun _ => k) l) = INR (length l) * k.
Proof.
  induction l; cbn [map]; [cbn; lra|]. rewrite rsum_cons, IHl.
  change (length (a :: l)) with (S (length l)). rewrite S_INR. lra.
Qed.
Lemma rsum_ext {A} (f g : A -> R) l : (forall x, In x l -> f x = g x) ->
  rsum (map f l) = rsum (map g l).
Proof.
  intros H. f_equal. apply map_ext_in. exact H.
Qed.
Lemma rsum_zero {A} (f : A -> R) l : (forall x, In x l -> f x = 0) -> rsum (map f l) = 0.
Proof.
  intros H. rewrite (rsum_ext f (fun _ => 0) l H), rsum_const. lra.
Qed.
Lemma rsum_nonneg {A} (f : A -> R) l : (forall x, In x l -> 0 <= f x) -> 0 <= rsum (map f l).
Proof.
  induction l; intros H; cbn [map]; [cbn; lra|]. rewrite rsum_cons.
  assert (0 <= f a) by (apply H; now left).
  assert (0 <= rsum (map f l)) by (apply IHl; intros; apply H; now right). lra.
Qed.
Lemma rsum_le {A} (f g : A -> R) l : (forall x, In x l -> f x <= g x) ->
  rsum (map f l) <= rsum (map g l).
Proof.
  induction l; intros H; cbn [map]; [cbn; lra|]. rewrite !rsum_cons.
  assert (f a <= g a) by (apply H; now left).
  assert (rsum (map f l) <= rsum (map g l)) by (apply IHl; intros; apply H; now right). lra.
Qed.
Lemma rsum_flat_map {A B} (f : B -> R) (g : A -> list B) l :
  rsum (map f (flat_map g l)) = rsum (map (fun x => rsum (map f (g x))) l).
Proof.
  induction l; cbn [flat_map map]; [reflexivity|].
  rewrite map_app, rsum_app, rsum_cons, IHl. reflexivity.
Qed.
Lemma rsum_filter {A} (f : A -> R) (p : A -> bool) l :
  rsum (map f (filter p l)) = rsum (map (fun x => if p x then f x else 0) l).
Proof.
  induction l; cbn [filter map]; [reflexivity|].
  destruct (p a) eqn:E; cbn [map]; rewrite ?rsum_cons, ?E, IHl; lra.
Qed.
