(** The Stokes expansion satisfies the free-surface conditions to its order, for
    any numbers whose scaled values are the polynomials of StokesSeries.v. *)
From Coq Require Import Reals ZArith List Lra Lia Psatz.
From Coquelicot Require Import Coquelicot.
From Verif Require Import StokesPoly StokesSeries.
Import ListNotations.
Open Scope R_scope.

(** ** Taylor remainders *)
Lemma exp_taylor : forall a y, a = 1 \/ a = -1 -> 0 <= y ->
  Rabs (exp (a * y) - (1 + a * y + y ^ 2 / 2 + a * y ^ 3 / 6 + y ^ 4 / 24 + a * y ^ 5 / 120)) <= exp y * y ^ 6.
Proof.
  intros a y Ha Hy.
  destruct (Req_dec y 0) as [->|NZ].
  - rewrite !Rmult_0_r, exp_0. replace (1 - _) with 0 by field. rewrite Rabs_R0. nra.
  - assert (HY : 0 < y) by lra.
    assert (DN : forall n t, is_derive_n (fun s => exp (a * s)) n t (a ^ n * exp (a * t))).
    { intros n t. apply is_derive_n_comp_scal. apply filter_forall. intros s m _. destruct m as [|m]; [exact I|]. eexists. apply (is_derive_n_exp (S m)). apply is_derive_n_exp. }
    destruct (Taylor_Lagrange (fun s => exp (a * s)) 5 0 y HY) as (z & Hz & E).
    { intros t _ k _. destruct k as [|k]; [exact I|]. eexists. apply (DN (S k)). }
    rewrite E. cbn [sum_f_R0]. rewrite !(is_derive_n_unique _ _ _ _ (DN _ _)).
    rewrite Rmult_0_r, exp_0.
    replace (_ - _) with (y ^ 6 / INR (fact 6) * (a ^ 6 * exp (a * z))).
    2: { cbn [fact]. simpl. destruct Ha as [-> | ->]; field. }
    assert (A6 : a ^ 6 = 1) by (destruct Ha as [-> | ->]; ring). rewrite A6, Rmult_1_l.
    assert (EZ : exp (a * z) <= exp y).
    { destruct (Rle_lt_or_eq_dec (a * z) y) as [L|L].
      - destruct Ha as [-> | ->]; lra.
      - left. apply exp_increasing. exact L.
      - rewrite L. lra. }
    assert (F : INR (fact 6) = 720) by (simpl; ring). rewrite F.
    pose proof (exp_pos (a * z)). assert (0 <= y ^ 6) by (apply pow_le; exact Hy).
    rewrite Rabs_right.
    + unfold Rdiv. assert (y ^ 6 * / 720 <= y ^ 6) by lra. assert (0 <= y ^ 6 * / 720) by lra.
      rewrite (Rmult_comm (exp y)). apply Rmult_le_compat; lra.
    + apply Rle_ge. unfold Rdiv. apply Rmult_le_pos; lra.
Qed.
Lemma cosh_taylor : forall y, Rabs (120 * cosh y - (120 + 60 * y ^ 2 + 5 * y ^ 4)) <= 120 * exp (Rabs y) * Rabs y ^ 6.
Proof.
  assert (P : forall y, 0 <= y -> Rabs (120 * cosh y - (120 + 60 * y ^ 2 + 5 * y ^ 4)) <= 120 * exp y * y ^ 6).
  { intros y Hy. pose proof (exp_taylor 1 y (or_introl eq_refl) Hy) as A. pose proof (exp_taylor (-1) y (or_intror eq_refl) Hy) as B.
    rewrite Rmult_1_l in A. replace (-1 * y) with (- y) in B by ring. unfold cosh.
    set (a := exp y - _) in A. set (b := exp (- y) - _) in B.
    replace (120 * ((exp y + exp (- y)) / 2) - (120 + 60 * y ^ 2 + 5 * y ^ 4)) with (60 * (a + b)) by (unfold a, b; field).
    rewrite Rabs_mult, (Rabs_right 60) by lra. pose proof (Rabs_triang a b). nra. }
  intros y. destruct (Rle_or_lt 0 y) as [H|H].
  - rewrite (Rabs_right y) by lra. apply P. exact H.
  - rewrite (Rabs_left y) by exact H. specialize (P (- y) ltac:(lra)).
    replace (cosh (- y)) with (cosh y) in P by (unfold cosh; rewrite Ropp_involutive; f_equal; ring).
    replace ((- y) ^ 2) with (y ^ 2) in P by ring. replace ((- y) ^ 4) with (y ^ 4) in P by ring. exact P.
Qed.
Lemma sinh_taylor : forall y, Rabs (120 * sinh y - (120 * y + 20 * y ^ 3 + y ^ 5)) <= 120 * exp (Rabs y) * Rabs y ^ 6.
Proof.
  assert (P : forall y, 0 <= y -> Rabs (120 * sinh y - (120 * y + 20 * y ^ 3 + y ^ 5)) <= 120 * exp y * y ^ 6).
  { intros y Hy. pose proof (exp_taylor 1 y (or_introl eq_refl) Hy) as A. pose proof (exp_taylor (-1) y (or_intror eq_refl) Hy) as B.
    rewrite Rmult_1_l in A. replace (-1 * y) with (- y) in B by ring. unfold sinh.
    set (a := exp y - _) in A. set (b := exp (- y) - _) in B.
    replace (120 * ((exp y - exp (- y)) / 2) - (120 * y + 20 * y ^ 3 + y ^ 5)) with (60 * (a - b)) by (unfold a, b; field).
    rewrite Rabs_mult, (Rabs_right 60) by lra. pose proof (Rabs_triang a (- b)) as T. rewrite Rabs_Ropp in T. unfold Rminus. nra. }
  intros y. destruct (Rle_or_lt 0 y) as [H|H].
  - rewrite (Rabs_right y) by lra. apply P. exact H.
  - rewrite (Rabs_left y) by exact H. specialize (P (- y) ltac:(lra)).
    replace (sinh (- y)) with (- sinh y) in P by (unfold sinh; rewrite Ropp_involutive; field).
    rewrite <- Rabs_Ropp in P. replace (- (120 * - sinh y - (120 * - y + 20 * (- y) ^ 3 + (- y) ^ 5))) with (120 * sinh y - (120 * y + 20 * y ^ 3 + y ^ 5)) in P by ring.
    exact P.
Qed.

(** ** Evaluation of the building blocks *)
Lemma sev_nil : forall k t x, sev k t x [] = 0. Proof. reflexivity. Qed.
Lemma sev_cons : forall k t x a l, sev k t x (a :: l) = xev k x a + t * sev k t x l. Proof. reflexivity. Qed.
Lemma xev_nil : forall k x, xev k x [] = 0. Proof. reflexivity. Qed.
Lemma xev_one : forall k x a, xev k x [a] = kev k a. Proof. intros. unfold xev. cbn [evl]. ring. Qed.
Lemma kev_nil : forall k, kev k [] = 0. Proof. reflexivity. Qed.
Lemma kev_one : forall k a, kev k [a] = IZR a. Proof. intros. unfold kev. cbn [evl]. ring. Qed.
Lemma kev_neg : forall k a, kev k (kneg a) = - kev k a.
Proof. intros k a. unfold kev, kneg. induction a as [|z a IH]; cbn [map evl]; [ring|]. rewrite IH, opp_IZR. ring. Qed.
Lemma xev_xsc : forall k x c a, xev k x (xsc c a) = kev k c * xev k x a.
Proof. intros k x c a. unfold xev, xsc. induction a as [|z a IH]; cbn [map evl]; [ring|]. rewrite IH, kev_mul. ring. Qed.
Definition cT2 (x : R) := 2 * x ^ 2 - 1.
Definition cT3 (x : R) := 4 * x ^ 3 - 3 * x.
Definition cT4 (x : R) := 8 * x ^ 4 - 8 * x ^ 2 + 1.
Definition cT5 (x : R) := 16 * x ^ 5 - 20 * x ^ 3 + 5 * x.
Definition cU2 (x : R) := 4 * x ^ 2 - 1.
Definition cU3 (x : R) := 8 * x ^ 3 - 4 * x.
Definition cU4 (x : R) := 16 * x ^ 4 - 12 * x ^ 2 + 1.
Ltac cheb := intros; unfold xev, kev; cbn [evl T1 T2 T3 T4 T5 U0 U1 U2 U3 U4]; unfold cT2, cT3, cT4, cT5, cU2, cU3, cU4; ring.
Lemma xev_T1 : forall k x, xev k x T1 = x. Proof. cheb. Qed.
Lemma xev_T2 : forall k x, xev k x T2 = cT2 x. Proof. cheb. Qed.
Lemma xev_T3 : forall k x, xev k x T3 = cT3 x. Proof. cheb. Qed.
Lemma xev_T4 : forall k x, xev k x T4 = cT4 x. Proof. cheb. Qed.
Lemma xev_T5 : forall k x, xev k x T5 = cT5 x. Proof. cheb. Qed.
Lemma xev_U0 : forall k x, xev k x U0 = 1. Proof. cheb. Qed.
Lemma xev_U1 : forall k x, xev k x U1 = 2 * x. Proof. cheb. Qed.
Lemma xev_U2 : forall k x, xev k x U2 = cU2 x. Proof. cheb. Qed.
Lemma xev_U3 : forall k x, xev k x U3 = cU3 x. Proof. cheb. Qed.
Lemma xev_U4 : forall k x, xev k x U4 = cU4 x. Proof. cheb. Qed.
Global Hint Rewrite sev_nil sev_cons xev_nil xev_one kev_nil kev_one xev_xsc xev_add kev_add kev_neg
  xev_T1 xev_T2 xev_T3 xev_T4 xev_T5 xev_U0 xev_U1 xev_U2 xev_U3 xev_U4 : stk.

(** ** Hyperbolic functions of a series *)
Lemma dev_k : forall k d t x c, dev k d t x (d_k c) = kev k c.
Proof. intros. unfold dev, d_k. cbn [fst snd]. autorewrite with stk. unfold Rdiv. ring. Qed.
Lemma apx_k : forall k d N c r, kev k c = r -> apx k d N (fun _ _ => r) (d_k c).
Proof. intros k d N c r <-. apply apx_exact. intros. symmetry. apply dev_k. Qed.
Lemma apx_const : forall k d N c, apx k d N (fun _ _ => IZR c) (d_const c).
Proof. intros. apply apx_k. apply kev_one. Qed.
Lemma kev_V : forall k, kev k V = k.
Proof. intros. unfold kev, V. cbn [evl]. ring. Qed.

Lemma remainder : forall (kap : R) (N : nat) (y : R -> R -> R) K, (N <= 6)%nat -> 0 < kap -> 0 <= K ->
  (forall t x, 0 <= t <= 1 -> Rabs x <= 1 -> Rabs (y t x) <= K * t) ->
  forall t x, 0 <= t <= 1 -> Rabs x <= 1 ->
  120 * exp (Rabs (kap * y t x)) * Rabs (kap * y t x) ^ 6 <= (120 * exp (kap * K) * (kap * K) ^ 6) * t ^ N.
Proof.
  intros kap N y K HN Hk HK H t x Ht Hx. specialize (H t x Ht Hx).
  assert (A : Rabs (kap * y t x) <= (kap * K) * t) by (rewrite Rabs_mult, (Rabs_right kap) by lra; nra).
  assert (A' : Rabs (kap * y t x) <= kap * K) by (assert (0 <= kap * K) by nra; nra).
  assert (E : exp (Rabs (kap * y t x)) <= exp (kap * K)).
  { destruct (Rle_lt_or_eq_dec _ _ A') as [L|L]; [left; apply exp_increasing; exact L|rewrite L; lra]. }
  assert (P : Rabs (kap * y t x) ^ 6 <= (kap * K) ^ 6 * t ^ N).
  { apply Rle_trans with (((kap * K) * t) ^ 6); [apply pow_incr; split; [apply Rabs_pos|exact A]|].
    rewrite Rpow_mult_distr. apply Rmult_le_compat_l; [apply pow_le; nra|apply pow_t_le; assumption]. }
  pose proof (exp_pos (Rabs (kap * y t x))). rewrite !Rmult_assoc. apply Rmult_le_compat_l; [lra|].
  apply Rmult_le_compat; [lra|apply pow_le, Rabs_pos|exact E|exact P].
Qed.
Lemma apx_y2 : forall kap d N y ys, (N <= 8)%nat -> apx (kap * kap) d N y ys ->
  apx (kap * kap) d N (fun t x => kap * kap * (y t x * y t x)) (dmul N (d_k V) (dmul N ys ys)).
Proof. intros. apply apx_mul; [assumption|apply apx_k, kev_V|apply apx_mul; assumption]. Qed.
Lemma apx_cosh : forall kap d N y ys K, (N <= 6)%nat -> 0 < kap -> 0 <= K ->
  (forall t x, 0 <= t <= 1 -> Rabs x <= 1 -> Rabs (y t x) <= K * t) -> apx (kap * kap) d N y ys ->
  apx (kap * kap) d N (fun t x => 120 * cosh (kap * y t x)) (cosh_ser N ys).
Proof.
  intros kap d N y ys K HN Hk HK B H. assert (N8 : (N <= 8)%nat) by lia.
  pose proof (apx_y2 kap d N y ys N8 H) as Y2.
  apply (apx_near _ _ _ (fun t x => 120 + (60 * (kap * kap * (y t x * y t x)) + 5 * ((kap * kap * (y t x * y t x)) * (kap * kap * (y t x * y t x)))))
           _ _ (120 * exp (kap * K) * (kap * K) ^ 6)).
  - pose proof (exp_pos (kap * K)). apply Rmult_le_pos; [lra|apply pow_le; nra].
  - intros t x Ht Hx. eapply Rle_trans; [|apply (remainder kap N y K HN Hk HK B t x Ht Hx)].
    eapply Rle_trans; [|apply cosh_taylor]. right. f_equal. ring.
  - apply apx_add; [apply apx_const|]. apply apx_add.
    + apply apx_mul; [exact N8|apply apx_const|exact Y2].
    + apply apx_mul; [exact N8|apply apx_const|]. apply apx_mul; assumption.
Qed.
Lemma apx_sinh : forall kap d N y ys K, (N <= 6)%nat -> 0 < kap -> 0 <= K ->
  (forall t x, 0 <= t <= 1 -> Rabs x <= 1 -> Rabs (y t x) <= K * t) -> apx (kap * kap) d N y ys ->
  apx (kap * kap) d N (fun t x => 120 * sinh (kap * y t x) / kap) (sinh_ser N ys).
Proof.
  intros kap d N y ys K HN Hk HK B H. assert (N8 : (N <= 8)%nat) by lia.
  pose proof (apx_y2 kap d N y ys N8 H) as Y2.
  apply (apx_near _ _ _ (fun t x => 120 * y t x + (20 * (y t x * (kap * kap * (y t x * y t x))) + (kap * kap * (y t x * y t x)) * (y t x * (kap * kap * (y t x * y t x)))))
           _ _ (120 * exp (kap * K) * (kap * K) ^ 6 / kap)).
  - pose proof (exp_pos (kap * K)). apply Rmult_le_pos; [|apply Rlt_le, Rinv_0_lt_compat; exact Hk]. apply Rmult_le_pos; [lra|apply pow_le; nra].
  - intros t x Ht Hx. pose proof (remainder kap N y K HN Hk HK B t x Ht Hx) as R1. pose proof (sinh_taylor (kap * y t x)) as R2.
    replace (120 * sinh (kap * y t x) / kap - _) with ((120 * sinh (kap * y t x) - (120 * (kap * y t x) + 20 * (kap * y t x) ^ 3 + (kap * y t x) ^ 5)) * / kap) by (field; lra).
    rewrite Rabs_mult, (Rabs_right (/ kap)) by (apply Rle_ge, Rlt_le, Rinv_0_lt_compat; exact Hk).
    replace (120 * exp (kap * K) * (kap * K) ^ 6 / kap * t ^ N) with (120 * exp (kap * K) * (kap * K) ^ 6 * t ^ N * / kap) by (unfold Rdiv; ring).
    apply Rmult_le_compat_r; [apply Rlt_le, Rinv_0_lt_compat; exact Hk|lra].
  - apply apx_add; [apply apx_mul; [exact N8|apply apx_const|exact H]|]. apply apx_add.
    + apply apx_mul; [exact N8|apply apx_const|]. apply apx_mul; assumption.
    + apply apx_mul; [exact N8|exact Y2|]. apply apx_mul; assumption.
Qed.

(** ** The expansion *)
Section Expansion.
  Context (o N : nat) (kap : R) (HN : (N <= 6)%nat) (HK : 1 < kap).
  Context (b22 b31 b42 b44 b53 b55 c2 c4 p31 p51 p22 p42 p33 p53 p44 p55 q31 q51 q22 q42 q33 q53 q44 q55 : R).
  Definition den (kap : R) : R := kev (kap * kap) KD.
  Let v := kap * kap.
  Let D := den kap.
  Definition scaled (kap : R) (i j : nat) (l : kp) (r : R) : Prop :=
    kev (kap * kap) l = 8 ^ i * kap ^ j * r * (if (4 <=? i)%nat then den kap else 1).
  Context
    (Hb22 : scaled kap 2 1 (from o 2 [] Lb22) b22) (Hb31 : scaled kap 3 2 (from o 3 [] Lb31) b31)
    (Hb42 : scaled kap 4 3 (from o 4 [] Lb42) b42) (Hb44 : scaled kap 4 3 (from o 4 [] Lb44) b44)
    (Hb53 : scaled kap 5 4 (from o 5 [] Lb53) b53) (Hb55 : scaled kap 5 4 (from o 5 [] Lb55) b55)
    (Hc2 : scaled kap 2 2 (from o 2 [] Lc2) c2) (Hc4 : scaled kap 4 4 (from o 4 [] Lc4) c4)
    (Hp31 : scaled kap 3 2 (from o 3 [] Lp31) p31) (Hp51 : scaled kap 5 4 (from o 5 [] Lp51) p51)
    (Hp22 : scaled kap 2 1 (from o 2 [] Lp22) p22) (Hp42 : scaled kap 4 3 (from o 4 [] Lp42) p42)
    (Hp33 : scaled kap 3 2 (from o 3 [] Lp33) p33) (Hp53 : scaled kap 5 4 (from o 5 [] Lp53) p53)
    (Hp44 : scaled kap 4 3 (from o 4 [] Lp44) p44) (Hp55 : scaled kap 5 4 (from o 5 [] Lp55) p55)
    (Hq31 : scaled kap 3 3 (from o 3 [] Lq31) q31) (Hq51 : scaled kap 5 5 (from o 5 [] Lq51) q51)
    (Hq22 : scaled kap 2 2 (from o 2 [] Lq22) q22) (Hq42 : scaled kap 4 4 (from o 4 [] Lq42) q42)
    (Hq33 : scaled kap 3 3 (from o 3 [] Lq33) q33) (Hq53 : scaled kap 5 5 (from o 5 [] Lq53) q53)
    (Hq44 : scaled kap 4 4 (from o 4 [] Lq44) q44) (Hq55 : scaled kap 5 5 (from o 5 [] Lq55) q55).

  Definition Eh (e x : R) : R :=
    e * x + e ^ 2 * b22 * cT2 x + e ^ 3 * b31 * (x - cT3 x) + e ^ 4 * (b42 * cT2 x + b44 * cT4 x)
    + e ^ 5 * (- (b53 + b55) * x + b53 * cT3 x + b55 * cT5 x).
  Definition Ehx (e x : R) : R :=
    e + e ^ 2 * b22 * (2 * (2 * x)) + e ^ 3 * b31 * (1 - 3 * cU2 x) + e ^ 4 * (b42 * (2 * (2 * x)) + b44 * (4 * cU3 x))
    + e ^ 5 * (- (b53 + b55) + b53 * (3 * cU2 x) + b55 * (5 * cU4 x)).
  Definition Ec (e : R) : R := 1 + e ^ 2 * c2 + e ^ 4 * c4.
  Definition EP (n : nat) (e : R) : R :=
    match n with
    | 1%nat => e + e ^ 3 * p31 + e ^ 5 * p51
    | 2%nat => e ^ 2 * p22 + e ^ 4 * p42
    | 3%nat => e ^ 3 * p33 + e ^ 5 * p53
    | 4%nat => e ^ 4 * p44
    | _ => e ^ 5 * p55
    end.
  Definition EQ (n : nat) (e : R) : R :=
    match n with
    | 1%nat => e * kap + e ^ 3 * q31 + e ^ 5 * q51
    | 2%nat => e ^ 2 * q22 + e ^ 4 * q42
    | 3%nat => e ^ 3 * q33 + e ^ 5 * q53
    | 4%nat => e ^ 4 * q44
    | _ => e ^ 5 * q55
    end.
  Definition ET (n : nat) (x : R) : R := match n with 1%nat => x | 2%nat => cT2 x | 3%nat => cT3 x | 4%nat => cT4 x | _ => cT5 x end.
  Definition EU (n : nat) (x : R) : R := match n with 1%nat => 1 | 2%nat => 2 * x | 3%nat => cU2 x | 4%nat => cU3 x | _ => cU4 x end.
  Definition Eu1 (n : nat) (e x : R) : R := IZR (Z.of_nat n) * (EQ n e * cosh (IZR (Z.of_nat n) * Eh e x) + EP n e * sinh (IZR (Z.of_nat n) * Eh e x)) * ET n x.
  Definition Ew1 (n : nat) (e x : R) : R := IZR (Z.of_nat n) * (EP n e * cosh (IZR (Z.of_nat n) * Eh e x) + EQ n e * sinh (IZR (Z.of_nat n) * Eh e x)) * EU n x.
  Definition Eu (e x : R) : R := Eu1 1 e x + (Eu1 2 e x + (Eu1 3 e x + (Eu1 4 e x + Eu1 5 e x))).
  Definition Ew (e x : R) : R := Ew1 1 e x + (Ew1 2 e x + (Ew1 3 e x + (Ew1 4 e x + Ew1 5 e x))).

  Let sc (t : R) := 8 * kap * t.
  Lemma den_pos : 0 < D.
  Proof. unfold D, den, kev, KD. cbn [evl]. assert (0 < kap * kap) by nra. assert (0 < kap * kap * (kap * kap)) by nra. lra. Qed.
  Let N8 : (N <= 8)%nat. Proof. lia. Qed.

  Ltac eval_ser :=
    unfold dev; cbn [fst snd]; autorewrite with stk;
    rewrite ?Hb22, ?Hb31, ?Hb42, ?Hb44, ?Hb53, ?Hb55, ?Hc2, ?Hc4, ?Hp31, ?Hp51, ?Hp22, ?Hp42, ?Hp33, ?Hp53, ?Hp44, ?Hp55,
      ?Hq31, ?Hq51, ?Hq22, ?Hq42, ?Hq33, ?Hq53, ?Hq44, ?Hq55;
    cbn [Nat.leb]; fold D; pose proof den_pos.

  Lemma apx_h : apx v D N (fun t x => Eh (sc t) x / kap) (h_ser o).
  Proof. apply apx_exact. intros t x Ht Hx. unfold h_ser, v. eval_ser. unfold Eh, sc. field. lra. Qed.
  Lemma apx_hx : apx v D N (fun t x => Ehx (sc t) x / kap) (hx_ser o).
  Proof. apply apx_exact. intros t x Ht Hx. unfold hx_ser, v. eval_ser. unfold Ehx, sc. field. lra. Qed.
  Lemma apx_c : apx v D N (fun t x => Ec (sc t)) (c_ser o).
  Proof. apply apx_exact. intros t x Ht Hx. unfold c_ser, v. eval_ser. unfold Ec, sc. field. lra. Qed.
  Lemma apx_p : forall n, (1 <= n <= 5)%nat -> apx v D N (fun t x => EP n (sc t) / kap) (p_ser o n).
  Proof.
    intros n Hn. apply apx_exact. intros t x Ht Hx. unfold v.
    do 5 (destruct n as [|n]; [try lia; unfold p_ser; eval_ser; unfold EP, sc; field; lra|]).
    destruct n as [|n]; [unfold p_ser; eval_ser; unfold EP, sc; field; lra|lia].
  Qed.
  Lemma kev_08 : forall k, kev k [0; 8]%Z = 8 * k.
  Proof. intros. unfold kev. cbn [evl]. ring. Qed.
  Lemma apx_q : forall n, (1 <= n <= 5)%nat -> apx v D N (fun t x => EQ n (sc t)) (q_ser o n).
  Proof.
    intros n Hn. apply apx_exact. intros t x Ht Hx. unfold v.
    do 5 (destruct n as [|n]; [try lia; unfold q_ser; eval_ser; rewrite ?kev_08; unfold EQ, sc; field; lra|]).
    destruct n as [|n]; [unfold q_ser; eval_ser; unfold EQ, sc; field; lra|lia].
  Qed.
  Lemma h_small : exists K, 0 <= K /\ forall t x, 0 <= t <= 1 -> Rabs x <= 1 -> Rabs (Eh (sc t) x / kap) <= K * t.
  Proof.
    set (l := [xsc [8]%Z T1; xsc (from o 2 [] Lb22) T2; xsc (from o 3 [] Lb31) (xadd T1 (xsc [-1]%Z T3))]).
    destruct (sev_bound v l) as (K1 & H1 & B1). destruct (sev_bound v (snd (h_ser o))) as (K2 & H2 & B2).
    pose proof den_pos as DP. assert (ID : 0 < / D) by (apply Rinv_0_lt_compat; exact DP).
    exists (K1 + K2 * / D). split; [nra|]. intros t x Ht Hx.
    assert (E : Eh (sc t) x / kap = t * (sev v t x l + t ^ 3 * sev v t x (snd (h_ser o)) * / D)).
    { unfold l, h_ser, v. cbn [snd]. eval_ser. unfold Eh, sc. field. lra. }
    rewrite E, Rabs_mult, (Rabs_right t) by lra. rewrite Rmult_comm. apply Rmult_le_compat_r; [lra|].
    eapply Rle_trans; [apply Rabs_triang|]. apply Rplus_le_compat; [apply B1; assumption|].
    rewrite !Rabs_mult, (Rabs_right (/ D)) by lra. apply Rmult_le_compat_r; [lra|]. specialize (B2 t x Ht Hx).
    pose proof (pow_t_le1 t 3 Ht). pose proof (pow_t_nonneg t 3 Ht). rewrite (Rabs_right (t ^ 3)) by lra.
    pose proof (Rabs_pos (sev v t x (snd (h_ser o)))). nra.
  Qed.
  Lemma nh_small : forall n, exists K, 0 <= K /\ forall t x, 0 <= t <= 1 -> Rabs x <= 1 -> Rabs (IZR (Z.of_nat n) * (Eh (sc t) x / kap)) <= K * t.
  Proof.
    intros n. destruct h_small as (K & HK0 & B). assert (0 <= IZR (Z.of_nat n)) by (apply IZR_le; lia).
    exists (IZR (Z.of_nat n) * K). split; [nra|]. intros t x Ht Hx. rewrite Rabs_mult, (Rabs_right (IZR _)) by lra.
    rewrite Rmult_assoc. apply Rmult_le_compat_l; [assumption|]. apply B; assumption.
  Qed.
  Lemma nh_eq : forall n t x, kap * (IZR (Z.of_nat n) * (Eh (sc t) x / kap)) = IZR (Z.of_nat n) * Eh (sc t) x.
  Proof. intros. field. lra. Qed.
  Lemma apx_nh : forall n, apx v D N (fun t x => IZR (Z.of_nat n) * (Eh (sc t) x / kap)) (dmul N (d_const (Z.of_nat n)) (h_ser o)).
  Proof. intros n. apply apx_mul; [exact N8|apply apx_const|apply apx_h]. Qed.
  Lemma apx_ch : forall n, apx v D N (fun t x => 120 * cosh (IZR (Z.of_nat n) * Eh (sc t) x)) (cosh_ser N (dmul N (d_const (Z.of_nat n)) (h_ser o))).
  Proof.
    intros n. destruct (nh_small n) as (K & HK0 & B).
    eapply apx_ext; [|apply (apx_cosh kap D N _ _ K HN ltac:(lra) HK0 B (apx_nh n))].
    intros t x Ht Hx. cbv beta. rewrite nh_eq. reflexivity.
  Qed.
  Lemma apx_sh : forall n, apx v D N (fun t x => 120 * sinh (IZR (Z.of_nat n) * Eh (sc t) x) / kap) (sinh_ser N (dmul N (d_const (Z.of_nat n)) (h_ser o))).
  Proof.
    intros n. destruct (nh_small n) as (K & HK0 & B).
    eapply apx_ext; [|apply (apx_sinh kap D N _ _ K HN ltac:(lra) HK0 B (apx_nh n))].
    intros t x Ht Hx. cbv beta. rewrite nh_eq. reflexivity.
  Qed.
  Lemma apx_x : forall a (g : R -> R), (forall x, xev v x a = g x) -> apx v D N (fun _ x => g x) ([a], []).
  Proof. intros a g H. apply apx_exact. intros. unfold dev. cbn [fst snd]. autorewrite with stk. rewrite H. unfold Rdiv. ring. Qed.
  Lemma xev_Tn : forall n x, (1 <= n <= 5)%nat -> xev v x (xsc [Z.of_nat n] (Tn n)) = IZR (Z.of_nat n) * ET n x.
  Proof.
    intros n x Hn. destruct n as [|[|[|[|[|[|n]]]]]]; try lia; rewrite xev_xsc, kev_one; f_equal; [apply xev_T1|apply xev_T2|apply xev_T3|apply xev_T4|apply xev_T5].
  Qed.
  Lemma xev_Un : forall n x, (1 <= n <= 5)%nat -> xev v x (xsc [Z.of_nat n] (Un n)) = IZR (Z.of_nat n) * EU n x.
  Proof.
    intros n x Hn. destruct n as [|[|[|[|[|[|n]]]]]]; try lia; rewrite xev_xsc, kev_one; f_equal; [apply xev_U0|apply xev_U1|apply xev_U2|apply xev_U3|apply xev_U4].
  Qed.
  Lemma apx_u1 : forall n, (1 <= n <= 5)%nat -> apx v D N (fun t x => 120 * Eu1 n (sc t) x) (harm_u N o n).
  Proof.
    intros n Hn. unfold harm_u. cbv zeta.
    eapply apx_ext; [|apply apx_mul; [exact N8| |apply (apx_x _ (fun x => IZR (Z.of_nat n) * ET n x)); intros; apply xev_Tn; exact Hn]].
    2: { apply apx_add; apply apx_mul; [exact N8|apply apx_q; exact Hn|apply apx_ch|exact N8|apply apx_k, kev_V|].
         apply apx_mul; [exact N8|apply apx_p; exact Hn|apply apx_sh]. }
    intros t x Ht Hx. cbv beta. unfold Eu1. unfold v. field. lra.
  Qed.
  Lemma apx_w1 : forall n, (1 <= n <= 5)%nat -> apx v D N (fun t x => 120 * Ew1 n (sc t) x / kap) (harm_w N o n).
  Proof.
    intros n Hn. unfold harm_w. cbv zeta.
    eapply apx_ext; [|apply apx_mul; [exact N8| |apply (apx_x _ (fun x => IZR (Z.of_nat n) * EU n x)); intros; apply xev_Un; exact Hn]].
    2: { apply apx_add; apply apx_mul; [exact N8|apply apx_p; exact Hn|apply apx_ch|exact N8|apply apx_q; exact Hn|apply apx_sh]. }
    intros t x Ht Hx. cbv beta. unfold Ew1. field. lra.
  Qed.
  Lemma apx_u : apx v D N (fun t x => 120 * Eu (sc t) x) (u_ser N o).
  Proof.
    unfold u_ser. eapply apx_ext; [|repeat (apply apx_add; [apply apx_u1; lia|]); apply apx_u1; lia].
    intros t x Ht Hx. cbv beta. unfold Eu. ring.
  Qed.
  Lemma apx_w : apx v D N (fun t x => 120 * Ew (sc t) x / kap) (w_ser N o).
  Proof.
    unfold w_ser. eapply apx_ext; [|repeat (apply apx_add; [apply apx_w1; lia|]); apply apx_w1; lia].
    intros t x Ht Hx. cbv beta. unfold Ew. field. lra.
  Qed.
  Lemma apx_rel : apx v D N (fun t x => 120 * (Eu (sc t) x - Ec (sc t))) (rel_ser N o).
  Proof.
    unfold rel_ser. eapply apx_ext; [|apply apx_add; [apply apx_u|apply apx_mul; [exact N8|apply apx_const|apply apx_c]]].
    intros t x Ht Hx. cbv beta. ring.
  Qed.
  Lemma apx_kin : apx v D N (fun t x => 120 * (Ew (sc t) x + (Eu (sc t) x - Ec (sc t)) * Ehx (sc t) x) / kap) (kin_ser N o).
  Proof.
    unfold kin_ser. eapply apx_ext; [|apply apx_add; [apply apx_w|apply apx_mul; [exact N8|apply apx_rel|apply apx_hx]]].
    intros t x Ht Hx. cbv beta. field. lra.
  Qed.
  Lemma apx_dyn : apx v D N
    (fun t x => 14400 * (2 * kap * Eh (sc t) x + ((Eu (sc t) x - Ec (sc t)) ^ 2 + (1 - x ^ 2) * Ew (sc t) x ^ 2))) (dyn_ser N o).
  Proof.
    unfold dyn_ser. cbv zeta.
    eapply apx_ext; [|apply apx_add; [apply apx_mul; [exact N8|apply apx_k, kev_V|apply apx_mul; [exact N8|apply apx_const|apply apx_h]]|
      apply apx_add; [apply apx_mul; [exact N8|apply apx_rel|apply apx_rel]|
      apply apx_mul; [exact N8|apply apx_k, kev_V|apply apx_mul; [exact N8|apply (apx_x _ (fun x => 1 - x ^ 2))|apply apx_mul; [exact N8|apply apx_w|apply apx_w]]]]]].
    - intros t x Ht Hx. cbv beta. unfold v. field. lra.
    - intros x. unfold xev, kev. cbn [evl xz map]. ring.
  Qed.
  Lemma dev_clear : forall t x a, dev v D t x a = sev v t x (clear a) / D.
  Proof.
    intros t x [a b]. pose proof den_pos. unfold dev, clear. cbn [fst snd]. rewrite sev_add, sev_mul. autorewrite with stk.
    fold D. unfold v. change (kev (kap * kap) KD) with D. field. lra.
  Qed.

  (** The conclusion for steepness up to 1. *)
  Lemma expansion : N = S o -> (2 <= o <= 5)%nat ->
    exists M, 0 <= M /\ forall e, 0 <= e <= 1 -> exists B, forall x, Rabs x <= 1 ->
      Rabs (Ew e x + (Eu e x - Ec e) * Ehx e x) <= M * e ^ N /\
      Rabs (2 * kap * Eh e x + ((Eu e x - Ec e) ^ 2 + (1 - x ^ 2) * Ew e x ^ 2) - B) <= M * e ^ N.
  Proof.
    intros EN Ho. pose proof (check_all o Ho) as CK. unfold check in CK. apply andb_prop in CK. destruct CK as [CK CD]. rewrite <- EN in *.
    destruct apx_kin as (M1 & HM1 & B1). destruct apx_dyn as (M2 & HM2 & B2). pose proof den_pos as DP.
    exists (M1 * kap + M2). split; [nra|]. intros e He.
    set (t := e / (8 * kap)). assert (ST : sc t = e) by (unfold sc, t; field; lra).
    assert (TE : t <= e).
    { unfold t, Rdiv. rewrite <- (Rmult_1_r e) at 2. apply Rmult_le_compat_l; [lra|].
      rewrite <- Rinv_1. apply Rinv_le_contravar; lra. }
    assert (T0 : 0 <= t) by (unfold t; apply Rmult_le_pos; [lra|apply Rlt_le, Rinv_0_lt_compat; lra]).
    assert (Ht : 0 <= t <= 1) by lra.
    assert (TN : t ^ N <= e ^ N) by (apply pow_incr; lra).
    assert (EP0 : 0 <= e ^ N) by (apply pow_le; lra).
    exists (sev v t 0 (clear (dyn_ser N o)) / D / 14400). intros x Hx.
    specialize (B1 t x Ht Hx). specialize (B2 t x Ht Hx). rewrite dev_clear in B1, B2. cbv beta in B1, B2. rewrite ST in B1, B2.
    rewrite (szero_ok _ _ _ _ CK) in B1. rewrite (sconst_ok _ _ x 0 _ CD) in B2. split.
    - set (r := Ew e x + (Eu e x - Ec e) * Ehx e x) in *.
      replace (120 * r / kap - 0 / D) with (r * (120 / kap)) in B1 by (field; lra).
      assert (KP : 0 < 120 / kap) by (apply Rdiv_lt_0_compat; lra).
      rewrite Rabs_mult, (Rabs_right (120 / kap)) in B1 by lra.
      assert (X : Rabs r * 120 <= M1 * t ^ N * kap).
      { replace (Rabs r * 120) with (Rabs r * (120 / kap) * kap) by (field; lra). apply Rmult_le_compat_r; lra. }
      pose proof (Rabs_pos r).
      assert (Y : M1 * t ^ N * kap <= M1 * kap * e ^ N) by (assert (0 <= M1 * kap) by nra; nra).
      assert (0 <= M2 * e ^ N) by nra. lra.
    - set (r := 2 * kap * Eh e x + _) in *. set (B := sev v t 0 (clear (dyn_ser N o)) / D) in *.
      replace (r - B / 14400) with ((14400 * r - B) * / 14400) by field.
      rewrite Rabs_mult, (Rabs_right (/ 14400)) by lra. pose proof (Rabs_pos (14400 * r - B)).
      assert (M2 * t ^ N <= M2 * e ^ N) by nra. assert (0 <= M1 * kap * e ^ N) by (assert (0 <= M1 * kap) by nra; nra). lra.
  Qed.
End Expansion.
