(** The coefficients of the code are those of the expansion. *)
From Coq Require Import Reals ZArith List Lra Lia Psatz.
From Coquelicot Require Import Coquelicot.
From Verif Require Import Base.
From Verif Require Import BoxR BoxRFacts Waves WavesSpec PropWaveKin Stokes StokesSpec StokesPoly StokesSeries StokesExpand.
Import ListNotations.
Open Scope R_scope.

(** ** Hyperbolic functions *)
Definition coth (x : R) : R := cosh x / sinh x.
Lemma cosh_sinh : forall x, cosh x * cosh x - sinh x * sinh x = 1.
Proof.
  intros. unfold cosh, sinh. pose proof (exp_plus x (- x)) as E. replace (x + - x) with 0 in E by ring. rewrite exp_0 in E. nra.
Qed.
Lemma cosh_plus : forall x y, cosh (x + y) = cosh x * cosh y + sinh x * sinh y.
Proof. intros. unfold cosh, sinh. rewrite Ropp_plus_distr, !exp_plus. field. Qed.
Lemma sinh_plus : forall x y, sinh (x + y) = sinh x * cosh y + cosh x * sinh y.
Proof. intros. unfold cosh, sinh. rewrite Ropp_plus_distr, !exp_plus. field. Qed.
Lemma coth_gt1 : forall x, 0 < x -> 1 < coth x.
Proof.
  intros x H. pose proof (sinh_pos x H) as S. unfold coth. apply Rmult_lt_reg_r with (sinh x); [exact S|].
  unfold Rdiv. rewrite Rmult_assoc, Rinv_l by lra. unfold cosh, sinh. pose proof (exp_pos (- x)). lra.
Qed.
Lemma coth_facts : forall x, 0 < x -> cosh x = coth x * sinh x /\ (coth x * coth x - 1) * (sinh x * sinh x) = 1.
Proof.
  intros x H. pose proof (sinh_pos x H) as S. assert (E : cosh x = coth x * sinh x) by (unfold coth; field; lra).
  split; [exact E|]. pose proof (cosh_sinh x) as Q. rewrite E in Q. lra.
Qed.
Lemma CTh_coth : forall x, 0 < x -> st_CTh x = coth x.
Proof.
  intros x H. unfold st_CTh, coth, cosh, sinh. replace (-2 * x) with (- x + - x) by ring. rewrite exp_plus.
  pose proof (exp_pos x). pose proof (exp_pos (- x)). assert (L : exp (- x) < 1) by (rewrite <- exp_0; apply exp_increasing; lra).
  assert (E : exp x * exp (- x) = 1) by (rewrite <- exp_plus, Rplus_opp_r; apply exp_0).
  assert (U : 1 < exp x) by (rewrite <- exp_0; apply exp_increasing; lra).
  set (a := exp (- x)) in *. set (b := exp x) in *. replace b with (/ a) by (apply Rmult_eq_reg_r with a; [rewrite Rinv_l; lra|lra]).
  field. repeat split; try lra; nra.
Qed.
Lemma S_coth : forall x, 0 < x -> sc_S x = (coth x * coth x - 1) / (coth x * coth x + 1).
Proof.
  intros x H. unfold sc_S, coth, cosh, sinh.
  replace (4 * x) with ((x + x) + (x + x)) by ring. replace (2 * x) with (x + x) by ring. rewrite !exp_plus.
  pose proof (exp_pos x). assert (U : 1 < exp x) by (rewrite <- exp_0; apply exp_increasing; lra).
  replace (exp (- x)) with (/ exp x) by (symmetry; apply exp_Ropp).
  set (b := exp x) in *. field. repeat split; try lra; nra.
Qed.

(** ** The scaled coefficients *)
Section Coefs.
  Context (kd : R) (Hkd : 0 < kd).
  Let kap := coth kd.
  Let s := sinh kd.
  Let v := kap * kap.
  Let HK : 1 < kap. Proof. apply coth_gt1. exact Hkd. Qed.
  Let Hs : 0 < s. Proof. apply sinh_pos. exact Hkd. Qed.
  Let Hv : 1 < v. Proof. unfold v. nra. Qed.
  Lemma sv : s * s = / (v - 1).
  Proof.
    destruct (coth_facts kd Hkd) as [_ E]. fold kap s in E. fold v in E.
    apply Rmult_eq_reg_l with (v - 1); [rewrite Rinv_r by lra; exact E|lra].
  Qed.
  Lemma sinh_2 : sinh (2 * kd) = 2 * kap / (v - 1).
  Proof. replace (2 * kd) with (kd + kd) by ring. rewrite sinh_plus. rewrite (proj1 (coth_facts kd Hkd)). fold kap s.
    replace (s * (kap * s) + kap * s * s) with (2 * kap * (s * s)) by ring. rewrite sv. reflexivity. Qed.
  Lemma cosh_2 : cosh (2 * kd) = (v + 1) / (v - 1).
  Proof. replace (2 * kd) with (kd + kd) by ring. rewrite cosh_plus. rewrite (proj1 (coth_facts kd Hkd)). fold kap s.
    replace (kap * s * (kap * s) + s * s) with ((v + 1) * (s * s)) by (unfold v; ring). rewrite sv. reflexivity. Qed.
  Lemma sinh_3 : sinh (3 * kd) = s * (3 * v + 1) / (v - 1).
  Proof. replace (3 * kd) with (2 * kd + kd) by ring. rewrite sinh_plus, sinh_2, cosh_2. rewrite (proj1 (coth_facts kd Hkd)). fold kap s.
    unfold v in *. field. lra. Qed.
  Lemma cosh_3 : cosh (3 * kd) = s * kap * (v + 3) / (v - 1).
  Proof. replace (3 * kd) with (2 * kd + kd) by ring. rewrite cosh_plus, sinh_2, cosh_2. rewrite (proj1 (coth_facts kd Hkd)). fold kap s.
    unfold v in *. field. lra. Qed.
  Lemma sinh_4 : sinh (4 * kd) = 4 * kap * (v + 1) / (v - 1) ^ 2.
  Proof. replace (4 * kd) with (2 * kd + 2 * kd) by ring. rewrite sinh_plus, sinh_2, cosh_2. field. lra. Qed.
  Lemma cosh_4 : cosh (4 * kd) = ((v + 1) ^ 2 + 4 * v) / (v - 1) ^ 2.
  Proof. replace (4 * kd) with (2 * kd + 2 * kd) by ring. rewrite cosh_plus, sinh_2, cosh_2. unfold v in *. field. lra. Qed.
  Lemma sinh_5 : sinh (5 * kd) = s * (5 * v ^ 2 + 10 * v + 1) / (v - 1) ^ 2.
  Proof. replace (5 * kd) with (4 * kd + kd) by ring. rewrite sinh_plus, sinh_4, cosh_4. rewrite (proj1 (coth_facts kd Hkd)). fold kap s.
    unfold v in *. field. lra. Qed.
  Lemma cosh_5 : cosh (5 * kd) = s * kap * (v ^ 2 + 10 * v + 5) / (v - 1) ^ 2.
  Proof. replace (5 * kd) with (4 * kd + kd) by ring. rewrite cosh_plus, sinh_4, cosh_4. rewrite (proj1 (coth_facts kd Hkd)). fold kap s.
    unfold v in *. field. lra. Qed.

  Lemma S_v : sc_S kd = (v - 1) / (v + 1). Proof. apply S_coth. exact Hkd. Qed.
  Lemma C_v : 1 - sc_S kd = 2 / (v + 1). Proof. rewrite S_v. field. lra. Qed.
  Lemma A_v : 3 + 2 * sc_S kd = (5 * v + 1) / (v + 1). Proof. rewrite S_v. field. lra. Qed.
  Lemma B_v : 4 + sc_S kd = (5 * v + 3) / (v + 1). Proof. rewrite S_v. field. lra. Qed.
  Ltac coef :=
    unfold scaled, den, kev, KD; cbn [evl Nat.leb]; fold v;
    cbv zeta; rewrite ?sinh_2, ?cosh_2, ?sinh_3, ?cosh_3, ?sinh_4, ?cosh_4, ?sinh_5, ?cosh_5;
    rewrite ?C_v, ?A_v, ?B_v, ?S_v, ?(CTh_coth kd Hkd), ?(proj1 (coth_facts kd Hkd)); fold kap s;
    unfold v in *; field; repeat split; nra.
  Lemma s_b22 : scaled kap 2 1 Lb22 (st_b22 kd). Proof. unfold st_b22, Lb22. coef. Qed.
  Lemma s_b31 : scaled kap 3 2 Lb31 (st_b31 kd). Proof. unfold st_b31, Lb31. coef. Qed.
  Lemma s_b42 : scaled kap 4 3 Lb42 (st_b42 kd). Proof. unfold st_b42, Lb42. coef. Qed.
  Lemma s_b44 : scaled kap 4 3 Lb44 (st_b44 kd). Proof. unfold st_b44, Lb44. coef. Qed.
  Lemma s_b53 : scaled kap 5 4 Lb53 (st_b53 kd). Proof. unfold st_b53, Lb53. coef. Qed.
  Lemma s_b55 : scaled kap 5 4 Lb55 (st_b55 kd). Proof. unfold st_b55, Lb55. coef. Qed.
  Definition rc2 (kd : R) : R := let S := sc_S kd in (2 + 7 * S ^ 2) / (4 * (1 - S) ^ 2).
  Definition rc4 (kd : R) : R := let S := sc_S kd in
    (4 + 32 * S - 116 * S ^ 2 - 400 * S ^ 3 - 71 * S ^ 4 + 146 * S ^ 5) / (32 * (1 - S) ^ 5).
  Lemma s_c2 : scaled kap 2 2 Lc2 (rc2 kd). Proof. unfold rc2, Lc2. coef. Qed.
  Lemma s_c4 : scaled kap 4 4 Lc4 (rc4 kd). Proof. unfold rc4, Lc4. coef. Qed.
  Lemma s_p31 : scaled kap 3 2 Lp31 (sinh kd * st_a31 kd). Proof. unfold st_a31, Lp31. coef. Qed.
  Lemma s_q31 : scaled kap 3 3 Lq31 (cosh kd * st_a31 kd). Proof. unfold st_a31, Lq31. coef. Qed.
  Lemma s_p51 : scaled kap 5 4 Lp51 (sinh kd * st_a51 kd). Proof. unfold st_a51, Lp51. coef. Qed.
  Lemma s_q51 : scaled kap 5 5 Lq51 (cosh kd * st_a51 kd). Proof. unfold st_a51, Lq51. coef. Qed.
  Lemma s_p22 : scaled kap 2 1 Lp22 (sinh (2 * kd) * st_a22 kd). Proof. unfold st_a22, Lp22. coef. Qed.
  Lemma s_q22 : scaled kap 2 2 Lq22 (cosh (2 * kd) * st_a22 kd). Proof. unfold st_a22, Lq22. coef. Qed.
  Lemma s_p42 : scaled kap 4 3 Lp42 (sinh (2 * kd) * st_a42 kd). Proof. unfold st_a42, Lp42. coef. Qed.
  Lemma s_q42 : scaled kap 4 4 Lq42 (cosh (2 * kd) * st_a42 kd). Proof. unfold st_a42, Lq42. coef. Qed.
  Lemma s_p33 : scaled kap 3 2 Lp33 (sinh (3 * kd) * st_a33 kd). Proof. unfold st_a33, Lp33. coef. Qed.
  Lemma s_q33 : scaled kap 3 3 Lq33 (cosh (3 * kd) * st_a33 kd). Proof. unfold st_a33, Lq33. coef. Qed.
  Lemma s_p53 : scaled kap 5 4 Lp53 (sinh (3 * kd) * st_a53 kd). Proof. unfold st_a53, Lp53. coef. Qed.
  Lemma s_q53 : scaled kap 5 5 Lq53 (cosh (3 * kd) * st_a53 kd). Proof. unfold st_a53, Lq53. coef. Qed.
  Lemma s_p44 : scaled kap 4 3 Lp44 (sinh (4 * kd) * st_a44 kd). Proof. unfold st_a44, Lp44. coef. Qed.
  Lemma s_q44 : scaled kap 4 4 Lq44 (cosh (4 * kd) * st_a44 kd). Proof. unfold st_a44, Lq44. coef. Qed.
  Lemma s_p55 : scaled kap 5 4 Lp55 (sinh (5 * kd) * st_a55 kd). Proof. unfold st_a55, Lp55. coef. Qed.
  Lemma s_q55 : scaled kap 5 5 Lq55 (cosh (5 * kd) * st_a55 kd). Proof. unfold st_a55, Lq55. coef. Qed.
End Coefs.

(** ** The wave of the code as an instance of the expansion *)
Lemma scaled_from : forall kap i j o n l r, scaled kap i j l r -> scaled kap i j (from o n [] l) (from o n 0 r).
Proof. intros kap i j o n l r H. unfold from. destruct (n <=? o)%nat; [exact H|]. unfold scaled. rewrite kev_nil. ring. Qed.
Lemma scaled_from_l : forall kap i j o n l s r, scaled kap i j l (s * r) -> scaled kap i j (from o n [] l) (s * from o n 0 r).
Proof. intros kap i j o n l s r H. unfold from. destruct (n <=? o)%nat; [exact H|]. unfold scaled. rewrite kev_nil. ring. Qed.

Section Wave.
  Context (o : nat) (kd : R) (Ho : (2 <= o <= 5)%nat) (Hkd : 0 < kd).
  Let f n r := from o n 0 r.
  Definition wb22 := from o 2 0 (st_b22 kd).
  Definition wb31 := from o 3 0 (st_b31 kd).
  Definition wb42 := from o 4 0 (st_b42 kd).
  Definition wb44 := from o 4 0 (st_b44 kd).
  Definition wb53 := from o 5 0 (st_b53 kd).
  Definition wb55 := from o 5 0 (st_b55 kd).
  Definition wh := Eh wb22 wb31 wb42 wb44 wb53 wb55.
  Definition whx := Ehx wb22 wb31 wb42 wb44 wb53 wb55.
  Definition wc := Ec (from o 2 0 (rc2 kd)) (from o 4 0 (rc4 kd)).
  Definition wP := EP (sinh kd * f 3%nat (st_a31 kd)) (sinh kd * f 5%nat (st_a51 kd)) (sinh (2 * kd) * f 2%nat (st_a22 kd)) (sinh (2 * kd) * f 4%nat (st_a42 kd))
    (sinh (3 * kd) * f 3%nat (st_a33 kd)) (sinh (3 * kd) * f 5%nat (st_a53 kd)) (sinh (4 * kd) * f 4%nat (st_a44 kd)) (sinh (5 * kd) * f 5%nat (st_a55 kd)).
  Definition wQ := EQ (coth kd) (cosh kd * f 3%nat (st_a31 kd)) (cosh kd * f 5%nat (st_a51 kd)) (cosh (2 * kd) * f 2%nat (st_a22 kd)) (cosh (2 * kd) * f 4%nat (st_a42 kd))
    (cosh (3 * kd) * f 3%nat (st_a33 kd)) (cosh (3 * kd) * f 5%nat (st_a53 kd)) (cosh (4 * kd) * f 4%nat (st_a44 kd)) (cosh (5 * kd) * f 5%nat (st_a55 kd)).
  Definition wu1 (n : nat) (e x : R) : R := IZR (Z.of_nat n) * (wQ n e * cosh (IZR (Z.of_nat n) * wh e x) + wP n e * sinh (IZR (Z.of_nat n) * wh e x)) * ET n x.
  Definition ww1 (n : nat) (e x : R) : R := IZR (Z.of_nat n) * (wP n e * cosh (IZR (Z.of_nat n) * wh e x) + wQ n e * sinh (IZR (Z.of_nat n) * wh e x)) * EU n x.
  Definition wu (e x : R) : R := wu1 1 e x + (wu1 2 e x + (wu1 3 e x + (wu1 4 e x + wu1 5 e x))).
  Definition ww (e x : R) : R := ww1 1 e x + (ww1 2 e x + (ww1 3 e x + (ww1 4 e x + ww1 5 e x))).
  Lemma wave_expansion :
    exists M, 0 <= M /\ forall e, 0 <= e <= 1 -> exists B, forall x, Rabs x <= 1 ->
      Rabs (ww e x + (wu e x - wc e) * whx e x) <= M * e ^ S o /\
      Rabs (2 * coth kd * wh e x + ((wu e x - wc e) ^ 2 + (1 - x ^ 2) * ww e x ^ 2) - B) <= M * e ^ S o.
  Proof.
    eapply (expansion o (S o) (coth kd) ltac:(lia) (coth_gt1 kd Hkd)); try (apply scaled_from); try (apply scaled_from_l); try reflexivity; try exact Ho;
    [apply s_b22|apply s_b31|apply s_b42|apply s_b44|apply s_b53|apply s_b55|apply s_c2|apply s_c4|apply s_p31|apply s_p51|apply s_p22|apply s_p42|apply s_p33|apply s_p53|apply s_p44|apply s_p55
    |apply s_q31|apply s_q51|apply s_q22|apply s_q42|apply s_q33|apply s_q53|apply s_q44|apply s_q55]; exact Hkd.
  Qed.
End Wave.
