(** Facts used by the property files about turbulence models. *)
From Verif Require Import BoxR BoxRFacts Stencil Turbulence TurbSpec.
From Coq Require Import Lra Lia Psatz.
Open Scope R_scope.

Lemma ax0 : axis 0. Proof. left; reflexivity. Qed.
Lemma ax1 : axis 1. Proof. right; left; reflexivity. Qed.
Lemma ax2 : axis 2. Proof. right; right; reflexivity. Qed.
Global Hint Resolve ax0 ax1 ax2 : axis.

Lemma sum3_eq f : sum3 f = f 0%Z + f 1%Z + f 2%Z.
Proof. unfold sum3, rsum; cbn. ring. Qed.
Lemma loop3_eq f : loop3 f = f 0%Z + f 1%Z + f 2%Z.
Proof. unfold loop3. ring. Qed.

Lemma eps_pos : 0 < eps.
Proof. unfold eps. apply Rinv_0_lt_compat. lra. Qed.
Lemma floor10_pos : 0 < floor10.
Proof. unfold floor10. pose proof eps_pos. lra. Qed.
Lemma floor6_pos : 0 < floor6.
Proof. unfold floor6. pose proof eps_pos. lra. Qed.
Lemma feps_pos : 0 < feps.
Proof. unfold feps. apply Rinv_0_lt_compat. lra. Qed.

Lemma cbrt_cube x : 0 < x -> 0 < cbrt x /\ cbrt x ^ 3 = x.
Proof.
  intro H. unfold cbrt. rewrite (proj2 (Rltb_spec 0 x) H).
  split; [unfold Rpower; apply exp_pos|].
  replace (Rpower x (1/3) ^ 3) with (Rpower (Rpower x (1/3)) 3).
  - rewrite Rpower_mult. replace (1/3*3) with 1 by field. apply Rpower_1; exact H.
  - replace 3 with (INR 3) by (simpl; ring). apply Rpower_pow. unfold Rpower; apply exp_pos.
Qed.

Lemma width_ok dx : mesh dx -> width dx (filter_width dx).
Proof.
  intro M. unfold width, filter_width. apply cbrt_cube.
  apply Rmult_lt_0_compat; [apply Rmult_lt_0_compat|]; apply M; auto with axis.
Qed.

Lemma cube_inj a b : 0 < a -> 0 < b -> a ^ 3 = b ^ 3 -> a = b.
Proof.
  intros A B H. destruct (Rtotal_order a b) as [L|[E|L]]; [|exact E|].
  - exfalso. assert (a*a < b*b) by nra. nra.
  - exfalso. assert (b*b < a*a) by nra. nra.
Qed.
Lemma width_unique dx w w' : width dx w -> width dx w' -> w = w'.
Proof. intros [A B] [C D]. apply cube_inj; auto. lra. Qed.

(** ** Sums of products *)
Lemma cauchy (A B : Z * Z -> R) l :
  (rsum (map (fun x => A x * B x) l)) ^ 2 <=
  rsum (map (fun x => A x ^ 2) l) * rsum (map (fun x => B x ^ 2) l).
Proof.
  set (D := rsum (map (fun x => A x * B x) l)).
  set (a := rsum (map (fun x => A x ^ 2) l)).
  set (b := rsum (map (fun x => B x ^ 2) l)).
  assert (P : forall t, 0 <= a - 2 * t * D + t * t * b).
  { intro t. unfold a, b, D. clear.
    induction l as [|x l IH]; [cbn; lra|]. cbn [map]. rewrite !rsum_cons.
    set (p := rsum _) in *. set (q := rsum (map (fun x => A x * B x) l)) in *.
    set (r := rsum (map (fun x => B x ^ 2) l)) in *. clearbody p q r.
    pose proof (Rle_0_sqr (A x - t * B x)) as S. unfold Rsqr in S. nra. }
  assert (Hb : 0 <= b).
  { unfold b. apply rsum_nonneg. intros; simpl; nra. }
  assert (Ha : 0 <= a).
  { unfold a. apply rsum_nonneg. intros; simpl; nra. }
  clearbody D a b.
  destruct (Req_dec b 0) as [E|N].
  - subst b. destruct (Req_dec D 0) as [E|N]; [subst; lra|].
    exfalso. pose proof (P ((a + 1) / (2 * D))) as Q.
    replace (2 * ((a + 1) / (2 * D)) * D) with (a + 1) in Q by (field; lra). lra.
  - assert (B0 : 0 < b) by lra. pose proof (P (D / b)) as Q.
    assert (E : a - 2 * (D / b) * D + D / b * (D / b) * b = (a * b - D ^ 2) / b) by (field; lra).
    rewrite E in Q.
    assert (0 <= (a * b - D ^ 2) / b * b) by (apply Rmult_le_pos; lra).
    replace ((a * b - D ^ 2) / b * b) with (a * b - D ^ 2) in H by (field; lra). lra.
Qed.

Definition pairs : list (Z * Z) :=
  [(0,0);(0,1);(0,2);(1,0);(1,1);(1,2);(2,0);(2,1);(2,2)]%Z.
Lemma pairs_sum (F : Z -> Z -> R) :
  rsum (map (fun x => F (fst x) (snd x)) pairs) = sum3 (fun i => sum3 (fun j => F i j)).
Proof. unfold pairs. rewrite !sum3_eq. unfold rsum; cbn. ring. Qed.

Lemma cauchy9 (A B : mat) :
  (sum3 (fun i => sum3 (fun j => A i j * B i j))) ^ 2 <= square A * square B.
Proof.
  unfold square. rewrite <- !pairs_sum.
  apply (cauchy (fun x => A (fst x) (snd x)) (fun x => B (fst x) (snd x)) pairs).
Qed.

Lemma square_nonneg A : 0 <= square A.
Proof.
  unfold square. rewrite <- pairs_sum. apply rsum_nonneg. intros; simpl; nra.
Qed.
Lemma size_sq A : size A * size A = square A.
Proof. unfold size. apply sqrt_sqrt, square_nonneg. Qed.
Lemma size_nonneg A : 0 <= size A.
Proof. apply sqrt_pos. Qed.

(** [|x| <= s t] from the squares *)
Lemma abs_from_square x s t : 0 <= s -> 0 <= t -> x ^ 2 <= (s * t) ^ 2 -> Rabs x <= s * t.
Proof.
  intros S T H. rewrite <- (Rabs_pos_eq (s * t)) by nra.
  apply Rsqr_le_abs_0. unfold Rsqr. nra.
Qed.

(** A quadratic form is at most the size of the matrix times the square of the vector. *)
Lemma quad_bound (S : mat) (v w : Z -> R) :
  Rabs (sum3 (fun i => sum3 (fun j => S i j * (v i * w j)))) <=
  size S * sqrt (sum3 (fun i => v i ^ 2) * sum3 (fun j => w j ^ 2)).
Proof.
  pose proof (cauchy9 S (fun i j => v i * w j)) as C. cbv beta in C.
  apply abs_from_square; [apply size_nonneg|apply sqrt_pos|].
  eapply Rle_trans; [exact C|]. apply Req_le.
  rewrite Rpow_mult_distr. rewrite <- (size_sq S).
  assert (P : 0 <= sum3 (fun i => v i ^ 2) * sum3 (fun j => w j ^ 2)).
  { rewrite !sum3_eq. apply Rmult_le_pos; nra. }
  replace (sqrt (sum3 (fun i => v i ^ 2) * sum3 (fun j => w j ^ 2)) ^ 2)
    with (sum3 (fun i => v i ^ 2) * sum3 (fun j => w j ^ 2))
    by (symmetry; simpl; rewrite Rmult_1_r; apply sqrt_sqrt; exact P).
  unfold square. rewrite !sum3_eq. ring.
Qed.
Lemma quad_bound1 (S : mat) (v : Z -> R) :
  Rabs (sum3 (fun i => sum3 (fun j => S i j * (v i * v j)))) <= size S * sum3 (fun i => v i ^ 2).
Proof.
  eapply Rle_trans; [apply quad_bound|]. apply Req_le. f_equal.
  apply sqrt_square. rewrite sum3_eq. nra.
Qed.

(** ** The hyperbolic tangent *)
Lemma cosh_pos x : 0 < cosh x.
Proof. unfold cosh. pose proof (exp_pos x). pose proof (exp_pos (- x)). lra. Qed.
Lemma tanh_form x : tanh x = 1 - 2 / (exp (2 * x) + 1).
Proof.
  unfold tanh, sinh, cosh. replace (2 * x) with (x + x) by ring. rewrite exp_plus, exp_Ropp.
  pose proof (exp_pos x). field. split; nra.
Qed.
Lemma tanh_lt1 x : tanh x < 1.
Proof.
  rewrite tanh_form. pose proof (exp_pos (2 * x)).
  assert (0 < 2 / (exp (2 * x) + 1)) by (apply Rdiv_lt_0_compat; lra). lra.
Qed.
Lemma tanh_mono x y : x <= y -> tanh x <= tanh y.
Proof.
  intro H. rewrite !tanh_form. pose proof (exp_pos (2 * x)). pose proof (exp_pos (2 * y)).
  assert (exp (2 * x) <= exp (2 * y)).
  { destruct (Req_dec x y) as [->|N]; [lra|]. left. apply exp_increasing. lra. }
  assert (2 / (exp (2 * y) + 1) <= 2 / (exp (2 * x) + 1)).
  { unfold Rdiv. apply Rmult_le_compat_l; [lra|]. apply Rinv_le_contravar; lra. }
  lra.
Qed.
Lemma tanh_0 : tanh 0 = 0.
Proof. unfold tanh. rewrite sinh_0. unfold Rdiv. ring. Qed.
Lemma tanh_nonneg x : 0 <= x -> 0 <= tanh x.
Proof. intro H. rewrite <- tanh_0. apply tanh_mono; exact H. Qed.
Lemma tanh_pos x : 0 < x -> 0 < tanh x.
Proof.
  intro H. rewrite tanh_form.
  assert (1 < exp (2 * x)) by (rewrite <- exp_0; apply exp_increasing; lra).
  apply Rmult_lt_reg_r with (exp (2 * x) + 1); [lra|]. rewrite Rmult_0_l.
  replace ((1 - 2 / (exp (2 * x) + 1)) * (exp (2 * x) + 1)) with (exp (2 * x) - 1) by (field; lra).
  lra.
Qed.

Lemma rmax_le_l a b : a <= rmax a b.
Proof. rewrite rmax_spec. apply Rmax_l. Qed.
Lemma rmax_le_r a b : b <= rmax a b.
Proof. rewrite rmax_spec. apply Rmax_r. Qed.
Lemma rmax_lub a b c : a <= c -> b <= c -> rmax a b <= c.
Proof. rewrite rmax_spec. apply Rmax_lub. Qed.
Lemma rmin_le_l a b : rmin a b <= a.
Proof. rewrite rmin_spec. apply Rmin_l. Qed.
Lemma rmin_le_r a b : rmin a b <= b.
Proof. rewrite rmin_spec. apply Rmin_r. Qed.
Lemma rmin_glb a b c : c <= a -> c <= b -> c <= rmin a b.
Proof. rewrite rmin_spec. apply Rmin_glb. Qed.
Lemma rmax_left a b : b <= a -> rmax a b = a.
Proof. rewrite rmax_spec. apply Rmax_left. Qed.
Lemma rmax_right a b : a <= b -> rmax a b = b.
Proof. rewrite rmax_spec. apply Rmax_right. Qed.
Lemma rmin_left a b : a <= b -> rmin a b = a.
Proof. rewrite rmin_spec. apply Rmin_left. Qed.
Lemma rmin_right a b : b <= a -> rmin a b = b.
Proof. rewrite rmin_spec. apply Rmin_right. Qed.

Lemma div_nonneg a b : 0 <= a -> 0 < b -> 0 <= a / b.
Proof. intros A B. apply Rmult_le_pos; [exact A|]. left. apply Rinv_0_lt_compat; exact B. Qed.
Lemma div_mono a b c : 0 <= a -> 0 < b -> b <= c -> a / c <= a / b.
Proof.
  intros A B C. unfold Rdiv. apply Rmult_le_compat_l; [exact A|]. apply Rinv_le_contravar; lra.
Qed.
Lemma div_le a b c : 0 < b -> a <= c * b -> a / b <= c.
Proof.
  intros B H. apply Rmult_le_reg_r with b; [exact B|].
  replace (a / b * b) with a by (field; lra). exact H.
Qed.
Lemma le_div a b c : 0 < b -> c * b <= a -> c <= a / b.
Proof.
  intros B H. apply Rmult_le_reg_r with b; [exact B|].
  replace (a / b * b) with a by (field; lra). exact H.
Qed.
