(** Proofs for C81: sums, the inverse of a 4x4 matrix, the normal equations. *)
From Coq Require Import Setoid Morphisms.
From Verif Require Import Base Interp InterpSpec MesoForcing MesoForcingSpec.
Close Scope R_scope.
Close Scope string_scope.
Open Scope list_scope.
Open Scope Q_scope.

(** ** Sums *)
Fixpoint qsum {A} (f : A -> Q) (l : list A) : Q := match l with [] => 0 | x :: r => f x + qsum f r end.
Lemma fold_plus : forall l a, fold_left Qplus l a == a + fold_left Qplus l 0.
Proof.
  induction l as [|x l IH]; intros a; cbn [fold_left]; [ring|].
  rewrite (IH (a + x)), (IH (0 + x)). ring.
Qed.
Lemma total_sum : forall A (f : A -> Q) l, total (map f l) == qsum f l.
Proof.
  intros A f l. unfold total. induction l as [|x l IH]; cbn [map fold_left qsum]; [reflexivity|].
  rewrite fold_plus, IH. ring.
Qed.
Lemma qsum_ext : forall A (f g : A -> Q) l, (forall x, In x l -> f x == g x) -> qsum f l == qsum g l.
Proof.
  intros A f g l H. induction l as [|x l IH]; [reflexivity|]. cbn [qsum].
  rewrite (H x), IH; [reflexivity| |left; reflexivity]. intros y Hy. apply H; right; exact Hy.
Qed.
Lemma qsum_plus : forall A (f g : A -> Q) l, qsum (fun x => f x + g x) l == qsum f l + qsum g l.
Proof. intros A f g l. induction l as [|x l IH]; cbn [qsum]; [ring|]. rewrite IH. ring. Qed.
Lemma qsum_scal : forall A (f : A -> Q) k l, qsum (fun x => k * f x) l == k * qsum f l.
Proof. intros A f k l. induction l as [|x l IH]; cbn [qsum]; [ring|]. rewrite IH. ring. Qed.
Lemma qsum_nonneg : forall A (f : A -> Q) l, (forall x, In x l -> 0 <= f x) -> 0 <= qsum f l.
Proof.
  intros A f l H. induction l as [|x l IH]; cbn [qsum]; [apply Qle_refl|].
  assert (0 <= f x) by (apply H; left; reflexivity).
  assert (0 <= qsum f l) by (apply IH; intros y Hy; apply H; right; exact Hy). lra.
Qed.
Lemma qsum_zero : forall A (f : A -> Q) l, (forall x, In x l -> 0 <= f x) -> qsum f l == 0 -> forall x, In x l -> f x == 0.
Proof.
  intros A f l H E. induction l as [|y l IH]; intros x Hx; [destruct Hx|]. cbn [qsum] in E.
  assert (0 <= f y) by (apply H; left; reflexivity).
  assert (N : 0 <= qsum f l) by (apply qsum_nonneg; intros z Hz; apply H; right; exact Hz).
  destruct Hx as [<-|Hx]; [lra|]. apply IH; [intros z Hz; apply H; right; exact Hz|lra|exact Hx].
Qed.
Lemma qsum_map : forall A B (g : A -> B) (f : B -> Q) l, qsum f (map g l) = qsum (fun x => f (g x)) l.
Proof. intros. induction l as [|x l IH]; cbn [map qsum]; [reflexivity|]. now rewrite IH. Qed.

(** ** The inverse *)
Definition mul4 (a b : mat) (i j : nat) : Q := sum4 (fun k => a i k * b k j).
Definition one4 (i j : nat) : Q := if (i =? j)%nat then 1 else 0.
Lemma invert_right : forall m im i j, invert_mat m = Some im -> (i < 4)%nat -> (j < 4)%nat -> mul4 m im i j == one4 i j.
Proof.
  intros m im i j H Hi Hj. unfold invert_mat in H. destruct (Qeq_bool (det4 m) 0) eqn:E; [discriminate|].
  apply Qeq_bool_neq in E. injection H as <-.
  assert (D : 1 / det4 m * det4 m == 1) by (field; exact E).
  set (d := 1 / det4 m) in *. unfold det4 in D. cbv zeta in D.
  destruct i as [|[|[|[|i]]]]; [| | | |lia];
  (destruct j as [|[|[|[|j]]]]; [| | | |lia]);
  unfold mul4, sum4, one4; cbn [Nat.eqb]; unfold ent in *; try (rewrite <- D); ring.
Qed.
Lemma invert_left : forall m im i j, invert_mat m = Some im -> (i < 4)%nat -> (j < 4)%nat -> mul4 im m i j == one4 i j.
Proof.
  intros m im i j H Hi Hj. unfold invert_mat in H. destruct (Qeq_bool (det4 m) 0) eqn:E; [discriminate|].
  apply Qeq_bool_neq in E. injection H as <-.
  assert (D : 1 / det4 m * det4 m == 1) by (field; exact E).
  set (d := 1 / det4 m) in *. unfold det4 in D. cbv zeta in D.
  destruct i as [|[|[|[|i]]]]; [| | | |lia];
  (destruct j as [|[|[|[|j]]]]; [| | | |lia]);
  unfold mul4, sum4, one4; cbn [Nat.eqb]; unfold ent in *; try (rewrite <- D); ring.
Qed.
Lemma invert_some : forall m, ~ det4 m == 0 -> exists im, invert_mat m = Some im.
Proof.
  intros m H. unfold invert_mat. destruct (Qeq_bool (det4 m) 0) eqn:E; [apply Qeq_bool_eq in E; contradiction|].
  eexists. reflexivity.
Qed.

(** ** Four roots *)
Lemma qnz_mult : forall a b, ~ a == 0 -> a * b == 0 -> b == 0.
Proof. intros a b Ha H. destruct (Qmult_integral _ _ H); [contradiction|assumption]. Qed.
Lemma diff_nz : forall a b : Q, ~ a == b -> ~ a - b == 0.
Proof. intros a b H E. apply H. lra. Qed.
Lemma four_roots : forall a b c d x1 x2 x3 x4,
  ~ x1 == x2 -> ~ x1 == x3 -> ~ x1 == x4 -> ~ x2 == x3 -> ~ x2 == x4 -> ~ x3 == x4 ->
  cubic a b c d x1 == 0 -> cubic a b c d x2 == 0 -> cubic a b c d x3 == 0 -> cubic a b c d x4 == 0 ->
  a == 0 /\ b == 0 /\ c == 0 /\ d == 0.
Proof.
  unfold cubic. intros a b c d x1 x2 x3 x4 H12 H13 H14 H23 H24 H34 E1 E2 E3 E4.
  assert (P2 : b + c * (x1 + x2) + d * (x1*x1 + x1*x2 + x2*x2) == 0).
  { apply (qnz_mult (x1 - x2)); [apply diff_nz; exact H12|].
    transitivity ((a + b * x1 + c * (x1 * x1) + d * (x1 * x1 * x1)) - (a + b * x2 + c * (x2 * x2) + d * (x2 * x2 * x2))); [ring|]. rewrite E1, E2. ring. }
  assert (P3 : b + c * (x1 + x3) + d * (x1*x1 + x1*x3 + x3*x3) == 0).
  { apply (qnz_mult (x1 - x3)); [apply diff_nz; exact H13|].
    transitivity ((a + b * x1 + c * (x1 * x1) + d * (x1 * x1 * x1)) - (a + b * x3 + c * (x3 * x3) + d * (x3 * x3 * x3))); [ring|]. rewrite E1, E3. ring. }
  assert (P4 : b + c * (x1 + x4) + d * (x1*x1 + x1*x4 + x4*x4) == 0).
  { apply (qnz_mult (x1 - x4)); [apply diff_nz; exact H14|].
    transitivity ((a + b * x1 + c * (x1 * x1) + d * (x1 * x1 * x1)) - (a + b * x4 + c * (x4 * x4) + d * (x4 * x4 * x4))); [ring|]. rewrite E1, E4. ring. }
  assert (Q3 : c + d * (x1 + x2 + x3) == 0).
  { apply (qnz_mult (x2 - x3)); [apply diff_nz; exact H23|].
    transitivity ((b + c * (x1 + x2) + d * (x1*x1 + x1*x2 + x2*x2)) - (b + c * (x1 + x3) + d * (x1*x1 + x1*x3 + x3*x3))); [ring|]. rewrite P2, P3. ring. }
  assert (Q4 : c + d * (x1 + x2 + x4) == 0).
  { apply (qnz_mult (x2 - x4)); [apply diff_nz; exact H24|].
    transitivity ((b + c * (x1 + x2) + d * (x1*x1 + x1*x2 + x2*x2)) - (b + c * (x1 + x4) + d * (x1*x1 + x1*x4 + x4*x4))); [ring|]. rewrite P2, P4. ring. }
  assert (D0 : d == 0).
  { apply (qnz_mult (x3 - x4)); [apply diff_nz; exact H34|].
    transitivity ((c + d * (x1 + x2 + x3)) - (c + d * (x1 + x2 + x4))); [ring|]. rewrite Q3, Q4. ring. }
  assert (C0 : c == 0) by (rewrite D0 in Q3; lra).
  assert (B0 : b == 0) by (rewrite D0, C0 in P2; lra).
  assert (A0 : a == 0) by (rewrite D0, C0, B0 in E1; lra).
  auto.
Qed.

(** ** The normal matrix *)
Definition xs_ (sc : Q) (r : row) : Q := rz r * sc.
Definition hk (l : list row) (sc : Q) (k : nat) : Q := qsum (fun r => rw r * qpow (xs_ sc r) k) l.
Lemma rows_combine : forall W zs e (f : Q -> Q -> Q), length W = length zs -> length e = length zs ->
  qsum (fun wz => f (fst wz) (snd wz)) (combine W zs) = qsum (fun r => f (rw r) (rz r)) (rows W zs e).
Proof.
  induction W as [|w W IH]; intros [|z zs] [|v e] f HW He; try discriminate; [reflexivity|].
  cbn [combine rows qsum fst snd rw rz]. f_equal. apply IH; simpl in *; lia.
Qed.
Lemma rows_combine3 : forall W zs e (f : Q -> Q -> Q -> Q), length W = length zs -> length e = length zs ->
  qsum (fun x => f (fst (fst x)) (snd (fst x)) (snd x)) (combine (combine W zs) e) = qsum (fun r => f (rw r) (rz r) (re r)) (rows W zs e).
Proof.
  induction W as [|w W IH]; intros [|z zs] [|v e] f HW He; try discriminate; [reflexivity|].
  cbn [combine rows qsum fst snd rw rz re]. f_equal. apply IH; simpl in *; lia.
Qed.
Lemma gram_hk : forall W zs e sc i j, length W = length zs -> length e = length zs ->
  gram W zs sc i j == hk (rows W zs e) sc (i + j).
Proof.
  intros. unfold gram, hk, xs_. rewrite total_sum, (Nat.add_comm j i).
  rewrite (rows_combine W zs e (fun w z => w * qpow (z * sc) (i + j))) by assumption. reflexivity.
Qed.
Lemma qform : forall l sc a b c d,
  qsum (fun r => rw r * (cubic a b c d (xs_ sc r) * cubic a b c d (xs_ sc r))) l ==
  a*a*hk l sc 0 + 2*a*b*hk l sc 1 + (b*b + 2*a*c)*hk l sc 2 + (2*a*d + 2*b*c)*hk l sc 3
  + (c*c + 2*b*d)*hk l sc 4 + 2*c*d*hk l sc 5 + d*d*hk l sc 6.
Proof.
  intros l sc a b c d. unfold hk. rewrite <- !qsum_scal, <- !qsum_plus. apply qsum_ext. intros r _.
  unfold cubic; cbn [qpow]. ring.
Qed.
Lemma qsq_nonneg : forall x : Q, 0 <= x * x.
Proof. intros x. destruct (Qlt_le_dec x 0); nra. Qed.
Lemma form_zero : forall l sc a b c d, (forall r, In r l -> 0 <= rw r) -> ~ sc == 0 -> four_heights l ->
  a*a*hk l sc 0 + 2*a*b*hk l sc 1 + (b*b + 2*a*c)*hk l sc 2 + (2*a*d + 2*b*c)*hk l sc 3
  + (c*c + 2*b*d)*hk l sc 4 + 2*c*d*hk l sc 5 + d*d*hk l sc 6 == 0 ->
  a == 0 /\ b == 0 /\ c == 0 /\ d == 0.
Proof.
  intros l sc a b c d Hw Hs (r1 & r2 & r3 & r4 & I1 & I2 & I3 & I4 & W1 & W2 & W3 & W4 & D12 & D13 & D14 & D23 & D24 & D34) E.
  rewrite <- qform in E.
  assert (Z : forall r, In r l -> 0 < rw r -> cubic a b c d (xs_ sc r) == 0).
  { intros r Hr Hp.
    assert (K : rw r * (cubic a b c d (xs_ sc r) * cubic a b c d (xs_ sc r)) == 0).
    { apply (qsum_zero _ (fun r => rw r * (cubic a b c d (xs_ sc r) * cubic a b c d (xs_ sc r))) l); auto.
      intros x Hx. pose proof (Hw x Hx). pose proof (qsq_nonneg (cubic a b c d (xs_ sc x))). nra. }
    apply qnz_mult in K; [|lra]. destruct (Qmult_integral _ _ K); assumption. }
  assert (N : forall x y, ~ x == y -> ~ x * sc == y * sc).
  { intros x y Hxy Hc. apply Hxy. apply (Qmult_inj_r x y sc Hs). exact Hc. }
  apply (four_roots a b c d (xs_ sc r1) (xs_ sc r2) (xs_ sc r3) (xs_ sc r4)); unfold xs_; try (apply N; assumption); apply Z; assumption.
Qed.
Definition hankel (h : nat -> Q) : mat := fun i j => h (i + j)%nat.
Lemma det_hankel_regular : forall l sc, (forall r, In r l -> 0 <= rw r) -> ~ sc == 0 -> four_heights l ->
  ~ det4 (hankel (hk l sc)) == 0.
Proof.
  intros l sc Hw Hs H4 E.
  pose proof (fun a b c d => form_zero l sc a b c d Hw Hs H4) as F.
  set (h0 := hk l sc 0) in *; set (h1 := hk l sc 1) in *; set (h2 := hk l sc 2) in *; set (h3 := hk l sc 3) in *;
  set (h4 := hk l sc 4) in *; set (h5 := hk l sc 5) in *; set (h6 := hk l sc 6) in *.
  assert (Dx : det4 (hankel (hk l sc)) ==
     h0*(h2*(h4*h6-h5*h5) - h3*(h3*h6-h5*h4) + h4*(h3*h5-h4*h4))
     - h1*(h1*(h4*h6-h5*h5) - h3*(h2*h6-h5*h3) + h4*(h2*h5-h4*h3))
     + h2*(h1*(h3*h6-h5*h4) - h2*(h2*h6-h5*h3) + h4*(h2*h4-h3*h3))
     - h3*(h1*(h3*h5-h4*h4) - h2*(h2*h5-h4*h3) + h3*(h2*h4-h3*h3))).
  { unfold det4, ent, hankel. cbn [Nat.add]. fold h0 h1 h2 h3 h4 h5 h6. ring. }
  rewrite Dx in E.
  set (d3 := h0*(h2*h4-h3*h3) - h1*(h1*h4-h3*h2) + h2*(h1*h3-h2*h2)).
  destruct (F (- (h1*(h3*h5-h4*h4) - h2*(h2*h5-h3*h4) + h3*(h2*h4-h3*h3)))
              (h0*(h3*h5-h4*h4) - h2*(h1*h5-h2*h4) + h3*(h1*h4-h2*h3))
              (- (h0*(h2*h5-h3*h4) - h1*(h1*h5-h2*h4) + h3*(h1*h3-h2*h2)))
              d3) as (_ & _ & _ & D3).
  { transitivity (d3 * (h0*(h2*(h4*h6-h5*h5) - h3*(h3*h6-h5*h4) + h4*(h3*h5-h4*h4))
     - h1*(h1*(h4*h6-h5*h5) - h3*(h2*h6-h5*h3) + h4*(h2*h5-h4*h3))
     + h2*(h1*(h3*h6-h5*h4) - h2*(h2*h6-h5*h3) + h4*(h2*h4-h3*h3))
     - h3*(h1*(h3*h5-h4*h4) - h2*(h2*h5-h4*h3) + h3*(h2*h4-h3*h3)))); [unfold d3; ring|]. rewrite E. ring. }
  destruct (F (h1*h3-h2*h2) (-(h0*h3-h1*h2)) (h0*h2-h1*h1) 0) as (_ & _ & D2 & _).
  { transitivity ((h0*h2-h1*h1) * d3); [unfold d3; ring|]. rewrite D3. ring. }
  destruct (F (-h1) h0 0 0) as (_ & D1 & _ & _).
  { transitivity (h0 * (h0*h2-h1*h1)); [ring|]. rewrite D2. ring. }
  destruct (F 1 0 0 0) as (K & _); [rewrite D1; ring|]. discriminate K.
Qed.

(** ** The normal equations *)
Lemma det4_ext : forall m m', (forall i j, (i < 4)%nat -> (j < 4)%nat -> m i j == m' i j) -> det4 m == det4 m'.
Proof.
  intros m m' H. unfold det4, ent. cbv zeta.
  rewrite !(H 0%nat), !(H 1%nat), !(H 2%nat), !(H 3%nat) by lia. reflexivity.
Qed.
Lemma gram_regular : forall W zs e sc, length W = length zs -> length e = length zs ->
  (forall r, In r (rows W zs e) -> 0 <= rw r) -> ~ sc == 0 -> four_heights (rows W zs e) ->
  ~ det4 (gram W zs sc) == 0.
Proof.
  intros W zs e sc HW He Hw Hs H4.
  rewrite (det4_ext (gram W zs sc) (hankel (hk (rows W zs e) sc))); [apply det_hankel_regular; assumption|].
  intros i j _ _. rewrite (gram_hk W zs e) by assumption. reflexivity.
Qed.
Lemma solves : forall m im b i, invert_mat m = Some im -> (i < 4)%nat -> sum4 (fun j => m i j * coeffs im b j) == b i.
Proof.
  intros m im b i H Hi.
  assert (E : sum4 (fun j => m i j * coeffs im b j) == sum4 (fun k => mul4 m im i k * b k)) by (unfold coeffs, mul4, sum4; ring).
  rewrite E. unfold sum4.
  rewrite !(invert_right m im i) by (auto; lia).
  destruct i as [|[|[|[|i]]]]; [| | | |lia]; unfold one4; cbn [Nat.eqb]; ring.
Qed.
Lemma poly_cubic : forall c sc z, poly c sc z == cubic (c 0%nat) (c 1%nat) (c 2%nat) (c 3%nat) (z * sc).
Proof. intros. unfold poly, sum4, cubic; cbn [qpow]. ring. Qed.

Definition yk (l : list row) (sc : Q) (k : nat) : Q := qsum (fun r => rw r * re r * qpow (xs_ sc r) k) l.
(** [c] solves the normal equations of [l]. *)
Definition normal (l : list row) (sc : Q) (c : nat -> Q) : Prop :=
  forall i, (i < 4)%nat -> sum4 (fun j => hk l sc (i + j) * c j) == yk l sc i.
Lemma orthogonal : forall l sc c a b g d, normal l sc c ->
  qsum (fun r => rw r * ((re r - poly c sc (rz r)) * cubic a b g d (xs_ sc r))) l == 0.
Proof.
  intros l sc c a b g d H.
  assert (K : forall i, (i < 4)%nat -> qsum (fun r => rw r * (re r - poly c sc (rz r)) * qpow (xs_ sc r) i) l == 0).
  { intros i Hi.
    rewrite (qsum_ext _ _ (fun r => rw r * re r * qpow (xs_ sc r) i +
        ((-1) * c 0%nat) * (rw r * qpow (xs_ sc r) (i + 0)) + ((-1) * c 1%nat) * (rw r * qpow (xs_ sc r) (i + 1)) +
        ((-1) * c 2%nat) * (rw r * qpow (xs_ sc r) (i + 2)) + ((-1) * c 3%nat) * (rw r * qpow (xs_ sc r) (i + 3)))).
    2:{ intros r _. rewrite poly_cubic. fold (xs_ sc r). unfold cubic.
        destruct i as [|[|[|[|i]]]]; [| | | |lia]; cbn [qpow Nat.add]; ring. }
    rewrite !qsum_plus, !qsum_scal. fold (yk l sc i). fold (hk l sc (i + 0)) (hk l sc (i + 1)) (hk l sc (i + 2)) (hk l sc (i + 3)).
    rewrite <- (H i Hi). unfold sum4. ring. }
  rewrite (qsum_ext _ _ (fun r => a * (rw r * (re r - poly c sc (rz r)) * qpow (xs_ sc r) 0) + b * (rw r * (re r - poly c sc (rz r)) * qpow (xs_ sc r) 1)
     + g * (rw r * (re r - poly c sc (rz r)) * qpow (xs_ sc r) 2) + d * (rw r * (re r - poly c sc (rz r)) * qpow (xs_ sc r) 3))).
  2:{ intros r _. unfold cubic; cbn [qpow]. ring. }
  rewrite !qsum_plus, !qsum_scal, !K by lia. ring.
Qed.
Lemma misfit_sum : forall l g, misfit l g == qsum (fun r => rw r * ((re r - g (rz r)) * (re r - g (rz r)))) l.
Proof. intros l g. induction l as [|r l IH]; cbn [misfit qsum]; [reflexivity|]. rewrite IH. reflexivity. Qed.
(** A polynomial in the height is one in the scaled height. *)
Lemma rescale : forall sc a b c d, ~ sc == 0 -> exists a' b' c' d', forall z, cubic a b c d z == cubic a' b' c' d' (z * sc).
Proof.
  intros sc a b c d H. exists a, (b / sc), (c / (sc * sc)), (d / (sc * sc * sc)). intros z. unfold cubic. field. exact H.
Qed.
Lemma least : forall l sc c a b g d, (forall r, In r l -> 0 <= rw r) -> normal l sc c -> ~ sc == 0 ->
  misfit l (cubic a b g d) == misfit l (poly c sc) +
    qsum (fun r => rw r * ((poly c sc (rz r) - cubic a b g d (rz r)) * (poly c sc (rz r) - cubic a b g d (rz r)))) l.
Proof.
  intros l sc c a b g d Hw H Hs. destruct (rescale sc a b g d Hs) as (a' & b' & g' & d' & R).
  rewrite !misfit_sum.
  transitivity (qsum (fun r => rw r * ((re r - poly c sc (rz r)) * (re r - poly c sc (rz r)))) l +
     qsum (fun r => rw r * ((poly c sc (rz r) - cubic a b g d (rz r)) * (poly c sc (rz r) - cubic a b g d (rz r)))) l +
     2 * qsum (fun r => rw r * ((re r - poly c sc (rz r)) * cubic (c 0%nat - a') (c 1%nat - b') (c 2%nat - g') (c 3%nat - d') (xs_ sc r))) l).
  2:{ rewrite orthogonal by exact H. ring. }
  rewrite <- qsum_scal, <- !qsum_plus. apply qsum_ext. intros r _.
  rewrite (R (rz r)), poly_cubic. unfold xs_, cubic. ring.
Qed.
(** The values of [fit] solve the normal equations. *)
Lemma fit_temp : forall W zs sc e p, length W = length zs -> length e = length zs ->
  fit Temperature W zs sc e = Ret (Some p) ->
  exists c, p = map (poly c sc) zs /\ normal (rows W zs e) sc c.
Proof.
  intros W zs sc e p HW He H. unfold fit, rhs, rhs_temp in H. cbn [obind] in H.
  destruct (invert_mat (gram W zs sc)) as [im|] eqn:E; [|discriminate]. injection H as <-.
  eexists. split; [reflexivity|]. intros i Hi.
  set (b := fun i : nat => match i with 0%nat => _ | 1%nat => _ | 2%nat => _ | _ => _ end).
  transitivity (sum4 (fun j => gram W zs sc i j * coeffs im b j)).
  { unfold sum4. rewrite !(gram_hk W zs e) by assumption. reflexivity. }
  rewrite (solves _ _ b i E Hi). unfold yk, xs_.
  rewrite <- (rows_combine3 W zs e (fun w z v => w * v * qpow (z * sc) i)) by assumption.
  destruct i as [|[|[|[|i]]]]; [| | | |lia]; cbv beta iota delta [b]; rewrite total_sum; apply qsum_ext; intros x _; cbn [qpow]; ring.
Qed.
Lemma fit_temp_some : forall W zs sc e, ~ det4 (gram W zs sc) == 0 -> exists p, fit Temperature W zs sc e = Ret (Some p).
Proof.
  intros W zs sc e H. unfold fit, rhs, rhs_temp; cbn [obind]. destruct (invert_some _ H) as (im & ->). eexists. reflexivity.
Qed.
Lemma rows_in : forall W zs e r, In r (rows W zs e) -> In (rw r) W /\ In (rz r) zs /\ In (re r) e.
Proof.
  induction W as [|w W IH]; intros [|z zs] [|v e] r H; try destruct H.
  - subst r; cbn [rw rz re]; split; [|split]; left; reflexivity.
  - destruct (IH _ _ _ H) as (A & B & C). split; [|split]; right; assumption.
Qed.
Lemma rows_map : forall W zs e g i, length W = length zs -> length e = length zs -> (i < length zs)%nat ->
  at_ (map g zs) i (g (nth i zs 0)) /\ In (Row (nth i W 0) (nth i zs 0) (nth i e 0)) (rows W zs e).
Proof.
  induction W as [|w W IH]; intros [|z zs] [|v e] g i HW He Hi; try discriminate; [simpl in Hi; lia|].
  destruct i as [|i]; [split; [reflexivity|left; reflexivity]|].
  destruct (IH zs e g i) as (A & B); simpl in *; try lia. split; [exact A|right; exact B].
Qed.
(** A cubic that fits the weighted heights without error is the fit, at every height. *)
Lemma fit_unique : forall l sc c a b g d, (forall r, In r l -> 0 <= rw r) -> normal l sc c -> ~ sc == 0 -> four_heights l ->
  (forall r, In r l -> 0 < rw r -> re r == cubic a b g d (rz r)) -> forall z, poly c sc z == cubic a b g d z.
Proof.
  intros l sc c a b g d Hw H Hs H4 Hf z.
  pose proof (least l sc c a b g d Hw H Hs) as E.
  assert (Z : misfit l (cubic a b g d) == 0).
  { rewrite misfit_sum. rewrite (qsum_ext _ _ (fun r => 0 * rw r)); [rewrite qsum_scal; ring|].
    intros r Hr. destruct (Qlt_le_dec 0 (rw r)) as [P|P]; [rewrite (Hf r Hr P); ring|].
    assert (Q0 : rw r == 0) by (pose proof (Hw r Hr); lra). rewrite Q0. ring. }
  assert (M : 0 <= misfit l (poly c sc)).
  { rewrite misfit_sum. apply qsum_nonneg. intros r Hr. pose proof (Hw r Hr). pose proof (qsq_nonneg (re r - poly c sc (rz r))). nra. }
  set (D := fun r => rw r * ((poly c sc (rz r) - cubic a b g d (rz r)) * (poly c sc (rz r) - cubic a b g d (rz r)))) in E.
  assert (N : forall r, In r l -> 0 <= D r).
  { intros r Hr. unfold D. pose proof (Hw r Hr). pose proof (qsq_nonneg (poly c sc (rz r) - cubic a b g d (rz r))). nra. }
  assert (S0 : qsum D l == 0). { pose proof (qsum_nonneg _ D l N). lra. }
  destruct (rescale sc a b g d Hs) as (a' & b' & g' & d' & R).
  assert (V : forall r, In r l -> 0 < rw r -> cubic (c 0%nat - a') (c 1%nat - b') (c 2%nat - g') (c 3%nat - d') (rz r * sc) == 0).
  { intros r Hr P. pose proof (qsum_zero _ D l N S0 r Hr) as K. unfold D in K. apply qnz_mult in K; [|lra].
    assert (K' : poly c sc (rz r) - cubic a b g d (rz r) == 0) by (destruct (Qmult_integral _ _ K); assumption).
    rewrite (R (rz r)), poly_cubic in K'. rewrite <- K'. unfold cubic. ring. }
  destruct H4 as (r1 & r2 & r3 & r4 & I1 & I2 & I3 & I4 & W1 & W2 & W3 & W4 & D12 & D13 & D14 & D23 & D24 & D34).
  assert (Nd : forall x y, ~ x == y -> ~ x * sc == y * sc).
  { intros x y Hxy Hc. apply Hxy. apply (Qmult_inj_r x y sc Hs). exact Hc. }
  destruct (four_roots (c 0%nat - a') (c 1%nat - b') (c 2%nat - g') (c 3%nat - d') (rz r1 * sc) (rz r2 * sc) (rz r3 * sc) (rz r4 * sc))
    as (A & B & C & E4); try (apply Nd; assumption); try (apply V; assumption).
  rewrite (R z), poly_cubic. unfold cubic.
  assert (c 0%nat == a') by lra. assert (c 1%nat == b') by lra. assert (c 2%nat == g') by lra. assert (c 3%nat == d') by lra.
  rewrite H0, H1, H2, H3. reflexivity.
Qed.
