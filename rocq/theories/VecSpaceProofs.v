From Verif Require Import BoxR BoxRFacts VecSpace VecSpaceSpec.
Open Scope R_scope.

Lemma vec_eq a b c a' b' c' : a = a' -> b = b' -> c = c' -> V3 a b c = V3 a' b' c'.
Proof. congruence. Qed.

Lemma ten_eq a b c d e f g h i a' b' c' d' e' f' g' h' i' :
  a = a' -> b = b' -> c = c' -> d = d' -> e = e' -> f = f' -> g = g' -> h = h' -> i = i' ->
  T9 a b c d e f g h i = T9 a' b' c' d' e' f' g' h' i'.
Proof. congruence. Qed.

Lemma inner_pos v : 0 <= inner v v.
Proof. unfold inner. nra. Qed.

Lemma inner_zero v : inner v v = 0 -> v = V3 0 0 0.
Proof.
  destruct v as [a b c]. unfold inner; cbn. intros H.
  apply vec_eq; nra.
Qed.

Lemma inner_nonzero v : v <> V3 0 0 0 -> 0 < inner v v.
Proof.
  intros H. destruct (inner_pos v) as [P|P]; [exact P|].
  exfalso. apply H, inner_zero. congruence.
Qed.

Lemma vmag_len v : vmag v = len v.
Proof. reflexivity. Qed.

Lemma len_pos v : v <> V3 0 0 0 -> 0 < len v.
Proof. intros H. apply sqrt_lt_R0, inner_nonzero, H. Qed.

Lemma len_sqr v : len v * len v = inner v v.
Proof. unfold len. apply sqrt_sqrt, inner_pos. Qed.

Definition unitv (v : vec) : vec := V3 (vx v / len v) (vy v / len v) (vz v / len v).

Lemma unitv_unit v : v <> V3 0 0 0 -> inner (unitv v) (unitv v) = 1.
Proof.
  intros H. pose proof (len_pos v H) as L. pose proof (len_sqr v) as S.
  transitivity (inner v v / (len v * len v)).
  - unfold inner, unitv; cbn. field. lra.
  - rewrite S. field. pose proof (inner_nonzero v H). lra.
Qed.

Lemma unitv_of_unit v : inner v v = 1 -> unitv v = v.
Proof.
  intros H. unfold unitv, len. rewrite H, sqrt_1. destruct v; cbn. apply vec_eq; field.
Qed.

Lemma half_cos t : cos (0.5 * t) * cos (0.5 * t) - sin (0.5 * t) * sin (0.5 * t) = cos t.
Proof.
  replace (cos t) with (cos (2 * (0.5 * t))) by (f_equal; lra).
  rewrite cos_2a. reflexivity.
Qed.
Lemma half_sin t : 2 * sin (0.5 * t) * cos (0.5 * t) = sin t.
Proof.
  replace (sin t) with (sin (2 * (0.5 * t))) by (f_equal; lra).
  rewrite sin_2a. reflexivity.
Qed.
Lemma sc1 t : sin t * sin t + cos t * cos t = 1.
Proof. pose proof (sin2_cos2 t). unfold Rsqr in *. lra. Qed.

(** The quaternion tensor with unit axis [n] and (signed) angle [t]. *)
Lemma quat_core n t p q0 s :
  inner n n = 1 -> s * s + q0 * q0 = 1 ->
  q0 * q0 - s * s = cos t -> 2 * s * q0 = sin t ->
  let q1 := s * vx n in let q2 := s * vy n in let q3 := s * vz n in
  tapp (T9 (q0 * q0 + q1 * q1 - q2 * q2 - q3 * q3)
     (2 * (q1 * q2 - q0 * q3))
     (2 * (q0 * q2 + q1 * q3))
     (2 * (q1 * q2 + q0 * q3))
     (q0 * q0 - q1 * q1 + q2 * q2 - q3 * q3)
     (2 * (q2 * q3 - q0 * q1))
     (2 * (q1 * q3 - q0 * q2))
     (2 * (q0 * q1 + q2 * q3))
     (q0 * q0 - q1 * q1 - q2 * q2 + q3 * q3)) p = turned n t p.
Proof.
  intros Hn H1 Hc Hs. destruct n as [a b c], p as [x y z].
  unfold turned, tapp, inner in *; cbn in *.
  rewrite <- Hc, <- Hs.
  assert (E : 1 - (q0 * q0 - s * s) = 2 * (s * s)) by lra. rewrite E.
  apply vec_eq.
  - assert (q0 * q0 + s * a * (s * a) - s * b * (s * b) - s * c * (s * c)
            = q0 * q0 - s * s * (a * a + b * b + c * c) + 2 * (s * s) * (a * a)) as -> by ring.
    rewrite Hn. ring.
  - assert (q0 * q0 - s * a * (s * a) + s * b * (s * b) - s * c * (s * c)
            = q0 * q0 - s * s * (a * a + b * b + c * c) + 2 * (s * s) * (b * b)) as -> by ring.
    rewrite Hn. ring.
  - assert (q0 * q0 - s * a * (s * a) - s * b * (s * b) + s * c * (s * c)
            = q0 * q0 - s * s * (a * a + b * b + c * c) + 2 * (s * s) * (c * c)) as -> by ring.
    rewrite Hn. ring.
Qed.

Lemma quaternion_turned ax a p : ax <> V3 0 0 0 ->
  tapp (quaternion ax a) p = turned (unitv ax) (- radians a) p.
Proof.
  intros H. pose proof (len_pos ax H) as L.
  pose proof (quat_core (unitv ax) (-1 * radians a) p
                (cos (0.5 * (-1 * radians a))) (sin (0.5 * (-1 * radians a)))
                (unitv_unit ax H) (sc1 _) (half_cos _) (half_sin _)) as E.
  cbn zeta in E. replace (- radians a) with (-1 * radians a) by ring. rewrite <- E.
  unfold quaternion. rewrite vmag_len. unfold unitv; cbn.
  set (c := cos _). set (s := sin _).
  f_equal. apply ten_eq; field; lra.
Qed.

Lemma rot_turned t ax a : rotates t ax a ->
  inner (unitv ax) (unitv ax) = 1 /\
  forall p, tapp t p = turned (unitv ax) (- radians a) p.
Proof.
  intros H. destruct H as [a|a|a|ax a H].
  - rewrite (unitv_of_unit (V3 1 0 0)) by (unfold inner; cbn; ring).
    split; [unfold inner; cbn; ring|]. intros [x y z].
    unfold xrot, turned, tapp, inner; cbn. rewrite cos_neg, sin_neg. apply vec_eq; ring.
  - rewrite (unitv_of_unit (V3 0 1 0)) by (unfold inner; cbn; ring).
    split; [unfold inner; cbn; ring|]. intros [x y z].
    unfold yrot, turned, tapp, inner; cbn. rewrite cos_neg, sin_neg. apply vec_eq; ring.
  - rewrite (unitv_of_unit (V3 0 0 1)) by (unfold inner; cbn; ring).
    split; [unfold inner; cbn; ring|]. intros [x y z].
    unfold zrot, turned, tapp, inner; cbn. rewrite cos_neg, sin_neg. apply vec_eq; ring.
  - split; [apply unitv_unit, H|]. intros p. apply quaternion_turned, H.
Qed.

Lemma turned_axis n t k : inner n n = 1 ->
  turned n t (V3 (k * vx n) (k * vy n) (k * vz n)) = V3 (k * vx n) (k * vy n) (k * vz n).
Proof.
  intros H. unfold turned, inner in *; cbn in *.
  replace (vx n * (k * vx n) + vy n * (k * vy n) + vz n * (k * vz n)) with k
    by (transitivity (k * (vx n * vx n + vy n * vy n + vz n * vz n)); [rewrite H; ring|ring]).
  apply vec_eq; ring.
Qed.

Ltac nz n a b c H := destruct n as [a b c]; unfold inner in H; cbn in H;
  assert (c * c = 1 - a * a - b * b) by lra.

(** turned by [s] after turned by [t] *)
Lemma turned_compose n s t p : inner n n = 1 ->
  turned n s (turned n t p) = turned n (s + t) p.
Proof.
  intros H. destruct p as [x y z].
  assert (D : inner n (turned n t (V3 x y z)) = inner n (V3 x y z)).
  { unfold turned. destruct n as [a b c]. unfold inner in *; cbn in *.
    set (C := cos t). set (S := sin t).
    transitivity ((a * x + b * y + c * z) * C
                  + (a * a + b * b + c * c) * (a * x + b * y + c * z) * (1 - C)); [ring|].
    rewrite H. ring. }
  unfold turned at 1. rewrite D. unfold turned. cbn.
  rewrite cos_plus, sin_plus.
  set (d := inner n (V3 x y z)).
  assert (Hd : d = vx n * x + vy n * y + vz n * z) by reflexivity. clearbody d.
  destruct n as [a b c]. unfold inner in *; cbn in *. clear D.
  set (C := cos t). set (S := sin t). set (C' := cos s). set (S' := sin s).
  apply vec_eq.
  - transitivity (x * C * C' + (b * z - c * y) * S * C' + a * d * (1 - C) * C'
      + S' * (C * (b * z - c * y) + S * (a * (a * x + b * y + c * z) - x * (a * a + b * b + c * c)))
      + a * d * (1 - C')); [ring|].
    rewrite H, <- Hd. ring.
  - transitivity (y * C * C' + (c * x - a * z) * S * C' + b * d * (1 - C) * C'
      + S' * (C * (c * x - a * z) + S * (b * (a * x + b * y + c * z) - y * (a * a + b * b + c * c)))
      + b * d * (1 - C')); [ring|].
    rewrite H, <- Hd. ring.
  - transitivity (z * C * C' + (a * y - b * x) * S * C' + c * d * (1 - C) * C'
      + S' * (C * (a * y - b * x) + S * (c * (a * x + b * y + c * z) - z * (a * a + b * b + c * c)))
      + c * d * (1 - C')); [ring|].
    rewrite H, <- Hd. ring.
Qed.

Lemma turned_zero n p : turned n 0 p = p.
Proof. destruct p. unfold turned; cbn. rewrite cos_0, sin_0. apply vec_eq; ring. Qed.

Lemma turned_lin n t a b v w :
  turned n t (lin a v b w) = lin a (turned n t v) b (turned n t w).
Proof. unfold turned, lin, inner; cbn. apply vec_eq; ring. Qed.

(** moving a turn from one side of an inner product to the other *)
Lemma turned_adjoint n t v w : inner (turned n t v) w = inner v (turned n (- t) w).
Proof.
  unfold turned, inner; cbn. rewrite cos_neg, sin_neg. ring.
Qed.

Lemma turned_inner n t v w : inner n n = 1 -> inner (turned n t v) (turned n t w) = inner v w.
Proof.
  intros H. rewrite turned_adjoint, turned_compose by exact H.
  replace (- t + t) with 0 by ring. rewrite turned_zero. reflexivity.
Qed.

(** determinant of a turn *)
Definition e1 := V3 1 0 0. Definition e2 := V3 0 1 0. Definition e3 := V3 0 0 1.

Lemma triple_linear_map t u v w :
  triple (tapp t u) (tapp t v) (tapp t w)
  = triple (tapp t e1) (tapp t e2) (tapp t e3) * triple u v w.
Proof. unfold triple, tapp, e1, e2, e3; cbn. ring. Qed.

Definition turn_tensor (n : vec) (t : R) : tensor :=
  let c := cos t in let s := sin t in
  T9 (c + vx n * vx n * (1 - c)) (- vz n * s + vx n * vy n * (1 - c)) (vy n * s + vx n * vz n * (1 - c))
     (vz n * s + vy n * vx n * (1 - c)) (c + vy n * vy n * (1 - c)) (- vx n * s + vy n * vz n * (1 - c))
     (- vy n * s + vz n * vx n * (1 - c)) (vx n * s + vz n * vy n * (1 - c)) (c + vz n * vz n * (1 - c)).

Lemma turn_tensor_ok n t p : tapp (turn_tensor n t) p = turned n t p.
Proof. unfold turn_tensor, tapp, turned, inner; cbn. apply vec_eq; ring. Qed.

Lemma turned_det n t : inner n n = 1 ->
  triple (tapp (turn_tensor n t) e1) (tapp (turn_tensor n t) e2) (tapp (turn_tensor n t) e3) = 1.
Proof.
  intros H. pose proof (sc1 t) as S.
  unfold turn_tensor, triple, tapp, e1, e2, e3; cbn.
  set (c := cos t) in *. set (s := sin t) in *.
  destruct n as [a b d]. unfold inner in H; cbn in *.
  assert (Hd : d * d = 1 - a * a - b * b) by lra.
  assert (Hs : s * s = 1 - c * c) by lra. clear H S.
  transitivity (c * c * c + c * c * (1 - c) * (a * a + b * b + d * d)
    + c * s * s * (a * a + b * b + d * d)
    + (1 - c) * s * s * (a * a + b * b + d * d) * (a * a + b * b + d * d)).
  - ring.
  - replace (a * a + b * b + d * d) with 1 by lra.
    transitivity (c * c * c + c * c * (1 - c) + c * (s * s) + (1 - c) * (s * s)); [ring|].
    rewrite Hs. ring.
Qed.

Lemma turned_triple n t u v w : inner n n = 1 ->
  triple (turned n t u) (turned n t v) (turned n t w) = triple u v w.
Proof.
  intros H. rewrite <- !turn_tensor_ok, triple_linear_map, turned_det by exact H. ring.
Qed.

Lemma rotation_proper t ax a : rotates t ax a -> proper_rotation (tapp t).
Proof.
  intros H. destruct (rot_turned t ax a H) as [U E].
  split; [|split].
  - intros. rewrite !E. apply turned_lin.
  - intros. rewrite !E. apply turned_inner, U.
  - intros. rewrite !E. apply turned_triple, U.
Qed.

Lemma rotation_axis t ax a : rotates t ax a -> tapp t ax = ax.
Proof.
  intros H. destruct (rot_turned t ax a H) as [U E]. rewrite E.
  assert (N : ax <> V3 0 0 0) by (destruct H; try assumption; intros X; injection X; lra).
  pose proof (len_pos ax N).
  assert (ax = V3 (len ax * vx (unitv ax)) (len ax * vy (unitv ax)) (len ax * vz (unitv ax))) as X.
  { unfold unitv; cbn. assert (L : len ax <> 0) by lra. clear - L. set (l := len ax) in *. clearbody l.
    destruct ax as [a1 a2 a3]; cbn. apply vec_eq; field; exact L. }
  rewrite X at 2. rewrite turned_axis by exact U. symmetry; exact X.
Qed.

Lemma radians_plus a b : radians (a + b) = radians a + radians b.
Proof. unfold radians. field. Qed.

Lemma vapp_adjoint v t w : inner (vapp v t) w = inner v (tapp t w).
Proof. unfold inner, vapp, tapp; cbn. ring. Qed.

Lemma vapp_transpose v t : vapp v t = tapp (transpose_of t) v.
Proof. reflexivity. Qed.

Lemma inner_ext u v : (forall w, inner u w = inner v w) -> u = v.
Proof.
  intros H. destruct u as [a b c], v as [a' b' c'].
  pose proof (H e1) as H1. pose proof (H e2) as H2. pose proof (H e3) as H3.
  unfold inner, e1, e2, e3 in *; cbn in *. apply vec_eq; lra.
Qed.

Lemma vapp_turned t ax a v : rotates t ax a -> vapp v t = turned (unitv ax) (radians a) v.
Proof.
  intros H. destruct (rot_turned t ax a H) as [U E]. apply inner_ext. intros w.
  rewrite vapp_adjoint, E. rewrite turned_adjoint. f_equal.
Qed.

Lemma rotation_inverse t ax a v : rotates t ax a -> vapp (tapp t v) t = v /\ tapp t (vapp v t) = v.
Proof.
  intros H. destruct (rot_turned t ax a H) as [U E].
  rewrite !(vapp_turned t ax a) by exact H. rewrite !E. split.
  - rewrite turned_compose by exact U. replace (radians a + - radians a) with 0 by ring. apply turned_zero.
  - rewrite turned_compose by exact U. replace (- radians a + radians a) with 0 by ring. apply turned_zero.
Qed.

Lemma tapp_compose a b v : tapp (tmul a b) v = tapp a (tapp b v).
Proof. unfold tapp, tmul; cbn. apply vec_eq; ring. Qed.

Lemma tapp_ext a b : (forall v, tapp a v = tapp b v) -> a = b.
Proof.
  intros H. pose proof (H e1) as H1. pose proof (H e2) as H2. pose proof (H e3) as H3.
  unfold tapp, e1, e2, e3 in *; cbn in *. destruct a, b; cbn in *.
  injection H1; injection H2; injection H3; intros. apply ten_eq; lra.
Qed.

Lemma rotation_compose t1 t2 t3 ax a b :
  rotates t1 ax a -> rotates t2 ax b -> rotates t3 ax (a + b) -> tmul t1 t2 = t3.
Proof.
  intros H1 H2 H3. destruct (rot_turned _ _ _ H1) as [U E1].
  destruct (rot_turned _ _ _ H2) as [_ E2]. destruct (rot_turned _ _ _ H3) as [_ E3].
  apply tapp_ext. intros v. rewrite tapp_compose, E1, E2, E3, turned_compose by exact U.
  f_equal. rewrite radians_plus. ring.
Qed.

Lemma rotation_tensor_unique t1 t2 ax a : rotates t1 ax a -> rotates t2 ax a -> t1 = t2.
Proof.
  intros H1 H2. destruct (rot_turned _ _ _ H1) as [U E1]. destruct (rot_turned _ _ _ H2) as [_ E2].
  apply tapp_ext. intros v. rewrite E1, E2. reflexivity.
Qed.
