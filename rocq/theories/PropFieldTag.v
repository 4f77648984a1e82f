(** C83: Refinement by the flow tags exactly the cells past the value given for their level. *)
From Coq Require Import Arith Lia Lra.
From Verif Require Import BoxR BoxRFacts FieldTag FieldTagSpec.
Local Open Scope R_scope.

(** ** Thresholds *)
Lemma listed_given maxlev vals level : listed maxlev vals level = true <-> exists v, given maxlev vals level v /\ threshold maxlev vals level = v.
Proof.
  unfold listed, given, threshold, fcount. rewrite Z.leb_le. split.
  - intros H. assert (L : (level < Nat.min (length vals) (maxlev + 1))%nat) by lia.
    destruct (nth_error vals level) as [v|] eqn:E.
    + exists v. split; [split; [lia|reflexivity]|]. rewrite (proj2 (Nat.ltb_lt _ _) L). apply nth_error_nth, E.
    + apply nth_error_None in E. lia.
  - intros (v & (A & B) & _). assert (level < length vals)%nat by (apply nth_error_Some; congruence). lia.
Qed.
Lemma unlisted_max maxlev vals level : (forall v, ~ given maxlev vals level v) ->
  listed maxlev vals level = false /\ threshold maxlev vals level = dmax.
Proof.
  intros H. assert (L : listed maxlev vals level = false).
  { destruct (listed maxlev vals level) eqn:E; [|reflexivity]. apply listed_given in E. destruct E as (v & G & _). elim (H v G). }
  split; [exact L|]. unfold threshold. unfold listed in L. apply Z.leb_gt in L.
  replace (level <? fcount maxlev vals)%nat with false by (symmetry; apply Nat.ltb_ge; lia). reflexivity.
Qed.
Lemma given_threshold maxlev vals level v : given maxlev vals level v -> listed maxlev vals level = true /\ threshold maxlev vals level = v.
Proof.
  intros G. assert (L : listed maxlev vals level = true).
  { unfold listed, fcount. apply Z.leb_le. destruct G as [A B]. assert (level < length vals)%nat by (apply nth_error_Some; congruence). lia. }
  split; [exact L|]. destruct (proj1 (listed_given _ _ _) L) as (v' & (A & B) & C). destruct G as [A' B']. congruence.
Qed.

(** ** Derivatives of quadratics *)
Ltac cellwork := unfold at_cell, qval, idx, centre, gx, gy, gz; rewrite ?plus_IZR, ?minus_IZR.
Lemma half_dot : 0.5 = / 2. Proof. lra. Qed.
Lemma d0_quad g q i j k : valid g -> d0 g (at_cell g (qval q)) i j k = at_cell g (gx q) i j k.
Proof. intros (A & B & C). unfold d0. rewrite half_dot. cellwork. field. lra. Qed.
Lemma d1_quad g q i j k : valid g -> d1 g (at_cell g (qval q)) i j k = at_cell g (gy q) i j k.
Proof. intros (A & B & C). unfold d1. rewrite half_dot. cellwork. field. lra. Qed.
Lemma d2_quad g q i j k : valid g -> d2 g (at_cell g (qval q)) i j k = at_cell g (gz q) i j k.
Proof. intros (A & B & C). unfold d2. rewrite half_dot. cellwork. field. lra. Qed.
Lemma mixed_quad g q i j k : valid g ->
  d1 g (d2 g (at_cell g (qval q))) i j k = qyz q /\ d0 g (d1 g (at_cell g (qval q))) i j k = qxy q /\
  d0 g (d2 g (at_cell g (qval q))) i j k = qxz q.
Proof.
  intros V. pose proof V as (A & B & C). repeat split.
  - unfold d1 at 1. rewrite !d2_quad by exact V. rewrite half_dot. cellwork. field. lra.
  - unfold d0 at 1. rewrite !d1_quad by exact V. rewrite half_dot. cellwork. field. lra.
  - unfold d0 at 1. rewrite !d2_quad by exact V. rewrite half_dot. cellwork. field. lra.
Qed.
Lemma second_quad g q i j k : valid g ->
  dd0 g (at_cell g (qval q)) i j k = qxx q /\
  dd1 g (at_cell g (qval q)) i j k = qyy q * (m_dx g 1%Z / m_dx g 0%Z) ^ 2 /\
  dd2 g (at_cell g (qval q)) i j k = qzz q * (m_dx g 2%Z / m_dx g 0%Z) ^ 2.
Proof.
  intros (A & B & C). unfold dd0, dd1, dd2. cellwork. repeat split; field; lra.
Qed.

(** ** Values and jumps *)
Lemma contains_spec lo hi x : contains lo hi x = true <-> strictly_in lo hi (x 0%Z) (x 1%Z) (x 2%Z).
Proof. unfold contains, strictly_in. rewrite !Bool.andb_true_iff, !Rltb_spec. tauto. Qed.
Lemma rmax_ge a b c : c <= rmax a b <-> c <= a \/ c <= b.
Proof. rewrite rmax_spec. unfold Rmax. destruct (Rle_dec a b); split; intros; try tauto; try lra; destruct H; lra. Qed.

(** A cell is tagged exactly if its centre is inside the box and either the field exceeds the value
    given for its level or it differs from a neighbour by at least the jump given for its level. *)
Theorem c83_field : forall c maxlev g f level i j k,
  field_tag c maxlev g f level i j k = true <->
  (at_cell g (strictly_in (ft_lo c) (ft_hi c)) i j k /\
   ((exists v, given maxlev (ft_field c) level v /\ v < f i j k) \/
    (exists v a, given maxlev (ft_grad c) level v /\ neighbour f i j k a /\ v <= Rabs (a - f i j k)))).
Proof.
  intros c maxlev g f level i j k. unfold field_tag. cbv zeta.
  set (x := fun d => _). 
  assert (X : contains (ft_lo c) (ft_hi c) x = true <-> at_cell g (strictly_in (ft_lo c) (ft_hi c)) i j k).
  { rewrite contains_spec. unfold x, at_cell, centre. cbn [Z.eqb Pos.eqb]. rewrite half_dot. tauto. }
  rewrite Bool.orb_true_iff, !Bool.andb_true_iff, X, Rltb_spec, Rleb_spec, !listed_given.
  assert (J : forall v, v <= jump f i j k <-> exists a, neighbour f i j k a /\ v <= Rabs (a - f i j k)).
  { intros v. unfold jump. cbv zeta. rewrite !rmax_ge. unfold neighbour. split.
    - intros [[[H|H]|[H|H]]|[H|H]]; eexists; (split; [|exact H]); tauto.
    - intros (a & [->|[->|[->|[->|[->| ->]]]]] & H); tauto. }
  split.
  - intros [((v & G & T) & H & I)|((v & G & T) & H & I)]; (split; [exact I|]).
    + left. exists v. rewrite T in H. tauto.
    + right. rewrite T in H. apply J in H. destruct H as (a & N & H). exists v, a. tauto.
  - intros (I & [(v & G & H)|(v & a & G & N & H)]).
    + left. destruct (given_threshold _ _ _ _ G) as [_ T]. rewrite T. split; [exists v; tauto|tauto].
    + right. destruct (given_threshold _ _ _ _ G) as [_ T]. rewrite T. split; [exists v; tauto|]. split; [apply J; exists a; tauto|exact I].
Qed.
(** The jump is not a gradient: for a field that varies linearly it is the largest slope times cell
    size, so that one value per unit length tags fewer cells on every finer level. *)
Theorem c83_jump_refuted : forall c maxlev g b0 b1 b2 b3 level i j k v, valid g -> ft_field c = [] ->
  given maxlev (ft_grad c) level v ->
  (field_tag c maxlev g (at_cell g (fun x y z => b0 + b1 * x + b2 * y + b3 * z)) level i j k = true <->
   at_cell g (strictly_in (ft_lo c) (ft_hi c)) i j k /\
   (v <= Rabs b1 * m_dx g 0%Z \/ v <= Rabs b2 * m_dx g 1%Z \/ v <= Rabs b3 * m_dx g 2%Z)).
Proof.
  intros c maxlev g b0 b1 b2 b3 level i j k v (A & B & C) E G. rewrite c83_field. rewrite E.
  set (F := at_cell g (fun x y z => b0 + b1 * x + b2 * y + b3 * z)).
  assert (K : forall b h s, 0 < h -> s = b * h \/ s = - (b * h) -> Rabs s = Rabs b * h).
  { intros b h s H [->| ->]; [|rewrite Rabs_Ropp]; rewrite Rabs_mult, (Rabs_right h) by lra; reflexivity. }
  assert (N : forall w, (exists a, neighbour F i j k a /\ w <= Rabs (a - F i j k)) <->
     (w <= Rabs b1 * m_dx g 0%Z \/ w <= Rabs b2 * m_dx g 1%Z \/ w <= Rabs b3 * m_dx g 2%Z)).
  { intros w. unfold neighbour, F, at_cell. rewrite ?plus_IZR, ?minus_IZR. split.
    - intros (a & H & W). destruct H as [->|[->|[->|[->|[->| ->]]]]].
      + left. rewrite (K b1 (m_dx g 0%Z)) in W; [exact W|exact A|left; ring].
      + left. rewrite (K b1 (m_dx g 0%Z)) in W; [exact W|exact A|right; ring].
      + right. left. rewrite (K b2 (m_dx g 1%Z)) in W; [exact W|exact B|left; ring].
      + right. left. rewrite (K b2 (m_dx g 1%Z)) in W; [exact W|exact B|right; ring].
      + right. right. rewrite (K b3 (m_dx g 2%Z)) in W; [exact W|exact C|left; ring].
      + right. right. rewrite (K b3 (m_dx g 2%Z)) in W; [exact W|exact C|right; ring].
    - intros [H|[H|H]].
      + eexists. split; [left; reflexivity|]. rewrite (K b1 (m_dx g 0%Z)); [exact H|assumption|left; ring].
      + eexists. split; [right; right; left; reflexivity|]. rewrite (K b2 (m_dx g 1%Z)); [exact H|assumption|left; ring].
      + eexists. split; [right; right; right; right; left; reflexivity|]. rewrite (K b3 (m_dx g 2%Z)); [exact H|assumption|left; ring]. }
  rewrite <- (N v). split.
  - intros (I & [(w & (_ & Q) & _)|(w & a & G' & Na & W)]); [destruct level; discriminate|].
    split; [exact I|]. exists a. destruct G as [_ G1], G' as [_ G2]. rewrite G1 in G2. injection G2 as <-. tauto.
  - intros (I & a & Na & W). split; [exact I|]. right. exists v, a. tauto.
Qed.
Theorem c83_field_input : forall c, field_init c = Ret tt <->
  ft_exists c = true /\ ft_ghosts c = true /\ (ft_field c <> [] \/ ft_grad c <> []).
Proof.
  intros c. unfold field_init. destruct (ft_exists c), (ft_ghosts c), (ft_field c) as [|a l], (ft_grad c) as [|b m]; cbn [negb];
    split; try discriminate; intros H; try reflexivity.
  all: try (destruct H as (H1 & H2 & [H3|H3]); try discriminate; congruence).
  all: split; [reflexivity|split; [reflexivity|]].
  all: try (left; discriminate). all: try (right; discriminate).
Qed.

(** ** Gradient *)
Theorem c83_gradient : forall maxlev vals g q level i j k v, valid g -> given maxlev vals level v ->
  (gradient_tag maxlev vals g (at_cell g (qval q)) level i j k = true <-> v < at_cell g (slope q) i j k).
Proof.
  intros maxlev vals g q level i j k v V G. unfold gradient_tag. cbv zeta. rewrite d0_quad, d1_quad, d2_quad by exact V.
  destruct (given_threshold _ _ _ _ G) as [_ ->]. rewrite Rltb_spec. unfold slope, at_cell. cbn [pow]. rewrite !Rmult_1_r. tauto.
Qed.
(** Levels without a value are not refined. *)
Theorem c83_unlisted : forall maxlev vals g f u v w level i j k nondim, (forall x, ~ given maxlev vals level x) ->
  (sqrt (d0 g f i j k * d0 g f i j k + d1 g f i j k * d1 g f i j k + d2 g f i j k * d2 g f i j k) <= dmax ->
     gradient_tag maxlev vals g f level i j k = false) /\
  q_tag maxlev vals nondim g u v w level i j k = false /\ vorticity_tag maxlev vals g u v w level i j k = false.
Proof.
  intros maxlev vals g f u v w level i j k nondim N. destruct (unlisted_max _ _ _ N) as [L T].
  unfold gradient_tag, q_tag, vorticity_tag. rewrite L, T. cbn [negb]. split; [|split; reflexivity].
  intros H. cbv zeta. apply Rltb_false. exact H.
Qed.
Theorem c83_values_input : forall e vals, values_init e vals = Ret tt <-> e = true /\ vals <> [].
Proof.
  intros [] [|x l]; cbn; split; try discriminate; try (intros [? ?]; congruence); intros _; try reflexivity; split; congruence.
Qed.

(** ** Curvature *)
Lemma pow_slope s : 0 <= s -> sqrt s ^ 3 = s * sqrt s.
Proof. intros H. cbn [pow]. rewrite Rmult_1_r, <- Rmult_assoc, sqrt_sqrt by exact H. reflexivity. Qed.
Lemma cbrt_pos h : 0 < h -> Rpower (1 / h * (1 / h) * (1 / h)) (/ 3) = 1 / h.
Proof.
  intros H. replace (1 / h * (1 / h) * (1 / h)) with ((1 / h) ^ 3) by ring.
  assert (P : 0 < 1 / h) by (apply Rdiv_lt_0_compat; lra).
  rewrite <- Rpower_pow by exact P. rewrite Rpower_mult. replace (INR 3 * / 3) with 1 by (cbn; field). apply Rpower_1, P.
Qed.
Definition cubic (g : mesh) (h : R) : Prop := 0 < h /\ m_dx g 0%Z = h /\ m_dx g 1%Z = h /\ m_dx g 2%Z = h.
Lemma curvature_quad maxlev vals g h q level i j k : cubic g h ->
  (curvature_tag maxlev vals g (at_cell g (qval q)) level i j k = true <->
   0 < at_cell g (slope q) i j k /\ Rmin (threshold maxlev vals level) (1 / h) < Rabs (at_cell g (normal_divergence q) i j k)).
Proof.
  intros (H & A & B & C). assert (V : valid g) by (unfold valid; rewrite A, B, C; auto).
  unfold curvature_tag, curv_mag. cbv zeta.
  destruct (mixed_quad g q i j k V) as (M1 & M2 & M3). destruct (second_quad g q i j k V) as (S1 & S2 & S3).
  rewrite M1, M2, M3, S1, S2, S3, d0_quad, d1_quad, d2_quad by exact V. rewrite A, B, C.
  assert (I : idx g 0 * idx g 1 * idx g 2 = 1 / h * (1 / h) * (1 / h)) by (unfold idx; rewrite A, B, C; reflexivity).
  rewrite I, cbrt_pos by exact H. rewrite rmin_spec.
  unfold normal_divergence, slope, at_cell. cbv zeta.
  set (a := gx q _ _ _). set (b := gy q _ _ _). set (c := gz q _ _ _).
  replace (a ^ 2 + b ^ 2 + c ^ 2) with (a * a + b * b + c * c) by ring. set (s := a * a + b * b + c * c).
  assert (S0 : 0 <= s) by (unfold s; nra). rewrite pow_slope by exact S0.
  destruct (Rleb s 0) eqn:E.
  - apply Rleb_spec in E. replace s with 0 by lra. rewrite sqrt_0. split; [discriminate|intros [? _]; lra].
  - apply Rleb_false in E. rewrite Rltb_spec. pose proof (sqrt_lt_R0 s E) as P.
    assert (D : forall n m, n = m -> Rabs n / (s * sqrt s) = Rabs (m / (s * sqrt s))).
    { intros n m ->. unfold Rdiv. rewrite Rabs_mult, (Rabs_right (/ _)); [reflexivity|].
      apply Rle_ge, Rlt_le, Rinv_0_lt_compat. nra. }
    erewrite D; [split; [intros W; split; [exact P|exact W]|intros [_ W]; exact W]|].
    unfold s. field. lra.
Qed.
(** On cubic cells, with a value below the inverse cell size: the cells where the level surfaces bend
    more than the value, exactly for quadratic fields. *)
Theorem c83_curvature : forall maxlev vals g h q level i j k v, cubic g h -> given maxlev vals level v -> v <= 1 / h ->
  (curvature_tag maxlev vals g (at_cell g (qval q)) level i j k = true <->
   0 < at_cell g (slope q) i j k /\ v < Rabs (at_cell g (normal_divergence q) i j k)).
Proof.
  intros maxlev vals g h q level i j k v Q G L. rewrite (curvature_quad maxlev vals g h) by exact Q.
  destruct (given_threshold _ _ _ _ G) as [_ ->]. rewrite Rmin_left by exact L. tauto.
Qed.
(** A value above the inverse cell size is replaced by it ... *)
Theorem c83_curvature_cap_refuted : forall maxlev vals g h q level i j k v, cubic g h -> given maxlev vals level v -> 1 / h < v ->
  (curvature_tag maxlev vals g (at_cell g (qval q)) level i j k = true <->
   0 < at_cell g (slope q) i j k /\ 1 / h < Rabs (at_cell g (normal_divergence q) i j k)).
Proof.
  intros maxlev vals g h q level i j k v Q G L. rewrite (curvature_quad maxlev vals g h) by exact Q.
  destruct (given_threshold _ _ _ _ G) as [_ ->]. rewrite Rmin_right by lra. tauto.
Qed.
(** ... and so are levels for which no value was given: they are refined wherever the level surfaces
    bend more than that. *)
Theorem c83_curvature_unlisted_refuted : forall maxlev vals g h q level i j k, cubic g h -> (forall v, ~ given maxlev vals level v) ->
  1 / h <= dmax ->
  (curvature_tag maxlev vals g (at_cell g (qval q)) level i j k = true <->
   0 < at_cell g (slope q) i j k /\ 1 / h < Rabs (at_cell g (normal_divergence q) i j k)).
Proof.
  intros maxlev vals g h q level i j k Q N L. rewrite (curvature_quad maxlev vals g h) by exact Q.
  destruct (unlisted_max _ _ _ N) as [_ ->]. rewrite Rmin_right by exact L. tauto.
Qed.
Definition round_field : quad := Quad 0 0 0 0 2 2 2 0 0 0.
Definition unit_mesh : mesh := Mesh (fun _ => - / 2) (fun _ => 1).
Example c83_unlisted_example : curvature_tag 5 [] unit_mesh (at_cell unit_mesh (qval round_field)) 3 1 0 0 = true.
Proof.
  apply (c83_curvature_unlisted_refuted 5 [] unit_mesh 1).
  - unfold cubic, unit_mesh. cbn. lra.
  - intros v [_ H]. cbn in H. discriminate.
  - unfold dmax. assert (1 <= 2 ^ 1023) by (apply pow_R1_Rle; lra). assert (/ 2 ^ 52 <= 1).
    { rewrite <- Rinv_1. apply Rinv_le_contravar; [lra|]. apply pow_R1_Rle. lra. }
    set (p := 2 ^ 1023) in *. set (e := / 2 ^ 52) in *. clearbody p e. nra.
  - unfold at_cell, slope, normal_divergence, unit_mesh, round_field. cbv zeta. unfold gx, gy, gz. cbn [m_lo m_dx qx qy qz qxx qyy qzz qxy qxz qyz].
    assert (S : slope round_field (- / 2 + (1 + / 2) * 1) (- / 2 + (0 + / 2) * 1) (- / 2 + (0 + / 2) * 1) = 2).
    { unfold slope, gx, gy, gz, round_field. cbn [qx qy qz qxx qyy qzz qxy qxz qyz].
      match goal with |- sqrt ?x = 2 => replace x with (2 * 2) by field end. apply sqrt_square. lra. }
    unfold slope, gx, gy, gz, round_field in S. cbn [qx qy qz qxx qyy qzz qxy qxz qyz] in S. 
    unfold slope, gx, gy, gz. cbn [qx qy qz qxx qyy qzz qxy qxz qyz]. rewrite S. split; [lra|].
    match goal with |- _ < Rabs ?x => replace x with 2 by field end. rewrite Rabs_right by lra. lra.
Qed.
(** On cells that are wider than long the second derivatives are those of cells as wide as long: a
    cylinder of radius 10 is refined for a value of 0.2, although it bends by 0.1. *)
Theorem c83_curvature_aspect_refuted : exists g q i j k, valid g /\
  at_cell g (normal_divergence q) i j k = 1 / 10 /\ curvature_tag 0 [0.2] g (at_cell g (qval q)) 0 i j k = true.
Proof.
  set (g := Mesh (fun _ => -1) (fun d => if (d =? 0)%Z then 1 else 2)).
  set (q := Quad 0 0 0 0 0 1 1 0 0 0). exists g, q, 0%Z, 5%Z, 0%Z.
  assert (V : valid g) by (unfold valid, g; cbn; lra). split; [exact V|].
  assert (X : at_cell g (gx q) 0 5 0 = 0 /\ at_cell g (gy q) 0 5 0 = 10 /\ at_cell g (gz q) 0 5 0 = 0).
  { unfold at_cell, gx, gy, gz, g, q. cbn [m_lo m_dx qx qy qz qxx qyy qzz qxy qxz qyz Z.eqb]. repeat split; field. }
  destruct X as (X & Y & Z). assert (S100 : sqrt 100 = 10) by (replace 100 with (10 * 10) by ring; apply sqrt_square; lra). split.
  - unfold normal_divergence, slope. unfold at_cell in *. rewrite X, Y, Z.
    replace (0 ^ 2 + 10 ^ 2 + 0 ^ 2) with 100 by ring. rewrite S100. unfold q. cbn [qxx qyy qzz qxy qxz qyz]. field.
  - unfold curvature_tag, curv_mag. cbv zeta. destruct (mixed_quad g q 0 5 0 V) as (M1 & M2 & M3). destruct (second_quad g q 0 5 0 V) as (S1 & S2 & S3).
    rewrite M1, M2, M3, S1, S2, S3, d0_quad, d1_quad, d2_quad by exact V. rewrite X, Y, Z.
    replace (0 * 0 + 10 * 10 + 0 * 0) with 100 by ring. rewrite S100.
    replace (Rleb 100 0) with false by (symmetry; apply Rleb_false; lra). apply Rltb_spec.
    unfold q. cbn [qxx qyy qzz qxy qxz qyz]. replace (m_dx g 0%Z) with 1 by reflexivity. replace (m_dx g 1%Z) with 2 by reflexivity. replace (m_dx g 2%Z) with 2 by reflexivity.
    match goal with |- rmin ?a ?b < Rabs ?c / _ => replace c with 400 by field; assert (M : rmin a b <= a) by (rewrite rmin_spec; apply Rmin_l) end.
    rewrite Rabs_right by lra. unfold threshold in *. cbn in M. cbn. lra.
Qed.

(** ** Rotation *)
Lemma strain2_quad g u v w i j k : valid g ->
  strain2 g (at_cell g (qval u)) (at_cell g (qval v)) (at_cell g (qval w)) i j k = shear_strength (at_cell g (velocity_gradient u v w) i j k).
Proof.
  intros V. unfold strain2. cbv zeta. rewrite !d0_quad, !d1_quad, !d2_quad by exact V. rewrite half_dot.
  unfold shear_strength, sum9, velocity_gradient, at_cell. field.
Qed.
Lemma spin2_quad g u v w i j k : valid g ->
  spin2 g (at_cell g (qval u)) (at_cell g (qval v)) (at_cell g (qval w)) i j k = rotation_strength (at_cell g (velocity_gradient u v w) i j k).
Proof.
  intros V. unfold spin2. cbv zeta. rewrite !d0_quad, !d1_quad, !d2_quad by exact V. rewrite half_dot.
  unfold rotation_strength, sum9, velocity_gradient, at_cell. field.
Qed.
(** The vorticity criterion: the length of the curl. *)
Theorem c83_vorticity : forall maxlev vals g u v w level i j k x, valid g -> given maxlev vals level x ->
  (vorticity_tag maxlev vals g (at_cell g (qval u)) (at_cell g (qval v)) (at_cell g (qval w)) level i j k = true <->
   x < curl_length (at_cell g (velocity_gradient u v w) i j k)).
Proof.
  intros maxlev vals g u v w level i j k x V G. unfold vorticity_tag. destruct (given_threshold _ _ _ _ G) as [-> ->]. cbn [negb]. cbv zeta.
  rewrite !d0_quad, !d1_quad, !d2_quad by exact V. rewrite Rltb_spec.
  match goal with |- x < sqrt ?a <-> x < ?b => replace b with (sqrt a); [tauto|] end.
  unfold curl_length. f_equal. unfold velocity_gradient, at_cell. ring.
Qed.
(** The Q criterion: half the difference of the squared norms of the antisymmetric and symmetric parts
    of the velocity gradient, without its sign in the dimensional form; in the other form half of
    their ratio minus one, where the symmetric part is not counted as less than 1e4 epsilon. *)
Theorem c83_q : forall maxlev vals g u v w level i j k x, valid g -> given maxlev vals level x ->
  let J := at_cell g (velocity_gradient u v w) i j k in
  (q_tag maxlev vals false g (at_cell g (qval u)) (at_cell g (qval v)) (at_cell g (qval w)) level i j k = true <->
   x < Rabs ((rotation_strength J - shear_strength J) / 2)) /\
  (q_tag maxlev vals true g (at_cell g (qval u)) (at_cell g (qval v)) (at_cell g (qval w)) level i j k = true <->
   (1 + 2 * x) * Rmax (shear_strength J) (10000 / 2 ^ 52) < rotation_strength J).
Proof.
  intros maxlev vals g u v w level i j k x V G J. unfold q_tag. destruct (given_threshold _ _ _ _ G) as [-> ->]. cbn [negb]. cbv zeta.
  rewrite strain2_quad, spin2_quad by exact V. fold J. rewrite half_dot. split; cbn [andb orb negb].
  - rewrite Rltb_spec. replace (/ 2 * (rotation_strength J - shear_strength J)) with ((rotation_strength J - shear_strength J) / 2) by field. tauto.
  - rewrite Bool.orb_false_r, Rltb_spec, rmax_spec.
    assert (E : deps * 10000 = 10000 / 2 ^ 52) by (unfold deps; field; apply pow_nonzero; lra). rewrite E.
    assert (P : 0 < Rmax (shear_strength J) (10000 / 2 ^ 52)).
    { eapply Rlt_le_trans; [|apply Rmax_r]. apply Rdiv_lt_0_compat; [lra|apply pow_lt; lra]. }
    set (m := Rmax _ _) in *. set (r := rotation_strength J). clearbody m r. split; intros H.
    + assert (Q : r = r / m * m) by (field; lra). rewrite Q. apply Rmult_lt_compat_r; lra.
    + assert (Q : (1 + 2 * x) < r / m) by (apply (Rmult_lt_reg_r m); [exact P|]; replace (r / m * m) with r by (field; lra); exact H). lra.
Qed.
(** The documentation says that a value of one means rotation as strong as shear.  At a value of one
    the rotation has to be three times as strong; equal strengths are a value of zero. *)
Theorem c83_q_unity_refuted : forall maxlev vals g u v w level i j k, valid g -> given maxlev vals level 1 ->
  let J := at_cell g (velocity_gradient u v w) i j k in 10000 / 2 ^ 52 <= shear_strength J ->
  (q_tag maxlev vals true g (at_cell g (qval u)) (at_cell g (qval v)) (at_cell g (qval w)) level i j k = true <->
   3 * shear_strength J < rotation_strength J).
Proof.
  intros maxlev vals g u v w level i j k V G J S. pose proof (proj2 (c83_q maxlev vals g u v w level i j k 1 V G)) as E.
  cbv zeta in E. fold J in E. rewrite Rmax_left in E by exact S. replace (1 + 2 * 1) with 3 in E by ring. exact E.
Qed.
(** Without that floor the criterion does not depend on the scale of the velocity. *)
Theorem c83_q_scale : forall maxlev vals g u v w u' v' w' level i j k x s, valid g -> given maxlev vals level x -> s <> 0 ->
  let J := at_cell g (velocity_gradient u v w) i j k in
  let J' := at_cell g (velocity_gradient u' v' w') i j k in
  (forall r c, J' r c = s * J r c) -> 10000 / 2 ^ 52 <= shear_strength J -> 10000 / 2 ^ 52 <= shear_strength J' ->
  q_tag maxlev vals true g (at_cell g (qval u')) (at_cell g (qval v')) (at_cell g (qval w')) level i j k =
  q_tag maxlev vals true g (at_cell g (qval u)) (at_cell g (qval v)) (at_cell g (qval w)) level i j k.
Proof.
  intros maxlev vals g u v w u' v' w' level i j k x s V G Hs J J' E S S'.
  pose proof (proj2 (c83_q maxlev vals g u v w level i j k x V G)) as A.
  pose proof (proj2 (c83_q maxlev vals g u' v' w' level i j k x V G)) as B. cbv zeta in A, B. fold J in A. fold J' in B.
  rewrite Rmax_left in A, B by assumption.
  assert (R : rotation_strength J' = s * s * rotation_strength J) by (unfold rotation_strength, sum9; rewrite !E; field).
  assert (T : shear_strength J' = s * s * shear_strength J) by (unfold shear_strength, sum9; rewrite !E; field).
  rewrite R, T in B. assert (P : 0 < s * s) by nra.
  assert (C : (1 + 2 * x) * (s * s * shear_strength J) < s * s * rotation_strength J <-> (1 + 2 * x) * shear_strength J < rotation_strength J).
  { replace ((1 + 2 * x) * (s * s * shear_strength J)) with (s * s * ((1 + 2 * x) * shear_strength J)) by ring. split; intros H.
    - apply (Rmult_lt_reg_l (s * s)); assumption.
    - apply Rmult_lt_compat_l; assumption. }
  rewrite C, <- A in B. apply Bool.eq_true_iff_eq. exact B.
Qed.
(** Solid-body rotation and pure shear flow: the curl of the first is twice its rate, both criteria. *)
Example c83_rotation_example : forall o, let J := velocity_gradient (Quad 0 0 (- o) 0 0 0 0 0 0 0) (Quad 0 o 0 0 0 0 0 0 0 0) (Quad 0 0 0 0 0 0 0 0 0 0) 0 0 0 in
  curl_length J = 2 * Rabs o /\ shear_strength J = 0 /\ rotation_strength J = 2 * o ^ 2.
Proof.
  intros o J. unfold J, curl_length, shear_strength, rotation_strength, sum9, velocity_gradient, gx, gy, gz. cbn [qx qy qz qxx qyy qzz qxy qxz qyz].
  split; [|split; field]. match goal with |- sqrt ?x = _ => replace x with ((2 * o)²) by (unfold Rsqr; ring) end.
  rewrite sqrt_Rsqr_abs, Rabs_mult, (Rabs_right 2) by lra. reflexivity.
Qed.

(** ** Overset *)
(** Up to the given level: cells next to a cell of which the blanking differs by two or more (a field
    cell, 1, next to a fringe cell, -1), and if asked for all fringe cells and all hole cells (0). *)
Theorem c83_overset : forall ml tf th ib level i j k,
  overset_tag ml tf th ib level i j k = true <->
  (level <= ml)%Z /\ ((exists a, neighbour ib i j k a /\ (2 <= Z.abs (a - ib i j k))%Z) \/
     (tf = true /\ ib i j k = (-1)%Z) \/ (th = true /\ ib i j k = 0%Z)).
Proof.
  intros ml tf th ib level i j k. unfold overset_tag. destruct (Z.ltb_spec ml level) as [L|L].
  - split; [discriminate|intros [H _]; lia].
  - cbv zeta. rewrite !Bool.orb_true_iff, !Bool.andb_true_iff, Z.ltb_lt, !Z.eqb_eq. unfold neighbour.
    assert (N : (1 < Z.max (Z.max (Z.max (Z.abs (ib (i + 1) j k - ib i j k)) (Z.abs (ib (i - 1) j k - ib i j k)))
        (Z.max (Z.abs (ib i (j + 1) k - ib i j k)) (Z.abs (ib i (j - 1) k - ib i j k))))
        (Z.max (Z.abs (ib i j (k + 1) - ib i j k)) (Z.abs (ib i j (k - 1) - ib i j k))))%Z <->
      exists a, (a = ib (i + 1)%Z j k \/ a = ib (i - 1)%Z j k \/ a = ib i (j + 1)%Z k \/ a = ib i (j - 1)%Z k \/ a = ib i j (k + 1)%Z \/ a = ib i j (k - 1)%Z) /\ (2 <= Z.abs (a - ib i j k))%Z).
    { split.
      - intros H. rewrite !Z.max_lt_iff in H.
        destruct H as [[[H|H]|[H|H]]|[H|H]].
        + exists (ib (i + 1)%Z j k). split; [tauto|lia].
        + exists (ib (i - 1)%Z j k). split; [tauto|lia].
        + exists (ib i (j + 1)%Z k). split; [tauto|lia].
        + exists (ib i (j - 1)%Z k). split; [tauto|lia].
        + exists (ib i j (k + 1)%Z). split; [tauto|lia].
        + exists (ib i j (k - 1)%Z). split; [tauto|lia].
      - intros (a & H & A). destruct H as [->|[->|[->|[->|[->| ->]]]]]; lia. }
    rewrite N. tauto.
Qed.

(** ** All criteria together *)
(** A cell ends up tagged exactly if it was tagged or some criterion asks for it, in whatever order
    the criteria are listed. *)
Theorem c83_union : forall cs tags i j k,
  tag_cells cs tags i j k = true <-> tags i j k = true \/ exists c, In c cs /\ c i j k = true.
Proof.
  unfold tag_cells. induction cs as [|c cs IH]; intros tags i j k; cbn [fold_left].
  - split; [tauto|intros [H|(c & [] & _)]; exact H].
  - rewrite IH. destruct (c i j k) eqn:E.
    + split; [intros _; right; exists c; split; [left; reflexivity|exact E]|left; reflexivity].
    + split.
      * intros [H|(d & I & H)]; [left; exact H|right; exists d; split; [right; exact I|exact H]].
      * intros [H|(d & [<-|I] & H)]; [left; exact H|congruence|right; exists d; tauto].
Qed.
(** Cells next to a hole, and a hole next to a fringe: only the value of the cell itself counts. *)
Example c83_overset_example : let ib := fun i _ _ : Z => if (i <? 0)%Z then 1%Z else if (i =? 0)%Z then 0%Z else (-1)%Z in
  overset_tag 3 false false ib 1 (-1) 0 0 = false /\ overset_tag 3 false false ib 1 0 0 0 = false /\ overset_tag 3 false true ib 1 0 0 0 = true /\
  overset_tag 3 true false ib 1 1 0 0 = true /\ overset_tag 0 true true ib 1 1 0 0 = false /\
  overset_tag 3 false false (fun i _ _ => if (i <? 0)%Z then 1%Z else (-1)%Z) 1 0 7 9 = true.
Proof. cbn. repeat split. Qed.
Example c83_field_example : let c := FC true true [3; 5] [1] (fun _ => 0) (fun _ => 10) in
  let g := Mesh (fun _ => 0) (fun _ => 1) in let f := fun i j k : Z => IZR i * 2 in
  field_tag c 4 g f 0 1 1 1 = true /\ field_tag c 4 g f 1 2 1 1 = false /\ field_tag c 4 g f 1 3 1 1 = true /\ field_tag c 4 g f 2 3 1 1 = false /\
  field_tag c 4 g f 1 10 1 1 = false.
Proof.
  intros c g f. rewrite <- !Bool.not_true_iff_false, !c83_field. unfold given, at_cell, strictly_in, neighbour, c, g, f. cbn.
  repeat split; try lra.
  - right. exists 1, (IZR 2 * 2). split; [split; [lia|reflexivity]|]. split; [tauto|]. rewrite Rabs_right; lra.
  - intros (_ & [(v & (_ & E) & H)|(v & a & (_ & E) & _)]); [injection E as <-; lra|discriminate].
  - left. exists 5. split; [split; [lia|reflexivity]|lra].
  - intros (_ & [(v & (_ & E) & H)|(v & a & (_ & E) & _)]); discriminate.
Qed.

Print Assumptions c83_field.
Print Assumptions c83_jump_refuted.
Print Assumptions c83_field_input.
Print Assumptions c83_gradient.
Print Assumptions c83_unlisted.
Print Assumptions c83_values_input.
Print Assumptions c83_curvature.
Print Assumptions c83_curvature_cap_refuted.
Print Assumptions c83_curvature_unlisted_refuted.
Print Assumptions c83_curvature_aspect_refuted.
Print Assumptions c83_vorticity.
Print Assumptions c83_q.
Print Assumptions c83_q_unity_refuted.
Print Assumptions c83_q_scale.
Print Assumptions c83_overset.
Print Assumptions c83_union.
