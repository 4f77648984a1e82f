(** C25: vector algebra and rotations. *)
From Verif Require Import BoxR BoxRFacts VecSpace VecSpaceSpec VecSpaceProofs.
Open Scope R_scope.

(** Every rotation constructor gives a proper rotation: linear, keeping inner
    products (hence lengths and angles) and signed volumes (orientation). *)
Theorem c25_rotation_proper : forall t ax a, rotates t ax a -> proper_rotation (tapp t).
Proof. exact rotation_proper. Qed.
Print Assumptions c25_rotation_proper.

(** It leaves its axis where it is. *)
Theorem c25_rotation_axis : forall t ax a, rotates t ax a -> tapp t ax = ax.
Proof. exact rotation_axis. Qed.
Print Assumptions c25_rotation_axis.

(** The sense of rotation: [v & t] turns the vector by [+a] degrees
    (right-hand rule about the axis), [t & v] by [-a] degrees, that is, it
    gives the components of [v] in axes turned by [+a]. *)
Theorem c25_rotation_sense : forall t ax a v, rotates t ax a ->
  let n := V3 (vx ax / len ax) (vy ax / len ax) (vz ax / len ax) in
  vapp v t = turned n (PI * a / 180) v /\ tapp t v = turned n (- (PI * a / 180)) v.
Proof.
  intros t ax a v H n. split; [exact (vapp_turned t ax a v H)|].
  exact (proj2 (rot_turned t ax a H) v).
Qed.
Print Assumptions c25_rotation_sense.

(** Rotations about the same axis add their angles. *)
Theorem c25_rotation_compose : forall t1 t2 t3 ax a b,
  rotates t1 ax a -> rotates t2 ax b -> rotates t3 ax (a + b) -> tmul t1 t2 = t3.
Proof. exact rotation_compose. Qed.
Print Assumptions c25_rotation_compose.

(** The transpose (applied by putting the vector on the left) is the inverse,
    and it is the rotation by the opposite angle. *)
Theorem c25_rotation_inverse : forall t t' ax a v, rotates t ax a -> rotates t' ax (- a) ->
  vapp (tapp t v) t = v /\ tapp t (vapp v t) = v /\ t' = transpose_of t.
Proof.
  intros t t' ax a v H H'. destruct (rotation_inverse t ax a v H) as [A B].
  split; [exact A|split; [exact B|]]. apply tapp_ext. intros w.
  rewrite <- vapp_transpose, (vapp_turned t ax a w H).
  rewrite (proj2 (rot_turned _ _ _ H')). f_equal. unfold radians. field.
Qed.
Print Assumptions c25_rotation_inverse.

(** The general constructor agrees with the three special ones, and only the
    direction of its axis matters. *)
Theorem c25_quaternion_special : forall a k ax, 0 < k -> ax <> V3 0 0 0 ->
  quaternion (V3 1 0 0) a = xrot a /\
  quaternion (V3 0 1 0) a = yrot a /\
  quaternion (V3 0 0 1) a = zrot a /\
  quaternion (V3 (k * vx ax) (k * vy ax) (k * vz ax)) a = quaternion ax a.
Proof.
  intros a k ax K N.
  split; [|split; [|split]].
  - eapply rotation_tensor_unique; [apply rot_q|apply rot_x]. intros X; injection X; lra.
  - eapply rotation_tensor_unique; [apply rot_q|apply rot_y]. intros X; injection X; lra.
  - eapply rotation_tensor_unique; [apply rot_q|apply rot_z]. intros X; injection X; lra.
  - apply tapp_ext. intros v.
    assert (N' : V3 (k * vx ax) (k * vy ax) (k * vz ax) <> V3 0 0 0).
    { intros X. apply N. injection X. intros C B A. destruct ax as [p q r]; cbn in *. apply vec_eq; nra. }
    rewrite !quaternion_turned by assumption. f_equal.
    assert (L : len (V3 (k * vx ax) (k * vy ax) (k * vz ax)) = k * len ax).
    { unfold len, inner; cbn.
      replace (k * vx ax * (k * vx ax) + k * vy ax * (k * vy ax) + k * vz ax * (k * vz ax))
        with (k * k * (vx ax * vx ax + vy ax * vy ax + vz ax * vz ax)) by ring.
      rewrite sqrt_mult by nra. rewrite sqrt_square by lra. reflexivity. }
    unfold unitv. rewrite L. pose proof (len_pos ax N). cbn. apply vec_eq; field; lra.
Qed.
Print Assumptions c25_quaternion_special.

(** Dot product, magnitude and cross product. *)
Theorem c25_dot : forall v w,
  vdot v w = inner v w /\ vmag_sqr v = inner v v /\ vmag v = len v /\
  vmag v * vmag v = vdot v v /\ 0 <= vmag v /\
  Rabs (vdot v w) <= vmag v * vmag w.
Proof.
  intros v w. split; [reflexivity|]. split; [reflexivity|]. split; [reflexivity|].
  split; [apply len_sqr|]. split; [apply sqrt_pos|].
  change (Rabs (inner v w) <= len v * len w).
  unfold len. rewrite <- sqrt_mult by apply inner_pos.
  rewrite <- sqrt_Rsqr_abs. apply sqrt_le_1.
  - unfold Rsqr. nra.
  - apply Rmult_le_pos; apply inner_pos.
  - unfold Rsqr, inner. destruct v as [a b c], w as [x y z]; cbn.
    assert ((a * x + b * y + c * z) * (a * x + b * y + c * z)
            + ((b * z - c * y) * (b * z - c * y) + (c * x - a * z) * (c * x - a * z)
               + (a * y - b * x) * (a * y - b * x))
            = (a * a + b * b + c * c) * (x * x + y * y + z * z)) by ring.
    pose proof (Rle_0_sqr (b * z - c * y)). pose proof (Rle_0_sqr (c * x - a * z)).
    pose proof (Rle_0_sqr (a * y - b * x)). unfold Rsqr in *. lra.
Qed.
Print Assumptions c25_dot.

Theorem c25_cross : forall u v w a b,
  inner u (vcross v w) = triple u v w /\
  vcross w v = vneg (vcross v w) /\
  inner v (vcross v w) = 0 /\ inner w (vcross v w) = 0 /\
  inner (vcross v w) (vcross v w) = inner v v * inner w w - inner v w * inner v w /\
  vcross (lin a u b v) w = lin a (vcross u w) b (vcross v w).
Proof.
  intros. destruct u, v, w. unfold inner, vcross, triple, vneg, lin; cbn.
  split; [ring|]. split; [apply vec_eq; ring|]. split; [ring|]. split; [ring|].
  split; [ring|]. apply vec_eq; ring.
Qed.
Print Assumptions c25_cross.

(** Rotations commute with the cross product. *)
Theorem c25_rotation_cross : forall t ax a v w, rotates t ax a ->
  vcross (tapp t v) (tapp t w) = tapp t (vcross v w).
Proof.
  intros t ax a v w H. pose proof (rotation_proper t ax a H) as [_ [I T]].
  apply inner_ext. intros x.
  destruct (rotation_inverse t ax a x H) as [_ B]. rewrite <- B.
  rewrite I.
  assert (S : forall p q, inner p q = inner q p) by (intros; unfold inner; ring).
  rewrite !(S _ (tapp _ _)), (S _ (vapp _ _)).
  rewrite (proj1 (c25_cross _ _ _ 0 0)), T.
  symmetry. apply (proj1 (c25_cross (vapp x t) v w 0 0)).
Qed.
Print Assumptions c25_rotation_cross.

(** Tensor algebra: product is composition, rows and columns are what they say,
    the transposing constructor transposes, [v & t] is the transpose. *)
Theorem c25_tensor : forall a b v w x y z,
  tapp (tmul a b) v = tapp a (tapp b v) /\
  tapp tid v = v /\
  inner (vapp v a) w = inner v (tapp a w) /\
  tapp a (V3 1 0 0) = tcx a /\ tapp a (V3 0 1 0) = tcy a /\ tapp a (V3 0 0 1) = tcz a /\
  tapp a v = V3 (inner (trx a) v) (inner (try_ a) v) (inner (trz a) v) /\
  trx (tmake x y z false) = x /\ try_ (tmake x y z false) = y /\ trz (tmake x y z false) = z /\
  tcx (tmake x y z true) = x /\ tcy (tmake x y z true) = y /\ tcz (tmake x y z true) = z /\
  tapp (tadd a b) v = lin 1 (tapp a v) 1 (tapp b v) /\
  tapp (tsub a b) v = lin 1 (tapp a v) (-1) (tapp b v) /\
  tddot a b = inner (tcx a) (tcx b) + inner (tcy a) (tcy b) + inner (tcz a) (tcz b).
Proof.
  intros. destruct a, b, v, w, x, y, z.
  unfold tapp, tmul, tid, inner, vapp, tcx, tcy, tcz, trx, try_, trz, tmake, trows, tcols, tadd, tsub, tddot, lin; cbn.
  repeat match goal with
  | |- _ /\ _ => split
  | |- V3 _ _ _ = V3 _ _ _ => apply vec_eq
  end; ring.
Qed.
Print Assumptions c25_tensor.

(** Normalisation. *)
Theorem c25_normalize : forall v,
  (/ 4503599627370496 <= len v ->
     len (vnormalize v) = 1 /\
     v = V3 (len v * vx (vnormalize v)) (len v * vy (vnormalize v)) (len v * vz (vnormalize v))) /\
  (len v < / 4503599627370496 -> vnormalize v = V3 0 0 0).
Proof.
  intros v. unfold vnormalize. cbn zeta. change (vmag v) with (len v). unfold veps. split.
  - intros H. rewrite (proj2 (Rltb_false _ _) H).
    assert (P : 0 < len v) by lra.
    assert (N : v <> V3 0 0 0).
    { intros ->. unfold len, inner in P; cbn in P.
      replace (0 * 0 + 0 * 0 + 0 * 0) with 0 in P by ring. rewrite sqrt_0 in P. lra. }
    split.
    + transitivity (sqrt (inner (unitv v) (unitv v))); [reflexivity|].
      rewrite unitv_unit by exact N. apply sqrt_1.
    + unfold vdivs; cbn. clear - P. set (l := len v) in *. clearbody l.
      destruct v as [a b c]; cbn. apply vec_eq; field; lra.
  - intros H. rewrite (proj2 (Rltb_spec _ _) H). reflexivity.
Qed.
Print Assumptions c25_normalize.

(** Degrees and radians are inverse conversions, and half a turn is PI. *)
Theorem c25_degrees_radians : forall d,
  degrees (radians d) = d /\ radians (degrees d) = d /\ radians 180 = PI.
Proof.
  intros. pose proof PI_RGT_0. unfold degrees, radians.
  split; [field; lra|]. split; [field; lra|]. field.
Qed.
Print Assumptions c25_degrees_radians.

(** Concrete cases: the hypotheses are met by oblique axes, and a quarter turn
    does what it should. *)
Example rotates_oblique : rotates (quaternion (V3 1 (-2) 3) 37) (V3 1 (-2) 3) 37.
Proof. apply rot_q. intros X. injection X. lra. Qed.

Example quarter_turn : vapp (V3 1 0 0) (zrot 90) = V3 0 1 0 /\ tapp (zrot 90) (V3 1 0 0) = V3 0 (-1) 0.
Proof.
  assert (radians 90 = PI / 2) as E by (unfold radians; field).
  unfold vapp, tapp, zrot. rewrite E, cos_PI2, sin_PI2. cbn. split; apply vec_eq; ring.
Qed.

Example normalize_345 : vnormalize (V3 3 0 4) = V3 (3/5) 0 (4/5).
Proof.
  unfold vnormalize, vmag, vmag_sqr, veps; cbn [vx vy vz].
  replace (3 * 3 + 0 * 0 + 4 * 4) with (5 * 5) by ring. rewrite sqrt_square by lra.
  rewrite (proj2 (Rltb_false _ _)) by lra. unfold vdivs; cbn. apply vec_eq; field.
Qed.
