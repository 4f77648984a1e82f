(** C76: where the force of a wing goes: the smearing kernel, its axes, the bounding box. *)
From Verif Require Import BoxR BoxRFacts VecSpace VecSpaceSpec VecSpaceProofs Tagging TaggingSpec TaggingProofs
  DiskActuator DiskSpec DiskProofs DiskProofs2 JoukProofs Wing WingSpec WingProofs PropDiskBox PropWing.
Open Scope R_scope.

Lemma pi_bounds : 3.14159265358 < PI < 3.14159265360.
Proof.
  destruct (PI_2_3_7_ineq 6) as [A B].
  cbv [sum_f_R0 tg_alt PI_2_3_7_tg Ratan_seq pow Nat.mul Nat.add INR] in A, B. split; lra.
Qed.

Lemma gauss_fac_pos : 0 < gauss_fac. Proof. unfold gauss_fac. lra. Qed.

(** Squared distance in units of the widths. *)
Definition scaled2 (d e : vec) : R := (vx d / vx e) ^ 2 + (vy d / vy e) ^ 2 + (vz d / vz e) ^ 2.

Lemma gaussian3d_form d e :
  gaussian3d d e = if Rltb (scaled2 d e) 16 then gauss_fac / (vx e * vy e * vz e) * exp (- scaled2 d e) else 0.
Proof.
  unfold gaussian3d, scaled2. cbn zeta.
  replace (vmag_sqr (V3 (vx d / vx e) (vy d / vy e) (vz d / vz e)))
    with ((vx d / vx e) ^ 2 + (vy d / vy e) ^ 2 + (vz d / vz e) ^ 2) by (unfold vmag_sqr; cbn [vx vy vz]; ring).
  destruct (Rltb _ 16); [|reflexivity]. f_equal. f_equal. cbn [vx vy vz]. ring.
Qed.

(** The kernel.  A Gaussian of the three widths, cut at four widths, never negative,
    largest at the centre, falling with the scaled distance; its constant is that of
    the Gaussian with integral one to ten digits. *)
Theorem c76_kernel : forall d d' e, 0 < vx e -> 0 < vy e -> 0 < vz e ->
  let peak := gaussian3d (V3 0 0 0) e in
  (scaled2 d e < 16 -> gaussian3d d e = peak * exp (- scaled2 d e) /\ 0 < gaussian3d d e) /\
  (16 <= scaled2 d e -> gaussian3d d e = 0) /\
  0 <= gaussian3d d e <= peak /\
  (scaled2 d e <= scaled2 d' e -> gaussian3d d' e <= gaussian3d d e) /\
  Rabs (peak * (sqrt PI * vx e) * (sqrt PI * vy e) * (sqrt PI * vz e) - 1) <= 1 / 10000000000.
Proof.
  intros d d' e X Y Z peak.
  assert (E3 : 0 < vx e * vy e * vz e) by (apply Rmult_lt_0_compat; [apply Rmult_lt_0_compat|]; assumption).
  pose proof gauss_fac_pos as GF. pose proof pi_bounds as PB.
  assert (S0 : scaled2 (V3 0 0 0) e = 0) by (unfold scaled2; cbn [vx vy vz]; field; lra).
  assert (PK : peak = gauss_fac / (vx e * vy e * vz e)).
  { unfold peak. rewrite gaussian3d_form, S0, (proj2 (Rltb_spec _ _)) by lra. rewrite Ropp_0, exp_0. ring. }
  assert (P0 : 0 < peak) by (rewrite PK; apply Rmult_lt_0_compat; [exact GF|apply Rinv_0_lt_compat, E3]).
  assert (SP : forall d, 0 <= scaled2 d e).
  { intros q. unfold scaled2. pose proof (pow2_ge_0 (vx q / vx e)). pose proof (pow2_ge_0 (vy q / vy e)).
    pose proof (pow2_ge_0 (vz q / vz e)). lra. }
  assert (V : forall d, scaled2 d e < 16 -> gaussian3d d e = peak * exp (- scaled2 d e)).
  { intros q Q. rewrite gaussian3d_form, (proj2 (Rltb_spec _ _)) by lra. rewrite PK. reflexivity. }
  assert (O : forall d, 16 <= scaled2 d e -> gaussian3d d e = 0).
  { intros q Q. rewrite gaussian3d_form, (proj2 (Rltb_false _ _)) by lra. reflexivity. }
  assert (NN : forall d, 0 <= gaussian3d d e).
  { intros q. destruct (Rlt_or_le (scaled2 q e) 16); [rewrite V by assumption|rewrite O by assumption; lra].
    apply Rmult_le_pos; [lra|left; apply exp_pos]. }
  assert (M : forall d d', scaled2 d e <= scaled2 d' e -> gaussian3d d' e <= gaussian3d d e).
  { intros q q' L. destruct (Rlt_or_le (scaled2 q' e) 16) as [A|A]; [|rewrite (O q') by assumption; apply NN].
    rewrite !V by lra. apply Rmult_le_compat_l; [lra|].
    destruct L as [L|L]; [left; apply exp_increasing; lra|rewrite L; lra]. }
  split; [|split; [apply O|split; [split; [apply NN|]|split; [apply M|]]]].
  - intros L. split; [apply V, L|]. rewrite V by exact L. apply Rmult_lt_0_compat; [exact P0|apply exp_pos].
  - apply M. rewrite S0. apply SP.
  - rewrite PK. pose proof (sqrt_lt_R0 PI PI_RGT_0) as SQ. pose proof (sqrt_sqrt PI (Rlt_le _ _ PI_RGT_0)) as SS.
    set (s := sqrt PI) in *.
    replace (gauss_fac / (vx e * vy e * vz e) * (s * vx e) * (s * vy e) * (s * vz e)) with (gauss_fac * PI * s)
      by (rewrite <- SS; field; lra).
    set (x := gauss_fac * PI * s).
    assert (x2 : x * x = gauss_fac * gauss_fac * (PI * PI * PI)).
    { unfold x. transitivity (gauss_fac * gauss_fac * PI * PI * (s * s)); [ring|rewrite SS; ring]. }
    assert (xp : 0 < x) by (unfold x; apply Rmult_lt_0_compat; [apply Rmult_lt_0_compat; lra|exact SQ]).
    assert (B2 : 3.14159265358 * 3.14159265358 < PI * PI < 3.14159265360 * 3.14159265360) by (split; nra).
    assert (B3 : 3.14159265358 * 3.14159265358 * 3.14159265358 < PI * PI * PI < 3.14159265360 * 3.14159265360 * 3.14159265360).
    { destruct B2, PB. split; apply Rmult_gt_0_lt_compat; lra. }
    assert (BX : 1 - 1 / 20000000000 < x * x < 1 + 1 / 20000000000).
    { rewrite x2. destruct B3 as [L U]. unfold gauss_fac in *. split; lra. }
    unfold Rabs. destruct (Rcase_abs (x - 1)); nra.
Qed.
Print Assumptions c76_kernel.

Lemma gaussian3d_even d d' e :
  vx d * vx d = vx d' * vx d' -> vy d * vy d = vy d' * vy d' -> vz d * vz d = vz d' * vz d' -> gaussian3d d e = gaussian3d d' e.
Proof.
  intros A B C.
  assert (E : scaled2 d e = scaled2 d' e).
  { assert (K : forall a a' c, a * a = a' * a' -> (a / c) ^ 2 = (a' / c) ^ 2).
    { intros a a' c h. transitivity (a * a * (/ c * / c)); [unfold Rdiv; ring|]. rewrite h. unfold Rdiv; ring. }
    unfold scaled2. rewrite (K _ _ _ A), (K _ _ _ B), (K _ _ _ C). reflexivity. }
  rewrite !gaussian3d_form, E. reflexivity.
Qed.

(** Distance of a cell from where a point stands half-way through the step. *)
Definition from_mid (pos opos cc : vec) : vec :=
  V3 (vx cc - (vx pos + vx opos) / 2) (vy cc - (vy pos + vy opos) / 2) (vz cc - (vz pos + vz opos) / 2).

Lemma line_weight_form tm fl e pos opos cc :
  line_weight tm fl e pos opos cc = gaussian3d (vmul (tapp tm (from_mid pos opos cc)) fl) e.
Proof.
  unfold line_weight. do 3 f_equal. unfold from_mid, vsub, vadd, vscale; cbn [vx vy vz]. apply vec_eq; lra.
Qed.

Lemma span_unit w : / 4503599627370496 <= len (w_span w) -> w_span w <> V3 0 0 0 /\ unitv (w_span w) = blade_y w.
Proof.
  intros H. split.
  - intros E. rewrite E in H. unfold len, inner in H; cbn in H. replace (_ + _ + _) with 0 in H by ring. rewrite sqrt_0 in H. lra.
  - unfold blade_y, vnormalize, unitv. cbn zeta. change (vmag (w_span w)) with (len (w_span w)). rewrite (proj2 (Rltb_false (len (w_span w)) veps) H). reflexivity.
Qed.

(** Axes of the kernel for a wing along y whose [blade_x] is x: the first width acts
    along the chord line, the second along the span, the third across both; the chord line
    is the direction from which the wind has angle of attack zero.  A
    two-dimensional wing drops the spanwise distance. *)
Theorem c76_axes : forall w L pitch e pos opos cc,
  w_span w = V3 0 L 0 -> w_bladex w = V3 1 0 0 -> / 4503599627370496 <= Rabs L ->
  let th := PI * pitch / 180 in
  let X := blade_x w in let Y := blade_y w in let Z := blade_z w in
  let chord := V3 (cos th * vx X - sin th * vx Z) (cos th * vy X - sin th * vy Z) (cos th * vz X - sin th * vz Z) in
  let thick := V3 (sin th * vx X + cos th * vx Z) (sin th * vy X + cos th * vy Z) (sin th * vz X + cos th * vz Z) in
  let d := from_mid pos opos cc in
  line_weight (w_tmat w pitch) (w_dcoord w) e pos opos cc =
    gaussian3d (V3 (inner d chord) (if w_2d w then 0 else inner d Y) (inner d thick)) e /\
  (-180 < pitch < 180 -> forall k vel, 0 < k -> vel = V3 (k * vx chord) (k * vy chord) (k * vz chord) ->
     w_aoa w pitch vel (V3 0 0 0) = 0).
Proof.
  intros w L pitch e pos opos cc SP BX HL th X Y Z chord thick d.
  assert (LS : len (w_span w) = Rabs L).
  { rewrite SP. unfold len, inner; cbn. replace (_ + _ + _) with (Rsqr L) by (unfold Rsqr; ring). apply sqrt_Rsqr_abs. }
  assert (V0 : 0 < / 4503599627370496) by (apply Rinv_0_lt_compat; lra).
  destruct (span_unit w) as [NZ UY]; [rewrite LS; exact HL|].
  assert (SG : exists s, (s = 1 \/ s = -1) /\ L = s * Rabs L).
  { destruct (Rle_or_lt 0 L) as [P|P]; [exists 1; rewrite Rabs_pos_eq by lra|exists (-1); rewrite Rabs_left by lra]; split; auto; ring. }
  destruct SG as (s & S1 & S2). assert (SS : s * s = 1) by (destruct S1 as [-> | ->]; ring).
  assert (YE : Y = V3 0 s 0).
  { unfold Y. rewrite <- UY. unfold unitv. rewrite LS, SP. cbn [vx vy vz]. apply vec_eq; [field; lra| |field; lra].
    rewrite S2 at 1. field. lra. }
  assert (X0 : vnormalize (w_bladex w) = V3 1 0 0) by (rewrite BX; apply vnormalize_unit; unfold is_unit, inner; cbn; ring).
  assert (ZE : Z = V3 0 0 s).
  { unfold Z, blade_z. fold Y. rewrite X0, YE. replace (vcross (V3 1 0 0) (V3 0 s 0)) with (V3 0 0 s)
      by (unfold vcross; cbn; apply vec_eq; ring).
    apply vnormalize_unit; unfold is_unit, inner; cbn. rewrite <- SS. ring. }
  assert (XE : X = V3 1 0 0).
  { unfold X, blade_x. fold Y Z. rewrite YE, ZE. replace (vcross (V3 0 s 0) (V3 0 0 s)) with (V3 1 0 0)
      by (unfold vcross; cbn; apply vec_eq; [rewrite <- SS; ring|ring|ring]).
    apply vnormalize_unit; unfold is_unit, inner; cbn. ring. }
  split.
  - rewrite line_weight_form. unfold w_tmat. rewrite quaternion_turned by exact NZ. rewrite UY. fold Y d.
    change (radians pitch) with th. unfold chord, thick. rewrite XE, ZE, YE.
    unfold w_dcoord. apply gaussian3d_even.
    + unfold turned, inner, vmul, vone; cbn [vx vy vz]. rewrite cos_neg, sin_neg.
      destruct (w_2d w); cbn [vx vy vz]; ring.
    + unfold turned, inner, vmul, vone; cbn [vx vy vz]. rewrite cos_neg, sin_neg. pose proof (sc1 th) as S.
      destruct (w_2d w); cbn [vx vy vz]; [ring|].
      transitivity ((s * s) * (s * s) * (vy d * vy d)).
      * rewrite SS. replace (_ * cos th + _ * - sin th + _) with (vy d * cos th + (s * s) * vy d * (1 - cos th)) by ring.
        rewrite SS. ring.
      * rewrite SS. transitivity ((s * s) * (vy d * vy d)); [rewrite SS; ring|ring].
    + unfold turned, inner, vmul, vone; cbn [vx vy vz]. rewrite cos_neg, sin_neg.
      replace (if w_2d w then V3 1 0 1 else V3 1 1 1) with (V3 1 (if w_2d w then 0 else 1) 1) by (destruct (w_2d w); reflexivity).
      cbn [vz]. destruct S1 as [-> | ->]; ring.
  - intros P k vel K ->. unfold w_aoa, w_wind. cbn [vx vz]. change vdot with inner. fold X Z.
    unfold radians. fold th. pose proof PI_RGT_0 as PP.
    assert (TB : - PI < - th <= PI) by (unfold th; split; nra).
    rewrite (atan2_unique _ _ k (- th) K TB); [ring| |].
    + rewrite cos_neg. unfold chord. rewrite XE, ZE. unfold inner, vsub; cbn [vx vy vz]. ring.
    + rewrite sin_neg. unfold chord. rewrite XE, ZE. unfold inner, vsub; cbn [vx vy vz].
      transitivity (- k * sin th * (s * s)); [ring|rewrite SS; ring].
Qed.
Print Assumptions c76_axes.

Lemma weight_turned w pitch e pos opos cc : / 4503599627370496 <= len (w_span w) -> w_2d w = false ->
  exists d', inner d' d' = inner (from_mid pos opos cc) (from_mid pos opos cc) /\
    line_weight (w_tmat w pitch) (w_dcoord w) e pos opos cc = gaussian3d d' e.
Proof.
  intros H D. destruct (span_unit w H) as [NZ U].
  exists (turned (unitv (w_span w)) (- radians pitch) (from_mid pos opos cc)). split.
  - apply turned_inner, unitv_unit, NZ.
  - rewrite line_weight_form. unfold w_tmat. rewrite quaternion_turned by exact NZ.
    f_equal. unfold w_dcoord. rewrite D. generalize (turned (unitv (w_span w)) (- radians pitch) (from_mid pos opos cc)).
    intros [a b c]. unfold vmul, vone; cbn [vx vy vz]. apply vec_eq; ring.
Qed.

(** With three equal widths the orientation does not matter. *)
Theorem c76_isotropic : forall w pitch e pos opos cc,
  / 4503599627370496 <= len (w_span w) -> w_2d w = false -> 0 < e ->
  line_weight (w_tmat w pitch) (w_dcoord w) (V3 e e e) pos opos cc =
  gaussian3d (V3 (len (from_mid pos opos cc)) 0 0) (V3 e e e).
Proof.
  intros w pitch e pos opos cc H D E. destruct (weight_turned w pitch (V3 e e e) pos opos cc H D) as (d' & I & ->).
  assert (S : scaled2 d' (V3 e e e) = scaled2 (V3 (len (from_mid pos opos cc)) 0 0) (V3 e e e)).
  { unfold scaled2; cbn [vx vy vz]. transitivity (inner d' d' / (e * e)); [unfold inner; field; lra|].
    rewrite I. rewrite <- len_sqr. field. lra. }
  rewrite !gaussian3d_form, S. reflexivity.
Qed.
Print Assumptions c76_isotropic.

(** Refuted: the spanwise width acts along the span.  For a wing along z with
    [blade_x] along x and no pitch, the spanwise and thickness widths change places, and
    a two-dimensional wing drops the distance across the section instead of the
    distance along the span. *)
Theorem c76_span_z_refuted : forall w L e pos opos cc,
  w_span w = V3 0 0 L -> w_bladex w = V3 1 0 0 -> / 4503599627370496 <= L ->
  let d := from_mid pos opos cc in
  line_weight (w_tmat w 0) (w_dcoord w) e pos opos cc =
    gaussian3d (V3 (inner d (blade_x w)) (if w_2d w then 0 else inner d (blade_z w)) (inner d (blade_y w))) e.
Proof.
  intros w L e pos opos cc SP BX HL d.
  assert (V0 : 0 < / 4503599627370496) by (apply Rinv_0_lt_compat; lra).
  assert (LS : len (w_span w) = L).
  { rewrite SP. unfold len, inner; cbn. replace (_ + _ + _) with (L * L) by ring. apply sqrt_square. lra. }
  destruct (span_unit w) as [NZ UY]; [rewrite LS; exact HL|].
  assert (YE : blade_y w = V3 0 0 1).
  { rewrite <- UY. unfold unitv. rewrite LS, SP. cbn [vx vy vz]. apply vec_eq; field; lra. }
  assert (X0 : vnormalize (w_bladex w) = V3 1 0 0) by (rewrite BX; apply vnormalize_unit; unfold is_unit, inner; cbn; ring).
  assert (ZE : blade_z w = V3 0 (-1) 0).
  { unfold blade_z. rewrite X0, YE. replace (vcross (V3 1 0 0) (V3 0 0 1)) with (V3 0 (-1) 0)
      by (unfold vcross; cbn; apply vec_eq; ring). apply vnormalize_unit; unfold is_unit, inner; cbn; ring. }
  assert (XE : blade_x w = V3 1 0 0).
  { unfold blade_x. rewrite YE, ZE. replace (vcross (V3 0 0 1) (V3 0 (-1) 0)) with (V3 1 0 0)
      by (unfold vcross; cbn; apply vec_eq; ring). apply vnormalize_unit; unfold is_unit, inner; cbn; ring. }
  rewrite line_weight_form. unfold w_tmat. rewrite quaternion_turned by exact NZ. fold d.
  replace (- radians 0) with 0 by (unfold radians; lra). rewrite turned_zero.
  rewrite XE, YE, ZE. unfold w_dcoord.
  apply gaussian3d_even; unfold inner, vmul, vone; cbn [vx vy vz]; destruct (w_2d w); cbn [vx vy vz]; ring.
Qed.
Print Assumptions c76_span_z_refuted.

(** *** Bounding box *)

Definition widths_ok (w : wing) : Prop :=
  0 <= vx (w_eps w) /\ 0 <= vy (w_eps w) /\ 0 <= vz (w_eps w) /\
  0 <= vx (w_epsc w) /\ 0 <= vy (w_epsc w) /\ 0 <= vz (w_epsc w).

Lemma vmax3_ge v : vx v <= vmax3 v /\ vy v <= vmax3 v /\ vz v <= vmax3 v.
Proof. unfold vmax3. rewrite !rmax_spec. unfold Rmax. repeat destruct (Rle_dec _ _); lra. Qed.

Lemma radius_covers w chord mc r : widths_ok w -> 0 <= chord <= mc -> 1 <= mc ->
  (r <= vx (w_epsilon w chord) \/ r <= vy (w_epsilon w chord) \/ r <= vz (w_epsilon w chord)) ->
  3 * r <= search_radius w mc.
Proof.
  intros (A1 & A2 & A3 & B1 & B2 & B3) C M R. unfold search_radius.
  destruct (vmax3_ge (w_eps w)) as (E1 & E2 & E3). destruct (vmax3_ge (w_epsc w)) as (F1 & F2 & F3).
  rewrite rmax_spec. pose proof (Rmax_l (vmax3 (w_eps w)) (vmax3 (w_epsc w))) as ML.
  pose proof (Rmax_r (vmax3 (w_eps w)) (vmax3 (w_epsc w))) as MR.
  set (m := Rmax (vmax3 (w_eps w)) (vmax3 (w_epsc w))) in *.
  assert (K : forall a b, 0 <= a -> 0 <= b -> a <= vmax3 (w_eps w) -> b <= vmax3 (w_epsc w) -> rmax a (b * chord) <= m * mc).
  { intros a b a0 b0 al bl. rewrite rmax_spec. apply Rmax_lub.
    - apply Rle_trans with m; [lra|]. rewrite <- (Rmult_1_r m) at 1. apply Rmult_le_compat_l; lra.
    - apply Rmult_le_compat; lra. }
  unfold w_epsilon in R; cbn [vx vy vz] in R.
  pose proof (K _ _ A1 B1 E1 F1). pose proof (K _ _ A2 B2 E2 F2). pose proof (K _ _ A3 B3 E3 F3). lra.
Qed.

Lemma ends_between w f : 0 <= f <= 1 ->
  let p := along_segment (w_start w) (w_end w) f (V3 0 0 0) in
  (vx (ends_lo w) <= vx p <= vx (ends_hi w)) /\ (vy (ends_lo w) <= vy p <= vy (ends_hi w)) /\
  (vz (ends_lo w) <= vz p <= vz (ends_hi w)).
Proof.
  intros F p. unfold p, along_segment, ends_lo, ends_hi; cbn [vx vy vz]. rewrite !rmin_spec, !rmax_spec.
  assert (K : forall a b, Rmin a b <= a + f * (b - a) + 0 <= Rmax a b).
  { intros a b. unfold Rmin, Rmax. destruct (Rle_dec a b); nra. }
  split; [apply K|split; apply K].
Qed.

(** Whether the box is made for the motion: a linear motion must not be slower than
    2^-23 in any direction it has, and then only cells of the domain matter; an oscillation must
    have no negative component and start from the mean position. *)
Definition motion_ok (w : wing) (v0 : vec) (g : geom) (t0 : R) (x : vec) : Prop :=
  match w_motion w with
  | MNone => True
  | MLinear => (vx v0 = 0 \/ / 8388608 < Rabs (vx v0)) /\ (vy v0 = 0 \/ / 8388608 < Rabs (vy v0)) /\
               (vz v0 = 0 \/ / 8388608 < Rabs (vz v0)) /\
               (vx (gplo g) <= vx x <= vx (gphi g)) /\ (vy (gplo g) <= vy x <= vy (gphi g)) /\
               (vz (gplo g) <= vz x <= vz (gphi g))
  | MSine => 0 <= vx (w_svec w) /\ 0 <= vy (w_svec w) /\ 0 <= vz (w_svec w) /\ sin (2 * PI * t0 / w_period w) = 0
  end.

Lemma last_forall (P : R -> Prop) ts t0 : P t0 -> Forall P ts -> P (last ts t0).
Proof.
  intros H F. induction F as [|t ts Pt F IH]; [exact H|]. destruct ts as [|b r]; [exact Pt|].
  change (P (last (b :: r) t0)). exact IH.
Qed.
Lemma removelast_forall (P : R -> Prop) ts : Forall P ts -> Forall P (removelast ts).
Proof.
  induction 1 as [|t ts Pt F IH]; [constructor|]. destruct ts as [|b r]; [constructor|].
  cbn [removelast] in *. constructor; assumption.
Qed.

Lemma w_point_frac w i : (2 <= w_n w)%nat -> (i < w_n w)%nat -> 0 <= INR i / INR (w_n w - 1) <= 1.
Proof.
  intros H I. destruct (n1_INR _ H) as [_ P]. pose proof (pos_INR i).
  assert (INR i <= INR (w_n w - 1)) by (apply le_INR; lia).
  split; [apply Rmult_le_pos; [lra|left; apply Rinv_0_lt_compat, P]|].
  apply (Rmult_le_reg_r (INR (w_n w - 1))); [exact P|]. unfold Rdiv. rewrite Rmult_assoc, Rinv_l; lra.
Qed.

Lemma neg_pos a b : a <= 0 -> 0 <= b -> a * b <= 0.
Proof. nra. Qed.
Lemma times_sine s x : 0 <= s -> -1 <= x <= 1 -> - s <= s * x <= s.
Proof. nra. Qed.

(** The box.  When the largest chord is at least one, the box holds all the points that
    lie within three times the largest width of any point of the wing, at any
    time of the run. *)
Theorem c76_box : forall w g v0 mc chord i t0 ts x r, (2 <= w_n w)%nat -> (i < w_n w)%nat -> w_2d w = false ->
  0 <= vx (w_eps w) /\ 0 <= vy (w_eps w) /\ 0 <= vz (w_eps w) /\
  0 <= vx (w_epsc w) /\ 0 <= vy (w_epsc w) /\ 0 <= vz (w_epsc w) ->
  0 <= chord <= mc -> 1 <= mc -> Forall (fun t => t0 <= t) ts -> motion_ok w v0 g t0 x ->
  let e := w_epsilon w chord in
  (r <= vx e \/ r <= vy e \/ r <= vz e) ->
  exists p q, s_src (w_run w v0 t0 ts) = Some (p, q) /\
    let d := from_mid (nth i p vzero) (nth i q vzero) x in
    (Rabs (vx d) <= 3 * r -> Rabs (vy d) <= 3 * r -> Rabs (vz d) <= 3 * r -> in_rbox (wing_box w g v0 mc) x).
Proof.
  intros w g v0 mc chord i t0 ts x r H I D W C M F MO e R.
  destruct (c74_position w v0 t0 ts i H I) as (_ & _ & p & q & S & P & Q).
  exists p, q. split; [exact S|]. intros d DX DY DZ.
  pose proof (radius_covers w chord mc r W C M R) as RC.
  pose proof (last_forall _ ts t0 (Rle_refl t0) F) as T1. cbv beta in T1.
  pose proof (last_forall _ (removelast ts) t0 (Rle_refl t0) (removelast_forall _ _ F)) as T2. cbv beta in T2.
  set (t := last ts t0) in *. set (t' := last (removelast ts) t0) in *.
  set (f := INR i / INR (w_n w - 1)) in *.
  destruct (ends_between w f (w_point_frac w i H I)) as (EX & EY & EZ). cbn zeta in EX, EY, EZ.
  set (b := along_segment (w_start w) (w_end w) f (V3 0 0 0)) in *.
  set (path := wing_path w v0) in *.
  assert (DE : forall m, vx (along_segment (w_start w) (w_end w) f m) = vx b + vx m /\
                         vy (along_segment (w_start w) (w_end w) f m) = vy b + vy m /\
                         vz (along_segment (w_start w) (w_end w) f m) = vz b + vz m).
  { intros m. unfold b, along_segment; cbn [vx vy vz]. split; [|split]; ring. }
  unfold d, from_mid in DX, DY, DZ. cbn [vx vy vz] in DX, DY, DZ. rewrite P, Q in DX, DY, DZ.
  destruct (DE (moved path t0 t)) as (E1 & E2 & E3). destruct (DE (moved path t0 t')) as (F1 & F2 & F3).
  rewrite E1, F1 in DX. rewrite E2, F2 in DY. rewrite E3, F3 in DZ. clear E1 E2 E3 F1 F2 F3 DE.
  set (rr := search_radius w mc) in *.
  assert (AB : forall z y, Rabs z <= y -> - y <= z <= y) by (intros z y; unfold Rabs; destruct (Rcase_abs z); lra).
  apply AB in DX. apply AB in DY. apply AB in DZ.
  unfold wing_box, base_lo, base_hi. rewrite D. fold rr. unfold path, wing_path in DX, DY, DZ. unfold motion_ok in MO.
  destruct (w_motion w).
  - unfold moved, displaced in DX, DY, DZ; cbn [vx vy vz] in DX, DY, DZ.
    unfold in_rbox; cbn [rlo rhi vx vy vz]. lra.
  - destruct MO as (M1 & M2 & M3 & G1 & G2 & G3).
    unfold moved, displaced in DX, DY, DZ; cbn [vx vy vz] in DX, DY, DZ.
    assert (K : forall v lo hi plo phi c z, (v = 0 \/ / 8388608 < Rabs v) -> lo <= c <= hi -> plo <= z <= phi ->
      - (3 * r) <= z - (c + (v * t - v * t0) + (c + (v * t' - v * t0))) / 2 <= 3 * r ->
      lin_lo v lo plo rr <= z <= lin_hi v hi phi rr).
    { intros v lo hi plo phi c z V Cb Zb Db. unfold lin_lo, lin_hi.
      assert (TY : tiny = / 8388608) by reflexivity. assert (0 < tiny) by (rewrite TY; apply Rinv_0_lt_compat; lra).
      destruct (Rlt_or_le v (- tiny)) as [A|A]; destruct (Rlt_or_le tiny v) as [B|B].
      - lra.
      - rewrite (proj2 (Rltb_spec v (- tiny)) A), (proj2 (Rltb_false tiny v) B). split; [lra|].
        assert (v * (t - t0) <= 0) by (apply neg_pos; lra). assert (v * (t' - t0) <= 0) by (apply neg_pos; lra). lra.
      - rewrite (proj2 (Rltb_false v (- tiny)) A), (proj2 (Rltb_spec tiny v) B). split; [|lra].
        assert (0 <= v * (t - t0)) by (apply Rmult_le_pos; lra). assert (0 <= v * (t' - t0)) by (apply Rmult_le_pos; lra). lra.
      - rewrite (proj2 (Rltb_false v (- tiny)) A), (proj2 (Rltb_false tiny v) B).
        assert (v = 0).
        { destruct V as [V|V]; [exact V|exfalso]. rewrite <- TY in V. revert V. unfold Rabs. destruct (Rcase_abs v); lra. }
        subst v. lra. }
    unfold in_rbox; cbn [rlo rhi vx vy vz].
    split; [apply (K _ _ _ _ _ (vx b) _ M1 EX G1 DX)|split; [apply (K _ _ _ _ _ (vy b) _ M2 EY G2 DY)|
      apply (K _ _ _ _ _ (vz b) _ M3 EZ G3 DZ)]].
  - destruct MO as (S1 & S2 & S3 & S0). unfold moved, displaced in DX, DY, DZ; cbn [vx vy vz] in DX, DY, DZ.
    rewrite S0 in DX, DY, DZ.
    pose proof (SIN_bound (2 * PI * t / w_period w)) as B1. pose proof (SIN_bound (2 * PI * t' / w_period w)) as B2.
    set (s1 := sin (2 * PI * t / w_period w)) in *. set (s2 := sin (2 * PI * t' / w_period w)) in *.
    assert (K : forall s z c, 0 <= s -> - (3 * r) <= z - (c + (s * s1 - s * 0) + (c + (s * s2 - s * 0))) / 2 <= 3 * r ->
      c - s - 3 * r <= z <= c + s + 3 * r).
    { intros s z c Hs. destruct (times_sine s s1 Hs B1). destruct (times_sine s s2 Hs B2). lra. }
    apply (K _ _ _ S1) in DX. apply (K _ _ _ S2) in DY. apply (K _ _ _ S3) in DZ.
    unfold in_rbox; cbn [rlo rhi vx vy vz]. lra.
Qed.
Print Assumptions c76_box.

Lemma max_abs3 d r : 0 <= r -> inner d d <= r * r -> Rabs (vx d) <= r /\ Rabs (vy d) <= r /\ Rabs (vz d) <= r.
Proof.
  intros R H. unfold inner in H.
  assert (K : forall a, a * a <= r * r -> Rabs a <= r).
  { intros a A. apply Rsqr_incr_0_var; [|exact R]. unfold Rsqr. rewrite <- Rabs_mult. rewrite Rabs_pos_eq by apply Rle_0_sqr. exact A. }
  pose proof (Rle_0_sqr (vx d)) as A. pose proof (Rle_0_sqr (vy d)) as B. pose proof (Rle_0_sqr (vz d)) as C. unfold Rsqr in *.
  split; [|split]; apply K; lra.
Qed.

Lemma scaled2_ge d e m : 0 < vx e <= m -> 0 < vy e <= m -> 0 < vz e <= m -> inner d d / (m * m) <= scaled2 d e.
Proof.
  intros X Y Z. unfold scaled2.
  assert (K : forall a c, 0 < c <= m -> a * a / (m * m) <= (a / c) ^ 2).
  { intros a c C. replace ((a / c) ^ 2) with (a * a * / (c * c)) by (field; lra).
    apply Rmult_le_compat_l; [apply Rle_0_sqr|]. apply Rinv_le_contravar; nra. }
  pose proof (K (vx d) _ X). pose proof (K (vy d) _ Y). pose proof (K (vz d) _ Z).
  unfold inner. unfold Rdiv in *. lra.
Qed.

(** A place outside the box receives at most [exp (-9)] of a point's peak value. *)
Theorem c76_missed : forall w g v0 mc chord i t0 ts x, (2 <= w_n w)%nat -> (i < w_n w)%nat -> w_2d w = false ->
  / 4503599627370496 <= len (w_span w) ->
  0 <= vx (w_eps w) /\ 0 <= vy (w_eps w) /\ 0 <= vz (w_eps w) /\
  0 <= vx (w_epsc w) /\ 0 <= vy (w_epsc w) /\ 0 <= vz (w_epsc w) ->
  0 <= chord <= mc -> 1 <= mc -> Forall (fun t => t0 <= t) ts -> motion_ok w v0 g t0 x ->
  let e := w_epsilon w chord in
  0 < vx e -> 0 < vy e -> 0 < vz e ->
  exists p q, s_src (w_run w v0 t0 ts) = Some (p, q) /\
    forall pitch, ~ in_rbox (wing_box w g v0 mc) x ->
      line_weight (w_tmat w pitch) (w_dcoord w) e (nth i p vzero) (nth i q vzero) x <= exp (-9) * gaussian3d (V3 0 0 0) e.
Proof.
  intros w g v0 mc chord i t0 ts x H I D SP W C M F MO e X Y Z.
  set (m := Rmax (Rmax (vx e) (vy e)) (vz e)).
  assert (ME : vx e <= m /\ vy e <= m /\ vz e <= m /\ (m <= vx e \/ m <= vy e \/ m <= vz e)).
  { unfold m, Rmax. repeat destruct (Rle_dec _ _); lra. }
  destruct ME as (m1 & m2 & m3 & m4).
  destruct (c76_box w g v0 mc chord i t0 ts x m H I D W C M F MO m4) as (p & q & S & B).
  exists p, q. split; [exact S|]. intros pitch N. cbn zeta in B.
  set (d := from_mid (nth i p vzero) (nth i q vzero) x) in *.
  destruct (weight_turned w pitch e (nth i p vzero) (nth i q vzero) x SP D) as (d' & Id & ->). fold d in Id.
  destruct (c76_kernel d' d' e X Y Z) as (K1 & K2 & [K3 _] & _).
  destruct (c76_kernel (V3 0 0 0) (V3 0 0 0) e X Y Z) as (_ & _ & [P0 _] & _).
  assert (m0 : 0 < m) by lra.
  destruct (Rlt_or_le (scaled2 d' e) 16) as [L|L].
  - destruct (K1 L) as [-> _]. rewrite Rmult_comm. apply Rmult_le_compat_r; [exact P0|].
    assert (9 <= scaled2 d' e).
    { destruct (Rle_or_lt 9 (scaled2 d' e)) as [A|A]; [exact A|exfalso]. apply N.
      pose proof (scaled2_ge d' e m (conj X m1) (conj Y m2) (conj Z m3)) as G. rewrite Id in G.
      assert (inner d d <= 3 * m * (3 * m)).
      { apply (Rmult_le_reg_r (/ (m * m))); [apply Rinv_0_lt_compat; nra|].
        replace (3 * m * (3 * m) * / (m * m)) with 9 by (field; lra). unfold Rdiv in G. lra. }
      destruct (max_abs3 d (3 * m)) as (a & b & c); [lra|assumption|]. apply B; assumption. }
    destruct (Req_dec (scaled2 d' e) 9) as [E|E]; [rewrite E; replace (- (9)) with (-9) by ring; lra|]. left. apply exp_increasing. lra.
  - rewrite (K2 L). apply Rmult_le_pos; [left; apply exp_pos|exact P0].
Qed.
Print Assumptions c76_missed.

Lemma line_source_inner tm fl pts cc k :
  inner (line_source tm fl pts cc) k =
  rsum (map (fun '(pos, opos, e, f) => inner f k * line_weight tm fl e pos opos cc) pts).
Proof.
  unfold line_source.
  assert (G : forall s, inner (fold_left (fun s p => let '(pos, opos, eps, force) := p in
     vadd s (vscale force (line_weight tm fl eps pos opos cc))) pts s) k =
     inner s k + rsum (map (fun '(pos, opos, e, f) => inner f k * line_weight tm fl e pos opos cc) pts)).
  { induction pts as [|[[[pos opos] e] f] pts IH]; intros s; cbn [fold_left map].
    - change (rsum []) with 0. ring.
    - rewrite IH, rsum_cons, inner_vadd, inner_vscale. ring. }
  rewrite G. unfold vzero, inner at 1; cbn [vx vy vz]. ring.
Qed.

(** What the cells of a tile receive: the sum over the points, or, outside the box,
    perhaps nothing, which then is at most [exp (-9)] of the sum of the peaks. *)
Theorem c76_tiles : forall w g n v0 mc chord force t0 ts pitch tile cell k, (2 <= w_n w)%nat -> w_2d w = false ->
  / 4503599627370496 <= len (w_span w) ->
  0 <= vx (w_eps w) /\ 0 <= vy (w_eps w) /\ 0 <= vz (w_eps w) /\
  0 <= vx (w_epsc w) /\ 0 <= vy (w_epsc w) /\ 0 <= vz (w_epsc w) ->
  (forall i, 0 <= chord i <= mc) -> 1 <= mc -> Forall (fun t => t0 <= t) ts ->
  (forall i, 0 < vx (w_epsilon w (chord i)) /\ 0 < vy (w_epsilon w (chord i)) /\ 0 < vz (w_epsilon w (chord i))) ->
  geom_ok g n -> near (wing_box w g v0 mc) g -> in_box (domain n) cell -> in_box tile cell ->
  motion_ok w v0 g t0 (centre g cell) ->
  exists p q, s_src (w_run w v0 t0 ts) = Some (p, q) /\
    let pts := map (fun i => (nth i p vzero, nth i q vzero, w_epsilon w (chord i), force i)) (seq 0 (w_n w)) in
    let src := line_source (w_tmat w pitch) (w_dcoord w) pts in
    exists f, spread_tile (wing_box w g v0 mc) g tile src = Ret f /\
      inner (src (centre g cell)) k =
        rsum (map (fun i => inner (force i) k *
          line_weight (w_tmat w pitch) (w_dcoord w) (w_epsilon w (chord i)) (nth i p vzero) (nth i q vzero) (centre g cell)) (seq 0 (w_n w))) /\
      Rabs (inner (f cell) k - inner (src (centre g cell)) k) <=
        exp (-9) * rsum (map (fun i => Rabs (inner (force i) k) * gaussian3d (V3 0 0 0) (w_epsilon w (chord i))) (seq 0 (w_n w))).
Proof.
  intros w g n v0 mc chord force t0 ts pitch tile cell k H D SP W C M F E G Nr Dm T MO.
  destruct (w_run_ok w v0 t0 ts) as (_ & _ & _ & S).
  eexists; eexists. split; [exact S|]. cbv zeta. set (p := pos_at w v0 t0 (last ts t0)) in *.
  set (q := pos_at w v0 t0 (last (removelast ts) t0)) in *.
  set (pts := map _ (seq 0 (w_n w))). set (src := line_source (w_tmat w pitch) (w_dcoord w) pts).
  destruct (c73_tiles (wing_box w g v0 mc) g n tile src G Nr) as (f & Ef & A1 & A2 & _).
  exists f. split; [exact Ef|].
  assert (SE : inner (src (centre g cell)) k = rsum (map (fun i => inner (force i) k *
          line_weight (w_tmat w pitch) (w_dcoord w) (w_epsilon w (chord i)) (nth i p vzero) (nth i q vzero) (centre g cell)) (seq 0 (w_n w)))).
  { unfold src. rewrite line_source_inner. unfold pts. rewrite map_map. reflexivity. }
  split; [exact SE|].
  assert (PK : forall i, 0 <= gaussian3d (V3 0 0 0) (w_epsilon w (chord i))).
  { intros i. destruct (E i) as (e1 & e2 & e3). destruct (c76_kernel (V3 0 0 0) (V3 0 0 0) _ e1 e2 e3) as (_ & _ & [K _] & _). exact K. }
  assert (NN : 0 <= exp (-9) * rsum (map (fun i => Rabs (inner (force i) k) * gaussian3d (V3 0 0 0) (w_epsilon w (chord i))) (seq 0 (w_n w)))).
  { apply Rmult_le_pos; [left; apply exp_pos|]. generalize (seq 0 (w_n w)). intros l. induction l; cbn [map]; [change (rsum []) with 0; lra|].
    rewrite rsum_cons. assert (0 <= Rabs (inner (force a) k) * gaussian3d (V3 0 0 0) (w_epsilon w (chord a))); [|lra].
    apply Rmult_le_pos; [apply Rabs_pos|apply PK]. }
  destruct (A2 cell T) as [R|R]; [rewrite R, Rminus_eq_0, Rabs_R0; exact NN|].
  assert (DB : in_rbox (wing_box w g v0 mc) (centre g cell) \/ ~ in_rbox (wing_box w g v0 mc) (centre g cell)).
  { unfold in_rbox. set (b := wing_box w g v0 mc). set (x := centre g cell).
    destruct (Rle_dec (vx (rlo b)) (vx x)); [|right; tauto]. destruct (Rle_dec (vx x) (vx (rhi b))); [|right; tauto].
    destruct (Rle_dec (vy (rlo b)) (vy x)); [|right; tauto]. destruct (Rle_dec (vy x) (vy (rhi b))); [|right; tauto].
    destruct (Rle_dec (vz (rlo b)) (vz x)); [|right; tauto]. destruct (Rle_dec (vz x) (vz (rhi b))); [|right; tauto].
    left; tauto. }
  destruct DB as [B|B]; [rewrite (A1 cell Dm T B), Rminus_eq_0, Rabs_R0; exact NN|].
  rewrite R, SE. unfold vzero at 1. replace (inner (V3 0 0 0) k) with 0 by (unfold inner; cbn; ring).
  assert (WB : forall i, (i < w_n w)%nat -> 0 <= line_weight (w_tmat w pitch) (w_dcoord w) (w_epsilon w (chord i)) (nth i p vzero) (nth i q vzero) (centre g cell)
     <= exp (-9) * gaussian3d (V3 0 0 0) (w_epsilon w (chord i))).
  { intros i I. destruct (E i) as (e1 & e2 & e3).
    destruct (c76_missed w g v0 mc (chord i) i t0 ts (centre g cell) H I D SP W (C i) M F MO e1 e2 e3) as (p' & q' & S' & K).
    rewrite S in S'. injection S' as <- <-. split; [|apply K, B].
    rewrite line_weight_form. apply (c76_kernel _ (V3 0 0 0) _ e1 e2 e3). }
  assert (AL : forall l, (forall i, In i l -> (i < w_n w)%nat) ->
     Rabs (rsum (map (fun i => inner (force i) k *
          line_weight (w_tmat w pitch) (w_dcoord w) (w_epsilon w (chord i)) (nth i p vzero) (nth i q vzero) (centre g cell)) l)) <=
     exp (-9) * rsum (map (fun i => Rabs (inner (force i) k) * gaussian3d (V3 0 0 0) (w_epsilon w (chord i))) l)).
  { induction l as [|i l IH]; intros Hl; cbn [map]; [change (rsum []) with 0; rewrite Rabs_R0; lra|].
    rewrite !rsum_cons. eapply Rle_trans; [apply Rabs_triang|]. rewrite Rmult_plus_distr_l. apply Rplus_le_compat.
    - rewrite Rabs_mult. destruct (WB i (Hl i (or_introl eq_refl))) as [w0 w1]. rewrite (Rabs_pos_eq _ w0).
      apply Rle_trans with (Rabs (inner (force i) k) * (exp (-9) * gaussian3d (V3 0 0 0) (w_epsilon w (chord i)))); [|lra].
      apply Rmult_le_compat_l; [apply Rabs_pos|exact w1].
    - apply IH. intros j J. apply Hl. right. exact J. }
  rewrite Rminus_0_l, Rabs_Ropp. apply AL. intros i J. apply in_seq in J. lia.
Qed.
Print Assumptions c76_tiles.

(** Refuted: the box holds the kernel when the chord is small.  The radius of the
    box is multiplied by the chord even when the width is not; for a chord
    below a third a place with [exp (-1)] of the peak is outside. *)
Theorem c76_small_chord_refuted : forall w g v0 mc e pitch, (2 <= w_n w)%nat -> w_2d w = false -> w_motion w = MNone ->
  / 4503599627370496 <= len (w_span w) -> w_eps w = V3 e e e -> w_epsc w = V3 0 0 0 -> 0 < e -> 0 <= mc < 1 / 3 ->
  exists i x, (i < w_n w)%nat /\ ~ in_rbox (wing_box w g v0 mc) x /\
    let P := nth i (w_points w) vzero in
    w_epsilon w mc = V3 e e e /\
    line_weight (w_tmat w pitch) (w_dcoord w) (w_epsilon w mc) P P x = exp (-1) * gaussian3d (V3 0 0 0) (V3 e e e).
Proof.
  intros w g v0 mc e pitch H D MN SP E EC E0 M.
  destruct (c74_points w H) as (_ & _ & PS & PE & _).
  set (i := if Rle_dec (vx (w_start w)) (vx (w_end w)) then (w_n w - 1)%nat else 0%nat).
  assert (I : (i < w_n w)%nat) by (unfold i; destruct (Rle_dec _ _); lia).
  set (P := nth i (w_points w) vzero).
  assert (PX : vx P = vx (ends_hi w)).
  { unfold P, i, ends_hi; cbn [vx]. rewrite rmax_spec. unfold Rmax. destruct (Rle_dec _ _); [rewrite PE|rewrite PS]; reflexivity. }
  exists i, (V3 (vx P + e) (vy P) (vz P)). split; [exact I|].
  assert (EE : w_epsilon w mc = V3 e e e).
  { unfold w_epsilon. rewrite E, EC; cbn [vx vy vz]. rewrite rmax_spec. rewrite Rmult_0_l, Rmax_left by lra. reflexivity. }
  split; [|split; [exact EE|]].
  - unfold wing_box. rewrite MN. unfold in_rbox; cbn [rlo rhi vx vy vz]. unfold base_hi. rewrite D.
    assert (R : search_radius w mc = e * mc * 3).
    { unfold search_radius, vmax3. rewrite E, EC; cbn [vx vy vz]. rewrite !rmax_spec.
      rewrite !(Rmax_left e e) by lra. rewrite !(Rmax_left 0 0) by lra. rewrite Rmax_left by lra. reflexivity. }
    rewrite R, PX. intros [[_ K] _]. nra.
  - fold P. rewrite EE, c76_isotropic by assumption. unfold from_mid; cbn [vx vy vz].
    assert (L : len (V3 (vx P + e - (vx P + vx P) / 2) (vy P - (vy P + vy P) / 2) (vz P - (vz P + vz P) / 2)) = e).
    { unfold len, inner; cbn [vx vy vz]. replace (_ + _ + _) with (e * e) by field. apply sqrt_square; lra. }
    rewrite L. assert (S : scaled2 (V3 e 0 0) (V3 e e e) = 1) by (unfold scaled2; cbn [vx vy vz]; field; lra).
    destruct (c76_kernel (V3 e 0 0) (V3 0 0 0) (V3 e e e) E0 E0 E0) as (K & _). rewrite S in K. replace (- (1)) with (-1) in K by ring. destruct (K ltac:(lra)) as [-> _]. ring.
Qed.
Print Assumptions c76_small_chord_refuted.

(** Refuted: the box holds the support of the kernel.  The kernel reaches four
    widths, the box three. *)
Theorem c76_support_refuted : forall w g v0 mc e pitch, (2 <= w_n w)%nat -> w_2d w = false -> w_motion w = MNone ->
  / 4503599627370496 <= len (w_span w) -> w_eps w = V3 0 0 0 -> w_epsc w = V3 e e e -> 0 < e -> 0 < mc ->
  exists i x, (i < w_n w)%nat /\ ~ in_rbox (wing_box w g v0 mc) x /\
    let P := nth i (w_points w) vzero in
    0 < line_weight (w_tmat w pitch) (w_dcoord w) (w_epsilon w mc) P P x.
Proof.
  intros w g v0 mc e pitch H D MN SP E EC E0 M.
  destruct (c74_points w H) as (_ & _ & PS & PE & _).
  set (i := if Rle_dec (vx (w_start w)) (vx (w_end w)) then (w_n w - 1)%nat else 0%nat).
  assert (I : (i < w_n w)%nat) by (unfold i; destruct (Rle_dec _ _); lia).
  set (P := nth i (w_points w) vzero).
  assert (PX : vx P = vx (ends_hi w)).
  { unfold P, i, ends_hi; cbn [vx]. rewrite rmax_spec. unfold Rmax. destruct (Rle_dec _ _); [rewrite PE|rewrite PS]; reflexivity. }
  assert (c0 : 0 < e * mc) by (apply Rmult_lt_0_compat; assumption). set (c := e * mc) in *.
  exists i, (V3 (vx P + 7 / 2 * c) (vy P) (vz P)). split; [exact I|].
  assert (EE : w_epsilon w mc = V3 c c c).
  { unfold w_epsilon. rewrite E, EC; cbn [vx vy vz]. rewrite rmax_spec. fold c. rewrite Rmax_right by lra. reflexivity. }
  split.
  - unfold wing_box. rewrite MN. unfold in_rbox; cbn [rlo rhi vx vy vz]. unfold base_hi. rewrite D.
    assert (R : search_radius w mc = c * 3).
    { unfold search_radius, vmax3. rewrite E, EC; cbn [vx vy vz]. rewrite !rmax_spec.
      rewrite !(Rmax_left e e) by lra. rewrite !(Rmax_left 0 0) by lra. rewrite Rmax_right by lra. unfold c. ring. }
    rewrite R, PX. intros [[_ K] _]. lra.
  - fold P. cbv zeta. rewrite EE, c76_isotropic by assumption. unfold from_mid; cbn [vx vy vz].
    assert (L : len (V3 (vx P + 7 / 2 * c - (vx P + vx P) / 2) (vy P - (vy P + vy P) / 2) (vz P - (vz P + vz P) / 2)) = 7 / 2 * c).
    { unfold len, inner; cbn [vx vy vz]. replace (_ + _ + _) with (7 / 2 * c * (7 / 2 * c)) by field. apply sqrt_square; lra. }
    rewrite L. assert (S : scaled2 (V3 (7 / 2 * c) 0 0) (V3 c c c) = 49 / 4) by (unfold scaled2; cbn [vx vy vz]; field; lra).
    destruct (c76_kernel (V3 (7 / 2 * c) 0 0) (V3 0 0 0) (V3 c c c) c0 c0 c0) as (K & _). rewrite S in K. apply K. lra.
Qed.
Print Assumptions c76_support_refuted.

(** Refuted: the box of an oscillating wing holds the wing.  A negative component of the
    amplitude shrinks it; a quarter period later every point is outside. *)
Theorem c76_sine_refuted : forall w g v0 mc i, (2 <= w_n w)%nat -> (i < w_n w)%nat -> w_2d w = false -> w_motion w = MSine ->
  0 < w_period w -> vx (w_start w) = vx (w_end w) -> vx (w_svec w) < - (search_radius w mc / 2) ->
  ~ in_rbox (wing_box w g v0 mc) (nth i (s_pos (w_run w v0 0 [w_period w / 4])) vzero).
Proof.
  intros w g v0 mc i H I D MS T X S [[A _] _].
  destruct (c74_position w v0 0 [w_period w / 4] i H I) as (P & _). cbn [last] in P. rewrite P in A.
  unfold wing_path in A. rewrite MS in A. unfold wing_box in A. rewrite MS in A. unfold base_lo in A. rewrite D in A.
  unfold along_segment, moved, displaced in A. cbn [rlo vx vy vz ends_lo] in A. unfold ends_lo in A; cbn [vx] in A.
  rewrite rmin_spec, X, Rmin_left in A by lra.
  replace (2 * PI * (w_period w / 4) / w_period w) with (PI / 2) in A by (field; lra).
  replace (2 * PI * 0 / w_period w) with 0 in A by (field; lra).
  rewrite sin_PI2, sin_0 in A. lra.
Qed.
Print Assumptions c76_sine_refuted.

(** The same wing not two-dimensional. *)
Definition in_3d (w : wing) : wing :=
  Wing (w_n w) (w_start w) (w_end w) (w_bladex w) (w_eps w) (w_epsc w) false (w_norm2d w) (w_flags w) (w_uinf w)
       (w_motion w) (w_svec w) (w_period w).

Lemma turned_span L s x : turned (V3 0 s 0) x (V3 0 L 0) = V3 0 (L * cos x + s * s * L * (1 - cos x)) 0.
Proof. unfold turned, inner; cbn [vx vy vz]. apply vec_eq; ring. Qed.

(** A two-dimensional normalised wing along y in a uniform wind: the source is the force
    per unit span times the plane Gaussian of integral one, at every
    spanwise position and for every number of points. *)
Theorem c76_plane : forall w L polar pitch vel vtr dx chord e x, (2 <= w_n w)%nat ->
  w_span w = V3 0 L 0 -> w_bladex w = V3 1 0 0 -> / 4503599627370496 <= Rabs L ->
  w_2d w = true -> w_norm2d w = true -> 0 < vx e -> 0 < vy e -> 0 < vz e ->
  let th := PI * pitch / 180 in
  let X := blade_x w in let Z := blade_z w in
  let d := V3 (vx x - vx (w_start w)) (vy x - vy (w_start w)) (vz x - vz (w_start w)) in
  let dc := cos th * inner d X - sin th * inner d Z in
  let dt := sin th * inner d X + cos th * inner d Z in
  let r2 := (dc / vx e) ^ 2 + (dt / vz e) ^ 2 in
  let per_span := w_force (in_3d w) polar pitch vel vtr 1 chord e in
  let pts := map (fun i => let P := nth i (w_points w) vzero in (P, P, e, w_force w polar pitch vel vtr (dx i) chord e)) (seq 0 (w_n w)) in
  (r2 < 16 -> line_source (w_tmat w pitch) (w_dcoord w) pts x = vscale per_span (exp (- r2) / (PI * vx e * vz e))) /\
  (16 <= r2 -> line_source (w_tmat w pitch) (w_dcoord w) pts x = V3 0 0 0).
Proof.
  intros w L polar pitch vel vtr dx chord e x H SP BX HL D2 N2 X0 Y0 Z0 th X Z d dc dt r2 per pts.
  assert (NP : 0 < INR (w_n w)) by (apply lt_0_INR; lia).
  destruct (c74_points w H) as (_ & PN & _).
  assert (WT : forall i, (i < w_n w)%nat -> line_weight (w_tmat w pitch) (w_dcoord w) e (nth i (w_points w) vzero) (nth i (w_points w) vzero) x =
      gaussian3d (V3 dc 0 dt) e).
  { intros i I. destruct (c76_axes w L pitch e (nth i (w_points w) vzero) (nth i (w_points w) vzero) x SP BX HL) as [-> _].
    rewrite D2. fold X Z th. set (d' := from_mid _ _ _).
    assert (LS : len (w_span w) = Rabs L).
    { rewrite SP. unfold len, inner; cbn. replace (_ + _ + _) with (Rsqr L) by (unfold Rsqr; ring). apply sqrt_Rsqr_abs. }
    assert (SU : set_up w).
    { assert (V0 : 0 < / 4503599627370496 < 1) by (split; [apply Rinv_0_lt_compat; lra|lra]).
      destruct (span_unit w) as [_ UY]; [rewrite LS; exact HL|].
      split; [rewrite LS; exact HL|]. split.
      - rewrite BX. unfold len, inner; cbn. replace (1 * 1 + 0 * 0 + 0 * 0) with 1 by ring. rewrite sqrt_1. unfold veps. lra.
      - fold (blade_y w). rewrite <- UY, BX. rewrite vnormalize_unit by (unfold is_unit, inner; cbn; ring).
        unfold unitv. rewrite LS, SP; cbn [vx vy vz]. unfold vcross, len, inner; cbn [vx vy vz].
        replace (_ + _ + _) with (Rsqr (L / Rabs L)).
        + rewrite sqrt_Rsqr_abs. unfold Rdiv. rewrite Rabs_mult, Rabs_inv, Rabs_Rabsolu, Rinv_r by lra. unfold veps. lra.
        + unfold Rsqr. field. lra. }
    destruct (frame_facts w SU) as (_ & _ & YZ & XE & _).
    assert (XY : inner X (blade_y w) = 0) by (unfold X; rewrite XE; apply cross_perp).
    assert (LY : V3 0 L 0 = vscale (blade_y w) (len (w_span w))).
    { rewrite <- SP. apply vnormalize_scaled. rewrite LS. exact HL. }
    assert (LX : inner (V3 0 L 0) X = 0) by (rewrite LY, inner_vscale, inner_sym, XY; ring).
    assert (LZ : inner (V3 0 L 0) Z = 0) by (rewrite LY, inner_vscale; unfold Z; rewrite YZ; ring).
    set (t := INR i / INR (w_n w - 1)) in *.
    assert (DD : d' = vsub d (vscale (V3 0 L 0) t)).
    { unfold d'. rewrite PN by exact I. fold t. unfold w_span in SP.
      assert (SX : vx (w_end w) = vx (w_start w) /\ vy (w_end w) = vy (w_start w) + L /\ vz (w_end w) = vz (w_start w)).
      { unfold vsub in SP. injection SP as s1 s2 s3. lra. }
      destruct SX as (E1 & E2 & E3). unfold from_mid, along_segment, vsub, vscale, d; cbn [vx vy vz]. rewrite E1, E2, E3. apply vec_eq; field. }
    assert (IX : inner d' X = inner d X) by (rewrite DD, inner_vsub, inner_vscale, LX; ring).
    assert (IZ : inner d' Z = inner d Z) by (rewrite DD, inner_vsub, inner_vscale, LZ; ring).
    f_equal. unfold dc, dt. rewrite <- IX, <- IZ. unfold inner; cbn [vx vy vz]. apply vec_eq; ring. }
  assert (FR : forall i, w_force w polar pitch vel vtr (dx i) chord e = vscale per (g2d_from_3d * vy e / INR (w_n w))).
  { intros i. unfold per, w_force, w_lift, w_drag. 
    change (w_wind (in_3d w)) with (w_wind w). change (blade_x (in_3d w)) with (blade_x w).
    change (blade_y (in_3d w)) with (blade_y w). change (blade_z (in_3d w)) with (blade_z w).
    change (w_aoa (in_3d w)) with (w_aoa w). change (w_flags (in_3d w)) with (w_flags w).
    set (dd := vnormalize (vadd _ _)). set (ll := vnormalize (vcross dd _)). set (ao := w_aoa w pitch vel vtr).
    assert (Q : w_qval w vel vtr (dx i) chord e = w_qval (in_3d w) vel vtr 1 chord e * (g2d_from_3d * vy e / INR (w_n w))).
    { unfold w_qval. change (w_wind (in_3d w)) with (w_wind w). change (w_uinf (in_3d w)) with (w_uinf w).
      change (w_2d (in_3d w)) with false. rewrite D2, N2. cbn [andb]. set (qq := if Rltb _ _ then _ else _). field. lra. }
    rewrite Q. unfold vmul, vneg, vadd, vscale; cbn [vx vy vz]. apply vec_eq; ring. }
  assert (SUM : forall k, inner (line_source (w_tmat w pitch) (w_dcoord w) pts x) k = inner per k * (g2d_from_3d * vy e * gaussian3d (V3 dc 0 dt) e)).
  { intros k. rewrite line_source_inner. unfold pts. rewrite map_map.
    rewrite (map_ext_in _ (fun _ => inner per k * (g2d_from_3d * vy e * gaussian3d (V3 dc 0 dt) e) / INR (w_n w))).
    - assert (CS : forall c l, rsum (map (fun _ : nat => c) l) = INR (length l) * c).
      { intros c l. induction l as [|a l IH]; [cbn; change (rsum []) with 0; ring|]. cbn [map]. rewrite rsum_cons, IH. cbn [length]. rewrite S_INR. ring. }
      rewrite CS, seq_length. field. lra.
    - intros i Hi. apply in_seq in Hi. rewrite WT by lia. rewrite FR, inner_vscale. field. lra. }
  assert (S2 : scaled2 (V3 dc 0 dt) e = r2) by (unfold scaled2, r2; cbn [vx vy vz]; field; lra).
  pose proof PI_RGT_0 as PP. pose proof gauss_fac_pos as GF.
  split; intros R; apply inner_ext; intros k; rewrite SUM.
  - rewrite inner_vscale. f_equal. rewrite gaussian3d_form, S2, (proj2 (Rltb_spec _ _)) by exact R.
    unfold g2d_from_3d. field. repeat split; lra.
  - rewrite gaussian3d_form, S2, (proj2 (Rltb_false _ _)) by exact R. unfold inner at 2; cbn. ring.
Qed.
Print Assumptions c76_plane.

(** The two-dimensional wing at rest along a coordinate axis: the box holds all cells of the domain
    that are within three widths in the other two directions. *)
Theorem c76_box_2d : forall w g v0 mc chord i x r L, (2 <= w_n w)%nat -> (i < w_n w)%nat -> w_2d w = true -> w_motion w = MNone ->
  0 <= vx (w_eps w) /\ 0 <= vy (w_eps w) /\ 0 <= vz (w_eps w) /\
  0 <= vx (w_epsc w) /\ 0 <= vy (w_epsc w) /\ 0 <= vz (w_epsc w) ->
  0 <= chord <= mc -> 1 <= mc -> L <> 0 ->
  let e := w_epsilon w chord in
  (r <= vx e \/ r <= vy e \/ r <= vz e) ->
  let P := nth i (w_points w) vzero in
  let near3 a b := Rabs (a - b) <= 3 * r in
  (w_span w = V3 L 0 0 -> vx (gplo g) <= vx x <= vx (gphi g) -> near3 (vy x) (vy P) -> near3 (vz x) (vz P) ->
     in_rbox (wing_box w g v0 mc) x) /\
  (w_span w = V3 0 L 0 -> vy (gplo g) <= vy x <= vy (gphi g) -> near3 (vx x) (vx P) -> near3 (vz x) (vz P) ->
     in_rbox (wing_box w g v0 mc) x) /\
  (w_span w = V3 0 0 L -> vz (gplo g) <= vz x <= vz (gphi g) -> near3 (vx x) (vx P) -> near3 (vy x) (vy P) ->
     in_rbox (wing_box w g v0 mc) x).
Proof.
  intros w g v0 mc chord i x r L H I D MN W C M L0 e R P near3.
  destruct (c74_points w H) as (_ & PN & _).
  pose proof (ends_between w _ (w_point_frac w i H I)) as EB. cbn zeta in EB. rewrite <- PN in EB by exact I. fold P in EB.
  destruct EB as (EX & EY & EZ).
  pose proof (radius_covers w chord mc r W C M R) as RC.
  assert (LP : 0 < Rabs L) by (apply Rabs_pos_lt, L0).
  assert (R0 : 0 <= search_radius w mc).
  { unfold search_radius. destruct W as (a1 & _). destruct (vmax3_ge (w_eps w)) as (v1 & _).
    apply Rmult_le_pos; [|lra]. apply Rmult_le_pos; [|lra]. rewrite rmax_spec. apply Rle_trans with (vmax3 (w_eps w)); [lra|apply Rmax_l]. }
  assert (AB : forall a b, near3 a b -> b - 3 * r <= a <= b + 3 * r).
  { intros a b. unfold near3, Rabs. destruct (Rcase_abs (a - b)); lra. }
  unfold wing_box, base_lo, base_hi. rewrite MN, D. unfold span_axis.
  split; [|split]; intros S G A B; apply AB in A; apply AB in B; rewrite S; cbn [vx vy vz]; rewrite !rmax_spec, ?Rabs_R0.
  - rewrite Rmax_left, (proj2 (Rleb_spec _ _)) by lra. unfold in_rbox; cbn [set_axis rlo rhi vx vy vz]. lra.
  - rewrite Rmax_left, (proj2 (Rleb_false _ _)), (proj2 (Rleb_spec _ _)) by lra. unfold in_rbox; cbn [set_axis rlo rhi vx vy vz]. lra.
  - rewrite Rmax_right, !(proj2 (Rleb_false _ _)) by lra. unfold in_rbox; cbn [set_axis rlo rhi vx vy vz]. lra.
Qed.
Print Assumptions c76_box_2d.

(** The box of a flat plate of chord at least one holds all that is within three times
    the largest width of a point. *)
Theorem c76_box_plate : forall w chord i x r, (2 <= w_n w)%nat -> (i < w_n w)%nat ->
  0 <= vx (w_eps w) -> 0 <= vy (w_eps w) -> 0 <= vz (w_eps w) -> 1 <= chord ->
  (r <= vx (w_eps w) \/ r <= vy (w_eps w) \/ r <= vz (w_eps w)) ->
  let P := nth i (w_points w) vzero in
  Rabs (vx x - vx P) <= 3 * r -> Rabs (vy x - vy P) <= 3 * r -> Rabs (vz x - vz P) <= 3 * r ->
  in_rbox (plate_box w chord) x.
Proof.
  intros w chord i x r H I E1 E2 E3 C R P X Y Z.
  destruct (c74_points w H) as (_ & PN & _).
  pose proof (ends_between w _ (w_point_frac w i H I)) as EB. cbn zeta in EB. rewrite <- PN in EB by exact I. fold P in EB.
  destruct (vmax3_ge (w_eps w)) as (v1 & v2 & v3).
  assert (K : 3 * r <= plate_radius (w_eps w) chord).
  { unfold plate_radius. assert (vmax3 (w_eps w) <= vmax3 (w_eps w) * chord); [|lra].
    rewrite <- (Rmult_1_r (vmax3 (w_eps w))) at 1. apply Rmult_le_compat_l; lra. }
  assert (AB : forall z y, Rabs z <= y -> - y <= z <= y) by (intros z y; unfold Rabs; destruct (Rcase_abs z); lra).
  apply AB in X. apply AB in Y. apply AB in Z.
  unfold plate_box, in_rbox; cbn [rlo rhi vx vy vz]. lra.
Qed.
Print Assumptions c76_box_plate.

(** Which input is which width: the entries of [epsilon] and [epsilon_chord] are for
    chord, thickness and span, in this order; the larger of the two counts. *)
Theorem c76_inputs : forall w L pitch c pos opos cc,
  w_span w = V3 0 L 0 -> w_bladex w = V3 1 0 0 -> / 4503599627370496 <= Rabs L -> w_2d w = false ->
  let th := PI * pitch / 180 in
  let X := blade_x w in let Z := blade_z w in
  let d := from_mid pos opos cc in
  let width k := Rmax (k (w_eps w)) (k (w_epsc w) * c) in
  let along_chord := cos th * inner d X - sin th * inner d Z in
  let along_thick := sin th * inner d X + cos th * inner d Z in
  let along_span := inner d (blade_y w) in
  line_weight (w_tmat w pitch) (w_dcoord w) (w_epsilon w c) pos opos cc =
    let r2 := (along_chord / width vx) ^ 2 + (along_thick / width vy) ^ 2 + (along_span / width vz) ^ 2 in
    if Rltb r2 16 then gauss_fac / (width vx * width vy * width vz) * exp (- r2) else 0.
Proof.
  intros w L pitch c pos opos cc SP BX HL D th X Z d width ac at' as'.
  destruct (c76_axes w L pitch (w_epsilon w c) pos opos cc SP BX HL) as [-> _]. rewrite D. fold X Z th d.
  rewrite gaussian3d_form. cbn zeta.
  assert (S : scaled2 (V3 (inner d (V3 (cos th * vx X - sin th * vx Z) (cos th * vy X - sin th * vy Z) (cos th * vz X - sin th * vz Z)))
       (inner d (blade_y w)) (inner d (V3 (sin th * vx X + cos th * vx Z) (sin th * vy X + cos th * vy Z) (sin th * vz X + cos th * vz Z))))
       (w_epsilon w c) = (ac / width vx) ^ 2 + (at' / width vy) ^ 2 + (as' / width vz) ^ 2).
  { unfold scaled2, w_epsilon; cbn [vx vy vz]. rewrite !rmax_spec. fold (width vx) (width vy) (width vz).
    replace (inner d (V3 (cos th * vx X - sin th * vx Z) (cos th * vy X - sin th * vy Z) (cos th * vz X - sin th * vz Z))) with ac
      by (unfold ac, inner; cbn [vx vy vz]; ring).
    replace (inner d (V3 (sin th * vx X + cos th * vx Z) (sin th * vy X + cos th * vy Z) (sin th * vz X + cos th * vz Z))) with at'
      by (unfold at', inner; cbn [vx vy vz]; ring).
    fold as'. ring. }
  rewrite S. destruct (Rltb _ 16); [|reflexivity]. f_equal. f_equal.
  unfold w_epsilon; cbn [vx vy vz]. rewrite !rmax_spec. fold (width vx) (width vy) (width vz). ring.
Qed.
Print Assumptions c76_inputs.

(** The example wing: with chord 1 its box is [-3,3] x [-5,5] x [-3,3] apart from the
    direction it moves in. *)
Example wing_box_case : let g := Geom (V3 (-8) (-8) (-8)) (V3 8 8 8) (V3 1 1 1) (V3 1 1 1) in
  in_rbox (wing_box ex_wing g (V3 1 0 0) 1) (V3 7 (-5) 3) /\ ~ in_rbox (wing_box ex_wing g (V3 1 0 0) 1) (V3 7 (-5) 4).
Proof.
  intros g.
  assert (R : search_radius ex_wing 1 = 3).
  { unfold search_radius, vmax3; cbn. rewrite !rmax_spec. unfold Rmax. repeat destruct (Rle_dec _ _); lra. }
  unfold wing_box. rewrite R. unfold ex_wing; cbn [w_motion w_2d base_lo base_hi ends_lo ends_hi].
  unfold base_lo, base_hi, ends_lo, ends_hi, lin_lo, lin_hi; cbn [w_2d w_start w_end vx vy vz].
  rewrite !rmin_spec, !rmax_spec. assert (0 < tiny < 1) by (unfold tiny; lra).
  rewrite (proj2 (Rltb_false 1 (- tiny))), (proj2 (Rltb_spec tiny 1)), (proj2 (Rltb_false 0 (- tiny))), (proj2 (Rltb_false tiny 0)) by lra.
  unfold Rmin, Rmax. repeat destruct (Rle_dec _ _); try lra. unfold in_rbox; cbn. lra.
Qed.
