From Verif Require Import BoxR BoxRFacts VecSpace VecSpaceSpec VecSpaceProofs Tagging TaggingSpec.
Open Scope R_scope.

Lemma rceil_spec x : IZR (rceil x) - 1 < x <= IZR (rceil x).
Proof.
  unfold rceil. pose proof (rfloor_spec (- x)). rewrite opp_IZR. lra.
Qed.

Lemma cell_point_centre g c : cell_point g c = centre g c.
Proof. unfold cell_point, centre. apply vec_eq; lra. Qed.

Lemma in_boxb_spec b c : in_boxb b c = true <-> in_box b c.
Proof. unfold in_boxb, in_box. rewrite !andb_true_iff, !Z.leb_le. lia. Qed.

Lemma IZR_lt_le a b : IZR a < IZR b + 1 -> (a <= b)%Z.
Proof. intros H. rewrite <- plus_IZR in H. apply lt_IZR in H. lia. Qed.

Lemma cb_rb lo hi plo phi dx dxi : dx <> 0 -> dxi = / dx ->
  cb_dim lo hi plo phi dx = rb_dim lo hi plo phi dxi.
Proof. intros _ ->. reflexivity. Qed.

Lemma int_bound z : -2147483648 <= IZR z -> IZR z <= 2147483647 ->
  (-2147483648 <= z <= 2147483647)%Z.
Proof. intros A B. apply le_IZR in A, B. lia. Qed.

(** One dimension: totality, position of the result, covering. *)
Lemma rb_dim_ok lo hi plo phi dx dxi n :
  axis_ok plo phi dx dxi n -> axis_near lo hi plo dx ->
  exists a b, rb_dim lo hi plo phi dxi = Ret (a, b) /\
    (0 <= a)%Z /\ (b <= n)%Z /\
    (forall i, (0 <= i < n)%Z -> lo <= plo + (IZR i + / 2) * dx <= hi -> (a <= i <= b)%Z) /\
    (forall i, (a <= i <= b)%Z -> lo < plo + (IZR i + 1) * dx /\ plo + IZR i * dx < hi + dx).
Proof.
  intros (D & I & P & N) [Nl Nh]. unfold rb_dim.
  rewrite rmax_spec, rmin_spec.
  assert (Di : 0 < dxi) by (subst dxi; apply Rinv_0_lt_compat, D).
  assert (DD : dx * dxi = 1) by (subst dxi; field; lra).
  assert (N1 : 1 <= IZR n) by (apply IZR_le; lia).
  assert (N2 : IZR n <= 2147483646) by (apply IZR_le; lia).
  set (X := (Rmax lo plo - plo) * dxi). set (Y := (Rmin hi phi - plo) * dxi).
  assert (EX : Rmax lo plo - plo = X * dx) by (unfold X; rewrite Rmult_assoc, (Rmult_comm dxi), DD; ring).
  assert (EY : Rmin hi phi - plo = Y * dx) by (unfold Y; rewrite Rmult_assoc, (Rmult_comm dxi), DD; ring).
  clearbody X Y.
  assert (X0 : 0 <= X).
  { pose proof (Rmax_r lo plo). nra. }
  assert (X1 : X <= 2147483647).
  { unfold Rmax in EX. destruct (Rle_dec lo plo); nra. }
  assert (Y1 : Y <= IZR n).
  { pose proof (Rmin_r hi phi). nra. }
  assert (Y0 : -2147483647 <= Y).
  { unfold Rmin in EY. destruct (Rle_dec hi phi); nra. }
  pose proof (rfloor_spec X) as FX. pose proof (rceil_spec Y) as CY.
  assert (A0 : (0 <= rfloor X)%Z) by (apply IZR_lt_le; lra).
  assert (B1 : (rceil Y <= n)%Z) by (apply IZR_lt_le; lra).
  rewrite (to_int_ok (rfloor X)) by (apply int_bound; [apply IZR_le in A0|]; lra).
  cbn [obind]. rewrite (to_int_ok (rceil Y)) by (apply int_bound; lra).
  cbn [obind]. exists (rfloor X), (rceil Y).
  split; [reflexivity|]. split; [exact A0|]. split; [exact B1|]. split.
  - intros i Hi [L H].
    assert (I0 : 0 <= IZR i) by (apply IZR_le; lia).
    assert (I1 : IZR i + 1 <= IZR n) by (rewrite <- plus_IZR; apply IZR_le; lia).
    assert (LX : X <= IZR i + / 2).
    { unfold Rmax in EX. destruct (Rle_dec lo plo); nra. }
    assert (HY : IZR i + / 2 <= Y).
    { unfold Rmin in EY. destruct (Rle_dec hi phi); nra. }
    split; apply IZR_lt_le; lra.
  - intros i [A B]. apply IZR_le in A, B. split.
    + pose proof (Rmax_l lo plo). nra.
    + pose proof (Rmin_l hi phi). nra.
Qed.

Lemma rtb_ok rb g n : geom_ok g n -> near rb g ->
  exists b, realbox_to_box rb g = Ret b /\
    (0 <= iv0 (blo b) /\ 0 <= iv1 (blo b) /\ 0 <= iv2 (blo b))%Z /\
    (iv0 (bhi b) <= iv0 n /\ iv1 (bhi b) <= iv1 n /\ iv2 (bhi b) <= iv2 n)%Z /\
    (forall c, in_box (domain n) c -> in_rbox rb (centre g c) -> in_box b c) /\
    (forall c, in_box b c ->
       (vx (rlo rb) < vx (gplo g) + (IZR (iv0 c) + 1) * vx (gdx g) /\
        vx (gplo g) + IZR (iv0 c) * vx (gdx g) < vx (rhi rb) + vx (gdx g)) /\
       (vy (rlo rb) < vy (gplo g) + (IZR (iv1 c) + 1) * vy (gdx g) /\
        vy (gplo g) + IZR (iv1 c) * vy (gdx g) < vy (rhi rb) + vy (gdx g)) /\
       (vz (rlo rb) < vz (gplo g) + (IZR (iv2 c) + 1) * vz (gdx g) /\
        vz (gplo g) + IZR (iv2 c) * vz (gdx g) < vz (rhi rb) + vz (gdx g))).
Proof.
  intros (G0 & G1 & G2) (N0 & N1 & N2). unfold realbox_to_box.
  destruct (rb_dim_ok _ _ _ _ _ _ _ G0 N0) as (a0 & b0 & -> & A0 & B0 & C0 & D0). cbn [obind].
  destruct (rb_dim_ok _ _ _ _ _ _ _ G1 N1) as (a1 & b1 & -> & A1 & B1 & C1 & D1). cbn [obind].
  destruct (rb_dim_ok _ _ _ _ _ _ _ G2 N2) as (a2 & b2 & -> & A2 & B2 & C2 & D2). cbn [obind].
  eexists. split; [reflexivity|]. cbn. split; [tauto|]. split; [tauto|]. split.
  - intros c (I0 & I1 & I2) (J0 & J1 & J2). unfold in_box; cbn in *.
    split; [|split]; [apply C0|apply C1|apply C2]; try assumption; lia.
  - intros c (I0 & I1 & I2); cbn in *. split; [|split]; [apply D0|apply D1|apply D2]; assumption.
Qed.

Lemma cb_box_rtb g n rb : geom_ok g n -> cb_box g rb = realbox_to_box rb g.
Proof.
  intros (G0 & G1 & G2). unfold cb_box, realbox_to_box.
  rewrite !(cb_rb _ _ _ _ _ _ (Rgt_not_eq _ _ (proj1 G0)) (proj1 (proj2 G0))).
  rewrite !(cb_rb _ _ _ _ _ _ (Rgt_not_eq _ _ (proj1 G1)) (proj1 (proj2 G1))).
  rewrite !(cb_rb _ _ _ _ _ _ (Rgt_not_eq _ _ (proj1 G2)) (proj1 (proj2 G2))).
  reflexivity.
Qed.

(** *** Shapes *)

Definition pcoef (o x y z p : vec) : R * R * R :=
  let d := vsub p o in
  (triple d y z / triple x y z, triple x d z / triple x y z, triple x y d / triple x y z).

(** The six tests are bounds on three signed volumes. *)
Lemma hex_inside_iff o x y z p :
  hex_inside (hex_corners o x y z) (face_normals (hex_corners o x y z)) p = true <->
  let d := vsub p o in
  0 <= triple d y z <= triple x y z /\
  0 <= triple x d z <= triple x y z /\
  0 <= triple x y d <= triple x y z.
Proof.
  unfold hex_inside. cbn [forallb seq nth face_origin hex_corners face_normals face_map map].
  rewrite !andb_true_iff, !negb_true_iff, !Rltb_false.
  destruct o as [o0 o1 o2], x as [x0 x1 x2], y as [y0 y1 y2], z as [z0 z1 z2], p as [p0 p1 p2].
  unfold triple, vdot, vcross, vsub, vadd; cbn.
  split.
  - intros (H1 & H2 & H3 & H4 & H5 & H6 & _).
    split; [split|split; split]; nra.
  - intros ((A1 & A2) & (B1 & B2) & (C1 & C2)).
    split; [|split; [|split; [|split; [|split; [|split]]]]]; try reflexivity; nra.
Qed.

Lemma hex_inside_region o x y z p : 0 < triple x y z ->
  hex_inside (hex_corners o x y z) (face_normals (hex_corners o x y z)) p = true <->
  in_parallelepiped o x y z p.
Proof.
  intros D. rewrite hex_inside_iff. cbn zeta. split.
  - intros (A & B & C).
    set (d := vsub p o) in *.
    exists (triple d y z / triple x y z), (triple x d z / triple x y z), (triple x y d / triple x y z).
    assert (Q : forall w, 0 <= w <= triple x y z -> 0 <= w / triple x y z <= 1).
    { intros w W. split; [apply Rmult_le_pos; [lra|left; apply Rinv_0_lt_compat, D]|].
      apply Rmult_le_reg_r with (triple x y z); [exact D|]. unfold Rdiv.
      rewrite Rmult_assoc, Rinv_l by lra. lra. }
    split; [apply Q, A|]. split; [apply Q, B|]. split; [apply Q, C|].
    assert (E : forall f, (f = vx \/ f = vy \/ f = vz) ->
       triple x y z * f d = triple d y z * f x + triple x d z * f y + triple x y d * f z).
    { intros f [->|[->| ->]]; unfold triple; ring. }
    assert (E' : forall f, (f = vx \/ f = vy \/ f = vz) -> f p = f o + f d).
    { intros f [->|[->| ->]]; unfold d, vsub; cbn; ring. }
    assert (F : forall f, (f = vx \/ f = vy \/ f = vz) ->
       f p = f o + triple d y z / triple x y z * f x + triple x d z / triple x y z * f y
             + triple x y d / triple x y z * f z).
    { intros f Hf. rewrite (E' f Hf).
      assert (f d = (triple d y z * f x + triple x d z * f y + triple x y d * f z) / triple x y z) as ->.
      { rewrite <- (E f Hf). field. lra. }
      field. lra. }
    split; [apply F; auto|]. split; apply F; auto.
  - intros (s & t & u & S & T & U & X & Y & Z).
    assert (d : vsub p o = V3 (s * vx x + t * vx y + u * vx z) (s * vy x + t * vy y + u * vy z)
                              (s * vz x + t * vz y + u * vz z)).
    { unfold vsub. apply vec_eq; lra. }
    rewrite d.
    assert (D1 : triple (V3 (s * vx x + t * vx y + u * vx z) (s * vy x + t * vy y + u * vy z)
                              (s * vz x + t * vz y + u * vz z)) y z = s * triple x y z)
      by (unfold triple; cbn; ring).
    assert (D2 : triple x (V3 (s * vx x + t * vx y + u * vx z) (s * vy x + t * vy y + u * vy z)
                              (s * vz x + t * vz y + u * vz z)) z = t * triple x y z)
      by (unfold triple; cbn; ring).
    assert (D3 : triple x y (V3 (s * vx x + t * vx y + u * vx z) (s * vy x + t * vy y + u * vy z)
                              (s * vz x + t * vz y + u * vz z)) = u * triple x y z)
      by (unfold triple; cbn; ring).
    rewrite D1, D2, D3. split; [|split]; nra.
Qed.

Lemma hex_left_handed o x y z p : triple x y z < 0 ->
  hex_inside (hex_corners o x y z) (face_normals (hex_corners o x y z)) p = false.
Proof.
  intros D. destruct (hex_inside _ _ p) eqn:E; [|reflexivity].
  apply hex_inside_iff in E. cbn zeta in E. destruct E as ((A & B) & _). lra.
Qed.

Lemma min_c_le l : forall h, In h l -> min_c l <= h.
Proof.
  unfold min_c. generalize dbl_max.
  assert (G : forall l m, fold_left (fun m h => if Rltb h m then h else m) l m <= m).
  { clear. induction l as [|a l IH]; intros m; cbn; [lra|].
    destruct (Rltb a m) eqn:E; [apply Rltb_spec in E|].
    - eapply Rle_trans; [apply IH|left; exact E].
    - apply IH. }
  induction l as [|a l IH]; intros m h; cbn; [tauto|].
  intros [->|H].
  - destruct (Rltb h m) eqn:E; [apply G|]. apply Rltb_false in E.
    eapply Rle_trans; [apply G|exact E].
  - apply IH, H.
Qed.

Lemma max_c_ge l : forall h, In h l -> h <= max_c l.
Proof.
  unfold max_c. generalize dbl_min.
  assert (G : forall l m, m <= fold_left (fun m h => if Rltb m h then h else m) l m).
  { clear. induction l as [|a l IH]; intros m; cbn; [lra|].
    destruct (Rltb m a) eqn:E; [apply Rltb_spec in E|].
    - eapply Rle_trans; [left; exact E|apply IH].
    - apply IH. }
  induction l as [|a l IH]; intros m h; cbn; [tauto|].
  intros [->|H].
  - destruct (Rltb m h) eqn:E; [apply G|]. apply Rltb_false in E.
    eapply Rle_trans; [exact E|apply G].
  - apply IH, H.
Qed.

Lemma convex1 s a : 0 <= s <= 1 -> Rmin 0 a <= s * a <= Rmax 0 a.
Proof. intros S. unfold Rmin, Rmax. destruct (Rle_dec 0 a); nra. Qed.

Lemma corner_bounds o x y z L U v s t u :
  (forall h, In h [o; o + x; o + x + y; o + y; o + z; o + z + x; o + z + x + y; o + z + y] -> L <= h <= U) ->
  0 <= s <= 1 -> 0 <= t <= 1 -> 0 <= u <= 1 ->
  v = o + s * x + t * y + u * z -> L <= v <= U.
Proof.
  intros H S T W ->.
  pose proof (convex1 s x S) as X. pose proof (convex1 t y T) as Y. pose proof (convex1 u z W) as Z.
  assert (H0 : L <= o <= U) by (apply H; cbn; tauto).
  assert (H1 : L <= o + x <= U) by (apply H; cbn; tauto).
  assert (H2 : L <= o + x + y <= U) by (apply H; cbn; tauto).
  assert (H3 : L <= o + y <= U) by (apply H; cbn; tauto).
  assert (H4 : L <= o + z <= U) by (apply H; cbn; tauto).
  assert (H5 : L <= o + z + x <= U) by (apply H; cbn; tauto).
  assert (H6 : L <= o + z + x + y <= U) by (apply H; cbn; tauto).
  assert (H7 : L <= o + z + y <= U) by (apply H; cbn; tauto).
  unfold Rmin, Rmax in *.
  destruct (Rle_dec 0 x), (Rle_dec 0 y), (Rle_dec 0 z); lra.
Qed.

Lemma hex_bound o x y z p : in_parallelepiped o x y z p ->
  in_rbox (hex_bound_box (hex_corners o x y z)) p.
Proof.
  intros (s & t & u & S & T & U & X & Y & Z).
  assert (G : forall f, (forall v w, f (vadd v w) = f v + f w) ->
     f p = f o + s * f x + t * f y + u * f z ->
     min_c (map f (hex_corners o x y z)) <= f p <= max_c (map f (hex_corners o x y z))).
  { intros f Hf Hp. apply (corner_bounds (f o) (f x) (f y) (f z) _ _ _ s t u); try assumption.
    intros h Hh.
    assert (In h (map f (hex_corners o x y z))).
    { unfold hex_corners. cbn [map]. rewrite !Hf. exact Hh. }
    split; [apply min_c_le|apply max_c_ge]; assumption. }
  assert (G0 := G vx (fun v w => eq_refl) X). assert (G1 := G vy (fun v w => eq_refl) Y).
  assert (G2 := G vz (fun v w => eq_refl) Z).
  unfold hex_bound_box, in_rbox; cbn [rlo rhi vx vy vz].
  split; [|split]; lra.
Qed.

(** *** Cylinder *)

Lemma vec_ne_sub st en : st <> en ->
  V3 (vx en - vx st) (vy en - vy st) (vz en - vz st) <> V3 0 0 0.
Proof.
  intros H E. apply H. injection E. intros. destruct st, en; cbn in *. apply vec_eq; lra.
Qed.

Lemma len_le d r : 0 <= r -> (len d <= r <-> inner d d <= r * r).
Proof.
  intros R. pose proof (len_sqr d). assert (0 <= len d) by apply sqrt_pos. split; intros; nra.
Qed.
Lemma len_ge d r : 0 <= r -> (r <= len d <-> r * r <= inner d d).
Proof.
  intros R. pose proof (len_sqr d). assert (0 <= len d) by apply sqrt_pos. split; intros; nra.
Qed.

Lemma cyl_inside_region st en outer innr p : st <> en -> 0 <= innr -> 0 <= outer ->
  cyl_inside st en outer innr p = true <-> in_cylinder st en outer innr p.
Proof.
  intros N I O. pose proof (inner_nonzero _ (vec_ne_sub st en N)) as M.
  unfold cyl_inside, in_cylinder.
  change (vmag_sqr (vsub en st)) with (inner (vsub en st) (vsub en st)).
  change (vdot (vsub p st)) with (inner (vsub p st)).
  change (V3 (vx en - vx st) (vy en - vy st) (vz en - vz st)) with (vsub en st) in *.
  set (A := vsub en st) in *. set (q := vsub p st).
  set (m := inner A A) in *. set (da := inner q A).
  assert (E : forall s, inner (V3 (vx p - (vx st + s * vx A)) (vy p - (vy st + s * vy A)) (vz p - (vz st + s * vz A))) A
                        = da - s * m).
  { intros s. unfold da, m, q, A, inner, vsub; cbn. ring. }
  assert (E2 : forall s, let d := V3 (vx p - (vx st + s * vx A)) (vy p - (vy st + s * vy A)) (vz p - (vz st + s * vz A)) in
               inner d d = inner q q - 2 * s * da + s * s * m).
  { intros s. unfold da, m, q, A, inner, vsub; cbn. ring. }
  split.
  - destruct (Rleb 0 da && Rleb da m) eqn:C; [|discriminate].
    apply andb_true_iff in C. destruct C as [C1 C2]. apply Rleb_spec in C1, C2.
    intros H. apply andb_true_iff in H. destruct H as [H1 H2]. apply Rleb_spec in H1, H2.
    exists (da / m). split.
    { split; [apply Rmult_le_pos; [lra|left; apply Rinv_0_lt_compat, M]|].
      apply Rmult_le_reg_r with m; [exact M|]. unfold Rdiv. rewrite Rmult_assoc, Rinv_l by lra. lra. }
    cbn zeta. split; [rewrite E; field; lra|].
    assert (V : inner q q - 2 * (da / m) * da + da / m * (da / m) * m = inner q q - da * da / m) by (field; lra).
    split; [apply len_ge|apply len_le]; try assumption; rewrite E2, V; assumption.
  - intros (s & S & H). cbn zeta in H. destruct H as [F [H1 H2]]. rewrite E in F.
    assert (D : da = s * m) by lra.
    rewrite len_ge in H1 by assumption. rewrite len_le in H2 by assumption. rewrite E2 in H1, H2.
    assert (V : inner q q - da * da / m = inner q q - 2 * s * da + s * s * m).
    { rewrite D. field. lra. }
    rewrite (proj2 (Rleb_spec 0 da)) by nra. rewrite (proj2 (Rleb_spec da m)) by nra. cbn [andb].
    rewrite V. apply andb_true_iff. split; apply Rleb_spec; assumption.
Qed.

(** Distance from the axis along one coordinate direction. *)
Lemma proj_bound (a m r e : R) : 0 < m -> 0 <= r -> 0 <= m - a * a ->
  e * e * m <= r * r * (m - a * a) ->
  - (sqrt (1 - a * a / m) * r) <= e <= sqrt (1 - a * a / m) * r.
Proof.
  intros M Rp P H.
  assert (Q : 0 <= 1 - a * a / m).
  { replace (1 - a * a / m) with ((m - a * a) * / m) by (field; lra).
    apply Rmult_le_pos; [exact P|left; apply Rinv_0_lt_compat, M]. }
  pose proof (sqrt_pos (1 - a * a / m)) as S. pose proof (sqrt_sqrt _ Q) as SS.
  set (k := sqrt (1 - a * a / m)) in *.
  assert (K : e * e <= (k * r) * (k * r)).
  { replace (k * r * (k * r)) with (k * k * (r * r)) by ring. rewrite SS.
    apply Rmult_le_reg_r with m; [exact M|].
    replace ((1 - a * a / m) * (r * r) * m) with (r * r * (m - a * a)) by (field; lra). exact H. }
  assert (0 <= k * r) by (apply Rmult_le_pos; assumption).
  split; nra.
Qed.

Lemma perp_component a b c d e f r : a * d + b * e + c * f = 0 ->
  d * d + e * e + f * f <= r * r -> 0 < a * a + b * b + c * c ->
  d * d * (a * a + b * b + c * c) <= r * r * (a * a + b * b + c * c - a * a).
Proof.
  intros P D M.
  assert (H : (a * d) * (a * d) <= (b * b + c * c) * (e * e + f * f)).
  { replace (a * d) with (- (b * e + c * f)) by lra.
    pose proof (Rle_0_sqr (b * f - c * e)). unfold Rsqr in *. nra. }
  assert (0 <= b * b + c * c) by nra.
  assert ((d * d + e * e + f * f) * (b * b + c * c) <= r * r * (b * b + c * c)) by (apply Rmult_le_compat_r; assumption).
  nra.
Qed.

Lemma between s a b : 0 <= s <= 1 -> Rmin a b <= a + s * (b - a) <= Rmax a b.
Proof. intros S. unfold Rmin, Rmax. destruct (Rle_dec a b); nra. Qed.

Lemma cyl_bound_dim s a b p e k : 0 <= s <= 1 -> p - (a + s * (b - a)) = e ->
  0 <= k -> - k <= e <= k ->
  rmin (a - k * (1 + 0.05)) (b - k * (1 + 0.05)) <= p <= rmax (a + k * (1 + 0.05)) (b + k * (1 + 0.05)).
Proof.
  intros S E K B. rewrite rmin_spec, rmax_spec. pose proof (between s a b S) as Z.
  unfold Rmin, Rmax in *.
  destruct (Rle_dec (a - k * (1 + 0.05)) (b - k * (1 + 0.05))),
           (Rle_dec (a + k * (1 + 0.05)) (b + k * (1 + 0.05))), (Rle_dec a b); lra.
Qed.

Lemma cyl_bound st en outer innr p : st <> en -> 0 <= outer ->
  in_cylinder st en outer innr p -> in_rbox (cyl_bound_box st en outer) p.
Proof.
  intros N O (s & S & H). cbn zeta in H. destruct H as [F [_ L]].
  apply len_le in L; [|exact O].
  pose proof (inner_nonzero _ (vec_ne_sub st en N)) as M.
  unfold inner in F, L, M. cbn in F, L, M.
  set (a := vx en - vx st) in *. set (b := vy en - vy st) in *. set (c := vz en - vz st) in *.
  set (d := vx p - (vx st + s * a)) in *. set (e := vy p - (vy st + s * b)) in *.
  set (f := vz p - (vz st + s * c)) in *.
  assert (P0 := perp_component a b c d e f outer ltac:(lra) ltac:(lra) M).
  assert (P1 := perp_component b a c e d f outer ltac:(lra) ltac:(lra) ltac:(lra)).
  assert (P2 := perp_component c a b f d e outer ltac:(lra) ltac:(lra) ltac:(lra)).
  set (m := a * a + b * b + c * c) in *.
  replace (b * b + a * a + c * c) with m in P1 by (unfold m; ring).
  replace (c * c + a * a + b * b) with m in P2 by (unfold m; ring).
  assert (Q0 := proj_bound a m outer d M O ltac:(unfold m; nra) P0).
  assert (Q1 := proj_bound b m outer e M O ltac:(unfold m; nra) P1).
  assert (Q2 := proj_bound c m outer f M O ltac:(unfold m; nra) P2).
  unfold cyl_bound_box, in_rbox.
  unfold vsub, vadd, vscale, vsqrt, vdivs, vmul, vmag_sqr, vone.
  cbn [rlo rhi vx vy vz]. fold a b c. fold m.
  split; [|split].
  - apply (cyl_bound_dim s (vx st) (vx en) (vx p) d _ S eq_refl); [apply Rmult_le_pos; [apply sqrt_pos|exact O]|exact Q0].
  - apply (cyl_bound_dim s (vy st) (vy en) (vy p) e _ S eq_refl); [apply Rmult_le_pos; [apply sqrt_pos|exact O]|exact Q1].
  - apply (cyl_bound_dim s (vz st) (vz en) (vz p) f _ S eq_refl); [apply Rmult_le_pos; [apply sqrt_pos|exact O]|exact Q2].
Qed.

(** *** The whole pass *)

Lemma shape_region s p : shape_ok s -> geometric s -> (shape_test s p = true <-> in_shape s p).
Proof.
  destruct s as [o x y z|st en outer innr|f bb]; cbn.
  - intros H _. apply hex_inside_region, H.
  - intros (A & B & C) _. apply cyl_inside_region; assumption.
  - tauto.
Qed.

Lemma shape_bounded s p : shape_ok s -> in_shape s p -> in_rbox (bound_box s) p.
Proof.
  destruct s as [o x y z|st en outer innr|f bb]; cbn.
  - intros _. apply hex_bound.
  - intros (A & B & C). apply cyl_bound; assumption.
  - tauto.
Qed.

Lemma shape_inside_test s p : shape_ok s -> in_shape s p -> shape_test s p = true.
Proof.
  intros K H. destruct s as [o x y z|st en outer innr|f bb].
  - apply shape_region; [exact K|exact Logic.I|exact H].
  - apply shape_region; [exact K|exact Logic.I|exact H].
  - apply (proj1 H).
Qed.

Lemma box_and_in a b c : in_box (box_and a b) c <-> in_box a c /\ in_box b c.
Proof. unfold in_box, box_and; cbn. lia. Qed.

Lemma box_empty_in b c : in_box b c -> box_empty b = false.
Proof.
  unfold in_box, box_empty. intros. rewrite !orb_false_iff, !Z.ltb_ge. lia.
Qed.

(** One tile: existing tags stay; a cell of the tile inside a shape is tagged;
    a newly tagged cell is a cell of the tile passing some shape's test. *)
Lemma tag_tile_ok n g bx shapes : geom_ok g n ->
  (forall s, In s shapes -> near (bound_box s) g) ->
  (forall c, in_box bx c -> in_box (domain n) c) ->
  (forall s, In s shapes -> shape_ok s) ->
  forall t, exists t', tag_tile shapes bx g t = Ret t' /\
    (forall c, t c = true -> t' c = true) /\
    (forall c s, in_box bx c -> In s shapes -> in_shape s (centre g c) -> t' c = true) /\
    (forall c, t' c = true -> t c = true \/
        (in_box bx c /\ exists s, In s shapes /\ shape_test s (centre g c) = true)).
Proof.
  intros G. induction shapes as [|s rest IH]; intros Nr D K t.
  - exists t. cbn. split; [reflexivity|]. split; [tauto|]. split; [tauto|]. tauto.
  - cbn [tag_tile].
    destruct (rtb_ok _ g n G (Nr s (or_introl eq_refl))) as (b & -> & _ & _ & C & _). cbn [obind].
    assert (IH' := IH (fun s Hs => Nr s (or_intror Hs)) D (fun s Hs => K s (or_intror Hs))).
    clear IH.
    set (t1 := if box_empty (box_and bx b) then t else tag_shape s bx g t).
    destruct (IH' t1) as (t' & E & M & P & Q).
    exists t'. split.
    { unfold t1 in E. destruct (box_empty (box_and bx b)); exact E. }
    assert (M1 : forall c, t c = true -> t1 c = true).
    { intros c H. unfold t1. destruct (box_empty _); [exact H|]. unfold tag_shape.
      destruct (_ && _); [reflexivity|exact H]. }
    split; [intros c H; apply M, M1, H|]. split.
    + intros c s' B [<-|Hs] S.
      * apply M. unfold t1.
        assert (B2 : in_box b c).
        { apply C; [apply D, B|]. apply shape_bounded; [apply K; left; reflexivity|exact S]. }
        rewrite (box_empty_in (box_and bx b) c) by (apply box_and_in; split; assumption).
        unfold tag_shape. rewrite cell_point_centre.
        rewrite (proj2 (in_boxb_spec bx c) B), (shape_inside_test s _ (K s (or_introl eq_refl)) S).
        reflexivity.
      * apply (P c s'); assumption.
    + intros c H. destruct (Q c H) as [H1|(B & s' & Hs & T)].
      * unfold t1 in H1. destruct (box_empty _); [left; exact H1|].
        unfold tag_shape in H1. destruct (in_boxb bx c) eqn:B; cbn [andb] in H1; [|left; exact H1].
        destruct (shape_test s (cell_point g c)) eqn:T; [|left; exact H1].
        right. split; [apply in_boxb_spec, B|]. exists s. split; [left; reflexivity|].
        rewrite <- cell_point_centre. exact T.
      * right. split; [exact B|]. exists s'. split; [right; exact Hs|exact T].
Qed.

Lemma tag_tiles_ok n g shapes tiles : geom_ok g n ->
  (forall s, In s shapes -> near (bound_box s) g) ->
  (forall bx c, In bx tiles -> in_box bx c -> in_box (domain n) c) ->
  (forall s, In s shapes -> shape_ok s) ->
  forall t, exists t', tag_tiles shapes tiles g t = Ret t' /\
    (forall c, t c = true -> t' c = true) /\
    (forall c s bx, In bx tiles -> in_box bx c -> In s shapes -> in_shape s (centre g c) -> t' c = true) /\
    (forall c, t' c = true -> t c = true \/
        exists bx s, In bx tiles /\ in_box bx c /\ In s shapes /\ shape_test s (centre g c) = true).
Proof.
  intros G Nr D K. induction tiles as [|bx rest IH]; intros t.
  - exists t. cbn. split; [reflexivity|]. split; [tauto|]. split; [tauto|]. tauto.
  - cbn [tag_tiles].
    destruct (tag_tile_ok n g bx shapes G Nr (fun c => D bx c (or_introl eq_refl)) K t)
      as (t1 & -> & M1 & P1 & Q1). cbn [obind].
    destruct (IH (fun b c Hb => D b c (or_intror Hb)) t1) as (t' & E & M & P & Q).
    exists t'. split; [exact E|]. split; [intros c H; apply M, M1, H|]. split.
    + intros c s b [<-|Hb] B Hs S.
      * apply M. apply (P1 c s); assumption.
      * apply (P c s b); assumption.
    + intros c H. destruct (Q c H) as [H1|(b & s & Hb & B & Hs & T)].
      * destruct (Q1 c H1) as [H2|(B & s & Hs & T)]; [left; exact H2|].
        right. exists bx, s. split; [left; reflexivity|]. tauto.
      * right. exists b, s. split; [right; exact Hb|]. tauto.
Qed.

Lemma gr_selected cf shapes level tiles g t : selected cf level ->
  geometry_refinement cf shapes level tiles g t = tag_tiles shapes tiles g t.
Proof.
  intros [S L]. unfold geometry_refinement.
  replace ((-1 <? set_level cf) && negb (level =? set_level cf))%Z with false.
  - replace ((level <? min_level cf) || (max_level cf <? level))%Z with false; [reflexivity|].
    symmetry. rewrite orb_false_iff, !Z.ltb_ge. lia.
  - symmetry. rewrite andb_false_iff, Z.ltb_ge, negb_false_iff, Z.eqb_eq. lia.
Qed.

Lemma gr_unselected cf shapes level tiles g t : ~ selected cf level ->
  geometry_refinement cf shapes level tiles g t = Ret t.
Proof.
  intros S. unfold selected in S. unfold geometry_refinement.
  destruct ((-1 <? set_level cf) && negb (level =? set_level cf))%Z eqn:A; [reflexivity|].
  destruct ((level <? min_level cf) || (max_level cf <? level))%Z eqn:B; [reflexivity|].
  exfalso. apply S. rewrite andb_false_iff, Z.ltb_ge, negb_false_iff, Z.eqb_eq in A.
  rewrite orb_false_iff, !Z.ltb_ge in B. lia.
Qed.

(** *** Static refinement *)

Lemma omap_ok {A B} (f : A -> outcome B) l : (forall a, In a l -> exists b, f a = Ret b) ->
  exists bs, omap f l = Ret bs /\ length bs = length l /\
    forall i a b, nth_error l i = Some a -> nth_error bs i = Some b -> f a = Ret b.
Proof.
  induction l as [|a l IH]; intros H.
  - exists []. split; [reflexivity|]. split; [reflexivity|]. intros [|i]; discriminate.
  - destruct (H a (or_introl eq_refl)) as [b Hb].
    destruct (IH (fun x Hx => H x (or_intror Hx))) as (bs & E & L & P).
    exists (b :: bs). cbn. rewrite Hb; cbn. rewrite E; cbn. split; [reflexivity|].
    split; [congruence|]. intros [|i] a' b'; cbn; [congruence|]. apply P.
Qed.
