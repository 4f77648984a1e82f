(** C73: the box of an actuator disk and the tiles of the grid. *)
From Verif Require Import BoxR BoxRFacts VecSpace VecSpaceSpec VecSpaceProofs Tagging TaggingSpec TaggingProofs
  DiskActuator DiskSpec DiskProofs DiskProofs2 PropDisk.
Open Scope R_scope.

Lemma cell_centre g c : cell_point g c = centre g c.
Proof. unfold cell_point, centre. apply vec_eq; lra. Qed.

(** What a tile receives.  Whatever the kernel, a cell whose centre lies in the
    box receives exactly the kernel's value, whichever tile it is in; a cell
    outside the box receives the kernel's value or nothing; cells of other tiles
    are not touched. *)
Theorem c73_tiles : forall rb g n tile src, geom_ok g n -> near rb g ->
  exists f, spread_tile rb g tile src = Ret f /\
    (forall c, in_box (domain n) c -> in_box tile c -> in_rbox rb (centre g c) -> f c = src (centre g c)) /\
    (forall c, in_box tile c -> f c = src (centre g c) \/ f c = vzero) /\
    (forall c, ~ in_box tile c -> f c = vzero).
Proof.
  intros rb g n tile src G N. destruct (rtb_ok rb g n G N) as (b & E & _ & _ & C & _).
  unfold spread_tile. rewrite E. cbn [obind]. cbv zeta.
  destruct (box_empty (box_and tile b)) eqn:Em.
  - eexists. split; [reflexivity|]. split; [|split; [right; reflexivity|reflexivity]].
    intros c D T I. exfalso. rewrite (box_empty_in (box_and tile b) c) in Em; [discriminate|].
    apply box_and_in. split; [exact T|apply C; assumption].
  - eexists. split; [reflexivity|]. rewrite <- 1?cell_centre. split; [|split].
    + intros c D T I. rewrite (proj2 (in_boxb_spec tile c) T), cell_centre. reflexivity.
    + intros c T. left. rewrite (proj2 (in_boxb_spec tile c) T), cell_centre. reflexivity.
    + intros c T. destruct (in_boxb tile c) eqn:B; [exfalso; apply T, in_boxb_spec, B|reflexivity].
Qed.
Print Assumptions c73_tiles.

(** The corners of the box. *)
Lemma box_extent d p : built d -> vz (d_normal d) = 0 ->
  let n := d_normal d in
  let nl := d_eps d * 3 in
  let dl := d_diam d / 2 + d_dr d * 2 in
  in_rbox (disk_bounding_box d) p <->
    Rabs (vx p - vx (d_center d)) <= Rabs (vx n * nl - vy n * dl) /\
    Rabs (vy p - vy (d_center d)) <= Rabs (vy n * nl + vx n * dl) /\
    Rabs (vz p - vz (d_center d)) <= Rabs dl.
Proof.
  intros B Z n nl dl. unfold disk_bounding_box, in_rbox. cbn zeta. cbn [rlo rhi vx vy vz].
  rewrite (b_coplanar d B).
  assert (U : vx n * vx n + vy n * vy n = 1).
  { pose proof (b_normal d B) as U. unfold is_unit, inner in U. rewrite Z in U. unfold n. lra. }
  assert (C : coplanar_vector (d_normal d) = V3 (- vy n) (vx n) 0).
  { unfold coplanar_vector. fold n.
    replace (vcross (khat 1) n) with (V3 (- vy n) (vx n) 0) by (unfold vcross; cbn; apply vec_eq; ring).
    apply vnormalize_unit. unfold is_unit, inner; cbn. lra. }
  rewrite C. replace (d_diam d * 0.5 + d_dr d * 2) with dl by (unfold dl; lra).
  fold n nl. cbn [vadd vsub vscale khat vx vy vz]. rewrite !rmin_spec, !rmax_spec. fold n in Z. rewrite Z.
  assert (Ab : forall x c h, (Rmin (c - h) (c + h) <= x <= Rmax (c - h) (c + h)) <-> Rabs (x - c) <= Rabs h).
  { intros x c h. unfold Rmin, Rmax, Rabs.
    repeat (destruct (Rle_dec _ _) || destruct (Rcase_abs _)); split; intros; lra. }
  rewrite !Ab.
  replace (vx n * nl + - vy n * dl + 0 * dl) with (vx n * nl - vy n * dl) by ring.
  replace (vy n * nl + vx n * dl + 0 * dl) with (vy n * nl + vx n * dl) by ring.
  replace (0 * nl + 0 * dl + 1 * dl) with dl by ring. tauto.
Qed.

Lemma abs_le_len a b : Rabs a <= sqrt (a * a + b * b).
Proof.
  rewrite <- sqrt_Rsqr_abs. apply sqrt_le_1_alt. unfold Rsqr. pose proof (Rle_0_sqr b). unfold Rsqr in *. lra.
Qed.

(** For a disk facing along x or y the box holds everything within three
    widths of the disk plane and two rings outside the rim. *)
Theorem c73_box_aligned : forall mk c n s eps diam up nr nt d p, known_maker mk ->
  mk c n s eps diam up nr nt = Ret d -> (0 < nr)%nat -> 0 < diam -> 0 < eps ->
  vz (d_normal d) = 0 -> vx (d_normal d) = 0 \/ vy (d_normal d) = 0 ->
  Rabs (along c (d_normal d) p) <= 3 * eps ->
  axis_dist c (d_normal d) p <= diam / 2 + 2 * (diam / 2 / INR nr) ->
  in_rbox (disk_bounding_box d) p.
Proof.
  intros mk c n s eps diam up nr nt d p M H Hr P Pe Z XY A D.
  destruct (maker_facts mk _ _ _ _ _ _ _ _ _ M H) as (B & Ec & _ & _ & Ee & Ed & Edr & Er & _).
  apply (box_extent d p B Z). cbn zeta. rewrite Ec, Ee, Ed, Edr.
  pose proof (b_normal d B) as U. unfold is_unit, inner in U. rewrite Z in U.
  pose proof (lt_INR _ _ Hr) as Q. cbn in Q.
  assert (Pdr : 0 < diam / 2 / INR nr) by (apply Rdiv_lt_0_compat; lra).
  set (dl := diam / 2 + diam / 2 / INR nr * 2).
  assert (Pl : 0 < dl) by (unfold dl; lra).
  replace (diam / 2 + 2 * (diam / 2 / INR nr)) with dl in D by (unfold dl; lra).
  unfold axis_dist, len, inner, off_axis, along in *. cbn [vx vy vz] in D. rewrite Z in *.
  set (nx := vx (d_normal d)) in *. set (ny := vy (d_normal d)) in *.
  set (x := vx p - vx c) in *. set (y := vy p - vy c) in *. set (z := vz p - vz c) in *.
  destruct XY as [X0|Y0].
  - rewrite X0 in *.
    assert (N : ny = 1 \/ ny = -1) by (assert ((ny - 1) * (ny + 1) = 0) by lra; destruct (Rmult_integral _ _ H0); lra).
    assert (D' : sqrt (x * x + z * z) <= dl).
    { eapply Rle_trans; [|exact D]. right. f_equal. destruct N as [-> | ->]; ring. }
    pose proof (abs_le_len x z). pose proof (abs_le_len z x). rewrite (Rplus_comm (z * z)) in H1.
    rewrite (Rabs_pos_eq dl) by lra.
    destruct N as [-> | ->]; unfold Rabs in *; repeat destruct (Rcase_abs _); lra.
  - rewrite Y0 in *.
    assert (N : nx = 1 \/ nx = -1) by (assert ((nx - 1) * (nx + 1) = 0) by lra; destruct (Rmult_integral _ _ H0); lra).
    assert (D' : sqrt (y * y + z * z) <= dl).
    { eapply Rle_trans; [|exact D]. right. f_equal. destruct N as [-> | ->]; ring. }
    pose proof (abs_le_len y z). pose proof (abs_le_len z y). rewrite (Rplus_comm (z * z)) in H1.
    rewrite (Rabs_pos_eq dl) by lra.
    destruct N as [-> | ->]; unfold Rabs in *; repeat destruct (Rcase_abs _); lra.
Qed.
Print Assumptions c73_box_aligned.

(** So for such a disk the source that a tile receives differs from the kernel
    by at most exp(-9) of the largest value on the disk plane. *)
Theorem c73_aligned_error : forall c n s eps diam up nr nt d ct refv rho g m tile f cell,
  uniform_disk c n s eps diam up nr nt = Ret d -> (0 < nr)%nat -> 0 < diam -> 0 < eps ->
  vz (d_normal d) = 0 -> vx (d_normal d) = 0 \/ vy (d_normal d) = 0 ->
  geom_ok g m -> near (disk_bounding_box d) g -> in_box (domain m) cell -> in_box tile cell ->
  let N := d_normal d in
  let U := inner refv N in
  let src := linear_source d (map (uniform_pos d) (seq 0 nr)) (uniform_forces d ct refv rho) in
  spread_tile (disk_bounding_box d) g tile src = Ret f ->
  Rabs (inner (f cell) N - inner (src (centre g cell)) N)
    <= exp (-9) * (Rabs (1 / 2 * rho * U ^ 2 * ct (Rabs U)) / (sqrt PI * eps)).
Proof.
  intros c n s eps diam up nr nt d ct refv rho g m tile f cell H Hr P Pe Z XY G Nr Dm T N U src E.
  destruct (c73_tiles (disk_bounding_box d) g m tile src G Nr) as (f' & E' & I1 & I2 & _).
  rewrite E in E'. injection E' as <-.
  set (pr := 1 / 2 * rho * U ^ 2 * ct (Rabs U)).
  assert (SP : 0 < sqrt PI) by (apply sqrt_lt_R0, PI_RGT_0).
  assert (R0 : 0 <= exp (-9) * (Rabs pr / (sqrt PI * eps))).
  { apply Rmult_le_pos; [left; apply exp_pos|]. unfold Rdiv. apply Rmult_le_pos; [apply Rabs_pos|].
    left. apply Rinv_0_lt_compat. apply Rmult_lt_0_compat; assumption. }
  destruct (I2 cell T) as [-> | Ez]; [rewrite Rminus_eq_0, Rabs_R0; exact R0|].
  destruct (Rle_or_lt (Rabs (along c N (centre g cell))) (3 * eps)) as [A|A];
  destruct (Rle_or_lt (axis_dist c N (centre g cell)) (diam / 2 + 2 * (diam / 2 / INR nr))) as [D|D].
  - rewrite (I1 cell Dm T (c73_box_aligned uniform_disk c n s eps diam up nr nt d _ (or_introl eq_refl) H Hr P Pe Z XY A D)).
    rewrite Rminus_eq_0, Rabs_R0. exact R0.
  - assert (V : inner (src (centre g cell)) N = 0).
    { unfold src. rewrite (c71_spread c n s eps diam up nr nt d ct refv rho _ H Hr P), inner_vscale.
      pose proof (lt_INR _ _ Hr) as Q. cbn in Q.
      assert (Pdr : 0 < diam / 2 / INR nr) by (apply Rdiv_lt_0_compat; lra).
      assert (L : diam / 2 / INR nr <= diam / 2).
      { apply (Rmult_le_reg_r (INR nr)); [lra|]. unfold Rdiv. rewrite Rmult_assoc, Rinv_l by lra.
        assert (1 <= INR nr) by (apply (le_INR 1); lia). nra. }
      destruct (c71_profile (diam / 2) (diam / 2 / INR nr) (axis_dist c N (centre g cell)) Pdr L ltac:(apply sqrt_pos))
        as (_ & _ & K & _). fold N. rewrite K by lra. ring. }
    rewrite Ez, V. unfold inner; cbn.
    match goal with |- Rabs ?e <= _ => replace e with 0 by ring end. rewrite Rabs_R0. exact R0.
  - rewrite Ez. replace (inner vzero N) with 0 by (unfold inner; cbn; ring).
    rewrite Rminus_0_l, Rabs_Ropp. unfold src.
    rewrite (c71_spread c n s eps diam up nr nt d ct refv rho _ H Hr P), inner_vscale.
    fold N U. fold pr.
    pose proof (b_normal d (proj1 (maker_facts uniform_disk _ _ _ _ _ _ _ _ _ (or_introl eq_refl) H))) as Un.
    fold N in Un. unfold is_unit in Un. rewrite Un, Rmult_1_l.
    pose proof (lt_INR _ _ Hr) as Q. cbn in Q.
    assert (Pdr : 0 < diam / 2 / INR nr) by (apply Rdiv_lt_0_compat; lra).
    assert (L : diam / 2 / INR nr <= diam / 2).
    { apply (Rmult_le_reg_r (INR nr)); [lra|]. unfold Rdiv. rewrite Rmult_assoc, Rinv_l by lra.
      assert (1 <= INR nr) by (apply (le_INR 1); lia). nra. }
    destruct (c71_profile (diam / 2) (diam / 2 / INR nr) (axis_dist c N (centre g cell)) Pdr L ltac:(apply sqrt_pos))
        as (K & _).
    set (pf := pressure_profile _ _ _) in *.
    destruct (c71_gaussian (3 * eps) (along c N (centre g cell)) eps Pe) as (_ & G1 & _ & G3 & _).
    assert (A3 : Rabs (3 * eps) = 3 * eps) by (apply Rabs_pos_eq; lra). rewrite A3 in *.
    assert (G4 : 0 <= gaussian1d (along c N (centre g cell)) eps).
    { destruct (c71_gaussian (along c N (centre g cell)) 0 eps Pe) as (_ & K1 & K2 & _).
      destruct (Rlt_or_le (Rabs (along c N (centre g cell))) (16 * eps)) as [q|q].
      - left. apply K1, q.
      - right. symmetry. apply K2, q. }
    assert (G5 : gaussian1d (3 * eps) eps = exp (-9) / (sqrt PI * eps)).
    { unfold gaussian1d. cbn zeta. replace (3 * eps / eps) with 3 by (field; lra).
      rewrite (proj2 (Rleb_false _ _)) by (rewrite Rabs_pos_eq; lra).
      replace (- (3 * eps * (3 * eps)) / (eps * eps)) with (-9) by (field; lra). field. lra. }
    specialize (G3 ltac:(lra)). rewrite G5 in G3. set (ga := gaussian1d (along c N (centre g cell)) eps) in *.
    rewrite !Rabs_mult, (Rabs_pos_eq ga), (Rabs_pos_eq pf) by lra.
    assert (0 <= Rabs pr) by apply Rabs_pos.
    assert (X : Rabs pr * ga <= Rabs pr * (exp (-9) / (sqrt PI * eps))) by (apply Rmult_le_compat_l; lra).
    assert (Y : Rabs pr * ga * pf <= Rabs pr * ga * 1)
      by (apply Rmult_le_compat_l; [apply Rmult_le_pos; lra|lra]).
    unfold Rdiv in *. lra.
  - assert (V : inner (src (centre g cell)) N = 0).
    { unfold src. rewrite (c71_spread c n s eps diam up nr nt d ct refv rho _ H Hr P), inner_vscale.
      pose proof (lt_INR _ _ Hr) as Q. cbn in Q.
      assert (Pdr : 0 < diam / 2 / INR nr) by (apply Rdiv_lt_0_compat; lra).
      assert (L : diam / 2 / INR nr <= diam / 2).
      { apply (Rmult_le_reg_r (INR nr)); [lra|]. unfold Rdiv. rewrite Rmult_assoc, Rinv_l by lra.
        assert (1 <= INR nr) by (apply (le_INR 1); lia). nra. }
      destruct (c71_profile (diam / 2) (diam / 2 / INR nr) (axis_dist c N (centre g cell)) Pdr L ltac:(apply sqrt_pos))
        as (_ & _ & K & _). fold N. rewrite K by lra. ring. }
    rewrite Ez, V. unfold inner; cbn.
    match goal with |- Rabs ?e <= _ => replace e with 0 by ring end. rewrite Rabs_R0. exact R0.
Qed.
Print Assumptions c73_aligned_error.

(** Refuted: the box holds the neighbourhood of the disk.  For every upright disk
    that faces neither along x nor along y some point within three widths of the
    plane and two rings of the rim lies outside the box. *)
Theorem c73_box_yawed_refuted : forall mk c n s eps diam up nr nt d, known_maker mk ->
  mk c n s eps diam up nr nt = Ret d -> (0 < nr)%nat -> 0 < diam -> 0 < eps ->
  vz (d_normal d) = 0 -> vx (d_normal d) <> 0 -> vy (d_normal d) <> 0 ->
  exists p, Rabs (along c (d_normal d) p) <= 3 * eps /\
    axis_dist c (d_normal d) p <= diam / 2 + 2 * (diam / 2 / INR nr) /\
    ~ in_rbox (disk_bounding_box d) p.
Proof.
  intros mk c n s eps diam up nr nt d M H Hr P Pe Z X0 Y0.
  destruct (maker_facts mk _ _ _ _ _ _ _ _ _ M H) as (B & Ec & _ & _ & Ee & Ed & Edr & Er & _).
  pose proof (b_normal d B) as U. unfold is_unit, inner in U. rewrite Z in U.
  pose proof (lt_INR _ _ Hr) as Q. cbn in Q.
  assert (Pdr : 0 < diam / 2 / INR nr) by (apply Rdiv_lt_0_compat; lra).
  set (nx := vx (d_normal d)) in *. set (ny := vy (d_normal d)) in *.
  set (dl := diam / 2 + 2 * (diam / 2 / INR nr)).
  assert (Pl : 0 < dl) by (unfold dl; lra).
  assert (Un : nx * nx + ny * ny = 1) by lra.
  (* the point at the corner (s nl, t dl) of the slab *)
  assert (K : forall sg tg, (sg = 1 \/ sg = -1) -> (tg = 1 \/ tg = -1) ->
    let p := V3 (vx c + sg * (3 * eps) * nx - tg * dl * ny) (vy c + sg * (3 * eps) * ny + tg * dl * nx) (vz c) in
    Rabs (along c (d_normal d) p) <= 3 * eps /\ axis_dist c (d_normal d) p <= dl).
  { intros sg tg Hs Htg. cbn zeta.
    set (p := V3 _ _ _).
    assert (A : along c (d_normal d) p = sg * (3 * eps)).
    { unfold along, p. cbn [vx vy vz]. rewrite Z. fold nx ny.
      transitivity (sg * (3 * eps) * (nx * nx + ny * ny)); [ring|rewrite Un; ring]. }
    split.
    - rewrite A. destruct Hs as [-> | ->]; unfold Rabs; destruct (Rcase_abs _); lra.
    - unfold axis_dist, len, off_axis. rewrite A. unfold inner, p. cbn [vx vy vz]. rewrite Z. fold nx ny.
      match goal with |- sqrt ?e <= _ => replace e with (Rsqr dl) end.
      + rewrite sqrt_Rsqr by lra. lra.
      + unfold Rsqr. transitivity (tg * tg * (dl * dl) * (nx * nx + ny * ny));
          [rewrite Un; destruct Htg as [-> | ->]; ring|ring]. }
  assert (Ex : forall p, in_rbox (disk_bounding_box d) p ->
     Rabs (vx p - vx c) <= Rabs (nx * (eps * 3) - ny * dl) /\ Rabs (vy p - vy c) <= Rabs (ny * (eps * 3) + nx * dl)).
  { intros p I. apply (box_extent d p B Z) in I. cbn zeta in I. rewrite Ec, Ee, Ed, Edr in I.
    replace (diam / 2 + diam / 2 / INR nr * 2) with dl in I by (unfold dl; ring). tauto. }
  destruct (Rdichotomy _ _ X0) as [Xn|Xp]; destruct (Rdichotomy _ _ Y0) as [Yn|Yp].
  - (* same signs: the x extent is too small *)
    eexists. split; [|split]; [apply (K 1 (-1)); auto|apply (K 1 (-1)); auto|].
    intros I. apply Ex in I. destruct I as [I _]. cbn [vx] in I.
    assert (0 < - nx * eps) by (apply Rmult_lt_0_compat; lra).
    assert (0 < - ny * dl) by (apply Rmult_lt_0_compat; lra).
    unfold Rabs in I. repeat destruct (Rcase_abs _); lra.
  - eexists. split; [|split]; [apply (K 1 (-1)); auto|apply (K 1 (-1)); auto|].
    intros I. apply Ex in I. destruct I as [_ I]. cbn [vy] in I.
    assert (0 < - nx * dl) by (apply Rmult_lt_0_compat; lra).
    assert (0 < ny * eps) by (apply Rmult_lt_0_compat; lra).
    unfold Rabs in I. repeat destruct (Rcase_abs _); lra.
  - eexists. split; [|split]; [apply (K 1 (-1)); auto|apply (K 1 (-1)); auto|].
    intros I. apply Ex in I. destruct I as [_ I]. cbn [vy] in I.
    assert (0 < nx * dl) by (apply Rmult_lt_0_compat; lra).
    assert (0 < - ny * eps) by (apply Rmult_lt_0_compat; lra).
    unfold Rabs in I. repeat destruct (Rcase_abs _); lra.
  - eexists. split; [|split]; [apply (K 1 (-1)); auto|apply (K 1 (-1)); auto|].
    intros I. apply Ex in I. destruct I as [I _]. cbn [vx] in I.
    assert (0 < nx * eps) by (apply Rmult_lt_0_compat; lra).
    assert (0 < ny * dl) by (apply Rmult_lt_0_compat; lra).
    unfold Rabs in I. repeat destruct (Rcase_abs _); lra.
Qed.
Print Assumptions c73_box_yawed_refuted.

(** A disk of diameter 64 and width 10 at the origin of a 256^3 domain of unit
    cells, facing (4/5, 3/5, 0): its box has no extent in x. *)
Definition g256 : geom := Geom (V3 (-128) (-128) (-128)) (V3 128 128 128) (V3 1 1 1) (V3 1 1 1).

Lemma floor_int (z : Z) : rfloor (IZR z) = z.
Proof. apply rfloor_unique. lra. Qed.

Lemma yawed_case d : uniform_disk vzero (V3 (4 / 5) (3 / 5) 0) (V3 (4 / 5) (3 / 5) 0) 10 64 0 8 1 = Ret d ->
  d_normal d = V3 (4 / 5) (3 / 5) 0 /\
  realbox_to_box (disk_bounding_box d) g256 = Ret (Box (IV 128 78 88) (IV 128 178 168)).
Proof.
  intros H.
  destruct (maker_facts uniform_disk _ _ _ _ _ _ _ _ _ (or_introl eq_refl) H) as (B & Ec & En & _ & Ee & Ed & Edr & Er & _).
  assert (N1 : vnormalize (V3 (4 / 5) (3 / 5) 0) = V3 (4 / 5) (3 / 5) 0)
    by (apply vnormalize_unit; unfold is_unit, inner; cbn; field).
  rewrite N1 in En. split; [exact En|].
  assert (I8 : INR 8 = 8) by (cbn; lra). rewrite I8 in Edr.
  unfold disk_bounding_box. cbn zeta. rewrite (b_coplanar d B), Ec, En, Ee, Ed, Edr.
  assert (C : coplanar_vector (V3 (4 / 5) (3 / 5) 0) = V3 (- (3 / 5)) (4 / 5) 0).
  { unfold coplanar_vector.
    replace (vcross (khat 1) (V3 (4 / 5) (3 / 5) 0)) with (V3 (- (3 / 5)) (4 / 5) 0) by (unfold vcross; cbn; apply vec_eq; field).
    apply vnormalize_unit. unfold is_unit, inner; cbn. field. }
  rewrite C. cbn [vadd vsub vscale khat vzero vx vy vz]. rewrite !rmin_spec, !rmax_spec.
  match goal with |- realbox_to_box (RBox (V3 ?a ?b ?c) (V3 ?e ?f ?h)) _ = _ =>
    replace a with 0; [replace b with (-50); [replace c with (-40); [
    replace e with 0; [replace f with 50; [replace h with 40|]|]|]|]|] end;
    try (unfold Rmin, Rmax; destruct (Rle_dec _ _); lra).
  unfold realbox_to_box, rb_dim, g256; cbn [rlo rhi gplo gphi gdxi vx vy vz].
  rewrite !rmin_spec, !rmax_spec, !Rmax_left, !Rmin_left by lra.
  unfold rceil.
  replace ((0 - -128) * 1) with (IZR 128) by lra.
  replace ((-50 - -128) * 1) with (IZR 78) by lra.
  replace ((-40 - -128) * 1) with (IZR 88) by lra.
  replace (- IZR 128) with (IZR (-128)) by lra.
  replace (- ((50 - -128) * 1)) with (IZR (-178)) by lra.
  replace (- ((40 - -128) * 1)) with (IZR (-168)) by lra.
  rewrite !floor_int. reflexivity.
Qed.

(** Refuted: every cell on the disk receives the source.  In this tile no cell
    does, although cell (111, 150, 128) lies within the radius and 0.3 from the
    disk plane, where the kernel is positive for every wind and positive thrust. *)
Theorem c73_missing_source_refuted : exists d f,
  let tile := Box (IV 96 144 120) (IV 111 159 135) in
  let cell := IV 111 150 128 in
  uniform_disk vzero (V3 (4 / 5) (3 / 5) 0) (V3 (4 / 5) (3 / 5) 0) 10 64 0 8 1 = Ret d /\
  forall ct refv rho, 0 < rho -> inner refv (d_normal d) <> 0 -> 0 < ct (Rabs (inner refv (d_normal d))) ->
  let src := linear_source d (map (uniform_pos d) (seq 0 8)) (uniform_forces d ct refv rho) in
  spread_tile (disk_bounding_box d) g256 tile src = Ret f /\
  in_box tile cell /\ Rabs (along vzero (d_normal d) (centre g256 cell)) < 1 /\
  axis_dist vzero (d_normal d) (centre g256 cell) < 28 /\
  0 < inner (src (centre g256 cell)) (d_normal d) /\ (forall c, f c = vzero).
Proof.
  assert (E : exists d, uniform_disk vzero (V3 (4 / 5) (3 / 5) 0) (V3 (4 / 5) (3 / 5) 0) 10 64 0 8 1 = Ret d).
  { assert (N1 : vnormalize (V3 (4 / 5) (3 / 5) 0) = V3 (4 / 5) (3 / 5) 0)
      by (apply vnormalize_unit; unfold is_unit, inner; cbn; field).
    unfold uniform_disk, with_coplanar. cbn zeta. cbn [d_normal d_sample]. rewrite N1.
    rewrite (proj2 (Rltb_spec _ _)) by (unfold vmag_sqr, vcross, veps; cbn; lra). eexists. reflexivity. }
  destruct E as [d H]. exists d, (fun _ => vzero). cbn zeta. split; [exact H|].
  intros ct refv rho Pr Pu Pc.
  destruct (yawed_case d H) as [En Eb].
  assert (I8 : INR 8 = 8) by (cbn; lra).
  assert (Al : along vzero (d_normal d) (centre g256 (IV 111 150 128)) = 3 / 10).
  { rewrite En. unfold along, centre, g256; cbn. lra. }
  assert (Sq : axis_dist vzero (d_normal d) (centre g256 (IV 111 150 128)) = sqrt 778.66).
  { unfold axis_dist, len, off_axis. rewrite Al, En. unfold inner, centre, g256; cbn. f_equal. lra. }
  assert (B1 : 26 < sqrt 778.66) by (rewrite <- (sqrt_square 26) by lra; apply sqrt_lt_1_alt; lra).
  assert (B2 : sqrt 778.66 < 28) by (rewrite <- (sqrt_square 28) by lra; apply sqrt_lt_1_alt; lra).
  split; [|split; [|split; [|split; [|split]]]].
  - unfold spread_tile. rewrite Eb. reflexivity.
  - unfold in_box; cbn. lia.
  - rewrite Al, Rabs_pos_eq; lra.
  - rewrite Sq. exact B2.
  - rewrite (c71_spread vzero _ _ 10 64 0 8 1 d ct refv rho _ H ltac:(lia) ltac:(lra)), inner_vscale, Al, Sq, I8.
    destruct (c71_profile (64 / 2) (64 / 2 / 8) (sqrt 778.66) ltac:(lra) ltac:(lra) ltac:(lra)) as (_ & K & _).
    rewrite K by lra.
    destruct (c71_gaussian (3 / 10) 0 10 ltac:(lra)) as (_ & G & _).
    assert (0 < gaussian1d (3 / 10) 10) by (apply G; rewrite Rabs_pos_eq; lra).
    pose proof (b_normal d (proj1 (maker_facts uniform_disk _ _ _ _ _ _ _ _ _ (or_introl eq_refl) H))) as Un.
    unfold is_unit in Un. rewrite Un.
    set (U := inner refv (d_normal d)) in *.
    assert (0 < U ^ 2) by (pose proof (Rsqr_pos_lt U Pu) as K2; unfold Rsqr in K2; lra).
    rewrite Rmult_1_l, Rmult_1_r.
    apply Rmult_lt_0_compat; [|assumption]. apply Rmult_lt_0_compat; [|assumption].
    apply Rmult_lt_0_compat; lra.
  - reflexivity.
Qed.
Print Assumptions c73_missing_source_refuted.
