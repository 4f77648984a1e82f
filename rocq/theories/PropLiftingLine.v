(** C77: filtered lifting line correction of wing actuators. *)
From Verif Require Import BoxR BoxRFacts VecSpace VecSpaceSpec VecSpaceProofs DiskActuator DiskSpec DiskProofs DiskProofs2 JoukProofs
  Wing WingSpec WingProofs PropWing LiftingLine LiftingLineSpec LiftingLineProofs.
Open Scope R_scope.

Lemma map_seq_nth {A B} (f : A -> B) (l : list A) d : map (fun i => f (nth i l d)) (seq 0 (length l)) = map f l.
Proof.
  apply (nth_ext _ _ (f d) (f d)); [rewrite !map_length, seq_length; reflexivity|].
  intros n H. rewrite map_length, seq_length in H. rewrite map_nth.
  rewrite (nth_indep _ (f d) (f (nth 0 l d))) by (rewrite map_length, seq_length; exact H).
  rewrite (map_nth (fun i => f (nth i l d))). rewrite seq_nth by exact H. reflexivity.
Qed.
Lemma geo_r l pos chord epsc nr : g_r (fllc_geo l pos chord epsc nr) = map (dist_pts (nth 0 pos vzero)) pos.
Proof. unfold fllc_geo. cbn [g_r]. apply (map_seq_nth (dist_pts (nth 0 pos vzero)) pos vzero). Qed.
Lemma geo_opt l pos chord epsc nr : length chord = length pos ->
  g_opt (fllc_geo l pos chord epsc nr) = map (fun c => c * epsc) chord.
Proof. intros H. unfold fllc_geo. cbn [g_opt]. rewrite <- H. apply (map_seq_nth (fun c => c * epsc) chord 0). Qed.
Lemma dist_self p : dist_pts p p = 0.
Proof.
  unfold dist_pts, len, inner. cbn [vx vy vz].
  replace (_ + _ + _) with 0 by ring. apply sqrt_0.
Qed.
Lemma incr_le q : increasing q -> forall i j, (j <= i < length q)%nat -> nth j q 0 <= nth i q 0.
Proof.
  intros H i j. induction i as [|i IH]; intros I.
  - replace j with 0%nat by lia. lra.
  - destruct (Nat.eq_dec j (S i)) as [-> | N]; [lra|]. pose proof (IH ltac:(lia)). pose proof (H i ltac:(lia)). lra.
Qed.

Lemma above x : exists n, x <= INR n.
Proof.
  exists (Z.to_nat (up x)). destruct (archimed x) as [A _]. destruct (Z_le_gt_dec 0 (up x)) as [P|P].
  - rewrite INR_IZR_INZ, Z2Nat.id by exact P. lra.
  - pose proof (pos_INR (Z.to_nat (up x))). assert (IZR (up x) < 0) by (apply IZR_lt; lia). lra.
Qed.
Lemma fold_same {A B} (f g : A -> B -> A) l : (forall a b, In b l -> f a b = g a b) -> forall a, fold_left f l a = fold_left g l a.
Proof.
  induction l as [|b l IH]; intros H a; [reflexivity|]. cbn [fold_left]. rewrite H by (left; reflexivity).
  apply IH. intros; apply H; right; assumption.
Qed.

(** Points of the sum.  With widths of at least [h] times the ratio asked for, the
    initialisation ends.  The points start at the first point of the wing, end at the
    last one and increase; each spacing is at most the width at its own start
    divided by the ratio; and the widths given to the points add up to the length. *)
Theorem c77_points : forall l pos chord epsc h,
  (2 <= length pos)%nat -> length chord = length pos -> l_nonuniform l = true -> 0 < l_epsdr l ->
  let rad := map (dist_pts (nth 0 pos (V3 0 0 0))) pos in
  let wid := map (fun c => c * epsc) chord in
  (forall i, (S i < length rad)%nat -> / 8388608 < nth (S i) rad 0 - nth i rad 0) ->
  / 4503599627370496 < h -> (forall i, (i < length wid)%nat -> h * l_epsdr l <= nth i wid 0) ->
  exists N, forall fuel, (N < fuel)%nat -> exists g, fllc_init fuel l pos chord epsc = Some (Ret g) /\
    g_r g = rad /\ g_opt g = wid /\
    let q := g_nr g in
    (2 <= length q)%nat /\ nth 0 q 0 = 0 /\ last q 0 = last rad 0 /\ increasing q /\
    (forall i, (S i < length q)%nat -> exists y, on_broken_line rad wid (nth i q 0) y /\
       nth (S i) q 0 - nth i q 0 <= y / l_epsdr l) /\
    length (g_ndr g) = length q /\ rsum (g_ndr g) = last rad 0.
Proof.
  intros l pos chord epsc h N2 LC NU E rad wid GAP V W.
  assert (LR : length rad = length pos) by (unfold rad; apply map_length).
  assert (LW : length wid = length rad) by (unfold wid; rewrite map_length; lia).
  assert (R0 : nth 0 rad 0 = 0).
  { unfold rad. destruct pos as [|p pos]; [cbn in N2; lia|]. cbn [nth map]. apply dist_self. }
  assert (INC : increasing rad). { intros i I. pose proof (GAP i I). lra. }
  assert (TIP : 0 < last rad 0).
  { rewrite last_nth. pose proof (incr_le rad INC (length rad - 1) 1 ltac:(lia)). pose proof (GAP 0%nat ltac:(lia)). lra. }
  assert (HP : 0 < h) by (pose proof veps_pos; unfold veps in *; lra).
  destruct (above (last rad 0 / h)) as [N HN].
  exists N. intros fuel F.
  destruct (more_points_ok rad wid (l_epsdr l) h ltac:(lia) E V ltac:(intros i I; apply W; lia) N 0) with (fuel := fuel)
    as (more & M & LA & SP); [|exact F|].
  { assert (last rad 0 = last rad 0 / h * h) by (field; lra). nra. }
  unfold fllc_init. rewrite NU, geo_r, (geo_opt _ _ _ _ _ LC). fold wid. change (map (dist_pts (nth 0 pos vzero)) pos) with rad.
  rewrite R0, M. eexists. split; [reflexivity|]. rewrite geo_r, (geo_opt _ _ _ _ _ LC).
  split; [reflexivity|]. split; [reflexivity|]. cbn zeta.
  change (g_nr (fllc_geo l pos chord epsc (0 :: more))) with (0 :: more).
  assert (LAST : last (0 :: more) 0 = last rad 0) by (apply LA; lra).
  assert (LM : (1 <= length more)%nat). { destruct more; [cbn in LAST; lra|cbn; lia]. }
  assert (IN : increasing (0 :: more)). { intros i I. cbn [length] in I. destruct (SP i ltac:(lia)) as [A _]. exact A. }
  split; [cbn; lia|]. split; [reflexivity|]. split; [exact LAST|]. split; [exact IN|].
  split.
  { intros i I. cbn [length] in I. destruct (SP i ltac:(lia)) as (_ & B & _). eexists. split; [|exact B].
    apply lin_r_line; [lia|exact LW|exact GAP]. }
  unfold fllc_geo. cbn [g_ndr]. split. { unfold central. rewrite map_length, seq_length. reflexivity. }
  rewrite (central_sum _ (fun i => nth i (0 :: more) 0)); [| cbn; lia |].
  - rewrite <- last_nth, LAST. cbn [nth]. lra.
  - intros i j I. apply Rabs_right. pose proof (incr_le _ IN i j I). lra.
Qed.
Print Assumptions c77_points.

(** On a straight wing the widths of the force points add up to its length too. *)
Theorem c77_widths : forall l pos chord epsc nr, (2 <= length pos)%nat -> straight pos ->
  increasing (map (dist_pts (nth 0 pos (V3 0 0 0))) pos) ->
  rsum (g_dr (fllc_geo l pos chord epsc nr)) = dist_pts (nth 0 pos (V3 0 0 0)) (last pos (V3 0 0 0)).
Proof.
  intros l pos chord epsc nr N S I. set (rad := map _ pos) in I.
  assert (RN : forall i, (i < length pos)%nat -> nth i rad 0 = dist_pts (nth 0 pos vzero) (nth i pos vzero)).
  { intros i H. unfold rad. rewrite (nth_indep _ 0 (dist_pts (nth 0 pos vzero) vzero)) by (rewrite map_length; exact H). apply map_nth. }
  assert (LR : length rad = length pos) by (unfold rad; apply map_length).
  unfold fllc_geo. cbn [g_dr]. rewrite (central_sum _ (fun i => nth i rad 0)); [|exact N|].
  - rewrite !RN by lia. rewrite dist_self, Rminus_0_r.
    f_equal. clear. induction pos as [|a p IH]; [reflexivity|]. destruct p as [|b p]; [reflexivity|].
    change (last (a :: b :: p) (V3 0 0 0)) with (last (b :: p) (V3 0 0 0)). rewrite <- IH. cbn [length].
    replace (S (S (length p)) - 1)%nat with (S (S (length p) - 1)) by lia. reflexivity.
  - intros i j H. change (vmag (vsub (nth i pos vzero) (nth j pos vzero))) with (dist_pts (nth j pos vzero) (nth i pos vzero)).
    pose proof (S i j ltac:(lia) ltac:(lia)) as SIJ. change (V3 0 0 0) with vzero in SIJ. rewrite SIJ. rewrite <- !RN by lia. apply Rabs_right.
    pose proof (incr_le rad I i j ltac:(lia)). lra.
Qed.
Print Assumptions c77_widths.

(** Refuted: "This will ensure that the spacing will always meet the requirement
    eps/dr" (FLLC.cpp:78-79).  Where the chord has a dip, a point is placed in it after a
    spacing five times the width there. *)
Theorem c77_spacing_refuted : forall l, l_nonuniform l = true -> l_epsdr l = 1 ->
  let pos := [V3 0 0 0; V3 0 (1 / 2) 0; V3 0 1 0] in
  let chord := [1; 1 / 10; 1 / 2] in
  exists N, forall fuel, (N < fuel)%nat -> exists g, fllc_init fuel l pos chord 1 = Some (Ret g) /\
    nth 0 (g_nr g) 0 = 0 /\ nth 1 (g_nr g) 0 = 1 / 2 /\
    on_broken_line (g_r g) (g_opt g) (1 / 2) (1 / 10) /\
    ~ (1 / 2 - 0 <= 1 / 10 / l_epsdr l).
Proof.
  intros l NU E pos chord.
  assert (D : forall y, 0 <= y -> dist_pts (V3 0 0 0) (V3 0 y 0) = y).
  { intros y Y. unfold dist_pts, len, inner; cbn [vx vy vz]. replace (_ + _ + _) with (y * y) by ring. apply sqrt_square, Y. }
  assert (RAD : map (dist_pts (nth 0 pos (V3 0 0 0))) pos = [0; 1 / 2; 1]).
  { unfold pos. cbn [nth map]. rewrite !D by lra. reflexivity. }
  assert (WID : map (fun c => c * 1) chord = [1; 1 / 10; 1 / 2]).
  { unfold chord. cbn [map]. rewrite !Rmult_1_r. reflexivity. }
  destruct (c77_points l pos chord 1 (1 / 10)) as [N H]; try (cbn; lia); try assumption; try lra.
  - rewrite RAD. intros i I. cbn [length] in I. destruct i as [|[|i]]; [| |lia]; cbn [nth]; lra.
  - rewrite WID, E. intros i I. cbn [length] in I. destruct i as [|[|[|i]]]; [| | |lia]; cbn [nth]; lra.
  - exists N. intros fuel F. destruct (H fuel F) as (g & G & GR & GO & H2 & Q0 & _). exists g. split; [exact G|].
    rewrite RAD in GR. rewrite WID in GO. split; [exact Q0|]. split.
    2:{ split; [|rewrite E; lra]. rewrite GR, GO. right; right. exists 0%nat. cbn [length nth]. split; [lia|]. split; [lra|lra]. }
    clear H H2 Q0. unfold fllc_init in G. rewrite NU, geo_r, geo_opt in G by reflexivity.
    change (map (dist_pts (nth 0 pos vzero)) pos) with (map (dist_pts (nth 0 pos (V3 0 0 0))) pos) in G.
    rewrite RAD, WID, E in G. cbn [nth] in G.
    destruct fuel as [|k]; [lia|]. cbn [more_points] in G. change (last [0; 1 / 2; 1] 0) with 1 in G.
    rewrite (proj2 (Rltb_spec 0 1)) in G by lra.
    assert (L0 : lin_r [0; 1 / 2; 1] [1; 1 / 10; 1 / 2] 0 = 1).
    { unfold lin_r, lin_w. cbn [length nth Nat.ltb Nat.leb Nat.sub orb].
      rewrite (proj2 (Rltb_false 0 0)) by lra. rewrite (proj2 (Rltb_false 1 0)) by lra. cbn [scan].
      rewrite (proj2 (Rleb_spec 0 (1 / 2))) by lra. cbn [nth Nat.add].
      rewrite (proj2 (Rltb_spec feps_r (1 / 2 - 0))) by (unfold feps_r; lra). field. }
    assert (L1 : lin_r [0; 1 / 2; 1] [1; 1 / 10; 1 / 2] 1 = 1 / 2).
    { unfold lin_r, lin_w. cbn [length nth Nat.ltb Nat.leb Nat.sub orb].
      rewrite (proj2 (Rltb_false 1 0)) by lra. rewrite (proj2 (Rltb_false 1 1)) by lra. cbn [scan].
      rewrite (proj2 (Rleb_false 1 (1 / 2))) by lra. rewrite (proj2 (Rleb_spec 1 1)) by lra. cbn [nth Nat.add].
      rewrite (proj2 (Rltb_spec feps_r (1 - 1 / 2))) by (unfold feps_r; lra). field. }
    cbn zeta in G. rewrite L0 in G. replace (0 + 1 / 1) with 1 in G by field. rewrite L1 in G.
    rewrite !rmin_spec in G. rewrite (Rmin_right (1 / 1) (1 / 2 / 1)) in G by lra.
    rewrite (proj2 (Rltb_spec veps (1 / 2 / 1))) in G by (unfold veps; lra).
    rewrite (Rmin_left (0 + 1 / 2 / 1) 1) in G by lra.
    destruct (more_points k _ _ _ _) as [[more| |]|]; try discriminate. injection G as <-.
    cbn [g_nr fllc_geo nth]. lra.
Qed.
Print Assumptions c77_spacing_refuted.

(** Lift.  What the correction takes for the lift is the force per length without
    its part along the relative velocity it is given. *)
Theorem c77_lift : forall F v dr, 0 < dr -> / 4503599627370496 <= len v ->
  inner (lift_g F v dr) v = 0 /\
  forall k, inner (lift_g F v dr) k * dr = inner F k - inner F v / (len v)² * inner v k.
Proof.
  intros F v dr D H. assert (P : 0 < len v) by (pose proof veps_pos; unfold veps in *; lra).
  assert (K : forall k, inner (lift_g F v dr) k * dr = inner F k - inner F v / (len v)² * inner v k).
  { intros k. unfold lift_g. cbn zeta. rewrite (vmag_floor_len v H). change (vdot F v) with (inner F v).
    rewrite inner_vdivs, inner_vsub, inner_vdivs, inner_vscale. unfold Rsqr. field. lra. }
  split; [|exact K]. specialize (K v). rewrite <- len_sqr in K. unfold Rsqr in K.
  apply Rmult_eq_reg_r with dr; [|lra]. rewrite K. field. lra.
Qed.
Print Assumptions c77_lift.

(** Refuted: a wing without lift is not corrected.  The relative velocity is given in
    the axes of the blade and the force in those of the domain.  On a wing along x in a wind
    along y the whole drag is taken for lift. *)
Theorem c77_axes_refuted : forall w cd U dx chord eps dr,
  blade_x w = V3 0 1 0 -> blade_z w = V3 0 0 1 -> w_flags w = V3 1 1 1 -> / 4503599627370496 <= U -> 0 < dr ->
  let polar := fun _ : R => (0, cd) in
  let vel := V3 0 U 0 in
  lift_g (w_force w polar 0 vel (V3 0 0 0) dx chord eps) (w_wind w vel (V3 0 0 0)) dr
  = V3 0 (- w_drag w polar 0 vel (V3 0 0 0) dx chord eps / dr) 0.
Proof.
  intros w cd U dx chord eps dr X Z FL HU D polar vel.
  assert (P : 0 < U) by (pose proof veps_pos; unfold veps in *; lra).
  assert (WD : w_wind w vel (V3 0 0 0) = V3 U 0 0).
  { unfold w_wind, vel. rewrite X, Z. unfold vdot, vsub; cbn [vx vy vz]. apply vec_eq; ring. }
  assert (F : w_force w polar 0 vel (V3 0 0 0) dx chord eps = V3 0 (- w_drag w polar 0 vel (V3 0 0 0) dx chord eps) 0).
  { unfold w_force. cbn zeta. rewrite WD, X, Z, FL.
    assert (N : vnormalize (vadd (vscale (V3 0 1 0) (vx (V3 U 0 0))) (vscale (V3 0 0 1) (vz (V3 U 0 0)))) = V3 0 1 0).
    { replace (vadd _ _) with (V3 0 U 0) by (unfold vadd, vscale; cbn [vx vy vz]; apply vec_eq; ring).
      unfold vnormalize. change (vmag (V3 0 U 0)) with (len (V3 0 U 0)).
      assert (L : len (V3 0 U 0) = U).
      { unfold len, inner; cbn [vx vy vz]. replace (_ + _ + _) with (U * U) by ring. apply sqrt_square. lra. }
      rewrite L, (proj2 (Rltb_false _ veps)) by exact HU. unfold vdivs; cbn [vx vy vz]. apply vec_eq; field; lra. }
    rewrite N. set (ld := vnormalize (vcross _ _)).
    assert (LZ : w_lift w polar 0 vel (V3 0 0 0) dx chord eps = 0) by (unfold w_lift, polar; cbn [fst]; ring).
    rewrite LZ. unfold vmul, vneg, vadd, vscale; cbn [vx vy vz]. apply vec_eq; ring. }
  rewrite WD, F. unfold lift_g. cbn zeta. pose proof (vmag_floor_pos (V3 U 0 0)).
  unfold vdot, vdivs, vsub, vscale; cbn [vx vy vz]. apply vec_eq; field; lra.
Qed.
Print Assumptions c77_axes_refuted.

(** Induced velocity, constant chord: the sum over the other points of the
    velocities of the shed vortices, in every direction [k]. *)
Theorem c77_induced_const : forall n pos vrel G eps i k, 0 < eps -> (i < n)%nat ->
  (forall j, (j < n)%nat -> j <> i -> dist_pts (pos j) (pos i) <> 0) ->
  (forall j, / 4503599627370496 <= len (vrel j)) ->
  inner (induced_const n pos vrel G eps i) k
  = sum1 n (fun j => side i j *
      shed_velocity (inner (grad_g n G j) k) (if (i =? j)%nat then 1 else dist_pts (pos j) (pos i)) (len (vrel j)) eps).
Proof.
  intros n pos vrel G eps i k E I D S. unfold induced_const, sum1.
  rewrite (fold_inner _ (fun j => side i j *
      shed_velocity (inner (grad_g n G j) k) (if (i =? j)%nat then 1 else dist_pts (pos j) (pos i)) (len (vrel j)) eps)).
  { rewrite inner_vzero. lra. }
  intros u j J. apply in_seq in J. unfold side. destruct (Nat.eqb_spec i j) as [<- | N].
  { rewrite Nat.ltb_irrefl. lra. }
  cbn zeta. rewrite inner_vsub, !inner_vscale, (vmag_floor_len _ (S j)).
  change (vmag (vsub (pos i) (pos j))) with (dist_pts (pos j) (pos i)).
  pose proof (D j ltac:(lia) ltac:(lia)) as R. set (r := dist_pts (pos j) (pos i)) in *.
  assert (P : 0 < len (vrel j)) by (pose proof veps_pos; pose proof (S j); unfold veps in *; lra).
  unfold shed_velocity. replace (- r * r / (eps * eps)) with (- (r / eps)²) by (unfold Rsqr; field; lra).
  pose proof PI_RGT_0. destruct (Nat.ltb_spec i j), (Nat.ltb_spec j i); try lia; field; repeat split; lra.
Qed.
Print Assumptions c77_induced_const.

(** Shed vortices: end values, and the total, which is zero when the lift is the
    same at both ends and next to them in mirrored order. *)
Theorem c77_shed : forall n G k, (2 <= n)%nat ->
  grad_g n G 0 = G 0%nat /\ inner (grad_g n G (n - 1)) k = - inner (G (n - 1)%nat) k /\
  (forall i, (0 < i < n - 1)%nat -> inner (grad_g n G i) k = (inner (G (S i)) k - inner (G (i - 1)%nat) k) / 2) /\
  sum1 n (fun i => inner (grad_g n G i) k)
  = (inner (G 0%nat) k - inner (G 1%nat) k) / 2 + (inner (G (n - 2)%nat) k - inner (G (n - 1)%nat) k) / 2.
Proof.
  intros n G k N.
  assert (A : inner (grad_g n G (n - 1)) k = - inner (G (n - 1)%nat) k).
  { unfold grad_g. destruct (Nat.eqb_spec (n - 1) 0); [lia|]. rewrite Nat.eqb_refl, inner_vscale. ring. }
  assert (B : forall i, (0 < i < n - 1)%nat -> inner (grad_g n G i) k = (inner (G (S i)) k - inner (G (i - 1)%nat) k) / 2).
  { intros i I. unfold grad_g. destruct (Nat.eqb_spec i 0); [lia|]. destruct (Nat.eqb_spec i (n - 1)); [lia|].
    rewrite inner_vscale, inner_vsub. replace (i + 1)%nat with (S i) by lia. lra. }
  split; [reflexivity|]. split; [exact A|]. split; [exact B|].
  unfold sum1. destruct n as [|[|n]]; [lia|lia|]. rewrite rsum_map_seq_S. cbn [Nat.add].
  replace (S (S n) - 1)%nat with (S n) in * by lia. replace (S (S n) - 2)%nat with n by lia. rewrite A.
  assert (K : forall m, (m <= n)%nat -> rsum (map (fun i => inner (grad_g (S (S n)) G i) k) (seq 0 (S m)))
     = (inner (G 0%nat) k - inner (G 1%nat) k) / 2 + (inner (G m) k + inner (G (S m)) k) / 2).
  { induction m as [|m IH]; intros M.
    - cbn [seq map]. rewrite rsum_cons. cbn [rsum fold_right fold_left]. change (grad_g (S (S n)) G 0) with (G 0%nat). cbn. lra.
    - rewrite rsum_map_seq_S, IH by lia. cbn [Nat.add]. rewrite B by lia. replace (S m - 1)%nat with m by lia. lra. }
  rewrite K by lia. lra.
Qed.
Print Assumptions c77_shed.

(** Kernel for a varying chord: its formula, and no jump at the point itself: it
    stays within [(r/eps)^2 / eps^2] of the value used there. *)
Theorem c77_kernel : forall r eps, 0 < eps ->
  (r <> 0 -> kernel_k r eps = line_kernel r eps) /\
  kernel_k 0 eps = 1 / (2 * eps²) /\
  Rabs (kernel_k r eps - kernel_k 0 eps) <= (r / eps)² / eps².
Proof.
  intros r eps E. assert (Z : kernel_k 0 eps = 1 / (2 * eps²)).
  { unfold kernel_k. destruct (Req_EM_T 0 0); [|lra]. replace 0.5 with (1 / 2) by lra. unfold Rsqr. field. lra. }
  split; [apply kernel_form, E|]. split; [exact Z|]. rewrite Z.
  pose proof (kernel_bounds r eps E) as [A B]. assert (P : 0 < eps²) by (apply Rsqr_pos_lt; lra).
  pose proof (Rle_0_sqr (r / eps)) as X. set (x := (r / eps)²) in *. set (e := eps²) in *. set (q := kernel_k r eps) in *.
  apply Rabs_le. replace (x / e) with (x * / e) by reflexivity.
  assert (Q : q = q * e * / e) by (field; lra). assert (I : 0 < / e) by (apply Rinv_0_lt_compat, P).
  replace (1 / (2 * e)) with (1 / 2 * / e) by (field; lra). rewrite Q. set (y := q * e) in *. split; nra.
Qed.
Print Assumptions c77_kernel.

(** Induced velocity, varying chord, in every direction [k]. *)
Theorem c77_induced_var : forall m dist eps dr vrel G k,
  (forall j, (j < m)%nat -> / 4503599627370496 <= len (vrel j)) ->
  inner (induced_var m dist eps dr vrel G) k
  = sum1 m (fun j => inner (G j) k / (2 * PI * len (vrel j)) * kernel_k (dist j) (eps j) * dr j).
Proof.
  intros m dist eps dr vrel G k S. unfold induced_var, sum1.
  rewrite (fold_inner _ (fun j => inner (G j) k / (2 * PI * len (vrel j)) * kernel_k (dist j) (eps j) * dr j)).
  { rewrite inner_vzero. lra. }
  intros u j J. apply in_seq in J. pose proof (S j ltac:(lia)) as SJ.
  rewrite inner_vadd, !inner_vscale, inner_vdivs, inner_vscale, (vmag_floor_len _ SJ).
  assert (P : 0 < len (vrel j)) by (pose proof veps_pos; unfold veps in *; lra).
  pose proof PI_RGT_0. field. split; lra.
Qed.
Print Assumptions c77_induced_var.

(** What the correction is relaxed to, constant form: the difference of the
    velocities of the shed vortices with the optimal width of the point and with the
    width of the simulation. *)
Lemma lift_circulation F v dr k : 0 < dr -> / 4503599627370496 <= len v -> inner (lift_g F v dr) k = circulation F v dr k.
Proof.
  intros D H. destruct (c77_lift F v dr D H) as [_ L]. unfold circulation. rewrite <- L. field. lra.
Qed.
Theorem c77_target_const : forall l g pos force vrel i k,
  l_variable l = false -> (2 <= length (g_r g))%nat -> (i < length (g_r g))%nat ->
  0 < nth i (g_opt g) 0 -> 0 < l_eps l ->
  (forall j, (j < length (g_r g))%nat -> 0 < nth j (g_dr g) 0) ->
  (forall j, / 4503599627370496 <= len (nth j vrel (V3 0 0 1))) -> length vrel = length (g_r g) ->
  (forall j, (j < length (g_r g))%nat -> j <> i -> dist_pts (nth j pos (V3 0 0 0)) (nth i pos (V3 0 0 0)) <> 0) ->
  let n := length (g_r g) in
  let strength := shed_strength n (fun j => circulation (nth j force (V3 0 0 0)) (nth j vrel (V3 0 0 0)) (nth j (g_dr g) 0) k) in
  let velocity eps := sum1 n (fun j => side i j *
      shed_velocity (strength j) (if (i =? j)%nat then 1 else dist_pts (nth j pos (V3 0 0 0)) (nth i pos (V3 0 0 0)))
        (len (nth j vrel (V3 0 0 0))) eps) in
  inner (fst (wanted l g pos force vrel i)) k = velocity (nth i (g_opt g) 0) /\
  inner (snd (wanted l g pos force vrel i)) k = velocity (l_eps l).
Proof.
  intros l g pos force vrel i k LV N I EO EL DR SP LN D n strength velocity.
  unfold wanted. rewrite LV. cbn zeta. cbn [fst snd]. fold n.
  set (P := fun j => nth j pos vzero). set (G := fun j => lift_g _ _ _).
  assert (SP' : forall j, (j < n)%nat -> / 4503599627370496 <= len (nth j vrel vzero)).
  { intros j J. rewrite (nth_indep vrel vzero (V3 0 0 1)) by (rewrite LN; exact J). apply SP. }
  set (V := fun j => nth j vrel vzero). set (V1 := fun j => if (j <? n)%nat then V j else V3 0 0 1).
  assert (IV : forall e, induced_const n P V G e i = induced_const n P V1 G e i).
  { intros e. unfold induced_const. apply fold_same. intros u j J. apply in_seq in J. unfold V1.
    destruct (Nat.ltb_spec j n); [reflexivity|lia]. }
  assert (Q : forall e, 0 < e -> inner (induced_const n P V G e i) k = velocity e).
  { intros e E. rewrite IV, (c77_induced_const n P V1 G e i k E I).
    - unfold velocity, sum1. f_equal. apply map_ext_in. intros j J. apply in_seq in J.
      assert (S1 : inner (grad_g n G j) k = strength j).
      { assert (C : forall a, (a < n)%nat -> inner (G a) k = circulation (nth a force (V3 0 0 0)) (nth a vrel (V3 0 0 0)) (nth a (g_dr g) 0) k).
        { intros a A. unfold G. apply lift_circulation; [apply DR, A | apply SP', A]. }
        destruct (c77_shed n G k N) as (S0 & SN & SI & _). unfold strength, shed_strength.
        destruct (Nat.eqb_spec j 0) as [-> | J0]; [rewrite S0; apply C; lia|].
        destruct (Nat.eqb_spec j (n - 1)) as [-> | J1]; [rewrite SN, C by lia; reflexivity|].
        rewrite SI by lia. rewrite !C by lia. reflexivity. }
      rewrite S1. unfold V1. destruct (Nat.ltb_spec j n); [reflexivity|lia].
    - intros j J NE. apply D; assumption.
    - intros j. unfold V1. destruct (Nat.ltb_spec j n) as [J|J]; [apply SP', J|].
      pose proof (SP (length vrel)) as X. rewrite nth_overflow in X by lia. exact X. }
  split; apply Q; assumption.
Qed.
Print Assumptions c77_target_const.

(** The same for the form with a varying chord, with the points of the wing. *)
Theorem c77_target_var : forall l g pos force vrel i k,
  l_variable l = true -> l_nonuniform l = false -> length (g_dr g) = length (g_r g) ->
  (forall j, (j < length (g_r g))%nat -> 0 < nth j (g_dr g) 0) ->
  (forall j, (j < length (g_r g))%nat -> / 4503599627370496 <= len (nth j vrel (V3 0 0 0))) ->
  let velocity eps := sum1 (length (g_r g)) (fun j =>
      circulation (nth j force (V3 0 0 0)) (nth j vrel (V3 0 0 0)) (nth j (g_dr g) 0) k / (2 * PI * len (nth j vrel (V3 0 0 0)))
      * kernel_k (dist_pts (nth j pos (V3 0 0 0)) (nth i pos (V3 0 0 0))) (eps j) * nth j (g_dr g) 0) in
  inner (fst (wanted l g pos force vrel i)) k = velocity (fun j => nth j (g_opt g) 0) /\
  inner (snd (wanted l g pos force vrel i)) k = velocity (fun _ => l_eps l).
Proof.
  intros l g pos force vrel i k LV NU LD DR SP velocity. unfold wanted. rewrite LV. cbn zeta. unfold sum_points. rewrite NU. cbn [fst snd].
  assert (Q : forall e, inner (induced_var (length (g_dr g)) (fun j => vmag (vsub (nth i pos vzero) (nth j pos vzero))) e
      (fun j => nth j (g_dr g) 0) (fun j => nth j vrel vzero)
      (fun j => lift_g (nth j force vzero) (nth j vrel vzero) (nth j (g_dr g) 0))) k = velocity e).
  { intros e. rewrite c77_induced_var by (rewrite LD; exact SP). rewrite LD. unfold velocity, sum1. f_equal.
    apply map_ext_in. intros j J. apply in_seq in J. rewrite lift_circulation; [reflexivity | apply DR; lia | apply SP; lia]. }
  split; apply Q.
Qed.
Print Assumptions c77_target_var.

(** And with the generated points: velocity, lift and optimal width there are those
    of the broken lines through the points of the wing, the distance and the length
    are their own. *)
Lemma lin_v_inner xs ys x k : inner (lin_v xs ys x) k = lin_r xs (map (fun v => inner v k) ys) x.
Proof.
  unfold lin_v, lin_r. destruct (lin_w xs x) as [j f]. rewrite inner_vadd, !inner_vscale.
  assert (N : forall a, nth a (map (fun v => inner v k) ys) 0 = inner (nth a ys vzero) k).
  { intros a. rewrite <- (inner_vzero k) at 1. apply (map_nth (fun v => inner v k)). }
  rewrite !N. ring.
Qed.
Theorem c77_target_nonuniform : forall l g pos force vrel i,
  l_variable l = true -> l_nonuniform l = true -> (2 <= length (g_r g))%nat -> length (g_opt g) = length (g_r g) ->
  (forall j, (S j < length (g_r g))%nat -> / 8388608 < nth (S j) (g_r g) 0 - nth j (g_r g) 0) ->
  (forall j, (j < length (g_r g))%nat -> 0 < nth j (g_dr g) 0) ->
  (forall j, (j < length (g_r g))%nat -> / 4503599627370496 <= len (nth j vrel (V3 0 0 0))) ->
  exists (V G : nat -> vec) (opt : nat -> R),
    (forall j k, on_broken_line (g_r g) (map (fun a => inner (nth a vrel (V3 0 0 0)) k) (seq 0 (length (g_r g)))) (nth j (g_nr g) 0) (inner (V j) k)) /\
    (forall j k, on_broken_line (g_r g)
       (map (fun a => circulation (nth a force (V3 0 0 0)) (nth a vrel (V3 0 0 0)) (nth a (g_dr g) 0) k) (seq 0 (length (g_r g))))
       (nth j (g_nr g) 0) (inner (G j) k)) /\
    (forall j, on_broken_line (g_r g) (g_opt g) (nth j (g_nr g) 0) (opt j)) /\
    ((forall j, (j < length (g_ndr g))%nat -> / 4503599627370496 <= len (V j)) -> forall k,
     let velocity eps := sum1 (length (g_ndr g)) (fun j => inner (G j) k / (2 * PI * len (V j))
        * kernel_k (Rabs (nth i (g_r g) 0 - nth j (g_nr g) 0)) (eps j) * nth j (g_ndr g) 0) in
     inner (fst (wanted l g pos force vrel i)) k = velocity opt /\
     inner (snd (wanted l g pos force vrel i)) k = velocity (fun _ => l_eps l)).
Proof.
  intros l g pos force vrel i LV NU N LO GAP DR SP.
  set (n := length (g_r g)) in *.
  set (gam := fun j => lift_g (nth j force vzero) (nth j vrel vzero) (nth j (g_dr g) 0)).
  exists (fun j => lin_v (g_r g) (map (fun a => nth a vrel vzero) (seq 0 n)) (nth j (g_nr g) 0)),
         (fun j => lin_v (g_r g) (map gam (seq 0 n)) (nth j (g_nr g) 0)),
         (fun j => lin_r (g_r g) (g_opt g) (nth j (g_nr g) 0)).
  assert (LL : forall f : nat -> R, length (map f (seq 0 n)) = length (g_r g)) by (intros f; rewrite map_length, seq_length; reflexivity).
  split; [|split; [|split]].
  - intros j k. rewrite lin_v_inner, map_map. apply lin_r_line; [exact N|apply LL|exact GAP].
  - intros j k. rewrite lin_v_inner, map_map.
    replace (map (fun a => circulation (nth a force (V3 0 0 0)) (nth a vrel (V3 0 0 0)) (nth a (g_dr g) 0) k) (seq 0 n))
      with (map (fun a => inner (gam a) k) (seq 0 n)).
    2:{ apply map_ext_in. intros a A. apply in_seq in A. unfold gam. apply lift_circulation; [apply DR; lia|apply SP; lia]. }
    apply lin_r_line; [exact N|apply LL|exact GAP].
  - intros j. apply lin_r_line; [exact N|exact LO|exact GAP].
  - intros S k velocity. unfold wanted. rewrite LV. cbn zeta. unfold sum_points. rewrite NU. cbn [fst snd].
    fold n. fold gam. split; rewrite c77_induced_var by exact S; reflexivity.
Qed.
Print Assumptions c77_target_nonuniform.

(** Relaxation.  While forces and velocities stay as they are, the correction
    approaches the difference of the two induced velocities geometrically, whatever it
    was before: the distance left after [n] steps is [(1 - f)^n] of the first one. *)
Fixpoint corrections (l : fllc) (g : fgeo) (pos force vrel du : list vec) (n : nat) : list vec :=
  match n with O => du | S m => correction l g pos force vrel (corrections l g pos force vrel du m) end.
Lemma correction_nth l g pos force vrel du i : (i < length du)%nat ->
  nth i (correction l g pos force vrel du) vzero
  = relax (l_relax l) (nth i du vzero) (fst (wanted l g pos force vrel i)) (snd (wanted l g pos force vrel i)).
Proof.
  intros I. unfold correction. set (f := fun j => _).
  rewrite (nth_indep _ vzero (f 0%nat)) by (rewrite map_length, seq_length; exact I).
  rewrite (map_nth f), seq_nth by exact I. unfold f. cbn [Nat.add]. destruct (wanted _ _ _ _ _ i). reflexivity.
Qed.
Lemma correction_length l g pos force vrel du : length (correction l g pos force vrel du) = length du.
Proof. unfold correction. rewrite map_length, seq_length. reflexivity. Qed.
Theorem c77_relaxation : forall l g pos force vrel du n i k, (i < length du)%nat ->
  let D := inner (fst (wanted l g pos force vrel i)) k - inner (snd (wanted l g pos force vrel i)) k in
  length (corrections l g pos force vrel du n) = length du /\
  inner (nth i (corrections l g pos force vrel du n) (V3 0 0 0)) k - D
  = (1 - l_relax l) ^ n * (inner (nth i du (V3 0 0 0)) k - D).
Proof.
  intros l g pos force vrel du n i k I D. change (V3 0 0 0) with vzero.
  assert (L : forall m, length (corrections l g pos force vrel du m) = length du).
  { induction m as [|m IH]; [reflexivity|]. cbn [corrections]. rewrite correction_length. exact IH. }
  split; [apply L|]. induction n as [|n IH]; [cbn; ring|]. cbn [corrections pow].
  rewrite correction_nth by (rewrite L; exact I). unfold relax. rewrite inner_vadd, !inner_vscale, inner_vsub. fold D.
  rewrite Rmult_assoc, <- IH. ring.
Qed.
Print Assumptions c77_relaxation.

(** Equal widths: when the width of the simulation is the optimal one everywhere the
    velocities are left as sampled, in every step, whatever the forces. *)
Lemma sum_points_same l g G V e : (2 <= length (g_r g))%nat -> length (g_dr g) = length (g_r g) ->
  (forall i, (i < length (g_r g))%nat -> nth i (g_opt g) 0 = e) ->
  let '(m, eps, _, _, _) := sum_points l g G V in forall j, (j < m)%nat -> eps j = e.
Proof.
  intros N LD H. unfold sum_points. destruct (l_nonuniform l); intros j J.
  - apply lin_r_const; assumption.
  - apply H. lia.
Qed.
Lemma induced_var_ext m dist e1 e2 dr V G : (forall j, (j < m)%nat -> e1 j = e2 j) ->
  induced_var m dist e1 dr V G = induced_var m dist e2 dr V G.
Proof.
  intros H. unfold induced_var. apply fold_same. intros u j J. apply in_seq in J. rewrite (H j) by lia. reflexivity.
Qed.
Lemma wanted_same l g pos force vrel i : (2 <= length (g_r g))%nat -> length (g_dr g) = length (g_r g) ->
  (forall i, (i < length (g_r g))%nat -> nth i (g_opt g) 0 = l_eps l) -> (i < length (g_r g))%nat ->
  fst (wanted l g pos force vrel i) = snd (wanted l g pos force vrel i).
Proof.
  intros N LD H I. unfold wanted. cbn zeta. destruct (l_variable l).
  - set (G := fun j => lift_g _ _ _). set (V := fun j => nth j vrel vzero).
    pose proof (sum_points_same l g G V (l_eps l) N LD H) as S.
    destruct (sum_points l g G V) as [[[[m eps] dr] V'] G']. cbn [fst snd]. apply induced_var_ext. exact S.
  - cbn [fst snd]. rewrite (H i I). reflexivity.
Qed.
Theorem c77_equal_widths : forall l g pos forces steps s,
  (2 <= length (g_r g))%nat -> length (g_dr g) = length (g_r g) -> length pos = length (g_r g) ->
  (forall i, (i < length (g_r g))%nat -> nth i (g_opt g) 0 = l_eps l) ->
  (forall t v, In (t, v) steps -> length v = length pos) -> f_on s = None ->
  fst (fllc_run l g pos forces steps s) = map snd steps.
Proof.
  intros l g pos forces steps s N LD LP H LV ON.
  assert (Z : forall F V, correction l g pos F V (repeat vzero (length pos)) = repeat vzero (length pos)).
  { intros F V. apply (nth_ext _ _ vzero vzero); [apply correction_length|].
    intros i I. rewrite correction_length, repeat_length in I. rewrite correction_nth by (rewrite repeat_length; exact I).
    rewrite nth_repeat. rewrite wanted_same by (try assumption; lia). unfold relax, vadd, vscale, vsub, vzero; cbn [vx vy vz]. apply vec_eq; ring. }
  assert (C : forall v, length v = length pos -> corrected v (repeat vzero (length pos)) = v).
  { intros v <-. unfold corrected. induction v as [|a v IH]; [reflexivity|]. cbn. f_equal; [|exact IH].
    destruct a as [a b c]. unfold vadd, vzero; cbn [vx vy vz]. apply vec_eq; ring. }
  assert (ON' : f_on s = None \/ f_on s = Some (g, repeat vzero (length pos))) by (left; exact ON). clear ON.
  revert s ON'. induction steps as [|[t v] steps IH]; intros s ON'; [reflexivity|]. cbn [fllc_run map snd].
  unfold fllc_step. assert (LV' := LV t v (or_introl eq_refl)).
  assert (LVr : forall t v, In (t, v) steps -> length v = length pos) by (intros; eapply LV; right; eassumption).
  destruct ON' as [-> | ->].
  - destruct (forces v) as [F V]. specialize (IH LVr (FState (if Rltb (l_start l) t then Some (g, repeat vzero (length pos)) else None) F V)).
    destruct (fllc_run _ _ _ _ _ _) as [vs s'']. cbn [fst] in *. f_equal. apply IH. cbn. destruct (Rltb _ _); auto.
  - rewrite Z, C by exact LV'. destruct (forces v) as [F V].
    specialize (IH LVr (FState (Some (g, repeat vzero (length pos))) F V)).
    destruct (fllc_run _ _ _ _ _ _) as [vs s'']. cbn [fst] in *. f_equal. apply IH. right. reflexivity.
Qed.
Print Assumptions c77_equal_widths.

Lemma step_off l g pos forces t v s : f_on s = None -> fllc_step l g pos forces t v s
  = (v, FState (if Rltb (l_start l) t then Some (g, repeat vzero (length pos)) else None) (fst (forces v)) (snd (forces v))).
Proof. intros H. unfold fllc_step. rewrite H. destruct (forces v). reflexivity. Qed.
Lemma step_on l g pos forces t v s g0 du : f_on s = Some (g0, du) ->
  let du' := correction l g0 pos (f_force s) (f_vrel s) du in
  fllc_step l g pos forces t v s
  = (corrected v du', FState (Some (g0, du')) (fst (forces (corrected v du'))) (snd (forces (corrected v du')))).
Proof. intros H du'. unfold fllc_step. rewrite H. fold du'. destruct (forces (corrected v du')). reflexivity. Qed.

(** Start.  Up to and including the first step later than the start time the
    velocities are left as sampled; the step after it adds the relaxation factor times the
    difference of the induced velocities for the forces of that first step. *)
Theorem c77_start : forall l g pos forces steps t v t' v' s i k,
  (forall u w, In (u, w) steps -> u <= l_start l) -> l_start l < t -> f_on s = None ->
  length v' = length pos -> (i < length pos)%nat ->
  let out := fst (fllc_run l g pos forces (steps ++ [(t, v); (t', v')]) s) in
  firstn (S (length steps)) out = map snd steps ++ [v] /\
  inner (nth i (nth (S (length steps)) out []) (V3 0 0 0)) k
  = inner (nth i v' (V3 0 0 0)) k + l_relax l *
    (inner (fst (wanted l g pos (fst (forces v)) (snd (forces v)) i)) k
     - inner (snd (wanted l g pos (fst (forces v)) (snd (forces v)) i)) k).
Proof.
  intros l g pos forces steps t v t' v' s i k H T ON LV I. change (V3 0 0 0) with vzero. revert s ON.
  induction steps as [|[u w] steps IH]; intros s ON.
  - cbn zeta. cbn [app fllc_run length]. rewrite (step_off _ _ _ _ _ _ _ ON), (proj2 (Rltb_spec _ _) T).
    rewrite (step_on l g pos forces t' v' (FState _ _ _) g _ eq_refl). cbn [f_force f_vrel].
    set (du := correction _ _ _ _ _ _). cbn [fst firstn map app nth].
    split; [reflexivity|].
    assert (LD : length du = length pos) by (unfold du; rewrite correction_length; apply repeat_length).
    assert (CN : nth i (corrected v' du) vzero = vadd (nth i v' vzero) (nth i du vzero)).
    { unfold corrected. set (f := fun p : vec * vec => _).
      rewrite (nth_indep _ vzero (f (vzero, vzero))) by (rewrite map_length, combine_length; lia).
      rewrite (map_nth f), combine_nth by lia. reflexivity. }
    rewrite CN, inner_vadd. f_equal. unfold du. rewrite correction_nth by (rewrite repeat_length; exact I).
    rewrite nth_repeat. unfold relax. rewrite inner_vadd, !inner_vscale, inner_vsub, inner_vzero. ring.
  - cbn zeta. cbn [app fllc_run length map snd]. rewrite (step_off _ _ _ _ _ _ _ ON).
    assert (U : u <= l_start l) by (apply (H u w); left; reflexivity). rewrite (proj2 (Rltb_false _ _) U).
    assert (Hr : forall a b, In (a, b) steps -> a <= l_start l) by (intros; eapply H; right; eassumption).
    specialize (IH Hr (FState None (fst (forces w)) (snd (forces w))) eq_refl). cbn zeta in IH.
    destruct (fllc_run l g pos forces (steps ++ _) _) as [vs s'']. cbn [fst] in *.
    destruct IH as [A B]. split; [|exact B].
    change (firstn (S (S (length steps))) (w :: vs)) with (w :: firstn (S (length steps)) vs). rewrite A. reflexivity.
Qed.
Print Assumptions c77_start.

(** Direction.  A direction in which no force and no relative velocity has a
    component gets no correction, for either kind of sum; so a wing is not given
    spanwise velocity. *)
Lemma lift_none F v dr k : inner F k = 0 -> inner v k = 0 -> inner (lift_g F v dr) k = 0.
Proof. intros A B. unfold lift_g. cbn zeta. rewrite inner_vdivs, inner_vsub, inner_vdivs, inner_vscale, A, B. unfold Rdiv. ring. Qed.
Lemma lin_v_none xs ys x k : (forall i, inner (nth i ys vzero) k = 0) -> inner (lin_v xs ys x) k = 0.
Proof. intros H. unfold lin_v. destruct (lin_w xs x) as [j f]. rewrite inner_vadd, !inner_vscale, !H. ring. Qed.
Lemma rsum_zero {A} (f : A -> R) l : (forall a, f a = 0) -> rsum (map f l) = 0.
Proof. intros H. induction l as [|a l IH]; [reflexivity|]. cbn [map]. rewrite rsum_cons, IH, H. lra. Qed.
Theorem c77_no_spanwise : forall l g pos force vrel du i k, (i < length du)%nat ->
  (forall j, inner (nth j force (V3 0 0 0)) k = 0) -> (forall j, inner (nth j vrel (V3 0 0 0)) k = 0) ->
  inner (nth i du (V3 0 0 0)) k = 0 ->
  inner (nth i (correction l g pos force vrel du) (V3 0 0 0)) k = 0.
Proof.
  intros l g pos force vrel du i k I HF HV HD. change (V3 0 0 0) with vzero in *. rewrite correction_nth by exact I.
  unfold relax. rewrite inner_vadd, !inner_vscale, inner_vsub, HD.
  assert (K : inner (fst (wanted l g pos force vrel i)) k = 0 /\ inner (snd (wanted l g pos force vrel i)) k = 0).
  { unfold wanted. cbn zeta. set (V := fun j => nth j vrel vzero). set (G := fun j => lift_g _ _ _).
    assert (HG : forall j, inner (G j) k = 0) by (intros j; apply lift_none; auto).
    assert (FV : forall m dist eps dr V' G', (forall j, inner (G' j) k = 0) -> inner (induced_var m dist eps dr V' G') k = 0).
    { intros m dist eps dr V' G' Z. unfold induced_var. rewrite (fold_inner _ (fun _ => 0)).
      - rewrite inner_vzero, rsum_zero by reflexivity. lra.
      - intros u j _. rewrite inner_vadd, !inner_vscale, inner_vdivs, inner_vscale, Z. unfold Rdiv. ring. }
    assert (FC : forall n P eps, inner (induced_const n P V G eps i) k = 0).
    { intros n P eps. unfold induced_const. rewrite (fold_inner _ (fun _ => 0)).
      - rewrite inner_vzero, rsum_zero by reflexivity. lra.
      - intros u j _. destruct (i =? j)%nat; [lra|]. cbn zeta. rewrite inner_vsub, !inner_vscale.
        assert (GZ : inner (grad_g n G j) k = 0).
        { unfold grad_g. destruct (j =? 0)%nat; [apply HG|]. destruct (j =? n - 1)%nat; rewrite inner_vscale, ?inner_vsub, !HG; ring. }
        rewrite GZ. ring. }
    destruct (l_variable l).
    - unfold sum_points. destruct (l_nonuniform l); cbn [fst snd]; split; apply FV; try exact HG;
        intros j; apply lin_v_none; intros a;
        (destruct (Nat.lt_ge_cases a (length (g_r g))) as [Q|Q];
          [rewrite (nth_indep _ vzero (G 0%nat)) by (rewrite map_length, seq_length; exact Q); rewrite (map_nth G); apply HG
          |rewrite nth_overflow by (rewrite map_length, seq_length; exact Q); apply inner_vzero]).
    - cbn [fst snd]. split; apply FC. }
  destruct K as [-> ->]. ring.
Qed.
Print Assumptions c77_no_spanwise.

(** The hypotheses are met: a straight wing of three points with chords 1, 2, 1, and a wing
    along x whose blade axes are those of [c77_axes_refuted]. *)
Example lifting_line_case : exists N, forall fuel, (N < fuel)%nat ->
  exists g, fllc_init fuel (FLLC true 3 (1 / 10) 0 true 1) [V3 0 0 0; V3 0 1 0; V3 0 2 0] [1; 2; 1] 1 = Some (Ret g) /\
    last (g_nr g) 0 = 2 /\ rsum (g_ndr g) = 2.
Proof.
  set (pos := [V3 0 0 0; V3 0 1 0; V3 0 2 0]).
  assert (D : forall y, 0 <= y -> dist_pts (V3 0 0 0) (V3 0 y 0) = y).
  { intros y Y. unfold dist_pts, len, inner; cbn [vx vy vz]. replace (_ + _ + _) with (y * y) by ring. apply sqrt_square, Y. }
  assert (RAD : map (dist_pts (nth 0 pos (V3 0 0 0))) pos = [0; 1; 2]).
  { unfold pos. cbn [nth map]. rewrite !D by lra. reflexivity. }
  destruct (c77_points (FLLC true 3 (1 / 10) 0 true 1) pos [1; 2; 1] 1 1) as [N H]; try (cbn; lia); try reflexivity; try (cbn; lra); try lra.
  - rewrite RAD. intros i I. cbn [length] in I. destruct i as [|[|i]]; [| |lia]; cbn [nth]; lra.
  - intros i I. cbn [length map] in I. destruct i as [|[|[|i]]]; [| | |lia]; cbn; lra.
  - exists N. intros fuel F. destruct (H fuel F) as (g & G & _ & _ & _ & _ & L & _ & _ & _ & S).
    exists g. rewrite RAD in L, S. split; [exact G|]. split; [exact L|exact S].
Qed.
Definition x_wing : wing := Wing 5 (V3 2 0 0) (V3 (-2) 0 0) (V3 0 1 0) (V3 1 1 1) vzero false true vone (-1)
  MNone vzero 1.
Example x_wing_axes : blade_x x_wing = V3 0 1 0 /\ blade_z x_wing = V3 0 0 1 /\ w_flags x_wing = V3 1 1 1.
Proof.
  assert (L : len (w_span x_wing) = 4).
  { unfold len, w_span, inner; cbn. replace (_ + _ + _) with (4 * 4) by ring. apply sqrt_square. lra. }
  assert (V : 0 < veps < 1) by (unfold veps; lra).
  assert (B : blade_y x_wing = V3 (-1) 0 0).
  { unfold blade_y, vnormalize. rewrite vmag_len, L, (proj2 (Rltb_false _ veps)) by lra.
    unfold vdivs, w_span, vsub; cbn. apply vec_eq; field. }
  assert (X0 : vnormalize (w_bladex x_wing) = V3 0 1 0) by (apply vnormalize_unit; unfold is_unit, inner; cbn; ring).
  assert (Z : blade_z x_wing = V3 0 0 1).
  { unfold blade_z. rewrite X0, B. replace (vcross (V3 0 1 0) (V3 (-1) 0 0)) with (V3 0 0 1) by (unfold vcross; cbn; apply vec_eq; ring).
    apply vnormalize_unit; unfold is_unit, inner; cbn; ring. }
  split; [|split; [exact Z|reflexivity]]. unfold blade_x. rewrite Z, B.
  replace (vcross (V3 (-1) 0 0) (V3 0 0 1)) with (V3 0 1 0) by (unfold vcross; cbn; apply vec_eq; ring).
  apply vnormalize_unit; unfold is_unit, inner; cbn; ring.
Qed.

(** Two points one apart in a wind of 1 with forces 1 and 2 across it, optimal
    width 1/2, width of the simulation 1: the velocity at the first is that of what
    is shed at the second. *)
Example lifting_line_target :
  let g := FGeo [0; 1] [1 / 2; 1 / 2] [1 / 2; 1 / 2] [] [] in
  let w := wanted (FLLC false 1 (1 / 10) 0 false 1) g [V3 0 0 0; V3 0 1 0] [V3 0 0 1; V3 0 0 2] [V3 1 0 0; V3 1 0 0] 0 in
  inner (fst w) (V3 0 0 1) = (1 - exp (-4)) / PI /\ inner (snd w) (V3 0 0 1) = (1 - exp (-1)) / PI.
Proof.
  cbn zeta. set (g := FGeo _ _ _ _ _). set (vrel := [V3 1 0 0; V3 1 0 0]).
  assert (L1 : forall x y z, x * x + y * y + z * z = 1 -> len (V3 x y z) = 1).
  { intros x y z H. unfold len, inner; cbn [vx vy vz]. rewrite H. apply sqrt_1. }
  assert (D : dist_pts (V3 0 1 0) (V3 0 0 0) = 1).
  { unfold dist_pts; cbn [vx vy vz]. apply L1. ring. }
  destruct (c77_target_const (FLLC false 1 (1 / 10) 0 false 1) g [V3 0 0 0; V3 0 1 0] [V3 0 0 1; V3 0 0 2] vrel 0 (V3 0 0 1)) as [A B].
  - reflexivity.
  - cbn; lia.
  - cbn; lia.
  - cbn; lra.
  - cbn; lra.
  - intros j J. cbn [g g_r length] in J. destruct j as [|[|j]]; [| |lia]; cbn; lra.
  - intros j. destruct j as [|[|[|j]]]; cbn [nth vrel]; rewrite L1 by ring; lra.
  - reflexivity.
  - intros j J N. cbn [g g_r length] in J. destruct j as [|[|j]]; [lia| |lia]. cbn [nth]. rewrite D. lra.
  - rewrite A, B. unfold sum1. cbn [g g_r length seq map nth vrel g_opt l_eps g_dr].
    unfold side, shed_strength, circulation, shed_velocity. cbn [Nat.ltb Nat.leb Nat.eqb Nat.sub nth].
    rewrite !D, !L1 by ring. unfold inner; cbn [vx vy vz]. rewrite !rsum_cons. cbn [rsum fold_right fold_left].
    replace (- (1 / (1 / 2))²) with (-4) by (unfold Rsqr; field). replace (- (1 / 1)²) with (-1) by (unfold Rsqr; field).
    pose proof PI_RGT_0. unfold Rsqr. split; field; lra.
Qed.
