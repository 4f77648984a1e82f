(** C101: a turbine rotor spread over a disk. *)
From Coq Require Import List Arith Lra Lia.
From Verif Require Import BoxR BoxRFacts VecSpace VecSpaceSpec VecSpaceProofs Tagging TaggingSpec TaggingProofs
  DiskActuator DiskSpec DiskProofs DiskProofs2 PropDiskSpread PropDiskBox ExtTurb RotorDisk RotorDiskSpec PropTagging.
Import ListNotations.
Open Scope R_scope.

(** ** The sums *)

Lemma vext a b : vx a = vx b -> vy a = vy b -> vz a = vz b -> a = b.
Proof. destruct a as [a1 a2 a3], b as [b1 b2 b3]; cbn [vx vy vz]. intros -> -> ->. reflexivity. Qed.

Lemma total_app w a b : total w (a ++ b) = vadd (total w a) (total w b).
Proof.
  induction a as [|p a IH]; cbn [total app].
  - unfold vadd; cbn [vx vy vz]. apply vext; cbn [vx vy vz]; ring.
  - rewrite IH. unfold vadd; cbn [vx vy vz]. apply vext; cbn [vx vy vz]; ring.
Qed.

Lemma push_fold w (f : nat -> apoint) l s :
  fold_left (fun s ip => push w s (f ip)) l s = vadd s (total w (map f l)).
Proof.
  revert s. induction l as [|i l IH]; intros s; cbn [fold_left map total].
  - unfold vadd; cbn [vx vy vz]. apply vext; cbn [vx vy vz]; ring.
  - rewrite IH. unfold push, vadd, vscale; cbn [vx vy vz]. apply vext; cbn [vx vy vz]; ring.
Qed.

Lemma slice_map {A} (d : A) (l : list A) k n : (k + n <= length l)%nat ->
  firstn n (skipn k l) = map (fun i => nth (k + i) l d) (seq 0 n).
Proof.
  revert k. induction n as [|n IH]; intros k H; [reflexivity|].
  cbn [seq map]. rewrite Nat.add_0_r.
  assert (S : skipn k l = nth k l d :: skipn (S k) l).
  { clear IH. revert k H. induction l as [|x l IHl]; intros k H; [cbn in H; lia|].
    destruct k as [|k]; [reflexivity|]. cbn [skipn nth]. rewrite IHl by (cbn in H; lia). destruct l; reflexivity. }
  rewrite S. cbn [firstn]. f_equal. rewrite IH by lia. rewrite <- seq_shift, map_map.
  apply map_ext. intros i. f_equal. lia.
Qed.

(** What a cell receives: the forces of the blades, each with its weight, and the forces of the tower and of the hub
    with the Gaussian around them, the latter as many times as there are blades. *)
Theorem c101_source : forall r dR cc, whole r ->
  let body := vadd (total (around cc) (tower_points r)) (total (around cc) [hub_pt r]) in
  rotor_source r dR cc =
    vadd (total (blade_weight r dR cc) (blade_points r)) (vscale body (INR (r_nb r))).
Proof.
  intros r dR cc W body. unfold rotor_source.
  assert (T : tower_points r = map (tower_pt r) (seq 0 (r_npt r))).
  { unfold tower_points, tower_pt, tower_view. cbn [fst].
    rewrite (slice_map nowhere) by (unfold whole in W; lia). apply map_ext. intros i. f_equal. lia. }
  assert (K : forall n, (n <= r_nb r)%nat ->
    fold_left (fun s ib =>
      push (body_weight cc)
        (fold_left (fun s ip => push (body_weight cc) s (tower_pt r ip)) (seq 0 (r_npt r))
          (fold_left (fun s ip => push (blade_weight r dR cc) s (blade_pt r ib ip)) (seq 0 (r_npb r)) s)) (hub_pt r))
      (seq 0 n) vzero =
    vadd (total (blade_weight r dR cc) (firstn (n * r_npb r) (skipn 1 (r_pts r)))) (vscale body (INR n))).
  { induction n as [|n IH]; intros L.
    - cbn. unfold vadd, vscale, vzero; cbn [vx vy vz]. apply vext; cbn [vx vy vz]; ring.
    - rewrite seq_S, fold_left_app, IH by lia. cbn [fold_left]. rewrite Nat.add_0_l.
      rewrite !push_fold. rewrite <- T. unfold body_weight at 1.
      assert (LN : (S n * r_npb r <= r_nb r * r_npb r)%nat) by (apply Nat.mul_le_mono_r; lia).
      assert (LN' : (n * r_npb r <= r_nb r * r_npb r)%nat) by (apply Nat.mul_le_mono_r; lia).
      unfold whole in W.
      rewrite !(slice_map nowhere) by lia.
      replace (S n * r_npb r)%nat with (n * r_npb r + r_npb r)%nat by lia.
      rewrite seq_app, map_app, total_app, Nat.add_0_l.
      assert (B : map (fun i => nth (1 + i) (r_pts r) nowhere) (seq (n * r_npb r) (r_npb r)) =
                  map (blade_pt r n) (seq 0 (r_npb r))).
      { generalize (r_npb r) at 2 3. intros m.
        replace (seq (n * r_npb r) m) with (map (fun i => n * r_npb r + i)%nat (seq 0 m)).
        - rewrite map_map. apply map_ext. intros i. unfold blade_pt, blade_view. cbn [fst]. f_equal. lia.
        - clear. induction m as [|m IH]; [reflexivity|]. rewrite !seq_S, map_app, IH. reflexivity. }
      rewrite B. unfold push, body, around. rewrite S_INR. cbn [total].
      unfold vadd, vscale; cbn [vx vy vz].
      apply vext; cbn [vx vy vz]; unfold body_weight; ring. }
  rewrite K by lia. reflexivity.
Qed.

(** The force of the tower and of the hub reaches the flow once for each blade: a turbine with three blades puts three
    times the force of its tower and of its nacelle into the flow, and one without blades none. *)
Theorem c101_tower_refuted :
  (forall r dR cc, whole r -> (forall p, In p (blade_points r) -> a_force p = vzero) ->
     rotor_source r dR cc = vscale (total (around cc) (tower_points r ++ [hub_pt r])) (INR (r_nb r))) /\
  exists r dR cc, whole r /\ (forall p, In p (blade_points r) -> a_force p = vzero) /\
     vx (total (around cc) (tower_points r ++ [hub_pt r])) = gauss_fac /\
     vx (rotor_source r dR cc) = 3 * gauss_fac.
Proof.
  assert (G : forall r dR cc, whole r -> (forall p, In p (blade_points r) -> a_force p = vzero) ->
     rotor_source r dR cc = vscale (total (around cc) (tower_points r ++ [hub_pt r])) (INR (r_nb r))).
  { intros r dR cc W Z. rewrite c101_source by exact W. cbn zeta.
    assert (E : total (blade_weight r dR cc) (blade_points r) = vzero).
    { induction (blade_points r) as [|p l IH]; [reflexivity|]. cbn [total]. rewrite IH by (intros q Q; apply Z; right; exact Q).
      rewrite (Z p) by (left; reflexivity). unfold vzero; cbn [vx vy vz]. apply vext; cbn [vx vy vz]; ring. }
    rewrite E, total_app. unfold vadd, vscale, vzero; cbn [vx vy vz]. apply vext; cbn [vx vy vz]; ring. }
  split; [exact G|].
  set (hub := AP vzero (V3 1 0 0) (V3 1 1 1) (T9 1 0 0 0 1 0 0 0 1)).
  set (b := AP (V3 0 0 1) vzero (V3 1 1 1) (T9 1 0 0 0 1 0 0 0 1)).
  exists (Rotor 3 1 0 [hub; b; b; b] vzero (V3 1 0 0)), 1, vzero.
  assert (W : whole (Rotor 3 1 0 [hub; b; b; b] vzero (V3 1 0 0))) by reflexivity.
  assert (Z : forall p, In p (blade_points (Rotor 3 1 0 [hub; b; b; b] vzero (V3 1 0 0))) -> a_force p = vzero).
  { cbn. intros p H. destruct H as [<-|[<-|[<-|[]]]]; reflexivity. }
  assert (E : vx (total (around vzero) (tower_points (Rotor 3 1 0 [hub; b; b; b] vzero (V3 1 0 0)) ++
                 [hub_pt (Rotor 3 1 0 [hub; b; b; b] vzero (V3 1 0 0))])) = gauss_fac).
  { cbn. unfold around, gaussian3d. cbn. unfold vmag_sqr; cbn.
    match goal with |- (if Rltb ?a ?b then _ else _) * _ + _ = _ => assert (L : Rltb a b = true) end.
    { apply Rltb_spec. unfold Rdiv. rewrite Rinv_1. lra. }
    rewrite L. match goal with |- context [exp ?a] => replace a with 0 by (unfold Rdiv; rewrite Rinv_1; ring) end.
    rewrite exp_0. field. }
  split; [exact W|]. split; [exact Z|]. split; [exact E|].
  rewrite (G _ 1 vzero W Z). unfold vscale. cbn [vx]. rewrite E. cbn [r_nb]. cbn. ring.
Qed.

(** ** The weight of a point of a blade *)

Lemma weight_theta r dR cc p :
  blade_weight r dR cc p =
  theta_weight (Disk (r_center r) (r_normal r) vzero vzero (vx (a_eps p)) 0 dR 0 (r_nb r) 0 0 0) [a_pos p] cc 0.
Proof.
  unfold blade_weight, theta_weight, rotor_dt. cbn [d_center d_normal d_eps d_dr d_nt nth]. cbn zeta.
  rewrite (Rmult_comm (2 * PI / INR (r_nb r))).
  rewrite (Rmult_comm (vx (delta_pnts_cyl (r_center r) (r_normal r) (r_center r) (a_pos p)))
     (vy (delta_pnts_cyl (r_center r) (r_normal r) cc (a_pos p)))). reflexivity.
Qed.

(** The weight of a point of a blade in a cell: a hat in the difference of the distances from the axis, whose
    half-width is the square of the distance between the first two points of the first blade; a hat in the arc between
    them, whose half-width is the arc between two blades; the Gaussian of the distance along the axis. *)
Theorem c101_weight : forall r dR cc p p0 p1, is_unit (r_normal r) ->
  rotor_dr r = Ret dR -> nth_error (r_pts r) 1 = Some p0 -> nth_error (r_pts r) 2 = Some p1 ->
  let h := len (vsub (a_pos p0) (a_pos p1)) in
  let a := off_axis (r_center r) (r_normal r) cc in
  let b := off_axis (r_center r) (r_normal r) (a_pos p) in
  dR = h ^ 2 /\
  exists th, 0 <= th <= PI /\ cos th * (len a * len b + / 4503599627370496) = inner a b /\
    blade_weight r dR cc p =
      hat (h ^ 2) (Rabs (radius r cc - radius r (a_pos p))) *
      hat (2 * PI / INR (r_nb r) * radius r (a_pos p)) (th * radius r (a_pos p)) *
      gaussian1d (along (r_center r) (r_normal r) cc - along (r_center r) (r_normal r) (a_pos p)) (vx (a_eps p)).
Proof.
  intros r dR cc p p0 p1 U D P0 P1 h a b.
  assert (E : dR = h ^ 2).
  { unfold rotor_dr, blade_view in D. cbn [fst Nat.mul Nat.add] in D. rewrite P0, P1 in D. injection D as <-.
    unfold h. replace (len (vsub (a_pos p0) (a_pos p1)) ^ 2)
      with (len (vsub (a_pos p0) (a_pos p1)) * len (vsub (a_pos p0) (a_pos p1))) by ring.
    rewrite len_sqr. reflexivity. }
  split; [exact E|]. rewrite weight_theta.
  destruct (c72_azimuthal_weight
    (Disk (r_center r) (r_normal r) vzero vzero (vx (a_eps p)) 0 dR 0 (r_nb r) 0 0 0) [a_pos p] cc 0 U) as (th & T1 & T2 & T3).
  exists th. split; [exact T1|]. split; [exact T2|].
  cbn zeta in T3. cbn [d_center d_normal d_eps d_dr d_nt nth] in T3. rewrite T3, E. reflexivity.
Qed.

Lemma hat_zero w s : 0 < w -> w <= s -> hat w s = 0.
Proof.
  intros W S. unfold hat. rewrite Rmax_left; [field; lra|].
  assert (1 <= s / w); [|lra]. apply (Rmult_le_reg_r w); [exact W|]. unfold Rdiv. rewrite Rmult_assoc, Rinv_l by lra. lra.
Qed.
Lemma hat_pos w s : 0 < w -> s < w -> 0 < hat w s.
Proof.
  intros W S. unfold hat. assert (s / w < 1).
  { apply (Rmult_lt_reg_r w); [exact W|]. unfold Rdiv. rewrite Rmult_assoc, Rinv_l by lra. lra. }
  rewrite Rmax_right by lra. apply Rdiv_lt_0_compat; lra.
Qed.

Lemma unit_hats : forall ra s k i,
  0 <= s <= 1 ->
  hat (1 ^ 2) (Rabs (ra + INR k + s - (ra + INR i))) =
    if Nat.eqb i k then 1 - s else if Nat.eqb i (S k) then s else 0.
Proof.
  intros ra s k i S. replace (ra + INR k + s - (ra + INR i)) with (INR k - INR i + s) by ring.
  replace (1 ^ 2) with 1 by ring.
  assert (H : forall u, 0 <= u <= 1 -> hat 1 u = 1 - u).
  { intros u U. unfold hat. unfold Rdiv. rewrite Rinv_1, !Rmult_1_r. apply Rmax_right. lra. }
  destruct (Nat.eqb_spec i k) as [->|N1].
  - rewrite Rminus_diag_eq by reflexivity. rewrite Rplus_0_l, Rabs_pos_eq by lra. apply H. exact S.
  - destruct (Nat.eqb_spec i (Datatypes.S k)) as [->|N2].
    + rewrite S_INR. replace (INR k - (INR k + 1) + s) with (- (1 - s)) by ring.
      rewrite Rabs_Ropp, Rabs_pos_eq by lra. rewrite H by lra. ring.
    + apply hat_zero; [lra|].
      destruct (Nat.lt_ge_cases i k) as [L|L].
      * apply Nat.le_succ_l in L. apply le_INR in L. rewrite S_INR in L. rewrite Rabs_pos_eq; lra.
      * assert (L' : (k + 2 <= i)%nat) by lia. apply le_INR in L'. rewrite plus_INR in L'. cbn in L'.
        rewrite Rabs_left1; lra.
Qed.

(** With points one length unit apart a cell between two rings of points takes its force from these two only, in the
    proportion of its distances from them. *)
Theorem c101_unit_spacing : forall r dR cc p p0 p1 r0 k s i, is_unit (r_normal r) ->
  rotor_dr r = Ret dR -> nth_error (r_pts r) 1 = Some p0 -> nth_error (r_pts r) 2 = Some p1 ->
  len (vsub (a_pos p0) (a_pos p1)) = 1 -> 0 <= s <= 1 ->
  radius r cc = r0 + INR k + s -> radius r (a_pos p) = r0 + INR i ->
  exists th, 0 <= th <= PI /\
    blade_weight r dR cc p =
      (if Nat.eqb i k then 1 - s else if Nat.eqb i (S k) then s else 0) *
      hat (2 * PI / INR (r_nb r) * radius r (a_pos p)) (th * radius r (a_pos p)) *
      gaussian1d (along (r_center r) (r_normal r) cc - along (r_center r) (r_normal r) (a_pos p)) (vx (a_eps p)).
Proof.
  intros r dR cc p p0 p1 r0 k s i U D P0 P1 H S C P.
  destruct (c101_weight r dR cc p p0 p1 U D P0 P1) as (_ & th & T & _ & E). exists th. split; [exact T|].
  rewrite E, H, C, P, (unit_hats r0 s k i S). reflexivity.
Qed.

(** Points less than half a length unit apart leave gaps: midway between two rings of points no force of any blade is
    felt, whatever the forces. *)
Theorem c101_gap_refuted : forall r dR cc p0 p1 r0 k,
  is_unit (r_normal r) -> rotor_dr r = Ret dR ->
  nth_error (r_pts r) 1 = Some p0 -> nth_error (r_pts r) 2 = Some p1 ->
  let h := len (vsub (a_pos p0) (a_pos p1)) in
  0 < h < 1 / 2 ->
  (forall p, In p (blade_points r) -> exists i, radius r (a_pos p) = r0 + INR i * h) ->
  radius r cc = r0 + (INR k + 1 / 2) * h ->
  total (blade_weight r dR cc) (blade_points r) = vzero.
Proof.
  intros r dR cc p0 p1 r0 k U D P0 P1 h H R C.
  induction (blade_points r) as [|p l IH]; [reflexivity|]. cbn [total].
  rewrite IH by (intros q Q; apply R; right; exact Q).
  assert (W : blade_weight r dR cc p = 0).
  { destruct (c101_weight r dR cc p p0 p1 U D P0 P1) as (_ & th & _ & _ & E). rewrite E. fold h.
    destruct (R p (or_introl eq_refl)) as [i Ri]. rewrite hat_zero; [ring|nra|].
    rewrite Ri, C.
    replace (r0 + (INR k + 1 / 2) * h - (r0 + INR i * h)) with ((INR k - INR i + 1 / 2) * h) by ring.
    rewrite Rabs_mult, (Rabs_pos_eq h) by lra.
    assert (A : 1 / 2 <= Rabs (INR k - INR i + 1 / 2)).
    { destruct (Nat.lt_ge_cases k i) as [L|L].
      - apply Nat.le_succ_l in L. apply le_INR in L. rewrite S_INR in L. rewrite Rabs_left1; lra.
      - apply le_INR in L. rewrite Rabs_pos_eq; lra. }
    nra. }
  rewrite W. unfold vzero; cbn [vx vy vz]. apply vext; cbn [vx vy vz]; ring.
Qed.

(** Points more than one length unit apart are felt too far away: up to the square of the spacing from the point, so
    that a spacing of 5 m puts force 25 m beyond the tip of the blade. *)
Theorem c101_spill_refuted : forall r dR cc p p0 p1,
  is_unit (r_normal r) -> rotor_dr r = Ret dR ->
  nth_error (r_pts r) 1 = Some p0 -> nth_error (r_pts r) 2 = Some p1 ->
  let h := len (vsub (a_pos p0) (a_pos p1)) in
  0 < h -> (1 <= r_nb r <= 3)%nat -> 0 < vx (a_eps p) -> 0 < radius r (a_pos p) ->
  0 <= inner (off_axis (r_center r) (r_normal r) cc) (off_axis (r_center r) (r_normal r) (a_pos p)) ->
  Rabs (along (r_center r) (r_normal r) cc - along (r_center r) (r_normal r) (a_pos p)) < 16 * vx (a_eps p) ->
  Rabs (radius r cc - radius r (a_pos p)) < h ^ 2 ->
  0 < blade_weight r dR cc p.
Proof.
  intros r dR cc p p0 p1 U D P0 P1 h H NB EP RP IN AL S.
  destruct (c101_weight r dR cc p p0 p1 U D P0 P1) as (_ & th & T1 & T2 & E). fold h in E. rewrite E.
  assert (L : 0 <= len (off_axis (r_center r) (r_normal r) cc) * len (off_axis (r_center r) (r_normal r) (a_pos p)))
    by (apply Rmult_le_pos; apply sqrt_pos).
  assert (CT : 0 <= cos th).
  { set (m := len _ * len _) in *.
    destruct (Rle_or_lt 0 (cos th)) as [Q|Q]; [exact Q|]. exfalso.
    assert (cos th * (m + / 4503599627370496) < 0); [|lra].
    assert (0 < m + / 4503599627370496) by lra. nra. }
  pose proof PI_RGT_0 as PP.
  assert (TH : th <= PI / 2).
  { destruct (Rle_or_lt th (PI / 2)) as [Q|Q]; [exact Q|]. exfalso.
    assert (cos th < 0); [|lra]. apply cos_lt_0; lra. }
  assert (N : 1 <= INR (r_nb r) <= 3).
  { destruct NB as [N1 N2]. apply le_INR in N1. apply le_INR in N2. cbn in N1, N2. lra. }
  assert (AN : PI / 2 < 2 * PI / INR (r_nb r)).
  { apply (Rmult_lt_reg_r (INR (r_nb r))); [lra|]. unfold Rdiv at 2. rewrite Rmult_assoc, Rinv_l by lra. nra. }
  apply Rmult_lt_0_compat; [apply Rmult_lt_0_compat|].
  - apply hat_pos; [|exact S]. assert (0 < h * h) by (apply Rmult_lt_0_compat; exact H). cbn. lra.
  - apply hat_pos; [apply Rmult_lt_0_compat; lra|]. apply Rmult_lt_compat_r; lra.
  - unfold gaussian1d. cbn zeta.
    match goal with |- context [Rleb ?a ?b] => assert (F : Rleb a b = false) end.
    { apply Rleb_false. unfold Rdiv. rewrite Rabs_mult, Rabs_inv, (Rabs_pos_eq (vx (a_eps p))) by lra.
      apply (Rmult_lt_reg_r (vx (a_eps p))); [exact EP|]. rewrite Rmult_assoc, Rinv_l by lra. lra. }
    rewrite F. apply Rmult_lt_0_compat; [|apply exp_pos].
    apply Rdiv_lt_0_compat; [|exact EP]. apply Rinv_0_lt_compat. apply sqrt_lt_R0. exact PP.
Qed.

(** With one point on each blade the spacing is taken from points of two different blades; a single point and no tower
    reads beyond the list. *)
Theorem c101_one_point_refuted : forall r,
  r_npb r = 1%nat -> whole r ->
  ((2 <= r_nb r)%nat ->
     rotor_dr r = Ret (vmag_sqr (vsub (a_pos (blade_pt r 0 0)) (a_pos (blade_pt r 1 0))))) /\
  (r_nb r = 1%nat -> r_npt r = 0%nat -> rotor_dr r = UB).
Proof.
  intros r P W. unfold whole in W. rewrite P in W. split.
  - intros N. unfold rotor_dr, blade_pt, blade_view. rewrite P. cbn [fst Nat.mul Nat.add].
    destruct (r_pts r) as [|a [|b [|c l]]]; cbn in W; try lia. reflexivity.
  - intros N T. unfold rotor_dr, blade_view. rewrite P. cbn [fst Nat.mul Nat.add].
    destruct (r_pts r) as [|a [|b [|c l]]]; cbn in W; try lia. reflexivity.
Qed.

(** ** Tiles *)

(** Every cell of the domain inside the bounding box receives the whole source, whatever tile it is in; cells outside
    the tile are left alone. *)
Theorem c101_tiles : forall rb g n tile r dR, geom_ok g n -> near rb g -> rotor_dr r = Ret dR ->
  exists f, rotor_tile rb g tile r = Ret f /\
    (forall c, in_box (domain n) c -> in_box tile c -> in_rbox rb (centre g c) -> f c = rotor_source r dR (centre g c)) /\
    (forall c, ~ in_box tile c -> f c = vzero).
Proof.
  intros rb g n tile r dR G N D. destruct (rtb_ok rb g n G N) as (b & E & _ & _ & C & _).
  unfold rotor_tile. rewrite E. cbn [obind]. cbv zeta.
  destruct (box_empty (box_and tile b)) eqn:Em.
  - eexists. split; [reflexivity|]. split; [|reflexivity].
    intros c Dm T I. exfalso. rewrite (box_empty_in (box_and tile b) c) in Em; [discriminate|].
    apply box_and_in. split; [exact T|apply C; assumption].
  - rewrite D. cbn [obind]. eexists. split; [reflexivity|]. split.
    + intros c Dm T I. rewrite (proj2 (in_boxb_spec tile c) T), cell_centre. reflexivity.
    + intros c T. destruct (in_boxb tile c) eqn:B; [exfalso; apply T, in_boxb_spec, B|reflexivity].
Qed.

(** A cell outside the bounding box receives the source or nothing, depending on the tile it happens to be in. *)
Theorem c101_tiles_refuted : forall rb g b r dR t1 t2 c f1 f2,
  realbox_to_box rb g = Ret b -> rotor_dr r = Ret dR ->
  in_box t1 c -> in_box t2 c -> box_empty (box_and t1 b) = false -> box_empty (box_and t2 b) = true ->
  rotor_tile rb g t1 r = Ret f1 -> rotor_tile rb g t2 r = Ret f2 ->
  f1 c = rotor_source r dR (centre g c) /\ f2 c = vzero.
Proof.
  intros rb g b r dR t1 t2 c f1 f2 E D I1 I2 E1 E2. unfold rotor_tile. rewrite E. cbn [obind]. cbv zeta.
  rewrite E1, E2, D. cbn [obind]. intros F1 F2. injection F1 as <-. injection F2 as <-.
  rewrite (proj2 (in_boxb_spec t1 c) I1), cell_centre. split; reflexivity.
Qed.

(** One blade along z with three points a quarter apart, the hub and no tower. *)
Definition ex_pt (z : R) (f : vec) : apoint := AP (V3 0 0 z) f (V3 1 1 1) (T9 1 0 0 0 1 0 0 0 1).
Definition ex_rotor : rotor :=
  Rotor 1 3 0 [ex_pt 0 vzero; ex_pt 1 (V3 8 0 0); ex_pt (5 / 4) (V3 8 0 0); ex_pt (3 / 2) (V3 8 0 0)] vzero (V3 1 0 0).

Lemma ex_radius y : 0 <= y -> radius ex_rotor (V3 0 0 y) = y.
Proof.
  intros Y. unfold radius, axis_dist, off_axis, along, len, inner, ex_rotor; cbn [r_center r_normal vx vy vz vzero].
  match goal with |- sqrt ?a = _ => replace a with (y * y) by ring end. apply sqrt_square. exact Y.
Qed.

Example c101_gap_example :
  whole ex_rotor /\ is_unit (r_normal ex_rotor) /\ rotor_dr ex_rotor = Ret (1 / 16) /\
  rotor_source ex_rotor (1 / 16) (V3 0 0 (9 / 8)) = vzero /\
  (* a point of the blade itself does feel a force *)
  0 < blade_weight ex_rotor (1 / 16) (V3 0 0 1) (ex_pt 1 (V3 8 0 0)).
Proof.
  assert (D : rotor_dr ex_rotor = Ret (1 / 16)).
  { unfold rotor_dr, ex_rotor. cbn. f_equal. unfold vmag_sqr, vsub; cbn. lra. }
  assert (U : is_unit (r_normal ex_rotor)) by (unfold is_unit, inner, ex_rotor; cbn; ring).
  assert (HL : len (vsub (a_pos (ex_pt 1 (V3 8 0 0))) (a_pos (ex_pt (5 / 4) (V3 8 0 0)))) = 1 / 4).
  { unfold len, inner, vsub, ex_pt; cbn [a_pos vx vy vz].
    match goal with |- sqrt ?a = _ => replace a with ((1 / 4) * (1 / 4)) by field end. apply sqrt_square. lra. }
  split; [reflexivity|]. split; [exact U|]. split; [exact D|]. split.
  - rewrite c101_source by reflexivity. cbn zeta.
    rewrite (c101_gap_refuted ex_rotor (1 / 16) (V3 0 0 (9 / 8)) (ex_pt 1 (V3 8 0 0)) (ex_pt (5 / 4) (V3 8 0 0)) 1 0 U D
      eq_refl eq_refl).
    + unfold tower_points, hub_pt, ex_rotor, around. cbn.
      unfold vadd, vscale, vzero; cbn [vx vy vz]. apply vext; cbn [vx vy vz]; ring.
    + rewrite HL. lra.
    + rewrite HL. intros p H. cbn in H. destruct H as [<-|[<-|[<-|[]]]]; cbn [ex_pt a_pos].
      * exists 0%nat. rewrite ex_radius by lra. cbn. lra.
      * exists 1%nat. rewrite ex_radius by lra. cbn. lra.
      * exists 2%nat. rewrite ex_radius by lra. cbn. lra.
    + rewrite HL, ex_radius by lra. cbn. lra.
  - apply (c101_spill_refuted ex_rotor (1 / 16) (V3 0 0 1) (ex_pt 1 (V3 8 0 0)) (ex_pt 1 (V3 8 0 0)) (ex_pt (5 / 4) (V3 8 0 0)) U D eq_refl eq_refl).
    + rewrite HL. lra.
    + cbn. lia.
    + cbn. lra.
    + cbn [ex_pt a_pos]. rewrite ex_radius; lra.
    + unfold inner, off_axis, along, ex_rotor, ex_pt; cbn [r_center r_normal a_pos vx vy vz vzero]. lra.
    + unfold along, ex_rotor, ex_pt; cbn [r_center r_normal a_pos a_eps vx vy vz vzero]. rewrite Rabs_pos_eq; lra.
    + rewrite HL. rewrite Rminus_diag_eq by reflexivity. rewrite Rabs_R0. lra.
Qed.

(** The box of C22's example and two tiles with the cell (3,0,0) that lies outside the box. *)
Example c101_tiles_example :
  realbox_to_box bb1 g4 = Ret (Box (IV 0 0 0) (IV 1 2 2)) /\
  box_empty (box_and (Box (IV 0 0 0) (IV 3 3 3)) (Box (IV 0 0 0) (IV 1 2 2))) = false /\
  box_empty (box_and (Box (IV 2 0 0) (IV 3 3 3)) (Box (IV 0 0 0) (IV 1 2 2))) = true.
Proof. split; [apply bb1_box|]. split; reflexivity. Qed.

Print Assumptions c101_source.
Print Assumptions c101_tower_refuted.
Print Assumptions c101_weight.
Print Assumptions c101_unit_spacing.
Print Assumptions c101_gap_refuted.
Print Assumptions c101_spill_refuted.
Print Assumptions c101_one_point_refuted.
Print Assumptions c101_tiles.
Print Assumptions c101_tiles_refuted.
