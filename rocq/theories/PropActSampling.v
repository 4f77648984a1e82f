(** C78: actuators over several processes. *)
From Coq Require Import String Permutation.
From Verif Require Import BoxR BoxRFacts VecSpace VecSpaceSpec Tagging TaggingSpec TaggingProofs Wing ActSampling ActSamplingSpec ActSamplingProofs.
Open Scope list_scope.
Open Scope R_scope.

(** *** Ranks *)

(** The ranks of an actuator are defined; every rank with a cell, on any level,
    whose centre lies in the bounding box is one of them; every one of them has a
    cell no further than two coarse cells from the box. *)
Theorem c78_influenced : forall levels g n rb, geom_ok g n -> near rb g ->
  (forall lv r, In (lv, r) levels -> (0 < iv0 r /\ 0 < iv1 r /\ 0 < iv2 r)%Z) ->
  exists s, influenced levels g rb = Ret s /\
    (forall lev lv r b q c, nth_error levels lev = Some (lv, r) -> In (b, q) lv -> in_box b c ->
       in_rbox (RBox (gplo g) (gphi g)) (centre (level_geom levels g lev) c) ->
       in_rbox rb (centre (level_geom levels g lev) c) -> s q = true) /\
    (forall q, s q = true -> exists lev lv r b c, nth_error levels lev = Some (lv, r) /\
       In (b, q) lv /\ in_box b c /\ in_rbox (grown 2 g rb) (centre (level_geom levels g lev) c)).
Proof. exact influenced_ok. Qed.
Print Assumptions c78_influenced.

(** The geometry of a level is the coarsest one refined by the ratios below it. *)
Theorem c78_level_geom : forall lv r rest g lev,
  level_geom ((lv, r) :: rest) g 0 = g /\
  level_geom ((lv, r) :: rest) g (S lev) = level_geom rest (finer g r) lev.
Proof. intros. split; reflexivity. Qed.
Print Assumptions c78_level_geom.

(** Roots, for any number of actuators and any ranks they reach: the root is a
    rank, it is on the list of the actuator, and the list grows by nothing else. *)
Theorem c78_root : forall P infl, (0 < P)%nat ->
  let '(l, c) := roots P infl in
  length l = length infl /\
  forall i, (i < length infl)%nat ->
    let root := fst (nth i l (0%nat, fun _ => false)) in
    let before := nth i infl (fun _ => false) in let after := snd (nth i l (0%nat, fun _ => false)) in
    (root < P)%nat /\ after root = true /\
    forall q, after q = true <-> before q = true \/ q = root.
Proof.
  intros P infl P0. unfold roots.
  pose proof (roots_from_ok P P0 infl (repeat 0%nat P) (repeat_length _ _)) as H.
  destruct (roots_from P infl (repeat 0%nat P)) as [l c].
  destruct H as (_ & _ & L & _ & H); [intros p q _ _; rewrite !nth_repeat0; lia|].
  split; [exact L|]. intros i I. destruct (H i I) as (A & B & C & D & _). cbn zeta in *.
  split; [exact A|]. split; [exact B|]. intros q. split; [apply D|]. intros [K|K]; [apply C, K|].
  rewrite K. exact B.
Qed.
Print Assumptions c78_root.

(** Load: the counts say how many actuators each rank is the root of, and differ
    by one at most; so no rank has two as long as there are enough ranks. *)
Theorem c78_balance : forall P infl, (0 < P)%nat ->
  let '(l, c) := roots P infl in
  (forall p, (p < P)%nat -> nth p c 0%nat = times p (map fst l)) /\
  (forall p q, (p < P)%nat -> (q < P)%nat -> (times p (map fst l) <= times q (map fst l) + 1)%nat) /\
  fold_left Nat.add c 0%nat = length infl /\
  ((length infl <= P)%nat -> forall p, (p < P)%nat -> (times p (map fst l) <= 1)%nat).
Proof.
  intros P infl P0. unfold roots.
  pose proof (roots_from_ok P P0 infl (repeat 0%nat P) (repeat_length _ _)) as H.
  destruct (roots_from P infl (repeat 0%nat P)) as [l c].
  destruct H as (LC & B & L & C & H); [intros p q _ _; rewrite !nth_repeat0; lia|].
  assert (C' : forall p, (p < P)%nat -> nth p c 0%nat = times p (map fst l)).
  { intros p Hp. rewrite C, nth_repeat0 by exact Hp. reflexivity. }
  assert (B' : forall p q, (p < P)%nat -> (q < P)%nat -> (times p (map fst l) <= times q (map fst l) + 1)%nat).
  { intros p q Hp Hq. rewrite <- !C' by assumption. apply B; assumption. }
  assert (SUM : forall m, (forall x, In x m -> (x < P)%nat) -> fold_left (fun s p => (s + times p m)%nat) (seq 0 P) 0%nat = length m).
  { clear -P0. induction m as [|x m IH]; intros M.
    - cbn. clear. generalize (seq 0 P). induction l; cbn; auto.
    - cbn [times length]. rewrite <- IH by (intros y Y; apply M; right; exact Y).
      assert (X : (x < P)%nat) by (apply M; left; reflexivity). clear -X.
      enough (E : forall k s t, fold_left (fun s p => (s + ((if Nat.eqb x p then 1 else 0) + times p m))%nat) (seq 0 k) (s + t)%nat
        = (fold_left (fun s p => (s + times p m)%nat) (seq 0 k) s + t + (if (x <? k)%nat then 1 else 0))%nat).
      { specialize (E P 0%nat 0%nat). rewrite (proj2 (Nat.ltb_lt _ _) X) in E. cbn [plus] in *. rewrite E. lia. }
      induction k as [|k IHk]; intros s t; [cbn; lia|].
      rewrite seq_S, !fold_left_app, IHk. cbn [fold_left plus].
      destruct (Nat.ltb_spec x k), (Nat.ltb_spec x (S k)), (Nat.eqb_spec x k); lia. }
  assert (TOT : fold_left Nat.add c 0%nat = length infl).
  { rewrite <- L, <- (map_length fst l), <- SUM.
    - rewrite <- LC in C' |- *. clear -C'. revert C'. generalize (map fst l) as m. intros m C'.
      enough (E : forall (c : list nat) k s, (forall p, (p < length c)%nat -> nth p c 0%nat = times (k + p) m) ->
        fold_left Nat.add c s = fold_left (fun s p => (s + times p m)%nat) (seq k (length c)) s).
      { apply (E c 0%nat 0%nat). exact C'. }
      clear. induction c as [|x c IH]; intros k s H; [reflexivity|]. cbn [fold_left length seq].
      rewrite (IH (S k)).
      + f_equal. f_equal. specialize (H 0%nat). rewrite Nat.add_0_r in H. apply H. cbn; lia.
      + intros p Hp. specialize (H (S p) ltac:(cbn; lia)). cbn [nth] in H. rewrite H, Nat.add_succ_r. reflexivity.
    - intros x X. apply in_map_iff in X. destruct X as (e & <- & X). apply (In_nth _ _ (0%nat, fun _ => false)) in X.
      destruct X as (i & I & <-). refine (proj1 (H i _)). rewrite <- L. exact I. }
  split; [exact C'|]. split; [exact B'|]. split; [exact TOT|].
  intros NL p Hp. destruct (le_lt_dec (times p (map fst l)) 1) as [K|K]; [exact K|]. exfalso.
  assert (ALL : forall q, (q < P)%nat -> (1 <= nth q c 0)%nat).
  { intros q Hq. rewrite C' by exact Hq. specialize (B' p q Hp Hq). lia. }
  assert (TWO : (2 <= nth p c 0)%nat) by (rewrite C' by exact Hp; lia).
  assert (GE : (length c + 1 <= fold_left Nat.add c 0)%nat).
  { rewrite <- LC in Hp, ALL. clear -ALL TWO Hp. revert p Hp TWO ALL.
    assert (FS : forall l s, fold_left Nat.add l s = (s + fold_left Nat.add l 0)%nat).
    { induction l as [|a l IHl]; intros s; cbn [fold_left]; [lia|]. rewrite (IHl (s + a)%nat), (IHl (0 + a)%nat). lia. }
    assert (G1 : forall d : list nat, (forall q, (q < length d)%nat -> (1 <= nth q d 0)%nat) -> (length d <= fold_left Nat.add d 0)%nat).
    { induction d as [|x d IH]; intros A; cbn [fold_left length]; [lia|]. rewrite FS.
      pose proof (A 0%nat ltac:(cbn; lia)) as A0. cbn in A0. specialize (IH (fun q Q => A (S q) ltac:(cbn; lia))). lia. }
    induction c as [|x c IH]; intros p Hp TWO ALL; [cbn in Hp; lia|]. cbn [fold_left length]. rewrite FS.
    pose proof (ALL 0%nat ltac:(cbn; lia)) as A0. cbn in A0.
    assert (ALL' : forall q, (q < length c)%nat -> (1 <= nth q c 0)%nat) by (intros q Q; apply (ALL (S q)); cbn; lia).
    destruct p as [|p].
    - cbn in TWO. specialize (G1 c ALL'). lia.
    - specialize (IH p ltac:(cbn in Hp; lia) TWO ALL'). lia. }
  lia.
Qed.
Print Assumptions c78_balance.

(** Locality: when an actuator reaches a rank that is not yet the root of an
    earlier one, its root is such a rank, the lowest of them. *)
Theorem c78_local_root : forall P infl i q, (0 < P)%nat -> (i < length infl)%nat -> (q < P)%nat ->
  let l := map fst (fst (roots P infl)) in
  nth i infl (fun _ => false) q = true -> times q (firstn i l) = 0%nat ->
  nth i infl (fun _ => false) (nth i l 0%nat) = true /\ times (nth i l 0%nat) (firstn i l) = 0%nat /\
  (nth i l 0 <= q)%nat.
Proof.
  intros P infl i q P0 I Q. unfold roots.
  pose proof (roots_from_ok P P0 infl (repeat 0%nat P) (repeat_length _ _)) as H.
  destruct (roots_from P infl (repeat 0%nat P)) as [l c]. cbn [fst].
  destruct H as (_ & _ & L & _ & H); [intros a b _ _; rewrite !nth_repeat0; lia|].
  cbn zeta. intros S T. destruct (H i I) as (_ & _ & _ & _ & D). cbn zeta in D.
  destruct (D q Q S) as (A & B & C); [rewrite nth_repeat0; exact T|]. rewrite nth_repeat0 in B.
  assert (E : nth i (map fst l) 0%nat = fst (nth i l (0%nat, fun _ => false))) by apply (map_nth fst l (0%nat, fun _ => false)).
  rewrite E. auto.
Qed.
Print Assumptions c78_local_root.

(** After a regrid the ranks are those reached now and the root. *)
Theorem c78_regrid : forall root infl q, regrid_procs root infl q = true <-> infl q = true \/ q = root.
Proof.
  intros. unfold regrid_procs, pinsert. rewrite orb_true_iff, Nat.eqb_eq. tauto.
Qed.
Print Assumptions c78_regrid.

(** Three actuators on two ranks that all reach rank 0 only. *)
Example act_roots : fst (roots 2 [Nat.eqb 0; Nat.eqb 0; Nat.eqb 0]) <> [] /\
  map fst (fst (roots 2 [Nat.eqb 0; Nat.eqb 0; Nat.eqb 0])) = [0; 1; 0]%nat /\
  snd (roots 2 [Nat.eqb 0; Nat.eqb 0; Nat.eqb 0]) = [2; 1]%nat.
Proof. repeat split. discriminate. Qed.

(** *** Sampling *)

(** Interpolation gives the value of every polynomial of degree one in each
    coordinate: this fixes all eight weights. *)
Theorem c78_interp : forall g n k p, geom_ok g n ->
  interp g (fun c => trilinear k (centre g c)) p = trilinear k p.
Proof.
  intros g n k p ((X & Xi & _) & (Y & Yi & _) & (Z & Zi & _)). unfold interp.
  rewrite Xi, Yi, Zi. replace 0.5 with (1 / 2) by lra.
  cbn zeta. unfold trilinear, centre; cbn [iv0 iv1 iv2 vx vy vz]. rewrite ?plus_IZR.
  generalize (rfloor ((vx p - vx (gplo g) - 1 / 2 * vx (gdx g)) * / vx (gdx g))).
  generalize (rfloor ((vy p - vy (gplo g) - 1 / 2 * vy (gdx g)) * / vy (gdx g))).
  generalize (rfloor ((vz p - vz (gplo g) - 1 / 2 * vz (gdx g)) * / vz (gdx g))).
  intros c b a. generalize (IZR a) (IZR b) (IZR c). intros. field. lra.
Qed.
Print Assumptions c78_interp.

(** It reads cells no further than one from the cell of the point, and stays
    between their smallest and largest values. *)
Theorem c78_interp_bounds : forall g n a p c m M, geom_ok g n ->
  vx (gplo g) + IZR (iv0 c) * vx (gdx g) <= vx p < vx (gplo g) + (IZR (iv0 c) + 1) * vx (gdx g) ->
  vy (gplo g) + IZR (iv1 c) * vy (gdx g) <= vy p < vy (gplo g) + (IZR (iv1 c) + 1) * vy (gdx g) ->
  vz (gplo g) + IZR (iv2 c) * vz (gdx g) <= vz p < vz (gplo g) + (IZR (iv2 c) + 1) * vz (gdx g) ->
  (forall d, (iv0 c - 1 <= iv0 d <= iv0 c + 1)%Z -> (iv1 c - 1 <= iv1 d <= iv1 c + 1)%Z ->
     (iv2 c - 1 <= iv2 d <= iv2 c + 1)%Z -> m <= a d <= M) ->
  m <= interp g a p <= M.
Proof.
  intros g n a p c m M ((X & Xi & _) & (Y & Yi & _) & (Z & Zi & _)) Hx Hy Hz A. unfold interp.
  replace 0.5 with (1 / 2) by lra. cbn zeta.
  assert (D : forall plo dx dxi u k, 0 < dx -> dxi = / dx -> plo + IZR k * dx <= u < plo + (IZR k + 1) * dx ->
    let e := (u - plo - 1 / 2 * dx) * dxi in
    0 <= e - IZR (rfloor e) <= 1 /\ (k - 1 <= rfloor e <= k)%Z).
  { intros plo dx dxi u k P -> H e. pose proof (rfloor_spec e) as F. split; [lra|].
    assert (E : u = plo + (e + 1 / 2) * dx) by (unfold e; field; lra).
    assert (e + 1 / 2 < IZR k + 1) by nra. assert (IZR k <= e + 1 / 2) by nra.
    split; apply IZR_lt_le; rewrite ?minus_IZR; lra. }
  pose proof (D _ _ _ _ _ X Xi Hx) as Dx. pose proof (D _ _ _ _ _ Y Yi Hy) as Dy. pose proof (D _ _ _ _ _ Z Zi Hz) as Dz.
  cbn zeta in Dx, Dy, Dz. clear D.
  set (x := (vx p - vx (gplo g) - 1 / 2 * vx (gdx g)) * vx (gdxi g)) in *.
  set (y := (vy p - vy (gplo g) - 1 / 2 * vy (gdx g)) * vy (gdxi g)) in *.
  set (z := (vz p - vz (gplo g) - 1 / 2 * vz (gdx g)) * vz (gdxi g)) in *.
  destruct Dx as [Wx Ix], Dy as [Wy Iy], Dz as [Wz Iz].
  set (i := rfloor x) in *. set (j := rfloor y) in *. set (k := rfloor z) in *.
  pose proof (A (IV i j k) ltac:(cbn; lia) ltac:(cbn; lia) ltac:(cbn; lia)) as A0.
  pose proof (A (IV i j (k + 1)) ltac:(cbn; lia) ltac:(cbn; lia) ltac:(cbn; lia)) as A1.
  pose proof (A (IV i (j + 1) k) ltac:(cbn; lia) ltac:(cbn; lia) ltac:(cbn; lia)) as A2.
  pose proof (A (IV i (j + 1) (k + 1)) ltac:(cbn; lia) ltac:(cbn; lia) ltac:(cbn; lia)) as A3.
  pose proof (A (IV (i + 1) j k) ltac:(cbn; lia) ltac:(cbn; lia) ltac:(cbn; lia)) as A4.
  pose proof (A (IV (i + 1) j (k + 1)) ltac:(cbn; lia) ltac:(cbn; lia) ltac:(cbn; lia)) as A5.
  pose proof (A (IV (i + 1) (j + 1) k) ltac:(cbn; lia) ltac:(cbn; lia) ltac:(cbn; lia)) as A6.
  pose proof (A (IV (i + 1) (j + 1) (k + 1)) ltac:(cbn; lia) ltac:(cbn; lia) ltac:(cbn; lia)) as A7.
  revert A0 A1 A2 A3 A4 A5 A6 A7 Wx Wy Wz.
  generalize (x - IZR i) (y - IZR j) (z - IZR k).
  generalize (a (IV i j k)) (a (IV i j (k + 1))) (a (IV i (j + 1) k)) (a (IV i (j + 1) (k + 1)))
    (a (IV (i + 1) j k)) (a (IV (i + 1) j (k + 1))) (a (IV (i + 1) (j + 1) k)) (a (IV (i + 1) (j + 1) (k + 1))).
  clear. intros a0 a1 a2 a3 a4 a5 a6 a7 u v w A0 A1 A2 A3 A4 A5 A6 A7 U V W.
  assert (L : forall t b d, 0 <= t <= 1 -> m <= b <= M -> m <= d <= M -> m <= (1 - t) * b + t * d <= M) by (intros; nra).
  pose proof (L w _ _ W A0 A1) as B0. pose proof (L w _ _ W A2 A3) as B1.
  pose proof (L w _ _ W A4 A5) as B2. pose proof (L w _ _ W A6 A7) as B3.
  pose proof (L v _ _ V B0 B1) as C0. pose proof (L v _ _ V B2 B3) as C1.
  pose proof (L u _ _ U C0 C1) as E.
  match goal with |- _ <= ?s <= _ => replace s with ((1 - u) * ((1 - v) * ((1 - w) * a0 + w * a1) + v * ((1 - w) * a2 + w * a3)) +
    u * ((1 - v) * ((1 - w) * a4 + w * a5) + v * ((1 - w) * a6 + w * a7))) by ring end.
  exact E.
Qed.
Print Assumptions c78_interp_bounds.

(** For every number of ranks, every set of actuators with any number of points,
    wherever the particles go and in whatever order they arrive: each actuator of
    a rank with a box is given the fields at its own points, in their order, on
    the level that has the point; a point outside the domain gives zero. *)
Theorem c78_velocities : forall P tile acts fields wh after r,
  (r < P)%nat -> tile r = true ->
  (forall p q lev, wh p = Some (q, lev) -> (q < P)%nat) ->
  redistributed wh P (make_particles tile acts) after ->
  sampled P acts fields wh after r =
  map (fun a =>
    (map (fun p => match wh p with
       | Some (_, lev) => let f := fields lev in
           V3 (interp (f_geom f) (f_vel f 0%nat) p) (interp (f_geom f) (f_vel f 1%nat) p) (interp (f_geom f) (f_vel f 2%nat) p)
       | None => V3 0 0 0 end) (a_pos a r),
     map (fun p => match wh p with
       | Some (_, lev) => interp (f_geom (fields lev)) (f_den (fields lev)) p
       | None => 0 end) (a_pos a r)))
  (filter (fun a => a_procs a r) acts).
Proof.
  intros P tile acts fields wh after r R T W RD. unfold sampled. cbn zeta.
  set (buf := allreduce _ _).
  assert (B : forall i n, (i < total_pts acts r)%nat -> (n < 4)%nat ->
    nth ((nth r (offsets P acts) 0 + i) * 4 + n)%nat buf 0 = datum fields wh (nth i (positions acts r) vzero) n).
  { intros i n I N. pose proof (buffer_ok P tile acts fields wh after r i n R I N W RD) as H. cbn zeta in H.
    rewrite T in H. exact H. }
  assert (LP : length (positions acts r) = total_pts acts r) by (rewrite positions_flat, total_flat; reflexivity).
  set (fv := fun p => V3 (datum fields wh p 0) (datum fields wh p 1) (datum fields wh p 2)).
  assert (RV : read_vel (offsets P acts) buf r (total_pts acts r) = map fv (positions acts r)).
  { unfold read_vel. rewrite <- (map_seq_nth fv _ vzero), LP. apply map_ext_in. intros i I. apply in_seq in I.
    cbn zeta. rewrite !B by lia. reflexivity. }
  assert (RDn : read_den (offsets P acts) buf r (total_pts acts r) = map (fun p => datum fields wh p 3) (positions acts r)).
  { unfold read_den. rewrite <- (map_seq_nth (fun p => datum fields wh p 3) _ vzero), LP. apply map_ext_in. intros i I. apply in_seq in I.
    cbn zeta. rewrite !B by lia. reflexivity. }
  rewrite RV, RDn, positions_flat.
  pose proof (give_ok r (local_acts acts r) [] [] fv (fun p => datum fields wh p 3) eq_refl) as G. cbn [app length] in G.
  rewrite G. apply map_ext. intros a.
  apply f_equal2; apply map_ext; intros p; unfold fv, datum; destruct (wh p) as [[q lev]|]; reflexivity.
Qed.
Print Assumptions c78_velocities.

(** On a rank without boxes every point is given zero velocity and density. *)
Theorem c78_no_boxes : forall P tile acts fields wh after r,
  (r < P)%nat -> tile r = false ->
  (forall p q lev, wh p = Some (q, lev) -> (q < P)%nat) ->
  redistributed wh P (make_particles tile acts) after ->
  sampled P acts fields wh after r =
  map (fun a => (map (fun _ => V3 0 0 0) (a_pos a r), map (fun _ => 0) (a_pos a r)))
    (filter (fun a => a_procs a r) acts).
Proof.
  intros P tile acts fields wh after r R T W RD. unfold sampled. cbn zeta.
  set (buf := allreduce _ _).
  assert (B : forall i n, (i < total_pts acts r)%nat -> (n < 4)%nat ->
    nth ((nth r (offsets P acts) 0 + i) * 4 + n)%nat buf 0 = 0).
  { intros i n I N. pose proof (buffer_ok P tile acts fields wh after r i n R I N W RD) as H. cbn zeta in H.
    rewrite T in H. exact H. }
  assert (LP : length (positions acts r) = total_pts acts r) by (rewrite positions_flat, total_flat; reflexivity).
  assert (RV : read_vel (offsets P acts) buf r (total_pts acts r) = map (fun _ => V3 0 0 0) (positions acts r)).
  { unfold read_vel. rewrite <- (map_seq_nth (fun _ => V3 0 0 0) _ vzero), LP. apply map_ext_in. intros i I. apply in_seq in I.
    cbn zeta. rewrite !B by lia. reflexivity. }
  assert (RDn : read_den (offsets P acts) buf r (total_pts acts r) = map (fun _ => 0) (positions acts r)).
  { unfold read_den. rewrite <- (map_seq_nth (fun _ => 0) _ vzero), LP. apply map_ext_in. intros i I. apply in_seq in I.
    cbn zeta. rewrite !B by lia. reflexivity. }
  rewrite RV, RDn, positions_flat.
  pose proof (give_ok r (local_acts acts r) [] [] (fun _ => V3 0 0 0) (fun _ => 0) eq_refl) as G. cbn [app length] in G.
  rewrite G. reflexivity.
Qed.
Print Assumptions c78_no_boxes.

(** The particles of one actuator with two points on ranks 0 and 1, delivered to
    rank 1 in reverse order. *)
Definition ex_geom : geom := Geom (V3 0 0 0) (V3 4 4 4) (V3 1 1 1) (V3 1 1 1).
Definition ex_field : flevel := FLev ex_geom (fun n _ => if Nat.eqb n 0 then 1 else 0) (fun _ => 2).
Definition ex_act (p : pset) : actuator := Act p (fun _ => [V3 1 1 1; V3 3 1 1]).
Definition on_rank (k : nat) : wherefn := fun _ => Some (k, 0%nat).
Definition ex_after (tile : nat -> bool) (acts : list actuator) : nat -> list particle :=
  fun q => if Nat.eqb q 1 then rev (flat_map (make_particles tile acts) (seq 0 2)) else [].
Lemma ex_redistributed tile acts : redistributed (on_rank 1) 2 (make_particles tile acts) (ex_after tile acts).
Proof.
  intros q Q. unfold ex_after.
  assert (H : forall l, filter (held (on_rank 1) q) l = if Nat.eqb q 1 then l else []).
  { induction l as [|x l IH]; cbn [filter]; [destruct (Nat.eqb q 1); reflexivity|]. rewrite IH. unfold held, on_rank.
    destruct (Nat.eqb q 1); reflexivity. }
  rewrite H. destruct (Nat.eqb q 1); [apply Permutation_sym, Permutation_rev|constructor].
Qed.
Lemma ex_const k p : interp ex_geom (fun _ => k) p = k.
Proof. unfold interp. cbn zeta. ring. Qed.
Example act_sampling : let acts := [ex_act (Nat.eqb 1); ex_act (fun _ => true)] in
  sampled 2 acts (fun _ => ex_field) (on_rank 1) (ex_after (fun _ => true) acts) 0 =
    [([V3 1 0 0; V3 1 0 0], [2; 2])].
Proof.
  cbn zeta. rewrite (c78_velocities 2 (fun _ => true)) by (auto; try apply ex_redistributed; intros p q lev E; injection E; lia).
  cbn [filter a_procs ex_act Nat.eqb map a_pos on_rank ex_field f_geom f_vel f_den]. rewrite !ex_const. reflexivity.
Qed.

(** What fails: an actuator whose root rank has no box.  Two actuators reach rank 0
    only, and rank 1 has no boxes.  The root of the second is rank 1, where the
    wind of speed 1 is sampled as zero, so what the root rank reports is wrong. *)
Theorem c78_root_without_boxes_refuted : exists tile acts after,
  redistributed (on_rank 0) 2 (make_particles tile acts) after /\
  acts = map (fun s => ex_act (snd s)) (fst (roots 2 [Nat.eqb 0; Nat.eqb 0])) /\
  fst (nth 1 (fst (roots 2 [Nat.eqb 0; Nat.eqb 0])) (0%nat, fun _ => false)) = 1%nat /\
  sampled 2 acts (fun _ => ex_field) (on_rank 0) after 1 = [([V3 0 0 0; V3 0 0 0], [0; 0])] /\
  sampled 2 acts (fun _ => ex_field) (on_rank 0) after 0 =
    [([V3 1 0 0; V3 1 0 0], [2; 2]); ([V3 1 0 0; V3 1 0 0], [2; 2])].
Proof.
  set (acts := map (fun s => ex_act (snd s)) (fst (roots 2 [Nat.eqb 0; Nat.eqb 0]))).
  exists (Nat.eqb 0), acts, (fun q => if Nat.eqb q 0 then flat_map (make_particles (Nat.eqb 0) acts) (seq 0 2) else []).
  assert (RD : redistributed (on_rank 0) 2 (make_particles (Nat.eqb 0) acts)
    (fun q => if Nat.eqb q 0 then flat_map (make_particles (Nat.eqb 0) acts) (seq 0 2) else [])).
  { intros q Q.
    assert (H : forall l, filter (held (on_rank 0) q) l = if Nat.eqb q 0 then l else []).
    { induction l as [|x l IH]; cbn [filter]; [destruct (Nat.eqb q 0); reflexivity|]. rewrite IH. unfold held, on_rank.
      destruct (Nat.eqb q 0); reflexivity. }
    rewrite H. apply Permutation_refl. }
  split; [exact RD|]. split; [reflexivity|]. split; [reflexivity|]. split.
  - rewrite (c78_no_boxes 2 (Nat.eqb 0)) by (auto; intros p q lev E; injection E; lia). reflexivity.
  - rewrite (c78_velocities 2 (Nat.eqb 0)) by (auto; intros p q lev E; injection E; lia).
    unfold acts. cbn [fst snd roots roots_from root_proc find filter seq repeat nth Nat.ltb Nat.leb bump argmin argmin_from map pinsert
      Nat.eqb orb a_procs ex_act a_pos on_rank ex_field f_geom f_vel f_den].
    rewrite !ex_const. reflexivity.
Qed.
Print Assumptions c78_root_without_boxes_refuted.

(** *** Moving wings *)

(** The steps of a run in order. *)
Fixpoint steps_of (es : list event) : list (R * R) :=
  match es with nil => nil | Advance a b :: r => (a, b) :: steps_of r | Regrid _ :: r => steps_of r end.

(** A rank that the wing is on throughout holds the wing of a single-process run. *)
Theorem c78_wing : forall w root r es procs s, procs r = true ->
  (forall infl, In (Regrid infl) es -> infl r = true \/ r = root) ->
  snd (wing_events w root es (procs, s)) r =
  fold_left (fun x t => w_step w (fst t) (snd t) x) (steps_of es) (s r).
Proof.
  intros w root r. induction es as [|e es IH]; intros procs s Hr H; [reflexivity|].
  change (wing_events w root (e :: es) (procs, s)) with (wing_events w root es (wing_event w root e (procs, s))).
  destruct e as [a b|infl]; cbn [wing_event steps_of fold_left fst snd].
  - rewrite IH; [rewrite Hr; reflexivity|exact Hr|intros i I; apply H; right; exact I].
  - apply IH; [|intros i I; apply H; right; exact I].
    apply c78_regrid. apply H. left; reflexivity.
Qed.
Print Assumptions c78_wing.

(** A wing at rest has its points at the same place on all ranks, whatever regrids
    happen. *)
Theorem c78_wing_at_rest : forall w v0 root es procs r, w_motion w = MNone ->
  s_pos (snd (wing_events w root es (procs, fun _ => w_init w v0)) r) = w_points w.
Proof.
  intros w v0 root es procs r M.
  assert (G : forall es procs s, s_pos (s r) = w_points w -> s_pos (snd (wing_events w root es (procs, s)) r) = w_points w).
  { clear es procs. induction es as [|e es IH]; intros procs s H; [exact H|].
    change (wing_events w root (e :: es) (procs, s)) with (wing_events w root es (wing_event w root e (procs, s))).
    destruct e as [a b|infl]; cbn [wing_event]; apply IH; [|exact H].
    destruct (procs r); [|exact H]. cbn. unfold w_disp. rewrite M, <- H.
    transitivity (map (fun p => p) (s_pos (s r))); [|apply map_id]. apply map_ext. intros [x y z]. unfold vadd, vzero; cbn.
    f_equal; ring. }
  apply G. reflexivity.
Qed.
Print Assumptions c78_wing_at_rest.

(** What fails: a wing in uniform motion, on rank 0 for a first step and after a
    regrid also on rank 1.  Rank 1 starts it from its initial position: the two
    ranks spread forces from different places from then on. *)
Definition moving_wing : wing :=
  Wing 2 (V3 0 0 0) (V3 0 1 0) (V3 1 0 0) (V3 1 1 1) (V3 1 1 1) false false (V3 1 1 1) 1 MLinear vzero 0.
Theorem c78_regrid_moves_wing_refuted :
  let st := wing_events moving_wing 0 [Advance 0 1; Regrid (fun _ => true); Advance 1 2]
              (Nat.eqb 0, fun _ => w_init moving_wing (V3 1 0 0)) in
  fst st 0%nat = true /\ fst st 1%nat = true /\
  nth 0 (s_pos (snd st 0%nat)) vzero = V3 2 0 0 /\ nth 0 (s_pos (snd st 1%nat)) vzero = V3 1 0 0.
Proof.
  cbn. split; [reflexivity|]. split; [reflexivity|]. split; unfold vadd, vscale; cbn; f_equal; ring.
Qed.
Print Assumptions c78_regrid_moves_wing_refuted.

(** *** Labels *)

Lemma label_fold l ls : forall k acc, fold_left (fun acc il => if String.eqb (snd il) l then fst il else acc) (combine (seq k (length ls)) ls) acc =
  match find (fun i => String.eqb (nth i ls ""%string) l) (rev (seq 0 (length ls))) with Some i => (k + i)%nat | None => acc end.
Proof.
  induction ls as [|x ls IH]; intros k acc; [reflexivity|].
  cbn [length seq combine fold_left snd fst]. rewrite IH. rewrite <- seq_shift. cbn [rev].
  rewrite <- map_rev.
  assert (F : forall m, find (fun i => String.eqb (nth i (x :: ls) ""%string) l) (map S m ++ [0%nat]) =
    match find (fun i => String.eqb (nth i ls ""%string) l) m with Some i => Some (S i) | None => if String.eqb x l then Some 0%nat else None end).
  { induction m as [|i m IHm]; cbn [map app find nth]; [reflexivity|].
    destruct (String.eqb (nth i ls ""%string) l); [reflexivity|exact IHm]. }
  rewrite F. destruct (find _ (rev (seq 0 (length ls)))); [lia|]. destruct (String.eqb x l); [lia|reflexivity].
Qed.

(** Looking up the label of an actuator gives that actuator when labels are
    distinct, as the constructor requires. *)
Theorem c78_label : forall labels i, NoDup labels -> (i < length labels)%nat ->
  act_bylabel labels (nth i labels ""%string) = Ret i.
Proof.
  intros labels i ND I. unfold act_bylabel. cbn zeta. rewrite label_fold.
  assert (F : find (fun k => String.eqb (nth k labels ""%string) (nth i labels ""%string)) (rev (seq 0 (length labels))) = Some i).
  { destruct (find _ _) as [k|] eqn:E.
    - apply find_some in E. destruct E as [K E]. apply String.eqb_eq in E. rewrite <- in_rev in K. apply in_seq in K.
      f_equal. apply (proj1 (NoDup_nth labels ""%string) ND); [lia|exact I|exact E].
    - exfalso. apply (find_none _ _ E i) in I || idtac.
      pose proof (find_none _ _ E i) as N. rewrite <- in_rev, in_seq in N. specialize (N ltac:(lia)).
      cbn in N. rewrite String.eqb_refl in N. discriminate. }
  rewrite F. cbn [plus]. rewrite (proj2 (Nat.ltb_lt _ _) I). reflexivity.
Qed.
Print Assumptions c78_label.

(** What fails: a label no actuator has gives the first actuator. *)
Theorem c78_unknown_label_refuted : forall labels l, labels <> [] -> ~ In l labels -> act_bylabel labels l = Ret 0%nat.
Proof.
  intros labels l NE NI. unfold act_bylabel. cbn zeta. rewrite label_fold.
  destruct (find _ _) as [k|] eqn:E.
  - apply find_some in E. destruct E as [K E]. apply String.eqb_eq in E. rewrite <- in_rev in K. apply in_seq in K.
    exfalso. apply NI. rewrite <- E. apply nth_In. lia.
  - destruct labels; [congruence|reflexivity].
Qed.
Print Assumptions c78_unknown_label_refuted.

Example act_labels : act_bylabel ["a"; "b"]%string "b"%string = Ret 1%nat.
Proof. apply (c78_label ["a"; "b"]%string 1); [|cbn; lia]. repeat constructor; cbn; intuition congruence. Qed.
Example act_influenced : exists s, influenced [([(Box (IV 0 0 0) (IV 1 3 3), 0%nat); (Box (IV 2 0 0) (IV 3 3 3), 1%nat)], IV 2 2 2);
    ([(Box (IV 4 0 0) (IV 7 7 7), 2%nat)], IV 2 2 2)] ex_geom (RBox (V3 2 1 1) (V3 3 2 2)) = Ret s /\
  s 1%nat = true /\ s 2%nat = true.
Proof.
  destruct (c78_influenced [([(Box (IV 0 0 0) (IV 1 3 3), 0%nat); (Box (IV 2 0 0) (IV 3 3 3), 1%nat)], IV 2 2 2);
    ([(Box (IV 4 0 0) (IV 7 7 7), 2%nat)], IV 2 2 2)] ex_geom (IV 4 4 4) (RBox (V3 2 1 1) (V3 3 2 2))) as (s & E & A & _).
  - unfold geom_ok, axis_ok, ex_geom; cbn. repeat split; try lra; try lia.
  - unfold near, axis_near, ex_geom; cbn. repeat split; lra.
  - intros lv r [H|[H|[]]]; injection H as <- <-; cbn; lia.
  - exists s. split; [exact E|]. split.
    + eapply (A 0%nat _ _ _ _ (IV 2 1 1)); [reflexivity|right; left; reflexivity|..]; unfold in_box, in_rbox, centre; cbn; repeat split; try lia; lra.
    + eapply (A 1%nat _ _ _ _ (IV 4 2 2)); [reflexivity|left; reflexivity|..]; unfold in_box, in_rbox, centre; cbn; repeat split; try lia; lra.
Qed.
