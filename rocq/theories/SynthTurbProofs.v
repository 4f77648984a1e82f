(** Indices and weights, planes in memory, and histories (C85). *)
From Verif Require Import BoxR BoxRFacts VecSpace VecSpaceProofs SynthTurb SynthTurbSpec.
Local Open Scope R_scope.

Lemma half_dot : 0.5 = / 2. Proof. lra. Qed.
Lemma rfloor_bounds x : IZR (rfloor x) <= x < IZR (rfloor x) + 1.
Proof. pose proof (rfloor_spec x). lra. Qed.

(** ** Indices *)
Lemma indices T d x : fits T -> (d = 0 \/ d = 1 \/ d = 2)%Z ->
  let s := x / tb_dx T d in
  left_index T d x = (rfloor s mod tb_n T d)%Z /\ right_index T d (left_index T d x) = ((rfloor s + 1) mod tb_n T d)%Z /\
  right_weight T d x = s - IZR (rfloor s) /\ (0 <= left_index T d x < tb_n T d)%Z.
Proof.
  intros Hf Hd. destruct (Hf d Hd) as (N & P & L). cbv zeta. unfold right_index, right_weight, left_weight. unfold left_index.
  set (n := tb_n T d) in *. set (dx := tb_dx T d) in *. rewrite L. set (m := rfloor (x / (IZR n * dx))).
  assert (N' : 0 < IZR n) by (apply (IZR_lt 0); lia). assert (NL : 0 < IZR n * dx) by (apply Rmult_lt_0_compat; assumption).
  assert (B : 0 <= in_period (IZR n * dx) x < IZR n * dx).
  { unfold in_period. fold m. pose proof (rfloor_bounds (x / (IZR n * dx))) as [B1 B2]. fold m in B1, B2.
    assert (E : x = x / (IZR n * dx) * (IZR n * dx)) by (field; split; lra).
    set (q := x / (IZR n * dx)) in *. set (l := IZR n * dx) in *. clearbody q l. subst x. nra. }
  assert (Q : in_period (IZR n * dx) x / dx = x / dx - IZR (m * n)).
  { unfold in_period. fold m. rewrite mult_IZR. field. lra. }
  rewrite Q. set (s := x / dx) in *.
  assert (F : rfloor (s - IZR (m * n)) = (rfloor s - m * n)%Z).
  { apply rfloor_unique. rewrite minus_IZR. pose proof (rfloor_bounds s). lra. }
  rewrite F.
  assert (R : (0 <= rfloor s - m * n < n)%Z).
  { rewrite <- F, <- Q. pose proof (rfloor_bounds (in_period (IZR n * dx) x / dx)) as [B1 B2].
    assert (0 <= in_period (IZR n * dx) x / dx < IZR n).
    { split; apply (Rmult_le_reg_r dx) || apply (Rmult_lt_reg_r dx); try exact P; unfold Rdiv; rewrite Rmult_assoc, Rinv_l by lra; lra. }
    split.
    - assert (IZR (-1) < IZR (rfloor (in_period (IZR n * dx) x / dx))) as H1 by lra. apply lt_IZR in H1. lia.
    - apply lt_IZR. lra. }
  assert (E1 : (rfloor s mod n)%Z = (rfloor s - m * n)%Z) by (symmetry; apply (Zmod_unique _ _ m); lia).
  split; [symmetry; exact E1|]. split.
  - destruct (Z.leb_spec n (rfloor s - m * n + 1)).
    + apply (Zmod_unique _ _ (m + 1)); lia.
    + apply (Zmod_unique _ _ m); lia.
  - split; [|exact R]. unfold in_period. fold m. rewrite minus_IZR, mult_IZR. unfold s. field. lra.
Qed.

(** ** Planes *)
Lemma load_ok T F x : fits T -> exists m, load T F (left_index T 0 x) (right_index T 0 (left_index T 0 x)) = Ret m /\
  forall comp p, (0 <= p < 2 * plane_size T)%Z ->
    m comp p = if (p <? plane_size T)%Z then from_plane T F comp (left_index T 0 x) p
               else from_plane T F comp (right_index T 0 (left_index T 0 x)) (p - plane_size T)%Z.
Proof.
  intros Hf. destruct (indices T 0 x Hf ltac:(lia)) as (_ & _ & _ & B). destruct (Hf 1%Z ltac:(lia)) as (N1 & _). destruct (Hf 2%Z ltac:(lia)) as (N2 & _).
  set (il := left_index T 0 x) in *. clearbody il. unfold load. assert (NS : (1 <= plane_size T)%Z) by (unfold plane_size; nia).
  set (ns := plane_size T) in *. set (ir := right_index T 0 il). destruct (Z.eqb_spec (ir - il) 1) as [E|E].
  - assert (W : (il + 2 <= tb_n T 0)%Z) by (unfold ir, right_index in E; destruct (Z.leb_spec (tb_n T 0) (il + 1)); lia).
    destruct (Z.leb_spec 0 il); [|lia]. destruct (Z.leb_spec (il + 2) (tb_n T 0)); [|lia]. cbn [andb]. eexists. split; [reflexivity|].
    intros comp p Hp. cbv beta. destruct (Z.ltb_spec p ns).
    + rewrite Z.div_small, Z.mod_small, Z.add_0_r by lia. reflexivity.
    + replace p with (p - ns + 1 * ns)%Z at 1 2 by ring. rewrite Z.div_add, Z_mod_plus_full, Z.div_small, Z.mod_small by lia. f_equal. lia.
  - assert (R : (0 <= ir < tb_n T 0)%Z) by (unfold ir, right_index; destruct (Z.leb_spec (tb_n T 0) (il + 1)); lia).
    destruct (Z.leb_spec 0 il); [|lia]. destruct (Z.leb_spec (il + 1) (tb_n T 0)); [|lia]. destruct (Z.leb_spec 0 ir); [|lia].
    destruct (Z.leb_spec (ir + 1) (tb_n T 0)); [|lia]. cbn [andb]. eexists. split; [reflexivity|]. intros comp p Hp. reflexivity.
Qed.
Definition holds (T : tbox) (F : tfile) (il : Z) (m : Z -> Z -> R) : Prop :=
  forall comp p, (0 <= p < 2 * plane_size T)%Z ->
    m comp p = if (p <? plane_size T)%Z then from_plane T F comp il p else from_plane T F comp (right_index T 0 il) (p - plane_size T)%Z.

Lemma corner T F comp i j k : (0 <= j < tb_n T 1)%Z -> (0 <= k < tb_n T 2)%Z ->
  (0 <= j * tb_n T 2 + k < plane_size T)%Z /\ from_plane T F comp i (j * tb_n T 2 + k)%Z = F comp i j k.
Proof.
  intros J K. split; [unfold plane_size; nia|]. unfold from_plane.
  rewrite Z.div_add_l by lia. rewrite Z.div_small, Z.add_0_r by lia.
  rewrite Z.add_comm, Z_mod_plus_full, Z.mod_small by lia. reflexivity.
Qed.
Lemma perturbation_ok T F m x pt comp : fits T -> holds T F (left_index T 0 x) m ->
  perturbation T m (left_weight T 0 x) (right_weight T 0 x) pt comp
  = interpolated T F comp x (vy pt + tb_len T 1 / 2) (vz pt + tb_len T 2 / 2).
Proof.
  intros Hf Hm. unfold perturbation. cbv zeta. unfold across, left_weight. rewrite half_dot.
  change (tb_len T 1 * / 2) with (tb_len T 1 / 2). change (tb_len T 2 * / 2) with (tb_len T 2 / 2).
  set (y := vy pt + tb_len T 1 / 2). set (z := vz pt + tb_len T 2 / 2).
  destruct (indices T 0 x Hf ltac:(lia)) as (A0 & B0 & C0 & R0). destruct (indices T 1 y Hf ltac:(lia)) as (A1 & B1 & C1 & R1).
  destruct (indices T 2 z Hf ltac:(lia)) as (A2 & B2 & C2 & R2).
  assert (S1 : (0 <= right_index T 1 (left_index T 1 y) < tb_n T 1)%Z) by (rewrite B1; apply Z.mod_pos_bound; lia).
  assert (S2 : (0 <= right_index T 2 (left_index T 2 z) < tb_n T 2)%Z) by (rewrite B2; apply Z.mod_pos_bound; lia).
  unfold corners. cbn [map quad]. fold (plane_size T).
  assert (Lo : forall j k, (0 <= j < tb_n T 1)%Z -> (0 <= k < tb_n T 2)%Z -> m comp (j * tb_n T 2 + k)%Z = F comp (left_index T 0 x) j k).
  { intros j k J K. destruct (corner T F comp (left_index T 0 x) j k J K) as [P E]. rewrite Hm by lia. rewrite (proj2 (Z.ltb_lt _ _)) by lia. exact E. }
  assert (Hi : forall j k, (0 <= j < tb_n T 1)%Z -> (0 <= k < tb_n T 2)%Z ->
     m comp (j * tb_n T 2 + k + plane_size T)%Z = F comp (right_index T 0 (left_index T 0 x)) j k).
  { intros j k J K. destruct (corner T F comp (right_index T 0 (left_index T 0 x)) j k J K) as [P E]. rewrite Hm by lia.
    rewrite (proj2 (Z.ltb_ge _ _)) by lia. rewrite Z.add_simpl_r. exact E. }
  rewrite !Lo, !Hi by assumption. rewrite A1, A2, A0 in *. rewrite B0, B1, B2, C0, C1, C2.
  unfold interpolated, lerp, repeated. change Int_part with rfloor. cbv zeta. ring.
Qed.

(** ** The frame *)
Lemma angle_sum w : cos (radians (270 - w)) = - sin (PI * w / 180) /\ sin (radians (270 - w)) = - cos (PI * w / 180).
Proof.
  unfold radians. replace (PI * (270 - w) / 180) with (PI + (PI / 2 - PI * w / 180)) by field.
  rewrite (Rplus_comm PI), neg_cos, neg_sin, cos_shift, sin_shift. split; reflexivity.
Qed.
Lemma coord_spec v d : coord v d = component v d.
Proof. unfold coord, component. destruct d as [|[q|q|]|q]; reflexivity. Qed.
Lemma local_coords S x : tapp (frame S) (vsub x (ts_origin S)) = V3 (SynthTurbSpec.along S x) (aside S x) (above S x).
Proof.
  unfold frame, zrot, tapp, SynthTurbSpec.along, aside, above, downwind, leftward, vdot. cbv zeta. destruct (angle_sum (ts_wind S)) as [-> ->].
  cbn. f_equal; ring.
Qed.
Lemma global_velocity S u v w :
  vapp (V3 u v w) (frame S) = vadd (vadd (vscale (downwind (ts_wind S)) u) (vscale (leftward (ts_wind S)) v)) (vscale up w).
Proof.
  unfold frame, zrot, vapp, downwind, leftward, up, vadd, vscale. cbv zeta. destruct (angle_sum (ts_wind S)) as [-> ->].
  cbn. f_equal; ring.
Qed.
Lemma in_box_spec T l a h : in_box T (V3 l a h) = true <-> Rabs a <= tb_len T 1 / 2 /\ Rabs h <= tb_len T 2 / 2.
Proof.
  unfold in_box, across. cbn [vy vz]. cbv zeta. rewrite !andb_true_iff, !Rleb_spec. unfold Rabs. destruct (Rcase_abs a), (Rcase_abs h); lra.
Qed.
Lemma smear_spec eps x : smear eps x = gaussian eps x.
Proof. unfold smear, gaussian. replace (- (x / eps * (x / eps))) with (- (x / eps) * (x / eps)) by ring. unfold Rdiv. ring. Qed.
Lemma cell_force_ok S m x rho t : fits (ts_box S) -> holds (ts_box S) (ts_file S) (left_index (ts_box S) 0 (position S t)) m ->
  let r := cell_force S m (left_weight (ts_box S) 0 (position S t)) (right_weight (ts_box S) 0 (position S t)) x rho in
  (inside S x -> r = Some (force S t x rho)) /\ (~ inside S x -> r = None).
Proof.
  intros Hf Hm r. unfold r, cell_force. rewrite local_coords, coord_spec. cbv zeta.
  pose proof (in_box_spec (ts_box S) (SynthTurbSpec.along S x) (aside S x) (above S x)) as B.
  destruct (in_box _ _).
  - split; [intros _|intros N; exfalso; apply N, B; reflexivity]. f_equal. cbn [vx].
    rewrite !(perturbation_ok _ (ts_file S) m (position S t) _ _ Hf Hm). rewrite global_velocity. cbn [vy vz].
    unfold force, turbulence, position. cbv zeta. rewrite smear_spec, half_dot.
    set (v := vadd _ _). unfold vscale. f_equal; field.
  - split; [intros I; apply B in I; discriminate|reflexivity].
Qed.

(** ** Histories *)
Definition good {C} (S : tset) (pos : C -> vec) (st : tstate C) : Prop :=
  (forall l, st_left st = Some l -> holds (ts_box S) (ts_file S) l (st_mem st)) /\
  (forall c, ~ inside S (pos c) -> st_force st c = vzero).
Definition result {C} (S : tset) (pos : C -> vec) (rho : C -> R) (t : R) (f : C -> vec) : Prop :=
  forall c, (active S t -> inside S (pos c) -> f c = force S t (pos c) (rho c)) /\
            (~ active S t \/ ~ inside S (pos c) -> f c = vzero).

Lemma update_ok {C} S (pos : C -> vec) rho t st : fits (ts_box S) -> good S pos st ->
  exists st', update S pos rho t st = Ret st' /\ good S pos st' /\ result S pos rho t (st_force st').
Proof.
  intros Hf [Hm Hz]. unfold update.
  destruct (Rltb 0 (ts_duration S) && Rltb (ts_duration S) (t - ts_offset S))%bool eqn:D.
  - apply andb_prop in D. rewrite !Rltb_spec in D. eexists. split; [reflexivity|]. split; [split; [exact Hm|reflexivity]|].
    intros c. cbn. split; [intros A _; contradiction|reflexivity].
  - assert (A : active S t) by (intros [A1 A2]; rewrite <- Rltb_spec in A1, A2; rewrite A1, A2 in D; discriminate).
    cbv zeta. set (il := left_index (ts_box S) 0 (position S t)).
    assert (G : exists st1, (if match st_left st with Some l => (il =? l)%Z | None => false end then Ret st
        else obind (load (ts_box S) (ts_file S) il (right_index (ts_box S) 0 il)) (fun m => Ret (TST (Some il) m (st_force st)))) = Ret st1 /\
        st_left st1 = Some il /\ holds (ts_box S) (ts_file S) il (st_mem st1) /\ st_force st1 = st_force st).
    { destruct (st_left st) as [l|] eqn:E; [destruct (Z.eqb_spec il l) as [->|N]|].
      - exists st. split; [reflexivity|]. split; [exact E|]. split; [apply Hm; reflexivity|reflexivity].
      - destruct (load_ok (ts_box S) (ts_file S) (position S t) Hf) as (m & Em & Hh). fold il in Em, Hh. rewrite Em. eexists. split; [reflexivity|]. cbn. tauto.
      - destruct (load_ok (ts_box S) (ts_file S) (position S t) Hf) as (m & Em & Hh). fold il in Em, Hh. rewrite Em. eexists. split; [reflexivity|]. cbn. tauto. }
    destruct G as (st1 & -> & El & Hh & Ef). cbn [obind]. eexists. split; [reflexivity|].
    assert (K := fun c => cell_force_ok S (st_mem st1) (pos c) (rho c) t Hf Hh). cbv zeta in K.
    split; [split|].
    + intros l. cbn. rewrite El. intros E. injection E as <-. exact Hh.
    + intros c N. cbn. rewrite (proj2 (K c) N), Ef. apply Hz, N.
    + intros c. cbn. split.
      * intros _ I. rewrite (proj1 (K c) I). reflexivity.
      * intros [N|N]; [contradiction|]. rewrite (proj2 (K c) N), Ef. apply Hz, N.
Qed.
Lemma advance_ok {C} S (pos : C -> vec) rho t st : fits (ts_box S) -> good S pos st ->
  exists st', pre_advance S pos rho t st = Ret st' /\ good S pos st' /\ result S pos rho t (st_force st').
Proof.
  intros Hf Hg. unfold pre_advance. destruct (st_left st) as [l|] eqn:E; [cbn [obind]; apply update_ok; assumption|].
  unfold initialize. cbv zeta. destruct (load_ok (ts_box S) (ts_file S) (position S t) Hf) as (m & Em & Hh). rewrite Em. cbn [obind].
  apply update_ok; [exact Hf|]. split; cbn; [intros l Q; injection Q as <-; exact Hh|apply Hg].
Qed.
Lemma run_ok {C} S es : fits (ts_box S) -> forall (pos : C -> vec) st, good S pos st ->
  exists st', run S es pos st = Ret (mesh_after es pos, st') /\ good S (mesh_after es pos) st'.
Proof.
  intros Hf. induction es as [|[t rho|pos'] es IH]; intros pos st Hg; cbn [run mesh_after].
  - exists st. split; [reflexivity|exact Hg].
  - destruct (advance_ok S pos rho t st Hf Hg) as (st1 & -> & G1 & _). cbn [obind]. apply IH, G1.
  - apply IH. split; cbn; [apply Hg|reflexivity].
Qed.
Lemma run_app {C} S es es' : forall (pos : C -> vec) st, run S (es ++ es') pos st = obind (run S es pos st) (fun p => run S es' (fst p) (snd p)).
Proof.
  induction es as [|[t rho|pos'] es IH]; intros pos st; cbn [run app]; [reflexivity| |apply IH].
  destruct (pre_advance S pos rho t st); cbn [obind]; [apply IH|reflexivity|reflexivity].
Qed.
