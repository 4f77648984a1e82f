(** C26, C27, C28, C29, C31: advection of the volume fraction.
    [vof_step eps64] is one time step as the code runs it. *)
From Coq Require Import Permutation.
From Verif Require Import BoxR BoxRFacts Plic PlicSpec PlicProofs PlicProofs2 PlicIntercept2 PlicProofs3 PropPlic VofAdvect VofSpec VofSetting VofProofs VofProofs2.
Open Scope R_scope.

(** ** C26 *)
(** Whatever the initial field, the velocities, the time steps, the boundary
    types, the sweep counter and the debris option: after at least one step
    every valid cell holds a fraction. *)
Theorem c26_range : forall g vs isweep f,
  vs <> nil -> (forall v, In v vs -> keeps_valid (vdom g) (ve_fill v)) ->
  forall c, in_box (vdom g) c -> 0 <= snd (vof_run eps64 g vs (isweep, f)) c <= 1.
Proof. intros. apply vof_run_range; assumption. Qed.
(** Also between the sweeps of a step. *)
Theorem c26_range_between : forall g v isweep iorder C f c,
  keeps_valid (vdom g) (ve_fill v) -> in_box (vdom g) c ->
  0 <= split_step eps64 g v isweep iorder C f c <= 1.
Proof. intros. apply split_step_range; assumption. Qed.
Theorem c26_face_range : forall g dir dt vel f c,
  0 <= face_fraction eps64 g dir dt vel f c <= 1.
Proof. intros. apply face_fraction_range. left; apply eps_pos. Qed.

(** ** C27 *)
(** One sweep before clipping: the total changes by what crosses the two end
    faces of the domain and by the dilatation of the marked cells. *)
Theorem c27_sweep_balance : forall g d dt vel f C,
  (icomp (blo (vdom g)) d <= icomp (bhi (vdom g)) d)%Z ->
  total (vdom g) (balance_raw eps64 g d dt vel f C)
  = total (vdom g) f
    + total (low_layer (vdom g) d)
        (fun c => face_flux eps64 g d dt vel f c - face_flux eps64 g d dt vel f (opposite (vdom g) d c)) * / vdx g d
    + total (vdom g) (fun c => C c * (vel (up c d) * (dt / vdx g d) - vel c * (dt / vdx g d))).
Proof. intros. apply sweep_total; assumption. Qed.

(** Closed or periodic boundaries: no end-face contribution. *)
Theorem c27_sweep_sealed : forall g d dt vel f C,
  (icomp (blo (vdom g)) d <= icomp (bhi (vdom g)) d)%Z ->
  ((is_wall (vbclo g d) = true /\ is_wall (vbchi g d) = true) \/
   (is_wall (vbclo g d) = false /\ is_wall (vbchi g d) = false /\
    (forall c, vel (opposite (vdom g) d c) = vel c) /\ (forall c, f (opposite (vdom g) d c) = f c))) ->
  total (vdom g) (balance_raw eps64 g d dt vel f C)
  = total (vdom g) f + total (vdom g) (fun c => C c * (vel (up c d) * (dt / vdx g d) - vel c * (dt / vdx g d))).
Proof. intros g d dt vel f C Hb S. apply sealed_total; [exact S|exact Hb]. Qed.

(** The whole step with a divergence-free velocity, when no cell is clipped. *)
Theorem c27_step_unclipped : forall g v isweep f,
  (0 <= isweep)%Z -> box_ok (vdom g) -> fill_ok g v -> vel_ok g v ->
  ve_debris v = None -> divergence_free g v -> wraps g f ->
  (forall h d c, (h = f \/ h = split_step eps64 g v isweep 0 (c_mask f) f \/
                  h = split_step eps64 g v isweep 1 (c_mask f) (split_step eps64 g v isweep 0 (c_mask f) f)) ->
     in_box (vdom g) c -> 0 <= balance_raw eps64 g d (ve_dt v) (ve_vel v d) h (c_mask f) c <= 1) ->
  total (vdom g) (vof_step eps64 g v isweep f) = total (vdom g) f.
Proof. intros. apply step_total_unclipped; assumption. Qed.

Lemma within_code : intercept_within eps64 tol.
Proof. intros m1 m2 m3 ch A B C D. apply intercept_close; assumption. Qed.
Lemma within_exact : intercept_within 0 0.
Proof. intros m1 m2 m3 ch A B C D. apply intercept_exact0; assumption. Qed.
Lemma rho_code : tol + eps64 / 4 <= / 30000.
Proof. unfold tol, eps64. lra. Qed.

(** Under a Courant condition (at most half the cell leaves and at most half
    enters over the three directions) the clipping of a whole run of steps
    changes the total by at most 1/10000 of a cell per cell and step. *)
Theorem c27_drift : forall g vs isweep f,
  (0 <= isweep)%Z -> box_ok (vdom g) ->
  (forall v, In v vs -> fill_ok g v /\ vel_ok g v /\ ve_debris v = None /\ courant g v /\ divergence_free g v) ->
  wraps g f -> (forall c, in_box (vdom g) c -> 0 <= f c <= 1) ->
  Rabs (total (vdom g) (snd (vof_run eps64 g vs (isweep, f))) - total (vdom g) f)
  <= INR (length vs) * (ncells (vdom g) * / 10000).
Proof.
  intros g vs. induction vs as [|v r IH]; intros s f Hs Hb Hv Wf Rf.
  - simpl. rewrite Rminus_diag_eq by reflexivity. rewrite Rabs_R0. lra.
  - change (length (v :: r)) with (S (length r)). rewrite S_INR.
    cbn [vof_run fst snd]. set (s1 := next_isweep s). set (f1 := vof_step eps64 g v s1 f).
    assert (Hs1 : (0 <= s1)%Z) by (unfold s1, next_isweep; destruct (_ >? _)%Z; lia).
    destruct (Hv v (or_introl eq_refl)) as (A & B & C & D & E).
    destruct (step_total eps64 tol g v s1 f) as [T W]; auto.
    { left; apply eps_pos. } { apply within_code. }
    fold f1 in T, W.
    assert (R1 : forall c, in_box (vdom g) c -> 0 <= f1 c <= 1).
    { intros c Hc. apply vof_step_range; [apply A|exact Hc]. }
    specialize (IH s1 f1 Hs1 Hb (fun w Hw => Hv w (or_intror Hw)) W R1).
    set (T2 := total (vdom g) (snd (vof_run eps64 g r (s1, f1)))) in *.
    replace (T2 - total (vdom g) f) with ((T2 - total (vdom g) f1) + (total (vdom g) f1 - total (vdom g) f)) by ring.
    eapply Rle_trans; [apply Rabs_triang|].
    assert (N : 0 <= ncells (vdom g)) by (unfold ncells; apply pos_INR).
    pose proof rho_code. assert (ncells (vdom g) * (tol + eps64 / 4) <= ncells (vdom g) * / 30000) by (apply Rmult_le_compat_l; lra).
    lra.
Qed.

(** The drift comes from the guards in the interface formulas alone: without
    them the step conserves the volume exactly although it clips. *)
Theorem c27_unguarded_exact : forall g v isweep f,
  (0 <= isweep)%Z -> box_ok (vdom g) -> fill_ok g v -> vel_ok g v -> ve_debris v = None ->
  courant g v -> divergence_free g v ->
  wraps g f -> (forall c, in_box (vdom g) c -> 0 <= f c <= 1) ->
  total (vdom g) (vof_step 0 g v isweep f) = total (vdom g) f.
Proof.
  intros g v s f A B C D E F G H I.
  destruct (step_total 0 0 g v s f) as [T _]; auto; [lra|apply within_exact|].
  assert (Z : Rabs (total (vdom g) (vof_step 0 g v s f) - total (vdom g) f) = 0).
  { apply Rle_antisym; [|apply Rabs_pos]. lra. }
  destruct (Req_dec (total (vdom g) (vof_step 0 g v s f) - total (vdom g) f) 0) as [Q|Q]; [lra|].
  apply Rabs_no_R0 in Q. contradiction.
Qed.

(** *** A closed 2x2x1 box with a vortex satisfies the hypotheses *)
Definition ex_dom : box := Box (IV 0 0 0) (IV 1 1 0).
Definition ex_g : vgeom := VG ex_dom (fun _ => 1) (fun _ => bc_slip_wall) (fun _ => bc_no_slip_wall).
Definition ex_vel (d : Z) (c : ivec) : R :=
  if (d =? 0)%Z then (if (iv0 c =? 1)%Z then (if (iv1 c =? 0)%Z then 1 else -1) else 0)
  else if (d =? 1)%Z then (if (iv1 c =? 1)%Z then (if (iv0 c =? 0)%Z then -1 else 1) else 0)
  else 0.
Definition ex_env : venv := VE ex_vel (/ 8) (fun f => f) None.
Definition ex_f (c : ivec) : R := if (iv0 c =? 0)%Z then 1 else / 3.

Lemma ex_dom_cases : forall c, in_box ex_dom c ->
  c = IV 0 0 0 \/ c = IV 0 1 0 \/ c = IV 1 0 0 \/ c = IV 1 1 0.
Proof.
  intros [i j k] H. unfold in_box, ex_dom in H; simpl in H.
  assert (i = 0 \/ i = 1)%Z as [->| ->] by lia; assert (j = 0 \/ j = 1)%Z as [->| ->] by lia; assert (k = 0)%Z as -> by lia; auto.
Qed.
Example c27_ex : box_ok (vdom ex_g) /\ fill_ok ex_g ex_env /\ vel_ok ex_g ex_env /\ ve_debris ex_env = None /\
  courant ex_g ex_env /\ divergence_free ex_g ex_env /\ wraps ex_g ex_f /\
  (forall c, in_box (vdom ex_g) c -> 0 <= ex_f c <= 1) /\ ncells (vdom ex_g) = 4.
Proof.
  split; [unfold box_ok; simpl; lia|].
  split. { split; [intros h c _; reflexivity|]. intros d h _ A. discriminate A. }
  split. { intros d Hd. split; [|left; split; reflexivity].
    intros [i j k] W. unfold wall_face in W. simpl in W. change (ex_vel d (IV i j k) = 0). unfold ex_vel; cbn [iv0 iv1 iv2].
    unfold icomp in W; simpl in W. destruct Hd as [->|[->| ->]]; simpl in *.
    - destruct (Z.eqb_spec i 1); [|reflexivity]. subst. simpl in W. discriminate.
    - destruct (Z.eqb_spec j 1); [|reflexivity]. subst. simpl in W. discriminate.
    - reflexivity. }
  split; [reflexivity|].
  split. { intros c Hc. unfold dirs_sum, out_width, in_width. cbn [map].
    rewrite !rsum_cons. change (rsum []) with 0.
    destruct (ex_dom_cases c Hc) as [->|[->|[->| ->]]]; unfold ex_env, ex_vel, ex_g, up; cbn;
    unfold Rmax; repeat destruct Rle_dec; lra. }
  split. { intros c Hc. destruct (ex_dom_cases c Hc) as [->|[->|[->| ->]]]; unfold ex_env, ex_vel, ex_g, up; cbn; lra. }
  split. { intros d _ A. discriminate A. }
  split. { intros c _. unfold ex_f. destruct (_ =? _)%Z; lra. }
  change (INR 4 = 4). simpl. lra.
Qed.
(** Liquid does move in that example. *)
Example c27_ex_moves : face_flux eps64 ex_g 0 (/8) (ex_vel 0) ex_f (IV 1 0 0) = / 8.
Proof.
  unfold face_flux. rewrite face_fraction_eq.
  change (wall_face ex_g 0 (IV 1 0 0)) with false. cbv iota.
  unfold vofLR. change (down (IV 1 0 0) 0) with (IV 0 0 0).
  rewrite (proj2 (eulerian_fst eps64 0 (/ 8 / vdx ex_g 0) (ex_vel 0 (IV 1 0 0)) (ex_vel 0 (shift (IV 1 0 0) 0 1)) ex_f (IV 1 0 0) ltac:(left; apply eps_pos))).
  2: { unfold ex_vel, ex_g; simpl. lra. }
  unfold eulerian. change (ex_f (IV 0 0 0)) with 1. rewrite Rminus_diag_eq by reflexivity. rewrite Rabs_R0.
  destruct (Rleb 0 tiny_vof) eqn:E.
  2: { apply Rleb_false in E. unfold tiny_vof, eps64 in E. lra. }
  cbn [snd]. destruct (Rltb 0 _) eqn:E2.
  - unfold ex_vel; simpl. lra.
  - apply Rltb_false in E2. unfold ex_vel, ex_g in E2; simpl in E2. lra.
Qed.
Example c27_ex_drift : Rabs (total ex_dom (snd (vof_run eps64 ex_g (repeat ex_env 10) (0%Z, ex_f))) - total ex_dom ex_f) <= 4 / 1000.
Proof.
  destruct c27_ex as (A & B & C & D & E & F & G & H & I).
  eapply Rle_trans; [apply (c27_drift ex_g (repeat ex_env 10) 0 ex_f); auto; [lia|]|].
  - intros v Hv. apply repeat_spec in Hv. subst v. auto.
  - rewrite repeat_length, I. simpl. lra.
Qed.

(** ** C28 *)
(** Which faces lie on a wall. *)
Definition on_wall (g : vgeom) (d : Z) (c : ivec) : Prop :=
  (is_wall (vbclo g d) = true /\ icomp c d = icomp (blo (vdom g)) d) \/
  (is_wall (vbchi g d) = true /\ icomp c d = (icomp (bhi (vdom g)) d + 1)%Z).
Lemma on_wall_spec : forall g d c, wall_face g d c = true <-> on_wall g d c.
Proof.
  intros. unfold wall_face, on_wall. rewrite Bool.orb_true_iff, !Bool.andb_true_iff, !Z.eqb_eq. tauto.
Qed.

Theorem c28_upwind : forall g d dt vel f f' c, 0 < dt -> 0 < vdx g d ->
  (0 < vel c -> (forall x, near (down c d) x -> f x = f' x) ->
     face_fraction eps64 g d dt vel f c = face_fraction eps64 g d dt vel f' c) /\
  (vel c < 0 -> (forall x, near c x -> f x = f' x) ->
     face_fraction eps64 g d dt vel f c = face_fraction eps64 g d dt vel f' c) /\
  (vel c = 0 -> face_fraction eps64 g d dt vel f c = 0).
Proof.
  intros g d dt vel f f' c Hdt Hdx. pose proof eps_pos as He.
  assert (K : 0 < dt / vdx g d) by (apply Rdiv_lt_0_compat; assumption).
  rewrite !face_fraction_eq.
  split; [|split].
  - intros Hv Hn. destruct (wall_face g d c); [reflexivity|].
    assert (0 < vel c * (dt / vdx g d)) by (apply Rmult_lt_0_compat; assumption).
    rewrite !right_zero by lra. rewrite (vofLR_local _ _ _ _ _ f f' _ Hn). reflexivity.
  - intros Hv Hn. destruct (wall_face g d c); [reflexivity|].
    assert (0 < - vel c * (dt / vdx g d)) by (apply Rmult_lt_0_compat; lra).
    rewrite !left_zero by lra. rewrite (vofLR_local _ _ _ _ _ f f' _ Hn). reflexivity.
  - intros Hv. destruct (wall_face g d c); [reflexivity|].
    assert (vel c * (dt / vdx g d) = 0) by (rewrite Hv; ring).
    rewrite left_zero, right_zero by lra. ring.
Qed.

Theorem c28_walls : forall g d dt vel f c, on_wall g d c ->
  face_fraction eps64 g d dt vel f c = 0 /\ face_flux eps64 g d dt vel f c = 0.
Proof.
  intros g d dt vel f c H. apply on_wall_spec in H. unfold face_flux. rewrite face_fraction_eq, H. split; ring.
Qed.
(** The wall types are the four solid ones and no other. *)
Theorem c28_wall_types : forall b, is_wall b = true <->
  b = bc_no_slip_wall \/ b = bc_slip_wall \/ b = bc_wall_model \/ b = bc_symmetric_wall.
Proof. intros []; split; intros H; try discriminate; try tauto; try reflexivity; repeat (destruct H as [H|H]; try discriminate). Qed.
(** A face that is not on a wall has the same flux whatever the boundary types. *)
Theorem c28_other_faces : forall g g' d dt vel f c, vdom g = vdom g' -> vdx g = vdx g' ->
  ~ on_wall g d c -> ~ on_wall g' d c ->
  face_fraction eps64 g d dt vel f c = face_fraction eps64 g' d dt vel f c.
Proof.
  intros g g' d dt vel f c E1 E2 H H'. rewrite <- on_wall_spec in H, H'.
  rewrite !face_fraction_eq. apply Bool.not_true_is_false in H, H'. rewrite H, H'. unfold vofLR. rewrite E2. reflexivity.
Qed.

(** The upwind cell of the low face of [c]. *)
Definition upwind_cell (vel : ivec -> R) (d : Z) (c : ivec) : ivec := if Rlt_dec 0 (vel c) then down c d else c.

(** A full upwind cell gives 1, an empty one 0 (to 2.3e-12 of a cell). *)
Theorem c28_full_or_empty : forall g d dt vel f c, 0 < dt -> 0 < vdx g d -> vel c <> 0 -> ~ on_wall g d c ->
  (Rabs (f (upwind_cell vel d c) - 1) <= tiny_vof -> face_fraction eps64 g d dt vel f c = 1) /\
  (f (upwind_cell vel d c) <= tiny_vof -> face_fraction eps64 g d dt vel f c = 0).
Proof.
  intros g d dt vel f c Hdt Hdx Hv Hw. pose proof eps_pos as He.
  assert (K : 0 < dt / vdx g d) by (apply Rdiv_lt_0_compat; assumption).
  rewrite <- on_wall_spec in Hw. apply Bool.not_true_is_false in Hw. rewrite face_fraction_eq, Hw.
  assert (TV : tiny_vof < / 4) by (unfold tiny_vof, eps64; lra).
  assert (T0 : 0 < tiny_vof) by (unfold tiny_vof, eps64; lra).
  assert (EMP : forall x, f x <= tiny_vof -> Rleb (Rabs (f x - 1)) tiny_vof = false /\ Rltb tiny_vof (f x) = false).
  { intros x Hx. split; [apply Rleb_false; rewrite Rabs_left; lra|apply Rltb_false; lra]. }
  unfold upwind_cell. destruct (Rlt_dec 0 (vel c)) as [P|P].
  - assert (0 < vel c * (dt / vdx g d)) by (apply Rmult_lt_0_compat; assumption).
    rewrite right_zero by lra. unfold vofLR, eulerian. rewrite shift_up, up_down. split; intros F.
    + apply Rleb_spec in F. rewrite F. cbn [snd]. rewrite (proj2 (Rltb_spec _ _)) by assumption. ring.
    + destruct (EMP _ F) as [-> ->]. cbn [snd]. ring.
  - assert (0 < - vel c * (dt / vdx g d)) by (apply Rmult_lt_0_compat; lra).
    rewrite left_zero by lra. unfold vofLR, eulerian. split; intros F.
    + apply Rleb_spec in F. rewrite F. cbn [fst]. rewrite (proj2 (Rltb_spec _ 0)) by lra. ring.
    + destruct (EMP _ F) as [-> ->]. cbn [fst]. ring.
Qed.

(** A mixed upwind cell gives the fraction of liquid in the slab of the cell
    that leaves through the face: the slab of width |u| dt/dx adjacent to it,
    cut by the plane fitted in that cell.  [m_n], [m_s], [m_t] are the normal
    component of the plane across the face and the two transverse ones. *)
Definition normal_comp (d : Z) (m : v3) : R := if (d =? 0)%Z then w0 m else if (d =? 1)%Z then w1 m else w2 m.
Theorem c28_departure_slab : forall g d dt vel f c, (d = 0 \/ d = 1 \/ d = 2)%Z ->
  0 < dt -> 0 < vdx g d -> vel c <> 0 -> ~ on_wall g d c ->
  let D := upwind_cell vel d c in
  3 * / 10 ^ 12 <= f D -> f D <= 1 - 3 * / 10 ^ 12 ->
  let w := Rabs (vel c) * (dt / vdx g d) in
  let x0 := if Rlt_dec 0 (vel c) then 1 - w else 0 in
  let '(m, alpha) := fit_plane f (iv0 D) (iv1 D) (iv2 D) in
  let m_n := normal_comp d m in
  let m_s := normal_comp ((d + 1) mod 3) m in
  let m_t := normal_comp ((d + 2) mod 3) m in
  face_fraction eps64 g d dt vel f c = cut_volume m_n m_s m_t alpha x0 w /\
  (m_t <> 0 -> Rabs (w * face_fraction eps64 g d dt vel f c - slab_volume m_n m_s m_t alpha x0 w) <= w * eps64 / 4).
Proof.
  intros g d dt vel f c Hd Hdt Hdx Hv Hw D G0 G1 w x0. pose proof eps_pos as He.
  assert (TS : tiny_vof < 3 * / 10 ^ 12) by (unfold tiny_vof, eps64; lra).
  assert (F0 : tiny_vof < f D) by lra. assert (F1 : f D < 1 - tiny_vof) by lra. clear G0 G1.
  assert (K : 0 < dt / vdx g d) by (apply Rdiv_lt_0_compat; assumption).
  assert (W : 0 < w) by (apply Rmult_lt_0_compat; [apply Rabs_pos_lt; exact Hv|exact K]).
  destruct (fit_plane f (iv0 D) (iv1 D) (iv2 D)) as [m al] eqn:FP. cbv zeta.
  assert (M : face_fraction eps64 g d dt vel f c
     = cut_volume (normal_comp d m) (normal_comp ((d + 1) mod 3) m) (normal_comp ((d + 2) mod 3) m) al x0 w).
  { rewrite <- on_wall_spec in Hw. apply Bool.not_true_is_false in Hw. rewrite face_fraction_eq, Hw.
    assert (T0 : 0 < tiny_vof) by (unfold tiny_vof, eps64; lra).
    assert (B1 : Rleb (Rabs (f D - 1)) tiny_vof = false) by (apply Rleb_false; rewrite Rabs_left; lra).
    assert (B2 : Rltb tiny_vof (f D) = true) by (apply Rltb_spec; exact F0).
    assert (CD : forall r x, cut_dir eps64 d m al r x = cut_volume (normal_comp d m) (normal_comp ((d + 1) mod 3) m) (normal_comp ((d + 2) mod 3) m) al r x).
    { intros. destruct Hd as [->|[->| ->]]; reflexivity. }
    unfold fit_plane in FP.
    unfold x0, w, D, upwind_cell in *. destruct (Rlt_dec 0 (vel c)) as [P|P].
    - assert (A : 0 < vel c * (dt / vdx g d)) by (apply Rmult_lt_0_compat; assumption).
      rewrite right_zero by lra. unfold vofLR, eulerian. rewrite shift_up, up_down, B1, B2, FP. cbn [snd].
      rewrite (proj2 (Rltb_spec _ _) A), CD, Rabs_right by lra. ring.
    - assert (A : 0 < - vel c * (dt / vdx g d)) by (apply Rmult_lt_0_compat; lra).
      rewrite left_zero by lra. unfold vofLR, eulerian. rewrite B1, B2, FP. cbn [fst].
      rewrite (proj2 (Rltb_spec _ 0)) by lra. rewrite CD, Rabs_left by lra.
      rewrite Rplus_0_l. f_equal. ring. }
  split; [exact M|]. intros Ht. rewrite M. apply c30_measure; assumption.
Qed.

Example c28_ex : ~ on_wall ex_g 0 (IV 1 0 0) /\ on_wall ex_g 0 (IV 0 1 0) /\ on_wall ex_g 1 (IV 0 2 0) /\
  upwind_cell (ex_vel 0) 0 (IV 1 0 0) = IV 0 0 0 /\ upwind_cell (ex_vel 0) 0 (IV 1 1 0) = IV 1 1 0 /\
  3 * / 10 ^ 12 < ex_f (IV 1 1 0) < 1 - 3 * / 10 ^ 12.
Proof.
  split. { unfold on_wall, icomp, ex_g; simpl. intros [[_ H]|[_ H]]; lia. }
  split. { left. split; reflexivity. } split. { right. split; reflexivity. }
  unfold upwind_cell, ex_vel; simpl. split; [destruct Rlt_dec; [reflexivity|lra]|].
  split; [destruct Rlt_dec; [lra|reflexivity]|]. unfold ex_f; simpl. lra.
Qed.

(** ** C29 *)
Definition directions (isweep : Z) : list Z := [sweep_dir (isweep + 0); sweep_dir (isweep + 1); sweep_dir (isweep + 2)].
Theorem c29_each_once : forall isweep, (0 <= isweep)%Z -> Permutation (directions isweep) [0; 1; 2]%Z.
Proof. intros. apply sweep_dirs_perm. assumption. Qed.

(** The sweep counter of the [n]th step of a run is a function of [n]. *)
Fixpoint isweep_after (n : nat) (s : Z) : Z := match n with O => s | S m => isweep_after m (next_isweep s) end.
Theorem c29_counter : forall e g vs st, fst (vof_run e g vs st) = isweep_after (length vs) (fst st).
Proof. intros e g vs. induction vs as [|v r IH]; intros st; simpl; [reflexivity|]. rewrite IH. reflexivity. Qed.

(** Over any three consecutive steps of a run each direction comes first once,
    second once and third once. *)
Theorem c29_alternate : forall n k, (k < 3)%nat ->
  let s := isweep_after n 0 in
  let nth_dir i := nth k (directions (isweep_after i s)) 0%Z in
  Permutation [nth_dir 1%nat; nth_dir 2%nat; nth_dir 3%nat] [0; 1; 2]%Z.
Proof.
  intros n k Hk s. cbv zeta.
  assert (Hs : (s = 0 \/ s = 1 \/ s = 2 \/ s = 3)%Z).
  { unfold s. assert (G : forall m x, (x = 0 \/ x = 1 \/ x = 2 \/ x = 3)%Z -> (isweep_after m x = 0 \/ isweep_after m x = 1 \/ isweep_after m x = 2 \/ isweep_after m x = 3)%Z).
    { induction m as [|m IH]; intros x Hx; simpl; [exact Hx|]. apply IH. unfold next_isweep.
      destruct Hx as [->|[->|[->| ->]]]; simpl; auto. }
    apply G. auto. }
  assert (P021 : Permutation [0;2;1]%Z [0;1;2]%Z) by (apply perm_skip, perm_swap).
  assert (P102 : Permutation [1;0;2]%Z [0;1;2]%Z) by (apply perm_swap).
  assert (P210 : Permutation [2;1;0]%Z [0;1;2]%Z).
  { apply perm_trans with [1;2;0]%Z; [apply perm_swap|]. apply perm_trans with [1;0;2]%Z; [apply perm_skip, perm_swap|exact P102]. }
  assert (P120 : Permutation [1;2;0]%Z [0;1;2]%Z) by (apply perm_trans with [1;0;2]%Z; [apply perm_skip, perm_swap|exact P102]).
  assert (P201 : Permutation [2;0;1]%Z [0;1;2]%Z) by (apply perm_trans with [0;2;1]%Z; [apply perm_swap|exact P021]).
  clearbody s.
  destruct k as [|[|[|k]]]; [| | |lia]; destruct Hs as [->|[->|[->| ->]]]; cbn; auto.
Qed.
(** The direction whose coarse fluxes are replaced by averaged fine ones is
    the direction being swept. *)
Theorem c29_average_direction : forall s, (0 <= s)%Z -> average_down_dir s = sweep_dir s.
Proof.
  intros s Hs. unfold average_down_dir, sweep_dir. rewrite !Z.rem_mod_nonneg by lia.
  assert (s mod 3 = 0 \/ s mod 3 = 1 \/ s mod 3 = 2)%Z as [->|[->| ->]] by (pose proof (Z.mod_pos_bound s 3 ltac:(lia)); lia); reflexivity.
Qed.
Example c29_ex : map (fun n => directions (isweep_after n 0)) [1; 2; 3; 4]%nat = [[1; 0; 2]; [0; 2; 1]; [2; 1; 0]; [1; 0; 2]]%Z.
Proof. reflexivity. Qed.

(** The order of the sweeps depends on the number of advections so far, modulo 3. *)
Lemma directions_mod : forall m, directions (isweep_after m 0) = directions (Z.of_nat (m mod 3)).
Proof.
  assert (G : forall m x, (x = 0 \/ x = 1 \/ x = 2 \/ x = 3)%Z ->
            directions (isweep_after m x) = directions ((x + Z.of_nat m) mod 3)%Z).
  { induction m as [|m IH]; intros x Hx.
    - simpl isweep_after. rewrite Z.add_0_r. destruct Hx as [->|[->|[->| ->]]]; reflexivity.
    - change (isweep_after (S m) x) with (isweep_after m (next_isweep x)). rewrite IH.
      + rewrite Nat2Z.inj_succ. destruct Hx as [->|[->|[->| ->]]].
        * change (next_isweep 0) with 1%Z. do 2 f_equal. lia.
        * change (next_isweep 1) with 2%Z. do 2 f_equal. lia.
        * change (next_isweep 2) with 3%Z. do 2 f_equal. lia.
        * change (next_isweep 3) with 1%Z. f_equal.
          replace (3 + Z.succ (Z.of_nat m))%Z with (1 + Z.of_nat m + 1 * 3)%Z by lia. rewrite Z_mod_plus_full. reflexivity.
      + destruct Hx as [->|[->|[->| ->]]]; unfold next_isweep; cbn; auto. }
  intros m. rewrite G by auto. f_equal. rewrite Z.add_0_l, Nat2Z.inj_mod. reflexivity.
Qed.
(** incflo.cpp:309-312 with vof_advection.H:87-91: the counter advances with every fixed-point
    iteration, the volume fraction of the last one is kept.  With [k] iterations per step each
    direction still comes first, second and third once in any three steps, unless 3 divides [k]. *)
Theorem c29_fixed_point : forall k n pos, (pos < 3)%nat -> (k mod 3 <> 0)%nat ->
  let nth_dir i := nth pos (directions (isweep_after (k * (n + i)) 0)) 0%Z in
  Permutation [nth_dir 1%nat; nth_dir 2%nat; nth_dir 3%nat] [0; 1; 2]%Z.
Proof.
  intros k n pos Hp Hk. cbv beta zeta. rewrite !directions_mod.
  assert (M : forall i, ((k * (n + i)) mod 3 = ((k mod 3) * ((n mod 3 + i) mod 3)) mod 3)%nat).
  { intros i. rewrite Nat.mul_mod by lia. f_equal. f_equal. rewrite (Nat.add_mod (n mod 3)), (Nat.add_mod n), Nat.mod_mod by lia. reflexivity. }
  rewrite !M.
  assert (K : (k mod 3 = 1 \/ k mod 3 = 2)%nat) by (pose proof (Nat.mod_upper_bound k 3 ltac:(lia)); lia).
  assert (N : (n mod 3 = 0 \/ n mod 3 = 1 \/ n mod 3 = 2)%nat) by (pose proof (Nat.mod_upper_bound n 3 ltac:(lia)); lia).
  assert (P021 : Permutation [0;2;1]%Z [0;1;2]%Z) by (apply perm_skip, perm_swap).
  assert (P102 : Permutation [1;0;2]%Z [0;1;2]%Z) by (apply perm_swap).
  assert (P210 : Permutation [2;1;0]%Z [0;1;2]%Z).
  { apply perm_trans with [1;2;0]%Z; [apply perm_swap|]. apply perm_trans with [1;0;2]%Z; [apply perm_skip, perm_swap|exact P102]. }
  assert (P120 : Permutation [1;2;0]%Z [0;1;2]%Z) by (apply perm_trans with [1;0;2]%Z; [apply perm_skip, perm_swap|exact P102]).
  assert (P201 : Permutation [2;0;1]%Z [0;1;2]%Z) by (apply perm_trans with [0;2;1]%Z; [apply perm_swap|exact P021]).
  destruct pos as [|[|[|pos]]]; [| | |lia]; destruct K as [-> | ->]; destruct N as [->|[-> | ->]]; cbn; auto.
Qed.
(** With three iterations per step every step keeps the same order: the directions never
    alternate. *)
Theorem c29_fixed_point_refuted : forall n, directions (isweep_after (3 * n) 0) = [2; 1; 0]%Z.
Proof. intros n. rewrite directions_mod. rewrite Nat.mul_comm, Nat.mod_mul by lia. reflexivity. Qed.

(** ** C48: the sweep order is not part of the checkpoint (the counter is a
    member initialised to 0, vof_advection.H:144), so a run restarted after
    [n] steps sweeps in another order than the uninterrupted run. *)
Theorem c48_restart_order_refuted :
  ~ (forall n, directions (next_isweep (isweep_after n 0)) = directions (next_isweep 0)).
Proof. intros H. specialize (H 1%nat). discriminate H. Qed.
(** It does when the number of steps before the checkpoint is a multiple of 3. *)
Theorem c48_restart_order_partial : forall q k,
  directions (isweep_after (S k) (isweep_after (3 * q) 0)) = directions (isweep_after (S k) 0).
Proof.
  intros q k.
  assert (A : isweep_after (3 * q) 0 = 0%Z \/ isweep_after (3 * q) 0 = 3%Z).
  { assert (G : forall m n x, isweep_after (m + n) x = isweep_after n (isweep_after m x)) by (induction m as [|m IH]; intros; simpl; [reflexivity|apply IH]).
    induction q as [|q IH]; [left; reflexivity|]. replace (3 * S q)%nat with (3 * q + 3)%nat by lia. rewrite G.
    destruct IH as [-> | ->]; right; reflexivity. }
  destruct A as [-> | ->]; simpl; reflexivity.
Qed.

(** ** C31 *)
(** Never creates liquid: a cell keeps its value or is emptied. *)
Theorem c31_no_creation : forall bs old new c,
  debris_level bs old new c = new c \/ (debris_level bs old new c = 0 /\ 0 < new c).
Proof. intros. apply debris_level_either. Qed.

(** A cell with at least a millionth of liquid is emptied exactly when it is a
    droplet of the field before the removal; the order does not matter. *)
Theorem c31_droplets : forall order f c, / 1000000 <= f c ->
  (droplet f c /\ In c order -> debris_loop order f c = 0) /\
  (~ droplet f c \/ ~ In c order -> debris_loop order f c = f c).
Proof.
  intros order f c Hc. destruct (debris_big order f c Hc) as [A B]. split; [intros [D I]; apply B; assumption|].
  intros [D|D]; [apply A; exact D|].
  unfold debris_loop. revert f Hc A B. induction order as [|x l IH]; intros f Hc A B; simpl; [reflexivity|].
  assert (X : x <> c) by (intros ->; apply D; left; reflexivity).
  pose proof (debris1_other f x c (fun E => X (eq_sym E))) as E.
  rewrite IH; [exact E|intros I; apply D; right; exact I|rewrite E; exact Hc| |].
  - intros Nd. apply (debris_big l (debris1 f x) c); [rewrite E; exact Hc|exact Nd].
  - intros Dr I. exfalso. apply D. right; exact I.
Qed.

Lemma ivec_dec : forall a b : ivec, {a = b} + {a <> b}.
Proof. decide equality; apply Z.eq_dec. Qed.
Lemma classic_in : forall c (o : list ivec), In c o \/ ~ In c o.
Proof. intros. destruct (in_dec ivec_dec c o); auto. Qed.
Lemma droplet_dec : forall f c, droplet f c \/ ~ droplet f c.
Proof.
  intros f c. unfold droplet. destruct (Rlt_dec 0 (f c)) as [P|P]; [|right; tauto].
  assert (G : forall l : list ivec, (forall b, In b l -> f b < / 1000000) \/ ~ (forall b, In b l -> f b < / 1000000)).
  { induction l as [|x l IH]; [left; intros b []|].
    destruct (Rlt_dec (f x) (/ 1000000)) as [Q|Q].
    - destruct IH as [IH|IH]; [left; intros b [<-|B]; auto|right; intros K; apply IH; intros b B; apply K; right; exact B].
    - right. intros K. apply Q, K. left; reflexivity. }
  destruct (G (face_neighbours c)) as [A|A]; [left; auto|right; tauto].
Qed.

(** Any two processing orders of the same cells agree on every cell with at
    least a millionth of liquid, and differ by less than a millionth anywhere. *)
Theorem c31_orders_close : forall o1 o2 f, (forall c, In c o1 <-> In c o2) -> (forall c, 0 <= f c) ->
  forall c, (/ 1000000 <= f c -> debris_loop o1 f c = debris_loop o2 f c) /\
            Rabs (debris_loop o1 f c - debris_loop o2 f c) < / 1000000.
Proof.
  intros o1 o2 f Ho Hp c.
  assert (A : / 1000000 <= f c -> debris_loop o1 f c = debris_loop o2 f c).
  { intros Hc. destruct (c31_droplets o1 f c Hc) as [A1 B1]. destruct (c31_droplets o2 f c Hc) as [A2 B2].
    destruct (classic_in c o1) as [I|I].
    - destruct (droplet_dec f c) as [D|D]; [rewrite A1, A2; auto; split; auto; apply Ho; exact I|rewrite B1, B2; auto].
    - rewrite B1, B2; auto. right. intros J. apply I, Ho, J. }
  split; [exact A|].
  destruct (Rle_dec (/ 1000000) (f c)) as [H|H]; [rewrite A by exact H; rewrite Rminus_diag_eq by reflexivity; rewrite Rabs_R0; lra|].
  specialize (Hp c). destruct (debris_either o1 f c) as [->|[-> _]]; destruct (debris_either o2 f c) as [->|[-> _]];
    unfold Rabs; destruct Rcase_abs; lra.
Qed.

(** When no cell holds a positive amount below a millionth the result is the
    same field for every order, and the removed cells are the droplets. *)
Theorem c31_order_independent : forall o1 o2 f, (forall c, In c o1 <-> In c o2) ->
  (forall c, f c = 0 \/ / 1000000 <= f c) ->
  forall c, debris_loop o1 f c = debris_loop o2 f c /\
            (debris_loop o1 f c <> f c -> droplet f c /\ In c o1).
Proof.
  intros o1 o2 f Ho Hf c. destruct (Hf c) as [Z|B].
  - destruct (debris_either o1 f c) as [E1|[E1 P]]; [|lra]. destruct (debris_either o2 f c) as [E2|[E2 P]]; [|lra].
    rewrite E1, E2. split; [reflexivity|]. intros N. congruence.
  - destruct (c31_orders_close o1 o2 f Ho) with (c := c) as [A _].
    { intros x. destruct (Hf x); lra. }
    split; [apply A; exact B|]. intros N.
    destruct (c31_droplets o1 f c B) as [_ K].
    destruct (droplet_dec f c) as [D|D]; [|exfalso; apply N, K; auto].
    destruct (classic_in c o1) as [I|I]; [auto|exfalso; apply N, K; auto].
Qed.

(** With cells below a millionth the result does depend on the order. *)
Definition ex_debris (c : ivec) : R :=
  if (iv1 c =? 0)%Z && (iv2 c =? 0)%Z then
    (if (iv0 c =? 0)%Z then / 2 else if (iv0 c =? 1)%Z then / 2000000 else 0)
  else 0.
Lemma ex_debris_vals : droplet ex_debris (IV 0 0 0) /\ ~ droplet ex_debris (IV 1 0 0) /\ 0 < ex_debris (IV 1 0 0) < / 1000000.
Proof.
  split; [|split].
  - split; [unfold ex_debris; simpl; lra|]. intros b Hb. unfold face_neighbours in Hb; simpl in Hb.
    repeat (destruct Hb as [<-|Hb]; [unfold ex_debris; simpl; lra|]). destruct Hb.
  - intros [_ H]. specialize (H (IV 0 0 0)). unfold ex_debris in H at 1; simpl in H. 
    assert (/ 2 < / 1000000) by (apply H; auto). lra.
  - unfold ex_debris; simpl. lra.
Qed.
Lemma debris1_keep : forall f c, ~ droplet f c -> debris1 f c c = f c.
Proof.
  intros f c H. destruct (debris1_either f c c) as [E|(E & _ & P)]; [exact E|].
  apply debris1_at in E. destruct E as [E|E]; [lra|contradiction].
Qed.
Lemma ex_first : debris_loop [IV 0 0 0; IV 1 0 0]%Z ex_debris (IV 1 0 0) = 0.
Proof.
  destruct ex_debris_vals as (A & B & C). unfold debris_loop; simpl.
  apply debris1_at. right.
  assert (Z0 : debris1 ex_debris (IV 0 0 0) (IV 0 0 0) = 0) by (apply debris1_at; right; exact A).
  assert (O : forall x, x <> IV 0 0 0 -> debris1 ex_debris (IV 0 0 0) x = ex_debris x) by (intros; apply debris1_other; assumption).
  split; [rewrite O by discriminate; lra|].
  intros b Hb. unfold face_neighbours in Hb; simpl in Hb.
  destruct Hb as [<-|Hb]; [rewrite Z0; lra|].
  repeat (destruct Hb as [<-|Hb]; [rewrite O by discriminate; unfold ex_debris; simpl; lra|]). destruct Hb.
Qed.
Theorem c31_order_refuted :
  ~ (forall o1 o2 f, Permutation o1 o2 -> (forall c, 0 <= f c <= 1) ->
       forall c, debris_loop o1 f c = debris_loop o2 f c).
Proof.
  intros H. destruct ex_debris_vals as (A & B & C).
  specialize (H [IV 0 0 0; IV 1 0 0]%Z [IV 1 0 0; IV 0 0 0]%Z ex_debris (perm_swap _ _ _)).
  assert (R : forall c, 0 <= ex_debris c <= 1).
  { intros c. unfold ex_debris. destruct (_ && _)%bool; [|lra]. destruct (_ =? 0)%Z; [lra|]. destruct (_ =? 1)%Z; lra. }
  specialize (H R (IV 1 0 0)). rewrite ex_first in H.
  unfold debris_loop in H; simpl in H.
  rewrite debris1_other in H by discriminate. rewrite debris1_keep in H by exact B. lra.
Qed.
(** ... and a cell may be removed although a neighbour was far from empty. *)
Theorem c31_neighbours_refuted :
  ~ (forall order f, (forall c, 0 <= f c <= 1) ->
       forall c, debris_loop order f c <> f c -> forall b, In b (face_neighbours c) -> f b < / 1000000).
Proof.
  intros H. destruct ex_debris_vals as (A & B & C).
  assert (R : forall c, 0 <= ex_debris c <= 1).
  { intros c. unfold ex_debris. destruct (_ && _)%bool; [|lra]. destruct (_ =? 0)%Z; [lra|]. destruct (_ =? 1)%Z; lra. }
  specialize (H [IV 0 0 0; IV 1 0 0]%Z ex_debris R (IV 1 0 0)). rewrite ex_first in H.
  specialize (H ltac:(lra) (IV 0 0 0)). unfold ex_debris in H; simpl in H.
  assert (/ 2 < / 1000000) by (apply H; auto). lra.
Qed.

(** The removal reads ghost cells as they were before the last sweep, so the
    result depends on how the level is cut into boxes. *)
Definition ex_bsplit : list (box * list ivec) :=
  [(Box (IV 0 0 0) (IV 0 0 0), [IV 0 0 0]); (Box (IV 1 0 0) (IV 1 0 0), [IV 1 0 0])]%Z.
Definition ex_bwhole : list (box * list ivec) := [(Box (IV 0 0 0) (IV 1 0 0), [IV 0 0 0; IV 1 0 0])]%Z.
Definition at_cell (a : ivec) (v : R) (c : ivec) : R :=
  if (iv0 c =? iv0 a)%Z && (iv1 c =? iv1 a)%Z && (iv2 c =? iv2 a)%Z then v else 0.
(** [bs] cuts [dom] into boxes and processes the cells of each box. *)
Definition cuts (dom : box) (bs : list (box * list ivec)) : Prop :=
  (forall bo, In bo bs -> Permutation (snd bo) (cells (fst bo))) /\
  Permutation (flat_map (fun bo => cells (fst bo)) bs) (cells dom).
Theorem c31_decomposition_refuted :
  ~ (forall dom bs1 bs2 old new, cuts dom bs1 -> cuts dom bs2 ->
       (forall c, 0 <= old c <= 1) -> (forall c, 0 <= new c <= 1) ->
       (forall c, new c = 0 \/ / 1000000 <= new c) ->
       forall c, in_box dom c -> debris_level bs1 old new c = debris_level bs2 old new c).
Proof.
  intros H.
  set (old := at_cell (IV 1 0 0) (/2)). set (new := at_cell (IV 0 0 0) (/2)).
  assert (R : forall a c, 0 <= at_cell a (/2) c <= 1) by (intros; unfold at_cell; destruct (_ && _ && _)%bool; lra).
  specialize (H (Box (IV 0 0 0) (IV 1 0 0)) ex_bsplit ex_bwhole old new).
  assert (C1 : cuts (Box (IV 0 0 0) (IV 1 0 0)) ex_bsplit).
  { split; [intros bo [<-|[<-|[]]]; apply Permutation_refl|apply Permutation_refl]. }
  assert (C2 : cuts (Box (IV 0 0 0) (IV 1 0 0)) ex_bwhole).
  { split; [intros bo [<-|[]]; apply Permutation_refl|apply Permutation_refl]. }
  specialize (H C1 C2 (R _) (R _)).
  assert (S : forall c, new c = 0 \/ / 1000000 <= new c) by (intros; unfold new, at_cell; destruct (_ && _ && _)%bool; [right|left]; lra).
  specialize (H S (IV 0 0 0)). 
  assert (I : in_box (Box (IV 0 0 0) (IV 1 0 0)) (IV 0 0 0)) by (unfold in_box; simpl; lia).
  specialize (H I). unfold ex_bsplit, ex_bwhole, debris_level in H. cbn [fst snd] in H.
  change (in_boxb (Box (IV 0 0 0) (IV 0 0 0)) (IV 0 0 0)) with true in H.
  change (in_boxb (Box (IV 0 0 0) (IV 1 0 0)) (IV 0 0 0)) with true in H. cbv iota in H.
  unfold debris_box in H. cbn [fst snd] in H.
  set (f1 := fun c => if in_boxb (Box (IV 0 0 0) (IV 0 0 0)) c then new c else old c) in H.
  set (f2 := fun c => if in_boxb (Box (IV 0 0 0) (IV 1 0 0)) c then new c else old c) in H.
  assert (F1 : f1 (IV 0 0 0) = /2) by reflexivity. assert (F2 : f2 (IV 0 0 0) = /2) by reflexivity.
  destruct (c31_droplets [IV 0 0 0] f1 (IV 0 0 0) ltac:(lra)) as [_ K1].
  destruct (c31_droplets [IV 0 0 0; IV 1 0 0] f2 (IV 0 0 0) ltac:(lra)) as [K2 _].
  rewrite K1, K2 in H; [lra| |].
  - split; [|left; reflexivity]. split; [lra|]. intros b Hb. unfold face_neighbours in Hb; simpl in Hb.
    repeat (destruct Hb as [<-|Hb]; [unfold f2, new, old, at_cell, in_boxb; simpl; lra|]). destruct Hb.
  - left. intros [_ D]. specialize (D (IV 1 0 0)).
    assert (X : f1 (IV 1 0 0) = / 2) by reflexivity. rewrite X in D.
    assert (/ 2 < / 1000000) by (apply D; simpl; auto). lra.
Qed.
Example c31_ex : debris_loop [IV 0 0 0] (at_cell (IV 0 0 0) (/2)) (IV 0 0 0) = 0.
Proof.
  apply c31_droplets; [unfold at_cell; simpl; lra|]. split; [|left; reflexivity].
  split; [unfold at_cell; simpl; lra|]. intros b Hb. unfold face_neighbours in Hb; simpl in Hb.
  repeat (destruct Hb as [<-|Hb]; [unfold at_cell; simpl; lra|]). destruct Hb.
Qed.

Print Assumptions c26_range.
Print Assumptions c26_range_between.
Print Assumptions c26_face_range.
Print Assumptions c27_sweep_balance.
Print Assumptions c27_sweep_sealed.
Print Assumptions c27_step_unclipped.
Print Assumptions c27_drift.
Print Assumptions c27_unguarded_exact.
Print Assumptions c28_upwind.
Print Assumptions c28_walls.
Print Assumptions c28_wall_types.
Print Assumptions c28_other_faces.
Print Assumptions c28_full_or_empty.
Print Assumptions c28_departure_slab.
Print Assumptions c29_each_once.
Print Assumptions c29_counter.
Print Assumptions c29_alternate.
Print Assumptions c29_average_direction.
Print Assumptions c48_restart_order_refuted.
Print Assumptions c48_restart_order_partial.
Print Assumptions c31_no_creation.
Print Assumptions c31_droplets.
Print Assumptions c31_orders_close.
Print Assumptions c31_order_independent.
Print Assumptions c31_order_refuted.
Print Assumptions c31_neighbours_refuted.
Print Assumptions c31_decomposition_refuted.
Print Assumptions c29_fixed_point.
