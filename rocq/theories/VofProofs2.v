(** Conservation of the liquid volume by the directional sweeps. *)
From Coq Require Import Permutation FinFun.
From Verif Require Import BoxR BoxRFacts Plic PlicSpec PlicProofs PlicProofs2 PlicIntercept2 PlicProofs3 VofAdvect VofSpec VofSetting VofProofs.
Open Scope R_scope.

Lemma opposite_shift : forall b d c, opposite b d c = shift c d (extent b d).
Proof. reflexivity. Qed.

Lemma NoDup_app : forall (A : Type) (l l' : list A), NoDup l -> NoDup l' ->
  (forall x, In x l -> In x l' -> False) -> NoDup (l ++ l').
Proof.
  intros A l l' H H'. induction H as [|x l Hx Hl IH]; intros D; simpl; [exact H'|].
  constructor.
  - rewrite in_app_iff. intros [B|B]; [exact (Hx B)|exact (D x (or_introl eq_refl) B)].
  - apply IH. intros y Y. apply D. right. exact Y.
Qed.

(** ** Telescoping *)
Definition raise_lo (b : box) (d : Z) : box := Box (shift (blo b) d 1) (bhi b).

Lemma in_cells_iff : forall b c, In c (cells b) <-> in_box b c.
Proof. apply in_cells. Qed.

Lemma shift_inj : forall d s, Injective (fun c => shift c d s).
Proof.
  intros d s x y H. rewrite <- (shift_0 x d), <- (shift_0 y d).
  replace 0%Z with (s + - s)%Z by lia. rewrite <- !shift_add, H. reflexivity.
Qed.

Ltac box_lia d :=
  unfold in_box, raise_lo, low_layer, extent, shift, icomp in *;
  let a := fresh in let b := fresh in
  set (a := (d =? 0)%Z) in *; set (b := (d =? 1)%Z) in *; clearbody a b;
  destruct a; [|destruct b]; cbn [iv0 iv1 iv2 blo bhi] in *; lia.

Lemma perm_low : forall b d, (icomp (blo b) d <= icomp (bhi b) d)%Z ->
  Permutation (cells b) (cells (low_layer b d) ++ cells (raise_lo b d)).
Proof.
  intros b d H. apply NoDup_Permutation; [apply NoDup_cells| |].
  - apply NoDup_app; [apply NoDup_cells|apply NoDup_cells|].
    intros x A B. rewrite in_cells_iff in *. box_lia d.
  - intros x. rewrite in_app_iff, !in_cells_iff. split.
    + intros A. destruct (Z.eq_dec (icomp x d) (icomp (blo b) d)); [left|right]; box_lia d.
    + intros [A|A]; box_lia d.
Qed.

Lemma perm_high : forall b d, (icomp (blo b) d <= icomp (bhi b) d)%Z ->
  Permutation (map (fun c => up c d) (cells b))
    (cells (raise_lo b d) ++ map (opposite b d) (cells (low_layer b d))).
Proof.
  intros b d H. apply NoDup_Permutation.
  - apply (Injective_map_NoDup (f := fun c => up c d)); [|apply NoDup_cells].
    intros x y E. rewrite <- !shift_up in E. exact (shift_inj d 1 x y E).
  - apply NoDup_app; [apply NoDup_cells| |].
    + apply Injective_map_NoDup; [|apply NoDup_cells]. intros x y E. rewrite !opposite_shift in E. exact (shift_inj d _ x y E).
    + intros x A B. rewrite in_map_iff in B. destruct B as (y & <- & B). rewrite in_cells_iff in *.
      rewrite opposite_shift in A. box_lia d.
  - intros x. rewrite in_app_iff, !in_map_iff, in_cells_iff. split.
    + intros (y & <- & Hy). rewrite in_cells_iff in Hy. rewrite <- shift_up.
      destruct (Z.eq_dec (icomp y d) (icomp (bhi b) d)).
      * right. exists (shift y d (1 - extent b d)). rewrite opposite_shift, shift_add, in_cells_iff.
        split; [f_equal; lia|box_lia d].
      * left. box_lia d.
    + intros [A|(y & <- & Hy)].
      * exists (shift x d (-1)). rewrite <- shift_up, shift_add. split; [apply shift_0|]. apply in_cells_iff. box_lia d.
      * rewrite in_cells_iff in Hy. exists (shift y d (extent b d - 1)). rewrite <- shift_up, shift_add, opposite_shift, in_cells_iff.
        split; [f_equal; lia|box_lia d].
Qed.

Lemma telescope : forall b d F, (icomp (blo b) d <= icomp (bhi b) d)%Z ->
  total b (fun c => F c - F (up c d)) = total (low_layer b d) (fun c => F c - F (opposite b d c)).
Proof.
  intros b d F H. unfold total.
  assert (M : forall (G K : ivec -> R) l, rsum (map (fun c => G c - K c) l) = rsum (map G l) - rsum (map K l)).
  { intros. induction l as [|x l IH]; simpl map; [cbn; lra|]. rewrite !rsum_cons, IH. lra. }
  rewrite !M.
  assert (A : rsum (map F (cells b)) = rsum (map F (cells (low_layer b d))) + rsum (map F (cells (raise_lo b d)))).
  { rewrite <- rsum_app, <- map_app. apply rsum_perm, Permutation_map, perm_low, H. }
  assert (B : rsum (map (fun c => F (up c d)) (cells b)) = rsum (map F (cells (raise_lo b d))) + rsum (map (fun c => F (opposite b d c)) (cells (low_layer b d)))).
  { rewrite <- (map_map (fun c => up c d) F), <- (map_map (opposite b d) F), <- rsum_app, <- map_app.
    apply rsum_perm, Permutation_map, perm_high, H. }
  rewrite A, B. ring.
Qed.

(** ** Totals *)
Lemma total_plus : forall b f h, total b (fun c => f c + h c) = total b f + total b h.
Proof. intros. apply rsum_plus. Qed.
Lemma total_ext : forall b f h, (forall c, in_box b c -> f c = h c) -> total b f = total b h.
Proof. intros. apply rsum_ext. intros x Hx. apply H, in_cells_iff, Hx. Qed.
Lemma total_scale : forall b f k, total b (fun c => f c * k) = total b f * k.
Proof. intros. apply rsum_scale. Qed.
Lemma total_zero : forall b f, (forall c, in_box b c -> f c = 0) -> total b f = 0.
Proof. intros. apply rsum_zero. intros x Hx. apply H, in_cells_iff, Hx. Qed.
Lemma total_abs : forall b f k, (forall c, in_box b c -> Rabs (f c) <= k) -> Rabs (total b f) <= ncells b * k.
Proof.
  intros b f k H. unfold total, ncells.
  assert (G : forall l, (forall c, In c l -> Rabs (f c) <= k) -> Rabs (rsum (map f l)) <= INR (length l) * k).
  { induction l as [|x l IH]; intros Hl.
    - cbn. rewrite Rabs_R0. lra.
    - simpl map. rewrite rsum_cons. change (length (x :: l)) with (S (length l)). rewrite S_INR.
      eapply Rle_trans; [apply Rabs_triang|].
      pose proof (Hl x (or_introl eq_refl)). pose proof (IH (fun c Hc => Hl c (or_intror Hc))). lra. }
  apply G. intros c Hc. apply H, in_cells_iff, Hc.
Qed.

(** One sweep before clipping. *)
Lemma sweep_total : forall e g d dt vel f C,
  (icomp (blo (vdom g)) d <= icomp (bhi (vdom g)) d)%Z ->
  total (vdom g) (balance_raw e g d dt vel f C)
  = total (vdom g) f
    + total (low_layer (vdom g) d)
        (fun c => face_flux e g d dt vel f c - face_flux e g d dt vel f (opposite (vdom g) d c)) * / vdx g d
    + total (vdom g) (fun c => C c * (vel (up c d) * (dt / vdx g d) - vel c * (dt / vdx g d))).
Proof.
  intros e g d dt vel f C H.
  assert (T := telescope (vdom g) d (face_flux e g d dt vel f) H).
  rewrite <- T, <- total_scale, <- !total_plus. apply total_ext. intros c _. unfold balance_raw, Rdiv. rewrite shift_up. ring.
Qed.

(** ** Boundary fluxes of sealed directions vanish *)

Lemma fit_plane_shift : forall e f h c d s, (forall x, h x = f (shift x d s)) ->
  fit_plane_e e f (iv0 (shift c d s)) (iv1 (shift c d s)) (iv2 (shift c d s))
  = fit_plane_e e h (iv0 c) (iv1 c) (iv2 c).
Proof.
  intros e f h [i j k] d s H.
  assert (V : forall p q r, at3 h (i + p) (j + q) (k + r)
     = at3 f (iv0 (shift (IV i j k) d s) + p) (iv1 (shift (IV i j k) d s) + q) (iv2 (shift (IV i j k) d s) + r)).
  { intros. unfold at3. rewrite H. unfold shift; simpl. destruct (d =? 0)%Z, (d =? 1)%Z; simpl; f_equal; f_equal; lia. }
  assert (V0 : at3 h i j k = at3 f (iv0 (shift (IV i j k) d s)) (iv1 (shift (IV i j k) d s)) (iv2 (shift (IV i j k) d s))).
  { unfold at3. rewrite H. unfold shift; simpl. destruct (d =? 0)%Z, (d =? 1)%Z; simpl; reflexivity. }
  simpl (iv0 (IV i j k)). simpl (iv1 (IV i j k)). simpl (iv2 (IV i j k)).
  set (c' := shift (IV i j k) d s) in *.
  assert (Y : youngs f (iv0 c') (iv1 c') (iv2 c') = youngs h i j k) by (unfold youngs; rewrite !V; reflexivity).
  assert (K0 : central0 f (iv0 c') (iv1 c') (iv2 c') = central0 h i j k) by (unfold central0; rewrite !V; reflexivity).
  assert (K1 : central1 f (iv0 c') (iv1 c') (iv2 c') = central1 h i j k) by (unfold central1; rewrite !V; reflexivity).
  assert (K2 : central2 f (iv0 c') (iv1 c') (iv2 c') = central2 h i j k) by (unfold central2; rewrite !V; reflexivity).
  unfold fit_plane_e, mixed_normal_e. rewrite Y, K0, K1, K2, V0. reflexivity.
Qed.

Lemma vofLR_periodic : forall e g d dt vel f c,
  periodic_along (vdom g) d f -> periodic_along (vdom g) d vel ->
  vofLR e g d dt vel f (opposite (vdom g) d c) = vofLR e g d dt vel f c.
Proof.
  intros e g d dt vel f c Pf Pv. unfold vofLR, eulerian.
  rewrite (Pf c), (Pv c).
  assert (E : shift (opposite (vdom g) d c) d 1 = opposite (vdom g) d (shift c d 1)).
  { rewrite !opposite_shift, !shift_add. f_equal. lia. }
  rewrite E, (Pv (shift c d 1)). rewrite opposite_shift.
  rewrite (fit_plane_shift e f f c d (extent (vdom g) d)); [reflexivity|]. intros x. symmetry. apply Pf.
Qed.

Lemma face_flux_periodic : forall e g d dt vel f c,
  is_wall (vbclo g d) = false -> is_wall (vbchi g d) = false ->
  periodic_along (vdom g) d f -> periodic_along (vdom g) d vel ->
  face_flux e g d dt vel f (opposite (vdom g) d c) = face_flux e g d dt vel f c.
Proof.
  intros e g d dt vel f c Wl Wh Pf Pv. unfold face_flux. rewrite (Pv c). f_equal.
  rewrite !face_fraction_eq. unfold wall_face. rewrite Wl, Wh. simpl.
  assert (E : down (opposite (vdom g) d c) d = opposite (vdom g) d (down c d)).
  { rewrite <- !shift_down, !opposite_shift, !shift_add. f_equal. lia. }
  rewrite E, !vofLR_periodic by assumption. reflexivity.
Qed.

(** A direction is sealed when it is bounded by walls or periodic. *)
Definition sealed (g : vgeom) (d : Z) (vel f : fld) : Prop :=
  (is_wall (vbclo g d) = true /\ is_wall (vbchi g d) = true) \/
  (is_wall (vbclo g d) = false /\ is_wall (vbchi g d) = false /\
   periodic_along (vdom g) d vel /\ periodic_along (vdom g) d f).

Lemma sealed_flux : forall e g d dt vel f c, sealed g d vel f ->
  (icomp (blo (vdom g)) d <= icomp (bhi (vdom g)) d)%Z -> in_box (low_layer (vdom g) d) c ->
  face_flux e g d dt vel f c - face_flux e g d dt vel f (opposite (vdom g) d c) = 0.
Proof.
  intros e g d dt vel f c S Hd Hc. destruct S as [[Wl Wh]|(Wl & Wh & Pv & Pf)].
  - assert (Ec : icomp c d = icomp (blo (vdom g)) d) by box_lia d.
    assert (Eo : icomp (opposite (vdom g) d c) d = (icomp (bhi (vdom g)) d + 1)%Z).
    { rewrite opposite_shift. box_lia d. }
    unfold face_flux. rewrite !face_fraction_eq. unfold wall_face.
    rewrite Ec, Eo, Wl, Wh, !Z.eqb_refl. rewrite Bool.orb_true_r. simpl. ring.
  - rewrite face_flux_periodic by assumption. ring.
Qed.

Lemma sealed_total : forall e g d dt vel f C, sealed g d vel f ->
  (icomp (blo (vdom g)) d <= icomp (bhi (vdom g)) d)%Z ->
  total (vdom g) (balance_raw e g d dt vel f C)
  = total (vdom g) f + total (vdom g) (fun c => C c * (vel (up c d) * (dt / vdx g d) - vel c * (dt / vdx g d))).
Proof.
  intros. rewrite sweep_total by assumption. rewrite (total_zero (low_layer (vdom g) d)); [ring|].
  intros c Hc. apply sealed_flux; assumption.
Qed.

(** ** A list of sweeps *)
Definition one_sweep (e : R) (g : vgeom) (v : venv) (C : fld) (f : fld) (d : Z) : fld :=
  ve_fill v (sweep e g d (ve_dt v) (ve_vel v d) f C).

Lemma vof_step_sweeps : forall e g v s f, ve_debris v = None ->
  vof_step e g v s f
  = fold_left (one_sweep e g v (c_mask f)) [sweep_dir (s + 0); sweep_dir (s + 1); sweep_dir (s + 2)] f.
Proof. intros e g v s f H. unfold vof_step, split_step, one_sweep. rewrite H. reflexivity. Qed.


Definition dilat (g : vgeom) (v : venv) (C : fld) (d : Z) : R :=
  total (vdom g) (fun c => C c * (ve_vel v d (up c d) * (ve_dt v / vdx g d) - ve_vel v d c * (ve_dt v / vdx g d))).

Lemma one_sweep_total : forall e g v C f d, (d = 0 \/ d = 1 \/ d = 2)%Z ->
  (icomp (blo (vdom g)) d <= icomp (bhi (vdom g)) d)%Z ->
  fill_ok g v -> vel_ok g v -> wraps g f ->
  total (vdom g) (one_sweep e g v C f d)
  = total (vdom g) f + dilat g v C d
    + total (vdom g) (fun c => clip01 (balance_raw e g d (ve_dt v) (ve_vel v d) f C c)
                               - balance_raw e g d (ve_dt v) (ve_vel v d) f C c).
Proof.
  intros e g v C f d Hd Hbx [Hk Hp] Hv Hw. unfold one_sweep.
  assert (S : sealed g d (ve_vel v d) f).
  { destruct (Hv d Hd) as [_ [[A B]|(A & B & P)]]; [left; auto|right]. repeat split; auto. }
  unfold dilat. rewrite <- (sealed_total e g d (ve_dt v) (ve_vel v d) f C S Hbx).
  rewrite <- total_plus. apply total_ext. intros c Hc. rewrite Hk by exact Hc.
  unfold sweep. pose proof (proj2 (in_boxb_spec _ _) Hc) as B. rewrite B. unfold balance. ring.
Qed.

Lemma box_ok_icomp : forall b d, box_ok b -> (icomp (blo b) d <= icomp (bhi b) d)%Z.
Proof. intros b d (A & B & C). unfold icomp. destruct (d =? 0)%Z, (d =? 1)%Z; assumption. Qed.


(** Sweeps whose inflow and outflow are limited clip at most [rho] per cell. *)
Lemma sweeps_total : forall e t g v C ds f s,
  0 <= e -> intercept_within e t -> box_ok (vdom g) -> fill_ok g v -> vel_ok g v ->
  (forall d, In d ds -> (d = 0 \/ d = 1 \/ d = 2)%Z) ->
  (forall c, in_box (vdom g) c -> C c = 0 \/ C c = 1) ->
  (forall d c, In d ds -> in_box (vdom g) c -> out_width (ve_vel v d) (ve_dt v / vdx g d) c d <= /2) ->
  (forall c, in_box (vdom g) c -> s c + dirs_sum g v in_width ds c <= /2) ->
  wraps g f -> (forall c, in_box (vdom g) c -> 0 <= f c <= 1) ->
  (forall c, in_box (vdom g) c -> (C c = 0 -> f c <= /2 + s c) /\ (C c = 1 -> 1 - f c <= /2 + s c)) ->
  (forall c, in_box (vdom g) c -> 0 <= s c) ->
  Rabs (total (vdom g) (fold_left (one_sweep e g v C) ds f)
        - (total (vdom g) f + rsum (map (dilat g v C) ds)))
  <= INR (length ds) * (ncells (vdom g) * (t + e / 4)) /\
  (forall c, in_box (vdom g) c -> 0 <= fold_left (one_sweep e g v C) ds f c <= 1) /\
  (ds <> nil -> wraps g (fold_left (one_sweep e g v C) ds f)).
Proof.
  intros e t g v C ds. pose proof within_nonneg as WN. induction ds as [|d ds IH]; intros f s He Hw Hbx Hf Hv Hd HC Ho Hi Wf Rf Bf Sp.
  - simpl. split; [|split; [assumption|congruence]].
    match goal with |- Rabs ?x <= _ => replace x with 0 by ring end. rewrite Rabs_R0. lra.
  - specialize (WN e t Hw).
    assert (Dd : (d = 0 \/ d = 1 \/ d = 2)%Z) by (apply Hd; left; reflexivity).
    simpl fold_left. set (f1 := one_sweep e g v C f d).
    assert (INW : forall c d', 0 <= in_width (ve_vel v d') (ve_dt v / vdx g d') c d').
    { intros. unfold in_width.
      pose proof (Rmax_l 0 (ve_vel v d' c * (ve_dt v / vdx g d'))).
      pose proof (Rmax_l 0 (- (ve_vel v d' (up c d') * (ve_dt v / vdx g d')))). lra. }
    assert (DS : forall c, 0 <= dirs_sum g v in_width ds c).
    { intros. unfold dirs_sum. apply rsum_nonneg. intros. apply INW. }
    assert (DSc : forall c, dirs_sum g v in_width (d :: ds) c
              = in_width (ve_vel v d) (ve_dt v / vdx g d) c d + dirs_sum g v in_width ds c) by reflexivity.
    assert (Cell : forall c, in_box (vdom g) c ->
        let raw := balance_raw e g d (ve_dt v) (ve_vel v d) f C c in
        (C c = 0 -> - (t + e / 4) <= raw <= f c + in_width (ve_vel v d) (ve_dt v / vdx g d) c d) /\
        (C c = 1 -> - (t + e / 4) <= 1 - raw <= 1 - f c + in_width (ve_vel v d) (ve_dt v / vdx g d) c d)).
    { intros c Hc. apply sweep_cell; auto.
      - apply Hv; exact Dd.
      - apply Ho; [left; reflexivity|exact Hc]. }
    assert (F1 : forall c, in_box (vdom g) c -> f1 c = clip01 (balance_raw e g d (ve_dt v) (ve_vel v d) f C c)).
    { intros c Hc. unfold f1, one_sweep. destruct Hf as [Hk _]. rewrite Hk by exact Hc.
      unfold sweep. pose proof (proj2 (in_boxb_spec _ _) Hc) as B. rewrite B. reflexivity. }
    destruct (IH f1 (fun c => s c + in_width (ve_vel v d) (ve_dt v / vdx g d) c d)) as (T & R & W); auto.
    + intros d' Hd'. apply Hd. right. exact Hd'.
    + intros d' c Hd' Hc. apply Ho; [right; exact Hd'|exact Hc].
    + intros c Hc. specialize (Hi c Hc). rewrite DSc in Hi. lra.
    + intros d' Hd' A B. apply Hf; assumption.
    + intros c Hc. rewrite F1 by exact Hc. apply clip01_range.
    + intros c Hc. rewrite F1 by exact Hc. specialize (Cell c Hc). cbv zeta in Cell. destruct Cell as [Z0 Z1].
      specialize (Bf c Hc). specialize (Sp c Hc). pose proof (INW c d).
      set (raw := balance_raw e g d (ve_dt v) (ve_vel v d) f C c) in *.
      assert (CL : (clip01 raw <= raw \/ clip01 raw = 0) /\ (raw <= clip01 raw \/ clip01 raw = 1)).
      { unfold clip01. rewrite rmax_Rmax, rmin_Rmin. unfold Rmax, Rmin. repeat destruct Rle_dec; split; try (left; lra); right; lra. }
      split; intros Hcc.
      * specialize (Z0 Hcc). destruct Bf as [Bf _]. specialize (Bf Hcc). destruct CL as [[|] _]; lra.
      * specialize (Z1 Hcc). destruct Bf as [_ Bf]. specialize (Bf Hcc). destruct CL as [_ [|]]; lra.
    + intros c Hc. specialize (Sp c Hc). pose proof (INW c d). lra.
    + split; [|split; [exact R|]].
      * change (length (d :: ds)) with (S (length ds)). rewrite S_INR.
        change (rsum (map (dilat g v C) (d :: ds))) with (dilat g v C d + rsum (map (dilat g v C) ds)).
        pose proof (one_sweep_total e g v C f d Dd (box_ok_icomp _ d Hbx) Hf Hv Wf) as T1. fold f1 in T1.
        set (err := total (vdom g) (fun c => clip01 (balance_raw e g d (ve_dt v) (ve_vel v d) f C c) - balance_raw e g d (ve_dt v) (ve_vel v d) f C c)) in *.
        assert (E1 : Rabs err <= ncells (vdom g) * (t + e / 4)).
        { unfold err. apply total_abs. intros c Hc. specialize (Cell c Hc). cbv zeta in Cell. destruct Cell as [Z0 Z1].
          specialize (Bf c Hc). specialize (Hi c Hc). rewrite DSc in Hi. pose proof (DS c).
          apply clip01_near; [lra|].
          destruct (HC c Hc) as [Hcc|Hcc].
          - specialize (Z0 Hcc). destruct Bf as [Bf _]. specialize (Bf Hcc). lra.
          - specialize (Z1 Hcc). destruct Bf as [_ Bf]. specialize (Bf Hcc). lra. }
        set (TT := total (vdom g) (fold_left (one_sweep e g v C) ds f1)) in *.
        replace (TT - (total (vdom g) f + (dilat g v C d + rsum (map (dilat g v C) ds))))
          with ((TT - (total (vdom g) f1 + rsum (map (dilat g v C) ds))) + err) by (rewrite T1; ring).
        eapply Rle_trans; [apply Rabs_triang|]. lra.
      * intros _. destruct ds as [|d2 ds2]; [|apply W; discriminate].
        simpl. intros d' Hd' A B. unfold f1. apply Hf; assumption.
Qed.

(** ** The sweep order *)
Lemma sweep_dirs_perm : forall s, (0 <= s)%Z ->
  Permutation [sweep_dir (s + 0); sweep_dir (s + 1); sweep_dir (s + 2)] [0; 1; 2]%Z.
Proof.
  intros s Hs. unfold sweep_dir. rewrite !Z.rem_mod_nonneg by lia.
  assert (A : (s mod 3 = 0 \/ s mod 3 = 1 \/ s mod 3 = 2)%Z) by (pose proof (Z.mod_pos_bound s 3 ltac:(lia)); lia).
  rewrite !(Zplus_mod s). destruct A as [A|[A|A]]; rewrite A; cbn.
  - apply perm_trans with [2;0;1]%Z; [apply perm_skip, perm_swap|]. apply perm_trans with [0;2;1]%Z; [apply perm_swap|]. apply perm_skip, perm_swap.
  - apply perm_swap.
  - apply perm_skip, perm_swap.
Qed.

Lemma rsum_perm_map : forall (f : Z -> R) l l', Permutation l l' -> rsum (map f l) = rsum (map f l').
Proof. intros. apply rsum_perm, Permutation_map. assumption. Qed.


Lemma dilat_cancels : forall g v C s, (0 <= s)%Z -> divergence_free g v ->
  rsum (map (dilat g v C) [sweep_dir (s + 0); sweep_dir (s + 1); sweep_dir (s + 2)]) = 0.
Proof.
  intros g v C s Hs Hdiv. rewrite (rsum_perm_map _ _ _ (sweep_dirs_perm s Hs)).
  simpl map. rewrite !rsum_cons. change (rsum []) with 0. unfold dilat.
  rewrite Rplus_0_r, <- !total_plus. apply total_zero. intros c Hc. specialize (Hdiv c Hc).
  match goal with |- ?x = 0 => replace x with (C c * ve_dt v * 
    ((ve_vel v 0 (up c 0) - ve_vel v 0 c) / vdx g 0 + (ve_vel v 1 (up c 1) - ve_vel v 1 c) / vdx g 1 +
     (ve_vel v 2 (up c 2) - ve_vel v 2 c) / vdx g 2)) by (unfold Rdiv; ring) end.
  rewrite Hdiv. ring.
Qed.

(** ** One step under a Courant condition *)

Lemma step_total : forall e t g v s f,
  0 <= e -> intercept_within e t -> (0 <= s)%Z -> box_ok (vdom g) -> fill_ok g v -> vel_ok g v ->
  ve_debris v = None -> courant g v -> divergence_free g v ->
  wraps g f -> (forall c, in_box (vdom g) c -> 0 <= f c <= 1) ->
  Rabs (total (vdom g) (vof_step e g v s f) - total (vdom g) f) <= 3 * (ncells (vdom g) * (t + e / 4)) /\
  wraps g (vof_step e g v s f).
Proof.
  intros e t g v s f He Hw Hs Hbx Hf Hv Hdb Hcfl Hdiv Wf Rf.
  rewrite vof_step_sweeps by exact Hdb.
  set (ds := [sweep_dir (s + 0); sweep_dir (s + 1); sweep_dir (s + 2)]).
  pose proof (sweep_dirs_perm s Hs) as P. fold ds in P.
  assert (OW : forall c d', 0 <= out_width (ve_vel v d') (ve_dt v / vdx g d') c d').
  { intros. unfold out_width.
    pose proof (Rmax_l 0 (- (ve_vel v d' c * (ve_dt v / vdx g d')))).
    pose proof (Rmax_l 0 (ve_vel v d' (up c d') * (ve_dt v / vdx g d'))). lra. }
  destruct (sweeps_total e t g v (c_mask f) ds f (fun _ => 0)) as (T & _ & W); auto.
  - intros d Hd. apply (Permutation_in _ P) in Hd. simpl in Hd. intuition.
  - intros c _. unfold c_mask. destruct (Rltb _ _); auto.
  - intros d c Hd Hc. apply (Permutation_in _ P) in Hd. destruct (Hcfl c Hc) as [O _].
    unfold dirs_sum in O. simpl map in O. rewrite !rsum_cons in O. change (rsum []) with 0 in O.
    pose proof (OW c 0%Z). pose proof (OW c 1%Z). pose proof (OW c 2%Z).
    simpl in Hd. destruct Hd as [<-|[<-|[<-|[]]]]; lra.
  - intros c Hc. destruct (Hcfl c Hc) as [_ I]. unfold dirs_sum in *.
    rewrite (rsum_perm_map _ _ _ P). lra.
  - intros c Hc. unfold c_mask. destruct (Rltb (/2) (f c)) eqn:E; split; intros Q; try lra.
    + apply Rltb_spec in E. lra.
    + apply Rltb_false in E. lra.
  - intros; lra.
  - split; [|apply W; discriminate].
    pose proof (dilat_cancels g v (c_mask f) s Hs Hdiv) as DC. fold ds in DC. rewrite DC, Rplus_0_r in T.
    change (INR (length ds)) with (1 + 1 + 1) in T. lra.
Qed.

(** ** The same without a Courant condition when nothing is clipped *)
Lemma step_total_unclipped : forall e g v s f,
  (0 <= s)%Z -> box_ok (vdom g) -> fill_ok g v -> vel_ok g v ->
  ve_debris v = None -> divergence_free g v -> wraps g f ->
  (forall h d c, (h = f \/ h = split_step e g v s 0 (c_mask f) f \/
                  h = split_step e g v s 1 (c_mask f) (split_step e g v s 0 (c_mask f) f)) ->
     in_box (vdom g) c -> 0 <= balance_raw e g d (ve_dt v) (ve_vel v d) h (c_mask f) c <= 1) ->
  total (vdom g) (vof_step e g v s f) = total (vdom g) f.
Proof.
  intros e g v s f Hs Hbx Hf Hv Hdb Hdiv Wf Hcl.
  pose proof (dilat_cancels g v (c_mask f) s Hs Hdiv) as Z. simpl map in Z. rewrite !rsum_cons in Z. change (rsum []) with 0 in Z.
  assert (D : forall o, (0 <= o <= 2)%Z -> (sweep_dir (s + o) = 0 \/ sweep_dir (s + o) = 1 \/ sweep_dir (s + o) = 2)%Z).
  { intros. unfold sweep_dir. destruct (_ =? 0)%Z; [auto|]. destruct (_ =? 1)%Z; auto. }
  assert (SS : forall o h, split_step e g v s o (c_mask f) h = one_sweep e g v (c_mask f) h (sweep_dir (s + o))).
  { intros. unfold split_step. rewrite Hdb. reflexivity. }
  assert (Step : forall o h, (0 <= o <= 2)%Z -> wraps g h ->
     (forall d c, in_box (vdom g) c -> 0 <= balance_raw e g d (ve_dt v) (ve_vel v d) h (c_mask f) c <= 1) ->
     total (vdom g) (split_step e g v s o (c_mask f) h) = total (vdom g) h + dilat g v (c_mask f) (sweep_dir (s + o)) /\
     wraps g (split_step e g v s o (c_mask f) h)).
  { intros o h Ho Wh Ch. rewrite SS. split.
    - rewrite one_sweep_total by (auto; apply box_ok_icomp; exact Hbx).
      rewrite (total_zero (vdom g) (fun c => clip01 _ - _)); [ring|].
      intros c Hc. rewrite clip01_id by (apply Ch; exact Hc). ring.
    - intros d Hd A B. unfold one_sweep. apply Hf; assumption. }
  unfold vof_step.
  destruct (Step 0%Z f ltac:(lia) Wf (fun d c Hc => Hcl f d c (or_introl eq_refl) Hc)) as [T0 W0].
  destruct (Step 1%Z _ ltac:(lia) W0 (fun d c Hc => Hcl _ d c (or_intror (or_introl eq_refl)) Hc)) as [T1 W1].
  destruct (Step 2%Z _ ltac:(lia) W1 (fun d c Hc => Hcl _ d c (or_intror (or_intror eq_refl)) Hc)) as [T2 W2].
  rewrite T2, T1, T0. lra.
Qed.
