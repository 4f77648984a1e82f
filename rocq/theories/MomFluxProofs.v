(** Proofs for MomFlux.v. *)
From Coq Require Import Reals Lra ZArith List Bool Lia Permutation.
From Verif Require Import Base.
From Verif Require Import BoxR BoxRFacts Plic VofAdvect VofSpec VofSetting VofProofs VofProofs2 MultiPhase Advance MomFlux MomFluxSpec.
Import ListNotations.
Open Scope R_scope.

Lemma sweep_dirs_cases : forall s, (0 <= s)%Z ->
  (sweep_dir (s + 0) = 2 /\ sweep_dir (s + 1) = 1 /\ sweep_dir (s + 2) = 0)%Z \/
  (sweep_dir (s + 0) = 1 /\ sweep_dir (s + 1) = 0 /\ sweep_dir (s + 2) = 2)%Z \/
  (sweep_dir (s + 0) = 0 /\ sweep_dir (s + 1) = 2 /\ sweep_dir (s + 2) = 1)%Z.
Proof.
  intros s Hs. unfold sweep_dir. rewrite !Z.rem_mod_nonneg by lia.
  assert (A : (s mod 3 = 0 \/ s mod 3 = 1 \/ s mod 3 = 2)%Z) by (pose proof (Z.mod_pos_bound s 3 ltac:(lia)); lia).
  rewrite !(Zplus_mod s). destruct A as [A|[A|A]]; rewrite A; cbn; auto.
Qed.

(** Volume fraction brought in by the face flows of direction [d], before clipping. *)
Definition gain (e : R) (g : vgeom) (v : venv) (C f : fld) (d : Z) (c : ivec) : R :=
  balance_raw e g d (ve_dt v) (ve_vel v d) f C c - f c.
Definition clipped (e : R) (g : vgeom) (v : venv) (C f : fld) (d : Z) (c : ivec) : R :=
  clip01 (balance_raw e g d (ve_dt v) (ve_vel v d) f C c) - balance_raw e g d (ve_dt v) (ve_vel v d) f C c.

Lemma one_sweep_at : forall e g v C f d c, keeps_valid (vdom g) (ve_fill v) -> in_box (vdom g) c ->
  one_sweep e g v C f d c = f c + gain e g v C f d c + clipped e g v C f d c.
Proof.
  intros e g v C f d c Hk Hc. unfold one_sweep. rewrite Hk by exact Hc. unfold sweep.
  rewrite (proj2 (in_boxb_spec _ _) Hc). unfold balance, gain, clipped. ring.
Qed.

Lemma gain_eq : forall e g v C f d c, vdx g d <> 0 ->
  gain e g v C f d c
  = ve_dt v * (/ vdx g d * (ve_vel v d c * face_fraction e g d (ve_dt v) (ve_vel v d) f c
      - ve_vel v d (shift c d 1) * face_fraction e g d (ve_dt v) (ve_vel v d) f (shift c d 1)))
    + C c * (ve_dt v * ((ve_vel v d (up c d) - ve_vel v d c) / vdx g d)).
Proof.
  intros. unfold gain, balance_raw, face_flux. rewrite shift_up. field. assumption.
Qed.

(** The three stages, the clipping lost by each. *)
Definition step_clip (e : R) (g : vgeom) (v : venv) (s : Z) (f : fld) (c : ivec) : R :=
  clipped e g v (c_mask f) f (sweep_dir (s + 0)) c
  + clipped e g v (c_mask f) (stage e g v s f 1) (sweep_dir (s + 1)) c
  + clipped e g v (c_mask f) (stage e g v s f 2) (sweep_dir (s + 2)) c.

Lemma stage_sweep1 : forall e g v s f, stage e g v s f 1 = one_sweep e g v (c_mask f) f (sweep_dir (s + 0)).
Proof. intros. unfold stage, split_step, one_sweep. destruct (ve_debris v); reflexivity. Qed.
Lemma stage_sweep2 : forall e g v s f, stage e g v s f 2 = one_sweep e g v (c_mask f) (stage e g v s f 1) (sweep_dir (s + 1)).
Proof. intros. unfold stage, split_step, one_sweep. destruct (ve_debris v); reflexivity. Qed.

(** Density balance of one cell over the three sweeps, before debris removal. *)
Lemma local_mass : forall e g v s f r1 r2 c,
  (0 <= s)%Z -> keeps_valid (vdom g) (ve_fill v) -> divergence_free g v ->
  (forall d, vdx g d <> 0) -> in_box (vdom g) c ->
  rho_of r1 r2 (one_sweep e g v (c_mask f) (stage e g v s f 2) (sweep_dir (s + 2))) c
  = rho_of r1 r2 f c
    + ve_dt v * conv_rate (vgrid g) (mass_flux (ve_vel v) (adv_rho r1 r2 (adv_alpha e g v s f))) c
    + (r1 - r2) * step_clip e g v s f c.
Proof.
  intros e g v s f r1 r2 c Hs Hk Hdiv Hdx Hc.
  unfold rho_of. rewrite one_sweep_at by assumption.
  assert (E2 : stage e g v s f 2 c = stage e g v s f 1 c + gain e g v (c_mask f) (stage e g v s f 1) (sweep_dir (s + 1)) c
                 + clipped e g v (c_mask f) (stage e g v s f 1) (sweep_dir (s + 1)) c).
  { rewrite stage_sweep2. apply one_sweep_at; assumption. }
  assert (E1 : stage e g v s f 1 c = f c + gain e g v (c_mask f) f (sweep_dir (s + 0)) c
                 + clipped e g v (c_mask f) f (sweep_dir (s + 0)) c).
  { rewrite stage_sweep1. apply one_sweep_at; assumption. }
  rewrite E2, E1. unfold step_clip.
  set (k0 := clipped e g v (c_mask f) f (sweep_dir (s + 0)) c).
  set (k1 := clipped e g v (c_mask f) (stage e g v s f 1) (sweep_dir (s + 1)) c).
  set (k2 := clipped e g v (c_mask f) (stage e g v s f 2) (sweep_dir (s + 2)) c).
  rewrite !gain_eq by apply Hdx.
  specialize (Hdiv c Hc).
  assert (D : ve_vel v 0 (up c 0) / vdx g 0 = ve_vel v 0 c / vdx g 0 - (ve_vel v 1 (up c 1) - ve_vel v 1 c) / vdx g 1 - (ve_vel v 2 (up c 2) - ve_vel v 2 c) / vdx g 2).
  { unfold Rdiv in *. lra. }
  unfold conv_rate, mass_flux, adv_rho, adv_alpha, vgrid. cbn [gr_dx].
  pose proof (sweep_dirs_cases s Hs) as CS.
  rewrite !shift_up.
  destruct CS as [(A & B & G)|[(A & B & G)|(A & B & G)]]; rewrite A, B, G; cbn [Z.eqb Pos.eqb];
    change (stage e g v s f 0) with f; rewrite ?shift_up;
    unfold Rdiv in *;
    repeat match goal with |- context [face_fraction ?a ?b ?cc ?dd ?ee ?ff ?gg] =>
      let x := fresh "a" in set (x := face_fraction a b cc dd ee ff gg) in * end;
    clearbody k0 k1 k2;
    set (m := c_mask f c);
    repeat match goal with H := face_fraction _ _ _ _ _ _ _ |- _ => clearbody H end;
    set (u0 := ve_vel v 0%Z c) in *; set (u1 := ve_vel v 1%Z c) in *; set (u2 := ve_vel v 2%Z c) in *;
    set (U0 := ve_vel v 0%Z (up c 0)) in *; set (U1 := ve_vel v 1%Z (up c 1)) in *; set (U2 := ve_vel v 2%Z (up c 2)) in *;
    set (i0 := / vdx g 0) in *; set (i1 := / vdx g 1) in *; set (i2 := / vdx g 2) in *;
    clearbody u0 u1 u2 U0 U1 U2 i0 i1 i2 m.
  all: match goal with |- ?L = ?R => apply Rminus_diag_uniq; transitivity (((r1 - r2) * m + r2) * ve_dt v * ((U0 - u0) * i0 + (U1 - u1) * i1 + (U2 - u2) * i2)); [|rewrite Hdiv; ring] end.
  all: ring.
Qed.

(** ** How much clipping there can be *)
Lemma sweeps_clip : forall e t g v C ds f s,
  0 <= e -> intercept_within e t -> keeps_valid (vdom g) (ve_fill v) -> vel_ok g v ->
  (forall d, In d ds -> (d = 0 \/ d = 1 \/ d = 2)%Z) ->
  (forall c, in_box (vdom g) c -> C c = 0 \/ C c = 1) ->
  (forall d c, In d ds -> in_box (vdom g) c -> out_width (ve_vel v d) (ve_dt v / vdx g d) c d <= /2) ->
  (forall c, in_box (vdom g) c -> s c + dirs_sum g v in_width ds c <= /2) ->
  (forall c, in_box (vdom g) c -> 0 <= f c <= 1) ->
  (forall c, in_box (vdom g) c -> (C c = 0 -> f c <= /2 + s c) /\ (C c = 1 -> 1 - f c <= /2 + s c)) ->
  (forall c, in_box (vdom g) c -> 0 <= s c) ->
  forall pre d post, ds = pre ++ d :: post ->
  forall c, in_box (vdom g) c -> Rabs (clipped e g v C (fold_left (one_sweep e g v C) pre f) d c) <= t + e / 4.
Proof.
  intros e t g v C ds. pose proof within_nonneg as WN.
  induction ds as [|d ds IH]; intros f s He Hw Hf Hv Hd HC Ho Hi Rf Bf Sp pre d0 post Eq c0 Hc0.
  - destruct pre; discriminate.
  - specialize (WN e t Hw).
    assert (Dd : (d = 0 \/ d = 1 \/ d = 2)%Z) by (apply Hd; left; reflexivity).
    assert (INW : forall c d', 0 <= in_width (ve_vel v d') (ve_dt v / vdx g d') c d').
    { intros. unfold in_width.
      pose proof (Rmax_l 0 (ve_vel v d' c * (ve_dt v / vdx g d'))).
      pose proof (Rmax_l 0 (- (ve_vel v d' (up c d') * (ve_dt v / vdx g d')))). lra. }
    assert (DS : forall c, 0 <= dirs_sum g v in_width ds c).
    { intros. unfold dirs_sum. apply rsum_nonneg. intros. apply INW. }
    assert (DSc : forall c, dirs_sum g v in_width (d :: ds) c
              = in_width (ve_vel v d) (ve_dt v / vdx g d) c d + dirs_sum g v in_width ds c) by reflexivity.
    assert (Cell : forall c, in_box (vdom g) c ->
        let raw := balance_raw e g d (ve_dt v) (ve_vel v d) f C c in
        (C c = 0 -> - (t + e / 4) <= raw <= f c + in_width (ve_vel v d) (ve_dt v / vdx g d) c d) /\
        (C c = 1 -> - (t + e / 4) <= 1 - raw <= 1 - f c + in_width (ve_vel v d) (ve_dt v / vdx g d) c d)).
    { intros c Hc. apply sweep_cell; auto.
      - apply Hv; exact Dd.
      - apply Ho; [left; reflexivity|exact Hc]. }
    set (f1 := one_sweep e g v C f d).
    assert (F1 : forall c, in_box (vdom g) c -> f1 c = clip01 (balance_raw e g d (ve_dt v) (ve_vel v d) f C c)).
    { intros c Hc. unfold f1, one_sweep. rewrite Hf by exact Hc.
      unfold sweep. pose proof (proj2 (in_boxb_spec _ _) Hc) as B. rewrite B. reflexivity. }
    destruct pre as [|p pre].
    + injection Eq as <- _. simpl fold_left. unfold clipped.
      specialize (Cell c0 Hc0). cbv zeta in Cell. destruct Cell as [Z0 Z1].
      specialize (Bf c0 Hc0). specialize (Hi c0 Hc0). rewrite DSc in Hi. pose proof (DS c0).
      apply clip01_near; [lra|].
      destruct (HC c0 Hc0) as [Hcc|Hcc].
      * specialize (Z0 Hcc). destruct Bf as [Bf _]. specialize (Bf Hcc). lra.
      * specialize (Z1 Hcc). destruct Bf as [_ Bf]. specialize (Bf Hcc). lra.
    + injection Eq as <- Eq. simpl fold_left. fold f1.
      apply (IH f1 (fun c => s c + in_width (ve_vel v d) (ve_dt v / vdx g d) c d)) with post; auto.
      * intros d' Hd'. apply Hd. right. exact Hd'.
      * intros d' c Hd' Hc. apply Ho; [right; exact Hd'|exact Hc].
      * intros c Hc. specialize (Hi c Hc). rewrite DSc in Hi. lra.
      * intros c Hc. rewrite F1 by exact Hc. apply clip01_range.
      * intros c Hc. rewrite F1 by exact Hc. specialize (Cell c Hc). cbv zeta in Cell. destruct Cell as [Z0 Z1].
        specialize (Bf c Hc). specialize (Sp c Hc). pose proof (INW c d).
        set (raw := balance_raw e g d (ve_dt v) (ve_vel v d) f C c) in *.
        assert (CL : (clip01 raw <= raw \/ clip01 raw = 0) /\ (raw <= clip01 raw \/ clip01 raw = 1)).
        { unfold clip01. rewrite rmax_spec, rmin_spec. unfold Rmax, Rmin. repeat destruct Rle_dec; split; try (left; lra); right; lra. }
        split; intros Hcc.
        -- specialize (Z0 Hcc). destruct Bf as [Bf _]. specialize (Bf Hcc). destruct CL as [[|] _]; lra.
        -- specialize (Z1 Hcc). destruct Bf as [_ Bf]. specialize (Bf Hcc). destruct CL as [_ [|]]; lra.
      * intros c Hc. specialize (Sp c Hc). pose proof (INW c d). lra.
Qed.

Lemma step_clip_small : forall e t g v s f c,
  0 <= e -> intercept_within e t -> (0 <= s)%Z -> keeps_valid (vdom g) (ve_fill v) -> vel_ok g v -> courant g v ->
  (forall x, in_box (vdom g) x -> 0 <= f x <= 1) -> in_box (vdom g) c ->
  Rabs (step_clip e g v s f c) <= 3 * (t + e / 4).
Proof.
  intros e t g v s f c He Hw Hs Hk Hv Hcfl Rf Hc.
  set (ds := [sweep_dir (s + 0); sweep_dir (s + 1); sweep_dir (s + 2)]).
  pose proof (sweep_dirs_perm s Hs) as P. fold ds in P.
  assert (OW : forall c d', 0 <= out_width (ve_vel v d') (ve_dt v / vdx g d') c d').
  { intros. unfold out_width.
    pose proof (Rmax_l 0 (- (ve_vel v d' c0 * (ve_dt v / vdx g d')))).
    pose proof (Rmax_l 0 (ve_vel v d' (up c0 d') * (ve_dt v / vdx g d'))). lra. }
  assert (K : forall pre d post, ds = pre ++ d :: post ->
    Rabs (clipped e g v (c_mask f) (fold_left (one_sweep e g v (c_mask f)) pre f) d c) <= t + e / 4).
  { intros pre d post Eq. apply (sweeps_clip e t g v (c_mask f) ds f (fun _ => 0)) with post; auto.
    - intros x Hx. apply (Permutation_in _ P) in Hx. simpl in Hx. intuition.
    - intros x _. unfold c_mask. destruct (Rltb _ _); auto.
    - intros x y Hx Hy. apply (Permutation_in _ P) in Hx. destruct (Hcfl y Hy) as [O _].
      unfold dirs_sum in O. simpl map in O. rewrite !rsum_cons in O. change (rsum []) with 0 in O.
      pose proof (OW y 0%Z). pose proof (OW y 1%Z). pose proof (OW y 2%Z).
      simpl in Hx. destruct Hx as [<-|[<-|[<-|[]]]]; lra.
    - intros x Hx. destruct (Hcfl x Hx) as [_ I]. unfold dirs_sum in *.
      rewrite (rsum_perm_map _ _ _ P). lra.
    - intros x Hx. unfold c_mask. destruct (Rltb (/2) (f x)) eqn:E; split; intros Q; try lra.
      + apply Rltb_spec in E. lra.
      + apply Rltb_false in E. lra.
    - intros; lra. }
  unfold step_clip. rewrite stage_sweep2, stage_sweep1.
  pose proof (K [] _ _ eq_refl) as K0. pose proof (K [_] _ _ eq_refl) as K1. pose proof (K [_; _] _ _ eq_refl) as K2.
  simpl fold_left in K0, K1, K2.
  eapply Rle_trans; [apply Rabs_triang|]. eapply Rle_trans; [apply Rplus_le_compat_r, Rabs_triang|]. lra.
Qed.

Lemma new_density : forall e g v s f r1 r2 c,
  (0 <= s)%Z -> keeps_valid (vdom g) (ve_fill v) -> divergence_free g v -> ve_debris v = None ->
  (forall d, vdx g d <> 0) -> in_box (vdom g) c ->
  rho_of r1 r2 (vof_step e g v s f) c
  = rho_of r1 r2 f c
    + ve_dt v * conv_rate (vgrid g) (mass_flux (ve_vel v) (adv_rho r1 r2 (adv_alpha e g v s f))) c
    + (r1 - r2) * step_clip e g v s f c.
Proof.
  intros e g v s f r1 r2 c Hs Hk Hdiv Hdb Hdx Hc.
  rewrite vof_step_sweeps by exact Hdb. simpl fold_left. rewrite <- stage_sweep1, <- stage_sweep2.
  apply local_mass; assumption.
Qed.

(** ** A uniform value *)
Lemma uniform_hybrid : forall rc ms premul um adv vof_o rho_o rho_n U q F H d c,
  hybrid_fluxes rc ms premul um adv vof_o rho_o rho_n q q (fun _ => 0) F = Ret H ->
  (forall x, q x = U) -> F d c = um d c * U ->
  favre_ok rc ms rho_o rho_n d c ->
  H d c = U * mass_flux um adv d c.
Proof.
  intros rc ms premul um adv vof_o rho_o rho_n U q F H d c Hr Hq HF [Hden Hmom].
  assert (M : rc_mom rc ms (fun x => q x * rho_o x) (fun x => q x * rho_n x) (fun x => if premul then 0 else 0 * rho_o x) d c
    = U * rc_den rc ms rho_o rho_o (fun _ => 0) d c).
  { apply Hmom; intros x; rewrite ?Hq; try reflexivity. destruct premul; ring. }
  destruct ms; try discriminate; injection Hr as <-; cbv beta;
    destruct (band vof_o c || band vof_o (shift c d (-1)))%bool; cbv iota;
    unfold mass_flux; rewrite ?M, ?HF; field; exact Hden.
Qed.

Lemma conv_rate_scale : forall G U F H c,
  (forall d, (d = 0 \/ d = 1 \/ d = 2)%Z -> H d c = U * F d c /\ H d (shift c d 1) = U * F d (shift c d 1)) ->
  conv_rate G H c = U * conv_rate G F c.
Proof.
  intros G U F H c E. unfold conv_rate.
  destruct (E 0%Z) as [A0 B0]; [auto|]. destruct (E 1%Z) as [A1 B1]; [auto|]. destruct (E 2%Z) as [A2 B2]; [auto|].
  rewrite A0, B0, A1, B1, A2, B2. ring.
Qed.

(** ** Pure phases *)
Definition pure (f : fld) (w : R) (d : Z) (c : ivec) (b : box) : Prop :=
  forall x, near c x \/ near (down c d) x -> in_box b x /\ f x = w.

Lemma fold_max_const : forall (l : list R) a w, 0 <= a <= w -> (forall x, In x l -> x = w) -> l <> nil ->
  fold_left (fun a v => rmax a v) l a = w.
Proof.
  induction l as [|x l IH]; intros a w Ha Hl Hn; [congruence|]. simpl.
  rewrite (Hl x (or_introl eq_refl)). rewrite rmax_spec, Rmax_right by lra.
  destruct l as [|y l]; [reflexivity|]. apply IH; [lra|intros z Hz; apply Hl; right; exact Hz|discriminate].
Qed.
Lemma fold_min_const : forall (l : list R) a w, w <= a -> (forall x, In x l -> x = w) -> l <> nil ->
  fold_left (fun a v => rmin a v) l a = w.
Proof.
  induction l as [|x l IH]; intros a w Ha Hl Hn; [congruence|]. simpl.
  rewrite (Hl x (or_introl eq_refl)). rewrite rmin_spec, Rmin_right by lra.
  destruct l as [|y l]; [reflexivity|]. apply IH; [lra|intros z Hz; apply Hl; right; exact Hz|discriminate].
Qed.
Lemma fold_mid_const : forall (l : list R) w tol, w = 0 \/ w = 1 -> 0 < tol -> (forall x, In x l -> x = w) ->
  fold_left (fun b v => if Rltb v (1 - tol) && Rltb tol v then true else b) l false = false.
Proof.
  induction l as [|x l IH]; intros w tol Hw Ht Hl; [reflexivity|]. simpl.
  rewrite (Hl x (or_introl eq_refl)).
  replace (Rltb w (1 - tol) && Rltb tol w)%bool with false.
  - apply IH with w; auto. intros z Hz; apply Hl; right; exact Hz.
  - symmetry. apply Bool.andb_false_iff. destruct Hw as [-> | ->]; [right|left]; apply Rltb_false; lra.
Qed.

Lemma tight_pos : 0 < tight_tol.
Proof. unfold tight_tol. lra. Qed.

Lemma band_off : forall f c w, w = 0 \/ w = 1 -> (forall x, near c x -> f x = w) -> band f c = false.
Proof.
  intros f c w Hw Hf. unfold band, interface_band.
  set (vals := map _ (band_offsets 1)).
  assert (A : forall x, In x vals -> x = w).
  { intros x Hx. unfold vals in Hx. apply in_map_iff in Hx. destruct Hx as (o & <- & Ho).
    unfold at3. apply Hf. unfold band_offsets in Ho.
    apply in_flat_map in Ho. destruct Ho as (a & Ha & Ho). apply in_flat_map in Ho. destruct Ho as (b & Hb & Ho).
    apply in_map_iff in Ho. destruct Ho as (k & <- & Hk). apply In_zrange in Ha, Hb, Hk.
    unfold near; cbn [iv0 iv1 iv2]. lia. }
  assert (N : vals <> nil) by (unfold vals, band_offsets; cbn; discriminate).
  assert (W : 0 <= w <= 1) by (destruct Hw; lra).
  pose proof tight_pos as T.
  rewrite (fold_max_const vals 0 w) by (auto; lra).
  rewrite (fold_min_const vals 1 w) by (auto; lra).
  rewrite (fold_mid_const vals w tight_tol) by auto.
  rewrite Bool.orb_false_r. apply Rltb_false. rewrite Rminus_diag_eq by reflexivity. rewrite Rabs_R0. lra.
Qed.

Lemma tiny_small : 0 < tiny_vof < / 4.
Proof. unfold tiny_vof, eps64. lra. Qed.

(** A face between two cells of one pure phase carries that phase. *)
Lemma pure_face : forall e g d dt vel f c w, 0 <= e -> w = 0 \/ w = 1 -> 0 < dt -> 0 < vdx g d ->
  f c = w -> f (down c d) = w -> VofSetting.wall_face g d c = false ->
  vel c * face_fraction e g d dt vel f c = vel c * w.
Proof.
  intros e g d dt vel f c w He Hw Hdt Hdx A B Wf. rewrite face_fraction_eq, Wf.
  pose proof tiny_small as T.
  assert (K : 0 < dt / vdx g d) by (apply Rdiv_lt_0_compat; assumption).
  destruct (Rtotal_order (vel c) 0) as [L|[E|L]].
  - assert (vel c * (dt / vdx g d) < 0) by (assert (0 < (- vel c) * (dt / vdx g d)) by (apply Rmult_lt_0_compat; lra); lra).
    rewrite left_zero by lra. unfold vofLR, eulerian. rewrite A.
    destruct Hw as [-> | ->].
    + replace (Rleb (Rabs (0 - 1)) tiny_vof) with false by (symmetry; apply Rleb_false; rewrite Rabs_left; lra).
      replace (Rltb tiny_vof 0) with false by (symmetry; apply Rltb_false; lra). cbn [fst]. ring.
    + replace (Rleb (Rabs (1 - 1)) tiny_vof) with true by (symmetry; apply Rleb_spec; rewrite Rminus_diag_eq by reflexivity; rewrite Rabs_R0; lra).
      cbn [fst]. rewrite (proj2 (Rltb_spec _ _)) by assumption. ring.
  - rewrite E. ring.
  - assert (0 < vel c * (dt / vdx g d)) by (apply Rmult_lt_0_compat; assumption).
    rewrite right_zero by lra. unfold vofLR, eulerian. rewrite B, shift_up, up_down.
    destruct Hw as [-> | ->].
    + replace (Rleb (Rabs (0 - 1)) tiny_vof) with false by (symmetry; apply Rleb_false; rewrite Rabs_left; lra).
      replace (Rltb tiny_vof 0) with false by (symmetry; apply Rltb_false; lra). cbn [snd]. ring.
    + replace (Rleb (Rabs (1 - 1)) tiny_vof) with true by (symmetry; apply Rleb_spec; rewrite Rminus_diag_eq by reflexivity; rewrite Rabs_R0; lra).
      cbn [snd]. rewrite (proj2 (Rltb_spec _ _)) by assumption. ring.
Qed.

Lemma wall_inside : forall g d c, in_box (vdom g) c -> in_box (vdom g) (down c d) -> VofSetting.wall_face g d c = false.
Proof.
  intros g d [i j k] A B. unfold VofSetting.wall_face, in_box, down, icomp in *.
  destruct (d =? 0)%Z; [|destruct (d =? 1)%Z]; cbn [iv0 iv1 iv2] in *;
    apply Bool.orb_false_iff; split; apply Bool.andb_false_iff; right; apply Z.eqb_neq; lia.
Qed.

Lemma pure_sweep : forall e g v C f d c w, 0 <= e -> w = 0 \/ w = 1 -> 0 < ve_dt v -> 0 < vdx g d ->
  keeps_valid (vdom g) (ve_fill v) ->
  in_box (vdom g) c -> in_box (vdom g) (up c d) -> in_box (vdom g) (down c d) ->
  f c = w -> f (up c d) = w -> f (down c d) = w -> C c = w -> one_sweep e g v C f d c = w.
Proof.
  intros e g v C f d c w He Hw Hdt Hdx Hk I0 I1 I2 F0 F1 F2 HC.
  unfold one_sweep. rewrite Hk by exact I0. unfold sweep. rewrite (proj2 (in_boxb_spec _ _) I0). unfold balance.
  assert (B : balance_raw e g d (ve_dt v) (ve_vel v d) f C c = w).
  { unfold balance_raw, face_flux. rewrite shift_up.
    pose proof (pure_face e g d (ve_dt v) (ve_vel v d) f c w He Hw Hdt Hdx F0 F2 (wall_inside g d c I0 I2)) as P0.
    assert (P1 : ve_vel v d (up c d) * face_fraction e g d (ve_dt v) (ve_vel v d) f (up c d) = ve_vel v d (up c d) * w).
    { apply pure_face; auto; [rewrite down_up; exact F0|]. apply wall_inside; [exact I1|rewrite down_up; exact I0]. }
    rewrite F0, HC.
    set (a0 := face_fraction _ _ _ _ _ _ c) in *. set (a1 := face_fraction _ _ _ _ _ _ (up c d)) in *.
    replace (a0 * (ve_dt v * ve_vel v d c)) with (ve_dt v * (ve_vel v d c * a0)) by ring.
    replace (a1 * (ve_dt v * ve_vel v d (up c d))) with (ve_dt v * (ve_vel v d (up c d) * a1)) by ring.
    rewrite P0, P1. ring. }
  rewrite B. apply clip01_id. destruct Hw; lra.
Qed.

Lemma mask_pure : forall f c w, w = 0 \/ w = 1 -> f c = w -> c_mask f c = w.
Proof.
  intros f c w Hw E. unfold c_mask. rewrite E. destruct Hw as [-> | ->].
  - rewrite (proj2 (Rltb_false _ _)) by lra. reflexivity.
  - rewrite (proj2 (Rltb_spec _ _)) by lra. reflexivity.
Qed.

Lemma pure_adv : forall e g v s f d c w, 0 <= e -> w = 0 \/ w = 1 -> (0 <= s)%Z -> (d = 0 \/ d = 1 \/ d = 2)%Z ->
  0 < ve_dt v -> (forall d, 0 < vdx g d) -> keeps_valid (vdom g) (ve_fill v) ->
  pure f w d c (vdom g) ->
  ve_vel v d c * adv_alpha e g v s f d c = ve_vel v d c * w.
Proof.
  intros e g v s f d c w He Hw Hs Hd Hdt Hdx Hk Hp.
  assert (IN : forall x, near c x \/ near (down c d) x -> in_box (vdom g) x) by (intros x Hx; apply Hp; exact Hx).
  assert (FW : forall x, near c x \/ near (down c d) x -> f x = w) by (intros x Hx; apply Hp; exact Hx).
  assert (MW : forall x, near c x \/ near (down c d) x -> c_mask f x = w) by (intros x Hx; apply mask_pure; auto).
  assert (SW : forall h x d', in_box (vdom g) x -> in_box (vdom g) (up x d') -> in_box (vdom g) (down x d') ->
     h x = w -> h (up x d') = w -> h (down x d') = w -> c_mask f x = w -> one_sweep e g v (c_mask f) h d' x = w).
  { intros. apply pure_sweep; auto. }
  assert (FC : forall h, h c = w -> h (down c d) = w ->
     ve_vel v d c * face_fraction e g d (ve_dt v) (ve_vel v d) h c = ve_vel v d c * w).
  { intros h H0 H1. apply pure_face; auto. apply wall_inside; apply IN; [left|right]; unfold near; lia. }
  unfold adv_alpha. destruct c as [i j k].
  pose proof (sweep_dirs_cases s Hs) as CS.
  destruct CS as [(A & B & G)|[(A & B & G)|(A & B & G)]]; rewrite A, B; destruct Hd as [->|[->| ->]]; cbn [Z.eqb Pos.eqb]; apply FC;
    rewrite ?stage_sweep2, ?stage_sweep1, ?A, ?B;
    try (apply FW; unfold near, down; cbn; lia);
    unfold down; cbn [Z.eqb Pos.eqb];
    repeat (first [ apply SW; unfold up, down; cbn [Z.eqb Pos.eqb iv0 iv1 iv2]
                  | apply IN; unfold near, down; cbn [Z.eqb Pos.eqb iv0 iv1 iv2]; lia
                  | apply MW; unfold near, down; cbn [Z.eqb Pos.eqb iv0 iv1 iv2]; lia
                  | apply FW; unfold near, down; cbn [Z.eqb Pos.eqb iv0 iv1 iv2]; lia ]).
Qed.

(** ** Steps *)
Lemma pred_factor_ok : forall t, t <> DInvalid -> exists k, pred_factor t = Ret k.
Proof. intros [] H; [congruence| | |]; eexists; reflexivity. Qed.

Lemma moved_zero : forall g dt rho_o rho_n q (H : Z -> fld) t, t <> DInvalid ->
  exists q', moved g dt rho_o rho_n q (fun _ => 0) (fun _ => 0) t (Ret H) = Ret q' /\
    forall c, q' c = (rho_o c * q c + dt * conv_rate (vgrid g) H c) / rho_n c.
Proof.
  intros g dt rho_o rho_n q H t Ht. unfold moved, obind. unfold predictor_rhs.
  destruct (pred_factor_ok t Ht) as [k ->]. eexists. split; [reflexivity|]. intros c.
  unfold rhs_value; cbn [e_mul e_rho_o e_detj e_old e_mask e_dt e_rho e_src].
  destruct t; [congruence| | |]; unfold Rdiv; rewrite ?Rinv_1; ring.
Qed.

Lemma uniform_moved : forall g dt um adv rho_o rho_n U q t (H : Z -> fld), t <> DInvalid ->
  (forall x, q x = U) ->
  (forall d c, (d = 0 \/ d = 1 \/ d = 2)%Z -> in_box (vdom g) c \/ in_box (vdom g) (down c d) -> H d c = U * mass_flux um adv d c) ->
  exists q', moved g dt rho_o rho_n q (fun _ => 0) (fun _ => 0) t (Ret H) = Ret q' /\
    forall c, in_box (vdom g) c ->
      q' c = U * ((rho_o c + dt * conv_rate (vgrid g) (mass_flux um adv) c) / rho_n c).
Proof.
  intros g dt um adv rho_o rho_n U q t H Ht Hq HH.
  destruct (moved_zero g dt rho_o rho_n q H t Ht) as (q' & E & V). exists q'. split; [exact E|].
  intros c Hc. rewrite V, Hq. rewrite (conv_rate_scale _ U (mass_flux um adv)).
  - unfold Rdiv. ring.
  - intros d Hd. split; apply HH; auto. right. rewrite shift_up, down_up. exact Hc.
Qed.

Lemma fold_mid_true : forall (l : list R) w tol b, In w l -> tol < w < 1 - tol ->
  fold_left (fun b v => if Rltb v (1 - tol) && Rltb tol v then true else b) l b = true.
Proof.
  assert (T : forall (l : list R) tol, fold_left (fun b v => if Rltb v (1 - tol) && Rltb tol v then true else b) l true = true).
  { induction l as [|x l IH]; intros tol; [reflexivity|]. simpl. destruct (_ && _)%bool; apply IH. }
  induction l as [|x l IH]; intros w tol b Hin Hw; [destruct Hin|]. simpl. destruct Hin as [->|Hin].
  - rewrite (proj2 (Rltb_spec w (1 - tol))), (proj2 (Rltb_spec tol w)) by lra. apply T.
  - apply IH with w; assumption.
Qed.
Lemma band_on : forall f c x, near c x -> tight_tol < f x < 1 - tight_tol -> band f c = true.
Proof.
  intros f c [i j k] Hn Hf. unfold band, interface_band. apply Bool.orb_true_iff. right.
  apply fold_mid_true with (f (IV i j k)); [|exact Hf].
  apply in_map_iff. exists (IV (i - iv0 c) (j - iv1 c) (k - iv2 c)).
  unfold near in Hn; cbn [iv0 iv1 iv2] in *. split.
  - unfold at3. f_equal. f_equal; lia.
  - unfold band_offsets. apply in_flat_map. exists (i - iv0 c)%Z. split; [apply In_zrange; lia|].
    apply in_flat_map. exists (j - iv1 c)%Z. split; [apply In_zrange; lia|].
    apply in_map_iff. exists (k - iv2 c)%Z. split; [reflexivity|apply In_zrange; lia].
Qed.
