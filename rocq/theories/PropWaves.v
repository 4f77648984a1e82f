(** C37: relaxation zones. *)
From Coq Require Import Psatz.
From Coquelicot Require Import Coquelicot.
From Verif Require Import BoxR BoxRFacts MultiPhase MultiPhaseSpec PropMultiPhase Waves.
Open Scope R_scope.

(** The four-fold function of the scaled distance. *)
Definition prof (t : R) : R := 1 - expm1 (pow35 t) / expm1 1.
Definition clamp01 (t : R) : R := rmax (rmin t 1) 0.
Lemma gg_prof : forall x L, gamma_generate x L = prof (clamp01 (1 - x / L)).
Proof. reflexivity. Qed.
Lemma ga_prof : forall x L f, gamma_absorb x L f = prof (clamp01 (x / (L * f))).
Proof. reflexivity. Qed.
Lemma clamp01_range : forall t, 0 <= clamp01 t <= 1.
Proof. intros. unfold clamp01. rewrite rmax_R, rmin_R. unfold Rmin, Rmax. repeat destruct Rle_dec; lra. Qed.
Lemma clamp01_lo : forall t, t <= 0 -> clamp01 t = 0.
Proof. intros. unfold clamp01. rewrite rmax_R, rmin_R. unfold Rmin, Rmax. repeat destruct Rle_dec; lra. Qed.
Lemma clamp01_hi : forall t, 1 <= t -> clamp01 t = 1.
Proof. intros. unfold clamp01. rewrite rmax_R, rmin_R. unfold Rmin, Rmax. repeat destruct Rle_dec; lra. Qed.
Lemma clamp01_mono : forall s t, s <= t -> clamp01 s <= clamp01 t.
Proof. intros. unfold clamp01. rewrite !rmax_R, !rmin_R. unfold Rmin, Rmax. repeat destruct Rle_dec; lra. Qed.
Lemma pow35_0 : pow35 0 = 0. Proof. unfold pow35. rewrite sqrt_0. ring. Qed.
Lemma pow35_1 : pow35 1 = 1. Proof. unfold pow35. rewrite sqrt_1. ring. Qed.
Lemma pow35_mono : forall s t, 0 <= s <= t -> pow35 s <= pow35 t.
Proof.
  intros s t H. unfold pow35. apply Rmult_le_compat; try apply sqrt_pos.
  - apply pow_le; lra. - apply pow_incr; lra. - apply sqrt_le_1; lra.
Qed.
Lemma expm1_pos : 0 < expm1 1.
Proof. unfold expm1. pose proof (exp_ineq1 1 ltac:(lra)). lra. Qed.
Lemma exp_mono : forall a b, a <= b -> exp a <= exp b.
Proof. intros a b H. destruct (Rle_lt_or_eq_dec a b H) as [L|<-]; [left; apply exp_increasing; exact L|lra]. Qed.
Lemma prof_0 : prof 0 = 1.
Proof. unfold prof. rewrite pow35_0. unfold expm1 at 1. rewrite exp_0. pose proof expm1_pos. field. lra. Qed.
Lemma prof_1 : prof 1 = 0.
Proof. unfold prof. rewrite pow35_1. pose proof expm1_pos. field. lra. Qed.
Lemma prof_mono : forall s t, 0 <= s <= t -> prof t <= prof s.
Proof.
  intros s t H. unfold prof. pose proof expm1_pos. pose proof (exp_mono _ _ (pow35_mono s t H)).
  assert (expm1 (pow35 s) / expm1 1 <= expm1 (pow35 t) / expm1 1); [|lra].
  apply Rmult_le_compat_r; [left; apply Rinv_0_lt_compat; assumption|]. unfold expm1. lra.
Qed.
Lemma prof_range : forall t, 0 <= t <= 1 -> 0 <= prof t <= 1.
Proof. intros t H. pose proof (prof_mono 0 t ltac:(lra)). pose proof (prof_mono t 1 ltac:(lra)). rewrite prof_0 in *. rewrite prof_1 in *. lra. Qed.

Lemma div_mono : forall a b L, 0 < L -> a <= b -> a / L <= b / L.
Proof. intros. apply Rmult_le_compat_r; [left; apply Rinv_0_lt_compat; assumption|assumption]. Qed.
Lemma div_ge1 : forall a L, 0 < L -> L <= a -> 1 <= a / L.
Proof. intros a L H A. replace 1 with (L / L) by (field; lra). apply div_mono; assumption. Qed.
Lemma div_le0 : forall a L, 0 < L -> a <= 0 -> a / L <= 0.
Proof. intros a L H A. replace 0 with (0 / L) by (field; lra). apply div_mono; assumption. Qed.

(** Generation: 0 at the boundary and beyond, 1 from [L] on, between and
    increasing from one to the other, without jumps. *)
Theorem c37_gamma_generate : forall L, 0 < L ->
  (forall x, 0 <= gamma_generate x L <= 1) /\
  (forall x, x <= 0 -> gamma_generate x L = 0) /\ (forall x, L <= x -> gamma_generate x L = 1) /\
  (forall x y, x <= y -> gamma_generate x L <= gamma_generate y L).
Proof.
  intros L HL. split; [|split; [|split]].
  - intros. rewrite gg_prof. apply prof_range, clamp01_range.
  - intros x H. rewrite gg_prof, clamp01_hi; [apply prof_1|]. pose proof (div_le0 x L HL H). lra.
  - intros x H. rewrite gg_prof, clamp01_lo; [apply prof_0|]. pose proof (div_ge1 x L HL H). lra.
  - intros x y H. rewrite !gg_prof. apply prof_mono. split; [apply clamp01_range|]. apply clamp01_mono.
    pose proof (div_mono x y L HL H). lra.
Qed.
(** Absorption: 1 outside, decreasing inwards, 0 from [L * f] on. *)
Theorem c37_gamma_absorb : forall L f, 0 < L -> 0 < f ->
  (forall x, 0 <= gamma_absorb x L f <= 1) /\
  (forall x, x <= 0 -> gamma_absorb x L f = 1) /\ (forall x, L * f <= x -> gamma_absorb x L f = 0) /\
  (forall x y, x <= y -> gamma_absorb y L f <= gamma_absorb x L f).
Proof.
  intros L f HL Hf. assert (P : 0 < L * f) by (apply Rmult_lt_0_compat; assumption). split; [|split; [|split]].
  - intros. rewrite ga_prof. apply prof_range, clamp01_range.
  - intros x H. rewrite ga_prof, clamp01_lo; [apply prof_0|]. apply div_le0; assumption.
  - intros x H. rewrite ga_prof, clamp01_hi; [apply prof_1|]. apply div_ge1; assumption.
  - intros x y H. rewrite !ga_prof. apply prof_mono. split; [apply clamp01_range|]. apply clamp01_mono. apply div_mono; assumption.
Qed.
(** A length factor above one never absorbs completely inside the zone. *)
Theorem c37_absorb_factor : forall L f, 0 < L -> 1 < f -> 0 < gamma_absorb L L f.
Proof.
  intros L f HL Hf. rewrite ga_prof. set (t := L / (L * f)). assert (T : t = / f) by (unfold t; field; lra).
  assert (T1 : 0 < t < 1). { rewrite T. split; [apply Rinv_0_lt_compat; lra|]. rewrite <- Rinv_1. apply Rinv_lt_contravar; lra. }
  assert (C : clamp01 t = t) by (unfold clamp01; rewrite rmax_R, rmin_R; unfold Rmin, Rmax; repeat destruct Rle_dec; lra).
  rewrite C. unfold prof. pose proof expm1_pos.
  assert (P : pow35 t < 1).
  { unfold pow35. assert (sqrt t <= 1) by (rewrite <- sqrt_1; apply sqrt_le_1; lra). pose proof (sqrt_pos t).
    assert (t ^ 3 < 1). { assert (t * t < 1) by nra. assert (t * (t * t) < 1) by nra. simpl. lra. }
    assert (0 <= t ^ 3) by (apply pow_le; lra). nra. }
  pose proof (exp_increasing _ _ P).
  assert (expm1 (pow35 t) / expm1 1 < 1); [|lra].
  apply Rmult_lt_reg_r with (expm1 1); [assumption|]. unfold Rdiv. rewrite Rmult_assoc, Rinv_l by lra. unfold expm1. lra.
Qed.
(** Both are continuous. *)
Lemma c_plus : forall (f g : R -> R) (x : R), continuous f x -> continuous g x -> continuous (fun x => f x + g x) x.
Proof. intros f g x F G. exact (continuous_plus (U := R_UniformSpace) (V := R_NormedModule) f g x F G). Qed.
Lemma c_minus : forall (f g : R -> R) (x : R), continuous f x -> continuous g x -> continuous (fun x => f x - g x) x.
Proof. intros f g x F G. exact (continuous_minus (U := R_UniformSpace) (V := R_NormedModule) f g x F G). Qed.
Lemma c_mult : forall (f g : R -> R) (x : R), continuous f x -> continuous g x -> continuous (fun x => f x * g x) x.
Proof. intros f g x F G. exact (continuous_mult (U := R_UniformSpace) (K := R_AbsRing) f g x F G). Qed.
Lemma c_const : forall (c x : R), continuous (fun _ : R => c) x.
Proof. intros. apply continuous_const. Qed.
Lemma c_id : forall x : R, continuous (fun x : R => x) x.
Proof. intros. apply continuous_id. Qed.
Lemma c_div : forall (f : R -> R) (c x : R), continuous f x -> continuous (fun x => f x / c) x.
Proof. intros f c x F. unfold Rdiv. apply c_mult; [exact F|apply c_const]. Qed.
Lemma c_comp : forall (f g : R -> R) (x : R), continuous f x -> continuous g (f x) -> continuous (fun x => g (f x)) x.
Proof. intros f g x F G. exact (continuous_comp f g x F G). Qed.
Lemma c_Rmin : forall (f g : R -> R) (x : R), continuous f x -> continuous g x -> continuous (fun x => Rmin (f x) (g x)) x.
Proof.
  intros f g x F G. apply continuous_ext with (fun x => (f x + g x - Rabs (f x - g x)) / 2).
  - intros u. unfold Rmin, Rabs. destruct Rle_dec; destruct Rcase_abs; lra.
  - apply c_div, c_minus; [apply c_plus; assumption|]. apply (c_comp (fun x => f x - g x) Rabs); [apply c_minus; assumption|apply continuous_Rabs].
Qed.
Lemma c_Rmax : forall (f g : R -> R) (x : R), continuous f x -> continuous g x -> continuous (fun x => Rmax (f x) (g x)) x.
Proof.
  intros f g x F G. apply continuous_ext with (fun x => (f x + g x + Rabs (f x - g x)) / 2).
  - intros u. unfold Rmax, Rabs. destruct Rle_dec; destruct Rcase_abs; lra.
  - apply c_div, c_plus; [apply c_plus; assumption|]. apply (c_comp (fun x => f x - g x) Rabs); [apply c_minus; assumption|apply continuous_Rabs].
Qed.
Lemma cont_clamp01 : forall t, continuous clamp01 t.
Proof.
  intros t. apply continuous_ext with (fun t => Rmax (Rmin t 1) 0).
  - intros u. unfold clamp01. rewrite rmax_R, rmin_R. reflexivity.
  - apply (c_Rmax (fun t => Rmin t 1) (fun _ => 0)); [|apply c_const]. apply (c_Rmin (fun t => t) (fun _ => 1)); [apply c_id|apply c_const].
Qed.
Lemma cont_prof : forall t, continuous prof t.
Proof.
  intros t. unfold prof, expm1, pow35.
  apply (c_minus (fun _ => 1)); [apply c_const|]. apply c_div, (c_minus _ (fun _ => 1)); [|apply c_const].
  apply (c_comp (fun t => t ^ 3 * sqrt t) exp); [|apply continuous_exp].
  apply (c_mult (fun t => t ^ 3) sqrt); [|apply continuous_sqrt].
  apply (ex_derive_continuous (fun t : R => t ^ 3)). auto_derive. exact I.
Qed.
Theorem c37_gamma_continuous : forall L f x,
  continuous (fun x => gamma_generate x L) x /\ continuous (fun x => gamma_absorb x L f) x.
Proof.
  intros L f x. split.
  - apply continuous_ext with (fun x => prof (clamp01 (1 - x / L))); [reflexivity|].
    apply (c_comp (fun x => clamp01 (1 - x / L)) prof); [|apply cont_prof].
    apply (c_comp (fun x => 1 - x / L) clamp01); [|apply cont_clamp01].
    apply (c_minus (fun _ => 1)); [apply c_const|]. apply (c_div (fun x => x)), c_id.
  - apply continuous_ext with (fun x => prof (clamp01 (x / (L * f)))); [reflexivity|].
    apply (c_comp (fun x => clamp01 (x / (L * f))) prof); [|apply cont_prof].
    apply (c_comp (fun x => x / (L * f)) clamp01); [|apply cont_clamp01].
    apply (c_div (fun x => x)), c_id.
Qed.

(** The time ramp goes from 0 at time 0 to 1 at the ramp period and stays. *)
Definition rmp (t : R) : R := t - 1 / PI * sin (PI * t).
Lemma rmp_hv : forall t, rmp t = 2 * hv (t - 1) .
Proof.
  intros. unfold rmp, hv. replace (PI * (t - 1)) with (PI * t - PI) by ring.
  replace (sin (PI * t - PI)) with (- sin (PI * t)).
  - field. apply PI_neq0.
  - rewrite sin_minus, cos_PI, sin_PI. ring.
Qed.
Theorem c37_ramp : forall T, 0 < T ->
  ramp 0 T = 0 /\ (forall t, T <= t -> ramp t T = 1) /\
  (forall t, 0 <= t -> 0 <= ramp t T <= 1) /\ (forall s t, s <= t -> ramp s T <= ramp t T).
Proof.
  intros T HT. pose proof PI_pos as HP.
  assert (M : forall s t, s <= t -> rmp s <= rmp t).
  { intros s t H. rewrite !rmp_hv. pose proof (hv_mono (s - 1) (t - 1) ltac:(lra)). lra. }
  assert (Z : rmp 0 = 0) by (unfold rmp; rewrite Rmult_0_r, sin_0; field; lra).
  assert (O : rmp 1 = 1) by (unfold rmp; rewrite Rmult_1_r, sin_PI; field; lra).
  assert (RR : forall t, ramp t T = if Rltb t T then rmp (t / T) else 1) by reflexivity.
  assert (D1 : forall t, t <= T -> t / T <= 1).
  { intros t H. replace 1 with (T / T) by (field; lra). apply div_mono; assumption. }
  assert (D0 : forall t, 0 <= t -> 0 <= t / T).
  { intros t H. replace 0 with (0 / T) by (field; lra). apply div_mono; assumption. }
  assert (MM : forall s t, s <= t -> ramp s T <= ramp t T).
  { intros s t H. rewrite !RR. destruct (Rltb s T) eqn:E1, (Rltb t T) eqn:E2.
    - apply M. apply div_mono; assumption.
    - apply Rltb_spec in E1. rewrite <- O. apply M. apply D1. lra.
    - apply Rltb_false in E1. apply Rltb_spec in E2. lra.
    - lra. }
  assert (R0 : ramp 0 T = 0).
  { rewrite RR. rewrite (proj2 (Rltb_spec 0 T) HT). replace (0 / T) with 0 by (field; lra). exact Z. }
  assert (R1 : forall t, T <= t -> ramp t T = 1).
  { intros t H. rewrite RR. rewrite (proj2 (Rltb_false t T)) by lra. reflexivity. }
  split; [exact R0|]. split; [exact R1|]. split; [|exact MM].
  intros t H. pose proof (MM 0 t H). rewrite R0 in *.
  pose proof (MM t (Rmax t T) (Rmax_l t T)). rewrite (R1 _ (Rmax_r t T)) in *. lra.
Qed.

Theorem c37_blend : forall f a b, (0 <= f <= 1 -> between a b (combine_linear f a b)) /\
  combine_linear 0 a b = a /\ combine_linear 1 a b = b.
Proof.
  intros. split; [|split; unfold combine_linear; ring]. intros H.
  pose proof (mix_between a b (1 - f) ltac:(lra)) as M. unfold mix in M. unfold combine_linear.
  replace ((1 - f) * a + f * b) with (a * (1 - f) + b * (1 - (1 - f))) by ring. exact M.
Qed.

(** ** The zones *)
Theorem c37_zone_range : forall w x y, 0 < gen_length w -> 0 < beach_length w -> 0 < beach_factor w ->
  0 <= zone_gamma w x y <= 1.
Proof.
  intros w x y A B C. unfold zone_gamma. cbv zeta.
  destruct (c37_gamma_generate _ A) as (G1 & _). destruct (c37_gamma_absorb _ _ B C) as (G2 & _).
  destruct (c37_gamma_generate (5/10 * beach_length w) ltac:(lra)) as (G3 & _).
  pose proof (G1 (x - xlo w)) as P1. pose proof (G2 (x - (xhi w - beach_length w))) as P2.
  pose proof (G3 (x - (xhi w - 15 / 10 * beach_length w))) as P3.
  rewrite !rmin_R. destruct (Rltb eps_mach (zone_y w)) eqn:E.
  - apply Rltb_spec in E. assert (0 < zone_y w) by (unfold eps_mach in E; lra).
    destruct (c37_gamma_generate (zone_y w) ltac:(lra)) as (G4 & _). destruct (c37_gamma_absorb (zone_y w) 1 ltac:(lra) ltac:(lra)) as (G5 & _).
    pose proof (G4 (y - ylo w)) as P4. pose proof (G5 (y - (yhi w - zone_y w))) as P5.
    destruct (has_beach w); rewrite ?rmax_R; unfold Rmin, Rmax; repeat destruct Rle_dec; lra.
  - unfold Rmin; repeat destruct Rle_dec; lra.
Qed.
(** Between the zones (x between the generation and absorption lengths, y away
    from the side zones if there are any) the factor is one. *)
Theorem c37_between_zones : forall w x y, 0 < gen_length w -> 0 < beach_length w -> 0 < beach_factor w ->
  xlo w + gen_length w <= x <= xhi w - beach_length w ->
  (eps_mach < zone_y w -> ylo w + zone_y w <= y <= yhi w - zone_y w) ->
  zone_gamma w x y = 1.
Proof.
  intros w x y A B C Hx Hy. unfold zone_gamma. cbv zeta.
  destruct (c37_gamma_generate _ A) as (_ & _ & G1 & _). destruct (c37_gamma_absorb _ _ B C) as (_ & G2 & _).
  rewrite (G1 (x - xlo w)), (G2 (x - (xhi w - beach_length w))) by lra.
  destruct (c37_gamma_generate (5/10 * beach_length w) ltac:(lra)) as (G3 & _).
  pose proof (G3 (x - (xhi w - 15 / 10 * beach_length w))) as P3.
  rewrite !rmin_R. destruct (Rltb eps_mach (zone_y w)) eqn:E.
  - apply Rltb_spec in E. assert (0 < zone_y w) by (unfold eps_mach in E; lra).
    destruct (c37_gamma_generate (zone_y w) ltac:(lra)) as (_ & _ & G4 & _). destruct (c37_gamma_absorb (zone_y w) 1 ltac:(lra) ltac:(lra)) as (_ & G5 & _).
    specialize (Hy E). rewrite (G4 (y - ylo w)), (G5 (y - (yhi w - zone_y w))) by lra.
    destruct (has_beach w); rewrite ?rmax_R; unfold Rmin, Rmax; repeat destruct Rle_dec; lra.
  - unfold Rmin; repeat destruct Rle_dec; lra.
Qed.
(** At the inflow boundary it is zero. *)
Theorem c37_inflow : forall w x y, 0 < gen_length w -> 0 < beach_length w -> 0 < beach_factor w ->
  x <= xlo w -> zone_gamma w x y = 0.
Proof.
  intros w x y A B C Hx. pose proof (c37_zone_range w x y A B C) as RG.
  assert (L : zone_gamma w x y <= gamma_generate (x - xlo w) (gen_length w)).
  { unfold zone_gamma. cbv zeta. rewrite !rmin_R. eapply Rle_trans; [apply Rmin_l|]. apply Rmin_r. }
  rewrite (proj1 (proj2 (c37_gamma_generate _ A))) in L by lra. lra.
Qed.

(** ** One cell *)
Lemma snap_close : forall y, 0 <= y <= 1 -> 0 <= snap y <= 1 /\ Rabs (snap y - y) <= vof_tiny.
Proof.
  intros y H. unfold snap, vof_tiny. destruct (Rltb (1 - / 10 ^ 12) y) eqn:E1; [apply Rltb_spec in E1|apply Rltb_false in E1].
  - split; [lra|]. rewrite Rabs_right; lra.
  - destruct (Rltb y (/ 10 ^ 12)) eqn:E2; [apply Rltb_spec in E2|apply Rltb_false in E2].
    + split; [lra|]. unfold Rabs; destruct Rcase_abs; lra.
    + split; [lra|]. rewrite Rminus_diag_eq, Rabs_R0 by reflexivity. lra.
Qed.
(** Outside the zones, and next to terrain, nothing changes. *)
Theorem c37_outside : forall w rho1 rho2 r x y terrain tv tu s,
  0 < gen_length w -> 0 < beach_length w -> 0 < beach_factor w ->
  terrain = true \/
  (xlo w + gen_length w <= x <= xhi w - beach_length w /\
   (eps_mach < zone_y w -> ylo w + zone_y w <= y <= yhi w - zone_y w)) ->
  relax_at w rho1 rho2 r x y terrain tv tu s = s.
Proof.
  intros w rho1 rho2 r x y terrain tv tu s A B C H. unfold relax_at. cbv zeta. unfold relax_cell.
  destruct H as [->|[Hx Hy]]; [rewrite Bool.orb_true_r; reflexivity|].
  rewrite c37_between_zones; try assumption.
  - rewrite (proj2 (Rleb_spec 1 _)) by (unfold eps_mach; lra). reflexivity.
  - rewrite rmin_R, rmax_R. unfold Rmin, Rmax. repeat destruct Rle_dec; lra.
  - intros E. specialize (Hy E). assert (0 < zone_y w) by (unfold eps_mach in E; lra). rewrite rmin_R, rmax_R. unfold Rmin, Rmax. repeat destruct Rle_dec; lra.
Qed.

(** Fractions and factors for a cell. *)
Definition fraction (x : R) : Prop := 0 <= x <= 1.

(** The new fraction stays a fraction, lies between the old one and the target
    (up to the snapping tolerance), and is closer to the target by the factor
    1 - r (1 - Gamma). *)
Theorem c37_fraction : forall rho1 rho2 r g terrain beach tv tu s,
  fraction r -> fraction g -> fraction tv -> fraction (cvof s) ->
  let s' := relax_cell rho1 rho2 r g terrain beach tv tu s in
  fraction (cvof s') /\
  Rmin (cvof s) tv - / 10 ^ 12 <= cvof s' <= Rmax (cvof s) tv + / 10 ^ 12 /\
  (g < 1 - eps_mach -> terrain = false ->
   Rabs (cvof s' - tv) <= (1 - r * (1 - g)) * Rabs (cvof s - tv) + r * / 10 ^ 12).
Proof.
  intros rho1 rho2 r g terrain beach tv tu s Hr Hg Ht Hv s'. unfold fraction in *.
  assert (Y : 0 <= combine_linear g tv (cvof s) <= 1).
  { destruct (proj1 (c37_blend g tv (cvof s)) Hg) as [L U]. unfold Rmin, Rmax in *. destruct Rle_dec; lra. }
  destruct (snap_close _ Y) as [S0 S1]. unfold vof_tiny in S1.
  assert (N : (g < 1 - eps_mach -> terrain = false -> cvof s' = cvof s + r * (snap (combine_linear g tv (cvof s)) - cvof s)) /\
              (cvof s' = cvof s \/ cvof s' = cvof s + r * (snap (combine_linear g tv (cvof s)) - cvof s))).
  { unfold s', relax_cell. split.
    - intros Hg1 ->. rewrite (proj2 (Rleb_false 1 _)) by lra. reflexivity.
    - destruct (_ || _)%bool; [left|right]; reflexivity. }
  destruct N as [N1 N].
  assert (CB : between (cvof s) tv (combine_linear g tv (cvof s))).
  { pose proof (proj1 (c37_blend g tv (cvof s)) Hg) as P. unfold between in *. rewrite Rmin_comm, Rmax_comm. exact P. }
  set (y := combine_linear g tv (cvof s)) in *. set (n := snap y) in *. clearbody n.
  assert (S2 : - / 10 ^ 12 <= n - y <= / 10 ^ 12) by (unfold Rabs in S1; destruct Rcase_abs in S1; lra).
  set (v' := cvof s') in *. clearbody v'. clear s'.
  split; [|split].
  - destruct N as [->| ->]; [exact Hv|].
    replace (cvof s + r * (n - cvof s)) with (r * n + (1 - r) * cvof s) by ring.
    assert (0 <= r * n <= r * 1) by (split; [apply Rmult_le_pos|apply Rmult_le_compat_l]; lra).
    assert (0 <= (1 - r) * cvof s <= (1 - r) * 1) by (split; [apply Rmult_le_pos|apply Rmult_le_compat_l]; lra). lra.
  - destruct N as [->| ->]; [unfold Rmin, Rmax; destruct Rle_dec; lra|].
    unfold between in CB.
    assert (B1 : Rmin (cvof s) tv - / 10 ^ 12 <= n <= Rmax (cvof s) tv + / 10 ^ 12) by lra.
    assert (B2 : Rmin (cvof s) tv - / 10 ^ 12 <= cvof s <= Rmax (cvof s) tv + / 10 ^ 12) by (unfold Rmin, Rmax; destruct Rle_dec; lra).
    set (lo := Rmin (cvof s) tv - / 10 ^ 12) in *. set (hi := Rmax (cvof s) tv + / 10 ^ 12) in *. clearbody lo hi.
    replace (cvof s + r * (n - cvof s)) with (r * n + (1 - r) * cvof s) by ring.
    assert (r * lo <= r * n <= r * hi) by (split; apply Rmult_le_compat_l; lra).
    assert ((1 - r) * lo <= (1 - r) * cvof s <= (1 - r) * hi) by (split; apply Rmult_le_compat_l; lra). lra.
  - intros Hg1 Hter. rewrite (N1 Hg1 Hter).
    replace (cvof s + r * (n - cvof s) - tv) with ((1 - r * (1 - g)) * (cvof s - tv) + r * (n - y)) by (unfold y, combine_linear; ring).
    eapply Rle_trans; [apply Rabs_triang|]. rewrite !Rabs_mult.
    assert (0 <= r * (1 - g) <= 1). { split; [apply Rmult_le_pos; lra|]. pose proof (Rmult_le_compat r 1 (1 - g) 1 ltac:(lra) ltac:(lra) ltac:(lra) ltac:(lra)). lra. }
    rewrite (Rabs_right (1 - r * (1 - g))) by lra. rewrite (Rabs_right r) by lra.
    apply Rplus_le_compat_l. apply Rmult_le_compat_l; lra.
Qed.
(** Repeated with a fixed target, ramp and zone factor below one: geometric
    convergence to the target. *)
Theorem c37_converges : forall rho1 rho2 r g beach tv tu s n,
  fraction r -> 0 < r -> 0 <= g -> g < 1 - eps_mach -> fraction tv -> fraction (cvof s) ->
  Rabs (cvof (Nat.iter n (relax_cell rho1 rho2 r g false beach tv tu) s) - tv)
  <= (1 - r * (1 - g)) ^ n * Rabs (cvof s - tv) + / 10 ^ 12 / (1 - g).
Proof.
  intros rho1 rho2 r g beach tv tu s n Hr Hr0 Hg0 Hg1 Ht Hv. unfold fraction in *.
  assert (E0 : 0 < eps_mach) by (unfold eps_mach; lra).
  set (q := 1 - r * (1 - g)).
  assert (Q : 0 <= q < 1).
  { unfold q. assert (0 < r * (1 - g)) by (apply Rmult_lt_0_compat; lra).
    pose proof (Rmult_le_compat r 1 (1 - g) 1 ltac:(lra) ltac:(lra) ltac:(lra) ltac:(lra)). lra. }
  assert (B0 : 0 <= / 10 ^ 12 / (1 - g)) by (apply Rlt_le, Rdiv_lt_0_compat; lra).
  assert (J : fraction (cvof (Nat.iter n (relax_cell rho1 rho2 r g false beach tv tu) s)) /\
    Rabs (cvof (Nat.iter n (relax_cell rho1 rho2 r g false beach tv tu) s) - tv) <= q ^ n * Rabs (cvof s - tv) + / 10 ^ 12 / (1 - g)); [|exact (proj2 J)].
  induction n as [|n [IU IH]]; [cbn [Nat.iter nat_rect pow]; unfold Nat.iter; simpl; unfold fraction; split; [assumption|lra]|].
  change (Nat.iter (S n) ?f s) with (f (Nat.iter n f s)).
  set (sn := Nat.iter n (relax_cell rho1 rho2 r g false beach tv tu) s) in *.
  destruct (c37_fraction rho1 rho2 r g false beach tv tu sn Hr ltac:(unfold fraction; lra) Ht IU) as (U & _ & Cn).
  specialize (Cn Hg1 eq_refl). fold q in Cn. split; [exact U|].
  eapply Rle_trans; [exact Cn|].
  assert (q * Rabs (cvof sn - tv) <= q * (q ^ n * Rabs (cvof s - tv) + / 10 ^ 12 / (1 - g))) by (apply Rmult_le_compat_l; lra).
  assert (EQ : r * / 10 ^ 12 = (1 - q) * (/ 10 ^ 12 / (1 - g))) by (unfold q; field; lra).
  rewrite EQ. simpl pow. lra.
Qed.
(** A solution that already is the target is left as it is. *)
Theorem c37_fixed : forall rho1 rho2 r g terrain beach s,
  0 < rho1 -> 0 < rho2 -> cvof s = 0 \/ / 10 ^ 12 <= cvof s <= 1 - / 10 ^ 12 \/ cvof s = 1 ->
  crho s = mix rho1 rho2 (cvof s) ->
  relax_cell rho1 rho2 r g terrain beach (cvof s) (cvel s) s = s.
Proof.
  intros rho1 rho2 r g terrain beach [v us rho] H1 H2 Hv Hr. cbn [cvof cvel crho] in *. unfold relax_cell. cbn [cvof cvel crho].
  destruct (_ || _)%bool; [reflexivity|].
  assert (Cb : forall a, combine_linear g a a = a) by (intros; unfold combine_linear; ring). rewrite Cb.
  assert (Sn : snap v = v).
  { unfold snap, vof_tiny. destruct Hv as [->|[Hv| ->]].
    - rewrite (proj2 (Rltb_false _ _)) by lra. rewrite (proj2 (Rltb_spec _ _)) by lra. reflexivity.
    - rewrite (proj2 (Rltb_false _ _)) by lra. rewrite (proj2 (Rltb_false _ _)) by lra. reflexivity.
    - rewrite (proj2 (Rltb_spec _ _)) by lra. reflexivity. }
  rewrite Sn. replace (v - v) with 0 by ring. rewrite Rmult_0_r, Rplus_0_r.
  assert (P : 0 < rho1 * v + rho2 * (1 - v)).
  { pose proof (c32_mixture_positive rho1 rho2 v H1 H2 ltac:(destruct Hv as [Hv|[Hv|Hv]]; lra)) as P. exact P. }
  f_equal.
  - set (fv := if beach then 1 else if Rltb vof_tiny v then 1 else 0). clearbody fv. clear Hr.
    induction us as [|u us IH]; [reflexivity|]. cbn [combine map fst snd]. f_equal; [|exact IH].
    unfold relax_vel. rewrite Cb. replace (u - u) with 0 by ring. rewrite !Rmult_0_r, !Rplus_0_r. field. lra.
  - rewrite Hr. reflexivity.
Qed.
(** Density always matches the new fraction. *)
Theorem c37_density : forall rho1 rho2 r g terrain beach tv tu s, crho s = mix rho1 rho2 (cvof s) ->
  let s' := relax_cell rho1 rho2 r g terrain beach tv tu s in crho s' = mix rho1 rho2 (cvof s').
Proof. intros rho1 rho2 r g terrain beach tv tu s H. unfold relax_cell. cbv zeta. destruct (_ || _)%bool; [exact H|reflexivity]. Qed.

(** *** Velocity *)
(** Component [k] of a relaxed cell. *)
Definition vcomp (s : cstate) (k : nat) : R := nth k (cvel s) 0.
Lemma relax_vel_eq : forall rho1 rho2 r g fv V dvf u t,
  rho1 * V + rho2 * (1 - V) <> 0 ->
  relax_vel rho1 rho2 r g fv V dvf (rho1 * V + rho2 * (1 - V)) u t
  = u + rho1 * (r * fv * (V * (1 - g) + Rmax 0 dvf)) / (rho1 * V + rho2 * (1 - V)) * (t - u).
Proof. intros. unfold relax_vel, combine_linear. rewrite rmax_R. field. assumption. Qed.
Lemma nth_map_combine : forall (f : R * R -> R) (us ts : list R) k, (k < length us)%nat -> (k < length ts)%nat ->
  nth k (map f (combine us ts)) 0 = f (nth k us 0, nth k ts 0).
Proof.
  induction us as [|u us IH]; intros ts k H1 H2; [simpl in H1; lia|]. destruct ts as [|t ts]; [simpl in H2; lia|].
  destruct k; [reflexivity|]. simpl. apply IH; simpl in *; lia.
Qed.
(** The new component is old + c (target - old) with 0 <= c <= 2; and c <= 1
    when no liquid is added. *)
Theorem c37_velocity_partial : forall rho1 rho2 r g terrain beach tv tu s,
  0 < rho1 -> 0 < rho2 -> fraction r -> fraction g -> fraction tv -> fraction (cvof s) -> length tu = length (cvel s) ->
  let s' := relax_cell rho1 rho2 r g terrain beach tv tu s in
  length (cvel s') = length (cvel s) /\
  exists c, 0 <= c <= 2 /\ (cvof s' <= cvof s -> c <= 1) /\
    (cvof s' = 0 -> c = 0) /\
    (tv <= / 10 ^ 12 -> beach = false -> c = 0) /\
    forall k, (k < length tu)%nat -> vcomp s' k = vcomp s k + c * (nth k tu 0 - vcomp s k).
Proof.
  intros rho1 rho2 r g terrain beach tv tu s H1 H2 Hr Hg Ht Hv HL s'. unfold fraction in *.
  destruct (c37_fraction rho1 rho2 r g terrain beach tv tu s Hr Hg Ht Hv) as (U & _ & _). fold s' in U. unfold fraction in U.
  unfold s', relax_cell in *. destruct (_ || _)%bool.
  { split; [reflexivity|]. exists 0. split; [lra|]. split; [lra|]. split; [reflexivity|]. split; [reflexivity|]. intros. ring. }
  cbn [cvof cvel] in *. unfold vcomp. cbn [cvel].
  set (dvf := snap (combine_linear g tv (cvof s)) - cvof s) in *. set (V := cvof s + r * dvf) in *.
  set (fv := if beach then 1 else if Rltb vof_tiny tv then 1 else 0).
  assert (F : 0 <= fv <= 1) by (unfold fv; destruct beach; [lra|destruct Rltb; lra]).
  assert (P : 0 < rho1 * V + rho2 * (1 - V)) by (exact (c32_mixture_positive rho1 rho2 V H1 H2 U)).
  split; [rewrite map_length, combine_length; lia|].
  set (A := r * fv * (V * (1 - g) + Rmax 0 dvf)).
  assert (X1 : 0 <= V * (1 - g) <= V) by (split; [apply Rmult_le_pos; lra|]; rewrite <- (Rmult_1_r V) at 2; apply Rmult_le_compat_l; lra).
  assert (RD : 0 <= r * Rmax 0 dvf <= V).
  { pose proof (Rmax_l 0 dvf). split; [apply Rmult_le_pos; lra|]. unfold Rmax. destruct Rle_dec; [unfold V; lra|lra]. }
  assert (RV : 0 <= r * (V * (1 - g)) <= V) by (split; [apply Rmult_le_pos; lra|]; pose proof (Rmult_le_compat_r (V * (1 - g)) r 1 ltac:(lra) ltac:(lra)); lra).
  assert (AE : A = fv * (r * (V * (1 - g)) + r * Rmax 0 dvf)) by (unfold A; ring).
  assert (A2 : 0 <= A <= r * (V * (1 - g)) + r * Rmax 0 dvf).
  { rewrite AE. split; [apply Rmult_le_pos; lra|]. pose proof (Rmult_le_compat_r (r * (V * (1 - g)) + r * Rmax 0 dvf) fv 1 ltac:(lra) ltac:(lra)). lra. }
  assert (GV : rho1 * V <= rho1 * V + rho2 * (1 - V)) by (assert (0 <= rho2 * (1 - V)) by (apply Rmult_le_pos; lra); lra).
  assert (BND : forall m, 0 <= m -> A <= m * V -> rho1 * A / (rho1 * V + rho2 * (1 - V)) <= m).
  { intros m Hm HA. apply Rmult_le_reg_r with (rho1 * V + rho2 * (1 - V)); [exact P|]. unfold Rdiv. rewrite Rmult_assoc, Rinv_l, Rmult_1_r by lra.
    apply Rle_trans with (rho1 * (m * V)); [apply Rmult_le_compat_l; lra|]. replace (rho1 * (m * V)) with (m * (rho1 * V)) by ring. apply Rmult_le_compat_l; lra. }
  exists (rho1 * A / (rho1 * V + rho2 * (1 - V))).
  split; [split; [|apply BND; lra]|].
  { apply Rmult_le_pos; [apply Rmult_le_pos; lra|]. left. apply Rinv_0_lt_compat. exact P. }
  split; [|split; [|split]].
  - intros HV. apply BND; [lra|]. assert (r * dvf <= 0) by (unfold V in HV; lra).
    assert (r * Rmax 0 dvf <= 0); [|lra]. unfold Rmax. destruct Rle_dec; lra.
  - intros HV. assert (A = 0) by (rewrite HV in *; lra). rewrite H. field. lra.
  - intros HT ->. assert (fv = 0) by (unfold fv; rewrite (proj2 (Rltb_false _ _)); [reflexivity|unfold vof_tiny; lra]).
    assert (A = 0) by (rewrite AE, H; ring). rewrite H0. field. lra.
  - intros k Hk. rewrite nth_map_combine by lia. cbn [fst snd]. rewrite relax_vel_eq by lra. reflexivity.
Qed.
(** In a cell full of liquid before and after, it is the plain blend. *)
Theorem c37_velocity_liquid : forall rho1 rho2 r g beach tu s k,
  0 < rho1 -> 0 < rho2 -> g < 1 - eps_mach -> cvof s = 1 -> length tu = length (cvel s) -> (k < length tu)%nat ->
  vcomp (relax_cell rho1 rho2 r g false beach 1 tu s) k = vcomp s k + r * (1 - g) * (nth k tu 0 - vcomp s k).
Proof.
  intros rho1 rho2 r g beach tu s k H1 H2 Hg Hv HL Hk. unfold relax_cell. rewrite (proj2 (Rleb_false 1 _)) by lra. cbn [orb].
  rewrite Hv. replace (combine_linear g 1 1) with 1 by (unfold combine_linear; ring).
  assert (S1 : snap 1 = 1) by (unfold snap, vof_tiny; rewrite (proj2 (Rltb_spec _ _)) by lra; reflexivity).
  rewrite S1. replace (1 - 1) with 0 by ring. rewrite Rmult_0_r, Rplus_0_r.
  assert (F : (if beach then 1 else if Rltb vof_tiny 1 then 1 else 0) = 1).
  { destruct beach; [reflexivity|]. unfold vof_tiny. rewrite (proj2 (Rltb_spec _ _)) by lra. reflexivity. }
  rewrite F. unfold vcomp. cbn [cvel]. rewrite nth_map_combine by lia. cbn [fst snd].
  replace (1 - 1) with 0 by ring.
  unfold relax_vel, combine_linear. rewrite rmax_R. rewrite (Rmax_left 0 0) by lra. field. lra.
Qed.
(** But where liquid is added the target velocity is counted twice: the result
    overshoots it, by as much as the difference itself. *)
Theorem c37_velocity_between_refuted :
  ~ (forall rho1 rho2 r g terrain beach tv tu s k,
       0 < rho1 -> 0 < rho2 -> fraction r -> fraction g -> fraction tv -> fraction (cvof s) -> length tu = length (cvel s) -> (k < length tu)%nat ->
       between (vcomp s k) (nth k tu 0) (vcomp (relax_cell rho1 rho2 r g terrain beach tv tu s) k)).
Proof.
  intros H. specialize (H 1000 1 1 0 false false 1 [1] (CS 0 [0] 1) 0%nat).
  assert (E : vcomp (relax_cell 1000 1 1 0 false false 1 [1] (CS 0 [0] 1)) 0 = 2).
  { unfold relax_cell. rewrite (proj2 (Rleb_false 1 _)) by (unfold eps_mach; lra). cbn [orb cvof cvel].
    assert (S1 : snap (combine_linear 0 1 0) = 1).
    { unfold snap, combine_linear, vof_tiny. rewrite (proj2 (Rltb_spec _ _)) by lra. reflexivity. }
    rewrite S1. unfold vof_tiny. rewrite (proj2 (Rltb_spec _ 1)) by lra.
    unfold vcomp. simpl. unfold relax_vel, combine_linear. rewrite rmax_R, Rmax_right by lra. field. }
  rewrite E in H. unfold between, vcomp in H. simpl in H. rewrite Rmin_left, Rmax_right in H by lra.
  unfold fraction in H. simpl in H. destruct H as [_ H]; try lra; lia.
Qed.

(** ** Initial profiles *)
(** In the generation zone the inlet profile, in the outlet zone the outlet
    profile, and the interior profile further than one and a half zone lengths
    from both boundaries. *)
Theorem c37_profile_regions : forall x lb ll rb rl L B T, 0 < ll -> 0 < rl ->
  (x <= lb + ll -> harmonize x lb ll rb rl L B T = L) /\
  (lb + ll < x -> rb - rl <= x -> harmonize x lb ll rb rl L B T = T) /\
  (lb + 15/10 * ll <= x <= rb - 15/10 * rl -> harmonize x lb ll rb rl L B T = B).
Proof.
  intros x lb ll rb rl L B T Hl Hr. split; [|split].
  - intros H. unfold harmonize. rewrite (proj2 (Rleb_spec _ _) H). reflexivity.
  - intros H K. unfold harmonize. rewrite (proj2 (Rleb_false _ _) H). rewrite (proj2 (Rleb_spec rb _)) by lra. reflexivity.
  - intros H. unfold harmonize. rewrite (proj2 (Rleb_false x _)) by lra. rewrite (proj2 (Rleb_false rb _)) by lra.
    destruct (c37_gamma_generate (5/10 * ll) ltac:(lra)) as (_ & _ & G & _).
    destruct (c37_gamma_absorb (5/10 * rl) 1 ltac:(lra) ltac:(lra)) as (_ & A & _).
    rewrite G, A by lra. rewrite (proj2 (Rltb_spec _ _)) by (unfold tight_tol; lra). unfold combine_linear. ring.
Qed.
(** It never leaves the range of the three profiles. *)
Theorem c37_profile_range : forall x lb ll rb rl L B T lo hi, 0 < ll -> 0 < rl ->
  lo <= L <= hi -> lo <= B <= hi -> lo <= T <= hi -> lo <= harmonize x lb ll rb rl L B T <= hi.
Proof.
  intros x lb ll rb rl L B T lo hi Hl Hr HL HB HT. unfold harmonize.
  destruct (Rleb x (lb + ll)); [assumption|]. destruct (Rleb rb (x + rl)); [assumption|].
  destruct (c37_gamma_generate (5/10 * ll) ltac:(lra)) as (G & _). destruct (c37_gamma_absorb (5/10 * rl) 1 ltac:(lra) ltac:(lra)) as (A & _).
  specialize (G (x - (lb + ll))). specialize (A (x - (rb - 15 / 10 * rl))).
  destruct (Rltb _ _).
  - destruct (proj1 (c37_blend (gamma_generate (x - (lb + ll)) (5 / 10 * ll)) L B) G). unfold Rmin, Rmax in *. destruct Rle_dec; lra.
  - destruct (proj1 (c37_blend (gamma_absorb (x - (rb - 15 / 10 * rl)) (5 / 10 * rl) 1) T B) A). unfold Rmin, Rmax in *. destruct Rle_dec; lra.
Qed.
(** With zones that do not overlap it follows, within 1000 machine epsilons of
    the outlet difference, a continuous curve that starts from the inlet
    profile at the end of the inlet zone and ends in the outlet profile. *)
Theorem c37_profile_continuous : forall lb ll rb rl L B T, 0 < ll -> 0 < rl -> lb + 15/10 * ll <= rb - 15/10 * rl ->
  exists curve : R -> R, (forall x, continuous curve x) /\ curve (lb + ll) = L /\ curve (rb - rl) = T /\
    forall x, lb + ll < x < rb - rl -> Rabs (harmonize x lb ll rb rl L B T - curve x) <= tight_tol * Rabs (T - B).
Proof.
  intros lb ll rb rl L B T Hl Hr Ho.
  set (gl := fun x => gamma_generate (x - (lb + ll)) (5/10 * ll)).
  set (gr := fun x => gamma_absorb (x - (rb - 15/10 * rl)) (5/10 * rl) 1).
  destruct (c37_gamma_generate (5/10 * ll) ltac:(lra)) as (G0 & G1 & G2 & _).
  destruct (c37_gamma_absorb (5/10 * rl) 1 ltac:(lra) ltac:(lra)) as (A0 & A1 & A2 & _).
  exists (fun x => (1 - gl x) * L + (gl x + gr x - 1) * B + (1 - gr x) * T).
  split.
  { intros x.
    assert (Cl : continuous gl x).
    { apply (c_comp (fun x => x - (lb + ll)) (fun x => gamma_generate x (5/10 * ll))); [apply (c_minus (fun x => x)); [apply c_id|apply c_const]|exact (proj1 (c37_gamma_continuous (5/10 * ll) 1 (x - (lb + ll))))]. }
    assert (Cr : continuous gr x).
    { apply (c_comp (fun x => x - (rb - 15/10 * rl)) (fun x => gamma_absorb x (5/10 * rl) 1)); [apply (c_minus (fun x => x)); [apply c_id|apply c_const]|exact (proj2 (c37_gamma_continuous (5/10 * rl) 1 (x - (rb - 15/10 * rl))))]. }
    apply c_plus; [apply c_plus|].
    - apply (c_mult (fun x => 1 - gl x)); [apply (c_minus (fun _ => 1)); [apply c_const|exact Cl]|apply c_const].
    - apply (c_mult (fun x => gl x + gr x - 1)); [apply (c_minus (fun x => gl x + gr x)); [apply c_plus; assumption|apply c_const]|apply c_const].
    - apply (c_mult (fun x => 1 - gr x)); [apply (c_minus (fun _ => 1)); [apply c_const|exact Cr]|apply c_const]. }
  split. { unfold gl, gr. rewrite G1, A1 by lra. ring. }
  split. { unfold gl, gr. rewrite G2, A2 by lra. ring. }
  intros x Hx. unfold harmonize. rewrite (proj2 (Rleb_false x _)) by lra. rewrite (proj2 (Rleb_false rb _)) by lra.
  fold (gl x). fold (gr x).
  assert (T0 : 0 < tight_tol) by (unfold tight_tol; lra).
  assert (OR : gl x = 1 \/ gr x = 1).
  { destruct (Rle_dec (lb + 15/10 * ll) x); [left; unfold gl; apply G2; lra|right; unfold gr; apply A1; lra]. }
  assert (RA : 0 <= gr x <= 1) by apply A0.
  assert (AB : 0 <= Rabs (T - B)) by apply Rabs_pos.
  assert (AZ : 0 <= tight_tol * Rabs (T - B)) by (apply Rmult_le_pos; lra).
  destruct (Rltb (1 - tight_tol) (gr x)) eqn:E.
  - apply Rltb_spec in E. unfold combine_linear.
    replace ((1 - gl x) * L + gl x * B - ((1 - gl x) * L + (gl x + gr x - 1) * B + (1 - gr x) * T)) with ((1 - gr x) * - (T - B)) by ring.
    rewrite Rabs_mult, Rabs_Ropp, (Rabs_right (1 - gr x)) by lra. apply Rmult_le_compat_r; lra.
  - apply Rltb_false in E. destruct OR as [O|O]; [|lra]. rewrite O. unfold combine_linear.
    replace ((1 - gr x) * T + gr x * B - ((1 - 1) * L + (1 + gr x - 1) * B + (1 - gr x) * T)) with 0 by ring. rewrite Rabs_R0. exact AZ.
Qed.
(** With a side zone: the profile of the x direction away from the sides, the
    forcing profile at them. *)
Theorem c37_profile_sides : forall x y lb ll rb rl ylo yhi yl L B T, 0 < ll -> 0 < rl ->
  (yl < eps_mach -> harmonize2d x y lb ll rb rl ylo yhi yl L B T = harmonize x lb ll rb rl L B T) /\
  (eps_mach <= yl -> ylo + 15/10 * yl <= y <= yhi - 15/10 * yl ->
     harmonize2d x y lb ll rb rl ylo yhi yl L B T = harmonize x lb ll rb rl L B T) /\
  (eps_mach <= yl -> y <= ylo + yl \/ yhi - yl <= y ->
     harmonize2d x y lb ll rb rl ylo yhi yl L B T = harmonize x lb ll rb rl L L T).
Proof.
  intros x y lb ll rb rl ylo yhi yl L B T Hl Hr. assert (E0 : 0 < eps_mach) by (unfold eps_mach; lra).
  split; [|split]; intros E; unfold harmonize2d; cbv zeta.
  - rewrite (proj2 (Rleb_false _ _) E). reflexivity.
  - intros Hy. rewrite (proj2 (Rleb_spec _ _) E). apply c37_profile_regions; lra.
  - intros Hy. rewrite (proj2 (Rleb_spec _ _) E).
    destruct (c37_profile_regions y ylo yl yhi yl (harmonize x lb ll rb rl L L T) (harmonize x lb ll rb rl L B T) (harmonize x lb ll rb rl L L T) ltac:(lra) ltac:(lra)) as (P1 & P2 & _).
    destruct (Rle_dec y (ylo + yl)); [apply P1; assumption|]. apply P2; lra.
Qed.

Example c37_ex : let w := Zones 0 10 0 4 2 3 1 0 true in
  zone_gamma w 5 2 = 1 /\ zone_gamma w 0 2 = 0 /\ fraction (ramp 1 2) /\
  (forall s, relax_at w 1000 1 1 5 2 false 1 [1; 0; 0] s = s) /\
  cvof (relax_at w 1000 1 1 (-1) 2 false (1/2) [1; 0; 0] (CS 0 [0; 0; 0] 1)) = 1/2.
Proof.
  cbv zeta. split. { apply c37_between_zones; simpl; try lra. }
  split. { apply c37_inflow; simpl; lra. }
  split. { apply c37_ramp; lra. }
  split. { intros s. apply c37_outside; simpl; try lra. }
  unfold relax_at. cbv zeta. rewrite c37_inflow; simpl; try lra.
  - unfold relax_cell. rewrite (proj2 (Rleb_false 1 _)) by (unfold eps_mach; lra). cbn [orb cvof].
    assert (S1 : snap (combine_linear 0 (1/2) 0) = 1/2).
    { unfold snap, combine_linear, vof_tiny. rewrite (proj2 (Rltb_false _ _)) by lra. rewrite (proj2 (Rltb_false _ _)) by lra. field. }
    rewrite S1. field.
  - rewrite rmin_R, rmax_R. unfold Rmin, Rmax. repeat destruct Rle_dec; lra.
Qed.

Print Assumptions c37_gamma_generate.
Print Assumptions c37_gamma_absorb.
Print Assumptions c37_absorb_factor.
Print Assumptions c37_gamma_continuous.
Print Assumptions c37_ramp.
Print Assumptions c37_blend.
Print Assumptions c37_zone_range.
Print Assumptions c37_between_zones.
Print Assumptions c37_inflow.
Print Assumptions c37_outside.
Print Assumptions c37_fraction.
Print Assumptions c37_converges.
Print Assumptions c37_fixed.
Print Assumptions c37_density.
Print Assumptions c37_velocity_partial.
Print Assumptions c37_velocity_liquid.
Print Assumptions c37_velocity_between_refuted.
Print Assumptions c37_profile_regions.
Print Assumptions c37_profile_range.
Print Assumptions c37_profile_continuous.
Print Assumptions c37_profile_sides.
