(** C80: mass-consistent transport of momentum and scalars in two-phase flow. *)
From Coq Require Import Reals Lra ZArith List Bool Lia.
From Verif Require Import Base.
From Verif Require Import BoxR BoxRFacts Plic PlicIntercept2 PropPlic VofAdvect VofSpec VofSetting VofProofs VofProofs2 PropVof MultiPhase Advance MomFlux MomFluxSpec MomFluxProofs.
Import ListNotations.
Open Scope R_scope.

(** The setting of a time step: valid cells hold fractions, the ghost fill leaves them alone, the
    face velocities are discretely divergence-free, still on walls and periodic elsewhere, and at
    most half a cell leaves and enters per step. *)
Definition two_phase_step (g : vgeom) (v : venv) (isweep : Z) (f : fld) : Prop :=
  (0 <= isweep)%Z /\ keeps_valid (vdom g) (ve_fill v) /\ vel_ok g v /\ courant g v /\ divergence_free g v /\
  (forall d, 0 < vdx g d) /\ 0 < ve_dt v /\ (forall c, in_box (vdom g) c -> 0 <= f c <= 1).
(** The densities of the step and the densities on its faces. *)
Definition old_rho r1 r2 (f : fld) : fld := rho_of r1 r2 f.
Definition new_rho e r1 r2 g v isweep f : fld := rho_of r1 r2 (vof_step e g v isweep f).
Definition face_rho e r1 r2 g v isweep f : Z -> fld := adv_rho r1 r2 (adv_alpha e g v isweep f).
Definition half_rho e r1 r2 g v isweep f : fld := rho_nph (old_rho r1 r2 f) (new_rho e r1 r2 g v isweep f).
(** Faces of the cells of the domain. *)
Definition domain_face (g : vgeom) (d : Z) (c : ivec) : Prop :=
  (d = 0 \/ d = 1 \/ d = 2)%Z /\ (in_box (vdom g) c \/ in_box (vdom g) (down c d)).
(** What is asked of the reconstruction of AMReX-Hydro. *)
Definition recon_ok (rc : recon) (ms : mscheme) (g : vgeom) (rho_o rho_n : fld) : Prop :=
  ms <> MOther /\ keeps_constants (rc_main rc) /\ forall d c, domain_face g d c -> favre_ok rc ms rho_o rho_n d c.

(** ** Mass *)

(** The density of a cell after the volume-fraction equation is the density before it plus the
    mass the faces carry, with the face densities that momentum and scalars use: to one part in
    ten thousand of the density difference, the tolerance of the plane intercept. *)
Theorem c80_mass : forall g v isweep f r1 r2 c,
  two_phase_step g v isweep f -> ve_debris v = None -> in_box (vdom g) c ->
  Rabs (new_rho eps64 r1 r2 g v isweep f c
        - (old_rho r1 r2 f c + ve_dt v * conv_rate (vgrid g) (mass_flux (ve_vel v) (face_rho eps64 r1 r2 g v isweep f)) c))
  <= Rabs (r1 - r2) / 10000.
Proof.
  intros g v s f r1 r2 c (Hs & Hk & Hv & Hcfl & Hdiv & Hdx & Hdt & Rf) Hdb Hc.
  unfold new_rho, old_rho, face_rho. rewrite new_density; auto; [|intros d; specialize (Hdx d); lra].
  match goal with |- Rabs ?x <= _ => replace x with ((r1 - r2) * step_clip eps64 g v s f c) by ring end.
  rewrite Rabs_mult. unfold Rdiv. apply Rmult_le_compat_l; [apply Rabs_pos|].
  eapply Rle_trans; [apply (step_clip_small eps64 tol)|]; auto; [left; apply eps_pos|apply within_code|].
  pose proof rho_code. lra.
Qed.

Lemma clip_zero : forall g v s f c, two_phase_step g v s f -> in_box (vdom g) c -> step_clip 0 g v s f c = 0.
Proof.
  intros g v s f c (Hs & Hk & Hv & Hcfl & Hdiv & Hdx & Hdt & Rf) Hc.
  assert (B : Rabs (step_clip 0 g v s f c) <= 3 * (0 + 0 / 4)) by (apply step_clip_small; auto; [lra|apply within_exact]).
  pose proof (Rabs_pos (step_clip 0 g v s f c)).
  destruct (Req_dec (step_clip 0 g v s f c) 0) as [Q|Q]; [exact Q|]. apply Rabs_no_R0 in Q. lra.
Qed.
(** Without the machine-epsilon guard of the plane intercept the balance is exact. *)
Theorem c80_mass_exact : forall g v isweep f r1 r2 c,
  two_phase_step g v isweep f -> ve_debris v = None -> in_box (vdom g) c ->
  new_rho 0 r1 r2 g v isweep f c
  = old_rho r1 r2 f c + ve_dt v * conv_rate (vgrid g) (mass_flux (ve_vel v) (face_rho 0 r1 r2 g v isweep f)) c.
Proof.
  intros g v s f r1 r2 c H Hdb Hc. pose proof (clip_zero g v s f c H Hc) as Z.
  destruct H as (Hs & Hk & Hv & Hcfl & Hdiv & Hdx & Hdt & Rf).
  unfold new_rho, old_rho, face_rho. rewrite new_density; auto; [|intros d; specialize (Hdx d); lra].
  rewrite Z. ring.
Qed.

(** ** A uniform velocity *)

(** Through every face of the domain, near the interface or away from it, a uniform velocity is
    carried exactly in proportion to the mass. *)
Theorem c80_uniform_flux : forall rc ms g um adv vof_o rho_o rho_n U,
  recon_ok rc ms g rho_o rho_n ->
  exists H, icns_flux rc ms um adv vof_o rho_o rho_n (fun _ => U) (fun _ => U) (fun _ => 0) = Ret H /\
    forall d c, domain_face g d c -> H d c = U * mass_flux um adv d c.
Proof.
  intros rc ms g um adv vof_o rho_o rho_n U (Hm & Hc & Hf).
  destruct (icns_flux rc ms um adv vof_o rho_o rho_n (fun _ => U) (fun _ => U) (fun _ => 0)) as [H| |] eqn:E;
    [|destruct ms; [discriminate|discriminate|congruence]|destruct ms; discriminate].
  exists H. split; [reflexivity|]. intros d c Hdc. unfold icns_flux in E.
  apply (uniform_hybrid _ _ _ _ _ _ _ _ U _ _ _ d c E); auto.
  f_equal. apply Hc; reflexivity.
Qed.
Lemma uniform_scalar_flux : forall rc ms g um adv vof_o rho_o rho_n U,
  recon_ok rc ms g rho_o rho_n ->
  exists H, scalar_flux rc ms um adv vof_o rho_o rho_n (fun _ => U) (fun _ => U) (fun _ => 0) = Ret H /\
    forall d c, domain_face g d c -> H d c = U * mass_flux um adv d c.
Proof.
  intros rc ms g um adv vof_o rho_o rho_n U (Hm & Hc & Hf).
  destruct (scalar_flux rc ms um adv vof_o rho_o rho_n (fun _ => U) (fun _ => U) (fun _ => 0)) as [H| |] eqn:E;
    [|destruct ms; [discriminate|discriminate|congruence]|destruct ms; discriminate].
  exists H. split; [reflexivity|]. intros d c Hdc. unfold scalar_flux in E.
  apply (uniform_hybrid _ _ _ _ _ _ _ _ U _ _ _ d c E); auto.
  f_equal. apply Hc; intros; unfold Rdiv; ring.
Qed.

Lemma rho_of_pos : forall r1 r2 f c, 0 < r1 -> 0 < r2 -> 0 <= f c <= 1 -> 0 < rho_of r1 r2 f c.
Proof.
  intros r1 r2 f c A B [L H]. unfold rho_of. destruct (Rle_lt_or_eq_dec _ _ L) as [P|E].
  - assert (0 < r1 * f c) by (apply Rmult_lt_0_compat; assumption).
    assert (0 <= r2 * (1 - f c)) by (apply Rmult_le_pos; lra). lra.
  - rewrite <- E. lra.
Qed.

(** From a uniform velocity, with no source and no diffusion, every cell ends with that velocity,
    to the tolerance of the mass balance relative to the density of the cell. *)
Theorem c80_uniform_step : forall g v isweep f r1 r2 rc ms t U,
  two_phase_step g v isweep f -> ve_debris v = None -> 0 < r1 -> 0 < r2 -> t <> DInvalid ->
  let rho_o := old_rho r1 r2 f in let rho := new_rho eps64 r1 r2 g v isweep f in
  let rho_n := half_rho eps64 r1 r2 g v isweep f in
  recon_ok rc ms g rho_o rho_n ->
  exists u, moved g (ve_dt v) rho_o rho (fun _ => U) (fun _ => 0) (fun _ => 0) t
              (icns_flux rc ms (ve_vel v) (face_rho eps64 r1 r2 g v isweep f) f rho_o rho_n (fun _ => U) (fun _ => U) (fun _ => 0)) = Ret u /\
    forall c, in_box (vdom g) c -> Rabs (u c - U) <= Rabs U * (Rabs (r1 - r2) / rho c) / 10000.
Proof.
  intros g v s f r1 r2 rc ms t U H Hdb H1 H2 Ht rho_o rho rho_n Hr.
  destruct (c80_uniform_flux rc ms g (ve_vel v) (face_rho eps64 r1 r2 g v s f) f rho_o rho_n U Hr) as (F & E & HF).
  rewrite E.
  destruct (uniform_moved g (ve_dt v) (ve_vel v) (face_rho eps64 r1 r2 g v s f) rho_o rho U (fun _ => U) t F Ht) as (u & Eu & Hu); auto.
  { intros d c Hd Hc. apply HF. split; assumption. }
  exists u. split; [exact Eu|]. intros c Hc. rewrite (Hu c Hc).
  pose proof (c80_mass g v s f r1 r2 c H Hdb Hc) as M. fold rho_o rho in M.
  set (b := rho_o c + _) in *.
  assert (P : 0 < rho c).
  { apply rho_of_pos; auto. apply vof_step_range; [apply H|exact Hc]. }
  replace (U * (b / rho c) - U) with (- (U * ((rho c - b) * / rho c))) by (field; lra).
  rewrite Rabs_Ropp, !Rabs_mult, (Rabs_right (/ rho c)) by (apply Rle_ge, Rlt_le, Rinv_0_lt_compat, P).
  assert (I : 0 < / rho c) by (apply Rinv_0_lt_compat, P).
  unfold Rdiv. rewrite Rmult_assoc. apply Rmult_le_compat_l; [apply Rabs_pos|].
  apply Rmult_le_compat_r with (r := / rho c) in M; [|lra]. unfold Rdiv in M. lra.
Qed.
(** Exactly so without the guard. *)
Theorem c80_uniform_exact : forall g v isweep f r1 r2 rc ms t U,
  two_phase_step g v isweep f -> ve_debris v = None -> 0 < r1 -> 0 < r2 -> t <> DInvalid ->
  let rho_o := old_rho r1 r2 f in let rho := new_rho 0 r1 r2 g v isweep f in
  let rho_n := half_rho 0 r1 r2 g v isweep f in
  recon_ok rc ms g rho_o rho_n ->
  exists u, moved g (ve_dt v) rho_o rho (fun _ => U) (fun _ => 0) (fun _ => 0) t
              (icns_flux rc ms (ve_vel v) (face_rho 0 r1 r2 g v isweep f) f rho_o rho_n (fun _ => U) (fun _ => U) (fun _ => 0)) = Ret u /\
    forall c, in_box (vdom g) c -> u c = U.
Proof.
  intros g v s f r1 r2 rc ms t U H Hdb H1 H2 Ht rho_o rho rho_n Hr.
  destruct (c80_uniform_flux rc ms g (ve_vel v) (face_rho 0 r1 r2 g v s f) f rho_o rho_n U Hr) as (F & E & HF).
  rewrite E.
  destruct (uniform_moved g (ve_dt v) (ve_vel v) (face_rho 0 r1 r2 g v s f) rho_o rho U (fun _ => U) t F Ht) as (u & Eu & Hu); auto.
  { intros d c Hd Hc. apply HF. split; assumption. }
  exists u. split; [exact Eu|]. intros c Hc. rewrite (Hu c Hc).
  pose proof (c80_mass_exact g v s f r1 r2 c H Hdb Hc) as M. fold rho_o rho in M.
  assert (P : 0 < rho c).
  { apply rho_of_pos; auto. apply vof_step_range; [apply H|exact Hc]. }
  rewrite <- M. field. lra.
Qed.

(** ** Scalars and the order of the equations *)

(** A uniform scalar advanced after the volume fraction stays uniform likewise. *)
Theorem c80_scalar_after_vof : forall g v isweep f r1 r2 rc ms t S adv0 rho1 f1,
  two_phase_step g v isweep f -> ve_debris v = None -> 0 < r1 -> 0 < r2 -> t <> DInvalid ->
  recon_ok rc ms g (old_rho r1 r2 f) (half_rho eps64 r1 r2 g v isweep f) ->
  exists p q, scalars eps64 g v isweep r1 r2 rc ms t (fun _ => 0) (fun _ => 0) [EqVof; EqScalar]
                (PS adv0 (old_rho r1 r2 f) rho1 f f1) (fun _ => S) = Ret (p, q) /\
    ps_rho p = new_rho eps64 r1 r2 g v isweep f /\ ps_adv p = face_rho eps64 r1 r2 g v isweep f /\
    forall c, in_box (vdom g) c -> Rabs (q c - S) <= Rabs S * (Rabs (r1 - r2) / ps_rho p c) / 10000.
Proof.
  intros g v s f r1 r2 rc ms t U adv0 rho1 f1 H Hdb H1 H2 Ht Hr.
  cbn [scalars]. unfold vof_advance; cbn [ps_adv ps_rho_o ps_rho ps_vof_o ps_vof].
  change (rho_of r1 r2 (vof_step eps64 g v s f)) with (new_rho eps64 r1 r2 g v s f).
  change (adv_rho r1 r2 (adv_alpha eps64 g v s f)) with (face_rho eps64 r1 r2 g v s f).
  change (rho_nph (old_rho r1 r2 f) (new_rho eps64 r1 r2 g v s f)) with (half_rho eps64 r1 r2 g v s f).
  set (rho_o := old_rho r1 r2 f) in *. set (rho := new_rho eps64 r1 r2 g v s f) in *. set (rho_n := half_rho eps64 r1 r2 g v s f) in *.
  destruct (uniform_scalar_flux rc ms g (ve_vel v) (face_rho eps64 r1 r2 g v s f) f rho_o rho_n U Hr) as (F & E & HF).
  rewrite E.
  destruct (uniform_moved g (ve_dt v) (ve_vel v) (face_rho eps64 r1 r2 g v s f) rho_o rho U (fun _ => U) t F Ht) as (u & Eu & Hu); auto.
  { intros d c Hd Hc. apply HF. split; assumption. }
  rewrite Eu. cbn [obind]. eexists. exists u. split; [reflexivity|]. cbn [ps_rho ps_adv]. split; [reflexivity|]. split; [reflexivity|].
  intros c Hc. rewrite (Hu c Hc).
  pose proof (c80_mass g v s f r1 r2 c H Hdb Hc) as M. fold rho_o rho in M.
  set (b := rho_o c + _) in *.
  assert (P : 0 < rho c).
  { apply rho_of_pos; auto. apply vof_step_range; [apply H|exact Hc]. }
  replace (U * (b / rho c) - U) with (- (U * ((rho c - b) * / rho c))) by (field; lra).
  rewrite Rabs_Ropp, !Rabs_mult, (Rabs_right (/ rho c)) by (apply Rle_ge, Rlt_le, Rinv_0_lt_compat, P).
  assert (I : 0 < / rho c) by (apply Rinv_0_lt_compat, P).
  unfold Rdiv. rewrite Rmult_assoc. apply Rmult_le_compat_l; [apply Rabs_pos|].
  apply Rmult_le_compat_r with (r := / rho c) in M; [|lra]. unfold Rdiv in M. lra.
Qed.

(** Advanced before the volume fraction, a uniform scalar is carried with the face densities of
    the step before and ends with them. *)
Theorem c80_scalar_before_vof : forall e g v isweep r1 r2 rc ms t S p, t <> DInvalid ->
  recon_ok rc ms g (ps_rho p) (rho_nph (ps_rho p) (ps_rho p)) ->
  exists p' q, scalars e g v isweep r1 r2 rc ms t (fun _ => 0) (fun _ => 0) [EqScalar; EqVof]
                (start_step p) (fun _ => S) = Ret (p', q) /\
    forall c, in_box (vdom g) c ->
      q c = S * ((ps_rho p c + ve_dt v * conv_rate (vgrid g) (mass_flux (ve_vel v) (ps_adv p)) c) / ps_rho p c).
Proof.
  intros e g v s r1 r2 rc ms t U p Ht Hr.
  cbn [scalars]. unfold start_step; cbn [ps_adv ps_rho_o ps_rho ps_vof_o ps_vof].
  destruct (uniform_scalar_flux rc ms g (ve_vel v) (ps_adv p) (ps_vof p) (ps_rho p) (rho_nph (ps_rho p) (ps_rho p)) U Hr) as (F & E & HF).
  rewrite E.
  destruct (uniform_moved g (ve_dt v) (ve_vel v) (ps_adv p) (ps_rho p) (ps_rho p) U (fun _ => U) t F Ht) as (u & Eu & Hu); auto.
  { intros d c Hd Hc. apply HF. split; assumption. }
  rewrite Eu. cbn [obind]. eexists. exists u. split; [reflexivity|]. exact Hu.
Qed.

(** ** Away from the interface *)

(** Where the cells around a face hold one phase only, the flux is the flux of godunov_type times
    the density of that phase; nothing of mflux_type is left. *)
Theorem c80_single_phase : forall g v isweep f r1 r2 rc ms q qn src w d c rho_o rho_n,
  two_phase_step g v isweep f -> ms <> MOther -> (d = 0 \/ d = 1 \/ d = 2)%Z -> w = 0 \/ w = 1 ->
  (forall x, near c x \/ near (down c d) x -> in_box (vdom g) x /\ f x = w) ->
  exists H, icns_flux rc ms (ve_vel v) (face_rho eps64 r1 r2 g v isweep f) f rho_o rho_n q qn src = Ret H /\
    H d c = (if Req_EM_T w 1 then r1 else r2) * (ve_vel v d c * rc_main rc q qn src d c).
Proof.
  intros g v s f r1 r2 rc ms q qn src w d c rho_o rho_n (Hs & Hk & Hv & Hcfl & Hdiv & Hdx & Hdt & Rf) Hm Hd Hw Hp.
  assert (B1 : band f c = false) by (apply band_off with w; auto; intros x Hx; apply Hp; auto).
  assert (B2 : band f (shift c d (-1)) = false) by (rewrite shift_down; apply band_off with w; auto; intros x Hx; apply Hp; auto).
  pose proof (pure_adv eps64 g v s f d c w ltac:(left; apply eps_pos) Hw Hs Hd Hdt Hdx Hk Hp) as A.
  unfold icns_flux, hybrid_fluxes.
  assert (X : forall E, (ve_vel v d c * E) * face_rho eps64 r1 r2 g v s f d c
            = (if Req_EM_T w 1 then r1 else r2) * (ve_vel v d c * E)).
  { intros E. unfold face_rho, adv_rho. set (a := adv_alpha eps64 g v s f d c) in *.
    replace (ve_vel v d c * E * (r1 * a + r2 * (1 - a))) with (E * (r1 * (ve_vel v d c * a) + r2 * (ve_vel v d c - ve_vel v d c * a))) by ring.
    rewrite A. destruct (Req_EM_T w 1) as [->|N]; [ring|]. destruct Hw as [-> | ->]; [ring|congruence]. }
  destruct ms; [| |congruence]; (eexists; split; [reflexivity|]); cbv beta; rewrite B1, B2; cbn [orb]; apply X.
Qed.

(** ** First-order upwinding *)

(** With first-order upwinding in both roles every face carries the velocity of the cell the mass
    comes from, near the interface and away from it alike. *)
Theorem c80_donor : forall ms um adv vof_o rho_o rho_n q qn src d c,
  ms <> MOther -> (forall x, rho_o x <> 0) ->
  exists H, icns_flux (donor_recon um) ms um adv vof_o rho_o rho_n q qn src = Ret H /\
    H d c = mass_flux um adv d c * q (if Rlt_dec (um d c) 0 then c else down c d).
Proof.
  intros ms um adv vof_o rho_o rho_n q qn src d c Hm Hr.
  unfold icns_flux, hybrid_fluxes, donor_recon, mass_flux; cbn [rc_main rc_mom rc_den].
  destruct ms; [| |congruence]; (eexists; split; [reflexivity|]); cbv beta;
    destruct (band vof_o c || band vof_o (shift c d (-1)))%bool; unfold donor_edge; rewrite ?shift_down;
    destruct (Rlt_dec (um d c) 0); field; apply Hr.
Qed.

(** With a source traced to the face over a time [k] (for the velocity: an acceleration; for a
    scalar: a rate per volume): the velocity on a face is that of the upwind cell plus [k] times
    its acceleration.  A scalar on a face gets [k] times the rate divided by a density, the
    half-time one away from the interface and the old one near it. *)
Theorem c80_traced : forall ms um adv vof_o rho_o rho_n q qn src k d c,
  let x := if Rlt_dec (um d c) 0 then c else down c d in
  ms <> MOther -> (forall x, rho_o x <> 0) ->
  exists H S, icns_flux (traced_recon um k) ms um adv vof_o rho_o rho_n q qn src = Ret H /\
    H d c = mass_flux um adv d c * (q x + k * src x) /\
    scalar_flux (traced_recon um k) ms um adv vof_o rho_o rho_n q qn src = Ret S /\
    (band vof_o c = false -> band vof_o (down c d) = false -> S d c = mass_flux um adv d c * (q x + k * (src x / rho_n x))) /\
    (band vof_o c = true \/ band vof_o (down c d) = true -> S d c = mass_flux um adv d c * (q x + k * (src x / rho_o x))).
Proof.
  intros ms um adv vof_o rho_o rho_n q qn src k d c x Hm Hr.
  unfold icns_flux, scalar_flux, hybrid_fluxes, traced_recon, mass_flux; cbn [rc_main rc_mom rc_den].
  destruct ms; [| |congruence]; (eexists; eexists; split; [reflexivity|]); cbv beta zeta; unfold traced_edge; rewrite ?shift_down;
    fold x; pose proof (Hr x) as Hx;
    (split; [destruct (band vof_o c || band vof_o (down c d))%bool; field; exact Hx|]);
    (split; [reflexivity|]); cbv beta zeta; rewrite ?shift_down; fold x;
    (split; [intros -> ->; cbn [orb]; cbv iota; ring|intros B]);
    (assert (Z : (band vof_o c || band vof_o (down c d))%bool = true) by (apply Bool.orb_true_iff; exact B));
    rewrite Z; cbv iota zeta; field; exact Hx.
Qed.

(** ** Momentum *)

(** Whatever the velocity and the reconstruction: with no source and no diffusion the momentum of
    a domain closed by walls or periodic does not change. *)
Theorem c80_momentum : forall g v e isweep f r1 r2 rc ms q qn t H,
  box_ok (vdom g) -> vel_ok g v -> keeps_valid (vdom g) (ve_fill v) -> 0 < r1 -> 0 < r2 -> t <> DInvalid ->
  icns_flux rc ms (ve_vel v) (face_rho e r1 r2 g v isweep f) f (old_rho r1 r2 f) (half_rho e r1 r2 g v isweep f) q qn (fun _ => 0) = Ret H ->
  (forall d c, (d = 0 \/ d = 1 \/ d = 2)%Z -> is_wall (vbclo g d) = false -> H d (opposite (vdom g) d c) = H d c) ->
  exists u, moved g (ve_dt v) (old_rho r1 r2 f) (new_rho e r1 r2 g v isweep f) q (fun _ => 0) (fun _ => 0) t (Ret H) = Ret u /\
    total (vdom g) (fun c => new_rho e r1 r2 g v isweep f c * u c) = total (vdom g) (fun c => old_rho r1 r2 f c * q c).
Proof.
  intros g v e s f r1 r2 rc ms q qn t H Hb Hv Hk H1 H2 Ht E Hper.
  destruct (moved_zero g (ve_dt v) (old_rho r1 r2 f) (new_rho e r1 r2 g v s f) q H t Ht) as (u & Eu & Hu).
  exists u. split; [exact Eu|].
  assert (Z : forall d, (d = 0 \/ d = 1 \/ d = 2)%Z -> total (vdom g) (fun c => H d c - H d (up c d)) = 0).
  { intros d Hd. rewrite telescope by (apply box_ok_icomp; exact Hb). apply total_zero. intros c Hc.
    destruct (Hv d Hd) as [Ws [[Wl Wh]|(Wl & Wh & Pv)]].
    - assert (ZF : forall x, ve_vel v d x = 0 -> H d x = 0).
      { intros x Zx. unfold icns_flux, hybrid_fluxes in E. destruct ms; try discriminate; injection E as <-; cbv beta;
          rewrite Zx; destruct (band f x || band f (shift x d (-1)))%bool; unfold Rdiv; ring. }
      assert (Ec : icomp c d = icomp (blo (vdom g)) d) by box_lia d.
      assert (Eo : icomp (opposite (vdom g) d c) d = (icomp (bhi (vdom g)) d + 1)%Z) by (rewrite opposite_shift; box_lia d).
      rewrite !ZF; [ring| |]; apply Ws; unfold VofSetting.wall_face.
      + rewrite Eo, Wh, Z.eqb_refl. apply Bool.orb_true_r.
      + rewrite Ec, Wl, Z.eqb_refl. reflexivity.
    - rewrite Hper by auto. ring. }
  assert (P : forall c, in_box (vdom g) c -> 0 < new_rho e r1 r2 g v s f c).
  { intros c Hc. apply rho_of_pos; auto. apply vof_step_range; [exact Hk|exact Hc]. }
  rewrite (total_ext _ _ (fun c => old_rho r1 r2 f c * q c
     + ((H 0%Z c - H 0%Z (up c 0)) * (ve_dt v * / vdx g 0) + (H 1%Z c - H 1%Z (up c 1)) * (ve_dt v * / vdx g 1)
        + (H 2%Z c - H 2%Z (up c 2)) * (ve_dt v * / vdx g 2)))).
  - rewrite !total_plus, !total_scale, !Z by auto. ring.
  - intros c Hc. rewrite Hu. specialize (P c Hc). unfold conv_rate, vgrid; cbn [gr_dx]. rewrite !shift_up.
    set (rn := new_rho e r1 r2 g v s f c) in *. unfold Rdiv.
    match goal with |- rn * (?a * / rn) = _ => set (A := a); assert (N : rn <> 0) by lra; replace (rn * (A * / rn)) with (A * (rn * / rn)) by ring; rewrite Rinv_r by exact N; unfold A end. ring.
Qed.

(** A uniform velocity under a uniform acceleration: if the reconstruction of a face adds the same
    multiple [k] of the source in both roles, the face carries the same velocity whether it lies
    near the interface or not. *)
Theorem c80_accelerated_flux : forall rc ms um adv vof_o rho_o rho_n q qn src U a k d c,
  ms <> MOther -> (forall x, q x = U) -> (forall x, src x = a) ->
  rc_main rc q qn src d c = U + k * a ->
  rc_den rc ms rho_o rho_o (fun _ => 0) d c <> 0 ->
  (forall p pn s, (forall x, p x = U * rho_o x) -> (forall x, s x = a * rho_o x) ->
     rc_mom rc ms p pn s d c = (U + k * a) * rc_den rc ms rho_o rho_o (fun _ => 0) d c) ->
  exists H, icns_flux rc ms um adv vof_o rho_o rho_n q qn src = Ret H /\ H d c = (U + k * a) * mass_flux um adv d c.
Proof.
  intros rc ms um adv vof_o rho_o rho_n q qn src U a k d c Hm Hq Hs Hmain Hden Hmom.
  assert (M : rc_mom rc ms (fun x => q x * rho_o x) (fun x => qn x * rho_n x) (fun x => src x * rho_o x) d c
     = (U + k * a) * rc_den rc ms rho_o rho_o (fun _ => 0) d c).
  { apply Hmom; intros x; [rewrite Hq|rewrite Hs]; reflexivity. }
  unfold icns_flux, hybrid_fluxes, mass_flux.
  destruct ms; [| |congruence]; (eexists; split; [reflexivity|]); cbv beta;
    destruct (band vof_o c || band vof_o (shift c d (-1)))%bool; cbv iota; rewrite ?M, ?Hmain; field; exact Hden.
Qed.

(** ** Inflow *)

(** On a boundary face where the reconstruction takes the prescribed value (that of the ghost cell,
    from the half-time state where one is given), near the interface: the carried velocity is the
    prescribed velocity times the ratio of the half-time to the old density of the ghost cell. *)
Definition takes_boundary (E : edge_fn) (d : Z) (c : ivec) : Prop := forall q qn s, E q qn s d c = qn (down c d).
Theorem c80_inflow : forall rc ms um adv vof_o rho_o rho_n q qn src d c,
  ms <> MOther -> takes_boundary (rc_main rc) d c -> takes_boundary (rc_mom rc ms) d c -> takes_boundary (rc_den rc ms) d c ->
  rho_o (down c d) <> 0 ->
  exists H, icns_flux rc ms um adv vof_o rho_o rho_n q qn src = Ret H /\
    (band vof_o c = false -> band vof_o (down c d) = false -> H d c = mass_flux um adv d c * qn (down c d)) /\
    (band vof_o c = true \/ band vof_o (down c d) = true ->
       H d c = mass_flux um adv d c * (qn (down c d) * (rho_n (down c d) / rho_o (down c d)))).
Proof.
  intros rc ms um adv vof_o rho_o rho_n q qn src d c Hm H0 H1 H2 Hr.
  unfold icns_flux, hybrid_fluxes, mass_flux.
  destruct ms; [| |congruence]; (eexists; split; [reflexivity|]); cbv beta; rewrite shift_down;
    (split; [intros -> ->; cbn [orb]; cbv iota zeta; rewrite ?(H0 _ _ _); ring|intros B]);
    (assert (Z : (band vof_o c || band vof_o (down c d))%bool = true) by (apply Bool.orb_true_iff; exact B)); rewrite Z; cbv iota zeta; rewrite ?(H1 _ _ _), ?(H2 _ _ _); field; exact Hr.
Qed.
Definition in_f (c : ivec) : R := if (iv0 c =? -1)%Z then 0 else / 2.
(** So the prescribed velocity itself is carried only if the density prescribed at the boundary does
    not change during the step.  Air before and half water after, next to a cell with an interface:
    the velocity that enters is 250.75 times the prescribed one. *)
Theorem c80_inflow_refuted :
  let c := IV 0 0 0 in let ghost := down c 0 in
  let rho_o := rho_of 1000 1 in_f in
  let rho := fun x => if (iv0 x =? -1)%Z then rho_of 1000 1 (fun _ => / 2) x else rho_o x in
  let bnd : edge_fn := fun _ qn _ d x => qn (down x d) in
  rho_o ghost = 1 /\
  exists H, icns_flux (RC bnd (fun _ => bnd) (fun _ => bnd)) MUpwind (fun _ _ => 1) (fun _ _ => 1) in_f rho_o (rho_nph rho_o rho) (fun _ => 1) (fun _ => 1) (fun _ => 0) = Ret H /\
    H 0%Z c = 250.75.
Proof.
  intros c ghost rho_o rho bnd.
  assert (R0 : rho_o ghost = 1) by (unfold rho_o, rho_of, ghost, c, in_f; cbn; lra).
  split; [exact R0|].
  destruct (c80_inflow (RC bnd (fun _ => bnd) (fun _ => bnd)) MUpwind (fun _ _ => 1) (fun _ _ => 1) in_f rho_o (rho_nph rho_o rho) (fun _ => 1) (fun _ => 1) (fun _ => 0) 0 c)
    as (H & E & _ & HB); try (intros q qn s; reflexivity); [discriminate|fold ghost; rewrite R0; lra|].
  exists H. split; [exact E|]. rewrite HB.
  - fold ghost. unfold mass_flux, rho_nph. rewrite R0. unfold rho, ghost, c, rho_of; cbn. lra.
  - left. apply band_on with c; [unfold near; lia|]. unfold in_f, c; cbn. unfold tight_tol. lra.
Qed.

(** ** Removal of debris *)

(** The step without the removal of isolated cells. *)
Definition keep_debris (v : venv) : venv := VE (ve_vel v) (ve_dt v) (ve_fill v) None.
(** A cell emptied by the removal keeps the momentum of the liquid that was taken away: its
    velocity is multiplied by the ratio of the densities before and after. *)
Theorem c80_debris : forall g v isweep f r1 r2 rc ms t U c,
  two_phase_step g v isweep f -> 0 < r1 -> 0 < r2 -> t <> DInvalid ->
  let rho_o := old_rho r1 r2 f in let rho := new_rho 0 r1 r2 g v isweep f in
  let rho_n := half_rho 0 r1 r2 g v isweep f in
  recon_ok rc ms g rho_o rho_n -> in_box (vdom g) c -> vof_step 0 g v isweep f c = 0 ->
  exists u, moved g (ve_dt v) rho_o rho (fun _ => U) (fun _ => 0) (fun _ => 0) t
              (icns_flux rc ms (ve_vel v) (face_rho 0 r1 r2 g v isweep f) f rho_o rho_n (fun _ => U) (fun _ => U) (fun _ => 0)) = Ret u /\
    u c = U * (1 + vof_step 0 g (keep_debris v) isweep f c * ((r1 - r2) / r2)).
Proof.
  intros g v s f r1 r2 rc ms t U c H H1 H2 Ht rho_o rho rho_n Hr Hc Hz.
  destruct (c80_uniform_flux rc ms g (ve_vel v) (face_rho 0 r1 r2 g v s f) f rho_o rho_n U Hr) as (F & E & HF).
  rewrite E.
  destruct (uniform_moved g (ve_dt v) (ve_vel v) (face_rho 0 r1 r2 g v s f) rho_o rho U (fun _ => U) t F Ht) as (u & Eu & Hu); auto.
  { intros d x Hd Hx. apply HF. split; assumption. }
  exists u. split; [exact Eu|]. rewrite (Hu c Hc).
  assert (ST : forall k, stage 0 g (keep_debris v) s f k = stage 0 g v s f k).
  { intros [|[|k]]; [reflexivity| |].
    - rewrite (stage_sweep1 0 g v), (stage_sweep1 0 g (keep_debris v)). reflexivity.
    - change (stage 0 g (keep_debris v) s f 2 = stage 0 g v s f 2).
      rewrite (stage_sweep2 0 g v), (stage_sweep2 0 g (keep_debris v)), (stage_sweep1 0 g v), (stage_sweep1 0 g (keep_debris v)). reflexivity. }
  pose proof (c80_mass_exact g (keep_debris v) s f r1 r2 c H eq_refl Hc) as M.
  assert (FR : face_rho 0 r1 r2 g (keep_debris v) s f = face_rho 0 r1 r2 g v s f).
  { unfold face_rho, adv_rho. unfold adv_alpha. 
    assert (Q : forall d x, (let k := if (sweep_dir (s + 0) =? d)%Z then 0%nat else if (sweep_dir (s + 1) =? d)%Z then 1%nat else 2%nat in
        face_fraction 0 g d (ve_dt (keep_debris v)) (ve_vel (keep_debris v) d) (stage 0 g (keep_debris v) s f k) x)
       = (let k := if (sweep_dir (s + 0) =? d)%Z then 0%nat else if (sweep_dir (s + 1) =? d)%Z then 1%nat else 2%nat in
        face_fraction 0 g d (ve_dt v) (ve_vel v d) (stage 0 g v s f k) x)).
    { intros d x. cbv zeta. rewrite ST. reflexivity. }
    apply FunctionalExtensionality.functional_extensionality; intros d.
    apply FunctionalExtensionality.functional_extensionality; intros x. rewrite Q. reflexivity. }
  rewrite FR in M. change (ve_vel (keep_debris v)) with (ve_vel v) in M. change (ve_dt (keep_debris v)) with (ve_dt v) in M.
  fold rho_o in M. rewrite <- M. unfold rho, new_rho, rho_of. rewrite Hz. field. lra.
Qed.

(** ** Cases *)
Lemma donor_keeps : forall um, keeps_constants (donor_edge um).
Proof. intros um U q qn s d c A B C. unfold donor_edge. destruct Rlt_dec; apply A. Qed.
Lemma donor_ok : forall um ms g rho_o rho_n, ms <> MOther -> (forall x, rho_o x <> 0) -> recon_ok (donor_recon um) ms g rho_o rho_n.
Proof.
  intros um ms g rho_o rho_n Hm Hr. split; [exact Hm|]. split; [apply donor_keeps|].
  intros d c _. unfold favre_ok, donor_recon, donor_edge; cbn [rc_den rc_mom]. cbv zeta. split.
  - destruct Rlt_dec; apply Hr.
  - intros U q qn s A B C. destruct Rlt_dec; apply A.
Qed.
Lemma water_air_pos : forall f x, 0 <= f x <= 1 -> rho_of 1000 1 f x <> 0.
Proof. intros f x H. unfold rho_of. apply Rgt_not_eq. lra. Qed.

(** The vortex in a closed box of PropVof.v, water and air, first-order upwinding. *)
Example c80_example : two_phase_step ex_g ex_env 1 ex_f /\ ve_debris ex_env = None /\
  recon_ok (donor_recon ex_vel) MUpwind ex_g (old_rho 1000 1 ex_f) (half_rho eps64 1000 1 ex_g ex_env 1 ex_f) /\
  mass_flux ex_vel (face_rho eps64 1000 1 ex_g ex_env 2 ex_f) 0 (IV 1 0 0) = 1000.
Proof.
  destruct c27_ex as (A & B & C & D & E & F & G & H & I).
  split; [|split; [reflexivity|split]].
  - split; [lia|]. split; [apply B|]. split; [exact C|]. split; [exact E|]. split; [exact F|].
    split; [intros; cbn; lra|]. split; [cbn; lra|exact H].
  - apply donor_ok; [discriminate|]. intros x. apply water_air_pos. unfold ex_f. destruct (_ =? _)%Z; lra.
  - unfold mass_flux, face_rho, adv_rho, adv_alpha. change (sweep_dir (2 + 0) =? 0)%Z with true. cbv iota zeta.
    change (stage eps64 ex_g ex_env 2 ex_f 0) with ex_f.
    pose proof c27_ex_moves as M. unfold face_flux in M. change (ve_dt ex_env) with (/ 8). change (ve_vel ex_env 0%Z) with (ex_vel 0%Z).
    change (ex_vel 0 (IV 1 0 0)) with 1 in *. set (a := face_fraction _ _ _ _ _ _ _) in *. lra.
Qed.

(** *** A droplet of one cell in still air *)
Definition dr_g : vgeom := VG (Box (IV 0 0 0) (IV 2 2 2)) (fun _ => 1) (fun _ => bc_slip_wall) (fun _ => bc_slip_wall).
Definition dr_f (c : ivec) : R := if (iv0 c =? 1)%Z && (iv1 c =? 1)%Z && (iv2 c =? 1)%Z then 1 else 0.
Definition dr_env : venv := VE (fun _ _ => 0) 1 (fun f => f) (Some [(Box (IV 0 0 0) (IV 2 2 2), [IV 1 1 1])]).

Lemma still_raw : forall e g d dt f C c, balance_raw e g d dt (fun _ => 0) f C c = f c.
Proof. intros. unfold balance_raw, face_flux. ring. Qed.
Lemma still_sweep : forall e g v C f d c, (forall x, ve_vel v d x = 0) -> keeps_valid (vdom g) (ve_fill v) ->
  in_box (vdom g) c -> 0 <= f c <= 1 -> one_sweep e g v C f d c = f c.
Proof.
  intros e g v C f d c Hv Hk Hc Hf. unfold one_sweep. rewrite Hk by exact Hc. unfold sweep.
  rewrite (proj2 (in_boxb_spec _ _) Hc). unfold balance.
  assert (E : balance_raw e g d (ve_dt v) (ve_vel v d) f C c = f c).
  { unfold balance_raw, face_flux. rewrite !Hv. ring. }
  rewrite E. apply clip01_id. exact Hf.
Qed.
Lemma dr_step : two_phase_step dr_g dr_env 1 dr_f.
Proof.
  split; [lia|]. split; [intros f c _; reflexivity|]. split.
  { intros d Hd. split; [intros c _; reflexivity|left; split; reflexivity]. }
  split. { intros c Hc. unfold dirs_sum, out_width, in_width. cbn. unfold Rmax; repeat destruct Rle_dec; lra. }
  split. { intros c Hc. cbn. lra. }
  split; [intros; cbn; lra|]. split; [cbn; lra|]. intros c Hc. unfold dr_f. destruct (_ && _)%bool; lra.
Qed.
(** With the default VOF.remove_debris a full cell alone in the air is emptied, its momentum
    stays: from a uniform velocity of 1 and with every face at rest the air of that cell ends at
    the ratio of the densities, here 1000. *)
Theorem c80_debris_refuted :
  two_phase_step dr_g dr_env 1 dr_f /\ (forall d x, ve_vel dr_env d x = 0) /\
  exists u, moved dr_g (ve_dt dr_env) (old_rho 1000 1 dr_f) (new_rho eps64 1000 1 dr_g dr_env 1 dr_f) (fun _ => 1) (fun _ => 0) (fun _ => 0) DCrank
      (icns_flux (donor_recon (ve_vel dr_env)) MUpwind (ve_vel dr_env) (face_rho eps64 1000 1 dr_g dr_env 1 dr_f) dr_f
         (old_rho 1000 1 dr_f) (half_rho eps64 1000 1 dr_g dr_env 1 dr_f) (fun _ => 1) (fun _ => 1) (fun _ => 0)) = Ret u /\
    u (IV 1 1 1) = 1000.
Proof.
  split; [exact dr_step|]. split; [reflexivity|].
  assert (RF : forall x, 0 <= dr_f x <= 1) by (intros x; unfold dr_f; destruct (_ && _)%bool; lra).
  assert (RO : recon_ok (donor_recon (ve_vel dr_env)) MUpwind dr_g (old_rho 1000 1 dr_f) (half_rho eps64 1000 1 dr_g dr_env 1 dr_f)).
  { apply donor_ok; [discriminate|]. intros x. apply water_air_pos, RF. }
  destruct (c80_uniform_flux _ _ dr_g (ve_vel dr_env) (face_rho eps64 1000 1 dr_g dr_env 1 dr_f) dr_f _ _ 1 RO) as (F & E & HF).
  rewrite E.
  destruct (uniform_moved dr_g (ve_dt dr_env) (ve_vel dr_env) (face_rho eps64 1000 1 dr_g dr_env 1 dr_f) (old_rho 1000 1 dr_f)
    (new_rho eps64 1000 1 dr_g dr_env 1 dr_f) 1 (fun _ => 1) DCrank F) as (u & Eu & Hu); auto; [discriminate| |].
  { intros d c Hd Hc. apply HF. split; assumption. }
  exists u. split; [exact Eu|].
  rewrite Hu by (unfold in_box; cbn; lia).
  assert (VN : vof_step eps64 dr_g dr_env 1 dr_f (IV 1 1 1) = 0).
  { unfold vof_step. set (C := c_mask dr_f). set (f1 := split_step eps64 dr_g dr_env 1 0 C dr_f). set (f2 := split_step eps64 dr_g dr_env 1 1 C f1).
    assert (I1 : forall x, f1 x = dr_f x).
    { intros x. unfold f1, split_step, dr_env; cbn [ve_debris ve_fill ve_dt ve_vel]. cbn [Z.eqb]. unfold sweep.
      destruct (in_boxb _ _); [|reflexivity]. unfold balance. rewrite still_raw. apply clip01_id, RF. }
    assert (I2 : forall x, f2 x = dr_f x).
    { intros x. unfold f2, split_step, dr_env; cbn [ve_debris ve_fill ve_dt ve_vel]. cbn [Z.eqb Pos.eqb]. unfold sweep.
      destruct (in_boxb _ _); [|apply I1]. unfold balance. rewrite still_raw, I1. apply clip01_id, RF. }
    unfold split_step, dr_env; cbn [ve_debris ve_fill ve_dt ve_vel]. cbn [Z.eqb Pos.eqb].
    set (f3 := sweep eps64 dr_g _ _ _ f2 C).
    assert (I3 : forall x, f3 x = dr_f x).
    { intros x. unfold f3, sweep. destruct (in_boxb _ _); [|apply I2]. unfold balance. rewrite still_raw, I2. apply clip01_id, RF. }
    cbn [debris_level fst]. change (in_boxb (Box (IV 0 0 0) (IV 2 2 2)) (IV 1 1 1)) with true. cbv iota.
    unfold debris_box, debris_loop; cbn [snd fst fold_left].
    set (h := fun c => if in_boxb (Box (IV 0 0 0) (IV 2 2 2)) c then f3 c else f2 c).
    assert (Hh : forall x, h x = dr_f x) by (intros x; unfold h; destruct (in_boxb _ _); [apply I3|apply I2]).
    unfold debris1. rewrite !Hh. unfold dr_f, shift, small_vof; cbn.
    rewrite (proj2 (Rltb_spec 0 1)) by lra. rewrite (proj2 (Rltb_spec 0 (/ 1000000))) by lra. reflexivity. }
  assert (Z : conv_rate (vgrid dr_g) (mass_flux (ve_vel dr_env) (face_rho eps64 1000 1 dr_g dr_env 1 dr_f)) (IV 1 1 1) = 0).
  { unfold conv_rate, mass_flux, dr_env; cbn [ve_vel]. ring. }
  rewrite Z. unfold new_rho, old_rho, rho_of. rewrite VN. unfold dr_f; cbn. lra.
Qed.

(** *** Half water, half air moving through a periodic row of two cells *)
Definition or_g : vgeom := VG (Box (IV 0 0 0) (IV 1 0 0)) (fun _ => 1) (fun _ => bc_periodic) (fun _ => bc_periodic).
Definition or_f (c : ivec) : R := if (iv0 c mod 2 =? 0)%Z then 1 else 0.
Definition or_env : venv := VE (fun d _ => if (d =? 0)%Z then 1 else 0) (/ 4) (fun h c => h (IV (iv0 c mod 2) 0 0)) None.

Lemma or_dom : forall c, in_box (vdom or_g) c -> c = IV 0 0 0 \/ c = IV 1 0 0.
Proof.
  intros [i j k] H. unfold in_box, or_g in H; cbn in H.
  assert (i = 0 \/ i = 1)%Z as [-> | ->] by lia; assert (j = 0)%Z as -> by lia; assert (k = 0)%Z as -> by lia; auto.
Qed.
Lemma or_valid : keeps_valid (vdom or_g) (ve_fill or_env).
Proof. intros h c Hc. destruct (or_dom c Hc) as [-> | ->]; reflexivity. Qed.
Lemma or_step : two_phase_step or_g or_env 2 or_f.
Proof.
  split; [lia|]. split; [exact or_valid|]. split.
  { intros d Hd. split.
    - intros c W. unfold VofSetting.wall_face in W. cbn in W. discriminate.
    - right. split; [reflexivity|]. split; [reflexivity|]. intros c. reflexivity. }
  split. { intros c Hc. unfold dirs_sum, out_width, in_width. cbn. unfold Rmax; repeat destruct Rle_dec; lra. }
  split. { intros c Hc. cbn. lra. }
  split; [intros; cbn; lra|]. split; [cbn; lra|]. intros c Hc. unfold or_f. destruct (_ =? _)%Z; lra.
Qed.
Lemma or_face : forall i, 
  face_fraction eps64 or_g 0 (/ 4) (ve_vel or_env 0%Z) or_f (IV i 0 0) = or_f (IV (i - 1) 0 0).
Proof.
  intros i.
  assert (NW : ~ on_wall or_g 0 (IV i 0 0)) by (intros [[A _]|[A _]]; discriminate A).
  destruct (c28_full_or_empty or_g 0 (/ 4) (ve_vel or_env 0%Z) or_f (IV i 0 0)) as [A B]; auto; [lra|cbn; lra|cbn; lra|].
  assert (UP : upwind_cell (ve_vel or_env 0%Z) 0 (IV i 0 0) = IV (i - 1) 0 0).
  { unfold upwind_cell. cbn [or_env ve_vel Z.eqb]. destruct Rlt_dec; [reflexivity|lra]. }
  rewrite UP in A, B. revert A B. unfold or_f; cbn [iv0]. pose proof tiny_small.
  destruct (_ =? _)%Z; intros A B; [apply A|apply B; lra].
  rewrite Rminus_diag_eq by reflexivity. rewrite Rabs_R0. lra.
Qed.
Lemma or_new : vof_step eps64 or_g or_env 2 or_f (IV 0 0 0) = 3 / 4.
Proof.
  assert (C0 : in_box (vdom or_g) (IV 0 0 0)) by (unfold in_box; cbn; lia).
  rewrite vof_step_sweeps by reflexivity.
  change [sweep_dir (2 + 0); sweep_dir (2 + 1); sweep_dir (2 + 2)] with [0; 2; 1]%Z. cbn [fold_left].
  assert (X : one_sweep eps64 or_g or_env (c_mask or_f) or_f 0 (IV 0 0 0) = 3 / 4).
  { unfold one_sweep. rewrite or_valid by exact C0. unfold sweep. rewrite (proj2 (in_boxb_spec _ _) C0). unfold balance.
    assert (B : balance_raw eps64 or_g 0 (ve_dt or_env) (ve_vel or_env 0%Z) or_f (c_mask or_f) (IV 0 0 0) = 3 / 4).
    { unfold balance_raw, face_flux. change (shift (IV 0 0 0) 0 1) with (IV 1 0 0).
      change (ve_dt or_env) with (/ 4). rewrite !or_face. unfold or_f; cbn. lra. }
    rewrite B. apply clip01_id. lra. }
  set (f1 := one_sweep eps64 or_g or_env (c_mask or_f) or_f 0) in *.
  set (f2 := one_sweep eps64 or_g or_env (c_mask or_f) f1 2).
  assert (X2 : f2 (IV 0 0 0) = 3 / 4).
  { unfold f2. rewrite still_sweep; [exact X|reflexivity|exact or_valid|exact C0|rewrite X; lra]. }
  rewrite still_sweep; [exact X2|reflexivity|exact or_valid|exact C0|rewrite X2; lra].
Qed.
Lemma or_range : forall x, 0 <= vof_step eps64 or_g or_env 2 or_f x <= 1.
Proof.
  intros x.
  assert (E : vof_step eps64 or_g or_env 2 or_f x = vof_step eps64 or_g or_env 2 or_f (IV (iv0 x mod 2) 0 0)).
  { assert (P : forall s o C h, split_step eps64 or_g or_env s o C h x = split_step eps64 or_g or_env s o C h (IV (iv0 x mod 2) 0 0)).
    { intros. unfold split_step, or_env; cbn [ve_debris ve_fill iv0]. rewrite Z.mod_mod by lia. reflexivity. }
    apply P. }
  rewrite E. apply vof_step_range; [exact or_valid|].
  unfold in_box; cbn. pose proof (Z.mod_pos_bound (iv0 x) 2 ltac:(lia)). lia.
Qed.
(** A scalar registered before the volume fraction (incflo.physics = ABL MultiPhase) is advanced
    with the face densities of the step before (first step: of no step): a uniform scalar does
    not stay uniform, not even to a quarter of its value. *)
Theorem c80_order_refuted :
  ~ (forall g v isweep f r1 r2 rc ms t S adv0 rho1 f1 p' q c,
       two_phase_step g v isweep f -> ve_debris v = None -> 0 < r1 -> 0 < r2 -> t <> DInvalid ->
       let p := vof_advance eps64 g v isweep r1 r2 (PS adv0 (old_rho r1 r2 f) rho1 f f1) in
       recon_ok rc ms g (ps_rho p) (rho_nph (ps_rho p) (ps_rho p)) ->
       scalars eps64 g v (next_isweep isweep) r1 r2 rc ms t (fun _ => 0) (fun _ => 0) [EqScalar; EqVof] (start_step p) (fun _ => S) = Ret (p', q) ->
       in_box (vdom g) c -> Rabs (q c - S) <= Rabs S / 4).
Proof.
  intros K.
  set (p := vof_advance eps64 or_g or_env 2 1000 1 (PS (fun _ _ => 0) (old_rho 1000 1 or_f) (fun _ => 0) or_f or_f)).
  assert (RO : recon_ok (donor_recon (ve_vel or_env)) MUpwind or_g (ps_rho p) (rho_nph (ps_rho p) (ps_rho p))).
  { apply donor_ok; [discriminate|]. intros x. apply water_air_pos, or_range. }
  destruct (c80_scalar_before_vof eps64 or_g or_env (next_isweep 2) 1000 1 (donor_recon (ve_vel or_env)) MUpwind DCrank 300 p ltac:(discriminate) RO)
    as (p' & q & E & Hq).
  assert (C0 : in_box (vdom or_g) (IV 0 0 0)) by (unfold in_box; cbn; lia).
  specialize (K or_g or_env 2%Z or_f 1000 1 (donor_recon (ve_vel or_env)) MUpwind DCrank 300 (fun _ _ => 0) (fun _ => 0) or_f p' q (IV 0 0 0)
    or_step eq_refl ltac:(lra) ltac:(lra) ltac:(discriminate) RO E C0).
  rewrite (Hq _ C0) in K.
  assert (RH : ps_rho p (IV 0 0 0) = 3001 / 4).
  { cbn [p vof_advance ps_rho ps_vof_o]. unfold rho_of. rewrite or_new. lra. }
  assert (CR : conv_rate (vgrid or_g) (mass_flux (ve_vel or_env) (ps_adv p)) (IV 0 0 0) = - 999).
  { unfold conv_rate, mass_flux, vgrid; cbn [gr_dx]. change (shift (IV 0 0 0) 0 1) with (IV 1 0 0).
    change (ve_vel or_env 1%Z) with (fun _ : ivec => 0). change (ve_vel or_env 2%Z) with (fun _ : ivec => 0). cbv beta.
    assert (A : forall i, ps_adv p 0%Z (IV i 0 0) = 1000 * or_f (IV (i - 1) 0 0) + 1 * (1 - or_f (IV (i - 1) 0 0))).
    { intros i. cbn [p vof_advance ps_adv ps_vof_o]. unfold adv_rho, adv_alpha. change (sweep_dir (2 + 0) =? 0)%Z with true. cbv iota zeta.
      change (stage eps64 or_g or_env 2 or_f 0) with or_f. change (ve_dt or_env) with (/ 4). rewrite or_face. reflexivity. }
    rewrite !A. change (or_f (IV (0 - 1) 0 0)) with 0. change (or_f (IV (1 - 1) 0 0)) with 1.
    change (ve_vel or_env 0%Z) with (fun _ : ivec => 1). cbv beta. change (vdx or_g) with (fun _ : Z => 1). cbv beta. field. }
  rewrite RH, CR in K. change (ve_dt or_env) with (/ 4) in K.
  replace (300 * ((3001 / 4 + / 4 * - 999) / (3001 / 4)) - 300) with (- (300 * 999 / 3001)) in K by field.
  rewrite Rabs_Ropp, !Rabs_right in K by lra. lra.
Qed.

Print Assumptions c80_mass.
Print Assumptions c80_mass_exact.
Print Assumptions c80_uniform_flux.
Print Assumptions c80_uniform_step.
Print Assumptions c80_uniform_exact.
Print Assumptions c80_scalar_after_vof.
Print Assumptions c80_scalar_before_vof.
Print Assumptions c80_single_phase.
Print Assumptions c80_donor.
Print Assumptions c80_traced.
Print Assumptions c80_momentum.
Print Assumptions c80_accelerated_flux.
Print Assumptions c80_inflow.
Print Assumptions c80_inflow_refuted.
Print Assumptions c80_debris.
Print Assumptions c80_debris_refuted.
Print Assumptions c80_order_refuted.
