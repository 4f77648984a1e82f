(** Transport of momentum and of scalars across a liquid-gas interface:
    equation_systems/vof/vof_momentum_flux.H, its two callers (icns/icns_advection.H and
    AdvOp_Godunov.H), the face densities of physics/multiphase/MultiPhase.cpp and the order of
    the scalar equations (incflo_advance.cpp).

    Exact reals, one level, one box.  The edge states come from
    HydroUtils::ComputeFluxesOnBoxFromState of AMReX-Hydro, which is not part of the repository:
    they are arguments.  Not modelled: averaging of fluxes from finer levels, the convective
    (non-conservative) form, mesh mapping, overset. *)
From Coq Require Import Reals Lra ZArith List Bool Lia.
From Verif Require Import Base.
From Verif Require Import BoxR Plic VofAdvect MultiPhase Advance.
Import ListNotations.
Open Scope R_scope.

(** ** Face densities *)

(** The field before sweep 0, 1 or 2 of the step (vof_advection.H:59-122). *)
Definition stage (e : R) (g : vgeom) (v : venv) (isweep : Z) (f : fld) (k : nat) : fld :=
  match k with
  | O => f
  | S O => split_step e g v isweep 0 (c_mask f) f
  | _ => split_step e g v isweep 1 (c_mask f) (split_step e g v isweep 0 (c_mask f) f)
  end.
(** split_advection.H:145,164,181 with vof_advection.H:101-122: advalpha of direction [d] is
    written by the one sweep that runs along [d]. *)
Definition adv_alpha (e : R) (g : vgeom) (v : venv) (isweep : Z) (f : fld) (d : Z) (c : ivec) : R :=
  let k := if (sweep_dir (isweep + 0) =? d)%Z then 0%nat
           else if (sweep_dir (isweep + 1) =? d)%Z then 1%nat else 2%nat in
  face_fraction e g d (ve_dt v) (ve_vel v d) (stage e g v isweep f k) c.
(** MultiPhase.cpp:371-415 (calculate_advected_facedensity) *)
Definition adv_rho (r1 r2 : R) (alpha : Z -> fld) (d : Z) (c : ivec) : R := r1 * alpha d c + r2 * (1 - alpha d c).
(** MultiPhase.cpp:338-359 (set_density_via_vof), valid and ghost cells *)
Definition rho_of (r1 r2 : R) (f : fld) (c : ivec) : R := r1 * f c + r2 * (1 - f c).
(** MultiPhase.cpp:361-368 (set_nph_density) *)
Definition rho_nph (rho_o rho : fld) (c : ivec) : R := 1/2 * rho_o c + 1/2 * rho c.

(** ** The fluxes *)

(** The value ComputeFluxesOnBoxFromState puts on the low face of [c] along [d], from a state,
    the state at the half time level (used on boundaries) and a source. *)
Definition edge_fn : Type := fld -> fld -> fld -> Z -> fld.
(** incflo_enums.H has more schemes; the readers of incflo.mflux_type (icns_advection.H:137-144,
    AdvOp_Godunov.H:80-87) only produce the first two. *)
Inductive mscheme : Type := MUpwind | MMinmod | MOther.
(** [rc_main]: incflo.godunov_type and the boundary conditions of the variable; [rc_mom]: the
    limiter of mflux_type, same boundary conditions; [rc_den]: that limiter, boundary conditions
    of the density. *)
Record recon : Type := RC { rc_main : edge_fn; rc_mom : mscheme -> edge_fn; rc_den : mscheme -> edge_fn }.

(** volume_fractions.H:501-507: default arguments of interface_band *)
Definition band (f : fld) (c : ivec) : bool := interface_band f (iv0 c) (iv1 c) (iv2 c) 1 tight_tol.

(** vof_momentum_flux.H:11-251 (hybrid_fluxes).  [F] is the flux on entry, [q], [q_nph] the
    transported variable, [premul] pre_multiplied_src_term; the density flux at :196-205 is not
    multiplied by the face velocity, has no source and takes its own state on boundaries. *)
Definition hybrid_fluxes (rc : recon) (ms : mscheme) (premul : bool) (um adv : Z -> fld)
    (vof_o rho_o rho_n q q_nph src : fld) (F : Z -> fld) : outcome (Z -> fld) :=
  match ms with
  | MOther => Abort
  | _ =>
    let mom := rc_mom rc ms (fun c => q c * rho_o c) (fun c => q_nph c * rho_n c)
                 (fun c => if premul then src c else src c * rho_o c) in
    let den := rc_den rc ms rho_o rho_o (fun _ => 0) in
    Ret (fun d c =>
      let near := band vof_o c || band vof_o (shift c d (-1)) in
      let F1 := if near then um d c * mom d c else F d c in
      let F2 := if near then F1 / den d c else F1 in
      F2 * adv d c)
  end.

(** icns_advection.H:237-382 with a VOF field: one component of the velocity *)
Definition icns_flux (rc : recon) (ms : mscheme) (um adv : Z -> fld)
    (vof_o rho_o rho_n q q_nph src : fld) : outcome (Z -> fld) :=
  hybrid_fluxes rc ms false um adv vof_o rho_o rho_n q q_nph src
    (fun d c => um d c * rc_main rc q q_nph src d c).
(** AdvOp_Godunov.H:103-259 for an equation with multiply_rho and a VOF field *)
Definition scalar_flux (rc : recon) (ms : mscheme) (um adv : Z -> fld)
    (vof_o rho_o rho_n q q_nph src : fld) : outcome (Z -> fld) :=
  hybrid_fluxes rc ms true um adv vof_o rho_o rho_n q q_nph src
    (fun d c => um d c * rc_main rc q q_nph (fun x => src x / rho_n x) d c).

(** Mass through a face per time and area. *)
Definition mass_flux (um adv : Z -> fld) (d : Z) (c : ivec) : R := um d c * adv d c.

(** The level of the VOF model seen as a level of Advance.v; [per] is not used by conv_rate. *)
Definition vgrid (g : vgeom) : grid := GR (vdom g) (vdx g) (fun _ => false).

(** ** One step *)

(** One component of the velocity through the first advection of a step: advection term of the
    fluxes (icns_advection.H:411-415: minus the divergence), then the predictor
    (CompRHSOps.H:32-141) with density before and after.  [diff] is the diffusion term. *)
Definition moved (g : vgeom) (dt : R) (rho_o rho_n q src diff : fld) (t : dtype)
    (F : outcome (Z -> fld)) : outcome fld :=
  obind F (fun F => predictor_rhs
    (EQ true dt (fun _ => 1%Z) (fun _ => 1) rho_o rho_n q src) t (conv_rate (vgrid g) F) diff).

(** What a step knows of the two-phase state when an equation is advanced: face densities, old
    and new density. *)
Record phase_state : Type := PS { ps_adv : Z -> fld; ps_rho_o : fld; ps_rho : fld; ps_vof_o : fld; ps_vof : fld }.
(** vof_advection.H:46-137 and vof_ops.H:76-82: the volume-fraction equation *)
Definition vof_advance (e : R) (g : vgeom) (v : venv) (isweep : Z) (r1 r2 : R) (p : phase_state) : phase_state :=
  let f' := vof_step e g v isweep (ps_vof_o p) in
  PS (adv_rho r1 r2 (adv_alpha e g v isweep (ps_vof_o p))) (ps_rho_o p) (rho_of r1 r2 f') (ps_vof_o p) f'.
(** PDEBase.cpp:84-94 (advance_states), Field.cpp:300-317: old becomes a copy of new, new stays;
    so does the density with the default incflo.constant_density *)
Definition start_step (p : phase_state) : phase_state := PS (ps_adv p) (ps_rho p) (ps_rho p) (ps_vof p) (ps_vof p).
(** incflo_advance.cpp:310-349: the scalars in the order of registration, here one scalar and the
    volume fraction; the result is the two-phase state and the scalar. *)
Inductive eq_kind : Type := EqVof | EqScalar.
Fixpoint scalars (e : R) (g : vgeom) (v : venv) (isweep : Z) (r1 r2 : R) (rc : recon) (ms : mscheme)
    (t : dtype) (src diff : fld) (eqs : list eq_kind) (p : phase_state) (q : fld) : outcome (phase_state * fld) :=
  match eqs with
  | nil => Ret (p, q)
  | EqVof :: r => scalars e g v isweep r1 r2 rc ms t src diff r (vof_advance e g v isweep r1 r2 p) q
  | EqScalar :: r =>
      obind (moved g (ve_dt v) (ps_rho_o p) (ps_rho p) q src diff t
               (scalar_flux rc ms (ve_vel v) (ps_adv p) (ps_vof_o p) (ps_rho_o p)
                  (rho_nph (ps_rho_o p) (ps_rho p)) q q src))
        (fun q' => scalars e g v isweep r1 r2 rc ms t src diff r p q')
  end.
