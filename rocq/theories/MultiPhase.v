(** Two-phase mixture properties: amr-wind/physics/multiphase/MultiPhase.cpp,
    hydrostatic_ops.H, amr-wind/transport_models/TwoPhaseTransport.H and
    amr-wind/ocean_waves/utils/wave_utils_K.H (free_surface_to_vof).  Exact
    reals.  [eps] is the interface half width cbrt(2 dx dy dz), which enters as
    an arbitrary positive number. *)
From Verif Require Import BoxR.
Open Scope R_scope.

(** MultiPhase.cpp:353-355 (set_density_via_vof), 398-412
    (calculate_advected_facedensity), TwoPhaseTransport.H:153-155 (mu). *)
Definition mix (a1 a2 f : R) : R := a1 * f + a2 * (1 - f).
(** TwoPhaseTransport.H:223-225 (alpha). *)
Definition thermal_mix (mu1 pr1 mu2 pr2 f : R) : R := mu1 / pr1 * f + mu2 / pr2 * (1 - f).
(** TwoPhaseTransport.H:271-283 (scalar_diffusivity). *)
Definition scalar_mix (mu1 mu2 schmidt f : R) : R := mix mu1 mu2 f * (1 / schmidt).

(** MultiPhase.cpp:316-329, TwoPhaseTransport.H:177-191: smoothed Heaviside of
    the level set. *)
Definition heaviside (eps phi : R) : R :=
  if Rltb eps phi then 1
  else if Rltb phi (- eps) then 0
  else / 2 * (1 + phi / eps + 1 / PI * sin (phi * PI / eps)).

(** TwoPhaseTransport.H:303-360 (beta_impl) at one cell: [base] is the value of
    the first three branches; [inl f]: volume fraction, [inr (eps, phi)]: level
    set.  constants::TIGHT_TOL = 1000 machine epsilons. *)
Definition tight_tol : R := / 4503599627370496 * 1000.
Definition beta_base (constant_beta tref : R) (tfield : option R) : R :=
  if Rltb 0 constant_beta then constant_beta
  else match tfield with Some t => 1 / t | None => 1 / tref end.
Definition beta_cell (base : R) (iface : R + (R * R)) : R :=
  match iface with
  | inl f => if Rltb tight_tol f then 0 else base
  | inr (eps, phi) => base * (1 - heaviside eps phi)
  end.

(** wave_utils_K.H:16-33. *)
Definition free_surface_to_vof (eta z dz : R) : R :=
  if Rleb (dz / 2) (eta - z) then 1
  else if Rleb (eta - z) (- dz / 2) then 0
  else if Rltb (Rabs (eta - z)) (dz / 2) then
    if Rleb eta z then 1 - (z - eta + dz / 2) / dz
    else (eta - z + dz / 2) / dz
  else 0.

(** hydrostatic_ops.H:22-30 (define_rho0): cell [k]. *)
Definition rho0_vof (problo dz wlev : R) (k : Z) : R :=
  let zbtm := problo + IZR k * dz in
  rmax (rmin 1 ((wlev - zbtm) / dz)) 0.
Definition rho0 (rho1 rho2 problo dz wlev : R) (k : Z) : R :=
  let vof := rho0_vof problo dz wlev k in vof * rho1 + (1 - vof) * rho2.

(** hydrostatic_ops.H:48-63 (define_p0): node [k]. *)
Definition p0 (rho1 rho2 problo probhi dz wlev grav_z : R) (k : Z) : R :=
  let z := problo + IZR k * dz in
  let ih_g := rmax 0 (rmin (probhi - wlev) (probhi - z)) in
  let ih_l := rmax 0 (rmin (wlev - z) (wlev - problo)) in
  let irho := rho1 * ih_l + rho2 * ih_g in
  - irho * grav_z.
