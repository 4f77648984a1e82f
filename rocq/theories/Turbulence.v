(** Turbulence models, cell by cell: the eddy viscosity and the companion fields that
    update_turbulent_viscosity, update_mueff, update_alphaeff, update_scalar_diff and
    post_advance_work compute.  The velocity, temperature, turbulence-energy and density
    gradients come from fvm::gradient and fvm::strainrate (Stencil.v); here they are the
    values of one cell.  Not modelled: the fill of ghost cells after the update and the
    choice of the time state (the same values enter whatever the state). *)
From Verif Require Import BoxR Stencil.
Open Scope R_scope.

(** std::numeric_limits<amrex::Real>::epsilon(), and the two multiples the models use. *)
Definition eps : R := / 4503599627370496.
Definition floor10 : R := eps * 10.
Definition floor6 : R := eps * 1000000.

(** std::cbrt *)
Definition cbrt (x : R) : R :=
  if Rltb 0 x then Rpower x (1 / 3) else if Rltb x 0 then - Rpower (- x) (1 / 3) else 0.
(** std::pow for the exponents used: of zero with a positive exponent it is zero. *)
Definition pow_ (x y : R) : R := if Rltb 0 x then Rpower x y else 0.

(** [const amrex::Real ds = std::cbrt(dx * dy * dz)] (Smagorinsky.cpp:43-46) *)
Definition filter_width (dx : Z -> R) : R := cbrt (dx 0%Z * dx 1%Z * dx 2%Z).

(** ** Effective coefficients, TurbModelBase.H:18-78 (both constant and varying transport
    properties: the laminar value of the cell enters) and LaminarModel.cpp:17-72 *)
Definition visc_update (mu mut : R) : R := mu + 1 * mut.
Definition alpha_update (alpha prt mut : R) : R := alpha + 1 / prt * mut.
Definition scal_diff_update (mu sc sct mut : R) : R := mu / sc + 1 / sct * mut.
Definition laminar_visc (mu : R) : R := mu.
Definition laminar_alpha (alpha : R) : R := alpha.
Definition laminar_scal (mu sc : R) : R := mu / sc.

(** ** Smagorinsky, Smagorinsky.cpp:33,47-57: [s] is the strain rate stored in the
    viscosity array beforehand *)
Definition smag_factor (cs : R) (dx : Z -> R) : R := cs * cs * (filter_width dx * filter_width dx).
Definition smagorinsky (cs : R) (dx : Z -> R) (rho s : R) : R := s * (rho * smag_factor cs dx).

(** ** AMD.  [g] holds the nine velocity gradients, [g (3 i + k)] = d u_i / d x_k. *)
Definition loop3 (f : Z -> R) : R := 0 + f 0%Z + f 1%Z + f 2%Z.

(** AMDNoTherm.H:57-88 *)
Definition amd_num_shear (dx : Z -> R) (g : Z -> R) : R :=
  loop3 (fun ii => loop3 (fun jj =>
    let sij := 1/2 * (g (ii * 3 + jj)%Z + g (jj * 3 + ii)%Z) in
    loop3 (fun kk => g (ii * 3 + kk)%Z * g (jj * 3 + kk)%Z * dx kk * dx kk * sij))).
Definition amd_denom (g : Z -> R) : R :=
  loop3 (fun ii => loop3 (fun jj => g (ii * 3 + jj)%Z * g (ii * 3 + jj)%Z)).
Definition amd_base_muvel (dx : Z -> R) (c : R) (g : Z -> R) : R :=
  rmax floor10 (- c * amd_num_shear dx g / rmax floor10 (amd_denom g)).
(** AMDNoTherm.cpp:56-62 *)
Definition amd_notherm (dx : Z -> R) (c rho : R) (g : Z -> R) : R := rho * amd_base_muvel dx c g.

(** AMD.H:66-119; [tbar] is the slope of the plane average at the height of the cell (the
    table look-up of AMD.H:85-88 is interp::linear, see Interp.v). *)
Definition amd_num_buoy (dx g gt : Z -> R) (nd : Z) (tbar : R) : R :=
  loop3 (fun ii => g (nd * 3 + ii)%Z * (gt ii - (if (ii =? nd)%Z then tbar else 0)) * dx ii * dx ii).
Definition amd_muvel (dx : Z -> R) (beta : R) (grav : Z -> R) (c : R) (g gt : Z -> R) (nd : Z)
    (tbar : R) : R :=
  rmax floor10 ((amd_num_shear dx g * - c + amd_num_buoy dx g gt nd tbar * (c * beta * Rabs (grav nd)))
                / rmax floor10 (amd_denom g)).
(** AMD.cpp:104-109 *)
Definition amd (dx : Z -> R) (beta : R) (grav : Z -> R) (c rho : R) (g gt : Z -> R) (nd : Z)
    (tbar : R) : R := rho * amd_muvel dx beta grav c g gt nd tbar.
(** AMD.H:121-148 *)
Definition amd_thermal_diff (dx : Z -> R) (c : R) (g gt : Z -> R) : R :=
  let num := loop3 (fun ii => loop3 (fun kk =>
               g (ii * 3 + kk)%Z * gt ii * gt kk * dx kk * dx kk)) in
  let denom := loop3 (fun ii => gt ii * gt ii) in
  rmax floor10 (num * - c / rmax floor10 denom).
(** AMD.cpp:141-148: the effective diffusivity; the laminar value [alpha] of the transport
    model is available to the class and not used. *)
Definition amd_alphaeff (alpha : R) (dx : Z -> R) (c rho : R) (g gt : Z -> R) : R :=
  rho * amd_thermal_diff dx c g gt.

(** ** Kosovic, Kosovic.cpp:19-45,88-198.  std::numbers::pi_v is [PI].  The similarity
    function calc_psi_m is in MoninObukhov.v; here [psi] is its value (0 unless the wall
    model is "mol"). *)
Definition kos_cs (cb : R) : R := sqrt (8 * (1 + cb) / (27 * PI * PI)).
Definition kos_c1 (cb sk : R) : R := sqrt 960 * cb / (7 * (1 + cb) * sk).
Record kosovic : Type := Kos {
  k_cs : R; k_c1 : R; k_rans : bool; k_switch : R; k_exp : R; k_off : R; k_mol : R;
  k_kappa : R; k_z0 : R; k_psi : R }.
(** terrain data of a cell: blank, drag, height, roughness *)
Record terrain : Type := Ter { t_blank : R; t_drag : R; t_height : R; t_z0 : R }.

(** Kosovic.cpp:129-133 *)
Definition kos_x3 (t : option terrain) (problo2 dz : R) (k : Z) : R :=
  let x3 := problo2 + (IZR k + 1/2) * dz in
  match t with Some t => rmax (x3 - t_height t) (1/2 * dz) | None => x3 end.
(** Kosovic.cpp:135-140 *)
Definition kos_phim (mol x3 : R) : R :=
  if Rltb mol 0 then Rpower (1 - 16 * x3 / mol) (- (1/4)) else 1 + 5 * x3 / mol.
(** Kosovic.cpp:141-145 *)
Definition kos_wall (t : option terrain) (dz : R) (k : Z) : R :=
  match t with
  | Some t => rmax (IZR (k + 1) * dz - t_height t) dz
  | None => IZR (k + 1) * dz
  end.
(** Kosovic.cpp:146-147 *)
Definition kos_ransl (mol x3 wd : R) : R := (41/100 * wd / kos_phim mol x3) ^ 2.
(** Kosovic.cpp:149-153 and 185-191: [a] the subgrid part, [b] the surface part *)
Definition kos_blend (rans : bool) (fmu p a b : R) : R :=
  let sf := if rans then 1 else 0 in
  sf * (pow_ (1 - fmu) p * a + pow_ fmu p * b) + (1 - sf) * a.
(** Kosovic.cpp:167-179 *)
Definition kos_loglaw (kp : kosovic) (z0 dz rho ux uy ux0 uy0 uxm uym : R) : R :=
  let m := sqrt (ux * ux + uy * uy) in
  let ustar := m * k_kappa kp / (ln (3/2 * dz / z0) - k_psi kp) in
  let m0 := sqrt (ux0 * ux0 + uy0 * uy0) in
  let mm1 := sqrt (uxm * uxm + uym * uym) in
  let dmdz := rmax ((m0 - mm1) / dz) (1/100) in
  2 * ustar * ustar * rho / dmdz.
(** The viscosity: [up], [at_], [dn] the horizontal velocity in the cell above, in the cell and
    in the cell below (Kosovic.cpp:126-184). *)
Definition kos_scale (kp : kosovic) (t : option terrain) (problo2 : R) (dx : Z -> R) (k : Z) : R :=
  let dz := dx 2%Z in
  let x3 := kos_x3 t problo2 dz k in
  let fmu := exp (- x3 / k_switch kp) in
  let ransl := kos_ransl (k_mol kp) x3 (kos_wall t dz k) in
  kos_blend (k_rans kp) fmu (k_exp kp) (smag_factor (k_cs kp) dx) ransl.
Definition kos_mu (kp : kosovic) (t : option terrain) (problo2 : R) (dx : Z -> R) (k : Z)
    (rho s : R) (up at_ dn : R * R) : R :=
  let dz := dx 2%Z in
  let x3 := kos_x3 t problo2 dz k in
  let turnoff := exp (- x3 / k_off kp) in
  let blank := match t with Some t => 1 - t_blank t | None => 1 end in
  let mu := s * (rho * kos_scale kp t problo2 dx k * turnoff * blank) in
  let z0 := match t with Some t => rmax (t_z0 t) (1/10000) | None => k_z0 kp end in
  let mlog := kos_loglaw kp z0 dz rho (fst up) (snd up) (fst at_) (snd at_) (fst dn) (snd dn) in
  let drag := match t with Some t => t_drag t | None => 0 end in
  mu * (1 - drag) + drag * mlog.
(** The divergence of the nonlinear stress, one component (Kosovic.cpp:185-197) *)
Definition kos_div (kp : kosovic) (t : option terrain) (problo2 : R) (dx : Z -> R) (k : Z)
    (rho d : R) : R :=
  let dz := dx 2%Z in
  let x3 := kos_x3 t problo2 dz k in
  let fmu := exp (- x3 / k_switch kp) in
  let turnoff := exp (- x3 / k_off kp) in
  let ransl := kos_ransl (k_mol kp) x3 (kos_wall t dz k) in
  let blank := match t with Some t => 1 - t_blank t | None => 1 end in
  let sc := kos_blend (k_rans kp) fmu (k_exp kp) (smag_factor (k_cs kp) dx * (1/4) * k_c1 kp) ransl in
  d * (rho * sc * turnoff * blank).
(** Kosovic.cpp:205-229 *)
Definition kos_alphaeff (mol alpha mut : R) : R := alpha + (if Rltb mol 0 then 3 else 1) * mut.

(** ** One-equation model of Moeng, OneEqKsgs.cpp:131-159 *)
Record m84 : Type := M84 { m_l : R; m_mu : R; m_buoy : R; m_shear : R }.
(** OneEqKsgs.cpp:133-137, KLAxell.cpp:131-135 *)
Definition stratification (gt grav : Z -> R) (beta : R) : R :=
  - (gt 0%Z * grav 0%Z + gt 1%Z * grav 1%Z + gt 2%Z * grav 2%Z) * beta.
Definition m84_update (ce : R) (dx : Z -> R) (rho tke strat s : R) : m84 :=
  let ds := filter_width dx in
  let l := if Rltb floor6 strat then rmin ds (76/100 * sqrt (tke / strat)) else ds in
  let mu := rho * ce * l * sqrt tke in
  M84 l mu (- mu * (1 + 2 * l / ds) * strat) (s * (s * mu)).
(** OneEqKsgs.cpp:192-197 *)
Definition m84_alphaeff (alpha mut l ds : R) : R := alpha + mut * (1 + 2 * l / ds).
(** OneEqKsgs.cpp:211-220: [Some] for the turbulence energy, stop for any other name; the same
    in KLAxell.cpp:346-354 and OneEqKsgs.cpp:304-313 *)
Definition tke_diff (is_tke : bool) (mut : R) : outcome R :=
  if is_tke then Ret (0 + 2 * mut) else Abort.
(** OneEqKsgs.cpp:253-257: only in the hybrid mode *)
Definition m84_sdr (hybrid : bool) (ce ds tke sdr : R) : R :=
  if hybrid then sqrt tke / (ce * ds) else sdr.

(** Lower bounds after the solve: tke_ops.H:40-73 ([blank]: value of terrain_blank when there
    is terrain) and sdr_ops.H:40-47; std::numeric_limits<float>::epsilon() is 2^-23. *)
Definition feps : R := / 8388608.
Definition tke_clip (blank : option Z) (k : R) : R :=
  let k1 := if Rltb k 0 then feps else k in
  match blank with Some b => if (b =? 1)%Z then feps else k1 | None => k1 end.
Definition sdr_clip (w : R) : R := rmax w feps.

(** ** k-omega SST, KOmegaSST.cpp:136-280 *)
Inductive diffusion : Type := Explicit_ | Crank_Nicolson_ | Implicit_.
Record sst : Type := Sst {
  beta_star : R; alpha1 : R; alpha2 : R; beta1 : R; beta2 : R; sigma_k1 : R; sigma_k2 : R;
  sigma_omega1 : R; sigma_omega2 : R; a1 : R; tke_amb : R; sdr_amb : R;
  bfac : R; sigma_t : R; grav : Z -> R }.
(** The state of a cell: density, laminar viscosity, energy, specific dissipation, wall distance,
    strain rate, gradient product and density gradient *)
Record scell : Type := Cell {
  rho : R; lmu : R; tke : R; sdr : R; wd : R; strain : R; gko : R; grho : Z -> R }.
(** What the update stores *)
Record sout : Type := Out {
  o_mu : R; o_f1 : R; o_buoy : R; o_shear : R; o_diss : R; o_klhs : R;
  o_wsrc : R; o_wdiss : R; o_wlhs : R }.

(** KOmegaSST.cpp:138-144 *)
Definition grad_product (a b : Z -> R) : R := a 0%Z * b 0%Z + a 1%Z * b 1%Z + a 2%Z * b 2%Z.
(** KOmegaSST.cpp:146-151 *)
Definition cdkomega (m : sst) (c : scell) : R :=
  rmax floor6 (2 * rho c * sigma_omega2 m * gko c / (sdr c + floor10)).
(** KOmegaSST.cpp:153-166 *)
Definition sst_tmp1 (m : sst) (c : scell) : R :=
  4 * rho c * sigma_omega2 m * tke c / (cdkomega m c * wd c * wd c).
Definition sst_tmp2 (m : sst) (c : scell) : R :=
  sqrt (tke c) / (beta_star m * sdr c * wd c + floor10).
Definition sst_tmp3 (c : scell) : R :=
  500 * lmu c / (wd c * wd c * sdr c * rho c + floor10).
(** KOmegaSST.cpp:169-171 *)
Definition sst_f1 (m : sst) (c : scell) : R :=
  let arg1 := rmin (rmax (sst_tmp2 m c) (sst_tmp3 c)) (sst_tmp1 m c) in
  tanh (arg1 * arg1 * arg1 * arg1).
(** KOmegaSST.cpp:173-174,310,330; KOmegaSSTIDDES.cpp:228 *)
Definition blend (f a b : R) : R := f * (a - b) + b.
(** KOmegaSST.cpp:176-177 *)
Definition sst_f2 (m : sst) (c : scell) : R :=
  let arg2 := rmax (2 * sst_tmp2 m c) (sst_tmp3 c) in tanh (arg2 * arg2).
(** KOmegaSST.cpp:179-182 *)
Definition sst_mu (m : sst) (c : scell) : R :=
  rho c * a1 m * tke c / rmax (a1 m * sdr c) (strain c * sst_f2 m c).
(** KOmegaSST.cpp:185-192 *)
Definition sst_buoy (m : sst) (c : scell) : R :=
  bfac m * (- (grav m 0%Z * grho c 0%Z + grav m 1%Z * grho c 1%Z + grav m 2%Z * grho c 2%Z)) *
  (sst_mu m c / rho c) / sigma_t m.
(** KOmegaSST.cpp:223-227 *)
Definition cross_diffusion (m : sst) (c : scell) : R :=
  (1 - sst_f1 m c) * 2 * rho c * sigma_omega2 m * gko c / (sdr c + floor10).
(** The part of KOmegaSST.cpp:229-279 (and KOmegaSSTIDDES.cpp:286-336) that depends on the
    treatment of diffusion: dissipation, left side of the energy equation, source, dissipation
    and left side of the omega equation *)
Definition by_treatment (d : diffusion) (m : sst) (c : scell) (beta diss klhs prod dt : R)
    : R * R * R * R * R :=
  let cross := cross_diffusion m c in
  let damb := beta * rho c * sdr_amb m * sdr_amb m in
  match d with
  | Crank_Nicolson_ =>
      (diss, 1/2 * klhs, prod, cross,
       (rho c * beta * sdr c + 1/2 * Rabs cross / (sdr c + floor10)) * dt)
  | Implicit_ =>
      (0, klhs, prod, 0,
       (2 * rho c * beta * sdr c + Rabs cross / (sdr c + floor10)) * dt)
  | Explicit_ =>
      (diss, klhs, prod + cross, - rho c * beta * sdr c * sdr c + damb,
       1/2 * rho c * beta * sdr c * dt)
  end.
Definition sst_update (m : sst) (d : diffusion) (dt : R) (c : scell) : sout :=
  let f1 := sst_f1 m c in
  let alpha := blend f1 (alpha1 m) (alpha2 m) in
  let beta := blend f1 (beta1 m) (beta2 m) in
  let mu := sst_mu m c in
  let shear := rmin (rmax (mu * strain c * strain c) 0) (10 * beta_star m * rho c * tke c * sdr c) in
  let diss_amb := beta_star m * rho c * sdr_amb m * tke_amb m in
  let diss := - beta_star m * rho c * tke c * sdr c + diss_amb in
  let klhs := beta_star m * rho c * sdr c * dt in
  let prod := rho c * alpha * rmin (strain c * strain c) (10 * beta_star m * sdr c * sdr c) in
  let '(diss, klhs, wsrc, wdiss, wlhs) := by_treatment d m c beta diss klhs prod dt in
  Out mu f1 (sst_buoy m c) shear diss klhs wsrc wdiss wlhs.
(** KOmegaSST.cpp:287-341: which scalar ([Some true] the energy, [Some false] omega) *)
Definition sst_diff (m : sst) (which : option bool) (lam f1 mut : R) : outcome R :=
  match which with
  | Some true => Ret (lam + blend f1 (sigma_k1 m) (sigma_k2 m) * mut)
  | Some false => Ret (lam + blend f1 (sigma_omega1 m) (sigma_omega2 m) * mut)
  | None => Abort
  end.

(** What one step adds to density times the quantity when the quantity does not change and there
    is no transport: [(rho + lhs) q_new = rho q_old + dt src] (tke_ops.H:164-179,
    sdr_ops.H:117-132; the left side is only used when a solve follows, incflo_advance.cpp:321);
    the sources are KwSSTSrc.cpp:31-36 and SDRSrc.cpp:29-34, with half the dissipation when the
    state is NPH, as it is in the predictor (incflo_advance.cpp:315). *)
Definition solved (d : diffusion) (lhs : R) : R := match d with Explicit_ => 0 | _ => lhs end.
Definition state_factor (nph : bool) : R := if nph then 1/2 else 1.
Definition tke_net (nph : bool) (d : diffusion) (o : sout) (k dt : R) : R :=
  dt * (o_shear o + state_factor nph * o_diss o + o_buoy o) - solved d (o_klhs o) * k.
Definition sdr_net (nph : bool) (d : diffusion) (o : sout) (w dt : R) : R :=
  dt * (state_factor nph * o_wdiss o + o_wsrc o) - solved d (o_wlhs o) * w.

(** ** Hybrid version, KOmegaSSTIDDES.cpp:124-337; [vort] the vorticity magnitude, [hmax] the
    longest cell edge.  It writes no buoyancy. *)
Record iddes : Type := Idd {
  i_sst : sst; cdes1 : R; cdes2 : R; cdt1 : R; cdt2 : R; cl : R; ct : R; cw : R; kap : R; clip : R }.
(** KOmegaSSTIDDES.cpp:132-133 *)
Definition hmax (dx : Z -> R) : R := rmax (rmax (dx 0%Z) (dx 1%Z)) (dx 2%Z).
(** KOmegaSSTIDDES.cpp:205-210 *)
Definition des_denom (m : iddes) (c : scell) (vort : R) : R :=
  rho c * kap m * kap m * wd c * wd c * sqrt (1/2 * (strain c * strain c + vort * vort)).
(** KOmegaSSTIDDES.cpp:211-221; [alpha] is the blended production coefficient, as in the code *)
Definition des_fe1 (alpha : R) : R :=
  if Rltb alpha 0 then 2 * exp (- 9 * alpha * alpha) else 2 * exp (- (1109/100) * alpha * alpha).
Definition des_fe (m : iddes) (alpha rdl rdt : R) : R :=
  let fl := tanh (pow_ (cl m * cl m * rdl) 10) in
  let ft := tanh (pow_ (ct m * ct m * rdt) 3) in
  (1 - rmax ft fl) * rmax (des_fe1 alpha - 1) 0.
(** KOmegaSSTIDDES.cpp:203-204,222-227 *)
Definition des_fdtilde (m : iddes) (wd h rdt : R) : R :=
  let ad := 1/4 - wd / h in
  let fb := rmin (2 * exp (- 9 * ad * ad)) 1 in
  let fdt := 1 - tanh (pow_ (cdt1 m * rdt) (cdt2 m)) in
  rmax (1 - fdt) fb.
(** KOmegaSSTIDDES.cpp:228-233 *)
Definition des_lles (m : iddes) (f1 wd h : R) : R :=
  blend f1 (cdes1 m) (cdes2 m) * rmin (cw m * rmax wd h) h.
(** KOmegaSSTIDDES.cpp:234-240 *)
Definition des_lrans (m : iddes) (c : scell) : R := sqrt (tke c) / (beta_star (i_sst m) * sdr c).
Definition des_length (rans_ind fdt l_rans l_les : R) : R :=
  rmax eps (rans_ind * l_rans + (1 - fdt) * l_les).
Definition des_rans_ind (m : iddes) (dx : Z -> R) (c : scell) (vort : R) : R :=
  let s := i_sst m in
  let alpha := blend (sst_f1 s c) (alpha1 s) (alpha2 s) in
  let den := des_denom m c vort in
  des_fdtilde m (wd c) (hmax dx) (sst_mu s c / den) *
  (1 + des_fe m alpha (lmu c / den) (sst_mu s c / den)).
Definition iddes_update (m : iddes) (dx : Z -> R) (d : diffusion) (dt : R) (c : scell) (vort : R) : sout :=
  let s := i_sst m in
  let f1 := sst_f1 s c in
  let alpha := blend f1 (alpha1 s) (alpha2 s) in
  let beta := blend f1 (beta1 s) (beta2 s) in
  let mu := sst_mu s c in
  let den := des_denom m c vort in
  let fdtilde := des_fdtilde m (wd c) (hmax dx) (mu / den) in
  let ri := des_rans_ind m dx c vort in
  let l_les := des_lles m f1 (wd c) (hmax dx) in
  let l := des_length ri fdtilde (des_lrans m c) l_les in
  let sk := sqrt (tke_amb s) in
  let l_amb0 := sk / (beta_star s * rmax eps (sdr_amb s)) in
  let l_amb := des_length ri fdtilde l_amb0 l_les in
  let diss_amb := rho c * tke_amb s * sk / l_amb in
  let shear := rmin (rmax (mu * strain c * strain c) 0) (10 * rho c * tke c * sqrt (tke c) / l) in
  let diss := - rho c * sqrt (tke c) * tke c / l + diss_amb in
  let klhs := rho c * sqrt (tke c) / l * dt in
  let prod := rho c * alpha *
              rmin (strain c * strain c) (clip m * rmax (sdr c) 0 * sqrt (tke c) / l) in
  let '(diss, klhs, wsrc, wdiss, wlhs) := by_treatment d s c beta diss klhs prod dt in
  Out mu f1 0 shear diss klhs wsrc wdiss wlhs.

(** ** Axell's k-l model, KLAxell.cpp:128-204 and 206-278 *)
Record axell : Type := Axl { x_cmu : R; x_cbs : R; x_cbu : R; x_flux : R; x_switch : R }.
(** KLAxell.cpp:136-140,214-216; [h] the terrain height when there is terrain *)
Definition axell_z (h : option R) (problo2 dz : R) (k : Z) : R :=
  let z := problo2 + (IZR k + 1/2) * dz in
  match h with Some h => rmax (z - h) (1/2 * dz) | None => z end.
Definition axell_ls (z : R) : R := (30 * (41/100) * z) / (30 + 41/100 * z).
(** KLAxell.cpp:146-149: std::pow (k, 1.5) is [k * sqrt k] for k >= 0 *)
Definition axell_eps (cmu k l : R) : R := cmu ^ 3 * (k * sqrt k) / (l + eps).
(** KLAxell.cpp:153-157 *)
Definition rt_limit (rt : R) : R :=
  if Rltb (- 1) rt then rt
  else rmax rt (rt - (rt - - 1) ^ 2 / (rt + - 3 - 2 * - 1)).
(** KLAxell.cpp:150-152 *)
Definition axell_rt (k e strat : R) : R := rt_limit ((k / e) ^ 2 * strat).
(** KLAxell.cpp:158-176 *)
Definition axell_l0 (x : axell) (ls k strat rt : R) : R :=
  let lb := x_cbs x * sqrt (k / rmax strat eps) in
  if Rltb 0 strat
  then rmin (sqrt ((ls * lb) ^ 2 / (ls ^ 2 + lb ^ 2))) (sqrt (x_cmu x * k / strat))
  else ls * sqrt (1 - x_cmu x ^ 6 * (/ x_cbu x ^ 2) * rt).
(** KLAxell.cpp:177-185 *)
Definition axell_neutral (x : axell) (z : R) : bool :=
  Rltb (Rabs (x_flux x)) (1 / 100000) && Rleb z (x_switch x).
(** KLAxell.cpp:186-195 *)
Definition cmu_rt (cmu rt : R) : R := (cmu + 108/1000 * rt) / (1 + 308/1000 * rt + 837/100000 * rt ^ 2).
Definition cmup_rt (cmu rt : R) : R := cmu / (1 + 277/1000 * rt).
Record xout : Type := XOut { x_l : R; x_mu : R; x_buoy : R; x_shear : R }.
(** [l0] the length scale stored by the previous update, [blank] terrain_blank *)
Definition axell_update (x : axell) (z blank rho k strat s l0 : R) : xout :=
  let ls := axell_ls z in
  let rt0 := axell_rt k (axell_eps (x_cmu x) k l0) strat in
  let neutral := axell_neutral x z in
  let l := if neutral then ls else axell_l0 x ls k strat rt0 in
  let rt := if neutral then 0 else rt0 in
  let mu := rho * cmu_rt (x_cmu x) rt * l * sqrt k * (1 - blank) in
  let mup := rho * cmup_rt (x_cmu x) rt * l * sqrt k * (1 - blank) in
  XOut l mu (- mup * strat) (s * (s * mu)).
(** KLAxell.cpp:313-332: here the dissipation has no lower bound on the length *)
Definition axell_prandtl (rt : R) : R := (1 + 193/1000 * rt) / (1 + 302/10000 * rt).
Definition axell_alphaeff (cmu alpha mut k l strat : R) : R :=
  let e := cmu ^ 3 * (k * sqrt k) / l in
  alpha + mut / axell_prandtl (axell_rt k e strat).

(** ** turb_utils.cpp:9-40: the list of source terms after a model has added its own.
    std::set<std::string> keeps one copy of each name in lexicographic order. *)
From Coq Require Import String Ascii.
Fixpoint str_ltb (a b : string) : bool :=
  match a, b with
  | EmptyString, EmptyString => false
  | EmptyString, String _ _ => true
  | String _ _, EmptyString => false
  | String x a', String y b' =>
      if (nat_of_ascii x <? nat_of_ascii y)%nat then true
      else if (nat_of_ascii y <? nat_of_ascii x)%nat then false else str_ltb a' b'
  end.
Fixpoint set_insert (s : string) (l : list string) : list string :=
  match l with
  | nil => s :: nil
  | x :: r => if str_ltb s x then s :: x :: r
              else if str_ltb x s then x :: set_insert s r else x :: r
  end.
Definition inject_src_terms (srcin terms : list string) : list string :=
  match srcin with
  | nil => terms
  | _ => fold_left (fun acc s => set_insert s acc) terms
           (fold_left (fun acc s => set_insert s acc) srcin nil)
  end.
