(** Surface layer of the atmosphere: similarity functions and the friction velocity
    iteration (/repo/amr-wind/wind_energy/MOData.H, MOData.cpp), and the wall models
    built on them (ShearStress.H, ABLWallFunction.cpp).  Exact reals; C++ [log],
    [sqrt], [atan] are [ln], [sqrt], [atan] (arguments are positive wherever the
    theorems apply them). *)
From Verif Require Import BoxR.
Local Open Scope R_scope.

(** Inputs of the iteration, MOData.H:31-53.  [flux_mode]: alg_type is HEAT_FLUX. *)
Record mopar : Type := MoPar
  { zref : R; z0 : R; z0t : R; kappa : R; gravity : R; vmag : R; theta : R;
    gamma_m : R; gamma_h : R; beta_m : R; beta_h : R; flux_mode : bool }.

(** MOData.cpp:20-30 *)
Definition psi_m (beta gamma zeta : R) : R :=
  if Rltb 0 zeta then - gamma * zeta
  else let x := sqrt (sqrt (1 - beta * zeta)) in
       2 * ln (1/2 * (1 + x)) + ln (1/2 * (1 + x * x)) - 2 * atan x + 1/2 * PI.

(** MOData.cpp:37-45 *)
Definition psi_h (beta gamma zeta : R) : R :=
  if Rltb 0 zeta then - gamma * zeta
  else let x := sqrt (1 - beta * zeta) in 2 * ln (1/2 * (1 + x)).

(** What the iteration carries: the members utau, obukhov_len, surf_temp_flux,
    surf_temp and the local variables zeta, psi_m, psi_h. *)
Record most : Type := MoSt
  { utau : R; oblen : R; tflux : R; tsurf : R; zeta : R; cur_psim : R; cur_psih : R }.

(** MOData.H:55-73 *)
Definition phi_m (p : mopar) (s : most) (z : R) : R :=
  ln (z / z0 p) - psi_m (beta_m p) (gamma_m p) (z / oblen s).
Definition phi_h (p : mopar) (s : most) (z : R) : R :=
  ln (z / z0t p) - psi_h (beta_h p) (gamma_h p) (z / oblen s).

(** std::numeric_limits<double>: epsilon() and max(). *)
Definition eps64 : R := / 2 ^ 52.
Definition max64 : R := (2 - / 2 ^ 52) * 2 ^ 1023.

(** MOData.cpp:55-61: initial values; the members keep what they had, the
    friction velocity starts from the neutral log law. *)
Definition mo_init (p : mopar) (s : most) : most :=
  MoSt (kappa p * vmag p / ln (zref p / z0 p)) (oblen s) (tflux s) (tsurf s) 0 0 0.

(** MOData.cpp:65-92: the body of the loop. *)
Definition mo_body (p : mopar) (s : most) : most :=
  let ts := if flux_mode p
            then tflux s * (ln (zref p / z0t p) - cur_psih s) / (utau s * kappa p) + theta p
            else tsurf s in
  let q := if flux_mode p then tflux s
           else - (theta p - tsurf s) * utau s * kappa p / (ln (zref p / z0t p) - cur_psih s) in
  let nonneutral := Rltb eps64 (Rabs q) in
  let L := if nonneutral
           then - utau s * utau s * utau s * theta p / (kappa p * gravity p * q) else max64 in
  let z := if nonneutral then zref p / L else 0 in
  let pm := psi_m (beta_m p) (gamma_m p) z in
  let ph := psi_h (beta_h p) (gamma_h p) z in
  MoSt (kappa p * vmag p / (ln (zref p / z0 p) - pm)) L q ts z pm ph.

(** MOData.cpp:63-93: do ... while.  [fuel] bounds the recursion; running out of it
    is the distinct result [None].  Returns the state and the iteration count. *)
Fixpoint mo_loop (p : mopar) (max_iters : Z) (fuel : nat) (iter : Z) (s : most)
  : option (most * Z) :=
  match fuel with
  | O => None
  | S f =>
      let s' := mo_body p s in
      let iter' := (iter + 1)%Z in
      if Rltb (1 / 100000) (Rabs (utau s - utau s')) && (iter' <=? max_iters)%Z
      then mo_loop p max_iters f iter' s' else Some (s', iter')
  end.

(** MOData.cpp:52-103.  The message printed at the end is left out. *)
Definition update_fluxes (p : mopar) (max_iters : Z) (fuel : nat) (s : most)
  : option (most * Z) := mo_loop p max_iters fuel 0 (mo_init p s).

(** ** Wall models, ShearStress.H *)
Inductive wall_type : Type := WConstant | WLocal | WSchumann | WMoeng | WDonelan.

(** Means over the wall plane (MOData.H:39-43). *)
Record means : Type := Means { um : R; vm : R }.

(** ShearStress.H:182-190 *)
Definition donelan_cd (wspd_mean : R) : R :=
  if Rleb wspd_mean 5 then 1/1000
  else if Rltb wspd_mean 25 && Rltb 5 wspd_mean then 1/1000 + 7/100000 * (wspd_mean - 5)
  else 24/10000.

(** calc_vel_x of the five structs (ShearStress.H:34-38, 69-73, 102-106, 138-143,
    179-193); [a] is the local component (u or v), [am] its plane mean.  The
    y-functions (40-44, 75-79, 108-112, 145-150, 195-209) are the same with v. *)
Definition calc_vel (t : wall_type) (p : mopar) (s : most) (am a wspd : R) : R :=
  let utau2 := utau s * utau s in
  match t with
  | WConstant => am / vmag p * utau2
  | WLocal => a / rmax wspd (1 / 1000000) * utau2
  | WSchumann => a / vmag p * utau2
  | WMoeng => ((a - am) * vmag p + wspd * am) / (vmag p * vmag p) * utau2
  | WDonelan => donelan_cd (vmag p) * a * wspd
  end.

(** calc_theta (ShearStress.H:46-50, 81-85, 114-118, 152-158, 211-224). *)
Definition calc_theta (t : wall_type) (p : mopar) (s : most) (wspd th : R) : R :=
  let term1 := utau s * kappa p / phi_h p s (zref p) in
  match t with
  | WConstant => term1 * (theta p - tsurf s)
  | WLocal | WSchumann => term1 * (th - tsurf s)
  | WMoeng => utau s * kappa p / (vmag p * phi_h p s (zref p)) *
              ((th - theta p) * vmag p + (theta p - tsurf s) * wspd)
  | WDonelan => if flux_mode p then tflux s else 12/10000 * vmag p * (tsurf s - theta p)
  end.

(** ABLWallFunction.cpp:301-327 and 463-480: wall-normal gradients stored in the
    ghost cell; [blank] is 1 - terrain_blank, 1 without terrain. *)
Definition wall_vel_ghost (blank tau rho mu : R) : R := blank * tau * rho / mu.
Definition wall_theta_ghost (blank tau rho alpha : R) : R := blank * rho * tau / alpha.

(** ABLWallFunction.cpp:269-300 and 432-462: heterogeneous wall with a given
    Obukhov length [L]; [z] is half the cell height. *)
Definition mol_ustar (p : mopar) (L z wspd : R) : R :=
  wspd * kappa p / (ln (z / z0 p) - psi_m (beta_m p) (gamma_m p) (z / L)).
Definition mol_vel_ghost (p : mopar) (L z blank rho mu a wspd : R) : R :=
  blank * mol_ustar p L z wspd * mol_ustar p L z wspd * a / wspd * rho / mu.
Definition mol_theta_ghost (p : mopar) (L z blank rho alpha wspd th : R) : R :=
  let ustar := mol_ustar p L z wspd in
  let thetastar := th * ustar * ustar / (kappa p * (981/100) * L) in
  blank * rho * (ustar * thetastar) / alpha.

(** ABLWallFunction.cpp:157-164: surface temperature of the rate mode. *)
Definition surface_temp_rate (init rate tstart time : R) : R :=
  init + rate * rmax (time - tstart) 0 / 3600.
