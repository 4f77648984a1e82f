(** Modulated power law as inflow: wind_energy/ABLModulatedPowerLaw.{H,cpp}, ABLFillMPL.cpp.

    Exact reals, without a coupling to HELICS (ABLModulatedPowerLaw.cpp:84-98).  The base of a power is not
    negative, and a power of zero is zero.  Random numbers are arbitrary values given for each cell; the table of
    temperatures is as in ABLInit.v.  Not modelled: which cells beyond the inflow faces are written (166-190). *)
From Coq Require Import Reals.
From Verif Require Import BoxR VecSpace ABLInit.
Local Open Scope R_scope.

(** ABLModulatedPowerLaw.H:58-89, ABLModulatedPowerLaw.cpp:28-55 *)
Record mset : Type := MS {
  m_zref : R; m_shear : R; m_umax : R; m_bulk : R; m_zc : R; m_thick : R; m_speed : R; m_dir : R;
  m_start : R; m_stop : R; m_rate : R; m_theta : table; m_delta : R; m_cutoff : R }.

(** 39-45, 104-108: the wind of a compass direction *)
Definition uvec (S : mset) (dir : R) : vec :=
  let a := radians (- dir + 270) in V3 (m_speed S * cos a) (m_speed S * sin a) 0.
(** 100-103: the direction after the start of a step of size [dt] at time [t] *)
Definition turn (S : mset) (t dt dir : R) : R :=
  if (Rltb (m_start S) t && Rltb t (m_stop S))%bool then dir - m_rate S * dt else dir.
(** A run: a list of step times and sizes; a restart begins with the direction of the input. *)
Fixpoint directions (S : mset) (steps : list (R * R)) (dir : R) : R :=
  match steps with [] => dir | (t, dt) :: s => directions S s (turn S t dt dir) end.

Definition rpow (x a : R) : R := if Rleb x 0 then 0 else Rpower x a.
(** 142-146 *)
Definition z2 (S : mset) : R := if Rltb 0 (Rabs (m_shear S)) then m_zref S * rpow (m_umax S) (1 / m_shear S) else 0.
Definition vmax (S : mset) (uref : R) : R := if Rltb (z2 S) (m_zref S) then uref else uref * m_umax S.
(** 151-164; [H]: height of the domain *)
Definition coeff (S : mset) : R := 1 / m_thick S.
Definition num1 (S : mset) (uref : R) : R := uref * rpow (z2 S) (m_shear S + 1) / (m_shear S + 1) / rpow (m_zref S) (m_shear S).
Definition num2 (S : mset) (uref H : R) : R := vmax S uref * (H - z2 S).
Definition denom (S : mset) (H : R) : R :=
  0.5 * (ln (cosh (- coeff S * (H - m_zc S))) / coeff S - ln (cosh (- coeff S * (z2 S - m_zc S))) / coeff S + (H - z2 S)).
Definition upper (S : mset) (uref H : R) : R := (m_bulk S * H - num1 S uref - num2 S uref H) / denom S H.
(** 196-210 (the offset is zero and cannot be changed) *)
Definition pfac (S : mset) (z : R) : R :=
  let p := if Rltb 0 z then Rpower (z / m_zref S) (m_shear S) else 0 in rmin (rmax p 0) (m_umax S).
Definition tanhterm (S : mset) (uref H z : R) : R := 0.5 * upper S uref H * (tanh (coeff S * (z - m_zc S)) + 1) / uref.
Definition inflow (S : mset) (dir H z : R) : vec :=
  let u := uvec S dir in let uref := vmag u in
  let f := pfac S z + tanhterm S uref H z in V3 (vx u * f) (vy u * f) (vz u).
(** 279-293 *)
Definition inflow_theta (S : mset) (z random : R) : outcome R :=
  obind (first_value (m_theta S)) (fun t0 =>
    let th := scan (m_theta S) z t0 in Ret (if Rltb z (m_cutoff S) then th + m_delta S * random else th)).
