(** Options of prescribed waves, the state a run starts from and the state the zones drive to:
    amr-wind/ocean_waves/relaxation_zones/relaxation_zones_ops.cpp, linear_waves_ops.H, stokes_waves_ops.H.

    Reals are exact.  The wave itself is Waves.v and Stokes.v.  One cell of the plane of x and z stands for all; the
    loops over levels, grids and y are not modelled.  Writing the water level into the input of MultiPhase
    (relaxation_zones_ops.cpp:46-47) is not modelled. *)
From Coq Require Import String List ZArith Bool.
From Verif Require Import BoxR VecSpace MultiPhase Waves Stokes Inputs.
Import ListNotations.
Open Scope string_scope.
Open Scope R_scope.

(** RelaxationZones.H:18-46 *)
Record zdata : Type := ZD {
  z_zsl : R; z_depth : R; z_gen : R; z_beach : R; z_factor : R; z_ylen : R; z_current : R;
  z_init : bool; z_has_beach : bool; z_ramp : option R }.

(** relaxation_zones_ops.cpp:16-48, defaults of RelaxationZones.H:20-43 *)
Definition read_zones (dflt own : section) : outcome zdata :=
  let r := mp_query (s_real dflt) (s_real own) in
  let zsl := r "zero_sea_level" 0 in
  let depth := r "water_depth" (5 / 10) in
  let gen := r "relax_zone_gen_length" 4 in
  let '(beach, factor, init, hb) :=
    if mp_contains (s_real dflt) (s_real own) "relax_zone_out_length" then
      (r "relax_zone_out_length" 8, 1, true, false)
    else
      (r "numerical_beach_length" 8, r "numerical_beach_length_factor" 1,
       mp_query (s_bool dflt) (s_bool own) "initialize_wave_field" false, true) in
  let ylen := r "relax_zone_length_y" 0 in
  let current := r "current" 0 in
  obind (if mp_contains (s_real dflt) (s_real own) "timeramp_period" then
           obind (mp_get (s_real dflt) (s_real own) "timeramp_period") (fun p => Ret (Some p))
         else Ret None) (fun ramp =>
  Ret (ZD zsl depth gen beach factor ylen current init hb ramp)).

(** linear_waves_ops.H:25-28, stokes_waves_ops.H:27-30; [incflo] is the section of that name *)
Definition read_g (incflo : sect R) : outcome R :=
  match nth_error (pp_queryarr incflo "gravity" [0; 0; - (981 / 100)]) 2 with
  | Some v => Ret (- v)
  | None => UB
  end.

(** linear_waves_ops.H:32-41, stokes_waves_ops.H:80-89 *)
Definition read_phase (dflt own : sect R) : outcome R :=
  let p := mp_query dflt own "wave_phase_offset_radians" 0 in
  if negb (mp_contains dflt own "wave_phase_offset_radians") then
    let p := mp_query dflt own "wave_phase_offset_degrees" p in
    Ret (p * (PI / 180))
  else if mp_contains dflt own "wave_phase_offset_degrees" then Abort
  else Ret p.

(** linear_waves_ops.H:18-42 *)
Definition read_linear (incflo : sect R) (dflt own : section) : outcome (zdata * lwave) :=
  obind (read_zones dflt own) (fun z =>
  obind (read_g incflo) (fun g =>
  obind (mp_get (s_real dflt) (s_real own) "wave_length") (fun len =>
  obind (mp_get (s_real dflt) (s_real own) "wave_height") (fun h =>
  obind (read_phase (s_real dflt) (s_real own)) (fun ph =>
  Ret (z, LW h len ph (z_depth z) (z_zsl z) g (z_current z))))))).

(** stokes_waves_K.H:36-150 with the bounds of the input: a negative number of iterations does none and does not count
    as reached (47, 145) *)
Definition length_of (T d H : R) (order : Z) (g tol : R) (itmax : Z) : R :=
  if (itmax <? 0)%Z then
    let omega := 2 * PI / T in
    let k := omega * omega / g in
    if Rltb k tol then -1 else 2 * PI / k
  else stokes_wave_length T g tol (Z.to_nat itmax) (amp_of (Z.to_nat order) d H) (stokes_dfdk (Z.to_nat order) g d H).

(** StokesWaves.H:11-17 *)
Record sdata : Type := SD { s_order : Z; s_length : R; s_height : R; s_g : R; s_phase : R }.

(** stokes_waves_ops.H:19-90 *)
Definition read_stokes (incflo : sect R) (dflt own : section) : outcome (zdata * sdata) :=
  obind (read_zones dflt own) (fun z =>
  obind (read_g incflo) (fun g =>
  if Rltb tight_tol (z_current z) then Abort else
  obind (mp_get (s_real dflt) (s_real own) "wave_height") (fun h =>
  obind (mp_get (s_int dflt) (s_int own) "order") (fun order =>
  obind (if mp_contains (s_real dflt) (s_real own) "wave_length" then
           mp_get (s_real dflt) (s_real own) "wave_length"
         else
           obind (mp_get (s_real dflt) (s_real own) "wave_period") (fun T =>
           let ol := mp_query (s_int dflt) (s_int own) "stokes_wavelength_order" order in
           let tol := mp_query (s_real dflt) (s_real own) "stokes_wavelength_tolerance" (1 / 10 ^ 10) in
           let it := mp_query (s_int dflt) (s_int own) "stokes_wavelength_iter_max" 40%Z in
           let len := length_of T (z_depth z) h ol g tol it in
           if Rltb len 0 then Abort else Ret len)) (fun len =>
  obind (read_phase (s_real dflt) (s_real own)) (fun ph =>
  Ret (z, SD order len h g ph))))))).

(** *** Cells *)

Record plane : Type := Plane { p_xlo : R; p_xhi : R; p_zlo : R; p_dx : R; p_dz : R }.
Definition centre_x (p : plane) (i : Z) : R := p_xlo p + (IZR i + 5 / 10) * p_dx p.
Definition centre_z (p : plane) (k : Z) : R := p_zlo p + (IZR k + 5 / 10) * p_dz p.
Definition reach (p : plane) : R := sqrt (p_dx p * p_dx p + p_dz p * p_dz p).

(** utils::WaveVec: velocity and elevation *)
Record wavevec : Type := WV { w_u : R; w_v : R; w_w : R; w_eta : R }.
(** wave_utils_K.H:77-107, all components *)
Definition blend (x lb ll rb rl : R) (l b r : wavevec) : wavevec :=
  let h f := harmonize x lb ll rb rl (f l) (f b) (f r) in WV (h w_u) (h w_v) (h w_w) (h w_eta).

(** linear_waves_ops.H:87-140 and stokes_waves_ops.H:132-170: level set and velocity of one cell at the start; [wave] is
    the profile at time zero, [added] what is added to the velocity (the current for linear waves, zero for Stokes
    waves), [old] the velocity before *)
Definition init_cell (mp : bool) (z : zdata) (added : R) (wave : R -> R -> wavevec) (p : plane) (i k : Z) (old : vec) : R * vec :=
  let has_beach := (z_has_beach z && mp)%bool in
  let init_wave := (z_init z || negb mp)%bool in
  let x := centre_x p i in
  let zc := centre_z p k in
  let sol := wave x zc in
  let quiescent := WV 0 0 0 (z_zsl z) in
  let bulk := if init_wave then sol else quiescent in
  let outlet := if has_beach then quiescent else sol in
  let b := blend x (p_xlo p) (z_gen z) (p_xhi p) (z_beach z) sol bulk outlet in
  let phi := w_eta b - zc in
  (phi, if Rleb 0 (phi + reach p) then V3 (added + w_u b) (w_v b) (w_w b) else old).

(** linear_waves_ops.H:177-223 and stokes_waves_ops.H:207-235: the target of one cell, [wave] the profile at that time *)
Definition target_cell (wave : R -> R -> wavevec) (p : plane) (i k : Z) : R * vec :=
  let x := rmax (p_xlo p) (centre_x p i) in
  let zc := centre_z p k in
  let s := wave x zc in
  let phi := w_eta s - zc in
  (phi, if Rleb 0 (phi + reach p) then V3 (w_u s) (w_v s) (w_w s) else vzero).
(** relaxation_zones_ops.cpp:95-127 *)
Definition beach_cell (z : zdata) (p : plane) (i k : Z) (t : R * vec) : R * vec :=
  let x := rmin (rmax (centre_x p i) (p_xlo p)) (p_xhi p) in
  let zc := centre_z p k in
  let sol := WV (vx (snd t)) (vy (snd t)) (vz (snd t)) (fst t) in
  let outlet := WV (z_current z) 0 0 (z_zsl z - zc) in
  let b := blend x (p_xlo p) (z_gen z) (p_xhi p) (z_beach z) sol sol outlet in
  (w_eta b, V3 (w_u b) (w_v b) (w_w b)).
(** relaxation_zones_ops.H:94-106; [vof] tells whether the run has a field of volume fractions *)
Definition final_target (vof : bool) (z : zdata) (wave : R -> R -> wavevec) (p : plane) (i k : Z) : R * vec :=
  let t := target_cell wave p i k in
  if (z_has_beach z && vof)%bool then beach_cell z p i k t else t.

(** linear_waves_ops.H:93-114 *)
Definition linear0 (w : lwave) (x z : R) : wavevec :=
  let phase := lw_k w * x - lw_phase w in
  WV (lw_omega w * lw_height w / 2 * cosh (lw_k w * (z - lw_zsl w + lw_depth w)) / sinh (lw_k w * lw_depth w) * cos phase)
     0
     (lw_omega w * lw_height w / 2 * sinh (lw_k w * (z - lw_zsl w + lw_depth w)) / sinh (lw_k w * lw_depth w) * sin phase)
     (lw_height w / 2 * cos phase + lw_zsl w).
(** linear_waves_ops.H:184-217 *)
Definition linear_t (w : lwave) (t x z : R) : wavevec := WV (lw_u w t x z) 0 (lw_w w t x z) (lw_eta w t x).
(** stokes_waves_ops.H:139-145, 214-220 *)
Definition stokes_t (w : swave) (t x z : R) : wavevec := WV (sw_u w t x z) 0 (sw_w w t x z) (sw_eta w t x).
