(** What the documented options of prescribed waves mean.  From InputsSpec.v: an option in two sections. *)
From Coq Require Import String List ZArith.
From Verif Require Import BoxR VecSpace Waves Stokes Inputs InputsSpec WaveInputs.
Import ListNotations.
Open Scope string_scope.
Open Scope R_scope.

(** The zones: an outlet zone replaces the beach and starts the whole domain with waves. *)
Definition zones_mean (dflt own : section) (z : zdata) : Prop :=
  let opt := optional (s_real dflt) (s_real own) in
  let out := given (s_real dflt) (s_real own) "relax_zone_out_length" in
  opt "zero_sea_level" 0 (z_zsl z) /\
  opt "water_depth" (1 / 2) (z_depth z) /\
  opt "relax_zone_gen_length" 4 (z_gen z) /\
  opt "relax_zone_length_y" 0 (z_ylen z) /\
  opt "current" 0 (z_current z) /\
  (out = None ->
     z_has_beach z = true /\ opt "numerical_beach_length" 8 (z_beach z) /\
     opt "numerical_beach_length_factor" 1 (z_factor z) /\
     optional (s_bool dflt) (s_bool own) "initialize_wave_field" false (z_init z)) /\
  (out <> None ->
     z_has_beach z = false /\ (exists rest, out = Some (z_beach z :: rest)) /\ z_factor z = 1 /\ z_init z = true) /\
  match z_ramp z with
  | None => given (s_real dflt) (s_real own) "timeramp_period" = None
  | Some p => required (s_real dflt) (s_real own) "timeramp_period" p
  end.

(** Gravity acts downwards with the third number of the input; 9.81 without one. *)
Definition gravity_means (incflo : sect R) (g : R) : Prop :=
  match incflo "gravity" with
  | Some (_ :: _ :: v :: _) => g = - v
  | _ => g = 981 / 100
  end.

(** The offset of the phase, in radians or in degrees, not both. *)
Definition phase_means (dflt own : sect R) (ph : R) : Prop :=
  (given dflt own "wave_phase_offset_radians" = None /\
   exists deg, optional dflt own "wave_phase_offset_degrees" 0 deg /\ ph = deg * PI / 180) \/
  (required dflt own "wave_phase_offset_radians" ph /\ given dflt own "wave_phase_offset_degrees" = None).

(** The length of a Stokes wave: given, or from the period, refused when negative. *)
Definition length_means (dflt own : section) (z : zdata) (d : sdata) : Prop :=
  required (s_real dflt) (s_real own) "wave_length" (s_length d) \/
  (given (s_real dflt) (s_real own) "wave_length" = None /\
   exists T ol tol it,
     required (s_real dflt) (s_real own) "wave_period" T /\
     optional (s_int dflt) (s_int own) "stokes_wavelength_order" (s_order d) ol /\
     optional (s_real dflt) (s_real own) "stokes_wavelength_tolerance" (1 / 10 ^ 10) tol /\
     optional (s_int dflt) (s_int own) "stokes_wavelength_iter_max" 40%Z it /\
     s_length d = length_of T (z_depth z) (s_height d) ol (s_g d) tol it /\ 0 <= s_length d).

(** The same section with another current. *)
Definition with_current (c : R) (s : section) : section :=
  Sec (s_int s) (fun k => if String.eqb k "current" then Some [c] else s_real s k) (s_bool s) (s_str s).
(** The same zones with another current. *)
Definition z_with_current (c : R) (z : zdata) : zdata :=
  ZD (z_zsl z) (z_depth z) (z_gen z) (z_beach z) (z_factor z) (z_ylen z) c (z_init z) (z_has_beach z) (z_ramp z).
