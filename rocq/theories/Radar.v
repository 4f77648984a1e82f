(** Scanning instruments: utilities/sampling/LidarSampler.cpp, RadarSampler.{H,cpp}, the parts of
    SamplingUtils.cpp the radar calls, and Sampling.cpp:241-301.

    Exact reals; tables and times of the lidar are rationals ([Interp.v]).  A point whose
    coordinates are not numbers is [None].  Indices do not overflow.  The velocities at the
    sampled points are arguments (C40).  Not modelled: messages, NetCDF calls. *)
From Coq Require Import Arith QArith Qreals String.
From Verif Require Import BoxR VecSpace Interp.
Local Close Scope Q_scope.
Local Close Scope string_scope.
Local Open Scope list_scope.
Local Open Scope R_scope.

(** ** Lidar *)

Record lcfg : Type := LC { l_origin : vec; l_length : R; l_times : list Q; l_az : list Q; l_el : list Q; l_periodic : bool }.
(** LidarSampler.cpp:40-58 *)
Definition lidar_init (c : lcfg) : outcome Q :=
  if negb (length (l_az c) =? length (l_times c))%nat then Abort
  else if negb (length (l_el c) =? length (l_times c))%nat then Abort
  else obind (rd (l_times c) (length (l_times c) - 1)) (fun a => obind (rd (l_times c) 0) (fun b => Ret (a - b)%Q)).
(** LidarSampler.cpp:65-91 (update_sampling_locations): the far end of the beam.  A period of zero
    gives a time that is not a number. *)
Definition lidar_end (c : lcfg) (time : Q) : outcome vec :=
  obind (lidar_init c) (fun period =>
  obind (if l_periodic c then (if Qeq_bool period 0 then UB else Ret (fmod time period)) else Ret time) (fun t =>
  obind (linear (l_times c) (l_az c) t 1 0) (fun a =>
  obind (linear (l_times c) (l_el c) t 1 0) (fun e =>
  let az := radians (Q2R a) in
  let el := radians (90 - Q2R e) in
  Ret (V3 (vx (l_origin c) + l_length c * cos az * sin el)
          (vy (l_origin c) + l_length c * sin az * sin el)
          (vz (l_origin c) + l_length c * cos el)))))).

(** ** Radar: input *)

(** RadarSampler.cpp:17-64.  Angles in degrees. *)
Record rcfg : Type := RC {
  r_origin : vec; r_freq : R; r_npts : nat; r_cone : R; r_beam : R; r_speed : R;
  r_axis : vec; r_vert : vec; r_sweep : R; r_reset : R; r_elev : list R }.
(** RadarSampler.H:197-198 (m_nphi, m_ntheta), 131-134 (num_points_quad) *)
Definition ntheta : nat := 5.
Definition nphi : nat := 5.
Definition nquad : nat := 1 + ntheta * (nphi - 1).
(** RadarSampler.H:125-128 (num_points_cone) *)
Definition cone_size (c : rcfg) : nat := r_npts c + ntheta * r_npts c * (nphi - 1).
Definition dts (c : rcfg) : R := 1 / r_freq c.
(** std::ceil followed by a conversion *)
Definition rceil (x : R) : Z := (- rfloor (- x))%Z.
(** RadarSampler.cpp:87-92: beams per step; [dt0] is the step at start-up *)
Definition ntotal (c : rcfg) (dt0 : R) : outcome nat :=
  if Rleb 1 (dt0 / dts c) then Ret (Z.to_nat (rceil (dt0 / dts c))) else Abort.

(** ** Radar: sweep *)

(** RadarSampler.cpp:134-145 *)
Definition total_sweep_time (c : rcfg) : R := 2 * (r_sweep c / r_speed c + r_reset c).
Definition periodic_time (c : rcfg) (T : R) : R :=
  T - IZR (rfloor (T / total_sweep_time c)) * total_sweep_time c.
(** 148-153 *)
Definition sweep_count (c : rcfg) (T : R) : Z := rfloor (T / (r_sweep c / r_speed c + r_reset c)).
Inductive phase : Set := Forward | ForwardPause | Reverse | ReversePause.
(** 155-172 *)
Definition operation_phase (c : rcfg) (pt : R) : phase :=
  let phase_time := r_sweep c / r_speed c in
  if Rltb pt phase_time then Forward
  else if Rltb pt (phase_time + r_reset c) then ForwardPause
  else if Rltb pt (2 * phase_time + r_reset c) then Reverse else ReversePause.
(** 174-191 *)
Definition sweep_angle (c : rcfg) (pt : R) : R :=
  match operation_phase c pt with
  | Forward => r_speed c * pt - r_sweep c / 2
  | ForwardPause => r_sweep c / 2
  | Reverse => 3 * r_sweep c / 2 - r_speed c * (pt - r_reset c)
  | ReversePause => - r_sweep c / 2
  end.
(** 232-233: std::vector::at throws past the end, i.e. for an empty list.  The count is an int and
    is converted to unsigned; times are not negative. *)
Definition elevation (c : rcfg) (T : R) : outcome R :=
  match r_elev c with
  | [] => Abort
  | l => match nth_error l (Z.to_nat (sweep_count c T mod Z.of_nat (length l))) with Some e => Ret e | None => Abort end
  end.

(** ** Radar: rays of a cone *)

(** SamplingUtils.cpp:181-187 (truncated_normal_rule, HALFPOWER) *)
Definition half_locs : list R :=
  [0; 315493297131259 / 1000000000000000; 6016636608468 / 10000000000000; 8282105821126121 / 10000000000000000; 9662550592631028 / 10000000000000000].
Definition half_weights : list R :=
  [197723576944154 / 1000000000000000 / 2; 1761766447490471 / 10000000000000000; 1255723775152601 / 10000000000000000;
   7163437433902098 / 100000000000000000; 2775481492459504 / 100000000000000000].
(** 143-150 (spherical_cap_truncated_normal), 101-109 (spherical_cap_quadrature): the cosine of
    the angle to the axis, and the weight *)
Definition cap_tau (g x : R) : R := 0.5 * (1 - cos g) * - (2 * x - 1) + 0.5 * (1 + cos g).
Definition cap_weight (g w : R) : R := 4 * w * 0.5 * (1 - cos g).
(** 113-133: the centre first, then [ntheta] rays for each of the other cosines *)
Definition cap_ray (tau : R) (i : nat) : vec :=
  let theta := 2 * PI / INR ntheta * INR i in
  vnormalize (V3 (sqrt (1 - tau * tau) * cos theta) (sqrt (1 - tau * tau) * sin theta) tau).
Definition cap_rays (g : R) : list vec :=
  V3 0 0 1 :: flat_map (fun x => map (cap_ray (cap_tau g x)) (seq 0 ntheta)) (tl half_locs).
Definition cap_weights (g : R) : list R :=
  2 * PI * cap_weight g (hd 0 half_weights) ::
  flat_map (fun w => map (fun _ => 2 * PI / INR ntheta * cap_weight g w) (seq 0 ntheta)) (tl half_weights).
Definition rays (c : rcfg) : list vec := cap_rays (radians (r_cone c)).
Definition weights (c : rcfg) : list R := cap_weights (radians (r_cone c)).

(** ** Radar: positions *)

(** SamplingUtils.cpp:30-36 (rotate_euler_vector): the axis is normalised in place, to zero if it
    is shorter than the machine epsilon, and the quaternion divides by its length *)
Definition rotate (axis : vec) (angle : R) (v : vec) : option vec :=
  if Rltb (vmag axis) veps then None else Some (vapp v (quaternion (vnormalize axis) angle)).
Definition obind_ {A B : Type} (o : option A) (f : A -> option B) : option B :=
  match o with Some a => f a | None => None end.
(** RadarSampler.cpp:318-381 (new_cone): the point on ray [j] of shell [n], relative to the origin.
    Lines 377-379 add the origin, lines 262-264 take it off again; an origin outside the domain,
    which check_bounds moves in between, is not modelled. *)
Definition cone_point (c : rcfg) (n j : nat) : option vec :=
  let ray := nth j (rays c) vzero in
  let radius := 1 / INR (r_npts c) * INR n in
  let tc_axis := vcross (V3 0 0 1) (r_axis c) in
  let tc_angle := acos (vdot (r_axis c) (V3 0 0 1)) * 180 / PI in
  obind_ (rotate tc_axis tc_angle (vscale ray radius)) (fun p => Some (vscale p (r_beam c))).
(** 246-270: swept about the vertical, then raised *)
Definition aim (c : rcfg) (sw el : R) (p : vec) : option vec :=
  obind_ (rotate (r_vert c) sw (r_axis c)) (fun swept_axis =>
  let elevation_axis := vcross (vneg (vnormalize (r_vert c))) swept_axis in
  obind_ (rotate (r_vert c) sw p) (fun s => rotate elevation_axis el s)).
(** The same at radar time [T]: the point, relative to the origin. *)
Definition beam_point (c : rcfg) (T : R) (n j : nat) : outcome (option vec) :=
  obind (elevation c T) (fun el =>
  Ret (obind_ (cone_point c n j) (aim c (sweep_angle c (periodic_time c T)) el))).
(** 272-274 *)
Definition location (c : rcfg) (T : R) (n j : nat) : outcome (option vec) :=
  obind (beam_point c T n j) (fun o => Ret (option_map (fun p => vadd p (r_origin c)) o)).
(** 224-225, 276-284: the direction of ray [j], from the last shell *)
Definition direction (c : rcfg) (T : R) (j : nat) : outcome (option vec) :=
  obind (beam_point c T (r_npts c - 1) j) (fun o => Ret (option_map vnormalize o)).

(** ** Radar: velocities *)

(** SamplingUtils.cpp:53-57 *)
Definition unit_projection (a : vec) : tensor :=
  T9 (vx a * vx a) (vx a * vy a) (vx a * vz a) (vx a * vy a) (vy a * vy a) (vy a * vz a) (vx a * vz a) (vy a * vz a) (vz a * vz a).
(** RadarSampler.cpp:400-404 *)
Definition los (v u : vec) : R := vdot (vapp v (unit_projection u)) u.
(** 446-468 (line_average), one shell: [vals] are its [nquad] values *)
Definition line_average (ws vals : list R) : R :=
  let weight_sum := fold_left Rplus ws 0 in
  let average := fold_left Rplus (map (fun wv => fst wv * snd wv) (combine ws vals)) 0 in
  if Rltb 0 weight_sum then average / weight_sum else 0.
(** 383-419 (calc_lineofsight_velocity): shell [n] of beam [k], for velocities [V k n j] at its
    points and the directions [U k j] of all beams of the scan.  The index of the direction is
    that of the ray, without the beam (line 399). *)
Definition scan_los (c : rcfg) (U : nat -> nat -> vec) (V : nat -> nat -> nat -> vec) (k n : nat) : R :=
  line_average (weights c) (map (fun j => los (V k n j) (U 0%nat j)) (seq 0 nquad)).
(** 607-618 (output_netcdf_field), with 537-543 (post_sample_actions) and Sampling.cpp:289-292:
    what is written for the beam [k] of the previous scan.  [U0], [U1] are the directions of the
    previous and of the current scan, [V0], [V1] the velocities at the points of the previous scan
    at the previous and at the current time. *)
Definition reported (c : rcfg) (nt : nat) (U0 U1 : nat -> nat -> vec) (V0 V1 : nat -> nat -> nat -> vec) (k n : nat) : R :=
  let mrat := INR k / INR nt in
  mrat * scan_los c U1 V1 k n + (1 - mrat) * scan_los c U0 V0 k n.

(** ** Radar: clock *)

(** 193-213, 228-229, 287: one call at time [t] with the step [dt]; [start] is the start time, [T]
    the radar time before, [nt] the number of beams per scan.  The result is the radar time of the
    first beam and the number of beams. *)
Definition scan (c : rcfg) (nt : nat) (start t dt T : R) : R * Z :=
  let T0 := if Rltb (t - start) (veps * 1000000) then t else T in
  let corr := if Rltb (dts c) (t - T0) then rfloor ((t - T0) / dts c) else 0%Z in
  let ns := (rfloor (dt / dts c) + corr)%Z in
  (T0, Z.min (Z.of_nat nt) (Z.max 0 ns)).
Definition clock (c : rcfg) (nt : nat) (start t dt T : R) : R :=
  let s := scan c nt start t dt T in fst s + IZR (snd s) * dts c.
(** The times of the beams. *)
Definition beam_time (c : rcfg) (nt : nat) (start t dt T : R) (k : nat) : option R :=
  let s := scan c nt start t dt T in
  if (Z.of_nat k <? snd s)%Z then Some (fst s + INR k * dts c) else None.

(** ** Samplers in NetCDF format *)

(** Sampling.cpp:250-260: before any sampler is looked at *)
Definition velocity_map (vars : list string) : outcome (list nat) :=
  let find s := (fix go (l : list string) (i : nat) : option nat :=
    match l with [] => None | v :: r => if String.eqb v s then Some i else go r (S i) end) vars 0%nat in
  match find "velocityx"%string, find "velocityy"%string, find "velocityz"%string with
  | Some a, Some b, Some d => Ret [a; b; d]
  | _, _, _ => Abort
  end.
(** 241-301 (convert_velocity_lineofsight): whether the output of a set of samplers goes on.
    [los_samplers] says whether one of them asks for velocities along the line of sight. *)
Definition convert (netcdf : bool) (vars : list string) (los_samplers : bool) : outcome unit :=
  if netcdf then obind (velocity_map vars) (fun _ => Ret tt) else Ret tt.
