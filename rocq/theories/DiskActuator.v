(** Actuator disks: amr-wind/wind_energy/actuator/disk/{disk_ops.cpp,disk_ops.H,
    uniform_ct_ops.cpp,uniform_ct_ops.H,Joukowsky_ops.cpp,Joukowsky_ops.H,
    disk_spreading.H} and the kernels of actuator/actuator_utils.H.

    Reals are exact, [std::numbers::pi] is PI.  Counts of points are naturals.
    The velocity tables (thrust coefficient, rotation rate) enter as arbitrary
    functions of the reference speed: the table lookup itself is the subject of
    Interp.v.  HELICS coupling and NetCDF output are not modelled. *)
From Verif Require Import BoxR VecSpace Tagging.
Open Scope R_scope.

(** disk/ActuatorDisk.H:12-38, the members used here; [d_nr], [d_nt] are
    num_vel_pts_r, num_vel_pts_t, [d_nf] is num_force_pts, [d_nft] is
    num_force_theta_pts, [d_up] is diameters_to_sample. *)
Record disk : Type := Disk {
  d_center : vec; d_normal : vec; d_coplanar : vec; d_sample : vec;
  d_eps : R; d_diam : R; d_dr : R;
  d_nr : nat; d_nt : nat; d_nf : nat; d_nft : nat;
  d_up : R }.

(** ActuatorDisk.H:34-37 *)
Definition d_radius (d : disk) : R := 0.5 * d_diam d.

(** *** Areas and averages *)

(** disk_ops.cpp:105-111, AreaComputer *)
Definition area_total (radius : R) : R := PI * radius * radius.
Definition geometry_factor (radius : R) (nr nt : nat) : R :=
  radius * radius / INR nr / INR nr * PI / INR nt.
(** disk_ops.cpp:113-118 *)
Definition area_section (radius : R) (nr nt i : nat) : R :=
  geometry_factor radius nr nt * ((INR i + 1) ^ 2 - INR i ^ 2).
(** disk_ops.cpp:120-123 *)
Definition area_weight (radius : R) (nr nt i : nat) : R :=
  area_section radius nr nt i / area_total radius.

(** The double loop [for i < nr, for j < nt] in program order. *)
Definition loop2 {A} (nr nt : nat) (body : nat -> nat -> A -> A) (s : A) : A :=
  fold_left (fun s i => fold_left (fun s j => body i j s) (seq 0 nt) s) (seq 0 nr) s.

(** disk_ops.H:144-168, UpdateVelOp: density, reference velocity and mean disk
    velocity from the sampled values. *)
Definition update_vel (d : disk) (vel : list vec) (density : list R) : R * vec * vec :=
  let nvel := (d_nr d * d_nt d * 2)%nat in
  let np := Nat.div nvel 2 in
  loop2 (d_nr d) (d_nt d)
    (fun i j s =>
       let '(rho, refv, diskv) := s in
       let w := area_weight (d_radius d) (d_nr d) (d_nt d) i in
       (rho + nth (j + i * d_nt d) density 0 * w,
        vadd refv (vscale (nth (j + i * d_nt d) vel vzero) w),
        vadd diskv (vscale (nth (j + i * d_nt d + np) vel vzero) w)))
    (0, vzero, vzero).

(** *** Orientation and points *)

(** disk_ops.cpp:217-232, 253, 263: the normal from the north vector, the
    optional tilt about the east vector and the optional yaw. *)
Definition rot_op (east : vec) (tilt yaw : option R) : tensor :=
  let r0 := tid in
  let r1 := match tilt with Some a => tmul r0 (quaternion east (- a)) | None => r0 end in
  match yaw with Some a => tmul r1 (zrot (- a)) | None => r1 end.
Definition oriented (base east : vec) (tilt yaw : option R) : vec :=
  vnormalize (vapp base (rot_op east tilt yaw)).

(** disk_ops.cpp:236-264, the sampling direction: [snormal] is the input
    sample_normal. *)
Definition sample_dir (north east normal : vec) (snormal : option vec) (stilt syaw : option R) : vec :=
  match snormal, stilt, syaw with
  | None, None, None => vnormalize normal
  | _, _, _ =>
    let base := match snormal with Some v => v | None => north end in
    oriented base east stilt syaw
  end.

(** disk_ops.cpp:322-326 *)
Definition coplanar_vector (normal : vec) : vec := vnormalize (vcross (khat 1) normal).

(** disk_ops.cpp:328-344; the assertion on the normal is [Abort] *)
Definition with_coplanar (d : disk) : outcome disk :=
  let n := vnormalize (d_normal d) in
  if Rltb veps (vmag_sqr (vcross (khat 1) n)) then
    Ret (Disk (d_center d) n (coplanar_vector n) (vnormalize (d_sample d))
              (d_eps d) (d_diam d) (d_dr d) (d_nr d) (d_nt d) (d_nf d) (d_nft d) (d_up d))
  else Abort.

(** uniform_ct_ops.cpp:59-62: what parse_and_gather_params fills in; [ntheta] is
    num_points_t (default 1) and [npr] is num_points_r. *)
Definition uniform_disk (c n s : vec) (eps diam up : R) (npr ntheta : nat) : outcome disk :=
  with_coplanar (Disk c n vzero s eps diam (0.5 * diam / INR npr) npr ntheta npr ntheta up).
(** Joukowsky_ops.cpp:60-62 *)
Definition joukowsky_disk (c n s : vec) (eps diam up : R) (npr ntheta : nat) : outcome disk :=
  with_coplanar
    (Disk c n vzero s eps diam (0.5 * diam / INR npr) npr ntheta (npr * ntheta) ntheta up).

(** disk_ops.cpp:373-410, the point of ring [i] and angle [j] *)
Definition disk_point (d : disk) (axis : vec) (dOffset : R) (i j : nat) : vec :=
  let refVec := coplanar_vector axis in
  let dr := d_diam d * 0.5 / INR (d_nr d) in
  let dt := 2 * PI / INR (d_nt d) in
  let du := dOffset * d_diam d in
  let index_shift := if (d_nr d =? 1)%nat then 0 else 0.5 in
  let r := dr * (INR i + index_shift) in
  let refPoint := vadd (vscale refVec r) (vscale axis du) in
  let angle := degrees (dt * INR j) in
  vadd (vapp refPoint (quaternion axis angle)) (d_center d).
Definition disk_points (d : disk) (axis : vec) (dOffset : R) : list vec :=
  flat_map (fun i => map (fun j => disk_point d axis dOffset i j) (seq 0 (d_nt d)))
           (seq 0 (d_nr d)).

(** uniform_ct_ops.cpp:84-87 and Joukowsky_ops.cpp:79-83: the first half of the
    velocity points is upstream, the second half in the disk. *)
Definition vel_positions (d : disk) : list vec :=
  disk_points d (d_sample d) (d_up d) ++ disk_points d (d_normal d) 0.

(** uniform_ct_ops.cpp:78-83, the force points of the uniform disk *)
Definition uniform_pos (d : disk) (i : nat) : vec :=
  vadd (d_center d) (vscale (d_coplanar d) ((INR i + 0.5) * d_dr d)).

(** disk_ops.cpp:352-371 *)
Definition disk_bounding_box (d : disk) : rbox :=
  let norm := d_normal d in
  let cVec := d_coplanar d in
  let cc := d_center d in
  let nl := d_eps d * 3 in
  let dl := d_diam d * 0.5 + d_dr d * 2 in
  let dvec := vadd (vadd (vscale norm nl) (vscale cVec dl)) (vscale (khat 1) dl) in
  let p1 := vsub cc dvec in
  let p2 := vadd cc dvec in
  RBox (V3 (rmin (vx p1) (vx p2)) (rmin (vy p1) (vy p2)) (rmin (vz p1) (vz p2)))
       (V3 (rmax (vx p1) (vx p2)) (rmax (vy p1) (vy p2)) (rmax (vz p1) (vz p2))).

(** *** Forces of the uniform disk *)

(** disk_ops.H:116-124 *)
Definition ref_speed_sqr (refv normal : vec) : R := vdot refv normal * vdot refv normal.

(** uniform_ct_ops.H:73-95; [ct] is the thrust table as a function of speed
    (disk_ops.H:128-134) *)
Definition uniform_force (d : disk) (ct : R -> R) (refv : vec) (rho : R) (ip : nat) : vec :=
  let normal := d_normal d in
  let uInfSqr := ref_speed_sqr refv normal in
  let current_ct := ct (sqrt uInfSqr) in
  let aeroPressure := 0.5 * uInfSqr * rho * current_ct in
  let dr := d_dr d in
  let r := (INR ip + 0.5) * dr in
  let rp := r + dr * 0.5 in
  let rm := r - dr * 0.5 in
  let a := PI * (rp * rp - rm * rm) in
  vscale normal (aeroPressure * a).
Definition uniform_forces (d : disk) (ct : R -> R) (refv : vec) (rho : R) : list vec :=
  map (uniform_force d ct refv rho) (seq 0 (d_nf d)).

(** *** Spreading kernels *)

(** actuator_utils.H:52, the constant in gaussian3d, close to PI^(-3/2) *)
Definition gauss_fac : R := 17958712212516656 / 100000000000000000.
(** actuator_utils.H:44-60 *)
Definition gaussian3d (dist eps : vec) : R :=
  let rr := V3 (vx dist / vx eps) (vy dist / vy eps) (vz dist / vz eps) in
  if Rltb (vmag_sqr rr) 16 then
    let eps_fac := vx eps * vy eps * vz eps in
    gauss_fac / eps_fac * exp (- vx rr * vx rr - vy rr * vy rr - vz rr * vz rr)
  else 0.
(** actuator_utils.H:70-78 *)
Definition gaussian1d (dist eps : R) : R :=
  let fac := / sqrt PI in
  if Rleb 16 (Rabs (dist / eps)) then 0
  else fac / eps * exp (- (dist * dist) / (eps * eps)).
(** actuator_utils.H:89-119 *)
Definition delta_pnts_cyl (origin normal p1 p2 : vec) : vec :=
  let d1 := vsub p1 origin in
  let d2 := vsub p2 origin in
  let nd1 := vdot d1 normal / vdot normal normal in
  let nd2 := vdot d2 normal / vdot normal normal in
  let v1 := vsub d1 (vscale normal nd1) in
  let v2 := vsub d2 (vscale normal nd2) in
  let r1 := vmag v1 in
  let r2 := vmag v2 in
  let theta := acos (rmin (vdot v1 v2 / (r1 * r2 + veps)) 1) in
  V3 (Rabs (r1 - r2)) theta (nd1 - nd2).
(** actuator_utils.H:128-132 *)
Definition linear_basis_1d (distance dX : R) : R := rmax 0 (1 - distance / dX) / dX.
(** actuator_utils.H:134-139 *)
Definition tangential_vector (center normal point : vec) : vec :=
  let blade_axis := vnormalize (vsub point center) in
  tapp (quaternion normal 90) blade_axis.

(** The loop [for ip < npts] that adds weighted forces, starting from zero. *)
Definition weighted_sum (npts : nat) (w : nat -> R) (force : list vec) : vec :=
  fold_left (fun s ip => vadd s (vscale (nth ip force vzero) (w ip))) (seq 0 npts) vzero.

(** disk_spreading.H:136-163, the weight of one force point at the cell centre *)
Definition linear_weight (d : disk) (pos : list vec) (cc : vec) (ip : nat) : R :=
  let p := nth ip pos vzero in
  let bigR := vx (delta_pnts_cyl (d_center d) (d_normal d) (d_center d) p) in
  let dist := delta_pnts_cyl (d_center d) (d_normal d) cc p in
  let weight_R := linear_basis_1d (vx dist) (d_dr d) in
  let weight_T := 1 / (2 * PI * bigR) in
  let weight_N := gaussian1d (vz dist) (d_eps d) in
  weight_R * weight_T * weight_N.
Definition linear_source (d : disk) (pos force : list vec) (cc : vec) : vec :=
  weighted_sum (d_nf d) (linear_weight d pos cc) force.

(** disk_spreading.H:201-230 *)
Definition theta_weight (d : disk) (pos : list vec) (cc : vec) (ip : nat) : R :=
  let p := nth ip pos vzero in
  let dTheta := 2 * PI / INR (d_nt d) in
  let radius := vx (delta_pnts_cyl (d_center d) (d_normal d) (d_center d) p) in
  let dArc := radius * dTheta in
  let dist := delta_pnts_cyl (d_center d) (d_normal d) cc p in
  let arclength := vy dist * radius in
  let weight_R := linear_basis_1d (vx dist) (d_dr d) in
  let weight_T := linear_basis_1d arclength dArc in
  let weight_N := gaussian1d (vz dist) (d_eps d) in
  weight_R * weight_T * weight_N.
Definition theta_source (d : disk) (pos force : list vec) (cc : vec) : vec :=
  weighted_sum (d_nf d) (theta_weight d pos cc) force.

(** disk_spreading.H:86-98: the force of ring [ip] is divided over nForceTheta
    points *)
Definition gauss_point (d : disk) (pos : list vec) (ip it : nat) : vec :=
  let dTheta := 2 * PI / INR (d_nft d) in
  let angle := degrees (INR it * dTheta) in
  vapp (nth ip pos vzero) (quaternion (d_normal d) angle).
Definition gauss_source (d : disk) (pos force : list vec) (cc : vec) : vec :=
  let epsilon := vscale vone (d_eps d) in
  loop2 (d_nf d) (d_nft d)
    (fun ip it s =>
       let pforce := vdivs (nth ip force vzero) (INR (d_nft d)) in
       let w := gaussian3d (vsub (gauss_point d pos ip it) cc) epsilon in
       vadd s (vscale pforce w))
    vzero.

(** disk_spreading.H:51-58, 165-168 (the same in all three functions): what the
    cells of one tile receive.  [src] is the source at a cell centre. *)
Definition spread_tile (rb : rbox) (g : geom) (tile : box) (src : vec -> vec) : outcome (ivec -> vec) :=
  obind (realbox_to_box rb g) (fun bxa =>
  let bxi := box_and tile bxa in
  if box_empty bxi then Ret (fun _ => vzero)
  else Ret (fun c => if in_boxb tile c then src (cell_point g c) else vzero)).

(** *** Joukowsky disk *)

(** disk/Joukowsky.H:13-54 *)
Record jouk : Type := Jouk {
  j_tip : bool; j_root : bool; j_blades : nat; j_core : R;
  j_root_a : R; j_root_b : R;
  j_ct_rated : R; j_alpha1 : R; j_alpha2 : R;
  j_amp : R; j_freq : R; j_mode : Z; j_clock : R }.

(** Joukowsky_ops.H:101-119; the base of [std::pow] is positive *)
Definition root_correction (p : jouk) (d : disk) (i : nat) : R :=
  if j_root p then
    let dx := 1 / INR (d_nr d) in
    let delta := rmax (j_core p / d_radius d) veps in
    let factor := dx / delta in
    1 - exp (- j_root_a p * Rpower ((INR i + 0.5) * factor) (j_root_b p))
  else 1.
(** Joukowsky_ops.H:99, 171-181 *)
Definition tip_correction (p : jouk) (d : disk) (lambda : R) (i : nat) : R :=
  if j_tip p then
    let dx := d_dr d / d_radius d in
    let x := (INR i + 0.5) * dx in
    2 / PI * acos (exp (- 0.5 * INR (j_blades p) * sqrt (1 + lambda * lambda) * (1 - x)))
  else 1.
(** Joukowsky_ops.H:184-195 *)
Definition solid_body (p : jouk) (ct : R) : R :=
  if Rltb 0 (j_ct_rated p) then
    if Rltb ct (j_ct_rated p) then
      j_alpha1 p * ((j_ct_rated p - ct) / j_ct_rated p) ^ 3
    else j_alpha2 p * (j_ct_rated p - ct) / j_ct_rated p
  else 0.

(** Joukowsky_ops.H:206-207, 261-262 *)
Definition jx (d : disk) (i : nat) : R := rmax ((INR i + 0.5) * (d_dr d / d_radius d)) veps.

(** Joukowsky_ops.H:199-223, one sum: [term] is the integrand at ring [i] *)
Definition jsum (nr : nat) (term : nat -> R) : R :=
  fold_left (fun s i => s + term i) (seq 0 nr) 0.
Definition j_a1 (d : disk) (F g : nat -> R) : R :=
  jsum (d_nr d) (fun i => F i ^ 2 * g i ^ 2 / jx d i * (d_dr d / d_radius d)).
Definition j_a2 (d : disk) (F g : nat -> R) : R :=
  jsum (d_nr d) (fun i => F i * g i * jx d i * (d_dr d / d_radius d)).
Definition j_a3 (d : disk) (F g : nat -> R) : R :=
  jsum (d_nr d) (fun i => F i ^ 2 * g i ^ 2 * jx d i * (d_dr d / d_radius d)).
Definition j_a4 (d : disk) (F g : nat -> R) : R :=
  jsum (d_nr d) (fun i => F i * g i * jx d i ^ 3 * (d_dr d / d_radius d)).
Definition j_a5 (d : disk) (F g : nat -> R) : R :=
  jsum (d_nr d) (fun i => F i ^ 2 * g i ^ 2 * jx d i ^ 3 * (d_dr d / d_radius d)).

(** Joukowsky_ops.H:232-242 *)
Definition j_q0 (a1 a2 a3 a4 a5 lambda S0 ct : R) : R :=
  let term1 := (a2 * lambda + a3 * S0) ^ 2 in
  let term2 := a1 * (0.5 * ct - 2 * a4 * lambda * S0 - a5 * S0 * S0) in
  let term3 := a2 * lambda + a3 * S0 in
  (sqrt (term1 + term2) - term3) / rmax a1 veps.

(** Joukowsky_ops.H:264-266 *)
Definition j_fz (q0 S0 lambda x g F : R) : R :=
  (q0 / x + S0 * x) * g * F * (lambda * x + 0.5 * (q0 / x + S0 * x) * g * F).

(** Joukowsky_ops.H:143-319, everything the force loop computes from the
    reference velocity: [ct], [omega] are the tables, [vel] the sampled
    velocities, [pos] the force points, [t] the current time. *)
Record jres : Type := JRes { r_forces : list vec; r_total : vec; r_moment : R;
                             r_power : R; r_cp : R; r_tsr : R }.

Definition j_uref (d : disk) (refv : vec) : R :=
  rmax (sqrt (ref_speed_sqr refv (d_normal d))) veps.
Definition j_lambda (d : disk) (omega : R -> R) (refv : vec) : R :=
  d_radius d * omega (sqrt (ref_speed_sqr refv (d_normal d))) / j_uref d refv.
Definition j_gamma (p : jouk) (d : disk) (ct omega : R -> R) (refv : vec) : R :=
  let lambda := j_lambda d omega refv in
  let c := ct (sqrt (ref_speed_sqr refv (d_normal d))) in
  let F := tip_correction p d lambda in
  let g := root_correction p d in
  j_q0 (j_a1 d F g) (j_a2 d F g) (j_a3 d F g) (j_a4 d F g) (j_a5 d F g)
       lambda (solid_body p c) c.

(** Joukowsky_ops.H:284-289 *)
Definition j_ftheta (p : jouk) (d : disk) (ct omega : R -> R) (refv : vec) (vel : list vec)
    (i ip : nat) : R :=
  let c := ct (sqrt (ref_speed_sqr refv (d_normal d))) in
  let u_disk := vdot (vneg (d_normal d)) (nth (d_nf d + ip) vel vzero) in
  u_disk / j_uref d refv * (j_gamma p d ct omega refv / jx d i + solid_body p c * jx d i)
    * root_correction p d i * tip_correction p d (j_lambda d omega refv) i.

(** Joukowsky_ops.H:294-303, one point *)
Definition j_force (p : jouk) (d : disk) (ct omega : R -> R) (refv : vec) (rho t : R)
    (vel pos : list vec) (i j : nat) : vec :=
  let ip := (j + i * d_nt d)%nat in
  let lambda := j_lambda d omega refv in
  let c := ct (sqrt (ref_speed_sqr refv (d_normal d))) in
  let f_z := j_fz (j_gamma p d ct omega refv) (solid_body p c) lambda (jx d i)
                  (root_correction p d i) (tip_correction p d lambda i) in
  let theta_angle := INR j * (2 * PI / INR (d_nt d)) in
  let theta_vec := vneg (tangential_vector (d_center d) (d_normal d) (nth ip pos vzero)) in
  let f_theta := j_ftheta p d ct omega refv vel i ip in
  let f_awc := j_amp p * cos (j_freq p * t - IZR (j_mode p) * theta_angle + j_clock p) in
  vscale (vscale (vscale
    (vadd (vscale (d_normal d) ((1 + f_awc) * f_z)) (vscale theta_vec f_theta))
    rho) (ref_speed_sqr refv (d_normal d)))
    (area_section (d_radius d) (d_nr d) (d_nt d) i).

(** Joukowsky_ops.H:250-319, the loop and the integral quantities *)
Definition joukowsky_forces (p : jouk) (d : disk) (ct omega : R -> R) (refv : vec) (rho t : R)
    (vel pos : list vec) : jres :=
  let uInfSqr := ref_speed_sqr refv (d_normal d) in
  let om := omega (sqrt uInfSqr) in
  let '(fs, total, moment) :=
    loop2 (d_nr d) (d_nt d)
      (fun i j s =>
         let '(fs, total, moment) := s in
         let ip := (j + i * d_nt d)%nat in
         let f := j_force p d ct omega refv rho t vel pos i j in
         let m := jx d i * d_radius d * j_ftheta p d ct omega refv vel i ip
                  * area_section (d_radius d) (d_nr d) (d_nt d) i in
         ((fs ++ [f])%list, vadd total f, moment + m))
      ([], vzero, 0) in
  let denom := rmax (0.5 * PI * rho * d_radius d ^ 2 * j_uref d refv ^ 3) veps in
  JRes fs total moment (rho * uInfSqr * moment * om)
       (rho * uInfSqr * moment * om / denom) (j_lambda d omega refv).
