(** Momentum, temperature and turbulence-energy source terms, cell by cell:
    /repo/amr-wind/equation_systems/icns/source_terms, temperature/source_terms and
    tke/source_terms.  Exact reals.  Every function returns what the C++ operator adds
    to src_term in one cell.  Values the operators take from tables by
    interp::linear / linear_angle (modelled in Interp.v) and from plane averages
    (PlaneAvg.v) enter as arguments. *)
From Verif Require Import BoxR VecSpace.
From Verif Require MoninObukhov.
Local Open Scope R_scope.

(** constants::EPS, constants.H:13-14 *)
Definition ceps : R := / 4503599627370496.

(** tensor_ops.H:31-41 *)
Definition unit_of (v : vec) : vec :=
  let inv := 1 / sqrt (vdot v v) in V3 (vx v * inv) (vy v * inv) (vz v * inv).

(** ** CoriolisForcing.cpp:27-55 *)
Record corpar : Type := CorPar {
  c_latitude : R;   (* degrees *)
  c_period : R;     (* rotational_time_period; 42: 86164.091 when not given *)
  c_east : vec; c_north : vec;   (* as read *)
  c_horizontal : bool }.
Definition default_period : R := 86164091 / 1000.
Definition cor_omega (p : corpar) : R := 2 * PI / c_period p.
(** 66-102 *)
Definition coriolis (p : corpar) (u : vec) : vec :=
  let e := unit_of (c_east p) in
  let n := unit_of (c_north p) in
  let up := vcross e n in
  let sinphi := sin (radians (c_latitude p)) in
  let cosphi := cos (radians (c_latitude p)) in
  let corfac := 2 * cor_omega p in
  let fac := if c_horizontal p then 0 else 1 in
  let ue := vx e * vx u + vy e * vy u + vz e * vz u in
  let un := vx n * vx u + vy n * vy u + vz n * vz u in
  let uu := vx up * vx u + vy up * vy u + vz up * vz u in
  let ae := corfac * (un * sinphi - fac * uu * cosphi) in
  let an := - corfac * ue * sinphi in
  let au := fac * corfac * ue * cosphi in
  V3 (ae * vx e + an * vx n + au * vx up)
     (ae * vy e + an * vy n + au * vy up)
     (ae * vz e + an * vz n + au * vz up).

(** ** Ramp over water, GeostrophicForcing.cpp:141-166 = ABLForcing.cpp:111-136.
    [near]: interface_band or liquid at the cell. *)
Definition phase_ramp (ph_ramp near : bool) (z wlev wrht0 wrht1 : R) : R :=
  if ph_ramp then
    let w := if Rltb (z - wlev) (wrht0 + wrht1)
             then if Rltb (z - wlev) wrht0 then 0
                  else 1/2 - 1/2 * cos (PI * (z - wlev - wrht0) / wrht1)
             else 1 in
    if near then 0 else w
  else 1.

(** ** GeostrophicForcing.cpp:35-77, 124-137, 167-169.  The Coriolis parameters come
    from the same input section as those of CoriolisForcing. *)
Definition geo_factor (p : corpar) : R := 2 * cor_omega p * sin (radians (c_latitude p)).
Definition geostrophic (p : corpar) (gu gv wfac : R) : vec :=
  let hfac := if c_horizontal p then 0 else 1 in
  V3 (wfac * (- geo_factor p * gv)) (wfac * (geo_factor p * gu)) (wfac * hfac * 0).
(** 125-137: target from a table of speed and direction. *)
Definition geostrophic_table (p : corpar) (spd dir wfac : R) : vec :=
  geostrophic p (spd * cos dir) (spd * sin dir) wfac.

(** ** ABLForcing.H:41-67, ABLForcing.cpp:137-138 *)
Definition abl_force (target mean dt : R) : R := (target - mean) / dt.
Definition abl_forcing (tu tv mu mv dt fac : R) : vec :=
  V3 (fac * abl_force tu mu dt) (fac * abl_force tv mv dt) 0.

(** ** HurricaneForcing.cpp:24-33 (26: another default period, 28: default latitude 90) *)
Definition hurricane_default_period : R := 86400.
Definition hurricane_factor (latitude period : R) : R :=
  (2 * (2 * PI) / period) * sin (radians latitude).
(** 83-93 *)
Definition hurricane (f rad v dvdr vzh ht umean vmean : R) : vec :=
  let v_z := v * (vzh - ht) / vzh in
  let dvdr_z := dvdr * (vzh - ht) / vzh in
  V3 (umean * umean / rad + vmean * v_z / rad - (f * v_z + v_z * v_z / rad))
     (- umean * dvdr_z - umean * v_z / rad) 0.

(** ** RayleighDamping.cpp:62-74 *)
Definition rayleigh_coeff (hi z dRD dFull : R) : R :=
  if Rltb (dRD + dFull) (hi - z) then 0
  else if Rltb dFull (hi - z) then 1/2 * cos (PI * (hi - dFull - z) / dRD) + 1/2
  else 1.
(** 75-80, one component; [f] is force_coord_directions of that component. *)
Definition rayleigh (f coeff ref vel tau : R) : R := f * coeff * (ref - vel) / tau.

(** ** MetMastForcing.cpp:103-128 (with terrain) and 130-153 (without).  Only the first
    mast point is used (110, 135). *)
Definition mast_ri2 (x y z mx my mz lrad vrad : R) : R :=
  (x - mx) * (x - mx) / (lrad * lrad) + (y - my) * (y - my) / (lrad * lrad) +
  (z - mz) * (z - mz) / (vrad * vrad).
Definition mast_weight (has_terrain : bool) (damping_radius ri2 : R) : R :=
  if Rleb ri2 (if has_terrain then damping_radius else 100) then exp (- (1/4) * ri2) else 0.
Definition mast_forcing (w ts vel ref : R) : R := - (w / ts * (vel - ref)).

(** ** VelocityFreeAtmosphereForcing.cpp:88-118, one component: [ts] is the
    user's meso_timescale, which 75 replaces by the time step. [prof]: the profile
    value at z, [nprof] the number of profile points. *)
Definition terrain_z (lo dz : R) (k : Z) (th : R) : R := rmax (lo + (IZR k + 1/2) * dz - th) (1/2 * dz).
Definition free_ref (nprof : nat) (start hi z prof value : R) : R :=
  let zi := rmax ((z - start) / (hi - start)) 0 in
  if Rltb 0 zi then (if (0 <? nprof)%nat then prof else value) else value.
Definition free_velocity (nprof : nat) (start hi z prof vel ts dt : R) : R :=
  let meso_timescale := dt in
  - (1 / meso_timescale * (vel - free_ref nprof start hi z prof vel)).
(** TemperatureFreeAtmosphereForcing.cpp:78-96: the same with the user's time scale. *)
Definition free_temperature (nprof : nat) (start hi z prof t ts dt : R) : R :=
  - (1 / ts * (t - free_ref nprof start hi z prof t)).

(** ** Buoyancy *)
(** BoussinesqBuoyancy.cpp:42-50 *)
Definition boussinesq (g : vec) (beta t0 t : R) : vec :=
  let fac := beta * (t0 - t) in V3 (vx g * fac) (vy g * fac) (vz g * fac).
(** ABLMeanBoussinesq.cpp:114-124 *)
Definition mean_boussinesq (g : vec) (beta t0 tmean : R) : vec :=
  let fac := beta * (tmean - t0) in V3 (vx g * fac) (vy g * fac) (vz g * fac).
(** DensityBuoyancy.cpp:60-66 *)
Definition density_buoyancy (g : vec) (rho0 rho : R) : vec :=
  let fac := 1 - rho0 / rho in V3 (vx g * fac) (vy g * fac) (vz g * fac).
(** GravityForcing.cpp:65-74 *)
Definition gravity_forcing (ipt ir0 : bool) (g : vec) (rho0_field rho0_const rho : R) : vec :=
  let factor := if negb ipt then 1 else 1 - (if ir0 then rho0_field else rho0_const) / rho in
  V3 (vx g * factor) (vy g * factor) (vz g * factor).
(** ABLMeanBoussinesq.cpp:76-81, 146-154: which profile is used.  [file]: the user gave
    a file name. *)
Inductive tprofile : Type := FromFile (name_given : bool) | FromStatistics.
Definition mean_profile_source (read_temp_prof file : bool) : tprofile :=
  if read_temp_prof && negb file then FromFile file else FromStatistics.

(** ** BodyForce.cpp:161-167 (uniform or oscillating) *)
Definition body_force (oscillatory : bool) (omega t_cur t_new : R) (f : vec) : vec :=
  let nph := 1/2 * (t_cur + t_new) in
  let coeff := if oscillatory then cos (omega * nph) else 1 in
  V3 (coeff * vx f) (coeff * vy f) (coeff * vz f).

(** ** ForestForcing.cpp:31-40 *)
Definition forest (drag : R) (u : vec) : vec :=
  let w := sqrt (vx u * vx u + vy u * vy u + vz u * vz u) in
  V3 (- (drag * vx u * w)) (- (drag * vy u * w)) (- (drag * vz u * w)).

(** ** DragForcing.cpp *)
(** 225-236, one direction; [flag] is sponge_west etc. as an int, [dist] the sponge
    distance (negative numbers on the low side by default). *)
Definition sponge_end (flag : Z) (strength hi dist x : R) : R :=
  let start := hi - dist in
  let xi := IZR flag * rmax ((x - start) / (hi - start)) 0 in
  IZR flag * strength * xi * xi.
Definition sponge_start (flag : Z) (strength lo dist x : R) : R :=
  let start := lo - dist in
  let xi := IZR flag * rmax ((start - x) / (start - lo)) 0 in
  IZR flag * strength * xi * xi.
(** 231-236: in y the flag is applied once less. *)
Definition sponge_end_y (flag : Z) (strength hi dist y : R) : R :=
  let start := hi - dist in
  let yi := IZR flag * rmax ((y - start) / (hi - start)) 0 in strength * yi * yi.
Definition sponge_start_y (flag : Z) (strength lo dist y : R) : R :=
  let start := lo - dist in
  let yi := IZR flag * rmax ((start - y) / (start - lo)) 0 in strength * yi * yi.

(** 15-39: friction velocity and viscous terms. [psi]: non_neutral_neighbour. *)
Definition drag_ustar (u2 v2 z0 dz kappa psi : R) : R :=
  sqrt (u2 * u2 + v2 * v2) * kappa / (ln (3/2 * dz / z0) - psi).
Definition viscous_d (us c u1 v1 dz : R) : R := - us * us * c / (ceps + sqrt (u1 * u1 + v1 * v1)) / dz.

(** 41-85, with the slopes 59-60 given. *)
Definition form_tau (ex ey u1 v1 : R) : R * R :=
  let ge := sqrt (ex * ex + ey * ey) in
  let nx := ex / ge in
  let ny := ey / ge in
  let ur := sqrt (u1 * u1 * nx * nx + v1 * v1 * ny * ny) in
  let a := u1 * ex + v1 * ey in
  let h := (a + Rabs a) / (2 * a) in
  ((1 / PI) * ur * ur * ge * ge * h * nx, (1 / PI) * ur * ur * ge * ge * h * ny).

(** 292-305 *)
Definition drag_utarget (us z0 dz kappa psic : R) : R := us / kappa * (ln (1/2 * dz / z0) - psic).
Definition drag_bc (utarget c2 u2 v2 c1 dt : R) : R :=
  - (utarget * c2 / (ceps + sqrt (u2 * u2 + v2 * v2)) - c1) / dt.

(** 203-205, 283-284 *)
Definition dkappa : R := 41 / 100.
Definition dz0 (z0 : R) : R := rmax z0 (1 / 10000).

(** 200-202 *)
Definition drag_scale (dz : R) : R := if Rltb dz 1 then 1 else 1 / dz.
Definition drag_cd (laminar : bool) (coef dz : R) : R :=
  if laminar && Rltb dz 1 then coef else coef / dz.
(** 317-318 *)
Definition drag_cdm (cd m dz : R) : R := rmin (cd / (m + ceps)) (1000 / drag_scale dz).

Record dragcell : Type := DragCell {
  d_u1 : vec;        (* velocity in the cell *)
  d_u2 : vec;        (* velocity in the cell above *)
  d_wall : vec;      (* wave velocity used for the shear (0 without waves) *)
  d_target : vec;    (* target velocity within the terrain (0 without waves) *)
  d_blank : R; d_drag : Z;    (* blank enters as a factor *)
  d_z0 : R; d_dz : R; d_dt : R;
  d_psin : R; d_psic : R;     (* stability corrections at 3/2 and 1/2 of the cell *)
  d_slope : option (R * R);   (* wave slopes when the form drag model is on *)
  d_damp : R;                 (* sum of the four sponge coefficients *)
  d_sponge : vec; d_density : R;
  d_laminar : bool; d_coef : R }.

(** 254-332 *)
Definition drag_forcing (d : dragcell) : vec :=
  let u1 := d_u1 d in
  let m := sqrt (vx u1 * vx u1 + vy u1 * vy u1 + vz u1 * vz u1) in
  let u1r := vx u1 - vx (d_wall d) in
  let v1r := vy u1 - vy (d_wall d) in
  let u2r := vx (d_u2 d) - vx (d_wall d) in
  let v2r := vy (d_u2 d) - vy (d_wall d) in
  let z0 := dz0 (d_z0 d) in
  let us := drag_ustar u2r v2r z0 (d_dz d) dkappa (d_psin d) in
  let ut := drag_utarget us z0 (d_dz d) dkappa (d_psic d) in
  let on := (d_drag d =? 1)%Z && negb (d_laminar d) in
  let tau := match d_slope d with Some (ex, ey) => form_tau ex ey u1r v1r | None => (0, 0) end in
  let dxz := if on then viscous_d us u1r u1r v1r (d_dz d) + - fst tau / d_dz d else 0 in
  let dyz := if on then viscous_d us v1r u1r v1r (d_dz d) + - snd tau / d_dz d else 0 in
  let bcx := if on then drag_bc ut u2r u2r v2r (vx u1) (d_dt d) else 0 in
  let bcy := if on then drag_bc ut v2r u2r v2r (vy u1) (d_dt d) else 0 in
  let cdm := drag_cdm (drag_cd (d_laminar d) (d_coef d) (d_dz d)) m (d_dz d) in
  V3 (- (cdm * m * (vx u1 - vx (d_target d)) * d_blank d + dxz * IZR (d_drag d) +
         bcx * IZR (d_drag d) + d_damp d * (vx u1 - d_density d * vx (d_sponge d))))
     (- (cdm * m * (vy u1 - vy (d_target d)) * d_blank d + dyz * IZR (d_drag d) +
         bcy * IZR (d_drag d) + d_damp d * (vy u1 - d_density d * vy (d_sponge d))))
     (- (cdm * m * (vz u1 - vz (d_target d)) * d_blank d +
         d_damp d * (vz u1 - d_density d * vz (d_sponge d)))).

(** ** DragTempForcing.cpp:90-119 *)
Definition drag_temperature (coef dz theta theta2 soil blank drag wspd m ustar_den psihn psihc
                             kappa grav mol z0 dt : R) : R :=
  let us := wspd * kappa / ustar_den in
  let ts := theta * us * us / (kappa * grav * mol) in
  let surf := theta2 - ts / kappa * (ln (3/2 * dz / dz0 z0) - psihn) in
  let tt := surf + ts / kappa * (ln (1/2 * dz / dz0 z0) - psihc) in
  let bc := - (tt - theta) / dt in
  let cd := rmin (coef / dz / (m + ceps)) (10 / dz) in
  - (cd * (theta - soil) * blank + bc * drag).
(** 29-30: the input names the heat coefficients are read from. *)
Definition drag_temp_gamma_h (mo_gamma_m mo_gamma_h : R) : R := mo_gamma_m.

(** ** HurricaneTempForcing.cpp:66-70 *)
Definition hurricane_temperature (dtdr dtzh ht vmean : R) : R := - (vmean * (dtdr * (dtzh - ht) / dtzh)).

(** ** Turbulence energy.  KsgsM84Src.H:41-51, KsgsM84Src.cpp:50-78 *)
Definition ceps_local (ce l ds : R) : R := (ce / (93/100)) * (19/100 + 74/100 * l / ds).
Definition ceps_ground (ce : R) : R := (39/10) / (93/100) * ce.
Definition m84_dissip (ce k l : R) : R := ce * sqrt k * k / l.
(** The source and the stored dissipation of a cell; [walls]: how many of the three low
    boundaries with a wall model the cell touches. *)
Fixpoint m84_walls (walls : nat) (ce k l src dis : R) : R * R :=
  match walls with
  | O => (src, dis)
  | S w => let src1 := src + dis in
           let dis1 := m84_dissip (ceps_ground ce) k l in
           m84_walls w ce k l (src1 - dis1) dis1
  end.
Definition m84_source (walls : nat) (ce k l ds shear buoy src0 : R) : R * R :=
  let dis := m84_dissip (ceps_local ce l ds) k l in
  m84_walls walls ce k l (src0 + (shear + buoy - dis)) dis.
(** KwSSTSrc.cpp:31-35; [diss] carries its sign. *)
Definition kwsst_source (nph : bool) (shear diss buoy : R) : R :=
  shear + (if nph then 1/2 else 1) * diss + buoy.

(** KransAxell.cpp:120-156 (no terrain); std::pow(x, 1.5) on nonnegative x is x*sqrt x;
    pow(x, 2/3) is given as [rans_b]. *)
Definition axell_surface (us cmu rans_b k dt : R) : R := (us * us / (cmu * cmu) + rans_b - k) / dt.
Definition axell_dissip (cmu k l : R) : R := cmu * cmu * cmu * (k * sqrt k) / (l + ceps).
Definition axell_source (kidx : Z) (cmu k l us rans_b shear buoy kref dt : R) : R :=
  let bc := if (kidx =? 0)%Z then axell_surface us cmu rans_b k dt else 0 in
  shear + buoy - axell_dissip cmu k l - (1 / dt * (k - kref) - bc).
(** 170-223 (with terrain); [src] is what the first loop left. *)
Definition axell_terrain (kidx : Z) (blank drag : R) (src cmu k us rans_b kref m dz dt : R) : R :=
  let tf := axell_surface us cmu rans_b k dt in
  let bc := if (kidx =? 0)%Z then (1 - blank) * tf else 0 in
  let cd := rmin (10 / (dz * m + ceps)) (100 / dz) in
  (1 - blank) * src + drag * tf + blank * (- cd * m * k) - (1 / dt * (k - kref) - bc).

(** ** TerrainDrag.cpp:124-154: blanking and drag flags of one column of cells with the
    terrain height [h]; 211-229 for waves, where the condition is on the wave volume
    fraction. *)
Definition cell_z (lo dz : R) (k : Z) : R := lo + (IZR k + 1/2) * dz.
Definition terrain_blank (lo dz h : R) (k : Z) : Z :=
  if Rleb (cell_z lo dz k) h && Rltb lo (cell_z lo dz k) then 1 else 0.
Definition wave_blank (lo dz : R) (vf : Z -> R) (k : Z) : Z :=
  if Rleb (1/2) (vf k) && Rltb lo (cell_z lo dz k) then 1 else 0.
Definition drag_flag (blank : Z -> Z) (k : Z) : Z :=
  if (blank k =? 0)%Z && (0 <? k)%Z && (blank (k - 1) =? 1)%Z then 1 else 0.
(** 137-142 *)
Definition terrain_z0 (has_file : bool) (tab : R) : R := if has_file then tab else 1/10.
