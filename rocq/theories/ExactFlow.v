(** Model of the flows amr-wind compares itself with, or starts from, in closed form:
    physics/ConvectingTaylorVortex.cpp, EkmanSpiral.cpp, BurggrafFlow.cpp with udfs/BurggrafLid.H,
    ChannelFlow.cpp/.H, TaylorGreenVortex.cpp, VortexDipole.cpp, multiphase/VortexPatch.cpp,
    multiphase/ZalesakDisk.cpp, ScalarAdvection.cpp.
    Numbers are reals; [std::pow] with an integer exponent is the power, with 3/2 it is [Rpower]
    (arguments above zero only).  A field on the mesh is the function below at the centre of each
    cell, or at the face where that is said; the mesh mapping is not modelled except in the norm. *)
From Coq Require Import Reals ZArith List Bool.
From Verif Require Import BoxR VecSpace MultiPhase.
Import ListNotations.
Local Open Scope R_scope.

(** ** ConvectingTaylorVortex.cpp:17-89 *)
Definition ctv_u (u0 v0 om x y t : R) : R :=
  u0 - cos (PI * (x - u0 * t)) * sin (PI * (y - v0 * t)) * exp (- 2 * om * t).
Definition ctv_v (u0 v0 om x y t : R) : R :=
  v0 + sin (PI * (x - u0 * t)) * cos (PI * (y - v0 * t)) * exp (- 2 * om * t).
Definition ctv_gpx (u0 om x t : R) : R := / 2 * PI * sin (2 * PI * (x - u0 * t)) * exp (- 4 * om * t).
Definition ctv_gpy (v0 om y t : R) : R := / 2 * PI * sin (2 * PI * (y - v0 * t)) * exp (- 4 * om * t).
(** 115-116 *)
Definition ctv_omega (nu : R) : R := PI * PI * nu.
(** 206-209: set once, at the start *)
Definition ctv_p (x y : R) : R := - / 4 * (cos (2 * PI * x) + cos (2 * PI * y)).

(** ** EkmanSpiral.cpp:22-39 *)
Definition ek_u (v0 a z : R) : R := v0 * (1 - exp (- a * z) * cos (- a * z)).
Definition ek_v (v0 a z : R) : R := - v0 * exp (- a * z) * sin (- a * z).
(** 61: [2 * two_pi / rotational_time_period]; 92; 113 *)
Definition ek_factor (period : R) : R := 2 * (2 * PI) / period.
Definition ek_depth (visc period : R) : R := sqrt (2 * visc / ek_factor period).
Definition ek_a (visc period : R) : R := 1 / ek_depth visc period.

(** ** BurggrafFlow.cpp:16-32 *)
Definition bg_u (x y : R) : R := 8 * (x ^ 4 - 2 * x ^ 3 + x ^ 2) * (4 * y ^ 3 - 2 * y).
Definition bg_v (x y : R) : R := - 8 * (4 * x ^ 3 - 6 * x ^ 2 + 2 * x) * (y ^ 4 - y ^ 2).
(** 65, 84-112: the force in y; the other two components are zero (109, 113) *)
Definition bg_src (nu x y : R) : R :=
  let re := 1 / nu in
  let f := x ^ 4 - 2 * x ^ 3 + x ^ 2 in
  let f1 := 4 * x ^ 3 - 6 * x ^ 2 + 2 * x in
  let f3 := 24 * x - 12 in
  let g := y ^ 4 - y ^ 2 in
  let g1 := 4 * y ^ 3 - 2 * y in
  let g2 := 12 * y ^ 2 - 2 in
  let F := x ^ 5 / 5 - x ^ 4 / 2 + x ^ 3 / 3 in
  let F1 := - 4 * x ^ 6 + 12 * x ^ 5 - 14 * x ^ 4 + 8 * x ^ 3 - 2 * x ^ 2 in
  let F2 := f * f / 2 in
  let G1 := - 24 * y ^ 5 + 8 * y ^ 3 - 4 * y in
  8 / re * (24 * F + 2 * f1 * g2 + f3 * g) + 64 * (F2 * G1 - g * g1 * F1).
(** udfs/BurggrafLid.H:33-41: values at the lid, [x] the centre of the cell; the array has one
    given value and two zeros *)
Definition lid (x : R) (comp : nat) : R :=
  match comp with O => 16 * (x ^ 4 - 2 * x ^ 3 + x ^ 2) | _ => 0 end.
(** What a cell of the force field holds along a history of the run ([None]: never written).
    The field is declared at BurggrafFlow.cpp:42 without being filled on a regrid
    (FieldRepo.cpp:45,69; Field.H:438), written by initialize_fields (109-113), which only
    incflo.cpp:401-403 calls, on a level made from scratch; the physics does nothing after a regrid
    (BurggrafFlow.H:61) and a restart reads registered fields only (incflo.cpp:70-75). *)
Inductive bg_event : Type := Scratch | Regrid | Restarted | Step.
Definition bg_after (nu x y : R) (c : option R) (e : bg_event) : option R :=
  match e with Scratch => Some (bg_src nu x y) | Regrid | Restarted => None | Step => c end.
Definition bg_cell (nu x y : R) (h : list bg_event) : option R := fold_left (bg_after nu x y) h None.

(** ** TaylorGreenVortex.cpp:32-34, 41-51; the third component is zero *)
Definition tg_u (lx ly lz x y z : R) : R :=
  sin (2 * PI * x / lx) * cos (2 * PI * y / ly) * cos (2 * PI * z / lz).
Definition tg_v (lx ly lz x y z : R) : R :=
  - cos (2 * PI * x / lx) * sin (2 * PI * y / ly) * cos (2 * PI * z / lz).

(** ** ChannelFlow.cpp *)
(** 239-264: height from the ends of the domain, doubled for half a channel; 322-323 *)
Definition ch_height (half : bool) (lo hi : R) : R := let ht := hi - lo in if half then ht * 2 else ht.
Definition ch_exact (mu force ht y : R) : R := 1 / (2 * mu) * - force * (y * y - y * ht).
(** 164-166, 196-199: distance to the nearer wall *)
Definition ch_fold (h : R) : R := if Rltb 1 h then 2 - h else h.
(** 138, 145-146, 209-214: waves added to the second and third component *)
Definition ch_perty (amp ky kz y z : R) : R := kz * amp * sin (ky * y) * cos (kz * z).
Definition ch_pertz (amp ky kz y z : R) : R := - ky * amp * cos (ky * y) * sin (kz * z).
Definition ch_wave (n len : R) : R := n * 2 * PI / len.
(** 202-206 *)
Definition ch_law (utau kappa ytau h : R) : R :=
  let hp := h / ytau in
  utau * (1 / kappa * ln (1 + kappa * hp)
          + 78 / 10 * (1 - exp (- hp / 11) - hp / 11 * exp (- hp / 3))).
(** ChannelFlow.H:14-34 *)
Definition smag_arg (h cs dx rho mu dpdx c1 : R) : R :=
  let a := cs * cs * (dx * dx) in 2 / a * dpdx * h + mu / (rho * a) * (mu / (rho * a)) + c1.
Definition smag_profile (h cs dx rho mu dpdx c0 c1 : R) : R :=
  let a := cs * cs * (dx * dx) in
  - mu / (rho * a) * h + a / (3 * dpdx) * Rpower (smag_arg h cs dx rho mu dpdx c1) (3 / 2) + c0.

(** ** VortexDipole.cpp:57-79 ([w] is omegaEmag) *)
Definition dip_r (x z x1 z1 : R) : R := sqrt ((x - x1) * (x - x1) + (z - z1) * (z - z1)).
Definition dip_u (ub w r0 x1 z1 x2 z2 x z : R) : R :=
  ub + - / 2 * w * (z - z1) * exp (- (dip_r x z x1 z1 / r0) * (dip_r x z x1 z1 / r0))
     + / 2 * w * (z - z2) * exp (- (dip_r x z x2 z2 / r0) * (dip_r x z x2 z2 / r0)).
Definition dip_w (wb w r0 x1 z1 x2 z2 x z : R) : R :=
  wb + / 2 * w * (x - x1) * exp (- (dip_r x z x1 z1 / r0) * (dip_r x z x1 z1 / r0))
     + - / 2 * w * (x - x2) * exp (- (dip_r x z x2 z2 / r0) * (dip_r x z x2 z2 / r0)).

(** ** VortexPatch.cpp:151-168, 196-213 (at the start, 68-98, without the last factor);
    the same in VortexPatchScalarVel.cpp:159-176 *)
Definition vp_u (tt x y z t : R) : R :=
  2 * sin (PI * x) * sin (PI * x) * sin (2 * PI * y) * sin (2 * PI * z) * cos (PI * t / tt).
Definition vp_v (tt x y z t : R) : R :=
  - sin (PI * y) * sin (PI * y) * sin (2 * PI * x) * sin (2 * PI * z) * cos (PI * t / tt).
Definition vp_w (tt x y z t : R) : R :=
  - sin (PI * z) * sin (PI * z) * sin (2 * PI * x) * sin (2 * PI * y) * cos (PI * t / tt).
(** 145-150: face and centre of a cell *)
Definition face (lo d : R) (i : Z) : R := lo + IZR i * d.
Definition centre (lo d : R) (i : Z) : R := lo + (IZR i + / 2) * d.
(** 151-168: the velocities on the low faces of cell (i,j,k) *)
Definition vp_umac (tt lox loy loz dx dy dz t : R) (i j k : Z) : R :=
  vp_u tt (face lox dx i) (centre loy dy j) (centre loz dz k) t.
Definition vp_vmac (tt lox loy loz dx dy dz t : R) (i j k : Z) : R :=
  vp_v tt (centre lox dx i) (face loy dy j) (centre loz dz k) t.
Definition vp_wmac (tt lox loy loz dx dy dz t : R) (i j k : Z) : R :=
  vp_w tt (centre lox dx i) (centre loy dy j) (face loz dz k) t.
(** 125-126: time at which a step from [t] of size [dt] sees the velocities *)
Definition vp_time (t dt : R) : R := t + / 2 * dt.
(** 100-103 *)
Definition ball (radius xc yc zc x y z : R) : R :=
  radius - sqrt ((x - xc) * (x - xc) + (y - yc) * (y - yc) + (z - zc) * (z - zc)).
(** 104-118 and ZalesakDisk.cpp:124-139, with the width of 58 and 125 as [eps] *)
Definition mixed_density (rho1 rho2 eps phi : R) : R :=
  rho1 * heaviside eps phi + rho2 * (1 - heaviside eps phi).

(** ** ZalesakDisk.cpp:70-80, 171-177, 204-210 *)
Definition zal_u (tt y : R) : R := 2 * PI / tt * (/ 2 - y).
Definition zal_v (tt x : R) : R := 2 * PI / tt * (x - / 2).
(** 82-122 *)
Definition zal_phi (radius hwidth depth xc yc zc x y z : R) : R :=
  let phi := ball radius xc yc zc x y z in
  let sd_xr := - hwidth + (x - xc) in
  let sd_xl := - hwidth - (x - xc) in
  let sd_x := rmax sd_xr sd_xl in
  let sd_y := radius - depth - (y - yc) in
  let min_signed_dist := rmax sd_x sd_y in
  let reduced_radius := sqrt (radius * radius - hwidth * hwidth) in
  let r_2d := sqrt ((y - yc) ^ 2 + (z - zc) ^ 2) in
  let sd_r := - sqrt ((r_2d - reduced_radius) ^ 2 + sd_x ^ 2) in
  if (Rltb (radius - depth) (y - yc) && Rltb (Rabs (x - xc)) hwidth)%bool
  then (if Rltb r_2d reduced_radius then min_signed_dist else sd_r)
  else rmin phi min_signed_dist.

(** ** ScalarAdvection.cpp:66-87 *)
Definition square_pulse (x dx x0 amplitude width : R) : R :=
  if Rltb (Rabs (Rabs (x - x0) - width / 2)) (dx / 2)
  then amplitude * (width / 2 - Rabs (x - x0) + dx / 2) / dx
  else if Rltb (Rabs (x - x0)) (width / 2) then amplitude else 0.
(** 12-35 for any [erf] *)
Definition gaussian_pulse (erf : R -> R) (x dx x0 amplitude width : R) : R :=
  if Rltb (Rabs (x - x0)) (6 * width)
  then sqrt (PI / 2) * amplitude * width *
       (erf ((x - x0 + dx / 2) / (sqrt 2 * width)) - erf ((x - x0 - dx / 2) / (sqrt 2 * width))) / dx
  else 0.
(** 37-64 *)
Definition gaussian_pulse2 (erf : R -> R) (x y dx dy x0 y0 amplitude wx wy : R) : R :=
  if (Rltb (Rabs (x - x0)) (6 * wx) && Rltb (Rabs (y - y0)) (6 * wy))%bool
  then PI / 2 * amplitude * wx * wy *
       (erf ((x - x0 + dx / 2) / (sqrt 2 * wx)) - erf ((x - x0 - dx / 2) / (sqrt 2 * wx))) *
       (erf ((y - y0 + dy / 2) / (sqrt 2 * wy)) - erf ((y - y0 - dy / 2) / (sqrt 2 * wy))) / dx / dy
  else 0.
(** 119-134, 89-117 *)
Definition packet (x x0 amplitude width k : R) : R :=
  if Rltb (Rabs (x - x0)) (6 * width)
  then amplitude * cos (k * x) * exp (- (x - x0) ^ 2 / (2 * width ^ 2)) else 0.
Definition quad_node : R := 7745966692 / 10 ^ 10.
Definition quad_side : R := 5555555556 / 10 ^ 10.
Definition quad_mid : R := 8888888889 / 10 ^ 10.
Definition quad_average (f : R -> R) (x dx : R) : R :=
  (quad_side * f (x + - quad_node * / 2 * dx) + quad_mid * f (x + 0 * / 2 * dx)
   + quad_side * f (x + quad_node * / 2 * dx)) / 2.
Definition packet_average (x dx x0 amplitude width k : R) : R :=
  quad_average (fun s => packet s x0 amplitude width k) x dx.
(** 291-298: what a cell is compared with at time [t] *)
Definition advected (shape : R -> R -> R) (u v t x y : R) : R := shape (x - u * t) (y - v * t).

(** ** The norm of the difference.  A cell of the composite mesh: its size along each axis, the
    factors of the mesh mapping (1 without one), whether it counts (not under a finer level, and
    for the vortex not blanked), what it holds, and what it should hold. *)
Record ecell : Type := ECell {
  e_dx : R * R * R; e_fac : R * R * R; e_mask : bool; e_val : R; e_exact : R }.
Definition e_vol (c : ecell) : R :=
  let '(dx, dy, dz) := e_dx c in let '(fx, fy, fz) := e_fac c in dx * fx * dy * fy * dz * fz.
Definition e_on (c : ecell) : R := if e_mask c then 1 else 0.
Definition e_err (c : ecell) : R := e_vol c * e_on c * (e_val c - e_exact c) * (e_val c - e_exact c).
Definition rsum (l : list R) : R := fold_left Rplus l 0.
(** ConvectingTaylorVortex.cpp:218-313: divided by the volume of the cells that count *)
Definition norm_counted (l : list ecell) : R :=
  sqrt (rsum (map e_err l) / rsum (map (fun c => e_vol c * e_on c) l)).
(** ChannelFlow.cpp:233-336 and 341-401, BurggrafFlow.cpp:121-169, EkmanSpiral.cpp:137-187:
    divided by the volume between the ends of the unmapped domain *)
Definition norm_domain (volume : R) (l : list ecell) : R := sqrt (rsum (map e_err l) / volume).
(** ScalarAdvection.cpp:262-311: one number per level and one for all levels *)
Definition norm_levels (volume : R) (levels : list (list ecell)) : list R :=
  map (fun l => sqrt (rsum (map e_err l) / volume)) levels
  ++ [sqrt (rsum (map (fun l => rsum (map e_err l)) levels) / volume)].
