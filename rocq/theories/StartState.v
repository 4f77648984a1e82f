(** Model of what the two-phase, buoyant and vortical cases start from:
    physics/multiphase/DamBreak.cpp, RainDrop.cpp, SloshingTank.cpp, BreakingWaves.cpp,
    ZalesakDiskScalarVel.cpp (the scalar), physics/RayleighTaylorFieldInit.cpp,
    BoussinesqBubbleFieldInit.cpp, VortexRing.cpp.
    Numbers are reals; [std::pow(., 2.0)] is the square and [std::hypot] the root of the sum of
    squares.  A field is the function below at the centre of a cell, at a node where that is said.
    The linear solve of the vortex ring is not modelled: the potential is any function on the
    nodes; that AMReX's nodal operator with coefficient one (VortexRing.cpp:199-202) is the Laplacian,
    with its sign, is taken from AMReX's manual. *)
From Coq Require Import Reals ZArith List Bool.
From Verif Require Import BoxR VecSpace MultiPhase.
Import ListNotations.
Local Open Scope R_scope.

(** ** DamBreak.cpp:58-67 *)
Definition dam_phi (xc zc width height x z : R) : R :=
  if (Rltb (x - xc) width && Rltb (z - zc) height)%bool then rmin (width - x) (height - z)
  else if (Rltb (x - xc) width && Rltb height (z - zc))%bool then height - (z - zc)
  else if (Rltb width (x - xc) && Rltb (z - zc) height)%bool then width - (x - xc)
  else rmin (width - (x - xc)) (height - (z - zc)).
(** 51, 68-82: the width of the smoothing is [eps]; the same in BreakingWaves.cpp:108-124 *)
Definition start_density (rho1 rho2 eps phi : R) : R :=
  rho1 * heaviside eps phi + rho2 * (1 - heaviside eps phi).

(** ** RainDrop.cpp *)
(** 47-50 *)
Definition drop_phi (radius xc yc zc x y z : R) : R :=
  radius - sqrt ((x - xc) * (x - xc) + (y - yc) * (y - yc) + (z - zc) * (z - zc)).
(** 79-97: the volume fraction if there is one, else a smoothed level set *)
Definition drop_share (eps : R) (vof : option R) (phi : R) : R :=
  match vof with Some f => f | None => heaviside eps phi end.
(** 98-101: one component *)
Definition drop_vel (rhol rhog share v : R) : R :=
  share * rhol * v / ((1 - share) * rhog + share * rhol).

(** ** SloshingTank.cpp *)
(** 61-66, 78-84: the surface; [lx], [ly] the lengths of the domain *)
Definition tank_surface (level amp kappa lox loy lx ly x y : R) : R :=
  level + amp * exp (- kappa * ((x - lox - / 2 * lx) ^ 2 + (y - loy - / 2 * ly) ^ 2)).
(** 67 *)
Definition tank_phi (z0 z : R) : R := z0 - z.
(** 85-95, at a node *)
Definition tank_pressure (rho1 rho2 grav_z loz hiz z0 z : R) : R :=
  let ih_g := rmax 0 (rmin (hiz - z0) (hiz - z)) in
  let ih_l := rmax 0 (rmin (z0 - z) (z0 - loz)) in
  - (rho1 * ih_l + rho2 * ih_g) * grav_z.

(** ** BreakingWaves.cpp *)
(** 84-85 *)
Definition bw_kappa (lambda : R) : R := 2 * PI / lambda.
(** 86-94 *)
Definition bw_eta (alpha lambda level x : R) : R :=
  let kappa := bw_kappa lambda in
  let epsilon := alpha * kappa in
  level + alpha * ((1 - 1 / 16 * epsilon * epsilon) * cos (kappa * x)
                   + / 2 * epsilon * cos (2 * kappa * x)
                   + 3 / 8 * epsilon * epsilon * cos (3 * kappa * x)).
(** 97-99 *)
Definition bw_omega (alpha lambda : R) : R :=
  let kappa := bw_kappa lambda in
  let epsilon := alpha * kappa in sqrt (981 / 100 * kappa * (1 + epsilon * epsilon)).
(** 101-104 *)
Definition bw_water_u (alpha lambda x z : R) : R :=
  bw_omega alpha lambda * alpha * exp (bw_kappa lambda * z) * cos (bw_kappa lambda * x).
Definition bw_water_w (alpha lambda x z : R) : R :=
  bw_omega alpha lambda * alpha * exp (bw_kappa lambda * z) * sin (bw_kappa lambda * x).
(** 59, 100-107: the velocities were set to zero before *)
Definition bw_vel (alpha lambda level shear x z : R) : R * R * R :=
  let eta := bw_eta alpha lambda level x in
  if Rltb z eta then (bw_water_u alpha lambda x z, 0, bw_water_w alpha lambda x z)
  else (shear * (z - eta), 0, 0).

(** ** RayleighTaylorFieldInit.cpp:31-48 *)
Definition rt_height (lox hix loy hiy x y : R) : R :=
  let splitx := / 2 * (lox + hix) in
  let splity := / 2 * (loy + hiy) in
  let lx := hix - lox in
  let r2d := rmin (sqrt ((x - splitx) ^ 2 + (y - splity) ^ 2)) (/ 2 * lx) in
  / 2 - / 100 * cos (2 * PI * r2d / lx).
Definition rt_density (rho1 rho2 height z : R) : R :=
  rho1 + (rho2 - rho1) / 2 * (1 + tanh ((z - height) / (5 / 1000))).

(** ** BoussinesqBubbleFieldInit.cpp:53-61 *)
Definition bubble_value (inner outer radius xc yc zc x y z : R) : R :=
  if Rltb (sqrt ((x - xc) * (x - xc) + (y - yc) * (y - yc) + (z - zc) * (z - zc))) radius
  then inner else outer.

(** ** ZalesakDiskScalarVel.cpp:26-42 (compared with) and 173-180 (set) *)
Definition sc_exact (xc0 yc0 zc0 x y z radius alpha : R) : R :=
  let xr := xc0 - / 2 in
  let yr := yc0 - / 2 in
  let xc := / 2 + cos alpha * xr - sin alpha * yr in
  let yc := / 2 + sin alpha * xr + cos alpha * yr in
  let dnorm := sqrt ((x - xc) * (x - xc) + (y - yc) * (y - yc) + (z - zc0) * (z - zc0)) / radius in
  rmin 1 (rmax 0 (3 / 2 - dnorm)).
Definition sc_start (xc yc zc x y z radius : R) : R :=
  let dnorm := sqrt ((x - xc) * (x - xc) + (y - yc) * (y - yc) + (z - zc) * (z - zc)) / radius in
  rmin 1 (rmax 0 (3 / 2 - dnorm)).
(** 320 *)
Definition sc_angle (tt time : R) : R := time * 2 * PI / tt.

(** ** VortexRing.cpp *)
(** 30-35 *)
Definition fat_core (r z radius gamma : R) : R :=
  let rsq := radius ^ 2 in
  let ssq := z ^ 2 + (r - radius) ^ 2 in
  if Rltb ssq rsq then 54857674 / 10 ^ 8 * gamma / rsq * exp (- 4 * ssq / (rsq - ssq)) else 0.
(** 52-63 with the copies at 146-161: the phases are copied into arrays as long as the list of
    modes, so that a longer list overruns and a shorter one leaves entries unset *)
Definition ring_dr (amp theta : R) (modes : list Z) (phases : list R) : outcome R :=
  match modes with
  | [] => Ret 0
  | _ => if Nat.eqb (length phases) (length modes)
         then Ret (fold_left Rplus (map (fun mp => amp * cos (IZR (fst mp) * theta - snd mp)) (combine modes phases)) 0)
         else UB
  end.
(** 64-76 *)
Definition ring_core (gamma delta ssq : R) : R := gamma / (PI * delta ^ 2) * exp (- ssq / delta ^ 2).
Definition two_rings (r z radius gamma delta dz dr1 dr2 : R) : R :=
  ring_core (- gamma) delta ((z + dz / 2) ^ 2 + (r * (1 + dr1) - radius) ^ 2)
  + ring_core gamma delta ((z - dz / 2) ^ 2 + (r * (1 + dr2) - radius) ^ 2).
(** 189-191: what is handed to the solve, at a node *)
Definition minus_vort (theta v : R) : R * R * R := (sin theta * v, - cos theta * v, 0).
(** 261-263, 267-320: differences of a function on the nodes, averaged over a cell *)
Definition cell_dx (f : Z -> Z -> Z -> R) (d : R) (i j k : Z) : R :=
  / 4 * (1 / d) * (- f i j k + f (i + 1)%Z j k - f i (j + 1)%Z k + f (i + 1)%Z (j + 1)%Z k
    - f i j (k + 1)%Z + f (i + 1)%Z j (k + 1)%Z - f i (j + 1)%Z (k + 1)%Z + f (i + 1)%Z (j + 1)%Z (k + 1)%Z).
Definition cell_dy (f : Z -> Z -> Z -> R) (d : R) (i j k : Z) : R :=
  / 4 * (1 / d) * (- f i j k - f (i + 1)%Z j k + f i (j + 1)%Z k + f (i + 1)%Z (j + 1)%Z k
    - f i j (k + 1)%Z - f (i + 1)%Z j (k + 1)%Z + f i (j + 1)%Z (k + 1)%Z + f (i + 1)%Z (j + 1)%Z (k + 1)%Z).
Definition cell_dz (f : Z -> Z -> Z -> R) (d : R) (i j k : Z) : R :=
  / 4 * (1 / d) * (- f i j k - f (i + 1)%Z j k - f i (j + 1)%Z k - f (i + 1)%Z (j + 1)%Z k
    + f i j (k + 1)%Z + f (i + 1)%Z j (k + 1)%Z + f i (j + 1)%Z (k + 1)%Z + f (i + 1)%Z (j + 1)%Z (k + 1)%Z).
(** 322-324 *)
Definition ring_u (py pz : Z -> Z -> Z -> R) (dy dz : R) (i j k : Z) : R := - (cell_dy pz dy i j k - cell_dz py dz i j k).
Definition ring_v (px pz : Z -> Z -> Z -> R) (dx dz : R) (i j k : Z) : R := - (cell_dz px dz i j k - cell_dx pz dx i j k).
Definition ring_w (px py : Z -> Z -> Z -> R) (dx dy : R) (i j k : Z) : R := - (cell_dx py dx i j k - cell_dy px dy i j k).
