(** Immersed bodies: immersed_boundary/{IB.cpp,IBModel.H} and bluff_body/{bluff_body_ops.cpp,bluff_body_ops.H,
    box_ops.H,cylinder_ops.H,sphere_ops.H}, with the places they are called from (incflo.cpp,
    projection/incflo_apply_nodal_projection.cpp) and what a new mesh does to their fields (core/FieldRepo.cpp).

    One cell and one node at a time; ghost cells are cells.  The gradient of the level set is an argument (fvm gradient,
    C33), the effect of the pressure solve on a velocity any function, velocities on a new mesh any values.
    Numbers are real numbers. *)
From Coq Require Import Reals List.
From Verif Require Import BoxR VecSpace.
Import ListNotations.
Local Open Scope R_scope.

(** Box.H:8-14, Cylinder.H:11-16, Sphere.H:11-15 *)
Inductive shape : Type :=
| Sphere (c : vec) (r : R)
| Cylinder (c : vec) (r h : R)
| Box (c : vec) (l w h : R).

(** sphere_ops.H:75-80 and 95-97 (the same lines in the others): centre of a cell, place of a node *)
Definition cell_point (lo dx : vec) (i j k : Z) : vec :=
  V3 (vx lo + (IZR i + 0.5) * vx dx) (vy lo + (IZR j + 0.5) * vy dx) (vz lo + (IZR k + 0.5) * vz dx).
Definition node_point (lo dx : vec) (i j k : Z) : vec :=
  V3 (vx lo + IZR i * vx dx) (vy lo + IZR j * vy dx) (vz lo + IZR k * vz dx).

(** sphere_ops.H:82-86, cylinder_ops.H:78-81, box_ops.H:87-102 *)
Definition phi_loc (s : shape) (p : vec) : R :=
  match s with
  | Sphere c r => sqrt ((vx p - vx c) * (vx p - vx c) + (vy p - vy c) * (vy p - vy c) + (vz p - vz c) * (vz p - vz c)) - r
  | Cylinder c r h => sqrt ((vx p - vx c) * (vx p - vx c) + (vy p - vy c) * (vy p - vy c)) - r
  | Box c l w h =>
    let a := Rabs (vx p - vx c) - 0.5 * l in let b := Rabs (vy p - vy c) - 0.5 * w in let d := Rabs (vz p - vz c) - 0.5 * h in
    if (Rleb (Rabs (vx p - vx c)) (0.5 * l) && Rleb (Rabs (vy p - vy c)) (0.5 * w) && Rleb (Rabs (vz p - vz c)) (0.5 * h))%bool
    then rmax a (rmax b d) else rmin (Rabs a) (rmin (Rabs b) (Rabs d))
  end.
(** sphere_ops.H:99-104, cylinder_ops.H:94-99, box_ops.H:113-120: nodes taken out of the divergence *)
Definition blanks (s : shape) (dx p : vec) : bool :=
  match s with
  | Sphere c r => Rleb (sqrt ((vx p - vx c) * (vx p - vx c) + (vy p - vy c) * (vy p - vy c) + (vz p - vz c) * (vz p - vz c))) r
  | Cylinder c r h => Rleb (sqrt ((vx p - vx c) * (vx p - vx c) + (vy p - vy c) * (vy p - vy c))) r
  | Box c l w h =>
    (Rleb (Rabs (vx p - vx c)) (0.5 * l + 0.5 * vx dx) && Rleb (Rabs (vy p - vy c)) (0.5 * w + 0.5 * vy dx)
     && Rleb (Rabs (vz p - vz c)) (0.5 * h + 0.5 * vz dx))%bool
  end.

(** BluffBody.H:18-30, bluff_body_ops.cpp:20-29: a body, its manufactured-solution switch and its velocity as given *)
Record body : Type := BB { b_shape : shape; b_mms : bool; b_vel : list R }.

(** IB.cpp:59-67 with sphere_ops.H:87-88 and the like *)
Definition level_set (bs : list body) (p : vec) : R := fold_left (fun phi b => rmin (phi_loc (b_shape b) p) phi) bs (10 ^ 30).
(** incflo.cpp:106-110 (1 everywhere), then every body in turn *)
Definition node_mask (bs : list body) (dx p : vec) : Z := fold_left (fun m b => if blanks (b_shape b) dx p then 0%Z else m) bs 1%Z.
(** incflo_apply_nodal_projection.cpp:375-381: right-hand side of the pressure solve *)
Definition masked_rhs (bs : list body) (dx p : vec) (rhs : R) : R := rhs * IZR (node_mask bs dx p).

(** bluff_body_ops.cpp:33-82: velocity of the convecting vortex inside the level set; [vortex]: u0, v0, omega *)
Definition vortex : Type := (R * R * R)%type.
Definition mms_vel (vo : vortex) (t : R) (p : vec) (phi : R) (v : vec) : vec :=
  let '(u0, v0, omega) := vo in
  if Rleb phi 0 then
    V3 (u0 - cos (PI * (vx p - u0 * t)) * sin (PI * (vy p - v0 * t)) * exp (-2 * omega * t))
       (v0 + sin (PI * (vx p - u0 * t)) * cos (PI * (vy p - v0 * t)) * exp (-2 * omega * t)) 0
  else v.
(** 84-142: [vel_bc] is read before the loop *)
Definition dirichlet_vel (vel_bc : list R) (phi_b phi : R) (v : vec) : outcome vec :=
  match vel_bc with
  | a :: b :: c :: _ => Ret (if Rltb phi (- phi_b) then V3 a b c else if (Rltb phi 0 && Rleb (- phi_b) phi)%bool then V3 a b c else v)
  | _ => UB
  end.
(** 92-94 and 113-137 with core/field_ops.H:443-470: normal of a cell; [eps] is 1e4 times the machine epsilon *)
Definition normal_at (eps phi_b phi : R) (grad : vec) : vec :=
  let m := vmag_sqr grad in
  let n := if Rltb eps m then vdivs grad (sqrt m) else grad in
  if Rltb phi (- phi_b) then vzero else if (Rltb phi 0 && Rleb (- phi_b) phi)%bool then n else vzero.
(** bluff_body_ops.H:73-85, IB.cpp:104-110: all bodies in turn, each with the level set of all *)
Fixpoint update_velocities (vo : vortex) (t : R) (p : vec) (phi_b phi : R) (bs : list body) (v : vec) : outcome vec :=
  match bs with
  | [] => Ret v
  | b :: rest =>
    obind (if b_mms b then Ret (mms_vel vo t p phi v) else dirichlet_vel (b_vel b) phi_b phi v)
      (fun w => update_velocities vo t p phi_b phi rest w)
  end.

(** ** A run: a cell with its level set and velocity, a node with its mask *)
Record cell : Type := CL { c_phi : R; c_vel : vec; c_mask : Z }.
(** A pressure correction at time [t] whose solve changes the velocity of the cell by [proj]; a change of the mesh that remakes
    the level of the cell (or not) and leaves the velocity [v] *)
Inductive event : Type := Correct (t : R) (proj : vec -> vec) | Regrid (remade : bool) (v : vec).
Definition begin (bs : list body) (dx p q v : vec) : cell := CL (level_set bs p) v (node_mask bs dx q).
(** incflo_apply_nodal_projection.cpp:202-206: bodies before the solve; the hook after it (IB.cpp:82-86) has no caller.
    incflo.cpp:215-232, FieldRepo.cpp:32-78 and 430 (zero in a level that is made anew), IB.cpp:69 (nothing after a
    change of the mesh).  [handed]: velocities handed to the solves so far *)
Definition act (vo : vortex) (bs : list body) (p : vec) (phi_b : R) (e : event) (s : cell * list vec) : outcome (cell * list vec) :=
  let '(c, handed) := s in
  match e with
  | Correct t proj =>
    obind (update_velocities vo t p phi_b (c_phi c) bs (c_vel c))
      (fun v => Ret (CL (c_phi c) (proj v) (c_mask c), handed ++ [v]))
  | Regrid remade v => Ret (CL (if remade then 0 else c_phi c) v 1%Z, handed)
  end.
Fixpoint life (vo : vortex) (bs : list body) (p : vec) (phi_b : R) (es : list event) (s : cell * list vec) : outcome (cell * list vec) :=
  match es with
  | [] => Ret s
  | e :: rest => obind (act vo bs p phi_b e s) (life vo bs p phi_b rest)
  end.
