(** Turbulence from a file: physics/SyntheticTurbulence.{H,cpp},
    equation_systems/icns/source_terms/SynthTurbForcing.cpp.

    Exact reals.  The file holds three components on a grid of nx by ny by nz points; a plane outside the
    file stops the program (an error of NetCDF), all other reads of it succeed.  The powers of the power law have a positive
    base, the reference height and the smearing length are positive.  Conversions to int do not overflow. *)
From Verif Require Import BoxR VecSpace.
Local Open Scope R_scope.

(** SyntheticTurbulence.cpp:124-155: numbers of points, lengths and spacings, by direction. *)
Record tbox : Type := TB { tb_n : Z -> Z; tb_len : Z -> R; tb_dx : Z -> R }.
(** A component, a plane, a row and a column of the file. *)
Definition tfile : Type := Z -> Z -> Z -> Z -> R.

(** 236-251, 266-287 *)
Definition in_period (len x : R) : R := x - IZR (rfloor (x / len)) * len.
Definition left_index (T : tbox) (d : Z) (x : R) : Z := rfloor (in_period (tb_len T d) x / tb_dx T d).
Definition right_index (T : tbox) (d : Z) (il : Z) : Z :=
  if (tb_n T d <=? il + 1)%Z then (il + 1 - tb_n T d)%Z else (il + 1)%Z.
Definition right_weight (T : tbox) (d : Z) (x : R) : R :=
  (in_period (tb_len T d) x - tb_dx T d * IZR (left_index T d x)) / tb_dx T d.
Definition left_weight (T : tbox) (d : Z) (x : R) : R := 1 - right_weight T d x.

(** 166-224: two planes, one after the other; both at once if they are neighbours in the file. *)
Definition plane_size (T : tbox) : Z := (tb_n T 1 * tb_n T 2)%Z.
Definition from_plane (T : tbox) (F : tfile) (comp i p : Z) : R := F comp i (p / tb_n T 2)%Z (p mod tb_n T 2)%Z.
Definition load (T : tbox) (F : tfile) (il ir : Z) : outcome (Z -> Z -> R) :=
  let ns := plane_size T in
  if (ir - il =? 1)%Z then
    if ((0 <=? il) && (il + 2 <=? tb_n T 0))%Z then
      Ret (fun comp p => from_plane T F comp (il + p / ns) (p mod ns))%Z
    else Abort
  else
    if ((0 <=? il) && (il + 1 <=? tb_n T 0) && (0 <=? ir) && (ir + 1 <=? tb_n T 0))%Z then
      Ret (fun comp p => if (p <? ns)%Z then from_plane T F comp il p else from_plane T F comp ir (p - ns)%Z)
    else Abort.

(** 296-312 *)
Definition across (T : tbox) (d : Z) (x : R) : R := x + tb_len T d * 0.5.
Definition in_box (T : tbox) (pt : vec) : bool :=
  let yy := across T 1 (vy pt) in let zz := across T 2 (vz pt) in
  (Rleb 0 yy && Rleb yy (tb_len T 1) && Rleb 0 zz && Rleb zz (tb_len T 2))%bool.

(** 316-362: positions of the corners in a plane, and one component *)
Definition corners (T : tbox) (jl jr kl kr : Z) : list Z :=
  let nz := tb_n T 2 in [(jl * nz + kl)%Z; (jr * nz + kl)%Z; (jr * nz + kr)%Z; (jl * nz + kr)%Z].
Definition quad (mem : Z -> R) (q : list Z) (yl yr zl zr : R) : R :=
  match q with
  | [q0; q1; q2; q3] => yl * zl * mem q0 + yr * zl * mem q1 + yr * zr * mem q2 + yl * zr * mem q3
  | _ => 0
  end.
Definition perturbation (T : tbox) (mem : Z -> Z -> R) (xl xr : R) (pt : vec) (comp : Z) : R :=
  let y := across T 1 (vy pt) in let z := across T 2 (vz pt) in
  let jl := left_index T 1 y in let kl := left_index T 2 z in
  let q := corners T jl (right_index T 1 jl) kl (right_index T 2 kl) in
  let w := quad (mem comp) in
  xl * w q (left_weight T 1 y) (right_weight T 1 y) (left_weight T 2 z) (right_weight T 2 z)
  + xr * w (map (fun i => i + tb_n T 1 * tb_n T 2)%Z q) (left_weight T 1 y) (right_weight T 1 y) (left_weight T 2 z) (right_weight T 2 z).

(** 19-33, 62-79, SyntheticTurbulence.H:20-29: mean wind speed at a height *)
Inductive profile : Type :=
| PConst (ref : R)
| PLinear (hmin hmax vstart vstop : R) (dir : Z)
| PPower (ref href alpha off umin umax : R) (dir : Z).
Definition mean_speed (P : profile) (h : R) : R :=
  match P with
  | PConst ref => ref
  | PLinear hmin hmax v0 v1 _ => rmax v0 (rmin (v0 + (v1 - v0) * (h - hmin) / (hmax - hmin)) v1)
  | PPower ref href alpha off umin umax _ =>
      let heff := h - off in
      ref * rmin (rmax (if Rltb 0 heff then Rpower (heff / href) alpha else 0) umin) umax
  end.
(** 45, 92, SyntheticTurbulence.H:40 *)
Definition ref_speed (P : profile) : R :=
  match P with PConst ref => ref | PLinear _ _ v0 v1 _ => 0.5 * (v0 + v1) | PPower ref _ _ _ _ _ _ => ref end.
Definition shear_dir (P : profile) : Z :=
  match P with PConst _ => 2%Z | PLinear _ _ _ _ d => d | PPower _ _ _ _ _ _ d => d end.
(** 390-446; [mean] is the name given *)
Inductive mean_input : Type :=
| MConst (vel : vec)
| MLinear (zmin zmax : R) (v0 v1 : vec) (dir : Z)
| MPower (zref : R) (vel : vec) (alpha zoff umin umax : R) (dir : Z)
| MOther.
Definition make_profile (m : mean_input) : outcome profile :=
  match m with
  | MConst vel => Ret (PConst (vmag vel))
  | MLinear z0 z1 v0 v1 d => Ret (PLinear z0 z1 (vmag v0) (vmag v1) d)
  | MPower zref vel alpha zoff umin umax d =>
      Ret (PPower (vmag vel) zref alpha zoff (umin / vmag vel) (umax / vmag vel) d)
  | MOther => Abort
  end.

(** 366-490: the settings; the direction is a compass direction. *)
Record tset : Type := TS {
  ts_box : tbox; ts_file : tfile; ts_wind : R; ts_origin : vec; ts_profile : profile; ts_eps : R; ts_offset : R; ts_duration : R }.
Definition frame (S : tset) : tensor := zrot (270 - ts_wind S).
(** 450-452, 636-641 *)
Definition smear (eps x : R) : R := exp (- (x / eps * (x / eps))) * (1 / (eps * sqrt PI)).
Definition coord (v : vec) (d : Z) : R := if (d =? 0)%Z then vx v else if (d =? 1)%Z then vy v else vz v.
(** 594-651: the force in a cell at [x] with density [rho]; None: not written *)
Definition cell_force (S : tset) (mem : Z -> Z -> R) (xl xr : R) (x : vec) (rho : R) : option vec :=
  let T := ts_box S in
  let xyz_l := tapp (frame S) (vsub x (ts_origin S)) in
  if in_box T xyz_l then
    let v c := perturbation T mem xl xr xyz_l c in
    let vel_g := vapp (V3 (v 0%Z) (v 1%Z) (v 2%Z)) (frame S) in
    let total := mean_speed (ts_profile S) (coord x (shear_dir (ts_profile S))) + 0.5 * vmag vel_g in
    let factor := total * smear (ts_eps S) (vx xyz_l) in
    Some (V3 (rho * vx vel_g * factor) (rho * vy vel_g * factor) (rho * vz vel_g * factor))
  else None.

(** ** Steps *)

(** What is kept from step to step: the planes in memory, and the force in every cell. *)
Record tstate (C : Type) : Type := TST { st_left : option Z; st_mem : Z -> Z -> R; st_force : C -> vec }.
Arguments TST {C}. Arguments st_left {C}. Arguments st_mem {C}. Arguments st_force {C}.
(** FieldRepo.cpp:420-432, 449: new fields are zero *)
Definition start {C} : tstate C := TST None (fun _ _ => 0) (fun _ => vzero).
Definition position (S : tset) (t : R) : R := ref_speed (ts_profile S) * (t - ts_offset S).
(** 505-517 *)
Definition initialize {C} (S : tset) (t : R) (st : tstate C) : outcome (tstate C) :=
  let il := left_index (ts_box S) 0 (position S t) in
  obind (load (ts_box S) (ts_file S) il (right_index (ts_box S) 0 il)) (fun m => Ret (TST (Some il) m (st_force st))).
(** 519-563 with 565-654 *)
Definition update {C} (S : tset) (pos : C -> vec) (rho : C -> R) (t : R) (st : tstate C) : outcome (tstate C) :=
  if (Rltb 0 (ts_duration S) && Rltb (ts_duration S) (t - ts_offset S))%bool then
    Ret (TST (st_left st) (st_mem st) (fun _ => vzero))
  else
    let T := ts_box S in
    let x := position S t in
    let il := left_index T 0 x in
    obind (if (match st_left st with Some l => (il =? l)%Z | None => false end) then Ret st
           else obind (load T (ts_file S) il (right_index T 0 il)) (fun m => Ret (TST (Some il) m (st_force st))))
      (fun st => Ret (TST (st_left st) (st_mem st) (fun c =>
         match cell_force S (st_mem st) (left_weight T 0 x) (right_weight T 0 x) (pos c) (rho c) with
         | Some f => f | None => st_force st c end))).
(** 496-503 *)
Definition pre_advance {C} (S : tset) (pos : C -> vec) (rho : C -> R) (t : R) (st : tstate C) : outcome (tstate C) :=
  obind (match st_left st with None => initialize S t st | Some _ => Ret st end) (update S pos rho t).

(** The cells of a mesh: places; a regrid replaces them (FieldRepo.cpp:56-80: the field is made anew, and is
    zero, as it has no fill-patch operator). *)
Inductive tevent (C : Type) : Type := Advance (t : R) (rho : C -> R) | Regrid (pos : C -> vec).
Arguments Advance {C}. Arguments Regrid {C}.
Fixpoint run {C} (S : tset) (es : list (tevent C)) (pos : C -> vec) (st : tstate C) : outcome ((C -> vec) * tstate C) :=
  match es with
  | [] => Ret (pos, st)
  | Advance t rho :: es => obind (pre_advance S pos rho t st) (run S es pos)
  | Regrid pos' :: es => run S es pos' (TST (st_left st) (st_mem st) (fun _ => vzero))
  end.

(** ** In the momentum equation: SynthTurbForcing.cpp:32-36, PDEOps.H:106-110, CompRHSOps.H:99-113 (one
    component, no other term, constant density, explicit, no mapping) *)
Definition momentum_source (rho f : R) : R := (0 + f) * rho.
Definition velocity_after (rho v dt f : R) : R := (rho * v + dt * momentum_source rho f) / rho.
