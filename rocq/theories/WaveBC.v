(** Waves at the inflow boundary: what the ghost cells and the boundary faces are given, and the time the waves
    belong to.  A field is a function of the index and of the component; faces are numbered as in BoundaryCond. *)
From Coq Require Import Reals List ZArith.
From Verif Require Import Base BoxR VofAdvect BoundaryCond.
From Verif Require Composite.
Import ListNotations.
Open Scope R_scope.

(** OceanWavesBoundary.cpp:89-93, :160-164, :209-213, :258-262. *)
Definition wave_side (t : bct) : bool :=
  match t with MassInflow | MassInflowOutflow | WaveGeneration => true | _ => false end.

(** Direction [e] of the boundary box of side [f]: Geometry::growPeriodicDomain(1), then amrex::adjCellLo or
    adjCellHi (OceanWavesBoundary.cpp:82-83, :95-97); [per e] is 1 in a periodic direction and 0 in any other. *)
Definition side_lo (dom : box) (per : nat -> Z) (f e : nat) : Z :=
  if Nat.eqb e (fdir f) then (if flow f then blo_ dom e - per e - 1 else bhi_ dom e + per e + 1)%Z else (blo_ dom e - per e)%Z.
Definition side_hi (dom : box) (per : nat -> Z) (f e : nat) : Z :=
  if Nat.eqb e (fdir f) then (if flow f then blo_ dom e - per e - 1 else bhi_ dom e + per e + 1)%Z else (bhi_ dom e + per e)%Z.

(** index_operations.H:79-82 (face_aware_boundary_box_intersection): the shift of the box on a high side of a field
    on the faces; [ty e] is 1 if the field is nodal in direction [e]. *)
Definition face_shift (ty : nat -> Z) (f e : nat) : Z :=
  if andb (negb (flow f)) (ty (fdir f) =? 1)%Z then ty e else 0%Z.
(** OceanWavesBoundary.cpp:103-106, index_operations.H:69-83: the cells or faces of one side.  [vb] is the valid box
    of the array, in the indices of the field. *)
Definition patch (dom vb : box) (per ty : nat -> Z) (f : nat) (c : ivec) : bool :=
  forallb (fun e =>
    let x := (ix c e - face_shift ty f e)%Z in
    ((Z.max (blo_ vb e - 1) (side_lo dom per f e) <=? x) && (x <=? Z.min (bhi_ vb e + 1 - ty e) (side_hi dom per f e)))%Z)
    [0; 1; 2]%nat.

(** The loop over the six sides. *)
Definition over_sides (ts : list bct) (p : nat -> ivec -> bool) (put : nat -> ivec -> nat -> R -> R) (u : cfld) : cfld :=
  fold_left (fun (v : cfld) f => if wave_side (type_of ts f)
    then (fun c n => if p f c then put f c n (v c n) else v c n) else v) faces u.

(** OceanWavesBoundary.cpp:99-100, :129-130: the index of the cell inside the domain whose flag is read. *)
Definition inner_cell (ty : nat -> Z) (f : nat) (c : ivec) : ivec :=
  let s e := (- face_shift ty f e + (if Nat.eqb e (fdir f) then (if flow f then 1 else -1) else 0))%Z in
  IV (iv0 c + s 0%nat) (iv1 c + s 1%nat) (iv2 c + s 2%nat).

(** OceanWavesBoundary.cpp:65-138 (set_velocity).  [active] is m_activate_ow_bndry, [terr] says that there are
    terrain and volume fractions, [ov] and [ow] are ow_vof and ow_velocity, [orig] the first component taken. *)
Definition set_velocity (active terr : bool) (ts : list bct) (dom vb : box) (per ty : nat -> Z) (ov : ivec -> R) (ow : cfld)
    (blank : ivec -> Z) (orig : nat) (u : cfld) : cfld :=
  if active then
    over_sides ts (patch dom vb per ty) (fun f c n x =>
      let y := if Rltb Composite.tight_tol (ov c) then ow c (orig + n)%nat else x in
      if andb terr (blank (inner_cell ty f c) =? 1)%Z then 0 else y) u
  else u.

(** OceanWavesBoundary.cpp:140-186 (set_vof); the volume fraction has one component and is on the cells. *)
Definition set_vof (active : bool) (ts : list bct) (dom vb : box) (per : nat -> Z) (ov : ivec -> R) (u : cfld) : cfld :=
  if active then over_sides ts (patch dom vb per (fun _ => 0%Z)) (fun _ c _ _ => ov c) u else u.

(** OceanWavesBoundary.cpp:188-237 (set_density). *)
Definition set_density (active : bool) (rho1 : R) (ts : list bct) (dom vb : box) (per : nat -> Z) (ov : ivec -> R) (u : cfld) : cfld :=
  if orb (negb active) (Rltb rho1 0) then u
  else over_sides ts (patch dom vb per (fun _ => 0%Z)) (fun _ c _ x => ov c * rho1 + (1 - ov c) * x) u.

(** OceanWavesBoundary.cpp:276-292: the faces on the boundary itself (amrex::bdryLo, bdryHi). *)
Definition boundary_faces (dom : box) (f : nat) (c : ivec) : bool :=
  forallb (fun e =>
    if Nat.eqb e (fdir f) then (ix c e =? (if flow f then blo_ dom e else bhi_ dom e + 1))%Z
    else ((blo_ dom e <=? ix c e) && (ix c e <=? bhi_ dom e))%Z) [0; 1; 2]%nat.
(** OceanWavesBoundary.cpp:279-283, :308-309. *)
Definition outer_cell (f : nat) (c : ivec) : ivec :=
  let s e := if andb (Nat.eqb e (fdir f)) (flow f) then (-1)%Z else 0%Z in
  IV (iv0 c + s 0%nat) (iv1 c + s 1%nat) (iv2 c + s 2%nat).
(** OceanWavesBoundary.cpp:239-326 (set_inflow_sibling_velocity), the face field of direction [d]; all faces of the
    boundary belong to some array. *)
Definition set_faces (active terr : bool) (ts : list bct) (dom : box) (ov : ivec -> R) (ow : cfld) (blank : ivec -> Z)
    (d : nat) (u : cfld) : cfld :=
  if active then
    over_sides ts (fun f c => andb (Nat.eqb (fdir f) d) (boundary_faces dom f c)) (fun f c _ x =>
      let o := outer_cell f c in
      let y := if Rltb Composite.tight_tol (ov o) then ow o d else x in
      if andb terr (blank (inner_cell (fun _ => 0%Z) f o) =? 1)%Z then 0 else y) u
  else u.

(** constants.H:21-22 (LOOSE_TOL), OceanWavesFillInflow.cpp:89-90. *)
Definition loose_tol : R := / 2 ^ 52 * 100000000.
Definition unchanged (data time : R) : bool := Rltb (data - time) loose_tol.
(** OceanWavesFillInflow.cpp:95-124: the rule of a side for the values taken between levels (first) and outside the
    domain (second). *)
Definition sibling_rule (t : bct) (data time : R) (given : fill) : fill * fill :=
  if wave_side t then ((if unchanged data time then ExtDir else FoExtrap), FoExtrap) else (given, given).

(** What happens to the waves and the boundary in a time step. *)
Inductive kind : Set := Regrid | Half | Mac | Again | New.
Inductive event : Set := Update (t : R) | Fill (k : kind) (t : R).

(** incflo_advance.cpp:205-206, :296 (PDE.H:139-146: the middle of the step), incflo_apply_nodal_projection.cpp:490:
    one iteration of a step from [t0] to [t1]. *)
Definition iteration (t0 t1 : R) (i : nat) : list event :=
  (match i with O => [] | S _ => [Fill Again t0] end) ++ [Fill Mac (/ 2 * (t0 + t1)); Fill New t1].
(** incflo.cpp:294-313, incflo_advance.cpp:21-38, :57-64, OceanWaves.cpp:90-107, PDEBase.cpp:96-135.  Prescribed
    velocities, the method of lines and overset meshes are not modelled; the fills of a regridding come first. *)
Definition time_step (iters : nat) (t0 t1 : R) : list event :=
  [Fill Regrid t0; Update (/ 2 * (t0 + t1)); Fill Half (/ 2 * (t0 + t1)); Update t1] ++
  flat_map (iteration t0 t1) (seq 0 iters).
(** A run: OceanWaves.cpp:72-77, then the steps through the times [ts]. *)
Fixpoint steps (iters : nat) (t0 : R) (ts : list R) : list event :=
  match ts with [] => [] | t1 :: r => time_step iters t0 t1 ++ steps iters t1 r end.
Definition run (iters : nat) (t0 : R) (ts : list R) : list event := Update t0 :: steps iters t0 ts.

(** The fills of a run with the time asked for and the time of the waves they use: the time asked for is not looked
    at (OceanWavesBoundary.cpp:67, :142, :190, :241), the fields are those of the last update. *)
Fixpoint fills (data : R) (l : list event) : list (kind * R * R) :=
  match l with
  | [] => []
  | Update t :: r => fills t r
  | Fill k t :: r => (k, t, data) :: fills data r
  end.
