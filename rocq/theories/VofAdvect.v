(** Split advection of the volume fraction:
    amr-wind/equation_systems/vof/split_advection.H, SplitAdvection.cpp and
    vof_advection.H, on one level.  Numbers are exact reals; [e] is the
    machine-epsilon guard of Plic.v.  Not modelled: the averaging of fluxes
    from finer levels (SplitAdvection.cpp:63-70), the overset replacement
    (vof_advection.H:125-129). *)
From Verif Require Import BoxR Plic.
Open Scope R_scope.

(** The cell [s] cells further along axis [d]. *)
Definition shift (c : ivec) (d s : Z) : ivec :=
  if (d =? 0)%Z then IV (iv0 c + s) (iv1 c) (iv2 c)
  else if (d =? 1)%Z then IV (iv0 c) (iv1 c + s) (iv2 c)
  else IV (iv0 c) (iv1 c) (iv2 c + s).

(** split_advection.H:26-27 (the constant [tiny]). *)
Definition tiny_vof : R := eps64 * 10000.

(** split_advection.H:47-77: the argument order of cut_volume per direction. *)
Definition cut_dir (e : R) (dir : Z) (m : v3) (alpha x0 deltax : R) : R :=
  if (dir =? 0)%Z then cut_volume_e e (w0 m) (w1 m) (w2 m) alpha x0 deltax
  else if (dir =? 1)%Z then cut_volume_e e (w1 m) (w2 m) (w0 m) alpha x0 deltax
  else cut_volume_e e (w2 m) (w0 m) (w1 m) alpha x0 deltax.

(** split_advection.H:14-79 (eulerian_implicit): the pair (vofL, vofR) of the
    cell [c], for [dir] in 0..2. *)
Definition eulerian (e : R) (dir : Z) (dtdx velL velR : R) (f : fld) (c : ivec) : R * R :=
  let aL := velL * dtdx in
  let aR := velR * dtdx in
  if Rleb (Rabs (f c - 1)) tiny_vof then
    (if Rltb aL 0 then 1 else 0, if Rltb 0 aR then 1 else 0)
  else if Rltb tiny_vof (f c) then
    let '(m, alpha) := fit_plane_e e f (iv0 c) (iv1 c) (iv2 c) in
    (if Rltb aL 0 then cut_dir e dir m alpha 0 (- aL) else 0,
     if Rltb 0 aR then cut_dir e dir m alpha (1 - aR) aR else 0)
  else (0, 0).

(** incflo_enums.H (BC); only the four wall types matter here. *)
Inductive bctype : Type :=
| bc_periodic | bc_pressure_outflow | bc_mass_inflow | bc_mass_inflow_outflow
| bc_zero_gradient | bc_no_slip_wall | bc_slip_wall | bc_symmetric_wall
| bc_wall_model | bc_fixed_gradient | bc_wave_generation | bc_undefined.
Definition is_wall (b : bctype) : bool :=
  match b with
  | bc_no_slip_wall | bc_slip_wall | bc_wall_model | bc_symmetric_wall => true
  | _ => false
  end.

(** One level: domain box, cell sizes, boundary types per face. *)
Record vgeom : Type := VG {
  vdom : box; vdx : Z -> R; vbclo : Z -> bctype; vbchi : Z -> bctype }.

(** sweep_fluxes, SplitAdvection.cpp:216-240. *)
Definition vofLR (e : R) (g : vgeom) (dir : Z) (dt : R) (vel f : fld) (c : ivec) : R * R :=
  eulerian e dir (dt / vdx g dir) (vel c) (vel (shift c dir 1)) f c.

(** split_advection.H:109-184 (fluxes_bc_save): the advected fraction on the
    low face of [c] along [dir].  Each face owns the two entries it clears, so
    the order of the faces does not matter. *)
Definition face_fraction (e : R) (g : vgeom) (dir : Z) (dt : R) (vel f : fld) (c : ivec) : R :=
  let i := icomp c dir in
  let at_lo := is_wall (vbclo g dir) && (i =? icomp (blo (vdom g)) dir)%Z in
  let at_hi := is_wall (vbchi g dir) && (i =? icomp (bhi (vdom g)) dir + 1)%Z in
  let r := snd (vofLR e g dir dt vel f (shift c dir (-1))) in
  let l := fst (vofLR e g dir dt vel f c) in
  let r1 := if at_lo then 0 else r in
  let l1 := if at_lo then 0 else l in
  let r2 := if at_hi then 0 else r1 in
  let l2 := if at_hi then 0 else l1 in
  r2 + l2.
(** [f_f = advalpha_f * disp] with [disp = dt * vel]. *)
Definition face_flux (e : R) (g : vgeom) (dir : Z) (dt : R) (vel f : fld) (c : ivec) : R :=
  face_fraction e g dir dt vel f c * (dt * vel c).

(** split_advection.H:186-198 (c_mask). *)
Definition c_mask (f : fld) (c : ivec) : R := if Rltb (/2) (f c) then 1 else 0.

(** split_advection.H:81-107 (balance_eulerian_fluxes) with
    SplitAdvection.cpp:242-265 (sweep_balance), before and after clipping. *)
Definition balance_raw (e : R) (g : vgeom) (dir : Z) (dt : R) (vel f : fld) (C : fld) (c : ivec) : R :=
  let dxi := / vdx g dir in
  let velL := vel c * dt * dxi in
  let velR := vel (shift c dir 1) * dt * dxi in
  f c + ((face_flux e g dir dt vel f c - face_flux e g dir dt vel f (shift c dir 1)) * dxi
         + C c * (velR - velL)).
Definition clip01 (x : R) : R := rmax 0 (rmin 1 x).
Definition balance (e : R) (g : vgeom) (dir : Z) (dt : R) (vel f : fld) (C : fld) (c : ivec) : R :=
  clip01 (balance_raw e g dir dt vel f C c).

(** SplitAdvection.cpp:82-92: all valid cells of the level are updated; ghost
    cells keep their value until the fill. *)
Definition in_boxb (b : box) (c : ivec) : bool :=
  ((iv0 (blo b) <=? iv0 c) && (iv0 c <=? iv0 (bhi b)) &&
   (iv1 (blo b) <=? iv1 c) && (iv1 c <=? iv1 (bhi b)) &&
   (iv2 (blo b) <=? iv2 c) && (iv2 c <=? iv2 (bhi b)))%Z.
Definition sweep (e : R) (g : vgeom) (dir : Z) (dt : R) (vel f : fld) (C : fld) : fld :=
  fun c => if in_boxb (vdom g) c then balance e g dir dt vel f C c else f c.

(** split_advection.H:200-219 (remove_vof_debris) at one cell, in place. *)
Definition small_vof : R := / 1000000.
Definition debris1 (f : fld) (c : ivec) : fld :=
  if Rltb 0 (f c)
     && Rltb (f (shift c 0 (-1))) small_vof && Rltb (f (shift c 0 1)) small_vof
     && Rltb (f (shift c 1 (-1))) small_vof && Rltb (f (shift c 1 1)) small_vof
     && Rltb (f (shift c 2 (-1))) small_vof && Rltb (f (shift c 2 1)) small_vof
  then fun x => if (iv0 x =? iv0 c)%Z && (iv1 x =? iv1 c)%Z && (iv2 x =? iv2 c)%Z then 0 else f x
  else f.
(** SplitAdvection.cpp:207-214 (debris_loop): ParallelFor over the cells of a
    box, in the order [order]. *)
Definition debris_loop (order : list ivec) (f : fld) : fld := fold_left debris1 order f.
(** SplitAdvection.cpp:82-98: debris removal runs box by box, each box seeing
    its own updated cells and, outside, the ghost values from before the sweep. *)
Definition debris_box (bo : box * list ivec) (old new : fld) : fld :=
  debris_loop (snd bo) (fun c => if in_boxb (fst bo) c then new c else old c).
Fixpoint debris_level (bs : list (box * list ivec)) (old new : fld) : fld :=
  match bs with
  | nil => new
  | bo :: r => fun c => if in_boxb (fst bo) c then debris_box bo old new c
                        else debris_level r old new c
  end.

(** SplitAdvection.cpp:64,142,150,158,188-194: the direction of sweep number
    [s = isweep + iorder]. *)
Definition sweep_dir (s : Z) : Z :=
  if (Z.rem s 3 =? 0)%Z then 2 else if (Z.rem s 3 =? 1)%Z then 1 else 0.
Definition average_down_dir (s : Z) : Z := (2 - Z.rem s 3)%Z.

(** vof_advection.H:88-91. *)
Definition next_isweep (i : Z) : Z := if (i + 1 >? 3)%Z then 1 else (i + 1)%Z.

(** What one call of split_advection_step needs besides the field:
    [fill] is the ghost-cell fill (fillpatch). *)
Record venv : Type := VE {
  ve_vel : Z -> fld; ve_dt : R; ve_fill : fld -> fld;
  ve_debris : option (list (box * list ivec)) }.

(** SplitAdvection.cpp:11-103 (split_advection_step). *)
Definition split_step (e : R) (g : vgeom) (v : venv) (isweep iorder : Z) (C f : fld) : fld :=
  let d := sweep_dir (isweep + iorder) in
  let f1 := sweep e g d (ve_dt v) (ve_vel v d) f C in
  let f2 := match ve_debris v with
            | Some bs => if (iorder =? 2)%Z then debris_level bs f f1 else f1
            | None => f1
            end in
  ve_fill v f2.

(** vof_advection.H:59-136: one time step of the volume fraction. *)
Definition vof_step (e : R) (g : vgeom) (v : venv) (isweep : Z) (f : fld) : fld :=
  let C := c_mask f in
  let f1 := split_step e g v isweep 0 C f in
  let f2 := split_step e g v isweep 1 C f1 in
  split_step e g v isweep 2 C f2.

(** Several time steps; the state is the sweep counter and the field. *)
Fixpoint vof_run (e : R) (g : vgeom) (vs : list venv) (st : Z * fld) : Z * fld :=
  match vs with
  | nil => st
  | v :: r => let i := next_isweep (fst st) in
              vof_run e g r (i, vof_step e g v i (snd st))
  end.
