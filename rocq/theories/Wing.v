(** Fixed wings and flat plates as actuator lines:
    amr-wind/wind_energy/actuator/wing/{wing_ops.cpp,wing_ops.H,fixed_wing_ops.H,
    flat_plate_ops.H}, aero/AirfoilTable.cpp and ActSrcLineOp.H.

    Reals are exact.  The airfoil polar of a fixed wing is an arbitrary function
    of the angle of attack (its table lookup is the subject of Interp.v); the
    names of the motion types are an enumeration.  The lifting line correction
    is in LiftingLine.v.  NetCDF output is not modelled.  A wing of one point
    divides by zero in the program (positions become NaN); every theorem asks for
    two points or more. *)
From Verif Require Import BoxR VecSpace Tagging DiskActuator.
Open Scope R_scope.

(** std::atan2 on reals (signed zeros are not distinguished) *)
Definition atan2 (y x : R) : R :=
  if Rltb 0 x then atan (y / x)
  else if Rltb x 0 then (if Rltb y 0 then atan (y / x) - PI else atan (y / x) + PI)
  else if Rltb 0 y then PI / 2
  else if Rltb y 0 then - (PI / 2) else 0.

(** fixed_wing_ops.H:79-91 *)
Inductive motion : Type := MNone | MLinear | MSine.

(** wing/ActuatorWing.H:20-103, what does not change during a run; [w_eps] and
    [w_epsc] are in the order of the input file (chord, thickness, span) *)
Record wing : Type := Wing {
  w_n : nat; w_start : vec; w_end : vec; w_bladex : vec;
  w_eps : vec; w_epsc : vec;
  w_2d : bool; w_norm2d : bool; w_flags : vec; w_uinf : R;
  w_motion : motion; w_svec : vec; w_period : R }.

(** wing_ops.cpp:18, wing_ops.H:144 *)
Definition w_span (w : wing) : vec := vsub (w_end w) (w_start w).

(** *** Points *)

(** wing_ops.cpp:26 *)
Definition w_dx (w : wing) : vec := vscale (w_span w) (1 / IZR (Z.of_nat (w_n w) - 1)).
(** wing_ops.cpp:28-30 *)
Definition w_point (w : wing) (i : nat) : vec := vadd (w_start w) (vscale (w_dx w) (INR i)).
Definition w_points (w : wing) : list vec := map (w_point w) (seq 0 (w_n w)).

(** [front() *= f] and [back() *= f] *)
Definition scale_first (f : R) (l : list R) : list R :=
  match l with nil => nil | x :: r => (x * f) :: r end.
Fixpoint scale_last (f : R) (l : list R) : list R :=
  match l with nil => nil | [x] => [x * f] | x :: r => x :: scale_last f r end.
(** wing_ops.cpp:39-43 *)
Definition w_widths (w : wing) : list R :=
  scale_last 0.5 (scale_first 0.5 (repeat (vmag (w_dx w)) (w_n w))).

(** fixed_wing_ops.H:221-232 (and wing_ops.cpp:21-23): (chord, thickness, span) to
    (chord, span, thickness), the larger of the two widths *)
Definition w_epsilon (w : wing) (chord : R) : vec :=
  V3 (rmax (vx (w_eps w)) (vx (w_epsc w) * chord))
     (rmax (vz (w_eps w)) (vz (w_epsc w) * chord))
     (rmax (vy (w_eps w)) (vy (w_epsc w) * chord)).
(** fixed_wing_ops.H:233-237, actuator_types.H:100 *)
Definition w_dcoord (w : wing) : vec := if w_2d w then V3 1 0 1 else vone.

(** *** Motion *)

(** wing_ops.cpp:163-215; the displacement and the velocity over one step *)
Definition w_disp (w : wing) (vtr : vec) (tn tnp1 : R) : vec :=
  match w_motion w with
  | MNone => vzero
  | MLinear => vscale vtr (tnp1 - tn)
  | MSine => vscale (w_svec w) (sin (2 * PI * tnp1 / w_period w) - sin (2 * PI * tn / w_period w))
  end.
Definition w_vtr (w : wing) (vtr : vec) (tn tnp1 : R) : vec :=
  match w_motion w with
  | MSine => vdivs (w_disp w vtr tn tnp1) (tnp1 - tn + veps)
  | _ => vtr
  end.

(** What changes: force points, velocity points, translation velocity, and the
    positions held for the source term (m_pos, m_pos_old; none before the first
    call). *)
Record wstate : Type := WState {
  s_pos : list vec; s_vpos : list vec; s_vtr : vec; s_src : option (list vec * list vec) }.

(** wing_ops.cpp:28-36 and ActSrcLineOp.H:45-54; [v0] is the velocity read for
    linear motion (fixed_wing_ops.H:79-81) and zero otherwise *)
Definition w_init (w : wing) (v0 : vec) : wstate :=
  WState (w_points w) (w_points w) v0 None.

(** One pass over Actuator.cpp:149-159: UpdatePosOp (wing_ops.H:91-97),
    the motion in ComputeForceOp (wing_ops.H:136-141) and copy_to_device
    (ActSrcLineOp.H:56-87). *)
Definition w_step (w : wing) (tn tnp1 : R) (s : wstate) : wstate :=
  let disp := w_disp w (s_vtr s) tn tnp1 in
  let pos := map (fun p => vadd p disp) (s_pos s) in
  WState pos (s_pos s) (w_vtr w (s_vtr s) tn tnp1)
    (match s_src s with
     | Some (mpos, _) => Some (pos, mpos)
     | None => Some (pos, pos)
     end).

(** Actuator.cpp:87-120 at start-up, when current and new time are the start
    time, then one call per step (Actuator.cpp:148-158). *)
Fixpoint w_steps (w : wing) (t : R) (ts : list R) (s : wstate) : wstate :=
  match ts with
  | nil => s
  | t' :: r => w_steps w t' r (w_step w t t' s)
  end.
Definition w_run (w : wing) (v0 : vec) (t0 : R) (ts : list R) : wstate :=
  w_steps w t0 ts (w_step w t0 t0 (w_init w v0)).

(** *** Forces *)

(** wing_ops.H:143-151 *)
Definition blade_y (w : wing) : vec := vnormalize (w_span w).
Definition blade_z (w : wing) : vec := vnormalize (vcross (vnormalize (w_bladex w)) (blade_y w)).
Definition blade_x (w : wing) : vec := vnormalize (vcross (blade_y w) (blade_z w)).

(** wing_ops.H:179-183 *)
Definition w_wind (w : wing) (vel vtr : vec) : vec :=
  V3 (vdot (vsub vel vtr) (blade_x w)) 0 (vdot (vsub vel vtr) (blade_z w)).
(** wing_ops.H:186-187 *)
Definition w_aoa (w : wing) (pitch : R) (vel vtr : vec) : R :=
  atan2 (vz (w_wind w vel vtr)) (vx (w_wind w vel vtr)) + radians pitch.

(** wing_ops.H:205-207 *)
Definition g2d_from_3d : R := 1 / PI / gauss_fac.
(** wing_ops.H:195-217; [dx], [chord] and [eps] are those of the point *)
Definition w_qval (w : wing) (vel vtr : vec) (dx chord : R) (eps : vec) : R :=
  let vmag := vmag (w_wind w vel vtr) in
  let qfac := if Rltb (w_uinf w) 0 then 0.5 * vmag * vmag else 0.5 * w_uinf w * w_uinf w in
  let qfac := if (w_2d w && w_norm2d w)%bool
              then qfac / INR (w_n w) * g2d_from_3d * vy eps
              else qfac * dx in
  qfac * chord.

(** wing_ops.H:177-241, one point: lift, drag and the force on the fluid; [polar]
    gives the lift and drag coefficients *)
Definition w_lift (w : wing) (polar : R -> R * R) (pitch : R) (vel vtr : vec) (dx chord : R) (eps : vec) : R :=
  w_qval w vel vtr dx chord eps * fst (polar (w_aoa w pitch vel vtr)).
Definition w_drag (w : wing) (polar : R -> R * R) (pitch : R) (vel vtr : vec) (dx chord : R) (eps : vec) : R :=
  w_qval w vel vtr dx chord eps * snd (polar (w_aoa w pitch vel vtr)).
Definition w_force (w : wing) (polar : R -> R * R) (pitch : R) (vel vtr : vec) (dx chord : R) (eps : vec) : vec :=
  let wind := w_wind w vel vtr in
  let drag_dir := vnormalize (vadd (vscale (blade_x w) (vx wind)) (vscale (blade_z w) (vz wind))) in
  let lift_dir := vnormalize (vcross drag_dir (blade_y w)) in
  let f := vneg (vadd (vscale lift_dir (w_lift w polar pitch vel vtr dx chord eps))
                      (vscale drag_dir (w_drag w polar pitch vel vtr dx chord eps))) in
  vmul f (w_flags w).

(** wing_ops.H:175-244, the loop over the points: forces, total lift, total drag;
    one entry of [pts] per point: velocity, width, chord, smearing. *)
Definition w_forces (w : wing) (polar : R -> R * R) (pitch : R) (vtr : vec)
    (pts : list (vec * R * R * vec)) : list vec * R * R :=
  fold_left (fun s p =>
     let '(fs, tl, td) := s in
     let '(vel, dx, chord, eps) := p in
     ((fs ++ [w_force w polar pitch vel vtr dx chord eps])%list,
      tl + w_lift w polar pitch vel vtr dx chord eps,
      td + w_drag w polar pitch vel vtr dx chord eps)) pts ([], 0, 0).

(** aero/AirfoilTable.cpp:36-41, ThinAirfoil *)
Definition thin_airfoil (cd_factor : R) (aoa : R) : R * R := (2 * PI * aoa, cd_factor * sin aoa).

(** *** Spreading *)

(** wing_ops.cpp:20, wing_ops.H:164 *)
Definition w_tmat (w : wing) (pitch : R) : tensor := quaternion (w_span w) pitch.
(** ActSrcLineOp.H:128-136, the weight of one point *)
Definition line_weight (tmat : tensor) (flags eps pos opos cc : vec) : R :=
  let pos_ip := vadd (vscale pos 0.5) (vscale opos (1 - 0.5)) in
  let dist := vsub cc pos_ip in
  let dist_local := vmul (tapp tmat dist) flags in
  gaussian3d dist_local eps.
(** ActSrcLineOp.H:119-147; one entry per point: position, old position,
    smearing, force.  The tile filter is [spread_tile] (ActSrcLineOp.H:97-104). *)
Definition line_source (tmat : tensor) (flags : vec) (pts : list (vec * vec * vec * vec)) (cc : vec) : vec :=
  fold_left (fun s p => let '(pos, opos, eps, force) := p in
     vadd s (vscale force (line_weight tmat flags eps pos opos cc))) pts vzero.

(** *** Bounding box *)

Definition vmax3 (v : vec) : R := rmax (rmax (vx v) (vy v)) (vz v).
(** fixed_wing_ops.H:105-109; [mc] is the largest entry of the chord table *)
Definition search_radius (w : wing) (mc : R) : R := rmax (vmax3 (w_eps w)) (vmax3 (w_epsc w)) * mc * 3.
(** flat_plate_ops.H:39-40 *)
Definition plate_radius (eps : vec) (chord : R) : R := vmax3 eps * chord * 3.
(** fixed_wing_ops.H:113-118 *)
Definition ends_lo (w : wing) : vec :=
  V3 (rmin (vx (w_start w)) (vx (w_end w))) (rmin (vy (w_start w)) (vy (w_end w)))
     (rmin (vz (w_start w)) (vz (w_end w))).
Definition ends_hi (w : wing) : vec :=
  V3 (rmax (vx (w_start w)) (vx (w_end w))) (rmax (vy (w_start w)) (vy (w_end w)))
     (rmax (vz (w_start w)) (vz (w_end w))).
(** fixed_wing_ops.H:119-153, the axis of the largest span component *)
Definition span_axis (w : wing) : nat :=
  let s := w_span w in
  if Rleb (rmax (Rabs (vy s)) (Rabs (vz s))) (Rabs (vx s)) then 0%nat
  else if Rleb (Rabs (vz s)) (Rabs (vy s)) then 1%nat else 2%nat.
Definition set_axis (a : nat) (v e : vec) : vec :=
  match a with
  | 0%nat => V3 (vx e) (vy v) (vz v)
  | 1%nat => V3 (vx v) (vy e) (vz v)
  | _ => V3 (vx v) (vy v) (vz e)
  end.
Definition base_lo (w : wing) (g : geom) : vec :=
  if w_2d w then set_axis (span_axis w) (ends_lo w) (gplo g) else ends_lo w.
Definition base_hi (w : wing) (g : geom) : vec :=
  if w_2d w then set_axis (span_axis w) (ends_hi w) (gphi g) else ends_hi w.
(** fixed_wing_ops.H:162, machine epsilon of float, 2^-23 *)
Definition tiny : R := / 8388608.
Definition lin_lo (v base ext radius : R) : R := if Rltb v (- tiny) then ext else base - radius.
Definition lin_hi (v base ext radius : R) : R := if Rltb tiny v then ext else base + radius.
(** fixed_wing_ops.H:154-197; [v0] is the velocity read for linear motion *)
Definition wing_box (w : wing) (g : geom) (v0 : vec) (mc : R) : rbox :=
  let r := search_radius w mc in
  let lo := base_lo w g in
  let hi := base_hi w g in
  let s := w_svec w in
  match w_motion w with
  | MNone => RBox (V3 (vx lo - r) (vy lo - r) (vz lo - r)) (V3 (vx hi + r) (vy hi + r) (vz hi + r))
  | MLinear =>
      RBox (V3 (lin_lo (vx v0) (vx lo) (vx (gplo g)) r) (lin_lo (vy v0) (vy lo) (vy (gplo g)) r)
               (lin_lo (vz v0) (vz lo) (vz (gplo g)) r))
           (V3 (lin_hi (vx v0) (vx hi) (vx (gphi g)) r) (lin_hi (vy v0) (vy hi) (vy (gphi g)) r)
               (lin_hi (vz v0) (vz hi) (vz (gphi g)) r))
  | MSine =>
      RBox (V3 (vx lo - vx s - r) (vy lo - vy s - r) (vz lo - vz s - r))
           (V3 (vx hi + vx s + r) (vy hi + vy s + r) (vz hi + vz s + r))
  end.
(** flat_plate_ops.H:41-51 *)
Definition plate_box (w : wing) (chord : R) : rbox :=
  let r := plate_radius (w_eps w) chord in
  let lo := ends_lo w in
  let hi := ends_hi w in
  RBox (V3 (vx lo - r) (vy lo - r) (vz lo - r)) (V3 (vx hi + r) (vy hi + r) (vz hi + r)).
