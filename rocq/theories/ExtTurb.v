(** Turbines computed by an external solver (OpenFAST): wind_energy/actuator/turbine/external/
    {ExtTurbIface,turbine_external_ops,turbine_external_utils}.H, fast/{FastIface.cpp,turbine_fast_ops.H}
    and the way they are called from Actuator.cpp.

    The external solver is any pair of functions on any set of states: the initial solution and one step, both
    from the velocities handed over last.  A velocity record is a value of any type.  Single precision of the
    exchanged numbers is not modelled.  The NetCDF build with an OpenFAST library is modelled; velocity files are
    lists of records with their times.  Failed assertions and reads behind the end of a NetCDF file are Abort. *)
From Coq Require Import Reals List Arith SpecFloat.
From Verif Require Import BoxR VecSpace.
Import ListNotations.
Local Open Scope R_scope.

(** ** Sub-steps *)

(** FastIface.cpp:332-345, with [tol] the bound of line 341 *)
Definition substeps (tol dt_cfd dt_ext : R) : outcome nat :=
  let n := rfloor (dt_cfd / dt_ext) in
  if (n <=? 0)%Z then Abort
  else if Rltb tol (dt_cfd / (IZR n * dt_ext) - 1) then Abort else Ret (Z.to_nat n).
(** 341 and 452: a clean start or replay, and a restart *)
Definition tol_init : R := / 10 ^ 12.
Definition tol_restart : R := / 10 ^ 4.

(** The same quotient and error in binary64; an integer over an integer, rounded, for decimal inputs *)
Definition b64n (z : Z) : spec_float := binary_normalize 53 1024 z 0 false.
Definition b64frac (a b : Z) : spec_float := SFdiv 53 1024 (b64n a) (b64n b).
Definition quotient_b64 (dt_cfd dt_ext : spec_float) : spec_float := SFdiv 53 1024 dt_cfd dt_ext.
Definition error_b64 (n : Z) (dt_cfd dt_ext : spec_float) : spec_float :=
  SFsub 53 1024 (SFdiv 53 1024 dt_cfd (SFmul 53 1024 (b64n n) dt_ext)) (b64n 1).

(** turbine_fast_ops.H:186-208; times without a limit are [None] (the largest number) *)
Definition long_enough (stop_time : R) (stop_index : Z) (dt now start stop : R) : bool :=
  let s1 := if Rltb 0 stop_time then Some stop_time else None in
  let s2 := if (stop_index >? -1)%Z then Some (IZR stop_index * dt) else None in
  match s1, s2 with
  | Some a, Some b => Rltb (rmin a b - now - / 10 ^ 6) (stop - start)
  | Some a, None | None, Some a => Rltb (a - now - / 10 ^ 6) (stop - start)
  | None, None => false
  end.

(** turbine_fast_ops.H:69-143: false stands for an abort; densities not in the input are [None] *)
Definition density_ok (turbine : R) (override : bool) (incflo const : option R) : bool :=
  let ok o := match o with Some r => negb (Rltb veps (Rabs (r - turbine))) || override | None => true end in
  (ok incflo && ok const)%bool.

(** ** The turbine over time *)
Section Turbine.
Variables St Vel : Type.
Variables (sol0 step : St -> Vel -> St).

(** external_base_types.H:23-105 (state of the solver, step index, initial solution pending), the velocity file
    and the solver's checkpoints with their step index *)
Record turb : Type := TB { t_state : St; t_index : nat; t_pending : bool; t_file : list (R * Vel); t_chk : list (nat * St) }.

(** ExtTurbIface.H:169-171, FastIface.cpp:386-388 *)
Fixpoint steps (n : nat) (v : Vel) (s : St) : St := match n with O => s | S m => steps m v (step s v) end.
(** ExtTurbIface.H:143-177, FastIface.cpp:204-226 (one record at the end of the file); [every]: steps between checkpoints *)
Definition advance_turbine (nsub : nat) (dt_ext : R) (every : Z) (v : Vel) (t : turb) : turb :=
  let i := (t_index t + nsub)%nat in
  let s := steps nsub v (t_state t) in
  let due := ((0 <? every) && (Z.of_nat (i / nsub) mod every =? 0))%Z%bool in
  TB s i (t_pending t) (t_file t ++ [(INR (t_index t) * dt_ext, v)]) (if due then t_chk t ++ [(i, s)] else t_chk t).
(** turbine_external_utils.H:171-186 with FastIface.cpp:121-132; [v]: velocities put in place just before
    (turbine_external_ops.H:207-211) *)
Definition ext_step (nsub : nat) (dt_ext : R) (every : Z) (v : Vel) (t : turb) : turb :=
  if t_pending t then TB (sol0 (t_state t) v) (t_index t) false (t_file t) (t_chk t)
  else advance_turbine nsub dt_ext every v t.

(** ExtTurbIface.H:122-127: a clean start; a file of the same name is kept (FastIface.cpp:162-165) *)
Definition start_clean (s0 : St) (file : list (R * Vel)) : turb := TB s0 0 true file [].
(** ExtTurbIface.H:129-133, FastIface.cpp:357-390 *)
Fixpoint replay_steps (nsub : nat) (file : list (R * Vel)) (s : St) : St :=
  match file with [] => s | (_, v) :: f => replay_steps nsub f (steps nsub v s) end.
Definition start_replay (nsub : nat) (dt_ext start : R) (s0 : St) (file : list (R * Vel)) : outcome turb :=
  let n := Z.to_nat (rfloor (start / dt_ext)) in
  let m := (n / nsub)%nat in
  if (length file <? m)%nat then Abort
  else match file with
       | [] => Abort
       | (_, v) :: _ =>
         let s := replay_steps nsub (firstn m file) (sol0 s0 v) in
         if (m * nsub =? n)%nat then Ret (TB s n false file []) else Abort
       end.
(** ExtTurbIface.H:135-139, FastIface.cpp:399-426: state and index of the solver's checkpoint *)
Definition start_restart (c : nat * St) (file : list (R * Vel)) : turb := TB (snd c) (fst c) true file [].

(** Actuator.cpp:114-118 once after the start (a clean one or not), then 148-156 in every flow step: the
    velocities of each call are the elements of the list *)
Definition run (nsub : nat) (dt_ext : R) (every : Z) (vs : list Vel) (t : turb) : turb :=
  fold_left (fun t v => ext_step nsub dt_ext every v t) vs t.
End Turbine.

(** SimTime.cpp:367-374, by steps: the flow writes a checkpoint after the [k]-th step of a run (the time index minus the start
    index is [k]; without delay) *)
Definition flow_checkpoint (every : Z) (k : nat) : bool := ((0 <? every) && (Z.of_nat k mod every =? 0))%Z%bool.

(** ** Data of the actuator points *)

(** turbine_external_utils.H:17-23 *)
Definition swap_xy (v : vec) : vec := V3 (vy v) (vx v) (vz v).
(** 115-126: blade points; [chord] of the point *)
Definition rmax3 (a b c : R) : R := rmax (rmax a b) c.
Definition vmax3 (a b c : vec) : vec := V3 (rmax3 (vx a) (vx b) (vx c)) (rmax3 (vy a) (vy b) (vy c)) (rmax3 (vz a) (vz b) (vz c)).
Definition blade_eps (emin einp echord : vec) (chord : R) : vec :=
  vmax3 (swap_xy emin) (swap_xy einp) (vscale (swap_xy echord) chord).
(** 127-135 *)
Definition tower_eps (emin einp etower : vec) : vec := vmax3 (swap_xy emin) (swap_xy einp) (swap_xy etower).
(** 103-113 *)
Definition nacelle_eps (cd area : R) (emin : vec) : vec :=
  let e := sqrt (2 / PI * cd * area) in let m := swap_xy emin in V3 (rmax e (vx m)) (rmax e (vy m)) (rmax e (vz m)).
(** 138-169: force of the flow on the nacelle *)
Definition nacelle_force (rho cd area : R) (emin vel : vec) : vec :=
  let e := vx (nacelle_eps cd area emin) in
  let correction := if Rltb 0 e then 1 / (1 - cd * area / (2 * (2 * PI) * e * e)) else 0 in
  let coeff := 0.5 * rho * (cd * area) * vmag vel * correction * correction in
  V3 (coeff * vx vel) (coeff * vy vel) (coeff * vz vel).

(** 25-85: first point and number of points of a part of the turbine *)
Definition hub_view : nat * nat := (0, 1)%nat.
Definition blade_view (pts ib : nat) : nat * nat := (ib * pts + 1, pts)%nat.
Definition tower_view (blades pts tower : nat) : nat * nat := (blades * pts + 1, tower)%nat.
Definition blade_vel_view (vel_pts ib : nat) : nat * nat := (ib * vel_pts, vel_pts)%nat.

(** 194-233: the buffer of the root rank, sent as it is to every influenced rank (235-252) *)
Definition pack (fx fy fz px py pz ori : list R) : list R := fx ++ fy ++ fz ++ px ++ py ++ pz ++ ori.
Definition rd (l : list R) (i : nat) : R := nth i l 0.
(** 254-300: force, position and orientation of point [i] of [n] *)
Definition got_force (buf : list R) (n : nat) (rho : R) (i : nat) : vec :=
  V3 (- rd buf i / rho) (- rd buf (n + i) / rho) (- rd buf (n + n + i) / rho).
Definition got_pos (buf : list R) (n : nat) (base : vec) (i : nat) : vec :=
  V3 (rd buf (n + n + n + i) + vx base) (rd buf (n + n + n + n + i) + vy base) (rd buf (n + n + n + n + n + i) + vz base).
Definition got_ori (buf : list R) (n i : nat) : tensor :=
  let off := (n + n + n + n + n + n + i * 3 * 3)%nat in
  let e j k := rd buf (off + j + k * 3) in
  T9 (e 0 0)%nat (e 0 1)%nat (e 0 2)%nat (e 1 0)%nat (e 1 1)%nat (e 1 2)%nat (e 2 0)%nat (e 2 1)%nat (e 2 2)%nat.
(** 302-310 *)
Definition rotor_frame (o : tensor) : tensor :=
  let x := vnormalize (V3 (txx o) (txy o) (txz o)) in
  let y := vcross (khat 1) x in let z := vcross x y in
  let y' := vnormalize y in let z' := vnormalize z in
  T9 (vx x) (vy x) (vz x) (vx y') (vy y') (vz y') (vx z') (vy z') (vz z').

(** turbine_external_ops.H:174-212 with the lifting-line correction on: [fluid] are the velocities in the solver's arrays
    before the call, [solid] those of the force points, [vel] the sampled ones (after the correction, C77, which is
    not repeated here); relative velocities of the force points and the new arrays *)
Fixpoint relative (fluid solid : list vec) : outcome (list vec) :=
  match solid, fluid with
  | [], _ => Ret []
  | s :: ss, f :: fs => obind (relative fs ss) (fun r => Ret (vsub f s :: r))
  | _ :: _, [] => UB
  end.
Definition update_vel (fluid solid vel : list vec) : outcome (list vec * list vec) :=
  obind (relative fluid solid) (fun r => Ret (r, vel)).
Arguments TB {St Vel} _ _ _ _ _.
Arguments t_state {St Vel} _.
Arguments t_index {St Vel} _.
Arguments t_pending {St Vel} _.
Arguments t_file {St Vel} _.
Arguments t_chk {St Vel} _.
Arguments steps {St Vel} step n v s.
Arguments ext_step {St Vel} sol0 step nsub dt_ext every v t.
Arguments advance_turbine {St Vel} step nsub dt_ext every v t.
Arguments start_clean {St Vel} s0 file.
Arguments replay_steps {St Vel} step nsub file s.
Arguments start_replay {St Vel} sol0 step nsub dt_ext start s0 file.
Arguments start_restart {St Vel} c file.
Arguments run {St Vel} sol0 step nsub dt_ext every vs t.
