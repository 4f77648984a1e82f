(** Marker of wakes and dissipation rate for a coupled code: amr-wind/physics/ActuatorSourceTagging.cpp,
    amr-wind/physics/HybridRANSLESABL.cpp, with the two tables of names of amr-wind/core/FieldRepo.cpp.

    Reals are exact.  A field is a function of level, grid and cell; the number of levels, the number of grids of a
    level and the cells of a grid are those of the mesh.  What the transport equation and a change of the mesh do to
    the marker between two calls is an arbitrary function. *)
From Coq Require Import String List ZArith.
From Verif Require Import BoxR VecSpace Tagging Plic.
Import ListNotations.
Open Scope string_scope.
Open Scope R_scope.

(** *** Names *)

(** the tables of real and of integer fields, with the number of ghost cells: FieldRepo.H:422-442 *)
Record repo : Type := Repo { real_f : string -> option Z; int_f : string -> option Z }.
Definition repo0 : repo := Repo (fun _ => None) (fun _ => None).
Inductive decl : Type := DReal (name : string) (ng : Z) | DInt (name : string) (ng : Z).
Definition put (t : string -> option Z) (name : string) (ng : Z) : string -> option Z :=
  match t name with
  | Some _ => t
  | None => fun k => if String.eqb k name then Some ng else t k
  end.
(** FieldRepo.cpp:86-149 and 226-276: a field known under the name is returned as it is, the two kinds do not see each
    other; one state, and no check of the name or of the parameters *)
Definition declare (r : repo) (d : decl) : repo :=
  match d with
  | DReal k ng => Repo (put (real_f r) k ng) (int_f r)
  | DInt k ng => Repo (real_f r) (put (int_f r) k ng)
  end.
(** FieldRepo.cpp:218-224 *)
Definition field_exists (r : repo) (k : string) : bool := match real_f r k with Some _ => true | None => false end.
(** FieldRepo.cpp:151-166, 278-294 *)
Definition get_field (r : repo) (k : string) : outcome Z := match real_f r k with Some n => Ret n | None => Abort end.
Definition get_int_field (r : repo) (k : string) : outcome Z := match int_f r k with Some n => Ret n | None => Abort end.

(** *** Marker of wakes *)

(** ActuatorSourceTagging.H:36-44: ghost cells of the source and of the mask of cells where they are in use *)
Record tagger : Type := Tagger { g_src : option Z; g_ib : option Z; g_thr : R; g_fringe : bool; g_hole : bool }.

(** ActuatorSourceTagging.cpp:15-16, ActuatorSourceTagging.H:40 *)
Definition threshold (given : option R) : R := match given with Some v => v | None => 1 / 10 end.

(** ActuatorSourceTagging.cpp:25-39; [ngt] is the number of ghost cells of the marker *)
Definition post_init (r : repo) (ngt : Z) (given : option R) : outcome tagger :=
  let has_src := field_exists r "actuator_src_term" in
  let has_ib := field_exists r "iblank_cell" in
  obind (if has_src then
           obind (get_field r "actuator_src_term") (fun n => if (n <=? ngt)%Z then Ret (Some n) else Abort)
         else Ret None) (fun s =>
  obind (if has_ib then
           obind (get_int_field r "iblank_cell") (fun n => if (n <=? ngt)%Z then Ret (Some n) else Abort)
         else Ret None) (fun b =>
  Ret (Tagger s b (threshold given) true false))).

(** the mesh: levels, grids of a level, cells of a grid *)
Record mesh : Type := Mesh { m_levels : nat; m_ngrids : nat -> nat; m_grid : nat -> nat -> box }.
Definition fld (A : Type) : Type := nat -> nat -> ivec -> A.

(** amrex::ParallelFor over the grids of one level with [ng] ghost cells *)
Definition grow_box (ng : Z) (b : box) : box :=
  Box (IV (iv0 (blo b) - ng) (iv1 (blo b) - ng) (iv2 (blo b) - ng))
      (IV (iv0 (bhi b) + ng) (iv1 (bhi b) + ng) (iv2 (bhi b) + ng)).
Definition visited (m : mesh) (ng : Z) (lev n : nat) (c : ivec) : bool :=
  Nat.ltb n (m_ngrids m lev) && in_boxb (grow_box ng (m_grid m lev n)) c.

(** 57-69 *)
Definition tag_src (m : mesh) (ng : Z) (thr : R) (src : fld vec) (lev : nat) (t : fld R) : fld R :=
  fun l n c =>
    if (Nat.eqb l lev && visited m ng lev n c)%bool then
      let s := src l n c in
      let srcmag := sqrt (vx s * vx s + vy s * vy s + vz s * vz s) in
      if Rltb thr srcmag then 1 else t l n c
    else t l n c.
(** 76-83 *)
Definition tag_ib (m : mesh) (ng : Z) (fringe hole : bool) (ib : fld Z) (lev : nat) (t : fld R) : fld R :=
  fun l n c =>
    if (Nat.eqb l lev && visited m ng lev n c)%bool then
      let b := ib l n c in
      if ((fringe && (b =? -1)%Z) || (hole && (b =? 0)%Z))%bool then 1 else t l n c
    else t l n c.

(** 41-87: whether the warning is printed, and the marker *)
Definition post_advance (g : tagger) (m : mesh) (src : fld vec) (ib : fld Z) (t : fld R) : bool * fld R :=
  match g_src g, g_ib g with
  | None, None => (true, t)
  | s, b =>
    (false,
     fold_left (fun t lev =>
         let t := match s with Some ng => tag_src m ng (g_thr g) src lev t | None => t end in
         match b with Some ng => tag_ib m ng (g_fringe g) (g_hole g) ib lev t | None => t end)
       (seq 0 (m_levels m)) t)
  end.

(** 19-23 on every level *)
Definition initial : fld R := fun _ _ _ => 0.

(** one time step: transport and change of the mesh, then the marks *)
Record step : Type := Step { s_mesh : mesh; s_move : fld R -> fld R; s_src : fld vec; s_ib : fld Z }.
Definition do_step (g : tagger) (t : fld R) (s : step) : fld R :=
  snd (post_advance g (s_mesh s) (s_src s) (s_ib s) (s_move s t)).
Definition run (g : tagger) (t : fld R) (ss : list step) : fld R := fold_left (do_step g) ss t.

(** *** Dissipation rate *)

(** HybridRANSLESABL.cpp:40-43: the model that is required and its coefficient *)
Definition hybrid_coeff (model : string) (ce : R) : outcome R :=
  if String.eqb model "OneEqKsgsM84" then Ret ce else Abort.
(** HybridRANSLESABL.cpp:86-89 *)
Definition cell_scale (dx : vec) : R := rcbrt (vx dx * vy dx * vz dx).
(** HybridRANSLESABL.cpp:26-31, 94-99 on one level *)
Definition sdr_level (m : mesh) (ng : Z) (ce : R) (dx : vec) (tke : fld R) (lev : nat) (sdr : fld R) : fld R :=
  fun l n c =>
    if (Nat.eqb l lev && visited m ng lev n c)%bool then sqrt (tke l n c) / (ce * cell_scale dx) else sdr l n c.
(** HybridRANSLESABL.cpp:72-102; [dx] is the cell size of each level *)
Definition compute_sdr (m : mesh) (ng : Z) (ce : R) (dx : nat -> vec) (tke : fld R) (sdr : fld R) : fld R :=
  fold_left (fun s lev => sdr_level m ng ce (dx lev) tke lev s) (seq 0 (m_levels m)) sdr.
(** HybridRANSLESABL.cpp:55-69: at the start and after each step, with the energy of that moment; in between, any
    change (of mesh) of the rate *)
Record hstep : Type := HStep { h_mesh : mesh; h_dx : nat -> vec; h_tke : fld R; h_move : fld R -> fld R }.
Definition hrun (ng : Z) (ce : R) (sdr : fld R) (hs : list hstep) : fld R :=
  fold_left (fun s h => compute_sdr (h_mesh h) ng ce (h_dx h) (h_tke h) (h_move h s)) hs sdr.
