(** Exchange with the library that connects overlapping meshes: amr-wind/overset/TiogaInterface.cpp.

    Patches of a level are listed in the order of the box array, each with the process that has it.  The arrays of the
    table are filled one place after another; here they are lists that grow, and c108_patches shows that they get the sizes
    that were set aside.  Device and host copies of the table are the same.  Fields are followed at one place. *)
From Coq Require Import List ZArith Bool.
From Verif Require Import Base BoxR.
Import ListNotations.
Open Scope R_scope.

(** *** Table of patches *)

Record patch : Type := Patch { p_rank : nat; p_lo : ivec; p_hi : ivec }.
Record mesh_level : Type := Lev { v_dx : R * R * R; v_patches : list patch }.
Record entry : Type := Entry { e_level : nat; e_rank : nat; e_local : nat; e_ilow : ivec; e_ihigh : ivec; e_dims : ivec;
                               e_xlo : R * R * R; e_dx : R * R * R }.
Record table : Type := Table { b_entries : list entry; b_counts : nat -> nat; b_idmap : list nat }.

(** 295-309 *)
Definition ngrids_global (ls : list mesh_level) : nat :=
  fold_left (fun n l => n + length (v_patches l))%nat ls 0%nat.
Definition ngrids_local (iproc : nat) (ls : list mesh_level) : nat :=
  fold_left (fun n l => fold_left (fun n p => if (p_rank p =? iproc)%nat then S n else n) (v_patches l) n) ls 0%nat.

(** 324-352: one patch; the number of entries so far is the place in the arrays and the global number *)
Definition add_patch (iproc : nat) (lo : R * R * R) (lev : nat) (dx : R * R * R) (b : table) (p : patch) : table :=
  let '(x, y, z) := lo in
  let '(dx0, dx1, dx2) := dx in
  let igp := length (b_entries b) in
  let e := Entry lev (p_rank p) (b_counts b (p_rank p)) (p_lo p) (p_hi p)
             (IV (iv0 (p_hi p) - iv0 (p_lo p) + 1) (iv1 (p_hi p) - iv1 (p_lo p) + 1) (iv2 (p_hi p) - iv2 (p_lo p) + 1))
             (x + IZR (iv0 (p_lo p)) * dx0, y + IZR (iv1 (p_lo p)) * dx1, z + IZR (iv2 (p_lo p)) * dx2) dx in
  Table (b_entries b ++ [e])
        (fun r => if (r =? p_rank p)%nat then S (b_counts b r) else b_counts b r)
        (if (iproc =? p_rank p)%nat then b_idmap b ++ [igp] else b_idmap b).
(** 311-354 *)
Fixpoint add_levels (iproc : nat) (lo : R * R * R) (lev : nat) (ls : list mesh_level) (b : table) : table :=
  match ls with
  | [] => b
  | l :: ls => add_levels iproc lo (S lev) ls (fold_left (add_patch iproc lo lev (v_dx l)) (v_patches l) b)
  end.
Definition patch_table (iproc : nat) (lo : R * R * R) (ls : list mesh_level) : table :=
  add_levels iproc lo 0 ls (Table [] (fun _ => 0%nat) []).
(** 208-227, 382-402: the patches whose data are handed over, in the order of the pointers: those of this process, level
    after level *)
Definition handed_over (iproc : nat) (ls : list mesh_level) : list patch :=
  flat_map (fun l => filter (fun p => (p_rank p =? iproc)%nat) (v_patches l)) ls.

(** *** Solution *)

(** A field at one place: its number and its components. *)
Definition fields : Type := nat -> list R.
(** 143-170, 171-199: the components of the variables one after another *)
Fixpoint gather (f : fields) (vars : list nat) : list R :=
  match vars with [] => [] | v :: vars => f v ++ gather f vars end.
(** 246-276: each variable takes as many components as it has, from where the one before it ended *)
Fixpoint scatter (vars : list nat) (icomp : nat) (q : list R) (f : fields) : fields :=
  match vars with
  | [] => f
  | v :: vars =>
    let n := length (f v) in
    scatter vars (icomp + n) q (fun w => if (w =? v)%nat then firstn n (skipn icomp q) else f w)
  end.

(** *** Calls *)

(** Whether the table is there, whether the host copies of the blanking are, whether those of the solution are, the value
    of the blanking on the host at one cell, and the mask of the solvers there. *)
Record life : Type := Life { l_table : bool; l_host : bool; l_sol : bool; l_blank : Z; l_mask : Z }.
Definition born : life := Life false false false 0 0.
Inductive event : Type := Init | Pre | Conn (ib : Z) | Post | Regrid | Register | Update.

(** 367-412: reads the host copies through a pointer *)
Definition to_iblank (s : life) : outcome life := if (l_table s && l_host s)%bool then Ret s else UB.
(** 51-58, 60-68, 70-87, 89-112, 114-236, 238-284, overset_ops_routines.cpp:17-34; [Conn] is the library that
    writes the blanking through the pointers it was given.  [Update] is for at least one variable. *)
Definition happens (e : event) (s : life) : outcome life :=
  match e with
  | Init => Ret (Life true (l_host s) (l_sol s) (l_blank s) 1)
  | Regrid =>
    obind (to_iblank (Life true (l_host s) (l_sol s) (l_blank s) (l_mask s))) (fun s =>
    Ret (Life true (l_host s) (l_sol s) (l_blank s) 1))
  | Pre =>
    obind (to_iblank (Life (l_table s) true (l_sol s) (l_blank s) (l_mask s))) (fun s =>
    Ret (Life (l_table s) true (l_sol s) 1 (l_mask s)))
  | Conn ib => if l_host s then Ret (Life (l_table s) true (l_sol s) ib (l_mask s)) else UB
  | Post => if l_host s then Ret (Life (l_table s) false (l_sol s) (l_blank s) (Z.max (l_blank s) 0)) else UB
  | Register => if l_table s then Ret (Life true (l_host s) true (l_blank s) (l_mask s)) else UB
  | Update => if l_sol s then Ret (Life (l_table s) (l_host s) false (l_blank s) (l_mask s)) else UB
  end.
Fixpoint history (es : list event) (s : life) : outcome life :=
  match es with [] => Ret s | e :: es => obind (happens e s) (history es) end.
