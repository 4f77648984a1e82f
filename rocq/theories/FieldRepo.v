(** Model of the field repository: amr-wind/core/FieldRepo.cpp, Field.cpp,
    FieldUtils.H, and of the AMReX mesh hierarchy that drives it.

    A multifab is its layout (boxes, distribution, index type, components, ghost
    cells) and its values, indexed by point and component.  Boxes and distributions
    are opaque numbers: the code only passes them on.  Values are exact rationals.
    Integer fields, scratch fields and the debug-only assertions (AMREX_ASSERT,
    BL_ASSERT) are not modelled. *)
From Coq Require Import String.
From Verif Require Export Base.
Local Open Scope string_scope.
Local Open Scope list_scope.
Local Open Scope Q_scope.

(** FieldDescTypes.H:16-24. *)
Inductive fstate := NP1 | N | NM1 | NPH | NMH.
Definition fstate_eqb (a b : fstate) : bool :=
  match a, b with NP1, NP1 | N, N | NM1, NM1 | NPH, NPH | NMH, NMH => true | _, _ => false end.
(** static_cast<FieldState>(i) for i = 0, 1, 2. *)
Definition fstate_of (i : nat) : fstate := match i with O => NP1 | 1%nat => N | _ => NM1 end.
(** FieldDescTypes.H:29-35. *)
Inductive floc := CELL | NODE | XFACE | YFACE | ZFACE.
Definition floc_eqb (a b : floc) : bool :=
  match a, b with CELL, CELL | NODE, NODE | XFACE, XFACE | YFACE, YFACE | ZFACE, ZFACE => true | _, _ => false end.

(** field_impl::field_name_with_state, FieldUtils.H:40-62. *)
Definition field_name_with_state (fname : string) (s : fstate) : string :=
  match s with
  | NP1 => fname
  | N => fname ++ "__FS_Old"
  | NM1 => fname ++ "__FS_NM1"
  | NPH => fname ++ "__FS_NPH"
  | NMH => fname ++ "__FS_NMH"
  end.
(** field_impl::is_valid_field_name, FieldUtils.H:73-78: [rfind] of the guard finds
    nothing (searching from the front finds nothing in the same cases). *)
Definition is_valid_field_name (name : string) : bool :=
  match String.index 0 "__FS_" name with None => true | Some _ => false end.

(** amrex::MultiFab. *)
Definition data := nat -> nat -> Q.    (* point, component *)
Record mfab := {
  mf_ba : nat; mf_dm : nat; mf_loc : floc; mf_ncomp : nat; mf_ngrow : nat; mf_val : data }.
Definition zero : data := fun _ _ => 0.

(** FieldInfo, Field.H:28-81 (the members used here). *)
Record finfo := {
  i_name : string; i_ncomp : nat; i_ngrow : nat; i_nstates : Z; i_loc : floc;
  i_states : fstate -> option nat }.
(** Field, Field.H:421-444. *)
Record field := {
  f_name : string; f_info : nat; f_state : fstate; f_regrid : bool; f_mapped : bool }.

(** AmrMesh: number of active levels (finest_level + 1), boxes and distribution of
    each level. *)
Record mesh := { m_nlev : nat; m_ba : nat -> nat; m_dm : nat -> nat }.

(** FieldRepo, FieldRepo.H:422-442. *)
Record repo := {
  r_mesh : mesh;
  r_infos : list finfo;
  r_fields : list field;                    (* m_field_vec *)
  r_map : string -> option nat;             (* m_fid_map *)
  r_levels : nat -> option (list mfab);     (* m_leveldata[lev]->m_mfabs *)
  r_init : bool }.                          (* m_is_initialized *)

Definition set_mesh m r := {| r_mesh := m; r_infos := r_infos r; r_fields := r_fields r;
  r_map := r_map r; r_levels := r_levels r; r_init := r_init r |}.
Definition set_levels l r := {| r_mesh := r_mesh r; r_infos := r_infos r; r_fields := r_fields r;
  r_map := r_map r; r_levels := l; r_init := r_init r |}.
Definition set_init b r := {| r_mesh := r_mesh r; r_infos := r_infos r; r_fields := r_fields r;
  r_map := r_map r; r_levels := r_levels r; r_init := b |}.
Definition set_fields l r := {| r_mesh := r_mesh r; r_infos := r_infos r; r_fields := l;
  r_map := r_map r; r_levels := r_levels r; r_init := r_init r |}.

Definition fupd {A} (f : nat -> A) (i : nat) (v : A) : nat -> A := fun j => if Nat.eqb j i then v else f j.
Definition supd {A} (f : string -> A) (i : string) (v : A) : string -> A := fun j => if String.eqb j i then v else f j.
Definition stupd {A} (f : fstate -> A) (i : fstate) (v : A) : fstate -> A := fun j => if fstate_eqb j i then v else f j.
Fixpoint lupd {A} (l : list A) (i : nat) (v : A) : list A :=
  match l, i with
  | [], _ => []
  | _ :: r, O => v :: r
  | x :: r, S i' => x :: lupd r i' v
  end.

(** The repository before anything is declared: FieldRepo.H:91-93; AmrMesh starts
    with finest_level = -1. *)
Definition empty_repo : repo := {|
  r_mesh := {| m_nlev := 0; m_ba := fun _ => O; m_dm := fun _ => O |};
  r_infos := []; r_fields := []; r_map := fun _ => None; r_levels := fun _ => None; r_init := false |}.

(** MultiFab construction followed by setVal(0), FieldRepo.cpp:424-431. *)
Definition new_mfab (ba dm : nat) (i : finfo) : mfab :=
  {| mf_ba := ba; mf_dm := dm; mf_loc := i_loc i; mf_ncomp := i_ncomp i; mf_ngrow := i_ngrow i; mf_val := zero |}.
Definition dummy_info : finfo :=
  {| i_name := ""; i_ncomp := 0; i_ngrow := 0; i_nstates := 0; i_loc := CELL; i_states := fun _ => None |}.
Definition info_of (r : repo) (f : field) : finfo := nth (f_info f) (r_infos r) dummy_info.

(** FieldRepo::allocate_field_data for a whole level, FieldRepo.cpp:414-432. *)
Definition allocate_level (r : repo) (ba dm : nat) : list mfab :=
  map (fun f => new_mfab ba dm (info_of r f)) (r_fields r).

(** FieldRepo::allocate_field_data for one field on all levels,
    FieldRepo.cpp:434-458: the data are pushed at the end of each level's vector.
    Dereferencing the data of a level that has none is undefined. *)
Fixpoint allocate_on (n : nat) (m : mesh) (i : finfo) (lv : nat -> option (list mfab))
  : outcome (nat -> option (list mfab)) :=
  match n with
  | O => Ret lv
  | S k =>
    obind (allocate_on k m i lv) (fun lv' =>
      match lv' k with
      | None => UB
      | Some l => Ret (fupd lv' k (Some (l ++ [new_mfab (m_ba m k) (m_dm m k) i])))
      end)
  end.

(** Add one Field object: FieldRepo.cpp:124-145 (and create_state,
    FieldRepo.cpp:505-522). *)
Definition add_field (r : repo) (k : nat) (s : fstate) : outcome repo :=
  let i := nth k (r_infos r) dummy_info in
  let fname := field_name_with_state (i_name i) s in
  let fid := length (r_fields r) in
  obind (if r_init r then allocate_on (m_nlev (r_mesh r)) (r_mesh r) i (r_levels r) else Ret (r_levels r))
    (fun lv =>
      Ret {| r_mesh := r_mesh r;
             r_infos := lupd (r_infos r) k
                          {| i_name := i_name i; i_ncomp := i_ncomp i; i_ngrow := i_ngrow i;
                             i_nstates := i_nstates i; i_loc := i_loc i;
                             i_states := stupd (i_states i) s (Some fid) |};
             r_fields := r_fields r ++ [{| f_name := fname; f_info := k; f_state := s;
                                           f_regrid := false; f_mapped := false |}];
             r_map := supd (r_map r) fname (Some fid);
             r_levels := lv; r_init := r_init r |}).

Fixpoint add_states (n : nat) (i : nat) (r : repo) (k : nat) : outcome repo :=
  match n with
  | O => Ret r
  | S m => obind (add_field r k (fstate_of i)) (fun r' => add_states m (S i) r' k)
  end.

(** FieldRepo::declare_field, FieldRepo.cpp:86-149; returns the handle.  The final
    [m_fid_map[name]] makes an entry 0 when the name is missing. *)
Definition declare_field (r : repo) (name : string) (ncomp ngrow : nat) (nstates : Z) (loc : floc)
  : outcome (nat * repo) :=
  match r_map r name with
  | Some fid =>
    match nth_error (r_fields r) fid with
    | None => UB
    | Some f =>
      let i := info_of r f in
      if negb (Nat.eqb ncomp (i_ncomp i)) || negb (Z.eqb (i_nstates i) nstates) || negb (floc_eqb loc (i_loc i))
      then Abort else Ret (fid, r)
    end
  | None =>
    if Z.ltb 3 nstates then Abort
    else if negb (is_valid_field_name name) then Abort
    else
      let k := length (r_infos r) in
      let r1 := {| r_mesh := r_mesh r;
                   r_infos := r_infos r ++ [{| i_name := name; i_ncomp := ncomp; i_ngrow := ngrow;
                                               i_nstates := nstates; i_loc := loc; i_states := fun _ => None |}];
                   r_fields := r_fields r; r_map := r_map r; r_levels := r_levels r; r_init := r_init r |} in
      obind (add_states (Z.to_nat nstates) 0 r1 k) (fun r2 =>
        match r_map r2 name with
        | Some fid => Ret (fid, r2)
        | None =>
          let r3 := {| r_mesh := r_mesh r2; r_infos := r_infos r2; r_fields := r_fields r2;
                       r_map := supd (r_map r2) name (Some O); r_levels := r_levels r2; r_init := r_init r2 |} in
          match r_fields r3 with [] => UB | _ => Ret (O, r3) end
        end)
  end.

(** FieldRepo::get_field, FieldRepo.cpp:151-166. *)
Definition get_field (r : repo) (name : string) (s : fstate) : outcome nat :=
  match r_map r (field_name_with_state name s) with
  | Some fid => if Nat.ltb fid (length (r_fields r)) then Ret fid else Abort
  | None => Abort
  end.
(** FieldRepo::field_exists, FieldRepo.cpp:218-224. *)
Definition field_exists (r : repo) (name : string) (s : fstate) : bool :=
  match r_map r (field_name_with_state name s) with Some _ => true | None => false end.

(** Field::create_state, Field.cpp:331-339, FieldRepo::create_state,
    FieldRepo.cpp:499-523. *)
Definition create_state (r : repo) (fid : nat) (s : fstate) : outcome (nat * repo) :=
  match nth_error (r_fields r) fid with
  | None => UB
  | Some f =>
    match i_states (info_of r f) s with
    | Some g => Ret (g, r)
    | None => obind (add_field r (f_info f) s) (fun r' => Ret (length (r_fields r), r'))
    end
  end.

(** Field::state, Field.cpp:117-131: a missing state is a null dereference. *)
Definition state_of (r : repo) (fid : nat) (s : fstate) : outcome nat :=
  match nth_error (r_fields r) fid with
  | None => UB
  | Some f => match i_states (info_of r f) s with Some g => Ret g | None => UB end
  end.

(** FieldRepo::get_multifab, FieldRepo.H:374-378. *)
Definition get_multifab (r : repo) (fid lev : nat) : outcome mfab :=
  match r_levels r lev with
  | None => UB
  | Some l => match nth_error l fid with None => UB | Some m => Ret m end
  end.
Definition set_val (m : mfab) (v : data) : mfab :=
  {| mf_ba := mf_ba m; mf_dm := mf_dm m; mf_loc := mf_loc m; mf_ncomp := mf_ncomp m;
     mf_ngrow := mf_ngrow m; mf_val := v |}.
Definition put_val (r : repo) (fid lev : nat) (v : data) : outcome repo :=
  match r_levels r lev with
  | None => UB
  | Some l => match nth_error l fid with
              | None => UB
              | Some m => Ret (set_levels (fupd (r_levels r) lev (Some (lupd l fid (set_val m v)))) r)
              end
  end.

(** MultiFab::Copy of all components and ghost cells on the active levels
    [0, n): Field.cpp:312-315, 325-328. *)
Fixpoint copy_levels (n : nat) (r : repo) (dst src : nat) : outcome repo :=
  match n with
  | O => Ret r
  | S k => obind (copy_levels k r dst src) (fun r' =>
             obind (get_multifab r' src k) (fun m => put_val r' dst k (mf_val m)))
  end.

(** Field::copy_state, Field.cpp:319-329. *)
Definition copy_state (r : repo) (fid : nat) (to from : fstate) : outcome repo :=
  obind (state_of r fid to) (fun a =>
  obind (state_of r fid from) (fun b => copy_levels (m_nlev (r_mesh r)) r a b)).

(** The loop of Field::advance_states, Field.cpp:307-316, from state i down to 1. *)
Fixpoint shift_states (i : nat) (r : repo) (fid : nat) : outcome repo :=
  match i with
  | O => Ret r
  | S k => obind (state_of r fid (fstate_of (S k))) (fun a =>
           obind (state_of r fid (fstate_of k)) (fun b =>
           obind (copy_levels (m_nlev (r_mesh r)) r a b) (fun r' => shift_states k r' fid)))
  end.
(** Field::advance_states, Field.cpp:300-317. *)
Definition advance_field (r : repo) (fid : nat) : outcome repo :=
  match nth_error (r_fields r) fid with
  | None => UB
  | Some f => let n := i_nstates (info_of r f) in
              if Z.ltb n 2 then Ret r else shift_states (Z.to_nat (n - 1)) r fid
  end.
(** FieldRepo::advance_states, FieldRepo.cpp:404-412. *)
Fixpoint advance_from (l : list field) (fid : nat) (r : repo) : outcome repo :=
  match l with
  | [] => Ret r
  | f :: rest =>
    obind (match f_state f with NP1 => advance_field r fid | _ => Ret r end)
      (advance_from rest (S fid))
  end.
Definition advance_states (r : repo) : outcome repo := advance_from (r_fields r) 0 r.

(** FieldRepo::make_new_level_from_scratch, FieldRepo.cpp:15-30, and AMReX, which
    then records boxes and distribution of the level (a level is at most one finer
    than the finest). *)
Definition level_from_scratch (r : repo) (lev ba dm : nat) : repo :=
  set_init true
    (set_mesh {| m_nlev := Nat.max (m_nlev (r_mesh r)) (S lev);
                 m_ba := fupd (m_ba (r_mesh r)) lev ba; m_dm := fupd (m_dm (r_mesh r)) lev dm |}
      (set_levels (fupd (r_levels r) lev (Some (allocate_level r ba dm))) r)).

(** What fillpatch / fillpatch_from_coarse put into new data of a field: AMReX
    interpolation and copying, any function of the level, the field and the
    repository. *)
Definition filler := repo -> nat -> nat -> data.

Fixpoint fill_level (r : repo) (fill : filler) (lev : nat) (fs : list field) (fid : nat) (l : list mfab) : list mfab :=
  match fs, l with
  | f :: fs', m :: l' =>
    (if f_regrid f then set_val m (fill r lev fid) else m) :: fill_level r fill lev fs' (S fid) l'
  | _, _ => l
  end.

(** FieldRepo::make_new_level_from_coarse and remake_level, FieldRepo.cpp:32-78
    (they differ in the fill function only). *)
Definition make_level (r : repo) (fill : filler) (lev ba dm : nat) : repo :=
  set_init true
    (set_levels (fupd (r_levels r) lev
       (Some (fill_level r fill lev (r_fields r) 0 (allocate_level r ba dm)))) r).

(** FieldRepo::clear_level, FieldRepo.cpp:80-84. *)
Definition clear_level (r : repo) (lev : nat) : repo :=
  set_levels (fupd (r_levels r) lev None) r.

(** amrex::AmrCore::regrid: levels lbase+1, ... get the new grids in order; a level
    whose grids do not change is left alone, an existing one is re-made, a new one
    made from the coarser; then levels beyond the new finest are cleared. *)
Fixpoint regrid_levels (r : repo) (fill : filler) (lev : nat) (grids : list (nat * nat)) : repo :=
  match grids with
  | [] => r
  | (ba, dm) :: rest =>
    let m := r_mesh r in
    let same := Nat.ltb lev (m_nlev m) && Nat.eqb ba (m_ba m lev) && Nat.eqb dm (m_dm m lev) in
    let r' := if same then r
              else let r1 := make_level r fill lev ba dm in
                   set_mesh {| m_nlev := m_nlev m; m_ba := fupd (m_ba m) lev ba; m_dm := fupd (m_dm m) lev dm |} r1 in
    regrid_levels r' fill (S lev) rest
  end.
Fixpoint clear_levels (r : repo) (from n : nat) : repo :=
  match n with O => r | S k => clear_levels (clear_level r from) (S from) k end.
Definition regrid (r : repo) (fill : filler) (lbase : nat) (grids : list (nat * nat)) : repo :=
  let new_n := (S lbase + length grids)%nat in
  let r1 := regrid_levels r fill (S lbase) grids in
  let r2 := clear_levels r1 new_n (m_nlev (r_mesh r) - new_n) in
  set_mesh {| m_nlev := new_n; m_ba := m_ba (r_mesh r2); m_dm := m_dm (r_mesh r2) |} r2.

(** FieldRepo::get_mesh_mapping_field and get_mesh_mapping_det_j,
    FieldRepo.cpp:168-216. *)
Definition loc_suffix (l : floc) : string :=
  match l with CELL => "cc" | NODE => "nd" | XFACE => "xf" | YFACE => "yf" | ZFACE => "zf" end.
Definition map_field (r : repo) (l : floc) : outcome nat := get_field r ("mesh_scaling_factor_" ++ loc_suffix l) NP1.
Definition map_det (r : repo) (l : floc) : outcome nat := get_field r ("mesh_scaling_detJ_" ++ loc_suffix l) NP1.

(** Kernel of to_uniform_space (Field.cpp:404-412) or to_stretched_space
    (Field.cpp:435-443) on the active levels.  Component [n] of the factor is read
    for every component of the field: past the end of its AMREX_SPACEDIM components
    this is out of bounds. *)
Fixpoint scale_levels (n : nat) (r : repo) (uniform : bool) (fid fac det : nat) : outcome repo :=
  match n with
  | O => Ret r
  | S k =>
    obind (scale_levels k r uniform fid fac det) (fun r' =>
    obind (get_multifab r' fid k) (fun m =>
    obind (get_multifab r' fac k) (fun mf =>
    obind (get_multifab r' det k) (fun md =>
      if Nat.ltb (mf_ncomp mf) (mf_ncomp m) then UB else
      put_val r' fid k (fun pt c =>
        if Nat.ltb c (mf_ncomp m) then
          (if uniform then mf_val m pt c * (mf_val md pt 0%nat / mf_val mf pt c)
           else mf_val m pt c * (mf_val mf pt c / mf_val md pt 0%nat))
        else mf_val m pt c)))))
  end.
Definition set_mapped (r : repo) (fid : nat) (b : bool) : repo :=
  match nth_error (r_fields r) fid with
  | None => r
  | Some f => set_fields (lupd (r_fields r) fid
      {| f_name := f_name f; f_info := f_info f; f_state := f_state f; f_regrid := f_regrid f; f_mapped := b |}) r
  end.
(** Field::to_uniform_space ([b = true], Field.cpp:387-415) and
    Field::to_stretched_space ([b = false], Field.cpp:417-446). *)
Definition to_space (b : bool) (r : repo) (fid : nat) : outcome repo :=
  match nth_error (r_fields r) fid with
  | None => UB
  | Some f =>
    let i := info_of r f in
    if Nat.ltb (i_ncomp i) 3 then Abort
    else if Bool.eqb (f_mapped f) b then Ret r
    else obind (map_field r (i_loc i)) (fun fac =>
         obind (map_det r (i_loc i)) (fun det =>
         obind (scale_levels (m_nlev (r_mesh r)) r b fid fac det) (fun r' =>
           Ret (set_mapped r' fid b))))
  end.
Definition to_uniform_space := to_space true.
Definition to_stretched_space := to_space false.

(** Field::fillpatch_on_regrid() = b, Field.H:163. *)
Definition set_fillpatch (r : repo) (fid : nat) (b : bool) : outcome repo :=
  match nth_error (r_fields r) fid with
  | None => UB
  | Some f => Ret (set_fields (lupd (r_fields r) fid
      {| f_name := f_name f; f_info := f_info f; f_state := f_state f; f_regrid := b; f_mapped := f_mapped f |}) r)
  end.

(** Everything a user of the repository or the mesh can do. *)
Inductive op :=
| ODeclare (name : string) (ncomp ngrow : nat) (nstates : Z) (loc : floc)
| OCreateState (fid : nat) (s : fstate)
| OFillpatch (fid : nat) (b : bool)
| OScratch (lev ba dm : nat)
| ORegrid (fill : filler) (lbase : nat) (grids : list (nat * nat))
| OWrite (fid lev : nat) (v : data)
| OCopyState (fid : nat) (to from : fstate)
| OAdvance
| OUniform (fid : nat)
| OStretched (fid : nat).

Definition exec (r : repo) (o : op) : outcome repo :=
  match o with
  | ODeclare name ncomp ngrow nstates loc =>
      obind (declare_field r name ncomp ngrow nstates loc) (fun '(_, r') => Ret r')
  | OCreateState fid s => obind (create_state r fid s) (fun '(_, r') => Ret r')
  | OFillpatch fid b => set_fillpatch r fid b
  | OScratch lev ba dm => Ret (level_from_scratch r lev ba dm)
  | ORegrid fill lbase grids => Ret (regrid r fill lbase grids)
  | OWrite fid lev v => put_val r fid lev v
  | OCopyState fid a b => copy_state r fid a b
  | OAdvance => advance_states r
  | OUniform fid => to_uniform_space r fid
  | OStretched fid => to_stretched_space r fid
  end.
Fixpoint run (r : repo) (os : list op) : outcome repo :=
  match os with [] => Ret r | o :: rest => obind (exec r o) (fun r' => run r' rest) end.
