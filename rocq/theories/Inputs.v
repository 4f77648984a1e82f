(** Options of a body read from two sections of the input, and the options of a turbine:
    amr-wind/core/MultiParser.H, wind_energy/actuator/turbine/turbine_utils.cpp,
    wind_energy/actuator/Actuator.cpp.

    A section of the input is a partial function from keys to the values written after the key, one function for
    each type of value; numbers are exact.  [ParmParse] is modelled by its documented effect: [query] leaves the
    variable as it is when the key is absent and reads the first value otherwise, [get] aborts when the key is
    absent, [queryarr] and [getarr] make the vector longer when it is too short for the values, write the values
    over its first elements and never make it shorter.  Reading the options of the lifting-line correction
    (fllc_parse) is reduced to the number of times it is called. *)
From Coq Require Import String List ZArith.
From Verif Require Import BoxR VecSpace.
Import ListNotations.

Open Scope string_scope.
Open Scope R_scope.

(** *** ParmParse *)

Section Keys.
Context {A : Type}.

(** the part of a section that holds values of type [A] *)
Definition sect : Type := string -> option (list A).

(** ParmParse::query and ParmParse::get of one value *)
Definition pp_query (s : sect) (k : string) (v : A) : A :=
  match s k with Some (x :: _) => x | _ => v end.
Definition pp_get (s : sect) (k : string) : outcome A :=
  match s k with Some (x :: _) => Ret x | _ => Abort end.

(** ParmParse::queryarr and ParmParse::getarr: the values overwrite the first elements *)
Definition overwrite (ref vals : list A) : list A := (vals ++ skipn (length vals) ref)%list.
Definition pp_queryarr (s : sect) (k : string) (ref : list A) : list A :=
  match s k with Some l => overwrite ref l | None => ref end.
Definition pp_getarr (s : sect) (k : string) (ref : list A) : outcome (list A) :=
  match s k with Some l => Ret (overwrite ref l) | None => Abort end.
Definition pp_contains (s : sect) (k : string) : bool :=
  match s k with Some _ => true | None => false end.

(** *** MultiParser *)

(** MultiParser.H:34-37 *)
Definition mp_contains (dflt own : sect) (k : string) : bool :=
  pp_contains own k || pp_contains dflt k.

(** MultiParser.H:116-125 *)
Definition mp_get (dflt own : sect) (k : string) : outcome A :=
  if pp_contains own k then pp_get own k else pp_get dflt k.

(** MultiParser.H:127-136 *)
Definition mp_getarr (dflt own : sect) (k : string) (v : list A) : outcome (list A) :=
  if pp_contains own k then pp_getarr own k v else pp_getarr dflt k v.

(** MultiParser.H:138-144 *)
Definition mp_query (dflt own : sect) (k : string) (v : A) : A :=
  let v := pp_query dflt k v in pp_query own k v.

(** MultiParser.H:146-153 *)
Definition mp_queryarr (dflt own : sect) (k : string) (v : list A) : list A :=
  let v := pp_queryarr dflt k v in pp_queryarr own k v.

End Keys.
Arguments sect : clear implicits.

(** the assertion on the size and the assignment of the components (MultiParser.H:48-51, 64-67) *)
Definition three (l : list R) : outcome vec :=
  match l with [x; y; z] => Ret (V3 x y z) | _ => Abort end.
(** the same where one value may stand for all (MultiParser.H:80-89, 102-112) *)
Definition one_or_three (l : list R) : outcome vec :=
  match l with [x] => Ret (V3 x x x) | [x; y; z] => Ret (V3 x y z) | _ => Abort end.

(** MultiParser.H:44-52 *)
Definition mp_get_vec (dflt own : sect R) (k : string) : outcome vec :=
  obind (mp_getarr dflt own k []) three.
(** MultiParser.H:59-69 *)
Definition mp_query_vec (dflt own : sect R) (k : string) (v : vec) : outcome vec :=
  match mp_queryarr dflt own k [] with [] => Ret v | l => three l end.
(** MultiParser.H:76-90 *)
Definition mp_get_either (dflt own : sect R) (k : string) : outcome vec :=
  obind (mp_getarr dflt own k []) one_or_three.
(** MultiParser.H:97-114 *)
Definition mp_query_either (dflt own : sect R) (k : string) (v : vec) : outcome vec :=
  match mp_queryarr dflt own k [] with [] => Ret v | l => one_or_three l end.

(** *** Turbines *)

(** one section of the input *)
Record section : Type := Sec { s_int : sect Z; s_real : sect R; s_bool : sect bool; s_str : sect string }.

(** turbine_types.H:13-71, the members read from the input; [t_lo], [t_hi] are the corners of the bounding box,
    [t_fllc] the number of corrections set up *)
Record turbine : Type := Turb {
  t_blades : Z; t_pts_blade : Z; t_vel_pts_blade : Z; t_pts_tower : Z;
  t_area : R; t_cd : R;
  t_eps : vec; t_eps_chord : vec; t_eps_min : vec; t_eps_tower : vec;
  t_base : vec; t_diam : R; t_hub : R; t_fllc : Z;
  t_lo : vec; t_hi : vec }.

(** turbine_utils.cpp:52-60 *)
Definition box_lo (bp : vec) (diam : R) : vec :=
  let rad := 0.5 * diam in V3 (vx bp - 1.25 * rad) (vy bp - 1.25 * rad) (vz bp - 1.25 * rad).
Definition box_hi (bp : vec) (diam hh : R) : vec :=
  let rad := 0.5 * diam in V3 (vx bp + 1.25 * rad) (vy bp + 1.25 * rad) (vz bp + 1.25 * rad + hh).

(** turbine_utils.cpp:11-61.  [solver] is the name of the turbine solver; [diam0], [hub0] are the diameter and the
    height known before (turbine_types.H:19,22: zero). *)
Definition read_turbine (solver : string) (diam0 hub0 : R) (dflt own : section) : outcome turbine :=
  let nb := mp_query (s_int dflt) (s_int own) "num_blades" 3%Z in
  obind (mp_get (s_int dflt) (s_int own) "num_points_blade") (fun npb =>
  let nvb := npb in
  obind (mp_get (s_int dflt) (s_int own) "num_points_tower") (fun npt =>
  let area := mp_query (s_real dflt) (s_real own) "nacelle_area" 0 in
  let cd := mp_query (s_real dflt) (s_real own) "nacelle_drag_coeff" 0 in
  if negb (mp_contains (s_real dflt) (s_real own) "epsilon") &&
     negb (mp_contains (s_real dflt) (s_real own) "epsilon_chord") then Abort
  else
  obind (mp_query_either (s_real dflt) (s_real own) "epsilon" vzero) (fun eps =>
  obind (mp_query_either (s_real dflt) (s_real own) "epsilon_chord" vzero) (fun epsc =>
  obind (mp_query_either (s_real dflt) (s_real own) "epsilon_min" vzero) (fun epsm =>
  obind (mp_query_either (s_real dflt) (s_real own) "epsilon_tower" vzero) (fun epst =>
  obind (mp_get_vec (s_real dflt) (s_real own) "base_position") (fun bp =>
  obind (if String.eqb solver "Kynema" then Ret diam0
         else mp_get (s_real dflt) (s_real own) "rotor_diameter") (fun diam =>
  obind (if String.eqb solver "Kynema" then Ret hub0
         else mp_get (s_real dflt) (s_real own) "hub_height") (fun hh =>
  let use_fllc := mp_query (s_bool dflt) (s_bool own) "fllc" false in
  obind (if use_fllc then
           let type := mp_query (s_str dflt) (s_str own) "type" "" in
           if String.eqb type "TurbineFastDisk" then Abort else Ret (Z.max nb 0)
         else Ret 0%Z) (fun nf =>
  Ret (Turb nb npb nvb npt area cd eps epsc epsm epst bp diam hh nf (box_lo bp diam) (box_hi bp diam hh)))))))))))).

(** Actuator.cpp:62-78: the type of the turbine [label] and the sections its options are read from.  [top] is the
    section "Actuator", [sub s] is the section "Actuator.s". *)
Definition actuator_type (top own : section) : outcome string :=
  let type := pp_query (s_str top) "type" "" in
  let type := pp_query (s_str own) "type" type in
  if String.eqb type "" then Abort else Ret type.
Definition make_turbine (solver : string -> string) (top : section) (sub : string -> section) (label : string)
    : outcome (string * turbine) :=
  obind (actuator_type top (sub label)) (fun type =>
  obind (read_turbine (solver type) 0 0 (sub type) (sub label)) (fun t => Ret (type, t))).
