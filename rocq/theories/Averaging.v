(** Model of the running time averages: amr-wind/utilities/averaging.

    One grid cell is followed: the kernels (ReAveraging.cpp:57-66,
    ReynoldsStress.cpp:76-99) treat every cell by itself.  Ghost-cell filling and
    the interpolation of averages onto new grids after a regrid are left out.
    Reals are exact rationals; a value that is infinite or not a number is [None],
    which every later update keeps (it is multiplied, added and divided only). *)
From Coq Require Import String.
From Verif Require Export Base.
Local Open Scope string_scope.
Local Open Scope Q_scope.

(** amrex::Real: a finite value, or not finite. *)
Definition real := option Q.

(** constants::LOOSE_TOL, constants.H:21-22. *)
Definition loose_tol : Q := eps * inject_Z 100000000.

(** TimeAveraging::pre_init_actions, TimeAveraging.cpp:28-31 (the members they
    set, TimeAveraging.H:96-105). *)
Record avg_params := {
  v_start : Q; v_stop : Q; v_interval : Q; v_window : Q }.

(** The two registered kinds of FieldTimeAverage with the names of the fields they
    hold references to: ReAveraging.H:42-46, ReynoldsStress.H:52-62. *)
Inductive averager :=
| Mean (src dst : string)
| Stress (src mean stress re : string).

(** Averaged fields declared so far (this cell's components), by name. *)
Definition store := string -> option (list real).
Definition sget (s : store) (n : string) : list real :=
  match s n with Some l => l | None => [] end.
Definition sset (s : store) (n : string) (l : list real) : store :=
  fun m => if String.eqb m n then Some l else s m.

(** FieldRepo::declare_field, FieldRepo.cpp:86-150, for averaged fields: an
    existing field must agree in the number of components (the number of states is
    always 1 and the location that of the averaged field, not modelled); new field
    data start at zero (FieldRepo.cpp, allocate_field_data). *)
Definition declare (s : store) (n : string) (ncomp : nat) : outcome store :=
  match s n with
  | Some l => if Nat.eqb (length l) ncomp then Ret s else Abort
  | None => Ret (sset s n (repeat (Some 0) ncomp))
  end.

(** ReAveraging::avg_name, ReAveraging.H:36-40. *)
Definition avg_name (fname avgname : string) : string := fname ++ "_mean_" ++ avgname.
(** ReynoldsStress::stress_name and re_stress_name, ReynoldsStress.H:39-50. *)
Definition stress_name (fname avgname : string) : string := fname ++ "_stress_" ++ avgname.
Definition re_stress_name (fname avgname : string) : string := fname ++ "_reynolds_stress_" ++ avgname.

(** FieldTimeAverage::create: Factory lookup, then the constructors
    ReAveraging.cpp:12-30 and ReynoldsStress.cpp:12-44.  [ncomp n] is the number of
    components of the flow field [n], [None] if there is none (get_field aborts).
    Averages of averages are left out: [ncomp] knows flow fields only. *)
Definition create (ncomp : string -> option nat) (label typ fname : string) (s : store)
  : outcome (averager * store) :=
  if String.eqb typ "ReAveraging" then
    match ncomp fname with
    | None => Abort
    | Some n => obind (declare s (avg_name fname label) n) (fun s1 =>
                  Ret (Mean fname (avg_name fname label), s1))
    end
  else if String.eqb typ "ReynoldsStress" then
    match ncomp "velocity", s (avg_name "velocity" label) with
    | Some _, Some _ =>
      obind (declare s (stress_name "velocity" label) 6) (fun s1 =>
      obind (declare s1 (re_stress_name "velocity" label) 6) (fun s2 =>
      if String.eqb fname "velocity"
      then Ret (Stress "velocity" (avg_name "velocity" label)
                  (stress_name "velocity" label) (re_stress_name "velocity" label), s2)
      else Abort))
    | _, _ => Abort
    end
  else Abort.

(** The TimeAveraging object, TimeAveraging.H:84-108. *)
Record tavg := {
  ta_objs : list averager;             (* m_averages *)
  ta_reg : list (string * averager);   (* m_registered *)
  ta_acc : Q;                          (* m_accumulated_avg_time_interval *)
  ta_store : store }.

(** ioutils::all_distinct, io_utils.H:66-71. *)
Fixpoint all_distinct (l : list string) : bool :=
  match l with
  | [] => true
  | x :: r => negb (existsb (String.eqb x) r) && all_distinct r
  end.

(** TimeAveraging.cpp:52: the key of an average. *)
Definition avg_key (fname typ : string) : string := fname ++ "_" ++ typ.

Definition lookup {A} (k : string) (l : list (string * A)) : option A :=
  match find (fun e => String.eqb (fst e) k) l with Some e => Some (snd e) | None => None end.

(** TimeAveraging.cpp:51-60: create the averages of one label; std::map::emplace
    keeps an entry that is already there. *)
Fixpoint add_fields (ncomp : string -> option nat) (label typ : string) (fnames : list string) (a : tavg)
  : outcome tavg :=
  match fnames with
  | [] => Ret a
  | f :: r =>
    obind (create ncomp label typ f (ta_store a)) (fun '(o, s) =>
      let key := avg_key f typ in
      add_fields ncomp label typ r
        {| ta_objs := ta_objs a ++ [o];
           ta_reg := match lookup key (ta_reg a) with Some _ => ta_reg a | None => ta_reg a ++ [(key, o)] end;
           ta_acc := ta_acc a; ta_store := s |})
  end.

(** One entry of [labels]: its name, averaging_type and fields. *)
Definition entry : Type := string * string * list string.

Fixpoint add_entries (ncomp : string -> option nat) (label : string) (es : list entry) (a : tavg)
  : outcome tavg :=
  match es with
  | [] => Ret a
  | (_, typ, fnames) :: r =>
    if all_distinct fnames
    then obind (add_fields ncomp label typ fnames a) (add_entries ncomp label r)
    else Abort
  end.

(** TimeAveraging::pre_init_actions, TimeAveraging.cpp:18-62.  The averaged fields
    are listed with their initial data, which the code allocates when the mesh is
    made. *)
Definition setup (ncomp : string -> option nat) (label : string) (es : list entry) : outcome tavg :=
  if all_distinct (map (fun e => fst (fst e)) es)
  then add_entries ncomp label es
         {| ta_objs := []; ta_reg := []; ta_acc := 0; ta_store := fun _ => None |}
  else Abort.

(** TimeAveraging::add_averaging, TimeAveraging.cpp:66-81 (without the returned
    name): a new average is not entered into m_registered. *)
Definition add_averaging (ncomp : string -> option nat) (label fname typ : string) (a : tavg)
  : outcome tavg :=
  match lookup (avg_key fname typ) (ta_reg a) with
  | Some _ => Ret a
  | None =>
    obind (create ncomp label typ fname (ta_store a)) (fun '(o, s) =>
      Ret {| ta_objs := ta_objs a ++ [o]; ta_reg := ta_reg a; ta_acc := ta_acc a; ta_store := s |})
  end.

(** The state of one cell when post_advance_work is called: new time, delta_t and
    the components of each flow field. *)
Record call := { c_t : Q; c_dt : Q; c_val : string -> list Q }.

(** ReAveraging.cpp:43-46 (ReynoldsStress.cpp:57-60). *)
Definition filter_of (window acc elapsed : Q) : Q := qmax (qmin window elapsed) acc.
Definition factor_of (window acc elapsed : Q) : Q := qmax (filter_of window acc elapsed - acc) 0.

(** ReAveraging.cpp:63-64, ReynoldsStress.cpp:91-92: [(a * factor + f * acc) / filter];
    a division by zero gives an infinity or a NaN. *)
Definition update (window acc elapsed : Q) (a : real) (f : Q) : real :=
  if Qeq_bool (filter_of window acc elapsed) 0 then None
  else match a with
       | None => None
       | Some x => Some ((x * factor_of window acc elapsed + f * acc) / filter_of window acc elapsed)
       end.

Definition rnth (l : list real) (i : nat) : real := nth i l None.
Definition qnth (l : list Q) (i : nat) : Q := nth i l 0.
Definition rmul (a b : real) : real :=
  match a, b with Some x, Some y => Some (x * y) | _, _ => None end.
Definition rsub (a b : real) : real :=
  match a, b with Some x, Some y => Some (x - y) | _, _ => None end.

(** ReynoldsStress.cpp:79-98: the (m, n) pairs in the order of the tensor index. *)
Definition pairs (ncomp : nat) : list (nat * nat) :=
  flat_map (fun n => map (fun m => (m, n)) (seq n (ncomp - n))) (seq 0 ncomp).

(** One averager's update: ReAveraging.cpp:37-71, ReynoldsStress.cpp:51-105. *)
Definition run_avg (window acc elapsed : Q) (c : call) (s : store) (o : averager) : store :=
  match o with
  | Mean src dst =>
    let f := c_val c src in
    let a := sget s dst in
    sset s dst (map (fun n => update window acc elapsed (rnth a n) (qnth f n)) (seq 0 (length f)))
  | Stress src mean stress re =>
    let f := c_val c src in
    let a := sget s mean in
    let new := map (fun '(mn, (m, n)) =>
                 update window acc elapsed (rnth (sget s stress) mn) (qnth f m * qnth f n))
                 (combine (seq 0 6) (pairs (length f))) in
    let rs := map (fun '(mn, (m, n)) => rsub (rnth new mn) (rmul (rnth a m) (rnth a n)))
                 (combine (seq 0 6) (pairs (length f))) in
    sset (sset s stress new) re rs
  end.

(** TimeAveraging.cpp:98-107. *)
Definition do_avg (p : avg_params) (t dt : Q) : bool :=
  let tol := loose_tol * dt in
  let x := (t - v_start p + tol) / v_interval p in
  let phase := Qltb (v_interval p) 0 || Qltb (x - qfloor x) (dt / v_interval p) in
  (Qleb (v_start p) t && Qltb t (v_stop p)) && phase.

(** TimeAveraging::post_advance_work, TimeAveraging.cpp:83-117. *)
Definition post_advance (p : avg_params) (a : tavg) (c : call) : tavg :=
  let acc := ta_acc a + c_dt c in
  if do_avg p (c_t c) (c_dt c) then
    {| ta_objs := ta_objs a; ta_reg := ta_reg a; ta_acc := 0;
       ta_store := fold_left (run_avg (v_window p) acc (c_t c - v_start p) c) (ta_objs a) (ta_store a) |}
  else
    {| ta_objs := ta_objs a; ta_reg := ta_reg a; ta_acc := acc; ta_store := ta_store a |}.

(** PostProcessManager calls post_advance_work once at initialisation
    (PostProcessing.cpp:48-55) and once after every step (PostProcessing.cpp:73-74). *)
Definition averages (p : avg_params) (a : tavg) (cs : list call) : tavg :=
  fold_left (post_advance p) cs a.

(** Restart: the object is made anew (m_accumulated_avg_time_interval is 0 again)
    and the averaged fields are read from the checkpoint (io.cpp:218-219). *)
Definition restarted (a : tavg) : tavg :=
  {| ta_objs := ta_objs a; ta_reg := ta_reg a; ta_acc := 0; ta_store := ta_store a |}.
