(** Boundary conditions: reading the input, the fill rules, the Dirichlet fill
    of ghost cells, the custom boundary operators and the inflow profiles.
    A field is a function of the index and of the component; a face is numbered
    0..5 in the order xlo ylo zlo xhi yhi zhi (BCInterface.H:32,
    amrex::OrientationIter). *)
From Coq Require Import Reals String Ascii.
From Verif Require Import Base BoxR VofAdvect.
Open Scope R_scope.
Open Scope string_scope.

(** incflo_enums.H:13-27 (enum BC). *)
Inductive bct : Set :=
| PressureOutflow | MassInflow | MassInflowOutflow | ZeroGradient | NoSlipWall
| SlipWall | WallModel | FixedGradient | Periodic | WaveGeneration
| SymmetricWall | Undefined.

(** amrex::BCType::mathematicalBndryTypes, the values used here. *)
Inductive fill : Set := IntDir | FoExtrap | HoExtrap | ExtDir | DirDependent.

(** amrex::LinOpBCType, the values used here. *)
Inductive linop : Set :=
| LPeriodic | LDirichlet | LNeumann | LInhomogNeumann | LInflow.

(** amrex::Orientation: direction and side of a face number. *)
Definition fdir (f : nat) : nat := Nat.modulo f 3.
Definition flow (f : nat) : bool := Nat.ltb f 3.
(** amrex::OrientationIter. *)
Definition faces : list nat := [0; 1; 2; 3; 4; 5]%nat.

(** What the input file holds for one face and one field [fld]: the entries
    [<face>.type], [<face>.<fld>_type], [<face>.<fld>] and the three
    [<face>.<fld>.*_type] names of user functions. *)
Record face_in := FaceIn {
  fi_type : option string;
  fi_ftype : option string;
  fi_vals : option (list R);
  fi_inflow : option string;
  fi_inout : option string;
  fi_wall : option string }.

(** amrex::toLower on one character. *)
Definition lower_ascii (a : ascii) : ascii :=
  let n := nat_of_ascii a in
  if andb (Nat.leb 65 n) (Nat.leb n 90) then ascii_of_nat (n + 32) else a.
(** amrex::toLower. *)
Fixpoint to_lower (s : string) : string :=
  match s with
  | EmptyString => EmptyString
  | String a r => String (lower_ascii a) (to_lower r)
  end.

(** BCInterface.cpp:46-49. *)
Definition type_string (i : face_in) : string :=
  let s := "null" in
  let s := match fi_type i with Some t => t | None => s end in
  let s := match fi_ftype i with Some t => t | None => s end in
  to_lower s.

(** BCInterface.cpp:66-88. *)
Definition parse_type (s : string) : bct :=
  if orb (s =? "pressure_outflow") (s =? "po") then PressureOutflow
  else if orb (s =? "mass_inflow") (s =? "mi") then MassInflow
  else if orb (s =? "mass_inflow_outflow") (s =? "mio") then MassInflowOutflow
  else if orb (s =? "no_slip_wall") (s =? "nsw") then NoSlipWall
  else if orb (s =? "slip_wall") (s =? "sw") then SlipWall
  else if orb (s =? "wall_model") (s =? "wm") then WallModel
  else if orb (s =? "zero_gradient") (s =? "zg") then ZeroGradient
  else if orb (s =? "fixed_gradient") (s =? "fg") then FixedGradient
  else if orb (s =? "wave_generation") (s =? "wg") then WaveGeneration
  else if orb (s =? "symmetric_wall") (s =? "symw") then SymmetricWall
  else Undefined.

(** BCInterface.cpp:43-94: one pass of the loop of read_bctype.
    [per d] is geom.isPeriodic(d). *)
Definition read_face (per : nat -> bool) (inp : nat -> face_in) (f : nat) : outcome bct :=
  let s := type_string (inp f) in
  if andb (per (fdir f)) (andb (negb (s =? "null")) (negb (s =? "periodic"))) then Abort
  else if per (fdir f) then Ret Periodic
  else match parse_type s with Undefined => Abort | b => Ret b end.

Fixpoint mapM {A B} (g : A -> outcome B) (l : list A) : outcome (list B) :=
  match l with
  | nil => Ret nil
  | x :: r => obind (g x) (fun y => obind (mapM g r) (fun ys => Ret (y :: ys)))
  end.

(** BCInterface.cpp:37-96 (read_bctype). *)
Definition read_bctype (per : nat -> bool) (inp : nat -> face_in) : outcome (list bct) :=
  mapM (read_face per inp) faces.

Definition type_of (l : list bct) (f : nat) : bct := nth f l Undefined.

(** BCInterface.cpp:188-268 (BCVelocity::set_bcrec): the fill rule of
    component [n] on a face normal to [d]. *)
Definition velocity_rec (b : bct) (d n : nat) : outcome fill :=
  match b with
  | Periodic => Ret IntDir
  | PressureOutflow | ZeroGradient => Ret FoExtrap
  | WaveGeneration | MassInflow | NoSlipWall => Ret ExtDir
  | MassInflowOutflow => Ret DirDependent
  | SlipWall | WallModel => Ret (if Nat.eqb n d then ExtDir else HoExtrap)
  | SymmetricWall => Ret (if Nat.eqb n d then ExtDir else FoExtrap)
  | _ => Abort
  end.

(** BCInterface.cpp:290-351 (BCScalar::set_bcrec). *)
Definition scalar_rec (b : bct) : outcome fill :=
  match b with
  | Periodic => Ret IntDir
  | PressureOutflow | ZeroGradient | SymmetricWall => Ret FoExtrap
  | WaveGeneration | MassInflow | NoSlipWall => Ret ExtDir
  | MassInflowOutflow => Ret DirDependent
  | SlipWall | WallModel | FixedGradient => Ret HoExtrap
  | _ => Abort
  end.

(** vof_bciface.H:19-72 and 101-153 (BCVOF, BCDensityMod: the same table). *)
Definition vof_rec (b : bct) : outcome fill :=
  match b with
  | Periodic => Ret IntDir
  | PressureOutflow | ZeroGradient | NoSlipWall | SymmetricWall | SlipWall
  | WallModel => Ret FoExtrap
  | WaveGeneration | MassInflow | MassInflowOutflow => Ret ExtDir
  | _ => Abort
  end.

(** BCInterface.cpp:397-445 (BCSrcTerm with [e = FoExtrap], BCFillPatchExtrap). *)
Definition extrap_rec (e : fill) (b : bct) : fill :=
  match b with Periodic => IntDir | _ => e end.

(** incflo_diffusion.cpp:9-67 (get_diffuse_tensor_bc), entry r[n][d]. *)
Definition tensor_op (periodic : bool) (b : bct) (d n : nat) : outcome linop :=
  if periodic then Ret LPeriodic else
  match b with
  | PressureOutflow | ZeroGradient => Ret LNeumann
  | WaveGeneration | MassInflow | MassInflowOutflow | NoSlipWall => Ret LDirichlet
  | SymmetricWall | SlipWall => Ret (if Nat.eqb n d then LDirichlet else LNeumann)
  | WallModel => Ret (if Nat.eqb n d then LDirichlet else LInhomogNeumann)
  | _ => Abort
  end.

(** incflo_diffusion.cpp:69-104 (get_diffuse_scalar_bc). *)
Definition scalar_op (periodic : bool) (b : bct) : outcome linop :=
  if periodic then Ret LPeriodic else
  match b with
  | PressureOutflow | ZeroGradient | SymmetricWall | SlipWall => Ret LNeumann
  | WallModel | FixedGradient => Ret LInhomogNeumann
  | WaveGeneration | MassInflow | MassInflowOutflow | NoSlipWall => Ret LDirichlet
  | _ => Abort
  end.

(** incflo_apply_nodal_projection.cpp:36-67. *)
Definition nodal_op (periodic : bool) (b : bct) : linop :=
  if periodic then LPeriodic else
  match b with
  | PressureOutflow => LDirichlet
  | MassInflowOutflow | MassInflow | WaveGeneration => LInflow
  | _ => LNeumann
  end.

(** icns_advection.cpp:19-39. *)
Definition mac_op (periodic : bool) (b : bct) : linop :=
  if periodic then LPeriodic else
  match b with PressureOutflow => LDirichlet | _ => LNeumann end.

(** BCInterface.cpp:132-183: the user function of the faces of one type.
    [want] is the type, [get] reads the key; the state is the function found so
    far.  Two different names abort. *)
Fixpoint find_udf (want : bct) (get : face_in -> option string)
    (ts : list bct) (inp : nat -> face_in) (fs : list nat) (acc : option string)
    : outcome (option string) :=
  match fs with
  | nil => Ret acc
  | f :: r =>
      let is_want := match want, type_of ts f with
        | MassInflow, MassInflow => true
        | MassInflowOutflow, MassInflowOutflow => true
        | SlipWall, SlipWall => true
        | _, _ => false end in
      if is_want then
        match get (inp f) with
        | None => find_udf want get ts inp r acc
        | Some v =>
            match acc with
            | Some u => if u =? v then find_udf want get ts inp r (Some v) else Abort
            | None => find_udf want get ts inp r (Some v)
            end
        end
      else find_udf want get ts inp r acc
  end.

(** BCInterface.cpp:118-186 (get_dirichlet_udfs): the names for inflow,
    inflow-outflow and wall faces.  The code looks for the three kinds in one
    loop; the outcome only differs in which of two aborts comes first. *)
Definition get_udfs (ts : list bct) (inp : nat -> face_in)
    : outcome (string * string * string) :=
  let name o := match o with Some s => s | None => "ConstDirichlet" end in
  obind (find_udf MassInflow fi_inflow ts inp faces None) (fun a =>
  obind (find_udf MassInflowOutflow fi_inout ts inp faces None) (fun b =>
  obind (find_udf SlipWall fi_wall ts inp faces None) (fun c =>
  Ret (name a, name b, name c)))).

(** ParmParse::queryarr(name, v, 0, ncomp) and getarr: an absent entry leaves
    the default (query) or aborts (get); fewer than [ncomp] numbers abort. *)
Definition query_arr (ncomp : nat) (v : option (list R)) (dflt : nat -> R)
    : outcome (nat -> R) :=
  match v with
  | None => Ret dflt
  | Some l => if Nat.ltb (List.length l) ncomp then Abort
              else Ret (fun n => nth n l 0)
  end.
Definition get_arr (ncomp : nat) (v : option (list R)) (dflt : nat -> R)
    : outcome (nat -> R) :=
  match v with None => Abort | _ => query_arr ncomp v dflt end.

(** BCInterface.cpp:276-287 (BCVelocity::read_values), one face. *)
Definition velocity_value (dflt : R) (ts : list bct) (inp : nat -> face_in) (f : nat)
    : outcome (nat -> R) :=
  obind (query_arr 3 (fi_vals (inp f)) (fun _ => dflt)) (fun v =>
  Ret (match type_of ts f with
       | NoSlipWall => fun n => if Nat.eqb n (fdir f) then 0 else v n
       | _ => v end)).

(** BCInterface.cpp:353-377 (BCScalar::read_values), one face; [ci] and [cio]
    are const_dirichlet_inflow and const_dirichlet_inflow_outflow. *)
Definition scalar_value (ncomp : nat) (dflt : R) (ci cio : bool) (ts : list bct)
    (inp : nat -> face_in) (f : nat) : outcome (nat -> R) :=
  match type_of ts f with
  | MassInflow => if ci then get_arr ncomp (fi_vals (inp f)) (fun _ => dflt)
                  else query_arr ncomp (fi_vals (inp f)) (fun _ => dflt)
  | MassInflowOutflow => if cio then get_arr ncomp (fi_vals (inp f)) (fun _ => dflt)
                  else query_arr ncomp (fi_vals (inp f)) (fun _ => dflt)
  | _ => query_arr ncomp (fi_vals (inp f)) (fun _ => dflt)
  end.

(** vof_bciface.H:74-92 and 155-173 (BCVOF/BCDensityMod::read_values). *)
Definition vof_value (dflt : R) (ts : list bct) (inp : nat -> face_in) (f : nat)
    : outcome (nat -> R) :=
  match type_of ts f with
  | MassInflow | MassInflowOutflow => get_arr 1 (fi_vals (inp f)) (fun _ => dflt)
  | _ => query_arr 1 (fi_vals (inp f)) (fun _ => dflt)
  end.

(** BCInterface.cpp:379-395 (BCPressure::read_values): values are only read on
    pressure outflow faces. *)
Definition pressure_value (dflt : R) (ts : list bct) (inp : nat -> face_in) (f : nat)
    : outcome (nat -> R) :=
  match type_of ts f with
  | PressureOutflow => query_arr 1 (fi_vals (inp f)) (fun _ => dflt)
  | _ => Ret (fun _ => dflt)
  end.

(** The data a field carries after BCIface::operator() (BCInterface.cpp:14-24). *)
Record bcs := Bcs {
  bc_types : list bct;
  bc_recs : list (nat -> fill);
  bc_vals : list (nat -> R) }.

(** The operations a BCIface subclass supplies. *)
Inductive kind : Set := KVelocity | KScalar | KPressure | KVof | KExtrap (e : fill).

(** The rules of all components are settled together; a type a field does not
    support aborts whatever the component. *)
Definition rec_of (k : kind) (b : bct) (d : nat) : outcome (nat -> fill) :=
  match k with
  | KVelocity => match velocity_rec b d 0 with
                 | Ret _ => Ret (fun n => match velocity_rec b d n with Ret t => t | _ => IntDir end)
                 | _ => Abort end
  | KScalar | KPressure => obind (scalar_rec b) (fun t => Ret (fun _ => t))
  | KVof => obind (vof_rec b) (fun t => Ret (fun _ => t))
  | KExtrap e => Ret (fun _ => extrap_rec e b)
  end.

Definition values_of (k : kind) (ncomp : nat) (dflt : R) (ts : list bct)
    (inp : nat -> face_in) : outcome (list (nat -> R)) :=
  match k with
  | KVelocity => mapM (velocity_value dflt ts inp) faces
  | KScalar => obind (get_udfs ts inp) (fun u =>
      let '(a, b, _) := u in
      mapM (scalar_value ncomp dflt (a =? "ConstDirichlet") (b =? "ConstDirichlet") ts inp) faces)
  | KPressure => mapM (pressure_value dflt ts inp) faces
  | KVof => mapM (vof_value dflt ts inp) faces
  | KExtrap _ => Ret (map (fun _ _ => dflt) faces)
  end.

(** BCInterface.cpp:14-24 (BCIface::operator()), without copy_bc_to_device. *)
Definition setup (k : kind) (ncomp : nat) (dflt : R) (per : nat -> bool)
    (inp : nat -> face_in) : outcome bcs :=
  obind (read_bctype per inp) (fun ts =>
  obind (mapM (fun f => rec_of k (type_of ts f) (fdir f)) faces) (fun rs =>
  obind (values_of k ncomp dflt ts inp) (fun vs =>
  Ret (Bcs ts rs vs)))).

(** velocity_bcs.H:53-83 and scalar_bcs.cpp:4-34
    (register_velocity_dirichlet / register_scalar_dirichlet): the operator used
    on inflow faces afterwards.  register_fill_patch_op (Field.H:312-316)
    replaces the operator registered before. *)
Definition register_udfs (known : string -> bool) (u : string * string * string)
    : outcome string :=
  let '(i, io, w) := u in
  if andb (i =? "ConstDirichlet") (andb (io =? "ConstDirichlet") (w =? "ConstDirichlet"))
  then Ret "ConstDirichlet"
  else if negb (w =? "ConstDirichlet") then Abort
  else obind (if i =? "ConstDirichlet" then Ret "ConstDirichlet"
              else if known i then Ret i else Abort) (fun op =>
       if io =? "ConstDirichlet" then Ret op
       else if known io then Ret io else Abort).

(** velocity_bcs.H:24-50. *)
Definition known_velocity (s : string) : bool :=
  orb (s =? "LinearProfile") (orb (s =? "PowerLawProfile") (orb (s =? "BurggrafLid")
  (orb (s =? "Rankine") (orb (s =? "CustomVelocity") (s =? "TwoLayer"))))).

(** A field with components. *)
Definition cfld := ivec -> nat -> R.
(** Index of [c] along direction [d]. *)
Definition ix (c : ivec) (d : nat) : Z :=
  match d with O => iv0 c | S O => iv1 c | _ => iv2 c end.
(** Lowest and highest index of a box along [d]. *)
Definition blo_ (b : box) (d : nat) : Z := ix (blo b) d.
Definition bhi_ (b : box) (d : nat) : Z := ix (bhi b) d.

(** FieldBCOps.H:177-182. *)
Definition past (dom : box) (fd : option nat) (f : nat) (c : ivec) : bool :=
  let d := fdir f in
  let big := (bhi_ dom d + (match fd with Some e => if Nat.eqb d e then 1 else 0 | None => 0 end))%Z in
  if flow f then (ix c d <? blo_ dom d)%Z else (big <? ix c d)%Z.

(** FieldBCOps.H:148-196 (DirichletOp::operator()) for one index and one
    component.  [op] and [wop] give the value the inflow and the wall operator
    store for a face; [old] is the value before. *)
Fixpoint dirichlet_loop (ts : list bct) (rs : list (nat -> fill)) (dom : box)
    (fd : option nat) (op wop : nat -> ivec -> nat -> R) (c : ivec) (n : nat)
    (fs : list nat) (old : R) : R :=
  match fs with
  | nil => old
  | f :: r =>
      let next := dirichlet_loop ts rs dom fd op wop c n r in
      match nth f rs (fun _ => IntDir) n with
      | ExtDir | DirDependent =>
          if past dom fd f c then
            match type_of ts f with
            | MassInflow | MassInflowOutflow => next (op f c n)
            | _ => next (wop f c n)
            end
          else next old
      | _ => next old
      end
  end.

Definition dirichlet (b : bcs) (dom : box) (fd : option nat)
    (op wop : nat -> ivec -> nat -> R) (u : cfld) : cfld :=
  fun c n => dirichlet_loop (bc_types b) (bc_recs b) dom fd op wop c n faces (u c n).

(** FieldBCOps.H:80-109 (ConstDirichlet). *)
Definition const_op (b : bcs) (f : nat) (_ : ivec) (n : nat) : R :=
  nth f (bc_vals b) (fun _ => 0) n.

(** Step of one cell along [d] (the code's iv_dir). *)
Definition step (c : ivec) (d : nat) (s : Z) : ivec := shift c (Z.of_nat d) s.

(** Is [c] in the box (all three directions)? *)
Definition inside (b : box) (c : ivec) : bool :=
  forallb (fun d => andb (blo_ b d <=? ix c d)%Z (ix c d <=? bhi_ b d)%Z) [0;1;2]%nat.

(** FixedGradientBC.cpp:5-16 and amrex::bdryHi: the plane of ghost cells of the
    valid box [bx] outside face [f]. *)
Definition ghost_plane (bx : box) (f : nat) (c : ivec) : bool :=
  let d := fdir f in
  forallb (fun e =>
    if Nat.eqb e d then
      (ix c e =? (if flow f then blo_ bx e - 1 else bhi_ bx e + 1))%Z
    else andb (blo_ bx e <=? ix c e)%Z (ix c e <=? bhi_ bx e)%Z) [0;1;2]%nat.

(** FixedGradientBC.cpp:48 and 58: the box touches the face. *)
Definition touches (dom bx : box) (f : nat) : bool :=
  let d := fdir f in
  if flow f then (blo_ bx d =? blo_ dom d)%Z else (bhi_ bx d =? bhi_ dom d)%Z.

(** FixedGradientBC.cpp:44-67, one box. *)
Definition fixed_gradient (vals : nat -> nat -> R) (dom bx : box) (f : nat) (u : cfld) : cfld :=
  fun c n => if andb (touches dom bx f) (ghost_plane bx f c) then vals f n else u c n.

(** MassInflowOutflowBC.cpp:34-38: grow by one cell along the face. *)
Definition grow_tangential (bx : box) (f : nat) : box :=
  let g e := if Nat.eqb e (fdir f) then 0%Z else 1%Z in
  Box (IV (iv0 (blo bx) - g 0%nat) (iv1 (blo bx) - g 1%nat) (iv2 (blo bx) - g 2%nat))
      (IV (iv0 (bhi bx) + g 0%nat) (iv1 (bhi bx) + g 1%nat) (iv2 (bhi bx) + g 2%nat)).

(** MassInflowOutflowBC.cpp:9-72, one box: [vel] is the velocity (before the
    call), [u] the field the condition belongs to. *)
Definition inflow_outflow (dom bx : box) (f : nat) (vel u : cfld) : cfld :=
  fun c n =>
    let d := fdir f in
    let g := grow_tangential bx f in
    if andb (touches dom bx f) (ghost_plane g f c) then
      if flow f then
        if Rltb (vel c d) 0 then u (step c d 1) n else u c n
      else
        if Rltb 0 (vel c d) then u (step c d (-1)) n else u c n
    else u c n.

(** FieldFillPatchOps.H:363-411 (set_inflow): ghost cells of inflow faces.
    [gdom] is geom.growPeriodicDomain(ng), [ng] the ghost width. *)
Definition set_inflow (ts : list bct) (gdom : box) (ng : nat -> Z)
    (op : nat -> ivec -> nat -> R) (u : cfld) : cfld :=
  fold_left (fun (v : cfld) f =>
    match type_of ts f with
    | MassInflow | MassInflowOutflow => fun c n =>
        let d := fdir f in
        if forallb (fun e =>
             if Nat.eqb e d then
               (if flow f
                then andb (blo_ gdom e - ng e <=? ix c e)%Z (ix c e <? blo_ gdom e)%Z
                else andb (bhi_ gdom e <? ix c e)%Z (ix c e <=? bhi_ gdom e + ng e)%Z)
             else andb (blo_ gdom e <=? ix c e)%Z (ix c e <=? bhi_ gdom e)%Z) [0;1;2]%nat
        then op f c n else v c n
    | _ => v
    end) faces u.

(** FieldFillPatchOps.H:413-479 (set_inflow_sibling_fields): the normal
    velocity stored on the faces of an inflow boundary; [u d] is the face field
    of direction [d]. *)
Definition set_face_inflow (ts : list bct) (dom : box)
    (op : nat -> ivec -> nat -> R) (u : nat -> ivec -> R) : nat -> ivec -> R :=
  fold_left (fun (v : nat -> ivec -> R) f =>
    let d := fdir f in
    let put (keep_outflow : bool) := fun e c =>
      if andb (Nat.eqb e d)
           (forallb (fun e' =>
             if Nat.eqb e' d then
               (ix c e' =? (if flow f then blo_ dom e' else bhi_ dom e' + 1))%Z
             else andb (blo_ dom e' <=? ix c e')%Z (ix c e' <=? bhi_ dom e')%Z) [0;1;2]%nat)
      then
        let t := op f c d in
        let out := if flow f then Rltb t 0 else Rltb 0 t in
        if andb keep_outflow out then v e c else t
      else v e c in
    match type_of ts f with
    | MassInflow | WaveGeneration => put false
    | MassInflowOutflow => put true
    | _ => v
    end) faces u.

(** ** Inflow profiles (physics/udfs) *)

(** LinearProfile.H:26-52 at the coordinate [z]. *)
Definition linear_profile (zmin zmax : R) (vmin vmax : nat -> R) (z : R) (n : nat) : R :=
  if Rltb z zmin then vmin n
  else if Rltb zmax z then vmax n
  else vmin n + ((vmax n - vmin n) * (z - zmin) / (zmax - zmin)).

(** std::pow(x, p) for [x > 0]. *)
Definition pow_pos (x p : R) : R := Rpower x p.
(** vs::mag. *)
Definition mag3 (v : nat -> R) : R := sqrt (v 0%nat * v 0%nat + v 1%nat * v 1%nat + v 2%nat * v 2%nat).

(** PowerLawProfile.cpp:11-33 and PowerLawProfile.H:29-51; [umin], [umax] are
    the speeds given in the input. *)
Definition power_law (zoff zref shear umin umax : R) (uref : nat -> R) (z : R) (n : nat) : R :=
  let m := mag3 uref in
  let lo := umin / m in
  let hi := umax / m in
  let zeff := z - zoff in
  let pfac := if Rltb 0 zeff then pow_pos (zeff / zref) shear else 0 in
  let pfac := (let a := if Rltb pfac lo then lo else pfac in
               if Rltb hi a then hi else a) in
  uref n * pfac.

(** BurggrafLid.H:22-42. *)
Definition burggraf (x : R) (n : nat) : R :=
  match n with
  | O => 16 * (x ^ 4 - 2 * x ^ 3 + x ^ 2)
  | _ => 0
  end.

(** TwoLayer.H:26-54. *)
Definition two_layer (top bot : nat -> R) (zp perturb : R) (z t : R) (n : nat) : R :=
  let v := if Rltb z zp then bot else top in
  let w := match n with O => v 0%nat | S O => v 1%nat | _ => 0 end in
  match n with
  | O | S O => if Req_EM_T t 0 then w * perturb else w
  | _ => w
  end.

(** Rankine.H:27-53; a division by [r = 0] gives a NaN in C++, [None] here. *)
Definition rankine (Umax Rmax : R) (start vref : nat -> R) (x y t : R) (n : nat) : option R :=
  let xr := x - (start 0%nat + vref 0%nat * t) in
  let yr := y - (start 1%nat + vref 1%nat * t) in
  let r := sqrt (xr * xr + yr * yr) in
  if Req_EM_T r 0 then match n with O | S O => None | _ => Some (vref 2%nat + 0) end else
  let vazi := Umax * (if Rltb Rmax r then Rmax / r else r / Rmax) in
  Some (match n with
        | O => vref 0%nat - vazi * (yr / r)
        | S O => vref 1%nat + vazi * (xr / r)
        | _ => vref 2%nat + 0
        end).
