(** Run-time registries and the plot-file variable list:
    /repo/amr-wind/core/Factory.H, core/CollMgr.H, utilities/DerivedQuantity.cpp,
    utilities/DerivedQtyDefs.{H,cpp} (names and component counts only),
    utilities/io_utils.H:41-64 and utilities/IOManager.cpp:34-190.
    Strings are byte strings; ParmParse, message printing and the field data themselves
    are outside the model (a datum is represented by where it came from). *)
From Coq Require Import String Ascii Arith DecimalString Decimal DecimalNat.
From Verif Require Import Base.
Local Open Scope nat_scope.
Local Open Scope string_scope.
Local Open Scope list_scope.
Notation length := List.length.

(** std::unordered_map<std::string, V> as an association list: at most one entry per key;
    the order of the list stands for the unspecified iteration order. *)
Definition amap (V : Type) : Type := list (string * V).
Fixpoint aget {V} (m : amap V) (k : string) : option V :=
  match m with [] => None | (k', v) :: m' => if String.eqb k k' then Some v else aget m' k end.
Definition adel {V} (m : amap V) (k : string) : amap V := filter (fun p => negb (String.eqb k (fst p))) m.
Definition aset {V} (m : amap V) (k : string) (v : V) : amap V := (k, v) :: adel m k.

(** ** Factory.H *)
(** 100-109: add_sub_type assigns table[identifier], whatever was there. *)
Definition factory_register {C} (t : amap C) (k : string) (c : C) : amap C := aset t k c.
Definition factory_table {C} (regs : list (string * C)) : amap C :=
  fold_left (fun t r => factory_register t (fst r) (snd r)) regs [].
(** 71-78, 133-146 *)
Definition factory_create {A B} (t : amap (A -> B)) (key : string) (args : A) : outcome B :=
  match aget t key with Some f => Ret (f args) | None => Abort end.

(** The keywords registered by the shipped code, per base class: every Register<...> in
    /repo/amr-wind (literal identifiers), plus the families whose identifier is put
    together (ActuatorModel.H:96-99 with actuator_types.H:42,57, PDE.H:37-40,
    TurbModelDefs.H:10-14 with the identifiers of the models, IBModel.H:78, UDF.H:38,
    OceanWavesModel.H:71). *)
Definition prod_ids (sep : string) (a b : list string) : list string :=
  flat_map (fun x => map (fun y => (x ++ sep ++ y)%string) b) a.
Definition shipped : list (string * list string) :=
  [
   ("ABLStatsBase", ["precursor"]);
   ("DerivedQty", ["components"; "div"; "grad"; "laplacian"; "mag_strainrate"; "mag_vorticity"; "q_criterion";
      "q_criterion_nondim"]);
   ("FieldTimeAverage", ["ReAveraging"; "ReynoldsStress"]);
   ("GeometryType", ["box"; "cylinder"; "udf"]);
   ("MeshMap", ["ChannelFlowMap"; "ConstantMap"]);
   ("MomentumSource", ["ABLForcing"; "ABLMeanBoussinesq"; "ABLMesoForcingMom"; "ActuatorForcing"; "BodyForce";
      "BoussinesqBuoyancy"; "BurggrafFlowForcing"; "CoriolisForcing"; "DensityBuoyancy"; "DragForcing";
      "ForestForcing"; "GeostrophicForcing"; "GravityForcing"; "HurricaneForcing"; "MMSForcing"; "MetMastForcing";
      "NonLinearSGSTerm"; "RayleighDamping"; "SynthTurbForcing"; "VelocityFreeAtmosphereForcing"]);
   ("OversetManager", ["TIOGA"]);
   ("Physics", ["ABL"; "Actuator"; "ActuatorSourceTagging"; "BoussinesqBubble"; "BreakingWaves"; "BurggrafFlow";
      "ChannelFlow"; "ConvectingTaylorVortex"; "DamBreak"; "EkmanSpiral"; "ForestDrag"; "FreeStream";
      "HybridRANSLESABL"; "IB"; "Intermittency"; "MMS"; "MultiPhase"; "OceanWaves"; "RainDrop"; "RayleighTaylor";
      "ScalarAdvection"; "SloshingTank"; "SyntheticTurbulence"; "TaylorGreenVortex"; "TerrainDrag"; "VortexDipole";
      "VortexPatch"; "VortexPatchScalarVel"; "VortexRing"; "ZalesakDisk"; "ZalesakDiskScalarVel"]);
   ("PostProcessBase", ["Ascent"; "Enstrophy"; "FieldNorms"; "KineticEnergy"; "Sampling"; "Subvolume";
      "TimeAveraging"; "WaveEnergy"]);
   ("RefinementCriteria", ["CartBoxRefinement"; "CurvatureRefinement"; "FieldRefinement"; "GeometryRefinement";
      "GradientMagRefinement"; "OversetRefinement"; "QCriterionRefinement"; "VorticityMagRefinement"]);
   ("SDRSource", ["SDRSrc"]);
   ("SamplerBase", ["DTUSpinnerSampler"; "FreeSurfaceSampler"; "LidarSampler"; "LineSampler"; "PlaneSampler";
      "ProbeSampler"; "RadarSampler"; "VolumeSampler"]);
   ("SubvolumeBase", ["Rectangular"]);
   ("TKESource", ["KransAxell"; "KsgsM84Src"; "KsgsS94Src"; "KwSSTSrc"]);
   ("TemperatureSource", ["ABLMesoForcingTemp"; "BodyForce"; "DragTempForcing"; "HurricaneTempForcing";
      "PerturbationForcing"; "TemperatureFreeAtmosphereForcing"]);
   ("TransportModel", ["ConstTransport"; "TwoPhaseTransport"]);
   ("UDF", ["LinearProfile"; "PowerLawProfile"; "BurggrafLid"; "Rankine"; "CustomVelocity"; "CustomScalar";
      "TwoLayer"; "ConstValue"]);
   ("ImmersedBoundaryModel", ["Sphere"; "Box"; "Cylinder"]);
   ("OceanWavesModel", ["StokesWaves"; "LinearWaves"; "W2AWaves"]);
   ("ActuatorModel", ["TurbineKynemaLine"; "TurbineKynemaDisk"; "TurbineFastLine"; "TurbineFastDisk";
                      "UniformCtDisk"; "JoukowskyDisk"; "FixedWingLine"; "FlatPlateLine"]);
   ("PDEBase", prod_ids "-" ["ICNS"; "VOF"; "SDR"; "Density"; "Levelset"; "TKE"; "Temperature";
      "PassiveScalar"] ["Godunov"; "MOL"]);
   ("TurbulenceModel", prod_ids "-" ["KOmegaSSTIDDES"; "KLAxell"; "KOmegaSST"; "Laminar"; "AMDNoTherm"; "Kosovic";
      "AMD";
                                     "Smagorinsky"; "OneEqKsgsM84"; "OneEqKsgsS94"] ["ConstTransport"; "TwoPhaseTransport"])
  ].

(** ** CollMgr.H:39-67.  [mk key n] is Type::create for the [n]-th object of the
    collection: it may abort (unknown keyword). *)
Record coll (O : Type) : Type := Coll { co_vec : list O; co_map : amap nat }.
Arguments Coll {O} _ _. Arguments co_vec {O} _. Arguments co_map {O} _.
Definition coll_empty {O} : coll O := Coll [] [].
Definition coll_contains {O} (s : coll O) (key : string) : bool :=
  match aget (co_map s) key with Some _ => true | None => false end.
Definition coll_lookup {O} (s : coll O) (key : string) : outcome O :=
  match aget (co_map s) key with
  | None => Abort
  | Some i => match nth_error (co_vec s) i with Some o => Ret o | None => UB end
  end.
Definition coll_create {O} (dup : bool) (mk : string -> nat -> outcome O) (s : coll O) (key : string) : outcome (O * coll O) :=
  if negb dup && coll_contains s key then obind (coll_lookup s key) (fun o => Ret (o, s))
  else obind (mk key (length (co_vec s))) (fun o =>
         Ret (o, Coll (co_vec s ++ [o]) (aset (co_map s) key (length (co_vec s))))).
Fixpoint coll_run {O} (dup : bool) (mk : string -> nat -> outcome O) (s : coll O) (keys : list string) : outcome (coll O) :=
  match keys with
  | [] => Ret s
  | k :: ks => obind (coll_create dup mk s k) (fun r => coll_run dup mk (snd r) ks)
  end.

(** ** DerivedQuantity.cpp *)
Definition char_eqb (a b : ascii) : bool := Ascii.eqb a b.
(** 12-20 *)
Fixpoint strip_spaces (s : string) : string :=
  match s with
  | EmptyString => EmptyString
  | String c s' => if char_eqb c " " then strip_spaces s' else String c (strip_spaces s')
  end.
(** std::string::find of a character. *)
Fixpoint find_char (c : ascii) (s : string) : option nat :=
  match s with
  | EmptyString => None
  | String d s' => if char_eqb c d then Some 0 else option_map S (find_char c s')
  end.
(** 48-51: pieces that are followed by a comma. *)
Fixpoint split_comma (s : string) (acc : string) : list string :=
  match s with
  | EmptyString => []
  | String c s' => if char_eqb c "," then acc :: split_comma s' EmptyString
                   else split_comma s' (acc ++ String c EmptyString)%string
  end.
Fixpoint last_char (s : string) : option ascii :=
  match s with
  | EmptyString => None
  | String c EmptyString => Some c
  | String _ s' => last_char s'
  end.
(** 22-54.  pclose - popen - 1 wraps around for pclose < popen, which substr reads as
    "to the end"; back() of an empty string is undefined. *)
Definition parse_derived_qty (key : string) : outcome (string * list string) :=
  match find_char "(" key with
  | None => Ret (key, [])
  | Some popen =>
      match find_char ")" key with
      | None => Abort
      | Some pclose =>
          let dname := strip_spaces (String.substring 0 popen key) in
          let cnt := if (pclose <? popen)%nat then String.length key else (pclose - popen - 1)%nat in
          let fargs := strip_spaces (String.substring (popen + 1) cnt key) in
          match last_char fargs with
          | None => UB
          | Some c => let fargs' := if char_eqb c "," then fargs else (fargs ++ ",")%string in
                      Ret (dname, split_comma fargs' EmptyString)
          end
      end
  end.

(** A derived quantity: name(), num_comp(), and the names var_names() appends. *)
Record dqty : Type := DQ { dq_name : string; dq_ncomp : nat; dq_vars : list string }.
Record dmgr : Type := DM { dm_vec : list dqty; dm_map : amap nat }.
Definition dm_empty : dmgr := DM [] [].
(** 65-80 *)
Definition dm_create (mk : string -> list string -> outcome dqty) (s : dmgr) (key : string) : outcome (dqty * dmgr) :=
  let q := strip_spaces key in
  match aget (dm_map s) q with
  | Some i => match nth_error (dm_vec s) i with Some o => Ret (o, s) | None => UB end
  | None =>
      obind (parse_derived_qty q) (fun t =>
      obind (mk (fst t) (snd t)) (fun o =>
      Ret (o, DM (dm_vec s ++ [o]) (aset (dm_map s) q (length (dm_vec s))))))
  end.
(** 82-87 *)
Fixpoint dm_create_all (mk : string -> list string -> outcome dqty) (s : dmgr) (keys : list string) : outcome dmgr :=
  match keys with
  | [] => Ret s
  | k :: ks => obind (dm_create mk s k) (fun r => dm_create_all mk (snd r) ks)
  end.
(** 101-108 *)
Definition dm_num_comp (s : dmgr) : nat := list_sum (map dq_ncomp (dm_vec s)).
(** 116-121 *)
Definition dm_var_names (s : dmgr) : list string := flat_map dq_vars (dm_vec s).
(** 129-152: first the keys whose index is that of an erased quantity, then the quantities. *)
Definition mem (x : string) (l : list string) : bool := existsb (String.eqb x) l.
Fixpoint filter_keys (erase : list string) (m : amap nat) (i : nat) (v : list dqty) : outcome (list string) :=
  match v with
  | [] => Ret []
  | q :: v' =>
      if mem (dq_name q) erase then
        match find (fun p => (snd p =? i)%nat) m with
        | None => UB
        | Some p => obind (filter_keys erase m (S i) v') (fun ks => Ret (fst p :: ks))
        end
      else filter_keys erase m (S i) v'
  end.
Definition dm_filter (erase : list string) (s : dmgr) : outcome dmgr :=
  obind (filter_keys erase (dm_map s) 0 (dm_vec s)) (fun ks =>
    Ret (DM (filter (fun q => negb (mem (dq_name q) erase)) (dm_vec s))
            (fold_left adel ks (dm_map s)))).

(** ** io_utils.H:41-64 *)
Definition to_string (n : nat) : string := NilEmpty.string_of_uint (Nat.to_uint n).
Definition var_names (fname : string) (ncomp : nat) : list string :=
  match ncomp with
  | 1 => [fname]
  | 3 => map (fun c => fname ++ c)%string ["x"; "y"; "z"]
  | n => map (fun i => fname ++ to_string i)%string (seq 0 n)
  end.
(** ** DerivedQtyDefs: name, component count, variable names.  [fld] gives the component
    count of a field of the repository (asking for an unknown field aborts).
    [stoi] is std::stoi of a component argument (None: it throws, which ends the run). *)
Definition dq_make (nm : string) (nc : nat) : dqty := DQ nm nc (var_names nm nc).
Fixpoint dq_comps (stoi : string -> option Z) (n : nat) (args : list string) : outcome (list nat) :=
  match args with
  | [] => Ret []
  | a :: r => match stoi a with
              | None => Abort
              | Some z => if (0 <=? z)%Z && (z <? Z.of_nat n)%Z
                          then obind (dq_comps stoi n r) (fun l => Ret (Z.to_nat z :: l)) else Abort
              end
  end.
Definition dq_create (fld : string -> option nat) (stoi : string -> option Z) (nm : string) (args : list string) : outcome dqty :=
  let scalar := match args with [] => match fld "velocity"%string with Some _ => Ret (dq_make nm 1) | None => Abort end
                              | _ => Abort end in
  if mem nm ["mag_vorticity"; "q_criterion"; "q_criterion_nondim"; "mag_strainrate"]%string then scalar
  else if String.eqb nm "grad" then
    match args with
    | [a] => match fld a with Some n => Ret (dq_make ("grad_" ++ a)%string (3 * n)) | None => Abort end
    | _ => Abort end
  else if String.eqb nm "div" then
    match args with
    | [a] => match fld a with Some n => if (n =? 3)%nat then Ret (dq_make ("div_" ++ a)%string 1) else Abort | None => Abort end
    | _ => Abort end
  else if String.eqb nm "laplacian" then
    match args with
    | [a] => match fld a with Some n => if (n =? 3)%nat then Ret (dq_make ("laplacian_" ++ a)%string 1) else Abort | None => Abort end
    | _ => Abort end
  else if String.eqb nm "components" then
    match args with
    | a :: _ :: _ =>
        match fld a with
        | None => Abort
        | Some n => if (length (tl args) <? n)%nat
                    then obind (dq_comps stoi n (tl args)) (fun cs =>
                           Ret (DQ a (length cs) (map (fun c => nth c (var_names a n) EmptyString) cs)))
                    else Abort
        end
    | _ => Abort end
  else Abort.

(** ** IOManager.cpp *)
(** std::set<std::string>: sorted, no duplicates. *)
Fixpoint sinsert (x : string) (l : list string) : list string :=
  match l with
  | [] => [x]
  | y :: l' => match String.compare x y with
               | Lt => x :: l
               | Eq => l
               | Gt => y :: sinsert x l'
               end
  end.
Definition set_add (s : list string) (l : list string) : list string := fold_left (fun a x => sinsert x a) l s.

Record io_inputs : Type := IOIn {
  in_default_on : bool;              (* io.output_default_variables *)
  in_outputs : list string; in_int_outputs : list string;
  in_derived : list string; in_skip : list string;
  reg_vars : list string;            (* calls of register_output_var / register_io_var *)
  reg_int_vars : list string }.      (* calls of register_output_int_var *)
Record io_state : Type := IO {
  io_fields : list (string * nat); io_int_fields : list (string * nat);
  io_derived : dmgr; io_names : list string; io_ncomp : nat }.

(** 65-89 *)
Definition io_set (i : io_inputs) : list string :=
  let outputs := set_add [] (in_outputs i) in
  if in_default_on i
  then set_add outputs (filter (fun n => negb (mem n (in_skip i))) (set_add [] (reg_vars i)))
  else outputs.
Definition io_int_set (i : io_inputs) : list string :=
  let outputs := set_add [] (in_int_outputs i) in
  if in_default_on i then set_add outputs (set_add [] (reg_int_vars i)) else outputs.
(** 95-118: fields that do not exist are reported and skipped. *)
Definition known (fld : string -> option nat) (l : list string) : list (string * nat) :=
  flat_map (fun n => match fld n with Some c => [(n, c)] | None => [] end) l.
(** 34-130 *)
Definition initialize_io (fld ifld : string -> option nat) (mk : string -> list string -> outcome dqty) (i : io_inputs) : outcome io_state :=
  let outputs := io_set i in
  let fs := known fld outputs in
  let ifs := known ifld (io_int_set i) in
  let names := flat_map (fun f => var_names (fst f) (snd f)) fs ++ flat_map (fun f => var_names (fst f) (snd f)) ifs in
  let n := list_sum (map snd fs) + list_sum (map snd ifs) in
  match in_derived i with
  | [] => Ret (IO fs ifs dm_empty names n)
  | _ => obind (dm_create_all mk dm_empty (in_derived i)) (fun d =>
         obind (dm_filter outputs d) (fun d' =>
         Ret (IO fs ifs d' (names ++ dm_var_names d') (n + dm_num_comp d'))))
  end.

(** Where a component of the output came from. *)
Inductive source : Type :=
| FromField (name : string) (comp : nat)
| FromIntField (name : string) (comp : nat)
| FromDerived (qty : nat) (comp : nat).
(** MultiFab::Copy / a derived quantity writing components [at], [at]+1, ... *)
Fixpoint put {A} (out : list (option A)) (at_ : nat) (x : A) : outcome (list (option A)) :=
  match out, at_ with
  | [], _ => UB
  | _ :: r, O => Ret (Some x :: r)
  | y :: r, S k => obind (put r k x) (fun r' => Ret (y :: r'))
  end.
Fixpoint put_all {A} (out : list (option A)) (at_ : nat) (xs : list A) : outcome (list (option A)) :=
  match xs with
  | [] => Ret out
  | x :: r => obind (put out at_ x) (fun out' => put_all out' (S at_) r)
  end.
Fixpoint put_blocks {A} (out : list (option A)) (at_ : nat) (blocks : list (list A)) : outcome (list (option A)) :=
  match blocks with
  | [] => Ret out
  | b :: r => obind (put_all out at_ b) (fun out' => put_blocks out' (at_ + length b) r)
  end.
(** 141-164 and DerivedQuantity.cpp:89-99: one level. *)
Definition write_plot_file (s : io_state) : outcome (list (option source)) :=
  let start_comp := io_ncomp s - dm_num_comp (io_derived s) in
  let out := repeat None (io_ncomp s) in
  obind (put_blocks out 0
           (map (fun f => map (FromField (fst f)) (seq 0 (snd f))) (io_fields s) ++
            map (fun f => map (FromIntField (fst f)) (seq 0 (snd f))) (io_int_fields s))) (fun out1 =>
  if (start_comp + dm_num_comp (io_derived s) <=? length out1)%nat then
    put_blocks out1 start_comp
      (map (fun k => map (FromDerived k) (seq 0 (nth k (map dq_ncomp (dm_vec (io_derived s))) 0)))
           (seq 0 (length (dm_vec (io_derived s)))))
  else Abort).
