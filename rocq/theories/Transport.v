(** Properties of the fluid: what is read from the input, and the fields of viscosity, diffusivities, expansion coefficient
    and reference temperature that the transport models hand out.  One box of one level; reals. *)
From Coq Require Import Reals ZArith List Bool String.
From Verif Require Import Base BoxR Forest MultiPhase.
Import ListNotations.
Open Scope R_scope.
Open Scope string_scope.

(** ParmParse: the number under a key, if there is one. *)
Definition input : Type := string -> option R.
(** ParmParse::query *)
Definition query (i : input) (key : string) (d : R) : R := match i key with Some v => v | None => d end.

(** ConstTransport.H:32-52, :277, TwoPhaseTransport.H:49-69 *)
Definition read_beta (i : input) : R :=
  match i "transport.thermal_expansion_coefficient" with
  | Some v => v
  | None => match i "BoussinesqBuoyancy.thermal_expansion_coeff" with Some v => v | None => 0 end
  end.
(** ConstTransport.H:54-89, :280, TwoPhaseTransport.H:71-106 *)
Definition read_tref (i : input) : R :=
  match i "transport.reference_temperature" with
  | Some v => v
  | None =>
      match i "BoussinesqBuoyancy.reference_temperature" with
      | Some v => v
      | None => match i "ABL.reference_temperature" with Some v => v | None => -1 end
      end
  end.
(** ConstTransport.H:105-121, TwoPhaseTransport.H:116-132 *)
Definition laminar_schmidt (i : input) (name : string) : R := query i ("transport." ++ name ++ "_laminar_schmidt") 1.
Definition turbulent_schmidt (i : input) (name : string) : R := query i ("transport." ++ name ++ "_turbulent_schmidt") 1.
(** ConstTransport.H:25-27 and :268-274 *)
Definition viscosity (i : input) : R := query i "transport.viscosity" (/ 100000).
Definition laminar_prandtl (i : input) : R := query i "transport.laminar_prandtl" 1.
Definition turbulent_prandtl (i : input) : R := query i "transport.turbulent_prandtl" 1.
(** ConstTransport.H:96-99 *)
Definition thermal_diffusivity (i : input) : R := viscosity i / laminar_prandtl i.
(** TwoPhaseTransport.H:28-31; defaults 1.0e-3, 1.0e-5, 7.2, 0.7 in the private members of the class. *)
Definition viscosity1 (i : input) : R := query i "transport.viscosity_fluid1" (/ 1000).
Definition viscosity2 (i : input) : R := query i "transport.viscosity_fluid2" (/ 100000).
Definition prandtl1 (i : input) : R := query i "transport.laminar_prandtl_fluid1" (72 / 10).
Definition prandtl2 (i : input) : R := query i "transport.laminar_prandtl_fluid2" (7 / 10).

(** A scratch field on one box: [None] where nothing has been written. *)
Definition field : Type := ivec -> option R.
Definition on (b : box) (v : ivec -> R) : field := fun c => if inb b c then Some (v c) else None.
(** MultiFab::mult *)
Definition scaled (f : field) (k : R) : field := fun c => option_map (fun v => v * k) (f c).

(** The fluid model: constant properties, perhaps with a field vof in the repository; or two fluids told apart by the volume
    fraction or by the level set with its half width (TwoPhaseTransport.H:169-170). *)
Inductive fluid : Type :=
| Const (vof : option (ivec -> R)) | TwoVof (vof : ivec -> R) | TwoLs (eps : R) (phi : ivec -> R).
(** The fraction of the first fluid. *)
Definition mix2 (a1 a2 f : R) : R := a1 * f + a2 * (1 - f).
(** ConstTransport.H:124-131 and TwoPhaseTransport.H:135-200; one ghost cell (TransportModel.H:72). *)
Definition mu_field (i : input) (fl : fluid) (b : box) : field :=
  match fl with
  | Const _ => on (grow 1 b) (fun _ => viscosity i)
  | TwoVof vof => on (grow 1 b) (fun c => mix2 (viscosity1 i) (viscosity2 i) (vof c))
  | TwoLs eps phi => on (grow 1 b) (fun c => mix2 (viscosity1 i) (viscosity2 i) (heaviside eps (phi c)))
  end.
(** ConstTransport.H:134-142 and TwoPhaseTransport.H:203-269 *)
Definition alpha_field (i : input) (fl : fluid) (b : box) : field :=
  match fl with
  | Const _ => scaled (mu_field i fl b) (1 / laminar_prandtl i)
  | TwoVof vof => on (grow 1 b) (fun c => mix2 (viscosity1 i / prandtl1 i) (viscosity2 i / prandtl2 i) (vof c))
  | TwoLs eps phi =>
      on (grow 1 b) (fun c => mix2 (viscosity1 i / prandtl1 i) (viscosity2 i / prandtl2 i) (heaviside eps (phi c)))
  end.
(** ConstTransport.H:144-156 and TwoPhaseTransport.H:271-283 *)
Definition scalar_field (i : input) (fl : fluid) (name : string) (b : box) : field :=
  scaled (mu_field i fl b) (1 / laminar_schmidt i name).

(** ConstTransport.H:183-209 and TwoPhaseTransport.H:310-359; [t0] is the field reference_temperature, if it exists. *)
Definition beta_at (i : input) (fl : fluid) (t0 : option (ivec -> R)) (c : ivec) : R :=
  let base := if Rltb 0 (read_beta i) then read_beta i
              else match t0 with Some t => 1 / t c | None => 1 / read_tref i end in
  match fl with
  | Const (Some vof) => if Rltb tight_tol (vof c) then 0 else base
  | Const None => base
  | TwoVof vof => if Rltb tight_tol (vof c) then 0 else base
  | TwoLs eps phi => base * (1 - heaviside eps (phi c))
  end.
(** ConstTransport.H:159-173 and TwoPhaseTransport.H:286-300: the field has a ghost cell, the loop is over the box only. *)
Definition beta_field (i : input) (fl : fluid) (t0 : option (ivec -> R)) (b : box) : field := on b (beta_at i fl t0).
(** ConstTransport.H:245-260 and its twin in TwoPhaseTransport.H *)
Definition ref_theta_cell (i : input) (t0 : option (ivec -> R)) (c : ivec) : outcome R :=
  if Rltb (read_tref i) 0 then Abort else Ret (match t0 with Some t => t c | None => read_tref i end).
(** ConstTransport.H:212-215: what the boundary layer code asks for. *)
Definition reference_temperature (i : input) : R := read_tref i.

(** BoussinesqBuoyancy.cpp:36-50 along one direction. *)
Definition buoyancy (i : input) (fl : fluid) (t0 : option (ivec -> R)) (g temp : R) (c : ivec) : outcome R :=
  obind (ref_theta_cell i t0 c) (fun t => Ret (g * (beta_at i fl t0 c * (t - temp)))).

(** TurbModelBase.H:19-78: effective values at a cell, with the eddy viscosity. *)
Definition mu_eff (i : input) (fl : fluid) (b : box) (mut : ivec -> R) : field :=
  fun c => match fl with
           | Const _ => Some (viscosity i + 1 * mut c)
           | _ => option_map (fun l => 1 * l + 1 * mut c) (mu_field i fl b c)
           end.
Definition alpha_eff (i : input) (fl : fluid) (b : box) (mut : ivec -> R) : field :=
  fun c => match fl with
           | Const _ => Some (thermal_diffusivity i + 1 / turbulent_prandtl i * mut c)
           | _ => option_map (fun l => 1 * l + 1 / turbulent_prandtl i * mut c) (alpha_field i fl b c)
           end.
Definition scalar_eff (i : input) (fl : fluid) (name : string) (b : box) (mut : ivec -> R) : field :=
  fun c => match fl with
           | Const _ => Some (viscosity i / laminar_schmidt i name + 1 / turbulent_schmidt i name * mut c)
           | _ => option_map (fun l => 1 / laminar_schmidt i name * l + 1 / turbulent_schmidt i name * mut c) (mu_field i fl b c)
           end.
