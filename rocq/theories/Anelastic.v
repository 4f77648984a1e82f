(** Model of the reference state of the anelastic boundary layer: wind_energy/ABLAnelastic.cpp/.H,
    eos_models/EOSModel.H, utilities/MultiLevelVector.cpp, and of where its pressure is put.
    Numbers are reals; [None] is "not a number" (a power of a negative number, a division by zero). *)
From Coq Require Import Reals List Bool Arith.
From Verif Require Import BoxR.
Import ListNotations.
Local Open Scope R_scope.

(** constants.H:40-53; the powers 10^23 and 10^-23 of its two factors cancel *)
Definition air_gas : R := (602214076 / 10 ^ 8) * (1380649 / 10 ^ 6) / (2896492 / 10 ^ 8).
Definition gamma : R := 14 / 10.
(** constants.H:21-22 *)
Definition loose_tol : R := / 2 ^ 52 * 10 ^ 8.
(** std::pow for an exponent that is not whole *)
Definition cpow (x y : R) : option R :=
  if Rltb 0 x then Some (Rpower x y) else if Req_EM_T x 0 then Some 0 else None.

(** EOSModel.H:36-49, 59-72, without water vapour (as called) *)
Definition p_rth (p0 rho theta : R) : option R :=
  match cpow (air_gas * (rho * theta) * (1 / p0)) gamma with Some q => Some (p0 * q) | None => None end.
Definition dp_rth (p0 rho theta : R) : option R :=
  match cpow (air_gas * theta * (1 / p0)) gamma, cpow rho (gamma - 1) with
  | Some a, Some b => Some (gamma * p0 * a * b) | _, _ => None end.

(** ABLAnelastic.cpp:118-125: the change of the lowest density *)
Definition low_change (p0 theta hdx g d : R) : option R :=
  match p_rth p0 d theta, dp_rth p0 d theta with
  | Some p, Some dp => if Req_EM_T (dp - hdx * g) 0 then None
                       else Some ((p0 + hdx * d * g - p) / (dp - hdx * g))
  | _, _ => None end.
(** 147-155: of the density above [below], where the pressure is [pbelow] *)
Definition next_change (p0 theta dx g below pbelow d : R) : option R :=
  match p_rth p0 d theta, dp_rth p0 d theta with
  | Some p, Some dp => if Req_EM_T (dp - dx * g) 0 then None
                       else Some ((pbelow + dx * (/ 2 * (below + d)) * g - p) / (dp - dx * g))
  | _, _ => None end.
(** 116-137, 145-168: at most ten changes; the run stops ([None]) if none of them is below the tolerance.
    A change that is no number makes all further ones so. *)
Fixpoint settle (change : R -> option R) (tol : R) (n : nat) (d : R) : option R :=
  match n with
  | O => None
  | S m => match change d with
           | None => None
           | Some dd => if Rltb (Rabs dd) tol then Some (d + dd) else settle change tol m (d + dd)
           end
  end.
Definition max_changes : nat := 10.
(** 141-169: the cells above; a pressure that is no number stops the run at the next cell *)
Fixpoint cells_above (p0 theta dx g : R) (n : nat) (d : R) : option (list R) :=
  match n with
  | O => Some []
  | S m => match p_rth p0 d theta with
           | None => None
           | Some p =>
             match settle (next_change p0 theta dx g d p) (loose_tol * d) max_changes d with
             | None => None
             | Some d' => match cells_above p0 theta dx g m d' with Some l => Some (d' :: l) | None => None end
             end
           end
  end.
(** 96-170: the densities of a level of [S n] cells *)
Definition column (p0 theta dx g guess : R) (n : nat) : option (list R) :=
  match settle (low_change p0 theta (/ 2 * dx) g) loose_tol max_changes guess with
  | None => None
  | Some d => match cells_above p0 theta dx g n d with Some l => Some (d :: l) | None => None end
  end.
(** 128, 158; MultiLevelVector.cpp:14-17, ABLAnelastic.H:50: the vector of the nodes is one longer than that of the
    densities, and starts as zeros *)
Definition node_pressures (p0 theta : R) (dens : list R) : list (option R) :=
  map (fun d => p_rth p0 d theta) dens ++ [Some 0].
(** MultiLevelVector.cpp:36-45 (index along z) *)
Definition copied {A} (v : list A) (k : nat) : option A := nth_error v k.
(** ABLAnelastic.cpp:66-72, MultiLevelVector.cpp:8: vectors for every level the mesh may have; the run stops unless all of them exist *)
Definition levels_ok (max_level active : nat) : bool := Nat.eqb active (S max_level).
(** ABLAnelastic.H:45 *)
Definition bottom_pressure (input : option R) : R := match input with Some p => p | None => 10 ^ 5 end.
(** 84-87; GravityForcing.cpp:66-73, with the reference density *)
Definition gravity_force (g rho0 rho : R) : R := g * (1 - rho0 / rho).
