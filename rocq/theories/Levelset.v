(** Steps of the level set and of the density it sets: amr-wind/equation_systems/levelset/levelset_ops.H and
    MultiPhase::set_density_via_levelset.  Rates of change by convection are arguments (Advance.v, [conv_rate]); one level. *)
From Coq Require Import Reals List.
From Verif Require Import Base BoxR MultiPhase.
Import ListNotations.
Open Scope R_scope.

(** levelset_ops.H:70-83 *)
Definition ls_predictor (dt : R) (phi_o conv : ivec -> R) (c : ivec) : R := phi_o c + dt * conv c.
(** levelset_ops.H:98-114 *)
Definition ls_corrector (dt : R) (phi_o conv_o conv : ivec -> R) (c : ivec) : R := phi_o c + dt * (1 / 2) * (conv_o c + conv c).
(** MultiPhase.cpp:310, the cube root as a power (cells have a positive size) *)
Definition ls_width (dx dy dz : R) : R := Rpower (2 * dx * dy * dz) (1 / 3).
(** MultiPhase.cpp:313-333 *)
Definition ls_density (rho1 rho2 eps : R) (phi : ivec -> R) (c : ivec) : R := rho1 * heaviside eps (phi c) + rho2 * (1 - heaviside eps (phi c)).

(** One step: its size, the rate in the predictor, and the rate in the corrector if there is one *)
Record ls_step : Type := LS { l_dt : R; l_old : ivec -> R; l_new : option (ivec -> R) }.
(** levelset_ops.H:133-138: the density is set after every stage *)
Definition ls_stage (rho1 rho2 eps : R) (phi : ivec -> R) : (ivec -> R) * (ivec -> R) := (phi, ls_density rho1 rho2 eps phi).
Definition ls_advance (rho1 rho2 eps : R) (s : (ivec -> R) * (ivec -> R)) (x : ls_step) : (ivec -> R) * (ivec -> R) :=
  match l_new x with
  | None => ls_stage rho1 rho2 eps (ls_predictor (l_dt x) (fst s) (l_old x))
  | Some new => ls_stage rho1 rho2 eps (ls_corrector (l_dt x) (fst s) (l_old x) new)
  end.
Definition ls_run (rho1 rho2 eps : R) (xs : list ls_step) (s : (ivec -> R) * (ivec -> R)) : (ivec -> R) * (ivec -> R) :=
  fold_left (ls_advance rho1 rho2 eps) xs s.
