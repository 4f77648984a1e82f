(** What is asked of the reference state, without reference to the model. *)
From Coq Require Import Reals List.
Import ListNotations.
Local Open Scope R_scope.

(** Dry air: 8.314462618... J/(mol K) and 28.96492 g/mol; ratio of the specific heats 1.4 *)
Definition gas_constant : R := (602214076 / 10 ^ 8) * (1380649 / 10 ^ 6) / (2896492 / 10 ^ 8).
(** Ideal gas of density [rho] and temperature [t] *)
Definition ideal_gas (p rho t : R) : Prop := p = rho * gas_constant * t.
(** Potential temperature with respect to the pressure [p0]; R/cp = 1 - 1/1.4 *)
Definition potential_temperature (p0 p t theta : R) : Prop := theta = t * Rpower (p0 / p) (1 - 1 / (14 / 10)).
(** air of density [rho] and potential temperature [theta] has pressure [p] *)
Definition air (p0 theta rho p : R) : Prop := exists t, ideal_gas p rho t /\ potential_temperature p0 p t theta.

(** Hydrostatic balance between two heights [h] apart with densities [lo] and [hi]; [g] is the vertical gravity (negative) *)
Definition balanced (h g lo hi plo phi : R) : Prop := phi = plo + h * ((lo + hi) / 2) * g.

(** [falls l]: no entry is above the one before *)
Fixpoint falls (l : list R) : Prop :=
  match l with a :: ((b :: _) as r) => b <= a /\ falls r | _ => True end.
