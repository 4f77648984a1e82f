(** The momentum balance of a step, without the code of the model.  From Advance.v: the record [eqn] of what an equation is
    made of. *)
From Verif Require Import BoxR Advance.
Open Scope R_scope.

(** Cells that are solved, with a density and a volume. *)
Definition solved (q : eqn) : Prop := e_mul q = true /\ forall c, e_mask q c = 1%Z /\ 0 < e_rho q c /\ 0 < e_rho_o q c /\ e_detj q c <> 0.
(** The momentum of a cell changes by convection, force and [visc], the viscous force. *)
Definition balance (q : eqn) (conv visc new : ivec -> R) : Prop := forall c,
  e_rho q c * e_detj q c * new c - e_rho_o q c * e_detj q c * e_old q c = e_dt q * (conv c + e_detj q c * e_src q c + visc c).
