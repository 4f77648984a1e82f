(** Vocabulary for the theorems on transport across the interface. *)
From Coq Require Import Reals ZArith.
From Verif Require Import Base.
From Verif Require Import BoxR Plic VofAdvect MomFlux.
Open Scope R_scope.

(** A reconstruction that gives a constant back when the state is constant and there is no
    source. *)
Definition keeps_constants (E : edge_fn) : Prop :=
  forall U q qn s d c, (forall x, q x = U) -> (forall x, qn x = U) -> (forall x, s x = 0) -> E q qn s d c = U.

(** On the low face of [c] along [d]: the density edge value is not zero, and a state that is a
    constant multiple of the density gets that multiple of the density edge value. *)
Definition favre_ok (rc : recon) (ms : mscheme) (rho_o rho_n : fld) (d : Z) (c : ivec) : Prop :=
  let den := rc_den rc ms rho_o rho_o (fun _ => 0) d c in
  den <> 0 /\
  forall U q qn s, (forall x, q x = U * rho_o x) -> (forall x, qn x = U * rho_n x) -> (forall x, s x = 0) ->
    rc_mom rc ms q qn s d c = U * den.

(** First-order upwinding, for examples: the value of the cell the face velocity comes from. *)
Definition donor_edge (um : Z -> fld) : edge_fn :=
  fun q _ _ d c => if Rlt_dec (um d c) 0 then q c else q (shift c d (-1)).
Definition donor_recon (um : Z -> fld) : recon := RC (donor_edge um) (fun _ => donor_edge um) (fun _ => donor_edge um).
(** The same with a source that acts during a time [k] on the way to the face. *)
Definition traced_edge (um : Z -> fld) (k : R) : edge_fn :=
  fun q _ s d c => let x := if Rlt_dec (um d c) 0 then c else shift c d (-1) in q x + k * s x.
Definition traced_recon (um : Z -> fld) (k : R) : recon :=
  RC (traced_edge um k) (fun _ => traced_edge um k) (fun _ => traced_edge um k).
