(** The surface-layer theory the wall models implement, stated on its own. *)
From Coq Require Import Reals List.
From Coquelicot Require Import Coquelicot.
Local Open Scope R_scope.

(** Non-dimensional gradients of Businger and Dyer: linear in stable, a power law in
    unstable stratification. *)
Definition dyer_m (beta gamma zeta : R) : R :=
  if Rlt_dec 0 zeta then 1 + gamma * zeta else Rpower (1 - beta * zeta) (-1/4).
Definition dyer_h (beta gamma zeta : R) : R :=
  if Rlt_dec 0 zeta then 1 + gamma * zeta else Rpower (1 - beta * zeta) (-1/2).

(** Average over the points of a plane. *)
Definition total (l : list R) : R := fold_right Rplus 0 l.
Definition average (l : list R) : R := total l / INR (length l).

(** A sample of the wall plane: horizontal velocity and temperature. *)
Record sample : Type := Sample { su : R; sv : R; sth : R }.
Definition speed (x : sample) : R := sqrt (su x * su x + sv x * sv x).
