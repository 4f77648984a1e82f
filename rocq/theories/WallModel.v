(** Model of the wall models of the channel: boundary_conditions/wall_models/LogLaw.H, MOSD.H,
    ShearStressSimple.H, WallFunction.cpp.
    Numbers are reals; [None] stands for "not a number" and for the infinities (which turn into
    "not a number" one iteration later).  A column of cells is a function of the index along z. *)
From Coq Require Import Reals ZArith List Bool.
From Verif Require Import BoxR.
Import ListNotations.
Local Open Scope R_scope.

(** ** LogLaw.H *)
(** 21-22, 46-52: a step of Newton's method for the friction velocity *)
Definition ll_kappa : R := 384 / 1000.
Definition ll_b : R := 427 / 100.
Definition ll_speed (zref nu u : R) : R := u * (ln (zref * u / nu) / ll_kappa + ll_b).
Definition ll_slope (zref nu u : R) : R := (1 + ln (zref * u / nu)) / ll_kappa + ll_b.
Definition ll_step (zref nu wspd u : R) : option R :=
  if Rltb 0 (zref * u / nu)
  then (if Req_EM_T (ll_slope zref nu u) 0 then None
        else Some (u - (ll_speed zref nu u - wspd) / ll_slope zref nu u))
  else None.
(** 38-44, 53-54: the loop, for any step; comparisons with "not a number" are false *)
Definition ll_tol : R := / 10 ^ 5.
Definition ll_max : nat := 25.
Fixpoint ll_run (step : R -> option R) (n : nat) (prev : R) (u : option R) (iter : nat) : option R * nat :=
  match n with
  | O => (u, iter)
  | S m => match u with
           | None => (None, iter)
           | Some v => if Rltb ll_tol (Rabs (prev - v)) then ll_run step m v (step v) (S iter) else (u, iter)
           end
  end.
(** 55-58; the loop condition [iter <= max_iters] lets 26 iterations through *)
Definition ll_utau (step : R -> option R) (start : R) : outcome (option R) :=
  let '(u, iter) := ll_run step (S ll_max) (-1) (Some start) 0 in
  if Nat.eqb iter ll_max then Abort else Ret u.

(** ** WallFunction.cpp *)
(** 28-31 *)
Definition start_utau (bx by_ : R) : R := sqrt (sqrt (bx * bx + by_ * by_)).
(** 49-51: also the height at which the mean speed is taken (337-338) *)
Definition wf_zref (problo dz : R) (ref : Z) : R := problo + (IZR ref + / 2) * dz.
(** 130-136, 90: the cell whose velocity enters, on a level whose lowest cell is [k] *)
Definition wf_cell (k ref : Z) : Z := (k + ref)%Z.
Definition wspd (u v : R) : R := sqrt (u * u + v * v).
(** ShearStressSimple.H:24, 43-44 *)
Definition shear_schumann (wspd_mean utau u : R) : R := u / wspd_mean * (utau * utau).
Definition shear_loglaw (utau u w : R) : R := utau * utau * u / w.
(** 140-205: the velocity a cell size in x above the wall; [round] is half away from zero *)
Definition cround (x : R) : Z := if Rleb 0 x then rfloor (x + / 2) else (- rfloor (- x + / 2))%Z.
Definition at_dx (dx dz : R) (blo bhi k : Z) (f : Z -> R) : R :=
  if Rleb dx dz then f (cround (dx / dz))
  else let k_lo := rfloor (dx / dz - / 2) in
       let k_hi := (k_lo + 1)%Z in
       if ((blo <=? k_lo) && (k_lo <=? bhi) && ((blo <=? k_hi) && (k_hi <=? bhi)))%Z%bool
       then let z_lo := (IZR k_lo + / 2) * dz in
            let z_hi := (IZR k_hi + / 2) * dz in
            f k_lo + (f k_hi - f k_lo) * ((dx - z_lo) / (z_hi - z_lo))
       else f k.
(** 149-151, 186-191, 198-203: what the ghost cell at the floor holds; 227-229: at the lid; both are
    derivatives along z *)
Definition floor_grad (shear mu rho : R) : R := shear / mu * rho.
Definition lid_grad (shear mu rho : R) : R := - shear / mu * rho.
(** 285-289; 301-305: the constant stress, (x, y, z) *)
Definition floor_const (utau mu rho : R) : R * R * R := (utau * utau / mu * rho, 0, 0).
Definition lid_const (utau mu rho : R) : R * R * R := (utau * utau / mu * rho, 0, 0).

(** ** MOSD.H:31-59; component 0 is x *)
Definition mo_dx (amp k om t x : R) : R := - amp * k * sin (k * x - om * t).
Definition mo_dt (amp k om t x : R) : R := amp * om * sin (k * x - om * t).
Definition mo_tau (amp k om t u_dx v_dx x : R) (comp : nat) : option R :=
  let ex := mo_dx amp k om t x in
  let ey := 0 in
  let et := mo_dt amp k om t x in
  let grad := sqrt (ex * ex + ey * ey) in
  if Req_EM_T grad 0 then None
  else
    let cx := - et * ex * (1 / (grad * grad)) in
    let cy := - et * ey * (1 / (grad * grad)) in
    let nx := ex / grad in
    let ny := ey / grad in
    let ur := u_dx - cx in
    let vr := v_dx - cy in
    let mag := sqrt (ur * ur * nx * nx + vr * vr * ny * ny) in
    let arg := ur * ex + vr * ey in
    if Req_EM_T arg 0 then None
    else let heavi := (arg + Rabs arg) / (2 * arg) in
         Some (1 / PI * mag * mag * grad * grad * heavi * (match comp with O => nx | _ => ny end)).
