(** Prescribed fields at boundaries and at the start of a run: amr-wind/physics/udfs.

    Sections of the input are those of Inputs.v.  Numbers are exact; a quotient zero by zero, which is not a number in the
    code, is [None].  A field is followed in one cell; components are numbered from 0.  The parameters of a profile are those
    on level 0, as in the code.  CustomVelocity and CustomScalar stop the run and are not modelled; BurggrafLid is in
    ExactFlow.v. *)
From Coq Require Import String List ZArith Bool.
From Verif Require Import Base BoxR MeshMap VecSpace Inputs.
Import ListNotations.
Open Scope R_scope.

(** LinearProfile.H:37-39, PowerLawProfile.H:40-42, Rankine.H:37-40, TwoLayer.H:37-39: centre of a cell along one axis *)
Definition centre (lo dx : R) (i : Z) : R := lo + (IZR i + 1 / 2) * dx.

(** UDF.cpp:56-58 and the last statement of every operator: component [comp] of the block that starts at [dcomp] gets
    component [orig + comp] of the prescribed value *)
Fixpoint fill (ncomp dcomp orig : nat) (value f : nat -> R) : nat -> R :=
  match ncomp with
  | O => f
  | S n => fun c => if (c =? dcomp + n)%nat then value (orig + n)%nat else fill n dcomp orig value f c
  end.

(** *** LinearProfile *)

Record linear : Type := Linear { n_dir : nat; n_zmin : R; n_zmax : R; n_min : list R; n_max : list R }.
(** LinearProfile.cpp:9-34; [lo] and [hi] are the ends of the domain along an axis.  A direction that is no axis reads
    beyond the arrays of the geometry. *)
Definition linear_of (ints : sect Z) (s : sect R) (lo hi : nat -> R) (ncomp : nat) : outcome linear :=
  if (3 <? ncomp)%nat then Abort else
  let d := pp_query ints "direction" 2%Z in
  if ((d <? 0) || (2 <? d))%Z%bool then UB else
  let d := Z.to_nat d in
  let zmin := pp_query s "start" (lo d) in
  let zmax := pp_query s "stop" (hi d) in
  obind (pp_getarr s "start_val" []) (fun a =>
  obind (pp_getarr s "stop_val" []) (fun b =>
  if ((length a =? ncomp) && (length b =? ncomp))%nat%bool then Ret (Linear d zmin zmax a b) else Abort)).
(** LinearProfile.H:41-50 *)
Definition linear_value (p : linear) (z : R) (c : nat) : option R :=
  if Rltb z (n_zmin p) then Some (nth c (n_min p) 0)
  else if Rltb (n_zmax p) z then Some (nth c (n_max p) 0)
  else if Reqb (n_zmax p) (n_zmin p) then None
  else Some (nth c (n_min p) 0 + (nth c (n_max p) 0 - nth c (n_min p) 0) * (z - n_zmin p) / (n_zmax p - n_zmin p)).

(** *** PowerLawProfile *)

Record power : Type := Power { w_dir : nat; w_off : R; w_zref : R; w_exp : R; w_min : R; w_max : R; w_vec : vec }.
(** PowerLawProfile.cpp:11-33.  The name and the number of components of the field, which is the velocity, are not
    modelled.  [w_min] and [w_max] are after the
    division.  A direction that is no axis is met in the operator. *)
Definition power_of (ints : sect Z) (s : sect R) : outcome power :=
  let d := pp_query ints "direction" 2%Z in
  obind (pp_get s "zref") (fun zref =>
  obind (pp_get s "shear_exponent") (fun e =>
  obind (pp_getarr s "uref" []) (fun u =>
  let off := pp_query s "zoffset" 0 in
  let umin := pp_query s "umin" 0 in
  let umax := pp_query s "umax" 100 in
  match u with
  | [a; b; c] =>
    let uref := sqrt (a * a + b * b + c * c) in
    if ((d <? 0) || (2 <? d))%Z%bool then UB else
    Ret (Power (Z.to_nat d) off zref e (umin / uref) (umax / uref) (V3 a b c))
  | _ => Abort
  end))).
(** PowerLawProfile.H:44-50; the power is of a positive number when the reference height is positive *)
Definition power_value (p : power) (z : R) : vec :=
  let zeff := z - w_off p in
  let pfac := if Rltb 0 zeff then Rpower (zeff / w_zref p) (w_exp p) else 0 in
  let pfac := rmin (rmax pfac (w_min p)) (w_max p) in
  vscale (w_vec p) pfac.

(** *** Rankine *)

Record rankine : Type := Rankine { k_umax : R; k_rmax : R; k_start : list R; k_ref : vec }.
(** Rankine.H:20-23: the default of the start location is computed from the default of the radius *)
Definition rankine_default : list R := [-10 * 125; 0; 0].
(** Rankine.cpp:14-40.  The vector for the velocity has three zeros before it is read; a start location with more than three
    values is written beyond the array. *)
Definition rankine_of (incflo s : sect R) : outcome rankine :=
  obind (pp_getarr incflo "velocity" [0; 0; 0]) (fun v =>
  match v with
  | [a; b; c] =>
    let umax := pp_query s "Umax" 15 in
    let rmx := pp_query s "Rmax" 125 in
    let loc := pp_queryarr s "start_location" [] in
    if (3 <? length loc)%nat then UB else
    Ret (Rankine umax rmx (overwrite rankine_default loc) (V3 a b c))
  | _ => Abort
  end).
(** Rankine.H:41-49 *)
Definition rankine_value (p : rankine) (x y time : R) : option vec :=
  let xr := x - (nth 0 (k_start p) 0 + vx (k_ref p) * time) in
  let yr := y - (nth 1 (k_start p) 0 + vy (k_ref p) * time) in
  let r := sqrt (xr * xr + yr * yr) in
  let vazi := k_umax p * (if Rleb r (k_rmax p) then r / k_rmax p else k_rmax p / r) in
  if Reqb r 0 then None
  else Some (V3 (vx (k_ref p) - vazi * (yr / r)) (vy (k_ref p) + vazi * (xr / r)) (vz (k_ref p) + 0)).

(** *** TwoLayer *)

Record layers : Type := Layers { y_top : list R; y_bottom : list R; y_part : R; y_pert : R }.
(** TwoLayer.cpp:14-39 for a field of three components; the vectors have three zeros before they are read *)
Definition layers_of (s : sect R) : outcome layers :=
  obind (pp_getarr s "top_vel" [0; 0; 0]) (fun t =>
  obind (pp_getarr s "bottom_vel" [0; 0; 0]) (fun b =>
  if ((length t =? 3) && (length b =? 3))%nat%bool
  then Ret (Layers t b (pp_query s "z_partition" (1 / 2)) (pp_query s "init_perturb" 1)) else Abort)).
(** TwoLayer.H:41-51 *)
Definition layers_value (p : layers) (z time : R) : vec :=
  let l := if Rleb (y_part p) z then y_top p else y_bottom p in
  let v := V3 (nth 0 l 0) (nth 1 l 0) 0 in
  if Reqb time 0 then V3 (vx v * y_pert p) (vy v * y_pert p) (vz v) else v.

(** *** ConstValue *)

(** UDF.cpp:19-29; [name] is the name of the field *)
Definition const_of (incflo own : sect R) (name : string) (ncomp : nat) : outcome (list R) :=
  let v := pp_queryarr incflo name [] in
  let v := pp_queryarr own "value" v in
  if (length v =? ncomp)%nat then Ret v else Abort.
