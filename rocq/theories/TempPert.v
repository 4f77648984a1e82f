(** Perturbation of the temperature in a box:
    amr-wind/equation_systems/temperature/source_terms/PerturbationForcing.cpp and PerturbationForcing.H.

    Sections of the input are those of Inputs.v.  One cell is followed.  [xi] is the draw of the generator of random numbers
    for this cell, scaled to mean zero and deviation one; the generator itself is not modelled.  amrex::RealBox::contains is
    modelled by its documented effect, points strictly inside; queryarr with a number of values aborts when fewer are
    given. *)
From Coq Require Import String List ZArith Bool.
From Verif Require Import Base BoxR VecSpace Inputs.
Import ListNotations.
Open Scope R_scope.

Record pert : Type := Pert { t_start : list R; t_end : list R; t_steps : Z; t_level : Z; t_amp : R }.
(** PerturbationForcing.cpp:17-18, AMReX: three values from the first on *)
Definition queryarr3 (s : sect R) (k : string) : outcome (list R) :=
  match s k with
  | None => Ret []
  | Some l => if (length l <? 3)%nat then Abort else Ret (firstn 3 l)
  end.
(** PerturbationForcing.cpp:13-22, defaults PerturbationForcing.H:37-39 *)
Definition pert_of (ints : sect Z) (s : sect R) : outcome pert :=
  obind (queryarr3 s "start") (fun a =>
  obind (queryarr3 s "end") (fun b =>
  Ret (Pert a b (pp_query ints "time_steps" 100%Z) (pp_query ints "start_level" 0%Z) (pp_query s "pert_amplitude" 1)))).

(** AMReX: a point strictly inside the box *)
Definition box_contains (lo hi p : vec) : bool :=
  (Rltb (vx lo) (vx p) && Rltb (vx p) (vx hi) && Rltb (vy lo) (vy p) && Rltb (vy p) (vy hi) &&
   Rltb (vz lo) (vz p) && Rltb (vz p) (vz hi))%bool.
(** PerturbationForcing.cpp:65-69: the place of a cell, its height taken above the terrain and not below half a cell *)
Definition place (lo dx : vec) (i j k : Z) (height : R) : vec :=
  V3 (vx lo + (IZR i + 1 / 2) * vx dx) (vy lo + (IZR j + 1 / 2) * vy dx)
     (rmax (vz lo + (IZR k + 1 / 2) * vz dx - height) (1 / 2 * vz dx)).
(** PerturbationForcing.cpp:33-78; [terrain] is the height and the blanking of the cell when there is terrain.  The remainder
    by zero, and the first element of an empty vector, are undefined. *)
Definition perturb (p : pert) (index : Z) (terrain : option (R * R)) (lo dx : vec) (i j k : Z) (xi src : R) : outcome R :=
  if (t_steps p =? 0)%Z then UB else
  if ((Z.rem index (t_steps p) =? 0) && (0 <? index))%Z%bool then
    match t_start p, t_end p with
    | [a0; a1; a2], [b0; b1; b2] =>
      let height := match terrain with Some (h, _) => h | None => 0 end in
      let blank := match terrain with Some (_, b) => b | None => 0 end in
      if box_contains (V3 a0 a1 a2) (V3 b0 b1 b2) (place lo dx i j k height)
      then Ret (src + (1 - blank) * (t_amp p * xi)) else Ret src
    | _, _ => UB
    end
  else Ret src.
(** The steps up to number [n] of a run in which cells may change *)
Fixpoint due_steps (p : pert) (n : nat) : list nat :=
  match n with
  | O => []
  | S m => due_steps p m ++ (if ((Z.rem (Z.of_nat n) (t_steps p) =? 0) && (0 <? Z.of_nat n))%Z%bool then [n] else [])
  end.
