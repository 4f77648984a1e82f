(** Model of subvolume outputs: utilities/subvolume/RectangularSubvolume.cpp, Subvolume.cpp, SubvolumeBase.H.
    Reals for places, integers for cells.  Cutting the box into chunks (100-135) and the file itself are not modelled:
    what is modelled is which cells, from which level, and what stands in which component. *)
From Coq Require Import Reals ZArith List Bool.
From Verif Require Import BoxR.
Import ListNotations.
Local Open Scope R_scope.

Definition vec := (R * R * R)%type.
Definition cell := (Z * Z * Z)%type.
Definition vx (v : vec) : R := fst (fst v).
Definition vy (v : vec) : R := snd (fst v).
Definition vz (v : vec) : R := snd v.
Definition cx (c : cell) : Z := fst (fst c).
Definition cy (c : cell) : Z := snd (fst c).
Definition cz (c : cell) : Z := snd c.

Definition close4 (a b : R) : bool := Rltb (Rabs (a - b)) (/ 10 ^ 4).
(** RectangularSubvolume.cpp:38-61: the first of the levels that exist *)
Fixpoint find_level (dx : vec) (sizes : list vec) (i : nat) : outcome nat :=
  match sizes with
  | [] => Abort
  | s :: r => if (close4 (vx dx) (vx s) && close4 (vy dx) (vy s) && close4 (vz dx) (vz s))%bool then Ret i
              else find_level dx r (S i)
  end.
(** std::lround *)
Definition lround (x : R) : Z := if Rleb 0 x then rfloor (x + / 2) else (- rfloor (- x + / 2))%Z.
(** 67-75 *)
Definition index0 (origin problo h : R) : Z := lround ((origin - problo) / h).
(** 77-98 *)
Definition on_node (origin problo h : R) : bool := close4 (problo + IZR (index0 origin problo h) * h) origin.
(** 100-104: lowest and highest cell *)
Definition sub_box (origin problo h : vec) (n : cell) : cell * cell :=
  let i0 := index0 (vx origin) (vx problo) (vx h) in
  let j0 := index0 (vy origin) (vy problo) (vy h) in
  let k0 := index0 (vz origin) (vz problo) (vz h) in
  ((i0, j0, k0), (i0 + cx n - 1, j0 + cy n - 1, k0 + cz n - 1)%Z).
Definition in_box (b : cell * cell) (c : cell) : bool :=
  ((cx (fst b) <=? cx c) && (cx c <=? cx (snd b)) && (cy (fst b) <=? cy c) && (cy c <=? cy (snd b)) &&
   (cz (fst b) <=? cz c) && (cz c <=? cz (snd b)))%Z%bool.
Fixpoint zrange (lo : Z) (n : nat) : list Z := match n with O => [] | S m => lo :: zrange (lo + 1)%Z m end.
Definition box_cells (b : cell * cell) : list cell :=
  flat_map (fun i => flat_map (fun j => map (fun k => (i, j, k))
    (zrange (cz (fst b)) (Z.to_nat (cz (snd b) - cz (fst b) + 1))))
    (zrange (cy (fst b)) (Z.to_nat (cy (snd b) - cy (fst b) + 1))))
    (zrange (cx (fst b)) (Z.to_nat (cx (snd b) - cx (fst b) + 1))).
(** 36-135: level and box, given the cell sizes of the levels that exist and whether a cell belongs to a level (111-115) *)
Definition evaluate (dx origin problo : vec) (n : cell) (sizes : list vec) (covered : nat -> cell -> bool) : outcome (nat * (cell * cell)) :=
  match find_level dx sizes 0 with
  | Ret lev =>
    let h := nth lev sizes (0, 0, 0) in
    if (on_node (vx origin) (vx problo) (vx h) && on_node (vy origin) (vy problo) (vy h) && on_node (vz origin) (vz problo) (vz h))%bool
    then let b := sub_box origin problo h n in
         if forallb (covered lev) (box_cells b) then Ret (lev, b) else Abort
    else Abort
  | Abort => Abort
  | UB => UB
  end.
(** SubvolumeBase.H:40-43, Subvolume.cpp:118, 128-130: evaluated at the start and after every new mesh; the run stops if it cannot be *)
Fixpoint over_meshes (dx origin problo : vec) (n : cell) (meshes : list (list vec * (nat -> cell -> bool))) : outcome (list (nat * (cell * cell))) :=
  match meshes with
  | [] => Ret []
  | (sizes, covered) :: r =>
    match evaluate dx origin problo n sizes covered with
    | Ret b => match over_meshes dx origin problo n r with Ret l => Ret (b :: l) | Abort => Abort | UB => UB end
    | Abort => Abort
    | UB => UB
    end
  end.

(** ** Subvolume.cpp: what is written *)
(** Fields by kind, position in their list, and component *)
Inductive source : Type := Real_ (f c : nat) | Int_ (f c : nat) | Derived (c : nat).
(** 62-106: names, in order; a field is its number of components *)
Definition comps (mk : nat -> source) (n : nat) : list source := map mk (seq 0 n).
Fixpoint names_of (mk : nat -> nat -> source) (f : nat) (l : list nat) : list source :=
  match l with [] => [] | n :: r => comps (mk f) n ++ names_of mk (S f) r end.
Definition var_names (reals ints : list nat) (nd : nat) : list source :=
  names_of Real_ 0 reals ++ names_of Int_ 0 ints ++ comps Derived nd.
(** the components of the output; [None] was never written *)
Definition buffer := nat -> option source.
(** ParallelCopy of [n] components to [at_] on *)
Definition pcopy (b : buffer) (mk : nat -> source) (at_ n : nat) : buffer :=
  fun k => if (Nat.leb at_ k && Nat.ltb k (at_ + n))%bool then Some (mk (k - at_)%nat) else b k.
(** 174-177 *)
Fixpoint copy_reals (b : buffer) (icomp f : nat) (l : list nat) : buffer :=
  match l with [] => b | n :: r => copy_reals (pcopy b (Real_ f) icomp n) icomp (S f) r end.
(** 178-183 *)
Fixpoint copy_ints (b : buffer) (icomp f : nat) (l : list nat) : buffer * nat :=
  match l with [] => (b, icomp) | n :: r => copy_ints (pcopy b (Int_ f) icomp n) (icomp + n)%nat (S f) r end.
(** 172-186 *)
Definition written (reals ints : list nat) (nd : nat) : buffer :=
  let b := copy_reals (fun _ => None) 0 0 reals in
  let '(b, icomp) := copy_ints b 0 0 ints in
  if Nat.ltb 0 nd then pcopy b Derived icomp nd else b.
