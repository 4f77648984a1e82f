(** Forests: rows of the forest file, the leaf area density of a tree, the drag and the number of the forest in each cell,
    and when they are set.  Reals in place of floating-point numbers; a division by zero or a root of a negative number is
    [None], a value that is not a number from there on. *)
From Coq Require Import Reals ZArith List Bool.
From Verif Require Import Base BoxR.
Import ListNotations.
Open Scope R_scope.

(** ForestDrag.H:18-26 *)
Record tree : Type := mktree { tid : Z; ttype : R; tx : R; ty : R; theight : R; tdiam : R; tcd : R; tlai : R; tlaimax : R }.
(** constants.H:17-18: TIGHT_TOL *)
Definition tiny : R := / 2 ^ 52 * 1000.
(** Geometry::ProbLo, ProbHi, CellSize of a level. *)
Record geo : Type := mkgeo { plo : R * R * R; phi : R * R * R; gdx : R * R * R }.

Definition bind {A B} (o : option A) (f : A -> option B) : option B := match o with Some a => f a | None => None end.
Definition add (a b : option R) : option R := bind a (fun x => bind b (fun y => Some (x + y))).
Definition mul (a b : option R) : option R := bind a (fun x => bind b (fun y => Some (x * y))).
(** Division; by zero it is not a number. *)
Definition quot (a b : R) : option R := if Req_EM_T b 0 then None else Some (a / b).
(** std::pow with a positive exponent.  A negative base is not modelled (it occurs only if laimax > 1). *)
Definition pow_ (x e : R) : option R :=
  if Rltb 0 x then Some (Rpower x e) else if Req_EM_T x 0 then Some 0 else None.

(** ForestDrag.H:38-43 and :57-62: the shape of the density at one height, without the factor. *)
Definition shape (t : tree) (z : R) : option R :=
  let zm := tlaimax t * theight t in
  bind (quot (theight t - zm) (theight t - z)) (fun ratio =>
  let e := if Rltb z zm then 6 else / 2 in
  mul (pow_ ratio e) (Some (exp (e * (1 - ratio))))).
(** integrals.H:23-25: the loop, [i] from 1, [n] terms. *)
Fixpoint inner (f : R -> option R) (xa dx : R) (i n : nat) (sum : option R) : option R :=
  match n with
  | O => sum
  | S n' => inner f xa dx (S i) n' (add sum (f (xa + INR i * dx)))
  end.
(** integrals.H:14-27 *)
Definition trapz (xa xb : R) (n : nat) (f : R -> option R) : option R :=
  let dx := (xb - xa) / INR n in
  mul (Some dx) (inner f xa dx 1 (n - 1) (mul (Some (/ 2)) (add (f xa) (f xb)))).
(** ForestDrag.H:28-48 *)
Definition lm (t : tree) : option R :=
  if Req_EM_T (ttype t) 2 then bind (trapz 0 (theight t - tiny) 100 (shape t)) (quot (tlai t)) else Some 0.
(** ForestDrag.H:50-65 *)
Definition area_fraction (t : tree) (z : R) (m : option R) : option R :=
  if Req_EM_T (ttype t) 1 then quot (tlai t) (theight t)
  else if Req_EM_T (ttype t) 2 then mul m (shape t z)
  else Some 0.

Definition ax0 (p : R * R * R) : R := fst (fst p).
Definition ax1 (p : R * R * R) : R := snd (fst p).
Definition ax2 (p : R * R * R) : R := snd p.
(** std::ceil *)
Definition rceil (x : R) : Z := (- rfloor (- x))%Z.
(** index_operations.cpp:13-20, one direction; [dxi] is one over the cell size.  That the result fits an int is assumed. *)
Definition to_lo (lo problo probhi dx : R) : Z := rfloor ((rmax lo problo - problo) * / dx).
Definition to_hi (hi problo probhi dx : R) : Z := rceil ((rmin hi probhi - problo) * / dx).
(** index_operations.cpp:4-24 and ForestDrag.H:67-86 *)
Definition bounding_box (t : tree) (g : geo) : box :=
  let r := / 2 * (11 / 10) * tdiam t in
  Box (IV (to_lo (tx t - r) (ax0 (plo g)) (ax0 (phi g)) (ax0 (gdx g)))
          (to_lo (ty t - r) (ax1 (plo g)) (ax1 (phi g)) (ax1 (gdx g)))
          (to_lo (ax2 (plo g)) (ax2 (plo g)) (ax2 (phi g)) (ax2 (gdx g))))
      (IV (to_hi (tx t + r) (ax0 (plo g)) (ax0 (phi g)) (ax0 (gdx g)))
          (to_hi (ty t + r) (ax1 (plo g)) (ax1 (phi g)) (ax1 (gdx g)))
          (to_hi (theight t) (ax2 (plo g)) (ax2 (phi g)) (ax2 (gdx g)))).

(** amrex::Box::contains, operator&, ok, grow. *)
Definition inb (b : box) (c : ivec) : bool :=
  ((iv0 (blo b) <=? iv0 c) && (iv0 c <=? iv0 (bhi b)) && (iv1 (blo b) <=? iv1 c) && (iv1 c <=? iv1 (bhi b)) &&
   (iv2 (blo b) <=? iv2 c) && (iv2 c <=? iv2 (bhi b)))%Z.
Definition meet (a b : box) : box :=
  Box (IV (Z.max (iv0 (blo a)) (iv0 (blo b))) (Z.max (iv1 (blo a)) (iv1 (blo b))) (Z.max (iv2 (blo a)) (iv2 (blo b))))
      (IV (Z.min (iv0 (bhi a)) (iv0 (bhi b))) (Z.min (iv1 (bhi a)) (iv1 (bhi b))) (Z.min (iv2 (bhi a)) (iv2 (bhi b)))).
Definition nonempty (b : box) : bool :=
  ((iv0 (blo b) <=? iv0 (bhi b)) && (iv1 (blo b) <=? iv1 (bhi b)) && (iv2 (blo b) <=? iv2 (bhi b)))%Z.
Definition grow (n : Z) (b : box) : box :=
  Box (IV (iv0 (blo b) - n) (iv1 (blo b) - n) (iv2 (blo b) - n)) (IV (iv0 (bhi b) + n) (iv1 (bhi b) + n) (iv2 (bhi b) + n)).
(** BoxArray::intersects *)
Definition intersects (ba : list box) (b : box) : bool := existsb (fun a => nonempty (meet a b)) ba.

(** ForestDrag.cpp:105-107: the next eight values of the file; [None] in the list is a word that is not a number. *)
Definition take8 (l : list (option R)) : option (tree * list (option R)) :=
  match l with
  | Some a :: Some b :: Some c :: Some d :: Some e :: Some f :: Some g :: Some h :: r => Some (mktree 0 a b c d e f g h, r)
  | _ => None
  end.
(** ForestDrag.cpp:106-125.  [fuel] bounds the rows; a row takes eight words, so the number of words is enough. *)
Fixpoint rows (fuel : nat) (cnt : Z) (l : list (option R)) : list tree :=
  match fuel with
  | O => []
  | S k =>
      match take8 l with
      | Some (t, r) =>
          mktree cnt (ttype t) (tx t) (ty t) (theight t) (tdiam t) (tcd t) (tlai t) (tlaimax t) :: rows k (cnt + 1) r
      | None => []
      end
  end.
(** ForestDrag.cpp:95-98 and :106-125 without the selection. *)
Definition read (file : option (list (option R))) : outcome (list tree) :=
  match file with Some l => Ret (rows (length l) 0 l) | None => Abort end.
(** ForestDrag.cpp:119-123 *)
Definition keep (g : geo) (ba : list box) (ts : list tree) : list tree :=
  filter (fun t => intersects ba (bounding_box t g)) ts.

(** ForestDrag.cpp:62-64: the centre of a cell. *)
Definition centre (g : geo) (c : ivec) : R * R * R :=
  (ax0 (plo g) + (IZR (iv0 c) + / 2) * ax0 (gdx g), ax1 (plo g) + (IZR (iv1 c) + / 2) * ax1 (gdx g),
   ax2 (plo g) + (IZR (iv2 c) + / 2) * ax2 (gdx g)).
(** ForestDrag.cpp:66-70 *)
Definition inside (t : tree) (p : R * R * R) : bool :=
  Rleb (ax2 p) (theight t) &&
  Rleb (sqrt ((ax0 p - tx t) * (ax0 p - tx t) + (ax1 p - ty t) * (ax1 p - ty t))) (/ 2 * tdiam t).
(** The fields forest_drag and forest_id of one box. *)
Definition fab : Type := ivec -> option R * Z.
(** ForestDrag.cpp:55-78: one forest on one box. *)
Definition plant (g : geo) (vbx : box) (f : fab) (t : tree) : fab :=
  let bxi := meet vbx (bounding_box t g) in
  if nonempty bxi then
    fun c => if inb bxi c && inside t (centre g c)
             then (add (fst (f c)) (mul (Some (tcd t)) (area_fraction t (ax2 (centre g c)) (lm t))), tid t)
             else f c
  else f.
(** ForestDrag.cpp:47-54: one box; [f] is what the fields held before.  One ghost cell (ForestDrag.cpp:17-18); the loop is
    not tiled, so each box is visited once. *)
Definition fill (g : geo) (ts : list tree) (b : box) (f : fab) : fab :=
  fold_left (plant g (grow 1 b)) ts (fun c => (Some 0, (-1)%Z)).

(** One level: geometry, boxes with their fields. *)
Record level : Type := mklevel { lgeo : geo; lfabs : list (box * fab) }.
(** ForestDrag.cpp:33-81 *)
Definition initialize_fields (file : option (list (option R))) (l : level) : outcome level :=
  match read file with
  | Ret ts => Ret (mklevel (lgeo l)
                (map (fun bf => (fst bf, fill (lgeo l) (keep (lgeo l) (map fst (lfabs l)) ts) (fst bf) (snd bf))) (lfabs l)))
  | Abort => Abort
  | UB => UB
  end.
(** ForestDrag.cpp:83-89 *)
Fixpoint all_levels (file : option (list (option R))) (ls : list level) : outcome (list level) :=
  match ls with
  | [] => Ret []
  | l :: ls' => obind (initialize_fields file l) (fun l' => obind (all_levels file ls') (fun r => Ret (l' :: r)))
  end.

(** What can happen to the mesh: a new run makes every level from scratch (incflo.cpp:64, :401-403); a restart reads or
    makes the levels with whatever the fields hold and then calls post_regrid_actions if the finest level is at most the
    largest allowed, [mx] (incflo.cpp:72-82); a regrid does the same (incflo.cpp:192, :230-232); a time step leaves the mesh and
    these fields alone (ForestDrag.H:111-113). *)
Inductive event : Type := Start (ls : list level) | Resume (mx : nat) (ls : list level) | Regrid (ls : list level) | Advance.
Definition happen (file : option (list (option R))) (ls : list level) (e : event) : outcome (list level) :=
  match e with
  | Start ls' => all_levels file ls'
  | Resume mx ls' => if (length ls' <=? S mx)%nat then all_levels file ls' else Ret ls'
  | Regrid ls' => all_levels file ls'
  | Advance => Ret ls
  end.
Fixpoint history (file : option (list (option R))) (ls : list level) (es : list event) : outcome (list level) :=
  match es with
  | [] => Ret ls
  | e :: es' => obind (happen file ls e) (fun ls' => history file ls' es')
  end.
