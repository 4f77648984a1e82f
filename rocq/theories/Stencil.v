(** Finite-volume operators of /repo/amr-wind/fvm: the boundary-aware stencils
    (stencils.H), the driver that sweeps them over the tiles of a level
    (fvm_utils.H) and the operators built on them.  Numbers are exact reals. *)
From Verif Require Import BoxR.
Local Open Scope R_scope.

(** The part of amrex::Geometry the operators read: the index box of the level's
    domain, the periodicity flags and the inverse cell sizes. *)
Record geom : Type := Geom { gdom : box; gper : Z -> bool; gidx : Z -> R }.

(** Three coefficients for the cells at +1, 0 and -1 along one axis. *)
Record tri : Type := Tri { tp1 : R; tc : R; tm1 : R }.

(** stencils.H:114-154 (and every other struct of that file): the nine triples
    c (first derivative), s (second derivative), f (filter), one per axis, and
    the function [box] selecting the cells of a tile the stencil is for. *)
Record stencil : Type := Sten
  { c0 : tri; c1 : tri; c2 : tri;
    s0 : tri; s1 : tri; s2 : tri;
    f0 : tri; f1 : tri; f2 : tri;
    sbox : geom -> box -> box }.

(** amrex::Box(): the default box, which is empty. *)
Definition empty_box : box := Box (IV 1 1 1) (IV 0 0 0).

(** IntVect::setVal *)
Definition set_val (v : ivec) (d s : Z) : ivec :=
  if (d =? 0)%Z then IV s (iv1 v) (iv2 v)
  else if (d =? 1)%Z then IV (iv0 v) s (iv2 v) else IV (iv0 v) (iv1 v) s.

(** stencils.H:62-78 *)
Definition box_lo (g : geom) (b : box) (d : Z) : box :=
  if gper g d then empty_box
  else if negb (icomp (blo b) d =? icomp (blo (gdom g)) d)%Z then empty_box
  else let sm := icomp (blo b) d in Box (set_val (blo b) d sm) (set_val (bhi b) d sm).

(** stencils.H:94-109 *)
Definition box_hi (g : geom) (b : box) (d : Z) : box :=
  if gper g d then empty_box
  else if negb (icomp (bhi b) d =? icomp (bhi (gdom g)) d)%Z then empty_box
  else let sm := icomp (bhi b) d in Box (set_val (blo b) d sm) (set_val (bhi b) d sm).

(** amrex::Box operator& (intersection). *)
Definition box_and (a b : box) : box :=
  Box (IV (Z.max (iv0 (blo a)) (iv0 (blo b))) (Z.max (iv1 (blo a)) (iv1 (blo b)))
          (Z.max (iv2 (blo a)) (iv2 (blo b))))
      (IV (Z.min (iv0 (bhi a)) (iv0 (bhi b))) (Z.min (iv1 (bhi a)) (iv1 (bhi b)))
          (Z.min (iv2 (bhi a)) (iv2 (bhi b)))).

(** Membership of a cell in a box, as the loops of amrex::ParallelFor decide it. *)
Definition in_boxb (b : box) (c : ivec) : bool :=
  ((iv0 (blo b) <=? iv0 c) && (iv0 c <=? iv0 (bhi b)) &&
   (iv1 (blo b) <=? iv1 c) && (iv1 c <=? iv1 (bhi b)) &&
   (iv2 (blo b) <=? iv2 c) && (iv2 c <=? iv2 (bhi b)))%Z.

(** stencils.H:114-154 *)
Definition StencilInterior : stencil :=
  Sten (Tri (1/2) 0 (-1/2)) (Tri (1/2) 0 (-1/2)) (Tri (1/2) 0 (-1/2))
       (Tri 1 (-2) 1) (Tri 1 (-2) 1) (Tri 1 (-2) 1)
       (Tri (1/4) (1/2) (1/4)) (Tri (1/4) (1/2) (1/4)) (Tri (1/4) (1/2) (1/4))
       (fun _ b => b).

(** stencils.H:156-195 *)
Definition StencilILO : stencil :=
  Sten (Tri (1/3) 1 (-4/3)) (Tri (1/2) 0 (-1/2)) (Tri (1/2) 0 (-1/2))
       (Tri (4/3) (-4) (8/3)) (Tri 1 (-2) 1) (Tri 1 (-2) 1)
       (Tri (1/8) (5/8) (1/4)) (Tri (1/4) (1/2) (1/4)) (Tri (1/4) (1/2) (1/4))
       (fun g b => box_lo g b 0).

(** stencils.H:197-236 *)
Definition StencilJLO : stencil :=
  Sten (Tri (1/2) 0 (-1/2)) (Tri (1/3) 1 (-4/3)) (Tri (1/2) 0 (-1/2))
       (Tri 1 (-2) 1) (Tri (4/3) (-4) (8/3)) (Tri 1 (-2) 1)
       (Tri (1/4) (1/2) (1/4)) (Tri (1/8) (5/8) (1/4)) (Tri (1/4) (1/2) (1/4))
       (fun g b => box_lo g b 1).

(** stencils.H:238-277 *)
Definition StencilKLO : stencil :=
  Sten (Tri (1/2) 0 (-1/2)) (Tri (1/2) 0 (-1/2)) (Tri (1/3) 1 (-4/3))
       (Tri 1 (-2) 1) (Tri 1 (-2) 1) (Tri (4/3) (-4) (8/3))
       (Tri (1/4) (1/2) (1/4)) (Tri (1/4) (1/2) (1/4)) (Tri (1/8) (5/8) (1/4))
       (fun g b => box_lo g b 2).

(** stencils.H:279-318 *)
Definition StencilIHI : stencil :=
  Sten (Tri (4/3) (-1) (-1/3)) (Tri (1/2) 0 (-1/2)) (Tri (1/2) 0 (-1/2))
       (Tri (8/3) (-4) (4/3)) (Tri 1 (-2) 1) (Tri 1 (-2) 1)
       (Tri (1/4) (5/8) (1/8)) (Tri (1/4) (1/2) (1/4)) (Tri (1/4) (1/2) (1/4))
       (fun g b => box_hi g b 0).

(** stencils.H:320-359 *)
Definition StencilJHI : stencil :=
  Sten (Tri (1/2) 0 (-1/2)) (Tri (4/3) (-1) (-1/3)) (Tri (1/2) 0 (-1/2))
       (Tri 1 (-2) 1) (Tri (8/3) (-4) (4/3)) (Tri 1 (-2) 1)
       (Tri (1/4) (1/2) (1/4)) (Tri (1/4) (5/8) (1/8)) (Tri (1/4) (1/2) (1/4))
       (fun g b => box_hi g b 1).

(** stencils.H:361-400 *)
Definition StencilKHI : stencil :=
  Sten (Tri (1/2) 0 (-1/2)) (Tri (1/2) 0 (-1/2)) (Tri (4/3) (-1) (-1/3))
       (Tri 1 (-2) 1) (Tri 1 (-2) 1) (Tri (8/3) (-4) (4/3))
       (Tri (1/4) (1/2) (1/4)) (Tri (1/4) (1/2) (1/4)) (Tri (1/4) (5/8) (1/8))
       (fun g b => box_hi g b 2).

(** stencils.H:402-440 *)
Definition StencilIloJlo : stencil :=
  Sten (Tri (1/3) 1 (-4/3)) (Tri (1/3) 1 (-4/3)) (Tri (1/2) 0 (-1/2))
       (Tri (4/3) (-4) (8/3)) (Tri (4/3) (-4) (8/3)) (Tri 1 (-2) 1)
       (Tri (1/8) (5/8) (1/4)) (Tri (1/8) (5/8) (1/4)) (Tri (1/4) (1/2) (1/4))
       (fun g b => box_and (box_lo g b 0) (box_lo g b 1)).

(** stencils.H:442-480 *)
Definition StencilJloKlo : stencil :=
  Sten (Tri (1/2) 0 (-1/2)) (Tri (1/3) 1 (-4/3)) (Tri (1/3) 1 (-4/3))
       (Tri 1 (-2) 1) (Tri (4/3) (-4) (8/3)) (Tri (4/3) (-4) (8/3))
       (Tri (1/4) (1/2) (1/4)) (Tri (1/8) (5/8) (1/4)) (Tri (1/8) (5/8) (1/4))
       (fun g b => box_and (box_lo g b 1) (box_lo g b 2)).

(** stencils.H:482-520 *)
Definition StencilIloKlo : stencil :=
  Sten (Tri (1/3) 1 (-4/3)) (Tri (1/2) 0 (-1/2)) (Tri (1/3) 1 (-4/3))
       (Tri (4/3) (-4) (8/3)) (Tri 1 (-2) 1) (Tri (4/3) (-4) (8/3))
       (Tri (1/8) (5/8) (1/4)) (Tri (1/4) (1/2) (1/4)) (Tri (1/8) (5/8) (1/4))
       (fun g b => box_and (box_lo g b 0) (box_lo g b 2)).

(** stencils.H:522-560 *)
Definition StencilIhiJhi : stencil :=
  Sten (Tri (4/3) (-1) (-1/3)) (Tri (4/3) (-1) (-1/3)) (Tri (1/2) 0 (-1/2))
       (Tri (8/3) (-4) (4/3)) (Tri (8/3) (-4) (4/3)) (Tri 1 (-2) 1)
       (Tri (1/4) (5/8) (1/8)) (Tri (1/4) (5/8) (1/8)) (Tri (1/4) (1/2) (1/4))
       (fun g b => box_and (box_hi g b 0) (box_hi g b 1)).

(** stencils.H:562-600 *)
Definition StencilJhiKhi : stencil :=
  Sten (Tri (1/2) 0 (-1/2)) (Tri (4/3) (-1) (-1/3)) (Tri (4/3) (-1) (-1/3))
       (Tri 1 (-2) 1) (Tri (8/3) (-4) (4/3)) (Tri (8/3) (-4) (4/3))
       (Tri (1/4) (1/2) (1/4)) (Tri (1/4) (5/8) (1/8)) (Tri (1/4) (5/8) (1/8))
       (fun g b => box_and (box_hi g b 1) (box_hi g b 2)).

(** stencils.H:602-640 *)
Definition StencilIhiKhi : stencil :=
  Sten (Tri (4/3) (-1) (-1/3)) (Tri (1/2) 0 (-1/2)) (Tri (4/3) (-1) (-1/3))
       (Tri (8/3) (-4) (4/3)) (Tri 1 (-2) 1) (Tri (8/3) (-4) (4/3))
       (Tri (1/4) (5/8) (1/8)) (Tri (1/4) (1/2) (1/4)) (Tri (1/4) (5/8) (1/8))
       (fun g b => box_and (box_hi g b 0) (box_hi g b 2)).

(** stencils.H:642-680 *)
Definition StencilIloJhi : stencil :=
  Sten (Tri (1/3) 1 (-4/3)) (Tri (4/3) (-1) (-1/3)) (Tri (1/2) 0 (-1/2))
       (Tri (4/3) (-4) (8/3)) (Tri (8/3) (-4) (4/3)) (Tri 1 (-2) 1)
       (Tri (1/8) (5/8) (1/4)) (Tri (1/4) (5/8) (1/8)) (Tri (1/4) (1/2) (1/4))
       (fun g b => box_and (box_lo g b 0) (box_hi g b 1)).

(** stencils.H:682-720 *)
Definition StencilJloKhi : stencil :=
  Sten (Tri (1/2) 0 (-1/2)) (Tri (1/3) 1 (-4/3)) (Tri (4/3) (-1) (-1/3))
       (Tri 1 (-2) 1) (Tri (4/3) (-4) (8/3)) (Tri (8/3) (-4) (4/3))
       (Tri (1/4) (1/2) (1/4)) (Tri (1/8) (5/8) (1/4)) (Tri (1/4) (5/8) (1/8))
       (fun g b => box_and (box_lo g b 1) (box_hi g b 2)).

(** stencils.H:722-760 *)
Definition StencilIloKhi : stencil :=
  Sten (Tri (1/3) 1 (-4/3)) (Tri (1/2) 0 (-1/2)) (Tri (4/3) (-1) (-1/3))
       (Tri (4/3) (-4) (8/3)) (Tri 1 (-2) 1) (Tri (8/3) (-4) (4/3))
       (Tri (1/8) (5/8) (1/4)) (Tri (1/4) (1/2) (1/4)) (Tri (1/4) (5/8) (1/8))
       (fun g b => box_and (box_lo g b 0) (box_hi g b 2)).

(** stencils.H:762-800 *)
Definition StencilIhiJlo : stencil :=
  Sten (Tri (4/3) (-1) (-1/3)) (Tri (1/3) 1 (-4/3)) (Tri (1/2) 0 (-1/2))
       (Tri (8/3) (-4) (4/3)) (Tri (4/3) (-4) (8/3)) (Tri 1 (-2) 1)
       (Tri (1/4) (5/8) (1/8)) (Tri (1/8) (5/8) (1/4)) (Tri (1/4) (1/2) (1/4))
       (fun g b => box_and (box_hi g b 0) (box_lo g b 1)).

(** stencils.H:802-840 *)
Definition StencilJhiKlo : stencil :=
  Sten (Tri (1/2) 0 (-1/2)) (Tri (4/3) (-1) (-1/3)) (Tri (1/3) 1 (-4/3))
       (Tri 1 (-2) 1) (Tri (8/3) (-4) (4/3)) (Tri (4/3) (-4) (8/3))
       (Tri (1/4) (1/2) (1/4)) (Tri (1/4) (5/8) (1/8)) (Tri (1/8) (5/8) (1/4))
       (fun g b => box_and (box_hi g b 1) (box_lo g b 2)).

(** stencils.H:842-880 *)
Definition StencilIhiKlo : stencil :=
  Sten (Tri (4/3) (-1) (-1/3)) (Tri (1/2) 0 (-1/2)) (Tri (1/3) 1 (-4/3))
       (Tri (8/3) (-4) (4/3)) (Tri 1 (-2) 1) (Tri (4/3) (-4) (8/3))
       (Tri (1/4) (5/8) (1/8)) (Tri (1/4) (1/2) (1/4)) (Tri (1/8) (5/8) (1/4))
       (fun g b => box_and (box_hi g b 0) (box_lo g b 2)).

(** stencils.H:882-921 *)
Definition StencilIloJloKlo : stencil :=
  Sten (Tri (1/3) 1 (-4/3)) (Tri (1/3) 1 (-4/3)) (Tri (1/3) 1 (-4/3))
       (Tri (4/3) (-4) (8/3)) (Tri (4/3) (-4) (8/3)) (Tri (4/3) (-4) (8/3))
       (Tri (1/8) (5/8) (1/4)) (Tri (1/8) (5/8) (1/4)) (Tri (1/8) (5/8) (1/4))
       (fun g b => box_and (box_and (box_lo g b 0) (box_lo g b 1)) (box_lo g b 2)).

(** stencils.H:923-962 *)
Definition StencilIloJhiKlo : stencil :=
  Sten (Tri (1/3) 1 (-4/3)) (Tri (4/3) (-1) (-1/3)) (Tri (1/3) 1 (-4/3))
       (Tri (4/3) (-4) (8/3)) (Tri (8/3) (-4) (4/3)) (Tri (4/3) (-4) (8/3))
       (Tri (1/8) (5/8) (1/4)) (Tri (1/4) (5/8) (1/8)) (Tri (1/8) (5/8) (1/4))
       (fun g b => box_and (box_and (box_lo g b 0) (box_hi g b 1)) (box_lo g b 2)).

(** stencils.H:964-1003 *)
Definition StencilIhiJloKlo : stencil :=
  Sten (Tri (4/3) (-1) (-1/3)) (Tri (1/3) 1 (-4/3)) (Tri (1/3) 1 (-4/3))
       (Tri (8/3) (-4) (4/3)) (Tri (4/3) (-4) (8/3)) (Tri (4/3) (-4) (8/3))
       (Tri (1/4) (5/8) (1/8)) (Tri (1/8) (5/8) (1/4)) (Tri (1/8) (5/8) (1/4))
       (fun g b => box_and (box_and (box_hi g b 0) (box_lo g b 1)) (box_lo g b 2)).

(** stencils.H:1005-1044 *)
Definition StencilIhiJhiKlo : stencil :=
  Sten (Tri (4/3) (-1) (-1/3)) (Tri (4/3) (-1) (-1/3)) (Tri (1/3) 1 (-4/3))
       (Tri (8/3) (-4) (4/3)) (Tri (8/3) (-4) (4/3)) (Tri (4/3) (-4) (8/3))
       (Tri (1/4) (5/8) (1/8)) (Tri (1/4) (5/8) (1/8)) (Tri (1/8) (5/8) (1/4))
       (fun g b => box_and (box_and (box_hi g b 0) (box_hi g b 1)) (box_lo g b 2)).

(** stencils.H:1046-1085 *)
Definition StencilIloJloKhi : stencil :=
  Sten (Tri (1/3) 1 (-4/3)) (Tri (1/3) 1 (-4/3)) (Tri (4/3) (-1) (-1/3))
       (Tri (4/3) (-4) (8/3)) (Tri (4/3) (-4) (8/3)) (Tri (8/3) (-4) (4/3))
       (Tri (1/8) (5/8) (1/4)) (Tri (1/8) (5/8) (1/4)) (Tri (1/4) (5/8) (1/8))
       (fun g b => box_and (box_and (box_lo g b 0) (box_lo g b 1)) (box_hi g b 2)).

(** stencils.H:1087-1126 *)
Definition StencilIloJhiKhi : stencil :=
  Sten (Tri (1/3) 1 (-4/3)) (Tri (4/3) (-1) (-1/3)) (Tri (4/3) (-1) (-1/3))
       (Tri (4/3) (-4) (8/3)) (Tri (8/3) (-4) (4/3)) (Tri (8/3) (-4) (4/3))
       (Tri (1/8) (5/8) (1/4)) (Tri (1/4) (5/8) (1/8)) (Tri (1/4) (5/8) (1/8))
       (fun g b => box_and (box_and (box_lo g b 0) (box_hi g b 1)) (box_hi g b 2)).

(** stencils.H:1128-1167 *)
Definition StencilIhiJloKhi : stencil :=
  Sten (Tri (4/3) (-1) (-1/3)) (Tri (1/3) 1 (-4/3)) (Tri (4/3) (-1) (-1/3))
       (Tri (8/3) (-4) (4/3)) (Tri (4/3) (-4) (8/3)) (Tri (8/3) (-4) (4/3))
       (Tri (1/4) (5/8) (1/8)) (Tri (1/8) (5/8) (1/4)) (Tri (1/4) (5/8) (1/8))
       (fun g b => box_and (box_and (box_hi g b 0) (box_lo g b 1)) (box_hi g b 2)).

(** stencils.H:1169-1208 *)
Definition StencilIhiJhiKhi : stencil :=
  Sten (Tri (4/3) (-1) (-1/3)) (Tri (4/3) (-1) (-1/3)) (Tri (4/3) (-1) (-1/3))
       (Tri (8/3) (-4) (4/3)) (Tri (8/3) (-4) (4/3)) (Tri (8/3) (-4) (4/3))
       (Tri (1/4) (5/8) (1/8)) (Tri (1/4) (5/8) (1/8)) (Tri (1/4) (5/8) (1/8))
       (fun g b => box_and (box_and (box_hi g b 0) (box_hi g b 1)) (box_hi g b 2)).
(** A field on one level: value of component n in cell c, ghost cells included. *)
Definition field := ivec -> Z -> R.

(** fvmop.template apply<Stencil>(lev, mfi), common to all operators (e.g.
    gradient.H:38-73): [op s c n] is written to every cell of the box the stencil
    selects in the tile; the remaining cells keep what they had. *)
Definition pass (op : stencil -> field) (g : geom) (tile : box) (out : field) (s : stencil)
  : field :=
  fun c n => if in_boxb (sbox s g tile) c then op s c n else out c n.

(** amrex::Box::strictly_contains *)
Definition strictly_contains (d b : box) : bool :=
  ((iv0 (blo d) <? iv0 (blo b)) && (iv1 (blo d) <? iv1 (blo b)) &&
   (iv2 (blo d) <? iv2 (blo b)) && (iv0 (bhi b) <? iv0 (bhi d)) &&
   (iv1 (bhi b) <? iv1 (bhi d)) && (iv2 (bhi b) <? iv2 (bhi d)))%Z.

(** fvm_utils.H:38-72: the order in which the boundary stencils are applied. *)
Definition boundary_passes : list stencil :=
  [ StencilILO; StencilJLO; StencilKLO; StencilIHI; StencilJHI; StencilKHI;
    StencilIhiJlo; StencilIhiJhi; StencilIhiKlo; StencilIhiKhi;
    StencilJhiKlo; StencilJhiKhi; StencilIloJlo; StencilIloJhi;
    StencilIloKlo; StencilIloKhi; StencilJloKlo; StencilJloKhi;
    StencilIloJloKlo; StencilIloJloKhi; StencilIloJhiKlo; StencilIloJhiKhi;
    StencilIhiJloKlo; StencilIhiJloKhi; StencilIhiJhiKlo; StencilIhiJhiKhi ].

(** fvm_utils.H:25-73: one tile. *)
Definition apply_tile (op : stencil -> field) (g : geom) (out : field) (tile : box) : field :=
  let out1 := pass op g tile out StencilInterior in
  if strictly_contains (gdom g) tile then out1
  else fold_left (pass op g tile) boundary_passes out1.

(** fvm_utils.H:13-75: all tiles of a level, in the order the iterator (or the
    thread schedule) delivers them.  Simplified: one level at a time; an operator
    never reads the field it writes, so levels do not interact. *)
Definition apply (op : stencil -> field) (g : geom) (tiles : list box) (out : field) : field :=
  fold_left (apply_tile op g) tiles out.

(** The three-point combinations that occur in all operators, e.g.
    gradient.H:49-53 for the first axis. *)
Definition along0 (t : tri) (phi : field) (c : ivec) (n : Z) : R :=
  tp1 t * phi (IV (iv0 c + 1) (iv1 c) (iv2 c)) n + tc t * phi c n +
  tm1 t * phi (IV (iv0 c - 1) (iv1 c) (iv2 c)) n.
Definition along1 (t : tri) (phi : field) (c : ivec) (n : Z) : R :=
  tp1 t * phi (IV (iv0 c) (iv1 c + 1) (iv2 c)) n + tc t * phi c n +
  tm1 t * phi (IV (iv0 c) (iv1 c - 1) (iv2 c)) n.
Definition along2 (t : tri) (phi : field) (c : ivec) (n : Z) : R :=
  tp1 t * phi (IV (iv0 c) (iv1 c) (iv2 c + 1)) n + tc t * phi c n +
  tm1 t * phi (IV (iv0 c) (iv1 c) (iv2 c - 1)) n.

(** gradient.H:45-72: component 3*icomp + d is the derivative of component icomp
    along axis d. *)
Definition gradient_op (g : geom) (phi : field) (s : stencil) : field :=
  fun c n =>
    let ic := (n / 3)%Z in
    if (n mod 3 =? 0)%Z then along0 (c0 s) phi c ic * gidx g 0
    else if (n mod 3 =? 1)%Z then along1 (c1 s) phi c ic * gidx g 1
    else along2 (c2 s) phi c ic * gidx g 2.

(** divergence.H:41-68 *)
Definition divergence_op (g : geom) (phi : field) (s : stencil) : field :=
  fun c n => along0 (c0 s) phi c (n * 3 + 0) * gidx g 0 +
             along1 (c1 s) phi c (n * 3 + 1) * gidx g 1 +
             along2 (c2 s) phi c (n * 3 + 2) * gidx g 2.

(** laplacian.H:36-61: the second derivative along axis d is taken of component d
    (DerivedQtyDefs.cpp:98-104 insists on three components). *)
Definition laplacian_op (g : geom) (phi : field) (s : stencil) : field :=
  fun c _ => along0 (s0 s) phi c 0 * gidx g 0 * gidx g 0 +
             along1 (s1 s) phi c 1 * gidx g 1 * gidx g 1 +
             along2 (s2 s) phi c 2 * gidx g 2 * gidx g 2.

(** The nine velocity derivatives computed at the head of strainrate.H:40-80,
    qcriterion.H:41-81, nonLinearSum.H:38-78 and, without the diagonal,
    vorticity.H:37-68 and vorticity_mag.H:40-71. *)
Record grad9 : Type := Grad
  { ux : R; uy : R; uz : R; vx : R; vy : R; vz : R; wx : R; wy : R; wz : R }.
Definition vel_grad (g : geom) (phi : field) (s : stencil) (c : ivec) : grad9 :=
  Grad (along0 (c0 s) phi c 0 * gidx g 0) (along1 (c1 s) phi c 0 * gidx g 1)
       (along2 (c2 s) phi c 0 * gidx g 2)
       (along0 (c0 s) phi c 1 * gidx g 0) (along1 (c1 s) phi c 1 * gidx g 1)
       (along2 (c2 s) phi c 1 * gidx g 2)
       (along0 (c0 s) phi c 2 * gidx g 0) (along1 (c1 s) phi c 2 * gidx g 1)
       (along2 (c2 s) phi c 2 * gidx g 2).

(** strainrate.H:82-86 *)
Definition strainrate_of (q : grad9) : R :=
  sqrt (2 * ux q ^ 2 + 2 * vy q ^ 2 + 2 * wz q ^ 2 + (uy q + vx q) ^ 2 +
        (vz q + wy q) ^ 2 + (wx q + uz q) ^ 2).
Definition strainrate_op (g : geom) (phi : field) (s : stencil) : field :=
  fun c _ => strainrate_of (vel_grad g phi s c).

(** vorticity.H:70-72 *)
Definition vorticity_of (q : grad9) (n : Z) : R :=
  if (n =? 0)%Z then wy q - vz q else if (n =? 1)%Z then uz q - wx q else vx q - uy q.
Definition vorticity_op (g : geom) (phi : field) (s : stencil) : field :=
  fun c n => vorticity_of (vel_grad g phi s c) n.

(** vorticity_mag.H:73-75 *)
Definition vorticity_mag_of (q : grad9) : R :=
  sqrt ((uy q - vx q) ^ 2 + (vz q - wy q) ^ 2 + (wx q - uz q) ^ 2).
Definition vorticity_mag_op (g : geom) (phi : field) (s : stencil) : field :=
  fun c _ => vorticity_mag_of (vel_grad g phi s c).

(** qcriterion.H:83-102; epsilon() is 2^-52. *)
Definition q_s2 (q : grad9) : R :=
  ux q ^ 2 + vy q ^ 2 + wz q ^ 2 + (1/2) * (uy q + vx q) ^ 2 +
  (1/2) * (vz q + wy q) ^ 2 + (1/2) * (wx q + uz q) ^ 2.
Definition q_w2 (q : grad9) : R :=
  (1/2) * (uy q - vx q) ^ 2 + (1/2) * (vz q - wy q) ^ 2 + (1/2) * (wx q - uz q) ^ 2.
Definition qcriterion_of (nondim : bool) (q : grad9) : R :=
  if nondim then (1/2) * (q_w2 q / rmax (/ 2 ^ 52 * 100) (q_s2 q) - 1)
  else (1/2) * (q_w2 q - q_s2 q).
Definition qcriterion_op (nondim : bool) (g : geom) (phi : field) (s : stencil) : field :=
  fun c _ => qcriterion_of nondim (vel_grad g phi s c).

(** filter.H:46-72 *)
Definition filter_op (phi : field) (s : stencil) : field :=
  fun c n => 1 / 3 * (along0 (f0 s) phi c n + along1 (f1 s) phi c n + along2 (f2 s) phi c n).

(** curvature.H:38-130.  std::pow(x, 1.5) is [Rpower x (3/2)], which agrees with
    it for positive x. *)
Definition curvature_of (phix phiy phiz phixx phiyy phizz phixy phixz phiyz : R) : R :=
  - ((phix * phix * phiyy) - (2 * phix * phiy * phixy) + (phiy * phiy * phixx) +
     (phix * phix * phizz) - (2 * phix * phiz * phixz) + (phiz * phiz * phixx) +
     (phiy * phiy * phizz) - (2 * phiy * phiz * phiyz) + (phiz * phiz * phiyy)) /
  Rpower ((phix * phix) + (phiy * phiy) + (phiz * phiz)) (3/2).
Definition curvature_op (g : geom) (phi : field) (s : stencil) : field :=
  fun c n =>
    let phixx := along0 (s0 s) phi c n * gidx g 0 * gidx g 0 in
    let phiyy := along1 (s1 s) phi c n * gidx g 1 * gidx g 1 in
    let phizz := along2 (s2 s) phi c n * gidx g 2 * gidx g 2 in
    let dz c' := along2 (c2 s) phi c' n * gidx g 2 in
    let dy c' := along1 (c1 s) phi c' n * gidx g 1 in
    let phiyz := along1 (c1 s) (fun c' _ => dz c') c 0 * gidx g 1 in
    let phix := along0 (c0 s) phi c n * gidx g 0 in
    let phixy := along0 (c0 s) (fun c' _ => dy c') c 0 * gidx g 0 in
    let phixz := along0 (c0 s) (fun c' _ => dz c') c 0 * gidx g 0 in
    curvature_of phix (dy c) (dz c) phixx phiyy phizz phixy phixz phiyz.

(** nonLinearSum.H:80-124: nine components, row by row. *)
Definition nonlinear_of (q : grad9) (n : Z) : R :=
  let 'Grad ux uy uz vx vy vz wx wy wz := q in
  match n with
  | 0%Z => (ux*ux + uy*vx + uz*wx) - (ux*ux + uy*uy + uz*uz) +
           (3 * (ux*ux + vx*vx + wx*wx)) + (ux*ux + vx*uy + wx*uz)
  | 1%Z => (ux*uy + uy*vy + uz*wy) - (ux*vx + uy*vy + uz*vz) +
           (3 * (ux*uy + vx*vy + wx*wy)) + (ux*vx + vx*vy + wx*vz)
  | 2%Z => (ux*uz + uy*vz + uz*wz) - (ux*wx + uy*wy + uz*wz) +
           (3 * (ux*uz + vx*vz + wx*wz)) + (ux*wx + vx*wy + wx*wz)
  | 3%Z => (vx*ux + vy*vx + vz*wx) - (vx*ux + vy*uy + vz*uz) +
           (3 * (uy*ux + vy*vx + wy*wx)) + (uy*ux + vy*uy + wy*uz)
  | 4%Z => (vx*uy + vy*vy + vz*wy) - (vx*vx + vy*vy + vz*vz) +
           (3 * (uy*vx + vy*vy + wy*wy)) + (uy*vx + vy*vy + wy*vz)
  | 5%Z => (vx*uz + vy*vz + vz*wz) - (vx*wx + vy*wy + vz*wz) +
           (3 * (uy*wx + vy*vz + wy*wz)) + (uy*wx + vy*wy + wy*wz)
  | 6%Z => (wx*ux + wy*vx + wz*wx) - (wx*ux + wy*uy + wz*uz) +
           (3 * (uz*ux + vz*vx + wz*wx)) + (uz*ux + vz*uy + wz*uz)
  | 7%Z => (wx*uy + wy*vy + wz*wy) - (wx*vx + wy*vy + wz*vz) +
           (3 * (uz*uy + vz*vy + wz*wy)) + (uz*vx + vz*vy + wz*vz)
  | _ => (wx*uz + wy*vz + wz*wz) - (wx*wx + wy*wy + wz*wz) +
           (3 * (uz*uz + vz*vz + wz*wz)) + (uz*wx + vz*wy + wz*wz)
  end.
Definition nonlinear_op (g : geom) (phi : field) (s : stencil) : field :=
  fun c n => nonlinear_of (vel_grad g phi s c) n.
