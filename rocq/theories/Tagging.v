(** Physical boxes to index boxes and mesh refinement by shapes:
    amr-wind/utilities/index_operations.cpp,
    amr-wind/utilities/tagging/{BoxRefiner,CylinderRefiner,UDFRefiner,
    GeometryRefinement,CartBoxRefinement}.cpp.

    Reals are exact.  A converted floating-point value outside the range of a
    32-bit int is undefined behaviour ([UB]).  Tags are a predicate on cells:
    the union of the tag boxes of all ranks. *)
From Verif Require Import BoxR VecSpace.
Open Scope R_scope.

(** amrex::RealBox *)
Record rbox : Type := RBox { rlo : vec; rhi : vec }.

(** The part of amrex::Geometry that is used: ProbLo, ProbHi, CellSize and
    InvCellSize (which AMReX computes as 1/CellSize). *)
Record geom : Type := Geom { gplo : vec; gphi : vec; gdx : vec; gdxi : vec }.

(** std::ceil on exact reals *)
Definition rceil (x : R) : Z := (- rfloor (- x))%Z.

(** index_operations.cpp:12-21, one pass of the loop over dimensions *)
Definition rb_dim (blo bhi problo probhi dxi : R) : outcome (Z * Z) :=
  let bbox_min := rmax blo problo in
  let bbox_max := rmin bhi probhi in
  let rlo := rfloor ((bbox_min - problo) * dxi) in
  let rhi := rceil ((bbox_max - problo) * dxi) in
  obind (to_int rlo) (fun lo =>
  obind (to_int rhi) (fun hi => Ret (lo, hi))).

(** index_operations.cpp:4-24 *)
Definition realbox_to_box (rb : rbox) (g : geom) : outcome box :=
  obind (rb_dim (vx (rlo rb)) (vx (rhi rb)) (vx (gplo g)) (vx (gphi g)) (vx (gdxi g))) (fun x =>
  obind (rb_dim (vy (rlo rb)) (vy (rhi rb)) (vy (gplo g)) (vy (gphi g)) (vy (gdxi g))) (fun y =>
  obind (rb_dim (vz (rlo rb)) (vz (rhi rb)) (vz (gplo g)) (vz (gphi g)) (vz (gdxi g))) (fun z =>
  Ret (Box (IV (fst x) (fst y) (fst z)) (IV (snd x) (snd y) (snd z)))))).

(** amrex::Box intersection and emptiness *)
Definition box_and (a b : box) : box :=
  Box (IV (Z.max (iv0 (blo a)) (iv0 (blo b))) (Z.max (iv1 (blo a)) (iv1 (blo b)))
          (Z.max (iv2 (blo a)) (iv2 (blo b))))
      (IV (Z.min (iv0 (bhi a)) (iv0 (bhi b))) (Z.min (iv1 (bhi a)) (iv1 (bhi b)))
          (Z.min (iv2 (bhi a)) (iv2 (bhi b)))).
Definition box_empty (b : box) : bool :=
  ((iv0 (bhi b) <? iv0 (blo b)) || (iv1 (bhi b) <? iv1 (blo b)) || (iv2 (bhi b) <? iv2 (blo b)))%Z.
Definition in_boxb (b : box) (c : ivec) : bool :=
  ((iv0 (blo b) <=? iv0 c) && (iv0 c <=? iv0 (bhi b)) &&
   (iv1 (blo b) <=? iv1 c) && (iv1 c <=? iv1 (bhi b)) &&
   (iv2 (blo b) <=? iv2 c) && (iv2 c <=? iv2 (bhi b)))%Z.

(** Cell centre: BoxRefiner.cpp:146-151, CylinderRefiner.cpp:70-75,
    UDFRefiner.cpp:41-43 *)
Definition cell_point (g : geom) (c : ivec) : vec :=
  V3 (vx (gplo g) + (IZR (iv0 c) + 0.5) * vx (gdx g))
     (vy (gplo g) + (IZR (iv1 c) + 0.5) * vy (gdx g))
     (vz (gplo g) + (IZR (iv2 c) + 0.5) * vz (gdx g)).

(** *** BoxRefiner *)

(** BoxRefiner.cpp:27-45 *)
Definition hex_corners (o x y z : vec) : list vec :=
  [ o; vadd o x; vadd (vadd o x) y; vadd o y; vadd o z; vadd (vadd o z) x;
    vadd (vadd (vadd o z) x) y; vadd (vadd o z) y ].

(** BoxRefiner.cpp:57-64: nodes 0, 1 and 3 of each face (node 2 is not read) *)
Definition face_map : list (nat * nat * nat) :=
  [ (0, 4, 3); (1, 2, 5); (0, 1, 4); (2, 3, 6); (0, 3, 1); (4, 5, 7) ]%nat.

(** BoxRefiner.cpp:52-76 *)
Definition face_normals (hn : list vec) : list vec :=
  map (fun f => match f with (f0, f1, f3) =>
        let v1 := vsub (nth f1 hn vzero) (nth f0 hn vzero) in
        let v2 := vsub (nth f3 hn vzero) (nth f0 hn vzero) in
        vcross v1 v2 end) face_map.

(** BoxRefiner.cpp:91 *)
Definition face_origin : list nat := [0; 1; 0; 2; 0; 4]%nat.

(** vstraits.H:26-27: numeric_limits<double>::max() = (2^53-1)*2^971 and
    numeric_limits<double>::min() = 2^-1022 (the least positive normal number,
    not the most negative number) *)
Definition dbl_max : R := IZR ((2 ^ 53 - 1) * 2 ^ 971).
Definition dbl_min : R := / IZR (2 ^ 1022).

(** BoxRefiner.cpp:94-107, for one coordinate *)
Definition min_c (l : list R) : R := fold_left (fun m h => if Rltb h m then h else m) l dbl_max.
Definition max_c (l : list R) : R := fold_left (fun m h => if Rltb m h then h else m) l dbl_min.

(** BoxRefiner.cpp:93-117 *)
Definition hex_bound_box (hn : list vec) : rbox :=
  let lo f := min_c (map f hn) in
  let hi f := max_c (map f hn) in
  let sr f := 0.05 * (hi f - lo f) in
  RBox (V3 (lo vx - sr vx) (lo vy - sr vy) (lo vz - sr vz))
       (V3 (hi vx + sr vx) (hi vy + sr vy) (hi vz + sr vz)).

(** BoxRefiner.cpp:150-165: the test on one cell centre *)
Definition hex_inside (hn fn : list vec) (pt : vec) : bool :=
  forallb (fun f =>
    let forigin := nth (nth f face_origin 0%nat) hn vzero in
    let ptloc := vsub pt forigin in
    negb (Rltb 0 (vdot ptloc (nth f fn vzero)))) (seq 0 6).

(** *** CylinderRefiner *)

(** CylinderRefiner.cpp:37-53 *)
Definition cyl_bound_box (st en : vec) (outer : R) : rbox :=
  let axis := vsub en st in
  let proj := vscale (vsqrt (vsub vone (vdivs (vmul axis axis) (vmag_sqr axis)))) outer in
  let sr := vscale proj (1 + 0.05) in
  let sm := vsub st sr in
  let em := vsub en sr in
  let sp := vadd st sr in
  let ep := vadd en sr in
  RBox (V3 (rmin (vx sm) (vx em)) (rmin (vy sm) (vy em)) (rmin (vz sm) (vz em)))
       (V3 (rmax (vx sp) (vx ep)) (rmax (vy sp) (vy ep)) (rmax (vz sp) (vz ep))).

(** CylinderRefiner.cpp:61-65, 75-89: the test on one cell centre *)
Definition cyl_inside (st en : vec) (outer_radius inner_radius : R) (pt : vec) : bool :=
  let axis := vsub en st in
  let outer := outer_radius * outer_radius in
  let inner := inner_radius * inner_radius in
  let magax := vmag_sqr axis in
  let pvec := vsub pt st in
  let daxis := vdot pvec axis in
  if Rleb 0 daxis && Rleb daxis magax then
    let d2 := vdot pvec pvec - daxis * daxis / magax in
    Rleb d2 outer && Rleb inner d2
  else false.

(** *** Shapes *)

(** The three geometry types.  The user function of UDFRefiner (a parsed
    expression of time and position) is an arbitrary predicate on positions at
    the current time; its bounding box defaults to the domain and may be set by
    the user (UDFRefiner.cpp:9-28). *)
Inductive shape : Type :=
| SBox (o x y z : vec)
| SCyl (st en : vec) (outer inner : R)
| SUdf (f : vec -> bool) (bb : rbox).

Definition bound_box (s : shape) : rbox :=
  match s with
  | SBox o x y z => hex_bound_box (hex_corners o x y z)
  | SCyl st en outer _ => cyl_bound_box st en outer
  | SUdf _ bb => bb
  end.

Definition shape_test (s : shape) (pt : vec) : bool :=
  match s with
  | SBox o x y z => let hn := hex_corners o x y z in hex_inside hn (face_normals hn) pt
  | SCyl st en outer inner => cyl_inside st en outer inner pt
  | SUdf f _ => f pt
  end.

Definition tagset : Type := ivec -> bool.

(** BoxRefiner.cpp:134-171, CylinderRefiner.cpp:56-91, UDFRefiner.cpp:30-49:
    every cell of [bx] passing the test is set, other tags are left alone. *)
Definition tag_shape (s : shape) (bx : box) (g : geom) (t : tagset) : tagset :=
  fun c => if in_boxb bx c && shape_test s (cell_point g c) then true else t c.

(** GeometryRefinement.cpp:61-69, loop over the shapes for one tile *)
Fixpoint tag_tile (shapes : list shape) (bx : box) (g : geom) (t : tagset) : outcome tagset :=
  match shapes with
  | [] => Ret t
  | s :: rest =>
      obind (realbox_to_box (bound_box s) g) (fun bxa =>
      let bxi := box_and bx bxa in
      if box_empty bxi then tag_tile rest bx g t
      else tag_tile rest bx g (tag_shape s bx g t))
  end.

(** GeometryRefinement.cpp:57-70, loop over the tiles *)
Fixpoint tag_tiles (shapes : list shape) (tiles : list box) (g : geom) (t : tagset) : outcome tagset :=
  match tiles with
  | [] => Ret t
  | bx :: rest => obind (tag_tile shapes bx g t) (fun t' => tag_tiles shapes rest g t')
  end.

(** GeometryRefinement.H:61-65 and GeometryRefinement.cpp:9-22 *)
Record grconf : Type := GRConf { set_level : Z; min_level : Z; max_level : Z }.

(** GeometryRefinement.cpp:34-71 *)
Definition geometry_refinement (cf : grconf) (shapes : list shape) (level : Z)
    (tiles : list box) (g : geom) (t : tagset) : outcome tagset :=
  if ((-1 <? set_level cf) && negb (level =? set_level cf))%Z then Ret t
  else if ((level <? min_level cf) || (max_level cf <? level))%Z then Ret t
  else tag_tiles shapes tiles g t.

(** *** CartBoxRefinement *)

(** CartBoxRefinement.cpp:61-68, one dimension; unlike index_operations.cpp it
    divides by the cell size *)
Definition cb_dim (blo bhi problo probhi dx : R) : outcome (Z * Z) :=
  let bbox_min := rmax blo problo in
  let bbox_max := rmin bhi probhi in
  let rlo := rfloor ((bbox_min - problo) / dx) in
  let rhi := rceil ((bbox_max - problo) / dx) in
  obind (to_int rlo) (fun lo =>
  obind (to_int rhi) (fun hi => Ret (lo, hi))).

(** CartBoxRefinement.cpp:58-70 *)
Definition cb_box (g : geom) (rb : rbox) : outcome box :=
  obind (cb_dim (vx (rlo rb)) (vx (rhi rb)) (vx (gplo g)) (vx (gphi g)) (vx (gdx g))) (fun x =>
  obind (cb_dim (vy (rlo rb)) (vy (rhi rb)) (vy (gplo g)) (vy (gphi g)) (vy (gdx g))) (fun y =>
  obind (cb_dim (vz (rlo rb)) (vz (rhi rb)) (vz (gplo g)) (vz (gphi g)) (vz (gdx g))) (fun z =>
  Ret (Box (IV (fst x) (fst y) (fst z)) (IV (snd x) (snd y) (snd z)))))).

Fixpoint omap {A B} (f : A -> outcome B) (l : list A) : outcome (list B) :=
  match l with
  | [] => Ret []
  | a :: r => obind (f a) (fun b => obind (omap f r) (fun bs => Ret (b :: bs)))
  end.

(** CartBoxRefinement.cpp:50-73 *)
Definition realbox_to_boxarray (rbx : list rbox) (g : geom) : outcome (list box) :=
  omap (cb_box g) rbx.

(** CartBoxRefinement.cpp:95-128.  [file] is the parsed refinement file, one
    list of boxes per level (the text parsing is not modelled); [geoms] are the
    level geometries, one per level allowed in the simulation. *)
Definition cart_read (file : list (list rbox)) (geoms : list geom) : outcome (list (list box)) :=
  let nlevels := Nat.min (length geoms) (length file) in
  omap (fun lg => realbox_to_boxarray (fst lg) (snd lg)) (firstn nlevels (combine file geoms)).

(** CartBoxRefinement.cpp:130-136.  TagBoxArray::setVal sets the cells of the
    tag boxes [fabs] (one per grid, ghost cells included) lying in the box
    array. *)
Definition cart_tag (bas : list (list box)) (level : nat) (fabs : list box) (t : tagset) : tagset :=
  if Nat.ltb level (length bas) then
    fun c => if existsb (fun f => in_boxb f c) fabs && existsb (fun b => in_boxb b c) (nth level bas [])
             then true else t c
  else t.
