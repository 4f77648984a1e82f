(** Plane averages: amr-wind/utilities/FieldPlaneAveraging.cpp,
    SecondMomentAveraging.cpp, ThirdMomentAveraging.cpp and
    DirectionSelector.H.

    Reals are exact, so the order of additions matters only through what is
    added.  Kernels are modelled as the list of atomic additions they perform;
    AMReX (MFIter, tiles, ParallelFor on CPU or GPU, OpenMP threads) may perform
    those additions in any order, and every MPI rank owns some of the tiles, so
    an execution is any permutation of each rank's additions followed by the
    sum over ranks. *)
From Coq Require Import Permutation.
From Verif Require Import BoxR.
Open Scope R_scope.

(** DirectionSelector.H:54-74 *)
Definition perpendicular_box (axis : Z) (b : box) (v : ivec) : box :=
  if (axis =? 0)%Z then
    Box (IV (iv0 v) (iv1 (blo b)) (iv2 (blo b))) (IV (iv0 v) (iv1 (bhi b)) (iv2 (bhi b)))
  else if (axis =? 1)%Z then
    Box (IV (iv0 (blo b)) (iv1 v) (iv2 (blo b))) (IV (iv0 (bhi b)) (iv1 v) (iv2 (bhi b)))
  else
    Box (IV (iv0 (blo b)) (iv1 (blo b)) (iv2 v)) (IV (iv0 (bhi b)) (iv1 (bhi b)) (iv2 v)).

(** DirectionSelector.H:80-100 *)
Definition parallel_box (axis : Z) (b : box) (v : ivec) : box :=
  if (axis =? 0)%Z then
    Box (IV (iv0 (blo b)) (iv1 v) (iv2 v)) (IV (iv0 (bhi b)) (iv1 v) (iv2 v))
  else if (axis =? 1)%Z then
    Box (IV (iv0 v) (iv1 (blo b)) (iv2 v)) (IV (iv0 v) (iv1 (bhi b)) (iv2 v))
  else
    Box (IV (iv0 v) (iv1 v) (iv2 (blo b))) (IV (iv0 v) (iv1 v) (iv2 (bhi b))).

(** Cells visited by the loops over one tile,
    FieldPlaneAveraging.cpp:282-299 (same loops in :389-406 and in
    SecondMomentAveraging.cpp:165-183, ThirdMomentAveraging.cpp:188-205). *)
Definition tile_visits (axis : Z) (tile : box) : list ivec :=
  flat_map (fun p => cells (parallel_box axis tile p))
           (cells (perpendicular_box axis tile (IV 0 0 0))).

(** One cell's data: component number to value (amrex::Array4). *)
Definition fab : Type := ivec -> Z -> R.

(** The averaging object's sizes, FieldPlaneAveraging.cpp:21-54.  Level 0 only,
    as in the code.  [pa_line] is m_line_average, component fastest. *)
Record plane_geom : Type := PG {
  pg_axis : Z;        (* m_axis *)
  pg_dom : box;       (* geom[0].Domain() *)
  pg_xlo : R;         (* m_xlo *)
  pg_dx : R }.        (* m_dx *)
Definition ncell_line (g : plane_geom) : Z :=   (* :34 *)
  icomp (bhi (pg_dom g)) (pg_axis g) - icomp (blo (pg_dom g)) (pg_axis g) + 1.
Definition extent (b : box) (d : Z) : Z := icomp (bhi b) d - icomp (blo b) d + 1.
Definition ncell_plane (g : plane_geom) : Z :=  (* :37-42 *)
  fold_left (fun acc i => if (i =? pg_axis g)%Z then acc else (acc * extent (pg_dom g) i)%Z)
            [0; 1; 2]%Z 1%Z.
Definition xcentroid (g : plane_geom) (i : Z) : R := (* :51-53 *)
  pg_xlo g + (IZR i + 1/2) * pg_dx g.

(** An atomic addition: array position and amount. *)
Definition add_op : Type := (Z * R)%type.

(** amrex::Gpu::deviceReduceSum(&line[pos], amount); a position outside the
    array is undefined behaviour. *)
Definition accum1 (l : list R) (o : add_op) : outcome (list R) :=
  if ((0 <=? fst o) && (fst o <? Z.of_nat (length l)))%Z
  then Ret (firstn (Z.to_nat (fst o)) l ++
            [nth (Z.to_nat (fst o)) l 0 + snd o] ++
            skipn (S (Z.to_nat (fst o))) l)
  else UB.
Fixpoint accum (l : list R) (os : list add_op) : outcome (list R) :=
  match os with
  | [] => Ret l
  | o :: r => obind (accum1 l o) (fun l' => accum l' r)
  end.

(** [kernel] gives the additions made for one cell.  One rank starts from the
    zero-filled array (FieldPlaneAveraging.cpp:236, 267-268), performs the
    additions of its tiles in some order. *)
Definition rank_result (kernel : ivec -> list add_op) (axis size : Z)
    (tiles : list box) (r : outcome (list R)) : Prop :=
  exists order,
    Permutation (flat_map kernel (flat_map (tile_visits axis) tiles)) order /\
    r = accum (repeat 0 (Z.to_nat size)) order.

(** amrex::ParallelDescriptor::ReduceRealSum, entry by entry over the ranks. *)
Definition reduce_ranks (size : Z) (rs : list (outcome (list R))) : outcome (list R) :=
  fold_left (fun acc r =>
    obind acc (fun a => obind r (fun l => Ret (map (fun p => fst p + snd p) (combine a l)))))
    rs (Ret (repeat 0 (Z.to_nat size))).

(** Outcome [r] of a parallel computation over [ranks], the tiles of each rank. *)
Definition computes (kernel : ivec -> list add_op) (axis size : Z)
    (ranks : list (list box)) (r : outcome (list R)) : Prop :=
  exists rs, Forall2 (rank_result kernel axis size) ranks rs /\ r = reduce_ranks size rs.

Definition denom (g : plane_geom) : R := 1 / IZR (ncell_plane g).

(** compute_averages, FieldPlaneAveraging.cpp:299-305 *)
Definition average_kernel (g : plane_geom) (ncomp : Z) (f : fab) (c : ivec) : list add_op :=
  let ind := icomp c (pg_axis g) in
  map (fun n => ((ncomp * ind + n)%Z, f c n * denom g)) (zrange 0 (ncomp - 1)).
Definition compute_averages (g : plane_geom) (ncomp : Z) (f : fab) :=
  computes (average_kernel g ncomp f) (pg_axis g) (ncell_line g * ncomp).

(** compute_hvelmag_averages, FieldPlaneAveraging.cpp:345-358, 406-413 *)
Definition h_idx (axis : Z) : Z * Z :=
  if (axis =? 0)%Z then (1, 2)%Z else if (axis =? 1)%Z then (0, 2)%Z else (0, 1)%Z.
Definition hvelmag_kernel (g : plane_geom) (f : fab) (c : ivec) : list add_op :=
  let ind := icomp c (pg_axis g) in
  let h1 := fst (h_idx (pg_axis g)) in
  let h2 := snd (h_idx (pg_axis g)) in
  [(ind, sqrt (f c h1 * f c h1 + f c h2 * f c h2) * denom g)].
Definition compute_hvelmag_averages (g : plane_geom) (f : fab) :=
  computes (hvelmag_kernel g f) (pg_axis g) (ncell_line g).

(** Array read; the reads below are out of bounds only where the write next to
    them is, so undefined behaviour is detected by [accum1]. *)
Definition rd (l : list R) (i : Z) : R := nth (Z.to_nat i) l 0.

(** SecondMomentAveraging::compute_average, SecondMomentAveraging.cpp:183-199;
    [nf] counts the pairs in loop order. *)
Definition number {A} (l : list A) : list (Z * A) :=
  combine (map Z.of_nat (seq 0 (length l))) l.
Definition second_kernel (g : plane_geom) (n1 n2 : Z) (f1 f2 : fab)
    (avg1 avg2 : list R) (c : ivec) : list add_op :=
  let ind := icomp c (pg_axis g) in
  map (fun p => ((n1 * n2 * ind + fst p)%Z, snd p))
   (number
     (flat_map (fun m =>
        let up1 := f1 c m - rd avg1 (n1 * ind + m) in
        map (fun n =>
          let up2 := f2 c n - rd avg2 (n2 * ind + n) in
          up1 * up2 * denom g) (zrange 0 (n2 - 1)))
      (zrange 0 (n1 - 1)))).
Definition compute_second (g : plane_geom) (n1 n2 : Z) (f1 f2 : fab) (avg1 avg2 : list R) :=
  computes (second_kernel g n1 n2 f1 f2 avg1 avg2) (pg_axis g) (ncell_line g * (n1 * n2)).

(** ThirdMomentAveraging::compute_average, ThirdMomentAveraging.cpp:205-228 *)
Definition third_kernel (g : plane_geom) (n1 n2 n3 : Z) (f1 f2 f3 : fab)
    (avg1 avg2 avg3 : list R) (c : ivec) : list add_op :=
  let ind := icomp c (pg_axis g) in
  map (fun p => ((n1 * n2 * n3 * ind + fst p)%Z, snd p))
   (number
     (flat_map (fun m =>
        let up1 := f1 c m - rd avg1 (n1 * ind + m) in
        flat_map (fun n =>
          let up2 := f2 c n - rd avg2 (n2 * ind + n) in
          map (fun p =>
            let up3 := f3 c p - rd avg3 (n3 * ind + p) in
            up1 * up2 * up3 * denom g) (zrange 0 (n3 - 1)))
        (zrange 0 (n2 - 1)))
      (zrange 0 (n1 - 1)))).
Definition compute_third (g : plane_geom) (n1 n2 n3 : Z) (f1 f2 f3 : fab)
    (avg1 avg2 avg3 : list R) :=
  computes (third_kernel g n1 n2 n3 f1 f2 f3 avg1 avg2 avg3) (pg_axis g)
           (ncell_line g * (n1 * n2 * n3)).

(** AMREX_ALWAYS_ASSERT *)
Definition assert {A} (b : bool) (k : outcome A) : outcome A := if b then k else Abort.
Definition in_range (i n : Z) : bool := ((0 <=? i) && (i <? n))%Z.
(** Vector element access: out of bounds is undefined behaviour. *)
Definition get (l : list R) (i : Z) : outcome R :=
  if in_range i (Z.of_nat (length l)) then Ret (rd l i) else UB.

(** Query height to (index, weight), FieldPlaneAveraging.cpp:116-130; the same
    code stands in :209-223, :467-481, SecondMomentAveraging.cpp:231-249,
    ThirdMomentAveraging.cpp:263-281 and FieldPlaneAveragingFine.cpp:63-82. *)
Definition convert_x (g : plane_geom) (x : R) : outcome (Z * R) :=
  obind
    (if Rltb (pg_xlo g + 1/2 * pg_dx g) x
     then obind (to_int (rfloor ((x - pg_xlo g) / pg_dx g - 1/2)))
            (fun ind => Ret (ind, (x - (pg_xlo g + (IZR ind + 1/2) * pg_dx g)) / pg_dx g))
     else Ret (0%Z, 0))
    (fun ic =>
      let '(ind, c) :=
        if (ncell_line g <=? fst ic + 1)%Z then ((ncell_line g - 2)%Z, 1) else ic in
      assert ((0 <=? ind) && (ind + 1 <? ncell_line g))%Z (Ret (ind, c))).

(** FieldPlaneAveraging.cpp:107-134 (and :461-485 with [ncomp] = 1 and
    [comp] = 0 for the horizontal speed; :201-227 for the derivative array). *)
Definition line_average_interpolated (g : plane_geom) (ncomp : Z) (l : list R) (x : R) (comp : Z)
    : outcome R :=
  assert (in_range comp ncomp)
    (obind (convert_x g x) (fun ic =>
       obind (get l (ncomp * fst ic + comp)) (fun a =>
       obind (get l (ncomp * (fst ic + 1) + comp)) (fun b =>
         Ret (a * (1 - snd ic) + b * snd ic))))).

(** FieldPlaneAveraging.cpp:149-158 *)
Definition line_average_cell (g : plane_geom) (ncomp : Z) (l : list R) (ind comp : Z) : outcome R :=
  assert (in_range comp ncomp) (assert (in_range ind (ncell_line g)) (get l (ncomp * ind + comp))).

(** FieldPlaneAveraging.cpp:172-199 *)
Definition line_derivative_cell (g : plane_geom) (ncomp : Z) (l : list R) (ind comp : Z) : outcome R :=
  assert (in_range comp ncomp) (assert (in_range ind (ncell_line g))
    (if (ind =? 0)%Z then
       obind (get l (ncomp * (ind + 1) + comp)) (fun a =>
       obind (get l (ncomp * ind + comp)) (fun b => Ret ((a - b) / pg_dx g)))
     else if (ind =? ncell_line g - 1)%Z then
       obind (get l (ncomp * ind + comp)) (fun a =>
       obind (get l (ncomp * (ind - 1) + comp)) (fun b => Ret ((a - b) / pg_dx g)))
     else
       obind (get l (ncomp * (ind + 1) + comp)) (fun a =>
       obind (get l (ncomp * (ind - 1) + comp)) (fun b => Ret (1/2 * (a - b) / pg_dx g))))).

(** VelPlaneAveraging: [l] is m_line_average, [h] is m_line_hvelmag_average.
    line_hvelmag_average_cell, FieldPlaneAveraging.cpp:487-494, reads
    m_line_average. *)
Definition line_hvelmag_average_cell (g : plane_geom) (l h : list R) (ind : Z) : outcome R :=
  assert (in_range ind (ncell_line g)) (get l ind).
(** :461-485 *)
Definition line_hvelmag_average_interpolated (g : plane_geom) (h : list R) (x : R) : outcome R :=
  obind (convert_x g x) (fun ic =>
    obind (get h (fst ic)) (fun a =>
    obind (get h (fst ic + 1)) (fun b =>
      Ret (a * (1 - snd ic) + b * snd ic)))).

(** SecondMomentAveraging.cpp:224-264 (flat component number); the assertion on
    the cell index is the code's. *)
Definition moment_interpolated (g : plane_geom) (nmom : Z) (l : list R) (x : R) (comp : Z)
    : outcome R := line_average_interpolated g nmom l x comp.
Definition moment_cell (g : plane_geom) (nmom : Z) (l : list R) (ind comp : Z) : outcome R :=
  assert (in_range comp nmom)
    (assert ((0 <=? ind) && (ind + 1 <? ncell_line g))%Z (get l (nmom * ind + comp))).
(** SecondMomentAveraging.cpp:212-222, 266-276 (one number per field). *)
Definition second_comp (n1 n2 c1 c2 : Z) : Z := (n1 * c1 + c2)%Z.
Definition second_cell (g : plane_geom) (n1 n2 : Z) (l : list R) (ind c1 c2 : Z) : outcome R :=
  assert (in_range c1 n1) (assert (in_range c2 n2)
    (moment_cell g (n1 * n2) l ind (second_comp n1 n2 c1 c2))).
Definition second_interpolated (g : plane_geom) (n1 n2 : Z) (l : list R) (x : R) (c1 c2 : Z)
    : outcome R :=
  assert (in_range c1 n1) (assert (in_range c2 n2)
    (moment_interpolated g (n1 * n2) l x (second_comp n1 n2 c1 c2))).
(** ThirdMomentAveraging.cpp:241-254, 297-311 *)
Definition third_comp (n1 n2 n3 c1 c2 c3 : Z) : Z := (n1 * n2 * c1 + n2 * c2 + c3)%Z.
Definition third_cell (g : plane_geom) (n1 n2 n3 : Z) (l : list R) (ind c1 c2 c3 : Z) : outcome R :=
  assert (in_range c1 n1) (assert (in_range c2 n2) (assert (in_range c3 n3)
    (moment_cell g (n1 * n2 * n3) l ind (third_comp n1 n2 n3 c1 c2 c3)))).

(** The columns written by output_line_average_ascii for cell [i]:
    SecondMomentAveraging.cpp:57-66 and ThirdMomentAveraging.cpp:58-70. *)
Definition second_file_entry (g : plane_geom) (n1 n2 : Z) (l : list R) (i m n : Z) : outcome R :=
  get l (n1 * n2 * i + n2 * m + n).
Definition third_file_entry (g : plane_geom) (n1 n2 n3 : Z) (l : list R) (i m n p : Z) : outcome R :=
  get l (n1 * n2 * n3 * i + n2 * n3 * m + n3 * n + p).
