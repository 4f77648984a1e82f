(** Inflow planes on file: /repo/amr-wind/wind_energy/ABLBoundaryPlane.cpp, its use in
    ABLFillInflow.cpp and the index helpers of utilities/index_operations.H.  Numbers are
    exact rationals.  One level; what is read for the different planes, levels and fields
    goes through the same statements with the same times (1147-1301), so a datum is
    addressed by a key of any type.  File names of different time steps are different
    (amrex::Concatenate of the step number). *)
From Coq Require Import Qabs.
From Verif Require Import BoxR Interp Averaging.
Local Open Scope Q_scope.

(** ** Interpolation in time *)

(** amrex::almostEqual (AMReX_Algorithm.H, default of two units in the last place):
    relative comparison, or a difference below the smallest normal double. *)
Definition dbl_min : Q := 1 # (2 ^ 1022).
Definition almost_equal (x y : Q) : bool :=
  Qleb (Qabs (x - y)) (eps * Qabs (x + y) * 2) || Qltb (Qabs (x - y)) dbl_min.
(** amrex::BaseFab::linInterp, called at ABLBoundaryPlane.cpp:275-277. *)
Definition lin_interp (f1 f2 t1 t2 t : Q) : Q :=
  if almost_equal t1 t2 || almost_equal t1 t then f1
  else if almost_equal t2 t then f2
  else (t2 - t) / (t2 - t1) * f1 + (t - t1) / (t2 - t1) * f2.

(** InletData (ABLBoundaryPlane.H:90-105): the two times, the time interpolated to and
    the three sets of data.  Before the first read all times are -1 and the data are not
    initialized (here zero; no theorem uses them). *)
Record head (K : Type) : Type := Head {
  h_tn : Q; h_tnp1 : Q; h_ti : Q; h_dn : K -> Q; h_dnp1 : K -> Q; h_di : K -> Q }.
Arguments Head {K}. Arguments h_tn {K}. Arguments h_tnp1 {K}. Arguments h_ti {K}.
Arguments h_dn {K}. Arguments h_dnp1 {K}. Arguments h_di {K}.
Definition head0 (K : Type) : head K :=
  Head (-1) (-1) (-1) (fun _ => 0) (fun _ => 0) (fun _ => 0).

(** InletData::interpolate, ABLBoundaryPlane.cpp:260-280 *)
Definition interpolate {K} (t : Q) (h : head K) : head K :=
  Head (h_tn h) (h_tnp1 h) t (h_dn h) (h_dnp1 h)
    (fun k => lin_interp (h_dn h k) (h_dnp1 h k) (h_tn h) (h_tnp1 h) t).

(** InletData::read_data (74-154) and read_data_native (158-258), which choose the two
    records in the same way; [fetch] returns the data of a record. *)
Definition read_data {K} (times : list Q) (fetch : nat -> outcome (K -> Q)) (t : Q) (h : head K)
    : outcome (head K) :=
  obind (closest_index times t loose_tol) (fun idx =>
  match nth_error times idx, nth_error times (S idx) with
  | Some tn, Some tnp1 =>
      if Qleb tn (t + loose_tol) && Qleb t (tnp1 + loose_tol) then
        obind (fetch idx) (fun a => obind (fetch (S idx)) (fun b =>
          Ret (Head tn tnp1 (h_ti h) a b (h_di h))))
      else Abort
  | _, _ => UB
  end).

(** ABLBoundaryPlane::read_file, 1147-1301, for the netcdf and native formats, at the
    time chosen at 1155-1157 (below). *)
Definition read_file {K} (times : list Q) (fetch : nat -> outcome (K -> Q)) (t : Q) (h : head K)
    : outcome (head K) :=
  match times with
  | [] => UB
  | t0 :: _ =>
      if negb (Qleb t0 (t + loose_tol)) || negb (Qltb t (last times 0 + loose_tol)) then Abort
      else if Qleb (h_tn h) t && Qltb t (h_tnp1 h) then Ret (interpolate t h)
      else obind (read_data times fetch t h) (fun h' => Ret (interpolate t h'))
  end.

(** 1155-1157 with SimTime::current_time, new_time = current + delta_t: the middle of the
    step for pre_advance_work (353-359), the end for pre_predictor_work (361-367). *)
Definition target_time (half : bool) (cur dt : Q) : Q :=
  if half then cur + (1 # 2) * dt else cur + dt.

(** The checks of populate_data, 1319-1346: both bounds must fail for the first. *)
Definition populate_ok {K} (h : head K) (t : Q) : bool :=
  negb (negb (Qleb (h_tn h) (t + loose_tol)) && negb (Qleb t (h_tnp1 h + loose_tol)))
  && Qltb (Qabs (t - h_ti h)) loose_tol.
(** populate_data, 1304-1401, at one destination. *)
Definition populate {K} (h : head K) (t : Q) (k : K) : outcome Q :=
  if populate_ok h t then Ret (h_di h k) else Abort.

(** ABLBoundaryPlane.H:173-178 and ABLFillInflow::fillpatch_sibling_fields,
    ABLFillInflow.cpp:58-113: with data of a later time the velocities on the faces are
    left as they are ([None]), otherwise they are overwritten. *)
Definition newer {K} (h : head K) (t : Q) : bool := Qltb (eps * 10000) (h_ti h - t).
Definition fill_faces {K} (h : head K) (t : Q) (k : K) : outcome (option Q) :=
  if newer h t then Ret None else obind (populate h t k) (fun v => Ret (Some v)).

(** ** Writing and reading of records, native format *)

(** A plane: normal direction and side (amrex::Orientation). *)
Record plane : Type := Plane { p_dir : Z; p_high : bool }.
(** [offset], 20-29: one cell from the plane of ghost cells into the domain. *)
Definition unit_vec (d : Z) : ivec :=
  IV (if d =? 0 then 1 else 0)%Z (if d =? 1 then 1 else 0)%Z (if d =? 2 then 1 else 0)%Z.
Definition iadd (a b : ivec) : ivec := IV (iv0 a + iv0 b)%Z (iv1 a + iv1 b)%Z (iv2 a + iv2 b)%Z.
Definition ineg (a : ivec) : ivec := IV (- iv0 a)%Z (- iv1 a)%Z (- iv2 a)%Z.
Definition v_offset (p : plane) : ivec :=
  if p_high p then ineg (unit_vec (p_dir p)) else unit_vec (p_dir p).
Definition isub (a b : ivec) : ivec := iadd a (ineg b).

(** A key: plane, cell of the plane of ghost cells, component. *)
Record key : Type := Key { k_plane : plane; k_cell : ivec; k_comp : Z }.

(** The register filled at 702-714: 1e13 everywhere, then copied from the cells of the
    level (here one box that is the whole domain) and their periodic images;
    amrex::BndryRegister::copyFrom with no ghost cells of the source (argument 0). *)
Definition wrap (lo hi c : Z) : Z := (lo + (c - lo) mod (hi - lo + 1))%Z.
Definition wrapv (per : Z -> bool) (d : box) (c : ivec) : ivec :=
  IV (if per 0%Z then wrap (iv0 (blo d)) (iv0 (bhi d)) (iv0 c) else iv0 c)
     (if per 1%Z then wrap (iv1 (blo d)) (iv1 (bhi d)) (iv1 c) else iv1 c)
     (if per 2%Z then wrap (iv2 (blo d)) (iv2 (bhi d)) (iv2 c) else iv2 c).
Definition inbz (lo hi c : Z) : bool := ((lo <=? c) && (c <=? hi))%Z.
Definition inb3 (d : box) (c : ivec) : bool :=
  inbz (iv0 (blo d)) (iv0 (bhi d)) (iv0 c) && inbz (iv1 (blo d)) (iv1 (bhi d)) (iv1 c)
  && inbz (iv2 (blo d)) (iv2 (bhi d)) (iv2 c).
Definition fld := ivec -> Z -> Q.
Definition bndry_fill : Q := 10000000000000 # 1.
Definition register (per : Z -> bool) (d : box) (f : fld) : fld :=
  fun c n => if inb3 d (wrapv per d c) then f (wrapv per d c) n else bndry_fill.

(** read_data_native, 222-229, 247-254 *)
Definition read_plane (b : fld) : key -> Q :=
  fun k => (1 # 2) * (b (k_cell k) (k_comp k)
                     + b (iadd (k_cell k) (v_offset (k_plane k))) (k_comp k)).

(** What is on disk: the lines of the time file and the directories by step number. *)
Record disk : Type := Disk { d_lines : list (Z * Q); d_dirs : Z -> option fld }.
Definition disk0 : disk := Disk [] (fun _ => None).
(** write_file, 621-735, native format; [w] is the content of the register. *)
Definition write_file (freq : Z) (start : Q) (step : Z) (time : Q) (w : fld) (d : disk) : outcome disk :=
  if (freq =? 0)%Z then UB
  else if negb (Z.rem step freq =? 0)%Z || Qltb time (start - loose_tol) then Ret d
  else Ret (Disk (d_lines d ++ [(step, time)])
        (fun s => if (s =? step)%Z then Some w else d_dirs d s)).
(** A run: post_init_actions (341-351) and post_advance_work (369-375) write in turn. *)
Fixpoint write_all (freq : Z) (start : Q) (l : list (Z * (Q * fld))) (d : disk) : outcome disk :=
  match l with
  | [] => Ret d
  | (s, (t, w)) :: l' => obind (write_file freq start s t w d) (write_all freq start l')
  end.
(** read_header, 835-874 *)
Definition disk_times (d : disk) : list Q := map snd (d_lines d).
(** 1218-1221, 1244-1247, 1285-1294: the directory of the step; a missing file aborts in AMReX. *)
Definition fetch_native (d : disk) (idx : nat) : outcome (key -> Q) :=
  match nth_error (d_lines d) idx with
  | Some (s, _) => match d_dirs d s with Some b => Ret (read_plane b) | None => Abort end
  | None => UB
  end.

(** ** NetCDF layout *)

(** utils::perpendicular_idx, index_operations.H:34-48 *)
Definition perp (normal : Z) : Z * Z :=
  if (normal =? 0)%Z then (1, 2)%Z else if (normal =? 1)%Z then (0, 2)%Z else (0, 1)%Z.
(** plane_idx, 32-38, for a perpendicular direction *)
Definition plane_idx (c : ivec) (p lo : Z) : Z := (icomp c p - lo)%Z.
(** The position in a buffer, 130, 142, 1538 *)
Definition flat (n1 nc i0 i1 n : Z) : Z := ((i0 * n1 + i1) * nc + n)%Z.
Definition blen (b : box) (d : Z) : Z := (icomp (bhi b) d - icomp (blo b) d + 1)%Z.

(** A loop that writes values to positions of a buffer: the last write counts. *)
Definition scatter {A} (dflt : Z -> A) (l : list (Z * A)) (m : Z) : A :=
  fold_left (fun v w => if (fst w =? m)%Z then snd w else v) l (dflt m).
(** amrex::ParallelFor over a box and components *)
Definition loop (b : box) (nc : Z) : list (ivec * Z) :=
  flat_map (fun n => map (fun c => (c, n)) (cells b)) (zrange 0 (nc - 1)).
(** impl_buffer_field, 1523-1543 *)
Definition buffer_value (p : plane) (f : fld) (c : ivec) (n : Z) : Q :=
  (1 # 2) * (f c n + f (isub c (v_offset p)) n).
Definition impl_buffer (p : plane) (b : box) (nc : Z) (f : fld) : Z -> Q :=
  let '(p0, p1) := perp (p_dir p) in
  scatter (fun _ => 0)
    (map (fun '(c, n) => (flat (blen b p1) nc (plane_idx c p0 (icomp (blo b) p0)) (plane_idx c p1 (icomp (blo b) p1)) n,
                          buffer_value p f c n)) (loop b nc)).

(** The face of a box on the plane, 1466-1471 and 1490-1496: the first layer of the domain on a low
    plane, the layer outside it on a high plane. *)
Definition with_comp (v : ivec) (d x : Z) : ivec :=
  if (d =? 0)%Z then IV x (iv1 v) (iv2 v) else if (d =? 1)%Z then IV (iv0 v) x (iv2 v) else IV (iv0 v) (iv1 v) x.
Definition touches (p : plane) (dom b : box) : bool :=
  if p_high p then (icomp (bhi b) (p_dir p) =? icomp (bhi dom) (p_dir p))%Z
  else (icomp (blo b) (p_dir p) =? icomp (blo dom) (p_dir p))%Z.
Definition face_layer (p : plane) (dom b : box) : box :=
  let x := if p_high p then (icomp (bhi dom) (p_dir p) + 1)%Z else icomp (blo dom) (p_dir p) in
  Box (with_comp (blo b) (p_dir p) x) (with_comp (bhi b) (p_dir p) x).
(** 1438-1455: the lowest corner of the boxes on the plane. *)
Definition min_lo (p : plane) (dom : box) (ba : list box) (d : Z) : Z :=
  fold_left (fun m b => if touches p dom b then Z.min m (icomp (blo b) d) else m) ba 2147483647%Z.

(** A variable of one record: rows, columns, components.  [put] of a block at [s0], [s1]. *)
Definition var := Z -> Z -> Z -> Q.
Definition put (v : var) (s0 s1 n0 n1 nc : Z) (buf : Z -> Q) : var :=
  fun a b n =>
    if (inbz s0 (s0 + n0 - 1) a && inbz s1 (s1 + n1 - 1) b && inbz 0 (nc - 1) n)%bool
    then buf (flat n1 nc (a - s0) (b - s1) n) else v a b n.
Definition get (v : var) (n1 nc : Z) (m : Z) : Q :=
  v (m / nc / n1)%Z (m / nc mod n1)%Z (m mod nc)%Z.
(** write_data, 1404-1521; at 1460 the boxes in turn. *)
Definition write_box (p : plane) (dom : box) (ba : list box) (nc : Z) (f : fld) (v : var) (b : box) : var :=
  let '(p0, p1) := perp (p_dir p) in
  if touches p dom b then
    let l := face_layer p dom b in
    put v (icomp (blo l) p0 - min_lo p dom ba p0)%Z (icomp (blo l) p1 - min_lo p dom ba p1)%Z
      (blen l p0) (blen l p1) nc (impl_buffer p l nc f)
  else v.
Definition write_nc (p : plane) (dom : box) (ba : list box) (nc : Z) (f : fld) (v : var) : var :=
  fold_left (write_box p dom ba nc f) ba v.
(** The box of the data that are read, 813-817: the minimal box of the level, in the
    layer of ghost cells. *)
Definition plane_box (p : plane) (minbox : box) : box :=
  let x := if p_high p then (icomp (bhi minbox) (p_dir p) + 1)%Z else (-1)%Z in
  Box (with_comp (blo minbox) (p_dir p) x) (with_comp (bhi minbox) (p_dir p) x).
(** amrex::BoxArray::minimalBox *)
Definition lower (a b : ivec) : ivec := IV (Z.min (iv0 a) (iv0 b)) (Z.min (iv1 a) (iv1 b)) (Z.min (iv2 a) (iv2 b)).
Definition upper (a b : ivec) : ivec := IV (Z.max (iv0 a) (iv0 b)) (Z.max (iv1 a) (iv1 b)) (Z.max (iv2 a) (iv2 b)).
Definition minimal_box (b0 : box) (ba : list box) : box :=
  fold_left (fun m b => Box (lower (blo m) (blo b)) (upper (bhi m) (bhi b))) ba b0.
(** read_data, 107-143 *)
Definition read_nc (p : plane) (pbx : box) (nc : Z) (v : var) : ivec -> Z -> Q :=
  let '(p0, p1) := perp (p_dir p) in
  fun c n => get v (blen pbx p1) nc
    (flat (blen pbx p1) nc (plane_idx c p0 (icomp (blo pbx) p0)) (plane_idx c p1 (icomp (blo pbx) p1)) n).

(** ** Where the data go: index_operations.H:63-84 and ABLBoundaryPlane.cpp:1374-1395 *)

(** [ty d]: the field is on the faces normal to [d]. *)
Definition enclosed (ty : Z -> bool) (b : box) : box :=
  Box (blo b) (IV (iv0 (bhi b) - (if ty 0%Z then 1 else 0)) (iv1 (bhi b) - (if ty 1%Z then 1 else 0))
                  (iv2 (bhi b) - (if ty 2%Z then 1 else 0)))%Z.
Definition tyvec (ty : Z -> bool) : ivec :=
  IV (if ty 0 then 1 else 0)%Z (if ty 1 then 1 else 0)%Z (if ty 2 then 1 else 0)%Z.
Definition inter (a b : box) : box := Box (upper (blo a) (blo b)) (lower (bhi a) (bhi b)).
Definition is_empty (b : box) : bool :=
  (iv0 (bhi b) <? iv0 (blo b))%Z || (iv1 (bhi b) <? iv1 (blo b))%Z || (iv2 (bhi b) <? iv2 (blo b))%Z.
Definition shift_box (b : box) (v : ivec) : box := Box (iadd (blo b) v) (iadd (bhi b) v).
Definition face_aware (ty : Z -> bool) (grown bnd : box) (p : plane) : box * ivec :=
  let bx := inter (enclosed ty grown) bnd in
  if is_empty bx then (bx, IV 0 0 0)
  else if p_high p && ty (p_dir p) then (shift_box bx (tyvec ty), ineg (tyvec ty))
  else (bx, IV 0 0 0).
(** One plane written to a field: the value at a position afterwards. *)
Definition populate_box (ty : Z -> bool) (grown bnd : box) (p : plane) (src dest : ivec -> Q) : ivec -> Q :=
  let '(bx, s) := face_aware ty grown bnd p in
  fun c => if inb3 bx c then src (iadd c s) else dest c.
