(** Data probes: /repo/amr-wind/utilities/sampling/LineSampler.cpp, PlaneSampler.cpp,
    VolumeSampler.cpp, ProbeSampler.cpp, SamplingContainer.{H,cpp} and the parts of
    Sampling.cpp that lay out the output buffer.  Exact reals; indices do not overflow. *)
From Coq Require Import Arith Floats.SpecFloat.
From Verif Require Import BoxR VecSpace.
Local Open Scope R_scope.

Definition vcomp (v : vec) (d : Z) : R := if (d =? 0)%Z then vx v else if (d =? 1)%Z then vy v else vz v.

(** amrex::Geometry of one level: the cells are [0, n-1] in each direction. *)
Record sgeom : Type := SGeom { sg_lo : vec; sg_hi : vec; sg_n : ivec }.
Definition sg_dx (g : sgeom) (d : Z) : R := (vcomp (sg_hi g) d - vcomp (sg_lo g) d) / IZR (icomp (sg_n g) d).
Definition sg_domain (g : sgeom) : box :=
  Box (IV 0 0 0) (IV (iv0 (sg_n g) - 1) (iv1 (sg_n g) - 1) (iv2 (sg_n g) - 1)).

(** constants::TIGHT_TOL, constants.H:17-18; SamplerBase.H:63 *)
Definition bounds_tol : R := / 4503599627370496 * 1000.

(** index_operations.H:98-110 *)
Definition box_has (b : box) (c : ivec) : bool :=
  (iv0 (blo b) <=? iv0 c)%Z && (iv0 c <=? iv0 (bhi b))%Z && (iv1 (blo b) <=? iv1 c)%Z &&
  (iv1 c <=? iv1 (bhi b))%Z && (iv2 (blo b) <=? iv2 c)%Z && (iv2 c <=? iv2 (bhi b))%Z.
Definition cell_of (g : sgeom) (p : vec) : ivec :=
  IV (rfloor ((vx p - vx (sg_lo g)) * (1 / sg_dx g 0)))
     (rfloor ((vy p - vy (sg_lo g)) * (1 / sg_dx g 1)))
     (rfloor ((vz p - vz (sg_lo g)) * (1 / sg_dx g 2))).
Definition contains (g : sgeom) (b : box) (p : vec) : bool := box_has b (cell_of g p).

(** LineSampler.cpp:33-48, VolumeSampler.cpp:45-60, ProbeSampler.cpp:76-83: one
    coordinate of an end point, a corner or a probe. *)
Definition clamp1 (lo hi x : R) : R :=
  let x1 := if Rltb x (lo + bounds_tol) then lo + 10 * bounds_tol else x in
  if Rltb (hi - bounds_tol) x1 then hi - 10 * bounds_tol else x1.
Definition clamp (g : sgeom) (p : vec) : vec :=
  V3 (clamp1 (vx (sg_lo g)) (vx (sg_hi g)) (vx p))
     (clamp1 (vy (sg_lo g)) (vy (sg_hi g)) (vy p))
     (clamp1 (vz (sg_lo g)) (vz (sg_hi g)) (vz p)).

(** LineSampler.cpp:76-86; all points, before the test for the box. *)
Definition line_dx (n : Z) (s e : R) : R := (e - s) / IZR (Z.max (n - 1) 1).
Definition line_point (n : Z) (s e : vec) (i : Z) : vec :=
  V3 (vx s + IZR i * line_dx n (vx s) (vx e))
     (vy s + IZR i * line_dx n (vy s) (vy e))
     (vz s + IZR i * line_dx n (vz s) (vz e)).
Definition line_points (n : Z) (s e : vec) : list vec := map (line_point n s e) (zrange 0 (n - 1)).
(** 14-23: what initialize leaves. *)
Definition line_sampler (g : sgeom) (n : Z) (s e : vec) : list vec := line_points n (clamp g s) (clamp g e).

(** VolumeSampler.cpp:88-106 *)
Definition volume_dx (n : Z) (lo hi : R) : R := (hi - lo) / IZR n.
Definition volume_point (n : ivec) (lo hi : vec) (i j k : Z) : vec :=
  V3 (vx lo + volume_dx (iv0 n) (vx lo) (vx hi) * IZR i)
     (vy lo + volume_dx (iv1 n) (vy lo) (vy hi) * IZR j)
     (vz lo + volume_dx (iv2 n) (vz lo) (vz hi) * IZR k).
Definition volume_points (n : ivec) (lo hi : vec) : list vec :=
  flat_map (fun k => flat_map (fun j => map (fun i => volume_point n lo hi i j k)
    (zrange 0 (iv0 n - 1))) (zrange 0 (iv1 n - 1))) (zrange 0 (iv2 n - 1)).
Definition volume_sampler (g : sgeom) (n : ivec) (lo hi : vec) : list vec :=
  volume_points n (clamp g lo) (clamp g hi).

(** ProbeSampler.cpp:26-34, 48-61, 67-85 *)
Definition probe_sampler (g : sgeom) (offs : list R) (ov : vec) (file : list vec) : list vec :=
  map (clamp g) (flat_map (fun o => map (fun p => vadd p (vscale ov o)) file)
                          (match offs with [] => [0] | _ => offs end)).

(** PlaneSampler.cpp:57-119.  [tol] is max(epsilon * 1e6 * min_dx, bounds_tol), 63-71. *)
Record plane : Type := Plane { pl_o : vec; pl_a1 : vec; pl_a2 : vec; pl_offs : list R; pl_ov : vec; pl_n0 : Z; pl_n1 : Z }.
Definition fix_origin (tol lo hi o : R) : R :=
  let o1 := if Rltb (Rabs (o - lo)) tol then lo + tol else o in
  if Rltb (Rabs (o1 - hi)) tol then hi - tol else o1.
Definition fix_axis (tol lo hi o a : R) : R :=
  let a1 := if Rltb (Rabs (o + a - lo)) (2 * tol) then lo - o + 2 * tol else a in
  if Rltb (Rabs (o + a1 - hi)) (2 * tol) then hi - o - 2 * tol else a1.
Definition map3 (f : Z -> R) : vec := V3 (f 0%Z) (f 1%Z) (f 2%Z).
Definition plane_fix (g : sgeom) (tol : R) (p : plane) : plane :=
  let o := map3 (fun d => fix_origin tol (vcomp (sg_lo g) d) (vcomp (sg_hi g) d) (vcomp (pl_o p) d)) in
  let fa a := map3 (fun d => fix_axis tol (vcomp (sg_lo g) d) (vcomp (sg_hi g) d) (vcomp o d) (vcomp a d)) in
  Plane o (fa (pl_a1 p)) (fa (pl_a2 p)) (pl_offs p) (pl_ov p) (pl_n0 p) (pl_n1 p).
(** 103-118: the run aborts when this is false. *)
Definition plane_ok (g : sgeom) (p : plane) : bool :=
  forallb (fun o =>
    forallb (fun d =>
      let pt := vcomp (pl_o p) d + o * vcomp (pl_ov p) d in
      forallb (fun x => negb (Rltb x (vcomp (sg_lo g) d) || Rleb (vcomp (sg_hi g) d) x))
        [pt; pt + vcomp (pl_a1 p) d; pt + vcomp (pl_a2 p) d])
      [0; 1; 2]%Z)
    (pl_offs p).
(** 137-164 *)
Definition plane_point (p : plane) (o : R) (i j : Z) : vec :=
  map3 (fun d => vcomp (pl_o p) d + vcomp (pl_a1 p) d / IZR (Z.max (pl_n0 p - 1) 1) * IZR i +
                 vcomp (pl_a2 p) d / IZR (Z.max (pl_n1 p - 1) 1) * IZR j + o * vcomp (pl_ov p) d).
Definition plane_points (p : plane) : list vec :=
  flat_map (fun o => flat_map (fun j => map (fun i => plane_point p o i j)
    (zrange 0 (pl_n0 p - 1))) (zrange 0 (pl_n1 p - 1))) (pl_offs p).
(** initialize, 16-55; 29-43: no offsets means one offset of zero. *)
Definition plane_sampler (g : sgeom) (tol : R) (p : plane) : outcome (list vec) :=
  let p1 := Plane (pl_o p) (pl_a1 p) (pl_a2 p) (match pl_offs p with [] => [0] | _ => pl_offs p end)
                  (pl_ov p) (pl_n0 p) (pl_n1 p) in
  let p2 := plane_fix g tol p1 in
  if plane_ok g p2 then Ret (plane_points p2) else Abort.

(** sampling_locations(sample_locs, box) of all samplers: points of the box with their
    index in the sampler (LineSampler.cpp:87-89 and the like). *)
Definition locs_in (g : sgeom) (b : box) (pts : list vec) : list (vec * nat) :=
  filter (fun pi => contains g b (fst pi)) (combine pts (seq 0 (length pts))).
(** sampling_locations(sample_locs) of all samplers: the whole domain, then an assertion
    that all points were found. *)
Definition sampling_locations (g : sgeom) (pts : list vec) : outcome (list (vec * nat)) :=
  let l := locs_in g (sg_domain g) pts in
  if (length l =? length pts)%nat then Ret l else Abort.

(** ** SamplingContainer.cpp:36-145 *)
Record particle : Type := Part { p_pos : vec; p_uid : nat; p_sid : nat; p_nid : nat }.
(** 93-95: points of the samplers before number [s]. *)
Definition uid_offset (smp : list (list vec)) (s : nat) : nat :=
  list_sum (map (@length vec) (firstn s smp)).
Definition box_particles (g : sgeom) (smp : list (list vec)) (b : box) : list particle :=
  flat_map (fun s => map (fun pi => Part (fst pi) (snd pi + uid_offset smp s) s (snd pi))
                         (locs_in g b (nth s smp [])))
           (seq 0 (length smp)).
Definition total_points (smp : list (list vec)) : nat := list_sum (map (@length vec) smp).
(** [boxes]: the tiles of level 0 over all ranks.  138-144: the assertion. *)
Definition initialize_particles (g : sgeom) (boxes : list box) (smp : list (list vec)) : outcome (list (list particle)) :=
  let ps := map (box_particles g smp) boxes in
  if (length (concat ps) =? total_points smp)%nat then Ret ps else Abort.

(** ** SamplingContainer.H:136-186: interpolation at one particle.  [off] is 1/2 in the
    directions in which the field lives at cell centres (209-244). *)
Inductive sloc : Type := SNode | SCell | SXface | SYface | SZface.
Definition soffset (l : sloc) (d : Z) : R :=
  match l with
  | SNode => 0 | SCell => 1/2
  | SXface => if (d =? 0)%Z then 0 else 1/2
  | SYface => if (d =? 1)%Z then 0 else 1/2
  | SZface => if (d =? 2)%Z then 0 else 1/2
  end.
Definition spos (g : sgeom) (l : sloc) (p : vec) (d : Z) : R :=
  (vcomp p d - vcomp (sg_lo g) d - soffset l d * sg_dx g d) * (1 / sg_dx g d).
Definition sample_field (g : sgeom) (l : sloc) (f : ivec -> R) (p : vec) : R :=
  let x := spos g l p 0 in
  let y := spos g l p 1 in
  let z := spos g l p 2 in
  let i := rfloor x in
  let j := rfloor y in
  let k := rfloor z in
  let wxh := x - IZR i in
  let wyh := y - IZR j in
  let wzh := z - IZR k in
  let wxl := 1 - wxh in
  let wyl := 1 - wyh in
  let wzl := 1 - wzh in
  wxl * wyl * wzl * f (IV i j k) +
  wxl * wyl * wzh * f (IV i j (k + 1)) +
  wxl * wyh * wzl * f (IV i (j + 1) k) +
  wxl * wyh * wzh * f (IV i (j + 1) (k + 1)) +
  wxh * wyl * wzl * f (IV (i + 1) j k) +
  wxh * wyl * wzh * f (IV (i + 1) j (k + 1)) +
  wxh * wyh * wzl * f (IV (i + 1) (j + 1) k) +
  wxh * wyh * wzh * f (IV (i + 1) (j + 1) (k + 1)).

(** ** SamplingContainer.cpp:167-197: [ranks] are the particles held by each rank,
    [val fid p] the sampled component. *)
Fixpoint set_nth (n : nat) (v : R) (l : list R) : list R :=
  match l, n with
  | [], _ => []
  | _ :: t, O => v :: t
  | h :: t, S n' => h :: set_nth n' v t
  end.
Definition rank_buffer (nvar total : nat) (val : nat -> particle -> R) (ps : list particle) : list R :=
  fold_left (fun buf fid =>
    fold_left (fun buf p => set_nth (fid * total + p_uid p) (val fid p) buf) ps buf)
    (seq 0 nvar) (repeat 0 (nvar * total)).
Fixpoint zip_add (a b : list R) : list R :=
  match a, b with x :: a', y :: b' => (x + y) :: zip_add a' b' | _, _ => [] end.
Definition populate_buffer (nvar total : nat) (val : nat -> particle -> R) (ranks : list (list particle)) : list R :=
  fold_right (fun ps acc => zip_add (rank_buffer nvar total val ps) acc) (repeat 0 (nvar * total)) ranks.

(** ** Sampling.cpp:312-335: output buffer of samplers without data modification. *)
Definition output_buffer (nvar total : nat) (npts : list nat) (buf : list R) : list R :=
  flat_map (fun iv =>
    snd (fold_left (fun st n => let '(off, out) := st in (off + n, out ++ firstn n (skipn off buf))%nat)
                   npts (iv * total, []))%nat)
    (seq 0 nvar).

(** ** The same clamp and cell index in binary64 (round to nearest even), as compiled:
    LineSampler.cpp:33-48, 79-86; index_operations.H:98-110.  The geometry's cell size and
    its inverse are computed as amrex::Geometry does. *)
Definition b64_add := SFadd 53 1024.
Definition b64_sub := SFsub 53 1024.
Definition b64_mul := SFmul 53 1024.
Definition b64_div := SFdiv 53 1024.
(** A nonnegative integer as a double (exact below 2^53). *)
Definition b64_of_Z (z : Z) : spec_float := binary_normalize 53 1024 z 0 false.
Definition b64_eps : spec_float := binary_normalize 53 1024 1 (-52) false.
Definition b64_tol : spec_float := b64_mul b64_eps (b64_of_Z 1000).
Definition b64_clamp1 (lo hi x : spec_float) : spec_float :=
  let x1 := if SFltb x (b64_add lo b64_tol) then b64_add lo (b64_mul (b64_of_Z 10) b64_tol) else x in
  if SFltb (b64_sub hi b64_tol) x1 then b64_sub hi (b64_mul (b64_of_Z 10) b64_tol) else x1.
Definition b64_floor (x : spec_float) : Z :=
  match x with
  | S754_finite s m e => Z.shiftl (if s then - Zpos m else Zpos m) e
  | _ => 0%Z
  end.
Definition b64_cell (lo hi : spec_float) (n : Z) (x : spec_float) : Z :=
  let dx := b64_div (b64_sub hi lo) (b64_of_Z n) in
  b64_floor (b64_mul (b64_sub x lo) (b64_div (b64_of_Z 1) dx)).
