(** The sampler on the air-water interface: utilities/sampling/FreeSurfaceSampler.{H,cpp}.

    Exact reals.  [fit_plane] is the reconstruction of Plic.v.  Conversions to int do not overflow,
    the largest number of points per cell is at least one.  The cells of a level include its ghost
    cells only through the volume fraction, which is a function on all indices. *)
From Verif Require Import BoxR Tagging Plic.
Local Open Scope R_scope.

(** constants.H:17-18, SamplerBase.H:63 *)
Definition bounds_tol : R := eps64 * 1000.
(** std::numeric_limits<float>::epsilon() *)
Definition eps32 : R := / 8388608.

(** One level: corner, cell size and upper corner of the domain, cells that no finer level covers
    (makeFineMask), volume fraction and overset flags; a mesh, or the part of it on one process, is
    a list of levels with their cells. *)
Record flevel : Type := FL {
  fl_lo : Z -> R; fl_dx : Z -> R; fl_hi : Z -> R; fl_open : ivec -> bool; fl_vof : fld; fl_iblank : ivec -> Z }.
Definition fmesh : Type := list (flevel * list ivec).

(** The sampler after the inputs were read; [fs_linear] is the input linear_interp_extent_from_xhi. *)
Record fsampler : Type := FS {
  fs_dir : Z; fs_start : Z -> R; fs_end : Z -> R; fs_n0 : Z; fs_n1 : Z; fs_ninst : nat; fs_ncmax : Z;
  fs_linear : option R; fs_overset : bool }.

(** FreeSurfaceSampler.cpp:41-63 *)
Definition gc0 (dir : Z) : Z := if (dir =? 0)%Z then 1%Z else 0%Z.
Definition gc1 (dir : Z) : Z := if (dir =? 2)%Z then 1%Z else 2%Z.
(** 346-370, one coordinate *)
Definition keep_in (lo hi x : R) : R :=
  let x1 := if Rltb x (lo + bounds_tol) then lo + 10 * bounds_tol else x in
  if Rltb (hi - bounds_tol) x1 then hi - 10 * bounds_tol else x1.
(** 26-63; the two ends of the plane have three coordinates, the numbers of points are two.  A pitch of
    zero for more than one point is divided by at 157-160 and 185-188. *)
Definition pitch (n : Z) (s e : R) : R := (e - s) / IZR (Z.max (n - 1) 1).
Definition fs_init (lo hi : Z -> R) (dir : Z) (start end_ : Z -> R) (n0 n1 : Z) (ninst : nat) (ncmax : Z)
    (linear : option R) (overset : bool) : outcome fsampler :=
  let s := fun d => keep_in (lo d) (hi d) (start d) in
  let e := fun d => keep_in (lo d) (hi d) (end_ d) in
  if negb ((0 <=? dir) && (dir <=? 2))%Z then Abort
  else if ((negb (n0 =? 1)%Z && (if Req_EM_T (pitch n0 (s (gc0 dir)) (e (gc0 dir))) 0 then true else false))
           || (negb (n1 =? 1)%Z && (if Req_EM_T (pitch n1 (s (gc1 dir)) (e (gc1 dir))) 0 then true else false)))%bool then UB
  else Ret (FS dir s e n0 n1 ninst ncmax linear overset).

(** 76-79 *)
Definition pitch0 (S : fsampler) : R := pitch (fs_n0 S) (fs_start S (gc0 (fs_dir S))) (fs_end S (gc0 (fs_dir S))).
Definition pitch1 (S : fsampler) : R := pitch (fs_n1 S) (fs_start S (gc1 (fs_dir S))) (fs_end S (gc1 (fs_dir S))).
(** 89-92 *)
Definition grid0 (S : fsampler) (n : Z) : R := fs_start S (gc0 (fs_dir S)) + pitch0 S * IZR n.
Definition grid1 (S : fsampler) (n : Z) : R := fs_start S (gc1 (fs_dir S)) + pitch1 S * IZR n.
(** 140-144 *)
Definition xm (L : flevel) (c : ivec) (d : Z) : R := fl_lo L d + (IZR (icomp c d) + 0.5) * fl_dx L d.

(** 149-176, and again 177-204, 265-290, 291-316, 795-820, 821-846: first sample index in the cell and the
    one after the last. *)
Definition span (phi x dx s dxs : R) (ntps : Z) : Z * Z :=
  if (ntps =? 1)%Z then
    (0%Z, if (Rltb (Rabs (phi - s)) eps64 || (Rleb (x - s) (0.5 * dx) && Rltb (s - x) (0.5 * dx)))%bool then 1%Z else 0%Z)
  else
    let f := rceil ((x - 0.5 * dx - s) / dxs) in
    let a := rceil ((x + 0.5 * dx - s) / dxs) in
    let a := if (Rltb (Rabs (x + 0.5 * dx - phi)) eps64 && Rltb (Rabs (s + IZR a * dxs - phi)) eps64)%bool then (a + 1)%Z else a in
    let a := Z.min ntps a in
    let f := Z.max (Z.min 0 a) f in
    if ((ntps <=? f) || (f <? 0))%Z then (f, f) else (f, a).
Definition span0 (S : fsampler) (L : flevel) (c : ivec) : Z * Z :=
  let g := gc0 (fs_dir S) in span (fl_hi L g) (xm L c g) (fl_dx L g) (fs_start S g) (pitch0 S) (fs_n0 S).
Definition span1 (S : fsampler) (L : flevel) (c : ivec) : Z * Z :=
  let g := gc1 (fs_dir S) in span (fl_hi L g) (xm L c g) (fl_dx L g) (fs_start S g) (pitch1 S) (fs_n1 S).

(** 106-216: the number of points kept per cell, found once, when the sampler is made. *)
Definition possible (S : fsampler) (L : flevel) (c : ivec) : Z :=
  let '(f0, a0) := span0 S L c in let '(f1, a1) := span1 S L c in ((a0 - f0) * (a1 - f1))%Z.
Definition ncomp (S : fsampler) (mesh : fmesh) : Z :=
  Z.min (fold_left (fun m (l : flevel * list ivec) =>
           fold_left (fun m c => Z.max m (if fl_open (fst l) c then possible S (fst l) c else 0%Z)) (snd l) m) mesh 0%Z)
        (fs_ncmax S).
(** 317-341 at the start, 847-871 after a regrid: index and place of the points of a cell. *)
Definition cell_points (S : fsampler) (nc : Z) (L : flevel) (c : ivec) : list (Z * R * R) :=
  if fl_open L c then
    let '(f0, a0) := span0 S L c in let '(f1, a1) := span1 S L c in
    firstn (Z.to_nat nc)
      (flat_map (fun n0 => map (fun n1 => ((n1 * fs_n0 S + n0)%Z, grid0 S n0, grid1 S n1)) (zrange f1 (a1 - 1))) (zrange f0 (a0 - 1)))
  else [].

(** ** The height in one cell *)

(** 513-532 *)
Definition tol : R := eps64 * 10000.
Definition phase_below (ni : nat) (v : R) : bool := if Nat.even ni then Rleb (1 - tol) v else Rleb v tol.
Definition mixed (v : R) : bool := (Rltb v (1 - tol) && Rltb tol v)%bool.
(** 484-485, 533-535 *)
Definition linear_here (S : fsampler) (L : flevel) (c : ivec) : bool :=
  ((fs_overset S && (fl_iblank L c =? -1)%Z)
   || match fs_linear S with Some lx => Rleb (fl_hi L 0%Z - lx) (xm L c 0) | None => false end)%bool.
(** 590-617 *)
Definition plane_height (S : fsampler) (L : flevel) (c : ivec) (m : v3) (al loc0 loc1 : R) : R :=
  let dir := fs_dir S in
  let mdr := if (dir =? 0)%Z then w0 m else if (dir =? 1)%Z then w1 m else w2 m in
  let mg1 := if (dir =? 0)%Z then w1 m else w0 m in
  let mg2 := if (dir =? 2)%Z then w1 m else w2 m in
  if Req_EM_T mdr 0 then xm L c dir
  else (xm L c dir - 0.5 * fl_dx L dir)
       + (al - mg1 * (1 / fl_dx L (gc0 dir)) * (loc0 - (xm L c (gc0 dir) - 0.5 * fl_dx L (gc0 dir)))
             - mg2 * (1 / fl_dx L (gc1 dir)) * (loc1 - (xm L c (gc1 dir) - 0.5 * fl_dx L (gc1 dir))))
         / (mdr * (1 / fl_dx L dir)).
(** The volume fraction of the neighbours *)
Definition shift (c : ivec) (d s : Z) : ivec :=
  IV (iv0 c + if (d =? 0)%Z then s else 0%Z) (iv1 c + if (d =? 1)%Z then s else 0%Z) (iv2 c + if (d =? 2)%Z then s else 0%Z).
Definition dv_r (L : flevel) (c : ivec) (d : Z) : R := fl_vof L (shift c d 1) - fl_vof L c.
Definition dv_l (L : flevel) (c : ivec) (d : Z) : R := fl_vof L c - fl_vof L (shift c d (-1)).
(** 568-585 *)
Definition half_crossed (L : flevel) (c : ivec) (dir : Z) : bool :=
  (Rleb ((fl_vof L (shift c dir 1) - 0.5) * (fl_vof L c - 0.5)) 0
   || Rleb ((fl_vof L c - 0.5) * (fl_vof L (shift c dir (-1)) - 0.5)) 0)%bool.
(** 618-684 *)
Definition linear_height (S : fsampler) (L : flevel) (c : ivec) (loc0 loc1 : R) : R :=
  let dir := fs_dir S in
  let dist_0 := loc0 - xm L c (gc0 dir) in
  let dist_1 := loc1 - xm L c (gc1 dir) in
  let slope_r := dv_r L c dir * (1 / fl_dx L dir) in
  let slope_l := dv_l L c dir * (1 / fl_dx L dir) in
  let slope_0 := (if Rltb 0 dist_0 then dv_r L c (gc0 dir) else dv_l L c (gc0 dir)) * (1 / fl_dx L (gc0 dir)) in
  let slope_1 := (if Rltb 0 dist_1 then dv_r L c (gc1 dir) else dv_l L c (gc1 dir)) * (1 / fl_dx L (gc1 dir)) in
  let vof_c := fl_vof L c + slope_0 * dist_0 + slope_1 * dist_1 in
  let vof_r := vof_c + 0.6 * slope_r * fl_dx L dir in
  let vof_l := vof_c - 0.6 * slope_l * fl_dx L dir in
  if Rleb ((vof_c - 0.5) * (vof_r - 0.5)) 0 then xm L c dir + (0.5 - vof_c) / (slope_r + eps64)
  else if Rleb ((vof_c - 0.5) * (vof_l - 0.5)) 0 then xm L c dir + (0.5 - vof_c) / (slope_l + eps64)
  else fl_lo L dir.
(** 686-700 *)
Definition limited (L : flevel) (c : ivec) (dir : Z) (ht : R) : R :=
  let ht := if Rltb ht (xm L c dir - 0.5 * fl_dx L dir) then fl_lo L dir else ht in
  if Rltb (xm L c dir + 0.5 * fl_dx L dir * (1 + eps32)) ht then xm L c dir + 0.5 * fl_dx L dir else ht.
(** 494-703: what a cell that is below the previous instance contributes at a point *)
Definition found (S : fsampler) (ni : nat) (L : flevel) (c : ivec) (loc0 loc1 : R) : option R :=
  let dir := fs_dir S in
  let v := fl_vof L c in
  let one d := if (dir =? d)%Z then 1 else 0 in
  let unit_m := if Nat.even ni then W3 (one 0%Z) (one 1%Z) (one 2%Z) else W3 (- one 0%Z) (- one 1%Z) (- one 2%Z) in
  if phase_below ni v then
    Some (limited L c dir (plane_height S L c unit_m (if Nat.even ni then 1 else -1) loc0 loc1))
  else if mixed v then
    if linear_here S L c then Some (limited L c dir (linear_height S L c loc0 loc1))
    else let '(m, al) := fit_plane (fl_vof L) (iv0 c) (iv1 c) (iv2 c) in
         Some (limited L c dir (plane_height S L c m al loc0 loc1))
  else if linear_here S L c then
    if half_crossed L c dir then Some (limited L c dir (linear_height S L c loc0 loc1)) else None
  else None.

(** ** All cells *)

(** 486-705 for the points of one cell: atomic maximum *)
Definition cell_max (S : fsampler) (nc : Z) (ni : nat) (last : Z -> R) (idx : Z) (L : flevel) (acc : R) (c : ivec) : R :=
  fold_left (fun acc (p : Z * R * R) =>
    let '(n, loc0, loc1) := p in
    if (n =? idx)%Z then
      if Rltb (xm L c (fs_dir S) + 0.5 * fl_dx L (fs_dir S)) (last idx) then
        match found S ni L c loc0 loc1 with Some h => rmax acc h | None => acc end
      else acc
    else acc) (cell_points S nc L c) acc.
(** 455-708: one process and one instance, from the bottom of the domain *)
Definition search (S : fsampler) (nc : Z) (plo : R) (ni : nat) (last : Z -> R) (mesh : fmesh) (idx : Z) : R :=
  fold_left (fun acc (l : flevel * list ivec) => fold_left (cell_max S nc ni last idx (fst l)) (snd l) acc) mesh plo.
(** 710-717: the largest over the processes *)
Definition reduced (S : fsampler) (nc : Z) (plo : R) (ni : nat) (last : Z -> R) (ranks : list fmesh) (idx : Z) : R :=
  match ranks with
  | [] => plo
  | r :: rs => fold_left (fun acc m => rmax acc (search S nc plo ni last m idx)) rs (search S nc plo ni last r idx)
  end.
(** 454, 718-726 *)
Fixpoint instances (S : fsampler) (nc : Z) (plo : R) (ranks : list fmesh) (k ni : nat) (last : Z -> R) : list (Z -> R) :=
  match k with
  | O => []
  | Datatypes.S k => let out := reduced S nc plo ni last ranks in out :: instances S nc plo ranks k (Datatypes.S ni) out
  end.
(** 419-431, 710-713: instance after instance in one array *)
Definition heights (S : fsampler) (nc : Z) (plo phi : R) (ranks : list fmesh) : list (Z -> R) :=
  instances S nc plo ranks (fs_ninst S) 0 (fun _ => phi + 1).
Definition npts (S : fsampler) : Z := (fs_n0 S * fs_n1 S)%Z.
Definition out_array (S : fsampler) (hs : list (Z -> R)) (p : Z) : R :=
  nth (Z.to_nat (p / npts S)) hs (fun _ => 0) (p mod npts S)%Z.
(** 395-412: the place of a sample *)
Definition location (S : fsampler) (hs : list (Z -> R)) (idx : Z) (ni : nat) (d : Z) : R :=
  if (d =? fs_dir S)%Z then out_array S hs (idx * Z.of_nat (fs_ninst S) + Z.of_nat ni)%Z
  else if (d =? gc0 (fs_dir S))%Z then grid0 S (idx mod fs_n0 S)%Z
  else grid1 S (idx / fs_n0 S)%Z.
(** index_operations.H:98-110 with the box of the domain; 379-388 *)
Definition in_domain (lo dx : Z -> R) (n : Z -> Z) (p : Z -> R) : bool :=
  let ok d := let i := rfloor ((p d - lo d) * (1 / dx d)) in ((0 <=? i) && (i <? n d))%Z in
  (ok 0%Z && ok 1%Z && ok 2%Z)%bool.
Definition sampling_locations (S : fsampler) (hs : list (Z -> R)) (lo dx : Z -> R) (n : Z -> Z) : outcome (list (Z -> R)) :=
  let all := flat_map (fun idx => map (fun ni => location S hs idx ni) (seq 0 (fs_ninst S))) (zrange 0 (npts S - 1)) in
  let kept := filter (in_domain lo dx n) all in
  if (Z.of_nat (length kept) =? npts S * Z.of_nat (fs_ninst S))%Z then Ret kept else Abort.
