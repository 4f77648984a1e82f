(** Integrals, norms and extrema over a refined mesh: KineticEnergy.cpp, Enstrophy.cpp,
    WaveEnergy.cpp, FieldNorms.cpp and diagnostics.cpp (all in
    /repo/amr-wind/utilities).  Numbers are exact reals.

    Simplifications: amrex::ReduceSum / ReduceMax followed by
    ParallelDescriptor::ReduceRealSum / ReduceRealMax are one sum / maximum over the
    boxes (or tiles) of a level, since the order of exact additions does not matter; the file
    output is not modelled; the ghost cell above the top cell read by the potential energy is
    part of the field. *)
From Coq Require Import Reals Lra ZArith List Bool Lia.
From Verif Require Import Base BoxR BoxRFacts.
Import ListNotations.
Open Scope R_scope.

(** One level of the mesh as amrex::AmrMesh gives it: index domain, boxes and the refinement
    ratio to the next finer level (boxArray(lev), Geom(lev).Domain(), refRatio(lev)). *)
Record glevel : Type := GL { g_dom : box; g_boxes : list box; g_ratio : ivec }.

(** amrex::coarsen of an index vector and of a box: division rounding down. *)
Definition icoarsen (r c : ivec) : ivec := IV (iv0 c / iv0 r) (iv1 c / iv1 r) (iv2 c / iv2 r).
Definition bcoarsen (r : ivec) (b : box) : box := Box (icoarsen r (blo b)) (icoarsen r (bhi b)).

(** amrex::Box::contains *)
Definition inb (b : box) (c : ivec) : bool :=
  ((iv0 (blo b) <=? iv0 c) && (iv0 c <=? iv0 (bhi b)) &&
   ((iv1 (blo b) <=? iv1 c) && (iv1 c <=? iv1 (bhi b))) &&
   ((iv2 (blo b) <=? iv2 c) && (iv2 c <=? iv2 (bhi b))))%Z.

(** All valid cells of a level, box after box. *)
Definition lcells (l : glevel) : list ivec := flat_map cells (g_boxes l).

(** makeFineMask(boxArray(lev), ..., boxArray(lev+1), refRatio(lev), 1, 0): zero on the
    cells covered by the coarsened boxes of the next level (KineticEnergy.cpp:43-48); one
    everywhere on the finest level (KineticEnergy.cpp:49-54). *)
Definition level_mask (l : glevel) (finer : list glevel) (c : ivec) : Z :=
  match finer with
  | [] => 1%Z
  | f :: _ => if existsb (fun b => inb (bcoarsen (g_ratio l) b) c) (g_boxes f) then 0%Z else 1%Z
  end.

(** geom[lev].CellSize(): the lengths of the problem domain over the number of cells of the
    index domain of the level. *)
Definition ncells (b : box) (d : Z) : Z := (icomp (bhi b) d - icomp (blo b) d + 1)%Z.
Definition cell_size (len : Z -> R) (l : glevel) (d : Z) : R := len d / IZR (ncells (g_dom l) d).
(** KineticEnergy.cpp:56-58 *)
Definition cell_vol (len : Z -> R) (l : glevel) : R :=
  cell_size len l 0 * cell_size len l 1 * cell_size len l 2.

(** The loop over the levels with a masked sum on each of them (KineticEnergy.cpp:41-78,
    Enstrophy.cpp:44-79, WaveEnergy.cpp:60-98 and :117-160, FieldNorms.cpp:76-152): [f lev c] is the integrand, [use_mask] is m_use_mask of FieldNorms. *)
Fixpoint level_sums (use_mask : bool) (len : Z -> R) (f : nat -> ivec -> R) (lev : nat)
    (ls : list glevel) : R :=
  match ls with
  | [] => 0
  | l :: finer =>
      rsum (map (fun c => cell_vol len l *
                          IZR (if use_mask then level_mask l finer c else 1%Z) * f lev c)
                (lcells l))
      + level_sums use_mask len f (S lev) finer
  end.

(** geom[0].ProbDomain().volume() *)
Definition prob_volume (len : Z -> R) : R := len 0%Z * len 1%Z * len 2%Z.

(** KineticEnergy.cpp:31-88 *)
Definition kinetic_energy (len : Z -> R) (ls : list glevel) (rho : nat -> ivec -> R)
    (u v w : nat -> ivec -> R) : R :=
  level_sums true len
    (fun lev c => rho lev c * (u lev c * u lev c + v lev c * v lev c + w lev c * w lev c)) 0 ls
  * ((1/2) / prob_volume len).

(** Enstrophy.cpp:32-89, on the vorticity magnitude *)
Definition enstrophy (len : Z -> R) (ls : list glevel) (rho vort : nat -> ivec -> R) : R :=
  level_sums true len (fun lev c => rho lev c * (vort lev c * vort lev c)) 0 ls
  * ((1/2) / prob_volume len).

(** WaveEnergy.cpp:24-48: the scale and the offset from the water level *)
Definition wave_depth (w_lev zlo : R) : R := w_lev - zlo.
Definition wave_escl (len : Z -> R) (w_lev zlo : R) : R := len 0%Z * len 1%Z * wave_depth w_lev zlo.
Definition wave_pe_off (gz w_lev zlo : R) : R := - (1/2) * gz * wave_depth w_lev zlo.

(** WaveEnergy.cpp:50-103 *)
Definition wave_ke (len : Z -> R) (ls : list glevel) (vof u v w : nat -> ivec -> R) : R :=
  level_sums true len
    (fun lev c => (1/2) * vof lev c *
                  (u lev c * u lev c + v lev c * v lev c + w lev c * w lev c)) 0 ls.

(** WaveEnergy.cpp:148-154: height of the liquid of a cell *)
Definition liquid_z (zlo dz : R) (vof : ivec -> R) (c : ivec) : R :=
  let up := IV (iv0 c) (iv1 c) (iv2 c + 1) in
  let kk := if Rltb (vof c) (vof up) then (iv2 c + 1)%Z else iv2 c in
  let dir := if Rltb (vof c) (vof up) then -1 else 1 in
  zlo + (IZR kk + dir * (1/2) * vof c) * dz.

(** WaveEnergy.cpp:105-165 *)
Definition nth_level (ls : list glevel) (lev : nat) : glevel :=
  nth lev ls (GL (Box (IV 0 0 0) (IV 0 0 0)) [] (IV 1 1 1)).
Definition wave_pe (len : Z -> R) (zlo gz : R) (ls : list glevel) (vof : nat -> ivec -> R) : R :=
  level_sums true len
    (fun lev c => vof lev c * (- gz) *
                  liquid_z zlo (cell_size len (nth_level ls lev) 2) (vof lev) c) 0 ls.

(** WaveEnergy.cpp:167-176 *)
Definition wave_outputs (len : Z -> R) (zlo gz w_lev : R) (ls : list glevel)
    (vof u v w : nat -> ivec -> R) : R * R :=
  (wave_ke len ls vof u v w / wave_escl len w_lev zlo,
   wave_pe len zlo gz ls vof / wave_escl len w_lev zlo + wave_pe_off gz w_lev zlo).

(** FieldNorms.cpp:140-147: absolute value of the first component, then the magnitude is
    accumulated component by component. *)
Fixpoint magnitude (acc : R) (rest : list R) : R :=
  match rest with
  | [] => acc
  | x :: rest' => magnitude (sqrt (acc * acc + x * x)) rest'
  end.
Definition norm_value (comps : list R) : R :=
  match comps with [] => 0 | x :: rest => magnitude (Rabs x) rest end.

(** FieldNorms.cpp:76-152 and :184-190 for cell-centred fields; [comps lev c] are the
    components taken into account (one, or all with use_vector_magnitude). *)
Definition cell_norm (p : Z) (use_mask : bool) (len : Z -> R) (ls : list glevel)
    (comps : nat -> ivec -> list R) : R :=
  let s := level_sums use_mask len
             (fun lev c => let v := norm_value (comps lev c) in
                           v * (if (p =? 2)%Z then v else 1)) 0 ls / prob_volume len in
  if (p =? 2)%Z then sqrt s else s.

(** FieldNorms.cpp:81-87 and :119-139, :149: points of one box (or tile) of cells for a field with
    index type [ty] (true: nodal in that direction), their weights and the cell whose mask is
    read. *)
Definition point_box (ty : Z -> bool) (b : box) : box :=
  Box (blo b) (IV (iv0 (bhi b) + (if ty 0%Z then 1 else 0))
                  (iv1 (bhi b) + (if ty 1%Z then 1 else 0))
                  (iv2 (bhi b) + (if ty 2%Z then 1 else 0))).
Definition end_weight (ty : Z -> bool) (fb : box) (d : Z) (c : ivec) : R :=
  if ty d && ((icomp c d =? icomp (bhi fb) d)%Z || (icomp c d =? icomp (blo fb) d)%Z)
  then 1/2 else 1.
Definition point_weight (ty : Z -> bool) (fb : box) (c : ivec) : R :=
  end_weight ty fb 0 c * end_weight ty fb 1 c * end_weight ty fb 2 c.
Definition clampz (lo hi x : Z) : Z := Z.min hi (Z.max lo x).
Definition mask_cell (b : box) (c : ivec) : ivec :=
  IV (clampz (iv0 (blo b)) (iv0 (bhi b)) (iv0 c))
     (clampz (iv1 (blo b)) (iv1 (bhi b)) (iv1 c))
     (clampz (iv2 (blo b)) (iv2 (bhi b)) (iv2 c)).
Definition point_sum (vol : R) (mask : ivec -> Z) (ty : Z -> bool) (f : ivec -> R) (b : box) : R :=
  let fb := point_box ty b in
  rsum (map (fun c => vol * point_weight ty fb c * f c * IZR (mask (mask_cell b c))) (cells fb)).
Fixpoint point_sums (use_mask : bool) (len : Z -> R) (ty : Z -> bool) (f : nat -> ivec -> R)
    (lev : nat) (ls : list glevel) : R :=
  match ls with
  | [] => 0
  | l :: finer =>
      rsum (map (point_sum (cell_vol len l)
                   (fun c => if use_mask then level_mask l finer c else 1%Z) ty (f lev))
                (g_boxes l))
      + point_sums use_mask len ty f (S lev) finer
  end.
Definition point_norm (p : Z) (use_mask : bool) (len : Z -> R) (ty : Z -> bool) (ls : list glevel)
    (comps : nat -> ivec -> list R) : R :=
  let s := point_sums use_mask len ty
             (fun lev c => let v := norm_value (comps lev c) in
                           v * (if (p =? 2)%Z then v else 1)) 0 ls / prob_volume len in
  if (p =? 2)%Z then sqrt s else s.

(** FieldNorms.cpp:153-181, :191-193: maximum over the points of the field, with the mask read at the
    index of the point itself.  The mask is a cell-centred array without ghost cells: reading it
    outside the box of cells is undefined behaviour. *)
Definition tight_tol : R := / 2 ^ 52 * 1000.
Fixpoint max_over (b : box) (mask : ivec -> Z) (f : ivec -> R) (acc : R) (l : list ivec)
    : outcome R :=
  match l with
  | [] => Ret acc
  | c :: l' =>
      if inb b c then
        max_over b mask f
          (if Rltb (Rabs (IZR (mask c) - 1)) tight_tol then rmax acc (f c) else acc) l'
      else UB
  end.
Fixpoint max_boxes (mask : ivec -> Z) (ty : Z -> bool) (f : ivec -> R) (acc : R) (bs : list box)
    : outcome R :=
  match bs with
  | [] => Ret acc
  | b :: bs' =>
      obind (max_over b mask f 0 (cells (point_box ty b)))
            (fun m => max_boxes mask ty f (rmax m acc) bs')
  end.
Fixpoint max_levels (use_mask : bool) (ty : Z -> bool) (f : nat -> ivec -> R) (acc : R) (lev : nat)
    (ls : list glevel) : outcome R :=
  match ls with
  | [] => Ret acc
  | l :: finer =>
      obind (max_boxes (fun c => if use_mask then level_mask l finer c else 1%Z) ty (f lev) 0
               (g_boxes l))
            (fun m => max_levels use_mask ty f (rmax m acc) (S lev) finer)
  end.
Definition max_norm (use_mask : bool) (ty : Z -> bool) (ls : list glevel)
    (comps : nat -> ivec -> list R) : outcome R :=
  max_levels use_mask ty (fun lev c => norm_value (comps lev c)) 0 0 ls.

(** constants.H:24-30: LARGE_NUM is the largest double times 1e-10, LOW_NUM its negative. *)
Definition large_num : R := (2 - / 2 ^ 52) * 2 ^ 1023 / 10 ^ 10.

(** diagnostics.cpp:8-24: zero where the mask has the wanted value, [set_val] elsewhere. *)
Definition mask_addend (mask_val set_val m : R) : R :=
  if Rltb (Rabs (m - mask_val)) tight_tol then 0 else set_val.

(** diagnostics.cpp:26-51: extrema over all levels, covered cells included.  A level without
    cells does not occur. *)
Definition fold_max (init : R) (l : list R) : R := fold_left rmax l init.
Definition fold_min (init : R) (l : list R) : R := fold_left rmin l init.
Definition field_extrema (vals : list R) : R * R :=
  (fold_max (- large_num) vals, fold_min large_num vals).

(** diagnostics.cpp:53-103: masked extrema and whether the mask value occurs; the list holds
    the mask and the value of every point of every level. *)
Definition masked_extrema (mask_val : R) (pts : list (R * R)) : R * R * bool :=
  (fold_max (- large_num) (map (fun p => mask_addend mask_val (- large_num) (fst p) + snd p) pts),
   fold_min large_num (map (fun p => mask_addend mask_val large_num (fst p) + snd p) pts),
   Rltb (fold_min large_num (map (fun p => mask_addend mask_val large_num (fst p)) pts))
        tight_tol).

(** diagnostics.cpp:105-142: largest [factor] times the velocity over the cells that are not
    covered; smallest velocity as the negated maximum of the negated values. *)
Definition lowest : R := - ((2 - / 2 ^ 52) * 2 ^ 1023).
Definition vel_max_level (factor : R) (mask : ivec -> Z) (vel : ivec -> R) (cs : list ivec) : R :=
  fold_max (- 10 ^ 8)
    (map (fun c => if (0 <? mask c)%Z then factor * vel c else lowest) cs).
Fixpoint vel_max (factor : R) (vel : nat -> ivec -> R) (acc : R) (lev : nat) (ls : list glevel) : R :=
  match ls with
  | [] => acc
  | l :: finer =>
      vel_max factor vel
        (rmax acc (vel_max_level factor (level_mask l finer) (vel lev) (lcells l))) (S lev) finer
  end.

(** diagnostics.cpp:144-173 and the loop over levels at :320-369: per direction the largest
    coordinate among the cells whose velocity is within eps * 1e6 of the extremum. *)
Definition loc_tol : R := / 2 ^ 52 * 10 ^ 6.
Definition loc_level (problo dx : R) (ldir : Z) (ext : R) (mask : ivec -> Z) (vel : ivec -> R)
    (cs : list ivec) : R :=
  fold_max problo
    (map (fun c => if (0 <? mask c)%Z && Rltb (Rabs (ext - vel c)) loc_tol
                   then problo + (IZR (icomp c ldir) + 1/2) * dx else problo) cs).
Fixpoint vel_loc (problo : Z -> R) (len : Z -> R) (ldir : Z) (ext : R) (vel : nat -> ivec -> R)
    (acc : R) (lev : nat) (ls : list glevel) : R :=
  match ls with
  | [] => acc
  | l :: finer =>
      vel_loc problo len ldir ext vel
        (rmax acc (loc_level (problo ldir) (cell_size len l ldir) ldir ext (level_mask l finer)
                     (vel lev) (lcells l))) (S lev) finer
  end.

(** diagnostics.cpp:253-379: the maximum and minimum of a component and the
    printed locations. *)
Definition max_and_loc (problo len : Z -> R) (ls : list glevel) (vel : nat -> ivec -> R)
    : R * (R * R * R) * (R * (R * R * R)) :=
  let mx := vel_max 1 vel (- 10 ^ 8) 0 ls in
  let mn := - vel_max (-1) vel (- 10 ^ 8) 0 ls in
  let loc e := (vel_loc problo len 0 e vel (problo 0%Z) 0 ls,
                vel_loc problo len 1 e vel (problo 1%Z) 0 ls,
                vel_loc problo len 2 e vel (problo 2%Z) 0 ls) in
  ((mx, loc mx), (mn, loc mn)).
