(** Shared vocabulary of the real-valued parts of the model: comparisons and
    rounding on exact reals, index vectors, index boxes and sums.  It models the
    small part of AMReX (amrex::IntVect, amrex::Box, amrex::min/max) that the
    code in /repo calls; AMReX itself is not part of /repo. *)
From Verif Require Export Base.
From Coq Require Export Reals Lra ZArith List Bool Lia.
Export ListNotations.
Open Scope R_scope.

(** C++ [x < y], [x <= y] on reals (no NaN in the model). *)
Definition Rltb (x y : R) : bool := if Rlt_dec x y then true else false.
Definition Rleb (x y : R) : bool := if Rle_dec x y then true else false.

(** [amrex::min]/[amrex::max] (std::min, std::max). *)
Definition rmin (a b : R) : R := if Rltb b a then b else a.
Definition rmax (a b : R) : R := if Rltb a b then b else a.

(** [std::floor] followed by a conversion to [int]; the conversion of a value
    outside the range of a 32-bit [int] is undefined behaviour. *)
Definition int_ok (z : Z) : bool := ((-2147483648 <=? z) && (z <=? 2147483647))%Z.
Definition to_int (z : Z) : outcome Z := if int_ok z then Ret z else UB.
Definition rfloor (x : R) : Z := Int_part x.

(** amrex::IntVect in three dimensions; [dir] is an axis 0, 1 or 2 (any other
    value selects the last component, as DirectionSelector.H:104-108 does). *)
Record ivec : Type := IV { iv0 : Z; iv1 : Z; iv2 : Z }.
Definition icomp (v : ivec) (d : Z) : Z :=
  if (d =? 0)%Z then iv0 v else if (d =? 1)%Z then iv1 v else iv2 v.

(** amrex::Box: cells between two corners, both included. *)
Record box : Type := Box { blo : ivec; bhi : ivec }.
Definition in_box (b : box) (c : ivec) : Prop :=
  (iv0 (blo b) <= iv0 c <= iv0 (bhi b) /\
   iv1 (blo b) <= iv1 c <= iv1 (bhi b) /\
   iv2 (blo b) <= iv2 c <= iv2 (bhi b))%Z.

(** [for (int i = lo; i <= hi; ++i)] *)
Definition zrange (lo hi : Z) : list Z :=
  map (fun n => lo + Z.of_nat n)%Z (seq 0 (Z.to_nat (hi - lo + 1))).

(** The cells of a box in the order of AMReX loops: k outermost, i innermost. *)
Definition cells (b : box) : list ivec :=
  flat_map (fun k =>
    flat_map (fun j =>
      map (fun i => IV i j k) (zrange (iv0 (blo b)) (iv0 (bhi b))))
    (zrange (iv1 (blo b)) (iv1 (bhi b))))
  (zrange (iv2 (blo b)) (iv2 (bhi b))).

Definition rsum (l : list R) : R := fold_right Rplus 0 l.
