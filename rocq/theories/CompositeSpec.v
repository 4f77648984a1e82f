(** Specification vocabulary for integrals over a refined mesh. *)
From Coq Require Import Reals ZArith List Bool.
From Verif Require Import Base BoxR Composite.
Import ListNotations.
Open Scope R_scope.

(** The cells of the next finer level that make up the cells of a box. *)
Definition refine_box (r : ivec) (b : box) : box :=
  Box (IV (iv0 (blo b) * iv0 r) (iv1 (blo b) * iv1 r) (iv2 (blo b) * iv2 r))
      (IV ((iv0 (bhi b) + 1) * iv0 r - 1) ((iv1 (bhi b) + 1) * iv1 r - 1)
          ((iv2 (bhi b) + 1) * iv2 r - 1)).

(** A box of the finer level consists of whole cells of the coarser one. *)
Definition aligned (r : ivec) (b : box) : Prop :=
  forall c x : ivec, in_box b x -> icoarsen r c = icoarsen r x -> in_box b c.

(** A mesh a run can have: the boxes of a level do not overlap, the coarsest level covers the
    domain, every finer level consists of whole cells of the level below that belong to
    that level's boxes. *)
Definition positive (r : ivec) : Prop := (0 < iv0 r /\ 0 < iv1 r /\ 0 < iv2 r)%Z.
Definition in_level (l : glevel) (c : ivec) : Prop := exists b, In b (g_boxes l) /\ in_box b c.
Definition no_overlap (l : glevel) : Prop := NoDup (lcells l).
Definition finer_ok (l f : glevel) : Prop :=
  positive (g_ratio l) /\
  g_dom f = refine_box (g_ratio l) (g_dom l) /\
  (forall b, In b (g_boxes f) -> in_box b (blo b) /\ aligned (g_ratio l) b) /\
  (forall c, in_level f c -> in_level l (icoarsen (g_ratio l) c)).
Fixpoint chain (ls : list glevel) : Prop :=
  match ls with
  | [] => True
  | l :: rest =>
      no_overlap l /\ match rest with [] => True | f :: _ => finer_ok l f end /\ chain rest
  end.
Definition mesh_ok (ls : list glevel) : Prop :=
  match ls with
  | [] => False
  | l :: _ => (0 < ncells (g_dom l) 0 /\ 0 < ncells (g_dom l) 1 /\ 0 < ncells (g_dom l) 2)%Z /\
              (forall c, in_level l c <-> in_box (g_dom l) c) /\ chain ls
  end.

(** The value a user sees at a cell of the finest resolution: that of the finest level that has
    data there.  The levels are given finest first. *)
Fixpoint finest_value (f : nat -> ivec -> R) (rev_levels : list glevel) (x : ivec) : R :=
  match rev_levels with
  | [] => 0
  | l :: coarser =>
      if existsb (fun b => inb b x) (g_boxes l) then f (length coarser) x
      else match coarser with
           | [] => 0
           | l' :: _ => finest_value f coarser (icoarsen (g_ratio l') x)
           end
  end.

(** Integral of that value over the domain. *)
Definition finest_integral (len : Z -> R) (f : nat -> ivec -> R) (ls : list glevel) : R :=
  match rev ls with
  | [] => 0
  | l :: _ => cell_vol len l * rsum (map (finest_value f (rev ls)) (cells (g_dom l)))
  end.
