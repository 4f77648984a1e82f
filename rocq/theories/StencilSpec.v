(** What a user means by "the operator is exact": a small vocabulary that does not
    mention stencils.  A level is a regular grid over a box of physical space; a
    cell holds the value of a function at its centre, and the ghost cell behind a
    non-periodic side of the domain holds the value on that side (the convention
    of all boundary conditions of the code). *)
From Coq Require Import Reals ZArith.
From Coquelicot Require Import Coquelicot.
From Verif Require Import BoxR.
Local Open Scope R_scope.

Record grid : Type := Grid
  { dom : box;          (** index box of the level's domain *)
    per : Z -> bool;    (** periodic in direction d? *)
    plo : Z -> R;       (** physical coordinate of the lower side *)
    dx  : Z -> R }.     (** cell size *)

Definition axes (d : Z) : Prop := (d = 0 \/ d = 1 \/ d = 2)%Z.

(** A usable grid: positive cell sizes, and at least two cells between two
    opposite non-periodic sides. *)
Definition usable (G : grid) : Prop :=
  forall d, axes d ->
    0 < dx G d /\
    (icomp (blo (dom G)) d <= icomp (bhi (dom G)) d)%Z /\
    (per G d = false -> (icomp (blo (dom G)) d < icomp (bhi (dom G)) d)%Z).

(** Where along axis d the value stored at index i lives. *)
Definition centre (G : grid) (d i : Z) : R :=
  plo G d + (IZR (i - icomp (blo (dom G)) d) + 1/2) * dx G d.
Definition site (G : grid) (d i : Z) : R :=
  if per G d then centre G d i
  else if (i <? icomp (blo (dom G)) d)%Z then plo G d
  else if (icomp (bhi (dom G)) d <? i)%Z
       then plo G d + IZR (icomp (bhi (dom G)) d - icomp (blo (dom G)) d + 1) * dx G d
  else centre G d i.

(** One layer of ghost cells around the domain. *)
Definition in_grown (G : grid) (c : ivec) : Prop :=
  forall d, axes d ->
    (icomp (blo (dom G)) d - 1 <= icomp c d <= icomp (bhi (dom G)) d + 1)%Z.

(** [phi] carries the functions [f 0], [f 1], ... in its components. *)
Definition carries (G : grid) (phi : ivec -> Z -> R) (f : Z -> R -> R -> R -> R) : Prop :=
  forall c n, in_grown G c ->
    phi c n = f n (site G 0 (iv0 c)) (site G 1 (iv1 c)) (site G 2 (iv2 c)).

(** The tiles a level is swept in: not empty and inside the domain.  They may overlap and come
    in any order; [c] is computed if some tile has it. *)
Definition tiling (G : grid) (tiles : list box) : Prop :=
  forall t, In t tiles ->
    forall d, axes d -> (icomp (blo (dom G)) d <= icomp (blo t) d /\
                         icomp (blo t) d <= icomp (bhi t) d /\
                         icomp (bhi t) d <= icomp (bhi (dom G)) d)%Z.
Definition covered (tiles : list box) (c : ivec) : Prop :=
  exists t, In t tiles /\ in_box t c.

(** Polynomials of degree at most two, and at most one. *)
Definition quadratic (f : R -> R -> R -> R) : Prop :=
  exists a b0 b1 b2 q00 q11 q22 q01 q02 q12, forall x y z,
    f x y z = a + b0 * x + b1 * y + b2 * z + q00 * x * x + q11 * y * y + q22 * z * z
              + q01 * x * y + q02 * x * z + q12 * y * z.
Definition affine (f : R -> R -> R -> R) : Prop :=
  exists a b0 b1 b2, forall x y z, f x y z = a + b0 * x + b1 * y + b2 * z.

(** Partial derivatives. *)
Definition restrict (f : R -> R -> R -> R) (d : Z) (x y z t : R) : R :=
  if (d =? 0)%Z then f t y z else if (d =? 1)%Z then f x t z else f x y t.
Definition coord (d : Z) (x y z : R) : R :=
  if (d =? 0)%Z then x else if (d =? 1)%Z then y else z.
Definition partial (f : R -> R -> R -> R) (d : Z) (x y z l : R) : Prop :=
  is_derive (restrict f d x y z) (coord d x y z) l.
(** The partial derivative as a function, and second partial derivatives. *)
Definition D (f : R -> R -> R -> R) (d : Z) : R -> R -> R -> R :=
  fun x y z => Derive (restrict f d x y z) (coord d x y z).
Definition D2 (f : R -> R -> R -> R) (d e : Z) : R -> R -> R -> R := D (D f d) e.

(** Velocity gradient [J i j], derivative of component i along axis j; its
    symmetric and antisymmetric parts; sums over the axes. *)
Definition sum3 (F : Z -> R) : R := F 0%Z + F 1%Z + F 2%Z.
Definition jac (f : Z -> R -> R -> R -> R) (x y z : R) (i j : Z) : R := D (f i) j x y z.
Definition strain (J : Z -> Z -> R) (i j : Z) : R := (J i j + J j i) / 2.
Definition spin (J : Z -> Z -> R) (i j : Z) : R := (J i j - J j i) / 2.
Definition dot (A B : Z -> Z -> R) (i j : Z) : R := sum3 (fun k => A i k * B k j).
Definition square_norm (A : Z -> Z -> R) : R := sum3 (fun i => sum3 (fun j => A i j * A i j)).

(** Unit normal to the level sets of a function. *)
Definition grad_norm (f : R -> R -> R -> R) (x y z : R) : R :=
  sqrt (sum3 (fun d => D f d x y z * D f d x y z)).
Definition unit_normal (f : R -> R -> R -> R) (d : Z) : R -> R -> R -> R :=
  fun x y z => D f d x y z / grad_norm f x y z.
