(** Vocabulary for the volume-fraction theorems, without reference to the
    advection code. *)
From Verif Require Import BoxR.
Open Scope R_scope.

(** The six face neighbours of a cell. *)
Definition face_neighbours (c : ivec) : list ivec :=
  [IV (iv0 c - 1) (iv1 c) (iv2 c); IV (iv0 c + 1) (iv1 c) (iv2 c);
   IV (iv0 c) (iv1 c - 1) (iv2 c); IV (iv0 c) (iv1 c + 1) (iv2 c);
   IV (iv0 c) (iv1 c) (iv2 c - 1); IV (iv0 c) (iv1 c) (iv2 c + 1)]%Z.

(** A droplet: liquid in the cell, less than a millionth in every neighbour. *)
Definition droplet (f : ivec -> R) (c : ivec) : Prop :=
  0 < f c /\ forall b, In b (face_neighbours c) -> f b < / 1000000.

(** Cells within one cell of [c] in every direction. *)
Definition near (c x : ivec) : Prop :=
  (-1 <= iv0 x - iv0 c <= 1 /\ -1 <= iv1 x - iv1 c <= 1 /\ -1 <= iv2 x - iv2 c <= 1)%Z.

(** The neighbour of [c] on the high side along axis [d] (0, 1, else 2). *)
Definition up (c : ivec) (d : Z) : ivec :=
  if (d =? 0)%Z then IV (iv0 c + 1) (iv1 c) (iv2 c)
  else if (d =? 1)%Z then IV (iv0 c) (iv1 c + 1) (iv2 c)
  else IV (iv0 c) (iv1 c) (iv2 c + 1).
Definition down (c : ivec) (d : Z) : ivec :=
  if (d =? 0)%Z then IV (iv0 c - 1) (iv1 c) (iv2 c)
  else if (d =? 1)%Z then IV (iv0 c) (iv1 c - 1) (iv2 c)
  else IV (iv0 c) (iv1 c) (iv2 c - 1).

(** Sum of a quantity over the cells of a box. *)
Definition total (b : box) (f : ivec -> R) : R := rsum (map f (cells b)).

(** Volume leaving / entering the cell through its two faces along [d],
    in units of the cell, for face velocities [u] and Courant factor [k]. *)
Definition out_width (u : ivec -> R) (k : R) (c : ivec) (d : Z) : R :=
  Rmax 0 (- (u c * k)) + Rmax 0 (u (up c d) * k).
Definition in_width (u : ivec -> R) (k : R) (c : ivec) (d : Z) : R :=
  Rmax 0 (u c * k) + Rmax 0 (- (u (up c d) * k)).

(** Geometry of a box of cells along axis [d]: its extent, its low layer, and
    the face opposite to a low face. *)
Definition extent (b : box) (d : Z) : Z := (icomp (bhi b) d - icomp (blo b) d + 1)%Z.
Definition opposite (b : box) (d : Z) (c : ivec) : ivec :=
  if (d =? 0)%Z then IV (iv0 c + extent b d) (iv1 c) (iv2 c)
  else if (d =? 1)%Z then IV (iv0 c) (iv1 c + extent b d) (iv2 c)
  else IV (iv0 c) (iv1 c) (iv2 c + extent b d).
Definition low_layer (b : box) (d : Z) : box :=
  Box (blo b)
    (if (d =? 0)%Z then IV (iv0 (blo b)) (iv1 (bhi b)) (iv2 (bhi b))
     else if (d =? 1)%Z then IV (iv0 (bhi b)) (iv1 (blo b)) (iv2 (bhi b))
     else IV (iv0 (bhi b)) (iv1 (bhi b)) (iv2 (blo b))).
Definition ncells (b : box) : R := INR (length (cells b)).
