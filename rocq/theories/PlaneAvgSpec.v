(** Vocabulary of the statements about plane averages: what a plane of cells, a
    mean and a decomposition of the domain are.  Nothing here mentions how the
    averages are computed. *)
From Verif Require Import BoxR.
Open Scope R_scope.

(** The cells of the domain whose index along [axis] is [q]. *)
Definition plane (dom : box) (axis q : Z) : list ivec :=
  filter (fun c => (icomp c axis =? q)%Z) (cells dom).

Definition mean (l : list R) : R := rsum l / INR (length l).

Definition disjoint (a b : box) : Prop := forall c, in_box a c -> in_box b c -> False.

(** [ranks] lists the tiles owned by each rank.  Together they cover the domain
    and no two of them overlap. *)
Definition decomposes (dom : box) (ranks : list (list box)) : Prop :=
  (forall c, in_box dom c <-> exists t, In t (concat ranks) /\ in_box t c) /\
  ForallOrdPairs disjoint (concat ranks).

(** A usable domain: three axes, at least one cell, cell indices that start at
    zero along the averaging axis (as AMReX level-0 domains do). *)
Definition usable (dom : box) (axis : Z) : Prop :=
  (axis = 0 \/ axis = 1 \/ axis = 2)%Z /\
  (iv0 (blo dom) <= iv0 (bhi dom))%Z /\
  (iv1 (blo dom) <= iv1 (bhi dom))%Z /\
  (iv2 (blo dom) <= iv2 (bhi dom))%Z /\
  icomp (blo dom) axis = 0%Z.
(** Number of planes. *)
Definition planes (dom : box) (axis : Z) : Z := (icomp (bhi dom) axis + 1)%Z.
(** Height of the centre of plane [q]. *)
Definition centre (xlo dx : R) (q : Z) : R := xlo + (IZR q + /2) * dx.
