(** Vocabulary for the two-phase theorems. *)
From Verif Require Import BoxR.
Open Scope R_scope.

(** [x] lies between [a] and [b], in either order. *)
Definition between (a b x : R) : Prop := Rmin a b <= x <= Rmax a b.
(** Length of the part of the interval [lo, hi] below the level [h]. *)
Definition wet_length (lo hi h : R) : R := Rmin (hi - lo) (Rmax 0 (h - lo)).
