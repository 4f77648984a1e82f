(** What the statistics are to be. *)
From Coq Require Import Reals List ZArith Permutation.
Import ListNotations.
Open Scope R_scope.

(** The columns of the domain, in any order and shared out in any way among the processes. *)
Definition columns (nx ny : nat) : list (Z * Z) := list_prod (map Z.of_nat (seq 0 nx)) (map Z.of_nat (seq 0 ny)).
Definition shared_out (ranks : list (list (Z * Z))) (nx ny : nat) : Prop := Permutation (concat ranks) (columns nx ny).
(** Place [k] is where a column is largest, and no other is. *)
Definition only_peak (l : list R) (k : nat) : Prop :=
  exists v, nth_error l k = Some v /\ forall j w, nth_error l j = Some w -> j <> k -> w < v.
