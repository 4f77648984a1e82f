(** Vocabulary for C81: polynomials of degree three, weighted misfit, profiles over the height. *)
From Verif Require Import Base InterpSpec.
Open Scope Q_scope.

(** One height of the regression: weight, height, value to fit. *)
Record row : Type := Row { rw : Q; rz : Q; re : Q }.
Fixpoint rows (W zs e : list Q) : list row :=
  match W, zs, e with w :: W', z :: zs', v :: e' => Row w z v :: rows W' zs' e' | _, _, _ => [] end.
Definition cubic (a b c d z : Q) : Q := a + b * z + c * (z * z) + d * (z * z * z).
(** Weighted sum of the squared differences between the values and a function of the height. *)
Fixpoint misfit (l : list row) (g : Q -> Q) : Q :=
  match l with [] => 0 | r :: l' => rw r * ((re r - g (rz r)) * (re r - g (rz r))) + misfit l' g end.
Definition weights_ok (W : list Q) : Prop := forall w, In w W -> 0 <= w.
(** Four different heights take part. *)
Definition four_heights (l : list row) : Prop :=
  exists r1 r2 r3 r4, In r1 l /\ In r2 l /\ In r3 l /\ In r4 l /\
    0 < rw r1 /\ 0 < rw r2 /\ 0 < rw r3 /\ 0 < rw r4 /\
    ~ rz r1 == rz r2 /\ ~ rz r1 == rz r3 /\ ~ rz r1 == rz r4 /\
    ~ rz r2 == rz r3 /\ ~ rz r2 == rz r4 /\ ~ rz r3 == rz r4.
(** Entrywise equality of rationals. *)
Definition same (l l' : list Q) : Prop := length l = length l' /\ forall i a b, at_ l i a -> at_ l' i b -> a == b.
(** One up to height [h], zero from [h + t] on, linear between. *)
Definition ramp (h t z : Q) : Q := if Qleb z h then 1 else if Qleb (h + t) z then 0 else (h + t - z) / t.
