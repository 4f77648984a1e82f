(** Vocabulary for C14-C18, C20: tables, brackets, reference interpolants. *)
From Verif Require Import Base Interp.
Local Open Scope Q_scope.

(** Entry [k] of a table is [a]. *)
Definition at_ (l : list Q) (k : nat) (a : Q) : Prop := nth_error l k = Some a.

Definition nondecreasing (l : list Q) : Prop :=
  forall i j a b, (i <= j)%nat -> at_ l i a -> at_ l j b -> a <= b.
Definition increasing (l : list Q) : Prop :=
  forall i j a b, (i < j)%nat -> at_ l i a -> at_ l j b -> a < b.
(** Neighbouring abscissae are further apart than the tolerance of the code. *)
Definition spaced (l : list Q) : Prop :=
  forall i a b, at_ l i a -> at_ l (S i) b -> feps < b - a.

(** [x] lies in the j-th interval of the table. *)
Definition brackets (l : list Q) (j : nat) (x : Q) : Prop :=
  exists a b, at_ l j a /\ at_ l (S j) b /\ a <= x /\ x <= b.

(** Congruence modulo a period. *)
Definition eqmod (u a b : Q) : Prop := exists k : Z, a == b + inject_Z k * u.

(** A query list sorted in non-decreasing order. *)
Fixpoint nondecreasing_list (l : list Q) : Prop :=
  match l with
  | x :: r => match r with y :: _ => x <= y | [] => True end /\ nondecreasing_list r
  | [] => True
  end.

(** Clamped position of a query outside the range: first or last node. *)
Definition out_idx (xs : list Q) (x : Q) (k : nat) : Prop :=
  (k = 0%nat /\ exists a, at_ xs 0 a /\ x < a)
  \/ (k = (length xs - 1)%nat /\ exists a b, at_ xs 0 a /\ a <= x /\ at_ xs k b /\ b < x).

Fixpoint sumQ (g : nat -> Q) (n : nat) : Q :=
  match n with O => 0 | S m => sumQ g m + g m end.

Definition node (xa dx : Q) (i : nat) : Q := xa + inject_Z (Z.of_nat i) * dx.

(** The n trapezia between consecutive nodes. *)
Definition trapezia (xa xb : Q) (n : nat) (f : Q -> Q) : Q :=
  let dx := (xb - xa) / inject_Z (Z.of_nat n) in
  sumQ (fun i => dx * (1 # 2) * (f (node xa dx i) + f (node xa dx (S i)))) n.

