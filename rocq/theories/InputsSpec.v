(** What the options of a body in two sections of the input mean: the section of the body itself comes before the
    section of its type, as a whole. *)
From Coq Require Import String List ZArith.
From Verif Require Import BoxR VecSpace Inputs.
Import ListNotations.
Open Scope string_scope.
Open Scope R_scope.

(** What the input gives for a key: the section of the body first, then the section of its type. *)
Definition given {A} (dflt own : sect A) (k : string) : option (list A) :=
  match own k with Some l => Some l | None => dflt k end.

(** The input never gives a key without a value. *)
Definition no_empty {A} (s : sect A) : Prop := forall k, s k <> Some [].

(** [r] is the value of an option that may be left out. *)
Definition optional {A} (dflt own : sect A) (k : string) (v r : A) : Prop :=
  (given dflt own k = None /\ r = v) \/ exists rest, given dflt own k = Some (r :: rest).
(** [r] is the value of an option that must be there. *)
Definition required {A} (dflt own : sect A) (k : string) (r : A) : Prop :=
  exists rest, given dflt own k = Some (r :: rest).

(** Three numbers are a vector; where [uniform] is allowed one number stands for three equal ones. *)
Definition means (uniform : bool) (l : list R) (w : vec) : Prop :=
  l = [vx w; vy w; vz w] \/ (uniform = true /\ exists x, l = [x] /\ w = V3 x x x).
Definition optional_vec (uniform : bool) (dflt own : sect R) (k : string) (v r : vec) : Prop :=
  (given dflt own k = None /\ r = v) \/ exists l, given dflt own k = Some l /\ means uniform l r.
Definition required_vec (uniform : bool) (dflt own : sect R) (k : string) (r : vec) : Prop :=
  exists l, given dflt own k = Some l /\ means uniform l r.

(** The body gives at least as many numbers as its type, where both give some. *)
Definition not_shorter (dflt own : sect R) (k : string) : Prop :=
  forall d o, dflt k = Some d -> own k = Some o -> (length d <= length o)%nat.
