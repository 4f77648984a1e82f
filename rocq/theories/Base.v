(** Shared vocabulary of the model: outcomes, and C++-style comparisons and
    min/max on exact rationals. *)
From Coq Require Export QArith Qround ZArith List Bool Lia Lqa.
Export ListNotations.
Open Scope Q_scope.

(** Outcome of a modelled call: normal return, [amrex::Abort] (the documented
    fatal error of the code base), or undefined behaviour (out-of-bounds access,
    division by zero of integers, ...).  AMReX/AMReX_BLassert and
    amrex::Abort terminate the run; nothing observable follows. *)
Inductive outcome (A : Type) : Type :=
| Ret (a : A)
| Abort
| UB.
Arguments Ret {A} a.
Arguments Abort {A}.
Arguments UB {A}.

Definition obind {A B} (x : outcome A) (f : A -> outcome B) : outcome B :=
  match x with Ret a => f a | Abort => Abort | UB => UB end.

(** C++ [x < y] on reals (no NaN in the model). *)
Definition Qltb (x y : Q) : bool := negb (Qle_bool y x).
(** C++ [x <= y] on reals. *)
Definition Qleb (x y : Q) : bool := Qle_bool x y.
(** C++ [amrex::min(a,b)] = [std::min]: [(b < a) ? b : a]. *)
Definition qmin (a b : Q) : Q := if Qltb b a then b else a.
(** C++ [amrex::max(a,b)] = [std::max]: [(a < b) ? b : a]. *)
Definition qmax (a b : Q) : Q := if Qltb a b then b else a.
(** C++ [std::floor] kept as a real. *)
Definition qfloor (x : Q) : Q := inject_Z (Qfloor x).

(** [std::numeric_limits<double>::epsilon()] = 2^-52. *)
Definition eps : Q := 1 # 4503599627370496.
