(** What the exchange with a control centre should do, without the code of the model.  From Centre.v: texts, commands and
    the moves of processes that send and receive. *)
From Coq Require Import List ZArith Ascii Relations.
From Verif Require Import BoxR VecSpace VecSpaceSpec Centre.
Import ListNotations.
Open Scope R_scope.

(** Fields with commas between them. *)
Fixpoint joined (fs : list text) : text :=
  match fs with
  | [] => []
  | [f] => f
  | f :: fs => f ++ comma :: joined fs
  end.
Definition plain (f : text) : Prop := ~ In comma f.

(** A wind of unit speed from the compass direction [d], in degrees: 0 from the north, 90 from the east. *)
Definition blows_from (d : R) : vec := V3 (- sin (d * PI / 180)) (- cos (d * PI / 180)) 0.

(** Momentum theory: thrust and power of a disk that slows the wind by the part [a]. *)
Definition thrust_of (a : R) : R := 4 * a * (1 - a).
Definition power_of (a : R) : R := 4 * a * (1 - a) * (1 - a).

(** Start of the exchange, states that can follow, and its end. *)
Definition begins (root : nat -> nat) (io : nat) (ids : list nat) (mem : nat -> tag -> nat -> R) (s : net) : Prop :=
  (forall r, n_prog s r = program root io r ids) /\ (forall r t, n_way s r t = []) /\
  (forall r t i, n_mem s r t i = mem r t i).
Definition follows (io : nat) : net -> net -> Prop := clos_refl_trans_1n _ (move io).
Definition over (s : net) : Prop := forall r, n_prog s r = [].
