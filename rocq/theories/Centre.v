(** Exchange with a control centre: amr-wind/helics.cpp, with the use of what is received and the collection of what is
    sent (ABL.cpp, ABLModulatedPowerLaw.cpp, Actuator.cpp, uniform_ct_ops.H, Joukowsky_ops.H, incflo_advance.cpp).

    Reals are exact; [atof], the reading of a number from the start of a text, is an argument.  Texts are shorter than
    2^31.  The federate itself (subscription, publication and the request of the next step) is not modelled: a message
    is whatever text arrives. *)
From Coq Require Import List ZArith Ascii Bool.
From Verif Require Import Base BoxR VecSpace Wing.
Import ListNotations.
Open Scope R_scope.

(** *** Taking a message apart *)

Definition text : Type := list ascii.
Definition comma : ascii := ","%char.

(** std::string::find of a comma from [start] on; no such place is -1 after the conversion to int *)
Fixpoint find_at (s : text) (i : Z) : Z :=
  match s with
  | [] => -1
  | a :: s => if Ascii.eqb a comma then i else find_at s (i + 1)
  end%Z.
Definition find (s : text) (start : Z) : Z := find_at (skipn (Z.to_nat start) s) start.
(** std::string::substr: a start behind the end throws; a negative length becomes a huge one and the rest is taken *)
Definition substr (s : text) (pos n : Z) : outcome text :=
  if (Z.of_nat (length s) <? pos)%Z then Abort
  else let r := skipn (Z.to_nat pos) s in Ret (if (n <? 0)%Z then r else firstn (Z.to_nat n) r).

(** helics.cpp:31-42; [fuel] bounds the number of turns of the loop, each of which moves [end] on by one or more *)
Fixpoint tok_loop (fuel : nat) (s : text) (e : Z) (acc : list text) : outcome (list text) :=
  match fuel with
  | O => Ret acc
  | S fuel =>
    if (0 <? e)%Z then
      let start := (e + 1)%Z in
      let e := find s start in
      let e := if (e =? -1)%Z then (-2)%Z else e in
      obind (substr s start (e - start)) (fun t => tok_loop fuel s e (t :: acc))
    else Ret acc
  end.
(** 19-43: the pieces, the last one in front; the numbers are read from them afterwards *)
Definition tokenize (s : text) : outcome (list text) :=
  let e := find s 0 in
  obind (substr s 1 (e - 0)) (fun t => tok_loop (S (length s)) s e [t]).

(** std::list::front and pop_front; neither is defined on an empty list *)
Definition pop {A} (l : list A) : outcome (A * list A) :=
  match l with [] => UB | a :: l => Ret (a, l) end.
(** 163-166: from the last turbine to the first *)
Fixpoint pop_yaws (n : nat) (l : list R) (acc : list R) : outcome (list R * list R) :=
  match n with
  | O => Ret (acc, l)
  | S n => obind (pop l) (fun al => pop_yaws n (snd al) (fst al :: acc))
  end.

(** What is steered: helics.H:36-41 *)
Record command : Type := Cmd { k_speed : R; k_dir : R; k_yaw : list R }.
(** helics.H:36-37, helics.cpp:98-104 *)
Definition first_command (nturb : nat) : command := Cmd 8 270 (repeat 270 nturb).
(** helics.H:34, helics.cpp:93-100 *)
Definition num_turbines (nlabels : nat) : nat := if (0 <? nlabels)%nat then nlabels else 1%nat.

(** 156-173 *)
Definition unpack (atof : text -> R) (n : nat) (s : text) : outcome command :=
  obind (tokenize s) (fun ts =>
  let l := map atof ts in
  obind (pop l) (fun al => obind (pop (snd al)) (fun al =>
  obind (pop_yaws n (snd al) []) (fun yl =>
  obind (pop (snd yl)) (fun dl =>
  obind (pop (snd dl)) (fun sl =>
  obind (pop (snd sl)) (fun _ =>
  Ret (Cmd (fst sl) (fst dl) (fst yl))))))))).
(** 137-173: [now] is the time of the federate; what came at its first step is ignored *)
Definition receive (atof : text -> R) (now : R) (s : text) (k : command) : outcome command :=
  if Rltb 1 now then unpack atof (length (k_yaw k)) s else Ret k.

(** incflo_advance.cpp:21-29, helics.cpp:79, 139: in each step the physics take the command first, then the next message
    is read; the time of the federate goes up by one in each step.  The commands that the steps used are returned. *)
Fixpoint steps (atof : text -> R) (now : R) (msgs : list text) (k : command) : outcome (list command) :=
  match msgs with
  | [] => Ret []
  | s :: msgs =>
    obind (receive atof (now + 1) s k) (fun k' =>
    obind (steps atof (now + 1) msgs k') (fun ks => Ret (k :: ks)))
  end.

(** *** Directions *)

(** ABL.cpp:192-201, ABLModulatedPowerLaw.cpp:86-95 *)
Definition wind_of (k : command) : vec :=
  let a := radians (- k_dir k + 270) in V3 (k_speed k * cos a) (k_speed k * sin a) 0.
(** uniform_ct_ops.H:41-51, Joukowsky_ops.H:67-75 *)
Definition normal_of (yaw : R) : vec :=
  let a := radians (- yaw + 90) in V3 (cos a) (sin a) 0.
(** helics.cpp:209-211, uniform_ct_ops.H:111-116, Joukowsky_ops.H:332-337, trig_ops.H:38-42 *)
Definition told_direction (v : vec) : R := - degrees (atan2 (vy v) (vx v)) + 270.
(** uniform_ct_ops.H:100-107; [u2] is the square of the reference speed *)
Definition told_power (ct rho u2 diameter : R) : R :=
  let cp := 1 / 2 * (ct + ct * sqrt (1 - ct)) in
  let area := PI * (1 / 4) * diameter * diameter in
  cp * (1 / 2) * rho * (u2 * sqrt u2) * area.

(** *** Collection at the process that talks to the centre *)

Inductive tag : Type := Power | Direction.
Inductive act : Type := Snd (t : tag) (id : nat) | Rcv (from : nat) (t : tag) (id : nat).
(** Actuator.cpp:172-191 on process [r]: [io] is the process that talks to the centre, [root] the one that computes an
    actuator *)
Fixpoint program (root : nat -> nat) (io r : nat) (ids : list nat) : list act :=
  match ids with
  | [] => []
  | id :: ids =>
    (if (root id =? r)%nat then [Snd Power id; Snd Direction id] else []) ++
    (if (io =? r)%nat then [Rcv (root id) Power id; Rcv (root id) Direction id] else []) ++
    program root io r ids
  end.

Definition tag_eqb (a b : tag) : bool := match a, b with Power, Power | Direction, Direction => true | _, _ => false end.
Definition set1 {A} (f : nat -> A) (i : nat) (a : A) : nat -> A := fun j => if (j =? i)%nat then a else f j.

(** All processes: what each still has to do, what is on its way to [io] from each, and the arrays of each. *)
Record net : Type := Net { n_prog : nat -> list act; n_way : nat -> tag -> list R; n_mem : nat -> tag -> nat -> R }.
Definition upd2 {A} (f : nat -> tag -> A) (r : nat) (t : tag) (a : A) : nat -> tag -> A :=
  fun r' t' => if ((r' =? r)%nat && tag_eqb t' t)%bool then a else f r' t'.
Definition upd3 {A} (f : nat -> tag -> nat -> A) (r : nat) (t : tag) (i : nat) (a : A) : nat -> tag -> nat -> A :=
  fun r' t' i' => if ((r' =? r)%nat && tag_eqb t' t && (i' =? i)%nat)%bool then a else f r' t' i'.
(** MPI with sends that are buffered: messages of one process with one tag stay in order *)
Inductive move (io : nat) : net -> net -> Prop :=
| m_send : forall s r t id p, n_prog s r = Snd t id :: p ->
    move io s (Net (set1 (n_prog s) r p) (upd2 (n_way s) r t (n_way s r t ++ [n_mem s r t id])) (n_mem s))
| m_recv : forall s from t id p v q, n_prog s io = Rcv from t id :: p -> n_way s from t = v :: q ->
    move io s (Net (set1 (n_prog s) io p) (upd2 (n_way s) from t q) (upd3 (n_mem s) io t id v)).
(** MPI with sends that wait for their receiver *)
Inductive meet (io : nat) : (nat -> list act) -> (nat -> list act) -> Prop :=
| m_meet : forall p r t id pr id' pio, r <> io -> p r = Snd t id :: pr -> p io = Rcv r t id' :: pio ->
    meet io p (set1 (set1 p r pr) io pio).
