(** Waves of a file with steps [dt], used from step [n0] to step [m] over and over: the wave at step [n] and between. *)
From Coq Require Import Reals ZArith List.
Import ListNotations.
Open Scope R_scope.

Definition again (n0 m n : Z) : Z := (n0 + (n - n0) mod (m - n0 + 1))%Z.
(** At time [t] of the simulation, which began at step [n0] of the file, a value halfway (or wherever) between two
    steps. *)
Definition between (dt : R) (n0 : Z) (w : Z -> R) (t v : R) : Prop :=
  exists n lam, 0 < lam <= 1 /\ t = (IZR n - IZR n0 - 1 + lam) * dt /\ v = (1 - lam) * w (n - 1)%Z + lam * w n.
(** Times that never go back and never pass more than [dt] at once; none but the first is zero. *)
Fixpoint paced (dt least prev : R) (ts : list R) : Prop :=
  match ts with [] => True | t :: r => least <= t /\ prev <= t <= prev + dt /\ paced dt least t r end.
(** Times that never go back. *)
Fixpoint forward (least prev : R) (ts : list R) : Prop :=
  match ts with [] => True | t :: r => least <= t /\ prev <= t /\ forward least t r end.
