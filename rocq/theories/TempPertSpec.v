(** What a perturbation of the temperature should be, without the code of the model. *)
From Coq Require Import List ZArith.
From Verif Require Import BoxR.
Open Scope R_scope.

(** A step in which the temperature is perturbed: the first one is number [every], then each [every] steps. *)
Definition due (every index : Z) : Prop := (0 < index)%Z /\ exists m, (index = m * every)%Z.
(** Between two ends. *)
Definition within (a b x : R) : Prop := a < x < b.
(** The centre of a cell along an axis. *)
Definition middle (lo dx : R) (i : Z) : R := ((lo + IZR i * dx) + (lo + IZR (i + 1) * dx)) / 2.
(** Height above the ground, with cells under it taken at half a cell above it. *)
Definition above_ground (z ground dz : R) : R := Rmax (z - ground) (dz / 2).
