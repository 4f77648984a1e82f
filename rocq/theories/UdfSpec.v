(** What prescribed fields should be, without the code of the model (docs/sphinx/user/inputs_Boundary_conditions.rst:38-150). *)
From Coq Require Import String List ZArith.
From Verif Require Import BoxR VecSpace Inputs.
Import ListNotations.
Open Scope R_scope.

(** The value written after a key, or a default. *)
Definition given {A} (s : sect A) (k : string) (d : A) : A := match s k with Some (x :: _) => x | _ => d end.

(** The linear profile of the manual. *)
Definition linear_profile (x0 x1 f0 f1 x v : R) : Prop :=
  (x < x0 -> v = f0) /\ (x1 < x -> v = f1) /\ (x0 <= x <= x1 -> v = f0 + (f1 - f0) * ((x - x0) / (x1 - x0))).

(** The speed of the power law of the manual, cut off at both ends. *)
Definition power_speed (zref e u umin umax height : R) : R :=
  Rmin (Rmax (u * (if Rlt_dec 0 height then Rpower (height / zref) e else 0)) umin) umax.

(** The speed of a Rankine vortex: a solid body up to the radius, and like one over the distance from there. *)
Definition rankine_speed (u r0 r : R) : R := if Rle_dec r r0 then u * r / r0 else u * r0 / r.
