(** Vocabulary of C89. *)
From Coq Require Import Reals List.
From Verif Require Import BoxR VecSpace Immersed.
Local Open Scope R_scope.

Definition dist (p q : vec) : R := vmag (vsub p q).
(** Points strictly inside a body, as it is described in the input (a cylinder without its height). *)
Definition interior (s : shape) (p : vec) : Prop :=
  match s with
  | Sphere c r => dist p c < r
  | Cylinder c r h => dist (V3 (vx p) (vy p) 0) (V3 (vx c) (vy c) 0) < r
  | Box c l w h => Rabs (vx p - vx c) < l / 2 /\ Rabs (vy p - vy c) < w / 2 /\ Rabs (vz p - vz c) < h / 2
  end.
(** Points of a body, with its surface. *)
Definition solid (s : shape) (p : vec) : Prop :=
  match s with
  | Sphere c r => dist p c <= r
  | Cylinder c r h => dist (V3 (vx p) (vy p) 0) (V3 (vx c) (vy c) 0) <= r
  | Box c l w h => Rabs (vx p - vx c) <= l / 2 /\ Rabs (vy p - vy c) <= w / 2 /\ Rabs (vz p - vz c) <= h / 2
  end.
Definition surface (s : shape) (p : vec) : Prop := solid s p /\ ~ interior s p.
(** The value [d] is the distance of [p] from the surface of [s]. *)
Definition is_distance (s : shape) (p : vec) (d : R) : Prop :=
  (forall q, surface s q -> d <= dist p q) /\ exists q, surface s q /\ dist p q = d.
(** A box grown on all sides. *)
Definition grown (s : shape) (by_ : vec) : shape :=
  match s with Box c l w h => Box c (l + vx by_) (w + vy by_) (h + vz by_) | _ => s end.
