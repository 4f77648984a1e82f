(** Vocabulary for actuators over several processes. *)
From Verif Require Import BoxR VecSpace Tagging TaggingSpec.
Open Scope R_scope.

(** The geometry [r] times finer over the same domain. *)
Definition finer (g : geom) (r : ivec) : geom :=
  Geom (gplo g) (gphi g)
    (V3 (vx (gdx g) / IZR (iv0 r)) (vy (gdx g) / IZR (iv1 r)) (vz (gdx g) / IZR (iv2 r)))
    (V3 (vx (gdxi g) * IZR (iv0 r)) (vy (gdxi g) * IZR (iv1 r)) (vz (gdxi g) * IZR (iv2 r))).

(** The box [rb] with [k] cells of [g] added on every side. *)
Definition grown (k : R) (g : geom) (rb : rbox) : rbox :=
  RBox (V3 (vx (rlo rb) - k * vx (gdx g)) (vy (rlo rb) - k * vy (gdx g)) (vz (rlo rb) - k * vz (gdx g)))
       (V3 (vx (rhi rb) + k * vx (gdx g)) (vy (rhi rb) + k * vy (gdx g)) (vz (rhi rb) + k * vz (gdx g))).

(** Polynomials of degree at most one in each coordinate. *)
Definition trilinear (c : nat -> R) (p : vec) : R :=
  c 0%nat + c 1%nat * vx p + c 2%nat * vy p + c 3%nat * vz p +
  c 4%nat * (vx p * vy p) + c 5%nat * (vy p * vz p) + c 6%nat * (vx p * vz p) +
  c 7%nat * (vx p * vy p * vz p).

(** How often [p] occurs in [l]. *)
Fixpoint times (p : nat) (l : list nat) : nat :=
  match l with nil => 0 | x :: r => (if Nat.eqb x p then 1 else 0) + times p r end.
