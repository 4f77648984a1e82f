(** What users of the vector classes rely on, in textbook terms. *)
From Verif Require Import BoxR VecSpace.
Open Scope R_scope.

(** Euclidean inner product, length and distance. *)
Definition inner (v w : vec) : R := vx v * vx w + vy v * vy w + vz v * vz w.
Definition len (v : vec) : R := sqrt (inner v v).

(** Signed volume spanned by three vectors (Leibniz expansion of the 3x3
    determinant); positive for a right-handed triple. *)
Definition triple (u v w : vec) : R :=
  vx u * vy v * vz w + vy u * vz v * vx w + vz u * vx v * vy w
  - vz u * vy v * vx w - vy u * vx v * vz w - vx u * vz v * vy w.

Definition lin (a : R) (v : vec) (b : R) (w : vec) : vec :=
  V3 (a * vx v + b * vx w) (a * vy v + b * vy w) (a * vz v + b * vz w).

(** A proper rotation: linear, keeps inner products and signed volumes. *)
Definition proper_rotation (f : vec -> vec) : Prop :=
  (forall a b v w, f (lin a v b w) = lin a (f v) b (f w)) /\
  (forall v w, inner (f v) (f w) = inner v w) /\
  (forall u v w, triple (f u) (f v) (f w) = triple u v w).

(** Rodrigues' formula: [p] turned by the angle [th] (radians) about the unit
    vector [n], counter-clockwise when [n] points at the viewer. *)
Definition turned (n : vec) (th : R) (p : vec) : vec :=
  let d := inner n p in
  V3 (vx p * cos th + (vy n * vz p - vz n * vy p) * sin th + vx n * d * (1 - cos th))
     (vy p * cos th + (vz n * vx p - vx n * vz p) * sin th + vy n * d * (1 - cos th))
     (vz p * cos th + (vx n * vy p - vy n * vx p) * sin th + vz n * d * (1 - cos th)).

(** The four rotation constructors with their axes. *)
Inductive rotates : tensor -> vec -> R -> Prop :=
| rot_x : forall a, rotates (xrot a) (V3 1 0 0) a
| rot_y : forall a, rotates (yrot a) (V3 0 1 0) a
| rot_z : forall a, rotates (zrot a) (V3 0 0 1) a
| rot_q : forall ax a, ax <> V3 0 0 0 -> rotates (quaternion ax a) ax a.

Definition transpose_of (t : tensor) : tensor :=
  T9 (txx t) (tyx t) (tzx t) (txy t) (tyy t) (tzy t) (txz t) (tyz t) (tzz t).
