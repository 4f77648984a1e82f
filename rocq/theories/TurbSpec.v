(** Vocabulary of the statements about turbulence models: velocity gradients as matrices, the
    rate of strain, the size of a cell, changes of axes. *)
From Verif Require Import BoxR.
Open Scope R_scope.

(** [G i k] is the derivative of velocity component i along direction k. *)
Definition mat := Z -> Z -> R.
Definition sum3 (f : Z -> R) : R := rsum (map f [0; 1; 2]%Z).
Definition axis (i : Z) : Prop := i = 0%Z \/ i = 1%Z \/ i = 2%Z.

Definition strain_tensor (G : mat) : mat := fun i j => (G i j + G j i) / 2.
(** The sum of the squares of the entries. *)
Definition square (G : mat) : R := sum3 (fun i => sum3 (fun j => G i j ^ 2)).
Definition size (G : mat) : R := sqrt (square G).

(** The flow moves as a rigid body: no rate of strain. *)
Definition rigid (G : mat) : Prop := forall i j, axis i -> axis j -> G i j + G j i = 0.
(** One velocity component changing along one other direction. *)
Definition parallel_shear (G : mat) (a b : Z) : Prop :=
  axis a /\ axis b /\ a <> b /\ forall i k, axis i -> axis k -> (i, k) <> (a, b) -> G i k = 0.

(** A cell with positive edges. *)
Definition mesh (dx : Z -> R) : Prop := forall d, axis d -> 0 < dx d.
(** [w] is the edge of the cube with the volume of the cell. *)
Definition width (dx : Z -> R) (w : R) : Prop := 0 < w /\ w ^ 3 = dx 0%Z * dx 1%Z * dx 2%Z.
Definition longest (dx : Z -> R) (h : R) : Prop :=
  (forall d, axis d -> dx d <= h) /\ exists d, axis d /\ dx d = h.

(** Orthogonal changes of axes (rotations and reflections). *)
Definition orthogonal (Q : mat) : Prop :=
  forall i j, axis i -> axis j ->
    sum3 (fun k => Q k i * Q k j) = (if (i =? j)%Z then 1 else 0).
(** The gradient seen in the new axes: Q G Q^T. *)
Definition turned (Q G G' : mat) : Prop :=
  forall i j, axis i -> axis j ->
    G' i j = sum3 (fun a => sum3 (fun b => Q i a * G a b * Q j b)).
(** Renumbering the axes. *)
Definition renumbering (p : Z -> Z) : Prop :=
  (forall i, axis i -> axis (p i)) /\
  (forall i j, axis i -> axis j -> p i = p j -> i = j).
(** Nine gradients stored row by row. *)
Definition rows (g : Z -> R) (G : mat) : Prop :=
  forall i k, axis i -> axis k -> g (i * 3 + k)%Z = G i k.
