(** What the marker of wakes and the dissipation rate should be, without the code of the model.  From Markers.v: the
    declarations of fields, the mesh and the record of a step. *)
From Coq Require Import String List ZArith.
From Verif Require Import BoxR VecSpace Markers.
Import ListNotations.
Open Scope R_scope.

(** The declarations of a run hold a real field of this name, and the first one has [ng] ghost cells. *)
Definition first_real (ds : list decl) (name : string) (ng : Z) : Prop :=
  exists a b, ds = (a ++ DReal name ng :: b)%list /\ forall n, ~ In (DReal name n) a.
Definition no_real (ds : list decl) (name : string) : Prop := forall n, ~ In (DReal name n) ds.

(** The cell is in the grid of the level or at most [ng] cells away from it. *)
Definition on_mesh (m : mesh) (ng : Z) (lev n : nat) (c : ivec) : Prop :=
  (lev < m_levels m)%nat /\ (n < m_ngrids m lev)%nat /\
  let b := m_grid m lev n in
  (iv0 (blo b) - ng <= iv0 c <= iv0 (bhi b) + ng /\
   iv1 (blo b) - ng <= iv1 c <= iv1 (bhi b) + ng /\
   iv2 (blo b) - ng <= iv2 c <= iv2 (bhi b) + ng)%Z.

(** The force is longer than the threshold (any force is longer than a negative one). *)
Definition longer (thr : R) (s : vec) : Prop :=
  thr < 0 \/ thr * thr < vx s * vx s + vy s * vy s + vz s * vz s.

(** The value of the input, else a tenth. *)
Definition given_or_tenth (given : option R) (thr : R) : Prop :=
  given = Some thr \/ (given = None /\ thr = 1 / 10).

(** The rate of a cell of sides [dx]: not negative, and its product with the coefficient and the cube root of the volume
    squares to the energy, written without roots. *)
Definition rate (ce : R) (dx : vec) (k w : R) : Prop :=
  0 <= w /\ (w * ce) ^ 6 * (vx dx * vy dx * vz dx) ^ 2 = k ^ 3.
