(** Vocabulary of C83: smooth fields on the cells of a mesh, their derivatives, and what the
    refinement criteria measure. *)
From Verif Require Import BoxR FieldTag.
Local Open Scope R_scope.

(** Quadratic functions of the position. *)
Record quad : Type := Quad { qc : R; qx : R; qy : R; qz : R; qxx : R; qyy : R; qzz : R; qxy : R; qxz : R; qyz : R }.
Definition qval (q : quad) (x y z : R) : R :=
  qc q + qx q * x + qy q * y + qz q * z + qxx q * x * x / 2 + qyy q * y * y / 2 + qzz q * z * z / 2
  + qxy q * x * y + qxz q * x * z + qyz q * y * z.
(** Their gradient; the second derivatives are the coefficients. *)
Definition gx (q : quad) (x y z : R) : R := qx q + qxx q * x + qxy q * y + qxz q * z.
Definition gy (q : quad) (x y z : R) : R := qy q + qxy q * x + qyy q * y + qyz q * z.
Definition gz (q : quad) (x y z : R) : R := qz q + qxz q * x + qyz q * y + qzz q * z.

(** The positions of the cells, and a function taken at them. *)
Definition at_cell {A} (g : mesh) (F : R -> R -> R -> A) (i j k : Z) : A :=
  F (m_lo g 0%Z + (IZR i + / 2) * m_dx g 0%Z) (m_lo g 1%Z + (IZR j + / 2) * m_dx g 1%Z) (m_lo g 2%Z + (IZR k + / 2) * m_dx g 2%Z).
Definition valid (g : mesh) : Prop := 0 < m_dx g 0%Z /\ 0 < m_dx g 1%Z /\ 0 < m_dx g 2%Z.

Definition slope (q : quad) (x y z : R) : R := sqrt (gx q x y z ^ 2 + gy q x y z ^ 2 + gz q x y z ^ 2).
(** Divergence of the unit normal of the level surfaces: (|G|^2 tr H - G.H.G) / |G|^3. *)
Definition normal_divergence (q : quad) (x y z : R) : R :=
  let a := gx q x y z in let b := gy q x y z in let c := gz q x y z in
  ((a ^ 2 + b ^ 2 + c ^ 2) * (qxx q + qyy q + qzz q)
   - (a * (qxx q * a + qxy q * b + qxz q * c) + b * (qxy q * a + qyy q * b + qyz q * c) + c * (qxz q * a + qyz q * b + qzz q * c)))
  / slope q x y z ^ 3.

(** The velocity gradient J r c = d(velocity r)/d(x c), and the squared norms of its symmetric and
    antisymmetric parts. *)
Definition velocity_gradient (u v w : quad) (x y z : R) (r c : nat) : R :=
  let q := match r with 0%nat => u | 1%nat => v | _ => w end in
  match c with 0%nat => gx q x y z | 1%nat => gy q x y z | _ => gz q x y z end.
Definition sum9 (f : nat -> nat -> R) : R :=
  f 0%nat 0%nat + f 0%nat 1%nat + f 0%nat 2%nat + f 1%nat 0%nat + f 1%nat 1%nat + f 1%nat 2%nat + f 2%nat 0%nat + f 2%nat 1%nat + f 2%nat 2%nat.
Definition shear_strength (J : nat -> nat -> R) : R := sum9 (fun r c => ((J r c + J c r) / 2) ^ 2).
Definition rotation_strength (J : nat -> nat -> R) : R := sum9 (fun r c => ((J r c - J c r) / 2) ^ 2).
(** The length of the curl. *)
Definition curl_length (J : nat -> nat -> R) : R :=
  sqrt ((J 2%nat 1%nat - J 1%nat 2%nat) ^ 2 + (J 0%nat 2%nat - J 2%nat 0%nat) ^ 2 + (J 1%nat 0%nat - J 0%nat 1%nat) ^ 2).

(** A value was given for this level, and the level exists. *)
Definition given (maxlev : nat) (vals : list R) (level : nat) (v : R) : Prop :=
  (level <= maxlev)%nat /\ nth_error vals level = Some v.
(** The six neighbours of a cell. *)
Definition neighbour {A} (f : Z -> Z -> Z -> A) (i j k : Z) (a : A) : Prop :=
  a = f (i + 1)%Z j k \/ a = f (i - 1)%Z j k \/ a = f i (j + 1)%Z k \/ a = f i (j - 1)%Z k \/ a = f i j (k + 1)%Z \/ a = f i j (k - 1)%Z.
Definition strictly_in (lo hi : Z -> R) (x y z : R) : Prop :=
  lo 0%Z < x < hi 0%Z /\ lo 1%Z < y < hi 1%Z /\ lo 2%Z < z < hi 2%Z.
