(** Mesh mapping: /repo/amr-wind/mesh_mapping_models/ChannelFlowMap.cpp and
    ConstantMap.cpp.  Exact reals; std::pow(t, 2.0) is t*t. *)
From Verif Require Import BoxR.
Local Open Scope R_scope.

Definition Reqb (a b : R) : bool := if Req_EM_T a b then true else false.

(** ChannelFlowMap.cpp:14-29 *)
Definition eval_fac (x beta lo len : R) : R :=
  if Reqb beta 0 then 1
  else beta * (1 - tanh (beta * (1 - 2 * (x - lo) / len)) * tanh (beta * (1 - 2 * (x - lo) / len)))
       / tanh beta.

(** ChannelFlowMap.cpp:31-44 *)
Definition eval_coord (x beta lo len : R) : R :=
  if Reqb beta 0 then x
  else lo + len / 2 * (1 - tanh (beta * (1 - 2 * (x - lo) / len)) / tanh beta).

(** Where a mapping array lives: cell centres, nodes, faces of the three directions. *)
Inductive mloc : Type := MCc | MNd | MXf | MYf | MZf.

(** Whether the array has its points on the cell boundaries in direction [d]. *)
Definition on_face (l : mloc) (d : Z) : bool :=
  match l with
  | MCc => false | MNd => true
  | MXf => (d =? 0)%Z | MYf => (d =? 1)%Z | MZf => (d =? 2)%Z
  end.

(** One direction of the geometry of a level (geom.ProbLo, ProbHi, CellSize),
    the stretching factor and geometry.prob_hi_physical (251-261; the domain end
    when not given). *)
Record mdir : Type := MDir { mlo : R; mhi : R; mdx : R; mbeta : R; mphys : R }.

(** m_eps (ChannelFlowMap.H:39) *)
Definition map_eps : R := / 2 ^ 52 * 100000.

(** 90-92, 117-119, 164-166, 192-194, 220-222: position of index [i]. *)
Definition mpos (l : mloc) (d : Z) (g : mdir) (i : Z) : R :=
  mlo g + (IZR i + (if on_face l d then 0 else 1/2)) * mdx g.

(** 98-100, 125-128, 172-175, 200-203, 228-231 *)
Definition inside (l : mloc) (d : Z) (g : mdir) (x : R) : bool :=
  if on_face l d then Rleb (mlo g - map_eps) x && Rleb x (mhi g + map_eps)
  else Rltb (mlo g) x && Rltb x (mhi g).

Definition in_domain (l : mloc) (g : Z -> mdir) (c : ivec) : bool :=
  inside l 0 (g 0%Z) (mpos l 0 (g 0%Z) (iv0 c)) && inside l 1 (g 1%Z) (mpos l 1 (g 1%Z) (iv1 c)) &&
  inside l 2 (g 2%Z) (mpos l 2 (g 2%Z) (iv2 c)).

(** 89-109, 116-137, 163-185, 191-213, 219-241: scale factor in direction [d]. *)
Definition scale_fac (l : mloc) (g : Z -> mdir) (c : ivec) (d : Z) : R :=
  if in_domain l g c
  then eval_fac (mpos l d (g d) (icomp c d)) (mbeta (g d)) (mlo (g d)) (mhi (g d) - mlo (g d))
  else 1.
Definition scale_detJ (l : mloc) (g : Z -> mdir) (c : ivec) : R :=
  scale_fac l g c 0 * scale_fac l g c 1 * scale_fac l g c 2.

(** 248-324: physical coordinates; only at cell centres and nodes.  The length is the
    physical one. *)
Definition nu_coord (l : mloc) (g : Z -> mdir) (c : ivec) (d : Z) : R :=
  let x := mpos l d (g d) (icomp c d) in
  if in_domain l g c
  then eval_coord x (mbeta (g d)) (mlo (g d)) (mphys (g d) - mlo (g d))
  else x.

(** ConstantMap.cpp:27-163 *)
Definition const_fac (fac : Z -> R) (d : Z) : R := fac d.
Definition const_detJ (fac : Z -> R) : R := const_fac fac 0 * const_fac fac 1 * const_fac fac 2.
Definition const_coord (l : mloc) (g : Z -> mdir) (fac : Z -> R) (c : ivec) (d : Z) : R :=
  mlo (g d) + (IZR (icomp c d) + (if on_face l d then 0 else 1/2)) * mdx (g d) * const_fac fac d.
