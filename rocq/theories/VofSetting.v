(** Hypotheses of the volume-fraction theorems: the domain, the ghost fill and
    the velocity of a time step. *)
From Verif Require Import BoxR Plic VofAdvect VofSpec.
Open Scope R_scope.

(** The ghost fill leaves valid cells alone. *)
Definition keeps_valid (b : box) (fill : fld -> fld) : Prop :=
  forall f c, in_box b c -> fill f c = f c.

(** The low face of [c] along [dir] lies on a wall. *)
Definition wall_face (g : vgeom) (dir : Z) (c : ivec) : bool :=
  (is_wall (vbclo g dir) && (icomp c dir =? icomp (blo (vdom g)) dir)%Z)
  || (is_wall (vbchi g dir) && (icomp c dir =? icomp (bhi (vdom g)) dir + 1)%Z).

(** No velocity through walls. *)
Definition walls_still (g : vgeom) (dir : Z) (vel : fld) : Prop :=
  forall c, wall_face g dir c = true -> vel c = 0.

(** Values repeat across the domain along [d]. *)
Definition periodic_along (b : box) (d : Z) (f : ivec -> R) : Prop := forall c, f (opposite b d c) = f c.

(** A fill leaves valid cells alone and wraps directions without walls. *)
Definition fill_ok (g : vgeom) (v : venv) : Prop :=
  keeps_valid (vdom g) (ve_fill v) /\
  forall d h, (d = 0 \/ d = 1 \/ d = 2)%Z -> is_wall (vbclo g d) = false -> is_wall (vbchi g d) = false ->
    periodic_along (vdom g) d (ve_fill v h).

(** The field repeats across every direction without walls. *)
Definition wraps (g : vgeom) (f : fld) : Prop :=
  forall d, (d = 0 \/ d = 1 \/ d = 2)%Z -> is_wall (vbclo g d) = false -> is_wall (vbchi g d) = false ->
    periodic_along (vdom g) d f.

(** Every direction is closed by two still walls or periodic. *)
Definition vel_ok (g : vgeom) (v : venv) : Prop :=
  forall d, (d = 0 \/ d = 1 \/ d = 2)%Z ->
    walls_still g d (ve_vel v d) /\
    ((is_wall (vbclo g d) = true /\ is_wall (vbchi g d) = true) \/
     (is_wall (vbclo g d) = false /\ is_wall (vbchi g d) = false /\ periodic_along (vdom g) d (ve_vel v d))).

(** The box has cells. *)
Definition box_ok (b : box) : Prop :=
  (iv0 (blo b) <= iv0 (bhi b) /\ iv1 (blo b) <= iv1 (bhi b) /\ iv2 (blo b) <= iv2 (bhi b))%Z.

(** A face quantity [w] summed over directions, at time step and cell size. *)
Definition dirs_sum (g : vgeom) (v : venv) (w : (ivec -> R) -> R -> ivec -> Z -> R) (ds : list Z) (c : ivec) : R :=
  rsum (map (fun d => w (ve_vel v d) (ve_dt v / vdx g d) c d) ds).

(** Discrete divergence-free velocity. *)
Definition divergence_free (g : vgeom) (v : venv) : Prop :=
  forall c, in_box (vdom g) c ->
    (ve_vel v 0 (up c 0) - ve_vel v 0 c) / vdx g 0 +
    (ve_vel v 1 (up c 1) - ve_vel v 1 c) / vdx g 1 +
    (ve_vel v 2 (up c 2) - ve_vel v 2 c) / vdx g 2 = 0.

(** At most half a cell leaves and at most half a cell enters over the three directions. *)
Definition courant (g : vgeom) (v : venv) : Prop :=
  forall c, in_box (vdom g) c ->
    dirs_sum g v out_width [0; 1; 2]%Z c <= /2 /\ dirs_sum g v in_width [0; 1; 2]%Z c <= /2.

