(** Vocabulary of the refinement properties. *)
From Verif Require Import BoxR VecSpace VecSpaceSpec Tagging.
Open Scope R_scope.

(** A level geometry with [n] cells of positive size in each direction filling
    the problem domain; counts stay below the largest int. *)
Definition axis_ok (plo phi dx dxi : R) (n : Z) : Prop :=
  0 < dx /\ dxi = / dx /\ phi = plo + IZR n * dx /\ (1 <= n <= 2147483646)%Z.
Definition geom_ok (g : geom) (n : ivec) : Prop :=
  axis_ok (vx (gplo g)) (vx (gphi g)) (vx (gdx g)) (vx (gdxi g)) (iv0 n) /\
  axis_ok (vy (gplo g)) (vy (gphi g)) (vy (gdx g)) (vy (gdxi g)) (iv1 n) /\
  axis_ok (vz (gplo g)) (vz (gphi g)) (vz (gdx g)) (vz (gdxi g)) (iv2 n).

Definition domain (n : ivec) : box := Box (IV 0 0 0) (IV (iv0 n - 1) (iv1 n - 1) (iv2 n - 1)).

(** The centre of cell [c]. *)
Definition centre (g : geom) (c : ivec) : vec :=
  V3 (vx (gplo g) + (IZR (iv0 c) + / 2) * vx (gdx g))
     (vy (gplo g) + (IZR (iv1 c) + / 2) * vy (gdx g))
     (vz (gplo g) + (IZR (iv2 c) + / 2) * vz (gdx g)).

Definition in_rbox (rb : rbox) (p : vec) : Prop :=
  vx (rlo rb) <= vx p <= vx (rhi rb) /\
  vy (rlo rb) <= vy p <= vy (rhi rb) /\
  vz (rlo rb) <= vz p <= vz (rhi rb).

(** The box lies near enough to the domain for its corners, in units of cells
    from the lower corner of the domain, to be ints. *)
Definition axis_near (lo hi plo dx : R) : Prop :=
  lo <= plo + 2147483647 * dx /\ plo - 2147483647 * dx <= hi.
Definition near (rb : rbox) (g : geom) : Prop :=
  axis_near (vx (rlo rb)) (vx (rhi rb)) (vx (gplo g)) (vx (gdx g)) /\
  axis_near (vy (rlo rb)) (vy (rhi rb)) (vy (gplo g)) (vy (gdx g)) /\
  axis_near (vz (rlo rb)) (vz (rhi rb)) (vz (gplo g)) (vz (gdx g)).

(** Box region: the parallelepiped with one corner at [o] and edges x, y, z. *)
Definition in_parallelepiped (o x y z p : vec) : Prop :=
  exists s t u, 0 <= s <= 1 /\ 0 <= t <= 1 /\ 0 <= u <= 1 /\
    vx p = vx o + s * vx x + t * vx y + u * vx z /\
    vy p = vy o + s * vy x + t * vy y + u * vy z /\
    vz p = vz o + s * vz x + t * vz y + u * vz z.

(** Annular cylinder: the foot [q] of the point on the axis lies between the end
    points, and its distance from the axis between the radii. *)
Definition in_cylinder (st en : vec) (outer innr : R) (p : vec) : Prop :=
  exists s, 0 <= s <= 1 /\
    let ax := V3 (vx en - vx st) (vy en - vy st) (vz en - vz st) in
    let d := V3 (vx p - (vx st + s * vx ax)) (vy p - (vy st + s * vy ax)) (vz p - (vz st + s * vz ax)) in
    inner d ax = 0 /\ innr <= len d <= outer.

Definition in_shape (s : shape) (p : vec) : Prop :=
  match s with
  | SBox o x y z => in_parallelepiped o x y z p
  | SCyl st en outer innr => in_cylinder st en outer innr p
  | SUdf f bb => f p = true /\ in_rbox bb p
  end.

(** Usable shapes: right-handed box axes; cylinder with two distinct end points
    and radii that are not negative. *)
Definition shape_ok (s : shape) : Prop :=
  match s with
  | SBox o x y z => 0 < triple x y z
  | SCyl st en outer innr => st <> en /\ 0 <= innr /\ 0 <= outer
  | SUdf _ _ => True
  end.
Definition geometric (s : shape) : Prop := match s with SUdf _ _ => False | _ => True end.

(** Levels the user asked for. *)
Definition selected (cf : grconf) (level : Z) : Prop :=
  ((set_level cf < 0 \/ level = set_level cf) /\ min_level cf <= level <= max_level cf)%Z.
