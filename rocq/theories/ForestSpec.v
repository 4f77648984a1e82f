(** What C98 says, apart from the program.  A forest is a cylinder with a leaf area density that depends on the height; the
    drag in a cell is the sum over the forests its centre is in. *)
From Coq Require Import Reals ZArith List Bool.
From Verif Require Import Base BoxR Forest.
Import ListNotations.
Open Scope R_scope.

(** docs/sphinx/theory/include/forest_model.rst: the shape of the density of a tree of height [h] whose density is largest
    at the height [zm]. *)
Definition profile (h zm z : R) : R :=
  let n := if Rlt_dec z zm then 6 else 1 / 2 in
  Rpower ((h - zm) / (h - z)) n * exp (n * (1 - (h - zm) / (h - z))).
(** Its integral from the ground to the top by the trapezoidal rule with a hundred steps. *)
Definition integral (h zm : R) : R :=
  let d := (h - tiny) / 100 in
  d * ((profile h zm 0 + profile h zm (h - tiny)) / 2 +
       rsum (map (fun i => profile h zm (INR i * d)) (seq 1 99))).
(** Leaf area density: uniform, or the profile scaled such that the integral is the leaf area index. *)
Definition density (t : tree) (z : R) : R :=
  if Req_EM_T (ttype t) 1 then tlai t / theight t
  else if Req_EM_T (ttype t) 2
  then tlai t / integral (theight t) (tlaimax t * theight t) * profile (theight t) (tlaimax t * theight t) z
  else 0.
(** A point is in a forest. *)
Definition member (t : tree) (p : R * R * R) : Prop :=
  let '(x, y, z) := p in z <= theight t /\ 0 <= tdiam t /\ (x - tx t) ^ 2 + (y - ty t) ^ 2 <= (tdiam t / 2) ^ 2.
(** The number of the last of some forests, minus one if there is none. *)
Definition last_id (ts : list tree) : Z := List.last (map tid ts) (-1)%Z.

(** Rows that make sense: a height above the ground; for the second type, the largest density below the top. *)
Definition sound (t : tree) : Prop := tiny < theight t /\ (ttype t = 2 -> 0 <= tlaimax t < 1).
(** The centres of cells at the height [z] are not exactly at the top of a tree of the second type. *)
Definition off_top (t : tree) (z : R) : Prop := ttype t = 2 -> z <> theight t.

(** The words of a file: rows of eight numbers. *)
Definition row : Type := (R * R * R * R * R * R * R * R)%type.
Definition words (r : row) : list (option R) :=
  let '(a, b, c, d, e, f, g, h) := r in map Some [a; b; c; d; e; f; g; h].
(** The forests of a file: type, x, y, height, diameter, drag coefficient, leaf area index, height of the largest density
    over the height of the tree; numbered from zero. *)
Fixpoint forests (n : Z) (rs : list row) : list tree :=
  match rs with
  | [] => []
  | (a, b, c, d, e, f, g, h) :: rs' => mktree n a b c d e f g h :: forests (n + 1) rs'
  end.

(** The cells of a level and the centre of one. *)
Definition mesh (g : geo) (n0 n1 n2 : Z) : Prop :=
  let '(a, b, c) := plo g in let '(dx, dy, dz) := gdx g in
  0 < dx /\ 0 < dy /\ 0 < dz /\ phi g = (a + IZR n0 * dx, b + IZR n1 * dy, c + IZR n2 * dz).
Definition middle (g : geo) (c : ivec) : R * R * R :=
  let '(x, y, z) := plo g in let '(dx, dy, dz) := gdx g in
  (x + (IZR (iv0 c) + 1 / 2) * dx, y + (IZR (iv1 c) + 1 / 2) * dy, z + (IZR (iv2 c) + 1 / 2) * dz).
Definition valid_level (l : level) : Prop :=
  exists n0 n1 n2, mesh (lgeo l) n0 n1 n2 /\
    forall b, In b (map fst (lfabs l)) -> forall c, in_box b c -> (0 <= iv0 c < n0 /\ 0 <= iv1 c < n1 /\ 0 <= iv2 c < n2)%Z.
(** A history begins with a new run or a restart; every level of it has its boxes in the domain; the fields hold anything
    before they are set. *)
Definition valid_event (e : event) : Prop :=
  match e with
  | Start ls => Forall valid_level ls
  | Resume mx ls => Forall valid_level ls /\ (length ls <= S mx)%nat
  | Regrid ls => Forall valid_level ls
  | Advance => True
  end.
Definition begins (es : list event) : Prop :=
  match es with Start _ :: _ | Resume _ _ :: _ => True | _ => False end.
(** A cell a box holds a value of: its own cells and the ghost cells that belong to other boxes of the level. *)
Definition held (l : level) (b : box) (c : ivec) : Prop :=
  in_box (grow 1 b) c /\ exists b', In b' (map fst (lfabs l)) /\ in_box b' c.
(** The forests, among some, a point is in, in order. *)
Inductive picks (p : R * R * R) : list tree -> list tree -> Prop :=
| picks_nil : picks p [] []
| picks_in t ts us : member t p -> picks p ts us -> picks p (t :: ts) (t :: us)
| picks_out t ts us : ~ member t p -> picks p ts us -> picks p (t :: ts) us.
