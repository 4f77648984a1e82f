(** Refinement by the flow field: utilities/tagging/FieldRefinement.{H,cpp},
    GradientMagRefinement.cpp, CurvatureRefinement.cpp, QCriterionRefinement.cpp,
    VorticityMagRefinement.cpp, OversetRefinement.cpp, RefinementCriteria.cpp.

    Exact reals.  A field is a function of the cell indices, with its ghost cells filled (fillpatch
    is not modelled); only the first component of a field is read, except for velocity.  Fields are
    cell-centred.  A comparison with a value that is not a number is false. *)
From Verif Require Import BoxR.
Local Open Scope R_scope.

Definition cells : Type := Z -> Z -> Z -> R.
(** std::numeric_limits<double>::max() and epsilon() *)
Definition dmax : R := (2 - / 2 ^ 52) * 2 ^ 1023.
Definition deps : R := / 2 ^ 52.

(** ** Thresholds *)

(** FieldRefinement.cpp:60-77, GradientMagRefinement.cpp:37-45, CurvatureRefinement.cpp:37-45,
    QCriterionRefinement.cpp:37-45, VorticityMagRefinement.cpp:38-46: the values of the first
    [fcount] levels are set, the others keep the largest number.  [maxlev] is the largest level of
    the mesh. *)
Definition fcount (maxlev : nat) (vals : list R) : nat := Nat.min (length vals) (maxlev + 1).
Definition threshold (maxlev : nat) (vals : list R) (level : nat) : R :=
  if (level <? fcount maxlev vals)%nat then nth level vals dmax else dmax.
(** level <= m_max_lev_field, with m_max_lev_field = fcount - 1 *)
Definition listed (maxlev : nat) (vals : list R) (level : nat) : bool :=
  (Z.of_nat level <=? Z.of_nat (fcount maxlev vals) - 1)%Z.

(** ** Mesh *)
Record mesh : Type := Mesh { m_lo : Z -> R; m_dx : Z -> R }.
Definition idx (g : mesh) (d : Z) : R := 1 / m_dx g d.
(** FieldRefinement.H:61-64 *)
Definition centre (g : mesh) (d i : Z) : R := m_lo g d + (IZR i + 0.5) * m_dx g d.
(** amrex::RealBox::contains, strict on both sides *)
Definition contains (lo hi : Z -> R) (x : Z -> R) : bool :=
  (Rltb (lo 0%Z) (x 0%Z) && Rltb (x 0%Z) (hi 0%Z) && Rltb (lo 1%Z) (x 1%Z) && Rltb (x 1%Z) (hi 1%Z)
   && Rltb (lo 2%Z) (x 2%Z) && Rltb (x 2%Z) (hi 2%Z))%bool.

(** ** Field values and jumps *)

(** FieldRefinement.cpp:21-58: [ft_exists], [ft_ghosts] tell whether the field (real or integer) is
    there and has ghost cells; [ft_lo], [ft_hi] are the box of the input or the domain. *)
Record fcfg : Type := FC {
  ft_exists : bool; ft_ghosts : bool; ft_field : list R; ft_grad : list R; ft_lo : Z -> R; ft_hi : Z -> R }.
Definition field_init (c : fcfg) : outcome unit :=
  if negb (ft_exists c) then Abort
  else if negb (ft_ghosts c) then Abort
  else match ft_field c, ft_grad c with [], [] => Abort | _, _ => Ret tt end.
(** FieldRefinement.H:81-95 *)
Definition jump (f : cells) (i j k : Z) : R :=
  let axp := Rabs (f (i + 1)%Z j k - f i j k) in
  let ayp := Rabs (f i (j + 1)%Z k - f i j k) in
  let azp := Rabs (f i j (k + 1)%Z - f i j k) in
  let axm := Rabs (f (i - 1)%Z j k - f i j k) in
  let aym := Rabs (f i (j - 1)%Z k - f i j k) in
  let azm := Rabs (f i j (k - 1)%Z - f i j k) in
  let ax := rmax axp axm in
  let ay := rmax ayp aym in
  let az := rmax azp azm in
  rmax (rmax ax ay) az.
(** FieldRefinement.H:46-102: does the cell get a tag *)
Definition field_tag (c : fcfg) (maxlev : nat) (g : mesh) (f : cells) (level : nat) (i j k : Z) : bool :=
  let inside := contains (ft_lo c) (ft_hi c)
    (fun d => if (d =? 0)%Z then centre g 0 i else if (d =? 1)%Z then centre g 1 j else centre g 2 k) in
  ((listed maxlev (ft_field c) level && (Rltb (threshold maxlev (ft_field c) level) (f i j k) && inside))
   || (listed maxlev (ft_grad c) level && (Rleb (threshold maxlev (ft_grad c) level) (jump f i j k) && inside)))%bool.

(** ** Derivatives *)

(** The centred differences written out in all of the following operators, e.g.
    GradientMagRefinement.cpp:67-75 *)
Definition d0 (g : mesh) (f : cells) : cells := fun i j k => 0.5 * (f (i + 1)%Z j k - f (i - 1)%Z j k) * idx g 0.
Definition d1 (g : mesh) (f : cells) : cells := fun i j k => 0.5 * (f i (j + 1)%Z k - f i (j - 1)%Z k) * idx g 1.
Definition d2 (g : mesh) (f : cells) : cells := fun i j k => 0.5 * (f i j (k + 1)%Z - f i j (k - 1)%Z) * idx g 2.

(** An empty list of values is refused: GradientMagRefinement.cpp:33-35, CurvatureRefinement.cpp:33-35,
    QCriterionRefinement.cpp:32-35, VorticityMagRefinement.cpp:33-36. *)
Definition values_init (exists_ : bool) (vals : list R) : outcome unit :=
  if negb exists_ then Abort else match vals with [] => Abort | _ => Ret tt end.

(** GradientMagRefinement.cpp:48-82 *)
Definition gradient_tag (maxlev : nat) (vals : list R) (g : mesh) (f : cells) (level : nat) (i j k : Z) : bool :=
  let gx := d0 g f i j k in
  let gy := d1 g f i j k in
  let gz := d2 g f i j k in
  let grad_mag := sqrt (gx * gx + gy * gy + gz * gz) in
  Rltb (threshold maxlev vals level) grad_mag.

(** CurvatureRefinement.cpp:67-78: all three with the size in x *)
Definition dd0 (g : mesh) (f : cells) : cells := fun i j k => (f (i + 1)%Z j k - 2 * f i j k + f (i - 1)%Z j k) * idx g 0 * idx g 0.
Definition dd1 (g : mesh) (f : cells) : cells := fun i j k => (f i (j + 1)%Z k - 2 * f i j k + f i (j - 1)%Z k) * idx g 0 * idx g 0.
Definition dd2 (g : mesh) (f : cells) : cells := fun i j k => (f i j (k + 1)%Z - 2 * f i j k + f i j (k - 1)%Z) * idx g 0 * idx g 0.
(** 80-126; std::pow(s, 1.5) is s sqrt s *)
Definition curv_mag (g : mesh) (f : cells) (i j k : Z) : R :=
  let phixx := dd0 g f i j k in let phiyy := dd1 g f i j k in let phizz := dd2 g f i j k in
  let phiz := d2 g f i j k in
  let phiy := d1 g f i j k in
  let phiyz := d1 g (d2 g f) i j k in
  let phix := d0 g f i j k in
  let phixy := d0 g (d1 g f) i j k in
  let phixz := d0 g (d2 g f) i j k in
  let s := phix * phix + phiy * phiy + phiz * phiz in
  Rabs (phix * phix * phiyy - 2 * phix * phiy * phixy + phiy * phiy * phixx + phix * phix * phizz
        - 2 * phix * phiz * phixz + phiz * phiz * phixx + phiy * phiy * phizz - 2 * phiy * phiz * phiyz
        + phiz * phiz * phiyy) / (s * sqrt s).
(** 48-133; std::cbrt of a positive number.  Without a gradient the curvature is 0/0. *)
Definition curvature_tag (maxlev : nat) (vals : list R) (g : mesh) (f : cells) (level : nat) (i j k : Z) : bool :=
  let s := d0 g f i j k * d0 g f i j k + d1 g f i j k * d1 g f i j k + d2 g f i j k * d2 g f i j k in
  let curv_min := rmin (threshold maxlev vals level) (Rpower (idx g 0 * idx g 1 * idx g 2) (/ 3)) in
  if Rleb s 0 then false else Rltb curv_min (curv_mag g f i j k).

(** QCriterionRefinement.cpp:73-119 *)
Definition strain2 (g : mesh) (u v w : cells) (i j k : Z) : R :=
  let ux := d0 g u i j k in let vx := d0 g v i j k in let wx := d0 g w i j k in
  let uy := d1 g u i j k in let vy := d1 g v i j k in let wy := d1 g w i j k in
  let uz := d2 g u i j k in let vz := d2 g v i j k in let wz := d2 g w i j k in
  ux * ux + vy * vy + wz * wz + 0.5 * (uy + vx) ^ 2 + 0.5 * (vz + wy) ^ 2 + 0.5 * (wx + uz) ^ 2.
Definition spin2 (g : mesh) (u v w : cells) (i j k : Z) : R :=
  let vx := d0 g v i j k in let wx := d0 g w i j k in
  let uy := d1 g u i j k in let wy := d1 g w i j k in
  let uz := d2 g u i j k in let vz := d2 g v i j k in
  0.5 * (uy - vx) ^ 2 + 0.5 * (vz - wy) ^ 2 + 0.5 * (wx - uz) ^ 2.
(** 50-57, 121-133 *)
Definition q_tag (maxlev : nat) (vals : list R) (nondim : bool) (g : mesh) (u v w : cells) (level : nat) (i j k : Z) : bool :=
  if negb (listed maxlev vals level) then false
  else
    let S2 := strain2 g u v w i j k in
    let W2 := spin2 g u v w i j k in
    let qc := 0.5 * (W2 - S2) in
    let qc_nondim := 0.5 * (W2 / rmax S2 (deps * 10000) - 1) in
    ((nondim && Rltb (threshold maxlev vals level) qc_nondim)
     || (negb nondim && Rltb (threshold maxlev vals level) (Rabs qc)))%bool.
(** VorticityMagRefinement.cpp:49-105 *)
Definition vorticity_tag (maxlev : nat) (vals : list R) (g : mesh) (u v w : cells) (level : nat) (i j k : Z) : bool :=
  if negb (listed maxlev vals level) then false
  else
    let vx := d0 g v i j k in let wx := d0 g w i j k in
    let uy := d1 g u i j k in let wy := d1 g w i j k in
    let uz := d2 g u i j k in let vz := d2 g v i j k in
    Rltb (threshold maxlev vals level) (sqrt ((uy - vx) ^ 2 + (vz - wy) ^ 2 + (wx - uz) ^ 2)).

(** ** Overset *)

(** OversetRefinement.cpp:21-60 *)
Definition overset_tag (max_lev : Z) (tag_fringe tag_hole : bool) (ib : Z -> Z -> Z -> Z) (level : Z) (i j k : Z) : bool :=
  if (max_lev <? level)%Z then false
  else
    let axp := Z.abs (ib (i + 1) j k - ib i j k)%Z in
    let ayp := Z.abs (ib i (j + 1) k - ib i j k)%Z in
    let azp := Z.abs (ib i j (k + 1) - ib i j k)%Z in
    let axm := Z.abs (ib (i - 1) j k - ib i j k)%Z in
    let aym := Z.abs (ib i (j - 1) k - ib i j k)%Z in
    let azm := Z.abs (ib i j (k - 1) - ib i j k)%Z in
    let ax := Z.max axp axm in
    let ay := Z.max ayp aym in
    let az := Z.max azp azm in
    ((1 <? Z.max (Z.max ax ay) az)%Z || (tag_fringe && (ib i j k =? -1)%Z) || (tag_hole && (ib i j k =? 0)%Z))%bool.

(** ** All criteria *)

(** RefinementCriteria.cpp:32-40: each criterion sets tags, none clears them *)
Definition tag_cells (criteria : list (Z -> Z -> Z -> bool)) (tags : Z -> Z -> Z -> bool) : Z -> Z -> Z -> bool :=
  fold_left (fun (t c : Z -> Z -> Z -> bool) i j k => if c i j k then true else t i j k) criteria tags.
