(** Vocabulary of C84: cells, samples in cells, stacks of water and air, and what a search finds. *)
From Verif Require Import BoxR Plic FreeSurface.
Local Open Scope R_scope.

Definition cell_lo (L : flevel) (c : ivec) (d : Z) : R := fl_lo L d + IZR (icomp c d) * fl_dx L d.
Definition cell_hi (L : flevel) (c : ivec) (d : Z) : R := fl_lo L d + (IZR (icomp c d) + 1) * fl_dx L d.

(** The sampling line of the point (n0, n1) passes through the cell. *)
Definition passes (S : fsampler) (L : flevel) (c : ivec) (n0 n1 : Z) : Prop :=
  cell_lo L c (gc0 (fs_dir S)) <= grid0 S n0 < cell_hi L c (gc0 (fs_dir S)) /\
  cell_lo L c (gc1 (fs_dir S)) <= grid1 S n1 < cell_hi L c (gc1 (fs_dir S)).
Definition on_plane (S : fsampler) (n0 n1 : Z) : Prop := (0 <= n0 < fs_n0 S)%Z /\ (0 <= n1 < fs_n1 S)%Z.
(** The number of a point. *)
Definition number (S : fsampler) (n0 n1 : Z) : Z := (n1 * fs_n0 S + n0)%Z.

(** A plane inside the domain whose end is not before its start. *)
Definition forward (S : fsampler) (L : flevel) : Prop :=
  (0 <= fs_dir S <= 2)%Z /\ (1 <= fs_n0 S)%Z /\ (1 <= fs_n1 S)%Z /\
  let ok n d := (n = 1%Z \/ fs_start S d < fs_end S d) /\ fs_start S d <= fl_hi L d - bounds_tol /\ fs_end S d <= fl_hi L d - bounds_tol in
  ok (fs_n0 S) (gc0 (fs_dir S)) /\ ok (fs_n1 S) (gc1 (fs_dir S)).
Definition sized (L : flevel) : Prop := 0 < fl_dx L 0%Z /\ 0 < fl_dx L 1%Z /\ 0 < fl_dx L 2%Z.

(** A cell of a level is on some process. *)
Definition present (ranks : list fmesh) (L : flevel) (c : ivec) : Prop :=
  exists m cs, In m ranks /\ In (L, cs) m /\ In c cs.

(** Water and air in layers: the fraction of the interval from a to b below h; water below the first
    height of the list and above the second, below the third and above the fourth, and so on. *)
Definition part (a b h : R) : R := Rmin 1 (Rmax 0 ((h - a) / (b - a))).
Fixpoint water (a b : R) (hs : list R) : R :=
  match hs with [] => 0 | h :: hs => part a b h - water a b hs end.
(** Heights from the top, each at least w below the one before. *)
Fixpoint spaced (w : R) (hs : list R) : Prop :=
  match hs with
  | [] => True
  | h :: hs => match hs with [] => True | h' :: _ => h' + w <= h end /\ spaced w hs
  end.

(** A height some cell offers for a point: the cell is on some process, holds the point, and its top is
    below the interface found before. *)
Definition candidate (S : fsampler) (nc : Z) (ni : nat) (last : R) (ranks : list fmesh) (idx : Z) (h : R) : Prop :=
  exists L c l0 l1, present ranks L c /\ In (idx, l0, l1) (cell_points S nc L c) /\
    cell_hi L c (fs_dir S) < last /\ found S ni L c l0 l1 = Some h.
(** The greatest of a bottom and the elements of a set. *)
Definition top_of (P : R -> Prop) (lo m : R) : Prop := lo <= m /\ (forall h, P h -> h <= m) /\ (m = lo \/ P m).

(** Layers at the heights hs on every level: inside the domain, at least two cells apart, and every cell
    without water, full, or clearly mixed. *)
Definition stacked (S : fsampler) (nc : Z) (plo phi : R) (ranks : list fmesh) (hs : list R) : Prop :=
  (forall h, In h hs -> plo < h <= phi) /\
  forall L c, present ranks L c ->
    sized L /\ forward S L /\ linear_here S L c = false /\ (possible S L c <= nc)%Z /\
    plo <= cell_lo L c (fs_dir S) /\ cell_hi L c (fs_dir S) <= phi /\
    (fl_vof L c = 0 \/ fl_vof L c = 1 \/ tol < fl_vof L c < 1 - tol) /\
    spaced (2 * fl_dx L (fs_dir S)) hs /\
    forall c', fl_vof L c' = water (cell_lo L c' (fs_dir S)) (cell_hi L c' (fs_dir S)) hs.
(** The uncovered cells that hold the sampling line fill it from bottom to top. *)
Definition covered (S : fsampler) (plo phi : R) (ranks : list fmesh) (n0 n1 : Z) : Prop :=
  forall z, plo < z <= phi -> exists L c, present ranks L c /\ fl_open L c = true /\ passes S L c n0 n1 /\
    cell_lo L c (fs_dir S) < z <= cell_hi L c (fs_dir S).

(** A volume fraction that is linear in space, with slopes g. *)
Definition linear_vof (L : flevel) (f0 : R) (g : Z -> R) : Prop :=
  forall c, fl_vof L c = f0 + g 0%Z * xm L c 0 + g 1%Z * xm L c 1 + g 2%Z * xm L c 2.
(** The same at the point of a sampling line at height h. *)
Definition linear_at (S : fsampler) (f0 : R) (g : Z -> R) (l0 l1 h : R) : R :=
  f0 + g (gc0 (fs_dir S)) * l0 + g (gc1 (fs_dir S)) * l1 + g (fs_dir S) * h.
(** The plane m.x = al of a cell, in units of the cell from its lower corner, at the point of a
    sampling line at height h. *)
Definition plane_at (S : fsampler) (L : flevel) (c : ivec) (m : v3) (l0 l1 h : R) : R :=
  let m_ d := if (d =? 0)%Z then w0 m else if (d =? 1)%Z then w1 m else w2 m in
  let u d x := m_ d * ((x - cell_lo L c d) / fl_dx L d) in
  u (gc0 (fs_dir S)) l0 + u (gc1 (fs_dir S)) l1 + u (fs_dir S) h.

(** Cells where the volume fraction is interpolated: those an overset mesh writes, and those beyond the
    distance of the input from the upper end of the domain in x. *)
Definition zone (S : fsampler) (L : flevel) (c : ivec) : Prop :=
  fs_overset S = true /\ fl_iblank L c = (-1)%Z \/ exists lx, fs_linear S = Some lx /\ fl_hi L 0%Z - lx <= (cell_lo L c 0 + cell_hi L c 0) / 2.
(** A cell that is neither full nor empty; a cell on the other side of one half than a neighbour above or
    below it in the direction of the search. *)
Definition clearly_mixed (L : flevel) (c : ivec) : Prop := eps64 * 10000 < fl_vof L c < 1 - eps64 * 10000.
Definition beside_half (L : flevel) (c : ivec) (dir : Z) : Prop :=
  let v s := fl_vof L (IV (iv0 c + if (dir =? 0)%Z then s else 0) (iv1 c + if (dir =? 1)%Z then s else 0) (iv2 c + if (dir =? 2)%Z then s else 0))%Z - / 2 in
  v 1%Z * v 0%Z <= 0 \/ v 0%Z * v (-1)%Z <= 0.
