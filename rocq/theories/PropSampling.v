(** C40: data probes. *)
From Coq Require Import Reals Lra ZArith List Bool Lia ZifyBool ZifyNat Psatz Permutation Arith Floats.SpecFloat.
From Verif Require Import BoxR BoxRFacts VecSpace Sampling.
Local Open Scope R_scope.

(** *** Specification vocabulary *)
(** A usable geometry: at least one cell and some width in every direction. *)
Definition dir3 (d : Z) : Prop := d = 0%Z \/ d = 1%Z \/ d = 2%Z.
Definition geom_ok (g : sgeom) : Prop := forall d, dir3 d ->
  (1 <= icomp (sg_n g) d)%Z /\ 20 * bounds_tol < vcomp (sg_hi g) d - vcomp (sg_lo g) d.
(** A point of the domain, the high sides excluded. *)
Definition in_domain (g : sgeom) (p : vec) : Prop := forall d, dir3 d ->
  vcomp (sg_lo g) d <= vcomp p d < vcomp (sg_hi g) d.
(** Boxes that cover every cell of the domain exactly once. *)
Definition tiling (g : sgeom) (boxes : list box) : Prop := forall c,
  in_box (sg_domain g) c -> length (filter (fun b => box_has b c) boxes) = 1%nat.

Lemma btol_pos : 0 < bounds_tol.
Proof. unfold bounds_tol. apply Rmult_lt_0_compat; [apply Rinv_0_lt_compat|]; lra. Qed.
Lemma Rltb_case a b : (a < b /\ Rltb a b = true) \/ (b <= a /\ Rltb a b = false).
Proof. destruct (Rltb a b) eqn:E; [apply Rltb_spec in E|apply Rltb_false in E]; lra. Qed.
Lemma Rleb_case a b : (a <= b /\ Rleb a b = true) \/ (b < a /\ Rleb a b = false).
Proof. destruct (Rleb a b) eqn:E; [apply Rleb_spec in E|apply Rleb_false in E]; lra. Qed.
Lemma vec_eq a b : vx a = vx b -> vy a = vy b -> vz a = vz b -> a = b.
Proof. destruct a, b; cbn; intros; subst; reflexivity. Qed.

Lemma box_has_spec b c : box_has b c = true <-> in_box b c.
Proof. unfold box_has, in_box. lia. Qed.

Lemma floor_range lo hi n x : (1 <= n)%Z -> lo < hi ->
  ((0 <= rfloor ((x - lo) * (1 / ((hi - lo) / IZR n))) <= n - 1)%Z <-> lo <= x < hi).
Proof.
  intros Hn Hw. assert (N : 1 <= IZR n) by (apply IZR_le; lia).
  set (q := (x - lo) * (1 / ((hi - lo) / IZR n))).
  assert (Q : (x - lo) = q * ((hi - lo) / IZR n)) by (unfold q; field; lra).
  assert (W : 0 < (hi - lo) / IZR n) by (apply Rdiv_lt_0_compat; lra).
  assert (T : (hi - lo) = IZR n * ((hi - lo) / IZR n)) by (field; lra).
  set (w := (hi - lo) / IZR n) in *. clearbody w. pose proof (rfloor_spec q) as F.
  clearbody q. split.
  - intros (A & B). assert (0 <= IZR (rfloor q)) by (apply IZR_le; lia).
    assert (IZR (rfloor q) <= IZR n - 1) by (rewrite <- minus_IZR; apply IZR_le; lia).
    assert (0 <= q * w) by (apply Rmult_le_pos; lra).
    assert (q * w < IZR n * w) by (apply Rmult_lt_compat_r; lra). lra.
  - intros (A & B). assert (0 <= q) by (apply (Rmult_le_reg_r w); lra).
    assert (q < IZR n) by (apply (Rmult_lt_reg_r w); lra). split.
    + assert (-1 < rfloor q)%Z by (apply lt_IZR; lra). lia.
    + assert (rfloor q < n)%Z by (apply lt_IZR; lra). lia.
Qed.

Lemma geom_dir g d : geom_ok g -> dir3 d -> (1 <= icomp (sg_n g) d)%Z /\ vcomp (sg_lo g) d < vcomp (sg_hi g) d.
Proof. intros G D. destruct (G d D). pose proof btol_pos. split; [assumption|lra]. Qed.

(** The test the samplers use is membership in the domain. *)
Theorem c40_contains : forall g p, geom_ok g -> contains g (sg_domain g) p = true <-> in_domain g p.
Proof.
  intros g p G. unfold contains. rewrite box_has_spec. unfold in_box, sg_domain, cell_of. cbn [blo bhi iv0 iv1 iv2].
  destruct (geom_dir g 0%Z G) as (A0 & B0); [unfold dir3; lia|].
  destruct (geom_dir g 1%Z G) as (A1 & B1); [unfold dir3; lia|].
  destruct (geom_dir g 2%Z G) as (A2 & B2); [unfold dir3; lia|].
  unfold sg_dx.
  pose proof (floor_range _ _ _ (vcomp p 0) A0 B0) as F0.
  pose proof (floor_range _ _ _ (vcomp p 1) A1 B1) as F1.
  pose proof (floor_range _ _ _ (vcomp p 2) A2 B2) as F2.
  cbn [icomp Z.eqb] in F0, F1, F2. change (icomp (sg_n g) 1) with (iv1 (sg_n g)) in F1.
  change (icomp (sg_n g) 2) with (iv2 (sg_n g)) in F2.
  change (icomp (sg_n g) 0) with (iv0 (sg_n g)). change (icomp (sg_n g) 1) with (iv1 (sg_n g)).
  change (icomp (sg_n g) 2) with (iv2 (sg_n g)).
  change (vcomp p 0) with (vx p) in F0. change (vcomp p 1) with (vy p) in F1. change (vcomp p 2) with (vz p) in F2.
  change (vcomp (sg_lo g) 0) with (vx (sg_lo g)) in *. change (vcomp (sg_lo g) 1) with (vy (sg_lo g)) in *.
  change (vcomp (sg_lo g) 2) with (vz (sg_lo g)) in *. change (vcomp (sg_hi g) 0) with (vx (sg_hi g)) in *.
  change (vcomp (sg_hi g) 1) with (vy (sg_hi g)) in *. change (vcomp (sg_hi g) 2) with (vz (sg_hi g)) in *.
  rewrite F0, F1, F2. unfold in_domain. split.
  - intros (H0 & H1 & H2) d [->|[->| ->]]; cbn; assumption.
  - intros H. split; [|split].
    + exact (H 0%Z ltac:(unfold dir3; lia)).
    + exact (H 1%Z ltac:(unfold dir3; lia)).
    + exact (H 2%Z ltac:(unfold dir3; lia)).
Qed.

Lemma filter_all {A} (f : A -> bool) l : (forall x, In x l -> f x = true) -> filter f l = l.
Proof.
  induction l as [|a l IH]; intros H; [reflexivity|]. cbn. rewrite (H a) by (left; reflexivity).
  f_equal. apply IH. intros x Hx. apply H. right. exact Hx.
Qed.
Lemma in_combine_fst {A B} (l : list A) (m : list B) x y : In (x, y) (combine l m) -> In x l.
Proof. apply in_combine_l. Qed.
Lemma locs_all g pts : geom_ok g -> (forall p, In p pts -> in_domain g p) ->
  locs_in g (sg_domain g) pts = combine pts (seq 0 (length pts)).
Proof.
  intros G H. unfold locs_in. apply filter_all. intros (p, i) Hi. cbn [fst].
  apply c40_contains; [exact G|]. apply H. apply (in_combine_l _ _ _ _ Hi).
Qed.
Lemma filter_length_lt {A} (f : A -> bool) l x : In x l -> f x = false -> (length (filter f l) < length l)%nat.
Proof.
  induction l as [|a l IH]; [contradiction|]. intros [->|Hi] Hx; cbn [filter].
  - rewrite Hx. cbn [length]. assert (forall m, length (filter f m) <= length m)%nat.
    { induction m as [|b m IHm]; cbn [filter]; [lia|]. destruct (f b); cbn [length]; lia. }
    specialize (H l). lia.
  - specialize (IH Hi Hx). destruct (f a); cbn [length]; lia.
Qed.
(** The request succeeds exactly when all points lie in the domain, and then returns all
    of them, in order, numbered from 0. *)
Theorem c40_locations : forall g pts, geom_ok g ->
  ((forall p, In p pts -> in_domain g p) ->
     sampling_locations g pts = Ret (combine pts (seq 0 (length pts)))) /\
  ((exists p, In p pts /\ ~ in_domain g p) -> sampling_locations g pts = Abort).
Proof.
  intros g pts G. unfold sampling_locations. split.
  - intros H. rewrite (locs_all g pts G H). rewrite combine_length, seq_length, Nat.min_id, Nat.eqb_refl. reflexivity.
  - intros (p & Hi & Hn).
    assert (L : (length (locs_in g (sg_domain g) pts) < length pts)%nat).
    { unfold locs_in. destruct (In_nth pts p vzero Hi) as (k & Hk & E).
      assert (Hc : In (p, k) (combine pts (seq 0 (length pts)))).
      { assert (X : nth k (combine pts (seq 0 (length pts))) (vzero, 0%nat) = (p, k)).
        { rewrite combine_nth by (rewrite seq_length; reflexivity). rewrite seq_nth by exact Hk. rewrite E. reflexivity. }
        rewrite <- X. apply nth_In. rewrite combine_length, seq_length. lia. }
      assert (Len : length (combine pts (seq 0 (length pts))) = length pts) by (rewrite combine_length, seq_length; lia).
      rewrite <- Len at 2. apply (filter_length_lt _ _ (p, k) Hc). cbn [fst].
      destruct (contains g (sg_domain g) p) eqn:C; [|reflexivity]. apply c40_contains in C; [contradiction|exact G]. }
    replace (_ =? _)%nat with false by lia. reflexivity.
Qed.

(** *** Clamping *)
Lemma clamp1_in lo hi x : 20 * bounds_tol < hi - lo ->
  lo + bounds_tol <= clamp1 lo hi x <= hi - bounds_tol /\
  (lo + bounds_tol <= x <= hi - bounds_tol -> clamp1 lo hi x = x) /\
  Rabs (clamp1 lo hi x - Rmin (Rmax x lo) hi) <= 10 * bounds_tol.
Proof.
  intros H. pose proof btol_pos as P. unfold clamp1. cbv zeta.
  destruct (Rltb_case x (lo + bounds_tol)) as [(A & ->)|(A & ->)].
  - destruct (Rltb_case (hi - bounds_tol) (lo + 10 * bounds_tol)) as [(B & _)|(B & ->)]; [lra|].
    split; [lra|]. split; [lra|]. apply Rabs_le. unfold Rmin, Rmax. destruct (Rle_dec x lo); destruct (Rle_dec _ hi); lra.
  - destruct (Rltb_case (hi - bounds_tol) x) as [(B & ->)|(B & ->)].
    + split; [lra|]. split; [lra|]. apply Rabs_le. unfold Rmin, Rmax. destruct (Rle_dec x lo); destruct (Rle_dec _ hi); lra.
    + split; [lra|]. split; [reflexivity|]. apply Rabs_le. unfold Rmin, Rmax. destruct (Rle_dec x lo); destruct (Rle_dec _ hi); lra.
Qed.
Lemma vcomp_clamp g p d : dir3 d -> vcomp (clamp g p) d = clamp1 (vcomp (sg_lo g) d) (vcomp (sg_hi g) d) (vcomp p d).
Proof. intros [->|[->| ->]]; reflexivity. Qed.
(** Points that lie in the domain by more than the tolerance stay where they were asked
    for; all others end up in the domain, next to the nearest point of it. *)
Theorem c40_clamp : forall g p, geom_ok g ->
  (forall d, dir3 d -> vcomp (sg_lo g) d + bounds_tol <= vcomp (clamp g p) d <= vcomp (sg_hi g) d - bounds_tol) /\
  ((forall d, dir3 d -> vcomp (sg_lo g) d + bounds_tol <= vcomp p d <= vcomp (sg_hi g) d - bounds_tol) -> clamp g p = p) /\
  (forall d, dir3 d -> Rabs (vcomp (clamp g p) d - Rmin (Rmax (vcomp p d) (vcomp (sg_lo g) d)) (vcomp (sg_hi g) d)) <= 10 * bounds_tol).
Proof.
  intros g p G. split; [|split].
  - intros d D. rewrite vcomp_clamp by exact D. exact (proj1 (clamp1_in _ _ _ (proj2 (G d D)))).
  - intros H. apply vec_eq.
    + exact (proj1 (proj2 (clamp1_in _ _ (vcomp p 0) (proj2 (G 0%Z ltac:(unfold dir3; lia))))) (H 0%Z ltac:(unfold dir3; lia))).
    + exact (proj1 (proj2 (clamp1_in _ _ (vcomp p 1) (proj2 (G 1%Z ltac:(unfold dir3; lia))))) (H 1%Z ltac:(unfold dir3; lia))).
    + exact (proj1 (proj2 (clamp1_in _ _ (vcomp p 2) (proj2 (G 2%Z ltac:(unfold dir3; lia))))) (H 2%Z ltac:(unfold dir3; lia))).
  - intros d D. rewrite vcomp_clamp by exact D. exact (proj2 (proj2 (clamp1_in _ _ _ (proj2 (G d D))))).
Qed.
Lemma clamp_in g p d : geom_ok g -> dir3 d -> vcomp (sg_lo g) d <= vcomp (clamp g p) d < vcomp (sg_hi g) d.
Proof. intros G D. pose proof (proj1 (c40_clamp g p G) d D). pose proof btol_pos. lra. Qed.

(** *** Line *)
Lemma frac_range i n : (0 <= i)%Z -> (i <= n - 1)%Z -> 0 <= IZR i / IZR (Z.max (n - 1) 1) <= 1.
Proof.
  intros A B. assert (1 <= IZR (Z.max (n - 1) 1)) by (apply IZR_le; lia).
  assert (0 <= IZR i) by (apply IZR_le; lia). assert (IZR i <= IZR (Z.max (n - 1) 1)) by (apply IZR_le; lia).
  assert (0 < / IZR (Z.max (n - 1) 1)) by (apply Rinv_0_lt_compat; lra).
  unfold Rdiv. split; [apply Rmult_le_pos; lra|]. rewrite <- (Rinv_r (IZR (Z.max (n - 1) 1))) by lra.
  apply Rmult_le_compat_r; lra.
Qed.
Lemma vcomp_line n s e i d : dir3 d ->
  vcomp (line_point n s e i) d = vcomp s d + IZR i / IZR (Z.max (n - 1) 1) * (vcomp e d - vcomp s d).
Proof.
  assert (1 <= IZR (Z.max (n - 1) 1)) by (apply IZR_le; lia).
  intros [->|[->| ->]]; cbn; unfold line_dx; field; lra.
Qed.
Lemma convex lo hi a b t : lo <= a < hi -> lo <= b < hi -> 0 <= t <= 1 -> lo <= a + t * (b - a) < hi.
Proof.
  intros A B T. assert (0 <= (1 - t) * (a - lo)) by (apply Rmult_le_pos; lra).
  assert (0 <= t * (b - lo)) by (apply Rmult_le_pos; lra).
  assert (0 <= (1 - t) * (hi - a)) by (apply Rmult_le_pos; lra).
  assert (0 <= t * (hi - b)) by (apply Rmult_le_pos; lra).
  split; [lra|]. destruct (Rle_lt_dec t (1/2)).
  - assert (1/2 * (hi - a) <= (1 - t) * (hi - a)) by (apply Rmult_le_compat_r; lra). lra.
  - assert (1/2 * (hi - b) <= t * (hi - b)) by (apply Rmult_le_compat_r; lra). lra.
Qed.
Lemma line_inside g n s e : geom_ok g -> (forall p, In p (line_sampler g n s e) -> in_domain g p).
Proof.
  intros G p Hp. unfold line_sampler, line_points in Hp. apply in_map_iff in Hp. destruct Hp as (i & <- & Hi).
  apply In_zrange in Hi. intros d D. rewrite vcomp_line by exact D.
  apply convex; [apply clamp_in; assumption|apply clamp_in; assumption|]. apply frac_range; lia.
Qed.
Lemma nth_zrange k n : (k < Z.to_nat n)%nat -> nth k (zrange 0 (n - 1)) 0%Z = Z.of_nat k.
Proof.
  intros H. unfold zrange. rewrite (nth_indep _ 0%Z (0 + Z.of_nat 0)%Z) by (rewrite map_length, seq_length; lia).
  rewrite (map_nth (fun m => 0 + Z.of_nat m)%Z), seq_nth by lia. lia.
Qed.
Theorem c40_line : forall g n s e, geom_ok g -> exists l,
  sampling_locations g (line_sampler g n s e) = Ret l /\ length l = Z.to_nat n /\
  (forall k, (k < Z.to_nat n)%nat -> exists p, nth k l (vzero, 0%nat) = (p, k) /\
     forall d, dir3 d -> vcomp p d =
       vcomp (clamp g s) d + INR k / IZR (Z.max (n - 1) 1) * (vcomp (clamp g e) d - vcomp (clamp g s) d)) /\
  ((1 <= n)%Z -> fst (nth 0 l (vzero, 0%nat)) = clamp g s) /\
  ((2 <= n)%Z -> fst (nth (Z.to_nat n - 1) l (vzero, 0%nat)) = clamp g e).
Proof.
  intros g n s e G. exists (combine (line_sampler g n s e) (seq 0 (length (line_sampler g n s e)))).
  split; [apply c40_locations; [exact G|apply line_inside; exact G]|].
  assert (Len : length (line_sampler g n s e) = Z.to_nat n).
  { unfold line_sampler, line_points. rewrite map_length, length_zrange. f_equal. lia. }
  assert (N : forall k, (k < Z.to_nat n)%nat ->
     nth k (combine (line_sampler g n s e) (seq 0 (length (line_sampler g n s e)))) (vzero, 0%nat) =
     (line_point n (clamp g s) (clamp g e) (Z.of_nat k), k)).
  { intros k Hk. rewrite combine_nth by (rewrite seq_length; reflexivity). rewrite seq_nth by lia. f_equal.
    unfold line_sampler, line_points.
    rewrite (nth_indep _ vzero (line_point n (clamp g s) (clamp g e) 0)) by (rewrite map_length, length_zrange; lia).
    rewrite map_nth, nth_zrange by exact Hk. reflexivity. }
  split; [rewrite combine_length, seq_length; lia|]. split; [|split].
  - intros k Hk. exists (line_point n (clamp g s) (clamp g e) (Z.of_nat k)). split; [apply N; exact Hk|].
    intros d D. rewrite vcomp_line, INR_IZR_INZ by exact D. reflexivity.
  - intros Hn. rewrite N by lia. cbn [fst]. apply vec_eq; cbn; ring.
  - intros Hn. rewrite N by lia. cbn [fst].
    assert (E : IZR (Z.of_nat (Z.to_nat n - 1)) = IZR (Z.max (n - 1) 1)) by (f_equal; lia).
    assert (1 <= IZR (Z.max (n - 1) 1)) by (apply IZR_le; lia).
    apply vec_eq; unfold line_point; cbn [vx vy vz]; rewrite E; unfold line_dx; field; lra.
Qed.

(** *** Nested loops *)
Lemma length_flat_map_const {A B} (f : A -> list B) l n : (forall x, In x l -> length (f x) = n) ->
  length (flat_map f l) = (length l * n)%nat.
Proof.
  induction l as [|a l IH]; intros H; [reflexivity|]. cbn. rewrite app_length, (H a) by (left; reflexivity).
  rewrite IH by (intros x Hx; apply H; right; exact Hx). reflexivity.
Qed.
Lemma nth_flat_map {A B} (f : A -> list B) l n k i (da : A) (db : B) :
  (forall x, In x l -> length (f x) = n) -> (i < n)%nat -> (k < length l)%nat ->
  nth (k * n + i) (flat_map f l) db = nth i (f (nth k l da)) db.
Proof.
  revert k. induction l as [|a l IH]; intros k H Hi Hk; [cbn in Hk; lia|]. cbn [flat_map].
  assert (La : length (f a) = n) by (apply H; left; reflexivity).
  destruct k as [|k]; cbn [nth].
  - rewrite app_nth1 by lia. reflexivity.
  - rewrite app_nth2 by lia. replace (S k * n + i - length (f a))%nat with (k * n + i)%nat by lia.
    apply IH; [|exact Hi|cbn in Hk; lia]. intros x Hx. apply H. right. exact Hx.
Qed.

Lemma idx2 a b i j : (i < a)%nat -> (j < b)%nat -> (j * a + i < b * a)%nat.
Proof. intros. assert (S j * a <= b * a)%nat by (apply Nat.mul_le_mono_r; lia). cbn in *. lia. Qed.

(** *** Volume *)
Lemma frac_range' i n : (0 <= i)%Z -> (i <= n - 1)%Z -> 0 <= IZR i / IZR n <= 1.
Proof.
  intros A B. assert (1 <= IZR n) by (apply IZR_le; lia).
  assert (0 <= IZR i) by (apply IZR_le; lia). assert (IZR i <= IZR n) by (apply IZR_le; lia).
  assert (0 < / IZR n) by (apply Rinv_0_lt_compat; lra).
  unfold Rdiv. split; [apply Rmult_le_pos; lra|]. rewrite <- (Rinv_r (IZR n)) by lra.
  apply Rmult_le_compat_r; lra.
Qed.
Lemma volume_inside g n lo hi : geom_ok g -> forall p, In p (volume_sampler g n lo hi) -> in_domain g p.
Proof.
  intros G p Hp. unfold volume_sampler, volume_points in Hp.
  apply in_flat_map in Hp. destruct Hp as (k & Hk & Hp). apply in_flat_map in Hp. destruct Hp as (j & Hj & Hp).
  apply in_map_iff in Hp. destruct Hp as (i & <- & Hi).
  apply In_zrange in Hi. apply In_zrange in Hj. apply In_zrange in Hk.
  assert (X : forall m q a b, (0 <= q <= m - 1)%Z -> a + volume_dx m a b * IZR q = a + IZR q / IZR m * (b - a)).
  { intros m q a b Hq. assert (1 <= IZR m) by (apply IZR_le; lia). unfold volume_dx. field. lra. }
  intros d [->|[->| ->]]; unfold volume_point; cbn [vcomp Z.eqb Pos.eqb vx vy vz]; unfold vcomp; cbn [Z.eqb Pos.eqb];
    rewrite X by assumption; (apply convex; [| |apply frac_range'; lia]).
  - exact (clamp_in g lo 0 G ltac:(unfold dir3; lia)).
  - exact (clamp_in g hi 0 G ltac:(unfold dir3; lia)).
  - exact (clamp_in g lo 1 G ltac:(unfold dir3; lia)).
  - exact (clamp_in g hi 1 G ltac:(unfold dir3; lia)).
  - exact (clamp_in g lo 2 G ltac:(unfold dir3; lia)).
  - exact (clamp_in g hi 2 G ltac:(unfold dir3; lia)).
Qed.
(** n0 * n1 * n2 points, point (i,j,k) at number (k n1 + j) n0 + i, at lo + (hi - lo) i/n:
    the low corner is included, the high one is not. *)
Theorem c40_volume : forall g n lo hi, geom_ok g -> (0 <= iv0 n)%Z -> (0 <= iv1 n)%Z -> (0 <= iv2 n)%Z -> exists l,
  sampling_locations g (volume_sampler g n lo hi) = Ret l /\
  length l = (Z.to_nat (iv2 n) * (Z.to_nat (iv1 n) * Z.to_nat (iv0 n)))%nat /\
  (forall i j k, (i < Z.to_nat (iv0 n))%nat -> (j < Z.to_nat (iv1 n))%nat -> (k < Z.to_nat (iv2 n))%nat ->
    let idx := (k * (Z.to_nat (iv1 n) * Z.to_nat (iv0 n)) + (j * Z.to_nat (iv0 n) + i))%nat in
    exists p, nth idx l (vzero, 0%nat) = (p, idx) /\
      vx p = vx (clamp g lo) + INR i / IZR (iv0 n) * (vx (clamp g hi) - vx (clamp g lo)) /\
      vy p = vy (clamp g lo) + INR j / IZR (iv1 n) * (vy (clamp g hi) - vy (clamp g lo)) /\
      vz p = vz (clamp g lo) + INR k / IZR (iv2 n) * (vz (clamp g hi) - vz (clamp g lo))).
Proof.
  intros g n lo hi G H0 H1 H2.
  set (pts := volume_sampler g n lo hi). exists (combine pts (seq 0 (length pts))).
  split; [apply c40_locations; [exact G|apply volume_inside; exact G]|].
  set (a := Z.to_nat (iv0 n)). set (b := Z.to_nat (iv1 n)). set (c := Z.to_nat (iv2 n)).
  assert (LI : forall (f : Z -> vec), length (map f (zrange 0 (iv0 n - 1))) = a).
  { intros f. rewrite map_length, length_zrange. unfold a. f_equal. lia. }
  assert (LJ : forall (f : Z -> Z -> vec), length (flat_map (fun j => map (f j) (zrange 0 (iv0 n - 1))) (zrange 0 (iv1 n - 1))) = (b * a)%nat).
  { intros f. rewrite (length_flat_map_const _ _ a) by (intros; apply LI). f_equal. rewrite length_zrange. unfold b. f_equal. lia. }
  assert (Len : length pts = (c * (b * a))%nat).
  { unfold pts, volume_sampler, volume_points. rewrite (length_flat_map_const _ _ (b * a)%nat).
    - f_equal. rewrite length_zrange. unfold c. f_equal. lia.
    - intros k Hk. apply (LJ (fun j i => volume_point n (clamp g lo) (clamp g hi) i j k)). }
  split; [rewrite combine_length, seq_length; lia|].
  intros i j k Hi Hj Hk idx. fold a b in idx.
  assert (Ib : (idx < length pts)%nat) by (rewrite Len; unfold idx; apply idx2; [apply idx2; assumption|exact Hk]).
  exists (volume_point n (clamp g lo) (clamp g hi) (Z.of_nat i) (Z.of_nat j) (Z.of_nat k)). split.
  - rewrite combine_nth by (rewrite seq_length; reflexivity). rewrite seq_nth by exact Ib. f_equal.
    unfold pts, volume_sampler, volume_points, idx.
    rewrite (nth_flat_map _ _ (b * a)%nat k (j * a + i)%nat 0%Z) ;
      [|intros x Hx; apply (LJ (fun jj ii => volume_point n (clamp g lo) (clamp g hi) ii jj x))|apply idx2; assumption
       |rewrite length_zrange; unfold c in Hk; lia].
    rewrite (nth_flat_map _ _ a j i 0%Z) ; [|intros x Hx; apply LI|exact Hi|rewrite length_zrange; unfold b in Hj; lia].
    rewrite !nth_zrange by assumption.
    rewrite (nth_indep _ vzero (volume_point n (clamp g lo) (clamp g hi) 0 (Z.of_nat j) (Z.of_nat k))) by (rewrite LI; exact Hi).
    rewrite (map_nth (fun i0 => volume_point n (clamp g lo) (clamp g hi) i0 (Z.of_nat j) (Z.of_nat k))).
    rewrite nth_zrange by exact Hi. reflexivity.
  - assert (1 <= IZR (iv0 n)) by (apply IZR_le; lia). assert (1 <= IZR (iv1 n)) by (apply IZR_le; lia).
    assert (1 <= IZR (iv2 n)) by (apply IZR_le; lia).
    rewrite !INR_IZR_INZ. unfold volume_point, volume_dx; cbn [vx vy vz].
    split; [field; lra|]. split; field; lra.
Qed.

(** *** Probes from a file *)
Theorem c40_probe : forall g offs ov file, geom_ok g -> exists l,
  let offs' := match offs with [] => [0] | _ => offs end in
  sampling_locations g (probe_sampler g offs ov file) = Ret l /\
  length l = (length offs' * length file)%nat /\
  (forall o i, (o < length offs')%nat -> (i < length file)%nat ->
    nth (o * length file + i) l (vzero, 0%nat) =
    (clamp g (vadd (nth i file vzero) (vscale ov (nth o offs' 0))), (o * length file + i)%nat)).
Proof.
  intros g offs ov file G. set (pts := probe_sampler g offs ov file).
  exists (combine pts (seq 0 (length pts))). cbv zeta. set (offs' := match offs with [] => [0] | _ => offs end).
  split.
  { apply c40_locations; [exact G|]. intros p Hp. unfold pts, probe_sampler in Hp. apply in_map_iff in Hp.
    destruct Hp as (q & <- & _). intros d D. apply clamp_in; assumption. }
  assert (LF : forall o, length (map (fun p => vadd p (vscale ov o)) file) = length file) by (intros; apply map_length).
  assert (Len : length pts = (length offs' * length file)%nat).
  { unfold pts, probe_sampler. rewrite map_length. apply length_flat_map_const. intros; apply LF. }
  split; [rewrite combine_length, seq_length; lia|].
  intros o i Ho Hi. rewrite combine_nth by (rewrite seq_length; reflexivity).
  assert ((o * length file + i < length pts)%nat) by (rewrite Len; apply idx2; assumption).
  rewrite seq_nth by assumption. f_equal. unfold pts, probe_sampler.
  rewrite (nth_indep _ vzero (clamp g vzero)) by (fold offs'; rewrite map_length, (length_flat_map_const _ _ (length file)) by (intros; apply LF); apply idx2; assumption).
  rewrite map_nth. f_equal. fold offs'.
  rewrite (nth_flat_map _ _ (length file) o i 0) by (try assumption; intros; apply LF).
  rewrite (nth_indep _ vzero ((fun p => vadd p (vscale ov (nth o offs' 0))) vzero)) by (rewrite LF; exact Hi).
  apply (map_nth (fun p => vadd p (vscale ov (nth o offs' 0)))).
Qed.

(** *** Plane *)
Definition plane_fixed (g : sgeom) (tol : R) (p : plane) : plane :=
  plane_fix g tol (Plane (pl_o p) (pl_a1 p) (pl_a2 p) (match pl_offs p with [] => [0] | _ => pl_offs p end)
                         (pl_ov p) (pl_n0 p) (pl_n1 p)).
Definition corner (p : plane) (o : R) (d : Z) : R :=
  vcomp (pl_o p) d + o * vcomp (pl_ov p) d.
Lemma plane_ok_spec g p : plane_ok g p = true <->
  forall o d, In o (pl_offs p) -> dir3 d ->
    vcomp (sg_lo g) d <= corner p o d < vcomp (sg_hi g) d /\
    vcomp (sg_lo g) d <= corner p o d + vcomp (pl_a1 p) d < vcomp (sg_hi g) d /\
    vcomp (sg_lo g) d <= corner p o d + vcomp (pl_a2 p) d < vcomp (sg_hi g) d.
Proof.
  assert (N : forall x lo hi, negb (Rltb x lo || Rleb hi x) = true <-> lo <= x < hi).
  { intros x lo hi. destruct (Rltb_case x lo) as [(A & ->)|(A & ->)]; destruct (Rleb_case hi x) as [(B & ->)|(B & ->)];
    cbn; split; intros H; try discriminate; try lra; try reflexivity. }
  unfold plane_ok. rewrite forallb_forall. split.
  - intros H o d Ho D. specialize (H o Ho). rewrite forallb_forall in H.
    assert (Hd : In d [0; 1; 2]%Z) by (destruct D as [->|[->| ->]]; cbn; tauto).
    specialize (H d Hd). cbv zeta in H. cbn [forallb] in H. rewrite !andb_true_iff in H.
    destruct H as (H1 & H2 & H3 & _). apply N in H1. apply N in H2. apply N in H3. unfold corner. tauto.
  - intros H o Ho. rewrite forallb_forall. intros d Hd.
    assert (D : dir3 d) by (cbn in Hd; unfold dir3; tauto || lia).
    destruct (H o d Ho D) as (H1 & H2 & H3). unfold corner in *. cbv zeta. cbn [forallb].
    rewrite !andb_true_iff. repeat split; apply N; assumption.
Qed.
Lemma vcomp_map3 f d : dir3 d -> vcomp (map3 f) d = f d.
Proof. intros [->|[->| ->]]; reflexivity. Qed.
Lemma plane_inside g p : (forall o d, In o (pl_offs p) -> dir3 d ->
     vcomp (sg_lo g) d <= corner p o d < vcomp (sg_hi g) d /\
     vcomp (sg_lo g) d <= corner p o d + vcomp (pl_a1 p) d < vcomp (sg_hi g) d /\
     vcomp (sg_lo g) d <= corner p o d + vcomp (pl_a2 p) d < vcomp (sg_hi g) d /\
     vcomp (sg_lo g) d <= corner p o d + vcomp (pl_a1 p) d + vcomp (pl_a2 p) d < vcomp (sg_hi g) d) ->
  forall q, In q (plane_points p) -> in_domain g q.
Proof.
  intros H q Hq. unfold plane_points in Hq. apply in_flat_map in Hq. destruct Hq as (o & Ho & Hq).
  apply in_flat_map in Hq. destruct Hq as (j & Hj & Hq). apply in_map_iff in Hq. destruct Hq as (i & <- & Hi).
  apply In_zrange in Hi. apply In_zrange in Hj. intros d D. unfold plane_point. rewrite vcomp_map3 by exact D.
  destruct (H o d Ho D) as (H1 & H2 & H3 & H4). unfold corner in *.
  pose proof (frac_range i (pl_n0 p) ltac:(lia) ltac:(lia)) as Fi.
  pose proof (frac_range j (pl_n1 p) ltac:(lia) ltac:(lia)) as Fj.
  set (s := IZR i / IZR (Z.max (pl_n0 p - 1) 1)) in *. set (t := IZR j / IZR (Z.max (pl_n1 p - 1) 1)) in *.
  assert (1 <= IZR (Z.max (pl_n0 p - 1) 1)) by (apply IZR_le; lia).
  assert (1 <= IZR (Z.max (pl_n1 p - 1) 1)) by (apply IZR_le; lia).
  set (a := vcomp (pl_a1 p) d) in *. set (b := vcomp (pl_a2 p) d) in *.
  set (c := vcomp (pl_o p) d) in *. set (v := o * vcomp (pl_ov p) d) in *.
  replace (c + a / IZR (Z.max (pl_n0 p - 1) 1) * IZR i + b / IZR (Z.max (pl_n1 p - 1) 1) * IZR j + v)
    with ((c + v + s * a) + t * ((c + v + b + s * a) - (c + v + s * a))) by (unfold s, t; field; lra).
  clearbody s t a b c v.
  assert (A : vcomp (sg_lo g) d <= c + v + s * a < vcomp (sg_hi g) d).
  { replace (c + v + s * a) with (c + v + s * ((c + v + a) - (c + v))) by ring. apply convex; assumption. }
  assert (B : vcomp (sg_lo g) d <= c + v + b + s * a < vcomp (sg_hi g) d).
  { replace (c + v + b + s * a) with (c + v + b + s * ((c + v + a + b) - (c + v + b))) by ring. apply convex; try assumption. }
  apply convex; assumption.
Qed.
(** An accepted plane yields all its points exactly when the corner opposite to the origin
    is also inside (with at least two points each way): the acceptance test looks at the
    other three corners only. *)
Theorem c40_plane : forall g tol p pts, geom_ok g -> (2 <= pl_n0 p)%Z -> (2 <= pl_n1 p)%Z ->
  plane_sampler g tol p = Ret pts ->
  let q := plane_fixed g tol p in
  ((forall o d, In o (pl_offs q) -> dir3 d ->
      vcomp (sg_lo g) d <= corner q o d + vcomp (pl_a1 q) d + vcomp (pl_a2 q) d < vcomp (sg_hi g) d) ->
   sampling_locations g pts = Ret (combine pts (seq 0 (length pts)))) /\
  ((exists o d, In o (pl_offs q) /\ dir3 d /\
      ~ (vcomp (sg_lo g) d <= corner q o d + vcomp (pl_a1 q) d + vcomp (pl_a2 q) d < vcomp (sg_hi g) d)) ->
   sampling_locations g pts = Abort).
Proof.
  intros g tol p pts G N0 N1 H q. unfold plane_sampler in H. cbv zeta in H. fold (plane_fixed g tol p) in H. fold q in H.
  destruct (plane_ok g q) eqn:K; [|discriminate]. injection H as <-.
  apply plane_ok_spec with (1 := eq_refl) in K || (rewrite plane_ok_spec in K). split.
  - intros C. apply c40_locations; [exact G|]. apply plane_inside. intros o d Ho D.
    destruct (K o d Ho D) as (K1 & K2 & K3). split; [exact K1|]. split; [exact K2|]. split; [exact K3|]. apply C; assumption.
  - intros (o & d & Ho & D & C). apply c40_locations; [exact G|].
    exists (plane_point q o (pl_n0 q - 1) (pl_n1 q - 1)). split.
    + unfold plane_points. apply in_flat_map. exists o. split; [exact Ho|].
      assert (E0 : pl_n0 q = pl_n0 p) by reflexivity. assert (E1 : pl_n1 q = pl_n1 p) by reflexivity.
      apply in_flat_map. exists (pl_n1 q - 1)%Z. split; [apply In_zrange; lia|].
      apply in_map_iff. exists (pl_n0 q - 1)%Z. split; [reflexivity|apply In_zrange; lia].
    + intros I. specialize (I d D). apply C. unfold plane_point in I. rewrite vcomp_map3 in I by exact D.
      assert (E0 : pl_n0 q = pl_n0 p) by reflexivity. assert (E1 : pl_n1 q = pl_n1 p) by reflexivity.
      assert (M0 : 1 <= IZR (pl_n0 q - 1)) by (apply IZR_le; lia).
      assert (M1 : 1 <= IZR (pl_n1 q - 1)) by (apply IZR_le; lia).
      rewrite !Z.max_l in I by lia. unfold corner.
      replace (vcomp (pl_o q) d + o * vcomp (pl_ov q) d + vcomp (pl_a1 q) d + vcomp (pl_a2 q) d)
        with (vcomp (pl_o q) d + vcomp (pl_a1 q) d / IZR (pl_n0 q - 1) * IZR (pl_n0 q - 1) +
              vcomp (pl_a2 q) d / IZR (pl_n1 q - 1) * IZR (pl_n1 q - 1) + o * vcomp (pl_ov q) d); [exact I|field; lra].
Qed.
(** Positions: origin + (i/(n0-1)) axis1 + (j/(n1-1)) axis2 + offset * offset vector, in the
    order offsets, rows, columns. *)
Theorem c40_plane_points : forall p k j i,
  (k < length (pl_offs p))%nat -> (j < Z.to_nat (pl_n1 p))%nat -> (i < Z.to_nat (pl_n0 p))%nat ->
  length (plane_points p) = (length (pl_offs p) * (Z.to_nat (pl_n1 p) * Z.to_nat (pl_n0 p)))%nat /\
  forall d, dir3 d ->
  vcomp (nth (k * (Z.to_nat (pl_n1 p) * Z.to_nat (pl_n0 p)) + (j * Z.to_nat (pl_n0 p) + i)) (plane_points p) vzero) d =
  vcomp (pl_o p) d + INR i / IZR (Z.max (pl_n0 p - 1) 1) * vcomp (pl_a1 p) d +
  INR j / IZR (Z.max (pl_n1 p - 1) 1) * vcomp (pl_a2 p) d + nth k (pl_offs p) 0 * vcomp (pl_ov p) d.
Proof.
  intros p k j i Hk Hj Hi. set (a := Z.to_nat (pl_n0 p)) in *. set (b := Z.to_nat (pl_n1 p)) in *.
  assert (LI : forall (f : Z -> vec), length (map f (zrange 0 (pl_n0 p - 1))) = a).
  { intros f. rewrite map_length, length_zrange. unfold a. f_equal. lia. }
  assert (LJ : forall (f : Z -> Z -> vec), length (flat_map (fun j => map (f j) (zrange 0 (pl_n0 p - 1))) (zrange 0 (pl_n1 p - 1))) = (b * a)%nat).
  { intros f. rewrite (length_flat_map_const _ _ a) by (intros; apply LI). f_equal. rewrite length_zrange. unfold b. f_equal. lia. }
  split.
  - unfold plane_points. apply length_flat_map_const. intros o Ho. apply (LJ (fun j i => plane_point p o i j)).
  - intros d D. unfold plane_points.
    rewrite (nth_flat_map _ _ (b * a)%nat k (j * a + i)%nat 0);
      [|intros x Hx; apply (LJ (fun jj ii => plane_point p x ii jj))|apply idx2; assumption|exact Hk].
    rewrite (nth_flat_map _ _ a j i 0%Z) ; [|intros x Hx; apply LI|exact Hi|rewrite length_zrange; unfold b in Hj; lia].
    rewrite nth_zrange by exact Hj.
    rewrite (nth_indep _ vzero (plane_point p (nth k (pl_offs p) 0) 0 (Z.of_nat j))) by (rewrite LI; exact Hi).
    rewrite (map_nth (fun ii => plane_point p (nth k (pl_offs p) 0) ii (Z.of_nat j))).
    rewrite nth_zrange by exact Hi. unfold plane_point. rewrite vcomp_map3 by exact D. rewrite !INR_IZR_INZ.
    assert (1 <= IZR (Z.max (pl_n0 p - 1) 1)) by (apply IZR_le; lia).
    assert (1 <= IZR (Z.max (pl_n1 p - 1) 1)) by (apply IZR_le; lia). field. lra.
Qed.
(** Away from the boundary by two tolerances nothing is moved. *)
Lemma fix_origin_id tol lo hi o : lo + tol <= o <= hi - tol -> 0 < tol -> fix_origin tol lo hi o = o.
Proof.
  intros H T. unfold fix_origin. cbv zeta.
  destruct (Rltb_case (Rabs (o - lo)) tol) as [(A & _)|(_ & ->)]; [rewrite Rabs_right in A by lra; lra|].
  destruct (Rltb_case (Rabs (o - hi)) tol) as [(A & _)|(_ & ->)]; [|reflexivity].
  rewrite Rabs_left1 in A by lra. lra.
Qed.
Lemma fix_axis_id tol lo hi o a : lo + 2 * tol <= o + a <= hi - 2 * tol -> 0 < tol -> fix_axis tol lo hi o a = a.
Proof.
  intros H T. unfold fix_axis. cbv zeta.
  destruct (Rltb_case (Rabs (o + a - lo)) (2 * tol)) as [(A & _)|(_ & ->)]; [rewrite Rabs_right in A by lra; lra|].
  destruct (Rltb_case (Rabs (o + a - hi)) (2 * tol)) as [(A & _)|(_ & ->)]; [|reflexivity].
  rewrite Rabs_left1 in A by lra. lra.
Qed.
Theorem c40_plane_unchanged : forall g tol p, 0 < tol -> pl_offs p <> [] ->
  (forall d, dir3 d ->
     vcomp (sg_lo g) d + 2 * tol <= vcomp (pl_o p) d <= vcomp (sg_hi g) d - 2 * tol /\
     vcomp (sg_lo g) d + 2 * tol <= vcomp (pl_o p) d + vcomp (pl_a1 p) d <= vcomp (sg_hi g) d - 2 * tol /\
     vcomp (sg_lo g) d + 2 * tol <= vcomp (pl_o p) d + vcomp (pl_a2 p) d <= vcomp (sg_hi g) d - 2 * tol) ->
  plane_fixed g tol p = p.
Proof.
  intros g tol p T Ho H. unfold plane_fixed, plane_fix.
  destruct p as [o a1 a2 offs ov n0 n1]. cbn [pl_o pl_a1 pl_a2 pl_offs pl_ov pl_n0 pl_n1] in *.
  destruct offs as [|x offs]; [contradiction|].
  assert (EO : map3 (fun d => fix_origin tol (vcomp (sg_lo g) d) (vcomp (sg_hi g) d) (vcomp o d)) = o).
  { apply vec_eq; unfold map3; cbn [vx vy vz]; rewrite fix_origin_id; try reflexivity; try assumption;
    [destruct (H 0%Z) as (A & _); [unfold dir3; lia|lra] | destruct (H 1%Z) as (A & _); [unfold dir3; lia|lra]
    | destruct (H 2%Z) as (A & _); [unfold dir3; lia|lra]]. }
  rewrite EO.
  assert (EA : forall a, (forall d, dir3 d -> vcomp (sg_lo g) d + 2 * tol <= vcomp o d + vcomp a d <= vcomp (sg_hi g) d - 2 * tol) ->
     map3 (fun d => fix_axis tol (vcomp (sg_lo g) d) (vcomp (sg_hi g) d) (vcomp o d) (vcomp a d)) = a).
  { intros a Ha. apply vec_eq; unfold map3; cbn [vx vy vz]; rewrite fix_axis_id; try reflexivity; try assumption;
    apply Ha; unfold dir3; lia. }
  rewrite (EA a1), (EA a2); [reflexivity| |]; intros d D; apply H; exact D.
Qed.
(** A plane along coordinate axes without offsets, once accepted, always works - also when
    it touches the boundary. *)
Theorem c40_plane_aligned : forall g tol p pts, geom_ok g -> 0 < tol ->
  (forall d, dir3 d -> 20 * tol < vcomp (sg_hi g) d - vcomp (sg_lo g) d) ->
  pl_offs p = [] -> (forall d, dir3 d -> vcomp (pl_a1 p) d = 0 \/ vcomp (pl_a2 p) d = 0) ->
  plane_sampler g tol p = Ret pts ->
  sampling_locations g pts = Ret (combine pts (seq 0 (length pts))).
Proof.
  intros g tol p pts G T W Ho Ha H. unfold plane_sampler in H. cbv zeta in H. fold (plane_fixed g tol p) in H.
  set (q := plane_fixed g tol p) in *.
  destruct (plane_ok g q) eqn:K; [|discriminate]. injection H as <-.
  rewrite plane_ok_spec in K.
  apply c40_locations; [exact G|]. apply plane_inside. intros o d Hin D.
  destruct (K o d Hin D) as (K1 & K2 & K3). split; [exact K1|]. split; [exact K2|]. split; [exact K3|].
  assert (EO : o = 0). { unfold q, plane_fixed, plane_fix in Hin. rewrite Ho in Hin. cbn in Hin. tauto || (destruct Hin as [<-|[]]; reflexivity). }
  subst o. unfold corner in *. rewrite Rmult_0_l, Rplus_0_r in *.
  specialize (W d D). specialize (Ha d D).
  set (lo := vcomp (sg_lo g) d) in *. set (hi := vcomp (sg_hi g) d) in *.
  assert (QO : vcomp (pl_o q) d = fix_origin tol lo hi (vcomp (pl_o p) d)).
  { unfold q, plane_fixed, plane_fix. cbn [pl_o]. rewrite vcomp_map3 by exact D. reflexivity. }
  assert (QA : vcomp (pl_a1 q) d = fix_axis tol lo hi (vcomp (pl_o q) d) (vcomp (pl_a1 p) d)).
  { rewrite QO. unfold q, plane_fixed, plane_fix. cbn [pl_o pl_a1]. rewrite !vcomp_map3 by exact D. reflexivity. }
  assert (QB : vcomp (pl_a2 q) d = fix_axis tol lo hi (vcomp (pl_o q) d) (vcomp (pl_a2 p) d)).
  { rewrite QO. unfold q, plane_fixed, plane_fix. cbn [pl_o pl_a2]. rewrite !vcomp_map3 by exact D. reflexivity. }
  assert (O1 : lo + tol <= vcomp (pl_o q) d <= hi - tol).
  { rewrite QO in *. clear QA QB. unfold fix_origin in *. cbv zeta in *. set (x := vcomp (pl_o p) d) in *. clearbody x.
    destruct (Rltb_case (Rabs (x - lo)) tol) as [(A & E)|(A & E)]; rewrite E in *.
    - destruct (Rltb_case (Rabs (lo + tol - hi)) tol) as [(B & E2)|(B & E2)]; rewrite E2 in *; [|lra].
      rewrite Rabs_left1 in B by lra. lra.
    - destruct (Rltb_case (Rabs (x - hi)) tol) as [(B & E2)|(B & E2)]; rewrite E2 in *; [lra|].
      rewrite Rabs_right in A by lra. rewrite Rabs_left1 in B by lra. lra. }
  set (x := vcomp (pl_o q) d) in *.
  (* the adjusted axes: small when zero, and end at least 2 tol from the boundary *)
  assert (Z0 : fix_axis tol lo hi x 0 = 0 \/ (x < lo + 2 * tol /\ fix_axis tol lo hi x 0 = lo - x + 2 * tol) \/
               (hi - 2 * tol < x /\ fix_axis tol lo hi x 0 = hi - x - 2 * tol)).
  { unfold fix_axis. cbv zeta. rewrite Rplus_0_r.
    destruct (Rltb_case (Rabs (x - lo)) (2 * tol)) as [(A & ->)|(A & ->)].
    - rewrite Rabs_right in A by lra. right; left.
      destruct (Rltb_case (Rabs (x + (lo - x + 2 * tol) - hi)) (2 * tol)) as [(B & E)|(B & ->)]; [|split; [lra|reflexivity]].
      replace (x + (lo - x + 2 * tol) - hi) with (lo + 2 * tol - hi) in B by ring. rewrite Rabs_left1 in B by lra. lra.
    - rewrite Rplus_0_r.
      destruct (Rltb_case (Rabs (x - hi)) (2 * tol)) as [(B & ->)|(B & ->)]; [|left; reflexivity].
      rewrite Rabs_left1 in B by lra. right; right. split; [lra|reflexivity]. }
  assert (AX : forall a, lo <= x + fix_axis tol lo hi x a < hi -> lo + 2 * tol <= x + fix_axis tol lo hi x a <= hi - 2 * tol).
  { intros a. unfold fix_axis. cbv zeta.
    destruct (Rltb_case (Rabs (x + a - lo)) (2 * tol)) as [(A & ->)|(A & ->)].
    - destruct (Rltb_case (Rabs (x + (lo - x + 2 * tol) - hi)) (2 * tol)) as [(B & ->)|(B & ->)]; [|lra].
      replace (x + (lo - x + 2 * tol) - hi) with (lo + 2 * tol - hi) in B by ring. rewrite Rabs_left1 in B by lra. lra.
    - destruct (Rltb_case (Rabs (x + a - hi)) (2 * tol)) as [(B & ->)|(B & ->)]; [lra|]. intros C.
      rewrite Rabs_right in A by lra. rewrite Rabs_left1 in B by lra. lra. }
  rewrite QA, QB in *. pose proof (AX _ K2) as A1. pose proof (AX _ K3) as A2.
  destruct Ha as [Ea|Ea]; rewrite Ea in *; clearbody x; destruct Z0 as [E|[(F & E)|(F & E)]]; rewrite E in *; lra.
Qed.
(** Such a plane is accepted whenever its corners lie in the closed domain. *)
Theorem c40_plane_accepted : forall g tol p, 0 < tol ->
  (forall d, dir3 d -> 20 * tol < vcomp (sg_hi g) d - vcomp (sg_lo g) d) ->
  pl_offs p = [] ->
  (forall d, dir3 d ->
     vcomp (sg_lo g) d <= vcomp (pl_o p) d <= vcomp (sg_hi g) d /\
     vcomp (sg_lo g) d <= vcomp (pl_o p) d + vcomp (pl_a1 p) d <= vcomp (sg_hi g) d /\
     vcomp (sg_lo g) d <= vcomp (pl_o p) d + vcomp (pl_a2 p) d <= vcomp (sg_hi g) d) ->
  exists pts, plane_sampler g tol p = Ret pts.
Proof.
  intros g tol p T W Ho H. unfold plane_sampler. cbv zeta. fold (plane_fixed g tol p).
  set (q := plane_fixed g tol p) in *.
  assert (K : plane_ok g q = true); [|rewrite K; eexists; reflexivity].
  rewrite plane_ok_spec. intros o d Hin D.
  assert (EO : o = 0). { unfold q, plane_fixed, plane_fix in Hin. rewrite Ho in Hin. cbn in Hin. tauto || (destruct Hin as [<-|[]]; reflexivity). }
  subst o. unfold corner in *. rewrite Rmult_0_l, Rplus_0_r in *.
  specialize (W d D). destruct (H d D) as (H1 & H2 & H3).
  set (lo := vcomp (sg_lo g) d) in *. set (hi := vcomp (sg_hi g) d) in *.
  assert (QO : vcomp (pl_o q) d = fix_origin tol lo hi (vcomp (pl_o p) d)).
  { unfold q, plane_fixed, plane_fix. cbn [pl_o]. rewrite vcomp_map3 by exact D. reflexivity. }
  assert (QA : vcomp (pl_a1 q) d = fix_axis tol lo hi (vcomp (pl_o q) d) (vcomp (pl_a1 p) d)).
  { rewrite QO. unfold q, plane_fixed, plane_fix. cbn [pl_o pl_a1]. rewrite !vcomp_map3 by exact D. reflexivity. }
  assert (QB : vcomp (pl_a2 q) d = fix_axis tol lo hi (vcomp (pl_o q) d) (vcomp (pl_a2 p) d)).
  { rewrite QO. unfold q, plane_fixed, plane_fix. cbn [pl_o pl_a2]. rewrite !vcomp_map3 by exact D. reflexivity. }
  assert (O1 : lo + tol <= vcomp (pl_o q) d <= hi - tol /\ Rabs (vcomp (pl_o q) d - vcomp (pl_o p) d) <= tol).
  { rewrite QO in *. clear QA QB. unfold fix_origin in *. cbv zeta in *. set (x := vcomp (pl_o p) d) in *. clearbody x.
    destruct (Rltb_case (Rabs (x - lo)) tol) as [(A & E)|(A & E)]; rewrite E in *.
    - rewrite Rabs_right in A by lra.
      destruct (Rltb_case (Rabs (lo + tol - hi)) tol) as [(B & E2)|(B & E2)]; rewrite E2 in *;
        [rewrite Rabs_left1 in B by lra; lra|]. split; [lra|]. apply Rabs_le. lra.
    - rewrite Rabs_right in A by lra.
      destruct (Rltb_case (Rabs (x - hi)) tol) as [(B & E2)|(B & E2)]; rewrite E2 in *; rewrite Rabs_left1 in B by lra.
      + split; [lra|]. apply Rabs_le. lra.
      + split; [lra|]. apply Rabs_le. lra. }
  destruct O1 as (O1 & O2). assert (O3 := Rle_abs (vcomp (pl_o q) d - vcomp (pl_o p) d)). assert (O4 := Rle_abs (- (vcomp (pl_o q) d - vcomp (pl_o p) d))). rewrite Rabs_Ropp in O4.
  assert (AX : forall a, lo <= vcomp (pl_o p) d + a <= hi ->
     lo <= vcomp (pl_o q) d + fix_axis tol lo hi (vcomp (pl_o q) d) a < hi).
  { intros a Ha. set (x := vcomp (pl_o q) d) in *. unfold fix_axis. cbv zeta.
    destruct (Rltb_case (Rabs (x + a - lo)) (2 * tol)) as [(A & ->)|(A & ->)].
    - destruct (Rltb_case (Rabs (x + (lo - x + 2 * tol) - hi)) (2 * tol)) as [(B & ->)|(B & ->)]; lra.
    - assert (lo + 2 * tol <= x + a). { destruct (Rle_lt_dec 0 (x + a - lo)); [rewrite Rabs_right in A by lra; lra|]. rewrite Rabs_left in A by lra. lra. }
      destruct (Rltb_case (Rabs (x + a - hi)) (2 * tol)) as [(B & ->)|(B & ->)]; [lra|].
      destruct (Rle_lt_dec 0 (x + a - hi)); [rewrite Rabs_right in B by lra; lra|]. lra. }
  rewrite QA, QB. split; [lra|]. split; apply AX; assumption.
Qed.
(** In general it does not: three corners inside, the fourth outside. *)
Definition unit_geom : sgeom := SGeom (V3 0 0 0) (V3 10 10 10) (IV 10 10 10).
Lemma unit_geom_ok : geom_ok unit_geom.
Proof.
  assert (T : 20 * bounds_tol < 10).
  { unfold bounds_tol. assert (/ 4503599627370496 * 1000 * 4503599627370496 = 1000) by (field; lra). lra. }
  intros d [->|[->| ->]]; cbn; split; try lia; lra.
Qed.
Theorem c40_plane_corner_refuted : exists g tol p pts, geom_ok g /\ 0 < tol /\
  plane_sampler g tol p = Ret pts /\ sampling_locations g pts = Abort.
Proof.
  exists unit_geom, (1/1000), (Plane (V3 1 1 5) (V3 6 0 0) (V3 6 6 0) [0] (V3 0 0 0) 2 2).
  eexists. split; [exact unit_geom_ok|]. split; [lra|].
  assert (F : plane_fixed unit_geom (1/1000) (Plane (V3 1 1 5) (V3 6 0 0) (V3 6 6 0) [0] (V3 0 0 0) 2 2) =
              Plane (V3 1 1 5) (V3 6 0 0) (V3 6 6 0) [0] (V3 0 0 0) 2 2).
  { apply c40_plane_unchanged; [lra|discriminate|]. intros d [->|[->| ->]]; cbn; lra. }
  assert (P : plane_sampler unit_geom (1/1000) (Plane (V3 1 1 5) (V3 6 0 0) (V3 6 6 0) [0] (V3 0 0 0) 2 2) =
              Ret (plane_points (Plane (V3 1 1 5) (V3 6 0 0) (V3 6 6 0) [0] (V3 0 0 0) 2 2))).
  { unfold plane_sampler. cbv zeta.
    change (plane_fix _ _ _) with (plane_fixed unit_geom (1/1000) (Plane (V3 1 1 5) (V3 6 0 0) (V3 6 6 0) [0] (V3 0 0 0) 2 2)).
    rewrite F. rewrite (proj2 (plane_ok_spec _ _)); [reflexivity|].
    intros o d [<-|[]] [->|[->| ->]]; unfold corner; cbn; lra. }
  split; [exact P|].
  refine (proj2 (c40_plane _ _ _ _ unit_geom_ok _ _ P) _); [cbn; lia|cbn; lia|].
  rewrite F. exists 0, 0%Z. cbn. split; [left; reflexivity|]. split; [unfold dir3; lia|]. unfold corner; cbn; lra.
Qed.

(** *** Particles *)
Definition expected (smp : list (list vec)) : list particle :=
  flat_map (fun s => map (fun pi => Part (fst pi) (snd pi + uid_offset smp s) s (snd pi))
                         (combine (nth s smp []) (seq 0 (length (nth s smp [])))))
           (seq 0 (length smp)).
Lemma flat_map_app_perm {A B} (f h : A -> list B) l :
  Permutation (flat_map (fun a => f a ++ h a) l) (flat_map f l ++ flat_map h l).
Proof.
  induction l as [|a l IH]; cbn; [constructor|].
  rewrite <- !app_assoc. apply Permutation_app_head. rewrite IH.
  rewrite !app_assoc. apply Permutation_app_tail. apply Permutation_app_comm.
Qed.
Lemma flat_map_swap {A B C} (f : A -> B -> list C) la lb :
  Permutation (flat_map (fun a => flat_map (f a) lb) la) (flat_map (fun b => flat_map (fun a => f a b) la) lb).
Proof.
  induction la as [|a la IH]; cbn.
  - assert (flat_map (fun _ : B => @nil C) lb = []) as -> by (induction lb; [reflexivity|assumption]). constructor.
  - rewrite IH. symmetry. apply (flat_map_app_perm (f a) (fun b => flat_map (fun a0 => f a0 b) la)).
Qed.
Lemma flat_map_filter_one {A B} (P : B -> A -> bool) boxes l :
  (forall x, In x l -> length (filter (fun b => P b x) boxes) = 1%nat) ->
  Permutation (flat_map (fun b => filter (P b) l) boxes) l.
Proof.
  induction l as [|x l IH]; intros H.
  - cbn. assert (flat_map (fun _ : B => @nil A) boxes = []) as -> by (clear; induction boxes; [reflexivity|assumption]). constructor.
  - assert (E : flat_map (fun b => filter (P b) (x :: l)) boxes =
                flat_map (fun b => (if P b x then [x] else []) ++ filter (P b) l) boxes).
    { apply flat_map_ext. intros b. cbn. destruct (P b x); reflexivity. }
    rewrite E, flat_map_app_perm, IH by (intros y Hy; apply H; right; exact Hy).
    assert (S : forall bs, flat_map (fun b => if P b x then [x] else []) bs = repeat x (length (filter (fun b => P b x) bs))).
    { induction bs as [|b bs IHb]; cbn; [reflexivity|]. destruct (P b x); cbn; rewrite IHb; reflexivity. }
    rewrite S, (H x) by (left; reflexivity). cbn. constructor. reflexivity.
Qed.
Lemma flat_map_perm_ext {A B} (f h : A -> list B) l : (forall x, In x l -> Permutation (f x) (h x)) ->
  Permutation (flat_map f l) (flat_map h l).
Proof.
  induction l as [|a l IH]; intros H; cbn; [constructor|].
  apply Permutation_app; [apply H; left; reflexivity|apply IH; intros x Hx; apply H; right; exact Hx].
Qed.
Lemma flat_map_map {A B C} (f : B -> C) (h : A -> list B) l : flat_map (fun a => map f (h a)) l = map f (flat_map h l).
Proof. induction l as [|a l IH]; cbn; [reflexivity|]. rewrite map_app, IH. reflexivity. Qed.

(** However level 0 is cut into boxes, every requested point becomes exactly one particle,
    with its position, its sampler and its number. *)
Theorem c40_particles : forall g boxes smp, geom_ok g -> tiling g boxes ->
  (forall s p, In s smp -> In p s -> in_domain g p) ->
  exists ps, initialize_particles g boxes smp = Ret ps /\ length ps = length boxes /\
    Permutation (concat ps) (expected smp).
Proof.
  intros g boxes smp G T H. set (ps := map (box_particles g smp) boxes).
  assert (Pm : Permutation (concat ps) (expected smp)).
  { unfold ps. rewrite <- flat_map_concat_map. unfold box_particles.
    rewrite (flat_map_swap (fun b s => map (fun pi => Part (fst pi) (snd pi + uid_offset smp s) s (snd pi)) (locs_in g b (nth s smp [])))).
    unfold expected. apply flat_map_perm_ext. intros s Hs. apply in_seq in Hs.
    rewrite flat_map_map. apply Permutation_map. unfold locs_in.
    apply (flat_map_filter_one (fun b (pi : vec * nat) => contains g b (fst pi))).
    intros (p, i) Hp. cbn [fst]. unfold contains. apply T. apply box_has_spec.
    change (contains g (sg_domain g) p = true). apply c40_contains; [exact G|].
    apply (H (nth s smp [])); [apply nth_In; lia|]. apply (in_combine_l _ _ _ _ Hp). }
  exists ps. split; [|split; [unfold ps; apply map_length|exact Pm]].
  unfold initialize_particles. fold ps.
  assert (L : length (concat ps) = total_points smp).
  { rewrite (Permutation_length Pm). unfold expected, total_points.
    clear. rewrite flat_map_concat_map.
    assert (X : forall (ll : list (list particle)), length (concat ll) = list_sum (map (@length particle) ll)).
    { induction ll as [|a ll IH]; cbn; [reflexivity|]. rewrite app_length, IH. reflexivity. }
    rewrite X, map_map. f_equal.
    apply (nth_ext _ _ 0%nat 0%nat); [rewrite !map_length, seq_length; reflexivity|].
    intros k Hk. rewrite map_length, seq_length in Hk.
    rewrite (nth_indep _ 0%nat (length (map (fun pi : vec * nat => Part (fst pi) (snd pi + uid_offset smp 0) 0 (snd pi))
              (combine (nth 0 smp []) (seq 0 (length (nth 0 smp []))))))) by (rewrite map_length, seq_length; exact Hk).
    rewrite (map_nth (fun s => length (map (fun pi : vec * nat => Part (fst pi) (snd pi + uid_offset smp s) s (snd pi))
              (combine (nth s smp []) (seq 0 (length (nth s smp []))))))).
    rewrite seq_nth by exact Hk. rewrite map_length, combine_length, seq_length, Nat.min_id.
    symmetry. exact (map_nth (@length vec) smp [] k). }
  rewrite L, Nat.eqb_refl. reflexivity.
Qed.

(** The unique numbers are 0, 1, ..., total-1, sampler after sampler. *)
Lemma firstn_app_snoc {A} (l : list A) (d : A) k : (k < length l)%nat -> firstn (S k) l = firstn k l ++ [nth k l d].
Proof.
  revert k. induction l as [|a l IH]; intros k H; [cbn in H; lia|].
  destruct k; [reflexivity|]. cbn [firstn nth]. cbn [app]. f_equal. apply IH. cbn in H. lia.
Qed.
Lemma uids_prefix smp : forall m, (m <= length smp)%nat ->
  map p_uid (flat_map (fun s => map (fun pi => Part (fst pi) (snd pi + uid_offset smp s) s (snd pi))
                         (combine (nth s smp []) (seq 0 (length (nth s smp []))))) (seq 0 m)) =
  seq 0 (uid_offset smp m).
Proof.
  induction m as [|m IH]; intros Hm; [reflexivity|].
  rewrite seq_S, flat_map_app, map_app, IH by lia. cbn [flat_map plus].
  rewrite app_nil_r, map_map. cbn [p_uid].
  assert (O : uid_offset smp (S m) = (uid_offset smp m + length (nth m smp []))%nat).
  { unfold uid_offset. rewrite (firstn_app_snoc smp [] m) by lia. rewrite map_app, list_sum_app. cbn. lia. }
  rewrite O, seq_app. f_equal. cbn [plus].
  set (pts := nth m smp []). set (off := uid_offset smp m).
  assert (Y : forall (l : list vec) a, map (fun x : vec * nat => (snd x + off)%nat) (combine l (seq a (length l))) = seq (a + off) (length l)).
  { induction l as [|v l IHl]; intros a; cbn; [reflexivity|]. f_equal. apply (IHl (S a)). }
  apply (Y pts 0%nat).
Qed.
Theorem c40_uids : forall smp, map p_uid (expected smp) = seq 0 (total_points smp).
Proof.
  intros smp. unfold expected. rewrite uids_prefix by lia. f_equal. unfold uid_offset, total_points. rewrite firstn_all. reflexivity.
Qed.
Lemma expected_In smp s i : (s < length smp)%nat -> (i < length (nth s smp []))%nat ->
  In (Part (nth i (nth s smp []) vzero) (i + uid_offset smp s) s i) (expected smp).
Proof.
  intros Hs Hi. unfold expected. apply in_flat_map. exists s. split; [apply in_seq; lia|].
  apply in_map_iff. exists (nth i (nth s smp []) vzero, i). split; [reflexivity|].
  assert (X : nth i (combine (nth s smp []) (seq 0 (length (nth s smp [])))) (vzero, 0%nat) = (nth i (nth s smp []) vzero, i)).
  { rewrite combine_nth by (rewrite seq_length; reflexivity). rewrite seq_nth by exact Hi. reflexivity. }
  rewrite <- X. apply nth_In. rewrite combine_length, seq_length. lia.
Qed.

(** *** Buffer *)
Lemma length_set_nth n v l : length (set_nth n v l) = length l.
Proof. revert n. induction l as [|a l IH]; intros [|n]; cbn; try reflexivity. rewrite IH. reflexivity. Qed.
Lemma nth_set_nth n v l k : nth k (set_nth n v l) 0 = if (k =? n)%nat && (k <? length l)%nat then v else nth k l 0.
Proof.
  revert n k. induction l as [|a l IH]; intros n k; cbn [set_nth length].
  - replace (k <? 0)%nat with false by lia. rewrite andb_false_r. destruct n; destruct k; reflexivity.
  - destruct n as [|n]; destruct k as [|k]; cbn [nth set_nth Nat.eqb andb]; try reflexivity.
    rewrite IH. destruct (k =? n)%nat; cbn [andb]; [|reflexivity].
    replace (S k <? S (length l))%nat with (k <? length l)%nat by lia. reflexivity.
Qed.
Definition apply_writes (ws : list (nat * R)) (buf : list R) : list R :=
  fold_left (fun b w => set_nth (fst w) (snd w) b) ws buf.
Lemma apply_writes_app a b buf : apply_writes (a ++ b) buf = apply_writes b (apply_writes a buf).
Proof. unfold apply_writes. apply fold_left_app. Qed.
Lemma length_apply ws : forall buf, length (apply_writes ws buf) = length buf.
Proof. induction ws as [|w ws IH]; intros buf; cbn; [reflexivity|]. rewrite IH, length_set_nth. reflexivity. Qed.
Lemma nth_apply_other ws k : ~ In k (map fst ws) -> forall buf, nth k (apply_writes ws buf) 0 = nth k buf 0.
Proof.
  induction ws as [|w ws IH]; intros H buf; cbn; [reflexivity|].
  rewrite IH by (intros E; apply H; right; exact E). rewrite nth_set_nth.
  destruct (k =? fst w)%nat eqn:E; [|reflexivity]. exfalso. apply H. left. cbn. lia.
Qed.
Lemma nth_apply ws k : NoDup (map fst ws) -> forall buf, (k < length buf)%nat -> nth k buf 0 = 0 ->
  nth k (apply_writes ws buf) 0 = rsum (map (fun w => if (k =? fst w)%nat then snd w else 0) ws).
Proof.
  induction ws as [|w ws IH]; intros N buf Hk Hz; cbn [apply_writes fold_left map]; [exact Hz|].
  inversion N as [|? ? N1 N2]. subst. rewrite rsum_cons. fold (apply_writes ws (set_nth (fst w) (snd w) buf)).
  destruct (k =? fst w)%nat eqn:E.
  - rewrite nth_apply_other by (replace k with (fst w) by lia; exact N1). rewrite nth_set_nth, E.
    replace (k <? length buf)%nat with true by lia. cbn [andb].
    rewrite rsum_zero; [ring|]. intros x Hx. destruct (k =? fst x)%nat eqn:F; [|reflexivity].
    exfalso. apply N1. apply in_map_iff. exists x. split; [lia|exact Hx].
  - rewrite IH; [ring|exact N2|rewrite length_set_nth; exact Hk|]. rewrite nth_set_nth, E. exact Hz.
Qed.
Definition rank_writes (nvar total : nat) (val : nat -> particle -> R) (ps : list particle) : list (nat * R) :=
  flat_map (fun fid => map (fun p => ((fid * total + p_uid p)%nat, val fid p)) ps) (seq 0 nvar).
Lemma rank_buffer_writes nvar total val ps :
  rank_buffer nvar total val ps = apply_writes (rank_writes nvar total val ps) (repeat 0 (nvar * total)).
Proof.
  unfold rank_buffer, rank_writes. generalize (repeat 0 (nvar * total)). generalize (seq 0 nvar).
  induction l as [|fid l IH]; intros buf; cbn [flat_map fold_left]; [reflexivity|].
  rewrite apply_writes_app, IH. f_equal. clear IH.
  unfold apply_writes. revert buf. induction ps as [|p ps IH]; intros buf; cbn; [reflexivity|].
  apply IH.
Qed.
Lemma nth_repeat0 k n : nth k (repeat 0 n) 0 = 0.
Proof. revert k. induction n; intros [|k]; cbn; auto. Qed.
Lemma writes_nodup nvar total val ps : NoDup (map p_uid ps) -> (forall p, In p ps -> (p_uid p < total)%nat) ->
  NoDup (map fst (rank_writes nvar total val ps)).
Proof.
  intros N B. unfold rank_writes. rewrite <- flat_map_map. cbn.
  assert (E : forall fid, map fst (map (fun p => ((fid * total + p_uid p)%nat, val fid p)) ps) =
                          map (fun u => (fid * total + u)%nat) (map p_uid ps)).
  { intros fid. rewrite !map_map. reflexivity. }
  rewrite (flat_map_ext _ _ E). apply NoDup_flat_map.
  - apply seq_NoDup.
  - intros fid _. apply FinFun.Injective_map_NoDup; [intros x y; lia|exact N].
  - intros a b x _ _ Ha Hb. apply in_map_iff in Ha. apply in_map_iff in Hb.
    destruct Ha as (u & E1 & U1). destruct Hb as (v & E2 & U2).
    apply in_map_iff in U1. apply in_map_iff in U2. destruct U1 as (p & <- & P1). destruct U2 as (q & <- & Q1).
    pose proof (B p P1). pose proof (B q Q1). nia.
Qed.
Lemma length_zip a b : length a = length b -> length (zip_add a b) = length a.
Proof. revert b. induction a as [|x a IH]; intros [|y b] H; cbn in *; try reflexivity; try discriminate. rewrite IH; lia. Qed.
Lemma nth_zip a b k : length a = length b -> nth k (zip_add a b) 0 = nth k a 0 + nth k b 0.
Proof.
  revert b k. induction a as [|x a IH]; intros [|y b] k H; cbn in H; try discriminate.
  - destruct k; cbn; ring.
  - destruct k; cbn; [reflexivity|]. apply IH. lia.
Qed.
Lemma populate_length nvar total val ranks : length (populate_buffer nvar total val ranks) = (nvar * total)%nat.
Proof.
  induction ranks as [|ps ranks IH]; cbn; [apply repeat_length|].
  assert (L : length (rank_buffer nvar total val ps) = (nvar * total)%nat)
    by (rewrite rank_buffer_writes, length_apply, repeat_length; reflexivity).
  rewrite length_zip; [exact L|]. rewrite L. symmetry. exact IH.
Qed.
Lemma NoDup_app_parts {A} (l m : list A) : NoDup (l ++ m) -> NoDup l /\ NoDup m.
Proof.
  induction l as [|a l IH]; cbn; intros H; [split; [constructor|exact H]|]. inversion H; subst.
  destruct (IH H3). split; [constructor; [intros E; apply H2; apply in_or_app; left; exact E|assumption]|assumption].
Qed.
(** Whatever the distribution of the particles over the ranks, the collected buffer holds
    component [fid] of the point with unique number [u] at position fid * total + u. *)
Theorem c40_buffer : forall smp nvar val ranks,
  Permutation (concat ranks) (expected smp) ->
  let total := total_points smp in
  length (populate_buffer nvar total val ranks) = (nvar * total)%nat /\
  forall s i fid, (s < length smp)%nat -> (i < length (nth s smp []))%nat -> (fid < nvar)%nat ->
    nth (fid * total + (i + uid_offset smp s)) (populate_buffer nvar total val ranks) 0 =
    val fid (Part (nth i (nth s smp []) vzero) (i + uid_offset smp s) s i).
Proof.
  intros smp nvar val ranks Pm total. split; [apply populate_length|].
  intros s i fid Hs Hi Hf. set (p := Part (nth i (nth s smp []) vzero) (i + uid_offset smp s) s i).
  assert (Pe : In p (expected smp)) by (apply expected_In; assumption).
  assert (ND : NoDup (map p_uid (concat ranks))).
  { apply (Permutation_NoDup (l := map p_uid (expected smp))); [apply Permutation_map; symmetry; exact Pm|].
    rewrite c40_uids. apply seq_NoDup. }
  assert (B : forall q, In q (concat ranks) -> (p_uid q < total)%nat).
  { intros q Hq. assert (In (p_uid q) (map p_uid (expected smp))) by (apply in_map; apply (Permutation_in _ Pm); exact Hq).
    rewrite c40_uids in H. apply in_seq in H. fold total in H. lia. }
  set (k := (fid * total + (i + uid_offset smp s))%nat).
  assert (Pu : (p_uid p < total)%nat) by (apply B; apply (Permutation_in _ (Permutation_sym Pm)); exact Pe).
  assert (Hk : (k < nvar * total)%nat) by (unfold k; cbn [p_uid p] in Pu; nia).
  assert (R0 : forall rs, NoDup (map p_uid (concat rs)) -> (forall q, In q (concat rs) -> (p_uid q < total)%nat) ->
     nth k (populate_buffer nvar total val rs) 0 =
     rsum (map (fun w => if (k =? fst w)%nat then snd w else 0) (flat_map (rank_writes nvar total val) rs))).
  { induction rs as [|ps rs IH]; intros N Bd; cbn [populate_buffer fold_right flat_map].
    - rewrite nth_repeat0. reflexivity.
    - fold (populate_buffer nvar total val rs).
      rewrite nth_zip by (rewrite rank_buffer_writes, length_apply, repeat_length, populate_length; reflexivity).
      cbn [concat] in N, Bd. rewrite map_app in N. destruct (NoDup_app_parts _ _ N) as (N1 & N2).
      rewrite IH by (try assumption; intros q Hq; apply Bd; apply in_or_app; right; exact Hq).
      rewrite map_app, rsum_app. f_equal. rewrite rank_buffer_writes. apply nth_apply.
      + apply writes_nodup; [exact N1|]. intros q Hq. apply Bd. apply in_or_app. left. exact Hq.
      + rewrite repeat_length. exact Hk.
      + apply nth_repeat0. }
  rewrite R0 by assumption.
  assert (PW : Permutation (flat_map (rank_writes nvar total val) ranks) (rank_writes nvar total val (concat ranks))).
  { unfold rank_writes. rewrite flat_map_swap. apply flat_map_perm_ext. intros f _.
    rewrite (flat_map_map (fun p => ((f * total + p_uid p)%nat, val f p)) (fun l => l)).
    rewrite flat_map_concat_map, map_id. reflexivity. }
  rewrite (rsum_perm _ _ (Permutation_map _ PW)).
  (* the single write at k *)
  assert (Wn : NoDup (map fst (rank_writes nvar total val (concat ranks)))) by (apply writes_nodup; assumption).
  assert (Wi : In (k, val fid p) (rank_writes nvar total val (concat ranks))).
  { unfold rank_writes. apply in_flat_map. exists fid. split; [apply in_seq; lia|].
    apply in_map_iff. exists p. split; [reflexivity|]. apply (Permutation_in _ (Permutation_sym Pm)). exact Pe. }
  clear - Wn Wi. induction (rank_writes nvar total val (concat ranks)) as [|w ws IH]; [contradiction|].
  cbn [map]. rewrite rsum_cons. cbn [map] in Wn. inversion Wn; subst. destruct Wi as [->|Wi].
  - cbn [fst snd]. rewrite Nat.eqb_refl, rsum_zero; [ring|]. intros x Hx. destruct (k =? fst x)%nat eqn:E; [|reflexivity].
    exfalso. apply H1. cbn [fst]. apply in_map_iff. exists x. split; [lia|exact Hx].
  - rewrite IH by assumption. destruct (k =? fst w)%nat eqn:E; [|ring].
    exfalso. apply H1. apply in_map_iff. exists (k, val fid p). cbn. split; [lia|exact Wi].
Qed.
(** The output is the collected buffer, variable by variable. *)
Lemma skipn_plus {A} a b (l : list A) : skipn (a + b) l = skipn b (skipn a l).
Proof. revert l. induction a as [|a IH]; intros [|x l]; cbn; try reflexivity; [destruct b; reflexivity|apply IH]. Qed.
Lemma output_var : forall npts (buf : list R) off out,
  snd (fold_left (fun st n => let '(o, out) := st in (o + n, out ++ firstn n (skipn o buf))%nat) npts (off, out)) =
  out ++ firstn (list_sum npts) (skipn off buf).
Proof.
  induction npts as [|n npts IH]; intros buf off out; cbn [fold_left list_sum].
  - cbn. rewrite app_nil_r. reflexivity.
  - rewrite IH, <- app_assoc. f_equal.
    assert (A : skipn (off + n) buf = skipn n (skipn off buf)) by apply skipn_plus.
    rewrite A. set (l := skipn off buf). clearbody l. change (list_sum (n :: npts)) with (n + list_sum npts)%nat.
    clear. revert l. induction n as [|n IHn]; intros l; cbn [firstn skipn plus app]; [reflexivity|].
    destruct l as [|x l]; [cbn; destruct (list_sum npts); reflexivity|]. cbn [app]. f_equal. apply IHn.
Qed.
Theorem c40_output : forall nvar total npts buf, list_sum npts = total -> length buf = (nvar * total)%nat ->
  output_buffer nvar total npts buf = buf.
Proof.
  intros nvar total npts buf Hs Hl. unfold output_buffer.
  assert (E : forall iv, snd (fold_left (fun st n => let '(off, out) := st in (off + n, out ++ firstn n (skipn off buf))%nat)
                   npts ((iv * total)%nat, [])) = firstn total (skipn (iv * total) buf)).
  { intros iv. rewrite output_var, Hs. reflexivity. }
  rewrite (flat_map_ext _ _ E). clear E.
  assert (X : forall m, (m <= nvar)%nat -> flat_map (fun iv => firstn total (skipn (iv * total) buf)) (seq 0 m) = firstn (m * total) buf).
  { induction m as [|m IH]; intros Hm; [reflexivity|]. rewrite seq_S, flat_map_app, IH by lia. cbn [flat_map plus].
    rewrite app_nil_r. replace (S m * total)%nat with (m * total + total)%nat by lia.
    clear. generalize (m * total)%nat. revert buf. induction buf as [|x buf IH]; intros n.
    - rewrite !firstn_nil, skipn_nil, firstn_nil. reflexivity.
    - destruct n as [|n]; cbn [firstn skipn app plus]; [reflexivity|]. f_equal. apply IH. }
  rewrite X by lia. rewrite <- Hl. apply firstn_all.
Qed.

(** *** Interpolation *)
Lemma spos_eq g l p d : geom_ok g -> dir3 d ->
  vcomp p d = vcomp (sg_lo g) d + (spos g l p d + soffset l d) * sg_dx g d.
Proof.
  intros G D. destruct (geom_dir g d G D) as (A & B). unfold spos.
  assert (0 < sg_dx g d). { unfold sg_dx. apply Rdiv_lt_0_compat; [lra|]. apply IZR_lt. lia. }
  field. lra.
Qed.
(** Position of the data of index [c]: the centre of the cell, its low corner, or the
    centre of its low face. *)
Definition data_frac (l : sloc) : vec :=
  match l with
  | SNode => V3 0 0 0 | SCell => V3 (1/2) (1/2) (1/2)
  | SXface => V3 0 (1/2) (1/2) | SYface => V3 (1/2) 0 (1/2) | SZface => V3 (1/2) (1/2) 0
  end.
Definition data_pos (g : sgeom) (l : sloc) (c : ivec) : vec :=
  map3 (fun d => vcomp (sg_lo g) d + (IZR (icomp c d) + vcomp (data_frac l) d) * sg_dx g d).
Lemma data_pos_eq g l c : data_pos g l c = map3 (fun d => vcomp (sg_lo g) d + (IZR (icomp c d) + soffset l d) * sg_dx g d).
Proof. destruct l; reflexivity. Qed.
(** Exact for affine fields, at every data location (cell, node, faces). *)
Theorem c40_affine : forall g l a b p, geom_ok g ->
  sample_field g l (fun c => a + vdot b (data_pos g l c)) p = a + vdot b p.
Proof.
  intros g l a b p G. unfold sample_field. cbv zeta. unfold vdot. rewrite !data_pos_eq. unfold map3. cbn [vx vy vz iv0 iv1 iv2 icomp Z.eqb Pos.eqb].
  pose proof (spos_eq g l p 0 G ltac:(unfold dir3; lia)) as X.
  pose proof (spos_eq g l p 1 G ltac:(unfold dir3; lia)) as Y.
  pose proof (spos_eq g l p 2 G ltac:(unfold dir3; lia)) as Z.
  cbn [vcomp Z.eqb Pos.eqb] in X, Y, Z. unfold vcomp in X, Y, Z. cbn [Z.eqb Pos.eqb] in X, Y, Z.
  rewrite X, Y, Z. unfold vcomp. cbn [Z.eqb Pos.eqb icomp iv0 iv1 iv2]. unfold icomp. cbn [Z.eqb Pos.eqb iv0 iv1 iv2].
  rewrite !plus_IZR. ring.
Qed.
Lemma weights x : 0 <= x - IZR (rfloor x) < 1.
Proof. pose proof (rfloor_spec x). lra. Qed.
(** Between the smallest and the largest of the eight surrounding values. *)
Theorem c40_bounds : forall g l f p m M,
  (forall di dj dk, (0 <= di <= 1)%Z -> (0 <= dj <= 1)%Z -> (0 <= dk <= 1)%Z ->
     m <= f (IV (rfloor (spos g l p 0) + di) (rfloor (spos g l p 1) + dj) (rfloor (spos g l p 2) + dk)) <= M) ->
  m <= sample_field g l f p <= M.
Proof.
  intros g l f p m M H. unfold sample_field. cbv zeta.
  pose proof (weights (spos g l p 0)) as WX. pose proof (weights (spos g l p 1)) as WY. pose proof (weights (spos g l p 2)) as WZ.
  set (i := rfloor (spos g l p 0)) in *. set (j := rfloor (spos g l p 1)) in *. set (k := rfloor (spos g l p 2)) in *.
  set (a := spos g l p 0 - IZR i) in *. set (b := spos g l p 1 - IZR j) in *. set (c := spos g l p 2 - IZR k) in *.
  pose proof (H 0 0 0 ltac:(lia) ltac:(lia) ltac:(lia))%Z as F000. pose proof (H 0 0 1 ltac:(lia) ltac:(lia) ltac:(lia))%Z as F001.
  pose proof (H 0 1 0 ltac:(lia) ltac:(lia) ltac:(lia))%Z as F010. pose proof (H 0 1 1 ltac:(lia) ltac:(lia) ltac:(lia))%Z as F011.
  pose proof (H 1 0 0 ltac:(lia) ltac:(lia) ltac:(lia))%Z as F100. pose proof (H 1 0 1 ltac:(lia) ltac:(lia) ltac:(lia))%Z as F101.
  pose proof (H 1 1 0 ltac:(lia) ltac:(lia) ltac:(lia))%Z as F110. pose proof (H 1 1 1 ltac:(lia) ltac:(lia) ltac:(lia))%Z as F111.
  rewrite ?Z.add_0_r in *. clearbody a b c i j k.
  set (w000 := (1 - a) * (1 - b) * (1 - c)). set (w001 := (1 - a) * (1 - b) * c).
  set (w010 := (1 - a) * b * (1 - c)). set (w011 := (1 - a) * b * c).
  set (w100 := a * (1 - b) * (1 - c)). set (w101 := a * (1 - b) * c).
  set (w110 := a * b * (1 - c)). set (w111 := a * b * c).
  assert (P : forall x y z, 0 <= x -> 0 <= y -> 0 <= z -> 0 <= x * y * z) by (intros; repeat apply Rmult_le_pos; assumption).
  assert (Q0 : 0 <= w000) by (apply P; lra). assert (Q1 : 0 <= w001) by (apply P; lra).
  assert (Q2 : 0 <= w010) by (apply P; lra). assert (Q3 : 0 <= w011) by (apply P; lra).
  assert (Q4 : 0 <= w100) by (apply P; lra). assert (Q5 : 0 <= w101) by (apply P; lra).
  assert (Q6 : 0 <= w110) by (apply P; lra). assert (Q7 : 0 <= w111) by (apply P; lra).
  assert (S : w000 + w001 + w010 + w011 + w100 + w101 + w110 + w111 = 1) by (unfold w000, w001, w010, w011, w100, w101, w110, w111; ring).
  assert (L : forall w x, 0 <= w -> m <= x <= M -> w * m <= w * x <= w * M) by (intros; split; apply Rmult_le_compat_l; lra).
  pose proof (L _ _ Q0 F000). pose proof (L _ _ Q1 F001). pose proof (L _ _ Q2 F010). pose proof (L _ _ Q3 F011).
  pose proof (L _ _ Q4 F100). pose proof (L _ _ Q5 F101). pose proof (L _ _ Q6 F110). pose proof (L _ _ Q7 F111).
  assert (T : forall v, v = (w000 + w001 + w010 + w011 + w100 + w101 + w110 + w111) * v) by (intros; rewrite S; ring).
  pose proof (T m) as Tm. pose proof (T M) as TM. clearbody w000 w001 w010 w011 w100 w101 w110 w111. split; lra.
Qed.
(** The data value itself at a data point. *)
Theorem c40_nodal : forall g l f c, geom_ok g -> sample_field g l f (data_pos g l c) = f c.
Proof.
  intros g l f c G.
  assert (E : forall d, dir3 d -> spos g l (data_pos g l c) d = IZR (icomp c d)).
  { intros d D. rewrite data_pos_eq. unfold spos. rewrite vcomp_map3 by exact D. destruct (geom_dir g d G D) as (A & B).
    assert (0 < sg_dx g d). { unfold sg_dx. apply Rdiv_lt_0_compat; [lra|]. apply IZR_lt. lia. }
    field. lra. }
  unfold sample_field. cbv zeta. rewrite !E by (unfold dir3; lia).
  rewrite !(rfloor_unique (IZR _) _ (conj (Rle_refl _) (Rlt_plus_1 _))).
  replace (IV (icomp c 0) (icomp c 1) (icomp c 2)) with c by (destruct c; reflexivity). ring.
Qed.
(** Only one layer of cells around the box of the particle is read. *)
Theorem c40_reads : forall g l b p f f', geom_ok g -> contains g b p = true ->
  (forall c, (iv0 (blo b) - 1 <= iv0 c <= iv0 (bhi b) + 1)%Z -> (iv1 (blo b) - 1 <= iv1 c <= iv1 (bhi b) + 1)%Z ->
             (iv2 (blo b) - 1 <= iv2 c <= iv2 (bhi b) + 1)%Z -> f c = f' c) ->
  sample_field g l f p = sample_field g l f' p.
Proof.
  intros g l b p f f' G C H. apply box_has_spec in C. unfold in_box, cell_of in C. cbn [iv0 iv1 iv2] in C.
  assert (R0 : forall d, dir3 d -> (rfloor ((vcomp p d - vcomp (sg_lo g) d) * (1 / sg_dx g d)) - 1 <= rfloor (spos g l p d)
               <= rfloor ((vcomp p d - vcomp (sg_lo g) d) * (1 / sg_dx g d)))%Z).
  { intros d D. destruct (geom_dir g d G D) as (A & B).
    assert (W : 0 < sg_dx g d). { unfold sg_dx. apply Rdiv_lt_0_compat; [lra|]. apply IZR_lt. lia. }
    assert (E : spos g l p d = (vcomp p d - vcomp (sg_lo g) d) * (1 / sg_dx g d) - soffset l d) by (unfold spos; field; lra).
    assert (S : 0 <= soffset l d <= 1/2) by (unfold soffset; destruct l; try lra; destruct (_ =? _)%Z; lra).
    rewrite E. set (q := (vcomp p d - vcomp (sg_lo g) d) * (1 / sg_dx g d)). clearbody q.
    pose proof (rfloor_spec q) as F1. pose proof (rfloor_spec (q - soffset l d)) as F2. split.
    - assert (rfloor q - 2 < rfloor (q - soffset l d))%Z; [|lia]. apply lt_IZR. rewrite minus_IZR. lra.
    - apply rfloor_mono. lra. }
  pose proof (R0 0%Z ltac:(unfold dir3; lia)) as I. pose proof (R0 1%Z ltac:(unfold dir3; lia)) as J.
  pose proof (R0 2%Z ltac:(unfold dir3; lia)) as K.
  change (vcomp p 0) with (vx p) in I. change (vcomp p 1) with (vy p) in J. change (vcomp p 2) with (vz p) in K.
  change (vcomp (sg_lo g) 0) with (vx (sg_lo g)) in I. change (vcomp (sg_lo g) 1) with (vy (sg_lo g)) in J.
  change (vcomp (sg_lo g) 2) with (vz (sg_lo g)) in K.
  unfold sample_field. cbv zeta.
  set (i := rfloor (spos g l p 0)) in *. set (j := rfloor (spos g l p 1)) in *. set (k := rfloor (spos g l p 2)) in *.
  rewrite !H by (cbn [iv0 iv1 iv2]; lia). reflexivity.
Qed.

(** In double precision the margin is lost in large domains: above 4096 length units
    [prob_hi - tol] is [prob_hi] again, so a point requested on the high side is left there
    (or, from 2^15 on, even moved there) and belongs to no cell. *)
Definition b64_in_domain (lo hi : spec_float) (n : Z) (x : spec_float) : Prop :=
  (0 <= b64_cell lo hi n (b64_clamp1 lo hi x) <= n - 1)%Z.
Theorem c40_clamp_double_refuted :
  ~ (forall hi n x, (1 <= n < 100000)%Z -> (1 <= hi < 1000000)%Z -> (0 <= x < 1000000)%Z ->
       b64_in_domain (b64_of_Z 0) (b64_of_Z hi) n (b64_of_Z x)).
Proof.
  intros H. specialize (H 5120 512 5120 ltac:(lia) ltac:(lia) ltac:(lia))%Z.
  assert (E : b64_cell (b64_of_Z 0) (b64_of_Z 5120) 512 (b64_clamp1 (b64_of_Z 0) (b64_of_Z 5120) (b64_of_Z 5120)) = 512%Z)
    by (vm_compute; reflexivity).
  unfold b64_in_domain in H. rewrite E in H. lia.
Qed.
(** The same request in a smaller domain is moved inside, as intended. *)
Example c40_clamp_double_case : b64_in_domain (b64_of_Z 0) (b64_of_Z 1000) 100 (b64_of_Z 1000).
Proof. unfold b64_in_domain. vm_compute. split; discriminate. Qed.

Example c40_case : geom_ok unit_geom /\ tiling unit_geom [Box (IV 0 0 0) (IV 4 9 9); Box (IV 5 0 0) (IV 9 9 9)] /\
  in_domain unit_geom (V3 1 2 3).
Proof.
  split; [exact unit_geom_ok|]. split.
  - intros c H. unfold in_box, sg_domain, unit_geom in H. cbn in H. cbn [filter].
    unfold box_has. cbn [blo bhi iv0 iv1 iv2].
    destruct (Z_le_gt_dec (iv0 c) 4).
    + replace (_ && _)%bool with true by lia.
      replace (_ && _)%bool with false by lia. reflexivity.
    + replace (_ && _)%bool with false by lia.
      replace (_ && _)%bool with true by lia. reflexivity.
  - intros d [->|[->| ->]]; cbn; lra.
Qed.

Print Assumptions c40_contains.
Print Assumptions c40_locations.
Print Assumptions c40_clamp.
Print Assumptions c40_line.
Print Assumptions c40_volume.
Print Assumptions c40_probe.
Print Assumptions c40_plane.
Print Assumptions c40_plane_points.
Print Assumptions c40_plane_accepted.
Print Assumptions c40_plane_unchanged.
Print Assumptions c40_plane_aligned.
Print Assumptions c40_plane_corner_refuted.
Print Assumptions c40_particles.
Print Assumptions c40_uids.
Print Assumptions c40_buffer.
Print Assumptions c40_output.
Print Assumptions c40_affine.
Print Assumptions c40_bounds.
Print Assumptions c40_nodal.
Print Assumptions c40_reads.
Print Assumptions c40_clamp_double_refuted.
