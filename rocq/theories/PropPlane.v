(** C21: plane averages (FieldPlaneAveraging, VelPlaneAveraging, Second- and
    ThirdMomentAveraging). *)
From Verif Require Import BoxR BoxRFacts PlaneAvg PlaneAvgSpec PlaneAvgProofs PlaneAvgProofs2
  PlaneAvgProofs3.
Open Scope R_scope.

(** Whatever tiles the level is cut into, however they are spread over ranks and
    in whatever order the additions happen, every execution ends normally and
    the cell accessor returns the arithmetic mean over the cells of the plane. *)
Theorem c21_plane_mean : forall g ncomp f ranks r,
  usable (pg_dom g) (pg_axis g) -> (0 <= ncomp)%Z ->
  decomposes (pg_dom g) ranks ->
  compute_averages g ncomp f ranks r ->
  exists l, r = Ret l /\
    forall q n, (0 <= q < planes (pg_dom g) (pg_axis g))%Z -> (0 <= n < ncomp)%Z ->
      line_average_cell g ncomp l q n =
      Ret (mean (map (fun c => f c n) (plane (pg_dom g) (pg_axis g) q))).
Proof.
  intros g ncomp f ranks r U H D C.
  destruct (average_spec g ncomp f ranks r U H D C) as (l & E & L & V).
  exists l. split; [exact E|]. intros q n Q I.
  rewrite (cell_ok g ncomp l q n L); [|rewrite ncell_line_planes by exact U; exact Q|exact I].
  now rewrite V.
Qed.
Print Assumptions c21_plane_mean.

(** Two runs on different decompositions report the same profile. *)
Theorem c21_decomposition_independent : forall g ncomp f ranks ranks' r r',
  usable (pg_dom g) (pg_axis g) -> (0 <= ncomp)%Z ->
  decomposes (pg_dom g) ranks -> decomposes (pg_dom g) ranks' ->
  compute_averages g ncomp f ranks r -> compute_averages g ncomp f ranks' r' ->
  r = r'.
Proof.
  intros g ncomp f ranks ranks' r r' U H D D' C C'.
  destruct (average_spec g ncomp f ranks r U H D C) as (l & -> & L & V).
  destruct (average_spec g ncomp f ranks' r' U H D' C') as (l' & -> & L' & V').
  f_equal. apply (nth_ext _ _ 0 0); [congruence|]. intros k K.
  rewrite L in K. rewrite (ncell_line_planes g U) in K.
  assert (NP : (0 < ncomp)%Z) by (destruct (Z.eq_dec ncomp 0) as [->|]; lia).
  set (i := Z.of_nat k). assert (I : (0 <= i < planes (pg_dom g) (pg_axis g) * ncomp)%Z) by lia.
  assert (E : i = (ncomp * (i / ncomp) + i mod ncomp)%Z) by (apply Z.div_mod; lia).
  assert (M : (0 <= i mod ncomp < ncomp)%Z) by (apply Z.mod_pos_bound; lia).
  assert (Q : (0 <= i / ncomp < planes (pg_dom g) (pg_axis g))%Z) by (split; nia).
  specialize (V _ _ Q M). specialize (V' _ _ Q M). rewrite <- E in V, V'.
  unfold rd, i in V, V'. rewrite Nat2Z.id in V, V'. congruence.
Qed.
Print Assumptions c21_decomposition_independent.

(** The mean horizontal speed, the average over a plane of the length of the
    velocity component parallel to the plane. *)
Definition speed_along (axis : Z) (u : Z -> R) : R :=
  match axis with
  | 0%Z => sqrt (u 1%Z * u 1%Z + u 2%Z * u 2%Z)
  | 1%Z => sqrt (u 0%Z * u 0%Z + u 2%Z * u 2%Z)
  | _ => sqrt (u 0%Z * u 0%Z + u 1%Z * u 1%Z)
  end.
Lemma speed_eq axis u : (axis = 0 \/ axis = 1 \/ axis = 2)%Z ->
  sqrt (u (fst (h_idx axis)) * u (fst (h_idx axis)) + u (snd (h_idx axis)) * u (snd (h_idx axis))) =
  speed_along axis u.
Proof. intros [->|[->| ->]]; reflexivity. Qed.

Theorem c21_hvelmag_mean : forall g f ranks r,
  usable (pg_dom g) (pg_axis g) -> (2 <= planes (pg_dom g) (pg_axis g) <= 2147483647)%Z ->
  0 < pg_dx g -> decomposes (pg_dom g) ranks ->
  compute_hvelmag_averages g f ranks r ->
  exists h, r = Ret h /\
    forall q, (0 <= q < planes (pg_dom g) (pg_axis g))%Z ->
      line_hvelmag_average_interpolated g h (centre (pg_xlo g) (pg_dx g) q) =
      Ret (mean (map (fun c => speed_along (pg_axis g) (f c)) (plane (pg_dom g) (pg_axis g) q))).
Proof.
  intros g f ranks r U NB DX D C.
  destruct (hvelmag_spec g f ranks r U D C) as (h & E & L & V). exists h. split; [exact E|].
  intros q Q. rewrite <- (ncell_line_planes g U) in *.
  assert (VV : rd h q = mean (map (fun c => speed_along (pg_axis g) (f c)) (plane (pg_dom g) (pg_axis g) q))).
  { rewrite V by exact Q. f_equal. apply map_ext. intros. apply speed_eq. apply U. }
  rewrite <- VV.
  assert (L1 : length h = Z.to_nat (ncell_line g * 1)) by (rewrite L; f_equal; lia).
  assert (EQ : forall x, line_hvelmag_average_interpolated g h x = line_average_interpolated g 1 h x 0).
  { intros x. unfold line_hvelmag_average_interpolated, line_average_interpolated. cbn [assert in_range Z.leb Z.ltb Z.compare andb].
    destruct (convert_x g x) as [[i t]| |]; cbn [obind fst snd]; try reflexivity.
    replace (1 * i + 0)%Z with i by lia. replace (1 * (i + 1) + 0)%Z with (i + 1)%Z by lia. reflexivity. }
  rewrite EQ.
  destruct (Z.eq_dec q (ncell_line g - 1)) as [->|NE].
  - rewrite (interp_above g 1 0 h); auto; try lia; try lra.
    + f_equal. f_equal. lia.
    + unfold centre. replace (pg_xlo g + (IZR (ncell_line g - 1) + / 2) * pg_dx g - pg_xlo g)
        with ((IZR (ncell_line g - 1) + / 2) * pg_dx g) by ring.
      replace ((IZR (ncell_line g - 1) + / 2) * pg_dx g / pg_dx g) with (IZR (ncell_line g - 1) + / 2)
        by (field; lra).
      assert (IZR (ncell_line g - 1) < IZR 2147483648) by (apply IZR_lt; lia). lra.
  - rewrite (interp_mid g 1 0 h DX NB L1 ltac:(lia) _ q); try lia.
    + replace (1 * q + 0)%Z with q by lia. f_equal. field. lra.
    + unfold centre. rewrite plus_IZR. split; nra.
Qed.
Print Assumptions c21_hvelmag_mean.

(** Heights are interpolated between the means of the two planes around them;
    [l] is any profile array of the right size. *)
Theorem c21_interpolated_mid : forall g ncomp l n q x,
  0 < pg_dx g -> (2 <= ncell_line g <= 2147483647)%Z ->
  length l = Z.to_nat (ncell_line g * ncomp) -> (0 <= n < ncomp)%Z ->
  (0 <= q)%Z -> (q + 1 < ncell_line g)%Z ->
  centre (pg_xlo g) (pg_dx g) q <= x <= centre (pg_xlo g) (pg_dx g) (q + 1) ->
  exists a b y,
    line_average_cell g ncomp l q n = Ret a /\
    line_average_cell g ncomp l (q + 1) n = Ret b /\
    line_average_interpolated g ncomp l x n = Ret y /\
    (y - a) * pg_dx g = (b - a) * (x - centre (pg_xlo g) (pg_dx g) q) /\
    Rmin a b <= y <= Rmax a b.
Proof.
  intros g ncomp l n q x DX NB L I Q1 Q2 X.
  exists (rd l (ncomp * q + n)), (rd l (ncomp * (q + 1) + n)).
  destruct (interp_bounded g ncomp n l DX NB L I x q Q1 Q2 X) as (y & E & B).
  exists y. split; [apply cell_ok; auto; lia|]. split; [apply cell_ok; auto; lia|].
  split; [exact E|]. split; [|exact B].
  rewrite (interp_mid g ncomp n l DX NB L I x q Q1 Q2 X) in E.
  assert (EY : y = rd l (ncomp * q + n) * (1 - (x - centre (pg_xlo g) (pg_dx g) q) / pg_dx g) +
     rd l (ncomp * (q + 1) + n) * ((x - centre (pg_xlo g) (pg_dx g) q) / pg_dx g)) by congruence.
  rewrite EY. field. lra.
Qed.
Print Assumptions c21_interpolated_mid.

(** At a cell centre the interpolated accessor returns what the cell accessor
    returns. *)
Theorem c21_interpolated_at_centre : forall g ncomp l n q,
  0 < pg_dx g -> (2 <= ncell_line g <= 2147483647)%Z ->
  length l = Z.to_nat (ncell_line g * ncomp) -> (0 <= n < ncomp)%Z ->
  (0 <= q < ncell_line g)%Z ->
  line_average_interpolated g ncomp l (centre (pg_xlo g) (pg_dx g) q) n =
  line_average_cell g ncomp l q n.
Proof.
  intros g ncomp l n q DX NB L I Q. rewrite (cell_ok g ncomp l q n L Q I).
  destruct (Z.eq_dec q (ncell_line g - 1)) as [->|NE].
  - rewrite (interp_above g ncomp n l DX NB L I); auto; try lra.
    unfold centre. replace (pg_xlo g + (IZR (ncell_line g - 1) + / 2) * pg_dx g - pg_xlo g)
        with ((IZR (ncell_line g - 1) + / 2) * pg_dx g) by ring.
    replace ((IZR (ncell_line g - 1) + / 2) * pg_dx g / pg_dx g) with (IZR (ncell_line g - 1) + / 2)
        by (field; lra).
    assert (IZR (ncell_line g - 1) < IZR 2147483648) by (apply IZR_lt; lia). lra.
  - rewrite (interp_mid g ncomp n l DX NB L I _ q); try lia.
    + f_equal. field. lra.
    + unfold centre. rewrite plus_IZR. split; nra.
Qed.
Print Assumptions c21_interpolated_at_centre.

(** Below the first and above the last cell centre the profile is constant. *)
Theorem c21_interpolated_ends : forall g ncomp l n x,
  0 < pg_dx g -> (2 <= ncell_line g <= 2147483647)%Z ->
  length l = Z.to_nat (ncell_line g * ncomp) -> (0 <= n < ncomp)%Z ->
  (x <= centre (pg_xlo g) (pg_dx g) 0 ->
     line_average_interpolated g ncomp l x n = line_average_cell g ncomp l 0 n) /\
  (centre (pg_xlo g) (pg_dx g) (ncell_line g - 1) <= x ->
   (x - pg_xlo g) / pg_dx g - /2 < 2147483648 ->
     line_average_interpolated g ncomp l x n = line_average_cell g ncomp l (ncell_line g - 1) n).
Proof.
  intros g ncomp l n x DX NB L I. split.
  - intros X. rewrite (cell_ok g ncomp l 0 n L ltac:(lia) I). apply (interp_below g ncomp n l DX NB L I x X).
  - intros X B. rewrite (cell_ok g ncomp l (ncell_line g - 1) n L ltac:(lia) I). apply (interp_above g ncomp n l DX NB L I x X B).
Qed.
Print Assumptions c21_interpolated_ends.

(** The line derivative of a profile that is linear in height is its slope, at
    the ends as well as in the interior. *)
Theorem c21_derivative_linear : forall g ncomp l n a b,
  0 < pg_dx g -> (2 <= ncell_line g)%Z ->
  length l = Z.to_nat (ncell_line g * ncomp) -> (0 <= n < ncomp)%Z ->
  (forall q, (0 <= q < ncell_line g)%Z ->
     line_average_cell g ncomp l q n = Ret (a + b * centre (pg_xlo g) (pg_dx g) q)) ->
  forall q, (0 <= q < ncell_line g)%Z -> line_derivative_cell g ncomp l q n = Ret b.
Proof.
  intros g ncomp l n a b DX NB L I V. apply (derivative_linear g ncomp l n a b DX NB L I).
  intros q Q. specialize (V q Q). rewrite (cell_ok g ncomp l q n L Q I) in V. congruence.
Qed.
Print Assumptions c21_derivative_linear.

Lemma idx_ok p N q k : (0 <= q < p)%Z -> (0 <= k < N)%Z -> (0 <= N * q + k < p * N)%Z.
Proof. intros. nia. Qed.
Lemma pair_ok m n a b : (0 <= m < a)%Z -> (0 <= n < b)%Z -> (0 <= b * m + n < a * b)%Z.
Proof. intros. nia. Qed.
Lemma of_nat_len {A} (l : list A) n : length l = Z.to_nat n -> (0 <= n)%Z -> Z.of_nat (length l) = n.
Proof. intros -> ?. lia. Qed.

(** Second moments: the column written for components (m, n) is the covariance
    of the two components over the plane, on every decomposition. *)
Theorem c21_second_moment : forall g n1 n2 f1 f2 ranks l1 l2 r,
  usable (pg_dom g) (pg_axis g) -> (0 <= n1)%Z -> (0 <= n2)%Z -> decomposes (pg_dom g) ranks ->
  compute_averages g n1 f1 ranks (Ret l1) -> compute_averages g n2 f2 ranks (Ret l2) ->
  compute_second g n1 n2 f1 f2 l1 l2 ranks r ->
  exists l, r = Ret l /\
    forall q m n, (0 <= q < planes (pg_dom g) (pg_axis g))%Z -> (0 <= m < n1)%Z -> (0 <= n < n2)%Z ->
      let P := plane (pg_dom g) (pg_axis g) q in
      second_file_entry g n1 n2 l q m n =
      Ret (mean (map (fun c => f1 c m * f2 c n) P) -
           mean (map (fun c => f1 c m) P) * mean (map (fun c => f2 c n) P)).
Proof.
  intros g n1 n2 f1 f2 ranks l1 l2 r U H1 H2 D C1 C2 C.
  destruct (average_spec g n1 f1 ranks _ U H1 D C1) as (k1 & E1 & L1 & V1).
  destruct (average_spec g n2 f2 ranks _ U H2 D C2) as (k2 & E2 & L2 & V2).
  injection E1 as <-. injection E2 as <-.
  destruct (second_spec g n1 n2 f1 f2 l1 l2 ranks r U H1 H2 D C) as (l & E & L & V).
  exists l. split; [exact E|]. intros q m n Q M N P.
  unfold second_file_entry. rewrite get_ok.
  - f_equal. rewrite <- Z.add_assoc, V by assumption. rewrite V1, V2 by assumption.
    apply (mean_cov (fun c => f1 c m) (fun c => f2 c n)). apply plane_nonempty; assumption.
  - pose proof (idx_ok _ _ q (n2 * m + n) Q (pair_ok m n n1 n2 M N)).
    rewrite (ncell_line_planes g U) in L. rewrite (of_nat_len _ _ L) by lia. lia.
Qed.
Print Assumptions c21_second_moment.

Theorem c21_variance_nonneg : forall g n f ranks l1 r,
  usable (pg_dom g) (pg_axis g) -> (0 <= n)%Z -> decomposes (pg_dom g) ranks ->
  compute_averages g n f ranks (Ret l1) -> compute_second g n n f f l1 l1 ranks r ->
  exists l, r = Ret l /\
    forall q m, (0 <= q < planes (pg_dom g) (pg_axis g))%Z -> (0 <= m < n)%Z ->
      exists v, second_file_entry g n n l q m m = Ret v /\ 0 <= v.
Proof.
  intros g n f ranks l1 r U H D C1 C.
  destruct (second_spec g n n f f l1 l1 ranks r U H H D C) as (l & E & L & V).
  exists l. split; [exact E|]. intros q m Q M. eexists. split.
  - unfold second_file_entry. rewrite get_ok; [reflexivity|].
    pose proof (idx_ok _ _ q (n * m + m) Q (pair_ok m m n n M M)).
    rewrite (ncell_line_planes g U) in L. rewrite (of_nat_len _ _ L) by lia. lia.
  - rewrite <- Z.add_assoc, V by assumption. apply mean_sq_nonneg.
Qed.
Print Assumptions c21_variance_nonneg.

(** Third moments: mean of the product of the three fluctuations. *)
Theorem c21_third_moment : forall g n1 n2 n3 f1 f2 f3 ranks l1 l2 l3 r,
  usable (pg_dom g) (pg_axis g) -> (0 <= n1)%Z -> (0 <= n2)%Z -> (0 <= n3)%Z ->
  decomposes (pg_dom g) ranks ->
  compute_averages g n1 f1 ranks (Ret l1) -> compute_averages g n2 f2 ranks (Ret l2) ->
  compute_averages g n3 f3 ranks (Ret l3) ->
  compute_third g n1 n2 n3 f1 f2 f3 l1 l2 l3 ranks r ->
  exists l, r = Ret l /\
    forall q m n p, (0 <= q < planes (pg_dom g) (pg_axis g))%Z ->
      (0 <= m < n1)%Z -> (0 <= n < n2)%Z -> (0 <= p < n3)%Z ->
      let P := plane (pg_dom g) (pg_axis g) q in
      third_file_entry g n1 n2 n3 l q m n p =
      Ret (mean (map (fun c => (f1 c m - mean (map (fun d => f1 d m) P)) *
                               (f2 c n - mean (map (fun d => f2 d n) P)) *
                               (f3 c p - mean (map (fun d => f3 d p) P))) P)).
Proof.
  intros g n1 n2 n3 f1 f2 f3 ranks l1 l2 l3 r U H1 H2 H3 D C1 C2 C3 C.
  destruct (average_spec g n1 f1 ranks _ U H1 D C1) as (k1 & E1 & L1 & V1).
  destruct (average_spec g n2 f2 ranks _ U H2 D C2) as (k2 & E2 & L2 & V2).
  destruct (average_spec g n3 f3 ranks _ U H3 D C3) as (k3 & E3 & L3 & V3).
  injection E1 as <-. injection E2 as <-. injection E3 as <-.
  destruct (third_spec g n1 n2 n3 f1 f2 f3 l1 l2 l3 ranks r U H1 H2 H3 D C) as (l & E & L & V).
  exists l. split; [exact E|]. intros q m n p Q M N P0 P.
  assert (IDX : (0 <= n2 * n3 * m + n3 * n + p < n1 * n2 * n3)%Z).
  { assert (0 <= n3 * n + p < n2 * n3)%Z by nia. nia. }
  unfold third_file_entry. rewrite get_ok.
  - f_equal.
    replace (n1 * n2 * n3 * q + n2 * n3 * m + n3 * n + p)%Z
      with (n1 * n2 * n3 * q + (n2 * n3 * m + n3 * n + p))%Z by ring.
    rewrite V by assumption. rewrite V1, V2, V3 by assumption. reflexivity.
  - replace (n1 * n2 * n3 * q + n2 * n3 * m + n3 * n + p)%Z
      with (n1 * n2 * n3 * q + (n2 * n3 * m + n3 * n + p))%Z by ring.
    pose proof (idx_ok _ _ q _ Q IDX).
    rewrite (ncell_line_planes g U) in L. rewrite (of_nat_len _ _ L) by lia. lia.
Qed.
Print Assumptions c21_third_moment.

(** The accessor by component pair agrees with the file whenever both fields
    have as many components and the plane is not the last one. *)
Theorem c21_second_accessor_partial : forall g n l q m k,
  length l = Z.to_nat (ncell_line g * (n * n)) ->
  (0 <= q)%Z -> (q + 1 < ncell_line g)%Z -> (0 <= m < n)%Z -> (0 <= k < n)%Z ->
  second_cell g n n l q m k = second_file_entry g n n l q m k.
Proof.
  intros g n l q m k L Q1 Q2 M K. unfold second_cell, moment_cell, second_comp, second_file_entry.
  rewrite !in_range_ok by nia. cbn [assert].
  rewrite (proj2 (Z.leb_le _ _)) by lia. rewrite (proj2 (Z.ltb_lt _ _)) by lia. cbn [andb assert].
  f_equal. ring.
Qed.
Print Assumptions c21_second_accessor_partial.

(** Concrete data: a 2 x 2 x 3 domain on three ranks, averaged along z. *)
Definition dom0 : box := Box (IV 0 0 0) (IV 1 1 2).
Definition g0 : plane_geom := PG 2 dom0 10 2.
Definition ranks0 : list (list box) :=
  [[Box (IV 0 0 0) (IV 0 1 1); Box (IV 0 0 2) (IV 1 0 2)]; [];
   [Box (IV 1 0 0) (IV 1 1 1); Box (IV 0 1 2) (IV 1 1 2)]].
Lemma usable0 : usable dom0 2.
Proof. unfold usable, dom0. cbn. lia. Qed.
Lemma decomposes0 : decomposes dom0 ranks0.
Proof.
  unfold decomposes, ranks0, dom0. cbn [concat app]. split.
  - intros c. unfold in_box. cbn [blo bhi iv0 iv1 iv2]. split.
    + intros H.
      destruct (Z.eq_dec (iv2 c) 2); [destruct (Z.eq_dec (iv1 c) 0)|destruct (Z.eq_dec (iv0 c) 0)].
      * exists (Box (IV 0 0 2) (IV 1 0 2)). cbn [In blo bhi iv0 iv1 iv2]. split; [tauto|lia].
      * exists (Box (IV 0 1 2) (IV 1 1 2)). cbn [In blo bhi iv0 iv1 iv2]. split; [tauto|lia].
      * exists (Box (IV 0 0 0) (IV 0 1 1)). cbn [In blo bhi iv0 iv1 iv2]. split; [tauto|lia].
      * exists (Box (IV 1 0 0) (IV 1 1 1)). cbn [In blo bhi iv0 iv1 iv2]. split; [tauto|lia].
    + intros (t & [<-|[<-|[<-|[<-|[]]]]] & H); cbn [blo bhi iv0 iv1 iv2] in H; lia.
  - repeat constructor; unfold disjoint, in_box; intros c; cbn [blo bhi iv0 iv1 iv2]; intros; lia.
Qed.

Lemma plane2 : plane (pg_dom g0) (pg_axis g0) 2 = [IV 0 0 2; IV 1 0 2; IV 0 1 2; IV 1 1 2].
Proof. vm_compute. reflexivity. Qed.
Lemma plane0 : plane (pg_dom g0) (pg_axis g0) 0 = [IV 0 0 0; IV 1 0 0; IV 0 1 0; IV 1 1 0].
Proof. vm_compute. reflexivity. Qed.

(** The hypotheses of the theorems above are met and the mean is the expected
    number: u = x index + 10 * plane gives 20.5 on plane 2. *)
Example c21_example : exists l,
  compute_averages g0 1 (fun c _ => IZR (iv0 c) + 10 * IZR (iv2 c)) ranks0 (Ret l) /\
  line_average_cell g0 1 l 2 0 = Ret (41 / 2).
Proof.
  destruct (computes_exists (average_kernel g0 1 (fun c _ => IZR (iv0 c) + 10 * IZR (iv2 c)))
     (pg_axis g0) (ncell_line g0 * 1) ranks0) as (r & C).
  destruct (c21_plane_mean g0 1 (fun c _ => IZR (iv0 c) + 10 * IZR (iv2 c)) ranks0 r usable0
    ltac:(lia) decomposes0 C) as (l & -> & V).
  exists l. split; [exact C|]. rewrite (V 2%Z 0%Z); [|unfold planes; cbn; lia|lia].
  f_equal. rewrite plane2. unfold mean. cbn. lra.
Qed.

(** Refuted: the cell accessor of the horizontal speed does not return the mean
    horizontal speed, nor what the interpolated accessor returns at the same
    height; it returns an entry of the velocity average. *)
Theorem c21_hvelmag_cell_refuted : exists g f ranks l h,
  usable (pg_dom g) (pg_axis g) /\ decomposes (pg_dom g) ranks /\ 0 < pg_dx g /\
  compute_averages g 3 f ranks (Ret l) /\ compute_hvelmag_averages g f ranks (Ret h) /\
  exists a b,
    line_hvelmag_average_cell g l h 0 = Ret a /\
    line_hvelmag_average_interpolated g h (centre (pg_xlo g) (pg_dx g) 0) = Ret b /\
    a <> b /\
    b = mean (map (fun c => speed_along (pg_axis g) (f c)) (plane (pg_dom g) (pg_axis g) 0)).
Proof.
  set (f := (fun (_ : ivec) (n : Z) => if (n =? 0)%Z then 3 else if (n =? 1)%Z then 4 else 0) : fab).
  destruct (computes_exists (average_kernel g0 3 f) (pg_axis g0) (ncell_line g0 * 3) ranks0) as (r & C).
  destruct (computes_exists (hvelmag_kernel g0 f) (pg_axis g0) (ncell_line g0) ranks0) as (rh & Ch).
  destruct (average_spec g0 3 f ranks0 r usable0 ltac:(lia) decomposes0 C) as (l & -> & L & V).
  destruct (c21_hvelmag_mean g0 f ranks0 rh usable0 ltac:(unfold planes; cbn; lia) ltac:(cbn; lra) decomposes0 Ch)
    as (h & -> & H).
  exists g0, f, ranks0, l, h. split; [exact usable0|]. split; [exact decomposes0|].
  split; [cbn; lra|]. split; [exact C|]. split; [exact Ch|].
  specialize (H 0%Z ltac:(unfold planes; cbn; lia)).
  exists 3. eexists. split; [|split; [exact H|split; [|reflexivity]]].
  - unfold line_hvelmag_average_cell. rewrite in_range_ok by (unfold ncell_line; cbn; lia).
    cbn [assert]. rewrite get_ok by (rewrite L; unfold ncell_line; cbn; lia). f_equal.
    specialize (V 0%Z 0%Z ltac:(unfold planes; cbn; lia) ltac:(lia)). cbn [Z.mul Z.add] in V.
    rewrite V, plane0. unfold mean, f. cbn. lra.
  - assert (S : forall c, speed_along (pg_axis g0) (f c) = 5).
    { intros c. change (sqrt (3 * 3 + 4 * 4) = 5). replace (3 * 3 + 4 * 4) with (5 * 5) by ring.
      apply sqrt_square. lra. }
    rewrite (map_ext _ (fun _ => 5)) by (intros; apply S).
    rewrite plane0. unfold mean. cbn. lra.
Qed.
Print Assumptions c21_hvelmag_cell_refuted.

(** Refuted: the accessor by component pair of the second moments fails for
    fields of different component counts.  For velocity (3) with temperature (1)
    the pair (v, T) aborts although its moment is stored and written to the
    file; with (1, 3) components the pair (T, v) is read correctly, but (2, 3)
    components return the moment of another pair. *)
Theorem c21_second_accessor_refuted :
  (forall l q, second_cell g0 3 1 l q 1 0 = Abort) /\
  (exists l a b, length l = Z.to_nat (ncell_line g0 * (2 * 3)) /\
     second_cell g0 2 3 l 0 1 0 = Ret a /\ second_file_entry g0 2 3 l 0 1 0 = Ret b /\ a <> b).
Proof.
  split.
  - intros l q. unfold second_cell, moment_cell, second_comp. reflexivity.
  - exists ([0; 0; 7; 1] ++ repeat 0 14), 7, 1. split; [reflexivity|].
    split; [reflexivity|]. split; [reflexivity|]. lra.
Qed.
Print Assumptions c21_second_accessor_refuted.

(** Refuted: the cell accessors of the moments abort for the last plane, which
    the interpolated accessor serves. *)
Theorem c21_moment_last_plane_refuted : forall l,
  length l = Z.to_nat (ncell_line g0 * (1 * 1)) ->
  second_cell g0 1 1 l 2 0 0 = Abort /\
  exists a, second_interpolated g0 1 1 l (centre (pg_xlo g0) (pg_dx g0) 2) 0 0 = Ret a.
Proof.
  intros l L. split; [reflexivity|].
  exists (rd l (1 * 2 + 0)).
  change (line_average_interpolated g0 1 l (centre (pg_xlo g0) (pg_dx g0) 2) 0 = Ret (rd l (1 * 2 + 0))).
  rewrite (c21_interpolated_at_centre g0 1 l 0 2); try (unfold ncell_line; cbn; lia); try (cbn; lra).
  - apply cell_ok; [exact L|unfold ncell_line; cbn; lia|lia].
  - exact L.
Qed.
Print Assumptions c21_moment_last_plane_refuted.

(** Refuted: with a single plane of cells every height query aborts, although
    the plane mean exists. *)
Theorem c21_single_plane_refuted : forall g ncomp l x n,
  ncell_line g = 1%Z -> 0 < pg_dx g -> x <= centre (pg_xlo g) (pg_dx g) 0 ->
  (0 <= n < ncomp)%Z -> length l = Z.to_nat (ncell_line g * ncomp) ->
  line_average_interpolated g ncomp l x n = Abort /\
  exists a, line_average_cell g ncomp l 0 n = Ret a.
Proof.
  intros g ncomp l x n N DX X I L. split.
  - unfold line_average_interpolated. rewrite in_range_ok by exact I. cbn [assert].
    unfold convert_x. rewrite (proj2 (Rltb_false _ _)) by (unfold centre in X; lra).
    rewrite N. reflexivity.
  - eexists. apply cell_ok; [exact L|lia|exact I].
Qed.
Print Assumptions c21_single_plane_refuted.
