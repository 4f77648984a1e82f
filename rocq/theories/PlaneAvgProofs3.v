(** Interpolation along the line, moments, and counterexamples. *)
From Coq Require Import Permutation.
From Verif Require Import BoxR BoxRFacts PlaneAvg PlaneAvgSpec PlaneAvgProofs PlaneAvgProofs2.
Open Scope R_scope.

Lemma convert_mid g x q : 0 < pg_dx g -> (0 <= q)%Z -> (q + 1 < ncell_line g)%Z ->
  (ncell_line g <= 2147483647)%Z ->
  centre (pg_xlo g) (pg_dx g) q <= x < centre (pg_xlo g) (pg_dx g) (q + 1) ->
  convert_x g x = Ret (q, (x - centre (pg_xlo g) (pg_dx g) q) / pg_dx g).
Proof.
  intros DX Q1 Q2 NB [A B]. unfold convert_x, centre in *.
  set (xlo := pg_xlo g) in *. set (dx := pg_dx g) in *.
  rewrite plus_IZR in B.
  destruct (Rltb (xlo + 1/2 * dx) x) eqn:E.
  - assert (F : rfloor ((x - xlo) / dx - 1/2) = q).
    { apply rfloor_unique. split.
      - apply Rmult_le_reg_r with dx; [exact DX|].
        replace (((x - xlo) / dx - 1/2) * dx) with (x - xlo - 1/2 * dx) by (field; lra). lra.
      - apply Rmult_lt_reg_r with dx; [exact DX|].
        replace (((x - xlo) / dx - 1/2) * dx) with (x - xlo - 1/2 * dx) by (field; lra). lra. }
    rewrite F, to_int_ok by lia. cbn [obind fst].
    destruct (Z.leb_spec (ncell_line g) (q + 1)); [lia|].
    unfold assert. rewrite (proj2 (Z.leb_le 0 q)) by lia.
    rewrite (proj2 (Z.ltb_lt _ _)) by lia. cbn [andb]. do 2 f_equal. field. lra.
  - apply Rltb_false in E.
    assert (Q0 : IZR q <= 0).
    { apply Rmult_le_reg_r with dx; [exact DX|]. lra. }
    assert (q = 0)%Z by (apply le_IZR in Q0; lia). subst q.
    cbn [obind fst]. destruct (Z.leb_spec (ncell_line g) (0 + 1)); [lia|].
    unfold assert. rewrite (proj2 (Z.ltb_lt _ _)) by lia. cbn [andb Z.leb Z.compare].
    do 2 f_equal. replace (x - (xlo + (0 + / 2) * dx)) with 0 by lra. field. lra.
Qed.

Lemma convert_below g x : 0 < pg_dx g -> (2 <= ncell_line g)%Z ->
  x <= centre (pg_xlo g) (pg_dx g) 0 -> convert_x g x = Ret (0%Z, 0).
Proof.
  intros DX N A. unfold convert_x, centre in *.
  rewrite (proj2 (Rltb_false _ _)) by lra. cbn [obind fst].
  destruct (Z.leb_spec (ncell_line g) (0 + 1)); [lia|].
  unfold assert. rewrite (proj2 (Z.ltb_lt _ _)) by lia. reflexivity.
Qed.

Lemma convert_above g x : 0 < pg_dx g -> (2 <= ncell_line g <= 2147483647)%Z ->
  centre (pg_xlo g) (pg_dx g) (ncell_line g - 1) <= x ->
  (x - pg_xlo g) / pg_dx g - /2 < 2147483648 ->
  convert_x g x = Ret ((ncell_line g - 2)%Z, 1).
Proof.
  intros DX N A B. unfold convert_x, centre in *.
  set (xlo := pg_xlo g) in *. set (dx := pg_dx g) in *.
  assert (NR : 1 <= IZR (ncell_line g - 1)).
  { apply (IZR_le 1). lia. }
  rewrite (proj2 (Rltb_spec _ _)) by nra.
  set (y := (x - xlo) / dx - 1/2) in *.
  assert (Y : IZR (ncell_line g - 1) <= y).
  { unfold y. apply Rmult_le_reg_r with dx; [exact DX|].
    replace (((x - xlo) / dx - 1/2) * dx) with (x - xlo - 1/2 * dx) by (field; lra). lra. }
  pose proof (rfloor_spec y) as [F1 F2].
  assert (FL : (ncell_line g - 1 <= rfloor y)%Z).
  { assert (IZR (ncell_line g - 1) < IZR (rfloor y + 1)) by (rewrite plus_IZR; lra).
    apply lt_IZR in H. lia. }
  assert (FU : (rfloor y <= 2147483647)%Z).
  { assert (IZR (rfloor y) < IZR 2147483648) by (assert (y < 2147483648) by (unfold y; lra); lra). apply lt_IZR in H. lia. }
  rewrite to_int_ok by lia. cbn [obind fst].
  destruct (Z.leb_spec (ncell_line g) (rfloor y + 1)); [|lia].
  unfold assert. rewrite (proj2 (Z.leb_le 0 (ncell_line g - 2))) by lia.
  rewrite (proj2 (Z.ltb_lt _ _)) by lia. reflexivity.
Qed.

Lemma interp_of_convert g N l x n q t :
  length l = Z.to_nat (ncell_line g * N) -> (0 <= n < N)%Z ->
  (0 <= q)%Z -> (q + 1 < ncell_line g)%Z ->
  convert_x g x = Ret (q, t) ->
  line_average_interpolated g N l x n =
    Ret (rd l (N * q + n) * (1 - t) + rd l (N * (q + 1) + n) * t).
Proof.
  intros L I Q1 Q2 C. unfold line_average_interpolated. rewrite in_range_ok by exact I.
  cbn [assert]. rewrite C. cbn [obind fst snd].
  rewrite !get_ok by (rewrite L, Z2Nat.id by nia; nia). reflexivity.
Qed.

Lemma h_interp_of_convert g h x q t :
  length h = Z.to_nat (ncell_line g) -> (0 <= q)%Z -> (q + 1 < ncell_line g)%Z ->
  convert_x g x = Ret (q, t) ->
  line_hvelmag_average_interpolated g h x = Ret (rd h q * (1 - t) + rd h (q + 1) * t).
Proof.
  intros L Q1 Q2 C. unfold line_hvelmag_average_interpolated. rewrite C. cbn [obind fst snd].
  rewrite !get_ok by (rewrite L, Z2Nat.id by lia; lia). reflexivity.
Qed.

(** The interpolated accessor, everywhere, in terms of the cell values [v]. *)
Section Interp.
Variables (g : plane_geom) (N n : Z) (l : list R).
Hypothesis DX : 0 < pg_dx g.
Hypothesis NB : (2 <= ncell_line g <= 2147483647)%Z.
Hypothesis L : length l = Z.to_nat (ncell_line g * N).
Hypothesis I : (0 <= n < N)%Z.
Let c q := centre (pg_xlo g) (pg_dx g) q.
Let v q := rd l (N * q + n).

Lemma interp_below x : x <= c 0%Z -> line_average_interpolated g N l x n = Ret (v 0%Z).
Proof.
  intros X. erewrite interp_of_convert; [|exact L|exact I| | |apply convert_below; try lia; auto]; try lia.
  unfold v. f_equal. ring.
Qed.
Lemma interp_above x : c (ncell_line g - 1)%Z <= x -> (x - pg_xlo g) / pg_dx g - /2 < 2147483648 ->
  line_average_interpolated g N l x n = Ret (v (ncell_line g - 1)%Z).
Proof.
  intros X B. erewrite interp_of_convert; [|exact L|exact I| | |apply convert_above; auto]; try lia.
  unfold v. replace (ncell_line g - 2 + 1)%Z with (ncell_line g - 1)%Z by lia. f_equal. ring.
Qed.
Lemma interp_mid x q : (0 <= q)%Z -> (q + 1 < ncell_line g)%Z -> c q <= x <= c (q + 1)%Z ->
  line_average_interpolated g N l x n =
    Ret (v q * (1 - (x - c q) / pg_dx g) + v (q + 1)%Z * ((x - c q) / pg_dx g)).
Proof.
  intros Q1 Q2 [A B]. destruct (Rlt_dec x (c (q + 1)%Z)) as [C|C].
  - erewrite interp_of_convert; [reflexivity|exact L|exact I|exact Q1|exact Q2|].
    apply convert_mid; auto; lia.
  - assert (X : x = c (q + 1)%Z) by lra. subst x.
    assert (W : (c (q + 1)%Z - c q) / pg_dx g = 1).
    { unfold c, centre. rewrite plus_IZR. field. lra. }
    rewrite W. replace (v q * (1 - 1) + v (q + 1)%Z * 1) with (v (q + 1)%Z) by ring.
    destruct (Z.eq_dec (q + 1) (ncell_line g - 1)) as [E|E].
    + rewrite E. apply interp_above; [lra|].
      unfold c, centre. replace (pg_xlo g + (IZR (ncell_line g - 1) + / 2) * pg_dx g - pg_xlo g)
        with ((IZR (ncell_line g - 1) + / 2) * pg_dx g) by ring.
      replace ((IZR (ncell_line g - 1) + / 2) * pg_dx g / pg_dx g) with (IZR (ncell_line g - 1) + / 2)
        by (field; lra).
      assert (IZR (ncell_line g - 1) < IZR 2147483648) by (apply IZR_lt; lia). lra.
    + erewrite interp_of_convert; [|exact L|exact I| | |apply (convert_mid g _ (q + 1)); auto; try lia].
      * unfold v, c. f_equal. field. lra.
      * lia.
      * lia.
      * split; [unfold c; lra|]. unfold centre, c. unfold centre. rewrite !plus_IZR. nra.
Qed.
Lemma interp_bounded x q : (0 <= q)%Z -> (q + 1 < ncell_line g)%Z -> c q <= x <= c (q + 1)%Z ->
  exists y, line_average_interpolated g N l x n = Ret y /\
    Rmin (v q) (v (q + 1)%Z) <= y <= Rmax (v q) (v (q + 1)%Z).
Proof.
  intros Q1 Q2 X. rewrite (interp_mid x q Q1 Q2 X). eexists; split; [reflexivity|].
  set (t := (x - c q) / pg_dx g).
  assert (T : 0 <= t <= 1).
  { unfold t. assert (CC : c (q + 1)%Z = c q + pg_dx g).
    { unfold c, centre. rewrite plus_IZR. ring. }
    split.
    - apply Rmult_le_reg_r with (pg_dx g); [exact DX|].
      replace ((x - c q) / pg_dx g * pg_dx g) with (x - c q) by (field; lra). lra.
    - apply Rmult_le_reg_r with (pg_dx g); [exact DX|].
      replace ((x - c q) / pg_dx g * pg_dx g) with (x - c q) by (field; lra). lra. }
  unfold Rmin, Rmax. destruct (Rle_dec (v q) (v (q + 1)%Z)); split; nra.
Qed.
End Interp.

(** Mean of products. *)
Lemma rsum_prod (f h : ivec -> R) a b l :
  rsum (map (fun c => (f c - a) * (h c - b)) l) =
  rsum (map (fun c => f c * h c) l) + (- b * rsum (map f l) +
       (- a * rsum (map h l) + a * b * INR (length l))).
Proof.
  induction l as [|x l IH]; [cbn; lra|].
  cbn [map]. rewrite !rsum_cons, IH.
  change (length (x :: l)) with (S (length l)). rewrite S_INR. ring.
Qed.
Lemma mean_cov (f h : ivec -> R) l : l <> [] ->
  mean (map (fun c => (f c - mean (map f l)) * (h c - mean (map h l))) l) =
  mean (map (fun c => f c * h c) l) - mean (map f l) * mean (map h l).
Proof.
  intros NE. set (a := mean (map f l)). set (b := mean (map h l)).
  assert (NZ : INR (length l) <> 0).
  { apply not_0_INR. destruct l; [congruence|discriminate]. }
  assert (A : rsum (map f l) = a * INR (length l)).
  { unfold a, mean. rewrite map_length. field. exact NZ. }
  assert (B : rsum (map h l) = b * INR (length l)).
  { unfold b, mean. rewrite map_length. field. exact NZ. }
  unfold mean. rewrite !map_length.
  rewrite rsum_prod, A, B. field. exact NZ.
Qed.

Lemma mean_sq_nonneg (f : ivec -> R) k l : 0 <= mean (map (fun c => (f c - k) * (f c - k)) l).
Proof.
  unfold mean. destruct l as [|x l].
  - cbn. lra.
  - apply Rmult_le_pos.
    + apply rsum_nonneg. intros; apply Rle_0_sqr.
    + left. apply Rinv_0_lt_compat. apply lt_0_INR. rewrite map_length. cbn. lia.
Qed.

Lemma mean_bounds (f : ivec -> R) a b l : l <> [] -> (forall c, In c l -> a <= f c <= b) ->
  a <= mean (map f l) <= b.
Proof.
  intros NE H. assert (P : 0 < INR (length l)).
  { apply lt_0_INR. destruct l; [congruence|cbn; lia]. }
  assert (A : rsum (map (fun _ => a) l) <= rsum (map f l)) by (apply rsum_le; intros; apply H; auto).
  assert (B : rsum (map f l) <= rsum (map (fun _ => b) l)) by (apply rsum_le; intros; apply H; auto).
  rewrite rsum_const in A, B. unfold mean. rewrite map_length. split.
  - apply Rmult_le_reg_r with (INR (length l)); [exact P|].
    unfold Rdiv. rewrite Rmult_assoc, Rinv_l by lra. lra.
  - apply Rmult_le_reg_r with (INR (length l)); [exact P|].
    unfold Rdiv. rewrite Rmult_assoc, Rinv_l by lra. lra.
Qed.

Lemma plane_nonempty g q : usable (pg_dom g) (pg_axis g) ->
  (0 <= q < planes (pg_dom g) (pg_axis g))%Z -> plane (pg_dom g) (pg_axis g) q <> [].
Proof.
  intros U Q E. destruct (length_plane g q U Q) as [A B]. rewrite E in A. change (Z.of_nat (length (@nil ivec))) with 0%Z in A. lia.
Qed.

(** Line derivative of a linear profile. *)
Lemma derivative_linear g N l n a b : 0 < pg_dx g -> (2 <= ncell_line g)%Z ->
  length l = Z.to_nat (ncell_line g * N) -> (0 <= n < N)%Z ->
  (forall q, (0 <= q < ncell_line g)%Z -> rd l (N * q + n) = a + b * centre (pg_xlo g) (pg_dx g) q) ->
  forall q, (0 <= q < ncell_line g)%Z -> line_derivative_cell g N l q n = Ret b.
Proof.
  intros DX NB L I V q Q. unfold line_derivative_cell. rewrite !in_range_ok by assumption.
  cbn [assert]. assert (G : forall k, (0 <= k < ncell_line g)%Z -> get l (N * k + n) =
     Ret (a + b * centre (pg_xlo g) (pg_dx g) k)).
  { intros k K. rewrite get_ok by (rewrite L, Z2Nat.id by nia; nia). now rewrite V. }
  destruct (Z.eqb_spec q 0) as [->|NZ]; [|destruct (Z.eqb_spec q (ncell_line g - 1)) as [->|NL]].
  - rewrite !G by lia. cbn [obind]. f_equal. unfold centre. rewrite plus_IZR. field. lra.
  - rewrite !G by lia. cbn [obind]. f_equal. unfold centre. rewrite !minus_IZR. field. lra.
  - rewrite !G by lia. cbn [obind]. f_equal. unfold centre. rewrite plus_IZR, minus_IZR. field. lra.
Qed.

(** Executions exist: take every rank's additions in program order. *)
Lemma computes_exists kernel axis size ranks : exists r, computes kernel axis size ranks r.
Proof.
  exists (reduce_ranks size (map (fun tiles => accum (repeat 0 (Z.to_nat size)) (ops kernel axis tiles)) ranks)).
  eexists. split; [|reflexivity]. induction ranks; constructor; auto.
  eexists. split; [apply Permutation_refl|reflexivity].
Qed.
