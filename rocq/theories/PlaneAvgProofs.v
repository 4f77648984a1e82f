(** The parallel accumulation computes one sum over the cells of the domain. *)
From Coq Require Import Permutation.
From Verif Require Import BoxR BoxRFacts PlaneAvg PlaneAvgSpec.
Open Scope R_scope.

(** What an addition puts at position [i]. *)
Definition hit (i : Z) (o : add_op) : R := if (fst o =? i)%Z then snd o else 0.

Lemma accum1_spec l o : (0 <= fst o < Z.of_nat (length l))%Z ->
  exists l', accum1 l o = Ret l' /\ length l' = length l /\
    forall i, (0 <= i < Z.of_nat (length l))%Z -> rd l' i = rd l i + hit i o.
Proof.
  intros [A B]. unfold accum1.
  rewrite (proj2 (Z.leb_le _ _) A), (proj2 (Z.ltb_lt _ _) B). cbn [andb].
  eexists; split; [reflexivity|].
  set (p := Z.to_nat (fst o)). assert (P : (p < length l)%nat) by lia.
  split.
  - rewrite !app_length, firstn_length, skipn_length. cbn [length]. lia.
  - intros i I. unfold rd, hit.
    assert (L : length (firstn p l) = p) by (rewrite firstn_length; lia).
    destruct (Nat.lt_trichotomy (Z.to_nat i) p) as [C|[C|C]].
    + rewrite app_nth1 by lia. rewrite <- (firstn_skipn p l) at 2.
      rewrite (app_nth1 (firstn p l) (skipn p l)) by lia.
      destruct (Z.eqb_spec (fst o) i); [lia|lra].
    + rewrite app_nth2 by lia. rewrite L, C, Nat.sub_diag. cbn [nth app].
      destruct (Z.eqb_spec (fst o) i); [lra|lia].
    + rewrite app_nth2 by lia. rewrite L.
      rewrite app_nth2 by (cbn [length]; lia). cbn [length].
      rewrite <- (firstn_skipn (S p) l) at 2.
      assert (L2 : length (firstn (S p) l) = S p) by (rewrite firstn_length; lia).
      rewrite (app_nth2 (firstn (S p) l) (skipn (S p) l)) by lia. rewrite L2.
      replace (Z.to_nat i - p - 1)%nat with (Z.to_nat i - S p)%nat by lia.
      destruct (Z.eqb_spec (fst o) i); [lia|lra].
Qed.

Lemma accum_spec os : forall l,
  (forall o, In o os -> (0 <= fst o < Z.of_nat (length l))%Z) ->
  exists l', accum l os = Ret l' /\ length l' = length l /\
    forall i, (0 <= i < Z.of_nat (length l))%Z ->
      rd l' i = rd l i + rsum (map (hit i) os).
Proof.
  induction os as [|o os IH]; intros l H; cbn [accum].
  - exists l. split; [reflexivity|]. split; [reflexivity|]. intros. cbn. lra.
  - destruct (accum1_spec l o) as (l1 & E1 & L1 & V1); [apply H; now left|].
    rewrite E1. cbn [obind].
    destruct (IH l1) as (l2 & E2 & L2 & V2).
    { intros o' I. rewrite L1. apply H. now right. }
    exists l2. split; [exact E2|]. split; [congruence|].
    intros i I. rewrite V2 by (rewrite L1; exact I). rewrite V1 by exact I.
    cbn [map]. rewrite rsum_cons. lra.
Qed.

Lemma rd_repeat n i : rd (repeat 0 n) i = 0.
Proof. unfold rd. generalize (Z.to_nat i). induction n; intros [|k]; cbn; auto. Qed.

Definition ops (kernel : ivec -> list add_op) axis (tiles : list box) :=
  flat_map kernel (flat_map (tile_visits axis) tiles).

Lemma rank_spec kernel axis size tiles r : (0 <= size)%Z ->
  (forall o, In o (ops kernel axis tiles) -> (0 <= fst o < size)%Z) ->
  rank_result kernel axis size tiles r ->
  exists l, r = Ret l /\ length l = Z.to_nat size /\
    forall i, (0 <= i < size)%Z -> rd l i = rsum (map (hit i) (ops kernel axis tiles)).
Proof.
  intros SZ H (order & P & ->).
  destruct (accum_spec order (repeat 0 (Z.to_nat size))) as (l & E & L & V).
  { intros o I. rewrite repeat_length. rewrite Z2Nat.id by exact SZ.
    apply H. unfold ops. eapply Permutation_in; [apply Permutation_sym; exact P|exact I]. }
  rewrite repeat_length in L. exists l. split; [exact E|]. split; [exact L|].
  intros i I. rewrite V by (rewrite repeat_length; lia). rewrite rd_repeat, Rplus_0_l.
  apply rsum_perm. apply Permutation_map. apply Permutation_sym. exact P.
Qed.

Lemma rd_add a b i : length a = length b ->
  rd (map (fun p => fst p + snd p) (combine a b)) i = rd a i + rd b i.
Proof.
  unfold rd. generalize (Z.to_nat i). clear i. intros n. revert b n.
  induction a as [|x a IH]; intros [|y b] n L; try discriminate.
  - destruct n; cbn; lra.
  - destruct n; cbn [combine map nth fst snd]; [reflexivity|]. apply IH. cbn in L. lia.
Qed.

Lemma reduce_from kernel axis size : (0 <= size)%Z -> forall ranks rs acc,
  (forall o, In o (ops kernel axis (concat ranks)) -> (0 <= fst o < size)%Z) ->
  Forall2 (rank_result kernel axis size) ranks rs ->
  length acc = Z.to_nat size ->
  exists l, fold_left (fun acc r =>
      obind acc (fun a => obind r (fun l => Ret (map (fun p => fst p + snd p) (combine a l)))))
      rs (Ret acc) = Ret l /\ length l = Z.to_nat size /\
    forall i, (0 <= i < size)%Z ->
      rd l i = rd acc i + rsum (map (hit i) (ops kernel axis (concat ranks))).
Proof.
  intros SZ ranks. induction ranks as [|t ranks IH]; intros rs acc H F A; inversion F; subst.
  - exists acc. split; [reflexivity|]. split; [exact A|]. intros. cbn. lra.
  - assert (OA : ops kernel axis (concat (t :: ranks)) =
                 ops kernel axis t ++ ops kernel axis (concat ranks)).
    { unfold ops. cbn [concat]. rewrite !flat_map_app. reflexivity. }
    rewrite OA in H.
    destruct (rank_spec kernel axis size t y SZ) as (l & E & L & V); [|assumption|].
    { intros o I. apply H. apply in_app_iff. now left. }
    subst y. cbn [fold_left obind].
    destruct (IH l' (map (fun p => fst p + snd p) (combine acc l))) as (l2 & E2 & L2 & V2).
    + intros o I. apply H. apply in_app_iff. now right.
    + assumption.
    + rewrite map_length, combine_length. lia.
    + exists l2. split; [exact E2|]. split; [exact L2|]. intros i I.
      rewrite V2 by exact I. rewrite rd_add by lia. rewrite V by exact I.
      rewrite OA, map_app, rsum_app. lra.
Qed.

Lemma computes_ops kernel axis size ranks r : (0 <= size)%Z ->
  (forall o, In o (ops kernel axis (concat ranks)) -> (0 <= fst o < size)%Z) ->
  computes kernel axis size ranks r ->
  exists l, r = Ret l /\ length l = Z.to_nat size /\
    forall i, (0 <= i < size)%Z ->
      rd l i = rsum (map (hit i) (ops kernel axis (concat ranks))).
Proof.
  intros SZ H (rs & F & ->). unfold reduce_ranks.
  destruct (reduce_from kernel axis size SZ ranks rs (repeat 0 (Z.to_nat size)) H F) as (l & E & L & V).
  { apply repeat_length. }
  exists l. split; [exact E|]. split; [exact L|]. intros i I. rewrite V by exact I.
  rewrite rd_repeat. lra.
Qed.

(** The loops over a tile visit each of its cells once. *)
Lemma axis_dec axis : (axis = 0 \/ axis = 1 \/ axis = 2)%Z ->
  forall b v, 
  (perpendicular_box axis b v, parallel_box axis b v, icomp v axis) =
   match axis with
   | 0%Z => (Box (IV (iv0 v) (iv1 (blo b)) (iv2 (blo b))) (IV (iv0 v) (iv1 (bhi b)) (iv2 (bhi b))),
          Box (IV (iv0 (blo b)) (iv1 v) (iv2 v)) (IV (iv0 (bhi b)) (iv1 v) (iv2 v)), iv0 v)
   | 1%Z => (Box (IV (iv0 (blo b)) (iv1 v) (iv2 (blo b))) (IV (iv0 (bhi b)) (iv1 v) (iv2 (bhi b))),
          Box (IV (iv0 v) (iv1 (blo b)) (iv2 v)) (IV (iv0 v) (iv1 (bhi b)) (iv2 v)), iv1 v)
   | _ => (Box (IV (iv0 (blo b)) (iv1 (blo b)) (iv2 v)) (IV (iv0 (bhi b)) (iv1 (bhi b)) (iv2 v)),
          Box (IV (iv0 v) (iv1 v) (iv2 (blo b))) (IV (iv0 v) (iv1 v) (iv2 (bhi b))), iv2 v)
   end.
Proof. intros [->|[->| ->]] b v; reflexivity. Qed.

Lemma in_visits axis t c : (axis = 0 \/ axis = 1 \/ axis = 2)%Z ->
  In c (tile_visits axis t) <-> in_box t c.
Proof.
  intros A. unfold tile_visits. rewrite in_flat_map.
  setoid_rewrite in_cells. unfold in_box, perpendicular_box, parallel_box.
  destruct A as [->|[->| ->]]; cbn [Z.eqb Pos.eqb blo bhi iv0 iv1 iv2]; split.
  1,3,5: intros (p & P & Q); lia.
  - intros. exists (IV 0 (iv1 c) (iv2 c)). cbn [iv0 iv1 iv2]. lia.
  - intros. exists (IV (iv0 c) 0 (iv2 c)). cbn [iv0 iv1 iv2]. lia.
  - intros. exists (IV (iv0 c) (iv1 c) 0). cbn [iv0 iv1 iv2]. lia.
Qed.

Lemma NoDup_visits axis t : (axis = 0 \/ axis = 1 \/ axis = 2)%Z ->
  NoDup (tile_visits axis t).
Proof.
  intros A. unfold tile_visits. apply NoDup_flat_map; [apply NoDup_cells|intros; apply NoDup_cells|].
  intros x y z. rewrite !in_cells. unfold in_box, perpendicular_box, parallel_box.
  destruct A as [->|[->| ->]]; cbn [Z.eqb Pos.eqb blo bhi iv0 iv1 iv2]; intros;
  destruct x as [x0 x1 x2], y as [y0 y1 y2]; cbn [iv0 iv1 iv2] in *; f_equal; lia.
Qed.

Lemma NoDup_flat_map_disjoint axis tiles : (axis = 0 \/ axis = 1 \/ axis = 2)%Z ->
  ForallOrdPairs disjoint tiles -> NoDup (flat_map (tile_visits axis) tiles).
Proof.
  intros A F. induction F as [|t l D F IH]; cbn [flat_map]; [constructor|].
  assert (G : forall l1 l2 : list ivec, NoDup l1 -> NoDup l2 ->
     (forall z, In z l1 -> ~ In z l2) -> NoDup (l1 ++ l2)).
  { clear. induction l1; intros l2 N1 N2 X; cbn; auto. inversion N1; subst. constructor.
    - rewrite in_app_iff. intros [?|?]; [auto|]. eapply X; eauto. now left.
    - apply IHl1; auto. intros z I. apply X. now right. }
  apply G; [apply NoDup_visits; exact A|exact IH|].
  intros z I J. apply in_flat_map in J. destruct J as (t' & It & J).
  rewrite Forall_forall in D. apply in_visits in I; [|exact A]. apply in_visits in J; [|exact A].
  exact (D t' It z I J).
Qed.

Lemma visits_perm axis dom ranks : (axis = 0 \/ axis = 1 \/ axis = 2)%Z ->
  decomposes dom ranks ->
  Permutation (flat_map (tile_visits axis) (concat ranks)) (cells dom).
Proof.
  intros A [C D]. apply NoDup_Permutation.
  - apply NoDup_flat_map_disjoint; assumption.
  - apply NoDup_cells.
  - intros c. rewrite in_cells, C, in_flat_map. split; intros (t & I & J); exists t; split; auto.
    + apply in_visits in J; assumption.
    + apply in_visits; assumption.
Qed.

Lemma computes_cells kernel axis size dom ranks r :
  (axis = 0 \/ axis = 1 \/ axis = 2)%Z -> (0 <= size)%Z -> decomposes dom ranks ->
  (forall c o, in_box dom c -> In o (kernel c) -> (0 <= fst o < size)%Z) ->
  computes kernel axis size ranks r ->
  exists l, r = Ret l /\ length l = Z.to_nat size /\
    forall i, (0 <= i < size)%Z ->
      rd l i = rsum (map (fun c => rsum (map (hit i) (kernel c))) (cells dom)).
Proof.
  intros A SZ D K C. pose proof (visits_perm axis dom ranks A D) as P.
  destruct (computes_ops kernel axis size ranks r SZ) as (l & E & L & V); [|exact C|].
  - intros o I. unfold ops in I. apply in_flat_map in I. destruct I as (c & Ic & Io).
    apply (K c o); [|exact Io]. apply in_cells. eapply Permutation_in; [exact P|exact Ic].
  - exists l. split; [exact E|]. split; [exact L|]. intros i I. rewrite V by exact I.
    unfold ops. rewrite rsum_flat_map. apply rsum_perm. apply Permutation_map. exact P.
Qed.

(** Kernels that add one row of values per cell, at the row of its plane. *)
Definition row_kernel (axis N : Z) (vals : ivec -> list R) (c : ivec) : list add_op :=
  map (fun p => ((N * icomp c axis + fst p)%Z, snd p)) (number (vals c)).

Lemma number_app {A} (l1 l2 : list A) : number (l1 ++ l2) =
  number l1 ++ map (fun p => ((Z.of_nat (length l1) + fst p)%Z, snd p)) (number l2).
Proof.
  unfold number. rewrite app_length, seq_app, map_app.
  assert (G : forall a b (c d : list A), length a = length c ->
     combine (a ++ b) (c ++ d) = @combine Z A a c ++ combine b d).
  { clear. induction a; intros b [|c0 c] d E; try discriminate; [reflexivity|].
    cbn. f_equal. apply IHa. now injection E. }
  rewrite G by (rewrite map_length, seq_length; reflexivity). f_equal.
  rewrite Nat.add_0_l.
  replace (seq (length l1) (length l2)) with (map (fun k => (length l1 + k)%nat) (seq 0 (length l2))).
  - generalize (seq 0 (length l2)). intros s. revert s. clear G.
    induction l2 as [|x l2 IH]; intros [|k s]; cbn; try reflexivity.
    f_equal; [f_equal; lia|apply IH].
  - generalize (length l1), (length l2). clear. intros a b.
    replace (seq a b) with (seq (a + 0) b) by (f_equal; lia).
    enough (forall s, map (fun k => (a + k)%nat) (seq s b) = seq (a + s) b) by apply H.
    induction b; intros s; cbn; [reflexivity|]. f_equal. rewrite IHb. f_equal. lia.
Qed.

Lemma in_number {A} (l : list A) p : In p (number l) -> (0 <= fst p < Z.of_nat (length l))%Z.
Proof.
  unfold number. destruct p as [z a]. intros I. apply in_combine_l in I.
  apply in_map_iff in I. destruct I as (n & <- & I). apply in_seq in I. cbn [fst]. lia.
Qed.

Lemma hit_number (l : list R) base n : (0 <= n < Z.of_nat (length l))%Z ->
  rsum (map (hit (base + n)) (map (fun p => ((base + fst p)%Z, snd p)) (number l))) = rd l n.
Proof.
  induction l as [|x l IH] using rev_ind; intros I; [cbn [length] in I; lia|].
  rewrite app_length in I. cbn [length] in I.
  rewrite number_app, !map_app, rsum_app. change (number [x]) with [(0%Z, x)]. cbn [map fst snd].
  destruct (Z.eq_dec n (Z.of_nat (length l))) as [E|E].
  - assert (Z0 : rsum (map (hit (base + n)) (map (fun p => ((base + fst p)%Z, snd p)) (number l))) = 0).
    { apply rsum_zero. intros o Io. apply in_map_iff in Io. destruct Io as (p & <- & Ip).
      apply in_number in Ip. unfold hit; cbn [fst].
      destruct (Z.eqb_spec (base + fst p) (base + n)); [lia|reflexivity]. }
    unfold add_op in *. rewrite Z0. unfold rd. rewrite app_nth2 by lia. rewrite E, Nat2Z.id, Nat.sub_diag. cbn.
    unfold hit; cbn [fst snd].
    destruct (Z.eqb_spec (base + (Z.of_nat (length l) + 0)) (base + Z.of_nat (length l))); [lra|lia].
  - unfold add_op in *. rewrite IH by lia. unfold rd. rewrite app_nth1 by lia. cbn. unfold hit; cbn [fst snd].
    destruct (Z.eqb_spec (base + (Z.of_nat (length l) + 0)) (base + n)); [lia|lra].
Qed.

Lemma hit_other_row (l : list R) N a q n : Z.of_nat (length l) = N -> (0 <= n < N)%Z -> a <> q ->
  rsum (map (hit (N * q + n)) (map (fun p => ((N * a + fst p)%Z, snd p)) (number l))) = 0.
Proof.
  intros L I Q. apply rsum_zero. intros o Io. apply in_map_iff in Io.
  destruct Io as (p & <- & Ip). apply in_number in Ip. unfold hit; cbn [fst].
  destruct (Z.eqb_spec (N * a + fst p) (N * q + n)); [|reflexivity]. exfalso. apply Q. nia.
Qed.

Theorem row_computes axis N vals dom ranks r :
  usable dom axis -> (0 <= N)%Z -> decomposes dom ranks ->
  (forall c, Z.of_nat (length (vals c)) = N) ->
  computes (row_kernel axis N vals) axis (planes dom axis * N) ranks r ->
  exists l, r = Ret l /\ length l = Z.to_nat (planes dom axis * N) /\
    forall q n, (0 <= q < planes dom axis)%Z -> (0 <= n < N)%Z ->
      rd l (N * q + n) = rsum (map (fun c => rd (vals c) n) (plane dom axis q)).
Proof.
  intros (A & B0 & B1 & B2 & Z0) HN D LV C.
  assert (IB : forall c, in_box dom c -> (0 <= icomp c axis < planes dom axis)%Z).
  { intros c IC. unfold planes, in_box in *. unfold icomp in *.
    destruct A as [->|[->| ->]]; cbn [Z.eqb Pos.eqb] in *; lia. }
  assert (PP : (0 <= planes dom axis)%Z).
  { unfold planes, icomp in *. destruct A as [->|[->| ->]]; cbn [Z.eqb Pos.eqb] in *; lia. }
  destruct (computes_cells (row_kernel axis N vals) axis (planes dom axis * N) dom ranks r)
    as (l & E & L & V); auto.
  - nia.
  - intros c o IC IO. specialize (IB c IC). unfold row_kernel in IO.
    apply in_map_iff in IO. destruct IO as (p & <- & Ip). apply in_number in Ip.
    rewrite LV in Ip. cbn [fst]. nia.
  - exists l. split; [exact E|]. split; [exact L|]. intros q n Q I.
    rewrite V by nia. unfold plane. rewrite rsum_filter. apply rsum_ext. intros c _.
    unfold row_kernel. destruct (Z.eqb_spec (icomp c axis) q) as [->|NE].
    + apply hit_number. rewrite LV. exact I.
    + apply hit_other_row; auto.
Qed.

(** Number of cells of a plane. *)
Lemma length_cells b : length (cells b) =
  (Z.to_nat (iv0 (bhi b) - iv0 (blo b) + 1) *
   Z.to_nat (iv1 (bhi b) - iv1 (blo b) + 1) *
   Z.to_nat (iv2 (bhi b) - iv2 (blo b) + 1))%nat.
Proof.
  unfold cells.
  assert (G : forall {A B} (f : A -> list B) n l, (forall x, length (f x) = n) ->
      length (flat_map f l) = (length l * n)%nat).
  { clear. intros A B f n l H. induction l; cbn; [reflexivity|]. rewrite app_length, H, IHl. lia. }
  rewrite (G _ _ _ (Z.to_nat (iv1 (bhi b) - iv1 (blo b) + 1) *
                    Z.to_nat (iv0 (bhi b) - iv0 (blo b) + 1))%nat).
  - rewrite length_zrange. lia.
  - intros k. rewrite (G _ _ _ (Z.to_nat (iv0 (bhi b) - iv0 (blo b) + 1))).
    + rewrite length_zrange. lia.
    + intros j. rewrite map_length, length_zrange. reflexivity.
Qed.

Lemma length_plane g q : usable (pg_dom g) (pg_axis g) ->
  (0 <= q < planes (pg_dom g) (pg_axis g))%Z ->
  Z.of_nat (length (plane (pg_dom g) (pg_axis g) q)) = ncell_plane g /\ (0 < ncell_plane g)%Z.
Proof.
  destruct g as [axis dom xlo dx]. cbn [pg_axis pg_dom]. intros (A & B0 & B1 & B2 & Z0) Q.
  set (qv := IV q q q).
  assert (P : Permutation (plane dom axis q) (cells (perpendicular_box axis dom qv))).
  { apply NoDup_Permutation.
    - apply NoDup_filter. apply NoDup_cells.
    - apply NoDup_cells.
    - intros c. unfold plane. rewrite filter_In, !in_cells, Z.eqb_eq.
      unfold planes in Q. unfold in_box, perpendicular_box, icomp in *.
      destruct A as [->|[->| ->]]; cbn [Z.eqb Pos.eqb blo bhi iv0 iv1 iv2 qv] in *; lia. }
  rewrite (Permutation_length P), length_cells.
  unfold ncell_plane, extent, perpendicular_box, icomp, planes in *. cbn [fold_left pg_axis pg_dom].
  destruct A as [->|[->| ->]]; cbn [Z.eqb Pos.eqb blo bhi iv0 iv1 iv2 qv] in *.
  - rewrite !Nat2Z.inj_mul, !Z2Nat.id by lia. split; nia.
  - rewrite !Nat2Z.inj_mul, !Z2Nat.id by lia. split; nia.
  - rewrite !Nat2Z.inj_mul, !Z2Nat.id by lia. split; nia.
Qed.

Lemma mean_of_denom g q {X} (h : ivec -> R) (x : X) : usable (pg_dom g) (pg_axis g) ->
  (0 <= q < planes (pg_dom g) (pg_axis g))%Z ->
  rsum (map (fun c => h c * denom g) (plane (pg_dom g) (pg_axis g) q)) =
  mean (map h (plane (pg_dom g) (pg_axis g) q)).
Proof.
  intros U Q. destruct (length_plane g q U Q) as [L P].
  rewrite rsum_scale. unfold mean, denom. rewrite map_length, INR_IZR_INZ, L.
  field. intros E. apply eq_IZR in E. lia.
Qed.
