(** The kernels as row kernels, and the accessors. *)
From Coq Require Import Permutation.
From Verif Require Import BoxR BoxRFacts PlaneAvg PlaneAvgSpec PlaneAvgProofs.
Open Scope R_scope.

Lemma ncell_line_planes g : usable (pg_dom g) (pg_axis g) ->
  ncell_line g = planes (pg_dom g) (pg_axis g).
Proof. intros (_ & _ & _ & _ & Z0). unfold ncell_line, planes. rewrite Z0. lia. Qed.

Lemma planes_pos dom axis : usable dom axis -> (0 < planes dom axis)%Z.
Proof.
  intros (A & B0 & B1 & B2 & Z0). unfold planes, icomp in *.
  destruct A as [->|[->| ->]]; cbn [Z.eqb Pos.eqb] in *; lia.
Qed.

Lemma zrange0 N : zrange 0 (N - 1) = map Z.of_nat (seq 0 (Z.to_nat N)).
Proof.
  unfold zrange. replace (N - 1 - 0 + 1)%Z with N by lia. apply map_ext. intros; lia.
Qed.

Lemma number_zrange (h : Z -> R) N :
  number (map h (zrange 0 (N - 1))) = map (fun n => (n, h n)) (zrange 0 (N - 1)).
Proof.
  unfold number. rewrite map_length, zrange0, map_length, seq_length.
  rewrite !map_map. generalize (seq 0 (Z.to_nat N)). intros s.
  induction s; cbn; [reflexivity|]. f_equal. exact IHs.
Qed.

Lemma length_zr (h : Z -> R) N : (0 <= N)%Z ->
  Z.of_nat (length (map h (zrange 0 (N - 1)))) = N.
Proof. intros. rewrite map_length, length_zrange. lia. Qed.

Lemma rd_map_zrange (h : Z -> R) N n : (0 <= n < N)%Z -> rd (map h (zrange 0 (N - 1))) n = h n.
Proof.
  intros I. unfold rd. rewrite zrange0, map_map.
  rewrite (nth_indep _ 0 (h (Z.of_nat 0))) by (rewrite map_length, seq_length; lia).
  rewrite (map_nth (fun k => h (Z.of_nat k))), seq_nth by lia. f_equal. lia.
Qed.

Lemma length_uniform {A} (h : A -> list R) N l : (forall x, Z.of_nat (length (h x)) = N) ->
  Z.of_nat (length (flat_map h l)) = (Z.of_nat (length l) * N)%Z.
Proof.
  intros H. induction l; [cbn; lia|]. cbn [flat_map]. rewrite app_length, Nat2Z.inj_add, H, IHl.
  change (length (a :: l)) with (S (length l)). lia.
Qed.

Lemma rd_uniform (h : Z -> list R) N M m n :
  (forall x, Z.of_nat (length (h x)) = N) -> (0 <= m < M)%Z -> (0 <= n < N)%Z ->
  rd (flat_map h (zrange 0 (M - 1))) (N * m + n) = rd (h m) n.
Proof.
  intros H Im In. rewrite zrange0.
  assert (G : forall k s, (Z.to_nat m < k)%nat ->
     nth (Z.to_nat (N * m + n)) (flat_map h (map Z.of_nat (seq s k))) 0 =
     nth (Z.to_nat n) (h (Z.of_nat s + m)%Z) 0).
  { assert (M0 : (0 <= m)%Z) by lia. clear M Im. intros k. revert m M0.
    induction k as [|k IH]; intros m M0 s L; [lia|].
    cbn [seq map flat_map]. destruct (Z.eq_dec m 0) as [->|Nz].
    - rewrite app_nth1 by (specialize (H (Z.of_nat s)); lia).
      f_equal; [lia|]. f_equal. lia.
    - specialize (H (Z.of_nat s)) as Hs.
      rewrite app_nth2 by nia.
      replace (Z.to_nat (N * m + n) - length (h (Z.of_nat s)))%nat
        with (Z.to_nat (N * (m - 1) + n)) by nia.
      rewrite IH by lia. f_equal. f_equal. lia. }
  unfold rd. rewrite G by lia. do 2 f_equal; lia.
Qed.

(** Kernels and rows. *)
Lemma row_ext axis N vals kernel size ranks r :
  (forall c, kernel c = row_kernel axis N vals c) ->
  computes kernel axis size ranks r -> computes (row_kernel axis N vals) axis size ranks r.
Proof.
  intros H (rs & F & E). exists rs. split; [|exact E]. clear E.
  induction F as [|t r0 ts rs (order & P & E) F IH]; constructor; auto.
  exists order. split; [|exact E].
  rewrite (flat_map_ext _ kernel); [exact P|]. intros; symmetry; apply H.
Qed.

Lemma average_row g ncomp f c :
  average_kernel g ncomp f c =
  row_kernel (pg_axis g) ncomp (fun c => map (fun n => f c n * denom g) (zrange 0 (ncomp - 1))) c.
Proof.
  unfold average_kernel, row_kernel. rewrite number_zrange, map_map. reflexivity.
Qed.

Lemma hvelmag_row g f c :
  hvelmag_kernel g f c =
  row_kernel (pg_axis g) 1 (fun c =>
    [sqrt (f c (fst (h_idx (pg_axis g))) * f c (fst (h_idx (pg_axis g))) +
           f c (snd (h_idx (pg_axis g))) * f c (snd (h_idx (pg_axis g)))) * denom g]) c.
Proof.
  unfold hvelmag_kernel, row_kernel, number. cbn [length seq map combine fst snd].
  f_equal. f_equal. lia.
Qed.

Definition sec_vals g n1 n2 (f1 f2 : fab) avg1 avg2 (c : ivec) : list R :=
  flat_map (fun m => map (fun n =>
     (f1 c m - rd avg1 (n1 * icomp c (pg_axis g) + m)) *
     (f2 c n - rd avg2 (n2 * icomp c (pg_axis g) + n)) * denom g) (zrange 0 (n2 - 1)))
   (zrange 0 (n1 - 1)).
Lemma second_row g n1 n2 f1 f2 a1 a2 c :
  second_kernel g n1 n2 f1 f2 a1 a2 c =
  row_kernel (pg_axis g) (n1 * n2) (sec_vals g n1 n2 f1 f2 a1 a2) c.
Proof. reflexivity. Qed.

Definition third_vals g n1 n2 n3 (f1 f2 f3 : fab) a1 a2 a3 (c : ivec) : list R :=
  flat_map (fun m => flat_map (fun n => map (fun p =>
     (f1 c m - rd a1 (n1 * icomp c (pg_axis g) + m)) *
     (f2 c n - rd a2 (n2 * icomp c (pg_axis g) + n)) *
     (f3 c p - rd a3 (n3 * icomp c (pg_axis g) + p)) * denom g) (zrange 0 (n3 - 1)))
   (zrange 0 (n2 - 1))) (zrange 0 (n1 - 1)).
Lemma third_row g n1 n2 n3 f1 f2 f3 a1 a2 a3 c :
  third_kernel g n1 n2 n3 f1 f2 f3 a1 a2 a3 c =
  row_kernel (pg_axis g) (n1 * n2 * n3) (third_vals g n1 n2 n3 f1 f2 f3 a1 a2 a3) c.
Proof. reflexivity. Qed.

Lemma sec_length g n1 n2 f1 f2 a1 a2 c : (0 <= n1)%Z -> (0 <= n2)%Z ->
  Z.of_nat (length (sec_vals g n1 n2 f1 f2 a1 a2 c)) = (n1 * n2)%Z.
Proof.
  intros. unfold sec_vals. rewrite (length_uniform _ n2).
  - rewrite length_zrange. rewrite Z2Nat.id by lia. f_equal. lia.
  - intros. apply length_zr. assumption.
Qed.
Lemma third_length g n1 n2 n3 f1 f2 f3 a1 a2 a3 c : (0 <= n1)%Z -> (0 <= n2)%Z -> (0 <= n3)%Z ->
  Z.of_nat (length (third_vals g n1 n2 n3 f1 f2 f3 a1 a2 a3 c)) = (n1 * n2 * n3)%Z.
Proof.
  intros. unfold third_vals. rewrite (length_uniform _ (n2 * n3)).
  - rewrite length_zrange, Z2Nat.id by lia. ring.
  - intros. rewrite (length_uniform _ n3).
    + rewrite length_zrange, Z2Nat.id by lia. ring.
    + intros. apply length_zr. assumption.
Qed.

Lemma sec_rd g n1 n2 f1 f2 a1 a2 c m n : (0 <= m < n1)%Z -> (0 <= n < n2)%Z ->
  rd (sec_vals g n1 n2 f1 f2 a1 a2 c) (n2 * m + n) =
  (f1 c m - rd a1 (n1 * icomp c (pg_axis g) + m)) *
  (f2 c n - rd a2 (n2 * icomp c (pg_axis g) + n)) * denom g.
Proof.
  intros M N. unfold sec_vals. rewrite rd_uniform; auto.
  - rewrite rd_map_zrange by exact N. reflexivity.
  - intros. apply length_zr. lia.
Qed.
Lemma third_rd g n1 n2 n3 f1 f2 f3 a1 a2 a3 c m n p :
  (0 <= m < n1)%Z -> (0 <= n < n2)%Z -> (0 <= p < n3)%Z ->
  rd (third_vals g n1 n2 n3 f1 f2 f3 a1 a2 a3 c) (n2 * n3 * m + n3 * n + p) =
  (f1 c m - rd a1 (n1 * icomp c (pg_axis g) + m)) *
  (f2 c n - rd a2 (n2 * icomp c (pg_axis g) + n)) *
  (f3 c p - rd a3 (n3 * icomp c (pg_axis g) + p)) * denom g.
Proof.
  intros M N P. unfold third_vals.
  replace (n2 * n3 * m + n3 * n + p)%Z with ((n2 * n3) * m + (n3 * n + p))%Z by ring.
  rewrite rd_uniform; auto.
  - rewrite rd_uniform; auto.
    + rewrite rd_map_zrange by exact P. reflexivity.
    + intros. apply length_zr. lia.
  - intros. rewrite (length_uniform _ n3).
    + rewrite length_zrange, Z2Nat.id by lia. ring.
    + intros. apply length_zr. lia.
  - nia.
Qed.

(** Accessors. *)
Lemma in_range_ok i n : (0 <= i < n)%Z -> in_range i n = true.
Proof. intros [A B]. unfold in_range. now rewrite (proj2 (Z.leb_le _ _) A), (proj2 (Z.ltb_lt _ _) B). Qed.
Lemma in_range_false i n : ~ (0 <= i < n)%Z -> in_range i n = false.
Proof.
  intros H. unfold in_range. destruct (Z.leb_spec 0 i), (Z.ltb_spec i n); cbn; auto. lia.
Qed.
Lemma get_ok l i : (0 <= i < Z.of_nat (length l))%Z -> get l i = Ret (rd l i).
Proof. intros. unfold get. now rewrite in_range_ok. Qed.

Lemma cell_ok g N l q n : length l = Z.to_nat (ncell_line g * N) ->
  (0 <= q < ncell_line g)%Z -> (0 <= n < N)%Z ->
  line_average_cell g N l q n = Ret (rd l (N * q + n)).
Proof.
  intros L Q I. unfold line_average_cell. rewrite !in_range_ok by assumption. cbn [assert].
  apply get_ok. rewrite L, Z2Nat.id by nia. nia.
Qed.

Theorem average_spec g ncomp f ranks r :
  usable (pg_dom g) (pg_axis g) -> (0 <= ncomp)%Z -> decomposes (pg_dom g) ranks ->
  compute_averages g ncomp f ranks r ->
  exists l, r = Ret l /\ length l = Z.to_nat (ncell_line g * ncomp) /\
    forall q n, (0 <= q < planes (pg_dom g) (pg_axis g))%Z -> (0 <= n < ncomp)%Z ->
      rd l (ncomp * q + n) = mean (map (fun c => f c n) (plane (pg_dom g) (pg_axis g) q)).
Proof.
  intros U HN D C. unfold compute_averages in C.
  rewrite (ncell_line_planes g U) in *.
  apply (row_ext (pg_axis g) ncomp (fun c => map (fun n => f c n * denom g) (zrange 0 (ncomp - 1)))) in C;
    [|intros; apply average_row].
  apply (row_computes _ _ _ (pg_dom g)) in C; auto; [|intros; apply length_zr; exact HN].
  destruct C as (l & E & L & V). exists l. split; [exact E|]. split; [exact L|].
  intros q n Q I. rewrite V by assumption.
  rewrite <- (mean_of_denom g q (fun c => f c n) tt U Q).
  apply rsum_ext. intros c _. rewrite rd_map_zrange by exact I. reflexivity.
Qed.

Theorem hvelmag_spec g f ranks r :
  usable (pg_dom g) (pg_axis g) -> decomposes (pg_dom g) ranks ->
  compute_hvelmag_averages g f ranks r ->
  exists h, r = Ret h /\ length h = Z.to_nat (ncell_line g) /\
    forall q, (0 <= q < planes (pg_dom g) (pg_axis g))%Z ->
      rd h q = mean (map (fun c =>
         sqrt (f c (fst (h_idx (pg_axis g))) * f c (fst (h_idx (pg_axis g))) +
               f c (snd (h_idx (pg_axis g))) * f c (snd (h_idx (pg_axis g)))))
         (plane (pg_dom g) (pg_axis g) q)).
Proof.
  intros U D C. unfold compute_hvelmag_averages in C.
  rewrite (ncell_line_planes g U) in *.
  eapply row_ext in C; [|intros; apply hvelmag_row].
  rewrite <- (Z.mul_1_r (planes (pg_dom g) (pg_axis g))) in C.
  apply (row_computes _ _ _ (pg_dom g)) in C; auto; [|lia].
  destruct C as (l & E & L & V). exists l. split; [exact E|]. split; [rewrite L; f_equal; lia|].
  intros q Q. specialize (V q 0%Z Q ltac:(lia)).
  replace (1 * q + 0)%Z with q in V by lia. rewrite V.
  rewrite <- (mean_of_denom g q (fun c => sqrt (f c (fst (h_idx (pg_axis g))) * f c (fst (h_idx (pg_axis g))) +
               f c (snd (h_idx (pg_axis g))) * f c (snd (h_idx (pg_axis g))))) tt U Q).
  reflexivity.
Qed.

Theorem second_spec g n1 n2 f1 f2 a1 a2 ranks r :
  usable (pg_dom g) (pg_axis g) -> (0 <= n1)%Z -> (0 <= n2)%Z -> decomposes (pg_dom g) ranks ->
  compute_second g n1 n2 f1 f2 a1 a2 ranks r ->
  exists l, r = Ret l /\ length l = Z.to_nat (ncell_line g * (n1 * n2)) /\
    forall q m n, (0 <= q < planes (pg_dom g) (pg_axis g))%Z -> (0 <= m < n1)%Z -> (0 <= n < n2)%Z ->
      rd l (n1 * n2 * q + (n2 * m + n)) =
      mean (map (fun c => (f1 c m - rd a1 (n1 * q + m)) * (f2 c n - rd a2 (n2 * q + n)))
                (plane (pg_dom g) (pg_axis g) q)).
Proof.
  intros U H1 H2 D C. unfold compute_second in C.
  rewrite (ncell_line_planes g U) in *.
  eapply row_ext in C; [|intros; apply second_row].
  apply (row_computes _ _ _ (pg_dom g)) in C; auto; [|nia|intros; apply sec_length; assumption].
  destruct C as (l & E & L & V). exists l. split; [exact E|]. split; [exact L|].
  intros q m n Q M N. rewrite V by (assumption || nia).
  rewrite <- (mean_of_denom g q (fun c => (f1 c m - rd a1 (n1 * q + m)) * (f2 c n - rd a2 (n2 * q + n))) tt U Q).
  apply rsum_ext. intros c IC. unfold plane in IC. apply filter_In in IC.
  destruct IC as [_ IC]. apply Z.eqb_eq in IC.
  rewrite sec_rd by assumption. rewrite IC. reflexivity.
Qed.

Theorem third_spec g n1 n2 n3 f1 f2 f3 a1 a2 a3 ranks r :
  usable (pg_dom g) (pg_axis g) -> (0 <= n1)%Z -> (0 <= n2)%Z -> (0 <= n3)%Z ->
  decomposes (pg_dom g) ranks ->
  compute_third g n1 n2 n3 f1 f2 f3 a1 a2 a3 ranks r ->
  exists l, r = Ret l /\ length l = Z.to_nat (ncell_line g * (n1 * n2 * n3)) /\
    forall q m n p, (0 <= q < planes (pg_dom g) (pg_axis g))%Z ->
      (0 <= m < n1)%Z -> (0 <= n < n2)%Z -> (0 <= p < n3)%Z ->
      rd l (n1 * n2 * n3 * q + (n2 * n3 * m + n3 * n + p)) =
      mean (map (fun c => (f1 c m - rd a1 (n1 * q + m)) * (f2 c n - rd a2 (n2 * q + n)) *
                          (f3 c p - rd a3 (n3 * q + p)))
                (plane (pg_dom g) (pg_axis g) q)).
Proof.
  intros U H1 H2 H3 D C. unfold compute_third in C.
  rewrite (ncell_line_planes g U) in *.
  eapply row_ext in C; [|intros; apply third_row].
  apply (row_computes _ _ _ (pg_dom g)) in C; auto; [|nia|intros; apply third_length; assumption].
  destruct C as (l & E & L & V). exists l. split; [exact E|]. split; [exact L|].
  intros q m n p Q M N P.
  assert (IDX : (0 <= n2 * n3 * m + n3 * n + p < n1 * n2 * n3)%Z).
  { assert (0 <= n3 * n + p < n2 * n3)%Z by nia. nia. }
  rewrite V by assumption.
  rewrite <- (mean_of_denom g q (fun c => (f1 c m - rd a1 (n1 * q + m)) * (f2 c n - rd a2 (n2 * q + n)) *
                          (f3 c p - rd a3 (n3 * q + p))) tt U Q).
  apply rsum_ext. intros c IC. unfold plane in IC. apply filter_In in IC.
  destruct IC as [_ IC]. apply Z.eqb_eq in IC.
  rewrite third_rd by assumption. rewrite IC. reflexivity.
Qed.
