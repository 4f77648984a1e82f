(** Samples in cells, layers, and the search (C84). *)
From Verif Require Import BoxR BoxRFacts Tagging TaggingProofs Plic PropPlicFlat FreeSurface FreeSurfaceSpec.
Local Open Scope R_scope.

Lemma half_dot : 0.5 = / 2. Proof. lra. Qed.
Lemma eps64_pos : 0 < eps64. Proof. unfold eps64. lra. Qed.
Lemma xm_lo L c d : xm L c d - 0.5 * fl_dx L d = cell_lo L c d.
Proof. unfold xm, cell_lo. rewrite half_dot. field. Qed.
Lemma xm_hi L c d : xm L c d + 0.5 * fl_dx L d = cell_hi L c d.
Proof. unfold xm, cell_hi. rewrite half_dot. field. Qed.
Lemma cell_lo_hi L c d : cell_hi L c d = cell_lo L c d + fl_dx L d.
Proof. unfold cell_lo, cell_hi. ring. Qed.

(** ** Samples *)
Lemma rceil_le x n : (rceil x <= n)%Z <-> x <= IZR n.
Proof.
  pose proof (rceil_spec x) as [A B]. split; intros H.
  - apply IZR_le in H. lra.
  - assert (IZR (rceil x) < IZR n + 1) as C by lra. rewrite <- plus_IZR in C. apply lt_IZR in C. lia.
Qed.
Lemma rceil_gt x n : (n < rceil x)%Z <-> IZR n < x.
Proof. pose proof (rceil_le x n). split; intros; [apply Rnot_le_lt|apply Z.nle_gt]; rewrite <- ?H in *; try lia. rewrite H. lra. Qed.

Lemma div_le a p n : 0 < p -> (a / p <= n <-> a <= n * p).
Proof.
  intros P. split; intros H.
  - apply (Rmult_le_compat_r p) in H; [|lra]. unfold Rdiv in H. rewrite Rmult_assoc, Rinv_l, Rmult_1_r in H by lra. exact H.
  - apply (Rmult_le_reg_r p); [exact P|]. unfold Rdiv. rewrite Rmult_assoc, Rinv_l, Rmult_1_r by lra. exact H.
Qed.
Lemma pitch_pos n s e : (2 <= n)%Z -> s < e -> 0 < pitch n s e.
Proof. intros N H. unfold pitch. rewrite Z.max_l by lia. apply Rdiv_lt_0_compat; [lra|]. apply (IZR_lt 0). lia. Qed.
Lemma pitch_last n s e k : (1 <= n)%Z -> s <= e -> (0 <= k < n)%Z -> s <= s + pitch n s e * IZR k <= e.
Proof.
  intros N H K. unfold pitch. assert (M : 0 < IZR (Z.max (n - 1) 1)) by (apply (IZR_lt 0); lia).
  assert (K0 : 0 <= IZR k) by (apply (IZR_le 0); lia). assert (K1 : IZR k <= IZR (Z.max (n - 1) 1)) by (apply IZR_le; lia).
  set (m := IZR (Z.max (n - 1) 1)) in *. set (x := IZR k) in *. clearbody m x.
  assert (E : (e - s) / m * x = (e - s) * (x / m)) by (field; lra). rewrite E.
  assert (0 <= x / m <= 1).
  { split; [apply Rmult_le_pos; [lra|apply Rlt_le, Rinv_0_lt_compat, M]|]. apply div_le; lra. }
  nra.
Qed.

(** The indices of a span are those of the samples in the cell. *)
Lemma span_spec phi x dx s e n k : 0 < dx -> (1 <= n)%Z -> (n = 1%Z \/ s < e) -> s <= phi - bounds_tol -> e <= phi - bounds_tol ->
  let '(f, a) := span phi x dx s (pitch n s e) n in
  ((f <= k < a)%Z <-> (0 <= k < n)%Z /\ x - 0.5 * dx <= s + pitch n s e * IZR k < x + 0.5 * dx).
Proof.
  intros D N O S0 E0. pose proof eps64_pos as EP. unfold span. destruct (Z.eqb_spec n 1) as [->|N1].
  - assert (Q : Rltb (Rabs (phi - s)) eps64 = false).
    { apply Rltb_false. unfold bounds_tol in S0. rewrite Rabs_right by lra. lra. }
    rewrite Q. cbn [orb]. destruct (Rleb (x - s) (0.5 * dx)) eqn:A; cbn [andb].
    + apply Rleb_spec in A. destruct (Rltb (s - x) (0.5 * dx)) eqn:B.
      * apply Rltb_spec in B. split.
        -- intros K. split; [lia|]. replace k with 0%Z by lia. rewrite Rmult_0_r. lra.
        -- intros [K _]. lia.
      * apply Rltb_false in B. split; [lia|]. intros [K H]. replace k with 0%Z in H by lia. rewrite Rmult_0_r in H. lra.
    + apply Rleb_false in A. split; [lia|]. intros [K H]. replace k with 0%Z in H by lia. rewrite Rmult_0_r in H. lra.
  - destruct O as [O|O]; [contradiction|]. pose proof (pitch_pos n s e ltac:(lia) O) as P. set (p := pitch n s e) in *.
    set (f := rceil ((x - 0.5 * dx - s) / p)). set (a := rceil ((x + 0.5 * dx - s) / p)).
    assert (F : forall j, (f <= j)%Z <-> x - 0.5 * dx <= s + p * IZR j).
    { intros j. unfold f. rewrite rceil_le, div_le by exact P. split; lra. }
    assert (A : forall j, (j < a)%Z <-> s + p * IZR j < x + 0.5 * dx).
    { intros j. unfold a. rewrite rceil_gt. split; intros H.
      - apply Rnot_le_lt. intros C. apply (Rlt_irrefl (IZR j)). eapply Rlt_le_trans; [exact H|]. apply div_le; lra.
      - apply Rnot_le_lt. intros C. apply div_le in C; lra. }
    set (a' := if (Rltb (Rabs (x + 0.5 * dx - phi)) eps64 && Rltb (Rabs (s + IZR a * p - phi)) eps64)%bool then (a + 1)%Z else a).
    assert (A' : Z.min n a' = Z.min n a).
    { unfold a'. destruct (Rltb (Rabs (x + 0.5 * dx - phi)) eps64) eqn:C1; cbn [andb]; [|reflexivity].
      destruct (Rltb (Rabs (s + IZR a * p - phi)) eps64) eqn:C2; [|reflexivity]. apply Rltb_spec in C2.
      destruct (Z_lt_le_dec a n) as [L|L]; [|rewrite !Z.min_l by lia; reflexivity]. exfalso.
      apply Rabs_def2 in C2. destruct C2 as [C2 C3].
      destruct (Z_lt_le_dec a 0) as [Q|Q].
      - assert (IZR a <= 0) by (apply (IZR_le _ 0); lia). unfold bounds_tol in S0. nra.
      - pose proof (pitch_last n s e a ltac:(lia) ltac:(lra) ltac:(lia)) as T. fold p in T. unfold bounds_tol in E0. lra. }
    rewrite A'. clear A' a'.
    destruct (Z.leb_spec n (Z.max (Z.min 0 (Z.min n a)) f)) as [Q|Q]; cbn [orb].
    + split; [lia|]. intros [K [H1 H2]]. apply F in H1. apply A in H2. lia.
    + destruct (Z.ltb_spec (Z.max (Z.min 0 (Z.min n a)) f) 0) as [W|W].
      * split; [lia|]. intros [K [H1 H2]]. apply F in H1. apply A in H2. lia.
      * split.
        -- intros K. split; [lia|]. split; [apply F|apply A]; lia.
        -- intros [K [H1 H2]]. apply F in H1. apply A in H2. lia.
Qed.
Lemma span_order phi x dx s e n : 0 < dx -> (1 <= n)%Z -> (n = 1%Z \/ s < e) -> s <= phi - bounds_tol -> e <= phi - bounds_tol ->
  let '(f, a) := span phi x dx s (pitch n s e) n in (f <= a)%Z.
Proof.
  intros D N O S0 E0. unfold span. destruct (Z.eqb_spec n 1) as [->|N1]; [destruct (_ || _)%bool; lia|].
  destruct O as [O|O]; [contradiction|]. pose proof (pitch_pos n s e ltac:(lia) O) as P. set (p := pitch n s e) in *.
  set (f := rceil ((x - 0.5 * dx - s) / p)). set (a := rceil ((x + 0.5 * dx - s) / p)).
  assert (FA : (f <= a)%Z).
  { unfold f. apply rceil_le. apply Rle_trans with ((x + 0.5 * dx - s) / p); [|pose proof (rceil_spec ((x + 0.5 * dx - s) / p)); unfold a; lra].
    unfold Rdiv. apply Rmult_le_compat_r; [apply Rlt_le, Rinv_0_lt_compat, P|lra]. }
  set (a' := if (Rltb (Rabs (x + 0.5 * dx - phi)) eps64 && Rltb (Rabs (s + IZR a * p - phi)) eps64)%bool then (a + 1)%Z else a). assert (FA' : (f <= a')%Z) by (unfold a'; destruct (_ && _)%bool; lia).
  destruct (Z.leb_spec n (Z.max (Z.min 0 (Z.min n a')) f)); cbn [orb]; [lia|].
  destruct (Z.ltb_spec (Z.max (Z.min 0 (Z.min n a')) f) 0); lia.
Qed.

Lemma passes_span S L c n0 n1 : forward S L -> sized L ->
  let '(f0, a0) := span0 S L c in let '(f1, a1) := span1 S L c in
  ((f0 <= n0 < a0)%Z /\ (f1 <= n1 < a1)%Z <-> on_plane S n0 n1 /\ passes S L c n0 n1).
Proof.
  intros (D & N0 & N1 & (O0 & S0 & E0) & (O1 & S1 & E1)) V.
  assert (P0 : 0 < fl_dx L (gc0 (fs_dir S))) by (destruct V as (A & B & C); unfold gc0; destruct (_ =? _)%Z; assumption).
  assert (P1 : 0 < fl_dx L (gc1 (fs_dir S))) by (destruct V as (A & B & C); unfold gc1; destruct (_ =? _)%Z; assumption).
  unfold span0, span1, pitch0, pitch1. cbv zeta.
  pose proof (span_spec (fl_hi L (gc0 (fs_dir S))) (xm L c (gc0 (fs_dir S))) _ _ _ _ n0 P0 N0 O0 S0 E0) as A.
  pose proof (span_spec (fl_hi L (gc1 (fs_dir S))) (xm L c (gc1 (fs_dir S))) _ _ _ _ n1 P1 N1 O1 S1 E1) as B.
  destruct (span _ _ (fl_dx L (gc0 (fs_dir S))) _ _ _) as [f0 a0]. destruct (span _ _ (fl_dx L (gc1 (fs_dir S))) _ _ _) as [f1 a1].
  rewrite A, B, !xm_lo, !xm_hi. unfold on_plane, passes, grid0, grid1, pitch0, pitch1. tauto.
Qed.
Lemma listed_in S nc L c p : In p (cell_points S nc L c) ->
  fl_open L c = true /\ let '(f0, a0) := span0 S L c in let '(f1, a1) := span1 S L c in
  exists n0 n1, p = (number S n0 n1, grid0 S n0, grid1 S n1) /\ (f0 <= n0 < a0)%Z /\ (f1 <= n1 < a1)%Z.
Proof.
  unfold cell_points. destruct (fl_open L c); [|contradiction]. destruct (span0 S L c) as [f0 a0], (span1 S L c) as [f1 a1].
  intros H. split; [reflexivity|].
  assert (I : forall (l : list (Z * R * R)) n x, In x (firstn n l) -> In x l).
  { intros l n x Hx. rewrite <- (firstn_skipn n l). apply in_or_app. left. exact Hx. }
  apply I in H. apply in_flat_map in H. destruct H as (n0 & I0 & H).
  apply in_map_iff in H. destruct H as (n1 & E & I1). apply In_zrange in I0, I1. exists n0, n1. split; [symmetry; exact E|lia].
Qed.
Lemma length_pairs {A} (g : Z -> Z -> A) f0 a0 f1 a1 : (f0 <= a0)%Z -> (f1 <= a1)%Z ->
  Z.of_nat (length (flat_map (fun n0 => map (fun n1 => g n0 n1) (zrange f1 (a1 - 1))) (zrange f0 (a0 - 1)))) = ((a0 - f0) * (a1 - f1))%Z.
Proof.
  intros H0 H1. assert (E : forall l : list Z, length (flat_map (fun n0 => map (fun n1 => g n0 n1) (zrange f1 (a1 - 1))) l) = (length l * length (zrange f1 (a1 - 1)))%nat).
  { induction l as [|x l IH]; [reflexivity|]. cbn [flat_map length]. rewrite app_length, map_length, IH. cbn. reflexivity. }
  rewrite E, !length_zrange, Nat2Z.inj_mul, !Z2Nat.id by lia. f_equal; lia.
Qed.
Lemma orders S L c : forward S L -> sized L -> let '(f0, a0) := span0 S L c in let '(f1, a1) := span1 S L c in (f0 <= a0)%Z /\ (f1 <= a1)%Z.
Proof.
  intros (D & N0 & N1 & (O0 & S0 & E0) & (O1 & S1 & E1)) V.
  assert (P0 : 0 < fl_dx L (gc0 (fs_dir S))) by (destruct V as (A & B & C); unfold gc0; destruct (_ =? _)%Z; assumption).
  assert (P1 : 0 < fl_dx L (gc1 (fs_dir S))) by (destruct V as (A & B & C); unfold gc1; destruct (_ =? _)%Z; assumption).
  unfold span0, span1, pitch0, pitch1. cbv zeta.
  pose proof (span_order (fl_hi L (gc0 (fs_dir S))) (xm L c (gc0 (fs_dir S))) _ _ _ _ P0 N0 O0 S0 E0) as A.
  pose proof (span_order (fl_hi L (gc1 (fs_dir S))) (xm L c (gc1 (fs_dir S))) _ _ _ _ P1 N1 O1 S1 E1) as B.
  destruct (span _ _ (fl_dx L (gc0 (fs_dir S))) _ _ _) as [f0 a0]. destruct (span _ _ (fl_dx L (gc1 (fs_dir S))) _ _ _) as [f1 a1]. split; assumption.
Qed.
Lemma listed_all S nc L c n0 n1 : forward S L -> sized L -> fl_open L c = true -> (possible S L c <= nc)%Z ->
  on_plane S n0 n1 -> passes S L c n0 n1 -> In (number S n0 n1, grid0 S n0, grid1 S n1) (cell_points S nc L c).
Proof.
  intros F V O C P Q. pose proof (passes_span S L c n0 n1 F V) as A. pose proof (orders S L c F V) as B.
  unfold cell_points, possible in *. rewrite O. destruct (span0 S L c) as [f0 a0], (span1 S L c) as [f1 a1].
  destruct B as [B0 B1]. destruct (proj2 A (conj P Q)) as [I0 I1].
  pose proof (length_pairs (fun n0 n1 => ((n1 * fs_n0 S + n0)%Z, grid0 S n0, grid1 S n1)) f0 a0 f1 a1 B0 B1) as Len.
  rewrite firstn_all2 by lia. apply in_flat_map. exists n0. split; [apply In_zrange; lia|].
  apply in_map_iff. exists n1. split; [reflexivity|apply In_zrange; lia].
Qed.

(** ** The search *)
Lemma top_of_unique P Q lo m m' : (forall h, P h <-> Q h) -> top_of P lo m -> top_of Q lo m' -> m = m'.
Proof.
  intros E (A & B & C) (A' & B' & C'). apply Rle_antisym.
  - destruct C as [->|C]; [exact A'|]. apply B', E, C.
  - destruct C' as [->|C']; [exact A|]. apply B, E, C'.
Qed.
Lemma top_ext (P Q : R -> Prop) lo m : (forall h, P h <-> Q h) -> top_of P lo m -> top_of Q lo m.
Proof. intros E (A & B & C). split; [exact A|]. split; [intros h H; apply B, E, H|]. destruct C as [C|C]; [left; exact C|right; apply E, C]. Qed.
Lemma top_join P Q lo m m' : top_of P lo m -> top_of Q m m' -> top_of (fun h => P h \/ Q h) lo m'.
Proof.
  intros (A & B & C) (A' & B' & C'). split; [lra|]. split.
  - intros h [H|H]; [apply B in H; lra|apply B', H].
  - destruct C' as [->|C']; [|right; right; exact C']. destruct C as [C|C]; [left; exact C|right; left; exact C].
Qed.
Lemma top_none lo : top_of (fun _ => False) lo lo.
Proof. split; [lra|]. split; [contradiction|left; reflexivity]. Qed.
Lemma top_fold {A} (f : R -> A -> R) (P : A -> R -> Prop) l : (forall acc x, top_of (P x) acc (f acc x)) ->
  forall lo, top_of (fun h => exists x, In x l /\ P x h) lo (fold_left f l lo).
Proof.
  intros F. induction l as [|x l IH]; intros lo; cbn [fold_left].
  - eapply top_ext; [|apply top_none]. intros h. split; [contradiction|intros (y & [] & _)].
  - eapply top_ext; [|exact (top_join _ _ _ _ _ (F lo x) (IH (f lo x)))]. intros h. split.
    + intros [H|(y & I & H)]; [exists x|exists y]; split; auto; [left; reflexivity|right; exact I].
    + intros (y & [<-|I] & H); [left; exact H|right; exists y; tauto].
Qed.
Lemma top_rmax acc h : top_of (fun x => x = h) acc (rmax acc h).
Proof.
  rewrite rmax_spec. split; [apply Rmax_l|]. split; [intros x ->; apply Rmax_r|].
  unfold Rmax. destruct (Rle_dec acc h); [right|left]; reflexivity.
Qed.
Lemma cell_max_top S nc ni last idx L acc c :
  top_of (fun h => exists l0 l1, In (idx, l0, l1) (cell_points S nc L c) /\ cell_hi L c (fs_dir S) < last idx /\ found S ni L c l0 l1 = Some h)
    acc (cell_max S nc ni last idx L acc c).
Proof.
  unfold cell_max. eapply top_ext; [|apply (top_fold _ (fun p h => let '(n, l0, l1) := p in n = idx /\ cell_hi L c (fs_dir S) < last idx /\ found S ni L c l0 l1 = Some h))].
  - intros h. split.
    + intros ([[n l0] l1] & I & -> & H). exists l0, l1. tauto.
    + intros (l0 & l1 & I & H). exists (idx, l0, l1). tauto.
  - intros a [[n l0] l1]. rewrite xm_hi. destruct (Z.eqb_spec n idx) as [E|E].
    + destruct (Rltb _ _) eqn:T; (apply Rltb_spec in T || apply Rltb_false in T).
      * destruct (found S ni L c l0 l1) as [h|] eqn:Fd.
        -- eapply top_ext; [|apply (top_rmax a h)]. intros x. split; [intros ->; tauto|intros (_ & _ & Q); injection Q; auto].
        -- eapply top_ext; [|apply top_none]. intros x. split; [contradiction|intros (_ & _ & Q); discriminate].
      * eapply top_ext; [|apply top_none]. intros x. split; [contradiction|intros (_ & Q & _); lra].
    + eapply top_ext; [|apply top_none]. intros x. split; [contradiction|intros (Q & _); contradiction].
Qed.
Lemma search_top S nc plo ni last m idx :
  top_of (candidate S nc ni (last idx) [m] idx) plo (search S nc plo ni last m idx).
Proof.
  unfold search. eapply top_ext; [|apply (top_fold _ (fun (l : flevel * list ivec) h => exists c, In c (snd l) /\
    exists l0 l1, In (idx, l0, l1) (cell_points S nc (fst l) c) /\ cell_hi (fst l) c (fs_dir S) < last idx /\ found S ni (fst l) c l0 l1 = Some h))].
  - intros h. unfold candidate, present. split.
    + intros ([L cs] & I & c & Ic & l0 & l1 & H). exists L, c, l0, l1. split; [|exact H]. exists m, cs. split; [left; reflexivity|tauto].
    + intros (L & c & l0 & l1 & (m' & cs & [<-|[]] & I & Ic) & H). exists (L, cs). split; [exact I|]. exists c. split; [exact Ic|]. exists l0, l1. exact H.
  - intros acc l. apply top_fold. intros a c. apply cell_max_top.
Qed.
Lemma reduced_top S nc plo ni last ranks idx :
  top_of (candidate S nc ni (last idx) ranks idx) plo (reduced S nc plo ni last ranks idx).
Proof.
  unfold reduced. destruct ranks as [|r rs].
  - eapply top_ext; [|apply top_none]. intros h. split; [contradiction|]. intros (L & c & l0 & l1 & (m & cs & [] & _) & _).
  - assert (J : forall m acc, plo <= acc -> top_of (candidate S nc ni (last idx) [m] idx) acc (rmax acc (search S nc plo ni last m idx))).
    { intros m acc Ha. destruct (search_top S nc plo ni last m idx) as (A & B & C). rewrite rmax_spec.
      split; [apply Rmax_l|]. split; [intros h H; apply B in H; eapply Rle_trans; [exact H|apply Rmax_r]|].
      unfold Rmax. destruct (Rle_dec acc _) as [Q|Q]; [|left; reflexivity].
      destruct C as [C|C]; [left; lra|right; exact C]. }
    assert (K : forall rs acc, plo <= acc -> top_of (fun h => exists m, In m rs /\ candidate S nc ni (last idx) [m] idx h) acc
       (fold_left (fun acc m => rmax acc (search S nc plo ni last m idx)) rs acc)).
    { clear rs. induction rs as [|m rs IH]; intros acc Ha; cbn [fold_left].
      - eapply top_ext; [|apply top_none]. intros h. split; [contradiction|intros (y & [] & _)].
      - pose proof (J m acc Ha) as Jm. pose proof (IH _ (Rle_trans _ _ _ Ha (proj1 Jm))) as I.
        eapply top_ext; [|exact (top_join _ _ _ _ _ Jm I)]. intros h. split.
        + intros [H|(y & Iy & H)]; [exists m|exists y]; split; auto; [left; reflexivity|right; exact Iy].
        + intros (y & [<-|Iy] & H); [left; exact H|right; exists y; tauto]. }
    pose proof (search_top S nc plo ni last r idx) as T. pose proof (K rs _ (proj1 T)) as T2.
    eapply top_ext; [|exact (top_join _ _ _ _ _ T T2)]. intros h.
    assert (U : forall m, candidate S nc ni (last idx) [m] idx h <-> exists L c l0 l1, (exists cs, In (L, cs) m /\ In c cs) /\
       In (idx, l0, l1) (cell_points S nc L c) /\ cell_hi L c (fs_dir S) < last idx /\ found S ni L c l0 l1 = Some h).
    { intros m. unfold candidate, present. split.
      - intros (L & c & l0 & l1 & (m' & cs & [<-|[]] & I & Ic) & H). exists L, c, l0, l1. split; [exists cs; tauto|exact H].
      - intros (L & c & l0 & l1 & (cs & I & Ic) & H). exists L, c, l0, l1. split; [exists m, cs; split; [left; reflexivity|tauto]|exact H]. }
    cbv beta. split; [rewrite (U r)|rewrite (U r)].
    + intros [(L & c & l0 & l1 & (cs & I & Ic) & H)|(m & Im & H)].
      * exists L, c, l0, l1. split; [|exact H]. exists r, cs. split; [left; reflexivity|tauto].
      * destruct (proj1 (U m) H) as (L & c & l0 & l1 & (cs & I & Ic) & H'). exists L, c, l0, l1. split; [|exact H']. exists m, cs. split; [right; exact Im|tauto].
    + intros (L & c & l0 & l1 & (m & cs & [<-|Im] & I & Ic) & H).
      * left. exists L, c, l0, l1. split; [exists cs; tauto|exact H].
      * right. exists m. split; [exact Im|]. apply U. exists L, c, l0, l1. split; [exists cs; tauto|exact H].
Qed.
