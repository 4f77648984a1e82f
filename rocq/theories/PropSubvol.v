(** C94: subvolume outputs. *)
From Coq Require Import Reals ZArith List Bool Lia Lra.
From Verif Require Import BoxR BoxRFacts Subvol SubvolSpec.
Import ListNotations.
Local Open Scope R_scope.

Lemma close4_spec : forall a b, close4 a b = true <-> Rabs (a - b) < / 10000.
Proof.
  intros a b. unfold close4. replace (/ 10 ^ 4) with (/ 10000) by (f_equal; ring). apply Rltb_spec.
Qed.

(** The level is one that exists and has the cell size asked for, to a ten-thousandth, and the coarsest of them; without
    such a level the run stops. *)
Theorem c94_level : forall dx sizes i lev, find_level dx sizes i = Ret lev ->
  (i <= lev)%nat /\ exists s, nth_error sizes (lev - i) = Some s /\
  Rabs (vx dx - vx s) < / 10000 /\ Rabs (vy dx - vy s) < / 10000 /\ Rabs (vz dx - vz s) < / 10000 /\
  (forall j t, (j < lev - i)%nat -> nth_error sizes j = Some t ->
     ~ (Rabs (vx dx - vx t) < / 10000 /\ Rabs (vy dx - vy t) < / 10000 /\ Rabs (vz dx - vz t) < / 10000)).
Proof.
  intros dx sizes. induction sizes as [|s r IH]; intros i lev H; [discriminate H|]. cbn [find_level] in H.
  destruct (close4 (vx dx) (vx s) && close4 (vy dx) (vy s) && close4 (vz dx) (vz s))%bool eqn:E.
  - injection H as <-. rewrite !andb_true_iff, !close4_spec in E. split; [lia|]. exists s. rewrite Nat.sub_diag. split; [reflexivity|].
    repeat split; try tauto. intros j t J. lia.
  - destruct (IH _ _ H) as [L [t [A [B [C [D F]]]]]]. split; [lia|]. exists t. replace (lev - i)%nat with (S (lev - S i)) by lia.
    split; [exact A|]. repeat split; try assumption. intros [|j] u J U Q.
    + injection U as <-. rewrite <- !close4_spec in Q. destruct Q as [Q1 [Q2 Q3]]. rewrite Q1, Q2, Q3 in E. discriminate E.
    + apply (F j u); [lia|exact U|exact Q].
Qed.
Theorem c94_no_level : forall dx sizes i, find_level dx sizes i = Abort <->
  (forall s, In s sizes -> ~ (Rabs (vx dx - vx s) < / 10000 /\ Rabs (vy dx - vy s) < / 10000 /\ Rabs (vz dx - vz s) < / 10000)).
Proof.
  intros dx sizes. induction sizes as [|s r IH]; intros i; [split; [intros _ s []|reflexivity]|]. cbn [find_level].
  destruct (close4 (vx dx) (vx s) && close4 (vy dx) (vy s) && close4 (vz dx) (vz s))%bool eqn:E.
  - split; [discriminate|]. intros H. exfalso. rewrite !andb_true_iff, !close4_spec in E. apply (H s); [left; reflexivity|tauto].
  - rewrite (IH (S i)). split; intros H.
    + intros t [<-|T]; [|apply H; exact T]. intros [Q1 [Q2 Q3]]. rewrite <- close4_spec in Q1, Q2, Q3. rewrite Q1, Q2, Q3 in E. discriminate E.
    + intros t T. apply H. right. exact T.
Qed.
Lemma find_level_not_ub : forall dx sizes i, find_level dx sizes i <> UB.
Proof.
  intros dx sizes. induction sizes as [|s r IH]; intros i; [discriminate|]. cbn [find_level]. destruct (_ && _)%bool; [discriminate|apply IH].
Qed.

Lemma lround_near : forall x, Rabs (x - IZR (lround x)) <= / 2.
Proof.
  intros x. unfold lround. destruct (Rleb 0 x) eqn:E.
  - pose proof (rfloor_spec (x + / 2)) as H. apply Rabs_le. lra.
  - pose proof (rfloor_spec (- x + / 2)) as H. rewrite opp_IZR. apply Rabs_le. lra.
Qed.
Lemma in_zrange : forall n lo z, In z (zrange lo n) <-> (lo <= z < lo + Z.of_nat n)%Z.
Proof.
  induction n as [|n IH]; intros lo z; [split; [intros []|lia]|]. cbn [zrange In]. rewrite IH. lia.
Qed.
Lemma in_cells : forall b c, In c (box_cells b) <-> in_box b c = true.
Proof.
  intros b [[i j] k]. unfold box_cells, in_box. rewrite !andb_true_iff, !Z.leb_le. rewrite in_flat_map. split.
  - intros [i' [I H]]. rewrite in_flat_map in H. destruct H as [j' [J H]]. rewrite in_map_iff in H. destruct H as [k' [E K]].
    injection E as <- <- <-. rewrite in_zrange in I, J, K. unfold cx, cy, cz in *. simpl in *. lia.
  - intros H. exists i. split; [rewrite in_zrange; unfold cx, cy, cz in *; simpl in *; lia|]. rewrite in_flat_map. exists j.
    split; [rewrite in_zrange; unfold cx, cy, cz in *; simpl in *; lia|]. rewrite in_map_iff. exists k.
    split; [reflexivity|]. rewrite in_zrange. unfold cx, cy, cz in *; simpl in *; lia.
Qed.

Lemma span_ok : forall problo h origin dx n, 0 <= IZR n -> on_node origin problo h = true -> Rabs (dx - h) < / 10000 ->
  spans problo h (index0 origin problo h) n origin dx.
Proof.
  intros problo h origin dx n N O D. unfold on_node in O. apply close4_spec in O. split; [exact O|].
  rewrite plus_IZR. apply Rabs_def2 in O. apply Rabs_def2 in D. apply Rabs_def1; nra.
Qed.

(** The box has as many cells as asked for, spans the region asked for to the tolerance, on a level with the cell size asked
    for, and all its cells exist on that level. *)
Theorem c94_box : forall dx origin problo n sizes covered lev lo hi,
  (0 <= cx n)%Z -> (0 <= cy n)%Z -> (0 <= cz n)%Z ->
  evaluate dx origin problo n sizes covered = Ret (lev, (lo, hi)) ->
  exists h, nth_error sizes lev = Some h /\
  (cx hi - cx lo + 1 = cx n /\ cy hi - cy lo + 1 = cy n /\ cz hi - cz lo + 1 = cz n)%Z /\
  spans (vx problo) (vx h) (cx lo) (cx n) (vx origin) (vx dx) /\
  spans (vy problo) (vy h) (cy lo) (cy n) (vy origin) (vy dx) /\
  spans (vz problo) (vz h) (cz lo) (cz n) (vz origin) (vz dx) /\
  (forall c, (cx lo <= cx c <= cx hi)%Z -> (cy lo <= cy c <= cy hi)%Z -> (cz lo <= cz c <= cz hi)%Z -> covered lev c = true).
Proof.
  intros dx origin problo n sizes covered lev lo hi NX NY NZ H. unfold evaluate in H.
  destruct (find_level dx sizes 0) as [l| |] eqn:F; try discriminate H.
  destruct (c94_level _ _ _ _ F) as [_ [h [A [B [C [D _]]]]]]. rewrite Nat.sub_0_r in A.
  assert (NH : nth l sizes (0, 0, 0) = h) by (apply nth_error_nth; exact A). rewrite NH in H.
  destruct (on_node (vx origin) (vx problo) (vx h) && on_node (vy origin) (vy problo) (vy h) && on_node (vz origin) (vz problo) (vz h))%bool eqn:O; [|discriminate H].
  rewrite !andb_true_iff in O. destruct O as [[O1 O2] O3].
  destruct (forallb (covered l) (box_cells (sub_box origin problo h n))) eqn:FA; [|discriminate H].
  injection H as <- <- <-. exists h. split; [exact A|].
  split; [unfold cx, cy, cz; simpl; lia|].
  split; [apply span_ok; [apply IZR_le; exact NX|exact O1|exact B]|].
  split; [apply span_ok; [apply IZR_le; exact NY|exact O2|exact C]|].
  split; [apply span_ok; [apply IZR_le; exact NZ|exact O3|exact D]|].
  intros c X Y Z. rewrite forallb_forall in FA. apply FA. apply in_cells. unfold in_box, sub_box in *. rewrite !andb_true_iff, !Z.leb_le. simpl in *. tauto.
Qed.
(** If all is as it should be - the origin on a node, the cell size that of a level, the cells there - the output is made. *)
Theorem c94_made : forall dx origin problo n sizes covered lev h i j k,
  nth_error sizes lev = Some h -> dx = h -> 0 < vx h -> 0 < vy h -> 0 < vz h ->
  (forall l s, nth_error sizes l = Some s -> Rabs (vx dx - vx s) < / 10000 -> l = lev) ->
  origin = (vx problo + IZR i * vx h, vy problo + IZR j * vy h, vz problo + IZR k * vz h) ->
  (forall c, (i <= cx c < i + cx n)%Z -> (j <= cy c < j + cy n)%Z -> (k <= cz c < k + cz n)%Z -> covered lev c = true) ->
  evaluate dx origin problo n sizes covered = Ret (lev, ((i, j, k), (i + cx n - 1, j + cy n - 1, k + cz n - 1)%Z)).
Proof.
  intros dx origin problo n sizes covered lev h i j k NH DX HX HY HZ ONLY OR COV.
  assert (R0 : forall x, Rabs (x - x) < / 10000) by (intros x; unfold Rminus; rewrite Rplus_opp_r, Rabs_R0; lra).
  assert (F : find_level dx sizes 0 = Ret lev).
  { destruct (find_level dx sizes 0) as [l| |] eqn:F.
    - destruct (c94_level _ _ _ _ F) as [_ [s [A [B _]]]]. rewrite Nat.sub_0_r in A. rewrite (ONLY l s A B). reflexivity.
    - exfalso. rewrite c94_no_level in F. apply (F h); [apply nth_error_In with lev; exact NH|]. subst dx. repeat split; apply R0.
    - exfalso. apply (find_level_not_ub dx sizes 0 F). }
  assert (LR : forall z, lround (IZR z) = z).
  { intros z. unfold lround. destruct (Rleb 0 (IZR z)) eqn:E.
    - pose proof (rfloor_spec (IZR z + / 2)) as Q. assert (z - 1 < rfloor (IZR z + / 2) < z + 1)%Z; [|lia]. split; apply lt_IZR; [rewrite minus_IZR|rewrite plus_IZR]; lra.
    - pose proof (rfloor_spec (- IZR z + / 2)) as Q. assert (- z - 1 < rfloor (- IZR z + / 2) < - z + 1)%Z; [|lia]. split; apply lt_IZR; [rewrite minus_IZR|rewrite plus_IZR]; rewrite opp_IZR; lra. }
  assert (IX : forall p q z, 0 < q -> index0 (p + IZR z * q) p q = z).
  { intros p q z Q. unfold index0. replace ((p + IZR z * q - p) / q) with (IZR z) by (field; lra). apply LR. }
  unfold evaluate. rewrite F. rewrite (nth_error_nth _ _ _ NH). subst origin. cbn [vx vy vz fst snd].
  assert (ON : forall p q z, 0 < q -> on_node (p + IZR z * q) p q = true).
  { intros p q z Q. unfold on_node. rewrite IX by exact Q. apply close4_spec. apply R0. }
  change (vx (vx problo + IZR i * vx h, vy problo + IZR j * vy h, vz problo + IZR k * vz h)) with (vx problo + IZR i * vx h).
  change (vy (vx problo + IZR i * vx h, vy problo + IZR j * vy h, vz problo + IZR k * vz h)) with (vy problo + IZR j * vy h).
  change (vz (vx problo + IZR i * vx h, vy problo + IZR j * vy h, vz problo + IZR k * vz h)) with (vz problo + IZR k * vz h).
  rewrite !ON by assumption. cbn [andb].
  assert (SB : sub_box (vx problo + IZR i * vx h, vy problo + IZR j * vy h, vz problo + IZR k * vz h) problo h n
    = ((i, j, k), (i + cx n - 1, j + cy n - 1, k + cz n - 1)%Z)).
  { unfold sub_box.
    change (vx (vx problo + IZR i * vx h, vy problo + IZR j * vy h, vz problo + IZR k * vz h)) with (vx problo + IZR i * vx h).
    change (vy (vx problo + IZR i * vx h, vy problo + IZR j * vy h, vz problo + IZR k * vz h)) with (vy problo + IZR j * vy h).
    change (vz (vx problo + IZR i * vx h, vy problo + IZR j * vy h, vz problo + IZR k * vz h)) with (vz problo + IZR k * vz h).
    rewrite !IX by assumption. reflexivity. }
  rewrite SB. replace (forallb (covered lev) (box_cells (i, j, k, ((i + cx n - 1)%Z, (j + cy n - 1)%Z, (k + cz n - 1)%Z)))) with true; [reflexivity|].
  symmetry. apply forallb_forall. intros c C. apply in_cells in C. unfold in_box in C. rewrite !andb_true_iff, !Z.leb_le in C. cbn [fst snd] in C.
  change (cx (i, j, k)) with i in C. change (cy (i, j, k)) with j in C. change (cz (i, j, k)) with k in C.
  change (cx ((i + cx n - 1)%Z, (j + cy n - 1)%Z, (k + cz n - 1)%Z)) with (i + cx n - 1)%Z in C.
  change (cy ((i + cx n - 1)%Z, (j + cy n - 1)%Z, (k + cz n - 1)%Z)) with (j + cy n - 1)%Z in C.
  change (cz ((i + cx n - 1)%Z, (j + cy n - 1)%Z, (k + cz n - 1)%Z)) with (k + cz n - 1)%Z in C.
  apply COV; lia.
Qed.
(** a domain of unit cells with a finer level over a part: sixteen cells of the fine level *)
Example box_case : evaluate (/ 2, / 2, / 2) (3, 1, 0) (0, 0, 0) (4, 2, 2)%Z [(1, 1, 1); (/ 2, / 2, / 2)]
  (fun lev c => match lev with O => true | _ => (4 <=? cx c)%Z end) = Ret (1%nat, ((6, 2, 0), (9, 3, 1))%Z).
Proof.
  rewrite (c94_made (/ 2, / 2, / 2) _ _ _ _ _ 1%nat (/ 2, / 2, / 2) 6 2 0); try reflexivity; try (unfold vx, vy, vz; simpl; lra).
  - intros [|[|l]] s H; [|reflexivity|destruct l; discriminate H]. injection H as <-. unfold vx. simpl. rewrite Rabs_left by lra. lra.
  - unfold vx, vy, vz. simpl. f_equal; [f_equal|]; lra.
  - intros c X Y Z. apply Z.leb_le. lia.
Qed.

(** The tolerance is absolute: on cells smaller than a fifth of a millimetre every origin passes as a node, and of levels
    finer than a tenth of a millimetre the first is taken for any other. *)
Theorem c94_tolerance_refuted :
  (forall origin problo h, 0 < h < / 5000 -> on_node origin problo h = true) /\
  (forall h r, 0 < h < / 10000 -> find_level (h / 2, h / 2, h / 2) ((h, h, h) :: r) 0 = Ret 0%nat).
Proof.
  split.
  - intros origin problo h H. unfold on_node. apply close4_spec. unfold index0. set (x := (origin - problo) / h).
    pose proof (lround_near x) as L. assert (E : x * h = origin - problo) by (unfold x; field; lra).
    replace (problo + IZR (lround x) * h - origin) with ((IZR (lround x) - x) * h) by lra.
    rewrite Rabs_mult, (Rabs_right h) by lra. rewrite Rabs_minus_sym in L. nra.
  - intros h r H. cbn [find_level]. assert (C : close4 (h / 2) h = true).
    { apply close4_spec. rewrite Rabs_left by lra. lra. }
    unfold vx, vy, vz. simpl. rewrite C. reflexivity.
Qed.

(** A new mesh without the level, or without the cells, of a subvolume stops the whole run. *)
Theorem c94_new_mesh_refuted : forall dx origin problo n before sizes covered after,
  evaluate dx origin problo n sizes covered = Abort ->
  (forall m, In m before -> exists b, evaluate dx origin problo n (fst m) (snd m) = Ret b) ->
  over_meshes dx origin problo n (before ++ (sizes, covered) :: after) = Abort.
Proof.
  intros dx origin problo n before sizes covered after E. induction before as [|[s c] r IH]; intros B.
  - simpl. rewrite E. reflexivity.
  - simpl. destruct (B (s, c) (or_introl eq_refl)) as [b Hb]. simpl in Hb. rewrite Hb. rewrite IH; [reflexivity|].
    intros m M. apply B. right. exact M.
Qed.
Theorem c94_meshes : forall dx origin problo n meshes l, over_meshes dx origin problo n meshes = Ret l ->
  length l = length meshes /\ forall i b, nth_error l i = Some b ->
    exists m, nth_error meshes i = Some m /\ evaluate dx origin problo n (fst m) (snd m) = Ret b.
Proof.
  intros dx origin problo n meshes. induction meshes as [|[s c] r IH]; intros l H.
  - injection H as <-. split; [reflexivity|]. intros [|i] b B; discriminate B.
  - simpl in H. destruct (evaluate dx origin problo n s c) as [b| |] eqn:E; try discriminate H.
    destruct (over_meshes dx origin problo n r) as [l'| |] eqn:E2; try discriminate H. injection H as <-.
    destruct (IH l' eq_refl) as [A B]. split; [simpl; rewrite A; reflexivity|]. intros [|i] q Q.
    + injection Q as <-. exists (s, c). split; [reflexivity|exact E].
    + apply (B i q Q).
Qed.

(** ** What is written *)
Lemma comps_nth : forall mk n k, nth_error (comps mk n) k = if Nat.ltb k n then Some (mk k) else None.
Proof.
  intros mk n k. unfold comps. rewrite nth_error_map. destruct (Nat.ltb_spec k n) as [L|L].
  - assert (E : nth_error (seq 0 n) k = Some k).
    { rewrite (nth_error_nth' (seq 0 n) 0%nat) by (rewrite seq_length; exact L). rewrite seq_nth by exact L. reflexivity. }
    rewrite E. reflexivity.
  - assert (E : nth_error (seq 0 n) k = None) by (apply nth_error_None; rewrite seq_length; exact L). rewrite E. reflexivity.
Qed.
(** With one field of real numbers and nothing else every component is the one its name says. *)
Theorem c94_one_field : forall n k, (k < n)%nat ->
  written [n] [] 0 k = Some (Real_ 0 k) /\ nth_error (var_names [n] [] 0) k = Some (Real_ 0 k).
Proof.
  intros n k K. unfold written, var_names. simpl. unfold pcopy. simpl. rewrite !app_nil_r, comps_nth.
  destruct (Nat.ltb_spec k n) as [L|L]; [|lia]. rewrite Nat.sub_0_r. split; reflexivity.
Qed.
Lemma copy_ints_spec : forall l b ic f k, let '(b', ic') := copy_ints b ic f l in
  (ic <= ic')%nat /\ length (names_of Int_ f l) = (ic' - ic)%nat /\
  ((k < ic)%nat -> b' k = b k) /\ ((ic <= k < ic')%nat -> b' k = nth_error (names_of Int_ f l) (k - ic)) /\ ((ic' <= k)%nat -> b' k = b k).
Proof.
  induction l as [|n r IH]; intros b ic f k; simpl.
  - repeat split; try reflexivity; try lia.
  - specialize (IH (pcopy b (Int_ f) ic n) (ic + n)%nat (S f) k).
    destruct (copy_ints (pcopy b (Int_ f) ic n) (ic + n) (S f) r) as [b' ic'] eqn:E. destruct IH as [A [L [B [C D]]]].
    assert (LC : length (comps (Int_ f) n) = n) by (unfold comps; rewrite map_length, seq_length; reflexivity).
    rewrite app_length, LC, L. unfold pcopy in B, D. repeat split; try lia.
    + intros K. rewrite B by lia. destruct (Nat.leb_spec ic k); [lia|reflexivity].
    + intros K. destruct (Nat.lt_ge_cases k (ic + n)) as [Q|Q].
      * rewrite B by lia. destruct (Nat.leb_spec ic k); [|lia]. destruct (Nat.ltb_spec k (ic + n)); [|lia]. cbn [andb].
        rewrite nth_error_app1 by lia. rewrite comps_nth. destruct (Nat.ltb_spec (k - ic) n); [reflexivity|lia].
      * rewrite C by lia. rewrite nth_error_app2 by lia. rewrite LC. f_equal. lia.
    + intros K. rewrite D by lia. destruct (Nat.leb_spec ic k); [|lia]. destruct (Nat.ltb_spec k (ic + n)); [lia|reflexivity].
Qed.
(** Without fields of real numbers every component is the one its name says, for any number of integer and derived fields. *)
Theorem c94_no_real_fields : forall ints nd k, (k < length (var_names [] ints nd))%nat ->
  written [] ints nd k = nth_error (var_names [] ints nd) k.
Proof.
  intros ints nd k K. unfold written, var_names in *. simpl in *.
  pose proof (copy_ints_spec ints (fun _ => None) 0 0 k) as H. destruct (copy_ints (fun _ => None) 0 0 ints) as [b ic].
  destruct H as [A [L [B [C D]]]]. rewrite Nat.sub_0_r in L.
  assert (LC : length (comps Derived nd) = nd) by (unfold comps; rewrite map_length, seq_length; reflexivity).
  rewrite app_length, L, LC in K. destruct (Nat.lt_ge_cases k ic) as [Q|Q].
  - rewrite nth_error_app1 by lia. destruct (Nat.ltb 0 nd).
    + unfold pcopy. destruct (Nat.leb_spec ic k); [lia|]. simpl. rewrite C by lia. rewrite Nat.sub_0_r. reflexivity.
    + rewrite C by lia. rewrite Nat.sub_0_r. reflexivity.
  - rewrite nth_error_app2 by lia. rewrite L, comps_nth. destruct (Nat.ltb_spec (k - ic) nd); [|lia].
    destruct (Nat.ltb_spec 0 nd); [|lia]. unfold pcopy. destruct (Nat.leb_spec ic k); [|lia]. destruct (Nat.ltb_spec k (ic + nd)); [|lia]. reflexivity.
Qed.
Lemma copy_reals_above : forall l b f k, (forall n, In n l -> (n <= k)%nat) -> copy_reals b 0 f l k = b k.
Proof.
  induction l as [|n r IH]; intros b f k H; [reflexivity|]. simpl. rewrite IH by (intros m M; apply H; right; exact M).
  unfold pcopy. destruct (Nat.ltb_spec k (0 + n)) as [L|L]; [|rewrite andb_false_r; reflexivity]. specialize (H n (or_introl eq_refl)). lia.
Qed.
Lemma copy_reals_last : forall l n b f k, (k < n)%nat -> copy_reals b 0 f (l ++ [n]) k = Some (Real_ (f + length l) k).
Proof.
  induction l as [|m r IH]; intros n b f k K; simpl.
  - unfold pcopy. destruct (Nat.ltb_spec k (0 + n)); [|lia]. simpl. rewrite Nat.sub_0_r, Nat.add_0_r. reflexivity.
  - rewrite IH by exact K. f_equal. f_equal. lia.
Qed.
(** With two or more fields of real numbers the first components are those of the last field, under the names of the
    first. *)
Theorem c94_fields_refuted : forall first others last k,
  (k < first)%nat -> (k < last)%nat ->
  written (first :: others ++ [last]) [] 0 k = Some (Real_ (S (length others)) k) /\
  nth_error (var_names (first :: others ++ [last]) [] 0) k = Some (Real_ 0 k).
Proof.
  intros first others last k K1 K2. split.
  - change (written (first :: others ++ [last]) [] 0 k) with (copy_reals (fun _ => None) 0 0 ((first :: others) ++ [last]) k).
    rewrite copy_reals_last by exact K2. reflexivity.
  - unfold var_names. simpl names_of at 1. rewrite <- !app_assoc. rewrite nth_error_app1 by (unfold comps; rewrite map_length, seq_length; exact K1).
    rewrite comps_nth. destruct (Nat.ltb_spec k first); [reflexivity|lia].
Qed.
(** The components past the longest field of real numbers are never written. *)
Theorem c94_unwritten_refuted : forall reals k, (forall n, In n reals -> (n <= k)%nat) ->
  written reals [] 0 k = None.
Proof. intros reals k H. unfold written. simpl. apply copy_reals_above. exact H. Qed.
(** velocity and temperature: the first component is the temperature under the name of the first velocity, the fourth is not written *)
Example fields_case : written [3; 1]%nat [] 0 0%nat = Some (Real_ 1 0) /\ nth_error (var_names [3; 1]%nat [] 0) 0 = Some (Real_ 0 0) /\
  written [3; 1]%nat [] 0 3%nat = None /\ nth_error (var_names [3; 1]%nat [] 0) 3 = Some (Real_ 1 0).
Proof. repeat split; reflexivity. Qed.
(** The integer fields are written over the real ones. *)
Theorem c94_int_over_real_refuted : forall reals m ints k, (k < m)%nat ->
  written reals (m :: ints) 0 k = Some (Int_ 0 k).
Proof.
  intros reals m ints k K. unfold written.
  pose proof (copy_ints_spec (m :: ints) (copy_reals (fun _ => None) 0 0 reals) 0 0 k) as H.
  destruct (copy_ints (copy_reals (fun _ => None) 0 0 reals) 0 0 (m :: ints)) as [b ic]. destruct H as [A [L [B [C D]]]].
  simpl names_of in *. rewrite app_length in L. unfold comps in L at 1. rewrite map_length, seq_length in L.
  transitivity (b k); [reflexivity|]. rewrite C by lia. rewrite Nat.sub_0_r. rewrite nth_error_app1 by (unfold comps; rewrite map_length, seq_length; exact K).
  rewrite comps_nth. destruct (Nat.ltb_spec k m); [reflexivity|lia].
Qed.

Print Assumptions c94_level.
Print Assumptions c94_no_level.
Print Assumptions c94_box.
Print Assumptions c94_made.
Print Assumptions c94_tolerance_refuted.
Print Assumptions c94_new_mesh_refuted.
Print Assumptions c94_meshes.
Print Assumptions c94_one_field.
Print Assumptions c94_no_real_fields.
Print Assumptions c94_fields_refuted.
Print Assumptions c94_unwritten_refuted.
Print Assumptions c94_int_over_real_refuted.
