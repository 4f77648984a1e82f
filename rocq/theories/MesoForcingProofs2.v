(** Proofs for C81: the transition to a constant, the ramp of the blending weights, tables. *)
From Coq Require Import Setoid Morphisms.
From Verif Require Import Base BaseFacts Interp InterpSpec InterpProofs InterpProofs2 MesoForcing MesoForcingSpec MesoForcingProofs.
Close Scope R_scope.
Close Scope string_scope.
Open Scope list_scope.
Open Scope Q_scope.

(** ** Levels *)
Lemma find_some : forall zs h t i b b' mo, find_levels zs h t i (Some b) = (b', mo) ->
  b' = Some b /\ match mo with
    | Some m => (i <= m < i + length zs)%nat /\ h + t <= qnth zs (m - i) /\ (forall j, (j < m - i)%nat -> qnth zs j < h + t)
    | None => forall j, (j < length zs)%nat -> qnth zs j < h + t end.
Proof.
  induction zs as [|z zs IH]; intros h t i b b' mo E; cbn [find_levels] in E.
  - injection E as <- <-. split; [reflexivity|]. intros j Hj. simpl in Hj. lia.
  - destruct (Qleb (h + t) z) eqn:L.
    + injection E as <- <-. split; [reflexivity|]. split; [simpl; lia|].
      replace (i - i)%nat with 0%nat by lia. split; [apply Qleb_true in L; exact L|intros j Hj; lia].
    + apply Qleb_false in L. destruct (IH _ _ _ _ _ _ E) as (-> & K). split; [reflexivity|]. destruct mo as [m|].
      * destruct K as (A & B & C). split; [simpl; lia|]. replace (m - i)%nat with (S (m - S i)) by lia. split; [exact B|].
        intros [|j] Hj; [exact L|]. apply C. lia.
      * intros [|j] Hj; [exact L|]. apply K. simpl in Hj. lia.
Qed.
Lemma find_none : forall zs h t i bo mo, 0 <= t -> find_levels zs h t i None = (bo, mo) ->
  match bo with
  | None => forall j, (j < length zs)%nat -> qnth zs j < h
  | Some b => (i <= b < i + length zs)%nat /\ h <= qnth zs (b - i) /\ (forall j, (j < b - i)%nat -> qnth zs j < h) /\
      match mo with
      | Some m => (b < m < i + length zs)%nat /\ h + t <= qnth zs (m - i) /\ (forall j, (b - i < j < m - i)%nat -> qnth zs j < h + t)
      | None => forall j, (b - i < j < length zs)%nat -> qnth zs j < h + t end
  end.
Proof.
  induction zs as [|z zs IH]; intros h t i bo mo Ht E; cbn [find_levels] in E.
  - injection E as <- <-. intros j Hj. simpl in Hj. lia.
  - destruct (Qleb h z) eqn:L.
    + apply Qleb_true in L. destruct (find_some _ _ _ _ _ _ _ E) as (-> & K). split; [simpl; lia|].
      replace (i - i)%nat with 0%nat by lia. split; [exact L|]. split; [intros j Hj; lia|]. destruct mo as [m|].
      * destruct K as (A & B & C). split; [simpl; lia|]. replace (m - i)%nat with (S (m - S i)) by lia. split; [exact B|].
        intros [|j] Hj; [lia|]. apply C. lia.
      * intros [|j] Hj; [lia|]. apply K. simpl in Hj. lia.
    + apply Qleb_false in L. destruct (Qleb (h + t) z) eqn:L2; [apply Qleb_true in L2; lra|].
      pose proof (IH _ _ _ _ _ Ht E) as K. destruct bo as [b|].
      * destruct K as (A & B & C & D). split; [simpl; lia|]. replace (b - i)%nat with (S (b - S i)) by lia. split; [exact B|].
        split; [intros [|j] Hj; [exact L|apply C; lia]|]. destruct mo as [m|].
        -- destruct D as (D1 & D2 & D3). split; [simpl; lia|]. replace (m - i)%nat with (S (m - S i)) by lia. split; [exact D2|].
           intros [|j] Hj; [lia|]. apply D3. lia.
        -- intros [|j] Hj; [lia|]. apply D. simpl in Hj. lia.
      * intros [|j] Hj; [exact L|]. apply K. simpl in Hj. lia.
Qed.
(** Increasing heights, by position. *)
Definition rising (zs : list Q) : Prop := forall i j, (i < j)%nat -> (j < length zs)%nat -> qnth zs i < qnth zs j.
Lemma increasing_rising : forall zs, increasing zs -> rising zs.
Proof.
  intros zs H i j Hij Hj. apply (H i j); [exact Hij| |]; apply nth_error_nth'; lia.
Qed.

(** ** The march *)
Lemma upd_length : forall l i v, (i < length l)%nat -> length (upd l i v) = length l.
Proof. intros. unfold upd. rewrite app_length. cbn [length]. rewrite firstn_length, skipn_length. lia. Qed.
Lemma upd_same : forall l i v, (i < length l)%nat -> qnth (upd l i v) i = v.
Proof.
  intros. unfold upd, qnth. rewrite app_nth2; rewrite firstn_length; [|lia].
  replace (i - Nat.min i (length l))%nat with 0%nat by lia. reflexivity.
Qed.
Lemma upd_other : forall l i v j, (i < length l)%nat -> j <> i -> qnth (upd l i v) j = qnth l j.
Proof.
  intros l i v j Hi Hj. unfold upd, qnth. destruct (Nat.lt_ge_cases j i) as [G|G].
  - rewrite app_nth1 by (rewrite firstn_length; lia).
    rewrite <- (firstn_skipn i l) at 2. rewrite app_nth1 by (rewrite firstn_length; lia). reflexivity.
  - rewrite app_nth2 by (rewrite firstn_length; lia). rewrite firstn_length.
    replace (j - Nat.min i (length l))%nat with (S (j - S i)) by lia. cbn [nth].
    rewrite <- (firstn_skipn (S i) l) at 2. rewrite app_nth2 by (rewrite firstn_length; lia). rewrite firstn_length.
    f_equal. lia.
Qed.
Lemma march_spec : forall n zs s0 ds b1 i e, (1 <= i)%nat -> (i + n <= length e)%nat ->
  let r := march zs s0 ds b1 n i e in
  length r = length e /\ (forall j, (j < i \/ i + n <= j)%nat -> qnth r j = qnth e j) /\
  (forall j, (i <= j < i + n)%nat -> qnth r j = qnth r (j - 1) + (s0 + ds * (qnth zs j - qnth zs b1)) * (qnth zs j - qnth zs (j - 1))).
Proof.
  induction n as [|n IH]; intros zs s0 ds b1 i e Hi Hn r; subst r; cbn [march].
  - split; [reflexivity|]. split; [reflexivity|]. intros j Hj; lia.
  - set (v := qnth e (i - 1) + _).
    destruct (IH zs s0 ds b1 (S i) (upd e i v)) as (A & B & C); [lia|rewrite upd_length; lia|].
    split; [rewrite A; apply upd_length; lia|]. split.
    + intros j Hj. rewrite B by lia. apply upd_other; lia.
    + intros j Hj. destruct (Nat.eq_dec j i) as [->|N]; [|apply C; lia].
      rewrite (B i), (B (i - 1)%nat) by lia. rewrite upd_same, (upd_other e i v (i - 1)%nat) by lia. reflexivity.
Qed.

(** ** The ramp *)
Lemma at_nth : forall l i, (i < length l)%nat -> at_ l i (qnth l i).
Proof. intros. apply nth_error_nth'; assumption. Qed.
Lemma at_qnth : forall l i a, at_ l i a -> a = qnth l i.
Proof. intros l i a H. unfold qnth. symmetry. apply nth_error_nth. exact H. Qed.
Lemma ramp_table : forall zmin zmax h t z, zmin <= h -> feps < t -> h + t <= zmax -> zmin <= z -> z <= zmax ->
  exists v, linear [zmin; h; h + t; zmax] [1; 1; 0; 0] z 1 0 = Ret v /\ v == ramp h t z.
Proof.
  intros zmin zmax h t z H1 Ht H2 Z1 Z2. pose proof feps_pos as Fp.
  assert (Hs : nondecreasing [zmin; h; h + t; zmax]).
  { intros i j a b Hij Ha Hb. unfold at_ in *.
    destruct i as [|[|[|[|i]]]]; cbn in Ha; try (destruct i; discriminate); injection Ha as <-;
    (destruct j as [|[|[|[|j]]]]; cbn in Hb; try lia; try (destruct j; discriminate); injection Hb as <-; lra). }
  destruct (linear_valid [zmin; h; h + t; zmax] [1; 1; 0; 0] z 1 0 zmin zmax Hs) as
    (j & x0 & x1 & y0 & y1 & X0 & X1 & Y0 & Y1 & L & R & _ & E); try reflexivity; try exact Z1; try exact Z2; [cbn; lia|lia|].
  eexists. split; [exact E|]. unfold at_ in *.
  destruct j as [|[|[|j]]]; cbn in X0, X1, Y0, Y1; try (destruct j; discriminate);
    injection X0 as <-; injection X1 as <-; injection Y0 as <-; injection Y1 as <-; unfold ramp.
  - destruct (Qleb z h) eqn:A; [ring|apply Qleb_false in A; lra].
  - pose proof (wgt_eq h (h + t) z ltac:(lra)) as We.
    assert (We' : wgt h (h + t) z * t == z - h) by (rewrite <- We; ring).
    destruct (Qleb z h) eqn:A.
    + apply Qleb_true in A. assert (wgt h (h + t) z * t == 0) by lra. rewrite Qmult_comm in H. apply qnz_mult in H; lra.
    + apply Qleb_false in A. destruct (Qleb (h + t) z) eqn:B.
      * apply Qleb_true in B. assert (K : t * (wgt h (h + t) z - 1) == 0) by lra. apply qnz_mult in K; lra.
      * assert (Tz : ~ t == 0) by lra.
        transitivity (1 - wgt h (h + t) z); [ring|]. apply (Qmult_inj_r _ _ t Tz).
        transitivity (h + t - z); [lra|]. field. exact Tz.
  - destruct (Qleb z h) eqn:A; [apply Qleb_true in A; lra|]. destruct (Qleb (h + t) z) eqn:B; [ring|apply Qleb_false in B; lra].
Qed.
Lemma ramp_range : forall h t z, 0 < t -> 0 <= ramp h t z /\ ramp h t z <= 1.
Proof.
  intros h t z Ht. unfold ramp. destruct (Qleb z h) eqn:A; [split; lra|]. apply Qleb_false in A.
  destruct (Qleb (h + t) z) eqn:B; [split; lra|]. apply Qleb_false in B. split.
  - apply Qle_shift_div_l; lra.
  - apply Qle_shift_div_r; lra.
Qed.
Lemma linear_list_ext : forall xs ys (g : Q -> Q) zs, (forall z, In z zs -> exists v, linear xs ys z 1 0 = Ret v /\ v == g z) ->
  exists l, linear_list xs ys zs 1 0 = Ret l /\ length l = length zs /\ forall i, (i < length zs)%nat -> qnth l i == g (qnth zs i).
Proof.
  intros xs ys g zs. induction zs as [|z zs IH]; intros H.
  - exists []. split; [reflexivity|]. split; [reflexivity|]. intros i Hi; simpl in Hi; lia.
  - destruct (H z) as (v & E & V); [left; reflexivity|].
    destruct IH as (l & El & Ll & K); [intros y Hy; apply H; right; exact Hy|].
    exists (v :: l). cbn [linear_list]. rewrite E; cbn [obind]. rewrite El; cbn [obind]. split; [reflexivity|].
    split; [simpl; lia|]. intros [|i] Hi; [exact V|]. apply K. simpl in Hi. lia.
Qed.
Lemma errors_length : forall f time zs means e, errors f time zs means = Ret e -> length e = length zs.
Proof.
  intros f time zs. induction zs as [|z zs IH]; intros means e H; cbn [errors] in H; [injection H as <-; reflexivity|].
  destruct means as [|m means]; [discriminate|].
  destruct (bilinear _ _ _ _ _) as [v| |]; cbn [obind] in H; try discriminate.
  destruct (errors f time zs means) as [l| |] eqn:E; cbn [obind] in H; try discriminate.
  injection H as <-. simpl. f_equal. eapply IH; eauto.
Qed.
Lemma blend_nth : forall B l u i, length l = length B -> length u = length B -> (i < length B)%nat ->
  qnth (blend B l u) i = qnth B i * qnth l i + (1 - qnth B i) * qnth u i.
Proof.
  induction B as [|b B IH]; intros [|x l] [|y u] i Hl Hu Hi; try discriminate; [simpl in Hi; lia|].
  destruct i as [|i]; [reflexivity|]. apply (IH l u i); simpl in *; lia.
Qed.
Lemma blend_length : forall B l u, length l = length B -> length u = length B -> length (blend B l u) = length B.
Proof. intros. unfold blend. rewrite map_length, !combine_length. lia. Qed.
Lemma qnth_map : forall (g : Q -> Q) l i, (i < length l)%nat -> qnth (map g l) i = g (qnth l i).
Proof. intros g l i H. unfold qnth. rewrite (nth_indep _ 0 (g 0)) by (rewrite map_length; exact H). apply map_nth. Qed.
(** Rows by position. *)
Lemma rows_nth : forall W zs e r, length W = length zs -> length e = length zs -> In r (rows W zs e) ->
  exists i, (i < length zs)%nat /\ rw r = qnth W i /\ rz r = qnth zs i /\ re r = qnth e i.
Proof.
  induction W as [|w W IH]; intros [|z zs] [|v e] r HW He H; try discriminate; try destruct H.
  - subst r. exists 0%nat. split; [simpl; lia|]. split; [reflexivity|split; reflexivity].
  - destruct (IH zs e r) as (i & A & B & C & D); simpl in *; try lia; auto. exists (S i). split; [lia|]. auto.
Qed.
