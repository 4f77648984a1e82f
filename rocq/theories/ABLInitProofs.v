(** Lemmas for C86. *)
From Verif Require Import BoxR BoxRFacts VecSpace ABLInit ABLInitSpec.
Local Open Scope R_scope.

Lemma half_dot : 0.5 = / 2. Proof. lra. Qed.
Lemma gap_pos : 0 < / 8388608. Proof. lra. Qed.
Lemma rises_mono t : rises t -> forall i j, (i < j < length t)%nat -> hgt t i < hgt t j.
Proof.
  intros H i j [A B]. induction j as [|j IH]; [lia|]. pose proof (H j B). pose proof gap_pos.
  destruct (Nat.eq_dec i j) as [->|N]; [lra|]. assert (hgt t i < hgt t j) by (apply IH; lia). lra.
Qed.
Lemma rises_le t : rises t -> forall i j, (i <= j < length t)%nat -> hgt t i <= hgt t j.
Proof. intros H i j [A B]. destruct (Nat.eq_dec i j) as [->|N]; [lra|]. apply Rlt_le, rises_mono; [exact H|lia]. Qed.
Definition piece (t : table) (i : nat) (z : R) : R := val t i + (val t (S i) - val t i) * ((z - hgt t i) / (hgt t (S i) - hgt t i)).
Lemma piece_left t i : piece t i (hgt t i) = val t i.
Proof. unfold piece. replace (hgt t i - hgt t i) with 0 by ring. unfold Rdiv. ring. Qed.
Lemma piece_right t i : rises t -> (S i < length t)%nat -> piece t i (hgt t (S i)) = val t (S i).
Proof. intros H L. pose proof (rises_mono t H i (S i) ltac:(lia)). unfold piece. field. lra. Qed.
Lemma intro_piece t i z : rises t -> (S i < length t)%nat -> hgt t i <= z <= hgt t (S i) -> table_value t z (piece t i z).
Proof.
  intros H L [A B]. split; [|split].
  - intros Z. destruct i as [|i].
    + assert (E : z = hgt t 0) by lra. rewrite E. apply piece_left.
    + pose proof (rises_mono t H 0 (S i) ltac:(lia)). lra.
  - intros j Lj [A' B']. destruct (lt_eq_lt_dec i j) as [[C| ->]|C]; [| reflexivity |].
    + pose proof (rises_le t H (S i) j ltac:(lia)). assert (j = S i).
      { destruct (Nat.eq_dec j (S i)) as [|N]; [assumption|]. pose proof (rises_mono t H (S i) j ltac:(lia)). lra. }
      subst j. assert (E : z = hgt t (S i)) by lra. rewrite E. rewrite (piece_right t i H L). symmetry. apply piece_left.
    + pose proof (rises_le t H (S j) i ltac:(lia)). assert (i = S j).
      { destruct (Nat.eq_dec i (S j)) as [|N]; [assumption|]. pose proof (rises_mono t H (S j) i ltac:(lia)). lra. }
      subst i. assert (E : z = hgt t (S j)) by lra. rewrite E. rewrite piece_left. symmetry. apply (piece_right t j H Lj).
  - intros Z. pose proof (rises_le t H (S i) (length t - 1) ltac:(lia)). assert (E : z = hgt t (S i)) by lra.
    assert (length t - 1 = S i)%nat as ->.
    { destruct (Nat.eq_dec (length t - 1) (S i)) as [|N]; [assumption|]. pose proof (rises_mono t H (S i) (length t - 1) ltac:(lia)). lra. }
    rewrite E. apply (piece_right t i H L).
Qed.
Lemma intro_low t z : rises t -> (0 < length t)%nat -> z <= hgt t 0 -> (z < hgt t 0 \/ (1 < length t)%nat) -> table_value t z (val t 0).
Proof.
  intros H L Z W. destruct (Req_dec z (hgt t 0)) as [E|N].
  - destruct W as [W|W]; [lra|]. pose proof (rises_mono t H 0 1 ltac:(lia)). rewrite <- (piece_left t 0), <- E. apply intro_piece; [exact H|exact W|lra].
  - split; [reflexivity|]. split.
    + intros i Li [A B]. pose proof (rises_le t H 0 i ltac:(lia)). lra.
    + intros A. pose proof (rises_le t H 0 (length t - 1) ltac:(lia)). lra.
Qed.
Lemma intro_high t z : rises t -> (0 < length t)%nat -> hgt t (length t - 1) < z -> table_value t z (val t (length t - 1)).
Proof.
  intros H L Z. split; [|split; [|reflexivity]].
  - intros A. pose proof (rises_le t H 0 (length t - 1) ltac:(lia)). lra.
  - intros i Li [A B]. pose proof (rises_le t H (S i) (length t - 1) ltac:(lia)). lra.
Qed.
Lemma intro_single h v z : table_value [(h, v)] z v.
Proof. split; [reflexivity|]. split; [cbn; lia|reflexivity]. Qed.

Lemma rises_tail a t : rises (a :: t) -> rises t.
Proof. intros H i L. apply (H (S i)). cbn. lia. Qed.

(** ** The scan *)
Lemma scan_cons h0 v0 h1 v1 t z acc : scan ((h0, v0) :: (h1, v1) :: t) z acc
  = scan ((h1, v1) :: t) z (if (Rltb h0 z && Rleb z h1)%bool then v0 + (z - h0) * ((v1 - v0) / (h1 - h0)) else acc).
Proof. reflexivity. Qed.
Lemma scan_low t z acc : rises t -> (z <= hgt t 0 \/ t = []) -> scan t z acc = acc.
Proof.
  revert acc. induction t as [|[h0 v0] t IH]; intros acc H Z; [reflexivity|]. destruct t as [|[h1 v1] t]; [reflexivity|].
  destruct Z as [Z|Z]; [|discriminate]. cbn in Z. pose proof (H 0%nat ltac:(cbn; lia)) as G. cbn in G. pose proof gap_pos.
  rewrite scan_cons. replace (Rltb h0 z) with false by (symmetry; apply Rltb_false; lra). cbn [andb].
  apply IH; [apply (rises_tail _ _ H)|]. left. cbn. lra.
Qed.
Lemma scan_piece t z acc i : rises t -> (S i < length t)%nat -> hgt t i < z <= hgt t (S i) -> scan t z acc = piece t i z.
Proof.
  revert acc i. induction t as [|[h0 v0] t IH]; intros acc i H L Z; [cbn in L; lia|]. destruct t as [|[h1 v1] t]; [cbn in L; lia|].
  rewrite scan_cons. destruct i as [|i].
  - cbn in Z. replace (Rltb h0 z) with true by (symmetry; apply Rltb_spec; lra). replace (Rleb z h1) with true by (symmetry; apply Rleb_spec; lra). cbn [andb].
    rewrite scan_low; [|apply (rises_tail _ _ H)|left; cbn; lra]. unfold piece. cbn. field. lra.
  - rewrite (IH _ i); [reflexivity|apply (rises_tail _ _ H)|cbn in L |- *; lia|exact Z].
Qed.
Lemma locate t z : rises t -> hgt t 0 < z <= hgt t (length t - 1) -> exists i, (S i < length t)%nat /\ hgt t i < z <= hgt t (S i).
Proof.
  induction t as [|[h0 v0] t IH]; intros H [A B]; [cbn in *; lra|]. destruct t as [|[h1 v1] t]; [cbn in *; lra|].
  destruct (Rle_dec z h1) as [C|C].
  - exists 0%nat. cbn in *. split; [lia|lra].
  - destruct (IH (rises_tail _ _ H)) as (i & L & Q).
    + split; [cbn; lra|]. cbn [length] in B |- *. replace (S (S (length t)) - 1)%nat with (S (length t)) in B by lia.
      replace (S (length t) - 1)%nat with (length t) by lia. exact B.
    + exists (S i). split; [cbn in L |- *; lia|exact Q].
Qed.
Lemma scan_ok t z : rises t -> (0 < length t)%nat -> z <= hgt t (length t - 1) -> table_value t z (scan t z (val t 0)).
Proof.
  intros H L Z. destruct (Rle_dec z (hgt t 0)) as [A|A].
  - rewrite scan_low by (auto). destruct t as [|[h v] [|a t]]; [cbn in L; lia|apply intro_single|]. apply intro_low; [exact H|exact L|exact A|right; cbn; lia].
  - destruct (locate t z H) as (i & Li & Q); [lra|]. rewrite (scan_piece t z _ i H Li Q). apply intro_piece; [exact H|exact Li|lra].
Qed.
Lemma scan_high t z acc : rises t -> hgt t (length t - 1) < z -> scan t z acc = acc.
Proof.
  revert acc. induction t as [|[h0 v0] t IH]; intros acc H Z; [reflexivity|]. destruct t as [|[h1 v1] t]; [reflexivity|].
  assert (L : h1 < z).
  { pose proof (rises_le _ H 1 (length ((h0, v0) :: (h1, v1) :: t) - 1) ltac:(cbn; lia)) as Q. change (hgt ((h0, v0) :: (h1, v1) :: t) 1) with h1 in Q. lra. }
  rewrite scan_cons. replace (Rleb z h1) with false by (symmetry; apply Rleb_false; lra). rewrite Bool.andb_false_r.
  apply IH; [apply (rises_tail _ _ H)|]. cbn [length] in Z |- *. replace (S (S (length t)) - 1)%nat with (S (length t)) in Z by lia.
  replace (S (length t) - 1)%nat with (length t) by lia. exact Z.
Qed.

(** ** interp::linear *)
Lemma between_ok t z : rises t -> (1 < length t)%nat -> hgt t 0 <= z <= hgt t (length t - 1) ->
  exists i, (S i < length t)%nat /\ hgt t i <= z <= hgt t (S i) /\ between t z = Ret (piece t i z).
Proof.
  induction t as [|[h0 v0] t IH]; intros H L [A B]; [cbn in *; lia|]. destruct t as [|[h1 v1] t]; [cbn in *; lia|].
  cbn [between]. destruct (Rleb z h1) eqn:E.
  - apply Rleb_spec in E. exists 0%nat. pose proof (H 0%nat ltac:(cbn; lia)) as G. cbn in G, A. pose proof gap_pos. split; [cbn; lia|]. split; [cbn; lra|].
    f_equal. unfold on_piece, piece, feps. cbn. replace (Rltb (/ 8388608) (h1 - h0)) with true by (symmetry; apply Rltb_spec; lra). field. lra.
  - apply Rleb_false in E. destruct t as [|a t]; [cbn in B; lra|]. destruct (IH (rises_tail _ _ H)) as (i & Li & Q & R); [cbn; lia| |].
    + split; [cbn; lra|]. cbn [length] in B |- *. replace (S (S (S (length t))) - 1)%nat with (S (S (length t))) in B by lia.
      replace (S (S (length t)) - 1)%nat with (S (length t)) by lia. exact B.
    + exists (S i). split; [cbn in Li |- *; lia|]. split; [exact Q|exact R].
Qed.
Lemma last_nth {A} (l : list A) d : last l d = nth (length l - 1) l d.
Proof.
  induction l as [|a l IH]; [reflexivity|]. destruct l as [|b l]; [reflexivity|]. change (last (a :: b :: l) d) with (last (b :: l) d). rewrite IH.
  cbn [length]. replace (S (S (length l)) - 1)%nat with (S (S (length l) - 1)) by lia. reflexivity.
Qed.
Lemma interp_ok t z : rises t -> t <> [] -> exists q, interp t z = Ret q /\ table_value t z q.
Proof.
  intros H N. destruct t as [|[h0 v0] [|a t]]; [contradiction|exists v0; split; [reflexivity|apply intro_single]|].
  assert (L : (1 < length ((h0, v0) :: a :: t))%nat) by (cbn; lia).
  unfold interp. rewrite last_nth. set (T := (h0, v0) :: a :: t) in *.
  destruct (Rltb z h0) eqn:E.
  - apply Rltb_spec in E. exists v0. split; [reflexivity|]. apply (intro_low T z H); [lia|cbn; lra|right; exact L].
  - apply Rltb_false in E. destruct (nth (length T - 1) T (0, 0)) as [hn vn] eqn:En.
    assert (Hn : hgt T (length T - 1) = hn) by (unfold hgt; rewrite En; reflexivity). assert (Vn : val T (length T - 1) = vn) by (unfold val; rewrite En; reflexivity).
    destruct (Rltb hn z) eqn:F.
    + apply Rltb_spec in F. exists vn. split; [reflexivity|]. rewrite <- Vn. apply intro_high; [exact H|lia|lra].
    + apply Rltb_false in F. destruct (between_ok T z H L) as (i & Li & Q & R); [cbn in *; lra|]. exists (piece T i z). split; [exact R|apply intro_piece; assumption].
Qed.

(** ** The waves *)
Lemma waves_spec S D p : waves S D p =
  V3 (wave (s_delta_u S) (s_ref_height S) (s_uperiods S) (vy (d_hi D) - vy (d_lo D)) (vz p) (vy p - vy (d_lo D)))
     (wave (s_delta_v S) (s_ref_height S) (s_vperiods S) (vx (d_hi D) - vx (d_lo D)) (vz p) (vx p - vx (d_lo D))) 0.
Proof.
  assert (E : forall amp ref n len z s, amp * exp 0.5 / ref * exp (- 0.5 * (z / ref) * (z / ref)) * z * cos (n * 2 * PI / len * s) = wave amp ref n len z s).
  { intros amp ref n len z s. unfold wave. replace (1 / 2 - z / ref * (z / ref) / 2) with (0.5 + - 0.5 * (z / ref) * (z / ref)) by lra.
    rewrite exp_plus. replace (n * 2 * PI / len * s) with (2 * PI * (n * (s / len))) by (unfold Rdiv; ring). unfold Rdiv. ring. }
  unfold waves. cbv zeta. rewrite !E. reflexivity.
Qed.
Lemma hump_le s : s * exp (1 / 2 - s * s / 2) <= 1.
Proof.
  destruct (Rle_dec s 0) as [A|A].
  - pose proof (exp_pos (1 / 2 - s * s / 2)). nra.
  - assert (E : exp (1 / 2 - s * s / 2) * exp (s * s / 2 - 1 / 2) = 1) by (rewrite <- exp_plus; replace (1 / 2 - s * s / 2 + (s * s / 2 - 1 / 2)) with 0 by lra; apply exp_0).
    assert (B : s <= exp (s * s / 2 - 1 / 2)).
    { destruct (Req_dec (s * s / 2 - 1 / 2) 0) as [Z|Z].
      - rewrite Z, exp_0. nra.
      - pose proof (exp_ineq1 (s * s / 2 - 1 / 2) Z). nra. }
    pose proof (exp_pos (1 / 2 - s * s / 2)). nra.
Qed.
Lemma hump_abs s : Rabs (s * exp (1 / 2 - s * s / 2)) <= 1.
Proof.
  apply Rabs_le. split; [|apply hump_le]. pose proof (hump_le (- s)). replace (- s * - s) with (s * s) in H by ring. lra.
Qed.
