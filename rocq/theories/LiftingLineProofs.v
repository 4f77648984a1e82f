(** Proofs about the lifting line correction. *)
From Verif Require Import BoxR BoxRFacts VecSpace VecSpaceSpec VecSpaceProofs DiskActuator DiskSpec Wing WingSpec LiftingLine LiftingLineSpec.
Open Scope R_scope.

Lemma veps_pos : 0 < veps.
Proof. unfold veps. apply Rinv_0_lt_compat. lra. Qed.
Lemma feps_r_pos : 0 < feps_r.
Proof. unfold feps_r. apply Rinv_0_lt_compat. lra. Qed.

(** * Interpolation *)
Lemma scan_ok : forall xs x j0, (2 <= length xs)%nat -> nth 0 xs 0 <= x -> x <= last xs 0 ->
  exists i, scan xs x j0 = (j0 + i)%nat /\ (S i < length xs)%nat /\ nth i xs 0 <= x <= nth (S i) xs 0.
Proof.
  induction xs as [|a xs IH]; intros x j0 L A B; [cbn in L; lia|].
  destruct xs as [|b r]; [cbn in L; lia|].
  change (scan (a :: b :: r) x j0) with (if Rleb x b then j0 else scan (b :: r) x (S j0)).
  destruct (Rleb x b) eqn:E.
  - apply Rleb_spec in E. exists 0%nat. cbn in A |- *. split; [lia|split; [lia|lra]].
  - apply Rleb_false in E. destruct r as [|c r].
    { cbn in B. lra. }
    destruct (IH x (S j0)) as (i & I1 & I2 & I3); [cbn; lia|cbn; lra|exact B|].
    exists (S i). split; [rewrite I1; lia|]. split; [cbn in I2 |- *; lia|exact I3].
Qed.

Lemma last_nth (l : list R) : last l 0 = nth (length l - 1) l 0.
Proof.
  induction l as [|a l IH]; [reflexivity|]. destruct l as [|b r]; [reflexivity|].
  change (last (a :: b :: r) 0) with (last (b :: r) 0). rewrite IH. cbn [length].
  replace (S (S (length r)) - 1)%nat with (S (S (length r) - 1)) by lia. reflexivity.
Qed.

(** The weights: a convex combination of two entries. *)
Lemma lin_w_ok xs x : (2 <= length xs)%nat -> let '(j, f) := lin_w xs x in
  (j < length xs)%nat /\ (f = 0 \/ (S j < length xs)%nat) /\ 0 <= f <= 1.
Proof.
  intros L. unfold lin_w. destruct (length xs <? 2)%nat eqn:E; [apply Nat.ltb_lt in E; lia|]. cbn [orb].
  destruct (Rltb x (nth 0 xs 0)) eqn:A; [split; [lia|split; [left; reflexivity|lra]]|].
  destruct (Rltb (nth (length xs - 1) xs 0) x) eqn:B; [split; [lia|split; [left; reflexivity|lra]]|].
  apply Rltb_false in A, B. rewrite <- last_nth in B.
  destruct (scan_ok xs x 0 L A B) as (i & I1 & I2 & I3). rewrite I1. cbn [Nat.add].
  split; [lia|]. split; [right; lia|]. replace (i + 1)%nat with (S i) by lia.
  destruct (Rltb feps_r _) eqn:D; [|lra]. apply Rltb_spec in D. pose proof feps_r_pos.
  set (d := nth (S i) xs 0 - nth i xs 0) in *. split.
  - apply Rle_mult_inv_pos; lra.
  - apply Rmult_le_reg_r with d; [lra|]. unfold Rdiv. rewrite Rmult_assoc, Rinv_l by lra. unfold d. lra.
Qed.

Lemma lin_r_low xs ys x m : (2 <= length xs)%nat -> (forall i, (i < length xs)%nat -> m <= nth i ys 0) -> m <= lin_r xs ys x.
Proof.
  intros L H. unfold lin_r. pose proof (lin_w_ok xs x L) as W. destruct (lin_w xs x) as [j f].
  destruct W as (J & F & B). pose proof (H j J). destruct F as [-> | F]; [lra|].
  replace (j + 1)%nat with (S j) by lia. pose proof (H (S j) F). nra.
Qed.
Lemma lin_r_const xs ys x c : (2 <= length xs)%nat -> (forall i, (i < length xs)%nat -> nth i ys 0 = c) -> lin_r xs ys x = c.
Proof.
  intros L H. unfold lin_r. pose proof (lin_w_ok xs x L) as W. destruct (lin_w xs x) as [j f].
  destruct W as (J & F & B). rewrite (H j J). destruct F as [-> | F]; [ring|].
  replace (j + 1)%nat with (S j) by lia. rewrite (H (S j) F). ring.
Qed.
Lemma lin_r_line xs ys x : (2 <= length xs)%nat -> length ys = length xs ->
  (forall i, (S i < length xs)%nat -> feps_r < nth (S i) xs 0 - nth i xs 0) ->
  on_broken_line xs ys x (lin_r xs ys x).
Proof.
  intros L LY G. unfold lin_r, lin_w, on_broken_line.
  destruct (length xs <? 2)%nat eqn:E; [apply Nat.ltb_lt in E; lia|]. cbn [orb].
  destruct (Rltb x (nth 0 xs 0)) eqn:A.
  { apply Rltb_spec in A. left. split; [lra|ring]. }
  destruct (Rltb (nth (length xs - 1) xs 0) x) eqn:B.
  { apply Rltb_spec in B. right; left. rewrite !last_nth, LY. split; [lra|ring]. }
  apply Rltb_false in A, B. rewrite <- last_nth in B.
  destruct (scan_ok xs x 0 L A B) as (i & I1 & I2 & I3). rewrite I1. cbn [Nat.add].
  right; right. exists i. split; [exact I2|split; [exact I3|]].
  replace (i + 1)%nat with (S i) by lia. pose proof (G i I2) as GI. rewrite (proj2 (Rltb_spec _ _) GI).
  pose proof feps_r_pos. field. lra.
Qed.

(** * Points *)
(** Enough steps: with a step of at least [h] from [cur], [n] steps reach the tip. *)
Lemma more_points_ok r opt epsdr h : (2 <= length r)%nat -> 0 < epsdr -> veps < h ->
  (forall i, (i < length r)%nat -> h * epsdr <= nth i opt 0) ->
  forall n cur, last r 0 - cur <= INR n * h -> forall fuel, (n < fuel)%nat ->
  exists l, more_points fuel r opt epsdr cur = Some (Ret l) /\
    (cur <= last r 0 -> last (cur :: l) 0 = last r 0) /\
    forall i, (i < length l)%nat ->
      let p := nth i (cur :: l) 0 in let q := nth i l 0 in
      p < q /\ q - p <= lin_r r opt p / epsdr /\ (q = last r 0 \/ h <= q - p).
Proof.
  intros L E V O. pose proof veps_pos as VP.
  assert (LO : forall x, h <= lin_r r opt x / epsdr).
  { intros x. apply Rmult_le_reg_r with epsdr; [exact E|]. unfold Rdiv. rewrite Rmult_assoc, Rinv_l, Rmult_1_r by lra.
    apply lin_r_low; assumption. }
  induction n as [|n IH]; intros cur B fuel F; (destruct fuel as [|k]; [lia|]); cbn [more_points].
  - cbn in B. destruct (Rltb cur (last r 0)) eqn:C; [apply Rltb_spec in C; lra|]. apply Rltb_false in C.
    exists []. split; [reflexivity|]. split; [intros; cbn; lra|]. intros i I. cbn in I. lia.
  - destruct (Rltb cur (last r 0)) eqn:C.
    2:{ apply Rltb_false in C. exists []. split; [reflexivity|]. split; [intros; cbn; lra|]. intros i I. cbn in I. lia. }
    apply Rltb_spec in C. cbn zeta. rewrite rmin_spec.
    set (d1 := lin_r r opt cur / epsdr). set (d2 := lin_r r opt (cur + d1) / epsdr).
    assert (D1 : h <= d1) by apply LO. assert (D2 : h <= d2) by apply LO.
    assert (D : h <= Rmin d1 d2) by (apply Rmin_glb; assumption). pose proof (Rmin_l d1 d2) as DL.
    set (d := Rmin d1 d2) in *. rewrite (proj2 (Rltb_spec veps d)) by lra. rewrite rmin_spec.
    set (nx := Rmin (cur + d) (last r 0)).
    assert (NX : nx <= cur + d /\ nx <= last r 0 /\ (nx = cur + d \/ nx = last r 0)).
    { unfold nx, Rmin. destruct (Rle_dec _ _); lra. }
    destruct NX as (N1 & N2 & N3). rewrite S_INR in B.
    assert (PN : 0 <= INR n) by apply pos_INR.
    assert (B' : last r 0 - nx <= INR n * h).
    { destruct N3 as [-> | ->]; [nra|]. rewrite Rminus_diag_eq by reflexivity. nra. }
    destruct (IH nx B' k ltac:(lia)) as (l & M & LA & SP). rewrite M. exists (nx :: l). split; [reflexivity|].
    split. { intros _. change (last (cur :: nx :: l) 0) with (last (nx :: l) 0). apply LA, N2. }
    intros i I. destruct i as [|i].
    + cbn [nth]. fold d1. destruct N3 as [EQ | EQ]; rewrite EQ; split; [lra|split; [lra|right; lra]|lra|split; [lra|left; reflexivity]].
    + cbn in I. exact (SP i ltac:(lia)).
Qed.

(** * Widths *)
Lemma rsum_map_seq_S (f : nat -> R) a n : rsum (map f (seq a (S n))) = rsum (map f (seq a n)) + f (a + n)%nat.
Proof. rewrite seq_S, map_app, rsum_app. cbn. lra. Qed.

Lemma central_sum n x dist : (2 <= n)%nat ->
  (forall i j, (j <= i < n)%nat -> dist i j = x i - x j) -> rsum (central n dist) = x (n - 1)%nat - x 0%nat.
Proof.
  intros N D. unfold central. destruct n as [|[|n]]; [lia|lia|]. clear N.
  replace (S (S n) - 1)%nat with (S n) by lia. replace (S (S n) - 2)%nat with n by lia.
  rewrite rsum_map_seq_S. cbn [Nat.add]. rewrite Nat.eqb_refl. change (S n =? 0)%nat with false. cbn iota.
  assert (K : forall m, (m <= n)%nat -> rsum (map (fun i => if (i =? 0)%nat then dist 1%nat 0%nat / 2
      else if (i =? S n)%nat then dist (S n) n / 2 else dist (i + 1)%nat (i - 1)%nat / 2) (seq 0 (S m)))
      = (x (S m) + x m) / 2 - x 0%nat).
  { induction m as [|m IH]; intros M.
    - cbn. rewrite (D 1%nat 0%nat) by lia. lra.
    - rewrite rsum_map_seq_S, IH by lia. cbn [Nat.add]. change (S m =? 0)%nat with false. cbn iota.
      destruct (Nat.eqb_spec (S m) (S n)); [lia|]. replace (m + 1)%nat with (S m) by lia. replace (S m - 1)%nat with m by lia.
      rewrite (D (S (S m)) m) by lia. lra. }
  rewrite K, (D (S n) n) by lia. lra.
Qed.

(** * Sums of vectors *)
Lemma inner_vadd a b k : inner (vadd a b) k = inner a k + inner b k.
Proof. unfold inner, vadd; cbn [vx vy vz]. ring. Qed.
Lemma inner_vsub a b k : inner (vsub a b) k = inner a k - inner b k.
Proof. unfold inner, vsub; cbn [vx vy vz]. ring. Qed.
Lemma inner_vscale a f k : inner (vscale a f) k = inner a k * f.
Proof. unfold inner, vscale; cbn [vx vy vz]. ring. Qed.
Lemma inner_vdivs a f k : inner (vdivs a f) k = inner a k / f.
Proof. unfold inner, vdivs, Rdiv; cbn [vx vy vz]. ring. Qed.
Lemma inner_vzero k : inner vzero k = 0.
Proof. unfold inner, vzero; cbn [vx vy vz]. ring. Qed.

Lemma fold_inner {A} (step : vec -> A -> vec) (t : A -> R) k l u :
  (forall u j, In j l -> inner (step u j) k = inner u k + t j) ->
  inner (fold_left step l u) k = inner u k + rsum (map t l).
Proof.
  revert u. induction l as [|a l IH]; intros u H; cbn [fold_left map].
  - cbn. lra.
  - rewrite IH by (intros; apply H; right; assumption). rewrite H by (left; reflexivity). rewrite rsum_cons. lra.
Qed.

Lemma vmag_floor_pos v : 0 < vmag_floor v.
Proof. unfold vmag_floor. rewrite rmax_spec. pose proof veps_pos. pose proof (Rmax_r (vmag v) veps). lra. Qed.
Lemma vmag_floor_len v : veps <= len v -> vmag_floor v = len v.
Proof. intros H. unfold vmag_floor. rewrite rmax_spec. change (vmag v) with (len v). apply Rmax_left, H. Qed.

(** * The kernel *)
Lemma kernel_form r eps : 0 < eps -> r <> 0 -> kernel_k r eps = line_kernel r eps.
Proof.
  intros E H. unfold kernel_k, line_kernel. destruct (Req_EM_T r 0) as [|_]; [contradiction|]. cbn zeta.
  replace (- r * r / (eps * eps)) with (- (r / eps)²) by (unfold Rsqr; field; lra).
  unfold Rsqr at 2 4. unfold Rdiv. unfold Rsqr. field. lra.
Qed.
Lemma exp_bounds x : 0 <= x -> 1 - x <= exp (- x) /\ exp (- x) * (1 + x) <= 1.
Proof.
  intros H. assert (U : forall y, 1 + y <= exp y).
  { intros y. destruct (Req_dec y 0) as [-> | N]; [rewrite exp_0; lra|]. pose proof (exp_ineq1 y N). lra. }
  split. { pose proof (U (- x)). lra. }
  pose proof (U x) as A. assert (P : exp (- x) * exp x = 1) by (rewrite <- exp_plus, Rplus_opp_l; apply exp_0).
  pose proof (exp_pos (- x)). nra.
Qed.
Lemma kernel_bounds r eps : 0 < eps ->
  1 / 2 - (r / eps)² <= kernel_k r eps * eps² <= 1 / 2.
Proof.
  intros E. destruct (Req_EM_T r 0) as [Z | N].
  - unfold kernel_k. destruct (Req_EM_T r 0); [|contradiction]. subst r. replace 0.5 with (1 / 2) by lra.
    replace ((0 / eps)²) with 0 by (unfold Rsqr; field; lra).
    replace (1 / 2 / (eps * eps) * eps²) with (1 / 2) by (unfold Rsqr; field; lra). lra.
  - rewrite kernel_form by assumption. unfold line_kernel. set (x := (r / eps)²).
    assert (X : 0 < x). { unfold x. apply Rsqr_pos_lt. unfold Rdiv. apply Rmult_integral_contrapositive_currified; [exact N|]. apply Rinv_neq_0_compat. lra. }
    replace ((exp (- x) / eps² - (1 - exp (- x)) / (2 * r²)) * eps²) with (exp (- x) - (1 - exp (- x)) / (2 * x))
      by (unfold x, Rsqr; field; lra).
    destruct (exp_bounds x ltac:(lra)) as [A B]. set (e := exp (- x)) in *.
    assert (Q : (1 - e) / (2 * x) * (2 * x) = 1 - e) by (field; lra). set (q := (1 - e) / (2 * x)) in *.
    split; nra.
Qed.
