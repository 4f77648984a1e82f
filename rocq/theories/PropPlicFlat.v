(** C30, continued: a flat interface normal to an axis is reconstructed
    exactly, in all three directions and both orientations. *)
From Verif Require Import BoxR BoxRFacts Plic PlicSpec PlicVol PlicProofs PlicProofs2 PlicProofs3 PropPlic.
Open Scope R_scope.

(** The 3x3x3 neighbourhood of the cell holds [lo], [mid], [hi] along axis [d]. *)
Definition layered (f : fld) (c : ivec) (d : Z) (lo mid hi : R) : Prop :=
  forall p q r, (-1 <= p <= 1)%Z -> (-1 <= q <= 1)%Z -> (-1 <= r <= 1)%Z ->
    f (IV (iv0 c + p) (iv1 c + q) (iv2 c + r)%Z)
    = let s := icomp (IV p q r) d in
      if (s <? 0)%Z then lo else if (s =? 0)%Z then mid else hi.
Lemma axis_intercept : forall v, 0 <= v <= 1 ->
  volume_intercept 1 0 0 v = v /\ volume_intercept 0 1 0 v = v /\ volume_intercept 0 0 1 v = v.
Proof.
  intros v Hv. pose proof eps_pos as He.
  assert (S : sort3 1 0 0 = (0,0,1) /\ sort3 0 1 0 = (0,0,1) /\ sort3 0 0 1 = (0,0,1)).
  { unfold sort3, rmin, rmax. split; [|split]; repeat (rcase; try lra); reflexivity. }
  destruct S as (S1 & S2 & S3). unfold volume_intercept, volume_intercept_e. rewrite S1, S2, S3.
  assert (I : forall ch, 0 <= ch -> intercept_sorted eps64 0 0 1 ch = ch).
  { intros ch Hc. unfold intercept_sorted.
    replace (0 * 0 * 0 / rmax (6 * 0 * 0 * 1) eps64) with 0 by (unfold Rdiv; ring).
    destruct (Rltb 1 (0 + 0)) eqn:A; [apply Rltb_spec in A; lra|].
    repeat (rcase; try lra). }
  rewrite rmin_Rmin.
  assert (R : (if Rltb (/ 2) v then 1 - intercept_sorted eps64 0 0 1 (Rmin v (1 - v)) else intercept_sorted eps64 0 0 1 (Rmin v (1 - v))) = v).
  { rcase.
    - rewrite Rmin_right by lra. rewrite I by lra. ring.
    - rewrite Rmin_left by lra. rewrite I by lra. ring. }
  auto.
Qed.

Lemma fit_of_normal : forall f i j k n, mixed_normal f i j k = n ->
  forall s, s <> 0 -> 0 <= at3 f i j k <= 1 ->
  (n = W3 s 0 0 -> fit_plane f i j k = if Rltb s 0 then (W3 (-1) 0 0, at3 f i j k - 1) else (W3 1 0 0, at3 f i j k)) /\
  (n = W3 0 s 0 -> fit_plane f i j k = if Rltb s 0 then (W3 0 (-1) 0, at3 f i j k - 1) else (W3 0 1 0, at3 f i j k)) /\
  (n = W3 0 0 s -> fit_plane f i j k = if Rltb s 0 then (W3 0 0 (-1), at3 f i j k - 1) else (W3 0 0 1, at3 f i j k)).
Proof.
  intros f i j k n Hn s Hs Hv.
  destruct (axis_intercept _ Hv) as (A1 & A2 & A3).
  assert (Z0 : (if Rltb 0 0 then - 0 else 0) = 0) by (rcase; lra).
  assert (Z1 : (if Rltb 0 0 then -1 else 1) = 1) by (rcase; lra).
  assert (E1 : rmin 0 1 = 0) by (rewrite rmin_Rmin, Rmin_left; lra).
  assert (E2 : rmin 0 (-1) = -1) by (rewrite rmin_Rmin, Rmin_right; lra).
  assert (E0 : rmin 0 0 = 0) by (rewrite rmin_Rmin, Rmin_left; lra).
  unfold fit_plane, fit_plane_e. fold mixed_normal. rewrite Hn.
  split; [|split]; intros ->; simpl; rewrite Z0, Z1;
  destruct (Rltb s 0) eqn:C; (apply Rltb_spec in C || apply Rltb_false in C);
  [ replace (- s + 0 + 0) with (- s) by ring; replace (- s / - s) with 1 by (field; lra); replace (0 / - s) with 0 by (field; lra)
  | replace (s + 0 + 0) with s by ring; replace (s / s) with 1 by (field; lra); replace (0 / s) with 0 by (field; lra)
  | replace (0 + - s + 0) with (- s) by ring; replace (- s / - s) with 1 by (field; lra); replace (0 / - s) with 0 by (field; lra)
  | replace (0 + s + 0) with s by ring; replace (s / s) with 1 by (field; lra); replace (0 / s) with 0 by (field; lra)
  | replace (0 + 0 + - s) with (- s) by ring; replace (- s / - s) with 1 by (field; lra); replace (0 / - s) with 0 by (field; lra)
  | replace (0 + 0 + s) with s by ring; replace (s / s) with 1 by (field; lra); replace (0 / s) with 0 by (field; lra) ];
  fold volume_intercept; try rewrite A1; try rewrite A2; try rewrite A3;
  rewrite ?Rmult_0_r, ?Rmult_1_r, ?E0, ?E1, ?E2; f_equal; ring.
Qed.


Ltac compute_rows H :=
  unfold youngs, central0, central1, central2, at3; rewrite !H by lia; simpl; unfold sgn_gt;
  repeat (rcase; try lra); f_equal; lra.
Ltac finish_normal :=
  simpl; rewrite ?Rabs_R0;
  repeat match goal with |- context [Rabs ?x] =>
    first [rewrite (Rabs_right x) by lra | rewrite (Rabs_left x) by lra] end.

Lemma pick : forall f i j k y c0 c1 c2 (a : R),
  youngs f i j k = y -> central0 f i j k = c0 -> central1 f i j k = c1 -> central2 f i j k = c2 ->
  (Rabs a = 16) ->
  (y = W3 a 0 0 /\ l1 c0 = 1 /\ Rabs (w0 c0) = 1 /\ 2 <= l1 c1 /\ Rabs (w1 c1) = 1 /\ 2 <= l1 c2 /\ Rabs (w2 c2) = 1 \/
   y = W3 0 a 0 /\ 2 <= l1 c0 /\ Rabs (w0 c0) = 1 /\ l1 c1 = 1 /\ Rabs (w1 c1) = 1 /\ 2 <= l1 c2 /\ Rabs (w2 c2) = 1 \/
   y = W3 0 0 a /\ 2 <= l1 c0 /\ Rabs (w0 c0) = 1 /\ 2 <= l1 c1 /\ Rabs (w1 c1) = 1 /\ l1 c2 = 1 /\ Rabs (w2 c2) = 1) ->
  mixed_normal f i j k = vover y (16 + eps64).
Proof.
  intros f i j k y c0 c1 c2 a Y K0 K1 K2 Ha P. pose proof eps_pos as He.
  unfold mixed_normal, mixed_normal_e. rewrite Y, K0, K1, K2. cbv zeta.
  assert (AD : forall x t, 0 < t -> Rabs (x / t) = Rabs x / t).
  { intros. unfold Rdiv. rewrite Rabs_mult, (Rabs_right (/ t)); [reflexivity|]. left. apply Rinv_0_lt_compat. assumption. }
  assert (HI : forall t, 2 <= t -> 1 / t <= /2).
  { intros. unfold Rdiv. rewrite Rmult_1_l. apply Rinv_le_contravar; lra. }
  assert (Ly : l1 y = 16).
  { unfold l1. destruct P as [P|[P|P]]; destruct P as (-> & _); simpl; rewrite Rabs_R0, Ha; ring. }
  rewrite Ly.
  assert (L0 : 1 <= l1 c0 /\ 1 <= l1 c1 /\ 1 <= l1 c2) by (intuition lra).
  unfold vover. simpl.
  rewrite !AD by lra.
  assert (B0 : Rabs (w0 c0) = 1 /\ Rabs (w1 c1) = 1 /\ Rabs (w2 c2) = 1) by tauto.
  destruct B0 as (-> & -> & ->).
  assert (S0 : rmax (Rabs (w2 y / (16 + eps64))) (rmax (Rabs (w1 y / (16 + eps64))) (Rabs (w0 y / (16 + eps64)))) = 16 / (16 + eps64)).
  { rewrite !AD by lra.
    assert (Q : 0 < 16 / (16 + eps64)) by (apply Rmult_lt_0_compat; [lra|apply Rinv_0_lt_compat; lra]).
    assert (Q0 : 0 / (16 + eps64) = 0) by (unfold Rdiv; ring).
    destruct P as [P|[P|P]]; destruct P as (-> & _); simpl; rewrite Rabs_R0, Ha, Q0, !rmax_Rmax;
    unfold Rmax; repeat destruct Rle_dec; lra. }
  assert (Q1 : 16 / (16 + eps64) < 1).
  { apply Rmult_lt_reg_r with (16 + eps64); [lra|].
    replace (16 / (16 + eps64) * (16 + eps64)) with 16 by (field; lra). lra. }
  assert (Q2 : 0 < 16 / (16 + eps64)) by (apply Rmult_lt_0_compat; [lra|apply Rinv_0_lt_compat; lra]).
  match goal with |- (if Rltb ?s (snd ?p) && _ then _ else _) = _ =>
    assert (SP : snd p = 1);
    [|rewrite SP; replace s with (16 / (16 + eps64)) by (symmetry; rewrite !AD in S0 by lra; exact S0)] end.
  - destruct P as [P|[P|P]]; destruct P as (_ & P0 & _ & P1 & _ & P2 & _).
    + pose proof (HI _ P1). pose proof (HI _ P2). rewrite P0.
      match goal with |- context [Rltb (1 / ?u) (1 / ?w)] => destruct (Rltb (1 / u) (1 / w)) eqn:X end;
      (apply Rltb_spec in X || apply Rltb_false in X); simpl; rcase; simpl; lra.
    + pose proof (HI _ P0). pose proof (HI _ P2). rewrite P1.
      match goal with |- context [Rltb (1 / ?u) (1 / ?w)] => destruct (Rltb (1 / u) (1 / w)) eqn:X end;
      (apply Rltb_spec in X || apply Rltb_false in X); simpl; rcase; simpl; lra.
    + pose proof (HI _ P0). pose proof (HI _ P1). rewrite P2.
      match goal with |- context [Rltb (1 / ?u) (1 / ?w)] => destruct (Rltb (1 / u) (1 / w)) eqn:X end;
      (apply Rltb_spec in X || apply Rltb_false in X); simpl; rcase; simpl; lra.
  - destruct (Rltb (16 / (16 + eps64)) 1) eqn:C; [|apply Rltb_false in C; lra].
    destruct (Rltb 0 (16 / (16 + eps64))) eqn:D; [|apply Rltb_false in D; lra]. reflexivity.
Qed.

Lemma flQ0 : 0 / (16 + eps64) = 0. Proof. unfold Rdiv; ring. Qed.
Lemma flQ3 : -16 / (16 + eps64) = - (16 / (16 + eps64)). Proof. unfold Rdiv; ring. Qed.
Lemma flR1 : Rabs (-1) = 1. Proof. rewrite Rabs_left; lra. Qed.
Lemma flR3 : Rabs (3/2) = 3/2. Proof. rewrite Rabs_right; lra. Qed.
Lemma flR3' : Rabs (-3/2) = 3/2. Proof. rewrite Rabs_left; lra. Qed.
Ltac go H a b0 b1 b2 c0 c1 c2 d0 d1 d2 e0 e1 e2 :=
  match goal with |- fit_plane ?f ?i ?j ?k = _ =>
  assert (Hc : at3 f i j k = _) by
    (unfold at3; pose proof (H 0 0 0 ltac:(lia) ltac:(lia) ltac:(lia))%Z as T; rewrite !Z.add_0_r in T; exact T);
  simpl in Hc;
  assert (N : mixed_normal f i j k = vover (W3 b0 b1 b2) (16 + eps64)) by
    (apply (pick f i j k (W3 b0 b1 b2) (W3 c0 c1 c2) (W3 d0 d1 d2) (W3 e0 e1 e2) a);
     [compute_rows H|compute_rows H|compute_rows H|compute_rows H|lra|
      unfold l1; simpl; rewrite ?flR1, ?flR3, ?flR3', ?Rabs_R0, ?Rabs_R1; first [left; repeat split; lra|right; left; repeat split; lra|right; right; repeat split; lra]]);
  unfold vover in N; simpl in N; rewrite ?flQ0, ?flQ3 in N
  end.

(** Liquid below ([lo = 1, hi = 0]) or above ([lo = 0, hi = 1]) the interface. *)
Theorem c30_flat_interface : forall f i j k v, 0 <= v <= 1 ->
  (layered f (IV i j k) 0 1 v 0 -> fit_plane f i j k = (W3 1 0 0, v)) /\
  (layered f (IV i j k) 0 0 v 1 -> fit_plane f i j k = (W3 (-1) 0 0, v - 1)) /\
  (layered f (IV i j k) 1 1 v 0 -> fit_plane f i j k = (W3 0 1 0, v)) /\
  (layered f (IV i j k) 1 0 v 1 -> fit_plane f i j k = (W3 0 (-1) 0, v - 1)) /\
  (layered f (IV i j k) 2 1 v 0 -> fit_plane f i j k = (W3 0 0 1, v)) /\
  (layered f (IV i j k) 2 0 v 1 -> fit_plane f i j k = (W3 0 0 (-1), v - 1)).
Proof.
  intros f i j k v Hv. pose proof eps_pos as He. unfold layered; simpl.
  assert (Q2 : 0 < 16 / (16 + eps64)) by (apply Rmult_lt_0_compat; [lra|apply Rinv_0_lt_compat; lra]).
  assert (R16 : Rabs (-16) = 16) by (rewrite Rabs_left; lra).
  assert (R16' : Rabs 16 = 16) by (rewrite Rabs_right; lra).
  split; [intros H|split; [intros H|split; [intros H|split; [intros H|split; intros H]]]].
  - go H 16 16 0 0 1 0 0 (3/2) (-1) 0 (3/2) 0 (-1).
    destruct (fit_of_normal f i j k _ N (16 / (16 + eps64))) as (F & _ & _); [lra|rewrite Hc; exact Hv|].
    rewrite (F eq_refl), Hc. rcase; [lra|reflexivity].
  - go H (-16) (-16) 0 0 (-1) 0 0 (-3/2) (-1) 0 (-3/2) 0 (-1).
    destruct (fit_of_normal f i j k _ N (- (16 / (16 + eps64)))) as (F & _ & _); [lra|rewrite Hc; exact Hv|].
    rewrite (F eq_refl), Hc. rcase; [reflexivity|lra].
  - go H 16 0 16 0 (-1) (3/2) 0 0 1 0 0 (3/2) (-1).
    destruct (fit_of_normal f i j k _ N (16 / (16 + eps64))) as (_ & F & _); [lra|rewrite Hc; exact Hv|].
    rewrite (F eq_refl), Hc. rcase; [lra|reflexivity].
  - go H (-16) 0 (-16) 0 (-1) (-3/2) 0 0 (-1) 0 0 (-3/2) (-1).
    destruct (fit_of_normal f i j k _ N (- (16 / (16 + eps64)))) as (_ & F & _); [lra|rewrite Hc; exact Hv|].
    rewrite (F eq_refl), Hc. rcase; [reflexivity|lra].
  - go H 16 0 0 16 (-1) 0 (3/2) 0 (-1) (3/2) 0 0 1.
    destruct (fit_of_normal f i j k _ N (16 / (16 + eps64))) as (_ & _ & F); [lra|rewrite Hc; exact Hv|].
    rewrite (F eq_refl), Hc. rcase; [lra|reflexivity].
  - go H (-16) 0 0 (-16) (-1) 0 (-3/2) 0 (-1) (-3/2) 0 0 (-1).
    destruct (fit_of_normal f i j k _ N (- (16 / (16 + eps64)))) as (_ & _ & F); [lra|rewrite Hc; exact Hv|].
    rewrite (F eq_refl), Hc. rcase; [reflexivity|lra].
Qed.

Example c30_ex_flat : layered ex_layer (IV 0 0 0) 2 1 (/4) 0 /\ fit_plane ex_layer 0 0 0 = (W3 0 0 1, /4).
Proof.
  assert (L : layered ex_layer (IV 0 0 0) 2 1 (/4) 0).
  { unfold layered, ex_layer; simpl; intros. reflexivity. }
  split; [exact L|].
  destruct (c30_flat_interface ex_layer 0 0 0 (/4) ltac:(lra)) as (_ & _ & _ & _ & F & _). exact (F L).
Qed.
Print Assumptions c30_flat_interface.
