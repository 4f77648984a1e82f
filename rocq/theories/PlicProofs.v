(** The cut volume of the code against the closed form. *)
From Verif Require Import BoxR BoxRFacts Plic PlicSpec PlicVol.
Open Scope R_scope.

Lemma rmin_Rmin : forall a b, rmin a b = Rmin a b.
Proof. intros; unfold rmin, Rmin, Rltb. destruct (Rlt_dec b a), (Rle_dec a b); lra. Qed.
Lemma rmax_Rmax : forall a b, rmax a b = Rmax a b.
Proof. intros; unfold rmax, Rmax, Rltb. destruct (Rlt_dec a b), (Rle_dec a b); lra. Qed.

Ltac rcase :=
  match goal with
  | |- context [Rltb ?a ?b] =>
      let H := fresh "C" in
      destruct (Rltb a b) eqn:H; [apply Rltb_spec in H|apply Rltb_false in H]
  | |- context [Rleb ?a ?b] =>
      let H := fresh "C" in
      destruct (Rleb a b) eqn:H; [apply Rleb_spec in H|apply Rleb_false in H]
  end.

Lemma sort3_spec : forall x y z a b c, sort3 x y z = (a, b, c) ->
  a <= b <= c /\
  ((a = x /\ b = y /\ c = z) \/ (a = x /\ b = z /\ c = y) \/
   (a = y /\ b = x /\ c = z) \/ (a = y /\ b = z /\ c = x) \/
   (a = z /\ b = x /\ c = y) \/ (a = z /\ b = y /\ c = x)).
Proof.
  intros x y z a b c. unfold sort3, rmin, rmax.
  repeat rcase; intros E; injection E as <- <- <-; (split; [lra|]); try lra; intuition lra.
Qed.

Lemma sort3_perm : forall x y z,
  sort3 x y z = sort3 y x z /\ sort3 x y z = sort3 x z y.
Proof.
  intros. 
  destruct (sort3 x y z) as [[a b] c] eqn:E1.
  destruct (sort3 y x z) as [[a' b'] c'] eqn:E2.
  destruct (sort3 x z y) as [[a'' b''] c''] eqn:E3.
  apply sort3_spec in E1. apply sort3_spec in E2. apply sort3_spec in E3.
  destruct E1 as [O1 P1], E2 as [O2 P2], E3 as [O3 P3].
  assert (forall p q r p' q' r' : R, p = p' -> q = q' -> r = r' -> (p, q, r) = (p', q', r')) as EQ
    by (intros; subst; reflexivity).
  split; [clear O3 P3 | clear O2 P2].
  - apply EQ; intuition lra.
  - apply EQ; intuition lra.
Qed.

(** Basic facts about the closed form. *)
Lemma cu_ge : forall t, 0 <= t -> cu t = t * t * t.
Proof. intros; unfold cu; rewrite pos_ge; auto. Qed.
Lemma cu_le : forall t, t <= 0 -> cu t = 0.
Proof. intros; unfold cu; rewrite pos_le; [ring|auto]. Qed.
Lemma sq_ge : forall t, 0 <= t -> sq t = t * t.
Proof. intros; unfold sq; rewrite pos_ge; auto. Qed.
Lemma sq_le : forall t, t <= 0 -> sq t = 0.
Proof. intros; unfold sq; rewrite pos_le; [ring|auto]. Qed.
Lemma cu_opp : forall t, cu t - cu (- t) = t * t * t.
Proof.
  intros. destruct (Rle_dec 0 t).
  - rewrite (cu_ge t), (cu_le (- t)) by lra. ring.
  - rewrite (cu_le t), (cu_ge (- t)) by lra. ring.
Qed.
Lemma sq_opp : forall t, sq t + sq (- t) = t * t.
Proof.
  intros. destruct (Rle_dec 0 t).
  - rewrite (sq_ge t), (sq_le (- t)) by lra. ring.
  - rewrite (sq_le t), (sq_ge (- t)) by lra. ring.
Qed.
Lemma pos_scale : forall t x, 0 < t -> pos (t * x) = t * pos x.
Proof.
  intros. destruct (Rle_dec 0 x).
  - rewrite !pos_ge; nra.
  - rewrite !pos_le; nra.
Qed.

Lemma vol3_sym12 : forall x y z c, x <> 0 -> y <> 0 -> z <> 0 -> vol3 x y z c = vol3 y x z c.
Proof.
  intros. unfold vol3. replace (c - y - x) with (c - x - y) by ring. field. auto.
Qed.
Lemma vol3_sym23 : forall x y z c, x <> 0 -> y <> 0 -> z <> 0 -> vol3 x y z c = vol3 x z y c.
Proof.
  intros. unfold vol3. replace (c - z - y) with (c - y - z) by ring.
  replace (c - x - z - y) with (c - x - y - z) by ring. field. auto.
Qed.
Lemma area2_sym : forall x y c, x <> 0 -> y <> 0 -> area2 x y c = area2 y x c.
Proof.
  intros. unfold area2. replace (c - y - x) with (c - x - y) by ring. field. auto.
Qed.
Lemma vol3_refl : forall x y z c, x <> 0 -> y <> 0 -> z <> 0 ->
  vol3 (- x) y z (c - x) = vol3 x y z c.
Proof.
  intros. unfold vol3.
  replace (c - x - - x) with c by ring.
  replace (c - x - y - z) with (c - x - y - z) by ring.
  field. auto.
Qed.
Lemma area2_refl : forall x y c, x <> 0 -> y <> 0 -> area2 (- x) y (c - x) = area2 x y c.
Proof.
  intros. unfold area2. replace (c - x - - x) with c by ring. field. auto.
Qed.
Lemma vol3_scale : forall t x y z c, 0 < t -> x <> 0 -> y <> 0 -> z <> 0 ->
  vol3 (t * x) (t * y) (t * z) (t * c) = vol3 x y z c.
Proof.
  intros. unfold vol3, cu.
  replace (t * c - t * x) with (t * (c - x)) by ring.
  replace (t * c - t * y) with (t * (c - y)) by ring.
  replace (t * c - t * z) with (t * (c - z)) by ring.
  replace (t * (c - x) - t * y) with (t * (c - x - y)) by ring.
  replace (t * (c - x) - t * z) with (t * (c - x - z)) by ring.
  replace (t * (c - y) - t * z) with (t * (c - y - z)) by ring.
  replace (t * (c - x - y) - t * z) with (t * (c - x - y - z)) by ring.
  rewrite !(pos_scale t) by assumption. field. repeat split; auto; lra.
Qed.
Lemma area2_scale : forall t x y c, 0 < t -> x <> 0 -> y <> 0 ->
  area2 (t * x) (t * y) (t * c) = area2 x y c.
Proof.
  intros. unfold area2, sq.
  replace (t * c - t * x) with (t * (c - x)) by ring.
  replace (t * c - t * y) with (t * (c - y)) by ring.
  replace (t * (c - x) - t * y) with (t * (c - x - y)) by ring.
  rewrite !(pos_scale t) by assumption. field. repeat split; auto; lra.
Qed.

Lemma vol3_compl : forall x y z c, x <> 0 -> y <> 0 -> z <> 0 ->
  vol3 x y z c + vol3 x y z (x + y + z - c) = 1.
Proof.
  intros. unfold vol3.
  pose proof (cu_opp c).
  pose proof (cu_opp (c - x)). pose proof (cu_opp (c - y)). pose proof (cu_opp (c - z)).
  pose proof (cu_opp (c - x - y)). pose proof (cu_opp (c - x - z)). pose proof (cu_opp (c - y - z)).
  pose proof (cu_opp (c - x - y - z)).
  replace (x + y + z - c) with (- (c - x - y - z)) by ring.
  replace (- (c - x - y - z) - x) with (- (c - y - z)) by ring.
  replace (- (c - x - y - z) - y) with (- (c - x - z)) by ring.
  replace (- (c - x - y - z) - z) with (- (c - x - y)) by ring.
  replace (- (c - y - z) - y) with (- (c - z)) by ring.
  replace (- (c - y - z) - z) with (- (c - y)) by ring.
  replace (- (c - x - z) - z) with (- (c - x)) by ring.
  replace (- (c - z) - z) with (- c) by ring.
  assert (cu (-c) = cu c - c*c*c) as -> by lra.
  assert (cu (-(c-x)) = cu (c-x) - (c-x)*(c-x)*(c-x)) as -> by lra.
  assert (cu (-(c-y)) = cu (c-y) - (c-y)*(c-y)*(c-y)) as -> by lra.
  assert (cu (-(c-z)) = cu (c-z) - (c-z)*(c-z)*(c-z)) as -> by lra.
  assert (cu (-(c-x-y)) = cu (c-x-y) - (c-x-y)*(c-x-y)*(c-x-y)) as -> by lra.
  assert (cu (-(c-x-z)) = cu (c-x-z) - (c-x-z)*(c-x-z)*(c-x-z)) as -> by lra.
  assert (cu (-(c-y-z)) = cu (c-y-z) - (c-y-z)*(c-y-z)*(c-y-z)) as -> by lra.
  assert (cu (-(c-x-y-z)) = cu (c-x-y-z) - (c-x-y-z)*(c-x-y-z)*(c-x-y-z)) as -> by lra.
  field. auto.
Qed.

Lemma area2_compl : forall x y c, x <> 0 -> y <> 0 ->
  area2 x y c + area2 x y (x + y - c) = 1.
Proof.
  intros. unfold area2.
  pose proof (sq_opp c). pose proof (sq_opp (c - x)). pose proof (sq_opp (c - y)).
  pose proof (sq_opp (c - x - y)).
  replace (x + y - c) with (- (c - x - y)) by ring.
  replace (- (c - x - y) - x) with (- (c - y)) by ring.
  replace (- (c - x - y) - y) with (- (c - x)) by ring.
  replace (- (c - y) - y) with (- c) by ring.
  assert (sq (-c) = c*c - sq c) as -> by lra.
  assert (sq (-(c-x)) = (c-x)*(c-x) - sq (c-x)) as -> by lra.
  assert (sq (-(c-y)) = (c-y)*(c-y) - sq (c-y)) as -> by lra.
  assert (sq (-(c-x-y)) = (c-x-y)*(c-x-y) - sq (c-x-y)) as -> by lra.
  field. auto.
Qed.

Lemma seg_compl : forall x c, x <> 0 ->
  (pos c - pos (c - x)) / x + (pos (x - c) - pos (x - c - x)) / x = 1.
Proof.
  intros. replace (x - c - x) with (- c) by ring.
  assert (E : forall t, pos t - pos (- t) = t).
  { intros. destruct (Rle_dec 0 t); [rewrite (pos_ge t), (pos_le (-t)) by lra|rewrite (pos_le t), (pos_ge (-t)) by lra]; ring. }
  pose proof (E c). pose proof (E (c - x)) as E2. replace (- (c - x)) with (x - c) in E2 by ring.
  assert (pos (-c) = pos c - c) as -> by lra.
  assert (pos (x-c) = pos (c-x) - (c-x)) as -> by lra. field. auto.
Qed.

Lemma vol3_neg : forall x y z c, 0 < x -> 0 < y -> 0 < z -> c <= 0 -> vol3 x y z c = 0.
Proof. intros. unfold vol3. rewrite !cu_le by lra. field. repeat split; lra. Qed.
Lemma area2_neg : forall x y c, 0 < x -> 0 < y -> c <= 0 -> area2 x y c = 0.
Proof. intros. unfold area2. rewrite !sq_le by lra. field. repeat split; lra. Qed.

(** Volume on ordered coefficients, some of which may vanish. *)
Definition usorted (b1 b2 b3 a : R) : R :=
  if Req_EM_T b1 0 then
    if Req_EM_T b2 0 then (pos a - pos (a - b3)) / b3 else area2 b2 b3 a
  else vol3 b1 b2 b3 a.

Lemma usorted_compl : forall b1 b2 b3 a, 0 <= b1 <= b2 -> b2 <= b3 -> b1 + b2 + b3 = 1 ->
  usorted b1 b2 b3 a + usorted b1 b2 b3 (1 - a) = 1.
Proof.
  intros b1 b2 b3 a H1 H2 Hs. unfold usorted.
  destruct (Req_EM_T b1 0); [destruct (Req_EM_T b2 0)|].
  - replace (1 - a) with (b3 - a) by lra. apply seg_compl. lra.
  - replace (1 - a) with (b2 + b3 - a) by lra. apply area2_compl; lra.
  - replace (1 - a) with (b1 + b2 + b3 - a) by lra. apply vol3_compl; lra.
Qed.
Lemma usorted_neg : forall b1 b2 b3 a, 0 <= b1 <= b2 -> b2 <= b3 -> b1 + b2 + b3 = 1 ->
  a <= 0 -> usorted b1 b2 b3 a = 0.
Proof.
  intros b1 b2 b3 a H1 H2 Hs Ha. unfold usorted.
  destruct (Req_EM_T b1 0); [destruct (Req_EM_T b2 0)|].
  - rewrite !pos_le by lra. field; lra.
  - apply area2_neg; lra.
  - apply vol3_neg; lra.
Qed.
Lemma usorted_big : forall b1 b2 b3 a, 0 <= b1 <= b2 -> b2 <= b3 -> b1 + b2 + b3 = 1 ->
  1 <= a -> usorted b1 b2 b3 a = 1.
Proof.
  intros b1 b2 b3 a H1 H2 Hs Ha. pose proof (usorted_compl b1 b2 b3 a H1 H2 Hs).
  rewrite (usorted_neg b1 b2 b3 (1 - a)) in H by (auto; lra). lra.
Qed.

(** The code's five branches. *)
Lemma lower_volume_usorted : forall e b1 b2 b3 a,
  0 <= e -> 0 <= b1 <= b2 -> b2 <= b3 -> b1 + b2 + b3 = 1 -> 0 <= a <= /2 ->
  usorted b1 b2 b3 a - e / 4 <= lower_volume e b1 b2 b3 a <= usorted b1 b2 b3 a /\
  (e = 0 -> lower_volume e b1 b2 b3 a = usorted b1 b2 b3 a).
Proof.
  intros e b1 b2 b3 a He H1 H2 Hs Ha.
  assert (K : forall l u : R, l = u -> (u - e/4 <= l <= u) /\ (e = 0 -> l = u)) by (intros; lra).
  unfold lower_volume. rcase.
  2:{ apply K. rewrite usorted_neg; auto; lra. }
  rcase.
  - (* a < b1 *)
    apply K. unfold usorted. destruct (Req_EM_T b1 0); [lra|].
    unfold vol3. rewrite (cu_ge a), (cu_le (a - b1)), (cu_le (a - b2)), (cu_le (a - b3)),
      (cu_le (a - b1 - b2)), (cu_le (a - b1 - b3)), (cu_le (a - b2 - b3)), (cu_le (a - b1 - b2 - b3)) by lra.
    field. repeat split; lra.
  - rcase.
    + (* b1 <= a < b2 *)
      unfold usorted. destruct (Req_EM_T b1 0) as [Hz|Hz].
      * destruct (Req_EM_T b2 0); [lra|]. apply K. subst b1. unfold area2.
        rewrite (sq_ge a), (sq_le (a - b2)), (sq_le (a - b3)), (sq_le (a - b2 - b3)) by lra.
        unfold Rdiv. rewrite Rmult_0_l. rewrite Rmult_0_l. field. split; lra.
      * assert (E : vol3 b1 b2 b3 a = a * (a - b1) / (2 * b2 * b3) + b1 * b1 / (6 * b2 * b3)).
        { unfold vol3. rewrite (cu_ge a), (cu_ge (a - b1)), (cu_le (a - b2)), (cu_le (a - b3)),
            (cu_le (a - b1 - b2)), (cu_le (a - b1 - b3)), (cu_le (a - b2 - b3)), (cu_le (a - b1 - b2 - b3)) by lra.
          field. repeat split; lra. }
        rewrite E.
        assert (Hd : 0 < 6 * b2 * b3) by (assert (0 < b2 * b3) by (apply Rmult_lt_0_compat; lra); lra).
        set (D := 6 * b2 * b3) in *.
        assert (Hdiff : b1 * b1 / D - b1 * b1 / (D + e) = (b1 * b1) * e / (D * (D + e))).
        { field. split; lra. }
        assert (Hnn : 0 <= (b1 * b1) * e / (D * (D + e))).
        { apply Rmult_le_pos; [apply Rmult_le_pos; nra|]. left. apply Rinv_0_lt_compat. apply Rmult_lt_0_compat; lra. }
        assert (Hub : (b1 * b1) * e / (D * (D + e)) <= e / 4).
        { apply Rmult_le_reg_r with (D * (D + e)); [apply Rmult_lt_0_compat; lra|].
          replace (b1 * b1 * e / (D * (D + e)) * (D * (D + e))) with (b1 * b1 * e)
            by (field; split; lra).
          assert (b1 * b1 <= b2 * b2) by nra.
          assert (/3 <= b3) by lra.
          assert (HD2 : 2 * b2 <= D) by (unfold D; nra).
          assert (4 * (b2 * b2) <= D * D) by nra.
          assert (D * D <= D * (D + e)) by nra.
          assert (4 * (b1 * b1) <= D * (D + e)) by lra.
          assert (0 <= (D * (D + e) - 4 * (b1 * b1)) * e) by (apply Rmult_le_pos; lra).
          lra. }
        split.
        { split; lra. }
        intros ->. replace (D + 0) with D by ring. reflexivity.
    + rewrite rmin_Rmin. rcase.
      * (* third branch *)
        apply K.
        assert (a < b1 + b2) by (eapply Rlt_le_trans; [exact C2|apply Rmin_l]).
        assert (a < b3) by (eapply Rlt_le_trans; [exact C2|apply Rmin_r]).
        unfold usorted. destruct (Req_EM_T b1 0); [lra|].
        unfold vol3. rewrite (cu_ge a), (cu_ge (a - b1)), (cu_ge (a - b2)), (cu_le (a - b3)),
          (cu_le (a - b1 - b2)), (cu_le (a - b1 - b3)), (cu_le (a - b2 - b3)), (cu_le (a - b1 - b2 - b3)) by lra.
        field. repeat split; lra.
      * rcase.
        -- (* b3 < b12, b3 <= a *)
           apply K.
           assert (b3 <= a).
           { destruct (Rle_dec (b1 + b2) b3); [lra|]. rewrite Rmin_right in C2 by lra. lra. }
           unfold usorted. destruct (Req_EM_T b1 0); [lra|].
           unfold vol3. rewrite (cu_ge a), (cu_ge (a - b1)), (cu_ge (a - b2)), (cu_ge (a - b3)),
             (cu_le (a - b1 - b2)), (cu_le (a - b1 - b3)), (cu_le (a - b2 - b3)), (cu_le (a - b1 - b2 - b3)) by lra.
           replace b3 with (1 - b1 - b2) by lra. field. repeat split; lra.
        -- (* b12 <= b3, b12 <= a *)
           apply K.
           assert (b1 + b2 <= a) by (rewrite Rmin_left in C2 by lra; lra).
           unfold usorted. destruct (Req_EM_T b1 0); [destruct (Req_EM_T b2 0)|].
           ++ subst. rewrite (pos_ge a), (pos_le (a - b3)) by lra. field. lra.
           ++ subst. unfold area2. rewrite (sq_ge a), (sq_ge (a - b2)), (sq_le (a - b3)), (sq_le (a - b2 - b3)) by lra.
              field. split; lra.
           ++ unfold vol3. rewrite (cu_ge a), (cu_ge (a - b1)), (cu_ge (a - b2)), (cu_le (a - b3)),
                (cu_ge (a - b1 - b2)), (cu_le (a - b1 - b3)), (cu_le (a - b2 - b3)), (cu_le (a - b1 - b2 - b3)) by lra.
              field. repeat split; lra.
Qed.

(** The complete function, from the normalised offset on. *)
Definition clipped_volume (e b1 b2 b3 x : R) : R :=
  let al := rmax 0 (rmin 1 x) in
  let v := lower_volume e b1 b2 b3 (rmin al (1 - al)) in
  if Rleb al (/2) then v else 1 - v.

Lemma clipped_volume_usorted : forall e b1 b2 b3 x,
  0 <= e -> 0 <= b1 <= b2 -> b2 <= b3 -> b1 + b2 + b3 = 1 ->
  Rabs (clipped_volume e b1 b2 b3 x - usorted b1 b2 b3 x) <= e / 4.
Proof.
  intros e b1 b2 b3 x He H1 H2 Hs. unfold clipped_volume. rewrite rmax_Rmax, !rmin_Rmin.
  set (al := Rmax 0 (Rmin 1 x)).
  assert (Hal : 0 <= al <= 1).
  { unfold al. split; [apply Rmax_l|]. apply Rmax_lub; [lra|apply Rmin_l]. }
  assert (E : usorted b1 b2 b3 x = usorted b1 b2 b3 al).
  { unfold al. destruct (Rle_dec x 0).
    - rewrite Rmin_right, Rmax_left by lra. rewrite !usorted_neg; auto; lra.
    - destruct (Rle_dec 1 x).
      + rewrite Rmin_left, Rmax_right by lra. rewrite !usorted_big; auto; lra.
      + rewrite Rmin_right, Rmax_right by lra. reflexivity. }
  rewrite E. clearbody al. rcase.
  - rewrite Rmin_left by lra.
    destruct (lower_volume_usorted e b1 b2 b3 al) as [L _]; auto; [lra|].
    apply Rabs_le. lra.
  - rewrite Rmin_right by lra.
    destruct (lower_volume_usorted e b1 b2 b3 (1 - al)) as [L _]; auto; [lra|].
    pose proof (usorted_compl b1 b2 b3 al H1 H2 Hs). apply Rabs_le. lra.
Qed.
