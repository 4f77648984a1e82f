From Coq Require Import Setoid Qabs Arith PeanoNat ZifyBool ZifyNat Morphisms.
From Verif Require Import BaseFacts Interp InterpSpec InterpProofs.
Local Open Scope Q_scope.

(** Interpolation weight of the right node. *)
Definition wgt (x0 x1 x : Q) : Q := if Qltb feps (x1 - x0) then (x - x0) / (x1 - x0) else 1.

Lemma feps_pos : 0 < feps. Proof. reflexivity. Qed.

Lemma wgt_range x0 x1 x : x0 <= x -> x <= x1 -> 0 <= wgt x0 x1 x /\ wgt x0 x1 x <= 1.
Proof.
  intros H0 H1. unfold wgt. destruct (Qltb feps (x1 - x0)) eqn:E; [|split; lra].
  apply Qltb_true in E. assert (P := feps_pos). split.
  - apply Qdiv_nonneg; lra.
  - apply Qle_shift_div_r; lra.
Qed.

Lemma wgt_eq x0 x1 x : feps < x1 - x0 -> wgt x0 x1 x * (x1 - x0) == x - x0.
Proof.
  intro H. unfold wgt. assert (E : Qltb feps (x1 - x0) = true) by (apply Qltb_true; exact H).
  rewrite E. assert (P := feps_pos). field. lra.
Qed.

Lemma wgt_right x0 x1 : wgt x0 x1 x1 == 1.
Proof.
  unfold wgt. destruct (Qltb feps (x1 - x0)) eqn:E; [|reflexivity]. apply Qltb_true in E.
  assert (P := feps_pos). field. lra.
Qed.

Lemma wgt_left x0 x1 : feps < x1 - x0 -> wgt x0 x1 x0 == 0.
Proof.
  intro H. unfold wgt. assert (E : Qltb feps (x1 - x0) = true) by (apply Qltb_true; exact H).
  rewrite E. assert (P := feps_pos). field. lra.
Qed.

Lemma comp_read (ys : list Q) ncomp comp k n :
  length ys = (ncomp * n)%nat -> (comp < ncomp)%nat -> (k < n)%nat -> exists y, at_ ys (ncomp * k + comp) y.
Proof. intros Hl Hc Hk. apply at_lt. rewrite Hl. nia. Qed.

Lemma bisection_search_valid xs x a b :
  nondecreasing xs -> (2 <= length xs)%nat -> at_ xs 0 a -> a <= x -> at_ xs (length xs - 1) b -> x <= b ->
  exists j, bisection_search xs x = Ret (mkIndex j VALID)
   /\ (S j < length xs)%nat /\ left_ok xs j x /\ (exists c, at_ xs (S j) c /\ x <= c).
Proof.
  intros Hs Hl Ha Hax Hb Hxb.
  destruct (bisection_valid xs x a b Hs Hl Ha Hax Hb Hxb) as (j & n & R1 & R2 & R3 & R4 & _).
  exists j. unfold bisection_search. rewrite R1. cbn. auto.
Qed.

Lemma linear_valid xs ys x ncomp comp a b :
  nondecreasing xs -> (2 <= length xs)%nat -> at_ xs 0 a -> a <= x -> at_ xs (length xs - 1) b -> x <= b ->
  length ys = (ncomp * length xs)%nat -> (comp < ncomp)%nat ->
  exists j x0 x1 y0 y1, at_ xs j x0 /\ at_ xs (S j) x1
    /\ at_ ys (ncomp * j + comp) y0 /\ at_ ys (ncomp * S j + comp) y1
    /\ x0 <= x /\ x <= x1 /\ left_ok xs j x
    /\ linear xs ys x ncomp comp = Ret ((1 - wgt x0 x1 x) * y0 + wgt x0 x1 x * y1).
Proof.
  intros Hs Hl Ha Hax Hb Hxb Hy Hc.
  destruct (bisection_search_valid xs x a b Hs Hl Ha Hax Hb Hxb) as (j & R1 & R2 & R3 & (x1 & X1 & X1x)).
  destruct (left_ok_le _ _ _ _ Ha Hax R3) as (x0 & X0 & X0x).
  destruct (comp_read ys ncomp comp j _ Hy Hc) as [y0 Y0]; [lia|].
  destruct (comp_read ys ncomp comp (S j) _ Hy Hc) as [y1 Y1]; [lia|].
  exists j, x0, x1, y0, y1.
  split; [exact X0|]. split; [exact X1|]. split; [exact Y0|]. split; [exact Y1|].
  split; [exact X0x|]. split; [exact X1x|]. split; [exact R3|].
  unfold linear. rewrite R1. cbn [obind]. unfold linear_impl. cbn [lim ix].
  replace (j + 1)%nat with (S j) by lia.
  rewrite (rd_at _ _ _ X1), (rd_at _ _ _ X0). cbn [obind].
  rewrite (rd_at _ _ _ Y0), (rd_at _ _ _ Y1). cbn [obind]. reflexivity.
Qed.

Lemma linear_low xs ys x ncomp comp y :
  at_ ys comp y -> (length xs < 2)%nat \/ (exists a, at_ xs 0 a /\ x < a) ->
  linear xs ys x ncomp comp = Ret y.
Proof.
  intros Hy H. unfold linear, bisection_search, bisection_search_probes.
  destruct (check_bounds_spec xs x) as (i & Ei & Hq). rewrite Ei. cbn [obind].
  assert (G : i = mkIndex 0 LOWLIM).
  { inversion Hq as [K|a' K H1 H2|a' b' K H1 H2 H3 H4|a' b' K H1 H2 H3 H4]; subst; try reflexivity;
    destruct H as [H|(a & A & Ax)]; try lia; rewrite (at_fun _ _ _ _ A H1) in *; lra. }
  subst i. cbn. replace (ncomp * 0)%nat with 0%nat by lia. apply rd_at. exact Hy.
Qed.

Lemma linear_up xs ys x ncomp comp a b y :
  (2 <= length xs)%nat -> at_ xs 0 a -> a <= x -> at_ xs (length xs - 1) b -> b < x ->
  at_ ys (ncomp * (length xs - 1) + comp) y -> linear xs ys x ncomp comp = Ret y.
Proof.
  intros Hl Ha Hax Hb Hbx Hy. unfold linear, bisection_search, bisection_search_probes.
  destruct (check_bounds_spec xs x) as (i & Ei & Hq). rewrite Ei. cbn [obind].
  inversion Hq as [K|a' K H1 H2|a' b' K H1 H2 H3 H4|a' b' K H1 H2 H3 H4]; subst.
  - lia.
  - rewrite (at_fun _ _ _ _ H1 Ha) in *. lra.
  - cbn. apply rd_at. exact Hy.
  - rewrite (at_fun _ _ _ _ H3 Hb) in *. lra.
Qed.

Lemma linear_total xs ys x ncomp comp :
  nondecreasing xs -> xs <> [] -> length ys = (ncomp * length xs)%nat -> (comp < ncomp)%nat ->
  exists v, linear xs ys x ncomp comp = Ret v.
Proof.
  intros Hs Hne Hy Hc.
  assert (Hl : (1 <= length xs)%nat) by (destruct xs; [congruence|cbn; lia]).
  destruct (at_lt xs 0) as [a Ha]; [lia|].
  destruct (at_lt xs (length xs - 1)) as [b Hb]; [lia|].
  destruct (Nat.lt_ge_cases (length xs) 2) as [G|G].
  { destruct (comp_read ys ncomp comp 0 _ Hy Hc) as [y Y]; [lia|]. exists y. apply linear_low; [|left; exact G].
    replace comp with (ncomp * 0 + comp)%nat by lia. exact Y. }
  destruct (Qlt_le_dec x a) as [L|L].
  { destruct (comp_read ys ncomp comp 0 _ Hy Hc) as [y Y]; [lia|]. exists y. apply linear_low; [|right; eauto].
    replace comp with (ncomp * 0 + comp)%nat by lia. exact Y. }
  destruct (Qlt_le_dec b x) as [U|U].
  { destruct (comp_read ys ncomp comp (length xs - 1) _ Hy Hc) as [y Y]; [lia|]. exists y. eapply linear_up; eauto. }
  destruct (linear_valid xs ys x ncomp comp a b Hs G Ha L Hb U Hy Hc) as (j & x0 & x1 & y0 & y1 & _ & _ & _ & _ & _ & _ & _ & E).
  eauto.
Qed.

Lemma conv_between w y0 y1 : 0 <= w -> w <= 1 ->
  qmin y0 y1 <= (1 - w) * y0 + w * y1 /\ (1 - w) * y0 + w * y1 <= qmax y0 y1.
Proof.
  intros H0 H1. destruct (qmin_spec y0 y1) as [[A1 A2] _]. destruct (qmax_spec y0 y1) as [[B1 B2] _].
  assert (0 <= (1 - w) * (y0 - qmin y0 y1)) by (apply Qmult_le_0_compat; lra).
  assert (0 <= w * (y1 - qmin y0 y1)) by (apply Qmult_le_0_compat; lra).
  assert (0 <= (1 - w) * (qmax y0 y1 - y0)) by (apply Qmult_le_0_compat; lra).
  assert (0 <= w * (qmax y0 y1 - y1)) by (apply Qmult_le_0_compat; lra).
  split; lra.
Qed.

Lemma range_of_node xs k x : nondecreasing xs -> (2 <= length xs)%nat -> at_ xs k x ->
  exists a b, at_ xs 0 a /\ a <= x /\ at_ xs (length xs - 1) b /\ x <= b.
Proof.
  intros Hs Hl Hk. assert (Hlt := at_len _ _ _ Hk).
  destruct (at_lt xs 0) as [a Ha]; [lia|]. destruct (at_lt xs (length xs - 1)) as [b Hb]; [lia|].
  exists a, b. split; [exact Ha|]. split; [apply (Hs 0%nat k); auto; lia|].
  split; [exact Hb|]. apply (Hs k (length xs - 1)%nat); auto; lia.
Qed.

Lemma linear_node xs ys ncomp comp k x y :
  increasing xs -> (2 <= length xs)%nat -> length ys = (ncomp * length xs)%nat -> (comp < ncomp)%nat ->
  at_ xs k x -> at_ ys (ncomp * k + comp) y ->
  (k = 0%nat -> forall a b, at_ xs 0 a -> at_ xs 1 b -> feps < b - a) ->
  exists v, linear xs ys x ncomp comp = Ret v /\ v == y.
Proof.
  intros Hi Hl Hy Hc Hk Hyk Hsp. assert (Hs := increasing_nondec _ Hi).
  destruct (range_of_node xs k x Hs Hl Hk) as (a & b & Ha & Hax & Hb & Hxb).
  destruct (linear_valid xs ys x ncomp comp a b Hs Hl Ha Hax Hb Hxb Hy Hc)
    as (j & x0 & x1 & y0 & y1 & X0 & X1 & Y0 & Y1 & L & R & Lo & E).
  eexists. split; [exact E|].
  destruct (Nat.lt_trichotomy k j) as [G|[G|G]].
  - assert (x < x0) by (apply (Hi k j); auto). lra.
  - subst k. assert (x0 = x) by (eapply at_fun; eauto). subst x0.
    destruct Lo as [->|(c & C & Cx)].
    + assert (y0 = y) by (eapply at_fun; eauto). subst y0.
      rewrite (wgt_left x x1); [ring|]. apply Hsp; auto.
    + assert (c = x) by (eapply at_fun; eauto). subst. lra.
  - destruct (Nat.eq_dec k (S j)) as [->|N].
    + assert (x1 = x) by (eapply at_fun; eauto). assert (y1 = y) by (eapply at_fun; eauto). subst.
      rewrite wgt_right. ring.
    + assert (x1 < x) by (apply (Hi (S j) k); auto; lia). lra.
Qed.

Lemma linear_affine xs ys x ncomp comp a b c m :
  nondecreasing xs -> spaced xs -> (2 <= length xs)%nat ->
  length ys = (ncomp * length xs)%nat -> (comp < ncomp)%nat ->
  at_ xs 0 a -> a <= x -> at_ xs (length xs - 1) b -> x <= b ->
  (forall k xk yk, at_ xs k xk -> at_ ys (ncomp * k + comp) yk -> yk == c + m * xk) ->
  exists v, linear xs ys x ncomp comp = Ret v /\ v == c + m * x.
Proof.
  intros Hs Hsp Hl Hy Hc Ha Hax Hb Hxb Hf.
  destruct (linear_valid xs ys x ncomp comp a b Hs Hl Ha Hax Hb Hxb Hy Hc)
    as (j & x0 & x1 & y0 & y1 & X0 & X1 & Y0 & Y1 & L & R & Lo & E).
  eexists. split; [exact E|]. rewrite (Hf _ _ _ X0 Y0), (Hf _ _ _ X1 Y1).
  assert (W := wgt_eq x0 x1 x (Hsp _ _ _ X0 X1)). set (w := wgt x0 x1 x) in *.
  assert (Z : (1 - w) * (c + m * x0) + w * (c + m * x1) == c + m * (x0 + w * (x1 - x0))) by ring.
  rewrite Z, W. ring.
Qed.

(** *** C16 *)
Definition hint_ok (xs : list Q) (x : Q) (hint : nat) : Prop :=
  (1 <= hint)%nat /\ (hint = 1%nat \/ ((hint < length xs)%nat /\ exists c, at_ xs (hint - 1) c /\ c < x)).

Lemma find_eq_bisect xs x hint i :
  nondecreasing xs -> (lim i = VALID -> hint_ok xs x hint) ->
  bisection_search xs x = Ret i -> find_index xs x hint = Ret i.
Proof.
  intros Hs Hh Hb. unfold bisection_search in Hb.
  destruct (bisection_search_probes xs x) as [[i' n]| |] eqn:Ep; cbn in Hb; try discriminate.
  injection Hb as ->.
  destruct (lim i) eqn:Ei; [eapply find_index_out; eauto; congruence | eapply find_index_out; eauto; congruence |].
  assert (Hr : exists a b, (2 <= length xs)%nat /\ at_ xs 0 a /\ a <= x /\ at_ xs (length xs - 1) b /\ x <= b).
  { unfold bisection_search_probes in Ep.
    destruct (check_bounds_spec xs x) as (i0 & Ec & Hq). rewrite Ec in Ep. cbn [obind] in Ep.
    inversion Hq as [K|a' K H1 H2|a' b' K H1 H2 H3 H4|a' b' K H1 H2 H3 H4]; subst; cbn in Ep;
      try (injection Ep as <- _; discriminate). exists a', b'. auto. }
  destruct Hr as (a & b & Hl & Ha & Hax & Hb & Hxb).
  destruct (bisection_valid xs x a b Hs Hl Ha Hax Hb Hxb) as (j & n' & R1 & R2 & R3 & R4 & _).
  rewrite R1 in Ep. injection Ep as <- _. cbn [lim] in *.
  destruct (Hh eq_refl) as [H1 H2].
  destruct (find_index_valid xs x a b hint Hl Ha Hax Hb Hxb) as (k & K1 & K2 & K3 & K4 & K5).
  { destruct H2 as [->|[H2 _]]; lia. }
  rewrite K1. f_equal. f_equal.
  apply (bracket_unique xs x); auto.
  destruct K4 as [->|K4]; [|right; exact K4].
  destruct H2 as [->|(_ & c & C & Cx)]; [left; reflexivity|right; eauto].
Qed.

Lemma bisection_ret xs x : nondecreasing xs -> exists i, bisection_search xs x = Ret i.
Proof.
  intro Hs. destruct (bisection_total xs x Hs) as (i & n & E & _). exists i. unfold bisection_search. rewrite E. reflexivity.
Qed.

(** What the previous query tells about the next hint. *)
Lemma next_hint xs x x' i : nondecreasing xs -> x <= x' -> bisection_search xs x = Ret i ->
  forall i', bisection_search xs x' = Ret i' -> lim i' = VALID -> hint_ok xs x' (ix i + 1).
Proof.
  intros Hs Hx Hb i' Hb' Hv.
  unfold bisection_search in Hb, Hb'.
  destruct (bisection_search_probes xs x) as [[i1 n]| |] eqn:Ep; cbn in Hb; try discriminate. injection Hb as ->.
  destruct (bisection_search_probes xs x') as [[i2 n']| |] eqn:Ep'; cbn in Hb'; try discriminate. injection Hb' as ->.
  assert (Hr : exists a b, (2 <= length xs)%nat /\ at_ xs 0 a /\ a <= x' /\ at_ xs (length xs - 1) b /\ x' <= b).
  { unfold bisection_search_probes in Ep'.
    destruct (check_bounds_spec xs x') as (i0 & Ec & Hq). rewrite Ec in Ep'. cbn [obind] in Ep'.
    inversion Hq as [K|a' K H1 H2|a' b' K H1 H2 H3 H4|a' b' K H1 H2 H3 H4]; subst; cbn in Ep';
      try (injection Ep' as <- _; discriminate). exists a', b'. auto. }
  destruct Hr as (a & b & Hl & Ha & Hax & Hb & Hxb).
  destruct (bisection_total xs x Hs) as (i3 & n3 & E3 & _ & T1 & T2 & T3). rewrite E3 in Ep. injection Ep as -> _.
  destruct (Qlt_le_dec x a) as [G|G].
  { rewrite (T2 a Hl Ha G). split; cbn; [lia|left; reflexivity]. }
  destruct (bisection_valid xs x a b Hs Hl Ha G Hb) as (j & m & R1 & R2 & R3 & R4 & _); [lra|].
  rewrite R1 in E3. injection E3 as <- _. cbn [ix]. split; [lia|].
  destruct R3 as [->|(c & C & Cx)]; [left; reflexivity|right]. split; [lia|].
  exists c. replace (j + 1 - 1)%nat with j by lia. split; [exact C|lra].
Qed.

Lemma monotonic_from xs ys ncomp comp : nondecreasing xs ->
  forall xout hint, nondecreasing_list xout ->
  (forall x r i, xout = x :: r -> bisection_search xs x = Ret i -> lim i = VALID -> hint_ok xs x hint) ->
  linear_monotonic_from hint xs ys xout ncomp comp = linear_list xs ys xout ncomp comp.
Proof.
  intro Hs. induction xout as [|x r IH]; intros hint Hnd Hh; [reflexivity|].
  cbn [linear_monotonic_from linear_list]. unfold linear.
  destruct (bisection_ret xs x Hs) as [i Ei]. rewrite Ei. cbn [obind].
  rewrite (find_eq_bisect xs x hint i Hs); [|intro Hv; eapply Hh; eauto|exact Ei]. cbn [obind].
  destruct (linear_impl xs ys x i ncomp comp); cbn [obind]; try reflexivity.
  rewrite IH; [reflexivity| |].
  - destruct Hnd as [_ Hnd]. exact Hnd.
  - intros x' r' i' -> Hb Hv. destruct Hnd as [Hx _]. eapply next_hint; eauto.
Qed.

Lemma monotonic_eq xs ys xout ncomp comp : nondecreasing xs -> nondecreasing_list xout ->
  linear_monotonic xs ys xout ncomp comp = linear_list xs ys xout ncomp comp.
Proof.
  intros Hs Hnd. apply monotonic_from; auto. intros. split; [lia|left; reflexivity].
Qed.

(** *** C17 *)
Lemma inject_Z_minus a b : inject_Z (a - b) == inject_Z a - inject_Z b.
Proof. unfold Z.sub. rewrite inject_Z_plus, inject_Z_opp. reflexivity. Qed.

Lemma qtrunc_spec x : exists k : Z, qtrunc x = inject_Z k /\
  (0 <= x -> inject_Z k <= x /\ x < inject_Z k + 1) /\ (x < 0 -> x <= inject_Z k /\ inject_Z k - 1 < x).
Proof.
  unfold qtrunc. destruct (Qltb x 0) eqn:E; [apply Qltb_true in E|apply Qltb_false in E].
  - exists (- Qfloor (- x))%Z. split; [unfold qfloor; rewrite <- inject_Z_opp; reflexivity|]. split; [intro; lra|].
    intros _. rewrite inject_Z_opp. assert (A := qfloor_le (- x)). assert (B := qfloor_lt (- x)).
    unfold qfloor in *. lra.
  - exists (Qfloor x). split; [reflexivity|]. split; [|intro; lra]. intros _.
    assert (A := qfloor_le x). assert (B := qfloor_lt x). unfold qfloor in *. lra.
Qed.

Lemma fmod_spec a u : 0 < u -> exists k : Z, fmod a u == a - inject_Z k * u
  /\ (0 <= a -> 0 <= fmod a u /\ fmod a u < u) /\ (a < 0 -> - u < fmod a u /\ fmod a u <= 0).
Proof.
  intro Hu. unfold fmod. destruct (qtrunc_spec (a / u)) as (k & -> & P & N). exists k.
  assert (E : a == a / u * u) by (field; lra).
  split; [ring|]. split; intro Ha.
  - destruct P as [P1 P2]; [apply Qdiv_nonneg; lra|].
    assert (inject_Z k * u <= a / u * u) by (apply Qmult_le_compat_r; lra).
    assert (a / u * u < (inject_Z k + 1) * u) by (apply Qmult_lt_r; lra). split; lra.
  - destruct N as [N1 N2].
    { apply Qlt_shift_div_r; lra. }
    assert (a / u * u <= inject_Z k * u) by (apply Qmult_le_compat_r; lra).
    assert ((inject_Z k - 1) * u < a / u * u) by (apply Qmult_lt_r; lra). split; lra.
Qed.

Lemma angle_step_spec u d : 0 < u ->
  eqmod u (angle_step u d) d /\ - (1 # 2) * u <= angle_step u d /\ angle_step u d < (1 # 2) * u.
Proof.
  intro Hu. unfold angle_step.
  destruct (fmod_spec d u Hu) as (k1 & E1 & P1 & N1).
  set (f := fmod d u) in *.
  assert (Hf : - u < f /\ f < u).
  { destruct (Qlt_le_dec d 0) as [G|G]; [destruct (N1 G)|destruct (P1 G)]; split; lra. }
  destruct (fmod_spec (f + (3 # 2) * u) u Hu) as (k2 & E2 & P2 & _).
  destruct P2 as [P2 P3]; [lra|]. split; [|split; lra].
  exists (1 - k1 - k2)%Z. rewrite !inject_Z_minus. rewrite E2, E1. change (inject_Z 1) with 1. ring.
Qed.

Lemma int_between k u : 0 < u -> - u < inject_Z k * u -> inject_Z k * u < u -> k = 0%Z.
Proof.
  intros Hu L R. assert (A : inject_Z (-1) < inject_Z k) by (change (inject_Z (-1)) with (-1 # 1); nra).
  assert (B : inject_Z k < inject_Z 1) by (change (inject_Z 1) with 1; nra).
  rewrite <- Zlt_Qlt in A, B. lia.
Qed.

Lemma angle_step_unique u d e : 0 < u -> eqmod u d e -> angle_step u d == angle_step u e.
Proof.
  intros Hu (k & Hk). destruct (angle_step_spec u d Hu) as ((k1 & A) & A1 & A2).
  destruct (angle_step_spec u e Hu) as ((k2 & B) & B1 & B2).
  assert (E : angle_step u d - angle_step u e == inject_Z (k1 + k - k2) * u).
  { rewrite A, B, Hk. rewrite inject_Z_minus, inject_Z_plus. ring. }
  assert (Z0 : (k1 + k - k2 = 0)%Z) by (apply (int_between _ u Hu); lra).
  rewrite Z0 in E. change (inject_Z 0) with 0 in E. lra.
Qed.

Definition awgt (x0 x1 x : Q) : Q := if Qltb feps (x1 - x0) then (x - x0) / (x1 - x0) else 0.

Lemma angle_valid xs ys x u a b :
  nondecreasing xs -> (2 <= length xs)%nat -> at_ xs 0 a -> a <= x -> at_ xs (length xs - 1) b -> x <= b ->
  length ys = length xs ->
  exists j x0 x1 y0 y1, at_ xs j x0 /\ at_ xs (S j) x1 /\ at_ ys j y0 /\ at_ ys (S j) y1
    /\ x0 <= x /\ x <= x1 /\ left_ok xs j x
    /\ linear_angle xs ys x u = Ret (y0 + angle_step u (y1 - y0) * awgt x0 x1 x).
Proof.
  intros Hs Hl Ha Hax Hb Hxb Hy.
  destruct (bisection_search_valid xs x a b Hs Hl Ha Hax Hb Hxb) as (j & R1 & R2 & R3 & (x1 & X1 & X1x)).
  destruct (left_ok_le _ _ _ _ Ha Hax R3) as (x0 & X0 & X0x).
  destruct (at_lt ys j) as [y0 Y0]; [lia|]. destruct (at_lt ys (S j)) as [y1 Y1]; [lia|].
  exists j, x0, x1, y0, y1.
  split; [exact X0|]. split; [exact X1|]. split; [exact Y0|]. split; [exact Y1|].
  split; [exact X0x|]. split; [exact X1x|]. split; [exact R3|].
  unfold linear_angle. rewrite R1. cbn [obind lim ix]. replace (j + 1)%nat with (S j) by lia.
  rewrite (rd_at _ _ _ X1), (rd_at _ _ _ X0). cbn [obind].
  rewrite (rd_at _ _ _ Y0), (rd_at _ _ _ Y1). cbn [obind]. reflexivity.
Qed.

Lemma angle_out xs ys x u i : bisection_search xs x = Ret i -> lim i <> VALID ->
  linear_angle xs ys x u = rd ys (ix i).
Proof.
  intros H Hv. unfold linear_angle. rewrite H. cbn [obind]. destruct (lim i); [reflexivity|reflexivity|congruence].
Qed.

Lemma angle_arc xs ys x u a b :
  0 < u -> nondecreasing xs -> spaced xs -> (2 <= length xs)%nat -> length ys = length xs ->
  at_ xs 0 a -> a <= x -> at_ xs (length xs - 1) b -> x <= b ->
  exists j x0 x1 y0 y1 d v, at_ xs j x0 /\ at_ xs (S j) x1 /\ at_ ys j y0 /\ at_ ys (S j) y1
    /\ x0 <= x /\ x <= x1
    /\ linear_angle xs ys x u = Ret v
    /\ - (1 # 2) * u <= d /\ d < (1 # 2) * u /\ eqmod u (y0 + d) y1
    /\ v == y0 + d * ((x - x0) / (x1 - x0)).
Proof.
  intros Hu Hs Hsp Hl Hy Ha Hax Hb Hxb.
  destruct (angle_valid xs ys x u a b Hs Hl Ha Hax Hb Hxb Hy) as (j & x0 & x1 & y0 & y1 & X0 & X1 & Y0 & Y1 & L & R & Lo & E).
  destruct (angle_step_spec u (y1 - y0) Hu) as ((k & K) & B1 & B2).
  exists j, x0, x1, y0, y1, (angle_step u (y1 - y0)). eexists.
  split; [exact X0|]. split; [exact X1|]. split; [exact Y0|]. split; [exact Y1|].
  split; [exact L|]. split; [exact R|]. split; [exact E|].
  split; [exact B1|]. split; [exact B2|]. split; [exists k; rewrite K; ring|].
  unfold awgt. assert (E1 : Qltb feps (x1 - x0) = true) by (apply Qltb_true; apply (Hsp j); auto).
  rewrite E1. reflexivity.
Qed.

Lemma angle_node xs ys k x y u :
  0 < u -> increasing xs -> spaced xs -> (2 <= length xs)%nat -> length ys = length xs ->
  at_ xs k x -> at_ ys k y -> exists v, linear_angle xs ys x u = Ret v /\ eqmod u v y.
Proof.
  intros Hu Hi Hsp Hl Hy Hk Hyk. assert (Hs := increasing_nondec _ Hi).
  destruct (range_of_node xs k x Hs Hl Hk) as (a & b & Ha & Hax & Hb & Hxb).
  destruct (angle_arc xs ys x u a b Hu Hs Hsp Hl Hy Ha Hax Hb Hxb)
    as (j & x0 & x1 & y0 & y1 & d & v & X0 & X1 & Y0 & Y1 & L & R & E & D1 & D2 & D3 & V).
  exists v. split; [exact E|]. assert (P := feps_pos). assert (Sp := Hsp _ _ _ X0 X1).
  destruct (Nat.lt_trichotomy k j) as [G|[G|G]].
  - assert (x < x0) by (apply (Hi k j); auto). lra.
  - subst k. assert (x0 = x) by (eapply at_fun; eauto). assert (y0 = y) by (eapply at_fun; eauto). subst.
    exists 0%Z. rewrite V. change (inject_Z 0) with 0. field. lra.
  - destruct (Nat.eq_dec k (S j)) as [->|N].
    + assert (x1 = x) by (eapply at_fun; eauto). assert (y1 = y) by (eapply at_fun; eauto). subst.
      destruct D3 as (m & D3). exists m. rewrite V, <- D3. field. lra.
    + assert (x1 < x) by (apply (Hi (S j) k); auto; lia). lra.
Qed.

(** Whole periods added to table values. *)
Lemma angle_periods xs ys ys' x u :
  0 < u -> nondecreasing xs -> length ys = length xs -> length ys' = length xs -> xs <> [] ->
  (forall k y y', at_ ys k y -> at_ ys' k y' -> eqmod u y' y) ->
  exists v v', linear_angle xs ys x u = Ret v /\ linear_angle xs ys' x u = Ret v' /\ eqmod u v' v.
Proof.
  intros Hu Hs Hy Hy' Hne Hm.
  destruct (bisection_ret xs x Hs) as [i Ei].
  destruct (bisection_total xs x Hs) as (i2 & n & E2 & _ & T1 & T2 & T3).
  unfold bisection_search in Ei. rewrite E2 in Ei. injection Ei as ->.
  assert (Ei : bisection_search xs x = Ret i) by (unfold bisection_search; rewrite E2; reflexivity).
  assert (Hl : (1 <= length xs)%nat) by (destruct xs; [congruence|cbn; lia]).
  destruct (at_lt xs 0) as [a Ha]; [lia|]. destruct (at_lt xs (length xs - 1)) as [b Hb]; [lia|].
  assert (Out : lim i <> VALID -> (ix i < length xs)%nat ->
    exists v v', linear_angle xs ys x u = Ret v /\ linear_angle xs ys' x u = Ret v' /\ eqmod u v' v).
  { intros Hv Hlt. destruct (at_lt ys (ix i)) as [y Y]; [lia|]. destruct (at_lt ys' (ix i)) as [y' Y']; [lia|].
    exists y, y'. rewrite !(angle_out xs _ x u i Ei Hv), (rd_at _ _ _ Y), (rd_at _ _ _ Y').
    split; [reflexivity|]. split; [reflexivity|]. eapply Hm; eauto. }
  destruct (Nat.lt_ge_cases (length xs) 2) as [G|G].
  { assert (Z0 := T1 G). subst i. apply Out; cbn; [discriminate|lia]. }
  destruct (Qlt_le_dec x a) as [L|L].
  { assert (Z0 := T2 a G Ha L). subst i. apply Out; cbn; [discriminate|lia]. }
  destruct (Qlt_le_dec b x) as [U|U].
  { destruct (T3 a b G Ha L Hb) as [T3' _]. assert (Z0 := T3' U). subst i. apply Out; cbn; [discriminate|lia]. }
  destruct (angle_valid xs ys x u a b Hs G Ha L Hb U Hy) as (j & x0 & x1 & y0 & y1 & X0 & X1 & Y0 & Y1 & A1 & A2 & Lo & E).
  destruct (angle_valid xs ys' x u a b Hs G Ha L Hb U Hy') as (j' & x0' & x1' & y0' & y1' & X0' & X1' & Y0' & Y1' & A1' & A2' & Lo' & E').
  assert (j' = j) by (apply (bracket_unique xs x); eauto). subst j'.
  assert (x0' = x0) by (eapply at_fun; eauto). assert (x1' = x1) by (eapply at_fun; eauto). subst.
  eexists. eexists. split; [exact E|]. split; [exact E'|].
  destruct (Hm _ _ _ Y0 Y0') as (k0 & K0). destruct (Hm _ _ _ Y1 Y1') as (k1 & K1).
  exists k0. rewrite (angle_step_unique u (y1' - y0') (y1 - y0) Hu).
  - rewrite K0. ring.
  - exists (k1 - k0)%Z. rewrite K0, K1, inject_Z_minus. ring.
Qed.
