From Verif Require Import BaseFacts Interp InterpSpec.
From Coq Require Import Setoid Qabs Arith PeanoNat ZifyBool ZifyNat.
Local Open Scope Q_scope.

Lemma rd_at l i a : at_ l i a -> rd l i = Ret a.
Proof. unfold at_, rd. intros ->. reflexivity. Qed.

Lemma at_lt l i : (i < length l)%nat -> exists a, at_ l i a.
Proof. intro H. unfold at_. destruct (nth_error l i) eqn:E; [eauto|]. apply nth_error_None in E. lia. Qed.

Lemma at_len l i a : at_ l i a -> (i < length l)%nat.
Proof. unfold at_. intro H. apply nth_error_Some. congruence. Qed.

Lemma at_fun l i a b : at_ l i a -> at_ l i b -> a = b.
Proof. unfold at_. congruence. Qed.

Lemma increasing_nondec l : increasing l -> nondecreasing l.
Proof.
  intros H i j a b Hij Ha Hb. destruct (Nat.eq_dec i j) as [->|N].
  - rewrite (at_fun _ _ _ _ Ha Hb). lra.
  - apply Qlt_le_weak. apply (H i j a b); [lia|assumption|assumption].
Qed.

(** Leftmost interval: j = 0 or the entry is strictly below the query. *)
Definition left_ok (l : list Q) (j : nat) (x : Q) : Prop :=
  j = 0%nat \/ exists a, at_ l j a /\ a < x.
Definition right_ok (l : list Q) (j : nat) (x : Q) : Prop :=
  j = length l \/ exists b, at_ l j b /\ x <= b.

Lemma bracket_unique l x j1 j2 :
  nondecreasing l -> left_ok l j1 x -> left_ok l j2 x ->
  (exists b, at_ l (S j1) b /\ x <= b) -> (exists b, at_ l (S j2) b /\ x <= b) -> j1 = j2.
Proof.
  intros Hs L1 L2 (b1 & B1 & X1) (b2 & B2 & X2).
  destruct (Nat.lt_trichotomy j1 j2) as [H|[H|H]]; [exfalso|exact H|exfalso].
  - destruct L2 as [->|(a & A & Y)]; [lia|]. assert (b1 <= a) by (apply (Hs (S j1) j2); auto). lra.
  - destruct L1 as [->|(a & A & Y)]; [lia|]. assert (b2 <= a) by (apply (Hs (S j2) j1); auto). lra.
Qed.

Lemma div2_between il ir : (1 < ir - il)%nat -> (il < Nat.div2 (il + ir) < ir)%nat
  /\ (ir - Nat.div2 (il + ir) <= Nat.div2 (ir - il + 1))%nat
  /\ (Nat.div2 (il + ir) - il <= Nat.div2 (ir - il + 1))%nat.
Proof.
  intro H. rewrite !Nat.div2_div.
  pose proof (Nat.div_mod (il + ir) 2 ltac:(lia)). pose proof (Nat.mod_upper_bound (il + ir) 2 ltac:(lia)).
  pose proof (Nat.div_mod (ir - il + 1) 2 ltac:(lia)). pose proof (Nat.mod_upper_bound (ir - il + 1) 2 ltac:(lia)). lia.
Qed.

Lemma bisect_spec xs x xl : nondecreasing xs -> at_ xs 0 xl -> xl <= x ->
  forall fuel il ir pr,
  (il < ir)%nat -> (ir <= length xs)%nat -> (ir - il <= fuel + 1)%nat ->
  left_ok xs il x -> right_ok xs ir x ->
  exists j n, bisect_loop fuel xs x xl il ir pr = Ret (j, (pr + n)%nat)
    /\ (il <= j < ir)%nat /\ left_ok xs j x /\ right_ok xs (S j) x
    /\ forall k, (ir - il <= 2 ^ k)%nat -> (n <= k)%nat.
Proof.
  intros Hs H0 Hx. induction fuel as [|fuel IH]; intros il ir pr Hlt Hle Hf HL HR.
  - cbn [bisect_loop]. assert (E : (1 <? ir - il)%nat = false) by lia. rewrite E.
    exists il, 0%nat. rewrite Nat.add_0_r. split; [reflexivity|]. split; [lia|]. split; [exact HL|].
    split; [replace (S il) with ir by lia; exact HR|]. intros; lia.
  - cbn [bisect_loop]. destruct (1 <? ir - il)%nat eqn:E.
    2:{ exists il, 0%nat. rewrite Nat.add_0_r. split; [reflexivity|]. split; [lia|]. split; [exact HL|].
        split; [replace (S il) with ir by lia; exact HR|]. intros; lia. }
    assert (E' : (1 < ir - il)%nat) by lia.
    destruct (div2_between il ir E') as (M1 & M2 & M3). set (mid := Nat.div2 (il + ir)) in *.
    destruct (at_lt xs mid) as [xm Hm]; [lia|]. rewrite (rd_at _ _ _ Hm). cbn [obind].
    assert (Half : forall w k, (w <= Nat.div2 (ir - il + 1))%nat -> (ir - il <= 2 ^ S k)%nat -> (w <= 2 ^ k)%nat).
    { intros w k Hw Hk. rewrite Nat.div2_div in Hw.
      pose proof (Nat.div_mod (ir - il + 1) 2 ltac:(lia)). pose proof (Nat.mod_upper_bound (ir - il + 1) 2 ltac:(lia)).
      cbn [Nat.pow] in Hk. lia. }
    destruct (Qleb ((x - xm) * (x - xl)) 0) eqn:Ec.
    + destruct (IH il mid (S pr)) as (j & n & R1 & R2 & R3 & R4 & R5); try lia; [exact HL| |].
      { right. exists xm. split; [exact Hm|]. apply Qleb_true in Ec.
        destruct (Qlt_le_dec xm x) as [G|G]; [|exact G].
        assert (xl <= xm) by (apply (Hs 0%nat mid); auto; lia).
        destruct (Qlt_le_dec xl x) as [G2|G2]; [|lra].
        assert (0 < (x - xm) * (x - xl)) by (apply Qmult_lt_0_compat; lra). lra. }
      exists j, (S n). rewrite R1. split; [f_equal; f_equal; lia|]. split; [lia|]. split; [exact R3|].
      split; [exact R4|]. intros k Hk. destruct k as [|k]; [cbn in Hk; lia|].
      assert (n <= k)%nat; [|lia]. apply R5. apply Half; [lia|exact Hk].
    + destruct (IH mid ir (S pr)) as (j & n & R1 & R2 & R3 & R4 & R5); try lia; [|exact HR|].
      { right. exists xm. split; [exact Hm|]. apply Qleb_false in Ec.
        destruct (Qlt_le_dec xm x) as [G|G]; [exact G|].
        assert (0 <= (xm - x) * (x - xl)) by (apply Qmult_le_0_compat; lra). lra. }
      exists j, (S n). rewrite R1. split; [f_equal; f_equal; lia|]. split; [lia|]. split; [exact R3|].
      split; [exact R4|]. intros k Hk. destruct k as [|k]; [cbn in Hk; lia|].
      assert (n <= k)%nat; [|lia]. apply R5. apply Half; [lia|exact Hk].
Qed.

(** Classification of a query. *)
Inductive query (xs : list Q) (x : Q) : index -> Prop :=
| Qshort : (length xs < 2)%nat -> query xs x (mkIndex 0 LOWLIM)
| Qlow a : (2 <= length xs)%nat -> at_ xs 0 a -> x < a -> query xs x (mkIndex 0 LOWLIM)
| Qup a b : (2 <= length xs)%nat -> at_ xs 0 a -> a <= x -> at_ xs (length xs - 1) b -> b < x ->
    query xs x (mkIndex (length xs - 1) UPLIM)
| Qin a b : (2 <= length xs)%nat -> at_ xs 0 a -> a <= x -> at_ xs (length xs - 1) b -> x <= b ->
    query xs x (mkIndex 0 VALID).

Lemma check_bounds_spec xs x : exists i, check_bounds xs x = Ret i /\ query xs x i.
Proof.
  unfold check_bounds. destruct (length xs <? 2)%nat eqn:E; [eexists; split; [reflexivity|constructor; lia]|].
  destruct (at_lt xs 0) as [a Ha]; [lia|]. rewrite (rd_at _ _ _ Ha). cbn [obind].
  destruct (Qltb x a) eqn:E1; [apply Qltb_true in E1; eexists; split; [reflexivity|eapply Qlow; eauto; lia]|].
  destruct (at_lt xs (length xs - 1)) as [b Hb]; [lia|]. rewrite (rd_at _ _ _ Hb). cbn [obind].
  apply Qltb_false in E1.
  destruct (Qltb b x) eqn:E2; [apply Qltb_true in E2 | apply Qltb_false in E2];
    (eexists; split; [reflexivity|]); [eapply Qup|eapply Qin]; eauto; lia.
Qed.

Lemma bisection_valid xs x a b :
  nondecreasing xs -> (2 <= length xs)%nat -> at_ xs 0 a -> a <= x -> at_ xs (length xs - 1) b -> x <= b ->
  exists j n, bisection_search_probes xs x = Ret (mkIndex j VALID, n)
   /\ (S j < length xs)%nat /\ left_ok xs j x /\ (exists c, at_ xs (S j) c /\ x <= c)
   /\ forall k, (length xs <= 2 ^ k)%nat -> (n <= k)%nat.
Proof.
  intros Hs Hl Ha Hax Hb Hxb. unfold bisection_search_probes.
  destruct (check_bounds_spec xs x) as (i & Ei & Hq). rewrite Ei. cbn [obind].
  inversion Hq as [H|a' H H1 H2|a' b' H H1 H2 H3 H4|a' b' H H1 H2 H3 H4]; subst; cbn [lim ix].
  - lia.
  - rewrite (at_fun _ _ _ _ H1 Ha) in *. lra.
  - rewrite (at_fun _ _ _ _ H3 Hb) in *. lra.
  - rewrite (rd_at _ _ _ Ha). cbn [obind].
    destruct (bisect_spec xs x a Hs Ha Hax (length xs) 0 (length xs) 0) as (j & n & R1 & R2 & R3 & R4 & R5);
      try lia; [left; reflexivity|left; reflexivity|].
    rewrite R1. cbn [obind fst snd].
    assert (Hj : (S j < length xs)%nat).
    { destruct (Nat.eq_dec (S j) (length xs)) as [E|E]; [|lia]. exfalso.
      destruct R3 as [->|(c & C & Cx)]; [lia|]. replace j with (length xs - 1)%nat in C by lia.
      rewrite (at_fun _ _ _ _ C Hb) in *. lra. }
    exists j, n. split; [reflexivity|]. split; [exact Hj|]. split; [exact R3|]. split.
    + destruct R4 as [E|R4]; [lia|exact R4].
    + intros k Hk. apply R5. lia.
Qed.

Lemma left_ok_le xs j x a : at_ xs 0 a -> a <= x -> left_ok xs j x -> exists c, at_ xs j c /\ c <= x.
Proof.
  intros Ha Hax [->|(c & C & Cx)]; [exists a; auto|exists c; split; [exact C|lra]].
Qed.

(** *** C14 *)
Lemma bisection_total xs x : nondecreasing xs ->
  exists i n, bisection_search_probes xs x = Ret (i, n)
    /\ (forall k, (length xs <= 2 ^ k)%nat -> (n <= k)%nat)
    /\ ((length xs < 2)%nat -> i = mkIndex 0 LOWLIM)
    /\ (forall a, (2 <= length xs)%nat -> at_ xs 0 a -> x < a -> i = mkIndex 0 LOWLIM)
    /\ (forall a b, (2 <= length xs)%nat -> at_ xs 0 a -> a <= x -> at_ xs (length xs - 1) b ->
         (b < x -> i = mkIndex (length xs - 1) UPLIM)
         /\ (x <= b -> lim i = VALID /\ brackets xs (ix i) x)).
Proof.
  intro Hs. unfold bisection_search_probes.
  destruct (check_bounds_spec xs x) as (i & Ei & Hq).
  inversion Hq as [H|a' H H1 H2|a' b' H H1 H2 H3 H4|a' b' H H1 H2 H3 H4]; subst.
  - rewrite Ei. cbn. eexists _, _. split; [reflexivity|]. split; [intros; lia|]. split; [reflexivity|].
    split; [reflexivity|]. intros; lia.
  - rewrite Ei. cbn. eexists _, _. split; [reflexivity|]. split; [intros; lia|]. split; [intros; reflexivity|].
    split; [intros; reflexivity|]. intros a b _ A Hax _. rewrite (at_fun _ _ _ _ A H1) in *. lra.
  - rewrite Ei. cbn. eexists _, _. split; [reflexivity|]. split; [intros; lia|]. split; [intros; lia|].
    split; [intros a _ A Hax; rewrite (at_fun _ _ _ _ A H1) in *; lra|].
    intros a b _ A Hax B. split; [reflexivity|]. rewrite (at_fun _ _ _ _ B H3) in *. intro; lra.
  - destruct (bisection_valid xs x a' b' Hs H H1 H2 H3 H4) as (j & n & R1 & R2 & R3 & R4 & R5).
    unfold bisection_search_probes in R1. exists (mkIndex j VALID), n.
    split; [exact R1|]. split; [exact R5|]. split; [intros; lia|].
    split; [intros a _ A Hax; rewrite (at_fun _ _ _ _ A H1) in *; lra|].
    intros a b _ A Hax B. rewrite (at_fun _ _ _ _ B H3) in *. split; [intro; lra|].
    intros _. cbn [lim ix]. split; [reflexivity|].
    destruct (left_ok_le _ _ _ _ H1 H2 R3) as (c & C & Cx). destruct R4 as (d & D & Dx).
    exists c, d. auto.
Qed.

Lemma find_from_spec xs x b : at_ xs (length xs - 1) b -> x <= b ->
  forall fuel i, (1 <= i)%nat -> (i < length xs)%nat -> (length xs - i <= fuel)%nat ->
  exists k, find_from fuel xs x i = Ret (k - 1)%nat /\ (i <= k < length xs)%nat
    /\ (exists c, at_ xs k c /\ x <= c) /\ forall m c, (i <= m < k)%nat -> at_ xs m c -> c < x.
Proof.
  intros Hb Hxb. induction fuel as [|fuel IH]; intros i Hi Hl Hf; [lia|].
  cbn [find_from]. assert (E : (i <? length xs)%nat = true) by lia. rewrite E.
  destruct (at_lt xs i Hl) as [a Ha]. rewrite (rd_at _ _ _ Ha). cbn [obind].
  destruct (Qleb x a) eqn:Ex.
  - apply Qleb_true in Ex. exists i. split; [reflexivity|]. split; [lia|]. split; [eauto|]. intros; lia.
  - apply Qleb_false in Ex.
    assert (Hne : i <> (length xs - 1)%nat).
    { intro Ee. rewrite Ee in Ha. rewrite (at_fun _ _ _ _ Ha Hb) in *. lra. }
    destruct (IH (S i)) as (k & K1 & K2 & K3 & K4); try lia.
    exists k. split; [exact K1|]. split; [lia|]. split; [exact K3|].
    intros m c Hm Hc. destruct (Nat.eq_dec m i) as [->|N]; [rewrite (at_fun _ _ _ _ Hc Ha); exact Ex|].
    apply (K4 m c); [lia|exact Hc].
Qed.

Lemma find_index_valid xs x a b hint :
  (2 <= length xs)%nat -> at_ xs 0 a -> a <= x -> at_ xs (length xs - 1) b -> x <= b ->
  (1 <= hint < length xs)%nat ->
  exists j, find_index xs x hint = Ret (mkIndex j VALID) /\ (hint - 1 <= j)%nat /\ (S j < length xs)%nat
    /\ (j = (hint - 1)%nat \/ exists c, at_ xs j c /\ c < x)
    /\ exists c, at_ xs (S j) c /\ x <= c.
Proof.
  intros Hl Ha Hax Hb Hxb Hh. unfold find_index.
  destruct (check_bounds_spec xs x) as (i & Ei & Hq). rewrite Ei. cbn [obind].
  inversion Hq as [H|a' H H1 H2|a' b' H H1 H2 H3 H4|a' b' H H1 H2 H3 H4]; subst; cbn [lim ix].
  - lia.
  - rewrite (at_fun _ _ _ _ H1 Ha) in *. lra.
  - rewrite (at_fun _ _ _ _ H3 Hb) in *. lra.
  - destruct (find_from_spec xs x b Hb Hxb (length xs) hint) as (k & K1 & K2 & K3 & K4); try lia.
    rewrite K1. cbn [obind]. exists (k - 1)%nat. split; [reflexivity|]. split; [lia|]. split; [lia|]. split.
    + destruct (Nat.eq_dec k hint) as [->|N]; [left; reflexivity|right].
      destruct (at_lt xs (k - 1)) as [d Hd]; [lia|]. exists d. split; [exact Hd|].
      apply (K4 (k - 1)%nat); [lia|exact Hd].
    + replace (S (k - 1)) with k by lia. exact K3.
Qed.

Lemma find_index_brackets xs x a b c hint :
  at_ xs 0 a -> a <= x -> at_ xs (length xs - 1) b -> x <= b ->
  (1 <= hint < length xs)%nat -> at_ xs (hint - 1) c -> c <= x ->
  exists j, find_index xs x hint = Ret (mkIndex j VALID) /\ (hint - 1 <= j)%nat /\ brackets xs j x.
Proof.
  intros Ha Hax Hb Hxb Hh C Cx.
  destruct (find_index_valid xs x a b hint) as (j & J1 & J2 & J3 & J4 & d & D & Dx); auto; [lia|].
  exists j. split; [exact J1|]. split; [exact J2|].
  destruct J4 as [->|(e & E & Ex)]; [exists c, d; auto|exists e, d]. repeat split; auto. lra.
Qed.

(** Out-of-range queries do not depend on the hint. *)
Lemma find_index_out xs x hint i n : nondecreasing xs ->
  bisection_search_probes xs x = Ret (i, n) -> lim i <> VALID -> find_index xs x hint = Ret i.
Proof.
  intros Hs H Hv. unfold bisection_search_probes in H. unfold find_index.
  destruct (check_bounds xs x) as [[j []]| |]; cbn [obind lim] in *; try (injection H as <- _; reflexivity); try discriminate.
  destruct (rd xs 0); cbn [obind] in H; try discriminate.
  destruct (bisect_loop _ _ _ _ _ _ _); cbn [obind] in H; try discriminate.
  injection H as <- _. cbn in Hv. congruence.
Qed.

Lemma nearest_spec xs x a b :
  nondecreasing xs -> (2 <= length xs)%nat -> at_ xs 0 a -> a <= x -> at_ xs (length xs - 1) b -> x <= b ->
  exists j c, nearest_search xs x = Ret (mkIndex j VALID) /\ at_ xs j c
    /\ forall k d, at_ xs k d -> Qabs (x - c) <= Qabs (x - d).
Proof.
  intros Hs Hl Ha Hax Hb Hxb.
  destruct (bisection_valid xs x a b Hs Hl Ha Hax Hb Hxb) as (j & n & R1 & R2 & R3 & (u & U & Ux) & R5).
  destruct (left_ok_le _ _ _ _ Ha Hax R3) as (l & L & Lx).
  unfold nearest_search, bisection_search. rewrite R1. cbn [obind fst lim ix].
  rewrite (rd_at _ _ _ L). cbn [obind]. replace (j + 1)%nat with (S j) by lia. rewrite (rd_at _ _ _ U). cbn [obind].
  assert (Far : forall k d, at_ xs k d -> d <= l \/ u <= d).
  { intros k d D. destruct (Nat.le_gt_cases k j) as [G|G]; [left; apply (Hs k j); auto|right; apply (Hs (S j) k); auto]. }
  destruct (Qltb (u - x) (x - l)) eqn:E; [apply Qltb_true in E|apply Qltb_false in E].
  - exists (S j), u. split; [reflexivity|]. split; [exact U|]. intros k d D.
    rewrite (Qabs_neg (x - u)) by lra. destruct (Far k d D).
    + rewrite Qabs_pos by lra. lra.
    + rewrite Qabs_neg by lra. lra.
  - exists j, l. split; [reflexivity|]. split; [exact L|]. intros k d D.
    rewrite (Qabs_pos (x - l)) by lra. destruct (Far k d D).
    + rewrite Qabs_pos by lra. lra.
    + rewrite Qabs_neg by lra. lra.
Qed.
