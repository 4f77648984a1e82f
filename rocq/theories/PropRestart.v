(** C44: checkpoint headers and restart on a replicated domain. *)
From Coq Require Import String QArith Qabs Lqa Floats.SpecFloat ZifyBool.
From Verif Require Import BoxR BoxRFacts Restart.
Local Open Scope Z_scope.

(** *** Header round trip *)
Lemma get_line_map qs r : get_line (map TQ qs ++ TNL :: r) = (map TQ qs, r).
Proof. induction qs as [|q qs IH]; cbn; [reflexivity|]. rewrite IH. reflexivity. Qed.
Lemma words_map qs : words_real (map TQ qs) = Ret qs.
Proof. induction qs as [|q qs IH]; cbn; [reflexivity|]. rewrite IH. reflexivity. Qed.
Lemma rd_corner_ok qs r : List.length qs = 3%nat -> rd_corner (map TQ qs ++ TNL :: r) = Ret (qs, r).
Proof. intros H. unfold rd_corner. rewrite get_line_map, words_map. cbn [obind]. rewrite H. reflexivity. Qed.
Lemma rd_boxes_ok ba r : forall s, skip_ws s = skip_ws (flat_map (fun b => [TB b; TNL]) ba ++ r) ->
  exists s', rd_boxes (List.length ba) s = Ret (ba, s') /\ skip_ws s' = skip_ws r.
Proof.
  induction ba as [|b ba IH]; intros s H; cbn [List.length rd_boxes].
  - exists s. split; [reflexivity|exact H].
  - rewrite H. cbn [flat_map app skip_ws]. destruct (IH (TNL :: flat_map (fun b => [TB b; TNL]) ba ++ r) eq_refl) as (s' & E & W).
    rewrite E. exists s'. split; [reflexivity|exact W].
Qed.
Lemma rd_ba_ok ba r : rd_ba (write_ba ba ++ r) = Ret (ba, r).
Proof.
  unfold write_ba, rd_ba. cbn [app skip_ws]. rewrite <- app_assoc, Nat2Z.id.
  destruct (rd_boxes_ok ba ([TW ")"] ++ r) (TNL :: flat_map (fun b => [TB b; TNL]) ba ++ [TW ")"] ++ r) eq_refl) as (s' & E & W).
  rewrite E. cbn [obind snd fst]. rewrite W. reflexivity.
Qed.
Lemma rd_levels_ok levels : forall ls r,
  rd_levels (List.length ls) (flat_map (fun lev => write_ba (nth (Z.to_nat lev) levels []) ++ [TNL]) ls ++ r) =
  Ret (map (fun lev => nth (Z.to_nat lev) levels []) ls, r).
Proof.
  induction ls as [|l ls IH]; intros r; [reflexivity|]. cbn [List.length rd_levels flat_map map]. rewrite <- !app_assoc.
  rewrite rd_ba_ok. cbn [obind fst snd app next_line]. rewrite IH. reflexivity.
Qed.
(** Reading what was written gives back every recorded quantity. *)
Theorem c44_header : forall step time dt nm1 nm2 lo hi levels s e,
  List.length lo = 3%nat -> List.length hi = 3%nat -> s <= e ->
  read_header (write_header step time dt nm1 nm2 lo hi levels s e) =
  Ret (Header (e - s) step time dt nm1 nm2 lo hi (map (fun lev => nth (Z.to_nat lev) levels []) (zrange s e))).
Proof.
  intros step time dt nm1 nm2 lo hi levels s e Hl Hh Hs. unfold write_header, read_header.
  cbn [app get_line snd rd_int rd_real skip_ws obind fst next_line].
  rewrite rd_corner_ok by exact Hl. cbn [obind snd fst]. rewrite rd_corner_ok by exact Hh. cbn [obind snd fst].
  pose proof (rd_levels_ok levels (zrange s e) []) as R. rewrite app_nil_r, length_zrange in R. rewrite R. reflexivity.
Qed.
(** A checkpoint of the whole mesh: all levels. *)
Lemma zrange_nth {A} (l : list A) (d : A) : map (fun lev => nth (Z.to_nat lev) l d) (zrange 0 (Z.of_nat (List.length l) - 1)) = l.
Proof.
  unfold zrange. rewrite map_map. replace (Z.to_nat (Z.of_nat (List.length l) - 1 - 0 + 1)) with (List.length l) by lia.
  apply (nth_ext _ _ d d); [rewrite map_length, seq_length; reflexivity|]. intros n Hn. rewrite map_length, seq_length in Hn.
  rewrite (nth_indep _ d (nth (Z.to_nat (0 + Z.of_nat 0)) l d)) by (rewrite map_length, seq_length; exact Hn).
  rewrite (map_nth (fun k => nth (Z.to_nat (0 + Z.of_nat k)) l d)), seq_nth by exact Hn. f_equal. lia.
Qed.
Theorem c44_header_all : forall step time dt nm1 nm2 lo hi levels,
  List.length lo = 3%nat -> List.length hi = 3%nat -> levels <> [] ->
  read_header (write_header step time dt nm1 nm2 lo hi levels 0 (last_level (Z.of_nat (List.length levels)) 0 (-1))) =
  Ret (Header (Z.of_nat (List.length levels) - 1) step time dt nm1 nm2 lo hi levels).
Proof.
  intros step time dt nm1 nm2 lo hi levels Hl Hh Hn. unfold last_level.
  assert (0 < Z.of_nat (List.length levels)) by (destruct levels; [congruence|cbn; lia]).
  change (-1 =? -1) with true. cbn iota. rewrite Z.max_l by lia.
  rewrite c44_header by (assumption || lia). rewrite zrange_nth, Z.sub_0_r. reflexivity.
Qed.

(** *** Replication *)
Definition inside (n c : ivec) : Prop := 0 <= iv0 c < iv0 n /\ 0 <= iv1 c < iv1 n /\ 0 <= iv2 c < iv2 n.
Definition positive (n : ivec) : Prop := 0 < iv0 n /\ 0 < iv1 n /\ 0 < iv2 n.
Definition ivscale (n : ivec) (k : Z) : ivec := IV (iv0 n * k) (iv1 n * k) (iv2 n * k).
Definition ivmul (a b : ivec) : ivec := IV (iv0 a * iv0 b) (iv1 a * iv1 b) (iv2 a * iv2 b).
Definition ivmod (c n : ivec) : ivec := IV (iv0 c mod iv0 n) (iv1 c mod iv1 n) (iv2 c mod iv2 n).
Definition size_at (n : ivec) (lev : nat) : ivec := ivscale n (2 ^ Z.of_nat lev).
Definition covered (ba : list box) (c : ivec) : Prop := exists b, In b ba /\ in_box b c.
(** No two boxes of the list share a cell. *)
Definition disjoint (ba : list box) : Prop := ForallOrdPairs (fun a b => forall c, ~ (in_box a c /\ in_box b c)) ba.

Lemma iv_eq a b : iv0 a = iv0 b -> iv1 a = iv1 b -> iv2 a = iv2 b -> a = b.
Proof. destruct a, b; cbn; intros; subst; reflexivity. Qed.
Lemma In_shifts rep len lev s : In s (shifts rep len lev) <->
  exists q, inside rep q /\ s = ivmul q (size_at len lev).
Proof.
  unfold shifts. rewrite in_flat_map. split.
  - intros (k & Hk & H). apply in_flat_map in H. destruct H as (j & Hj & H). apply in_map_iff in H. destruct H as (i & <- & Hi).
    apply In_zrange in Hi, Hj, Hk. exists (IV i j k). split; [unfold inside; cbn; lia|]. apply iv_eq; cbn; ring.
  - intros ((i, j, k) & H & ->). unfold inside in H. cbn in H. exists k. split; [apply In_zrange; lia|].
    apply in_flat_map. exists j. split; [apply In_zrange; lia|]. apply in_map_iff. exists i. split; [|apply In_zrange; lia].
    apply iv_eq; cbn; ring.
Qed.
Lemma NoDup_shifts rep len lev : positive len -> NoDup (shifts rep len lev).
Proof.
  intros (P0 & P1 & P2). assert (P : 0 < 2 ^ Z.of_nat lev) by (apply Z.pow_pos_nonneg; lia).
  assert (Inj : forall a b l, 0 < l -> a * l * 2 ^ Z.of_nat lev = b * l * 2 ^ Z.of_nat lev -> a = b).
  { intros a b l Hl E. apply Z.mul_reg_r in E; [|lia]. apply Z.mul_reg_r in E; lia. }
  unfold shifts. apply NoDup_flat_map; [apply NoDup_zrange| |].
  - intros k _. apply NoDup_flat_map; [apply NoDup_zrange| |].
    + intros j _. apply FinFun.Injective_map_NoDup; [|apply NoDup_zrange]. intros x y E. injection E as E. apply (Inj _ _ _ P0 E).
    + intros x y z _ _ I J. apply in_map_iff in I, J. destruct I as (? & <- & _), J as (? & E & _). injection E as _ E. apply (Inj _ _ _ P1). congruence.
  - intros x y z _ _ I J. apply in_flat_map in I, J. destruct I as (? & _ & I), J as (? & _ & J). apply in_map_iff in I, J.
    destruct I as (? & <- & _), J as (? & E & _). injection E as _ _ E. apply (Inj _ _ _ P2). congruence.
Qed.
Lemma in_bshift b s c : in_box (bshift b s) c <-> in_box b (ivsub c s).
Proof. unfold in_box, bshift, ivadd, ivsub. cbn. split; lia. Qed.
Lemma div_unique_range q l c : 0 < l -> 0 <= c - q * l < l -> q = c / l /\ c - q * l = c mod l.
Proof.
  intros Hl H. assert (E : q = c / l) by (apply (Z.div_unique_pos c l q (c - q * l)); lia). split; [exact E|].
  apply (Z.mod_unique_pos c l q (c - q * l)); lia.
Qed.
Lemma shift_unique rep L c q : positive L -> inside L (ivsub c (ivmul q L)) -> inside rep q ->
  inside (ivmul rep L) c /\ ivsub c (ivmul q L) = ivmod c L /\ q = IV (iv0 c / iv0 L) (iv1 c / iv1 L) (iv2 c / iv2 L).
Proof.
  intros (P0 & P1 & P2) (H0 & H1 & H2) (R0 & R1 & R2). cbn in *.
  destruct (div_unique_range (iv0 q) (iv0 L) (iv0 c) P0 H0) as (A0 & B0).
  destruct (div_unique_range (iv1 q) (iv1 L) (iv1 c) P1 H1) as (A1 & B1).
  destruct (div_unique_range (iv2 q) (iv2 L) (iv2 c) P2 H2) as (A2 & B2).
  assert (X : forall q l r x, 0 <= q < r -> 0 < l -> 0 <= x - q * l < l -> 0 <= x < r * l).
  { intros q' l r x Hq Hl Hx. assert (0 <= q' * l) by (apply Z.mul_nonneg_nonneg; lia).
    assert ((q' + 1) * l <= r * l) by (apply Z.mul_le_mono_nonneg_r; lia). lia. }
  split; [|split].
  - unfold inside, ivmul. cbn. repeat split.
    all: try (apply (X (iv0 q) (iv0 L) (iv0 rep)); assumption || lia).
    all: try (apply (X (iv1 q) (iv1 L) (iv1 rep)); assumption || lia).
    all: try (apply (X (iv2 q) (iv2 L) (iv2 rep)); assumption || lia).
  - apply iv_eq; cbn; assumption.
  - apply iv_eq; cbn; assumption.
Qed.
Lemma positive_size n lev : positive n -> positive (size_at n lev).
Proof.
  intros (A & B & C). assert (P : 0 < 2 ^ Z.of_nat lev) by (apply Z.pow_pos_nonneg; lia).
  unfold positive, size_at, ivscale. cbn. repeat split; apply Z.mul_pos_pos; assumption.
Qed.
Lemma inside_div rep L c : positive L -> inside (ivmul rep L) c ->
  inside rep (IV (iv0 c / iv0 L) (iv1 c / iv1 L) (iv2 c / iv2 L)) /\
  ivsub c (ivmul (IV (iv0 c / iv0 L) (iv1 c / iv1 L) (iv2 c / iv2 L)) L) = ivmod c L.
Proof.
  intros (P0 & P1 & P2) (H0 & H1 & H2). cbn in H0, H1, H2.
  assert (X : forall x l r, 0 < l -> 0 <= x < r * l -> 0 <= x / l < r).
  { intros x l r Hl Hx. split; [apply Z.div_pos; lia|]. apply Z.div_lt_upper_bound; lia. }
  split.
  - unfold inside. cbn. split; [apply (X _ _ _ P0 H0)|]. split; [apply (X _ _ _ P1 H1)|apply (X _ _ _ P2 H2)].
  - apply iv_eq; cbn.
    + rewrite (Z.mod_eq (iv0 c) (iv0 L)) by lia. ring.
    + rewrite (Z.mod_eq (iv1 c) (iv1 L)) by lia. ring.
    + rewrite (Z.mod_eq (iv2 c) (iv2 L)) by lia. ring.
Qed.
Lemma FOP_app {A} (R : A -> A -> Prop) l m : ForallOrdPairs R l -> ForallOrdPairs R m -> (forall a b, In a l -> In b m -> R a b) ->
  ForallOrdPairs R (l ++ m).
Proof.
  induction 1 as [|a l F H IH]; intros Hm C; cbn; [exact Hm|]. constructor.
  - apply Forall_app. split; [exact F|]. apply Forall_forall. intros b Hb. apply C; [left; reflexivity|exact Hb].
  - apply IH; [exact Hm|]. intros x y Hx Hy. apply C; [right; exact Hx|exact Hy].
Qed.
Lemma FOP_flat_map {A B} (R : B -> B -> Prop) (f : A -> list B) l : NoDup l -> (forall x, In x l -> ForallOrdPairs R (f x)) ->
  (forall x y a b, In x l -> In y l -> x <> y -> In a (f x) -> In b (f y) -> R a b) -> ForallOrdPairs R (flat_map f l).
Proof.
  induction 1 as [|x l Hx N IH]; intros O C; cbn; [constructor|]. apply FOP_app.
  - apply O. left. reflexivity.
  - apply IH; [intros y Hy; apply O; right; exact Hy|]. intros y z a b Hy Hz. apply C; right; assumption.
  - intros a b Ha Hb. apply in_flat_map in Hb. destruct Hb as (y & Hy & Hb).
    apply (C x y); [left; reflexivity|right; exact Hy| |exact Ha|exact Hb]. intros ->. contradiction.
Qed.
Lemma FOP_map {A B} (R : B -> B -> Prop) (S : A -> A -> Prop) (f : A -> B) l : (forall a b, S a b -> R (f a) (f b)) ->
  ForallOrdPairs S l -> ForallOrdPairs R (map f l).
Proof.
  intros H. induction 1 as [|a l F O IH]; cbn; constructor; [|exact IH]. apply Forall_map. apply (Forall_impl _ (fun b => H a b) F).
Qed.
(** Boxes of a level inside the (refined) domain of the checkpoint are copied so that a
    cell of the enlarged domain is covered exactly if its image in the original domain
    is; disjoint boxes stay disjoint; there are as many copies as the replication factors
    say. *)
Theorem c44_replicate : forall rep n lev ba, positive n -> positive rep ->
  (forall b c, In b ba -> in_box b c -> inside (size_at n lev) c) ->
  (forall c, covered (replicate_boxes rep n lev ba) c <->
     inside (ivmul rep (size_at n lev)) c /\ covered ba (ivmod c (size_at n lev))) /\
  (disjoint ba -> disjoint (replicate_boxes rep n lev ba)) /\
  Z.of_nat (List.length (replicate_boxes rep n lev ba)) = iv0 rep * iv1 rep * iv2 rep * Z.of_nat (List.length ba).
Proof.
  intros rep n lev ba Pn Pr Hb. pose proof (positive_size n lev Pn) as PL. split; [|split].
  - intros c. unfold covered, replicate_boxes. split.
    + intros (b & Hin & Hc). apply in_flat_map in Hin. destruct Hin as (s & Hs & Hin). apply in_map_iff in Hin.
      destruct Hin as (b0 & <- & Hb0). apply in_bshift in Hc. apply In_shifts in Hs. destruct Hs as (q & Hq & ->).
      destruct (shift_unique rep _ c q PL (Hb b0 _ Hb0 Hc) Hq) as (I & E & _). split; [exact I|]. exists b0. rewrite <- E. tauto.
    + intros (I & b & Hin & Hc). destruct (inside_div rep _ c PL I) as (Q & E). rewrite <- E in Hc.
      eexists (bshift b _). split; [|apply in_bshift; exact Hc]. apply in_flat_map. eexists. split; [|apply in_map_iff; exists b; split; [reflexivity|exact Hin]].
      apply In_shifts. eexists. split; [exact Q|reflexivity].
  - intros D. unfold disjoint, replicate_boxes. apply FOP_flat_map; [apply NoDup_shifts; exact Pn| |].
    + intros s _. apply (FOP_map _ (fun a b => forall c, ~ (in_box a c /\ in_box b c))); [|exact D].
      intros a b H c (Ha & Hc). apply (H (ivsub c s)). split; apply in_bshift; assumption.
    + intros s t a b Hs Ht Ne Ha Hb' c (Ca & Cb). apply in_map_iff in Ha, Hb'. destruct Ha as (a0 & <- & Ha0). destruct Hb' as (b0 & <- & Hb0).
      apply in_bshift in Ca, Cb. apply In_shifts in Hs, Ht. destruct Hs as (p & Hp & ->). destruct Ht as (q & Hq & ->).
      destruct (shift_unique rep _ c p PL (Hb a0 _ Ha0 Ca) Hp) as (_ & _ & E1).
      destruct (shift_unique rep _ c q PL (Hb b0 _ Hb0 Cb) Hq) as (_ & _ & E2). apply Ne. congruence.
  - assert (FL : forall (A B : Type) (f : A -> list B) l k, (forall x, In x l -> List.length (f x) = k) ->
       Z.of_nat (List.length (flat_map f l)) = Z.of_nat (List.length l) * Z.of_nat k).
    { intros A B f l k. induction l as [|x l IH]; intros H; [reflexivity|]. cbn [flat_map List.length]. rewrite app_length, Nat2Z.inj_add.
      rewrite IH by (intros y Hy; apply H; right; exact Hy). rewrite (H x) by (left; reflexivity). lia. }
    unfold replicate_boxes. rewrite (FL _ _ _ _ (List.length ba)) by (intros s _; apply map_length).
    f_equal. unfold shifts. destruct Pr as (R0 & R1 & R2).
    set (N0 := List.length (zrange 0 (iv0 rep - 1))). set (N1 := List.length (zrange 0 (iv1 rep - 1))).
    assert (E0 : Z.of_nat N0 = iv0 rep) by (unfold N0; rewrite length_zrange; lia).
    assert (E1 : Z.of_nat N1 = iv1 rep) by (unfold N1; rewrite length_zrange; lia).
    assert (E2 : Z.of_nat (List.length (zrange 0 (iv2 rep - 1))) = iv2 rep) by (rewrite length_zrange; lia).
    rewrite (FL _ _ _ _ (N1 * N0)%nat).
    + rewrite E2, Nat2Z.inj_mul, E0, E1. ring.
    + intros k _. apply Nat2Z.inj. rewrite (FL _ _ _ _ N0) by (intros j _; apply map_length). fold N1. lia.
Qed.

(** *** Restart *)
Definition nonempty (b : box) : Prop := iv0 (blo b) <= iv0 (bhi b) /\ iv1 (blo b) <= iv1 (bhi b) /\ iv2 (blo b) <= iv2 (bhi b).
Definition whole (n : ivec) : box := Box (IV 0 0 0) (IV (iv0 n - 1) (iv1 n - 1) (iv2 n - 1)).
Definition le_iv (a b : ivec) : Prop := iv0 a <= iv0 b /\ iv1 a <= iv1 b /\ iv2 a <= iv2 b.
Lemma fold_hull_bounds r : forall b, let m := fold_left hull r b in
  (forall x, In x (b :: r) -> le_iv (blo m) (blo x) /\ le_iv (bhi x) (bhi m)) /\
  (exists x, In x (b :: r) /\ iv0 (blo x) = iv0 (blo m)) /\ (exists x, In x (b :: r) /\ iv1 (blo x) = iv1 (blo m)) /\
  (exists x, In x (b :: r) /\ iv2 (blo x) = iv2 (blo m)) /\ (exists x, In x (b :: r) /\ iv0 (bhi x) = iv0 (bhi m)) /\
  (exists x, In x (b :: r) /\ iv1 (bhi x) = iv1 (bhi m)) /\ (exists x, In x (b :: r) /\ iv2 (bhi x) = iv2 (bhi m)).
Proof.
  induction r as [|y r IH]; intros b; cbn [fold_left].
  - cbn. unfold le_iv. split; [intros x [<-|[]]; lia|]. repeat split; exists b; (split; [left; reflexivity|reflexivity]).
  - destruct (IH (hull b y)) as (B & C0 & C1 & C2 & D0 & D1 & D2). set (m := fold_left hull r (hull b y)) in *. split.
    + intros x [<-|[<-|Hx]].
      * destruct (B (hull b y) (or_introl eq_refl)) as ((A1 & A2 & A3) & (A4 & A5 & A6)). unfold hull, le_iv in *. cbn in *. lia.
      * destruct (B (hull b y) (or_introl eq_refl)) as ((A1 & A2 & A3) & (A4 & A5 & A6)). unfold hull, le_iv in *. cbn in *. lia.
      * apply B. right. exact Hx.
    + assert (P : forall (g : box -> Z), (g (hull b y) = g b \/ g (hull b y) = g y) -> (exists x, In x (hull b y :: r) /\ g x = g m) ->
        exists x, In x (b :: y :: r) /\ g x = g m).
      { intros g Hg (x & [<-|Hx] & E).
        - destruct Hg as [Hg|Hg]; [exists b|exists y]; (split; [cbn; tauto|congruence]).
        - exists x. split; [cbn; tauto|exact E]. }
      split; [apply (P (fun x => iv0 (blo x))); [unfold hull; cbn; lia|exact C0]|].
      split; [apply (P (fun x => iv1 (blo x))); [unfold hull; cbn; lia|exact C1]|].
      split; [apply (P (fun x => iv2 (blo x))); [unfold hull; cbn; lia|exact C2]|].
      split; [apply (P (fun x => iv0 (bhi x))); [unfold hull; cbn; lia|exact D0]|].
      split; [apply (P (fun x => iv1 (bhi x))); [unfold hull; cbn; lia|exact D1]|].
      apply (P (fun x => iv2 (bhi x))); [unfold hull; cbn; lia|exact D2].
Qed.
(** If non-empty boxes cover exactly the cells 0 .. n-1, their hull is that domain. *)
Lemma minimal_whole n ba : positive n -> (forall b, In b ba -> nonempty b) -> (forall c, covered ba c <-> inside n c) ->
  minimal_box ba = whole n.
Proof.
  intros (P0 & P1 & P2) Ne Cov. destruct ba as [|b r].
  - destruct (proj2 (Cov (IV 0 0 0))) as (x & [] & _). unfold inside. cbn. lia.
  - cbn [minimal_box]. destruct (fold_hull_bounds r b) as (B & C0 & C1 & C2 & D0 & D1 & D2). set (m := fold_left hull r b) in *.
    assert (Lo : forall x, In x (b :: r) -> inside n (blo x)).
    { intros x Hx. apply Cov. exists x. split; [exact Hx|]. destruct (Ne x Hx) as (X & Y & Z). unfold in_box. lia. }
    assert (Hi : forall x, In x (b :: r) -> inside n (bhi x)).
    { intros x Hx. apply Cov. exists x. split; [exact Hx|]. destruct (Ne x Hx) as (X & Y & Z). unfold in_box. lia. }
    destruct (proj2 (Cov (IV 0 0 0))) as (u & Hu & Cu); [unfold inside; cbn; lia|].
    destruct (proj2 (Cov (IV (iv0 n - 1) (iv1 n - 1) (iv2 n - 1)))) as (v & Hv & Cv); [unfold inside; cbn; lia|].
    destruct (B u Hu) as ((U0 & U1 & U2) & _). destruct (B v Hv) as (_ & (V0 & V1 & V2)).
    unfold in_box in Cu, Cv. cbn in Cu, Cv.
    destruct C0 as (x0 & X0 & E0), C1 as (x1 & X1 & E1), C2 as (x2 & X2 & E2), D0 as (y0 & Y0 & F0), D1 as (y1 & Y1 & F1), D2 as (y2 & Y2 & F2).
    pose proof (Lo _ X0) as (L0 & _ & _). pose proof (Lo _ X1) as (_ & L1 & _). pose proof (Lo _ X2) as (_ & _ & L2).
    pose proof (Hi _ Y0) as (H0 & _ & _). pose proof (Hi _ Y1) as (_ & H1 & _). pose proof (Hi _ Y2) as (_ & _ & H2).
    destruct m as [mlo mhi]. cbn in *. unfold whole. f_equal; apply iv_eq; cbn; lia.
Qed.
Lemma trunc_int q z : (q == inject_Z z)%Q -> trunc q = z.
Proof.
  intros H. unfold trunc. unfold Qeq in H. cbn in H. rewrite Z.mul_1_r in H. rewrite H. apply Z.quot_mul. lia.
Qed.
Lemma rep1_int lo hi lo_in hi_in z : (lo < hi)%Q -> (hi_in - lo_in == inject_Z z * (hi - lo))%Q -> rep1 lo hi lo_in hi_in = Ret z.
Proof.
  intros H E. unfold rep1. destruct (Qle_bool hi lo) eqn:L; [apply Qle_bool_iff in L; exfalso; apply (Qlt_not_le _ _ H L)|].
  assert (R : (domain_ratio lo hi lo_in hi_in == inject_Z z)%Q).
  { unfold domain_ratio. rewrite E. field. intros X. apply (Qlt_not_eq _ _ H). Lqa.lra. }
  rewrite (trunc_int _ _ R).
  assert (A : Qle_bool (Qabs (inject_Z z - domain_ratio lo hi lo_in hi_in)) (1 # 1000000) = true).
  { apply Qle_bool_iff. rewrite R. assert (Z0 : (inject_Z z - inject_Z z == 0)%Q) by ring. rewrite Z0. cbn. discriminate. }
  rewrite A. reflexivity.
Qed.
Lemma replicate_nonempty rep n lev ba : (forall b, In b ba -> nonempty b) -> forall b, In b (replicate_boxes rep n lev ba) -> nonempty b.
Proof.
  intros H b Hb. apply in_flat_map in Hb. destruct Hb as (s & _ & Hb). apply in_map_iff in Hb. destruct Hb as (b0 & <- & Hb0).
  destruct (H b0 Hb0) as (A & B & C). unfold nonempty, bshift, ivadd. cbn. lia.
Qed.
(** Restart from a checkpoint of the whole mesh when the new domain is an integer multiple
    of the old one in each direction: the run aborts if amr.n_cell does not fit, and
    otherwise continues with the recorded step, time and previous step sizes on the
    replicated boxes. *)
Theorem c44_restart : forall step time dt nm1 nm2 lo hi levels n r i,
  List.length lo = 3%nat -> List.length hi = 3%nat -> positive n -> positive r ->
  (forall d, (d < 3)%nat -> (qn lo d < qn hi d)%Q) ->
  (forall d, (d < 3)%nat -> (qn (ri_hi i) d - qn (ri_lo i) d == inject_Z (icomp r (Z.of_nat d)) * (qn hi d - qn lo d))%Q) ->
  (exists ba0 rest, levels = ba0 :: rest /\ (forall b, In b ba0 -> nonempty b) /\ (forall c, covered ba0 c <-> inside n c)) ->
  let file := write_header step time dt nm1 nm2 lo hi levels 0 (last_level (Z.of_nat (List.length levels)) 0 (-1)) in
  (r <> IV 1 1 1 -> ri_ncell i <> ivmul r n -> read_checkpoint i file = Abort) /\
  (r = IV 1 1 1 \/ ri_ncell i = ivmul r n -> Z.of_nat (List.length levels) - 1 <= ri_max_level i ->
   exists s, read_checkpoint i file = Ret s /\
     rs_finest s = Z.of_nat (List.length levels) - 1 /\ rs_step s = step /\ rs_time s = time /\ rs_nm1 s = nm1 /\ rs_nm2 s = nm2 /\
     rs_rep s = r /\ List.length (rs_boxes s) = List.length levels /\
     forall lev, (lev < List.length levels)%nat -> nth lev (rs_boxes s) [] = replicate_boxes r n lev (nth lev levels [])).
Proof.
  intros step time dt nm1 nm2 lo hi levels n r i Hl Hh Pn Pr Hd Hr (ba0 & rest & El & Ne & Cov) file.
  assert (Nl : levels <> []) by (rewrite El; discriminate).
  assert (RH : read_header file = Ret (Header (Z.of_nat (List.length levels) - 1) step time dt nm1 nm2 lo hi levels))
    by (apply c44_header_all; assumption).
  assert (RR : replication lo hi (ri_lo i) (ri_hi i) = Ret r).
  { unfold replication. rewrite (rep1_int _ _ _ _ (iv0 r) (Hd 0%nat ltac:(lia)) (Hr 0%nat ltac:(lia))). cbn [obind].
    rewrite (rep1_int _ _ _ _ (iv1 r) (Hd 1%nat ltac:(lia)) (Hr 1%nat ltac:(lia))). cbn [obind].
    rewrite (rep1_int _ _ _ _ (iv2 r) (Hd 2%nat ltac:(lia)) (Hr 2%nat ltac:(lia))). cbn [obind]. destruct r; reflexivity. }
  assert (M0 : minimal_box ba0 = whole n) by (apply minimal_whole; assumption).
  assert (Len : IV (blen (minimal_box ba0) 0) (blen (minimal_box ba0) 1) (blen (minimal_box ba0) 2) = n).
  { rewrite M0. unfold blen, whole. cbn. apply iv_eq; cbn; lia. }
  assert (S0 : size_at n 0 = n) by (apply iv_eq; cbn; ring).
  assert (In0 : forall b c, In b ba0 -> in_box b c -> inside (size_at n 0) c).
  { intros b c Hb Hc. rewrite S0. apply Cov. exists b. tauto. }
  destruct (c44_replicate r n 0 ba0 Pn Pr In0) as (Rc & _ & _). rewrite S0 in Rc.
  assert (Pm : positive (ivmul r n)).
  { destruct Pn as (? & ? & ?), Pr as (? & ? & ?). unfold positive, ivmul. cbn. repeat split; apply Z.mul_pos_pos; assumption. }
  assert (M1 : minimal_box (replicate_boxes r n 0 ba0) = whole (ivmul r n)).
  { apply minimal_whole; [exact Pm|apply replicate_nonempty; exact Ne|]. intros c. rewrite Rc. split; [tauto|].
    intros H. split; [exact H|]. apply Cov. destruct Pn as (A & B & C). unfold inside, ivmod. cbn.
    pose proof (Z.mod_pos_bound (iv0 c) (iv0 n) A). pose proof (Z.mod_pos_bound (iv1 c) (iv1 n) B). pose proof (Z.mod_pos_bound (iv2 c) (iv2 n) C). lia. }
  assert (NC : ncell_ok i (whole (ivmul r n)) = true <-> ri_ncell i = ivmul r n).
  { unfold ncell_ok, whole. cbn. rewrite !andb_true_iff, !Z.eqb_eq. split; [intros; apply iv_eq; cbn; lia|]. intros ->. cbn. lia. }
  assert (UN : unit_rep r = true <-> r = IV 1 1 1).
  { unfold unit_rep. rewrite !andb_true_iff, !Z.eqb_eq. split; [intros; apply iv_eq; cbn; lia|]. intros ->. cbn. lia. }
  set (new := map (fun lb => replicate_boxes r n (fst lb) (snd lb)) (combine (seq 0 (List.length levels)) levels)).
  assert (E : read_checkpoint i file = if negb (unit_rep r) && negb (ncell_ok i (whole (ivmul r n))) then Abort
     else if ri_max_level i <? Z.of_nat (List.length levels) - 1 then UB
     else Ret (RS (Z.of_nat (List.length levels) - 1) step time nm1 nm2 r new)).
  { unfold read_checkpoint. rewrite RH. cbn [obind h_lo h_hi h_boxes h_finest h_step h_time h_nm1 h_nm2]. rewrite RR. cbn [obind].
    unfold new. rewrite El at 1. cbv zeta. rewrite Len.
    assert (N0 : nth 0 (map (fun lb => replicate_boxes r n (fst lb) (snd lb)) (combine (seq 0 (List.length levels)) levels)) [] = replicate_boxes r n 0 ba0)
      by (rewrite El; reflexivity).
    rewrite N0, M1. reflexivity. }
  split.
  - intros H1 H2. rewrite E. destruct (unit_rep r) eqn:U; [exfalso; apply H1, UN; reflexivity|].
    destruct (ncell_ok i (whole (ivmul r n))) eqn:N; [exfalso; apply H2, NC; reflexivity|]. reflexivity.
  - intros H1 H2. eexists. split.
    + rewrite E. assert (negb (unit_rep r) && negb (ncell_ok i (whole (ivmul r n))) = false) as ->.
      { destruct H1 as [H1|H1]; [apply UN in H1; rewrite H1; reflexivity|apply NC in H1; rewrite H1; apply andb_false_r]. }
      replace (ri_max_level i <? _) with false by lia. reflexivity.
    + cbn. split; [reflexivity|]. split; [reflexivity|]. split; [reflexivity|]. split; [reflexivity|]. split; [reflexivity|]. split; [reflexivity|].
      unfold new. rewrite map_length, combine_length, seq_length, Nat.min_id. split; [reflexivity|].
      intros lev Hlev. rewrite (nth_indep _ [] (replicate_boxes r n (fst (0%nat, @nil box)) (snd (0%nat, @nil box))))
        by (rewrite map_length, combine_length, seq_length, Nat.min_id; exact Hlev).
      rewrite (map_nth (fun lb => replicate_boxes r n (fst lb) (snd lb))), combine_nth by apply seq_length.
      cbn [fst snd]. rewrite seq_nth by exact Hlev. reflexivity.
Qed.
(** A replication factor is only accepted within 1e-6 of the ratio of the domain sizes. *)
Theorem c44_noninteger : forall i file s, read_checkpoint i file = Ret s -> exists h, read_header file = Ret h /\
  forall d, (d < 3)%nat -> (qn (h_lo h) d < qn (h_hi h) d)%Q /\
    (Qabs (inject_Z (icomp (rs_rep s) (Z.of_nat d)) - (qn (ri_hi i) d - qn (ri_lo i) d) / (qn (h_hi h) d - qn (h_lo h) d)) <= 1 # 1000000)%Q.
Proof.
  intros i file s H. unfold read_checkpoint in H. destruct (read_header file) as [h| |]; try discriminate. cbn [obind] in H. exists h. split; [reflexivity|].
  unfold replication in H.
  assert (R1 : forall lo hi a b z, rep1 lo hi a b = Ret z -> (lo < hi)%Q /\ (Qabs (inject_Z z - (b - a) / (hi - lo)) <= 1 # 1000000)%Q).
  { intros lo hi a b z E. unfold rep1 in E. destruct (Qle_bool hi lo) eqn:L; [discriminate|].
    destruct (Qle_bool (Qabs _) _) eqn:A in E; [|discriminate]. injection E as <-. split.
    - apply Qnot_le_lt. intros X. apply Qle_bool_iff in X. congruence.
    - apply Qle_bool_iff in A. exact A. }
  destruct (rep1 (qn (h_lo h) 0) _ _ _) as [a| |] eqn:E0; try discriminate. cbn [obind] in H.
  destruct (rep1 (qn (h_lo h) 1) _ _ _) as [b| |] eqn:E1; try discriminate. cbn [obind] in H.
  destruct (rep1 (qn (h_lo h) 2) _ _ _) as [c| |] eqn:E2; try discriminate. cbn [obind] in H.
  destruct (h_boxes h) as [|ba0 rest]; [discriminate|]. cbv zeta in H.
  destruct (_ && _) in H; [discriminate|]. destruct (_ <? _) in H; [discriminate|]. injection H as <-. cbn [rs_rep].
  intros [|[|[|d]]] Hd; [exact (R1 _ _ _ _ _ E0)|exact (R1 _ _ _ _ _ E1)|exact (R1 _ _ _ _ _ E2)|lia].
Qed.
(** But a ratio that is within that tolerance just below an integer is refused, because
    the factor is found by truncation... *)
Theorem c44_below_refuted :
  ~ (forall lo hi lo_in hi_in z, (lo < hi)%Q -> (Qabs (inject_Z z - domain_ratio lo hi lo_in hi_in) <= 1 # 1000000)%Q ->
       rep1 lo hi lo_in hi_in = Ret z).
Proof.
  intros H. specialize (H 0%Q 1%Q 0%Q (19999999 # 10000000) 2 ltac:(reflexivity) ltac:(vm_compute; discriminate)). vm_compute in H. discriminate H.
Qed.
(** ... and in double precision this hits exact multiples: a run on [0, 0.1] cannot be
    continued on [0, 0.3]. *)
Theorem c44_double_refuted :
  ~ (forall a k, 0 < a < 10 -> 0 < k -> b64_rep (b64_tenths a) (b64_tenths (k * a)) = Ret k).
Proof. intros H. specialize (H 1 3 ltac:(lia) ltac:(lia)). vm_compute in H. discriminate H. Qed.

(** *** Field data *)
Lemma has_spec b c : has b c = true <-> in_box b c.
Proof. unfold has, in_box. rewrite !andb_true_iff, !Z.leb_le. tauto. Qed.
(** [ty] has a 1 in the directions in which the data are on faces or nodes: there is one point
    more than there are cells. *)
Definition copied (ty : ivec) (ba : list box) (c : ivec) : Prop := exists b, In b ba /\
  iv0 (blo b) <= iv0 c <= iv0 (bhi b) + iv0 ty /\ iv1 (blo b) <= iv1 c <= iv1 (bhi b) + iv1 ty /\
  iv2 (blo b) <= iv2 c <= iv2 (bhi b) + iv2 ty.
Lemma copy_fold {V} ty ba (chk : ivec -> V) c ss : forall f,
  (exists s, In s ss /\ copied ty ba (ivsub c s)) ->
  exists s, In s ss /\ copied ty ba (ivsub c s) /\ fold_left (fun f s => copy_one ty ba chk s f) ss f c = chk (ivsub c s).
Proof.
  assert (X : forall s, existsb (fun b => has (convert ty b) (ivsub c s)) ba = true <-> copied ty ba (ivsub c s)).
  { intros s. rewrite existsb_exists. unfold copied. split; intros (b & A & B); exists b; (split; [exact A|]).
    - apply has_spec in B. exact B.
    - apply has_spec. exact B. }
  induction ss as [|s ss IH] using rev_ind; intros f (s0 & Hs0 & C0); [contradiction|].
  rewrite fold_left_app. cbn [fold_left]. unfold copy_one at 1.
  destruct (existsb (fun b => has (convert ty b) (ivsub c s)) ba) eqn:E.
  - exists s. split; [apply in_or_app; right; left; reflexivity|]. split; [apply X; exact E|reflexivity].
  - assert (Hs1 : In s0 ss).
    { apply in_app_iff in Hs0. destruct Hs0 as [Hs0|[<-|[]]]; [exact Hs0|]. apply X in C0. congruence. }
    destruct (IH f (ex_intro _ s0 (conj Hs1 C0))) as (t & Ht & Ct & Et). exists t. split; [apply in_or_app; left; exact Ht|]. split; assumption.
Qed.
(** Each cell of the enlarged mesh receives the value the checkpoint holds at its image
    in the original domain. *)
Theorem c44_fields : forall (V : Type) rep n lev ba (chk old : ivec -> V), positive n -> positive rep ->
  (forall b c, In b ba -> in_box b c -> inside (size_at n lev) c) ->
  forall c, covered (replicate_boxes rep n lev ba) c ->
    restart_field rep n (IV 0 0 0) lev ba chk old c = chk (ivmod c (size_at n lev)).
Proof.
  intros V rep n lev ba chk old Pn Pr Hb c Hc. pose proof (positive_size n lev Pn) as PL.
  assert (Cv : forall d, copied (IV 0 0 0) ba d <-> covered ba d).
  { intros d. unfold copied, covered, convert, in_box, ivadd. split; intros (b & A & B); exists b; (split; [exact A|]); cbn in *; lia. }
  apply (proj1 (proj1 (c44_replicate rep n lev ba Pn Pr Hb) c)) in Hc. destruct Hc as (I & Ci).
  destruct (inside_div rep _ c PL I) as (Q & E). rewrite <- E in Ci.
  destruct (copy_fold (IV 0 0 0) ba chk c (shifts rep n lev) old) as (s & Hs & Cs & Es).
  { eexists. split; [apply In_shifts; eexists; split; [exact Q|reflexivity]|]. apply Cv. exact Ci. }
  unfold restart_field. rewrite Es. apply In_shifts in Hs. destruct Hs as (q & Hq & ->). apply Cv in Cs. destruct Cs as (b & B1 & B2).
  f_equal. apply (shift_unique rep _ c q PL (Hb b _ B1 B2) Hq).
Qed.
(** Face and node data, where neighbouring copies share points: each point receives the
    value of a checkpoint point that differs by a whole number of periods. *)
Theorem c44_fields_nodal : forall (V : Type) rep n ty lev ba (chk old : ivec -> V) c,
  (exists s, In s (shifts rep n lev) /\ copied ty ba (ivsub c s)) ->
  exists q, inside rep q /\ copied ty ba (ivsub c (ivmul q (size_at n lev))) /\
    restart_field rep n ty lev ba chk old c = chk (ivsub c (ivmul q (size_at n lev))).
Proof.
  intros V rep n ty lev ba chk old c H. destruct (copy_fold ty ba chk c (shifts rep n lev) old H) as (s & Hs & Cs & Es).
  apply In_shifts in Hs. destruct Hs as (q & Hq & ->). exists q. split; [exact Hq|]. split; [exact Cs|exact Es].
Qed.

(** *** What restart does not notice *)
Definition unit_file : list tok :=
  write_header 10 (1 # 2) (1 # 10) (1 # 10) (1 # 10) [0; 0; 0]%Q [1; 1; 1]%Q [[whole (IV 8 8 8)]; [Box (IV 0 0 0) (IV 7 7 7)]] 0 1.
(** Another number of cells without a change of the domain size: the boxes no longer
    cover the domain. *)
Theorem c44_ncell_refuted :
  ~ (forall i s, read_checkpoint i unit_file = Ret s -> forall c, inside (ri_ncell i) c -> covered (nth 0 (rs_boxes s) []) c).
Proof.
  intros H. specialize (H (RIn [0; 0; 0]%Q [1; 1; 1]%Q (IV 16 16 16) 1) _ eq_refl (IV 8 0 0) ltac:(unfold inside; cbn; lia)).
  destruct H as (b & Hb & Hc). vm_compute in Hb. destruct Hb as [<-|[]]. unfold in_box in Hc. cbn in Hc. lia.
Qed.
(** A domain of the same size elsewhere: the data move with it. *)
Theorem c44_moved_refuted :
  ~ (forall i s, read_checkpoint i unit_file = Ret s -> ri_ncell i = IV 8 8 8 -> forall d, (d < 3)%nat -> (qn (ri_lo i) d == 0)%Q).
Proof.
  intros H. specialize (H (RIn [5; 0; 0]%Q [6; 1; 1]%Q (IV 8 8 8) 1) _ eq_refl eq_refl 0%nat ltac:(lia)). vm_compute in H. discriminate H.
Qed.
(** Fewer levels allowed than the checkpoint has: undefined behaviour, no message. *)
Theorem c44_levels_refuted : ~ (forall i, ri_lo i = [0; 0; 0]%Q -> ri_hi i = [1; 1; 1]%Q -> read_checkpoint i unit_file <> UB).
Proof. intros H. apply (H (RIn [0; 0; 0]%Q [1; 1; 1]%Q (IV 8 8 8) 0) eq_refl eq_refl). reflexivity. Qed.

Example c44_case : exists s, read_checkpoint (RIn [0; 0; 0]%Q [2; 1; 1]%Q (IV 16 8 8) 3) unit_file = Ret s /\ rs_rep s = IV 2 1 1 /\
  rs_boxes s = [[whole (IV 8 8 8); Box (IV 8 0 0) (IV 15 7 7)]; [Box (IV 0 0 0) (IV 7 7 7); Box (IV 16 0 0) (IV 23 7 7)]].
Proof. eexists. split; [vm_compute; reflexivity|]. split; reflexivity. Qed.

Print Assumptions c44_header.
Print Assumptions c44_header_all.
Print Assumptions c44_replicate.
Print Assumptions c44_restart.
Print Assumptions c44_noninteger.
Print Assumptions c44_below_refuted.
Print Assumptions c44_double_refuted.
Print Assumptions c44_fields.
Print Assumptions c44_fields_nodal.
Print Assumptions c44_ncell_refuted.
Print Assumptions c44_moved_refuted.
Print Assumptions c44_levels_refuted.
