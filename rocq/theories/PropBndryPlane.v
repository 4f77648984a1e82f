(** C41, C59: inflow planes from file.  Vocabulary first, then the theorems. *)
From Coq Require Import QArith Qabs Lqa Psatz ZifyBool ZifyNat.
From Verif Require Import BaseFacts BoxR BoxRFacts Interp InterpSpec InterpProofs InterpProofs3 Averaging AveragingProofs BndryPlane.
Local Open Scope Q_scope.
Ltac lra := Lqa.lra.

(** ** What the theorems say *)

(** Records are at least the tolerance of the code apart (2.2e-8 s) ... *)
Definition separated (times : list Q) : Prop :=
  forall i a b, at_ times i a -> at_ times (S i) b -> a + loose_tol <= b.
(** ... and recorded at times at most 25 million seconds from zero. *)
Definition moderate (times : list Q) : Prop :=
  forall i a, at_ times i a -> -25000000 <= a /\ a <= 25000000.
(** A file: the records can be read. *)
Definition readable {K} (times : list Q) (fetch : nat -> outcome (K -> Q)) (recs : nat -> K -> Q) : Prop :=
  forall i, (i < length times)%nat -> fetch i = Ret (recs i).
(** In the recorded range *)
Definition recorded (times : list Q) (t : Q) : Prop :=
  exists a b, at_ times 0 a /\ at_ times (length times - 1) b /\ a <= t /\ t <= b.
(** A history of read requests, from the state before the first one. *)
Fixpoint read_seq {K} (times : list Q) (fetch : nat -> outcome (K -> Q)) (ts : list Q) (h : head K)
    : outcome (head K) :=
  match ts with
  | [] => Ret h
  | t :: ts' => obind (read_file times fetch t h) (read_seq times fetch ts')
  end.
Definition between (x a b : Q) : Prop := (a <= x /\ x <= b) \/ (b <= x /\ x <= a).
(** Straight line through two points *)
Definition line (t1 f1 t2 f2 t : Q) : Q := f1 + (t - t1) / (t2 - t1) * (f2 - f1).

(** ** Lemmas *)
Lemma loose_val : loose_tol == 100000000 * eps.
Proof. unfold loose_tol. change (inject_Z 100000000) with (100000000 # 1). ring. Qed.
Lemma eps_pos : 0 < eps. Proof. reflexivity. Qed.
Lemma dbl_min_small : dbl_min < loose_tol.
Proof. unfold dbl_min, loose_tol, eps, Qlt. cbn [Qnum Qden Qmult inject_Z]. vm_compute. reflexivity. Qed.
Global Opaque dbl_min.

Lemma almost_self x y : x == y -> almost_equal x y = true.
Proof.
  intro H. unfold almost_equal. apply Bool.orb_true_iff. left. apply Qleb_true.
  assert (E : Qabs (x - y) == 0) by (rewrite H; setoid_replace (y - y) with 0 by ring; reflexivity).
  rewrite E. pose proof (Qabs_nonneg (x + y)). pose proof eps_pos. nra.
Qed.
Lemma almost_close x y :
  -25000000 <= x /\ x <= 25000000 -> -25000000 <= y /\ y <= 25000000 ->
  almost_equal x y = true -> Qabs (x - y) <= loose_tol.
Proof.
  intros Hx Hy H. unfold almost_equal in H. apply Bool.orb_true_iff in H as [H|H].
  - apply Qleb_true in H. assert (Qabs (x + y) <= 50000000) by (apply Qabs_Qle_condition; split; lra).
    rewrite loose_val. pose proof eps_pos. nra.
  - apply Qltb_true in H. pose proof dbl_min_small. lra.
Qed.
Lemma separated_increasing l : separated l -> increasing l.
Proof.
  intros Hs i j a b Hij Ha Hb. pose proof loose_tol_pos as TP. revert a Ha.
  assert (G : forall n i a b, at_ l i a -> at_ l (i + S n) b -> a < b).
  { induction n as [|n IH]; intros i' a b' Ha Hb'.
    - replace (i' + 1)%nat with (S i') in Hb' by lia. pose proof (Hs _ _ _ Ha Hb'). lra.
    - destruct (at_lt l (S i')) as [c C]; [pose proof (at_len _ _ _ Hb'); lia|].
      pose proof (Hs _ _ _ Ha C). replace (i' + S (S n))%nat with (S i' + S n)%nat in Hb' by lia.
      pose proof (IH _ _ _ C Hb'). lra. }
  intros a Ha. apply (G (j - i - 1)%nat i); [exact Ha|]. replace (i + S (j - i - 1))%nat with j by lia. exact Hb.
Qed.
Lemma increasing_nondecreasing l : increasing l -> nondecreasing l.
Proof.
  intros H i j a b Hij Ha Hb. destruct (Nat.eq_dec i j) as [->|N].
  - rewrite (at_fun _ _ _ _ Ha Hb). lra.
  - apply Qlt_le_weak. apply (H i j); [lia|exact Ha|exact Hb].
Qed.

(** Which records are chosen *)
Definition chosen (times : list Q) (t : Q) (i : nat) (a b : Q) : Prop :=
  closest_index times t loose_tol = Ret i /\ at_ times i a /\ at_ times (S i) b.
Lemma choose_inside times t a b : nondecreasing times ->
  at_ times 0 a -> a <= t -> at_ times (length times - 1) b -> t < b ->
  exists i c d, chosen times t i c d /\ c <= t /\ t < d.
Proof.
  intros Hs Ha Hat Hb Htb. destruct (closest_index_spec times t loose_tol a b Hs Ha Hat Hb Htb) as (i & c & d & E & C & Hc & D & Hd).
  exists i, c, d. split; [repeat split; assumption|split; assumption].
Qed.
Lemma choose_end times t b : separated times -> (2 <= length times)%nat ->
  at_ times (length times - 1) b -> b <= t -> t < b + loose_tol ->
  exists c, chosen times t (length times - 2) c b.
Proof.
  intros Hs Hn Hb Hbt Htb. pose proof (increasing_nondecreasing _ (separated_increasing _ Hs)) as Hd.
  destruct (at_lt times (length times - 2)) as [c C]; [lia|]. exists c.
  assert (C1 : S (length times - 2) = (length times - 1)%nat) by lia.
  assert (G : c + loose_tol <= b) by (apply (Hs _ _ _ C); rewrite C1; exact Hb).
  split; [|split; [exact C|rewrite C1; exact Hb]].
  unfold closest_index. destruct (upper_bound_spec times t Hd) as [U1 U2].
  assert (N : upper_bound times t = length times).
  { assert ((length times - 1 < upper_bound times t)%nat) by (apply (U1 _ _ Hb); exact Hbt). lia. }
  rewrite N, Nat.eqb_refl. destruct (upper_bound_spec times (t - loose_tol) Hd) as [V1 V2].
  assert (N2 : upper_bound times (t - loose_tol) = (length times - 1)%nat).
  { assert ((length times - 2 < upper_bound times (t - loose_tol))%nat) by (apply (V1 _ _ C); lra).
    assert (~ (length times - 1 < upper_bound times (t - loose_tol))%nat) by (intro X; apply (V1 _ _ Hb) in X; lra). lia. }
  rewrite N2. assert (E : (length times - 1 =? length times)%nat = false) by lia. rewrite E.
  f_equal. lia.
Qed.
Lemma choose_begin times t a : separated times -> (2 <= length times)%nat ->
  at_ times 0 a -> t < a -> exists b, chosen times t 0 a b.
Proof.
  intros Hs Hn Ha Hta. pose proof (increasing_nondecreasing _ (separated_increasing _ Hs)) as Hd.
  destruct (at_lt times 1) as [b B]; [lia|]. exists b. split; [|split; [exact Ha|exact B]].
  unfold closest_index. destruct (upper_bound_spec times t Hd) as [U1 U2].
  assert (N : upper_bound times t = 0%nat).
  { assert (~ (0 < upper_bound times t)%nat) by (intro X; apply (U1 _ _ Ha) in X; lra). lia. }
  rewrite N. assert (E : (0 =? length times)%nat = false) by lia. rewrite E, E. reflexivity.
Qed.

Lemma head_last (times : list Q) a b : at_ times 0 a -> at_ times (length times - 1) b ->
  exists r, times = a :: r /\ last times 0 = b.
Proof.
  intros Ha Hb. destruct times as [|x r]; [discriminate|]. cbn in Ha. injection Ha as ->.
  exists r. split; [reflexivity|].
  assert (L : forall (r : list Q) x y d, nth_error (x :: r) (length (x :: r) - 1) = Some y -> last (x :: r) d = y).
  { clear. induction r as [|z r IH]; intros x y d H; [cbn in H; injection H as ->; reflexivity|].
    change (last (x :: z :: r) d) with (last (z :: r) d). apply IH. cbn [length] in *.
    replace (S (S (length r)) - 1)%nat with (S (S (length r) - 1)) in H by lia. exact H. }
  apply (L r a b 0). exact Hb.
Qed.

(** The state of the reader: two neighbouring records, or nothing usable yet. *)
Definition sane {K} (times : list Q) (recs : nat -> K -> Q) (h : head K) : Prop :=
  h_tnp1 h <= h_tn h \/
  exists i, at_ times i (h_tn h) /\ at_ times (S i) (h_tnp1 h) /\ h_dn h = recs i /\ h_dnp1 h = recs (S i).
(** A finished read at [t]: the interpolated data belong to the two records. *)
Definition at_time {K} (times : list Q) (recs : nat -> K -> Q) (t : Q) (i : nat) (a b : Q) (h : head K) : Prop :=
  at_ times i a /\ at_ times (S i) b /\ h_tn h = a /\ h_tnp1 h = b /\ h_ti h = t /\
  h_dn h = recs i /\ h_dnp1 h = recs (S i) /\
  forall k, h_di h k = lin_interp (recs i k) (recs (S i) k) a b t.

Lemma read_file_ok {K} times fetch (recs : nat -> K -> Q) t h i a b t0 tl :
  readable times fetch recs -> sane times recs h ->
  at_ times 0 t0 -> at_ times (length times - 1) tl -> t0 <= t + loose_tol -> t < tl + loose_tol ->
  chosen times t i a b -> a <= t + loose_tol -> t <= b + loose_tol ->
  exists h', read_file times fetch t h = Ret h' /\
    (at_time times recs t i a b h' \/ (exists j c d, at_time times recs t j c d h' /\ c <= t /\ t < d)).
Proof.
  intros Hr Hs H0 Hl L1 L2 (Hc & Ha & Hb) A1 B1. destruct (head_last _ _ _ H0 Hl) as (r & E & EL).
  unfold read_file. destruct times as [|x r'] eqn:ET; [discriminate|]. rewrite <- ET in *.
  assert (x = t0) as -> by congruence. rewrite EL.
  assert (X1 : Qleb t0 (t + loose_tol) = true) by (apply Qleb_true; exact L1).
  assert (X2 : Qltb t (tl + loose_tol) = true) by (apply Qltb_true; exact L2).
  rewrite X1, X2. cbn [negb orb].
  destruct (Qleb (h_tn h) t && Qltb t (h_tnp1 h)) eqn:C.
  - apply Bool.andb_true_iff in C as [C1 C2]. apply Qleb_true in C1. apply Qltb_true in C2.
    destruct Hs as [Hs|(j & J1 & J2 & J3 & J4)]; [lra|].
    eexists. split; [reflexivity|]. right. exists j, (h_tn h), (h_tnp1 h).
    split; [|split; assumption]. unfold at_time. unfold interpolate; cbn [h_tn h_tnp1 h_ti h_dn h_dnp1 h_di].
    rewrite J3, J4. repeat split; assumption.
  - unfold read_data. rewrite Hc. cbn [obind]. unfold at_ in Ha, Hb. rewrite Ha, Hb.
    assert (Y1 : Qleb a (t + loose_tol) = true) by (apply Qleb_true; exact A1).
    assert (Y2 : Qleb t (b + loose_tol) = true) by (apply Qleb_true; exact B1).
    rewrite Y1, Y2. cbn [andb].
    rewrite (Hr i) by (apply (at_len _ _ _ Ha)). cbn [obind].
    rewrite (Hr (S i)) by (apply (at_len _ _ _ Hb)). cbn [obind].
    eexists. split; [reflexivity|]. left. unfold at_time, interpolate; cbn [h_tn h_tnp1 h_ti h_dn h_dnp1 h_di].
    repeat split; assumption.
Qed.

(** All reads in the range of the file *)
Lemma read_file_in {K} times fetch (recs : nat -> K -> Q) t h :
  separated times -> (2 <= length times)%nat -> readable times fetch recs -> sane times recs h ->
  recorded times t ->
  exists h' i a b, read_file times fetch t h = Ret h' /\ at_time times recs t i a b h' /\ a <= t /\ t <= b /\
    (t < b \/ S i = (length times - 1)%nat).
Proof.
  intros Hs Hn Hr Hh (t0 & tl & H0 & Hl & L1 & L2). pose proof loose_tol_pos as TP.
  pose proof (separated_increasing _ Hs) as Hi. pose proof (increasing_nondecreasing _ Hi) as Hd.
  destruct (Qlt_le_dec t tl) as [G|G].
  - destruct (choose_inside times t t0 tl Hd H0 L1 Hl G) as (i & c & d & C & C1 & C2).
    destruct (read_file_ok times fetch recs t h i c d t0 tl Hr Hh H0 Hl ltac:(lra) ltac:(lra) C ltac:(lra) ltac:(lra)) as (h' & E & [A|(j & a & b & A & A1 & A2)]).
    + exists h', i, c, d. repeat split; try assumption; try lra; apply A.
    + exists h', j, a, b. repeat split; try assumption; try lra; apply A.
  - destruct (choose_end times t tl Hs Hn Hl G ltac:(lra)) as (c & C).
    destruct C as (C & Ca & Cb). assert (CC : c + loose_tol <= tl) by (apply (Hs _ _ _ Ca Cb)).
    destruct (read_file_ok times fetch recs t h (length times - 2) c tl t0 tl Hr Hh H0 Hl ltac:(lra) ltac:(lra) (conj C (conj Ca Cb)) ltac:(lra) ltac:(lra)) as (h' & E & [A|(j & a & b & A & A1 & A2)]).
    + exists h', (length times - 2)%nat, c, tl. split; [exact E|]. split; [exact A|]. split; [lra|]. split; [lra|]. right. lia.
    + exists h', j, a, b. split; [exact E|]. split; [exact A|]. split; [lra|]. split; [lra|]. left. exact A2.
Qed.
Lemma at_time_sane {K} times (recs : nat -> K -> Q) t i a b h : at_time times recs t i a b h -> sane times recs h.
Proof.
  intros (A & B & E1 & E2 & _ & D1 & D2 & _). right. exists i. rewrite E1, E2. repeat split; assumption.
Qed.
Lemma read_seq_in {K} times fetch (recs : nat -> K -> Q) ts : forall h,
  separated times -> (2 <= length times)%nat -> readable times fetch recs -> sane times recs h ->
  Forall (recorded times) ts ->
  exists h', read_seq times fetch ts h = Ret h' /\ sane times recs h'.
Proof.
  induction ts as [|t ts IH]; intros h Hs Hn Hr Hh HF; [exists h; split; [reflexivity|exact Hh]|].
  inversion HF as [|? ? F1 F2]; subst.
  destruct (read_file_in times fetch recs t h Hs Hn Hr Hh F1) as (h' & i & a & b & E & A & _).
  cbn [read_seq]. rewrite E. cbn [obind]. apply IH; try assumption. apply (at_time_sane _ _ _ _ _ _ _ A).
Qed.
Lemma read_seq_app {K} times fetch ts us : forall h : head K,
  read_seq times fetch (ts ++ us) h = obind (read_seq times fetch ts h) (read_seq times fetch us).
Proof.
  induction ts as [|t ts IH]; intro h; [reflexivity|]. cbn [app read_seq].
  destruct (read_file times fetch t h); cbn [obind]; [apply IH|reflexivity|reflexivity].
Qed.
Lemma head0_sane {K} times (recs : nat -> K -> Q) : sane times recs (head0 K).
Proof. left. cbn. lra. Qed.
Lemma last_read {K} times fetch (recs : nat -> K -> Q) ts t :
  separated times -> (2 <= length times)%nat -> readable times fetch recs ->
  Forall (recorded times) (ts ++ [t]) ->
  exists h i a b, read_seq times fetch (ts ++ [t]) (head0 K) = Ret h /\ at_time times recs t i a b h /\ a <= t /\ t <= b /\
    (t < b \/ S i = (length times - 1)%nat).
Proof.
  intros Hs Hn Hr HF. apply Forall_app in HF as [F1 F2]. inversion F2 as [|? ? F3 _]; subst.
  destruct (read_seq_in times fetch recs ts (head0 K) Hs Hn Hr (head0_sane _ _) F1) as (h & E & S).
  destruct (read_file_in times fetch recs t h Hs Hn Hr S F3) as (h' & i & a & b & E' & A & B).
  exists h', i, a, b. rewrite read_seq_app, E. cbn [obind read_seq]. rewrite E'. cbn [obind].
  split; [reflexivity|]. split; [exact A|exact B].
Qed.

Lemma weights t1 t2 t : t1 < t2 -> t1 <= t -> t <= t2 ->
  let u := (t - t1) / (t2 - t1) in 0 <= u /\ u <= 1 /\ (t2 - t) / (t2 - t1) == 1 - u.
Proof.
  intros H A B u. unfold u. split; [apply Qle_shift_div_l; lra|]. split; [apply Qle_shift_div_r; lra|].
  field. lra.
Qed.
Lemma lin_between f1 f2 t1 t2 t : t1 < t2 -> t1 <= t -> t <= t2 -> between (lin_interp f1 f2 t1 t2 t) f1 f2.
Proof.
  intros H A B. unfold lin_interp, between.
  destruct (almost_equal t1 t2 || almost_equal t1 t); [destruct (Qlt_le_dec f1 f2); lra|].
  destruct (almost_equal t2 t); [destruct (Qlt_le_dec f1 f2); lra|].
  destruct (weights t1 t2 t H A B) as (U0 & U1 & E). set (u := (t - t1) / (t2 - t1)) in *. clearbody u. rewrite E.
  destruct (Qlt_le_dec f1 f2) as [G|G]; [left|right]; split; nra.
Qed.
Lemma sep_not_almost t1 t2 : -25000000 <= t1 /\ t1 <= 25000000 -> -25000000 <= t2 /\ t2 <= 25000000 ->
  t1 + loose_tol <= t2 -> almost_equal t1 t2 = false.
Proof.
  intros A B H. pose proof loose_tol_pos as TP. destruct (almost_equal t1 t2) eqn:E; [|reflexivity]. exfalso.
  assert (G : t2 - t1 <= Qabs (t1 - t2)) by (setoid_replace (t2 - t1) with (-(t1 - t2)) by ring; rewrite <- Qabs_opp; apply Qle_Qabs).
  unfold almost_equal in E. apply Bool.orb_true_iff in E as [E|E].
  - apply Qleb_true in E. assert (Qabs (t1 + t2) < 50000000).
    { apply Qabs_case; intro; lra. }
    pose proof loose_val. pose proof eps_pos. nra.
  - apply Qltb_true in E. pose proof dbl_min_small. lra.
Qed.
Lemma lin_line f1 f2 t1 t2 t : t1 < t2 ->
  almost_equal t1 t2 = false -> almost_equal t1 t = false -> almost_equal t2 t = false ->
  lin_interp f1 f2 t1 t2 t == line t1 f1 t2 f2 t.
Proof.
  intros H A B C. unfold lin_interp, line. rewrite A, B, C. cbn [orb]. field. lra.
Qed.
Lemma line_left f1 f2 t1 t2 t : t1 < t2 -> (line t1 f1 t2 f2 t - f1) * (t2 - t1) == (t - t1) * (f2 - f1).
Proof. intro H. unfold line. field. lra. Qed.
Lemma line_right f1 f2 t1 t2 t : t1 < t2 -> (line t1 f1 t2 f2 t - f2) * (t2 - t1) == (t - t2) * (f2 - f1).
Proof. intro H. unfold line. field. lra. Qed.
Lemma scaled_abs x g y d tol : 0 < g -> x * g == y * d -> Qabs y <= tol -> Qabs x * g <= tol * Qabs d.
Proof.
  intros G E Y. assert (X : Qabs (x * g) == Qabs (y * d)) by (rewrite E; reflexivity).
  rewrite !Qabs_Qmult in X. rewrite (Qabs_pos g) in X by lra. rewrite X.
  pose proof (Qabs_nonneg d). pose proof (Qabs_nonneg y). nra.
Qed.

(** ** The theorems *)

(** Read requests in the recorded range, in any order: every one succeeds, the two records
    held afterwards are neighbours and bracket the time, and the data used lie between
    those of the two records. *)
Theorem c41_bracket {K} times fetch (recs : nat -> K -> Q) ts t :
  separated times -> (2 <= length times)%nat -> readable times fetch recs ->
  Forall (recorded times) (ts ++ [t]) ->
  exists h i, read_seq times fetch (ts ++ [t]) (head0 K) = Ret h /\
    h_ti h = t /\ at_ times i (h_tn h) /\ at_ times (S i) (h_tnp1 h) /\
    h_tn h <= t /\ t <= h_tnp1 h /\
    forall k, between (h_di h k) (recs i k) (recs (S i) k).
Proof.
  intros Hs Hn Hr HF. destruct (last_read times fetch recs ts t Hs Hn Hr HF) as (h & i & a & b & E & (A & B & E1 & E2 & E3 & D1 & D2 & D) & L1 & L2 & _).
  exists h, i. rewrite E1, E2. split; [exact E|]. split; [exact E3|]. split; [exact A|]. split; [exact B|].
  split; [exact L1|]. split; [exact L2|]. intro k. rewrite D.
  apply lin_between; [|exact L1|exact L2]. apply (separated_increasing _ Hs i (S i)); [lia|exact A|exact B].
Qed.

(** At a recorded time the data are those of the record, whatever was read before. *)
Theorem c41_exact {K} times fetch (recs : nat -> K -> Q) ts j t :
  separated times -> moderate times -> (2 <= length times)%nat -> readable times fetch recs ->
  Forall (recorded times) ts -> at_ times j t ->
  exists h, read_seq times fetch (ts ++ [t]) (head0 K) = Ret h /\ forall k, h_di h k = recs j k.
Proof.
  intros Hs Hm Hn Hr HF Hj. pose proof (separated_increasing _ Hs) as Hi.
  pose proof (increasing_nondecreasing _ Hi) as Hd.
  destruct (at_lt times 0) as [t0 H0]; [lia|]. destruct (at_lt times (length times - 1)) as [tl Hl]; [lia|].
  assert (HR : recorded times t).
  { exists t0, tl. split; [exact H0|]. split; [exact Hl|]. pose proof (at_len _ _ _ Hj).
    split; [apply (Hd 0%nat j); [lia|assumption|assumption]|apply (Hd j (length times - 1)%nat); [lia|assumption|assumption]]. }
  destruct (last_read times fetch recs ts t Hs Hn Hr) as (h & i & a & b & E & (A & B & E1 & E2 & E3 & D1 & D2 & D) & L1 & L2 & L3).
  { apply Forall_app. split; [exact HF|]. constructor; [exact HR|constructor]. }
  exists h. split; [exact E|]. intro k. rewrite D. unfold lin_interp.
  assert (NA : almost_equal a b = false) by (apply sep_not_almost; [apply (Hm i); exact A|apply (Hm (S i)); exact B|apply (Hs i); assumption]).
  rewrite NA. cbn [orb].
  destruct (Nat.lt_trichotomy j i) as [G|[G|G]].
  - pose proof (Hi j i _ _ G Hj A). lra.
  - subst j. rewrite (at_fun _ _ _ _ Hj A) in *. rewrite almost_self by reflexivity. reflexivity.
  - destruct (Nat.eq_dec j (S i)) as [->|N].
    + rewrite (at_fun _ _ _ _ Hj B) in *. rewrite NA. rewrite almost_self by reflexivity. reflexivity.
    + assert (b < t) by (apply (Hi (S i) j); [lia|exact B|exact Hj]). lra.
Qed.

(** Between records the data follow the straight line: exactly when the time is further
    than the tolerance from both, and within tolerance/gap of the jump always. *)
Theorem c41_linear {K} times fetch (recs : nat -> K -> Q) ts t :
  separated times -> moderate times -> (2 <= length times)%nat -> readable times fetch recs ->
  Forall (recorded times) (ts ++ [t]) ->
  exists h i a b, read_seq times fetch (ts ++ [t]) (head0 K) = Ret h /\
    at_ times i a /\ at_ times (S i) b /\ a <= t /\ t <= b /\
    forall k, let l := line a (recs i k) b (recs (S i) k) t in
      (loose_tol < t - a -> loose_tol < b - t -> h_di h k == l) /\
      Qabs (h_di h k - l) * (b - a) <= loose_tol * Qabs (recs (S i) k - recs i k).
Proof.
  intros Hs Hm Hn Hr HF. destruct (last_read times fetch recs ts t Hs Hn Hr HF) as (h & i & a & b & E & (A & B & E1 & E2 & E3 & D1 & D2 & D) & L1 & L2 & _).
  exists h, i, a, b. split; [exact E|]. split; [exact A|]. split; [exact B|]. split; [exact L1|]. split; [exact L2|].
  intro k. cbn zeta. rewrite D. pose proof (Hs _ _ _ A B) as G. pose proof loose_tol_pos as TP. assert (AB : a < b) by lra.
  pose proof (Hm _ _ A) as MA. pose proof (Hm _ _ B) as MB.
  assert (NA : almost_equal a b = false) by (apply sep_not_almost; assumption).
  set (f1 := recs i k). set (f2 := recs (S i) k). split.
  - intros G1 G2. apply lin_line; [exact AB|exact NA| |].
    + apply sep_not_almost; [exact MA|lra|lra].
    + destruct (almost_equal b t) eqn:X; [|reflexivity]. apply almost_close in X; [|exact MB|lra].
      assert (b - t <= Qabs (b - t)) by apply Qle_Qabs. lra.
  - destruct (almost_equal a t) eqn:X1; [|destruct (almost_equal b t) eqn:X2].
    + unfold lin_interp. rewrite NA, X1. cbn [orb]. apply (scaled_abs _ _ (-(t - a)) _ loose_tol); [lra| |].
      * pose proof (line_left f1 f2 a b t AB) as EL. transitivity (-((line a f1 b f2 t - f1) * (b - a))); [ring|]. rewrite EL. ring.
      * apply almost_close in X1; [|exact MA|lra]. setoid_replace (-(t - a)) with (a - t) by ring. exact X1.
    + unfold lin_interp. rewrite NA, X1, X2. cbn [orb]. apply (scaled_abs _ _ (-(t - b)) _ loose_tol); [lra| |].
      * pose proof (line_right f1 f2 a b t AB) as EL. transitivity (-((line a f1 b f2 t - f2) * (b - a))); [ring|]. rewrite EL. ring.
      * apply almost_close in X2; [|exact MB|lra]. setoid_replace (-(t - b)) with (b - t) by ring. exact X2.
    + pose proof (lin_line f1 f2 a b t AB NA X1 X2) as EL.
      setoid_replace (lin_interp f1 f2 a b t - line a f1 b f2 t) with 0 by (rewrite EL; ring).
      cbn [Qabs Z.abs]. pose proof (Qabs_nonneg (f2 - f1)). change (Qabs 0) with 0. nra.
Qed.

(** Outside the recorded range by the tolerance or more: refused, in every state. *)
Theorem c41_refused {K} times fetch (h : head K) a b t :
  at_ times 0 a -> at_ times (length times - 1) b ->
  (t + loose_tol < a \/ b + loose_tol <= t) -> read_file times fetch t h = Abort.
Proof.
  intros Ha Hb Ht. destruct (head_last _ _ _ Ha Hb) as (r & E & EL). unfold read_file.
  destruct times as [|x r'] eqn:ET; [discriminate|]. rewrite EL. injection E as -> ->.
  destruct Ht as [Ht|Ht].
  - assert (X : Qleb a (t + loose_tol) = false) by (apply Qleb_false; exact Ht). rewrite X. reflexivity.
  - assert (X : Qltb t (b + loose_tol) = false) by (apply Qltb_false; exact Ht). rewrite X, Bool.orb_true_r. reflexivity.
Qed.

(** Outside by less than the tolerance the line is extended: the data differ from the
    first or last record by at most tolerance/gap of the neighbouring jump. *)
Theorem c41_edges {K} times fetch (recs : nat -> K -> Q) ts a b t :
  separated times -> moderate times -> (2 <= length times)%nat -> readable times fetch recs ->
  Forall (recorded times) ts ->
  at_ times 0 a -> at_ times (length times - 1) b -> -25000000 <= t -> t <= 25000000 ->
  (a <= t + loose_tol -> t < a -> exists h c, read_seq times fetch (ts ++ [t]) (head0 K) = Ret h /\ at_ times 1 c /\
     forall k, Qabs (h_di h k - recs 0%nat k) * (c - a) <= loose_tol * Qabs (recs 1%nat k - recs 0%nat k)) /\
  (b < t -> t < b + loose_tol -> exists h c, read_seq times fetch (ts ++ [t]) (head0 K) = Ret h /\ at_ times (length times - 2) c /\
     forall k, Qabs (h_di h k - recs (length times - 1)%nat k) * (b - c)
       <= loose_tol * Qabs (recs (length times - 1)%nat k - recs (length times - 2)%nat k)).
Proof.
  intros Hs Hm Hn Hr HF Ha Hb T1 T2. pose proof loose_tol_pos as TP.
  pose proof (separated_increasing _ Hs) as Hi. pose proof (increasing_nondecreasing _ Hi) as Hd.
  assert (AB : a <= b) by (apply (Hd 0%nat (length times - 1)%nat); [lia|assumption|assumption]).
  destruct (read_seq_in times fetch recs ts (head0 K) Hs Hn Hr (head0_sane _ _) HF) as (h & E & Sn).
  split.
  - intros L1 L2. destruct (choose_begin times t a Hs Hn Ha L2) as (c & C).
    assert (Cc : at_ times 1 c) by apply C. assert (G : a + loose_tol <= c) by (apply (Hs 0%nat); [exact Ha|exact Cc]).
    destruct (read_file_ok times fetch recs t h 0 a c a b Hr Sn Ha Hb L1 ltac:(lra) C L1 ltac:(lra)) as (h' & E' & [A|(j & x & y & A & A1 & A2)]).
    2: { exfalso. assert (a <= x) by (apply (Hd 0%nat j); [lia|exact Ha|apply A]). lra. }
    exists h', c. rewrite read_seq_app, E. cbn [obind read_seq]. rewrite E'. cbn [obind].
    split; [reflexivity|]. split; [exact Cc|]. intro k. destruct A as (_ & _ & _ & _ & _ & _ & _ & D). rewrite D.
    set (f1 := recs 0%nat k). set (f2 := recs 1%nat k).
    pose proof (Hm _ _ Ha) as MA. pose proof (Hm _ _ Cc) as MC. unfold lin_interp.
    assert (NA : almost_equal a c = false) by (apply sep_not_almost; assumption).
    assert (NC : almost_equal c t = false).
    { destruct (almost_equal c t) eqn:X; [|reflexivity]. apply almost_close in X; [|exact MC|lra].
      assert (c - t <= Qabs (c - t)) by apply Qle_Qabs. lra. }
    rewrite NA, NC. cbn [orb]. pose proof (Qabs_nonneg (f2 - f1)). destruct (almost_equal a t).
    + setoid_replace (f1 - f1) with 0 by ring. change (Qabs 0) with 0. nra.
    + apply (scaled_abs _ _ (t - a) _ loose_tol); [lra|field; lra|]. apply Qabs_case; intro; lra.
  - intros L1 L2. destruct (choose_end times t b Hs Hn Hb ltac:(lra) L2) as (c & C).
    assert (Cc : at_ times (length times - 2) c) by apply C. assert (Cb : at_ times (S (length times - 2)) b) by apply C.
    assert (G : c + loose_tol <= b) by (apply (Hs _ _ _ Cc Cb)).
    destruct (read_file_ok times fetch recs t h (length times - 2) c b a b Hr Sn Ha Hb ltac:(lra) L2 C ltac:(lra) ltac:(lra)) as (h' & E' & [A|(j & x & y & A & A1 & A2)]).
    2: { exfalso. assert (Y : at_ times (S j) y) by apply A. pose proof (at_len _ _ _ Y).
         assert (y <= b) by (apply (Hd (S j) (length times - 1)%nat); [lia|exact Y|exact Hb]). lra. }
    exists h', c. rewrite read_seq_app, E. cbn [obind read_seq]. rewrite E'. cbn [obind].
    split; [reflexivity|]. split; [exact Cc|]. intro k. destruct A as (_ & _ & _ & _ & _ & _ & _ & D). rewrite D.
    replace (S (length times - 2)) with (length times - 1)%nat in * by lia.
    set (f1 := recs (length times - 2)%nat k). set (f2 := recs (length times - 1)%nat k).
    pose proof (Hm _ _ Hb) as MB. pose proof (Hm _ _ Cc) as MC. unfold lin_interp.
    assert (NA : almost_equal c b = false) by (apply sep_not_almost; assumption).
    assert (NC : almost_equal c t = false) by (apply sep_not_almost; [exact MC|lra|lra]).
    rewrite NA, NC. cbn [orb]. pose proof (Qabs_nonneg (f2 - f1)). destruct (almost_equal b t).
    + setoid_replace (f2 - f2) with 0 by ring. change (Qabs 0) with 0. nra.
    + apply (scaled_abs _ _ (t - b) _ loose_tol); [lra|field; lra|]. apply Qabs_case; intro; lra.
Qed.

(** A file with a single record can never be used: the second record is looked for behind
    the end of the table. *)
Theorem c41_one_record_refuted {K} fetch (a t : Q) :
  a <= t + loose_tol -> t < a + loose_tol -> read_file [a] fetch t (head0 K) = UB.
Proof.
  intros L1 L2. unfold read_file. cbn [last].
  assert (X1 : Qleb a (t + loose_tol) = true) by (apply Qleb_true; exact L1).
  assert (X2 : Qltb t (a + loose_tol) = true) by (apply Qltb_true; exact L2). rewrite X1, X2. cbn [negb orb head0 h_tn h_tnp1].
  assert (X3 : Qleb (-1) t && Qltb t (-1) = false).
  { destruct (Qleb (-1) t) eqn:Y; [|reflexivity]. apply Qleb_true in Y. apply Qltb_false. exact Y. }
  rewrite X3. unfold read_data, closest_index. cbn [upper_bound length].
  assert (X4 : Qltb (t - loose_tol) a = true) by (apply Qltb_true; lra).
  destruct (Qltb t a); cbn [Nat.eqb]; [reflexivity|]. rewrite X4. reflexivity.
Qed.

(** Filling at [s] after a read at [t]: accepted exactly when the two times agree to the
    tolerance, and then with the data of [t].  (The other check can never refuse.) *)
Theorem c41_fill {K} times fetch (recs : nat -> K -> Q) ts t s k :
  separated times -> (2 <= length times)%nat -> readable times fetch recs ->
  Forall (recorded times) (ts ++ [t]) ->
  exists h, read_seq times fetch (ts ++ [t]) (head0 K) = Ret h /\
    (Qabs (s - t) < loose_tol -> populate h s k = Ret (h_di h k)) /\
    (loose_tol <= Qabs (s - t) -> populate h s k = Abort).
Proof.
  intros Hs Hn Hr HF. destruct (c41_bracket times fetch recs ts t Hs Hn Hr HF) as (h & i & E & E3 & A & B & L1 & L2 & _).
  exists h. split; [exact E|]. unfold populate, populate_ok. rewrite E3.
  assert (X : negb (Qleb (h_tn h) (s + loose_tol)) && negb (Qleb s (h_tnp1 h + loose_tol)) = false).
  { destruct (Qleb (h_tn h) (s + loose_tol)) eqn:Y; [reflexivity|]. apply Qleb_false in Y. cbn [negb andb].
    apply Bool.negb_false_iff. apply Qleb_true. pose proof loose_tol_pos. lra. }
  rewrite X. cbn [negb andb]. split; intro H.
  - assert (Y : Qltb (Qabs (s - t)) loose_tol = true) by (apply Qltb_true; exact H). rewrite Y. reflexivity.
  - assert (Y : Qltb (Qabs (s - t)) loose_tol = false) by (apply Qltb_false; exact H). rewrite Y. reflexivity.
Qed.

(** Face velocities at [s]: kept when the data are newer, overwritten with the data when
    the times agree, refused when the data are older. *)
Theorem c41_fill_faces {K} times fetch (recs : nat -> K -> Q) ts t s k :
  separated times -> (2 <= length times)%nat -> readable times fetch recs ->
  Forall (recorded times) (ts ++ [t]) ->
  exists h, read_seq times fetch (ts ++ [t]) (head0 K) = Ret h /\
    (loose_tol <= t - s -> fill_faces h s k = Ret None) /\
    (s == t -> fill_faces h s k = Ret (Some (h_di h k))) /\
    (loose_tol <= s - t -> fill_faces h s k = Abort).
Proof.
  intros Hs Hn Hr HF. destruct (c41_fill times fetch recs ts t s k Hs Hn Hr HF) as (h & E & F1 & F2).
  destruct (c41_bracket times fetch recs ts t Hs Hn Hr HF) as (h2 & i & E2 & E3 & _).
  rewrite E in E2. injection E2 as <-. exists h. split; [exact E|].
  pose proof loose_tol_pos as TP. pose proof loose_val as LV. pose proof eps_pos as EP.
  unfold fill_faces, newer. rewrite E3. split; [|split]; intro H.
  - assert (Y : Qltb (eps * 10000) (t - s) = true) by (apply Qltb_true; nra). rewrite Y. reflexivity.
  - assert (Y : Qltb (eps * 10000) (t - s) = false) by (apply Qltb_false; nra). rewrite Y.
    rewrite F1; [reflexivity|]. setoid_replace (s - t) with 0 by (rewrite H; ring). exact TP.
  - assert (Y : Qltb (eps * 10000) (t - s) = false) by (apply Qltb_false; nra). rewrite Y.
    rewrite F2; [reflexivity|]. assert (s - t <= Qabs (s - t)) by apply Qle_Qabs. lra.
Qed.

(** A whole run: initial read, then for every step one read at its middle and one at its
    end, as long as the run stays in the recorded range. *)
Fixpoint requests (cur : Q) (dts : list Q) : list Q :=
  match dts with
  | [] => []
  | dt :: r => target_time true cur dt :: target_time false cur dt :: requests (cur + dt) r
  end.
Definition total_time (dts : list Q) : Q := fold_right Qplus 0 dts.
Lemma total_nonneg dts : Forall (fun dt => 0 <= dt) dts -> 0 <= total_time dts.
Proof.
  induction dts as [|d r IH]; intro H; [cbn; lra|]. inversion H; subst. cbn [total_time fold_right].
  change (fold_right Qplus 0 r) with (total_time r). pose proof (IH ltac:(assumption)). lra.
Qed.
Theorem c41_run {K} times fetch (recs : nat -> K -> Q) a b start dts :
  separated times -> (2 <= length times)%nat -> readable times fetch recs ->
  at_ times 0 a -> at_ times (length times - 1) b ->
  Forall (fun dt => 0 <= dt) dts -> a <= start -> start + total_time dts <= b ->
  exists h, read_seq times fetch (start :: requests start dts) (head0 K) = Ret h.
Proof.
  intros Hs Hn Hr Ha Hb HF L1 L2.
  assert (HR : forall dts cur, Forall (fun dt => 0 <= dt) dts -> a <= cur -> cur + total_time dts <= b -> Forall (recorded times) (requests cur dts)).
  { clear - Ha Hb. induction dts as [|d r IH]; intros cur HF L1 L2; [constructor|].
    inversion HF as [|? ? F1 F2]; subst. cbn [total_time fold_right] in L2. change (fold_right Qplus 0 r) with (total_time r) in L2.
    pose proof (total_nonneg r F2). cbn [requests target_time].
    constructor; [exists a, b; split; [exact Ha|split; [exact Hb|lra]]|].
    constructor; [exists a, b; split; [exact Ha|split; [exact Hb|lra]]|]. apply IH; [exact F2|lra|lra]. }
  destruct (read_seq_in times fetch recs (start :: requests start dts) (head0 K) Hs Hn Hr (head0_sane _ _)) as (h & E & _).
  { constructor; [exists a, b; split; [exact Ha|split; [exact Hb|]]; pose proof (total_nonneg dts HF); lra|].
    apply HR; assumption. }
  exists h. exact E.
Qed.

(** ** Native files: what is written is what is read *)

(** The steps of a run that are to be recorded. *)
Definition selected (freq : Z) (start : Q) (e : Z * (Q * fld)) : bool :=
  ((Z.rem (fst e) freq =? 0)%Z && Qleb (start - loose_tol) (fst (snd e)))%bool.

Lemma write_all_spec freq start l : freq <> 0%Z -> forall d,
  exists d', write_all freq start l d = Ret d' /\
    d_lines d' = d_lines d ++ map (fun e => (fst e, fst (snd e))) (filter (selected freq start) l) /\
    (forall s, ~ In s (map fst (filter (selected freq start) l)) -> d_dirs d' s = d_dirs d s) /\
    (NoDup (map fst l) -> forall s t w, In (s, (t, w)) (filter (selected freq start) l) -> d_dirs d' s = Some w).
Proof.
  intro Hf. induction l as [|[s [t w]] l IH]; intro d.
  { exists d. split; [reflexivity|]. split; [rewrite app_nil_r; reflexivity|]. split; [reflexivity|intros _ s t w []]. }
  cbn [write_all]. unfold write_file. assert (E0 : (freq =? 0)%Z = false) by lia. rewrite E0.
  cbn [filter].
  assert (ES : negb (Z.rem s freq =? 0)%Z || Qltb t (start - loose_tol)
               = negb (selected freq start (s, (t, w)))).
  { unfold selected, Qltb, Qleb. cbn [fst snd]. destruct (Z.rem s freq =? 0)%Z, (Qle_bool (start - loose_tol) t); reflexivity. }
  rewrite ES. destruct (selected freq start (s, (t, w))) eqn:EC; cbn [negb obind].
  - destruct (IH (Disk (d_lines d ++ [(s, t)]) (fun s0 => if (s0 =? s)%Z then Some w else d_dirs d s0))) as (d' & E & L & D1 & D2).
    exists d'. split; [exact E|]. cbn [d_lines d_dirs] in *. split; [rewrite L, <- app_assoc; reflexivity|]. split.
    + intros s0 N. cbn [map In fst] in N. rewrite D1 by (intro X; apply N; right; exact X). assert (E1 : (s0 =? s)%Z = false) by (apply Z.eqb_neq; intro X; apply N; left; symmetry; exact X).
      rewrite E1. reflexivity.
    + intros ND s0 t0 w0 [E1|HI].
      * injection E1 as -> -> ->. cbn [map fst] in ND. inversion ND as [|? ? N1 N2]; subst. rewrite D1.
        -- rewrite Z.eqb_refl. reflexivity.
        -- intro X. apply N1. apply in_map_iff in X as (e & X1 & X2). apply filter_In in X2 as [X2 _].
           apply in_map_iff. exists e. split; assumption.
      * cbn [map fst] in ND. inversion ND; subst. apply (D2 ltac:(assumption) s0 t0 w0 HI).
  - destruct (IH d) as (d' & E & L & D1 & D2). exists d'. split; [exact E|]. split; [exact L|]. split; [exact D1|].
    intros ND. cbn [map fst] in ND. inversion ND; subst. apply D2. assumption.
Qed.

(** A run writes its selected steps and nothing else; read back in another run, after any
    reads, the time of each gives the averages over the plane that were recorded. *)
Theorem c59_native freq start l j s t w ts :
  freq <> 0%Z -> NoDup (map fst l) ->
  let rec := filter (selected freq start) l in
  let times := map (fun e => fst (snd e)) rec in
  nth_error rec j = Some (s, (t, w)) ->
  separated times -> moderate times -> (2 <= length times)%nat -> Forall (recorded times) ts ->
  exists d h, write_all freq start l disk0 = Ret d /\
    disk_times d = times /\
    read_seq (disk_times d) (fetch_native d) (ts ++ [t]) (head0 key) = Ret h /\
    forall p c n, h_di h (Key p c n) = (1 # 2) * (w c n + w (iadd c (v_offset p)) n).
Proof.
  intros Hf ND rec times Hj Hs Hm Hn HF.
  destruct (write_all_spec freq start l Hf disk0) as (d & E & L & _ & D). fold rec in L, D. cbn [disk0 d_lines app] in L.
  assert (ET : disk_times d = times).
  { unfold disk_times. rewrite L, map_map. unfold times. apply map_ext. intros [? [? ?]]. reflexivity. }
  set (recs := fun i k => match nth_error rec i with Some e => read_plane (snd (snd e)) k | None => 0 end).
  assert (Hr : readable times (fetch_native d) recs).
  { intros i Hi. unfold times in Hi. rewrite map_length in Hi.
    destruct (nth_error rec i) as [[s0 [t0 w0]]|] eqn:EN; [|apply nth_error_None in EN; lia].
    unfold fetch_native. rewrite L. rewrite (map_nth_error _ _ _ EN). cbn [fst snd].
    rewrite (D ND s0 t0 w0) by (apply (nth_error_In _ _ EN)). f_equal. unfold recs. rewrite EN. reflexivity. }
  assert (AT : at_ times j t).
  { unfold at_, times. rewrite (map_nth_error _ _ _ Hj). reflexivity. }
  destruct (c41_exact times (fetch_native d) recs ts j t Hs Hm Hn Hr HF AT) as (h & E2 & V).
  exists d, h. split; [exact E|]. split; [exact ET|]. rewrite ET. split; [exact E2|].
  intros p c n. rewrite V. unfold recs. rewrite Hj. reflexivity.
Qed.

(** The ghost cell [c] beside the plane [p] of the box [d]. *)
Definition beside (p : plane) (d : box) (c : ivec) : Prop :=
  (p_dir p = 0 \/ p_dir p = 1 \/ p_dir p = 2)%Z /\
  icomp c (p_dir p) = (if p_high p then icomp (bhi d) (p_dir p) + 1 else icomp (blo d) (p_dir p) - 1)%Z /\
  forall e, (e = 0 \/ e = 1 \/ e = 2)%Z -> e <> p_dir p -> (icomp (blo d) e <= icomp c e <= icomp (bhi d) e)%Z.
(** The cell across the plane, and the one at the opposite end of the domain. *)
Definition inner (p : plane) (d : box) (c : ivec) : ivec :=
  with_comp c (p_dir p) (if p_high p then icomp (bhi d) (p_dir p) else icomp (blo d) (p_dir p)).
Definition opposite_end (p : plane) (d : box) (c : ivec) : ivec :=
  with_comp c (p_dir p) (if p_high p then icomp (blo d) (p_dir p) else icomp (bhi d) (p_dir p)).
Definition nonempty (d : box) : Prop :=
  (iv0 (blo d) <= iv0 (bhi d) /\ iv1 (blo d) <= iv1 (bhi d) /\ iv2 (blo d) <= iv2 (bhi d))%Z.

Lemma wrap_in lo hi c : (lo <= c <= hi)%Z -> wrap lo hi c = c.
Proof. intro H. unfold wrap. rewrite Z.mod_small by lia. lia. Qed.
Lemma wrap_above lo hi : (lo <= hi)%Z -> wrap lo hi (hi + 1) = lo.
Proof. intro H. unfold wrap. replace (hi + 1 - lo)%Z with (hi - lo + 1)%Z by lia. rewrite Z.mod_same by lia. lia. Qed.
Lemma wrap_below lo hi : (lo <= hi)%Z -> wrap lo hi (lo - 1) = hi.
Proof.
  intro H. unfold wrap. replace (lo - 1 - lo)%Z with (hi - lo + (-1) * (hi - lo + 1))%Z by lia.
  rewrite Z.mod_add by lia. rewrite Z.mod_small by lia. lia.
Qed.
Lemma iv_eq a b : iv0 a = iv0 b -> iv1 a = iv1 b -> iv2 a = iv2 b -> a = b.
Proof. destruct a, b; cbn; intros; subst; reflexivity. Qed.
Lemma inbz_true lo hi c : inbz lo hi c = true <-> (lo <= c <= hi)%Z.
Proof. unfold inbz. lia. Qed.
Lemma inb3_true d c : inb3 d c = true <-> in_box d c.
Proof. unfold inb3, in_box. rewrite !Bool.andb_true_iff, !inbz_true. tauto. Qed.
Lemma inb3_false d c : ~ in_box d c -> inb3 d c = false.
Proof. intro H. destruct (inb3 d c) eqn:E; [apply inb3_true in E; tauto|reflexivity]. Qed.

Lemma beside_cases p d c : beside p d c ->
  (p_dir p = 0 /\ iv0 c = (if p_high p then iv0 (bhi d) + 1 else iv0 (blo d) - 1) /\ iv1 (blo d) <= iv1 c <= iv1 (bhi d) /\ iv2 (blo d) <= iv2 c <= iv2 (bhi d))%Z \/
  (p_dir p = 1 /\ iv1 c = (if p_high p then iv1 (bhi d) + 1 else iv1 (blo d) - 1) /\ iv0 (blo d) <= iv0 c <= iv0 (bhi d) /\ iv2 (blo d) <= iv2 c <= iv2 (bhi d))%Z \/
  (p_dir p = 2 /\ iv2 c = (if p_high p then iv2 (bhi d) + 1 else iv2 (blo d) - 1) /\ iv0 (blo d) <= iv0 c <= iv0 (bhi d) /\ iv1 (blo d) <= iv1 c <= iv1 (bhi d))%Z.
Proof.
  intros (P & C & T). pose proof (T 0%Z) as T0. pose proof (T 1%Z) as T1. pose proof (T 2%Z) as T2. clear T.
  unfold icomp in *. destruct P as [P|[P|P]]; rewrite P in *; cbn [Z.eqb Pos.eqb] in *.
  - left. split; [reflexivity|]. split; [exact C|]. split; [apply T1; lia|apply T2; lia].
  - right; left. split; [reflexivity|]. split; [exact C|]. split; [apply T0; lia|apply T2; lia].
  - right; right. split; [reflexivity|]. split; [exact C|]. split; [apply T0; lia|apply T1; lia].
Qed.

(** In a periodic direction the recorded value is the average of the two cells that meet at
    the plane: the one across it and the one at the opposite end of the domain. *)
Theorem c59_native_average per d f p c n :
  nonempty d -> beside p d c -> per (p_dir p) = true ->
  read_plane (register per d f) (Key p c n) = (1 # 2) * (f (opposite_end p d c) n + f (inner p d c) n).
Proof.
  intros (N0 & N1 & N2) B Hp. unfold read_plane; cbn [k_cell k_comp k_plane].
  assert (E1 : wrapv per d c = opposite_end p d c).
  { unfold opposite_end, wrapv, with_comp, icomp. destruct (beside_cases _ _ _ B) as [(P & C & A1 & A2)|[(P & C & A1 & A2)|(P & C & A1 & A2)]];
    rewrite P in *; cbn [Z.eqb Pos.eqb] in *; rewrite Hp; apply iv_eq; cbn [iv0 iv1 iv2];
    try (match goal with |- (if per ?e then _ else _) = _ => destruct (per e) end; [apply wrap_in; assumption|reflexivity]);
    rewrite C; destruct (p_high p); first [apply wrap_above; assumption|apply wrap_below; assumption]. }
  assert (E2 : iadd c (v_offset p) = inner p d c).
  { unfold inner, with_comp, icomp, iadd, v_offset, ineg, unit_vec. destruct (beside_cases _ _ _ B) as [(P & C & A1 & A2)|[(P & C & A1 & A2)|(P & C & A1 & A2)]];
    rewrite P in *; cbn [Z.eqb Pos.eqb] in *; destruct (p_high p); apply iv_eq; cbn [iv0 iv1 iv2]; lia. }
  assert (I1 : in_box d (opposite_end p d c)).
  { unfold in_box, opposite_end, with_comp, icomp. destruct (beside_cases _ _ _ B) as [(P & C & A1 & A2)|[(P & C & A1 & A2)|(P & C & A1 & A2)]];
    rewrite P in *; cbn [Z.eqb Pos.eqb iv0 iv1 iv2] in *; destruct (p_high p); lia. }
  assert (I2 : in_box d (inner p d c)).
  { unfold in_box, inner, with_comp, icomp. destruct (beside_cases _ _ _ B) as [(P & C & A1 & A2)|[(P & C & A1 & A2)|(P & C & A1 & A2)]];
    rewrite P in *; cbn [Z.eqb Pos.eqb iv0 iv1 iv2] in *; destruct (p_high p); lia. }
  assert (W2 : wrapv per d (inner p d c) = inner p d c).
  { destruct I2 as (X & Y & Z). unfold wrapv. apply iv_eq; cbn [iv0 iv1 iv2]; match goal with |- (if per ?e then _ else _) = _ => destruct (per e) end; try reflexivity; apply wrap_in; assumption. }
  rewrite E2. unfold register. rewrite E1, W2, (proj2 (inb3_true _ _) I1), (proj2 (inb3_true _ _) I2). reflexivity.
Qed.

(** In a direction that is not periodic the other half of the average is the filler value
    1e13, so the plane cannot be used as inflow. *)
Theorem c59_native_nonperiodic_refuted per d f p c n :
  nonempty d -> beside p d c -> per (p_dir p) = false ->
  read_plane (register per d f) (Key p c n) = (1 # 2) * (10000000000000 + f (inner p d c) n).
Proof.
  intros (N0 & N1 & N2) B Hp. unfold read_plane; cbn [k_cell k_comp k_plane].
  assert (E2 : iadd c (v_offset p) = inner p d c).
  { unfold inner, with_comp, icomp, iadd, v_offset, ineg, unit_vec. destruct (beside_cases _ _ _ B) as [(P & C & A1 & A2)|[(P & C & A1 & A2)|(P & C & A1 & A2)]];
    rewrite P in *; cbn [Z.eqb Pos.eqb] in *; destruct (p_high p); apply iv_eq; cbn [iv0 iv1 iv2]; lia. }
  assert (I1 : ~ in_box d (wrapv per d c)).
  { unfold in_box, wrapv. destruct (beside_cases _ _ _ B) as [(P & C & A1 & A2)|[(P & C & A1 & A2)|(P & C & A1 & A2)]];
    rewrite P in *; rewrite Hp; cbn [iv0 iv1 iv2] in *; rewrite C; destruct (p_high p); lia. }
  assert (I2 : in_box d (inner p d c)).
  { unfold in_box, inner, with_comp, icomp. destruct (beside_cases _ _ _ B) as [(P & C & A1 & A2)|[(P & C & A1 & A2)|(P & C & A1 & A2)]];
    rewrite P in *; cbn [Z.eqb Pos.eqb iv0 iv1 iv2] in *; destruct (p_high p); lia. }
  assert (W2 : wrapv per d (inner p d c) = inner p d c).
  { destruct I2 as (X & Y & Z). unfold wrapv. apply iv_eq; cbn [iv0 iv1 iv2]; match goal with |- (if per ?e then _ else _) = _ => destruct (per e) end; try reflexivity; apply wrap_in; assumption. }
  rewrite E2. unfold register. rewrite W2, (inb3_false _ _ I1), (proj2 (inb3_true _ _) I2). reflexivity.
Qed.

(** ** NetCDF files *)
Lemma scatter_hit {A} (dflt : Z -> A) l m x :
  (forall y, In (m, y) l -> y = x) -> (dflt m = x \/ exists y, In (m, y) l) -> scatter dflt l m = x.
Proof.
  unfold scatter. generalize (dflt m) as v. induction l as [|[k y] l IH]; intros v H1 H2; cbn [fold_left fst snd].
  { destruct H2 as [H2|[y []]]. exact H2. }
  apply IH; [intros z Hz; apply H1; right; exact Hz|].
  destruct (k =? m)%Z eqn:E.
  - left. apply H1. left. f_equal. lia.
  - destruct H2 as [H2|[z [Hz|Hz]]]; [left; exact H2|injection Hz as -> ->; lia|right; exists z; exact Hz].
Qed.
Lemma flat_div n1 nc i0 i1 n : (0 <= i1 < n1)%Z -> (0 <= n < nc)%Z ->
  (flat n1 nc i0 i1 n / nc / n1 = i0 /\ flat n1 nc i0 i1 n / nc mod n1 = i1 /\ flat n1 nc i0 i1 n mod nc = n)%Z.
Proof.
  intros H1 H2. unfold flat.
  assert (E1 : (((i0 * n1 + i1) * nc + n) / nc = i0 * n1 + i1)%Z).
  { rewrite Z.div_add_l by lia. rewrite Z.div_small by lia. lia. }
  rewrite E1. split; [rewrite Z.div_add_l by lia; rewrite Z.div_small by lia; lia|].
  split; [rewrite Z.add_comm, Z.mod_add by lia; apply Z.mod_small; lia|].
  rewrite Z.add_comm, Z.mod_add by lia. apply Z.mod_small; lia.
Qed.
Lemma flat_inj n1 nc i0 i1 n j0 j1 m : (0 <= i1 < n1)%Z -> (0 <= n < nc)%Z -> (0 <= j1 < n1)%Z -> (0 <= m < nc)%Z ->
  flat n1 nc i0 i1 n = flat n1 nc j0 j1 m -> i0 = j0 /\ i1 = j1 /\ n = m.
Proof.
  intros A B C D E. pose proof (flat_div n1 nc i0 i1 n A B) as (X1 & X2 & X3).
  pose proof (flat_div n1 nc j0 j1 m C D) as (Y1 & Y2 & Y3). rewrite E in X1, X2, X3. lia.
Qed.
Lemma in_loop b nc c n : In (c, n) (loop b nc) <-> in_box b c /\ (0 <= n < nc)%Z.
Proof.
  unfold loop. rewrite in_flat_map. split.
  - intros (m & M & H). apply in_map_iff in H as (c' & E & H). injection E as -> ->. apply in_cells in H. apply In_zrange in M. split; [exact H|lia].
  - intros [H N]. exists n. split; [apply In_zrange; lia|]. apply in_map_iff. exists c. split; [reflexivity|apply in_cells; exact H].
Qed.

(** A layer: one cell thick in direction [d], at [x]. *)
Definition layer_at (d x : Z) (b : box) : Prop := icomp (blo b) d = x /\ icomp (bhi b) d = x.
Lemma dir_cases p : (p_dir p = 0 \/ p_dir p = 1 \/ p_dir p = 2)%Z ->
  (p_dir p = 0 /\ perp (p_dir p) = (1, 2))%Z \/ (p_dir p = 1 /\ perp (p_dir p) = (0, 2))%Z \/ (p_dir p = 2 /\ perp (p_dir p) = (0, 1))%Z.
Proof. intros [P|[P|P]]; rewrite P; cbn; tauto. Qed.
Lemma impl_buffer_spec p b nc f c n x : (p_dir p = 0 \/ p_dir p = 1 \/ p_dir p = 2)%Z ->
  layer_at (p_dir p) x b -> in_box b c -> (0 <= n < nc)%Z ->
  let '(p0, p1) := perp (p_dir p) in
  impl_buffer p b nc f (flat (blen b p1) nc (icomp c p0 - icomp (blo b) p0) (icomp c p1 - icomp (blo b) p1) n)
  = buffer_value p f c n.
Proof.
  intros P (L1 & L2) Hc Hn. destruct (perp (p_dir p)) as [p0 p1] eqn:EP. unfold impl_buffer. rewrite EP.
  apply scatter_hit.
  - intros y H. apply in_map_iff in H as ([c' n'] & E & H). apply in_loop in H as [Hc' Hn']. injection E as E <-.
    unfold plane_idx in E. unfold in_box in Hc, Hc'. unfold icomp, blen in *.
    destruct (dir_cases p P) as [(D & Q)|[(D & Q)|(D & Q)]]; rewrite Q in EP; injection EP as <- <-;
      rewrite D in *; cbn [Z.eqb Pos.eqb] in *;
      unfold icomp in E; cbn [Z.eqb Pos.eqb] in E;
      apply flat_inj in E; try (unfold icomp; cbn [Z.eqb Pos.eqb]; lia); destruct E as (E0 & E1 & E2);
      subst n'; f_equal; apply iv_eq; lia.
  - right. exists (buffer_value p f c n). apply in_map_iff. exists (c, n). split; [reflexivity|]. apply in_loop. split; assumption.
Qed.
Lemma get_flat v n1 nc i0 i1 n : (0 <= i1 < n1)%Z -> (0 <= n < nc)%Z -> get v n1 nc (flat n1 nc i0 i1 n) = v i0 i1 n.
Proof.
  intros A B. unfold get. destruct (flat_div n1 nc i0 i1 n A B) as (E1 & E2 & E3). rewrite E1, E2, E3. reflexivity.
Qed.

(** The lowest corner of the boxes on the plane *)
Lemma min_lo_spec p dom ba e m : (m <= 2147483647)%Z ->
  (forall b, In b ba -> m <= icomp (blo b) e)%Z ->
  (exists b, In b ba /\ touches p dom b = true /\ icomp (blo b) e = m) -> min_lo p dom ba e = m.
Proof.
  intros H0 H1 H2. unfold min_lo. revert H0 H1 H2. generalize 2147483647%Z as x.
  assert (G : forall ba x, (m <= x)%Z -> (forall b, In b ba -> m <= icomp (blo b) e)%Z ->
    (x = m \/ exists b, In b ba /\ touches p dom b = true /\ icomp (blo b) e = m) ->
    fold_left (fun m b => if touches p dom b then Z.min m (icomp (blo b) e) else m) ba x = m).
  { clear. induction ba as [|b ba IH]; intros x Hx H1 H2; cbn [fold_left].
    { destruct H2 as [H2|(b & [] & _)]. exact H2. }
    pose proof (H1 b (or_introl eq_refl)) as Hb. apply IH.
    - destruct (touches p dom b); lia.
    - intros b' Hb'. apply H1. right. exact Hb'.
    - destruct H2 as [H2|(b' & [E|HI] & T & E2)].
      + left. destruct (touches p dom b); lia.
      + subst b'. left. rewrite T. lia.
      + right. exists b'. repeat split; assumption. }
  intros x H0 H1 H2. apply G; [exact H0|exact H1|right; exact H2].
Qed.
Lemma minimal_box_spec ba : forall b0 b, b = b0 \/ In b ba ->
  (iv0 (blo (minimal_box b0 ba)) <= iv0 (blo b) /\ iv1 (blo (minimal_box b0 ba)) <= iv1 (blo b) /\ iv2 (blo (minimal_box b0 ba)) <= iv2 (blo b) /\
   iv0 (bhi b) <= iv0 (bhi (minimal_box b0 ba)) /\ iv1 (bhi b) <= iv1 (bhi (minimal_box b0 ba)) /\ iv2 (bhi b) <= iv2 (bhi (minimal_box b0 ba)))%Z.
Proof.
  unfold minimal_box. induction ba as [|a ba IH]; intros b0 b [H|H]; cbn [fold_left].
  - subst. lia.
  - destruct H.
  - subst b0. pose proof (IH (Box (lower (blo b) (blo a)) (upper (bhi b) (bhi a))) _ (or_introl eq_refl)) as G.
    cbn [blo bhi lower upper iv0 iv1 iv2] in G. lia.
  - destruct H as [H|H].
    + subst a. pose proof (IH (Box (lower (blo b0) (blo b)) (upper (bhi b0) (bhi b))) _ (or_introl eq_refl)) as G.
      cbn [blo bhi lower upper iv0 iv1 iv2] in G. lia.
    + apply (IH _ b (or_intror H)).
Qed.
Lemma minimal_box_icomp b0 ba b e : b = b0 \/ In b ba ->
  (icomp (blo (minimal_box b0 ba)) e <= icomp (blo b) e /\ icomp (bhi b) e <= icomp (bhi (minimal_box b0 ba)) e)%Z.
Proof.
  intro H. pose proof (minimal_box_spec ba b0 b H). unfold icomp. destruct (e =? 0)%Z; [lia|]. destruct (e =? 1)%Z; lia.
Qed.

Lemma write_nc_spec p dom ba nc f (c : ivec) n p0 p1 (m0 m1 : Z) x : (p_dir p = 0 \/ p_dir p = 1 \/ p_dir p = 2)%Z ->
  perp (p_dir p) = (p0, p1) -> (0 <= n < nc)%Z ->
  min_lo p dom ba p0 = m0 -> min_lo p dom ba p1 = m1 ->
  icomp c (p_dir p) = x -> x = (if p_high p then icomp (bhi dom) (p_dir p) + 1 else icomp (blo dom) (p_dir p))%Z ->
  forall l v, (forall b, In b l -> In b ba) ->
   (v (icomp c p0 - m0)%Z (icomp c p1 - m1)%Z n = buffer_value p f c n \/
    exists b, In b l /\ touches p dom b = true /\
      (icomp (blo b) p0 <= icomp c p0 <= icomp (bhi b) p0)%Z /\ (icomp (blo b) p1 <= icomp c p1 <= icomp (bhi b) p1)%Z) ->
   fold_left (write_box p dom ba nc f) l v (icomp c p0 - m0)%Z (icomp c p1 - m1)%Z n = buffer_value p f c n.
Proof.
  intros P EP Hn M0 M1 CX X. induction l as [|b l IH]; intros v HI H; cbn [fold_left].
  { destruct H as [H|(b & [] & _)]. exact H. }
  apply IH; [intros; apply HI; right; assumption|].
  unfold write_box. rewrite EP. rewrite M0, M1.
  assert (LC : forall w, icomp (with_comp w (p_dir p) x) p0 = icomp w p0 /\ icomp (with_comp w (p_dir p) x) p1 = icomp w p1 /\ icomp (with_comp w (p_dir p) x) (p_dir p) = x).
  { intro w. unfold with_comp, icomp. destruct (dir_cases p P) as [(D & Q)|[(D & Q)|(D & Q)]]; rewrite Q in EP; injection EP as <- <-; rewrite D; cbn; tauto. }
  destruct (touches p dom b) eqn:T.
  - unfold put. set (l' := face_layer p dom b).
    assert (EL : l' = Box (with_comp (blo b) (p_dir p) x) (with_comp (bhi b) (p_dir p) x)) by (unfold l', face_layer; rewrite <- X; reflexivity).
    destruct (LC (blo b)) as (B0 & B1 & B2). destruct (LC (bhi b)) as (C0 & C1 & C2).
    destruct (inbz _ _ _ && inbz _ _ _ && inbz _ _ _)%bool eqn:G.
    + left. apply Bool.andb_true_iff in G as [G _]. apply Bool.andb_true_iff in G as [G0 G1].
      apply inbz_true in G0. apply inbz_true in G1. unfold blen in *. rewrite EL in *. cbn [blo bhi] in *. rewrite B0, B1, C0, C1 in *.
      pose proof (impl_buffer_spec p (Box (with_comp (blo b) (p_dir p) x) (with_comp (bhi b) (p_dir p) x)) nc f c n x P) as HB.
      rewrite EP in HB. unfold blen in HB. cbn [blo bhi] in HB. rewrite B0, B1, C1 in HB.
      replace (icomp c p0 - m0 - (icomp (blo b) p0 - m0))%Z with (icomp c p0 - icomp (blo b) p0)%Z by lia.
      replace (icomp c p1 - m1 - (icomp (blo b) p1 - m1))%Z with (icomp c p1 - icomp (blo b) p1)%Z by lia.
      apply HB; [split; [exact B2|exact C2]| |exact Hn].
      unfold in_box. cbn [blo bhi].
      assert (I0 : (icomp (with_comp (blo b) (p_dir p) x) p0 <= icomp c p0 <= icomp (with_comp (bhi b) (p_dir p) x) p0)%Z) by lia.
      assert (I1 : (icomp (with_comp (blo b) (p_dir p) x) p1 <= icomp c p1 <= icomp (with_comp (bhi b) (p_dir p) x) p1)%Z) by lia.
      assert (I2 : (icomp (with_comp (blo b) (p_dir p) x) (p_dir p) <= icomp c (p_dir p) <= icomp (with_comp (bhi b) (p_dir p) x) (p_dir p))%Z) by lia.
      clear - P EP I0 I1 I2. unfold icomp in I0, I1, I2.
      destruct (dir_cases p P) as [(D & Q)|[(D & Q)|(D & Q)]]; rewrite Q in EP; injection EP as <- <-; rewrite D in *; cbn [Z.eqb Pos.eqb] in *; tauto.
    + destruct H as [H|(b' & [E|HIn] & T' & R0 & R1)].
      * left. exact H.
      * subst b'. exfalso. apply Bool.not_true_iff_false in G. apply G.
        unfold blen. rewrite EL. cbn [blo bhi]. rewrite B0, B1, C0, C1.
        rewrite !Bool.andb_true_iff, !inbz_true. lia.
      * right. exists b'. repeat split; try assumption; lia.
  - destruct H as [H|(b' & [E|HIn] & T' & R0 & R1)]; [left; exact H|subst b'; congruence|].
    right. exists b'. repeat split; try assumption; lia.
Qed.

(** A level of boxes [b0 :: ba] with minimal box [mb] in the domain [dom], and a ghost cell
    [c] beside the plane behind one of the boxes.  The boxes at the plane reach the lowest
    corner of the minimal box. *)
Definition reaches_corner (p : plane) (dom : box) (ba : list box) (mb : box) : Prop :=
  forall e, (e = fst (perp (p_dir p)) \/ e = snd (perp (p_dir p))) ->
    (icomp (blo mb) e <= 2147483647)%Z /\
    exists b, In b ba /\ touches p dom b = true /\ icomp (blo b) e = icomp (blo mb) e.
Definition behind (p : plane) (dom b : box) (c : ivec) : Prop :=
  touches p dom b = true /\
  forall e, (e = 0 \/ e = 1 \/ e = 2)%Z -> e <> p_dir p -> (icomp (blo b) e <= icomp c e <= icomp (bhi b) e)%Z.
Lemma netcdf_value p dom b0 bs nc f v b c n :
  (p_dir p = 0 \/ p_dir p = 1 \/ p_dir p = 2)%Z -> (0 <= n < nc)%Z ->
  let ba := b0 :: bs in let mb := minimal_box b0 bs in
  reaches_corner p dom ba mb -> In b ba -> behind p dom b c ->
  read_nc p (plane_box p mb) nc (write_nc p dom ba nc f v) c n =
  buffer_value p f (with_comp c (p_dir p) (if p_high p then icomp (bhi dom) (p_dir p) + 1 else icomp (blo dom) (p_dir p))%Z) n.
Proof.
  intros P Hn ba mb HR Hb (T & HT). unfold read_nc. destruct (perp (p_dir p)) as [p0 p1] eqn:EP.
  set (x := (if p_high p then icomp (bhi dom) (p_dir p) + 1 else icomp (blo dom) (p_dir p))%Z).
  assert (PP : ((p0 = 0 \/ p0 = 1 \/ p0 = 2) /\ p0 <> p_dir p /\ (p1 = 0 \/ p1 = 1 \/ p1 = 2) /\ p1 <> p_dir p)%Z).
  { destruct (dir_cases p P) as [(D & Q)|[(D & Q)|(D & Q)]]; rewrite Q in EP; injection EP as <- <-; rewrite D; lia. }
  destruct PP as (P0 & N0 & P1 & N1).
  assert (LC : forall w y, icomp (with_comp w (p_dir p) y) p0 = icomp w p0 /\ icomp (with_comp w (p_dir p) y) p1 = icomp w p1 /\ icomp (with_comp w (p_dir p) y) (p_dir p) = y).
  { intros w y. unfold with_comp, icomp. destruct (dir_cases p P) as [(D & Q)|[(D & Q)|(D & Q)]]; rewrite Q in EP; injection EP as <- <-; rewrite D; cbn; tauto. }
  assert (HB : b = b0 \/ In b bs) by (destruct Hb as [<-|Hb]; [left; reflexivity|right; exact Hb]).
  assert (ML : forall e, (e = p0 \/ e = p1) -> min_lo p dom ba e = icomp (blo mb) e).
  { intros e He. destruct (HR e) as (R1 & b' & R2 & R3 & R4); [rewrite EP; exact He|].
    apply min_lo_spec; [exact R1| |exists b'; repeat split; assumption].
    intros b'' Hb''. apply (minimal_box_icomp b0 bs b'' e). destruct Hb'' as [<-|Hb'']; [left; reflexivity|right; exact Hb'']. }
  pose proof (minimal_box_icomp b0 bs b p0 HB) as (MB0 & MB1). pose proof (minimal_box_icomp b0 bs b p1 HB) as (MB2 & MB3).
  fold mb in MB0, MB1, MB2, MB3. pose proof (HT p0 P0 N0) as H0. pose proof (HT p1 P1 N1) as H1.
  unfold plane_idx. set (y := (if p_high p then (icomp (bhi mb) (p_dir p) + 1)%Z else (-1)%Z)).
  assert (EPB : plane_box p mb = Box (with_comp (blo mb) (p_dir p) y) (with_comp (bhi mb) (p_dir p) y)) by reflexivity.
  unfold blen. rewrite EPB. cbn [blo bhi].
  destruct (LC (blo mb) y) as (A0 & A1 & _). destruct (LC (bhi mb) y) as (B0 & B1 & _). rewrite A0, A1, B1.
  rewrite get_flat by lia.
  destruct (LC c x) as (C0 & C1 & C2). rewrite <- C0, <- C1 at 1.
  unfold write_nc. apply (write_nc_spec p dom ba nc f (with_comp c (p_dir p) x) n p0 p1 (icomp (blo mb) p0) (icomp (blo mb) p1) x P EP Hn); try assumption.
  - apply ML; left; reflexivity.
  - apply ML; right; reflexivity.
  - reflexivity.
  - intros; assumption.
  - right. exists b. rewrite C0, C1. repeat split; try assumption; lia.
Qed.

(** Low planes: the value that is read is the average of the ghost cell and its neighbour
    across the plane. *)
Theorem c59_netcdf_low p dom b0 bs nc f v b c n :
  (p_dir p = 0 \/ p_dir p = 1 \/ p_dir p = 2)%Z -> p_high p = false -> (0 <= n < nc)%Z ->
  icomp (blo dom) (p_dir p) = 0%Z -> icomp c (p_dir p) = (-1)%Z ->
  reaches_corner p dom (b0 :: bs) (minimal_box b0 bs) -> In b (b0 :: bs) -> behind p dom b c ->
  read_nc p (plane_box p (minimal_box b0 bs)) nc (write_nc p dom (b0 :: bs) nc f v) c n =
  (1 # 2) * (f (with_comp c (p_dir p) 0) n + f c n).
Proof.
  intros P HL Hn D0 C0 HR HI HB. rewrite (netcdf_value p dom b0 bs nc f v b c n P Hn HR HI HB).
  unfold buffer_value. rewrite HL, D0.
  assert (E : isub (with_comp c (p_dir p) 0) (v_offset p) = c).
  { unfold isub, iadd, ineg, v_offset, unit_vec. rewrite HL. unfold with_comp. unfold icomp in C0.
    destruct P as [P|[P|P]]; rewrite P in *; cbn [Z.eqb Pos.eqb iv0 iv1 iv2] in *; apply iv_eq; cbn [iv0 iv1 iv2]; lia. }
  rewrite E. reflexivity.
Qed.

(** High planes: the two cells that are averaged both lie outside the domain; a field that
    grows by one from cell to cell is read one too large. *)
Theorem c59_netcdf_high_refuted p dom b0 bs nc f v b c n :
  (p_dir p = 0 \/ p_dir p = 1 \/ p_dir p = 2)%Z -> p_high p = true -> (0 <= n < nc)%Z ->
  icomp c (p_dir p) = (icomp (bhi dom) (p_dir p) + 1)%Z ->
  reaches_corner p dom (b0 :: bs) (minimal_box b0 bs) -> In b (b0 :: bs) -> behind p dom b c ->
  let read := read_nc p (plane_box p (minimal_box b0 bs)) nc (write_nc p dom (b0 :: bs) nc f v) c n in
  read = (1 # 2) * (f c n + f (with_comp c (p_dir p) (icomp (bhi dom) (p_dir p) + 2)) n) /\
  ((forall c', f c' n = inject_Z (icomp c' (p_dir p))) ->
   read == (1 # 2) * (f c n + f (with_comp c (p_dir p) (icomp (bhi dom) (p_dir p))) n) + 1).
Proof.
  intros P HL Hn C0 HR HI HB read. unfold read. rewrite (netcdf_value p dom b0 bs nc f v b c n P Hn HR HI HB).
  unfold buffer_value. rewrite HL.
  assert (E0 : with_comp c (p_dir p) (icomp (bhi dom) (p_dir p) + 1) = c).
  { unfold with_comp. unfold icomp in *. destruct P as [P|[P|P]]; rewrite P in *; cbn [Z.eqb Pos.eqb iv0 iv1 iv2] in *; apply iv_eq; cbn [iv0 iv1 iv2]; lia. }
  assert (E : isub c (v_offset p) = with_comp c (p_dir p) (icomp (bhi dom) (p_dir p) + 2)).
  { unfold isub, iadd, v_offset. rewrite HL. unfold ineg, unit_vec, with_comp. unfold icomp in *.
    destruct P as [P|[P|P]]; rewrite P in *; cbn [Z.eqb Pos.eqb iv0 iv1 iv2] in *; apply iv_eq; cbn [iv0 iv1 iv2]; lia. }
  rewrite E0, E. split; [reflexivity|]. intro HF. rewrite !HF.
  assert (W : forall y, icomp (with_comp c (p_dir p) y) (p_dir p) = y).
  { intro y. unfold with_comp, icomp. destruct P as [P|[P|P]]; rewrite P; reflexivity. }
  rewrite !W, C0. rewrite !inject_Z_plus. change (inject_Z 1) with 1. change (inject_Z 2) with 2. ring.
Qed.

(** A level whose boxes at the plane do not reach the corner of its minimal box: every
    value is read from another row than the one it was written to. *)
Theorem c59_netcdf_shift_refuted :
  exists dom b0 b1 f,
    let p := Plane 0 false in let c := IV (-1) 2 0 in
    behind p dom b0 c /\
    let read := read_nc p (plane_box p (minimal_box b0 [b1])) 1 (write_nc p dom [b0; b1] 1 f (fun _ _ _ => 0)) in
    ~ read c 0%Z == (1 # 2) * (f (IV 0 2 0) 0%Z + f c 0%Z) /\
    read (IV (-1) 0 0) 0%Z == (1 # 2) * (f (IV 0 2 0) 0%Z + f c 0%Z).
Proof.
  exists (Box (IV 0 0 0) (IV 3 3 3)), (Box (IV 0 2 0) (IV 1 3 3)), (Box (IV 2 0 0) (IV 3 1 3)),
    (fun c _ => inject_Z (iv1 c) + 1). cbn zeta. split; [|split].
  - split; [reflexivity|]. intros e He Hd. unfold icomp. cbn [p_dir] in Hd.
    destruct He as [He|He]; [lia|destruct He as [He|He]; subst e; cbn; lia].
  - vm_compute. discriminate.
  - vm_compute. reflexivity.
Qed.

(** ** Destination of the data *)

(** Cell-centred fields: the ghost cells of the plane inside the grown box, and only they. *)
Theorem c59_cells grown bnd p src dest c :
  populate_box (fun _ => false) grown bnd p src dest c =
  if inb3 grown c && inb3 bnd c then src c else dest c.
Proof.
  unfold populate_box, face_aware. rewrite Bool.andb_false_r.
  assert (EE : enclosed (fun _ => false) grown = grown).
  { destruct grown as [lo [h0 h1 h2]]. unfold enclosed. cbn [bhi blo iv0 iv1 iv2]. rewrite !Z.sub_0_r. reflexivity. }
  rewrite EE. set (bx := inter grown bnd).
  assert (EB : inb3 bx c = inb3 grown c && inb3 bnd c).
  { unfold bx, inb3, inbz, inter, upper, lower. cbn [blo bhi iv0 iv1 iv2]. lia. }
  assert (EC : iadd c (IV 0 0 0) = c) by (apply iv_eq; unfold iadd; cbn [iv0 iv1 iv2]; lia).
  destruct (is_empty bx); rewrite EB, EC; reflexivity.
Qed.

(** Velocities on the faces normal to the plane: the face outside the ghost cell on both
    sides - one below the domain's first face, one above its last - takes the value of the
    plane. *)
Definition on_faces (d : Z) : Z -> bool := fun e => (e =? d)%Z.
Theorem c59_faces dom p src dest c :
  (p_dir p = 0 \/ p_dir p = 1 \/ p_dir p = 2)%Z -> nonempty dom ->
  let d := p_dir p in
  let first_face := icomp (blo dom) d in let last_face := (icomp (bhi dom) d + 1)%Z in
  let grown := Box (iadd (blo dom) (IV (-1) (-1) (-1))) (iadd (iadd (bhi dom) (IV 1 1 1)) (unit_vec d)) in
  let ghost := if p_high p then last_face else (first_face - 1)%Z in
  let bnd := Box (with_comp (blo dom) d ghost) (with_comp (bhi dom) d ghost) in
  (forall e, (e = 0 \/ e = 1 \/ e = 2)%Z -> e <> d -> (icomp (blo dom) e <= icomp c e <= icomp (bhi dom) e)%Z) ->
  populate_box (on_faces d) grown bnd p src dest c =
  if (icomp c d =? (if p_high p then last_face + 1 else first_face - 1))%Z
  then src (with_comp c d ghost) else dest c.
Proof.
  intros P (N0 & N1 & N2) d ff lf grown ghost bnd HT.
  pose proof (HT 0%Z) as T0. pose proof (HT 1%Z) as T1. pose proof (HT 2%Z) as T2. clear HT.
  unfold populate_box, face_aware.
  assert (NE : is_empty (inter (enclosed (on_faces d) grown) bnd) = false).
  { unfold is_empty, inter, enclosed, grown, bnd, ghost, on_faces, upper, lower, iadd, unit_vec, with_comp, ff, lf, d, icomp.
    destruct P as [P|[P|P]]; rewrite P; cbn [Z.eqb Pos.eqb blo bhi iv0 iv1 iv2]; destruct (p_high p); lia. }
  assert (OF : (p_high p && on_faces d (p_dir p))%bool = p_high p) by (unfold on_faces, d; rewrite Z.eqb_refl, Bool.andb_true_r; reflexivity).
  rewrite NE, OF.
  destruct (p_high p) eqn:EH.
  - assert (EI : inb3 (shift_box (inter (enclosed (on_faces d) grown) bnd) (tyvec (on_faces d))) c = (icomp c d =? lf + 1)%Z).
    { unfold inb3, inbz, shift_box, inter, enclosed, grown, bnd, ghost, tyvec, on_faces, upper, lower, iadd, unit_vec, with_comp, ff, lf, d, icomp in *.
      destruct P as [P|[P|P]]; rewrite P in *; cbn [Z.eqb Pos.eqb blo bhi iv0 iv1 iv2] in *; lia. }
    rewrite EI. destruct (icomp c d =? lf + 1)%Z eqn:EQ; [|reflexivity]. f_equal.
    unfold iadd, ineg, tyvec, on_faces, with_comp, ghost, lf, d, icomp in *.
    destruct P as [P|[P|P]]; rewrite P in *; cbn [Z.eqb Pos.eqb blo bhi iv0 iv1 iv2] in *; apply iv_eq; cbn [iv0 iv1 iv2]; lia.
  - assert (EI : inb3 (inter (enclosed (on_faces d) grown) bnd) c = (icomp c d =? ff - 1)%Z).
    { unfold inb3, inbz, shift_box, inter, enclosed, grown, bnd, ghost, tyvec, on_faces, upper, lower, iadd, unit_vec, with_comp, ff, lf, d, icomp in *.
      destruct P as [P|[P|P]]; rewrite P in *; cbn [Z.eqb Pos.eqb blo bhi iv0 iv1 iv2] in *; lia. }
    rewrite EI. destruct (icomp c d =? ff - 1)%Z eqn:EQ; [|reflexivity]. f_equal.
    unfold iadd, with_comp, ghost, ff, d, icomp in *.
    destruct P as [P|[P|P]]; rewrite P in *; cbn [Z.eqb Pos.eqb blo bhi iv0 iv1 iv2] in *; apply iv_eq; cbn [iv0 iv1 iv2]; lia.
Qed.

(** ** A case: three records, five requests *)
Definition ex_times : list Q := [0; 1; 3].
Definition ex_fetch (i : nat) : outcome (unit -> Q) := Ret (fun _ => nth i [10; 20; 60] 0).
Lemma ex_at i a : at_ ex_times i a -> (i = 0%nat /\ a = 0) \/ (i = 1%nat /\ a = 1) \/ (i = 2%nat /\ a = 3).
Proof.
  unfold at_, ex_times. destruct i as [|[|[|i]]]; cbn; intro H; try (injection H as <-; tauto). destruct i; discriminate.
Qed.
Example c41_case :
  separated ex_times /\ moderate ex_times /\ readable ex_times ex_fetch (fun i _ => nth i [10; 20; 60] 0) /\
  Forall (recorded ex_times) [0; 1 # 2; 1; 2; 3] /\
  exists h, read_seq ex_times ex_fetch [0; 1 # 2; 1; 2] (head0 unit) = Ret h /\ h_di h tt == 40.
Proof.
  split; [|split; [|split; [|split]]].
  - intros i a b HA HB. apply ex_at in HA. apply ex_at in HB. unfold loose_tol, eps.
    destruct HA as [(->&->)|[(->&->)|(->&->)]], HB as [(E&->)|[(E&->)|(E&->)]]; try discriminate; try lia; vm_compute; discriminate.
  - intros i a H. apply ex_at in H. destruct H as [(_&->)|[(_&->)|(_&->)]]; lra.
  - intros i _. reflexivity.
  - repeat (constructor; [exists 0, 3; split; [reflexivity|split; [reflexivity|lra]]|]). constructor.
  - eexists. split; [vm_compute; reflexivity|]. vm_compute. reflexivity.
Qed.

Print Assumptions c41_bracket.
Print Assumptions c41_exact.
Print Assumptions c41_linear.
Print Assumptions c41_refused.
Print Assumptions c41_edges.
Print Assumptions c41_one_record_refuted.
Print Assumptions c41_fill.
Print Assumptions c41_fill_faces.
Print Assumptions c41_run.
Print Assumptions c59_native.
Print Assumptions c59_native_average.
Print Assumptions c59_native_nonperiodic_refuted.
Print Assumptions c59_netcdf_low.
Print Assumptions c59_netcdf_high_refuted.
Print Assumptions c59_netcdf_shift_refuted.
Print Assumptions c59_cells.
Print Assumptions c59_faces.
