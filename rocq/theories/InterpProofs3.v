From Coq Require Import Setoid Qabs Arith PeanoNat ZifyBool ZifyNat Morphisms.
From Verif Require Import BaseFacts Interp InterpSpec InterpProofs InterpProofs2.
Local Open Scope Q_scope.

(** *** C18 *)
Lemma bilinear_valid xs ys zs x y ax bx ay by_ :
  nondecreasing xs -> nondecreasing ys -> (2 <= length xs)%nat -> (2 <= length ys)%nat ->
  length zs = (length xs * length ys)%nat ->
  at_ xs 0 ax -> ax <= x -> at_ xs (length xs - 1) bx -> x <= bx ->
  at_ ys 0 ay -> ay <= y -> at_ ys (length ys - 1) by_ -> y <= by_ ->
  exists i j x0 x1 y0 y1 z00 z10 z01 z11,
    at_ xs i x0 /\ at_ xs (S i) x1 /\ at_ ys j y0 /\ at_ ys (S j) y1
    /\ x0 <= x /\ x <= x1 /\ y0 <= y /\ y <= y1
    /\ at_ zs (i * length ys + j) z00 /\ at_ zs (S i * length ys + j) z10
    /\ at_ zs (i * length ys + S j) z01 /\ at_ zs (S i * length ys + S j) z11
    /\ bilinear xs ys zs x y = Ret (z00 * (1 - wgt x0 x1 x) * (1 - wgt y0 y1 y)
         + z10 * wgt x0 x1 x * (1 - wgt y0 y1 y)
         + z01 * (1 - wgt x0 x1 x) * wgt y0 y1 y + z11 * wgt x0 x1 x * wgt y0 y1 y).
Proof.
  intros Sx Sy Lx Ly Lz Hax Hx1 Hbx Hx2 Hay Hy1 Hby Hy2.
  destruct (bisection_search_valid xs x ax bx Sx Lx Hax Hx1 Hbx Hx2) as (i & I1 & I2 & I3 & (x1 & X1 & X1x)).
  destruct (left_ok_le _ _ _ _ Hax Hx1 I3) as (x0 & X0 & X0x).
  destruct (bisection_search_valid ys y ay by_ Sy Ly Hay Hy1 Hby Hy2) as (j & J1 & J2 & J3 & (y1 & Y1 & Y1x)).
  destruct (left_ok_le _ _ _ _ Hay Hy1 J3) as (y0 & Y0 & Y0x).
  destruct (at_lt zs (i * length ys + j)) as [z00 Z00]; [nia|].
  destruct (at_lt zs (S i * length ys + j)) as [z10 Z10]; [nia|].
  destruct (at_lt zs (i * length ys + S j)) as [z01 Z01]; [nia|].
  destruct (at_lt zs (S i * length ys + S j)) as [z11 Z11]; [nia|].
  exists i, j, x0, x1, y0, y1, z00, z10, z01, z11.
  do 12 (split; [assumption|]).
  unfold bilinear. assert (E : (length xs * length ys =? length zs)%nat = true) by lia. rewrite E.
  rewrite I1, J1. cbn [obind]. unfold bilinear_impl. cbn [lim ix].
  replace (i + 1)%nat with (S i) by lia. replace (j + 1)%nat with (S j) by lia.
  rewrite (rd_at _ _ _ X1), (rd_at _ _ _ X0). cbn [obind].
  rewrite (rd_at _ _ _ Y1), (rd_at _ _ _ Y0). cbn [obind].
  rewrite (rd_at _ _ _ Z00), (rd_at _ _ _ Z10), (rd_at _ _ _ Z01), (rd_at _ _ _ Z11). cbn [obind]. reflexivity.
Qed.

Lemma bilinear_exact xs ys zs x y ax bx ay by_ a b c d :
  nondecreasing xs -> nondecreasing ys -> spaced xs -> spaced ys ->
  (2 <= length xs)%nat -> (2 <= length ys)%nat ->
  length zs = (length xs * length ys)%nat ->
  at_ xs 0 ax -> ax <= x -> at_ xs (length xs - 1) bx -> x <= bx ->
  at_ ys 0 ay -> ay <= y -> at_ ys (length ys - 1) by_ -> y <= by_ ->
  (forall i j xi yj z, at_ xs i xi -> at_ ys j yj -> at_ zs (i * length ys + j) z ->
     z == a + b * xi + c * yj + d * xi * yj) ->
  exists v, bilinear xs ys zs x y = Ret v /\ v == a + b * x + c * y + d * x * y.
Proof.
  intros Sx Sy Px Py Lx Ly Lz Hax Hx1 Hbx Hx2 Hay Hy1 Hby Hy2 Hf.
  destruct (bilinear_valid xs ys zs x y ax bx ay by_) as
    (i & j & x0 & x1 & y0 & y1 & z00 & z10 & z01 & z11 & X0 & X1 & Y0 & Y1 & _ & _ & _ & _ & Z00 & Z10 & Z01 & Z11 & E); auto.
  eexists. split; [exact E|].
  rewrite (Hf _ _ _ _ _ X0 Y0 Z00), (Hf _ _ _ _ _ X1 Y0 Z10), (Hf _ _ _ _ _ X0 Y1 Z01), (Hf _ _ _ _ _ X1 Y1 Z11).
  assert (Wx := wgt_eq x0 x1 x (Px _ _ _ X0 X1)). assert (Wy := wgt_eq y0 y1 y (Py _ _ _ Y0 Y1)).
  set (u := wgt x0 x1 x) in *. set (w := wgt y0 y1 y) in *.
  assert (Ex : x == x0 + u * (x1 - x0)) by lra. assert (Ey : y == y0 + w * (y1 - y0)) by lra.
  rewrite Ex, Ey. ring.
Qed.

Lemma bilinear_bounds xs ys zs x y ax bx ay by_ :
  nondecreasing xs -> nondecreasing ys -> (2 <= length xs)%nat -> (2 <= length ys)%nat ->
  length zs = (length xs * length ys)%nat ->
  at_ xs 0 ax -> ax <= x -> at_ xs (length xs - 1) bx -> x <= bx ->
  at_ ys 0 ay -> ay <= y -> at_ ys (length ys - 1) by_ -> y <= by_ ->
  exists i j v, brackets xs i x /\ brackets ys j y /\ bilinear xs ys zs x y = Ret v
    /\ forall lo hi,
       (forall i' j' z, (i' = i \/ i' = S i) -> (j' = j \/ j' = S j) -> at_ zs (i' * length ys + j') z -> lo <= z /\ z <= hi) ->
       lo <= v /\ v <= hi.
Proof.
  intros Sx Sy Lx Ly Lz Hax Hx1 Hbx Hx2 Hay Hy1 Hby Hy2.
  destruct (bilinear_valid xs ys zs x y ax bx ay by_) as
    (i & j & x0 & x1 & y0 & y1 & z00 & z10 & z01 & z11 & X0 & X1 & Y0 & Y1 & A1 & A2 & A3 & A4 & Z00 & Z10 & Z01 & Z11 & E); auto.
  exists i, j. eexists. split; [exists x0, x1; auto|]. split; [exists y0, y1; auto|]. split; [exact E|].
  intros lo hi Hb.
  destruct (Hb i j z00) as [L00 H00]; auto. destruct (Hb (S i) j z10) as [L10 H10]; auto.
  destruct (Hb i (S j) z01) as [L01 H01]; auto. destruct (Hb (S i) (S j) z11) as [L11 H11]; auto.
  destruct (wgt_range x0 x1 x A1 A2) as [U0 U1]. destruct (wgt_range y0 y1 y A3 A4) as [W0 W1].
  set (u := wgt x0 x1 x) in *. set (w := wgt y0 y1 y) in *.
  assert (C00 : 0 <= (1 - u) * (1 - w)) by (apply Qmult_le_0_compat; lra).
  assert (C10 : 0 <= u * (1 - w)) by (apply Qmult_le_0_compat; lra).
  assert (C01 : 0 <= (1 - u) * w) by (apply Qmult_le_0_compat; lra).
  assert (C11 : 0 <= u * w) by (apply Qmult_le_0_compat; lra).
  assert (D00 : 0 <= (1 - u) * (1 - w) * (z00 - lo)) by (apply Qmult_le_0_compat; lra).
  assert (D10 : 0 <= u * (1 - w) * (z10 - lo)) by (apply Qmult_le_0_compat; lra).
  assert (D01 : 0 <= (1 - u) * w * (z01 - lo)) by (apply Qmult_le_0_compat; lra).
  assert (D11 : 0 <= u * w * (z11 - lo)) by (apply Qmult_le_0_compat; lra).
  assert (F00 : 0 <= (1 - u) * (1 - w) * (hi - z00)) by (apply Qmult_le_0_compat; lra).
  assert (F10 : 0 <= u * (1 - w) * (hi - z10)) by (apply Qmult_le_0_compat; lra).
  assert (F01 : 0 <= (1 - u) * w * (hi - z01)) by (apply Qmult_le_0_compat; lra).
  assert (F11 : 0 <= u * w * (hi - z11)) by (apply Qmult_le_0_compat; lra).
  split; lra.
Qed.

Lemma out_idx_search xs x k : (2 <= length xs)%nat -> out_idx xs x k ->
  exists l, bisection_search xs x = Ret (mkIndex k l) /\ l <> VALID.
Proof.
  intros Hl H. unfold bisection_search, bisection_search_probes.
  destruct (check_bounds_spec xs x) as (i & Ei & Hq). rewrite Ei. cbn [obind].
  destruct H as [(-> & a & A & Ax)|(-> & a & b & A & Ax & B & Bx)];
  inversion Hq as [K|a' K H1 H2|a' b' K H1 H2 H3 H4|a' b' K H1 H2 H3 H4]; subst; cbn;
    try lia; try (eexists; split; [reflexivity|discriminate]);
    try (rewrite (at_fun _ _ _ _ A H1) in *; lra).
  rewrite (at_fun _ _ _ _ B H3) in *; lra.
Qed.

Lemma bilinear_corner xs ys zs x y k m z :
  (2 <= length xs)%nat -> (2 <= length ys)%nat -> length zs = (length xs * length ys)%nat ->
  out_idx xs x k -> out_idx ys y m -> at_ zs (k * length ys + m) z ->
  bilinear xs ys zs x y = Ret z.
Proof.
  intros Lx Ly Lz Hk Hm Hz. unfold bilinear.
  assert (E : (length xs * length ys =? length zs)%nat = true) by lia. rewrite E.
  destruct (out_idx_search xs x k Lx Hk) as (l1 & -> & N1). destruct (out_idx_search ys y m Ly Hm) as (l2 & -> & N2).
  cbn [obind]. unfold bilinear_impl. cbn [lim ix].
  destruct l1; try congruence; destruct l2; try congruence; apply rd_at; exact Hz.
Qed.

(** *** C20 *)
Lemma sumQ_ext g h n : (forall i, (i < n)%nat -> g i == h i) -> sumQ g n == sumQ h n.
Proof.
  induction n as [|n IH]; intro H; [reflexivity|]. cbn [sumQ]. rewrite IH, (H n); [reflexivity|lia|]. intros; apply H; lia.
Qed.

Lemma sumQ_app g n m : sumQ g (n + m) == sumQ g n + sumQ (fun i => g (n + i)%nat) m.
Proof.
  induction m as [|m IH]; [rewrite Nat.add_0_r; cbn; ring|].
  rewrite Nat.add_succ_r. cbn [sumQ]. rewrite IH. ring.
Qed.

Lemma sumQ_le g h n : (forall i, (i < n)%nat -> g i <= h i) -> sumQ g n <= sumQ h n.
Proof.
  induction n as [|n IH]; intro H; [cbn; lra|]. cbn [sumQ].
  assert (sumQ g n <= sumQ h n) by (apply IH; intros; apply H; lia). assert (g n <= h n) by (apply H; lia). lra.
Qed.

Lemma fold_seq_sum (g : nat -> Q) n : forall k s0,
  fold_left (fun s i => s + g i) (seq k n) s0 == s0 + sumQ (fun i => g (k + i)%nat) n.
Proof.
  induction n as [|n IH]; intros k s0; [cbn; ring|].
  rewrite seq_S, fold_left_app. cbn [fold_left sumQ]. rewrite IH. ring.
Qed.

Lemma inject_nat_S n : inject_Z (Z.of_nat (S n)) == inject_Z (Z.of_nat n) + 1.
Proof. rewrite Nat2Z.inj_succ, <- Z.add_1_r, inject_Z_plus. reflexivity. Qed.

Lemma inject_nat_pos n : (1 <= n)%nat -> 0 < inject_Z (Z.of_nat n).
Proof. intro H. change 0 with (inject_Z 0). rewrite <- Zlt_Qlt. lia. Qed.

Lemma trapezoid_sum (g : nat -> Q) n :
  sumQ (fun i => (1 # 2) * (g i + g (S i))) (S n) == (1 # 2) * (g 0%nat + g (S n)) + sumQ (fun i => g (1 + i)%nat) n.
Proof.
  induction n as [|n IH]; [cbn; ring|].
  cbn [sumQ] in *. rewrite IH. cbn [Nat.add]. ring.
Qed.

Lemma trapz_trapezia xa xb n f : Proper (Qeq ==> Qeq) f -> (1 <= n)%nat ->
  trapz xa xb n f == trapezia xa xb n f.
Proof.
  intros Pf Hn. unfold trapz, trapezia. set (dx := (xb - xa) / inject_Z (Z.of_nat n)).
  rewrite fold_seq_sum. destruct n as [|n]; [lia|].
  assert (E : sumQ (fun i => dx * (1 # 2) * (f (node xa dx i) + f (node xa dx (S i)))) (S n)
     == dx * sumQ (fun i => (1 # 2) * (f (node xa dx i) + f (node xa dx (S i)))) (S n)).
  { generalize (S n) as m. induction m as [|m IHm]; [cbn; ring|]. cbn [sumQ]. rewrite IHm. ring. }
  rewrite E, (trapezoid_sum (fun i => f (node xa dx i)) n).
  assert (E0 : node xa dx 0 == xa) by (unfold node; cbn [Z.of_nat]; change (inject_Z 0) with 0; ring).
  assert (E1 : node xa dx (S n) == xb).
  { unfold node, dx. assert (P := inject_nat_pos (S n) Hn). field. lra. }
  rewrite E0, E1. replace (S n - 1)%nat with n by lia. reflexivity.
Qed.

Lemma node_in xa xb n i : (1 <= n)%nat -> (i <= n)%nat -> xa <= xb ->
  xa <= node xa ((xb - xa) / inject_Z (Z.of_nat n)) i /\ node xa ((xb - xa) / inject_Z (Z.of_nat n)) i <= xb.
Proof.
  intros Hn Hi Hab. unfold node. assert (P := inject_nat_pos n Hn).
  set (N := inject_Z (Z.of_nat n)) in *. set (I := inject_Z (Z.of_nat i)).
  assert (I0 : 0 <= I) by (unfold I; change 0 with (inject_Z 0); rewrite <- Zle_Qle; lia).
  assert (I1 : I <= N) by (unfold I, N; rewrite <- Zle_Qle; lia).
  assert (D : 0 <= (xb - xa) / N) by (apply Qdiv_nonneg; lra).
  assert (0 <= I * ((xb - xa) / N)) by (apply Qmult_le_0_compat; lra).
  assert (0 <= (N - I) * ((xb - xa) / N)) by (apply Qmult_le_0_compat; lra).
  assert (N * ((xb - xa) / N) == xb - xa) by (field; lra). split; lra.
Qed.

Lemma trapz_mono xa xb n f g : Proper (Qeq ==> Qeq) f -> Proper (Qeq ==> Qeq) g ->
  (1 <= n)%nat -> xa <= xb -> (forall x, xa <= x -> x <= xb -> f x <= g x) ->
  trapz xa xb n f <= trapz xa xb n g.
Proof.
  intros Pf Pg Hn Hab H. rewrite !trapz_trapezia by assumption. unfold trapezia.
  set (dx := (xb - xa) / inject_Z (Z.of_nat n)).
  assert (D : 0 <= dx) by (apply Qdiv_nonneg; [lra|apply inject_nat_pos; exact Hn]).
  apply sumQ_le. intros i Hi.
  destruct (node_in xa xb n i Hn) as [A1 A2]; [lia|exact Hab|].
  destruct (node_in xa xb n (S i) Hn) as [B1 B2]; [lia|exact Hab|]. fold dx in A1, A2, B1, B2.
  assert (F1 := H _ A1 A2). assert (F2 := H _ B1 B2).
  assert (0 <= dx * (1 # 2) * (g (node xa dx i) + g (node xa dx (S i)) - (f (node xa dx i) + f (node xa dx (S i))))).
  { apply Qmult_le_0_compat; lra. } lra.
Qed.

Lemma trapz_linear xa xb n f g a b : Proper (Qeq ==> Qeq) f -> Proper (Qeq ==> Qeq) g -> (1 <= n)%nat ->
  trapz xa xb n (fun x => a * f x + b * g x) == a * trapz xa xb n f + b * trapz xa xb n g.
Proof.
  intros Pf Pg Hn.
  assert (P : Proper (Qeq ==> Qeq) (fun x => a * f x + b * g x)) by (intros u v E; rewrite E; reflexivity).
  rewrite !trapz_trapezia by assumption. unfold trapezia.
  set (dx := (xb - xa) / inject_Z (Z.of_nat n)). clearbody dx. clear Hn.
  induction n as [|n IH]; [cbn; ring|]. cbn [sumQ]. rewrite IH. ring.
Qed.

Lemma trapz_affine xa xb n a b : (1 <= n)%nat ->
  trapz xa xb n (fun x => a + b * x) == (xb - xa) * (a + b * ((xa + xb) / 2)).
Proof.
  intros Hn.
  assert (P : Proper (Qeq ==> Qeq) (fun x => a + b * x)) by (intros u v E; rewrite E; reflexivity).
  rewrite trapz_trapezia by assumption. unfold trapezia. set (dx := (xb - xa) / inject_Z (Z.of_nat n)).
  assert (G : forall m, sumQ (fun i => dx * (1 # 2) * (a + b * node xa dx i + (a + b * node xa dx (S i)))) m
     == inject_Z (Z.of_nat m) * dx * (a + b * (xa + (1 # 2) * (inject_Z (Z.of_nat m) * dx)))).
  { induction m as [|m IH]; [cbn [sumQ Z.of_nat]; change (inject_Z 0) with 0; ring|].
    cbn [sumQ]. rewrite IH. unfold node. rewrite !inject_nat_S. ring. }
  rewrite G. assert (N := inject_nat_pos n Hn).
  assert (E : inject_Z (Z.of_nat n) * dx == xb - xa) by (unfold dx; field; lra). rewrite E. field.
Qed.

Lemma trapz_additive xa xb xc n m f : Proper (Qeq ==> Qeq) f -> (1 <= n)%nat -> (1 <= m)%nat ->
  (xb - xa) * inject_Z (Z.of_nat m) == (xc - xb) * inject_Z (Z.of_nat n) ->
  trapz xa xb n f + trapz xb xc m f == trapz xa xc (n + m) f.
Proof.
  intros Pf Hn Hm H. rewrite !trapz_trapezia by (assumption || lia). unfold trapezia.
  assert (N := inject_nat_pos n Hn). assert (M := inject_nat_pos m Hm).
  set (d1 := (xb - xa) / inject_Z (Z.of_nat n)). set (d2 := (xc - xb) / inject_Z (Z.of_nat m)).
  set (d := (xc - xa) / inject_Z (Z.of_nat (n + m))).
  assert (Ed : d == (xc - xa) / (inject_Z (Z.of_nat n) + inject_Z (Z.of_nat m)))
    by (unfold d; rewrite Nat2Z.inj_add, inject_Z_plus; reflexivity).
  assert (E1 : d == d1).
  { rewrite Ed. unfold d1. field_simplify_eq; [|lra]. lra. }
  assert (E2 : d == d2).
  { rewrite Ed. unfold d2. field_simplify_eq; [|lra]. lra. }
  assert (Exb : xb == xa + inject_Z (Z.of_nat n) * d) by (rewrite E1; unfold d1; field; lra).
  rewrite sumQ_app.
  assert (A : sumQ (fun i => d1 * (1 # 2) * (f (node xa d1 i) + f (node xa d1 (S i)))) n
     == sumQ (fun i => d * (1 # 2) * (f (node xa d i) + f (node xa d (S i)))) n).
  { apply sumQ_ext. intros i _. unfold node. rewrite <- E1. reflexivity. }
  assert (B : sumQ (fun i => d2 * (1 # 2) * (f (node xb d2 i) + f (node xb d2 (S i)))) m
     == sumQ (fun i => d * (1 # 2) * (f (node xa d (n + i)) + f (node xa d (S (n + i))))) m).
  { apply sumQ_ext. intros i _. unfold node. rewrite <- E2.
    assert (Z1 : xb + inject_Z (Z.of_nat i) * d == xa + inject_Z (Z.of_nat (n + i)) * d).
    { rewrite Exb, Nat2Z.inj_add, inject_Z_plus. ring. }
    assert (Z2 : xb + inject_Z (Z.of_nat (S i)) * d == xa + inject_Z (Z.of_nat (S (n + i))) * d).
    { rewrite Exb, !inject_nat_S, Nat2Z.inj_add, inject_Z_plus. ring. }
    rewrite Z1, Z2. reflexivity. }
  rewrite A, B. reflexivity.
Qed.

(** closest_index: the last entry not above the value. *)
Lemma upper_bound_spec l v : nondecreasing l ->
  (forall i a, at_ l i a -> (i < upper_bound l v)%nat <-> a <= v) /\ (upper_bound l v <= length l)%nat.
Proof.
  induction l as [|a l IH]; intro Hs.
  { split; [intros i b H; destruct i; discriminate|cbn; lia]. }
  assert (Hs' : nondecreasing l).
  { intros i j x y Hij X Y. apply (Hs (S i) (S j)); [lia|exact X|exact Y]. }
  destruct (IH Hs') as [IH1 IH2]. cbn [upper_bound length].
  destruct (Qltb v a) eqn:E; [apply Qltb_true in E|apply Qltb_false in E].
  - split; [|lia]. intros i b Hb. split; [lia|]. intro Hbv.
    assert (a <= b) by (apply (Hs 0%nat i); [lia|reflexivity|exact Hb]). lra.
  - split; [|lia]. intros [|i] b Hb; [cbn in Hb; injection Hb as <-; split; [intros; exact E|lia]|].
    rewrite <- (IH1 i b Hb). lia.
Qed.

Lemma closest_index_spec l v tol a b :
  nondecreasing l -> at_ l 0 a -> a <= v -> at_ l (length l - 1) b -> v < b ->
  exists i c d, closest_index l v tol = Ret i /\ at_ l i c /\ c <= v /\ at_ l (S i) d /\ v < d.
Proof.
  intros Hs Ha Hav Hb Hvb. destruct (upper_bound_spec l v Hs) as [U1 U2]. unfold closest_index.
  set (n := upper_bound l v) in *.
  assert (N0 : (0 < n)%nat) by (apply (U1 0%nat a Ha); exact Hav).
  assert (N1 : (n <= length l - 1)%nat).
  { destruct (Nat.le_gt_cases n (length l - 1)) as [G|G]; [exact G|]. assert (b <= v) by (apply (U1 _ _ Hb); exact G). lra. }
  assert (Hlen := at_len _ _ _ Ha).
  assert (E : (n =? length l)%nat = false) by lia. rewrite E, E.
  destruct (at_lt l (n - 1)) as [c C]; [lia|]. destruct (at_lt l n) as [d D]; [lia|].
  exists (n - 1)%nat, c, d. split; [reflexivity|]. split; [exact C|]. split; [apply (U1 _ _ C); lia|].
  replace (S (n - 1)) with n by lia. split; [exact D|].
  destruct (Qlt_le_dec v d) as [G|G]; [exact G|]. apply (U1 _ _ D) in G. lia.
Qed.
