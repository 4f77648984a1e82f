(** Truncated power series with polynomial coefficients, used to verify the
    Stokes expansion by computation.  Nothing here models code. *)
From Coq Require Import Reals ZArith List Lra Lia Psatz.
Import ListNotations.
Open Scope R_scope.

(** Dense polynomials over a coefficient type with an evaluation. *)
Section Poly.
  Context {A : Type} (zero : A) (add mul : A -> A -> A).
  Fixpoint ladd (l m : list A) : list A :=
    match l, m with
    | [], _ => m
    | _, [] => l
    | a :: l', b :: m' => add a b :: ladd l' m'
    end.
  Definition lsc (a : A) (l : list A) : list A := map (mul a) l.
  Fixpoint lmul (l m : list A) : list A :=
    match l with
    | [] => []
    | a :: l' => ladd (lsc a m) (zero :: lmul l' m)
    end.
  (** The first [n] coefficients of the product. *)
  Fixpoint tmul (n : nat) (l m : list A) : list A :=
    match n, l with
    | S n', a :: l' => ladd (lsc a (firstn n m)) (zero :: tmul n' l' m)
    | _, _ => []
    end.
  Fixpoint evl (ev : A -> R) (t : R) (l : list A) : R :=
    match l with [] => 0 | a :: l' => ev a + t * evl ev t l' end.
  Context (ev : A -> R) (ev0 : ev zero = 0)
    (eva : forall a b, ev (add a b) = ev a + ev b) (evm : forall a b, ev (mul a b) = ev a * ev b).
  Lemma evl_add : forall t l m, evl ev t (ladd l m) = evl ev t l + evl ev t m.
  Proof. intros t. induction l as [|a l IH]; intros [|b m]; cbn [ladd evl]; try lra. rewrite eva, IH. ring. Qed.
  Lemma evl_sc : forall t a l, evl ev t (lsc a l) = ev a * evl ev t l.
  Proof. intros t a. induction l as [|b l IH]; cbn [lsc map evl]; [ring|]. rewrite evm. unfold lsc in IH. rewrite IH. ring. Qed.
  Lemma evl_mul : forall t l m, evl ev t (lmul l m) = evl ev t l * evl ev t m.
  Proof.
    intros t. induction l as [|a l IH]; intros m; cbn [lmul evl]; [ring|].
    rewrite evl_add, evl_sc. cbn [evl]. rewrite ev0, IH. ring.
  Qed.
  Lemma firstn_ladd : forall n l m, firstn n (ladd l m) = ladd (firstn n l) (firstn n m).
  Proof. induction n as [|n IH]; intros [|a l] [|b m]; cbn [ladd firstn]; try reflexivity. rewrite IH. reflexivity. Qed.
  Lemma tmul_firstn : forall l n m, tmul n l m = firstn n (lmul l m).
  Proof.
    induction l as [|a l IH]; intros [|n] m; cbn [tmul lmul]; try reflexivity.
    unfold lsc. rewrite firstn_ladd, firstn_map, firstn_cons, <- IH. reflexivity.
  Qed.
  Lemma evl_app : forall t l m, evl ev t (l ++ m) = evl ev t l + t ^ (length l) * evl ev t m.
  Proof. intros t. induction l as [|a l IH]; intros m; cbn [app evl length pow]; [ring|]. rewrite IH. ring. Qed.
End Poly.

(** Polynomials in kappa with integer coefficients, in x over those, and power
    series in eps over those. *)
Definition kp : Type := list Z.
Definition kadd : kp -> kp -> kp := ladd Z.add.
Definition kmul (a b : kp) : kp := match b with [] => [] | _ => lmul 0%Z Z.add Z.mul a b end.
Definition kev (k : R) : kp -> R := evl IZR k.
Definition xp : Type := list kp.
Definition xadd : xp -> xp -> xp := ladd kadd.
Definition xmul (a b : xp) : xp := match b with [] => [] | _ => lmul [] kadd kmul a b end.
Definition xev (k x : R) : xp -> R := evl (kev k) x.
Definition ser : Type := list xp.
Definition sadd : ser -> ser -> ser := ladd xadd.
Definition smulN : nat -> ser -> ser -> ser := tmul [] xadd xmul.
Definition smul : ser -> ser -> ser := lmul [] xadd xmul.
Definition sev (k t x : R) : ser -> R := evl (xev k x) t.

Lemma kev_add : forall k a b, kev k (kadd a b) = kev k a + kev k b.
Proof. intros. apply evl_add. intros. apply plus_IZR. Qed.
Lemma kev_mul : forall k a b, kev k (kmul a b) = kev k a * kev k b.
Proof.
  intros k a [|z b]; [cbn; ring|]. unfold kmul, kev.
  apply evl_mul; [reflexivity| |]; intros; [apply plus_IZR|apply mult_IZR].
Qed.
Lemma xev_add : forall k x a b, xev k x (xadd a b) = xev k x a + xev k x b.
Proof. intros. apply evl_add. intros. apply kev_add. Qed.
Lemma xev_mul : forall k x a b, xev k x (xmul a b) = xev k x a * xev k x b.
Proof.
  intros k x a [|z b]; [cbn; ring|]. unfold xmul, xev.
  apply evl_mul; [reflexivity| |]; intros; [apply kev_add|apply kev_mul].
Qed.
Lemma sev_add : forall k t x a b, sev k t x (sadd a b) = sev k t x a + sev k t x b.
Proof. intros. apply evl_add. intros. apply xev_add. Qed.
Lemma sev_mul : forall k t x a b, sev k t x (smul a b) = sev k t x a * sev k t x b.
Proof. intros. apply evl_mul; [reflexivity| |]; intros; [apply xev_add|apply xev_mul]. Qed.

Lemma smulN_eq : forall N a b, smulN N a b = firstn N (smul a b).
Proof. intros. apply tmul_firstn. Qed.

(** A polynomial with zero coefficients evaluates to zero. *)
Definition kzero (a : kp) : bool := forallb (Z.eqb 0) a.
Lemma kzero_ok : forall k a, kzero a = true -> kev k a = 0.
Proof.
  intros k a. unfold kzero, kev. induction a as [|z a IH]; cbn [forallb evl]; [reflexivity|].
  intros H. apply andb_prop in H. destruct H as [H1 H2]. apply Z.eqb_eq in H1. subst z. rewrite IH by exact H2. lra.
Qed.
Definition xzero (a : xp) : bool := forallb kzero a.
Lemma xzero_ok : forall k x a, xzero a = true -> xev k x a = 0.
Proof.
  intros k x a. unfold xzero, xev. induction a as [|z a IH]; cbn [forallb evl]; [reflexivity|].
  intros H. apply andb_prop in H. destruct H as [H1 H2]. rewrite (kzero_ok k z H1), IH by exact H2. lra.
Qed.
Lemma szero_ok : forall k t x a, forallb xzero a = true -> sev k t x a = 0.
Proof.
  intros k t x a. unfold sev. induction a as [|z a IH]; cbn [forallb evl]; [reflexivity|].
  intros H. apply andb_prop in H. destruct H as [H1 H2]. rewrite (xzero_ok k x z H1), IH by exact H2. lra.
Qed.
(** A series whose coefficients do not depend on x. *)
Definition xconst (a : xp) : bool := match a with [] => true | _ :: l => xzero l end.
Lemma sconst_ok : forall k t x y a, forallb xconst a = true -> sev k t x a = sev k t y a.
Proof.
  intros k t x y a. unfold sev. induction a as [|z a IH]; cbn [forallb evl]; [reflexivity|].
  intros H. apply andb_prop in H. destruct H as [H1 H2]. rewrite IH by exact H2. f_equal.
  destruct z as [|c l]; [reflexivity|]. cbn [xconst] in H1. unfold xev. cbn [evl].
  fold (xev k x l) (xev k y l). rewrite !xzero_ok by exact H1. lra.
Qed.

(** Bounds for |x| <= 1 and 0 <= t <= 1. *)
Lemma xev_bound : forall k a, exists K, 0 <= K /\ forall x, Rabs x <= 1 -> Rabs (xev k x a) <= K.
Proof.
  intros k a. unfold xev. induction a as [|c a IH]; cbn [evl].
  - exists 0. split; [lra|]. intros. rewrite Rabs_R0. lra.
  - destruct IH as (K & HK & IH). exists (Rabs (kev k c) + K). split; [pose proof (Rabs_pos (kev k c)); lra|].
    intros x Hx. specialize (IH x Hx). eapply Rle_trans; [apply Rabs_triang|]. apply Rplus_le_compat_l.
    rewrite Rabs_mult. pose proof (Rabs_pos x). pose proof (Rabs_pos (evl (kev k) x a)). nra.
Qed.
Lemma sev_bound : forall k a, exists K, 0 <= K /\ forall t x, 0 <= t <= 1 -> Rabs x <= 1 -> Rabs (sev k t x a) <= K.
Proof.
  intros k a. unfold sev. induction a as [|c a IH]; cbn [evl].
  - exists 0. split; [lra|]. intros. rewrite Rabs_R0. lra.
  - destruct IH as (K & HK & IH). destruct (xev_bound k c) as (K1 & H1 & B1). exists (K1 + K). split; [lra|].
    intros t x Ht Hx. specialize (IH t x Ht Hx). specialize (B1 x Hx). eapply Rle_trans; [apply Rabs_triang|]. apply Rplus_le_compat; [exact B1|].
    rewrite Rabs_mult, (Rabs_right t) by lra. pose proof (Rabs_pos (evl (xev k x) t a)). nra.
Qed.

(** Series with a denominator: [fst] plus t^4 [snd] / d.  [f] agrees with one up
    to terms of order [N] in [t]. *)
Definition dser : Type := ser * ser.
Definition dev (k d t x : R) (a : dser) : R := sev k t x (fst a) + t ^ 4 * sev k t x (snd a) / d.
Definition dadd (a b : dser) : dser := (sadd (fst a) (fst b), sadd (snd a) (snd b)).
Definition dmul (N : nat) (a b : dser) : dser :=
  (smulN N (fst a) (fst b), sadd (smulN (N - 4) (fst a) (snd b)) (smulN (N - 4) (snd a) (fst b))).
Definition apx (k d : R) (N : nat) (f : R -> R -> R) (a : dser) : Prop :=
  exists M, 0 <= M /\ forall t x, 0 <= t <= 1 -> Rabs x <= 1 -> Rabs (f t x - dev k d t x a) <= M * t ^ N.

Lemma pow_t_nonneg : forall t N, 0 <= t <= 1 -> 0 <= t ^ N.
Proof. intros. apply pow_le. lra. Qed.
Lemma pow_t_le1 : forall t N, 0 <= t <= 1 -> t ^ N <= 1.
Proof. intros. rewrite <- (pow1 N). apply pow_incr. lra. Qed.
Lemma pow_t_le : forall t m n, 0 <= t <= 1 -> (m <= n)%nat -> t ^ n <= t ^ m.
Proof.
  intros t m n Ht H. replace n with (m + (n - m))%nat by lia. rewrite pow_add.
  pose proof (pow_t_nonneg t m Ht). pose proof (pow_t_le1 t (n - m) Ht). nra.
Qed.
Lemma dev_bound : forall k d a, exists K, 0 <= K /\ forall t x, 0 <= t <= 1 -> Rabs x <= 1 -> Rabs (dev k d t x a) <= K.
Proof.
  intros k d [a b]. destruct (sev_bound k a) as (K1 & H1 & B1). destruct (sev_bound k b) as (K2 & H2 & B2).
  exists (K1 + K2 * Rabs (/ d)). split; [pose proof (Rabs_pos (/ d)); nra|]. intros t x Ht Hx.
  unfold dev. cbn [fst snd]. eapply Rle_trans; [apply Rabs_triang|]. apply Rplus_le_compat; [apply B1; assumption|].
  unfold Rdiv. rewrite Rabs_mult. apply Rmult_le_compat_r; [apply Rabs_pos|]. rewrite Rabs_mult, (Rabs_right (t ^ 4)) by (apply Rle_ge, pow_t_nonneg; exact Ht).
  specialize (B2 t x Ht Hx). pose proof (pow_t_le1 t 4 Ht). pose proof (pow_t_nonneg t 4 Ht). pose proof (Rabs_pos (sev k t x b)). nra.
Qed.
Lemma apx_exact : forall k d N f a, (forall t x, 0 <= t <= 1 -> Rabs x <= 1 -> f t x = dev k d t x a) -> apx k d N f a.
Proof. intros k d N f a H. exists 0. split; [lra|]. intros t x Ht Hx. rewrite H by assumption. rewrite Rminus_diag_eq by reflexivity. rewrite Rabs_R0. lra. Qed.
Lemma apx_ext : forall k d N f g a, (forall t x, 0 <= t <= 1 -> Rabs x <= 1 -> f t x = g t x) -> apx k d N f a -> apx k d N g a.
Proof. intros k d N f g a H (M & HM & B). exists M. split; [exact HM|]. intros t x Ht Hx. rewrite <- H by assumption. apply B; assumption. Qed.
Lemma apx_near : forall k d N f g a C, 0 <= C -> (forall t x, 0 <= t <= 1 -> Rabs x <= 1 -> Rabs (g t x - f t x) <= C * t ^ N) ->
  apx k d N f a -> apx k d N g a.
Proof.
  intros k d N f g a C HC H (M & HM & B). exists (C + M). split; [lra|]. intros t x Ht Hx.
  replace (g t x - dev k d t x a) with ((g t x - f t x) + (f t x - dev k d t x a)) by ring.
  eapply Rle_trans; [apply Rabs_triang|]. specialize (H t x Ht Hx). specialize (B t x Ht Hx). lra.
Qed.
Lemma apx_bound : forall k d N f a, apx k d N f a -> exists K, 0 <= K /\ forall t x, 0 <= t <= 1 -> Rabs x <= 1 -> Rabs (f t x) <= K.
Proof.
  intros k d N f a (M & HM & B). destruct (dev_bound k d a) as (K & HK & S). exists (M + K). split; [lra|].
  intros t x Ht Hx. specialize (B t x Ht Hx). specialize (S t x Ht Hx).
  replace (f t x) with ((f t x - dev k d t x a) + dev k d t x a) by ring. eapply Rle_trans; [apply Rabs_triang|].
  pose proof (pow_t_le1 t N Ht). pose proof (pow_t_nonneg t N Ht). nra.
Qed.
Lemma apx_add : forall k d N f g a b, apx k d N f a -> apx k d N g b -> apx k d N (fun t x => f t x + g t x) (dadd a b).
Proof.
  intros k d N f g a b (M & HM & B) (M' & HM' & B'). exists (M + M'). split; [lra|]. intros t x Ht Hx.
  specialize (B t x Ht Hx). specialize (B' t x Ht Hx). unfold dev, dadd in *. cbn [fst snd] in *. rewrite !sev_add.
  replace (f t x + g t x - _) with ((f t x - (sev k t x (fst a) + t ^ 4 * sev k t x (snd a) / d)) + (g t x - (sev k t x (fst b) + t ^ 4 * sev k t x (snd b) / d)))
    by (unfold Rdiv; ring).
  eapply Rle_trans; [apply Rabs_triang|]. lra.
Qed.
(** Cutting a series at [N]. *)
Lemma sev_cut : forall k N a, exists K, 0 <= K /\ forall t x, 0 <= t <= 1 -> Rabs x <= 1 ->
  Rabs (sev k t x a - sev k t x (firstn N a)) <= K * t ^ N.
Proof.
  intros k N a. destruct (sev_bound k (skipn N a)) as (K & HK & S). exists K. split; [lra|].
  intros t x Ht Hx. specialize (S t x Ht Hx). pose proof (pow_t_nonneg t N Ht) as P.
  assert (E : sev k t x a = sev k t x (firstn N a) + t ^ (length (firstn N a)) * sev k t x (skipn N a)).
  { rewrite <- (firstn_skipn N a) at 1. apply evl_app. }
  destruct (Nat.le_gt_cases N (length a)) as [L|L].
  - rewrite firstn_length_le in E by exact L.
    replace (sev k t x a - sev k t x (firstn N a)) with (t ^ N * sev k t x (skipn N a)) by (rewrite E; ring).
    rewrite Rabs_mult, (Rabs_right (t ^ N)) by lra. nra.
  - rewrite firstn_all2 by lia. rewrite Rminus_diag_eq by reflexivity. rewrite Rabs_R0. nra.
Qed.
Lemma dmul_cut : forall k d N a b, (N <= 8)%nat -> exists K, 0 <= K /\ forall t x, 0 <= t <= 1 -> Rabs x <= 1 ->
  Rabs (dev k d t x a * dev k d t x b - dev k d t x (dmul N a b)) <= K * t ^ N.
Proof.
  intros k d N [a a'] [b b'] HN.
  destruct (sev_cut k N (smul a b)) as (K1 & H1 & B1).
  destruct (sev_cut k (N - 4) (smul a b')) as (K2 & H2 & B2).
  destruct (sev_cut k (N - 4) (smul a' b)) as (K3 & H3 & B3).
  destruct (sev_bound k a') as (K4 & H4 & B4). destruct (sev_bound k b') as (K5 & H5 & B5).
  exists (K1 + (K2 + K3) * Rabs (/ d) + K4 * K5 * (Rabs (/ d) * Rabs (/ d))).
  pose proof (Rabs_pos (/ d)) as ID. split; [assert (0 <= (K2 + K3) * Rabs (/ d)) by nra; assert (0 <= K4 * K5) by nra; assert (0 <= Rabs (/ d) * Rabs (/ d)) by nra; nra|].
  intros t x Ht Hx. specialize (B1 t x Ht Hx). specialize (B2 t x Ht Hx). specialize (B3 t x Ht Hx). specialize (B4 t x Ht Hx). specialize (B5 t x Ht Hx).
  unfold dev, dmul. cbn [fst snd]. rewrite sev_add. rewrite !smulN_eq. rewrite !sev_mul in *.
  set (A := sev k t x a) in *. set (A' := sev k t x a') in *. set (B := sev k t x b) in *. set (B' := sev k t x b') in *.
  set (F1 := sev k t x (firstn N (smul a b))) in *. set (F2 := sev k t x (firstn (N - 4) (smul a b'))) in *. set (F3 := sev k t x (firstn (N - 4) (smul a' b))) in *.
  pose proof (pow_t_nonneg t N Ht) as P. pose proof (pow_t_nonneg t (N - 4) Ht) as P4. pose proof (pow_t_nonneg t 4 Ht) as Q4.
  assert (PN : t ^ 4 * t ^ (N - 4) <= t ^ N).
  { rewrite <- pow_add. apply pow_t_le; [exact Ht|lia]. }
  assert (P8 : t ^ 8 <= t ^ N) by (apply pow_t_le; assumption).
  replace (_ - _) with ((A * B - F1) + (t ^ 4 * ((A * B' - F2) + (A' * B - F3)) * / d + t ^ 8 * (A' * B') * (/ d * / d)))
    by (unfold Rdiv; ring).
  eapply Rle_trans; [apply Rabs_triang|]. rewrite Rplus_assoc, Rmult_plus_distr_r. apply Rplus_le_compat; [exact B1|].
  eapply Rle_trans; [apply Rabs_triang|]. rewrite Rmult_plus_distr_r. apply Rplus_le_compat.
  - rewrite !Rabs_mult, (Rabs_right (t ^ 4)) by lra.
    replace ((K2 + K3) * Rabs (/ d) * t ^ N) with ((K2 + K3) * t ^ N * Rabs (/ d)) by ring. apply Rmult_le_compat_r; [exact ID|].
    assert (X : Rabs (A * B' - F2 + (A' * B - F3)) <= (K2 + K3) * t ^ (N - 4)).
    { eapply Rle_trans; [apply Rabs_triang|]. lra. }
    apply Rle_trans with (t ^ 4 * ((K2 + K3) * t ^ (N - 4))); [apply Rmult_le_compat_l; assumption|].
    replace (t ^ 4 * ((K2 + K3) * t ^ (N - 4))) with ((K2 + K3) * (t ^ 4 * t ^ (N - 4))) by ring. apply Rmult_le_compat_l; [lra|exact PN].
  - rewrite !Rabs_mult, (Rabs_right (t ^ 8)) by (apply Rle_ge, pow_t_nonneg; exact Ht).
    replace (K4 * K5 * (Rabs (/ d) * Rabs (/ d)) * t ^ N) with (t ^ N * (K4 * K5) * (Rabs (/ d) * Rabs (/ d))) by ring.
    apply Rmult_le_compat_r; [nra|]. pose proof (Rabs_pos A'). pose proof (Rabs_pos B').
    apply Rmult_le_compat; [apply pow_t_nonneg; exact Ht|nra|exact P8|nra].
Qed.
Lemma apx_mul : forall k d N f g a b, (N <= 8)%nat -> apx k d N f a -> apx k d N g b -> apx k d N (fun t x => f t x * g t x) (dmul N a b).
Proof.
  intros k d N f g a b HN Ha Hb. destruct (apx_bound k d N f a Ha) as (K & HK & F).
  destruct (dev_bound k d b) as (K' & HK' & S). destruct (dmul_cut k d N a b HN) as (K3 & H3 & C).
  destruct Ha as (M & HM & B). destruct Hb as (M' & HM' & B').
  exists (K * M' + M * K' + K3). split; [nra|]. intros t x Ht Hx.
  specialize (B t x Ht Hx). specialize (B' t x Ht Hx). specialize (F t x Ht Hx). specialize (S t x Ht Hx). specialize (C t x Ht Hx).
  set (A := dev k d t x a) in *. set (A' := dev k d t x b) in *. set (P := dev k d t x (dmul N a b)) in *.
  replace (f t x * g t x - P) with (f t x * (g t x - A') + ((f t x - A) * A' + (A * A' - P))) by ring.
  eapply Rle_trans; [apply Rabs_triang|]. rewrite Rplus_assoc, Rmult_plus_distr_r. pose proof (pow_t_nonneg t N Ht) as Q.
  apply Rplus_le_compat.
  - rewrite Rabs_mult, Rmult_assoc. apply Rmult_le_compat; try apply Rabs_pos; assumption.
  - eapply Rle_trans; [apply Rabs_triang|]. rewrite Rmult_plus_distr_r. apply Rplus_le_compat; [|exact C].
    rewrite Rabs_mult. replace (M * K' * t ^ N) with ((M * t ^ N) * K') by ring. apply Rmult_le_compat; try apply Rabs_pos; assumption.
Qed.
