(** C35: similarity functions and the friction velocity iteration. *)
From Coq Require Import Reals Lra ZArith List Bool Lia ZifyBool ZifyNat Psatz.
From Coquelicot Require Import Coquelicot.
From Verif Require Import BoxR BoxRFacts MoninObukhov MoninObukhovSpec.
Local Open Scope R_scope.

(** ** The unstable branch as a function of x *)
Definition gm (x : R) : R :=
  2 * ln (1/2 * (1 + x)) + ln (1/2 * (1 + x * x)) - 2 * atan x + 1/2 * PI.
Definition gh (x : R) : R := 2 * ln (1/2 * (1 + x)).

Lemma gm_derive x : 0 <= x -> is_derive gm x (4 * (x * x) / ((1 + x) * (1 + x * x))).
Proof.
  intros Hx. unfold gm.
  auto_derive; [repeat split; nra|]. unfold Rsqr. field. split; nra.
Qed.
Lemma gh_derive x : 0 <= x -> is_derive gh x (2 / (1 + x)).
Proof. intros Hx. unfold gh. auto_derive; [lra|]. field. lra. Qed.

Lemma gm_1 : gm 1 = 0.
Proof.
  unfold gm. replace (1/2 * (1 + 1)) with 1 by lra. replace (1/2 * (1 + 1 * 1)) with 1 by lra.
  rewrite ln_1, atan_1. lra.
Qed.
Lemma gh_1 : gh 1 = 0.
Proof. unfold gh. replace (1/2 * (1 + 1)) with 1 by lra. rewrite ln_1. lra. Qed.

(** A function with positive derivative on [a, b] increases. *)
Lemma mono_pos f df a b : a < b -> (forall t, a <= t <= b -> is_derive f t (df t)) ->
  (forall t, a <= t <= b -> 0 < df t) -> f a < f b.
Proof.
  intros Hab Hd Hp.
  destruct (MVT_gen f a b df) as (c & Hc & E).
  - intros t Ht. apply Hd. unfold Rmin, Rmax in Ht. destruct (Rle_dec a b); lra.
  - intros t Ht. assert (A : a <= t <= b) by (unfold Rmin, Rmax in Ht; destruct (Rle_dec a b); lra).
    apply continuity_pt_filterlim. apply (ex_derive_continuous (V := R_NormedModule)).
    exists (df t). apply Hd. exact A.
  - assert (A : a <= c <= b) by (unfold Rmin, Rmax in Hc; destruct (Rle_dec a b); lra).
    specialize (Hp c A). assert (0 < df c * (b - a)) by (apply Rmult_lt_0_compat; lra). lra.
Qed.

Lemma gm_mono x y : 0 < x < y -> gm x < gm y.
Proof.
  intros H. apply (mono_pos gm (fun t => 4 * (t * t) / ((1 + t) * (1 + t * t)))); [lra| |].
  - intros t Ht. apply gm_derive. lra.
  - intros t Ht. apply Rdiv_lt_0_compat; [nra|]. apply Rmult_lt_0_compat; nra.
Qed.
Lemma gh_mono x y : 0 < x < y -> gh x < gh y.
Proof.
  intros H. apply (mono_pos gh (fun t => 2 / (1 + t))); [lra| |].
  - intros t Ht. apply gh_derive. lra.
  - intros t Ht. apply Rdiv_lt_0_compat; lra.
Qed.

Definition x4 (beta zeta : R) : R := sqrt (sqrt (1 - beta * zeta)).
Definition x2 (beta zeta : R) : R := sqrt (1 - beta * zeta).

Lemma psi_m_neg b g t : t <= 0 -> psi_m b g t = gm (x4 b t).
Proof. intros H. unfold psi_m. rewrite (proj2 (Rltb_false _ _)) by lra. reflexivity. Qed.
Lemma psi_m_pos b g t : 0 < t -> psi_m b g t = - g * t.
Proof. intros H. unfold psi_m. rewrite (proj2 (Rltb_spec _ _)) by lra. reflexivity. Qed.
Lemma psi_h_neg b g t : t <= 0 -> psi_h b g t = gh (x2 b t).
Proof. intros H. unfold psi_h. rewrite (proj2 (Rltb_false _ _)) by lra. reflexivity. Qed.
Lemma psi_h_pos b g t : 0 < t -> psi_h b g t = - g * t.
Proof. intros H. unfold psi_h. rewrite (proj2 (Rltb_spec _ _)) by lra. reflexivity. Qed.

Lemma sqrt_ge1 r : 1 <= r -> 1 <= sqrt r.
Proof. intros H. rewrite <- sqrt_1 at 1. apply sqrt_le_1; lra. Qed.
Lemma x2_ge1 b t : 0 < b -> t <= 0 -> 1 <= x2 b t.
Proof. intros Hb Ht. apply sqrt_ge1. nra. Qed.
Lemma x4_ge1 b t : 0 < b -> t <= 0 -> 1 <= x4 b t.
Proof. intros Hb Ht. apply sqrt_ge1. apply x2_ge1; assumption. Qed.
Lemma x2_lt b s t : 0 < b -> s < t -> t <= 0 -> x2 b t < x2 b s.
Proof. intros Hb Hs Ht. apply sqrt_lt_1; nra. Qed.
Lemma x4_lt b s t : 0 < b -> s < t -> t <= 0 -> x4 b t < x4 b s.
Proof.
  intros Hb Hs Ht. apply sqrt_lt_1; try apply sqrt_pos. apply x2_lt; assumption.
Qed.
Lemma x4_0 b : x4 b 0 = 1.
Proof. unfold x4. rewrite Rmult_0_r, Rminus_0_r, !sqrt_1. reflexivity. Qed.
Lemma x2_0 b : x2 b 0 = 1.
Proof. unfold x2. rewrite Rmult_0_r, Rminus_0_r, sqrt_1. reflexivity. Qed.

(** ** C35: similarity functions *)

(** Zero at neutral, negative for stable and positive for unstable
    stratification, strictly decreasing in between. *)
Theorem c35_psi_m : forall beta gamma, 0 < beta -> 0 < gamma ->
  psi_m beta gamma 0 = 0 /\
  (forall s t, s < t -> psi_m beta gamma t < psi_m beta gamma s) /\
  (forall t, 0 < t -> psi_m beta gamma t < 0) /\
  (forall t, t < 0 -> 0 < psi_m beta gamma t).
Proof.
  intros b g Hb Hg.
  assert (Z : psi_m b g 0 = 0) by (rewrite psi_m_neg, x4_0 by lra; apply gm_1).
  assert (M : forall s t, s < t -> psi_m b g t < psi_m b g s).
  { assert (U : forall s t, s < t -> t <= 0 -> psi_m b g t < psi_m b g s).
    { intros s t Hs Ht. rewrite !psi_m_neg by lra. apply gm_mono.
      pose proof (x4_ge1 b t Hb Ht). pose proof (x4_lt b s t Hb Hs Ht). lra. }
    intros s t Hs. destruct (Rle_dec t 0) as [Ht|Ht]; [apply U; assumption|].
    rewrite (psi_m_pos b g t) by lra. destruct (Rlt_dec 0 s) as [H0|H0].
    - rewrite psi_m_pos by lra. nra.
    - destruct (Req_dec s 0) as [->|Hn]; [rewrite Z; nra|].
      specialize (U s 0 ltac:(lra) ltac:(lra)). rewrite Z in U. nra. }
  split; [exact Z|]. split; [exact M|]. split; intros t Ht.
  - specialize (M 0 t Ht). lra.
  - specialize (M t 0 Ht). lra.
Qed.

Theorem c35_psi_h : forall beta gamma, 0 < beta -> 0 < gamma ->
  psi_h beta gamma 0 = 0 /\
  (forall s t, s < t -> psi_h beta gamma t < psi_h beta gamma s) /\
  (forall t, 0 < t -> psi_h beta gamma t < 0) /\
  (forall t, t < 0 -> 0 < psi_h beta gamma t).
Proof.
  intros b g Hb Hg.
  assert (Z : psi_h b g 0 = 0) by (rewrite psi_h_neg, x2_0 by lra; apply gh_1).
  assert (M : forall s t, s < t -> psi_h b g t < psi_h b g s).
  { assert (U : forall s t, s < t -> t <= 0 -> psi_h b g t < psi_h b g s).
    { intros s t Hs Ht. rewrite !psi_h_neg by lra. apply gh_mono.
      pose proof (x2_ge1 b t Hb Ht). pose proof (x2_lt b s t Hb Hs Ht). lra. }
    intros s t Hs. destruct (Rle_dec t 0) as [Ht|Ht]; [apply U; assumption|].
    rewrite (psi_h_pos b g t) by lra. destruct (Rlt_dec 0 s) as [H0|H0].
    - rewrite psi_h_pos by lra. nra.
    - destruct (Req_dec s 0) as [->|Hn]; [rewrite Z; nra|].
      specialize (U s 0 ltac:(lra) ltac:(lra)). rewrite Z in U. nra. }
  split; [exact Z|]. split; [exact M|]. split; intros t Ht.
  - specialize (M 0 t Ht). lra.
  - specialize (M t 0 Ht). lra.
Qed.

(** Derivatives away from neutral. *)
Lemma Rpower_inv_x4 b t : 0 < 1 - b * t -> Rpower (1 - b * t) (-1/4) = / x4 b t.
Proof.
  intros H. unfold x4. rewrite <- (Rpower_sqrt (sqrt (1 - b * t))) by (apply sqrt_lt_R0; exact H).
  rewrite <- (Rpower_sqrt (1 - b * t)) by exact H.
  rewrite Rpower_mult, <- Rpower_Ropp. f_equal. lra.
Qed.
Lemma Rpower_inv_x2 b t : 0 < 1 - b * t -> Rpower (1 - b * t) (-1/2) = / x2 b t.
Proof.
  intros H. unfold x2. rewrite <- Rpower_sqrt by assumption. rewrite <- Rpower_Ropp. f_equal. lra.
Qed.

Lemma gmx4_derive b t : 0 < b -> t < 0 ->
  is_derive (fun t => gm (x4 b t)) t ((1 - / x4 b t) / t).
Proof.
  intros Hb Ht. assert (P : 0 < 1 - b * t) by nra.
  assert (Q : 0 < sqrt (1 - b * t)) by (apply sqrt_lt_R0; exact P).
  assert (X : 0 < x4 b t) by (apply sqrt_lt_R0; exact Q).
  assert (D4 : is_derive (x4 b) t (- b / (4 * (x4 b t * x4 b t * x4 b t)))).
  { unfold x4. auto_derive; [split; [exact P|split; [exact Q|exact I]]|].
    fold (x4 b t). pose proof (sqrt_sqrt _ (Rlt_le _ _ Q)) as E. fold (x4 b t) in E.
    replace (1 + - (b * t)) with (1 - b * t) by ring. fold (x4 b t).
    rewrite <- E. field. lra. }
  pose proof (is_derive_comp gm (x4 b) t _ _ (gm_derive (x4 b t) (Rlt_le _ _ X)) D4) as C.
  eapply eq_rect; [exact C|]. unfold scal; cbn. unfold mult; cbn.
  assert (Et : t = (1 - x4 b t * x4 b t * (x4 b t * x4 b t)) / b).
  { pose proof (sqrt_sqrt _ (Rlt_le _ _ Q)) as E. fold (x4 b t) in E. rewrite E.
    rewrite sqrt_sqrt by lra. field. lra. }
  assert (H1 : x4 b t <> 1).
  { intros E1. rewrite E1 in Et. assert (t = 0) by (rewrite Et; field; lra). lra. }
  set (x := x4 b t) in *. clearbody x. rewrite Et. field.
  repeat split; try lra; try nra.
  intros E0. apply H1. assert (F : (x - 1) * ((x + 1) * (x * x + 1)) = 0) by nra.
  apply Rmult_integral in F. destruct F; nra.
Qed.

Lemma ghx2_derive b t : 0 < b -> t < 0 ->
  is_derive (fun t => gh (x2 b t)) t ((1 - / x2 b t) / t).
Proof.
  intros Hb Ht. assert (P : 0 < 1 - b * t) by nra.
  assert (X : 0 < x2 b t) by (apply sqrt_lt_R0; exact P).
  assert (D2 : is_derive (x2 b) t (- b / (2 * x2 b t))).
  { unfold x2. auto_derive; [exact P|]. replace (1 + - (b * t)) with (1 - b * t) by ring.
    fold (x2 b t). field. lra. }
  pose proof (is_derive_comp gh (x2 b) t _ _ (gh_derive (x2 b t) (Rlt_le _ _ X)) D2) as C.
  eapply eq_rect; [exact C|]. unfold scal; cbn. unfold mult; cbn.
  assert (Et : t = (1 - x2 b t * x2 b t) / b).
  { unfold x2. rewrite sqrt_sqrt by lra. field. lra. }
  assert (H1 : x2 b t <> 1).
  { intros E1. rewrite E1 in Et. assert (t = 0) by (rewrite Et; field; lra). lra. }
  set (x := x2 b t) in *. clearbody x. rewrite Et. field.
  repeat split; try lra; try nra.
Qed.

Lemma near_neg (P : R -> Prop) t : t < 0 -> (forall y, y < 0 -> P y) -> locally t P.
Proof.
  intros Ht H. assert (Hp : 0 < - t) by lra. exists (mkposreal _ Hp). intros y Hy. apply H.
  unfold ball in Hy; cbn in Hy. unfold AbsRing_ball, abs, minus, plus, opp in Hy; cbn in Hy.
  apply Rabs_def2 in Hy. lra.
Qed.
Lemma near_pos (P : R -> Prop) t : 0 < t -> (forall y, 0 < y -> P y) -> locally t P.
Proof.
  intros Ht H. exists (mkposreal _ Ht). intros y Hy. apply H.
  unfold ball in Hy; cbn in Hy. unfold AbsRing_ball, abs, minus, plus, opp in Hy; cbn in Hy.
  apply Rabs_def2 in Hy. lra.
Qed.

Lemma psi_m_derive b g t : 0 < b -> t <> 0 ->
  is_derive (psi_m b g) t ((1 - dyer_m b g t) / t).
Proof.
  intros Hb Ht. unfold dyer_m. destruct (Rlt_dec 0 t) as [Hp|Hn].
  - eapply (is_derive_ext_loc (fun y => - g * y)).
    + apply near_pos; [exact Hp|]. intros y Hy. symmetry. apply psi_m_pos. exact Hy.
    + auto_derive; [exact I|]. field. lra.
  - assert (t < 0) by lra. eapply (is_derive_ext_loc (fun y => gm (x4 b y))).
    + apply near_neg; [assumption|]. intros y Hy. symmetry. apply psi_m_neg. lra.
    + rewrite Rpower_inv_x4 by nra. apply gmx4_derive; assumption.
Qed.
Lemma psi_h_derive b g t : 0 < b -> t <> 0 ->
  is_derive (psi_h b g) t ((1 - dyer_h b g t) / t).
Proof.
  intros Hb Ht. unfold dyer_h. destruct (Rlt_dec 0 t) as [Hp|Hn].
  - eapply (is_derive_ext_loc (fun y => - g * y)).
    + apply near_pos; [exact Hp|]. intros y Hy. symmetry. apply psi_h_pos. exact Hy.
    + auto_derive; [exact I|]. field. lra.
  - assert (t < 0) by lra. eapply (is_derive_ext_loc (fun y => gh (x2 b y))).
    + apply near_neg; [assumption|]. intros y Hy. symmetry. apply psi_h_neg. lra.
    + rewrite Rpower_inv_x2 by nra. apply ghx2_derive; assumption.
Qed.

(** The wind and temperature profiles have the shear the theory prescribes: the
    height times the slope is the non-dimensional gradient, at every height and for
    both signs of the Obukhov length. *)
Lemma prof_derive (psi : R -> R) (dy : R -> R) z z00 L : 0 < z -> 0 < z00 -> L <> 0 ->
  (forall t, t <> 0 -> is_derive psi t ((1 - dy t) / t)) ->
  is_derive (fun z => ln (z / z00) - psi (z / L)) z (dy (z / L) / z).
Proof.
  intros Hz H0 HL Hd.
  assert (Hn : z / L <> 0) by (unfold Rdiv; apply Rmult_integral_contrapositive_currified; [lra|apply Rinv_neq_0_compat; exact HL]).
  assert (A : is_derive (fun z => ln (z / z00)) z (/ z)).
  { auto_derive; [apply Rdiv_lt_0_compat; lra|]. field. split; lra. }
  assert (B : is_derive (fun z => z / L) z (/ L)) by (auto_derive; [exact I|field; lra]).
  pose proof (is_derive_comp psi (fun z => z / L) z _ _ (Hd _ Hn) B) as C.
  eapply eq_rect; [exact (is_derive_minus (V := R_NormedModule) _ _ _ _ _ A C)|].
  unfold scal, minus, plus, opp; cbn. unfold mult; cbn. field. split; lra.
Qed.

Theorem c35_profiles : forall p s z,
  0 < beta_m p -> 0 < beta_h p -> 0 < z0 p -> 0 < z0t p -> 0 < z -> oblen s <> 0 ->
  is_derive (phi_m p s) z (dyer_m (beta_m p) (gamma_m p) (z / oblen s) / z) /\
  is_derive (phi_h p s) z (dyer_h (beta_h p) (gamma_h p) (z / oblen s) / z).
Proof.
  intros p s z Bm Bh H0 H0t Hz HL. unfold phi_m, phi_h. split.
  - apply (prof_derive (psi_m (beta_m p) (gamma_m p)) (dyer_m (beta_m p) (gamma_m p)));
      try assumption. intros t Ht. apply psi_m_derive; assumption.
  - apply (prof_derive (psi_h (beta_h p) (gamma_h p)) (dyer_h (beta_h p) (gamma_h p)));
      try assumption. intros t Ht. apply psi_h_derive; assumption.
Qed.

Lemma dyer_m_pos b g t : 0 < b -> 0 < g -> 0 < dyer_m b g t.
Proof.
  intros Hb Hg. unfold dyer_m. destruct (Rlt_dec 0 t); [nra|]. unfold Rpower. apply exp_pos.
Qed.
Lemma dyer_h_pos b g t : 0 < b -> 0 < g -> 0 < dyer_h b g t.
Proof.
  intros Hb Hg. unfold dyer_h. destruct (Rlt_dec 0 t); [nra|]. unfold Rpower. apply exp_pos.
Qed.

(** Hence both profiles increase with height. *)
Theorem c35_profiles_increase : forall p s z z',
  0 < beta_m p -> 0 < beta_h p -> 0 < gamma_m p -> 0 < gamma_h p -> 0 < z0 p -> 0 < z0t p ->
  oblen s <> 0 -> 0 < z < z' ->
  phi_m p s z < phi_m p s z' /\ phi_h p s z < phi_h p s z'.
Proof.
  intros p s z z' Bm Bh Gm Gh H0 H0t HL Hz. split.
  - apply (mono_pos (phi_m p s) (fun z => dyer_m (beta_m p) (gamma_m p) (z / oblen s) / z)); [lra| |].
    + intros t Ht. apply c35_profiles; try assumption; lra.
    + intros t Ht. apply Rdiv_lt_0_compat; [apply dyer_m_pos; assumption|lra].
  - apply (mono_pos (phi_h p s) (fun z => dyer_h (beta_h p) (gamma_h p) (z / oblen s) / z)); [lra| |].
    + intros t Ht. apply c35_profiles; try assumption; lra.
    + intros t Ht. apply Rdiv_lt_0_compat; [apply dyer_h_pos; assumption|lra].
Qed.

(** Continuity, in particular across neutral stratification. *)
Theorem c35_psi_continuous : forall beta gamma t, 0 < beta ->
  continuity_pt (psi_m beta gamma) t /\ continuity_pt (psi_h beta gamma) t.
Proof.
  intros b g t Hb.
  assert (P : 0 < 1 - b * Rmin t 0) by (pose proof (Rmin_r t 0); nra).
  assert (Cm : continuity_pt (fun t => Rmin t 0) t).
  { apply continuity_pt_ext with (f := fun t => (t + 0 - Rabs (t - 0)) / 2).
    - intros y. unfold Rmin, Rabs. destruct (Rle_dec y 0), (Rcase_abs (y - 0)); lra.
    - unfold Rdiv. apply continuity_pt_mult; [|apply continuity_pt_const; intros ? ?; reflexivity].
      apply continuity_pt_minus; [apply continuity_pt_plus; [apply continuity_pt_id|apply continuity_pt_const; intros ? ?; reflexivity]|].
      apply (continuity_pt_comp (fun y => y - 0) Rabs);
        [apply continuity_pt_minus; [apply continuity_pt_id|apply continuity_pt_const; intros ? ?; reflexivity]|apply Rcontinuity_abs]. }
  assert (C2 : continuity_pt (fun t => x2 b (Rmin t 0)) t).
  { unfold x2. apply (continuity_pt_comp (fun t => 1 - b * Rmin t 0) sqrt).
    - apply continuity_pt_minus; [apply continuity_pt_const; intros ? ?; reflexivity|].
      apply continuity_pt_mult; [apply continuity_pt_const; intros ? ?; reflexivity|exact Cm].
    - apply continuity_pt_sqrt. lra. }
  assert (C4 : continuity_pt (fun t => x4 b (Rmin t 0)) t).
  { unfold x4. apply (continuity_pt_comp (fun t => x2 b (Rmin t 0)) sqrt); [exact C2|].
    apply continuity_pt_sqrt. apply sqrt_pos. }
  assert (Cl : continuity_pt (fun t => g * (t - Rmin t 0)) t).
  { apply continuity_pt_mult; [apply continuity_pt_const; intros ? ?; reflexivity|].
    apply continuity_pt_minus; [apply continuity_pt_id|exact Cm]. }
  split.
  - apply continuity_pt_ext with (f := fun t => gm (x4 b (Rmin t 0)) - g * (t - Rmin t 0)).
    + intros y. destruct (Rle_dec y 0).
      * rewrite Rmin_left, psi_m_neg by lra. ring.
      * rewrite Rmin_right, psi_m_pos, x4_0, gm_1 by lra. ring.
    + apply continuity_pt_minus; [|exact Cl].
      apply (continuity_pt_comp (fun t => x4 b (Rmin t 0)) gm); [exact C4|].
      apply continuity_pt_filterlim. apply (ex_derive_continuous (V := R_NormedModule)).
      eexists. apply gm_derive. unfold x4. apply sqrt_pos.
  - apply continuity_pt_ext with (f := fun t => gh (x2 b (Rmin t 0)) - g * (t - Rmin t 0)).
    + intros y. destruct (Rle_dec y 0).
      * rewrite Rmin_left, psi_h_neg by lra. ring.
      * rewrite Rmin_right, psi_h_pos, x2_0, gh_1 by lra. ring.
    + apply continuity_pt_minus; [|exact Cl].
      apply (continuity_pt_comp (fun t => x2 b (Rmin t 0)) gh); [exact C2|].
      apply continuity_pt_filterlim. apply (ex_derive_continuous (V := R_NormedModule)).
      eexists. apply gh_derive. unfold x2. apply sqrt_pos.
Qed.

(** ** C35: the friction velocity iteration *)
Definition step_n (p : mopar) (k : nat) (s : most) : most := Nat.iter k (mo_body p) s.

Lemma step_S p k s : step_n p k (mo_body p s) = step_n p (S k) s.
Proof. unfold step_n. induction k as [|k IH]; [reflexivity|]. cbn. f_equal. exact IH. Qed.

Lemma mo_loop_ok p mx : forall f iter s, (0 <= iter <= mx)%Z -> (mx + 1 - iter <= Z.of_nat f)%Z ->
  exists k, mo_loop p mx f iter s = Some (step_n p (S k) s, (iter + Z.of_nat (S k))%Z) /\
    (iter + Z.of_nat (S k) <= mx + 1)%Z /\
    ((iter + Z.of_nat (S k) <= mx)%Z ->
      Rabs (utau (step_n p k s) - utau (step_n p (S k) s)) <= 1/100000) /\
    (forall j, (j < k)%nat -> 1/100000 < Rabs (utau (step_n p j s) - utau (step_n p (S j) s))).
Proof.
  induction f as [|f IH]; intros iter s Hi Hf; [lia|].
  cbn [mo_loop]. destruct (Rltb (1 / 100000) (Rabs (utau s - utau (mo_body p s)))) eqn:E1; cbn [andb].
  - destruct (iter + 1 <=? mx)%Z eqn:E2.
    + destruct (IH (iter + 1)%Z (mo_body p s) ltac:(lia) ltac:(lia)) as (k & R1 & R2 & R3 & R4).
      exists (S k). rewrite R1. split.
      * rewrite step_S. do 2 f_equal. lia.
      * split; [lia|]. split.
        -- intros H. rewrite !step_S in R3. apply R3. lia.
        -- intros j Hj. destruct j as [|j].
           ++ apply Rltb_spec in E1. exact E1.
           ++ specialize (R4 j ltac:(lia)). rewrite !step_S in R4. exact R4.
    + exists O. split; [reflexivity|]. split; [lia|]. split; [lia|]. intros j Hj; lia.
  - exists O. split; [reflexivity|]. split; [lia|]. split; [|intros j Hj; lia].
    intros _. apply Rltb_false in E1. exact E1.
Qed.

(** The iteration stops after at most [max_iters + 1] steps, whatever the inputs.  If it
    stops before that, the last two friction velocities differ by at most 1e-5, and it
    does not stop earlier than the first time this happens. *)
Theorem c35_terminates : forall p s max_iters fuel,
  (0 <= max_iters)%Z -> (max_iters + 1 <= Z.of_nat fuel)%Z ->
  exists k, update_fluxes p max_iters fuel s =
              Some (Nat.iter (S k) (mo_body p) (mo_init p s), Z.of_nat (S k)) /\
    (Z.of_nat (S k) <= max_iters + 1)%Z /\
    ((Z.of_nat (S k) <= max_iters)%Z ->
      Rabs (utau (Nat.iter k (mo_body p) (mo_init p s)) -
            utau (Nat.iter (S k) (mo_body p) (mo_init p s))) <= 1/100000) /\
    (forall j, (j < k)%nat ->
      1/100000 < Rabs (utau (Nat.iter j (mo_body p) (mo_init p s)) -
                       utau (Nat.iter (S j) (mo_body p) (mo_init p s)))).
Proof.
  intros p s mx f Hm Hf.
  destruct (mo_loop_ok p mx f 0 (mo_init p s) ltac:(lia) ltac:(lia)) as (k & H).
  exists k. exact H.
Qed.

Lemma update_steps p mx f s r n : update_fluxes p mx f s = Some (r, n) ->
  exists k, r = mo_body p (step_n p k (mo_init p s)).
Proof.
  unfold update_fluxes. generalize 0%Z. generalize (mo_init p s). clear s.
  induction f as [|f IH]; intros s iter; cbn [mo_loop]; [discriminate|].
  destruct (_ && _).
  - intros H. apply IH in H. destruct H as (k & ->). exists (S k). rewrite step_S. reflexivity.
  - intros H. inversion H. exists O. reflexivity.
Qed.

Lemma step_inv p (P : most -> Prop) s : P s -> (forall s, P s -> P (mo_body p s)) ->
  forall k, P (step_n p k s).
Proof. intros H0 H1. induction k as [|k IH]; [exact H0|]. cbn. apply H1. exact IH. Qed.

(** What the members satisfy on return: wind and friction velocity are related by the
    stability-corrected log law; the inputs of the mode are left alone. *)
Theorem c35_result : forall p s max_iters fuel r n,
  update_fluxes p max_iters fuel s = Some (r, n) ->
  (eps64 < Rabs (tflux r) -> phi_m p r (zref p) <> 0 ->
     utau r * phi_m p r (zref p) = kappa p * vmag p) /\
  (Rabs (tflux r) <= eps64 -> 0 < beta_m p -> 0 < gamma_m p ->
     utau r = kappa p * vmag p / ln (zref p / z0 p) /\ oblen r = max64) /\
  (flux_mode p = true -> tflux r = tflux s) /\
  (flux_mode p = false -> tsurf r = tsurf s).
Proof.
  intros p s mx f r n H. apply update_steps in H. destruct H as (k & ->).
  assert (I : forall k, (flux_mode p = true -> tflux (step_n p k (mo_init p s)) = tflux s) /\
     (flux_mode p = false -> tsurf (step_n p k (mo_init p s)) = tsurf s)).
  { apply (step_inv p (fun t => (flux_mode p = true -> tflux t = tflux s) /\
                              (flux_mode p = false -> tsurf t = tsurf s)));
      [split; reflexivity|]. intros s' (A & B). unfold mo_body; cbn.
    destruct (flux_mode p); split; intros; auto; discriminate. }
  split; [|split; [|apply (I (S k))]].
  - intros Hq Hd. unfold phi_m in Hd |- *. revert Hq Hd. unfold mo_body; cbn [utau oblen tflux].
    set (q := if flux_mode p then _ else _). intros Hq.
    rewrite (proj2 (Rltb_spec _ _)) by exact Hq. intros Hd. field. exact Hd.
  - intros Hq Hb Hg. revert Hq. unfold mo_body; cbn [utau oblen tflux].
    set (q := if flux_mode p then _ else _). intros Hq.
    rewrite (proj2 (Rltb_false _ _)) by exact Hq.
    rewrite (proj1 (c35_psi_m _ _ Hb Hg)), Rminus_0_r. split; reflexivity.
Qed.

(** Neutral stratification: the log law, in one step. *)
Theorem c35_neutral : forall p s max_iters fuel,
  (0 <= max_iters)%Z -> (max_iters + 1 <= Z.of_nat fuel)%Z -> 0 < beta_m p -> 0 < gamma_m p ->
  0 < beta_h p -> 0 < gamma_h p ->
  (if flux_mode p then tflux s = 0 else tsurf s = theta p) ->
  exists r, update_fluxes p max_iters fuel s = Some (r, 1%Z) /\
    utau r = kappa p * vmag p / ln (zref p / z0 p) /\ tflux r = 0 /\ tsurf r = theta p.
Proof.
  intros p s mx f Hm Hf Bm Gm Bh Gh H0. destruct f as [|f]; [lia|].
  unfold update_fluxes. cbn [mo_loop].
  assert (Q : tflux (mo_body p (mo_init p s)) = 0).
  { unfold mo_body; cbn. destruct (flux_mode p); [exact H0|].
    rewrite H0. unfold Rdiv, Rminus. ring. }
  assert (E : 0 < eps64) by (unfold eps64; apply Rinv_0_lt_compat, pow_lt; lra).
  assert (U : utau (mo_body p (mo_init p s)) = kappa p * vmag p / ln (zref p / z0 p)).
  { revert Q. unfold mo_body; cbn. set (q := if flux_mode p then _ else _). intros Q.
    rewrite Q, Rabs_R0, (proj2 (Rltb_false _ _)) by lra.
    rewrite (proj1 (c35_psi_m _ _ Bm Gm)), Rminus_0_r. reflexivity. }
  rewrite (proj2 (Rltb_false _ _)).
  2:{ rewrite U. cbn [utau mo_init]. rewrite Rminus_diag_eq, Rabs_R0 by reflexivity. lra. }
  cbn [andb]. eexists. split; [reflexivity|]. split; [exact U|]. split; [exact Q|].
  unfold mo_body; cbn. destruct (flux_mode p); [|exact H0]. rewrite H0. unfold Rdiv. ring.
Qed.

(** Stable stratification: the friction velocity stays between zero and the neutral
    value, the Obukhov length is positive, heat flows into the ground. *)
Record mo_ok (p : mopar) : Prop := MoOk
  { ok_z : 0 < z0 p < zref p; ok_zt : 0 < z0t p < zref p; ok_k : 0 < kappa p;
    ok_g : 0 < gravity p; ok_v : 0 < vmag p; ok_t : 0 < theta p;
    ok_gm : 0 < gamma_m p; ok_gh : 0 < gamma_h p; ok_bm : 0 < beta_m p; ok_bh : 0 < beta_h p }.

Lemma ln_ratio_pos a b : 0 < a < b -> 0 < ln (b / a).
Proof.
  intros H. rewrite <- ln_1. apply ln_increasing; [lra|].
  apply Rmult_lt_reg_r with a; [lra|]. unfold Rdiv. rewrite Rmult_assoc, Rinv_l by lra. lra.
Qed.

Lemma eps64_pos : 0 < eps64.
Proof. unfold eps64; apply Rinv_0_lt_compat, pow_lt; lra. Qed.
Lemma max64_pos : 0 < max64.
Proof.
  unfold max64. apply Rmult_lt_0_compat; [|apply pow_lt; lra].
  assert (/ 2 ^ 52 <= 1); [|lra]. rewrite <- Rinv_1. apply Rinv_le_contravar; [lra|].
  apply pow_R1_Rle. lra.
Qed.

Definition uneut (p : mopar) : R := kappa p * vmag p / ln (zref p / z0 p).

Lemma uneut_pos p : mo_ok p -> 0 < uneut p.
Proof.
  intros [Z1 Z2 K G V T GM GH BM BH]. unfold uneut. apply Rdiv_lt_0_compat; [nra|].
  apply ln_ratio_pos. exact Z1.
Qed.

(** The parts of one step, under names. *)
Definition new_q p s := if flux_mode p then tflux s
  else - (theta p - tsurf s) * utau s * kappa p / (ln (zref p / z0t p) - cur_psih s).
Lemma body_q p s : tflux (mo_body p s) = new_q p s.
Proof. reflexivity. Qed.
Lemma body_nonneutral p s : eps64 < Rabs (new_q p s) ->
  oblen (mo_body p s) = - utau s * utau s * utau s * theta p / (kappa p * gravity p * new_q p s) /\
  zeta (mo_body p s) = zref p / oblen (mo_body p s).
Proof.
  intros H. unfold mo_body; cbn [oblen zeta]. fold (new_q p s).
  rewrite (proj2 (Rltb_spec _ _)) by exact H. split; reflexivity.
Qed.
Lemma body_neutral p s : Rabs (new_q p s) <= eps64 ->
  oblen (mo_body p s) = max64 /\ zeta (mo_body p s) = 0.
Proof.
  intros H. unfold mo_body; cbn [oblen zeta]. fold (new_q p s).
  rewrite (proj2 (Rltb_false _ _)) by exact H. split; reflexivity.
Qed.
Lemma body_u p s : utau (mo_body p s) =
  kappa p * vmag p / (ln (zref p / z0 p) - psi_m (beta_m p) (gamma_m p) (zeta (mo_body p s))).
Proof. reflexivity. Qed.
Lemma body_ph p s : cur_psih (mo_body p s) = psi_h (beta_h p) (gamma_h p) (zeta (mo_body p s)).
Proof. reflexivity. Qed.
Lemma body_ts p s : tsurf (mo_body p s) =
  if flux_mode p then tflux s * (ln (zref p / z0t p) - cur_psih s) / (utau s * kappa p) + theta p
  else tsurf s.
Proof. reflexivity. Qed.

Theorem c35_stable : forall p s max_iters fuel r n, mo_ok p ->
  (if flux_mode p then tflux s <= 0 else tsurf s <= theta p) ->
  update_fluxes p max_iters fuel s = Some (r, n) ->
  0 < utau r <= kappa p * vmag p / ln (zref p / z0 p) /\
  0 < oblen r /\ tflux r <= 0 /\ tsurf r <= theta p /\
  (eps64 < Rabs (tflux r) -> utau r < kappa p * vmag p / ln (zref p / z0 p)).
Proof.
  intros p s mx f r n OK H0 H. apply update_steps in H. destruct H as (k & ->).
  pose proof OK as [Z1 Z2 K G V T GM GH BM BH].
  pose proof (uneut_pos p OK) as U0.
  pose proof (ln_ratio_pos _ _ Z1) as L1. pose proof (ln_ratio_pos _ _ Z2) as L2.
  pose proof (c35_psi_m _ _ BM GM) as (M0 & _ & M1 & _).
  pose proof (c35_psi_h _ _ BH GH) as (N0 & _ & N1 & _).
  set (I := fun s => 0 < utau s <= uneut p /\ cur_psih s <= 0 /\
                     (if flux_mode p then tflux s <= 0 else tsurf s <= theta p)).
  assert (Q : forall s, I s -> new_q p s <= 0).
  { intros s' (Iu & Ip & Iq). unfold new_q. destruct (flux_mode p); [exact Iq|].
    assert (A : 0 <= (theta p - tsurf s') * utau s' * kappa p / (ln (zref p / z0t p) - cur_psih s')).
    { apply Rle_mult_inv_pos; [|lra]. apply Rmult_le_pos; [|lra]. apply Rmult_le_pos; lra. }
    unfold Rdiv in *. nra. }
  assert (Zp : forall s, I s -> 0 < oblen (mo_body p s) /\ 0 <= zeta (mo_body p s) /\
     (eps64 < Rabs (new_q p s) -> 0 < zeta (mo_body p s))).
  { intros s' Is. pose proof (Q s' Is) as Hq. destruct Is as (Iu & Ip & Iq).
    destruct (Rlt_dec eps64 (Rabs (new_q p s'))) as [Hn|Hn].
    - destruct (body_nonneutral p s' Hn) as (EL & EZ).
      assert (A : 0 < oblen (mo_body p s')).
      { rewrite EL. pose proof eps64_pos. rewrite Rabs_left1 in Hn by exact Hq.
        assert (B : 0 < utau s' * utau s' * utau s' * theta p / (kappa p * gravity p * - new_q p s')).
        { apply Rdiv_lt_0_compat; repeat apply Rmult_lt_0_compat; lra. }
        replace (- utau s' * utau s' * utau s' * theta p / (kappa p * gravity p * new_q p s'))
          with (utau s' * utau s' * utau s' * theta p / (kappa p * gravity p * - new_q p s'))
          by (field; repeat split; lra). exact B. }
      assert (B : 0 < zeta (mo_body p s')) by (rewrite EZ; apply Rdiv_lt_0_compat; lra).
      split; [exact A|]. split; [lra|]. intros _; exact B.
    - destruct (body_neutral p s' ltac:(lra)) as (EL & EZ).
      rewrite EL, EZ. split; [apply max64_pos|]. split; [lra|]. intros F; lra. }
  assert (Pm : forall t, 0 <= t -> psi_m (beta_m p) (gamma_m p) t <= 0).
  { intros t Ht. destruct (Req_dec t 0) as [->|]; [lra|]. specialize (M1 t ltac:(lra)). lra. }
  assert (Ph : forall t, 0 <= t -> psi_h (beta_h p) (gamma_h p) t <= 0).
  { intros t Ht. destruct (Req_dec t 0) as [->|]; [lra|]. specialize (N1 t ltac:(lra)). lra. }
  assert (KV : 0 < kappa p * vmag p) by nra.
  assert (Up : forall s, I s -> 0 < utau (mo_body p s) <= uneut p /\
     (eps64 < Rabs (new_q p s) -> utau (mo_body p s) < uneut p)).
  { intros s' Is. destruct (Zp s' Is) as (ZL & ZZ & ZS). rewrite body_u.
    pose proof (Pm _ ZZ). unfold uneut. split; [split|].
    - apply Rdiv_lt_0_compat; lra.
    - unfold Rdiv. apply Rmult_le_compat_l; [lra|]. apply Rinv_le_contravar; lra.
    - intros Hn. specialize (M1 _ (ZS Hn)). unfold Rdiv. apply Rmult_lt_compat_l; [lra|].
      apply Rinv_lt_contravar; [|lra]. apply Rmult_lt_0_compat; lra. }
  assert (Ts : forall s, I s -> tsurf (mo_body p s) <= theta p).
  { intros s' (Iu & Ip & Iq). rewrite body_ts. destruct (flux_mode p); [|exact Iq].
    assert (A : 0 <= (- tflux s') * (ln (zref p / z0t p) - cur_psih s') / (utau s' * kappa p)).
    { apply Rle_mult_inv_pos; [|nra]. apply Rmult_le_pos; lra. }
    unfold Rdiv in *. nra. }
  assert (J : I (step_n p k (mo_init p s))).
  { apply step_inv.
    - split; [|split]; cbn; [unfold uneut in *; lra|lra|]. destruct (flux_mode p); exact H0.
    - intros s' Is. split; [apply Up; exact Is|]. split.
      + rewrite body_ph. apply Ph. apply (Zp s' Is).
      + pose proof (Q s' Is) as Hq. pose proof (Ts s' Is) as Ht.
        destruct (flux_mode p) eqn:E; [|exact Ht]. rewrite body_q. exact Hq. }
  set (s' := step_n p k (mo_init p s)) in *. fold (uneut p).
  rewrite body_q.
  split; [apply Up; exact J|]. split; [apply Zp; exact J|]. split; [apply Q; exact J|].
  split; [apply Ts; exact J|]. apply Up; exact J.
Qed.

Lemma frac_le a b c d : 0 <= a <= b -> 0 < d <= c -> a / c <= b / d.
Proof.
  intros Ha Hc. unfold Rdiv. apply Rmult_le_compat; try lra.
  - apply Rlt_le, Rinv_0_lt_compat; lra.
  - apply Rinv_le_contravar; lra.
Qed.

(** Unstable stratification with a given heat flux: if the log law is still positive at
    the stability parameter [zb] of the neutral friction velocity, the friction velocity
    stays between the neutral value and the one at [zb], and the Obukhov length is
    negative. *)
Theorem c35_unstable_flux : forall p s max_iters fuel r n zb, mo_ok p ->
  flux_mode p = true -> 0 <= tflux s ->
  zb = - (zref p * kappa p * gravity p * tflux s /
          (theta p * (kappa p * vmag p / ln (zref p / z0 p)) ^ 3)) ->
  psi_m (beta_m p) (gamma_m p) zb < ln (zref p / z0 p) ->
  psi_h (beta_h p) (gamma_h p) zb < ln (zref p / z0t p) ->
  update_fluxes p max_iters fuel s = Some (r, n) ->
  kappa p * vmag p / ln (zref p / z0 p) <= utau r <=
    kappa p * vmag p / (ln (zref p / z0 p) - psi_m (beta_m p) (gamma_m p) zb) /\
  zb <= zeta r <= 0 /\ (eps64 < tflux r -> oblen r < 0) /\ theta p <= tsurf r.
Proof.
  intros p s mx f r n zb OK Hm H0 Hzb Hpm Hph H. apply update_steps in H. destruct H as (k & ->).
  pose proof OK as [Z1 Z2 K G V T GM GH BM BH].
  pose proof (uneut_pos p OK) as U0. fold (uneut p) in Hzb |- *.
  pose proof (ln_ratio_pos _ _ Z1) as L1. pose proof (ln_ratio_pos _ _ Z2) as L2.
  pose proof (c35_psi_m _ _ BM GM) as (M0 & M1 & _ & _).
  pose proof (c35_psi_h _ _ BH GH) as (N0 & N1 & _ & _).
  assert (MM : forall a b, a <= b -> psi_m (beta_m p) (gamma_m p) b <= psi_m (beta_m p) (gamma_m p) a).
  { intros a b [Hab| ->]; [apply Rlt_le, M1; exact Hab|lra]. }
  assert (NN : forall a b, a <= b -> psi_h (beta_h p) (gamma_h p) b <= psi_h (beta_h p) (gamma_h p) a).
  { intros a b [Hab| ->]; [apply Rlt_le, N1; exact Hab|lra]. }
  assert (Hzb0 : zb <= 0).
  { rewrite Hzb. assert (0 <= zref p * kappa p * gravity p * tflux s / (theta p * uneut p ^ 3)); [|lra].
    apply Rle_mult_inv_pos; [repeat apply Rmult_le_pos; lra|].
    apply Rmult_lt_0_compat; [lra|apply pow_lt; lra]. }
  set (I := fun s' => uneut p <= utau s' /\ tflux s' = tflux s /\
                      cur_psih s' <= psi_h (beta_h p) (gamma_h p) zb).
  assert (Zp : forall s', I s' -> zb <= zeta (mo_body p s') <= 0 /\
     (eps64 < tflux s -> oblen (mo_body p s') < 0)).
  { intros s' (Iu & Iq & _). assert (Eq : new_q p s' = tflux s) by (unfold new_q; rewrite Hm; exact Iq).
    destruct (Rlt_dec eps64 (Rabs (new_q p s'))) as [Hn|Hn].
    - destruct (body_nonneutral p s' Hn) as (EL & EZ). rewrite Eq in *. pose proof eps64_pos.
      rewrite Rabs_pos_eq in Hn by lra.
      assert (P3 : 0 < utau s' * utau s' * utau s') by (repeat apply Rmult_lt_0_compat; lra).
      assert (KG : 0 < kappa p * gravity p * tflux s) by (repeat apply Rmult_lt_0_compat; lra).
      assert (A : oblen (mo_body p s') < 0).
      { rewrite EL. assert (B : 0 < utau s' * utau s' * utau s' * theta p / (kappa p * gravity p * tflux s))
          by (apply Rdiv_lt_0_compat; [apply Rmult_lt_0_compat; lra|lra]).
        unfold Rdiv in *. nra. }
      split; [|intros _; exact A].
      assert (EZ' : zeta (mo_body p s') =
         - (zref p * kappa p * gravity p * tflux s / (theta p * (utau s' * utau s' * utau s')))).
      { rewrite EZ, EL. field. repeat split; lra. }
      rewrite EZ', Hzb.
      assert (C3 : uneut p ^ 3 <= utau s' * utau s' * utau s').
      { simpl. rewrite Rmult_1_r. rewrite <- Rmult_assoc. repeat apply Rmult_le_compat; nra. }
      assert (P30 : 0 < uneut p ^ 3) by (apply pow_lt; lra).
      assert (ZP : 0 < zref p * kappa p * gravity p * tflux s) by (repeat apply Rmult_lt_0_compat; lra).
      split.
      + apply Ropp_le_contravar. apply frac_le; [lra|]. split; [nra|]. nra.
      + assert (0 < zref p * kappa p * gravity p * tflux s / (theta p * (utau s' * utau s' * utau s')))
          by (apply Rdiv_lt_0_compat; [lra|nra]). lra.
    - destruct (body_neutral p s' ltac:(lra)) as (EL & EZ). rewrite EZ. split; [lra|].
      intros F. exfalso. apply Hn. rewrite Eq, Rabs_pos_eq by lra. exact F. }
  assert (KV : 0 < kappa p * vmag p) by nra.
  assert (Up : forall s', I s' -> uneut p <= utau (mo_body p s') <=
      kappa p * vmag p / (ln (zref p / z0 p) - psi_m (beta_m p) (gamma_m p) zb)).
  { intros s' Is. destruct (Zp s' Is) as (ZZ & _). rewrite body_u.
    pose proof (MM _ _ (proj1 ZZ)). pose proof (MM _ _ (proj2 ZZ)). rewrite M0 in *.
    unfold uneut. split; apply frac_le; lra. }
  assert (J : I (step_n p k (mo_init p s))).
  { apply step_inv.
    - split; [|split]; cbn; [unfold uneut in *; lra|reflexivity|]. rewrite <- N0. apply NN. exact Hzb0.
    - intros s' Is. split; [apply Up; exact Is|]. split.
      + rewrite body_q. unfold new_q. rewrite Hm. apply Is.
      + rewrite body_ph. apply NN. apply (Zp s' Is). }
  set (s' := step_n p k (mo_init p s)) in *.
  split; [apply Up; exact J|]. split; [apply Zp; exact J|]. split.
  - intros F. apply (Zp s' J). rewrite body_q in F. unfold new_q in F. rewrite Hm in F.
    destruct J as (_ & Jq & _). rewrite <- Jq. exact F.
  - rewrite body_ts, Hm. destruct J as (Ju & Jq & Jp).
    assert (A : 0 <= tflux s' * (ln (zref p / z0t p) - cur_psih s') / (utau s' * kappa p)).
    { apply Rle_mult_inv_pos; [apply Rmult_le_pos; lra|apply Rmult_lt_0_compat; lra]. }
    lra.
Qed.

(** The same with a given surface temperature above the air temperature: [zb] is a bound
    the first iterates imply for the later ones. *)
Theorem c35_unstable_temperature : forall p s max_iters fuel r n zb, mo_ok p ->
  flux_mode p = false -> theta p <= tsurf s -> zb <= 0 ->
  psi_m (beta_m p) (gamma_m p) zb < ln (zref p / z0 p) ->
  psi_h (beta_h p) (gamma_h p) zb < ln (zref p / z0t p) ->
  zref p * kappa p ^ 2 * gravity p * (tsurf s - theta p) /
    (theta p * (kappa p * vmag p / ln (zref p / z0 p)) ^ 2 *
     (ln (zref p / z0t p) - psi_h (beta_h p) (gamma_h p) zb)) <= - zb ->
  update_fluxes p max_iters fuel s = Some (r, n) ->
  kappa p * vmag p / ln (zref p / z0 p) <= utau r <=
    kappa p * vmag p / (ln (zref p / z0 p) - psi_m (beta_m p) (gamma_m p) zb) /\
  zb <= zeta r <= 0 /\ 0 <= tflux r /\ (eps64 < tflux r -> oblen r < 0).
Proof.
  intros p s mx f r n zb OK Hm H0 Hzb Hpm Hph Hb H. apply update_steps in H. destruct H as (k & ->).
  pose proof OK as [Z1 Z2 K G V T GM GH BM BH].
  pose proof (uneut_pos p OK) as U0. fold (uneut p) in Hb |- *.
  pose proof (ln_ratio_pos _ _ Z1) as L1. pose proof (ln_ratio_pos _ _ Z2) as L2.
  pose proof (c35_psi_m _ _ BM GM) as (M0 & M1 & _ & _).
  pose proof (c35_psi_h _ _ BH GH) as (N0 & N1 & _ & _).
  assert (MM : forall a b, a <= b -> psi_m (beta_m p) (gamma_m p) b <= psi_m (beta_m p) (gamma_m p) a).
  { intros a b [Hab| ->]; [apply Rlt_le, M1; exact Hab|lra]. }
  assert (NN : forall a b, a <= b -> psi_h (beta_h p) (gamma_h p) b <= psi_h (beta_h p) (gamma_h p) a).
  { intros a b [Hab| ->]; [apply Rlt_le, N1; exact Hab|lra]. }
  set (hb := psi_h (beta_h p) (gamma_h p) zb) in *.
  set (I := fun s' => uneut p <= utau s' /\ tsurf s' = tsurf s /\ cur_psih s' <= hb).
  assert (Zp : forall s', I s' -> zb <= zeta (mo_body p s') <= 0 /\ 0 <= new_q p s' /\
     (eps64 < new_q p s' -> oblen (mo_body p s') < 0)).
  { intros s' (Iu & Iq & Ih).
    set (D := ln (zref p / z0t p) - cur_psih s'). assert (HD : 0 < ln (zref p / z0t p) - hb <= D) by (unfold D; lra).
    assert (Eq : new_q p s' = (tsurf s - theta p) * utau s' * kappa p / D).
    { unfold new_q. rewrite Hm, Iq. fold D. field. lra. }
    assert (Q0 : 0 <= new_q p s').
    { rewrite Eq. apply Rle_mult_inv_pos; [|lra]. repeat apply Rmult_le_pos; lra. }
    destruct (Rlt_dec eps64 (Rabs (new_q p s'))) as [Hn|Hn].
    - destruct (body_nonneutral p s' Hn) as (EL & EZ). pose proof eps64_pos.
      rewrite Rabs_pos_eq in Hn by lra.
      assert (P3 : 0 < utau s' * utau s' * utau s') by (repeat apply Rmult_lt_0_compat; lra).
      assert (KG : 0 < kappa p * gravity p * new_q p s') by (repeat apply Rmult_lt_0_compat; lra).
      assert (A : oblen (mo_body p s') < 0).
      { rewrite EL. assert (B : 0 < utau s' * utau s' * utau s' * theta p / (kappa p * gravity p * new_q p s'))
          by (apply Rdiv_lt_0_compat; [apply Rmult_lt_0_compat; lra|lra]).
        unfold Rdiv in *. nra. }
      assert (Hd : tsurf s - theta p <> 0).
      { intros E. rewrite Eq, E in Hn. unfold Rdiv in Hn. rewrite !Rmult_0_l in Hn. lra. }
      assert (EZ' : zeta (mo_body p s') =
         - (zref p * kappa p ^ 2 * gravity p * (tsurf s - theta p) / (theta p * (utau s' * utau s') * D))).
      { rewrite EZ, EL, Eq. field. repeat split; lra. }
      assert (C2 : uneut p ^ 2 <= utau s' * utau s').
      { simpl. rewrite Rmult_1_r. apply Rmult_le_compat; lra. }
      assert (P20 : 0 < uneut p ^ 2) by (apply pow_lt; lra).
      assert (ZP : 0 <= zref p * kappa p ^ 2 * gravity p * (tsurf s - theta p)).
      { repeat apply Rmult_le_pos; lra. }
      split; [|split; [exact Q0|intros _; exact A]]. rewrite EZ'. split.
      + apply Rle_trans with (- (zref p * kappa p ^ 2 * gravity p * (tsurf s - theta p) /
          (theta p * uneut p ^ 2 * (ln (zref p / z0t p) - hb)))); [lra|].
        apply Ropp_le_contravar. apply frac_le; [lra|].
        assert (0 < theta p * uneut p ^ 2) by (apply Rmult_lt_0_compat; lra).
        assert (theta p * uneut p ^ 2 <= theta p * (utau s' * utau s')) by (apply Rmult_le_compat_l; lra).
        split; [apply Rmult_lt_0_compat; lra|]. apply Rmult_le_compat; lra.
      + assert (0 <= zref p * kappa p ^ 2 * gravity p * (tsurf s - theta p) / (theta p * (utau s' * utau s') * D)); [|lra].
        apply Rle_mult_inv_pos; [lra|]. repeat apply Rmult_lt_0_compat; lra.
    - destruct (body_neutral p s' ltac:(lra)) as (EL & EZ). rewrite EZ. split; [lra|].
      split; [exact Q0|]. intros F. exfalso. apply Hn. rewrite Rabs_pos_eq by lra. exact F. }
  assert (KV : 0 < kappa p * vmag p) by nra.
  assert (Up : forall s', I s' -> uneut p <= utau (mo_body p s') <=
      kappa p * vmag p / (ln (zref p / z0 p) - psi_m (beta_m p) (gamma_m p) zb)).
  { intros s' Is. destruct (Zp s' Is) as (ZZ & _). rewrite body_u.
    pose proof (MM _ _ (proj1 ZZ)). pose proof (MM _ _ (proj2 ZZ)). rewrite M0 in *.
    unfold uneut. split; apply frac_le; lra. }
  assert (J : I (step_n p k (mo_init p s))).
  { apply step_inv.
    - split; [|split]; cbn; [unfold uneut in *; lra|reflexivity|]. rewrite <- N0. apply NN. exact Hzb.
    - intros s' Is. split; [apply Up; exact Is|]. split.
      + rewrite body_ts, Hm. apply Is.
      + rewrite body_ph. apply NN. apply (Zp s' Is). }
  set (s' := step_n p k (mo_init p s)) in *. rewrite body_q.
  split; [apply Up; exact J|]. split; [apply Zp; exact J|]. split; apply Zp; exact J.
Qed.

(** Non-vacuity: a neutral, a stable and a weakly unstable surface layer. *)
Definition mo_case (b : bool) : mopar := MoPar 10 (1/10) (1/10) (41/100) (981/100) 8 300 5 5 16 16 b.
Example c35_case_ok : forall b, mo_ok (mo_case b).
Proof. intros b. constructor; cbn; lra. Qed.
Example c35_case_stable :
  exists r n, update_fluxes (mo_case true) 25 26 (MoSt 0 0 (-1/20) 0 0 0 0) = Some (r, n) /\
    0 < utau r /\ 0 < oblen r /\ tsurf r <= 300.
Proof.
  destruct (c35_terminates (mo_case true) (MoSt 0 0 (-1/20) 0 0 0 0) 25 26 ltac:(lia) ltac:(lia))
    as (k & E & _).
  exists (Nat.iter (S k) (mo_body (mo_case true)) (mo_init (mo_case true) (MoSt 0 0 (-1/20) 0 0 0 0))).
  exists (Z.of_nat (S k)). split; [exact E|].
  destruct (c35_stable (mo_case true) (MoSt 0 0 (-1/20) 0 0 0 0) _ _ _ _ (c35_case_ok true)
    ltac:(cbn; lra) E) as (A & B & _ & C & _).
  repeat split; try apply A; try apply B; try apply C.
Qed.
(** The hypotheses of the unstable case hold for every small enough heat flux: the
    bound tends to neutral. *)
Example c35_case_unstable : exists q, 0 < q /\
  psi_m 16 5 (- (10 * (41/100) * (981/100) * q / (300 * (41/100 * 8 / ln (10 / (1/10))) ^ 3))) < ln (10 / (1/10)).
Proof.
  assert (L : 0 < ln (10 / (1/10))) by (apply (ln_ratio_pos (1/10) 10); lra).
  destruct (c35_psi_continuous 16 5 0 ltac:(lra)) as (C & _).
  assert (Z : psi_m 16 5 0 = 0) by (apply c35_psi_m; lra).
  unfold continuity_pt, continue_in, limit1_in, limit_in in C.
  destruct (C _ L) as (d & Hd & H). cbn in H. unfold R_dist in H.
  set (c := 10 * (41/100) * (981/100) / (300 * (41/100 * 8 / ln (10 / (1/10))) ^ 3)).
  assert (Hc : 0 < c).
  { apply Rdiv_lt_0_compat; [lra|]. apply Rmult_lt_0_compat; [lra|]. apply pow_lt.
    apply Rdiv_lt_0_compat; lra. }
  exists (d / (2 * c)). assert (Hq : 0 < d / (2 * c)) by (apply Rdiv_lt_0_compat; lra).
  split; [exact Hq|].
  replace (- (10 * (41/100) * (981/100) * (d / (2 * c)) / (300 * (41/100 * 8 / ln (10 / (1/10))) ^ 3)))
    with (- (c * (d / (2 * c)))) by (unfold c, Rdiv; ring).
  replace (c * (d / (2 * c))) with (d / 2) by (field; lra).
  specialize (H (- (d / 2))). rewrite Z in H.
  assert (B : Rabs (psi_m 16 5 (- (d / 2)) - 0) < ln (10 / (1/10))).
  { apply H. split; [split; [exact I|intros E; lra]|]. rewrite Rminus_0_r, Rabs_Ropp, Rabs_pos_eq by lra. lra. }
  apply Rabs_def2 in B. lra.
Qed.

Print Assumptions c35_psi_m.
Print Assumptions c35_psi_h.
Print Assumptions c35_psi_continuous.
Print Assumptions c35_profiles.
Print Assumptions c35_profiles_increase.
Print Assumptions c35_terminates.
Print Assumptions c35_result.
Print Assumptions c35_neutral.
Print Assumptions c35_stable.
Print Assumptions c35_unstable_flux.
Print Assumptions c35_unstable_temperature.
