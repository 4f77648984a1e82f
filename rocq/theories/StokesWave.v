(** The elevation and velocity that the code evaluates, at the surface, in terms
    of the expansion. *)
From Coq Require Import Reals ZArith List Lra Lia Psatz.
From Coquelicot Require Import Coquelicot.
From Verif Require Import Base.
From Verif Require Import BoxR BoxRFacts MultiPhase MultiPhaseSpec PropMultiPhase Waves WavesSpec PropWaveKin Stokes StokesSpec StokesPoly StokesSeries StokesExpand StokesProofs.
Import ListNotations.
Open Scope R_scope.

Definition sw_h (w : swave) (t x : R) : R :=
  let e := sw_eps w in let c := sw_c w in let p := sw_arg w t x in
  e * cos p + e ^ 2 * sc_b22 c * cos (2 * p) + e ^ 3 * sc_b31 c * (cos p - cos (3 * p))
   + e ^ 4 * (sc_b42 c * cos (2 * p) + sc_b44 c * cos (4 * p))
   + e ^ 5 * (- (sc_b53 c + sc_b55 c) * cos p + sc_b53 c * cos (3 * p) + sc_b55 c * cos (5 * p)).
Lemma sw_eta_h : forall w t x, sw_eta w t x = sw_h w t x / sw_k w + sw_zsl w.
Proof. reflexivity. Qed.

Lemma cos_nT : forall p, cos (2 * p) = cT2 (cos p) /\ cos (3 * p) = cT3 (cos p) /\ cos (4 * p) = cT4 (cos p) /\ cos (5 * p) = cT5 (cos p) /\
  sin (2 * p) = sin p * (2 * cos p) /\ sin (3 * p) = sin p * cU2 (cos p) /\ sin (4 * p) = sin p * cU3 (cos p) /\ sin (5 * p) = sin p * cU4 (cos p).
Proof.
  intros p. pose proof (sin2_cos2 p) as Q. unfold Rsqr in Q.
  assert (C2 : cos (2 * p) = cT2 (cos p)) by (rewrite cos_2a; unfold cT2; nra).
  assert (S2 : sin (2 * p) = sin p * (2 * cos p)) by (rewrite sin_2a; ring).
  assert (Q' : sin p * sin p = 1 - cos p * cos p) by lra.
  assert (C3 : cos (3 * p) = cT3 (cos p)).
  { replace (3 * p) with (2 * p + p) by ring. rewrite cos_plus, C2, S2. unfold cT2, cT3.
    replace (sin p * (2 * cos p) * sin p) with (2 * cos p * (sin p * sin p)) by ring. rewrite Q'. ring. }
  assert (S3 : sin (3 * p) = sin p * cU2 (cos p)).
  { replace (3 * p) with (2 * p + p) by ring. rewrite sin_plus, C2, S2. unfold cT2, cU2. ring. }
  assert (C4 : cos (4 * p) = cT4 (cos p)).
  { replace (4 * p) with (3 * p + p) by ring. rewrite cos_plus, C3, S3. unfold cT3, cU2, cT4.
    replace (sin p * (4 * cos p ^ 2 - 1) * sin p) with ((4 * cos p ^ 2 - 1) * (sin p * sin p)) by ring. rewrite Q'. ring. }
  assert (S4 : sin (4 * p) = sin p * cU3 (cos p)).
  { replace (4 * p) with (3 * p + p) by ring. rewrite sin_plus, C3, S3. unfold cT3, cU2, cU3. ring. }
  assert (C5 : cos (5 * p) = cT5 (cos p)).
  { replace (5 * p) with (4 * p + p) by ring. rewrite cos_plus, C4, S4. unfold cT4, cU3, cT5.
    replace (sin p * (8 * cos p ^ 3 - 4 * cos p) * sin p) with ((8 * cos p ^ 3 - 4 * cos p) * (sin p * sin p)) by ring. rewrite Q'. ring. }
  assert (S5 : sin (5 * p) = sin p * cU4 (cos p)).
  { replace (5 * p) with (4 * p + p) by ring. rewrite sin_plus, C4, S4. unfold cT4, cU3, cU4. ring. }
  tauto.
Qed.
Lemma INR_IZR : forall n, INR n = IZR (Z.of_nat n). Proof. intros. apply INR_IZR_INZ. Qed.
Lemma cos_ET : forall n p, (1 <= n <= 5)%nat -> cos (INR n * p) = ET n (cos p).
Proof.
  intros n p Hn. destruct (cos_nT p) as (C2 & C3 & C4 & C5 & _). rewrite INR_IZR.
  destruct n as [|[|[|[|[|[|n]]]]]]; try lia; [|exact C2|exact C3|exact C4|exact C5].
  change (IZR (Z.of_nat 1)) with 1. rewrite Rmult_1_l. reflexivity.
Qed.
Lemma sin_EU : forall n p, (1 <= n <= 5)%nat -> sin (INR n * p) = sin p * EU n (cos p).
Proof.
  intros n p Hn. destruct (cos_nT p) as (_ & _ & _ & _ & S2 & S3 & S4 & S5). rewrite INR_IZR.
  destruct n as [|[|[|[|[|[|n]]]]]]; try lia; [|exact S2|exact S3|exact S4|exact S5].
  change (IZR (Z.of_nat 1)) with 1. rewrite Rmult_1_l. unfold EU. ring.
Qed.

Section Link.
  Context (o : nat) (len d H zsl g ph : R) (w : swave).
  Context (Ho : (2 <= o <= 5)%nat) (HL : 0 < len) (Hd : 0 < d) (Hg : 0 < g) (HH : 0 <= H).
  Let k := 2 * PI / len.
  Let kd := k * d.
  Let e := k * H / 2.
  Context (Hc : kd <= 50 * PI) (E : stokes_wave o len d H zsl g ph = Ret w).
  Lemma link_k : 0 < k. Proof. unfold k. apply Rdiv_lt_0_compat; [pose proof PI_RGT_0; lra|exact HL]. Qed.
  Lemma link_kd : 0 < kd. Proof. apply Rmult_lt_0_compat; [apply link_k|exact Hd]. Qed.
  Lemma link_st_kd : st_kd k d = kd. Proof. unfold st_kd. rewrite rmin_R. apply Rmin_left. exact Hc. Qed.
  (** The record the code fills. *)
  Definition q_of : scoefs :=
    SCs (st_c0 kd) (st_a11 kd) (st_a22 kd) (st_b22 kd) (st_c2 kd)
      (from o 3 0 (st_a31 kd)) (from o 3 0 (st_a33 kd)) (from o 3 0 (st_b31 kd))
      (from o 4 0 (st_a42 kd)) (from o 4 0 (st_a44 kd)) (from o 4 0 (st_b42 kd)) (from o 4 0 (st_b44 kd)) (from o 4 0 (st_c4 kd))
      (from o 5 0 (st_a51 kd)) (from o 5 0 (st_a53 kd)) (from o 5 0 (st_a55 kd)) (from o 5 0 (st_b53 kd)) (from o 5 0 (st_b55 kd)).
  Lemma link_w : w = SW o len d H zsl g ph
    (SC (st_c0 kd) (st_c2 kd) (from o 4 0 (st_c4 kd)) (st_b22 kd) (from o 3 0 (st_b31 kd)) (from o 4 0 (st_b42 kd)) (from o 4 0 (st_b44 kd))
       (from o 5 0 (st_b53 kd)) (from o 5 0 (st_b55 kd)) (stokes_amp o q_of e)).
  Proof.
    unfold stokes_wave in E. fold k in E. unfold stokes_coefficients in E. rewrite link_st_kd in E.
    rewrite (proj2 (Nat.leb_le 2 o)) in E by lia. rewrite (proj2 (Nat.leb_le o 5)) in E by lia. cbn [andb] in E.
    injection E as <-. reflexivity.
  Qed.
  Lemma link_h : forall t x, sw_h w t x = wh o kd e (cos (sw_arg w t x)).
  Proof.
    intros t x. destruct (cos_nT (sw_arg w t x)) as (C2 & C3 & C4 & C5 & _). unfold sw_h. cbv zeta. rewrite C2, C3, C4, C5.
    generalize (cos (sw_arg w t x)). intros c. rewrite link_w. unfold sw_eps, sw_k. cbn [sw_length sw_height sw_c sc_b22 sc_b31 sc_b42 sc_b44 sc_b53 sc_b55].
    fold k e. unfold wh, Eh, wb22, wb31, wb42, wb44, wb53, wb55. replace (from o 2 0 (st_b22 kd)) with (st_b22 kd); [reflexivity|].
    unfold from. rewrite (proj2 (Nat.leb_le 2 o)) by lia. reflexivity.
  Qed.
  Lemma link_speed : sw_speed w = st_c0 kd * sqrt (g / k) * wc o kd e.
  Proof.
    rewrite link_w. unfold sw_speed, sw_eps, sw_k. cbn [sw_length sw_height sw_c sw_g sc_c0 sc_c2 sc_c4]. fold k e.
    unfold wc, Ec, st_c0, st_c2, st_c4, rc2, rc4, from. cbv zeta. rewrite (proj2 (Nat.leb_le 2 o)) by lia.
    destruct (4 <=? o)%nat; unfold Rdiv; ring.
  Qed.
  (** Amplitude of harmonic [n] times the hyperbolic functions of the depth. *)
  Definition amp (n : nat) : R := if (n <=? o)%nat then stokes_amp o q_of e n else 0.
  Lemma a11_s : st_a11 kd * sinh kd = 1.
  Proof. unfold st_a11. pose proof (sinh_pos kd link_kd). field. lra. Qed.
  Lemma a11_c : st_a11 kd * cosh kd = coth kd.
  Proof. unfold st_a11, coth. pose proof (sinh_pos kd link_kd). field. lra. Qed.
  Lemma amp_P : forall n, (1 <= n <= 5)%nat -> e ^ n * amp n * sinh (INR n * kd) = wP o kd n e.
  Proof.
    intros n Hn. rewrite INR_IZR. unfold amp, wP.
    assert (OO : o = 2%nat \/ o = 3%nat \/ o = 4%nat \/ o = 5%nat) by lia.
    pose proof a11_s as A.
    destruct OO as [O|[O|[O|O]]]; destruct n as [|[|[|[|[|[|n]]]]]]; try lia; rewrite O;
      unfold EP, q_of, from; rewrite ?O; cbn [Nat.leb stokes_amp k_a11 k_a22 k_a31 k_a33 k_a42 k_a44 k_a51 k_a53 k_a55];
      try (change (IZR (Z.of_nat 1)) with 1; rewrite Rmult_1_l);
      try (change (IZR (Z.of_nat 2)) with 2); try (change (IZR (Z.of_nat 3)) with 3); try (change (IZR (Z.of_nat 4)) with 4); try (change (IZR (Z.of_nat 5)) with 5);
      try ring.
    all: match goal with |- ?l = ?r => ring_simplify l; ring_simplify r end.
    all: replace (e * st_a11 kd * sinh kd) with (e * (st_a11 kd * sinh kd)) by ring; rewrite ?A; try ring.
  Qed.
  Lemma amp_Q : forall n, (1 <= n <= 5)%nat -> e ^ n * amp n * cosh (INR n * kd) = wQ o kd n e.
  Proof.
    intros n Hn. rewrite INR_IZR. unfold amp, wQ.
    assert (OO : o = 2%nat \/ o = 3%nat \/ o = 4%nat \/ o = 5%nat) by lia.
    pose proof a11_c as A. rewrite <- A.
    destruct OO as [O|[O|[O|O]]]; destruct n as [|[|[|[|[|[|n]]]]]]; try lia; rewrite O;
      unfold EQ, q_of, from; rewrite ?O; cbn [Nat.leb stokes_amp k_a11 k_a22 k_a31 k_a33 k_a42 k_a44 k_a51 k_a53 k_a55];
      try (change (IZR (Z.of_nat 1)) with 1; rewrite Rmult_1_l);
      try (change (IZR (Z.of_nat 2)) with 2); try (change (IZR (Z.of_nat 3)) with 3); try (change (IZR (Z.of_nat 4)) with 4); try (change (IZR (Z.of_nat 5)) with 5);
      ring.
  Qed.

  Lemma sum5 : forall F : nat -> R, (forall n, (o < n <= 5)%nat -> F n = 0) ->
    rsum (map F (seq 1 o)) = F 1%nat + (F 2%nat + (F 3%nat + (F 4%nat + F 5%nat))).
  Proof.
    intros F Z. assert (OO : o = 2%nat \/ o = 3%nat \/ o = 4%nat \/ o = 5%nat) by lia.
    destruct OO as [O|[O|[O|O]]]; rewrite O in *; cbn [seq map]; rewrite ?rsum_cons; unfold rsum; cbn [fold_right];
      rewrite ?(Z 3%nat), ?(Z 4%nat), ?(Z 5%nat) by lia; ring.
  Qed.
  Lemma link_order : sw_order w = o. Proof. rewrite link_w. reflexivity. Qed.
  Lemma link_sk : sw_k w = k. Proof. rewrite link_w. reflexivity. Qed.
  Lemma link_eps : sw_eps w = e. Proof. rewrite link_w. reflexivity. Qed.
  Lemma link_q : sc_c0 (sw_c w) * sqrt (sw_g w / sw_k w) = st_c0 kd * sqrt (g / k).
  Proof. rewrite link_sk. rewrite link_w. reflexivity. Qed.
  Lemma link_zsl : sw_zsl w = zsl. Proof. rewrite link_w. reflexivity. Qed.
  Lemma link_depth : sw_depth w = d. Proof. rewrite link_w. reflexivity. Qed.
  Lemma link_a : forall n, (n <= o)%nat -> sc_a (sw_c w) n = amp n.
  Proof. intros n Hn. unfold amp. rewrite (proj2 (Nat.leb_le n o)) by exact Hn. rewrite link_w. reflexivity. Qed.
  (** At the surface, where no argument is clamped. *)
  Lemma unclamped : forall t x n, (n <= o)%nat -> INR o * k * (d + (sw_eta w t x - zsl)) < 50 * PI ->
    sw_arg_z w n (sw_eta w t x) = INR n * kd + INR n * wh o kd e (cos (sw_arg w t x)).
  Proof.
    intros t x n Hn U. pose proof link_k as K. pose proof PI_RGT_0 as HP. unfold sw_arg_z. rewrite link_sk, link_zsl, link_depth, rmin_R, Rmin_left.
    - rewrite sw_eta_h, link_sk, link_zsl, link_h. unfold kd. field. lra.
    - assert (0 <= INR n <= INR o) by (split; [apply pos_INR|apply le_INR; exact Hn]).
      destruct (Rle_or_lt 0 (k * (d + (sw_eta w t x - zsl)))) as [P|P]; rewrite Rmult_assoc in *; nra.
  Qed.
  Lemma link_u : forall t x, INR o * k * (d + (sw_eta w t x - zsl)) < 50 * PI ->
    sw_u w t x (sw_eta w t x) = st_c0 kd * sqrt (g / k) * wu o kd e (cos (sw_arg w t x)).
  Proof.
    intros t x U. unfold sw_u. rewrite link_q, link_order, link_eps.
    set (F := fun n => wu1 o kd n e (cos (sw_arg w t x))).
    rewrite (map_ext_in _ F).
    - rewrite sum5. { unfold wu, F. ring. }
      intros n Hn. unfold F, wu1. rewrite <- amp_P, <- amp_Q by lia. unfold amp. rewrite (proj2 (Nat.leb_gt n o)) by lia. ring.
    - intros n Hn. apply in_seq in Hn. rewrite (unclamped t x n) by (lia || exact U). rewrite cosh_plus, cos_ET, link_a by lia.
      unfold F, wu1. rewrite <- amp_P, <- amp_Q by lia. rewrite INR_IZR. ring.
  Qed.
  Lemma link_ww : forall t x, INR o * k * (d + (sw_eta w t x - zsl)) < 50 * PI ->
    sw_w w t x (sw_eta w t x) = st_c0 kd * sqrt (g / k) * (sin (sw_arg w t x) * ww o kd e (cos (sw_arg w t x))).
  Proof.
    intros t x U. unfold sw_w. rewrite link_q, link_order, link_eps.
    set (F := fun n => sin (sw_arg w t x) * ww1 o kd n e (cos (sw_arg w t x))).
    rewrite (map_ext_in _ F).
    - rewrite sum5. { unfold ww, F. ring. }
      intros n Hn. unfold F, ww1. rewrite <- amp_P, <- amp_Q by lia. unfold amp. rewrite (proj2 (Nat.leb_gt n o)) by lia. ring.
    - intros n Hn. apply in_seq in Hn. rewrite (unclamped t x n) by (lia || exact U). rewrite sinh_plus, sin_EU, link_a by lia.
      unfold F, ww1. rewrite <- amp_P, <- amp_Q by lia. rewrite INR_IZR. ring.
  Qed.
  (** Slopes of the surface. *)
  Lemma slope : forall (a : R -> R) y a', is_derive a y a' ->
    is_derive (fun s => (e * cos (a s) + e ^ 2 * wb22 o kd * cos (2 * a s) + e ^ 3 * wb31 o kd * (cos (a s) - cos (3 * a s))
      + e ^ 4 * (wb42 o kd * cos (2 * a s) + wb44 o kd * cos (4 * a s))
      + e ^ 5 * (- (wb53 o kd + wb55 o kd) * cos (a s) + wb53 o kd * cos (3 * a s) + wb55 o kd * cos (5 * a s))) / k + zsl) y
      (- a' * sin (a y) * whx o kd e (cos (a y)) / k).
  Proof.
    intros a y a' D. pose proof link_k as K. assert (EX : ex_derive a y) by (eexists; exact D).
    auto_derive; [repeat split; exact EX|].
    change (Derive (fun x => a x) y) with (Derive a y). rewrite (is_derive_unique a y a' D).
    destruct (cos_nT (a y)) as (_ & _ & _ & _ & S2 & S3 & S4 & S5). rewrite S2, S3, S4, S5.
    unfold whx, Ehx. field. lra.
  Qed.
  Lemma eta_fun : forall t x, sw_eta w t x = (e * cos (sw_arg w t x) + e ^ 2 * wb22 o kd * cos (2 * sw_arg w t x) + e ^ 3 * wb31 o kd * (cos (sw_arg w t x) - cos (3 * sw_arg w t x))
      + e ^ 4 * (wb42 o kd * cos (2 * sw_arg w t x) + wb44 o kd * cos (4 * sw_arg w t x))
      + e ^ 5 * (- (wb53 o kd + wb55 o kd) * cos (sw_arg w t x) + wb53 o kd * cos (3 * sw_arg w t x) + wb55 o kd * cos (5 * sw_arg w t x))) / k + zsl.
  Proof.
    intros t x. rewrite sw_eta_h, link_h, link_sk, link_zsl. destruct (cos_nT (sw_arg w t x)) as (C2 & C3 & C4 & C5 & _). rewrite C2, C3, C4, C5. reflexivity.
  Qed.
  Lemma eta_x : forall t x, is_derive (fun s => sw_eta w t s) x (- sin (sw_arg w t x) * whx o kd e (cos (sw_arg w t x))).
  Proof.
    intros t x. pose proof link_k as K. apply (is_derive_ext _ _ _ _ (fun s => eq_sym (eta_fun t s))).
    replace (- sin (sw_arg w t x) * whx o kd e (cos (sw_arg w t x))) with (- k * sin (sw_arg w t x) * whx o kd e (cos (sw_arg w t x)) / k) by (field; lra).
    apply (slope (fun s => sw_arg w t s)). unfold sw_arg. rewrite link_sk. auto_derive; [exact I|ring].
  Qed.
  Lemma eta_t : forall t x, is_derive (fun s => sw_eta w s x) t (sw_speed w * sin (sw_arg w t x) * whx o kd e (cos (sw_arg w t x))).
  Proof.
    intros t x. pose proof link_k as K. apply (is_derive_ext _ _ _ _ (fun s => eq_sym (eta_fun s x))).
    replace (sw_speed w * sin (sw_arg w t x) * whx o kd e (cos (sw_arg w t x))) with (- (- (sw_speed w * k)) * sin (sw_arg w t x) * whx o kd e (cos (sw_arg w t x)) / k) by (field; lra).
    apply (slope (fun s => sw_arg w s x)). unfold sw_arg. rewrite link_sk. auto_derive; [exact I|ring].
  Qed.
End Link.

(** The velocity potential of the wave. *)
Definition sw_phi (w : swave) (t x z : R) : R :=
  rsum (map (fun n => sw_eps w ^ n * sc_a (sw_c w) n * cosh (INR n * sw_k w * (sw_depth w + (z - sw_zsl w))) * sin (INR n * sw_arg w t x)) (seq 1 (sw_order w)))
  * (sc_c0 (sw_c w) * sqrt (sw_g w / sw_k w) / sw_k w).
Lemma arg_z_free : forall w z n, sw_ok w -> (n <= sw_order w)%nat -> INR (sw_order w) * sw_k w * (sw_depth w + (z - sw_zsl w)) < 50 * PI ->
  sw_arg_z w n z = INR n * sw_k w * (sw_depth w + (z - sw_zsl w)).
Proof.
  intros w z n Hw Hn U. pose proof (sw_k_pos w Hw) as K. pose proof PI_RGT_0. unfold sw_arg_z. rewrite rmin_R, Rmin_left; [reflexivity|].
  assert (0 <= INR n <= INR (sw_order w)) by (split; [apply pos_INR|apply le_INR; exact Hn]).
  destruct (Rle_or_lt 0 (sw_k w * (sw_depth w + (z - sw_zsl w)))) as [P|P]; rewrite Rmult_assoc in *; nra.
Qed.
Lemma phi_derivs : forall w t x z, sw_ok w -> INR (sw_order w) * sw_k w * (sw_depth w + (z - sw_zsl w)) < 50 * PI ->
  potential (sw_phi w) (sw_u w) (sw_w w) t x z /\ dt (sw_phi w) t x z (- sw_speed w * sw_u w t x z).
Proof.
  intros w t x z Hw U. pose proof (sw_k_pos w Hw) as K. unfold potential, dx, dz, dt, sw_phi.
  set (e := sw_eps w). set (a := sc_a (sw_c w)). set (q := sc_c0 (sw_c w) * sqrt (sw_g w / sw_k w)). set (ns := seq 1 (sw_order w)).
  assert (IN : forall n, In n ns -> sw_arg_z w n z = INR n * sw_k w * (sw_depth w + (z - sw_zsl w))).
  { intros n Hn. apply in_seq in Hn. apply arg_z_free; [exact Hw|lia|exact U]. }
  split; [split|].
  - replace (sw_u w t x z) with (rsum (map (fun n => (e ^ n * INR n * a n * cosh (INR n * sw_k w * (sw_depth w + (z - sw_zsl w))) * cos (INR n * sw_arg w t x)) * sw_k w) ns) * (q / sw_k w)).
    + apply is_derive_scal_r'. apply is_derive_rsum. intros n Hn. unfold sw_arg. auto_derive; [exact I|]. unfold Rminus. ring.
    + rewrite rsum_scale. unfold sw_u. fold e a q ns. rewrite (map_ext_in _ (fun n => e ^ n * INR n * a n * cosh (sw_arg_z w n z) * cos (INR n * sw_arg w t x)) ns).
      * field. lra.
      * intros n Hn. rewrite IN by exact Hn. reflexivity.
  - replace (sw_w w t x z) with (rsum (map (fun n => (e ^ n * INR n * a n * sinh (INR n * sw_k w * (sw_depth w + (z - sw_zsl w))) * sin (INR n * sw_arg w t x)) * sw_k w) ns) * (q / sw_k w)).
    + apply is_derive_scal_r'. apply is_derive_rsum. intros n Hn. unfold cosh, sinh. auto_derive; [exact I|]. unfold Rminus. field.
    + rewrite rsum_scale. unfold sw_w. fold e a q ns. rewrite (map_ext_in _ (fun n => e ^ n * INR n * a n * sinh (sw_arg_z w n z) * sin (INR n * sw_arg w t x)) ns).
      * field. lra.
      * intros n Hn. rewrite IN by exact Hn. reflexivity.
  - replace (- sw_speed w * sw_u w t x z) with (rsum (map (fun n => (e ^ n * INR n * a n * cosh (INR n * sw_k w * (sw_depth w + (z - sw_zsl w))) * cos (INR n * sw_arg w t x)) * - (sw_speed w * sw_k w)) ns) * (q / sw_k w)).
    + apply is_derive_scal_r'. apply is_derive_rsum. intros n Hn. unfold sw_arg. auto_derive; [exact I|]. unfold Rminus. ring.
    + rewrite rsum_scale. unfold sw_u. fold e a q ns. rewrite (map_ext_in _ (fun n => e ^ n * INR n * a n * cosh (sw_arg_z w n z) * cos (INR n * sw_arg w t x)) ns).
      * field. lra.
      * intros n Hn. rewrite IN by exact Hn. reflexivity.
Qed.
