(** C79: the Stokes waves the code computes are solutions of the water-wave
    problem to their order. *)
From Coq Require Import Reals ZArith List Lra Lia Psatz.
From Coquelicot Require Import Coquelicot.
From Verif Require Import Base.
From Verif Require Import BoxR BoxRFacts MultiPhase MultiPhaseSpec PropMultiPhase Waves WavesSpec PropWaveKin Stokes StokesSpec StokesPoly StokesSeries StokesExpand StokesProofs StokesWave.
Import ListNotations.
Open Scope R_scope.

(** Orders 2 to 5 are accepted, all others abort; the wave has the parameters it
    was asked for. *)
Theorem c79_order : forall o len d H zsl g ph,
  ((2 <= o <= 5)%nat -> exists w, stokes_wave o len d H zsl g ph = Ret w /\
     sw_order w = o /\ sw_length w = len /\ sw_depth w = d /\ sw_height w = H /\ sw_zsl w = zsl /\ sw_g w = g /\ sw_phase w = ph) /\
  (~ (2 <= o <= 5)%nat -> stokes_wave o len d H zsl g ph = Abort).
Proof.
  intros o len d H zsl g ph. unfold stokes_wave, stokes_coefficients. split; intros Ho.
  - rewrite (proj2 (Nat.leb_le 2 o)), (proj2 (Nat.leb_le o 5)) by lia. cbn [andb]. eexists. split; [reflexivity|]. repeat split.
  - assert (X : ((2 <=? o) && (o <=? 5))%nat%bool = false).
    { apply Bool.andb_false_iff. rewrite !Nat.leb_gt. lia. }
    rewrite X. reflexivity.
Qed.

(** The flow has a potential, which moves with the wave. *)
Theorem c79_potential : forall o len d H zsl g ph w t x z,
  stokes_wave o len d H zsl g ph = Ret w -> 0 < len ->
  INR o * (2 * PI / len) * (d + (z - zsl)) < 50 * PI ->
  exists phi, potential phi (sw_u w) (sw_w w) t x z /\ dt phi t x z (- sw_speed w * sw_u w t x z) /\
    forall s, phi (t + s) (x + sw_speed w * s) z = phi t x z.
Proof.
  intros o len d H zsl g ph w t x z E HL U. unfold stokes_wave in E.
  destruct (stokes_coefficients o (2 * PI / len) d) as [q| |]; try discriminate. injection E as <-.
  exists (sw_phi (SW o len d H zsl g ph (SC (k_c0 q) (k_c2 q) (k_c4 q) (k_b22 q) (k_b31 q) (k_b42 q) (k_b44 q) (k_b53 q) (k_b55 q) (stokes_amp o q (2 * PI / len * H / 2))))).
  set (w := SW _ _ _ _ _ _ _ _). destruct (phi_derivs w t x z HL U) as [A B]. split; [exact A|]. split; [exact B|].
  intros s. unfold sw_phi. replace (sw_arg w (t + s) (x + sw_speed w * s)) with (sw_arg w t x) by (unfold sw_arg; ring). reflexivity.
Qed.

Lemma tanh_le1 : forall x, 0 < x -> 0 < tanh x <= 1 /\ tanh x = / coth x.
Proof.
  intros x Hx. pose proof (coth_gt1 x Hx) as K. pose proof (sinh_pos x Hx). pose proof (cosh_pos x).
  assert (E : tanh x = / coth x) by (unfold tanh, coth; field; lra). rewrite E. split; [|reflexivity]. split; [apply Rinv_0_lt_compat; lra|].
  rewrite <- Rinv_1. apply Rinv_le_contravar; lra.
Qed.

(** For orders 2 to 5 and any depth within the cap, the wave satisfies the
    kinematic and the dynamic condition at its own free surface with residuals
    of one order more than the wave, uniformly in the steepness (up to 1), the
    length, gravity, time and position: the constant depends on the order and
    the relative depth only. *)
Theorem c79_free_surface : forall o kd, (2 <= o <= 5)%nat -> 0 < kd <= 50 * PI ->
  exists M, 0 <= M /\
  forall len d H zsl g ph w, stokes_wave o len d H zsl g ph = Ret w -> 0 < len -> 0 < g -> 0 <= H ->
    2 * PI / len * d = kd -> 2 * PI / len * H / 2 <= 1 ->
    (forall t x, INR o * (2 * PI / len) * (d + (sw_eta w t x - zsl)) < 50 * PI) ->
    exists phi B, forall t x,
      potential phi (sw_u w) (sw_w w) t x (sw_eta w t x) /\
      (exists r, kinematic_residual (sw_eta w) (sw_u w) (sw_w w) t x r /\
         Rabs r <= M * (2 * PI / len * H / 2) ^ S o * sqrt (g / (2 * PI / len))) /\
      (exists b, bernoulli phi (sw_u w) (sw_w w) (sw_eta w) g zsl t x b /\
         Rabs (b - B) <= M * (2 * PI / len * H / 2) ^ S o * (g / (2 * PI / len))).
Proof.
  intros o kd Ho Hkd. destruct (wave_expansion o kd Ho (proj1 Hkd)) as (M & HM & EXP). exists M. split; [exact HM|].
  intros len d H zsl g ph w E HL Hg HH EK HE U.
  assert (K : 0 < 2 * PI / len) by (apply Rdiv_lt_0_compat; [pose proof PI_RGT_0; lra|exact HL]).
  assert (Hd : 0 < d) by (destruct (Rlt_or_le 0 d); [assumption|exfalso; nra]).
  assert (Hc : 2 * PI / len * d <= 50 * PI) by lra.
  set (k := 2 * PI / len) in *. set (e := k * H / 2) in *.
  assert (He : 0 <= e <= 1) by (split; [unfold e; nra|exact HE]).
  destruct (EXP e He) as (B0 & EX).
  pose proof (link_w o len d H zsl g ph w Ho Hc E) as LW.
  assert (OW : sw_order w = o) by (rewrite LW; reflexivity).
  assert (WOK : sw_ok w) by (unfold sw_ok; rewrite LW; exact HL).
  destruct (tanh_le1 kd (proj1 Hkd)) as [[T0 T1] TC]. pose proof (coth_gt1 kd (proj1 Hkd)) as KG.
  assert (C0 : 0 <= st_c0 kd <= 1).
  { unfold st_c0. split; [apply sqrt_pos|]. rewrite <- sqrt_1. apply sqrt_le_1; lra. }
  assert (CC : st_c0 kd * st_c0 kd = / coth kd) by (unfold st_c0; rewrite sqrt_sqrt by lra; exact TC).
  assert (GK : 0 < g / k) by (apply Rdiv_lt_0_compat; assumption).
  set (r := sqrt (g / k)). assert (R0 : 0 <= r) by apply sqrt_pos. assert (RR : r * r = g / k) by (apply sqrt_sqrt; lra).
  exists (sw_phi w), (g / k / (2 * coth kd) * (B0 - wc o kd e ^ 2)). intros t x.
  set (p := sw_arg w t x). assert (CB : Rabs (cos p) <= 1) by (apply Rabs_le; pose proof (COS_bound p); lra).
  assert (SB : Rabs (sin p) <= 1) by (apply Rabs_le; pose proof (SIN_bound p); lra).
  destruct (EX (cos p) CB) as [EK1 ED1].
  pose proof (link_u o len d H zsl g ph w Ho HL Hd Hc E t x (U t x)) as LU. pose proof (link_ww o len d H zsl g ph w Ho HL Hd Hc E t x (U t x)) as LV.
  pose proof (link_speed o len d H zsl g ph w Ho Hc E) as LS. fold k e p r in LU, LV, LS. rewrite EK in LU, LV, LS.
  assert (UW : INR (sw_order w) * sw_k w * (sw_depth w + (sw_eta w t x - sw_zsl w)) < 50 * PI).
  { rewrite OW. replace (sw_k w) with k by (rewrite LW; reflexivity). replace (sw_depth w) with d by (rewrite LW; reflexivity).
    replace (sw_zsl w) with zsl by (rewrite LW; reflexivity). apply U. }
  destruct (phi_derivs w t x (sw_eta w t x) WOK UW) as [PHI PT].
  assert (EN : 0 <= e ^ S o) by (apply pow_le; lra).
  split; [exact PHI|]. split.
  - eexists. split.
    + exists (sw_speed w * sin p * whx o kd e (cos p)), (- sin p * whx o kd e (cos p)). split; [|split; [|reflexivity]].
      * pose proof (eta_t o len d H zsl g ph w Ho HL Hc E t x) as D. fold k in D. rewrite EK in D. fold e in D. exact D.
      * pose proof (eta_x o len d H zsl g ph w Ho HL Hc E t x) as D. fold k in D. rewrite EK in D. fold e in D. exact D.
    + rewrite LU, LV, LS.
      replace (_ - _) with (st_c0 kd * r * sin p * (ww o kd e (cos p) + (wu o kd e (cos p) - wc o kd e) * whx o kd e (cos p))) by ring.
      rewrite !Rabs_mult, (Rabs_right (st_c0 kd)), (Rabs_right r) by lra.
      replace (M * e ^ S o * r) with (1 * r * 1 * (M * e ^ S o)) by ring.
      pose proof (Rabs_pos (sin p)).
      apply Rmult_le_compat; [apply Rmult_le_pos; [nra|assumption]|apply Rabs_pos| |exact EK1].
      apply Rmult_le_compat; [nra|assumption| |exact SB]. apply Rmult_le_compat_r; lra.
  - eexists. split.
    + exists (- sw_speed w * sw_u w t x (sw_eta w t x)). split; [exact PT|reflexivity].
    + rewrite LU, LV, LS. rewrite sw_eta_h. rewrite (link_h o len d H zsl g ph w Ho Hc E).
      replace (sw_k w) with k by (rewrite LW; reflexivity). replace (sw_zsl w) with zsl by (rewrite LW; reflexivity).
      fold k. rewrite EK. fold e p.
      set (Uu := wu o kd e (cos p)) in *. set (Ww := ww o kd e (cos p)) in *. set (Cc := wc o kd e) in *. set (hh := wh o kd e (cos p)) in *.
      assert (SQ : sin p ^ 2 = 1 - cos p ^ 2) by (pose proof (sin2_cos2 p) as Q; unfold Rsqr in Q; nra).
      replace (_ - _) with (g / k / (2 * coth kd) * (2 * coth kd * hh + ((Uu - Cc) ^ 2 + (1 - cos p ^ 2) * Ww ^ 2) - B0)).
      * rewrite Rabs_mult. assert (GP : 0 < g / k / (2 * coth kd)) by (apply Rdiv_lt_0_compat; lra).
        rewrite (Rabs_right (g / k / (2 * coth kd))) by lra. rewrite Rmult_comm. apply Rmult_le_compat; [apply Rabs_pos|lra|exact ED1|].
        unfold Rdiv at 1. rewrite <- (Rmult_1_r (g / k)) at 2. apply Rmult_le_compat_l; [lra|]. rewrite <- Rinv_1. apply Rinv_le_contravar; lra.
      * rewrite <- SQ.
        replace (- (st_c0 kd * r * Cc) * (st_c0 kd * r * Uu)) with (- ((st_c0 kd * st_c0 kd) * (r * r)) * (Cc * Uu)) by ring.
        replace ((st_c0 kd * r * Uu) ^ 2) with ((st_c0 kd * st_c0 kd) * (r * r) * Uu ^ 2) by ring.
        replace ((st_c0 kd * r * (sin p * Ww)) ^ 2) with ((st_c0 kd * st_c0 kd) * (r * r) * (sin p ^ 2 * Ww ^ 2)) by ring.
        rewrite CC, RR. field. lra.
Qed.

(** The mean level is the still-water level and the mean horizontal velocity at
    a fixed depth is zero. *)
Theorem c79_mean : forall o len d H zsl g ph w t z,
  stokes_wave o len d H zsl g ph = Ret w -> 0 < len ->
  is_RInt (fun x => sw_eta w t x) 0 len (len * zsl) /\ is_RInt (fun x => sw_u w t x z) 0 len 0.
Proof.
  intros o len d H zsl g ph w t z E HL.
  assert (WL : sw_length w = len /\ sw_zsl w = zsl).
  { unfold stokes_wave in E. destruct (stokes_coefficients o (2 * PI / len) d); try discriminate. injection E as <-. split; reflexivity. }
  destruct WL as [WL WZ]. assert (WOK : sw_ok w) by (unfold sw_ok; lra). pose proof (sw_k_pos w WOK) as K.
  assert (AP : sw_arg w t len = sw_arg w t 0 + 2 * PI) by (unfold sw_arg, sw_k; rewrite WL; field; lra).
  assert (SP : forall n, sin (INR n * sw_arg w t len) = sin (INR n * sw_arg w t 0)) by (intros; rewrite AP; apply sin_npi).
  split.
  - set (c := sw_c w). set (e := sw_eps w).
    set (F := fun x => let p := sw_arg w t x in
      (e * sin p + e ^ 2 * sc_b22 c * (sin (2 * p) / 2) + e ^ 3 * sc_b31 c * (sin p - sin (3 * p) / 3)
       + e ^ 4 * (sc_b42 c * (sin (2 * p) / 2) + sc_b44 c * (sin (4 * p) / 4))
       + e ^ 5 * (- (sc_b53 c + sc_b55 c) * sin p + sc_b53 c * (sin (3 * p) / 3) + sc_b55 c * (sin (5 * p) / 5))) / sw_k w / sw_k w + zsl * x).
    replace (len * zsl) with (minus (F len) (F 0)).
    + apply (is_RInt_derive F (fun x => sw_eta w t x) 0 len).
      * intros x _. unfold F, sw_arg. cbv zeta. auto_derive; [repeat split; exact I|]. unfold sw_eta, sw_arg. cbv zeta. rewrite WZ. fold c e.
        unfold Rminus. field. lra.
      * intros x _. apply (ex_derive_continuous (fun x => sw_eta w t x)). unfold sw_eta, sw_arg. cbv zeta. auto_derive. repeat split; exact I.
    + unfold F, minus, plus, opp. cbn. 
      pose proof (SP 1%nat) as S1. pose proof (SP 2%nat) as S2. pose proof (SP 3%nat) as S3. pose proof (SP 4%nat) as S4. pose proof (SP 5%nat) as S5.
      rewrite INR_IZR in S1, S2, S3, S4, S5. change (IZR (Z.of_nat 1)) with 1 in S1. rewrite !Rmult_1_l in S1.
      change (IZR (Z.of_nat 2)) with 2 in S2. change (IZR (Z.of_nat 3)) with 3 in S3. change (IZR (Z.of_nat 4)) with 4 in S4. change (IZR (Z.of_nat 5)) with 5 in S5.
      rewrite S1, S2, S3, S4, S5. ring.
  - set (q := sc_c0 (sw_c w) * sqrt (sw_g w / sw_k w)). set (ns := seq 1 (sw_order w)).
    set (F := fun x => rsum (map (fun n => sw_eps w ^ n * sc_a (sw_c w) n * cosh (sw_arg_z w n z) * sin (INR n * sw_arg w t x)) ns) * (q / sw_k w)).
    replace 0 with (minus (F len) (F 0)) at 2.
    + apply (is_RInt_derive F (fun x => sw_u w t x z) 0 len).
      * intros x _. unfold F.
        replace (sw_u w t x z) with (rsum (map (fun n => (sw_eps w ^ n * INR n * sc_a (sw_c w) n * cosh (sw_arg_z w n z) * cos (INR n * sw_arg w t x)) * sw_k w) ns) * (q / sw_k w)).
        -- apply is_derive_scal_r'. apply is_derive_rsum. intros n Hn. unfold sw_arg. auto_derive; [exact I|]. unfold Rminus. ring.
        -- rewrite rsum_scale. unfold sw_u. fold q ns. field. lra.
      * intros x _. apply (ex_derive_continuous (fun x => sw_u w t x z)). eexists. unfold sw_u. apply is_derive_scal_r'.
        apply (is_derive_rsum (fun n x => sw_eps w ^ n * INR n * sc_a (sw_c w) n * cosh (sw_arg_z w n z) * cos (INR n * sw_arg w t x))
                 (fun n => - (sw_eps w ^ n * INR n * sc_a (sw_c w) n * cosh (sw_arg_z w n z) * (INR n * sw_k w * sin (INR n * sw_arg w t x))))).
        intros n Hn. unfold sw_arg. auto_derive; [exact I|]. unfold Rminus. ring.
    + unfold F, minus, plus, opp. cbn -[rsum]. rewrite (map_ext _ (fun n => sw_eps w ^ n * sc_a (sw_c w) n * cosh (sw_arg_z w n z) * sin (INR n * sw_arg w t 0))) by (intros n; rewrite SP; reflexivity).
      ring.
Qed.

(** ** The slope used by the wave-number iteration *)
Definition S_of (d k : R) : R := 2 * exp (2 * k * d) / (exp (4 * k * d) + 1).
Lemma S_derive : forall d k, is_derive (S_of d) k (-2 * d * sinh (2 * k * d) / cosh (2 * k * d) ^ 2).
Proof.
  intros d k. unfold S_of. auto_derive.
  - pose proof (exp_pos (4 * k * d)). lra.
  - unfold sinh, cosh. replace (4 * k * d) with (2 * k * d + 2 * k * d) by ring. rewrite exp_plus, exp_Ropp.
    pose proof (exp_pos (2 * k * d)) as Y. set (y := exp (2 * k * d)) in *. field. repeat split; nra.
Qed.
Lemma C0_derive : forall d k, 0 < k -> 0 < d ->
  is_derive (fun k => sqrt (tanh (k * d))) k (d / (2 * sqrt (tanh (k * d)) * cosh (k * d) ^ 2)).
Proof.
  intros d k Hk Hd. assert (KD : 0 < k * d) by nra. pose proof (tanh_pos _ KD) as T. pose proof (sqrt_lt_R0 _ T) as Q. pose proof (cosh_pos (k * d)) as CP.
  assert (DT : is_derive (fun k => tanh (k * d)) k (d / cosh (k * d) ^ 2)).
  { unfold tanh, sinh, cosh. auto_derive.
    - pose proof (exp_pos (k * d)). pose proof (exp_pos (- (k * d))). lra.
    - rewrite exp_Ropp. pose proof (exp_pos (k * d)) as Y. set (y := exp (k * d)) in *. field. repeat split; nra. }
  replace (d / (2 * sqrt (tanh (k * d)) * cosh (k * d) ^ 2)) with (d / cosh (k * d) ^ 2 * / (2 * sqrt (tanh (k * d)))) by (field; lra).
  apply (is_derive_comp (fun y => sqrt y) (fun k => tanh (k * d))).
  - replace (/ (2 * sqrt (tanh (k * d)))) with (/ (2 * sqrt (tanh (k * d)))) by reflexivity. apply is_derive_Reals. apply derivable_pt_lim_sqrt. exact T.
  - exact DT.
Qed.
(** By how much the slope of orders 4 and 5 is off, over g k: line 84 of the
    source lacks the factor dSdk. *)
Definition slope_gap (o : nat) (d H k : R) : R :=
  if (4 <=? o)%nat then
    let S := S_of d k in let C := 1 - S in let e := k * H / 2 in
    let C0 := sqrt (tanh (k * d)) in
    let C2 := C0 * (2 + 7 * S ^ 2) / (4 * C ^ 2) in
    let C4 := C0 * (4 + 32 * S - 116 * S ^ 2 - 400 * S ^ 3 - 71 * S ^ 4 + 146 * S ^ 5) / (32 * C ^ 5) in
    2 * e ^ 4 * (C0 + e ^ 2 * C2 + e ^ 4 * C4) * (C0 * 730 * S ^ 4 / (32 * C ^ 5))
    * (1 + 2 * d * sinh (2 * k * d) / cosh (2 * k * d) ^ 2)
  else 0.
Lemma C_pos : forall d k, 0 < k -> 0 < d -> 0 < 1 - S_of d k.
Proof.
  intros d k Hk Hd. assert (KD : 0 < k * d) by nra. unfold S_of. replace (4 * k * d) with (2 * k * d + 2 * k * d) by ring. rewrite exp_plus.
  assert (U : 1 < exp (2 * k * d)) by (rewrite <- exp_0; apply exp_increasing; lra). set (y := exp (2 * k * d)) in *.
  replace (1 - 2 * y / (y * y + 1)) with ((y - 1) * (y - 1) / (y * y + 1)) by (field; nra). apply Rdiv_lt_0_compat; nra.
Qed.
(** The slope the iteration divides by is the derivative of the function whose
    root it looks for, for orders below 4; from order 4 on it is off by
    [slope_gap]. *)
Theorem c79_slope : forall o g d H k, 0 < k -> 0 < d ->
  is_derive (fun k => g * k * amp_of o d H k) k (stokes_dfdk o g d H k - g * k * slope_gap o d H k).
Proof.
  intros o g d H k Hk Hd. pose proof (C_pos d k Hk Hd) as CP. pose proof (S_derive d k) as DS. pose proof (C0_derive d k Hk Hd) as DC.
  assert (KD : 0 < k * d) by nra. pose proof (tanh_pos _ KD) as TP. pose proof (sqrt_lt_R0 _ TP) as QP.
  pose proof (cosh_pos (2 * k * d)) as CH2. pose proof (cosh_pos (k * d)) as CH.
  set (C0f := fun k => sqrt (tanh (k * d))) in *. set (Sf := S_of d) in *.
  apply (is_derive_ext (fun k => let S := Sf k in let C := 1 - S in let eps := k * H / 2 in let C0 := C0f k in
    let C2 := C0 * (2 + 7 * S * S) / (4 * C * C) in
    let C4 := C0 * (4 + 32 * S - 116 * S ^ 2 - 400 * S ^ 3 - 71 * S ^ 4 + 146 * S ^ 5) / (32 * C ^ 5) in
    g * k * (C0 ^ 2 + (if (2 <=? o)%nat then 2 * C0 * eps ^ 2 * C2 + eps ^ 4 * C2 ^ 2 else 0)
      + (if (4 <=? o)%nat then 2 * eps ^ 4 * C0 * C4 + 2 * eps ^ 6 * C2 * C4 + eps ^ 8 * C4 ^ 2 else 0)))).
  { intros y. reflexivity. }
  cbv zeta. unfold stokes_dfdk, slope_gap. cbv zeta.
  change (2 * exp (2 * k * d) / (exp (4 * k * d) + 1)) with (Sf k). change (S_of d k) with (Sf k). change (sqrt (tanh (k * d))) with (C0f k) in *.
  replace (1 + 2 * d * sinh (2 * k * d) / cosh (2 * k * d) ^ 2) with (1 - (-2 * d * sinh (2 * k * d) / cosh (2 * k * d) ^ 2)) by (unfold Rdiv; ring).
  set (dS := -2 * d * sinh (2 * k * d) / cosh (2 * k * d) ^ 2) in *.
  set (dC := d / (2 * C0f k * cosh (k * d) ^ 2)) in *.
  change (sqrt (tanh (k * d))) with (C0f k) in QP.
  clearbody dS dC. clear TP. 
  assert (ES : ex_derive Sf k) by (eexists; exact DS). assert (EC : ex_derive C0f k) by (eexists; exact DC).
  apply is_derive_unique in DS. assert (DC' : Derive C0f k = dC) by (apply is_derive_unique; exact DC). clear DC. rename DC' into DC. clearbody Sf C0f.
  assert (C4P : 0 < (1 - Sf k) * (1 - Sf k)) by nra. 
  destruct (2 <=? o)%nat eqn:O2; destruct (4 <=? o)%nat eqn:O4.
  - auto_derive; [repeat split; try assumption; try nra; apply Rgt_not_eq; repeat (apply Rmult_lt_0_compat); lra|].
    change (Derive (fun x => Sf x) k) with (Derive Sf k). change (Derive (fun x => C0f x) k) with (Derive C0f k). rewrite DS, DC.
    field. lra.
  - auto_derive; [repeat split; try assumption; try nra|].
    change (Derive (fun x => Sf x) k) with (Derive Sf k). change (Derive (fun x => C0f x) k) with (Derive C0f k). rewrite DS, DC.
    field. lra.
  - apply Nat.leb_gt in O2. apply Nat.leb_le in O4. lia.
  - auto_derive; [repeat split; try assumption; try nra|].
    change (Derive (fun x => C0f x) k) with (Derive C0f k). rewrite DC. ring.
Qed.

(** A depth of ln 3 / 2 over the wave number makes the coefficients rational. *)
Lemma exp_ln3 : exp (2 * 1 * (ln 3 / 2)) = 3 /\ exp (4 * 1 * (ln 3 / 2)) = 9.
Proof.
  split.
  - replace (2 * 1 * (ln 3 / 2)) with (ln 3) by field. apply exp_ln. lra.
  - replace (4 * 1 * (ln 3 / 2)) with (ln 3 + ln 3) by field. rewrite exp_plus, exp_ln by lra. lra.
Qed.
Lemma ln3_pos : 0 < ln 3.
Proof. rewrite <- ln_1. apply ln_increasing; lra. Qed.
(** From order 4 on the slope is not the derivative: the last term of the
    derivative of C4 is not multiplied by dSdk.  The iteration then approaches
    the same wave number, but not with Newton's steps. *)
Theorem c79_slope_refuted : exists o g d H k, (2 <= o <= 5)%nat /\ 0 < g /\ 0 < d /\ 0 < H /\ 0 < k /\
  ~ is_derive (fun k => g * k * amp_of o d H k) k (stokes_dfdk o g d H k).
Proof.
  exists 4%nat, 1, (ln 3 / 2), (1 / 5), 1. pose proof ln3_pos as L3.
  repeat split; try lia; try lra. intros D. apply is_derive_unique in D.
  pose proof (c79_slope 4 1 (ln 3 / 2) (1 / 5) 1 ltac:(lra) ltac:(lra)) as D2. apply is_derive_unique in D2. rewrite D in D2.
  assert (G : slope_gap 4 (ln 3 / 2) (1 / 5) 1 = 0) by lra. revert G.
  unfold slope_gap. cbn [Nat.leb]. cbv zeta. replace (S_of (ln 3 / 2) 1) with (3 / 5) by (unfold S_of; destruct exp_ln3 as [-> ->]; field).
  assert (T : 0 < tanh (1 * (ln 3 / 2))) by (apply tanh_pos; lra). pose proof (sqrt_lt_R0 _ T) as Q. set (c := sqrt (tanh (1 * (ln 3 / 2)))) in *.
  assert (SH : 0 < sinh (2 * 1 * (ln 3 / 2))) by (apply sinh_pos; lra). pose proof (cosh_pos (2 * 1 * (ln 3 / 2))) as CH.
  assert (F : 0 < 1 + 2 * (ln 3 / 2) * sinh (2 * 1 * (ln 3 / 2)) / cosh (2 * 1 * (ln 3 / 2)) ^ 2).
  { assert (0 < 2 * (ln 3 / 2) * sinh (2 * 1 * (ln 3 / 2)) / cosh (2 * 1 * (ln 3 / 2)) ^ 2).
    { apply Rdiv_lt_0_compat; [apply Rmult_lt_0_compat; lra|apply pow_lt; exact CH]. } lra. }
  apply Rgt_not_eq. apply Rmult_lt_0_compat; [|exact F]. nra.
Qed.

(** ** Decay with depth *)
Lemma cosh_incr : forall a b, 0 <= a < b -> cosh a < cosh b.
Proof.
  intros a b [Ha Hb]. assert (E : 1 <= exp a) by (rewrite <- exp_0; destruct (Req_dec a 0) as [->|]; [lra|left; apply exp_increasing; lra]).
  assert (E2 : exp a < exp b) by (apply exp_increasing; exact Hb). unfold cosh. rewrite !exp_Ropp.
  set (x := exp a) in *. set (y := exp b) in *.
  assert (0 < (y + / y) - (x + / x)); [|lra]. replace ((y + / y) - (x + / x)) with ((y - x) * (x * y - 1) / (x * y)) by (field; lra).
  apply Rdiv_lt_0_compat; [apply Rmult_lt_0_compat|]; nra.
Qed.
Lemma stokes_u2 : forall len d H zsl g ph w t x z,
  stokes_wave 2 len d H zsl g ph = Ret w -> cos (sw_arg w t x) = 1 -> cos (INR 2 * sw_arg w t x) = 1 ->
  let k := 2 * PI / len in let e := k * H / 2 in let kd := st_kd k d in
  sw_u w t x z = (e * st_a11 kd * cosh (rmin (k * (d + (z - zsl))) (50 * PI))
                  + 2 * e ^ 2 * st_a22 kd * cosh (rmin (2 * k * (d + (z - zsl))) (50 * PI))) * (st_c0 kd * sqrt (g / k)).
Proof.
  intros len d H zsl g ph w t x z E C1 C2 k e kd. unfold stokes_wave in E. unfold stokes_coefficients in E. cbn [Nat.leb andb] in E. injection E as <-.
  unfold sw_u. cbn [sw_order sw_c sc_c0 sc_a sw_g stokes_amp seq map]. unfold rsum. cbn [fold_right].
  match goal with |- context [sw_k ?s] => set (w := s) in * end.
  change (sw_k w) with k. change (sw_eps w) with e. change (sw_arg_z w 1 z) with (rmin (INR 1 * k * (d + (z - zsl))) (50 * PI)).
  change (sw_arg_z w 2 z) with (rmin (INR 2 * k * (d + (z - zsl))) (50 * PI)).
  rewrite C2. replace (INR 1 * sw_arg w t x) with (sw_arg w t x) by (simpl; ring). rewrite C1. change (INR 1) with 1. replace (INR 2) with 2 by (simpl; lra).
  rewrite (Rmult_1_l k). cbn [stokes_amp k_a11 k_a22 k_c0 sw_c sw_g sc_a sc_c0 w]. change (st_kd (2 * PI / len) d) with kd. ring.
Qed.
Lemma sc_S_pos : forall x, 0 < x -> 0 < sc_S x < 1.
Proof.
  intros x Hx. assert (E : sc_S x = S_of x 1) by (unfold sc_S, S_of; cbv zeta; repeat f_equal; ring).
  rewrite E. split.
  - unfold S_of. pose proof (exp_pos (2 * 1 * x)). pose proof (exp_pos (4 * 1 * x)). apply Rdiv_lt_0_compat; lra.
  - pose proof (C_pos x 1 ltac:(lra) Hx). lra.
Qed.
Lemma st_kd_pos : forall k d, 0 < k -> 0 < d -> 0 < st_kd k d.
Proof.
  intros k d Hk Hd. unfold st_kd. rewrite rmin_R. pose proof PI_RGT_0. apply Rmin_glb_lt; [nra|lra].
Qed.
(** At a crest of a second-order wave the horizontal velocity is positive and
    grows from the bottom upwards. *)
Theorem c79_decay : forall len d H zsl g ph w t x z1 z2,
  stokes_wave 2 len d H zsl g ph = Ret w -> 0 < len -> 0 < d -> 0 < H -> 0 < g ->
  cos (sw_arg w t x) = 1 ->
  zsl - d <= z1 < z2 -> 2 * (2 * PI / len) * (d + (z2 - zsl)) <= 50 * PI ->
  0 < sw_u w t x z1 < sw_u w t x z2.
Proof.
  intros len d H zsl g ph w t x z1 z2 E HL Hd HH Hg C1 Hz U.
  assert (C2 : cos (INR 2 * sw_arg w t x) = 1).
  { replace (INR 2 * sw_arg w t x) with (2 * sw_arg w t x) by (simpl; ring). rewrite cos_2a_cos, C1. ring. }
  rewrite !(stokes_u2 _ _ _ _ _ _ _ _ _ _ E C1 C2). cbv zeta.
  pose proof PI_RGT_0 as PP. assert (K : 0 < 2 * PI / len) by (apply Rdiv_lt_0_compat; lra). set (k := 2 * PI / len) in *.
  pose proof (st_kd_pos k d K Hd) as KD. set (kd := st_kd k d) in *. pose proof (sc_S_pos kd KD) as S01.
  rewrite !rmin_R, !Rmin_left by nra.
  assert (A1 : 0 < st_a11 kd) by (unfold st_a11; apply Rdiv_lt_0_compat; [lra|apply sinh_pos; exact KD]).
  assert (A2 : 0 < st_a22 kd).
  { unfold st_a22. cbv zeta. set (S := sc_S kd) in *. clearbody S. apply Rdiv_lt_0_compat; repeat apply Rmult_lt_0_compat; try lra; apply pow_lt; lra. }
  assert (P : 0 < st_c0 kd * sqrt (g / k)).
  { apply Rmult_lt_0_compat; [apply sqrt_lt_R0; apply tanh_pos; exact KD|apply sqrt_lt_R0; apply Rdiv_lt_0_compat; lra]. }
  assert (EP : 0 < k * H / 2) by nra. set (e := k * H / 2) in *.
  pose proof (cosh_incr (k * (d + (z1 - zsl))) (k * (d + (z2 - zsl))) ltac:(nra)) as I1.
  pose proof (cosh_incr (2 * k * (d + (z1 - zsl))) (2 * k * (d + (z2 - zsl))) ltac:(nra)) as I2.
  pose proof (cosh_pos (k * (d + (z1 - zsl)))) as P1. pose proof (cosh_pos (2 * k * (d + (z1 - zsl)))) as P2.
  set (h1 := cosh (k * (d + (z1 - zsl)))) in *. set (h2 := cosh (k * (d + (z2 - zsl)))) in *.
  set (q1 := cosh (2 * k * (d + (z1 - zsl)))) in *. set (q2 := cosh (2 * k * (d + (z2 - zsl)))) in *.
  assert (B1 : 0 < e * st_a11 kd) by nra. assert (B2 : 0 < 2 * e ^ 2 * st_a22 kd) by (apply Rmult_lt_0_compat; [|exact A2]; apply Rmult_lt_0_compat; [lra|]; apply pow_lt; exact EP).
  set (b1 := e * st_a11 kd) in *. set (b2 := 2 * e ^ 2 * st_a22 kd) in *. split.
  - apply Rmult_lt_0_compat; [nra|exact P].
  - apply Rmult_lt_compat_r; [exact P|]. nra.
Qed.
(** Where k times the height above the bottom exceeds 50 pi, every harmonic is
    clamped, and the velocity of no order depends on the height any more. *)
Theorem c79_clamped : forall o len d H zsl g ph w t x z1 z2,
  stokes_wave o len d H zsl g ph = Ret w -> 0 < len ->
  50 * PI <= 2 * PI / len * (d + (z1 - zsl)) -> 50 * PI <= 2 * PI / len * (d + (z2 - zsl)) ->
  sw_u w t x z1 = sw_u w t x z2 /\ sw_w w t x z1 = sw_w w t x z2.
Proof.
  intros o len d H zsl g ph w t x z1 z2 E HL U1 U2.
  assert (W : sw_k w = 2 * PI / len /\ sw_depth w = d /\ sw_zsl w = zsl).
  { unfold stokes_wave in E. destruct (stokes_coefficients o (2 * PI / len) d); try discriminate. injection E as <-. repeat split. }
  destruct W as (Wk & Wd & Wz). pose proof PI_RGT_0 as PP. 
  assert (Z : forall n z, (1 <= n)%nat -> 50 * PI <= 2 * PI / len * (d + (z - zsl)) -> sw_arg_z w n z = 50 * PI).
  { intros n z Hn U. unfold sw_arg_z. rewrite rmin_R, Wk, Wd, Wz. apply Rmin_right. apply le_INR in Hn. change (INR 1) with 1 in Hn. rewrite Rmult_assoc.
    set (v := 2 * PI / len * (d + (z - zsl))) in *. nra. }
  unfold sw_u, sw_w. split; f_equal; f_equal; apply map_ext_in; intros n Hn; apply in_seq in Hn; rewrite (Z n z1), (Z n z2) by (lia || assumption); reflexivity.
Qed.
(** So in water deeper than 25 wavelengths the velocity does not decay below the
    surface: here a wave of length 2 pi in water 100 pi deep, ten units below the
    still water level. *)
Theorem c79_decay_refuted : exists len d H zsl g ph w t x z1 z2,
  stokes_wave 2 len d H zsl g ph = Ret w /\ 0 < len /\ 0 < d /\ 0 < H /\ 0 < g /\
  cos (sw_arg w t x) = 1 /\ zsl - d <= z1 /\ z1 = z2 - 10 /\ z2 = zsl /\ sw_u w t x z1 = sw_u w t x z2.
Proof.
  pose proof PI_RGT_0 as PP. pose proof PI_4 as P4. assert (P2 : 2 < PI) by (pose proof PI2_1; lra).
  destruct (proj1 (c79_order 2 (2 * PI) (100 * PI) 1 0 1 0)) as (w & E & W1 & W2 & W3 & W4 & W5 & W6 & W7); [lia|].
  exists (2 * PI), (100 * PI), 1, 0, 1, 0, w, 0, 0, (-10), 0. repeat split; try lra; try exact E.
  - replace (sw_arg w 0 0) with 0; [apply cos_0|]. unfold sw_arg. rewrite W7. ring.
  - refine (proj1 (c79_clamped 2 (2 * PI) (100 * PI) 1 0 1 0 w 0 0 (-10) 0 E _ _ _)); try lra;
      replace (2 * PI / (2 * PI)) with 1 by (field; lra); lra.
Qed.

(** ** Non-vacuity *)
(** A fifth-order wave of steepness 0.1 where tanh kd = 1/2 meets the hypotheses
    of [c79_free_surface] and [c79_potential] at its surface. *)
Example c79_example : exists w, stokes_wave 5 (2 * PI) (ln 3 / 2) (1 / 5) 0 9.81 0 = Ret w /\
  2 * PI / (2 * PI) * (ln 3 / 2) = ln 3 / 2 /\ 0 < ln 3 / 2 <= 50 * PI /\
  2 * PI / (2 * PI) * (1 / 5) / 2 <= 1 /\
  (forall t x, INR 5 * (2 * PI / (2 * PI)) * (ln 3 / 2 + (sw_eta w t x - 0)) < 50 * PI) /\
  sw_eta w 0 0 <> 0.
Proof.
  pose proof PI_RGT_0 as PP. assert (P2 : 2 < PI) by (pose proof PI2_1; lra). pose proof ln3_pos as L3.
  assert (L33 : ln 3 <= 2). { rewrite <- (ln_exp 2). apply Rlt_le, ln_increasing; [lra|]. pose proof (exp_ineq1 1 ltac:(lra)). replace (exp 2) with (exp 1 * exp 1) by (rewrite <- exp_plus; f_equal; ring). nra. }
  assert (K1 : 2 * PI / (2 * PI) = 1) by (field; lra).
  eexists. split; [reflexivity|]. rewrite K1. split; [lra|]. split; [lra|]. split; [lra|].
  assert (KD : st_kd 1 (ln 3 / 2) = ln 3 / 2) by (unfold st_kd; rewrite rmin_R, Rmult_1_l; apply Rmin_left; lra).
  assert (S35 : sc_S (ln 3 / 2) = 3 / 5).
  { unfold sc_S. cbv zeta. destruct exp_ln3 as [A B]. replace (2 * (ln 3 / 2)) with (2 * 1 * (ln 3 / 2)) by ring. replace (4 * (ln 3 / 2)) with (4 * 1 * (ln 3 / 2)) by ring. rewrite A, B. field. }
  assert (CT : st_CTh (ln 3 / 2) = 2).
  { unfold st_CTh. replace (-2 * (ln 3 / 2)) with (- (2 * 1 * (ln 3 / 2))) by ring. rewrite exp_Ropp. destruct exp_ln3 as [-> _]. field. }
  match goal with |- (forall t x, INR 5 * 1 * (_ + (sw_eta ?w0 t x - 0)) < _) /\ _ => set (w := w0) end.
  assert (EP : sw_eps w = 1 / 10) by (unfold sw_eps, sw_k; cbn [sw_length sw_height w]; rewrite K1; field).
  assert (Kw : sw_k w = 1) by (unfold sw_k; cbn [sw_length w]; exact K1).
  assert (ETA : forall t x, sw_eta w t x = let p := sw_arg w t x in let e := 1 / 10 in
      e * cos p + e ^ 2 * st_b22 (ln 3 / 2) * cos (2 * p) + e ^ 3 * st_b31 (ln 3 / 2) * (cos p - cos (3 * p))
      + e ^ 4 * (st_b42 (ln 3 / 2) * cos (2 * p) + st_b44 (ln 3 / 2) * cos (4 * p))
      + e ^ 5 * (- (st_b53 (ln 3 / 2) + st_b55 (ln 3 / 2)) * cos p + st_b53 (ln 3 / 2) * cos (3 * p) + st_b55 (ln 3 / 2) * cos (5 * p))).
  { intros t x. unfold sw_eta. rewrite EP, Kw. cbn [sw_c sw_zsl w sc_b22 sc_b31 sc_b42 sc_b44 sc_b53 sc_b55 k_b22 k_b31 k_b42 k_b44 k_b53 k_b55 Nat.leb].
    rewrite KD. cbv zeta. field. }
  assert (V22 : st_b22 (ln 3 / 2) = 11 / 2) by (unfold st_b22; rewrite S35, CT; cbv zeta; field).
  unfold st_b31, st_b42, st_b44, st_b53, st_b55 in ETA. rewrite V22 in ETA. rewrite S35, CT in ETA. cbv zeta in ETA.
  split.
  - intros t x. rewrite ETA. set (p := sw_arg w t x). pose proof (COS_bound p). pose proof (COS_bound (2 * p)). pose proof (COS_bound (3 * p)).
    pose proof (COS_bound (4 * p)). pose proof (COS_bound (5 * p)). replace (INR 5) with 5 by (simpl; lra). lra.
  - rewrite ETA. replace (sw_arg w 0 0) with 0 by (unfold sw_arg; cbn [sw_phase w]; ring). rewrite !Rmult_0_r, cos_0. lra.
Qed.
(** and the second-order wave in the same depth the hypotheses of [c79_decay]
    between the bottom and the still water level. *)
Example c79_decay_example : exists w, stokes_wave 2 (2 * PI) (ln 3 / 2) (1 / 5) 0 9.81 0 = Ret w /\
  cos (sw_arg w 0 0) = 1 /\ 0 - ln 3 / 2 <= - (ln 3 / 2) < 0 /\ 2 * (2 * PI / (2 * PI)) * (ln 3 / 2 + (0 - 0)) <= 50 * PI.
Proof.
  pose proof PI_RGT_0 as PP. assert (P2 : 2 < PI) by (pose proof PI2_1; lra). pose proof ln3_pos as L3.
  assert (L33 : ln 3 <= 2). { rewrite <- (ln_exp 2). apply Rlt_le, ln_increasing; [lra|]. pose proof (exp_ineq1 1 ltac:(lra)). replace (exp 2) with (exp 1 * exp 1) by (rewrite <- exp_plus; f_equal; ring). nra. }
  eexists. split; [reflexivity|]. split; [|split; [lra|]].
  - match goal with |- cos (sw_arg ?w 0 0) = 1 => replace (sw_arg w 0 0) with 0; [apply cos_0|] end. unfold sw_arg. cbn [sw_phase]. ring.
  - replace (2 * PI / (2 * PI)) with 1 by (field; lra). lra.
Qed.

Print Assumptions c79_order.
Print Assumptions c79_potential.
Print Assumptions c79_free_surface.
Print Assumptions c79_mean.
Print Assumptions c79_slope.
Print Assumptions c79_slope_refuted.
Print Assumptions c79_decay.
Print Assumptions c79_clamped.
Print Assumptions c79_decay_refuted.
