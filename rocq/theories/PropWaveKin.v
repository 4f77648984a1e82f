(** C50: prescribed linear and Stokes waves. *)
From Coq Require Import Psatz.
From Coquelicot Require Import Coquelicot.
From Verif Require Import BoxR BoxRFacts MultiPhase MultiPhaseSpec PropMultiPhase Waves WavesSpec.
Open Scope R_scope.

Lemma sinh_pos : forall x, 0 < x -> 0 < sinh x.
Proof. intros x H. unfold sinh. pose proof (exp_increasing (- x) x ltac:(lra)). lra. Qed.
Lemma cosh_pos : forall x, 0 < cosh x.
Proof. intros x. unfold cosh. pose proof (exp_pos x). pose proof (exp_pos (- x)). lra. Qed.
Lemma tanh_pos : forall x, 0 < x -> 0 < tanh x.
Proof. intros x H. unfold tanh. apply Rdiv_lt_0_compat; [apply sinh_pos; exact H|apply cosh_pos]. Qed.

(** A proper linear wave: positive length and depth, gravity downwards. *)
Definition lw_ok (w : lwave) : Prop := 0 < lw_length w /\ 0 < lw_depth w /\ 0 < lw_g w.
Lemma lw_k_pos : forall w, lw_ok w -> 0 < lw_k w.
Proof. intros w (H & _). unfold lw_k. apply Rdiv_lt_0_compat; [pose proof PI_RGT_0; lra|exact H]. Qed.
Lemma lw_s_pos : forall w, lw_ok w -> 0 < sinh (lw_k w * lw_depth w).
Proof. intros w H. apply sinh_pos, Rmult_lt_0_compat; [apply lw_k_pos; exact H|apply H]. Qed.

(** Dispersion relation. *)
Theorem c50_dispersion : forall w, lw_ok w ->
  0 < lw_omega w /\ lw_omega w * lw_omega w = lw_g w * (2 * PI / lw_length w) * tanh (2 * PI / lw_length w * lw_depth w).
Proof.
  intros w H. pose proof (lw_k_pos w H) as K. destruct H as (_ & D & G). unfold lw_omega.
  assert (P : 0 < lw_k w * lw_g w * tanh (lw_k w * lw_depth w)).
  { apply Rmult_lt_0_compat; [apply Rmult_lt_0_compat; assumption|]. apply tanh_pos, Rmult_lt_0_compat; assumption. }
  split; [apply sqrt_lt_R0; exact P|]. rewrite sqrt_sqrt by lra. unfold lw_k. ring.
Qed.

(** The velocity is divergence free and irrotational everywhere, and does not
    cross the bottom. *)
Theorem c50_linear_flow : forall w t x z, lw_ok w ->
  solenoidal (lw_u w) (lw_w w) t x z /\ irrotational (lw_u w) (lw_w w) t x z /\
  lw_w w t x (lw_zsl w - lw_depth w) = 0.
Proof.
  intros w t x z H. pose proof (lw_s_pos w H) as S.
  set (A := lw_omega w * lw_height w / 2). set (k := lw_k w) in *. set (s := sinh (k * lw_depth w)) in *.
  set (zz := fun z => k * (z - lw_zsl w + lw_depth w)).
  assert (SZ : s <> 0) by lra.
  split; [|split].
  - exists (- (A * k * cosh (zz z) / s * sin (lw_arg w t x))). split.
    + unfold dx, lw_u, lw_arg. fold k s A. unfold zz. auto_derive; [exact I|]. unfold Rminus. field. exact SZ.
    + unfold dz, lw_w. fold k s A. unfold zz, sinh, cosh. auto_derive; [exact I|]. unfold Rminus. field. exact SZ.
  - exists (A * k * sinh (zz z) / s * cos (lw_arg w t x)). split.
    + unfold dz, lw_u. fold k s A. unfold zz, cosh, sinh. auto_derive; [exact I|]. unfold Rminus. field. exact SZ.
    + unfold dx, lw_w, lw_arg. fold k s A. unfold zz. auto_derive; [exact I|]. unfold Rminus. field. exact SZ.
  - unfold lw_w. replace (lw_zsl w - lw_depth w - lw_zsl w + lw_depth w) with 0 by ring. rewrite Rmult_0_r, sinh_0. unfold Rdiv. ring.
Qed.

(** It solves the linear water-wave problem carried by the current: there is a
    potential of the velocity relative to the current for which the surface
    moves with the fluid and the pressure at the surface is constant, both
    conditions linearised about the still level. *)
Theorem c50_linear_surface : forall w t x, lw_ok w ->
  exists phi, 
    (forall t x z, dx phi t x z (lw_u w t x z - lw_current w)) /\ (forall t x z, dz phi t x z (lw_w w t x z)) /\
    (exists et ex, dt (fun t x _ => lw_eta w t x) t x 0 et /\ dx (fun t x _ => lw_eta w t x) t x 0 ex /\
       et + lw_current w * ex = lw_w w t x (lw_zsl w)) /\
    (exists pt px, dt phi t x (lw_zsl w) pt /\ dx phi t x (lw_zsl w) px /\
       pt + lw_current w * px + lw_g w * (lw_eta w t x - lw_zsl w) = 0).
Proof.
  intros w t x H. pose proof (lw_s_pos w H) as S. pose proof (lw_k_pos w H) as K.
  destruct (c50_dispersion w H) as [OP OM]. fold (lw_k w) in OM.
  set (k := lw_k w) in *. set (s := sinh (k * lw_depth w)) in *. assert (SZ : s <> 0) by lra.
  set (ch := fun z => cosh (k * (z - lw_zsl w + lw_depth w))).
  exists (fun t x z => lw_omega w * lw_height w / 2 / k * ch z / s * sin (lw_arg w t x)).
  split. { intros t0 x0 z0. unfold dx, lw_u, lw_arg. fold k s. fold (ch z0). auto_derive; [exact I|]. unfold Rminus. field. split; lra. }
  split. { intros t0 x0 z0. unfold dz, lw_w. fold k s. unfold ch, cosh, sinh. auto_derive; [exact I|]. unfold Rminus. field. split; lra. }
  split.
  - exists (lw_height w / 2 * ((k * lw_current w + lw_omega w) * sin (lw_arg w t x))), (- (lw_height w / 2 * (k * sin (lw_arg w t x)))).
    split. { unfold dt, lw_eta, lw_arg. fold k. auto_derive; [exact I|]. unfold Rminus. ring. }
    split. { unfold dx, lw_eta, lw_arg. fold k. auto_derive; [exact I|]. unfold Rminus. ring. }
    unfold lw_w. fold k s. replace (lw_zsl w - lw_zsl w + lw_depth w) with (lw_depth w) by ring. fold s. field. exact SZ.
  - exists (- (lw_omega w * lw_height w / 2 / k * ch (lw_zsl w) / s * ((k * lw_current w + lw_omega w) * cos (lw_arg w t x)))),
      (lw_omega w * lw_height w / 2 * ch (lw_zsl w) / s * cos (lw_arg w t x)).
    split. { unfold dt, lw_arg. fold k. set (c := ch (lw_zsl w)). auto_derive; [exact I|]. unfold Rminus. field. split; lra. }
    split. { unfold dx, lw_arg. fold k. set (c := ch (lw_zsl w)). auto_derive; [exact I|]. unfold Rminus. field. split; lra. }
    unfold lw_eta, ch. replace (lw_zsl w - lw_zsl w + lw_depth w) with (lw_depth w) by ring.
    assert (T : lw_omega w * lw_omega w * cosh (k * lw_depth w) = lw_g w * k * s).
    { rewrite OM. unfold tanh. fold s. field. pose proof (cosh_pos (k * lw_depth w)). lra. }
    set (c := cosh (k * lw_depth w)) in *. set (om := lw_omega w) in *. set (cs := cos (lw_arg w t x)).
    assert (E : - (om * lw_height w / 2 / k * c / s * ((k * lw_current w + om) * cs)) + lw_current w * (om * lw_height w / 2 * c / s * cs)
                = - (lw_height w / 2 * cs * (om * om * c) / k / s)) by (field; split; lra).
    rewrite E, T. field. split; lra.
Qed.

(** Crest to trough is the wave height; the profile repeats every wave length
    and every period in the frame of the current. *)
Theorem c50_linear_profile : forall w t x, lw_ok w -> 0 <= lw_height w ->
  lw_zsl w - lw_height w / 2 <= lw_eta w t x <= lw_zsl w + lw_height w / 2 /\
  lw_eta w t (x + lw_length w) = lw_eta w t x /\
  lw_eta w t (x + lw_length w / 2) - lw_zsl w = - (lw_eta w t x - lw_zsl w) /\
  lw_eta w (t + 2 * PI / lw_omega w) (x + lw_current w * (2 * PI / lw_omega w)) = lw_eta w t x.
Proof.
  intros w t x H Hh. destruct (c50_dispersion w H) as [OP _]. destruct H as (HL & _). unfold lw_eta.
  split. { pose proof (COS_bound (lw_arg w t x)) as C. 
    assert (lw_height w / 2 * -1 <= lw_height w / 2 * cos (lw_arg w t x) <= lw_height w / 2 * 1) by (split; apply Rmult_le_compat_l; lra). lra. }
  split. { replace (lw_arg w t (x + lw_length w)) with (lw_arg w t x + 2 * PI) by (unfold lw_arg, lw_k; field; lra).
    rewrite cos_plus, cos_2PI, sin_2PI. ring. }
  split. { replace (lw_arg w t (x + lw_length w / 2)) with (lw_arg w t x + PI) by (unfold lw_arg, lw_k; field; lra).
    rewrite neg_cos. ring. }
  replace (lw_arg w (t + 2 * PI / lw_omega w) (x + lw_current w * (2 * PI / lw_omega w))) with (lw_arg w t x - 2 * PI).
  2: { unfold lw_arg, lw_k. field. split; lra. }
  rewrite cos_minus, cos_2PI, sin_2PI. ring.
Qed.
(** The target written to the grid: the level set is positive exactly below the
    surface, and cells that contain surface or liquid get the wave velocity. *)
Theorem c50_linear_target : forall w t dx dz x z, 0 < dx -> 0 < dz ->
  fst (lw_target w t dx dz x z) = lw_eta w t x - z /\
  (z - dz / 2 <= lw_eta w t x -> snd (lw_target w t dx dz x z) = (lw_u w t x z, 0, lw_w w t x z)).
Proof.
  intros w t dx dz x z Hx Hz. split; [reflexivity|]. intros H. unfold lw_target. cbn [snd].
  rewrite (proj2 (Rleb_spec _ _)); [reflexivity|].
  assert (dz <= sqrt (dx * dx + dz * dz)); [|lra].
  rewrite <- (sqrt_square dz) at 1 by lra. apply sqrt_le_1; nra.
Qed.

(** ** Stokes *)
Definition sw_ok (w : swave) : Prop := 0 < sw_length w.
Lemma sw_k_pos : forall w, sw_ok w -> 0 < sw_k w.
Proof. intros w H. unfold sw_k. apply Rdiv_lt_0_compat; [pose proof PI_RGT_0; lra|exact H]. Qed.

Lemma cos_npi : forall n p, cos (INR n * (p + 2 * PI)) = cos (INR n * p).
Proof. intros. replace (INR n * (p + 2 * PI)) with (INR n * p + 2 * INR n * PI) by ring. apply cos_period. Qed.
Lemma sin_npi : forall n p, sin (INR n * (p + 2 * PI)) = sin (INR n * p).
Proof. intros. replace (INR n * (p + 2 * PI)) with (INR n * p + 2 * INR n * PI) by ring. apply sin_period. Qed.

(** Crest minus trough is the wave height, for every order and whatever the
    coefficients. *)
Theorem c50_stokes_height : forall w t x, sw_ok w -> cos (sw_arg w t x) = 1 ->
  sw_eta w t x - sw_eta w t (x + sw_length w / 2) = sw_height w.
Proof.
  intros w t x H C. pose proof (sw_k_pos w H) as K. unfold sw_ok in H.
  unfold sw_eta. cbv zeta.
  replace (sw_arg w t (x + sw_length w / 2)) with (sw_arg w t x + PI) by (unfold sw_arg, sw_k; field; lra).
  set (p := sw_arg w t x) in *.
  assert (S : sin p = 0). { pose proof (sin2_cos2 p) as Q. rewrite C in Q. unfold Rsqr in Q. assert (sin p * sin p = 0) by lra. apply Rmult_integral in H0. tauto. }
  assert (C2 : cos (2 * p) = 1) by (rewrite cos_2a; rewrite C, S; ring).
  assert (S2 : sin (2 * p) = 0) by (rewrite sin_2a; rewrite S; ring).
  assert (C3 : cos (3 * p) = 1) by (replace (3 * p) with (2 * p + p) by ring; rewrite cos_plus, C, S, C2; ring).
  assert (S3 : sin (3 * p) = 0) by (replace (3 * p) with (2 * p + p) by ring; rewrite sin_plus, S, S2; ring).
  assert (C4 : cos (4 * p) = 1) by (replace (4 * p) with (3 * p + p) by ring; rewrite cos_plus, C, S, C3; ring).
  assert (S4 : sin (4 * p) = 0) by (replace (4 * p) with (3 * p + p) by ring; rewrite sin_plus, S, S3; ring).
  assert (C5 : cos (5 * p) = 1) by (replace (5 * p) with (4 * p + p) by ring; rewrite cos_plus, C, S, C4; ring).
  assert (D1 : cos (p + PI) = -1) by (rewrite neg_cos, C; ring).
  assert (D2 : cos (2 * (p + PI)) = 1) by (replace (2 * (p + PI)) with (2 * p + 2 * PI) by ring; rewrite cos_plus, cos_2PI, sin_2PI, C2; ring).
  assert (D3 : cos (3 * (p + PI)) = -1) by (replace (3 * (p + PI)) with ((3 * p + PI) + 2 * PI) by ring; rewrite cos_plus, cos_2PI, sin_2PI, neg_cos, C3; ring).
  assert (D4 : cos (4 * (p + PI)) = 1) by (replace (4 * (p + PI)) with ((4 * p + 2 * PI) + 2 * PI) by ring; rewrite !cos_plus, !sin_plus, cos_2PI, sin_2PI, C4, S4; ring).
  assert (D5 : cos (5 * (p + PI)) = -1) by (replace (5 * (p + PI)) with ((5 * p + PI) + 2 * PI + 2 * PI) by ring; rewrite (cos_plus (5 * p + PI + 2 * PI)), cos_2PI, sin_2PI, (cos_plus (5 * p + PI)), cos_2PI, sin_2PI, neg_cos, C5; ring).
  rewrite C, C2, C3, C4, C5, D1, D2, D3, D4, D5. unfold sw_eps. field. lra.
Qed.
(** The wave travels unchanged at its speed and repeats every wave length. *)
Theorem c50_stokes_travel : forall w t s x z, sw_ok w ->
  sw_eta w (t + s) (x + sw_speed w * s) = sw_eta w t x /\
  sw_u w (t + s) (x + sw_speed w * s) z = sw_u w t x z /\ sw_w w (t + s) (x + sw_speed w * s) z = sw_w w t x z /\
  sw_eta w t (x + sw_length w) = sw_eta w t x /\
  sw_u w t (x + sw_length w) z = sw_u w t x z /\ sw_w w t (x + sw_length w) z = sw_w w t x z.
Proof.
  intros w t s x z H. unfold sw_ok in H.
  assert (A : sw_arg w (t + s) (x + sw_speed w * s) = sw_arg w t x) by (unfold sw_arg; ring).
  assert (B : sw_arg w t (x + sw_length w) = sw_arg w t x + 2 * PI) by (unfold sw_arg, sw_k; field; lra).
  unfold sw_eta, sw_u, sw_w. cbv zeta. rewrite A, B. split; [reflexivity|]. split; [reflexivity|]. split; [reflexivity|].
  assert (Q : forall n, cos (INR n * (sw_arg w t x + 2 * PI)) = cos (INR n * sw_arg w t x)) by (intros; apply cos_npi).
  split; [|split].
  - pose proof (Q 1%nat) as Q1. pose proof (Q 2%nat) as Q2. pose proof (Q 3%nat) as Q3. pose proof (Q 4%nat) as Q4. pose proof (Q 5%nat) as Q5.
    replace (INR 1) with 1 in Q1 by reflexivity. replace (INR 2) with 2 in Q2 by reflexivity. 
    replace (INR 3) with 3 in Q3 by (simpl; ring). replace (INR 4) with 4 in Q4 by (simpl; ring). replace (INR 5) with 5 in Q5 by (simpl; ring).
    rewrite !Rmult_1_l in Q1. rewrite Q1, Q2, Q3, Q4, Q5. reflexivity.
  - f_equal. f_equal. apply map_ext. intros n. rewrite Q. reflexivity.
  - f_equal. f_equal. apply map_ext. intros n. rewrite sin_npi. reflexivity.
Qed.

Lemma is_derive_rsum : forall (f : nat -> R -> R) (f' : nat -> R) (x : R) (l : list nat),
  (forall n, In n l -> is_derive (f n) x (f' n)) ->
  is_derive (fun y => rsum (map (fun n => f n y) l)) x (rsum (map f' l)).
Proof.
  intros f f' x l. induction l as [|n l IH]; intros H.
  - cbn [map]. apply (is_derive_const (V := R_NormedModule)).
  - cbn [map]. rewrite rsum_cons.
    apply (is_derive_ext (fun y => f n y + rsum (map (fun n => f n y) l))).
    { intros y. rewrite rsum_cons. reflexivity. }
    apply (is_derive_plus (V := R_NormedModule)); [apply H; left; reflexivity|]. apply IH. intros m Hm. apply H. right. exact Hm.
Qed.
Lemma is_derive_scal_r' : forall (f : R -> R) x l c, is_derive f x l -> is_derive (fun y => f y * c) x (l * c).
Proof.
  intros f x l c H. replace (l * c) with (c * l) by ring. apply (is_derive_ext (fun y => c * f y)); [intros y; apply Rmult_comm|].
  exact (is_derive_scal f x c l H).
Qed.
(** Below the depth cap (arguments under 50 pi), the velocity is divergence free
    and irrotational for every order, and it does not cross the bottom. *)
Theorem c50_stokes_flow : forall w t x z, sw_ok w ->
  INR (sw_order w) * sw_k w * (sw_depth w + (z - sw_zsl w)) < 50 * PI -> 0 <= sw_depth w + (z - sw_zsl w) ->
  solenoidal (sw_u w) (sw_w w) t x z /\ irrotational (sw_u w) (sw_w w) t x z /\
  sw_w w t x (sw_zsl w - sw_depth w) = 0.
Proof.
  intros w t x z H Hc Hz. pose proof (sw_k_pos w H) as K. pose proof PI_RGT_0 as HP.
  set (k := sw_k w) in *. set (e := sw_eps w). set (a := sc_a (sw_c w)). set (q := sc_c0 (sw_c w) * sqrt (sw_g w / k)).
  set (ns := seq 1 (sw_order w)).
  set (Z := fun n z => INR n * k * (sw_depth w + (z - sw_zsl w))).
  assert (NB : forall n, In n ns -> Z n z < 50 * PI).
  { intros n Hn. apply in_seq in Hn. unfold Z. eapply Rle_lt_trans; [|exact Hc]. apply Rmult_le_compat_r; [exact Hz|].
    apply Rmult_le_compat_r; [lra|]. apply le_INR. lia. }
  assert (LOC : forall n, In n ns -> locally z (fun y => Z n y = sw_arg_z w n y)).
  { intros n Hn. specialize (NB n Hn).
    assert (CZ : continuous (Z n) z) by (apply (ex_derive_continuous (Z n)); unfold Z; auto_derive; exact I).
    assert (OP : locally (Z n z) (fun v => v < 50 * PI)) by (apply (locally_open (fun v => v < 50 * PI)); [apply open_lt|tauto|exact NB]).
    specialize (CZ _ OP). unfold filtermap in CZ.
    eapply filter_imp; [|exact CZ]. intros y Hy. cbv beta in Hy. unfold sw_arg_z. fold k. rewrite rmin_R. rewrite Rmin_left; [reflexivity|]. unfold Z in Hy. lra. }
  assert (AT : forall n, In n ns -> sw_arg_z w n z = Z n z).
  { intros n Hn. specialize (NB n Hn). unfold sw_arg_z. fold k. rewrite rmin_R. rewrite Rmin_left; [reflexivity|]. unfold Z in NB. lra. }
  assert (DX : forall n c, is_derive (fun y => c * cos (INR n * sw_arg w t y)) x (- (INR n * k * c * sin (INR n * sw_arg w t x)))).
  { intros n c. unfold sw_arg. fold k. auto_derive; [exact I|]. unfold Rminus. ring. }
  assert (DX2 : forall n c, is_derive (fun y => c * sin (INR n * sw_arg w t y)) x (INR n * k * c * cos (INR n * sw_arg w t x))).
  { intros n c. unfold sw_arg. fold k. auto_derive; [exact I|]. unfold Rminus. ring. }
  assert (DZ : forall n c m, is_derive (fun y => c * sinh (Z n y) * m) z (INR n * k * (c * cosh (Z n z)) * m)).
  { intros n c m. unfold Z, sinh, cosh. auto_derive; [exact I|]. unfold Rminus. field. }
  assert (DZ2 : forall n c m, is_derive (fun y => c * cosh (Z n y) * m) z (INR n * k * (c * sinh (Z n z)) * m)).
  { intros n c m. unfold Z, sinh, cosh. auto_derive; [exact I|]. unfold Rminus. field. }
  split; [|split].
  - exists (- (rsum (map (fun n => INR n * k * (e ^ n * INR n * a n * cosh (Z n z)) * sin (INR n * sw_arg w t x)) ns) * q)).
    split.
    + unfold dx, sw_u. fold k e a q ns.
      replace (- (rsum (map (fun n => INR n * k * (e ^ n * INR n * a n * cosh (Z n z)) * sin (INR n * sw_arg w t x)) ns) * q))
        with (rsum (map (fun n => - (INR n * k * (e ^ n * INR n * a n * cosh (sw_arg_z w n z)) * sin (INR n * sw_arg w t x))) ns) * q).
      * apply is_derive_scal_r'. apply is_derive_rsum. intros n Hn. apply DX.
      * rewrite <- Ropp_mult_distr_l_reverse. f_equal.
        rewrite (map_ext_in _ (fun n => (INR n * k * (e ^ n * INR n * a n * cosh (Z n z)) * sin (INR n * sw_arg w t x)) * -1)).
        { rewrite rsum_scale. ring. } intros n Hn. rewrite AT by exact Hn. ring.
    + unfold dz, sw_w. fold k e a q ns. rewrite Ropp_involutive. apply is_derive_scal_r'. apply is_derive_rsum. intros n Hn.
      apply (is_derive_ext_loc (fun y => e ^ n * INR n * a n * sinh (Z n y) * sin (INR n * sw_arg w t x))); [|apply DZ].
      eapply filter_imp; [|apply (LOC n Hn)]. intros y Hy. cbv beta in Hy. rewrite Hy. reflexivity.
  - exists (rsum (map (fun n => INR n * k * (e ^ n * INR n * a n * sinh (Z n z)) * cos (INR n * sw_arg w t x)) ns) * q).
    split.
    + unfold dz, sw_u. fold k e a q ns. apply is_derive_scal_r'. apply is_derive_rsum. intros n Hn.
      apply (is_derive_ext_loc (fun y => e ^ n * INR n * a n * cosh (Z n y) * cos (INR n * sw_arg w t x))); [|apply DZ2].
      eapply filter_imp; [|apply (LOC n Hn)]. intros y Hy. cbv beta in Hy. rewrite Hy. reflexivity.
    + unfold dx, sw_w. fold k e a q ns.
      rewrite (map_ext_in _ (fun n => INR n * k * (e ^ n * INR n * a n * sinh (sw_arg_z w n z)) * cos (INR n * sw_arg w t x)) ns).
      2: { intros n Hn. rewrite AT by exact Hn. reflexivity. }
      apply is_derive_scal_r'. apply is_derive_rsum. intros n Hn. apply DX2.
  - unfold sw_w. rewrite (map_ext _ (fun _ : nat => 0)).
    + rewrite rsum_zero; [ring|]. intros y Hy. reflexivity.
    + intros n. unfold sw_arg_z. replace (sw_depth w + (sw_zsl w - sw_depth w - sw_zsl w)) with 0 by ring. rewrite Rmult_0_r, rmin_R, Rmin_left by lra.
      rewrite sinh_0. ring.
Qed.

(** ** Wave number from the period *)
(** The wave that the speed coefficients give for wave number [k] has the
    angular frequency whose square is the iteration's right-hand side. *)
Theorem c50_wavelength_consistent : forall order k d H g w, (2 <= order)%nat -> 0 < k -> 0 < d -> 0 < g -> k * d <= 50 * PI ->
  sw_k w = k -> sw_height w = H -> sw_g w = g ->
  (sc_c0 (sw_c w), sc_c2 (sw_c w), sc_c4 (sw_c w)) = speed_coefs order k d ->
  (sw_speed w * sw_k w) * (sw_speed w * sw_k w) = g * k * amp_of order d H k.
Proof.
  intros order k d H g w Ho Hk Hd Hg Hkd E1 E2 E3 E4. unfold speed_coefs in E4.
  assert (KD : rmin (k * d) (50 * PI) = k * d) by (rewrite rmin_R; apply Rmin_left; exact Hkd). rewrite KD in E4.
  apply pair_equal_spec in E4. destruct E4 as [E4 C4]. apply pair_equal_spec in E4. destruct E4 as [C0 C2].
  unfold sw_speed, sw_eps. rewrite E1, E2, E3, C0, C2, C4. clear C0 C2 C4 E1 E2 E3.
  set (S := sc_S (k * d)).
  assert (SE : 2 * exp (2 * k * d) / (exp (4 * k * d) + 1) = S).
  { unfold S, sc_S. replace (2 * k * d) with (2 * (k * d)) by ring. replace (4 * k * d) with (4 * (k * d)) by ring. reflexivity. }
  assert (SQ : sqrt (g / k) * sqrt (g / k) = g / k) by (apply sqrt_sqrt; apply Rlt_le, Rdiv_lt_0_compat; assumption).
  assert (C1 : 1 - S <> 0).
  { assert (S < 1); [|lra]. unfold S, sc_S. set (x := k * d). assert (X : 0 < x) by (apply Rmult_lt_0_compat; assumption).
    assert (E4 : exp (4 * x) = exp (2 * x) * exp (2 * x)) by (rewrite <- exp_plus; f_equal; ring).
    pose proof (exp_ineq1 (2 * x) ltac:(lra)). set (y := exp (2 * x)) in *. rewrite E4.
    apply Rmult_lt_reg_r with (y * y + 1); [nra|]. unfold Rdiv. rewrite Rmult_assoc, Rinv_l by nra. nra. }
  unfold amp_of. cbv zeta. rewrite SE. rewrite (proj2 (Nat.leb_le 2 order)) by exact Ho.
  set (T := sqrt (tanh (k * d))). clearbody T S. set (r := sqrt (g / k)) in *.
  set (c2 := T * (2 + 7 * S ^ 2) / (4 * (1 - S) ^ 2)).
  replace (T * (2 + 7 * S * S) / (4 * (1 - S) * (1 - S))) with c2 by (unfold c2; field; lra).
  destruct (4 <=? order)%nat eqn:O4.
  - set (c4 := T * _ / (32 * _)). clearbody c2 c4. set (e := k * H / 2).
    replace ((T + e ^ 2 * c2 + e ^ 4 * c4) * r * k * ((T + e ^ 2 * c2 + e ^ 4 * c4) * r * k)) with ((r * r) * ((T + e ^ 2 * c2 + e ^ 4 * c4) * k * ((T + e ^ 2 * c2 + e ^ 4 * c4) * k))) by ring.
    rewrite SQ. field. lra.
  - clearbody c2. set (e := k * H / 2).
    replace ((T + e ^ 2 * c2 + e ^ 4 * 0) * r * k * ((T + e ^ 2 * c2 + e ^ 4 * 0) * r * k)) with ((r * r) * ((T + e ^ 2 * c2 + e ^ 4 * 0) * k * ((T + e ^ 2 * c2 + e ^ 4 * 0) * k))) by ring.
    rewrite SQ. field. lra.
Qed.
(** The iteration stops after at most [iter_max] steps; a wave length is
    returned only if the last step met the tolerance, measured with the factor
    of the wave number before that step. *)
Lemma newton_inv : forall fuel g om2 tol amp df it k f, 
  let '(it', k') := newton fuel g om2 tol amp df it k f in
  (it <= it' <= it + fuel)%nat /\
  ((it' < it + fuel)%nat -> (it' = it /\ k' = k /\ Rabs f <= tol) \/
     exists k0, Rabs (g * k' * amp k0 - om2) <= tol).
Proof.
  induction fuel as [|n IH]; intros g om2 tol amp df it k f; cbn [newton].
  - split; [lia|]. intros. lia.
  - destruct (Rltb tol (Rabs f)) eqn:E.
    + specialize (IH g om2 tol amp df (S it) (k - f / df k) (g * (k - f / df k) * amp k - om2)).
      destruct (newton n g om2 tol amp df (S it) _ _) as [it' k']. destruct IH as [A B]. split; [lia|].
      intros L. right. destruct (B ltac:(lia)) as [(_ & -> & C)|[k0 C]]; [exists k; exact C|exists k0; exact C].
    + apply Rltb_false in E. split; [lia|]. intros _. left. split; [reflexivity|]. split; [reflexivity|lra].
Qed.
Theorem c50_wavelength_partial : forall T g tol iter_max amp df lam,
  0 < tol -> stokes_wave_length T g tol iter_max amp df = lam -> 0 < lam ->
  exists k0, tol <= 2 * PI / lam /\
    Rabs (g * (2 * PI / lam) * amp k0 - (2 * PI / T) * (2 * PI / T)) <= tol.
Proof.
  intros T g tol im amp df lam Ht E Hl. unfold stokes_wave_length in E.
  pose proof (newton_inv im g (2 * PI / T * (2 * PI / T)) tol amp df 0 (2 * PI / T * (2 * PI / T) / g) (tol + 1)) as N.
  destruct (newton im _ _ _ _ _ _ _ _) as [it k]. destruct N as [N1 N2].
  destruct (Rltb k tol) eqn:E1; [lra|]. apply Rltb_false in E1.
  destruct (it =? im)%nat eqn:E2; [lra|]. apply Nat.eqb_neq in E2.
  pose proof PI_RGT_0 as HP.
  assert (KK : 2 * PI / lam = k) by (rewrite <- E; field; lra). rewrite KK.
  destruct (N2 ltac:(lia)) as [(_ & _ & C)|[k0 C]].
  - exfalso. rewrite Rabs_right in C by lra. lra.
  - exists k0. split; [lra|exact C].
Qed.
(** Meeting the tolerance in the last permitted step is reported as a failure. *)
Theorem c50_last_step_refuted :
  ~ (forall T g tol im amp df it k, 0 < tol ->
       newton im g (2 * PI / T * (2 * PI / T)) tol amp df 0 (2 * PI / T * (2 * PI / T) / g) (tol + 1) = (it, k) ->
       tol <= k -> (exists k0, Rabs (g * k * amp k0 - 2 * PI / T * (2 * PI / T)) <= tol) ->
       stokes_wave_length T g tol im amp df = 2 * PI / k).
Proof.
  intros H. pose proof PI_RGT_0 as HP.
  (* One step allowed, a factor that makes the residual zero. *)
  set (T := 2 * PI). assert (O : 2 * PI / T = 1) by (unfold T; field; lra).
  specialize (H T 1 (1/2) 1%nat (fun _ => 2/3) (fun _ => -3)). rewrite O in H.
  assert (N : newton 1 1 (1 * 1) (1/2) (fun _ => 2/3) (fun _ => -3) 0 (1 * 1 / 1) (1/2 + 1) = (1%nat, 3/2)).
  { cbn [newton]. rewrite (proj2 (Rltb_spec _ _)) by (rewrite Rabs_right; lra). f_equal. field. }
  specialize (H 1%nat (3/2) ltac:(lra) N ltac:(lra)).
  assert (X : exists k0 : R, Rabs (1 * (3/2) * (2/3) - 1 * 1) <= 1/2).
  { exists 0. replace (1 * (3/2) * (2/3) - 1 * 1) with 0 by field. rewrite Rabs_R0. lra. }
  specialize (H X). unfold stokes_wave_length in H. rewrite O, N in H.
  rewrite (proj2 (Rltb_false _ _)) in H by lra. cbn [Nat.eqb] in H.
  assert (0 < 2 * PI / (3/2)) by (apply Rdiv_lt_0_compat; lra). lra.
Qed.

Example c50_ex : lw_ok (LW 1 10 0 5 0 981 2) /\
  lw_eta (LW 1 10 0 5 0 981 2) 0 0 = 1/2 /\
  sw_ok (SW 3 10 5 1 0 981 0 (SC 1 0 0 1 1 0 0 0 0 (fun _ => 1))) /\
  cos (sw_arg (SW 3 10 5 1 0 981 0 (SC 1 0 0 1 1 0 0 0 0 (fun _ => 1))) 0 0) = 1.
Proof.
  split; [unfold lw_ok; simpl; lra|]. split.
  - unfold lw_eta, lw_arg. simpl. replace (_ * (0 - 2 * 0) - _ * 0 - 0) with 0 by ring. rewrite cos_0. field.
  - split; [unfold sw_ok; simpl; lra|]. unfold sw_arg. replace (_ * 0 - _ * 0 - _) with 0 by (simpl; ring). apply cos_0.
Qed.

Print Assumptions c50_dispersion.
Print Assumptions c50_linear_flow.
Print Assumptions c50_linear_surface.
Print Assumptions c50_linear_profile.
Print Assumptions c50_linear_target.
Print Assumptions c50_stokes_height.
Print Assumptions c50_stokes_travel.
Print Assumptions c50_stokes_flow.
Print Assumptions c50_wavelength_consistent.
Print Assumptions c50_wavelength_partial.
Print Assumptions c50_last_step_refuted.
