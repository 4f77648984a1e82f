(** C105: options of prescribed waves and the state a run starts from. *)
From Coq Require Import String List ZArith Lra Lia Bool.
From Verif Require Import BoxR BoxRFacts VecSpace MultiPhase Waves Stokes Inputs InputsSpec PropInputs WaveInputs WaveInputsSpec.
Import ListNotations.
Open Scope string_scope.
Open Scope R_scope.

(** *** Options *)

Lemma contains_false {A} (dflt own : sect A) k : no_empty dflt -> no_empty own ->
  mp_contains dflt own k = false <-> given dflt own k = None.
Proof.
  intros D O. unfold mp_contains, pp_contains, given. destruct (own k); [split; discriminate|]. destruct (dflt k); split; discriminate || reflexivity.
Qed.
Lemma contains_true {A} (dflt own : sect A) k : no_empty dflt -> no_empty own ->
  mp_contains dflt own k = true <-> given dflt own k <> None.
Proof.
  intros D O. destruct (mp_contains dflt own k) eqn:E.
  - split; [|reflexivity]. intros _ G. apply (contains_false _ _ _ D O) in G. congruence.
  - apply (contains_false _ _ _ D O) in E. split; [discriminate|contradiction].
Qed.

Lemma zones_iff dflt own z : sec_ok dflt -> sec_ok own -> read_zones dflt own = Ret z <-> zones_mean dflt own z.
Proof.
  intros (DI & DR & DB & DS) (OI & OR & OB & OS).
  assert (QR : forall k v r, mp_query (s_real dflt) (s_real own) k v = r <-> optional (s_real dflt) (s_real own) k v r)
    by (intros k v r; apply (c100_scalar _ _ _ k v r DR OR)).
  assert (QB : forall k v r, mp_query (s_bool dflt) (s_bool own) k v = r <-> optional (s_bool dflt) (s_bool own) k v r)
    by (intros k v r; apply (c100_scalar _ _ _ k v r DB OB)).
  assert (GR : forall k r, mp_get (s_real dflt) (s_real own) k = Ret r <-> required (s_real dflt) (s_real own) k r)
    by (intros k r; apply (c100_scalar _ _ _ k r r DR OR)).
  assert (half : 5 / 10 = 1 / 2) by lra.
  assert (RAMP : forall r, (if mp_contains (s_real dflt) (s_real own) "timeramp_period" then
       obind (mp_get (s_real dflt) (s_real own) "timeramp_period") (fun p => Ret (Some p)) else Ret None) = Ret r <->
     match r with None => given (s_real dflt) (s_real own) "timeramp_period" = None
                | Some p => required (s_real dflt) (s_real own) "timeramp_period" p end).
  { intros r. destruct (mp_contains (s_real dflt) (s_real own) "timeramp_period") eqn:C.
    - apply (contains_true _ _ _ DR OR) in C. rewrite obind_ret. split.
      + intros (p & G & E). injection E as <-. apply GR. exact G.
      + destruct r as [p|]; [intros G; exists p; split; [apply GR; exact G|reflexivity]|contradiction].
    - apply (contains_false _ _ _ DR OR) in C. destruct r as [p|].
      + split; [discriminate|]. intros [rest G]. congruence.
      + split; [intros _; exact C|reflexivity]. }
  unfold read_zones, zones_mean. rewrite half. split.
  - intros H.
    destruct (mp_contains (s_real dflt) (s_real own) "relax_zone_out_length") eqn:C;
      apply obind_ret in H; destruct H as (rp & HR & H); injection H as <-; apply RAMP in HR;
      cbn [z_zsl z_depth z_gen z_beach z_factor z_ylen z_current z_init z_has_beach z_ramp].
    + apply (contains_true _ _ _ DR OR) in C.
      do 5 (split; [apply QR; reflexivity|]). split; [intros N; contradiction|]. split; [|exact HR].
      intros _. split; [reflexivity|]. split; [|split; reflexivity].
      destruct (proj1 (QR "relax_zone_out_length" 8 _) eq_refl) as [[N _]|X]; [contradiction|exact X].
    + apply (contains_false _ _ _ DR OR) in C.
      do 5 (split; [apply QR; reflexivity|]). split; [|split; [intros N; contradiction|exact HR]].
      intros _. split; [reflexivity|]. split; [apply QR; reflexivity|]. split; [apply QR; reflexivity|apply QB; reflexivity].
  - intros (A1 & A2 & A3 & A4 & A5 & B & C & D).
    apply QR in A1. apply QR in A2. apply QR in A3. apply QR in A4. apply QR in A5.
    apply RAMP in D. destruct z as [a b c d e f g h i j].
    cbn [z_zsl z_depth z_gen z_beach z_factor z_ylen z_current z_init z_has_beach z_ramp] in *.
    rewrite A1, A2, A3, A4, A5.
    destruct (mp_contains (s_real dflt) (s_real own) "relax_zone_out_length") eqn:E.
    + apply (contains_true _ _ _ DR OR) in E. destruct (C E) as (-> & X & -> & ->).
      assert (Y : mp_query (s_real dflt) (s_real own) "relax_zone_out_length" 8 = d) by (apply QR; right; exact X).
      rewrite Y, D. reflexivity.
    + apply (contains_false _ _ _ DR OR) in E. destruct (B E) as (-> & X & Y & Z).
      apply QR in X. apply QR in Y. apply QB in Z. rewrite X, Y, Z, D. reflexivity.
Qed.

Lemma gravity_iff incflo g : read_g incflo = Ret g <-> gravity_means incflo g.
Proof.
  unfold read_g, gravity_means, pp_queryarr, overwrite.
  destruct (incflo "gravity") as [[|a [|b [|c l]]]|]; cbn; split; intros H;
    try (injection H as <-; lra); try (rewrite H; f_equal; lra); try (injection H as <-; reflexivity); rewrite H; reflexivity.
Qed.
Lemma gravity_noub incflo : exists g, read_g incflo = Ret g.
Proof. unfold read_g, pp_queryarr, overwrite. destruct (incflo "gravity") as [[|a [|b [|c l]]]|]; cbn; eauto. Qed.

Lemma phase_iff dflt own ph : no_empty dflt -> no_empty own -> read_phase dflt own = Ret ph <-> phase_means dflt own ph.
Proof.
  intros D O. unfold read_phase, phase_means.
  assert (Q : forall k v r, mp_query dflt own k v = r <-> optional dflt own k v r) by (intros k v r; apply (c100_scalar _ _ _ k v r D O)).
  destruct (mp_contains dflt own "wave_phase_offset_radians") eqn:E; cbn [negb].
  - apply (contains_true _ _ _ D O) in E.
    destruct (mp_contains dflt own "wave_phase_offset_degrees") eqn:F.
    + apply (contains_true _ _ _ D O) in F. split; [discriminate|]. intros [[N _]|[_ N]]; contradiction.
    + apply (contains_false _ _ _ D O) in F. split.
      * intros H. injection H as H. apply Q in H. right. split; [|exact F]. destruct H as [[N _]|H]; [contradiction|exact H].
      * intros [[N _]|[H _]]; [contradiction|]. f_equal. apply Q. right. exact H.
  - apply (contains_false _ _ _ D O) in E.
    assert (P : mp_query dflt own "wave_phase_offset_radians" 0 = 0) by (apply Q; left; split; [exact E|reflexivity]).
    rewrite P. split.
    + intros H. injection H as <-. left. split; [exact E|]. eexists. split; [apply Q; reflexivity|]. field.
    + intros [[_ (deg & H & ->)]|[[rest N] _]]; [|congruence]. apply Q in H. rewrite H. f_equal. field.
Qed.

(** Linear waves: the options are those documented; the run stops for every other input. *)
Theorem c105_linear : forall incflo dflt own z w,
  sec_ok dflt -> sec_ok own ->
  (read_linear incflo dflt own = Ret (z, w) <->
   zones_mean dflt own z /\ gravity_means incflo (lw_g w) /\
   required (s_real dflt) (s_real own) "wave_length" (lw_length w) /\
   required (s_real dflt) (s_real own) "wave_height" (lw_height w) /\
   phase_means (s_real dflt) (s_real own) (lw_phase w) /\
   lw_depth w = z_depth z /\ lw_zsl w = z_zsl z /\ lw_current w = z_current z).
Proof.
  intros incflo dflt own z w SD SO. pose proof SD as (DI & DR & DB & DS). pose proof SO as (OI & OR & OB & OS).
  assert (GR : forall k r, mp_get (s_real dflt) (s_real own) k = Ret r <-> required (s_real dflt) (s_real own) k r)
    by (intros k r; apply (c100_scalar _ _ _ k r r DR OR)).
  unfold read_linear. split.
  - intros H. apply obind_ret in H. destruct H as (z' & HZ & H). apply obind_ret in H. destruct H as (g & HG & H).
    apply obind_ret in H. destruct H as (len & HL & H). apply obind_ret in H. destruct H as (h & HH & H).
    apply obind_ret in H. destruct H as (ph & HP & H). injection H as <- <-. cbn.
    split; [apply zones_iff; assumption|]. split; [apply gravity_iff; exact HG|].
    split; [apply GR; exact HL|]. split; [apply GR; exact HH|]. split; [apply phase_iff; assumption|]. repeat split.
  - intros (HZ & HG & HL & HH & HP & E1 & E2 & E3).
    apply zones_iff in HZ; [|assumption|assumption]. apply gravity_iff in HG. apply GR in HL. apply GR in HH.
    apply phase_iff in HP; [|assumption|assumption]. rewrite HZ. cbn [obind]. rewrite HG. cbn [obind]. rewrite HL. cbn [obind].
    rewrite HH. cbn [obind]. rewrite HP. cbn [obind]. rewrite <- E1, <- E2, <- E3. destruct w. reflexivity.
Qed.

(** Stokes waves: the same, with the order, the length or the period, and no current above the tolerance. *)
Theorem c105_stokes_partial : forall incflo dflt own z d,
  sec_ok dflt -> sec_ok own ->
  (read_stokes incflo dflt own = Ret (z, d) <->
   zones_mean dflt own z /\ gravity_means incflo (s_g d) /\ z_current z <= tight_tol /\
   required (s_real dflt) (s_real own) "wave_height" (s_height d) /\
   required (s_int dflt) (s_int own) "order" (s_order d) /\
   length_means dflt own z d /\
   phase_means (s_real dflt) (s_real own) (s_phase d)).
Proof.
  intros incflo dflt own z d SD SO. pose proof SD as (DI & DR & DB & DS). pose proof SO as (OI & OR & OB & OS).
  assert (GR : forall k r, mp_get (s_real dflt) (s_real own) k = Ret r <-> required (s_real dflt) (s_real own) k r)
    by (intros k r; apply (c100_scalar _ _ _ k r r DR OR)).
  assert (GI : forall k r, mp_get (s_int dflt) (s_int own) k = Ret r <-> required (s_int dflt) (s_int own) k r)
    by (intros k r; apply (c100_scalar _ _ _ k r r DI OI)).
  assert (QR : forall k v r, mp_query (s_real dflt) (s_real own) k v = r <-> optional (s_real dflt) (s_real own) k v r)
    by (intros k v r; apply (c100_scalar _ _ _ k v r DR OR)).
  assert (QI : forall k v r, mp_query (s_int dflt) (s_int own) k v = r <-> optional (s_int dflt) (s_int own) k v r)
    by (intros k v r; apply (c100_scalar _ _ _ k v r DI OI)).
  unfold read_stokes. split.
  - intros H. apply obind_ret in H. destruct H as (z' & HZ & H). apply obind_ret in H. destruct H as (g & HG & H).
    destruct (Rltb tight_tol (z_current z')) eqn:C; [discriminate|]. apply Rltb_false in C.
    apply obind_ret in H. destruct H as (h & HH & H). apply obind_ret in H. destruct H as (o & HO & H).
    apply obind_ret in H. destruct H as (len & HL & H). apply obind_ret in H. destruct H as (ph & HP & H). injection H as <- <-.
    cbn [s_g s_height s_order s_phase].
    split; [apply zones_iff; assumption|]. split; [apply gravity_iff; exact HG|]. split; [exact C|].
    split; [apply GR; exact HH|]. split; [apply GI; exact HO|]. split; [|apply phase_iff; assumption].
    unfold length_means. cbn [s_length s_order s_height s_g].
    destruct (mp_contains (s_real dflt) (s_real own) "wave_length") eqn:E.
    + left. apply GR. exact HL.
    + right. apply (contains_false _ _ _ DR OR) in E. split; [exact E|].
      apply obind_ret in HL. destruct HL as (T & HT & HL). cbn zeta in HL.
      match type of HL with (if Rltb ?l 0 then _ else _) = _ => destruct (Rltb l 0) eqn:F end; [discriminate|].
      apply Rltb_false in F. injection HL as <-.
      exists T. do 3 eexists. split; [apply GR; exact HT|]. split; [apply QI; reflexivity|]. split; [apply QR; reflexivity|].
      split; [apply QI; reflexivity|]. split; [reflexivity|exact F].
  - intros (HZ & HG & C & HH & HO & HL & HP).
    apply zones_iff in HZ; [|assumption|assumption]. apply gravity_iff in HG. apply GR in HH. apply GI in HO.
    apply phase_iff in HP; [|assumption|assumption]. rewrite HZ. cbn [obind]. rewrite HG. cbn [obind].
    apply Rltb_false in C. rewrite C. rewrite HH. cbn [obind]. rewrite HO. cbn [obind].
    assert (L : (if mp_contains (s_real dflt) (s_real own) "wave_length" then mp_get (s_real dflt) (s_real own) "wave_length"
         else obind (mp_get (s_real dflt) (s_real own) "wave_period") (fun T =>
           let ol := mp_query (s_int dflt) (s_int own) "stokes_wavelength_order" (s_order d) in
           let tol := mp_query (s_real dflt) (s_real own) "stokes_wavelength_tolerance" (1 / 10 ^ 10) in
           let it := mp_query (s_int dflt) (s_int own) "stokes_wavelength_iter_max" 40%Z in
           let len := length_of T (z_depth z) (s_height d) ol (s_g d) tol it in
           if Rltb len 0 then Abort else Ret len)) = Ret (s_length d)).
    { destruct HL as [HL|[E (T & ol & tol & it & HT & H1 & H2 & H3 & H4 & H5)]].
      - assert (E : mp_contains (s_real dflt) (s_real own) "wave_length" = true).
        { apply (contains_true _ _ _ DR OR). destruct HL as [rest HL]. congruence. }
        rewrite E. apply GR. exact HL.
      - apply (contains_false _ _ _ DR OR) in E. rewrite E. apply GR in HT. rewrite HT. cbn [obind]. cbn zeta.
        apply QI in H1. apply QR in H2. apply QI in H3. rewrite H1, H2, H3, <- H4.
        apply Rltb_false in H5. rewrite H5. reflexivity. }
    cbn zeta in L. rewrite L. cbn [obind]. rewrite HP. cbn [obind]. destruct d. reflexivity.
Qed.

Lemma current_given c own : s_real (with_current c own) "current" = Some [c].
Proof. reflexivity. Qed.

(** A current for Stokes waves, which the manual says stops the run, is refused only above the tolerance: a negative one,
    however strong, is accepted, and the waves are those without it. *)
Theorem c105_current_refuted : forall incflo dflt own z d,
  read_stokes incflo dflt (with_current 0 own) = Ret (z, d) ->
  (forall c, c < 0 -> read_stokes incflo dflt (with_current c own) = Ret (z_with_current c z, d)) /\
  (forall c, tight_tol < c -> read_stokes incflo dflt (with_current c own) = Abort).
Proof.
  intros incflo dflt own z d H.
  assert (TT : 0 < tight_tol) by (unfold tight_tol; lra).
  assert (NQ : forall c k v, k <> "current" -> mp_query (s_real dflt) (s_real (with_current c own)) k v = mp_query (s_real dflt) (s_real own) k v).
  { intros c k v N. unfold mp_query, pp_query, with_current. cbn [s_real]. destruct (String.eqb_spec k "current"); [contradiction|reflexivity]. }
  assert (NG : forall c k, k <> "current" -> mp_get (s_real dflt) (s_real (with_current c own)) k = mp_get (s_real dflt) (s_real own) k).
  { intros c k N. unfold mp_get, pp_contains, pp_get, with_current. cbn [s_real]. destruct (String.eqb_spec k "current"); [contradiction|reflexivity]. }
  assert (NC : forall c k, k <> "current" -> mp_contains (s_real dflt) (s_real (with_current c own)) k = mp_contains (s_real dflt) (s_real own) k).
  { intros c k N. unfold mp_contains, pp_contains, with_current. cbn [s_real]. destruct (String.eqb_spec k "current"); [contradiction|reflexivity]. }
  assert (Z : forall c z, read_zones dflt (with_current 0 own) = Ret z -> read_zones dflt (with_current c own) = Ret (z_with_current c z) /\ z_current z = 0).
  { intros c y. unfold read_zones. rewrite !NC, !NG, !NQ by discriminate. cbn [with_current s_bool].
    destruct (mp_contains (s_real dflt) (s_real own) "relax_zone_out_length");
    intros E; apply obind_ret in E; destruct E as (rp & HR & E); injection E as <-; rewrite HR; split; reflexivity. }
  unfold read_stokes in H. apply obind_ret in H. destruct H as (z' & HZ & H). apply obind_ret in H. destruct H as (g & HG & H).
  rewrite !NG, !NC, !NQ in H by discriminate. change (s_int (with_current 0 own)) with (s_int own) in H.
  assert (P : forall c, read_phase (s_real dflt) (s_real (with_current c own)) = read_phase (s_real dflt) (s_real own)).
  { intros c. unfold read_phase. rewrite !NC by discriminate. rewrite (NQ c "wave_phase_offset_radians") by discriminate.
    rewrite !NQ by discriminate. reflexivity. }
  rewrite P in H.
  split; intros c C; destruct (Z c _ HZ) as [ZC Z0]; unfold read_stokes; rewrite ZC; cbn [obind]; rewrite HG; cbn [obind].
  - replace (z_current (z_with_current c z')) with c by reflexivity.
    replace (Rltb tight_tol c) with false by (symmetry; apply Rltb_false; lra).
    rewrite Z0 in H. replace (Rltb tight_tol 0) with false in H by (symmetry; apply Rltb_false; lra).
    rewrite !NG, !NC, !NQ by discriminate. change (s_int (with_current c own)) with (s_int own). rewrite P.
    change (z_depth (z_with_current c z')) with (z_depth z').
    apply obind_ret in H. destruct H as (h & HH & H). rewrite HH. cbn [obind].
    apply obind_ret in H. destruct H as (o & HO & H). rewrite HO. cbn [obind].
    apply obind_ret in H. destruct H as (len & HL & H). rewrite HL. cbn [obind].
    apply obind_ret in H. destruct H as (ph & HP & H). rewrite HP. cbn [obind]. injection H as <- <-. reflexivity.
  - replace (z_current (z_with_current c z')) with c by reflexivity.
    replace (Rltb tight_tol c) with true by (symmetry; apply Rltb_spec; lra). reflexivity.
Qed.

(** A negative limit of iterations passes for success: the length is that of deep water, whatever the depth, the height
    and the order, while a limit of zero is refused. *)
Theorem c105_iterations_refuted : forall T d H order g tol it,
  0 < T -> 0 < g -> 0 < tol -> tol * g * T ^ 2 <= 4 * PI ^ 2 -> (it < 0)%Z ->
  length_of T d H order g tol it = g * T ^ 2 / (2 * PI) /\ 0 < length_of T d H order g tol it /\
  length_of T d H order g tol 0 < 0.
Proof.
  intros T d H order g tol it HT Hg Htol B I. pose proof PI_RGT_0 as HP.
  assert (E : length_of T d H order g tol it = g * T ^ 2 / (2 * PI)).
  { unfold length_of. apply Z.ltb_lt in I. rewrite I. cbn zeta.
    assert (K : 2 * PI / T * (2 * PI / T) / g = 4 * PI ^ 2 / (g * T ^ 2)) by (field; split; lra).
    assert (N : Rltb (2 * PI / T * (2 * PI / T) / g) tol = false).
    { apply Rltb_false. rewrite K. apply Rmult_le_reg_r with (g * T ^ 2); [apply Rmult_lt_0_compat; [lra|apply pow_lt; lra]|].
      replace (4 * PI ^ 2 / (g * T ^ 2) * (g * T ^ 2)) with (4 * PI ^ 2) by (field; split; lra). lra. }
    rewrite N, K. field. repeat split; lra. }
  split; [exact E|]. split.
  - rewrite E. apply Rdiv_lt_0_compat; [apply Rmult_lt_0_compat; [lra|apply pow_lt; lra]|lra].
  - unfold length_of. cbn [Z.ltb Z.compare Z.to_nat]. unfold stokes_wave_length. cbn [newton Nat.eqb].
    destruct (Rltb _ tol); lra.
Qed.

(** *** Cells *)

Lemma blend_same x lb ll rb rl a : blend x lb ll rb rl a a a = a.
Proof.
  assert (H : forall v, harmonize x lb ll rb rl v v v = v).
  { intros v. unfold harmonize, combine_linear. destruct (Rleb x (lb + ll)); [reflexivity|]. destruct (Rleb rb (x + rl)); [reflexivity|].
    destruct (Rltb (1 - tight_tol) (gamma_absorb (x - (rb - 15 / 10 * rl)) (5 / 10 * rl) 1)); lra. }
  unfold blend. rewrite !H. destruct a; reflexivity.
Qed.

Lemma harmonize_affine x lb ll rb rl l b r k : harmonize x lb ll rb rl (l + k) (b + k) (r + k) = harmonize x lb ll rb rl l b r + k.
Proof.
  unfold harmonize, combine_linear. destruct (Rleb x (lb + ll)); [reflexivity|]. destruct (Rleb rb (x + rl)); [reflexivity|].
  destruct (Rltb (1 - tight_tol) (gamma_absorb (x - (rb - 15 / 10 * rl)) (5 / 10 * rl) 1)); lra.
Qed.

Lemma harmonize_bulk x lb ll rb rl l b b' r : x <= lb + ll \/ rb <= x + rl -> harmonize x lb ll rb rl l b r = harmonize x lb ll rb rl l b' r.
Proof.
  intros H. unfold harmonize. destruct (Rleb x (lb + ll)) eqn:A; [reflexivity|]. destruct (Rleb rb (x + rl)) eqn:B; [reflexivity|].
  apply Rleb_false in A. apply Rleb_false in B. lra.
Qed.

Lemma start_core : forall z added wave wt p i k old,
  (forall x zc, wt x zc = WV (added + w_u (wave x zc)) (w_v (wave x zc)) (w_w (wave x zc)) (w_eta (wave x zc))) ->
  (forall x zc, w_v (wave x zc) = 0) ->
  (z_has_beach z = true -> z_current z = added) ->
  p_xlo p <= centre_x p i <= p_xhi p ->
  z_init z = true \/ centre_x p i <= p_xlo p + z_gen z \/ p_xhi p <= centre_x p i + z_beach z ->
  0 <= w_eta (wave (centre_x p i) (centre_z p k)) - centre_z p k + reach p ->
  0 <= fst (final_target true z wt p i k) + reach p ->
  init_cell true z added wave p i k old = final_target true z wt p i k.
Proof.
  intros z added wave wt p i k old W V B [XL XH] I N1 N2.
  assert (MX : rmax (p_xlo p) (centre_x p i) = centre_x p i) by (unfold rmax; destruct (Rltb (p_xlo p) (centre_x p i)) eqn:E; [reflexivity|apply Rltb_false in E; lra]).
  assert (MX2 : rmin (rmax (centre_x p i) (p_xlo p)) (p_xhi p) = centre_x p i).
  { assert (E : rmax (centre_x p i) (p_xlo p) = centre_x p i) by (unfold rmax; destruct (Rltb (centre_x p i) (p_xlo p)) eqn:E; [apply Rltb_spec in E; lra|reflexivity]).
    rewrite E. unfold rmin. destruct (Rltb (p_xhi p) (centre_x p i)) eqn:F; [apply Rltb_spec in F; lra|reflexivity]. }
  set (x := centre_x p i) in *. set (zc := centre_z p k) in *.
  assert (T : target_cell wt p i k = (w_eta (wave x zc) - zc, V3 (added + w_u (wave x zc)) 0 (w_w (wave x zc)))).
  { unfold target_cell. fold x zc. rewrite MX, W, V. cbn [w_eta w_u w_v w_w].
    apply Rleb_spec in N1. rewrite N1. reflexivity. }
  unfold final_target in *. rewrite T in *. unfold init_cell. fold x zc. rewrite !andb_true_r in *. rewrite orb_false_r.
  destruct (z_has_beach z) eqn:HB.
  - specialize (B eq_refl). unfold beach_cell in *. fold x zc in N2. fold x zc. rewrite MX2 in *. cbn [fst snd vx vy vz] in *. rewrite B in *.
    unfold blend in *. cbn [w_u w_v w_w w_eta fst] in *.
    set (h := harmonize x (p_xlo p) (z_gen z) (p_xhi p) (z_beach z)) in *.
    assert (BU : forall f, h (f (wave x zc)) (f (if z_init z then wave x zc else WV 0 0 0 (z_zsl z))) (f (WV 0 0 0 (z_zsl z)))
                 = h (f (wave x zc)) (f (wave x zc)) (f (WV 0 0 0 (z_zsl z)))).
    { intros f. destruct (z_init z) eqn:ZI; [reflexivity|]. apply harmonize_bulk. destruct I as [I|I]; [discriminate|exact I]. }
    rewrite !BU. cbn [w_u w_v w_w w_eta].
    assert (AE : h (w_eta (wave x zc) - zc) (w_eta (wave x zc) - zc) (z_zsl z - zc) = h (w_eta (wave x zc)) (w_eta (wave x zc)) (z_zsl z) - zc)
      by (unfold h, Rminus; apply harmonize_affine).
    assert (AU : h (added + w_u (wave x zc)) (added + w_u (wave x zc)) added = added + h (w_u (wave x zc)) (w_u (wave x zc)) 0).
    { unfold h. rewrite (Rplus_comm added (w_u (wave x zc))). rewrite <- (Rplus_0_l added) at 3. rewrite harmonize_affine. lra. }
    rewrite AE in *. rewrite AU. rewrite V. apply Rleb_spec in N2. rewrite N2. reflexivity.
  - assert (BU : blend x (p_xlo p) (z_gen z) (p_xhi p) (z_beach z) (wave x zc) (if z_init z then wave x zc else WV 0 0 0 (z_zsl z)) (wave x zc) = wave x zc).
    { destruct (z_init z) eqn:ZI; [apply blend_same|]. destruct I as [I|I]; [discriminate|].
      transitivity (blend x (p_xlo p) (z_gen z) (p_xhi p) (z_beach z) (wave x zc) (wave x zc) (wave x zc)); [|apply blend_same].
      unfold blend. f_equal; apply harmonize_bulk; exact I. }
    rewrite BU. cbn [fst] in N2. apply Rleb_spec in N1. rewrite N1, V. reflexivity.
Qed.

Definition near (wave : R -> R -> wavevec) (p : plane) (i k : Z) : Prop :=
  0 <= w_eta (wave (centre_x p i) (centre_z p k)) - centre_z p k + reach p.

(** A run starts from what the zones drive to: in a cell of the domain, in a zone or anywhere when waves are asked for in
    the whole domain, at most a cell above the wave and above the blended surface, level set and velocity at the start
    are the target at time zero, with the current and with the beach or the outlet zone. *)
Theorem c105_start_linear : forall z w p i k old,
  lw_current w = z_current z ->
  p_xlo p <= centre_x p i <= p_xhi p ->
  z_init z = true \/ centre_x p i <= p_xlo p + z_gen z \/ p_xhi p <= centre_x p i + z_beach z ->
  near (linear0 w) p i k -> 0 <= fst (final_target true z (linear_t w 0) p i k) + reach p ->
  init_cell true z (z_current z) (linear0 w) p i k old = final_target true z (linear_t w 0) p i k.
Proof.
  intros z w p i k old C X I N1 N2. apply start_core; try assumption; [|reflexivity|reflexivity].
  intros x zc. unfold linear_t, linear0, lw_u, lw_w, lw_eta, lw_arg. cbn [w_u w_v w_w w_eta]. rewrite C.
  replace (lw_k w * (x - z_current z * 0) - lw_omega w * 0 - lw_phase w) with (lw_k w * x - lw_phase w) by lra.
  f_equal. lra.
Qed.
Theorem c105_start_stokes : forall z w p i k old,
  z_current z = 0 ->
  p_xlo p <= centre_x p i <= p_xhi p ->
  z_init z = true \/ centre_x p i <= p_xlo p + z_gen z \/ p_xhi p <= centre_x p i + z_beach z ->
  near (stokes_t w 0) p i k -> 0 <= fst (final_target true z (stokes_t w 0) p i k) + reach p ->
  init_cell true z 0 (stokes_t w 0) p i k old = final_target true z (stokes_t w 0) p i k.
Proof.
  intros z w p i k old C X I N1 N2. apply start_core; try assumption; [|reflexivity|intros _; exact C].
  intros x zc. unfold stokes_t. cbn [w_u w_v w_w w_eta]. f_equal. lra.
Qed.

(** Stokes waves with a negative current: inside the beach, within a cell of the still surface, the run starts at rest
    and the zone drives it to the current. *)
Theorem c105_stokes_beach_refuted : forall z w p i k old,
  z_current z < 0 -> z_has_beach z = true ->
  p_xlo p <= centre_x p i <= p_xhi p -> p_xlo p + z_gen z < centre_x p i -> p_xhi p <= centre_x p i + z_beach z ->
  0 <= z_zsl z - centre_z p k + reach p ->
  snd (init_cell true z 0 (stokes_t w 0) p i k old) = V3 0 0 0 /\
  forall t, snd (final_target true z (stokes_t w t) p i k) = V3 (z_current z) 0 0.
Proof.
  intros z w p i k old C HB [XL XH] G B N.
  assert (MX2 : rmin (rmax (centre_x p i) (p_xlo p)) (p_xhi p) = centre_x p i).
  { assert (E : rmax (centre_x p i) (p_xlo p) = centre_x p i) by (unfold rmax; destruct (Rltb (centre_x p i) (p_xlo p)) eqn:E; [apply Rltb_spec in E; lra|reflexivity]).
    rewrite E. unfold rmin. destruct (Rltb (p_xhi p) (centre_x p i)) eqn:F; [apply Rltb_spec in F; lra|reflexivity]. }
  assert (H : forall l b r, harmonize (centre_x p i) (p_xlo p) (z_gen z) (p_xhi p) (z_beach z) l b r = r).
  { intros l b r. unfold harmonize. replace (Rleb (centre_x p i) (p_xlo p + z_gen z)) with false by (symmetry; apply Rleb_false; lra).
    replace (Rleb (p_xhi p) (centre_x p i + z_beach z)) with true by (symmetry; apply Rleb_spec; lra). reflexivity. }
  split.
  - unfold init_cell. rewrite HB. cbn [andb]. unfold blend. rewrite !H. cbn [w_u w_v w_w w_eta snd].
    apply Rleb_spec in N. rewrite N. f_equal; lra.
  - intros t. unfold final_target. rewrite HB. cbn [andb]. unfold beach_cell. rewrite MX2. unfold blend. rewrite !H. reflexivity.
Qed.

(** Outside the domain the two differ: the target of a ghost cell is that of the edge of the domain, the start is the wave
    at the ghost cell itself.  A wave of length two, height one, and cells of size one. *)
Theorem c105_ghost_refuted : exists z w p i k old,
  lw_current w = z_current z /\ z_init z = true /\ near (linear0 w) p i k /\
  centre_x p i < p_xlo p /\
  fst (init_cell true z (z_current z) (linear0 w) p i k old) = 0 /\
  fst (final_target true z (linear_t w 0) p i k) = 1 / 2.
Proof.
  exists (ZD 0 1 4 8 1 0 0 true true None), (LW 1 2 0 1 0 981 0), (Plane 0 100 (-1/2) 1 1), (-1)%Z, 0%Z, vzero.
  assert (CX : centre_x (Plane 0 100 (-1/2) 1 1) (-1) = -1/2) by (unfold centre_x; cbn [p_xlo p_dx]; lra).
  assert (CZ : centre_z (Plane 0 100 (-1/2) 1 1) 0 = 0) by (unfold centre_z; cbn [p_zlo p_dz]; lra).
  assert (K : lw_k (LW 1 2 0 1 0 981 0) = PI) by (unfold lw_k; cbn [lw_length]; lra).
  assert (E0 : w_eta (linear0 (LW 1 2 0 1 0 981 0) (-1/2) 0) = 0).
  { unfold linear0. cbn [w_eta lw_phase lw_height lw_zsl]. rewrite K.
    replace (PI * (-1/2) - 0) with (- (PI / 2)) by lra. rewrite cos_neg, cos_PI2. lra. }
  assert (E1 : w_eta (linear_t (LW 1 2 0 1 0 981 0) 0 0 0) = 1 / 2).
  { unfold linear_t, lw_eta, lw_arg. cbn [w_eta lw_phase lw_height lw_zsl lw_current]. rewrite K.
    replace (PI * (0 - 0 * 0) - lw_omega (LW 1 2 0 1 0 981 0) * 0 - 0) with 0 by lra. rewrite cos_0. lra. }
  assert (RP : 0 <= reach (Plane 0 100 (-1/2) 1 1)) by apply sqrt_pos.
  split; [reflexivity|]. split; [reflexivity|].
  split; [unfold near; rewrite CX, CZ, E0; lra|]. split; [rewrite CX; cbn; lra|]. split.
  - unfold init_cell. rewrite CX, CZ. cbn [fst z_has_beach z_init andb orb negb z_zsl z_gen z_beach p_xlo p_xhi].
    unfold blend. cbn [w_eta]. unfold harmonize at 1. replace (Rleb (-1/2) (0 + 4)) with true by (symmetry; apply Rleb_spec; lra).
    rewrite E0. lra.
  - unfold final_target. cbn [z_has_beach andb]. unfold beach_cell, target_cell. rewrite CX, CZ. cbn [p_xlo p_xhi z_gen z_beach fst].
    replace (rmax 0 (-1/2)) with 0 by (unfold rmax; destruct (Rltb 0 (-1/2)) eqn:F; [apply Rltb_spec in F; lra|reflexivity]).
    replace (rmin (rmax (-1/2) 0) 100) with 0.
    2:{ unfold rmax. replace (Rltb (-1/2) 0) with true by (symmetry; apply Rltb_spec; lra).
        unfold rmin. destruct (Rltb 100 0) eqn:F; [apply Rltb_spec in F; lra|reflexivity]. }
    unfold blend. cbn [w_eta]. unfold harmonize at 1. replace (Rleb 0 (0 + 4)) with true by (symmetry; apply Rleb_spec; lra).
    rewrite E1. lra.
Qed.

(** The elevation of the wave swings between half the height above and half the height below the still level: what the
    manual calls the amplitude is the height. *)
Theorem c105_height : forall w x z, 0 <= lw_height w ->
  lw_zsl w - lw_height w / 2 <= w_eta (linear0 w x z) <= lw_zsl w + lw_height w / 2.
Proof. intros w x z H. unfold linear0. cbn [w_eta]. pose proof (COS_bound (lw_k w * x - lw_phase w)) as [A B]. nra. Qed.

(** An input with an outlet zone and a phase in degrees. *)
Definition ex_own : section :=
  Sec none (fun k => if String.eqb k "wave_length" then Some [2] else if String.eqb k "wave_height" then Some [1]
    else if String.eqb k "relax_zone_out_length" then Some [6] else if String.eqb k "wave_phase_offset_degrees" then Some [180] else None) none none.
Example c105_example :
  sec_ok (Sec none none none none) /\ sec_ok ex_own /\
  read_linear none (Sec none none none none) ex_own =
    Ret (ZD 0 (5 / 10) 4 6 1 0 0 true false None, LW 1 2 (180 * (PI / 180)) (5 / 10) 0 (- - (981 / 100)) 0).
Proof.
  split; [repeat split; intros k; discriminate|]. split; [|reflexivity].
  repeat split; intros k; cbn; try discriminate.
  repeat match goal with |- context [String.eqb ?a ?b] => destruct (String.eqb a b) end; discriminate.
Qed.
(** A cell inside the generation zone of the same plane, within reach of the wave. *)
Example c105_cell_example :
  let z := ZD 0 1 4 8 1 0 0 true true None in let w := LW 1 2 0 1 0 981 0 in let p := Plane 0 100 (-1/2) 1 1 in
  lw_current w = z_current z /\ p_xlo p <= centre_x p 1 <= p_xhi p /\ near (linear0 w) p 1 0 /\
  0 <= fst (final_target true z (linear_t w 0) p 1 0) + reach p.
Proof.
  cbn zeta. set (w := LW 1 2 0 1 0 981 0). set (p := Plane 0 100 (-1/2) 1 1).
  assert (CX : centre_x p 1 = 3 / 2) by (unfold centre_x, p; cbn [p_xlo p_dx]; lra).
  assert (CZ : centre_z p 0 = 0) by (unfold centre_z, p; cbn [p_zlo p_dz]; lra).
  assert (RP : 1 <= reach p).
  { unfold reach, p. cbn [p_dx p_dz]. rewrite <- sqrt_1 at 1. apply sqrt_le_1_alt. lra. }
  split; [reflexivity|]. split; [rewrite CX; cbn; lra|].
  assert (EB : forall x zc, -1/2 <= w_eta (linear0 w x zc)).
  { intros x zc. assert (H0 : 0 <= lw_height w) by (cbn; lra). pose proof (c105_height w x zc H0) as [H _].
    change (lw_zsl w) with 0 in H. change (lw_height w) with 1 in H. lra. }
  split; [unfold near; rewrite CX, CZ; specialize (EB (3/2) 0); lra|].
  unfold final_target. cbn [z_has_beach andb]. unfold beach_cell, target_cell. rewrite CX, CZ. cbn [p_xlo p_xhi z_gen z_beach fst p].
  replace (rmax 0 (3/2)) with (3/2) by (unfold rmax; destruct (Rltb 0 (3/2)) eqn:F; [reflexivity|apply Rltb_false in F; lra]).
  replace (rmin (rmax (3/2) 0) 100) with (3/2).
  2:{ unfold rmax. destruct (Rltb (3/2) 0) eqn:F; [apply Rltb_spec in F; lra|].
      unfold rmin. destruct (Rltb 100 (3/2)) eqn:F2; [apply Rltb_spec in F2; lra|reflexivity]. }
  unfold blend. cbn [w_eta]. unfold harmonize at 1. replace (Rleb (3/2) (0 + 4)) with true by (symmetry; apply Rleb_spec; lra).
  specialize (EB (3/2) 0). unfold linear_t, lw_eta, lw_arg. cbn [w_eta]. unfold linear0 in EB. cbn [w_eta] in EB.
  replace (lw_k w * (3 / 2 - lw_current w * 0) - lw_omega w * 0 - lw_phase w) with (lw_k w * (3 / 2) - lw_phase w) by lra. lra.
Qed.

Print Assumptions c105_linear.
Print Assumptions c105_stokes_partial.
Print Assumptions c105_current_refuted.
Print Assumptions c105_iterations_refuted.
Print Assumptions c105_start_linear.
Print Assumptions c105_start_stokes.
Print Assumptions c105_stokes_beach_refuted.
Print Assumptions c105_ghost_refuted.
Print Assumptions c105_height.
