(** C81: Profile assimilation pulls the planar means towards the given profiles. *)
From Coq Require Import String Setoid Morphisms.
From Verif Require Import Base BaseFacts Interp InterpSpec InterpProofs InterpProofs2 BoundaryCond MesoForcing MesoForcingSpec MesoForcingProofs MesoForcingProofs2.
Close Scope R_scope.
Close Scope string_scope.
Open Scope list_scope.
Open Scope Q_scope.

(** ** The regression *)

(** The inverse is an inverse, on both sides. *)
Theorem c81_inverse : forall m im i j, invert_mat m = Some im -> (i < 4)%nat -> (j < 4)%nat ->
  let delta := if (i =? j)%nat then 1 else 0 in
  m i 0%nat * im 0%nat j + m i 1%nat * im 1%nat j + m i 2%nat * im 2%nat j + m i 3%nat * im 3%nat j == delta /\
  im i 0%nat * m 0%nat j + im i 1%nat * m 1%nat j + im i 2%nat * m 2%nat j + im i 3%nat * m 3%nat j == delta.
Proof.
  intros m im i j H Hi Hj delta. pose proof (invert_right m im i j H Hi Hj) as A. pose proof (invert_left m im i j H Hi Hj) as B.
  unfold mul4, sum4, one4 in *. fold delta in A, B. rewrite <- A at 1. rewrite <- B. split; ring.
Qed.

Lemma weights_rows : forall W zs e, weights_ok W -> forall r, In r (rows W zs e) -> 0 <= rw r.
Proof. intros W zs e H r Hr. apply H. apply (rows_in W zs e r Hr). Qed.
(** Temperature: if four different heights have a positive weight, the regression has finite
    coefficients; what it puts at the heights is the cubic of smallest weighted squared error; and
    a cubic that the weighted heights lie on is given back at every height. *)
Theorem c81_least_squares : forall W zs sc e, length W = length zs -> length e = length zs -> weights_ok W -> ~ sc == 0 ->
  four_heights (rows W zs e) ->
  exists p a b c d, fit Temperature W zs sc e = Ret (Some p) /\ length p = length zs /\
    (forall i, (i < length zs)%nat -> qnth p i == cubic a b c d (qnth zs i)) /\
    (forall a' b' c' d', misfit (rows W zs e) (cubic a b c d) <= misfit (rows W zs e) (cubic a' b' c' d')).
Proof.
  intros W zs sc e HW He Hw Hs H4.
  pose proof (weights_rows W zs e Hw) as Hr.
  destruct (fit_temp_some W zs sc e (gram_regular W zs e sc HW He Hr Hs H4)) as (p & E).
  destruct (fit_temp W zs sc e p HW He E) as (q & -> & N).
  exists (map (poly q sc) zs), (q 0%nat), (q 1%nat * sc), (q 2%nat * (sc * sc)), (q 3%nat * (sc * sc * sc)).
  assert (P : forall z, cubic (q 0%nat) (q 1%nat * sc) (q 2%nat * (sc * sc)) (q 3%nat * (sc * sc * sc)) z == poly q sc z).
  { intros z. rewrite poly_cubic. unfold cubic. ring. }
  split; [exact E|]. split; [apply map_length|]. split.
  - intros i Hi. rewrite qnth_map by exact Hi. symmetry. apply P.
  - intros a' b' c' d'. rewrite (least _ sc q a' b' c' d' Hr N Hs).
    assert (Q1 : misfit (rows W zs e) (cubic (q 0%nat) (q 1%nat * sc) (q 2%nat * (sc * sc)) (q 3%nat * (sc * sc * sc))) == misfit (rows W zs e) (poly q sc)).
    { rewrite !misfit_sum. apply qsum_ext. intros r _. rewrite P. reflexivity. }
    rewrite Q1.
    assert (0 <= qsum (fun r => rw r * ((poly q sc (rz r) - cubic a' b' c' d' (rz r)) * (poly q sc (rz r) - cubic a' b' c' d' (rz r)))) (rows W zs e)).
    { apply qsum_nonneg. intros r Ir. pose proof (Hr r Ir). pose proof (qsq_nonneg (poly q sc (rz r) - cubic a' b' c' d' (rz r))). nra. }
    lra.
Qed.
Theorem c81_cubic_exact : forall W zs sc e a b c d, length W = length zs -> length e = length zs -> weights_ok W -> ~ sc == 0 ->
  four_heights (rows W zs e) ->
  (forall r, In r (rows W zs e) -> 0 < rw r -> re r == cubic a b c d (rz r)) ->
  exists p, fit Temperature W zs sc e = Ret (Some p) /\ length p = length zs /\
    forall i, (i < length zs)%nat -> qnth p i == cubic a b c d (qnth zs i).
Proof.
  intros W zs sc e a b c d HW He Hw Hs H4 Hf.
  pose proof (weights_rows W zs e Hw) as Hr.
  destruct (fit_temp_some W zs sc e (gram_regular W zs e sc HW He Hr Hs H4)) as (p & E).
  destruct (fit_temp W zs sc e p HW He E) as (q & -> & N).
  exists (map (poly q sc) zs). split; [exact E|]. split; [apply map_length|].
  intros i Hi. rewrite qnth_map by exact Hi. eapply fit_unique; eauto.
Qed.

(** Momentum: with one weight for all heights (the default) the regression is the same. *)
Lemma total_ext : forall (A : Type) (f g : A -> Q) l, (forall x, In x l -> f x == g x) -> total (map f l) == total (map g l).
Proof. intros A f g l H. rewrite !total_sum. apply qsum_ext. exact H. Qed.
Theorem c81_momentum_uniform : forall W zs sc e w p, length W = length zs -> length e = length zs -> (4 <= length zs)%nat ->
  (forall x, In x W -> x == w) -> fit Temperature W zs sc e = Ret (Some p) ->
  exists p', fit Momentum W zs sc e = Ret (Some p') /\ length p' = length p /\ forall i, qnth p' i == qnth p i.
Proof.
  intros W zs sc e w p HW He H4 Hw Hp.
  assert (R : forall i, (i < 4)%nat -> exists b b', rhs_mom W zs sc e i = Ret b /\ rhs_temp W zs sc e i = Ret b' /\ b == b').
  { intros i Hi. unfold rhs_mom, rhs_temp, rd. destruct (nth_error W i) as [v|] eqn:E.
    - cbn [obind]. do 2 eexists. split; [reflexivity|]. split; [reflexivity|]. apply total_ext.
      intros [[w' z] v'] Hin. apply in_combine_l in Hin. apply in_combine_l in Hin. cbn [fst snd].
      rewrite (Hw v), (Hw w'); [reflexivity|exact Hin|]. eapply nth_error_In; eauto.
    - apply nth_error_None in E. lia. }
  destruct (R 0%nat ltac:(lia)) as (b0 & c0 & A0 & B0 & C0). destruct (R 1%nat ltac:(lia)) as (b1 & c1 & A1 & B1 & C1).
  destruct (R 2%nat ltac:(lia)) as (b2 & c2 & A2 & B2 & C2). destruct (R 3%nat ltac:(lia)) as (b3 & c3 & A3 & B3 & C3).
  unfold fit, rhs in *. rewrite B0, B1, B2, B3 in Hp. rewrite A0, A1, A2, A3. cbn [obind] in *.
  destruct (invert_mat (gram W zs sc)) as [im|]; [|discriminate]. injection Hp as <-. eexists. split; [reflexivity|].
  split; [rewrite !map_length; reflexivity|]. intros i. destruct (Nat.lt_ge_cases i (length zs)) as [L|L].
  - rewrite !qnth_map by exact L. unfold poly, coeffs, sum4. rewrite C0, C1, C2, C3. reflexivity.
  - unfold qnth. rewrite !nth_overflow by (rewrite map_length; lia). reflexivity.
Qed.
(** With weights that differ, the momentum regression takes the weight at the index of the power
    instead of that of the height.  An error of 1 at every height, which the temperature
    regression gives back, becomes 0, 5, -5, 5 and 70. *)
Theorem c81_momentum_weights_refuted :
  let W := [1; 1; 1; 1; 0] in let zs := [1; 2; 3; 4; 5] in let e := [1; 1; 1; 1; 1] in
  (exists p, fit Temperature W zs 1 e = Ret (Some p) /\ map Qred p = [1; 1; 1; 1; 1]) /\
  (exists p, fit Momentum W zs 1 e = Ret (Some p) /\ map Qred p = [0; 5; -5; 5; 70]).
Proof. split; (eexists; split; [vm_compute; reflexivity|vm_compute; reflexivity]). Qed.
(** With fewer than four heights it reads past the end of the weights. *)
Theorem c81_momentum_few_refuted : forall W zs sc e, (length W < 4)%nat -> fit Momentum W zs sc e = UB.
Proof.
  intros W zs sc e H. unfold fit, rhs, rhs_mom, rd.
  destruct W as [|w0 [|w1 [|w2 [|w3 W]]]]; cbn [nth_error obind]; try reflexivity. simpl in H; lia.
Qed.

(** ** Direct assimilation *)

Lemma errors_nth : forall f time zs means e, errors f time zs means = Ret e ->
  forall i, (i < length zs)%nat -> exists v, bilinear (me_times f) (me_heights f) (me_vals f) time (qnth zs i) = Ret v /\
    qnth e i == v - qnth means i.
Proof.
  intros f time zs. induction zs as [|z zs IH]; intros means e H i Hi; [simpl in Hi; lia|]. cbn [errors] in H.
  destruct means as [|m means]; [discriminate|].
  destruct (bilinear (me_times f) (me_heights f) (me_vals f) time z) as [v| |] eqn:V; cbn [obind] in H; try discriminate.
  destruct (errors f time zs means) as [l| |] eqn:E; cbn [obind] in H; try discriminate.
  injection H as <-. destruct i as [|i]; [exists v; split; [exact V|reflexivity]|].
  apply (IH means l E i). simpl in Hi; lia.
Qed.
(** At the heights of the planar means the source moves the mean, over one step, by the fraction
    [control_gain] of its distance to the target at that time and height. *)
Theorem c81_direct : forall k c s f time dt zs means e i,
  String.eqb (mc_scheme c) "" = false -> indirect c = false -> to_constant c = false -> 0 < dt ->
  increasing zs -> spaced zs -> (2 <= length zs)%nat ->
  errors f time zs means = Ret e -> (i < length zs)%nat ->
  exists target v, bilinear (me_times f) (me_heights f) (me_vals f) time (qnth zs i) = Ret target /\
    source k false c s f time dt zs means (qnth zs i) = Ret (Some v) /\
    qnth means i + dt * v == (1 - mc_gain c) * qnth means i + mc_gain c * target.
Proof.
  intros k c s f time dt zs means e i Hs Hi Hc Hdt Hz Hsp H2 He Hlt.
  destruct (errors_nth f time zs means e He i Hlt) as (tg & T1 & T2). exists tg.
  unfold source, profile. rewrite Hs, He, Hi, Hc; cbn [obind fst option_map].
  pose proof (errors_length _ _ _ _ _ He) as L.
  destruct (linear_node zs (map (fun x => x * mc_gain c / dt) e) 1 0 i (qnth zs i) (qnth e i * mc_gain c / dt)) as (v & V1 & V2);
    [exact Hz|exact H2|rewrite map_length; lia|lia|apply at_nth; exact Hlt| | |].
  { rewrite <- (qnth_map (fun x => x * mc_gain c / dt)) by lia. replace (1 * i + 0)%nat with i by lia. apply at_nth. rewrite map_length; lia. }
  { intros _ a b A B. apply (Hsp 0%nat); assumption. }
  exists v. split; [exact T1|]. split; [rewrite V1; reflexivity|]. rewrite V2, T2. field. lra.
Qed.

(** ** From the regression to the direct error *)

Lemma rows_close : forall (g : Q -> Q -> Q -> Q) B W zs e, (forall w w' z v, w == w' -> g w z v == g w' z v) ->
  length B = length zs -> length W = length zs -> length e = length zs -> (forall i, (i < length zs)%nat -> qnth B i == qnth W i) ->
  qsum (fun r => g (rw r) (rz r) (re r)) (rows B zs e) == qsum (fun r => g (rw r) (rz r) (re r)) (rows W zs e).
Proof.
  intros g B W zs e Hg LB LW Le KW.
  revert zs W e LB LW Le KW. induction B as [|b B IH]; intros [|z zs] [|w W] [|v e] LB LW Le KW; try discriminate; [reflexivity|].
  cbn [rows qsum rw rz re]. rewrite (Hg b w z v) by (apply (KW 0%nat); simpl; lia).
  rewrite (IH zs W e); [reflexivity|simpl in *; lia|simpl in *; lia|simpl in *; lia|].
  intros i Hlt. apply (KW (S i)). simpl; lia.
Qed.
(** A regression with weights that are equal, as numbers, to [W]. *)
Lemma fit_close : forall B W zs sc e, length B = length zs -> length W = length zs -> length e = length zs ->
  (forall i, (i < length zs)%nat -> qnth B i == qnth W i) -> (forall r, In r (rows W zs e) -> 0 <= rw r) -> ~ sc == 0 ->
  four_heights (rows W zs e) ->
  exists p a b c d, fit Temperature B zs sc e = Ret (Some p) /\ length p = length zs /\
    (forall i, (i < length zs)%nat -> qnth p i == cubic a b c d (qnth zs i)) /\
    (forall a' b' c' d', misfit (rows W zs e) (cubic a b c d) <= misfit (rows W zs e) (cubic a' b' c' d')).
Proof.
  intros B W zs sc e LB LW Le KW HrW Hsc H4.
  assert (Rw : forall g : Q -> Q -> Q -> Q, (forall w w' z v, w == w' -> g w z v == g w' z v) ->
     qsum (fun r => g (rw r) (rz r) (re r)) (rows B zs e) == qsum (fun r => g (rw r) (rz r) (re r)) (rows W zs e)).
  { intros g Hg. apply rows_close; assumption. }
  assert (NzB : ~ det4 (gram B zs sc) == 0).
  { rewrite (det4_ext (gram B zs sc) (gram W zs sc)); [apply (gram_regular W zs e); assumption|].
    intros i j _ _. rewrite (gram_hk B zs e sc i j), (gram_hk W zs e sc i j) by assumption. unfold hk, xs_.
    apply (Rw (fun w z _ => w * qpow (z * sc) (i + j))). intros w w' z v Eq. rewrite Eq. reflexivity. }
  destruct (fit_temp_some B zs sc e NzB) as (p & Ep).
  destruct (fit_temp B zs sc e p LB Le Ep) as (q & -> & N).
  assert (NW : normal (rows W zs e) sc q).
  { intros i Hlt. transitivity (yk (rows B zs e) sc i).
    - rewrite <- (N i Hlt). unfold sum4, hk, xs_.
      rewrite (Rw (fun w z _ => w * qpow (z * sc) (i + 0))), (Rw (fun w z _ => w * qpow (z * sc) (i + 1))),
        (Rw (fun w z _ => w * qpow (z * sc) (i + 2))), (Rw (fun w z _ => w * qpow (z * sc) (i + 3))); [reflexivity| | | |];
        intros w w' z v Eq; rewrite Eq; reflexivity.
    - unfold yk, xs_. apply (Rw (fun w z v => w * v * qpow (z * sc) i)). intros w w' z v Eq. rewrite Eq. reflexivity. }
  assert (P : forall z, cubic (q 0%nat) (q 1%nat * sc) (q 2%nat * (sc * sc)) (q 3%nat * (sc * sc * sc)) z == poly q sc z).
  { intros z. rewrite poly_cubic. unfold cubic. ring. }
  exists (map (poly q sc) zs), (q 0%nat), (q 1%nat * sc), (q 2%nat * (sc * sc)), (q 3%nat * (sc * sc * sc)).
  split; [exact Ep|]. split; [apply map_length|]. split.
  - intros i Hi. rewrite qnth_map by exact Hi. symmetry. apply P.
  - intros y0 y1 y2 y3. rewrite (least _ sc q y0 y1 y2 y3 HrW NW Hsc).
    assert (Q1 : misfit (rows W zs e) (cubic (q 0%nat) (q 1%nat * sc) (q 2%nat * (sc * sc)) (q 3%nat * (sc * sc * sc))) == misfit (rows W zs e) (poly q sc)).
    { rewrite !misfit_sum. apply qsum_ext. intros r _. rewrite P. reflexivity. }
    rewrite Q1.
    assert (0 <= qsum (fun r => rw r * ((poly q sc (rz r) - cubic y0 y1 y2 y3 (rz r)) * (poly q sc (rz r) - cubic y0 y1 y2 y3 (rz r)))) (rows W zs e)).
    { apply qsum_nonneg. intros r Ir. pose proof (HrW r Ir). pose proof (qsq_nonneg (poly q sc (rz r) - cubic y0 y1 y2 y3 (rz r))). nra. }
    lra.
Qed.
(** The weights of the regression at the heights: the given table, interpolated; by default one
    below the transition layer, zero above it and linear between. *)
Definition regression_weights (c : mcfg) (h t : Q) (zs W : list Q) : Prop :=
  match mc_weights c with
  | None => W = map (ramp h t) zs
  | Some (wh, wv) => linear_list wh wv zs 1 0 = Ret W /\ weights_ok W
  end.
Lemma linear_list_length : forall xs ys zs l, linear_list xs ys zs 1 0 = Ret l -> length l = length zs.
Proof.
  intros xs ys zs. induction zs as [|z zs IH]; intros l H; cbn [linear_list] in H; [injection H as <-; reflexivity|].
  destruct (linear xs ys z 1 0); cbn [obind] in H; try discriminate. destruct (linear_list xs ys zs 1 0) as [l'| |]; cbn [obind] in H; try discriminate.
  injection H as <-. cbn [length]. f_equal. apply IH. reflexivity.
Qed.
Lemma layer_fit : forall c s zs e h t W,
  construct c = Ret s -> indirect c = true -> have_transition c = true ->
  mc_thickness c = Some t -> mc_height c = Some h -> (mc_norm c = true -> ~ mc_zmax c == 0) ->
  mc_zmin c <= h -> feps < t -> h + t <= mc_zmax c -> (forall z, In z zs -> mc_zmin c <= z /\ z <= mc_zmax c) ->
  length e = length zs -> regression_weights c h t zs W -> four_heights (rows W zs e) ->
  ms_variable s = false /\ ms_height s = Some h /\ ms_thickness s = Some t /\
  exists U B p x0 x1 x2 x3, update_weights c s zs = Ret (U, B) /\
    length B = length zs /\ (forall i, (i < length zs)%nat -> qnth B i == ramp h t (qnth zs i)) /\
    fit Temperature U zs (ms_scale s) e = Ret (Some p) /\ length p = length zs /\
    (forall i, (i < length zs)%nat -> qnth p i == cubic x0 x1 x2 x3 (qnth zs i)) /\
    (forall y0 y1 y2 y3, misfit (rows W zs e) (cubic x0 x1 x2 x3) <= misfit (rows W zs e) (cubic y0 y1 y2 y3)).
Proof.
  intros c s zs e h t W Hcon Hi HT Ht Hh Hn Hz1 Htp Hz2 Hzs Le HW H4.
  pose proof feps_pos as Fp.
  set (sc := if mc_norm c then 1 / mc_zmax c else 1 # 1000).
  set (bh := [mc_zmin c; h; h + t; mc_zmax c]).
  assert (Es : s = match mc_weights c with None => MS (Some h) (Some t) false bh [1; 1; 0; 0] bh [1; 1; 0; 0] sc
                   | Some (wh, wv) => MS (Some h) (Some t) false wh wv bh [1; 1; 0; 0] sc end).
  { unfold construct in Hcon. rewrite Hi, HT, Ht, Hh in Hcon. unfold set_transition_weighting in Hcon.
    destruct (mc_weights c) as [[wh wv]|].
    - destruct (length wv <? length wh)%nat; [discriminate|]. destruct (length wv =? length wh)%nat; [|discriminate].
      cbn [obind ms_variable ms_scale ms_height ms_thickness ms_wh ms_wv ms_bh ms_bv] in Hcon. unfold sc, bh.
      destruct (mc_norm c); injection Hcon as <-; reflexivity.
    - cbn [obind ms_variable ms_scale ms_height ms_thickness ms_wh ms_wv ms_bh ms_bv] in Hcon. unfold sc, bh.
      destruct (mc_norm c); injection Hcon as <-; reflexivity. }
  assert (Hsc : ~ sc == 0).
  { unfold sc. destruct (mc_norm c); [|discriminate]. intros K. specialize (Hn eq_refl).
    assert (1 / mc_zmax c * mc_zmax c == 1) by (field; exact Hn). rewrite K in H. lra. }
  destruct (linear_list_ext bh [1; 1; 0; 0] (ramp h t) zs) as (B & EB & LB & KB).
  { intros z Hin. destruct (Hzs z Hin). apply ramp_table; lra. }
  unfold regression_weights in HW. unfold update_weights. rewrite HT.
  destruct (mc_weights c) as [[wh wv]|].
  - destruct HW as (EW & OW). rewrite Es. cbn [ms_variable ms_height ms_thickness ms_wh ms_wv ms_bh ms_bv ms_scale].
    split; [reflexivity|]. split; [reflexivity|]. split; [reflexivity|].
    pose proof (linear_list_length _ _ _ _ EW) as LW.
    destruct (fit_close W W zs sc e LW LW Le) as (p & x0 & x1 & x2 & x3 & Ep & Lp & Kp & Mp); auto; [intros; reflexivity|apply weights_rows; exact OW|].
    exists W, B, p, x0, x1, x2, x3. rewrite EW, EB. cbn [obind]. repeat (split; [first [reflexivity|assumption]|]). exact Mp.
  - rewrite Es. cbn [ms_variable ms_height ms_thickness ms_wh ms_wv ms_bh ms_bv ms_scale].
    split; [reflexivity|]. split; [reflexivity|]. split; [reflexivity|]. subst W.
    assert (LW : length (map (ramp h t) zs) = length zs) by apply map_length.
    assert (HrW : forall r, In r (rows (map (ramp h t) zs) zs e) -> 0 <= rw r).
    { intros r Hr. destruct (rows_in _ zs e r Hr) as (A & _). apply in_map_iff in A. destruct A as (z & <- & _). apply ramp_range. lra. }
    destruct (fit_close B (map (ramp h t) zs) zs sc e LB LW Le) as (p & x0 & x1 & x2 & x3 & Ep & Lp & Kp & Mp); auto.
    { intros i Hlt. rewrite qnth_map by exact Hlt. apply KB; exact Hlt. }
    exists B, B, p, x0, x1, x2, x3. rewrite EB. cbn [obind]. repeat (split; [first [reflexivity|assumption]|]). exact Mp.
Qed.
(** With a fixed transition layer: up to its bottom the forcing is a cubic, from its top on the
    direct error, in between a convex combination; and the cubic has the smallest squared error
    with the weights of the regression. *)
Theorem c81_blend : forall c s f time dt zs means e h t W,
  construct c = Ret s -> indirect c = true -> to_direct c = true -> to_constant c = false ->
  mc_thickness c = Some t -> mc_height c = Some h -> (mc_norm c = true -> ~ mc_zmax c == 0) ->
  mc_zmin c <= h -> feps < t -> h + t <= mc_zmax c -> (forall z, In z zs -> mc_zmin c <= z /\ z <= mc_zmax c) ->
  errors f time zs means = Ret e -> regression_weights c h t zs W -> four_heights (rows W zs e) ->
  exists r x0 x1 x2 x3, profile Temperature c s f time dt zs means = Ret (Some r) /\ length r = length zs /\
    (forall i, (i < length zs)%nat -> let z := qnth zs i in let p := cubic x0 x1 x2 x3 z in
       (z <= h -> qnth r i == p * mc_gain c / dt) /\
       (h + t <= z -> qnth r i == qnth e i * mc_gain c / dt) /\
       (h < z -> z < h + t -> qnth r i == ((h + t - z) / t * p + (z - h) / t * qnth e i) * mc_gain c / dt)) /\
    (forall y0 y1 y2 y3, misfit (rows W zs e) (cubic x0 x1 x2 x3) <= misfit (rows W zs e) (cubic y0 y1 y2 y3)).
Proof.
  intros c s f time dt zs means e h t W Hcon Hi Hd Hc Ht Hh Hn Hz1 Htp Hz2 Hzs He HW H4.
  pose proof feps_pos as Fp.
  assert (HT : have_transition c = true).
  { unfold have_transition, to_direct in *. destruct (String.eqb (to_lower (transition c)) "none") eqn:E; [|reflexivity].
    apply String.eqb_eq in E. rewrite E in Hd. discriminate. }
  pose proof (errors_length _ _ _ _ _ He) as Le.
  destruct (layer_fit c s zs e h t W) as (V & _ & _ & U & B & p & x0 & x1 & x2 & x3 & EU & LB & KB & Ep & Lp & Kp & Mp); auto.
  exists (map (fun x => x * mc_gain c / dt) (blend B p e)), x0, x1, x2, x3.
  split; [|split; [|split; [|exact Mp]]].
  - unfold profile. rewrite He, Hi; cbn [obind]. unfold current_state. rewrite V; cbn [obind]. rewrite EU; cbn [obind fst snd].
    rewrite Ep; cbn [obind fst snd]. rewrite Hd, Hc; cbn [obind option_map]. reflexivity.
  - rewrite map_length, blend_length; lia.
  - intros i Hlt z pz. rewrite qnth_map by (rewrite blend_length; lia). rewrite blend_nth by lia.
    rewrite (KB i Hlt), (Kp i Hlt). fold z. fold pz. unfold ramp.
    assert (Ti : ~ t == 0) by lra.
    split; [intros A|split; [intros A|intros A A']].
    + rewrite (proj2 (Qleb_true z h) A). unfold Qdiv. ring.
    + rewrite (proj2 (Qleb_false z h)) by lra. rewrite (proj2 (Qleb_true (h + t) z) A). unfold Qdiv. ring.
    + rewrite (proj2 (Qleb_false z h)) by lra. rewrite (proj2 (Qleb_false (h + t) z)) by lra.
      assert (K : (z - h) / t == 1 - (h + t - z) / t) by (field; exact Ti). rewrite K. unfold Qdiv. ring.
Qed.

(** Without a transition and without given weights all heights count alike, for momentum too. *)
Lemma ones_table : forall zmin zmax zs, zmin < zmax -> (forall z, In z zs -> zmin <= z /\ z <= zmax) ->
  exists W, linear_list [zmin; zmax] [1; 1] zs 1 0 = Ret W /\ length W = length zs /\ forall i, (i < length zs)%nat -> qnth W i == 1.
Proof.
  intros zmin zmax zs Hz Hin. destruct (linear_list_ext [zmin; zmax] [1; 1] (fun _ => 1) zs) as (W & E & L & K).
  - intros z Hz'. destruct (linear_total [zmin; zmax] [1; 1] z 1 0) as (v & V); [|discriminate|reflexivity|lia|].
    { intros i j a b Hij Ha Hb. unfold at_ in *. destruct i as [|[|i]]; cbn in Ha; try (destruct i; discriminate); injection Ha as <-;
      (destruct j as [|[|j]]; cbn in Hb; try lia; try (destruct j; discriminate); injection Hb as <-; lra). }
    exists v. split; [exact V|]. 
    assert (R : forall i y, rd [1; 1] i = Ret y -> y = 1).
    { intros i y Ey. unfold rd in Ey. destruct i as [|[|i]]; cbn in Ey; try (injection Ey as <-; reflexivity). destruct i; discriminate. }
    unfold linear in V. destruct (bisection_search [zmin; zmax] z) as [j| |]; cbn [obind] in V; try discriminate. unfold linear_impl in V.
    destruct (lim j).
    + apply R in V. rewrite V. reflexivity.
    + apply R in V. rewrite V. reflexivity.
    + destruct (rd [zmin; zmax] (Interp.ix j + 1)) as [x1| |]; cbn [obind] in V; try discriminate.
      destruct (rd [zmin; zmax] (Interp.ix j)) as [x0| |]; cbn [obind] in V; try discriminate.
      destruct (rd [1; 1] (1 * Interp.ix j + 0)) as [y0| |] eqn:Y0; cbn [obind] in V; try discriminate.
      destruct (rd [1; 1] (1 * (Interp.ix j + 1) + 0)) as [y1| |] eqn:Y1; cbn [obind] in V; try discriminate.
      injection V as <-. rewrite (R _ _ Y0), (R _ _ Y1). ring.
  - exists W. auto.
Qed.
Lemma ones_nth : forall (zs : list Q) i, (i < length zs)%nat -> qnth (map (fun _ => 1) zs) i = 1.
Proof. intros zs i H. rewrite (qnth_map (fun _ => 1)) by exact H. reflexivity. Qed.
Theorem c81_plain : forall k c s f time dt zs means e,
  construct c = Ret s -> indirect c = true -> mc_transition c = None -> mc_weights c = None ->
  (mc_norm c = true -> ~ mc_zmax c == 0) -> mc_zmin c < mc_zmax c -> (forall z, In z zs -> mc_zmin c <= z /\ z <= mc_zmax c) ->
  errors f time zs means = Ret e -> (4 <= length zs)%nat ->
  let W := map (fun _ => 1) zs in
  four_heights (rows W zs e) ->
  exists r x0 x1 x2 x3, profile k c s f time dt zs means = Ret (Some r) /\ length r = length zs /\
    (forall i, (i < length zs)%nat -> qnth r i == cubic x0 x1 x2 x3 (qnth zs i) * mc_gain c / dt) /\
    (forall y0 y1 y2 y3, misfit (rows W zs e) (cubic x0 x1 x2 x3) <= misfit (rows W zs e) (cubic y0 y1 y2 y3)).
Proof.
  intros k c s f time dt zs means e Hcon Hi Htr Hw Hn Hz Hzs He H4l W H4.
  assert (HT : have_transition c = false) by (unfold have_transition, transition; rewrite Htr; reflexivity).
  assert (Hd : to_direct c = false) by (unfold to_direct, transition; rewrite Htr; reflexivity).
  assert (Hc : to_constant c = false) by (unfold to_constant, transition; rewrite Htr; reflexivity).
  set (sc := if mc_norm c then 1 / mc_zmax c else 1 # 1000).
  assert (Es : s = MS None None false [mc_zmin c; mc_zmax c] [1; 1] [] [] sc).
  { unfold construct in Hcon. rewrite Hi, HT, Hw in Hcon. cbn [obind ms_variable ms_scale ms_height ms_thickness ms_wh ms_wv ms_bh ms_bv] in Hcon.
    unfold sc. destruct (mc_norm c); injection Hcon as <-; reflexivity. }
  assert (Hsc : ~ sc == 0).
  { unfold sc. destruct (mc_norm c); [|discriminate]. intros K. specialize (Hn eq_refl).
    assert (1 / mc_zmax c * mc_zmax c == 1) by (field; exact Hn). rewrite K in H. lra. }
  destruct (ones_table (mc_zmin c) (mc_zmax c) zs Hz Hzs) as (B & EB & LB & KB).
  pose proof (errors_length _ _ _ _ _ He) as Le.
  assert (LW : length W = length zs) by apply map_length.
  assert (HrW : forall r, In r (rows W zs e) -> 0 <= rw r).
  { intros r Hr. destruct (rows_in W zs e r Hr) as (A & _). apply in_map_iff in A. destruct A as (z & <- & _). discriminate. }
  destruct (fit_close B W zs sc e LB LW Le) as (p & x0 & x1 & x2 & x3 & Ep & Lp & Kp & Mp); auto.
  { intros i Hlt. unfold W. rewrite ones_nth by exact Hlt. apply KB; exact Hlt. }
  assert (Fk : exists p', fit k B zs sc e = Ret (Some p') /\ length p' = length p /\ forall i, qnth p' i == qnth p i).
  { destruct k; [|exists p; split; [exact Ep|split; [reflexivity|intros; reflexivity]]].
    apply (c81_momentum_uniform B zs sc e 1 p); auto.
    intros x Hx. destruct (In_nth B x 0 Hx) as (i & I1 & <-). apply (KB i). lia. }
  destruct Fk as (p' & Ep' & Lp' & Kp').
  exists (map (fun x => x * mc_gain c / dt) p'), x0, x1, x2, x3.
  split; [|split; [rewrite map_length; lia|split; [|exact Mp]]].
  - unfold profile. rewrite He, Hi; cbn [obind]. unfold current_state. rewrite Es; cbn [ms_variable obind ms_scale]. unfold update_weights.
    cbn [ms_wh ms_wv ms_bh ms_bv]. rewrite HT, EB; cbn [obind fst snd]. rewrite Ep'; cbn [obind fst snd].
    rewrite Hd, Hc; cbn [obind option_map]. reflexivity.
  - intros i Hlt. rewrite qnth_map by lia. rewrite (Kp' i), (Kp i Hlt). reflexivity.
Qed.
(** A transition height from the file acts like a fixed one of the value it has at that time. *)
Theorem c81_variable : forall k c s f time dt zs means tr h, construct c = Ret s -> indirect c = true -> have_transition c = true ->
  mc_height c = None -> me_trans f = Some tr -> linear (me_times f) tr time 1 0 = Ret h ->
  let c' := MC (mc_scheme c) (mc_gain c) (mc_transition c) (mc_weights c) (mc_thickness c) (Some h) (mc_norm c) (mc_zmin c) (mc_zmax c) in
  exists s', construct c' = Ret s' /\ profile k c s f time dt zs means = profile k c' s' f time dt zs means.
Proof.
  intros k c s f time dt zs means tr h Hs Hi Ht Hh Hf Hl c'.
  assert (Hi' : indirect c' = true) by exact Hi.
  assert (Ht' : have_transition c' = true) by exact Ht.
  unfold construct in *. rewrite Hi, Ht, Hh in Hs. rewrite Hi', Ht'.
  change (mc_weights c') with (mc_weights c). change (mc_thickness c') with (mc_thickness c). change (mc_height c') with (Some h).
  change (mc_norm c') with (mc_norm c). change (mc_zmin c') with (mc_zmin c). change (mc_zmax c') with (mc_zmax c).
  assert (E : forall s', ms_variable s' = false ->
    current_state c s f time = Ret (MS (ms_height s') (ms_thickness s') true (ms_wh s') (ms_wv s') (ms_bh s') (ms_bv s') (ms_scale s')) ->
    profile k c s f time dt zs means = profile k c' s' f time dt zs means).
  { intros s' V Cs. unfold profile. change (indirect c') with (indirect c). rewrite Hi, Cs. unfold current_state. rewrite V.
    destruct (errors f time zs means) as [e| |]; cbn [obind]; try reflexivity.
    unfold update_weights. change (have_transition c') with (have_transition c). rewrite Ht. cbn [ms_wh ms_wv ms_bh ms_bv ms_scale].
    destruct (linear_list (ms_wh s') (ms_wv s') zs 1 0) as [W| |]; cbn [obind]; try reflexivity.
    destruct (linear_list (ms_bh s') (ms_bv s') zs 1 0) as [B| |]; cbn [obind]; try reflexivity.
    cbn [fst snd]. destruct (fit k W zs (ms_scale s') e) as [r| |]; cbn [obind]; reflexivity. }
  destruct (mc_weights c) as [[wh wv]|] eqn:Ew.
  - destruct (length wv <? length wh)%nat; [discriminate|]. destruct (length wv =? length wh)%nat; [|discriminate]. cbn [obind] in *.
    destruct (mc_thickness c) as [t|]; [|discriminate]. cbn [obind ms_height ms_thickness ms_variable ms_wh ms_wv ms_bh ms_bv ms_scale] in *.
    unfold set_transition_weighting. change (mc_weights c') with (Some (wh, wv)).
    cbn [obind ms_height ms_thickness ms_variable ms_wh ms_wv ms_bh ms_bv ms_scale].
    destruct (mc_norm c); injection Hs as <-; (eexists; split; [reflexivity|]); apply E; try reflexivity;
    unfold current_state, trans_table; cbn [ms_variable ms_thickness]; rewrite Hf, Hl; cbn [obind];
    unfold set_transition_weighting; rewrite Ew; reflexivity.
  - cbn [obind] in *.
    destruct (mc_thickness c) as [t|]; [|discriminate]. cbn [obind ms_height ms_thickness ms_variable ms_wh ms_wv ms_bh ms_bv ms_scale] in *.
    unfold set_transition_weighting. change (mc_weights c') with (@None (list Q * list Q)).
    cbn [obind ms_height ms_thickness ms_variable ms_wh ms_wv ms_bh ms_bv ms_scale].
    destruct (mc_norm c); injection Hs as <-; (eexists; split; [reflexivity|]); apply E; try reflexivity;
    unfold current_state, trans_table; cbn [ms_variable ms_thickness]; rewrite Hf, Hl; cbn [obind];
    unfold set_transition_weighting; rewrite Ew; reflexivity.
Qed.
(** Given weights are those of the regression, with a fixed or a varying transition height or none;
    as many values as heights are needed. *)
Theorem c81_weights : forall c s s1 f time zs W B wh wv, construct c = Ret s -> indirect c = true -> mc_weights c = Some (wh, wv) ->
  current_state c s f time = Ret s1 -> update_weights c s1 zs = Ret (W, B) ->
  length wv = length wh /\ linear_list wh wv zs 1 0 = Ret W.
Proof.
  intros c s s1 f time zs W B wh wv Hs Hi Hw Hc Hu. unfold construct in Hs. rewrite Hi, Hw in Hs.
  destruct (length wv <? length wh)%nat; [discriminate|]. destruct (length wv =? length wh)%nat eqn:El; [|discriminate].
  apply Nat.eqb_eq in El. split; [exact El|]. cbn [obind] in Hs.
  assert (A : ms_wh s = wh /\ ms_wv s = wv).
  { destruct (have_transition c).
    - destruct (mc_thickness c); [|discriminate]. destruct (mc_height c); unfold set_transition_weighting in Hs; try rewrite Hw in Hs; cbn [obind ms_wh ms_wv] in Hs;
      destruct (mc_norm c); injection Hs as <-; split; reflexivity.
    - cbn [obind ms_wh ms_wv] in Hs. destruct (mc_norm c); injection Hs as <-; split; reflexivity. }
  destruct A as (A1 & A2).
  assert (B1 : ms_wh s1 = wh /\ ms_wv s1 = wv).
  { unfold current_state in Hc. destruct (ms_variable s); [|injection Hc as <-; split; assumption].
    destruct (linear (me_times f) (trans_table f) time 1 0); cbn [obind] in Hc; try discriminate.
    destruct (ms_thickness s); [|discriminate]. unfold set_transition_weighting in Hc. rewrite Hw in Hc. injection Hc as <-. split; assumption. }
  destruct B1 as (B1 & B2). unfold update_weights in Hu. rewrite B1, B2 in Hu.
  destruct (linear_list wh wv zs 1 0) as [W'| |]; cbn [obind] in Hu; try discriminate.
  destruct (have_transition c).
  - destruct (linear_list (ms_bh s1) (ms_bv s1) zs 1 0); cbn [obind] in Hu; try discriminate. injection Hu as <- <-. reflexivity.
  - injection Hu as <- <-. reflexivity.
Qed.
(** With fewer values than heights the start-up message reads past the end before the check. *)
Theorem c81_weights_short_refuted : forall c wh wv, indirect c = true -> mc_weights c = Some (wh, wv) -> (length wv < length wh)%nat ->
  construct c = UB.
Proof. intros c wh wv Hi Hw Hl. unfold construct. rewrite Hi, Hw. apply Nat.ltb_lt in Hl. rewrite Hl. reflexivity. Qed.
(** A transition needs its thickness. *)
Theorem c81_thickness : forall c, indirect c = true -> have_transition c = true -> mc_weights c = None ->
  (mc_thickness c = None <-> construct c = Abort).
Proof.
  intros c Hi Ht Hw. unfold construct. rewrite Hi, Ht, Hw. cbn [obind]. destruct (mc_thickness c) as [t|].
  - split; [discriminate|]. intros H. destruct (mc_height c); cbn [obind] in H; destruct (mc_norm c); discriminate.
  - split; reflexivity.
Qed.
(** The surface flux for the wall model is the tabulated one at the times of the table. *)
Theorem c81_surface_flux : forall f i, increasing (me_times f) -> spaced (me_times f) -> (2 <= length (me_times f))%nat ->
  length (me_tflux f) = length (me_times f) -> (i < length (me_times f))%nat ->
  exists v, surface_flux f (qnth (me_times f) i) = Ret v /\ v == qnth (me_tflux f) i.
Proof.
  intros f i Hi Hs H2 Hl Hlt.
  apply (linear_node (me_times f) (me_tflux f) 1 0 i); auto; [lia| | |].
  - apply at_nth; exact Hlt.
  - replace (1 * i + 0)%nat with i by lia. apply at_nth. lia.
  - intros _ a b A B. apply (Hs 0%nat); assumption.
Qed.

(** ** Transition to a constant *)

Lemma ct_eq : forall zs h t e, zs <> [] -> constant_transition zs h t e =
    let '(b1, bm) := levels zs h t in
    let found := match fst (find_levels zs h t 0 None) with Some _ => true | None => false end in
    if (found && (b1 =? 0)%nat)%bool then UB else
    let b0 := if found then (b1 - 1)%nat else b1 in
    if Qeq_bool (qnth zs b1 - qnth zs b0) 0 then Ret None else
    if Qeq_bool (qnth zs bm - qnth zs b1) 0 then Ret None else
    let slope0 := (qnth e b1 - qnth e b0) / (qnth zs b1 - qnth zs b0) in
    let dslope := - slope0 / (qnth zs bm - qnth zs b1) in
    let e' := march zs slope0 dslope b1 (S bm - b1) b1 e in
    Ret (Some (firstn (S bm) e' ++ map (fun _ => qnth e' bm) (skipn (S bm) e'))).
Proof. intros [|z zs] h t e H; [congruence|reflexivity]. Qed.
(** Heights increase, the bottom of the layer lies above the first height and not above the last
    but one; [b] is the first level at or above it.  Up to [b] nothing changes; from there to a
    top level [m] the slope falls linearly in the height from that below [b] to zero; above [m]
    the forcing is constant.  [m] is the first level after [b] at or above the top of the layer,
    or the last level. *)
Theorem c81_constant : forall zs h t e b, increasing zs -> length e = length zs -> 0 <= t ->
  (0 < b)%nat -> (S b < length zs)%nat -> qnth zs (b - 1) < h -> h <= qnth zs b ->
  exists r m, constant_transition zs h t e = Ret (Some r) /\ length r = length zs /\
    (b < m < length zs)%nat /\ (h + t <= qnth zs m \/ m = (length zs - 1)%nat) /\ (forall j, (b < j < m)%nat -> qnth zs j < h + t) /\
    (forall j, (j <= b)%nat -> qnth r j == qnth e j) /\
    (forall j, (b < j <= m)%nat ->
       qnth r j - qnth r (j - 1) == (qnth zs j - qnth zs (j - 1)) *
         ((qnth e b - qnth e (b - 1)) / (qnth zs b - qnth zs (b - 1))) * ((qnth zs m - qnth zs j) / (qnth zs m - qnth zs b))) /\
    (forall j, (m <= j < length zs)%nat -> qnth r j == qnth r m).
Proof.
  intros zs h t e b Hinc He Ht Hb0 Hbn Hlo Hhi. pose proof (increasing_rising zs Hinc) as Hr.
  destruct (find_levels zs h t 0 None) as [bo mo] eqn:F. pose proof (find_none zs h t 0 bo mo Ht F) as K.
  destruct bo as [b'|]; [|exfalso; specialize (K b ltac:(lia)); lra].
  replace (b' - 0)%nat with b' in K by lia. destruct K as (A & B & C & D).
  assert (Eb : b' = b).
  { destruct (Nat.lt_trichotomy b' b) as [G|[G|G]]; [|exact G|].
    - exfalso. destruct (Nat.eq_dec b' (b - 1)) as [->|N]; [lra|]. pose proof (Hr b' (b - 1)%nat ltac:(lia) ltac:(lia)). lra.
    - exfalso. specialize (C b ltac:(lia)). lra. }
  subst b'.
  set (m := match mo with Some m => m | None => (length zs - 1)%nat end).
  assert (Hm : (b < m < length zs)%nat) by (unfold m; destruct mo as [m'|]; [destruct D as (D1 & _); lia|lia]).
  assert (Hlev : levels zs h t = (b, m)) by (unfold levels; rewrite F; unfold m; destruct mo; reflexivity).
  pose proof (Hr (b - 1)%nat b ltac:(lia) ltac:(lia)) as S1. pose proof (Hr b m ltac:(lia) ltac:(lia)) as S2.
  set (s0 := (qnth e b - qnth e (b - 1)) / (qnth zs b - qnth zs (b - 1))).
  set (ds := - s0 / (qnth zs m - qnth zs b)).
  destruct (march_spec (S m - b) zs s0 ds b b e ltac:(lia) ltac:(lia)) as (M1 & M2 & M3).
  set (e' := march zs s0 ds b (S m - b) b e) in *.
  exists (firstn (S m) e' ++ map (fun _ => qnth e' m) (skipn (S m) e')), m.
  assert (R1 : forall j, (j <= m)%nat -> qnth (firstn (S m) e' ++ map (fun _ => qnth e' m) (skipn (S m) e')) j = qnth e' j).
  { intros j Hj. unfold qnth. rewrite app_nth1 by (rewrite firstn_length; lia).
    rewrite <- (firstn_skipn (S m) e') at 2. rewrite app_nth1 by (rewrite firstn_length; lia). reflexivity. }
  assert (Rb : qnth e' b == qnth e b).
  { rewrite (M3 b) by lia. rewrite (M2 (b - 1)%nat) by lia. unfold s0. field. lra. }
  split; [|split; [|split; [|split; [|split; [|split; [|split]]]]]].
  - rewrite ct_eq by (intros ->; simpl in Hbn; lia).
    rewrite Hlev, F; cbn [fst]. replace (b =? 0)%nat with false by (symmetry; apply Nat.eqb_neq; lia). cbn [andb]. cbv iota.
    destruct (Qeq_bool (qnth zs b - qnth zs (b - 1)) 0) eqn:Q1; [apply Qeq_bool_eq in Q1; lra|].
    destruct (Qeq_bool (qnth zs m - qnth zs b) 0) eqn:Q2; [apply Qeq_bool_eq in Q2; lra|]. reflexivity.
  - rewrite app_length, map_length, <- app_length, firstn_skipn. lia.
  - exact Hm.
  - unfold m. destruct mo as [m'|]; [left|right; reflexivity]. destruct D as (_ & D2 & _). replace (m' - 0)%nat with m' in D2 by lia. exact D2.
  - intros j Hj. unfold m in Hj. destruct mo as [m'|]; [destruct D as (_ & _ & D3); apply D3; lia|apply D; lia].
  - intros j Hj. rewrite R1 by lia. destruct (Nat.eq_dec j b) as [->|N]; [exact Rb|]. rewrite M2 by lia. reflexivity.
  - intros j Hj. rewrite !R1 by lia. rewrite (M3 j) by lia. unfold ds. fold s0. field. lra.
  - intros j Hj. rewrite (R1 m) by lia. destruct (Nat.eq_dec j m) as [->|N]; [rewrite R1 by lia; reflexivity|].
    unfold qnth at 1. rewrite app_nth2 by (rewrite firstn_length; lia).
    rewrite (nth_indep _ 0 (qnth e' m)) by (rewrite map_length, skipn_length, firstn_length; lia).
    rewrite (map_nth (fun _ => qnth e' m) (skipn (S m) e') 0). reflexivity.
Qed.
(** The forcing itself: the cubic of the regression up to level [b], then the same transition. *)
Theorem c81_constant_forcing : forall c s f time dt zs means e h t W b,
  construct c = Ret s -> indirect c = true -> have_transition c = true -> to_direct c = false -> to_constant c = true ->
  mc_thickness c = Some t -> mc_height c = Some h -> (mc_norm c = true -> ~ mc_zmax c == 0) ->
  mc_zmin c <= h -> feps < t -> h + t <= mc_zmax c -> (forall z, In z zs -> mc_zmin c <= z /\ z <= mc_zmax c) ->
  errors f time zs means = Ret e -> regression_weights c h t zs W -> four_heights (rows W zs e) ->
  increasing zs -> (0 < b)%nat -> (S b < length zs)%nat -> qnth zs (b - 1) < h -> h <= qnth zs b ->
  exists r m x0 x1 x2 x3, profile Temperature c s f time dt zs means = Ret (Some r) /\ length r = length zs /\
    (b < m < length zs)%nat /\ (h + t <= qnth zs m \/ m = (length zs - 1)%nat) /\ (forall j, (b < j < m)%nat -> qnth zs j < h + t) /\
    (forall j, (j <= b)%nat -> qnth r j == cubic x0 x1 x2 x3 (qnth zs j) * mc_gain c / dt) /\
    (forall j, (b < j <= m)%nat ->
       qnth r j - qnth r (j - 1) == (qnth zs j - qnth zs (j - 1)) *
         ((qnth r b - qnth r (b - 1)) / (qnth zs b - qnth zs (b - 1))) * ((qnth zs m - qnth zs j) / (qnth zs m - qnth zs b))) /\
    (forall j, (m <= j < length zs)%nat -> qnth r j == qnth r m) /\
    (forall y0 y1 y2 y3, misfit (rows W zs e) (cubic x0 x1 x2 x3) <= misfit (rows W zs e) (cubic y0 y1 y2 y3)).
Proof.
  intros c s f time dt zs means e h t W b Hcon Hi HT Hd Hc Ht Hh Hn Hz1 Htp Hz2 Hzs He HW H4 Hinc Hb0 Hbn Hlo Hhi.
  pose proof feps_pos as Fp. pose proof (errors_length _ _ _ _ _ He) as Le.
  destruct (layer_fit c s zs e h t W) as (V & Vh & Vt & U & B & p & x0 & x1 & x2 & x3 & EU & LB & KB & Ep & Lp & Kp & Mp); auto.
  destruct (c81_constant zs h t p b) as (q & m & Eq & Lq & Hm & Hm1 & Hm2 & Q1 & Q2 & Q3); auto; [lra|].
  exists (map (fun x => x * mc_gain c / dt) q), m, x0, x1, x2, x3.
  split; [|split; [rewrite map_length; exact Lq|split; [exact Hm|split; [exact Hm1|split; [exact Hm2|split; [|split; [|split; [|exact Mp]]]]]]]].
  - unfold profile. rewrite He, Hi; cbn [obind]. unfold current_state. rewrite V; cbn [obind]. rewrite EU; cbn [obind fst snd].
    rewrite Ep; cbn [obind fst snd]. rewrite Hd, Hc, Vh, Vt, Eq; cbn [obind option_map]. reflexivity.
  - intros j Hj. rewrite qnth_map by lia. rewrite (Q1 j Hj), (Kp j ltac:(lia)). reflexivity.
  - intros j Hj. rewrite !qnth_map by lia.
    transitivity ((qnth q j - qnth q (j - 1)) * (mc_gain c / dt)); [unfold Qdiv; ring|]. rewrite (Q2 j Hj).
    rewrite (Q1 b) by lia. rewrite (Q1 (b - 1)%nat) by lia. unfold Qdiv. ring.
  - intros j Hj. rewrite !qnth_map by lia. rewrite (Q3 j Hj). reflexivity.
Qed.
(** A layer that starts at or below the first height: entry -1 of the profile is read. *)
Theorem c81_constant_bottom_refuted : forall zs h t e, zs <> [] -> 0 <= t -> h <= qnth zs 0 -> constant_transition zs h t e = UB.
Proof.
  intros zs h t e Hne Ht Hh. unfold constant_transition. destruct zs as [|z zs]; [congruence|].
  unfold levels. cbn [find_levels]. rewrite (proj2 (Qleb_true h z) Hh).
  destruct (find_levels zs h t 1 (Some 0%nat)) as [bo mo] eqn:F. destruct (find_some _ _ _ _ _ _ _ F) as (-> & _).
  destruct mo; reflexivity.
Qed.
(** A layer that starts above the last height but one: the top entry is not a number. *)
Theorem c81_constant_top_refuted : forall zs h t e, increasing zs -> (2 <= length zs)%nat -> 0 <= t -> qnth zs (length zs - 2) < h ->
  constant_transition zs h t e = Ret None.
Proof.
  intros zs h t e Hinc Hl Ht Hh. pose proof (increasing_rising zs Hinc) as Hr.
  rewrite ct_eq by (intros ->; simpl in Hl; lia).
  unfold levels. destruct (find_levels zs h t 0 None) as [bo mo] eqn:F. pose proof (find_none zs h t 0 bo mo Ht F) as K.
  destruct bo as [b|]; cbn [fst].
  - replace (b - 0)%nat with b in K by lia. destruct K as (A & B & C & D).
    assert (Eb : b = (length zs - 1)%nat).
    { destruct (Nat.lt_ge_cases b (length zs - 1)) as [G|G]; [|lia]. exfalso.
      destruct (Nat.eq_dec b (length zs - 2)) as [->|N]; [lra|]. pose proof (Hr b (length zs - 2)%nat ltac:(lia) ltac:(lia)). lra. }
    destruct mo as [m|]; [destruct D as (D1 & _); lia|].
    replace (b =? 0)%nat with false by (symmetry; apply Nat.eqb_neq; lia). cbn [andb]. cbv iota.
    pose proof (Hr (b - 1)%nat b ltac:(lia) ltac:(lia)) as S1.
    destruct (Qeq_bool (qnth zs b - qnth zs (b - 1)) 0) eqn:Q1; [reflexivity|].
    rewrite Eb. assert (Q2 : Qeq_bool (qnth zs (length zs - 1) - qnth zs (length zs - 1)) 0 = true) by (apply Qeq_bool_iff; ring).
    rewrite Q2. reflexivity.
  - cbn [andb]. cbv iota.
    assert (Q2 : Qeq_bool (qnth zs (length zs - 1) - qnth zs (length zs - 1)) 0 = true) by (apply Qeq_bool_iff; ring).
    rewrite Q2. reflexivity.
Qed.

Lemma direct_none : forall c s, indirect c = false -> construct c = Ret s -> ms_height s = None.
Proof. intros c s H E. unfold construct in E. rewrite H in E. injection E as <-. reflexivity. Qed.
(** Direct assimilation with a transition to a constant reads a height that was never set. *)
Theorem c81_direct_constant_refuted : forall k c s f time dt zs means e, indirect c = false -> to_constant c = true ->
  construct c = Ret s -> errors f time zs means = Ret e -> profile k c s f time dt zs means = UB.
Proof.
  intros k c s f time dt zs means e Hi Hc Hs He. unfold profile. rewrite He, Hi, Hc; cbn [obind fst snd].
  rewrite (direct_none c s Hi Hs). reflexivity.
Qed.
(** The transition to a constant is recognised by case, unlike the other keywords: in lower case
    the weights are those of the transition and the forcing above it is the cubic. *)
Theorem c81_case_refuted : exists s, to_lower s = to_lower "indirectToConstant" /\
  forall c, mc_transition c = Some s -> have_transition c = true /\ to_constant c = false.
Proof.
  exists "indirecttoconstant"%string. split; [reflexivity|]. intros c H. unfold have_transition, to_constant, transition. rewrite H. split; reflexivity.
Qed.

Lemma linear_zero : forall xs x v, linear xs (map (fun _ => 0) xs) x 1 0 = Ret v -> v == 0.
Proof.
  intros xs x v H. assert (R : forall i y, rd (map (fun _ : Q => 0) xs) i = Ret y -> y = 0).
  { intros i y E. unfold rd in E. destruct (nth_error (map (fun _ : Q => 0) xs) i) as [a|] eqn:N; [|discriminate].
    injection E as <-. apply nth_error_In in N. apply in_map_iff in N. destruct N as (_ & <- & _). reflexivity. }
  unfold linear in H. destruct (bisection_search xs x) as [j| |]; cbn [obind] in H; try discriminate. unfold linear_impl in H.
  destruct (lim j).
  - apply R in H. rewrite H. reflexivity.
  - apply R in H. rewrite H. reflexivity.
  - destruct (rd xs (Interp.ix j + 1)) as [x1| |]; cbn [obind] in H; try discriminate.
    destruct (rd xs (Interp.ix j)) as [x0| |]; cbn [obind] in H; try discriminate.
    destruct (rd _ (1 * Interp.ix j + 0)) as [y0| |] eqn:Y0; cbn [obind] in H; try discriminate.
    destruct (rd _ (1 * (Interp.ix j + 1) + 0)) as [y1| |] eqn:Y1; cbn [obind] in H; try discriminate.
    injection H as <-. rewrite (R _ _ Y0), (R _ _ Y1). ring.
Qed.
(** A transition height that varies in time is asked for by leaving out
    constant_transition_height.  If the file has none either, a height of zero is taken without a
    word, and a transition to a constant has no defined result on any grid above the ground. *)
Theorem c81_variable_missing_refuted : forall k c s f time dt zs means r, construct c = Ret s -> indirect c = true ->
  to_constant c = true -> ms_variable s = true -> (forall t, mc_thickness c = Some t -> 0 <= t) -> me_trans f = None ->
  zs <> [] -> 0 <= qnth zs 0 -> profile k c s f time dt zs means <> Ret (Some r).
Proof.
  intros k c s f time dt zs means r Hs Hi Hc Hv Ht Hf Hne Hz H. unfold profile in H. rewrite Hi, Hc in H.
  destruct (errors f time zs means) as [e| |]; cbn [obind] in H; try discriminate.
  destruct (current_state c s f time) as [s1| |] eqn:S1; cbn [obind] in H; try discriminate.
  destruct (update_weights c s1 zs) as [WB| |]; cbn [obind] in H; try discriminate.
  destruct (fit k (fst WB) zs (ms_scale s1) e) as [p| |]; cbn [obind fst snd] in H; try discriminate.
  destruct p as [p|]; cbn [obind option_map] in H; [|discriminate].
  unfold current_state in S1. rewrite Hv in S1. unfold trans_table in S1. rewrite Hf in S1.
  destruct (linear (me_times f) (map (fun _ => 0) (me_times f)) time 1 0) as [h| |] eqn:L; cbn [obind] in S1; try discriminate.
  destruct (ms_thickness s) as [t|] eqn:Et; [|discriminate].
  assert (T0 : 0 <= t).
  { apply Ht. unfold construct in Hs. rewrite Hi in Hs.
    destruct (mc_thickness c) as [t'|].
    - assert (ms_thickness s = Some t' \/ ms_thickness s = None) as [K|K]; [|congruence|congruence].
      destruct (mc_weights c) as [[wh wv]|]; [destruct (length wv <? length wh)%nat; [discriminate|]; destruct (length wv =? length wh)%nat; [|discriminate]|];
      cbn [obind] in Hs; (destruct (have_transition c); [destruct (mc_height c)|]);
      unfold set_transition_weighting in Hs; try (destruct (mc_weights c)); cbn [obind ms_height ms_thickness] in Hs;
      destruct (mc_norm c); injection Hs as <-; auto.
    - exfalso. destruct (mc_weights c) as [[wh wv]|]; [destruct (length wv <? length wh)%nat; [discriminate|]; destruct (length wv =? length wh)%nat; [|discriminate]|];
      cbn [obind] in Hs; (destruct (have_transition c); [discriminate|]); cbn [obind] in Hs;
      destruct (mc_norm c); injection Hs as <-; discriminate. }
  injection S1 as <-. unfold set_transition_weighting in H. apply linear_zero in L.
  assert (U : constant_transition zs h t (if to_direct c then blend (snd WB) p e else p) = UB).
  { apply c81_constant_bottom_refuted; [exact Hne|exact T0|lra]. }
  destruct (mc_weights c); cbn [ms_height ms_thickness] in H; rewrite U in H; discriminate.
Qed.

(** ** Tendencies *)

Lemma tendency_nth : forall f time n p, tendency f time n = Ret p -> length p = n /\
  forall i, (i < n)%nat -> exists v, linear (me_times f) (me_vals f) time (length (me_heights f)) i = Ret v /\ qnth p i = v.
Proof.
  intros f time n. induction n as [|n IH]; intros p H; cbn [tendency] in H.
  - injection H as <-. split; [reflexivity|]. intros i Hi; lia.
  - destruct (tendency f time n) as [l| |]; cbn [obind] in H; try discriminate.
    destruct (linear (me_times f) (me_vals f) time (length (me_heights f)) n) as [v| |] eqn:V; cbn [obind] in H; try discriminate.
    injection H as <-. destruct (IH l eq_refl) as (L & K). split; [rewrite app_length; simpl; lia|].
    intros i Hi. destruct (Nat.eq_dec i n) as [->|N].
    + exists v. split; [exact V|]. unfold qnth. rewrite app_nth2 by lia. rewrite L. replace (n - n)%nat with 0%nat by lia. reflexivity.
    + destruct (K i ltac:(lia)) as (v' & V' & Q'). exists v'. split; [exact V'|]. unfold qnth in *. rewrite app_nth1 by lia. exact Q'.
Qed.
(** With ABL.tendency_forcing the source at a height of the file is the value of the file,
    interpolated in time; gain and planar means play no part. *)
Theorem c81_tendency : forall k c s f time dt zs means i,
  String.eqb (mc_scheme c) "" = false -> nondecreasing (me_times f) -> me_times f <> [] ->
  increasing (me_heights f) -> spaced (me_heights f) -> (2 <= length (me_heights f))%nat ->
  length (me_vals f) = (length (me_heights f) * length (me_times f))%nat -> (i < length (me_heights f))%nat ->
  exists w v, linear (me_times f) (me_vals f) time (length (me_heights f)) i = Ret w /\
    source k true c s f time dt zs means (qnth (me_heights f) i) = Ret (Some v) /\ v == w.
Proof.
  intros k c s f time dt zs means i Hs Ht Hne Hh Hsp H2 Hv Hi. set (n := length (me_heights f)) in *.
  assert (T : forall j, (j <= n)%nat -> exists p, tendency f time j = Ret p).
  { induction j as [|j IH]; intros Hj; [exists []; reflexivity|]. destruct IH as (p & P); [lia|].
    destruct (linear_total (me_times f) (me_vals f) time n j) as (v & V); auto; try lia; try (rewrite Hv; lia).
    exists (p ++ [v]). cbn [tendency]. rewrite P; cbn [obind]. fold n. rewrite V. reflexivity. }
  destruct (T n (le_n n)) as (p & P). destruct (tendency_nth f time n p P) as (L & K).
  destruct (K i Hi) as (w & W1 & W2). exists w.
  destruct (linear_node (me_heights f) p 1 0 i (qnth (me_heights f) i) w) as (v & V1 & V2); auto.
  { fold n; lia. } { apply at_nth; exact Hi. } { rewrite <- W2. replace (1 * i + 0)%nat with i by lia. apply at_nth. lia. }
  { intros _ a b A B. apply (Hsp 0%nat); assumption. }
  exists v. split; [exact W1|]. split; [|exact V2]. unfold source. rewrite Hs. fold n. rewrite P; cbn [obind]. rewrite V1. reflexivity.
Qed.
(** Without a forcing_scheme nothing is applied, the tendencies of the file included. *)
Theorem c81_tendency_scheme_refuted : forall k c s f time dt zs means z, mc_scheme c = ""%string ->
  source k true c s f time dt zs means z = Ret (Some 0).
Proof. intros. unfold source. rewrite H. reflexivity. Qed.

(** ** Cases *)
Definition ex_z : list Q := [1000; 2000; 3000; 4000; 5000; 6000].
Definition ex_c : mcfg := MC "indirect" (1 # 2) (Some "indirectToDirect"%string) None (Some 1000) (Some 4000) false 0 7000.
Definition ex_f : meso := ME [0; 100] [0; 7000] [1; 8; 3; 10] [0; 1] None.
Lemma ex_rising : increasing ex_z.
Proof.
  intros i j a b Hij Ha Hb. unfold at_, ex_z in *.
  destruct i as [|[|[|[|[|[|i]]]]]]; cbn in Ha; try (destruct i; discriminate); injection Ha as <-;
  (destruct j as [|[|[|[|[|[|j]]]]]]; cbn in Hb; try lia; try (destruct j; discriminate); injection Hb as <-; reflexivity).
Qed.
Example c81_example : (exists s, construct ex_c = Ret s) /\ indirect ex_c = true /\ to_direct ex_c = true /\ to_constant ex_c = false /\
  (exists e, errors ex_f 50 ex_z [1; 1; 1; 1; 1; 1] = Ret e /\ four_heights (rows (map (ramp 4000 1000) ex_z) ex_z e) /\ length e = 6%nat) /\
  feps < 1000 /\ increasing ex_z.
Proof.
  split; [eexists; reflexivity|]. split; [reflexivity|]. split; [reflexivity|]. split; [reflexivity|]. split; [|split; [reflexivity|apply ex_rising]].
  eexists. split; [vm_compute; reflexivity|]. split; [|reflexivity].
  unfold four_heights. cbn [rows map ex_z]. do 4 eexists.
  split; [left; reflexivity|]. split; [right; left; reflexivity|]. split; [right; right; left; reflexivity|].
  split; [right; right; right; left; reflexivity|]. cbn [rw rz].
  repeat split; try reflexivity; discriminate.
Qed.
Example c81_example_constant : (0 < 2)%nat /\ (3 < length ex_z)%nat /\ qnth ex_z 1 < 2500 /\ 2500 <= qnth ex_z 2 /\
  exists r, constant_transition ex_z 2500 2000 [1; 2; 3; 9; 9; 9] = Ret (Some r) /\ map Qred r = [1; 2; 3; 7 # 2; 7 # 2; 7 # 2].
Proof.
  split; [lia|]. split; [cbn; lia|]. split; [reflexivity|]. split; [discriminate|].
  eexists. split; [vm_compute; reflexivity|vm_compute; reflexivity].
Qed.
Lemma ex_spaced : spaced ex_z.
Proof.
  intros i a b Ha Hb. unfold at_, ex_z in *.
  destruct i as [|[|[|[|[|[|i]]]]]]; cbn in Ha, Hb; try (destruct i; discriminate); try discriminate;
  injection Ha as <-; injection Hb as <-; reflexivity.
Qed.
Example c81_example_direct : let c := MC "direct" (1 # 2) None None None None false 0 7000 in
  String.eqb (mc_scheme c) "" = false /\ indirect c = false /\ to_constant c = false /\ increasing ex_z /\ spaced ex_z /\
  (exists e, errors ex_f 50 ex_z [1; 1; 1; 1; 1; 1] = Ret e /\ map Qred e = [2; 3; 4; 5; 6; 7]) /\
  (exists v, source Momentum false c (MS None None false [] [] [] [] 0) ex_f 50 10 ex_z [1; 1; 1; 1; 1; 1] 2000 = Ret (Some v) /\ v == 3 # 20).
Proof.
  cbv zeta. split; [reflexivity|]. split; [reflexivity|]. split; [reflexivity|]. split; [apply ex_rising|]. split; [apply ex_spaced|].
  split; eexists; split; try (vm_compute; reflexivity).
Qed.
Example c81_example_cubic : forall a b c d,
  let zs := [1; 2; 3; 4; 5] in let e := map (cubic a b c d) [1; 2; 3; 4; 7] in let W := [1; 2; 1; 3; 0] in
  weights_ok W /\ four_heights (rows W zs e) /\
  (forall r, In r (rows W zs e) -> 0 < rw r -> re r == cubic a b c d (rz r)).
Proof.
  intros a b c d zs e W. split; [|split].
  - intros w Hw. cbn [W In] in Hw. repeat (destruct Hw as [<-|Hw]; [discriminate|]). destruct Hw.
  - unfold four_heights. cbn [rows map W zs e]. do 4 eexists.
    split; [left; reflexivity|]. split; [right; left; reflexivity|]. split; [right; right; left; reflexivity|].
    split; [right; right; right; left; reflexivity|]. cbn [rw rz]. repeat split; try reflexivity; discriminate.
  - intros r Hr. cbn [rows map W zs e In] in Hr. repeat (destruct Hr as [<-|Hr]; [cbn [rw rz re]; intros; try reflexivity; lra|]). destruct Hr.
Qed.

(** Which keyword asks for which treatment: any keyword that ends in Constant asks for a constant
    forcing above the transition, and only indirectToDirect for a transition to direct assimilation;
    without a keyword there is no transition. *)
Theorem c81_keywords : forall c,
  (forall p, mc_transition c = Some (p ++ "Constant")%string ->
    to_constant c = true /\ have_transition c = true /\ to_direct c = false) /\
  (mc_transition c = Some "indirectToDirect"%string ->
    to_constant c = false /\ have_transition c = true /\ to_direct c = true) /\
  (mc_transition c = None \/ mc_transition c = Some "none"%string ->
    to_constant c = false /\ have_transition c = false /\ to_direct c = false).
Proof.
  intros c. unfold to_constant, have_transition, to_direct, transition. split; [|split].
  - intros p ->.
    assert (E : forall q, ends_with (q ++ "Constant")%string "Constant" = true).
    { induction q as [|a q IH]; [reflexivity|]. cbn [append ends_with]. rewrite IH. apply Bool.orb_true_r. }
    assert (L : forall q, (8 <= String.length (q ++ "Constant"))%nat).
    { induction q as [|a q IH]; [cbn; lia|cbn [append String.length]; lia]. }
    assert (D : forall q s t, to_lower (q ++ s) = t -> exists u, t = (u ++ to_lower s)%string).
    { induction q as [|a q IH]; intros s t <-; [exists EmptyString; reflexivity|].
      destruct (IH s _ eq_refl) as [u U]. cbn [append to_lower]. rewrite U. eexists (String _ u). reflexivity. }
    assert (N : forall t u, t = (u ++ "constant")%string -> String.eqb t "none" = false /\ String.eqb t "indirecttodirect" = false).
    { intros t u H. assert (K : ends_with t "constant" = true).
      { rewrite H. clear. induction u as [|a q IH]; [reflexivity|]. cbn [append ends_with]. rewrite IH. apply Bool.orb_true_r. }
      split; apply Bool.not_true_iff_false; intros F; apply String.eqb_eq in F; rewrite F in K; discriminate. }
    replace (String.length (p ++ "Constant") <? 8)%nat with false by (symmetry; apply Nat.ltb_ge, L).
    destruct (D p "Constant"%string _ eq_refl) as [u U]. destruct (N _ u U) as [N1 N2].
    rewrite E, N1, N2. repeat split.
  - intros ->. vm_compute. repeat split.
  - intros [->| ->]; vm_compute; repeat split.
Qed.

Print Assumptions c81_inverse.
Print Assumptions c81_keywords.
Print Assumptions c81_least_squares.
Print Assumptions c81_cubic_exact.
Print Assumptions c81_momentum_uniform.
Print Assumptions c81_momentum_weights_refuted.
Print Assumptions c81_momentum_few_refuted.
Print Assumptions c81_direct.
Print Assumptions c81_blend.
Print Assumptions c81_plain.
Print Assumptions c81_variable.
Print Assumptions c81_weights.
Print Assumptions c81_weights_short_refuted.
Print Assumptions c81_thickness.
Print Assumptions c81_surface_flux.
Print Assumptions c81_constant.
Print Assumptions c81_constant_forcing.
Print Assumptions c81_constant_bottom_refuted.
Print Assumptions c81_constant_top_refuted.
Print Assumptions c81_direct_constant_refuted.
Print Assumptions c81_case_refuted.
Print Assumptions c81_variable_missing_refuted.
Print Assumptions c81_tendency.
Print Assumptions c81_tendency_scheme_refuted.
