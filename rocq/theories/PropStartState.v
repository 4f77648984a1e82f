(** C91: what the two-phase, buoyant and vortical cases start from. *)
From Coq Require Import Reals ZArith List Bool Lra Lia Psatz.
From Coquelicot Require Import Coquelicot.
From Verif Require Import BoxR BoxRFacts VecSpace MultiPhase PropMultiPhase StartState StartStateSpec ExactFlowSpec.
Import ListNotations.
Local Open Scope R_scope.

Lemma rmin_min : forall a b, rmin a b = Rmin a b.
Proof. intros a b. unfold rmin, Rmin. destruct (Rltb b a) eqn:L; [apply Rltb_spec in L|apply Rltb_false in L]; destruct (Rle_dec a b); lra. Qed.
Lemma rmax_max : forall a b, rmax a b = Rmax a b.
Proof. intros a b. unfold rmax, Rmax. destruct (Rltb a b) eqn:L; [apply Rltb_spec in L|apply Rltb_false in L]; destruct (Rle_dec a b); lra. Qed.
Ltac cases := repeat match goal with
  | |- context [Rltb ?a ?b] => let B := fresh "B" in destruct (Rltb a b) eqn:B; [apply Rltb_spec in B|apply Rltb_false in B]
  end; cbn [andb].

(** ** The dam *)

(** A dam at the origin: the level set is the distance to the nearer of the two faces, above zero exactly inside and below zero exactly outside. *)
Theorem c91_dam_partial : forall width height x z,
  dam_phi 0 0 width height x z = Rmin (width - x) (height - z) /\
  (0 < dam_phi 0 0 width height x z <-> in_dam 0 0 width height x z) /\
  (dam_phi 0 0 width height x z < 0 <-> out_of_dam 0 0 width height x z).
Proof.
  intros w h x z. unfold in_dam, out_of_dam.
  assert (E : dam_phi 0 0 w h x z = Rmin (w - x) (h - z)).
  { unfold dam_phi. rewrite !Rminus_0_r, rmin_min. cases; try reflexivity; unfold Rmin; destruct Rle_dec; lra. }
  rewrite E. split; [reflexivity|]. unfold Rmin. destruct Rle_dec; split; split; lra.
Qed.
(** Wherever the dam stands, the level set is right at every point that is not inside; *)
Theorem c91_dam_outside : forall xc zc width height x z, ~ in_dam xc zc width height x z ->
  dam_phi xc zc width height x z = Rmin (width - (x - xc)) (height - (z - zc)).
Proof.
  intros xc zc w h x z N. unfold in_dam in N. unfold dam_phi. rewrite !rmin_min. cases; try (exfalso; lra); try reflexivity; unfold Rmin; destruct Rle_dec; lra.
Qed.
(** inside it is measured from the origin: a dam that stands at [xc > 0] has air in the part of it from its width on, *)
Theorem c91_dam_refuted : forall xc zc width height x z, in_dam xc zc width height x z -> width < x ->
  dam_phi xc zc width height x z < 0.
Proof. intros xc zc w h x z [A B] C. unfold dam_phi. rewrite !rmin_min. cases; try (exfalso; lra). unfold Rmin; destruct Rle_dec; lra. Qed.
(** and such points there are for every such dam. *)
Theorem c91_dam_shift_refuted : forall xc width height, 0 < xc -> 0 < height -> exists x,
  in_dam xc 0 width height x 0 /\ dam_phi xc 0 width height x 0 < 0.
Proof.
  intros xc w h X H. exists (w + xc / 2). assert (I : in_dam xc 0 w h (w + xc / 2) 0) by (unfold in_dam; lra). split; [exact I|]. apply c91_dam_refuted; [exact I|lra].
Qed.
(** In front of the edge of a dam the level set is less than the distance to it: the distance to the edge is the length of the hypotenuse. *)
Theorem c91_dam_edge_refuted : forall width height a b, 0 < a -> 0 < b ->
  - sqrt (a ^ 2 + b ^ 2) < dam_phi 0 0 width height (width + a) (height + b).
Proof.
  intros w h a b A B. destruct (c91_dam_partial w h (w + a) (h + b)) as [E _]. rewrite E. replace (w - (w + a)) with (- a) by ring. replace (h - (h + b)) with (- b) by ring.
  assert (P : forall c, 0 < c -> c ^ 2 < a ^ 2 + b ^ 2 -> c < sqrt (a ^ 2 + b ^ 2)).
  { intros c C L. rewrite <- (sqrt_pow2 c) by lra. apply sqrt_lt_1; [apply pow2_ge_0| |exact L]. pose proof (pow2_ge_0 a). pose proof (pow2_ge_0 b). lra. }
  assert (A2 : 0 < a ^ 2) by (apply pow_lt; exact A). assert (B2 : 0 < b ^ 2) by (apply pow_lt; exact B).
  unfold Rmin. destruct Rle_dec; [pose proof (P a A ltac:(lra))|pose proof (P b B ltac:(lra))]; lra.
Qed.
(** The density at the start lies between those of the fluids, is that of the liquid from the width of the smoothing on, that of the gas from there on the
    other side, and their mean at the surface. *)
Theorem c91_density : forall rho1 rho2 eps phi, 0 < eps -> rho2 <= rho1 ->
  rho2 <= start_density rho1 rho2 eps phi <= rho1 /\ start_density rho1 rho2 eps 0 = (rho1 + rho2) / 2 /\
  (eps <= phi -> start_density rho1 rho2 eps phi = rho1) /\ (phi <= - eps -> start_density rho1 rho2 eps phi = rho2).
Proof.
  intros r1 r2 eps phi E R. destruct (c32_heaviside eps phi E) as [A [B [C [D _]]]]. unfold start_density.
  split; [split; nra|]. split; [rewrite B; field|]. split; intros H; [rewrite (C H)|rewrite (D H)]; ring.
Qed.

(** ** The drop *)

(** The momentum of a cell is that of the liquid in it, whatever the share and the densities: *)
Theorem c91_drop : forall rhol rhog share v, 0 < rhol -> 0 < rhog -> 0 <= share <= 1 ->
  ((1 - share) * rhog + share * rhol) * drop_vel rhol rhog share v = share * (rhol * v) /\
  drop_vel rhol rhog 1 v = v /\ drop_vel rhol rhog 0 v = 0 /\ Rabs (drop_vel rhol rhog share v) <= Rabs v.
Proof.
  intros rl rg s v L G S. assert (D : 0 < (1 - s) * rg + s * rl) by nra. unfold drop_vel. split; [field; lra|]. split; [field; lra|]. split; [field; lra|].
  replace (s * rl * v / ((1 - s) * rg + s * rl)) with (s * rl / ((1 - s) * rg + s * rl) * v) by (field; lra). rewrite Rabs_mult.
  rewrite <- (Rmult_1_l (Rabs v)) at 2. apply Rmult_le_compat_r; [apply Rabs_pos|]. rewrite Rabs_pos_eq by (apply Rmult_le_pos; [nra|apply Rlt_le, Rinv_0_lt_compat; exact D]).
  apply (Rmult_le_reg_r ((1 - s) * rg + s * rl)); [exact D|]. unfold Rdiv. rewrite Rmult_assoc, Rinv_l by lra. nra.
Qed.
(** without a volume fraction the share is one well inside the drop, zero well outside and a half on its surface. *)
Theorem c91_drop_share : forall eps radius xc yc zc x y z, 0 < eps ->
  let d := sqrt ((x - xc) * (x - xc) + (y - yc) * (y - yc) + (z - zc) * (z - zc)) in
  let s := drop_share eps None (drop_phi radius xc yc zc x y z) in
  0 <= s <= 1 /\ (d <= radius - eps -> s = 1) /\ (radius + eps <= d -> s = 0) /\ (d = radius -> s = / 2) /\
  (forall f, drop_share eps (Some f) (drop_phi radius xc yc zc x y z) = f).
Proof.
  intros eps r xc yc zc x y z E d s. unfold s, drop_share, drop_phi. fold d. destruct (c32_heaviside eps (r - d) E) as [A [B [C [D _]]]].
  split; [exact A|]. split; [intros H; apply C; lra|]. split; [intros H; apply D; lra|]. split; [intros ->; rewrite Rminus_diag_eq by reflexivity; exact B|reflexivity].
Qed.

(** ** The tank *)

(** The surface has its hump in the middle of the domain, is nowhere below the level and nowhere above the hump, and is the same at mirrored points; *)
Theorem c91_tank_surface : forall level amp kappa lox loy lx ly x y, 0 <= amp -> 0 <= kappa ->
  tank_surface level amp kappa lox loy lx ly (lox + lx / 2) (loy + ly / 2) = level + amp /\
  level <= tank_surface level amp kappa lox loy lx ly x y <= level + amp /\
  tank_surface level amp kappa lox loy lx ly (lox + (lox + lx) - x) y = tank_surface level amp kappa lox loy lx ly x y /\
  tank_surface level amp kappa lox loy lx ly x (loy + (loy + ly) - y) = tank_surface level amp kappa lox loy lx ly x y.
Proof.
  intros l a k lox loy lx ly x y A K. unfold tank_surface. split; [|split; [|split]].
  - replace (- k * ((lox + lx / 2 - lox - / 2 * lx) ^ 2 + (loy + ly / 2 - loy - / 2 * ly) ^ 2)) with 0 by field. rewrite exp_0. ring.
  - set (q := (x - lox - / 2 * lx) ^ 2 + (y - loy - / 2 * ly) ^ 2). assert (Q : 0 <= q) by (unfold q; apply Rplus_le_le_0_compat; apply pow2_ge_0).
    assert (E0 : 0 < exp (- k * q)) by apply exp_pos. assert (E1 : exp (- k * q) <= 1). { rewrite <- exp_0. destruct (Rle_lt_or_eq_dec 0 (k * q)) as [P|P]; [nra| |]; [left; apply exp_increasing; lra|right; f_equal; lra]. }
    split; nra.
  - do 3 f_equal. field.
  - do 3 f_equal. field.
Qed.
(** the pressure at a node is the weight of what is above it in the domain, the level set the height of the surface over the cell; *)
Theorem c91_tank_pressure : forall rho1 rho2 g lo hi z0 z, lo <= z <= hi -> z0 <= hi ->
  tank_pressure rho1 rho2 g lo hi z0 z = - g * above rho1 rho2 z0 hi z.
Proof.
  intros r1 r2 g lo hi z0 z Z Z0. unfold tank_pressure, above. rewrite !rmin_min, !rmax_max. unfold Rmin, Rmax. repeat destruct Rle_dec; try (exfalso; lra); ring_simplify; try reflexivity; try lra; nra.
Qed.
(** it is in balance with gravity off the surface, without a jump at it, and zero at the top. *)
Theorem c91_tank_balance : forall rho1 rho2 g lo hi z0 z, lo < z < hi -> z0 <= hi ->
  (z < z0 -> is_derive (tank_pressure rho1 rho2 g lo hi z0) z (rho1 * g)) /\
  (z0 < z -> is_derive (tank_pressure rho1 rho2 g lo hi z0) z (rho2 * g)) /\
  tank_pressure rho1 rho2 g lo hi z0 hi = 0.
Proof.
  intros r1 r2 g lo hi z0 z Z Z0. split; [|split].
  - intros L. apply (is_derive_ext_loc (fun s => - g * (r1 * (z0 - s) + r2 * (hi - z0)))).
    + assert (D : 0 < Rmin (z - lo) (z0 - z)) by (apply Rmin_glb_lt; lra). exists (mkposreal _ D). intros s S. change (Rabs (s - z) < Rmin (z - lo) (z0 - z)) in S.
      pose proof (Rmin_l (z - lo) (z0 - z)). pose proof (Rmin_r (z - lo) (z0 - z)). apply Rabs_def2 in S. rewrite c91_tank_pressure by lra. unfold above. rewrite Rmax_right by lra. reflexivity.
    + auto_derive; [exact I|ring].
  - intros L. apply (is_derive_ext_loc (fun s => - g * (r2 * (hi - s)))).
    + assert (D : 0 < Rmin (Rmin (z - lo) (hi - z)) (z - z0)) by (repeat apply Rmin_glb_lt; lra). exists (mkposreal _ D). intros s S. change (Rabs (s - z) < Rmin (Rmin (z - lo) (hi - z)) (z - z0)) in S.
      pose proof (Rmin_l (Rmin (z - lo) (hi - z)) (z - z0)). pose proof (Rmin_r (Rmin (z - lo) (hi - z)) (z - z0)). pose proof (Rmin_l (z - lo) (hi - z)). pose proof (Rmin_r (z - lo) (hi - z)). apply Rabs_def2 in S.
      rewrite c91_tank_pressure by lra. unfold above. rewrite Rmax_left by lra. f_equal. lra.
    + auto_derive; [exact I|ring].
  - rewrite c91_tank_pressure by lra. unfold above. rewrite Rmax_left by lra. ring.
Qed.
Example c91_tank_case : tank_pressure 1000 1 (-10) 0 2 1 (/ 2) = 5010 /\ tank_pressure 1000 1 (-10) 0 2 1 1 = 10.
Proof. rewrite !c91_tank_pressure by lra. unfold above. rewrite Rmax_right, Rmax_left by lra. split; lra. Qed.

(** ** The breaking wave *)

(** The surface has the wave length asked for, and its mean over a wave is the level asked for. *)
Theorem c91_wave_surface : forall alpha lambda level x, 0 < lambda ->
  bw_eta alpha lambda level (x + lambda) = bw_eta alpha lambda level x /\ average (bw_eta alpha lambda level) x lambda = level.
Proof.
  intros al la lv x L. pose proof PI_RGT_0 as P. assert (K : bw_kappa la <> 0) by (unfold bw_kappa; apply Rgt_not_eq, Rdiv_lt_0_compat; lra).
  assert (KL : bw_kappa la * la = 2 * PI) by (unfold bw_kappa; field; lra). split.
  - unfold bw_eta. replace (bw_kappa la * (x + la)) with (bw_kappa la * x + 2 * INR 1 * PI) by (change (INR 1) with 1; rewrite Rmult_plus_distr_l, KL; ring).
    replace (2 * bw_kappa la * (x + la)) with (2 * bw_kappa la * x + 2 * INR 2 * PI) by (change (INR 2) with 2; replace (2 * bw_kappa la * (x + la)) with (2 * bw_kappa la * x + 2 * (bw_kappa la * la)) by ring; rewrite KL; ring).
    replace (3 * bw_kappa la * (x + la)) with (3 * bw_kappa la * x + 2 * INR 3 * PI) by (change (INR 3) with (2 + 1); replace (3 * bw_kappa la * (x + la)) with (3 * bw_kappa la * x + 3 * (bw_kappa la * la)) by ring; rewrite KL; ring).
    rewrite !cos_period. reflexivity.
  - unfold average. set (k := bw_kappa la) in *. set (e := al * k).
    pose (F s := lv * s + al * ((1 - 1 / 16 * e * e) * (sin (k * s) / k) + / 2 * e * (sin (2 * k * s) / (2 * k)) + 3 / 8 * e * e * (sin (3 * k * s) / (3 * k)))).
    assert (I : is_RInt (bw_eta al la lv) (x - la / 2) (x + la / 2) (lv * la)).
    { replace (lv * la) with (minus (F (x + la / 2)) (F (x - la / 2))).
      - apply (is_RInt_derive F (bw_eta al la lv)).
        + intros s _. unfold F, bw_eta. fold k. fold e. auto_derive; [repeat split; lra|]. field. exact K.
        + intros s _. apply (ex_derive_continuous (bw_eta al la lv)). unfold bw_eta. fold k. auto_derive. exact I.
      - unfold F, minus, plus, opp. cbn.
        assert (S : forall n : nat, sin (INR n * (k * (x + la / 2))) = sin (INR n * (k * (x - la / 2)))).
        { intros n. replace (INR n * (k * (x + la / 2))) with (INR n * (k * (x - la / 2)) + 2 * INR n * PI) by (replace (2 * INR n * PI) with (INR n * (k * la)) by (rewrite KL; ring); field). apply sin_period. }
        pose proof (S 1%nat) as S1. pose proof (S 2%nat) as S2. pose proof (S 3%nat) as S3. change (INR 1) with 1 in S1. change (INR 2) with 2 in S2. replace (INR 3) with 3 in S3 by (cbn; ring).
        rewrite !Rmult_1_l in S1. rewrite <- !Rmult_assoc in S2, S3. rewrite S1, S2, S3. field. exact K. }
    rewrite (is_RInt_unique _ _ _ _ I). field. lra.
Qed.
(** The water moves without divergence and without rotation, the air above the surface in a shear from rest, and nothing moves along the crests; *)
Theorem c91_wave_flow : forall alpha lambda level shear x z,
  (forall y, divergence_at (fun x _ z => bw_water_u alpha lambda x z) (fun _ _ _ => 0) (fun x _ z => bw_water_w alpha lambda x z) x y z 0) /\
  (exists a : R, is_derive (fun z => bw_water_u alpha lambda x z) z a /\ is_derive (fun x => bw_water_w alpha lambda x z) x a) /\
  (z < bw_eta alpha lambda level x -> bw_vel alpha lambda level shear x z = (bw_water_u alpha lambda x z, 0, bw_water_w alpha lambda x z)) /\
  (bw_eta alpha lambda level x <= z -> bw_vel alpha lambda level shear x z = (shear * (z - bw_eta alpha lambda level x), 0, 0)).
Proof.
  intros al la lv sh x z. unfold bw_water_u, bw_water_w. set (o := bw_omega al la). set (k := bw_kappa la). split; [|split; [|split]].
  - intros y. exists (- (o * al * exp (k * z) * (k * sin (k * x)))), 0, (o * al * (k * exp (k * z)) * sin (k * x)).
    split; [auto_derive; [exact I|ring]|]. split; [auto_derive; [exact I|reflexivity]|]. split; [auto_derive; [exact I|ring]|]. ring.
  - exists (o * al * (k * exp (k * z)) * cos (k * x)). split; (auto_derive; [exact I|ring]).
  - intros H. unfold bw_vel. rewrite (proj2 (Rltb_spec _ _) H). reflexivity.
  - intros H. unfold bw_vel. rewrite (proj2 (Rltb_false _ _) H). reflexivity.
Qed.
(** with the level at zero its speed there is that of a wave of this height and frequency: a surface [alpha cos (kappa x - omega t)] rises that fast at the start. *)
Theorem c91_wave_speed_partial : forall alpha lambda x,
  is_derive (fun t => alpha * cos (bw_kappa lambda * x - bw_omega alpha lambda * t)) 0 (bw_water_w alpha lambda x 0).
Proof. intros al la x. unfold bw_water_w. auto_derive; [exact I|]. rewrite !Rmult_0_r, exp_0, Ropp_0, Rplus_0_r. ring. Qed.
(** Over any other level the velocities are too large or too small by the exponential of the level: they are measured from the origin, the surface from the level; *)
Theorem c91_wave_level_refuted : forall alpha lambda level x, 0 < alpha -> 0 < lambda -> level <> 0 -> sin (bw_kappa lambda * x) <> 0 ->
  bw_water_w alpha lambda x level <> bw_water_w alpha lambda x 0.
Proof.
  intros al la lv x A L N S E. pose proof PI_RGT_0 as P. assert (K : 0 < bw_kappa la) by (unfold bw_kappa; apply Rdiv_lt_0_compat; lra).
  assert (O : 0 < bw_omega al la). { unfold bw_omega. apply sqrt_lt_R0. apply Rmult_lt_0_compat; [apply Rmult_lt_0_compat; lra|]. pose proof (Rle_0_sqr (al * bw_kappa la)) as Q. unfold Rsqr in Q. lra. }
  unfold bw_water_w in E. rewrite Rmult_0_r, exp_0, Rmult_1_r in E. apply Rmult_eq_reg_r in E; [|exact S].
  assert (X : exp (bw_kappa la * lv) = 1). { apply (Rmult_eq_reg_l (bw_omega al la * al)); [lra|]. apply Rgt_not_eq, Rmult_lt_0_compat; assumption. }
  rewrite <- exp_0 in X. apply exp_inv in X. apply Rmult_integral in X. destruct X; lra.
Qed.
(** and the frequency is that of a gravity of 9.81, whatever the gravity of the run. *)
Theorem c91_wave_gravity_refuted : forall alpha lambda g, 0 < lambda ->
  (bw_omega alpha lambda) ^ 2 = g * bw_kappa lambda * (1 + (alpha * bw_kappa lambda) ^ 2) <-> g = 981 / 100.
Proof.
  intros al la g L. pose proof PI_RGT_0 as P. assert (K : 0 < bw_kappa la) by (unfold bw_kappa; apply Rdiv_lt_0_compat; lra).
  pose proof (Rle_0_sqr (al * bw_kappa la)) as Q. unfold Rsqr in Q. unfold bw_omega. rewrite pow2_sqrt; [|apply Rmult_le_pos; [apply Rmult_le_pos; lra|lra]].
  replace (1 + (al * bw_kappa la) ^ 2) with (1 + al * bw_kappa la * (al * bw_kappa la)) by ring. split; intros H.
  - apply Rmult_eq_reg_r in H; [|lra]. apply Rmult_eq_reg_r in H; lra.
  - rewrite H. reflexivity.
Qed.

(** ** The heavy layer on the light one *)

Lemma tanh_range : forall x, -1 < tanh x < 1.
Proof.
  intros x. unfold tanh, sinh, cosh. pose proof (exp_pos x) as A. pose proof (exp_pos (- x)) as B.
  replace ((exp x - exp (- x)) / 2 / ((exp x + exp (- x)) / 2)) with ((exp x - exp (- x)) / (exp x + exp (- x))) by (field; lra).
  split; apply (Rmult_lt_reg_r (exp x + exp (- x))); try lra; unfold Rdiv; rewrite Rmult_assoc, Rinv_l by lra; lra.
Qed.
Lemma tanh_up : forall x y, x < y -> tanh x < tanh y.
Proof.
  intros x y L. unfold tanh, sinh, cosh. rewrite !exp_Ropp. pose proof (exp_pos x) as A. pose proof (exp_increasing x y L) as B. set (a := exp x) in *. set (b := exp y) in *. assert (B0 : 0 < b) by lra.
  assert (SA : 0 < a * a) by nra. assert (SB : 0 < b * b) by nra.
  replace ((a - / a) / 2 / ((a + / a) / 2)) with (1 - 2 / (a * a + 1)) by (field; repeat split; nra).
  replace ((b - / b) / 2 / ((b + / b) / 2)) with (1 - 2 / (b * b + 1)) by (field; repeat split; nra).
  apply Rplus_lt_compat_l, Ropp_lt_contravar, Rmult_lt_compat_l; [lra|]. apply Rinv_lt_contravar; nra.
Qed.
(** The density lies between the two that are asked for, rises with the height if the upper fluid is the heavier, and is their mean at the interface; *)
Theorem c91_layers : forall rho1 rho2 height z, rho1 < rho2 ->
  rho1 < rt_density rho1 rho2 height z < rho2 /\ rt_density rho1 rho2 height height = (rho1 + rho2) / 2 /\
  (forall z', z < z' -> rt_density rho1 rho2 height z < rt_density rho1 rho2 height z').
Proof.
  intros r1 r2 h z R. unfold rt_density. pose proof (tanh_range ((z - h) / (5 / 1000))) as T. split; [split; nra|]. split.
  - replace ((h - h) / (5 / 1000)) with 0 by field. unfold tanh, sinh, cosh. rewrite Ropp_0, exp_0. field.
  - intros z' L. assert (U : tanh ((z - h) / (5 / 1000)) < tanh ((z' - h) / (5 / 1000))) by (apply tanh_up; lra). nra.
Qed.
(** the interface is lowest over the middle of the domain and highest away from it, by a hundredth around one half, and it fits a domain that is periodic in x, *)
Theorem c91_layers_interface : forall lox hix loy hiy x y, lox < hix ->
  49 / 100 <= rt_height lox hix loy hiy x y <= 51 / 100 /\
  rt_height lox hix loy hiy ((lox + hix) / 2) ((loy + hiy) / 2) = 49 / 100 /\
  ((hix - lox) / 2 <= Rabs (x - (lox + hix) / 2) -> rt_height lox hix loy hiy x y = 51 / 100) /\
  rt_height lox hix loy hiy lox y = rt_height lox hix loy hiy hix y.
Proof.
  intros lox hix loy hiy x y L. assert (FAR : forall x, (hix - lox) / 2 <= Rabs (x - (lox + hix) / 2) -> rt_height lox hix loy hiy x y = 51 / 100).
  { intros q H. unfold rt_height. rewrite rmin_min, Rmin_right.
    - replace (2 * PI * (/ 2 * (hix - lox)) / (hix - lox)) with PI by (field; lra). rewrite cos_PI. lra.
    - replace (/ 2 * (hix - lox)) with ((hix - lox) / 2) by field. apply (Rle_trans _ _ _ H). rewrite <- sqrt_Rsqr_abs. replace (/ 2 * (lox + hix)) with ((lox + hix) / 2) by field. apply sqrt_le_1_alt. unfold Rsqr.
      pose proof (pow2_ge_0 (y - / 2 * (loy + hiy))). lra. }
  split; [|split; [|split]].
  - unfold rt_height. pose proof (COS_bound (2 * PI * rmin (sqrt ((x - / 2 * (lox + hix)) ^ 2 + (y - / 2 * (loy + hiy)) ^ 2)) (/ 2 * (hix - lox)) / (hix - lox))). lra.
  - unfold rt_height. replace (((lox + hix) / 2 - / 2 * (lox + hix)) ^ 2 + ((loy + hiy) / 2 - / 2 * (loy + hiy)) ^ 2) with 0 by field. rewrite sqrt_0, rmin_min, Rmin_left by lra.
    replace (2 * PI * 0 / (hix - lox)) with 0 by (field; lra). rewrite cos_0. lra.
  - apply FAR.
  - rewrite !FAR; [reflexivity| |]; [rewrite Rabs_pos_eq; lra|rewrite Rabs_left1; lra].
Qed.
(** but whatever the domain it is at one half: in a domain above that all of the fluid is on the heavy side. *)
Theorem c91_layers_refuted : forall rho1 rho2 lox hix loy hiy loz x y z, rho1 < rho2 -> lox < hix -> 51 / 100 < loz -> loz <= z ->
  (rho1 + rho2) / 2 < rt_density rho1 rho2 (rt_height lox hix loy hiy x y) z.
Proof.
  intros r1 r2 lox hix loy hiy loz x y z R L Z H. destruct (c91_layers_interface lox hix loy hiy x y L) as [[_ U] _]. set (h := rt_height lox hix loy hiy x y) in *.
  destruct (c91_layers r1 r2 h h R) as [_ [E M]]. rewrite <- E. apply M. lra.
Qed.
(** The bubble has its value inside the ball and the other one outside, the surface included. *)
Theorem c91_bubble : forall inner outer radius xc yc zc x y z,
  let d := sqrt ((x - xc) * (x - xc) + (y - yc) * (y - yc) + (z - zc) * (z - zc)) in
  (d < radius -> bubble_value inner outer radius xc yc zc x y z = inner) /\ (radius <= d -> bubble_value inner outer radius xc yc zc x y z = outer).
Proof.
  intros i o r xc yc zc x y z d. unfold bubble_value. fold d. split; intros H; [rewrite (proj2 (Rltb_spec _ _) H)|rewrite (proj2 (Rltb_false _ _) H)]; reflexivity.
Qed.

(** ** The scalar on the turning disk *)

(** What the scalar is compared with is what was set at the start, turned with the disk; after a period it is what was set; it is one within half a radius of
    the centre, zero from one and a half radii on, and between them in between. *)
Theorem c91_scalar : forall xc yc zc x y z radius tt time, 0 < radius -> tt <> 0 ->
  let alpha := sc_angle tt time in
  sc_exact xc yc zc (turned_x alpha x y) (turned_y alpha x y) z radius alpha = sc_start xc yc zc x y z radius /\
  sc_exact xc yc zc x y z radius (sc_angle tt 0) = sc_start xc yc zc x y z radius /\
  sc_exact xc yc zc x y z radius (sc_angle tt tt) = sc_start xc yc zc x y z radius /\
  let d := sqrt ((x - xc) * (x - xc) + (y - yc) * (y - yc) + (z - zc) * (z - zc)) in
  0 <= sc_start xc yc zc x y z radius <= 1 /\
  (d <= radius / 2 -> sc_start xc yc zc x y z radius = 1) /\ (3 / 2 * radius <= d -> sc_start xc yc zc x y z radius = 0).
Proof.
  intros xc yc zc x y z r tt t R T alpha. split; [|split; [|split]].
  - unfold sc_exact, sc_start, turned_x, turned_y. pose proof (sin2_cos2 alpha) as CS. unfold Rsqr in CS. set (s := sin alpha) in *. set (c := cos alpha) in *.
    do 5 f_equal. replace ((x - xc) * (x - xc) + (y - yc) * (y - yc)) with ((s * s + c * c) * ((x - xc) * (x - xc) + (y - yc) * (y - yc))) by (rewrite CS; ring). ring.
  - unfold sc_angle. replace (0 * 2 * PI / tt) with 0 by (field; exact T). unfold sc_exact, sc_start. rewrite cos_0, sin_0. do 6 f_equal; ring.
  - unfold sc_angle. replace (tt * 2 * PI / tt) with (2 * PI) by (field; exact T). unfold sc_exact, sc_start. rewrite cos_2PI, sin_2PI. do 6 f_equal; ring.
  - intros d. unfold sc_start. fold d. rewrite rmin_min, rmax_max.
    assert (Q : d / r * r = d) by (field; lra). split; [|split].
    + unfold Rmin, Rmax. repeat destruct Rle_dec; lra.
    + intros H. assert (d / r <= / 2) by (apply (Rmult_le_reg_r r); [exact R|lra]). unfold Rmin, Rmax. repeat destruct Rle_dec; lra.
    + intros H. assert (3 / 2 <= d / r) by (apply (Rmult_le_reg_r r); [exact R|lra]). unfold Rmin, Rmax. repeat destruct Rle_dec; lra.
Qed.

(** ** The vortex ring *)

Ltac idx := repeat match goal with |- context [(?a - 1 + 1)%Z] => replace (a - 1 + 1)%Z with a by lia end.
(** Whatever the potential the solve returns, the velocities set have no divergence at the nodes: the projection at the start has nothing to remove. *)
Theorem c91_ring_divergence : forall px py pz dx dy dz i j k, dx <> 0 -> dy <> 0 -> dz <> 0 ->
  node_div (ring_u py pz dy dz) (ring_v px pz dx dz) (ring_w px py dx dy) dx dy dz i j k = 0.
Proof.
  intros px py pz dx dy dz i j k X Y Z. unfold node_div, node_dx, node_dy, node_dz, mean4, ring_u, ring_v, ring_w, cell_dx, cell_dy, cell_dz. idx. field. repeat split; assumption.
Qed.
(** The rotation of the velocities at the nodes is the Laplacian of the potential, less the gradient of its divergence; the potential solves the equation with
    the vorticity turned around, and so the ring turns the other way round than the vorticity it is asked for. *)
Theorem c91_ring_rotation : forall px py pz dx dy dz i j k, dx <> 0 -> dy <> 0 -> dz <> 0 ->
  let u := ring_u py pz dy dz in let v := ring_v px pz dx dz in let w := ring_w px py dx dy in
  let laplace f := node_dx (cell_dx f dx) dx i j k + node_dy (cell_dy f dy) dy i j k + node_dz (cell_dz f dz) dz i j k in
  let div a b c := cell_dx px dx a b c + cell_dy py dy a b c + cell_dz pz dz a b c in
  node_dy w dy i j k - node_dz v dz i j k = laplace px - node_dx div dx i j k /\
  node_dz u dz i j k - node_dx w dx i j k = laplace py - node_dy div dy i j k /\
  node_dx v dx i j k - node_dy u dy i j k = laplace pz - node_dz div dz i j k.
Proof.
  intros px py pz dx dy dz i j k X Y Z u v w laplace div. unfold laplace, div, u, v, w, node_dx, node_dy, node_dz, mean4, ring_u, ring_v, ring_w, cell_dx, cell_dy, cell_dz. idx.
  split; [field; repeat split; assumption|]. split; field; repeat split; assumption.
Qed.
(** For instance a uniform vorticity [om] along x, for which the potential is [- om y^2 / 2], comes out as [- om]. *)
Theorem c91_ring_sense_refuted : forall om dx dy dz i j k, dx <> 0 -> dy <> 0 -> dz <> 0 ->
  let px (i j k : Z) := - om * (IZR j * dy) ^ 2 / 2 in let o (i j k : Z) := 0 in
  (px i (j + 1)%Z k - 2 * px i j k + px i (j - 1)%Z k) / dy ^ 2 = - om /\
  node_dy (ring_w px o dx dy) dy i j k - node_dz (ring_v px o dx dz) dz i j k = - om.
Proof.
  intros om dx dy dz i j k X Y Z px o. unfold px, o, node_dy, node_dz, mean4, ring_v, ring_w, cell_dx, cell_dy, cell_dz. rewrite !plus_IZR, !minus_IZR. split; field; repeat split; assumption.
Qed.
(** What is handed to the solve is azimuthal and has the size of the given vorticity. *)
Theorem c91_ring_azimuth : forall theta v, let '(a, b, c) := minus_vort theta v in
  c = 0 /\ a * cos theta + b * sin theta = 0 /\ - (a * - sin theta + b * cos theta) = v.
Proof. intros th v. unfold minus_vort. pose proof (sin2_cos2 th) as CS. unfold Rsqr in CS. split; [reflexivity|]. split; [ring|]. transitivity (v * (sin th * sin th + cos th * cos th)); [ring|rewrite CS; ring]. Qed.
(** The two rings have the circulation asked for, up to what lies further out than the circle; *)
Theorem c91_rings_circulation : forall gamma delta a, delta <> 0 ->
  RInt (fun s => ring_core gamma delta (s ^ 2) * (2 * PI * s)) 0 a = gamma * (1 - exp (- a ^ 2 / delta ^ 2)).
Proof.
  intros g d a D. pose proof PI_RGT_0 as P. assert (D2 : d ^ 2 <> 0) by (apply pow_nonzero; exact D).
  pose (F s := - g * exp (- s ^ 2 / d ^ 2)).
  assert (I : is_RInt (fun s => ring_core g d (s ^ 2) * (2 * PI * s)) 0 a (minus (F a) (F 0))).
  { apply (is_RInt_derive F (fun s => ring_core g d (s ^ 2) * (2 * PI * s))).
    - intros s _. unfold F, ring_core. auto_derive; [exact I|]. replace (- (s * (s * 1)) * / (d * (d * 1))) with (- s ^ 2 / d ^ 2) by (cbn; unfold Rdiv; reflexivity). field. split; [exact D|lra].
    - intros s _. apply (ex_derive_continuous (fun s => ring_core g d (s ^ 2) * (2 * PI * s))). unfold ring_core. auto_derive. exact I. }
  rewrite (is_RInt_unique _ _ _ _ I). unfold F, minus, plus, opp. cbn -[pow]. replace (- 0 ^ 2 / d ^ 2) with 0 by (field; exact D). rewrite exp_0. ring.
Qed.
(** the fat ring has less than half of it: the constant in front belongs into the denominator. *)
Theorem c91_fat_circulation_refuted : forall gamma radius a, 0 < gamma -> 0 < radius -> 0 <= a < radius ->
  RInt (fun s => fat_core (radius + s) 0 radius gamma * (2 * PI * s)) 0 a < gamma / 2.
Proof.
  intros g R a G R0 [A0 A]. pose proof PI_RGT_0 as P. assert (P4 : PI <= 52 / 15) by (pose proof (PI_ineq 1) as [_ Q]; unfold tg_alt, PI_tg in Q; cbn in Q; lra). set (c := 54857674 / 10 ^ 8).
  pose (f s := c * g / R ^ 2 * exp (- 4 * s ^ 2 / (R ^ 2 - s ^ 2)) * (2 * PI * s)).
  pose (h s := c * g / R ^ 2 * exp (- 4 * s ^ 2 / R ^ 2) * (2 * PI * s)).
  pose (F s := - (c * g * PI / 4) * exp (- 4 * s ^ 2 / R ^ 2)).
  assert (R2 : 0 < R ^ 2) by (apply pow_lt; exact R0).
  assert (LT : forall s, 0 <= s <= a -> 0 < R ^ 2 - s ^ 2) by (intros s S; nra).
  assert (E : RInt (fun s => fat_core (R + s) 0 R g * (2 * PI * s)) 0 a = RInt f 0 a).
  { apply RInt_ext. intros s S. rewrite Rmin_left, Rmax_right in S by exact A0. unfold fat_core, f. replace (0 ^ 2 + (R + s - R) ^ 2) with (s ^ 2) by ring. pose proof (LT s ltac:(lra)).
    assert (B : s ^ 2 < R ^ 2) by lra. rewrite (proj2 (Rltb_spec _ _) B). reflexivity. }
  rewrite E.
  assert (I : is_RInt h 0 a (minus (F a) (F 0))).
  { apply (is_RInt_derive F h).
    - intros s _. unfold F, h. auto_derive; [exact I|]. replace (- 4 * (s * (s * 1)) * / (R * (R * 1))) with (- 4 * s ^ 2 / R ^ 2) by (cbn; unfold Rdiv; reflexivity). field. lra.
    - intros s _. apply (ex_derive_continuous h). unfold h. auto_derive. exact I. }
  assert (X : ex_RInt f 0 a).
  { apply (ex_RInt_continuous f). intros s S. rewrite Rmin_left, Rmax_right in S by exact A0. apply (ex_derive_continuous f). unfold f. pose proof (LT s S) as L. auto_derive. cbn in L |- *. lra. }
  apply (Rle_lt_trans _ (RInt h 0 a)).
  - apply RInt_le; [exact A0|exact X|exists (minus (F a) (F 0)); exact I|]. intros s S. unfold f, h. pose proof (LT s ltac:(lra)) as L.
    apply Rmult_le_compat_r; [apply Rmult_le_pos; lra|]. apply Rmult_le_compat_l; [apply Rlt_le, Rdiv_lt_0_compat; [apply Rmult_lt_0_compat; [unfold c; lra|exact G]|exact R2]|].
    assert (Q : - 4 * s ^ 2 / (R ^ 2 - s ^ 2) <= - 4 * s ^ 2 / R ^ 2).
    { assert (/ R ^ 2 <= / (R ^ 2 - s ^ 2)) by (apply Rinv_le_contravar; [exact L|pose proof (pow2_ge_0 s); lra]). unfold Rdiv. pose proof (pow2_ge_0 s). nra. }
    destruct Q as [Q|Q]; [left; apply exp_increasing; exact Q|right; rewrite Q; reflexivity].
  - rewrite (is_RInt_unique _ _ _ _ I). unfold F, minus, plus, opp. cbn -[pow]. replace (- 4 * 0 ^ 2 / R ^ 2) with 0 by (field; lra). rewrite exp_0. pose proof (exp_pos (- 4 * a ^ 2 / R ^ 2)) as EP.
    assert (C : c * PI / 4 < / 2) by (unfold c; cbn; lra). assert (CP : 0 < c * PI / 4) by (unfold c; cbn; lra). set (e := exp (- 4 * a ^ 2 / R ^ 2)) in *.
    replace (c * g * PI / 4) with (g * (c * PI / 4)) by field. set (q := c * PI / 4) in *. clearbody q e. clear - G C CP EP.
    assert (0 < g * q * e) by (apply Rmult_lt_0_compat; [apply Rmult_lt_0_compat|]; assumption). assert (g * q < g * / 2) by (apply Rmult_lt_compat_l; assumption). lra.
Qed.
(** It is round about its core and zero from one radius of the ring on. *)
Theorem c91_fat_core : forall r z radius gamma, 0 < radius ->
  fat_core r z radius gamma = fat_core (radius + sqrt (z ^ 2 + (r - radius) ^ 2)) 0 radius gamma /\
  (radius <= sqrt (z ^ 2 + (r - radius) ^ 2) -> fat_core r z radius gamma = 0).
Proof.
  intros r z R g R0. assert (N : 0 <= z ^ 2 + (r - R) ^ 2) by (apply Rplus_le_le_0_compat; apply pow2_ge_0). split.
  - unfold fat_core. replace (0 ^ 2 + (R + sqrt (z ^ 2 + (r - R) ^ 2) - R) ^ 2) with (sqrt (z ^ 2 + (r - R) ^ 2) ^ 2) by ring. rewrite pow2_sqrt by exact N. reflexivity.
  - intros H. unfold fat_core. assert (Q : R ^ 2 <= z ^ 2 + (r - R) ^ 2) by (rewrite <- (pow2_sqrt _ N); apply pow_incr; lra). rewrite (proj2 (Rltb_false _ _) Q). reflexivity.
Qed.
(** Without waves the two rings are mirror images that turn against each other; *)
Theorem c91_rings_mirror : forall r z radius gamma delta dz,
  two_rings r (- z) radius gamma delta dz 0 0 = - two_rings r z radius gamma delta dz 0 0 /\ two_rings r 0 radius gamma delta dz 0 0 = 0.
Proof.
  intros r z R g d dz. assert (M : forall z, two_rings r (- z) R g d dz 0 0 = - two_rings r z R g d dz 0 0).
  { intros q. unfold two_rings, ring_core. replace ((- q + dz / 2) ^ 2) with ((q - dz / 2) ^ 2) by ring. replace ((- q - dz / 2) ^ 2) with ((q + dz / 2) ^ 2) by ring. unfold Rdiv. ring. }
  split; [apply M|]. pose proof (M 0) as Q. rewrite Ropp_0 in Q. lra.
Qed.
(** waves on a ring need as many phases as modes: nothing checks that there are, and with any other number memory is read or written that was not meant. *)
Theorem c91_rings_phases_refuted : forall amp theta modes phases, modes <> [] ->
  (exists r, ring_dr amp theta modes phases = Ret r) <-> length phases = length modes.
Proof.
  intros amp th ms ps N. destruct ms as [|m ms]; [contradiction|]. unfold ring_dr. destruct (Nat.eqb (length ps) (length (m :: ms))) eqn:E; [apply Nat.eqb_eq in E|apply Nat.eqb_neq in E].
  - split; [intros _; exact E|intros _; eexists; reflexivity].
  - split; [intros [r H]; discriminate H|intros H; contradiction].
Qed.
(** With as many, the ring is displaced by no more than the amplitude for every mode. *)
Theorem c91_rings_waves : forall amp theta modes phases r, 0 <= amp -> ring_dr amp theta modes phases = Ret r ->
  Rabs r <= INR (length modes) * amp.
Proof.
  intros amp th ms ps r A H.
  assert (G : forall l a, Rabs (fold_left Rplus (map (fun mp : Z * R => amp * cos (IZR (fst mp) * th - snd mp)) l) a) <= Rabs a + INR (length l) * amp).
  { induction l as [|q l IH]; intros a; cbn [map fold_left length]; [change (INR 0) with 0; lra|]. rewrite S_INR. apply (Rle_trans _ _ _ (IH _)). pose proof (Rabs_triang a (amp * cos (IZR (fst q) * th - snd q))) as T.
    assert (C : Rabs (amp * cos (IZR (fst q) * th - snd q)) <= amp). { rewrite Rabs_mult, (Rabs_pos_eq amp) by exact A. pose proof (COS_bound (IZR (fst q) * th - snd q)) as B. assert (Rabs (cos (IZR (fst q) * th - snd q)) <= 1) by (apply Rabs_le; lra). pose proof (Rabs_pos (cos (IZR (fst q) * th - snd q))). nra. }
    lra. }
  destruct ms as [|m ms]; unfold ring_dr in H; [injection H as <-; rewrite Rabs_R0; cbn; lra|].
  destruct (Nat.eqb (length ps) (length (m :: ms))) eqn:E; [|discriminate H]. apply Nat.eqb_eq in E. injection H as <-.
  pose proof (G (combine (m :: ms) ps) 0) as Q. rewrite Rabs_R0, combine_length, E, Nat.min_id, Rplus_0_l in Q. exact Q.
Qed.
Print Assumptions c91_dam_partial.
Print Assumptions c91_dam_outside.
Print Assumptions c91_dam_refuted.
Print Assumptions c91_dam_shift_refuted.
Print Assumptions c91_dam_edge_refuted.
Print Assumptions c91_density.
Print Assumptions c91_drop.
Print Assumptions c91_drop_share.
Print Assumptions c91_tank_surface.
Print Assumptions c91_tank_pressure.
Print Assumptions c91_tank_balance.
Print Assumptions c91_wave_surface.
Print Assumptions c91_wave_flow.
Print Assumptions c91_wave_speed_partial.
Print Assumptions c91_wave_level_refuted.
Print Assumptions c91_wave_gravity_refuted.
Print Assumptions c91_layers.
Print Assumptions c91_layers_interface.
Print Assumptions c91_layers_refuted.
Print Assumptions c91_bubble.
Print Assumptions c91_scalar.
Print Assumptions c91_ring_divergence.
Print Assumptions c91_ring_rotation.
Print Assumptions c91_ring_sense_refuted.
Print Assumptions c91_ring_azimuth.
Print Assumptions c91_rings_circulation.
Print Assumptions c91_fat_circulation_refuted.
Print Assumptions c91_fat_core.
Print Assumptions c91_rings_mirror.
Print Assumptions c91_rings_phases_refuted.
Print Assumptions c91_rings_waves.
