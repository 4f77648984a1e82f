From Coq Require Import Arith QArith Qreals Lia Lra Lqa.
From Verif Require Import BaseFacts.
From Coq Require Import Lra.
From Verif Require Import InterpSpec InterpProofs InterpProofs2.
From Verif Require Import BoxR BoxRFacts VecSpace VecSpaceSpec VecSpaceProofs DiskSpec JoukProofs Interp Radar RadarSpec RadarProofs.
Local Close Scope Q_scope.
Local Open Scope list_scope.
Local Open Scope R_scope.

(** ** Interpolation depends on the value of the abscissa only *)
Section congruence.
Local Open Scope Q_scope.
Lemma Qltb_comp a b a' b' : a == a' -> b == b' -> Base.Qltb a b = Base.Qltb a' b'.
Proof.
  intros A B. destruct (Base.Qltb a b) eqn:E; symmetry.
  - apply Qltb_true in E. apply Qltb_true. Lqa.lra.
  - apply Qltb_false in E. apply Qltb_false. Lqa.lra.
Qed.
Lemma Qleb_comp a b a' b' : a == a' -> b == b' -> Base.Qleb a b = Base.Qleb a' b'.
Proof.
  intros A B. destruct (Base.Qleb a b) eqn:E; symmetry.
  - apply Qleb_true in E. apply Qleb_true. Lqa.lra.
  - apply Qleb_false in E. apply Qleb_false. Lqa.lra.
Qed.
Lemma check_bounds_comp xs x x' : x == x' -> check_bounds xs x = check_bounds xs x'.
Proof.
  intros H. unfold check_bounds. cbv zeta. destruct (length xs <? 2)%nat; [reflexivity|].
  destruct (rd xs 0) as [a| |]; cbn [Base.obind]; try reflexivity.
  rewrite (Qltb_comp x a x' a) by (assumption || reflexivity).
  destruct (Base.Qltb x' a); [reflexivity|].
  destruct (rd xs (length xs - 1)) as [b| |]; cbn [Base.obind]; try reflexivity.
  rewrite (Qltb_comp b x b x') by (assumption || reflexivity). reflexivity.
Qed.
Lemma bisect_comp fuel xs x x' xl : x == x' -> forall il ir n, bisect_loop fuel xs x xl il ir n = bisect_loop fuel xs x' xl il ir n.
Proof.
  intros H. induction fuel as [|fuel IH]; intros il ir n; cbn [bisect_loop]; [reflexivity|].
  destruct (1 <? ir - il)%nat; [|reflexivity]. cbv zeta.
  destruct (rd xs (Nat.div2 (il + ir))) as [m| |]; cbn [Base.obind]; try reflexivity.
  rewrite (Qleb_comp ((x - m) * (x - xl)) 0 ((x' - m) * (x' - xl)) 0) by (try reflexivity; rewrite H; reflexivity).
  destruct (Base.Qleb _ 0); apply IH.
Qed.
Lemma linear_comp xs ys x x' v : x == x' -> linear xs ys x 1 0 = Base.Ret v ->
  exists v', linear xs ys x' 1 0 = Base.Ret v' /\ v == v'.
Proof.
  intros H. unfold linear.
  assert (B : bisection_search xs x = bisection_search xs x').
  { unfold bisection_search, bisection_search_probes. rewrite (check_bounds_comp xs x x' H).
    destruct (check_bounds xs x') as [[i []]| |]; cbn [Base.obind lim]; try reflexivity.
    destruct (rd xs 0) as [a| |]; cbn [Base.obind]; try reflexivity. rewrite (bisect_comp _ xs x x' a H). reflexivity. }
  rewrite B. destruct (bisection_search xs x') as [[i l]| |]; cbn [Base.obind]; try discriminate.
  unfold linear_impl. cbn [lim Interp.ix]. destruct l; try (intros E; exists v; split; [exact E|reflexivity]).
  destruct (rd xs (i + 1)) as [x1| |]; cbn [Base.obind]; try discriminate.
  destruct (rd xs i) as [x0| |]; cbn [Base.obind]; try discriminate. cbv zeta.
  destruct (rd ys (1 * i + 0)) as [y0| |]; cbn [Base.obind]; try discriminate.
  destruct (rd ys (1 * (i + 1) + 0)) as [y1| |]; cbn [Base.obind]; try discriminate.
  intros E. injection E as <-. eexists. split; [reflexivity|].
  destruct (Base.Qltb feps (x1 - x0)); [rewrite H|]; reflexivity.
Qed.
Lemma fmod_spec t p : 0 < p -> 0 <= t -> exists k : Z, fmod t p == t - inject_Z k * p /\ 0 <= fmod t p /\ fmod t p < p.
Proof.
  intros P T. unfold fmod, qtrunc.
  assert (D : 0 <= t / p) by (apply Qle_shift_div_l; Lqa.lra).
  replace (Base.Qltb (t / p) 0) with false by (symmetry; apply Qltb_false; exact D).
  unfold Base.qfloor. set (k := Qfloor (t / p)). exists k. split; [ring|].
  pose proof (Qfloor_le (t / p)) as A. pose proof (Qlt_floor (t / p)) as B. fold k in A, B. rewrite inject_Z_plus in B.
  assert (E : t == t / p * p) by (field; Lqa.lra). change (inject_Z 1) with 1 in B.
  set (q := t / p) in *. set (z := inject_Z k) in *. clearbody z q. rewrite E. split; Lqa.nra.
Qed.
Lemma fmod_unique t p k : 0 < p -> 0 <= t -> forall r, 0 <= r -> r < p -> t == r + inject_Z k * p -> fmod t p == r.
Proof.
  intros P T r R0 R1 E. destruct (fmod_spec t p P T) as (j & F & F0 & F1).
  set (f := fmod t p) in *. assert (D : f - r == inject_Z (k - j) * p).
  { rewrite F, E. unfold Z.sub. rewrite inject_Z_plus, inject_Z_opp. ring. }
  assert (K : (k - j = 0)%Z).
  { destruct (Z.lt_trichotomy (k - j) 0) as [L|[L|L]]; [exfalso|exact L|exfalso].
    - assert (inject_Z (k - j) <= -1) by (change (-1) with (inject_Z (-1)); rewrite <- Zle_Qle; lia).
      set (z := inject_Z (k - j)) in *. clearbody f z. assert (z * p <= -1 * p) by (apply Qmult_le_compat_r; Lqa.lra). Lqa.lra.
    - assert (1 <= inject_Z (k - j)) by (change 1 with (inject_Z 1); rewrite <- Zle_Qle; lia).
      set (z := inject_Z (k - j)) in *. clearbody f z. assert (1 * p <= z * p) by (apply Qmult_le_compat_r; Lqa.lra). Lqa.lra. }
  rewrite K in D. change (inject_Z 0) with 0 in D. Lqa.lra.
Qed.
End congruence.

(** ** Sweep over several periods *)
Lemma angle_lipschitz c p q : 0 < r_sweep c -> 0 < r_speed c -> 0 <= r_reset c -> 0 <= p -> p <= q ->
  Rabs (sweep_angle c q - sweep_angle c p) <= r_speed c * (q - p).
Proof.
  intros HS HW HR Hp Hq. unfold sweep_angle, operation_phase. cbv zeta.
  set (s := r_sweep c) in *. set (w := r_speed c) in *. set (r := r_reset c) in *.
  assert (E : s = w * (s / w)) by (field; lra). set (tau := s / w) in *. clearbody tau s w r. subst s.
  assert (0 < tau) by nra. apply Rabs_le.
  assert (M : forall x y, x <= y -> w * x <= w * y) by (intros; apply Rmult_le_compat_l; lra).
  destruct (Rltb p tau) eqn:E1; [apply Rltb_spec in E1|apply Rltb_false in E1;
   destruct (Rltb p (tau + r)) eqn:E2; [apply Rltb_spec in E2|apply Rltb_false in E2;
    destruct (Rltb p (2 * tau + r)) eqn:E3; [apply Rltb_spec in E3|apply Rltb_false in E3]]];
  (destruct (Rltb q tau) eqn:F1; [apply Rltb_spec in F1|apply Rltb_false in F1;
   destruct (Rltb q (tau + r)) eqn:F2; [apply Rltb_spec in F2|apply Rltb_false in F2;
    destruct (Rltb q (2 * tau + r)) eqn:F3; [apply Rltb_spec in F3|apply Rltb_false in F3]]]); try lra.
  all: try (split; nra).
Qed.
Lemma angle_bound c p : 0 < r_sweep c -> 0 < r_speed c -> 0 <= r_reset c -> 0 <= p ->
  - (r_sweep c / 2) <= sweep_angle c p <= r_sweep c / 2.
Proof.
  intros HS HW HR Hp. unfold sweep_angle, operation_phase. cbv zeta.
  set (s := r_sweep c) in *. set (w := r_speed c) in *. set (r := r_reset c) in *.
  assert (E : s = w * (s / w)) by (field; lra). set (tau := s / w) in *. clearbody tau s w r. subst s.
  assert (0 < tau) by nra.
  destruct (Rltb p tau) eqn:E1; [apply Rltb_spec in E1; split; nra|apply Rltb_false in E1;
   destruct (Rltb p (tau + r)) eqn:E2; [apply Rltb_spec in E2; split; nra|apply Rltb_false in E2;
    destruct (Rltb p (2 * tau + r)) eqn:E3; [apply Rltb_spec in E3; split; nra|apply Rltb_false in E3; split; nra]]].
Qed.
Lemma period_pos c : 0 < r_sweep c -> 0 < r_speed c -> 0 <= r_reset c -> 0 < total_sweep_time c.
Proof.
  intros. unfold total_sweep_time. assert (0 < r_sweep c / r_speed c) by (apply Rdiv_lt_0_compat; assumption). lra.
Qed.
Lemma angle_lipschitz_all c T T' : 0 < r_sweep c -> 0 < r_speed c -> 0 <= r_reset c -> T <= T' ->
  Rabs (sweep_angle c (periodic_time c T') - sweep_angle c (periodic_time c T)) <= r_speed c * (T' - T).
Proof.
  intros HS HW HR HT. pose proof (period_pos c HS HW HR) as P.
  pose proof (periodic_range c T P) as A. pose proof (periodic_range c T' P) as B.
  set (p := periodic_time c T) in *. set (q := periodic_time c T') in *.
  set (k := rfloor (T / total_sweep_time c)). set (k' := rfloor (T' / total_sweep_time c)).
  assert (E : T = p + IZR k * total_sweep_time c) by (unfold p, periodic_time, k; ring).
  assert (E' : T' = q + IZR k' * total_sweep_time c) by (unfold q, periodic_time, k'; ring).
  clearbody p q k k'. set (P0 := total_sweep_time c) in *.
  destruct (Z.lt_trichotomy k k') as [L|[L|L]].
  - assert (K : IZR k + 1 <= IZR k') by (rewrite <- plus_IZR; apply IZR_le; lia).
    assert (D : P0 - p + q <= T' - T) by (rewrite E, E'; nra).
    assert (Z0 : sweep_angle c P0 = - r_sweep c / 2 /\ sweep_angle c 0 = - r_sweep c / 2).
    { pose proof (sweep_shape c P0 HS HW HR ltac:(lra)) as (_ & _ & _ & S).
      pose proof (sweep_shape c 0 HS HW HR ltac:(lra)) as (S' & _).
      assert (0 < r_sweep c / r_speed c) by (apply Rdiv_lt_0_compat; assumption).
      rewrite S by (unfold P0, total_sweep_time; lra). rewrite S' by lra. split; lra. }
    pose proof (angle_lipschitz c p P0 HS HW HR ltac:(lra) ltac:(lra)) as L1.
    pose proof (angle_lipschitz c 0 q HS HW HR ltac:(lra) ltac:(lra)) as L2.
    destruct Z0 as [Z1 Z2]. rewrite Z1 in L1. rewrite Z2 in L2.
    replace (sweep_angle c q - sweep_angle c p) with
      ((sweep_angle c q - - r_sweep c / 2) + (- r_sweep c / 2 - sweep_angle c p)) by ring.
    eapply Rle_trans; [apply Rabs_triang|]. assert (r_speed c * (P0 - p + q) <= r_speed c * (T' - T)) by (apply Rmult_le_compat_l; lra). lra.
  - subst k'. replace (T' - T) with (q - p) by (rewrite E, E'; ring).
    apply angle_lipschitz; try assumption; try lra.
  - exfalso. assert (K : IZR k' + 1 <= IZR k) by (rewrite <- plus_IZR; apply IZR_le; lia). nra.
Qed.

(** ** Rays add up along the axis *)
Lemma cos5 : cos (2 * PI / INR ntheta * INR 0) + (cos (2 * PI / INR ntheta * INR 1) + (cos (2 * PI / INR ntheta * INR 2)
   + (cos (2 * PI / INR ntheta * INR 3) + (cos (2 * PI / INR ntheta * INR 4) + 0)))) = 0.
Proof.
  pose proof (cos_sum_zero 5 0 (-1) ltac:(lia) ltac:(discriminate)) as E.
  unfold sum1 in E. cbn [map seq rsum fold_right] in E.
  assert (K : forall j, 0 - -1 * (INR j * (2 * PI / INR 5)) = 2 * PI / INR ntheta * INR j) by (intros; unfold ntheta; ring).
  rewrite !K in E. exact E.
Qed.
Lemma sin5 : sin (2 * PI / INR ntheta * INR 0) + (sin (2 * PI / INR ntheta * INR 1) + (sin (2 * PI / INR ntheta * INR 2)
   + (sin (2 * PI / INR ntheta * INR 3) + (sin (2 * PI / INR ntheta * INR 4) + 0)))) = 0.
Proof.
  pose proof (cos_sum_zero 5 (- (PI / 2)) (-1) ltac:(lia) ltac:(discriminate)) as E.
  unfold sum1 in E. cbn [map seq rsum fold_right] in E.
  assert (K : forall j, cos (- (PI / 2) - -1 * (INR j * (2 * PI / INR 5))) = sin (2 * PI / INR ntheta * INR j)).
  { intros j. rewrite cos_sin, <- (sin_period_Z _ 0). f_equal. unfold ntheta. field. cbn. lra. }
  rewrite !K in E. exact E.
Qed.
Lemma weighted_app a b : forall x y, length a = length x -> weighted (a ++ b) (x ++ y) = weighted a x + weighted b y.
Proof. induction a as [|w a IH]; intros [|v x] y L; cbn in *; try lra; try discriminate. rewrite IH by lia. ring. Qed.
Lemma ring_xy (f : vec -> R) g (K : R -> R) (H : forall tau, -1 <= tau <= 1 -> exists q,
      f (cap_ray tau 0) + (f (cap_ray tau 1) + (f (cap_ray tau 2) + (f (cap_ray tau 3) + (f (cap_ray tau 4) + 0)))) = q /\ q = 0) :
  forall ws xs, length ws = length xs -> (forall x, In x xs -> 0 <= x <= 1) ->
  weighted (flat_map (fun w => map (fun _ => K w) (seq 0 ntheta)) ws)
    (map f (flat_map (fun x => map (cap_ray (cap_tau g x)) (seq 0 ntheta)) xs)) = 0.
Proof.
  induction ws as [|w ws IH]; intros [|x xs] L X; cbn [flat_map]; try discriminate; [reflexivity|].
  rewrite map_app, weighted_app by reflexivity. rewrite IH; [|cbn in L; lia|intros; apply X; right; assumption].
  cbn [map seq ntheta weighted].
  pose proof (cap_tau_range g x (X x (or_introl eq_refl))). pose proof (COS_bound g).
  destruct (H (cap_tau g x) ltac:(lra)) as (q & Q & Q0).
  transitivity (K w * q); [rewrite <- Q; ring|rewrite Q0; ring].
Qed.
Lemma rays_x c : weighted (weights c) (map vx (rays c)) = 0.
Proof.
  unfold weights, rays, cap_weights, cap_rays. cbn [map weighted vx]. rewrite Rmult_0_r, Rplus_0_l.
  apply (ring_xy vx (radians (r_cone c)) (fun w => 2 * PI / INR ntheta * cap_weight (radians (r_cone c)) w)).
  - intros tau T. eexists. split; [reflexivity|]. rewrite !cap_ray_eq by exact T. unfold cap_raw. cbv zeta. cbn [vx].
    set (q := sqrt _). pose proof cos5 as E. match type of E with ?s = 0 => transitivity (q * s); [ring|rewrite E; ring] end.
  - reflexivity.
  - intros x H. apply half_locs_range. right. exact H.
Qed.
Lemma rays_y c : weighted (weights c) (map vy (rays c)) = 0.
Proof.
  unfold weights, rays, cap_weights, cap_rays. cbn [map weighted vy]. rewrite Rmult_0_r, Rplus_0_l.
  apply (ring_xy vy (radians (r_cone c)) (fun w => 2 * PI / INR ntheta * cap_weight (radians (r_cone c)) w)).
  - intros tau T. eexists. split; [reflexivity|]. rewrite !cap_ray_eq by exact T. unfold cap_raw. cbv zeta. cbn [vy].
    set (q := sqrt _). pose proof sin5 as E. match type of E with ?s = 0 => transitivity (q * s); [ring|rewrite E; ring] end.
  - reflexivity.
  - intros x H. apply half_locs_range. right. exact H.
Qed.
Lemma weighted_lin a b d ws : forall l, weighted ws (map (fun r => vx r * a + vy r * b + vz r * d) l)
  = a * weighted ws (map vx l) + b * weighted ws (map vy l) + d * weighted ws (map vz l).
Proof.
  induction ws as [|w ws IH]; intros [|r l]; cbn [map weighted]; try ring. rewrite IH. ring.
Qed.
Lemma map_nth_seq {A B} (f : A -> B) d l : map (fun j => f (nth j l d)) (seq 0 (length l)) = map f l.
Proof.
  induction l as [|x l IH]; [reflexivity|]. cbn [length seq map nth]. f_equal.
  rewrite <- seq_shift, map_map. exact IH.
Qed.

(** ** Clock, in units of the sampling interval *)
Lemma rceil_spec x : x <= IZR (rceil x) < x + 1.
Proof. unfold rceil. rewrite opp_IZR. pose proof (rfloor_spec (- x)). lra. Qed.
Lemma dts_pos c : 0 < r_freq c -> 0 < dts c.
Proof. intros. unfold dts. apply Rdiv_lt_0_compat; lra. Qed.
