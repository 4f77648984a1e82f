From Coq Require Import Arith QArith Qreals Lia Lra.
From Verif Require Import BoxR BoxRFacts VecSpace VecSpaceSpec VecSpaceProofs Interp Radar RadarSpec.
Local Close Scope Q_scope.
Local Open Scope list_scope.
Local Open Scope R_scope.

Lemma veps_pos : 0 < veps. Proof. unfold veps. lra. Qed.
Lemma veps_lt1 : veps < 1. Proof. unfold veps. lra. Qed.

(** ** Rotations *)
Lemma vnormalize_unitv v : veps <= len v -> vnormalize v = unitv v.
Proof.
  intros H. unfold vnormalize. rewrite vmag_len.
  replace (Rltb (len v) veps) with false by (symmetry; apply Rltb_false; exact H). reflexivity.
Qed.
Lemma len_zero : len (V3 0 0 0) = 0.
Proof. unfold len, inner; cbn. replace (0 * 0 + 0 * 0 + 0 * 0) with 0 by ring. apply sqrt_0. Qed.
Lemma far_nonzero v : veps <= len v -> v <> V3 0 0 0.
Proof. intros H ->. rewrite len_zero in H. pose proof veps_pos. lra. Qed.
Lemma unitv_idem v : v <> V3 0 0 0 -> unitv (unitv v) = unitv v.
Proof. intros H. apply unitv_of_unit, unitv_unit, H. Qed.
Lemma unit_nonzero v : inner v v = 1 -> v <> V3 0 0 0.
Proof. intros H ->. unfold inner in H; cbn in H. lra. Qed.
Lemma unit_len v : inner v v = 1 -> len v = 1.
Proof. intros H. unfold len. rewrite H. apply sqrt_1. Qed.

Lemma rotate_some ax a v : veps <= len ax -> rotate ax a v = Some (turned (unitv ax) (radians a) v).
Proof.
  intros H. unfold rotate. rewrite vmag_len.
  replace (Rltb (len ax) veps) with false by (symmetry; apply Rltb_false; exact H). f_equal.
  pose proof (far_nonzero _ H) as N. rewrite vnormalize_unitv by exact H.
  rewrite (vapp_turned _ (unitv ax) a).
  - rewrite unitv_idem by exact N. reflexivity.
  - apply rot_q, unit_nonzero, unitv_unit, N.
Qed.
Lemma rotate_none ax a v : len ax < veps -> rotate ax a v = None.
Proof.
  intros H. unfold rotate. rewrite vmag_len.
  replace (Rltb (len ax) veps) with true by (symmetry; apply Rltb_spec; exact H). reflexivity.
Qed.
Lemma rotate_unit ax a v : inner ax ax = 1 -> rotate ax a v = Some (turned ax (radians a) v).
Proof.
  intros H. rewrite rotate_some; [rewrite unitv_of_unit by exact H; reflexivity|].
  rewrite unit_len by exact H. pose proof veps_lt1. lra.
Qed.

Lemma vscale_lin v f : vscale v f = lin f v 0 (V3 0 0 0).
Proof. unfold vscale, lin; cbn. apply vec_eq; ring. Qed.
Lemma turned_scale n t v f : turned n t (vscale v f) = vscale (turned n t v) f.
Proof. unfold turned, vscale, inner; cbn. apply vec_eq; ring. Qed.
Lemma inner_scale v w f g : inner (vscale v f) (vscale w g) = f * g * inner v w.
Proof. unfold inner, vscale; cbn. ring. Qed.

(** ** The cone *)
Definition zax : vec := V3 0 0 1.
Definition tilt (a : vec) (p : vec) : vec :=
  turned (unitv (vcross zax a)) (acos (vdot a zax)) p.
Lemma cross_z a : vcross zax a = V3 (- vy a) (vx a) 0.
Proof. unfold vcross, zax; cbn. apply vec_eq; ring. Qed.
Lemma cross_len a : len (vcross zax a) = sqrt (vx a * vx a + vy a * vy a).
Proof. rewrite cross_z. unfold len, inner; cbn. f_equal. ring. Qed.
Lemma radians_deg x : radians (x * 180 / PI) = x.
Proof. unfold radians. pose proof PI_RGT_0. field. lra. Qed.

Lemma tilt_z a : inner a a = 1 -> off_vertical a -> tilt a zax = a.
Proof.
  intros U O. unfold off_vertical in O. rewrite <- cross_len in O.
  pose proof (far_nonzero _ O) as N. pose proof (len_pos _ N) as L. pose proof (len_sqr (vcross zax a)) as LS.
  unfold tilt. set (n := vcross zax a) in *. unfold turned.
  assert (Dz : vdot a zax = vz a) by (unfold vdot, zax; cbn; ring). rewrite Dz.
  assert (B : -1 <= vz a <= 1) by (unfold inner in U; nra).
  rewrite cos_acos by exact B. rewrite sin_acos by exact B.
  assert (S : sqrt (1 - (vz a)²) = len n).
  { unfold n. rewrite cross_len. f_equal. unfold Rsqr, inner in *. lra. }
  rewrite S. unfold unitv, inner, zax; cbn [vx vy vz].
  subst n. rewrite cross_z in *. cbn [vx vy vz]. destruct a as [ax ay az]; cbn [vx vy vz] in *.
  set (l := len _) in *. apply vec_eq; field; lra.
Qed.
Lemma tilt_inner a v w : off_vertical a -> inner (tilt a v) (tilt a w) = inner v w.
Proof.
  intros O. unfold off_vertical in O. rewrite <- cross_len in O. apply turned_inner, unitv_unit, far_nonzero, O.
Qed.

Lemma cone_point_some c n j : off_vertical (r_axis c) ->
  cone_point c n j = Some (vscale (tilt (r_axis c) (nth j (rays c) vzero)) (INR n / INR (r_npts c) * r_beam c)).
Proof.
  intros O. unfold cone_point. cbv zeta. change (V3 0 0 1) with zax.
  unfold off_vertical in O. rewrite <- cross_len in O.
  rewrite rotate_some by exact O. cbn [obind_]. rewrite radians_deg, turned_scale. fold (tilt (r_axis c) (nth j (rays c) vzero)).
  f_equal. unfold vscale; cbn [vx vy vz]. unfold Rdiv. apply vec_eq; ring.
Qed.
Lemma cone_point_none c n j : ~ off_vertical (r_axis c) -> cone_point c n j = None.
Proof.
  intros O. unfold cone_point. cbv zeta. change (V3 0 0 1) with zax.
  unfold off_vertical in O. rewrite <- cross_len in O. rewrite rotate_none by lra. reflexivity.
Qed.

(** ** Aiming *)
Definition aimed (a v : vec) (sw el : R) (p : vec) : vec :=
  let s := turned v (radians sw) a in turned (vcross (vneg v) s) (radians el) (turned v (radians sw) p).
Lemma turned_perp n t p : inner p n = 0 ->
  turned n t p = lin (cos t) p (sin t) (V3 (vy n * vz p - vz n * vy p) (vz n * vx p - vx n * vz p) (vx n * vy p - vy n * vx p)).
Proof.
  intros H. unfold turned, lin. replace (inner n p) with 0 by (unfold inner in *; lra). cbn. apply vec_eq; ring.
Qed.
Lemma turned_axis1 n t : inner n n = 1 -> turned n t n = n.
Proof.
  intros H. pose proof (turned_axis n t 1 H) as E. destruct n as [a b d]; cbn [vx vy vz] in *.
  rewrite !Rmult_1_l in E. exact E.
Qed.
Lemma elev_axis_unit v s : inner v v = 1 -> inner s s = 1 -> inner s v = 0 -> inner (vcross (vneg v) s) (vcross (vneg v) s) = 1.
Proof.
  intros A B C. transitivity (inner v v * inner s s - inner s v * inner s v).
  - unfold inner, vcross, vneg; cbn. ring.
  - rewrite A, B, C. ring.
Qed.
Lemma swept_ortho a v t : orthonormal a v -> inner (turned v t a) (turned v t a) = 1 /\ inner (turned v t a) v = 0.
Proof.
  intros (A & B & C). split; [rewrite turned_inner by exact B; exact A|].
  rewrite <- (turned_axis1 v t B) at 2. rewrite turned_inner by exact B. exact C.
Qed.
Lemma aim_some c sw el p : orthonormal (r_axis c) (r_vert c) -> aim c sw el p = Some (aimed (r_axis c) (r_vert c) sw el p).
Proof.
  intros O. pose proof O as (A & B & C). unfold aim. rewrite rotate_unit by exact B. cbn [obind_].
  rewrite vnormalize_unitv by (rewrite unit_len by exact B; pose proof veps_lt1; lra).
  rewrite unitv_of_unit by exact B. rewrite rotate_unit by exact B. cbn [obind_].
  destruct (swept_ortho _ _ (radians sw) O) as [S1 S2].
  rewrite rotate_unit by (apply elev_axis_unit; assumption). reflexivity.
Qed.
Lemma aimed_inner a v sw el p q : orthonormal a v -> inner (aimed a v sw el p) (aimed a v sw el q) = inner p q.
Proof.
  intros O. pose proof O as (A & B & C). unfold aimed. cbv zeta.
  destruct (swept_ortho _ _ (radians sw) O) as [S1 S2].
  rewrite turned_inner by (apply elev_axis_unit; assumption). apply turned_inner, B.
Qed.
Lemma aimed_scale a v sw el p f : aimed a v sw el (vscale p f) = vscale (aimed a v sw el p) f.
Proof. unfold aimed. cbv zeta. rewrite !turned_scale. reflexivity. Qed.
Lemma aimed_axis a v sw el : orthonormal a v -> aimed a v sw el a = pointing a v sw el.
Proof.
  intros O. pose proof O as (A & B & C). unfold aimed, pointing. cbv zeta.
  destruct (swept_ortho _ _ (radians sw) O) as [S1 S2]. set (s := turned v (radians sw) a) in *.
  rewrite turned_perp.
  2: { unfold inner, vcross, vneg; cbn. ring. }
  rewrite <- (turned_perp v (radians sw) a C). fold s. f_equal.
  unfold vcross, vneg; cbn [vx vy vz]. destruct v as [v1 v2 v3], s as [s1 s2 s3]. unfold inner in S1, S2, B; cbn [vx vy vz] in *.
  apply vec_eq.
  - transitivity (v1 * (s1 * s1 + s2 * s2 + s3 * s3) - s1 * (s1 * v1 + s2 * v2 + s3 * v3)); [ring|rewrite S1, S2; ring].
  - transitivity (v2 * (s1 * s1 + s2 * s2 + s3 * s3) - s2 * (s1 * v1 + s2 * v2 + s3 * v3)); [ring|rewrite S1, S2; ring].
  - transitivity (v3 * (s1 * s1 + s2 * s2 + s3 * s3) - s3 * (s1 * v1 + s2 * v2 + s3 * v3)); [ring|rewrite S1, S2; ring].
Qed.
Lemma pointing_unit a v sw el : orthonormal a v -> inner (pointing a v sw el) (pointing a v sw el) = 1.
Proof. intros O. rewrite <- aimed_axis by exact O. rewrite aimed_inner by exact O. apply O. Qed.

(** ** Rays *)
Lemma cap_tau_eq g x : cap_tau g x = 1 - x * (1 - cos g).
Proof. unfold cap_tau. lra. Qed.
Lemma cap_tau_range g x : 0 <= x <= 1 -> cos g <= cap_tau g x <= 1.
Proof. intros H. rewrite cap_tau_eq. pose proof (COS_bound g). nra. Qed.
Lemma half_locs_range x : In x half_locs -> 0 <= x <= 1.
Proof. unfold half_locs. cbn [In]. intros H. repeat destruct H as [<-|H]; try lra; contradiction. Qed.
Lemma half_weights_pos w : In w half_weights -> 0 < w.
Proof. unfold half_weights. cbn [In]. intros H. repeat destruct H as [<-|H]; try lra; contradiction. Qed.
Definition cap_raw (tau : R) (i : nat) : vec :=
  let theta := 2 * PI / INR ntheta * INR i in V3 (sqrt (1 - tau * tau) * cos theta) (sqrt (1 - tau * tau) * sin theta) tau.
Lemma cap_raw_unit tau i : -1 <= tau <= 1 -> inner (cap_raw tau i) (cap_raw tau i) = 1.
Proof.
  intros H. unfold cap_raw, inner. cbv zeta. cbn [vx vy vz]. set (th := _ * INR i).
  assert (0 <= 1 - tau * tau) by nra. pose proof (sqrt_sqrt _ H0) as S. pose proof (sc1 th) as E.
  set (q := sqrt _) in *. transitivity (q * q * (sin th * sin th + cos th * cos th) + tau * tau); [ring|rewrite E, S; ring].
Qed.
Lemma cap_ray_eq tau i : -1 <= tau <= 1 -> cap_ray tau i = cap_raw tau i.
Proof.
  intros H. unfold cap_ray. cbv zeta. fold (cap_raw tau i).
  pose proof (cap_raw_unit tau i H) as U. unfold cap_raw in U at 1 2.
  change (V3 (sqrt (1 - tau * tau) * cos (2 * PI / INR ntheta * INR i)) (sqrt (1 - tau * tau) * sin (2 * PI / INR ntheta * INR i)) tau) with (cap_raw tau i) in *.
  rewrite vnormalize_unitv by (rewrite unit_len by exact U; pose proof veps_lt1; lra). apply unitv_of_unit, U.
Qed.
Lemma rays_length g : length (cap_rays g) = nquad.
Proof. reflexivity. Qed.
Lemma weights_length g : length (cap_weights g) = nquad.
Proof. reflexivity. Qed.
Lemma rays_in g r : In r (cap_rays g) -> inner r r = 1 /\ cos g <= inner r zax <= 1.
Proof.
  unfold cap_rays. intros [<-|H].
  - unfold inner, zax; cbn. pose proof (COS_bound g). lra.
  - apply in_flat_map in H. destruct H as (x & Hx & H). apply in_map_iff in H. destruct H as (i & <- & _).
    assert (X : 0 <= x <= 1) by (apply half_locs_range; right; exact Hx).
    pose proof (cap_tau_range g x X) as T. pose proof (COS_bound g).
    rewrite cap_ray_eq by lra. split; [apply cap_raw_unit; lra|].
    unfold inner, cap_raw, zax; cbn [vx vy vz]. lra.
Qed.
Lemma weights_in g w : cos g < 1 -> In w (cap_weights g) -> 0 < w.
Proof.
  intros G. pose proof PI_RGT_0.
  assert (K : forall x, 0 < x -> 0 < cap_weight g x) by (intros; unfold cap_weight; nra).
  unfold cap_weights. intros [<-|H0].
  - apply Rmult_lt_0_compat; [lra|]. apply K, half_weights_pos. left. reflexivity.
  - apply in_flat_map in H0. destruct H0 as (x & Hx & H0). apply in_map_iff in H0. destruct H0 as (i & <- & _).
    apply Rmult_lt_0_compat; [|apply K, half_weights_pos; right; exact Hx].
    cbn [INR ntheta]. lra.
Qed.

(** ** Averages *)
Lemma fold_plus l : forall a, fold_left Rplus l a = a + total l.
Proof. induction l as [|x l IH]; intros a; cbn [fold_left total]; [ring|rewrite IH; ring]. Qed.
Lemma weighted_eq ws : forall xs, total (map (fun wv => fst wv * snd wv) (combine ws xs)) = weighted ws xs.
Proof. induction ws as [|w ws IH]; intros [|x xs]; cbn; try reflexivity. rewrite IH. reflexivity. Qed.
Lemma total_pos ws : (forall w, In w ws -> 0 < w) -> ws <> [] -> 0 < total ws.
Proof.
  intros H N. destruct ws as [|w ws]; [congruence|]. clear N.
  assert (K : forall l, (forall w, In w l -> 0 < w) -> 0 <= total l).
  { induction l as [|x l IH]; intros P; cbn; [lra|]. pose proof (P x (or_introl eq_refl)).
    assert (0 <= total l) by (apply IH; intros; apply P; right; assumption). lra. }
  cbn. pose proof (H w (or_introl eq_refl)). assert (0 <= total ws) by (apply K; intros; apply H; right; assumption). lra.
Qed.
Lemma line_average_eq ws vals : 0 < total ws -> line_average ws vals = weighted ws vals / total ws.
Proof.
  intros H. unfold line_average. rewrite !fold_plus, !Rplus_0_l, weighted_eq.
  replace (Rltb 0 (total ws)) with true by (symmetry; apply Rltb_spec; exact H). reflexivity.
Qed.
Lemma weighted_bounds lo hi ws : forall xs, length ws = length xs -> (forall w, In w ws -> 0 < w) ->
  (forall x, In x xs -> lo <= x <= hi) -> lo * total ws <= weighted ws xs <= hi * total ws.
Proof.
  induction ws as [|w ws IH]; intros [|x xs] L W X; cbn in *; try lra; try discriminate.
  assert (E : lo * total ws <= weighted ws xs <= hi * total ws) by (apply IH; [lia|intros; apply W; auto|intros; apply X; auto]).
  pose proof (W w (or_introl eq_refl)). pose proof (X x (or_introl eq_refl)). nra.
Qed.

(** ** Sweep *)
Lemma periodic_range c T : 0 < total_sweep_time c -> 0 <= periodic_time c T < total_sweep_time c.
Proof.
  intros H. unfold periodic_time. pose proof (rfloor_spec (T / total_sweep_time c)) as [A B].
  set (P := total_sweep_time c) in *. set (k := IZR (rfloor (T / P))) in *.
  assert (E : T = T / P * P) by (field; lra). clearbody k. set (x := T / P) in *. clearbody x P. subst T. split; nra.
Qed.
Lemma periodic_shift c T (k : Z) : 0 < total_sweep_time c ->
  periodic_time c (T + IZR k * total_sweep_time c) = periodic_time c T.
Proof.
  intros H. unfold periodic_time. set (P := total_sweep_time c) in *.
  replace ((T + IZR k * P) / P) with (T / P + IZR k) by (field; lra).
  replace (rfloor (T / P + IZR k)) with (rfloor (T / P) + k)%Z.
  - rewrite plus_IZR. ring.
  - symmetry. apply rfloor_unique. pose proof (rfloor_spec (T / P)). rewrite plus_IZR. lra.
Qed.

Lemma sweep_shape c p : 0 < r_sweep c -> 0 < r_speed c -> 0 <= r_reset c -> 0 <= p ->
  sweeping (r_sweep c) (r_speed c) (r_reset c) p (sweep_angle c p).
Proof.
  intros HS HW HR Hp. unfold sweeping, sweep_angle, operation_phase. cbv zeta.
  set (s := r_sweep c) in *. set (w := r_speed c) in *. set (r := r_reset c) in *.
  assert (E : s = w * (s / w)) by (field; lra). set (tau := s / w) in *. clearbody tau s w r. subst s.
  assert (0 < tau) by nra.
  destruct (Rltb p tau) eqn:E1; [apply Rltb_spec in E1|apply Rltb_false in E1;
   destruct (Rltb p (tau + r)) eqn:E2; [apply Rltb_spec in E2|apply Rltb_false in E2;
    destruct (Rltb p (2 * tau + r)) eqn:E3; [apply Rltb_spec in E3|apply Rltb_false in E3]]];
  repeat split; intros; try lra; try nra.
  all: try (replace p with tau by lra; lra).
  all: try (replace p with (tau + r) by lra; lra).
  all: try (replace p with (2 * tau + r) by lra; lra).
Qed.
