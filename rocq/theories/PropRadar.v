(** C82: A scanning lidar or radar samples along its beam. *)
From Coq Require Import Arith QArith Qreals String Lia Lqa.
From Verif Require Import InterpSpec InterpProofs InterpProofs2.
From Coq Require Import Lra.
From Verif Require Import BoxR BoxRFacts VecSpace VecSpaceSpec VecSpaceProofs Interp Radar RadarSpec RadarProofs RadarProofs2.
Local Close Scope Q_scope.
Local Close Scope string_scope.
Local Open Scope list_scope.
Local Open Scope R_scope.

(** ** Lidar *)

Definition tables (c : lcfg) : Prop :=
  InterpSpec.increasing (l_times c) /\ (2 <= length (l_times c))%nat /\
  length (l_az c) = length (l_times c) /\ length (l_el c) = length (l_times c) /\ spaced (l_times c).

Lemma lidar_end_eq c t a e : length (l_az c) = length (l_times c) -> length (l_el c) = length (l_times c) ->
  l_times c <> [] -> l_periodic c = false ->
  linear (l_times c) (l_az c) t 1 0 = Ret a -> linear (l_times c) (l_el c) t 1 0 = Ret e ->
  lidar_end c t = Ret (along (l_origin c) (l_length c) (heading (Q2R a) (Q2R e))).
Proof.
  intros LA LE N P A E. unfold lidar_end, lidar_init.
  rewrite (proj2 (Nat.eqb_eq _ _) LA), (proj2 (Nat.eqb_eq _ _) LE). cbn [negb].
  assert (R : forall k, (k < length (l_times c))%nat -> exists v, rd (l_times c) k = Ret v).
  { intros k K. unfold rd. destruct (nth_error (l_times c) k) as [v|] eqn:F; [exists v; reflexivity|].
    apply nth_error_None in F. lia. }
  assert (0 < length (l_times c))%nat by (destruct (l_times c); [congruence|cbn; lia]).
  destruct (R (length (l_times c) - 1)%nat ltac:(lia)) as [v1 V1]. destruct (R 0%nat ltac:(lia)) as [v0 V0].
  rewrite V1. cbn [obind]. rewrite V0. cbn [obind]. rewrite P. cbn [obind]. rewrite A. cbn [obind]. rewrite E. cbn [obind].
  f_equal. unfold along, heading. cbn [vx vy vz].
  assert (S1 : sin (radians (90 - Q2R e)) = cos (radians (Q2R e))).
  { unfold radians. rewrite cos_sin, <- sin_PI_x. f_equal. pose proof PI_RGT_0. field. }
  assert (S2 : cos (radians (90 - Q2R e)) = sin (radians (Q2R e))).
  { unfold radians. rewrite cos_sin. rewrite <- sin_PI_x. f_equal. pose proof PI_RGT_0. field. }
  rewrite S1, S2. apply vec_eq; ring.
Qed.

(** The beam has the given length and the interpolated azimuth and elevation, and those of the
    table at its times. *)
Theorem c82_lidar : forall c t, tables c -> l_periodic c = false ->
  exists a e, linear (l_times c) (l_az c) t 1 0 = Ret a /\ linear (l_times c) (l_el c) t 1 0 = Ret e /\
    lidar_end c t = Ret (along (l_origin c) (l_length c) (heading (Q2R a) (Q2R e))) /\
    inner (heading (Q2R a) (Q2R e)) (heading (Q2R a) (Q2R e)) = 1 /\
    (forall k az el, at_ (l_times c) k t -> at_ (l_az c) k az -> at_ (l_el c) k el ->
       lidar_end c t = Ret (along (l_origin c) (l_length c) (heading (Q2R az) (Q2R el)))).
Proof.
  intros c t (I & L & LA & LE & SP) P.
  assert (N : l_times c <> []) by (destruct (l_times c); [cbn in L; lia|discriminate]).
  destruct (linear_total (l_times c) (l_az c) t 1 0 (increasing_nondec _ I) N ltac:(lia) ltac:(lia)) as [a A].
  destruct (linear_total (l_times c) (l_el c) t 1 0 (increasing_nondec _ I) N ltac:(lia) ltac:(lia)) as [e E].
  exists a, e. split; [exact A|]. split; [exact E|].
  assert (R := lidar_end_eq c t a e LA LE N P A E). split; [exact R|]. split.
  - unfold inner, heading; cbn [vx vy vz]. pose proof (sc1 (radians (Q2R a))) as X. pose proof (sc1 (radians (Q2R e))) as Y.
    set (ca := cos (radians (Q2R a))) in *. set (sa := sin (radians (Q2R a))) in *.
    set (ce := cos (radians (Q2R e))) in *. set (se := sin (radians (Q2R e))) in *.
    transitivity (ce * ce * (sa * sa + ca * ca) + se * se); [ring|rewrite X; lra].
  - intros k az el T AZ EL.
    assert (SP0 : k = 0%nat -> forall a b, at_ (l_times c) 0 a -> at_ (l_times c) 1 b -> Qlt feps (b - a)) by (intros; eapply SP; eassumption).
    destruct (linear_node (l_times c) (l_az c) 1 0 k t az I L ltac:(lia) ltac:(lia) T ltac:(replace (1 * k + 0)%nat with k by lia; exact AZ) SP0) as (v & V1 & V2).
    destruct (linear_node (l_times c) (l_el c) 1 0 k t el I L ltac:(lia) ltac:(lia) T ltac:(replace (1 * k + 0)%nat with k by lia; exact EL) SP0) as (w & W1 & W2).
    rewrite A in V1. injection V1 as <-. rewrite E in W1. injection W1 as <-.
    rewrite R, (Qeq_eqR _ _ V2), (Qeq_eqR _ _ W2). reflexivity.
Qed.

Definition once (c : lcfg) : lcfg := LC (l_origin c) (l_length c) (l_times c) (l_az c) (l_el c) false.
(** A periodic table that starts at time zero repeats. *)
Theorem c82_lidar_periodic : forall c t0 t1 t t' (k : Z), tables c -> l_periodic c = true ->
  at_ (l_times c) 0 t0 -> at_ (l_times c) (length (l_times c) - 1) t1 -> (t0 == 0)%Q ->
  (0 <= t)%Q -> (t < t1)%Q -> (0 <= k)%Z -> (t' == t + inject_Z k * t1)%Q ->
  lidar_end c t' = lidar_end (once c) t.
Proof.
  intros c t0 t1 t t' k T P A0 A1 Z0 Ht Ht1 Hk Et.
  destruct (c82_lidar (once c) t T eq_refl) as (a & e & A & E & R & _). rewrite R.
  destruct T as (I & L & LA & LE & SP).
  unfold lidar_end, lidar_init. rewrite (proj2 (Nat.eqb_eq _ _) LA), (proj2 (Nat.eqb_eq _ _) LE). cbn [negb].
  unfold at_ in A0, A1. unfold rd. rewrite A1, A0. cbn [obind]. rewrite P.
  assert (KP : (0 <= inject_Z k)%Q) by (change 0%Q with (inject_Z 0); rewrite <- Zle_Qle; exact Hk).
  assert (PE : (t1 - t0 == t1)%Q) by (rewrite Z0; ring).
  assert (P0 : (0 < t1 - t0)%Q) by Lqa.lra.
  destruct (Qeq_bool (t1 - t0) 0) eqn:Q0; [apply Qeq_bool_iff in Q0; Lqa.lra|]. cbn [obind].
  assert (F : (fmod t' (t1 - t0) == t)%Q).
  { apply (fmod_unique t' (t1 - t0) k P0); try Lqa.lra.
    - rewrite Et. assert (0 <= inject_Z k * t1)%Q by (apply Qmult_le_0_compat; Lqa.lra). Lqa.lra.
    - rewrite Et, PE. reflexivity. }
  destruct (linear_comp (l_times c) (l_az c) t (fmod t' (t1 - t0)) a (Qeq_sym _ _ F) A) as (a' & A' & Ea).
  destruct (linear_comp (l_times c) (l_el c) t (fmod t' (t1 - t0)) e (Qeq_sym _ _ F) E) as (e' & E' & Ee).
  pose proof (lidar_end_eq (once c) (fmod t' (t1 - t0)) a' e' LA LE ltac:(cbn; destruct (l_times c); [cbn in L; lia|discriminate]) eq_refl A' E') as R'.
  rewrite (Qeq_eqR _ _ Ea), (Qeq_eqR _ _ Ee). cbn [l_origin l_length once] in R'.
  change (l_origin (once c)) with (l_origin c). change (l_length (once c)) with (l_length c).
  rewrite <- R'. unfold lidar_end, lidar_init, once. cbn [l_times l_az l_el l_periodic l_origin l_length].
  rewrite (proj2 (Nat.eqb_eq _ _) LA), (proj2 (Nat.eqb_eq _ _) LE). cbn [negb]. unfold rd. rewrite A1, A0. cbn [obind].
  rewrite A', E'. reflexivity.
Qed.

Definition offset_table (p : bool) : lcfg := LC vzero 100 [10%Q; 20%Q] [0%Q; 90%Q] [0%Q; 0%Q] p.
(** A periodic table from 10 to 20: at time 15 the beam should be half way, and is at the first
    entry of the table. *)
Theorem c82_lidar_offset_refuted :
  lidar_end (offset_table false) 15 = Ret (along vzero 100 (heading 45 0)) /\
  lidar_end (offset_table true) 15 = Ret (along vzero 100 (heading 0 0)).
Proof.
  assert (Z : Q2R 0 = 0) by (unfold Q2R; cbn; lra).
  assert (L1 : exists a e, linear [10%Q; 20%Q] [0%Q; 90%Q] 15 1 0 = Ret a /\ linear [10%Q; 20%Q] [0%Q; 0%Q] 15 1 0 = Ret e /\ (a == 45)%Q /\ (e == 0)%Q)
    by (do 2 eexists; split; [vm_compute; reflexivity|]; split; [vm_compute; reflexivity|]; split; reflexivity).
  destruct L1 as (a & e & A & E & Ea & Ee). split.
  - rewrite (lidar_end_eq (offset_table false) 15 a e eq_refl eq_refl ltac:(discriminate) eq_refl A E).
    rewrite (Qeq_eqR _ _ Ea), (Qeq_eqR _ _ Ee), Z. replace (Q2R 45) with 45 by (unfold Q2R; cbn; lra). reflexivity.
  - pose proof (lidar_end_eq (offset_table false) 5 0 0 eq_refl eq_refl ltac:(discriminate) eq_refl eq_refl eq_refl) as R.
    rewrite Z in R. transitivity (lidar_end (offset_table false) 5); [reflexivity|exact R].
Qed.

(** From 350 to 10 degrees the beam goes the long way, through 180. *)
Theorem c82_lidar_wrap_refuted :
  lidar_end (LC vzero 100 [0%Q; 2%Q] [350%Q; 10%Q] [0%Q; 0%Q] false) 1 = Ret (along vzero 100 (heading 180 0)).
Proof.
  assert (Z : Q2R 0 = 0) by (unfold Q2R; cbn; lra).
  assert (L1 : exists a e, linear [0%Q; 2%Q] [350%Q; 10%Q] 1 1 0 = Ret a /\ linear [0%Q; 2%Q] [0%Q; 0%Q] 1 1 0 = Ret e /\ (a == 180)%Q /\ (e == 0)%Q)
    by (do 2 eexists; split; [vm_compute; reflexivity|]; split; [vm_compute; reflexivity|]; split; reflexivity).
  destruct L1 as (a & e & A & E & Ea & Ee).
  rewrite (lidar_end_eq (LC vzero 100 [0%Q; 2%Q] [350%Q; 10%Q] [0%Q; 0%Q] false) 1 a e eq_refl eq_refl ltac:(discriminate) eq_refl A E).
  rewrite (Qeq_eqR _ _ Ea), (Qeq_eqR _ _ Ee), Z. replace (Q2R 180) with 180 by (unfold Q2R; cbn; lra). reflexivity.
Qed.

(** Tables of different lengths are refused. *)
Theorem c82_lidar_sizes : forall c t,
  length (l_az c) <> length (l_times c) \/ length (l_el c) <> length (l_times c) -> lidar_end c t = Abort.
Proof.
  intros c t H. unfold lidar_end, lidar_init.
  destruct (length (l_az c) =? length (l_times c))%nat eqn:A; cbn [negb]; [|reflexivity].
  destruct (length (l_el c) =? length (l_times c))%nat eqn:B; cbn [negb]; [|reflexivity].
  apply Nat.eqb_eq in A, B. destruct H; contradiction.
Qed.

(** ** Sweep *)

Definition swinging (c : rcfg) : Prop := 0 < r_sweep c /\ 0 < r_speed c /\ 0 <= r_reset c.
Definition half_period (c : rcfg) : R := r_sweep c / r_speed c + r_reset c.

(** The beam swings between minus and plus half the sweep at the given speed, resting at each end,
    and repeats. *)
Theorem c82_sweep : forall c (k : Z) p, swinging c -> 0 <= p < 2 * half_period c ->
  sweeping (r_sweep c) (r_speed c) (r_reset c) p
    (sweep_angle c (periodic_time c (IZR k * (2 * half_period c) + p))).
Proof.
  intros c k p (A & B & C) H. change (2 * half_period c) with (total_sweep_time c) in *.
  pose proof (period_pos c A B C) as P. rewrite Rplus_comm, periodic_shift by exact P.
  replace (periodic_time c p) with p; [apply sweep_shape; tauto|].
  unfold periodic_time. replace (rfloor (p / total_sweep_time c)) with 0%Z; [ring|].
  symmetry. apply rfloor_unique. assert (E : p = p / total_sweep_time c * total_sweep_time c) by (field; lra).
  set (x := p / _) in *. clearbody x. split; [|rewrite Rplus_0_l]; nra.
Qed.

(** It never turns faster than the given speed, also from one period to the next, and never leaves
    the sweep. *)
Theorem c82_sweep_rate : forall c T T', swinging c -> T <= T' ->
  Rabs (sweep_angle c (periodic_time c T') - sweep_angle c (periodic_time c T)) <= r_speed c * (T' - T) /\
  - (r_sweep c / 2) <= sweep_angle c (periodic_time c T) <= r_sweep c / 2.
Proof.
  intros c T T' (A & B & C) H. split; [apply angle_lipschitz_all; assumption|].
  apply angle_bound; try assumption. apply periodic_range, period_pos; assumption.
Qed.

(** The elevation is constant during each swing and its rest, and goes through the list in order. *)
Theorem c82_elevation : forall c (k : nat) T e, swinging c ->
  INR k * half_period c <= T < (INR k + 1) * half_period c ->
  nth_error (r_elev c) (k mod length (r_elev c)) = Some e -> elevation c T = Ret e.
Proof.
  intros c k T e (A & B & C) H E. unfold elevation.
  assert (P : 0 < half_period c) by (unfold half_period; assert (0 < r_sweep c / r_speed c) by (apply Rdiv_lt_0_compat; assumption); lra).
  replace (sweep_count c T) with (Z.of_nat k).
  - destruct (r_elev c) as [|x l]; [destruct (k mod length (@nil R))%nat; discriminate|].
    rewrite <- Nat2Z.inj_mod, Nat2Z.id, E. reflexivity.
  - symmetry. unfold sweep_count. fold (half_period c). apply rfloor_unique. rewrite <- INR_IZR_INZ.
    assert (F : T = T / half_period c * half_period c) by (field; lra).
    set (x := T / _) in *. clearbody x. split; nra.
Qed.
Theorem c82_elevation_empty : forall c T n j, r_elev c = [] -> location c T n j = Abort.
Proof. intros c T n j H. unfold location, beam_point, elevation. rewrite H. reflexivity. Qed.

(** ** Points *)

Definition mounted (c : rcfg) : Prop :=
  orthonormal (r_axis c) (r_vert c) /\ off_vertical (r_axis c) /\ (2 <= r_npts c)%nat /\ 2 * veps <= r_beam c.
Definition beam (c : rcfg) (T e : R) : vec :=
  pointing (r_axis c) (r_vert c) (sweep_angle c (periodic_time c T)) e.
Definition ray (c : rcfg) (T e : R) (j : nat) : vec :=
  aimed (r_axis c) (r_vert c) (sweep_angle c (periodic_time c T)) e (tilt (r_axis c) (nth j (rays c) vzero)).

Lemma beam_point_eq c T e n j : orthonormal (r_axis c) (r_vert c) -> off_vertical (r_axis c) -> elevation c T = Ret e ->
  beam_point c T n j = Ret (Some (vscale (ray c T e j) (INR n / INR (r_npts c) * r_beam c))).
Proof.
  intros O V E. unfold beam_point. rewrite E. cbn [obind]. rewrite cone_point_some by exact V. cbn [obind_].
  rewrite aim_some by exact O. rewrite aimed_scale. reflexivity.
Qed.
Lemma ray_zero c T e : orthonormal (r_axis c) (r_vert c) -> off_vertical (r_axis c) -> ray c T e 0 = beam c T e.
Proof.
  intros O V. unfold ray, beam. change (nth 0 (rays c) vzero) with zax. rewrite tilt_z by (try apply O; exact V). apply aimed_axis, O.
Qed.
Lemma ray_inner c T e j v : orthonormal (r_axis c) (r_vert c) -> off_vertical (r_axis c) ->
  inner (ray c T e j) (aimed (r_axis c) (r_vert c) (sweep_angle c (periodic_time c T)) e (tilt (r_axis c) v)) = inner (nth j (rays c) vzero) v.
Proof. intros O V. unfold ray. rewrite aimed_inner by exact O. apply tilt_inner, V. Qed.
Lemma ray_inner2 c T e j i : orthonormal (r_axis c) (r_vert c) -> off_vertical (r_axis c) ->
  inner (ray c T e j) (ray c T e i) = inner (nth j (rays c) vzero) (nth i (rays c) vzero).
Proof. intros O V. exact (ray_inner c T e j (nth i (rays c) vzero) O V). Qed.
Lemma nth_rays c j : (j < nquad)%nat -> In (nth j (rays c) vzero) (rays c).
Proof. intros H. apply nth_In. unfold rays. rewrite rays_length. exact H. Qed.

(** The central ray: equally spaced points along the axis, turned about the vertical by the angle of
    the sweep and raised by the elevation. *)
Theorem c82_beam : forall c T e n, mounted c -> elevation c T = Ret e ->
  location c T n 0 = Ret (Some (along (r_origin c) (INR n / INR (r_npts c) * r_beam c) (beam c T e))).
Proof.
  intros c T e n (O & V & _) E. unfold location. rewrite (beam_point_eq c T e) by assumption. cbn [obind option_map].
  rewrite ray_zero by assumption. f_equal. f_equal. unfold vadd, vscale, along. cbn [vx vy vz]. apply vec_eq; ring.
Qed.
(** The other rays: the same distances, at angles from the central ray that do not exceed the
    half-opening of the cone. *)
Theorem c82_cone : forall c T e j, mounted c -> elevation c T = Ret e -> (j < nquad)%nat ->
  exists u, inner u u = 1 /\ cos (radians (r_cone c)) <= inner u (beam c T e) <= 1 /\
    (forall n, location c T n j = Ret (Some (along (r_origin c) (INR n / INR (r_npts c) * r_beam c) u))) /\
    direction c T j = Ret (Some u).
Proof.
  intros c T e j (O & V & N & B) E Hj. exists (ray c T e j).
  destruct (rays_in _ _ (nth_rays c j Hj)) as [U C].
  assert (UU : inner (ray c T e j) (ray c T e j) = 1) by (rewrite ray_inner2 by assumption; exact U).
  split; [exact UU|]. split; [|split].
  - rewrite <- ray_zero by assumption. rewrite ray_inner2 by assumption. exact C.
  - intros n. unfold location. rewrite (beam_point_eq c T e) by assumption. cbn [obind option_map].
    f_equal. f_equal. unfold vadd, vscale, along. cbn [vx vy vz]. apply vec_eq; ring.
  - unfold direction. rewrite (beam_point_eq c T e) by assumption. cbn [obind option_map]. f_equal. f_equal.
    set (f := INR (r_npts c - 1) / INR (r_npts c) * r_beam c).
    assert (F : veps <= f).
    { unfold f. rewrite minus_INR by lia. assert (2 <= INR (r_npts c)) by (apply (le_INR 2); exact N).
      cbn [INR]. set (m := INR (r_npts c)) in *. pose proof veps_pos.
      assert (1 / 2 <= (m - 1) / m) by (apply (Rmult_le_reg_r m); [lra|]; replace ((m - 1) / m * m) with (m - 1) by (field; lra); lra).
      nra. }
    pose proof veps_pos.
    assert (LF : len (vscale (ray c T e j) f) = f).
    { unfold len. rewrite inner_scale, UU, Rmult_1_r. apply sqrt_square. lra. }
    rewrite vnormalize_unitv by lra. unfold unitv. rewrite LF. unfold vscale. cbn [vx vy vz].
    destruct (ray c T e j) as [r1 r2 r3]; cbn [vx vy vz]. apply vec_eq; field; lra.
Qed.
(** The beam is as long as asked for only in the limit: the last point of a beam stays one spacing
    short of its length. *)
Theorem c82_beam_end_refuted : forall c T e n j p, mounted c -> elevation c T = Ret e -> (j < nquad)%nat ->
  (n < r_npts c)%nat -> beam_point c T n j = Ret (Some p) -> len p <= r_beam c - r_beam c / INR (r_npts c).
Proof.
  intros c T e n j p (O & V & N & B) E Hj Hn H. rewrite (beam_point_eq c T e) in H by assumption. injection H as <-.
  destruct (rays_in _ _ (nth_rays c j Hj)) as [U _].
  unfold len. rewrite inner_scale. rewrite ray_inner2 by assumption. rewrite U, Rmult_1_r.
  pose proof veps_pos. assert (2 <= INR (r_npts c)) by (apply (le_INR 2); exact N). pose proof (pos_INR n).
  assert (Q : INR n <= INR (r_npts c) - 1) by (rewrite <- (minus_INR _ 1) by lia; apply le_INR; lia).
  set (m := INR (r_npts c)) in *. set (x := INR n) in *.
  assert (0 < / m) by (apply Rinv_0_lt_compat; lra). assert (0 < r_beam c * / m) by nra.
  rewrite sqrt_square; unfold Rdiv.
  - replace (r_beam c - r_beam c * / m) with ((m - 1) * (r_beam c * / m)) by (field; lra). nra.
  - nra.
Qed.
(** With a vertical axis no point is defined. *)
Theorem c82_vertical_refuted : forall c T e n j, r_axis c = V3 0 0 1 \/ r_axis c = V3 0 0 (-1) ->
  elevation c T = Ret e -> location c T n j = Ret None.
Proof.
  intros c T e n j H E. unfold location, beam_point. rewrite E. cbn [obind].
  rewrite cone_point_none; [reflexivity|]. unfold off_vertical. intros V. pose proof veps_pos.
  assert (Z : vx (r_axis c) * vx (r_axis c) + vy (r_axis c) * vy (r_axis c) = 0) by (destruct H as [-> | ->]; cbn; ring).
  rewrite Z, sqrt_0 in V. lra.
Qed.
(** A beam of a single point has no direction. *)
Theorem c82_single_point_refuted : forall c T e j, orthonormal (r_axis c) (r_vert c) -> off_vertical (r_axis c) ->
  elevation c T = Ret e -> r_npts c = 1%nat -> direction c T j = Ret (Some vzero).
Proof.
  intros c T e j O V E N. unfold direction. rewrite (beam_point_eq c T e) by assumption. rewrite N. cbn [Nat.sub INR obind option_map].
  f_equal. f_equal. unfold vnormalize. rewrite vmag_len.
  replace (vscale (ray c T e j) (0 / 1 * r_beam c)) with (V3 0 0 0) by (unfold vscale; apply vec_eq; field).
  rewrite len_zero. replace (Rltb 0 veps) with true by (symmetry; apply Rltb_spec, veps_pos). reflexivity.
Qed.

(** ** Velocities *)

Theorem c82_los : forall v u, inner u u = 1 -> los v u = inner v u.
Proof.
  intros [a b d] [x y z] H. unfold inner in *. cbn [vx vy vz] in *. unfold los, unit_projection, vapp, vdot. cbn.
  transitivity ((a * x + b * y + d * z) * (x * x + y * y + z * z)); [ring|rewrite H; ring].
Qed.

Definition opened (c : rcfg) : Prop := cos (radians (r_cone c)) < 1.
Lemma weights_total c : opened c -> 0 < total (weights c).
Proof. intros H. apply total_pos; [intros w; apply weights_in, H|discriminate]. Qed.
(** The average over a cone keeps a common value and stays between the smallest and the largest. *)
Theorem c82_average : forall c vals lo hi, opened c -> length vals = nquad ->
  (forall v, In v vals -> lo <= v <= hi) -> lo <= line_average (weights c) vals <= hi.
Proof.
  intros c vals lo hi H L B. pose proof (weights_total c H) as P. rewrite line_average_eq by exact P.
  destruct (weighted_bounds lo hi (weights c) vals) as [X Y].
  - unfold weights. rewrite weights_length. congruence.
  - intros w. apply weights_in, H.
  - exact B.
  - set (t := total (weights c)) in *. set (y := weighted (weights c) vals) in *.
    split; apply (Rmult_le_reg_r t); try exact P; replace (y / t * t) with y by (field; lra); assumption.
Qed.
(** A cone without opening gives zero whatever the wind. *)
Theorem c82_closed_cone_refuted : forall c vals, r_cone c = 0 -> line_average (weights c) vals = 0.
Proof.
  intros c vals H. unfold line_average. rewrite fold_plus, Rplus_0_l.
  assert (E : total (weights c) = 0).
  { unfold weights. rewrite H. unfold radians. replace (PI * 0 / 180) with 0 by field.
    unfold cap_weights, cap_weight. rewrite cos_0. cbn [flat_map map seq ntheta tl hd half_weights total app]. ring. }
  rewrite E. replace (Rltb 0 0) with false by (symmetry; apply Rltb_false; lra). reflexivity.
Qed.

(** The mean cosine of the rays of a cone with its axis. *)
Definition narrowing (c : rcfg) : R := weighted (weights c) (map vz (rays c)) / total (weights c).
Lemma narrowing_bounds c : opened c -> cos (radians (r_cone c)) <= narrowing c <= 1.
Proof.
  intros H. unfold narrowing. pose proof (weights_total c H) as P.
  destruct (weighted_bounds (cos (radians (r_cone c))) 1 (weights c) (map vz (rays c))) as [X Y].
  - rewrite map_length. unfold weights, rays. rewrite weights_length, rays_length. reflexivity.
  - intros w. apply weights_in, H.
  - intros x I. apply in_map_iff in I. destruct I as (r & <- & I). destruct (rays_in _ _ I) as [_ B].
    unfold inner, zax in B. cbn [vx vy vz] in B. lra.
  - set (t := total (weights c)) in *. set (y := weighted (weights c) _) in *.
    split; apply (Rmult_le_reg_r t); try exact P; replace (y / t * t) with y by (field; lra); lra.
Qed.
Lemma linear_ray f c T e : orthonormal (r_axis c) (r_vert c) -> off_vertical (r_axis c) ->
  exists a b, forall j, inner f (ray c T e j) = vx (nth j (rays c) vzero) * a + vy (nth j (rays c) vzero) * b + vz (nth j (rays c) vzero) * inner f (beam c T e).
Proof.
  intros O V. set (F := fun v => aimed (r_axis c) (r_vert c) (sweep_angle c (periodic_time c T)) e (tilt (r_axis c) v)).
  assert (L : forall p q v w, F (lin p v q w) = lin p (F v) q (F w)).
  { intros. unfold F, aimed, tilt. cbv zeta. rewrite !turned_lin. reflexivity. }
  exists (inner f (F (V3 1 0 0))), (inner f (F (V3 0 1 0))). intros j. change (ray c T e j) with (F (nth j (rays c) vzero)).
  rewrite <- ray_zero by assumption. change (ray c T e 0) with (F (V3 0 0 1)).
  destruct (nth j (rays c) vzero) as [x y z]. cbn [vx vy vz].
  replace (V3 x y z) with (lin 1 (lin x (V3 1 0 0) y (V3 0 1 0)) z (V3 0 0 1)) by (unfold lin; cbn; apply vec_eq; ring).
  rewrite !L. unfold inner, lin. cbn [vx vy vz]. ring.
Qed.
Lemma scan_uniform c T e U W k n : mounted c -> opened c -> elevation c T = Ret e ->
  (forall j, (j < nquad)%nat -> direction c T j = Ret (Some (U 0%nat j))) ->
  scan_los c U (fun _ _ _ => W) k n = narrowing c * inner W (beam c T e).
Proof.
  intros M Op E D. pose proof M as (O & V & N & B). unfold scan_los.
  destruct (linear_ray W c T e O V) as (a & b & K).
  rewrite (map_ext_in _ (fun j => (fun r => vx r * a + vy r * b + vz r * inner W (beam c T e)) (nth j (rays c) vzero))).
  2: { intros j I. apply in_seq in I. assert (Hj : (j < nquad)%nat) by lia.
       destruct (c82_cone c T e j M E Hj) as (u & U1 & _ & _ & U2).
       assert (R : u = ray c T e j).
       { destruct (c82_cone c T e j M E Hj) as (u' & _). clear u'.
         unfold direction in U2. rewrite (beam_point_eq c T e) in U2 by assumption. cbn [obind option_map] in U2. injection U2 as <-.
         pose proof (D j Hj) as DD. unfold direction in DD. rewrite (beam_point_eq c T e) in DD by assumption.
         set (f := INR (r_npts c - 1) / INR (r_npts c) * r_beam c) in *.
         assert (F : veps <= f).
         { unfold f. rewrite minus_INR by lia. assert (2 <= INR (r_npts c)) by (apply (le_INR 2); exact N).
           cbn [INR]. set (m := INR (r_npts c)) in *. pose proof veps_pos.
           assert (1 / 2 <= (m - 1) / m) by (apply (Rmult_le_reg_r m); [lra|]; replace ((m - 1) / m * m) with (m - 1) by (field; lra); lra).
           nra. }
         pose proof veps_pos. destruct (rays_in _ _ (nth_rays c j Hj)) as [UU _].
         assert (LF : len (vscale (ray c T e j) f) = f).
         { unfold len. rewrite inner_scale, ray_inner2 by assumption. rewrite UU, Rmult_1_r. apply sqrt_square. lra. }
         rewrite vnormalize_unitv by lra. unfold unitv. rewrite LF. unfold vscale. cbn [vx vy vz].
         destruct (ray c T e j) as [r1 r2 r3]; cbn [vx vy vz]. apply vec_eq; field; lra. }
       rewrite (D j Hj) in U2. injection U2 as U2. rewrite U2, c82_los by exact U1. rewrite R. apply K. }
  assert (LR : length (rays c) = nquad) by apply rays_length. rewrite <- LR.
  rewrite (map_nth_seq (fun r => vx r * a + vy r * b + vz r * inner W (beam c T e)) vzero (rays c)).
  rewrite line_average_eq by (apply weights_total, Op). rewrite weighted_lin, rays_x, rays_y. unfold narrowing.
  pose proof (weights_total c Op). field. lra.
Qed.
(** In a uniform wind a scan of one beam reports the component of the wind along the beam, times the
    mean cosine of the cone; so does the first beam of every scan.  [T0] and [T1] are the times of the
    first beams of the reported scan and of the next one. *)
Theorem c82_uniform : forall c nt T0 T1 e0 e1 U0 U1 W k n, mounted c -> opened c -> (k < nt)%nat ->
  elevation c T0 = Ret e0 -> elevation c T1 = Ret e1 ->
  (forall j, (j < nquad)%nat -> direction c T0 j = Ret (Some (U0 0%nat j))) ->
  (forall j, (j < nquad)%nat -> direction c T1 j = Ret (Some (U1 0%nat j))) ->
  cos (radians (r_cone c)) <= narrowing c <= 1 /\
  reported c nt U0 U1 (fun _ _ _ => W) (fun _ _ _ => W) k n
    = narrowing c * (inner W (beam c T0 e0) + INR k / INR nt * (inner W (beam c T1 e1) - inner W (beam c T0 e0))) /\
  (k = 0%nat -> reported c nt U0 U1 (fun _ _ _ => W) (fun _ _ _ => W) k n = narrowing c * inner W (beam c T0 e0)).
Proof.
  intros c nt T0 T1 e0 e1 U0 U1 W k n M Op K E0 E1 D0 D1. split; [apply narrowing_bounds, Op|].
  assert (Hn : 0 < INR nt) by (apply (lt_INR 0); lia).
  unfold reported. cbv zeta. rewrite (scan_uniform c T1 e1 U1 W k n), (scan_uniform c T0 e0 U0 W k n) by assumption.
  split; [field; lra|]. intros ->. cbn [INR]. field. lra.
Qed.

(** A radar at the origin looking along x, sweeping half a turn in two seconds with one beam per
    second, two beams per step. *)
Definition quick : rcfg := RC vzero 1 10 0.25 1000 90 (V3 1 0 0) (V3 0 0 1) 180 0 [0].
Lemma quick_mounted : mounted quick /\ opened quick /\ swinging quick.
Proof.
  split; [|split].
  - unfold mounted, orthonormal, off_vertical, inner, quick. cbn [r_axis r_vert r_npts r_beam vx vy vz].
    replace (1 * 1 + 0 * 0) with 1 by ring. rewrite sqrt_1. pose proof veps_lt1. repeat split; try lra; lia.
  - unfold opened, quick. cbn [r_cone]. rewrite <- cos_0. apply cos_decreasing_1; unfold radians; pose proof PI_RGT_0; lra.
  - unfold swinging, quick. cbn. lra.
Qed.
Lemma quick_elevation T : elevation quick T = Ret 0.
Proof.
  unfold elevation. cbn [quick r_elev length]. change (Z.of_nat 1) with 1%Z. rewrite Z.mod_1_r. reflexivity.
Qed.
Lemma quick_angle T : 0 <= T <= 2 -> sweep_angle quick (periodic_time quick T) = 90 * T - 90.
Proof.
  intros H. destruct quick_mounted as (_ & _ & S).
  pose proof (c82_sweep quick 0 T S) as X. cbn [half_period quick r_sweep r_speed r_reset] in X. unfold half_period in X.
  cbn [quick r_sweep r_speed r_reset] in X. specialize (X ltac:(lra)). rewrite Rmult_0_l, Rplus_0_l in X.
  destruct X as (X & _). rewrite X by lra. lra.
Qed.
Lemma quick_beam T : 0 <= T <= 2 -> beam quick T 0 = V3 (cos (radians (90 * T - 90))) (sin (radians (90 * T - 90))) 0.
Proof.
  intros H. unfold beam. rewrite quick_angle by exact H. unfold pointing. cbn [quick r_axis r_vert vx vy vz].
  assert (Z : radians 0 = 0) by (unfold radians; field). rewrite Z, cos_0, sin_0. unfold lin. cbn [vx vy vz]. apply vec_eq; ring.
Qed.
(** The second of two beams reports nothing of a wind that blows straight along it: it is projected
    on the directions of the first beams. *)
Theorem c82_second_beam_refuted : exists W,
  (forall U0 U1 n, (forall k j, (j < nquad)%nat -> direction quick (INR k) j = Ret (Some (U0 k j))) ->
     (forall k j, (j < nquad)%nat -> direction quick (2 + INR k) j = Ret (Some (U1 k j))) ->
     reported quick 2 U0 U1 (fun _ _ _ => W) (fun _ _ _ => W) 1 n = 0) /\
  beam quick 1 0 = W /\ 0.99 < narrowing quick * inner W (beam quick 1 0).
Proof.
  exists (V3 1 0 0). destruct quick_mounted as (M & Op & S).
  assert (B1 : beam quick 1 0 = V3 1 0 0).
  { rewrite quick_beam by lra. replace (radians (90 * 1 - 90)) with 0 by (unfold radians; field). rewrite cos_0, sin_0. reflexivity. }
  assert (B0 : beam quick 0 0 = V3 0 (-1) 0).
  { rewrite quick_beam by lra. replace (radians (90 * 0 - 90)) with (- (PI / 2)) by (unfold radians; field).
    rewrite cos_neg, sin_neg, cos_PI2, sin_PI2. apply vec_eq; lra. }
  assert (B2 : beam quick 2 0 = V3 0 1 0).
  { rewrite quick_beam by lra. replace (radians (90 * 2 - 90)) with (PI / 2) by (unfold radians; field).
    rewrite cos_PI2, sin_PI2. reflexivity. }
  split; [|split].
  - intros U0 U1 n D0 D1.
    destruct (c82_uniform quick 2 0 2 0 0 U0 U1 (V3 1 0 0) 1 n M Op ltac:(lia) (quick_elevation _) (quick_elevation _)) as (_ & R & _).
    + intros j Hj. exact (D0 0%nat j Hj).
    + intros j Hj. pose proof (D1 0%nat j Hj) as D. cbn [INR] in D. rewrite Rplus_0_r in D. exact D.
    + rewrite R, B0, B2. unfold inner. cbn. ring.
  - exact B1.
  - pose proof (narrowing_bounds quick Op) as [N _]. rewrite B1. unfold inner. cbn [vx vy vz].
    cbn [quick r_cone] in N.
    assert (C : 0.99 < cos (radians 0.25)).
    { destruct (pre_cos_bound (radians 0.25) 0) as [X _]; try (unfold radians; pose proof PI_RGT_0; pose proof PI_4; lra).
      unfold cos_approx, cos_term in X. cbn [sum_f_R0 Nat.mul Nat.add pow fact INR] in X.
      assert (A : 0 <= radians 0.25 <= 0.01) by (unfold radians; pose proof PI_RGT_0; pose proof PI_4; lra).
      set (x := radians 0.25) in *. clearbody x.
      assert (x * x <= 0.0001) by nra. unfold INR in X. cbn in X. lra. }
    lra.
Qed.

(** ** Clock *)

(** Beams per step: as many as sampling intervals begin in a step; a step shorter than the sampling
    interval is refused. *)
Theorem c82_beams : forall c dt0, 0 < r_freq c ->
  (dt0 < dts c -> ntotal c dt0 = Abort) /\
  (dts c <= dt0 -> exists nt, ntotal c dt0 = Ret nt /\ (1 <= nt)%nat /\ (INR nt - 1) * dts c < dt0 <= INR nt * dts c).
Proof.
  intros c dt0 F. pose proof (dts_pos c F) as P. unfold ntotal.
  assert (E : dt0 = dt0 / dts c * dts c) by (field; lra). set (r := dt0 / dts c) in *. split; intros H.
  - replace (Rleb 1 r) with false; [reflexivity|]. symmetry. apply Rleb_false. nra.
  - assert (1 <= r) by nra. replace (Rleb 1 r) with true by (symmetry; apply Rleb_spec; assumption).
    eexists. split; [reflexivity|]. pose proof (rceil_spec r) as [A B].
    assert (1 <= rceil r)%Z by (apply le_IZR; lra).
    rewrite INR_IZR_INZ, Z2Nat.id by lia. split; [lia|]. clearbody r. subst dt0. split; nra.
Qed.

(** [m] outputs, [D] apart, of a simulation with steps [dt]: the radar time of the first beam of the
    next scan. *)
Fixpoint radar_time (c : rcfg) (nt : nat) (start D dt : R) (m : nat) : R :=
  match m with O => start | S m' => clock c nt start (start + INR m' * D) dt (radar_time c nt start D dt m') end.

(** With an output at every step, and every step as long as the one at the start, the scans begin
    less than two sampling intervals before the step, and never after it. *)
Theorem c82_clock : forall c nt start dt m, 0 < r_freq c -> dts c <= dt -> 1000000 * veps <= dt -> ntotal c dt = Ret nt ->
  0 <= start + INR m * dt - radar_time c nt start dt dt m < 2 * dts c.
Proof.
  intros c nt start dt m F H1 H2 N. pose proof (dts_pos c F) as P. pose proof veps_pos as VP.
  assert (E : dt = dt / dts c * dts c) by (field; lra). set (r := dt / dts c) in *.
  assert (R1 : 1 <= r) by nra.
  unfold ntotal in N. fold r in N. replace (Rleb 1 r) with true in N by (symmetry; apply Rleb_spec; assumption). injection N as <-.
  pose proof (rceil_spec r) as [C1 C2]. pose proof (rfloor_spec r) as [F1 F2].
  assert (FP : (1 <= rfloor r)%Z) by (assert (0 < rfloor r)%Z by (apply lt_IZR; lra); lia).
  assert (CF : (rceil r = rfloor r \/ rceil r = rfloor r + 1)%Z).
  { assert (rfloor r <= rceil r)%Z by (apply le_IZR; lra).
    assert (rceil r < rfloor r + 2)%Z by (apply lt_IZR; rewrite plus_IZR; lra). lia. }
  set (f := r - IZR (rfloor r)) in *.
  assert (G : exists x, start + INR m * dt - radar_time c (Z.to_nat (rceil r)) start dt dt m = x * dts c /\ 0 <= x <= 1 + f /\ x < 2 /\ (m = 0%nat -> x = 0)).
  { induction m as [|m (x & X & X1 & X2 & X3)].
    - exists 0. cbn [INR radar_time]. split; [ring|]. unfold f in *. lra.
    - cbn [radar_time]. set (T := radar_time c _ start dt dt m) in *. unfold clock, scan. cbv zeta. cbn [fst snd].
      assert (T0 : (if Rltb (start + INR m * dt - start) (veps * 1000000) then start + INR m * dt else T) = T).
      { destruct m as [|m].
        - cbn [INR]. cbn [radar_time] in T. unfold T. destruct (Rltb _ _); ring.
        - replace (Rltb (start + INR (S m) * dt - start) (veps * 1000000)) with false; [reflexivity|].
          symmetry. apply Rltb_false. rewrite S_INR. pose proof (pos_INR m). nra. }
      rewrite T0, X. replace (x * dts c / dts c) with x by (field; lra). fold r.
      rewrite Z2Nat.id by lia. rewrite S_INR.
      destruct (Rltb (dts c) (x * dts c)) eqn:L.
      + apply Rltb_spec in L. assert (1 < x) by nra. replace (rfloor x) with 1%Z by (symmetry; apply rfloor_unique; lra).
        assert (rceil r = rfloor r + 1)%Z.
        { destruct CF as [C|C]; [|exact C]. exfalso. rewrite C in C1. unfold f in *. lra. }
        rewrite H0. rewrite Z.max_r, Z.min_l by lia. rewrite plus_IZR. exists (x + f - 1).
        split; [|unfold f in *; split; [lra|split; [lra|lia]]].
        transitivity ((start + INR m * dt - T) + dt - (IZR (rfloor r) + 1) * dts c); [ring|].
        rewrite X, E. unfold f. ring.
      + apply Rltb_false in L. assert (x <= 1) by nra. rewrite Z.add_0_r, Z.max_r, Z.min_r by lia. exists (x + f).
        split; [|unfold f in *; split; [lra|split; [lra|lia]]].
        transitivity ((start + INR m * dt - T) + dt - IZR (rfloor r) * dts c); [ring|].
        rewrite X, E. unfold f. ring. }
  destruct G as (x & X & X1 & X2 & _). rewrite X. split; nra.
Qed.
(** The beams of a scan are one sampling interval apart and the next scan goes on where it ends. *)
Theorem c82_beam_times : forall c nt start t dt T, 1000000 * veps <= t - start ->
  exists count : nat, (count <= nt)%nat /\
    (forall k, beam_time c nt start t dt T k = if (k <? count)%nat then Some (T + INR k * dts c) else None) /\
    clock c nt start t dt T = T + INR count * dts c.
Proof.
  intros c nt start t dt T H. unfold beam_time, clock, scan. cbv zeta. cbn [fst snd].
  replace (Rltb (t - start) (veps * 1000000)) with false by (symmetry; apply Rltb_false; lra).
  set (z := Z.min _ _). assert (Z0 : (0 <= z <= Z.of_nat nt)%Z) by (unfold z; lia).
  exists (Z.to_nat z). split; [lia|]. split.
  - intros k. replace (Z.of_nat k <? z)%Z with (k <? Z.to_nat z)%nat; [reflexivity|].
    destruct (Nat.ltb_spec k (Z.to_nat z)); symmetry; [apply Z.ltb_lt|apply Z.ltb_ge]; lia.
  - rewrite INR_IZR_INZ, Z2Nat.id by lia. reflexivity.
Qed.
(** If the outputs are further apart than the beams of the first step last (a larger step later on,
    or output at every second step only) the radar falls behind without bound. *)
Theorem c82_clock_refuted : forall c nt start D dt B, 0 < r_freq c -> 1000000 * veps <= D ->
  INR nt * dts c < D -> exists m, B < start + INR m * D - radar_time c nt start D dt m.
Proof.
  intros c nt start D dt B F HD H. pose proof (dts_pos c F) as P.
  assert (L : forall m, radar_time c nt start D dt m <= start + INR m * (INR nt * dts c)).
  { induction m as [|m IH]; [cbn; lra|]. cbn [radar_time]. unfold clock, scan. cbv zeta. cbn [fst snd]. rewrite S_INR.
    set (T := radar_time c nt start D dt m) in *.
    assert (T0 : (if Rltb (start + INR m * D - start) (veps * 1000000) then start + INR m * D else T) <= start + INR m * (INR nt * dts c)).
    { destruct (Rltb (start + INR m * D - start) (veps * 1000000)) eqn:R; [|exact IH]. apply Rltb_spec in R.
      destruct m as [|m]; [cbn [INR]; lra|]. exfalso. rewrite S_INR in R. pose proof (pos_INR m). pose proof veps_pos. nra. }
    match type of T0 with ?x <= _ => set (T1 := x) in * end. match goal with |- context [Z.min ?p ?q] => set (z := Z.min p q) end.
    assert (Z0 : IZR z <= INR nt) by (rewrite INR_IZR_INZ; apply IZR_le; unfold z; lia).
    assert (IZR z * dts c <= INR nt * dts c) by (apply Rmult_le_compat_r; lra). lra. }
  set (d := D - INR nt * dts c). assert (0 < d) by (unfold d; lra).
  assert (M : exists m, B / d < INR m).
  { exists (Z.to_nat (up (B / d))). destruct (archimed (B / d)) as [A _]. destruct (Z_le_gt_dec 0 (up (B / d))) as [G|G].
    - rewrite INR_IZR_INZ, Z2Nat.id by exact G. lra.
    - assert (IZR (up (B / d)) <= 0) by (apply IZR_le; lia). pose proof (pos_INR (Z.to_nat (up (B / d)))). lra. }
  destruct M as [m M]. exists m. specialize (L m).
  assert (B < INR m * d) by (replace B with (B / d * d) by (field; lra); apply Rmult_lt_compat_r; assumption).
  unfold d in *. lra.
Qed.

(** ** Output *)

(** NetCDF output of samplers goes on exactly if all three components of the velocity are among the
    sampled variables: also for samplers that have nothing to do with a line of sight. *)
Theorem c82_netcdf_refuted : forall vars los_samplers,
  convert true vars los_samplers = Ret tt <->
  (In "velocityx"%string vars /\ In "velocityy"%string vars /\ In "velocityz"%string vars).
Proof.
  intros vars b. unfold convert, velocity_map. cbv zeta.
  set (go := fix go (s : string) (l : list string) (i : nat) {struct l} : option nat :=
    match l with [] => None | v :: r => if String.eqb v s then Some i else go s r (S i) end).
  assert (G : forall s l i, (fix go (l : list string) (i : nat) : option nat :=
    match l with [] => None | v :: r => if String.eqb v s then Some i else go r (S i) end) l i = go s l i).
  { intros s. induction l as [|v l IH]; intros i; cbn; [reflexivity|]. rewrite IH. reflexivity. }
  rewrite !G.
  assert (K : forall s l i, (exists k, go s l i = Some k) <-> In s l).
  { intros s. induction l as [|v l IH]; intros i; cbn.
    - split; [intros [k K]; discriminate|intros []].
    - destruct (String.eqb v s) eqn:Ev.
      + apply String.eqb_eq in Ev. subst v. split; [left; reflexivity|intros _; eexists; reflexivity].
      + apply String.eqb_neq in Ev. rewrite IH. split; [right; assumption|intros [?|?]; [contradiction|assumption]]. }
  rewrite <- (K "velocityx"%string vars 0%nat), <- (K "velocityy"%string vars 0%nat), <- (K "velocityz"%string vars 0%nat).
  destruct (go "velocityx"%string vars 0%nat), (go "velocityy"%string vars 0%nat), (go "velocityz"%string vars 0%nat);
    cbn [obind]; split; try discriminate; try reflexivity; try (intros ((? & ?) & (? & ?) & (? & ?)); discriminate).
  intros _. repeat split; eexists; reflexivity.
Qed.
Example c82_netcdf_example : convert true ["temperature"%string] false = Abort /\ convert false ["temperature"%string] false = Ret tt.
Proof. split; reflexivity. Qed.

(** ** Examples *)
Example c82_example_lidar : tables (LC vzero 100 [0%Q; 1%Q; 3%Q] [0%Q; 30%Q; 90%Q] [0%Q; 5%Q; 0%Q] true).
Proof.
  unfold tables. cbn [l_times l_az l_el length]. repeat split; try lia.
  - intros i j a b H A B. unfold at_ in *. do 3 (destruct j as [|j]; [do 3 (destruct i as [|i]; [try lia; cbn in *; injection A as <-; injection B as <-; reflexivity|]); lia|]). destruct j; discriminate.
  - intros i a b A B. unfold at_ in *. do 2 (destruct i as [|i]; [cbn in *; injection A as <-; injection B as <-; reflexivity|]). destruct i as [|i]; [discriminate|destruct i; discriminate].
Qed.
Example c82_example_radar : mounted quick /\ opened quick /\ swinging quick /\ elevation quick 1 = Ret 0 /\
  ntotal quick 2 = Ret 2%nat /\ dts quick <= 2.
Proof.
  destruct quick_mounted as (A & B & C). split; [exact A|]. split; [exact B|]. split; [exact C|]. split; [apply quick_elevation|].
  assert (D : dts quick = 1) by (unfold dts, quick; cbn; field). rewrite D. split; [|lra].
  unfold ntotal. rewrite D. replace (Rleb 1 (2 / 1)) with true by (symmetry; apply Rleb_spec; lra).
  replace (rceil (2 / 1)) with 2%Z; [reflexivity|]. unfold rceil. replace (rfloor (- (2 / 1))) with (-2)%Z; [reflexivity|].
  symmetry. apply rfloor_unique. lra.
Qed.

Print Assumptions c82_lidar.
Print Assumptions c82_lidar_periodic.
Print Assumptions c82_lidar_offset_refuted.
Print Assumptions c82_lidar_wrap_refuted.
Print Assumptions c82_lidar_sizes.
Print Assumptions c82_sweep.
Print Assumptions c82_sweep_rate.
Print Assumptions c82_elevation.
Print Assumptions c82_elevation_empty.
Print Assumptions c82_beam.
Print Assumptions c82_cone.
Print Assumptions c82_beam_end_refuted.
Print Assumptions c82_vertical_refuted.
Print Assumptions c82_single_point_refuted.
Print Assumptions c82_los.
Print Assumptions c82_average.
Print Assumptions c82_closed_cone_refuted.
Print Assumptions c82_uniform.
Print Assumptions c82_second_beam_refuted.
Print Assumptions c82_beams.
Print Assumptions c82_clock.
Print Assumptions c82_beam_times.
Print Assumptions c82_clock_refuted.
Print Assumptions c82_netcdf_refuted.
