(** C74: points and motion of wing actuators.  C75: their forces. *)
From Verif Require Import BoxR BoxRFacts VecSpace VecSpaceSpec VecSpaceProofs Tagging DiskActuator DiskSpec DiskProofs DiskProofs2
  JoukProofs Wing WingSpec WingProofs.
Open Scope R_scope.

(** The [n] points are evenly spaced from start to end, and the widths they stand
    for are equal except for half widths at the ends and add up to the length. *)
Theorem c74_points : forall w, (2 <= w_n w)%nat ->
  let N := (w_n w - 1)%nat in
  let L := dist_pts (w_start w) (w_end w) in
  length (w_points w) = w_n w /\
  (forall i, (i < w_n w)%nat ->
     nth i (w_points w) vzero = along_segment (w_start w) (w_end w) (INR i / INR N) (V3 0 0 0)) /\
  nth 0 (w_points w) vzero = w_start w /\ nth N (w_points w) vzero = w_end w /\
  length (w_widths w) = w_n w /\ rsum (w_widths w) = L /\
  (forall i, (i < w_n w)%nat ->
     nth i (w_widths w) 0 = if ((i =? 0) || (i =? N))%nat%bool then L / INR N / 2 else L / INR N).
Proof.
  intros w H N L. destruct (n1_INR _ H) as [_ P]. fold N in P.
  assert (NE : forall i, (i < w_n w)%nat ->
     nth i (w_points w) vzero = along_segment (w_start w) (w_end w) (INR i / INR N) (V3 0 0 0)).
  { intros i I. rewrite w_point_nth by exact I. apply w_point_ok, H. }
  assert (LE : len (w_span w) = L) by reflexivity.
  split; [unfold w_points; rewrite map_length, seq_length; reflexivity|].
  split; [exact NE|]. split; [|split; [|split; [|split]]].
  - rewrite NE by lia. destruct (w_start w) as [sa sb sc]. unfold along_segment; cbn [vx vy vz INR]. apply vec_eq; field; lra.
  - rewrite NE by lia. destruct (w_end w) as [ea eb ec]. unfold along_segment; cbn [vx vy vz]. apply vec_eq; field; lra.
  - rewrite (w_widths_form w H). cbn zeta. cbn [length]. rewrite app_length, repeat_length. cbn. lia.
  - rewrite w_widths_sum by exact H. exact LE.
  - intros i I. rewrite (w_widths_form w H). cbn zeta. rewrite mag_dx, LE by exact H. fold N.
    set (m := L / INR N). destruct i as [|i].
    + cbn. lra.
    + cbn [nth]. change (S i =? 0)%nat with false. cbn [orb].
      destruct (Nat.eqb_spec (S i) N) as [E|E].
      * rewrite app_nth2 by (rewrite repeat_length; lia). rewrite repeat_length.
        replace (i - (w_n w - 2))%nat with 0%nat by lia. cbn. lra.
      * rewrite app_nth1 by (rewrite repeat_length; lia).
        rewrite (nth_indep _ 0 m) by (rewrite repeat_length; lia). apply nth_repeat.
Qed.
Print Assumptions c74_points.

(** The prescribed path of a wing. *)
Definition wing_path (w : wing) (v0 : vec) : path :=
  match w_motion w with
  | MNone => at_rest
  | MLinear => uniform v0
  | MSine => oscillating (w_svec w) (w_period w)
  end.

(** Position.  After any number of time steps of any sizes, every point is where
    the prescribed path puts it, counted from the start time of the run; the
    velocity was sampled where the wing was at the beginning of the last step,
    and the force is placed between the two. *)
Theorem c74_position : forall w v0 t0 ts i, (2 <= w_n w)%nat -> (i < w_n w)%nat ->
  let s := w_run w v0 t0 ts in
  let at_time t := along_segment (w_start w) (w_end w) (INR i / INR (w_n w - 1)) (moved (wing_path w v0) t0 t) in
  let now := last ts t0 in
  let before := last (removelast ts) t0 in
  nth i (s_pos s) vzero = at_time now /\
  nth i (s_vpos s) vzero = at_time before /\
  exists p q, s_src s = Some (p, q) /\ nth i p vzero = at_time now /\ nth i q vzero = at_time before.
Proof.
  intros w v0 t0 ts i H I s at_time now before.
  destruct (w_run_ok w v0 t0 ts) as (_ & B & C & D). fold s now before in B, C, D.
  assert (K : forall t, nth i (pos_at w v0 t0 t) vzero = at_time t).
  { intros t. unfold pos_at.
    rewrite (nth_indep _ vzero (vadd vzero (moved (path_of w v0) t0 t)))
      by (rewrite map_length; unfold w_points; rewrite map_length, seq_length; exact I).
    rewrite (map_nth (fun p => vadd p (moved (path_of w v0) t0 t))). rewrite w_point_nth by exact I. rewrite w_point_ok by exact H.
    unfold at_time. change (wing_path w v0) with (path_of w v0). unfold along_segment, vadd, vzero; cbn [vx vy vz]. apply vec_eq; ring. }
  rewrite B, C. split; [apply K|split; [apply K|]]. eexists; eexists. split; [exact D|split; apply K].
Qed.
Print Assumptions c74_position.

(** Velocity of an oscillating wing: displacement over the step divided by its
    length (which is increased by 2^-52). *)
Theorem c74_velocity : forall w v0 t0 ts t, let s := w_run w v0 t0 (ts ++ [t]) in
  let tp := last ts t0 in
  match w_motion w with
  | MNone => True
  | MLinear => s_vtr s = v0
  | MSine => forall k, tp < t -> inner (s_vtr s) k * (t - tp + / 4503599627370496) = inner (moved (wing_path w v0) tp t) k
  end.
Proof.
  intros w v0 t0 ts t s tp. destruct (w_run_ok w v0 t0 (ts ++ [t])) as (A & _). fold s in A.
  destruct (w_run_ok w v0 t0 ts) as (A' & _). cbn zeta in A'.
  destruct (w_motion w) eqn:M; [exact I|apply A, M|].
  intros k T. unfold s, w_run. rewrite w_steps_app. fold (w_run w v0 t0 ts). fold tp. unfold w_step. cbn [s_vtr].
  unfold w_vtr. rewrite M, (disp_moved w v0 _ tp t A').
  change (path_of w v0) with (wing_path w v0). set (d := moved _ _ _). change (/ 4503599627370496) with veps.
  assert (V : 0 < veps) by (unfold veps; lra). unfold inner, vdivs; cbn. field. lra.
Qed.
Print Assumptions c74_velocity.

(** Refuted: a run restarted at [t1] continues the motion.  The restarted wing
    starts again from its input position, so it is displaced by what it had
    travelled before the restart. *)
Theorem c74_restart_refuted : forall w v0 t0 ts t1 ts', (2 <= w_n w)%nat ->
  let through := w_run w v0 t0 (ts ++ t1 :: ts') in
  let restarted := w_run w v0 t1 ts' in
  moved (wing_path w v0) t0 t1 <> V3 0 0 0 ->
  forall i, (i < w_n w)%nat -> nth i (s_pos through) vzero <> nth i (s_pos restarted) vzero.
Proof.
  intros w v0 t0 ts t1 ts' H through restarted NZ i I E.
  destruct (c74_position w v0 t0 (ts ++ t1 :: ts') i H I) as (A & _).
  destruct (c74_position w v0 t1 ts' i H I) as (B & _). fold through in A. fold restarted in B.
  rewrite E, B in A. clear E B. apply NZ.
  assert (L : last (ts ++ t1 :: ts') t0 = last ts' t1).
  { clear. revert t0. induction ts as [|a ts IH]; intros t0.
    - cbn [app]. destruct ts' as [|b r]; [reflexivity|]. change (last (b :: r) t0 = last (b :: r) t1). apply last_other.
    - cbn [app]. destruct (ts ++ t1 :: ts')%list as [|b r] eqn:Q; [destruct ts; discriminate|].
      change (last (b :: r) t0 = last ts' t1). apply IH. }
  rewrite L in A. set (t := last ts' t1) in *. set (p := wing_path w v0) in *.
  unfold along_segment in A. injection A as A1 A2 A3. unfold moved in *; cbn [vx vy vz] in *. apply vec_eq; lra.
Qed.
Print Assumptions c74_restart_refuted.

(** A wing from (0,-2,0) to (0,2,0) with five points, moving with speed (1,0,0). *)
Definition ex_wing : wing := Wing 5 (V3 0 (-2) 0) (V3 0 2 0) (V3 1 0 0) (V3 1 1 1) vzero false true vone (-1)
  MLinear vzero 0.
Example wing_case : w_widths ex_wing = [1 / 2; 1; 1; 1; 1 / 2] /\
  nth 1 (s_pos (w_run ex_wing (V3 1 0 0) 0 [1 / 4; 1 / 2])) vzero = V3 (1 / 2) (-1) 0.
Proof.
  split.
  - rewrite w_widths_form by (cbn; lia). cbn zeta. rewrite mag_dx by (cbn; lia).
    assert (E : len (w_span ex_wing) = 4).
    { unfold len, w_span, inner; cbn. replace (_ + _ + _) with (4 * 4) by ring. apply sqrt_square. lra. }
    rewrite E. cbn. replace (1 + 1 + 1 + 1) with 4 by ring. repeat (apply f_equal2; [lra|]). reflexivity.
  - destruct (c74_position ex_wing (V3 1 0 0) 0 [1 / 4; 1 / 2] 1 ltac:(cbn; lia) ltac:(cbn; lia)) as (A & _).
    rewrite A. cbn. unfold along_segment; cbn. apply vec_eq; lra.
Qed.

(** *** Forces *)

Lemma lagrange a b : inner (vcross a b) (vcross a b) = inner a a * inner b b - inner a b * inner a b.
Proof. unfold inner, vcross; cbn. ring. Qed.
Lemma cross_perp a b : inner (vcross a b) a = 0 /\ inner (vcross a b) b = 0.
Proof. unfold inner, vcross; cbn. split; ring. Qed.

Lemma decompose y z v : inner y y = 1 -> inner z z = 1 -> inner y z = 0 ->
  v = vadd (vadd (vscale (vcross y z) (inner v (vcross y z))) (vscale y (inner v y))) (vscale z (inner v z)).
Proof.
  intros A B C.
  assert (N : inner (vcross y z) (vcross y z) = 1) by (rewrite lagrange, A, B, C; ring).
  assert (K : vsub (vscale v (inner (vcross y z) (vcross y z))) (vscale (vcross y z) (inner v (vcross y z))) =
    vsub (vscale (vsub (vscale z (inner y y)) (vscale y (inner y z))) (inner v z))
         (vscale (vsub (vscale z (inner y z)) (vscale y (inner z z))) (inner v y))).
  { unfold vsub, vscale, vcross, inner; cbn. apply vec_eq; ring. }
  rewrite N, A, B, C in K. revert K. generalize (vcross y z). intros n K.
  destruct v as [a b c]. unfold vsub, vscale, vadd in *; cbn [vx vy vz] in *. injection K as K1 K2 K3.
  apply vec_eq; lra.
Qed.

Definition set_up (w : wing) : Prop :=
  veps <= len (w_span w) /\ veps <= len (w_bladex w) /\
  veps <= len (vcross (vnormalize (w_bladex w)) (vnormalize (w_span w))).

Lemma norm_of_unit_cross a b : inner a a = 1 -> inner b b = 1 -> inner a b = 0 ->
  vnormalize (vcross a b) = vcross a b.
Proof. intros A B C. apply vnormalize_unit. unfold is_unit. rewrite lagrange, A, B, C. ring. Qed.

Lemma frame_facts w : set_up w ->
  inner (blade_y w) (blade_y w) = 1 /\ inner (blade_z w) (blade_z w) = 1 /\ inner (blade_y w) (blade_z w) = 0 /\
  blade_x w = vcross (blade_y w) (blade_z w) /\ inner (w_bladex w) (blade_z w) = 0 /\
  0 < inner (w_bladex w) (blade_x w).
Proof.
  intros (H1 & H2 & H3). fold (blade_y w) in H3.
  assert (Y : inner (blade_y w) (blade_y w) = 1) by (apply vnormalize_is_unit, H1).
  assert (Z : inner (blade_z w) (blade_z w) = 1) by (apply vnormalize_is_unit, H3).
  pose proof (vnormalize_scaled _ H3) as E. fold (blade_z w) in E.
  pose proof (vnormalize_scaled _ H2) as F.
  pose proof (vnormalize_is_unit _ H2) as U. unfold is_unit in U.
  set (x0 := vnormalize (w_bladex w)) in *. set (y := blade_y w) in *. set (z := blade_z w) in *.
  set (l := len (vcross x0 y)) in *. assert (V : 0 < veps) by (unfold veps; lra).
  destruct (cross_perp x0 y) as [P1 P2]. rewrite E in P1, P2. rewrite inner_vscale in P1, P2.
  assert (Q1 : inner z x0 = 0) by (destruct (Rmult_integral _ _ P1); lra).
  assert (Q2 : inner z y = 0) by (destruct (Rmult_integral _ _ P2); lra).
  assert (YZ : inner y z = 0) by (rewrite inner_sym; exact Q2).
  assert (X : blade_x w = vcross y z) by (apply norm_of_unit_cross; assumption).
  split; [exact Y|split; [exact Z|split; [exact YZ|split; [exact X|split]]]].
  - rewrite F, inner_vscale, inner_sym, Q1. ring.
  - rewrite X, F, inner_vscale. apply Rmult_lt_0_compat; [|lra].
    assert (T : inner x0 (vcross y z) = inner (vcross x0 y) z) by (unfold inner, vcross; cbn; ring).
    rewrite T, E, inner_vscale, Z. lra.
Qed.

(** The wing's own axes: orthonormal, right-handed, the second along the span, the
    first the direction of [blade_x] made perpendicular to the span. *)
Theorem c75_frame : forall w,
  / 4503599627370496 <= len (w_span w) -> / 4503599627370496 <= len (w_bladex w) ->
  / 4503599627370496 <= len (vcross (vnormalize (w_bladex w)) (vnormalize (w_span w))) ->
  frame (blade_x w) (blade_y w) (blade_z w) /\
  w_span w = vscale (blade_y w) (len (w_span w)) /\
  inner (w_bladex w) (blade_z w) = 0 /\ 0 < inner (w_bladex w) (blade_x w).
Proof.
  intros w H1 H2 H3. destruct (frame_facts w (conj H1 (conj H2 H3))) as (Y & Z & YZ & X & Q & P).
  split; [|split; [apply vnormalize_scaled, H1|split; assumption]].
  rewrite X. destruct (cross_perp (blade_y w) (blade_z w)) as [P1 P2].
  assert (N : inner (vcross (blade_y w) (blade_z w)) (vcross (blade_y w) (blade_z w)) = 1)
    by (rewrite lagrange, Y, Z, YZ; ring).
  unfold frame. rewrite N, P1. rewrite (inner_sym (blade_z w) (vcross _ _)), P2. repeat split; try assumption.
  rewrite <- N. unfold triple, inner, vcross; cbn. ring.
Qed.
Print Assumptions c75_frame.

Lemma in_plane w u : set_up w ->
  across (blade_y w) u = vadd (vscale (blade_x w) (inner u (blade_x w))) (vscale (blade_z w) (inner u (blade_z w))) /\
  len (across (blade_y w) u) = sqrt (inner u (blade_x w) * inner u (blade_x w) + inner u (blade_z w) * inner u (blade_z w)) /\
  inner (across (blade_y w) u) (blade_y w) = 0.
Proof.
  intros S. destruct (frame_facts w S) as (Y & Z & YZ & X & _).
  pose proof (decompose (blade_y w) (blade_z w) u Y Z YZ) as D. rewrite <- X in D.
  destruct (cross_perp (blade_y w) (blade_z w)) as [P1 P2]. rewrite <- X in P1, P2.
  assert (XX : inner (blade_x w) (blade_x w) = 1) by (rewrite X, lagrange, Y, Z, YZ; ring).
  assert (E : across (blade_y w) u = vadd (vscale (blade_x w) (inner u (blade_x w))) (vscale (blade_z w) (inner u (blade_z w)))).
  { transitivity (vsub u (vscale (blade_y w) (inner u (blade_y w)))).
    - unfold across, vsub, vscale; cbn [vx vy vz]. apply vec_eq; ring.
    - rewrite D at 1. generalize (inner u (blade_x w)) as a, (inner u (blade_y w)) as b, (inner u (blade_z w)) as c.
      intros. unfold vsub, vscale, vadd; cbn [vx vy vz]. apply vec_eq; ring. }
  split; [exact E|]. rewrite E. split.
  - unfold len. f_equal. rewrite !inner_vadd, !inner_vadd_r, !inner_vscale, !inner_vscale_r, XX, Z.
    rewrite (inner_sym (blade_z w) (blade_x w)), P2. ring.
  - rewrite inner_vadd, !inner_vscale, P1, (inner_sym (blade_z w)), YZ. ring.
Qed.

(** Force of one point.  [u] is the wind seen by the wing, [c] its part across the
    span, [V2] the square of its speed or of the prescribed speed.  The force on
    the fluid has no part along the span; along [c] it opposes the wind with the drag
    coefficient, and across [c] it carries the lift coefficient, both looked up at
    the pitch plus the angle of the wind in the plane of the section. *)
Theorem c75_force : forall w polar pitch vel vtr dx chord eps V2,
  / 4503599627370496 <= len (w_span w) -> / 4503599627370496 <= len (w_bladex w) ->
  / 4503599627370496 <= len (vcross (vnormalize (w_bladex w)) (vnormalize (w_span w))) ->
  w_2d w = false -> w_flags w = V3 1 1 1 ->
  let F := w_force w polar pitch vel vtr dx chord eps in
  let u := V3 (vx vel - vx vtr) (vy vel - vy vtr) (vz vel - vz vtr) in
  let c := across (blade_y w) u in
  let q := 1 / 2 * V2 * chord * dx in
  (w_uinf w < 0 /\ V2 = len c * len c \/ 0 <= w_uinf w /\ V2 = w_uinf w * w_uinf w) ->
  (/ 4503599627370496 <= len c ->
   exists th, is_angle th (inner u (blade_x w)) (inner u (blade_z w)) /\
     let '(cl, cd) := polar (th + PI * pitch / 180) in
     inner F (blade_y w) = 0 /\
     inner F c = - q * cd * len c /\
     inner F (vcross c (blade_y w)) = - q * cl * len c /\
     len F = Rabs q * sqrt (cl * cl + cd * cd)) /\
  (len c < / 4503599627370496 -> F = V3 0 0 0).
Proof.
  intros w polar pitch vel vtr dx chord eps V2 H1 H2 H3 D2 FL F u c q HV.
  assert (S : set_up w) by (split; [exact H1|split; assumption]).
  destruct (frame_facts w S) as (Y & Z & YZ & X & _).
  destruct (in_plane w u S) as (E & LC & PC). fold c in E, LC, PC.
  assert (US : vsub vel vtr = u) by reflexivity.
  assert (W : w_wind w vel vtr = V3 (inner u (blade_x w)) 0 (inner u (blade_z w))).
  { unfold w_wind. rewrite US. change vdot with inner. reflexivity. }
  assert (FM : forall f, vmul f (V3 1 1 1) = f) by (intros [a b d]; unfold vmul; cbn; apply vec_eq; ring).
  assert (WM : vmag (w_wind w vel vtr) = len c).
  { rewrite vmag_len, W, LC. unfold len, inner; cbn. f_equal. ring. }
  assert (QV : w_qval w vel vtr dx chord eps = q).
  { unfold w_qval. rewrite WM, D2. cbn [andb]. replace 0.5 with (1 / 2) by lra.
    destruct HV as [[U ->]|[U ->]].
    - rewrite (proj2 (Rltb_spec _ _)) by lra. unfold q. ring.
    - rewrite (proj2 (Rltb_false _ _)) by lra. unfold q. ring. }
  assert (FE : F = vneg (vadd (vscale (vnormalize (vcross (vnormalize c) (blade_y w))) (w_lift w polar pitch vel vtr dx chord eps))
                      (vscale (vnormalize c) (w_drag w polar pitch vel vtr dx chord eps)))).
  { unfold F, w_force. rewrite FL, FM, W. cbn [vx vz]. rewrite <- E. reflexivity. }
  split; intros C.
  - assert (CP : 0 < len c) by lra.
    exists (atan2 (inner u (blade_z w)) (inner u (blade_x w))). split; [apply atan2_ok|].
    assert (A : atan2 (inner u (blade_z w)) (inner u (blade_x w)) + PI * pitch / 180 = w_aoa w pitch vel vtr).
    { unfold w_aoa. rewrite W. cbn [vx vz]. unfold radians. reflexivity. }
    rewrite A. unfold w_lift, w_drag in FE. rewrite QV in FE.
    destruct (polar (w_aoa w pitch vel vtr)) as [cl cd]. cbn [fst snd] in FE.
    pose proof (vnormalize_scaled c C) as CS. pose proof (vnormalize_is_unit c C) as DU. unfold is_unit in DU.
    set (d := vnormalize c) in *.
    assert (DY : inner d (blade_y w) = 0).
    { rewrite CS, inner_vscale in PC. destruct (Rmult_integral _ _ PC); lra. }
    rewrite (norm_of_unit_cross d (blade_y w) DU Y DY) in FE.
    destruct (cross_perp d (blade_y w)) as [K1 K2].
    assert (KK : inner (vcross d (blade_y w)) (vcross d (blade_y w)) = 1) by (rewrite lagrange, DU, Y, DY; ring).
    set (y := blade_y w) in *. set (l := vcross d y) in *.
    assert (FY : inner F y = 0) by (rewrite FE, inner_vneg, inner_vadd, !inner_vscale, K2, DY; ring).
    assert (FD : inner F d = - q * cd) by (rewrite FE, inner_vneg, inner_vadd, !inner_vscale, K1, DU; ring).
    assert (FL' : inner F l = - q * cl).
    { rewrite FE, inner_vneg, inner_vadd, !inner_vscale, KK, (inner_sym d l), K1. ring. }
    split; [exact FY|]. split; [|split].
    + rewrite CS at 1. rewrite inner_vscale_r, FD. ring.
    + assert (CL : vcross c y = vscale l (len c)).
      { rewrite CS at 1. unfold l, vcross, vscale; cbn. apply vec_eq; ring. }
      rewrite CL, inner_vscale_r, FL'. ring.
    + unfold len. assert (FF : inner F F = Rsqr q * (cl * cl + cd * cd)).
      { rewrite FE at 1. rewrite inner_vneg, inner_vadd, !inner_vscale.
        rewrite (inner_sym l F), (inner_sym d F), FD, FL'. unfold Rsqr. ring. }
      rewrite FF, sqrt_mult_alt by apply Rle_0_sqr. rewrite sqrt_Rsqr_abs. reflexivity.
  - assert (N : vnormalize c = V3 0 0 0).
    { unfold vnormalize. rewrite vmag_len. rewrite (proj2 (Rltb_spec _ veps)) by exact C. reflexivity. }
    rewrite FE, N. 
    assert (CZ : vcross (V3 0 0 0) (blade_y w) = V3 0 0 0) by (unfold vcross; cbn; apply vec_eq; ring).
    assert (NZ : vnormalize (V3 0 0 0) = V3 0 0 0).
    { unfold vnormalize. rewrite (proj2 (Rltb_spec _ veps)); [reflexivity|].
      rewrite vmag_len. unfold len, inner; cbn. replace (0 * 0 + 0 * 0 + 0 * 0) with 0 by ring. rewrite sqrt_0. unfold veps. lra. }
    rewrite CZ, NZ. unfold vneg, vadd, vscale; cbn. apply vec_eq; ring.
Qed.
Print Assumptions c75_force.

Lemma across_split y u : u = vadd (across y u) (vscale y (inner u y)).
Proof.
  unfold across. generalize (inner u y). intros k. destruct u as [a b c]. unfold vadd, vscale; cbn [vx vy vz]. apply vec_eq; ring.
Qed.

(** Energy.  A wing at rest takes energy out of the flow (the power [F . u] of the force on
    the fluid is minus the drag power) for every drag coefficient that is not negative. *)
Theorem c75_energy : forall w polar pitch vel vtr dx chord eps,
  / 4503599627370496 <= len (w_span w) -> / 4503599627370496 <= len (w_bladex w) ->
  / 4503599627370496 <= len (vcross (vnormalize (w_bladex w)) (vnormalize (w_span w))) ->
  w_2d w = false -> w_flags w = V3 1 1 1 -> w_uinf w < 0 ->
  let F := w_force w polar pitch vel vtr dx chord eps in
  let u := V3 (vx vel - vx vtr) (vy vel - vy vtr) (vz vel - vz vtr) in
  let U := len (across (blade_y w) u) in
  0 <= dx -> 0 <= chord -> (forall a, 0 <= snd (polar a)) ->
  inner F u <= 0 /\
  (/ 4503599627370496 <= U -> inner F u = - (1 / 2 * U * U * U * chord * dx * snd (polar (w_aoa w pitch vel vtr)))).
Proof.
  intros w polar pitch vel vtr dx chord eps H1 H2 H3 D2 FL UI F u U Hd Hc Hp.
  assert (S : set_up w) by (split; [exact H1|split; assumption]).
  destruct (c75_force w polar pitch vel vtr dx chord eps (U * U) H1 H2 H3 D2 FL) as [A B];
    [left; split; [exact UI|reflexivity]|].
  fold F u in A, B. fold U in A, B. set (c := across (blade_y w) u) in *.
  assert (FU : inner F (blade_y w) = 0 -> inner F u = inner F c).
  { intros K. assert (E : u = vadd c (vscale (blade_y w) (inner u (blade_y w)))).
    { apply across_split. }
    rewrite E at 1. rewrite inner_vadd_r, inner_vscale_r, K. ring. }
  assert (W : forall th, is_angle th (inner u (blade_x w)) (inner u (blade_z w)) -> / 4503599627370496 <= U ->
     th + PI * pitch / 180 = w_aoa w pitch vel vtr).
  { intros th (T1 & T2 & T3) HU. unfold w_aoa, w_wind. cbn [vx vz]. change vdot with inner. change (vsub vel vtr) with u.
    unfold radians. f_equal. symmetry. destruct (in_plane w u S) as (_ & L & _). fold c in L. change (len c) with U in L.
    rewrite <- L in T2, T3. apply (atan2_unique _ _ U th); [lra|exact T1|exact T2|exact T3]. }
  assert (G : / 4503599627370496 <= U -> inner F u = - (1 / 2 * U * U * U * chord * dx * snd (polar (w_aoa w pitch vel vtr)))).
  { intros HU. destruct (A HU) as (th & T & R). rewrite (W th T HU) in R. destruct (polar (w_aoa w pitch vel vtr)) as [cl cd].
    destruct R as (R1 & R2 & _). rewrite (FU R1), R2. cbn [snd]. change (len c) with U. ring. }
  split; [|exact G]. destruct (Rlt_or_le U (/ 4503599627370496)) as [L|L].
  - rewrite (B L). unfold inner; cbn. lra.
  - rewrite (G L). assert (0 <= U) by lra. specialize (Hp (w_aoa w pitch vel vtr)).
    assert (0 <= 1 / 2 * U * U * U * chord * dx * snd (polar (w_aoa w pitch vel vtr))); [|lra].
    repeat (apply Rmult_le_pos; [|assumption]). lra.
Qed.
Print Assumptions c75_energy.

(** Refuted: the flat plate actuator takes energy out of the flow.  Its drag
    coefficient has the sign of the angle of attack. *)
Theorem c75_flat_plate_refuted : forall w cd_factor pitch vel vtr dx chord eps,
  / 4503599627370496 <= len (w_span w) -> / 4503599627370496 <= len (w_bladex w) ->
  / 4503599627370496 <= len (vcross (vnormalize (w_bladex w)) (vnormalize (w_span w))) ->
  w_2d w = false -> w_flags w = V3 1 1 1 -> w_uinf w < 0 ->
  let F := w_force w (thin_airfoil cd_factor) pitch vel vtr dx chord eps in
  let u := V3 (vx vel - vx vtr) (vy vel - vy vtr) (vz vel - vz vtr) in
  0 < dx -> 0 < chord -> 0 < cd_factor ->
  / 4503599627370496 <= len (across (blade_y w) u) ->
  - PI < w_aoa w pitch vel vtr < 0 -> 0 < inner F u.
Proof.
  intros w k pitch vel vtr dx chord eps H1 H2 H3 D2 FL UI F u Hd Hc Hk HU AO.
  set (U := len (across (blade_y w) u)) in *.
  destruct (c75_force w (thin_airfoil k) pitch vel vtr dx chord eps (U * U) H1 H2 H3 D2 FL) as [A _];
    [left; split; [exact UI|reflexivity]|].
  fold F u in A. fold U in A. set (c := across (blade_y w) u) in *.
  destruct (A HU) as (th & (T1 & T2 & T3) & R). 
  assert (W : th + PI * pitch / 180 = w_aoa w pitch vel vtr).
  { unfold w_aoa, w_wind. cbn [vx vz]. change vdot with inner. change (vsub vel vtr) with u.
    unfold radians. f_equal. symmetry.
    destruct (in_plane w u (conj H1 (conj H2 H3))) as (_ & L & _). fold c in L. change (len c) with U in L.
    rewrite <- L in T2, T3. apply (atan2_unique _ _ U th); [lra|exact T1|exact T2|exact T3]. }
  rewrite W in R. unfold thin_airfoil in R. destruct R as (R1 & R2 & _).
  assert (E : u = vadd c (vscale (blade_y w) (inner u (blade_y w)))).
  { apply across_split. }
  rewrite E at 1. rewrite inner_vadd_r, inner_vscale_r, R1, R2. change (len c) with U.
  assert (SN : sin (w_aoa w pitch vel vtr) < 0) by (apply sin_lt_0_var; lra).
  assert (0 < 1 / 2 * (U * U) * chord * dx * (k * - sin (w_aoa w pitch vel vtr)) * U); [|lra].
  assert (0 < U) by lra.
  apply Rmult_lt_0_compat; [|lra]. apply Rmult_lt_0_compat; [|apply Rmult_lt_0_compat; lra].
  apply Rmult_lt_0_compat; [|lra]. apply Rmult_lt_0_compat; [|lra]. apply Rmult_lt_0_compat; [lra|]. apply Rmult_lt_0_compat; lra.
Qed.
Print Assumptions c75_flat_plate_refuted.

(** Refuted: the angle of attack lies in the range of the airfoil table.  With the wind
    from behind along the chord line the angle is [PI] plus the pitch; a table that
    ends at 180 degrees answers with its last entry whatever the (positive) pitch. *)
Theorem c75_reversed_flow_refuted : forall w polar pitch vel vtr dx chord eps,
  let u := V3 (vx vel - vx vtr) (vy vel - vy vtr) (vz vel - vz vtr) in
  (forall a, PI <= a -> polar a = polar PI) ->
  inner u (blade_x w) < 0 -> inner u (blade_z w) = 0 -> 0 <= pitch ->
  w_aoa w pitch vel vtr = PI + PI * pitch / 180 /\
  w_force w polar pitch vel vtr dx chord eps = w_force w polar 0 vel vtr dx chord eps.
Proof.
  intros w polar pitch vel vtr dx chord eps u HP X Z P.
  assert (A : forall p, w_aoa w p vel vtr = PI + PI * p / 180).
  { intros p. unfold w_aoa, w_wind. cbn [vx vz]. change vdot with inner. change (vsub vel vtr) with u. unfold radians.
    f_equal. pose proof PI_RGT_0.
    apply (atan2_unique _ _ (- inner u (blade_x w)) PI); [lra|lra|rewrite cos_PI; ring|rewrite sin_PI, Z; ring]. }
  split; [apply A|]. unfold w_force, w_lift, w_drag. rewrite !A.
  pose proof PI_RGT_0. assert (0 <= PI * pitch / 180).
  { apply Rmult_le_pos; [apply Rmult_le_pos|]; lra. }
  rewrite (HP (PI + PI * pitch / 180)) by lra. rewrite (HP (PI + PI * 0 / 180)) by lra. reflexivity.
Qed.
Print Assumptions c75_reversed_flow_refuted.

(** Only the relative velocity matters. *)
Theorem c75_relative : forall w polar pitch vel vtr dx chord eps s,
  w_force w polar pitch (V3 (vx vel + vx s) (vy vel + vy s) (vz vel + vz s))
                        (V3 (vx vtr + vx s) (vy vtr + vy s) (vz vtr + vz s)) dx chord eps =
  w_force w polar pitch vel vtr dx chord eps.
Proof.
  intros w polar pitch vel vtr dx chord eps s.
  assert (E : vsub (V3 (vx vel + vx s) (vy vel + vy s) (vz vel + vz s))
                   (V3 (vx vtr + vx s) (vy vtr + vy s) (vz vtr + vz s)) = vsub vel vtr)
    by (unfold vsub; cbn [vx vy vz]; apply vec_eq; ring).
  unfold w_force, w_lift, w_drag, w_qval, w_aoa, w_wind. rewrite E. reflexivity.
Qed.
Print Assumptions c75_relative.

(** The same wing with other force flags. *)
Definition with_flags (w : wing) (f : vec) : wing :=
  Wing (w_n w) (w_start w) (w_end w) (w_bladex w) (w_eps w) (w_epsc w) (w_2d w) (w_norm2d w) f (w_uinf w)
       (w_motion w) (w_svec w) (w_period w).

(** The flags scale the components of the force and nothing else; the reported lift
    and drag are those of the unflagged force. *)
Theorem c75_flags : forall w polar pitch vtr pts,
  let all := with_flags w (V3 1 1 1) in
  let '(fs, tl, td) := w_forces w polar pitch vtr pts in
  let '(fs', tl', td') := w_forces all polar pitch vtr pts in
  fs = map (fun f => V3 (vx f * vx (w_flags w)) (vy f * vy (w_flags w)) (vz f * vz (w_flags w))) fs' /\
  tl = tl' /\ td = td'.
Proof.
  intros w polar pitch vtr pts all. unfold w_forces.
  assert (G : forall fs fs' a b,
    fs = map (fun f => V3 (vx f * vx (w_flags w)) (vy f * vy (w_flags w)) (vz f * vz (w_flags w))) fs' ->
    let step w s (p : vec * R * R * vec) :=
       let '(fs, tl, td) := s in
       let '(vel, dx, chord, eps) := p in
       ((fs ++ [w_force w polar pitch vel vtr dx chord eps])%list,
        tl + w_lift w polar pitch vel vtr dx chord eps,
        td + w_drag w polar pitch vel vtr dx chord eps) in
    let '(gs, tl, td) := fold_left (step w) pts (fs, a, b) in
    let '(gs', tl', td') := fold_left (step all) pts (fs', a, b) in
    gs = map (fun f => V3 (vx f * vx (w_flags w)) (vy f * vy (w_flags w)) (vz f * vz (w_flags w))) gs' /\ tl = tl' /\ td = td').
  { induction pts as [|[[[vel dx] chord] eps] pts IH]; intros fs fs' a b E.
    - cbn. auto.
    - cbn [fold_left]. cbv zeta.
      assert (L : w_lift all polar pitch vel vtr dx chord eps = w_lift w polar pitch vel vtr dx chord eps) by reflexivity.
      assert (D : w_drag all polar pitch vel vtr dx chord eps = w_drag w polar pitch vel vtr dx chord eps) by reflexivity.
      rewrite L, D. apply IH. rewrite map_app, <- E. f_equal. cbn [map]. f_equal.
      unfold w_force. rewrite L, D. change (w_wind all) with (w_wind w). change (blade_x all) with (blade_x w).
      change (blade_y all) with (blade_y w). change (blade_z all) with (blade_z w).
      generalize (vneg (vadd (vscale (vnormalize (vcross (vnormalize
        (vadd (vscale (blade_x w) (vx (w_wind w vel vtr))) (vscale (blade_z w) (vz (w_wind w vel vtr))))) (blade_y w)))
        (w_lift w polar pitch vel vtr dx chord eps)) (vscale (vnormalize
        (vadd (vscale (blade_x w) (vx (w_wind w vel vtr))) (vscale (blade_z w) (vz (w_wind w vel vtr)))))
        (w_drag w polar pitch vel vtr dx chord eps)))). intros f.
      unfold vmul, all, with_flags; cbn [vx vy vz w_flags]. apply vec_eq; ring. }
  apply (G [] [] 0 0). reflexivity.
Qed.
Print Assumptions c75_flags.

Lemma w_forces_spec w polar pitch vtr pts :
  w_forces w polar pitch vtr pts =
  (map (fun '(vel, dx, chord, eps) => w_force w polar pitch vel vtr dx chord eps) pts,
   rsum (map (fun '(vel, dx, chord, eps) => w_lift w polar pitch vel vtr dx chord eps) pts),
   rsum (map (fun '(vel, dx, chord, eps) => w_drag w polar pitch vel vtr dx chord eps) pts)).
Proof.
  unfold w_forces.
  assert (G : forall fs a b,
    fold_left (fun s p =>
     let '(fs, tl, td) := s in
     let '(vel, dx, chord, eps) := p in
     ((fs ++ [w_force w polar pitch vel vtr dx chord eps])%list,
      tl + w_lift w polar pitch vel vtr dx chord eps,
      td + w_drag w polar pitch vel vtr dx chord eps)) pts (fs, a, b) =
    ((fs ++ map (fun '(vel, dx, chord, eps) => w_force w polar pitch vel vtr dx chord eps) pts)%list,
     a + rsum (map (fun '(vel, dx, chord, eps) => w_lift w polar pitch vel vtr dx chord eps) pts),
     b + rsum (map (fun '(vel, dx, chord, eps) => w_drag w polar pitch vel vtr dx chord eps) pts))).
  { induction pts as [|[[[vel dx] chord] eps] pts IH]; intros fs a b; cbn [fold_left map].
    - change (rsum []) with 0. rewrite app_nil_r, !Rplus_0_r. reflexivity.
    - rewrite IH, !rsum_cons, <- app_assoc. cbn [app]. f_equal; [f_equal|]; ring. }
  rewrite G. cbn [app]. rewrite !Rplus_0_l. reflexivity.
Qed.

(** Totals.  A wing of constant chord in a uniform wind: the reported lift and drag are
    the dynamic pressure times the area times the coefficients, whatever the number of points. *)
Theorem c75_totals : forall w polar pitch vel vtr chord eps, (2 <= w_n w)%nat ->
  / 4503599627370496 <= len (w_span w) -> / 4503599627370496 <= len (w_bladex w) ->
  / 4503599627370496 <= len (vcross (vnormalize (w_bladex w)) (vnormalize (w_span w))) ->
  w_2d w = false -> w_uinf w < 0 ->
  let u := V3 (vx vel - vx vtr) (vy vel - vy vtr) (vz vel - vz vtr) in
  let U := len (across (blade_y w) u) in
  let '(cl, cd) := polar (w_aoa w pitch vel vtr) in
  let '(fs, tl, td) := w_forces w polar pitch vtr (map (fun dx => (vel, dx, chord, eps)) (w_widths w)) in
  length fs = w_n w /\
  tl = 1 / 2 * U * U * (chord * dist_pts (w_start w) (w_end w)) * cl /\
  td = 1 / 2 * U * U * (chord * dist_pts (w_start w) (w_end w)) * cd.
Proof.
  intros w polar pitch vel vtr chord eps H H1 H2 H3 D2 UI u U.
  destruct (polar (w_aoa w pitch vel vtr)) as [cl cd] eqn:PE. rewrite w_forces_spec.
  rewrite !map_map.
  assert (W : vmag (w_wind w vel vtr) = U).
  { destruct (in_plane w u (conj H1 (conj H2 H3))) as (_ & L & _). rewrite vmag_len. unfold U. rewrite L.
    unfold w_wind. change vdot with inner. change (vsub vel vtr) with u. unfold len, inner at 1; cbn. f_equal. ring. }
  assert (Q : forall dx, w_qval w vel vtr dx chord eps = (1 / 2 * U * U * chord) * dx).
  { intros dx. unfold w_qval. rewrite W, D2, (proj2 (Rltb_spec _ _)) by lra. cbn [andb].
    replace 0.5 with (1 / 2) by lra. ring. }
  assert (SM : forall k l, rsum (map (fun x => 1 / 2 * U * U * chord * x * k) l) = 1 / 2 * U * U * chord * k * rsum l).
  { intros k l. induction l; cbn [map]; [change (rsum []) with 0; ring|]. rewrite !rsum_cons, IHl. ring. }
  split; [|split].
  - rewrite map_length. destruct (c74_points w H) as (_ & _ & _ & _ & K & _). exact K.
  - erewrite map_ext by (intros dx; unfold w_lift; rewrite Q, PE; cbn [fst]; reflexivity).
    rewrite SM, w_widths_sum by exact H. change (dist_pts (w_start w) (w_end w)) with (len (w_span w)). ring.
  - erewrite map_ext by (intros dx; unfold w_drag; rewrite Q, PE; cbn [snd]; reflexivity).
    rewrite SM, w_widths_sum by exact H. change (dist_pts (w_start w) (w_end w)) with (len (w_span w)). ring.
Qed.
Print Assumptions c75_totals.

(** The example wing: hypotheses hold; wind (3,1,0), drag coefficient 1, width 1, chord 2
    gives the force (-9,0,0) on the fluid. *)
Example wing_set_up : set_up ex_wing /\ blade_x ex_wing = V3 1 0 0 /\ blade_y ex_wing = V3 0 1 0 /\
  blade_z ex_wing = V3 0 0 1.
Proof.
  assert (L : len (w_span ex_wing) = 4).
  { unfold len, w_span, inner; cbn. replace (_ + _ + _) with (4 * 4) by ring. apply sqrt_square. lra. }
  assert (V : 0 < veps < 1) by (unfold veps; lra).
  assert (U1 : forall v, inner v v = 1 -> len v = 1) by (intros v K; unfold len; rewrite K; apply sqrt_1).
  assert (B : blade_y ex_wing = V3 0 1 0).
  { unfold blade_y, vnormalize. rewrite vmag_len, L, (proj2 (Rltb_false _ veps)) by lra.
    unfold vdivs, w_span, vsub; cbn. apply vec_eq; field. }
  assert (X0 : vnormalize (w_bladex ex_wing) = V3 1 0 0) by (apply vnormalize_unit; unfold is_unit, inner; cbn; ring).
  assert (CR : vcross (V3 1 0 0) (V3 0 1 0) = V3 0 0 1) by (unfold vcross; cbn; apply vec_eq; ring).
  assert (Z : blade_z ex_wing = V3 0 0 1).
  { unfold blade_z. rewrite X0, B, CR. apply vnormalize_unit; unfold is_unit, inner; cbn; ring. }
  assert (X : blade_x ex_wing = V3 1 0 0).
  { unfold blade_x. rewrite Z, B. replace (vcross (V3 0 1 0) (V3 0 0 1)) with (V3 1 0 0) by (unfold vcross; cbn; apply vec_eq; ring).
    apply vnormalize_unit; unfold is_unit, inner; cbn; ring. }
  split; [|auto]. split; [rewrite L; lra|]. split.
  - rewrite (U1 (w_bladex ex_wing)) by (unfold inner; cbn; ring). lra.
  - fold (blade_y ex_wing). rewrite X0, B, CR, U1 by (unfold inner; cbn; ring). lra.
Qed.
Example wing_force : inner (w_force ex_wing (fun _ => (0, 1)) 0 (V3 3 1 0) vzero 1 2 vone) (V3 3 1 0) = -27.
Proof.
  destruct wing_set_up as ((H1 & H2 & H3) & X & Y & Z).
  destruct (c75_energy ex_wing (fun _ => (0, 1)) 0 (V3 3 1 0) vzero 1 2 vone H1 H2 H3) as [_ K];
    try reflexivity; try (cbn; lra); try lra.
  - intros a; cbn; lra.
  - assert (U : V3 (vx (V3 3 1 0) - vx vzero) (vy (V3 3 1 0) - vy vzero) (vz (V3 3 1 0) - vz vzero) = V3 3 1 0)
      by (cbn; apply vec_eq; ring).
    rewrite U in K.
    assert (LU : len (across (blade_y ex_wing) (V3 3 1 0)) = 3).
    { rewrite Y. unfold len, across, inner; cbn. replace (_ + _ + _) with (3 * 3) by ring. apply sqrt_square; lra. }
    rewrite LU in K. rewrite K by lra. cbn [snd]. lra.
Qed.
