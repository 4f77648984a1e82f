(** C106: lidar with two turning prisms. *)
From Coq Require Import List ZArith Lra Lia Bool.
From Verif Require Import BoxR BoxRFacts VecSpace VecSpaceSpec VecSpaceProofs PropVec JoukProofs Radar RadarProofs RadarProofs2 Spinner SpinnerSpec.
Import ListNotations.
Open Scope R_scope.

(** *** Direction *)

Lemma norm_unit v : inner v v = 1 -> vnormalize v = v.
Proof.
  intros U. rewrite vnormalize_unitv by (rewrite unit_len by exact U; pose proof veps_lt1; lra). apply unitv_of_unit, U.
Qed.

Lemma turn_x a v : rotate_euler (V3 1 0 0) a v = vapp v (xrot a).
Proof.
  unfold rotate_euler. rewrite norm_unit by (unfold inner; cbn; lra).
  rewrite (proj1 (c25_quaternion_special a 1 (V3 1 0 0) ltac:(lra) ltac:(intros E; injection E; lra))). reflexivity.
Qed.
Lemma turn_z a v : rotate_euler (V3 0 0 1) a v = vapp v (zrot a).
Proof.
  unfold rotate_euler. rewrite norm_unit by (unfold inner; cbn; lra).
  destruct (c25_quaternion_special a 1 (V3 1 0 0) ltac:(lra) ltac:(intros E; injection E; lra)) as (_ & _ & E & _). rewrite E. reflexivity.
Qed.

Lemma reflect_mirror n v : reflect n v = mirror n v.
Proof. unfold reflect, mirror, lin, inner, vapp. cbn. apply vec_eq; ring. Qed.

Lemma facet_unit a th : inner (facet a th) (facet a th) = 1.
Proof.
  unfold inner, facet. cbn. pose proof (sin2_cos2 a) as A. pose proof (sin2_cos2 th) as B. unfold Rsqr in *.
  transitivity (cos a * cos a + sin a * sin a * (sin th * sin th + cos th * cos th)); [ring|]. rewrite B. lra.
Qed.
Lemma mirror_keeps n v : inner n n = 1 -> inner (mirror n v) (mirror n v) = inner v v.
Proof.
  destruct n as [a b c], v as [x y z]. unfold mirror, lin, inner. cbn. intros U.
  transitivity (x * x + y * y + z * z + 4 * (a * x + b * y + c * z) * (a * x + b * y + c * z) * ((a * a + b * b + c * c) - 1)).
  - ring.
  - rewrite U. ring.
Qed.

Lemma pattern_facets i o t :
  pattern i o t = mirror (facet (deg (p_az o / 2)) (deg (p_theta0 o + p_rot o * t * 360)))
                    (mirror (facet (deg (- (p_az i / 2 + 90))) (deg (p_theta0 i + p_rot i * t * 360))) (V3 1 0 0)).
Proof.
  unfold pattern. rewrite !turn_x, !turn_z, !reflect_mirror.
  assert (F : forall a th, vapp (vapp (V3 1 0 0) (zrot a)) (xrot th) = facet (deg a) (deg th)).
  { intros a th. unfold vapp, zrot, xrot, facet. cbn.
    replace (radians a) with (deg a) by (unfold radians, deg; field). replace (radians th) with (deg th) by (unfold radians, deg; field).
    apply vec_eq; ring. }
  rewrite !F. reflexivity.
Qed.

Lemma adjust_keeps v y p r : inner (adjust v y p r) (adjust v y p r) = inner v v.
Proof.
  assert (M : forall v a b, vapp v (tmul a b) = vapp (vapp v a) b).
  { intros w a b. unfold vapp, tmul. cbn. apply vec_eq; ring. }
  assert (X : forall w a, inner (vapp w (xrot a)) (vapp w (xrot a)) = inner w w).
  { intros w a. unfold vapp, xrot, inner. cbn. pose proof (sin2_cos2 (radians a)) as S. unfold Rsqr in S.
    set (s := sin (radians a)) in *. set (c := cos (radians a)) in *.
    transitivity (vx w * vx w + (s * s + c * c) * (vy w * vy w + vz w * vz w)); [ring|rewrite S; ring]. }
  assert (Y : forall w a, inner (vapp w (yrot a)) (vapp w (yrot a)) = inner w w).
  { intros w a. unfold vapp, yrot, inner. cbn. pose proof (sin2_cos2 (radians a)) as S. unfold Rsqr in S.
    set (s := sin (radians a)) in *. set (c := cos (radians a)) in *.
    transitivity (vy w * vy w + (s * s + c * c) * (vx w * vx w + vz w * vz w)); [ring|rewrite S; ring]. }
  assert (Z : forall w a, inner (vapp w (zrot a)) (vapp w (zrot a)) = inner w w).
  { intros w a. unfold vapp, zrot, inner. cbn. pose proof (sin2_cos2 (radians a)) as S. unfold Rsqr in S.
    set (s := sin (radians a)) in *. set (c := cos (radians a)) in *.
    transitivity (vz w * vz w + (s * s + c * c) * (vx w * vx w + vy w * vy w)); [ring|rewrite S; ring]. }
  unfold adjust. rewrite !M, Z, Y, X. reflexivity.
Qed.

(** The direction of a beam: the axis mirrored in the two facets, at the angles of the prisms at that time; it has length
    one, before and after it is turned with the hub; it makes with the axis, backwards, an angle between the difference
    and the sum of the angles of the prisms; and it repeats when both prisms have turned a whole number of times. *)
Theorem c106_direction : forall i o t,
  pattern i o t = mirror (facet (deg (p_az o / 2)) (deg (p_theta0 o + p_rot o * t * 360)))
                    (mirror (facet (deg (- (p_az i / 2 + 90))) (deg (p_theta0 i + p_rot i * t * 360))) (V3 1 0 0)) /\
  (forall yaw tilt roll, inner (adjust (pattern i o t) yaw tilt roll) (adjust (pattern i o t) yaw tilt roll) = 1) /\
  (0 <= p_az i <= 180 -> 0 <= p_az o <= 180 ->
   cos (deg (p_az i) + deg (p_az o)) <= - vx (pattern i o t) <= cos (deg (p_az i) - deg (p_az o))) /\
  (forall P (m n : Z), p_rot i * P = IZR m -> p_rot o * P = IZR n -> pattern i o (t + P) = pattern i o t).
Proof.
  intros i o t. split; [apply pattern_facets|]. split; [|split].
  - intros y p r. rewrite adjust_keeps, pattern_facets, !mirror_keeps by apply facet_unit. unfold inner. cbn. ring.
  - intros [I1 I2] [O1 O2]. rewrite pattern_facets.
    set (th1 := deg (p_theta0 i + p_rot i * t * 360)). set (th2 := deg (p_theta0 o + p_rot o * t * 360)).
    set (A := deg (p_az i)). set (B := deg (p_az o)).
    set (a := deg (- (p_az i / 2 + 90))). set (b := deg (p_az o / 2)).
    assert (EA : cos A = 1 - 2 * (cos a * cos a) /\ sin A = 2 * sin a * cos a).
    { assert (H : A = - (2 * a) - PI) by (unfold A, a, deg; lra).
      assert (H2 : A = - (2 * a + PI)) by lra. rewrite H2, cos_neg, sin_neg, neg_cos, neg_sin, cos_2a_cos, sin_2a. split; ring. }
    assert (EB : cos B = 2 * (cos b * cos b) - 1 /\ sin B = 2 * sin b * cos b).
    { assert (H : B = 2 * b) by (unfold B, b, deg; lra). rewrite H, cos_2a_cos, sin_2a. split; ring. }
    assert (SA : 0 <= sin A) by (apply sin_ge_0; unfold A, deg; pose proof PI_RGT_0; nra).
    assert (SB : 0 <= sin B) by (apply sin_ge_0; unfold B, deg; pose proof PI_RGT_0; nra).
    assert (X : - vx (mirror (facet b th2) (mirror (facet a th1) (V3 1 0 0))) = cos A * cos B - sin A * sin B * cos (th1 - th2)).
    { destruct EA as [-> ->], EB as [-> ->]. rewrite cos_minus. unfold mirror, lin, inner, facet. cbn. 
      pose proof (sin2_cos2 a) as HA. pose proof (sin2_cos2 b) as HB. unfold Rsqr in *. ring. }
    rewrite X. pose proof (COS_bound (th1 - th2)) as [C1 C2]. set (C := cos (th1 - th2)) in *. rewrite cos_plus, cos_minus.
    assert (P : 0 <= sin A * sin B) by (apply Rmult_le_pos; assumption). split; nra.
  - intros P m n HM HN. rewrite !pattern_facets.
    assert (F : forall a th (k : Z), facet a (th + 2 * IZR k * PI) = facet a th).
    { intros a th k. unfold facet. rewrite cos_period_Z, sin_period_Z. reflexivity. }
    replace (deg (p_theta0 i + p_rot i * (t + P) * 360)) with (deg (p_theta0 i + p_rot i * t * 360) + 2 * IZR m * PI)
      by (rewrite <- HM; unfold deg; field).
    replace (deg (p_theta0 o + p_rot o * (t + P) * 360)) with (deg (p_theta0 o + p_rot o * t * 360) + 2 * IZR n * PI)
      by (rewrite <- HN; unfold deg; field).
    rewrite !F. reflexivity.
Qed.

(** *** Angles *)

Lemma itrunc_pos x : 0 <= x -> itrunc x = rfloor x.
Proof. intros H. unfold itrunc. replace (Rltb x 0) with false by (symmetry; apply Rltb_false; lra). reflexivity. Qed.

Lemma fmod_range x y : 0 < y -> (exists n : Z, fmod x y = x + y * IZR n) /\ - y < fmod x y < y /\ (0 <= x -> 0 <= fmod x y).
Proof.
  intros Y. unfold fmod. set (z := itrunc (x / y)).
  assert (E : x = y * (x / y)) by (field; lra).
  split; [exists (- z)%Z; rewrite opp_IZR; ring|].
  destruct (Rltb (x / y) 0) eqn:N.
  - apply Rltb_spec in N. assert (Z : IZR z - 1 < x / y <= IZR z).
    { unfold z, itrunc. replace (Rltb (x / y) 0) with true by (symmetry; apply Rltb_spec; exact N).
      rewrite opp_IZR. pose proof (rfloor_spec (- (x / y))). lra. }
    split; [split; nra|]. intros X. exfalso. assert (0 <= x / y); [|lra].
    unfold Rdiv. apply Rmult_le_pos; [exact X|]. left. apply Rinv_0_lt_compat. exact Y.
  - apply Rltb_false in N. assert (Z : IZR z <= x / y < IZR z + 1).
    { unfold z. rewrite itrunc_pos by exact N. apply rfloor_spec. }
    split; [split; nra|]. intros _. nra.
Qed.

(** The hub is turned the short way between two calls: never by more than half a turn, and to the new angle. *)
Theorem c106_short_way : forall a b, leads a b (short_way (b - a)) /\
  between a b 0 = a /\ (forall f, between a b f = a + f * short_way (b - a)).
Proof.
  intros a b. pose proof PI_RGT_0 as P. split; [|split; [unfold between; ring|intros f; unfold between; ring]].
  unfold leads, short_way. destruct (fmod_range (b - a) (2 * PI) ltac:(lra)) as ((n & N) & R1 & _).
  destruct (fmod_range (fmod (b - a) (2 * PI) + 3 * PI) (2 * PI) ltac:(lra)) as ((m & M) & R2 & R3).
  specialize (R3 ltac:(lra)). split; [|lra].
  exists (- (n + m + 1))%Z. rewrite M, N. rewrite opp_IZR, !plus_IZR. ring.
Qed.

(** *** Clock *)

Definition kept (n : nat) (ns : Z) (k : nat) : nat := Z.to_nat (Z.min (Z.of_nat n) (Z.max 0 (ns - Z.of_nat k))).

Lemma beams_form c mv ns la no : forall n k T,
  beams c mv ns la no k n T =
  (T + INR (kept n ns k) * sdt c,
   map (fun i => beam c mv ns (T + INR i * sdt c) la no (k + i)) (seq 0 (kept n ns k)) ++ repeat Fill (n - kept n ns k)).
Proof.
  induction n as [|n IH]; intros k T.
  - unfold kept. replace (Z.to_nat _) with 0%nat by lia. cbn. f_equal. ring.
  - cbn [beams]. destruct (Z.ltb_spec (Z.of_nat k) ns) as [L|L].
    + rewrite IH. assert (K : kept (S n) ns k = S (kept n ns (S k))) by (unfold kept; lia). rewrite K.
      cbn [seq map app Nat.sub]. f_equal; [rewrite S_INR; ring|].
      rewrite <- seq_shift, map_map.
      replace (T + INR 0 * sdt c) with T by (cbn [INR]; ring). rewrite Nat.add_0_r. f_equal. f_equal.
      apply map_ext. intros i. rewrite <- (Nat.add_succ_comm k i). f_equal. rewrite S_INR. ring.
    + rewrite IH. assert (K : kept (S n) ns k = 0%nat) by (unfold kept; lia).
      assert (K' : kept n ns (S k) = 0%nat) by (unfold kept; lia). rewrite K, K'. cbn [INR seq map app Nat.sub].
      rewrite Nat.sub_0_r. reflexivity.
Qed.

Lemma times_app a b : beam_times (a ++ b) = (beam_times a ++ beam_times b)%list.
Proof. induction a as [|[T f t|] a IH]; cbn; [reflexivity| |exact IH]. rewrite IH. reflexivity. Qed.
Lemma times_fill n : beam_times (repeat Fill n) = [].
Proof. induction n; [reflexivity|exact IHn]. Qed.
Lemma times_beams c mv ns la no T : forall (l : list nat) k,
  beam_times (map (fun i => beam c mv ns (T + INR i * sdt c) la no (k + i)) l) = map (fun i => T + INR i * sdt c) l.
Proof. induction l as [|i l IH]; intros k; [reflexivity|]. cbn [map]. unfold beam at 1. cbn [beam_times]. rewrite IH. reflexivity. Qed.

Lemma seq_add m : forall n q, map (fun i => (m + i)%nat) (seq q n) = seq (m + q) n.
Proof. induction n as [|n IH]; intros q; [reflexivity|]. cbn [seq map]. rewrite IH. f_equal. f_equal. lia. Qed.

Definition started (s : spin) : Prop := (0 < sp_count s)%nat.
Definition stored_now (c : scfg) (s : spin) (x : call) : nat := kept (Z.to_nat (nt_of c (c_dt x))) (ns_of c (sp_T s) x) 0.

Lemma update_form c start s x : started s ->
  update c start s x =
  (Spin (sp_T s + INR (stored_now c s x) * sdt c) (S (sp_count s)) (c_pose x),
   map (fun i => beam c (Rltb (veps * 1000000) (Rabs (c_time x - start))) (ns_of c (sp_T s) x) (sp_T s + INR i * sdt c) (sp_last s) (c_pose x) i)
     (seq 0 (stored_now c s x)) ++ repeat Fill (Z.to_nat (nt_of c (c_dt x)) - stored_now c s x)).
Proof.
  intros H. unfold started in H. unfold update.
  replace (sp_count s =? 0)%nat with false by (symmetry; apply Nat.eqb_neq; lia).
  replace (0 <? sp_count s)%nat with true by (symmetry; apply Nat.ltb_lt; lia).
  rewrite andb_false_r. rewrite beams_form. reflexivity.
Qed.

Lemma outputs_times c start : forall xs s, started s ->
  let '(s', ls) := outputs c start s xs in
  beam_times (concat ls) = map (fun n => sp_T s + INR n * sdt c) (seq 0 (length (beam_times (concat ls)))) /\
  sp_T s' = sp_T s + INR (length (beam_times (concat ls))) * sdt c /\ started s'.
Proof.
  induction xs as [|x xs IH]; intros s H.
  - cbn. split; [reflexivity|]. split; [ring|exact H].
  - cbn [outputs]. rewrite (update_form c start s x H).
    set (m := stored_now c s x).
    specialize (IH (Spin (sp_T s + INR m * sdt c) (S (sp_count s)) (c_pose x)) ltac:(unfold started; cbn; lia)).
    destruct (outputs c start _ xs) as [s' ls]. cbn [sp_T] in IH. destruct IH as (I1 & I2 & I3).
    cbn [concat]. rewrite times_app, times_app, times_fill, app_nil_r.
    rewrite (times_beams c _ _ _ _ (sp_T s) (seq 0 m) 0).
    rewrite app_length, map_length, seq_length. split; [|split; [|exact I3]].
    + rewrite seq_app, map_app. f_equal. cbn [plus]. rewrite I1 at 1.
      replace (seq m (length (beam_times (concat ls)))) with (seq (m + 0) (length (beam_times (concat ls)))) by (f_equal; lia).
      rewrite <- (seq_add m (length (beam_times (concat ls))) 0).
      rewrite map_map. apply map_ext. intros i. rewrite plus_INR. ring.
    + rewrite I2, plus_INR. ring.
Qed.

Lemma init_state c start x s : spin_init c start x = Ret s -> sp_T s = c_time x /\ started s /\ sp_last s = c_pose x.
Proof.
  unfold spin_init. destruct (0 <? nt_of c (c_dt x))%Z; [|discriminate]. intros E. injection E as <-. unfold update. cbn [sp_count Nat.eqb Nat.ltb Nat.leb].
  destruct (Rltb _ _); cbn [andb fst sp_T sp_count]; repeat split; unfold started; cbn; try lia.
Qed.

(** Whatever the steps and the outputs of a run are, the beams stored over the whole run are those of the scan, one
    sampling time after another from the start of the run, none left out and none twice. *)
Theorem c106_scan : forall c start x0 s0 xs,
  spin_init c start x0 = Ret s0 ->
  let ts := beam_times (concat (snd (outputs c start s0 xs))) in
  ts = map (fun n => c_time x0 + INR n * sdt c) (seq 0 (length ts)).
Proof.
  intros c start x0 s0 xs I. destruct (init_state _ _ _ _ I) as (T & S & _).
  pose proof (outputs_times c start xs s0 S) as H. destruct (outputs c start s0 xs) as [s' ls].
  cbn [snd]. cbn zeta. rewrite T in H. apply H.
Qed.

(** Every stored line has the length of the beam. *)
Theorem c106_length : forall c start x0 s0 xs l T a b,
  spin_init c start x0 = Ret s0 -> In l (snd (outputs c start s0 xs)) -> In (Beam T a b) l ->
  inner (lin 1 b (-1) a) (lin 1 b (-1) a) = sc_len c * sc_len c.
Proof.
  intros c start x0 s0 xs l T a b I. destruct (init_state _ _ _ _ I) as (_ & St & _). clear I. revert s0 St.
  induction xs as [|x xs IH]; intros s St; [intros []|]. cbn [outputs]. rewrite (update_form c start s x St).
  specialize (IH (Spin (sp_T s + INR (stored_now c s x) * sdt c) (S (sp_count s)) (c_pose x)) ltac:(unfold started; cbn; lia)).
  destruct (outputs c start _ xs) as [s' ls]. cbn [snd] in *. intros [E|E]; [|apply IH; exact E].
  subst l. intros J. apply in_app_or in J. destruct J as [J|J]; [|apply repeat_spec in J; discriminate].
  apply in_map_iff in J. destruct J as (i & J & _). unfold beam in J. cbn zeta in J.
  match type of J with context [adjust ?p ?y ?t ?r] =>
    assert (U : inner (adjust p y t r) (adjust p y t r) = 1) by (apply (proj1 (proj2 (c106_direction _ _ _))));
    set (d := adjust p y t r) in *; clearbody d end.
  injection J as _ <- <-.
  unfold inner, lin in *. cbn [vx vy vz].
  transitivity (sc_len c * sc_len c * (vx d * vx d + vy d * vy d + vz d * vz d)); [ring|rewrite U; ring].
Qed.

Lemma adjust_turns v y p r : adjust v y p r = yaw_by (deg y) (pitch_by (deg p) (roll_by (deg r) v)).
Proof.
  assert (D : forall a, radians a = deg a) by (intros a; unfold radians, deg; field).
  unfold adjust, vapp, tmul, xrot, yrot, zrot, yaw_by, pitch_by, roll_by. rewrite !D. cbn. apply vec_eq; ring.
Qed.
Lemma between_same a f : between a a f = a.
Proof.
  pose proof PI_RGT_0 as P. unfold between. replace (short_way (a - a)) with 0; [ring|]. replace (a - a) with 0 by ring.
  destruct (c106_short_way 0 0) as [[(n & N) B] _]. replace (0 - 0) with 0 in * by ring.
  assert (E : short_way 0 = - (2 * PI * IZR n)) by lra. assert (H : -1 < IZR n < 1) by (split; nra).
  assert (n = 0%Z) by (assert (-1 < n < 1)%Z; [split; apply lt_IZR; lra|lia]). subst n. lra.
Qed.

(** On a hub at rest every beam leaves from its centre and ends at the length of the beam in the direction of the prisms at
    its time, turned by roll, tilt and yaw of the mounting and of the hub together. *)
Theorem c106_pointing : forall c start x0 s0 xs p l T a b,
  spin_init c start x0 = Ret s0 -> (forall x, In x (x0 :: xs) -> c_pose x = p) ->
  In l (snd (outputs c start s0 xs)) -> In (Beam T a b) l ->
  a = h_centre p /\
  b = lin 1 a (sc_len c) (yaw_by (deg (sc_yaw c) + h_yaw p) (pitch_by (deg (sc_tilt c) + h_tilt p)
        (roll_by (deg (sc_roll c) + h_roll p) (looks (sc_in c) (sc_out c) T)))).
Proof.
  intros c start x0 s0 xs p l T a b I H. destruct (init_state _ _ _ _ I) as (_ & St & SL). clear I.
  rewrite (H x0 (or_introl eq_refl)) in SL.
  assert (H' : forall x, In x xs -> c_pose x = p) by (intros x J; apply H; right; exact J). clear H. revert s0 St SL.
  induction xs as [|x xs IH]; intros s St SL; [intros []|]. cbn [outputs]. rewrite (update_form c start s x St).
  specialize (IH ltac:(intros y J; apply H'; right; exact J) (Spin (sp_T s + INR (stored_now c s x) * sdt c) (S (sp_count s)) (c_pose x))
    ltac:(unfold started; cbn; lia) (H' x (or_introl eq_refl))).
  destruct (outputs c start _ xs) as [s' ls]. cbn [snd] in *. intros [E|E]; [|apply IH; exact E].
  subst l. intros J. apply in_app_or in J. destruct J as [J|J]; [|apply repeat_spec in J; discriminate].
  apply in_map_iff in J. destruct J as (i & J & _). rewrite SL, (H' x (or_introl eq_refl)) in J. unfold beam in J. cbn zeta in J.
  rewrite !between_same, adjust_turns, (proj1 (c106_direction _ _ _)) in J.
  assert (D : forall u w, deg (u + w * (180 / PI)) = deg u + w) by (intros u w; unfold deg; field; pose proof PI_RGT_0; lra).
  rewrite !D in J. change (mirror _ (mirror _ _)) with (looks (sc_in c) (sc_out c) (sp_T s + INR i * sdt c)) in J.
  assert (TT : sp_T s + INR i * sdt c = T) by congruence. rewrite TT in J.
  match goal with |- _ /\ _ = lin _ _ _ ?d => set (e := d) in *; clearbody e end. injection J as J1 J2.
  assert (A : a = h_centre p).
  { rewrite <- J1. destruct (h_centre p) as [u v w]. cbn [vx vy vz]. apply vec_eq; ring. }
  split; [exact A|]. rewrite A, <- J2. unfold lin. destruct (h_centre p) as [u v w]. cbn [vx vy vz]. apply vec_eq; ring.
Qed.

Lemma ifnat z : (0 <= z)%Z -> INR (Z.to_nat z) = IZR z.
Proof. intros H. rewrite INR_IZR_INZ, Z2Nat.id by exact H. reflexivity. Qed.
Lemma floor_ceil r : (rceil r = rfloor r \/ rceil r = rfloor r + 1)%Z.
Proof.
  pose proof (rceil_spec r) as [C1 C2]. pose proof (rfloor_spec r) as [F1 F2].
  assert (rfloor r <= rceil r)%Z by (apply le_IZR; lra).
  assert (rceil r < rfloor r + 2)%Z by (apply lt_IZR; rewrite plus_IZR; lra). lia.
Qed.

Lemma stored_count c s x : 0 < sdt c -> 0 <= c_dt x ->
  (sdt c < c_time x - sp_T s -> INR (stored_now c s x) = IZR (rceil (c_dt x / sdt c))) /\
  (c_time x - sp_T s <= sdt c -> INR (stored_now c s x) = IZR (rfloor (c_dt x / sdt c))).
Proof.
  intros P D. unfold stored_now, kept, ns_of, nt_of. set (r := c_dt x / sdt c).
  assert (R0 : 0 <= r) by (unfold r, Rdiv; apply Rmult_le_pos; [exact D|left; apply Rinv_0_lt_compat; exact P]).
  rewrite (itrunc_pos r R0). pose proof (floor_ceil r) as FC.
  assert (F0 : (0 <= rfloor r)%Z).
  { destruct (rfloor_spec r) as [_ F]. assert (-1 < rfloor r)%Z; [|lia]. apply lt_IZR. lra. }
  split; intros H.
  - replace (Rltb (sdt c) (c_time x - sp_T s)) with true by (symmetry; apply Rltb_spec; exact H).
    assert (G : 1 < (c_time x - sp_T s) / sdt c).
    { apply Rmult_lt_reg_r with (sdt c); [exact P|]. unfold Rdiv. rewrite Rmult_assoc, Rinv_l; lra. }
    rewrite (itrunc_pos ((c_time x - sp_T s) / sdt c)) by lra.
    assert (1 <= rfloor ((c_time x - sp_T s) / sdt c))%Z.
    { destruct (rfloor_spec ((c_time x - sp_T s) / sdt c)) as [_ F]. assert (0 < rfloor ((c_time x - sp_T s) / sdt c))%Z; [|lia]. apply lt_IZR. lra. }
    rewrite ifnat by lia. f_equal. lia.
  - replace (Rltb (sdt c) (c_time x - sp_T s)) with false by (symmetry; apply Rltb_false; exact H).
    rewrite ifnat by lia. f_equal. lia.
Qed.

Lemma lag_step c start N : 0 < sdt c -> (0 <= N)%Z -> forall xs s t, started s -> every_step t xs ->
  (forall x, In x xs -> c_dt x <= IZR N * sdt c) ->
  - IZR N * sdt c <= t - sp_T s <= sdt c ->
  - IZR N * sdt c <= last_time t xs - sp_T (fst (outputs c start s xs)) <= sdt c.
Proof.
  intros P N0. induction xs as [|x xs IH]; intros s t St ES B I; [exact I|].
  destruct ES as (D & E & ES). cbn [outputs last_time fold_left]. rewrite (update_form c start s x St).
  specialize (IH (Spin (sp_T s + INR (stored_now c s x) * sdt c) (S (sp_count s)) (c_pose x)) (c_time x) ltac:(unfold started; cbn; lia) ES).
  destruct (outputs c start _ xs) as [s' ls]. cbn [fst] in *. cbn [sp_T] in IH. apply IH; [intros y J; apply B; right; exact J|].
  destruct (stored_count c s x P D) as [S1 S2]. pose proof (B x (or_introl eq_refl)) as BX.
  set (r := c_dt x / sdt c) in *. assert (RX : c_dt x = r * sdt c) by (unfold r; field; lra).
  pose proof (rceil_spec r) as [C1 C2]. pose proof (rfloor_spec r) as [F1 F2].
  assert (CN : IZR (rceil r) <= IZR N).
  { apply IZR_le. assert (rceil r < N + 1)%Z; [|lia]. apply lt_IZR. rewrite plus_IZR.
    assert (r <= IZR N); [|lra]. apply Rmult_le_reg_r with (sdt c); [exact P|]. lra. }
  destruct (Rlt_dec (sdt c) (c_time x - sp_T s)) as [H|H].
  - rewrite (S1 H). split; [|nra]. nra.
  - rewrite (S2 ltac:(lra)). assert (0 <= IZR (rfloor r)).
    { apply IZR_le. assert (-1 < rfloor r)%Z; [|lia]. apply lt_IZR. assert (0 <= r); [|lra].
      apply Rmult_le_reg_r with (sdt c); [exact P|lra]. }
    split; nra.
Qed.

(** With an output at every step, and at the start or not, the clock of the scan follows the run for steps of any sizes:
    never more than one sampling time behind, never further ahead than the samples of the longest step. *)
Theorem c106_clock : forall c start x0 s0 xs ys N,
  0 < sdt c -> (0 <= N)%Z -> spin_init c start x0 = Ret s0 -> 0 <= c_dt x0 ->
  every_step (c_time x0) ys -> (forall x, In x (x0 :: ys) -> c_dt x <= IZR N * sdt c) ->
  xs = ys \/ xs = x0 :: ys ->
  - IZR N * sdt c <= last_time (c_time x0) xs - sp_T (fst (outputs c start s0 xs)) <= sdt c.
Proof.
  intros c start x0 s0 xs ys N P N0 I D ES B O. destruct (init_state _ _ _ _ I) as (T & St & _).
  assert (NP : 0 <= IZR N * sdt c) by (apply Rmult_le_pos; [apply IZR_le; exact N0|lra]).
  destruct O as [-> | ->].
  - apply lag_step; try assumption; [intros x J; apply B; right; exact J|]. rewrite T. lra.
  - cbn [outputs last_time fold_left]. rewrite (update_form c start s0 x0 St).
    pose proof (lag_step c start N P N0 ys (Spin (sp_T s0 + INR (stored_now c s0 x0) * sdt c) (S (sp_count s0)) (c_pose x0)) (c_time x0)) as L.
    destruct (outputs c start _ ys) as [s' ls]. cbn [fst] in *. apply L; [unfold started; cbn; lia|exact ES|intros x J; apply B; right; exact J|].
    cbn [sp_T]. destruct (stored_count c s0 x0 P D) as [_ S2]. rewrite (S2 ltac:(rewrite T; lra)), T.
    pose proof (B x0 (or_introl eq_refl)) as BX. set (r := c_dt x0 / sdt c) in *.
    assert (RX : c_dt x0 = r * sdt c) by (unfold r; field; lra). pose proof (rfloor_spec r) as [F1 F2].
    assert (0 <= IZR (rfloor r)).
    { apply IZR_le. assert (-1 < rfloor r)%Z; [|lia]. apply lt_IZR. assert (0 <= r); [|lra].
      apply Rmult_le_reg_r with (sdt c); [exact P|lra]. }
    split; nra.
Qed.

Lemma whole c (n : nat) : 0 < sdt c -> rfloor (INR n * sdt c / sdt c) = Z.of_nat n /\ rceil (INR n * sdt c / sdt c) = Z.of_nat n.
Proof.
  intros P. replace (INR n * sdt c / sdt c) with (IZR (Z.of_nat n)) by (rewrite <- INR_IZR_INZ; field; lra).
  assert (F : rfloor (IZR (Z.of_nat n)) = Z.of_nat n) by (apply rfloor_unique; lra). split; [exact F|].
  unfold rceil. replace (- IZR (Z.of_nat n)) with (IZR (- Z.of_nat n)) by apply opp_IZR.
  rewrite (rfloor_unique (IZR (- Z.of_nat n)) (- Z.of_nat n)) by lra. lia.
Qed.

(** Outputs further apart than the steps: each holds only the beams of one step, so that the scan falls behind the run
    without limit. *)
Theorem c106_interval_refuted : forall c start x0 s0 n g m,
  0 < sdt c -> (1 <= n)%nat -> 2 <= g -> spin_init c start x0 = Ret s0 ->
  let dt := INR n * sdt c in
  let xs := sparse_calls (c_pose x0) (c_time x0) (g * dt) dt m in
  last_time (c_time x0) xs = c_time x0 + INR m * g * dt /\
  sp_T (fst (outputs c start s0 xs)) = c_time x0 + INR m * dt.
Proof.
  intros c start x0 s0 n g m P N G I dt xs. destruct (init_state _ _ _ _ I) as (T & St & _).
  assert (N1 : 1 <= INR n) by (apply (le_INR 1); exact N).
  assert (D : sdt c <= dt) by (unfold dt; nra).
  subst xs. assert (H : forall j s t, started s -> sp_T s <= t ->
    last_time t (sparse_calls (c_pose x0) t (g * dt) dt j) = t + INR j * g * dt /\
    sp_T (fst (outputs c start s (sparse_calls (c_pose x0) t (g * dt) dt j))) = sp_T s + INR j * dt).
  { clear I T St s0. induction j as [|k IH]; intros s t St L; [cbn [sparse_calls outputs fst]; unfold last_time; cbn [fold_left]; change (INR 0) with 0; split; ring|].
    cbn [sparse_calls outputs last_time fold_left]. rewrite (update_form c start s _ St).
    set (x := Call (t + g * dt) dt (c_pose x0)) in *.
    assert (K : INR (stored_now c s x) = INR n).
    { destruct (stored_count c s x P ltac:(cbn; nra)) as [S1 _]. rewrite S1 by (cbn; nra). cbn [c_dt x].
      unfold dt. rewrite (proj2 (whole c n P)). symmetry. apply INR_IZR_INZ. }
    rewrite K. specialize (IH (Spin (sp_T s + INR n * sdt c) (S (sp_count s)) (c_pose x)) (t + g * dt) ltac:(unfold started; cbn; lia)
      ltac:(cbn [sp_T]; fold dt; nra)).
    destruct (outputs c start _ _) as [s' ls]. cbn [fst] in *. destruct IH as [I1 I2]. unfold last_time in *. cbn [c_time x] in *.
    rewrite I1, I2. cbn [sp_T]. fold dt. rewrite S_INR. split; ring. }
  destruct (H m s0 (c_time x0) St ltac:(lra)) as [H1 H2]. split; [exact H1|rewrite H2, T; reflexivity].
Qed.

Lemma beam_hub c ns T a v t t' k : exists to,
  beam c true ns T (at_hub a v t) (at_hub a v t') k = Beam T (evenly a v (t + INR k / IZR ns * (t' - t))) to.
Proof.
  eexists. unfold beam, at_hub, evenly, lin. cbn [h_centre h_yaw h_tilt h_roll vx vy vz]. f_equal.
  apply vec_eq; cbn [vx vy vz]; unfold Rdiv; ring.
Qed.

Lemma hub_steps c start a v n q off dt : 0 < sdt c -> (1 <= n)%nat -> dt = INR n * sdt c -> veps * 1000000 < dt ->
  (forall t p, start <= t -> ns_of c (t + off) (Call (t + dt) dt p) = Z.of_nat q) -> (n <= q)%nat ->
  forall m t s, start <= t -> started s -> sp_T s = t + off -> sp_last s = at_hub a v t ->
  forall j l T from to, nth_error (snd (outputs c start s (even_calls a v t dt m))) j = Some l -> In (Beam T from to) l ->
  exists k, (k < n)%nat /\ T = t + INR j * dt + off + INR k * sdt c /\
    from = evenly a v (t + INR j * dt + INR k / INR q * dt).
Proof.
  intros P N D V Q NQ. induction m as [|m IH]; intros t s L St ST SL j l T from to E J.
  - cbn [even_calls outputs snd] in E. destruct j; discriminate.
  - cbn [even_calls outputs] in E. rewrite (update_form c start s _ St) in E.
    set (x := Call (t + dt) dt (at_hub a v (t + dt))) in *.
    assert (K : stored_now c s x = n).
    { unfold stored_now, kept. rewrite ST. unfold x at 2. rewrite (Q t _ L). unfold nt_of. cbn [c_dt x]. rewrite D, (proj2 (whole c n P)). lia. }
    rewrite K in E.
    assert (D0 : 0 < dt) by (rewrite D; apply Rmult_lt_0_compat; [apply lt_0_INR; lia|exact P]).
    specialize (IH (t + dt) (Spin (sp_T s + INR n * sdt c) (S (sp_count s)) (c_pose x)) ltac:(lra) ltac:(unfold started; cbn; lia)
      ltac:(cbn [sp_T]; rewrite ST, <- D; ring) eq_refl).
    destruct (outputs c start _ (even_calls a v (t + dt) dt m)) as [s' ls] eqn:O. cbn [snd] in *.
    destruct j as [|j].
    + cbn [nth_error] in E. injection E as E. subst l. apply in_app_or in J. destruct J as [J|J]; [|apply repeat_spec in J; discriminate].
      apply in_map_iff in J. destruct J as (k & J & KK). apply in_seq in KK. cbn beta in J. exists k. split; [lia|].
      replace (Rltb (veps * 1000000) (Rabs (t + dt - start))) with true in J
        by (symmetry; apply Rltb_spec; rewrite Rabs_pos_eq; lra).
      assert (NS : ns_of c (sp_T s) x = Z.of_nat q) by (rewrite ST; apply (Q t _ L)).
      rewrite NS, SL, ST in J. change (c_pose x) with (at_hub a v (t + dt)) in J.
      match type of J with beam ?c true ?ns ?T ?A ?B ?k = _ =>
        destruct (beam_hub c ns T a v t (t + dt) k) as (to' & B'); rewrite B' in J end.
      injection J as J1 J2 _. rewrite <- J1, <- J2. change (INR 0) with 0. rewrite <- INR_IZR_INZ.
      split; [ring|]. f_equal. ring.
    + cbn [nth_error] in E. destruct (IH j l T from to E J) as (k & K1 & K2 & K3). exists k. split; [exact K1|].
      rewrite S_INR. split; [rewrite K2; ring|]. rewrite K3. f_equal. ring.
Qed.

Lemma evenly_apart a v t t' : v <> vzero -> evenly a v t = evenly a v t' -> t = t'.
Proof.
  intros NZ E. destruct (Req_dec t t') as [K|K]; [exact K|]. exfalso. apply NZ. unfold evenly, lin in E.
  injection E as E1 E2 E3. destruct v as [p q r]. cbn [vx vy vz] in *. unfold vzero.
  apply vec_eq; cbn [vx vy vz]; apply Rmult_eq_reg_l with (t - t'); lra.
Qed.

(** With an output at the start, in a steady run with a hub that moves evenly, every beam of every later step leaves from
    where the hub was one step before the time of the beam. *)
Theorem c106_hub_start_refuted : forall c a v t0 n m s0 s1 l1,
  0 < sdt c -> (1 <= n)%nat ->
  let dt := INR n * sdt c in
  let x0 := Call t0 dt (at_hub a v t0) in
  veps * 1000000 < dt -> spin_init c t0 x0 = Ret s0 -> update c t0 s0 x0 = (s1, l1) ->
  forall j l T from to,
  nth_error (snd (outputs c t0 s1 (even_calls a v t0 dt m))) j = Some l -> In (Beam T from to) l ->
  t0 + INR (S j) * dt <= T < t0 + INR (S (S j)) * dt /\
  from = evenly a v (T - dt) /\ (v <> vzero -> from <> evenly a v T).
Proof.
  intros c a v t0 n m s0 s1 l1 P N dt x0 V I U j l T from to E J.
  destruct (init_state _ _ _ _ I) as (T0 & St & SL). rewrite (update_form c t0 s0 x0 St) in U. injection U as U _.
  assert (D0 : 0 < dt) by (apply Rmult_lt_0_compat; [apply lt_0_INR; lia|exact P]).
  assert (K : INR (stored_now c s0 x0) = INR n).
  { destruct (stored_count c s0 x0 P ltac:(cbn; lra)) as [_ S2]. rewrite S2 by (rewrite T0; lra). cbn [c_dt x0].
    unfold dt. rewrite (proj1 (whole c n P)). symmetry. apply INR_IZR_INZ. }
  destruct (hub_steps c t0 a v n n dt dt P N eq_refl V) with (m := m) (t := t0) (s := s1) (j := j) (l := l) (T := T) (from := from) (to := to)
    as (k & K1 & K2 & K3); try assumption.
  - intros t p L. unfold ns_of. cbn [c_dt c_time].
    replace (Rltb (sdt c) (t + dt - (t + dt))) with false by (symmetry; apply Rltb_false; lra).
    unfold dt. rewrite itrunc_pos; [rewrite (proj1 (whole c n P)); lia|]. unfold Rdiv. rewrite Rmult_assoc, Rinv_r by lra.
    pose proof (pos_INR n). lra.
  - lia.
  - lra.
  - rewrite <- U. unfold started. cbn. lia.
  - rewrite <- U. cbn [sp_T]. rewrite T0, K. reflexivity.
  - rewrite <- U. reflexivity.
  - assert (KD : 0 <= INR k * sdt c < dt).
    { split; [apply Rmult_le_pos; [apply pos_INR|lra]|]. apply Rmult_lt_compat_r; [exact P|]. apply lt_INR. exact K1. }
    assert (F : from = evenly a v (T - dt)).
    { rewrite K3, K2. f_equal. unfold dt. assert (INR n <> 0) by (apply not_0_INR; lia). field. assumption. }
    split; [rewrite !S_INR; lra|]. split; [exact F|]. intros NZ G. rewrite F in G. apply (evenly_apart a v _ _ NZ) in G. lra.
Qed.

(** Without one, and with more than one sample in a step, the beams of a step leave from the first half of the way of the
    hub: the offset of a beam from the start of its step is halved. *)
Theorem c106_hub_refuted : forall c a v t0 n m s0,
  0 < sdt c -> (2 <= n)%nat ->
  let dt := INR n * sdt c in
  let x0 := Call t0 dt (at_hub a v t0) in
  veps * 1000000 < dt -> spin_init c t0 x0 = Ret s0 ->
  forall j l T from to,
  nth_error (snd (outputs c t0 s0 (even_calls a v t0 dt m))) j = Some l -> In (Beam T from to) l ->
  let u := t0 + INR j * dt in
  u <= T < u + dt /\ from = evenly a v (u + (T - u) / 2) /\ (v <> vzero -> u < T -> from <> evenly a v T).
Proof.
  intros c a v t0 n m s0 P N dt x0 V I j l T from to E J u.
  destruct (init_state _ _ _ _ I) as (T0 & St & SL).
  assert (N2 : 2 <= INR n) by (apply (le_INR 2); exact N).
  assert (D0 : 0 < dt) by (apply Rmult_lt_0_compat; lra).
  destruct (hub_steps c t0 a v n (n + n) 0 dt P ltac:(lia) eq_refl V) with (m := m) (t := t0) (s := s0) (j := j) (l := l) (T := T) (from := from) (to := to)
    as (k & K1 & K2 & K3); try assumption.
  - intros t p L. unfold ns_of. cbn [c_dt c_time].
    replace (Rltb (sdt c) (t + dt - (t + 0))) with true by (symmetry; apply Rltb_spec; unfold dt; nra).
    replace (t + dt - (t + 0)) with dt by ring.
    unfold dt. rewrite itrunc_pos; [rewrite (proj1 (whole c n P)); lia|]. unfold Rdiv. rewrite Rmult_assoc, Rinv_r by lra. lra.
  - lia.
  - lra.
  - rewrite T0. cbn [c_time x0]. ring.
  - assert (KD : 0 <= INR k * sdt c < dt).
    { split; [apply Rmult_le_pos; [apply pos_INR|lra]|]. apply Rmult_lt_compat_r; [exact P|]. apply lt_INR. exact K1. }
    assert (F : from = evenly a v (u + (T - u) / 2)).
    { rewrite K3, K2. f_equal. unfold u. rewrite plus_INR. unfold dt. field. lra. }
    split; [unfold u; lra|]. split; [exact F|]. intros NZ B G. rewrite F in G. apply (evenly_apart a v _ _ NZ) in G. lra.
Qed.

(** Every line is divided evenly from its start to its end, and the points are numbered without gaps. *)
Theorem c106_points : forall c l,
  map fst (all_points c 0 l) = seq 0 (sc_pts c * length l) /\
  (forall k e, nth_error l k = Some e -> (2 <= sc_pts c)%nat ->
   forall i, (i < sc_pts c)%nat ->
   nth_error (all_points c 0 l) (k * sc_pts c + i) =
   Some ((k * sc_pts c + i)%nat,
     lin (1 - INR i / INR (sc_pts c - 1)) (fst (ends e)) (INR i / INR (sc_pts c - 1)) (snd (ends e)))).
Proof.
  intros c l. set (p := sc_pts c).
  assert (LN : forall k a b, length (line_points c k a b) = p) by (intros; unfold line_points; rewrite map_length, seq_length; reflexivity).
  assert (A : forall l k, map fst (all_points c k l) = seq (k * p) (p * length l)).
  { clear l. induction l as [|e l IH]; intros k; cbn [all_points length].
    - rewrite Nat.mul_0_r. reflexivity.
    - rewrite map_app, IH. replace (p * S (length l))%nat with (p + p * length l)%nat by lia. rewrite seq_app. f_equal.
      + unfold line_points. rewrite map_map. cbn [fst]. fold p. rewrite (map_ext _ (fun i => (k * p + i)%nat)) by (intros; lia).
        rewrite (seq_add (k * p) p 0), Nat.add_0_r. reflexivity.
      + f_equal. lia. }
  split; [rewrite A; reflexivity|].
  assert (B : forall l k0 k e, nth_error l k = Some e -> (2 <= p)%nat -> forall i, (i < p)%nat ->
    nth_error (all_points c k0 l) (k * p + i) = Some (((k0 + k) * p + i)%nat,
     lin (1 - INR i / INR (p - 1)) (fst (ends e)) (INR i / INR (p - 1)) (snd (ends e)))).
  { clear l. induction l as [|e0 l IH]; intros k0 k e E P2 i I; [destruct k; discriminate|]. cbn [all_points].
    destruct k as [|k].
    - cbn [nth_error] in E. injection E as <-. cbn [Nat.mul plus]. rewrite nth_error_app1 by (rewrite LN; exact I).
      unfold line_points. rewrite (map_nth_error _ i (seq 0 (sc_pts c)) (d := i)).
      + fold p. replace (Nat.max (p - 1) 1) with (p - 1)%nat by lia. f_equal. f_equal; [lia|].
        assert (INR (p - 1) <> 0) by (apply not_0_INR; lia). apply vec_eq; unfold lin; cbn [vx vy vz]; field; assumption.
      + rewrite (nth_error_nth' _ 0%nat) by (rewrite seq_length; exact I). rewrite seq_nth by exact I. reflexivity.
    - cbn [nth_error] in E. rewrite nth_error_app2 by (rewrite LN; lia). rewrite LN.
      replace (S k * p + i - p)%nat with (k * p + i)%nat by lia. rewrite (IH (S k0) k e E P2 i I).
      replace (S k0 + k)%nat with (k0 + S k)%nat by lia. reflexivity. }
  intros k e E P2 i I. rewrite (B l 0%nat k e E P2 i I). reflexivity.
Qed.

(** The buffer of the values keeps the size it gets at the start: it has room for the points of a later step exactly when
    that step has no more samples than the first one; otherwise values are written behind its end. *)
Theorem c106_buffer_refuted : forall c dt0 dt nvars,
  (0 < sc_pts c)%nat -> (0 < nvars)%nat -> (0 <= nt_of c dt0)%Z ->
  ((forall fid uid, (fid < nvars)%nat -> (uid < sc_pts c * Z.to_nat (nt_of c dt))%nat ->
     write_at c dt0 nvars fid uid <> UB) <-> (nt_of c dt <= nt_of c dt0)%Z).
Proof.
  intros c dt0 dt nvars P V N0. unfold write_at. split.
  - intros H. destruct (Z_le_gt_dec (nt_of c dt) (nt_of c dt0)) as [L|G]; [exact L|]. exfalso.
    apply (H (nvars - 1)%nat (sc_pts c * Z.to_nat (nt_of c dt0))%nat); [lia|nia|].
    set (t := (sc_pts c * Z.to_nat (nt_of c dt0))%nat).
    replace ((nvars - 1) * t + t <? t * nvars)%nat with false by (symmetry; apply Nat.ltb_ge; nia). reflexivity.
  - intros L fid uid F U. set (t := (sc_pts c * Z.to_nat (nt_of c dt0))%nat).
    assert (uid < t)%nat by (unfold t; nia).
    replace (fid * t + uid <? t * nvars)%nat with true by (symmetry; apply Nat.ltb_lt; nia). discriminate.
Qed.

(** The step of a run whose step follows the flow is still zero when the sampler is set up: there is no line then, and the
    check of the first line against the domain reads one that does not exist. *)
Theorem c106_adaptive_refuted : forall c start x, 0 < sdt c ->
  (spin_init c start x = UB <-> c_dt x <= 0).
Proof.
  intros c start x P. unfold spin_init, nt_of. pose proof (rceil_spec (c_dt x / sdt c)) as [C1 C2].
  assert (X : c_dt x = c_dt x / sdt c * sdt c) by (field; lra). set (r := c_dt x / sdt c) in *.
  destruct (Z.ltb_spec 0 (rceil r)) as [L|L].
  - split; [discriminate|]. intros H. exfalso. assert (1 <= IZR (rceil r)) by (apply IZR_le; lia). nra.
  - split; [|reflexivity]. intros _. apply IZR_le in L. nra.
Qed.

(** *** Cases that meet the hypotheses *)

(** two seconds for four samples, steps of one second, a hub that rises *)
Definition ex_c : scfg := SCfg 2 4 100 3 (Prism 0 (7/2) 15) (Prism 0 (13/2) 15) 0 0 0.
Definition ex_v : vec := V3 0 0 1.
Lemma ex_sdt : sdt ex_c = 1 / 2.
Proof. unfold sdt, ex_c. cbn [sc_scan sc_num]. lra. Qed.
Lemma ex_init : exists s0, spin_init ex_c 0 (Call 0 1 (at_hub vzero ex_v 0)) = Ret s0.
Proof.
  destruct (spin_init ex_c 0 (Call 0 1 (at_hub vzero ex_v 0))) as [s0| |] eqn:E; [exists s0; reflexivity| |].
  - unfold spin_init in E. destruct (0 <? _)%Z; discriminate.
  - exfalso. apply (c106_adaptive_refuted ex_c 0 (Call 0 1 (at_hub vzero ex_v 0))) in E; [cbn in E; lra|rewrite ex_sdt; lra].
Qed.

Example c106_clock_example : exists s0,
  spin_init ex_c 0 (Call 0 1 (at_hub vzero ex_v 0)) = Ret s0 /\ 0 < sdt ex_c /\
  every_step 0 (even_calls vzero ex_v 0 1 3) /\
  (forall x, In x (Call 0 1 (at_hub vzero ex_v 0) :: even_calls vzero ex_v 0 1 3) -> c_dt x <= IZR 2 * sdt ex_c).
Proof.
  destruct ex_init as [s0 E]. exists s0. rewrite ex_sdt. split; [exact E|]. split; [lra|]. split.
  - cbn. repeat split; lra.
  - intros x J. cbn [even_calls In] in J.
    destruct J as [<-|[<-|[<-|[<-|[]]]]]; cbn [c_dt]; lra.
Qed.

(** the first step of that run stores two beams, at 0 and 1/2; the second leaves from where the hub was at 1/4 *)
Example c106_hub_example : exists s0 l to,
  spin_init ex_c 0 (Call 0 1 (at_hub vzero ex_v 0)) = Ret s0 /\ INR 2 * sdt ex_c = 1 /\ veps * 1000000 < 1 /\
  nth_error (snd (outputs ex_c 0 s0 (even_calls vzero ex_v 0 1 1))) 0 = Some l /\
  beam_times l = [0; 1 / 2] /\ nth_error l 1 = Some (Beam (1 / 2) (V3 0 0 (1 / 4)) to).
Proof.
  destruct ex_init as [s0 E]. destruct (init_state _ _ _ _ E) as (T & St & SL). cbn [c_time] in T.
  assert (VE : veps * 1000000 < 1) by (unfold veps; lra).
  set (x := Call (0 + 1) 1 (at_hub vzero ex_v (0 + 1))).
  assert (P : 0 < sdt ex_c) by (rewrite ex_sdt; lra).
  assert (R2 : 1 / sdt ex_c = INR 2 * sdt ex_c / sdt ex_c) by (rewrite ex_sdt; cbn; lra).
  assert (NS : ns_of ex_c (sp_T s0) x = 4%Z).
  { unfold ns_of. rewrite T. cbn [c_dt c_time x].
    replace (Rltb (sdt ex_c) (0 + 1 - 0)) with true by (symmetry; apply Rltb_spec; rewrite ex_sdt; lra).
    replace (0 + 1 - 0) with 1 by ring. rewrite itrunc_pos by (rewrite ex_sdt; lra). rewrite R2, (proj1 (whole ex_c 2 P)). reflexivity. }
  assert (NT : nt_of ex_c (c_dt x) = 2%Z) by (unfold nt_of; cbn [c_dt x]; rewrite R2; apply (proj2 (whole ex_c 2 P))).
  assert (K : stored_now ex_c s0 x = 2%nat) by (unfold stored_now, kept; rewrite NS, NT; reflexivity).
  assert (MV : Rltb (veps * 1000000) (Rabs (c_time x - 0)) = true).
  { apply Rltb_spec. cbn [c_time x]. replace (0 + 1 - 0) with 1 by ring. rewrite Rabs_pos_eq; lra. }
  pose proof (update_form ex_c 0 s0 x St) as U. rewrite K, NT, NS, MV, T, SL in U.
  cbn [seq map] in U. change (Z.to_nat 2 - 2)%nat with 0%nat in U. cbn [repeat app] in U.
  change (c_pose (Call 0 1 (at_hub vzero ex_v 0))) with (at_hub vzero ex_v 0) in U. change (c_pose x) with (at_hub vzero ex_v (0 + 1)) in U.
  destruct (beam_hub ex_c 4 (0 + INR 0 * sdt ex_c) vzero ex_v 0 (0 + 1) 0) as (to0 & B0). rewrite B0 in U.
  destruct (beam_hub ex_c 4 (0 + INR 1 * sdt ex_c) vzero ex_v 0 (0 + 1) 1) as (to & B1). rewrite B1 in U.
  eexists s0, _, to. split; [exact E|]. split; [rewrite ex_sdt; cbn; lra|]. split; [exact VE|]. split.
  { cbn [even_calls outputs]. fold x. rewrite U. cbn [snd nth_error]. reflexivity. }
  rewrite ex_sdt. cbn [beam_times nth_error]. change (INR 0) with 0. change (INR 1) with 1. split.
  - f_equal; [lra|]. f_equal. lra.
  - f_equal. f_equal; [lra|]. unfold evenly, lin, vzero, ex_v. cbn [vx vy vz]. apply vec_eq; lra.
Qed.

(** one sample more than in the first step no longer fits *)
Example c106_buffer_example : exists fid uid, (fid < 2)%nat /\ (uid < sc_pts ex_c * Z.to_nat (nt_of ex_c (INR 3 * sdt ex_c)))%nat /\
  write_at ex_c (INR 2 * sdt ex_c) 2 fid uid = UB.
Proof.
  assert (P : 0 < sdt ex_c) by (rewrite ex_sdt; lra). exists 1%nat, 6%nat. unfold write_at, nt_of.
  rewrite !(proj2 (whole ex_c _ P)). cbn. repeat split; lia.
Qed.

Print Assumptions c106_direction.
Print Assumptions c106_short_way.
Print Assumptions c106_scan.
Print Assumptions c106_length.
Print Assumptions c106_pointing.
Print Assumptions c106_clock.
Print Assumptions c106_interval_refuted.
Print Assumptions c106_hub_start_refuted.
Print Assumptions c106_hub_refuted.
Print Assumptions c106_points.
Print Assumptions c106_buffer_refuted.
Print Assumptions c106_adaptive_refuted.
