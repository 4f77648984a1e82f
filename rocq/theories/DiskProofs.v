From Verif Require Import BoxR BoxRFacts VecSpace VecSpaceSpec VecSpaceProofs Tagging
  DiskActuator DiskSpec.
Open Scope R_scope.

(** ** Sums and loops *)
Lemma sum1_S n f : sum1 (S n) f = sum1 n f + f n.
Proof. unfold sum1. rewrite seq_S, map_app, rsum_app. cbn. ring. Qed.

Lemma sum1_ext n f g : (forall i, (i < n)%nat -> f i = g i) -> sum1 n f = sum1 n g.
Proof.
  induction n; intros H; [reflexivity|]. rewrite !sum1_S, IHn, H by (auto with arith). reflexivity.
Qed.
Lemma sum1_plus n f g : sum1 n (fun i => f i + g i) = sum1 n f + sum1 n g.
Proof. induction n; [unfold sum1; cbn; ring|]. rewrite !sum1_S, IHn. ring. Qed.
Lemma sum1_scale n c f : sum1 n (fun i => c * f i) = c * sum1 n f.
Proof. induction n; [unfold sum1; cbn; ring|]. rewrite !sum1_S, IHn. ring. Qed.
Lemma sum1_scale_r n c f : sum1 n (fun i => f i * c) = sum1 n f * c.
Proof. induction n; [unfold sum1; cbn; ring|]. rewrite !sum1_S, IHn. ring. Qed.
Lemma sum1_const n c : sum1 n (fun _ => c) = INR n * c.
Proof. induction n; [unfold sum1; cbn; ring|]. rewrite sum1_S, IHn, S_INR. ring. Qed.
Lemma sum1_le n f g : (forall i, (i < n)%nat -> f i <= g i) -> sum1 n f <= sum1 n g.
Proof.
  induction n; intros H; [unfold sum1; cbn; lra|]. rewrite !sum1_S.
  apply Rplus_le_compat; auto with arith.
Qed.
Lemma sum1_telescope n h : sum1 n (fun i => h (S i) - h i) = h n - h O.
Proof. induction n; [unfold sum1; cbn; ring|]. rewrite sum1_S, IHn. ring. Qed.

Lemma sum2_ext nr nt f g : (forall i j, (i < nr)%nat -> (j < nt)%nat -> f i j = g i j) ->
  sum2 nr nt f = sum2 nr nt g.
Proof. intros H. apply sum1_ext. intros i Hi. apply sum1_ext. intros j Hj. apply H; assumption. Qed.
Lemma sum2_le nr nt f g : (forall i j, (i < nr)%nat -> (j < nt)%nat -> f i j <= g i j) ->
  sum2 nr nt f <= sum2 nr nt g.
Proof. intros H. apply sum1_le. intros i Hi. apply sum1_le. intros j Hj. apply H; assumption. Qed.
Lemma sum2_scale nr nt c f : sum2 nr nt (fun i j => c * f i j) = c * sum2 nr nt f.
Proof.
  unfold sum2. rewrite <- sum1_scale. apply sum1_ext. intros i _. apply sum1_scale.
Qed.
Lemma sum2_plus nr nt f g : sum2 nr nt (fun i j => f i j + g i j) = sum2 nr nt f + sum2 nr nt g.
Proof.
  unfold sum2. rewrite <- sum1_plus. apply sum1_ext. intros i _. apply sum1_plus.
Qed.

Lemma rsum_map_grid2 nr nt (f : nat -> nat -> R) :
  rsum (map (fun ij => f (fst ij) (snd ij)) (grid2 nr nt)) = sum2 nr nt f.
Proof.
  unfold grid2, sum2, sum1. induction (seq 0 nr) as [|i l IH]; [reflexivity|].
  cbn [flat_map map]. rewrite map_app, rsum_app, IH. cbn. f_equal.
  rewrite map_map. reflexivity.
Qed.

Lemma loop2_grid {A} nr nt (body : nat -> nat -> A -> A) s :
  loop2 nr nt body s = fold_left (fun s ij => body (fst ij) (snd ij) s) (grid2 nr nt) s.
Proof.
  unfold loop2, grid2. revert s. induction (seq 0 nr) as [|i l IH]; intros s; [reflexivity|].
  cbn [fold_left flat_map]. rewrite fold_left_app, <- IH. f_equal.
  clear IH. revert s. induction (seq 0 nt) as [|j m IHm]; intros s; [reflexivity|].
  cbn. apply IHm.
Qed.

Lemma in_grid2 nr nt i j : In (i, j) (grid2 nr nt) <-> (i < nr /\ j < nt)%nat.
Proof.
  unfold grid2. rewrite in_flat_map. split.
  - intros [a [Ha Hb]]. apply in_map_iff in Hb. destruct Hb as [b [E Hb]].
    apply in_seq in Ha, Hb. injection E as -> ->. lia.
  - intros [Hi Hj]. exists i. split; [apply in_seq; lia|].
    apply in_map_iff. exists j. split; [reflexivity|apply in_seq; lia].
Qed.

Lemma length_flat {A} nr nt (f : nat -> nat -> A) :
  length (flat_map (fun i => map (fun j => f i j) (seq 0 nt)) (seq 0 nr)) = (nr * nt)%nat.
Proof.
  generalize 0%nat at 2 as a. induction nr as [|n IH]; intros a; [reflexivity|].
  cbn [seq flat_map]. rewrite app_length, map_length, seq_length, IH. lia.
Qed.

Lemma nth_flat_gen {A} nr nt (f : nat -> nat -> A) a i j (d : A) : (i < nr)%nat -> (j < nt)%nat ->
  nth (j + i * nt) (flat_map (fun i => map (fun j => f i j) (seq 0 nt)) (seq a nr)) d = f (a + i)%nat j.
Proof.
  revert a i. induction nr as [|n IH]; intros a i Hi Hj; [lia|].
  cbn [seq flat_map]. destruct i as [|i].
  - rewrite Nat.mul_0_l, !Nat.add_0_r. rewrite app_nth1 by (rewrite map_length, seq_length; lia).
    erewrite nth_indep by (rewrite map_length, seq_length; lia).
    rewrite (map_nth (fun j => f a j) (seq 0 nt) 0%nat j), seq_nth by lia. reflexivity.
  - rewrite app_nth2 by (rewrite map_length, seq_length; lia).
    rewrite map_length, seq_length.
    replace (j + S i * nt - nt)%nat with (j + i * nt)%nat by lia.
    rewrite IH by lia. f_equal. lia.
Qed.
Lemma nth_flat {A} nr nt (f : nat -> nat -> A) i j (d : A) : (i < nr)%nat -> (j < nt)%nat ->
  nth (j + i * nt) (flat_map (fun i => map (fun j => f i j) (seq 0 nt)) (seq 0 nr)) d = f i j.
Proof. apply (nth_flat_gen nr nt f 0). Qed.

(** ** Vectors seen through inner products *)
Lemma inner_vadd u v w : inner (vadd u v) w = inner u w + inner v w.
Proof. unfold inner, vadd; cbn. ring. Qed.
Lemma inner_vscale u k w : inner (vscale u k) w = inner u w * k.
Proof. unfold inner, vscale; cbn. ring. Qed.
Lemma inner_vzero w : inner vzero w = 0.
Proof. unfold inner; cbn. ring. Qed.
Lemma inner_vneg u w : inner (vneg u) w = - inner u w.
Proof. unfold inner, vneg; cbn. ring. Qed.
Lemma inner_vsub u v w : inner (vsub u v) w = inner u w - inner v w.
Proof. unfold inner, vsub; cbn. ring. Qed.
Lemma inner_vadd_r u v w : inner w (vadd u v) = inner w u + inner w v.
Proof. unfold inner, vadd; cbn. ring. Qed.
Lemma inner_vscale_r u k w : inner w (vscale u k) = inner w u * k.
Proof. unfold inner, vscale; cbn. ring. Qed.
Lemma inner_vsub_r u v w : inner w (vsub u v) = inner w u - inner w v.
Proof. unfold inner, vsub; cbn. ring. Qed.
Lemma inner_sym u w : inner u w = inner w u.
Proof. unfold inner. ring. Qed.
Lemma vdot_inner u w : vdot u w = inner u w.
Proof. reflexivity. Qed.

(** ** Areas *)
Lemma sum_squares_diff n : sum1 n (fun i => (INR i + 1) ^ 2 - INR i ^ 2) = INR n ^ 2.
Proof.
  induction n; [unfold sum1; cbn; ring|]. rewrite sum1_S, IHn, S_INR. ring.
Qed.

Lemma section_ring r nr nt i : (0 < nr)%nat -> (0 < nt)%nat ->
  INR nt * area_section r nr nt i = ring_area r nr i.
Proof.
  intros Hr Ht. apply lt_INR in Hr, Ht. cbn in Hr, Ht.
  unfold area_section, geometry_factor, ring_area. field. lra.
Qed.

Lemma sum_sections r nr nt : (0 < nr)%nat -> (0 < nt)%nat ->
  sum2 nr nt (fun i _ => area_section r nr nt i) = PI * r ^ 2.
Proof.
  intros Hr Ht. unfold sum2. rewrite (sum1_ext _ _ (fun i => INR nt * area_section r nr nt i))
    by (intros; apply sum1_const).
  unfold area_section. rewrite sum1_scale, sum1_scale, sum_squares_diff.
  apply lt_INR in Hr, Ht. cbn in Hr, Ht. unfold geometry_factor. field. lra.
Qed.

Lemma section_pos r nr nt i : 0 < r -> (0 < nr)%nat -> (0 < nt)%nat -> 0 < area_section r nr nt i.
Proof.
  intros H Hr Ht. apply lt_INR in Hr, Ht. cbn in Hr, Ht. unfold area_section, geometry_factor.
  pose proof (pos_INR i). generalize PI_RGT_0. generalize PI as p. intros p HP.
  apply Rmult_lt_0_compat; [|nra].
  unfold Rdiv. repeat apply Rmult_lt_0_compat; try apply Rinv_0_lt_compat; lra.
Qed.

Lemma weight_sections r nr nt : 0 < r -> (0 < nr)%nat -> (0 < nt)%nat ->
  sum2 nr nt (fun i _ => area_weight r nr nt i) = 1.
Proof.
  intros H Hr Ht. unfold area_weight, area_total.
  rewrite (sum2_ext _ _ _ (fun i _ => / (PI * r * r) * area_section r nr nt i))
    by (intros; unfold Rdiv; ring).
  rewrite sum2_scale, sum_sections by assumption. pose proof PI_RGT_0. field. lra.
Qed.

(** ** Averages *)
Lemma fold_triple {A} (f : A -> R) (g h : A -> vec) l : forall a b c,
  let res := fold_left (fun s x => let '(r, u, v) := s in (r + f x, vadd u (g x), vadd v (h x))) l (a, b, c) in
  fst (fst res) = a + rsum (map f l) /\
  (forall w, inner (snd (fst res)) w = inner b w + rsum (map (fun x => inner (g x) w) l)) /\
  (forall w, inner (snd res) w = inner c w + rsum (map (fun x => inner (h x) w) l)).
Proof.
  induction l as [|x l IH]; intros a b c; cbn.
  - repeat split; intros; ring.
  - destruct (IH (a + f x) (vadd b (g x)) (vadd c (h x))) as (E1 & E2 & E3). cbn in E1, E2, E3.
    repeat split.
    + rewrite E1. unfold rsum. ring.
    + intros w. rewrite E2, inner_vadd. unfold rsum. ring.
    + intros w. rewrite E3, inner_vadd. unfold rsum. ring.
Qed.

Lemma update_vel_sums d vel dens :
  let w := area_weight (d_radius d) (d_nr d) (d_nt d) in
  let half := (d_nr d * d_nt d)%nat in
  let res := update_vel d vel dens in
  fst (fst res) = sum2 (d_nr d) (d_nt d) (fun i j => nth (j + i * d_nt d) dens 0 * w i) /\
  (forall u, inner (snd (fst res)) u =
     sum2 (d_nr d) (d_nt d) (fun i j => inner (nth (j + i * d_nt d) vel vzero) u * w i)) /\
  (forall u, inner (snd res) u =
     sum2 (d_nr d) (d_nt d) (fun i j => inner (nth (j + i * d_nt d + half) vel vzero) u * w i)).
Proof.
  cbn zeta. unfold update_vel. cbn zeta. rewrite loop2_grid.
  rewrite Nat.div_mul by discriminate.
  set (w := area_weight _ _ _). set (half := (d_nr d * d_nt d)%nat).
  pose proof (fold_triple
    (fun ij => nth (snd ij + fst ij * d_nt d) dens 0 * w (fst ij))
    (fun ij => vscale (nth (snd ij + fst ij * d_nt d) vel vzero) (w (fst ij)))
    (fun ij => vscale (nth (snd ij + fst ij * d_nt d + half) vel vzero) (w (fst ij)))
    (grid2 (d_nr d) (d_nt d)) 0 vzero vzero) as (E1 & E2 & E3).
  cbn in E1, E2, E3.
  repeat split.
  - rewrite E1, Rplus_0_l. rewrite <- rsum_map_grid2. reflexivity.
  - intros u. rewrite E2, inner_vzero, Rplus_0_l, <- rsum_map_grid2. f_equal.
    apply map_ext. intros ij. apply inner_vscale.
  - intros u. rewrite E3, inner_vzero, Rplus_0_l, <- rsum_map_grid2. f_equal.
    apply map_ext. intros ij. apply inner_vscale.
Qed.

Lemma weighted_between r nr nt (f : nat -> nat -> R) lo hi : 0 < r -> (0 < nr)%nat -> (0 < nt)%nat ->
  (forall i j, (i < nr)%nat -> (j < nt)%nat -> lo <= f i j <= hi) ->
  lo <= sum2 nr nt (fun i j => f i j * area_weight r nr nt i) <= hi.
Proof.
  intros H Hr Ht B.
  assert (P : forall i, 0 < area_weight r nr nt i).
  { intros i. unfold area_weight, area_total. apply Rdiv_lt_0_compat; [apply section_pos; assumption|].
    generalize PI_RGT_0. generalize PI as p. intros p HP. repeat apply Rmult_lt_0_compat; lra. }
  pose proof (weight_sections r nr nt H Hr Ht) as W.
  split.
  - replace lo with (lo * 1) by ring. rewrite <- W, <- sum2_scale. apply sum2_le.
    intros i j Hi Hj. specialize (B i j Hi Hj). specialize (P i). nra.
  - replace hi with (hi * 1) by ring. rewrite <- W, <- sum2_scale. apply sum2_le.
    intros i j Hi Hj. specialize (B i j Hi Hj). specialize (P i). nra.
Qed.

(** ** Orientation *)
Lemma vnormalize_unit v : is_unit v -> vnormalize v = v.
Proof.
  intros H. unfold vnormalize. cbn zeta. unfold vmag, vmag_sqr. unfold is_unit, inner in H.
  rewrite H, sqrt_1. rewrite (proj2 (Rltb_false _ _)) by (unfold veps; lra).
  destruct v as [a b c]. unfold vdivs; cbn. apply vec_eq; field.
Qed.

Lemma vnormalize_is_unit v : veps <= len v -> is_unit (vnormalize v).
Proof.
  intros H. unfold vnormalize. cbn zeta. change (vmag v) with (len v).
  rewrite (proj2 (Rltb_false _ _) H).
  assert (P : 0 < len v) by (unfold veps in H; lra).
  unfold is_unit, inner, vdivs; cbn. pose proof (len_sqr v) as E. unfold inner in E.
  set (l := len v) in *. clearbody l.
  replace (vx v / l * (vx v / l) + vy v / l * (vy v / l) + vz v / l * (vz v / l))
    with ((vx v * vx v + vy v * vy v + vz v * vz v) / (l * l)) by (field; lra).
  rewrite <- E. field. lra.
Qed.

Lemma sqrt_gt_eps x : veps < x -> veps <= sqrt x.
Proof.
  intros H. unfold veps in *.
  rewrite <- (sqrt_square (/ 4503599627370496)) by lra.
  apply sqrt_le_1; nra.
Qed.

(** What every disk built from inputs satisfies. *)
Record built (d : disk) : Prop := Built {
  b_normal : is_unit (d_normal d);
  b_flat : veps <= len (vcross (khat 1) (d_normal d));
  b_coplanar : d_coplanar d = coplanar_vector (d_normal d) }.

Lemma with_coplanar_built d0 d : with_coplanar d0 = Ret d -> built d.
Proof.
  unfold with_coplanar. cbn zeta. destruct (Rltb _ _) eqn:E; [|discriminate].
  intros H. injection H as <-. apply Rltb_spec in E.
  assert (L : veps <= len (vcross (khat 1) (vnormalize (d_normal d0)))) by (apply sqrt_gt_eps, E).
  constructor; cbn; [|exact L|reflexivity].
  destruct (Rlt_le_dec (len (d_normal d0)) veps) as [Q|Q].
  - exfalso. unfold vnormalize in L. cbn zeta in L. change (vmag (d_normal d0)) with (len (d_normal d0)) in L.
    rewrite (proj2 (Rltb_spec _ _) Q) in L. unfold len, inner, vcross in L; cbn in L.
    replace (_ + _) with 0 in L by ring. rewrite sqrt_0 in L. unfold veps in L. lra.
  - apply vnormalize_is_unit, Q.
Qed.

Lemma coplanar_facts n : veps <= len (vcross (khat 1) n) ->
  is_unit (coplanar_vector n) /\ inner (coplanar_vector n) n = 0 /\ vz (coplanar_vector n) = 0.
Proof.
  intros H. unfold coplanar_vector. split; [apply vnormalize_is_unit, H|].
  unfold vnormalize. cbn zeta. change (vmag (vcross (khat 1) n)) with (len (vcross (khat 1) n)).
  rewrite (proj2 (Rltb_false _ _) H).
  assert (P : len (vcross (khat 1) n) <> 0) by (unfold veps in H; lra).
  set (l := len _) in *. clearbody l. unfold inner, vdivs, vcross; cbn. split; field; exact P.
Qed.

Lemma unit_not_zero v : is_unit v -> v <> V3 0 0 0.
Proof. intros H ->. unfold is_unit, inner in H; cbn in H. lra. Qed.

(** ** Points *)
Lemma quat_point n p th : is_unit n ->
  vapp p (quaternion n (degrees th)) = turned n th p.
Proof.
  intros U. rewrite (vapp_turned _ n (degrees th)) by (constructor; apply unit_not_zero, U).
  rewrite (unitv_of_unit n U). f_equal. unfold radians, degrees. pose proof PI_RGT_0. field. lra.
Qed.

Lemma turned_facts n th u r h : is_unit n -> is_unit u -> inner u n = 0 ->
  let q := turned n th (vadd (vscale u r) (vscale n h)) in
  inner q n = h /\ inner (vsub q (vscale n h)) (vsub q (vscale n h)) = r * r.
Proof.
  intros U V O. cbn zeta. set (q := turned _ _ _).
  assert (E1 : inner q n = h).
  { unfold q. assert (A : n = turned n th n).
    { pose proof (turned_axis n th 1 U) as A.
      replace (V3 (1 * vx n) (1 * vy n) (1 * vz n)) with n in A by (destruct n; cbn; apply vec_eq; ring).
      symmetry. exact A. }
    transitivity (inner (turned n th (vadd (vscale u r) (vscale n h))) (turned n th n)).
    { f_equal. exact A. }
    rewrite turned_inner by exact U. rewrite inner_vadd, !inner_vscale, O. unfold is_unit in U. rewrite U. ring. }
  split; [exact E1|].
  assert (E2 : inner q q = r * r + h * h).
  { unfold q. rewrite turned_inner by exact U.
    rewrite inner_vadd, !inner_vadd_r, !inner_vscale, !inner_vscale_r.
    rewrite (inner_sym n u), O. unfold is_unit in U, V. rewrite U, V. ring. }
  rewrite inner_vsub, !inner_vsub_r, !inner_vscale, !inner_vscale_r.
  rewrite (inner_sym n q), E1, E2. unfold is_unit in U. rewrite U. ring.
Qed.
