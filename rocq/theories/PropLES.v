(** C67: eddy viscosity of the large-eddy models (Smagorinsky, AMD, Kosovic, one-equation). *)
From Coq Require Import String.
From Verif Require Import BoxR BoxRFacts Stencil Turbulence TurbSpec TurbProofs.
From Coq Require Import Lra Lia Psatz Sorted.
Open Scope R_scope.

Ltac ax := auto with axis.
Ltac sums := rewrite ?sum3_eq, ?loop3_eq.

(** The strain rate the code computes is sqrt(2 S:S). *)
Definition entries (G : mat) : grad9 :=
  Grad (G 0%Z 0%Z) (G 0%Z 1%Z) (G 0%Z 2%Z) (G 1%Z 0%Z) (G 1%Z 1%Z) (G 1%Z 2%Z)
       (G 2%Z 0%Z) (G 2%Z 1%Z) (G 2%Z 2%Z).
Lemma strainrate_is G : strainrate_of (entries G) = sqrt 2 * size (strain_tensor G).
Proof.
  unfold strainrate_of, entries, size. cbn [ux uy uz vx vy vz wx wy wz].
  rewrite <- sqrt_mult; [|lra|apply square_nonneg]. f_equal.
  unfold square, strain_tensor. sums. field.
Qed.

(** * Smagorinsky *)

(** mu_t = rho (Cs w)^2 sqrt(2 S:S), w the edge of the cube with the volume of the cell. *)
Theorem c67_smagorinsky cs dx rho G w : mesh dx -> width dx w ->
  smagorinsky cs dx rho (strainrate_of (entries G)) =
  rho * (cs * w) ^ 2 * (sqrt 2 * size (strain_tensor G)).
Proof.
  intros M W. rewrite strainrate_is. unfold smagorinsky, smag_factor.
  rewrite (width_unique dx _ w (width_ok dx M) W). ring.
Qed.

Lemma rigid_size G : rigid G <-> size (strain_tensor G) = 0.
Proof.
  split.
  - intro H. unfold size. replace (square (strain_tensor G)) with 0; [apply sqrt_0|].
    unfold square, strain_tensor. sums.
    rewrite !(H 0%Z _), !(H 1%Z _), !(H 2%Z _) by ax. field.
  - intros H i j I J. unfold size in H. apply sqrt_eq_0 in H; [|apply square_nonneg].
    unfold square, strain_tensor in H. revert H. sums. intro H.
    assert (Z : forall a b c d e f g h k : R,
      a^2+b^2+c^2+(d^2+e^2+f^2)+(g^2+h^2+k^2) = 0 ->
      a=0/\b=0/\c=0/\d=0/\e=0/\f=0/\g=0/\h=0/\k=0).
    { clear. intros. repeat split; nra. }
    apply Z in H. destruct H as (H1&H2&H3&H4&H5&H6&H7&H8&H9).
    destruct I as [-> | [-> | ->]], J as [-> | [-> | ->]]; lra.
Qed.

(** It is never negative, vanishes exactly when the flow does not deform, and falls with the
    square of the mesh. *)
Theorem c67_smagorinsky_sign cs dx rho G : mesh dx -> 0 < rho -> cs <> 0 ->
  0 <= smagorinsky cs dx rho (strainrate_of (entries G)) /\
  (smagorinsky cs dx rho (strainrate_of (entries G)) = 0 <-> rigid G).
Proof.
  intros M Rp C. destruct (width_ok dx M) as [W1 W2].
  rewrite (c67_smagorinsky cs dx rho G _ M (width_ok dx M)).
  set (w := filter_width dx) in *. pose proof (size_nonneg (strain_tensor G)) as N.
  assert (S2 : 0 < sqrt 2) by (apply sqrt_lt_R0; lra).
  assert (P : 0 < (cs * w) ^ 2) by (assert (cs * w <> 0) by (apply Rmult_integral_contrapositive; lra); nra).
  split.
  - apply Rmult_le_pos; [nra|]. apply Rmult_le_pos; lra.
  - rewrite rigid_size. split; intro H.
    + apply Rmult_integral in H. destruct H as [H|H]; [nra|].
      apply Rmult_integral in H. lra.
    + rewrite H. ring.
Qed.

Theorem c67_smagorinsky_mesh cs dx dx' rho G a : mesh dx -> 0 < a ->
  (forall d, axis d -> dx' d = a * dx d) ->
  smagorinsky cs dx' rho (strainrate_of (entries G)) =
  a ^ 2 * smagorinsky cs dx rho (strainrate_of (entries G)).
Proof.
  intros M A E. destruct (width_ok dx M) as [W1 W2].
  assert (M' : mesh dx') by (intros d D; rewrite E by exact D; apply Rmult_lt_0_compat; auto).
  rewrite (c67_smagorinsky cs dx rho G _ M (width_ok dx M)).
  rewrite (c67_smagorinsky cs dx' rho G (a * filter_width dx) M'); [ring|].
  split; [nra|]. rewrite !E by ax. replace ((a * filter_width dx) ^ 3) with (a ^ 3 * filter_width dx ^ 3) by ring.
  rewrite W2. ring.
Qed.

(** ** Changes of axes *)
Definition mmul (A B : mat) : mat := fun i j => sum3 (fun k => A i k * B k j).
Definition tr (A : mat) : mat := fun i j => A j i.
Definition trace (A : mat) : R := sum3 (fun i => A i i).
Definition meq (A B : mat) : Prop := forall i j, axis i -> axis j -> A i j = B i j.
Lemma mmul_assoc A B C i j : mmul A (mmul B C) i j = mmul (mmul A B) C i j.
Proof. unfold mmul. sums. ring. Qed.
Lemma meq_mul A A' B B' : meq A A' -> meq B B' -> meq (mmul A B) (mmul A' B').
Proof.
  intros H K i j I J. unfold mmul. sums. rewrite !(H i) by ax. rewrite !(K _ j) by ax. reflexivity.
Qed.
Lemma meq_trans A B C : meq A B -> meq B C -> meq A C.
Proof. intros H K i j I J. rewrite H by ax. auto. Qed.
Lemma meq_sym A B : meq A B -> meq B A.
Proof. intros H i j I J. symmetry. auto. Qed.
Lemma meq_refl A : meq A A.
Proof. intros i j I J. reflexivity. Qed.
Lemma trace_meq A B : meq A B -> trace A = trace B.
Proof. intro H. unfold trace. sums. rewrite !H by ax. reflexivity. Qed.
Lemma trace_cyc A B : trace (mmul A B) = trace (mmul B A).
Proof. unfold trace, mmul. sums. ring. Qed.
Definition ident : mat := fun i j => if (i =? j)%Z then 1 else 0.
Lemma mmul_id A : meq (mmul ident A) A.
Proof.
  intros i j I J. unfold mmul, ident. sums. destruct I as [-> | [-> | ->]]; cbn; ring.
Qed.

(** two factors in the middle cancel *)
Lemma conj_mul Q A B : orthogonal Q ->
  meq (mmul (mmul Q (mmul A (tr Q))) (mmul Q (mmul B (tr Q)))) (mmul Q (mmul (mmul A B) (tr Q))).
Proof.
  intro O.
  assert (E : meq (mmul (tr Q) Q) ident) by (intros i j I J; unfold mmul, tr, ident; apply O; ax).
  apply meq_trans with (mmul Q (mmul A (mmul (mmul (tr Q) Q) (mmul B (tr Q))))).
  { intros i j I J. unfold mmul. sums. ring. }
  apply meq_mul; [apply meq_refl|].
  apply meq_trans with (mmul A (mmul ident (mmul B (tr Q)))).
  { apply meq_mul; [apply meq_refl|]. apply meq_mul; [exact E|apply meq_refl]. }
  apply meq_trans with (mmul A (mmul B (tr Q))).
  { apply meq_mul; [apply meq_refl|apply mmul_id]. }
  intros i j I J. apply mmul_assoc.
Qed.
Lemma conj_trace Q A : orthogonal Q -> trace (mmul Q (mmul A (tr Q))) = trace A.
Proof.
  intro O. rewrite trace_cyc.
  assert (E : meq (mmul (tr Q) Q) ident) by (intros i j I J; unfold mmul, tr, ident; apply O; ax).
  rewrite (trace_meq _ (mmul A (mmul (tr Q) Q))) by (intros i j I J; unfold mmul; sums; ring).
  rewrite trace_cyc. apply trace_meq.
  apply meq_trans with (mmul ident A); [|apply mmul_id]. apply meq_mul; [exact E|apply meq_refl].
Qed.
Lemma turned_meq Q G G' : turned Q G G' -> meq G' (mmul Q (mmul G (tr Q))).
Proof. intros T i j I J. rewrite T by ax. unfold mmul, tr. sums. ring. Qed.
Lemma turned_tr Q G G' : turned Q G G' -> meq (tr G') (mmul Q (mmul (tr G) (tr Q))).
Proof. intros T i j I J. unfold tr at 1. rewrite T by ax. unfold mmul, tr. sums. ring. Qed.
(** the trace of products of G and its transpose does not see the change of axes *)
Lemma turned_trace2 Q A B A' B' : orthogonal Q ->
  meq A' (mmul Q (mmul A (tr Q))) -> meq B' (mmul Q (mmul B (tr Q))) ->
  trace (mmul A' B') = trace (mmul A B).
Proof.
  intros O E F. rewrite <- (conj_trace Q (mmul A B) O). apply trace_meq.
  apply meq_trans with (mmul (mmul Q (mmul A (tr Q))) (mmul Q (mmul B (tr Q)))).
  - apply meq_mul; assumption.
  - apply conj_mul; exact O.
Qed.

Lemma square_trace G : square G = trace (mmul G (tr G)).
Proof. unfold square, trace, mmul, tr. sums. ring. Qed.
Lemma turned_square Q G G' : orthogonal Q -> turned Q G G' -> square G' = square G.
Proof.
  intros O T. rewrite !square_trace.
  apply (turned_trace2 Q); [exact O|apply turned_meq; exact T|apply turned_tr; exact T].
Qed.
Lemma turned_strain Q G G' : turned Q G G' -> turned Q (strain_tensor G) (strain_tensor G').
Proof. intros T i j I J. unfold strain_tensor. rewrite !T by ax. sums. field. Qed.

(** The Smagorinsky viscosity does not depend on the orientation of the axes. *)
Theorem c67_smagorinsky_frame cs dx rho Q G G' : mesh dx -> orthogonal Q -> turned Q G G' ->
  smagorinsky cs dx rho (strainrate_of (entries G')) =
  smagorinsky cs dx rho (strainrate_of (entries G)).
Proof.
  intros M O T. rewrite !(c67_smagorinsky cs dx rho _ _ M (width_ok dx M)).
  unfold size. rewrite (turned_square Q _ _ O (turned_strain Q G G' T)). reflexivity.
Qed.

(** * AMD *)

(** The formula of the model. *)
Theorem c67_amd_formula dx c rho g G : rows g G ->
  let den := Rmax (10 * eps) (square G) in
  let num := - c * sum3 (fun k => dx k ^ 2 *
               sum3 (fun i => sum3 (fun j => strain_tensor G i j * (G i k * G j k)))) in
  amd_notherm dx c rho g = rho * Rmax (10 * eps) (num / den).
Proof.
  intros Rw den num. unfold amd_notherm, amd_base_muvel. rewrite !rmax_spec.
  replace floor10 with (10 * eps) by (unfold floor10; ring).
  replace (amd_denom g) with (square G).
  - fold den. f_equal. f_equal. f_equal. unfold num. f_equal.
    unfold amd_num_shear, strain_tensor. sums. rewrite ?loop3_eq. cbv zeta. rewrite ?loop3_eq.
    rewrite !Rw by ax. field.
  - unfold amd_denom, square. sums. rewrite ?loop3_eq. rewrite !Rw by ax. ring.
Qed.

(** At least a small positive number times the density, at most the coefficient times the square
    of the longest edge times the rate of strain. *)
Theorem c67_amd_bound dx c rho g G h : rows g G -> mesh dx -> longest dx h -> 0 <= c -> 0 <= rho ->
  rho * (10 * eps) <= amd_notherm dx c rho g <=
  rho * Rmax (10 * eps) (c * h ^ 2 * size (strain_tensor G)).
Proof.
  intros Rw M L C Rp. rewrite (c67_amd_formula dx c rho g G Rw). cbv zeta.
  set (den := Rmax (10 * eps) (square G)).
  set (num := sum3 _).
  assert (D : 0 < den).
  { pose proof eps_pos. pose proof (Rmax_l (10 * eps) (square G)). unfold den. lra. }
  assert (Dq : square G <= den) by apply Rmax_r.
  split.
  - apply Rmult_le_compat_l; [exact Rp|apply Rmax_l].
  - apply Rmult_le_compat_l; [exact Rp|]. apply Rle_max_compat_l.
    apply div_le; [exact D|].
    assert (K : Rabs num <= h ^ 2 * size (strain_tensor G) * square G).
    { assert (Q : forall k, axis k ->
        Rabs (dx k ^ 2 * sum3 (fun i => sum3 (fun j => strain_tensor G i j * (G i k * G j k)))) <=
        h ^ 2 * (size (strain_tensor G) * sum3 (fun i => G i k ^ 2))).
      { intros k A. rewrite Rabs_mult.
        pose proof (M k A) as Mk. pose proof (proj1 L k A) as Lk.
        apply Rmult_le_compat; [apply Rabs_pos|apply Rabs_pos| |apply quad_bound1].
        rewrite Rabs_pos_eq by nra. nra. }
      unfold num. rewrite sum3_eq. pose proof (Q 0%Z ax0) as Q0.
      pose proof (Q 1%Z ax1) as Q1. pose proof (Q 2%Z ax2) as Q2. clear Q.
      set (t0 := dx 0%Z ^ 2 * _) in *. set (t1 := dx 1%Z ^ 2 * _) in *. set (t2 := dx 2%Z ^ 2 * _) in *.
      pose proof (Rabs_triang (t0 + t1) t2). pose proof (Rabs_triang t0 t1).
      replace (h ^ 2 * size (strain_tensor G) * square G) with
        (h ^ 2 * (size (strain_tensor G) * sum3 (fun i => G i 0%Z ^ 2)) +
         h ^ 2 * (size (strain_tensor G) * sum3 (fun i => G i 1%Z ^ 2)) +
         h ^ 2 * (size (strain_tensor G) * sum3 (fun i => G i 2%Z ^ 2)))
        by (unfold square; sums; ring).
      lra. }
    clearbody num. pose proof (Rle_abs (- num)) as A. rewrite Rabs_Ropp in A.
    pose proof (size_nonneg (strain_tensor G)) as N.
    assert (0 <= h ^ 2 * size (strain_tensor G)) by (apply Rmult_le_pos; [nra|exact N]).
    apply Rle_trans with (c * (h ^ 2 * size (strain_tensor G) * square G)).
    + replace (- c * num) with (c * - num) by ring. apply Rmult_le_compat_l; lra.
    + replace (c * (h ^ 2 * size (strain_tensor G) * square G)) with
        (c * (h ^ 2 * size (strain_tensor G)) * square G) by ring.
      replace (c * h ^ 2 * size (strain_tensor G)) with (c * (h ^ 2 * size (strain_tensor G))) by ring.
      apply Rmult_le_compat_l; [|exact Dq]. apply Rmult_le_pos; lra.
Qed.

(** The model switches itself off in rigid motion and in a parallel shear flow. *)
Theorem c67_amd_off dx c rho g G : rows g G ->
  (rigid G \/ exists a b, parallel_shear G a b) ->
  amd_notherm dx c rho g = rho * (10 * eps).
Proof.
  intros Rw H. rewrite (c67_amd_formula dx c rho g G Rw). cbv zeta.
  replace (sum3 (fun k => dx k ^ 2 *
     sum3 (fun i => sum3 (fun j => strain_tensor G i j * (G i k * G j k))))) with 0.
  - rewrite Rmult_0_r. unfold Rdiv. rewrite Rmult_0_l. rewrite Rmax_left; [reflexivity|].
    pose proof eps_pos. lra.
  - symmetry. destruct H as [H|[a [b [A [B [N H]]]]]].
    + unfold strain_tensor. sums. rewrite !(H 0%Z _), !(H 1%Z _), !(H 2%Z _) by ax. field.
    + unfold strain_tensor.
      assert (Z : forall i k, axis i -> axis k -> G i k = if ((i =? a) && (k =? b))%Z then G a b else 0).
      { intros i k I K. destruct ((i =? a) && (k =? b))%Z eqn:E.
        - apply andb_prop in E. destruct E as [E1 E2]. apply Z.eqb_eq in E1, E2. subst; reflexivity.
        - apply H; try assumption. intro F. inversion F; subst. rewrite !Z.eqb_refl in E. discriminate. }
      remember (G a b) as v eqn:V. clear V H. sums. rewrite !Z by ax.
      destruct A as [-> | [-> | ->]], B as [-> | [-> | ->]]; try (exfalso; apply N; reflexivity);
        cbn [Z.eqb Pos.eqb andb]; field.
Qed.

(** Renumbering the axes (with the cell sizes) changes nothing. *)
Theorem c67_amd_renumbered dx dx' c rho g g' G p : renumbering p -> rows g G ->
  rows g' (fun i k => G (p i) (p k)) -> (forall k, axis k -> dx' k = dx (p k)) ->
  amd_notherm dx' c rho g' = amd_notherm dx c rho g.
Proof.
  intros [P I] Rw Rw' D.
  rewrite (c67_amd_formula dx c rho g G Rw), (c67_amd_formula dx' c rho g' _ Rw'). cbv zeta.
  pose proof (P 0%Z ax0) as P0. pose proof (P 1%Z ax1) as P1. pose proof (P 2%Z ax2) as P2.
  assert (N1 : p 0%Z <> p 1%Z) by (intro E; apply I in E; ax; discriminate).
  assert (N2 : p 0%Z <> p 2%Z) by (intro E; apply I in E; ax; discriminate).
  assert (N3 : p 1%Z <> p 2%Z) by (intro E; apply I in E; ax; discriminate).
  assert (E1 : square (fun i k => G (p i) (p k)) = square G).
  { unfold square. sums. clear Rw Rw' D.
    destruct P0 as [P0|[P0|P0]], P1 as [P1|[P1|P1]], P2 as [P2|[P2|P2]];
      try (exfalso; congruence); rewrite P0, P1, P2; ring. }
  rewrite E1.
  assert (E2 : sum3 (fun k => dx' k ^ 2 * sum3 (fun i => sum3 (fun j =>
                 strain_tensor (fun i k => G (p i) (p k)) i j * (G (p i) (p k) * G (p j) (p k))))) =
               sum3 (fun k => dx k ^ 2 * sum3 (fun i => sum3 (fun j =>
                 strain_tensor G i j * (G i k * G j k))))).
  { unfold strain_tensor. sums. rewrite !D by ax. clear Rw Rw' D E1.
    destruct P0 as [P0|[P0|P0]], P1 as [P1|[P1|P1]], P2 as [P2|[P2|P2]];
      try (exfalso; congruence); rewrite P0, P1, P2; field. }
  rewrite E2. reflexivity.
Qed.

(** On cubic cells the orientation of the axes does not matter. *)
Theorem c67_amd_frame dx c rho g g' Q G G' h : rows g G -> rows g' G' -> orthogonal Q ->
  turned Q G G' -> (forall k, axis k -> dx k = h) ->
  amd_notherm dx c rho g' = amd_notherm dx c rho g.
Proof.
  intros Rw Rw' O T H.
  rewrite (c67_amd_formula dx c rho g G Rw), (c67_amd_formula dx c rho g' G' Rw'). cbv zeta.
  rewrite (turned_square Q G G' O T).
  assert (F : forall A, sum3 (fun k => dx k ^ 2 * sum3 (fun i => sum3 (fun j =>
                 strain_tensor A i j * (A i k * A j k)))) =
               h ^ 2 * trace (mmul (strain_tensor A) (mmul A (tr A)))).
  { intro A. unfold trace, mmul, tr, strain_tensor. sums. rewrite !H by ax. field. }
  rewrite !F. do 4 f_equal. f_equal.
  apply (turned_trace2 Q); [exact O|apply turned_meq, turned_strain; exact T|].
  apply meq_trans with (mmul (mmul Q (mmul G (tr Q))) (mmul Q (mmul (tr G) (tr Q)))).
  - apply meq_mul; [apply turned_meq; exact T|apply turned_tr; exact T].
  - apply conj_mul; exact O.
Qed.

(** Without stratification effects the model with temperature is the model without. *)
Theorem c67_amd_neutral dx beta gv c rho g gt nd tbar : axis nd ->
  (beta = 0 \/ gv nd = 0 \/ forall i, axis i -> gt i = if (i =? nd)%Z then tbar else 0) ->
  amd dx beta gv c rho g gt nd tbar = amd_notherm dx c rho g.
Proof.
  intros A H. unfold amd, amd_notherm, amd_muvel, amd_base_muvel.
  replace (amd_num_buoy dx g gt nd tbar * (c * beta * Rabs (gv nd))) with 0.
  - do 3 f_equal. ring.
  - destruct H as [->|[E|H]]; [ring|rewrite E, Rabs_R0; ring|].
    unfold amd_num_buoy. sums. rewrite !H by ax.
    rewrite !Rminus_diag_eq by reflexivity. ring.
Qed.

(** Stratification: with the wall normal along [nd], each direction contributes
    C beta |g| (d w / d x_i) (dT/dx_i - mean slope) dx_i^2 over the gradient squared. *)
Theorem c67_amd_buoyancy dx beta gv c rho g gt nd tbar G : axis nd -> rows g G ->
  let den := Rmax (10 * eps) (square G) in
  let shear := - c * sum3 (fun k => dx k ^ 2 *
               sum3 (fun i => sum3 (fun j => strain_tensor G i j * (G i k * G j k)))) in
  let anomaly i := gt i - (if (i =? nd)%Z then tbar else 0) in
  let buoy := c * beta * Rabs (gv nd) * sum3 (fun i => dx i ^ 2 * (G nd i * anomaly i)) in
  amd dx beta gv c rho g gt nd tbar = rho * Rmax (10 * eps) ((shear + buoy) / den).
Proof.
  intros A Rw den shear anomaly buoy. unfold amd, amd_muvel. rewrite !rmax_spec.
  replace floor10 with (10 * eps) by (unfold floor10; ring).
  replace (amd_denom g) with (square G)
    by (unfold amd_denom, square; sums; rewrite ?loop3_eq; rewrite !Rw by ax; ring).
  fold den. do 4 f_equal.
  - unfold shear, amd_num_shear, strain_tensor. sums. rewrite ?loop3_eq. cbv zeta. rewrite ?loop3_eq.
    rewrite !Rw by ax. field.
  - unfold buoy, amd_num_buoy, anomaly. sums. rewrite !Rw by ax. ring.
Qed.

(** Turbulent diffusivity of heat: positive, and at most the coefficient times the square of the
    longest edge times the velocity gradient. *)
Theorem c67_amd_heat dx c g gt G h : rows g G -> mesh dx -> longest dx h -> 0 <= c ->
  10 * eps <= amd_thermal_diff dx c g gt <= Rmax (10 * eps) (c * h ^ 2 * size G).
Proof.
  intros Rw M L C. unfold amd_thermal_diff. cbv zeta. rewrite !rmax_spec.
  replace floor10 with (10 * eps) by (unfold floor10; ring).
  split; [apply Rmax_l|]. apply Rle_max_compat_l.
  set (q := sum3 (fun i => gt i ^ 2)).
  replace (loop3 (fun ii => gt ii * gt ii)) with q by (unfold q; sums; ring).
  set (den := Rmax (10 * eps) q).
  assert (D : 0 < den).
  { pose proof eps_pos. pose proof (Rmax_l (10 * eps) q). unfold den. lra. }
  assert (Dq : q <= den) by apply Rmax_r.
  assert (Q0 : 0 <= q) by (unfold q; sums; nra).
  apply div_le; [exact D|].
  set (num := loop3 _).
  assert (E : num = sum3 (fun i => sum3 (fun k => G i k * (gt i * (dx k ^ 2 * gt k))))).
  { unfold num. sums. rewrite ?loop3_eq. rewrite !Rw by ax. ring. }
  assert (K : Rabs num <= size G * (h ^ 2 * q)).
  { rewrite E. eapply Rle_trans; [apply (quad_bound G gt (fun k => dx k ^ 2 * gt k))|].
    apply Rmult_le_compat_l; [apply size_nonneg|]. cbv beta. fold q.
    replace (h ^ 2 * q) with (sqrt ((h ^ 2 * q) * (h ^ 2 * q)))
      by (apply sqrt_square; apply Rmult_le_pos; [nra|exact Q0]).
    apply sqrt_le_1_alt. apply Rle_trans with (q * (h ^ 4 * q)); [|apply Req_le; ring].
    apply Rmult_le_compat_l; [exact Q0|].
    unfold q. sums.
    assert (X : forall k, axis k -> (dx k ^ 2 * gt k) ^ 2 <= h ^ 4 * gt k ^ 2).
    { intros k A. pose proof (M k A). pose proof (proj1 L k A).
      replace ((dx k ^ 2 * gt k) ^ 2) with ((dx k ^ 2) ^ 2 * gt k ^ 2) by ring.
      replace (h ^ 4) with ((h ^ 2) ^ 2) by ring.
      apply Rmult_le_compat_r; [nra|]. assert (0 <= dx k ^ 2 <= h ^ 2) by nra. nra. }
    pose proof (X 0%Z ax0). pose proof (X 1%Z ax1). pose proof (X 2%Z ax2). lra. }
  clearbody num. pose proof (Rle_abs (- num)) as A. rewrite Rabs_Ropp in A.
  pose proof (size_nonneg G) as N.
  assert (0 <= h ^ 2 * size G) by (apply Rmult_le_pos; [nra|exact N]).
  apply Rle_trans with (c * (h ^ 2 * size G) * q).
  - replace (num * - c) with (c * - num) by ring.
    replace (c * (h ^ 2 * size G) * q) with (c * (size G * (h ^ 2 * q))) by ring.
    apply Rmult_le_compat_l; lra.
  - replace (c * h ^ 2 * size G) with (c * (h ^ 2 * size G)) by ring.
    apply Rmult_le_compat_l; [|exact Dq]. apply Rmult_le_pos; lra.
Qed.

(** The exact value. *)
Theorem c67_amd_heat_formula alpha dx c rho g gt G : rows g G ->
  amd_alphaeff alpha dx c rho g gt = rho * Rmax (10 * eps)
    (- c * sum3 (fun k => dx k ^ 2 * sum3 (fun i => G i k * (gt i * gt k))) /
     Rmax (10 * eps) (sum3 (fun i => gt i ^ 2))).
Proof.
  intro Rw. unfold amd_alphaeff, amd_thermal_diff. cbv zeta. rewrite !rmax_spec.
  replace floor10 with (10 * eps) by (unfold floor10; ring).
  f_equal. f_equal. f_equal.
  - sums. rewrite ?loop3_eq. rewrite ?Rw by ax. ring.
  - f_equal. sums. ring.
Qed.

(** The effective diffusivity is documented as laminar plus turbulent.  This model leaves the
    laminar part out: in still air it falls below the molecular value. *)
Theorem c67_amd_heat_laminar_refuted :
  ~ (forall alpha dx c rho g gt, mesh dx -> 0 < c -> 0 < rho -> 0 < alpha ->
       alpha <= amd_alphaeff alpha dx c rho g gt).
Proof.
  intro H. specialize (H 1 (fun _ => 1) 1 1 (fun _ => 0) (fun _ => 0)
    ltac:(intros d _; lra) ltac:(lra) ltac:(lra) ltac:(lra)).
  rewrite (c67_amd_heat_formula 1 (fun _ => 1) 1 1 _ (fun _ => 0) (fun _ _ => 0)) in H
    by (intros i k _ _; reflexivity).
  replace (sum3 (fun k => 1 ^ 2 * sum3 (fun i => 0 * (0 * 0)))) with 0 in H by (sums; ring).
  rewrite (Rmax_left (10 * eps) (_ / _)) in H; [unfold eps in H; lra|].
  pose proof eps_pos. unfold Rdiv. rewrite Rmult_0_r, Rmult_0_l. lra.
Qed.

(** * Kosovic *)

(** Without the surface layer and without terrain the model is the Smagorinsky model with
    Cs^2 = 8 (1 + Cb) / (27 pi^2), damped exponentially with height. *)
Theorem c67_kosovic_base kp problo2 dx k rho s up at_ dn z : k_rans kp = false ->
  z = problo2 + (IZR k + 1/2) * dx 2%Z ->
  kos_mu kp None problo2 dx k rho s up at_ dn =
  exp (- (z / k_off kp)) * smagorinsky (k_cs kp) dx rho s.
Proof.
  intros Hr ->. unfold kos_mu, kos_scale, kos_blend, smagorinsky, kos_x3. rewrite Hr. cbv zeta.
  replace (- (problo2 + (IZR k + 1 / 2) * dx 2%Z) / k_off kp)
    with (- ((problo2 + (IZR k + 1 / 2) * dx 2%Z) / k_off kp)) by (unfold Rdiv; ring).
  ring.
Qed.
Theorem c67_kosovic_constants cb sk : 0 <= cb -> 0 < sk ->
  0 <= kos_cs cb /\ kos_cs cb ^ 2 = 8 * (1 + cb) / (27 * PI ^ 2) /\
  kos_c1 cb sk * (7 * (1 + cb) * sk) = sqrt 960 * cb.
Proof.
  intros C K. pose proof PI_RGT_0 as P. unfold kos_cs, kos_c1. repeat split.
  - apply sqrt_pos.
  - rewrite pow2_sqrt; [field; lra|]. apply div_nonneg; [lra|]. nra.
  - field. lra.
Qed.

Lemma pow_pos x y : 0 < x -> pow_ x y = Rpower x y.
Proof. intro H. unfold pow_. rewrite (proj2 (Rltb_spec 0 x) H). reflexivity. Qed.
Lemma pow_nonneg x y : 0 <= pow_ x y.
Proof. unfold pow_. destruct (Rltb 0 x); [left; unfold Rpower; apply exp_pos|lra]. Qed.
Lemma pow_le_base x y : 0 <= x <= 1 -> 1 <= y -> pow_ x y <= x.
Proof.
  intros [A B] Y. unfold pow_. destruct (Rltb 0 x) eqn:E.
  - apply Rltb_spec in E. unfold Rpower. rewrite <- (exp_ln x E) at 2.
    assert (L : ln x <= 0).
    { destruct (Req_dec x 1) as [->|N]; [rewrite ln_1; lra|].
      left. rewrite <- ln_1. apply ln_increasing; lra. }
    assert (y * ln x <= ln x) by nra.
    destruct (Req_dec (y * ln x) (ln x)) as [->|N]; [lra|]. left. apply exp_increasing. lra.
  - exact A.
Qed.

(** With the surface layer the mixing length squared lies between zero and the larger of the two
    it blends; it is not an interpolation between them (next theorem). *)
Theorem c67_kosovic_blend_partial fmu p a b : 0 <= fmu <= 1 -> 1 <= p -> 0 <= a -> 0 <= b ->
  0 <= kos_blend true fmu p a b <= Rmax a b /\
  kos_blend false fmu p a b = a /\
  (fmu = 0 -> kos_blend true fmu p a b = a) /\
  (fmu = 1 -> kos_blend true fmu p a b = b).
Proof.
  intros F P A B. unfold kos_blend.
  pose proof (pow_nonneg (1 - fmu) p) as N1. pose proof (pow_nonneg fmu p) as N2.
  pose proof (pow_le_base (1 - fmu) p ltac:(lra) P) as L1.
  pose proof (pow_le_base fmu p F P) as L2.
  pose proof (Rmax_l a b) as Ma. pose proof (Rmax_r a b) as Mb.
  set (m := Rmax a b) in *. clearbody m.
  assert (0 <= pow_ (1 - fmu) p * a) by nra. assert (0 <= pow_ fmu p * b) by nra.
  assert (pow_ (1 - fmu) p * a <= (1 - fmu) * m) by (apply Rmult_le_compat; lra).
  assert (pow_ fmu p * b <= fmu * m) by (apply Rmult_le_compat; lra).
  split; [lra|]. split; [ring|].
  assert (O : forall y, pow_ 1 y = 1).
  { intro y. rewrite pow_pos by lra. unfold Rpower. rewrite ln_1, Rmult_0_r. apply exp_0. }
  assert (Z : forall y, pow_ 0 y = 0).
  { intro y. unfold pow_. rewrite (proj2 (Rltb_false 0 0) (Rle_refl 0)). reflexivity. }
  split; intros ->.
  - rewrite Rminus_0_r, O, Z. ring.
  - rewrite Rminus_diag_eq by reflexivity. rewrite O, Z. ring.
Qed.
(** Default exponent 2: the weights (1-f)^2 and f^2 do not add up to one, and two equal lengths
    blend to half of either. *)
Theorem c67_kosovic_blend_refuted :
  ~ (forall fmu a b, 0 <= fmu <= 1 -> 0 <= a -> 0 <= b ->
       Rmin a b <= kos_blend true fmu 2 a b <= Rmax a b).
Proof.
  intro H. specialize (H (1/2) 1 1 ltac:(lra) ltac:(lra) ltac:(lra)).
  rewrite Rmin_left, Rmax_left in H by lra. unfold kos_blend in H. cbv zeta in H.
  rewrite !pow_pos in H by lra.
  assert (Q : forall x, 0 < x -> Rpower x 2 = x ^ 2).
  { intros x X. replace 2 with (INR 2) at 1 by (cbn; ring). apply Rpower_pow; exact X. }
  rewrite !Q in H by lra. lra.
Qed.

(** The surface layer in full: z the height of the cell centre over the ground (at least half a
    cell), d the distance to the wall (at least a cell), phi the similarity function with
    phi = 1 + 5 z/L in stable and phi^4 = 1 / (1 - 16 z/L) in unstable air; the squared length is
    (1-f)^p (Cs w)^2 + f^p (0.41 d / phi)^2 with f = exp(-z / switch). *)
Theorem c67_kosovic_surface kp t problo2 dx k phi : k_rans kp = true -> 0 < k_switch kp ->
  let dz := dx 2%Z in
  let zc := problo2 + (IZR k + 1/2) * dz in
  let z := match t with Some t => Rmax (zc - t_height t) (1/2 * dz) | None => zc end in
  let d := match t with Some t => Rmax ((IZR k + 1) * dz - t_height t) dz | None => (IZR k + 1) * dz end in
  0 < z -> 0 < phi ->
  (0 <= k_mol kp -> phi = 1 + 5 * (z / k_mol kp)) ->
  (k_mol kp < 0 -> phi ^ 4 * (1 - 16 * (z / k_mol kp)) = 1) ->
  let f := exp (- (z / k_switch kp)) in
  kos_scale kp t problo2 dx k =
  Rpower (1 - f) (k_exp kp) * (k_cs kp * filter_width dx) ^ 2 +
  Rpower f (k_exp kp) * (41/100 * d / phi) ^ 2.
Proof.
  intros Hr Hs dz zc z d Z P S U f. unfold kos_scale. cbv zeta. fold dz.
  assert (EZ : kos_x3 t problo2 dz k = z).
  { unfold kos_x3, z, zc. destruct t; [rewrite rmax_spec|]; reflexivity. }
  assert (ED : kos_wall t dz k = d).
  { unfold kos_wall, d. rewrite plus_IZR. destruct t; [rewrite rmax_spec|]; reflexivity. }
  rewrite EZ, ED. unfold kos_blend. rewrite Hr.
  replace (- z / k_switch kp) with (- (z / k_switch kp)) by (unfold Rdiv; ring). fold f.
  assert (F : 0 < f < 1).
  { split; [apply exp_pos|]. unfold f. rewrite <- exp_0. apply exp_increasing.
    assert (0 < z / k_switch kp) by (apply Rdiv_lt_0_compat; assumption). lra. }
  rewrite !pow_pos by lra.
  assert (EP : kos_phim (k_mol kp) z = phi).
  { unfold kos_phim. destruct (Rltb (k_mol kp) 0) eqn:E.
    - apply Rltb_spec in E. specialize (U E).
      replace (1 - 16 * z / k_mol kp) with (1 - 16 * (z / k_mol kp)) by (unfold Rdiv; ring).
      set (y := 1 - 16 * (z / k_mol kp)) in *.
      assert (P4 : 0 < phi ^ 4) by (apply pow_lt; exact P).
      assert (Y : y = / phi ^ 4) by (apply Rmult_eq_reg_l with (phi ^ 4); [rewrite U; field; lra|lra]).
      rewrite Y. unfold Rpower. rewrite ln_Rinv by exact P4. rewrite <- (Rpower_pow 4 phi P).
      unfold Rpower. rewrite ln_exp. replace (- (1 / 4) * - (INR 4 * ln phi)) with (ln phi).
      + apply exp_ln; exact P.
      + cbn [INR]. field.
    - apply Rltb_false in E. rewrite (S E). unfold Rdiv. ring. }
  unfold kos_ransl. rewrite EP. unfold smag_factor. ring.
Qed.

(** Inside the terrain (blanked, no drag) there is no eddy viscosity and no nonlinear stress; in
    the cells next to the ground the viscosity is the log-law value 2 rho u*^2 / (dM/dz). *)
Theorem c67_kosovic_terrain kp t problo2 dx k rho s up at_ dn d :
  (t_blank t = 1 -> t_drag t = 0 ->
     kos_mu kp (Some t) problo2 dx k rho s up at_ dn = 0 /\
     kos_div kp (Some t) problo2 dx k rho d = 0) /\
  (t_drag t = 1 ->
     let speed v := sqrt (fst v ^ 2 + snd v ^ 2) in
     let ustar := speed up * k_kappa kp /
                  (ln (3/2 * dx 2%Z / Rmax (t_z0 t) (1/10000)) - k_psi kp) in
     kos_mu kp (Some t) problo2 dx k rho s up at_ dn =
     2 * rho * ustar ^ 2 / Rmax ((speed at_ - speed dn) / dx 2%Z) (1/100)).
Proof.
  split.
  - intros B D. unfold kos_mu, kos_div. cbv zeta. rewrite B, D. split; ring.
  - intros D speed ustar. unfold kos_mu, kos_loglaw. cbv zeta. rewrite D.
    rewrite !rmax_spec.
    replace (2 * rho * ustar ^ 2) with (2 * ustar * ustar * rho) by ring.
    unfold ustar, speed. replace (fst up ^ 2 + snd up ^ 2) with (fst up * fst up + snd up * snd up) by ring.
    replace (fst at_ ^ 2 + snd at_ ^ 2) with (fst at_ * fst at_ + snd at_ * snd at_) by ring.
    replace (fst dn ^ 2 + snd dn ^ 2) with (fst dn * fst dn + snd dn * snd dn) by ring.
    ring.
Qed.

(** Never negative, wherever the terrain flags are between 0 and 1. *)
Theorem c67_kosovic_sign kp t problo2 dx k rho s up at_ dn : 0 <= rho -> 0 <= s ->
  (forall t', t = Some t' -> 0 <= t_blank t' <= 1 /\ 0 <= t_drag t' <= 1) ->
  0 <= kos_mu kp t problo2 dx k rho s up at_ dn.
Proof.
  intros Hr Hs Ht. unfold kos_mu. cbv zeta.
  set (sc := kos_scale _ _ _ _ _). set (ml := kos_loglaw _ _ _ _ _ _ _ _ _ _).
  assert (S0 : 0 <= sc).
  { unfold sc, kos_scale, kos_blend. cbv zeta. set (f := exp _).
    assert (0 <= smag_factor (k_cs kp) dx) by (unfold smag_factor; nra).
    assert (0 <= kos_ransl (k_mol kp) (kos_x3 t problo2 (dx 2%Z) k) (kos_wall t (dx 2%Z) k))
      by (unfold kos_ransl; nra).
    pose proof (pow_nonneg (1 - f) (k_exp kp)). pose proof (pow_nonneg f (k_exp kp)).
    destruct (k_rans kp); nra. }
  assert (M0 : 0 <= ml).
  { unfold ml, kos_loglaw. cbv zeta. 
    apply div_nonneg.
    { set (u := _ * k_kappa kp / _). clearbody u. pose proof (Rle_0_sqr u). unfold Rsqr in *. nra. }
    pose proof (rmax_le_r ((sqrt (fst at_ * fst at_ + snd at_ * snd at_) -
      sqrt (fst dn * fst dn + snd dn * snd dn)) / dx 2%Z) (1/100)). lra. }
  clearbody sc ml. pose proof (exp_pos (- kos_x3 t problo2 (dx 2%Z) k / k_off kp)) as E.
  set (e := exp _) in *. clearbody e.
  assert (P : 0 <= rho * sc * e) by (apply Rmult_le_pos; [nra|lra]).
  destruct t as [t|].
  - destruct (Ht t eq_refl) as [B D].
    assert (0 <= s * (rho * sc * e * (1 - t_blank t))) by (apply Rmult_le_pos; [lra|nra]).
    assert (0 <= s * (rho * sc * e * (1 - t_blank t)) * (1 - t_drag t)) by nra.
    assert (0 <= t_drag t * ml) by nra. lra.
  - assert (0 <= s * (rho * sc * e * 1)) by (apply Rmult_le_pos; [lra|nra]). lra.
Qed.

(** The nonlinear stress is scaled by C1/4 times the Smagorinsky factor, with the damping of the
    viscosity. *)
Theorem c67_kosovic_stress kp problo2 dx k rho d z : k_rans kp = false ->
  z = problo2 + (IZR k + 1/2) * dx 2%Z ->
  kos_div kp None problo2 dx k rho d =
  rho * ((k_cs kp * filter_width dx) ^ 2 * k_c1 kp / 4) * exp (- (z / k_off kp)) * d.
Proof.
  intros Hr ->. unfold kos_div, kos_blend, smag_factor, kos_x3. rewrite Hr. cbv zeta.
  replace (- (problo2 + (IZR k + 1 / 2) * dx 2%Z) / k_off kp)
    with (- ((problo2 + (IZR k + 1 / 2) * dx 2%Z) / k_off kp)) by (unfold Rdiv; ring).
  field.
Qed.

(** The surface layer is the mixing length of a wall at the bottom of the domain only in half of
    what it uses: with a domain bottom that is not at zero the distance to the wall is still
    counted from zero, and it is that of the top face of the cell. *)
Theorem c67_kosovic_wall_partial k dz : 0 < dz ->
  kos_wall None dz k = kos_x3 None 0 dz k + dz / 2.
Proof. intro D. unfold kos_wall, kos_x3. rewrite plus_IZR. field. Qed.
Theorem c67_kosovic_wall_refuted :
  ~ (forall problo2 dz k, 0 < dz -> (0 <= k)%Z ->
       kos_wall None dz k = kos_x3 None problo2 dz k - problo2).
Proof.
  intro H. specialize (H 0 1 0%Z ltac:(lra) ltac:(lia)).
  unfold kos_wall, kos_x3 in H. cbn in H. lra.
Qed.
(** ... and the constant of von Karman of the input file is not the one in the mixing length. *)
Theorem c67_kosovic_kappa_refuted :
  ~ (forall kp kp' problo2 dx k, k_kappa kp <> k_kappa kp' ->
       k_cs kp = k_cs kp' -> k_rans kp = true -> k_rans kp' = true ->
       k_switch kp = k_switch kp' -> k_exp kp = k_exp kp' -> k_mol kp = k_mol kp' ->
       kos_scale kp None problo2 dx k <> kos_scale kp' None problo2 dx k).
Proof.
  intro H.
  apply (H (Kos 1 1 true 24 2 1 1 (4/10) 1 0) (Kos 1 1 true 24 2 1 1 (41/100) 1 0) 0 (fun _ => 1) 0%Z);
    try reflexivity. cbn. lra.
Qed.

Theorem c67_kosovic_heat mol alpha mut : 0 <= mut ->
  alpha + mut <= kos_alphaeff mol alpha mut <= alpha + 3 * mut /\
  (kos_alphaeff mol alpha mut = alpha + mut \/ kos_alphaeff mol alpha mut = alpha + 3 * mut) /\
  (mol < 0 -> kos_alphaeff mol alpha mut = alpha + 3 * mut) /\
  (0 <= mol -> kos_alphaeff mol alpha mut = alpha + mut).
Proof.
  intro M. unfold kos_alphaeff. destruct (Rltb mol 0) eqn:E.
  - apply Rltb_spec in E. repeat split; try lra.
  - apply Rltb_false in E. repeat split; try lra.
Qed.

(** * One-equation model *)

Theorem c67_oneeq_length ce dx rho tke strat s w : mesh dx -> width dx w -> 0 <= tke ->
  let r := m84_update ce dx rho tke strat s in
  0 <= m_l r <= w /\
  (strat <= 0 -> m_l r = w) /\
  (eps * 1000000 < strat -> m_l r = Rmin w (76/100 * sqrt (tke / strat))).
Proof.
  intros M W K r. pose proof (width_unique dx _ w (width_ok dx M) W) as E. destruct W as [Wp _].
  unfold r, m84_update. cbv zeta. cbn [m_l]. rewrite E.
  pose proof floor6_pos as F6. repeat apply conj.
  - destruct (Rltb floor6 strat); [|lra]. apply rmin_glb; [lra|].
    pose proof (sqrt_pos (tke / strat)). lra.
  - destruct (Rltb floor6 strat); [|lra]. apply rmin_le_l.
  - intro H. destruct (Rltb floor6 strat) eqn:Z; [|reflexivity].
    apply Rltb_spec in Z. lra.
  - intro H. rewrite (proj2 (Rltb_spec floor6 strat) H). apply rmin_spec.
Qed.

Theorem c67_oneeq_viscosity ce dx rho tke strat s w : mesh dx -> width dx w -> 0 <= tke ->
  0 <= ce -> 0 <= rho ->
  let r := m84_update ce dx rho tke strat s in
  m_mu r = rho * ce * m_l r * sqrt tke /\
  0 <= m_mu r <= rho * ce * w * sqrt tke /\ (tke = 0 -> m_mu r = 0).
Proof.
  intros M W K C R0 r. destruct (c67_oneeq_length ce dx rho tke strat s w M W K) as [[L1 L2] _].
  fold r in L1, L2. assert (E : m_mu r = rho * ce * m_l r * sqrt tke) by reflexivity.
  pose proof (sqrt_pos tke). repeat apply conj.
  - exact E.
  - rewrite E. apply Rmult_le_pos; [|lra]. apply Rmult_le_pos; [nra|lra].
  - rewrite E. apply Rmult_le_compat_r; [lra|]. apply Rmult_le_compat_l; [nra|lra].
  - intro Z. rewrite E, Z, sqrt_0. ring.
Qed.

(** Shear production is the viscosity times the square of the strain rate; buoyancy production is
    minus the turbulent heat diffusivity times the stratification: it feeds on unstable air and
    is lost in stable air.  The heat diffusivity is one to three times the viscosity. *)
Theorem c67_oneeq_budget ce dx rho tke strat s alpha : mesh dx -> 0 <= tke -> 0 <= ce -> 0 <= rho ->
  let r := m84_update ce dx rho tke strat s in
  let heat := m84_alphaeff alpha (m_mu r) (m_l r) (filter_width dx) - alpha in
  m_shear r = m_mu r * s ^ 2 /\ 0 <= m_shear r /\
  m_buoy r = - heat * strat /\ m_mu r <= heat <= 3 * m_mu r /\
  (strat <= 0 -> heat = 3 * m_mu r /\ 0 <= m_buoy r) /\ (0 <= strat -> m_buoy r <= 0).
Proof.
  intros M K C R0 r heat. pose proof (width_ok dx M) as W. pose proof W as [Wp _].
  destruct (c67_oneeq_length ce dx rho tke strat s _ M W K) as [[L1 L2] [Lu _]].
  destruct (c67_oneeq_viscosity ce dx rho tke strat s _ M W K C R0) as [_ [[V1 _] _]].
  fold r in L1, L2, V1, Lu.
  assert (B : m_buoy r = - m_mu r * (1 + 2 * m_l r / filter_width dx) * strat) by reflexivity.
  assert (S : m_shear r = s * (s * m_mu r)) by reflexivity.
  set (q := m_l r / filter_width dx).
  assert (Q : 0 <= q <= 1) by (split; [apply div_nonneg; lra|apply div_le; lra]).
  assert (H : heat = m_mu r * (1 + 2 * q)) by (unfold heat, m84_alphaeff, q, Rdiv; ring).
  assert (B' : m_buoy r = - heat * strat) by (rewrite B, H; unfold q, Rdiv; ring).
  repeat apply conj.
  - rewrite S; ring.
  - rewrite S. nra.
  - exact B'.
  - rewrite H. nra.
  - rewrite H. nra.
  - intro Z. assert (q = 1) by (unfold q; rewrite (Lu Z); field; lra).
    split; [rewrite H; subst q; rewrite H0; ring|]. rewrite B'.
    assert (0 <= heat) by (rewrite H; nra). nra.
  - intro Z. rewrite B'. assert (0 <= heat) by (rewrite H; nra). nra.
Qed.

(** Stratification: positive when the temperature increases upward. *)
Theorem c67_stratification gt g beta a : 0 < beta -> g 0%Z = 0 -> g 1%Z = 0 -> g 2%Z = - a -> 0 < a ->
  stratification gt g beta = beta * a * gt 2%Z /\
  (0 < gt 2%Z <-> 0 < stratification gt g beta) /\ (gt 2%Z = 0 <-> stratification gt g beta = 0).
Proof.
  intros B G0 G1 G2 A. assert (E : stratification gt g beta = beta * a * gt 2%Z).
  { unfold stratification. rewrite G0, G1, G2. ring. }
  rewrite E. assert (P : 0 < beta * a) by nra. set (p := beta * a) in *. clearbody p.
  repeat split; intro H; try nra.
Qed.

(** Hybrid mode: the specific dissipation handed to the outer code is sqrt k / (Ce w). *)
Theorem c67_oneeq_hybrid ce dx tke sdr : 
  m84_sdr true ce (filter_width dx) tke sdr = sqrt tke / (ce * filter_width dx) /\
  m84_sdr false ce (filter_width dx) tke sdr = sdr.
Proof. split; reflexivity. Qed.

(** * Effective coefficients *)
Theorem c67_effective mu alpha mut prt sc sct : 0 <= mut -> 0 < prt -> 0 < sc -> 0 < sct ->
  visc_update mu mut = mu + mut /\ mu <= visc_update mu mut /\
  alpha_update alpha prt mut = alpha + mut / prt /\ alpha <= alpha_update alpha prt mut /\
  scal_diff_update mu sc sct mut = mu / sc + mut / sct /\ mu / sc <= scal_diff_update mu sc sct mut /\
  (mut = 0 -> visc_update mu mut = laminar_visc mu /\ alpha_update alpha prt mut = laminar_alpha alpha
              /\ scal_diff_update mu sc sct mut = laminar_scal mu sc) /\
  tke_diff true mut = Base.Ret (2 * mut) /\ tke_diff false mut = Base.Abort.
Proof.
  intros M P S T. unfold visc_update, alpha_update, scal_diff_update, laminar_visc, laminar_alpha, laminar_scal.
  pose proof (Rinv_0_lt_compat _ P). pose proof (Rinv_0_lt_compat _ T).
  assert (0 <= mut * / prt) by nra. assert (0 <= mut * / sct) by nra.
  repeat apply conj; try (unfold Rdiv; lra).
  - intros ->. repeat split; unfold Rdiv; ring.
  - unfold tke_diff. f_equal. ring.
  - reflexivity.
Qed.

(** Lower bounds applied after each solve. *)
Theorem c67_clip b k w :
  0 <= tke_clip b k /\ (0 <= k -> b <> Some 1%Z -> tke_clip b k = k) /\
  (k < 0 -> tke_clip b k = feps) /\ (b = Some 1%Z -> tke_clip b k = feps) /\
  feps <= sdr_clip w /\ (feps <= w -> sdr_clip w = w) /\ 0 < feps.
Proof.
  pose proof feps_pos as F. unfold tke_clip, sdr_clip. cbv zeta.
  assert (X : 0 <= (if Rltb k 0 then feps else k)).
  { destruct (Rltb k 0) eqn:E; [lra|]. apply Rltb_false in E. lra. }
  repeat apply conj.
  - destruct b as [b|]; [|exact X]. destruct (b =? 1)%Z; [lra|exact X].
  - intros K B. rewrite (proj2 (Rltb_false k 0) K). destruct b as [b|]; [|reflexivity].
    destruct (b =? 1)%Z eqn:E; [|reflexivity]. apply Z.eqb_eq in E. congruence.
  - intro K. rewrite (proj2 (Rltb_spec k 0) K). destruct b as [b|]; [|reflexivity].
    destruct (b =? 1)%Z; reflexivity.
  - intros ->. reflexivity.
  - apply rmax_le_r.
  - intro W. apply rmax_left; exact W.
  - exact F.
Qed.
(** A zero energy stays zero (the equation then divides by it in some models). *)
Theorem c67_clip_positive_refuted : ~ (forall b k, 0 < tke_clip b k).
Proof.
  intro H. specialize (H None 0). unfold tke_clip in H.
  rewrite (proj2 (Rltb_false 0 0) (Rle_refl 0)) in H. lra.
Qed.

(** * Source terms a model adds to the user's list *)
Lemma str_ltb_irrefl a : str_ltb a a = false.
Proof. induction a as [|x a IH]; cbn [str_ltb]; [reflexivity|]. rewrite Nat.ltb_irrefl. exact IH. Qed.
Lemma str_ltb_eq a : forall b, str_ltb a b = false -> str_ltb b a = false -> a = b.
Proof.
  induction a as [|x a IH]; intros [|y b] H K; try reflexivity; try discriminate.
  cbn [str_ltb] in H, K.
  destruct (Ascii.nat_of_ascii x <? Ascii.nat_of_ascii y)%nat eqn:E1; [discriminate|].
  destruct (Ascii.nat_of_ascii y <? Ascii.nat_of_ascii x)%nat eqn:E2; [discriminate|].
  apply Nat.ltb_ge in E1, E2. assert (E : Ascii.nat_of_ascii x = Ascii.nat_of_ascii y) by lia.
  f_equal; [|apply IH; assumption].
  rewrite <- (Ascii.ascii_nat_embedding x), <- (Ascii.ascii_nat_embedding y), E. reflexivity.
Qed.
Lemma str_ltb_trans a : forall b c, str_ltb a b = true -> str_ltb b c = true -> str_ltb a c = true.
Proof.
  induction a as [|x a IH]; intros [|y b] [|z c] H K; try reflexivity; try discriminate.
  cbn [str_ltb] in H, K |- *.
  destruct (Ascii.nat_of_ascii x <? Ascii.nat_of_ascii y)%nat eqn:E1,
           (Ascii.nat_of_ascii y <? Ascii.nat_of_ascii x)%nat eqn:E2,
           (Ascii.nat_of_ascii y <? Ascii.nat_of_ascii z)%nat eqn:E3,
           (Ascii.nat_of_ascii z <? Ascii.nat_of_ascii y)%nat eqn:E4; try discriminate;
    rewrite ?Nat.ltb_lt, ?Nat.ltb_ge in *; 
    destruct (Nat.ltb_spec (Ascii.nat_of_ascii x) (Ascii.nat_of_ascii z)); try reflexivity; try lia;
    destruct (Nat.ltb_spec (Ascii.nat_of_ascii z) (Ascii.nat_of_ascii x)); try lia.
  eapply IH; eassumption.
Qed.
Definition increasing (l : list string) : Prop := StronglySorted (fun a b => str_ltb a b = true) l.
Lemma set_insert_in s l x : In x (set_insert s l) <-> x = s \/ In x l.
Proof.
  induction l as [|y l IH]; cbn; [intuition|].
  destruct (str_ltb s y) eqn:E1; [cbn; intuition|].
  destruct (str_ltb y s) eqn:E2; cbn; [rewrite IH; intuition|].
  pose proof (str_ltb_eq _ _ E1 E2). subst y. intuition.
Qed.
Lemma set_insert_sorted s l : increasing l -> increasing (set_insert s l).
Proof.
  induction l as [|y l IH]; intro H; cbn; [repeat constructor|].
  apply StronglySorted_inv in H. destruct H as [H1 H2].
  destruct (str_ltb s y) eqn:E1.
  { constructor; [constructor; assumption|]. constructor; [exact E1|].
    eapply Forall_impl; [|exact H2]. intros z Z. eapply str_ltb_trans; eassumption. }
  destruct (str_ltb y s) eqn:E2; [|constructor; assumption].
  constructor; [apply IH; exact H1|]. rewrite Forall_forall. intros z Z.
  apply set_insert_in in Z. destruct Z as [->|Z]; [exact E2|].
  rewrite Forall_forall in H2. apply H2; exact Z.
Qed.
Lemma fold_insert (l acc : list string) : increasing acc ->
  increasing (fold_left (fun a s => set_insert s a) l acc) /\
  forall x, In x (fold_left (fun a s => set_insert s a) l acc) <-> In x l \/ In x acc.
Proof.
  revert acc. induction l as [|s l IH]; intros acc H; cbn; [intuition|].
  destruct (IH _ (set_insert_sorted s acc H)) as [A B]. split; [exact A|].
  intro x. rewrite B, set_insert_in. intuition.
Qed.
Lemma increasing_nodup l : increasing l -> NoDup l.
Proof.
  induction l as [|x l IH]; intro H; [constructor|].
  apply StronglySorted_inv in H. destruct H as [H1 H2]. constructor; [|apply IH; exact H1].
  intro I. rewrite Forall_forall in H2. specialize (H2 x I). rewrite str_ltb_irrefl in H2. discriminate.
Qed.

(** The terms the user asked for and those the model needs are all there, each once; with no
    list from the user, exactly the model's own. *)
Theorem c67_source_terms srcin terms :
  (forall x, In x (inject_src_terms srcin terms) <-> In x srcin \/ In x terms) /\
  (srcin <> nil -> NoDup (inject_src_terms srcin terms) /\ increasing (inject_src_terms srcin terms)) /\
  (srcin = nil -> inject_src_terms srcin terms = terms).
Proof.
  destruct srcin as [|s r].
  - cbn. repeat split; intuition.
  - unfold inject_src_terms.
    destruct (fold_insert (s :: r) nil ltac:(constructor)) as [A B].
    destruct (fold_insert terms _ A) as [C D].
    split; [|split].
    + intro x. rewrite D, B. cbn. intuition.
    + intros _. split; [apply increasing_nodup; exact C|exact C].
    + discriminate.
Qed.
(** So a second injection changes nothing. *)
Lemma set_insert_id s l : increasing l -> In s l -> set_insert s l = l.
Proof.
  induction l as [|y l IH]; intros H I; [destruct I|]. cbn.
  apply StronglySorted_inv in H. destruct H as [H1 H2]. destruct I as [->|I].
  - rewrite str_ltb_irrefl. reflexivity.
  - rewrite Forall_forall in H2. pose proof (H2 s I) as L.
    destruct (str_ltb s y) eqn:E.
    { pose proof (str_ltb_trans _ _ _ E L) as Z. rewrite str_ltb_irrefl in Z. discriminate. }
    rewrite L. f_equal. apply IH; assumption.
Qed.
Lemma fold_insert_id (l acc : list string) : increasing acc -> incl l acc ->
  fold_left (fun a s => set_insert s a) l acc = acc.
Proof.
  induction l as [|s l IH]; intros H I; cbn; [reflexivity|].
  rewrite set_insert_id by (try exact H; apply I; left; reflexivity).
  apply IH; [exact H|]. intros x X. apply I. right; exact X.
Qed.
Theorem c67_source_terms_again srcin terms : srcin <> nil ->
  inject_src_terms (inject_src_terms srcin terms) terms = inject_src_terms srcin terms.
Proof.
  intro N. destruct (c67_source_terms srcin terms) as [A [B _]]. destruct (B N) as [_ S].
  set (l := inject_src_terms srcin terms) in *.
  assert (NL : l <> nil).
  { destruct srcin as [|s r]; [congruence|]. intro E.
    assert (I : In s l) by (apply A; left; left; reflexivity). rewrite E in I. destruct I. }
  clearbody l. destruct l as [|x r] eqn:E; [congruence|]. rewrite <- E in *. unfold inject_src_terms.
  assert (F : fold_left (fun a s => set_insert s a) l nil = l).
  { assert (G : forall (m : list string) acc, increasing (acc ++ m)%list ->
      fold_left (fun a s => set_insert s a) m acc = (acc ++ m)%list).
    { intro m. induction m as [|s m IH]; intros acc H; cbn.
      - rewrite List.app_nil_r; reflexivity.
      - assert (I : set_insert s acc = (acc ++ s :: nil)%list).
        { clear IH. induction acc as [|y acc IHa]; cbn; [reflexivity|].
          cbn in H. apply StronglySorted_inv in H. destruct H as [H1 H2].
          rewrite Forall_forall in H2. assert (L : str_ltb y s = true).
          { apply H2. apply in_or_app. right; left; reflexivity. }
          destruct (str_ltb s y) eqn:Z.
          { pose proof (str_ltb_trans _ _ _ Z L) as Y. rewrite str_ltb_irrefl in Y. discriminate. }
          rewrite L. f_equal. apply IHa; exact H1. }
        rewrite I. rewrite IH; rewrite <- List.app_assoc; [reflexivity|exact H]. }
    apply (G l nil). exact S. }
  rewrite F. rewrite E at 1. apply fold_insert_id; [exact S|]. intros y Y. apply A. right; exact Y.
Qed.

(** * Cases *)
Definition shear_flow : mat := fun i k => if ((i =? 0) && (k =? 2))%Z then 3 else 0.
Definition turn : mat := fun i j =>
  if ((i =? 0) && (j =? 1))%Z then -1 else if ((i =? 1) && (j =? 0))%Z then 1
  else if ((i =? 2) && (j =? 2))%Z then 1 else 0.
Example c67_shear_flow : parallel_shear shear_flow 0 2 /\ ~ rigid shear_flow.
Proof.
  split.
  - repeat split; ax; [discriminate|]. intros i k I K N. unfold shear_flow.
    destruct ((i =? 0) && (k =? 2))%Z eqn:E; [|reflexivity]. exfalso. apply N.
    apply andb_prop in E. destruct E as [E1 E2]. apply Z.eqb_eq in E1, E2. subst; reflexivity.
  - intro H. specialize (H 0%Z 2%Z ax0 ax2). unfold shear_flow in H. cbn in H. lra.
Qed.
Example c67_turn : orthogonal turn.
Proof.
  intros i j [-> | [-> | ->]] [-> | [-> | ->]]; rewrite sum3_eq; unfold turn; cbn; ring.
Qed.
Example c67_mesh : mesh (fun d => IZR d + 1) /\ longest (fun d => IZR d + 1) 3.
Proof.
  split.
  - intros d [-> | [-> | ->]]; lra.
  - split; [intros d [-> | [-> | ->]]; lra|]. exists 2%Z. split; [ax|lra].
Qed.
(** a stretched flow where the AMD viscosity is well above its floor *)
Example c67_amd_on : amd_notherm (fun _ => 1) (1/3) 1
  (fun n => if (n =? 0)%Z then 2 else if (n =? 4)%Z then 1 else if (n =? 8)%Z then -3 else 0) = 3/7.
Proof.
  rewrite (c67_amd_formula (fun _ => 1) (1/3) 1 _ (fun i k =>
    if ((i =? 0) && (k =? 0))%Z then 2 else if ((i =? 1) && (k =? 1))%Z then 1
    else if ((i =? 2) && (k =? 2))%Z then -3 else 0)).
  2:{ intros i k [-> | [-> | ->]] [-> | [-> | ->]]; reflexivity. }
  cbv zeta. unfold square, strain_tensor. sums. cbn [Z.eqb Pos.eqb andb]. unfold eps.
  rewrite (Rmax_right _ (_ + _)) by lra. rewrite Rmax_right by lra. field.
Qed.
Example c67_terms : inject_src_terms ("GravityForcing" :: "ABLForcing" :: nil)%string ("KwSSTSrc" :: "ABLForcing" :: nil)%string
  = ("ABLForcing" :: "GravityForcing" :: "KwSSTSrc" :: nil)%string.
Proof. reflexivity. Qed.
Example c67_length_stable : m_l (m84_update (1/10) (fun _ => 1) 1 (1/4) 1 1) = 38/100.
Proof.
  assert (W : width (fun _ => 1) 1) by (split; lra).
  destruct (c67_oneeq_length (1/10) (fun _ => 1) 1 (1/4) 1 1 1 ltac:(intros d _; lra) W ltac:(lra)) as [_ [_ H]].
  rewrite H by (unfold eps; lra). replace (1 / 4 / 1) with (1/2 * (1/2)) by field.
  rewrite sqrt_square by lra. rewrite Rmin_right; lra.
Qed.

Print Assumptions c67_smagorinsky. Print Assumptions c67_amd_bound. Print Assumptions c67_amd_frame.
Print Assumptions c67_kosovic_sign. Print Assumptions c67_oneeq_budget. Print Assumptions c67_source_terms_again.
