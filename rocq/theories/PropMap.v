(** C38: mesh mappings. *)
From Coq Require Import Reals Lra ZArith List Bool Lia ZifyBool ZifyNat Psatz.
From Coquelicot Require Import Coquelicot.
From Verif Require Import BoxR BoxRFacts MeshMap.
Local Open Scope R_scope.

Lemma cosh_pos x : 0 < cosh x.
Proof. unfold cosh. pose proof (exp_pos x). pose proof (exp_pos (- x)). lra. Qed.
Lemma cosh_sinh x : cosh x * cosh x - sinh x * sinh x = 1.
Proof.
  unfold cosh, sinh. assert (E : exp x * exp (- x) = 1) by (rewrite <- exp_plus, Rplus_opp_r; apply exp_0).
  nra.
Qed.
Lemma tanh_derive x : is_derive tanh x (1 - tanh x * tanh x).
Proof.
  pose proof (cosh_pos x) as C.
  apply (is_derive_ext (fun x => sinh x / cosh x)); [reflexivity|].
  assert (Ds : is_derive sinh x (cosh x)).
  { apply is_derive_Reals. apply derivable_pt_lim_sinh. }
  assert (Dc : is_derive cosh x (sinh x)).
  { apply is_derive_Reals. apply derivable_pt_lim_cosh. }
  pose proof (is_derive_div sinh cosh x _ _ Ds Dc ltac:(lra)) as D.
  eapply eq_rect; [exact D|]. unfold tanh, minus, plus, opp, scal, mult; cbn.
  unfold mult; cbn. field. lra.
Qed.
Lemma tanh_lt1 x : -1 < tanh x < 1.
Proof.
  pose proof (cosh_pos x) as C. unfold tanh.
  assert (A : - cosh x < sinh x < cosh x).
  { unfold cosh, sinh. pose proof (exp_pos x). pose proof (exp_pos (- x)). lra. }
  split.
  - apply Rmult_lt_reg_r with (cosh x); [exact C|]. unfold Rdiv. rewrite Rmult_assoc, Rinv_l by lra. lra.
  - apply Rmult_lt_reg_r with (cosh x); [exact C|]. unfold Rdiv. rewrite Rmult_assoc, Rinv_l by lra. lra.
Qed.
Lemma tanh_0 : tanh 0 = 0.
Proof. unfold tanh. rewrite sinh_0. unfold Rdiv. ring. Qed.
Lemma tanh_opp x : tanh (- x) = - tanh x.
Proof. unfold tanh, sinh, cosh. rewrite Ropp_involutive. field. pose proof (exp_pos x). pose proof (exp_pos (- x)). lra. Qed.
Lemma tanh_inc x y : x < y -> tanh x < tanh y.
Proof.
  intros H. destruct (MVT_gen tanh x y (fun t => 1 - tanh t * tanh t)) as (c & Hc & E).
  - intros t _. apply tanh_derive.
  - intros t _. apply continuity_pt_filterlim. apply (ex_derive_continuous (V := R_NormedModule)).
    eexists. apply tanh_derive.
  - pose proof (tanh_lt1 c). assert (0 < (1 - tanh c * tanh c) * (y - x)); [|lra].
    apply Rmult_lt_0_compat; nra.
Qed.
Lemma tanh_pos x : 0 < x -> 0 < tanh x.
Proof. intros H. rewrite <- tanh_0. apply tanh_inc. exact H. Qed.
Lemma tanh_sign b : b <> 0 -> 0 < b / tanh b /\ tanh b <> 0.
Proof.
  intros Hb. destruct (Rlt_dec 0 b) as [H|H].
  - pose proof (tanh_pos b H). split; [apply Rdiv_lt_0_compat; lra|lra].
  - assert (0 < - b) by lra. pose proof (tanh_pos (- b) ltac:(lra)) as P. rewrite tanh_opp in P.
    split; [|lra]. replace (b / tanh b) with ((- b) / (- tanh b)) by (field; lra).
    apply Rdiv_lt_0_compat; lra.
Qed.
Lemma Reqb_true b : b = 0 -> Reqb b 0 = true.
Proof. intros ->. unfold Reqb. destruct (Req_EM_T 0 0); [reflexivity|congruence]. Qed.
Lemma Reqb_false b : b <> 0 -> Reqb b 0 = false.
Proof. intros H. unfold Reqb. destruct (Req_EM_T b 0); [congruence|reflexivity]. Qed.

(** *** Identity for zero stretching, ends map to themselves, mirror symmetry *)
Theorem c38_identity : forall x lo len, eval_coord x 0 lo len = x /\ eval_fac x 0 lo len = 1.
Proof. intros. unfold eval_coord, eval_fac. rewrite Reqb_true by reflexivity. split; reflexivity. Qed.

Theorem c38_ends : forall beta lo len, len <> 0 ->
  eval_coord lo beta lo len = lo /\ eval_coord (lo + len) beta lo len = lo + len /\
  eval_coord (lo + len / 2) beta lo len = lo + len / 2.
Proof.
  intros b lo len Hl. unfold eval_coord. destruct (Req_dec b 0) as [Hb|Hb].
  - rewrite Reqb_true by exact Hb. repeat split; reflexivity.
  - rewrite Reqb_false by exact Hb. destruct (tanh_sign b Hb) as (_ & T).
    repeat split.
    + replace (b * (1 - 2 * (lo - lo) / len)) with b by (field; exact Hl). field. exact T.
    + replace (b * (1 - 2 * (lo + len - lo) / len)) with (- b) by (field; exact Hl).
      rewrite tanh_opp. field. exact T.
    + replace (b * (1 - 2 * (lo + len / 2 - lo) / len)) with 0 by (field; exact Hl).
      rewrite tanh_0. field. exact T.
Qed.

Theorem c38_symmetric : forall beta lo len x, len <> 0 ->
  eval_coord (2 * lo + len - x) beta lo len = 2 * lo + len - eval_coord x beta lo len /\
  eval_fac (2 * lo + len - x) beta lo len = eval_fac x beta lo len /\
  eval_coord x (- beta) lo len = eval_coord x beta lo len.
Proof.
  intros b lo len x Hl. unfold eval_coord, eval_fac. destruct (Req_dec b 0) as [Hb|Hb].
  - rewrite !Reqb_true by lra. repeat split; ring.
  - rewrite !Reqb_false by lra. destruct (tanh_sign b Hb) as (_ & T).
    replace (b * (1 - 2 * (2 * lo + len - x - lo) / len)) with (- (b * (1 - 2 * (x - lo) / len)))
      by (field; exact Hl).
    replace (- b * (1 - 2 * (x - lo) / len)) with (- (b * (1 - 2 * (x - lo) / len))) by ring.
    rewrite !tanh_opp. repeat split; field; lra.
Qed.

(** *** The scale factor is the derivative of the map, and positive *)
Theorem c38_derivative : forall beta lo len x, len <> 0 ->
  is_derive (fun x => eval_coord x beta lo len) x (eval_fac x beta lo len).
Proof.
  intros b lo len x Hl. unfold eval_fac. destruct (Req_dec b 0) as [Hb|Hb].
  - rewrite Reqb_true by exact Hb. apply (is_derive_ext (fun x => x)).
    + intros t. unfold eval_coord. rewrite Reqb_true by exact Hb. reflexivity.
    + auto_derive; [exact I|reflexivity].
  - rewrite Reqb_false by exact Hb. destruct (tanh_sign b Hb) as (_ & T).
    apply (is_derive_ext (fun x => lo + len / 2 * (1 - tanh (b * (1 - 2 * (x - lo) / len)) / tanh b))).
    + intros t. unfold eval_coord. rewrite Reqb_false by exact Hb. reflexivity.
    + set (u := fun x => b * (1 - 2 * (x - lo) / len)).
      assert (Du : is_derive u x (- 2 * b / len)) by (unfold u; auto_derive; [exact I|field; exact Hl]).
      pose proof (is_derive_comp tanh u x _ _ (tanh_derive (u x)) Du) as D.
      set (k := len / 2 / tanh b).
      apply (is_derive_ext (fun x => (lo + len / 2) - k * tanh (u x))).
      * intros t. match goal with |- @eq _ ?a ?b => change (@eq R a b) end. unfold k, u. field; repeat split; assumption.
      * pose proof (is_derive_scal (fun x => tanh (u x)) x k _ D) as D2.
        pose proof (is_derive_minus (V := R_NormedModule) (fun _ => lo + len / 2) _ x _ _
                      (is_derive_const (V := R_NormedModule) (lo + len / 2) x) D2) as D3.
        eapply eq_rect; [exact D3|]. unfold minus, plus, opp, zero, scal, mult; cbn. unfold mult; cbn.
        unfold k. fold (u x). field; repeat split; assumption.
Qed.

Theorem c38_factor_positive : forall x beta lo len, 0 < eval_fac x beta lo len.
Proof.
  intros x b lo len. unfold eval_fac. destruct (Req_dec b 0) as [Hb|Hb].
  - rewrite Reqb_true by exact Hb. lra.
  - rewrite Reqb_false by exact Hb. destruct (tanh_sign b Hb) as (P & T).
    set (t := tanh (b * (1 - 2 * (x - lo) / len))).
    assert (-1 < t < 1) by apply tanh_lt1.
    replace (b * (1 - t * t) / tanh b) with ((b / tanh b) * (1 - t * t)) by (field; exact T).
    apply Rmult_lt_0_compat; [exact P|nra].
Qed.

Theorem c38_increasing : forall beta lo len x y, 0 < len -> x < y ->
  eval_coord x beta lo len < eval_coord y beta lo len.
Proof.
  intros b lo len x y Hl Hxy.
  destruct (MVT_gen (fun x => eval_coord x b lo len) x y (fun t => eval_fac t b lo len)) as (c & Hc & E).
  - intros t _. apply c38_derivative. lra.
  - intros t _. apply continuity_pt_filterlim. 
    apply (ex_derive_continuous (V := R_NormedModule) (fun x => eval_coord x b lo len) t).
    exists (eval_fac t b lo len). apply c38_derivative. lra.
  - pose proof (c38_factor_positive c b lo len).
    assert (0 < eval_fac c b lo len * (y - x)); [|lra]. apply Rmult_lt_0_compat; lra.
Qed.

(** Points stay in the channel. *)
Theorem c38_range : forall beta lo len x, 0 < len -> lo <= x <= lo + len ->
  lo <= eval_coord x beta lo len <= lo + len.
Proof.
  intros b lo len x Hl Hx. destruct (c38_ends b lo len ltac:(lra)) as (A & B & _). split.
  - rewrite <- A at 1. destruct (Req_dec lo x) as [->|]; [lra|]. apply Rlt_le, c38_increasing; lra.
  - rewrite <- B. destruct (Req_dec x (lo + len)) as [->|]; [lra|]. apply Rlt_le, c38_increasing; lra.
Qed.

(** The mesh is finest at the walls and coarsest in the middle. *)
Lemma fac_le b lo len x y : 0 < len -> b <> 0 ->
  (1 - 2 * (x - lo) / len) * (1 - 2 * (x - lo) / len) <=
  (1 - 2 * (y - lo) / len) * (1 - 2 * (y - lo) / len) ->
  eval_fac y b lo len <= eval_fac x b lo len.
Proof.
  intros Hl Hb Hs. unfold eval_fac. rewrite !Reqb_false by exact Hb.
  destruct (tanh_sign b Hb) as (P & T).
  assert (SQ : forall u v, u * u <= v * v -> tanh u * tanh u <= tanh v * tanh v).
  { assert (AB : forall u, tanh u * tanh u = tanh (Rabs u) * tanh (Rabs u)).
    { intros u. unfold Rabs. destruct (Rcase_abs u); [rewrite tanh_opp; ring|reflexivity]. }
    assert (SA : forall u, Rabs u * Rabs u = u * u).
    { intros u. unfold Rabs. destruct (Rcase_abs u); ring. }
    intros u v H. rewrite (AB u), (AB v). rewrite <- (SA u), <- (SA v) in H.
    pose proof (Rabs_pos u). pose proof (Rabs_pos v).
    assert (Rabs u <= Rabs v) by nra.
    assert (0 <= tanh (Rabs u)).
    { destruct (Req_dec (Rabs u) 0) as [->|]; [rewrite tanh_0; lra|].
      apply Rlt_le, tanh_pos. lra. }
    assert (tanh (Rabs u) <= tanh (Rabs v)).
    { destruct (Req_dec (Rabs u) (Rabs v)) as [->|]; [lra|]. apply Rlt_le, tanh_inc. lra. }
    nra. }
  set (p := 1 - 2 * (x - lo) / len) in *. set (q := 1 - 2 * (y - lo) / len) in *.
  assert (S : tanh (b * p) * tanh (b * p) <= tanh (b * q) * tanh (b * q)).
  { apply SQ. assert (0 < b * b) by nra. nra. }
  replace (b * (1 - tanh (b * q) * tanh (b * q)) / tanh b)
    with ((b / tanh b) * (1 - tanh (b * q) * tanh (b * q))) by (field; exact T).
  replace (b * (1 - tanh (b * p) * tanh (b * p)) / tanh b)
    with ((b / tanh b) * (1 - tanh (b * p) * tanh (b * p))) by (field; exact T).
  apply Rmult_le_compat_l; lra.
Qed.

Theorem c38_clustering : forall beta lo len x y, 0 < len -> beta <> 0 ->
  lo <= x <= y -> y <= lo + len / 2 ->
  eval_fac x beta lo len <= eval_fac y beta lo len /\
  eval_fac (2 * lo + len - x) beta lo len <= eval_fac (2 * lo + len - y) beta lo len.
Proof.
  intros b lo len x y Hl Hb Hx Hy.
  assert (A : eval_fac x b lo len <= eval_fac y b lo len).
  { apply fac_le; [exact Hl|exact Hb|].
    assert (U : forall t, 2 * (t - lo) / len = (t - lo) * (2 / len)) by (intros; field; lra).
    rewrite !U. assert (0 < 2 / len) by (apply Rdiv_lt_0_compat; lra).
    assert (H1 : (y - lo) * (2 / len) <= 1).
    { apply Rle_trans with ((len / 2) * (2 / len)); [apply Rmult_le_compat_r; lra|].
      right. field. lra. }
    assert (H2 : (x - lo) * (2 / len) <= (y - lo) * (2 / len)) by (apply Rmult_le_compat_r; lra).
    nra. }
  split; [exact A|].
  rewrite !(proj1 (proj2 (c38_symmetric b lo len _ ltac:(lra)))). exact A.
Qed.

(** *** The arrays the solver uses *)
(** Geometry: the domain consists of [n d] cells in direction d. *)
Definition good_geom (g : Z -> mdir) (n : Z -> Z) : Prop :=
  forall d, (0 < n d)%Z /\ 0 < mdx (g d) /\ mhi (g d) = mlo (g d) + IZR (n d) * mdx (g d).
(** Index of a point of the domain: between 0 and n-1, or n on the faces. *)
Definition in_range (l : mloc) (n : Z -> Z) (c : ivec) : Prop :=
  forall d, (d = 0 \/ d = 1 \/ d = 2)%Z ->
    (0 <= icomp c d)%Z /\ (icomp c d < n d + (if on_face l d then 1 else 0))%Z.

Lemma map_eps_pos : 0 < map_eps.
Proof. unfold map_eps. apply Rmult_lt_0_compat; [apply Rinv_0_lt_compat, pow_lt; lra|lra]. Qed.

Lemma inside_ok l d g n i : (0 < n)%Z -> 0 < mdx g -> mhi g = mlo g + IZR n * mdx g ->
  (0 <= i)%Z -> (i < n + (if on_face l d then 1 else 0))%Z ->
  inside l d g (mpos l d g i) = true /\ mlo g <= mpos l d g i <= mhi g.
Proof.
  intros Hn Hd Hh H0 H1. unfold inside, mpos. pose proof map_eps_pos as E.
  assert (I0 : 0 <= IZR i) by (apply IZR_le; lia).
  destruct (on_face l d).
  - assert (I1 : IZR i <= IZR n) by (apply IZR_le; lia).
    assert (0 <= (IZR i + 0) * mdx g) by (apply Rmult_le_pos; lra).
    assert ((IZR i + 0) * mdx g <= IZR n * mdx g) by (apply Rmult_le_compat_r; lra).
    rewrite (proj2 (Rleb_spec _ _)), (proj2 (Rleb_spec _ _)) by lra. split; [reflexivity|lra].
  - assert (I1 : IZR i + 1 <= IZR n) by (rewrite <- plus_IZR; apply IZR_le; lia).
    assert (0 < (IZR i + 1/2) * mdx g) by (apply Rmult_lt_0_compat; lra).
    assert ((IZR i + 1/2) * mdx g < IZR n * mdx g) by (apply Rmult_lt_compat_r; lra).
    rewrite (proj2 (Rltb_spec _ _)), (proj2 (Rltb_spec _ _)) by lra. split; [reflexivity|lra].
Qed.

Lemma in_domain_ok l g n c : good_geom g n -> in_range l n c ->
  in_domain l g c = true /\
  forall d, (d = 0 \/ d = 1 \/ d = 2)%Z -> mlo (g d) <= mpos l d (g d) (icomp c d) <= mhi (g d).
Proof.
  intros G Hc. assert (A : forall d, (d = 0 \/ d = 1 \/ d = 2)%Z ->
    inside l d (g d) (mpos l d (g d) (icomp c d)) = true /\
    mlo (g d) <= mpos l d (g d) (icomp c d) <= mhi (g d)).
  { intros d Hd. destruct (G d) as (G1 & G2 & G3). destruct (Hc d Hd). apply (inside_ok l d (g d) (n d)); assumption. }
  split; [|intros d Hd; apply A; exact Hd].
  unfold in_domain. pose proof (proj1 (A 0%Z ltac:(lia))) as A0. pose proof (proj1 (A 1%Z ltac:(lia))) as A1.
  pose proof (proj1 (A 2%Z ltac:(lia))) as A2. cbn in A0, A1, A2. rewrite A0, A1, A2. reflexivity.
Qed.

(** At every point of the domain, on cells, nodes and all faces, the stored factor is the
    derivative of the coordinate map there, the determinant is the product of the three
    factors, and all are positive. *)
Theorem c38_arrays : forall l g n c d, good_geom g n -> in_range l n c -> (d = 0 \/ d = 1 \/ d = 2)%Z ->
  is_derive (fun x => eval_coord x (mbeta (g d)) (mlo (g d)) (mhi (g d) - mlo (g d)))
    (mlo (g d) + (IZR (icomp c d) + (if on_face l d then 0 else 1/2)) * mdx (g d))
    (scale_fac l g c d) /\
  0 < scale_fac l g c d.
Proof.
  intros l g n c d G Hc Hd. destruct (in_domain_ok l g n c G Hc) as (D & _).
  unfold scale_fac. rewrite D. destruct (G d) as (G1 & G2 & G3). split.
  - apply c38_derivative. rewrite G3. assert (0 < IZR (n d)) by (apply IZR_lt; exact G1).
    assert (0 < IZR (n d) * mdx (g d)) by (apply Rmult_lt_0_compat; lra). lra.
  - apply c38_factor_positive.
Qed.
Theorem c38_determinant : forall l g c,
  scale_detJ l g c = scale_fac l g c 0 * scale_fac l g c 1 * scale_fac l g c 2 /\ 0 < scale_detJ l g c.
Proof.
  intros l g c. split; [reflexivity|]. unfold scale_detJ.
  assert (P : forall d, 0 < scale_fac l g c d).
  { intros d. unfold scale_fac. destruct (in_domain l g c); [apply c38_factor_positive|lra]. }
  repeat apply Rmult_lt_0_compat; apply P.
Qed.

(** Physical coordinates: when the physical domain is the computational one, nodes span
    exactly the domain, neighbours are in order, and cell centres lie between the nodes
    of their cell. *)
Theorem c38_coordinates : forall g n c d, good_geom g n -> (d = 0 \/ d = 1 \/ d = 2)%Z ->
  (forall d, mphys (g d) = mhi (g d)) -> in_range MNd n c ->
  mlo (g d) <= nu_coord MNd g c d <= mhi (g d) /\
  (icomp c d = 0%Z -> nu_coord MNd g c d = mlo (g d)) /\
  (icomp c d = n d -> nu_coord MNd g c d = mhi (g d)).
Proof.
  intros g n c d G Hd HP Hc. destruct (in_domain_ok MNd g n c G Hc) as (D & R).
  unfold nu_coord. rewrite D, HP. destruct (G d) as (G1 & G2 & G3).
  assert (0 < IZR (n d)) by (apply IZR_lt; exact G1).
  assert (L : 0 < mhi (g d) - mlo (g d)).
  { rewrite G3. assert (0 < IZR (n d) * mdx (g d)) by (apply Rmult_lt_0_compat; lra). lra. }
  destruct (c38_ends (mbeta (g d)) (mlo (g d)) (mhi (g d) - mlo (g d)) ltac:(lra)) as (A & B & _).
  specialize (R d Hd). split; [|split].
  - pose proof (c38_range (mbeta (g d)) (mlo (g d)) _ (mpos MNd d (g d) (icomp c d)) L ltac:(lra)). lra.
  - intros E. replace (mpos MNd d (g d) (icomp c d)) with (mlo (g d)); [exact A|].
    unfold mpos. cbn [on_face]. rewrite E. ring.
  - intros E. replace (mpos MNd d (g d) (icomp c d)) with (mlo (g d) + (mhi (g d) - mlo (g d))); [rewrite B; ring|].
    unfold mpos. cbn [on_face]. rewrite E, G3. ring.
Qed.

Theorem c38_order : forall l l' g n c c' d, good_geom g n -> (d = 0 \/ d = 1 \/ d = 2)%Z ->
  mlo (g d) < mphys (g d) -> in_range l n c -> in_range l' n c' ->
  mpos l d (g d) (icomp c d) < mpos l' d (g d) (icomp c' d) ->
  nu_coord l g c d < nu_coord l' g c' d.
Proof.
  intros l l' g n c c' d G Hd HP Hc Hc' Hlt.
  destruct (in_domain_ok l g n c G Hc) as (D & _). destruct (in_domain_ok l' g n c' G Hc') as (D' & _).
  unfold nu_coord. rewrite D, D'. apply c38_increasing; lra.
Qed.

(** With another physical length the coordinates and the factors belong to different
    maps: the domain does not end where asked and the factor is not the derivative. *)
Theorem c38_physical_refuted : exists g c n, good_geom g n /\ in_range MNd n c /\
  mlo (g 1%Z) < mphys (g 1%Z) /\ icomp c 1 = n 1%Z /\
  nu_coord MNd g c 1 < mphys (g 1%Z) /\
  ~ is_derive (fun x => eval_coord x (mbeta (g 1%Z)) (mlo (g 1%Z)) (mphys (g 1%Z) - mlo (g 1%Z)))
      (mpos MNd 1 (g 1%Z) (icomp c 1)) (scale_fac MNd g c 1).
Proof.
  set (g := fun _ : Z => MDir 0 1 1 1 2). set (n := fun _ : Z => 1%Z). set (c := IV 0 1 0).
  exists g, c, n.
  assert (G : good_geom g n) by (intros d; unfold g, n; cbn [mdx mhi mlo]; split; [lia|split; lra]).
  assert (Rg : in_range MNd n c) by (intros d [->|[->| ->]]; unfold n, c, on_face, icomp; cbn -[Z.lt Z.le]; lia).
  destruct (in_domain_ok MNd g n c G Rg) as (D & _).
  assert (T1 : 0 < tanh 1) by (apply tanh_pos; lra).
  split; [exact G|]. split; [exact Rg|]. split; [cbn; lra|]. split; [reflexivity|]. split.
  - unfold nu_coord. rewrite D. unfold eval_coord, mpos. cbn. rewrite Reqb_false by lra.
    replace (1 * (1 - 2 * (0 + (1 + 0) * 1 - 0) / (2 - 0))) with 0 by field. rewrite tanh_0.
    replace (0 / tanh 1) with 0 by (unfold Rdiv; ring). lra.
  - intros F. unfold scale_fac in F. rewrite D in F.
    assert (X : mpos MNd 1 (g 1%Z) (icomp c 1) = 1) by (unfold mpos, g, c; cbn; lra). rewrite X in F.
    cbn [g mbeta mlo mphys mhi] in F.
    pose proof (c38_derivative 1 0 (2 - 0) 1 ltac:(lra)) as F2.
    pose proof (is_derive_unique _ _ _ F) as U1. pose proof (is_derive_unique _ _ _ F2) as U2.
    cbn [g mbeta mlo mphys mhi] in U1. rewrite U2 in U1. revert U1.
    unfold eval_fac. rewrite !Reqb_false by lra.
    replace (1 * (1 - 2 * (1 - 0) / (2 - 0))) with 0 by field.
    replace (1 * (1 - 2 * (1 - 0) / (1 - 0))) with (- (1)) by field.
    rewrite tanh_0, tanh_opp. intros U1.
    assert (E : 1 = 1 - tanh 1 * tanh 1).
    { apply Rmult_eq_reg_r with (/ tanh 1); [|apply Rinv_neq_0_compat; lra].
      replace (1 * / tanh 1) with (1 * (1 - 0 * 0) / tanh 1) by (unfold Rdiv; ring).
      rewrite U1. field. lra. }
    nra.
Qed.

(** Constant mapping: spacing and factors agree everywhere. *)
Theorem c38_constant : forall l g fac c d i,
  const_coord l g fac c d - mlo (g d) = const_fac fac d * (mpos l d (g d) (icomp c d) - mlo (g d)) /\
  const_detJ fac = fac 0%Z * fac 1%Z * fac 2%Z /\
  (icomp c d = 0%Z -> on_face l d = true -> const_coord l g fac c d = mlo (g d)) /\
  (forall c', icomp c' d = (icomp c d + i)%Z ->
     const_coord l g fac c' d - const_coord l g fac c d = IZR i * (fac d * mdx (g d))).
Proof.
  intros l g fac c d i. unfold const_coord, mpos, const_detJ, const_fac.
  split; [ring|]. split; [reflexivity|]. split.
  - intros -> ->. ring.
  - intros c' ->. rewrite plus_IZR. ring.
Qed.

(** Non-vacuity: the default channel (stretched in y) on 4 x 8 x 2 cells. *)
Example c38_case :
  let g := fun d => if (d =? 1)%Z then MDir (-1) 1 (1/4) 3 1 else if (d =? 0)%Z then MDir 0 4 1 0 4 else MDir 0 2 1 0 2 in
  let n := fun d => if (d =? 1)%Z then 8%Z else if (d =? 0)%Z then 4%Z else 2%Z in
  good_geom g n /\ in_range MYf n (IV 3 8 1) /\ scale_fac MYf g (IV 3 8 1) 0 = 1 /\
  0 < scale_fac MYf g (IV 3 8 1) 1 < 3.
Proof.
  intros g n.
  assert (G : good_geom g n).
  { intros d. unfold g, n. destruct (d =? 1)%Z; [|destruct (d =? 0)%Z]; cbn [mdx mhi mlo]; (split; [lia|split; lra]). }
  assert (Rg : in_range MYf n (IV 3 8 1)) by (intros d [->|[->| ->]]; cbn; lia).
  destruct (in_domain_ok MYf g n _ G Rg) as (D & _).
  split; [exact G|]. split; [exact Rg|]. unfold scale_fac. rewrite D. split.
  - cbn. apply c38_identity.
  - split; [apply c38_factor_positive|]. unfold eval_fac, mpos. cbn. rewrite Reqb_false by lra.
    replace (3 * (1 - 2 * (-1 + (8 + 0) * (1 / 4) - -1) / (1 - -1))) with (- (3)) by field.
    rewrite tanh_opp. pose proof (tanh_lt1 3). pose proof (tanh_pos 3 ltac:(lra)).
    assert (T2 : 2/3 < tanh 3).
    { unfold tanh. pose proof (cosh_pos 3) as C. apply Rmult_lt_reg_r with (cosh 3); [exact C|].
      unfold Rdiv at 2. rewrite Rmult_assoc, Rinv_l, Rmult_1_r by lra. unfold sinh, cosh.
      pose proof (exp_ineq1 3 ltac:(lra)). pose proof (exp_pos (- (3))).
      assert (E1 : exp 3 * exp (- (3)) = 1) by (rewrite <- exp_plus, Rplus_opp_r; apply exp_0).
      assert (exp (- (3)) < 1/4) by nra. lra. }
    apply Rmult_lt_reg_r with (tanh 3); [lra|]. unfold Rdiv. rewrite Rmult_assoc, Rinv_l by lra. nra.
Qed.

Print Assumptions c38_identity.
Print Assumptions c38_ends.
Print Assumptions c38_symmetric.
Print Assumptions c38_derivative.
Print Assumptions c38_factor_positive.
Print Assumptions c38_increasing.
Print Assumptions c38_range.
Print Assumptions c38_clustering.
Print Assumptions c38_arrays.
Print Assumptions c38_determinant.
Print Assumptions c38_coordinates.
Print Assumptions c38_order.
Print Assumptions c38_physical_refuted.
Print Assumptions c38_constant.
