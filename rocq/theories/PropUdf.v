(** C109: prescribed fields at boundaries and at the start. *)
From Coq Require Import String List ZArith Bool Lia Lra.
From Verif Require Import Base BoxR BoxRFacts MeshMap VecSpace Inputs Udf UdfSpec.
Import ListNotations.
Open Scope R_scope.

Lemma reqb_true a b : Reqb a b = true <-> a = b.
Proof. unfold Reqb. destruct (Req_EM_T a b); split; congruence. Qed.
Lemma reqb_false a b : Reqb a b = false <-> a <> b.
Proof. unfold Reqb. destruct (Req_EM_T a b); split; congruence. Qed.
Lemma overwrite_nil {A} (l : list A) : overwrite [] l = l.
Proof. unfold overwrite. rewrite skipn_nil, app_nil_r. reflexivity. Qed.
Lemma getarr_nil {A} (s : sect A) k l : pp_getarr s k [] = Ret l <-> s k = Some l.
Proof. unfold pp_getarr. destruct (s k) as [x|]; [rewrite overwrite_nil|]; split; intros H; congruence. Qed.
Lemma overwrite_length {A} (r l : list A) : length (overwrite r l) = Nat.max (length r) (length l).
Proof. unfold overwrite. rewrite app_length, skipn_length. lia. Qed.

(** *** Components *)

(** A block of components gets the components of the prescribed value that belong to it and nothing else changes, for every
    block of every field and every part of a boundary. *)
Theorem c109_components : forall n dcomp orig value f c,
  ((dcomp <= c < dcomp + n)%nat -> fill n dcomp orig value f c = value (orig + (c - dcomp))%nat) /\
  (~ (dcomp <= c < dcomp + n)%nat -> fill n dcomp orig value f c = f c).
Proof.
  induction n as [|n IH]; intros dcomp orig value f c; cbn [fill]; [split; [lia|reflexivity]|].
  destruct (Nat.eqb_spec c (dcomp + n)) as [E|E]; split; intros H.
  - f_equal. lia.
  - lia.
  - apply IH. lia.
  - apply IH. lia.
Qed.

(** Profiles are taken at the middle between the faces of a cell; those of the cells of the domain lie within it and those of
    the cells around it outside. *)
Theorem c109_centre : forall lo dx i n, 0 < dx ->
  centre lo dx i - (lo + IZR i * dx) = lo + IZR (i + 1) * dx - centre lo dx i /\
  (lo < centre lo dx i < lo + IZR n * dx <-> (0 <= i < n)%Z).
Proof.
  intros lo dx i n D. unfold centre. split; [rewrite plus_IZR; lra|]. split.
  - intros [A B]. assert (0 < IZR i + 1 / 2) by (apply (Rmult_lt_reg_r dx); lra). assert (IZR i + 1 / 2 < IZR n) by (apply (Rmult_lt_reg_r dx); lra).
    split; [|apply lt_IZR; lra]. assert (-1 < i)%Z by (apply lt_IZR; lra). lia.
  - intros [A B]. apply IZR_le in A. assert (C : (i + 1 <= n)%Z) by lia. apply IZR_le in C. rewrite plus_IZR in C. split; nra.
Qed.

(** *** Linear profile *)

(** The inputs that are taken: a direction that is an axis, and both lists of values with as many values as the field has
    components. *)
Theorem c109_linear_taken : forall ints s lo hi n p, linear_of ints s lo hi n = Ret p <->
  exists d a b, given ints "direction" 2%Z = Z.of_nat d /\ (d <= 2)%nat /\ (n <= 3)%nat /\
    s "start_val"%string = Some a /\ s "stop_val"%string = Some b /\ length a = n /\ length b = n /\
    p = Linear d (given s "start" (lo d)) (given s "stop" (hi d)) a b.
Proof.
  intros ints s lo hi n p. unfold linear_of, pp_query, given.
  set (dz := match ints "direction"%string with Some (x :: _) => x | _ => 2%Z end).
  destruct (Nat.ltb_spec 3 n) as [L|L]; [split; [discriminate|intros (d & a & b & _ & _ & C & _); lia]|].
  destruct (Z.ltb_spec dz 0) as [L1|L1]; cbn [orb]; [split; [discriminate|intros (d & a & b & C & _); lia]|].
  destruct (Z.ltb_spec 2 dz) as [L2|L2]; [split; [discriminate|intros (d & a & b & C & C' & _); lia]|].
  split.
  - intros H. destruct (pp_getarr s "start_val" []) as [a| |] eqn:Ea; cbn [obind] in H; try discriminate.
    destruct (pp_getarr s "stop_val" []) as [b| |] eqn:Eb; cbn [obind] in H; try discriminate.
    destruct (Nat.eqb_spec (length a) n) as [N1|N1]; cbn [andb] in H; [|discriminate].
    destruct (Nat.eqb_spec (length b) n) as [N2|N2]; [|discriminate]. injection H as <-.
    exists (Z.to_nat dz), a, b. rewrite <- getarr_nil, <- getarr_nil. repeat split; try assumption; lia.
  - intros (d & a & b & D1 & D2 & _ & Ea & Eb & N1 & N2 & ->). apply getarr_nil in Ea, Eb. rewrite Ea, Eb. cbn [obind].
    rewrite N1, N2, Nat.eqb_refl. cbn [andb]. replace (Z.to_nat dz) with d by lia. reflexivity.
Qed.

(** With the start below the stop the profile is that of the manual at every height and for every component; it stays between
    its two values, and it has no jump. *)
Theorem c109_linear : forall p c, n_zmin p < n_zmax p ->
  let f0 := nth c (n_min p) 0 in let f1 := nth c (n_max p) 0 in
  exists v : R -> R, (forall z, linear_value p z c = Some (v z) /\ linear_profile (n_zmin p) (n_zmax p) f0 f1 z (v z) /\ Rmin f0 f1 <= v z <= Rmax f0 f1) /\
    (forall z z', Rabs (v z - v z') * (n_zmax p - n_zmin p) <= Rabs (f1 - f0) * Rabs (z - z')).
Proof.
  intros p c L f0 f1. set (x0 := n_zmin p) in *. set (x1 := n_zmax p) in *.
  exists (fun z => f0 + (f1 - f0) * (Rmax 0 (Rmin 1 ((z - x0) / (x1 - x0))))). assert (D : 0 < x1 - x0) by lra.
  assert (Q : forall z, (z - x0) / (x1 - x0) * (x1 - x0) = z - x0) by (intros z; field; lra).
  split.
  - intros z. unfold linear_value. fold f0 f1 x0 x1. specialize (Q z). set (q := (z - x0) / (x1 - x0)) in *.
    assert (B : Rmin f0 f1 <= f0 + (f1 - f0) * Rmax 0 (Rmin 1 q) <= Rmax f0 f1).
    { assert (0 <= Rmax 0 (Rmin 1 q) <= 1) by (unfold Rmax, Rmin; repeat (destruct (Rle_dec _ _)); split; lra).
      set (t := Rmax 0 (Rmin 1 q)) in *. unfold Rmin, Rmax. destruct (Rle_dec f0 f1); nra. }
    destruct (Rltb z x0) eqn:E0.
    { apply Rltb_spec in E0. assert (q < 0) by nra. assert (T : Rmax 0 (Rmin 1 q) = 0) by (unfold Rmax, Rmin; repeat destruct (Rle_dec _ _); lra). rewrite T in *.
      rewrite Rmult_0_r, Rplus_0_r in *. split; [reflexivity|]. split; [|exact B]. repeat split; intros; lra. }
    apply Rltb_false in E0. destruct (Rltb x1 z) eqn:E1.
    { apply Rltb_spec in E1. assert (1 < q) by nra. assert (T : Rmax 0 (Rmin 1 q) = 1) by (unfold Rmax, Rmin; repeat destruct (Rle_dec _ _); lra). rewrite T in *.
      split; [f_equal; ring|]. split; [|exact B]. repeat split; intros; lra. }
    apply Rltb_false in E1. destruct (Reqb x1 x0) eqn:E2; [apply reqb_true in E2; lra|].
    assert (0 <= q <= 1) by nra. assert (T : Rmax 0 (Rmin 1 q) = q) by (unfold Rmax, Rmin; repeat destruct (Rle_dec _ _); lra). rewrite T in *.
    split; [f_equal; unfold q; field; lra|]. split; [|exact B]. repeat split; intros; try lra. 
  - intros z z'. pose proof (Q z) as A. pose proof (Q z') as A'. set (q := (z - x0) / (x1 - x0)) in *. set (q' := (z' - x0) / (x1 - x0)) in *.
    set (t := Rmax 0 (Rmin 1 q)). set (t' := Rmax 0 (Rmin 1 q')).
    replace (f0 + (f1 - f0) * t - (f0 + (f1 - f0) * t')) with ((f1 - f0) * (t - t')) by ring. rewrite Rabs_mult.
    assert (T : Rabs (t - t') <= Rabs (q - q')).
    { unfold t, t', Rmax, Rmin. repeat destruct (Rle_dec _ _); unfold Rabs; repeat destruct (Rcase_abs _); lra. }
    replace (z - z') with ((q - q') * (x1 - x0)) by nra. rewrite (Rabs_mult (q - q')), (Rabs_right (x1 - x0)) by lra.
    rewrite Rmult_assoc. apply Rmult_le_compat_l; [apply Rabs_pos|]. apply Rmult_le_compat_r; [lra|exact T].
Qed.

(** With the start at or above the stop there is no ramp: below the start the first value holds and from there on the second,
    except that a cell at a start equal to the stop gets no number. *)
Theorem c109_linear_reversed_refuted : forall p c z, n_zmax p <= n_zmin p ->
  (z < n_zmin p -> linear_value p z c = Some (nth c (n_min p) 0)) /\
  (n_zmax p < n_zmin p -> n_zmin p <= z -> linear_value p z c = Some (nth c (n_max p) 0)) /\
  (n_zmax p = n_zmin p -> z = n_zmin p -> linear_value p z c = None).
Proof.
  intros p c z L. unfold linear_value. repeat split; intros.
  - apply Rltb_spec in H. rewrite H. reflexivity.
  - assert (Rltb z (n_zmin p) = false) as -> by (apply Rltb_false; lra). assert (Rltb (n_zmax p) z = true) as -> by (apply Rltb_spec; lra). reflexivity.
  - assert (Rltb z (n_zmin p) = false) as -> by (apply Rltb_false; lra). assert (Rltb (n_zmax p) z = false) as -> by (apply Rltb_false; lra).
    assert (Reqb (n_zmax p) (n_zmin p) = true) as -> by (apply reqb_true; lra). reflexivity.
Qed.

(** *** Power law *)

Lemma rmin_is a b : rmin a b = Rmin a b.
Proof. unfold rmin, Rmin, Rltb. destruct (Rlt_dec b a), (Rle_dec a b); lra. Qed.
Lemma rmax_is a b : rmax a b = Rmax a b.
Proof. unfold rmax, Rmax, Rltb. destruct (Rlt_dec a b), (Rle_dec a b); lra. Qed.
Lemma mag_scale v k : 0 <= k -> vmag (vscale v k) = vmag v * k.
Proof.
  intros K. unfold vmag, vmag_sqr, vscale; cbn [vx vy vz].
  replace (vx v * k * (vx v * k) + vy v * k * (vy v * k) + vz v * k * (vz v * k)) with ((vx v * vx v + vy v * vy v + vz v * vz v) * (k * k)) by ring.
  rewrite sqrt_mult by nra. rewrite sqrt_square by exact K. reflexivity.
Qed.

(** The velocity at a height is along the given one, with the speed of the manual's formula, and it is the given one at the
    reference height when the cutoffs allow it. *)
Theorem c109_power : forall ints s p, power_of ints s = Ret p -> forall zref,
  given s "zref" 0 = zref -> 0 < zref ->
  let u := w_vec p in let umin := given s "umin" 0 in let umax := given s "umax" 100 in let off := given s "zoffset" 0 in
  s "uref"%string = Some [vx u; vy u; vz u] /\
  (0 < vmag u -> 0 <= umin -> 0 <= umax -> forall z,
     (exists k, 0 <= k /\ power_value p z = vscale u k) /\
     vmag (power_value p z) = power_speed zref (given s "shear_exponent" 0) (vmag u) umin umax (z - off)) /\
  (umin <= vmag u <= umax -> 0 < vmag u -> power_value p (off + zref) = u).
Proof.
  intros ints s p H zref. unfold power_of, pp_query, pp_get in H. unfold given.
  destruct (s "zref"%string) as [[|zr ?]|]; cbn [obind] in H; try discriminate.
  destruct (s "shear_exponent"%string) as [[|e ?]|]; cbn [obind] in H; try discriminate.
  destruct (pp_getarr s "uref" []) as [uu| |] eqn:Eu; cbn [obind] in H; try discriminate. apply getarr_nil in Eu.
  destruct uu as [|a [|b [|c [|]]]]; try discriminate.
  set (umin := match s "umin"%string with Some (x :: _) => x | _ => 0 end) in *.
  set (umax := match s "umax"%string with Some (x :: _) => x | _ => 100 end) in *.
  set (off := match s "zoffset"%string with Some (x :: _) => x | _ => 0 end) in *.
  destruct (_ || _)%bool; [discriminate|]. injection H as <-. intros <- Z0. cbn [w_vec vx vy vz]. split; [exact Eu|].
  change (sqrt (a * a + b * b + c * c)) with (vmag (V3 a b c)). set (u := V3 a b c). set (m := vmag u).
  assert (F : forall x, 0 < m -> x / m * m = x) by (intros; field; lra).
  assert (MX : forall x y k, 0 <= k -> Rmax (k * x) (k * y) = k * Rmax x y) by (intros; rewrite RmaxRmult by assumption; reflexivity).
  assert (MN : forall x y k, 0 <= k -> Rmin (k * x) (k * y) = k * Rmin x y).
  { intros x y k K. unfold Rmin. destruct (Rle_dec (k * x) (k * y)), (Rle_dec x y); nra. }
  split.
  - intros M U1 U2 z. unfold power_value; cbn [w_off w_zref w_exp w_min w_max w_vec]. rewrite rmin_is, rmax_is.
    set (pf := if Rltb 0 (z - off) then Rpower ((z - off) / zr) e else 0).
    assert (P0 : 0 <= pf) by (unfold pf; destruct (Rltb 0 (z - off)); [left; apply exp_pos|lra]).
    assert (K : 0 <= Rmin (Rmax pf (umin / m)) (umax / m)).
    { apply Rmin_glb; [eapply Rle_trans; [exact P0|apply Rmax_l]|]. apply Rmult_le_pos; [exact U2|left; apply Rinv_0_lt_compat, M]. }
    split; [eexists; split; [exact K|reflexivity]|]. rewrite mag_scale by exact K. fold m. unfold power_speed.
    rewrite <- MN by lra. rewrite <- MX by lra. rewrite (Rmult_comm m (umin / m)), (Rmult_comm m (umax / m)), !F by exact M.
    unfold pf, Rltb. destruct (Rlt_dec 0 (z - off)); reflexivity.
  - intros [B1 B2] M. unfold power_value; cbn [w_off w_zref w_exp w_min w_max w_vec]. rewrite rmin_is, rmax_is.
    replace (off + zr - off) with zr by ring. assert (Rltb 0 zr = true) as -> by (apply Rltb_spec; exact Z0).
    replace (zr / zr) with 1 by (field; lra). unfold Rpower. rewrite ln_1, Rmult_0_r, exp_0.
    assert (umin / m <= 1) by (apply (Rmult_le_reg_r m); [exact M|rewrite F by exact M; lra]).
    assert (1 <= umax / m) by (apply (Rmult_le_reg_r m); [exact M|rewrite F by exact M; lra]).
    rewrite Rmax_left by lra. rewrite Rmin_left by lra. unfold vscale, u; cbn [vx vy vz]. f_equal; ring.
Qed.

(** *** Rankine vortex *)

(** Around its centre the flow turns with the speed of a Rankine vortex, never faster than the given maximum and that fast at
    the given radius; the rest of the velocity is the reference one. *)
Theorem c109_vortex : forall p x y t, 0 < k_rmax p ->
  let cx := nth 0 (k_start p) 0 + vx (k_ref p) * t in let cy := nth 1 (k_start p) 0 + vy (k_ref p) * t in
  let r := sqrt ((x - cx) * (x - cx) + (y - cy) * (y - cy)) in
  0 < r -> exists v, rankine_value p x y t = Some v /\ vz v = vz (k_ref p) /\
  let ux := vx v - vx (k_ref p) in let uy := vy v - vy (k_ref p) in
  ux * (x - cx) + uy * (y - cy) = 0 /\
  (x - cx) * uy - (y - cy) * ux = r * rankine_speed (k_umax p) (k_rmax p) r /\
  ux * ux + uy * uy = rankine_speed (k_umax p) (k_rmax p) r * rankine_speed (k_umax p) (k_rmax p) r /\
  (0 <= k_umax p -> 0 <= rankine_speed (k_umax p) (k_rmax p) r <= k_umax p) /\
  (r = k_rmax p -> rankine_speed (k_umax p) (k_rmax p) r = k_umax p).
Proof.
  intros p x y t R0 cx cy r r0. unfold rankine_value. fold cx cy. fold r.
  assert (Reqb r 0 = false) as -> by (apply reqb_false; lra). eexists. split; [reflexivity|]. cbn [vx vy vz]. split; [ring|].
  assert (RR : r * r = (x - cx) * (x - cx) + (y - cy) * (y - cy)) by (unfold r; apply sqrt_sqrt; pose proof (Rle_0_sqr (x - cx)); pose proof (Rle_0_sqr (y - cy)); unfold Rsqr in *; lra).
  assert (SP : k_umax p * (if Rleb r (k_rmax p) then r / k_rmax p else k_rmax p / r) = rankine_speed (k_umax p) (k_rmax p) r).
  { unfold rankine_speed, Rleb. destruct (Rle_dec r (k_rmax p)); unfold Rdiv; ring. }
  rewrite SP. set (w := rankine_speed _ _ _) in *. set (a := x - cx) in *. set (b := y - cy) in *.
  assert (W : (0 <= k_umax p -> 0 <= w <= k_umax p) /\ (r = k_rmax p -> w = k_umax p)).
  { unfold w, rankine_speed. destruct (Rle_dec r (k_rmax p)) as [L|L].
    - split; [|intros ->; field; lra]. intros U. assert (0 <= r / k_rmax p <= 1).
      { split; [apply Rmult_le_pos; [lra|left; apply Rinv_0_lt_compat, R0]|]. apply (Rmult_le_reg_r (k_rmax p)); [exact R0|].
        unfold Rdiv. rewrite Rmult_assoc, Rinv_l by lra. lra. }
      replace (k_umax p * r / k_rmax p) with (k_umax p * (r / k_rmax p)) by (field; lra). nra.
    - split; [|intros E; lra]. intros U. assert (0 <= k_rmax p / r <= 1).
      { split; [apply Rmult_le_pos; [lra|left; apply Rinv_0_lt_compat, r0]|]. apply (Rmult_le_reg_r r); [exact r0|].
        unfold Rdiv. rewrite Rmult_assoc, Rinv_l by lra. lra. }
      replace (k_umax p * k_rmax p / r) with (k_umax p * (k_rmax p / r)) by (field; lra). nra. }
  split; [field; lra|]. split.
  { transitivity (w * (r * r) / r); [rewrite RR; field; lra|field; lra]. }
  split; [|exact W].
  transitivity (w * w * ((a * a + b * b) / (r * r))); [field; lra|]. rewrite <- RR. field. lra.
Qed.

(** The vortex is carried along by the reference velocity without changing. *)
Theorem c109_vortex_moves : forall p x y t0 t,
  rankine_value p (x + vx (k_ref p) * t) (y + vy (k_ref p) * t) (t0 + t) = rankine_value p x y t0.
Proof.
  intros p x y t0 t. unfold rankine_value.
  replace (x + vx (k_ref p) * t - (nth 0 (k_start p) 0 + vx (k_ref p) * (t0 + t))) with (x - (nth 0 (k_start p) 0 + vx (k_ref p) * t0)) by ring.
  replace (y + vy (k_ref p) * t - (nth 1 (k_start p) 0 + vy (k_ref p) * (t0 + t))) with (y - (nth 1 (k_start p) 0 + vy (k_ref p) * t0)) by ring.
  reflexivity.
Qed.

(** A cell whose centre is the centre of the vortex gets no number, in every vortex and at every time. *)
Theorem c109_vortex_centre_refuted : forall p t,
  rankine_value p (nth 0 (k_start p) 0 + vx (k_ref p) * t) (nth 1 (k_start p) 0 + vy (k_ref p) * t) t = None.
Proof.
  intros p t. unfold rankine_value. rewrite !Rminus_diag_eq by reflexivity.
  replace (0 * 0 + 0 * 0) with 0 by ring. rewrite sqrt_0. assert (Reqb 0 0 = true) as -> by (apply reqb_true; reflexivity). reflexivity.
Qed.

(** What is read: the reference velocity, of which missing components are zero, the maximum speed, the radius, and those
    coordinates of the start that are given. *)
Theorem c109_vortex_taken : forall incflo s v, incflo "velocity"%string = Some v -> (length v <= 3)%nat ->
  let loc := match s "start_location"%string with Some l => l | None => [] end in
  ((length loc <= 3)%nat -> exists p, rankine_of incflo s = Ret p /\
     k_umax p = given s "Umax" 15 /\ k_rmax p = given s "Rmax" 125 /\
     k_ref p = V3 (nth 0 v 0) (nth 1 v 0) (nth 2 v 0) /\ (forall i x, nth_error loc i = Some x -> nth i (k_start p) 0 = x)) /\
  ((3 < length loc)%nat -> rankine_of incflo s = UB).
Proof.
  intros incflo s v E L loc. unfold rankine_of, pp_getarr. rewrite E. cbn [obind].
  assert (V : overwrite [0; 0; 0] v = [nth 0 v 0; nth 1 v 0; nth 2 v 0]).
  { destruct v as [|a [|b [|c [|]]]]; try reflexivity. cbn [length] in L. lia. }
  rewrite V. cbn beta iota zeta. assert (LL : pp_queryarr s "start_location" [] = loc).
  { unfold pp_queryarr, loc. destruct (s "start_location"%string); [apply overwrite_nil|reflexivity]. }
  rewrite LL. destruct (Nat.ltb_spec 3 (length loc)) as [G|G]; split; intros H; try lia; [reflexivity|].
  eexists. split; [reflexivity|]. repeat split. intros i x J. cbn [k_start]. unfold overwrite.
  rewrite app_nth1 by (apply nth_error_Some; congruence). apply nth_error_nth. exact J.
Qed.

(** The manual puts the vortex ten given radii before the origin when no start is given.  It is put ten default radii before
    it, whatever radius is given. *)
Theorem c109_start_refuted : forall incflo s v, incflo "velocity"%string = Some v -> (length v <= 3)%nat ->
  s "start_location"%string = None ->
  exists p, rankine_of incflo s = Ret p /\ k_rmax p = given s "Rmax" 125 /\ nth 0 (k_start p) 0 = -1250 /\
  (given s "Rmax" 125 <> 125 -> nth 0 (k_start p) 0 <> -10 * k_rmax p).
Proof.
  intros incflo s v E L N. unfold rankine_of, pp_getarr. rewrite E. cbn [obind].
  assert (V : overwrite [0; 0; 0] v = [nth 0 v 0; nth 1 v 0; nth 2 v 0]).
  { destruct v as [|a [|b [|c [|]]]]; try reflexivity. cbn [length] in L. lia. }
  rewrite V. cbn beta iota zeta. unfold pp_queryarr. rewrite N. cbn [length Nat.ltb Nat.leb]. eexists. split; [reflexivity|].
  split; [reflexivity|]. cbn. split; [lra|]. unfold given, pp_query. intros D C. apply D. cbn in C. lra.
Qed.

(** *** Two layers *)

(** Above the division the horizontal velocity of the top layer holds and below it that of the bottom one; at time zero, and
    only then, it is multiplied by the perturbation. *)
Theorem c109_layers : forall s t b p, s "top_vel"%string = Some t -> s "bottom_vel"%string = Some b -> layers_of s = Ret p ->
  forall z time c, (c < 2)%nat ->
  let v := layers_value p z time in let part := given s "z_partition" (1 / 2) in let f := given s "init_perturb" 1 in
  let at_ c := match c with O => vx v | _ => vy v end in
  at_ c = nth c (if Rle_dec part z then t else b) 0 * (if Req_EM_T time 0 then f else 1).
Proof.
  intros s t b p Et Eb H z time c C. unfold layers_of, pp_getarr in H. rewrite Et, Eb in H. cbn [obind] in H.
  destruct (Nat.eqb_spec (length (overwrite [0; 0; 0] t)) 3) as [Lt|]; cbn [andb] in H; [|discriminate].
  destruct (Nat.eqb_spec (length (overwrite [0; 0; 0] b)) 3) as [Lb|]; cbn [andb] in H; [|discriminate]. injection H as <-.
  unfold layers_value, given, pp_query; cbn [y_top y_bottom y_part y_pert]. unfold Rleb, Reqb.
  assert (O : forall l, (c < 2)%nat -> nth c (overwrite [0; 0; 0] l) 0 = nth c l 0).
  { intros l K. destruct l as [|? [|? [|? ?]]]; destruct c as [|[|]]; try reflexivity; lia. }
  pose proof (O t C) as Ot. pose proof (O b C) as Ob. clear O.
  destruct (Rle_dec _ z), (Req_EM_T time 0); destruct c as [|[|]]; try lia; cbn [vx vy vz]; (rewrite Ot || rewrite Ob); ring.
Qed.

(** The third component of the velocity of a layer is read and never used. *)
Theorem c109_layers_vertical_refuted : forall p z time, vz (layers_value p z time) = 0.
Proof. intros p z time. unfold layers_value. destruct (Reqb time 0); reflexivity. Qed.

(** Lists that are too short are taken, with zeros for what is missing; only lists that are too long are refused. *)
Theorem c109_short_refuted : forall s t b, s "top_vel"%string = Some t -> s "bottom_vel"%string = Some b ->
  ((exists p, layers_of s = Ret p) <-> (length t <= 3)%nat /\ (length b <= 3)%nat).
Proof.
  intros s t b Et Eb. unfold layers_of, pp_getarr. rewrite Et, Eb. cbn [obind]. rewrite !overwrite_length. cbn [length].
  destruct (Nat.eqb_spec (Nat.max 3 (length t)) 3), (Nat.eqb_spec (Nat.max 3 (length b)) 3); cbn [andb]; split.
  all: try (intros [p K]; discriminate). all: try (intros; eauto; fail). all: intros; lia.
Qed.

(** *** Constant values *)

(** A value given for the field alone holds; without it the one among the general options does; without both the run stops. *)
Theorem c109_const : forall incflo own name n v, length v = n ->
  (own "value"%string = Some v -> (forall l, incflo name = Some l -> (length l <= n)%nat) -> const_of incflo own name n = Ret v) /\
  (own "value"%string = None -> incflo name = Some v -> const_of incflo own name n = Ret v) /\
  (own "value"%string = None -> incflo name = None -> (0 < n)%nat -> const_of incflo own name n = Abort).
Proof.
  intros incflo own name n v L. unfold const_of, pp_queryarr. repeat split.
  - intros -> H. assert (O : overwrite (match incflo name with Some l => overwrite [] l | None => [] end) v = v).
    { unfold overwrite at 1. destruct (incflo name) as [l|]; [|rewrite skipn_nil; apply app_nil_r].
      rewrite overwrite_nil, skipn_all2, app_nil_r; [reflexivity|]. specialize (H l eq_refl). lia. }
    rewrite O, L, Nat.eqb_refl. reflexivity.
  - intros -> ->. rewrite overwrite_nil, L, Nat.eqb_refl. reflexivity.
  - intros -> -> P. cbn [length]. destruct n; [lia|reflexivity].
Qed.

(** A list for the field alone that is too short is not refused when the general options have a full one: the field gets a
    mixture of both.  One that is right is refused when the general options have a longer one. *)
Theorem c109_const_mixed_refuted : forall incflo own name a b, incflo name = Some a -> own "value"%string = Some b ->
  (const_of incflo own name (Nat.max (length a) (length b)) = Ret (b ++ skipn (length b) a)%list) /\
  ((length b < length a)%nat -> const_of incflo own name (length b) = Abort).
Proof.
  intros incflo own name a b Ea Eb. unfold const_of, pp_queryarr. rewrite Ea, Eb, overwrite_nil, overwrite_length.
  split; [rewrite Nat.eqb_refl; reflexivity|]. intros L. destruct (Nat.eqb_spec (Nat.max (length a) (length b)) (length b)); [lia|reflexivity].
Qed.

(** *** Cases that meet the hypotheses *)

Definition ex_sect : sect R := fun k =>
  if String.eqb k "start_val" then Some [1] else if String.eqb k "stop_val" then Some [5] else
  if String.eqb k "start" then Some [0] else if String.eqb k "stop" then Some [4] else
  if String.eqb k "zref" then Some [10] else if String.eqb k "shear_exponent" then Some [2] else
  if String.eqb k "uref" then Some [3; 4; 0] else if String.eqb k "velocity" then Some [10] else
  if String.eqb k "Rmax" then Some [50] else if String.eqb k "top_vel" then Some [1; 2; 3] else
  if String.eqb k "bottom_vel" then Some [-1; -2] else None.
Example c109_linear_example : exists p, linear_of (fun _ => None) ex_sect (fun _ => 0) (fun _ => 8) 1 = Ret p /\ n_zmin p < n_zmax p /\
  linear_value p 3 0 = Some 4.
Proof.
  eexists. split; [reflexivity|]. cbn. split; [lra|]. unfold linear_value; cbn.
  assert (Rltb 3 0 = false) as -> by (apply Rltb_false; lra). assert (Rltb 4 3 = false) as -> by (apply Rltb_false; lra).
  assert (Reqb 4 0 = false) as -> by (apply reqb_false; lra). f_equal. field.
Qed.
Example c109_power_example : exists p, power_of (fun _ => None) ex_sect = Ret p /\ given ex_sect "zref" 0 = 10 /\ vmag (w_vec p) = 5.
Proof.
  eexists. split; [reflexivity|]. split; [reflexivity|]. cbn. unfold vmag, vmag_sqr; cbn.
  replace (3 * 3 + 4 * 4 + 0 * 0) with (5 * 5) by ring. apply sqrt_square. lra.
Qed.
Example c109_vortex_example : exists p, rankine_of ex_sect ex_sect = Ret p /\ 0 < k_rmax p /\ nth 0 (k_start p) 0 <> -10 * k_rmax p.
Proof. eexists. split; [reflexivity|]. cbn. split; lra. Qed.
Example c109_layers_example : exists p, layers_of ex_sect = Ret p /\ y_bottom p = [-1; -2; 0].
Proof. eexists. split; reflexivity. Qed.
Example c109_const_example : const_of (fun k => if String.eqb k "velocity" then Some [1; 2; 3] else None) (fun _ => Some [7]) "velocity" 3 = Ret [7; 2; 3].
Proof. reflexivity. Qed.

Print Assumptions c109_components.
Print Assumptions c109_centre.
Print Assumptions c109_linear_taken.
Print Assumptions c109_linear.
Print Assumptions c109_linear_reversed_refuted.
Print Assumptions c109_power.
Print Assumptions c109_vortex.
Print Assumptions c109_vortex_moves.
Print Assumptions c109_vortex_centre_refuted.
Print Assumptions c109_vortex_taken.
Print Assumptions c109_start_refuted.
Print Assumptions c109_layers.
Print Assumptions c109_layers_vertical_refuted.
Print Assumptions c109_short_refuted.
Print Assumptions c109_const.
Print Assumptions c109_const_mixed_refuted.
