(** C86: initial fields of an atmospheric boundary layer. *)
From Verif Require Import BoxR BoxRFacts VecSpace ABLInit ABLInitSpec ABLInitProofs.
Local Open Scope R_scope.

Lemma theta_bump S I p random : s_perturb_theta S = given (in_perturb_theta I) false -> s_cutoff S = given (in_cutoff I) (10 ^ 16) ->
  s_amplitude S = given (in_amplitude I) (8 / 10) -> theta_start S p random 0 = bump I p random.
Proof.
  intros A B C. unfold theta_start, bump. rewrite A, B, C. destruct (given _ false); [|reflexivity].
  destruct (Rltb (vz p) _) eqn:E, (Rlt_dec (vz p) _) as [L|L]; try reflexivity; exfalso; [apply Rltb_spec in E|apply Rltb_false in E]; lra.
Qed.

(** The input file without a profile: density, temperature and wind of every cell up to the top of the table. *)
Theorem c86_input_file : forall I D p random,
  in_profile I = None -> given (in_wind_profile I) false = false ->
  let T := combine (in_heights I) (in_values I) in
  length (in_heights I) = length (in_values I) -> T <> [] -> rises T -> vz p <= hgt T (length T - 1) ->
  exists S f, configure I = Ret S /\ init_cell S D p random = Ret f /\
    f_rho f = given (in_density2 I) (in_density I) /\
    table_value T (vz p) (f_theta f - bump I p random) /\
    f_vel f = perturbed I D p (wind I D p).
Proof.
  intros I D p random NP NW T L N H Z. unfold configure. rewrite NP. unfold from_inputfile. rewrite (proj2 (Nat.eqb_eq _ _) L), NW. fold T.
  eexists. eexists. split; [reflexivity|]. unfold init_cell, means. cbn [s_profile s_wind_profile s_rho read_rho obind s_theta].
  assert (F : first_value T = Ret (val T 0)) by (destruct T as [|[a b] T']; [contradiction|reflexivity]). rewrite F. cbn [obind]. split; [reflexivity|].
  split; [|split].
  - cbn [s_perturb_vel]. destruct (given (in_perturb_vel I) true); cbn; destruct (in_density2 I); reflexivity.
  - match goal with |- table_value _ _ (f_theta ?f - _) => assert (E : f_theta f = bump I p random + scan T (vz p) (val T 0)) end.
    { cbn [s_perturb_vel]. destruct (given (in_perturb_vel I) true); cbn [f_theta]; f_equal; apply theta_bump; reflexivity. }
    rewrite E. replace (bump I p random + scan T (vz p) (val T 0) - bump I p random) with (scan T (vz p) (val T 0)) by ring.
    apply scan_ok; [exact H|destruct T; [contradiction|cbn; lia]|exact Z].
  - cbn [s_perturb_vel s_linear s_timetable s_velocity s_top s_bottom]. unfold perturbed.
    assert (W : (if given (in_linear I) false then
        V3 (vx (in_bottom I) + vz p * (vx (in_top I) - vx (in_bottom I)) / (vz (d_hi D) - vz (d_lo D)))
           (vy (in_bottom I) + vz p * (vy (in_top I) - vy (in_bottom I)) / (vz (d_hi D) - vz (d_lo D)))
           (vz (in_bottom I) + vz p * (vz (in_top I) - vz (in_bottom I)) / (vz (d_hi D) - vz (d_lo D)))
        else match (match in_timetable I with Some (s, a) => Some (s, radians a) | None => None end) with
             | Some (s, a) => V3 (s * cos a) (s * sin a) 0 | None => in_velocity I end) = wind I D p).
    { unfold wind. destruct (given (in_linear I) false).
      - unfold vadd, vscale, vsub. cbn. f_equal; unfold Rdiv; ring.
      - destruct (in_timetable I) as [[s a]|]; [|reflexivity]. unfold radians. reflexivity. }
    destruct (given (in_perturb_vel I) true); cbn [f_vel]; rewrite W; [|reflexivity]. rewrite waves_spec. reflexivity.
Qed.
(** With a profile file: wind and temperature follow their tables in the height above the terrain, everywhere. *)
Theorem c86_profile_file : forall I D p random,
  in_profile I = None -> in_wind_profile I = Some true -> in_rans I <> [] -> rises (column I rl_u) ->
  let T := combine (in_heights I) (in_values I) in
  length (in_heights I) = length (in_values I) -> T <> [] -> rises T ->
  exists S f u v, configure I = Ret S /\ init_cell S D p random = Ret f /\
    f_rho f = given (in_density2 I) (in_density I) /\
    table_value T (height_above I D p) (f_theta f - bump I p random) /\
    table_value (column I rl_u) (height_above I D p) u /\ table_value (column I rl_v) (height_above I D p) v /\
    f_vel f = perturbed I D p (V3 u v 0).
Proof.
  intros I D p random NP W NR HR T L N H. unfold configure. rewrite NP. unfold from_inputfile. rewrite (proj2 (Nat.eqb_eq _ _) L), W. fold T. cbn [given].
  assert (Z : rmax (0.5 * d_dz D) (vz p - match in_terrain I with Some f => f (vx p) (vy p) | None => 0 end) = height_above I D p).
  { unfold height_above. rewrite rmax_spec, half_dot. f_equal. lra. }
  assert (HV : rises (column I rl_v)).
  { intros i Li. unfold column in *. rewrite map_length in Li. specialize (HR i). rewrite map_length in HR. specialize (HR Li). unfold hgt in *.
    rewrite (nth_indep _ _ (rl_h (RL 0 0 0 0 0), rl_v (RL 0 0 0 0 0))), (map_nth (fun l => (rl_h l, rl_v l))) by (rewrite map_length; lia).
    rewrite (nth_indep (map (fun l => (rl_h l, rl_v l)) (in_rans I)) _ (rl_h (RL 0 0 0 0 0), rl_v (RL 0 0 0 0 0)) (n := S i)) by (rewrite map_length; lia).
    rewrite (map_nth (fun l => (rl_h l, rl_v l))).
    rewrite (nth_indep _ _ (rl_h (RL 0 0 0 0 0), rl_u (RL 0 0 0 0 0))), (map_nth (fun l => (rl_h l, rl_u l))) in HR by (rewrite map_length; lia).
    rewrite (nth_indep (map (fun l => (rl_h l, rl_u l)) (in_rans I)) _ (rl_h (RL 0 0 0 0 0), rl_u (RL 0 0 0 0 0)) (n := S i)) in HR by (rewrite map_length; lia).
    rewrite (map_nth (fun l => (rl_h l, rl_u l))) in HR. exact HR. }
  assert (CN : forall g, column I g <> []) by (intros g; unfold column; destruct (in_rans I); [contradiction|discriminate]).
  destruct (interp_ok T (height_above I D p) H N) as (th & Eth & Vth).
  destruct (interp_ok (column I rl_u) (height_above I D p) HR (CN rl_u)) as (u & Eu & Vu).
  destruct (interp_ok (column I rl_v) (height_above I D p) HV (CN rl_v)) as (v & Ev & Vv).
  eexists. eexists. exists u, v. split; [reflexivity|]. unfold init_cell, means. cbn [s_profile s_wind_profile s_rho read_rho obind s_theta s_rans].
  unfold above_ground, rans_table. cbn [s_terrain s_rans]. rewrite Z.
  assert (Q : match T with [] => first_value T | _ :: _ => interp T (height_above I D p) end = Ret th) by (rewrite <- Eth; destruct T; [contradiction|reflexivity]). rewrite Q. cbn [obind].
  assert (Qu : match in_rans I with [] => first_value (map (fun l => (rl_h l, rl_u l)) (in_rans I)) | _ :: _ => interp (map (fun l => (rl_h l, rl_u l)) (in_rans I)) (height_above I D p) end = Ret u)
    by (rewrite <- Eu; unfold column; destruct (in_rans I); [contradiction|reflexivity]). rewrite Qu. cbn [obind].
  assert (Qv : match in_rans I with [] => first_value (map (fun l => (rl_h l, rl_v l)) (in_rans I)) | _ :: _ => interp (map (fun l => (rl_h l, rl_v l)) (in_rans I)) (height_above I D p) end = Ret v)
    by (rewrite <- Ev; unfold column; destruct (in_rans I); [contradiction|reflexivity]). rewrite Qv. cbn [obind].
  split; [reflexivity|]. cbn [s_perturb_vel]. split; [|split; [|split; [exact Vu|split; [exact Vv|]]]].
  - destruct (given (in_perturb_vel I) true); cbn; destruct (in_density2 I); reflexivity.
  - match goal with |- table_value _ _ (f_theta ?f - _) => assert (E : f_theta f = bump I p random + th) end.
    { destruct (given (in_perturb_vel I) true); cbn [f_theta]; f_equal; apply theta_bump; reflexivity. }
    rewrite E. replace (bump I p random + th - bump I p random) with th by ring. exact Vth.
  - unfold perturbed. assert (E0 : vadd vzero (V3 u v 0) = V3 u v 0) by (unfold vadd, vzero; cbn; f_equal; ring).
    destruct (given (in_perturb_vel I) true); cbn [f_vel]; rewrite E0; [|reflexivity]. rewrite waves_spec. reflexivity.
Qed.
(** A NetCDF profile: wind and temperature follow the tables (the density is missing, see below). *)
Theorem c86_netcdf_partial : forall I P D p random rho, in_profile I = Some P ->
  np_theta P <> [] -> np_u P <> [] -> np_v P <> [] -> rises (np_theta P) -> rises (np_u P) -> rises (np_v P) ->
  exists S f u v, configure I = Ret S /\ init_cell (with_density S rho) D p random = Ret f /\ f_rho f = rho /\
    table_value (np_theta P) (vz p) (f_theta f) /\ table_value (np_u P) (vz p) u /\ table_value (np_v P) (vz p) v /\
    f_vel f = V3 (u + wave 1 50 4 (vy (d_hi D) - vy (d_lo D)) (vz p) (vy p - vy (d_lo D)))
                 (v + wave 1 50 4 (vx (d_hi D) - vx (d_lo D)) (vz p) (vx p - vx (d_lo D))) 0.
Proof.
  intros I P D p random rho EP N1 N2 N3 H1 H2 H3. unfold configure. rewrite EP.
  destruct (interp_ok _ (vz p) H1 N1) as (th & E1 & V1). destruct (interp_ok _ (vz p) H2 N2) as (u & E2 & V2). destruct (interp_ok _ (vz p) H3 N3) as (v & E3 & V3').
  eexists. eexists. exists u, v. split; [reflexivity|]. unfold init_cell, means. cbn [with_density from_netcdf s_profile s_rho read_rho obind].
  rewrite E1, E2, E3. cbn [obind s_perturb_vel]. split; [reflexivity|]. cbn [f_rho f_theta f_vel]. split; [reflexivity|]. split; [|split; [exact V2|split; [exact V3'|]]].
  - unfold theta_start. cbn. rewrite Rplus_0_l. exact V1.
  - rewrite waves_spec. unfold vadd, vzero. cbn. f_equal; ring.
Qed.

(** ** The waves *)

(** They are nowhere larger than asked, reach that at the reference height and vanish on the ground. *)
Theorem c86_waves_size : forall amp ref n len z s, 0 < ref ->
  Rabs (wave amp ref n len z s) <= Rabs amp /\ wave amp ref n len ref 0 = amp /\ wave amp ref n len 0 s = 0.
Proof.
  intros amp ref n len z s R. split; [|split].
  - unfold wave. set (q := z / ref). pose proof (hump_abs q) as H. pose proof (COS_bound (2 * PI * (n * (s / len)))) as C. set (c := cos _) in *.
    replace (amp * q * exp (1 / 2 - q * q / 2) * c) with (amp * ((q * exp (1 / 2 - q * q / 2)) * c)) by ring. rewrite Rabs_mult, (Rabs_mult _ c).
    assert (Rabs c <= 1) by (apply Rabs_le; lra). pose proof (Rabs_pos amp). pose proof (Rabs_pos c). pose proof (Rabs_pos (q * exp (1 / 2 - q * q / 2))).
    assert (Rabs (q * exp (1 / 2 - q * q / 2)) * Rabs c <= 1) by nra. nra.
  - unfold wave. replace (ref / ref) with 1 by (field; lra). replace (1 / 2 - 1 * 1 / 2) with 0 by lra. replace (2 * PI * (n * (0 / len))) with 0 by (unfold Rdiv; ring).
    rewrite exp_0, cos_0. ring.
  - unfold wave. unfold Rdiv. rewrite Rmult_0_l. ring.
Qed.
Lemma cos_sum a : sin a <> 0 -> forall n, fold_right Rplus 0 (map (fun j => cos (2 * a * (INR j + / 2))) (seq 0 n)) = sin (2 * a * INR n) / (2 * sin a).
Proof.
  intros H n. assert (G : forall m k, fold_right Rplus 0 (map (fun j => cos (2 * a * (INR j + / 2))) (seq k m)) = (sin (2 * a * INR (k + m)) - sin (2 * a * INR k)) / (2 * sin a)).
  { induction m as [|m IH]; intros k.
    - cbn [seq map fold_right]. rewrite Nat.add_0_r. unfold Rdiv. ring.
    - cbn [seq map fold_right]. rewrite IH. replace (S k + m)%nat with (k + S m)%nat by lia.
      assert (E : cos (2 * a * (INR k + / 2)) = (sin (2 * a * INR (S k)) - sin (2 * a * INR k)) / (2 * sin a)).
      { rewrite S_INR. set (b := 2 * a * (INR k + / 2)). replace (2 * a * (INR k + 1)) with (b + a) by (unfold b; field). replace (2 * a * INR k) with (b - a) by (unfold b; field).
        rewrite sin_plus, sin_minus. field. exact H. }
      rewrite E. field. exact H. }
  rewrite (G n 0%nat). cbn [INR]. rewrite Rmult_0_r, sin_0. cbn [Nat.add]. f_equal. ring.
Qed.
(** On a row of cells with more cells than waves they add up to zero: the mean wind at every height stays. *)
Theorem c86_waves_mean : forall amp ref len z (n w : nat), 0 < len -> (0 < w < n)%nat ->
  fold_right Rplus 0 (map (fun j => wave amp ref (INR w) len z ((INR j + / 2) * (len / INR n))) (seq 0 n)) = 0.
Proof.
  intros amp ref len z n w L W. assert (Wn : 0 < INR w < INR n) by (split; [apply lt_0_INR|apply lt_INR]; lia).
  set (a := PI * (INR w / INR n)). assert (Q : 0 < INR w / INR n < 1).
  { split; [apply Rdiv_lt_0_compat; lra|]. apply (Rmult_lt_reg_r (INR n)); [lra|]. unfold Rdiv. rewrite Rmult_assoc, Rinv_l by lra. lra. }
  assert (Sa : sin a <> 0). { pose proof PI_RGT_0. apply Rgt_not_eq, sin_gt_0; unfold a; nra. }
  assert (E : forall l, fold_right Rplus 0 (map (fun j => wave amp ref (INR w) len z ((INR j + / 2) * (len / INR n))) l)
     = amp * (z / ref) * exp (1 / 2 - (z / ref) * (z / ref) / 2) * fold_right Rplus 0 (map (fun j => cos (2 * a * (INR j + / 2))) l)).
  { induction l as [|j l IH]; cbn [map fold_right]; [ring|]. rewrite IH. unfold wave at 1.
    replace (2 * PI * (INR w * ((INR j + / 2) * (len / INR n) / len))) with (2 * a * (INR j + / 2)) by (unfold a; field; lra). ring. }
  rewrite E, (cos_sum a Sa). replace (2 * a * INR n) with (0 + 2 * INR w * PI) by (unfold a; field; lra). rewrite sin_period, sin_0. unfold Rdiv. ring.
Qed.

(** ** Linear wind *)

(** On a domain that starts at height zero the bottom velocity is at the bottom and the top velocity at the top. *)
Theorem c86_linear_partial : forall I D x y, in_linear I = Some true -> vz (d_lo D) = 0 -> 0 < vz (d_hi D) ->
  wind I D (V3 x y (vz (d_lo D))) = in_bottom I /\ wind I D (V3 x y (vz (d_hi D))) = in_top I.
Proof.
  intros I D x y H L U. unfold wind. rewrite H, L. cbn [given]. unfold vadd, vscale, vsub. cbn.
  split; [destruct (in_bottom I) as [a b c]|destruct (in_bottom I) as [a b c], (in_top I) as [d e f]]; cbn; f_equal; field; lra.
Qed.
(** On a domain that starts at another height neither is. *)
Theorem c86_linear_refuted : forall I D x y, in_linear I = Some true -> vz (d_lo D) <> 0 -> vz (d_lo D) < vz (d_hi D) -> vx (in_top I) <> vx (in_bottom I) ->
  vx (wind I D (V3 x y (vz (d_lo D)))) <> vx (in_bottom I) /\ vx (wind I D (V3 x y (vz (d_hi D)))) <> vx (in_top I).
Proof.
  intros I D x y H L U N. unfold wind. rewrite H. cbn. set (a := vx (in_bottom I)) in *. set (b := vx (in_top I)) in *. set (l := vz (d_lo D)) in *. set (h := vz (d_hi D)) in *.
  assert (Q : (b - a) * l <> 0) by (apply Rmult_integral_contrapositive; split; lra).
  split; intros E.
  - apply Q. assert ((b - a) * (l / (h - l)) = 0) as E' by lra. replace ((b - a) * l) with ((b - a) * (l / (h - l)) * (h - l)) by (field; lra). rewrite E'. ring.
  - apply Q. replace ((b - a) * l) with ((a + (b - a) * (h / (h - l)) - b) * (h - l)) by (field; lra). rewrite E. ring.
Qed.

(** ** Turbulence energy *)
Theorem c86_energy : forall I S D p, in_profile I = None -> configure I = Ret S -> given (in_wind_profile I) false = false ->
  exists k, init_tke S D p = Ret k /\
  (given (in_beare I) false = false -> k = given (in_tke I) (1 / 10)) /\
  (in_beare I = Some true -> let f := given (in_beare_factor I) (4 / 10) in let zc := given (in_beare_cutoff I) 250 in
     (vz p < zc -> k = f * ((1 - vz p / zc) * (1 - vz p / zc) * (1 - vz p / zc))) /\
     (zc <= vz p -> k = / 4503599627370496) /\ (0 <= f -> 0 <= vz p < zc -> 0 <= k <= f)).
Proof.
  intros I S D p NP C NW. unfold configure in C. rewrite NP in C. unfold from_inputfile in C. destruct (Nat.eqb _ _); [|discriminate]. injection C as <-.
  unfold init_tke. cbn [s_beare s_wind_profile s_tke s_rans s_beare_cutoff s_beare_factor]. rewrite NW. cbn [negb andb].
  destruct (in_beare I) as [[|]|]; cbn [given negb andb]; eexists; (split; [reflexivity|]); (split; [try discriminate; reflexivity|]); intros HB; try discriminate.
  cbv zeta. set (f := given (in_beare_factor I) _). set (zc := given (in_beare_cutoff I) _).
  assert (P3 : forall q, q ^ 3 = q * q * q) by (intros; ring).
  split; [|split].
  - intros Z. replace (Rltb (vz p) zc) with true by (symmetry; apply Rltb_spec; exact Z). rewrite P3. reflexivity.
  - intros Z. replace (Rltb (vz p) zc) with false by (symmetry; apply Rltb_false; lra). reflexivity.
  - intros F Z. replace (Rltb (vz p) zc) with true by (symmetry; apply Rltb_spec; lra). rewrite P3.
    assert (Q : vz p / zc * zc = vz p) by (field; lra). set (q := vz p / zc) in *. assert (0 <= q < 1) by nra.
    assert (0 <= (1 - q) * (1 - q) <= 1) by nra. assert (0 <= (1 - q) * (1 - q) * (1 - q) <= 1) by nra. nra.
Qed.
(** With a profile file the energy is its column. *)
Theorem c86_energy_file : forall I S D p, in_profile I = None -> configure I = Ret S -> in_wind_profile I = Some true ->
  in_rans I <> [] -> rises (column I rl_k) -> exists k, init_tke S D p = Ret k /\ table_value (column I rl_k) (height_above I D p) k.
Proof.
  intros I S D p NP C W NR H. unfold configure in C. rewrite NP in C. unfold from_inputfile in C. destruct (Nat.eqb _ _); [|discriminate]. rewrite W in C. cbn [given] in C. injection C as <-.
  assert (CN : column I rl_k <> []) by (unfold column; destruct (in_rans I); [contradiction|discriminate]).
  destruct (interp_ok _ (height_above I D p) H CN) as (k & E & V). exists k. split; [|exact V]. unfold init_tke. cbn [s_beare s_wind_profile s_rans]. rewrite Bool.andb_false_r.
  unfold above_ground, rans_table. cbn [s_terrain s_rans].
  assert (Z : rmax (0.5 * d_dz D) (vz p - match in_terrain I with Some f => f (vx p) (vy p) | None => 0 end) = height_above I D p) by (unfold height_above; rewrite rmax_spec, half_dot; f_equal; lra).
  rewrite Z. rewrite <- E. unfold column. destruct (in_rans I); [contradiction|reflexivity].
Qed.

(** ** Velocities from a file *)

(** Every cell of the coarsest level gets the values of the file at its own indices, however the level is cut into boxes. *)
Theorem c86_file : forall file dom b i j k, inside_box b i j k -> inside_box dom i j k -> file_cell file dom b i j k = file i j k.
Proof.
  intros file [[[a0 b0] c0] [[a1 b1] c1]] [[[i0 j0] k0] [[i1 j1] k1]] i j k [Hi [Hj Hk]] [Gi [Gj Gk]].
  unfold file_cell, slab, clip, count3. cbn [ib_lo ib_hi].
  set (x := Z.max i0 a0). set (y := Z.max j0 b0). set (z := Z.max k0 c0). set (n1 := (Z.min j1 b1 - y + 1)%Z). set (n2 := (Z.min k1 c1 - z + 1)%Z).
  assert (D1 : (0 <= j - y < n1)%Z) by (unfold n1, y; lia). assert (D2 : (0 <= k - z < n2)%Z) by (unfold n2, z; lia).
  set (p := ((i - x) * n2 * n1 + (j - y) * n2 + (k - z))%Z).
  assert (Q2 : (p / n2 = (i - x) * n1 + (j - y))%Z) by (symmetry; apply (Z.div_unique_pos _ _ _ (k - z)); [lia|unfold p; ring]).
  assert (M2 : (p mod n2 = k - z)%Z) by (symmetry; apply (Z.mod_unique_pos _ _ ((i - x) * n1 + (j - y))); [lia|unfold p; ring]).
  assert (Q1 : (p / (n1 * n2) = i - x)%Z) by (symmetry; apply (Z.div_unique_pos _ _ _ ((j - y) * n2 + (k - z))); [nia|unfold p; ring]).
  rewrite Q1, M2, Q2. replace (((i - x) * n1 + (j - y)) mod n1)%Z with (j - y)%Z by (apply (Z.mod_unique_pos _ _ (i - x)); [lia|ring]).
  f_equal; lia.
Qed.

(** ** Limits *)

(** Above the last height the manual promises the last temperature; it is the first. *)
Theorem c86_above_refuted : forall I D p random, in_profile I = None -> given (in_wind_profile I) false = false ->
  let T := combine (in_heights I) (in_values I) in
  length (in_heights I) = length (in_values I) -> T <> [] -> rises T -> hgt T (length T - 1) < vz p ->
  exists S f, configure I = Ret S /\ init_cell S D p random = Ret f /\ f_theta f - bump I p random = val T 0.
Proof.
  intros I D p random NP NW T L N H Z. unfold configure. rewrite NP. unfold from_inputfile. rewrite (proj2 (Nat.eqb_eq _ _) L), NW. fold T.
  eexists. eexists. split; [reflexivity|]. unfold init_cell, means. cbn [s_profile s_wind_profile s_rho read_rho obind s_theta].
  assert (F : first_value T = Ret (val T 0)) by (destruct T as [|[a b] T']; [contradiction|reflexivity]). rewrite F. cbn [obind]. split; [reflexivity|].
  cbn [s_perturb_vel]. match goal with |- f_theta ?f - _ = _ => assert (E : f_theta f = bump I p random + scan T (vz p) (val T 0)) end.
  { destruct (given (in_perturb_vel I) true); cbn [f_theta]; f_equal; apply theta_bump; reflexivity. }
  rewrite E, scan_high by assumption. ring.
Qed.
(** A NetCDF profile: the density of the input is not read, and a member without a value is used. *)
Theorem c86_netcdf_density_refuted : forall I P D p random, in_profile I = Some P ->
  exists S, configure I = Ret S /\ init_cell S D p random = UB.
Proof. intros I P D p random E. unfold configure. rewrite E. eexists. split; [reflexivity|]. reflexivity. Qed.
(** A NetCDF profile: waves of 1 m/s are added although the input turns them off. *)
Theorem c86_netcdf_waves_refuted : forall I P D x rho, in_profile I = Some P -> in_perturb_vel I = Some false ->
  np_theta P <> [] -> np_u P <> [] -> np_v P <> [] -> rises (np_theta P) -> rises (np_u P) -> rises (np_v P) ->
  exists S f u, configure I = Ret S /\ init_cell (with_density S rho) D (V3 x (vy (d_lo D)) 50) 0 = Ret f /\ table_value (np_u P) 50 u /\ vx (f_vel f) = u + 1.
Proof.
  intros I P D x rho EP _ N1 N2 N3 H1 H2 H3.
  destruct (c86_netcdf_partial I P D (V3 x (vy (d_lo D)) 50) 0 rho EP N1 N2 N3 H1 H2 H3) as (S & f & u & v & A & B & _ & _ & U & _ & V).
  exists S, f, u. split; [exact A|]. split; [exact B|]. split; [exact U|]. rewrite V. cbn [vx vy vz]. f_equal.
  replace (vy (d_lo D) - vy (d_lo D)) with 0 by ring. apply c86_waves_size; [exact 0|exact 0|lra].
Qed.
Lemma interp_no_abort t z : interp t z <> Abort.
Proof.
  assert (B : forall t, between t z <> Abort).
  { induction t0 as [|[h0 v0] [|[h1 v1] t0] IH]; try discriminate. change (between ((h0, v0) :: (h1, v1) :: t0) z) with (if Rleb z h1 then Ret (on_piece h0 v0 h1 v1 z) else between ((h1, v1) :: t0) z).
    destruct (Rleb z h1); [discriminate|exact IH]. }
  destruct t as [|[h0 v0] [|a t]]; try discriminate. unfold interp. destruct (Rltb z h0); [discriminate|]. destruct (last _ _) as [hn vn]. destruct (Rltb hn z); [discriminate|apply B].
Qed.
(** A wind profile is asked for and no file given: values of an empty table are read. *)
Theorem c86_missing_file_refuted : forall I S D p random, in_profile I = None -> in_wind_profile I = Some true -> in_rans I = [] ->
  configure I = Ret S -> init_cell S D p random = UB \/ in_heights I = [].
Proof.
  intros I S D p random NP W NR C. unfold configure in C. rewrite NP in C. unfold from_inputfile in C. destruct (Nat.eqb _ _) eqn:L; [|discriminate]. rewrite W in C. cbn [given] in C. injection C as <-.
  apply Nat.eqb_eq in L. destruct (in_heights I) as [|h hs] eqn:EH; [right; reflexivity|]. destruct (in_values I) as [|v vs] eqn:EV; [discriminate|]. left.
  unfold init_cell, means, rans_table. cbn [s_profile s_wind_profile s_rho read_rho obind s_theta s_rans combine]. rewrite NR. cbn [map first_value obind].
  match goal with |- context [interp ?t ?z] => pose proof (interp_no_abort t z) as NA; destruct (interp t z) end; [reflexivity|contradiction|reflexivity].
Qed.
(** Velocities from a file on finer levels: a process without boxes on the level does not join the filling from
    the coarser level that the others wait in. *)
Theorem c86_no_boxes_refuted : forall lev b bs, (lev <> 0)%Z -> fills_from_coarse lev (b :: bs) = true /\ fills_from_coarse lev [] = false.
Proof.
  intros lev b bs H. split; [|reflexivity]. unfold fills_from_coarse. cbn [fold_left].
  replace (lev =? 0)%Z with false by (symmetry; apply Z.eqb_neq, H). cbn [negb]. induction bs as [|c bs IH]; [reflexivity|exact IH].
Qed.

(** ** A case *)
Definition ex_input : abl_input :=
  AI None None [] None [0; 600; 700; 1700] [300; 300; 308; 311] None None None None None None None None None None None None None None vzero vzero 1 None None (V3 8 0 0).
Definition ex_dom : domain := DM vzero (V3 1000 1000 1000) 10.
Example case_rises : rises (combine (in_heights ex_input) (in_values ex_input)).
Proof. intros i L. destruct i as [|[|[|i]]]; cbn in L |- *; try lra. lia. Qed.
Example case_650 : exists S f, configure ex_input = Ret S /\ init_cell S ex_dom (V3 5 5 650) 0 = Ret f /\ f_theta f = 304.
Proof.
  destruct (c86_input_file ex_input ex_dom (V3 5 5 650) 0 eq_refl eq_refl eq_refl ltac:(discriminate) case_rises) as (S & f & A & B & _ & V & _); [cbn; lra|].
  exists S, f. split; [exact A|]. split; [exact B|]. destruct V as (_ & V & _). specialize (V 1%nat ltac:(cbn; lia)). cbn in V. unfold bump in V. cbn in V.
  assert (Q : 600 <= 650 <= 700) by lra. specialize (V Q). lra.
Qed.
Example case_2000 : exists S f, configure ex_input = Ret S /\ init_cell S ex_dom (V3 5 5 2000) 0 = Ret f /\ f_theta f = 300.
Proof.
  destruct (c86_above_refuted ex_input ex_dom (V3 5 5 2000) 0 eq_refl eq_refl eq_refl ltac:(discriminate) case_rises) as (S & f & A & B & V); [cbn; lra|].
  exists S, f. split; [exact A|]. split; [exact B|]. cbn in V. unfold bump in V. cbn in V. lra.
Qed.
Example case_waves : (0 < 4 < 100)%nat /\ fills_from_coarse 1 [] = false. Proof. split; [lia|reflexivity]. Qed.

Print Assumptions c86_input_file.
Print Assumptions c86_profile_file.
Print Assumptions c86_netcdf_partial.
Print Assumptions c86_waves_size.
Print Assumptions c86_waves_mean.
Print Assumptions c86_linear_partial.
Print Assumptions c86_linear_refuted.
Print Assumptions c86_energy.
Print Assumptions c86_energy_file.
Print Assumptions c86_file.
Print Assumptions c86_above_refuted.
Print Assumptions c86_netcdf_density_refuted.
Print Assumptions c86_netcdf_waves_refuted.
Print Assumptions c86_missing_file_refuted.
Print Assumptions c86_no_boxes_refuted.
