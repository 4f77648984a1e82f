(** C96: statistics of the atmospheric boundary layer. *)
From Coq Require Import Reals List ZArith Lra Lia Permutation.
From Verif Require Import Base BoxR BoxRFacts ABLStats ABLStatsSpec.
Import ListNotations.
Open Scope R_scope.

(** ** When *)

(** With a frequency above zero the file is made at the start and written exactly in the steps it divides. *)
Theorem c96_when : forall freq tidx f, (0 < freq)%Z -> f = Ascii \/ f = Netcdf ->
  prepared freq f = Some f /\
  (stats_step freq tidx f = Ret (Some f) <-> (freq | tidx)%Z) /\ (stats_step freq tidx f = Ret None <-> ~ (freq | tidx)%Z).
Proof.
  intros freq tidx f P F. split.
  { unfold prepared. rewrite (proj2 (Z.ltb_lt _ _) P). destruct F; subst; reflexivity. }
  assert (S : stats_step freq tidx f = if (Z.rem tidx freq =? 0)%Z then Ret (Some f) else Ret None).
  { unfold stats_step, due, process. destruct (Z.eqb_spec freq 0); [lia|]. rewrite (proj2 (Z.ltb_lt _ _) P).
    destruct (Z.rem tidx freq =? 0)%Z; [|reflexivity]. destruct F; subst; reflexivity. }
  rewrite S. assert (D : Z.rem tidx freq = 0%Z <-> (freq | tidx)%Z).
  { rewrite Z.rem_divide by lia. reflexivity. }
  destruct (Z.eqb_spec (Z.rem tidx freq) 0) as [E|E].
  - split; split; intros; try reflexivity; try discriminate; try (apply D; exact E). exfalso. apply H. apply D. exact E.
  - split; split; intros; try reflexivity; try discriminate. { exfalso. apply E. apply D. assumption. } intro X. apply E. apply D. exact X.
Qed.
(** A frequency below zero writes nothing, ever. *)
Theorem c96_never : forall freq tidx f, (freq < 0)%Z -> prepared freq f = None /\ stats_step freq tidx f = Ret None.
Proof.
  intros freq tidx f N. unfold prepared, stats_step, due, process. destruct (Z.ltb_spec 0 freq); [lia|].
  destruct (Z.eqb_spec freq 0); [lia|]. split; [reflexivity|]. destruct (Z.rem tidx freq =? 0)%Z; reflexivity.
Qed.
(** A frequency of zero, for which no file is made, divides by zero in every step. *)
Theorem c96_zero_refuted : forall tidx f, prepared 0 f = None /\ stats_step 0 tidx f = UB.
Proof. intros. split; reflexivity. Qed.
(** A format of another name is taken for text at the start and stops the run in the first step that is due. *)
Theorem c96_format_refuted : forall freq tidx, (0 < freq)%Z -> (freq | tidx)%Z ->
  prepared freq OtherFormat = Some Ascii /\ stats_step freq tidx OtherFormat = Abort.
Proof.
  intros freq tidx P D. unfold prepared, stats_step, due, process. rewrite (proj2 (Z.ltb_lt _ _) P). split; [reflexivity|].
  destruct (Z.eqb_spec freq 0); [lia|]. rewrite (proj2 (Z.rem_divide tidx freq ltac:(lia)) D). reflexivity.
Qed.
(** The profiles in text files, averages of the state at the end of the step, bear the time of its beginning. *)
Theorem c96_time_refuted : forall t0 t1, t0 < t1 -> scalar_time t0 t1 = t1 /\ profile_time t0 t1 <> t1.
Proof. intros. unfold scalar_time, profile_time. split; lra. Qed.

(** ** Height of the inversion *)

Lemma rsum_app a b : rsum (a ++ b) = rsum a + rsum b.
Proof. induction a as [|x a IH]; simpl; [ring|]. rewrite IH. ring. Qed.
Lemma rsum_perm a b : Permutation a b -> rsum a = rsum b.
Proof. induction 1; simpl; lra. Qed.
Lemma rsum_concat {A} (g : A -> R) : forall ranks, rsum (map (fun cols => rsum (map g cols)) ranks) = rsum (map g (concat ranks)).
Proof. induction ranks as [|c r IH]; simpl; [reflexivity|]. rewrite map_app, rsum_app, IH. reflexivity. Qed.

Lemma zi_total find dn grad ranks nx ny : shared_out ranks nx ny ->
  zi find dn grad ranks nx ny = rsum (map (fun c => height dn (find (fst c) (grad (fst c) (snd c)))) (columns nx ny)) / (INR nx * INR ny).
Proof.
  intro S. unfold zi. rewrite rsum_concat. rewrite (rsum_perm _ _ (Permutation_map _ S)). reflexivity.
Qed.
Lemma rsum_const {A} c : forall l : list A, rsum (map (fun _ => c) l) = INR (length l) * c.
Proof. induction l as [|x l IH]; [simpl; ring|]. cbn [map rsum fold_right length]. fold (rsum (map (fun _ => c) l)). rewrite IH, S_INR. ring. Qed.
Lemma rsum_prod (g : Z -> R) ny : forall xs, rsum (map (fun c : Z * Z => g (fst c)) (list_prod xs (map Z.of_nat (seq 0 ny)))) = INR ny * rsum (map g xs).
Proof.
  induction xs as [|x xs IH]; [simpl; ring|]. cbn [list_prod map]. rewrite map_app, rsum_app, IH. rewrite map_map.
  cbn [rsum fold_right]. fold (rsum (map g xs)). rewrite map_map. cbn [fst].
  rewrite rsum_const. rewrite seq_length. ring.
Qed.
Lemma rsum_heights dn : forall n, rsum (map (fun i => height dn i) (map Z.of_nat (seq 0 n))) = INR n * INR n / 2 * dn.
Proof.
  induction n as [|n IH]; [simpl; field|]. rewrite seq_S, !map_app, rsum_app, IH. cbn [map rsum fold_right].
  unfold height. simpl plus. rewrite <- INR_IZR_INZ. rewrite S_INR. field.
Qed.

Lemma scan_cpu_seen i : forall l k m, scan_cpu i k l m i = i.
Proof. induction l as [|v l IH]; intros k m; simpl; [reflexivity|]. destruct (above v m); apply IH. Qed.
Lemma scan_cpu_any i k l idx : l <> [] -> scan_cpu i k l None idx = i.
Proof. destruct l as [|v l]; [congruence|]. intros _. simpl. apply scan_cpu_seen. Qed.

(** Without a GPU the height of the inversion is half the number of cells along x times the height of a cell, whatever
    the temperature. *)
Theorem c96_zi_refuted : forall dn grad ranks nx ny, (0 < nx)%nat -> (0 < ny)%nat -> shared_out ranks nx ny ->
  (forall i j, grad i j <> []) -> zi_cpu dn grad ranks nx ny = INR nx / 2 * dn.
Proof.
  intros dn grad ranks nx ny X Y S G. unfold zi_cpu. rewrite zi_total by exact S.
  rewrite (map_ext _ (fun c => height dn (fst c))). 2: { intro c. rewrite scan_cpu_any by apply G. reflexivity. }
  unfold columns. rewrite (rsum_prod (fun i => height dn i)). rewrite rsum_heights.
  apply lt_0_INR in X. apply lt_0_INR in Y. field. split; lra.
Qed.

Lemma scan_gpu_below : forall l k m idx, (forall v, In v l -> exists x, m = Some x /\ v <= x) -> scan_gpu k l m idx = idx.
Proof.
  induction l as [|v l IH]; intros k m idx H; simpl; [reflexivity|].
  destruct (H v (or_introl eq_refl)) as (x & -> & Le). unfold above. destruct (Rltb x v) eqn:R; [apply Rltb_spec in R; lra|].
  apply IH. intros w W. apply H. right. exact W.
Qed.
Lemma scan_gpu_peak : forall l k m idx p v, nth_error l p = Some v -> (forall j w, nth_error l j = Some w -> j <> p -> w < v) ->
  (forall x, m = Some x -> x < v) -> scan_gpu k l m idx = (k + Z.of_nat p)%Z.
Proof.
  induction l as [|u l IH]; intros k m idx p v P O M; [destruct p; discriminate|].
  destruct p as [|p].
  - cbn in P. injection P as ->. assert (A : above v m = true).
    { unfold above. destruct m as [x|]; [apply Rltb_spec; apply M; reflexivity|reflexivity]. }
    cbn [scan_gpu]. rewrite A. rewrite scan_gpu_below; [simpl; lia|]. intros w W. exists v. split; [reflexivity|].
    apply In_nth_error in W. destruct W as [j J]. left. apply (O (S j) w); [exact J|discriminate].
  - cbn in P. assert (U : u < v) by (apply (O 0%nat u); [reflexivity|discriminate]).
    cbn [scan_gpu]. rewrite Nat2Z.inj_succ. destruct (above u m).
    + rewrite (IH _ _ _ p v); auto; [lia| |].
      * intros j w J N. apply (O (S j) w); [exact J|congruence].
      * intros x X. injection X as <-. exact U.
    + rewrite (IH _ _ _ p v); auto; [lia|]. intros j w J N. apply (O (S j) w); [exact J|congruence].
Qed.

(** With a GPU it is the mean over the columns of the height of the cell where the temperature rises most. *)
Theorem c96_zi_gpu : forall dn grad ranks nx ny peak, shared_out ranks nx ny ->
  (forall i j, only_peak (grad i j) (peak i j)) ->
  zi_gpu dn grad ranks nx ny =
  rsum (map (fun c => (INR (peak (fst c) (snd c)) + / 2) * dn) (columns nx ny)) / (INR nx * INR ny).
Proof.
  intros dn grad ranks nx ny peak S P. unfold zi_gpu. rewrite zi_total by exact S. f_equal. f_equal.
  apply map_ext. intros [i j]. cbn [fst snd]. destruct (P i j) as (v & N & O).
  rewrite (scan_gpu_peak _ 0%Z None 0%Z _ v N O) by discriminate. unfold height. rewrite Z.add_0_l, <- INR_IZR_INZ. reflexivity.
Qed.
(** The same temperature rise in cell [p] of all columns gives the height of that cell, and without a GPU another unless
    the cell is half as many cells up as there are along x. *)
Theorem c96_zi_differ : forall dn grad ranks nx ny p, (0 < nx)%nat -> (0 < ny)%nat -> shared_out ranks nx ny -> 0 < dn ->
  (forall i j, only_peak (grad i j) p) ->
  zi_gpu dn grad ranks nx ny = (INR p + / 2) * dn /\
  (zi_cpu dn grad ranks nx ny = zi_gpu dn grad ranks nx ny <-> nx = (2 * p + 1)%nat).
Proof.
  intros dn grad ranks nx ny p X Y S D P.
  assert (G : zi_gpu dn grad ranks nx ny = (INR p + / 2) * dn).
  { rewrite (c96_zi_gpu dn grad ranks nx ny (fun _ _ => p) S P). rewrite rsum_const. unfold columns.
    rewrite prod_length, !map_length, !seq_length, mult_INR. apply lt_0_INR in X. apply lt_0_INR in Y. field. split; lra. }
  split; [exact G|]. rewrite G. rewrite c96_zi_refuted; auto.
  2: { intros i j E. destruct (P i j) as (v & N & _). rewrite E in N. destruct p; discriminate. }
  split.
  - intro E. apply Rmult_eq_reg_r in E; [|lra]. assert (INR nx = 2 * INR p + 1) by lra.
    apply INR_eq. rewrite plus_INR, mult_INR. simpl. lra.
  - intros ->. rewrite plus_INR, mult_INR. simpl. field.
Qed.
(** Two columns by one, three cells high, the rise in the middle: one column to each of two processes. *)
Example zi_case : shared_out [[(1, 0)]; [(0, 0)]]%Z 2 1 /\ only_peak [0; 5; 1] 1 /\
  zi_cpu 10 (fun _ _ => [0; 5; 1]) [[(1, 0)]; [(0, 0)]]%Z 2 1 = 10 /\ zi_gpu 10 (fun _ _ => [0; 5; 1]) [[(1, 0)]; [(0, 0)]]%Z 2 1 = 15.
Proof.
  assert (S : shared_out [[(1, 0)]; [(0, 0)]]%Z 2 1).
  { unfold shared_out, columns. simpl. constructor. }
  assert (P : only_peak [0; 5; 1] 1).
  { exists 5. split; [reflexivity|]. intros j w J N. destruct j as [|[|[|j]]]; simpl in J; [| |injection J as <-; lra|destruct j; discriminate].
    - injection J as <-. lra. - congruence. }
  split; [exact S|]. split; [exact P|]. split.
  - rewrite c96_zi_refuted; auto; [simpl; lra|]. discriminate.
  - destruct (c96_zi_differ 10 (fun _ _ => [0; 5; 1]) [[(1, 0)]; [(0, 0)]]%Z 2 1 1) as [G _]; auto; [lra|]. rewrite G. simpl. lra.
Qed.

(** ** Convective velocity *)

Lemma cbrt_cube x : cbrt x * cbrt x * cbrt x = x.
Proof.
  unfold cbrt. destruct (Rltb 0 x) eqn:P.
  - apply Rltb_spec in P. rewrite <- !exp_plus. replace (ln x / 3 + ln x / 3 + ln x / 3) with (ln x) by field. apply exp_ln. exact P.
  - apply Rltb_false in P. destruct (Rltb x 0) eqn:N.
    + apply Rltb_spec in N. replace (- exp (ln (- x) / 3) * - exp (ln (- x) / 3) * - exp (ln (- x) / 3)) with
        (- (exp (ln (- x) / 3) * exp (ln (- x) / 3) * exp (ln (- x) / 3))) by ring.
      rewrite <- !exp_plus. replace (ln (- x) / 3 + ln (- x) / 3 + ln (- x) / 3) with (ln (- x)) by field. rewrite exp_ln by lra. ring.
    + apply Rltb_false in N. replace x with 0 by lra. ring.
Qed.
(** With a flux of heat from the ground above the tolerance the cube of the convective velocity is the buoyancy flux
    times the height of the inversion, otherwise it is zero. *)
Theorem c96_wstar : forall g q z theta,
  (flux_tol < q -> wstar g q z theta ^ 3 = g * q * z / theta) /\ (q <= flux_tol -> wstar g q z theta = 0).
Proof.
  intros g q z theta. unfold wstar. split; intro H.
  - rewrite (proj2 (Rltb_spec _ _) H). simpl. rewrite Rmult_1_r, <- Rmult_assoc. apply cbrt_cube.
  - destruct (Rltb flux_tol q) eqn:R; [apply Rltb_spec in R; lra|reflexivity].
Qed.
Example wstar_case : flux_tol < 1 /\ wstar 8 1 1 1 ^ 3 = 8.
Proof. assert (H : flux_tol < 1) by (unfold flux_tol; lra). split; [exact H|]. destruct (c96_wstar 8 1 1 1) as [W _]. rewrite W by exact H. lra. Qed.

(** ** Stresses and budget *)

(** Stress [n] is that of its pair of directions: minus the viscosity times the sum of the two gradients, where component
    [3 a + b] of the gradient is that of component [a] along [b]. *)
Theorem c96_stress : forall mu g n a b, stress n = Sfs a b -> (n < 3)%nat ->
  sfs mu g n = - mu * (g (3 * a + b)%nat + g (3 * b + a)%nat) /\ (a < b < 3)%nat.
Proof. intros mu g n a b S N. destruct n as [|[|[|n]]]; [| | |lia]; cbn in S; injection S as <- <-; split; try reflexivity; lia. Qed.
(** The heat carried by the unresolved motion goes down the gradient: along each direction it has the sign against the
    rise of temperature, and none without viscosity or without a rise. *)
Theorem c96_heat : forall alpha gt n, 0 < alpha ->
  (0 < gt n <-> t_sfs alpha gt n < 0) /\ (gt n < 0 <-> 0 < t_sfs alpha gt n) /\ Rabs (t_sfs alpha gt n) = alpha * Rabs (gt n).
Proof.
  intros alpha gt n A. unfold t_sfs. repeat split; intros; try nra.
  rewrite Rabs_mult, Rabs_Ropp, (Rabs_pos_eq alpha) by lra. reflexivity.
Qed.
(** The residual closes the budget. *)
Theorem c96_budget : forall k k_old dt conv shear buoy dissip,
  (k - k_old) / dt = conv + shear + buoy - dissip + tke_diffusion k k_old dt conv shear buoy dissip.
Proof. intros. unfold tke_diffusion. ring. Qed.
(** With the values in the file, where the buoyancy is the dissipation, it closes only if they are equal. *)
Theorem c96_budget_refuted : forall k k_old dt conv shear buoy dissip,
  (k - k_old) / dt = conv + shear + dissip - dissip + tke_diffusion k k_old dt conv shear buoy dissip <-> buoy = dissip.
Proof. intros. unfold tke_diffusion. split; intro H; lra. Qed.

(** ** The file *)

(** Every write succeeds, and every variable but the buoyancy holds what its name says. *)
Theorem c96_file : forall meso tke mom temp budget, (mom = true -> meso = true) -> (temp = true -> meso = true) ->
  exists w, write_netcdf meso tke mom temp budget = Ret w /\
    (forall n q, In (n, q) w -> n <> TkeBuoy -> q = n) /\
    (forall n, In n (defined meso tke budget) -> n <> Ksgs ->
      (n = MesoMom 0 \/ n = MesoMom 1 -> mom = true) -> (n = MesoTheta -> temp = true) -> exists q, In (n, q) w).
Proof.
  intros meso tke mom temp budget M T. exists (puts mom temp budget). split; [|split].
  - destruct meso, tke, mom, temp, budget; try reflexivity; try (discriminate (M eq_refl)); discriminate (T eq_refl).
  - intros n q I N. assert (F : forallb (fun p => if quantity_eq_dec (fst p) TkeBuoy then true else
      if quantity_eq_dec (fst p) (snd p) then true else false) (puts mom temp budget) = true).
    { destruct mom, temp, budget; reflexivity. }
    rewrite forallb_forall in F. specialize (F (n, q) I). cbn [fst snd] in F.
    destruct (quantity_eq_dec n TkeBuoy); [contradiction|]. destruct (quantity_eq_dec n q); [congruence|discriminate].
  - intros n I K MM MT. assert (F : forallb (fun p => if quantity_eq_dec p Ksgs then true else
      if quantity_eq_dec p (MesoMom 0) then (if mom then existsb (fun w => if quantity_eq_dec (fst w) p then true else false) (puts mom temp budget) else true) else
      if quantity_eq_dec p (MesoMom 1) then (if mom then existsb (fun w => if quantity_eq_dec (fst w) p then true else false) (puts mom temp budget) else true) else
      if quantity_eq_dec p MesoTheta then (if temp then existsb (fun w => if quantity_eq_dec (fst w) p then true else false) (puts mom temp budget) else true) else
      existsb (fun w => if quantity_eq_dec (fst w) p then true else false) (puts mom temp budget)) (defined meso tke budget) = true).
    { destruct meso, tke, mom, temp, budget; reflexivity. }
    rewrite forallb_forall in F. specialize (F n I).
    assert (X : existsb (fun w => if quantity_eq_dec (fst w) n then true else false) (puts mom temp budget) = true).
    { destruct (quantity_eq_dec n Ksgs); [contradiction|].
      destruct (quantity_eq_dec n (MesoMom 0)); [rewrite (MM (or_introl e)) in F |- *; exact F|].
      destruct (quantity_eq_dec n (MesoMom 1)); [rewrite (MM (or_intror e)) in F |- *; exact F|].
      destruct (quantity_eq_dec n MesoTheta); [rewrite (MT e) in F |- *; exact F|]. exact F. }
    apply existsb_exists in X. destruct X as ([n' q] & I' & E). cbn [fst] in E.
    destruct (quantity_eq_dec n' n); [|discriminate]. subst. exists q. exact I'.
Qed.
(** The buoyancy holds the dissipation. *)
Theorem c96_buoyancy_refuted : forall meso tke mom temp w, write_netcdf meso tke mom temp true = Ret w ->
  In TkeBuoy (defined meso tke true) /\ In (TkeBuoy, TkeDissip) w /\ ~ In (TkeBuoy, TkeBuoy) w.
Proof.
  intros meso tke mom temp w W. unfold write_netcdf in W. destruct (forallb _ _); [|discriminate]. injection W as <-. repeat split.
  - destruct meso, tke; cbn; intuition.
  - destruct mom, temp; cbn; intuition.
  - intro H. destruct mom, temp; cbn in H; intuition discriminate.
Qed.
(** The energy of the subgrid motion, averaged over the planes by all processes, has a variable that is never written. *)
Theorem c96_ksgs_refuted : forall meso mom temp budget w, write_netcdf meso true mom temp budget = Ret w ->
  In Ksgs (defined meso true budget) /\ forall q, ~ In (Ksgs, q) w.
Proof.
  intros meso mom temp budget w W. unfold write_netcdf in W. destruct (forallb _ _); [|discriminate]. injection W as <-. split.
  - destruct meso, budget; cbn; intuition.
  - intros q H. destruct mom, temp, budget; cbn in H; intuition discriminate.
Qed.

(** Without the budget all processes take part in the same averages. *)
Theorem c96_averages : forall tke, averages true tke false = averages false tke false.
Proof. intro tke. destruct tke; reflexivity. Qed.
(** With the budget one process goes on to four averages in which no other takes part. *)
Theorem c96_averages_refuted : forall tke,
  averages true tke true = averages false tke true ++ [AvgBuoy; AvgShear; AvgDissip; AvgDiff].
Proof. intro tke. destruct tke; reflexivity. Qed.

Print Assumptions c96_when.
Print Assumptions c96_never.
Print Assumptions c96_zero_refuted.
Print Assumptions c96_format_refuted.
Print Assumptions c96_time_refuted.
Print Assumptions c96_zi_refuted.
Print Assumptions c96_zi_gpu.
Print Assumptions c96_zi_differ.
Print Assumptions c96_wstar.
Print Assumptions c96_stress.
Print Assumptions c96_budget.
Print Assumptions c96_budget_refuted.
Print Assumptions c96_file.
Print Assumptions c96_buoyancy_refuted.
Print Assumptions c96_ksgs_refuted.
Print Assumptions c96_averages.
Print Assumptions c96_averages_refuted.
Print Assumptions c96_heat.
