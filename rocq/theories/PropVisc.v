(** C111: viscous term of the momentum equation. *)
From Coq Require Import String Bool Lra Lia.
From Verif Require Import Base BoxR Inputs Advance UdfSpec Visc ViscSpec.
Open Scope R_scope.

(** The operator follows from the options; the tensor one is used unless it is switched off, and the segregated one needs that. *)
Theorem c111_operator : forall s,
  let tensor := given s "use_tensor_operator" true in let segregated := given s "use_segregated_operator" false in
  (choose s = Abort <-> tensor = true /\ segregated = true) /\ (choose s = Ret Tensor <-> tensor = true /\ segregated = false) /\
  (choose s = Ret Segregated <-> tensor = false /\ segregated = true) /\ (choose s = Ret Scalar <-> tensor = false /\ segregated = false).
Proof.
  intros s tensor segregated. unfold choose. change (pp_query s "use_tensor_operator" true) with tensor.
  change (pp_query s "use_segregated_operator" false) with segregated.
  destruct tensor, segregated; cbn; intuition congruence.
Qed.

Lemma mass_div r a : 0 < r -> r * (a / r) = a.
Proof. intros. field. lra. Qed.

(** What the viscous force of a step is with an operator. *)
Lemma step_balance t o L q conv new : solved q -> momentum MOL t o L q conv new ->
  balance q conv (fun c => match t with
                           | DExplicit => icns_diff o L (dens q) Old (e_old q) c
                           | DCrank => 1/2 * (icns_diff o L (dens q) Old (e_old q) c + L new c)
                           | _ => L new c end) new.
Proof.
  intros [M SV] (star & S & P) c. destruct (SV c) as (MK & R & R0 & J). unfold predictor_rhs in S.
  destruct t; cbn [pred_factor obind] in S; [contradiction| | |]; injection S as <-.
  - rewrite (P c). unfold rhs_value. rewrite M, MK. field. split; (exact J || lra).
  - specialize (P c). unfold rhs_value in P. rewrite M, MK, mass_div in P by exact R. cbv beta in P.
    transitivity (e_rho q c * e_detj q c * new c - 1 / 2 * e_dt q * L new c + 1 / 2 * e_dt q * L new c - e_rho_o q c * e_detj q c * e_old q c); [ring|].
    rewrite P. field.
  - specialize (P c). unfold rhs_value in P. rewrite M, MK, mass_div in P by exact R. cbv beta in P.
    transitivity (e_rho q c * e_detj q c * new c - e_dt q * L new c + e_dt q * L new c - e_rho_o q c * e_detj q c * e_old q c); [ring|].
    rewrite P. ring.
Qed.

(** With the tensor operator momentum changes by the viscous force at the old time (explicit), at the mean of both times
    (Crank-Nicolson) or at the new time (implicit). *)
Theorem c111_tensor : forall s t L q conv new, (t = DExplicit -> s = MOL) -> solved q -> momentum s t Tensor L q conv new ->
  balance q conv (fun c => match t with DExplicit => L (e_old q) c | DCrank => (L (e_old q) c + L new c) / 2 | _ => L new c end) new.
Proof.
  intros s t L q conv new ST SV H0 c. assert (H : momentum MOL t Tensor L q conv new).
  { destruct s; [|exact H0]. destruct t; try exact H0. discriminate (ST eq_refl). }
  rewrite (step_balance t Tensor L q conv new SV H c). destruct t; cbn [icns_diff]; field.
Qed.

(** The implicit step is the same for every operator. *)
Theorem c111_implicit : forall s o L q conv new, solved q -> momentum s DImplicit o L q conv new -> balance q conv (L new) new.
Proof.
  intros s o L q conv new SV H. assert (H' : momentum MOL DImplicit o L q conv new) by (destruct s; exact H). exact (step_balance DImplicit o L q conv new SV H').
Qed.

(** In a fluid of density one all operators make the same step, whatever the scheme and the treatment of diffusion. *)
Theorem c111_unit_density : forall s t o L q conv new, (forall c, e_rho_o q c = 1) ->
  (forall u v c, (forall x, u x = v x) -> L u c = L v c) ->
  (momentum s t o L q conv new <-> momentum s t Tensor L q conv new).
Proof.
  intros s t o L q conv new U X.
  assert (E : forall st u c, icns_diff o L (dens q) st u c = icns_diff Tensor L (dens q) st u c).
  { intros st u c. unfold icns_diff, dens. destruct o; [reflexivity| |]; destruct st; try reflexivity; rewrite U; field. }
  assert (A : forall a b, (forall c, a c = b c) -> forall star, predictor_rhs q t conv a = Ret star ->
              exists star', predictor_rhs q t conv b = Ret star' /\ forall c, star c = star' c).
  { intros a b AB star S. unfold predictor_rhs in *. destruct (pred_factor t) as [f| |]; cbn [obind] in *; try discriminate. injection S as <-.
    eexists. split; [reflexivity|]. intros c. cbv beta. rewrite AB. reflexivity. }
  assert (T : forall o1 o2, (forall st u c, icns_diff o1 L (dens q) st u c = icns_diff o2 L (dens q) st u c) ->
              momentum s t o1 L q conv new -> momentum s t o2 L q conv new).
  { intros o1 o2 E' (star & S & P). destruct (A _ _ (E' Old (e_old q)) star S) as (star' & S' & Q). exists star'. split; [exact S'|].
    destruct t; [exact P| | |].
    - destruct s; intros c; rewrite (P c); [|apply Q]. unfold rk2_post_hoc. rewrite Q, <- !E'. f_equal. f_equal. f_equal.
      unfold icns_diff. destruct o1; apply X; exact Q.
    - intros c. rewrite (P c), Q. reflexivity.
    - intros c. rewrite (P c), Q. reflexivity. }
  split; apply T; [exact E|intros; symmetry; apply E].
Qed.

(** With the two other operators the old viscous force is divided by the density once too often.  A Crank-Nicolson step and an
    explicit step obey the momentum balance exactly where the density is one or there is no viscous force. *)
Theorem c111_density_refuted : forall s o L q conv new, o <> Tensor -> solved q ->
  (momentum MOL DExplicit o L q conv new -> balance q conv (fun c => L (e_old q) c / e_rho_o q c) new) /\
  (momentum s DCrank o L q conv new -> balance q conv (fun c => (L (e_old q) c / e_rho_o q c + L new c) / 2) new) /\
  (momentum MOL DExplicit o L q conv new -> e_dt q <> 0 ->
     (balance q conv (L (e_old q)) new <-> forall c, e_rho_o q c = 1 \/ L (e_old q) c = 0)) /\
  (momentum s DCrank o L q conv new -> e_dt q <> 0 ->
     (balance q conv (fun c => (L (e_old q) c + L new c) / 2) new <-> forall c, e_rho_o q c = 1 \/ L (e_old q) c = 0)).
Proof.
  intros s o L q conv new O SV. change (momentum s DCrank o L q conv new) with (momentum MOL DCrank o L q conv new).
  assert (D : forall c, icns_diff o L (dens q) Old (e_old q) c = L (e_old q) c / e_rho_o q c).
  { intros c. destruct o; [congruence| |]; cbn [icns_diff dens]; unfold Rdiv; ring. }
  assert (B1 : momentum MOL DExplicit o L q conv new -> balance q conv (fun c => L (e_old q) c / e_rho_o q c) new).
  { intros H c. rewrite (step_balance DExplicit o L q conv new SV H c), D. reflexivity. }
  assert (B2 : momentum MOL DCrank o L q conv new -> balance q conv (fun c => (L (e_old q) c / e_rho_o q c + L new c) / 2) new).
  { intros H c. rewrite (step_balance DCrank o L q conv new SV H c), D. field. destruct SV as [_ SV]. destruct (SV c) as (_ & _ & R0 & _). lra. }
  assert (K : forall c, L (e_old q) c / e_rho_o q c = L (e_old q) c <-> e_rho_o q c = 1 \/ L (e_old q) c = 0).
  { intros c. destruct SV as [_ SV]. destruct (SV c) as (_ & _ & R0 & _). split.
    - intros E. assert (F : e_rho_o q c * (L (e_old q) c / e_rho_o q c) = L (e_old q) c) by (apply mass_div; exact R0). rewrite E in F.
      destruct (Req_dec (L (e_old q) c) 0) as [Z|Z]; [right; exact Z|left]. apply (Rmult_eq_reg_r (L (e_old q) c)); [|exact Z]. rewrite F. ring.
    - intros [-> | ->]; unfold Rdiv; [rewrite Rinv_1|]; ring. }
  split; [exact B1|]. split; [exact B2|]. split; intros H T; split.
  - intros B c. apply K. specialize (B c). rewrite (B1 H c) in B. apply Rmult_eq_reg_l in B; [|exact T]. lra.
  - intros A c. rewrite (B1 H c). destruct (K c) as [_ K2]. rewrite (K2 (A c)). reflexivity.
  - intros B c. apply K. specialize (B c). rewrite (B2 H c) in B. apply Rmult_eq_reg_l in B; [|exact T]. lra.
  - intros A c. rewrite (B2 H c). destruct (K c) as [_ K2]. rewrite (K2 (A c)). reflexivity.
Qed.

(** A flow at rest in time under a Crank-Nicolson step has, with the two other operators, a force that balances the viscous
    force times (1 + 1/density)/2, not the viscous force. *)
Theorem c111_steady_refuted : forall s o L q new, o <> Tensor -> solved q -> e_dt q <> 0 ->
  (forall c, e_rho_o q c = e_rho q c) -> (forall c, new c = e_old q c) -> (forall c, L new c = L (e_old q) c) ->
  momentum s DCrank o L q (fun _ => 0) new ->
  forall c, e_detj q c * e_src q c = - ((1 + 1 / e_rho q c) / 2 * L (e_old q) c).
Proof.
  intros s o L q new O SV T RR NN LL H c. destruct (c111_density_refuted s o L q (fun _ => 0) new O SV) as (_ & B & _ & _). specialize (B H c). cbv beta in B.
  rewrite RR, NN, LL in B. assert (Z : e_dt q * (0 + e_detj q c * e_src q c + (L (e_old q) c / e_rho q c + L (e_old q) c) / 2) = 0) by (rewrite <- B; ring).
  apply Rmult_integral in Z. destruct Z as [Z|Z]; [contradiction|]. unfold Rdiv in *. lra.
Qed.

(** Explicit steps: the second stage of Godunov (without mapping) and the corrector of MOL take the mean of the viscous forces
    with the tensor operator, and of the new force and the old one over the density with the two others. *)
Theorem c111_second_stage : forall o L q conv new, solved q -> (forall c, e_detj q c = 1) -> momentum Godunov DExplicit o L q conv new ->
  let old c := match o with Tensor => L (e_old q) c | _ => L (e_old q) c / e_rho_o q c end in
  exists star, balance q conv old star /\ balance q conv (fun c => (old c + L star c) / 2) new.
Proof.
  intros o L q conv new SV J1 (star & S & P) old. exists star.
  assert (B : balance q conv old star).
  { intros c. rewrite (step_balance DExplicit o L q conv star SV); [|exists star; split; [exact S|reflexivity]].
    unfold old. destruct SV as [_ SV]. destruct (SV c) as (_ & _ & R0 & _). destruct o; cbn [icns_diff dens]; field; lra. }
  split; [exact B|]. intros c. destruct SV as [M SV]. destruct (SV c) as (MK & R & R0 & J). specialize (B c). rewrite J1 in B |- *.
  rewrite (P c). unfold rk2_post_hoc. rewrite M, MK.
  assert (N : icns_diff o L (dens q) New star c = L star c) by (destruct o; reflexivity). rewrite N.
  assert (D : icns_diff o L (dens q) Old (e_old q) c = old c) by (unfold old; destruct o; cbn [icns_diff dens]; [reflexivity| |]; field; lra). rewrite D.
  transitivity (e_rho q c * 1 * star c - e_rho_o q c * 1 * e_old q c + 1 / 2 * e_dt q * (L star c - old c)); [field; lra|]. rewrite B. field.
Qed.
Theorem c111_corrector : forall o L q conv_o conv pred new, solved q -> momentum_corrector o L q conv_o conv pred new ->
  balance q (fun c => (conv_o c + conv c) / 2)
    (fun c => (match o with Tensor => L (e_old q) c | _ => L (e_old q) c / e_rho_o q c end + L pred c) / 2) new.
Proof.
  intros o L q conv_o conv pred new [M SV] (star & S & P) c. destruct (SV c) as (MK & R & R0 & J). unfold corrector_rhs in S. cbn [corr_factors obind] in S.
  injection S as <-. rewrite (P c). unfold rhs_value. rewrite M, MK. destruct o; cbn [icns_diff dens]; field; repeat split; try lra; exact J.
Qed.

(** The acceleration of the face velocities is the force over the density with the tensor operator; with the two others the
    viscous part of it is divided by the density twice. *)
Theorem c111_faces_refuted : forall o L q src c, 0 < e_rho_o q c ->
  face_force Tensor L q src c = (src c + L (e_old q) c) / e_rho_o q c /\
  (o <> Tensor -> face_force o L q src c = src c / e_rho_o q c + L (e_old q) c / (e_rho_o q c * e_rho_o q c)).
Proof.
  intros o L q src c R. split; [reflexivity|]. intros O. unfold face_force. destruct o; [congruence| |]; cbn [icns_diff dens]; field; lra.
Qed.

(** *** Cases that meet the hypotheses *)

(** Water at density 1000 with a viscous force that is the negative velocity. *)
Definition water : eqn := EQ true (1/10) (fun _ => 1%Z) (fun _ => 1) (fun _ => 1000) (fun _ => 1000) (fun _ => 2) (fun _ => 0).
Definition drag (u : ivec -> R) : ivec -> R := fun c => - u c.
Example c111_water_solved : solved water.
Proof. split; [reflexivity|]. intros c. cbn. repeat split; lra. Qed.
Example c111_water_steps : exists a b, momentum MOL DExplicit Tensor drag water (fun _ => 0) a /\ momentum MOL DExplicit Scalar drag water (fun _ => 0) b /\
  forall c, a c = 2 - 2 / 10000 /\ b c = 2 - 2 / 10000000.
Proof.
  exists (fun c => rhs_value water DExplicit (0 + 1 * 0 + 1 * - 2) c), (fun c => rhs_value water DExplicit (0 + 1 * 0 + 1 * (- 2 * (1 / 1000))) c).
  split; [eexists; split; [reflexivity|intros c; reflexivity]|]. split; [eexists; split; [reflexivity|intros c; reflexivity]|].
  intros c. unfold rhs_value; cbn. lra.
Qed.
Example c111_options_example : choose (fun k => if String.eqb k "use_segregated_operator" then Some (cons true nil) else None) = Abort.
Proof. reflexivity. Qed.

Print Assumptions c111_operator.
Print Assumptions c111_tensor.
Print Assumptions c111_implicit.
Print Assumptions c111_unit_density.
Print Assumptions c111_density_refuted.
Print Assumptions c111_steady_refuted.
Print Assumptions c111_second_stage.
Print Assumptions c111_corrector.
Print Assumptions c111_faces_refuted.
