(** C63: one time step of a transported scalar (budget, uniform fields, bounds).
    C64: the time step chosen from the CFL number. *)
From Coq Require Import Reals Lra ZArith List Bool Lia ZifyBool.
From Verif Require Import Base BoxR BoxRFacts VofAdvect VofSpec VofProofs VofProofs2 Advance AdvanceSpec AdvanceProofs.
Import ListNotations.
Open Scope R_scope.

(** ** C63 *)

(** The equation of one step with the diffusion term weighted between two fields:
    (rho phi)_new = (rho phi)_old + dt (conv + src + (1 - k) L_old + k L_new). *)
Definition balanced (g : grid) (q : eqn) (conv Lo Ln : ivec -> R) (k : R) (new : ivec -> R) : Prop :=
  all_cells g (fun c => e_rho q c * e_detj q c * new c
    = e_rho_o q c * e_detj q c * e_old q c + e_dt q * (conv c + e_detj q c * e_src q c + (1 - k) * Lo c + k * Ln c)).
(** A scalar equation on cells none of which is masked. *)
Definition regular (g : grid) (q : eqn) : Prop :=
  e_mul q = true /\ all_cells g (fun c => e_mask q c = 1%Z /\ 0 < e_rho q c /\ e_detj q c <> 0).
Definition unmapped (g : grid) (q : eqn) : Prop := all_cells g (fun c => e_detj q c = 1).
(** The weight of the new diffusion term. *)
Definition new_weight (s : scheme) (t : dtype) : R :=
  match t, s with
  | DImplicit, _ => 1
  | DCrank, _ => 1/2
  | DExplicit, Godunov => 1/2
  | _, _ => 0
  end.
(** The field the new diffusion term is evaluated with: the result itself, or for explicit
    diffusion the first-order prediction. *)
Definition new_diff_field (s : scheme) (t : dtype) (g : grid) (mu : ivec -> R) (bf : (ivec -> R) -> Z -> ivec -> R)
    (q : eqn) (conv new X : ivec -> R) : Prop :=
  match t with
  | DExplicit => let L := diff_term g mu bf (e_old q) in balanced g q conv L L 0 X
  | _ => forall c, X c = new c
  end.

Lemma diff_ext g mu phi psi bf c : (forall x, phi x = psi x) -> (forall d f, bf phi d f = bf psi d f) ->
  diff_term g mu bf phi c = diff_term g mu bf psi c.
Proof. intros H B. unfold diff_term, conv_rate, diff_flux. rewrite !H, !B. reflexivity. Qed.

(** The documented semi-discrete equation holds cell by cell for every choice of diffusion
    treatment; with mesh mapping all but the explicit Godunov update. *)
Theorem c63_theta s t g mu bf q conv new :
  regular g q -> (s = Godunov -> t = DExplicit -> unmapped g q) ->
  predicted s t g mu bf q conv new ->
  exists X, new_diff_field s t g mu bf q conv new X /\
    balanced g q conv (diff_term g mu bf (e_old q)) (diff_term g mu bf X) (new_weight s t) new.
Proof.
  intros (ML & RG) UM (star & S & P). unfold predictor_rhs in S. destruct t; cbn [pred_factor obind] in S; [contradiction| | |];
    injection S as S.
  - assert (B : balanced g q conv (diff_term g mu bf (e_old q)) (diff_term g mu bf (e_old q)) 0 star).
    { intros c I. destruct (RG c I) as (MK & R0 & J). rewrite <- S. unfold rhs_value. rewrite ML, MK. field. split; [lra|exact J]. }
    exists star. split; [exact B|]. intros c I. specialize (B c I); cbv beta in B. destruct (RG c I) as (MK & R0 & J).
    destruct s.
    + rewrite (P c). unfold rk2_post_hoc. rewrite ML, MK. pose proof (UM eq_refl eq_refl c I) as U1. rewrite U1 in B |- *. cbn [new_weight].
      transitivity (e_rho q c * 1 * star c + 1/2 * e_dt q * (diff_term g mu bf star c - diff_term g mu bf (e_old q) c)); [field; lra|].
      rewrite B. field.
    + rewrite (P c). cbn [new_weight]. rewrite B. ring.
  - exists new. split; [intros x; reflexivity|]. intros c I. destruct (RG c I) as (MK & R0 & J). specialize (P c I).
    cbn [new_weight]. rewrite <- S in P. unfold rhs_value in P. rewrite ML, MK in P.
    assert (E : e_rho q c * ((e_rho_o q c * e_detj q c * e_old q c + 1 * e_dt q * (conv c + e_detj q c * e_src q c + 1/2 * diff_term g mu bf (e_old q) c)) / e_rho q c)
      = e_rho_o q c * e_detj q c * e_old q c + e_dt q * (conv c + e_detj q c * e_src q c + 1/2 * diff_term g mu bf (e_old q) c)) by (field; lra).
    rewrite E in P. lra.
  - exists new. split; [intros x; reflexivity|]. intros c I. destruct (RG c I) as (MK & R0 & J). specialize (P c I).
    cbn [new_weight]. rewrite <- S in P. unfold rhs_value in P. rewrite ML, MK in P.
    assert (E : e_rho q c * ((e_rho_o q c * e_detj q c * e_old q c + 1 * e_dt q * (conv c + e_detj q c * e_src q c + 0 * diff_term g mu bf (e_old q) c)) / e_rho q c)
      = e_rho_o q c * e_detj q c * e_old q c + e_dt q * (conv c + e_detj q c * e_src q c)) by (field; lra).
    rewrite E in P. lra.
Qed.

(** The corrector of the method of lines: mean of the two convection terms, and the new
    diffusion term of the predicted field (explicit) or of the result. *)
Theorem c63_corrector t g mu mu' bf q conv_o conv pred new :
  regular g q -> corrected t g mu mu' bf q conv_o conv pred new ->
  balanced g q (fun c => (conv_o c + conv c) / 2) (diff_term g mu bf (e_old q))
    (diff_term g mu' bf (match t with DExplicit => pred | _ => new end)) (match t with DImplicit => 1 | _ => 1/2 end) new.
Proof.
  intros (ML & RG) (star & S & P). unfold corrector_rhs in S. destruct t; cbn [corr_factors obind] in S; [contradiction| | |];
    injection S as S; intros c I; destruct (RG c I) as (MK & R0 & J).
  - rewrite (P c), <- S. unfold rhs_value. rewrite ML, MK. field. split; [lra|exact J].
  - specialize (P c I). rewrite <- S in P. unfold rhs_value in P. rewrite ML, MK in P.
    match type of P with _ = e_rho q c * (?a / e_rho q c) => assert (E : e_rho q c * (a / e_rho q c) = a) by (field; lra) end.
    rewrite E in P. lra.
  - specialize (P c I). rewrite <- S in P. unfold rhs_value in P. rewrite ML, MK in P.
    match type of P with _ = e_rho q c * (?a / e_rho q c) => assert (E : e_rho q c * (a / e_rho q c) = a) by (field; lra) end.
    rewrite E in P. lra.
Qed.

(** The amount of the scalar in the domain (per cell volume). *)
Definition amount (g : grid) (rho detj phi : ivec -> R) : R := total (gr_dom g) (fun c => rho c * detj c * phi c).

Lemma diff_total g mu bf phi : nonempty (gr_dom g) ->
  total (gr_dom g) (diff_term g mu bf phi) = - inflow g (diff_flux g mu bf phi).
Proof.
  intros N. unfold diff_term. rewrite <- rate_total by exact N. rewrite <- Ropp_mult_distr_l_reverse || idtac.
  rewrite (total_ext _ _ (fun c => conv_rate g (diff_flux g mu bf phi) c * (-1))) by (intros; ring).
  rewrite total_scale. ring.
Qed.
Lemma balance_total g q F mu mu' bf po pn k new : nonempty (gr_dom g) ->
  balanced g q (conv_rate g F) (diff_term g mu bf po) (diff_term g mu' bf pn) k new ->
  amount g (e_rho q) (e_detj q) new = amount g (e_rho_o q) (e_detj q) (e_old q)
    + e_dt q * (total (gr_dom g) (fun c => e_detj q c * e_src q c) + inflow g F
      - (1 - k) * inflow g (diff_flux g mu bf po) - k * inflow g (diff_flux g mu' bf pn)).
Proof.
  intros N B. unfold amount.
  rewrite (total_ext _ _ (fun c => e_rho_o q c * e_detj q c * e_old q c + e_dt q * (((conv_rate g F c + 1 * (e_detj q c * e_src q c))
     + (1 - k) * diff_term g mu bf po c) + k * diff_term g mu' bf pn c))).
  2:{ intros c I. rewrite (B c I). ring. }
  rewrite (total_lin _ (fun c => e_rho_o q c * e_detj q c * e_old q c)).
  rewrite (total_lin _ (fun c => (conv_rate g F c + 1 * (e_detj q c * e_src q c)) + (1 - k) * diff_term g mu bf po c)).
  rewrite (total_lin _ (fun c => conv_rate g F c + 1 * (e_detj q c * e_src q c))).
  rewrite (total_lin _ (conv_rate g F)). rewrite !diff_total, rate_total by exact N. ring.
Qed.

(** The amount changes by the sources and by what passes the boundary of the domain, nothing
    else: convective fluxes [F], diffusive fluxes with the weights of the scheme. *)
Theorem c63_budget s t g mu bf q F new :
  nonempty (gr_dom g) -> regular g q -> (s = Godunov -> t = DExplicit -> unmapped g q) ->
  predicted s t g mu bf q (conv_rate g F) new ->
  exists X, new_diff_field s t g mu bf q (conv_rate g F) new X /\
  amount g (e_rho q) (e_detj q) new = amount g (e_rho_o q) (e_detj q) (e_old q)
    + e_dt q * (total (gr_dom g) (fun c => e_detj q c * e_src q c) + inflow g F
      - (1 - new_weight s t) * inflow g (diff_flux g mu bf (e_old q)) - new_weight s t * inflow g (diff_flux g mu bf X)).
Proof.
  intros N RG UM P. destruct (c63_theta s t g mu bf q _ new RG UM P) as (X & NX & B). exists X. split; [exact NX|].
  apply balance_total; assumption.
Qed.
Theorem c63_budget_corrector t g mu mu' bf q Fo F pred new :
  nonempty (gr_dom g) -> regular g q ->
  corrected t g mu mu' bf q (conv_rate g Fo) (conv_rate g F) pred new ->
  let k := match t with DImplicit => 1 | _ => 1/2 end in
  amount g (e_rho q) (e_detj q) new = amount g (e_rho_o q) (e_detj q) (e_old q)
    + e_dt q * (total (gr_dom g) (fun c => e_detj q c * e_src q c) + (inflow g Fo + inflow g F) / 2
      - (1 - k) * inflow g (diff_flux g mu bf (e_old q))
      - k * inflow g (diff_flux g mu' bf (match t with DExplicit => pred | _ => new end))).
Proof.
  intros N RG P k. pose proof (c63_corrector t g mu mu' bf q _ _ pred new RG P) as B.
  assert (E : forall c, conv_rate g (fun d c => (Fo d c + F d c) / 2) c = (conv_rate g Fo c + conv_rate g F c) / 2).
  { intros c. unfold conv_rate, Rdiv. ring. }
  assert (B2 : balanced g q (conv_rate g (fun d c => (Fo d c + F d c) / 2)) (diff_term g mu bf (e_old q))
    (diff_term g mu' bf (match t with DExplicit => pred | _ => new end)) k new).
  { intros c I. rewrite E. exact (B c I). }
  rewrite (balance_total g q _ mu mu' bf _ _ k new N B2).
  assert (E2 : inflow g (fun d c => (Fo d c + F d c) / 2) = (inflow g Fo + inflow g F) / 2).
  { rewrite <- !rate_total by exact N.
    rewrite (total_ext _ _ (fun c => (conv_rate g Fo c + 1 * conv_rate g F c) * / 2)) by (intros c _; rewrite E; unfold Rdiv; ring).
    rewrite total_scale, total_lin. unfold Rdiv. ring. }
  rewrite E2. reflexivity.
Qed.

Lemma closed_inflow g F : closed_flux g F -> inflow g F = 0.
Proof.
  intros C. unfold inflow.
  assert (Z : forall d, dirn d -> total (low_layer (gr_dom g) d) (fun c => F d c - F d (opposite (gr_dom g) d c)) = 0).
  { intros d D. apply total_zero. intros c I. specialize (C d c D I). destruct (gr_per g d); lra. }
  rewrite !Z by (unfold dirn; tauto). unfold Rdiv. ring.
Qed.
Lemma diff_closed g mu phi : nonempty (gr_dom g) -> closed_flux g (diff_flux g mu no_flux phi).
Proof.
  intros N d c D I. destruct (gr_per g d) eqn:P.
  - apply diff_flux_opposite; assumption.
  - unfold diff_flux. rewrite (wall_low g c d D P I), (wall_high g c d D P I). split; reflexivity.
Qed.
(** In a domain that is closed or periodic in each direction the amount is conserved. *)
Theorem c63_conserved g mu q F new s t :
  nonempty (gr_dom g) -> regular g q -> (s = Godunov -> t = DExplicit -> unmapped g q) ->
  closed_flux g F -> (forall c, e_src q c = 0) ->
  predicted s t g mu no_flux q (conv_rate g F) new ->
  amount g (e_rho q) (e_detj q) new = amount g (e_rho_o q) (e_detj q) (e_old q).
Proof.
  intros N RG UM CF SR P. destruct (c63_budget s t g mu no_flux q F new N RG UM P) as (X & _ & ->).
  rewrite (closed_inflow g F CF), !closed_inflow by (apply diff_closed, N).
  rewrite (total_zero _ (fun c => e_detj q c * e_src q c)) by (intros; rewrite SR; ring). ring.
Qed.
Theorem c63_conserved_corrector t g mu mu' q Fo F pred new :
  nonempty (gr_dom g) -> regular g q -> closed_flux g Fo -> closed_flux g F -> (forall c, e_src q c = 0) ->
  corrected t g mu mu' no_flux q (conv_rate g Fo) (conv_rate g F) pred new ->
  amount g (e_rho q) (e_detj q) new = amount g (e_rho_o q) (e_detj q) (e_old q).
Proof.
  intros N RG C1 C2 SR P. rewrite (c63_budget_corrector t g mu mu' no_flux q Fo F pred new N RG P).
  rewrite (closed_inflow g Fo C1), (closed_inflow g F C2), !closed_inflow by (apply diff_closed, N).
  rewrite (total_zero _ (fun c => e_detj q c * e_src q c)) by (intros; rewrite SR; ring). field.
Qed.

(** Mass: the density equation conserves in the same way. *)
Theorem c63_mass g dt rho_o Fo F :
  nonempty (gr_dom g) ->
  total (gr_dom g) (density_predicted dt rho_o (conv_rate g F)) = total (gr_dom g) rho_o + dt * inflow g F /\
  total (gr_dom g) (density_corrected dt rho_o (conv_rate g Fo) (conv_rate g F))
    = total (gr_dom g) rho_o + dt * ((inflow g Fo + inflow g F) / 2).
Proof.
  intros N. unfold density_predicted, density_corrected. split.
  - rewrite (total_lin _ rho_o), rate_total by exact N. reflexivity.
  - rewrite (total_lin _ rho_o (fun c => conv_rate g Fo c + conv_rate g F c)).
    rewrite total_plus, !rate_total by exact N. field.
Qed.

(** *** Uniform fields *)
(** The method-of-lines flux of k times a quantity is k times its flux (slopes scale). *)
Theorem c63_flux_scales g el eh slope q u k d c :
  mol_flux g el eh (fun d c => k * slope d c) (fun c => k * q c) u d c = k * mol_flux g el eh slope q u d c.
Proof.
  unfold mol_flux.
  destruct ((icomp c d <=? icomp (blo (gr_dom g)) d)%Z && el d); [ring|].
  destruct ((icomp (bhi (gr_dom g)) d + 1 <=? icomp c d)%Z && eh d); [ring|].
  destruct (Rltb small_vel (u d c)); [ring|]. destruct (Rltb (u d c) (- small_vel)); [ring|]. field.
Qed.
Lemma uniform_core g mu mu' q V k w new Ln :
  nonempty (gr_dom g) -> (forall d, gr_dx g d <> 0) -> (exists m, all_cells g (fun c => 0 <= mu' c <= m)) ->
  regular g q -> unmapped g q -> 0 <= e_dt q ->
  all_cells g (fun c => e_old q c = k) -> (forall c, e_src q c = 0) ->
  all_cells g (fun c => e_rho q c = e_rho_o q c + e_dt q * V c) ->
  all_cells g (fun c => Ln c = 0) \/ (0 <= w /\ all_cells g (fun c => Ln c = diff_term g mu' no_flux new c)) ->
  balanced g q (fun c => k * V c) (diff_term g mu no_flux (e_old q)) Ln w new -> all_cells g (fun c => new c = k).
Proof.
  intros N X (m & Hm) RG UM T OLD SR DEN LN B.
  assert (RP : all_cells g (fun c => 0 < e_rho q c)) by (intros c I; destruct RG as (_ & RG); apply (RG c I)).
  assert (S : forall c, in_box (gr_dom g) c -> e_rho q c * new c - (w * e_dt q) * Ln c = e_rho q c * k).
  { intros c I. pose proof (B c I) as E. cbv beta in E. rewrite (diff_const g mu k c N X I (e_old q) OLD), (UM c I), SR, (OLD c I) in E.
    pose proof (DEN c I) as DC. cbv beta in DC.
    assert (Z : e_rho q c * k = e_rho_o q c * k + e_dt q * (k * V c)) by (rewrite DC; ring). lra. }
  intros c I. destruct LN as [L0|(W & LD)].
  - pose proof (S c I) as E. pose proof (L0 c I) as L1. pose proof (RP c I) as R0. cbv beta in *. rewrite L1 in E.
    apply Rmult_eq_reg_l with (e_rho q c); lra.
  - assert (T2 : 0 <= w * e_dt q) by (apply Rmult_le_pos; assumption).
    assert (S2 : forall c, in_box (gr_dom g) c -> e_rho q c * new c - (w * e_dt q) * diff_term g mu' no_flux new c = e_rho q c * k).
    { intros x Ix. rewrite <- (LD x Ix). apply S, Ix. }
    apply Rle_antisym.
    + apply (solve_upper g mu' m (w * e_dt q) (e_rho q) (fun _ => k) new k N X Hm T2 RP S2); [intros; lra|exact I].
    + apply (solve_lower g mu' m (w * e_dt q) (e_rho q) (fun _ => k) new k N X Hm T2 RP S2); [intros; lra|exact I].
Qed.
(** A uniform scalar carried by any velocity in a fluid of variable density stays uniform:
    the density is advanced with the mass fluxes [M], the scalar with [k M]. *)
Theorem c63_uniform s t g mu q M k new :
  nonempty (gr_dom g) -> (forall d, gr_dx g d <> 0) -> (exists m, all_cells g (fun c => 0 <= mu c <= m)) ->
  regular g q -> unmapped g q -> 0 <= e_dt q ->
  all_cells g (fun c => e_old q c = k) -> (forall c, e_src q c = 0) ->
  all_cells g (fun c => e_rho q c = density_predicted (e_dt q) (e_rho_o q) (conv_rate g M) c) ->
  predicted s t g mu no_flux q (conv_rate g (fun d c => k * M d c)) new ->
  all_cells g (fun c => new c = k).
Proof.
  intros N X MU RG UM T OLD SR DEN P.
  destruct (c63_theta s t g mu no_flux q _ new RG (fun _ _ => UM) P) as (Y & NY & B).
  assert (Q : forall w L Z, balanced g q (conv_rate g (fun d c => k * M d c)) (diff_term g mu no_flux (e_old q)) L w Z ->
     balanced g q (fun c => k * conv_rate g M c) (diff_term g mu no_flux (e_old q)) L w Z).
  { intros w L Z H c I. rewrite (H c I). unfold conv_rate. ring. }
  destruct t.
  - destruct P as (? & P & _). discriminate P.
  - unfold new_diff_field in NY.
    assert (YK : all_cells g (fun c => Y c = k)).
    { refine (uniform_core g mu mu q (conv_rate g M) k 0 Y _ N X MU RG UM T OLD SR DEN _ (Q _ _ _ NY)). left.
      intros c I. apply (diff_const g mu k c N X I), OLD. }
    refine (uniform_core g mu mu q (conv_rate g M) k _ new _ N X MU RG UM T OLD SR DEN _ (Q _ _ _ B)). left.
    intros c I. apply (diff_const g mu k c N X I), YK.
  - refine (uniform_core g mu mu q (conv_rate g M) k _ new _ N X MU RG UM T OLD SR DEN _ (Q _ _ _ B)). right.
    split; [destruct s; cbn; lra|]. intros c I. apply diff_ext; [exact NY|reflexivity].
  - refine (uniform_core g mu mu q (conv_rate g M) k _ new _ N X MU RG UM T OLD SR DEN _ (Q _ _ _ B)). right.
    split; [destruct s; cbn; lra|]. intros c I. apply diff_ext; [exact NY|reflexivity].
Qed.
Theorem c63_uniform_corrector t g mu mu' q Mo M k pred new :
  nonempty (gr_dom g) -> (forall d, gr_dx g d <> 0) -> (exists m, all_cells g (fun c => 0 <= mu' c <= m)) ->
  regular g q -> unmapped g q -> 0 <= e_dt q ->
  all_cells g (fun c => e_old q c = k) -> all_cells g (fun c => pred c = k) -> (forall c, e_src q c = 0) ->
  all_cells g (fun c => e_rho q c = density_corrected (e_dt q) (e_rho_o q) (conv_rate g Mo) (conv_rate g M) c) ->
  corrected t g mu mu' no_flux q (conv_rate g (fun d c => k * Mo d c)) (conv_rate g (fun d c => k * M d c)) pred new ->
  all_cells g (fun c => new c = k).
Proof.
  intros N X MU RG UM T OLD PRE SR DEN P. pose proof (c63_corrector t g mu mu' no_flux q _ _ pred new RG P) as B.
  set (V := fun c => (conv_rate g Mo c + conv_rate g M c) / 2).
  assert (DEN2 : all_cells g (fun c => e_rho q c = e_rho_o q c + e_dt q * V c)).
  { intros c I. rewrite (DEN c I). unfold density_corrected, V. field. }
  assert (B2 : forall w L, balanced g q (fun c => (conv_rate g (fun d c => k * Mo d c) c + conv_rate g (fun d c => k * M d c) c) / 2)
      (diff_term g mu no_flux (e_old q)) L w new ->
    balanced g q (fun c => k * V c) (diff_term g mu no_flux (e_old q)) L w new).
  { intros w L H c I. rewrite (H c I). unfold V, conv_rate, Rdiv. ring. }
  refine (uniform_core g mu mu' q V k _ new _ N X MU RG UM T OLD SR DEN2 _ (B2 _ _ B)).
  destruct t.
  - destruct P as (? & P & _). discriminate P.
  - left. intros c I. apply (diff_const g mu' k c N X I), PRE.
  - right. split; [lra|]. intros c I. reflexivity.
  - right. split; [lra|]. intros c I. reflexivity.
Qed.

(** *** Bounds *)
(** Implicit diffusion never leaves the range of what convection and sources give. *)
Theorem c63_implicit_bounds s g mu q conv new lo hi :
  nonempty (gr_dom g) -> (forall d, gr_dx g d <> 0) -> (exists m, all_cells g (fun c => 0 <= mu c <= m)) ->
  regular g q -> unmapped g q -> 0 <= e_dt q ->
  predicted s DImplicit g mu no_flux q conv new ->
  all_cells g (fun c => lo <= (e_rho_o q c * e_old q c + e_dt q * (conv c + e_src q c)) / e_rho q c <= hi) ->
  all_cells g (fun c => lo <= new c <= hi).
Proof.
  intros N X (m & Hm) RG UM T P B.
  destruct (c63_theta s DImplicit g mu no_flux q conv new RG (fun _ _ => UM) P) as (Y & NY & E). unfold new_diff_field in NY.
  assert (RP : all_cells g (fun c => 0 < e_rho q c)) by (intros c I; destruct RG as (_ & RG); apply (RG c I)).
  set (r := fun c => (e_rho_o q c * e_old q c + e_dt q * (conv c + e_src q c)) / e_rho q c) in *.
  assert (S : forall c, in_box (gr_dom g) c -> e_rho q c * new c - e_dt q * diff_term g mu no_flux new c = e_rho q c * r c).
  { intros c I. specialize (E c I); cbv beta in E. rewrite (UM c I), (diff_ext g mu Y new no_flux c NY ltac:(reflexivity)) in E.
    assert (W : new_weight s DImplicit = 1) by (destruct s; reflexivity). rewrite W in E. pose proof (RP c I) as R0. cbv beta in R0.
    assert (Z : e_rho q c * r c = e_rho_o q c * e_old q c + e_dt q * (conv c + e_src q c)) by (unfold r; field; lra). lra. }
  intros c I. split.
  - apply (solve_lower g mu m (e_dt q) (e_rho q) r new lo N X Hm T RP S); [|exact I]. intros x Ix. apply (B x Ix).
  - apply (solve_upper g mu m (e_dt q) (e_rho q) r new hi N X Hm T RP S); [|exact I]. intros x Ix. apply (B x Ix).
Qed.

(** ** C64: the CFL numbers *)
Lemma max_of_ge (f : dtcell -> R) : forall (cs : list dtcell) a, a <= fold_left (fun m x => rmax m (f x)) cs a /\
  forall x, In x cs -> f x <= fold_left (fun m x => rmax m (f x)) cs a.
Proof.
  induction cs as [|y cs IH]; intros a; cbn [fold_left]; [split; [lra|intros x []]|].
  destruct (IH (rmax a (f y))) as (A & B). assert (a <= rmax a (f y) /\ f y <= rmax a (f y)) as (C & D).
  { unfold rmax. destruct (Rltb a (f y)) eqn:E; [apply Rltb_spec in E|apply Rltb_false in E]; lra. }
  split; [lra|]. intros x [<-|Hx]; [lra|apply B, Hx].
Qed.
Lemma max_of_spec f cs : 0 <= max_of f cs /\ forall x, In x cs -> f x <= max_of f cs.
Proof. exact (max_of_ge f cs 0). Qed.
Lemma rmax_l a b : a <= rmax a b.
Proof. unfold rmax. destruct (Rltb a b) eqn:E; [apply Rltb_spec in E|]; lra. Qed.
Lemma rmax_r a b : b <= rmax a b.
Proof. unfold rmax. destruct (Rltb a b) eqn:E; [lra|apply Rltb_false in E]; lra. Qed.
Lemma max3_ge a b c : a <= max3 a b c /\ b <= max3 a b c /\ c <= max3 a b c.
Proof. unfold max3. pose proof (rmax_l a b). pose proof (rmax_r a b). pose proof (rmax_l (rmax a b) c). pose proof (rmax_r (rmax a b) c). lra. Qed.

Lemma eps_pos : 0 < eps_m.
Proof. unfold eps_m. apply Rinv_0_lt_compat. lra. Qed.
(** The step solves S x^2 + (C + V) x = 1 at cfl = 1. *)
Lemma step_bounds cfl C V S : 0 <= C -> 0 <= V -> 0 <= S -> 0 <= cfl ->
  let dt := cfl_step cfl (C, V, S) in
  0 <= dt /\ (C + V) * dt <= cfl /\ (cfl <= 1 -> (C + V) * dt + S * (dt * dt) <= cfl).
Proof.
  intros HC HV HS HF dt. set (A := C + V). assert (HA : 0 <= A) by (unfold A; lra).
  set (u := A + sqrt (A * A + 4 * S)). assert (HQ : sqrt (A * A + 4 * S) * sqrt (A * A + 4 * S) = A * A + 4 * S) by (apply sqrt_sqrt; nra).
  pose proof (sqrt_pos (A * A + 4 * S)) as SP. set (r := sqrt (A * A + 4 * S)) in *.
  assert (RA : A <= r) by nra.
  set (w := rmax u eps_m). assert (W1 : u <= w) by apply rmax_l. assert (W2 : 0 < w) by (pose proof (rmax_r u eps_m); pose proof eps_pos; unfold w; lra).
  assert (ED : dt = 2 * cfl / w) by reflexivity.
  assert (D0 : dt * w = 2 * cfl) by (rewrite ED; field; lra).
  assert (DP : 0 <= dt). { rewrite ED. unfold Rdiv. apply Rmult_le_pos; [lra|]. left. apply Rinv_0_lt_compat, W2. }
  assert (DU : dt * u <= 2 * cfl) by (rewrite <- D0; apply Rmult_le_compat_l; assumption).
  split; [exact DP|]. split.
  - unfold u in DU. nra.
  - intros L. (* x = dt/cfl: S x^2 + A x <= 1, with u x <= 2 *)
    destruct (Req_dec cfl 0) as [Z|NZ].
    { assert (dt = 0) by (apply Rmult_eq_reg_r with w; [lra|lra]). rewrite H. lra. }
    assert (CP : 0 < cfl) by lra. set (x := dt / cfl). assert (DX : dt = cfl * x) by (unfold x; field; lra).
    assert (XP : 0 <= x) by (unfold x, Rdiv; apply Rmult_le_pos; [exact DP|left; apply Rinv_0_lt_compat, CP]).
    assert (UX : x * u <= 2) by (apply Rmult_le_reg_l with cfl; [exact CP|rewrite DX in DU; lra]).
    assert (K : A * x + S * (x * x) <= 1).
    { assert (r * x <= 2 - A * x) by (unfold u in UX; lra). assert (0 <= r * x) by (apply Rmult_le_pos; lra).
      assert ((r * x) * (r * x) <= (2 - A * x) * (2 - A * x)) by (apply Rmult_le_compat; lra).
      assert ((r * x) * (r * x) = (A * A + 4 * S) * (x * x)) by (rewrite <- HQ; ring). lra. }
    rewrite DX.
    replace (A * (cfl * x) + S * (cfl * x * (cfl * x))) with (cfl * (A * x + cfl * (S * (x * x)))) by ring.
    assert (0 <= S * (x * x)) by (apply Rmult_le_pos; [exact HS|nra]).
    assert (cfl * (S * (x * x)) <= 1 * (S * (x * x))) by (apply Rmult_le_compat_r; assumption).
    assert (A * x + cfl * (S * (x * x)) <= 1) by lra.
    assert (cfl * (A * x + cfl * (S * (x * x))) <= cfl * 1) by (apply Rmult_le_compat_l; lra). lra.
Qed.

Lemma numbers_nonneg t vof frc cs : let '(C, V, A) := cfl_numbers t vof frc cs in 0 <= C /\ 0 <= V /\ 0 <= A.
Proof.
  unfold cfl_numbers. pose proof (proj1 (max_of_spec conv_number cs)). pose proof (rmax_l (max_of conv_number cs) (if vof then max_of phase_number cs else 0)).
  pose proof (proj1 (max_of_spec diff_number cs)). pose proof (proj1 (max_of_spec force_number cs)).
  split; [lra|]. split; [destruct t; lra|destruct frc; lra].
Qed.
Lemma conv_dir x d : dirn d -> t_mask x = 1%Z -> Rabs (t_vel x d) * t_dxi x d / t_fac x d <= conv_number x.
Proof.
  intros D MK. unfold conv_number. rewrite MK.
  match goal with |- _ <= rmax (max3 ?a ?b ?c) ?e => pose proof (rmax_l (max3 a b c) e); pose proof (max3_ge a b c) end.
  destruct D as [->|[->| ->]]; lra.
Qed.
Lemma force_dir x d : dirn d -> t_mask x = 1%Z -> Rabs (t_frc x d) * t_dxi x d / t_fac x d / t_rho x <= force_number x.
Proof.
  intros D MK. unfold force_number. rewrite MK.
  match goal with |- _ <= rmax (max3 ?a ?b ?c) ?e => pose proof (rmax_l (max3 a b c) e); pose proof (max3_ge a b c) end.
  destruct D as [->|[->| ->]]; lra.
Qed.

(** The viscosity on the two faces of a cell along any direction, boundary faces
    included, stays within the bounds of the cell viscosities. *)
Theorem c63_face_viscosity g mu M d c : nonempty (gr_dom g) -> dirn d ->
  (forall x, in_box (gr_dom g) x -> 0 <= mu x <= M) -> in_box (gr_dom g) c ->
  0 <= face_mu g mu d c <= M /\ 0 <= face_mu g mu d (shift c d 1) <= M.
Proof.
  intros N D H I. destruct (face_mu_range g mu M d c N D H I) as (F1 & F2).
  pose proof (H c I) as Hc. pose proof I as J. rewrite in_box_icomp in J. specialize (J d D).
  split.
  - destruct (wall_face g d c) eqn:W; [|exact (F1 eq_refl)].
    unfold wall_face in W. unfold face_mu. destruct (gr_per g d); [discriminate|].
    cbn [negb andb] in W. destruct (at_low g d c) eqn:L; [exact Hc|]. cbn [orb] in W.
    unfold at_high in W. lia.
  - destruct (wall_face g d (shift c d 1)) eqn:W; [|exact (F2 eq_refl)].
    unfold wall_face in W. unfold face_mu. destruct (gr_per g d); [discriminate|].
    cbn [negb andb] in W. rewrite shift_back. destruct (at_low g d (shift c d 1)) eqn:L.
    + unfold at_low in L. rewrite icomp_shift in L by exact D. lia.
    + cbn [orb] in W. rewrite W. exact Hc.
Qed.

(** Within one step no cell is crossed by more than the CFL number, in any direction, also when
    the acceleration of the momentum sources is added (cfl <= 1). *)
Theorem c64_courant t vof frc cs cfl x d :
  In x cs -> t_mask x = 1%Z -> dirn d -> 0 <= cfl -> let dt := cfl_step cfl (cfl_numbers t vof frc cs) in
  0 <= dt /\
  Rabs (t_vel x d) * (t_dxi x d / t_fac x d) * dt <= cfl /\
  (frc = true -> cfl <= 1 ->
   Rabs (t_vel x d) * (t_dxi x d / t_fac x d) * dt + Rabs (t_frc x d) / t_rho x * (t_dxi x d / t_fac x d) * (dt * dt) <= cfl).
Proof.
  intros I MK D F. pose proof (numbers_nonneg t vof frc cs) as NN. pose proof (conv_dir x d D MK) as CD. pose proof (force_dir x d D MK) as FD.
  pose proof (proj2 (max_of_spec conv_number cs) x I) as CM. pose proof (proj2 (max_of_spec force_number cs) x I) as FM.
  unfold cfl_numbers in *. cbv zeta.
  set (C := rmax (max_of conv_number cs) (if vof then max_of phase_number cs else 0)) in *.
  set (V := match t with DExplicit => max_of diff_number cs | _ => 0 end) in *.
  set (S := if frc then max_of force_number cs else 0) in *. destruct NN as (NC & NV & NS).
  assert (CC : max_of conv_number cs <= C) by apply rmax_l.
  destruct (step_bounds cfl C V S NC NV NS F) as (DP & B1 & B2). set (dt := cfl_step cfl (C, V, S)) in *.
  assert (E1 : Rabs (t_vel x d) * (t_dxi x d / t_fac x d) * dt <= (C + V) * dt).
  { apply Rmult_le_compat_r; [exact DP|]. unfold Rdiv in *. lra. }
  split; [exact DP|]. split; [lra|]. intros FR L. specialize (B2 L).
  assert (E2 : Rabs (t_frc x d) / t_rho x * (t_dxi x d / t_fac x d) * (dt * dt) <= S * (dt * dt)).
  { apply Rmult_le_compat_r; [nra|]. unfold S. rewrite FR. unfold Rdiv in *. lra. }
  lra.
Qed.
(** Near the interface of two phases: the liquid leaving through all directions together is at
    most half the CFL number. *)
Theorem c64_interface t frc cs cfl x :
  In x cs -> t_mask x = 1%Z -> t_near x = true -> 0 <= cfl ->
  (Rabs (t_vel x 0) * (t_dxi x 0 / t_fac x 0) + Rabs (t_vel x 1) * (t_dxi x 1 / t_fac x 1) + Rabs (t_vel x 2) * (t_dxi x 2 / t_fac x 2))
    * cfl_step cfl (cfl_numbers t true frc cs) <= cfl / 2.
Proof.
  intros I MK NR F. pose proof (numbers_nonneg t true frc cs) as NN. pose proof (proj2 (max_of_spec phase_number cs) x I) as PM.
  unfold cfl_numbers in *. set (C := rmax (max_of conv_number cs) (max_of phase_number cs)) in *.
  set (V := match t with DExplicit => max_of diff_number cs | _ => 0 end) in *. set (S := if frc then max_of force_number cs else 0) in *.
  destruct NN as (NC & NV & NS). assert (CC : max_of phase_number cs <= C) by apply rmax_r.
  destruct (step_bounds cfl C V S NC NV NS F) as (DP & B1 & _). set (dt := cfl_step cfl (C, V, S)) in *.
  clearbody C. set (pm := max_of phase_number cs) in *. clearbody pm. unfold phase_number in PM. rewrite MK, NR in PM. unfold Rdiv in *.
  match goal with |- ?a * dt <= _ => assert (E : 2 * a * dt <= (C + V) * dt) by (apply Rmult_le_compat_r; [exact DP|lra]) end. lra.
Qed.
(** Explicit diffusion: the diffusion number of the momentum viscosity. *)
Theorem c64_diffusion vof frc cs cfl x :
  In x cs -> t_mask x = 1%Z -> 0 <= cfl ->
  let h d := (t_dxi x d / t_fac x d) * (t_dxi x d / t_fac x d) in
  2 * (t_mu x / t_rho x) * (h 0%Z + h 1%Z + h 2%Z) * cfl_step cfl (cfl_numbers DExplicit vof frc cs) <= cfl.
Proof.
  intros I MK F h. pose proof (numbers_nonneg DExplicit vof frc cs) as NN. pose proof (proj2 (max_of_spec diff_number cs) x I) as PM.
  unfold cfl_numbers in *. set (C := rmax (max_of conv_number cs) (if vof then max_of phase_number cs else 0)) in *.
  set (V := max_of diff_number cs) in *. set (S := if frc then max_of force_number cs else 0) in *.
  destruct NN as (NC & NV & NS). destruct (step_bounds cfl C V S NC NV NS F) as (DP & B1 & _). set (dt := cfl_step cfl (C, V, S)) in *.
  assert (E : 2 * (t_mu x / t_rho x) * (h 0%Z + h 1%Z + h 2%Z) <= diff_number x).
  { unfold diff_number. rewrite MK. match goal with |- _ <= rmax ?a ?b => pose proof (rmax_l a b) end. unfold h, Rdiv in *. lra. }
  assert (2 * (t_mu x / t_rho x) * (h 0%Z + h 1%Z + h 2%Z) * dt <= (C + V) * dt) by (apply Rmult_le_compat_r; [exact DP|lra]). lra.
Qed.
(** Explicit diffusion with that time step creates no new extrema: Godunov (two stages). *)
Theorem c63_explicit_bounds g mu q new r lo hi vof frc cs cfl :
  nonempty (gr_dom g) -> (forall d, 0 < gr_dx g d) -> all_cells g (fun c => 0 <= mu c) ->
  regular g q -> unmapped g q -> 0 < r -> (forall c, e_rho q c = r /\ e_rho_o q c = r) -> (forall c, e_src q c = 0) ->
  (** the cells compute_dt looked at include the ones of this grid *)
  all_cells g (fun c => exists x, In x cs /\ t_mask x = 1%Z /\ t_mu x = mu c /\ t_rho x = r /\
    forall d, t_dxi x d = / gr_dx g d /\ t_fac x d = 1) ->
  0 <= cfl <= 1 -> 0 <= e_dt q <= cfl_step cfl (cfl_numbers DExplicit vof frc cs) ->
  predicted Godunov DExplicit g mu no_flux q (fun _ => 0) new ->
  all_cells g (fun c => lo <= e_old q c <= hi) -> all_cells g (fun c => lo <= new c <= hi).
Proof.
  intros N X0 MU RG UM R0 RH SR CS CF DT P B.
  assert (X : forall d, gr_dx g d <> 0) by (intros d; pose proof (X0 d); lra).
  set (H := / (gr_dx g 0%Z * gr_dx g 0%Z) + / (gr_dx g 1%Z * gr_dx g 1%Z) + / (gr_dx g 2%Z * gr_dx g 2%Z)).
  assert (HP : 0 < H). { assert (forall d, 0 < / (gr_dx g d * gr_dx g d)) by (intros d; apply Rinv_0_lt_compat; pose proof (X0 d); nra).
    pose proof (H0 0%Z). pose proof (H0 1%Z). pose proof (H0 2%Z). unfold H. lra. }
  assert (K : all_cells g (fun c => e_dt q / r * (2 * mu c * H) <= 1)).
  { intros c I. destruct (CS c I) as (x & Ix & MK & EM & ER & GE).
    pose proof (c64_diffusion vof frc cs cfl x Ix MK (proj1 CF)) as D. cbv zeta in D. rewrite EM, ER in D.
    destruct (GE 0%Z) as (G0 & F0). destruct (GE 1%Z) as (G1 & F1). destruct (GE 2%Z) as (G2 & F2). rewrite G0, G1, G2, F0, F1, F2 in D.
    set (T := cfl_step cfl (cfl_numbers DExplicit vof frc cs)) in *.
    assert (E : 2 * (mu c / r) * (/ gr_dx g 0%Z / 1 * (/ gr_dx g 0%Z / 1) + / gr_dx g 1%Z / 1 * (/ gr_dx g 1%Z / 1) + / gr_dx g 2%Z / 1 * (/ gr_dx g 2%Z / 1)) = 2 * (mu c / r) * H).
    { unfold H. field. pose proof (X 0%Z). pose proof (X 1%Z). pose proof (X 2%Z). repeat split; lra || assumption. }
    rewrite E in D.
    assert (0 <= 2 * (mu c / r) * H). { pose proof (MU c I). cbv beta in *. apply Rmult_le_pos; [|lra]. unfold Rdiv. apply Rmult_le_pos; [lra|].
      apply Rmult_le_pos; [assumption|]. left. apply Rinv_0_lt_compat, R0. }
    assert (2 * (mu c / r) * H * e_dt q <= 2 * (mu c / r) * H * T) by (apply Rmult_le_compat_l; lra).
    replace (e_dt q / r * (2 * mu c * H)) with (2 * (mu c / r) * H * e_dt q) by (field; lra). lra. }
  (* a bound of the viscosity that keeps the estimate *)
  destruct (arg_max mu (cells (gr_dom g)) (cells_nonempty _ N)) as (cm & CM1 & CM2). apply in_cells in CM1.
  assert (HM : forall x, in_box (gr_dom g) x -> 0 <= mu x <= mu cm).
  { intros x Ix. split; [exact (MU x Ix)|]. apply CM2, in_cells, Ix. }
  pose proof (K cm CM1) as KM. cbv beta in KM.
  assert (K0 : 0 <= e_dt q / r). { unfold Rdiv. apply Rmult_le_pos; [lra|]. left. apply Rinv_0_lt_compat, R0. }
  destruct (c63_theta Godunov DExplicit g mu no_flux q _ new RG (fun _ _ => UM) P) as (Y & NY & E). unfold new_diff_field in NY.
  assert (YE : all_cells g (fun c => Y c = e_old q c + e_dt q / r * diff_term g mu no_flux (e_old q) c)).
  { intros c I. specialize (NY c I); cbv beta in NY. destruct (RH c) as (R1 & R2). rewrite R1, R2, (UM c I), SR in NY.
    apply Rmult_eq_reg_l with r; [|lra]. transitivity (r * 1 * Y c); [ring|]. rewrite NY. field. lra. }
  assert (YB : all_cells g (fun c => lo <= Y c <= hi)).
  { intros c I. apply (euler_bounds g mu (mu cm) (e_dt q / r) (Y c) (e_old q) lo hi c N X HM K0 KM B I (YE c I)). }
  intros c I.
  assert (ZB : lo <= Y c + e_dt q / r * diff_term g mu no_flux Y c <= hi).
  { apply (euler_bounds g mu (mu cm) (e_dt q / r) _ Y lo hi c N X HM K0 KM YB I eq_refl). }
  assert (NE : new c = (e_old q c + (Y c + e_dt q / r * diff_term g mu no_flux Y c)) / 2).
  { specialize (E c I); cbv beta in E. destruct (RH c) as (R1 & R2). rewrite R1, R2, (UM c I), SR in E. cbn [new_weight] in E.
    rewrite (YE c I). apply Rmult_eq_reg_l with r; [|lra]. transitivity (r * 1 * new c); [ring|]. rewrite E. field. lra. }
  pose proof (B c I). cbv beta in *. rewrite NE. lra.
Qed.

(** *** Energy: Crank-Nicolson and implicit diffusion are stable for every time step. *)
Theorem c63_energy s t g mu q new :
  t = DCrank \/ t = DImplicit ->
  nonempty (gr_dom g) -> (forall d, 0 < gr_dx g d) -> (exists m, all_cells g (fun c => 0 <= mu c <= m)) ->
  regular g q -> unmapped g q -> 0 <= e_dt q -> (forall c, e_rho q c = e_rho_o q c) -> (forall c, e_src q c = 0) ->
  predicted s t g mu no_flux q (fun _ => 0) new ->
  total (gr_dom g) (fun c => e_rho q c * (new c * new c)) <= total (gr_dom g) (fun c => e_rho q c * (e_old q c * e_old q c)).
Proof.
  intros TT N X0 (m & Hm) RG UM T RH SR P.
  assert (X : forall d, gr_dx g d <> 0) by (intros d; pose proof (X0 d); lra).
  destruct (c63_theta s t g mu no_flux q _ new RG (fun _ _ => UM) P) as (Y & NY & E).
  assert (NY2 : forall c, Y c = new c) by (destruct TT as [-> | ->]; exact NY).
  set (w := new_weight s t) in *.
  assert (E2 : all_cells g (fun c => e_rho q c * (new c - e_old q c) = e_dt q * ((1 - w) * diff_term g mu no_flux (e_old q) c + w * diff_term g mu no_flux new c))).
  { intros c I. specialize (E c I); cbv beta in E. rewrite (UM c I), SR, <- (RH c), (diff_ext g mu Y new no_flux c NY2 ltac:(reflexivity)) in E. lra. }
  destruct TT as [-> | ->].
  - assert (W : w = 1/2) by (unfold w; destruct s; reflexivity). rewrite W in E2.
    pose proof (parts g mu m (fun c => new c + e_old q c) N X0 Hm) as PB.
    enough (Z : total (gr_dom g) (fun c => e_rho q c * (new c * new c)) = total (gr_dom g) (fun c => e_rho q c * (e_old q c * e_old q c))
      + e_dt q * (1/2) * total (gr_dom g) (fun c => (new c + e_old q c) * diff_term g mu no_flux (fun c => new c + e_old q c) c)).
    { rewrite Z. assert (0 <= e_dt q * (1/2)) by lra. nra. }
    rewrite <- total_lin. apply total_ext. intros c I. rewrite (diff_add g mu new (e_old q) c X I). specialize (E2 c I); cbv beta in E2. cbv beta in E2.
    transitivity (e_rho q c * (e_old q c * e_old q c) + (new c + e_old q c) * (e_rho q c * (new c - e_old q c))); [ring|].
    rewrite E2. field.
  - assert (W : w = 1) by (unfold w; destruct s; reflexivity). rewrite W in E2.
    pose proof (parts g mu m new N X0 Hm) as PB.
    assert (Z : total (gr_dom g) (fun c => e_rho q c * (new c * new c)) = total (gr_dom g) (fun c => e_rho q c * (e_old q c * e_old q c))
      + 2 * e_dt q * total (gr_dom g) (fun c => new c * diff_term g mu no_flux new c)
      - total (gr_dom g) (fun c => e_rho q c * ((new c - e_old q c) * (new c - e_old q c)))).
    { rewrite <- total_lin. unfold Rminus. rewrite <- (Rmult_1_l (total _ (fun c => e_rho q c * ((new c + - e_old q c) * _)))), Ropp_mult_distr_l, <- total_lin.
      apply total_ext. intros c I. specialize (E2 c I); cbv beta in E2. cbv beta in E2.
      transitivity (e_rho q c * (e_old q c * e_old q c) + 2 * new c * (e_rho q c * (new c - e_old q c)) - e_rho q c * ((new c - e_old q c) * (new c - e_old q c))); [ring|].
      rewrite E2. ring. }
    assert (0 <= total (gr_dom g) (fun c => e_rho q c * ((new c - e_old q c) * (new c - e_old q c)))).
    { unfold total. apply rsum_nonneg. intros c Hc. apply in_cells in Hc.
      destruct RG as (_ & RG). destruct (RG c Hc) as (_ & R0 & _). apply Rmult_le_pos; [lra|exact (Rle_0_sqr (new c - e_old q c))]. }
    rewrite Z. nra.
Qed.

(** *** Masked cells *)
(** With explicit diffusion a masked cell whose density does not change keeps its value. *)
Theorem c63_masked s g mu bf q conv new c :
  e_mul q = true -> e_mask q c = 0%Z -> e_rho q c = e_rho_o q c -> 0 < e_rho q c -> e_detj q c <> 0 ->
  predicted s DExplicit g mu bf q conv new -> new c = e_old q c.
Proof.
  intros ML MK RH R0 J (star & S & P). injection S as S.
  assert (E : star c = e_old q c).
  { rewrite <- S. unfold rhs_value. rewrite ML, MK, <- RH. field. split; [lra|exact J]. }
  destruct s; rewrite (P c); [|exact E]. unfold rk2_post_hoc. rewrite MK, ML, E. field. lra.
Qed.

(** *** Mesh mapping and explicit diffusion *)
(** Two cells side by side between walls. *)
Definition two_grid (dx dy : R) : grid :=
  GR (Box (IV 0 0 0) (IV 1 0 0)) (fun d => if (d =? 0)%Z then dx else dy) (fun _ => false).
Definition pair (a b : R) (c : ivec) : R := if (iv0 c =? 0)%Z then a else b.
Lemma two_ok dx dy : nonempty (gr_dom (two_grid dx dy)).
Proof. unfold nonempty, two_grid, icomp; cbn [gr_dom blo bhi Z.eqb Pos.eqb iv0 iv1 iv2]; lia. Qed.
Lemma two_cells dx dy c : in_box (gr_dom (two_grid dx dy)) c -> c = IV 0 0 0 \/ c = IV 1 0 0.
Proof.
  destruct c as [i j k]. unfold in_box, two_grid. cbn [gr_dom blo bhi iv0 iv1 iv2]. intros H.
  assert (j = 0 /\ k = 0)%Z as (-> & ->) by lia. assert (i = 0 \/ i = 1)%Z as [-> | ->] by lia; tauto.
Qed.
Lemma two_diff dx dy m phi : dx <> 0 ->
  diff_term (two_grid dx dy) (fun _ => m) no_flux phi (IV 0 0 0) = m * (phi (IV 1 0 0) - phi (IV 0 0 0)) / (dx * dx) /\
  diff_term (two_grid dx dy) (fun _ => m) no_flux phi (IV 1 0 0) = - (m * (phi (IV 1 0 0) - phi (IV 0 0 0)) / (dx * dx)).
Proof.
  intros X. unfold diff_term, conv_rate, diff_flux, face_mu, wall_face, at_low, at_high, wrap, two_grid, no_flux, shift, icomp.
  cbn [gr_dom gr_dx gr_per negb andb orb Z.eqb Pos.eqb blo bhi iv0 iv1 iv2 Z.add Z.sub Z.opp Z.pos_sub Pos.add Pos.succ Pos.pred_double].
  replace (0 - 0) with 0 by ring. rewrite !Rmult_0_r. split; field; assumption.
Qed.
Lemma two_total dx dy f : total (gr_dom (two_grid dx dy)) f = f (IV 0 0 0) + f (IV 1 0 0).
Proof. unfold total, two_grid, gr_dom. change (cells (Box (IV 0 0 0) (IV 1 0 0))) with [IV 0 0 0; IV 1 0 0]. cbn [map]. rewrite !rsum_cons. change (rsum []) with 0. ring. Qed.

(** With mesh mapping the second stage of explicit Godunov diffusion is not divided by the
    Jacobian: a closed domain loses or gains scalar. *)
Theorem c63_mapped_refuted :
  ~ (forall g mu q F new, nonempty (gr_dom g) -> regular g q -> closed_flux g F -> (forall c, e_src q c = 0) ->
     predicted Godunov DExplicit g mu no_flux q (conv_rate g F) new ->
     amount g (e_rho q) (e_detj q) new = amount g (e_rho_o q) (e_detj q) (e_old q)).
Proof.
  intros H. set (g := two_grid 1 1).
  set (q := EQ true 1 (fun _ => 1%Z) (pair 1 2) (fun _ => 1) (fun _ => 1) (pair 0 1) (fun _ => 0)).
  set (star := fun c => rhs_value q DExplicit (conv_rate g (fun _ _ => 0) c + e_detj q c * e_src q c + 1 * diff_term g (fun _ => 1) no_flux (e_old q) c) c).
  set (new := rk2_post_hoc q (fun x => diff_term g (fun _ => 1) no_flux star x - diff_term g (fun _ => 1) no_flux (e_old q) x) star).
  specialize (H g (fun _ => 1) q (fun _ _ => 0) new (two_ok 1 1)).
  assert (A : regular g q).
  { split; [reflexivity|]. intros c I. split; [reflexivity|]. split; [cbn; lra|]. destruct (two_cells _ _ c I) as [-> | ->]; cbn; lra. }
  specialize (H A).
  assert (B : closed_flux g (fun _ _ => 0)) by (intros d c _ _; cbn; split; reflexivity).
  specialize (H B (fun _ => eq_refl)). unfold amount in H. rewrite !(two_total 1 1) in H.
  assert (P : predicted Godunov DExplicit g (fun _ => 1) no_flux q (conv_rate g (fun _ _ => 0)) new).
  { exists star. split; [reflexivity|]. intros c. reflexivity. }
  specialize (H P). clear P.
  destruct (two_diff 1 1 1 (e_old q) ltac:(lra)) as (D0 & D1). destruct (two_diff 1 1 1 star ltac:(lra)) as (S0 & S1). fold g in D0, D1, S0, S1.
  assert (O0 : e_old q (IV 0 0 0) = 0) by reflexivity. assert (O1 : e_old q (IV 1 0 0) = 1) by reflexivity.
  rewrite O0, O1 in D0, D1.
  assert (Z : forall c, conv_rate g (fun _ _ => 0) c = 0) by (intros; unfold conv_rate; ring).
  assert (T0 : star (IV 0 0 0) = 1). { unfold star, rhs_value. rewrite Z, D0. cbn. field. }
  assert (T1 : star (IV 1 0 0) = 1/2). { unfold star, rhs_value. rewrite Z, D1. cbn. field. }
  rewrite T0, T1 in S0, S1. unfold new, rk2_post_hoc in H. rewrite S0, S1, D0, D1, T0, T1 in H. cbn in H. lra.
Qed.

(** *** What the time step does not look at *)
(** compute_dt bounds explicit diffusion with the viscosity of the momentum equation only: a
    scalar with a Prandtl number of one third leaves its range at cfl = 1. *)
Definition two_cell_data : dtcell :=
  DC (fun d => if (d =? 0)%Z then 1 else / 10) (fun _ => 1) 1 (fun _ => 0) 1 1 (fun _ => 0) false (fun _ => (0, 0)).
Lemma rmax_is_l a b : b <= a -> rmax a b = a.
Proof. intros H. rewrite rmax_spec. apply Rmax_left, H. Qed.
Lemma rmax_is_r a b : a <= b -> rmax a b = b.
Proof. intros H. rewrite rmax_spec. apply Rmax_right, H. Qed.
Lemma two_step : cfl_step 1 (cfl_numbers DExplicit false false [two_cell_data]) = 50 / 102.
Proof.
  assert (A : conv_number two_cell_data = 0).
  { unfold conv_number, two_cell_data, max3; cbn [t_mask t_vel t_dxi t_fac Z.eqb Pos.eqb]. rewrite Rabs_R0.
    rewrite (rmax_is_l (1 * 0 * 1 / 1)) by lra. rewrite (rmax_is_l (1 * 0 * 1 / 1)) by lra. rewrite rmax_is_l by lra. lra. }
  assert (B : diff_number two_cell_data = 204 / 100).
  { unfold diff_number, two_cell_data; cbn [t_mask t_mu t_rho t_dxi t_fac Z.eqb Pos.eqb]. rewrite rmax_is_l by lra. lra. }
  unfold cfl_numbers, max_of. cbn [fold_left]. rewrite A, B. rewrite (rmax_is_l 0 0) by lra. rewrite (rmax_is_l 0 0) by lra. rewrite (rmax_is_r 0) by lra.
  unfold cfl_step, unit_time. replace ((0 + 204/100) * (0 + 204/100) + 4 * 0) with ((204/100) * (204/100)) by ring.
  rewrite sqrt_square by lra. rewrite rmax_is_l; [field|]. unfold eps_m.
  assert (/ 4503599627370496 <= / 1) by (apply Rinv_le_contravar; lra). lra.
Qed.
Theorem c64_scalar_refuted :
  ~ (forall g mu mus q new lo hi cs cfl r pr,
     nonempty (gr_dom g) -> (forall d, 0 < gr_dx g d) -> all_cells g (fun c => 0 <= mu c) ->
     regular g q -> unmapped g q -> 0 < r -> (forall c, e_rho q c = r /\ e_rho_o q c = r) -> (forall c, e_src q c = 0) ->
     all_cells g (fun c => exists x, In x cs /\ t_mask x = 1%Z /\ t_mu x = mu c /\ t_rho x = r /\
       forall d, dirn d -> t_dxi x d = / gr_dx g d /\ t_fac x d = 1) ->
     0 < pr -> all_cells g (fun c => mus c = mu c / pr) ->
     0 <= cfl <= 1 -> 0 <= e_dt q <= cfl_step cfl (cfl_numbers DExplicit false false cs) ->
     predicted Godunov DExplicit g mus no_flux q (fun _ => 0) new ->
     all_cells g (fun c => lo <= e_old q c <= hi) -> all_cells g (fun c => lo <= new c <= hi)).
Proof.
  intros H. set (g := two_grid 1 10).
  set (q := EQ true (50/102) (fun _ => 1%Z) (fun _ => 1) (fun _ => 1) (fun _ => 1) (pair 1 (-1)) (fun _ => 0)).
  set (star := fun c => rhs_value q DExplicit (0 + e_detj q c * e_src q c + 1 * diff_term g (fun _ => 3) no_flux (e_old q) c) c).
  set (new := rk2_post_hoc q (fun x => diff_term g (fun _ => 3) no_flux star x - diff_term g (fun _ => 3) no_flux (e_old q) x) star).
  specialize (H g (fun _ => 1) (fun _ => 3) q new (-1) 1 [two_cell_data] 1 1 (1/3) (two_ok 1 10)).
  assert (C : new (IV 0 0 0) <= 1).
  { apply H.
    - intros d. cbn. destruct (d =? 0)%Z; lra.
    - intros c _. lra.
    - split; [reflexivity|]. intros c _. cbn. split; [reflexivity|]. lra.
    - intros c _. reflexivity.
    - lra.
    - intros c. split; reflexivity.
    - reflexivity.
    - intros c _. exists two_cell_data. split; [left; reflexivity|]. split; [reflexivity|]. split; [reflexivity|]. split; [reflexivity|].
      intros d D. unfold two_cell_data, g, two_grid; cbn [t_dxi t_fac gr_dx]. split; [|reflexivity].
      destruct (d =? 0)%Z; [field|reflexivity].
    - lra.
    - intros c _. lra.
    - lra.
    - rewrite two_step. cbn. lra.
    - exists star. split; [reflexivity|]. intros c. reflexivity.
    - intros c _. cbn. unfold pair. destruct (iv0 c =? 0)%Z; lra.
    - unfold in_box, g, two_grid; cbn [gr_dom blo bhi iv0 iv1 iv2]; lia. }
  destruct (two_diff 1 10 3 (e_old q) ltac:(lra)) as (D0 & D1). destruct (two_diff 1 10 3 star ltac:(lra)) as (S0 & S1). fold g in D0, D1, S0, S1.
  assert (O0 : e_old q (IV 0 0 0) = 1) by reflexivity. assert (O1 : e_old q (IV 1 0 0) = -1) by reflexivity.
  rewrite O0, O1 in D0, D1.
  assert (T0 : star (IV 0 0 0) = 1 - 300/102). { unfold star, rhs_value. rewrite D0. cbn. field. }
  assert (T1 : star (IV 1 0 0) = -1 + 300/102). { unfold star, rhs_value. rewrite D1. cbn. field. }
  rewrite T0, T1 in S0. unfold new, rk2_post_hoc in C. rewrite S0, D0, T0 in C. cbn in C. lra.
Qed.

(** Masked cells do not restrict the time step. *)
Theorem c64_masked t vof frc cs :
  cfl_numbers t vof frc cs = cfl_numbers t vof frc (filter (fun x => negb (t_mask x =? 0)%Z) cs).
Proof.
  assert (G : forall f, (forall x, t_mask x = 0%Z -> f x <= 0) -> forall cs a, 0 <= a ->
    fold_left (fun m x => rmax m (f x)) cs a = fold_left (fun m x => rmax m (f x)) (filter (fun x => negb (t_mask x =? 0)%Z) cs) a).
  { intros f Hf. clear cs. induction cs as [|x cs IH]; intros a Ha; [reflexivity|]. cbn [fold_left filter].
    destruct (t_mask x =? 0)%Z eqn:E; cbn [negb fold_left].
    - rewrite (rmax_is_l a (f x)); [apply IH, Ha|]. specialize (Hf x ltac:(lia)). lra.
    - apply IH. pose proof (rmax_l a (f x)). lra. }
  assert (Z3 : forall a b c, a <= 0 -> b <= 0 -> c <= 0 -> rmax (max3 a b c) (-1) <= 0).
  { intros a b c A B C. unfold max3. rewrite !rmax_spec. apply Rmax_lub; [apply Rmax_lub; [apply Rmax_lub|]|]; lra. }
  unfold cfl_numbers, max_of. f_equal; [f_equal|].
  - f_equal; [apply G; [|lra]|destruct vof; [apply G; [|lra]|reflexivity]].
    + intros x E. unfold conv_number. rewrite E. apply Z3; unfold Rdiv; lra.
    + intros x E. unfold phase_number. rewrite E. destruct (t_near x); lra.
  - destruct t; try reflexivity. apply G; [|lra]. intros x E. unfold diff_number. rewrite E.
    rewrite rmax_spec. apply Rmax_lub; unfold Rdiv; lra.
  - destruct frc; [|reflexivity]. apply G; [|lra]. intros x E. unfold force_number. rewrite E. apply Z3; unfold Rdiv; lra.
Qed.

(** The step is not shorter than needed: without diffusion, interface and sources some cell
    reaches the CFL number. *)
Lemma max_of_in (f : dtcell -> R) (cs : list dtcell) : forall a, fold_left (fun m x => rmax m (f x)) cs a = a \/
  exists x, In x cs /\ fold_left (fun m x => rmax m (f x)) cs a = f x.
Proof.
  induction cs as [|y cs IH]; intros a; cbn [fold_left]; [left; reflexivity|].
  destruct (IH (rmax a (f y))) as [E|(x & Ix & E)]; [|right; exists x; split; [right; exact Ix|exact E]].
  rewrite E. unfold rmax. destruct (Rltb a (f y)); [right; exists y; split; [left; reflexivity|reflexivity]|left; reflexivity].
Qed.
Theorem c64_attained t cs cfl x0 d0 :
  t <> DExplicit -> In x0 cs -> t_mask x0 = 1%Z -> dirn d0 -> eps_m <= Rabs (t_vel x0 d0) * (t_dxi x0 d0 / t_fac x0 d0) ->
  exists x d, In x cs /\ dirn d /\
    IZR (t_mask x) * Rabs (t_vel x d) * (t_dxi x d / t_fac x d) * cfl_step cfl (cfl_numbers t false false cs) = cfl.
Proof.
  intros NT I0 M0 D0 L0. pose proof (conv_dir x0 d0 D0 M0) as C0. pose proof (proj2 (max_of_spec conv_number cs) x0 I0) as C1.
  pose proof eps_pos as EP.
  assert (CE : cfl_numbers t false false cs = (max_of conv_number cs, 0, 0)).
  { unfold cfl_numbers. rewrite rmax_is_l by (apply (max_of_spec conv_number cs)). destruct t; try reflexivity. congruence. }
  set (C := max_of conv_number cs) in *. assert (CP : eps_m <= C) by (unfold Rdiv in *; lra).
  destruct (max_of_in conv_number cs 0) as [E|(x & Ix & E)]; change (fold_left _ cs 0) with C in E; [lra|].
  assert (ST : cfl_step cfl (C, 0, 0) = cfl / C).
  { unfold cfl_step, unit_time. replace ((C + 0) * (C + 0) + 4 * 0) with (C * C) by ring. rewrite sqrt_square by lra.
    rewrite rmax_is_l by lra. field. lra. }
  assert (EX : exists d, dirn d /\ IZR (t_mask x) * Rabs (t_vel x d) * t_dxi x d / t_fac x d = C).
  { rewrite E in CP |- *. revert CP. unfold conv_number.
    set (f := fun d => IZR (t_mask x) * Rabs (t_vel x d) * t_dxi x d / t_fac x d).
    change (eps_m <= rmax (max3 (f 0%Z) (f 1%Z) (f 2%Z)) (-1) -> exists d, dirn d /\ f d = rmax (max3 (f 0%Z) (f 1%Z) (f 2%Z)) (-1)).
    unfold max3, rmax.
    destruct (Rltb (f 0%Z) (f 1%Z)); [destruct (Rltb (f 1%Z) (f 2%Z))|destruct (Rltb (f 0%Z) (f 2%Z))];
      match goal with |- context [Rltb ?a (-1)] => destruct (Rltb a (-1)) end; intros ?; try lra.
    - exists 2%Z. unfold dirn. tauto.
    - exists 1%Z. unfold dirn. tauto.
    - exists 2%Z. unfold dirn. tauto.
    - exists 0%Z. unfold dirn. tauto. }
  destruct EX as (d & D & ED). exists x, d. split; [exact Ix|]. split; [exact D|]. rewrite CE, ST.
  replace (IZR (t_mask x) * Rabs (t_vel x d) * (t_dxi x d / t_fac x d)) with C by (rewrite <- ED; unfold Rdiv; ring).
  field. lra.
Qed.

(** Prescribed velocities: no face is passed by more than the CFL number, and near the
    interface the sum over the directions stays below it. *)
Theorem c64_prescribed vof cs cfl x d :
  In x cs -> t_mask x = 1%Z -> dirn d -> 0 <= cfl -> 0 <= t_dxi x d / t_fac x d ->
  let dt := cfl_step cfl (prescribed_numbers vof cs) in
  Rabs (fst (t_face x d)) * (t_dxi x d / t_fac x d) * dt <= cfl /\
  Rabs (snd (t_face x d)) * (t_dxi x d / t_fac x d) * dt <= cfl /\
  (vof = true -> t_near x = true ->
   (face_speed x 0 * (t_dxi x 0 / t_fac x 0) + face_speed x 1 * (t_dxi x 1 / t_fac x 1) + face_speed x 2 * (t_dxi x 2 / t_fac x 2)) * dt <= cfl).
Proof.
  intros I MK D F HX. unfold prescribed_numbers. cbv zeta.
  pose proof (proj1 (max_of_spec prescribed_conv cs)) as C0. pose proof (proj2 (max_of_spec prescribed_conv cs) x I) as C1.
  pose proof (proj2 (max_of_spec prescribed_phase cs) x I) as P1.
  set (C := rmax (max_of prescribed_conv cs) (if vof then max_of prescribed_phase cs else 0)).
  assert (CC : max_of prescribed_conv cs <= C) by apply rmax_l.
  assert (CP : vof = true -> max_of prescribed_phase cs <= C) by (intros ->; apply rmax_r). clearbody C.
  destruct (step_bounds cfl C 0 0) as (DP & B1 & _); try lra. set (dt := cfl_step cfl (C, 0, 0)) in *.
  assert (FD : face_speed x d * (t_dxi x d / t_fac x d) <= prescribed_conv x).
  { unfold prescribed_conv. rewrite MK. match goal with |- _ <= rmax (max3 ?a ?b ?c) ?e => pose proof (rmax_l (max3 a b c) e); pose proof (max3_ge a b c) end.
    unfold Rdiv in *. destruct D as [->|[->| ->]]; lra. }
  assert (FL : Rabs (fst (t_face x d)) * (t_dxi x d / t_fac x d) <= face_speed x d * (t_dxi x d / t_fac x d)).
  { apply Rmult_le_compat_r; [exact HX|apply rmax_l]. }
  assert (FR : Rabs (snd (t_face x d)) * (t_dxi x d / t_fac x d) <= face_speed x d * (t_dxi x d / t_fac x d)).
  { apply Rmult_le_compat_r; [exact HX|apply rmax_r]. }
  assert (K : forall a, a <= C -> a * dt <= cfl).
  { intros a L. assert (a * dt <= C * dt) by (apply Rmult_le_compat_r; assumption). lra. }
  split; [apply K; lra|]. split; [apply K; lra|]. intros V NR. apply K. specialize (CP V).
  clear - P1 CP NR MK. set (pm := max_of prescribed_phase cs) in *. clearbody pm. unfold prescribed_phase in P1. rewrite MK, NR in P1. unfold Rdiv in *. lra.
Qed.
(** The condition the adaptive step enforces near the interface, half the CFL number, is not
    enforced for prescribed velocities. *)
Definition jet : dtcell :=
  DC (fun _ => 1) (fun _ => 1) 1 (fun d => if (d =? 0)%Z then 1 else 0) 0 1 (fun _ => 0) true
     (fun d => if (d =? 0)%Z then (1, 1) else (0, 0)).
Theorem c64_prescribed_refuted :
  ~ (forall cs cfl x, In x cs -> t_mask x = 1%Z -> t_near x = true -> 0 <= cfl ->
     (face_speed x 0 * (t_dxi x 0 / t_fac x 0) + face_speed x 1 * (t_dxi x 1 / t_fac x 1) + face_speed x 2 * (t_dxi x 2 / t_fac x 2))
       * cfl_step cfl (prescribed_numbers true cs) <= cfl / 2).
Proof.
  intros H. specialize (H [jet] 1 jet (or_introl eq_refl) eq_refl eq_refl ltac:(lra)).
  assert (F0 : face_speed jet 0 = 1) by (unfold face_speed, jet; cbn; rewrite Rabs_R1, rmax_is_l; lra).
  assert (F1 : face_speed jet 1 = 0) by (unfold face_speed, jet; cbn; rewrite Rabs_R0, rmax_is_l; lra).
  assert (F2 : face_speed jet 2 = 0) by (unfold face_speed, jet; cbn; rewrite Rabs_R0, rmax_is_l; lra).
  assert (A : prescribed_conv jet = 1).
  { unfold prescribed_conv, max3. rewrite F0, F1, F2. cbn. rewrite (rmax_is_l (1 * 1 * 1 / 1)) by lra. rewrite (rmax_is_l (1 * 1 * 1 / 1)) by lra. rewrite rmax_is_l by lra. lra. }
  assert (B : prescribed_phase jet = 1) by (unfold prescribed_phase; rewrite F0, F1, F2; cbn; lra).
  assert (C : prescribed_numbers true [jet] = (1, 0, 0)).
  { unfold prescribed_numbers, max_of. cbn [fold_left]. rewrite A, B. rewrite (rmax_is_r 0 1) by lra. rewrite rmax_is_l by lra. reflexivity. }
  rewrite C, F0, F1, F2 in H. unfold cfl_step, unit_time in H.
  replace ((1 + 0) * (1 + 0) + 4 * 0) with (1 * 1) in H by ring. rewrite sqrt_square in H by lra.
  rewrite rmax_is_l in H; [cbn in H; lra|]. unfold eps_m.
  assert (/ 4503599627370496 <= / 1) by (apply Rinv_le_contravar; lra). lra.
Qed.
(** The documented CFL formula adds the accelerations of the three directions; the code takes
    the largest, so the documented number can exceed the one asked for. *)
Definition documented_cfl (dt C V : R) (x : dtcell) : R :=
  dt / 2 * ((C + V) + sqrt ((C + V) * (C + V)
    + 4 * (Rabs (t_frc x 0) / t_rho x * t_dxi x 0 + Rabs (t_frc x 1) / t_rho x * t_dxi x 1 + Rabs (t_frc x 2) / t_rho x * t_dxi x 2))).
Definition pushed : dtcell :=
  DC (fun _ => 1) (fun _ => 1) 1 (fun _ => 0) 0 1 (fun _ => 1) false (fun _ => (0, 0)).
Theorem c64_documented_refuted :
  ~ (forall cs cfl x, In x cs -> t_mask x = 1%Z -> (forall d, t_fac x d = 1) -> 0 <= cfl ->
     documented_cfl (cfl_step cfl (cfl_numbers DImplicit false true cs)) (max_of conv_number cs) 0 x <= cfl).
Proof.
  intros H. specialize (H [pushed] 1 pushed (or_introl eq_refl) eq_refl (fun _ => eq_refl) ltac:(lra)).
  assert (A : conv_number pushed = 0).
  { unfold conv_number, pushed, max3; cbn. rewrite Rabs_R0.
    rewrite (rmax_is_l (1 * 0 * 1 / 1)) by lra. rewrite (rmax_is_l (1 * 0 * 1 / 1)) by lra. rewrite rmax_is_l by lra. lra. }
  assert (B : force_number pushed = 1).
  { unfold force_number, pushed, max3; cbn. rewrite Rabs_R1.
    rewrite (rmax_is_l (1 * 1 * 1 / 1 / 1)) by lra. rewrite (rmax_is_l (1 * 1 * 1 / 1 / 1)) by lra. rewrite rmax_is_l by lra. lra. }
  assert (C : max_of conv_number [pushed] = 0) by (unfold max_of; cbn [fold_left]; rewrite A, rmax_is_l; lra).
  assert (D : cfl_numbers DImplicit false true [pushed] = (0, 0, 1)).
  { unfold cfl_numbers. rewrite C. unfold max_of. cbn [fold_left]. rewrite B, rmax_is_l, rmax_is_r by lra. reflexivity. }
  rewrite C, D in H. unfold cfl_step, unit_time, documented_cfl, pushed in H. cbn in H. rewrite Rabs_R1 in H.
  replace ((0 + 0) * (0 + 0) + 4 * 1) with (2 * 2) in H by ring. rewrite sqrt_square in H by lra.
  replace ((0 + 0) * (0 + 0) + 4 * (1 / 1 * 1 + 1 / 1 * 1 + 1 / 1 * 1)) with 12 in H by field.
  assert (3 * 3 <= 12) by lra. assert (3 <= sqrt 12) by (rewrite <- (sqrt_square 3) by lra; apply sqrt_le_1; lra).
  rewrite rmax_is_l in H; [lra|]. unfold eps_m.
  assert (/ 4503599627370496 <= / 1) by (apply Rinv_le_contravar; lra). lra.
Qed.

(** *** The hypotheses are met *)
Definition sample_eqn : eqn := EQ true (1/10) (fun _ => 1%Z) (fun _ => 1) (fun _ => 1) (fun _ => 1) (pair 0 1) (fun _ => 0).
(** Implicit step of two cells: the solution of the linear system. *)
Definition sample_new : ivec -> R := pair (1/12) (11/12).
Example c63_case : regular (two_grid 1 1) sample_eqn /\ unmapped (two_grid 1 1) sample_eqn /\
  closed_flux (two_grid 1 1) (fun _ _ => 0) /\
  predicted Godunov DImplicit (two_grid 1 1) (fun _ => 1) no_flux sample_eqn (conv_rate (two_grid 1 1) (fun _ _ => 0)) sample_new /\
  amount (two_grid 1 1) (fun _ => 1) (fun _ => 1) sample_new = 1.
Proof.
  split; [split; [reflexivity|intros c _; cbn; split; [reflexivity|lra]]|]. split; [intros c _; reflexivity|].
  split; [intros d c _ _; cbn; split; reflexivity|]. split.
  - eexists. split; [reflexivity|]. intros c I. destruct (two_diff 1 1 1 sample_new ltac:(lra)) as (D0 & D1).
    destruct (two_diff 1 1 1 (e_old sample_eqn) ltac:(lra)) as (E0 & E1).
    assert (Z : forall c, conv_rate (two_grid 1 1) (fun _ _ => 0) c = 0) by (intros; unfold conv_rate; ring).
    destruct (two_cells _ _ c I) as [-> | ->]; unfold rhs_value; rewrite Z, ?D0, ?D1, ?E0, ?E1; cbn; field.
  - unfold amount. rewrite two_total. cbn. field.
Qed.
(** The bound of c63_explicit_bounds is met by the two cells and their time step. *)
Example c63_explicit_case : 0 <= e_dt sample_eqn <= cfl_step 1 (cfl_numbers DExplicit false false [two_cell_data]).
Proof. rewrite two_step. cbn. lra. Qed.

Print Assumptions c63_theta. Print Assumptions c63_budget. Print Assumptions c63_conserved. Print Assumptions c63_uniform.
Print Assumptions c63_energy. Print Assumptions c63_explicit_bounds. Print Assumptions c63_mapped_refuted.
Print Assumptions c64_courant. Print Assumptions c64_interface. Print Assumptions c64_scalar_refuted.
