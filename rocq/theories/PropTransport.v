(** C99: properties of the fluid. *)
From Coq Require Import Reals List ZArith Bool String Lra Lia.
From Verif Require Import Base BoxR BoxRFacts Forest MultiPhase PropMultiPhase Transport TransportSpec Turbulence.
Import ListNotations.
Open Scope R_scope.
Open Scope string_scope.

Lemma query_one i k d : one i k d (query i k d).
Proof. unfold one, query. destruct (i k) eqn:E; [now apply first_here|]. apply first_later; [exact E|constructor]. Qed.
Lemma first_unique i d ks v : first_of i d ks v -> forall w, first_of i d ks w -> v = w.
Proof. intro H. induction H as [|k ks v E|k ks v E H IH]; intros w G; inversion G; subst; try congruence. auto. Qed.
Lemma one_query i k d v : one i k d v -> v = query i k d.
Proof. intro H. exact (first_unique _ _ _ _ H _ (query_one i k d)). Qed.

(** Where the value of each property comes from: the key of the transport model, else the older key of the buoyancy term,
    else that of the boundary layer. *)
Theorem c99_keys : forall i,
  first_of i (-1) ["transport.reference_temperature"; "BoussinesqBuoyancy.reference_temperature"; "ABL.reference_temperature"]
    (read_tref i) /\
  first_of i 0 ["transport.thermal_expansion_coefficient"; "BoussinesqBuoyancy.thermal_expansion_coeff"] (read_beta i).
Proof.
  intro i. split.
  - unfold read_tref. destruct (i "transport.reference_temperature") eqn:A; [now apply first_here|]. apply first_later; [exact A|].
    destruct (i "BoussinesqBuoyancy.reference_temperature") eqn:B; [now apply first_here|]. apply first_later; [exact B|].
    destruct (i "ABL.reference_temperature") eqn:C; [now apply first_here|]. apply first_later; [exact C|constructor].
  - unfold read_beta. destruct (i "transport.thermal_expansion_coefficient") eqn:A; [now apply first_here|].
    apply first_later; [exact A|].
    destruct (i "BoussinesqBuoyancy.thermal_expansion_coeff") eqn:B; [now apply first_here|]. apply first_later; [exact B|constructor].
Qed.

(** An input of a boundary layer over water. *)
Definition ex_input : input := fun k =>
  if string_dec k "transport.viscosity" then Some 2 else
  if string_dec k "transport.laminar_prandtl" then Some (1 / 2) else
  if string_dec k "transport.tracer_laminar_schmidt" then Some 4 else
  if string_dec k "ABL.reference_temperature" then Some 300 else
  if string_dec k "BoussinesqBuoyancy.reference_temperature" then Some 290 else None.
Example c99_keys_case : read_tref ex_input = 290 /\ read_beta ex_input = 0.
Proof. split; reflexivity. Qed.

Lemma heaviside_fraction eps phi c : 0 < eps -> fraction (TwoLs eps phi) c (heaviside eps (phi c)).
Proof.
  intro E. cbn. destruct (c32_heaviside eps (phi c) E) as (A & B & C & D & _).
  split; [intro H; apply C; lra|]. split; [intro H; apply D; lra|]. split; [intro H; rewrite H, B; lra|exact A].
Qed.
Lemma on_in b v c : in_box b c -> on b v c = Some (v c).
Proof. intro H. unfold on, inb. unfold in_box in H. destruct H as (A & B & C). rewrite !(proj2 (Z.leb_le _ _)) by lia. reflexivity. Qed.

(** One fluid: in every cell, ghost cells included, the viscosity of the input, over the Prandtl number for heat and over the
    Schmidt number of its name for a scalar. *)
Theorem c99_one_fluid : forall i vof b c name mu pr sc, in_box (grow 1 b) c ->
  one i "transport.viscosity" (1 / 100000) mu -> one i "transport.laminar_prandtl" 1 pr ->
  one i ("transport." ++ name ++ "_laminar_schmidt") 1 sc ->
  mu_field i (Const vof) b c = Some mu /\ alpha_field i (Const vof) b c = Some (mu / pr) /\
  scalar_field i (Const vof) name b c = Some (mu / sc).
Proof.
  intros i vof b c name mu pr sc H M P S. apply one_query in M. apply one_query in P. apply one_query in S. subst.
  replace (1 / 100000) with (/ 100000) by lra.
  assert (E : mu_field i (Const vof) b c = Some (query i "transport.viscosity" (/ 100000))).
  { cbn. now rewrite on_in by exact H. }
  split; [exact E|]. unfold alpha_field, scalar_field, scaled. rewrite E. cbn [option_map]. split; f_equal; unfold Rdiv; rewrite Rmult_1_l; reflexivity.
Qed.
Example c99_one_fluid_case :
  alpha_field ex_input (Const None) (Box (IV 0 0 0) (IV 3 3 3)) (IV (-1) 4 0) = Some 4 /\
  scalar_field ex_input (Const None) "tracer" (Box (IV 0 0 0) (IV 3 3 3)) (IV (-1) 4 0) = Some (1 / 2).
Proof.
  destruct (c99_one_fluid ex_input None (Box (IV 0 0 0) (IV 3 3 3)) (IV (-1) 4 0) "tracer" 2 (1 / 2) 4) as (_ & A & B).
  - unfold in_box. cbn. lia.
  - now apply first_here.
  - now apply first_here.
  - now apply first_here.
  - rewrite A, B. split; f_equal; lra.
Qed.

(** Two fluids: in every cell, ghost cells included, viscosity and thermal diffusivity are weighed with one and the same
    fraction of the first fluid, and a scalar has the viscosity over its Schmidt number. *)
Theorem c99_two_fluids : forall i fl b c name mu1 mu2 pr1 pr2 sc, in_box (grow 1 b) c ->
  match fl with Const _ => False | TwoVof _ => True | TwoLs eps _ => 0 < eps end ->
  one i "transport.viscosity_fluid1" (1 / 1000) mu1 -> one i "transport.viscosity_fluid2" (1 / 100000) mu2 ->
  one i "transport.laminar_prandtl_fluid1" (36 / 5) pr1 -> one i "transport.laminar_prandtl_fluid2" (7 / 10) pr2 ->
  one i ("transport." ++ name ++ "_laminar_schmidt") 1 sc ->
  exists w, fraction fl c w /\
    mu_field i fl b c = Some (w * mu1 + (1 - w) * mu2) /\
    alpha_field i fl b c = Some (w * (mu1 / pr1) + (1 - w) * (mu2 / pr2)) /\
    scalar_field i fl name b c = Some ((w * mu1 + (1 - w) * mu2) / sc).
Proof.
  intros i fl b c name mu1 mu2 pr1 pr2 sc H F M1 M2 P1 P2 S.
  apply one_query in M1. apply one_query in M2. apply one_query in P1. apply one_query in P2. apply one_query in S.
  assert (V1 : viscosity1 i = mu1). { rewrite M1. unfold viscosity1. f_equal. lra. }
  assert (V2 : viscosity2 i = mu2). { rewrite M2. unfold viscosity2. f_equal. lra. }
  assert (Q1 : prandtl1 i = pr1). { rewrite P1. unfold prandtl1. f_equal. lra. }
  assert (Q2 : prandtl2 i = pr2). { rewrite P2. unfold prandtl2. f_equal. }
  assert (SC : laminar_schmidt i name = sc) by (rewrite S; reflexivity).
  assert (K : forall w, (mu_field i fl b c = Some (w * mu1 + (1 - w) * mu2)) ->
     scalar_field i fl name b c = Some ((w * mu1 + (1 - w) * mu2) / sc)).
  { intros w E. unfold scalar_field, scaled. rewrite E, SC. cbn [option_map]. f_equal. unfold Rdiv. now rewrite Rmult_1_l. }
  destruct fl as [v|vof|eps phi]; [contradiction| |].
  - exists (vof c). split; [reflexivity|].
    assert (E : mu_field i (TwoVof vof) b c = Some (vof c * mu1 + (1 - vof c) * mu2)).
    { unfold mu_field. rewrite on_in by exact H. unfold mix2. rewrite V1, V2. f_equal. ring. }
    split; [exact E|]. split; [|apply K, E]. unfold alpha_field. rewrite on_in by exact H. unfold mix2. rewrite V1, V2, Q1, Q2. f_equal. unfold Rdiv. ring.
  - exists (heaviside eps (phi c)). split; [now apply heaviside_fraction|].
    assert (E : mu_field i (TwoLs eps phi) b c = Some (heaviside eps (phi c) * mu1 + (1 - heaviside eps (phi c)) * mu2)).
    { unfold mu_field. rewrite on_in by exact H. unfold mix2. rewrite V1, V2. f_equal. ring. }
    split; [exact E|]. split; [|apply K, E]. unfold alpha_field. rewrite on_in by exact H. unfold mix2. rewrite V1, V2, Q1, Q2. f_equal. unfold Rdiv. ring.
Qed.
Example c99_two_fluids_case : exists w, fraction (TwoLs 2 (fun c => IZR (iv2 c))) (IV 0 0 0) w /\ w = 1 / 2 /\
  mu_field ex_input (TwoLs 2 (fun c => IZR (iv2 c))) (Box (IV 0 0 0) (IV 3 3 3)) (IV 0 0 0) = Some (w * (1 / 1000) + (1 - w) * (1 / 100000)).
Proof.
  destruct (c99_two_fluids ex_input (TwoLs 2 (fun c => IZR (iv2 c))) (Box (IV 0 0 0) (IV 3 3 3)) (IV 0 0 0) "tracer"
    (1 / 1000) (1 / 100000) (36 / 5) (7 / 10) 4) as (w & F & M & _); try (apply first_later; [reflexivity|constructor]).
  - unfold in_box. cbn. lia.
  - lra.
  - now apply first_here.
  - exists w. split; [exact F|]. split; [|exact M]. apply F. reflexivity.
Qed.
(** With a turbulence model: laminar values plus the eddy viscosity, over the turbulent Prandtl or Schmidt number; for one
    fluid this goes another way in the program, to the same values. *)
Theorem c99_effective : forall i fl b c name mut mu al sc prt sct, in_box (grow 1 b) c ->
  mu_field i fl b c = Some mu -> alpha_field i fl b c = Some al -> scalar_field i fl name b c = Some sc ->
  one i "transport.turbulent_prandtl" 1 prt -> one i ("transport." ++ name ++ "_turbulent_schmidt") 1 sct ->
  mu_eff i fl b mut c = Some (mu + mut c) /\ alpha_eff i fl b mut c = Some (al + mut c / prt) /\
  scalar_eff i fl name b mut c = Some (sc + mut c / sct).
Proof.
  intros i fl b c name mut mu al sc prt sct H M A S P T. apply one_query in P. apply one_query in T.
  assert (PR : turbulent_prandtl i = prt) by (rewrite P; reflexivity).
  assert (TS : turbulent_schmidt i name = sct) by (rewrite T; reflexivity).
  unfold scalar_field, scaled in S. rewrite M in S. cbn [option_map] in S. injection S as S.
  unfold mu_eff, alpha_eff, scalar_eff. rewrite PR, TS. destruct fl as [v|vof|eps phi].
  - unfold alpha_field, scaled in A. rewrite M in A. cbn [option_map] in A. injection A as A.
    cbn in M. rewrite on_in in M by exact H. injection M as M. unfold thermal_diffusivity. rewrite M, <- A, <- S.
    repeat split; f_equal; unfold Rdiv; ring.
  - rewrite M, A. cbn [option_map]. rewrite <- S. repeat split; f_equal; unfold Rdiv; ring.
  - rewrite M, A. cbn [option_map]. rewrite <- S. repeat split; f_equal; unfold Rdiv; ring.
Qed.
Example c99_effective_case : alpha_eff ex_input (Const None) (Box (IV 0 0 0) (IV 3 3 3)) (fun _ => 5) (IV 1 1 1) = Some (4 + 5 / 1).
Proof.
  refine (proj1 (proj2 (c99_effective ex_input (Const None) _ (IV 1 1 1) "tracer" (fun _ => 5) 2 4 (2 * (1 / 4)) 1 1 _ _ _ _ _ _))).
  - unfold in_box. cbn. lia.
  - reflexivity.
  - cbn. f_equal. lra.
  - reflexivity.
  - apply first_later; [reflexivity|constructor].
  - apply first_later; [reflexivity|constructor].
Qed.

(** ** Expansion and buoyancy *)

Lemma tight_small : 0 < tight_tol < / 1000000000000. Proof. unfold tight_tol. lra. Qed.
Definition width_ok (fl : fluid) : Prop := match fl with TwoLs eps _ => 0 < eps | _ => True end.
Lemma beta_dry_wet i fl t0 c : width_ok fl ->
  let base := if Rltb 0 (read_beta i) then read_beta i else match t0 with Some t => 1 / t c | None => 1 / read_tref i end in
  (dry fl c -> beta_at i fl t0 c = base) /\ (wet fl c -> beta_at i fl t0 c = 0).
Proof.
  intros W base. pose proof tight_small as T. unfold beta_at. fold base. destruct fl as [[vof|]|vof|eps phi]; cbn; split; intro H; try tauto.
  - rewrite (proj2 (Rltb_false _ _)); [reflexivity|lra].
  - rewrite (proj2 (Rltb_spec _ _)); [reflexivity|lra].
  - rewrite (proj2 (Rltb_false _ _)); [reflexivity|lra].
  - rewrite (proj2 (Rltb_spec _ _)); [reflexivity|lra].
  - destruct (heaviside_fraction eps phi c W) as (_ & Z & _). rewrite (Z H). ring.
  - destruct (heaviside_fraction eps phi c W) as (O & _). rewrite (O H). ring.
Qed.
Lemma tref_read i t : has_tref i t -> read_tref i = t /\ 0 < t.
Proof. intros [F P]. split; [|exact P]. exact (first_unique _ _ _ _ (proj1 (c99_keys i)) _ F). Qed.

(** With a reference temperature the buoyancy is gravity times the expansion coefficient times the difference to the
    reference; the coefficient is the one given, if positive, else one over the reference temperature; none in water. *)
Theorem c99_buoyancy : forall i fl c g temp t coef, has_tref i t -> width_ok fl ->
  first_of i 0 ["transport.thermal_expansion_coefficient"; "BoussinesqBuoyancy.thermal_expansion_coeff"] coef ->
  (dry fl c -> 0 < coef -> buoyancy i fl None g temp c = Ret (g * coef * (t - temp))) /\
  (dry fl c -> coef <= 0 -> buoyancy i fl None g temp c = Ret (g * (t - temp) / t)) /\
  (wet fl c -> buoyancy i fl None g temp c = Ret 0).
Proof.
  intros i fl c g temp t coef H W C. destruct (tref_read i t H) as [E P].
  assert (B : read_beta i = coef) by exact (first_unique _ _ _ _ (proj2 (c99_keys i)) _ C).
  destruct (beta_dry_wet i fl None c W) as [D Z]. rewrite B, E in D.
  unfold buoyancy, ref_theta_cell. rewrite E, (proj2 (Rltb_false t 0)) by lra. cbn [obind].
  split; [|split]; intros X.
  - intro Y. rewrite (D X), (proj2 (Rltb_spec 0 coef) Y). f_equal. ring.
  - intro Y. rewrite (D X), (proj2 (Rltb_false 0 coef) Y). f_equal. field. lra.
  - rewrite (Z X). f_equal. ring.
Qed.
Example c99_buoyancy_case : has_tref ex_input 290 /\ dry (Const None) (IV 0 0 0) /\ width_ok (Const None) /\
  buoyancy ex_input (Const None) None (-10) 293 (IV 0 0 0) = Ret (-10 * (290 - 293) / 290).
Proof.
  assert (H : has_tref ex_input 290).
  { split; [|lra]. apply first_later; [reflexivity|]. now apply first_here. }
  split; [exact H|]. split; [exact I|]. split; [exact I|].
  refine (proj1 (proj2 (c99_buoyancy ex_input (Const None) (IV 0 0 0) (-10) 293 290 0 H I _)) I _); [|lra].
  apply first_later; [reflexivity|]. apply first_later; [reflexivity|]. constructor.
Qed.
(** With a field of the reference temperature (anelastic runs) it is that of the cell. *)
Theorem c99_buoyancy_field : forall i fl c g temp t tf, has_tref i t -> width_ok fl -> 0 < tf c ->
  (forall k, In k ["transport.thermal_expansion_coefficient"; "BoussinesqBuoyancy.thermal_expansion_coeff"] -> i k = None) ->
  dry fl c -> buoyancy i fl (Some tf) g temp c = Ret (g * (tf c - temp) / tf c).
Proof.
  intros i fl c g temp t tf H W P N D. destruct (tref_read i t H) as [E Q].
  destruct (beta_dry_wet i fl (Some tf) c W) as [B _].
  assert (Z : read_beta i = 0). { unfold read_beta. rewrite (N _ (or_introl eq_refl)), (N _ (or_intror (or_introl eq_refl))). reflexivity. }
  rewrite Z in B. unfold buoyancy, ref_theta_cell. rewrite E, (proj2 (Rltb_false t 0)) by lra. cbn [obind].
  rewrite (B D), (proj2 (Rltb_false 0 0)) by lra. f_equal. field. lra.
Qed.
Example c99_buoyancy_field_case : buoyancy ex_input (Const None) (Some (fun c => 290 - IZR (iv2 c))) (-10) 280 (IV 0 0 4) =
  Ret (-10 * (290 - 4 - 280) / (290 - 4)).
Proof.
  refine (c99_buoyancy_field ex_input (Const None) (IV 0 0 4) (-10) 280 290 (fun c => 290 - IZR (iv2 c)) _ I _ _ I).
  - split; [|lra]. apply first_later; [reflexivity|]. now apply first_here.
  - cbn. lra.
  - intros k [<-|[<-|[]]]; reflexivity.
Qed.
(** Without a reference temperature a run with buoyancy stops. *)
Theorem c99_unset : forall i fl t0 g temp c,
  (forall k, In k ["transport.reference_temperature"; "BoussinesqBuoyancy.reference_temperature"; "ABL.reference_temperature"] -> i k = None) ->
  buoyancy i fl t0 g temp c = Abort.
Proof.
  intros i fl t0 g temp c N. unfold buoyancy, ref_theta_cell.
  assert (E : read_tref i = -1).
  { unfold read_tref. rewrite !N by (cbn; tauto). reflexivity. }
  rewrite E, (proj2 (Rltb_spec (-1) 0)) by lra. reflexivity.
Qed.
(** The turbulence models and the boundary layer do not ask: without a reference temperature their expansion coefficient
    is minus one and their reference temperature minus one, so that a stable layer counts as an unstable one. *)
Theorem c99_unset_refuted : ~ (forall i fl b c, in_box b c -> dry fl c -> width_ok fl ->
  exists v, beta_field i fl None b c = Some v /\ 0 < v) /\
  (let i : input := fun _ => None in let b := Box (IV 0 0 0) (IV 3 3 3) in
   beta_field i (Const None) None b (IV 1 1 1) = Some (-1) /\ reference_temperature i = -1 /\
   forall dtdz g, 0 < dtdz -> 0 < g ->
     stratification (fun d => if (d =? 2)%Z then dtdz else 0) (fun d => if (d =? 2)%Z then - g else 0)
       (beta_at i (Const None) None (IV 1 1 1)) < 0).
Proof.
  assert (V : beta_at (fun _ => None) (Const None) None (IV 1 1 1) = -1).
  { cbn. rewrite (proj2 (Rltb_false 0 0)) by lra. unfold read_tref. lra. }
  assert (F : beta_field (fun _ => None) (Const None) None (Box (IV 0 0 0) (IV 3 3 3)) (IV 1 1 1) = Some (-1)).
  { unfold beta_field. rewrite on_in by (unfold in_box; cbn; lia). now rewrite V. }
  split.
  - intro H. destruct (H (fun _ => None) (Const None) (Box (IV 0 0 0) (IV 3 3 3)) (IV 1 1 1)) as (v & E & P);
      [unfold in_box; cbn; lia|exact I|exact I|]. rewrite F in E. injection E as <-. lra.
  - cbv zeta. split; [exact F|]. split; [reflexivity|]. intros dtdz g A B. rewrite V. unfold stratification. cbn. nra.
Qed.
(** An expansion coefficient of zero, given to switch buoyancy off, or a negative one (cold water) is taken as not given. *)
Theorem c99_zero_refuted : ~ (forall i c g temp coef t, has_tref i t -> i "transport.thermal_expansion_coefficient" = Some coef ->
  buoyancy i (Const None) None g temp c = Ret (g * coef * (t - temp))).
Proof.
  intro H. set (i := fun k : string => if string_dec k "transport.thermal_expansion_coefficient" then Some 0 else
    if string_dec k "transport.reference_temperature" then Some 300 else None).
  assert (T : has_tref i 300) by (split; [apply first_here; reflexivity|lra]).
  specialize (H i (IV 0 0 0) (-10) 301 0 300 T eq_refl).
  assert (F : first_of i 0 ["transport.thermal_expansion_coefficient"; "BoussinesqBuoyancy.thermal_expansion_coeff"] 0)
    by (apply first_here; reflexivity).
  destruct (c99_buoyancy i (Const None) (IV 0 0 0) (-10) 301 300 0 T I F) as (_ & B & _).
  rewrite (B I ltac:(lra)) in H. injection H as H. lra.
Qed.
(** The fields of the expansion coefficient have a layer of ghost cells that is never written. *)
Theorem c99_ghost_refuted : ~ (forall i fl t0 b c, in_box (grow 1 b) c -> exists v, beta_field i fl t0 b c = Some v).
Proof.
  intro H. destruct (H ex_input (Const None) None (Box (IV 0 0 0) (IV 3 3 3)) (IV (-1) 0 0)) as [v E].
  - unfold in_box. cbn. lia.
  - cbv in E. discriminate.
Qed.

Print Assumptions c99_keys.
Print Assumptions c99_one_fluid.
Print Assumptions c99_two_fluids.
Print Assumptions c99_effective.
Print Assumptions c99_buoyancy.
Print Assumptions c99_buoyancy_field.
Print Assumptions c99_unset.
Print Assumptions c99_unset_refuted.
Print Assumptions c99_zero_refuted.
Print Assumptions c99_ghost_refuted.
