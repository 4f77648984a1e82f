(** C102: options of the linear solvers. *)
From Coq Require Import String List ZArith Lra Lia.
From Verif Require Import BoxR VecSpace Inputs InputsSpec PropInputs SolverOpts.
Import ListNotations.
Open Scope string_scope.
Open Scope R_scope.

(** The documented keys and what they start from.  [opt] and [own] are the two sections, in the order in which they
    are read. *)
Definition meets (lp : lpinfo) (dflt own : section) (o : opts) : Prop :=
  (optional (s_bool dflt) (s_bool own) "do_agglomeration" (l_agg lp) (l_agg (o_lp o)) /\
   optional (s_bool dflt) (s_bool own) "do_consolidation" (l_con lp) (l_con (o_lp o)) /\
   optional (s_bool dflt) (s_bool own) "do_semicoarsening" (l_semi lp) (l_semi (o_lp o)) /\
   optional (s_int dflt) (s_int own) "agg_grid_size" (l_agg_size lp) (l_agg_size (o_lp o)) /\
   optional (s_int dflt) (s_int own) "con_grid_size" (l_con_size lp) (l_con_size (o_lp o)) /\
   optional (s_int dflt) (s_int own) "max_coarsening_level" (l_max_coarse lp) (l_max_coarse (o_lp o)) /\
   optional (s_int dflt) (s_int own) "max_semicoarsening_level" (l_max_semi lp) (l_max_semi (o_lp o)) /\
   optional (s_bool dflt) (s_bool own) "deterministic" (l_det lp) (l_det (o_lp o))) /\
  (optional (s_int dflt) (s_int own) "max_order" 2%Z (o_max_order o) /\
   optional (s_int dflt) (s_int own) "verbose" 0%Z (o_verbose o) /\
   optional (s_int dflt) (s_int own) "maxiter" 200%Z (o_maxiter o) /\
   optional (s_int dflt) (s_int own) "fmg_maxiter" 0%Z (o_fmg o) /\
   optional (s_int dflt) (s_int own) "num_pre_smooth" 2%Z (o_pre o) /\
   optional (s_int dflt) (s_int own) "num_post_smooth" 2%Z (o_post o) /\
   optional (s_int dflt) (s_int own) "num_final_smooth" 8%Z (o_final o) /\
   optional (s_int dflt) (s_int own) "num_bottom_smooth" 0%Z (o_bottom o) /\
   optional (s_int dflt) (s_int own) "bottom_verbose" 0%Z (o_bverbose o) /\
   optional (s_int dflt) (s_int own) "bottom_maxiter" 200%Z (o_bmaxiter o) /\
   optional (s_int dflt) (s_int own) "nsolve_grid_size" 16%Z (o_nsize o) /\
   optional (s_bool dflt) (s_bool own) "do_fixed_iters" true (o_fixed o) /\
   optional (s_bool dflt) (s_bool own) "do_nsolve" false (o_nsolve o)) /\
  (optional (s_str dflt) (s_str own) "bottom_solver" "bicgstab" (o_solver o) /\
   optional (s_str dflt) (s_str own) "hypre_namespace" "hypre" (o_hypre_ns o) /\
   optional (s_str dflt) (s_str own) "hypre_interface" "ij" (o_hypre_if o)) /\
  (optional (s_real dflt) (s_real own) "mg_rtol" (/ 2 ^ 52 * 10 ^ 5) (o_rtol o) /\
   optional (s_real dflt) (s_real own) "mg_atol" (/ 2 ^ 52 * 10 ^ 2) (o_atol o) /\
   optional (s_real dflt) (s_real own) "bottom_rtol" (/ 2 ^ 52 * 10 ^ 12) (o_brtol o) /\
   optional (s_real dflt) (s_real own) "bottom_atol" (/ 2 ^ 52 * 10 ^ 4) (o_batol o)).

(** a section with nothing in it *)
Definition blank : section := Sec none none none none.

(** Every option of a solver for one equation is that of the equation's own section, else that of the section for
    all, else the value it starts from; a solver with one section reads that section alone; and these conditions leave
    no choice: the options are determined by them. *)
Theorem c102_options : forall lp dflt own,
  sec_ok dflt -> sec_ok own ->
  (forall o, make_opts2 lp dflt own = o <-> meets lp dflt own o) /\
  (forall o, make_opts lp own = o <-> meets lp blank own o).
Proof.
  intros lp dflt own (DI & DR & DB & DS) (OI & OR & OB & OS).
  assert (G : forall df ow, sec_ok df -> sec_ok ow -> forall o, make_opts2 lp df ow = o <-> meets lp df ow o).
  { clear. intros dflt own (DI & DR & DB & DS) (OI & OR & OB & OS) o.
    assert (SI : forall k v r, mp_query (s_int dflt) (s_int own) k v = r <-> optional (s_int dflt) (s_int own) k v r)
      by (intros k v r; apply (c100_scalar _ _ _ k v r DI OI)).
    assert (SR : forall k v r, mp_query (s_real dflt) (s_real own) k v = r <-> optional (s_real dflt) (s_real own) k v r)
      by (intros k v r; apply (c100_scalar _ _ _ k v r DR OR)).
    assert (SB : forall k v r, mp_query (s_bool dflt) (s_bool own) k v = r <-> optional (s_bool dflt) (s_bool own) k v r)
      by (intros k v r; apply (c100_scalar _ _ _ k v r DB OB)).
    assert (SS : forall k v r, mp_query (s_str dflt) (s_str own) k v = r <-> optional (s_str dflt) (s_str own) k v r)
      by (intros k v r; apply (c100_scalar _ _ _ k v r DS OS)).
    split.
    - intros <-. unfold meets.
      repeat split; (apply SI || apply SR || apply SB || apply SS); reflexivity.
    - intros ((A1 & A2 & A3 & A4 & A5 & A6 & A7 & A8) & (B1 & B2 & B3 & B4 & B5 & B6 & B7 & B8 & B9 & B10 & B11 & B12 & B13) &
              (C1 & C2 & C3) & (D1 & D2 & D3 & D4)).
      apply SB in A1. apply SB in A2. apply SB in A3. apply SI in A4. apply SI in A5. apply SI in A6. apply SI in A7. apply SB in A8.
      apply SI in B1. apply SI in B2. apply SI in B3. apply SI in B4. apply SI in B5. apply SI in B6. apply SI in B7.
      apply SI in B8. apply SI in B9. apply SI in B10. apply SI in B11. apply SB in B12. apply SB in B13.
      apply SS in C1. apply SS in C2. apply SS in C3. apply SR in D1. apply SR in D2. apply SR in D3. apply SR in D4.
      destruct o as [[a1 a2 a3 a4 a5 a6 a7 a8] mo rt at_ so hn hi br ba ve mi fm pr po fi bo bv bm fx ns nz].
      cbn [o_lp l_agg l_con l_semi l_agg_size l_con_size l_max_coarse l_max_semi l_det o_max_order o_rtol o_atol o_solver
           o_hypre_ns o_hypre_if o_brtol o_batol o_verbose o_maxiter o_fmg o_pre o_post o_final o_bottom o_bverbose
           o_bmaxiter o_fixed o_nsolve o_nsize] in *.
      rewrite <- A1, <- A2, <- A3, <- A4, <- A5, <- A6, <- A7, <- A8, <- B1, <- B2, <- B3, <- B4, <- B5, <- B6, <- B7, <- B8,
        <- B9, <- B10, <- B11, <- B12, <- B13, <- C1, <- C2, <- C3, <- D1, <- D2, <- D3, <- D4. reflexivity. }
  assert (BK : sec_ok blank) by (repeat split; intros k; discriminate).
  split; [apply G; repeat split; assumption|].
  intros o. assert (E : make_opts lp own = make_opts2 lp blank own) by (destruct lp; reflexivity).
  rewrite E. apply G; [exact BK|repeat split; assumption].
Qed.

(** What the solver is told: every count, tolerance and switch of the options, except the iterations of the bottom
    solver; without a check of convergence exactly when fixed iterations are asked for (the default). *)
Theorem c102_settings : forall built o m m',
  apply_mlmg built o m = Ret m' ->
  m_verbose m' = o_verbose o /\ m_maxiter m' = o_maxiter o /\ m_fmg m' = o_fmg o /\
  (o_fixed o = true -> m_fixed m' = Some (o_maxiter o)) /\ (o_fixed o = false -> m_fixed m' = m_fixed m) /\
  m_nsolve m' = o_nsolve o /\ m_nsize m' = o_nsize o /\
  m_pre m' = o_pre o /\ m_post m' = o_post o /\ m_final m' = o_final o /\ m_bottom m' = o_bottom o /\
  m_bverbose m' = o_bverbose o /\ m_brtol m' = o_brtol o /\ m_batol m' = o_batol o.
Proof.
  intros built o m m' H. unfold apply_mlmg in H.
  destruct (set_bottom built o (m_solver m) (m_hypre_ns m) (m_hypre_if m)) as [[[b ns] i]| |]; try discriminate.
  cbn [obind] in H. injection H as <-. cbn.
  repeat split; intros F; rewrite F; reflexivity.
Qed.

(** The names of bottom solvers and the solver each one selects. *)
Definition named (s : string) (b : bsolver) : Prop :=
  (s = "smoother" /\ b = Smoother) \/ (s = "bicg" /\ b = Bicgstab) \/ (s = "cg" /\ b = Cg) \/
  (s = "bicgcg" /\ b = Bicgcg) \/ (s = "cgbicg" /\ b = Cgbicg).
Definition interface (s : string) (i : hypre_if) : Prop :=
  (s = "ij" /\ i = IJ) \/ (s = "semi_structured" /\ i = Semi) \/ (s = "structured" /\ i = Struct).

(** The bottom solver: one of five names; hypre with its namespace and interface where the program is built with it; the
    run stops when hypre is asked for without it or with an unknown interface, and never otherwise. *)
Theorem c102_bottom : forall built o m,
  (forall b, named (o_solver o) b -> exists m', apply_mlmg built o m = Ret m' /\ m_solver m' = b /\
     m_hypre_ns m' = m_hypre_ns m /\ m_hypre_if m' = m_hypre_if m) /\
  (o_solver o = "hypre" -> built = true -> forall i, interface (o_hypre_if o) i ->
     exists m', apply_mlmg built o m = Ret m' /\ m_solver m' = Hypre /\ m_hypre_ns m' = Some (o_hypre_ns o) /\ m_hypre_if m' = i) /\
  (apply_mlmg built o m = Abort <->
     o_solver o = "hypre" /\ (built = false \/ forall i, ~ interface (o_hypre_if o) i)) /\
  apply_mlmg built o m <> UB.
Proof.
  intros built o m. unfold apply_mlmg, set_bottom. split; [|split; [|split]].
  - intros b [[-> ->]|[[-> ->]|[[-> ->]|[[-> ->]|[-> ->]]]]]; cbn; eexists; repeat split; reflexivity.
  - intros -> -> i [[-> ->]|[[-> ->]|[-> ->]]]; cbn; eexists; repeat split; reflexivity.
  - split.
    + destruct (String.eqb_spec (o_solver o) "smoother"); [discriminate|].
      destruct (String.eqb_spec (o_solver o) "bicg"); [discriminate|].
      destruct (String.eqb_spec (o_solver o) "cg"); [discriminate|].
      destruct (String.eqb_spec (o_solver o) "bicgcg"); [discriminate|].
      destruct (String.eqb_spec (o_solver o) "cgbicg"); [discriminate|].
      destruct (String.eqb_spec (o_solver o) "hypre") as [E|]; [|discriminate].
      intros H. split; [exact E|]. destruct built; [|left; reflexivity]. right.
      destruct (String.eqb_spec (o_hypre_if o) "ij") as [|N1]; [discriminate|].
      destruct (String.eqb_spec (o_hypre_if o) "semi_structured") as [|N2]; [discriminate|].
      destruct (String.eqb_spec (o_hypre_if o) "structured") as [|N3]; [discriminate|].
      intros i [[E1 _]|[[E1 _]|[E1 _]]]; contradiction.
    + intros [E H]. rewrite E. cbn [String.eqb Ascii.eqb Bool.eqb].
      destruct built; [|reflexivity]. destruct H as [H|H]; [discriminate|].
      destruct (String.eqb_spec (o_hypre_if o) "ij") as [N1|N1]; [exfalso; apply (H IJ); left; auto|].
      destruct (String.eqb_spec (o_hypre_if o) "semi_structured") as [N2|N2]; [exfalso; apply (H Semi); right; left; auto|].
      destruct (String.eqb_spec (o_hypre_if o) "structured") as [N3|N3]; [exfalso; apply (H Struct); right; right; auto|].
      reflexivity.
  - repeat (match goal with |- context [String.eqb ?a ?b] => destruct (String.eqb a b) end; try discriminate).
    + destruct built; discriminate.
    + destruct built; discriminate.
    + destruct built; discriminate.
    + destruct built; discriminate.
Qed.

(** Any other name is passed over without a word: the documented names bicgstab and petsc, and a misspelt one, all
    leave the solver the library starts with. *)
Theorem c102_name_refuted : forall built o m,
  (forall b, ~ named (o_solver o) b) -> o_solver o <> "hypre" ->
  exists m', apply_mlmg built o m = Ret m' /\ m_solver m' = m_solver m.
Proof.
  intros built o m N H. unfold apply_mlmg, set_bottom.
  destruct (String.eqb_spec (o_solver o) "smoother") as [E|_]; [exfalso; apply (N Smoother); left; auto|].
  destruct (String.eqb_spec (o_solver o) "bicg") as [E|_]; [exfalso; apply (N Bicgstab); right; left; auto|].
  destruct (String.eqb_spec (o_solver o) "cg") as [E|_]; [exfalso; apply (N Cg); right; right; left; auto|].
  destruct (String.eqb_spec (o_solver o) "bicgcg") as [E|_]; [exfalso; apply (N Bicgcg); right; right; right; left; auto|].
  destruct (String.eqb_spec (o_solver o) "cgbicg") as [E|_]; [exfalso; apply (N Cgbicg); right; right; right; right; auto|].
  destruct (String.eqb_spec (o_solver o) "hypre") as [E|_]; [contradiction|].
  cbn. eexists. split; reflexivity.
Qed.
Example c102_names : forall s, s = "bicgstab" \/ s = "petsc" \/ s = "Smoother" -> s <> "hypre" /\ forall b, ~ named s b.
Proof.
  intros s H. split; [destruct H as [-> | [-> | ->]]; discriminate|].
  intros b [[E _]|[[E _]|[[E _]|[[E _]|[E _]]]]]; destruct H as [-> | [-> | ->]]; discriminate.
Qed.

(** The option for the iterations of the bottom solver is read and never used. *)
Theorem c102_bottom_maxiter_refuted : forall built o m m',
  apply_mlmg built o m = Ret m' -> m_bmaxiter m' = m_bmaxiter m.
Proof.
  intros built o m m' H. unfold apply_mlmg in H.
  destruct (set_bottom built o (m_solver m) (m_hypre_ns m) (m_hypre_if m)) as [[[b ns] i]| |]; try discriminate.
  cbn [obind] in H. injection H as <-. reflexivity.
Qed.

(** The tolerances a run starts from are not the documented ones: the relative tolerance is above 2.2e-11 (documented
    1e-11), that of the bottom solver above 2.2e-4 (1e-4), and the absolute tolerance of the bottom solver is positive
    (documented -1, meaning none). *)
Theorem c102_defaults_refuted : forall lp,
  let o := make_opts lp blank in
  22 / 10 ^ 12 < o_rtol o < 23 / 10 ^ 12 /\ 22 / 10 ^ 15 < o_atol o < 23 / 10 ^ 15 /\
  22 / 10 ^ 5 < o_brtol o < 23 / 10 ^ 5 /\ 0 < o_batol o.
Proof. intros lp o. unfold o, make_opts, parse_options, opts0, deps. cbn [o_rtol o_atol o_brtol o_batol]. cbn [blank s_real none pp_query]. unfold pp_query, none. repeat split; lra. Qed.

(** The nodal projection: the ij interface whatever the input says, coarse operators by RAP for hypre with coarsening,
    the verbosity of the options, and everything else as for the other solvers. *)
Theorem c102_nodal : forall built o n o' n',
  apply_nodal built o n = Ret (o', n') ->
  apply_mlmg built (with_if o "ij") (n_mlmg n) = Ret (n_mlmg n') /\
  n_verbose n' = o_verbose o /\
  (o_solver o = "hypre" -> m_hypre_if (n_mlmg n') = IJ) /\
  (o_solver o = "hypre" /\ (0 <= l_max_coarse (o_lp o))%Z -> n_rap n' = true) /\
  (~ (o_solver o = "hypre" /\ (0 <= l_max_coarse (o_lp o))%Z) -> n_rap n' = n_rap n).
Proof.
  intros built o n o' n' H. unfold apply_nodal in H. cbn zeta in H.
  destruct (apply_mlmg built (with_if o "ij") (n_mlmg n)) as [m| |] eqn:A; try discriminate.
  cbn [obind] in H. injection H as _ <-. cbn [n_mlmg n_verbose n_rap]. cbn [with_if o_verbose o_lp o_solver].
  split; [reflexivity|]. split; [reflexivity|]. split; [|split].
  - intros E. unfold apply_mlmg, set_bottom in A. cbn [with_if o_solver o_hypre_if] in A. rewrite E in A. cbn in A.
    destruct built; [|discriminate]. cbn in A. injection A as <-. reflexivity.
  - intros [E L]. rewrite E. replace (-1 <? l_max_coarse (o_lp o))%Z with true by (symmetry; apply Z.ltb_lt; lia). reflexivity.
  - intros N. destruct (Z.ltb_spec (-1) (l_max_coarse (o_lp o))) as [L|L]; [|reflexivity].
    destruct (String.eqb_spec (o_solver o) "hypre") as [E|E]; [|reflexivity]. exfalso. apply N. split; [exact E|lia].
Qed.

(** An example: a tighter tolerance for all diffusion solves and another one for the temperature. *)
Definition ex_sec (k : string) (v : R) : section := Sec none (fun q => if String.eqb q k then Some [v] else None) none none.
Example c102_options_example : forall lp,
  sec_ok (ex_sec "mg_rtol" (1 / 1000)) /\ sec_ok (ex_sec "mg_rtol" (1 / 100)) /\
  o_rtol (make_opts2 lp (ex_sec "mg_rtol" (1 / 1000)) (ex_sec "mg_rtol" (1 / 100))) = 1 / 100 /\
  o_rtol (make_opts2 lp (ex_sec "mg_rtol" (1 / 1000)) blank) = 1 / 1000 /\
  o_maxiter (make_opts2 lp (ex_sec "mg_rtol" (1 / 1000)) blank) = 200%Z.
Proof.
  assert (S : forall v, sec_ok (ex_sec "mg_rtol" v)).
  { intros v. repeat split; intros k; cbn; try discriminate. destruct (String.eqb k "mg_rtol"); discriminate. }
  intros lp. repeat split; try apply S; reflexivity.
Qed.

Print Assumptions c102_options.
Print Assumptions c102_settings.
Print Assumptions c102_bottom.
Print Assumptions c102_name_refuted.
Print Assumptions c102_bottom_maxiter_refuted.
Print Assumptions c102_defaults_refuted.
Print Assumptions c102_nodal.
