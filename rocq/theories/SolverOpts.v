(** Options of the linear solvers: amr-wind/core/MLMGOptions.H, amr-wind/core/MLMGOptions.cpp.

    Build in double precision without a GPU.  Numbers are exact.  The solver object of AMReX is the record of the
    values its set functions store; what the solver does with them is not modelled.  The options of the linear
    operator start from the library's own values, which are a parameter. *)
From Coq Require Import String List ZArith.
From Verif Require Import BoxR VecSpace Inputs.
Import ListNotations.
Open Scope string_scope.
Open Scope R_scope.

(** amrex::LPInfo, the members that are read *)
Record lpinfo : Type := LP {
  l_agg : bool; l_con : bool; l_semi : bool; l_agg_size : Z; l_con_size : Z;
  l_max_coarse : Z; l_max_semi : Z; l_det : bool }.

(** MLMGOptions.H:49-139 *)
Record opts : Type := Opts {
  o_lp : lpinfo; o_max_order : Z; o_rtol : R; o_atol : R;
  o_solver : string; o_hypre_ns : string; o_hypre_if : string;
  o_brtol : R; o_batol : R;
  o_verbose : Z; o_maxiter : Z; o_fmg : Z; o_pre : Z; o_post : Z; o_final : Z; o_bottom : Z;
  o_bverbose : Z; o_bmaxiter : Z; o_fixed : bool; o_nsolve : bool; o_nsize : Z }.

(** std::numeric_limits<double>::epsilon() *)
Definition deps : R := / 2 ^ 52.

(** MLMGOptions.H:52-139, the initial values *)
Definition opts0 (lp : lpinfo) : opts :=
  Opts lp 2 (deps * 10 ^ 5) (deps * 10 ^ 2) "bicgstab" "hypre" "ij" (deps * 10 ^ 12) (deps * 10 ^ 4)
       0 200 0 2 2 8 0 0 200 true false 16.

(** MLMGOptions.cpp:17-57 *)
Definition parse_options (s : section) (o : opts) : opts :=
  let lp := o_lp o in
  Opts
    (LP (pp_query (s_bool s) "do_agglomeration" (l_agg lp))
        (pp_query (s_bool s) "do_consolidation" (l_con lp))
        (pp_query (s_bool s) "do_semicoarsening" (l_semi lp))
        (pp_query (s_int s) "agg_grid_size" (l_agg_size lp))
        (pp_query (s_int s) "con_grid_size" (l_con_size lp))
        (pp_query (s_int s) "max_coarsening_level" (l_max_coarse lp))
        (pp_query (s_int s) "max_semicoarsening_level" (l_max_semi lp))
        (pp_query (s_bool s) "deterministic" (l_det lp)))
    (pp_query (s_int s) "max_order" (o_max_order o))
    (pp_query (s_real s) "mg_rtol" (o_rtol o))
    (pp_query (s_real s) "mg_atol" (o_atol o))
    (pp_query (s_str s) "bottom_solver" (o_solver o))
    (pp_query (s_str s) "hypre_namespace" (o_hypre_ns o))
    (pp_query (s_str s) "hypre_interface" (o_hypre_if o))
    (pp_query (s_real s) "bottom_rtol" (o_brtol o))
    (pp_query (s_real s) "bottom_atol" (o_batol o))
    (pp_query (s_int s) "verbose" (o_verbose o))
    (pp_query (s_int s) "maxiter" (o_maxiter o))
    (pp_query (s_int s) "fmg_maxiter" (o_fmg o))
    (pp_query (s_int s) "num_pre_smooth" (o_pre o))
    (pp_query (s_int s) "num_post_smooth" (o_post o))
    (pp_query (s_int s) "num_final_smooth" (o_final o))
    (pp_query (s_int s) "num_bottom_smooth" (o_bottom o))
    (pp_query (s_int s) "bottom_verbose" (o_bverbose o))
    (pp_query (s_int s) "bottom_maxiter" (o_bmaxiter o))
    (pp_query (s_bool s) "do_fixed_iters" (o_fixed o))
    (pp_query (s_bool s) "do_nsolve" (o_nsolve o))
    (pp_query (s_int s) "nsolve_grid_size" (o_nsize o)).

(** MLMGOptions.cpp:8 *)
Definition make_opts (lp : lpinfo) (s : section) : opts := parse_options s (opts0 lp).
(** MLMGOptions.cpp:10-15 *)
Definition make_opts2 (lp : lpinfo) (dflt own : section) : opts := parse_options own (parse_options dflt (opts0 lp)).

(** *** The solver *)

Inductive bsolver : Type := Smoother | Bicgstab | Cg | Bicgcg | Cgbicg | Hypre | Petsc | Library.
Inductive hypre_if : Type := IJ | Semi | Struct.

(** amrex::MLMG, what the set functions store; [m_fixed] is the number of iterations done without a check *)
Record mlmg : Type := M {
  m_verbose : Z; m_maxiter : Z; m_fmg : Z; m_fixed : option Z; m_nsolve : bool; m_nsize : Z;
  m_pre : Z; m_post : Z; m_final : Z; m_bottom : Z;
  m_bverbose : Z; m_brtol : R; m_batol : R; m_bmaxiter : Z;
  m_solver : bsolver; m_hypre_ns : option string; m_hypre_if : hypre_if }.

(** MLMGOptions.cpp:80-109: the bottom solver, the namespace and the interface; [built] tells whether the program was
    compiled with hypre *)
Definition set_bottom (built : bool) (o : opts) (b : bsolver) (ns : option string) (i : hypre_if)
    : outcome (bsolver * option string * hypre_if) :=
  if String.eqb (o_solver o) "smoother" then Ret (Smoother, ns, i)
  else if String.eqb (o_solver o) "bicg" then Ret (Bicgstab, ns, i)
  else if String.eqb (o_solver o) "cg" then Ret (Cg, ns, i)
  else if String.eqb (o_solver o) "bicgcg" then Ret (Bicgcg, ns, i)
  else if String.eqb (o_solver o) "cgbicg" then Ret (Cgbicg, ns, i)
  else if String.eqb (o_solver o) "hypre" then
    if built then
      if String.eqb (o_hypre_if o) "ij" then Ret (Hypre, Some (o_hypre_ns o), IJ)
      else if String.eqb (o_hypre_if o) "semi_structured" then Ret (Hypre, Some (o_hypre_ns o), Semi)
      else if String.eqb (o_hypre_if o) "structured" then Ret (Hypre, Some (o_hypre_ns o), Struct)
      else Abort
    else Abort
  else Ret (b, ns, i).

(** MLMGOptions.cpp:59-110 *)
Definition apply_mlmg (built : bool) (o : opts) (m : mlmg) : outcome mlmg :=
  obind (set_bottom built o (m_solver m) (m_hypre_ns m) (m_hypre_if m)) (fun x =>
  let '(b, ns, i) := x in
  Ret (M (o_verbose o) (o_maxiter o) (o_fmg o)
         (if o_fixed o then Some (o_maxiter o) else m_fixed m)
         (o_nsolve o) (o_nsize o) (o_pre o) (o_post o) (o_final o) (o_bottom o)
         (o_bverbose o) (o_brtol o) (o_batol o) (m_bmaxiter m) b ns i)).

(** MLMGOptions.cpp:112-115 *)
Definition apply_mac (built : bool) (o : opts) (m : mlmg) : outcome mlmg := apply_mlmg built o m.

(** a nodal projector: its solver, its verbosity and whether coarse operators are made by RAP *)
Record nodal : Type := N { n_mlmg : mlmg; n_verbose : Z; n_rap : bool }.
Definition with_if (o : opts) (s : string) : opts :=
  Opts (o_lp o) (o_max_order o) (o_rtol o) (o_atol o) (o_solver o) (o_hypre_ns o) s (o_brtol o) (o_batol o)
    (o_verbose o) (o_maxiter o) (o_fmg o) (o_pre o) (o_post o) (o_final o) (o_bottom o) (o_bverbose o) (o_bmaxiter o)
    (o_fixed o) (o_nsolve o) (o_nsize o).
(** MLMGOptions.cpp:117-130; the options object keeps the changed interface *)
Definition apply_nodal (built : bool) (o : opts) (n : nodal) : outcome (opts * nodal) :=
  let o := with_if o "ij" in
  let rap := if ((-1 <? l_max_coarse (o_lp o))%Z && String.eqb (o_solver o) "hypre")%bool then true else n_rap n in
  obind (apply_mlmg built o (n_mlmg n)) (fun m => Ret (o, N m (o_verbose o) rap)).
