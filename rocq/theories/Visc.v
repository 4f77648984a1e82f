(** Viscous term of the momentum equation with each of its three operators:
    amr-wind/equation_systems/icns/icns_diffusion.H, with the right-hand sides of CompRHSOps.H (Advance.v) and
    incflo_advance.cpp.

    One component of the velocity on one level.  [L u] is what the linear operator gives for the field [u]: the divergence of
    the viscous stress, or of the viscous flux of the component.  It is an argument, since it is computed by AMReX.  The
    linear solver is the relation "solves the system exactly". *)
From Coq Require Import String Bool.
From Verif Require Import Base BoxR Inputs Advance.
Open Scope R_scope.

Inductive vop : Type := Tensor | Scalar | Segregated.
Inductive fstate : Type := Old | New.

(** icns_diffusion.H:525-553, the options as booleans *)
Definition choose (s : sect bool) : outcome vop :=
  let tensor := pp_query s "use_tensor_operator" true in
  let segregated := pp_query s "use_segregated_operator" false in
  if (tensor && segregated)%bool then Abort
  else if tensor then Ret Tensor
  else if segregated then Ret Segregated else Ret Scalar.

(** icns_diffusion.H:36-47 (tensor), :117-184 and :323-405 (scalar and segregated): the last two divide by the density of the
    state unless the state is the new one *)
Definition icns_diff (o : vop) (L : (ivec -> R) -> ivec -> R) (rho : fstate -> ivec -> R) (st : fstate) (u : ivec -> R) (c : ivec) : R :=
  match o with
  | Tensor => L u c
  | Scalar | Segregated => match st with New => L u c | Old => L u c * (1 / rho Old c) end
  end.
Definition dens (q : eqn) (st : fstate) : ivec -> R := match st with Old => e_rho_o q | New => e_rho q end.

(** DiffusionOps.cpp:56-159 (tensor), icns_diffusion.H:186-256 and :407-495: coefficient rho det J and right side rho times
    the field, alpha one, beta the time step *)
Definition vsolves (L : (ivec -> R) -> ivec -> R) (dt : R) (q : eqn) (rhs phi : ivec -> R) : Prop :=
  forall c, e_rho q c * e_detj q c * phi c - dt * L phi c = e_rho q c * rhs c.

(** incflo_advance.cpp:361-394: the predictor, which is the whole step of Godunov *)
Definition momentum (s : scheme) (t : dtype) (o : vop) (L : (ivec -> R) -> ivec -> R) (q : eqn) (conv new : ivec -> R) : Prop :=
  exists star, predictor_rhs q t conv (icns_diff o L (dens q) Old (e_old q)) = Ret star /\
    match t with
    | DExplicit =>
        match s with
        | Godunov => forall c, new c = rk2_post_hoc q (fun x => icns_diff o L (dens q) New star x - icns_diff o L (dens q) Old (e_old q) x) star c
        | MOL => forall c, new c = star c
        end
    | DCrank => vsolves L (1/2 * e_dt q) q star new
    | DImplicit => vsolves L (e_dt q) q star new
    | DInvalid => False
    end.
(** incflo_advance.cpp:545-635: the corrector of MOL with explicit diffusion; the old term is that of the
    predictor *)
Definition momentum_corrector (o : vop) (L : (ivec -> R) -> ivec -> R) (q : eqn) (conv_o conv pred new : ivec -> R) : Prop :=
  exists star, corrector_rhs q DExplicit conv_o conv (icns_diff o L (dens q) Old (e_old q)) (icns_diff o L (dens q) New pred) = Ret star /\
    forall c, new c = star c.
(** incflo_advance.cpp:248-256, 280-281: the acceleration that moves the face velocities of Godunov; [src] is the force *)
Definition face_force (o : vop) (L : (ivec -> R) -> ivec -> R) (q : eqn) (src : ivec -> R) (c : ivec) : R :=
  (src c + icns_diff o L (dens q) Old (e_old q) c) / e_rho_o q c.
