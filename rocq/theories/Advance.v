(** One time step of a transport equation and the choice of the time step:
    equation_systems/CompRHSOps.H, DiffusionOps.H/.cpp, diffusion/incflo_diffusion.cpp,
    convection/incflo_mol_fluxes.cpp, incflo_advance.cpp, incflo_compute_dt.cpp.

    Exact reals; one level; fields are functions of the cell.  The linear solver (amrex::MLMG)
    is the relation "solves the linear system exactly".  The Godunov fluxes come from
    AMReX-Hydro, which is not part of the repository: they are arguments. *)
From Coq Require Import Reals Lra ZArith List Bool Lia.
From Verif Require Import Base BoxR VofAdvect VofSpec Plic.
Import ListNotations.
Open Scope R_scope.

(** incflo_enums.H:6-11 *)
Inductive dtype : Type := DInvalid | DExplicit | DCrank | DImplicit.
Inductive scheme : Type := Godunov | MOL.

(** CompRHSOps.H:35-51 *)
Definition pred_factor (t : dtype) : outcome R :=
  match t with DExplicit => Ret 1 | DCrank => Ret (1/2) | DImplicit => Ret 0 | DInvalid => Abort end.
(** CompRHSOps.H:152-172: factors of the old and the new diffusion term *)
Definition corr_factors (t : dtype) : outcome (R * R) :=
  match t with DExplicit => Ret (1/2, 1/2) | DCrank => Ret (1/2, 0) | DImplicit => Ret (0, 0) | DInvalid => Abort end.

(** What a right-hand side is made of (CompRHSOps.H:53-94): [e_mul] is PDE::multiply_rho,
    [e_mask] mask_cell, [e_detj] the determinant of the mesh mapping (one without mapping). *)
Record eqn : Type := EQ {
  e_mul : bool; e_dt : R; e_mask : ivec -> Z; e_detj : ivec -> R;
  e_rho_o : ivec -> R; e_rho : ivec -> R; e_old : ivec -> R; e_src : ivec -> R }.
(** CompRHSOps.H:95-138 and :215-262, for the sum [s] of convection, source and diffusion *)
Definition rhs_value (q : eqn) (t : dtype) (s : R) (c : ivec) : R :=
  let v := if e_mul q then (e_rho_o q c * e_detj q c * e_old q c + IZR (e_mask q c) * e_dt q * s) / e_rho q c
           else e_detj q c * e_old q c + IZR (e_mask q c) * e_dt q * s in
  match t with DExplicit => v / e_detj q c | _ => v end.
(** CompRHSOps.H:32-141 (predictor_rhs) *)
Definition predictor_rhs (q : eqn) (t : dtype) (conv diff : ivec -> R) : outcome (ivec -> R) :=
  obind (pred_factor t) (fun f => Ret (fun c => rhs_value q t (conv c + e_detj q c * e_src q c + f * diff c) c)).
(** CompRHSOps.H:149-265 (corrector_rhs) *)
Definition corrector_rhs (q : eqn) (t : dtype) (conv_o conv diff_o diff : ivec -> R) : outcome (ivec -> R) :=
  obind (corr_factors t) (fun '(o, n) =>
    Ret (fun c => rhs_value q t ((1/2) * (conv_o c + conv c) + o * diff_o c + n * diff c + e_detj q c * e_src q c) c)).
(** CompRHSOps.H:267-300 (improve_explicit_diff, explicit_rk2_post_hoc); [dd] is the new minus
    the old diffusion term (incflo_advance.cpp:330-341). *)
Definition rk2_post_hoc (q : eqn) (dd f : ivec -> R) (c : ivec) : R :=
  f c + (1/2 * e_dt q * IZR (e_mask q c) / (if e_mul q then e_rho q c else 1)) * dd c.

(** ** Fluxes and rates *)

(** A level with one box: domain, cell sizes, periodic directions. *)
Record grid : Type := GR { gr_dom : box; gr_dx : Z -> R; gr_per : Z -> bool }.
(** Values of ghost cells across periodic boundaries. *)
Definition wrap1 (b : box) (d x : Z) : Z := (icomp (blo b) d + (x - icomp (blo b) d) mod (extent b d))%Z.
Definition wrap (g : grid) (c : ivec) : ivec :=
  IV (if gr_per g 0%Z then wrap1 (gr_dom g) 0 (iv0 c) else iv0 c)
     (if gr_per g 1%Z then wrap1 (gr_dom g) 1 (iv1 c) else iv1 c)
     (if gr_per g 2%Z then wrap1 (gr_dom g) 2 (iv2 c) else iv2 c).
(** [shift c d 1] and [shift c d (-1)] are the cells above and below in direction [d]; the face
    [c] of direction [d] is the lower face of cell [c]. *)
(** incflo_mol_fluxes.cpp:9-27 (compute_convective_rate); the same form for Godunov fluxes *)
Definition conv_rate (g : grid) (F : Z -> ivec -> R) (c : ivec) : R :=
  / gr_dx g 0%Z * (F 0%Z c - F 0%Z (shift c 0 1)) + / gr_dx g 1%Z * (F 1%Z c - F 1%Z (shift c 1 1)) +
  / gr_dx g 2%Z * (F 2%Z c - F 2%Z (shift c 2 1)).
(** Is face [c] of direction [d] on a boundary that is not periodic? *)
Definition at_low (g : grid) (d : Z) (c : ivec) : bool := (icomp c d =? icomp (blo (gr_dom g)) d)%Z.
Definition at_high (g : grid) (d : Z) (c : ivec) : bool := (icomp c d =? icomp (bhi (gr_dom g)) d + 1)%Z.
Definition wall_face (g : grid) (d : Z) (c : ivec) : bool :=
  negb (gr_per g d) && (at_low g d c || at_high g d c).
(** incflo_mol_fluxes.cpp:29-267 (compute_convective_fluxes) for one face of direction [d]: [q] is
    the transported quantity with its ghost cells, [slope d c] the limited slope of [q] in
    direction [d] (amrex_calc_*slope*, order 2, not part of the repository), [u d] the face
    velocity; [ext_lo], [ext_hi]: the boundary condition is ext_dir on that side. *)
Definition small_vel : R := / 8388608.
Definition mol_flux (g : grid) (ext_lo ext_hi : Z -> bool) (slope : Z -> ivec -> R) (q : ivec -> R)
    (u : Z -> ivec -> R) (d : Z) (c : ivec) : R :=
  let lo := icomp (blo (gr_dom g)) d in let hi := icomp (bhi (gr_dom g)) d in
  let qs :=
    if (icomp c d <=? lo)%Z && ext_lo d then q (shift c d (lo - 1 - icomp c d))
    else if (hi + 1 <=? icomp c d)%Z && ext_hi d then q (shift c d (hi + 1 - icomp c d))
    else
      let qpls := q c - 1/2 * slope d c in
      let qmns := q (shift c d (-1)) + 1/2 * slope d (shift c d (-1)) in
      if Rltb small_vel (u d c) then qmns
      else if Rltb (u d c) (- small_vel) then qpls
      else 1/2 * (qmns + qpls) in
  qs * u d c.

(** incflo_diffusion.cpp:106-204: viscosity on the faces, average of the two cells and the value
    of the inner cell on boundaries that are not periodic *)
Definition face_mu (g : grid) (mu : ivec -> R) (d : Z) (c : ivec) : R :=
  if gr_per g d then 1/2 * (mu (wrap g (shift c d (-1))) + mu (wrap g c))
  else if at_low g d c then mu c
  else if at_high g d c then mu (shift c d (-1))
  else 1/2 * (mu (shift c d (-1)) + mu c).
(** The diffusive flux through a face; [bf phi d c] is the one through a boundary face: zero
    for Neumann, prescribed for inhomogNeumann, from the boundary value for Dirichlet
    (incflo_diffusion.cpp:69-104 chooses; the operator itself is amrex::MLABecLaplacian). *)
Definition diff_flux (g : grid) (mu : ivec -> R) (bf : (ivec -> R) -> Z -> ivec -> R) (phi : ivec -> R)
    (d : Z) (c : ivec) : R :=
  if wall_face g d c then bf phi d c
  else face_mu g mu d c * (phi (wrap g c) - phi (wrap g (shift c d (-1)))) / gr_dx g d.
(** DiffusionOps.H:144-177 (compute_diff_term, alpha = 0, beta = -1): the divergence of the flux.
    The division by the density at :162-176 is for equations without multiply_rho, none of which
    diffuses; it is left out. *)
Definition diff_term (g : grid) (mu : ivec -> R) (bf : (ivec -> R) -> Z -> ivec -> R) (phi : ivec -> R) (c : ivec) : R :=
  - conv_rate g (diff_flux g mu bf phi) c.
(** DiffusionOps.cpp:56-101 and 111-159 (linsys_solve): alpha = 1, beta = [dt], coefficient rho det J, right
    side rho times the field *)
Definition solves (g : grid) (mu : ivec -> R) (bf : (ivec -> R) -> Z -> ivec -> R) (dt : R) (rho detj rhs phi : ivec -> R) : Prop :=
  forall c, in_box (gr_dom g) c ->
    rho c * detj c * phi c - dt * diff_term g mu bf phi c = rho c * rhs c.

(** ** The step of one equation *)

(** incflo_advance.cpp:310-349 (scalars) and :361-394 (momentum component), Godunov, and the same for the
    predictor of MOL: [conv] the convection term, [new] the result. *)
Definition predicted (s : scheme) (t : dtype) (g : grid) (mu : ivec -> R) (bf : (ivec -> R) -> Z -> ivec -> R)
    (q : eqn) (conv new : ivec -> R) : Prop :=
  exists star, predictor_rhs q t conv (diff_term g mu bf (e_old q)) = Ret star /\
    match t with
    | DExplicit =>
        match s with
        | Godunov => forall c, new c = rk2_post_hoc q (fun x => diff_term g mu bf star x - diff_term g mu bf (e_old q) x) star c
        | MOL => forall c, new c = star c
        end
    | DCrank => solves g mu bf (1/2 * e_dt q) (e_rho q) (e_detj q) star new
    | DImplicit => solves g mu bf (e_dt q) (e_rho q) (e_detj q) star new
    | DInvalid => False
    end.
(** incflo_advance.cpp:545-635, the corrector of MOL: [pred] is the result of the predictor and [mu']
    the viscosity evaluated from it. *)
Definition corrected (t : dtype) (g : grid) (mu mu' : ivec -> R) (bf : (ivec -> R) -> Z -> ivec -> R)
    (q : eqn) (conv_o conv pred new : ivec -> R) : Prop :=
  exists star, corrector_rhs q t conv_o conv (diff_term g mu bf (e_old q)) (diff_term g mu' bf pred) = Ret star /\
    match t with
    | DExplicit => forall c, new c = star c
    | DCrank => solves g mu' bf (1/2 * e_dt q) (e_rho q) (e_detj q) star new
    | DImplicit => solves g mu' bf (e_dt q) (e_rho q) (e_detj q) star new
    | DInvalid => False
    end.

(** density_ops.H:16-46 and :48-77: the density itself (no mask, no mesh mapping) *)
Definition density_predicted (dt : R) (rho_o conv : ivec -> R) (c : ivec) : R := rho_o c + dt * conv c.
Definition density_corrected (dt : R) (rho_o conv_o conv : ivec -> R) (c : ivec) : R :=
  rho_o c + dt * (1/2) * (conv_o c + conv c).

(** ** Time step *)

(** One cell as compute_dt sees it: cell sizes of its level, mesh mapping factors, mask,
    velocity, viscosity, density, momentum source and whether the interface is near
    (interface_band, volume_fractions.H:501-528). *)
Record dtcell : Type := DC {
  t_dxi : Z -> R; t_fac : Z -> R; t_mask : Z; t_vel : Z -> R; t_mu : R; t_rho : R; t_frc : Z -> R;
  t_near : bool; t_face : Z -> R * R }.
Definition max3 (a b c : R) : R := rmax (rmax a b) c.
(** incflo_compute_dt.cpp:69-91 *)
Definition conv_number (x : dtcell) : R :=
  let f d := IZR (t_mask x) * Rabs (t_vel x d) * t_dxi x d / t_fac x d in
  rmax (max3 (f 0%Z) (f 1%Z) (f 2%Z)) (-1).
(** incflo_compute_dt.cpp:93-138, with a volume fraction equation *)
Definition phase_number (x : dtcell) : R :=
  let f d := Rabs (t_vel x d) * t_dxi x d / t_fac x d in
  if t_near x then (f 0%Z + f 1%Z + f 2%Z) * (2 * IZR (t_mask x)) else 0.
(** incflo_compute_dt.cpp:140-170 *)
Definition diff_number (x : dtcell) : R :=
  let f d := t_dxi x d / t_fac x d * t_dxi x d / t_fac x d in
  rmax (IZR (t_mask x) * t_mu x * (2 * (f 0%Z + f 1%Z + f 2%Z)) / t_rho x) (-1).
(** incflo_compute_dt.cpp:172-202 *)
Definition force_number (x : dtcell) : R :=
  let f d := IZR (t_mask x) * Rabs (t_frc x d) * t_dxi x d / t_fac x d / t_rho x in
  rmax (max3 (f 0%Z) (f 1%Z) (f 2%Z)) (-1).
(** The maxima over cells and levels start from zero (incflo_compute_dt.cpp:39-41, 64-67,
    204-206); [has_vof] as pde_manager().has_pde("VOF"). *)
Definition max_of (f : dtcell -> R) (cs : list dtcell) : R := fold_left (fun m x => rmax m (f x)) cs 0.
Definition cfl_numbers (t : dtype) (has_vof use_force : bool) (cs : list dtcell) : R * R * R :=
  (rmax (max_of conv_number cs) (if has_vof then max_of phase_number cs else 0),
   match t with DExplicit => max_of diff_number cs | _ => 0 end,
   if use_force then max_of force_number cs else 0).
(** SimTime.cpp:162-189: the step before the growth limit and the other restrictions, which
    only shorten it (SimTime.v models them) *)
Definition eps_m : R := / 4503599627370496.
Definition unit_time (n : R * R * R) : R :=
  let '(conv, diff, src) := n in conv + diff + sqrt ((conv + diff) * (conv + diff) + 4 * src).
Definition cfl_step (cfl : R) (n : R * R * R) : R := 2 * cfl / rmax (unit_time n) eps_m.

(** incflo_compute_dt.cpp:223-341 (compute_prescribe_dt): [t_face] holds the velocities of the two
    faces of the cell in each direction *)
Definition face_speed (x : dtcell) (d : Z) : R := rmax (Rabs (fst (t_face x d))) (Rabs (snd (t_face x d))).
Definition prescribed_conv (x : dtcell) : R :=
  let f d := face_speed x d * IZR (t_mask x) * t_dxi x d / t_fac x d in
  rmax (max3 (f 0%Z) (f 1%Z) (f 2%Z)) (-1).
Definition prescribed_phase (x : dtcell) : R :=
  let f d := face_speed x d * t_dxi x d / t_fac x d in
  if t_near x then IZR (t_mask x) * (f 0%Z + f 1%Z + f 2%Z) else 0.
Definition prescribed_numbers (has_vof : bool) (cs : list dtcell) : R * R * R :=
  (rmax (max_of prescribed_conv cs) (if has_vof then max_of prescribed_phase cs else 0), 0, 0).
