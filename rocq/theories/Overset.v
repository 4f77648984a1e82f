(** Model of the overset coupling: conversion of the integer blanking field to
    solver masks, replacement of the pressure gradient in blanked cells and the
    sharpening (reinitialization) of two-phase data received from the near-body
    solver.  amr-wind/overset/overset_ops_K.H, overset_ops_routines.cpp,
    OversetOps.cpp.

    Simplifications: one mesh level, exact real arithmetic (the two places where
    rounding matters are also modelled in binary64 at the end of this file).  A
    field is a function on all of Z^3; a routine changes the cells of the box it
    loops over, and the values outside (ghost cells) after an exchange are given by
    a function of the field.  update_gradp and form_perturb_pressure are not
    modelled. *)
From Coq Require Import Floats.SpecFloat.
From Verif Require Import BoxR VecSpace Plic VofAdvect.
Open Scope R_scope.

(** IntVect arithmetic: [iv - dv] and [iv + dv] for the unit vector of [d]. *)
Definition ish (d s : Z) (c : ivec) : ivec := shift c d s.
(** The 3 x 3 x 3 neighbourhood: loops from [i-1] to [i+1]. *)
Definition hood (c : ivec) : list ivec :=
  cells (Box (IV (iv0 c - 1) (iv1 c - 1) (iv2 c - 1)) (IV (iv0 c + 1) (iv1 c + 1) (iv2 c + 1))).

(** *** Masks *)
(** overset_ops_routines.cpp:17-34 (every cell, ghost cells included) *)
Definition iblank_to_mask (ib : ivec -> Z) (c : ivec) : Z := Z.max (ib c) 0.
(** overset_ops_routines.cpp:45, 111 *)
Definition band_tol : R := 1 / 10000.
(** overset_ops_routines.cpp:41-96 (iblank_node_to_mask_vof): [near] is the loop over the eight cells
    around the node; 115-149 (prepare_mask_cell_for_mac): [near] looks at the cell itself. *)
Definition mask_vof (near : bool) (ib : ivec -> Z) (c : ivec) : Z :=
  let near_solid := existsb (fun x => (ib x =? 0)%Z) (hood c) in
  let near_boundary := existsb (fun x => (ib x =? 1)%Z) (hood c) in
  if ((ib c =? -1)%Z && (near_boundary && near && negb near_solid)) then 1%Z else Z.max (ib c) 0.
Definition node_cells (c : ivec) : list ivec :=
  cells (Box (IV (iv0 c - 1) (iv1 c - 1) (iv2 c - 1)) c).
Definition mask_vof_node (ib : ivec -> Z) (vof : ivec -> R) (c : ivec) : Z :=
  mask_vof (existsb (fun x => interface_band vof (iv0 x) (iv1 x) (iv2 x) 1 band_tol) (node_cells c)) ib c.
Definition mask_vof_cell (ib : ivec -> Z) (vof : ivec -> R) (c : ivec) : Z :=
  mask_vof (interface_band vof (iv0 c) (iv1 c) (iv2 c) 1 band_tol) ib c.
(** A loop over the valid cells [b] followed by FillBoundary; [gh] gives the values of
    the ghost cells. *)
Definition inb (b : box) (c : ivec) : bool :=
  ((iv0 (blo b) <=? iv0 c) && (iv0 c <=? iv0 (bhi b)) && (iv1 (blo b) <=? iv1 c) && (iv1 c <=? iv1 (bhi b)) &&
   (iv2 (blo b) <=? iv2 c) && (iv2 c <=? iv2 (bhi b)))%Z.
Definition fill {A} (b : box) (gh : (ivec -> A) -> ivec -> A) (f : ivec -> A) (c : ivec) : A :=
  if inb b c then f c else gh f c.
(** 102-155 (prepare_mask_cell_for_mac) and 164-174 (revert_mask_cell_after_mac) on
    the field mask_cell; both return at once when there is no vof field. *)
Definition prepare_mask (b : box) (gh : (ivec -> Z) -> ivec -> Z) (vof : option (ivec -> R)) (ib mask : ivec -> Z) : ivec -> Z :=
  match vof with None => mask | Some v => fill b gh (mask_vof_cell ib v) end.
Definition revert_mask (vof : option (ivec -> R)) (ib mask : ivec -> Z) : ivec -> Z :=
  match vof with None => mask | Some _ => iblank_to_mask ib end.

(** *** Replacing data in blanked cells *)
(** 193-205 (process_vof), 570-574: bounds of the volume fraction *)
Definition clip_vof (tol v : R) : R := if Rltb v tol then 0 else if Rltb (1 - tol) v then 1 else v.
(** 208-223 (harmonize_vof) *)
Definition harmonize_vof (ib : ivec -> Z) (original target : ivec -> R) (c : ivec) : R :=
  if negb (ib c =? -1)%Z then original c else target c.
(** 640-657 (replace_gradp), component [n] *)
Definition replace_gradp (ib : ivec -> Z) (gp0 gp : Z -> ivec -> R) (n : Z) (c : ivec) : R :=
  if (ib c <=? 0)%Z then gp0 n c else gp n c.
(** 660-677 (apply_pressure_gradient) *)
Definition apply_gradp (rho : ivec -> R) (gp : Z -> ivec -> R) (s : R) (vel : Z -> ivec -> R) (n : Z) (c : ivec) : R :=
  vel n c - gp n c * (s / rho c).
(** OversetOps.cpp:396-423 (replace_masked_gradp) *)
Definition replace_masked_gradp (dt : R) (ib : ivec -> Z) (rho : ivec -> R) (gp0 gp vel : Z -> ivec -> R) :
  (Z -> ivec -> R) * (Z -> ivec -> R) :=
  let v1 := apply_gradp rho gp (- dt) vel in
  let gp1 := replace_gradp ib gp0 gp in
  (gp1, apply_gradp rho gp1 dt v1).

(** *** Sharpening *)
(** volume_fractions.H:73-128 (youngs_finite_difference_normal_neumann).  [lo d], [hi d]
    are the indices im1/jm1/km1 and ip1/jp1/kp1; [q] is the weighted sum over a 3 x 3
    patch: corners 1, edges 2, centre 4. *)
Definition patch (g : Z -> Z -> R) (al ac ah bl bc bh : Z) : R :=
  g al bl + g al bh + g ah bl + g ah bh +
  2 * (g al bc + g ah bc + g ac bl + g ac bh) + 4 * g ac bc.
Definition youngs_neumann (vof : ivec -> R) (bdy : Z -> Z) (c : ivec) : vec :=
  let lo d := (if (bdy d =? -1)%Z then icomp c d else icomp c d - 1)%Z in
  let hi d := (if (bdy d =? 1)%Z then icomp c d else icomp c d + 1)%Z in
  let i := iv0 c in let j := iv1 c in let k := iv2 c in
  V3 (patch (fun a b => vof (IV (lo 0%Z) a b)) (lo 1%Z) j (hi 1%Z) (lo 2%Z) k (hi 2%Z) -
      patch (fun a b => vof (IV (hi 0%Z) a b)) (lo 1%Z) j (hi 1%Z) (lo 2%Z) k (hi 2%Z))
     (patch (fun a b => vof (IV a (lo 1%Z) b)) (lo 0%Z) i (hi 0%Z) (lo 2%Z) k (hi 2%Z) -
      patch (fun a b => vof (IV a (hi 1%Z) b)) (lo 0%Z) i (hi 0%Z) (lo 2%Z) k (hi 2%Z))
     (patch (fun a b => vof (IV a b (lo 2%Z))) (lo 0%Z) i (hi 0%Z) (lo 1%Z) j (hi 1%Z) -
      patch (fun a b => vof (IV a b (hi 2%Z))) (lo 0%Z) i (hi 0%Z) (lo 1%Z) j (hi 1%Z)).
Definition vcmp (v : vec) (d : Z) : R := if (d =? 0)%Z then vx v else if (d =? 1)%Z then vy v else vz v.
(** overset_ops_routines.cpp:226-265 (populate_normal_vector) *)
Definition normal_vector (ib : ivec -> Z) (vof : ivec -> R) (d : Z) (c : ivec) : R :=
  let bdy e := if negb (ib c =? ib (ish e 1 c))%Z then 1%Z
               else if negb (ib c =? ib (ish e (-1) c))%Z then (-1)%Z else 0%Z in
  let m := youngs_neumann vof bdy c in
  vcmp m d / sqrt (vx m * vx m + vy m * vy m + vz m * vz m + veps).

(** overset_ops_K.H:20-70 (alpha_flux) *)
Definition alpha_flux (d : Z) (margin : R) (vof tg : ivec -> R) (nrm : Z -> ivec -> R) (c : ivec) : R :=
  let m := ish d (-1) c in
  let gphi := vof c - vof m in
  let dphi := (vof c - tg c) * Rabs (nrm d c) in
  let dphi_nb := (tg m - vof m) * Rabs (nrm d m) in
  let e0 := (1/2) * (dphi + dphi_nb) in
  if Rltb margin (Rabs (vof c - 1/2)) || Rltb margin (Rabs (vof m - 1/2)) then
    let e1 := if Rltb 0 gphi then
                let e := if Rltb (vof m) (1/2) && Rleb (vof c) (1/2 + margin) then dphi_nb else e0 in
                if Rleb (1/2 - margin) (vof m) && Rltb (1/2) (vof c) then dphi else e
              else e0 in
    if Rltb gphi 0 then
      let e := if Rltb (vof c) (1/2) && Rleb (vof m) (1/2 + margin) then dphi else e1 in
      if Rleb (1/2 - margin) (vof c) && Rltb (1/2) (vof m) then dphi_nb else e
    else e1
  else e0.
(** overset_ops_K.H:72-113 (velocity_face); with [u := gp / rho] 115-157 (gp_rho_face) *)
Definition face_value (d : Z) (vof u : ivec -> R) (c : ivec) : R :=
  let m := ish d (-1) c in
  let gphi := vof c - vof m in
  if Rltb gphi 0 then u c else if Rltb 0 gphi then u m else (1/2) * (u c + u m).

(** The fields that sharpening changes; velocity and pressure gradient by component. *)
Record ostate : Type := OS {
  o_vof : ivec -> R; o_rho : ivec -> R; o_vel : Z -> ivec -> R; o_gp : Z -> ivec -> R; o_p : ivec -> R }.
(** overset_ops_routines.cpp:269-359 (populate_sharpen_fluxes): component [n] of the
    flux through the low face of [c] in direction [d]. *)
Definition sharpen_flux (Gamma margin rho1 rho2 : R) (tg : ivec -> R) (nrm : Z -> ivec -> R) (s : ostate)
  (d n : Z) (c : ivec) : R :=
  let f0 := Gamma * alpha_flux d margin (o_vof s) tg nrm c in
  let f1 := f0 * (rho1 - rho2) in
  if (n =? 0)%Z then f0 else if (n =? 1)%Z then f1
  else if (n <=? 4)%Z then f1 * face_value d (o_vof s) (o_vel s (n - 2)) c
  else if (n <=? 7)%Z then f1 * face_value d (o_vof s) (fun x => o_gp s (n - 5) x / o_rho s x) c
  else 1.
(** 363-399: the fluxes of faces not between two overset cells are set to zero *)
Definition process_flux (ib : ivec -> Z) (F : Z -> Z -> ivec -> R) (d n : Z) (c : ivec) : R :=
  F d n c * (if (-2 <? ib (ish d (-1) c) + ib c)%Z then 0 else 1).

(** overset_ops_K.H:159-210 (gp_flux_tensor): sums over the four faces around a node *)
Definition node_faces (d : Z) (c : ivec) : list ivec :=
  let a := if (d =? 0)%Z then 1%Z else 0%Z in
  let b := if (d =? 2)%Z then 1%Z else 2%Z in
  [c; ish b (-1) c; ish a (-1) c; ish a (-1) (ish b (-1) c)].
Definition node_avg (tiny : R) (F : Z -> Z -> ivec -> R) (d : Z) (c : ivec) : R :=
  rsum (map (F d 8%Z) (node_faces d c)) + tiny.
Definition gp_flux_tensor (tiny : R) (F : Z -> Z -> ivec -> R) (c : ivec) : tensor :=
  let t d n := rsum (map (F d n) (node_faces d c)) / node_avg tiny F d c in
  (T9 (t 0%Z 5%Z) (t 0%Z 6%Z) (t 0%Z 7%Z) (t 1%Z 5%Z) (t 1%Z 6%Z) (t 1%Z 7%Z) (t 2%Z 5%Z) (t 2%Z 6%Z) (t 2%Z 7%Z)).
(** overset_ops_K.H:212-271 (normal_reinit_tensor) *)
Definition normal_reinit_tensor (tiny : R) (F : Z -> Z -> ivec -> R) (vof : ivec -> R) (c : ivec) : tensor :=
  let n d := rsum (map (fun x => (vof x - vof (ish d (-1) x)) * F d 8%Z x) (node_faces d c)) / node_avg tiny F d c in
  let v := vnormalize (V3 (n 0%Z) (n 1%Z) (n 2%Z)) in
  T9 (vx v * vx v) (vy v * vx v) (vz v * vx v) (vx v * vy v) (vy v * vy v) (vz v * vy v)
     (vx v * vz v) (vy v * vz v) (vz v * vz v).
(** overset_ops_routines.cpp:400-407 *)
Definition psource (tiny : R) (F : Z -> Z -> ivec -> R) (vof : ivec -> R) (c : ivec) : R :=
  tddot (gp_flux_tensor tiny F c) (normal_reinit_tensor tiny F vof c).

(** 410-421 (calculate_pseudo_velocity_scale): [mn] is the smallest blanking value *)
Definition pseudo_velocity (mn : Z) (dx : Z -> R) (pvmax : R) : R :=
  if (mn =? -1)%Z then rmin (rmin (dx 0%Z) (dx 1%Z)) (dx 2%Z) else pvmax.
(** 424-492 (calculate_pseudo_dt_flux): one face, then all faces of a direction *)
Definition pdt_face (tol : R) (dx : Z -> R) (F : Z -> Z -> ivec -> R) (vof : ivec -> R) (d : Z) (c : ivec) : R :=
  let f := F d 0%Z c in
  let m := ish d (-1) c in
  if Rltb tol f && Rltb tol (vof c) then vof c * dx d / f
  else if Rltb f (- tol) && Rltb tol (vof m) then vof m * dx d / (- f)
  else 1.
Definition faces (b : box) (d : Z) : list ivec := cells (Box (blo b) (ish d 1 (bhi b))).
Definition pdt_dir (tol : R) (dx : Z -> R) (F : Z -> Z -> ivec -> R) (vof : ivec -> R) (b : box) (d : Z) : R :=
  fold_left (fun m c => rmin m (pdt_face tol dx F vof d c)) (faces b d) 1.
Definition pseudo_dt (tol : R) (dx : Z -> R) (F : Z -> Z -> ivec -> R) (vof : ivec -> R) (b : box) : R :=
  rmin (pdt_dir tol dx F vof b 0) (rmin (pdt_dir tol dx F vof b 1) (pdt_dir tol dx F vof b 2)).

(** 495-581 (apply_fluxes) *)
Definition fdiv (dx : Z -> R) (F : Z -> Z -> ivec -> R) (n : Z) (c : ivec) : R :=
  (F 0%Z n (ish 0 1 c) - F 0%Z n c) / dx 0%Z + (F 1%Z n (ish 1 1 c) - F 1%Z n c) / dx 1%Z +
  (F 2%Z n (ish 2 1 c) - F 2%Z n c) / dx 2%Z.
Definition apply_fluxes (dx : Z -> R) (ptfac vof_tol : R) (F : Z -> Z -> ivec -> R) (sp : ivec -> R) (s : ostate) : ostate :=
  let rho c := o_rho s c + ptfac * fdiv dx F 1 c in
  OS (fun c => clip_vof vof_tol (o_vof s c + ptfac * fdiv dx F 0 c))
     rho
     (fun n c => 1 / rho c * (o_rho s c * o_vel s n c + ptfac * fdiv dx F (n + 2) c))
     (fun n c => o_gp s n c + ptfac * fdiv dx F (n + 5) c)
     (fun c => o_p s c + ptfac * sp c).
(** MultiPhase.cpp:338-363 (set_density_via_vof) *)
Definition density_of (rho1 rho2 v : R) : R := rho1 * v + rho2 * (1 - v).

(** Parameters of a run: OversetOps.H:39-53, OversetOps.cpp:14-26; [pc_gh] stands for
    FillBoundary and fillpatch. *)
Record oparams : Type := OP {
  pc_box : box; pc_dx : Z -> R; pc_gamma : R; pc_margin : R; pc_rho1 : R; pc_rho2 : R;
  pc_convg_tol : R; pc_vof_tol : R; pc_interval : Z; pc_iter : nat;
  pc_gh : (ivec -> R) -> ivec -> R }.
(** The processed fluxes of one pseudo time step, OversetOps.cpp:293-309. *)
Definition step_flux (P : oparams) (ib : ivec -> Z) (tg : ivec -> R) (s : ostate) : Z -> Z -> ivec -> R :=
  process_flux ib (sharpen_flux (pc_gamma P) (pc_margin P) (pc_rho1 P) (pc_rho2 P) tg
                     (normal_vector ib (o_vof s)) s).
(** OversetOps.cpp:288-291, 326-343: pseudo time factor with pseudo CFL 0.5 *)
Definition step_ptfac (P : oparams) (ib : ivec -> Z) (tg : ivec -> R) (s : ostate) : R :=
  (1/2) * rmin 1 (pseudo_dt (pc_convg_tol P) (pc_dx P) (step_flux P ib tg s) (o_vof s) (pc_box P)).
(** OversetOps.cpp:346-361 *)
Definition sharpen_step (P : oparams) (ib : ivec -> Z) (tg : ivec -> R) (s : ostate) : ostate :=
  let F := step_flux P ib tg s in
  let s1 := apply_fluxes (pc_dx P) (step_ptfac P ib tg s) (pc_vof_tol P) F (psource veps F (o_vof s)) s in
  let vof := fill (pc_box P) (pc_gh P) (o_vof s1) in
  OS vof (fun c => density_of (pc_rho1 P) (pc_rho2 P) (vof c))
     (fun n => fill (pc_box P) (pc_gh P) (o_vel s1 n)) (fun n => fill (pc_box P) (pc_gh P) (o_gp s1 n)) (o_p s1).
(** overset_ops_routines.cpp:584-623 (measure_convergence), OversetOps.cpp:311-318 *)
Definition measure (P : oparams) (F : Z -> Z -> ivec -> R) : R :=
  let dirmax d := fold_left (fun m c => rmax m (Rabs (F d 0%Z c))) (faces (pc_box P) d) (-1) in
  rmax (dirmax 0%Z) (rmax (dirmax 1%Z) (dirmax 2%Z)) / pc_gamma P.
(** OversetOps.cpp:279-371, the loop; [fuel] is the number of iterations left, [n] the
    number done.  [n % interval] with interval 0 is undefined behaviour. *)
Fixpoint sharpen_loop (P : oparams) (ib : ivec -> Z) (tg : ivec -> R) (fuel : nat) (n : Z) (err : R) (s : ostate) :
  outcome (Z * ostate) :=
  match fuel with
  | O => Ret (n, s)
  | S k =>
    if Rltb (pc_convg_tol P) err then
      if (pc_interval P =? 0)%Z then UB else
      let n' := (n + 1)%Z in
      let err' := if (Z.rem n' (pc_interval P) =? 0)%Z
                  then rmax 0 (measure P (step_flux P ib tg s)) else err in
      sharpen_loop P ib tg k n' err' (sharpen_step P ib tg s)
    else Ret (n, s)
  end.
(** OversetOps.cpp:262-268 and the loop; [tg] is the target obtained from the smoothed
    interface (levelset2vof, process_vof). *)
Definition sharpen (P : oparams) (ib : ivec -> Z) (tg : ivec -> R) (s : ostate) : outcome (Z * ostate) :=
  sharpen_loop P ib (harmonize_vof ib (o_vof s) tg) (pc_iter P) 0 (100 * pc_convg_tol P) s.

(** *** The same update in binary64 *)
Definition b64 (z : Z) : spec_float := binary_normalize 53 1024 z 0 false.
Definition b64q (a b : Z) : spec_float := SFdiv 53 1024 (b64 a) (b64 b).
(** overset_ops_routines.cpp:532-538 for a cell without fluxes:
    vel = 1.0 / dens * (olddens * vel + ptfac * 0) *)
Definition b64_keep_velocity (ptfac dens vel : spec_float) : spec_float :=
  let dens' := SFadd 53 1024 dens (SFmul 53 1024 ptfac (b64 0)) in
  SFmul 53 1024 (SFdiv 53 1024 (b64 1) dens')
    (SFadd 53 1024 (SFmul 53 1024 dens vel) (SFmul 53 1024 ptfac (b64 0))).
(** 671-674 called with -dt and then with dt on the same pressure gradient *)
Definition b64_gradp_twice (dt rho gp vel : spec_float) : spec_float :=
  let s1 := SFdiv 53 1024 (SFopp dt) rho in
  let v1 := SFsub 53 1024 vel (SFmul 53 1024 gp s1) in
  let s2 := SFdiv 53 1024 dt rho in
  SFsub 53 1024 v1 (SFmul 53 1024 gp s2).
