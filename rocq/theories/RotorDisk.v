(** Turbine rotor as a disk: amr-wind/wind_energy/actuator/turbine/ActSrcDiskOp_Turbine.H.

    Reals are exact; the copies to the device (68-76) are the identity; the number of blades and of points are
    naturals.  The points of the turbine stand in one list: hub, blades, tower (turbine_external_utils.H:25-85,
    [hub_view], [blade_view], [tower_view] of ExtTurb.v); the components are pointers into that list without a
    length of their own, so an index beyond a component reads the next one. *)
From Coq Require Import List Arith.
From Verif Require Import BoxR VecSpace Tagging DiskActuator ExtTurb.
Import ListNotations.
Open Scope R_scope.

(** one actuator point: actuator_types.H:76-100 *)
Record apoint : Type := AP { a_pos : vec; a_force : vec; a_eps : vec; a_ori : tensor }.
Definition nowhere : apoint := AP vzero vzero vzero (T9 0 0 0 0 0 0 0 0 0).

(** a turbine: turbine_types.H:30-83; [r_normal] is the first row of rotor_frame *)
Record rotor : Type := Rotor {
  r_nb : nat; r_npb : nat; r_npt : nat; r_pts : list apoint; r_center : vec; r_normal : vec }.

Definition blade_pt (r : rotor) (ib ip : nat) : apoint := nth (fst (blade_view (r_npb r) ib) + ip) (r_pts r) nowhere.
Definition tower_pt (r : rotor) (ip : nat) : apoint :=
  nth (fst (tower_view (r_nb r) (r_npb r) (r_npt r)) + ip) (r_pts r) nowhere.
Definition hub_pt (r : rotor) : apoint := nth (fst hub_view) (r_pts r) nowhere.

(** 111-112: from the first two points after the start of the first blade *)
Definition rotor_dr (r : rotor) : outcome R :=
  match nth_error (r_pts r) (fst (blade_view (r_npb r) 0)), nth_error (r_pts r) (fst (blade_view (r_npb r) 0) + 1) with
  | Some a, Some b => Ret (vmag_sqr (vsub (a_pos a) (a_pos b)))
  | _, _ => UB
  end.
(** 113-114 *)
Definition rotor_dt (r : rotor) : R := 2 * PI / INR (r_nb r).

(** 135-149, the weight of one point of a blade at the cell centre *)
Definition blade_weight (r : rotor) (dR : R) (cc : vec) (p : apoint) : R :=
  let bigR := vx (delta_pnts_cyl (r_center r) (r_normal r) (r_center r) (a_pos p)) in
  let dist := delta_pnts_cyl (r_center r) (r_normal r) cc (a_pos p) in
  let weight_R := linear_basis_1d (vx dist) dR in
  let weight_T := linear_basis_1d (bigR * vy dist) (rotor_dt r * bigR) in
  let weight_N := gaussian1d (vz dist) (vx (a_eps p)) in
  weight_R * weight_T * weight_N.

(** 163-166, 180-182: the weight of a point of the tower or of the hub *)
Definition body_weight (cc : vec) (p : apoint) : R :=
  gaussian3d (tapp (a_ori p) (vsub cc (a_pos p))) (a_eps p).

(** src_force[n] += weight * pforce[n] *)
Definition push (w : apoint -> R) (s : vec) (p : apoint) : vec := vadd s (vscale (a_force p) (w p)).

(** 126-188 *)
Definition rotor_source (r : rotor) (dR : R) (cc : vec) : vec :=
  fold_left (fun s ib =>
      (* blade/disk contribution *)
      let s := fold_left (fun s ip => push (blade_weight r dR cc) s (blade_pt r ib ip)) (seq 0 (r_npb r)) s in
      (* tower contribution *)
      let s := fold_left (fun s ip => push (body_weight cc) s (tower_pt r ip)) (seq 0 (r_npt r)) s in
      (* hub *)
      push (body_weight cc) s (hub_pt r))
    (seq 0 (r_nb r)) vzero.

(** 84-194: what the cells of one tile receive; the loop of 119 runs over the tile, not over its part in the box *)
Definition rotor_tile (rb : rbox) (g : geom) (tile : box) (r : rotor) : outcome (ivec -> vec) :=
  obind (realbox_to_box rb g) (fun bxa =>
  let bxi := box_and tile bxa in
  if box_empty bxi then Ret (fun _ => vzero)
  else obind (rotor_dr r) (fun dR =>
       Ret (fun c => if in_boxb tile c then rotor_source r dR (cell_point g c) else vzero))).
