(** A turbine computed by the structural solver Kynema: amr-wind/wind_energy/actuator/turbine/kynema/KynemaIface.cpp (what the
    solver is given and the order of its calls), kynema_types.H (arrays exchanged with it), turbine_kynema_ops.H (inputs).

    The solver itself is not modelled: the bodies are the numbers of their nodes and functions from (body, node) to values.
    Arrays of [float] hold exact reals.  An array is a function from its index; lengths are those of [allocate_buffers]. *)
From Coq Require Import Reals List Arith ZArith Lia.
From Verif Require Import Base BoxR VecSpace ExtTurb.
Import ListNotations.
Open Scope R_scope.

(** ** Arrays *)

(** kynema_types.H:224-232 *)
Definition length_force (sizes : list nat) : nat := fold_left Nat.add sizes 1%nat.

(** kynema_types.H:154-169, the loop over the bodies; [d] is [id_diff] *)
Fixpoint body_loop (sizes : list nat) (b : nat) (d : Z) : nat :=
  match sizes with
  | [] => 0
  | s :: r => let d' := (d - Z.of_nat s)%Z in if (d' <? 0)%Z then b else body_loop r (S b) d'
  end.
Definition body_index (sizes : list nat) (id : nat) : nat := body_loop sizes 0 (Z.of_nat id - 1).
(** kynema_types.H:171-186 *)
Fixpoint node_loop (sizes : list nat) (d : Z) : Z :=
  match sizes with
  | [] => 0
  | s :: r => let d' := (d - Z.of_nat s)%Z in if (d' <? 0)%Z then (d' + Z.of_nat s)%Z else node_loop r d'
  end.
Definition node_index (sizes : list nat) (id : nat) : nat := Z.to_nat (node_loop sizes (Z.of_nat id - 1)).

Definition put {A} (f : nat -> A) (i : nat) (v : A) : nat -> A := fun j => if Nat.eqb j i then v else f j.

(** kynema_types.H:71-95: in each direction the slot of the hub is skipped, then one value for every other point; [k] points are left,
    [n] is the next one *)
Fixpoint fill_points (v : nat -> R) (k n idx : nat) (buf : nat -> R) : nat * (nat -> R) :=
  match k with
  | O => (idx, buf)
  | S k' => fill_points v k' (S n) (S idx) (put buf idx (v n))
  end.
Definition fill_dir (N : nat) (v : nat -> nat -> R) (dir : nat) (s : nat * (nat -> R)) : nat * (nat -> R) :=
  fill_points (v dir) (N - 1) 1 (S (fst s)) (snd s).
Definition fill (N : nat) (v : nat -> nat -> R) (buf : nat -> R) : nat -> R :=
  snd (fold_left (fun s dir => fill_dir N v dir s) [0; 1; 2]%nat (0%nat, buf)).

(** What the solver holds for the nodes of its bodies: chord, loads, positions, velocities, and the node of the hub. *)
Record solver : Type := Solver {
  s_sizes : list nat;
  s_chord : nat -> nat -> R;
  s_loads : nat -> nat -> nat -> R;
  s_x : nat -> nat -> nat -> R;
  s_v : nat -> nat -> nat -> R;
  s_q : nat -> nat -> nat -> R;
  s_hub_x : nat -> R;      (* seven numbers: position and quaternion *)
  s_hub_v : nat -> R }.
Record buffers : Type := Buffers { b_cf : nat -> R; b_f : nat -> R; b_pf : nat -> R; b_pv : nat -> R; b_sv : nat -> R; b_ori : nat -> R }.

Definition at_point {A} (sizes : list nat) (v : nat -> nat -> A) (n : nat) : A := v (body_index sizes n) (node_index sizes n).
Definition put3 (N : nat) (v : nat -> R) (buf : nat -> R) : nat -> R := put (put (put buf 0 (v 0%nat)) N (v 1%nat)) (2 * N) (v 2%nat).

(** kynema_types.H:111-122 *)
Definition rot9 (q : nat -> R) (c : nat) : R :=
  match c with
  | 0%nat => q 0%nat * q 0%nat + q 1%nat * q 1%nat - q 2%nat * q 2%nat - q 3%nat * q 3%nat
  | 1%nat => 2 * (q 1%nat * q 2%nat - q 0%nat * q 3%nat)
  | 2%nat => 2 * (q 1%nat * q 3%nat + q 0%nat * q 2%nat)
  | 3%nat => 2 * (q 1%nat * q 2%nat + q 0%nat * q 3%nat)
  | 4%nat => q 0%nat * q 0%nat - q 1%nat * q 1%nat + q 2%nat * q 2%nat - q 3%nat * q 3%nat
  | 5%nat => 2 * (q 2%nat * q 3%nat - q 0%nat * q 1%nat)
  | 6%nat => 2 * (q 1%nat * q 3%nat - q 0%nat * q 2%nat)
  | 7%nat => 2 * (q 2%nat * q 3%nat + q 0%nat * q 1%nat)
  | _ => q 0%nat * q 0%nat - q 1%nat * q 1%nat - q 2%nat * q 2%nat + q 3%nat * q 3%nat
  end.
(** kynema_types.H:100-109 *)
Definition quat (s : solver) (n : nat) (iq : nat) : R :=
  if Nat.eqb n 0 then s_hub_x s (iq + 3)%nat else at_point (s_sizes s) (s_q s) n iq.
(** kynema_types.H:98-123: nine numbers for each of the [k] points left, the next one being [n] *)
Fixpoint fill_ori (q : nat -> nat -> R) (k n : nat) (buf : nat -> R) : nat -> R :=
  match k with
  | O => buf
  | S k' => fill_ori q k' (S n) (fold_left (fun b c => put b (n * 9 + c) (rot9 (q n) c)) (seq 0 9) buf)
  end.

(** kynema_types.H:50-124; the copy of line 89 is taken from the finished array of positions, whose slot is written just before *)
Definition populate_buffers (s : solver) (b : buffers) : buffers :=
  let N := length_force (s_sizes s) in
  let pt v := fun dir n => at_point (s_sizes s) (fun b k => v b k dir) n in
  let pf := fill N (pt (s_x s)) (put3 N (s_hub_x s) (b_pf b)) in
  Buffers (snd (fill_points (at_point (s_sizes s) (s_chord s)) (N - 1) 1 1 (put (b_cf b) 0 0)))
          (fill N (pt (s_loads s)) (b_f b))
          pf
          (fill N (fun dir n => pf (dir * N + n)%nat) (put3 N (s_hub_x s) (b_pv b)))
          (fill N (pt (s_v s)) (put3 N (s_hub_v s) (b_sv b)))
          (fill_ori (quat s) N 0 (b_ori b)).

(** kynema_types.H:130-140: the inflow of the nodes, by body, node and direction *)
Fixpoint pass_points (sizes : list nat) (dir k n idx : nat) (fv : nat -> R) (w : nat -> nat -> nat -> R) : nat * (nat -> nat -> nat -> R) :=
  match k with
  | O => (idx, w)
  | S k' => pass_points sizes dir k' (S n) (S idx) fv
              (put w (body_index sizes n) (put (w (body_index sizes n)) (node_index sizes n) (put (w (body_index sizes n) (node_index sizes n)) dir (fv idx))))
  end.
Definition pass_velocity (sizes : list nat) (fv : nat -> R) (w : nat -> nat -> nat -> R) : nat -> nat -> nat -> R :=
  let N := length_force sizes in
  snd (fold_left (fun s dir => pass_points sizes dir (N - 1) 1 (S (fst s)) fv (snd s)) [0; 1; 2]%nat (0%nat, w)).
(** kynema_types.H:141-150: load of the hub, and velocity at the hub, from the arrays of force and of velocity *)
Definition hub_values (sizes : list nat) (buf : nat -> R) : list R :=
  let N := length_force sizes in [buf 0%nat; buf N; buf (N + N)%nat].

(** ** Order of the calls *)

Inductive call : Type := Motion | Pass | Loads | Nodal | Step | Control (t : R) | Write | Populate.
(** KynemaIface.cpp:400-441; [conv] says whether the step of the solver converges, [t] is the time for the controller (line 420), [ctl] whether
    there is one, [c] is [substep_counter] *)
Definition update_turbine (ctl : bool) (nsub : nat) (advance conv : bool) (t : R) (c : nat) : outcome (list call * nat) :=
  let c := S c in
  let first := if Nat.eqb c 1 then [Motion; Pass; Loads; Nodal] else [] in
  if (advance && negb conv)%bool then Abort
  else
    let step := if advance then Step :: (if ctl then [Control t] else []) else [] in
    let motion := if Nat.eqb c nsub then [Motion] else [] in
    let c' := if Nat.eqb c nsub then 0%nat else if advance then c else 0%nat in
    Ret (first ++ step ++ motion ++ (if Nat.eqb c' 0 then [Write; Populate] else []), c').
(** ExtTurbIface.H:169-171 with KynemaIface.cpp:643-648: the steps of the solver in one step of the flow *)
Fixpoint substeps_run (ctl : bool) (nsub : nat) (ss : list (bool * R)) (c : nat) : outcome (list call * nat) :=
  match ss with
  | [] => Ret ([], c)
  | (conv, t) :: r => obind (update_turbine ctl nsub true conv t c) (fun p =>
      obind (substeps_run ctl nsub r (snd p)) (fun p' => Ret (fst p ++ fst p', snd p')))
  end.

(** ** Masses *)

(** KynemaIface.cpp:159-166 *)
Definition section_mass (mass cm_x cm_y i_cp i_edge i_flap i_plr : R) : list (list R) :=
  [[mass; 0; 0; 0; 0; - mass * cm_y];
   [0; mass; 0; 0; 0; mass * cm_x];
   [0; 0; mass; mass * cm_y; - mass * cm_x; 0];
   [0; 0; mass * cm_y; i_edge; - i_cp; 0];
   [0; 0; - mass * cm_x; - i_cp; i_flap; 0];
   [- mass * cm_y; mass * cm_x; 0; 0; 0; i_plr]].
(** KynemaIface.cpp:113-126: the grids of stiffness and of mass *)
Definition grids_ok (m k : list R) : outcome nat :=
  if negb (Nat.eqb (length m) (length k)) then Abort
  else if forallb (fun p => if Rlt_dec (1 / 100000000) (Rabs (fst p - snd p)) then false else true) (combine m k) then Ret (length k) else Abort.
(** KynemaIface.cpp:325-334; [h] is the inertia of the hub in the order xx, yy, zz, xy, xz, yz, [g] that of the generator, [ratio] of the gearbox *)
Definition hub_mass_matrix (mass : R) (h : nat -> R) (g ratio : R) : list (list R) :=
  [[mass; 0; 0; 0; 0; 0];
   [0; mass; 0; 0; 0; 0];
   [0; 0; mass; 0; 0; 0];
   [0; 0; 0; h 0%nat + g * ratio * ratio; h 3%nat; h 4%nat];
   [0; 0; 0; h 3%nat; h 1%nat; h 5%nat];
   [0; 0; 0; h 4%nat; h 5%nat; h 2%nat]].

(** ** Inputs *)

(** KynemaIface.cpp:687-700: points of a blade in the input file against the sections, points of the tower *)
Definition points_ok (sections pts_blade pts_tower : nat) : outcome unit :=
  if negb (Nat.eqb sections pts_blade) then Abort else if negb (Nat.eqb pts_tower 0) then Abort else Ret tt.
(** turbine_kynema_ops.H:73-77 *)
Definition solver_dt (input : option R) (dt_cfd : R) : R :=
  let d := match input with Some d => d | None => -1 end in if Rlt_dec d 0 then dt_cfd else d.
(** turbine_kynema_ops.H:82-87 (with 2 pi / 60) and 97-101 (with pi / 180): the first name in radians, else the second with a factor *)
Definition in_radians (rad other : option R) (factor : R) : R :=
  match rad with Some r => r | None => match other with Some o => o * factor | None => 0 * factor end end.
