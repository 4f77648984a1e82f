(** Actuators over several processes: which ranks an actuator is on, which one is
    its root, how velocities are sampled at its points and come back to it.
    amr-wind/wind_energy/actuator/{actuator_utils.cpp, actuator_opsI.H,
    Actuator.cpp, ActuatorContainer.cpp, ActuatorModel.H}.

    Reals are exact.  Ranks are 0 .. P-1 and run the same program; a collective
    operation combines what all of them hold.  A [std::set<int>] of ranks is its
    membership function; the loops over it run in increasing order. *)
From Coq Require Import String Permutation.
From Verif Require Import BoxR VecSpace Tagging Wing.

Open Scope list_scope.
Open Scope R_scope.

(** *** Ranks of an actuator *)

(** BoxArray and DistributionMapping of one level: boxes and the rank of each. *)
Definition mlevel : Type := list (box * nat).
Definition pset : Type := nat -> bool.

(** amrex::Box::refine *)
Definition box_refine (b : box) (r : ivec) : box :=
  Box (IV (iv0 (blo b) * iv0 r) (iv1 (blo b) * iv1 r) (iv2 (blo b) * iv2 r))
      (IV ((iv0 (bhi b) + 1) * iv0 r - 1) ((iv1 (bhi b) + 1) * iv1 r - 1)
          ((iv2 (bhi b) + 1) * iv2 r - 1)).

(** actuator_utils.cpp:16-31; each level comes with its ratio to the next (not
    used for the last one).  BoxArray::intersections gives the boxes that have a
    cell in common with [bx]. *)
Fixpoint infl_levels (levels : list (mlevel * ivec)) (bx : box) : list nat :=
  match levels with
  | nil => nil
  | (lv, r) :: rest =>
      map snd (filter (fun br => negb (box_empty (box_and (fst br) bx))) lv)
      ++ infl_levels rest (box_refine bx r)
  end.

(** actuator_utils.cpp:8-34 *)
Definition influenced (levels : list (mlevel * ivec)) (g0 : geom) (rb : rbox) : outcome pset :=
  obind (realbox_to_box rb g0) (fun bx =>
  Ret (fun p => existsb (Nat.eqb p) (infl_levels levels bx))).

(** std::min_element: the first of the smallest *)
Fixpoint argmin_from (l : list nat) (i best bv : nat) : nat :=
  match l with
  | nil => best
  | x :: r => if (x <? bv)%nat then argmin_from r (S i) i x else argmin_from r (S i) best bv
  end.
Definition argmin (l : list nat) : nat :=
  match l with nil => 0%nat | x :: r => argmin_from r 1 0 x end.

(** ++act_proc_count[p] *)
Fixpoint bump (p : nat) (l : list nat) : list nat :=
  match l, p with
  | nil, _ => nil
  | x :: r, O => S x :: r
  | x :: r, S q => x :: bump q r
  end.

Definition pinsert (p : nat) (s : pset) : pset := fun q => Nat.eqb q p || s q.

(** actuator_utils.cpp:36-90: root rank, ranks, counts *)
Definition root_proc (P : nat) (procs : pset) (count : list nat) : nat * pset * list nat :=
  match find (fun ip => (nth ip count 0%nat <? 1)%nat) (filter procs (seq 0 P)) with
  | Some ip => (ip, procs, bump ip count)
  | None => let ip := argmin count in (ip, pinsert ip procs, bump ip count)
  end.

(** Actuator.cpp:91-94: all actuators in turn, counts from zero *)
Fixpoint roots_from (P : nat) (infl : list pset) (count : list nat) : list (nat * pset) * list nat :=
  match infl with
  | nil => (nil, count)
  | s :: rest =>
      let '(ip, s', count') := root_proc P s count in
      let '(l, c) := roots_from P rest count' in
      ((ip, s') :: l, c)
  end.
Definition roots (P : nat) (infl : list pset) : list (nat * pset) * list nat :=
  roots_from P infl (repeat 0%nat P).

(** actuator_opsI.H:14-28 after a regrid: the ranks influenced now and the root *)
Definition regrid_procs (root : nat) (infl : pset) : pset := pinsert root infl.

(** *** Sampling *)

(** One actuator as a rank sees it: ranks where it is, number of velocity points,
    and the positions each rank has for them (UpdatePosOp runs on every rank of
    the actuator).  [a_procs] stands for sample_vel_in_proc, which is the same as
    actuator_in_proc except for turbines of an external code
    (actuator_utils.cpp:62, 88; actuator_opsI.H:28). *)
Record actuator : Type := Act { a_procs : pset; a_pos : nat -> list vec }.

(** Actuator.cpp:215-221 *)
Definition local_acts (acts : list actuator) (r : nat) : list actuator :=
  filter (fun a => a_procs a r) acts.
(** ActuatorModel.H:200-207, on a rank of the actuator *)
Definition npts (r : nat) (a : actuator) : nat := length (a_pos a r).
(** ActuatorContainer.cpp:49-50 *)
Definition total_pts (acts : list actuator) (r : nat) : nat :=
  fold_left (fun s a => (s + npts r a)%nat) (local_acts acts r) 0%nat.

(** std::copy into the slice that starts at [ic] (ActuatorModel.H:143-148) *)
Definition put {A} (buf : list A) (ic : nat) (l : list A) : list A :=
  (firstn ic buf ++ l ++ skipn (ic + length l) buf)%list.
(** Slice.H:31-33 *)
Definition slice {A} (buf : list A) (ic n : nat) : list A := firstn n (skipn ic buf).

(** Actuator.cpp:238-244 *)
Fixpoint put_positions (r : nat) (acts : list actuator) (ic : nat) (buf : list vec) : list vec :=
  match acts with
  | nil => buf
  | a :: rest => put_positions r rest (ic + npts r a)%nat (put buf ic (a_pos a r))
  end.
Definition positions (acts : list actuator) (r : nat) : list vec :=
  put_positions r (local_acts acts r) 0 (repeat vzero (total_pts acts r)).

(** ActuatorContainer.cpp:68-71: offsets 0 .. P of the ranks in the buffer *)
Fixpoint offsets_from (o : nat) (counts : list nat) : list nat :=
  match counts with nil => o :: nil | c :: r => o :: offsets_from (o + c)%nat r end.
Definition offsets (P : nat) (acts : list actuator) : list nat :=
  offsets_from 0 (map (total_pts acts) (seq 0 P)).

(** A particle: the rank that made it, its number there, where it is, the data
    sampled at it (three velocities, density).  ActuatorContainer.H:46-49. *)
Record particle : Type := Part { p_cpu : nat; p_idx : nat; p_pos : vec; p_data : list R }.

(** ActuatorContainer.cpp:99-121 and 170-185: on a rank with a tile on some level
    one particle per point, at the position of the point.  [tile r] says whether
    rank [r] has one. *)
Definition make_particles (tile : nat -> bool) (acts : list actuator) (r : nat) : list particle :=
  if tile r
  then map (fun ip => Part r ip (nth ip (positions acts r) vzero) nil) (seq 0 (total_pts acts r))
  else nil.

(** amrex Redistribute (ActuatorContainer.cpp:188): every particle goes to the
    rank and level [where] that has its position, in no particular order, and is
    dropped if there is none. *)
Definition wherefn : Type := vec -> option (nat * nat).
Definition held (wh : wherefn) (q : nat) (p : particle) : bool :=
  match wh (p_pos p) with Some (q', _) => Nat.eqb q q' | None => false end.
Definition redistributed (wh : wherefn) (P : nat) (before after : nat -> list particle) : Prop :=
  forall q, (q < P)%nat -> Permutation (after q) (filter (held wh q) (flat_map before (seq 0 P))).

(** ActuatorContainer.cpp:311-344 and 352-360: interpolation of one component on
    a level.  [a] gives the values by global cell index: ghost cells are taken to
    hold the value of the cell they stand for (Actuator.cpp:107-112). *)
Definition interp (g : geom) (a : ivec -> R) (p : vec) : R :=
  let x := (vx p - vx (gplo g) - 0.5 * vx (gdx g)) * vx (gdxi g) in
  let y := (vy p - vy (gplo g) - 0.5 * vy (gdx g)) * vy (gdxi g) in
  let z := (vz p - vz (gplo g) - 0.5 * vz (gdx g)) * vz (gdxi g) in
  let i := rfloor x in let j := rfloor y in let k := rfloor z in
  let wx_hi := x - IZR i in let wy_hi := y - IZR j in let wz_hi := z - IZR k in
  let wx_lo := 1 - wx_hi in let wy_lo := 1 - wy_hi in let wz_lo := 1 - wz_hi in
  wx_lo * wy_lo * wz_lo * a (IV i j k) +
  wx_lo * wy_lo * wz_hi * a (IV i j (k + 1)) +
  wx_lo * wy_hi * wz_lo * a (IV i (j + 1) k) +
  wx_lo * wy_hi * wz_hi * a (IV i (j + 1) (k + 1)) +
  wx_hi * wy_lo * wz_lo * a (IV (i + 1) j k) +
  wx_hi * wy_lo * wz_hi * a (IV (i + 1) j (k + 1)) +
  wx_hi * wy_hi * wz_lo * a (IV (i + 1) (j + 1) k) +
  wx_hi * wy_hi * wz_hi * a (IV (i + 1) (j + 1) (k + 1)).

(** The fields: for each level its geometry, the velocity components and the
    density. *)
Record flevel : Type := FLev { f_geom : geom; f_vel : nat -> ivec -> R; f_den : ivec -> R }.

(** ActuatorContainer.cpp:302-361 for one particle on level [lev] *)
Definition interpolate (fields : nat -> flevel) (wh : wherefn) (p : particle) : particle :=
  match wh (p_pos p) with
  | Some (_, lev) =>
      let f := fields lev in
      Part (p_cpu p) (p_idx p) (p_pos p)
        [interp (f_geom f) (f_vel f 0%nat) (p_pos p); interp (f_geom f) (f_vel f 1%nat) (p_pos p);
         interp (f_geom f) (f_vel f 2%nat) (p_pos p); interp (f_geom f) (f_den f) (p_pos p)]
  | None => p
  end.

(** buffer[i] = x *)
Fixpoint upd (l : list R) (i : nat) (x : R) : list R :=
  match l, i with
  | nil, _ => nil
  | _ :: r, O => x :: r
  | y :: r, S j => y :: upd r j x
  end.

(** ActuatorContainer.cpp:248-254 *)
Definition write_particle (offs : list nat) (buf : list R) (p : particle) : list R :=
  let idx := (nth (p_cpu p) offs 0 + p_idx p)%nat in
  fold_left (fun b n => upd b (idx * 4 + n) (nth n (p_data p) 0)) (seq 0 4) buf.

(** ActuatorContainer.cpp:231-257: the buffer of one rank *)
Definition local_buffer (offs : list nat) (ps : list particle) : list R :=
  fold_left (write_particle offs) ps (repeat 0 (last offs 0 * 4)%nat).

(** MPI_Allreduce with MPI_SUM (ActuatorContainer.cpp:264-266) *)
Fixpoint add_lists (a b : list R) : list R :=
  match a, b with x :: r, y :: s => (x + y) :: add_lists r s | _, _ => nil end.
Definition allreduce (n : nat) (bufs : list (list R)) : list R :=
  fold_left add_lists bufs (repeat 0 n).

(** ActuatorContainer.cpp:268-280: velocity and density arrays of rank [r] *)
Definition read_vel (offs : list nat) (buf : list R) (r n : nat) : list vec :=
  map (fun i => let k := ((nth r offs 0 + i) * 4)%nat in
         V3 (nth (k + 0) buf 0) (nth (k + 1) buf 0) (nth (k + 2) buf 0)) (seq 0 n).
Definition read_den (offs : list nat) (buf : list R) (r n : nat) : list R :=
  map (fun i => nth ((nth r offs 0 + i) * 4 + 3)%nat buf 0) (seq 0 n).

(** Actuator.cpp:261-272: the slices given to the actuators of the rank *)
Fixpoint give (r : nat) (acts : list actuator) (ic : nat) (vel : list vec) (den : list R)
  : list (list vec * list R) :=
  match acts with
  | nil => nil
  | a :: rest => (slice vel ic (npts r a), slice den ic (npts r a)) :: give r rest (ic + npts r a)%nat vel den
  end.

(** Actuator.cpp:234-273 with ActuatorContainer.cpp:204-221: what the actuators of
    rank [r], in order, are given; [after] is where the particles went. *)
Definition sampled (P : nat) (acts : list actuator) (fields : nat -> flevel) (wh : wherefn)
  (after : nat -> list particle) (r : nat) : list (list vec * list R) :=
  let offs := offsets P acts in
  let bufs := map (fun q => local_buffer offs (map (interpolate fields wh) (after q))) (seq 0 P) in
  let buf := allreduce (last offs 0 * 4)%nat bufs in
  give r (local_acts acts r) 0
    (read_vel offs buf r (total_pts acts r)) (read_den offs buf r (total_pts acts r)).

(** *** A moving wing on several ranks *)

(** What happens to a wing at start-up, in a step and in a regrid: Actuator.cpp:87-120,
    148-158 and 122-146.  [Regrid s] carries the ranks influenced afterwards. *)
Inductive event : Type := Advance (tn tnp1 : R) | Regrid (s : pset).

(** Ranks of the wing and the state each rank holds.  Positions are updated and
    forces computed on the ranks of the wing only (Actuator.cpp:215-221, 281). *)
Definition wing_event (w : wing) (root : nat) (e : event) (st : pset * (nat -> wstate)) : pset * (nat -> wstate) :=
  let (procs, s) := st in
  match e with
  | Advance tn tnp1 => (procs, fun r => if procs r then w_step w tn tnp1 (s r) else s r)
  | Regrid infl => (regrid_procs root infl, s)
  end.
Definition wing_events (w : wing) (root : nat) (es : list event) (st : pset * (nat -> wstate)) : pset * (nat -> wstate) :=
  fold_left (fun st e => wing_event w root e st) es st.

(** *** Look-up by label *)

(** Actuator.cpp:345-357; the id of an actuator is its place in the list
    (Actuator.cpp:60, 73); [at] throws when there is none. *)
Definition act_bylabel (labels : list string) (l : string) : outcome nat :=
  let id := fold_left (fun acc il => if String.eqb (snd il) l then fst il else acc)
              (combine (seq 0 (length labels)) labels) 0%nat in
  if (id <? length labels)%nat then Ret id else Abort.
