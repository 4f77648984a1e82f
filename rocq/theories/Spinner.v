(** Lidar with two turning prisms, mounted on a mast or on the hub of a turbine:
    amr-wind/utilities/sampling/DTUSpinnerSampler.cpp, with the rotations of SamplingUtils.cpp, the call at the start
    (LineSampler.cpp:25-55) and the buffer of Sampling.cpp and SamplingContainer.cpp.

    Reals are exact.  The pose of the hub (283-315) is an argument of each call; on a mast it never changes. *)
From Coq Require Import List ZArith Bool.
From Verif Require Import BoxR VecSpace Tagging Radar.
Import ListNotations.
Open Scope R_scope.

(** *** Direction of a beam *)

(** SamplingUtils.cpp:11-21 *)
Definition reflect (line v : vec) : vec :=
  vapp v (T9 (1 - 2 * vx line * vx line) (-2 * vx line * vy line) (-2 * vx line * vz line)
             (-2 * vy line * vx line) (1 - 2 * vy line * vy line) (-2 * vy line * vz line)
             (-2 * vz line * vx line) (-2 * vz line * vy line) (1 - 2 * vz line * vz line)).
(** SamplingUtils.cpp:23-28 *)
Definition rotate_euler (axis : vec) (angle : R) (v : vec) : vec := vapp v (quaternion (vnormalize axis) angle).

(** DTUSpinnerSampler.H:13-18 *)
Record prism : Type := Prism { p_theta0 : R; p_rot : R; p_az : R }.

(** DTUSpinnerSampler.cpp:115-137 *)
Definition pattern (inner outer : prism) (time : R) : vec :=
  let axis := V3 1 0 0 in
  let ground := V3 0 0 1 in
  let inner_theta := p_theta0 inner + p_rot inner * time * 360 in
  let outer_theta := p_theta0 outer + p_rot outer * time * 360 in
  let r1 := rotate_euler axis inner_theta (rotate_euler ground (- (p_az inner / 2 + 90)) axis) in
  let r2 := rotate_euler axis outer_theta (rotate_euler ground (p_az outer / 2) axis) in
  reflect r2 (reflect r1 axis).

(** 106-113, SamplingUtils.cpp:38-43 *)
Definition adjust (v : vec) (yaw pitch roll : R) : vec :=
  vapp v (tmul (tmul (xrot roll) (yrot pitch)) (zrot yaw)).

(** *** Clock *)

(** conversion of a real to an integer, towards zero *)
Definition itrunc (x : R) : Z := if Rltb x 0 then (- rfloor (- x))%Z else rfloor x.
(** std::fmod for a divisor that is not zero *)
Definition fmod (x y : R) : R := x - y * IZR (itrunc (x / y)).

(** DTUSpinnerSampler.H:107-129 *)
Record scfg : Type := SCfg { sc_scan : R; sc_num : R; sc_len : R; sc_pts : nat; sc_in : prism; sc_out : prism;
                             sc_yaw : R; sc_tilt : R; sc_roll : R }.
Record pose : Type := Pose { h_yaw : R; h_tilt : R; h_roll : R; h_centre : vec }.
Record spin : Type := Spin { sp_T : R; sp_count : nat; sp_last : pose }.
Record call : Type := Call { c_time : R; c_dt : R; c_pose : pose }.

(** A stored line, with the time for which its direction was computed. *)
Inductive entry : Type := Beam (T : R) (from to : vec) | Fill.

Definition sdt (c : scfg) : R := sc_scan c / sc_num c.
(** 335-337 *)
Definition ns_of (c : scfg) (T : R) (x : call) : Z :=
  let diff := c_time x - T in
  (itrunc (c_dt x / sdt c) + (if Rltb (sdt c) diff then itrunc (diff / sdt c) else 0))%Z.
(** 338 *)
Definition nt_of (c : scfg) (dt : R) : Z := rceil (dt / sdt c).

(** 407-414: the short way from one angle to another *)
Definition short_way (d : R) : R := fmod (fmod d (2 * PI) + 3 * PI) (2 * PI) - PI.
Definition between (last new srat : R) : R := last + short_way (new - last) * srat.

(** 389-452: one beam *)
Definition beam (c : scfg) (moving : bool) (ns : Z) (T : R) (last now : pose) (k : nat) : entry :=
  let step := if moving then 1 * INR k else 0 in
  let srat := if moving then step / IZR ns else 0 in
  let b := pattern (sc_in c) (sc_out c) T in
  let deg x := x * (180 / PI) in
  let b := adjust b (sc_yaw c + deg (between (h_yaw last) (h_yaw now) srat))
                    (sc_tilt c + deg (between (h_tilt last) (h_tilt now) srat))
                    (sc_roll c + deg (between (h_roll last) (h_roll now) srat)) in
  let at_ f := step / IZR ns * (f (h_centre now) - f (h_centre last)) + f (h_centre last) in
  let start := V3 (at_ vx) (at_ vy) (at_ vz) in
  Beam T start (V3 (vx start + vx b * sc_len c) (vy start + vy b * sc_len c) (vz start + vz b * sc_len c)).

(** 385-460: the loop, carrying the clock *)
Fixpoint beams (c : scfg) (moving : bool) (ns : Z) (last now : pose) (k n : nat) (T : R) : R * list entry :=
  match n with
  | O => (T, [])
  | S n =>
    if (Z.of_nat k <? ns)%Z then
      let '(T', l) := beams c moving ns last now (S k) n (T + sdt c) in
      (T', beam c moving ns T last now k :: l)
    else
      let '(T', l) := beams c moving ns last now (S k) n T in (T', Fill :: l)
  end.

(** 284-471; [start] is the time the run starts at.  At the first call the lines keep the zeros of their allocation and
    no beam is stored. *)
Definition update (c : scfg) (start : R) (s : spin) (x : call) : spin * list entry :=
  let diff := Rabs (c_time x - start) in
  let T0 := if (Rltb diff (veps * 1000000) && (sp_count s =? 0)%nat)%bool then c_time x else sp_T s in
  let ns := ns_of c T0 x in
  let nt := Z.to_nat (nt_of c (c_dt x)) in
  let '(T, l) := if (0 <? sp_count s)%nat then beams c (Rltb (veps * 1000000) diff) ns (sp_last s) (c_pose x) 0 nt T0
                 else (T0, []) in
  (Spin T (S (sp_count s)) (c_pose x), l).

(** 23-104: the clock starts at the time of the run, one call, and then the first line is compared with the domain,
    which needs one *)
Definition spin_init (c : scfg) (start : R) (x : call) : outcome spin :=
  let s := Spin (c_time x) 0 (Pose 0 0 0 vzero) in
  if (0 <? nt_of c (c_dt x))%Z then Ret (fst (update c start s x)) else UB.

(** the calls of a run, one for each output: the lines of all of them *)
Fixpoint outputs (c : scfg) (start : R) (s : spin) (xs : list call) : spin * list (list entry) :=
  match xs with
  | [] => (s, [])
  | x :: xs =>
    let '(s, l) := update c start s x in
    let '(s, ls) := outputs c start s xs in (s, l :: ls)
  end.

(** *** Points *)

(** 160-192: the points of one line, with their numbers; [k] is the number of the line *)
Definition line_points (c : scfg) (k : nat) (from to : vec) : list (nat * vec) :=
  let ndiv := INR (Nat.max (sc_pts c - 1) 1) in
  map (fun i => ((i + k * sc_pts c)%nat,
         V3 (vx from + INR i * ((vx to - vx from) / ndiv))
            (vy from + INR i * ((vy to - vy from) / ndiv))
            (vz from + INR i * ((vz to - vz from) / ndiv)))) (seq 0 (sc_pts c)).
(** DTUSpinnerSampler.H:148 *)
Definition fill_val : R := - (9999999 / 100).
Definition ends (e : entry) : vec * vec :=
  match e with Beam _ a b => (a, b) | Fill => (V3 fill_val fill_val fill_val, V3 fill_val fill_val fill_val) end.
Fixpoint all_points (c : scfg) (k : nat) (l : list entry) : list (nat * vec) :=
  match l with
  | [] => []
  | e :: l => line_points c k (fst (ends e)) (snd (ends e)) ++ all_points c (S k) l
  end.

(** *** Buffer *)

(** Sampling.cpp:122, 131, 162-163 and SamplingContainer.cpp:171-187 for a single sampler: the place of point [uid] of
    variable [fid] in the buffer, whose size was fixed at the start with the step [dt0] *)
Definition write_at (c : scfg) (dt0 : R) (nvars fid uid : nat) : outcome nat :=
  let total := (sc_pts c * Z.to_nat (nt_of c dt0))%nat in
  let ii := (fid * total + uid)%nat in
  if (ii <? total * nvars)%nat then Ret ii else UB.
