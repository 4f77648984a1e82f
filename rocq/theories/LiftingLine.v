(** Filtered lifting line correction:
    amr-wind/wind_energy/actuator/{FLLC.cpp,FLLC.H,FLLCOp.H} and its calls in
    wing/wing_ops.H.

    Reals are exact.  Force and velocity points are the same (they are for wings; the
    interpolation between different sets, FLLCOp.H:61-66, 158-162, 185-190 and 298-302,
    is not modelled).  Tables are searched by a scan instead of the bisection of
    linear_interpolation.H (Interp.v); on increasing tables both find the same
    segment.  Two or more points: with one the program reads outside the list. *)
From Verif Require Import BoxR Base VecSpace DiskActuator Wing.
Open Scope R_scope.

(** utilities/linear_interpolation.H:24-38, 40-65 and 102-125: index of the left entry and the factor
    of the right one; [feps_r] is the machine epsilon of float *)
Definition feps_r : R := / 8388608.
Fixpoint scan (xs : list R) (x : R) (j : nat) : nat :=
  match xs with
  | a :: ((b :: _) as r) => if Rleb x b then j else scan r x (S j)
  | _ => (j - 1)%nat
  end.
Definition lin_w (xs : list R) (x : R) : nat * R :=
  let sz := length xs in
  if ((sz <? 2)%nat || Rltb x (nth 0 xs 0))%bool then (0%nat, 0)
  else if Rltb (nth (sz - 1) xs 0) x then ((sz - 1)%nat, 0)
  else
    let j := scan xs x 0 in
    let denom := nth (j + 1) xs 0 - nth j xs 0 in
    (j, if Rltb feps_r denom then (x - nth j xs 0) / denom else 1).
Definition lin_r (xs ys : list R) (x : R) : R :=
  let '(j, f) := lin_w xs x in (1 - f) * nth j ys 0 + f * nth (j + 1) ys 0.
Definition lin_v (xs : list R) (ys : list vec) (x : R) : vec :=
  let '(j, f) := lin_w xs x in vadd (vscale (nth j ys vzero) (1 - f)) (vscale (nth (j + 1) ys vzero) f).

(** FLLC.H:22-25 and 43-44: correction_type, epsilon, relaxation_factor, fllc_start_time, nonuniform, eps_dr *)
Record fllc : Type := FLLC {
  l_variable : bool; l_eps : R; l_relax : R; l_start : R; l_nonuniform : bool; l_epsdr : R }.
(** FLLC.H:26-28 and 45-46: what fllc_init (FLLC.cpp:9-111) computes *)
Record fgeo : Type := FGeo {
  g_r : list R; g_dr : list R; g_opt : list R; g_nr : list R; g_ndr : list R }.

(** FLLC.cpp:42-48 and 96-107, central differences; [dist i j] is the distance of two points *)
Definition central (n : nat) (dist : nat -> nat -> R) : list R :=
  map (fun i => if (i =? 0)%nat then dist 1%nat 0%nat / 2
                else if (i =? n - 1)%nat then dist (n - 1)%nat (n - 2)%nat / 2
                else dist (i + 1)%nat (i - 1)%nat / 2) (seq 0 n).

(** FLLC.cpp:65-88, the loop that appends points; [cur] is nonuniform_r.back().  The
    assertion is [Abort]; [None] is running out of [fuel], which the theorems exclude. *)
Fixpoint more_points (fuel : nat) (r opt : list R) (epsdr : R) (cur : R) : option (outcome (list R)) :=
  match fuel with
  | O => None
  | S k =>
    let tip := last r 0 in
    if Rltb cur tip then
      let dr1 := lin_r r opt cur / epsdr in
      let dr2 := lin_r r opt (cur + dr1) / epsdr in
      let dr := rmin dr1 dr2 in
      if Rltb veps dr then
        let nxt := rmin (cur + dr) tip in
        match more_points k r opt epsdr nxt with
        | Some (Ret l) => Some (Ret (nxt :: l))
        | o => o
        end
      else Some Abort
    else Some (Ret [])
  end.

(** FLLC.cpp:37-48 and 96-107; the velocity points of a wing are its force points *)
Definition fllc_geo (l : fllc) (pos : list vec) (chord : list R) (epsc : R) (nr : list R) : fgeo :=
  let n := length pos in
  let p i := nth i pos vzero in
  FGeo (map (fun i => vmag (vsub (p i) (p 0%nat))) (seq 0 n))
       (central n (fun i j => vmag (vsub (p i) (p j))))
       (map (fun i => nth i chord 0 * epsc) (seq 0 n))
       nr
       (central (length nr) (fun i j => Rabs (nth i nr 0 - nth j nr 0))).
(** FLLC.cpp:9-111; the first point is pushed at line 64 *)
Definition fllc_init (fuel : nat) (l : fllc) (pos : list vec) (chord : list R) (epsc : R) : option (outcome fgeo) :=
  let g := fllc_geo l pos chord epsc [] in
  if l_nonuniform l then
    match more_points fuel (g_r g) (g_opt g) (l_epsdr l) (nth 0 (g_r g) 0) with
    | Some (Ret more) => Some (Ret (fllc_geo l pos chord epsc (nth 0 (g_r g) 0 :: more)))
    | Some Abort => Some Abort
    | Some UB => Some UB
    | None => None
    end
  else Some (Ret g).

(** FLLCOp.H:73-84 and 196-207; the floor on the magnitude also at 117-118 and 243-244 *)
Definition vmag_floor (v : vec) : R := rmax (vmag v) veps.
Definition lift_g (force vel : vec) (dr : R) : vec :=
  let vmag2 := vmag_floor vel * vmag_floor vel in
  let fv := vdot force vel in
  vdivs (vsub force (vdivs (vscale vel fv) vmag2)) dr.

(** FLLCOp.H:92-96 *)
Definition grad_g (n : nat) (G : nat -> vec) (i : nat) : vec :=
  if (i =? 0)%nat then G 0%nat
  else if (i =? n - 1)%nat then vscale (G (n - 1)%nat) (-1)
  else vscale (vsub (G (i + 1)%nat) (G (i - 1)%nat)) 0.5.

(** FLLCOp.H:104-136, the sum over the other points for the point [i] and the
    width [eps] *)
Definition induced_const (n : nat) (pos : nat -> vec) (vrel G : nat -> vec) (eps : R) (i : nat) : vec :=
  fold_left (fun u j =>
    if (i =? j)%nat then u
    else
      let r := vmag (vsub (pos i) (pos j)) in
      let coef := 1 / (-4 * PI * r * vmag_floor (vrel j)) in
      let coef := if (i <? j)%nat then coef * -1 else coef in
      let c := 1 - exp (- r * r / (eps * eps)) in
      vsub u (vscale (vscale (grad_g n G j) coef) c)) (seq 0 n) vzero.

(** FLLCOp.H:240-241 and 253-271 *)
Definition kernel_k (r eps : R) : R :=
  let e2 := eps * eps in
  if Req_EM_T r 0 then 0.5 / e2
  else
    let ex := exp (- r * r / e2) in
    ex / e2 + 1 / (2 * r * r) * (ex - 1).
(** FLLCOp.H:233-277, the sum over [m] points for one width; [dist], [eps], [dr]
    are those of the points summed over *)
Definition induced_var (m : nat) (dist eps dr : nat -> R) (vrel G : nat -> vec) : vec :=
  fold_left (fun u j =>
    vadd u (vscale (vscale (vdivs (vscale (G j) (1 / (2 * PI))) (vmag_floor (vrel j))) (kernel_k (dist j) (eps j))) (dr j)))
    (seq 0 m) vzero.

(** FLLCOp.H:138-140 and 279-281, relaxation *)
Definition relax (f : R) (du opt les : vec) : vec := vadd (vscale du (1 - f)) (vscale (vsub opt les) f).

(** FLLCOp.H:209-225: the quantities of the points summed over *)
Definition sum_points (l : fllc) (g : fgeo) (G vrel : nat -> vec) : nat * (nat -> R) * (nat -> R) * (nat -> vec) * (nat -> vec) :=
  let n := length (g_r g) in
  if l_nonuniform l then
    let at_v (q : nat -> vec) j := lin_v (g_r g) (map q (seq 0 n)) (nth j (g_nr g) 0) in
    (length (g_ndr g), (fun j => lin_r (g_r g) (g_opt g) (nth j (g_nr g) 0)), (fun j => nth j (g_ndr g) 0),
     at_v vrel, at_v G)
  else (length (g_dr g), (fun j => nth j (g_opt g) 0), (fun j => nth j (g_dr g) 0), vrel, G).

(** FLLCOp.H:73-136 and 196-277, distances at 115 and 248-251: the velocities induced at the
    point [i] with the optimal and with the simulated width.  They start from zero in every call (lines
    150-151 and 290-291, FLLC.cpp:30-31). *)
Definition wanted (l : fllc) (g : fgeo) (pos force vrel : list vec) (i : nat) : vec * vec :=
  let n := length (g_r g) in
  let V j := nth j vrel vzero in
  let G j := lift_g (nth j force vzero) (V j) (nth j (g_dr g) 0) in
  let P j := nth j pos vzero in
  if l_variable l then
    let '(m, eps, dr, V', G') := sum_points l g G V in
    let dist j := if l_nonuniform l then Rabs (nth i (g_r g) 0 - nth j (g_nr g) 0) else vmag (vsub (P i) (P j)) in
    (induced_var m dist eps dr V' G', induced_var m dist (fun _ => l_eps l) dr V' G')
  else
    (induced_const n P V G (nth i (g_opt g) 0) i, induced_const n P V G (l_eps l) i).

(** FLLCOp.H:42-163 and 165-303: the new correction, and the velocity it is added to (lines 148-149 and
    288-289) *)
Definition correction (l : fllc) (g : fgeo) (pos force vrel du : list vec) : list vec :=
  map (fun i => let '(opt, les) := wanted l g pos force vrel i in relax (l_relax l) (nth i du vzero) opt les)
      (seq 0 (length du)).
Definition corrected (vel du : list vec) : list vec := map (fun '(v, d) => vadd v d) (combine vel du).

(** What is kept between time steps: the geometry and the correction once
    initialised, and the forces and relative velocities of the last call of
    ComputeForceOp. *)
Record fstate : Type := FState { f_on : option (fgeo * list vec); f_force : list vec; f_vrel : list vec }.
(** One step for a wing at rest: FLLCOp (FLLCOp.H:22-40, wing_ops.H:109-115) on the sampled velocities
    [vel], then the forces, then the initialisation (wing_ops.H:246-256);
    [forces] gives force and relative velocity for a list of velocities, [g] is what
    fllc_init computes. *)
Definition fllc_step (l : fllc) (g : fgeo) (pos : list vec) (forces : list vec -> list vec * list vec) (time : R)
    (vel : list vec) (s : fstate) : list vec * fstate :=
  let '(on, v) :=
    match f_on s with
    | Some (g0, du) =>
        let du' := correction l g0 pos (f_force s) (f_vrel s) du in (Some (g0, du'), corrected vel du')
    | None => (None, vel)
    end in
  let '(F, V) := forces v in
  let on := match on with
            | Some x => Some x
            | None => if Rltb (l_start l) time then Some (g, repeat vzero (length pos)) else None
            end in
  (v, FState on F V).
Fixpoint fllc_run (l : fllc) (g : fgeo) (pos : list vec) (forces : list vec -> list vec * list vec)
    (steps : list (R * list vec)) (s : fstate) : list (list vec) * fstate :=
  match steps with
  | [] => ([], s)
  | (t, vel) :: rest =>
      let '(v, s') := fllc_step l g pos forces t vel s in
      let '(vs, s'') := fllc_run l g pos forces rest s' in
      (v :: vs, s'')
  end.
