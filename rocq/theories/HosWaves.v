(** Waves read from the file of another simulation (HOS): which steps of the file are read, and how the target of the
    relaxation zones is interpolated between them in time.  Everything at one point of one field; the transform of the
    modes, the interpolation in space and the averaging between levels are not modelled. *)
From Coq Require Import Reals ZArith List Bool.
From Verif Require Import Base BoxR.
Import ListNotations.
Open Scope R_scope.

(** waves2amr_ops.H:47, :53, :60, :68 *)
Definition tol : R := / 10000000000.
(** std::numeric_limits<double>::epsilon() *)
Definition eps : R := / 4503599627370496.

(** W2AWaves.H:40-54: ntime, n_offset, t_last, t, and the values of the fields w2a_levelset or w2a_velocity, old and
    new state.  The target (ow_levelset, ow_velocity) is [old] after each update (waves2amr_ops.H:970-975). *)
Record hos : Type := mkhos { ntime : Z; offset : Z; t_last : R; t_data : R; old : R; new : R }.

Section File.
(** Time between the steps of the file, first step used (n_winit), last step according to the header (n_wstop), last step
    that is in the file, and the wave of each step. *)
Variables (dt : R) (n0 nstop last : Z) (wave : Z -> R).

(** waves2amr_ops.H:287, :292: t_winit. *)
Definition tw : R := dt * IZR n0.
(** ReadModes::time2step of the library Waves2AMR, which is not in the repository: the first step at or after a time, as
    test_waves_2_amr.cpp takes it to be. *)
Definition step (t : R) : Z := (- rfloor (- (t / dt)))%Z.
(** ReadModes::get_data: nothing beyond the end of the file; what comes for a step before the first is not modelled. *)
Definition get_data (n : Z) : option R := if (n <=? last)%Z then Some (wave n) else None.

(** waves2amr_ops.H:83-90 *)
Definition update_offset (n : Z) : Z := (- n + n0)%Z.
(** waves2amr_ops.H:20-81 (evaluate_read_resize): is data read, in which of the three ways (double_data), and the time
    of the data. *)
Definition evaluate (s : hos) (n : Z) (time : R) : bool * nat * R :=
  let moved := negb (n =? ntime s)%Z in
  let far := moved && (ntime s + 1 <? n)%Z in
  let t' := if moved then IZR n * dt - tw else t_data s in
  let d := if far then (if Rleb (Rabs (t' - time)) tol then 2%nat else 1%nat) else 0%nat in
  if Rltb (t_last s) (- tol) then (true, (if Rltb tol (Rabs (t' - time)) then 1%nat else 2%nat), t')
  else (moved || Rltb (Rabs (t_last s)) tol, d, t').

(** waves2amr_ops.H:92-133 (populate_fields_all_levels): the value and the offset. *)
Definition populate (n off k : Z) : outcome (R * Z) :=
  match get_data (n + off + k) with
  | Some v => Ret (v, off)
  | None => match get_data (n + update_offset n + k) with Some v => Ret (v, update_offset n) | None => Abort end
  end.
(** waves2amr_ops.H:180-199 (time_interpolate_wave_fields) *)
Definition interpolate (o w t_old t_new t_future : R) : R :=
  let b := (t_new - t_old) / (t_future - t_old + eps) in (1 - b) * o + b * w.

(** waves2amr_ops.H:766-981 (UpdateTargetFieldsOp) on a process that interpolates. *)
Definition update (s : hos) (time : R) : outcome hos :=
  let n := step (time + tw) in
  match evaluate s n time with
  | (false, _, t') => Ret (mkhos n (offset s) time t' (interpolate (old s) (new s) (t_last s) time t') (new s))
  | (true, d, t') =>
      let off := if (nstop <? n + offset s)%Z then update_offset n else offset s in
      let t_old := (IZR n - 1) * dt in
      obind (match d with
             | O => Ret (new s, off)
             | S O => populate n off (-1)
             | _ => Ret (old s, off)
             end) (fun p =>
      obind (populate n (snd p) 0) (fun q =>
      Ret (mkhos n (snd q) time t' (interpolate (fst p) (fst q) t_old time t') (fst q))))
  end.

(** waves2amr_ops.H:378-386, :487-521, :632-633, :711-723: after the start of a new simulation; [calm] is the sea at
    rest. *)
Definition fresh (calm : R) : hos := mkhos n0 0 0 0 (wave n0) calm.
(** After a restart InitDataOp is not called: t_last is that of W2AWaves.H:52, and the fields hold whatever the memory
    held. *)
Definition restarted (a b : R) : hos := mkhos n0 0 (-1) 0 a b.

(** OceanWaves.cpp:76, :96, :105: the updates of a run. *)
Fixpoint run (s : hos) (ts : list R) : outcome hos :=
  match ts with [] => Ret s | t :: r => obind (update s t) (fun s' => run s' r) end.

(** ** Several processes *)

(** A process: does it interpolate (do_interp), and its offset.  waves2amr_ops.H:806-816, :910, :947-950: step [n] is
    read, after step [n - 1] or the start. *)
Definition read_all (n : Z) (ps : list (bool * Z)) : list (bool * Z) :=
  let checked := map (fun p : bool * Z => (fst p, if (nstop <? n + snd p)%Z then update_offset n else snd p)) ps in
  let m := match checked with [] => 0%Z | p :: r => fold_right Z.max (snd p) (map snd r) end in
  map (fun p : bool * Z => (fst p, if fst p then (if (n + m <=? last)%Z then m else update_offset n) else m)) checked.
(** The first [k] steps. *)
Fixpoint reads (k : nat) (ps : list (bool * Z)) : list (bool * Z) :=
  match k with O => ps | S j => read_all (n0 + Z.of_nat j) (reads j ps) end.
End File.
