(** Vocabulary of C86: tables as functions of height, waves. *)
From Verif Require Import BoxR VecSpace ABLInit.
Local Open Scope R_scope.

Definition hgt (t : table) (i : nat) : R := fst (nth i t (0, 0)).
Definition val (t : table) (i : nat) : R := snd (nth i t (0, 0)).
(** Heights increase, by more than 2^-23. *)
Definition rises (t : table) : Prop := forall i, (S i < length t)%nat -> hgt t i + / 8388608 < hgt t (S i).
(** Linear between the heights, constant below and above. *)
Definition table_value (t : table) (z q : R) : Prop :=
  (z <= hgt t 0 -> q = val t 0) /\
  (forall i, (S i < length t)%nat -> hgt t i <= z <= hgt t (S i) ->
     q = val t i + (val t (S i) - val t i) * ((z - hgt t i) / (hgt t (S i) - hgt t i))) /\
  (hgt t (length t - 1) <= z -> q = val t (length t - 1)).
(** [n] waves on the length [len], largest at the height [ref]. *)
Definition wave (amp ref n len z s : R) : R :=
  amp * (z / ref) * exp (1 / 2 - (z / ref) * (z / ref) / 2) * cos (2 * PI * (n * (s / len))).
Definition wave_u (I : abl_input) (D : domain) (p : vec) : R :=
  wave (given (in_delta_u I) 1) (given (in_ref_height I) 50) (given (in_uperiods I) 4) (vy (d_hi D) - vy (d_lo D)) (vz p) (vy p - vy (d_lo D)).
Definition wave_v (I : abl_input) (D : domain) (p : vec) : R :=
  wave (given (in_delta_v I) 1) (given (in_ref_height I) 50) (given (in_vperiods I) 4) (vx (d_hi D) - vx (d_lo D)) (vz p) (vx p - vx (d_lo D)).
Definition perturbed (I : abl_input) (D : domain) (p v : vec) : vec :=
  if given (in_perturb_vel I) true then vadd v (V3 (wave_u I D p) (wave_v I D p) 0) else v.
(** The random part of the temperature. *)
Definition bump (I : abl_input) (p : vec) (random : R) : R :=
  if given (in_perturb_theta I) false then
    if Rlt_dec (vz p) (given (in_cutoff I) (10 ^ 16)) then given (in_amplitude I) (8 / 10) * random else 0
  else 0.
(** The wind of the input file without a profile. *)
Definition wind (I : abl_input) (D : domain) (p : vec) : vec :=
  if given (in_linear I) false then
    vadd (in_bottom I) (vscale (vsub (in_top I) (in_bottom I)) (vz p / (vz (d_hi D) - vz (d_lo D))))
  else match in_timetable I with
       | Some (speed, degrees) => V3 (speed * cos (PI * degrees / 180)) (speed * sin (PI * degrees / 180)) 0
       | None => in_velocity I end.
(** Height above the terrain, at least half a cell. *)
Definition height_above (I : abl_input) (D : domain) (p : vec) : R :=
  Rmax (d_dz D / 2) (vz p - match in_terrain I with Some f => f (vx p) (vy p) | None => 0 end).
(** The profile file as tables. *)
Definition column (I : abl_input) (f : rans_line -> R) : table := map (fun l => (rl_h l, f l)) (in_rans I).
Definition with_density (S : settings) (rho : R) : settings :=
  ST (s_profile S) (s_wind_profile S) (s_rans S) (s_terrain S) (s_theta S) (s_perturb_vel S) (s_ref_height S) (s_uperiods S) (s_vperiods S)
     (s_delta_u S) (s_delta_v S) (s_perturb_theta S) (s_cutoff S) (s_amplitude S) (s_tke S) (s_beare S) (s_beare_factor S) (s_beare_cutoff S)
     (s_linear S) (s_top S) (s_bottom S) (Some rho) (s_timetable S) (s_velocity S).
Definition inside_box (b : ibox) (i j k : Z) : Prop :=
  let '(i0, j0, k0) := ib_lo b in let '(i1, j1, k1) := ib_hi b in (i0 <= i <= i1 /\ j0 <= j <= j1 /\ k0 <= k <= k1)%Z.
