(** Initial fields of an atmospheric boundary layer: wind_energy/ABLFieldInit.{H,cpp},
    ABLFieldInitFile.cpp, ABL.cpp.

    Exact reals.  The heights of a table increase (the search of interp::linear in such a table is C14, C15);
    heights and values are kept as pairs after the check of their numbers.  Random numbers are arbitrary
    values given for each cell, terrain heights (interp::bilinear, C18) an arbitrary function of x and y.
    Inputs that the program requires are present.  New fields are zero (FieldRepo.cpp:420-432, 449). *)
From Verif Require Import BoxR VecSpace.
Local Open Scope R_scope.

Definition table : Type := list (R * R).

(** ** Inputs, ABLFieldInit.cpp:18-211, ABLFieldInit.H:92-151 *)

(** A value, or nothing if the input has no such line. *)
Definition given {A} (o : option A) (default : A) : A := match o with Some a => a | None => default end.

(** A line of the profile file: height, u, v, a value not used, energy (ABLFieldInit.cpp:43-48) *)
Record rans_line : Type := RL { rl_h : R; rl_u : R; rl_v : R; rl_w : R; rl_k : R }.
(** NetCDF profile: heights with temperature, with u, with v *)
Record nc_profile : Type := NP { np_theta : table; np_u : table; np_v : table }.

Record abl_input : Type := AI {
  in_profile : option nc_profile;
  in_wind_profile : option bool; in_rans : list rans_line; in_terrain : option (R -> R -> R);
  in_heights : list R; in_values : list R;
  in_perturb_vel : option bool; in_ref_height : option R; in_uperiods : option R; in_vperiods : option R;
  in_delta_u : option R; in_delta_v : option R;
  in_perturb_theta : option bool; in_cutoff : option R; in_amplitude : option R;
  in_tke : option R; in_beare : option bool; in_beare_factor : option R; in_beare_cutoff : option R;
  in_linear : option bool; in_top : vec; in_bottom : vec;
  in_density : R; in_density2 : option R;
  in_timetable : option (R * R); in_velocity : vec }.

(** Members after the constructor; no density: the member has no value. *)
Record settings : Type := ST {
  s_profile : option nc_profile;
  s_wind_profile : bool; s_rans : list rans_line; s_terrain : option (R -> R -> R); s_theta : table;
  s_perturb_vel : bool; s_ref_height : R; s_uperiods : R; s_vperiods : R; s_delta_u : R; s_delta_v : R;
  s_perturb_theta : bool; s_cutoff : R; s_amplitude : R;
  s_tke : R; s_beare : bool; s_beare_factor : R; s_beare_cutoff : R;
  s_linear : bool; s_top : vec; s_bottom : vec; s_rho : option R;
  s_timetable : option (R * R); s_velocity : vec }.

(** 28-158 *)
Definition from_inputfile (I : abl_input) : outcome settings :=
  if (length (in_heights I) =? length (in_values I))%nat then
    let wp := given (in_wind_profile I) false in
    Ret (ST None wp (if wp then in_rans I else []) (if wp then in_terrain I else None) (combine (in_heights I) (in_values I))
      (given (in_perturb_vel I) true) (given (in_ref_height I) 50) (given (in_uperiods I) 4) (given (in_vperiods I) 4)
      (given (in_delta_u I) 1) (given (in_delta_v I) 1)
      (given (in_perturb_theta I) false) (given (in_cutoff I) (10 ^ 16)) (given (in_amplitude I) (8 / 10))
      (given (in_tke I) (1 / 10)) (given (in_beare I) false) (given (in_beare_factor I) (4 / 10)) (given (in_beare_cutoff I) 250)
      (given (in_linear I) false) (in_top I) (in_bottom I)
      (Some (match in_density2 I with Some r => r | None => in_density I end))
      (match in_timetable I with Some (s, a) => Some (s, radians a) | None => None end) (in_velocity I))
  else Abort.
(** 161-211: nothing but the profile is read *)
Definition from_netcdf (P : nc_profile) : settings :=
  ST (Some P) false [] None (np_theta P) true 50 4 4 1 1 false (10 ^ 16) (8 / 10) (1 / 10) false (4 / 10) 250 false
     (V3 20 0 0) (V3 4 0 0) None None vzero.
(** 18-26 *)
Definition configure (I : abl_input) : outcome settings :=
  match in_profile I with Some P => Ret (from_netcdf P) | None => from_inputfile I end.

(** ** Tables *)

(** linear_interpolation.H:118-124 with 119 (2^-23) *)
Definition feps : R := / 8388608.
Definition on_piece (h0 v0 h1 v1 z : R) : R :=
  let fr := if Rltb feps (h1 - h0) then (z - h0) / (h1 - h0) else 1 in (1 - fr) * v0 + fr * v1.
Fixpoint between (t : table) (z : R) : outcome R :=
  match t with
  | (h0, v0) :: (((h1, v1) :: _) as t') => if Rleb z h1 then Ret (on_piece h0 v0 h1 v1 z) else between t' z
  | _ => UB
  end.
(** linear_interpolation.H:24-38, 115-117, 127-140 *)
Definition interp (t : table) (z : R) : outcome R :=
  match t with
  | [] => UB
  | [(_, v)] => Ret v
  | (h0, v0) :: _ =>
      if Rltb z h0 then Ret v0
      else let '(hn, vn) := last t (0, 0) in if Rltb hn z then Ret vn else between t z
  end.
(** ABLFieldInit.cpp:314-322: every piece is tried, the last that fits counts *)
Fixpoint scan (t : table) (z : R) (acc : R) : R :=
  match t with
  | (h0, v0) :: (((h1, v1) :: _) as t') =>
      scan t' z (if (Rltb h0 z && Rleb z h1)%bool then v0 + (z - h0) * ((v1 - v0) / (h1 - h0)) else acc)
  | _ => acc
  end.
Definition first_value (t : table) : outcome R := match t with [] => UB | (_, v) :: _ => Ret v end.

(** ** A cell *)

(** Lower and upper corner of the domain, and the height of a cell. *)
Record domain : Type := DM { d_lo : vec; d_hi : vec; d_dz : R }.
Record state : Type := FS { f_vel : vec; f_rho : R; f_theta : R }.

Definition read_rho (S : settings) : outcome R := match s_rho S with Some r => Ret r | None => UB end.
(** 257-270 *)
Definition above_ground (S : settings) (D : domain) (p : vec) : R :=
  rmax (0.5 * d_dz D) (vz p - (match s_terrain S with Some f => f (vx p) (vy p) | None => 0 end)).
Definition rans_table (S : settings) (f : rans_line -> R) : table := map (fun l => (rl_h l, f l)) (s_rans S).
(** 213-338; [v0], [t0]: velocity and temperature before *)
Definition means (S : settings) (D : domain) (p : vec) (v0 : vec) (t0 : R) : outcome state :=
  match s_profile S with
  | Some P =>
      obind (read_rho S) (fun rho => obind (interp (np_theta P) (vz p)) (fun th =>
      obind (interp (np_u P) (vz p)) (fun u => obind (interp (np_v P) (vz p)) (fun v =>
      Ret (FS (vadd v0 (V3 u v 0)) rho (t0 + th))))))
  | None =>
    if s_wind_profile S then
      let z := above_ground S D p in
      obind (read_rho S) (fun rho =>
      obind (match s_theta S with [] => first_value (s_theta S) | _ => interp (s_theta S) z end) (fun th =>
      obind (match s_rans S with [] => first_value (rans_table S rl_u) | _ => interp (rans_table S rl_u) z end) (fun u =>
      obind (match s_rans S with [] => first_value (rans_table S rl_v) | _ => interp (rans_table S rl_v) z end) (fun v =>
      Ret (FS (vadd v0 (V3 u v 0)) rho (t0 + th))))))
    else
      let z := vz p in
      let mean := match s_timetable S with
                  | Some (s, a) => V3 (s * cos a) (s * sin a) 0
                  | None => s_velocity S end in
      let lin b t := b + z * (t - b) / (vz (d_hi D) - vz (d_lo D)) in
      obind (read_rho S) (fun rho => obind (first_value (s_theta S)) (fun tv0 =>
      let vel := if s_linear S then V3 (lin (vx (s_bottom S)) (vx (s_top S))) (lin (vy (s_bottom S)) (vy (s_top S))) (lin (vz (s_bottom S)) (vz (s_top S)))
                 else mean in
      Ret (FS vel rho (t0 + scan (s_theta S) z tv0))))
  end.
(** 343-366 *)
Definition waves (S : settings) (D : domain) (p : vec) : vec :=
  let aval := s_uperiods S * 2 * PI / (vy (d_hi D) - vy (d_lo D)) in
  let bval := s_vperiods S * 2 * PI / (vx (d_hi D) - vx (d_lo D)) in
  let ufac := s_delta_u S * exp 0.5 / s_ref_height S in
  let vfac := s_delta_v S * exp 0.5 / s_ref_height S in
  let zl := vz p / s_ref_height S in
  let damp := exp (- 0.5 * zl * zl) in
  V3 (ufac * damp * vz p * cos (aval * (vy p - vy (d_lo D)))) (vfac * damp * vz p * cos (bval * (vx p - vx (d_lo D)))) 0.
(** 369-403, ABL.cpp:105-109; [random]: the random number of the cell, [old]: the temperature before *)
Definition theta_start (S : settings) (p : vec) (random old : R) : R :=
  if s_perturb_theta S then (if Rltb (vz p) (s_cutoff S) then s_amplitude S * random else old) else 0.
(** ABL.cpp:99-121 *)
Definition init_cell (S : settings) (D : domain) (p : vec) (random : R) : outcome state :=
  obind (means S D p vzero (theta_start S p random 0)) (fun f =>
    Ret (if s_perturb_vel S then FS (vadd (f_vel f) (waves S D p)) (f_rho f) (f_theta f) else f)).
(** 406-468; 2^-52 *)
Definition tiny : R := / 4503599627370496.
Definition init_tke (S : settings) (D : domain) (p : vec) : outcome R :=
  if (negb (s_beare S) && negb (s_wind_profile S))%bool then Ret (s_tke S)
  else if s_wind_profile S then
    match s_rans S with [] => Ret tiny | _ => interp (rans_table S rl_k) (above_ground S D p) end
  else Ret (if Rltb (vz p) (s_beare_cutoff S) then s_beare_factor S * (1 - vz p / s_beare_cutoff S) ^ 3 else tiny).

(** ** Velocities from a file: ABLFieldInitFile.cpp:35-122 *)

Record ibox : Type := IB { ib_lo : Z * Z * Z; ib_hi : Z * Z * Z }.
(** 42-63: what NetCDF hands over, the last index fastest *)
Definition count3 (b : ibox) : Z * Z * Z :=
  let '(i0, j0, k0) := ib_lo b in let '(i1, j1, k1) := ib_hi b in (i1 - i0 + 1, j1 - j0 + 1, k1 - k0 + 1)%Z.
Definition clip (b dom : ibox) : ibox :=
  let '(i0, j0, k0) := ib_lo b in let '(i1, j1, k1) := ib_hi b in
  let '(a0, b0, c0) := ib_lo dom in let '(a1, b1, c1) := ib_hi dom in
  IB (Z.max i0 a0, Z.max j0 b0, Z.max k0 c0) (Z.min i1 a1, Z.min j1 b1, Z.min k1 c1).
Definition slab (file : Z -> Z -> Z -> vec) (b : ibox) : Z -> vec :=
  let '(i0, j0, k0) := ib_lo b in let '(_, n1, n2) := count3 b in
  fun p => file (i0 + p / (n1 * n2))%Z (j0 + (p / n2) mod n1)%Z (k0 + p mod n2)%Z.
(** 107-118 *)
Definition file_cell (file : Z -> Z -> Z -> vec) (dom b : ibox) (i j k : Z) : vec :=
  let c := clip b dom in
  let '(i0, j0, k0) := ib_lo c in let '(_, n1, n2) := count3 c in
  slab file c ((i - i0) * n2 * n1 + (j - j0) * n2 + (k - k0))%Z.

(** ABL.cpp:111-133 on one process with boxes [bs]: whether it takes part in the filling from the coarser level *)
Definition fills_from_coarse (lev : Z) (bs : list ibox) : bool :=
  fold_left (fun _ _ => negb (lev =? 0)%Z) bs false.
