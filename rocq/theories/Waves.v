(** Relaxation zones and prescribed waves: amr-wind/ocean_waves/utils/wave_utils_K.H,
    relaxation_zones/relaxation_zones_ops.cpp, linear_waves_ops.H and
    stokes_waves_K.H.  Exact reals. *)
From Verif Require Import BoxR MultiPhase.
Open Scope R_scope.

(** pow(x, 3.5) on [0, 1]: x^3 times the square root of x. *)
Definition pow35 (x : R) : R := x ^ 3 * sqrt x.
Definition expm1 (x : R) : R := exp x - 1.

(** wave_utils_K.H:35-42. *)
Definition gamma_generate (x gen_length : R) : R :=
  let xt := rmax (rmin (1 - x / gen_length) 1) 0 in
  1 - expm1 (pow35 xt) / expm1 1.
(** wave_utils_K.H:44-55. *)
Definition gamma_absorb (x absorb_length factor : R) : R :=
  let xt := rmax (rmin (x / (absorb_length * factor)) 1) 0 in
  1 - expm1 (pow35 xt) / expm1 1.
(** wave_utils_K.H:57-67. *)
Definition ramp (time period : R) : R :=
  if Rltb time period then time / period - 1 / PI * sin (PI * (time / period)) else 1.
(** wave_utils_K.H:69-75. *)
Definition combine_linear (factor target current : R) : R :=
  (1 - factor) * target + factor * current.
(** wave_utils_K.H:77-107: one component; the four components use the same
    weights. *)
Definition harmonize (x lb ll rb rl : R) (left bulk right : R) : R :=
  if Rleb x (lb + ll) then left
  else if Rleb rb (x + rl) then right
  else
    let gl := gamma_generate (x - (lb + ll)) (5/10 * ll) in
    let gr := gamma_absorb (x - (rb - 15/10 * rl)) (5/10 * rl) 1 in
    if Rltb (1 - tight_tol) gr then combine_linear gl left bulk else combine_linear gr right bulk.
(** wave_utils_K.H:109-139.  constants::EPS is the machine epsilon. *)
Definition eps_mach : R := / 4503599627370496.
Definition harmonize2d (x y lb ll rb rl ylo yhi yl : R) (left bulk right : R) : R :=
  let forcing := harmonize x lb ll rb rl left left right in
  let init := harmonize x lb ll rb rl left bulk right in
  if Rleb eps_mach yl then harmonize y ylo yl yhi yl forcing init forcing else init.

(** relaxation_zones_ops.cpp:179-237: zone data and the factor of a cell at
    ([x], [y]). *)
Record zones : Type := Zones {
  xlo : R; xhi : R; ylo : R; yhi : R;
  gen_length : R; beach_length : R; beach_factor : R; zone_y : R; has_beach : bool }.
Definition zone_gamma (w : zones) (x y : R) : R :=
  let gxlo := gamma_generate (x - xlo w) (gen_length w) in
  let gxhi := gamma_absorb (x - (xhi w - beach_length w)) (beach_length w) (beach_factor w) in
  let toxhi := gamma_generate (x - (xhi w - 15/10 * beach_length w)) (5/10 * beach_length w) in
  let has_y := Rltb eps_mach (zone_y w) in
  let gylo := if has_y then
                let g := gamma_generate (y - ylo w) (zone_y w) in
                if has_beach w then rmax g toxhi else g
              else 1 in
  let gyhi := if has_y then
                let g := gamma_absorb (y - (yhi w - zone_y w)) (zone_y w) 1 in
                if has_beach w then rmax g toxhi else g
              else 1 in
  rmin (rmin gxhi gxlo) (rmin gyhi gylo).

(** relaxation_zones_ops.cpp:189-294: one cell.  [cstate]: volume fraction,
    velocity (any number of components), density. *)
Record cstate : Type := CS { cvof : R; cvel : list R; crho : R }.
Definition vof_tiny : R := / 10 ^ 12.
Definition snap (v : R) : R := if Rltb (1 - vof_tiny) v then 1 else if Rltb v vof_tiny then 0 else v.
Definition relax_vel (rho1 rho2 rampf g fv vof' dvf rho_ u t : R) : R :=
  let vl := u + rampf * fv * (combine_linear g t u - u) in
  let integ := vof' * vl + rampf * fv * rmax 0 dvf * (t - u) in
  (rho1 * integ + rho2 * (1 - vof') * u) / rho_.
Definition relax_cell (rho1 rho2 rampf g : R) (near_terrain in_beach : bool)
    (tvof : R) (tvel : list R) (s : cstate) : cstate :=
  if Rleb 1 (g + eps_mach) || near_terrain then s
  else
    let nv := snap (combine_linear g tvof (cvof s)) in
    let dvf := nv - cvof s in
    let vof' := cvof s + rampf * dvf in
    let fv := if in_beach then 1 else if Rltb vof_tiny tvof then 1 else 0 in
    let rho_ := rho1 * vof' + rho2 * (1 - vof') in
    CS vof' (map (fun ut => relax_vel rho1 rho2 rampf g fv vof' dvf rho_ (fst ut) (snd ut)) (combine (cvel s) tvel)) rho_.
(** ... where [x], [y] are the cell centre clamped to the domain and the beach
    flag is [x + beach_length >= xhi]. *)
Definition relax_at (w : zones) (rho1 rho2 rampf x y : R) (near_terrain : bool)
    (tvof : R) (tvel : list R) (s : cstate) : cstate :=
  let x := rmin (rmax x (xlo w)) (xhi w) in
  let y := rmin (rmax y (ylo w)) (yhi w) in
  relax_cell rho1 rho2 rampf (zone_gamma w x y) near_terrain
    (has_beach w && Rleb (xhi w) (x + beach_length w)) tvof tvel s.

(** linear_waves_ops.H:184-217 (and 93-116 for the initial state, which is the
    same at time 0 except that the current is added later): elevation and
    velocity of a linear wave. *)
Record lwave : Type := LW {
  lw_height : R; lw_length : R; lw_phase : R; lw_depth : R; lw_zsl : R; lw_g : R; lw_current : R }.
Definition lw_k (w : lwave) : R := 2 * PI / lw_length w.
(** pow(., 0.5). *)
Definition lw_omega (w : lwave) : R := sqrt (lw_k w * lw_g w * tanh (lw_k w * lw_depth w)).
Definition lw_arg (w : lwave) (t x : R) : R :=
  lw_k w * (x - lw_current w * t) - lw_omega w * t - lw_phase w.
Definition lw_eta (w : lwave) (t x : R) : R := lw_height w / 2 * cos (lw_arg w t x) + lw_zsl w.
Definition lw_u (w : lwave) (t x z : R) : R :=
  lw_omega w * lw_height w / 2 * cosh (lw_k w * (z - lw_zsl w + lw_depth w))
    / sinh (lw_k w * lw_depth w) * cos (lw_arg w t x) + lw_current w.
Definition lw_w (w : lwave) (t x z : R) : R :=
  lw_omega w * lw_height w / 2 * sinh (lw_k w * (z - lw_zsl w + lw_depth w))
    / sinh (lw_k w * lw_depth w) * sin (lw_arg w t x).
(** linear_waves_ops.H:193-222: the target written to the cell at ([x], [z]),
    with cell sizes [dx], [dz]: level set, then velocity. *)
Definition lw_target (w : lwave) (t dx dz x z : R) : R * (R * R * R) :=
  let phi := lw_eta w t x - z in
  (phi, if Rleb 0 (phi + sqrt (dx * dx + dz * dz)) then (lw_u w t x z, 0, lw_w w t x z) else (0, 0, 0)).

(** stokes_waves_K.H:282-381, for the coefficients that stokes_coefficients
    (152-280) returns: here those values enter as arbitrary numbers; Stokes.v
    models them.  [sw_a n] is a[n-1] (340-361). *)
Record scoef : Type := SC {
  sc_c0 : R; sc_c2 : R; sc_c4 : R;
  sc_b22 : R; sc_b31 : R; sc_b42 : R; sc_b44 : R; sc_b53 : R; sc_b55 : R;
  sc_a : nat -> R }.
Record swave : Type := SW {
  sw_order : nat; sw_length : R; sw_depth : R; sw_height : R; sw_zsl : R; sw_g : R; sw_phase : R; sw_c : scoef }.
Definition sw_k (w : swave) : R := 2 * PI / sw_length w.
Definition sw_eps (w : swave) : R := sw_k w * sw_height w / 2.
Definition sw_speed (w : swave) : R :=
  (sc_c0 (sw_c w) + sw_eps w ^ 2 * sc_c2 (sw_c w) + sw_eps w ^ 4 * sc_c4 (sw_c w)) * sqrt (sw_g w / sw_k w).
Definition sw_arg (w : swave) (t x : R) : R := sw_k w * x - sw_speed w * sw_k w * t - sw_phase w.
Definition sw_eta (w : swave) (t x : R) : R :=
  let e := sw_eps w in let c := sw_c w in let p := sw_arg w t x in
  (e * cos p + e ^ 2 * sc_b22 c * cos (2 * p) + e ^ 3 * sc_b31 c * (cos p - cos (3 * p))
   + e ^ 4 * (sc_b42 c * cos (2 * p) + sc_b44 c * cos (4 * p))
   + e ^ 5 * (- (sc_b53 c + sc_b55 c) * cos p + sc_b53 c * cos (3 * p) + sc_b55 c * cos (5 * p))) / sw_k w
  + sw_zsl w.
Definition sw_arg_z (w : swave) (n : nat) (z : R) : R :=
  rmin (INR n * sw_k w * (sw_depth w + (z - sw_zsl w))) (50 * PI).
Definition sw_u (w : swave) (t x z : R) : R :=
  rsum (map (fun n => sw_eps w ^ n * INR n * sc_a (sw_c w) n * cosh (sw_arg_z w n z) * cos (INR n * sw_arg w t x)) (seq 1 (sw_order w)))
  * (sc_c0 (sw_c w) * sqrt (sw_g w / sw_k w)).
Definition sw_w (w : swave) (t x z : R) : R :=
  rsum (map (fun n => sw_eps w ^ n * INR n * sc_a (sw_c w) n * sinh (sw_arg_z w n z) * sin (INR n * sw_arg w t x)) (seq 1 (sw_order w)))
  * (sc_c0 (sw_c w) * sqrt (sw_g w / sw_k w)).

(** stokes_waves_K.H:37-150: the wave-number iteration.  [amp k] stands for the
    factor C0^2 + ... of lines 121-133 and [dfdk k] for the derivative of lines
    89-117, both evaluated at the wave number on entry to the iteration; exact
    reals, so the NaN branch (142) has no counterpart. *)
Fixpoint newton (fuel : nat) (g om2 tol : R) (amp dfdk : R -> R) (it : nat) (k f : R) : nat * R :=
  match fuel with
  | O => (it, k)
  | S n =>
      if Rltb tol (Rabs f) then
        let k1 := k - f / dfdk k in
        newton n g om2 tol amp dfdk (S it) k1 (g * k1 * amp k - om2)
      else (it, k)
  end.
Definition stokes_wave_length (T g tol : R) (iter_max : nat) (amp dfdk : R -> R) : R :=
  let omega := 2 * PI / T in
  let '(it, k) := newton iter_max g (omega * omega) tol amp dfdk 0 (omega * omega / g) (tol + 1) in
  if Rltb k tol then -1
  else if (it =? iter_max)%nat then -3
  else 2 * PI / k.
(** stokes_waves_K.H:176-197, 232-239: the coefficients of the wave speed. *)
Definition sc_S (kd : R) : R := 2 * exp (2 * kd) / (exp (4 * kd) + 1).
Definition speed_coefs (order : nat) (k d : R) : R * R * R :=
  let kd := rmin (k * d) (50 * PI) in
  let S := sc_S kd in
  let C := 1 - S in
  let Th := tanh kd in
  (sqrt Th, sqrt Th * (2 + 7 * S ^ 2) / (4 * C ^ 2),
   if (4 <=? order)%nat then
     sqrt Th * (4 + 32 * S - 116 * S ^ 2 - 400 * S ^ 3 - 71 * S ^ 4 + 146 * S ^ 5) / (32 * C ^ 5)
   else 0).
(** The factor [amp] for each order (stokes_waves_K.H:50-64, 121-133). *)
Definition amp_of (order : nat) (d H k : R) : R :=
  let S := 2 * exp (2 * k * d) / (exp (4 * k * d) + 1) in
  let C := 1 - S in
  let eps := k * H / 2 in
  let C0 := sqrt (tanh (k * d)) in
  let C2 := C0 * (2 + 7 * S * S) / (4 * C * C) in
  let C4 := C0 * (4 + 32 * S - 116 * S ^ 2 - 400 * S ^ 3 - 71 * S ^ 4 + 146 * S ^ 5) / (32 * C ^ 5) in
  C0 ^ 2
  + (if (2 <=? order)%nat then 2 * C0 * eps ^ 2 * C2 + eps ^ 4 * C2 ^ 2 else 0)
  + (if (4 <=? order)%nat then 2 * eps ^ 4 * C0 * C4 + 2 * eps ^ 6 * C2 * C4 + eps ^ 8 * C4 ^ 2 else 0).
