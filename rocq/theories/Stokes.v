(** Stokes waves with the coefficients the code computes:
    amr-wind/ocean_waves/relaxation_zones/stokes_waves_K.H.  Exact reals: pow
    with the exponents 2.0 ... 10.0 is the integer power, and the NaN branch of
    the wave-number iteration has no counterpart. *)
From Verif Require Import Base.
From Verif Require Import BoxR MultiPhase Waves.
Open Scope R_scope.

(** stokes_waves_K.H:152-173: what stokes_coefficients returns by reference. *)
Record scoefs : Type := SCs {
  k_c0 : R; k_a11 : R; k_a22 : R; k_b22 : R; k_c2 : R;
  k_a31 : R; k_a33 : R; k_b31 : R;
  k_a42 : R; k_a44 : R; k_b42 : R; k_b44 : R; k_c4 : R;
  k_a51 : R; k_a53 : R; k_a55 : R; k_b53 : R; k_b55 : R }.

(** 176-187: argument, sech(2kd) (Waves.sc_S), coth. *)
Definition st_kd (k d : R) : R := rmin (k * d) (50 * PI).
Definition st_CTh (kd : R) : R := (1 + exp (-2 * kd)) / (1 - exp (-2 * kd)).

(** 189-271: one definition per coefficient, as a function of the clamped
    argument. *)
Definition st_c0 (kd : R) : R := sqrt (tanh kd).                                (* 189 *)
Definition st_a11 (kd : R) : R := 1 / sinh kd.                                  (* 190 *)
Definition st_a22 (kd : R) : R := let S := sc_S kd in 3 * S ^ 2 / (2 * (1 - S) ^ 2).  (* 192 *)
Definition st_b22 (kd : R) : R := let S := sc_S kd in st_CTh kd * (1 + 2 * S) / (2 * (1 - S)). (* 193 *)
Definition st_c2 (kd : R) : R := let S := sc_S kd in
  sqrt (tanh kd) * (2 + 7 * S ^ 2) / (4 * (1 - S) ^ 2).                         (* 194-195 *)
Definition st_a31 (kd : R) : R := let S := sc_S kd in
  (-4 - 20 * S + 10 * S ^ 2 - 13 * S ^ 3) / (8 * sinh kd * (1 - S) ^ 3).        (* 201-203 *)
Definition st_a33 (kd : R) : R := let S := sc_S kd in
  (-2 * S ^ 2 + 11 * S ^ 3) / (8 * sinh kd * (1 - S) ^ 3).                      (* 204-205 *)
Definition st_b31 (kd : R) : R := let S := sc_S kd in
  -3 * (1 + 3 * S + 3 * S ^ 2 + 2 * S ^ 3) / (8 * (1 - S) ^ 3).                 (* 206-209 *)
Definition st_a42 (kd : R) : R := let S := sc_S kd in
  (12 * S - 14 * S ^ 2 - 264 * S ^ 3 - 45 * S ^ 4 - 13 * S ^ 5) / (24 * (1 - S) ^ 5). (* 215-218 *)
Definition st_a44 (kd : R) : R := let S := sc_S kd in
  (10 * S ^ 3 - 174 * S ^ 4 + 291 * S ^ 5 + 278 * S ^ 6) / (48 * (3 + 2 * S) * (1 - S) ^ 5). (* 219-221 *)
Definition st_b42 (kd : R) : R := let S := sc_S kd in
  st_CTh kd * (6 - 26 * S - 182 * S ^ 2 - 204 * S ^ 3 - 25 * S ^ 4 + 26 * S ^ 5)
  / (6 * (3 + 2 * S) * (1 - S) ^ 4).                                            (* 222-226 *)
Definition st_b44 (kd : R) : R := let S := sc_S kd in
  st_CTh kd * (24 + 92 * S + 122 * S ^ 2 + 66 * S ^ 3 + 67 * S ^ 4 + 34 * S ^ 5)
  / (24 * (3 + 2 * S) * (1 - S) ^ 4).                                           (* 227-231 *)
Definition st_c4 (kd : R) : R := let S := sc_S kd in
  sqrt (tanh kd) * (4 + 32 * S - 116 * S ^ 2 - 400 * S ^ 3 - 71 * S ^ 4 + 146 * S ^ 5)
  / (32 * (1 - S) ^ 5).                                                         (* 232-236 *)
Definition st_a51 (kd : R) : R := let S := sc_S kd in
  (-1184 + 32 * S + 13232 * S ^ 2 + 21712 * S ^ 3 + 20940 * S ^ 4 + 12554 * S ^ 5
   - 500 * S ^ 6 - 3341 * S ^ 7 - 670 * S ^ 8)
  / (64 * sinh kd * (3 + 2 * S) * (4 + S) * (1 - S) ^ 6).                       (* 242-247 *)
Definition st_a53 (kd : R) : R := let S := sc_S kd in
  (4 * S + 105 * S ^ 2 + 198 * S ^ 3 - 1376 * S ^ 4 - 1302 * S ^ 5 - 117 * S ^ 6 + 58 * S ^ 7)
  / (32 * sinh kd * (3 + 2 * S) * (1 - S) ^ 6).                                 (* 248-252 *)
Definition st_a55 (kd : R) : R := let S := sc_S kd in
  (-6 * S ^ 3 + 272 * S ^ 4 - 1552 * S ^ 5 + 852 * S ^ 6 + 2029 * S ^ 7 + 430 * S ^ 8)
  / (64 * sinh kd * (3 + 2 * S) * (4 + S) * (1 - S) ^ 6).                       (* 253-257 *)
Definition st_b53 (kd : R) : R := let S := sc_S kd in
  9 * (132 + 17 * S - 2216 * S ^ 2 - 5897 * S ^ 3 - 6292 * S ^ 4 - 2687 * S ^ 5
       + 194 * S ^ 6 + 467 * S ^ 7 + 82 * S ^ 8)
  / (128 * (3 + 2 * S) * (4 + S) * (1 - S) ^ 6).                                (* 258-264 *)
Definition st_b55 (kd : R) : R := let S := sc_S kd in
  5 * (300 + 1579 * S + 3176 * S ^ 2 + 2949 * S ^ 3 + 1188 * S ^ 4 + 675 * S ^ 5
       + 1326 * S ^ 6 + 827 * S ^ 7 + 130 * S ^ 8)
  / (384 * (3 + 2 * S) * (4 + S) * (1 - S) ^ 6).                                (* 265-271 *)

(** 152-280: the coefficients above the order keep the zeros they were
    initialised with (302-307); an order outside 2..5 aborts. *)
Definition stokes_coefficients (order : nat) (k d : R) : outcome scoefs :=
  let kd := st_kd k d in
  let from n v := if (n <=? order)%nat then v else 0 in
  if ((2 <=? order) && (order <=? 5))%nat%bool then
    Ret (SCs (st_c0 kd) (st_a11 kd) (st_a22 kd) (st_b22 kd) (st_c2 kd)
           (from 3%nat (st_a31 kd)) (from 3%nat (st_a33 kd)) (from 3%nat (st_b31 kd))
           (from 4%nat (st_a42 kd)) (from 4%nat (st_a44 kd)) (from 4%nat (st_b42 kd)) (from 4%nat (st_b44 kd)) (from 4%nat (st_c4 kd))
           (from 5%nat (st_a51 kd)) (from 5%nat (st_a53 kd)) (from 5%nat (st_a55 kd)) (from 5%nat (st_b53 kd)) (from 5%nat (st_b55 kd)))
  else Abort.

(** 338-361: the amplitudes a[n-1] of the velocity, by order. *)
Definition stokes_amp (order : nat) (q : scoefs) (eps : R) (n : nat) : R :=
  match order, n with
  | 2%nat, 1%nat => k_a11 q
  | 2%nat, 2%nat => k_a22 q
  | 3%nat, 1%nat => k_a11 q + eps * eps * k_a31 q
  | 3%nat, 2%nat => k_a22 q
  | 3%nat, 3%nat => k_a33 q
  | 4%nat, 1%nat => k_a11 q + eps * eps * k_a31 q
  | 4%nat, 2%nat => k_a22 q + eps * eps * k_a42 q
  | 4%nat, 3%nat => k_a33 q
  | 4%nat, 4%nat => k_a44 q
  | 5%nat, 1%nat => k_a11 q + eps * eps * k_a31 q + eps ^ 4 * k_a51 q
  | 5%nat, 2%nat => k_a22 q + eps * eps * k_a42 q
  | 5%nat, 3%nat => k_a33 q + eps * eps * k_a53 q
  | 5%nat, 4%nat => k_a44 q
  | 5%nat, 5%nat => k_a55 q
  | _, _ => 0
  end.

(** 283-381: the wave that stokes_waves evaluates; the sums themselves are
    Waves.sw_eta, sw_u and sw_w. *)
Definition stokes_wave (order : nat) (len d H zsl g ph : R) : outcome swave :=
  let k := 2 * PI / len in
  match stokes_coefficients order k d with
  | Ret q =>
      Ret (SW order len d H zsl g ph
             (SC (k_c0 q) (k_c2 q) (k_c4 q) (k_b22 q) (k_b31 q) (k_b42 q) (k_b44 q) (k_b53 q) (k_b55 q)
                (stokes_amp order q (k * H / 2))))
  | Abort => Abort
  | UB => UB
  end.

(** 50-117: the derivative used by the wave-number iteration. *)
Definition stokes_dfdk (order : nat) (g d H k : R) : R :=
  let S := 2 * exp (2 * k * d) / (exp (4 * k * d) + 1) in
  let C := 1 - S in
  let depsdk := H / 2 in
  let eps := k * H / 2 in
  let C0 := sqrt (tanh (k * d)) in
  let C2 := C0 * (2 + 7 * S * S) / (4 * C * C) in
  let num4 := 4 + 32 * S - 116 * S ^ 2 - 400 * S ^ 3 - 71 * S ^ 4 + 146 * S ^ 5 in
  let C4 := C0 * num4 / (32 * C ^ 5) in
  let dSdk := -2 * d * sinh (2 * k * d) / cosh (2 * k * d) ^ 2 in
  let dCdk := - dSdk in
  let dC0dk := d / (2 * C0 * cosh (k * d) ^ 2) in
  let dC2dk := (4 * C ^ 2 * (dC0dk * (2 + 7 * S ^ 2) + C0 * 14 * S * dSdk)
                - C0 * (2 + 7 * S ^ 2) * 8 * C * dCdk) / (16 * C ^ 4) in
  let dC4dk := (32 * C ^ 5 * (dC0dk * num4
                  + C0 * (32 * dSdk - 232 * S * dSdk - 1200 * S ^ 2 * dSdk - 284 * S ^ 3 * dSdk + 730 * S ^ 4))
                - C0 * num4 * 160 * C ^ 4 * dCdk) / (1024 * C ^ 10) in
  g * C0 ^ 2 + g * k * 2 * C0 * dC0dk
  + (if (2 <=? order)%nat then
       g * (2 * C0 * eps ^ 2 * C2 + eps ^ 4 * C2 ^ 2)
       + g * k * (2 * dC0dk * eps ^ 2 * C2 + 2 * C0 * (2 * eps * depsdk * C2 + eps ^ 2 * dC2dk)
                  + 4 * eps ^ 3 * C2 ^ 2 * depsdk + eps ^ 4 * 2 * C2 * dC2dk)
     else 0)
  + (if (4 <=? order)%nat then
       g * (2 * eps ^ 4 * C0 * C4 + 2 * eps ^ 6 * C2 * C4 + eps ^ 8 * C4 ^ 2)
       + g * k * (8 * eps ^ 3 * depsdk * C0 * C4 + 2 * eps ^ 4 * (C0 * dC4dk + C4 * dC0dk)
                  + 12 * eps ^ 5 * depsdk * C2 * C4 + 2 * eps ^ 6 * (C2 * dC4dk + C4 * dC2dk)
                  + 8 * eps ^ 7 * depsdk * C4 ^ 2 + eps ^ 8 * 2 * C4 * dC4dk)
     else 0).
