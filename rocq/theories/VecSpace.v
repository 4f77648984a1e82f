(** Vectors, tensors and rotations: amr-wind/core/vs/{vector,vectorI,tensor,
    tensorI,vstraits}.H and the angle conversions of utilities/trig_ops.H.

    Components are exact reals.  Division by zero gives NaN or an infinity in
    the program and an arbitrary real here, so every theorem about a division
    asks for a non-zero divisor. *)
From Verif Require Import BoxR.
Open Scope R_scope.

(** vector.H:11-33 (VectorT, components vv[0..2]) *)
Record vec : Type := V3 { vx : R; vy : R; vz : R }.

(** vector.H:45-53 *)
Definition vzero : vec := V3 0 0 0.
Definition vone : vec := V3 1 1 1.
(** vector.H:55-83 *)
Definition ihat (a : R) : vec := V3 a 0 0.
Definition jhat (a : R) : vec := V3 0 a 0.
Definition khat (a : R) : vec := V3 0 0 a.

(** vectorI.H:10-15 *)
Definition vneg (v : vec) : vec := V3 (- vx v) (- vy v) (- vz v).
(** vectorI.H:54-59 *)
Definition vadd (v w : vec) : vec := V3 (vx v + vx w) (vy v + vy w) (vz v + vz w).
(** vectorI.H:61-66 *)
Definition vsub (v w : vec) : vec := V3 (vx v - vx w) (vy v - vy w) (vz v - vz w).
(** vectorI.H:17-25, 68-80 (vector times scalar, either order, and [*=]) *)
Definition vscale (v : vec) (f : R) : vec := V3 (vx v * f) (vy v * f) (vz v * f).
(** vectorI.H:37-45, 82-87 (vector divided by scalar, and [/=]) *)
Definition vdivs (v : vec) (f : R) : vec := V3 (vx v / f) (vy v / f) (vz v / f).
(** vectorI.H:89-94, operator& *)
Definition vdot (v w : vec) : R := vx v * vx w + vy v * vy w + vz v * vz w.
(** vectorI.H:96-104, operator^ *)
Definition vcross (v w : vec) : vec :=
  V3 (vy v * vz w - vz v * vy w)
     (vz v * vx w - vx v * vz w)
     (vx v * vy w - vy v * vx w).
(** vectorI.H:27-35, 106-111, componentwise product *)
Definition vmul (v w : vec) : vec := V3 (vx v * vx w) (vy v * vy w) (vz v * vz w).
(** vectorI.H:113-117 *)
Definition vmag_sqr (v : vec) : R := vx v * vx v + vy v * vy v + vz v * vz v.
(** vectorI.H:119-123 *)
Definition vmag (v : vec) : R := sqrt (vmag_sqr v).
(** vectorI.H:138-142 *)
Definition vsqrt (v : vec) : vec := V3 (sqrt (vx v)) (sqrt (vy v)) (sqrt (vz v)).
(** vstraits.H:28-31, machine epsilon of double, 2^-52 *)
Definition veps : R := / 4503599627370496.
(** vectorI.H:125-136, VectorT::normalize (and vector.H:91-95, unit) *)
Definition vnormalize (v : vec) : vec :=
  let vmag := vmag v in
  if Rltb vmag veps then vzero else vdivs v vmag.

(** tensor.H:12-40 (TensorT, components vv[0..8], row major) *)
Record tensor : Type := T9 {
  txx : R; txy : R; txz : R;
  tyx : R; tyy : R; tyz : R;
  tzx : R; tzy : R; tzz : R }.

(** tensor.H:56-69 *)
Definition tzero : tensor := T9 0 0 0 0 0 0 0 0 0.
Definition tid : tensor := T9 1 0 0 0 1 0 0 0 1.
(** tensorI.H:24-33 *)
Definition trows (x y z : vec) : tensor :=
  T9 (vx x) (vy x) (vz x) (vx y) (vy y) (vz y) (vx z) (vy z) (vz z).
(** tensorI.H:35-44 *)
Definition tcols (x y z : vec) : tensor :=
  T9 (vx x) (vx y) (vx z) (vy x) (vy y) (vy z) (vz x) (vz y) (vz z).
(** tensorI.H:10-22, constructor from three vectors *)
Definition tmake (x y z : vec) (transpose : bool) : tensor :=
  if transpose then tcols x y z else trows x y z.
(** tensorI.H:46-66, rows *)
Definition trx (t : tensor) : vec := V3 (txx t) (txy t) (txz t).
Definition try_ (t : tensor) : vec := V3 (tyx t) (tyy t) (tyz t).
Definition trz (t : tensor) : vec := V3 (tzx t) (tzy t) (tzz t).
(** tensorI.H:68-87, columns *)
Definition tcx (t : tensor) : vec := V3 (txx t) (tyx t) (tzx t).
Definition tcy (t : tensor) : vec := V3 (txy t) (tyy t) (tzy t).
Definition tcz (t : tensor) : vec := V3 (txz t) (tyz t) (tzz t).
(** tensorI.H:101-110, tensor & vector *)
Definition tapp (t : tensor) (v : vec) : vec :=
  V3 (txx t * vx v + txy t * vy v + txz t * vz v)
     (tyx t * vx v + tyy t * vy v + tyz t * vz v)
     (tzx t * vx v + tzy t * vy v + tzz t * vz v).
(** tensorI.H:112-121, vector & tensor *)
Definition vapp (v : vec) (t : tensor) : vec :=
  V3 (txx t * vx v + tyx t * vy v + tzx t * vz v)
     (txy t * vx v + tyy t * vy v + tzy t * vz v)
     (txz t * vx v + tyz t * vy v + tzz t * vz v).
(** tensorI.H:123-142, tensor & tensor *)
Definition tmul (a b : tensor) : tensor :=
  T9 (txx a * txx b + txy a * tyx b + txz a * tzx b)
     (txx a * txy b + txy a * tyy b + txz a * tzy b)
     (txx a * txz b + txy a * tyz b + txz a * tzz b)
     (tyx a * txx b + tyy a * tyx b + tyz a * tzx b)
     (tyx a * txy b + tyy a * tyy b + tyz a * tzy b)
     (tyx a * txz b + tyy a * tyz b + tyz a * tzz b)
     (tzx a * txx b + tzy a * tyx b + tzz a * tzx b)
     (tzx a * txy b + tzy a * tyy b + tzz a * tzy b)
     (tzx a * txz b + tzy a * tyz b + tzz a * tzz b).
(** tensorI.H:144-162 *)
Definition tadd (a b : tensor) : tensor :=
  T9 (txx a + txx b) (txy a + txy b) (txz a + txz b)
     (tyx a + tyx b) (tyy a + tyy b) (tyz a + tyz b)
     (tzx a + tzx b) (tzy a + tzy b) (tzz a + tzz b).
Definition tsub (a b : tensor) : tensor :=
  T9 (txx a - txx b) (txy a - txy b) (txz a - txz b)
     (tyx a - tyx b) (tyy a - tyy b) (tyz a - tyz b)
     (tzx a - tzx b) (tzy a - tzy b) (tzz a - tzz b).
(** tensorI.H:164-172, operator&& *)
Definition tddot (a b : tensor) : R :=
  txx a * txx b + txy a * txy b + txz a * txz b +
  tyx a * tyx b + tyy a * tyy b + tyz a * tyz b +
  tzx a * tzx b + tzy a * tzy b + tzz a * tzz b.
(** tensorI.H:174-185 *)
Definition tmag_sqr (t : tensor) : R := tddot t t.
Definition tmag (t : tensor) : R := sqrt (tmag_sqr t).

(** trig_ops.H:30-35, 37-42; [std::numbers::pi] is the exact PI here *)
Definition radians (deg : R) : R := PI * deg / 180.
Definition degrees (rad : R) : R := 180 * rad / PI.

(** tensorI.H:187-195 *)
Definition xrot (angle : R) : tensor :=
  let ang := radians angle in
  let cval := cos ang in
  let sval := sin ang in
  T9 1 0 0 0 cval sval 0 (- sval) cval.
(** tensorI.H:197-205 *)
Definition yrot (angle : R) : tensor :=
  let ang := radians angle in
  let cval := cos ang in
  let sval := sin ang in
  T9 cval 0 (- sval) 0 1 0 sval 0 cval.
(** tensorI.H:207-215 *)
Definition zrot (angle : R) : tensor :=
  let ang := radians angle in
  let cval := cos ang in
  let sval := sin ang in
  T9 cval sval 0 (- sval) cval 0 0 0 1.

(** tensorI.H:217-243 *)
Definition quaternion (axis : vec) (angle : R) : tensor :=
  let ang := -1 * radians angle in
  let cval := cos (0.5 * ang) in
  let sval := sin (0.5 * ang) in
  let vm := vmag axis in
  let q0 := cval in
  let q1 := sval * vx axis / vm in
  let q2 := sval * vy axis / vm in
  let q3 := sval * vz axis / vm in
  T9 (q0 * q0 + q1 * q1 - q2 * q2 - q3 * q3)
     (2 * (q1 * q2 - q0 * q3))
     (2 * (q0 * q2 + q1 * q3))
     (2 * (q1 * q2 + q0 * q3))
     (q0 * q0 - q1 * q1 + q2 * q2 - q3 * q3)
     (2 * (q2 * q3 - q0 * q1))
     (2 * (q1 * q3 - q0 * q2))
     (2 * (q0 * q1 + q2 * q3))
     (q0 * q0 - q1 * q1 - q2 * q2 + q3 * q3).
