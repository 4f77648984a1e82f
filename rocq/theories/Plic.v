(** Piecewise linear interface reconstruction:
    amr-wind/equation_systems/vof/volume_fractions.H.
    Numbers are exact reals.  [e] is the code's guard
    [std::numeric_limits<amrex::Real>::epsilon()]; the definitions that the
    code runs are the instances at [eps64].  Keeping [e] as an argument lets the
    theorems say what the guards change. *)
From Verif Require Import BoxR.
Open Scope R_scope.

(** [std::numeric_limits<double>::epsilon()] = 2^-52. *)
Definition eps64 : R := / 4503599627370496.

(** [Array4::operator()(i,j,k)] on a field of cell values. *)
Definition fld : Type := ivec -> R.
Definition at3 (f : fld) (i j k : Z) : R := f (IV i j k).

Record v3 : Type := W3 { w0 : R; w1 : R; w2 : R }.

(** volume_fractions.H:24-70 (youngs_finite_difference_normal). *)
Definition youngs (f : fld) (i j k : Z) : v3 :=
  let v a b c := at3 f (i + a)%Z (j + b)%Z (k + c)%Z in
  let m := (-1)%Z in let p := 1%Z in let z := 0%Z in
  W3 ((v m m m + v m m p + v m p m + v m p p
       + 2 * (v m m z + v m p z + v m z m + v m z p) + 4 * v m z z)
      - (v p m m + v p m p + v p p m + v p p p
         + 2 * (v p m z + v p p z + v p z m + v p z p) + 4 * v p z z))
     ((v m m m + v m m p + v p m m + v p m p
       + 2 * (v m m z + v p m z + v z m m + v z m p) + 4 * v z m z)
      - (v m p m + v m p p + v p p m + v p p p
         + 2 * (v m p z + v p p z + v z p m + v z p p) + 4 * v z p z))
     ((v m m m + v m p m + v p m m + v p p m
       + 2 * (v m z m + v p z m + v z m m + v z p m) + 4 * v z z m)
      - (v m m p + v m p p + v p m p + v p p p
         + 2 * (v m z p + v p z p + v z m p + v z p p) + 4 * v z z p)).

(** volume_fractions.H:149,179,209: [(m1 > m2) ? 1 : -1]. *)
Definition sgn_gt (a b : R) : R := if Rltb b a then 1 else -1.

(** volume_fractions.H:142-209: the three central schemes, rows 0..2 of [m]
    before normalisation. *)
Definition central0 (f : fld) (i j k : Z) : v3 :=
  let v a b c := at3 f (i + a)%Z (j + b)%Z (k + c)%Z in
  let m := (-1)%Z in let p := 1%Z in let z := 0%Z in
  W3 (sgn_gt (v m z m + v m z p + v m m z + v m p z + v m z z)
             (v p z m + v p z p + v p m z + v p p z + v p z z))
     (/2 * ((v m m z + v p m z + v z m z) - (v m p z + v p p z + v z p z)))
     (/2 * ((v m z m + v p z m + v z z m) - (v m z p + v p z p + v z z p))).

Definition central1 (f : fld) (i j k : Z) : v3 :=
  let v a b c := at3 f (i + a)%Z (j + b)%Z (k + c)%Z in
  let m := (-1)%Z in let p := 1%Z in let z := 0%Z in
  W3 (/2 * ((v m m z + v m p z + v m z z) - (v p m z + v p p z + v p z z)))
     (sgn_gt (v z m m + v z m p + v p m z + v m m z + v z m z)
             (v z p m + v z p p + v p p z + v m p z + v z p z))
     (/2 * ((v z m m + v z z m + v z p m) - (v z m p + v z z p + v z p p))).

Definition central2 (f : fld) (i j k : Z) : v3 :=
  let v a b c := at3 f (i + a)%Z (j + b)%Z (k + c)%Z in
  let m := (-1)%Z in let p := 1%Z in let z := 0%Z in
  W3 (/2 * ((v m z m + v m z p + v m z z) - (v p z m + v p z p + v p z z)))
     (/2 * ((v z m m + v z m p + v z m z) - (v z p m + v z p p + v z p z)))
     (sgn_gt (v m z m + v p z m + v z m m + v z p m + v z z m)
             (v m z p + v p z p + v z m p + v z p p + v z z p)).

Definition l1 (m : v3) : R := Rabs (w0 m) + Rabs (w1 m) + Rabs (w2 m).

(** volume_fractions.H:214-227,249-252: divide a row by [t]. *)
Definition vover (m : v3) (t : R) : v3 := W3 (w0 m / t) (w1 m / t) (w2 m / t).

(** volume_fractions.H:130-270 (mixed_youngs_central_normal).  The choice
    among the rows is a chain of comparisons; [cn] of the code is the row
    itself here. *)
Definition mixed_normal_e (e : R) (f : fld) (i j k : Z) : v3 :=
  let c0 := vover (central0 f i j k) (l1 (central0 f i j k)) in
  let c1 := vover (central1 f i j k) (l1 (central1 f i j k)) in
  let c2 := vover (central2 f i j k) (l1 (central2 f i j k)) in
  let t0 := Rabs (w0 c0) in
  let t1 := Rabs (w1 c1) in
  let t2 := Rabs (w2 c2) in
  let p1 := if Rltb t0 t1 then (c1, t1) else (c0, t0) in
  let p2 := if Rltb (snd p1) t2 then (c2, t2) else p1 in
  let y := youngs f i j k in
  let c3 := vover y (l1 y + e) in
  let s0 := rmax (Rabs (w2 c3)) (rmax (Rabs (w1 c3)) (Rabs (w0 c3))) in
  if Rltb s0 (snd p2) && Rltb 0 s0 then c3 else fst p2.
Definition mixed_normal := mixed_normal_e eps64.

(** The ordering of three coefficients in volume_fractions.H:287-300 and
    397-410. *)
Definition sort3 (b1 b2 b3 : R) : R * R * R :=
  let m1 := rmin b1 b2 in
  let m3 := rmax b1 b2 in
  let m2 := b3 in
  if Rltb m2 m1 then (m2, m1, m3)
  else if Rltb m3 m2 then (m1, m3, m2)
  else (m1, m2, m3).

(** [std::cbrt] on non-negative arguments (the only ones that reach it). *)
Definition rcbrt (x : R) : R := if Rltb 0 x then Rpower x (/3) else 0.

(** volume_fractions.H:327-335 and 339-347: the root of the cubic, as the code
    computes it, given [p], [q] and the centre. *)
Definition cubic_root (e p q centre : R) : R :=
  let p12 := sqrt p in
  let teta := acos (q / (p * p12 + e)) / 3 in
  let cs := cos teta in
  p12 * (sqrt (3 * (1 - cs * cs)) - cs) + centre.

(** volume_fractions.H:302-348, on ordered coefficients. *)
Definition intercept_sorted (e m1 m2 m3 ch : R) : R :=
  let m12 := m1 + m2 in
  let pr := rmax (6 * m1 * m2 * m3) e in
  let V1 := m1 * m1 * m1 / pr in
  let V2 := V1 + /2 * (m2 - m1) / m3 in
  let mm := if Rltb m3 m12 then m3 else m12 in
  let V3 := if Rltb m3 m12
            then (m3 * m3 * (3 * m12 - m3) + m1 * m1 * (m1 - 3 * m3)
                  + m2 * m2 * (m2 - 3 * m3)) / pr
            else /2 * mm / m3 in
  if Rltb ch V1 then rcbrt (pr * ch)
  else if Rltb ch V2 then /2 * (m1 + sqrt (m1 * m1 + 8 * m2 * m3 * (ch - V1)))
  else if Rltb ch V3 then
    cubic_root e (2 * m1 * m2) (3/2 * m1 * m2 * (m12 - 2 * m3 * ch)) m12
  else if Rltb m12 m3 then m3 * ch + /2 * mm
  else cubic_root e (m1 * (m2 + m3) + m2 * m3 - /4)
         (3/2 * m1 * m2 * m3 * (/2 - ch)) (/2).

(** volume_fractions.H:275-355 (volume_intercept). *)
Definition volume_intercept_e (e b1 b2 b3 volF : R) : R :=
  let '(m1, m2, m3) := sort3 b1 b2 b3 in
  let ch := rmin volF (1 - volF) in
  let alpha := intercept_sorted e m1 m2 m3 ch in
  if Rltb (/2) volF then 1 - alpha else alpha.
Definition volume_intercept := volume_intercept_e eps64.

(** volume_fractions.H:416-442: the volume below the plane, on ordered
    coefficients and for an offset of at most one half. *)
Definition lower_volume (e vm1 vm2 vm3 a : R) : R :=
  let vm12 := vm1 + vm2 in
  if Rltb 0 a then
    if Rltb a vm1 then a * a * a / (6 * vm1 * vm2 * vm3)
    else if Rltb a vm2 then
      a * (a - vm1) / (2 * vm2 * vm3) + vm1 * vm1 / (6 * vm2 * vm3 + e)
    else if Rltb a (rmin vm12 vm3) then
      (a * a * (3 * vm12 - a) + vm1 * vm1 * (vm1 - 3 * a)
       + vm2 * vm2 * (vm2 - 3 * a)) / (6 * vm1 * vm2 * vm3)
    else if Rltb vm3 vm12 then
      (a * a * (3 - 2 * a) + vm1 * vm1 * (vm1 - 3 * a)
       + vm2 * vm2 * (vm2 - 3 * a) + vm3 * vm3 * (vm3 - 3 * a))
      / (6 * vm1 * vm2 * vm3)
    else (a - /2 * vm12) / vm3
  else 0.

(** volume_fractions.H:365-453 (cut_volume). *)
Definition cut_volume_e (e m1 m2 m3 alpha r0 dr0 : R) : R :=
  let al := alpha - m1 * r0 in
  let al := al + rmax 0 (- m1 * dr0) + rmax 0 (- m2) + rmax 0 (- m3) in
  let tmp := Rabs m1 * dr0 + Rabs m2 + Rabs m3 in
  let n1 := Rabs m1 / tmp in
  let n2 := Rabs m2 / tmp in
  let n3 := Rabs m3 / tmp in
  let al := rmax 0 (rmin 1 (al / tmp)) in
  let al0 := rmin al (1 - al) in
  let '(b1, b2, b3) := sort3 (n1 * dr0) n2 n3 in
  let v := lower_volume e b1 b2 b3 al0 in
  if Rleb al (/2) then v else 1 - v.
Definition cut_volume := cut_volume_e eps64.

(** volume_fractions.H:455-499 (fit_plane): normal and offset of the
    interface plane in the cell. *)
Definition fit_plane_e (e : R) (f : fld) (i j k : Z) : v3 * R :=
  let m := mixed_normal_e e f i j k in
  let flip x := if Rltb x 0 then - x else x in
  let inv x := if Rltb x 0 then -1 else 1 in
  let mm2 := flip (w0 m) + flip (w1 m) + flip (w2 m) in
  let mx := flip (w0 m) / mm2 in
  let my := flip (w1 m) / mm2 in
  let mz := flip (w2 m) / mm2 in
  let alpha := volume_intercept_e e mx my mz (at3 f i j k) in
  let mx := inv (w0 m) * mx in
  let my := inv (w1 m) * my in
  let mz := inv (w2 m) * mz in
  (W3 mx my mz, alpha + rmin 0 mx + rmin 0 my + rmin 0 mz).
Definition fit_plane := fit_plane_e eps64.

(** volume_fractions.H:501-528 (interface_band) with the default tolerance
    passed in. *)
Definition band_offsets (n : Z) : list ivec :=
  flat_map (fun ii => flat_map (fun jj =>
    map (fun kk => IV ii jj kk) (zrange (- n) n)) (zrange (- n) n))
    (zrange (- n) n).
Definition interface_band (f : fld) (i j k n : Z) (tiny : R) : bool :=
  let vals := map (fun o => at3 f (i + iv0 o)%Z (j + iv1 o)%Z (k + iv2 o)%Z)
                  (band_offsets n) in
  let vmax := fold_left (fun a v => rmax a v) vals 0 in
  let vmin := fold_left (fun a v => rmin a v) vals 1 in
  let mid := fold_left (fun b v =>
               if Rltb v (1 - tiny) && Rltb tiny v then true else b) vals false in
  Rltb tiny (Rabs (vmax - vmin)) || mid.

(** volume_fractions.H:530-565 (levelset_to_vof). *)
Definition levelset_to_vof_e (e : R) (phi : fld) (i j k : Z) (eps : R) : R :=
  let m := youngs phi i j k in
  let mx := Rabs (w0 m / 32) in
  let my := Rabs (w1 m / 32) in
  let mz := Rabs (w2 m / 32) in
  let n := mx + my + mz in
  let alpha := if Rltb (at3 phi i j k) (- eps) then -1
               else at3 phi i j k / n + /2 in
  if Rleb 1 alpha then 1
  else if Rleb alpha 0 then 0
  else cut_volume_e e (mx / n) (my / n) (mz / n) alpha 0 1.
Definition levelset_to_vof := levelset_to_vof_e eps64.
