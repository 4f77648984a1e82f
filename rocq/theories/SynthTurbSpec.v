(** Vocabulary of C85: the wind from a compass direction, periodic linear interpolation. *)
From Verif Require Import BoxR VecSpace SynthTurb.
Local Open Scope R_scope.

(** Where a wind from a compass direction (degrees clockwise from north) blows to, and its left. *)
Definition downwind (deg : R) : vec := V3 (- sin (PI * deg / 180)) (- cos (PI * deg / 180)) 0.
Definition leftward (deg : R) : vec := V3 (cos (PI * deg / 180)) (- sin (PI * deg / 180)) 0.
Definition up : vec := V3 0 0 1.

(** Linear interpolation of values at the integers. *)
Definition lerp (f : Z -> R) (s : R) : R := let i := Int_part s in let t := s - IZR i in (1 - t) * f i + t * f (i + 1)%Z.
(** The file repeated in all directions, and interpolated. *)
Definition repeated (T : tbox) (F : tfile) (comp i j k : Z) : R :=
  F comp (i mod tb_n T 0)%Z (j mod tb_n T 1)%Z (k mod tb_n T 2)%Z.
Definition interpolated (T : tbox) (F : tfile) (comp : Z) (x y z : R) : R :=
  lerp (fun i => lerp (fun j => lerp (fun k => repeated T F comp i j k) (z / tb_dx T 2)) (y / tb_dx T 1)) (x / tb_dx T 0).
(** As many spacings as points fill the box. *)
Definition fits (T : tbox) : Prop :=
  forall d, (d = 0 \/ d = 1 \/ d = 2)%Z -> (1 <= tb_n T d)%Z /\ 0 < tb_dx T d /\ tb_len T d = IZR (tb_n T d) * tb_dx T d.

(** Coordinates with respect to the box: along the wind, to its left, up. *)
Definition along (S : tset) (x : vec) : R := vdot (vsub x (ts_origin S)) (downwind (ts_wind S)).
Definition aside (S : tset) (x : vec) : R := vdot (vsub x (ts_origin S)) (leftward (ts_wind S)).
Definition above (S : tset) (x : vec) : R := vz x - vz (ts_origin S).
Definition inside (S : tset) (x : vec) : Prop :=
  Rabs (aside S x) <= tb_len (ts_box S) 1 / 2 /\ Rabs (above S x) <= tb_len (ts_box S) 2 / 2.
(** The turbulence at a point and a time: the file passes through the plane with the reference speed, its
    lower corner at half the size of the box from the centre. *)
Definition turbulence (S : tset) (t : R) (x : vec) : vec :=
  let T := ts_box S in
  let u comp := interpolated T (ts_file S) comp (ref_speed (ts_profile S) * (t - ts_offset S))
                  (aside S x + tb_len T 1 / 2) (above S x + tb_len T 2 / 2) in
  vadd (vadd (vscale (downwind (ts_wind S)) (u 0%Z)) (vscale (leftward (ts_wind S)) (u 1%Z))) (vscale up (u 2%Z)).
Definition active (S : tset) (t : R) : Prop := ~ (0 < ts_duration S /\ ts_duration S < t - ts_offset S).
(** The coordinate the mean wind varies with. *)
Definition component (v : vec) (d : Z) : R := match d with 0%Z => vx v | 1%Z => vy v | _ => vz v end.
(** The force: density times turbulence times the wind met on the way, smeared along the wind. *)
Definition gaussian (eps x : R) : R := exp (- (x / eps) * (x / eps)) / (eps * sqrt PI).
Definition force (S : tset) (t : R) (x : vec) (rho : R) : vec :=
  let v := turbulence S t x in
  vscale v (rho * (mean_speed (ts_profile S) (component x (shear_dir (ts_profile S))) + vmag v / 2) * gaussian (ts_eps S) (along S x)).
(** The places of the cells after a history. *)
Fixpoint mesh_after {C} (es : list (tevent C)) (pos : C -> vec) : C -> vec :=
  match es with [] => pos | Advance _ _ :: es => mesh_after es pos | Regrid p :: es => mesh_after es p end.
