(** Statistics of the atmospheric boundary layer: when they are written, the height of the inversion and the
    convective velocity, the stresses, the energy budget and the contents of the file. *)
From Coq Require Import Reals List ZArith.
From Verif Require Import Base BoxR.
Import ListNotations.
Open Scope R_scope.

(** ** When *)

(** ABLStats.cpp:214-236 (post_advance_work) with stats_output_frequency [freq] at step [tidx]: are the moments
    computed? A remainder by zero is undefined in C++. *)
Definition due (freq tidx : Z) : outcome bool := if (freq =? 0)%Z then UB else Ret (Z.rem tidx freq =? 0)%Z.
(** stats_output_format *)
Inductive format : Set := Ascii | Netcdf | OtherFormat.
(** ABLStats.cpp:90-96 (initialize): the file made. *)
Definition prepared (freq : Z) (f : format) : option format :=
  if (0 <? freq)%Z then Some (match f with Netcdf => Netcdf | _ => Ascii end) else None.
(** ABLStats.cpp:366-379 (process_output). *)
Definition process (freq : Z) (f : format) : outcome (option format) :=
  if (0 <? freq)%Z then match f with Ascii => Ret (Some Ascii) | Netcdf => Ret (Some Netcdf) | OtherFormat => Abort end else Ret None.
(** One step. *)
Definition stats_step (freq tidx : Z) (f : format) : outcome (option format) :=
  match due freq tidx with
  | Ret true => process freq f
  | Ret false => Ret None
  | Abort => Abort
  | UB => UB
  end.
(** ABLStats.cpp:387-413, :438: after a step from [t0] to [t1], the time written beside the profiles and beside the
    single values in text files. *)
Definition profile_time (t0 t1 : R) : R := t0.
Definition scalar_time (t0 t1 : R) : R := t1.

(** ** Height of the inversion *)

Definition above (v : R) (m : option R) : bool := match m with None => true | Some x => Rltb x v end.
(** ABLStats.cpp:339-346 (without a GPU), column [i], from height [k] on; [m] is vmax, None the lowest number. *)
Fixpoint scan_cpu (i k : Z) (l : list R) (m : option R) (idx : Z) : Z :=
  match l with
  | [] => idx
  | v :: r => if above v m then scan_cpu i (k + 1) r (Some v) i else scan_cpu i (k + 1) r m idx
  end.
(** ABLStats.cpp:305-322 (with a GPU); the reduction over the threads of a column is written as one loop, so among
    equal values the choice is not modelled. *)
Fixpoint scan_gpu (k : Z) (l : list R) (m : option R) (idx : Z) : Z :=
  match l with
  | [] => idx
  | v :: r => if above v m then scan_gpu (k + 1) r (Some v) k else scan_gpu (k + 1) r m idx
  end.

Definition rsum (l : list R) : R := fold_right Rplus 0 l.
(** ABLStats.cpp:347, :325-329. *)
Definition height (dn : R) (idx : Z) : R := (IZR idx + / 2) * dn.
(** ABLStats.cpp:264-363: [ranks] are the columns of each process, [grad i j] the gradient of temperature up the
    column, [nx] and [ny] the numbers of cells. *)
Definition zi (find : Z -> list R -> Z) (dn : R) (grad : Z -> Z -> list R) (ranks : list (list (Z * Z))) (nx ny : nat) : R :=
  rsum (map (fun cols => rsum (map (fun c => height dn (find (fst c) (grad (fst c) (snd c)))) cols)) ranks) / (INR nx * INR ny).
Definition zi_cpu := zi (fun i l => scan_cpu i 0 l None 0).
Definition zi_gpu := zi (fun _ l => scan_gpu 0 l None 0).

(** std::cbrt *)
Definition cbrt (x : R) : R := if Rltb 0 x then exp (ln x / 3) else if Rltb x 0 then - exp (ln (- x) / 3) else 0.
(** ABLStats.cpp:425-430, :615-623. *)
Definition flux_tol : R := / 2 ^ 52 * 1000000.
Definition wstar (g q z theta : R) : R := if Rltb flux_tol q then cbrt (g * q * z / theta) else 0.

(** ** Stresses and budget *)

(** ABLStats.cpp:136-144 (calc_sfs_stress_avgs): component [n] of the stress; [g c] is component [c] of the gradient
    of velocity, [mu] the viscosity. *)
Definition sfs (mu : R) (g : nat -> R) (n : nat) : R :=
  match n with
  | O => - mu * (g 1%nat + g 3%nat)
  | S O => - mu * (g 2%nat + g 6%nat)
  | _ => - mu * (g 5%nat + g 7%nat)
  end.
(** ABLStats.cpp:146-150. *)
Definition t_sfs (alpha : R) (gt : nat -> R) (n : nat) : R := - alpha * gt n.
(** ABLStats.cpp:203-208 (calc_tke_diffusion). *)
Definition tke_diffusion (k k_old dt conv shear buoy dissip : R) : R := (k - k_old) / dt - conv - shear - buoy + dissip.

(** ** The file *)

(** What a variable of the file is to hold. *)
Inductive quantity : Set :=
| Time | Q | Tsurf | Ustar | Wstar | L | Zi | Forcing (d : nat)
| H | Mean (d : nat) | Hvelmag | Theta | MesoMom (d : nat) | MesoTheta | Mueff
| ThetaTheta | FluxTheta (d : nat) | Moment2 (a b : nat) | Moment3 (a b c : nat)
| SfsTheta (d : nat) | Sfs (a b : nat) | Ksgs | TkeBuoy | TkeShear | TkeDissip | TkeDiff.

(** ABLStats.cpp:501-564 (prepare_netcdf_file): [meso] says that the input has mesoscale_forcing or WRFforcing, [tke]
    that there is a field of that name. *)
Definition defined (meso tke budget : bool) : list quantity :=
  [Time; Q; Tsurf; Ustar; Wstar; L; Zi; Forcing 0; Forcing 1; H; Mean 0; Mean 1; Mean 2; Hvelmag; Theta] ++
  (if meso then [MesoMom 0; MesoMom 1; MesoTheta] else []) ++
  [Mueff; ThetaTheta; FluxTheta 0; FluxTheta 1; FluxTheta 2; Moment2 0 0; Moment2 0 1; Moment2 0 2; Moment2 1 1; Moment2 1 2;
   Moment2 2 2; Moment3 0 0 0; Moment3 1 1 1; Moment3 2 2 2; SfsTheta 0; SfsTheta 1; SfsTheta 2; Sfs 0 1; Sfs 0 2; Sfs 1 2] ++
  (if tke then [Ksgs] else []) ++ (if budget then [TkeBuoy; TkeShear; TkeDissip; TkeDiff] else []).

(** Component [c] of a second moment and of a third moment of the velocity (SecondMomentAveraging, ThirdMomentAveraging:
    the last factor counts fastest). *)
Definition moment2 (c : nat) : quantity := Moment2 (c / 3) (c mod 3).
Definition moment3 (c : nat) : quantity := Moment3 (c / 9) (c / 3 mod 3) (c mod 3).
(** The stress in component [c] of sfs. *)
Definition stress (c : nat) : quantity := match c with O => Sfs 0 1 | S O => Sfs 0 2 | _ => Sfs 1 2 end.

(** ABLStats.cpp:568-573 (h, once), :610-786 (write_netcdf): the variable and what is put in it.  [mom] and [temp] say
    that a mesoscale forcing of momentum and of temperature is there. *)
Definition puts (mom temp budget : bool) : list (quantity * quantity) :=
  [(H, H); (Time, Time); (Ustar, Ustar); (Q, Q); (Tsurf, Tsurf); (Wstar, Wstar); (L, L); (Zi, Zi);
   (Forcing 0, Forcing 0); (Forcing 1, Forcing 1)] ++
  map (fun d => (Mean d, Mean d)) [0; 1; 2]%nat ++ [(Hvelmag, Hvelmag); (Theta, Theta)] ++
  (if mom then [(MesoMom 0, MesoMom 0); (MesoMom 1, MesoMom 1)] else []) ++
  (if temp then [(MesoTheta, MesoTheta)] else []) ++
  [(Mueff, Mueff); (ThetaTheta, ThetaTheta)] ++ map (fun d => (FluxTheta d, FluxTheta d)) [0; 1; 2]%nat ++
  combine [Moment2 0 0; Moment2 0 1; Moment2 0 2; Moment2 1 1; Moment2 1 2; Moment2 2 2] (map moment2 [0; 1; 2; 4; 5; 8]%nat) ++
  combine [Moment3 0 0 0; Moment3 1 1 1; Moment3 2 2 2] (map moment3 [0; 13; 26]%nat) ++
  combine [Sfs 0 1; Sfs 0 2; Sfs 1 2] (map stress [0; 1; 2]%nat) ++
  map (fun d => (SfsTheta d, SfsTheta d)) [0; 1; 2]%nat ++
  (if budget then [(TkeBuoy, TkeDissip); (TkeShear, TkeShear); (TkeDissip, TkeDissip); (TkeDiff, TkeDiff)] else []).

Definition quantity_eq_dec (a b : quantity) : {a = b} + {a <> b}.
Proof. decide equality; apply Nat.eq_dec. Defined.
(** A variable that is not in the file cannot be written (ncutils: check_nc_error aborts). *)
Definition write_netcdf (meso tke mom temp budget : bool) : outcome (list (quantity * quantity)) :=
  let p := puts mom temp budget in
  if forallb (fun nq => if in_dec quantity_eq_dec (fst nq) (defined meso tke budget) then true else false) p then Ret p else Abort.

(** The averages over planes each process takes part in (FieldPlaneAveraging.cpp:313, :422: a sum over all processes):
    ABLStats.cpp:587-605, :746-786. *)
Inductive average : Set := AvgSfs | AvgTsfs | AvgKsgs | AvgBuoy | AvgShear | AvgDissip | AvgDiff.
Definition averages (io tke budget : bool) : list average :=
  [AvgSfs; AvgTsfs] ++ (if tke then [AvgKsgs] else []) ++
  (if io then (if budget then [AvgBuoy; AvgShear; AvgDissip; AvgDiff] else []) else []).
