(** Profile assimilation: the momentum and temperature sources that pull the planar means of a
    simulation towards profiles given over time (wind_energy/ABLMesoscaleForcing.cpp,
    ABLMesoForcingMom.cpp, ABLMesoForcingTemp.cpp).

    Exact rationals; std::pow is only called with the integer exponents 0 to 6.  A profile with
    an entry that is not finite (a division by zero) is [None].  The planar means and their
    heights (line_average, line_centroids) and the content of the NetCDF file are arguments.
    Not modelled: messages, copies to the device, the NetCDF calls. *)
From Coq Require Import String Ascii.
From Verif Require Import Base Interp BoundaryCond.
Import ListNotations.
Close Scope string_scope.
Open Scope list_scope.
Open Scope Q_scope.

(** ** Input *)

(** [s] ends with [suffix]: std::string::ends_with. *)
Fixpoint ends_with (s suffix : string) : bool :=
  (String.eqb s suffix || match s with EmptyString => false | String _ r => ends_with r suffix end)%bool.

(** ABLMesoscaleForcing.cpp:20-84: the entries of the source term in the input file, and the
    vertical extent of the domain.  [mc_scheme] is empty if not given. *)
Record mcfg : Type := MC {
  mc_scheme : string; mc_gain : Q; mc_transition : option string;
  mc_weights : option (list Q * list Q); mc_thickness : option Q; mc_height : option Q;
  mc_norm : bool; mc_zmin : Q; mc_zmax : Q }.
Definition transition (c : mcfg) : string :=
  match mc_transition c with Some s => s | None => "none"%string end.
Definition indirect (c : mcfg) : bool := String.eqb (to_lower (mc_scheme c)) "indirect".
(** ABLMesoscaleForcing.H:87-90, 92-99 *)
Definition have_transition (c : mcfg) : bool := negb (String.eqb (to_lower (transition c)) "none").
Definition to_constant (c : mcfg) : bool :=
  if (String.length (transition c) <? 8)%nat then false else ends_with (transition c) "Constant".
Definition to_direct (c : mcfg) : bool := String.eqb (to_lower (transition c)) "indirecttodirect".

(** Members of the object: transition height and thickness ([None]: never written), the
    regression weights and the blending profile as tables over the height. *)
Record mstate : Type := MS {
  ms_height : option Q; ms_thickness : option Q; ms_variable : bool;
  ms_wh : list Q; ms_wv : list Q; ms_bh : list Q; ms_bv : list Q; ms_scale : Q }.

(** ABLMesoscaleForcing.cpp:88-108 (set_transition_weighting) *)
Definition set_transition_weighting (c : mcfg) (s : mstate) (h t : Q) : mstate :=
  let bh := [mc_zmin c; h; h + t; mc_zmax c] in
  let bv := [1; 1; 0; 0] in
  match mc_weights c with
  | Some _ => MS (Some h) (Some t) (ms_variable s) (ms_wh s) (ms_wv s) bh bv (ms_scale s)
  | None => MS (Some h) (Some t) (ms_variable s) bh bv bh bv (ms_scale s)
  end.

(** ABLMesoscaleForcing.cpp:14-86 (constructor).  The given weighting values are printed before
    their number is compared with that of the heights. *)
Definition construct (c : mcfg) : outcome mstate :=
  let s0 := MS None None false [] [] [] [] (1 # 1000) in
  if indirect c then
    let given := match mc_weights c with
      | None => Ret s0
      | Some (wh, wv) =>
          if (length wv <? length wh)%nat then UB
          else if (length wv =? length wh)%nat then Ret (MS None None false wh wv [] [] (1 # 1000)) else Abort
      end in
    obind given (fun s1 =>
    let weighted :=
      if have_transition c then
        match mc_thickness c with
        | None => Abort
        | Some t => match mc_height c with
            | Some h => Ret (set_transition_weighting c s1 h t)
            | None => Ret (MS None (Some t) true (ms_wh s1) (ms_wv s1) [] [] (ms_scale s1))
            end
        end
      else match mc_weights c with
        | Some _ => Ret s1
        | None => Ret (MS None None false [mc_zmin c; mc_zmax c] [1; 1] [] [] (ms_scale s1))
        end in
    obind weighted (fun s2 =>
    if mc_norm c then Ret (MS (ms_height s2) (ms_thickness s2) (ms_variable s2) (ms_wh s2) (ms_wv s2) (ms_bh s2) (ms_bv s2) (1 / mc_zmax c))
    else Ret s2))
  else Ret s0.

(** ABLMesoscaleForcing.cpp:110-127 (update_weights): regression and blending weights at the
    heights [zs] of the planar means *)
Definition update_weights (c : mcfg) (s : mstate) (zs : list Q) : outcome (list Q * list Q) :=
  obind (linear_list (ms_wh s) (ms_wv s) zs 1 0) (fun W =>
  if have_transition c then obind (linear_list (ms_bh s) (ms_bv s) zs 1 0) (fun B => Ret (W, B))
  else Ret (W, map (fun _ => 0) zs)).

(** ** Regression *)

Definition mat : Type := nat -> nat -> Q.
Definition ent (m : mat) (i j : nat) : Q := m i j.
Fixpoint qpow (x : Q) (n : nat) : Q := match n with O => 1 | S k => x * qpow x k end.
(** The sum over the heights, from the first on. *)
Definition total (l : list Q) : Q := fold_left Qplus l 0.
Definition sum4 (f : nat -> Q) : Q := 0 + f 0%nat + f 1%nat + f 2%nat + f 3%nat.

(** ABLMesoscaleForcing.cpp:151-169: Z^T W Z *)
Definition gram (W zs : list Q) (sc : Q) : mat := fun i j =>
  total (map (fun wz => fst wz * qpow (snd wz * sc) (j + i)) (combine W zs)).

(** ABLMesoscaleForcing.cpp:179-202: the determinant *)
Definition det4 (m : mat) : Q :=
  let A2323 := (ent m 2 2 * ent m 3 3) - (ent m 2 3 * ent m 3 2) in
  let A1323 := (ent m 2 1 * ent m 3 3) - (ent m 2 3 * ent m 3 1) in
  let A1223 := (ent m 2 1 * ent m 3 2) - (ent m 2 2 * ent m 3 1) in
  let A0323 := (ent m 2 0 * ent m 3 3) - (ent m 2 3 * ent m 3 0) in
  let A0223 := (ent m 2 0 * ent m 3 2) - (ent m 2 2 * ent m 3 0) in
  let A0123 := (ent m 2 0 * ent m 3 1) - (ent m 2 1 * ent m 3 0) in
  let A2313 := (ent m 1 2 * ent m 3 3) - (ent m 1 3 * ent m 3 2) in
  let A1313 := (ent m 1 1 * ent m 3 3) - (ent m 1 3 * ent m 3 1) in
  let A1213 := (ent m 1 1 * ent m 3 2) - (ent m 1 2 * ent m 3 1) in
  let A2312 := (ent m 1 2 * ent m 2 3) - (ent m 1 3 * ent m 2 2) in
  let A1312 := (ent m 1 1 * ent m 2 3) - (ent m 1 3 * ent m 2 1) in
  let A1212 := (ent m 1 1 * ent m 2 2) - (ent m 1 2 * ent m 2 1) in
  let A0313 := (ent m 1 0 * ent m 3 3) - (ent m 1 3 * ent m 3 0) in
  let A0213 := (ent m 1 0 * ent m 3 2) - (ent m 1 2 * ent m 3 0) in
  let A0312 := (ent m 1 0 * ent m 2 3) - (ent m 1 3 * ent m 2 0) in
  let A0212 := (ent m 1 0 * ent m 2 2) - (ent m 1 2 * ent m 2 0) in
  let A0113 := (ent m 1 0 * ent m 3 1) - (ent m 1 1 * ent m 3 0) in
  let A0112 := (ent m 1 0 * ent m 2 1) - (ent m 1 1 * ent m 2 0) in
  (ent m 0 0 * (ent m 1 1 * A2323 - ent m 1 2 * A1323 + ent m 1 3 * A1223)) - (ent m 0 1 * (ent m 1 0 * A2323 - ent m 1 2 * A0323 + ent m 1 3 * A0223)) + (ent m 0 2 * (ent m 1 0 * A1323 - ent m 1 1 * A0323 + ent m 1 3 * A0123)) - (ent m 0 3 * (ent m 1 0 * A1223 - ent m 1 1 * A0223 + ent m 1 2 * A0123)).
(** ABLMesoscaleForcing.cpp:174-229 (invert_mat); division by a zero determinant gives entries
    that are not finite *)
Definition invert_mat (m : mat) : option mat :=
  if Qeq_bool (det4 m) 0 then None else
  let d := 1 / det4 m in
  let A2323 := (ent m 2 2 * ent m 3 3) - (ent m 2 3 * ent m 3 2) in
  let A1323 := (ent m 2 1 * ent m 3 3) - (ent m 2 3 * ent m 3 1) in
  let A1223 := (ent m 2 1 * ent m 3 2) - (ent m 2 2 * ent m 3 1) in
  let A0323 := (ent m 2 0 * ent m 3 3) - (ent m 2 3 * ent m 3 0) in
  let A0223 := (ent m 2 0 * ent m 3 2) - (ent m 2 2 * ent m 3 0) in
  let A0123 := (ent m 2 0 * ent m 3 1) - (ent m 2 1 * ent m 3 0) in
  let A2313 := (ent m 1 2 * ent m 3 3) - (ent m 1 3 * ent m 3 2) in
  let A1313 := (ent m 1 1 * ent m 3 3) - (ent m 1 3 * ent m 3 1) in
  let A1213 := (ent m 1 1 * ent m 3 2) - (ent m 1 2 * ent m 3 1) in
  let A2312 := (ent m 1 2 * ent m 2 3) - (ent m 1 3 * ent m 2 2) in
  let A1312 := (ent m 1 1 * ent m 2 3) - (ent m 1 3 * ent m 2 1) in
  let A1212 := (ent m 1 1 * ent m 2 2) - (ent m 1 2 * ent m 2 1) in
  let A0313 := (ent m 1 0 * ent m 3 3) - (ent m 1 3 * ent m 3 0) in
  let A0213 := (ent m 1 0 * ent m 3 2) - (ent m 1 2 * ent m 3 0) in
  let A0312 := (ent m 1 0 * ent m 2 3) - (ent m 1 3 * ent m 2 0) in
  let A0212 := (ent m 1 0 * ent m 2 2) - (ent m 1 2 * ent m 2 0) in
  let A0113 := (ent m 1 0 * ent m 3 1) - (ent m 1 1 * ent m 3 0) in
  let A0112 := (ent m 1 0 * ent m 2 1) - (ent m 1 1 * ent m 2 0) in
  Some (fun i j =>
    match i, j with
    | 0%nat, 0%nat => d * (ent m 1 1 * A2323 - ent m 1 2 * A1323 + ent m 1 3 * A1223)
    | 0%nat, 1%nat => d * - ((ent m 0 1 * A2323) - (ent m 0 2 * A1323) + (ent m 0 3 * A1223))
    | 0%nat, 2%nat => d * (ent m 0 1 * A2313 - ent m 0 2 * A1313 + ent m 0 3 * A1213)
    | 0%nat, 3%nat => d * - ((ent m 0 1 * A2312) - (ent m 0 2 * A1312) + (ent m 0 3 * A1212))
    | 1%nat, 0%nat => d * - ((ent m 1 0 * A2323) - (ent m 1 2 * A0323) + (ent m 1 3 * A0223))
    | 1%nat, 1%nat => d * (ent m 0 0 * A2323 - ent m 0 2 * A0323 + ent m 0 3 * A0223)
    | 1%nat, 2%nat => d * - ((ent m 0 0 * A2313) - (ent m 0 2 * A0313) + (ent m 0 3 * A0213))
    | 1%nat, 3%nat => d * (ent m 0 0 * A2312 - ent m 0 2 * A0312 + ent m 0 3 * A0212)
    | 2%nat, 0%nat => d * (ent m 1 0 * A1323 - ent m 1 1 * A0323 + ent m 1 3 * A0123)
    | 2%nat, 1%nat => d * - ((ent m 0 0 * A1323) - (ent m 0 1 * A0323) + (ent m 0 3 * A0123))
    | 2%nat, 2%nat => d * (ent m 0 0 * A1313 - ent m 0 1 * A0313 + ent m 0 3 * A0113)
    | 2%nat, 3%nat => d * - ((ent m 0 0 * A1312) - (ent m 0 1 * A0312) + (ent m 0 3 * A0112))
    | 3%nat, 0%nat => d * - ((ent m 1 0 * A1223) - (ent m 1 1 * A0223) + (ent m 1 2 * A0123))
    | 3%nat, 1%nat => d * (ent m 0 0 * A1223 - ent m 0 1 * A0223 + ent m 0 2 * A0123)
    | 3%nat, 2%nat => d * - ((ent m 0 0 * A1213) - (ent m 0 1 * A0213) + (ent m 0 2 * A0113))
    | 3%nat, 3%nat => d * (ent m 0 0 * A1212 - ent m 0 1 * A0212 + ent m 0 2 * A0112)
    | _, _ => 0
    end).

(** ABLMesoForcingTemp.cpp:163-173: Z^T W y *)
Definition rhs_temp (W zs : list Q) (sc : Q) (e : list Q) (i : nat) : outcome Q :=
  Ret (total (map (fun x => snd x * fst (fst x) * qpow (snd (fst x) * sc) i) (combine (combine W zs) e))).
(** ABLMesoForcingMom.cpp:171-186: the weight is read at the index of the power *)
Definition rhs_mom (W zs : list Q) (sc : Q) (e : list Q) (i : nat) : outcome Q :=
  obind (rd W i) (fun w =>
  Ret (total (map (fun x => snd x * w * qpow (snd (fst x) * sc) i) (combine (combine W zs) e)))).

Inductive quantity : Set := Momentum | Temperature.
Definition rhs (k : quantity) : list Q -> list Q -> Q -> list Q -> nat -> outcome Q :=
  match k with Momentum => rhs_mom | Temperature => rhs_temp end.

(** ABLMesoForcingTemp.cpp:175-181, ABLMesoForcingMom.cpp:188-197: coefficients *)
Definition coeffs (im : mat) (b : nat -> Q) (i : nat) : Q := sum4 (fun j => im i j * b j).
(** ABLMesoForcingTemp.cpp:187-196, ABLMesoForcingMom.cpp:205-219 *)
Definition poly (p : nat -> Q) (sc z : Q) : Q := sum4 (fun j => p j * qpow (z * sc) j).
Definition fit (k : quantity) (W zs : list Q) (sc : Q) (e : list Q) : outcome (option (list Q)) :=
  obind (rhs k W zs sc e 0) (fun b0 => obind (rhs k W zs sc e 1) (fun b1 =>
  obind (rhs k W zs sc e 2) (fun b2 => obind (rhs k W zs sc e 3) (fun b3 =>
  match invert_mat (gram W zs sc) with
  | None => Ret None
  | Some im =>
      let b := fun i => match i with 0 => b0 | 1 => b1 | 2 => b2 | _ => b3 end%nat in
      Ret (Some (map (poly (coeffs im b) sc) zs))
  end)))).

(** ABLMesoscaleForcing.cpp:287-297 (blend_forcings) *)
Definition blend (B lower upper : list Q) : list Q :=
  map (fun x => fst (fst x) * snd (fst x) + (1 - fst (fst x)) * snd x) (combine (combine B lower) upper).

(** ** Transition to a constant *)

(** ABLMesoscaleForcing.cpp:237-248: the loop that finds the bottom and the top of the layer *)
Fixpoint find_levels (zs : list Q) (h t : Q) (i : nat) (b1 : option nat) : option nat * option nat :=
  match zs with
  | [] => (b1, None)
  | z :: r =>
      match b1 with
      | None => if Qleb h z then find_levels r h t (S i) (Some i)
                else if Qleb (h + t) z then (None, Some i) else find_levels r h t (S i) None
      | Some _ => if Qleb (h + t) z then (b1, Some i) else find_levels r h t (S i) b1
      end
  end.
(** ABLMesoscaleForcing.cpp:250-260: (hLevelBlend1, hLevelBlendMax) *)
Definition levels (zs : list Q) (h t : Q) : nat * nat :=
  match find_levels zs h t 0 None with
  | (None, _) => ((length zs - 1)%nat, (length zs - 1)%nat)
  | (Some b, None) => (b, (length zs - 1)%nat)
  | (Some b, Some m) => (b, m)
  end.
Definition qnth (l : list Q) (i : nat) : Q := nth i l 0.
Definition upd (l : list Q) (i : nat) (v : Q) : list Q := firstn i l ++ v :: skipn (S i) l.
(** ABLMesoscaleForcing.cpp:275-279: [n] passes of the loop from level [i] on *)
Fixpoint march (zs : list Q) (slope0 dslope : Q) (b1 n i : nat) (e : list Q) : list Q :=
  match n with
  | O => e
  | S n' =>
      let slope := slope0 + dslope * (qnth zs i - qnth zs b1) in
      march zs slope0 dslope b1 n' (S i) (upd e i (qnth e (i - 1) + slope * (qnth zs i - qnth zs (i - 1))))
  end.
(** ABLMesoscaleForcing.cpp:231-285 (constant_forcing_transition).  With the bottom at the first
    level, entry -1 is read.  If the bottom was not found, hLevelBlend0 = hLevelBlend1. *)
Definition constant_transition (zs : list Q) (h t : Q) (e : list Q) : outcome (option (list Q)) :=
  match zs with
  | [] => UB
  | _ =>
    let '(b1, bm) := levels zs h t in
    let found := match fst (find_levels zs h t 0 None) with Some _ => true | None => false end in
    if (found && (b1 =? 0)%nat)%bool then UB else
    let b0 := if found then (b1 - 1)%nat else b1 in
    if Qeq_bool (qnth zs b1 - qnth zs b0) 0 then Ret None else
    if Qeq_bool (qnth zs bm - qnth zs b1) 0 then Ret None else
    let slope0 := (qnth e b1 - qnth e b0) / (qnth zs b1 - qnth zs b0) in
    let dslope := - slope0 / (qnth zs bm - qnth zs b1) in
    let e' := march zs slope0 dslope b1 (S bm - b1) b1 e in
    Ret (Some (firstn (S bm) e' ++ map (fun _ => qnth e' bm) (skipn (S bm) e')))
  end.

(** ** The source *)

(** ABLMesoscaleInput.cpp:10-69: what is read from the file, times outermost.  Without the
    variable transition_height its table holds zeros. *)
Record meso : Type := ME { me_times : list Q; me_heights : list Q; me_vals : list Q; me_tflux : list Q; me_trans : option (list Q) }.
Definition trans_table (f : meso) : list Q :=
  match me_trans f with Some l => l | None => map (fun _ => 0) (me_times f) end.

(** ABLMesoForcingMom.cpp:146-153, ABLMesoForcingTemp.cpp:137-143: target minus mean *)
Fixpoint errors (f : meso) (time : Q) (zs means : list Q) : outcome (list Q) :=
  match zs, means with
  | [], _ => Ret []
  | z :: zr, m :: mr =>
      obind (bilinear (me_times f) (me_heights f) (me_vals f) time z) (fun v =>
      obind (errors f time zr mr) (fun l => Ret ((v - m) :: l)))
  | _ :: _, [] => UB
  end.

(** ABLMesoForcingMom.cpp:155-166, ABLMesoForcingTemp.cpp:145-159 *)
Definition current_state (c : mcfg) (s : mstate) (f : meso) (time : Q) : outcome mstate :=
  if ms_variable s then
    obind (linear (me_times f) (trans_table f) time 1 0) (fun h =>
    match ms_thickness s with Some t => Ret (set_transition_weighting c s h t) | None => UB end)
  else Ret s.

(** ABLMesoForcingMom.cpp:125-267, ABLMesoForcingTemp.cpp:119-235 (mean_velocity_heights for one
    component, mean_temperature_heights), with a given forcing scheme: forcing at the heights *)
Definition profile (k : quantity) (c : mcfg) (s : mstate) (f : meso) (time dt : Q) (zs means : list Q)
    : outcome (option (list Q)) :=
  obind (errors f time zs means) (fun e =>
  obind (if indirect c then
           obind (current_state c s f time) (fun s1 =>
           obind (update_weights c s1 zs) (fun WB =>
           obind (fit k (fst WB) zs (ms_scale s1) e) (fun r =>
           Ret (match r with
                | None => None
                | Some p => Some (if to_direct c then blend (snd WB) p e else p)
                end, s1))))
         else Ret (Some e, s)) (fun rs =>
  obind (if to_constant c then
           match fst rs with
           | None => Ret None
           | Some p => match ms_height (snd rs), ms_thickness (snd rs) with
                       | Some h, Some t => constant_transition zs h t p
                       | _, _ => UB
                       end
           end
         else Ret (fst rs)) (fun r =>
  Ret (option_map (map (fun x => x * mc_gain c / dt)) r)))).

(** ABLMesoForcingMom.cpp:89-123, ABLMesoForcingTemp.cpp:98-110: the tendency of the file at the
    heights of the file *)
Fixpoint tendency (f : meso) (time : Q) (n : nat) : outcome (list Q) :=
  match n with
  | O => Ret []
  | S k => obind (tendency f time k) (fun l =>
           obind (linear (me_times f) (me_vals f) time (length (me_heights f)) k) (fun v => Ret (l ++ [v])))
  end.

(** ABLMesoForcingMom.cpp:269-308, ABLMesoForcingTemp.cpp:237-271: what a cell whose centre is at
    height [z] receives; [tend] is ABL.tendency_forcing *)
Definition source (k : quantity) (tend : bool) (c : mcfg) (s : mstate) (f : meso) (time dt : Q)
    (zs means : list Q) (z : Q) : outcome (option Q) :=
  if String.eqb (mc_scheme c) "" then Ret (Some 0)
  else if tend then
    obind (tendency f time (length (me_heights f))) (fun p =>
    obind (linear (me_heights f) p z 1 0) (fun v => Ret (Some v)))
  else
    obind (profile k c s f time dt zs means) (fun r =>
    match r with
    | None => Ret None
    | Some p => obind (linear zs p z 1 0) (fun v => Ret (Some v))
    end).
(** ABLMesoForcingTemp.cpp:90-96, 127-133: the surface flux handed to the wall model *)
Definition surface_flux (f : meso) (time : Q) : outcome Q := linear (me_times f) (me_tflux f) time 1 0.
