(** The series of the Stokes expansion in t, where the steepness is 8 kappa t and
    kappa = coth(kd), as integer polynomials in v = kappa^2.  For a coefficient
    xx of the elevation or of the velocity times sinh, of order i, [Lxx] is
    8^i kappa^(i-1) xx; for the speed and the velocity times cosh it is
    8^i kappa^i xx.  Those of orders 4 and 5 are also multiplied by
    3 (5 v + 1) (5 v + 3).  Nothing here models code. *)
From Coq Require Import Reals ZArith List Lra Lia Psatz.
From Verif Require Import StokesPoly.
Import ListNotations.
Open Scope R_scope.

Definition Lb22 : kp := [0; (-16); 48]%Z.
Definition Lb31 : kp := [0; 24; (-72); 72; (-216)]%Z.
Definition Lb42 : kp := [0; 0; 1152; (-26112); (-139648); 225280; 602496; (-207360); (-259200)]%Z.
Definition Lb44 : kp := [0; 0; 2016; 3456; (-24992); 8192; 91296; 51840; 64800]%Z.
Definition Lb53 : kp := [0; 0; 0; (-12960); (-94176); (-56160); (-275616); 2743200; 5077728; (-1982880); (-1749600)]%Z.
Definition Lb55 : kp := [0; 0; 1800; (-6000); (-22800); 104720; (-155840); (-19920); 1034640; 356400; 243000]%Z.
Definition Lc2 : kp := [0; 36; (-40); 36]%Z.
Definition Lc4 : kp := [0; 0; 1404; 21996; 16956; (-332916); (-73452); 693540; (-132300); (-121500)]%Z.
Definition Lp31 : kp := [0; 312; (-328); (-24); (-216)]%Z.
Definition Lq31 : kp := [0; 0; 312; (-328); (-24); (-216)]%Z.
Definition Lp51 : kp := [0; 0; 20664; 294288; 722736; (-1823664); (-3155040); (-2194512); (-4790448); 2144880; 1506600]%Z.
Definition Lq51 : kp := [0; 0; 0; 20664; 294288; 722736; (-1823664); (-3155040); (-2194512); (-4790448); 2144880; 1506600]%Z.
Definition Lp33 : kp := [0; 104; 136; (-456); 216]%Z.
Definition Lq33 : kp := [0; 0; 312; (-424); 40; 72]%Z.
Definition Lp53 : kp := [0; 0; 49824; 489984; 1157760; (-1099008); (-5343552); (-483840); 6438528; 933120; (-1749600)]%Z.
Definition Lq53 : kp := [0; 0; 0; 149472; 1071360; 749184; (-4386816); (-3969216); 5112576; 3494016; (-1244160); (-583200)]%Z.
Definition Lp55 : kp := [0; 0; 25992; 365520; 959280; (-1889520); (-2158272); 3784560; (-390960); (-939600); 243000]%Z.
Definition Lq55 : kp := [0; 0; 0; 129960; 787920; (-51408); (-2914800); 677760; 3246960; (-2125872); 200880; 48600]%Z.
Definition Lp22 : kp := [0; (-48); 48]%Z.
Definition Lq22 : kp := [0; (-24); 0; 24]%Z.
Definition Lp42 : kp := [0; 0; (-19776); (-128192); (-90368); 380032; 490176; (-77760); (-259200)]%Z.
Definition Lq42 : kp := [0; 0; (-9888); (-73984); (-109280); 144832; 435104; 206208; (-168480); (-129600)]%Z.
Definition Lp44 : kp := [0; 0; (-18912); (-103232); 21216; 267392; (-67104); (-164160); 64800]%Z.
Definition Lq44 : kp := [0; 0; (-4728); (-49448); (-104824); 177688; 211928; (-286776); 39960; 16200]%Z.

Definition KD : kp := [9; 60; 75]%Z.
(** Chebyshev polynomials: cos n th = T_n (cos th), sin n th = sin th U_(n-1) (cos th). *)
Definition xz (l : list Z) : xp := map (fun c => match c with 0%Z => [] | _ => [c] end) l.
Definition T1 : xp := Eval compute in xz [0; 1]%Z.
Definition T2 : xp := Eval compute in xz [-1; 0; 2]%Z.
Definition T3 : xp := Eval compute in xz [0; -3; 0; 4]%Z.
Definition T4 : xp := Eval compute in xz [1; 0; -8; 0; 8]%Z.
Definition T5 : xp := Eval compute in xz [0; 5; 0; -20; 0; 16]%Z.
Definition U0 : xp := Eval compute in xz [1]%Z.
Definition U1 : xp := Eval compute in xz [0; 2]%Z.
Definition U2 : xp := Eval compute in xz [-1; 0; 4]%Z.
Definition U3 : xp := Eval compute in xz [0; -4; 0; 8]%Z.
Definition U4 : xp := Eval compute in xz [1; 0; -12; 0; 16]%Z.
Definition xsc (c : kp) (a : xp) : xp := map (kmul c) a.
Definition kneg (c : kp) : kp := map Z.opp c.
Definition from {A} (o n : nat) (z v : A) : A := if (n <=? o)%nat then v else z.
Definition V : kp := [0; 1]%Z.

Definition h_ser (o : nat) : dser :=
  let f n v := from o n [] v in
  ([ []; xsc [8]%Z T1; xsc (f 2%nat Lb22) T2; xsc (f 3%nat Lb31) (xadd T1 (xsc [-1]%Z T3)) ],
   [ xadd (xsc (f 4%nat Lb42) T2) (xsc (f 4%nat Lb44) T4);
     xadd (xsc (kneg (kadd (f 5%nat Lb53) (f 5%nat Lb55))) T1)
       (xadd (xsc (f 5%nat Lb53) T3) (xsc (f 5%nat Lb55) T5)) ]).
Definition hx_ser (o : nat) : dser :=
  let f n v := from o n [] v in
  ([ []; xsc [8]%Z U0; xsc (f 2%nat Lb22) (xsc [2]%Z U1); xsc (f 3%nat Lb31) (xadd U0 (xsc [-3]%Z U2)) ],
   [ xadd (xsc (f 4%nat Lb42) (xsc [2]%Z U1)) (xsc (f 4%nat Lb44) (xsc [4]%Z U3));
     xadd (xsc (kneg (kadd (f 5%nat Lb53) (f 5%nat Lb55))) U0)
       (xadd (xsc (f 5%nat Lb53) (xsc [3]%Z U2)) (xsc (f 5%nat Lb55) (xsc [5]%Z U4))) ]).
Definition c_ser (o : nat) : dser :=
  let f n v := from o n [] v in
  ([ [[1]%Z]; []; [f 2%nat Lc2] ], [ [f 4%nat Lc4] ]).
(** Amplitude of harmonic [n] with sinh (n kd) and with cosh (n kd). *)
Definition p_ser (o n : nat) : dser :=
  let f m v := from o m [] v in
  match n with
  | 1%nat => ([ []; [[8]%Z]; []; [f 3%nat Lp31] ], [ []; [f 5%nat Lp51] ])
  | 2%nat => ([ []; []; [f 2%nat Lp22] ], [ [f 4%nat Lp42] ])
  | 3%nat => ([ []; []; []; [f 3%nat Lp33] ], [ []; [f 5%nat Lp53] ])
  | 4%nat => ([], [ [f 4%nat Lp44] ])
  | _ => ([], [ []; [f 5%nat Lp55] ])
  end.
Definition q_ser (o n : nat) : dser :=
  let f m v := from o m [] v in
  match n with
  | 1%nat => ([ []; [[0; 8]%Z]; []; [f 3%nat Lq31] ], [ []; [f 5%nat Lq51] ])
  | 2%nat => ([ []; []; [f 2%nat Lq22] ], [ [f 4%nat Lq42] ])
  | 3%nat => ([ []; []; []; [f 3%nat Lq33] ], [ []; [f 5%nat Lq53] ])
  | 4%nat => ([], [ [f 4%nat Lq44] ])
  | _ => ([], [ []; [f 5%nat Lq55] ])
  end.
Definition d_k (c : kp) : dser := ([[c]], []).
Definition d_const (c : Z) : dser := d_k [c].
(** 120 cosh (kappa y) and 120 sinh (kappa y) / kappa of a series without constant term. *)
Definition cosh_ser (N : nat) (y : dser) : dser :=
  let y2 := dmul N (d_k V) (dmul N y y) in
  dadd (d_const 120) (dadd (dmul N (d_const 60) y2) (dmul N (d_const 5) (dmul N y2 y2))).
Definition sinh_ser (N : nat) (y : dser) : dser :=
  let y2 := dmul N (d_k V) (dmul N y y) in let y3 := dmul N y y2 in
  dadd (dmul N (d_const 120) y) (dadd (dmul N (d_const 20) y3) (dmul N y2 y3)).
Definition Tn (n : nat) : xp := nth (n - 1) [T1; T2; T3; T4; T5] [].
Definition Un (n : nat) : xp := nth (n - 1) [U0; U1; U2; U3; U4] [].
Definition harm_u (N o n : nat) : dser :=
  let y := dmul N (d_const (Z.of_nat n)) (h_ser o) in
  dmul N (dadd (dmul N (q_ser o n) (cosh_ser N y)) (dmul N (d_k V) (dmul N (p_ser o n) (sinh_ser N y)))) ([xsc [Z.of_nat n] (Tn n)], []).
Definition harm_w (N o n : nat) : dser :=
  let y := dmul N (d_const (Z.of_nat n)) (h_ser o) in
  dmul N (dadd (dmul N (p_ser o n) (cosh_ser N y)) (dmul N (q_ser o n) (sinh_ser N y))) ([xsc [Z.of_nat n] (Un n)], []).
Definition u_ser (N o : nat) : dser :=
  dadd (harm_u N o 1) (dadd (harm_u N o 2) (dadd (harm_u N o 3) (dadd (harm_u N o 4) (harm_u N o 5)))).
Definition w_ser (N o : nat) : dser :=
  dadd (harm_w N o 1) (dadd (harm_w N o 2) (dadd (harm_w N o 3) (dadd (harm_w N o 4) (harm_w N o 5)))).
(** 120 (u - c), the kinematic residual over kappa and the Bernoulli sum. *)
Definition rel_ser (N o : nat) : dser := dadd (u_ser N o) (dmul N (d_const (-120)) (c_ser o)).
Definition kin_ser (N o : nat) : dser := dadd (w_ser N o) (dmul N (rel_ser N o) (hx_ser o)).
Definition dyn_ser (N o : nat) : dser :=
  let r := rel_ser N o in let w := w_ser N o in
  dadd (dmul N (d_k V) (dmul N (d_const 28800) (h_ser o)))
    (dadd (dmul N r r) (dmul N (d_k V) (dmul N ([xz [1; 0; -1]%Z], []) (dmul N w w)))).

(** KD times a series. *)
Definition clear (a : dser) : ser := sadd (smul [[KD]] (fst a)) ([] :: [] :: [] :: [] :: snd a).
Definition check (o : nat) : bool :=
  (forallb xzero (clear (kin_ser (S o) o)) && forallb xconst (clear (dyn_ser (S o) o)))%bool.
Lemma check2 : check 2 = true. Proof. vm_compute. reflexivity. Qed.
Lemma check3 : check 3 = true. Proof. vm_compute. reflexivity. Qed.
Lemma check4 : check 4 = true. Proof. vm_compute. reflexivity. Qed.
Lemma check5 : check 5 = true. Proof. vm_compute. reflexivity. Qed.
Lemma check_all : forall o, (2 <= o <= 5)%nat -> check o = true.
Proof.
  intros o H. do 2 (destruct o as [|o]; [lia|]).
  destruct o as [|o]; [exact check2|]. destruct o as [|o]; [exact check3|]. destruct o as [|o]; [exact check4|].
  destruct o as [|o]; [exact check5|lia].
Qed.
