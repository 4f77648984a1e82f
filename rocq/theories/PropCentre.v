(** C107: exchange with a control centre. *)
From Coq Require Import List ZArith Ascii Bool Lia Lra Relations.
From Verif Require Import Base BoxR BoxRFacts VecSpace VecSpaceSpec VecSpaceProofs Wing WingSpec WingProofs JoukProofs Centre CentreSpec.
Import ListNotations.
Open Scope R_scope.

(** *** Messages *)

Lemma find_plain f r i : plain f -> find_at (f ++ comma :: r) i = (i + Z.of_nat (length f))%Z.
Proof.
  revert i. induction f as [|a f IH]; intros i H; cbn [app find_at].
  - rewrite Ascii.eqb_refl. cbn. lia.
  - destruct (Ascii.eqb_spec a comma) as [E|E]; [exfalso; apply H; left; exact E|].
    rewrite IH by (intros J; apply H; right; exact J). cbn [length]. lia.
Qed.
Lemma find_none f i : plain f -> find_at f i = (-1)%Z.
Proof.
  revert i. induction f as [|a f IH]; intros i H; [reflexivity|]. cbn [find_at].
  destruct (Ascii.eqb_spec a comma) as [E|E]; [exfalso; apply H; left; exact E|]. apply IH. intros J; apply H; right; exact J.
Qed.
Lemma joined_cons f fs : fs <> [] -> joined (f :: fs) = f ++ comma :: joined fs.
Proof. destruct fs; [congruence|reflexivity]. Qed.
Lemma skip_pre {A} (p r : list A) : skipn (length p) (p ++ r) = r.
Proof. rewrite skipn_app, skipn_all, Nat.sub_diag. reflexivity. Qed.
Lemma first_pre {A} (p r : list A) : firstn (length p) (p ++ r) = p.
Proof. rewrite firstn_app, Nat.sub_diag, firstn_all. cbn. apply app_nil_r. Qed.
Lemma joined_length fs : (length fs <= S (length (joined fs)))%nat.
Proof.
  induction fs as [|f fs IH]; [cbn; lia|]. destruct fs as [|g fs]; [cbn; lia|].
  rewrite joined_cons by discriminate. rewrite app_length. cbn [length] in *. lia.
Qed.

Lemma loop_end fuel s e acc : (e <= 0)%Z -> tok_loop fuel s e acc = Ret acc.
Proof. intros H. destruct fuel; [reflexivity|]. cbn [tok_loop]. replace (0 <? e)%Z with false by (symmetry; apply Z.ltb_ge; exact H). reflexivity. Qed.

Lemma loop_fields : forall fs pre fuel acc, fs <> [] -> Forall plain fs -> pre <> [] -> (length fs <= fuel)%nat ->
  tok_loop fuel (pre ++ comma :: joined fs) (Z.of_nat (length pre)) acc = Ret (rev fs ++ acc).
Proof.
  induction fs as [|f fs IH]; intros pre fuel acc NE PL PN F; [congruence|].
  inversion_clear PL as [|? ? Pf PL']. destruct fuel as [|fuel]; [cbn in F; lia|].
  set (s := pre ++ comma :: joined (f :: fs)).
  assert (L0 : (0 < Z.of_nat (length pre))%Z) by (destruct pre; [congruence|cbn; lia]).
  cbn [tok_loop]. replace (0 <? Z.of_nat (length pre))%Z with true by (symmetry; apply Z.ltb_lt; exact L0).
  assert (SK : skipn (Z.to_nat (Z.of_nat (length pre) + 1)) s = joined (f :: fs)).
  { replace (Z.to_nat (Z.of_nat (length pre) + 1)) with (length (pre ++ [comma])) by (rewrite app_length; cbn; lia).
    unfold s. replace (pre ++ comma :: joined (f :: fs)) with ((pre ++ [comma]) ++ joined (f :: fs)) by (rewrite <- app_assoc; reflexivity).
    apply skip_pre. }
  assert (LS : (Z.of_nat (length s) <? Z.of_nat (length pre) + 1)%Z = false).
  { apply Z.ltb_ge. unfold s. rewrite app_length. cbn [length]. lia. }
  unfold find. rewrite SK. destruct fs as [|g fs].
  - cbn [joined] in *. rewrite find_none by exact Pf. change (-1 =? -1)%Z with true. cbv iota. unfold substr. rewrite LS, SK.
    replace (-2 - (Z.of_nat (length pre) + 1) <? 0)%Z with true by (symmetry; apply Z.ltb_lt; lia). cbn [obind].
    rewrite loop_end by lia. reflexivity.
  - rewrite joined_cons by discriminate. rewrite find_plain by exact Pf.
    replace (Z.of_nat (length pre) + 1 + Z.of_nat (length f) =? -1)%Z with false by (symmetry; apply Z.eqb_neq; lia).
    unfold substr. rewrite LS, SK. rewrite joined_cons by discriminate.
    replace (Z.of_nat (length pre) + 1 + Z.of_nat (length f) - (Z.of_nat (length pre) + 1))%Z with (Z.of_nat (length f)) by lia.
    replace (Z.of_nat (length f) <? 0)%Z with false by (symmetry; apply Z.ltb_ge; lia). rewrite Nat2Z.id, first_pre. cbn [obind].
    specialize (IH (pre ++ comma :: f) fuel (f :: acc) ltac:(discriminate) PL' ltac:(destruct pre; discriminate) ltac:(cbn in *; lia)).
    replace ((pre ++ comma :: f) ++ comma :: joined (g :: fs)) with s in IH
      by (unfold s; rewrite (joined_cons f) by discriminate; rewrite <- app_assoc; reflexivity).
    replace (Z.of_nat (length (pre ++ comma :: f))) with (Z.of_nat (length pre) + 1 + Z.of_nat (length f))%Z in IH
      by (rewrite app_length; cbn [length]; lia).
    rewrite IH. cbn [rev]. rewrite <- !app_assoc. reflexivity.
Qed.

Lemma tokens f0 fs : f0 <> [] -> fs <> [] -> Forall plain (f0 :: fs) ->
  tokenize (joined (f0 :: fs)) = Ret (rev fs ++ [tl f0 ++ [comma]]).
Proof.
  intros N0 NE PL. inversion_clear PL as [|? ? P0 PL']. unfold tokenize, find. cbn [Z.to_nat skipn].
  rewrite joined_cons by exact NE. rewrite find_plain by exact P0. destruct f0 as [|a f0]; [congruence|].
  unfold substr. replace (Z.of_nat (length ((a :: f0) ++ comma :: joined fs)) <? 1)%Z with false
    by (symmetry; apply Z.ltb_ge; cbn [app length]; lia).
  replace (0 + Z.of_nat (length (a :: f0)) - 0 <? 0)%Z with false by (symmetry; apply Z.ltb_ge; lia).
  change (Z.to_nat 1) with 1%nat. cbn [app skipn tl].
  replace (Z.to_nat (0 + Z.of_nat (length (a :: f0)) - 0)) with (length (f0 ++ [comma])) by (rewrite app_length; cbn; lia).
  replace (f0 ++ comma :: joined fs) with ((f0 ++ [comma]) ++ joined fs) at 1 by (rewrite <- app_assoc; reflexivity).
  rewrite first_pre. cbn [obind].
  replace (0 + Z.of_nat (length (a :: f0)))%Z with (Z.of_nat (length (a :: f0))) by lia.
  apply (loop_fields fs (a :: f0)); [exact NE|exact PL'|discriminate|].
  pose proof (joined_length fs). cbn [app length]. rewrite app_length. cbn [length]. lia.
Qed.

Lemma yaws_pop : forall ys l acc, pop_yaws (length ys) (rev ys ++ l) acc = Ret (ys ++ acc, l).
Proof.
  induction ys as [|y ys IH] using rev_ind; intros l acc; [reflexivity|].
  rewrite app_length, Nat.add_1_r, rev_app_distr. cbn [rev app pop_yaws pop obind fst snd]. rewrite IH. rewrite <- app_assoc. reflexivity.
Qed.
Lemma yaws_some : forall n l acc ys r, pop_yaws n l acc = Ret (ys, r) -> length l = (n + length r)%nat /\ length ys = (n + length acc)%nat.
Proof.
  induction n as [|n IH]; intros l acc ys r; cbn [pop_yaws].
  - intros E. injection E as <- <-. lia.
  - destruct l as [|a l]; cbn [pop obind fst snd]; [discriminate|]. intros E. apply IH in E. cbn [length] in *. lia.
Qed.
Lemma yaws_no_abort : forall n l acc, pop_yaws n l acc <> Abort.
Proof. induction n as [|n IH]; intros l acc; cbn [pop_yaws]; [discriminate|]. destruct l; cbn [pop obind fst snd]; [discriminate|apply IH]. Qed.

Lemma unpack_fields atof f0 ex sp dir ys a b : f0 <> [] -> Forall plain (f0 :: ex ++ sp :: dir :: ys ++ [a; b]) ->
  unpack atof (length ys) (joined (f0 :: ex ++ sp :: dir :: ys ++ [a; b])) = Ret (Cmd (atof sp) (atof dir) (map atof ys)).
Proof.
  intros N0 PL. unfold unpack. rewrite tokens; [|exact N0|destruct ex; discriminate|exact PL]. cbn [obind].
  rewrite rev_app_distr. cbn [rev]. rewrite rev_app_distr. cbn [rev app]. rewrite <- !app_assoc. cbn [app map pop obind fst snd].
  rewrite map_app, map_rev. replace (length ys) with (length (map atof ys)) by apply map_length.
  rewrite yaws_pop. cbn [obind fst snd map pop]. rewrite app_nil_r.
  rewrite map_app. match goal with |- context [pop (?x ++ _)] => destruct x end; reflexivity.
Qed.

(** A message of time, speed, direction, one angle for each turbine and two more fields sets exactly these values, whatever
    is written in the fields. *)
Theorem c107_message : forall atof time speed dir yaws a b,
  time <> [] -> Forall plain (time :: speed :: dir :: yaws ++ [a; b]) ->
  unpack atof (length yaws) (joined (time :: speed :: dir :: yaws ++ [a; b])) =
  Ret (Cmd (atof speed) (atof dir) (map atof yaws)).
Proof. intros. apply (unpack_fields atof time [] speed dir yaws a b); assumption. Qed.

(** A message for one turbine more is taken too: the direction becomes the speed, the angle of the first turbine the
    direction, and each turbine gets the angle of the next one. *)
Theorem c107_extra_refuted : forall atof time speed dir y yaws a b,
  time <> [] -> Forall plain (time :: speed :: dir :: y :: yaws ++ [a; b]) ->
  unpack atof (length yaws) (joined (time :: speed :: dir :: (y :: yaws) ++ [a; b])) =
  Ret (Cmd (atof dir) (atof y) (map atof yaws)).
Proof. intros. apply (unpack_fields atof time [speed] dir y yaws a b); assumption. Qed.

(** Which messages are taken: those with enough fields and a first one that is not empty.  The empty message ends the run
    with an exception; all others read from an empty list. *)
Theorem c107_accepted : forall atof n fs, fs <> [] -> Forall plain fs ->
  (unpack atof n (joined fs) = Abort <-> joined fs = []) /\
  ((exists k, unpack atof n (joined fs) = Ret k) <-> (n + 5 <= length fs)%nat /\ hd [] fs <> []).
Proof.
  intros atof n fs NE PL. destruct fs as [|f0 fs]; [congruence|]. cbn [hd].
  destruct fs as [|f1 fs].
  { inversion_clear PL as [|? ? P0 _]. cbn [joined]. unfold unpack, tokenize, find. cbn [Z.to_nat skipn]. rewrite find_none by exact P0.
    destruct f0 as [|a f0].
    - unfold substr. cbn. split; [tauto|]. split; [intros [k K]; discriminate|intros [K _]; lia].
    - unfold substr. replace (Z.of_nat (length (a :: f0)) <? 1)%Z with false by (symmetry; apply Z.ltb_ge; cbn [length]; lia).
      change (-1 - 0 <? 0)%Z with true. cbv iota. cbn [obind]. rewrite loop_end by lia. cbn [obind map pop fst snd].
      split; [split; discriminate|]. split; [intros [k K]; discriminate|intros [K _]; cbn in K; lia]. }
  destruct f0 as [|a0 f0].
  { rewrite joined_cons by discriminate. cbn [app]. unfold unpack, tokenize, find. cbn [Z.to_nat skipn find_at]. rewrite Ascii.eqb_refl.
    unfold substr. replace (Z.of_nat (length (comma :: joined (f1 :: fs))) <? 1)%Z with false by (symmetry; apply Z.ltb_ge; cbn [length]; lia).
    change (0 - 0 <? 0)%Z with false. cbv iota. cbn [obind]. rewrite loop_end by lia. cbn [obind map pop fst snd].
    split; [split; discriminate|]. split; [intros [k K]; discriminate|intros [_ K]; congruence]. }
  assert (J : joined ((a0 :: f0) :: f1 :: fs) <> []) by (rewrite joined_cons by discriminate; discriminate).
  assert (U : forall o, unpack atof n (joined ((a0 :: f0) :: f1 :: fs)) = o -> o <> Abort /\ (forall k, o = Ret k -> (n + 5 <= length ((a0 :: f0) :: f1 :: fs))%nat)).
  { intros o O. unfold unpack in O. rewrite tokens in O; [|discriminate|discriminate|exact PL]. cbn [obind] in O.
    match type of O with context [pop ?x] => set (all := x) in O end.
    assert (LL : length all = length ((a0 :: f0) :: f1 :: fs)).
    { unfold all. rewrite map_length, app_length, rev_length. cbn [length]. lia. }
    clearbody all. destruct all as [|v1 l]; [discriminate LL|]. cbn [pop obind fst snd] in O.
    destruct l as [|v2 l]; cbn [pop obind fst snd] in O; [subst o; split; [discriminate|intros; discriminate]|].
    destruct (pop_yaws n l []) as [[ys r]| |] eqn:Y; cbn [pop obind fst snd] in O;
      [|exfalso; exact (yaws_no_abort _ _ _ Y)|subst o; split; [discriminate|intros; discriminate]].
    apply yaws_some in Y. destruct Y as [Y _].
    destruct r as [|d r]; cbn [pop obind fst snd] in O; [subst o; split; [discriminate|intros; discriminate]|].
    destruct r as [|w r]; cbn [pop obind fst snd] in O; [subst o; split; [discriminate|intros; discriminate]|].
    destruct r as [|ti r]; cbn [pop obind fst snd] in O; [subst o; split; [discriminate|intros; discriminate]|].
    subst o. split; [discriminate|]. intros _ _. cbn [length] in *. lia. }
  split.
  - split; [intros E; destruct (U _ E) as [K _]; exfalso; apply K; reflexivity|intros E; exfalso; exact (J E)].
  - split.
    + intros [k K]. split; [|discriminate]. destruct (U _ K) as [_ B]. apply (B k). reflexivity.
    + intros [L _]. set (g := f1 :: fs) in *. cbn [length] in L.
      assert (SP : exists ex sp dir ys a b, g = ex ++ sp :: dir :: ys ++ [a; b] /\ length ys = n).
      { clearbody g. set (m := (length g - (n + 4))%nat).
        pose proof (firstn_skipn m g) as E1. assert (L1 : length (skipn m g) = (n + 4)%nat) by (rewrite skipn_length; unfold m; lia).
        destruct (skipn m g) as [|sp q]; [cbn in L1; lia|]. destruct q as [|dir q]; [cbn in L1; lia|].
        cbn [length] in L1. pose proof (firstn_skipn n q) as E2. assert (L2 : length (skipn n q) = 2%nat) by (rewrite skipn_length; lia).
        destruct (skipn n q) as [|a q2]; [cbn in L2; lia|]. destruct q2 as [|b q2]; [cbn in L2; lia|]. destruct q2; [|cbn in L2; lia].
        exists (firstn m g), sp, dir, (firstn n q), a, b. rewrite E2. split; [symmetry; exact E1|]. apply firstn_length_le. lia. }
      destruct SP as (ex & sp & dir & ys & a & b & G & Ly). exists (Cmd (atof sp) (atof dir) (map atof ys)).
      rewrite G in *. rewrite <- Ly. apply unpack_fields; [discriminate|exact PL].
Qed.

(** *** Steps *)

Lemma unpack_yaws atof n s k : unpack atof n s = Ret k -> length (k_yaw k) = n.
Proof.
  unfold unpack. destruct (tokenize s) as [ts| |]; cbn [obind]; try discriminate.
  destruct (map atof ts) as [|v1 l]; cbn [pop obind fst snd]; [discriminate|].
  destruct l as [|v2 l]; cbn [pop obind fst snd]; [discriminate|].
  destruct (pop_yaws n l []) as [[ys r]| |] eqn:Y; cbn [obind fst snd]; try discriminate.
  destruct r as [|d r]; cbn [pop obind fst snd]; [discriminate|].
  destruct r as [|w r]; cbn [pop obind fst snd]; [discriminate|].
  destruct r as [|ti r]; cbn [pop obind fst snd]; [discriminate|].
  intros E. injection E as <-. cbn [k_yaw]. apply yaws_some in Y. cbn [length] in Y. lia.
Qed.

Lemma later_steps atof n : forall msgs cs now k, 1 <= now -> length (k_yaw k) = n ->
  Forall2 (fun s c => unpack atof n s = Ret c) msgs cs ->
  exists ks, steps atof now msgs k = Ret ks /\ length ks = length msgs /\
  forall j c, nth_error ks j = Some c -> match j with O => c = k | S j => nth_error cs j = Some c end.
Proof.
  induction msgs as [|s msgs IH]; intros cs now k B L F; inversion F as [|? c ? cs' E F']; subst.
  - exists []. split; [reflexivity|]. split; [reflexivity|]. intros [|j] c H; discriminate.
  - cbn [steps]. unfold receive. replace (Rltb 1 (now + 1)) with true by (symmetry; apply Rltb_spec; lra).
    rewrite E. cbn [obind]. destruct (IH cs' (now + 1) c ltac:(lra) (unpack_yaws _ _ _ _ E) F') as (ks & K1 & K2 & K3).
    rewrite K1. cbn [obind]. exists (k :: ks). split; [reflexivity|]. split; [cbn; lia|].
    intros [|j] d H; cbn [nth_error] in H; [injection H as <-; reflexivity|]. specialize (K3 j d H).
    destruct j as [|j]; cbn [nth_error]; [rewrite K3; reflexivity|exact K3].
Qed.

(** A command does not steer the step in which it arrives but the one after it, and that of the first message steers none:
    the first two steps use the values from before. *)
Theorem c107_delay_refuted : forall atof msgs cs k0,
  Forall2 (fun s c => unpack atof (length (k_yaw k0)) s = Ret c) msgs cs ->
  exists ks, steps atof 0 msgs k0 = Ret ks /\ length ks = length msgs /\
  forall j c, nth_error ks j = Some c ->
    ((j <= 1)%nat -> c = k0) /\ ((2 <= j)%nat -> nth_error cs (j - 1) = Some c).
Proof.
  intros atof msgs cs k0 F. destruct F as [|s c msgs cs E F].
  - exists []. split; [reflexivity|]. split; [reflexivity|]. intros [|j] c H; discriminate.
  - cbn [steps]. unfold receive. replace (Rltb 1 (0 + 1)) with false by (symmetry; apply Rltb_false; lra). cbn [obind].
    destruct (later_steps atof _ msgs cs (0 + 1) k0 ltac:(lra) eq_refl F) as (ks & K1 & K2 & K3). rewrite K1. cbn [obind].
    exists (k0 :: ks). split; [reflexivity|]. split; [cbn; lia|]. intros [|j] d H; cbn [nth_error] in H.
    + injection H as <-. split; [reflexivity|intros; lia].
    + specialize (K3 j d H). destruct j as [|j].
      * split; [intros _; exact K3|intros; lia].
      * split; [intros; lia|]. intros _. cbn [Nat.sub nth_error]. exact K3.
Qed.

(** *** Directions and power *)

Lemma shift3 d : cos (radians (- d + 270)) = - sin (d * PI / 180) /\ sin (radians (- d + 270)) = - cos (d * PI / 180).
Proof.
  unfold radians. set (a := d * PI / 180). replace (PI * (- d + 270) / 180) with (PI + (PI / 2 - a)) by (unfold a; field).
  rewrite cos_plus, sin_plus, cos_PI, sin_PI, cos_shift, sin_shift. lra.
Qed.
Lemma shift1 d : cos (radians (- d + 90)) = sin (d * PI / 180) /\ sin (radians (- d + 90)) = cos (d * PI / 180).
Proof.
  unfold radians. set (a := d * PI / 180). replace (PI * (- d + 90) / 180) with (PI / 2 - a) by (unfold a; field).
  rewrite cos_shift, sin_shift. lra.
Qed.

(** The wind that is driven to blows from the direction of the command with its speed, and each disk faces the direction of
    its angle: the same number means a disk against the wind. *)
Theorem c107_compass : forall k yaw,
  wind_of k = lin (k_speed k) (blows_from (k_dir k)) 0 vzero /\
  normal_of yaw = lin (-1) (blows_from yaw) 0 vzero /\ len (blows_from yaw) = 1.
Proof.
  intros k yaw. split; [|split].
  - unfold wind_of, blows_from, lin, vzero. destruct (shift3 (k_dir k)) as [C S]. rewrite C, S. apply vec_eq; cbn [vx vy vz]; ring.
  - unfold normal_of, blows_from, lin, vzero. destruct (shift1 yaw) as [C S]. rewrite C, S. apply vec_eq; cbn [vx vy vz]; ring.
  - unfold len, inner, blows_from. cbn [vx vy vz]. pose proof (sin2_cos2 (yaw * PI / 180)) as H. unfold Rsqr in H.
    replace (_ + _) with 1 by lra. apply sqrt_1.
Qed.

Lemma told_at s d a : 0 < s -> - PI < a <= PI -> (exists z : Z, a = radians (- d + 270) + 2 * IZR z * PI) ->
  told_direction (lin s (blows_from d) 0 vzero) = - degrees a + 270.
Proof.
  intros P A [z Z]. unfold told_direction. f_equal. f_equal. f_equal. destruct (shift3 d) as [C S].
  assert (Ca : cos a = - sin (d * PI / 180)) by (rewrite Z, cos_period_Z; exact C).
  assert (Sa : sin a = - cos (d * PI / 180)) by (rewrite Z, sin_period_Z; exact S).
  apply (atan2_unique _ _ s); [exact P|exact A| |]; rewrite ?Ca, ?Sa; unfold lin, blows_from, vzero; cbn [vx vy vz]; ring.
Qed.

(** The direction told to the centre is that of the wind up to full turns. *)
Theorem c107_told : forall s d, 0 < s -> exists z : Z,
  told_direction (lin s (blows_from d) 0 vzero) = d + 360 * IZR z /\ 90 <= d + 360 * IZR z < 450.
Proof.
  intros s d P. pose proof PI_RGT_0 as PP. set (z := (- rfloor ((d - 90) / 360))%Z). exists z.
  pose proof (rfloor_spec ((d - 90) / 360)) as [F1 F2].
  assert (B : 90 <= d + 360 * IZR z < 450) by (unfold z; rewrite opp_IZR; lra).
  split; [|exact B]. set (a := radians (- (d + 360 * IZR z) + 270)).
  assert (A : - PI < a <= PI) by (unfold a, radians; split; nra).
  rewrite (told_at s d a P A).
  - unfold a, degrees, radians. field. lra.
  - exists (- z)%Z. unfold a, radians. rewrite opp_IZR. field.
Qed.
(** It is not between 0 and 360: a wind from the north-east is told with a full turn too many. *)
Theorem c107_told_refuted : forall s d, 0 < s -> 0 <= d < 90 ->
  told_direction (lin s (blows_from d) 0 vzero) = d + 360.
Proof.
  intros s d P D. destruct (c107_told s d P) as (z & E & B). rewrite E.
  assert (z = 1%Z); [|subst; ring]. assert (0 < z < 2)%Z; [|lia]. split; apply lt_IZR; lra.
Qed.

(** The power told is that of momentum theory for the thrust and the wind. *)
Theorem c107_power : forall a rho u diameter, 0 <= a <= 1 / 2 -> 0 <= u ->
  told_power (thrust_of a) rho (u * u) diameter =
  power_of a * (1 / 2 * rho * (u * u * u)) * (PI * (diameter / 2) * (diameter / 2)).
Proof.
  intros a rho u dm A U. unfold told_power, thrust_of, power_of.
  replace (1 - 4 * a * (1 - a)) with ((1 - 2 * a) * (1 - 2 * a)) by ring.
  rewrite !sqrt_square by lra. field.
Qed.

(** *** Collection *)

Definition sends (t : tag) (p : list act) : list nat :=
  flat_map (fun a => match a with Snd t' id => if tag_eqb t' t then [id] else [] | Rcv _ _ _ => [] end) p.
Definition recvs (r : nat) (t : tag) (p : list act) : list nat :=
  flat_map (fun a => match a with Snd _ _ => [] | Rcv r' t' id => if ((r' =? r)%nat && tag_eqb t' t)%bool then [id] else [] end) p.

Lemma program_in root io r ids a : In a (program root io r ids) ->
  match a with Snd t id => root id = r | Rcv f t id => r = io /\ f = root id end.
Proof.
  induction ids as [|i ids IH]; [intros []|]. cbn [program]. intros J. apply in_app_or in J. destruct J as [J|J].
  - destruct (Nat.eqb_spec (root i) r); [|destruct J]. destruct J as [<-|[<-|[]]]; assumption.
  - apply in_app_or in J. destruct J as [J|J]; [|apply IH; exact J].
    destruct (Nat.eqb_spec io r); [|destruct J]. destruct J as [<-|[<-|[]]]; split; congruence.
Qed.
Lemma sends_app t p q : sends t (p ++ q) = sends t p ++ sends t q. Proof. apply flat_map_app. Qed.
Lemma recvs_app r t p q : recvs r t (p ++ q) = recvs r t p ++ recvs r t q. Proof. apply flat_map_app. Qed.
Lemma program_match root io r t ids : sends t (program root io r ids) = recvs r t (program root io io ids).
Proof.
  induction ids as [|i ids IH]; [reflexivity|]. cbn [program]. rewrite !sends_app, !recvs_app, IH, Nat.eqb_refl.
  rewrite !app_assoc. f_equal.
  destruct (Nat.eqb_spec (root i) r) as [E|E], (Nat.eqb_spec io r) as [F|F], (Nat.eqb_spec (root i) io) as [G|G]; destruct t;
    unfold sends, recvs; cbn; rewrite ?E, ?Nat.eqb_refl; cbn; try reflexivity; try congruence;
    destruct (Nat.eqb_spec (root i) r); try congruence; reflexivity.
Qed.
Lemma program_gets root io t ids id : In id ids -> In (Rcv (root id) t id) (program root io io ids).
Proof.
  induction ids as [|i ids IH]; [intros []|]. cbn [program In]. rewrite Nat.eqb_refl. intros [->|J].
  - apply in_or_app. right. apply in_or_app. left. destruct t; cbn; auto.
  - apply in_or_app. right. apply in_or_app. right. apply IH. exact J.
Qed.
Definition balanced (io : nat) (p : list act) : Prop :=
  forall a b t, p = a ++ b -> (length (sends t b) <= length (recvs io t b))%nat.
Lemma balanced_cons io x p : balanced io p ->
  (forall t, length (sends t (x :: p)) <= length (recvs io t (x :: p)))%nat -> balanced io (x :: p).
Proof.
  intros B H a b t E. destruct a as [|y a]; cbn [app] in E; [subst b; apply H|]. injection E as _ E. apply (B a b t E).
Qed.
Lemma balanced_now io p t : balanced io p -> (length (sends t p) <= length (recvs io t p))%nat.
Proof. intros B. apply (B [] p t). reflexivity. Qed.
Lemma program_balanced root io ids : balanced io (program root io io ids).
Proof.
  induction ids as [|i ids IH]; cbn [program].
  - intros a b t E. destruct a, b; try discriminate. cbn. lia.
  - rewrite Nat.eqb_refl. pose proof (fun t => balanced_now io _ t IH) as N.
    destruct (Nat.eqb_spec (root i) io) as [E|E]; cbn [app].
    + rewrite E. repeat apply balanced_cons; try exact IH; intros t; specialize (N t); destruct t; unfold sends, recvs in *; cbn;
        rewrite ?Nat.eqb_refl; cbn; lia.
    + repeat apply balanced_cons; try exact IH; intros t; specialize (N t); destruct t; unfold sends, recvs in *; cbn;
        destruct (Nat.eqb_spec (root i) io); cbn; lia.
Qed.

Record holds (root : nat -> nat) (io : nat) (ids : list nat) (mem : nat -> tag -> nat -> R) (s : net) : Prop := Holds {
  h_way : forall r t, n_way s r t ++ map (mem r t) (sends t (n_prog s r)) = map (mem r t) (recvs r t (n_prog s io));
  h_own : forall r t id, root id = r -> n_mem s r t id = mem r t id;
  h_act : forall r a, In a (n_prog s r) -> match a with Snd t id => root id = r | Rcv f t id => r = io /\ f = root id end;
  h_got : forall id t, In id ids -> In (Rcv (root id) t id) (n_prog s io) \/ n_mem s io t id = mem (root id) t id;
  h_bal : balanced io (n_prog s io) }.

Lemma holds_start root io ids mem s : begins root io ids mem s -> holds root io ids mem s.
Proof.
  intros (P & W & M). constructor.
  - intros r t. rewrite W, !P, program_match. reflexivity.
  - intros r t id _. apply M.
  - intros r a. rewrite P. apply program_in.
  - intros id t I. left. rewrite P. apply program_gets. exact I.
  - rewrite P. apply program_balanced.
Qed.

Lemma tag_refl t : tag_eqb t t = true. Proof. destruct t; reflexivity. Qed.
Lemma tag_eq a b : tag_eqb a b = true -> a = b. Proof. destruct a, b; cbn; congruence. Qed.

Lemma balanced_tail io x p : balanced io (x :: p) -> balanced io p.
Proof. intros B a b t E. apply (B (x :: a) b t). cbn. congruence. Qed.

Lemma holds_move root io ids mem s s' : move io s s' -> holds root io ids mem s -> holds root io ids mem s'.
Proof.
  intros M [W O A G B]. destruct M as [s r t id p E|s from t id p v q E Q].
  - assert (RT : root id = r) by (apply (A r (Snd t id)); rewrite E; left; reflexivity).
    constructor; cbn [n_prog n_way n_mem].
    + intros r' t'. specialize (W r' t'). unfold set1, upd2.
      assert (RV : recvs r' t' (if (io =? r)%nat then p else n_prog s io) = recvs r' t' (n_prog s io)).
      { destruct (Nat.eqb_spec io r) as [F|F]; [|reflexivity]. rewrite F, E. reflexivity. }
      rewrite RV, <- W. destruct (Nat.eqb_spec r' r) as [F|F]; cbn [andb]; [|reflexivity]. subst r'. rewrite E.
      destruct (tag_eqb t' t) eqn:T.
      * apply tag_eq in T. subst t'. unfold sends at 2. cbn [flat_map]. rewrite tag_refl. cbn [app map].
        rewrite (O r t id RT), <- app_assoc. reflexivity.
      * f_equal. unfold sends. cbn [flat_map]. replace (tag_eqb t t') with false by (destruct t, t'; cbn in *; congruence). reflexivity.
    + exact O.
    + intros r' a. unfold set1. destruct (Nat.eqb_spec r' r) as [F|F]; [|apply A]. intros J. subst r'. apply A. rewrite E. right. exact J.
    + intros i t' I. destruct (G i t' I) as [H|H]; [|right; exact H]. left. unfold set1.
      destruct (Nat.eqb_spec io r) as [F|F]; [|exact H]. rewrite F, E in H. destruct H as [H|H]; [discriminate|exact H].
    + unfold set1. destruct (Nat.eqb_spec io r) as [F|F]; [|exact B]. rewrite F, E in B. rewrite F. apply (balanced_tail r _ _ B).
  - destruct (A io (Rcv from t id)) as [_ RT]; [rewrite E; left; reflexivity|].
    assert (V : v = mem from t id /\ q ++ map (mem from t) (sends t (n_prog s from)) = map (mem from t) (recvs from t p)).
    { pose proof (W from t) as H. rewrite Q, E in H. unfold recvs in H. cbn [flat_map] in H. rewrite Nat.eqb_refl, tag_refl in H.
      cbn [andb app map] in H. injection H as H1 H2. split; [exact H1|exact H2]. }
    destruct V as [V VQ]. subst v.
    assert (NS : forall t', sends t' p = sends t' (n_prog s io)) by (intros t'; rewrite E; reflexivity).
    constructor; cbn [n_prog n_way n_mem].
    + intros r' t'. unfold set1, upd2. rewrite Nat.eqb_refl.
      assert (SE : sends t' (if (r' =? io)%nat then p else n_prog s r') = sends t' (n_prog s r')).
      { destruct (Nat.eqb_spec r' io) as [F|F]; [rewrite F; apply NS|reflexivity]. }
      rewrite SE. destruct (Nat.eqb_spec r' from) as [F|F]; cbn [andb].
      * subst r'. destruct (tag_eqb t' t) eqn:T.
        -- apply tag_eq in T. subst t'. exact VQ.
        -- rewrite (W from t'). f_equal. rewrite E. unfold recvs. cbn [flat_map].
           replace (tag_eqb t t') with false by (destruct t, t'; cbn in *; congruence). rewrite andb_false_r. reflexivity.
      * rewrite (W r' t'). f_equal. rewrite E. unfold recvs. cbn [flat_map].
        destruct (Nat.eqb_spec from r'); [congruence|]. reflexivity.
    + intros r' t' i' RI. unfold upd3. destruct (Nat.eqb_spec r' io) as [F1|F1]; cbn [andb]; [|apply O; exact RI].
      destruct (tag_eqb t' t) eqn:T; cbn [andb]; [|apply O; exact RI]. destruct (Nat.eqb_spec i' id) as [F2|F2]; [|apply O; exact RI].
      apply tag_eq in T. subst. reflexivity.
    + intros r' a. unfold set1. destruct (Nat.eqb_spec r' io) as [F|F]; [|apply A]. intros J. subst r'. apply A. rewrite E. right. exact J.
    + intros i t' I. unfold set1, upd3. rewrite !Nat.eqb_refl. cbn [andb].
      destruct (tag_eqb t' t) eqn:T; cbn [andb].
      * apply tag_eq in T. subst t'. destruct (Nat.eqb_spec i id) as [F|F]; [right; subst; reflexivity|].
        destruct (G i t I) as [H|H]; [|right; exact H]. left. rewrite E in H. destruct H as [H|H]; [injection H as _ H; congruence|exact H].
      * destruct (G i t' I) as [H|H]; [|right; exact H]. left. rewrite E in H. destruct H as [H|H]; [|exact H].
        injection H as _ H _. subst t'. rewrite tag_refl in T. discriminate.
    + unfold set1. rewrite Nat.eqb_refl. rewrite E in B. apply (balanced_tail io _ _ B).
Qed.

Lemma holds_follows root io ids mem s s' : follows io s s' -> holds root io ids mem s -> holds root io ids mem s'.
Proof. intros F. induction F as [s|s s1 s2 M F IH]; intros H; [exact H|]. apply IH. apply (holds_move _ _ _ _ _ _ M H). Qed.

(** With sends that are buffered, whatever the order in which the processes go on: when all are done, the process that talks
    to the centre has for every actuator what the process that computes it has. *)
Theorem c107_collected : forall root io ids mem s s', begins root io ids mem s -> follows io s s' -> over s' ->
  forall id t, In id ids -> n_mem s' io t id = mem (root id) t id.
Proof.
  intros root io ids mem s s' B F O id t I. pose proof (holds_follows _ _ _ _ _ _ F (holds_start _ _ _ _ _ B)) as H.
  destruct (h_got _ _ _ _ _ H id t I) as [J|J]; [|exact J]. rewrite (O io) in J. destruct J.
Qed.

(** Then no process waits forever. *)
Theorem c107_no_deadlock : forall root io ids mem s s' r, begins root io ids mem s -> follows io s s' ->
  n_prog s' r <> [] -> exists s'', move io s' s''.
Proof.
  intros root io ids mem s s' r B F N. pose proof (holds_follows _ _ _ _ _ _ F (holds_start _ _ _ _ _ B)) as [W O A G BL].
  destruct (n_prog s' r) as [|a p] eqn:E; [congruence|]. destruct a as [t id|f t id]; [eexists; eapply m_send; exact E|].
  destruct (A r (Rcv f t id)) as [-> _]; [rewrite E; left; reflexivity|].
  destruct (n_way s' f t) as [|v q] eqn:Q; [|eexists; eapply m_recv; [exact E|exact Q]].
  pose proof (W f t) as H. rewrite Q in H. cbn [app] in H. apply (f_equal (@length R)) in H. rewrite !map_length in H.
  rewrite E in H. unfold recvs in H. cbn [flat_map] in H. rewrite Nat.eqb_refl, tag_refl in H. cbn [andb app length] in H.
  fold (recvs f t p) in H. destruct (Nat.eq_dec f io) as [->|FI].
  - exfalso. rewrite E in H, BL. pose proof (balanced_now io p t (balanced_tail _ _ _ BL)) as K.
    unfold sends in H. cbn [flat_map app] in H. fold (sends t p) in H. lia.
  - destruct (n_prog s' f) as [|a p'] eqn:E'; [discriminate|]. destruct a as [t' id'|f' t' id']; [eexists; eapply m_send; exact E'|].
    destruct (A f (Rcv f' t' id')) as [K _]; [rewrite E'; left; reflexivity|]. congruence.
Qed.

Definition meets (io : nat) : (nat -> list act) -> (nat -> list act) -> Prop := clos_refl_trans_1n _ (meet io).

(** With sends that wait for their receiver the process that talks to the centre never gets past an actuator that it
    computes itself: it sends to itself before it receives. *)
Theorem c107_self_send_refuted : forall root io ids p p' id,
  (forall r, p r = program root io r ids) -> In id ids -> root id = io -> meets io p p' -> p' io <> [].
Proof.
  intros root io ids p p' id P I RT M.
  assert (S0 : In (Snd Power id) (p io)).
  { rewrite P. clear P M. induction ids as [|i ids IH]; [destruct I|]. cbn [program]. destruct I as [->|I].
    - rewrite RT, Nat.eqb_refl. left. reflexivity.
    - apply in_or_app. right. apply in_or_app. right. apply IH. exact I. }
  clear P. induction M as [p|p p1 p2 M1 M IH].
  - intros E. rewrite E in S0. destruct S0.
  - apply IH. destruct M1 as [p r t i pr i' pio NR E1 E2]. unfold set1 at 1. rewrite Nat.eqb_refl. rewrite E2 in S0.
    destruct S0 as [S0|S0]; [discriminate|exact S0].
Qed.

(** When it computes none of them, even such sends come to an end. *)
Theorem c107_waiting_sends : forall root io ids p, (forall r, p r = program root io r ids) -> (forall id, In id ids -> root id <> io) ->
  exists p', meets io p p' /\ forall r, p' r = [].
Proof.
  intros root io. induction ids as [|i ids IH]; intros p P N.
  - exists p. split; [apply rt1n_refl|]. intros r. rewrite P. reflexivity.
  - assert (NI : root i <> io) by (apply N; left; reflexivity). set (q := fun r => program root io r ids).
    assert (PR : p (root i) = Snd Power i :: Snd Direction i :: q (root i)).
    { rewrite P. cbn [program]. rewrite Nat.eqb_refl. destruct (Nat.eqb_spec io (root i)); [congruence|]. reflexivity. }
    assert (PI : p io = Rcv (root i) Power i :: Rcv (root i) Direction i :: q io).
    { rewrite P. cbn [program]. rewrite Nat.eqb_refl. destruct (Nat.eqb_spec (root i) io); [congruence|]. reflexivity. }
    pose proof (m_meet io p (root i) Power i _ i _ NI PR PI) as M1.
    match type of M1 with meet _ _ ?x => set (p1 := x) in * end.
    assert (PR1 : p1 (root i) = Snd Direction i :: q (root i)).
    { unfold p1, set1. rewrite Nat.eqb_refl. destruct (Nat.eqb_spec (root i) io); [congruence|]. reflexivity. }
    assert (PI1 : p1 io = Rcv (root i) Direction i :: q io) by (unfold p1, set1; rewrite Nat.eqb_refl; reflexivity).
    pose proof (m_meet io p1 (root i) Direction i _ i _ NI PR1 PI1) as M2.
    match type of M2 with meet _ _ ?x => set (p2 := x) in * end.
    destruct (IH p2) as (p' & R & Z).
    + intros r. unfold p2, p1, set1. destruct (Nat.eqb_spec r io) as [->|F]; [reflexivity|].
      destruct (Nat.eqb_spec r (root i)) as [->|F2]; [reflexivity|]. rewrite P. cbn [program].
      destruct (Nat.eqb_spec (root i) r); [congruence|]. destruct (Nat.eqb_spec io r); [congruence|]. reflexivity.
    + intros id J. apply N. right. exact J.
    + exists p'. split; [|exact Z]. eapply Relation_Operators.rt1n_trans; [exact M1|]. eapply Relation_Operators.rt1n_trans; [exact M2|exact R].
Qed.

(** *** Cases that meet the hypotheses *)

(** "[1,8,270,260,265,x,y]" for two turbines *)
Definition ex_msg : list text :=
  [["[";"1"]; ["8"]; ["2";"7";"0"]; ["2";"6";"0"]; ["2";"6";"5"]; ["x"]; ["y";"]"]]%char.
Example c107_message_example : forall atof, Forall plain ex_msg /\
  unpack atof 2 (joined ex_msg) = Ret (Cmd (atof ["8"]%char) (atof ["2";"7";"0"]%char) [atof ["2";"6";"0"]%char; atof ["2";"6";"5"]%char]) /\
  exists k, unpack atof 1 (joined ex_msg) = Ret k /\ k_speed k = atof ["2";"7";"0"]%char.
Proof.
  intros atof. split; [|split].
  - unfold ex_msg, plain, comma. repeat constructor; cbn; intuition discriminate.
  - reflexivity.
  - eexists. split; reflexivity.
Qed.

(** two actuators, the second one computed by the process that talks to the centre: all moves of one order *)
Example c107_collected_example : exists s s', begins (fun id => match id with 1%nat => 0%nat | _ => 1%nat end) 0 [0; 1]%nat
    (fun r t id => INR (r + id)) s /\ follows 0 s s' /\ over s' /\ n_mem s' 0%nat Power 0%nat = 1.
Proof.
  set (root := fun id => match id with 1%nat => 0%nat | _ => 1%nat end).
  set (s := Net (fun r => program root 0 r [0; 1]%nat) (fun _ _ => []) (fun r t id => INR (r + id))).
  assert (B : begins root 0 [0; 1]%nat (fun r t id => INR (r + id)) s) by (repeat split; reflexivity).
  assert (G : exists s', follows 0 s s' /\ over s').
  { eexists. split.
    - eapply Relation_Operators.rt1n_trans; [apply (m_send 0 s 1 Power 0); reflexivity|].
      eapply Relation_Operators.rt1n_trans; [eapply (m_send 0 _ 1 Direction 0); reflexivity|].
      eapply Relation_Operators.rt1n_trans; [eapply (m_recv 0 _ 1 Power 0); reflexivity|].
      eapply Relation_Operators.rt1n_trans; [eapply (m_recv 0 _ 1 Direction 0); reflexivity|].
      eapply Relation_Operators.rt1n_trans; [eapply (m_send 0 _ 0 Power 1); reflexivity|].
      eapply Relation_Operators.rt1n_trans; [eapply (m_send 0 _ 0 Direction 1); reflexivity|].
      eapply Relation_Operators.rt1n_trans; [eapply (m_recv 0 _ 0 Power 1); reflexivity|].
      eapply Relation_Operators.rt1n_trans; [eapply (m_recv 0 _ 0 Direction 1); reflexivity|]. apply rt1n_refl.
    - intros [|[|r]]; reflexivity. }
  destruct G as (s' & F & O). exists s, s'. split; [exact B|]. split; [exact F|]. split; [exact O|].
  rewrite (c107_collected _ _ _ _ _ _ B F O 0%nat Power) by (left; reflexivity). cbn. reflexivity.
Qed.

Print Assumptions c107_message.
Print Assumptions c107_extra_refuted.
Print Assumptions c107_accepted.
Print Assumptions c107_delay_refuted.
Print Assumptions c107_compass.
Print Assumptions c107_told.
Print Assumptions c107_told_refuted.
Print Assumptions c107_power.
Print Assumptions c107_collected.
Print Assumptions c107_no_deadlock.
Print Assumptions c107_self_send_refuted.
Print Assumptions c107_waiting_sends.
