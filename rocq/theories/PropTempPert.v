(** C110: perturbation of the temperature in a box. *)
From Coq Require Import String List ZArith Bool Lia Lra.
From Verif Require Import Base BoxR BoxRFacts VecSpace Inputs UdfSpec TempPert TempPertSpec.
Import ListNotations.
Open Scope R_scope.

Lemma due_code every index : every <> 0%Z -> ((Z.rem index every =? 0) && (0 <? index))%Z%bool = true <-> due every index.
Proof.
  intros E. rewrite andb_true_iff, Z.eqb_eq, Z.ltb_lt. unfold due. rewrite Z.rem_divide by exact E. unfold Z.divide.
  split; intros [A B]; split; assumption.
Qed.
Lemma due_code_false every index : every <> 0%Z -> ((Z.rem index every =? 0) && (0 <? index))%Z%bool = false <-> ~ due every index.
Proof. intros E. rewrite <- due_code by exact E. destruct (_ && _)%bool; split; congruence. Qed.
Lemma rmax_is a b : rmax a b = Rmax a b.
Proof. unfold rmax, Rmax, Rltb. destruct (Rlt_dec a b), (Rle_dec a b); lra. Qed.
Lemma queryarr3_three s k a b c r : s k = Some (a :: b :: c :: r) -> queryarr3 s k = Ret [a; b; c].
Proof. unfold queryarr3. intros ->. reflexivity. Qed.

(** In the steps that are due, a cell in the box gets a random amount that is scaled by the given amplitude and by the part of
    the cell that is not blanked; in all other steps, and outside the box, the source is left alone. *)
Theorem c110_where : forall ints s a0 a1 a2 ra b0 b1 b2 rb,
  s "start"%string = Some (a0 :: a1 :: a2 :: ra) -> s "end"%string = Some (b0 :: b1 :: b2 :: rb) ->
  let every := given ints "time_steps" 100%Z in every <> 0%Z ->
  exists p, pert_of ints s = Ret p /\ forall index terrain lo dx i j k xi src,
  let ground := match terrain with Some (h, _) => h | None => 0 end in
  let free := match terrain with Some (_, b) => 1 - b | None => 1 end in
  let inside := within a0 b0 (middle (vx lo) (vx dx) i) /\ within a1 b1 (middle (vy lo) (vy dx) j) /\
                within a2 b2 (above_ground (middle (vz lo) (vz dx) k) ground (vz dx)) in
  (due every index -> inside -> perturb p index terrain lo dx i j k xi src = Ret (src + given s "pert_amplitude" 1 * xi * free)) /\
  (~ (due every index /\ inside) -> perturb p index terrain lo dx i j k xi src = Ret src).
Proof.
  intros ints s a0 a1 a2 ra b0 b1 b2 rb Ea Eb every E. unfold pert_of. rewrite (queryarr3_three _ _ _ _ _ _ Ea), (queryarr3_three _ _ _ _ _ _ Eb).
  cbn [obind]. eexists. split; [reflexivity|]. intros index terrain lo dx i j k xi src.
  set (ground := match terrain with Some (h, _) => h | None => 0 end).
  set (free := match terrain with Some (_, b) => 1 - b | None => 1 end).
  set (inside := within a0 b0 _ /\ within a1 b1 _ /\ within a2 b2 _).
  unfold perturb. cbn [t_steps t_start t_end t_amp]. change (pp_query ints "time_steps" 100%Z) with every.
  assert ((every =? 0)%Z = false) as -> by (apply Z.eqb_neq; exact E).
  change (pp_query s "pert_amplitude" 1) with (given s "pert_amplitude" 1).
  assert (B : box_contains (V3 a0 a1 a2) (V3 b0 b1 b2) (place lo dx i j k ground) = true <-> inside).
  { unfold box_contains, place, inside, within, middle, above_ground; cbn [vx vy vz]. rewrite rmax_is, !plus_IZR, !andb_true_iff, !Rltb_spec.
    replace (vx lo + (IZR i + 1 / 2) * vx dx) with ((vx lo + IZR i * vx dx + (vx lo + (IZR i + 1) * vx dx)) / 2) by field.
    replace (vy lo + (IZR j + 1 / 2) * vy dx) with ((vy lo + IZR j * vy dx + (vy lo + (IZR j + 1) * vy dx)) / 2) by field.
    replace (vz lo + (IZR k + 1 / 2) * vz dx) with ((vz lo + IZR k * vz dx + (vz lo + (IZR k + 1) * vz dx)) / 2) by field.
    replace (1 / 2 * vz dx) with (vz dx / 2) by field. tauto. }
  split.
  - intros D I. apply due_code in D; [|exact E]. rewrite D. apply B in I. fold ground. rewrite I. f_equal. unfold free. destruct terrain as [[h b]|]; ring.
  - intros N. destruct (_ && _)%bool eqn:D; [|reflexivity]. apply due_code in D; [|exact E]. fold ground.
    destruct (box_contains _ _ _) eqn:I; [|reflexivity]. exfalso. apply N. split; [exact D|apply (proj1 B); reflexivity].
Qed.

(** Cells inside the terrain are never changed, whatever the settings, unless the run has no defined meaning. *)
Theorem c110_terrain : forall p index h lo dx i j k xi src r, perturb p index (Some (h, 1)) lo dx i j k xi src = Ret r -> r = src.
Proof.
  intros p index h lo dx i j k xi src r. unfold perturb. destruct (_ =? 0)%Z; [discriminate|]. destruct (_ && _)%bool; [|congruence].
  destruct (t_start p) as [|? [|? [|? [|]]]]; try discriminate. destruct (t_end p) as [|? [|? [|? [|]]]]; try discriminate.
  destruct (box_contains _ _ _); intros H; injection H as <-; ring.
Qed.

Lemma abs_div_step m k : (0 < k)%Z -> (Z.of_nat (S m) / k = Z.of_nat m / k + (if (Z.of_nat (S m) mod k =? 0)%Z then 1 else 0))%Z.
Proof.
  intros K. pose proof (Z.div_mod (Z.of_nat m) k ltac:(lia)) as D. pose proof (Z.mod_pos_bound (Z.of_nat m) k K) as B.
  set (q := (Z.of_nat m / k)%Z) in *. set (r := (Z.of_nat m mod k)%Z) in *.
  destruct (Z.eq_dec (r + 1) k) as [E|E].
  - assert (Q : (Z.of_nat (S m) = k * (q + 1) + 0)%Z) by nia.
    rewrite <- (Z.div_unique_pos (Z.of_nat (S m)) k (q + 1) 0) by lia. rewrite <- (Z.mod_unique_pos (Z.of_nat (S m)) k (q + 1) 0) by lia. reflexivity.
  - assert (Q : (Z.of_nat (S m) = k * q + (r + 1))%Z) by lia.
    rewrite <- (Z.div_unique_pos (Z.of_nat (S m)) k q (r + 1)) by lia. rewrite <- (Z.mod_unique_pos (Z.of_nat (S m)) k q (r + 1)) by lia.
    destruct (Z.eqb_spec (r + 1) 0); lia.
Qed.

(** In the first [n] steps of a run the temperature is perturbed once in every [time_steps] steps, and the steps are those
    that are due; a negative number counts like its absolute value. *)
Theorem c110_often : forall p n, t_steps p <> 0%Z ->
  Z.of_nat (length (due_steps p n)) = (Z.of_nat n / Z.abs (t_steps p))%Z /\
  (forall i, In i (due_steps p n) <-> (i <= n)%nat /\ due (t_steps p) (Z.of_nat i)).
Proof.
  intros p n E. induction n as [|m [IH1 IH2]].
  - cbn [due_steps length]. split; [symmetry; apply Z.div_0_l; lia|]. intros i. split; [intros []|]. intros [L [D _]]. lia.
  - cbn [due_steps]. rewrite app_length, Nat2Z.inj_add, IH1. split.
    + rewrite (abs_div_step m (Z.abs (t_steps p))) by lia. f_equal.
      destruct (_ && _)%bool eqn:C.
      * apply due_code in C; [|exact E]. destruct C as [_ [q C]]. cbn [length].
        assert ((Z.of_nat (S m) mod Z.abs (t_steps p))%Z = 0%Z) as ->; [|reflexivity].
        apply Z.mod_divide; [lia|]. apply Z.divide_abs_l. exists q. exact C.
      * apply due_code_false in C; [|exact E]. cbn [length]. destruct (Z.eqb_spec (Z.of_nat (S m) mod Z.abs (t_steps p)) 0) as [Q|Q]; [|reflexivity].
        exfalso. apply C. apply Z.mod_divide in Q; [|lia]. apply (proj1 (Z.divide_abs_l _ _)) in Q. destruct Q as [q Q]. split; [lia|exists q; exact Q].
    + intros i. rewrite in_app_iff, IH2. destruct (_ && _)%bool eqn:C.
      * apply due_code in C; [|exact E]. cbn [In]. split.
        -- intros [[A B]|[<-|[]]]; [split; [lia|exact B]|split; [lia|exact C]].
        -- intros [A B]. destruct (Nat.eq_dec i (S m)) as [->|]; [right; left; reflexivity|left; split; [lia|exact B]].
      * apply due_code_false in C; [|exact E]. cbn [In]. split; [intros [[A B]|[]]; split; [lia|exact B]|].
        intros [A B]. left. split; [|exact B]. destruct (Nat.eq_dec i (S m)) as [->|]; [contradiction|lia].
Qed.

(** The ends of the box are mandatory in the manual.  Without one of them the run starts and goes on, until the first step
    that is due, which reads beyond an empty vector; a list that is too short stops the run at the start. *)
Theorem c110_missing_refuted : forall ints s b, s "start"%string = None -> queryarr3 s "end" = Ret b ->
  exists p, pert_of ints s = Ret p /\ (t_steps p <> 0%Z -> forall index terrain lo dx i j k xi src,
  (~ due (t_steps p) index -> perturb p index terrain lo dx i j k xi src = Ret src) /\
  (due (t_steps p) index -> perturb p index terrain lo dx i j k xi src = UB)).
Proof.
  intros ints s b Ea Eb. unfold pert_of. rewrite Eb. unfold queryarr3. rewrite Ea. cbn [obind]. eexists. split; [reflexivity|].
  intros E index terrain lo dx i j k xi src. unfold perturb. cbn [t_start t_end t_steps t_amp] in *.
  set (t := pp_query ints "time_steps" 100%Z) in *. assert ((t =? 0)%Z = false) as -> by (apply Z.eqb_neq; exact E).
  split; intros D.
  - apply due_code_false in D; [|exact E]. rewrite D. reflexivity.
  - apply due_code in D; [|exact E]. rewrite D. reflexivity.
Qed.

(** Ends with fewer than three coordinates are refused at the start. *)
Theorem c110_short : forall ints s k l, (k = "start" \/ k = "end")%string -> s k = Some l -> (length l < 3)%nat -> pert_of ints s = Abort.
Proof.
  intros ints s k l K E L. unfold pert_of. assert (Q : queryarr3 s k = Abort) by (unfold queryarr3; rewrite E; destruct (Nat.ltb_spec (length l) 3); [reflexivity|lia]).
  destruct K as [-> | ->]; [rewrite Q; reflexivity|]. unfold queryarr3 at 1. destruct (s "start"%string) as [a|]; [destruct (length a <? 3)%nat|]; cbn [obind]; [reflexivity| |]; rewrite Q; reflexivity.
Qed.

(** With zero steps between perturbations every evaluation divides by zero, also at the start. *)
Theorem c110_zero_refuted : forall ints s p, given ints "time_steps" 100%Z = 0%Z -> pert_of ints s = Ret p ->
  forall index terrain lo dx i j k xi src, perturb p index terrain lo dx i j k xi src = UB.
Proof.
  intros ints s p E H index terrain lo dx i j k xi src. unfold pert_of in H.
  destruct (queryarr3 s "start") as [a| |]; cbn [obind] in H; try discriminate. destruct (queryarr3 s "end") as [b| |]; cbn [obind] in H; try discriminate.
  injection H as <-. unfold perturb. cbn [t_steps]. change (pp_query ints "time_steps" 100%Z) with (given ints "time_steps" 100%Z). rewrite E. reflexivity.
Qed.

(** The level from which to perturb is read and has no effect. *)
Theorem c110_level_refuted : forall ints ints' s p p', given ints "time_steps" 100%Z = given ints' "time_steps" 100%Z ->
  pert_of ints s = Ret p -> pert_of ints' s = Ret p' ->
  forall index terrain lo dx i j k xi src, perturb p index terrain lo dx i j k xi src = perturb p' index terrain lo dx i j k xi src.
Proof.
  intros ints ints' s p p' E H H' index terrain lo dx i j k xi src. unfold pert_of in H, H'.
  destruct (queryarr3 s "start") as [a| |]; cbn [obind] in H, H'; try discriminate. destruct (queryarr3 s "end") as [b| |]; cbn [obind] in H, H'; try discriminate.
  injection H as <-. injection H' as <-. unfold perturb. cbn [t_steps t_start t_end t_amp].
  change (pp_query ints "time_steps" 100%Z) with (given ints "time_steps" 100%Z).
  change (pp_query ints' "time_steps" 100%Z) with (given ints' "time_steps" 100%Z). rewrite E. reflexivity.
Qed.

(** *** Cases that meet the hypotheses *)

Definition ex_s : sect R := fun k => if String.eqb k "start" then Some [0; 0; 0] else if String.eqb k "end" then Some [4; 4; 4] else None.
Definition ex_i : sect Z := fun k => if String.eqb k "time_steps" then Some [3%Z] else None.
Example c110_where_example : given ex_i "time_steps" 100%Z = 3%Z /\ due 3 6 /\ within 0 4 (middle 0 1 2).
Proof. split; [reflexivity|]. split; [split; [lia|exists 2%Z; reflexivity]|]. unfold within, middle. cbn. lra. Qed.
Example c110_often_example : due_steps (Pert [] [] (-3) 0 1) 10 = [3; 6; 9]%nat.
Proof. reflexivity. Qed.
Example c110_missing_example : exists p, pert_of ex_i (fun k => if String.eqb k "end" then Some [4; 4; 4] else None) = Ret p /\
  perturb p 2 None (V3 0 0 0) (V3 1 1 1) 0 0 0 1 5 = Ret 5 /\ perturb p 3 None (V3 0 0 0) (V3 1 1 1) 0 0 0 1 5 = UB.
Proof. eexists. repeat split; reflexivity. Qed.

Print Assumptions c110_where.
Print Assumptions c110_terrain.
Print Assumptions c110_often.
Print Assumptions c110_missing_refuted.
Print Assumptions c110_zero_refuted.
Print Assumptions c110_level_refuted.
Print Assumptions c110_short.
