(** Property C112: a turbine computed by Kynema. *)
From Coq Require Import Reals List Arith ZArith Lia Lra.
From Verif Require Import Base BoxR VecSpace ExtTurb PropExtTurb Kynema KynemaSpec.
Import ListNotations.
Open Scope R_scope.

Lemma length_total sizes : length_force sizes = total sizes.
Proof.
  unfold length_force, total. assert (G : forall l a, fold_left Nat.add l a = (a + fold_right Nat.add 0%nat l)%nat).
  { induction l as [|x l IH]; intros a; cbn; [lia|]. rewrite IH. lia. }
  rewrite G. lia.
Qed.
Lemma body_loop_at : forall sizes b0 b k, node sizes b k -> body_loop sizes b0 (Z.of_nat (fold_right Nat.add 0%nat (firstn b sizes) + k)) = (b0 + b)%nat.
Proof.
  induction sizes as [|s r IH]; intros b0 b k [B K]; [cbn in B; lia|]. destruct b as [|b]; cbn [body_loop firstn fold_right nth length] in *; cbv zeta.
  - destruct (Z.ltb_spec (Z.of_nat (0 + k) - Z.of_nat s) 0); lia.
  - destruct (Z.ltb_spec (Z.of_nat (s + fold_right Nat.add 0%nat (firstn b r) + k) - Z.of_nat s) 0) as [L|L]; [lia|].
    replace (Z.of_nat (s + fold_right Nat.add 0%nat (firstn b r) + k) - Z.of_nat s)%Z with (Z.of_nat (fold_right Nat.add 0%nat (firstn b r) + k)) by lia.
    rewrite IH by (split; lia). lia.
Qed.
Lemma node_loop_at : forall sizes b k, node sizes b k -> node_loop sizes (Z.of_nat (fold_right Nat.add 0%nat (firstn b sizes) + k)) = Z.of_nat k.
Proof.
  induction sizes as [|s r IH]; intros b k [B K]; [cbn in B; lia|]. destruct b as [|b]; cbn [node_loop firstn fold_right nth length] in *; cbv zeta.
  - destruct (Z.ltb_spec (Z.of_nat (0 + k) - Z.of_nat s) 0); lia.
  - destruct (Z.ltb_spec (Z.of_nat (s + fold_right Nat.add 0%nat (firstn b r) + k) - Z.of_nat s) 0) as [L|L]; [lia|].
    replace (Z.of_nat (s + fold_right Nat.add 0%nat (firstn b r) + k) - Z.of_nat s)%Z with (Z.of_nat (fold_right Nat.add 0%nat (firstn b r) + k)) by lia.
    apply IH. split; lia.
Qed.
Lemma number_lt sizes : forall b k, node sizes b k -> (1 <= number sizes b k < total sizes)%nat.
Proof.
  intros b k N. unfold number, total. enough ((fold_right Nat.add 0%nat (firstn b sizes) + k < fold_right Nat.add 0%nat sizes)%nat) by lia.
  revert b k N. induction sizes as [|s r IH]; intros b k [B K]; [cbn in B; lia|]. destruct b as [|b]; cbn [firstn fold_right nth length] in *; [lia|].
  assert (ND : node r b k) by (split; [lia|exact K]). specialize (IH b k ND). lia.
Qed.
(** Every node of every body has its own point, and what is looked up for that point is that node. *)
Theorem c112_points : forall sizes b k, node sizes b k ->
  (1 <= number sizes b k < length_force sizes)%nat /\ body_index sizes (number sizes b k) = b /\ node_index sizes (number sizes b k) = k.
Proof.
  intros sizes b k N. split; [rewrite length_total; apply number_lt, N|]. unfold body_index, node_index, number.
  replace (Z.of_nat (S (fold_right Nat.add 0%nat (firstn b sizes) + k)) - 1)%Z with (Z.of_nat (fold_right Nat.add 0%nat (firstn b sizes) + k)) by lia.
  rewrite body_loop_at, node_loop_at by exact N. split; [lia|apply Nat2Z.id].
Qed.
(** Every point but the hub is a node of a body. *)
Theorem c112_all_points : forall sizes n, (1 <= n < length_force sizes)%nat -> exists b k, node sizes b k /\ n = number sizes b k.
Proof.
  intros sizes n H. rewrite length_total in H. unfold total in H. assert (G : forall m, (m < fold_right Nat.add 0%nat sizes)%nat -> exists b k, node sizes b k /\ m = (fold_right Nat.add 0%nat (firstn b sizes) + k)%nat).
  { clear. induction sizes as [|s r IH]; intros m H; cbn in H; [lia|]. destruct (Nat.lt_ge_cases m s) as [L|L].
    - exists 0%nat, m. split; [split; cbn; lia|cbn; lia].
    - destruct (IH (m - s)%nat ltac:(lia)) as (b & k & [B K] & E). exists (S b), k. split; [split; cbn [length nth]; lia|]. cbn [firstn fold_right]. lia. }
  destruct (G (n - 1)%nat ltac:(lia)) as (b & k & N & E). exists b, k. split; [exact N|]. unfold number. lia.
Qed.

Lemma fill_points_at : forall v k n idx buf, fst (fill_points v k n idx buf) = (idx + k)%nat /\
  forall j, snd (fill_points v k n idx buf) j = if (Nat.leb idx j && Nat.ltb j (idx + k))%bool then v (n + (j - idx))%nat else buf j.
Proof.
  intros v k. induction k as [|k IH]; intros n idx buf; cbn [fill_points].
  - split; [cbn; lia|]. intros j. cbn [snd]. destruct (Nat.leb_spec idx j), (Nat.ltb_spec j (idx + 0)); cbn; try reflexivity; lia.
  - destruct (IH (S n) (S idx) (put buf idx (v n))) as [A B]. split; [rewrite A; lia|]. intros j. rewrite B. unfold put.
    destruct (Nat.leb_spec (S idx) j), (Nat.ltb_spec j (S idx + k)), (Nat.leb_spec idx j), (Nat.ltb_spec j (idx + S k)), (Nat.eqb_spec j idx); cbn [andb]; try lia; try reflexivity; try (f_equal; lia).
Qed.
Lemma fill_at N v buf d n : (1 <= N)%nat -> (d < 3)%nat -> (n < N)%nat -> fill N v buf (d * N + n)%nat = if Nat.eqb n 0 then buf (d * N + n)%nat else v d n.
Proof.
  intros HN D L. unfold fill. cbn [fold_left]. unfold fill_dir. cbn [fst snd].
  destruct (fill_points_at (v 0%nat) (N - 1) 1 1 buf) as [A0 B0]. rewrite A0.
  set (b0 := snd (fill_points (v 0%nat) (N - 1) 1 1 buf)) in *.
  destruct (fill_points_at (v 1%nat) (N - 1) 1 (S (1 + (N - 1))) b0) as [A1 B1]. rewrite A1.
  set (b1 := snd (fill_points (v 1%nat) (N - 1) 1 (S (1 + (N - 1))) b0)) in *.
  destruct (fill_points_at (v 2%nat) (N - 1) 1 (S (S (1 + (N - 1)) + (N - 1))) b1) as [_ B2]. rewrite B2, B1, B0. clear - HN D L.
  assert (E : (d = 0 \/ d = 1 \/ d = 2)%nat) by lia. destruct E as [->|[->| ->]];
  repeat match goal with |- context [Nat.leb ?a ?b] => destruct (Nat.leb_spec a b) | |- context [Nat.ltb ?a ?b] => destruct (Nat.ltb_spec a b) end;
  destruct (Nat.eqb_spec n 0); cbn [andb]; try lia; try reflexivity; f_equal; lia.
Qed.
Lemma put3_at N v buf d : (1 <= N)%nat -> (d < 3)%nat -> put3 N v buf (d * N)%nat = v d.
Proof.
  intros HN D. unfold put3, put. assert (E : (d = 0 \/ d = 1 \/ d = 2)%nat) by lia. destruct E as [->|[->| ->]];
  repeat match goal with |- context [Nat.eqb ?a ?b] => destruct (Nat.eqb_spec a b) end; try lia; reflexivity.
Qed.
Lemma total_pos sizes : (1 <= length_force sizes)%nat.
Proof. rewrite length_total. unfold total. lia. Qed.
(** For any number of bodies and nodes, the arrays the flow reads hold, for each direction and node, the load, place and velocity the solver has
    there, the chord, and for the hub its own place and velocity; the force on the hub, which the flow computes, is left as it was. *)
Theorem c112_arrays : forall s b d, (d < 3)%nat ->
  let N := length_force (s_sizes s) in let r := populate_buffers s b in
  (forall bd k, node (s_sizes s) bd k -> let i := (d * N + number (s_sizes s) bd k)%nat in
     b_f r i = s_loads s bd k d /\ b_pf r i = s_x s bd k d /\ b_pv r i = s_x s bd k d /\ b_sv r i = s_v s bd k d /\
     b_cf r (number (s_sizes s) bd k) = s_chord s bd k) /\
  b_pf r (d * N)%nat = s_hub_x s d /\ b_pv r (d * N)%nat = s_hub_x s d /\ b_sv r (d * N)%nat = s_hub_v s d /\ b_f r (d * N)%nat = b_f b (d * N)%nat /\ b_cf r 0%nat = 0.
Proof.
  intros s b d D N r. pose proof (total_pos (s_sizes s)) as P. fold N in P.
  assert (H0 : forall v buf, fill N v buf (d * N)%nat = buf (d * N)%nat) by (intros v buf; pose proof (fill_at N v buf d 0 P D ltac:(lia)) as F; rewrite Nat.add_0_r in F; exact F).
  split.
  - intros bd k ND i. destruct (c112_points (s_sizes s) bd k ND) as ([A B] & E1 & E2). fold N in B.
    assert (NZ : Nat.eqb (number (s_sizes s) bd k) 0 = false) by (apply Nat.eqb_neq; lia).
    unfold r, populate_buffers. cbn [b_f b_pf b_pv b_sv b_cf]. fold N. unfold i. rewrite !fill_at by assumption. rewrite NZ.
    unfold at_point. rewrite E1, E2. repeat split. destruct (fill_points_at (fun n => s_chord s (body_index (s_sizes s) n) (node_index (s_sizes s) n)) (N - 1) 1 1 (put (b_cf b) 0 0)) as [_ F]. rewrite F.
    destruct (Nat.leb_spec 1 (number (s_sizes s) bd k)), (Nat.ltb_spec (number (s_sizes s) bd k) (1 + (N - 1))); cbn [andb]; try lia.
    replace (1 + (number (s_sizes s) bd k - 1))%nat with (number (s_sizes s) bd k) by lia. rewrite E1, E2. reflexivity.
  - unfold r, populate_buffers. cbn [b_f b_pf b_pv b_sv b_cf]. fold N. rewrite !H0, !put3_at by assumption. repeat split.
    destruct (fill_points_at (at_point (s_sizes s) (s_chord s)) (N - 1) 1 1 (put (b_cf b) 0 0)) as [_ F]. rewrite F. reflexivity.
Qed.

Lemma pass_points_at sizes dir fv b k d p : (forall m, body_index sizes m = b -> node_index sizes m = k -> (1 <= m < length_force sizes)%nat -> m = p) ->
  body_index sizes p = b -> node_index sizes p = k ->
  forall c n idx w, (1 <= n)%nat -> (n + c <= length_force sizes)%nat -> fst (pass_points sizes dir c n idx fv w) = (idx + c)%nat /\
  snd (pass_points sizes dir c n idx fv w) b k d = if (Nat.eqb d dir && (Nat.leb n p && Nat.ltb p (n + c)))%bool then fv (idx + (p - n))%nat else w b k d.
Proof.
  intros U PB PK. induction c as [|c IH]; intros n idx w N1 NC; cbn [pass_points].
  - split; [cbn; lia|]. cbn [snd]. destruct (Nat.leb_spec n p), (Nat.ltb_spec p (n + 0)); try lia; cbn; rewrite ?Bool.andb_false_r; reflexivity.
  - match goal with |- context [pass_points sizes dir c (S n) (S idx) fv ?w'] => destruct (IH (S n) (S idx) w' ltac:(lia) ltac:(lia)) as [A B] end.
    split; [rewrite A; lia|]. rewrite B. unfold put. specialize (U n).
    destruct (Nat.eq_dec n p) as [->|NP].
    + rewrite PB, PK, !Nat.eqb_refl. destruct (Nat.leb_spec (S p) p), (Nat.leb_spec p p), (Nat.ltb_spec p (p + S c)); try lia. cbn [andb].
      rewrite Bool.andb_false_r. destruct (Nat.eqb_spec d dir); cbn [andb]; [f_equal; lia|reflexivity].
    + replace (if Nat.eqb b (body_index sizes n) then _ else w b) with
        (fun k0 => if Nat.eqb b (body_index sizes n) then (if Nat.eqb k0 (node_index sizes n) then (fun j => if Nat.eqb j dir then fv idx else w (body_index sizes n) (node_index sizes n) j) else w (body_index sizes n) k0) else w b k0)
        by (destruct (Nat.eqb b (body_index sizes n)); reflexivity).
      assert (E : (if Nat.eqb b (body_index sizes n) then (if Nat.eqb k (node_index sizes n) then (fun j => if Nat.eqb j dir then fv idx else w (body_index sizes n) (node_index sizes n) j) else w (body_index sizes n) k) else w b k) d = w b k d).
      { destruct (Nat.eqb_spec b (body_index sizes n)) as [e|]; [|reflexivity]. destruct (Nat.eqb_spec k (node_index sizes n)) as [e'|]; [|rewrite e; reflexivity].
        exfalso. apply NP, U; [symmetry; exact e|symmetry; exact e'|lia]. }
      rewrite E. destruct (Nat.eqb d dir); cbn [andb]; [|reflexivity].
      destruct (Nat.leb_spec (S n) p), (Nat.leb_spec n p), (Nat.ltb_spec p (S n + c)), (Nat.ltb_spec p (n + S c)); cbn [andb]; try lia; try reflexivity. f_equal. lia.
Qed.
(** The velocity of the flow at a point reaches the node of that point, in every direction; the values of the hub are those of its slots. *)
Theorem c112_inflow : forall sizes fv w,
  let N := length_force sizes in
  (forall b k d, node sizes b k -> (d < 3)%nat -> pass_velocity sizes fv w b k d = fv (d * N + number sizes b k)%nat) /\
  hub_values sizes fv = [fv (0 * N)%nat; fv (1 * N)%nat; fv (2 * N)%nat].
Proof.
  intros sizes fv w N. split; [|unfold hub_values; fold N; cbn; rewrite Nat.add_0_r; reflexivity]. intros b k d ND D.
  destruct (c112_points sizes b k ND) as ([A B] & E1 & E2). set (p := number sizes b k) in *. fold N in B.
  assert (U : forall m, body_index sizes m = b -> node_index sizes m = k -> (1 <= m < length_force sizes)%nat -> m = p).
  { intros m M1 M2 M3. destruct (c112_all_points sizes m M3) as (b' & k' & ND' & ->). destruct (c112_points sizes b' k' ND') as (_ & F1 & F2). unfold p. congruence. }
  unfold pass_velocity. fold N. cbn [fold_left fst snd].
  pose proof (fun dir => pass_points_at sizes dir fv b k d p U E1 E2 (N - 1) 1) as G.
  assert (L : (1 + (N - 1) <= length_force sizes)%nat) by (fold N; lia).
  rewrite (proj1 (G 0%nat 1%nat w (le_n 1) L)).
  match goal with |- context [pass_points sizes 1 _ _ ?i fv ?w1] => rewrite (proj1 (G 1%nat i w1 (le_n 1) L)) end.
  rewrite (proj2 (G 2%nat _ _ (le_n 1) L)), (proj2 (G 1%nat _ _ (le_n 1) L)), (proj2 (G 0%nat _ _ (le_n 1) L)).
  destruct (Nat.leb_spec 1 p), (Nat.ltb_spec p (1 + (N - 1))); try lia. cbn [andb].
  assert (E : (d = 0 \/ d = 1 \/ d = 2)%nat) by lia. destruct E as [->|[->| ->]]; cbn [Nat.eqb andb]; f_equal; lia.
Qed.

Lemma fill_ori_at : forall q k n buf m c, (n <= m)%nat -> (c < 9)%nat ->
  fill_ori q k n buf (9 * m + c)%nat = if Nat.ltb m (n + k) then rot9 (q m) c else buf (9 * m + c)%nat.
Proof.
  intros q k. induction k as [|k IH]; intros n buf m c NM C; cbn [fill_ori].
  - destruct (Nat.ltb_spec m (n + 0)); [lia|reflexivity].
  - set (buf' := fold_left _ _ _).
    assert (F : forall j, buf' j = if (Nat.leb (n * 9) j && Nat.ltb j (n * 9 + 9))%bool then rot9 (q n) (j - n * 9) else buf j).
    { intros j. unfold buf'. cbn [seq fold_left]. unfold put.
      destruct (Nat.leb_spec (n * 9) j) as [L|L], (Nat.ltb_spec j (n * 9 + 9)) as [L'|L']; cbn [andb].
      - assert (X : exists x, j = (n * 9 + x)%nat /\ (x < 9)%nat) by (exists (j - n * 9)%nat; lia). destruct X as (x & -> & X).
        replace (n * 9 + x - n * 9)%nat with x by lia.
        do 9 (destruct x as [|x]; [repeat (match goal with |- context [Nat.eqb ?a ?b] => destruct (Nat.eqb_spec a b) end; try lia); reflexivity|]). lia.
      - repeat (match goal with |- context [Nat.eqb ?a ?b] => destruct (Nat.eqb_spec a b) end; try lia). reflexivity.
      - repeat (match goal with |- context [Nat.eqb ?a ?b] => destruct (Nat.eqb_spec a b) end; try lia). reflexivity.
      - lia. }
    destruct (Nat.eq_dec m n) as [->|NE].
    + destruct (Nat.ltb_spec n (n + S k)); [|lia].
      assert (K : forall k' n' b', (n < n')%nat -> fill_ori q k' n' b' (9 * n + c)%nat = b' (9 * n + c)%nat).
      { clear - C. induction k' as [|k' IHk]; intros n' b' H; cbn [fill_ori]; [reflexivity|]. rewrite IHk by lia. cbn [seq fold_left]. unfold put.
        repeat (match goal with |- context [Nat.eqb ?a ?b] => destruct (Nat.eqb_spec a b) end; try lia). reflexivity. }
      rewrite K by lia. rewrite F. destruct (Nat.leb_spec (n * 9) (9 * n + c)), (Nat.ltb_spec (9 * n + c) (n * 9 + 9)); cbn [andb]; try lia. f_equal. lia.
    + rewrite IH by lia. destruct (Nat.ltb_spec m (S n + k)), (Nat.ltb_spec m (n + S k)); try lia; [reflexivity|].
      rewrite F. destruct (Nat.leb_spec (n * 9) (9 * m + c)), (Nat.ltb_spec (9 * m + c) (n * 9 + 9)); cbn [andb]; try lia; reflexivity.
Qed.
(** The tensor the flow ends up with for a point, after the exchange between processes, has as its rows the three axes turned by the solver's
    quaternion of that point: of the hub for the first, of the node for the others. *)
Theorem c112_orientation : forall s b i fx fy fz px py pz, let N := length_force (s_sizes s) in
  length fx = N -> length fy = N -> length fz = N -> length px = N -> length py = N -> length pz = N -> (i < N)%nat ->
  let o := got_ori (pack fx fy fz px py pz (map (b_ori (populate_buffers s b)) (seq 0 (9 * N)))) N i in
  exists q, (i = 0%nat -> q = as_q (fun iq => s_hub_x s (iq + 3)%nat)) /\ (forall bd k, node (s_sizes s) bd k -> i = number (s_sizes s) bd k -> q = as_q (s_q s bd k)) /\
  V3 (txx o) (txy o) (txz o) = turned q (V3 1 0 0) /\ V3 (tyx o) (tyy o) (tyz o) = turned q (V3 0 1 0) /\ V3 (tzx o) (tzy o) (tzz o) = turned q (V3 0 0 1).
Proof.
  intros s b i fx fy fz px py pz N A B C D E F I o. exists (as_q (quat s i)).
  split; [intros ->; reflexivity|]. split.
  { intros bd k ND ->. destruct (c112_points (s_sizes s) bd k ND) as ([X _] & E1 & E2). unfold as_q, quat, at_point. rewrite E1, E2.
    destruct (Nat.eqb_spec (number (s_sizes s) bd k) 0); [lia|reflexivity]. }
  assert (LN : length (map (b_ori (populate_buffers s b)) (seq 0 (9 * N))) = (9 * N)%nat) by (rewrite map_length, seq_length; reflexivity).
  destruct (c88_exchange N fx fy fz px py pz _ 1 (V3 0 0 0) i A B C D E F LN I) as (_ & _ & _ & O). fold o in O.
  assert (R9 : forall c, (c < 9)%nat -> nth (9 * i + c) (map (b_ori (populate_buffers s b)) (seq 0 (9 * N))) 0 = rot9 (quat s i) c).
  { intros c Hc. assert (H : (9 * i + c < 9 * N)%nat) by lia. rewrite (nth_indep _ 0 (b_ori (populate_buffers s b) 0%nat)) by (rewrite LN; exact H).
    rewrite map_nth, seq_nth by exact H. unfold populate_buffers. cbn [b_ori]. fold N. rewrite Nat.add_0_l. rewrite fill_ori_at by lia. destruct (Nat.ltb_spec i (0 + N)); [reflexivity|lia]. }
  pose proof (R9 0%nat ltac:(lia)) as R0. rewrite Nat.add_0_r in R0. rewrite R0, !R9 in O by lia. rewrite O. cbn [txx txy txz tyx tyy tyz tzx tzy tzz].
  unfold turned, qmul, qconj, as_q, vadd, vcross, vdot, rot9. cbn [fst snd vx vy vz]. repeat split; f_equal; ring.
Qed.
(** Turning by a unit quaternion keeps lengths and angles, and the axes stay right-handed, so the tensors are rotations. *)
Theorem c112_rotation : forall q u v, unit_q q -> vdot (turned q u) (turned q v) = vdot u v /\
  vcross (turned q (V3 1 0 0)) (turned q (V3 0 1 0)) = turned q (V3 0 0 1).
Proof.
  intros [s [a b c]] [ux uy uz] [x y z] U. unfold unit_q, vdot in U. cbn [fst snd vx vy vz] in U.
  unfold turned, qmul, qconj, vadd, vcross, vdot. cbn [fst snd vx vy vz].
  assert (W : s * s = 1 - a * a - b * b - c * c) by lra. split.
  - transitivity ((s * s + (a * a + b * b + c * c)) * (s * s + (a * a + b * b + c * c)) * (ux * x + uy * y + uz * z)); [ring|]. rewrite U. ring.
  - set (T := s * s + (a * a + b * b + c * c)) in U.
    f_equal; [transitivity (T * (2 * (s * b + a * c)))|transitivity (T * (2 * (b * c - s * a)))|transitivity (T * (s * s - a * a - b * b + c * c))]; try (unfold T; ring); rewrite U; ring.
Qed.

(** One step of the flow: the velocity is given once, at the start; the solver makes all its steps, the controller being told the time of each; the
    motion is computed, written and handed over once, at the end; and the next step of the flow starts in the same way. *)
Theorem c112_steps : forall ctl nsub ts, length ts = nsub -> (1 <= nsub)%nat ->
  substeps_run ctl nsub (map (fun t => (true, t)) ts) 0 =
  Ret ([Motion; Pass; Loads; Nodal] ++ flat_map (fun t => Step :: (if ctl then [Control t] else [])) ts ++ [Motion; Write; Populate], 0%nat).
Proof.
  intros ctl nsub ts L P.
  assert (G : forall ts c, ts <> [] -> (c + length ts)%nat = nsub -> substeps_run ctl nsub (map (fun t => (true, t)) ts) c =
    Ret ((if Nat.eqb c 0 then [Motion; Pass; Loads; Nodal] else []) ++ flat_map (fun t => Step :: (if ctl then [Control t] else [])) ts ++ [Motion; Write; Populate], 0%nat)).
  { clear. induction ts as [|t r IH]; intros c NE H; [congruence|]. cbn [map substeps_run]. unfold update_turbine. cbn [andb negb].
    replace (Nat.eqb (S c) 1) with (Nat.eqb c 0) by (destruct c; reflexivity). destruct r as [|t' r].
    - cbn [length] in H. replace (Nat.eqb (S c) nsub) with true by (symmetry; apply Nat.eqb_eq; lia). cbn. destruct (Nat.eqb c 0), ctl; reflexivity.
    - cbn [length] in H. replace (Nat.eqb (S c) nsub) with false by (symmetry; apply Nat.eqb_neq; lia). cbn [obind fst snd].
      rewrite IH; [|discriminate|cbn [length]; lia]. cbn [Nat.eqb obind fst snd app]. f_equal. f_equal. cbn [flat_map]. rewrite !app_nil_r, <- !app_assoc. reflexivity. }
  rewrite G; [reflexivity|intros ->; cbn in L; lia|lia].
Qed.
(** A step of the solver that does not converge ends the run, whichever it is. *)
Theorem c112_not_converged : forall ctl nsub ss c t, In (false, t) ss -> substeps_run ctl nsub ss c = Abort.
Proof.
  intros ctl nsub ss. induction ss as [|[cv t'] r IH]; intros c t H; [destruct H|]. cbn [substeps_run]. unfold update_turbine.
  destruct cv; [|reflexivity]. destruct H as [H|H]; [discriminate|]. cbn [andb negb obind]. rewrite (IH _ t H). reflexivity.
Qed.
(** The start makes no step, hands over the first positions, and leaves the count where a step of the flow begins. *)
Theorem c112_start : forall ctl nsub conv t, update_turbine ctl nsub false conv t 0 =
  Ret ([Motion; Pass; Loads; Nodal] ++ (if Nat.eqb nsub 1 then [Motion] else []) ++ [Write; Populate], 0%nat).
Proof. intros ctl nsub conv t. destruct nsub as [|[|n]]; reflexivity. Qed.

(** The mass matrix of a section is that of its particles: for any particles with this mass, centre and second moments, and any motion, the energies agree. *)
Theorem c112_section : forall ps mass cm_x cm_y i_cp i_edge i_flap i_plr v w,
  mass = psum ps (fun m x y => m) -> mass * cm_x = psum ps (fun m x y => m * x) -> mass * cm_y = psum ps (fun m x y => m * y) ->
  i_cp = psum ps (fun m x y => m * (x * y)) -> i_edge = psum ps (fun m x y => m * (y * y)) -> i_flap = psum ps (fun m x y => m * (x * x)) ->
  i_plr = psum ps (fun m x y => m * (x * x + y * y)) ->
  twice_energy (section_mass mass cm_x cm_y i_cp i_edge i_flap i_plr) [vx v; vy v; vz v; vx w; vy w; vz w] = particles_energy ps v w.
Proof.
  intros ps mass cx cy icp ie ifl ip [v1 v2 v3] [w1 w2 w3] M X Y CP IE IF IP.
  transitivity ((v1 * v1 + v2 * v2 + v3 * v3) * mass + 2 * (v2 * w3 - v3 * w2) * (mass * cx) + 2 * (v3 * w1 - v1 * w3) * (mass * cy) - 2 * w1 * w2 * icp + w1 * w1 * ie + w2 * w2 * ifl + w3 * w3 * ip).
  { unfold twice_energy, dotl, section_mass. cbn [map combine fold_right fst snd vx vy vz]. ring. }
  rewrite X, Y, M, CP, IE, IF, IP. clear. unfold particles_energy. induction ps as [|[m [x y z]] ps IH]; cbn [psum fold_right] in *; [ring|].
  unfold psum in *. cbn [fold_right fst snd vx vy] in *. rewrite <- IH. unfold vdot, vadd, vcross. cbn [vx vy vz]. ring.
Qed.
(** So no motion of a section has negative energy. *)
Theorem c112_section_positive : forall ps v w, Forall (fun p => 0 <= fst p) ps -> 0 <= particles_energy ps v w.
Proof.
  intros ps v w H. unfold particles_energy, psum. induction H as [|p ps P H IH]; cbn [fold_right]; [lra|].
  apply Rplus_le_le_0_compat; [|exact IH]. apply Rmult_le_pos; [exact P|]. unfold vdot.
  match goal with |- 0 <= ?a * ?a + ?b * ?b + ?c * ?c => pose proof (Rle_0_sqr a); pose proof (Rle_0_sqr b); pose proof (Rle_0_sqr c) end. unfold Rsqr in *. lra.
Qed.
(** The hub carries its own inertia, and about the shaft that of a generator turning faster by the ratio of the gearbox. *)
Theorem c112_hub : forall mass h g ratio v w,
  twice_energy (hub_mass_matrix mass h g ratio) [vx v; vy v; vz v; vx w; vy w; vz w] =
  mass * vdot v v + vdot w (V3 (h 0%nat * vx w + h 3%nat * vy w + h 4%nat * vz w) (h 3%nat * vx w + h 1%nat * vy w + h 5%nat * vz w) (h 4%nat * vx w + h 5%nat * vy w + h 2%nat * vz w)) +
  g * ((ratio * vx w) * (ratio * vx w)).
Proof. intros. unfold twice_energy, dotl, hub_mass_matrix, vdot. cbn [map combine fold_right fst snd vx vy vz]. ring. Qed.
(** Tables of mass and of stiffness are accepted exactly when they have the same stations. *)
Theorem c112_grids : forall m k, (exists n, grids_ok m k = Ret n) <-> length m = length k /\ forall i, (i < length m)%nat -> Rabs (nth i m 0 - nth i k 0) <= 1 / 100000000.
Proof.
  intros m k. unfold grids_ok. destruct (Nat.eqb_spec (length m) (length k)) as [E|E]; cbn [negb]; [|split; [intros [n H]; discriminate|intros [H _]; contradiction]].
  transitivity (forallb (fun p => if Rlt_dec (1 / 100000000) (Rabs (fst p - snd p)) then false else true) (combine m k) = true).
  { destruct (forallb _ _); split; eauto; [intros [n H]; discriminate|discriminate]. }
  rewrite forallb_forall. split.
  - intros H. split; [exact E|]. intros i I. specialize (H (nth i m 0, nth i k 0)). cbn [fst snd] in H.
    assert (J : In (nth i m 0, nth i k 0) (combine m k)) by (rewrite <- combine_nth by exact E; apply nth_In; rewrite combine_length; lia).
    specialize (H J). destruct (Rlt_dec _ _); [discriminate|lra].
  - intros [_ H] [x y] J. apply (In_nth _ _ (0, 0)) in J. destruct J as (i & I & J). rewrite combine_length in I. rewrite combine_nth in J by exact E. injection J as <- <-. cbn [fst snd].
    specialize (H i ltac:(lia)). destruct (Rlt_dec _ _); [lra|reflexivity].
Qed.
(** A run starts only with as many points on a blade as the solver has sections, and none on the tower. *)
Theorem c112_counts : forall n p t, points_ok n p t = Ret tt <-> n = p /\ t = 0%nat.
Proof. intros n p t. unfold points_ok. destruct (Nat.eqb_spec n p), (Nat.eqb_spec t 0); cbn; split; try discriminate; intuition. Qed.
(** Without a step of its own the solver steps with the flow, once per step. *)
Theorem c112_default_step : forall dt_cfd, 0 < dt_cfd -> solver_dt None dt_cfd = dt_cfd /\ substeps tol_init dt_cfd (solver_dt None dt_cfd) = Ret 1%nat.
Proof.
  intros d D. assert (E : solver_dt None d = d) by (unfold solver_dt; destruct (Rlt_dec (-1) 0); [reflexivity|lra]). split; [exact E|]. rewrite E.
  replace d with (INR 1 * d) at 1 by (cbn; ring). apply c88_substeps; [unfold tol_init; left; apply Rinv_0_lt_compat, pow_lt; lra|lia|exact D].
Qed.
(** Turns per minute and degrees stand for the same rotation and yaw as radians per second and radians, which win if both are given. *)
Theorem c112_units : forall rad turns degrees, in_radians None (Some turns) (2 * PI / 60) = turns * (2 * PI) / 60 /\ in_radians None (Some degrees) (PI / 180) = degrees / 360 * (2 * PI) /\
  (forall other f, in_radians (Some rad) other f = rad) /\ forall f, in_radians None None f = 0.
Proof. intros. unfold in_radians. repeat split; intros; field. Qed.

(** Three bodies of two, one and three nodes: seven points; point 5 is the second node of the third body. *)
Example c112_ex_points : length_force [2; 1; 3]%nat = 7%nat /\ node [2; 1; 3]%nat 2 1 /\ number [2; 1; 3]%nat 2 1 = 5%nat /\ body_index [2; 1; 3]%nat 5 = 2%nat /\ node_index [2; 1; 3]%nat 5 = 1%nat.
Proof. unfold node. cbn. repeat split; lia. Qed.
Example c112_ex_unit : unit_q (3 / 5, V3 0 0 (4 / 5)) /\ turned (3 / 5, V3 0 0 (4 / 5)) (V3 1 0 0) = V3 (-7 / 25) (24 / 25) 0.
Proof. unfold unit_q, turned, qmul, qconj, vdot, vadd, vcross. cbn. split; [field|f_equal; field]. Qed.
Example c112_ex_steps : substeps_run true 2 [(true, 1); (true, 2)] 0 = Ret ([Motion; Pass; Loads; Nodal; Step; Control 1; Step; Control 2; Motion; Write; Populate], 0%nat).
Proof. reflexivity. Qed.
(** Two particles off the axis meet the hypotheses of [c112_section]. *)
Example c112_ex_section : let ps := [(2, V3 1 0 0); (1, V3 (-1) 3 0)] in
  3 = psum ps (fun m x y => m) /\ 3 * (1 / 3) = psum ps (fun m x y => m * x) /\ 3 * 1 = psum ps (fun m x y => m * y) /\ -3 = psum ps (fun m x y => m * (x * y)).
Proof. unfold psum. cbn. repeat split; field. Qed.
Example c112_ex_grids : exists n, grids_ok [0; 1] [0; 1] = Ret n.
Proof. apply c112_grids. split; [reflexivity|]. intros [|[|i]] H; cbn in *; try lia; rewrite Rminus_eq_0, Rabs_R0; lra. Qed.

Print Assumptions c112_points.
Print Assumptions c112_all_points.
Print Assumptions c112_arrays.
Print Assumptions c112_inflow.
Print Assumptions c112_orientation.
Print Assumptions c112_rotation.
Print Assumptions c112_steps.
Print Assumptions c112_not_converged.
Print Assumptions c112_start.
Print Assumptions c112_section.
Print Assumptions c112_section_positive.
Print Assumptions c112_hub.
Print Assumptions c112_grids.
Print Assumptions c112_counts.
Print Assumptions c112_default_step.
Print Assumptions c112_units.
