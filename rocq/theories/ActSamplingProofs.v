(** Proofs about ranks of actuators, sampling and interpolation. *)
From Coq Require Import String Permutation.
From Verif Require Import BoxR BoxRFacts VecSpace Tagging TaggingSpec TaggingProofs Wing ActSampling ActSamplingSpec.
Open Scope list_scope.
Open Scope R_scope.

(** *** Influenced ranks *)

Lemma rb_dim_pt lo hi plo phi dx dxi n :
  axis_ok plo phi dx dxi n -> axis_near lo hi plo dx ->
  exists a b, rb_dim lo hi plo phi dxi = Ret (a, b) /\
    (forall i x, plo + IZR i * dx < x < plo + (IZR i + 1) * dx -> plo <= x <= phi ->
       lo <= x <= hi -> (a <= i <= b)%Z) /\
    (forall i, (a <= i <= b)%Z -> lo < plo + (IZR i + 1) * dx /\ plo + IZR i * dx < hi + dx).
Proof.
  intros A N. pose proof (rb_dim_ok _ _ _ _ _ _ _ A N) as (a & b & E & A0 & B0 & _ & D0).
  exists a, b. split; [exact E|]. split; [|exact D0].
  destruct A as (D & I & P & Nn).
  unfold rb_dim in E. rewrite rmax_spec, rmin_spec in E.
  assert (Di : 0 < dxi) by (subst dxi; apply Rinv_0_lt_compat, D).
  assert (DD : dx * dxi = 1) by (subst dxi; field; lra).
  set (X := (Rmax lo plo - plo) * dxi) in *. set (Y := (Rmin hi phi - plo) * dxi) in *.
  assert (EX : Rmax lo plo - plo = X * dx) by (unfold X; rewrite Rmult_assoc, (Rmult_comm dxi), DD; ring).
  assert (EY : Rmin hi phi - plo = Y * dx) by (unfold Y; rewrite Rmult_assoc, (Rmult_comm dxi), DD; ring).
  clearbody X Y.
  unfold to_int in E. destruct (int_ok (rfloor X)); cbn [obind] in E; [|discriminate].
  destruct (int_ok (rceil Y)); cbn [obind] in E; [|discriminate]. injection E as <- <-.
  intros i x [H1 H2] [P1 P2] [L H].
  pose proof (rfloor_spec X) as FX. pose proof (rceil_spec Y) as CY.
  assert (LX : X < IZR i + 1) by (unfold Rmax in EX; destruct (Rle_dec lo plo); nra).
  assert (HY : IZR i < Y) by (unfold Rmin in EY; destruct (Rle_dec hi phi); nra).
  split.
  - apply IZR_lt_le. lra.
  - apply le_IZR. lra.
Qed.

(** A cell of the finer box against the coarse one, one direction. *)
Lemma refine_dim a b r c : (0 < r)%Z ->
  (a * r <= c <= (b + 1) * r - 1)%Z <-> (a <= c / r <= b)%Z.
Proof.
  intros R. pose proof (Z.div_mod c r ltac:(lia)) as E. pose proof (Z.mod_pos_bound c r R) as M.
  split; intros [A B]; split; nia.
Qed.

Definition coarsen (c r : ivec) : ivec := IV (iv0 c / iv0 r) (iv1 c / iv1 r) (iv2 c / iv2 r).
Definition pos_ratio (r : ivec) : Prop := (0 < iv0 r /\ 0 < iv1 r /\ 0 < iv2 r)%Z.

Lemma in_refine b r c : pos_ratio r -> in_box (box_refine b r) c <-> in_box b (coarsen c r).
Proof.
  intros (R0 & R1 & R2). unfold in_box, box_refine, coarsen; cbn.
  rewrite !refine_dim by assumption. tauto.
Qed.

Lemma box_and_nonempty a b : box_empty (box_and a b) = false <-> exists c, in_box a c /\ in_box b c.
Proof.
  unfold box_empty, box_and, in_box; cbn. rewrite !orb_false_iff, !Z.ltb_ge. split.
  - intros [[A B] C]. exists (IV (Z.max (iv0 (blo a)) (iv0 (blo b))) (Z.max (iv1 (blo a)) (iv1 (blo b))) (Z.max (iv2 (blo a)) (iv2 (blo b)))).
    cbn. lia.
  - intros (c & A & B). lia.
Qed.

(** Level-0 cell of a cell of level [lev]. *)
Fixpoint ancestor (levels : list (mlevel * ivec)) (lev : nat) (c : ivec) : ivec :=
  match lev, levels with
  | S l, (_, r) :: rest => coarsen (ancestor rest l c) r
  | _, _ => c
  end.
(** Geometry of level [lev]. *)
Fixpoint level_geom (levels : list (mlevel * ivec)) (g : geom) (lev : nat) : geom :=
  match lev, levels with
  | S l, (_, r) :: rest => level_geom rest (finer g r) l
  | _, _ => g
  end.

Lemma infl_levels_iff levels : (forall lv r, In (lv, r) levels -> pos_ratio r) -> forall bx q,
  In q (infl_levels levels bx) <->
  exists lev lv r b c, nth_error levels lev = Some (lv, r) /\ In (b, q) lv /\ in_box b c /\
    in_box bx (ancestor levels lev c).
Proof.
  induction levels as [|[lv r] rest IH]; intros PR bx q.
  - cbn. split; [tauto|]. intros (lev & lv & r & b & c & E & _). destruct lev; discriminate.
  - cbn [infl_levels]. rewrite in_app_iff.
    rewrite (IH (fun l s H => PR l s (or_intror H))). split.
    + intros [H|(lev & lv' & r' & b & c & E & I & C & A)].
      * apply in_map_iff in H. destruct H as ([b q'] & E & H). cbn in E; subst q'.
        apply filter_In in H. destruct H as [I N]. cbn [fst] in N. apply negb_true_iff, box_and_nonempty in N.
        destruct N as (c & C1 & C2). exists 0%nat, lv, r, b, c. cbn. auto.
      * exists (S lev), lv', r', b, c. cbn. repeat split; try assumption; try apply C.
        all: apply in_refine in A; [|apply (PR lv r); left; reflexivity]; apply A.
    + intros (lev & lv' & r' & b & c & E & I & C & A). destruct lev as [|lev]; cbn in E.
      * injection E as <- <-. left. apply in_map_iff. exists (b, q). split; [reflexivity|].
        apply filter_In. split; [exact I|]. apply negb_true_iff, box_and_nonempty. exists c. auto.
      * right. exists lev, lv', r', b, c. repeat split; try assumption; try apply C.
        all: apply (in_refine _ r); [apply (PR lv r); left; reflexivity|exact A].
Qed.

(** One direction of the relation between a cell and its ancestor. *)
Lemma coarsen_dim plo dx r c x : (0 < r)%Z -> 0 < dx ->
  plo + IZR c * (dx / IZR r) < x < plo + (IZR c + 1) * (dx / IZR r) ->
  plo + IZR (c / r) * dx < x < plo + (IZR (c / r) + 1) * dx.
Proof.
  intros R D [A B].
  assert (R0 : 0 < IZR r) by (apply IZR_lt; lia).
  pose proof (Z.div_mod c r ltac:(lia)) as E. pose proof (Z.mod_pos_bound c r R) as M.
  assert (L : IZR r * IZR (c / r) <= IZR c) by (rewrite <- mult_IZR; apply IZR_le; lia).
  assert (H : IZR c + 1 <= IZR r * (IZR (c / r) + 1)).
  { rewrite <- !plus_IZR, <- mult_IZR. apply IZR_le. lia. }
  set (e := dx / IZR r) in *. assert (De : dx = e * IZR r) by (unfold e; field; lra).
  assert (E0 : 0 < e) by (unfold e; apply Rdiv_lt_0_compat; lra).
  rewrite De. nra.
Qed.

Definition inside (g : geom) (c : ivec) (p : vec) : Prop :=
  (vx (gplo g) + IZR (iv0 c) * vx (gdx g) < vx p < vx (gplo g) + (IZR (iv0 c) + 1) * vx (gdx g)) /\
  (vy (gplo g) + IZR (iv1 c) * vy (gdx g) < vy p < vy (gplo g) + (IZR (iv1 c) + 1) * vy (gdx g)) /\
  (vz (gplo g) + IZR (iv2 c) * vz (gdx g) < vz p < vz (gplo g) + (IZR (iv2 c) + 1) * vz (gdx g)).
Definition pos_dx (g : geom) : Prop := 0 < vx (gdx g) /\ 0 < vy (gdx g) /\ 0 < vz (gdx g).

Lemma pos_finer g r : pos_dx g -> pos_ratio r -> pos_dx (finer g r).
Proof.
  intros (A & B & C) (D & E & F). unfold pos_dx, finer; cbn.
  repeat split; apply Rdiv_lt_0_compat; try assumption; apply IZR_lt; assumption.
Qed.

Lemma ancestor_inside levels : (forall lv r, In (lv, r) levels -> pos_ratio r) -> forall lev g c p, pos_dx g ->
  inside (level_geom levels g lev) c p -> inside g (ancestor levels lev c) p.
Proof.
  induction levels as [|[lv r] rest IH]; intros PR lev g c p G H.
  - destruct lev; exact H.
  - destruct lev as [|lev]; [exact H|]. cbn [ancestor level_geom] in *.
    assert (R : pos_ratio r) by (apply (PR lv); left; reflexivity).
    apply IH in H; [|intros l s I; apply (PR l); right; exact I|apply pos_finer; assumption].
    destruct H as (H0 & H1 & H2), G as (G0 & G1 & G2), R as (R0 & R1 & R2). unfold inside, coarsen; cbn in *.
    split; [|split]; apply coarsen_dim; assumption.
Qed.

Lemma centre_inside g c : pos_dx g -> inside g c (centre g c).
Proof. intros (A & B & C). unfold inside, centre; cbn. repeat split; nra. Qed.
Lemma pos_level levels : (forall lv r, In (lv, r) levels -> pos_ratio r) -> forall lev g, pos_dx g -> pos_dx (level_geom levels g lev).
Proof.
  induction levels as [|[lv r] rest IH]; intros PR lev g G; destruct lev; cbn; auto.
  apply IH; [intros l s I; apply (PR l); right; exact I|]. apply pos_finer; [exact G|]. apply (PR lv); left; reflexivity.
Qed.

Lemma influenced_ok levels g n rb : geom_ok g n -> near rb g ->
  (forall lv r, In (lv, r) levels -> pos_ratio r) ->
  exists s, influenced levels g rb = Ret s /\
    (forall lev lv r b q c, nth_error levels lev = Some (lv, r) -> In (b, q) lv -> in_box b c ->
       in_rbox (RBox (gplo g) (gphi g)) (centre (level_geom levels g lev) c) ->
       in_rbox rb (centre (level_geom levels g lev) c) -> s q = true) /\
    (forall q, s q = true -> exists lev lv r b c, nth_error levels lev = Some (lv, r) /\
       In (b, q) lv /\ in_box b c /\ in_rbox (grown 2 g rb) (centre (level_geom levels g lev) c)).
Proof.
  intros (G0 & G1 & G2) (N0 & N1 & N2) PR. unfold influenced, realbox_to_box.
  assert (PD : pos_dx g) by (destruct G0, G1, G2; repeat split; assumption).
  destruct (rb_dim_pt _ _ _ _ _ _ _ G0 N0) as (a0 & b0 & -> & C0 & D0). cbn [obind].
  destruct (rb_dim_pt _ _ _ _ _ _ _ G1 N1) as (a1 & b1 & -> & C1 & D1). cbn [obind].
  destruct (rb_dim_pt _ _ _ _ _ _ _ G2 N2) as (a2 & b2 & -> & C2 & D2). cbn [obind fst snd].
  eexists. split; [reflexivity|]. split.
  - intros lev lv r b q c E I C (P0 & P1 & P2) (Q0 & Q1 & Q2). apply existsb_exists. exists q.
    split; [|apply Nat.eqb_refl]. apply infl_levels_iff; [exact PR|].
    exists lev, lv, r, b, c. split; [exact E|]. split; [exact I|]. split; [exact C|].
    pose proof (ancestor_inside levels PR lev g c _ PD (centre_inside _ c (pos_level levels PR lev g PD))) as (I0 & I1 & I2).
    unfold in_box; cbn in *. split; [|split]; [eapply C0|eapply C1|eapply C2]; eassumption.
  - intros q H. apply existsb_exists in H. destruct H as (q' & H & Eq). apply Nat.eqb_eq in Eq; subst q'.
    apply infl_levels_iff in H; [|exact PR]. destruct H as (lev & lv & r & b & c & E & I & C & A).
    exists lev, lv, r, b, c. split; [exact E|]. split; [exact I|]. split; [exact C|].
    pose proof (ancestor_inside levels PR lev g c _ PD (centre_inside _ c (pos_level levels PR lev g PD))) as (I0 & I1 & I2).
    destruct A as (A0 & A1 & A2). apply D0 in A0. apply D1 in A1. apply D2 in A2.
    unfold in_rbox, grown; cbn in *. destruct PD as (P0 & P1 & P2). cbn in *.
    repeat split; lra.
Qed.

(** *** Roots *)

Lemma length_bump p l : length (bump p l) = length l.
Proof. revert p; induction l; destruct p; cbn; auto. Qed.
Lemma nth_bump p l q : (p < length l)%nat ->
  nth q (bump p l) 0%nat = ((if Nat.eqb p q then 1 else 0) + nth q l 0)%nat.
Proof.
  revert p q; induction l as [|x l IH]; intros p q H; [cbn in H; lia|].
  destruct p, q; cbn [bump nth Nat.eqb]; try reflexivity.
  apply IH. cbn in H; lia.
Qed.

Lemma argmin_from_ok l i best bv pre : length pre = i -> (best < i)%nat -> nth best pre 0%nat = bv ->
  (forall q, (q < i)%nat -> (bv <= nth q pre 0)%nat) ->
  let k := argmin_from l i best bv in (k < i + length l)%nat /\
  forall q, (q < i + length l)%nat -> (nth k (pre ++ l) 0 <= nth q (pre ++ l) 0)%nat.
Proof.
  revert i best bv pre; induction l as [|x l IH]; intros i best bv pre L B V M; cbn zeta; cbn [argmin_from length].
  - rewrite app_nil_r. split; [lia|]. intros q Q. rewrite V. apply M. lia.
  - assert (LP : length (pre ++ [x]) = S i) by (rewrite app_length; cbn; lia).
    replace (i + S (length l))%nat with (S i + length l)%nat by lia.
    replace (pre ++ x :: l) with ((pre ++ [x]) ++ l) by (rewrite <- app_assoc; reflexivity).
    destruct (x <? bv)%nat eqn:X.
    + apply Nat.ltb_lt in X. apply IH; try assumption; try lia.
      * rewrite app_nth2 by lia. rewrite L, Nat.sub_diag. reflexivity.
      * intros q Q. destruct (Nat.eq_dec q i) as [->|].
        -- rewrite app_nth2 by lia. rewrite L, Nat.sub_diag. cbn; lia.
        -- rewrite app_nth1 by lia. specialize (M q). lia.
    + apply Nat.ltb_ge in X. apply IH; try assumption; try lia.
      * rewrite app_nth1 by lia. exact V.
      * intros q Q. destruct (Nat.eq_dec q i) as [->|].
        -- rewrite app_nth2 by lia. rewrite L, Nat.sub_diag. cbn; lia.
        -- rewrite app_nth1 by lia. apply M. lia.
Qed.
Lemma argmin_ok l : l <> [] -> (argmin l < length l)%nat /\
  forall q, (q < length l)%nat -> (nth (argmin l) l 0 <= nth q l 0)%nat.
Proof.
  destruct l as [|x l]; [congruence|]. intros _. cbn [argmin].
  pose proof (argmin_from_ok l 1 0 x [x] eq_refl ltac:(lia) eq_refl) as H.
  cbn zeta in H. cbn [length app] in *. apply H. intros q Q. destruct q; [cbn; lia|lia].
Qed.

Lemma find_filter_seq (f : nat -> bool) (s : pset) a n :
  match find f (filter s (seq a n)) with
  | Some p => (a <= p < a + n)%nat /\ s p = true /\ f p = true /\ forall q, (a <= q < p)%nat -> s q = true -> f q = false
  | None => forall q, (a <= q < a + n)%nat -> s q = true -> f q = false
  end.
Proof.
  revert a; induction n as [|n IH]; intros a; cbn [seq filter find].
  - intros q Q. lia.
  - specialize (IH (S a)). destruct (s a) eqn:Sa; cbn [find].
    + destruct (f a) eqn:F.
      * repeat split; auto; try lia.
      * destruct (find f (filter s (seq (S a) n))) as [p|].
        -- destruct IH as (A & B & C & D). repeat split; try lia; auto.
           intros q Q Sq. destruct (Nat.eq_dec q a) as [->|]; [exact F|]. apply D; [lia|exact Sq].
        -- intros q Q Sq. destruct (Nat.eq_dec q a) as [->|]; [exact F|]. apply IH; [lia|exact Sq].
    + destruct (find f (filter s (seq (S a) n))) as [p|].
      * destruct IH as (A & B & C & D). repeat split; try lia; auto.
        intros q Q Sq. destruct (Nat.eq_dec q a) as [->|]; [congruence|]. apply D; [lia|exact Sq].
      * intros q Q Sq. destruct (Nat.eq_dec q a) as [->|]; [congruence|]. apply IH; [lia|exact Sq].
Qed.

(** One actuator: the chosen rank has the smallest count. *)
Lemma root_proc_ok P s count : (0 < P)%nat -> length count = P ->
  let '(ip, s', c') := root_proc P s count in
  (ip < P)%nat /\ c' = bump ip count /\ s' ip = true /\
  (forall q, s q = true -> s' q = true) /\ (forall q, s' q = true -> s q = true \/ q = ip) /\
  (forall q, (q < P)%nat -> (nth ip count 0 <= nth q count 0)%nat) /\
  (forall q, (q < P)%nat -> s q = true -> nth q count 0%nat = 0%nat ->
     s ip = true /\ nth ip count 0%nat = 0%nat /\ (ip <= q)%nat).
Proof.
  intros P0 L. unfold root_proc.
  pose proof (find_filter_seq (fun ip => (nth ip count 0 <? 1)%nat) s 0 P) as F.
  destruct (find _ _) as [p|].
  - destruct F as (A & B & C & D). apply Nat.ltb_lt in C.
    repeat split; auto; try lia.
    destruct (le_lt_dec p q) as [K|K]; [exact K|].
    specialize (D q ltac:(lia) H0). apply Nat.ltb_ge in D. lia.
  - assert (NE : count <> []) by (destruct count; [cbn in L; lia|discriminate]).
    destruct (argmin_ok count NE) as [A B]. rewrite L in *.
    split; [exact A|]. split; [reflexivity|]. unfold pinsert. split; [rewrite Nat.eqb_refl; reflexivity|].
    split; [intros q ->; apply orb_true_r|]. split.
    + intros q K. apply orb_true_iff in K. destruct K as [K|K]; [right; apply Nat.eqb_eq, K|left; exact K].
    + split; [exact B|]. intros q Q S Z. specialize (F q ltac:(lia) S). apply Nat.ltb_ge in F. lia.
Qed.

Definition balanced (P : nat) (count : list nat) : Prop :=
  forall p q, (p < P)%nat -> (q < P)%nat -> (nth p count 0 <= nth q count 0 + 1)%nat.

Lemma roots_from_ok P : (0 < P)%nat -> forall infl count, length count = P -> balanced P count ->
  let '(l, c) := roots_from P infl count in
  length c = P /\ balanced P c /\ length l = length infl /\
  (forall p, (p < P)%nat -> nth p c 0%nat = (nth p count 0 + times p (map fst l))%nat) /\
  (forall i, (i < length infl)%nat -> let ip := fst (nth i l (0%nat, fun _ => false)) in
     let s := nth i infl (fun _ => false) in let s' := snd (nth i l (0%nat, fun _ => false)) in
     (ip < P)%nat /\ s' ip = true /\ (forall q, s q = true -> s' q = true) /\
     (forall q, s' q = true -> s q = true \/ q = ip) /\
     (forall q, (q < P)%nat -> s q = true ->
        (nth q count 0 + times q (firstn i (map fst l)) = 0)%nat ->
        s ip = true /\ (nth ip count 0 + times ip (firstn i (map fst l)) = 0)%nat /\ (ip <= q)%nat)).
Proof.
  intros P0. induction infl as [|s infl IH]; intros count L B; cbn [roots_from].
  - repeat split; auto; cbn in *; try lia.
  - pose proof (root_proc_ok P s count P0 L) as R. destruct (root_proc P s count) as [[ip s'] c'].
    destruct R as (R1 & -> & R2 & R3 & R4 & R5 & R6).
    assert (L' : length (bump ip count) = P) by (rewrite length_bump; exact L).
    assert (B' : balanced P (bump ip count)).
    { intros p q Hp Hq. rewrite !nth_bump by lia.
      specialize (B p q Hp Hq). specialize (R5 q Hq).
      destruct (Nat.eqb_spec ip p), (Nat.eqb_spec ip q); subst; lia. }
    specialize (IH _ L' B'). destruct (roots_from P infl (bump ip count)) as [l c].
    destruct IH as (I1 & I2 & I3 & I4 & I5). split; [exact I1|]. split; [exact I2|].
    split; [cbn; lia|]. split.
    + intros p Hp. rewrite I4, nth_bump by lia. cbn [map fst times]. lia.
    + intros i Hi. destruct i as [|i]; cbn zeta; cbn [nth fst snd firstn map times].
      * repeat split; auto; rewrite Nat.add_0_r in *;
          match goal with H : (_ < P)%nat, H2 : s _ = true, H3 : _ = 0%nat |- _ => destruct (R6 _ H H2 H3) as (X & Y & Z) end; auto.
      * specialize (I5 i ltac:(cbn in Hi; lia)). cbn zeta in I5. destruct I5 as (J1 & J2 & J3 & J4 & J5).
        split; [exact J1|]. split; [exact J2|]. split; [exact J3|]. split; [exact J4|].
        intros q Q Sq Z. destruct (J5 q Q Sq) as (K1 & K2 & K3).
        { rewrite nth_bump by lia. lia. }
        split; [exact K1|]. split; [|exact K3]. rewrite nth_bump in K2 by lia. lia.
Qed.

Lemma nth_repeat0 p P : nth p (repeat 0%nat P) 0%nat = 0%nat.
Proof. revert P; induction p; destruct P; cbn; auto. Qed.

(** *** The buffers *)

Lemma fold_sum {A} (f : A -> nat) l s : fold_left (fun s a => (s + f a)%nat) l s = (s + fold_left (fun s a => (s + f a)%nat) l 0)%nat.
Proof. revert s; induction l as [|a l IH]; intros s; cbn [fold_left]; [lia|]. rewrite (IH (s + f a)%nat), (IH (0 + f a)%nat). lia. Qed.
Lemma sum_flat {A B} (f : A -> list B) l : fold_left (fun s a => (s + length (f a))%nat) l 0%nat = length (flat_map f l).
Proof. induction l as [|a l IH]; [reflexivity|]. cbn [fold_left flat_map]. rewrite fold_sum, app_length, IH. lia. Qed.

Lemma total_flat acts r : total_pts acts r = length (flat_map (fun a => a_pos a r) (local_acts acts r)).
Proof. unfold total_pts. rewrite <- sum_flat. reflexivity. Qed.

Lemma put_positions_ok r acts : forall pre rest,
  length rest = length (flat_map (fun a => a_pos a r) acts) ->
  put_positions r acts (length pre) (pre ++ rest) = pre ++ flat_map (fun a => a_pos a r) acts.
Proof.
  induction acts as [|a acts IH]; intros pre rest L; cbn [put_positions flat_map] in *.
  - destruct rest; [rewrite app_nil_r; reflexivity|discriminate].
  - rewrite app_length in L. unfold put, npts.
    rewrite firstn_app, Nat.sub_diag, firstn_all, firstn_O, app_nil_r.
    rewrite skipn_app, skipn_all2 by lia. cbn [app].
    replace (length pre + length (a_pos a r) - length pre)%nat with (length (a_pos a r)) by lia.
    rewrite app_assoc. rewrite <- app_length. rewrite IH.
    + rewrite <- app_assoc. reflexivity.
    + rewrite skipn_length. lia.
Qed.

Lemma positions_flat acts r : positions acts r = flat_map (fun a => a_pos a r) (local_acts acts r).
Proof.
  unfold positions. pose proof (put_positions_ok r (local_acts acts r) [] (repeat vzero (total_pts acts r))) as H.
  cbn [app length] in H. apply H. rewrite repeat_length. apply total_flat.
Qed.

Lemma give_ok r : forall acts pv pd (fv : vec -> vec) (fd : vec -> R), length pv = length pd ->
  give r acts (length pv) (pv ++ map fv (flat_map (fun a => a_pos a r) acts))
    (pd ++ map fd (flat_map (fun a => a_pos a r) acts)) =
  map (fun a => (map fv (a_pos a r), map fd (a_pos a r))) acts.
Proof.
  induction acts as [|a acts IH]; intros pv pd fv fd L; [reflexivity|].
  cbn [give map flat_map]. unfold slice, npts.
  rewrite !map_app. apply f_equal2.
  - apply f_equal2.
    + rewrite skipn_app, skipn_all, Nat.sub_diag. cbn [app skipn].
      rewrite firstn_app, <- (map_length fv), Nat.sub_diag, firstn_all, firstn_O, app_nil_r. reflexivity.
    + rewrite L, skipn_app, skipn_all, Nat.sub_diag. cbn [app skipn].
      rewrite firstn_app, <- (map_length fd), Nat.sub_diag, firstn_all, firstn_O, app_nil_r. reflexivity.
  - rewrite !app_assoc. replace (length pv + length (a_pos a r))%nat with (length (pv ++ map fv (a_pos a r)))
      by (rewrite app_length, map_length; reflexivity).
    apply IH. rewrite !app_length, !map_length. lia.
Qed.

Lemma length_upd l i x : length (upd l i x) = length l.
Proof. revert i; induction l; destruct i; cbn; auto. Qed.
Lemma nth_upd l i x k : (k < length l)%nat -> nth k (upd l i x) 0 = if Nat.eqb i k then x else nth k l 0.
Proof.
  revert i k; induction l as [|y l IH]; intros i k H; [cbn in H; lia|].
  destruct i, k; cbn [upd nth Nat.eqb]; try reflexivity. apply IH. cbn in H; lia.
Qed.

Definition slot (offs : list nat) (p : particle) : nat := (nth (p_cpu p) offs 0 + p_idx p)%nat.

Lemma write_particle_ok offs buf p s n : (n < 4)%nat -> (s * 4 + n < length buf)%nat ->
  nth (s * 4 + n) (write_particle offs buf p) 0 =
    (if Nat.eqb (slot offs p) s then nth n (p_data p) 0 else nth (s * 4 + n) buf 0) /\
  length (write_particle offs buf p) = length buf.
Proof.
  intros N L. unfold write_particle. fold (slot offs p). cbn zeta. cbn [seq fold_left].
  rewrite !length_upd. split; [|reflexivity].
  rewrite !nth_upd by (rewrite ?length_upd; exact L).
  destruct (Nat.eqb_spec (slot offs p) s) as [->|NE].
  - destruct n as [|[|[|[|n]]]]; [..|lia];
    repeat (match goal with |- context [Nat.eqb ?a ?b] => destruct (Nat.eqb_spec a b); try lia end); reflexivity.
  - repeat (match goal with |- context [Nat.eqb ?a ?b] => destruct (Nat.eqb_spec a b); try lia end). reflexivity.
Qed.

Lemma writes_ok offs s n d ps : (n < 4)%nat ->
  (forall p, In p ps -> slot offs p = s -> nth n (p_data p) 0 = d) ->
  forall buf, (s * 4 + n < length buf)%nat ->
  nth (s * 4 + n) (fold_left (write_particle offs) ps buf) 0 =
    (if existsb (fun p => Nat.eqb (slot offs p) s) ps then d else nth (s * 4 + n) buf 0) /\
  length (fold_left (write_particle offs) ps buf) = length buf.
Proof.
  intros N. induction ps as [|p ps IH]; intros D buf L; [cbn; auto|].
  destruct (write_particle_ok offs buf p s n N L) as [A B].
  cbn [fold_left existsb]. destruct (IH (fun q H => D q (or_intror H)) (write_particle offs buf p)) as [C E]; [rewrite B; exact L|].
  rewrite C, E, B, A. split; [|reflexivity].
  destruct (Nat.eqb_spec (slot offs p) s) as [Es|NE]; cbn [orb].
  - destruct (existsb _ ps); [reflexivity|]. apply D; [left; reflexivity|exact Es].
  - reflexivity.
Qed.

Lemma add_lists_ok a b k : length a = length b -> nth k (add_lists a b) 0 = nth k a 0 + nth k b 0 /\ length (add_lists a b) = length a.
Proof.
  revert b k; induction a as [|x a IH]; intros [|y b] k L; try discriminate.
  - destruct k; cbn; split; try reflexivity; ring.
  - cbn [add_lists length]. destruct k; cbn [nth].
    + split; [reflexivity|]. f_equal. apply (IH b 0%nat). cbn in L; lia.
    + destruct (IH b k) as [A B]; [cbn in L; lia|]. rewrite A, B. auto.
Qed.
Lemma allreduce_ok n bufs k : (forall b, In b bufs -> length b = n) ->
  nth k (allreduce n bufs) 0 = rsum (map (fun b => nth k b 0) bufs).
Proof.
  unfold allreduce. intros H.
  assert (G : forall acc, length acc = n -> nth k (fold_left add_lists bufs acc) 0 = nth k acc 0 + rsum (map (fun b => nth k b 0) bufs)).
  { induction bufs as [|b bufs IH]; intros acc L; cbn [fold_left map].
    - cbn. ring.
    - destruct (add_lists_ok acc b k) as [A B]; [rewrite L; symmetry; apply H; left; reflexivity|].
      rewrite IH; [rewrite A, rsum_cons; ring|intros c C; apply H; right; exact C|rewrite B; exact L]. }
  rewrite G by apply repeat_length. rewrite nth_repeat. ring.
Qed.

(** Offsets: the ranks have disjoint parts of the buffer. *)
Lemma offsets_from_ok cs : forall o,
  last (offsets_from o cs) 0%nat = (o + fold_left Nat.add cs 0)%nat /\
  forall r, (r < length cs)%nat ->
    nth (S r) (offsets_from o cs) 0%nat = (nth r (offsets_from o cs) 0 + nth r cs 0)%nat.
Proof.
  assert (FS : forall l s, fold_left Nat.add l s = (s + fold_left Nat.add l 0)%nat).
  { induction l as [|a l IHl]; intros s; cbn [fold_left]; [lia|]. rewrite (IHl (s + a)%nat), (IHl (0 + a)%nat). lia. }
  induction cs as [|c cs IH]; intros o; cbn [offsets_from].
  - split; [cbn; lia|]. cbn. lia.
  - destruct (IH (o + c)%nat) as [A B]. split.
    + change (last (o :: offsets_from (o + c) cs) 0%nat) with
        (match offsets_from (o + c) cs with [] => o | _ => last (offsets_from (o + c) cs) 0%nat end).
      cbn [fold_left]. rewrite (FS cs (0 + c)%nat).
      destruct (offsets_from (o + c) cs) eqn:E; [destruct cs; discriminate|]. rewrite A. lia.
    + intros r R. destruct r as [|r].
      * cbn [nth]. destruct cs; cbn; lia.
      * cbn [nth]. apply B. cbn in R; lia.
Qed.
Lemma offsets_mono cs o r q : (r <= q <= length cs)%nat -> (nth r (offsets_from o cs) 0 <= nth q (offsets_from o cs) 0)%nat.
Proof.
  intros [A B]. induction q as [|q IH]; [assert (r = 0)%nat by lia; subst; lia|].
  destruct (Nat.eq_dec r (S q)) as [->|]; [lia|].
  rewrite (proj2 (offsets_from_ok cs o)) by lia. specialize (IH ltac:(lia) ltac:(lia)). lia.
Qed.
Lemma offsets_len cs o : length (offsets_from o cs) = S (length cs).
Proof. revert o; induction cs; intros; cbn; auto. Qed.
Lemma last_nth (l : list nat) d : l <> [] -> last l d = nth (length l - 1) l d.
Proof.
  induction l as [|x l IH]; [congruence|]. intros _. destruct l as [|y l]; [reflexivity|].
  change (last (x :: y :: l) d) with (last (y :: l) d). rewrite IH by discriminate. cbn [length].
  rewrite !Nat.sub_succ, !Nat.sub_0_r. reflexivity.
Qed.

Lemma slots_disjoint P acts r i q j : (r < P)%nat -> (q < P)%nat ->
  (i < total_pts acts r)%nat -> (j < total_pts acts q)%nat ->
  (nth r (offsets P acts) 0 + i = nth q (offsets P acts) 0 + j)%nat -> r = q /\ i = j.
Proof.
  intros R Q I J E. unfold offsets in *. set (cs := map (total_pts acts) (seq 0 P)) in *.
  assert (LC : length cs = P) by (unfold cs; rewrite map_length, seq_length; reflexivity).
  assert (NC : forall k, (k < P)%nat -> nth k cs 0%nat = total_pts acts k).
  { intros k K. unfold cs. rewrite (nth_indep _ _ (total_pts acts 0)) by (rewrite map_length, seq_length; exact K).
    rewrite map_nth, seq_nth by exact K. reflexivity. }
  destruct (Nat.lt_trichotomy r q) as [H|[H|H]].
  - pose proof (offsets_mono cs 0 (S r) q ltac:(lia)). pose proof (proj2 (offsets_from_ok cs 0) r ltac:(lia)) as K. rewrite (NC r R) in K. lia.
  - split; [exact H|]. rewrite H in E. lia.
  - pose proof (offsets_mono cs 0 (S q) r ltac:(lia)). pose proof (proj2 (offsets_from_ok cs 0) q ltac:(lia)) as K. rewrite (NC q Q) in K. lia.
Qed.
Lemma slot_bound P acts r i : (r < P)%nat -> (i < total_pts acts r)%nat ->
  (nth r (offsets P acts) 0 + i < last (offsets P acts) 0)%nat.
Proof.
  intros R I. unfold offsets. set (cs := map (total_pts acts) (seq 0 P)).
  assert (LC : length cs = P) by (unfold cs; rewrite map_length, seq_length; reflexivity).
  assert (NC : nth r cs 0%nat = total_pts acts r).
  { unfold cs. rewrite (nth_indep _ _ (total_pts acts 0)) by (rewrite map_length, seq_length; exact R).
    rewrite map_nth, seq_nth by exact R. reflexivity. }
  rewrite last_nth by (destruct cs; discriminate). rewrite offsets_len, LC.
  replace (S P - 1)%nat with P by lia.
  pose proof (offsets_mono cs 0 (S r) P ltac:(lia)). pose proof (proj2 (offsets_from_ok cs 0) r ltac:(lia)). lia.
Qed.

(** Sum over ranks of something only one of them has. *)
Lemma rsum_one P q d : rsum (map (fun k => if Nat.eqb k q then d else 0) (seq 0 P)) = if (q <? P)%nat then d else 0.
Proof.
  induction P as [|P IH]; [reflexivity|].
  rewrite seq_S, map_app, rsum_app, IH. cbn [plus map]. rewrite rsum_cons. cbn [rsum fold_right].
  destruct (Nat.eqb_spec P q), (Nat.ltb_spec q P), (Nat.ltb_spec q (S P)); try lia; subst; try ring.
Qed.

(** What the buffer holds for point [i] of rank [r]. *)
Definition datum (fields : nat -> flevel) (wh : wherefn) (p : vec) (n : nat) : R :=
  match wh p with
  | Some (_, lev) => let f := fields lev in
      match n with 0%nat => interp (f_geom f) (f_vel f 0%nat) p | 1%nat => interp (f_geom f) (f_vel f 1%nat) p
        | 2%nat => interp (f_geom f) (f_vel f 2%nat) p | _ => interp (f_geom f) (f_den f) p end
  | None => 0
  end.

Lemma interpolate_fields fields wh p n : p_data p = [] -> (n < 4)%nat ->
  slot [] (interpolate fields wh p) = slot [] p /\
  p_cpu (interpolate fields wh p) = p_cpu p /\ p_idx (interpolate fields wh p) = p_idx p /\
  nth n (p_data (interpolate fields wh p)) 0 = datum fields wh (p_pos p) n.
Proof.
  intros D N. unfold interpolate, datum. destruct (wh (p_pos p)) as [[q lev]|].
  - cbn zeta. cbn [p_cpu p_idx p_data]. repeat split. destruct n as [|[|[|[|n]]]]; try reflexivity. lia.
  - rewrite D. repeat split. destruct n; reflexivity.
Qed.

Lemma particle_form tile acts P p : In p (flat_map (make_particles tile acts) (seq 0 P)) ->
  (p_cpu p < P)%nat /\ (p_idx p < total_pts acts (p_cpu p))%nat /\ tile (p_cpu p) = true /\ p_data p = [] /\
  p_pos p = nth (p_idx p) (positions acts (p_cpu p)) vzero.
Proof.
  intros H. apply in_flat_map in H. destruct H as (r & R & H). apply in_seq in R.
  unfold make_particles in H. destruct (tile r) eqn:T; [|destruct H].
  apply in_map_iff in H. destruct H as (i & <- & I). apply in_seq in I. cbn. repeat split; try lia; assumption.
Qed.

Lemma in_after wh P before after q p : redistributed wh P before after -> (q < P)%nat ->
  (In p (after q) <-> In p (flat_map before (seq 0 P)) /\ held wh q p = true).
Proof.
  intros H Q. specialize (H q Q). split; intros I.
  - apply (Permutation_in _ H) in I. apply filter_In in I. exact I.
  - apply (Permutation_in _ (Permutation_sym H)). apply filter_In. exact I.
Qed.

Lemma buffer_ok P tile acts fields wh after r i n : (r < P)%nat -> (i < total_pts acts r)%nat -> (n < 4)%nat ->
  (forall p q lev, wh p = Some (q, lev) -> (q < P)%nat) ->
  redistributed wh P (make_particles tile acts) after ->
  let offs := offsets P acts in
  nth ((nth r offs 0 + i) * 4 + n)%nat
    (allreduce (last offs 0 * 4)%nat (map (fun q => local_buffer offs (map (interpolate fields wh) (after q))) (seq 0 P))) 0 =
  if tile r then datum fields wh (nth i (positions acts r) vzero) n else 0.
Proof.
  intros R I N W RD offs. set (s := (nth r offs 0 + i)%nat). set (pos := nth i (positions acts r) vzero).
  pose proof (slot_bound P acts r i R I) as SB. fold offs in SB. fold s in SB.
  assert (LB : (s * 4 + n < last offs 0 * 4)%nat) by lia.
  set (d := datum fields wh pos n).
  assert (LOC : forall q, (q < P)%nat ->
    length (local_buffer offs (map (interpolate fields wh) (after q))) = (last offs 0 * 4)%nat /\
    nth (s * 4 + n) (local_buffer offs (map (interpolate fields wh) (after q))) 0 =
    if tile r && match wh pos with Some (q', _) => Nat.eqb q q' | None => false end then d else 0).
  { intros q Q. unfold local_buffer.
    assert (SAME : forall p, In p (after q) -> slot offs (interpolate fields wh p) = s ->
              p_cpu p = r /\ p_idx p = i /\ p_pos p = pos /\ tile r = true).
    { intros p Hp Es. apply (in_after wh P _ after q p RD Q) in Hp. destruct Hp as [Hp _].
      apply particle_form in Hp. destruct Hp as (A & B & C & D & E).
      destruct (interpolate_fields fields wh p n D N) as (_ & F & G & _).
      unfold slot in Es. rewrite F, G in Es. unfold s in Es.
      destruct (slots_disjoint P acts _ _ _ _ A R B I Es) as [X Y].
      rewrite X in *. rewrite Y in *. repeat split; auto. }
    destruct (writes_ok offs s n d (map (interpolate fields wh) (after q)) N) with (buf := repeat 0 (last offs 0 * 4)%nat) as [V L].
    - intros p' Hp' Es. apply in_map_iff in Hp'. destruct Hp' as (p & <- & Hp).
      destruct (SAME p Hp Es) as (A & B & C & _).
      apply (in_after wh P _ after q p RD Q) in Hp. destruct Hp as [Hp _].
      apply particle_form in Hp. destruct (interpolate_fields fields wh p n (proj1 (proj2 (proj2 (proj2 Hp)))) N) as (_ & _ & _ & G).
      rewrite G, C. reflexivity.
    - rewrite repeat_length. exact LB.
    - rewrite L, repeat_length. split; [reflexivity|]. rewrite V, nth_repeat.
      match goal with |- (if ?a then _ else _) = (if ?b then _ else _) => replace a with b; [reflexivity|] end.
      apply eq_true_iff_eq. rewrite existsb_exists. rewrite andb_true_iff. split.
      + intros [T H]. exists (interpolate fields wh (Part r i pos [])). split.
        * apply in_map. apply (in_after wh P _ after q _ RD Q). split.
          -- apply in_flat_map. exists r. split; [apply in_seq; lia|]. unfold make_particles. rewrite T.
             apply in_map_iff. exists i. split; [reflexivity|apply in_seq; lia].
          -- unfold held. cbn [p_pos]. exact H.
        * apply Nat.eqb_eq. unfold slot. unfold interpolate; cbn [p_pos]. destruct (wh pos) as [[q' lev]|]; reflexivity.
      + intros (p' & Hp' & Es). apply Nat.eqb_eq in Es. apply in_map_iff in Hp'. destruct Hp' as (p & <- & Hp).
        destruct (SAME p Hp Es) as (A & B & C & T). split; [exact T|].
        apply (in_after wh P _ after q p RD Q) in Hp. destruct Hp as [_ Hh]. unfold held in Hh. rewrite C in Hh. exact Hh. }
  rewrite allreduce_ok.
  2:{ intros b Hb. apply in_map_iff in Hb. destruct Hb as (q & <- & Q). apply in_seq in Q. apply LOC. lia. }
  rewrite map_map.
  rewrite (rsum_ext _ (fun q => if tile r && match wh pos with Some (q', _) => Nat.eqb q q' | None => false end then d else 0)).
  2:{ intros q Q. apply in_seq in Q. apply LOC. lia. }
  destruct (tile r); cbn [andb]; [|apply rsum_zero; reflexivity].
  unfold d, datum. destruct (wh pos) as [[q' lev]|] eqn:Wp.
  - rewrite rsum_one. rewrite (proj2 (Nat.ltb_lt _ _) (W _ _ _ Wp)). reflexivity.
  - apply rsum_zero. reflexivity.
Qed.

Lemma map_seq_nth {A B} (f : A -> B) (l : list A) d : map (fun i => f (nth i l d)) (seq 0 (length l)) = map f l.
Proof.
  induction l as [|x l IH]; [reflexivity|]. cbn [length seq map nth]. f_equal. rewrite <- seq_shift, map_map. exact IH.
Qed.
