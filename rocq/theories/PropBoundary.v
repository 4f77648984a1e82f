(** C65: boundary conditions.  C66: inflow profiles. *)
From Coq Require Import Reals String Ascii.
From Verif Require Import Base BoxR BoxRFacts VofAdvect BoundaryCond BoundarySpec.
From Coq Require Import Lra Lia.
Open Scope R_scope.
Open Scope string_scope.

(** * Reading the types *)

Lemma lower_same a : same_letter a (lower_ascii a).
Proof.
  destruct (andb (Nat.leb 65 (nat_of_ascii a)) (Nat.leb (nat_of_ascii a) 90)) eqn:E.
  - right. exists (nat_of_ascii a - 65)%nat. left.
    destruct a as [[] [] [] [] [] [] [] []]; cbv in E; try discriminate; split; reflexivity.
  - left. unfold lower_ascii. rewrite E. reflexivity.
Qed.

Lemma same_lower a b : same_letter a b -> lower_ascii a = lower_ascii b.
Proof.
  intros [->|[i H]]; [reflexivity|].
  do 26 (destruct i as [|i];
    [simpl in H; destruct H as [[H1 H2]|[H1 H2]]; injection H1 as <-; injection H2 as <-; reflexivity|]).
  simpl in H. destruct H as [[H _]|[H _]]; discriminate.
Qed.

Lemma letters_lower s t : same_letters s t -> to_lower s = to_lower t.
Proof. induction 1; simpl; [reflexivity|]. rewrite (same_lower _ _ H), IHsame_letters. reflexivity. Qed.

Lemma lower_letters s : same_letters s (to_lower s).
Proof. induction s; simpl; constructor; [apply lower_same|assumption]. Qed.

Lemma letters_iff s t : to_lower t = t -> (same_letters s t <-> to_lower s = t).
Proof.
  intro L. split; intro H.
  - rewrite (letters_lower _ _ H). exact L.
  - rewrite <- H. apply lower_letters.
Qed.

Lemma type_word i : type_string i = to_lower (word i).
Proof. unfold type_string, word. destruct (fi_ftype i), (fi_type i); reflexivity. Qed.

Lemma parse_names s b : b <> Undefined -> (parse_type s = b <-> names s b).
Proof.
  intro NU. split.
  - unfold parse_type. intro H.
    repeat match type of H with
    | (if orb (?x =? ?u) (?x =? ?v) then _ else _) = _ =>
        destruct (String.eqb_spec x u) as [->|]; [simpl in H; subst b; constructor|];
        destruct (String.eqb_spec x v) as [->|]; [simpl in H; subst b; constructor|];
        simpl in H
    end.
    congruence.
  - intro H. destruct H; reflexivity.
Qed.

Lemma names_defined s b : names s b -> b <> Undefined /\ to_lower s = s /\ b <> Periodic.
Proof. intro H. destruct H; repeat split; try discriminate; reflexivity. Qed.

Lemma read_face_asked per inp f b : read_face per inp f = Ret b <-> asked per inp f b.
Proof.
  unfold read_face, asked. rewrite type_word.
  destruct (per (fdir f)) eqn:P; cbn [andb].
  - destruct (String.eqb_spec (to_lower (word (inp f))) "null") as [E|E]; cbn [negb andb].
    + split; [intro H; injection H as <-; split; [reflexivity|left; apply letters_iff; [reflexivity|exact E]]|].
      intros [-> _]. reflexivity.
    + destruct (String.eqb_spec (to_lower (word (inp f))) "periodic") as [E'|E']; cbn [negb andb].
      * split; [intro H; injection H as <-; split; [reflexivity|right; apply letters_iff; [reflexivity|exact E']]|].
        intros [-> _]. reflexivity.
      * split; [discriminate|]. intros [_ [H|H]]; apply letters_iff in H; try reflexivity; contradiction.
  - split.
    + intro H. exists (to_lower (word (inp f))). split; [|apply lower_letters].
      destruct (parse_type _) eqn:E in H; try discriminate; injection H as <-;
        apply parse_names; try discriminate; exact E.
    + intros [s [N L]]. destruct (names_defined _ _ N) as [D [LS _]].
      apply letters_iff in L; [|exact LS]. rewrite L.
      apply parse_names in N; [|exact D]. rewrite N. destruct b; try reflexivity. congruence.
Qed.

Lemma mapM_ret {A B} (g : A -> outcome B) l ys :
  mapM g l = Ret ys <-> Forall2 (fun x y => g x = Ret y) l ys.
Proof.
  revert ys. induction l as [|x r IH]; intro ys; simpl.
  - split; [intro H; injection H as <-; constructor|]. intro H; inversion H; reflexivity.
  - split.
    + intro H. destruct (g x) as [y| |] eqn:G; simpl in H; try discriminate.
      destruct (mapM g r) as [zs| |] eqn:M; simpl in H; try discriminate. injection H as <-.
      constructor; [exact G|]. apply IH. reflexivity.
    + intro H. inversion H; subst. rewrite H2. simpl. apply IH in H4. rewrite H4. reflexivity.
Qed.

Lemma mapM_no_ub {A B} (g : A -> outcome B) l : (forall x, In x l -> g x <> UB) -> mapM g l <> UB.
Proof.
  induction l as [|x r IH]; intro H; simpl; [discriminate|].
  destruct (g x) eqn:G; simpl; [|discriminate|exfalso; apply (H x); [left; reflexivity|exact G]].
  destruct (mapM g r) eqn:M; simpl; try discriminate. exfalso. apply IH; [|reflexivity].
  intros z Z. apply H. right. exact Z.
Qed.

Lemma faces_in f : In f faces <-> (f < 6)%nat.
Proof. unfold faces. simpl. lia. Qed.

(** [mapM] over the six faces, by face number. *)
Lemma mapM_faces {B} (g : nat -> outcome B) (d : B) ys :
  mapM g faces = Ret ys <-> List.length ys = 6%nat /\ forall f, (f < 6)%nat -> g f = Ret (nth f ys d).
Proof.
  rewrite mapM_ret. split.
  - intro H. unfold faces in H.
    repeat match goal with K : Forall2 _ (_ :: _) _ |- _ => inversion K; subst; clear K end.
    match goal with K : Forall2 _ nil _ |- _ => inversion K; subst; clear K end.
    split; [reflexivity|]. intros f Hf.
    do 6 (destruct f as [|f]; [simpl; assumption|]). lia.
  - intros [L H].
    do 6 (destruct ys as [|? ys]; [discriminate|]). destruct ys; [|discriminate].
    unfold faces.
    constructor; [exact (H 0%nat ltac:(lia))|]. constructor; [exact (H 1%nat ltac:(lia))|].
    constructor; [exact (H 2%nat ltac:(lia))|]. constructor; [exact (H 3%nat ltac:(lia))|].
    constructor; [exact (H 4%nat ltac:(lia))|]. constructor; [exact (H 5%nat ltac:(lia))|].
    constructor.
Qed.

Lemma mapM_faces_ex {B} (g : nat -> outcome B) :
  (exists ys, mapM g faces = Ret ys) <-> forall f, (f < 6)%nat -> exists y, g f = Ret y.
Proof.
  split.
  - intros [ys H] f Hf. apply (mapM_ret g) in H.
    assert (I : In f faces) by (apply faces_in; exact Hf).
    clear Hf. induction H; [destruct I|]. destruct I as [->|I]; [exists y; assumption|auto].
  - intro H.
    destruct (H 0%nat ltac:(lia)) as [y0 E0], (H 1%nat ltac:(lia)) as [y1 E1],
      (H 2%nat ltac:(lia)) as [y2 E2], (H 3%nat ltac:(lia)) as [y3 E3],
      (H 4%nat ltac:(lia)) as [y4 E4], (H 5%nat ltac:(lia)) as [y5 E5].
    exists [y0; y1; y2; y3; y4; y5]. apply mapM_ret. unfold faces. repeat constructor; assumption.
Qed.

(** The types read are the ones the input asks for on each of the six faces, the
    field's own entry first, letter case ignored; a run whose input asks for
    anything else stops. *)
Theorem c65_types per inp ts :
  read_bctype per inp = Ret ts <->
  List.length ts = 6%nat /\ forall f, (f < 6)%nat -> asked per inp f (type_of ts f).
Proof.
  unfold read_bctype. rewrite (mapM_faces _ Undefined). unfold type_of.
  split; intros [L H]; (split; [exact L|]); intros f Hf; apply read_face_asked; auto.
Qed.

Theorem c65_types_stop per inp :
  read_bctype per inp = Abort <-> exists f, (f < 6)%nat /\ forall b, ~ asked per inp f b.
Proof.
  assert (NU : read_bctype per inp <> UB).
  { apply mapM_no_ub. intros f _. unfold read_face.
    destruct (andb _ _); [discriminate|]. destruct (per _); [discriminate|].
    destruct (parse_type _); discriminate. }
  pose proof (mapM_faces_ex (read_face per inp)) as E. fold (read_bctype per inp) in E.
  split.
  - intro A. rewrite A in E.
    assert (N : ~ forall f, (f < 6)%nat -> exists y, read_face per inp f = Ret y).
    { intro H. apply E in H. destruct H. discriminate. }
    assert (D : forall f, {exists y, read_face per inp f = Ret y} + {forall y, read_face per inp f <> Ret y}).
    { intro f. destruct (read_face per inp f) as [y| |]; [left; exists y; reflexivity|right; discriminate|right; discriminate]. }
    destruct (D 0%nat) as [D0|D0]; [|exists 0%nat; split; [lia|intros b K; apply read_face_asked in K; apply (D0 b K)]].
    destruct (D 1%nat) as [D1|D1]; [|exists 1%nat; split; [lia|intros b K; apply read_face_asked in K; apply (D1 b K)]].
    destruct (D 2%nat) as [D2|D2]; [|exists 2%nat; split; [lia|intros b K; apply read_face_asked in K; apply (D2 b K)]].
    destruct (D 3%nat) as [D3|D3]; [|exists 3%nat; split; [lia|intros b K; apply read_face_asked in K; apply (D3 b K)]].
    destruct (D 4%nat) as [D4|D4]; [|exists 4%nat; split; [lia|intros b K; apply read_face_asked in K; apply (D4 b K)]].
    destruct (D 5%nat) as [D5|D5]; [|exists 5%nat; split; [lia|intros b K; apply read_face_asked in K; apply (D5 b K)]].
    exfalso. apply N. intros f Hf. do 6 (destruct f as [|f]; [assumption|]). lia.
  - intros [f [Hf H]]. destruct (read_bctype per inp) as [ts| |] eqn:R; [|reflexivity|congruence].
    exfalso. destruct E as [E _]. destruct (E (ex_intro _ ts eq_refl) f Hf) as [y Y].
    apply read_face_asked in Y. exact (H y Y).
Qed.

(** * Rules of the fields *)

Lemma setup_inv k nc dflt per inp b : setup k nc dflt per inp = Ret b ->
  read_bctype per inp = Ret (bc_types b) /\
  mapM (fun f => rec_of k (type_of (bc_types b) f) (fdir f)) faces = Ret (bc_recs b) /\
  values_of k nc dflt (bc_types b) inp = Ret (bc_vals b).
Proof.
  unfold setup. intro H.
  destruct (read_bctype per inp) as [ts| |] eqn:E1; cbn [obind] in H; try discriminate.
  destruct (mapM _ faces) as [rs| |] eqn:E2 in H; cbn [obind] in H; try discriminate.
  destruct (values_of _ _ _ _ _) as [vs| |] eqn:E3 in H; cbn [obind] in H; try discriminate.
  injection H as <-. simpl. auto.
Qed.

Lemma setup_types k nc dflt per inp b f : setup k nc dflt per inp = Ret b -> (f < 6)%nat ->
  asked per inp f (type_of (bc_types b) f).
Proof. intros H Hf. apply setup_inv in H. destruct H as [H _]. apply c65_types in H. apply H. exact Hf. Qed.

Lemma setup_rec k nc dflt per inp b f : setup k nc dflt per inp = Ret b -> (f < 6)%nat ->
  rec_of k (type_of (bc_types b) f) (fdir f) = Ret (nth f (bc_recs b) (fun _ => IntDir)).
Proof.
  intros H Hf. apply setup_inv in H. destruct H as [_ [H _]].
  apply (mapM_faces _ (fun _ => IntDir)) in H. apply H. exact Hf.
Qed.

Lemma asked_periodic per inp f b : asked per inp f b -> (per (fdir f) = true <-> b = Periodic).
Proof.
  unfold asked. destruct (per (fdir f)).
  - intros [-> _]. split; reflexivity.
  - intros [s [N _]]. split; [discriminate|]. intros ->. destruct (names_defined _ _ N) as [_ [_ K]]. congruence.
Qed.

(** Velocity: in an accepted run the ghost cells beyond a face and the viscous
    operator agree, component by component, on whether the boundary value is
    prescribed, and do so exactly on inflows, no-slip walls and wave makers and
    for the normal component on the other walls. *)
Theorem c65_velocity dflt per inp b f n :
  setup KVelocity 3 dflt per inp = Ret b -> (f < 6)%nat -> (n < 3)%nat ->
  let t := type_of (bc_types b) f in
  let prescribed := value_face t \/ (normal_face t /\ n = fdir f) in
  (sets_value (nth f (bc_recs b) (fun _ => IntDir) n) <-> prescribed) /\
  (exists o, tensor_op (per (fdir f)) t (fdir f) n = Ret o /\
     (o = LDirichlet <-> prescribed) /\ (o = LPeriodic <-> per (fdir f) = true)) /\
  (nth f (bc_recs b) (fun _ => IntDir) n = IntDir <-> per (fdir f) = true).
Proof.
  intros S Hf Hn t prescribed.
  pose proof (setup_types _ _ _ _ _ _ _ S Hf) as A. fold t in A.
  pose proof (setup_rec _ _ _ _ _ _ _ S Hf) as Rc. fold t in Rc.
  pose proof (asked_periodic _ _ _ _ A) as P.
  set (r := nth f (bc_recs b) (fun _ => IntDir)) in *. clearbody r t. clear S A.
  unfold rec_of in Rc. subst prescribed. unfold value_face, normal_face, sets_value, tensor_op.
  destruct (per (fdir f)).
  - assert (T : t = Periodic) by (apply P; reflexivity). subst t. simpl in Rc. injection Rc as <-.
    repeat split; try (intros [K|K]; discriminate); try (intros [K|[K _]]; intuition discriminate);
      try (intro; reflexivity); try reflexivity.
    exists LPeriodic. repeat split; try discriminate; try reflexivity.
    intros [K|[K _]]; intuition discriminate.
  - assert (NP : t <> Periodic) by (intro K; apply P in K; discriminate).
    destruct t; simpl in Rc; try discriminate; try congruence; injection Rc as <-;
      destruct (Nat.eqb_spec n (fdir f)) as [E|E];
      (split; [split; [intros [K|K]; try discriminate; auto 6|
                       intros [K|[K K']]; try (exfalso; intuition discriminate); try contradiction; auto]|
       split; [eexists; split; [reflexivity|split; [split;
                 [intro K; try discriminate; auto 6|
                  intros [K|[K K']]; try (exfalso; intuition discriminate); try contradiction; auto]
                |split; intro K; discriminate]]
              |split; intro K; discriminate]]).
Qed.

(** Scalars: the same agreement for the ghost cells and the diffusion operator. *)
Theorem c65_scalar nc dflt per inp b f n :
  setup KScalar nc dflt per inp = Ret b -> (f < 6)%nat ->
  let t := type_of (bc_types b) f in
  (sets_value (nth f (bc_recs b) (fun _ => IntDir) n) <-> value_face t) /\
  (exists o, scalar_op (per (fdir f)) t = Ret o /\
     (o = LDirichlet <-> value_face t) /\ (o = LPeriodic <-> per (fdir f) = true) /\
     (o = LInhomogNeumann <-> t = FixedGradient \/ t = WallModel)) /\
  (nth f (bc_recs b) (fun _ => IntDir) n = IntDir <-> per (fdir f) = true).
Proof.
  intros S Hf t.
  pose proof (setup_types _ _ _ _ _ _ _ S Hf) as A. fold t in A.
  pose proof (setup_rec _ _ _ _ _ _ _ S Hf) as Rc. fold t in Rc.
  pose proof (asked_periodic _ _ _ _ A) as P.
  set (r := nth f (bc_recs b) (fun _ => IntDir)) in *. clearbody r t. clear S A.
  unfold rec_of in Rc. unfold value_face, sets_value, scalar_op.
  destruct (per (fdir f)).
  - assert (T : t = Periodic) by (apply P; reflexivity). subst t. simpl in Rc. injection Rc as <-.
    repeat split; try (intros [K|K]; intuition discriminate); try reflexivity.
    exists LPeriodic. repeat split; try discriminate; try reflexivity; intros; intuition discriminate.
  - assert (NP : t <> Periodic) by (intro K; apply P in K; discriminate).
    destruct t; simpl in Rc; try discriminate; try congruence; injection Rc as <-;
      (split; [split; intro K; try (exfalso; intuition discriminate); auto 6|
       split; [eexists; split; [reflexivity|
                 repeat split; intro K; try discriminate; try (exfalso; intuition discriminate); auto 6]
              |split; intro K; discriminate]]).
Qed.

(** Volume fraction and the density that follows it: prescribed exactly on
    inflows and wave makers, copied from the neighbouring cell on every other
    open face or wall, so that ghost values stay within the range of the data. *)
Theorem c65_vof nc dflt per inp b f n :
  setup KVof nc dflt per inp = Ret b -> (f < 6)%nat ->
  let t := type_of (bc_types b) f in
  let r := nth f (bc_recs b) (fun _ => IntDir) n in
  r <> HoExtrap /\ (r = IntDir <-> per (fdir f) = true) /\
  (sets_value r <-> t = MassInflow \/ t = MassInflowOutflow \/ t = WaveGeneration) /\
  t <> FixedGradient.
Proof.
  intros S Hf t r.
  pose proof (setup_types _ _ _ _ _ _ _ S Hf) as A. fold t in A.
  pose proof (setup_rec _ _ _ _ _ _ _ S Hf) as Rc. fold t in Rc.
  pose proof (asked_periodic _ _ _ _ A) as P.
  subst r. set (r := nth f (bc_recs b) (fun _ => IntDir)) in *. clearbody r t. clear S A.
  unfold rec_of in Rc. unfold sets_value.
  destruct t; simpl in Rc; try discriminate; injection Rc as <-;
    (split; [discriminate|]; split; [split; intro K; try discriminate; try (apply P in K; discriminate); try reflexivity; apply P; reflexivity|];
     split; [split; intro K; try (exfalso; intuition discriminate); auto 6|discriminate]).
Qed.

(** Source terms and default fields: extrapolated everywhere but on periodic faces. *)
Theorem c65_extrapolated e nc dflt per inp b f n :
  setup (KExtrap e) nc dflt per inp = Ret b -> (f < 6)%nat ->
  nth f (bc_recs b) (fun _ => IntDir) n = if per (fdir f) then IntDir else e.
Proof.
  intros S Hf.
  pose proof (setup_types _ _ _ _ _ _ _ S Hf) as A.
  pose proof (setup_rec _ _ _ _ _ _ _ S Hf) as Rc.
  pose proof (asked_periodic _ _ _ _ A) as P.
  simpl in Rc. injection Rc as <-. unfold extrap_rec.
  destruct (per (fdir f)).
  - destruct P as [P _]. rewrite P; reflexivity.
  - destruct (type_of (bc_types b) f); try reflexivity. destruct P as [_ P]. discriminate (P eq_refl).
Qed.

(** The two pressure projections agree: the pressure is held exactly on
    pressure outflows, and a problem without one has no held pressure in either. *)
Theorem c65_pressure per t :
  (mac_op per t = LDirichlet <-> per = false /\ t = PressureOutflow) /\
  (nodal_op per t = LDirichlet <-> mac_op per t = LDirichlet) /\
  (mac_op per t = LPeriodic <-> per = true) /\ (nodal_op per t = LPeriodic <-> per = true) /\
  (nodal_op per t = LInflow <-> per = false /\ (t = MassInflow \/ t = MassInflowOutflow \/ t = WaveGeneration)).
Proof.
  destruct per; simpl.
  - repeat split; intros; try discriminate; try reflexivity; intuition discriminate.
  - destruct t; repeat split; intros; try discriminate; try reflexivity; try (exfalso; intuition discriminate); auto.
Qed.

(** * Values *)

Lemma query_ret m v d : (exists x, query_arr m v d = Ret x) <-> (forall l, v = Some l -> (m <= List.length l)%nat).
Proof.
  unfold query_arr. destruct v as [l|].
  - destruct (Nat.ltb_spec (List.length l) m) as [H|H].
    + split; [intros [x K]; discriminate|]. intro K. specialize (K l eq_refl). lia.
    + split; [intros _ l' E; injection E as <-; exact H|]. intros _. eexists; reflexivity.
  - split; [discriminate|]. intros _. eexists; reflexivity.
Qed.

Lemma get_ret m v d : (exists x, get_arr m v d = Ret x) <-> (exists l, v = Some l /\ (m <= List.length l)%nat).
Proof.
  unfold get_arr. destruct v as [l|].
  - rewrite query_ret. split; [intro K; exists l; split; [reflexivity|apply K; reflexivity]|].
    intros [l' [E L]] l'' E'. congruence.
  - split; [intros [x K]; discriminate|]. intros [l [K _]]. discriminate.
Qed.

(** A velocity input is accepted exactly when every face has an allowed type
    other than a fixed gradient and three numbers wherever a value is given. *)
Theorem c65_accept_velocity dflt per inp :
  (exists b, setup KVelocity 3 dflt per inp = Ret b) <->
  forall f, (f < 6)%nat ->
    (exists t, asked per inp f t /\ t <> FixedGradient) /\ enough 3 (inp f).
Proof.
  split.
  - intros [b S] f Hf. split.
    + exists (type_of (bc_types b) f). split; [apply (setup_types _ _ _ _ _ _ _ S Hf)|].
      pose proof (setup_rec _ _ _ _ _ _ _ S Hf) as Rc. intro K. rewrite K in Rc. discriminate.
    + apply setup_inv in S. destruct S as [_ [_ V]]. cbn [values_of] in V.
      pose proof (proj1 (mapM_faces_ex _) (ex_intro _ _ V) f Hf) as [y Y].
      unfold velocity_value in Y. unfold enough. apply (query_ret 3 _ (fun _ => dflt)).
      destruct (query_arr 3 _ _) as [x| |]; [exists x; reflexivity|discriminate|discriminate].
  - intro H.
    assert (E : exists ts, read_bctype per inp = Ret ts).
    { apply mapM_faces_ex. intros f Hf. destruct (H f Hf) as [[t [A _]] _].
      exists t. apply read_face_asked. exact A. }
    destruct E as [ts E]. unfold setup. rewrite E. cbn [obind].
    assert (E2 : exists rs, mapM (fun f => rec_of KVelocity (type_of ts f) (fdir f)) faces = Ret rs).
    { apply mapM_faces_ex. intros f Hf. destruct (H f Hf) as [[t [A NF]] _].
      apply c65_types in E. destruct E as [_ E]. specialize (E f Hf).
      apply read_face_asked in A. apply read_face_asked in E. rewrite A in E. injection E as E.
      rewrite <- E. unfold rec_of.
      destruct t; try (simpl; eexists; reflexivity); [congruence|].
      apply read_face_asked in A. unfold asked in A.
      destruct (per (fdir f)); [destruct A; discriminate|]. destruct A as [s [N _]]. inversion N. }
    destruct E2 as [rs E2]. rewrite E2. cbn [obind].
    assert (E3 : exists vs, values_of KVelocity 3 dflt ts inp = Ret vs).
    { cbn [values_of]. apply mapM_faces_ex. intros f Hf. destruct (H f Hf) as [_ G].
      unfold velocity_value. apply (query_ret 3 _ (fun _ => dflt)) in G. destruct G as [x X].
      rewrite X. simpl. eexists; reflexivity. }
    destruct E3 as [vs E3]. rewrite E3. cbn [obind]. eexists; reflexivity.
Qed.

(** A volume-fraction input needs in addition a value on every inflow. *)
Theorem c65_accept_vof dflt per inp :
  (exists b, setup KVof 1 dflt per inp = Ret b) <->
  forall f, (f < 6)%nat ->
    exists t, asked per inp f t /\ t <> FixedGradient /\ enough 1 (inp f) /\
      (t = MassInflow \/ t = MassInflowOutflow -> given 1 (inp f)).
Proof.
  split.
  - intros [b S] f Hf. exists (type_of (bc_types b) f).
    split; [apply (setup_types _ _ _ _ _ _ _ S Hf)|].
    split; [intro K; pose proof (setup_rec _ _ _ _ _ _ _ S Hf) as Rc; rewrite K in Rc; discriminate|].
    apply setup_inv in S. destruct S as [_ [_ V]]. cbn [values_of] in V.
    pose proof (proj1 (mapM_faces_ex _) (ex_intro _ _ V) f Hf) as [y Y].
    unfold vof_value in Y. unfold enough, given.
    assert (G : forall d, get_arr 1 (fi_vals (inp f)) d = Ret y ->
      (forall l, fi_vals (inp f) = Some l -> (1 <= List.length l)%nat) /\
      exists l, fi_vals (inp f) = Some l /\ (1 <= List.length l)%nat).
    { intros d K. assert (K' := proj1 (get_ret 1 _ d) (ex_intro _ _ K)). split; [|exact K'].
      intros l L. destruct K' as [l' [L' B]]. congruence. }
    destruct (type_of (bc_types b) f);
      try (destruct (G _ Y) as [G1 G2]; split; [exact G1|intros _; exact G2]);
      (split; [apply (query_ret 1 _ (fun _ => dflt)); exists y; exact Y|intros [K|K]; discriminate]).
  - intro H.
    assert (E : exists ts, read_bctype per inp = Ret ts).
    { apply mapM_faces_ex. intros f Hf. destruct (H f Hf) as [t [A _]].
      exists t. apply read_face_asked. exact A. }
    destruct E as [ts E].
    assert (T : forall f, (f < 6)%nat -> asked per inp f (type_of ts f) /\ type_of ts f <> FixedGradient /\
      enough 1 (inp f) /\ (type_of ts f = MassInflow \/ type_of ts f = MassInflowOutflow -> given 1 (inp f))).
    { intros f Hf. destruct (H f Hf) as [t [A R]].
      pose proof E as E'. apply c65_types in E'. destruct E' as [_ E']. specialize (E' f Hf).
      apply read_face_asked in A. pose proof E' as E''. apply read_face_asked in E''.
      rewrite A in E''. injection E'' as E''. rewrite <- E''. split; [apply read_face_asked; exact A|exact R]. }
    unfold setup. rewrite E. cbn [obind].
    assert (E2 : exists rs, mapM (fun f => rec_of KVof (type_of ts f) (fdir f)) faces = Ret rs).
    { apply mapM_faces_ex. intros f Hf. destruct (T f Hf) as [A [NF _]].
      unfold rec_of. destruct (type_of ts f); try (simpl; eexists; reflexivity); [congruence|].
      unfold asked in A. destruct (per (fdir f)); [destruct A; discriminate|].
      destruct A as [s [N _]]. inversion N. }
    destruct E2 as [rs E2]. rewrite E2. cbn [obind].
    assert (E3 : exists vs, values_of KVof 1 dflt ts inp = Ret vs).
    { cbn [values_of]. apply mapM_faces_ex. intros f Hf. destruct (T f Hf) as [_ [_ [G1 G2]]].
      unfold vof_value. apply (query_ret 1 _ (fun _ => dflt)) in G1.
      destruct (type_of ts f); try exact G1;
        (apply get_ret; apply G2; auto). }
    destruct E3 as [vs E3]. rewrite E3. cbn [obind]. eexists; reflexivity.
Qed.

(** Velocity values: what the input gives, zero for the normal component of a
    no-slip wall, the default where nothing is given. *)
Theorem c65_velocity_values dflt per inp b f n :
  setup KVelocity 3 dflt per inp = Ret b -> (f < 6)%nat ->
  nth f (bc_vals b) (fun _ => 0) n =
  if andb (match type_of (bc_types b) f with NoSlipWall => true | _ => false end) (Nat.eqb n (fdir f))
  then 0
  else match fi_vals (inp f) with Some l => nth n l 0 | None => dflt end.
Proof.
  intros S Hf. apply setup_inv in S. destruct S as [_ [_ V]]. cbn [values_of] in V.
  apply (mapM_faces _ (fun _ => 0)) in V. destruct V as [_ V]. specialize (V f Hf).
  unfold velocity_value, query_arr in V.
  destruct (fi_vals (inp f)) as [l|].
  - destruct (Nat.ltb _ _); simpl in V; [discriminate|]. injection V as V. rewrite <- V.
    destruct (type_of (bc_types b) f); simpl; try reflexivity; destruct (Nat.eqb n (fdir f)); reflexivity.
  - simpl in V. injection V as V. rewrite <- V.
    destruct (type_of (bc_types b) f); simpl; try reflexivity; destruct (Nat.eqb n (fdir f)); reflexivity.
Qed.

(** Pressure values are read on pressure outflows only. *)
Theorem c65_pressure_values dflt per inp b f :
  setup KPressure 1 dflt per inp = Ret b -> (f < 6)%nat ->
  nth f (bc_vals b) (fun _ => 0) 0%nat =
  match type_of (bc_types b) f, fi_vals (inp f) with
  | PressureOutflow, Some l => nth 0 l 0 | _, _ => dflt end.
Proof.
  intros S Hf. apply setup_inv in S. destruct S as [_ [_ V]]. cbn [values_of] in V.
  apply (mapM_faces _ (fun _ => 0)) in V. destruct V as [_ V]. specialize (V f Hf).
  unfold pressure_value, query_arr in V.
  destruct (type_of (bc_types b) f); destruct (fi_vals (inp f)) as [l|];
    try (injection V as V; rewrite <- V; reflexivity).
  destruct (Nat.ltb _ _); simpl in V; [discriminate|]. injection V as V. rewrite <- V. reflexivity.
Qed.

(** * Ghost cells *)

Lemma past_spec dom fd f c : past dom fd f c = true <-> beyond_at dom fd f c.
Proof.
  unfold past, beyond_at. destruct (flow f).
  - apply Z.ltb_lt.
  - destruct fd as [e|]; rewrite Z.ltb_lt; [rewrite (Nat.eqb_sym e)|]; reflexivity.
Qed.

Definition hit (b : bcs) (dom : box) (fd : option nat) (c : ivec) (n f : nat) : Prop :=
  beyond_at dom fd f c /\ sets_value (nth f (bc_recs b) (fun _ => IntDir) n).

Lemma loop_miss b dom fd op wop c n fs old :
  (forall f, In f fs -> ~ hit b dom fd c n f) ->
  dirichlet_loop (bc_types b) (bc_recs b) dom fd op wop c n fs old = old.
Proof.
  revert old. induction fs as [|f r IH]; intros old H; cbn [dirichlet_loop]; [reflexivity|].
  assert (NH : ~ hit b dom fd c n f) by (apply H; left; reflexivity).
  assert (IH' : forall o, dirichlet_loop (bc_types b) (bc_recs b) dom fd op wop c n r o = o).
  { intro o. apply IH. intros g G. apply H. right. exact G. }
  unfold hit, sets_value in NH. rewrite <- past_spec in NH.
  destruct (nth f (bc_recs b) _ n); rewrite ?IH'; try reflexivity;
    destruct (past dom fd f c); rewrite ?IH'; try reflexivity; exfalso; apply NH; auto.
Qed.

Lemma loop_hit b dom fd op wop c n fs1 f fs2 old :
  hit b dom fd c n f -> (forall g, In g fs2 -> ~ hit b dom fd c n g) ->
  exists w, (is_inflow (type_of (bc_types b) f) -> w = op f c n) /\
            (~ is_inflow (type_of (bc_types b) f) -> w = wop f c n) /\
  dirichlet_loop (bc_types b) (bc_recs b) dom fd op wop c n (fs1 ++ f :: fs2)%list old = w.
Proof.
  intros H N. unfold is_inflow.
  revert old. induction fs1 as [|g r IH]; intro old; cbn [app dirichlet_loop].
  - destruct H as [B V]. apply past_spec in B. rewrite B.
    pose proof (fun o => loop_miss b dom fd op wop c n fs2 o N) as M.
    exists (match type_of (bc_types b) f with MassInflow | MassInflowOutflow => op f c n | _ => wop f c n end).
    split; [intros [->| ->]; reflexivity|].
    split; [intro K; destruct (type_of (bc_types b) f); try reflexivity; exfalso; apply K; auto|].
    destruct V as [-> | ->]; destruct (type_of (bc_types b) f); apply M.
  - destruct (nth g (bc_recs b) _ n); try apply IH;
      destruct (past dom fd g c); try apply IH; destruct (type_of (bc_types b) g); apply IH.
Qed.

Lemma faces_split f : (f < 6)%nat -> exists l r, faces = (l ++ f :: r)%list /\ (forall g, In g r -> (f < g < 6)%nat).
Proof.
  intro H. exists (firstn f faces), (skipn (S f) faces).
  do 6 (destruct f as [|f]; [split; [reflexivity|simpl; intros; lia]|]). lia.
Qed.

(** Filling ghost cells, or face data beyond the boundary: a cell beyond a face
    on which the component is prescribed gets the inflow value on an inflow and
    the wall value on any other face.  In corners the last such face in the order
    xlo ylo zlo xhi yhi zhi decides.  [hit] is written out in the hypotheses. *)
Theorem c65_fill b dom fd op wop u c n f :
  (f < 6)%nat -> beyond_at dom fd f c -> sets_value (nth f (bc_recs b) (fun _ => IntDir) n) ->
  (forall g, (f < g < 6)%nat -> beyond_at dom fd g c ->
     ~ sets_value (nth g (bc_recs b) (fun _ => IntDir) n)) ->
  (is_inflow (type_of (bc_types b) f) -> dirichlet b dom fd op wop u c n = op f c n) /\
  (~ is_inflow (type_of (bc_types b) f) -> dirichlet b dom fd op wop u c n = wop f c n).
Proof.
  intros Hf B V N. destruct (faces_split f Hf) as [l [r [E G]]].
  assert (NH : forall g, In g r -> ~ hit b dom fd c n g).
  { intros g I [B' V']. exact (N g (G g I) B' V'). }
  destruct (loop_hit b dom fd op wop c n l f r (u c n) (conj B V) NH) as [w [W1 [W2 W3]]].
  unfold dirichlet. rewrite E, W3. auto.
Qed.

(** Everything else is left alone: cells (faces) of the domain, and ghost cells
    beyond faces that do not prescribe the component. *)
Theorem c65_fill_other b dom fd op wop u c n :
  (forall f, (f < 6)%nat -> beyond_at dom fd f c ->
     ~ sets_value (nth f (bc_recs b) (fun _ => IntDir) n)) ->
  dirichlet b dom fd op wop u c n = u c n.
Proof.
  intro H. apply loop_miss. intros f I [B V]. apply faces_in in I. exact (H f I B V).
Qed.

Corollary fill_within b dom fd op wop u c n :
  within dom c -> dirichlet b dom fd op wop u c n = u c n.
Proof.
  intro W. apply c65_fill_other. intros f Hf B. exfalso.
  assert (D : (fdir f < 3)%nat) by (unfold fdir; apply Nat.mod_upper_bound; lia).
  specialize (W (fdir f) D). unfold beyond_at in B.
  destruct (flow f); [lia|]. destruct fd as [e|]; [destruct (Nat.eqb e (fdir f))|]; lia.
Qed.

(** The face of the boundary itself, and every face of the domain, keeps its
    value when face data are filled. *)
Theorem c65_fill_boundary_face b dom d op wop u c n :
  (d < 3)%nat -> (blo_ dom d <= ix c d <= bhi_ dom d + 1)%Z ->
  (forall e, (e < 3)%nat -> e <> d -> (blo_ dom e <= ix c e <= bhi_ dom e)%Z) ->
  dirichlet b dom (Some d) op wop u c n = u c n.
Proof.
  intros Hd Hc He. apply c65_fill_other. intros f Hf B. exfalso.
  assert (D : (fdir f < 3)%nat) by (unfold fdir; apply Nat.mod_upper_bound; lia).
  unfold beyond_at in B. destruct (Nat.eqb_spec d (fdir f)) as [E|E].
  - rewrite <- E in B. destruct (flow f); lia.
  - specialize (He (fdir f) D (not_eq_sym E)). destruct (flow f); lia.
Qed.

(** Walls are impermeable: beyond a wall the normal velocity is zero, when the
    input gives no velocity on that face or the wall is a no-slip wall. *)
Theorem c65_wall_partial per inp b dom u c f :
  setup KVelocity 3 0 per inp = Ret b -> (f < 6)%nat ->
  type_of (bc_types b) f = NoSlipWall \/
    (normal_face (type_of (bc_types b) f) /\ fi_vals (inp f) = None) ->
  beyond_at dom None f c ->
  (forall g, (g < 6)%nat -> g <> f -> ~ beyond_at dom None g c) ->
  dirichlet b dom None (const_op b) (const_op b) u c (fdir f) = 0.
Proof.
  intros S Hf T B N.
  assert (D : (fdir f < 3)%nat) by (unfold fdir; apply Nat.mod_upper_bound; lia).
  destruct (c65_velocity 0 per inp b f (fdir f) S Hf D) as [V _].
  assert (SV : sets_value (nth f (bc_recs b) (fun _ => IntDir) (fdir f))).
  { apply V. destruct T as [T|[T _]]; [left; unfold value_face; auto|right; split; auto]. }
  destruct (c65_fill b dom None (const_op b) (const_op b) u c (fdir f) f Hf B SV) as [_ F].
  { intros g G B'. exfalso. apply (N g); [lia|lia|exact B']. }
  rewrite F.
  - unfold const_op. rewrite (c65_velocity_values 0 per inp b f (fdir f) S Hf), Nat.eqb_refl.
    destruct T as [->|[T ->]]; [reflexivity|]. destruct (andb _ _); reflexivity.
  - unfold is_inflow. intros [K|K]; rewrite K in T; destruct T as [T|[[T|[T|T]] _]]; discriminate.
Qed.

(** The input of a box with walls everywhere, [t] and [v] on zlo. *)
Definition closed_box (t : string) (v : option (list R)) : nat -> face_in := fun f =>
  if Nat.eqb f 2 then FaceIn (Some t) None v None None None
  else FaceIn (Some "nsw") None None None None None.

Definition cube : box := Box (IV 0 0 0) (IV 7 7 7).

(** What is missing: a slip wall, a wall model or a symmetry plane on which the
    input gives a velocity keeps its normal component, and the wall leaks. *)
Theorem c65_wall_refuted : forall w, exists inp b c,
  setup KVelocity 3 0 (fun _ => false) inp = Ret b /\
  normal_face (type_of (bc_types b) 2) /\
  beyond_at cube None 2 c /\ (forall g, (g < 6)%nat -> g <> 2%nat -> ~ beyond_at cube None g c) /\
  forall u, dirichlet b cube None (const_op b) (const_op b) u c 2%nat = w.
Proof.
  intro w. exists (closed_box "slip_wall" (Some [1; 0; w])).
  eexists. exists (IV 3 3 (-1)).
  split; [reflexivity|]. split; [left; reflexivity|]. split; [vm_compute; reflexivity|].
  split.
  - intros g Hg NE. do 6 (destruct g as [|g]; [try congruence; vm_compute; intro K; try discriminate K; congruence|]). lia.
  - intro u. reflexivity.
Qed.

(** * User-defined inflow functions *)

Lemma udf_keep want get ts inp fs acc r : find_udf want get ts inp fs acc = Ret r ->
  (forall u, acc = Some u -> r = Some u) /\
  (forall f v, In f fs -> type_of ts f = want -> want = MassInflow \/ want = MassInflowOutflow \/ want = SlipWall ->
     get (inp f) = Some v -> r = Some v) /\
  (r = acc \/ exists f v, In f fs /\ type_of ts f = want /\ get (inp f) = Some v /\ r = Some v).
Proof.
  revert acc. induction fs as [|f fs IH]; intros acc H; cbn [find_udf] in H.
  - injection H as <-. split; [auto|]. split; [intros f v []|]. left; reflexivity.
  - set (w := match want, type_of ts f with
        | MassInflow, MassInflow => true | MassInflowOutflow, MassInflowOutflow => true
        | SlipWall, SlipWall => true | _, _ => false end) in H.
    assert (W : w = true -> type_of ts f = want) by (subst w; destruct want, (type_of ts f); intros; try discriminate; reflexivity).
    assert (W' : type_of ts f = want -> want = MassInflow \/ want = MassInflowOutflow \/ want = SlipWall -> w = true).
    { intros T K. subst w. rewrite T. destruct K as [->|[->| ->]]; reflexivity. }
    clearbody w. destruct w.
    + destruct (get (inp f)) as [v|] eqn:G.
      * destruct acc as [u|].
        -- destruct (String.eqb_spec u v) as [->|]; [|discriminate].
           destruct (IH _ H) as [A [B C]]. split; [exact A|]. split.
           ++ intros g x [<-|I] T K X; [rewrite G in X; injection X as <-; apply A; reflexivity|eauto].
           ++ destruct C as [C|[g [x [I [T [X R]]]]]]; [left; exact C|right; exists g, x; simpl; auto].
        -- destruct (IH _ H) as [A [B C]]. split; [discriminate|]. split.
           ++ intros g x [<-|I] T K X; [rewrite G in X; injection X as <-; apply A; reflexivity|eauto].
           ++ right. destruct C as [C|[g [x [I [T [X R]]]]]];
                [exists f, v; simpl; auto|exists g, x; simpl; auto].
      * destruct (IH _ H) as [A [B C]]. split; [exact A|]. split.
        -- intros g x [<-|I] T K X; [congruence|eauto].
        -- destruct C as [C|[g [x [I [T [X R]]]]]]; [left; exact C|right; exists g, x; simpl; auto].
    + destruct (IH _ H) as [A [B C]]. split; [exact A|]. split.
      * intros g x [<-|I] T K X; [discriminate (W' T K)|eauto].
      * destruct C as [C|[g [x [I [T [X R]]]]]]; [left; exact C|right; exists g, x; simpl; auto].
Qed.

(** A function name given on any inflow (inflow-outflow, slip wall) face is the
    one in force for all faces of that type, two different names stop the run,
    and a name is in force only if some face of that type gives it. *)
Theorem c65_udf ts inp i io w : get_udfs ts inp = Ret (i, io, w) ->
  (forall f v, (f < 6)%nat -> type_of ts f = MassInflow -> fi_inflow (inp f) = Some v -> i = v) /\
  (forall f v, (f < 6)%nat -> type_of ts f = MassInflowOutflow -> fi_inout (inp f) = Some v -> io = v) /\
  (forall f v, (f < 6)%nat -> type_of ts f = SlipWall -> fi_wall (inp f) = Some v -> w = v) /\
  (i = "ConstDirichlet" \/ exists f, (f < 6)%nat /\ type_of ts f = MassInflow /\ fi_inflow (inp f) = Some i) /\
  (io = "ConstDirichlet" \/ exists f, (f < 6)%nat /\ type_of ts f = MassInflowOutflow /\ fi_inout (inp f) = Some io) /\
  (w = "ConstDirichlet" \/ exists f, (f < 6)%nat /\ type_of ts f = SlipWall /\ fi_wall (inp f) = Some w).
Proof.
  unfold get_udfs. intro H.
  destruct (find_udf MassInflow _ _ _ _ _) as [a| |] eqn:Ea; cbn [obind] in H; try discriminate.
  destruct (find_udf MassInflowOutflow _ _ _ _ _) as [b| |] eqn:Eb; cbn [obind] in H; try discriminate.
  destruct (find_udf SlipWall _ _ _ _ _) as [c| |] eqn:Ec; cbn [obind] in H; try discriminate.
  injection H as <- <- <-.
  apply udf_keep in Ea. destruct Ea as [_ [A1 A2]].
  apply udf_keep in Eb. destruct Eb as [_ [B1 B2]].
  apply udf_keep in Ec. destruct Ec as [_ [C1 C2]].
  split; [intros f v Hf T G; rewrite (A1 f v (proj2 (faces_in f) Hf) T ltac:(auto) G); reflexivity|].
  split; [intros f v Hf T G; rewrite (B1 f v (proj2 (faces_in f) Hf) T ltac:(auto) G); reflexivity|].
  split; [intros f v Hf T G; rewrite (C1 f v (proj2 (faces_in f) Hf) T ltac:(auto) G); reflexivity|].
  split; [destruct A2 as [->|[f [v [I [T [G ->]]]]]]; [left; reflexivity|right; exists f; rewrite <- faces_in; auto]|].
  split; [destruct B2 as [->|[f [v [I [T [G ->]]]]]]; [left; reflexivity|right; exists f; rewrite <- faces_in; auto]|].
  destruct C2 as [->|[f [v [I [T [G ->]]]]]]; [left; reflexivity|right; exists f; rewrite <- faces_in; auto].
Qed.

(** The operator used on the inflow faces afterwards is the inflow function when
    no inflow-outflow function is given. *)
Theorem c65_udf_used_partial known i w op :
  register_udfs known (i, "ConstDirichlet", w) = Ret op ->
  op = i /\ w = "ConstDirichlet" /\ (i = "ConstDirichlet" \/ known i = true).
Proof.
  unfold register_udfs. simpl (_ =? _).
  destruct (String.eqb_spec i "ConstDirichlet") as [->|NI]; cbn [andb].
  - destruct (String.eqb_spec w "ConstDirichlet") as [->|NW]; cbn [andb negb]; [|discriminate].
    intro H. injection H as <-. auto.
  - destruct (String.eqb_spec w "ConstDirichlet") as [->|NW]; cbn [andb negb]; [|discriminate].
    destruct (known i) eqn:K; cbn [obind]; [|discriminate]. intro H. injection H as <-. auto.
Qed.

(** The velocity functions that exist: a name is accepted if and only if it is one of six. *)
Theorem c65_udf_names s :
  (exists op, register_udfs known_velocity (s, "ConstDirichlet", "ConstDirichlet") = Ret op) <->
  In s ["ConstDirichlet"; "LinearProfile"; "PowerLawProfile"; "BurggrafLid"; "Rankine";
        "CustomVelocity"; "TwoLayer"].
Proof.
  split.
  - intros [op H]. unfold register_udfs, known_velocity in H. simpl (_ =? "ConstDirichlet") in H.
    destruct (String.eqb_spec s "ConstDirichlet") as [E0|N0]; [left; congruence|].
    cbn [andb negb] in H.
    destruct (String.eqb_spec s "LinearProfile") as [E1|N1]; [simpl; auto 10|].
    destruct (String.eqb_spec s "PowerLawProfile") as [E2|N2]; [simpl; auto 10|].
    destruct (String.eqb_spec s "BurggrafLid") as [E3|N3]; [simpl; auto 10|].
    destruct (String.eqb_spec s "Rankine") as [E4|N4]; [simpl; auto 10|].
    destruct (String.eqb_spec s "CustomVelocity") as [E5|N5]; [simpl; auto 10|].
    destruct (String.eqb_spec s "TwoLayer") as [E6|N6]; [simpl; auto 10|]. discriminate.
  - intro I. simpl in I. repeat (destruct I as [<-|I]; [eexists; reflexivity|]). destruct I.
Qed.

(** What is missing, first: when both are given the inflow-outflow function
    replaces the inflow function on the plain inflow faces as well. *)
Theorem c65_udf_used_refuted : exists ts inp u op,
  get_udfs ts inp = Ret u /\ register_udfs known_velocity u = Ret op /\
  type_of ts 0 = MassInflow /\ fi_inflow (inp 0%nat) = Some "PowerLawProfile" /\
  op = "LinearProfile".
Proof.
  exists [MassInflow; SlipWall; SlipWall; MassInflowOutflow; SlipWall; SlipWall].
  exists (fun f => match f with
    | O => FaceIn (Some "mi") None None (Some "PowerLawProfile") None None
    | 3%nat => FaceIn (Some "mio") None None None (Some "LinearProfile") None
    | _ => FaceIn (Some "sw") None None None None None end).
  eexists. eexists. split; [reflexivity|]. split; [reflexivity|]. repeat split.
Qed.

(** Second: an inflow face with a constant value of its own gets the function of
    the other inflow face, without a message. *)
Theorem c65_udf_silent_refuted : exists inp b u op,
  setup KVelocity 3 0 (fun _ => false) inp = Ret b /\
  get_udfs (bc_types b) inp = Ret u /\ register_udfs known_velocity u = Ret op /\
  fi_vals (inp 3%nat) = Some [8; 0; 0] /\ type_of (bc_types b) 3 = MassInflow /\
  fi_inflow (inp 3%nat) = None /\ op = "PowerLawProfile" /\
  forall uop u0 c n, beyond_at cube None 3 c -> (forall g, (3 < g < 6)%nat -> ~ beyond_at cube None g c) ->
    dirichlet b cube None uop (const_op b) u0 c n = uop 3%nat c n.
Proof.
  exists (fun f => match f with
    | O => FaceIn (Some "mi") None None (Some "PowerLawProfile") None None
    | 3%nat => FaceIn (Some "mi") None (Some [8; 0; 0]) None None None
    | _ => FaceIn (Some "sw") None None None None None end).
  eexists. eexists. eexists. split; [reflexivity|]. split; [reflexivity|]. split; [reflexivity|].
  split; [reflexivity|]. split; [reflexivity|]. split; [reflexivity|]. split; [reflexivity|].
  intros uop u0 c n B N.
  apply c65_fill; [lia|exact B|left; reflexivity| |left; reflexivity].
  intros g G B' _. exact (N g G B').
Qed.

(** * Custom boundary operators *)

Lemma fdir_lt f : (fdir f < 3)%nat.
Proof. unfold fdir. apply Nat.mod_upper_bound. lia. Qed.

Lemma plane_spec b f c : ghost_plane b f c = true <-> next_to b f c.
Proof.
  unfold ghost_plane, next_to. pose proof (fdir_lt f) as D.
  rewrite forallb_forall. split.
  - intro H. split.
    + assert (I : In (fdir f) [0;1;2]%nat) by (simpl; lia).
      specialize (H _ I). cbv beta in H. rewrite Nat.eqb_refl in H. apply Z.eqb_eq in H. exact H.
    + intros d Hd NE. assert (I : In d [0;1;2]%nat) by (simpl; lia).
      specialize (H _ I). cbv beta in H. destruct (Nat.eqb_spec d (fdir f)); [contradiction|].
      apply andb_true_iff in H. destruct H as [H1 H2]. apply Z.leb_le in H1, H2. lia.
  - intros [H1 H2] d I. destruct (Nat.eqb_spec d (fdir f)) as [->|NE].
    + apply Z.eqb_eq. exact H1.
    + assert (Hd : (d < 3)%nat) by (simpl in I; lia). specialize (H2 d Hd NE).
      apply andb_true_iff. split; apply Z.leb_le; lia.
Qed.

Lemma touches_spec dom b f : touches dom b f = true <-> reaches dom b f.
Proof. unfold touches, reaches. destruct (flow f); apply Z.eqb_eq. Qed.

Lemma grown_plane b f c : (f < 6)%nat -> ghost_plane (grow_tangential b f) f c = true <-> next_to_grown b f c.
Proof.
  intro Hf. rewrite plane_spec. unfold next_to, next_to_grown.
  assert (E : forall d, (d < 3)%nat ->
    blo_ (grow_tangential b f) d = (blo_ b d - if Nat.eqb d (fdir f) then 0 else 1)%Z /\
    bhi_ (grow_tangential b f) d = (bhi_ b d + if Nat.eqb d (fdir f) then 0 else 1)%Z).
  { intros d Hd. unfold blo_, bhi_, grow_tangential. do 3 (destruct d as [|d]; [split; reflexivity|]). lia. }
  destruct (E (fdir f) (fdir_lt f)) as [E1 E2]. rewrite Nat.eqb_refl in E1, E2.
  rewrite E1, E2. rewrite Z.sub_0_r, Z.add_0_r.
  split; intros [H1 H2]; (split; [exact H1|]); intros d Hd NE; specialize (H2 d Hd NE);
    destruct (E d Hd) as [F1 F2]; destruct (Nat.eqb_spec d (fdir f)); try contradiction; lia.
Qed.

(** Fixed gradient: the value goes to the first layer of ghost cells outside the
    boundary, of every component, and nowhere else. *)
Theorem c65_gradient vals dom b f u c n :
  (reaches dom b f -> next_to b f c -> fixed_gradient vals dom b f u c n = vals f n) /\
  (~ (reaches dom b f /\ next_to b f c) -> fixed_gradient vals dom b f u c n = u c n).
Proof.
  unfold fixed_gradient. rewrite <- touches_spec, <- plane_spec. split.
  - intros -> ->. reflexivity.
  - intro H. destruct (touches dom b f), (ghost_plane b f c); try reflexivity. exfalso. apply H. auto.
Qed.

(** Inflow-outflow: where the ghost velocity leaves the domain the ghost cell is
    given the value of the cell inside; everywhere else nothing changes. *)
Theorem c65_inflow_outflow dom b f vel u c n : (f < 6)%nat ->
  (reaches dom b f -> next_to_grown b f c -> leaves f (vel c (fdir f)) ->
     inflow_outflow dom b f vel u c n = u (mirror f c) n) /\
  (~ (reaches dom b f /\ next_to_grown b f c /\ leaves f (vel c (fdir f))) ->
     inflow_outflow dom b f vel u c n = u c n).
Proof.
  intro Hf. unfold inflow_outflow, leaves, mirror. rewrite <- touches_spec, <- grown_plane; [|exact Hf]. split.
  - intros -> -> L. cbn [andb]. destruct (flow f); apply Rltb_spec in L; rewrite L; reflexivity.
  - intro H. destruct (touches dom b f), (ghost_plane (grow_tangential b f) f c); try reflexivity; cbn [andb].
    destruct (flow f).
    + destruct (Rltb (vel c (fdir f)) 0) eqn:E; [|reflexivity]. apply Rltb_spec in E. exfalso. apply H. auto.
    + destruct (Rltb 0 (vel c (fdir f))) eqn:E; [|reflexivity]. apply Rltb_spec in E. exfalso. apply H. auto.
Qed.

Lemma mirror_ix f c : ix (mirror f c) (fdir f) = (ix c (fdir f) + if flow f then 1 else -1)%Z.
Proof.
  unfold mirror, step, shift. pose proof (fdir_lt f) as D.
  destruct (fdir f) as [|[|[|?]]]; try lia; simpl; reflexivity.
Qed.

(** Applying the velocity condition a second time changes nothing. *)
Theorem c65_inflow_outflow_twice dom b f u c n : (f < 6)%nat ->
  let v := inflow_outflow dom b f u u in
  inflow_outflow dom b f v v c n = v c n.
Proof.
  intros Hf v.
  destruct (c65_inflow_outflow dom b f v v c n Hf) as [P Q].
  destruct (touches dom b f) eqn:T.
  2:{ apply Q. intros [R _]. apply touches_spec in R. congruence. }
  destruct (ghost_plane (grow_tangential b f) f c) eqn:G.
  2:{ apply Q. intros [_ [R _]]. apply (grown_plane b f c Hf) in R. congruence. }
  assert (L : leaves f (v c (fdir f)) \/ ~ leaves f (v c (fdir f))).
  { unfold leaves. destruct (flow f); lra. }
  destruct L as [L|L].
  2:{ apply Q. intros [_ [_ R]]. contradiction. }
  apply touches_spec in T. apply (grown_plane b f c Hf) in G.
  rewrite (P T G L).
  (* the inner cell is not a ghost cell of this face *)
  assert (M : v (mirror f c) n = u (mirror f c) n).
  { unfold v. apply (proj2 (c65_inflow_outflow dom b f u u (mirror f c) n Hf)).
    intros [_ [[K _] _]]. destruct G as [G _]. rewrite mirror_ix, G in K. destruct (flow f); lia. }
  rewrite M. unfold v.
  assert (L2 : leaves f (u c (fdir f)) \/ ~ leaves f (u c (fdir f))).
  { unfold leaves. destruct (flow f); lra. }
  destruct L2 as [L2|L2].
  - symmetry. apply (proj1 (c65_inflow_outflow dom b f u u c n Hf)); assumption.
  - exfalso. apply L2. unfold v in L.
    rewrite (proj2 (c65_inflow_outflow dom b f u u c (fdir f) Hf)) in L; [exact L|].
    intros [_ [_ K]]. contradiction.
Qed.

(** Temperature uses the ghost velocity as it finds it: whether the velocity
    condition ran before changes the temperature in the ghost cell. *)
Theorem c65_inflow_outflow_order_refuted : exists vel temp c,
  inflow_outflow cube cube 0 vel temp c 0%nat <>
  inflow_outflow cube cube 0 (inflow_outflow cube cube 0 vel vel) temp c 0%nat.
Proof.
  exists (fun c _ => if Z.eqb (iv0 c) (-1) then -1 else 1), (fun c _ => IZR (iv0 c)), (IV (-1) 3 3).
  assert (N : next_to_grown cube 0 (IV (-1) 3 3)).
  { split; [reflexivity|]. intros d Hd NE. do 3 (destruct d as [|d]; [try (exfalso; apply NE; reflexivity); vm_compute; split; discriminate|]). lia. }
  assert (L : leaves 0 ((fun (c : ivec) (_ : nat) => if Z.eqb (iv0 c) (-1) then -1 else 1) (IV (-1) 3 3) (fdir 0))).
  { unfold leaves. simpl. lra. }
  set (vel := fun (c : ivec) (_ : nat) => if Z.eqb (iv0 c) (-1) then -1 else 1) in *.
  rewrite (proj1 (c65_inflow_outflow cube cube 0 vel _ _ 0%nat ltac:(lia)) eq_refl N L).
  rewrite (proj2 (c65_inflow_outflow cube cube 0 (inflow_outflow cube cube 0 vel vel) _ (IV (-1) 3 3) 0%nat ltac:(lia))).
  - simpl. lra.
  - intros [_ [_ K]].
    rewrite (proj1 (c65_inflow_outflow cube cube 0 vel vel (IV (-1) 3 3) (fdir 0) ltac:(lia)) eq_refl N L) in K.
    unfold leaves, vel in K. simpl in K. lra.
Qed.

(** * Refreshing inflow data *)

(** [c] is within [ng] cells outside face [f] of the (periodically grown) domain. *)
Definition in_strip (gdom : box) (ng : nat -> Z) (f : nat) (c : ivec) : Prop :=
  let d := fdir f in
  (if flow f then (blo_ gdom d - ng d <= ix c d < blo_ gdom d)%Z
   else (bhi_ gdom d < ix c d <= bhi_ gdom d + ng d)%Z) /\
  forall e, (e < 3)%nat -> e <> d -> (blo_ gdom e <= ix c e <= bhi_ gdom e)%Z.

Lemma strip_spec gdom ng f c :
  forallb (fun e =>
    if Nat.eqb e (fdir f) then
      (if flow f
       then andb (blo_ gdom e - ng e <=? ix c e)%Z (ix c e <? blo_ gdom e)%Z
       else andb (bhi_ gdom e <? ix c e)%Z (ix c e <=? bhi_ gdom e + ng e)%Z)
    else andb (blo_ gdom e <=? ix c e)%Z (ix c e <=? bhi_ gdom e)%Z) [0;1;2]%nat = true
  <-> in_strip gdom ng f c.
Proof.
  unfold in_strip. pose proof (fdir_lt f) as D. rewrite forallb_forall. split.
  - intro H. split.
    + assert (I : In (fdir f) [0;1;2]%nat) by (simpl; lia).
      specialize (H _ I). cbv beta in H. rewrite Nat.eqb_refl in H.
      destruct (flow f); apply andb_true_iff in H; destruct H as [H1 H2]; lia.
    + intros e He NE. assert (I : In e [0;1;2]%nat) by (simpl; lia).
      specialize (H _ I). cbv beta in H. destruct (Nat.eqb_spec e (fdir f)); [contradiction|].
      apply andb_true_iff in H. lia.
  - intros [H1 H2] e I. destruct (Nat.eqb_spec e (fdir f)) as [->|NE].
    + destruct (flow f); apply andb_true_iff; lia.
    + assert (He : (e < 3)%nat) by (simpl in I; lia). specialize (H2 e He NE).
      apply andb_true_iff. lia.
Qed.

(** Two strips of different faces are disjoint: each ghost cell belongs to at most
    one face. *)
Lemma strips_disjoint gdom ng f g c : (f < 6)%nat -> (g < 6)%nat ->
  (forall d, (d < 3)%nat -> (blo_ gdom d <= bhi_ gdom d)%Z) ->
  in_strip gdom ng f c -> in_strip gdom ng g c -> f = g.
Proof.
  intros Hf Hg NE [F1 F2] [G1 G2].
  pose proof (fdir_lt f) as Df. pose proof (fdir_lt g) as Dg.
  destruct (Nat.eq_dec (fdir f) (fdir g)) as [E|E].
  - rewrite <- E in G1. specialize (NE _ Df).
    destruct (flow f) eqn:Lf, (flow g) eqn:Lg; try lia.
    + unfold flow, fdir in *. apply Nat.ltb_lt in Lf, Lg.
      rewrite (Nat.mod_small f), (Nat.mod_small g) in E by lia. exact E.
    + unfold flow, fdir in *. apply Nat.ltb_ge in Lf, Lg.
      assert (Ef : (f = (f - 3) + 1 * 3)%nat) by lia. assert (Eg : (g = (g - 3) + 1 * 3)%nat) by lia.
      rewrite Ef, Eg in E. rewrite !Nat.mod_add in E by lia. rewrite !Nat.mod_small in E by lia. lia.
  - specialize (F2 (fdir g) Dg (not_eq_sym E)). destruct (flow g); lia.
Qed.

Definition strip_write ts gdom ng op (v : cfld) (f : nat) : cfld :=
  match type_of ts f with
  | MassInflow | MassInflowOutflow => fun c n =>
      if forallb (fun e =>
           if Nat.eqb e (fdir f) then
             (if flow f
              then andb (blo_ gdom e - ng e <=? ix c e)%Z (ix c e <? blo_ gdom e)%Z
              else andb (bhi_ gdom e <? ix c e)%Z (ix c e <=? bhi_ gdom e + ng e)%Z)
           else andb (blo_ gdom e <=? ix c e)%Z (ix c e <=? bhi_ gdom e)%Z) [0;1;2]%nat
      then op f c n else v c n
  | _ => v
  end.

Lemma strip_write_spec ts gdom ng op v f c n :
  (is_inflow (type_of ts f) -> in_strip gdom ng f c -> strip_write ts gdom ng op v f c n = op f c n) /\
  (~ (is_inflow (type_of ts f) /\ in_strip gdom ng f c) -> strip_write ts gdom ng op v f c n = v c n).
Proof.
  unfold strip_write, is_inflow. split.
  - intros T S. apply strip_spec in S. destruct T as [-> | ->]; cbv beta; rewrite S; reflexivity.
  - intro N. destruct (type_of ts f); try reflexivity;
      (match goal with |- (if ?x then _ else _) = _ => destruct x eqn:S end; [|reflexivity];
       apply strip_spec in S; exfalso; apply N; auto).
Qed.

Lemma fold_strip_miss ts gdom ng op fs : forall v c n,
  (forall f, In f fs -> ~ (is_inflow (type_of ts f) /\ in_strip gdom ng f c)) ->
  fold_left (strip_write ts gdom ng op) fs v c n = v c n.
Proof.
  induction fs as [|f r IH]; intros v c n H; cbn [fold_left]; [reflexivity|].
  rewrite IH by (intros g G; apply H; right; exact G).
  apply strip_write_spec. apply H. left; reflexivity.
Qed.

(** Refreshing the inflow: every ghost cell outside an inflow or inflow-outflow
    face, within the ghost width, is given the inflow value of that face, and
    nothing else changes. *)
Theorem c65_set_inflow ts gdom ng op u c n :
  (forall d, (d < 3)%nat -> (blo_ gdom d <= bhi_ gdom d)%Z) ->
  (forall f, (f < 6)%nat -> is_inflow (type_of ts f) -> in_strip gdom ng f c ->
     set_inflow ts gdom ng op u c n = op f c n) /\
  ((forall f, (f < 6)%nat -> ~ (is_inflow (type_of ts f) /\ in_strip gdom ng f c)) ->
     set_inflow ts gdom ng op u c n = u c n).
Proof.
  intro NE. change (set_inflow ts gdom ng op u) with (fold_left (strip_write ts gdom ng op) faces u). split.
  - intros f Hf T S. destruct (faces_split f Hf) as [l [r [E G]]]. rewrite E, fold_left_app. cbn [fold_left].
    rewrite fold_strip_miss.
    + apply strip_write_spec; assumption.
    + intros g I [_ S']. specialize (G g I).
      assert (f = g) by (apply (strips_disjoint gdom ng f g c); [lia|lia|exact NE|exact S|exact S']). lia.
  - intro H. apply fold_strip_miss. intros f I. apply H. apply faces_in. exact I.
Qed.

Definition face_test (dom : box) (f : nat) (c : ivec) : bool :=
  forallb (fun e' =>
    if Nat.eqb e' (fdir f) then
      (ix c e' =? (if flow f then blo_ dom e' else bhi_ dom e' + 1))%Z
    else andb (blo_ dom e' <=? ix c e')%Z (ix c e' <=? bhi_ dom e')%Z) [0;1;2]%nat.

Lemma face_test_spec dom f c : face_test dom f c = true <-> on_face dom f c.
Proof.
  unfold face_test, on_face. pose proof (fdir_lt f) as D. rewrite forallb_forall. split.
  - intro H. split.
    + assert (I : In (fdir f) [0;1;2]%nat) by (simpl; lia).
      specialize (H _ I). cbv beta in H. rewrite Nat.eqb_refl in H. lia.
    + intros e He NE. assert (I : In e [0;1;2]%nat) by (simpl; lia).
      specialize (H _ I). cbv beta in H. destruct (Nat.eqb_spec e (fdir f)); [contradiction|].
      apply andb_true_iff in H. lia.
  - intros [H1 H2] e I. destruct (Nat.eqb_spec e (fdir f)) as [->|NE].
    + lia.
    + assert (He : (e < 3)%nat) by (simpl in I; lia). specialize (H2 e He NE). apply andb_true_iff. lia.
Qed.

Definition face_write ts dom op (v : nat -> ivec -> R) (f : nat) : nat -> ivec -> R :=
  let d := fdir f in
  let put (keep_outflow : bool) := fun e c =>
    if andb (Nat.eqb e d) (face_test dom f c)
    then
      let t := op f c d in
      let out := if flow f then Rltb t 0 else Rltb 0 t in
      if andb keep_outflow out then v e c else t
    else v e c in
  match type_of ts f with
  | MassInflow | WaveGeneration => put false
  | MassInflowOutflow => put true
  | _ => v
  end.

(** Faces whose normal velocity is stored on the boundary. *)
Definition stores_normal (t : bct) : Prop := is_inflow t \/ t = WaveGeneration.

Lemma face_write_spec ts dom op v f e c :
  (stores_normal (type_of ts f) -> e = fdir f -> on_face dom f c ->
     face_write ts dom op v f e c = op f c e \/
     (face_write ts dom op v f e c = v e c /\ type_of ts f = MassInflowOutflow /\ leaves f (op f c e))) /\
  (stores_normal (type_of ts f) -> e = fdir f -> on_face dom f c ->
     (type_of ts f <> MassInflowOutflow \/ ~ leaves f (op f c e)) -> face_write ts dom op v f e c = op f c e) /\
  (type_of ts f = MassInflowOutflow -> e = fdir f -> on_face dom f c -> leaves f (op f c e) ->
     face_write ts dom op v f e c = v e c) /\
  (~ (stores_normal (type_of ts f) /\ e = fdir f /\ on_face dom f c) -> face_write ts dom op v f e c = v e c).
Proof.
  unfold face_write, stores_normal, is_inflow, leaves. rewrite <- face_test_spec.
  split; [|split; [|split]].
  - intros T -> F.
    destruct T as [[-> | ->] | ->]; cbv beta zeta; rewrite Nat.eqb_refl, F; cbn [andb]; auto.
    destruct (flow f).
    + destruct (Rltb (op f c (fdir f)) 0) eqn:L; [right|auto]. apply Rltb_spec in L. auto.
    + destruct (Rltb 0 (op f c (fdir f))) eqn:L; [right|auto]. apply Rltb_spec in L. auto.
  - intros T -> F.
    destruct T as [[-> | ->] | ->]; cbv beta zeta; rewrite Nat.eqb_refl, F; cbn [andb]; auto. intros [N|N]; [congruence|].
    destruct (flow f).
    + destruct (Rltb (op f c (fdir f)) 0) eqn:L; [|reflexivity]. apply Rltb_spec in L. contradiction.
    + destruct (Rltb 0 (op f c (fdir f))) eqn:L; [|reflexivity]. apply Rltb_spec in L. contradiction.
  - intros -> -> F L. cbv beta zeta. rewrite Nat.eqb_refl, F. cbn [andb].
    destruct (flow f); apply Rltb_spec in L; rewrite L; reflexivity.
  - intro N. destruct (type_of ts f); try reflexivity; cbv beta zeta;
      (destruct (Nat.eqb_spec e (fdir f)) as [E|E]; [|reflexivity]; cbn [andb];
       destruct (face_test dom f c); [|reflexivity]; exfalso; apply N; auto).
Qed.

Lemma on_face_one dom f g c : (f < 6)%nat -> (g < 6)%nat -> fdir f = fdir g ->
  (forall d, (d < 3)%nat -> (blo_ dom d <= bhi_ dom d)%Z) ->
  on_face dom f c -> on_face dom g c -> f = g.
Proof.
  intros Hf Hg E NE [F1 _] [G1 _]. rewrite <- E in G1. specialize (NE _ (fdir_lt f)).
  destruct (flow f) eqn:Lf, (flow g) eqn:Lg; try lia.
  + unfold flow, fdir in *. apply Nat.ltb_lt in Lf, Lg.
    rewrite (Nat.mod_small f), (Nat.mod_small g) in E by lia. exact E.
  + unfold flow, fdir in *. apply Nat.ltb_ge in Lf, Lg.
    assert (Ef : (f = (f - 3) + 1 * 3)%nat) by lia. assert (Eg : (g = (g - 3) + 1 * 3)%nat) by lia.
    rewrite Ef, Eg in E. rewrite !Nat.mod_add in E by lia. rewrite !Nat.mod_small in E by lia. lia.
Qed.

Lemma fold_face_miss ts dom op fs : forall v e c,
  (forall f, In f fs -> ~ (stores_normal (type_of ts f) /\ e = fdir f /\ on_face dom f c)) ->
  fold_left (face_write ts dom op) fs v e c = v e c.
Proof.
  induction fs as [|f r IH]; intros v e c H; cbn [fold_left]; [reflexivity|].
  rewrite IH by (intros g G; apply H; right; exact G).
  apply face_write_spec. apply H. left; reflexivity.
Qed.

(** Normal velocities on the boundary: on an inflow or wave-maker face they are
    set to the inflow value; on an inflow-outflow face too, except where that
    value leaves the domain, where the computed velocity is kept.  All other
    faces keep their velocity. *)
Theorem c65_face_inflow ts dom op u e c :
  (forall d, (d < 3)%nat -> (blo_ dom d <= bhi_ dom d)%Z) ->
  (forall f, (f < 6)%nat -> e = fdir f -> on_face dom f c -> stores_normal (type_of ts f) ->
     (type_of ts f <> MassInflowOutflow \/ ~ leaves f (op f c e)) ->
     set_face_inflow ts dom op u e c = op f c e) /\
  (forall f, (f < 6)%nat -> e = fdir f -> on_face dom f c -> type_of ts f = MassInflowOutflow ->
     leaves f (op f c e) -> set_face_inflow ts dom op u e c = u e c) /\
  ((forall f, (f < 6)%nat -> ~ (stores_normal (type_of ts f) /\ e = fdir f /\ on_face dom f c)) ->
     set_face_inflow ts dom op u e c = u e c).
Proof.
  intro NE. change (set_face_inflow ts dom op u) with (fold_left (face_write ts dom op) faces u).
  assert (ONE : forall f, (f < 6)%nat -> e = fdir f -> on_face dom f c -> forall l r,
    faces = (l ++ f :: r)%list -> (forall g, In g r -> (f < g < 6)%nat) ->
    (forall g, In g l -> (g < f)%nat) ->
    fold_left (face_write ts dom op) faces u e c = face_write ts dom op (fold_left (face_write ts dom op) l u) f e c /\
    fold_left (face_write ts dom op) l u e c = u e c).
  { intros f Hf E O l r S G G'. split.
    - rewrite S, fold_left_app. cbn [fold_left]. apply fold_face_miss.
      intros g I [_ [E' O']]. specialize (G g I).
      assert (f = g) by (apply (on_face_one dom f g c); [lia|lia|congruence|exact NE|exact O|exact O']). lia.
    - apply fold_face_miss. intros g I [_ [E' O']]. specialize (G' g I).
      assert (f = g) by (apply (on_face_one dom f g c); [lia|lia|congruence|exact NE|exact O|exact O']). lia. }
  assert (SP : forall f, (f < 6)%nat -> exists l r, faces = (l ++ f :: r)%list /\
    (forall g, In g r -> (f < g < 6)%nat) /\ (forall g, In g l -> (g < f)%nat)).
  { intros f Hf. exists (firstn f faces), (skipn (S f) faces).
    do 6 (destruct f as [|f]; [split; [reflexivity|split; simpl; intros; lia]|]). lia. }
  split; [|split].
  - intros f Hf E O T K. destruct (SP f Hf) as [l [r [S [G G']]]].
    destruct (ONE f Hf E O l r S G G') as [-> _].
    apply (proj1 (proj2 (face_write_spec ts dom op _ f e c))); assumption.
  - intros f Hf E O T K. destruct (SP f Hf) as [l [r [S [G G']]]].
    destruct (ONE f Hf E O l r S G G') as [-> U]. rewrite <- U.
    apply (proj1 (proj2 (proj2 (face_write_spec ts dom op _ f e c)))); assumption.
  - intro H. apply fold_face_miss. intros f I. apply H. apply faces_in. exact I.
Qed.

(** A wave maker next to a profiled inflow: its ghost cells hold its own
    constant, but the velocity stored on its faces is the profile. *)
Theorem c65_wave_maker_refuted : exists b cf cg,
  setup KVelocity 3 0 (fun _ => false) (fun f => match f with
    | O => FaceIn (Some "mi") None None (Some "PowerLawProfile") None None
    | 3%nat => FaceIn (Some "wave_generation") None (Some [2; 0; 0]) None None None
    | _ => FaceIn (Some "sw") None None None None None end) = Ret b /\
  type_of (bc_types b) 3 = WaveGeneration /\
  on_face cube 3 cf /\ beyond_at cube None 3 cg /\
  forall (profile : nat -> ivec -> nat -> R) u v,
    set_face_inflow (bc_types b) cube profile u 0%nat cf = profile 3%nat cf 0%nat /\
    dirichlet b cube None profile (const_op b) v cg 0%nat = 2.
Proof.
  eexists. exists (IV 8 3 3), (IV 8 3 3). split; [reflexivity|]. split; [reflexivity|].
  assert (O : on_face cube 3 (IV 8 3 3)).
  { split; [reflexivity|]. intros d Hd NE. do 3 (destruct d as [|d]; [try (exfalso; apply NE; reflexivity); vm_compute; split; discriminate|]). lia. }
  split; [exact O|]. split; [vm_compute; reflexivity|].
  intros profile u v. split.
  - match goal with |- set_face_inflow ?ts _ _ _ _ _ = _ =>
      apply (proj1 (c65_face_inflow ts cube profile u 0%nat (IV 8 3 3)
        ltac:(intros d Hd; do 3 (destruct d as [|d]; [vm_compute; discriminate|]); lia)) 3%nat) end.
    + lia.
    + reflexivity.
    + exact O.
    + right; reflexivity.
    + left; discriminate.
  - reflexivity.
Qed.

(** * Scalars: acceptance *)

Lemma find_no_ub want get ts inp fs : forall acc, find_udf want get ts inp fs acc <> UB.
Proof.
  induction fs as [|f r IH]; intro acc; cbn [find_udf]; [discriminate|].
  match goal with |- (if ?w then _ else _) <> _ => destruct w end; [|apply IH].
  destruct (get (inp f)) as [v|]; [|apply IH]. destruct acc as [u|]; [|apply IH].
  destruct (u =? v); [apply IH|discriminate].
Qed.

(** Two inflow faces with different function names stop the run. *)
Theorem c65_udf_conflict ts inp f g v w :
  (f < 6)%nat -> (g < 6)%nat -> v <> w ->
  (type_of ts f = MassInflow /\ type_of ts g = MassInflow /\
     fi_inflow (inp f) = Some v /\ fi_inflow (inp g) = Some w) \/
  (type_of ts f = MassInflowOutflow /\ type_of ts g = MassInflowOutflow /\
     fi_inout (inp f) = Some v /\ fi_inout (inp g) = Some w) \/
  (type_of ts f = SlipWall /\ type_of ts g = SlipWall /\
     fi_wall (inp f) = Some v /\ fi_wall (inp g) = Some w) ->
  get_udfs ts inp = Abort.
Proof.
  intros Hf Hg NE H.
  destruct (get_udfs ts inp) as [[[i io] x]| |] eqn:E; [|reflexivity|].
  - exfalso. apply c65_udf in E. destruct E as [A [B [C _]]].
    destruct H as [[T1 [T2 [G1 G2]]]|[[T1 [T2 [G1 G2]]]|[T1 [T2 [G1 G2]]]]].
    + apply NE. rewrite <- (A f v Hf T1 G1). exact (A g w Hg T2 G2).
    + apply NE. rewrite <- (B f v Hf T1 G1). exact (B g w Hg T2 G2).
    + apply NE. rewrite <- (C f v Hf T1 G1). exact (C g w Hg T2 G2).
  - exfalso. unfold get_udfs in E.
    destruct (find_udf MassInflow _ _ _ _ _) eqn:E1; cbn [obind] in E; try discriminate; [|exact (find_no_ub _ _ _ _ _ _ E1)].
    destruct (find_udf MassInflowOutflow _ _ _ _ _) eqn:E2; cbn [obind] in E; try discriminate; [|exact (find_no_ub _ _ _ _ _ _ E2)].
    destruct (find_udf SlipWall _ _ _ _ _) eqn:E3; cbn [obind] in E; try discriminate; exact (find_no_ub _ _ _ _ _ _ E3).
Qed.

(** A scalar input is accepted exactly when the types are allowed, the function
    names do not conflict, enough numbers are given wherever any are, and inflows
    that no function feeds have a value. *)
Theorem c65_accept_scalar nc dflt per inp :
  (exists b, setup KScalar nc dflt per inp = Ret b) <->
  exists ts i io w, List.length ts = 6%nat /\ (forall f, (f < 6)%nat -> asked per inp f (type_of ts f)) /\
    get_udfs ts inp = Ret (i, io, w) /\
    forall f, (f < 6)%nat -> enough nc (inp f) /\
      (type_of ts f = MassInflow -> i = "ConstDirichlet" -> given nc (inp f)) /\
      (type_of ts f = MassInflowOutflow -> io = "ConstDirichlet" -> given nc (inp f)).
Proof.
  assert (GE : forall f d y, get_arr nc (fi_vals (inp f)) d = Ret y -> given nc (inp f) /\ enough nc (inp f)).
  { intros f d y K. assert (K' := proj1 (get_ret nc _ d) (ex_intro _ _ K)). split; [exact K'|].
    intros l L. destruct K' as [l' [L' B]]. congruence. }
  split.
  - intros [b S]. apply setup_inv in S. destruct S as [T [_ V]].
    cbn [values_of] in V. destruct (get_udfs (bc_types b) inp) as [[[i io] w]| |] eqn:E; cbn [obind] in V; try discriminate.
    cbv beta iota in V. apply c65_types in T. destruct T as [L A].
    exists (bc_types b), i, io, w. split; [exact L|]. split; [exact A|]. split; [exact E|].
    intros f Hf. pose proof (ex_intro (fun ys => mapM _ faces = Ret ys) (bc_vals b) V) as VX.
    cbv beta in VX. destruct (proj1 (mapM_faces_ex _) VX f Hf) as [y Y].
    unfold scalar_value in Y.
    assert (Q : query_arr nc (fi_vals (inp f)) (fun _ => dflt) = Ret y -> enough nc (inp f)).
    { intro K. exact (proj1 (query_ret nc _ (fun _ => dflt)) (ex_intro _ y K)). }
    destruct (type_of (bc_types b) f) eqn:TT;
      try (split; [apply Q; exact Y|]; split; intros K; discriminate K).
    + destruct (String.eqb_spec i "ConstDirichlet") as [->|NI].
      * destruct (GE _ _ _ Y) as [G1 G2]. split; [exact G2|]. split; [intros _ _; exact G1|discriminate].
      * split; [apply Q; exact Y|]. split; [intros _ K; contradiction|discriminate].
    + destruct (String.eqb_spec io "ConstDirichlet") as [->|NI].
      * destruct (GE _ _ _ Y) as [G1 G2]. split; [exact G2|]. split; [discriminate|intros _ _; exact G1].
      * split; [apply Q; exact Y|]. split; [discriminate|intros _ K; contradiction].
  - intros [ts [i [io [w [L [A [E H]]]]]]].
    assert (T : read_bctype per inp = Ret ts) by (apply c65_types; auto).
    unfold setup. rewrite T. cbn [obind].
    assert (E2 : exists rs, mapM (fun f => rec_of KScalar (type_of ts f) (fdir f)) faces = Ret rs).
    { apply mapM_faces_ex. intros f Hf. specialize (A f Hf).
      unfold rec_of. destruct (type_of ts f) eqn:TT; try (simpl; eexists; reflexivity).
      unfold asked in A. destruct (per (fdir f)); [destruct A; discriminate|].
      destruct A as [s [N _]]. inversion N. }
    destruct E2 as [rs E2]. rewrite E2. cbn [obind].
    assert (E3 : exists vs, values_of KScalar nc dflt ts inp = Ret vs).
    { cbn [values_of]. rewrite E. cbn [obind]. apply mapM_faces_ex. intros f Hf.
      destruct (H f Hf) as [G1 [G2 G3]]. unfold scalar_value.
      apply (query_ret nc _ (fun _ => dflt)) in G1.
      destruct (type_of ts f); try exact G1.
      - destruct (String.eqb_spec i "ConstDirichlet"); [|exact G1]. apply get_ret. apply G2; auto.
      - destruct (String.eqb_spec io "ConstDirichlet"); [|exact G1]. apply get_ret. apply G3; auto. }
    destruct E3 as [vs E3]. rewrite E3. cbn [obind]. eexists; reflexivity.
Qed.

(** Scalar values: what the input gives, else the default. *)
Theorem c65_scalar_values nc dflt per inp b f n :
  setup KScalar nc dflt per inp = Ret b -> (f < 6)%nat ->
  nth f (bc_vals b) (fun _ => 0) n = match fi_vals (inp f) with Some l => nth n l 0 | None => dflt end.
Proof.
  intros S Hf. apply setup_inv in S. destruct S as [_ [_ V]]. cbn [values_of] in V.
  destruct (get_udfs _ _) as [[[i io] w]| |]; cbn [obind] in V; try discriminate.
  apply (mapM_faces _ (fun _ => 0)) in V. destruct V as [_ V]. specialize (V f Hf).
  unfold scalar_value, get_arr, query_arr in V.
  destruct (type_of (bc_types b) f); destruct (fi_vals (inp f)) as [l|];
    repeat match type of V with context [if ?x then _ else _] => destruct x end;
    try discriminate; injection V as V; rewrite <- V; reflexivity.
Qed.

Theorem c65_vof_values dflt per inp b f n :
  setup KVof 1 dflt per inp = Ret b -> (f < 6)%nat ->
  nth f (bc_vals b) (fun _ => 0) n = match fi_vals (inp f) with Some l => nth n l 0 | None => dflt end.
Proof.
  intros S Hf. apply setup_inv in S. destruct S as [_ [_ V]]. cbn [values_of] in V.
  apply (mapM_faces _ (fun _ => 0)) in V. destruct V as [_ V]. specialize (V f Hf).
  unfold vof_value, get_arr, query_arr in V.
  destruct (type_of (bc_types b) f); destruct (fi_vals (inp f)) as [l|];
    repeat match type of V with context [if ?x then _ else _] => destruct x end;
    try discriminate; injection V as V; rewrite <- V; reflexivity.
Qed.

(** * A case: periodic laterally, an inflow written in capitals, an outflow, a
    wall model below. *)
Definition channel : nat -> face_in := fun f =>
  match f with
  | O => FaceIn (Some "Mass_Inflow") None (Some [8; 1; 0]) None None None
  | 2%nat => FaceIn (Some "sw") (Some "wall_model") None None None None
  | 3%nat => FaceIn (Some "po") None None None None None
  | 5%nat => FaceIn (Some "slip_wall") None None None None None
  | _ => FaceIn None None None None None None
  end.

Example c65_case : exists b, setup KVelocity 3 0 (Nat.eqb 1) channel = Ret b /\
  bc_types b = [MassInflow; Periodic; WallModel; PressureOutflow; Periodic; SlipWall] /\
  (forall u, dirichlet b cube None (const_op b) (const_op b) u (IV (-2) 3 3) 1%nat = 1) /\
  (forall u, dirichlet b cube None (const_op b) (const_op b) u (IV 3 3 (-1)) 2%nat = 0) /\
  (forall u, dirichlet b cube None (const_op b) (const_op b) u (IV 3 3 (-1)) 0%nat = u (IV 3 3 (-1)) 0%nat).
Proof. eexists. split; [reflexivity|]. split; [reflexivity|]. repeat split; reflexivity. Qed.

Print Assumptions c65_types. Print Assumptions c65_velocity. Print Assumptions c65_accept_velocity.
Print Assumptions c65_fill. Print Assumptions c65_wall_partial. Print Assumptions c65_inflow_outflow_twice.
Print Assumptions c65_face_inflow. Print Assumptions c65_accept_scalar.
