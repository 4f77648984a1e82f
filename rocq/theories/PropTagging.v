(** C22, C23, C24: index boxes and refinement by shapes. *)
From Verif Require Import BoxR BoxRFacts VecSpace VecSpaceSpec VecSpaceProofs Tagging TaggingSpec TaggingProofs.
Open Scope R_scope.

(** C22, what holds: the conversion is defined for every box whose corners are
    representable, covers every cell of the domain whose centre is in the box,
    starts inside the domain and ends at most one cell beyond it, and every
    cell of it lies within one cell of the physical box. *)
Theorem c22_index_box_partial : forall rb g n, geom_ok g n -> near rb g ->
  exists b, realbox_to_box rb g = Ret b /\
    (forall c, in_box (domain n) c -> in_rbox rb (centre g c) -> in_box b c) /\
    (forall c, in_box b c -> in_box (Box (IV 0 0 0) n) c) /\
    (forall c, in_box b c ->
       (vx (rlo rb) < vx (gplo g) + (IZR (iv0 c) + 1) * vx (gdx g) /\
        vx (gplo g) + IZR (iv0 c) * vx (gdx g) < vx (rhi rb) + vx (gdx g)) /\
       (vy (rlo rb) < vy (gplo g) + (IZR (iv1 c) + 1) * vy (gdx g) /\
        vy (gplo g) + IZR (iv1 c) * vy (gdx g) < vy (rhi rb) + vy (gdx g)) /\
       (vz (rlo rb) < vz (gplo g) + (IZR (iv2 c) + 1) * vz (gdx g) /\
        vz (gplo g) + IZR (iv2 c) * vz (gdx g) < vz (rhi rb) + vz (gdx g))).
Proof.
  intros rb g n G N. destruct (rtb_ok rb g n G N) as (b & E & L & H & C & D).
  exists b. split; [exact E|]. split; [exact C|]. split; [|exact D].
  intros c (A0 & A1 & A2). unfold in_box; cbn. lia.
Qed.
Print Assumptions c22_index_box_partial.

(** What fails: whenever the physical box reaches the upper end of the domain in
    x, the index box contains the column of cells just outside the domain. *)
Theorem c22_leaves_domain_refuted : forall rb g n, geom_ok g n -> near rb g ->
  vx (gphi g) <= vx (rhi rb) ->
  exists b, realbox_to_box rb g = Ret b /\ iv0 (bhi b) = iv0 n /\ (iv0 (bhi (domain n)) < iv0 (bhi b))%Z.
Proof.
  intros rb g n G N H. destruct (rtb_ok rb g n G N) as (b & E & _).
  exists b. split; [exact E|].
  assert (iv0 (bhi b) = iv0 n) as ->; [|cbn; lia].
  destruct G as ((D & I & P & M) & _). revert E. unfold realbox_to_box, rb_dim at 1.
  rewrite rmin_spec, Rmin_right by exact H.
  assert (rceil ((vx (gphi g) - vx (gplo g)) * vx (gdxi g)) = iv0 n) as ->.
  { replace ((vx (gphi g) - vx (gplo g)) * vx (gdxi g)) with (IZR (iv0 n)) by (rewrite P, I; field; lra).
    pose proof (rceil_spec (IZR (iv0 n))) as [U V]. apply le_IZR in V.
    rewrite <- minus_IZR in U. apply lt_IZR in U. lia. }
  destruct (to_int (rfloor _)) as [a| |]; cbn [obind]; try discriminate.
  rewrite to_int_ok by lia. cbn [obind].
  destruct (rb_dim (vy _) _ _ _ _) as [y| |]; cbn [obind]; try discriminate.
  destruct (rb_dim (vz _) _ _ _ _) as [z| |]; cbn [obind]; try discriminate.
  intros E. injection E as <-. reflexivity.
Qed.
Print Assumptions c22_leaves_domain_refuted.

(** And a box more than 2^31 cells below the domain is undefined behaviour
    rather than an empty box. *)
Theorem c22_far_box_refuted : forall rb g n, geom_ok g n ->
  vx (rhi rb) <= vx (gplo g) - 2147483649 * vx (gdx g) ->
  vx (rlo rb) <= vx (gplo g) -> realbox_to_box rb g = UB.
Proof.
  intros rb g n ((D & I & P & M) & _) H L. unfold realbox_to_box, rb_dim at 1.
  rewrite rmin_spec, rmax_spec. rewrite Rmax_right by exact L.
  assert (1 <= IZR (iv0 n)) by (apply IZR_le; lia).
  rewrite Rmin_left by nra.
  replace ((vx (gplo g) - vx (gplo g)) * vx (gdxi g)) with 0 by ring.
  rewrite (rfloor_unique 0 0) by lra. rewrite to_int_ok by lia. cbn [obind].
  set (Y := (vx (rhi rb) - vx (gplo g)) * vx (gdxi g)).
  assert (HY : Y <= -2147483649).
  { assert (DI : vx (gdx g) * vx (gdxi g) = 1) by (rewrite I; field; lra).
    assert (0 < vx (gdxi g)) by (rewrite I; apply Rinv_0_lt_compat, D). unfold Y. nra. }
  pose proof (rceil_spec Y) as [C _].
  assert (IZR (rceil Y) < -2147483648) as C' by lra. apply lt_IZR in C'.
  unfold to_int, int_ok.
  replace (-2147483648 <=? rceil Y)%Z with false by (symmetry; apply Z.leb_gt; lia).
  reflexivity.
Qed.
Print Assumptions c22_far_box_refuted.

(** C23: one pass of geometric refinement over any tiling of the level (tiles
    inside the domain) never fails, keeps earlier tags, and tags a cell exactly
    when it is a cell of the level whose centre lies in one of the shapes, on
    the levels the user selected. *)
Theorem c23_geometry : forall cf shapes level tiles g n t,
  geom_ok g n ->
  (forall s, In s shapes -> geometric s /\ shape_ok s /\ near (bound_box s) g) ->
  (forall bx c, In bx tiles -> in_box bx c -> in_box (domain n) c) ->
  exists t', geometry_refinement cf shapes level tiles g t = Ret t' /\
    forall c, t' c = true <->
      (t c = true \/
       (selected cf level /\ (exists bx, In bx tiles /\ in_box bx c) /\
        exists s, In s shapes /\ in_shape s (centre g c))).
Proof.
  intros cf shapes level tiles g n t G S D.
  assert (Dec : selected cf level \/ ~ selected cf level) by (unfold selected; lia).
  destruct Dec as [Sel|Sel].
  - rewrite gr_selected by exact Sel.
    destruct (tag_tiles_ok n g shapes tiles G (fun s H => proj2 (proj2 (S s H))) D
                (fun s H => proj1 (proj2 (S s H))) t) as (t' & E & M & P & Q).
    exists t'. split; [exact E|]. intros c. split.
    + intros H. destruct (Q c H) as [H1|(bx & s & Hb & B & Hs & T)]; [left; exact H1|].
      right. split; [exact Sel|]. split; [exists bx; tauto|]. exists s. split; [exact Hs|].
      apply shape_region; [apply (S s Hs)|apply (S s Hs)|exact T].
    + intros [H|(_ & (bx & Hb & B) & (s & Hs & I))]; [apply M, H|]. apply (P c s bx); assumption.
  - rewrite gr_unselected by exact Sel. exists t. split; [reflexivity|]. intros c. tauto.
Qed.
Print Assumptions c23_geometry.

(** The bounding box used to skip tiles contains the shape. *)
Theorem c23_bound_box : forall s p, shape_ok s -> in_shape s p -> in_rbox (bound_box s) p.
Proof. exact shape_bounded. Qed.
Print Assumptions c23_bound_box.

(** A box whose axes form a left-handed triple (for instance, two axes listed in
    the other order) is silently ignored: it tags no cell at all. *)
Theorem c23_left_handed_refuted : forall o x y z level tiles g n t t',
  triple x y z < 0 -> geom_ok g n ->
  geometry_refinement (GRConf (-1) 0 level) [SBox o x y z] level tiles g t = Ret t' ->
  forall c, t' c = t c.
Proof.
  intros o x y z level tiles g n t t' H _.
  unfold geometry_refinement.
  replace ((-1 <? set_level (GRConf (-1) 0 level)) && negb (level =? set_level (GRConf (-1) 0 level)))%Z
    with false by reflexivity.
  destruct ((level <? _) || _)%Z; [intros E c; injection E as <-; reflexivity|].
  revert t. induction tiles as [|bx rest IH]; intros t E c; [injection E as <-; reflexivity|].
  cbn [tag_tiles tag_tile] in E.
  destruct (realbox_to_box _ g) as [b| |]; cbn [obind] in E; try discriminate.
  destruct (box_empty (box_and bx b)); cbn [obind] in E; [apply IH, E|].
  rewrite (IH _ E c). unfold tag_shape. cbn [shape_test].
  rewrite hex_left_handed by exact H. rewrite andb_false_r. reflexivity.
Qed.
Print Assumptions c23_left_handed_refuted.

(** User-defined function: cells in the user's bounding box where the function
    holds are tagged, and the function holds on every newly tagged cell. *)
Theorem c23_udf_partial : forall f bb cf level tiles g n t,
  geom_ok g n -> near bb g -> selected cf level ->
  (forall bx c, In bx tiles -> in_box bx c -> in_box (domain n) c) ->
  exists t', geometry_refinement cf [SUdf f bb] level tiles g t = Ret t' /\
    (forall c bx, In bx tiles -> in_box bx c -> in_rbox bb (centre g c) -> f (centre g c) = true -> t' c = true) /\
    (forall c, t' c = true -> t c = true \/
       ((exists bx, In bx tiles /\ in_box bx c) /\ f (centre g c) = true)).
Proof.
  intros f bb cf level tiles g n t G N Sel D. rewrite gr_selected by exact Sel.
  destruct (tag_tiles_ok n g [SUdf f bb] tiles G) with (t := t) as (t' & E & M & P & Q).
  - intros s [<-|[]]. exact N.
  - exact D.
  - intros s [<-|[]]. exact Logic.I.
  - exists t'. split; [exact E|]. split.
    + intros c bx Hb B I F. apply (P c (SUdf f bb) bx); [exact Hb|exact B|left; reflexivity|].
      split; assumption.
    + intros c H. destruct (Q c H) as [H1|(bx & s & Hb & B & [<-|[]] & T)]; [left; exact H1|].
      right. split; [exists bx; tauto|exact T].
Qed.
Print Assumptions c23_udf_partial.

(** A concrete level: 4 x 2 x 2 unit cells. *)
Definition g4 : geom := Geom (V3 0 0 0) (V3 4 2 2) (V3 1 1 1) (V3 1 1 1).
Lemma g4_ok : geom_ok g4 (IV 4 2 2).
Proof. unfold geom_ok, axis_ok, g4; cbn. repeat split; try lra; try lia; field. Qed.

Definition bb1 : rbox := RBox (V3 0 0 0) (V3 0.5 2 2).
Lemma bb1_near : near bb1 g4.
Proof. unfold near, axis_near, bb1, g4; cbn. repeat split; lra. Qed.

Lemma bb1_box : realbox_to_box bb1 g4 = Ret (Box (IV 0 0 0) (IV 1 2 2)).
Proof.
  unfold realbox_to_box, rb_dim, bb1, g4; cbn [rlo rhi gplo gphi gdxi vx vy vz].
  rewrite !rmin_spec, !rmax_spec.
  rewrite !Rmax_left, !Rmin_left by lra.
  rewrite !(rfloor_unique _ 0) by lra.
  assert (C1 : rceil ((0.5 - 0) * 1) = 1%Z) by (unfold rceil; rewrite (rfloor_unique _ (-1)) by lra; reflexivity).
  assert (C2 : rceil ((2 - 0) * 1) = 2%Z) by (unfold rceil; rewrite (rfloor_unique _ (-2)) by lra; reflexivity).
  rewrite C1, C2. reflexivity.
Qed.

(** The user's bounding box does not bound the tagging: with the same box and
    function, the same cell (3,0,0), three cells away from the box, is tagged or
    not depending on how the level is cut into tiles. *)
Theorem c23_udf_tiling_refuted : exists f bb g n c tiles1 tiles2 t1 t2,
  geom_ok g n /\ near bb g /\ ~ in_rbox bb (centre g c) /\
  (forall k, (exists bx, In bx tiles1 /\ in_box bx k) <-> in_box (domain n) k) /\
  (forall k, (exists bx, In bx tiles2 /\ in_box bx k) <-> in_box (domain n) k) /\
  geometry_refinement (GRConf (-1) 0 0) [SUdf f bb] 0 tiles1 g (fun _ => false) = Ret t1 /\
  geometry_refinement (GRConf (-1) 0 0) [SUdf f bb] 0 tiles2 g (fun _ => false) = Ret t2 /\
  t1 c = true /\ t2 c = false.
Proof.
  exists (fun _ => true), bb1, g4, (IV 4 2 2), (IV 3 0 0), [Box (IV 0 0 0) (IV 3 1 1)],
    [Box (IV 0 0 0) (IV 1 1 1); Box (IV 2 0 0) (IV 3 1 1)].
  eexists. eexists.
  split; [exact g4_ok|]. split; [exact bb1_near|]. split.
  { unfold in_rbox, centre, bb1, g4; cbn. lra. }
  split.
  { intros k. split; [intros (bx & [<-|[]] & B); exact B|intros B; eexists; split; [left; reflexivity|exact B]]. }
  split.
  { intros k. split.
    - intros (bx & [<-|[<-|[]]] & B); unfold in_box, domain in *; cbn in *; lia.
    - intros B. unfold in_box, domain in *; cbn in *.
      destruct (Z_le_gt_dec (iv0 k) 1).
      + eexists; split; [left; reflexivity|]. unfold in_box; cbn. lia.
      + eexists; split; [right; left; reflexivity|]. unfold in_box; cbn. lia. }
  split; [unfold geometry_refinement; cbn; rewrite bb1_box; cbn; reflexivity|].
  split; [unfold geometry_refinement; cbn; rewrite bb1_box; cbn; reflexivity|].
  split; reflexivity.
Qed.
Print Assumptions c23_udf_tiling_refuted.

(** C24: the requested boxes of every level that exists in the simulation are
    converted, and after tagging a level every cell of its tag boxes lying in
    the domain with its centre in a requested box of that level is tagged;
    every newly tagged cell lies within one cell of a requested box of that
    level and at most one cell beyond the upper end of the domain. *)
Theorem c24_static_partial : forall file geoms ns level fabs t boxes g n,
  nth_error file level = Some boxes -> nth_error geoms level = Some g -> nth_error ns level = Some n ->
  (forall l gl nl, nth_error geoms l = Some gl -> nth_error ns l = Some nl -> geom_ok gl nl) ->
  length ns = length geoms ->
  (forall l bl gl rb, nth_error file l = Some bl -> nth_error geoms l = Some gl -> In rb bl -> near rb gl) ->
  exists bas, cart_read file geoms = Ret bas /\
    (forall c rb, (exists f, In f fabs /\ in_box f c) -> in_box (domain n) c -> In rb boxes ->
       in_rbox rb (centre g c) -> cart_tag bas level fabs t c = true) /\
    (forall c, cart_tag bas level fabs t c = true -> t c = true \/
       ((exists f, In f fabs /\ in_box f c) /\ in_box (Box (IV 0 0 0) n) c /\
        exists rb, In rb boxes /\
         (vx (rlo rb) < vx (gplo g) + (IZR (iv0 c) + 1) * vx (gdx g) /\
          vx (gplo g) + IZR (iv0 c) * vx (gdx g) < vx (rhi rb) + vx (gdx g)) /\
         (vy (rlo rb) < vy (gplo g) + (IZR (iv1 c) + 1) * vy (gdx g) /\
          vy (gplo g) + IZR (iv1 c) * vy (gdx g) < vy (rhi rb) + vy (gdx g)) /\
         (vz (rlo rb) < vz (gplo g) + (IZR (iv2 c) + 1) * vz (gdx g) /\
          vz (gplo g) + IZR (iv2 c) * vz (gdx g) < vz (rhi rb) + vz (gdx g)))).
Proof.
  intros file geoms ns level fabs t boxes g n Hf Hg Hn G Ln N.
  set (m := Nat.min (length geoms) (length file)).
  assert (Lv : (level < m)%nat).
  { assert (level < length file)%nat by (apply nth_error_Some; congruence).
    assert (level < length geoms)%nat by (apply nth_error_Some; congruence). unfold m. lia. }
  assert (Pair : forall l x, nth_error (firstn m (combine file geoms)) l = Some x ->
      nth_error file l = Some (fst x) /\ nth_error geoms l = Some (snd x)).
  { intros l x H.
    assert (nth_error (combine file geoms) l = Some x) as H'.
    { rewrite <- H. symmetry. revert l H. generalize (combine file geoms). intros q.
      clear. revert q. induction m as [|m IH]; intros [|a q] [|l] H; cbn in *; try discriminate; try reflexivity.
      apply IH, H. }
    clear - H'. revert geoms l H'. induction file as [|a file IH]; intros [|b geoms] [|l] H; cbn in *;
      try discriminate.
    - injection H as <-. split; reflexivity.
    - apply IH, H. }
  assert (Box1 : forall l bl gl, nth_error file l = Some bl -> nth_error geoms l = Some gl ->
      exists bs, realbox_to_boxarray bl gl = Ret bs /\ length bs = length bl /\
        forall i rb b, nth_error bl i = Some rb -> nth_error bs i = Some b -> cb_box gl rb = Ret b).
  { intros l bl gl H1 H2. apply omap_ok. intros rb Hrb.
    destruct (nth_error ns l) as [nl|] eqn:H3.
    - rewrite (cb_box_rtb gl nl rb (G l gl nl H2 H3)).
      destruct (rtb_ok rb gl nl (G l gl nl H2 H3) (N l bl gl rb H1 H2 Hrb)) as (b & E & _). exists b. exact E.
    - exfalso. apply nth_error_None in H3. assert (l < length geoms)%nat by (apply nth_error_Some; congruence). lia. }
  destruct (omap_ok (fun lg => realbox_to_boxarray (fst lg) (snd lg)) (firstn m (combine file geoms)))
    as (bas & E & L & P).
  { intros x Hx. apply In_nth_error in Hx. destruct Hx as [l Hl]. destruct (Pair l x Hl) as [A B].
    destruct (Box1 l _ _ A B) as (bs & E & _). exists bs. exact E. }
  exists bas. split; [exact E|].
  assert (Lb : (level < length bas)%nat).
  { rewrite L, firstn_length, combine_length. lia. }
  assert (exists bs, nth_error bas level = Some bs) as [bs Hbs].
  { destruct (nth_error bas level) as [bs|] eqn:Q; [exists bs; reflexivity|].
    apply nth_error_None in Q. lia. }
  assert (exists x, nth_error (firstn m (combine file geoms)) level = Some x) as [x Hx].
  { destruct (nth_error (firstn m (combine file geoms)) level) as [x|] eqn:Q; [exists x; reflexivity|].
    apply nth_error_None in Q. lia. }
  destruct (Pair level x Hx) as [Xf Xg]. rewrite Hf in Xf. rewrite Hg in Xg.
  injection Xf as Xf. injection Xg as Xg.
  pose proof (P level x bs Hx Hbs) as R. cbn beta in R. rewrite <- Xf, <- Xg in R.
  destruct (Box1 level boxes g Hf Hg) as (bs' & R' & Ll & Each). rewrite R in R'. injection R' as <-.
  pose proof (G level g n Hg Hn) as Go.
  assert (Nb : nth level bas [] = bs) by (apply nth_error_nth; exact Hbs).
  unfold cart_tag. rewrite (proj2 (Nat.ltb_lt _ _) Lb), Nb.
  split.
  - intros c rb (f & Hfab & B) D Hrb I.
    assert (existsb (fun f => in_boxb f c) fabs = true) as ->.
    { apply existsb_exists. exists f. split; [exact Hfab|apply in_boxb_spec, B]. }
    assert (existsb (fun b => in_boxb b c) bs = true) as ->; [|reflexivity].
    apply In_nth_error in Hrb. destruct Hrb as [i Hi].
    destruct (nth_error bs i) as [b|] eqn:Q.
    2:{ apply nth_error_None in Q. assert (i < length boxes)%nat by (apply nth_error_Some; congruence). lia. }
    apply existsb_exists. exists b. split; [eapply nth_error_In; exact Q|].
    pose proof (Each i rb b Hi Q) as Eb. rewrite (cb_box_rtb g n rb Go) in Eb.
    destruct (rtb_ok rb g n Go (N level boxes g rb Hf Hg (nth_error_In _ _ Hi))) as (b' & Eb' & _ & _ & C & _).
    rewrite Eb in Eb'. injection Eb' as <-. apply in_boxb_spec, C; assumption.
  - intros c. destruct (existsb (fun f => in_boxb f c) fabs) eqn:Q1; cbn [andb]; [|tauto].
    destruct (existsb (fun b => in_boxb b c) bs) eqn:Q2; [|tauto]. intros _. right.
    apply existsb_exists in Q1. destruct Q1 as (f & F1 & F2).
    split; [exists f; split; [exact F1|apply in_boxb_spec, F2]|].
    apply existsb_exists in Q2. destruct Q2 as (b & B1 & B2). apply in_boxb_spec in B2.
    apply In_nth_error in B1. destruct B1 as [i Hi].
    destruct (nth_error boxes i) as [rb|] eqn:Q.
    2:{ apply nth_error_None in Q. assert (i < length bs)%nat by (apply nth_error_Some; congruence). lia. }
    pose proof (Each i rb b Q Hi) as Eb. rewrite (cb_box_rtb g n rb Go) in Eb.
    destruct (rtb_ok rb g n Go (N level boxes g rb Hf Hg (nth_error_In _ _ Q))) as (b' & Eb' & A0 & A1 & _ & D).
    rewrite Eb in Eb'. injection Eb' as <-.
    split; [destruct B2 as (X0 & X1 & X2); unfold in_box; cbn; lia|].
    exists rb. split; [eapply nth_error_In; exact Q|]. apply D, B2.
Qed.
Print Assumptions c24_static_partial.

(** Levels beyond the file or beyond the simulation are left alone. *)
Theorem c24_other_levels : forall file geoms bas level fabs t,
  cart_read file geoms = Ret bas -> (length file <= level \/ length geoms <= level)%nat ->
  cart_tag bas level fabs t = t.
Proof.
  intros file geoms bas level fabs t H L. unfold cart_read in H.
  assert (Len : forall {A B} (f : A -> outcome B) l bs, omap f l = Ret bs -> length bs = length l).
  { intros A B f. induction l as [|a l IH]; cbn; intros bs E; [injection E as <-; reflexivity|].
    destruct (f a) as [b| |]; cbn in E; try discriminate.
    destruct (omap f l) as [bs'| |]; cbn in E; try discriminate.
    injection E as <-. cbn. f_equal. apply IH. reflexivity. }
  apply Len in H. rewrite firstn_length, combine_length in H. unfold cart_tag.
  rewrite (proj2 (Nat.ltb_ge _ _)); [reflexivity|]. lia.
Qed.
Print Assumptions c24_other_levels.

(** A requested box that ends at or beyond the upper end of the domain also
    requests the cells just outside it, and these are tagged when the tag boxes
    have ghost cells there; a requested box lying wholly below the domain, by
    less than a cell, tags the first cells of the domain. *)
Theorem c24_outside_refuted : exists file geoms bas t c c',
  cart_read file geoms = Ret bas /\ geoms = [g4] /\
  file = [[RBox (V3 3 0 0) (V3 9 2 2); RBox (V3 (-5) 0 0) (V3 (-0.5) 2 2)]] /\
  t = cart_tag bas 0 [Box (IV (-1) (-1) (-1)) (IV 4 2 2)] (fun _ => false) /\
  ~ in_box (domain (IV 4 2 2)) c /\ t c = true /\
  c' = IV 0 0 0 /\ t c' = true /\
  (forall rb, In rb (nth 0 file []) -> ~ in_rbox rb (centre g4 c')).
Proof.
  exists [[RBox (V3 3 0 0) (V3 9 2 2); RBox (V3 (-5) 0 0) (V3 (-0.5) 2 2)]], [g4].
  assert (E : cart_read [[RBox (V3 3 0 0) (V3 9 2 2); RBox (V3 (-5) 0 0) (V3 (-0.5) 2 2)]] [g4]
              = Ret [[Box (IV 3 0 0) (IV 4 2 2); Box (IV 0 0 0) (IV 0 2 2)]]).
  { unfold cart_read, realbox_to_boxarray, cb_box, cb_dim, g4.
    cbn [length Nat.min combine firstn omap fst snd rlo rhi gplo gphi gdx vx vy vz].
    rewrite !rmin_spec, !rmax_spec.
    rewrite (Rmax_left 3 0), (Rmin_right 9 4), (Rmax_right (-5) 0), (Rmin_left (-0.5) 4) by lra.
    rewrite !(Rmax_left 0 0), !(Rmin_left 2 2) by lra.
    rewrite (rfloor_unique ((3 - 0) / 1) 3) by lra.
    rewrite !(rfloor_unique ((0 - 0) / 1) 0) by lra.
    assert (C1 : rceil ((4 - 0) / 1) = 4%Z) by (unfold rceil; rewrite (rfloor_unique _ (-4)) by lra; reflexivity).
    assert (C2 : rceil ((2 - 0) / 1) = 2%Z) by (unfold rceil; rewrite (rfloor_unique _ (-2)) by lra; reflexivity).
    assert (C3 : rceil ((-0.5 - 0) / 1) = 0%Z) by (unfold rceil; rewrite (rfloor_unique _ 0) by lra; reflexivity).
    rewrite C1, C2, C3. reflexivity. }
  rewrite E. eexists. eexists. exists (IV 4 0 0), (IV 0 0 0).
  split; [reflexivity|]. split; [reflexivity|]. split; [reflexivity|]. split; [reflexivity|].
  split; [unfold in_box; cbn; lia|]. split; [reflexivity|]. split; [reflexivity|]. split; [reflexivity|].
  intros rb [<-|[<-|[]]]; unfold in_rbox, centre, g4; cbn; lra.
Qed.
Print Assumptions c24_outside_refuted.

(** Non-vacuity of C23: an oblique box and a tilted annulus near the level, each
    tagging some cells and not others. *)
Definition obox : shape := SBox (V3 0 0 0) (V3 2 0 0) (V3 1 2 0) (V3 0 0 1).
Definition tube : shape := SCyl (V3 0 0 0) (V3 4 0 0) 1 0.25.

Example c23_hyp : forall s, In s [obox; tube] -> geometric s /\ shape_ok s.
Proof.
  intros s [<-|[<-|[]]]; cbn; (split; [exact Logic.I|]).
  - unfold triple; cbn. lra.
  - split; [intros H; injection H; lra|lra].
Qed.

Example obox_in : in_shape obox (centre g4 (IV 1 0 0)).
Proof.
  unfold obox, in_shape, in_parallelepiped, centre, g4; cbn.
  exists (5/8), (1/4), (1/2). repeat split; lra.
Qed.
Example obox_out : ~ in_shape obox (centre g4 (IV 0 1 0)).
Proof.
  unfold obox, in_shape, in_parallelepiped, centre, g4; cbn.
  intros (s & t & u & S & T & U & X & Y & Z). lra.
Qed.
Example tube_in : in_shape tube (centre g4 (IV 1 0 0)).
Proof.
  unfold tube, in_shape, in_cylinder, centre, g4; cbn.
  exists (3/8). split; [lra|]. split; [unfold inner; cbn; lra|].
  split; [apply len_ge|apply len_le]; try lra; unfold inner; cbn; lra.
Qed.

(** [near] only excludes shapes far away from the level: a bounding box with a
    point in the problem domain is near. *)
Lemma near_of_point rb g n p : geom_ok g n -> in_rbox rb p ->
  in_rbox (RBox (gplo g) (gphi g)) p -> near rb g.
Proof.
  assert (D : forall lo hi plo phi dx dxi m v, axis_ok plo phi dx dxi m -> lo <= v <= hi -> plo <= v <= phi ->
     axis_near lo hi plo dx).
  { intros lo hi plo phi dx dxi m v (A & _ & B & C) H1 H2.
    assert (IZR m <= 2147483646) by (apply IZR_le; lia). unfold axis_near. nra. }
  intros (G0 & G1 & G2) (A0 & A1 & A2) (B0 & B1 & B2).
  split; [|split]; eapply D; eassumption.
Qed.

Example c23_near : near (bound_box obox) g4 /\ near (bound_box tube) g4.
Proof.
  split; (eapply near_of_point; [exact g4_ok|apply shape_bounded; [apply c23_hyp|]|]).
  - left; reflexivity.
  - exact obox_in.
  - unfold in_rbox, centre, g4; cbn. lra.
  - right; left; reflexivity.
  - exact tube_in.
  - unfold in_rbox, centre, g4; cbn. lra.
Qed.
