(** Every cell of a tiled level ends up with the stencil of its own position. *)
From Coq Require Import Reals Lra ZArith List Bool Lia ZifyBool.
From Verif Require Import BoxR BoxRFacts Stencil.
Local Open Scope R_scope.

Inductive pos : Type := PLo | PMid | PHi.

Definition ctri (p : pos) : tri :=
  match p with PLo => Tri (1/3) 1 (-4/3) | PMid => Tri (1/2) 0 (-1/2)
             | PHi => Tri (4/3) (-1) (-1/3) end.
Definition stri (p : pos) : tri :=
  match p with PLo => Tri (4/3) (-4) (8/3) | PMid => Tri 1 (-2) 1
             | PHi => Tri (8/3) (-4) (4/3) end.
Definition ftri (p : pos) : tri :=
  match p with PLo => Tri (1/8) (5/8) (1/4) | PMid => Tri (1/4) (1/2) (1/4)
             | PHi => Tri (1/4) (5/8) (1/8) end.

Definition at_lo (g : geom) (c : ivec) (d : Z) : bool :=
  negb (gper g d) && (icomp c d =? icomp (blo (gdom g)) d)%Z.
Definition at_hi (g : geom) (c : ivec) (d : Z) : bool :=
  negb (gper g d) && (icomp c d =? icomp (bhi (gdom g)) d)%Z.
Definition where_is (g : geom) (c : ivec) (d : Z) : pos :=
  if at_lo g c d then PLo else if at_hi g c d then PHi else PMid.

Definition the_stencil (p q r : pos) : stencil :=
  match p, q, r with
  | PMid, PMid, PMid => StencilInterior
  | PLo, PMid, PMid => StencilILO | PHi, PMid, PMid => StencilIHI
  | PMid, PLo, PMid => StencilJLO | PMid, PHi, PMid => StencilJHI
  | PMid, PMid, PLo => StencilKLO | PMid, PMid, PHi => StencilKHI
  | PLo, PLo, PMid => StencilIloJlo | PLo, PHi, PMid => StencilIloJhi
  | PHi, PLo, PMid => StencilIhiJlo | PHi, PHi, PMid => StencilIhiJhi
  | PLo, PMid, PLo => StencilIloKlo | PLo, PMid, PHi => StencilIloKhi
  | PHi, PMid, PLo => StencilIhiKlo | PHi, PMid, PHi => StencilIhiKhi
  | PMid, PLo, PLo => StencilJloKlo | PMid, PLo, PHi => StencilJloKhi
  | PMid, PHi, PLo => StencilJhiKlo | PMid, PHi, PHi => StencilJhiKhi
  | PLo, PLo, PLo => StencilIloJloKlo | PLo, PLo, PHi => StencilIloJloKhi
  | PLo, PHi, PLo => StencilIloJhiKlo | PLo, PHi, PHi => StencilIloJhiKhi
  | PHi, PLo, PLo => StencilIhiJloKlo | PHi, PLo, PHi => StencilIhiJloKhi
  | PHi, PHi, PLo => StencilIhiJhiKlo | PHi, PHi, PHi => StencilIhiJhiKhi
  end.

Lemma the_stencil_coefs p q r : let s := the_stencil p q r in
  (c0 s = ctri p /\ c1 s = ctri q /\ c2 s = ctri r) /\
  (s0 s = stri p /\ s1 s = stri q /\ s2 s = stri r) /\
  (f0 s = ftri p /\ f1 s = ftri q /\ f2 s = ftri r).
Proof. destruct p, q, r; cbn; repeat split; reflexivity. Qed.

Definition thick (g : geom) : Prop := forall d, (0 <= d <= 2)%Z ->
  gper g d = false -> (icomp (blo (gdom g)) d < icomp (bhi (gdom g)) d)%Z.
Definition inside (g : geom) (t : box) : Prop := forall d, (0 <= d <= 2)%Z ->
  (icomp (blo (gdom g)) d <= icomp (blo t) d /\ icomp (bhi t) d <= icomp (bhi (gdom g)) d)%Z.

Lemma in_boxb_spec b c : in_boxb b c = true <-> in_box b c.
Proof. unfold in_boxb, in_box. rewrite !andb_true_iff, !Z.leb_le. tauto. Qed.

Lemma in_boxb_and a b c : in_boxb (box_and a b) c = in_boxb a c && in_boxb b c.
Proof.
  apply eq_true_iff_eq. rewrite andb_true_iff, !in_boxb_spec.
  unfold in_box, box_and; cbn [iv0 iv1 iv2 blo bhi]. lia.
Qed.

Lemma in_empty c : in_boxb empty_box c = false.
Proof. unfold in_boxb, empty_box; cbn [iv0 iv1 iv2 blo bhi]. lia. Qed.

Lemma in_box_lo g t c d : inside g t -> in_boxb t c = true -> (0 <= d <= 2)%Z ->
  in_boxb (box_lo g t d) c = at_lo g c d.
Proof.
  intros Hi Ht Hd. specialize (Hi d Hd). apply in_boxb_spec in Ht.
  unfold box_lo, at_lo. destruct (gper g d); [apply in_empty|]. cbn [negb andb].
  assert (d = 0 \/ d = 1 \/ d = 2)%Z as [-> | [-> | ->]] by lia;
    unfold icomp, in_box in *; cbn [Z.eqb Pos.eqb] in *;
    destruct (negb _) eqn:E; rewrite ?in_empty;
    unfold in_boxb, set_val; cbn [Z.eqb Pos.eqb iv0 iv1 iv2 blo bhi]; lia.
Qed.

Lemma in_box_hi g t c d : inside g t -> in_boxb t c = true -> (0 <= d <= 2)%Z ->
  in_boxb (box_hi g t d) c = at_hi g c d.
Proof.
  intros Hi Ht Hd. specialize (Hi d Hd). apply in_boxb_spec in Ht.
  unfold box_hi, at_hi. destruct (gper g d); [apply in_empty|]. cbn [negb andb].
  assert (d = 0 \/ d = 1 \/ d = 2)%Z as [-> | [-> | ->]] by lia;
    unfold icomp, in_box in *; cbn [Z.eqb Pos.eqb] in *;
    destruct (negb _) eqn:E; rewrite ?in_empty;
    unfold in_boxb, set_val; cbn [Z.eqb Pos.eqb iv0 iv1 iv2 blo bhi]; lia.
Qed.

Lemma box_lo_sub g t c d : (0 <= d <= 2)%Z -> in_boxb (box_lo g t d) c = true ->
  (icomp (blo t) d <= icomp (bhi t) d)%Z -> in_boxb t c = true.
Proof.
  intros Hd H Hne. unfold box_lo in H.
  destruct (gper g d); [rewrite in_empty in H; discriminate|].
  destruct (negb _); [rewrite in_empty in H; discriminate|].
  assert (d = 0 \/ d = 1 \/ d = 2)%Z as [-> | [-> | ->]] by lia;
  unfold in_boxb, set_val, icomp in *; cbn [Z.eqb Pos.eqb iv0 iv1 iv2 blo bhi] in *; lia.
Qed.
Lemma box_hi_sub g t c d : (0 <= d <= 2)%Z -> in_boxb (box_hi g t d) c = true ->
  (icomp (blo t) d <= icomp (bhi t) d)%Z -> in_boxb t c = true.
Proof.
  intros Hd H Hne. unfold box_hi in H.
  destruct (gper g d); [rewrite in_empty in H; discriminate|].
  destruct (negb _); [rewrite in_empty in H; discriminate|].
  assert (d = 0 \/ d = 1 \/ d = 2)%Z as [-> | [-> | ->]] by lia;
  unfold in_boxb, set_val, icomp in *; cbn [Z.eqb Pos.eqb iv0 iv1 iv2 blo bhi] in *; lia.
Qed.

Lemma lo_hi_excl g c d : thick g -> (0 <= d <= 2)%Z -> at_lo g c d = true -> at_hi g c d = false.
Proof.
  intros Ht Hd. specialize (Ht d Hd). unfold at_lo, at_hi.
  destruct (gper g d); cbn [negb andb]; [discriminate|]. specialize (Ht eq_refl). lia.
Qed.

Lemma strict_interior g t c d : strictly_contains (gdom g) t = true -> in_boxb t c = true ->
  (0 <= d <= 2)%Z -> at_lo g c d = false /\ at_hi g c d = false.
Proof.
  intros Hs Ht Hd. apply in_boxb_spec in Ht. unfold strictly_contains, in_box in *.
  unfold at_lo, at_hi. assert (d = 0 \/ d = 1 \/ d = 2)%Z as [-> | [-> | ->]] by lia;
    unfold icomp; cbn [Z.eqb Pos.eqb]; destruct (gper g _); cbn [negb andb]; lia.
Qed.

Lemma tile_hit op g t out c n : thick g -> inside g t -> in_boxb t c = true ->
  apply_tile op g out t c n =
  op (the_stencil (where_is g c 0) (where_is g c 1) (where_is g c 2)) c n.
Proof.
  intros Hk Hi Ht. unfold apply_tile.
  assert (H0 : (0 <= 0 <= 2)%Z) by lia. assert (H1 : (0 <= 1 <= 2)%Z) by lia.
  assert (H2 : (0 <= 2 <= 2)%Z) by lia.
  destruct (strictly_contains (gdom g) t) eqn:Es.
  - unfold where_is.
    destruct (strict_interior g t c 0 Es Ht H0) as [-> ->].
    destruct (strict_interior g t c 1 Es Ht H1) as [-> ->].
    destruct (strict_interior g t c 2 Es Ht H2) as [-> ->].
    unfold pass. cbn [sbox StencilInterior the_stencil]. rewrite Ht. reflexivity.
  - unfold boundary_passes. cbn [fold_left]. unfold pass.
    cbn [sbox StencilInterior StencilILO StencilJLO StencilKLO StencilIHI StencilJHI StencilKHI
     StencilIhiJlo StencilIhiJhi StencilIhiKlo StencilIhiKhi
     StencilJhiKlo StencilJhiKhi StencilIloJlo StencilIloJhi
     StencilIloKlo StencilIloKhi StencilJloKlo StencilJloKhi
     StencilIloJloKlo StencilIloJloKhi StencilIloJhiKlo StencilIloJhiKhi
     StencilIhiJloKlo StencilIhiJloKhi StencilIhiJhiKlo StencilIhiJhiKhi].
    rewrite !in_boxb_and, !in_box_lo, !in_box_hi by assumption. rewrite Ht.
    unfold where_is.
    pose proof (lo_hi_excl g c 0 Hk H0) as E0. pose proof (lo_hi_excl g c 1 Hk H1) as E1.
    pose proof (lo_hi_excl g c 2 Hk H2) as E2.
    destruct (at_lo g c 0); [rewrite (E0 eq_refl)|destruct (at_hi g c 0)];
    (destruct (at_lo g c 1); [rewrite (E1 eq_refl)|destruct (at_hi g c 1)]);
    (destruct (at_lo g c 2); [rewrite (E2 eq_refl)|destruct (at_hi g c 2)]);
    cbn [andb the_stencil]; reflexivity.
Qed.

Lemma in_empty_dim b c d : (0 <= d <= 2)%Z -> (icomp (bhi b) d < icomp (blo b) d)%Z ->
  in_boxb b c = false.
Proof.
  intros Hd H. assert (d = 0 \/ d = 1 \/ d = 2)%Z as [-> | [-> | ->]] by lia;
  unfold in_boxb, icomp in *; cbn [Z.eqb Pos.eqb] in *; lia.
Qed.

(** A tile without the cell leaves it alone. *)
Lemma tile_miss op g t out c n : (forall d, (0 <= d <= 2)%Z -> (icomp (blo t) d <= icomp (bhi t) d)%Z) ->
  in_boxb t c = false -> apply_tile op g out t c n = out c n.
Proof.
  intros Hne Ht. unfold apply_tile.
  assert (H0 : (0 <= 0 <= 2)%Z) by lia. assert (H1 : (0 <= 1 <= 2)%Z) by lia.
  assert (H2 : (0 <= 2 <= 2)%Z) by lia.
  assert (Hl : forall d, (0 <= d <= 2)%Z -> in_boxb (box_lo g t d) c = false).
  { intros d Hd. destruct (in_boxb (box_lo g t d) c) eqn:E; [|reflexivity].
    rewrite (box_lo_sub g t c d Hd E (Hne d Hd)) in Ht. discriminate. }
  assert (Hh : forall d, (0 <= d <= 2)%Z -> in_boxb (box_hi g t d) c = false).
  { intros d Hd. destruct (in_boxb (box_hi g t d) c) eqn:E; [|reflexivity].
    rewrite (box_hi_sub g t c d Hd E (Hne d Hd)) in Ht. discriminate. }
  destruct (strictly_contains (gdom g) t).
  - unfold pass. cbn [sbox StencilInterior]. rewrite Ht. reflexivity.
  - unfold boundary_passes. cbn [fold_left]. unfold pass.
    cbn [sbox StencilInterior StencilILO StencilJLO StencilKLO StencilIHI StencilJHI StencilKHI
     StencilIhiJlo StencilIhiJhi StencilIhiKlo StencilIhiKhi
     StencilJhiKlo StencilJhiKhi StencilIloJlo StencilIloJhi
     StencilIloKlo StencilIloKhi StencilJloKlo StencilJloKhi
     StencilIloJloKlo StencilIloJloKhi StencilIloJhiKlo StencilIloJhiKhi
     StencilIhiJloKlo StencilIhiJloKhi StencilIhiJhiKlo StencilIhiJhiKhi].
    rewrite !in_boxb_and, !Hl, !Hh, Ht by assumption. reflexivity.
Qed.

Definition proper (t : box) : Prop :=
  forall d, (0 <= d <= 2)%Z -> (icomp (blo t) d <= icomp (bhi t) d)%Z.

Lemma in_proper t c : in_boxb t c = true -> proper t.
Proof.
  intros H d Hd. apply in_boxb_spec in H. unfold in_box in H.
  assert (d = 0 \/ d = 1 \/ d = 2)%Z as [-> | [-> | ->]] by lia;
  unfold icomp; cbn [Z.eqb Pos.eqb]; lia.
Qed.

Lemma apply_tiles op g c n : thick g -> forall tiles out,
  (forall t, In t tiles -> inside g t /\ proper t) ->
  apply op g tiles out c n =
  if existsb (fun t => in_boxb t c) tiles
  then op (the_stencil (where_is g c 0) (where_is g c 1) (where_is g c 2)) c n
  else out c n.
Proof.
  intros Hk tiles. unfold apply.
  induction tiles as [|t tl IH]; intros out Hin; [reflexivity|].
  cbn [fold_left existsb]. rewrite IH by (intros; apply Hin; right; assumption).
  destruct (Hin t (or_introl eq_refl)) as [Hi Hp].
  destruct (existsb _ tl); [rewrite orb_true_r; reflexivity|].
  rewrite orb_false_r. destruct (in_boxb t c) eqn:Et.
  - apply tile_hit; assumption.
  - apply tile_miss; assumption.
Qed.
