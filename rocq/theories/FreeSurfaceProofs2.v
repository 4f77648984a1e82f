(** Layers of water and air: what a cell contributes, and what the search returns (C84). *)
From Verif Require Import BoxR BoxRFacts Tagging TaggingProofs Plic PropPlicFlat FreeSurface FreeSurfaceSpec FreeSurfaceProofs.
Local Open Scope R_scope.

(** ** Fractions *)
Lemma part_bounds a b h : 0 <= part a b h <= 1.
Proof. unfold part. split; [apply Rmin_glb; [lra|apply Rmax_l]|apply Rmin_l]. Qed.
Lemma part_full a b h : a < b -> b <= h -> part a b h = 1.
Proof.
  intros H1 H2. unfold part. rewrite Rmin_left; [reflexivity|]. eapply Rle_trans; [|apply Rmax_r].
  apply (Rmult_le_reg_r (b - a)); [lra|]. unfold Rdiv. rewrite Rmult_assoc, Rinv_l by lra. lra.
Qed.
Lemma part_empty a b h : a < b -> h <= a -> part a b h = 0.
Proof.
  intros H1 H2. unfold part. rewrite Rmax_left; [rewrite Rmin_right; lra|].
  apply (Rmult_le_reg_r (b - a)); [lra|]. unfold Rdiv. rewrite Rmult_assoc, Rinv_l by lra. lra.
Qed.
Lemma part_inside a b h : a < b -> a <= h <= b -> part a b h = (h - a) / (b - a).
Proof.
  intros H1 H2. assert (0 <= (h - a) / (b - a) <= 1).
  { split; apply (Rmult_le_reg_r (b - a)); try lra; unfold Rdiv; rewrite Rmult_assoc, Rinv_l by lra; lra. }
  unfold part. rewrite Rmax_right, Rmin_right; lra.
Qed.
Lemma part_mono a b h h' : a < b -> h <= h' -> part a b h <= part a b h'.
Proof.
  intros H1 H2. unfold part. apply Rle_min_compat_l, Rle_max_compat_l.
  unfold Rdiv. apply Rmult_le_compat_r; [apply Rlt_le, Rinv_0_lt_compat; lra|lra].
Qed.
Lemma part_full_conv a b h : a < b -> part a b h = 1 -> b <= h.
Proof.
  intros H1 H2. destruct (Rle_lt_dec b h) as [|C]; [assumption|]. exfalso.
  destruct (Rle_lt_dec h a) as [D|D]; [rewrite part_empty in H2 by lra; lra|].
  rewrite part_inside in H2 by lra. apply (f_equal (fun x => x * (b - a))) in H2.
  unfold Rdiv in H2. rewrite Rmult_assoc, Rinv_l in H2 by lra. lra.
Qed.

Lemma spaced_below w h l : 0 <= w -> spaced w (h :: l) -> forall x, In x l -> x + w <= h.
Proof.
  intros W. revert h. induction l as [|y l IH]; intros h H x I; [contradiction|].
  destruct H as [H1 H2]. destruct I as [<-|I]; [exact H1|]. pose proof (IH y H2 x I). lra.
Qed.
Lemma spaced_tail w h l : spaced w (h :: l) -> spaced w l.
Proof. intros [_ H]. exact H. Qed.
Lemma spaced_app w P Q : spaced w (P ++ Q) -> spaced w Q.
Proof. induction P as [|p P IH]; [exact (fun H => H)|]. intros H. apply IH. exact (spaced_tail _ _ _ H). Qed.
Lemma spaced_above w P h Q : 0 <= w -> spaced w (P ++ h :: Q) -> forall x, In x P -> h + w <= x.
Proof.
  intros W. induction P as [|p P IH]; intros H x I; [contradiction|]. destruct I as [<-|I].
  - apply (spaced_below w p (P ++ h :: Q) W H). apply in_or_app. right. left. reflexivity.
  - apply IH; [exact (spaced_tail _ _ _ H)|exact I].
Qed.

Lemma water_above a b P Q : a < b -> (forall x, In x P -> b <= x) ->
  water a b (P ++ Q) = if Nat.even (length P) then water a b Q else 1 - water a b Q.
Proof.
  intros H. induction P as [|p P IH]; intros A; [reflexivity|]. cbn [app water length].
  rewrite part_full by (try exact H; apply A; left; reflexivity). rewrite IH by (intros x I; apply A; right; exact I).
  rewrite Nat.even_succ, <- Nat.negb_even. destruct (Nat.even (length P)); cbn [negb]; ring.
Qed.
Lemma water_below a b Q : a < b -> (forall x, In x Q -> x <= a) -> water a b Q = 0.
Proof.
  intros H. induction Q as [|q Q IH]; intros A; [reflexivity|]. cbn [water].
  rewrite part_empty by (try exact H; apply A; left; reflexivity). rewrite IH by (intros x I; apply A; right; exact I). ring.
Qed.
Lemma water_bounds a b w l : a < b -> 0 <= w -> spaced w l -> 0 <= water a b l <= part a b (hd a l).
Proof.
  intros H W. induction l as [|h l IH]; intros D; [cbn; rewrite part_empty; lra|]. cbn [water hd].
  destruct (IH (spaced_tail _ _ _ D)) as [A B]. pose proof (part_bounds a b h).
  destruct l as [|h' l]; [cbn [water]; lra|]. cbn [hd] in B.
  pose proof (spaced_below w h _ W D h' ltac:(left; reflexivity)). pose proof (part_mono a b h' h H ltac:(lra)). lra.
Qed.
Lemma water_interior a b w l : a < b -> 0 <= w -> spaced w l -> 0 < water a b l < 1 -> exists h, In h l /\ a < h < b.
Proof.
  intros H W. induction l as [|h l IH]; intros D V; [cbn in V; lra|]. cbn [water] in V.
  destruct (Rle_lt_dec b h) as [C|C].
  - rewrite part_full in V by lra. destruct (IH (spaced_tail _ _ _ D) ltac:(lra)) as (x & I & X). exists x. split; [right; exact I|exact X].
  - destruct (Rle_lt_dec h a) as [E|E]; [|exists h; split; [left; reflexivity|lra]]. exfalso.
    rewrite part_empty, (water_below a b l) in V; try lra. intros x I. pose proof (spaced_below w h l W D x I). lra.
Qed.

(** ** Heights in a cell *)
Lemma dir_cases d : (0 <= d <= 2)%Z -> d = 0%Z \/ d = 1%Z \/ d = 2%Z. Proof. lia. Qed.
Lemma sized_at L d : sized L -> (0 <= d <= 2)%Z -> 0 < fl_dx L d.
Proof. intros (A & B & C) H. destruct (dir_cases d H) as [->|[->| ->]]; assumption. Qed.
Lemma limited_inside L c d h : 0 < fl_dx L d -> cell_lo L c d <= h <= cell_hi L c d -> limited L c d h = h.
Proof.
  intros D [A B]. unfold limited. rewrite xm_lo, xm_hi.
  assert (E : Rltb h (cell_lo L c d) = false) by (apply Rltb_false; lra). rewrite E.
  assert (F : Rltb (xm L c d + 0.5 * fl_dx L d * (1 + eps32)) h = false).
  { apply Rltb_false. rewrite <- (xm_hi L c d) in B. unfold eps32. lra. }
  rewrite F. reflexivity.
Qed.
(** A plane normal to the direction of the search *)
Definition along (d : Z) (s : R) : v3 :=
  W3 (if (d =? 0)%Z then s else 0) (if (d =? 1)%Z then s else 0) (if (d =? 2)%Z then s else 0).
Lemma plane_along S L c s al l0 l1 : sized L -> (0 <= fs_dir S <= 2)%Z -> s = 1 \/ s = -1 ->
  plane_height S L c (along (fs_dir S) s) al l0 l1 = cell_lo L c (fs_dir S) + s * al * fl_dx L (fs_dir S).
Proof.
  intros V H O. pose proof (sized_at L _ V H) as P. unfold plane_height. cbv zeta.
  destruct (dir_cases _ H) as [E|[E|E]]; rewrite E in *; cbn [along w0 w1 w2 Z.eqb Pos.eqb];
    (destruct (Req_EM_T s 0) as [Q|Q]; [lra|]); rewrite (xm_lo L c), !Rmult_0_l, !Rminus_0_r; destruct O as [-> | ->]; field; lra.
Qed.
Lemma found_below S ni L c l0 l1 : sized L -> (0 <= fs_dir S <= 2)%Z -> phase_below ni (fl_vof L c) = true ->
  found S ni L c l0 l1 = Some (cell_hi L c (fs_dir S)).
Proof.
  intros V H B. pose proof (sized_at L _ V H) as P. unfold found. rewrite B. f_equal.
  assert (E : plane_height S L c (if Nat.even ni then W3 (if (fs_dir S =? 0)%Z then 1 else 0) (if (fs_dir S =? 1)%Z then 1 else 0) (if (fs_dir S =? 2)%Z then 1 else 0)
     else W3 (- (if (fs_dir S =? 0)%Z then 1 else 0)) (- (if (fs_dir S =? 1)%Z then 1 else 0)) (- (if (fs_dir S =? 2)%Z then 1 else 0)))
     (if Nat.even ni then 1 else -1) l0 l1 = cell_hi L c (fs_dir S)).
  { destruct (Nat.even ni).
    - change (W3 _ _ _) with (along (fs_dir S) 1). rewrite plane_along by auto. rewrite cell_lo_hi. ring.
    - replace (W3 _ _ _) with (along (fs_dir S) (-1)).
      + rewrite plane_along by auto. rewrite cell_lo_hi. ring.
      + unfold along. f_equal; destruct (_ =? _)%Z; lra. }
  rewrite E. apply limited_inside; [exact P|]. rewrite cell_lo_hi. lra.
Qed.
Lemma fit_layers f c d v s : (0 <= d <= 2)%Z -> 0 <= v <= 1 ->
  (s = 1 /\ layered f c d 1 v 0 -> fit_plane f (iv0 c) (iv1 c) (iv2 c) = (along d 1, v)) /\
  (s = 1 /\ layered f c d 0 v 1 -> fit_plane f (iv0 c) (iv1 c) (iv2 c) = (along d (-1), v - 1)).
Proof.
  intros H V. destruct c as [i j k]. cbn [iv0 iv1 iv2].
  destruct (c30_flat_interface f i j k v V) as (A0 & B0 & A1 & B1 & A2 & B2).
  destruct (dir_cases _ H) as [->|[->| ->]]; split; intros [_ La]; auto.
Qed.
Lemma icomp_off c p q r d : icomp (IV (iv0 c + p) (iv1 c + q) (iv2 c + r)) d = (icomp c d + icomp (IV p q r) d)%Z.
Proof. unfold icomp. cbn [iv0 iv1 iv2]. repeat (destruct (_ =? _)%Z; try reflexivity). Qed.

(** An interface strictly inside a cell, alone in the cell and its neighbours. *)
Lemma found_inside S ni L c l0 l1 hs h : sized L -> (0 <= fs_dir S <= 2)%Z ->
  (forall c', fl_vof L c' = water (cell_lo L c' (fs_dir S)) (cell_hi L c' (fs_dir S)) hs) ->
  spaced (2 * fl_dx L (fs_dir S)) hs -> In h hs -> cell_lo L c (fs_dir S) < h < cell_hi L c (fs_dir S) ->
  tol < fl_vof L c < 1 - tol -> linear_here S L c = false -> found S ni L c l0 l1 = Some h.
Proof.
  intros V H W D I B T Lin. pose proof (sized_at L _ V H) as P. set (d := fs_dir S) in *. set (dx := fl_dx L d) in *.
  apply in_split in I. destruct I as (hp & hq & ->).
  assert (Ab := spaced_above (2 * dx) hp h hq ltac:(lra) D). assert (Be := spaced_below (2 * dx) h hq ltac:(lra) (spaced_app _ _ _ D)).
  set (th := (h - cell_lo L c d) / dx).
  assert (CH : cell_hi L c d = cell_lo L c d + dx) by apply cell_lo_hi.
  assert (Th : 0 <= th <= 1) by (unfold th; split; apply (Rmult_le_reg_r dx); try lra; unfold Rdiv; rewrite Rmult_assoc, Rinv_l by lra; lra).
  assert (Lay : forall p q r, (-1 <= p <= 1)%Z -> (-1 <= q <= 1)%Z -> (-1 <= r <= 1)%Z ->
     fl_vof L (IV (iv0 c + p) (iv1 c + q) (iv2 c + r)) =
       let e := if (icomp (IV p q r) d <? 0)%Z then 1 else if (icomp (IV p q r) d =? 0)%Z then th else 0 in
       if Nat.even (length hp) then e else 1 - e).
  { intros p q r Hp Hq Hr. cbv zeta. rewrite W.
    assert (Off : (-1 <= icomp (IV p q r) d <= 1)%Z) by (unfold icomp; cbn [iv0 iv1 iv2]; repeat destruct (_ =? _)%Z; lia).
    set (s := icomp (IV p q r) d) in *.
    assert (Lo : cell_lo L (IV (iv0 c + p) (iv1 c + q) (iv2 c + r)) d = cell_lo L c d + IZR s * dx).
    { unfold cell_lo. rewrite icomp_off. fold s. rewrite plus_IZR. fold dx. ring. }
    rewrite cell_lo_hi, Lo. fold dx. clearbody s.
    assert (O3 : s = (-1)%Z \/ s = 0%Z \/ s = 1%Z) by lia. set (a := cell_lo L c d) in *.
    assert (Wt : forall s', -1 <= s' <= 1 -> water (a + s' * dx) (a + s' * dx + dx) (hp ++ h :: hq) =
       if Nat.even (length hp) then part (a + s' * dx) (a + s' * dx + dx) h else 1 - part (a + s' * dx) (a + s' * dx + dx) h).
    { intros s' Hs. rewrite water_above; [|lra|].
      - cbn [water]. rewrite water_below; [|lra|].
        + rewrite Rminus_0_r. reflexivity.
        + intros x Ix. pose proof (Be x Ix). nra.
      - intros x Ix. pose proof (Ab x Ix). nra. }
    destruct O3 as [->|[->| ->]]; rewrite Wt by lra; cbn [Z.ltb Z.eqb Z.compare].
    - rewrite part_full by lra. reflexivity.
    - rewrite part_inside by lra. replace (a + 0 * dx) with a by ring. replace (a + dx - a) with dx by ring. reflexivity.
    - rewrite part_empty by lra. reflexivity. }
  assert (Vc : fl_vof L c = if Nat.even (length hp) then th else 1 - th).
  { pose proof (Lay 0%Z 0%Z 0%Z ltac:(lia) ltac:(lia) ltac:(lia)) as Q. rewrite !Z.add_0_r in Q.
    replace (icomp (IV 0 0 0) d) with 0%Z in Q by (unfold icomp; cbn [iv0 iv1 iv2]; repeat destruct (_ =? _)%Z; reflexivity).
    destruct c as [i j k]. exact Q. }
  assert (NB : phase_below ni (fl_vof L c) = false).
  { unfold phase_below. destruct (Nat.even ni); apply Rleb_false; lra. }
  assert (MX : mixed (fl_vof L c) = true).
  { unfold mixed. apply andb_true_intro. split; apply Rltb_spec; lra. }
  unfold found. fold d. rewrite NB, MX, Lin.
  assert (Hh : cell_lo L c d + th * dx = h) by (unfold th; field; lra).
  destruct (Nat.even (length hp)).
  - rewrite (proj1 (fit_layers (fl_vof L) c d th 1 H Th)).
    + f_equal. unfold d. rewrite plane_along by auto. fold d dx. replace (1 * th * dx) with (th * dx) by ring. rewrite Hh.
      apply limited_inside; [exact P|lra].
    + split; [reflexivity|]. exact Lay.
  - rewrite (proj2 (fit_layers (fl_vof L) c d (1 - th) 1 H ltac:(lra))).
    + f_equal. unfold d. rewrite plane_along by auto. fold d dx. replace (-1 * (1 - th - 1) * dx) with (th * dx) by ring. rewrite Hh.
      apply limited_inside; [exact P|lra].
    + split; [reflexivity|]. intros p q r Hp Hq Hr. rewrite (Lay p q r Hp Hq Hr). cbv zeta.
      destruct (_ <? _)%Z; [ring|]. destruct (_ =? _)%Z; [reflexivity|ring].
Qed.

(** ** The search through layers *)
Lemma step S nc plo phi ranks hs n0 n1 ni last : stacked S nc plo phi ranks hs -> covered S plo phi ranks n0 n1 ->
  on_plane S n0 n1 -> last (number S n0 n1) = match ni with O => phi + 1 | Datatypes.S k => nth k hs plo end ->
  reduced S nc plo ni last ranks (number S n0 n1) = nth ni hs plo.
Proof.
  intros [Hin Hc] Cov On HL. pose proof (reduced_top S nc plo ni last ranks (number S n0 n1)) as T. rewrite HL in T.
  eapply top_of_unique; [intros h; reflexivity|exact T|]. clear T.
  set (la := match ni with O => phi + 1 | Datatypes.S k => nth k hs plo end) in *.
  destruct (le_lt_dec ni (length hs)) as [Q|Q].
  2:{ (* already at the bottom *)
    rewrite nth_overflow by lia. split; [lra|]. split; [|left; reflexivity].
    intros h (L & c & l0 & l1 & Pr & _ & Hi & _). exfalso. destruct (Hc L c Pr) as (Sz & Fo & _ & _ & Lo & _).
    pose proof (sized_at L _ Sz (proj1 Fo)). rewrite cell_lo_hi in Hi.
    assert (la = plo) by (unfold la; destruct ni as [|k]; [lia|apply nth_overflow; lia]). lra. }
  set (pre := firstn ni hs). set (rest := skipn ni hs).
  assert (E : hs = pre ++ rest) by (symmetry; apply firstn_skipn).
  assert (Lp : length pre = ni) by (apply firstn_length_le; exact Q).
  assert (Tn : nth ni hs plo = hd plo rest).
  { rewrite E at 1. rewrite app_nth2 by lia. rewrite Lp, Nat.sub_diag. destruct rest; reflexivity. }
  rewrite Tn. clear Tn.
  assert (PreHi : forall L c, present ranks L c -> cell_hi L c (fs_dir S) < la -> forall x, In x pre -> cell_hi L c (fs_dir S) <= x).
  { intros L c Pr Hi x Ix. destruct (Hc L c Pr) as (Sz & Fo & _ & _ & _ & _ & _ & Sp & _).
    pose proof (sized_at L _ Sz (proj1 Fo)) as P. destruct ni as [|k]; [contradiction|]. unfold la in Hi.
    assert (Lk : (k < length pre)%nat) by lia.
    assert (Nk : nth k hs plo = nth k pre plo) by (rewrite E at 1; apply app_nth1; exact Lk).
    rewrite Nk in Hi. rewrite E in Sp. clear - Hi Sp P Ix Lk Lp. set (dx := fl_dx L (fs_dir S)) in *.
    destruct (nth_split pre plo Lk) as (u & v & Eu & Lu). 
    assert (v = []). { rewrite Eu, app_length in Lp. cbn [length] in Lp. destruct v; [reflexivity|cbn [length] in Lp; lia]. } subst v.
    rewrite Eu in Sp, Ix. rewrite <- app_assoc in Sp. cbn [app] in Sp.
    apply in_app_or in Ix. destruct Ix as [Ix|[<-|[]]]; [|lra].
    pose proof (spaced_above (2 * dx) u _ rest ltac:(lra) Sp x Ix). lra. }
  assert (InR : forall x, In x rest -> In x hs) by (intros x I; rewrite E; apply in_or_app; right; exact I).
  assert (Cell : forall L c l0 l1, present ranks L c -> cell_hi L c (fs_dir S) < la ->
     (forall h, found S ni L c l0 l1 = Some h -> h <= hd plo rest) /\
     (rest <> [] -> cell_lo L c (fs_dir S) < hd plo rest <= cell_hi L c (fs_dir S) -> found S ni L c l0 l1 = Some (hd plo rest))).
  { intros L c l0 l1 Pr Hi. pose proof (PreHi L c Pr Hi) as Pre. destruct (Hc L c Pr) as (Sz & Fo & Lin & _ & Lo & _ & Res & Sp & Wa).
    pose proof (proj1 Fo) as Di. pose proof (sized_at L _ Sz Di) as P. set (d := fs_dir S) in *. set (dx := fl_dx L d) in *.
    pose proof (cell_lo_hi L c d) as CH. fold dx in CH. set (a := cell_lo L c d) in *. set (b := cell_hi L c d) in *.
    assert (AB : a < b) by lra.
    assert (SpR : spaced (2 * dx) rest) by (rewrite E in Sp; exact (spaced_app _ _ _ Sp)).
    pose proof (water_bounds a b (2 * dx) rest AB ltac:(lra) SpR) as WB.
    assert (Vw : fl_vof L c = if Nat.even ni then water a b rest else 1 - water a b rest).
    { rewrite Wa. fold a b. rewrite E. rewrite water_above by (try exact AB; exact Pre). rewrite Lp. reflexivity. }
    pose proof eps64_pos as EP. assert (TP : 0 < tol < / 4) by (unfold tol, eps64; lra).
    set (w := water a b rest) in *.
    assert (Pb : phase_below ni (fl_vof L c) = Rleb (1 - tol) w).
    { unfold phase_below. rewrite Vw. destruct (Nat.even ni); [reflexivity|]. apply Bool.eq_true_iff_eq. rewrite !Rleb_spec. lra. }
    assert (Mx : mixed (fl_vof L c) = (Rltb w (1 - tol) && Rltb tol w)%bool).
    { unfold mixed. rewrite Vw. destruct (Nat.even ni); [reflexivity|]. apply Bool.eq_true_iff_eq. rewrite !andb_true_iff, !Rltb_spec. lra. }
    assert (Rw : w = 0 \/ w = 1 \/ tol < w < 1 - tol) by (rewrite Vw in Res; destruct (Nat.even ni); lra).
    assert (Hrest : forall x, In x rest -> x <= hd plo rest).
    { intros x I. destruct rest as [|t r]; [contradiction|]. cbn [hd]. destruct I as [<-|I]; [lra|].
      pose proof (spaced_below (2 * dx) t r ltac:(lra) SpR x I). lra. }
    split.
    - intros h Fd. destruct Rw as [Rw|[Rw|Rw]].
      + exfalso. unfold found in Fd. rewrite Pb, Mx, Lin in Fd. fold d in Fd.
        assert (Rleb (1 - tol) w = false) as X1 by (apply Rleb_false; lra). assert (Rltb tol w = false) as X2 by (apply Rltb_false; lra).
        rewrite X1, X2, andb_false_r in Fd. discriminate.
      + rewrite found_below in Fd; [|exact Sz|exact Di|rewrite Pb; apply Rleb_spec; lra]. injection Fd as <-. fold d b.
        destruct rest as [|t r]; [cbn in Rw; unfold w in Rw; cbn in Rw; lra|]. cbn [hd] in *.
        apply (part_full_conv a); [exact AB|]. pose proof (part_bounds a b t). lra.
      + destruct (water_interior a b (2 * dx) rest AB ltac:(lra) SpR) as (x & Ix & Hx); [fold w; lra|].
        assert (Fx : found S ni L c l0 l1 = Some x).
        { apply (found_inside S ni L c l0 l1 hs x); auto. rewrite Vw. destruct (Nat.even ni); lra. }
        rewrite Fx in Fd. injection Fd as <-. apply Hrest, Ix.
    - intros NE Ht. destruct rest as [|t r] eqn:Er; [contradiction|]. cbn [hd] in *.
      assert (Wr : water a b r = 0).
      { apply water_below; [exact AB|]. intros x I. pose proof (spaced_below (2 * dx) t r ltac:(lra) SpR x I). lra. }
      assert (We : w = part a b t) by (unfold w; cbn [water]; rewrite Wr; ring).
      destruct (Rle_lt_dec b t) as [C|C].
      + rewrite found_below; [f_equal; fold d b; lra|exact Sz|exact Di|]. rewrite Pb. apply Rleb_spec. rewrite We, part_full by lra. lra.
      + assert (Wi : 0 < w < 1).
        { rewrite We, part_inside by lra. split; apply (Rmult_lt_reg_r (b - a)); try lra; unfold Rdiv; rewrite Rmult_assoc, Rinv_l by lra; lra. }
        apply (found_inside S ni L c l0 l1 hs t); auto; [apply InR; left; reflexivity|split; [apply Ht|exact C]|].
        rewrite Vw. destruct (Nat.even ni); lra. }
  split.
  - destruct rest as [|t r] eqn:Er; cbn [hd]; [lra|]. destruct (Hin t (InR t (or_introl eq_refl))). lra.
  - split.
    + intros h (L & c & l0 & l1 & Pr & _ & Hi & Fd). exact (proj1 (Cell L c l0 l1 Pr Hi) h Fd).
    + destruct rest as [|t r] eqn:Er; cbn [hd] in *; [left; reflexivity|]. right.
      destruct (Cov t (Hin t (InR t (or_introl eq_refl)))) as (L & c & Pr & Op & Pa & Ht).
      destruct (Hc L c Pr) as (Sz & Fo & _ & Po & _ & Hp & _ & Sp & _). pose proof (sized_at L _ Sz (proj1 Fo)) as P.
      assert (Hi : cell_hi L c (fs_dir S) < la).
      { unfold la. destruct ni as [|k]; [lra|]. rewrite cell_lo_hi in *.
        assert (In (nth k hs plo) pre).
        { rewrite E at 1. rewrite app_nth1 by lia. apply nth_In. lia. }
        rewrite E in Sp. pose proof (spaced_above (2 * fl_dx L (fs_dir S)) pre t r ltac:(lra) Sp _ H). lra. }
      exists L, c, (grid0 S n0), (grid1 S n1). split; [exact Pr|]. split.
      * apply listed_all; assumption.
      * split; [exact Hi|]. apply (proj2 (Cell L c _ _ Pr Hi)); [discriminate|exact Ht].
Qed.
