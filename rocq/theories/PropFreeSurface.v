(** C84: samples on the air-water interface. *)
From Verif Require Import BoxR BoxRFacts Tagging TaggingProofs Plic PropPlicFlat FreeSurface FreeSurfaceSpec FreeSurfaceProofs FreeSurfaceProofs2.
Local Open Scope R_scope.

(** ** Inputs *)
Lemma keep_in_spec lo hi x : lo + 20 * bounds_tol <= hi ->
  lo + bounds_tol <= keep_in lo hi x <= hi - bounds_tol /\ (lo + bounds_tol <= x <= hi - bounds_tol -> keep_in lo hi x = x).
Proof.
  intros H. assert (B : 0 < bounds_tol) by (unfold bounds_tol, eps64; lra). unfold keep_in. cbv zeta.
  destruct (Rltb x (lo + bounds_tol)) eqn:A; (apply Rltb_spec in A || apply Rltb_false in A).
  - destruct (Rltb (hi - bounds_tol) (lo + 10 * bounds_tol)) eqn:C; (apply Rltb_spec in C || apply Rltb_false in C); split; try lra.
  - destruct (Rltb (hi - bounds_tol) x) eqn:C; (apply Rltb_spec in C || apply Rltb_false in C); split; try lra.
Qed.

(** A sampler that is accepted lies inside the domain; one given inside the domain is kept as given; a
    direction other than the three axes is refused. *)
Theorem c84_input : forall lo hi dir s e n0 n1 ni nc lin ov, (forall d, lo d + 20 * bounds_tol <= hi d) ->
  (forall S, fs_init lo hi dir s e n0 n1 ni nc lin ov = Ret S ->
     (0 <= fs_dir S <= 2)%Z /\ (forall d, lo d + bounds_tol <= fs_start S d <= hi d - bounds_tol) /\
     (forall d, lo d + bounds_tol <= fs_end S d <= hi d - bounds_tol) /\
     (fs_dir S, fs_n0 S, fs_n1 S, fs_ninst S, fs_ncmax S, fs_linear S, fs_overset S) = (dir, n0, n1, ni, nc, lin, ov) /\
     (forall d, lo d + bounds_tol <= s d <= hi d - bounds_tol -> fs_start S d = s d) /\
     (forall d, lo d + bounds_tol <= e d <= hi d - bounds_tol -> fs_end S d = e d)) /\
  ((dir < 0 \/ 2 < dir)%Z <-> fs_init lo hi dir s e n0 n1 ni nc lin ov = Abort).
Proof.
  intros lo hi dir s e n0 n1 ni nc lin ov H. unfold fs_init. cbv zeta.
  destruct (Z.leb_spec 0 dir) as [A|A]; cbn [andb negb]; [destruct (Z.leb_spec dir 2) as [B|B]; cbn [andb negb]|].
  - split.
    + intros S E. destruct (_ || _)%bool in E; [discriminate|]. injection E as <-. cbn [fs_dir fs_start fs_end fs_n0 fs_n1 fs_ninst fs_ncmax fs_linear fs_overset].
      split; [lia|]. split; [intros d; apply keep_in_spec, H|]. split; [intros d; apply keep_in_spec, H|]. split; [reflexivity|].
      split; intros d Q; apply keep_in_spec; auto.
    + destruct (_ || _)%bool; split; intros; try discriminate; lia.
  - split; [discriminate|]. split; [reflexivity|lia].
  - split; [discriminate|]. split; [reflexivity|lia].
Qed.

(** ** Samples and cells *)

(** A cell that is not covered lists exactly the samples whose line passes through it, each with its own
    number and place, as long as it has room for them. *)
Theorem c84_points : forall S nc L c idx l0 l1, forward S L -> sized L -> (possible S L c <= nc)%Z ->
  (In (idx, l0, l1) (cell_points S nc L c) <->
   fl_open L c = true /\ exists n0 n1, on_plane S n0 n1 /\ passes S L c n0 n1 /\ idx = number S n0 n1 /\ l0 = grid0 S n0 /\ l1 = grid1 S n1).
Proof.
  intros S nc L c idx l0 l1 F V C. split.
  - intros I. destruct (listed_in _ _ _ _ _ I) as [O H]. split; [exact O|].
    pose proof (passes_span S L c) as P. destruct (span0 S L c) as [f0 a0], (span1 S L c) as [f1 a1].
    destruct H as (n0 & n1 & E & H). exists n0, n1. injection E as -> -> ->. apply (P n0 n1 F V) in H. tauto.
  - intros (O & n0 & n1 & On & Pa & -> & -> & ->). apply listed_all; assumption.
Qed.
(** Different points of the plane have different numbers, from zero to the number of points less one. *)
Theorem c84_number : forall S n0 n1 m0 m1, on_plane S n0 n1 -> on_plane S m0 m1 ->
  (0 <= number S n0 n1 < npts S)%Z /\ (number S n0 n1 = number S m0 m1 -> n0 = m0 /\ n1 = m1).
Proof. intros S n0 n1 m0 m1 [A B] [C D]. unfold number, npts. split; [nia|]. intros E. assert (n1 = m1) by nia. subst. lia. Qed.

Lemma fold_max_ge {A} (f : A -> Z) l : forall m, (m <= fold_left (fun m c => Z.max m (f c)) l m)%Z /\
  forall x, In x l -> (f x <= fold_left (fun m c => Z.max m (f c)) l m)%Z.
Proof.
  induction l as [|y l IH]; intros m; cbn [fold_left]; [split; [lia|contradiction]|].
  destruct (IH (Z.max m (f y))) as [Q1 Q2]. split; [lia|]. intros x [<-|I]; [lia|apply Q2, I].
Qed.
(** On the mesh the sampler was made with, every cell with at most the allowed number of points has room. *)
Theorem c84_capacity : forall S mesh L cs c, In (L, cs) mesh -> In c cs -> fl_open L c = true ->
  (possible S L c <= fs_ncmax S)%Z -> (possible S L c <= ncomp S mesh)%Z.
Proof.
  intros S mesh L cs c I Ic O H. unfold ncomp. apply Z.min_glb; [|exact H].
  set (f := fun (l : flevel * list ivec) c => if fl_open (fst l) c then possible S (fst l) c else 0%Z).
  change (possible S L c <= fold_left (fun m l => fold_left (fun m c => Z.max m (f l c)) (snd l) m) mesh 0)%Z.
  assert (G : forall mesh m, (m <= fold_left (fun m l => fold_left (fun m c => Z.max m (f l c)) (snd l) m) mesh m)%Z).
  { induction mesh0 as [|l ms IH]; intros m; cbn [fold_left]; [lia|]. eapply Z.le_trans; [|apply IH]. apply fold_max_ge. }
  generalize 0%Z. induction mesh as [|l ms IH]; intros m; [contradiction|]. cbn [fold_left]. destruct I as [-> |I]; [|apply IH, I].
  eapply Z.le_trans; [|apply G]. cbn [snd]. pose proof (proj2 (fold_max_ge (f (L, cs)) cs m) c Ic) as Q. unfold f in Q at 1. cbn [fst] in Q. rewrite O in Q. exact Q.
Qed.

(** ** The search *)

(** The height of a point is the greatest that a cell offers, or the bottom of the domain. *)
Theorem c84_search : forall S nc plo ni last ranks idx,
  top_of (candidate S nc ni (last idx) ranks idx) plo (reduced S nc plo ni last ranks idx).
Proof. exact reduced_top. Qed.
(** It does not depend on how the cells are shared out, on their order, or on cells seen twice. *)
Theorem c84_order : forall S nc plo phi ranks ranks', (forall L c, present ranks L c <-> present ranks' L c) ->
  forall k, (k < fs_ninst S)%nat -> forall idx,
  nth k (heights S nc plo phi ranks) (fun _ => 0) idx = nth k (heights S nc plo phi ranks') (fun _ => 0) idx.
Proof.
  intros S nc plo phi r r' H. unfold heights.
  assert (R : forall ni la la', (forall i, la i = la' i) -> forall idx, reduced S nc plo ni la r idx = reduced S nc plo ni la' r' idx).
  { intros ni la la' E idx. eapply top_of_unique; [|apply reduced_top|apply reduced_top]. intros h. unfold candidate. rewrite <- E.
    split; intros (L & c & l0 & l1 & P & Q); exists L, c, l0, l1; (split; [apply H, P|exact Q]). }
  assert (G : forall n ni la la', (forall i, la i = la' i) -> forall k, (k < n)%nat -> forall idx,
     nth k (instances S nc plo r n ni la) (fun _ => 0) idx = nth k (instances S nc plo r' n ni la') (fun _ => 0) idx).
  { induction n as [|n IH]; intros ni la la' E k K idx; [lia|]. cbn [instances]. destruct k as [|k]; cbn [nth].
    - apply R, E.
    - apply IH; [apply R, E|lia]. }
  intros k K idx. apply G; [reflexivity|exact K].
Qed.
(** Instances go down: each is at or below the one before, or at the bottom. *)
Lemma limited_le S L c ht : sized L -> (0 <= fs_dir S <= 2)%Z -> fl_lo L (fs_dir S) <= cell_hi L c (fs_dir S) ->
  limited L c (fs_dir S) ht <= cell_hi L c (fs_dir S) + 0.5 * fl_dx L (fs_dir S) * eps32.
Proof.
  intros V H B. pose proof (sized_at L _ V H) as P. unfold limited. rewrite xm_lo, xm_hi. pose proof (xm_hi L c (fs_dir S)) as X.
  assert (E : 0 < eps32) by (unfold eps32; lra). assert (0 < 0.5 * fl_dx L (fs_dir S) * eps32) by (apply Rmult_lt_0_compat; lra).
  destruct (Rltb (xm L c (fs_dir S) + _) _) eqn:A; (apply Rltb_spec in A || apply Rltb_false in A); lra.
Qed.
Theorem c84_descends : forall S nc plo ni last ranks idx,
  (forall L c, present ranks L c -> sized L /\ (0 <= fs_dir S <= 2)%Z /\ fl_lo L (fs_dir S) = plo /\ plo <= cell_lo L c (fs_dir S)) ->
  let h := reduced S nc plo ni last ranks idx in
  plo <= h /\ (h = plo \/ exists L c, present ranks L c /\ cell_hi L c (fs_dir S) < last idx /\
     h <= cell_hi L c (fs_dir S) + 0.5 * fl_dx L (fs_dir S) * eps32).
Proof.
  intros S nc plo ni last ranks idx H h. destruct (reduced_top S nc plo ni last ranks idx) as (A & _ & B). fold h in A, B. split; [exact A|].
  destruct B as [B|(L & c & l0 & l1 & P & _ & Hi & Fd)]; [left; exact B|right]. exists L, c. split; [exact P|]. split; [exact Hi|].
  destruct (H L c P) as (V & D & Lo & Lc). pose proof (sized_at L _ V D) as Dx.
  assert (Q : fl_lo L (fs_dir S) <= cell_hi L c (fs_dir S)) by (rewrite cell_lo_hi; lra).
  unfold found in Fd. cbv zeta in Fd.
  repeat match type of Fd with
  | (if ?b then _ else _) = _ => destruct b
  | (let '(_, _) := ?p in _) = _ => destruct p
  end; try discriminate; injection Fd as <-; apply limited_le; assumption.
Qed.

(** ** What is reported *)

(** Layers of water and air at least two cells thick: the instances are the interfaces from the top down,
    then the bottom of the domain. *)
Theorem c84_layers : forall S nc plo phi ranks hs n0 n1,
  stacked S nc plo phi ranks hs -> covered S plo phi ranks n0 n1 -> on_plane S n0 n1 ->
  map (fun h => h (number S n0 n1)) (heights S nc plo phi ranks) = map (fun i => nth i hs plo) (seq 0 (fs_ninst S)).
Proof.
  intros S nc plo phi ranks hs n0 n1 St Co On. unfold heights. set (idx := number S n0 n1).
  assert (G : forall k ni la, la idx = match ni with O => phi + 1 | Datatypes.S j => nth j hs plo end ->
     map (fun h => h idx) (instances S nc plo ranks k ni la) = map (fun i => nth i hs plo) (seq ni k)).
  { induction k as [|k IH]; intros ni la E; [reflexivity|]. cbn [instances map seq].
    assert (R := step S nc plo phi ranks hs n0 n1 ni la St Co On E). f_equal; [exact R|]. apply IH. exact R. }
  apply G. reflexivity.
Qed.

(** In a cell with a reconstructed plane that is not parallel to the line, the height solves the equation of
    the plane; below the cell it counts as the bottom of the domain, above it as the top of the cell. *)
Theorem c84_plane : forall S L c m al l0 l1, sized L -> (0 <= fs_dir S <= 2)%Z ->
  (if (fs_dir S =? 0)%Z then w0 m else if (fs_dir S =? 1)%Z then w1 m else w2 m) <> 0 ->
  let h := plane_height S L c m al l0 l1 in
  plane_at S L c m l0 l1 h = al /\
  (h < cell_lo L c (fs_dir S) -> fl_lo L (fs_dir S) <= cell_lo L c (fs_dir S) -> limited L c (fs_dir S) h = fl_lo L (fs_dir S)) /\
  (cell_lo L c (fs_dir S) <= h <= cell_hi L c (fs_dir S) -> limited L c (fs_dir S) h = h) /\
  (cell_hi L c (fs_dir S) + 0.5 * fl_dx L (fs_dir S) * eps32 < h -> limited L c (fs_dir S) h = cell_hi L c (fs_dir S)).
Proof.
  intros S L c m al l0 l1 V H M h. pose proof (sized_at L _ V H) as P. destruct V as (D0 & D1 & D2).
  assert (E32 : 0 < eps32) by (unfold eps32; lra). pose proof (Rmult_lt_0_compat _ _ P E32) as PE.
  split; [|split; [|split]].
  - unfold h, plane_height, plane_at. cbv zeta.
    destruct (dir_cases _ H) as [E|[E|E]]; rewrite E in *; cbn [Z.eqb Pos.eqb] in *; cbn [gc0 gc1 Z.eqb Pos.eqb];
      unfold gc0, gc1; cbn [Z.eqb Pos.eqb];
      (destruct (Req_EM_T _ 0) as [Q|Q]; [contradiction|]); rewrite !xm_lo; field; repeat split; lra || auto.
  - intros A B. unfold limited. rewrite xm_lo, xm_hi. assert (Q : Rltb h (cell_lo L c (fs_dir S)) = true) by (apply Rltb_spec; exact A).
    rewrite Q. pose proof (xm_hi L c (fs_dir S)) as X. rewrite cell_lo_hi in X.
    assert (W : Rltb (xm L c (fs_dir S) + 0.5 * fl_dx L (fs_dir S) * (1 + eps32)) (fl_lo L (fs_dir S)) = false) by (apply Rltb_false; lra).
    rewrite W. reflexivity.
  - intros A. apply limited_inside; assumption.
  - intros A. unfold limited. rewrite xm_lo, xm_hi. pose proof (xm_hi L c (fs_dir S)) as X. pose proof (cell_lo_hi L c (fs_dir S)) as Y.
    assert (Q : Rltb h (cell_lo L c (fs_dir S)) = false) by (apply Rltb_false; lra). rewrite Q.
    assert (W : Rltb (xm L c (fs_dir S) + 0.5 * fl_dx L (fs_dir S) * (1 + eps32)) h = true) by (apply Rltb_spec; lra).
    rewrite W. reflexivity.
Qed.

Lemma icomp_shift c d s e : (0 <= d <= 2)%Z -> (0 <= e <= 2)%Z -> icomp (shift c d s) e = (icomp c e + if (d =? e)%Z then s else 0)%Z.
Proof.
  intros D E. destruct (dir_cases d D) as [->|[->| ->]]; destruct (dir_cases e E) as [->|[->| ->]];
    unfold shift, icomp; cbn [Z.eqb Pos.eqb iv0 iv1 iv2]; lia.
Qed.
Lemma xm_shift L c d s e : (0 <= d <= 2)%Z -> (0 <= e <= 2)%Z ->
  xm L (shift c d s) e = xm L c e + if (d =? e)%Z then IZR s * fl_dx L e else 0.
Proof.
  intros D E. unfold xm. rewrite icomp_shift, plus_IZR by assumption. destruct (Z.eqb_spec d e); [ring|]. change (IZR 0) with 0. ring.
Qed.
Lemma linear_diff L f0 g c d : sized L -> linear_vof L f0 g -> (0 <= d <= 2)%Z ->
  dv_r L c d * (1 / fl_dx L d) = g d /\ dv_l L c d * (1 / fl_dx L d) = g d.
Proof.
  intros V H D. pose proof (sized_at L d V D) as P. unfold dv_r, dv_l. rewrite !H. rewrite !xm_shift by (try assumption; lia).
  destruct (dir_cases d D) as [->|[->| ->]]; cbn [Z.eqb Pos.eqb]; split; field; lra.
Qed.
(** Where the volume fraction is linear in space, linear interpolation puts the sample where it is one
    half, up to the regularisation of the slope; with no such place within six tenths of a cell, at the bottom. *)
Theorem c84_linear : forall S L c f0 g l0 l1, sized L -> (0 <= fs_dir S <= 2)%Z -> linear_vof L f0 g ->
  let h := linear_height S L c l0 l1 in let x := xm L c (fs_dir S) in
  let f := linear_at S f0 g l0 l1 in
  g (fs_dir S) + eps64 <> 0 ->
  ((f x - 0.5) * (f (x + 0.6 * fl_dx L (fs_dir S)) - 0.5) <= 0 \/ (f x - 0.5) * (f (x - 0.6 * fl_dx L (fs_dir S)) - 0.5) <= 0 ->
     f h - 0.5 = - eps64 * (h - x)) /\
  (0 < (f x - 0.5) * (f (x + 0.6 * fl_dx L (fs_dir S)) - 0.5) -> 0 < (f x - 0.5) * (f (x - 0.6 * fl_dx L (fs_dir S)) - 0.5) ->
     h = fl_lo L (fs_dir S)).
Proof.
  intros S L c f0 g l0 l1 V H Lv h x f N.
  assert (G0 : (0 <= gc0 (fs_dir S) <= 2)%Z) by (unfold gc0; destruct (_ =? _)%Z; lia).
  assert (G1 : (0 <= gc1 (fs_dir S) <= 2)%Z) by (unfold gc1; destruct (_ =? _)%Z; lia).
  destruct (linear_diff L f0 g c (fs_dir S) V Lv H) as [Ar Al]. destruct (linear_diff L f0 g c (gc0 (fs_dir S)) V Lv G0) as [Br Bl].
  destruct (linear_diff L f0 g c (gc1 (fs_dir S)) V Lv G1) as [Cr Cl].
  assert (E0 : (if Rltb 0 (l0 - xm L c (gc0 (fs_dir S))) then dv_r L c (gc0 (fs_dir S)) else dv_l L c (gc0 (fs_dir S))) * (1 / fl_dx L (gc0 (fs_dir S))) = g (gc0 (fs_dir S)))
    by (destruct (Rltb 0 (l0 - xm L c (gc0 (fs_dir S)))); assumption).
  assert (E1 : (if Rltb 0 (l1 - xm L c (gc1 (fs_dir S))) then dv_r L c (gc1 (fs_dir S)) else dv_l L c (gc1 (fs_dir S))) * (1 / fl_dx L (gc1 (fs_dir S))) = g (gc1 (fs_dir S)))
    by (destruct (Rltb 0 (l1 - xm L c (gc1 (fs_dir S)))); assumption).
  assert (Fc : fl_vof L c + g (gc0 (fs_dir S)) * (l0 - xm L c (gc0 (fs_dir S))) + g (gc1 (fs_dir S)) * (l1 - xm L c (gc1 (fs_dir S))) = f x).
  { unfold f, linear_at, x. rewrite Lv. unfold gc0, gc1. destruct (dir_cases _ H) as [E|[E|E]]; rewrite E; cbn [Z.eqb Pos.eqb]; ring. }
  assert (Fr : forall t, f x + t * g (fs_dir S) * fl_dx L (fs_dir S) = f (x + t * fl_dx L (fs_dir S))) by (intros; unfold f, linear_at; ring).
  assert (Fl : forall t, f x - t * g (fs_dir S) * fl_dx L (fs_dir S) = f (x - t * fl_dx L (fs_dir S))) by (intros; unfold f, linear_at; ring).
  assert (Hd : forall z, f z = f x + g (fs_dir S) * (z - x)) by (intros; unfold f, linear_at; ring).
  unfold h, linear_height. cbv zeta. rewrite Ar, Al, E0, E1, Fc, Fr, Fl. fold x.
  assert (Key : forall z, z = x + (0.5 - f x) / (g (fs_dir S) + eps64) -> f z - 0.5 = - eps64 * (z - x)).
  { intros z Ez. rewrite Hd. assert (Q : (g (fs_dir S) + eps64) * (z - x) = 0.5 - f x) by (rewrite Ez; field; exact N). lra. }
  split.
  - intros O. destruct (Rleb _ 0) eqn:A1; [apply Key; reflexivity|]. apply Rleb_false in A1.
    destruct (Rleb ((f x - 0.5) * (f (x - 0.6 * fl_dx L (fs_dir S)) - 0.5)) 0) eqn:A2; [apply Key; reflexivity|]. apply Rleb_false in A2. lra.
  - intros A B. assert (Q1 : Rleb ((f x - 0.5) * (f (x + 0.6 * fl_dx L (fs_dir S)) - 0.5)) 0 = false) by (apply Rleb_false; exact A).
    assert (Q2 : Rleb ((f x - 0.5) * (f (x - 0.6 * fl_dx L (fs_dir S)) - 0.5)) 0 = false) by (apply Rleb_false; exact B). rewrite Q1, Q2. reflexivity.
Qed.

Lemma zone_spec S L c : linear_here S L c = true <-> zone S L c.
Proof.
  unfold linear_here, zone. rewrite orb_true_iff, andb_true_iff, Z.eqb_eq.
  assert (E : xm L c 0 = (cell_lo L c 0 + cell_hi L c 0) / 2) by (unfold xm, cell_lo, cell_hi; lra).
  rewrite E. split; (intros [H|H]; [left; exact H|right]).
  - destruct (fs_linear S) as [lx|]; [|discriminate]. exists lx. split; [reflexivity|apply Rleb_spec, H].
  - destruct H as (lx & -> & H). apply Rleb_spec, H.
Qed.
Lemma mixed_spec L c : mixed (fl_vof L c) = true <-> clearly_mixed L c.
Proof. unfold mixed, clearly_mixed. rewrite andb_true_iff, !Rltb_spec. unfold tol. tauto. Qed.
Lemma half_spec L c d : half_crossed L c d = true <-> beside_half L c d.
Proof.
  unfold half_crossed, beside_half. rewrite orb_true_iff, !Rleb_spec, !half_dot. cbv zeta. unfold shift.
  replace (IV (iv0 c + (if (d =? 0)%Z then 0 else 0)) (iv1 c + (if (d =? 1)%Z then 0 else 0)) (iv2 c + (if (d =? 2)%Z then 0 else 0)))%Z with c; [reflexivity|].
  destruct c as [i j k]. cbn [iv0 iv1 iv2]. f_equal; destruct (_ =? _)%Z; lia.
Qed.
(** What a cell offers: full of the phase below the interface, its top; otherwise, where the volume
    fraction is interpolated, the interpolated height if the cell is mixed or beside one half; elsewhere the
    height of its reconstructed plane if it is mixed; and nothing in all other cases. *)
Theorem c84_cell : forall S ni L c l0 l1, sized L -> (0 <= fs_dir S <= 2)%Z ->
  let full := if Nat.even ni then 1 - eps64 * 10000 <= fl_vof L c else fl_vof L c <= eps64 * 10000 in
  let f := found S ni L c l0 l1 in
  (full -> f = Some (cell_hi L c (fs_dir S))) /\
  (~ full -> zone S L c -> clearly_mixed L c \/ beside_half L c (fs_dir S) -> f = Some (limited L c (fs_dir S) (linear_height S L c l0 l1))) /\
  (~ full -> ~ zone S L c -> clearly_mixed L c ->
     f = let '(m, al) := fit_plane (fl_vof L) (iv0 c) (iv1 c) (iv2 c) in Some (limited L c (fs_dir S) (plane_height S L c m al l0 l1))) /\
  (~ full -> ~ clearly_mixed L c -> ~ (zone S L c /\ beside_half L c (fs_dir S)) -> f = None).
Proof.
  intros S ni L c l0 l1 V H full f.
  assert (B : phase_below ni (fl_vof L c) = true <-> full) by (unfold phase_below, full; destruct (Nat.even ni); apply Rleb_spec).
  split; [intros F; apply found_below; [exact V|exact H|apply B, F]|].
  pose proof (zone_spec S L c) as Zs. pose proof (mixed_spec L c) as Ms. pose proof (half_spec L c (fs_dir S)) as Hs.
  unfold f, found. cbv zeta. destruct (phase_below ni (fl_vof L c)); [intuition discriminate|].
  destruct (linear_here S L c), (mixed (fl_vof L c)), (half_crossed L c (fs_dir S)); intuition discriminate.
Qed.

(** ** Places of the samples *)

(** Across the plane every sample is at its point; along the search direction it is at the height of its
    own point and instance if there is one point or one instance. *)
Theorem c84_layout_partial : forall S hs n0 n1 ni, (0 <= fs_dir S <= 2)%Z -> on_plane S n0 n1 -> (ni < fs_ninst S)%nat ->
  location S hs (number S n0 n1) ni (gc0 (fs_dir S)) = grid0 S n0 /\
  location S hs (number S n0 n1) ni (gc1 (fs_dir S)) = grid1 S n1 /\
  (npts S = 1%Z \/ fs_ninst S = 1%nat -> location S hs (number S n0 n1) ni (fs_dir S) = nth ni hs (fun _ => 0) (number S n0 n1)).
Proof.
  intros S hs n0 n1 ni H On N. assert (Q := proj1 (c84_number S n0 n1 n0 n1 On On)). destruct On as [O0 O1]. unfold location.
  assert (G : gc0 (fs_dir S) <> fs_dir S /\ gc1 (fs_dir S) <> fs_dir S /\ gc1 (fs_dir S) <> gc0 (fs_dir S)).
  { unfold gc0, gc1. destruct (dir_cases _ H) as [->|[->| ->]]; cbn [Z.eqb Pos.eqb]; repeat split; lia. }
  destruct G as (G0 & G1 & G2). unfold number in *. split; [|split].
  - rewrite (proj2 (Z.eqb_neq _ _) G0), Z.eqb_refl. f_equal. rewrite Z.add_comm, Z_mod_plus_full, Z.mod_small by lia. reflexivity.
  - rewrite (proj2 (Z.eqb_neq _ _) G1), (proj2 (Z.eqb_neq _ _) G2). f_equal. rewrite Z.div_add_l by lia. rewrite Z.div_small by lia. ring.
  - intros O. rewrite Z.eqb_refl. unfold out_array. destruct O as [O|O].
    + rewrite O in *. assert (E : (n1 * fs_n0 S + n0)%Z = 0%Z) by lia. rewrite E, Z.mul_0_l, Z.add_0_l, Z.div_1_r, Z.mod_1_r, Nat2Z.id. reflexivity.
    + rewrite O in *. assert (ni = 0%nat) by lia. subst ni. change (Z.of_nat 1) with 1%Z. change (Z.of_nat 0) with 0%Z.
      rewrite Z.mul_1_r, Z.add_0_r, Z.div_small, Z.mod_small by lia. reflexivity.
Qed.
(** The heights are stored instance after instance and read point after point: with several points and
    several instances, the second sample at the first point is placed at the first height of the second point. *)
Theorem c84_layout_refuted : forall S hs, (2 <= npts S)%Z -> (2 <= fs_ninst S)%nat ->
  location S hs 0 1 (fs_dir S) = nth 0 hs (fun _ => 0) 1%Z.
Proof.
  intros S hs N I. unfold location. rewrite Z.eqb_refl. unfold out_array. rewrite Z.mul_0_l, Z.add_0_l. change (Z.of_nat 1) with 1%Z.
  rewrite Z.div_small, Z.mod_small by lia. reflexivity.
Qed.

(** ** Limits *)
Lemma span_reversed phi x dx s e n : 0 < dx -> (2 <= n)%Z -> e < s -> s <= phi - bounds_tol ->
  let '(f, a) := span phi x dx s (pitch n s e) n in (a <= f)%Z.
Proof.
  intros D N E S0. pose proof eps64_pos as EP. unfold span. destruct (Z.eqb_spec n 1) as [C|_]; [lia|].
  assert (P : 0 < - pitch n s e).
  { replace (- pitch n s e) with (pitch n e s) by (unfold pitch; field; apply not_0_IZR; lia). apply pitch_pos; lia || lra. }
  set (p := pitch n s e) in *. set (f := rceil ((x - 0.5 * dx - s) / p)). set (a := rceil ((x + 0.5 * dx - s) / p)).
  assert (FA : (a <= f)%Z).
  { unfold a. apply rceil_le. apply Rle_trans with ((x - 0.5 * dx - s) / p); [|pose proof (rceil_spec ((x - 0.5 * dx - s) / p)); unfold f; lra].
    replace ((x + 0.5 * dx - s) / p) with ((s - x - 0.5 * dx) / - p) by (field; lra).
    replace ((x - 0.5 * dx - s) / p) with ((s - x + 0.5 * dx) / - p) by (field; lra).
    unfold Rdiv. apply Rmult_le_compat_r; [apply Rlt_le, Rinv_0_lt_compat, P|lra]. }
  set (a' := if (Rltb (Rabs (x + 0.5 * dx - phi)) eps64 && Rltb (Rabs (s + IZR a * p - phi)) eps64)%bool then (a + 1)%Z else a).
  assert (A' : (a' <= f \/ a' <= 0)%Z).
  { unfold a'. destruct (Rltb (Rabs (x + 0.5 * dx - phi)) eps64); cbn [andb]; [|left; exact FA].
    destruct (Rltb (Rabs (s + IZR a * p - phi)) eps64) eqn:C; [|left; exact FA]. right. apply Rltb_spec in C.
    destruct (Z_lt_le_dec a 0) as [Q|Q]; [lia|]. exfalso. apply Rabs_def2 in C. destruct C as [C1 C2].
    apply IZR_le in Q. unfold bounds_tol in S0. nra. }
  destruct (Z.leb_spec n (Z.max (Z.min 0 (Z.min n a')) f)); cbn [orb]; [lia|].
  destruct (Z.ltb_spec (Z.max (Z.min 0 (Z.min n a')) f) 0); lia.
Qed.
Lemma empty_points S nc L c : (let '(f0, a0) := span0 S L c in (a0 <= f0)%Z) \/ (let '(f1, a1) := span1 S L c in (a1 <= f1)%Z) ->
  forall p, ~ In p (cell_points S nc L c).
Proof.
  intros H p I. apply listed_in in I. destruct I as [_ I]. destruct (span0 S L c) as [f0 a0], (span1 S L c) as [f1 a1].
  destruct I as (n0 & n1 & _ & I0 & I1). lia.
Qed.
(** A plane whose end is before its start in one of its directions, as in the example of the manual, is
    accepted, and every height is the bottom of the domain whatever the flow. *)
Theorem c84_reversed_refuted : forall S nc plo ni last ranks idx,
  ((2 <= fs_n0 S)%Z /\ fs_end S (gc0 (fs_dir S)) < fs_start S (gc0 (fs_dir S)) \/
   (2 <= fs_n1 S)%Z /\ fs_end S (gc1 (fs_dir S)) < fs_start S (gc1 (fs_dir S))) ->
  (forall L c, present ranks L c -> sized L /\ forall d, fs_start S d <= fl_hi L d - bounds_tol) ->
  reduced S nc plo ni last ranks idx = plo.
Proof.
  intros S nc plo ni last ranks idx O H. destruct (reduced_top S nc plo ni last ranks idx) as (_ & _ & [B|B]); [exact B|]. exfalso.
  destruct B as (L & c & l0 & l1 & P & I & _). destruct (H L c P) as [(D0 & D1 & D2) Hs]. revert I. apply empty_points.
  assert (P0 : 0 < fl_dx L (gc0 (fs_dir S))) by (unfold gc0; destruct (_ =? _)%Z; assumption).
  assert (P1 : 0 < fl_dx L (gc1 (fs_dir S))) by (unfold gc1; destruct (_ =? _)%Z; assumption).
  destruct O as [[N E]|[N E]]; [left|right].
  - exact (span_reversed _ _ _ _ _ _ P0 N E (Hs _)).
  - exact (span_reversed _ _ _ _ _ _ P1 N E (Hs _)).
Qed.

Lemma rceil_is x n : IZR n - 1 < x <= IZR n -> rceil x = n.
Proof. intros [A B]. apply Z.le_antisymm; [apply rceil_le; exact B|]. apply Z.lt_pred_le. apply rceil_gt. rewrite <- Z.sub_1_r, minus_IZR. exact A. Qed.

(** One cell of water filling a domain of unit size. *)
Definition unit_level (dx : R) (v : ivec -> R) : flevel := FL (fun _ => 0) (fun _ => dx) (fun _ => 1) (fun _ => true) v (fun _ => 1%Z).
Definition nine : fsampler := FS 2 (fun _ => / 4) (fun _ => / 2) 3 3 1 8 None false.
Definition pair_ : fsampler := FS 2 (fun _ => / 4) (fun _ => 3 / 4) 2 1 1 8 None false.
Definition single (ninst : nat) : fsampler := FS 2 (fun _ => / 4) (fun _ => / 4) 1 1 ninst 8 None false.
Definition one_cell (v : R) : fmesh := [(unit_level 1 (fun _ => v), [IV 0 0 0])].
Definition eight_cells : fmesh :=
  [(unit_level (/ 2) (fun _ => 1), [IV 0 0 0; IV 1 0 0; IV 0 1 0; IV 1 1 0; IV 0 0 1; IV 1 0 1; IV 0 1 1; IV 1 1 1]%Z)].

Lemma span_calc phi x dx s p n f a : n <> 1%Z -> (1 <= n)%Z -> rceil ((x - 0.5 * dx - s) / p) = f -> rceil ((x + 0.5 * dx - s) / p) = a -> (f <= n - 1)%Z -> (0 <= a)%Z ->
  (n <= a)%Z \/ eps64 < Rabs (s + IZR a * p - phi) -> span phi x dx s p n = (Z.max 0 f, Z.min n a).
Proof.
  intros N1 N F A L0 A0 O. unfold span. rewrite (proj2 (Z.eqb_neq _ _) N1), F, A.
  set (a' := if (Rltb (Rabs (x + 0.5 * dx - phi)) eps64 && Rltb (Rabs (s + IZR a * p - phi)) eps64)%bool then (a + 1)%Z else a).
  assert (E : Z.min n a' = Z.min n a).
  { unfold a'. destruct (_ && _)%bool eqn:B; [|reflexivity]. apply andb_prop in B. destruct B as [_ B]. apply Rltb_spec in B. destruct O; [lia|lra]. }
  rewrite E, (Z.min_l 0) by lia. destruct (Z.leb_spec n (Z.max 0 f)); [lia|]. destruct (Z.ltb_spec (Z.max 0 f) 0); [lia|]. reflexivity.
Qed.
Local Arguments span : simpl never.
Lemma nine_span v : let L := unit_level 1 v in span0 nine L (IV 0 0 0) = (0%Z, 3%Z) /\ span1 nine L (IV 0 0 0) = (0%Z, 3%Z).
Proof.
  cbv zeta. unfold span0, span1, pitch0, pitch1. cbn. unfold xm, pitch. cbn.
  split; (eapply eq_trans; [apply (span_calc _ _ _ _ _ _ (-2) 6); try lia; try (left; lia); apply rceil_is; lra|reflexivity]).
Qed.
(** More points in a cell than the limit of the input: the points over it are not looked for. *)
Theorem c84_limit_refuted :
  on_plane nine 0 0 /\ on_plane nine 2 2 /\ passes nine (unit_level 1 (fun _ => 1)) (IV 0 0 0) 2 2 /\
  let h := heights nine (ncomp nine (one_cell 1)) 0 1 [one_cell 1] in
  nth 0 h (fun _ => 2) (number nine 0 0) = 1 /\ nth 0 h (fun _ => 2) (number nine 2 2) = 0.
Proof.
  split; [split; cbn; lia|]. split; [split; cbn; lia|]. split.
  { unfold passes, cell_lo, cell_hi, grid0, grid1, pitch0, pitch1, pitch. cbn. lra. }
  assert (NC : ncomp nine (one_cell 1) = 8%Z).
  { unfold ncomp, one_cell. cbn [fold_left fst snd]. unfold possible. destruct (nine_span (fun _ => 1)) as [E0 E1]. rewrite E0, E1. reflexivity. }
  rewrite NC. cbv zeta. unfold heights. cbn [fs_ninst nine instances nth]. unfold reduced, search, one_cell. cbn [fold_left fst snd].
  set (L := unit_level 1 (fun _ => 1)).
  assert (CP : cell_points nine 8 L (IV 0 0 0) = [(0%Z, grid0 nine 0, grid1 nine 0); (3%Z, grid0 nine 0, grid1 nine 1); (6%Z, grid0 nine 0, grid1 nine 2);
     (1%Z, grid0 nine 1, grid1 nine 0); (4%Z, grid0 nine 1, grid1 nine 1); (7%Z, grid0 nine 1, grid1 nine 2); (2%Z, grid0 nine 2, grid1 nine 0); (5%Z, grid0 nine 2, grid1 nine 1)]).
  { unfold cell_points. destruct (nine_span (fun _ => 1)) as [E0 E1]. unfold L. rewrite E0, E1. reflexivity. }
  unfold cell_max. rewrite CP. cbn [fold_left number Z.mul Z.add fs_n0 nine Z.eqb Pos.eqb].
  split; [|reflexivity].
  assert (T : Rltb (xm L (IV 0 0 0) (fs_dir nine) + 0.5 * fl_dx L (fs_dir nine)) (1 + 1) = true) by (apply Rltb_spec; unfold xm; cbn; lra).
  rewrite T. rewrite found_below.
  - rewrite rmax_spec. unfold cell_hi. cbn. rewrite Rmax_right; lra.
  - unfold sized. cbn. lra.
  - cbn. lia.
  - unfold phase_below. cbn [Nat.even]. apply Rleb_spec. cbn. unfold tol, eps64. lra.
Qed.

Lemma pair_span v c : (icomp c 0 = 0 \/ icomp c 0 = 1)%Z -> (icomp c 1 = 0 \/ icomp c 1 = 1)%Z -> (possible pair_ (unit_level (/ 2) v) c <= 1)%Z.
Proof.
  intros H0 H1. unfold possible.
  assert (E0 : span0 pair_ (unit_level (/ 2) v) c = (icomp c 0, icomp c 0 + 1)%Z).
  { unfold span0, pitch0, xm, pitch. cbn [fs_dir pair_ gc0 Z.eqb Pos.eqb fl_hi fl_lo fl_dx unit_level fs_start fs_end fs_n0]. 
    unfold gc0. cbn [Z.eqb Pos.eqb fl_hi fl_lo fl_dx]. change (Z.max (2 - 1) 1) with 1%Z.
    destruct H0 as [-> | ->].
    - eapply eq_trans; [apply (span_calc _ _ _ _ _ _ 0 1); try lia; try (apply rceil_is; lra)|reflexivity].
      right. unfold eps64. rewrite Rabs_left; lra.
    - eapply eq_trans; [apply (span_calc _ _ _ _ _ _ 1 2); try lia; try (apply rceil_is; lra)|reflexivity]. }
  rewrite E0. unfold span1, span. cbn [fs_n1 pair_ Z.eqb Pos.eqb]. destruct (_ || _)%bool; lia.
Qed.
(** The room for points per cell is not computed again after the mesh changes: points of cells that became
    coarser are lost. *)
Theorem c84_regrid_refuted :
  let nc := ncomp pair_ eight_cells in
  (nc <= 1)%Z /\ (ncomp pair_ (one_cell 1) = 2)%Z /\
  on_plane pair_ 1 0 /\ passes pair_ (unit_level 1 (fun _ => 1)) (IV 0 0 0) 1 0 /\
  nth 0 (heights pair_ (ncomp pair_ (one_cell 1)) 0 1 [one_cell 1]) (fun _ => 2) (number pair_ 1 0) = 1 /\
  nth 0 (heights pair_ nc 0 1 [one_cell 1]) (fun _ => 2) (number pair_ 1 0) = 0.
Proof.
  set (L := unit_level 1 (fun _ => 1)).
  assert (E0 : span0 pair_ L (IV 0 0 0) = (0%Z, 2%Z)).
  { unfold span0, pitch0, xm, pitch. cbn. eapply eq_trans; [apply (span_calc _ _ _ _ _ _ 0 2); try lia; apply rceil_is; lra|reflexivity]. }
  assert (E1 : span1 pair_ L (IV 0 0 0) = (0%Z, 1%Z)).
  { unfold span1, span. cbn [fs_n1 pair_ Z.eqb Pos.eqb].
    assert (Q : (Rleb (xm L (IV 0 0 0) (gc1 (fs_dir pair_)) - fs_start pair_ (gc1 (fs_dir pair_))) (0.5 * fl_dx L (gc1 (fs_dir pair_))) &&
       Rltb (fs_start pair_ (gc1 (fs_dir pair_)) - xm L (IV 0 0 0) (gc1 (fs_dir pair_))) (0.5 * fl_dx L (gc1 (fs_dir pair_))))%bool = true).
    { apply andb_true_intro. split; [apply Rleb_spec|apply Rltb_spec]; unfold xm; cbn; lra. }
    rewrite Q, orb_true_r. reflexivity. }
  cbv zeta.
  assert (NC : (ncomp pair_ eight_cells <= 1)%Z).
  { unfold ncomp, eight_cells. cbn [fold_left fst snd fl_open unit_level]. apply Z.le_trans with (2 := Z.le_refl 1). eapply Z.le_trans; [apply Z.le_min_l|].
    repeat apply Z.max_lub; try lia; apply pair_span; cbn; lia. }
  assert (N2 : ncomp pair_ (one_cell 1) = 2%Z).
  { unfold ncomp, one_cell. cbn [fold_left fst snd]. unfold possible. fold L. rewrite E0, E1. reflexivity. }
  split; [exact NC|]. split; [exact N2|]. split; [split; cbn; lia|]. split.
  { unfold passes, cell_lo, cell_hi, grid0, grid1, pitch0, pitch1, pitch. cbn. lra. }
  assert (CP : forall nc, cell_points pair_ nc L (IV 0 0 0) = firstn (Z.to_nat nc) [(0%Z, grid0 pair_ 0, grid1 pair_ 0); (1%Z, grid0 pair_ 1, grid1 pair_ 0)]).
  { intros nc. unfold cell_points. rewrite E0, E1. reflexivity. }
  rewrite N2. unfold heights. cbn [fs_ninst pair_ instances nth]. unfold reduced, search, one_cell. cbn [fold_left fst snd]. fold L. unfold cell_max.
  rewrite !CP. split.
  - change (Z.to_nat 2) with 2%nat. cbn [firstn fold_left number Z.mul Z.add fs_n0 pair_ Z.eqb Pos.eqb].
    assert (T : Rltb (xm L (IV 0 0 0) (fs_dir pair_) + 0.5 * fl_dx L (fs_dir pair_)) (1 + 1) = true) by (apply Rltb_spec; unfold xm; cbn; lra).
    rewrite T. rewrite found_below.
    + rewrite rmax_spec. unfold cell_hi. cbn. rewrite Rmax_right; lra.
    + unfold sized. cbn. lra.
    + cbn. lia.
    + unfold phase_below. cbn [Nat.even]. apply Rleb_spec. cbn. unfold tol, eps64. lra.
  - assert (Q : Z.to_nat (ncomp pair_ eight_cells) = 0%nat \/ Z.to_nat (ncomp pair_ eight_cells) = 1%nat) by lia.
    destruct Q as [-> | ->]; reflexivity.
Qed.

(** Water up to the top of the domain: the sample is at the top, which is in no cell, and the listing of
    the samples stops the program. *)
Theorem c84_full_refuted : forall hs, nth 0 hs (fun _ => 0) 0%Z = 1 ->
  sampling_locations (single 1) hs (fun _ => 0) (fun _ => 1) (fun _ => 1%Z) = Abort.
Proof.
  intros hs H. unfold sampling_locations. cbn [npts fs_n0 fs_n1 single fs_ninst]. change (zrange 0 (npts (single 1) - 1)) with [0%Z].
  cbn [flat_map map seq app]. 
  assert (E : in_domain (fun _ => 0) (fun _ => 1) (fun _ => 1%Z) (location (single 1) hs 0 0) = false).
  { unfold in_domain. assert (L2 : location (single 1) hs 0 0 2 = 1) by (unfold location; cbn [fs_dir single Z.eqb Pos.eqb]; exact H).
    assert (F : rfloor ((location (single 1) hs 0 0 2 - 0) * (1 / 1)) = 1%Z) by (rewrite L2; apply rfloor_unique; lra).
    rewrite F. cbn. rewrite andb_false_r. reflexivity. }
  cbn [filter]. rewrite E. reflexivity.
Qed.

(** An interface that stands along the search direction: the sample is put at the middle of the cell even
    on a line that has no water. *)
Theorem c84_vertical_refuted : forall ninst L c v l0 l1, tol < v < 1 - tol -> sized L -> layered (fl_vof L) c 0 1 v 0 ->
  found (single ninst) 0 L c l0 l1 = Some (xm L c 2).
Proof.
  intros ninst L c v l0 l1 V Sz La. assert (T : 0 < tol < / 4) by (unfold tol, eps64; lra).
  assert (Vc : fl_vof L c = v).
  { pose proof (La 0%Z 0%Z 0%Z ltac:(lia) ltac:(lia) ltac:(lia)) as Q. rewrite !Z.add_0_r in Q. destruct c. exact Q. }
  unfold found. rewrite Vc. assert (B : phase_below 0 v = false) by (unfold phase_below; cbn [Nat.even]; apply Rleb_false; lra).
  assert (M : mixed v = true) by (unfold mixed; apply andb_true_intro; split; apply Rltb_spec; lra).
  rewrite B, M. assert (Q : linear_here (single ninst) L c = false) by reflexivity. rewrite Q.
  destruct c as [i j k]. cbn [iv0 iv1 iv2].
  rewrite (proj1 (c30_flat_interface (fl_vof L) i j k v ltac:(lra)) La). f_equal.
  unfold plane_height. cbn [fs_dir single Z.eqb Pos.eqb w0 w1 w2]. destruct (Req_EM_T 0 0) as [_|C]; [|contradiction].
  apply limited_inside; [apply Sz|]. pose proof (xm_lo L (IV i j k) 2). pose proof (xm_hi L (IV i j k) 2). destruct Sz as (_ & _ & D). lra.
Qed.

(** ** A case: water up to 5/8 of the height, in a column of two cells *)
Definition col_level : flevel := unit_level (/ 2) (fun c => water (IZR (iv2 c) * / 2) ((IZR (iv2 c) + 1) * / 2) [5 / 8]).
Definition column : fmesh := [(col_level, [IV 0 0 0; IV 0 0 1])].
Example case_forward : forward (single 2) col_level /\ sized col_level.
Proof. unfold forward, sized. cbn. unfold bounds_tol, eps64. repeat split; try lia; try lra; left; reflexivity. Qed.
Example case_stacked : stacked (single 2) 1 0 1 [column] [5 / 8] /\ covered (single 2) 0 1 [column] 0 0 /\ on_plane (single 2) 0 0.
Proof.
  assert (T : 0 < tol < / 8) by (unfold tol, eps64; lra).
  assert (Pres : forall L c, present [column] L c -> L = col_level /\ (c = IV 0 0 0 \/ c = IV 0 0 1)).
  { intros L c (m & cs & [<-|[]] & [E|[]] & I). injection E as <- <-. split; [reflexivity|]. destruct I as [<-|[<-|[]]]; auto. }
  split; [|split; [|split; cbn; lia]].
  - split; [intros h [<-|[]]; lra|]. intros L c P. destruct (Pres L c P) as [-> C]. destruct case_forward as [F V].
    split; [exact V|]. split; [exact F|]. split; [reflexivity|]. split.
    { unfold possible, span0, span1, span. cbn [fs_n0 fs_n1 single Z.eqb Pos.eqb]. destruct (_ || _)%bool; destruct (_ || _)%bool; lia. }
    assert (W0 : fl_vof col_level (IV 0 0 0) = 1) by (cbn; rewrite part_full; lra).
    assert (W1 : fl_vof col_level (IV 0 0 1) = / 4) by (cbn; rewrite part_inside; lra).
    destruct C as [-> | ->]; unfold cell_lo, cell_hi; cbn [fs_dir single icomp Z.eqb Pos.eqb iv2 fl_lo fl_dx col_level unit_level];
      (split; [cbn; lra|]); (split; [cbn; lra|]); (split; [rewrite ?W0, ?W1; lra|]); (split; [cbn; auto|]);
      intros c'; cbn [fl_vof col_level unit_level]; f_equal; unfold icomp; cbn; ring.
  - intros z [Z1 Z2]. destruct (Rle_lt_dec z (/ 2)) as [Q|Q].
    + exists col_level, (IV 0 0 0). split; [exists column, [IV 0 0 0; IV 0 0 1]; cbn; auto|]. split; [reflexivity|].
      unfold passes, cell_lo, cell_hi, grid0, grid1, pitch0, pitch1, pitch. cbn. lra.
    + exists col_level, (IV 0 0 1). split; [exists column, [IV 0 0 0; IV 0 0 1]; cbn; auto|]. split; [reflexivity|].
      unfold passes, cell_lo, cell_hi, grid0, grid1, pitch0, pitch1, pitch. cbn. lra.
Qed.
Example case_heights : map (fun h => h 0%Z) (heights (single 2) 1 0 1 [column]) = [5 / 8; 0].
Proof. destruct case_stacked as (A & B & C). exact (c84_layers (single 2) 1 0 1 [column] [5 / 8] 0 0 A B C). Qed.
Example case_linear : linear_vof (unit_level 1 (fun c => 1 - xm (unit_level 1 (fun _ => 0)) c 2 / 4)) 1 (fun d => if (d =? 2)%Z then - / 4 else 0) /\
  - / 4 + eps64 <> 0.
Proof. split; [|unfold eps64; lra]. intros c. unfold xm. cbn. lra. Qed.
Example case_input : (forall d : Z, 0 + 20 * bounds_tol <= 1) /\ exists S, fs_init (fun _ => 0) (fun _ => 1) 2 (fun _ => / 4) (fun _ => / 2) 3 3 1 8 None false = Ret S.
Proof.
  assert (B : 0 < bounds_tol < / 1000) by (unfold bounds_tol, eps64; lra).
  split; [intros; lra|]. unfold fs_init. cbv zeta. rewrite !(proj2 (keep_in_spec 0 1 _ ltac:(lra))) by lra.
  change (gc0 2) with 0%Z. change (gc1 2) with 1%Z. unfold pitch. cbn [Z.leb Z.compare andb negb Z.eqb Pos.eqb].
  change (Z.max (3 - 1) 1) with 2%Z. destruct (Req_EM_T ((/ 2 - / 4) / 2) 0) as [C|C]; [lra|]. eexists. reflexivity.
Qed.
Example case_layered : layered (fun c => if (iv0 c <? 0)%Z then 1 else if (iv0 c =? 0)%Z then / 2 else 0) (IV 0 0 0) 0 1 (/ 2) 0.
Proof. intros p q r _ _ _. reflexivity. Qed.

Print Assumptions c84_input.
Print Assumptions c84_points.
Print Assumptions c84_number.
Print Assumptions c84_capacity.
Print Assumptions c84_search.
Print Assumptions c84_order.
Print Assumptions c84_descends.
Print Assumptions c84_layers.
Print Assumptions c84_plane.
Print Assumptions c84_linear.
Print Assumptions c84_cell.
Print Assumptions c84_layout_partial.
Print Assumptions c84_layout_refuted.
Print Assumptions c84_reversed_refuted.
Print Assumptions c84_limit_refuted.
Print Assumptions c84_regrid_refuted.
Print Assumptions c84_full_refuted.
Print Assumptions c84_vertical_refuted.
