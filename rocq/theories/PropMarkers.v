(** C103: marker of wakes.  C104: dissipation rate for a coupled code. *)
From Coq Require Import String List ZArith Lra Lia Bool.
From Verif Require Import BoxR BoxRFacts VecSpace Tagging Plic PlicIntercept Markers MarkersSpec.
Import ListNotations.
Open Scope string_scope.
Open Scope R_scope.

(** *** Names *)

Lemma put_spec : forall t k ng q, put t k ng q = match t q with Some v => Some v | None => if String.eqb q k then Some ng else None end.
Proof.
  intros t k ng q. unfold put. destruct (t k) as [v|] eqn:E.
  - destruct (t q) eqn:F; [reflexivity|]. destruct (String.eqb_spec q k) as [->|]; [congruence|reflexivity].
  - destruct (String.eqb_spec q k) as [->|].
    + rewrite E. reflexivity.
    + destruct (t q); reflexivity.
Qed.

Lemma keep_real : forall ds r q v, real_f r q = Some v -> real_f (fold_left declare ds r) q = Some v.
Proof.
  induction ds as [|d ds IH]; intros r q v H; [exact H|]. cbn [fold_left]. apply IH.
  destruct d as [k n|k n]; cbn [declare real_f]; [rewrite put_spec, H; reflexivity|exact H].
Qed.

Lemma find_real : forall ds r q ng, real_f r q = None -> first_real ds q ng -> real_f (fold_left declare ds r) q = Some ng.
Proof.
  intros ds r q ng H (a & b & -> & N). revert r H. induction a as [|d a IH]; intros r H.
  - cbn [app fold_left]. apply keep_real. cbn [declare real_f]. rewrite put_spec, H, String.eqb_refl. reflexivity.
  - cbn [app fold_left]. apply IH; [intros n I; apply (N n); right; exact I|].
    destruct d as [k n|k n]; cbn [declare real_f]; [|exact H]. rewrite put_spec, H.
    destruct (String.eqb_spec q k) as [->|]; [|reflexivity]. exfalso. apply (N n). left. reflexivity.
Qed.

Lemma miss_real : forall ds r q, real_f r q = None -> no_real ds q -> real_f (fold_left declare ds r) q = None.
Proof.
  induction ds as [|d ds IH]; intros r q H N; [exact H|]. cbn [fold_left]. apply IH; [|intros n I; apply (N n); right; exact I].
  destruct d as [k n|k n]; cbn [declare real_f]; [|exact H]. rewrite put_spec, H.
  destruct (String.eqb_spec q k) as [->|]; [|reflexivity]. exfalso. apply (N n). left. reflexivity.
Qed.

(** *** Cells *)

Lemma visited_spec : forall m ng lev n c,
  (Nat.ltb lev (m_levels m) = true /\ visited m ng lev n c = true) <-> on_mesh m ng lev n c.
Proof.
  intros m ng lev n c. unfold visited, on_mesh, in_boxb, grow_box. cbn [blo bhi iv0 iv1 iv2].
  rewrite !andb_true_iff, !Nat.ltb_lt, !Z.leb_le. lia.
Qed.

Lemma longer_spec : forall thr s, longer thr s <-> thr < sqrt (vx s * vx s + vy s * vy s + vz s * vz s).
Proof.
  intros thr s. unfold longer. set (q := vx s * vx s + vy s * vy s + vz s * vz s).
  assert (Q : 0 <= q) by (unfold q; nra). pose proof (sqrt_pos q) as P. pose proof (sqrt_sqrt q Q) as S. split.
  - intros [H|H]; [lra|]. destruct (Rlt_dec thr 0); [lra|].
    destruct (Rlt_dec thr (sqrt q)); [assumption|]. exfalso. assert (sqrt q <= thr) by lra. nra.
  - intros H. destruct (Rlt_dec thr 0); [left; assumption|]. right. nra.
Qed.

(** a loop over levels that each change only their own level *)
Lemma levels_at : forall (f : nat -> fld R -> fld R) (w : fld (R -> R)) k t,
  (forall lev t l n c, f lev t l n c = if Nat.eqb l lev then w l n c (t l n c) else t l n c) ->
  forall l n c, fold_left (fun t lev => f lev t) (seq 0 k) t l n c = if Nat.ltb l k then w l n c (t l n c) else t l n c.
Proof.
  intros f w k t F. induction k as [|k IH]; intros l n c; [reflexivity|].
  rewrite seq_S, fold_left_app. cbn [plus fold_left]. rewrite F, IH.
  destruct (Nat.eqb_spec l k) as [->|N].
  - rewrite Nat.ltb_irrefl. replace (k <? S k)%nat with true by (symmetry; apply Nat.ltb_lt; lia). reflexivity.
  - destruct (Nat.ltb_spec l k), (Nat.ltb_spec l (S k)); try reflexivity; lia.
Qed.

Lemma src_only : forall ng thr fr ho m src ib t l n c,
  snd (post_advance (Tagger (Some ng) None thr fr ho) m src ib t) l n c =
  if Nat.ltb l (m_levels m) then
    if visited m ng l n c then
      if Rltb thr (sqrt (vx (src l n c) * vx (src l n c) + vy (src l n c) * vy (src l n c) + vz (src l n c) * vz (src l n c)))
      then 1 else t l n c
    else t l n c
  else t l n c.
Proof.
  intros ng thr fr ho m src ib t l n c. cbn [post_advance g_src g_ib snd g_thr].
  rewrite (levels_at (fun lev t => tag_src m ng thr src lev t)
    (fun l n c v => if visited m ng l n c then
       if Rltb thr (sqrt (vx (src l n c) * vx (src l n c) + vy (src l n c) * vy (src l n c) + vz (src l n c) * vz (src l n c)))
       then 1 else v else v)).
  - reflexivity.
  - intros lev u p q d. unfold tag_src. destruct (Nat.eqb_spec p lev) as [->|]; reflexivity.
Qed.

(** *** C103 *)

(** A run with actuators: whatever was declared and whatever happened before, after a step the marker is one in the
    cells (ghost cells of the source included) where the force is longer than the threshold, and what transport left
    in all others. *)
Theorem c103_mark : forall ds ngt given ng,
  no_real ds "iblank_cell" -> first_real ds "actuator_src_term" ng -> (ng <= ngt)%Z ->
  exists g, post_init (fold_left declare ds repo0) ngt given = Ret g /\
  forall thr t s l n c, given_or_tenth given thr ->
    (on_mesh (s_mesh s) ng l n c /\ longer thr (s_src s l n c) -> do_step g t s l n c = 1) /\
    (~ (on_mesh (s_mesh s) ng l n c /\ longer thr (s_src s l n c)) -> do_step g t s l n c = s_move s t l n c) /\
    fst (post_advance g (s_mesh s) (s_src s) (s_ib s) t) = false.
Proof.
  intros ds ngt given ng NI FA LE.
  assert (A : real_f (fold_left declare ds repo0) "actuator_src_term" = Some ng) by (apply find_real; [reflexivity|exact FA]).
  assert (B : real_f (fold_left declare ds repo0) "iblank_cell" = None) by (apply miss_real; [reflexivity|exact NI]).
  exists (Tagger (Some ng) None (threshold given) true false). split.
  - unfold post_init, field_exists, get_field. rewrite A, B. cbn [obind].
    replace (ng <=? ngt)%Z with true by (symmetry; apply Z.leb_le; exact LE). reflexivity.
  - intros thr t s l n c G.
    assert (T : threshold given = thr) by (destruct G as [->|[-> ->]]; reflexivity). rewrite T.
    unfold do_step. rewrite src_only. split; [|split; [|reflexivity]].
    + intros [M L]. apply visited_spec in M. destruct M as [-> ->].
      apply longer_spec in L. apply Rltb_spec in L. rewrite L. reflexivity.
    + intros N. destruct (Nat.ltb l (m_levels (s_mesh s))) eqn:E1; [|reflexivity].
      destruct (visited (s_mesh s) ng l n c) eqn:E2; [|reflexivity].
      match goal with |- (if Rltb ?a ?b then _ else _) = _ => destruct (Rltb a b) eqn:E3 end; [|reflexivity].
      exfalso. apply N. split; [apply visited_spec; split; assumption|]. apply longer_spec. apply Rltb_spec. exact E3.
Qed.

(** A source with more ghost cells than the marker stops the run. *)
Theorem c103_ghost : forall ds ngt given ng,
  first_real ds "actuator_src_term" ng -> (ngt < ng)%Z ->
  post_init (fold_left declare ds repo0) ngt given = Abort.
Proof.
  intros ds ngt given ng FA LT.
  assert (A : real_f (fold_left declare ds repo0) "actuator_src_term" = Some ng) by (apply find_real; [reflexivity|exact FA]).
  unfold post_init, field_exists, get_field. rewrite A. cbn [obind].
  replace (ng <=? ngt)%Z with false by (symmetry; apply Z.leb_gt; exact LT). reflexivity.
Qed.

(** Were the mask found (a real field of its name is declared too), the cells with minus one, next to the mesh of the
    coupled code, and no others would be marked besides those of the force. *)
Theorem c103_mask : forall ds ngt given ng nr ni,
  first_real ds "actuator_src_term" ng -> first_real ds "iblank_cell" nr ->
  int_f (fold_left declare ds repo0) "iblank_cell" = Some ni -> (ng <= ngt)%Z -> (ni <= ngt)%Z ->
  exists g, post_init (fold_left declare ds repo0) ngt given = Ret g /\
  forall thr t s l n c, given_or_tenth given thr ->
    let marked := (on_mesh (s_mesh s) ng l n c /\ longer thr (s_src s l n c)) \/
                  (on_mesh (s_mesh s) ni l n c /\ s_ib s l n c = (-1)%Z) in
    (marked -> do_step g t s l n c = 1) /\ (~ marked -> do_step g t s l n c = s_move s t l n c).
Proof.
  intros ds ngt given ng nr ni FA FI II L1 L2.
  assert (A : real_f (fold_left declare ds repo0) "actuator_src_term" = Some ng) by (apply find_real; [reflexivity|exact FA]).
  assert (B : real_f (fold_left declare ds repo0) "iblank_cell" = Some nr) by (apply find_real; [reflexivity|exact FI]).
  exists (Tagger (Some ng) (Some ni) (threshold given) true false). split.
  - unfold post_init, field_exists, get_field, get_int_field. rewrite A, B, II. cbn [obind].
    replace (ng <=? ngt)%Z with true by (symmetry; apply Z.leb_le; exact L1). cbn [obind].
    replace (ni <=? ngt)%Z with true by (symmetry; apply Z.leb_le; exact L2). reflexivity.
  - intros thr t s l n c G marked.
    assert (T : threshold given = thr) by (destruct G as [->|[-> ->]]; reflexivity). rewrite T.
    unfold do_step. cbn [post_advance g_src g_ib snd g_thr g_fringe g_hole].
    rewrite (levels_at (fun lev t => tag_ib (s_mesh s) ni true false (s_ib s) lev (tag_src (s_mesh s) ng thr (s_src s) lev t))
      (fun l n c v => if (visited (s_mesh s) ni l n c && (s_ib s l n c =? -1)%Z)%bool then 1 else
         if (visited (s_mesh s) ng l n c &&
             Rltb thr (sqrt (vx (s_src s l n c) * vx (s_src s l n c) + vy (s_src s l n c) * vy (s_src s l n c) + vz (s_src s l n c) * vz (s_src s l n c))))%bool
         then 1 else v)).
    2:{ intros lev u q w d. unfold tag_ib, tag_src. destruct (Nat.eqb_spec q lev) as [->|]; [|reflexivity]. cbn [andb orb].
        destruct (visited (s_mesh s) ni lev w d), (visited (s_mesh s) ng lev w d); cbn [andb]; try reflexivity;
        destruct (s_ib s lev w d =? -1)%Z; reflexivity. }
    destruct (Nat.ltb l (m_levels (s_mesh s))) eqn:E0.
    + destruct (visited (s_mesh s) ni l n c && (s_ib s l n c =? -1)%Z)%bool eqn:E1.
      { split; [reflexivity|]. intros N. exfalso. apply N. right. apply andb_true_iff in E1. destruct E1 as [V E].
        split; [apply visited_spec; split; assumption|apply Z.eqb_eq; exact E]. }
      match goal with |- context [(?a && ?b)%bool] => destruct (a && b)%bool eqn:E2 end.
      { split; [reflexivity|]. intros N. exfalso. apply N. left. apply andb_true_iff in E2. destruct E2 as [V E].
        split; [apply visited_spec; split; assumption|apply longer_spec, Rltb_spec; exact E]. }
      split; [|reflexivity]. intros [[M L]|[M I]]; apply visited_spec in M; destruct M as [_ M].
      * apply longer_spec, Rltb_spec in L. rewrite M, L in E2. discriminate.
      * rewrite M, I in E1. discriminate.
    + split; [|reflexivity]. intros [[M L]|[M I]]; apply visited_spec in M; destruct M as [M _]; congruence.
Qed.
Example c103_mask_example : let ds := [DReal "actuator_src_term" 1; DReal "iblank_cell" 1; DInt "iblank_cell" 1] in
  first_real ds "actuator_src_term" 1 /\ first_real ds "iblank_cell" 1 /\ int_f (fold_left declare ds repo0) "iblank_cell" = Some 1%Z.
Proof.
  cbn zeta. split; [|split; [|reflexivity]].
  - exists [], [DReal "iblank_cell" 1; DInt "iblank_cell" 1]. split; [reflexivity|intros n []].
  - exists [DReal "actuator_src_term" 1], [DInt "iblank_cell" 1]. split; [reflexivity|]. intros n [E|[]]. discriminate.
Qed.

(** Transport that keeps values between zero and one gives a marker between zero and one after every history. *)
Theorem c103_range : forall ds ngt given ng ss,
  no_real ds "iblank_cell" -> first_real ds "actuator_src_term" ng -> (ng <= ngt)%Z ->
  (forall s, In s ss -> forall t, (forall l n c, 0 <= t l n c <= 1) -> forall l n c, 0 <= s_move s t l n c <= 1) ->
  exists g, post_init (fold_left declare ds repo0) ngt given = Ret g /\ forall l n c, 0 <= run g initial ss l n c <= 1.
Proof.
  intros ds ngt given ng ss NI FA LE H.
  destruct (c103_mark ds ngt given ng NI FA LE) as (g & E & B). exists g. split; [exact E|].
  assert (T : exists thr, given_or_tenth given thr)
    by (destruct given as [v|]; [exists v; left; reflexivity|exists (1 / 10); right; split; reflexivity]).
  destruct T as [thr T].
  assert (G : forall t, (forall l n c, 0 <= t l n c <= 1) -> forall l n c, 0 <= run g t ss l n c <= 1).
  { clear E. induction ss as [|s ss IH]; intros t I l n c; [apply I|]. cbn [run fold_left]. apply IH.
    - intros s' J. apply H. right. exact J.
    - intros p q d. destruct (B thr t s p q d T) as (B1 & B2 & _).
      pose proof (H s (or_introl eq_refl) t I p q d) as M.
      destruct (Rlt_dec 0 1) as [Z|]; [|lra].
      destruct (Rle_dec (do_step g t s p q d) 1) as [L|L].
      + split; [|exact L]. destruct (Rle_dec 0 (do_step g t s p q d)) as [K|K]; [exact K|]. exfalso.
        assert (N : ~ (on_mesh (s_mesh s) ng p q d /\ longer thr (s_src s p q d))) by (intros X; rewrite (B1 X) in K; lra).
        rewrite (B2 N) in K. lra.
      + exfalso. assert (N : ~ (on_mesh (s_mesh s) ng p q d /\ longer thr (s_src s p q d))) by (intros X; rewrite (B1 X) in L; lra).
        rewrite (B2 N) in L. lra. }
  apply G. intros l n c. unfold initial. lra.
Qed.

(** A marked cell whose value transport does not change stays marked, whatever the force does later. *)
Theorem c103_kept : forall ds ngt given ng g,
  no_real ds "iblank_cell" -> first_real ds "actuator_src_term" ng -> (ng <= ngt)%Z ->
  post_init (fold_left declare ds repo0) ngt given = Ret g ->
  forall ss t l n c, t l n c = 1 ->
  (forall s, In s ss -> forall u, s_move s u l n c = u l n c) ->
  run g t ss l n c = 1.
Proof.
  intros ds ngt given ng g NI FA LE E ss t l n c.
  destruct (c103_mark ds ngt given ng NI FA LE) as (g' & E' & B). rewrite E in E'. injection E' as <-.
  assert (T : exists thr, given_or_tenth given thr)
    by (destruct given as [v|]; [exists v; left; reflexivity|exists (1 / 10); right; split; reflexivity]).
  destruct T as [thr T]. revert t. induction ss as [|s ss IH]; intros t I M; [exact I|]. cbn [run fold_left]. apply IH.
  - destruct (B thr t s l n c T) as (B1 & B2 & _).
    destruct (Req_dec (do_step g t s l n c) 1) as [L|L]; [exact L|]. rewrite B2, (M s (or_introl eq_refl)), I.
    + reflexivity.
    + intros X. apply L, B1, X.
  - intros s' J. apply M. right. exact J.
Qed.

(** The cells next to another code's mesh are never marked, although the code for it is there and on: the name of the
    integer mask is looked for among the real fields.  The mask has no effect on any run; in a run with that other
    code and no actuators the step does nothing and warns that there is no other code. *)
Theorem c103_fringe_refuted : forall ds ngt given nib g,
  In (DInt "iblank_cell" nib) ds -> no_real ds "iblank_cell" ->
  post_init (fold_left declare ds repo0) ngt given = Ret g ->
  (forall m src ib ib' t, post_advance g m src ib t = post_advance g m src ib' t) /\
  (no_real ds "actuator_src_term" -> forall m src ib t, post_advance g m src ib t = (true, t)).
Proof.
  intros ds ngt given nib g _ NI E.
  assert (B : real_f (fold_left declare ds repo0) "iblank_cell" = None) by (apply miss_real; [reflexivity|exact NI]).
  unfold post_init, field_exists, get_field in E. rewrite B in E.
  destruct (real_f (fold_left declare ds repo0) "actuator_src_term") as [k|] eqn:A; cbn [obind] in E.
  - destruct (k <=? ngt)%Z; [|discriminate]. cbn [obind] in E. injection E as <-. split.
    + intros m src ib ib' t. reflexivity.
    + intros NA. rewrite (miss_real ds repo0 _ eq_refl NA) in A. discriminate.
  - injection E as <-. split; intros; reflexivity.
Qed.

(** A run with actuators and the other code, in the order of the program: the mask before the actuators. *)
Definition ex_ds : list decl := [DReal "velocity" 3; DReal "passive_scalar" 3; DInt "iblank_cell" 3; DReal "actuator_src_term" 1].
Example c103_example :
  no_real ex_ds "iblank_cell" /\ first_real ex_ds "actuator_src_term" 1 /\ In (DInt "iblank_cell" 3) ex_ds /\
  exists g, post_init (fold_left declare ex_ds repo0) 3 None = Ret g /\
  let m := Mesh 1 (fun _ => 1%nat) (fun _ _ => Box (IV 0 0 0) (IV 7 7 7)) in
  let s := Step m (fun t => t) (fun _ _ c => V3 (if (iv0 c =? 3)%Z then 1 else 0) 0 0) (fun _ _ c => if (iv0 c =? 5)%Z then -1 else 1)%Z in
  run g initial [s] 0%nat 0%nat (IV 3 2 2) = 1 /\ run g initial [s] 0%nat 0%nat (IV 5 2 2) = 0.
Proof.
  assert (NI : no_real ex_ds "iblank_cell") by (intros n [H|[H|[H|[H|[]]]]]; discriminate).
  assert (FA : first_real ex_ds "actuator_src_term" 1).
  { exists [DReal "velocity" 3; DReal "passive_scalar" 3; DInt "iblank_cell" 3]%Z, []. split; [reflexivity|].
    intros n [H|[H|[H|[]]]]; discriminate. }
  split; [exact NI|]. split; [exact FA|]. split; [right; right; left; reflexivity|].
  destruct (c103_mark ex_ds 3 None 1 NI FA ltac:(lia)) as (g & E & B). exists g. split; [exact E|]. cbn zeta.
  assert (T : given_or_tenth None (1 / 10)) by (right; split; reflexivity). cbn [run fold_left]. split.
  - match goal with |- do_step g ?t ?s ?l ?n ?c = _ => destruct (B _ t s l n c T) as (B1 & _ & _) end. apply B1.
    split; [unfold on_mesh; cbn; lia|]. right. cbn. lra.
  - match goal with |- do_step g ?t ?s ?l ?n ?c = _ => destruct (B _ t s l n c T) as (_ & B2 & _) end. rewrite B2; [reflexivity|].
    intros [_ [L|L]]; cbn in L; lra.
Qed.

(** *** C104 *)

Lemma pow_lt_compat_l' : forall x y n, 0 <= x < y -> (0 < n)%nat -> x ^ n < y ^ n.
Proof.
  intros x y n [A B] H. destruct n as [|n]; [lia|]. clear H. induction n as [|n IH]; [lra|].
  change (x * x ^ S n < y * y ^ S n). pose proof (pow_le x (S n) A) as P. nra.
Qed.

Lemma rate_spec : forall ce dx k, 0 < ce -> 0 < vx dx -> 0 < vy dx -> 0 < vz dx -> 0 <= k ->
  rate ce dx k (sqrt k / (ce * cell_scale dx)).
Proof.
  intros ce dx k C X Y Z K. unfold rate, cell_scale.
  assert (V : 0 < vx dx * vy dx * vz dx) by (apply Rmult_lt_0_compat; [apply Rmult_lt_0_compat|]; assumption).
  set (v := vx dx * vy dx * vz dx) in *.
  destruct (rcbrt_spec v (Rlt_le _ _ V)) as [P Q].
  assert (P' : 0 < rcbrt v) by (destruct P as [P|P]; [exact P|rewrite <- P in Q; lra]).
  set (h := rcbrt v) in *. pose proof (sqrt_pos k) as SP. pose proof (sqrt_sqrt k K) as SS. set (r := sqrt k) in *.
  split.
  - unfold Rdiv. apply Rmult_le_pos; [exact SP|]. left. apply Rinv_0_lt_compat. apply Rmult_lt_0_compat; assumption.
  - rewrite <- Q, <- SS. field. lra.
Qed.

Lemma compute_sdr_at : forall m ng ce dx tke sdr l n c,
  compute_sdr m ng ce dx tke sdr l n c =
  if Nat.ltb l (m_levels m) then
    if visited m ng l n c then sqrt (tke l n c) / (ce * cell_scale (dx l)) else sdr l n c
  else sdr l n c.
Proof.
  intros m ng ce dx tke sdr l n c. unfold compute_sdr.
  rewrite (levels_at (fun lev s => sdr_level m ng ce (dx lev) tke lev s)
    (fun l n c v => if visited m ng l n c then sqrt (tke l n c) / (ce * cell_scale (dx l)) else v)).
  - reflexivity.
  - intros lev u p q d. unfold sdr_level. destruct (Nat.eqb_spec p lev) as [->|]; reflexivity.
Qed.

(** After the start and after every step, whatever changes of the mesh came before, the rate in every cell and ghost
    cell of every level is that of the energy of that moment; there is only one such number. *)
Theorem c104_rate : forall ng ce sdr hs h l n c,
  0 < ce -> 0 < vx (h_dx h l) -> 0 < vy (h_dx h l) -> 0 < vz (h_dx h l) -> 0 <= h_tke h l n c ->
  on_mesh (h_mesh h) ng l n c ->
  rate ce (h_dx h l) (h_tke h l n c) (hrun ng ce sdr (hs ++ [h]) l n c) /\
  (forall w, rate ce (h_dx h l) (h_tke h l n c) w -> w = hrun ng ce sdr (hs ++ [h]) l n c).
Proof.
  intros ng ce sdr hs h l n c C X Y Z K M. unfold hrun. rewrite fold_left_app. cbn [fold_left].
  rewrite compute_sdr_at. apply visited_spec in M. destruct M as [-> ->].
  pose proof (rate_spec ce (h_dx h l) (h_tke h l n c) C X Y Z K) as R0. split; [exact R0|].
  intros w [W1 W2]. destruct R0 as [R1 R2]. set (r := sqrt (h_tke h l n c) / (ce * cell_scale (h_dx h l))) in *.
  assert (V : 0 < vx (h_dx h l) * vy (h_dx h l) * vz (h_dx h l)) by (apply Rmult_lt_0_compat; [apply Rmult_lt_0_compat|]; assumption).
  assert (E : (w * ce) ^ 6 = (r * ce) ^ 6).
  { apply Rmult_eq_reg_r with ((vx (h_dx h l) * vy (h_dx h l) * vz (h_dx h l)) ^ 2); [congruence|]. apply pow_nonzero. lra. }
  assert (A : 0 <= w * ce) by (apply Rmult_le_pos; lra). assert (B : 0 <= r * ce) by (apply Rmult_le_pos; lra).
  apply Rmult_eq_reg_r with ce; [|lra].
  destruct (Rtotal_order (w * ce) (r * ce)) as [L|[L|L]]; [|exact L|]; exfalso.
  - assert (S : (w * ce) ^ 6 < (r * ce) ^ 6) by (apply pow_lt_compat_l'; [split; assumption|lia]). lra.
  - assert (S : (r * ce) ^ 6 < (w * ce) ^ 6) by (apply pow_lt_compat_l'; [split; assumption|lia]). lra.
Qed.

(** Cells outside the levels and grids are left alone. *)
Theorem c104_frame : forall ng ce sdr hs h l n c,
  ~ on_mesh (h_mesh h) ng l n c ->
  hrun ng ce sdr (hs ++ [h]) l n c = h_move h (hrun ng ce sdr hs) l n c.
Proof.
  intros ng ce sdr hs h l n c N. unfold hrun. rewrite fold_left_app. cbn [fold_left]. rewrite compute_sdr_at.
  destruct (Nat.ltb l (m_levels (h_mesh h))) eqn:E1; [|reflexivity].
  destruct (visited (h_mesh h) ng l n c) eqn:E2; [|reflexivity].
  exfalso. apply N. apply visited_spec. split; assumption.
Qed.

(** Any other turbulence model stops the run. *)
Theorem c104_model : forall model ce,
  (model = "OneEqKsgsM84" -> hybrid_coeff model ce = Ret ce) /\ (model <> "OneEqKsgsM84" -> hybrid_coeff model ce = Abort).
Proof.
  intros model ce. unfold hybrid_coeff. split; intros H; destruct (String.eqb_spec model "OneEqKsgsM84"); congruence.
Qed.

(** Cells of one metre, a tenth for the coefficient, an energy of a quarter: a rate of five. *)
Example c104_example : rate (1 / 10) (V3 1 1 1) (1 / 4) 5.
Proof. unfold rate. cbn [vx vy vz]. split; lra. Qed.

Print Assumptions c103_mark.
Print Assumptions c103_ghost.
Print Assumptions c103_mask.
Print Assumptions c103_range.
Print Assumptions c103_kept.
Print Assumptions c103_fringe_refuted.
Print Assumptions c104_rate.
Print Assumptions c104_frame.
Print Assumptions c104_model.
