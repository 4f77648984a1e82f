From Coq Require Import Reals Lra ZArith List Bool Lia Permutation ZifyBool.
From Verif Require Import Base BoxR BoxRFacts Composite CompositeSpec CompositeProofs.
Import ListNotations.
Open Scope R_scope.

(** ---- where the finest value comes from ---- *)
Definition uncovered (ls : list glevel) (i : nat) (c : ivec) : Prop :=
  exists l, nth_error ls i = Some l /\ In c (lcells l) /\ level_mask l (skipn (S i) ls) c = 1%Z.

Lemma skipn_app_lt {A} : forall n (l1 l2 : list A), (n <= length l1)%nat ->
  skipn n (l1 ++ l2) = skipn n l1 ++ l2.
Proof.
  induction n as [|n IH]; intros l1 l2 H; [reflexivity|].
  destruct l1 as [|x l1]; [cbn in H; lia|]. cbn [app skipn]. apply IH. cbn in H. lia.
Qed.

Lemma finest_source f : forall ls, mesh_ok ls -> forall init a, ls = init ++ [a] ->
  forall x, in_box (g_dom a) x ->
  exists i c, uncovered ls i c /\ finest_value f (rev ls) x = f i c /\ (i = length init -> c = x).
Proof.
  induction ls as [|b ls IH] using rev_ind; intros M init a E x Hx; [destruct init; discriminate|].
  apply app_inj_tail in E. destruct E as [-> ->].
  destruct init as [|y init'].
  - cbn [app mesh_ok] in M. destruct M as (D & Cov & Ch). cbn [app rev] in *.
    exists 0%nat, x. split; [|split; [|reflexivity]].
    + exists a. split; [reflexivity|]. split; [apply in_lcells, Cov; exact Hx|reflexivity].
    + cbn [finest_value]. apply Cov, level_existsb in Hx. rewrite Hx. reflexivity.
  - destruct (@exists_last _ (y :: init') ltac:(discriminate)) as (ls' & l & E). rewrite E in *.
    rewrite <- app_assoc in *. cbn [app] in *.
    destruct (mesh_snoc ls' l a M) as (Ml & F & Na & Nl).
    rewrite rev_app_distr. cbn [rev app].
    change (finest_value f (a :: l :: rev ls') x) with
         (if existsb (fun b => inb b x) (g_boxes a) then f (length (l :: rev ls')) x
          else finest_value f (l :: rev ls') (icoarsen (g_ratio l) x)).
    cbn [length]. rewrite rev_length.
    destruct (existsb (fun b => inb b x) (g_boxes a)) eqn:X.
    + exists (S (length ls')), x. split; [|split; [reflexivity|]].
      * exists a. split; [|split].
        -- rewrite nth_error_app2 by lia. replace (S (length ls') - length ls')%nat with 1%nat by lia. reflexivity.
        -- apply in_lcells, level_existsb. exact X.
        -- rewrite skipn_all2; [reflexivity|]. rewrite app_length. cbn. lia.
      * reflexivity.
    + assert (Hc : in_box (g_dom l) (icoarsen (g_ratio l) x)).
      { destruct F as (P & Ed & _). rewrite Ed in Hx. apply (in_refine _ _ _ P). exact Hx. }
      destruct (IH Ml ls' l eq_refl _ Hc) as (i & c & (l0 & Nth & Inc & Msk) & V & Last).
      rewrite rev_app_distr in V. cbn [rev app] in V.
      assert (Hi : (i < length (ls' ++ [l]))%nat) by (apply nth_error_Some; congruence).
      rewrite app_length in Hi. cbn in Hi.
      exists i, c. split; [|split; [exact V|intros ->; rewrite app_length in Hi; cbn in Hi; lia]].
      exists l0. split; [|split; [exact Inc|]].
      * replace (ls' ++ [l; a]) with ((ls' ++ [l]) ++ [a]) by (rewrite <- app_assoc; reflexivity).
        rewrite nth_error_app1; [exact Nth|]. rewrite app_length. cbn. lia.
      * replace (ls' ++ [l; a]) with ((ls' ++ [l]) ++ [a]) by (rewrite <- app_assoc; reflexivity).
        rewrite skipn_app_lt by (rewrite app_length; cbn; lia).
        destruct (Nat.eq_dec i (length ls')) as [->|Ne].
        -- rewrite skipn_all2 by (rewrite app_length; cbn; lia). cbn [app level_mask].
           specialize (Last eq_refl). subst c.
           rewrite nth_error_app2 in Nth by lia. rewrite Nat.sub_diag in Nth. injection Nth as <-.
           fold (covered (g_ratio l) a (icoarsen (g_ratio l) x)).
           destruct (covered (g_ratio l) a (icoarsen (g_ratio l) x)) eqn:Y; [|reflexivity].
           apply (covered_iff l a x F), level_existsb in Y. congruence.
        -- destruct (skipn (S i) (ls' ++ [l])) as [|h t] eqn:Sk.
           ++ exfalso. assert (K : length (skipn (S i) (ls' ++ [l])) = 0%nat) by (rewrite Sk; reflexivity).
              rewrite skipn_length, app_length in K. cbn in K. lia.
           ++ cbn [app level_mask] in *. exact Msk.
Qed.

(** two integrands that agree where they matter *)
Lemma level_sums_ext um len f g : forall ls lev,
  (forall i l c, nth_error ls i = Some l -> In c (lcells l) -> f (lev + i)%nat c = g (lev + i)%nat c) ->
  level_sums um len f lev ls = level_sums um len g lev ls.
Proof.
  induction ls as [|l ls IH]; intros lev H; [reflexivity|]. cbn [level_sums].
  rewrite (IH (S lev)).
  - f_equal. apply rsum_ext. intros c Ic. specialize (H 0%nat l c eq_refl Ic). rewrite Nat.add_0_r in H. rewrite H. reflexivity.
  - intros i l' c Hn Hi. specialize (H (S i) l' c Hn Hi). rewrite Nat.add_succ_r in H. exact H.
Qed.

(** mean values *)
Lemma mesh_last ls : mesh_ok ls -> exists init a, ls = init ++ [a] /\ rev ls = a :: rev init.
Proof.
  destruct ls as [|l ls]; [intros []|]. intros _.
  destruct (@exists_last _ (l :: ls) ltac:(discriminate)) as (init & a & E).
  exists init, a. rewrite E. split; [reflexivity|]. rewrite rev_app_distr. reflexivity.
Qed.

Lemma finest_const len ls k : mesh_ok ls -> finest_integral len (fun _ _ => k) ls = k * prob_volume len.
Proof.
  intros M. destruct (mesh_last ls M) as (init & a & E & Er).
  destruct (mesh_facts len (fun _ _ => k) ls M init a E) as (D & _ & _ & _).
  unfold finest_integral. rewrite Er. rewrite <- Er.
  rewrite (rsum_ext _ (fun _ => k)).
  - rewrite rsum_const, <- (vol_domain len a D). ring.
  - intros x I. apply in_cells in I.
    destruct (finest_source (fun _ _ => k) ls M init a E x I) as (i & c & _ & V & _). exact V.
Qed.

Lemma finest_map f (g : R -> R) ls x : g 0 = 0 ->
  finest_value (fun i c => g (f i c)) ls x = g (finest_value f ls x).
Proof.
  intros G. revert x. induction ls as [|l ls IH]; intros x; cbn [finest_value]; [symmetry; exact G|].
  destruct (existsb _ _); [reflexivity|]. destruct ls as [|l' ls]; [symmetry; exact G|]. apply IH.
Qed.

(** the finest values as a list: mean = sum / number *)
Definition finest_list (f : nat -> ivec -> R) (ls : list glevel) : list R :=
  match rev ls with
  | [] => []
  | l :: _ => map (finest_value f (rev ls)) (cells (g_dom l))
  end.
Lemma mean_list len f ls : mesh_ok ls -> prob_volume len <> 0 ->
  (0 < length (finest_list f ls))%nat /\
  level_sums true len f 0 ls / prob_volume len = rsum (finest_list f ls) / INR (length (finest_list f ls)).
Proof.
  intros M V. rewrite (integral_once len f ls M).
  destruct (mesh_last ls M) as (init & a & E & Er).
  destruct (mesh_facts len f ls M init a E) as (D & _ & _ & _).
  pose proof (vol_domain len a D) as VD.
  unfold finest_integral, finest_list. rewrite Er, map_length.
  assert (L : INR (length (cells (g_dom a))) <> 0).
  { intros Z. apply V. rewrite <- VD, Z. ring. }
  split.
  - destruct (length (cells (g_dom a))) eqn:Q; [exfalso; apply L; reflexivity|lia].
  - assert (W : cell_vol len a <> 0) by (intros Z; apply V; rewrite <- VD, Z; ring).
    rewrite <- VD. field. split; assumption.
Qed.

Lemma finest_list_map f g ls : g 0 = 0 -> finest_list (fun i c => g (f i c)) ls = map g (finest_list f ls).
Proof.
  intros G. unfold finest_list. destruct (rev ls) as [|l r]; [reflexivity|].
  rewrite map_map. apply map_ext. intros x. apply finest_map. exact G.
Qed.
Lemma finest_list_source f ls v : mesh_ok ls -> In v (finest_list f ls) ->
  exists i c, uncovered ls i c /\ v = f i c.
Proof.
  intros M I. destruct (mesh_last ls M) as (init & a & E & Er). unfold finest_list in I. rewrite Er in I.
  rewrite <- Er in I. apply in_map_iff in I. destruct I as (x & <- & I). apply in_cells in I.
  destruct (finest_source f ls M init a E x I) as (i & c & U & V & _).
  exists i, c. split; [exact U|exact V].
Qed.

(** Cauchy-Schwarz for a mean *)
Lemma mean_square (l : list R) : (0 < length l)%nat ->
  (rsum l / INR (length l)) * (rsum l / INR (length l)) <= rsum (map (fun v => v * v) l) / INR (length l).
Proof.
  intros H. set (n := INR (length l)). assert (N : 0 < n) by (apply lt_0_INR; exact H).
  set (m := rsum l / n).
  assert (K : 0 <= rsum (map (fun v => (v - m) * (v - m)) l)).
  { apply rsum_nonneg. intros. apply Rle_0_sqr. }
  assert (E : forall m l, rsum (map (fun v => (v - m) * (v - m)) l)
      = rsum (map (fun v => v * v) l) - 2 * m * rsum l + INR (length l) * (m * m)).
  { clear. intros m. induction l as [|a l IH]; [cbn; ring|].
    cbn [map]. rewrite !rsum_cons, IH. change (length (a :: l)) with (S (length l)). rewrite S_INR. ring. }
  rewrite E in K. fold n in K. assert (S : rsum l = m * n) by (unfold m; field; lra). rewrite S in K.
  apply (Rmult_le_reg_r n); [exact N|]. replace (rsum (map (fun v => v * v) l) / n * n) with (rsum (map (fun v => v * v) l)) by (field; lra).
  lra.
Qed.
Lemma mean_le (l : list R) m : (0 < length l)%nat -> (forall v, In v l -> v <= m) -> rsum l / INR (length l) <= m.
Proof.
  intros H B. assert (N : 0 < INR (length l)) by (apply lt_0_INR; exact H).
  apply (Rmult_le_reg_r (INR (length l))); [exact N|].
  replace (rsum l / INR (length l) * INR (length l)) with (rsum l) by (field; lra).
  clear H N. induction l as [|a l IH]; [cbn; lra|].
  rewrite rsum_cons. change (length (a :: l)) with (S (length l)). rewrite S_INR.
  assert (a <= m) by (apply B; now left). assert (rsum l <= m * INR (length l)) by (apply IH; intros; apply B; now right). lra.
Qed.

(** magnitude *)
Lemma magnitude_spec : forall rest acc, 0 <= acc ->
  0 <= magnitude acc rest /\
  magnitude acc rest * magnitude acc rest = acc * acc + rsum (map (fun x => x * x) rest).
Proof.
  induction rest as [|x rest IH]; intros acc A; cbn [magnitude map]; [split; [exact A|cbn; ring]|].
  assert (S : 0 <= acc * acc + x * x) by (pose proof (Rle_0_sqr acc); pose proof (Rle_0_sqr x); unfold Rsqr in *; lra).
  destruct (IH _ (sqrt_pos (acc * acc + x * x))) as [P Q]. split; [exact P|].
  rewrite Q, (sqrt_def _ S), rsum_cons. ring.
Qed.
Lemma norm_value_spec l : norm_value l = sqrt (rsum (map (fun x => x * x) l)).
Proof.
  destruct l as [|x l]; [cbn; symmetry; apply sqrt_0|]. cbn [norm_value].
  destruct (magnitude_spec l (Rabs x) (Rabs_pos x)) as [P Q].
  symmetry. apply sqrt_lem_1; [apply rsum_nonneg; intros; apply Rle_0_sqr|exact P|].
  rewrite Q. cbn [map]. rewrite rsum_cons.
  rewrite <- Rabs_mult, (Rabs_right (x * x)); [reflexivity|]. apply Rle_ge, Rle_0_sqr.
Qed.
Lemma norm_value_nonneg l : 0 <= norm_value l.
Proof. rewrite norm_value_spec. apply sqrt_pos. Qed.

(** maxima over a list *)
Lemma fold_max_spec : forall l init,
  init <= fold_max init l /\ (forall v, In v l -> v <= fold_max init l) /\
  (fold_max init l = init \/ In (fold_max init l) l).
Proof.
  unfold fold_max. induction l as [|a l IH]; intros init; cbn [fold_left].
  - split; [lra|]. split; [intros v []|now left].
  - destruct (IH (rmax init a)) as (A & B & C).
    rewrite rmax_spec in *. pose proof (Rmax_l init a). pose proof (Rmax_r init a).
    split; [lra|]. split.
    + intros v [->|I]; [lra|exact (B v I)].
    + destruct C as [C|C]; [|right; right; exact C]. rewrite C.
      unfold Rmax; destruct (Rle_dec init a); [right; now left|now left].
Qed.
Lemma fold_min_spec : forall l init,
  fold_min init l <= init /\ (forall v, In v l -> fold_min init l <= v) /\
  (fold_min init l = init \/ In (fold_min init l) l).
Proof.
  unfold fold_min. induction l as [|a l IH]; intros init; cbn [fold_left].
  - split; [lra|]. split; [intros v []|now left].
  - destruct (IH (rmin init a)) as (A & B & C).
    rewrite rmin_spec in *. pose proof (Rmin_l init a). pose proof (Rmin_r init a).
    split; [lra|]. split.
    + intros v [->|I]; [lra|exact (B v I)].
    + destruct C as [C|C]; [|right; right; exact C]. rewrite C.
      unfold Rmin; destruct (Rle_dec init a); [now left|right; now left].
Qed.
