(** C108: what the library that connects overlapping meshes is told. *)
From Coq Require Import List ZArith Bool Lia Lra.
From Verif Require Import Base BoxR Tioga TiogaSpec.
Import ListNotations.
Open Scope R_scope.

Definition prank (x : nat * (R * R * R) * patch) : nat := p_rank (snd x).
Definition add_one (iproc : nat) (lo : R * R * R) (b : table) (x : nat * (R * R * R) * patch) : table :=
  add_patch iproc lo (fst (fst x)) (snd (fst x)) b (snd x).

Lemma levels_fold iproc lo : forall ls lev b, add_levels iproc lo lev ls b = fold_left (add_one iproc lo) (placed lev ls) b.
Proof.
  induction ls as [|l ls IH]; intros lev b; [reflexivity|]. cbn [add_levels placed]. rewrite IH, fold_left_app. f_equal.
  generalize (v_patches l). intros ps. revert b. induction ps as [|p ps IHp]; intros b; [reflexivity|]. cbn [fold_left map]. apply IHp.
Qed.

Lemma owned_snoc r q x : owned r (q ++ [x]) = owned r q ++ (if (prank x =? r)%nat then [length q] else []).
Proof.
  unfold owned. rewrite app_length, Nat.add_1_r, seq_S, filter_app. f_equal.
  - apply filter_ext_in. intros g G. apply in_seq in G. rewrite nth_error_app1 by lia. reflexivity.
  - cbn [filter plus]. rewrite nth_error_app2, Nat.sub_diag by lia. cbn [nth_error]. destruct x as [[lev dx] p]. unfold prank. cbn [snd].
    destruct (p_rank p =? r)%nat; reflexivity.
Qed.
Lemma owned_lt r q g : In g (owned r q) -> (g < length q)%nat.
Proof. unfold owned. intros H. apply filter_In in H. destruct H as [H _]. apply in_seq in H. lia. Qed.

Lemma table_inv iproc lo : forall q, let b := fold_left (add_one iproc lo) q (Table [] (fun _ => 0%nat) []) in
  length (b_entries b) = length q /\ b_idmap b = owned iproc q /\ (forall r, b_counts b r = length (owned r q)) /\
  (forall g x, nth_error q g = Some x -> exists e, nth_error (b_entries b) g = Some e /\ describes lo e x /\
     e_local e = length (owned (prank x) (firstn g q))).
Proof.
  induction q as [|x q IH] using rev_ind; intros b; subst b.
  - cbn. repeat split; try reflexivity. intros [|g] x H; discriminate.
  - rewrite fold_left_app. cbn [fold_left]. destruct IH as (I1 & I2 & I3 & I4).
    set (b := fold_left (add_one iproc lo) q (Table [] (fun _ => 0%nat) [])) in *.
    destruct x as [[lev dx] p]. destruct lo as [[lx ly] lz], dx as [[d0 d1] d2].
    unfold add_one, add_patch. cbn [fst snd b_entries b_counts b_idmap].
    split; [rewrite !app_length; cbn; lia|]. split; [|split].
    + rewrite owned_snoc, I2, I1. unfold prank. cbn [snd]. rewrite (Nat.eqb_sym iproc). destruct (p_rank p =? iproc)%nat; [reflexivity|].
      rewrite app_nil_r. reflexivity.
    + intros r. rewrite owned_snoc, app_length, I3. unfold prank. cbn [snd]. rewrite (Nat.eqb_sym r).
      destruct (p_rank p =? r)%nat; cbn [length]; lia.
    + intros g y H. destruct (Nat.lt_ge_cases g (length q)) as [L|L].
      * rewrite nth_error_app1 in H by exact L. destruct (I4 g y H) as (e & E1 & E2 & E3). exists e.
        rewrite nth_error_app1 by lia. split; [exact E1|]. split; [exact E2|]. rewrite firstn_app.
        replace (g - length q)%nat with 0%nat by lia. cbn [firstn]. rewrite app_nil_r. exact E3.
      * assert (G : g = length q).
        { assert (g < length (q ++ [(lev, (d0, d1, d2), p)]))%nat by (apply nth_error_Some; congruence). rewrite app_length in *. cbn in *. lia. }
        subst g. rewrite nth_error_app2, Nat.sub_diag in H by lia. cbn [nth_error] in H. injection H as <-.
        eexists. split; [rewrite nth_error_app2, I1, Nat.sub_diag by lia; reflexivity|]. split.
        -- unfold describes. cbn. repeat split; reflexivity.
        -- cbn [e_local]. rewrite I3, firstn_app, firstn_all, Nat.sub_diag. cbn [firstn]. rewrite app_nil_r. reflexivity.
Qed.

Lemma owned_index r : forall q k g, nth_error (owned r q) k = Some g -> length (owned r (firstn g q)) = k /\
  exists x, nth_error q g = Some x /\ prank x = r.
Proof.
  induction q as [|x q IH] using rev_ind; intros k g H; [destruct k; discriminate|]. rewrite owned_snoc in H.
  destruct (Nat.lt_ge_cases k (length (owned r q))) as [L|L].
  - rewrite nth_error_app1 in H by exact L. destruct (IH k g H) as (A & y & Y1 & Y2).
    assert (GL : (g < length q)%nat) by (apply (owned_lt r), nth_error_In with k; exact H).
    rewrite firstn_app. replace (g - length q)%nat with 0%nat by lia. cbn [firstn]. rewrite app_nil_r. split; [exact A|].
    exists y. rewrite nth_error_app1 by exact GL. split; assumption.
  - rewrite nth_error_app2 in H by exact L. destruct (Nat.eqb_spec (prank x) r) as [E|E]; [|destruct (k - _)%nat; discriminate].
    destruct (k - length (owned r q))%nat as [|j] eqn:K; [|destruct j; discriminate]. cbn [nth_error] in H. injection H as <-.
    rewrite firstn_app, firstn_all, Nat.sub_diag. cbn [firstn]. rewrite app_nil_r. split; [lia|].
    exists x. rewrite nth_error_app2, Nat.sub_diag by lia. split; [reflexivity|exact E].
Qed.

Lemma global_length : forall ls lev, fold_left (fun n l => n + length (v_patches l))%nat ls 0%nat = length (placed lev ls).
Proof.
  assert (G : forall ls n lev, fold_left (fun n l => n + length (v_patches l))%nat ls n = (n + length (placed lev ls))%nat).
  { induction ls as [|l ls IH]; intros n lev; cbn [fold_left placed]; [cbn; lia|]. rewrite (IH _ (S lev)), app_length, map_length. lia. }
  intros ls lev. rewrite (G ls 0%nat lev). reflexivity.
Qed.
Lemma owned_count r : forall q, length (owned r q) = length (filter (fun x => (prank x =? r)%nat) q).
Proof.
  induction q as [|x q IH] using rev_ind; [reflexivity|]. rewrite owned_snoc, filter_app, !app_length, IH. cbn [filter].
  destruct (prank x =? r)%nat; reflexivity.
Qed.
Lemma handed_placed iproc : forall ls lev, handed_over iproc ls = map snd (filter (fun x => (prank x =? iproc)%nat) (placed lev ls)).
Proof.
  induction ls as [|l ls IH]; intros lev; [reflexivity|]. unfold handed_over. cbn [flat_map placed]. fold (handed_over iproc ls).
  rewrite (IH (S lev)), filter_app, map_app. f_equal. generalize (v_patches l). induction l0 as [|p ps IHp]; [reflexivity|].
  cbn [map filter]. unfold prank at 1. cbn [snd]. destruct (p_rank p =? iproc)%nat; cbn [map snd]; rewrite IHp; reflexivity.
Qed.
Lemma local_length iproc : forall ls, ngrids_local iproc ls = length (handed_over iproc ls).
Proof.
  assert (P : forall ps n, fold_left (fun n p => if (p_rank p =? iproc)%nat then S n else n) ps n =
                           (n + length (filter (fun p => (p_rank p =? iproc)%nat) ps))%nat).
  { induction ps as [|p ps IH]; intros n; cbn [fold_left filter]; [cbn; lia|]. rewrite IH. destruct (p_rank p =? iproc)%nat; cbn; lia. }
  assert (G : forall ls n, fold_left (fun n l => fold_left (fun n p => if (p_rank p =? iproc)%nat then S n else n) (v_patches l) n) ls n =
                           (n + length (handed_over iproc ls))%nat).
  { induction ls as [|l ls IH]; intros n; cbn [fold_left]; [cbn; lia|]. rewrite IH, P. unfold handed_over at 2. cbn [flat_map].
    rewrite app_length. fold (handed_over iproc ls). lia. }
  intros ls. unfold ngrids_local. rewrite G. reflexivity.
Qed.
Lemma owned_filter r : forall q, map (fun g => nth_error q g) (owned r q) = map Some (filter (fun x => (prank x =? r)%nat) q).
Proof.
  induction q as [|x q IH] using rev_ind; [reflexivity|]. rewrite owned_snoc, filter_app, !map_app, <- IH. f_equal.
  - apply map_ext_in. intros g G. apply nth_error_app1. apply (owned_lt r). exact G.
  - cbn [filter]. destruct (prank x =? r)%nat; [|reflexivity]. cbn [map]. rewrite nth_error_app2, Nat.sub_diag by lia. reflexivity.
Qed.

(** The table has one entry for each patch of each level, in the sizes set aside for it, and each describes its patch; the
    list of a process has the places of its patches in order, its k-th patch has the local number k in the tables of all
    processes, and the k-th data handed over are those of that patch. *)
Theorem c108_patches : forall iproc lo ls,
  let b := patch_table iproc lo ls in
  let q := placed 0 ls in
  length (b_entries b) = ngrids_global ls /\ length (b_idmap b) = ngrids_local iproc ls /\
  (forall g x, nth_error q g = Some x -> exists e, nth_error (b_entries b) g = Some e /\ describes lo e x) /\
  b_idmap b = owned iproc q /\
  (forall r k g, nth_error (owned r q) k = Some g -> exists e, nth_error (b_entries b) g = Some e /\ e_rank e = r /\ e_local e = k) /\
  map (fun g => option_map snd (nth_error q g)) (b_idmap b) = map Some (handed_over iproc ls).
Proof.
  intros iproc lo ls b q. unfold b, patch_table. rewrite levels_fold. fold q.
  destruct (table_inv iproc lo q) as (I1 & I2 & I3 & I4). set (t := fold_left _ _ _) in *.
  split; [rewrite I1; unfold ngrids_global, q; symmetry; apply global_length|].
  split; [rewrite I2, owned_count, local_length, (handed_placed iproc ls 0), map_length; reflexivity|].
  split; [intros g x H; destruct (I4 g x H) as (e & E1 & E2 & _); exists e; auto|].
  split; [exact I2|]. split.
  - intros r k g H. destruct (owned_index r q k g H) as (A & x & X1 & X2). destruct (I4 g x X1) as (e & E1 & E2 & E3).
    exists e. split; [exact E1|]. rewrite X2 in E3. split; [|lia]. destruct x as [[lev dx] p]. destruct E2 as (_ & E2 & _).
    rewrite E2. exact X2.
  - rewrite I2, (handed_placed iproc ls 0). fold q. rewrite !map_map.
    transitivity (map (option_map snd) (map (fun g => nth_error q g) (owned iproc q))); [rewrite map_map; reflexivity|].
    rewrite owned_filter, map_map. reflexivity.
Qed.

(** *** Solution *)

Lemma scatter_other : forall vars i q f w, ~ In w vars -> scatter vars i q f w = f w.
Proof.
  induction vars as [|v vars IH]; intros i q f w N; [reflexivity|]. cbn [scatter]. rewrite IH by (intros J; apply N; right; exact J).
  destruct (Nat.eqb_spec w v) as [->|]; [exfalso; apply N; left; reflexivity|reflexivity].
Qed.
Lemma gather_ext : forall vars f g, (forall v, In v vars -> f v = g v) -> gather f vars = gather g vars.
Proof.
  induction vars as [|v vars IH]; intros f g H; [reflexivity|]. cbn [gather]. rewrite (H v (or_introl eq_refl)). f_equal.
  apply IH. intros w J. apply H. right. exact J.
Qed.
Lemma first_add {A} : forall n m (l : list A), firstn n l ++ firstn m (skipn n l) = firstn (n + m) l.
Proof. induction n as [|n IH]; intros m l; [reflexivity|]. destruct l as [|a l]; [cbn; rewrite firstn_nil; reflexivity|]. cbn. f_equal. apply IH. Qed.
Lemma skip_add {A} : forall i n (l : list A), skipn n (skipn i l) = skipn (i + n) l.
Proof. induction i as [|i IH]; intros n l; [reflexivity|]. destruct l as [|a l]; [cbn; apply skipn_nil|]. cbn. apply IH. Qed.
Lemma scatter_gather : forall vars i q f, NoDup vars -> (i + length (gather f vars) <= length q)%nat ->
  gather (scatter vars i q f) vars = firstn (length (gather f vars)) (skipn i q) /\
  (forall v, length (scatter vars i q f v) = length (f v)).
Proof.
  induction vars as [|v vars IH]; intros i q f ND L; [split; reflexivity|].
  inversion_clear ND as [|? ? NI ND']. cbn [scatter gather] in *. rewrite app_length in *.
  set (f1 := fun w => if (w =? v)%nat then firstn (length (f v)) (skipn i q) else f w).
  assert (G : gather f1 vars = gather f vars).
  { apply gather_ext. intros w J. unfold f1. destruct (Nat.eqb_spec w v) as [->|]; [contradiction|reflexivity]. }
  assert (F1 : forall w, length (f1 w) = length (f w)).
  { intros w. unfold f1. destruct (Nat.eqb_spec w v) as [->|]; [|reflexivity]. apply firstn_length_le. rewrite skipn_length. lia. }
  destruct (IH (i + length (f v))%nat q f1 ND' ltac:(rewrite G; lia)) as [I1 I2]. rewrite G in I1. split.
  - rewrite (scatter_other vars _ q f1 v NI), I1. unfold f1 at 1. rewrite Nat.eqb_refl, <- skip_add. apply first_add.
  - intros w. rewrite I2. apply F1.
Qed.
Lemma gather_inj : forall vars f g, (forall v, length (f v) = length (g v)) -> gather f vars = gather g vars ->
  forall v, In v vars -> f v = g v.
Proof.
  induction vars as [|v vars IH]; intros f g L E w J; [destruct J|]. cbn [gather] in E.
  assert (H : f v = g v /\ gather f vars = gather g vars).
  { assert (A : forall (a b c d : list R), length a = length b -> a ++ c = b ++ d -> a = b /\ c = d).
    { clear. induction a as [|x a IH]; intros [|y b] c d H E; cbn in *; try discriminate; [auto|].
      injection E as -> E. destruct (IH b c d ltac:(congruence) E) as [-> ->]. auto. }
    apply A; [apply L|exact E]. }
  destruct H as [H1 H2]. destruct J as [<-|J]; [exact H1|]. apply (IH f g L H2 w J).
Qed.

(** Each variable gets back exactly the components that belong to it, whatever the library writes; no other field is
    touched; and data that the library leaves alone come back unchanged. *)
Theorem c108_solution : forall f vars q, NoDup vars -> length q = length (gather f vars) ->
  let f' := scatter vars 0 q f in
  gather f' vars = q /\ (forall v, length (f' v) = length (f v)) /\ (forall w, ~ In w vars -> f' w = f w) /\
  (q = gather f vars -> forall v, f' v = f v).
Proof.
  intros f vars q ND L f'. destruct (scatter_gather vars 0 q f ND ltac:(lia)) as [S1 S2]. fold f' in S1, S2.
  cbn [skipn] in S1. rewrite <- L, firstn_all in S1. split; [exact S1|]. split; [exact S2|].
  split; [intros w N; apply scatter_other; exact N|]. intros E v. destruct (in_dec Nat.eq_dec v vars) as [J|J].
  - apply (gather_inj vars f' f S2); [congruence|exact J].
  - apply scatter_other. exact J.
Qed.

(** *** Calls *)

Lemma history_app : forall a b s, history (a ++ b) s = obind (history a s) (history b).
Proof. induction a as [|e a IH]; intros b s; [reflexivity|]. cbn [app history]. destruct (happens e s) as [s'| |]; cbn [obind]; auto. Qed.
Lemma host_after : forall es s, history es born = Ret s -> (l_host s = true <-> pending es).
Proof.
  induction es as [|e es IH] using rev_ind; intros s H.
  - cbn in H. injection H as <-. cbn. split; [discriminate|]. intros (a & b & E & _). destruct a; discriminate.
  - rewrite history_app in H. destruct (history es born) as [s1| |]; cbn [obind history] in H; try discriminate.
    specialize (IH s1 eq_refl).
    assert (KEEP : e <> Pre -> e <> Post -> (pending (es ++ [e]) <-> pending es)).
    { intros N1 N2. split; intros (a & b & E & NP).
      - destruct b as [|x b] using rev_ind; [apply app_inj_tail in E; destruct E; congruence|].
        change (a ++ Pre :: b ++ [x]) with (a ++ (Pre :: b) ++ [x]) in E. rewrite app_assoc in E. apply app_inj_tail in E. destruct E as [E _].
        exists a, b. split; [exact E|]. intros J. apply NP. apply in_or_app. left. exact J.
      - exists a, (b ++ [e]). split; [rewrite E, <- app_assoc; reflexivity|]. intros J. apply in_app_or in J.
        destruct J as [J|[J|[]]]; [exact (NP J)|congruence]. }
    destruct e; cbn [happens] in H; unfold to_iblank in H; cbn [l_table l_host andb] in H.
    + injection H as <-. cbn [l_host]. rewrite KEEP by discriminate. exact IH.
    + destruct (l_table s1); cbn [andb obind] in H; [|discriminate]. injection H as <-. cbn [l_host]. split; [|reflexivity]. intros _.
      exists es, []. split; [reflexivity|intros []].
    + destruct (l_host s1) eqn:HS; cbn [obind] in H; [|discriminate]. injection H as <-. cbn [l_host]. rewrite KEEP by discriminate. exact IH.
    + destruct (l_host s1) eqn:HS; cbn [obind] in H; [|discriminate]. injection H as <-. cbn [l_host]. split; [discriminate|].
      intros (a & b & E & NP). exfalso. destruct b as [|x b] using rev_ind; [apply app_inj_tail in E; destruct E; discriminate|].
      change (a ++ Pre :: b ++ [x]) with (a ++ (Pre :: b) ++ [x]) in E. rewrite app_assoc in E. apply app_inj_tail in E. destruct E as [_ E].
      apply NP. rewrite <- E. apply in_or_app. right. left. reflexivity.
    + destruct (l_host s1) eqn:HS; cbn [andb obind] in H; [|discriminate]. injection H as <-. cbn [l_host]. rewrite KEEP by discriminate. exact IH.
    + destruct (l_table s1); cbn [obind] in H; [|discriminate]. injection H as <-. cbn [l_host]. rewrite KEEP by discriminate. exact IH.
    + destruct (l_sol s1); cbn [obind] in H; [|discriminate]. injection H as <-. cbn [l_host]. rewrite KEEP by discriminate. exact IH.
Qed.

(** A regrid is only possible inside a connectivity update.  Everywhere else, before the first update and after each one,
    it reads copies of the blanking that do not exist. *)
Theorem c108_regrid_refuted : forall es s, history es born = Ret s -> (history (es ++ [Regrid]) born = UB <-> ~ pending es).
Proof.
  intros es s H. rewrite history_app, H. cbn [obind history happens]. unfold to_iblank. cbn [l_table l_host andb].
  rewrite <- (host_after es s H). destruct (l_host s); cbn [obind]; split; try discriminate; try reflexivity; intros K; exfalso; apply K; reflexivity.
Qed.

Lemma mask_kept : forall a s s', no_mask a -> history a s = Ret s' -> l_mask s' = l_mask s.
Proof.
  induction a as [|e a IH]; intros s s' (N1 & N2 & N3) H; cbn [history] in H; [injection H as <-; reflexivity|].
  destruct (happens e s) as [s1| |] eqn:E; cbn [obind] in H; try discriminate.
  rewrite (IH s1 s'); [|repeat split; intros J; [apply N1|apply N2|apply N3]; right; exact J|exact H].
  destruct e; cbn [happens] in E; unfold to_iblank in E; cbn [l_table l_host andb] in E.
  - exfalso. apply N1. left. reflexivity.
  - destruct (l_table s); cbn [andb obind] in E; [|discriminate]. injection E as <-. reflexivity.
  - destruct (l_host s); [|discriminate]. injection E as <-. reflexivity.
  - exfalso. apply N3. left. reflexivity.
  - exfalso. apply N2. left. reflexivity.
  - destruct (l_table s); [|discriminate]. injection E as <-. reflexivity.
  - destruct (l_sol s); [|discriminate]. injection E as <-. reflexivity.
Qed.

(** The solvers leave out exactly the cells that the last connectivity update blanked, until the next update or regrid; a
    cell that the update does not speak about is solved; from the start, or from a regrid, until the next update no cell is
    left out. *)
Theorem c108_mask : forall es a ib s,
  (history (es ++ [Pre; Conn ib; Post] ++ a) born = Ret s -> no_mask a -> l_mask s = Z.max ib 0) /\
  (history (es ++ [Pre; Post] ++ a) born = Ret s -> no_mask a -> l_mask s = 1%Z) /\
  (history (es ++ [Init] ++ a) born = Ret s -> no_mask a -> l_mask s = 1%Z) /\
  (history (es ++ [Regrid] ++ a) born = Ret s -> no_mask a -> l_mask s = 1%Z).
Proof.
  intros es a ib s. repeat split; intros H N; rewrite history_app in H; destruct (history es born) as [s1| |]; cbn [obind] in H; try discriminate;
    rewrite history_app in H; cbn [history happens] in H; unfold to_iblank in H; cbn [l_table l_host andb] in H.
  - destruct (l_table s1); cbn [andb obind l_host l_table l_sol l_blank l_mask] in H; [|discriminate].
    apply (mask_kept _ _ _ N) in H. exact H.
  - destruct (l_table s1); cbn [andb obind l_host l_table l_sol l_blank l_mask] in H; [|discriminate].
    apply (mask_kept _ _ _ N) in H. exact H.
  - cbn [obind] in H. apply (mask_kept _ _ _ N) in H. exact H.
  - destruct (l_host s1); cbn [andb obind l_host l_table l_sol l_blank l_mask] in H; [|discriminate].
    apply (mask_kept _ _ _ N) in H. exact H.
Qed.

Lemma sol_after : forall es s, history es born = Ret s -> (l_sol s = true <-> registered es).
Proof.
  induction es as [|e es IH] using rev_ind; intros s H.
  - cbn in H. injection H as <-. cbn. split; [discriminate|]. intros (a & b & E & _). destruct a; discriminate.
  - rewrite history_app in H. destruct (history es born) as [s1| |]; cbn [obind history] in H; try discriminate.
    specialize (IH s1 eq_refl).
    assert (KEEP : e <> Register -> e <> Update -> (registered (es ++ [e]) <-> registered es)).
    { intros N1 N2. split; intros (a & b & E & NP).
      - destruct b as [|x b] using rev_ind; [apply app_inj_tail in E; destruct E; congruence|].
        change (a ++ Register :: b ++ [x]) with (a ++ (Register :: b) ++ [x]) in E. rewrite app_assoc in E. apply app_inj_tail in E.
        destruct E as [E _]. exists a, b. split; [exact E|]. intros J. apply NP. apply in_or_app. left. exact J.
      - exists a, (b ++ [e]). split; [rewrite E, <- app_assoc; reflexivity|]. intros J. apply in_app_or in J.
        destruct J as [J|[J|[]]]; [exact (NP J)|congruence]. }
    destruct e; cbn [happens] in H; unfold to_iblank in H; cbn [l_table l_host andb] in H.
    + injection H as <-. cbn [l_sol]. rewrite KEEP by discriminate. exact IH.
    + destruct (l_table s1); cbn [andb obind] in H; [|discriminate]. injection H as <-. cbn [l_sol]. rewrite KEEP by discriminate. exact IH.
    + destruct (l_host s1); cbn [obind] in H; [|discriminate]. injection H as <-. cbn [l_sol]. rewrite KEEP by discriminate. exact IH.
    + destruct (l_host s1); cbn [obind] in H; [|discriminate]. injection H as <-. cbn [l_sol]. rewrite KEEP by discriminate. exact IH.
    + destruct (l_host s1); cbn [andb obind] in H; [|discriminate]. injection H as <-. cbn [l_sol]. rewrite KEEP by discriminate. exact IH.
    + destruct (l_table s1); cbn [obind] in H; [|discriminate]. injection H as <-. cbn [l_sol]. split; [|reflexivity]. intros _.
      exists es, []. split; [reflexivity|intros []].
    + destruct (l_sol s1); cbn [obind] in H; [|discriminate]. injection H as <-. cbn [l_sol]. split; [discriminate|].
      intros (a & b & E & NP). exfalso. destruct b as [|x b] using rev_ind; [apply app_inj_tail in E; destruct E; discriminate|].
      change (a ++ Register :: b ++ [x]) with (a ++ (Register :: b) ++ [x]) in E. rewrite app_assoc in E. apply app_inj_tail in E.
      destruct E as [_ E]. apply NP. rewrite <- E. apply in_or_app. right. left. reflexivity.
Qed.

(** Values can be taken back exactly when some were handed over since the last time they were. *)
Theorem c108_take_back : forall es s, history es born = Ret s ->
  (registered es -> exists s', history (es ++ [Update]) born = Ret s') /\ (~ registered es -> history (es ++ [Update]) born = UB).
Proof.
  intros es s H. rewrite history_app, H. cbn [obind history happens]. pose proof (sol_after es s H) as S.
  destruct (l_sol s); split; intros K; cbn [obind]; [eauto|exfalso; apply K, S; reflexivity|apply S in K; discriminate|reflexivity].
Qed.

(** *** Cases that meet the hypotheses *)

Definition ex_mesh : list mesh_level :=
  [Lev (1, 1, 1) [Patch 0 (IV 0 0 0) (IV 7 7 7); Patch 1 (IV 8 0 0) (IV 15 7 7)];
   Lev (1 / 2, 1 / 2, 1 / 2) [Patch 1 (IV 4 4 4) (IV 11 11 11)]].
Example c108_patches_example : owned 1 (placed 0 ex_mesh) = [1; 2]%nat /\ ngrids_global ex_mesh = 3%nat /\
  map e_local (b_entries (patch_table 0 (0, 0, 0) ex_mesh)) = [0; 0; 1]%nat.
Proof. repeat split; reflexivity. Qed.
Example c108_solution_example : scatter [0; 1]%nat 0 [1; 2; 3; 4] (fun v => match v with O => [0; 0; 0] | _ => [0] end) 1%nat = [4].
Proof. reflexivity. Qed.
Example c108_calls_example : exists s, history [Init; Pre; Conn (-1); Post; Register; Update] born = Ret s /\ l_mask s = 0%Z /\
  history [Init; Pre; Conn (-1); Post; Register; Update; Regrid] born = UB.
Proof. eexists. repeat split; reflexivity. Qed.

Print Assumptions c108_patches.
Print Assumptions c108_solution.
Print Assumptions c108_regrid_refuted.
Print Assumptions c108_mask.
Print Assumptions c108_take_back.
