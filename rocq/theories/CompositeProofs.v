From Coq Require Import Reals Lra ZArith List Bool Lia Permutation ZifyBool.
From Verif Require Import Base BoxR BoxRFacts Composite CompositeSpec.
Import ListNotations.
Open Scope R_scope.

Lemma iv_eq a b : iv0 a = iv0 b -> iv1 a = iv1 b -> iv2 a = iv2 b -> a = b.
Proof. destruct a, b; cbn; intros -> -> ->; reflexivity. Qed.

Lemma inb_spec b c : inb b c = true <-> in_box b c.
Proof. unfold inb, in_box. lia. Qed.

Lemma in_lcells l c : In c (lcells l) <-> in_level l c.
Proof.
  unfold lcells, in_level. rewrite in_flat_map. split; intros (b & I & H); exists b; (split; [exact I|]);
    apply in_cells; exact H.
Qed.

Lemma div_iff r x c : (0 < r)%Z -> ((x / r = c) <-> (c * r <= x <= (c + 1) * r - 1))%Z.
Proof.
  intros P. pose proof (Z.div_mod x r ltac:(lia)) as E. pose proof (Z.mod_pos_bound x r P) as M.
  split; intros H.
  - subst c. nia.
  - symmetry. apply (Z.div_unique x r c (x - c * r)); nia.
Qed.

Lemma in_refine r b x : positive r ->
  (in_box (refine_box r b) x <-> in_box b (icoarsen r x)).
Proof.
  intros (P0 & P1 & P2). unfold in_box, refine_box, icoarsen. cbn [blo bhi iv0 iv1 iv2].
  assert (H : forall r lo hi x, (0 < r)%Z -> ((lo * r <= x <= (hi + 1) * r - 1) <-> (lo <= x / r <= hi))%Z).
  { intros q lo hi y P. pose proof (Z.div_mod y q ltac:(lia)). pose proof (Z.mod_pos_bound y q P).
    split; intros; nia. }
  rewrite (H _ _ _ _ P0), (H _ _ _ _ P1), (H _ _ _ _ P2). reflexivity.
Qed.

Definition children (r c : ivec) : list ivec := cells (refine_box r (Box c c)).
Lemma in_children r c x : positive r -> (In x (children r c) <-> icoarsen r x = c).
Proof.
  intros P. unfold children. rewrite in_cells, (in_refine r _ x P). unfold in_box. cbn [blo bhi].
  split.
  - intros H. apply iv_eq; lia.
  - intros <-. lia.
Qed.

Lemma length_children r c : positive r ->
  INR (length (children r c)) = IZR (iv0 r) * IZR (iv1 r) * IZR (iv2 r).
Proof.
  intros (P0 & P1 & P2). unfold children, cells, refine_box. cbn [blo bhi iv0 iv1 iv2].
  assert (L : forall (f : Z -> list ivec) n l, (forall x, In x l -> length (f x) = n) ->
     length (flat_map f l) = (length l * n)%nat).
  { intros f n. induction l as [|a l IH]; intros H; [reflexivity|].
    cbn [flat_map]. rewrite app_length, (H a (or_introl eq_refl)), IH; [|intros; apply H; now right].
    reflexivity. }
  rewrite (L _ (Z.to_nat (iv1 r) * Z.to_nat (iv0 r))%nat).
  - rewrite length_zrange.
    replace ((iv2 c + 1) * iv2 r - 1 - iv2 c * iv2 r + 1)%Z with (iv2 r) by ring.
    rewrite !mult_INR, !INR_IZR_INZ, !Z2Nat.id by lia. ring.
  - intros k _. rewrite (L _ (Z.to_nat (iv0 r))).
    + rewrite length_zrange. f_equal. f_equal. ring.
    + intros j _. rewrite map_length, length_zrange. f_equal. ring.
Qed.

Lemma refine_perm r b : positive r ->
  Permutation (cells (refine_box r b)) (flat_map (children r) (cells b)).
Proof.
  intros P. apply NoDup_Permutation.
  - apply NoDup_cells.
  - apply NoDup_flat_map; [apply NoDup_cells| |].
    + intros c _. apply NoDup_cells.
    + intros x y z _ _ Hx Hy. apply (in_children r x z P) in Hx. apply (in_children r y z P) in Hy.
      congruence.
  - intros x. rewrite in_cells, in_flat_map, (in_refine r b x P). split.
    + intros H. exists (icoarsen r x). split; [apply in_cells; exact H|].
      apply (in_children r _ x P). reflexivity.
    + intros (c & I & H). apply (in_children r c x P) in H. subst c. apply in_cells. exact I.
Qed.

Lemma sum_coarsen r b (g : ivec -> R) : positive r ->
  rsum (map (fun x => g (icoarsen r x)) (cells (refine_box r b)))
  = IZR (iv0 r) * IZR (iv1 r) * IZR (iv2 r) * rsum (map g (cells b)).
Proof.
  intros P.
  rewrite (rsum_perm _ _ (Permutation_map (fun x => g (icoarsen r x)) (refine_perm r b P))).
  rewrite rsum_flat_map.
  rewrite (rsum_ext _ (fun c => g c * (IZR (iv0 r) * IZR (iv1 r) * IZR (iv2 r))) (cells b)).
  - rewrite rsum_scale. ring.
  - intros c _. rewrite (rsum_ext _ (fun _ => g c)).
    + rewrite rsum_const, (length_children r c P). ring.
    + intros x I. apply (in_children r c x P) in I. rewrite I. reflexivity.
Qed.

(** cell volumes *)
Lemma ncells_refine r b d : ncells (refine_box r b) d = (ncells b d * icomp r d)%Z.
Proof.
  unfold ncells, refine_box, icomp. cbn [blo bhi iv0 iv1 iv2].
  destruct (d =? 0)%Z; [ring|]. destruct (d =? 1)%Z; ring.
Qed.
Definition dom_pos (l : glevel) : Prop :=
  (0 < ncells (g_dom l) 0 /\ 0 < ncells (g_dom l) 1 /\ 0 < ncells (g_dom l) 2)%Z.
Lemma vol_refine len a b : dom_pos a -> finer_ok a b ->
  cell_vol len a = IZR (iv0 (g_ratio a)) * IZR (iv1 (g_ratio a)) * IZR (iv2 (g_ratio a)) * cell_vol len b.
Proof.
  intros (D0 & D1 & D2) ((P0 & P1 & P2) & E & _). unfold cell_vol, cell_size.
  rewrite E, !ncells_refine, !mult_IZR. unfold icomp. cbn [Z.eqb Pos.eqb].
  apply IZR_lt in D0, D1, D2, P0, P1, P2. field. repeat split; lra.
Qed.
Lemma dom_pos_refine a b : dom_pos a -> finer_ok a b -> dom_pos b.
Proof.
  intros (D0 & D1 & D2) ((P0 & P1 & P2) & E & _). unfold dom_pos.
  rewrite E, !ncells_refine. unfold icomp. cbn [Z.eqb Pos.eqb].
  repeat split; apply Z.mul_pos_pos; assumption.
Qed.
Lemma vol_domain len l : dom_pos l ->
  cell_vol len l * INR (length (cells (g_dom l))) = prob_volume len.
Proof.
  intros (D0 & D1 & D2).
  set (r := IV (ncells (g_dom l) 0) (ncells (g_dom l) 1) (ncells (g_dom l) 2)).
  assert (L : INR (length (cells (g_dom l))) =
     IZR (ncells (g_dom l) 0) * IZR (ncells (g_dom l) 1) * IZR (ncells (g_dom l) 2)).
  { unfold cells.
    assert (L : forall (f : Z -> list ivec) n l, (forall x, In x l -> length (f x) = n) ->
     length (flat_map f l) = (length l * n)%nat).
    { intros f n. induction l0 as [|a l0 IH]; intros H; [reflexivity|].
      cbn [flat_map]. rewrite app_length, (H a (or_introl eq_refl)), IH; [|intros; apply H; now right].
      reflexivity. }
    rewrite (L _ (Z.to_nat (ncells (g_dom l) 1) * Z.to_nat (ncells (g_dom l) 0))%nat).
    - rewrite length_zrange. fold (ncells (g_dom l) 2).
      change (iv2 (bhi (g_dom l)) - iv2 (blo (g_dom l)) + 1)%Z with (ncells (g_dom l) 2).
      rewrite !mult_INR, !INR_IZR_INZ, !Z2Nat.id by lia. ring.
    - intros k _. rewrite (L _ (Z.to_nat (ncells (g_dom l) 0))).
      + rewrite length_zrange. reflexivity.
      + intros j _. rewrite map_length, length_zrange. reflexivity. }
  rewrite L. unfold cell_vol, cell_size, prob_volume.
  apply IZR_lt in D0, D1, D2. field. repeat split; lra.
Qed.

(** coverage by the coarsened boxes *)
Definition covered (r : ivec) (f : glevel) (c : ivec) : bool :=
  existsb (fun b => inb (bcoarsen r b) c) (g_boxes f).
Lemma div_clamp r lo hi x : (0 < r)%Z -> (lo <= hi)%Z -> (lo / r <= x / r <= hi / r)%Z ->
  (exists y, lo <= y <= hi /\ y / r = x / r)%Z.
Proof.
  intros P L [A B]. destruct (Z_lt_ge_dec x lo) as [H|H].
  - exists lo. split; [lia|]. pose proof (Z.div_le_mono x lo r P ltac:(lia)). lia.
  - destruct (Z_lt_ge_dec hi x) as [H'|H'].
    + exists hi. split; [lia|]. pose proof (Z.div_le_mono hi x r P ltac:(lia)). lia.
    + exists x. lia.
Qed.
Lemma covered_iff a f x : finer_ok a f ->
  (covered (g_ratio a) f (icoarsen (g_ratio a) x) = true <-> in_level f x).
Proof.
  intros (P & _ & Al & _). unfold covered. rewrite existsb_exists. split.
  - intros (b & I & H). exists b. split; [exact I|]. destruct (Al b I) as [Ne A].
    apply inb_spec in H. unfold in_box, bcoarsen, icoarsen in H. cbn [blo bhi iv0 iv1 iv2] in H.
    unfold in_box in Ne. destruct P as (P0 & P1 & P2).
    destruct (div_clamp _ (iv0 (blo b)) (iv0 (bhi b)) (iv0 x) P0 ltac:(lia) ltac:(lia)) as (y0 & B0 & E0).
    destruct (div_clamp _ (iv1 (blo b)) (iv1 (bhi b)) (iv1 x) P1 ltac:(lia) ltac:(lia)) as (y1 & B1 & E1).
    destruct (div_clamp _ (iv2 (blo b)) (iv2 (bhi b)) (iv2 x) P2 ltac:(lia) ltac:(lia)) as (y2 & B2 & E2).
    apply (A x (IV y0 y1 y2)).
    + unfold in_box. cbn [iv0 iv1 iv2]. lia.
    + unfold icoarsen. cbn [iv0 iv1 iv2]. rewrite E0, E1, E2. reflexivity.
  - intros (b & I & H). exists b. split; [exact I|]. apply inb_spec.
    unfold in_box, bcoarsen, icoarsen in *. cbn [blo bhi iv0 iv1 iv2].
    destruct P as (P0 & P1 & P2).
    repeat split; apply Z.div_le_mono; lia.
Qed.

(** adding a finer level *)
Definition lsum (len : Z -> R) (l : glevel) (g : ivec -> R) : R :=
  cell_vol len l * rsum (map g (lcells l)).
Lemma level_sums_snoc len f : forall ls lev a b,
  level_sums true len f lev (ls ++ [a; b])
  = level_sums true len f lev (ls ++ [a])
    - lsum len a (fun c => if covered (g_ratio a) b c then f (lev + length ls)%nat c else 0)
    + lsum len b (f (S (lev + length ls))).
Proof.
  induction ls as [|l ls IH]; intros lev a b.
  - cbn [app level_sums level_mask length]. rewrite Nat.add_0_r. unfold lsum.
    rewrite (rsum_ext _ (fun c => (if covered (g_ratio a) b c then 0 else f lev c) * cell_vol len a)).
    2:{ intros c _. fold (covered (g_ratio a) b c). destruct (covered (g_ratio a) b c); ring. }
    rewrite rsum_scale.
    rewrite (rsum_ext (fun c => cell_vol len b * 1 * f (S lev) c) (fun c => f (S lev) c * cell_vol len b)) by (intros; ring).
    rewrite rsum_scale.
    rewrite (rsum_ext (fun c => cell_vol len a * 1 * f lev c)
       (fun c => (if covered (g_ratio a) b c then f lev c else 0) * cell_vol len a
                 + (if covered (g_ratio a) b c then 0 else f lev c) * cell_vol len a)).
    2:{ intros c _. destruct (covered (g_ratio a) b c); ring. }
    rewrite rsum_plus, !rsum_scale. ring.
  - cbn [app level_sums length]. rewrite IH. rewrite Nat.add_succ_l, Nat.add_succ_r.
    assert (E : forall c, level_mask l (ls ++ [a; b]) c = level_mask l (ls ++ [a]) c).
    { intros c. destruct ls; reflexivity. }
    rewrite (rsum_ext _ (fun c => cell_vol len l * IZR (level_mask l (ls ++ [a]) c) * f lev c)).
    2:{ intros c _. rewrite E. reflexivity. }
    ring.
Qed.

Lemma chain_snoc : forall ls a b, chain (ls ++ [a; b]) -> chain (ls ++ [a]) /\ finer_ok a b /\ no_overlap b /\ no_overlap a.
Proof.
  induction ls as [|l ls IH]; intros a b H.
  - cbn [app chain] in *. destruct H as (A & F & B & _ & _).
    exact (conj (conj A (conj I I)) (conj F (conj B A))).
  - cbn [app chain] in *. destruct H as (A & F & C). destruct (IH a b C) as (D & G & K).
    split; [|split; assumption]. split; [exact A|]. split; [|exact D].
    destruct ls; cbn [app] in *; exact F.
Qed.
Lemma mesh_snoc ls a b : mesh_ok (ls ++ [a; b]) -> mesh_ok (ls ++ [a]) /\ finer_ok a b /\ no_overlap b /\ no_overlap a.
Proof.
  intros H. destruct ls as [|l ls].
  - cbn [app mesh_ok] in *. destruct H as (D & E & C). destruct (chain_snoc [] a b C) as (C' & F).
    split; [|exact F]. split; [exact D|]. split; [exact E|exact C'].
  - change ((l :: ls) ++ [a; b]) with (l :: (ls ++ [a; b])) in H.
    cbn [mesh_ok] in H. destruct H as (D & E & C).
    destruct (chain_snoc (l :: ls) a b C) as (C' & F).
    split; [|exact F]. change ((l :: ls) ++ [a]) with (l :: (ls ++ [a])). cbn [mesh_ok].
    split; [exact D|]. split; [exact E|exact C'].
Qed.

Lemma rsum_split {A} (p : A -> bool) (f : A -> R) l :
  rsum (map f l) = rsum (map f (filter p l)) + rsum (map (fun x => if p x then 0 else f x) l).
Proof.
  rewrite rsum_filter, <- rsum_plus. apply rsum_ext. intros x _. destruct (p x); ring.
Qed.

Lemma level_existsb l c : existsb (fun b => inb b c) (g_boxes l) = true <-> in_level l c.
Proof.
  rewrite existsb_exists. unfold in_level. split; intros (b & I & H); exists b; (split; [exact I|]); apply inb_spec; exact H.
Qed.

(** every level inside its domain, and the integral *)
Theorem mesh_facts len f : forall ls, mesh_ok ls -> forall init a, ls = init ++ [a] ->
  dom_pos a /\ (forall c, in_level a c -> in_box (g_dom a) c) /\ no_overlap a /\
  level_sums true len f 0 ls = finest_integral len f ls.
Proof.
  induction ls as [|b ls IH] using rev_ind; intros M init a E; [destruct init; discriminate|].
  apply app_inj_tail in E. destruct E as [-> ->].
  destruct init as [|x init'].
  - cbn [app] in *. cbn [mesh_ok] in M. destruct M as (D & Cov & Ch). cbn [chain] in Ch.
    destruct Ch as (N & _ & _).
    split; [exact D|]. split; [intros c; apply Cov|]. split; [exact N|].
    unfold finest_integral. cbn [rev app level_sums level_mask].
    rewrite (rsum_ext _ (fun c => f 0%nat c * cell_vol len a)) by (intros; ring).
    rewrite rsum_scale, Rplus_0_r.
    assert (P : Permutation (lcells a) (cells (g_dom a))).
    { apply NoDup_Permutation; [exact N|apply NoDup_cells|]. intros c. rewrite in_lcells, in_cells. apply Cov. }
    rewrite (rsum_perm _ _ (Permutation_map (f 0%nat) P)), Rmult_comm. f_equal.
    apply rsum_ext. intros c I. cbn [finest_value].
    apply in_cells in I. apply Cov in I. apply level_existsb in I. rewrite I. reflexivity.
  - destruct (@exists_last _ (x :: init') ltac:(discriminate)) as (ls' & l & E). rewrite E in *.
    rewrite <- app_assoc in M. cbn [app] in M.
    destruct (mesh_snoc ls' l a M) as (Ml & F & Na & Nl).
    destruct (IH Ml ls' l eq_refl) as (Dl & Il & _ & S).
    assert (Ia : forall c, in_level a c -> in_box (g_dom a) c).
    { intros c Hc. destruct F as (P & Ed & _ & Nest). rewrite Ed. apply (in_refine _ _ _ P).
      apply Il. apply Nest. exact Hc. }
    split; [exact (dom_pos_refine l a Dl F)|]. split; [exact Ia|]. split; [exact Na|].
    rewrite <- app_assoc. cbn [app]. rewrite level_sums_snoc, S. cbn [Nat.add].
    unfold finest_integral. rewrite !rev_app_distr. cbn [rev app].
    set (n := length ls').
    set (val := finest_value f (l :: rev ls')).
    (* the new sum *)
    rewrite (rsum_ext (finest_value f (a :: l :: rev ls'))
       (fun y => if existsb (fun b => inb b y) (g_boxes a) then f (Datatypes.S n) y
                 else val (icoarsen (g_ratio l) y))).
    2:{ intros y _. change (finest_value f (a :: l :: rev ls') y) with
         (if existsb (fun b => inb b y) (g_boxes a) then f (length (l :: rev ls')) y
          else finest_value f (l :: rev ls') (icoarsen (g_ratio l) y)).
        cbn [length]. rewrite rev_length. reflexivity. }
    rewrite (rsum_split (fun y => existsb (fun b => inb b y) (g_boxes a)) _ (cells (g_dom a))).
    assert (P1 : Permutation (filter (fun y => existsb (fun b => inb b y) (g_boxes a)) (cells (g_dom a))) (lcells a)).
    { apply NoDup_Permutation; [apply NoDup_filter, NoDup_cells|exact Na|].
      intros c. rewrite filter_In, in_cells, in_lcells. rewrite level_existsb.
      split; [intros [_ H]; exact H|]. intros H. split; [apply Ia; exact H|exact H]. }
    rewrite (rsum_perm _ _ (Permutation_map _ P1)).
    rewrite (rsum_ext _ (f (Datatypes.S n)) (lcells a)).
    2:{ intros c I. apply in_lcells, level_existsb in I. rewrite I. reflexivity. }
    assert (K : rsum (map (fun y => if existsb (fun b => inb b y) (g_boxes a) then 0
                 else (if existsb (fun b => inb b y) (g_boxes a) then f (Datatypes.S n) y
                       else val (icoarsen (g_ratio l) y))) (cells (g_dom a)))
       = IZR (iv0 (g_ratio l)) * IZR (iv1 (g_ratio l)) * IZR (iv2 (g_ratio l)) *
         (rsum (map val (cells (g_dom l)))
          - rsum (map (fun c => if covered (g_ratio l) a c then f n c else 0) (lcells l)))).
    { rewrite (rsum_ext _ (fun y => (fun c => if covered (g_ratio l) a c then 0 else val c) (icoarsen (g_ratio l) y))).
      2:{ intros y _. cbv beta.
          destruct (existsb (fun b => inb b y) (g_boxes a)) eqn:X.
          - apply level_existsb in X. rewrite (proj2 (covered_iff l a y F) X). reflexivity.
          - destruct (covered (g_ratio l) a (icoarsen (g_ratio l) y)) eqn:Y; [|reflexivity].
            apply (covered_iff l a y F) in Y. apply level_existsb in Y. congruence. }
      destruct F as (P & Ed & Al & Nest). rewrite Ed.
      rewrite (sum_coarsen (g_ratio l) (g_dom l) (fun c => if covered (g_ratio l) a c then 0 else val c) P).
      f_equal.
      rewrite (rsum_split (covered (g_ratio l) a) val (cells (g_dom l))).
      enough (Q : rsum (map val (filter (covered (g_ratio l) a) (cells (g_dom l))))
                = rsum (map (fun c => if covered (g_ratio l) a c then f n c else 0) (lcells l))) by (rewrite Q; ring).
      rewrite <- rsum_filter.
      assert (CovLev : forall c, covered (g_ratio l) a c = true -> in_level l c).
      { intros c Hc. set (y := IV (iv0 c * iv0 (g_ratio l)) (iv1 c * iv1 (g_ratio l)) (iv2 c * iv2 (g_ratio l))).
        assert (Ec : icoarsen (g_ratio l) y = c).
        { destruct P as (Q0 & Q1 & Q2). apply iv_eq; cbn [icoarsen iv0 iv1 iv2 y]; apply Z.div_mul; lia. }
        rewrite <- Ec in Hc. apply (covered_iff l a y (conj P (conj Ed (conj Al Nest)))) in Hc.
        rewrite <- Ec. apply Nest. exact Hc. }
      assert (P2 : Permutation (filter (covered (g_ratio l) a) (cells (g_dom l))) (filter (covered (g_ratio l) a) (lcells l))).
      { apply NoDup_Permutation; [apply NoDup_filter, NoDup_cells|apply NoDup_filter; exact Nl|].
        intros c. rewrite !filter_In, in_cells, in_lcells. split; intros [A B]; (split; [|exact B]).
        - apply CovLev. exact B.
        - apply Il. exact A. }
      rewrite (rsum_perm _ _ (Permutation_map val P2)). apply rsum_ext.
      intros c I. apply filter_In in I. destruct I as [I _]. apply in_lcells, level_existsb in I.
      unfold val. cbn [finest_value]. rewrite I, rev_length. reflexivity. }
    rewrite K. unfold lsum. fold n. fold val. rewrite (vol_refine len l a Dl F). ring.
Qed.

Theorem integral_once len f ls : mesh_ok ls -> level_sums true len f 0 ls = finest_integral len f ls.
Proof.
  intros M. destruct ls as [|l ls]; [destruct M|].
  destruct (@exists_last _ (l :: ls) ltac:(discriminate)) as (init & a & E).
  exact (proj2 (proj2 (proj2 (mesh_facts len f (l :: ls) M init a E)))).
Qed.
