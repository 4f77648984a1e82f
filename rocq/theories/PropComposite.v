(** C60: integrals over the refined mesh count every part of the domain once.
    C61: field norms.  C62: printed extrema and their locations. *)
From Coq Require Import Reals Lra ZArith List Bool Lia Permutation ZifyBool.
From Verif Require Import Base BoxR BoxRFacts Composite CompositeSpec CompositeProofs CompositeProofs2.
Import ListNotations.
Open Scope R_scope.

(** * C60 *)

(** The masked sum over the levels is the integral, over the whole domain, of the value of the
    finest level that has data at each place. *)
Theorem c60_integral len f ls : mesh_ok ls ->
  level_sums true len f 0 ls = finest_integral len f ls.
Proof. exact (integral_once len f ls). Qed.
Print Assumptions c60_integral.

(** A constant integrates to itself times the volume of the domain. *)
Theorem c60_constant len ls k : mesh_ok ls ->
  level_sums true len (fun _ _ => k) 0 ls = k * prob_volume len.
Proof. intros M. rewrite (c60_integral len _ ls M). exact (finest_const len ls k M). Qed.
Print Assumptions c60_constant.

(** The result depends on the boxes of the levels only through the cells they contain. *)
Definition same_cells (a b : glevel) : Prop :=
  g_dom a = g_dom b /\ g_ratio a = g_ratio b /\ (forall c, in_level a c <-> in_level b c).
Lemma same_existsb a b c : same_cells a b ->
  existsb (fun x => inb x c) (g_boxes a) = existsb (fun x => inb x c) (g_boxes b).
Proof.
  intros (_ & _ & H). apply eq_true_iff_eq. rewrite !level_existsb. apply H.
Qed.
Lemma Forall2_len {A B} (P : A -> B -> Prop) l l' : Forall2 P l l' -> length l = length l'.
Proof. induction 1; cbn [length]; congruence. Qed.
Lemma same_value f : forall ls ls' x, Forall2 same_cells ls ls' ->
  finest_value f ls x = finest_value f ls' x.
Proof.
  induction ls as [|l ls IH]; intros ls' x H; inversion H as [|a b la lb Hab Hl]; subst; [reflexivity|].
  cbn [finest_value]. rewrite (same_existsb _ _ x Hab), (Forall2_len _ _ _ Hl).
  destruct (existsb _ _); [reflexivity|].
  destruct ls as [|l2 ls]; inversion Hl as [|a2 b2 la2 lb2 Hab2 Hl2]; subst; [reflexivity|].
  destruct Hab2 as (_ & Er & _). rewrite Er. apply IH. exact Hl.
Qed.
Lemma Forall2_rev {A B} (P : A -> B -> Prop) l l' : Forall2 P l l' -> Forall2 P (rev l) (rev l').
Proof.
  induction 1; cbn [rev]; [constructor|]. apply Forall2_app; [assumption|]. constructor; [assumption|constructor].
Qed.
Theorem c60_boxes len f ls ls' : mesh_ok ls -> mesh_ok ls' -> Forall2 same_cells ls ls' ->
  level_sums true len f 0 ls = level_sums true len f 0 ls'.
Proof.
  intros M M' S. rewrite (c60_integral len f ls M), (c60_integral len f ls' M').
  apply Forall2_rev in S. unfold finest_integral.
  inversion S as [Hx Hy|a b la lb Hab Hl Ha Hb]; [reflexivity|].
  destruct Hab as (Ed & Er & Ec).
  assert (S' : Forall2 same_cells (a :: la) (b :: lb)) by (constructor; [split; [exact Ed|split; assumption]|exact Hl]).
  unfold cell_vol, cell_size. rewrite Ed. f_equal. apply rsum_ext. intros x _. apply same_value. exact S'.
Qed.
Print Assumptions c60_boxes.

(** The reported kinetic energy and enstrophy are means over the domain; a uniform flow gives
    exactly half the density times the square of the speed. *)
Theorem c60_kinetic_energy len ls rho u v w : mesh_ok ls ->
  kinetic_energy len ls rho u v w
  = finest_integral len (fun i c => rho i c * (u i c * u i c + v i c * v i c + w i c * w i c)) ls
    / (2 * prob_volume len).
Proof.
  intros M. unfold kinetic_energy. rewrite (c60_integral len _ ls M).
  unfold Rdiv. rewrite Rinv_mult. lra.
Qed.
Print Assumptions c60_kinetic_energy.

Theorem c60_uniform_flow len ls rho u v w : mesh_ok ls -> prob_volume len <> 0 ->
  kinetic_energy len ls (fun _ _ => rho) (fun _ _ => u) (fun _ _ => v) (fun _ _ => w)
  = rho * (u * u + v * v + w * w) / 2.
Proof.
  intros M V. unfold kinetic_energy.
  rewrite (c60_constant len ls (rho * (u * u + v * v + w * w)) M). field. exact V.
Qed.
Print Assumptions c60_uniform_flow.

Theorem c60_enstrophy len ls rho q : mesh_ok ls ->
  enstrophy len ls rho q
  = finest_integral len (fun i c => rho i c * (q i c * q i c)) ls / (2 * prob_volume len).
Proof.
  intros M. unfold enstrophy. rewrite (c60_integral len _ ls M).
  unfold Rdiv. rewrite Rinv_mult. lra.
Qed.
Print Assumptions c60_enstrophy.

(** A quantity whose value in a cell is the mean over the finer cells inside it has the same
    integral on every refinement of the coarsest mesh. *)
Definition consistent (ls : list glevel) (f : nat -> ivec -> R) : Prop :=
  forall i l l', nth_error ls i = Some l -> nth_error ls (S i) = Some l' ->
  forall c, in_level l c ->
    rsum (map (f (S i)) (cells (refine_box (g_ratio l) (Box c c))))
    = IZR (iv0 (g_ratio l)) * IZR (iv1 (g_ratio l)) * IZR (iv2 (g_ratio l)) * f i c.

Lemma consistent_prefix ls a f : consistent (ls ++ [a]) f -> consistent ls f.
Proof.
  intros H i l l' A B. apply (H i l l').
  - rewrite nth_error_app1; [exact A|]. apply nth_error_Some. congruence.
  - rewrite nth_error_app1; [exact B|]. apply nth_error_Some. congruence.
Qed.

Theorem c60_refinement len f : forall ls l finer, ls = l :: finer -> mesh_ok ls -> consistent ls f ->
  level_sums true len f 0 ls = cell_vol len l * rsum (map (f 0%nat) (cells (g_dom l))).
Proof.
  induction ls as [|a ls IH] using rev_ind; intros l finer E M C; [discriminate|].
  assert (Dn : ls = [] \/ ls <> []) by (destruct ls; [now left|right; discriminate]).
  destruct Dn as [->|Ne].
  - cbn [app] in *. injection E as -> <-.
    rewrite (c60_integral len f [l] M). unfold finest_integral. cbn [rev app]. f_equal.
    apply rsum_ext. intros x I. apply in_cells in I. cbn [finest_value length].
    destruct M as (_ & Cov & _). apply Cov, level_existsb in I. rewrite I. reflexivity.
  - destruct (@exists_last _ ls Ne) as (ls' & b & E'). rewrite E' in *.
    rewrite <- app_assoc in M, C |- *. cbn [app] in M, C |- *.
    destruct (mesh_snoc ls' b a M) as (Mb & F & Na & Nb).
    rewrite level_sums_snoc. cbn [Nat.add].
    assert (Hl : exists finer', ls' ++ [b] = l :: finer').
    { destruct ls' as [|x ls'']; cbn [app] in *; injection E as -> _; eexists; reflexivity. }
    destruct Hl as (finer' & Hl).
    assert (C' : consistent (ls' ++ [b]) f).
    { apply (consistent_prefix _ a). rewrite <- app_assoc. exact C. }
    rewrite (IH l finer' Hl Mb C').
    destruct (mesh_facts len f _ Mb ls' b eq_refl) as (Db & Ib & _ & _).
    enough (Q : lsum len b (fun c => if covered (g_ratio b) a c then f (length ls') c else 0)
              = lsum len a (f (S (length ls')))) by (rewrite Q; ring).
    unfold lsum. rewrite (vol_refine len b a Db F). rewrite <- rsum_filter.
    assert (CovLev : forall c, covered (g_ratio b) a c = true -> in_level b c).
    { destruct F as (P & Ed & Al & Nest).
      intros c Hc. set (y := IV (iv0 c * iv0 (g_ratio b)) (iv1 c * iv1 (g_ratio b)) (iv2 c * iv2 (g_ratio b))).
      assert (Ec : icoarsen (g_ratio b) y = c).
      { destruct P as (Q0 & Q1 & Q2). apply iv_eq; cbn [icoarsen iv0 iv1 iv2 y]; apply Z.div_mul; lia. }
      rewrite <- Ec in Hc. apply (covered_iff b a y (conj P (conj Ed (conj Al Nest)))) in Hc.
      rewrite <- Ec. apply Nest. exact Hc. }
    assert (P1 : Permutation (lcells a) (flat_map (children (g_ratio b)) (filter (covered (g_ratio b) a) (lcells b)))).
    { pose proof F as (P & Ed & Al & Nest). apply NoDup_Permutation; [exact Na| |].
      - apply NoDup_flat_map; [apply NoDup_filter; exact Nb|intros; apply NoDup_cells|].
        intros x y z _ _ Hx Hy. apply (in_children _ x z P) in Hx. apply (in_children _ y z P) in Hy. congruence.
      - intros x. rewrite in_flat_map, in_lcells. split.
        + intros Hx. exists (icoarsen (g_ratio b) x). split; [|apply (in_children _ _ x P); reflexivity].
          apply filter_In. split; [apply in_lcells, Nest; exact Hx|]. apply (covered_iff b a x F). exact Hx.
        + intros (c & I & Hx). apply (in_children _ c x P) in Hx. subst c.
          apply filter_In in I. apply (covered_iff b a x F). apply I. }
    rewrite (rsum_perm _ _ (Permutation_map (f (S (length ls'))) P1)), rsum_flat_map.
    rewrite (rsum_ext (fun x => rsum (map (f (S (length ls'))) (children (g_ratio b) x)))
      (fun c => f (length ls') c * (IZR (iv0 (g_ratio b)) * IZR (iv1 (g_ratio b)) * IZR (iv2 (g_ratio b))))).
    + rewrite rsum_scale. ring.
    + intros c I. apply filter_In in I. destruct I as [I _]. apply in_lcells in I.
      unfold children. rewrite (C (length ls') b a); [ring| | |exact I].
      * rewrite nth_error_app2 by lia. rewrite Nat.sub_diag. reflexivity.
      * rewrite nth_error_app2 by lia. replace (S (length ls') - length ls')%nat with 1%nat by lia. reflexivity.
Qed.
Print Assumptions c60_refinement.

(** ** Potential energy of still water *)

(** Volume fraction of the cells of a level when the water fills everything below height [h]. *)
Definition bottom (zlo dz : R) (k : Z) : R := zlo + IZR k * dz.
Definition still_vof (zlo dz h : R) (c : ivec) : R :=
  (Rmin (Rmax h (bottom zlo dz (iv2 c))) (bottom zlo dz (iv2 c + 1)) - bottom zlo dz (iv2 c)) / dz.

Definition below (h z : R) : R := Rmin z h * Rmin z h / 2.

Lemma rsum_tele (F : Z -> R) lo : forall n,
  rsum (map (fun k => F (k + 1)%Z - F k) (map (fun i => lo + Z.of_nat i)%Z (seq 0 n)))
  = F (lo + Z.of_nat n)%Z - F lo.
Proof.
  induction n as [|n IH]; [cbn; rewrite Z.add_0_r; ring|].
  rewrite seq_S, !map_app, rsum_app, IH. cbn [map rsum fold_right Nat.add].
  replace (lo + Z.of_nat n + 1)%Z with (lo + Z.of_nat (S n))%Z by lia. ring.
Qed.
Lemma rsum_zrange (F : Z -> R) lo hi : (lo <= hi + 1)%Z ->
  rsum (map (fun k => F (k + 1)%Z - F k) (zrange lo hi)) = F (hi + 1)%Z - F lo.
Proof.
  intros H. unfold zrange. rewrite rsum_tele. f_equal. f_equal. lia.
Qed.
Lemma rsum_column (g : Z -> R) b :
  (iv0 (blo b) <= iv0 (bhi b) + 1)%Z -> (iv1 (blo b) <= iv1 (bhi b) + 1)%Z ->
  rsum (map (fun c => g (iv2 c)) (cells b))
  = IZR (ncells b 0) * IZR (ncells b 1) * rsum (map g (zrange (iv2 (blo b)) (iv2 (bhi b)))).
Proof.
  intros H0 H1. unfold cells. rewrite rsum_flat_map.
  rewrite (rsum_ext _ (fun k => g k * (IZR (ncells b 0) * IZR (ncells b 1)))).
  - rewrite rsum_scale. ring.
  - intros k _. rewrite rsum_flat_map.
    rewrite (rsum_ext _ (fun _ => IZR (ncells b 0) * g k)).
    + rewrite rsum_const, length_zrange, INR_IZR_INZ, Z2Nat.id by lia.
      unfold ncells, icomp. cbn [Z.eqb Pos.eqb]. ring.
    + intros j _. rewrite map_map. cbn [iv2]. rewrite rsum_const, length_zrange, INR_IZR_INZ, Z2Nat.id by lia.
      unfold ncells, icomp. cbn [Z.eqb]. ring.
Qed.

Lemma still_cell zlo dz h c : 0 < dz ->
  still_vof zlo dz h c * liquid_z zlo dz (still_vof zlo dz h) c * dz
  = below h (bottom zlo dz (iv2 c + 1)) - below h (bottom zlo dz (iv2 c)).
Proof.
  intros Hd. unfold liquid_z.
  set (up := IV (iv0 c) (iv1 c) (iv2 c + 1)).
  assert (Mono : Rltb (still_vof zlo dz h c) (still_vof zlo dz h up) = false).
  { apply Rltb_false. unfold still_vof. cbn [up iv2].
    apply Rmult_le_compat_r; [left; apply Rinv_0_lt_compat; exact Hd|].
    set (a := bottom zlo dz (iv2 c)).
    assert (E1 : bottom zlo dz (iv2 c + 1) = a + dz) by (unfold a, bottom; rewrite plus_IZR; ring).
    assert (E2 : bottom zlo dz (iv2 c + 1 + 1) = a + dz + dz) by (unfold a, bottom; rewrite !plus_IZR; ring).
    rewrite E1, E2. unfold Rmin, Rmax. repeat destruct (Rle_dec _ _); lra. }
  rewrite Mono. unfold still_vof, below.
  set (a := bottom zlo dz (iv2 c)).
  assert (E1 : bottom zlo dz (iv2 c + 1) = a + dz) by (unfold a, bottom; rewrite plus_IZR; ring).
  rewrite E1. replace (IZR (iv2 c) + 1 * (1/2) * ((Rmin (Rmax h a) (a + dz) - a) / dz))
     with ((a - zlo) / dz + (Rmin (Rmax h a) (a + dz) - a) / dz / 2).
  2:{ unfold a, bottom. field. lra. }
  assert (K : (Rmin (Rmax h a) (a + dz) - a) / dz *
      (zlo + ((a - zlo) / dz + (Rmin (Rmax h a) (a + dz) - a) / dz / 2) * dz) * dz
      = (Rmin (Rmax h a) (a + dz) - a) * (Rmin (Rmax h a) (a + dz) + a) / 2) by (field; lra).
  rewrite K. clear K Mono. clearbody a.
  destruct (Rle_dec h a) as [A|A].
  - rewrite (Rmax_right h a) by lra. rewrite (Rmin_left a (a + dz)), (Rmin_right (a + dz) h), (Rmin_right a h) by lra. field.
  - rewrite (Rmax_left h a), (Rmin_left a h) by lra.
    destruct (Rle_dec h (a + dz)) as [B|B].
    + rewrite (Rmin_left h (a + dz)), (Rmin_right (a + dz) h) by lra. field.
    + rewrite (Rmin_right h (a + dz)), (Rmin_left (a + dz) h) by lra. field.
Qed.

(** The liquid of a cell is a slab at its bottom, or at its top when the cell above holds more:
    its height is the one of the centre of that slab. *)
Theorem c60_liquid_height zlo dz vof c :
  let up := IV (iv0 c) (iv1 c) (iv2 c + 1) in
  let thick := vof c * dz in
  (vof up <= vof c -> liquid_z zlo dz vof c = (bottom zlo dz (iv2 c) + (bottom zlo dz (iv2 c) + thick)) / 2) /\
  (vof c < vof up -> liquid_z zlo dz vof c = (bottom zlo dz (iv2 c + 1) + (bottom zlo dz (iv2 c + 1) - thick)) / 2).
Proof.
  intros up thick. unfold liquid_z. fold up. split; intros H.
  - assert (E : Rltb (vof c) (vof up) = false) by (apply Rltb_false, H). rewrite E. unfold bottom, thick. field.
  - assert (E : Rltb (vof c) (vof up) = true) by (apply Rltb_spec, H). rewrite E. unfold bottom, thick. field.
Qed.
Print Assumptions c60_liquid_height.
(** The kinetic energy that is reported: half the squared velocity of the liquid, per volume of
    still water. *)
Theorem c60_wave_kinetic len ls zlo gz h vof u v w : mesh_ok ls ->
  fst (wave_outputs len zlo gz h ls vof u v w)
  = finest_integral len (fun i c => vof i c * ((u i c * u i c + v i c * v i c + w i c * w i c) / 2)) ls
    / (len 0%Z * len 1%Z * (h - zlo)).
Proof.
  intros M. unfold wave_outputs, wave_ke, wave_escl, wave_depth. cbn [fst]. f_equal.
  rewrite <- (c60_integral len _ ls M). apply level_sums_ext. intros. field.
Qed.
Print Assumptions c60_wave_kinetic.
(** The potential energy that is reported, for any shape of the liquid. *)
Theorem c60_wave_potential len ls zlo gz h vof u v w : mesh_ok ls ->
  snd (wave_outputs len zlo gz h ls vof u v w)
  = - gz * finest_integral len (fun i c => vof i c * liquid_z zlo (cell_size len (nth_level ls i) 2) (vof i) c) ls
      / (len 0%Z * len 1%Z * (h - zlo)) - gz * (h - zlo) / 2.
Proof.
  intros M. unfold wave_outputs, wave_pe, wave_escl, wave_depth, wave_pe_off, wave_depth. cbn [snd].
  rewrite (c60_integral len _ ls M).
  assert (E : finest_integral len (fun lev c => vof lev c * - gz * liquid_z zlo (cell_size len (nth_level ls lev) 2) (vof lev) c) ls
    = - gz * finest_integral len (fun i c => vof i c * liquid_z zlo (cell_size len (nth_level ls i) 2) (vof i) c) ls).
  { unfold finest_integral. destruct (rev ls) as [|l coarser]; [ring|].
    rewrite <- Rmult_assoc, (Rmult_comm (- gz)), Rmult_assoc. f_equal. rewrite (Rmult_comm (- gz)), <- rsum_scale. apply rsum_ext.
    intros x _. clear. revert x. generalize (l :: coarser) as ll. clear.
    induction ll as [|l ll IH]; intros x; cbn [finest_value]; [ring|].
    destruct (existsb (fun b => inb b x) (g_boxes l)); [ring|]. destruct ll as [|l' ll]; [ring|]. apply IH. }
  rewrite E. unfold Rdiv. ring.
Qed.
Print Assumptions c60_wave_potential.

(** The water level is [h]; every level starts at index zero in the vertical (all meshes of the
    code do).  The potential energy that is reported is gravity times the water level. *)
Theorem c60_wave_still len ls l finer zlo gz h :
  ls = l :: finer -> mesh_ok ls ->
  0 < len 0%Z -> 0 < len 1%Z -> 0 < len 2%Z ->
  (forall i, (i < length ls)%nat -> iv2 (blo (g_dom (nth_level ls i))) = 0%Z) ->
  zlo < h <= zlo + len 2%Z ->
  snd (wave_outputs len zlo gz h ls
         (fun i => still_vof zlo (cell_size len (nth_level ls i) 2) h)
         (fun _ _ => 0) (fun _ _ => 0) (fun _ _ => 0))
  = - gz * h.
Proof.
  intros E M L0 L1 L2 Z0 Hh. unfold wave_outputs. cbn [snd]. unfold wave_pe.
  assert (Nth : forall i a, nth_error ls i = Some a -> nth_level ls i = a).
  { intros i a Ha. unfold nth_level. apply nth_error_nth. exact Ha. }
  assert (Pos : forall n i, (i < length ls)%nat -> (i <= n)%nat -> dom_pos (nth_level ls i)).
  { assert (Ch : forall ls0, chain ls0 -> forall i a b, nth_error ls0 i = Some a -> nth_error ls0 (S i) = Some b -> finer_ok a b).
    { induction ls0 as [|x ls0 IH]; intros C i a b A B; [destruct i; discriminate|].
      cbn [chain] in C. destruct C as (_ & F & C). destruct i as [|i].
      - cbn in A, B. injection A as <-. destruct ls0; [discriminate|]. cbn in B. injection B as <-. exact F.
      - exact (IH C i a b A B). }
    assert (D0 : dom_pos l) by (rewrite E in M; exact (proj1 M)).
    assert (C0 : chain ls) by (rewrite E in *; exact (proj2 (proj2 M))).
    induction n as [|n IHn]; intros i Hi Hn.
    - replace i with 0%nat by lia. rewrite (Nth 0%nat l); [exact D0|rewrite E; reflexivity].
    - destruct i as [|i]; [apply (IHn 0%nat); lia|].
      destruct (nth_error ls i) as [a|] eqn:Ha; [|exfalso; assert (nth_error ls i <> None) by (apply nth_error_Some; lia); congruence].
      destruct (nth_error ls (S i)) as [b|] eqn:Hb; [|exfalso; assert (nth_error ls (S i) <> None) by (apply nth_error_Some; lia); congruence].
      rewrite (Nth _ _ Hb). apply (dom_pos_refine a b).
      + rewrite <- (Nth _ _ Ha). apply IHn; lia.
      + exact (Ch ls C0 i a b Ha Hb). }
  assert (Dz : forall i, (i < length ls)%nat -> 0 < cell_size len (nth_level ls i) 2).
  { intros i Hi. destruct (Pos i i Hi (Nat.le_refl i)) as (_ & _ & D2). apply IZR_lt in D2.
    unfold cell_size. apply Rmult_lt_0_compat; [exact L2|apply Rinv_0_lt_compat; exact D2]. }
  set (F := fun (i : nat) (c : ivec) =>
       - gz * ((below h (bottom zlo (cell_size len (nth_level ls i) 2) (iv2 c + 1))
                - below h (bottom zlo (cell_size len (nth_level ls i) 2) (iv2 c)))
               / cell_size len (nth_level ls i) 2)).
  rewrite (level_sums_ext true len _ F ls 0%nat).
  2:{ intros i a c Ha _. cbn [Nat.add]. assert (Hi : (i < length ls)%nat) by (apply nth_error_Some; congruence).
      unfold F. rewrite <- (still_cell zlo (cell_size len (nth_level ls i) 2) h c (Dz i Hi)).
      field. pose proof (Dz i Hi). lra. }
  assert (Cons : consistent ls F).
  { intros i a b Ha Hb c Hc.
    assert (Hi : (i < length ls)%nat) by (apply nth_error_Some; congruence).
    assert (Hi' : (S i < length ls)%nat) by (apply nth_error_Some; congruence).
    assert (Ch : forall ls0, chain ls0 -> forall i a b, nth_error ls0 i = Some a -> nth_error ls0 (S i) = Some b -> finer_ok a b).
    { induction ls0 as [|x ls0 IH]; intros C i' a' b' A' B'; [destruct i'; discriminate|].
      cbn [chain] in C. destruct C as (_ & Fi & C). destruct i' as [|i'].
      - cbn in A', B'. injection A' as <-. destruct ls0; [discriminate|]. cbn in B'. injection B' as <-. exact Fi.
      - exact (IH C i' a' b' A' B'). }
    assert (C0 : chain ls) by (rewrite E in *; exact (proj2 (proj2 M))).
    destruct (Ch ls C0 i a b Ha Hb) as ((P0 & P1 & P2) & Ed & _).
    unfold F. rewrite (Nth _ _ Ha), (Nth _ _ Hb).
    pose proof (Dz i Hi) as Da. pose proof (Dz (S i) Hi') as Db. rewrite (Nth _ _ Ha) in Da. rewrite (Nth _ _ Hb) in Db.
    set (dzb := cell_size len b 2) in *. set (dza := cell_size len a 2) in *.
    assert (Ez : dza = IZR (iv2 (g_ratio a)) * dzb).
    { unfold dza, dzb, cell_size. rewrite Ed, ncells_refine, mult_IZR.
      destruct (Pos i i Hi (Nat.le_refl i)) as (_ & _ & D2). rewrite (Nth _ _ Ha) in D2.
      apply IZR_lt in D2. apply IZR_lt in P2. change (icomp (g_ratio a) 2) with (iv2 (g_ratio a)). field. split; lra. }
    rewrite (rsum_ext _ (fun x => (fun k => (below h (bottom zlo dzb (k + 1)) - below h (bottom zlo dzb k)) * (- gz / dzb)) (iv2 x))).
    2:{ intros x _. cbv beta. field. lra. }
    rewrite (rsum_column (fun k => (below h (bottom zlo dzb (k + 1)) - below h (bottom zlo dzb k)) * (- gz / dzb)));
      cbn [blo bhi refine_box iv0 iv1 iv2]; [|nia|nia].
    rewrite rsum_scale.
    rewrite (rsum_zrange (fun k => below h (bottom zlo dzb k))) by lia.
    rewrite !ncells_refine. unfold ncells, icomp. cbn [blo bhi Z.eqb Pos.eqb].
    replace ((iv2 c + 1) * iv2 (g_ratio a) - 1 + 1)%Z with ((iv2 c + 1) * iv2 (g_ratio a))%Z by ring.
    assert (B1 : forall k, bottom zlo dzb (k * iv2 (g_ratio a)) = bottom zlo dza k).
    { intros k. unfold bottom. rewrite mult_IZR, Ez. ring. }
    rewrite !B1, !mult_IZR.
    replace (IZR (iv0 c - iv0 c + 1)) with 1 by (f_equal; lia).
    replace (IZR (iv1 c - iv1 c + 1)) with 1 by (f_equal; lia).
    rewrite Ez. apply IZR_lt in P2. field. split; lra. }
  rewrite (c60_refinement len F ls l finer E M Cons).
  assert (H0 : nth_level ls 0 = l) by (apply Nth; rewrite E; reflexivity).
  unfold F. rewrite H0.
  assert (Hlen : (0 < length ls)%nat) by (rewrite E; cbn; lia).
  pose proof (Dz 0%nat Hlen) as D. rewrite H0 in D.
  destruct (Pos 0%nat 0%nat Hlen (Nat.le_refl _)) as (D0 & D1 & D2). rewrite H0 in D0, D1, D2.
  set (dz := cell_size len l 2) in *.
  rewrite (rsum_ext _ (fun x => (fun k => (below h (bottom zlo dz (k + 1)) - below h (bottom zlo dz k)) * (- gz / dz)) (iv2 x))).
  2:{ intros x _. cbv beta. field. lra. }
  assert (Q0 : (iv0 (blo (g_dom l)) <= iv0 (bhi (g_dom l)) + 1)%Z) by (unfold ncells, icomp in D0; cbn [Z.eqb] in D0; lia).
  assert (Q1 : (iv1 (blo (g_dom l)) <= iv1 (bhi (g_dom l)) + 1)%Z) by (unfold ncells, icomp in D1; cbn [Z.eqb Pos.eqb] in D1; lia).
  rewrite (rsum_column (fun k => (below h (bottom zlo dz (k + 1)) - below h (bottom zlo dz k)) * (- gz / dz)) _ Q0 Q1).
  specialize (Z0 0%nat Hlen). rewrite H0 in Z0.
  assert (N2 : ncells (g_dom l) 2 = (iv2 (bhi (g_dom l)) + 1)%Z).
  { unfold ncells, icomp. cbn [Z.eqb Pos.eqb]. rewrite Z0. lia. }
  rewrite rsum_scale, (rsum_zrange (fun k => below h (bottom zlo dz k))) by lia.
  rewrite <- N2, Z0.
  assert (Top : bottom zlo dz (ncells (g_dom l) 2) = zlo + len 2%Z).
  { unfold bottom, dz, cell_size. apply IZR_lt in D2. field. lra. }
  rewrite Top. assert (Bot : bottom zlo dz 0 = zlo) by (unfold bottom; ring). rewrite Bot.
  unfold below. rewrite (Rmin_right (zlo + len 2%Z) h) by lra. rewrite (Rmin_left zlo h) by lra.
  unfold wave_escl, wave_pe_off, wave_depth, cell_vol. fold dz. unfold cell_size.
  apply IZR_lt in D0, D1. field. repeat split; lra.
Qed.
Print Assumptions c60_wave_still.

(** "Still water at the declared water level has no wave energy" therefore holds exactly when
    the water level is zero. *)
Theorem c60_wave_level_refuted : exists len ls zlo gz h,
  mesh_ok ls /\
  snd (wave_outputs len zlo gz h ls
         (fun i => still_vof zlo (cell_size len (nth_level ls i) 2) h)
         (fun _ _ => 0) (fun _ _ => 0) (fun _ _ => 0)) <> 0.
Proof.
  exists (fun _ => 2), [GL (Box (IV 0 0 0) (IV 1 1 1)) [Box (IV 0 0 0) (IV 1 1 1)] (IV 2 2 2)], 0, (-10), 1.
  assert (M : mesh_ok [GL (Box (IV 0 0 0) (IV 1 1 1)) [Box (IV 0 0 0) (IV 1 1 1)] (IV 2 2 2)]).
  { cbn [mesh_ok]. split; [unfold ncells, icomp; cbn; lia|]. split.
    - intros c. unfold in_level. cbn [g_boxes g_dom]. split; [intros (b & [<-|[]] & H); exact H|].
      intros H. eexists. split; [now left|exact H].
    - cbn [chain]. split; [|split; exact I]. unfold no_overlap, lcells. cbn [g_boxes flat_map].
      rewrite app_nil_r. apply NoDup_cells. }
  split; [exact M|].
  rewrite (c60_wave_still (fun _ => 2) _ _ _ 0 (-10) 1 eq_refl M); try lra.
  intros i Hi. cbn in Hi. replace i with 0%nat by lia. reflexivity.
Qed.
Print Assumptions c60_wave_level_refuted.

(** * C61 *)

(** The value that enters a norm is the Euclidean length of the components considered. *)
Theorem c61_magnitude l : norm_value l = sqrt (rsum (map (fun x => x * x) l)).
Proof. exact (norm_value_spec l). Qed.
Print Assumptions c61_magnitude.

(** The norms of a cell-centred field are means over the domain of the finest available data. *)
Theorem c61_mean len ls comps : mesh_ok ls -> prob_volume len <> 0 ->
  let vals := finest_list (fun i c => norm_value (comps i c)) ls in
  let n := INR (length vals) in
  0 < n /\
  cell_norm 1 true len ls comps = rsum vals / n /\
  cell_norm 2 true len ls comps = sqrt (rsum (map (fun v => v * v) vals) / n).
Proof.
  intros M V vals n.
  destruct (mean_list len (fun i c => norm_value (comps i c)) ls M V) as [P E1].
  split; [apply lt_0_INR; exact P|]. unfold cell_norm. cbn [Z.eqb Pos.eqb]. split.
  - unfold n, vals. rewrite <- E1. f_equal. apply level_sums_ext. intros. ring.
  - destruct (mean_list len (fun i c => norm_value (comps i c) * norm_value (comps i c)) ls M V) as [_ E2].
    rewrite E2. f_equal.
    assert (K : finest_list (fun i c => norm_value (comps i c) * norm_value (comps i c)) ls = map (fun v => v * v) vals).
    { apply (finest_list_map (fun i c => norm_value (comps i c)) (fun v => v * v)). ring. }
    rewrite K, map_length. reflexivity.
Qed.
Print Assumptions c61_mean.

(** A uniform magnitude is its own norm. *)
Theorem c61_constant len ls comps k : mesh_ok ls -> prob_volume len <> 0 -> 0 <= k ->
  (forall i c, norm_value (comps i c) = k) ->
  cell_norm 1 true len ls comps = k /\ cell_norm 2 true len ls comps = k.
Proof.
  intros M V K H. unfold cell_norm. cbn [Z.eqb Pos.eqb]. split.
  - rewrite (level_sums_ext true len _ (fun _ _ => k)) by (intros; rewrite H; ring).
    rewrite (c60_constant len ls k M). field. exact V.
  - rewrite (level_sums_ext true len _ (fun _ _ => k * k)) by (intros; rewrite H; ring).
    rewrite (c60_constant len ls (k * k) M).
    replace (k * k * prob_volume len / prob_volume len) with (k * k) by (field; exact V).
    apply sqrt_square. exact K.
Qed.
Print Assumptions c61_constant.

(** The largest value over the cells that no finer level covers. *)
Lemma max_over_spec b mask f : forall l acc m, max_over b mask f acc l = Ret m ->
  acc <= m /\ (forall c, In c l -> mask c = 1%Z -> f c <= m) /\
  (m = acc \/ exists c, In c l /\ Rltb (Rabs (IZR (mask c) - 1)) tight_tol = true /\ m = f c).
Proof.
  induction l as [|c l IH]; intros acc m H; cbn [max_over] in H.
  - injection H as <-. split; [lra|]. split; [intros c []|now left].
  - destruct (inb b c); [|discriminate]. apply IH in H. destruct H as (A & B & C).
    destruct (Rltb (Rabs (IZR (mask c) - 1)) tight_tol) eqn:T.
    + rewrite rmax_spec in *. pose proof (Rmax_l acc (f c)). pose proof (Rmax_r acc (f c)).
      split; [lra|]. split; [intros x [->|I] Mx; [lra|exact (B x I Mx)]|].
      destruct C as [->|(x & I & Tx & ->)]; [|right; exists x; split; [now right|split; [exact Tx|reflexivity]]].
      unfold Rmax. destruct (Rle_dec acc (f c)); [right; exists c; split; [now left|split; [exact T|reflexivity]]|now left].
    + split; [exact A|]. split.
      * intros x [->|I] Mx; [|exact (B x I Mx)]. exfalso. apply Rltb_false in T. rewrite Mx in T.
        replace (IZR 1 - 1) with 0 in T by ring. rewrite Rabs_R0 in T. unfold tight_tol in T.
        assert (0 < / 2 ^ 52) by (apply Rinv_0_lt_compat; apply pow_lt; lra). lra.
      * destruct C as [->|(x & I & Tx & ->)]; [now left|right; exists x; split; [now right|split; [exact Tx|reflexivity]]].
Qed.
Definition mask01 (mask : ivec -> Z) : Prop := forall c, mask c = 0%Z \/ mask c = 1%Z.
Lemma mask01_close mask c : mask01 mask -> Rltb (Rabs (IZR (mask c) - 1)) tight_tol = true -> mask c = 1%Z.
Proof.
  intros M H. destruct (M c) as [E|E]; [|exact E]. exfalso. rewrite E in H. apply Rltb_spec in H.
  replace (IZR 0 - 1) with (- (1)) in H by ring. rewrite Rabs_Ropp, Rabs_R1 in H. unfold tight_tol in H.
  assert (0 < / 2 ^ 52 <= / 1024).
  { split; [apply Rinv_0_lt_compat, pow_lt; lra|]. apply Rinv_le_contravar; [lra|].
    replace 1024 with (2 ^ 10) by ring. apply Rle_pow; [lra|lia]. }
  lra.
Qed.
Lemma level_mask01 l finer : mask01 (level_mask l finer).
Proof. intros c. unfold level_mask. destruct finer; [now right|]. destruct (existsb _ _); [now left|now right]. Qed.

Definition cell_type : Z -> bool := fun _ => false.
Lemma cells_point_box b : cells (point_box cell_type b) = cells b.
Proof.
  destruct b as [lo hi]. unfold point_box, cell_type, cells. cbn [blo bhi iv0 iv1 iv2].
  rewrite !Z.add_0_r. reflexivity.
Qed.
Lemma max_over_ok b mask f : forall l acc, (forall c, In c l -> in_box b c) ->
  exists m, max_over b mask f acc l = Ret m.
Proof.
  induction l as [|c l IH]; intros acc H; cbn [max_over]; [eexists; reflexivity|].
  rewrite (proj2 (inb_spec b c) (H c (or_introl eq_refl))). apply IH. intros x I. apply H. now right.
Qed.
Lemma max_boxes_cell mask f : mask01 mask -> forall bs acc, exists m,
  max_boxes mask cell_type f acc bs = Ret m /\ acc <= m /\
  (forall c, In c (flat_map cells bs) -> mask c = 1%Z -> f c <= m) /\
  (m = acc \/ m = 0 \/ exists c, In c (flat_map cells bs) /\ mask c = 1%Z /\ m = f c).
Proof.
  intros M01. induction bs as [|b bs IH]; intros acc; cbn [max_boxes flat_map].
  - exists acc. split; [reflexivity|]. split; [lra|]. split; [intros c []|now left].
  - rewrite cells_point_box.
    destruct (max_over_ok b mask f (cells b) 0 (fun c I => proj1 (in_cells b c) I)) as (m1 & E1).
    rewrite E1. cbn [obind]. destruct (IH (rmax m1 acc)) as (m & Em & A & B & C).
    exists m. split; [exact Em|]. apply max_over_spec in E1. destruct E1 as (A1 & B1 & C1).
    rewrite rmax_spec in *. pose proof (Rmax_l m1 acc). pose proof (Rmax_r m1 acc).
    split; [lra|]. split.
    + intros c I Mc. apply in_app_or in I. destruct I as [I|I]; [specialize (B1 c I Mc); lra|exact (B c I Mc)].
    + destruct C as [->|[->|(c & I & Mc & ->)]].
      * unfold Rmax. destruct (Rle_dec m1 acc); [now left|].
        destruct C1 as [->|(c & I & T & ->)]; [right; now left|].
        right; right. exists c. split; [apply in_or_app; now left|]. split; [exact (mask01_close mask c M01 T)|reflexivity].
      * right; now left.
      * right; right. exists c. split; [apply in_or_app; now right|]. split; [exact Mc|reflexivity].
Qed.
Lemma max_levels_cell um f : forall ls lev acc, exists m,
  max_levels um cell_type f acc lev ls = Ret m /\ acc <= m /\
  (forall i l c, nth_error ls i = Some l -> In c (lcells l) ->
     (if um then level_mask l (skipn (S i) ls) c = 1%Z else True) -> f (lev + i)%nat c <= m) /\
  (m = acc \/ m = 0 \/ exists i l c, nth_error ls i = Some l /\ In c (lcells l) /\
     (if um then level_mask l (skipn (S i) ls) c = 1%Z else True) /\ m = f (lev + i)%nat c).
Proof.
  induction ls as [|l ls IH]; intros lev acc; cbn [max_levels].
  - exists acc. split; [reflexivity|]. split; [lra|]. split; [intros i l c Hn; destruct i; discriminate|now left].
  - assert (M01 : mask01 (fun c => if um then level_mask l ls c else 1%Z)).
    { intros c. destruct um; [apply level_mask01|now right]. }
    destruct (max_boxes_cell _ (f lev) M01 (g_boxes l) 0) as (m1 & E1 & A1 & B1 & C1).
    rewrite E1. cbn [obind]. destruct (IH (S lev) (rmax m1 acc)) as (m & Em & A & B & C).
    exists m. split; [exact Em|]. rewrite rmax_spec in *. pose proof (Rmax_l m1 acc). pose proof (Rmax_r m1 acc).
    split; [lra|]. split.
    + intros i l' c Hn Hi Hm. destruct i as [|i].
      * cbn in Hn. injection Hn as <-. rewrite Nat.add_0_r. cbn [skipn] in Hm.
        assert (K : f lev c <= m1); [|lra]. apply B1; [exact Hi|]. destruct um; [exact Hm|reflexivity].
      * rewrite Nat.add_succ_r. cbn [skipn] in Hm. exact (B i l' c Hn Hi Hm).
    + destruct C as [->|[->|(i & l' & c & Hn & Hi & Hm & ->)]].
      * unfold Rmax. destruct (Rle_dec m1 acc); [now left|].
        destruct C1 as [->|[->|(c & I & Mc & ->)]]; [right; now left|right; now left|].
        right; right. exists 0%nat, l, c. rewrite Nat.add_0_r. cbn [skipn nth_error].
        split; [reflexivity|]. split; [exact I|]. split; [destruct um; [exact Mc|exact Logic.I]|reflexivity].
      * right; now left.
      * right; right. exists (S i), l', c. rewrite Nat.add_succ_r. split; [exact Hn|]. split; [exact Hi|]. split; [exact Hm|reflexivity].
Qed.

Theorem c61_infinity ls comps : mesh_ok ls ->
  exists m, max_norm true cell_type ls comps = Ret m /\
    (forall i c, uncovered ls i c -> norm_value (comps i c) <= m) /\
    (exists i c, uncovered ls i c /\ m = norm_value (comps i c)).
Proof.
  intros M. unfold max_norm.
  destruct (max_levels_cell true (fun i c => norm_value (comps i c)) ls 0%nat 0) as (m & E & A & B & C).
  exists m. split; [exact E|].
  assert (Up : forall i c, uncovered ls i c -> norm_value (comps i c) <= m).
  { intros i c (l & Hn & Hi & Hm). exact (B i l c Hn Hi Hm). }
  split; [exact Up|].
  assert (Zero : m = 0 -> exists i c, uncovered ls i c /\ m = norm_value (comps i c)).
  { intros ->. destruct (mesh_last ls M) as (init & a & El & Er).
    destruct (mesh_facts (fun _ => 1) (fun _ _ => 0) ls M init a El) as ((D0 & D1 & D2) & _).
    destruct (finest_source (fun _ _ => 0) ls M init a El (blo (g_dom a))) as (i & c & U & _ & _).
    { unfold ncells, icomp in D0, D1, D2. cbn [Z.eqb Pos.eqb] in D0, D1, D2. unfold in_box. lia. }
    exists i, c. split; [exact U|]. pose proof (Up i c U). pose proof (norm_value_nonneg (comps i c)). lra. }
  destruct C as [->|[->|(i & l & c & Hn & Hi & Hm & ->)]]; [apply Zero; reflexivity|apply Zero; reflexivity|].
  exists i, c. split; [exists l; split; [exact Hn|split; [exact Hi|exact Hm]]|reflexivity].
Qed.
Print Assumptions c61_infinity.

(** The norms are ordered as norms of a mean are. *)
Theorem c61_order len ls comps m : mesh_ok ls -> prob_volume len <> 0 ->
  max_norm true cell_type ls comps = Ret m ->
  0 <= cell_norm 1 true len ls comps <= cell_norm 2 true len ls comps /\
  cell_norm 2 true len ls comps <= m.
Proof.
  intros M V E. destruct (c61_infinity ls comps M) as (m' & E' & Up & _).
  rewrite E' in E. injection E as ->.
  destruct (c61_mean len ls comps M V) as (P & E1 & E2).
  rewrite E1, E2. set (vals := finest_list (fun i c => norm_value (comps i c)) ls) in *.
  assert (P' : (0 < length vals)%nat) by (apply INR_lt; exact P).
  assert (Nn : forall v, In v vals -> 0 <= v <= m).
  { intros v I. destruct (finest_list_source _ ls v M I) as (i & c & U & ->).
    split; [apply norm_value_nonneg|exact (Up i c U)]. }
  assert (Pos : 0 <= rsum vals / INR (length vals)).
  { apply Rmult_le_pos; [|left; apply Rinv_0_lt_compat; exact P].
    rewrite <- (map_id vals). apply rsum_nonneg. intros v I. apply Nn. exact I. }
  split; [split; [exact Pos|]|].
  - rewrite <- (sqrt_square (rsum vals / INR (length vals)) Pos).
    apply sqrt_le_1_alt. apply mean_square. exact P'.
  - assert (Pm : 0 <= m).
    { destruct vals as [|v vs]; [cbn in P'; lia|]. pose proof (Nn v (or_introl eq_refl)). lra. }
    rewrite <- (sqrt_square m Pm). apply sqrt_le_1_alt.
    rewrite <- (map_length (fun v => v * v) vals) at 1. apply mean_le; [rewrite map_length; exact P'|].
    intros w I. apply in_map_iff in I. destruct I as (v & <- & I). pose proof (Nn v I).
    apply Rmult_le_compat; lra.
Qed.
Print Assumptions c61_order.

(** Without the mask the covered cells are counted too. *)
Definition mesh2 : list glevel :=
  [GL (Box (IV 0 0 0) (IV 3 0 0)) [Box (IV 0 0 0) (IV 3 0 0)] (IV 2 2 2);
   GL (Box (IV 0 0 0) (IV 7 1 1)) [Box (IV 0 0 0) (IV 3 1 1)] (IV 2 2 2)].

Lemma mesh2_ok : mesh_ok mesh2.
Proof.
  unfold mesh2. cbn [mesh_ok]. split; [unfold ncells, icomp; cbn; lia|]. split.
  - intros c. unfold in_level. cbn [g_boxes g_dom]. split; [intros (b & [<-|[]] & H); exact H|].
    intros H. eexists. split; [now left|exact H].
  - cbn [chain]. split; [|split; [|split; [|split; exact I]]].
    + unfold no_overlap, lcells. cbn [g_boxes flat_map]. rewrite app_nil_r. apply NoDup_cells.
    + unfold finer_ok. cbn [g_ratio g_dom g_boxes]. split; [unfold positive; cbn; lia|].
      split; [reflexivity|]. split.
      * intros b [<-|[]]. split; [unfold in_box; cbn; lia|].
        intros c x. unfold in_box, icoarsen. cbn [blo bhi iv0 iv1 iv2]. intros H E.
        assert (E0 : (iv0 c / 2 = iv0 x / 2)%Z) by congruence.
        assert (E1 : (iv1 c / 2 = iv1 x / 2)%Z) by congruence.
        assert (E2 : (iv2 c / 2 = iv2 x / 2)%Z) by congruence.
        clear E. Z.div_mod_to_equations. lia.
      * intros c (b & [<-|[]] & H). eexists. split; [now left|]. revert H.
        unfold in_box, icoarsen. cbn [blo bhi iv0 iv1 iv2]. intros H. Z.div_mod_to_equations. lia.
    + unfold no_overlap, lcells. cbn [g_boxes flat_map]. rewrite app_nil_r. apply NoDup_cells.
Qed.

Theorem c61_unmasked_refuted : exists len ls, mesh_ok ls /\ prob_volume len <> 0 /\
  cell_norm 1 false len ls (fun _ _ => [1]) <> 1.
Proof.
  exists (fun _ => 4), mesh2. split; [exact mesh2_ok|]. split; [unfold prob_volume; lra|].
  unfold cell_norm. cbn [Z.eqb Pos.eqb].
  rewrite (level_sums_ext false _ _ (fun _ _ => 1)) by (intros; cbn [norm_value magnitude]; rewrite Rabs_R1; ring).
  unfold mesh2. cbn [level_sums]. rewrite !rsum_const.
  assert (L1 : length (lcells (GL (Box (IV 0 0 0) (IV 3 0 0)) [Box (IV 0 0 0) (IV 3 0 0)] (IV 2 2 2))) = 4%nat) by reflexivity.
  assert (L2 : length (lcells (GL (Box (IV 0 0 0) (IV 7 1 1)) [Box (IV 0 0 0) (IV 3 1 1)] (IV 2 2 2))) = 16%nat) by reflexivity.
  rewrite L1, L2. unfold cell_vol, cell_size, ncells, icomp, prob_volume. cbn [g_dom blo bhi iv0 iv1 iv2 Z.eqb Pos.eqb].
  replace (INR 4) with 4 by (cbn; lra). replace (INR 16) with 16 by (cbn; lra).
  intros H. apply (f_equal (fun x => x * 64)) in H. revert H.
  replace (3 - 0 + 1)%Z with 4%Z by reflexivity. replace (0 - 0 + 1)%Z with 1%Z by reflexivity.
  replace (7 - 0 + 1)%Z with 8%Z by reflexivity. replace (1 - 0 + 1)%Z with 2%Z by reflexivity.
  intros H. field_simplify in H. lra.
Qed.
Print Assumptions c61_unmasked_refuted.

(** ** Data on faces or nodes *)

(** On a mesh with one level the weights add up to the volume, for every decomposition into
    boxes (or tiles) and every data location. *)
Lemma rsum_prod (f0 f1 f2 : Z -> R) b :
  rsum (map (fun c => f0 (iv0 c) * f1 (iv1 c) * f2 (iv2 c)) (cells b))
  = rsum (map f0 (zrange (iv0 (blo b)) (iv0 (bhi b)))) *
    rsum (map f1 (zrange (iv1 (blo b)) (iv1 (bhi b)))) *
    rsum (map f2 (zrange (iv2 (blo b)) (iv2 (bhi b)))).
Proof.
  unfold cells. rewrite rsum_flat_map.
  rewrite (rsum_ext _ (fun k => f2 k * (rsum (map f0 (zrange (iv0 (blo b)) (iv0 (bhi b)))) *
       rsum (map f1 (zrange (iv1 (blo b)) (iv1 (bhi b))))))).
  - rewrite rsum_scale. ring.
  - intros k _. rewrite rsum_flat_map.
    rewrite (rsum_ext _ (fun j => f1 j * (f2 k * rsum (map f0 (zrange (iv0 (blo b)) (iv0 (bhi b))))))).
    + rewrite rsum_scale. ring.
    + intros j _. rewrite map_map. cbn [iv0 iv1 iv2].
      rewrite (rsum_ext _ (fun i => f0 i * (f1 j * f2 k))) by (intros; ring). rewrite rsum_scale. ring.
Qed.
Lemma ends_weight (t : bool) lo hi : (lo <= hi)%Z ->
  rsum (map (fun i => if t && ((i =? hi + (if t then 1 else 0)) || (i =? lo))%Z then 1/2 else 1)
            (zrange lo (hi + (if t then 1 else 0)))) = IZR (hi - lo + 1).
Proof.
  intros H. destruct t; cbn [andb].
  - set (n := Z.to_nat (hi - lo)).
    assert (Hh : hi = (lo + Z.of_nat n)%Z) by (unfold n; lia).
    assert (E : zrange lo (hi + 1) = lo :: map (fun i => lo + 1 + Z.of_nat i)%Z (seq 0 n) ++ [(hi + 1)%Z]).
    { unfold zrange. replace (Z.to_nat (hi + 1 - lo + 1)) with (S (S n)) by lia.
      rewrite seq_S. cbn [seq]. cbn [map app]. rewrite map_app. cbn [map]. rewrite <- seq_shift, map_map.
      f_equal; [lia|]. f_equal; [apply map_ext; intros; lia|]. f_equal. lia. }
    rewrite E. cbn [map]. rewrite rsum_cons, map_app, rsum_app. cbn [map].
    rewrite (rsum_ext _ (fun _ => 1)).
    + rewrite rsum_const, map_length, seq_length.
      replace ((lo =? hi + 1)%Z || (lo =? lo)%Z) with true by (rewrite Z.eqb_refl, orb_true_r; reflexivity).
      rewrite Z.eqb_refl. cbn [orb rsum fold_right].
      rewrite INR_IZR_INZ, Hh. replace (lo + Z.of_nat n - lo + 1)%Z with (Z.of_nat n + 1)%Z by lia.
      rewrite plus_IZR. lra.
    + intros i I. apply in_map_iff in I. destruct I as (j & <- & J). apply in_seq in J.
      replace ((lo + 1 + Z.of_nat j =? hi + 1)%Z || (lo + 1 + Z.of_nat j =? lo)%Z) with false by lia. reflexivity.
  - rewrite rsum_const, Z.add_0_r, length_zrange, INR_IZR_INZ, Z2Nat.id by lia. ring.
Qed.
Lemma box_weight ty b : in_box b (blo b) ->
  rsum (map (point_weight ty (point_box ty b)) (cells (point_box ty b)))
  = IZR (ncells b 0) * IZR (ncells b 1) * IZR (ncells b 2).
Proof.
  intros H. unfold in_box in H.
  rewrite (rsum_ext _ (fun c =>
     (fun i => if ty 0%Z && ((i =? iv0 (bhi b) + (if ty 0%Z then 1 else 0)) || (i =? iv0 (blo b)))%Z then 1/2 else 1) (iv0 c) *
     (fun i => if ty 1%Z && ((i =? iv1 (bhi b) + (if ty 1%Z then 1 else 0)) || (i =? iv1 (blo b)))%Z then 1/2 else 1) (iv1 c) *
     (fun i => if ty 2%Z && ((i =? iv2 (bhi b) + (if ty 2%Z then 1 else 0)) || (i =? iv2 (blo b)))%Z then 1/2 else 1) (iv2 c))).
  2:{ intros c _. unfold point_weight, end_weight, point_box, icomp. cbn [blo bhi iv0 iv1 iv2 Z.eqb Pos.eqb]. reflexivity. }
  rewrite (rsum_prod
     (fun i => if ty 0%Z && ((i =? iv0 (bhi b) + (if ty 0%Z then 1 else 0)) || (i =? iv0 (blo b)))%Z then 1/2 else 1)
     (fun i => if ty 1%Z && ((i =? iv1 (bhi b) + (if ty 1%Z then 1 else 0)) || (i =? iv1 (blo b)))%Z then 1/2 else 1)
     (fun i => if ty 2%Z && ((i =? iv2 (bhi b) + (if ty 2%Z then 1 else 0)) || (i =? iv2 (blo b)))%Z then 1/2 else 1)).
  unfold point_box. cbn [blo bhi iv0 iv1 iv2].
  rewrite !ends_weight by lia. unfold ncells, icomp. cbn [Z.eqb Pos.eqb]. reflexivity.
Qed.
Lemma box_count b : in_box b (blo b) ->
  INR (length (cells b)) = IZR (ncells b 0) * IZR (ncells b 1) * IZR (ncells b 2).
Proof.
  intros H. rewrite <- (Rmult_1_r (INR _)), <- rsum_const.
  pose proof (box_weight cell_type b H) as E. rewrite cells_point_box in E. rewrite <- E.
  apply rsum_ext. intros c _. unfold point_weight, end_weight, cell_type. cbn [andb]. ring.
Qed.

Theorem c61_points_constant len l ty comps k :
  mesh_ok [l] -> (forall b, In b (g_boxes l) -> in_box b (blo b)) -> prob_volume len <> 0 -> 0 <= k ->
  (forall i c, norm_value (comps i c) = k) ->
  point_norm 1 true len ty [l] comps = k /\ point_norm 2 true len ty [l] comps = k.
Proof.
  intros M Ne V K H.
  assert (Main : forall q, point_sums true len ty (fun _ _ => q) 0 [l] = q * prob_volume len).
  { intros q. rewrite <- (c60_constant len [l] q M). cbn [point_sums level_sums level_mask]. f_equal.
    unfold lcells. rewrite rsum_flat_map. apply rsum_ext. intros b Ib.
    unfold point_sum. rewrite (rsum_ext _ (fun c => point_weight ty (point_box ty b) c * (cell_vol len l * q))) by (intros; ring).
    rewrite rsum_scale, (box_weight ty b (Ne b Ib)).
    rewrite rsum_const, (box_count b (Ne b Ib)). ring. }
  assert (Ext : forall f g, (forall i c, f i c = g i c) -> point_sums true len ty f 0 [l] = point_sums true len ty g 0 [l]).
  { intros f g E. cbn [point_sums]. f_equal. apply rsum_ext. intros b _. unfold point_sum. apply rsum_ext.
    intros c _. rewrite E. reflexivity. }
  unfold point_norm. cbn [Z.eqb Pos.eqb]. split.
  - rewrite (Ext _ (fun _ _ => k)) by (intros; rewrite H; ring). rewrite Main. field. exact V.
  - rewrite (Ext _ (fun _ _ => k * k)) by (intros; rewrite H; ring). rewrite Main.
    replace (k * k * prob_volume len / prob_volume len) with (k * k) by (field; exact V).
    apply sqrt_square. exact K.
Qed.
Print Assumptions c61_points_constant.

(** With refinement the weights of face data do not add up: the mask of the cell above is used
    for a face between a covered and an uncovered cell. *)
Theorem c61_points_refined_refuted : exists len ls ty, mesh_ok ls /\ prob_volume len <> 0 /\
  point_norm 1 true len ty ls (fun _ _ => [1]) = 9 / 8.
Proof.
  exists (fun _ => 4), mesh2, (fun d => (d =? 0)%Z). split; [exact mesh2_ok|]. split; [unfold prob_volume; lra|].
  unfold point_norm. cbn [Z.eqb Pos.eqb].
  assert (V : forall x : R, norm_value [1] * 1 = 1) by (intros; cbn [norm_value magnitude]; rewrite Rabs_R1; ring).
  unfold mesh2. cbn [point_sums g_boxes map]. unfold rsum at 1 2. cbn [fold_right].
  unfold point_sum. rewrite (V 0).
  match goal with |- context [map ?f (cells (point_box ?t ?b))] =>
    let l := eval vm_compute in (cells (point_box t b)) in change (cells (point_box t b)) with l end.
  match goal with |- context [map ?f (cells (point_box ?t ?b))] =>
    let l := eval vm_compute in (cells (point_box t b)) in change (cells (point_box t b)) with l end.
  cbn [map]. unfold rsum. cbn [fold_right].
  unfold point_weight, end_weight, point_box, mask_cell, clampz, level_mask, cell_vol, cell_size, ncells, icomp, prob_volume.
  cbn -[Rplus Rmult Rdiv Rinv IZR]. field.
Qed.
Print Assumptions c61_points_refined_refuted.

(** The mask is only read in the cells of the box, and for a point with the indices of a cell it
    is the mask of that cell. *)
Theorem c61_points_mask vol m1 m2 ty f b :
  in_box b (blo b) -> (forall c, in_box b c -> m1 c = m2 c) ->
  point_sum vol m1 ty f b = point_sum vol m2 ty f b /\
  (forall c, in_box b c -> mask_cell b c = c).
Proof.
  intros Ne H. unfold in_box in Ne. split.
  - unfold point_sum. apply rsum_ext. intros c _. rewrite (H (mask_cell b c)); [reflexivity|].
    unfold in_box, mask_cell, clampz. cbn [iv0 iv1 iv2]. lia.
  - intros [i j k] I. unfold in_box in I. unfold mask_cell, clampz. cbn [iv0 iv1 iv2] in *. f_equal; lia.
Qed.
Print Assumptions c61_points_mask.

(** The maximum norm of data on faces or nodes (the pressure is one of the plotted fields) reads
    the mask outside of its array, whatever the mesh. *)
Lemma max_over_ub b mask f : forall l acc, (exists c, In c l /\ ~ in_box b c) -> max_over b mask f acc l = UB.
Proof.
  induction l as [|c l IH]; intros acc (x & I & H); [destruct I|]. cbn [max_over].
  destruct (inb b c) eqn:E; [|reflexivity].
  destruct I as [->|I]; [exfalso; apply H, inb_spec; exact E|]. apply IH. exists x. split; assumption.
Qed.
Theorem c61_infinity_points_refuted um ty l finer b bs comps :
  g_boxes l = b :: bs -> in_box b (blo b) -> ty 0%Z = true \/ ty 1%Z = true \/ ty 2%Z = true ->
  max_norm um ty (l :: finer) comps = UB.
Proof.
  intros E Ne T. unfold max_norm. cbn [max_levels]. rewrite E. cbn [max_boxes].
  rewrite max_over_ub; [reflexivity|].
  exists (bhi (point_box ty b)). unfold in_box in Ne. split.
  - apply in_cells. unfold in_box, point_box. cbn [blo bhi iv0 iv1 iv2].
    destruct (ty 0%Z), (ty 1%Z), (ty 2%Z); lia.
  - unfold in_box, point_box. cbn [blo bhi iv0 iv1 iv2]. intros H.
    destruct T as [T|[T|T]]; rewrite T in H; lia.
Qed.
Print Assumptions c61_infinity_points_refuted.

(** * C62 *)

(** Extrema restricted to the points whose mask has the wanted value. *)
Theorem c62_masked mask_val pts : (forall p, In p pts -> Rabs (snd p) <= large_num / 4) ->
  let '(mx, mn, found) := masked_extrema mask_val pts in
  (found = true <-> exists p, In p pts /\ Rabs (fst p - mask_val) < tight_tol) /\
  (found = true ->
     (forall p, In p pts -> Rabs (fst p - mask_val) < tight_tol -> mn <= snd p <= mx) /\
     (exists p, In p pts /\ Rabs (fst p - mask_val) < tight_tol /\ mx = snd p) /\
     (exists p, In p pts /\ Rabs (fst p - mask_val) < tight_tol /\ mn = snd p)).
Proof.
  intros B. unfold masked_extrema.
  assert (L : tight_tol < large_num).
  { unfold tight_tol, large_num.
    assert (A : 0 < / 2 ^ 52 < 1).
    { split; [apply Rinv_0_lt_compat, pow_lt; lra|]. rewrite <- Rinv_1. apply Rinv_lt_contravar; [rewrite Rmult_1_l; apply pow_lt; lra|].
      replace 1 with (2 ^ 0) by ring. apply Rlt_pow; [lra|lia]. }
    assert (P : 2 ^ 44 <= 2 ^ 1023) by (apply Rle_pow; [lra|lia]).
    replace (2 ^ 44) with 17592186044416 in P by ring.
    replace (10 ^ 10) with 10000000000 by ring.
    set (x := 2 ^ 1023) in *. set (e := / 2 ^ 52) in *.
    assert (x * 1 <= (2 - e) * x) by (rewrite Rmult_comm; apply Rmult_le_compat_r; lra). lra. }
  assert (T0 : 0 < tight_tol).
  { unfold tight_tol. assert (0 < / 2 ^ 52) by (apply Rinv_0_lt_compat, pow_lt; lra). lra. }
  set (L1 := map (fun p => mask_addend mask_val (- large_num) (fst p) + snd p) pts).
  set (L2 := map (fun p => mask_addend mask_val large_num (fst p) + snd p) pts).
  set (L3 := map (fun p : R * R => mask_addend mask_val large_num (fst p)) pts).
  destruct (fold_max_spec L1 (- large_num)) as (A1 & B1 & C1).
  destruct (fold_min_spec L2 large_num) as (A2 & B2 & C2).
  destruct (fold_min_spec L3 large_num) as (A3 & B3 & C3).
  assert (F : Rltb (fold_min large_num L3) tight_tol = true <-> exists p, In p pts /\ Rabs (fst p - mask_val) < tight_tol).
  { rewrite Rltb_spec. split.
    - intros H. destruct C3 as [C3|C3]; [lra|]. apply in_map_iff in C3. destruct C3 as (p & E & I).
      exists p. split; [exact I|]. unfold mask_addend in E.
      destruct (Rltb (Rabs (fst p - mask_val)) tight_tol) eqn:K; [apply Rltb_spec; exact K|]. lra.
    - intros (p & I & H). assert (K : fold_min large_num L3 <= 0).
      { apply B3. apply in_map_iff. exists p. split; [|exact I]. unfold mask_addend.
        rewrite (proj2 (Rltb_spec _ _) H). reflexivity. }
      lra. }
  split; [exact F|]. intros H. apply F in H. destruct H as (p0 & I0 & H0).
  assert (U : forall p, In p pts -> Rabs (fst p - mask_val) < tight_tol ->
     fold_min large_num L2 <= snd p <= fold_max (- large_num) L1).
  { intros p I H. split.
    - apply B2. apply in_map_iff. exists p. split; [|exact I]. unfold mask_addend. rewrite (proj2 (Rltb_spec _ _) H). ring.
    - apply B1. apply in_map_iff. exists p. split; [|exact I]. unfold mask_addend. rewrite (proj2 (Rltb_spec _ _) H). ring. }
  split; [exact U|].
  pose proof (U p0 I0 H0) as U0.
  assert (Bn : forall p, In p pts -> - (large_num / 4) <= snd p <= large_num / 4).
  { intros p I. specialize (B p I). unfold Rabs in B. destruct (Rcase_abs (snd p)); lra. }
  pose proof (Bn p0 I0) as Bp0. split.
  - destruct C1 as [C1|C1]; [lra|]. apply in_map_iff in C1. destruct C1 as (p & E & I).
    exists p. split; [exact I|]. unfold mask_addend in E.
    destruct (Rltb (Rabs (fst p - mask_val)) tight_tol) eqn:K.
    + split; [apply Rltb_spec; exact K|]. lra.
    + exfalso. pose proof (Bn p I). lra.
  - destruct C2 as [C2|C2]; [lra|]. apply in_map_iff in C2. destruct C2 as (p & E & I).
    exists p. split; [exact I|]. unfold mask_addend in E.
    destruct (Rltb (Rabs (fst p - mask_val)) tight_tol) eqn:K.
    + split; [apply Rltb_spec; exact K|]. lra.
    + exfalso. pose proof (Bn p I). lra.
Qed.
Print Assumptions c62_masked.

(** The maximum and minimum of a velocity component over the cells no finer level covers. *)
Lemma lowest_small : lowest < - 10 ^ 8.
Proof.
  unfold lowest.
  assert (A : 0 < / 2 ^ 52 < 1).
  { split; [apply Rinv_0_lt_compat, pow_lt; lra|]. rewrite <- Rinv_1. apply Rinv_lt_contravar; [rewrite Rmult_1_l; apply pow_lt; lra|].
    replace 1 with (2 ^ 0) by ring. apply Rlt_pow; [lra|lia]. }
  assert (P : 2 ^ 27 <= 2 ^ 1023) by (apply Rle_pow; [lra|lia]).
  replace (2 ^ 27) with 134217728 in P by ring. replace (10 ^ 8) with 100000000 by ring.
  set (x := 2 ^ 1023) in *. set (e := / 2 ^ 52) in *.
  assert (x * 1 <= (2 - e) * x) by (rewrite Rmult_comm; apply Rmult_le_compat_r; lra). lra.
Qed.
Lemma vel_max_spec factor vel : forall ls lev acc, - 10 ^ 8 <= acc ->
  let r := vel_max factor vel acc lev ls in
  acc <= r /\
  (forall i l c, nth_error ls i = Some l -> In c (lcells l) -> level_mask l (skipn (S i) ls) c = 1%Z ->
     factor * vel (lev + i)%nat c <= r) /\
  (r = acc \/ r = - 10 ^ 8 \/
   exists i l c, nth_error ls i = Some l /\ In c (lcells l) /\ level_mask l (skipn (S i) ls) c = 1%Z /\
     r = factor * vel (lev + i)%nat c).
Proof.
  induction ls as [|l ls IH]; intros lev acc Ha; cbn [vel_max].
  - split; [lra|]. split; [intros i l c Hn; destruct i; discriminate|now left].
  - set (m := vel_max_level factor (level_mask l ls) (vel lev) (lcells l)).
    assert (Ha' : - 10 ^ 8 <= rmax acc m) by (rewrite rmax_spec; pose proof (Rmax_l acc m); lra).
    destruct (IH (S lev) (rmax acc m) Ha') as (A & B & C). cbn zeta in *.
    rewrite rmax_spec in *. pose proof (Rmax_l acc m). pose proof (Rmax_r acc m).
    destruct (fold_max_spec (map (fun c => if (0 <? level_mask l ls c)%Z then factor * vel lev c else lowest) (lcells l)) (- 10 ^ 8)) as (A1 & B1 & C1).
    fold (vel_max_level factor (level_mask l ls) (vel lev) (lcells l)) in A1, B1, C1. fold m in A1, B1, C1.
    split; [lra|]. split.
    + intros i l' c Hn Hi Hm. destruct i as [|i].
      * cbn in Hn. injection Hn as <-. rewrite Nat.add_0_r. cbn [skipn] in Hm.
        assert (K : factor * vel lev c <= m); [|lra]. apply B1. apply in_map_iff. exists c.
        rewrite Hm. split; [reflexivity|exact Hi].
      * rewrite Nat.add_succ_r. exact (B i l' c Hn Hi Hm).
    + destruct C as [->|[->|(i & l' & c & Hn & Hi & Hm & ->)]].
      * unfold Rmax. destruct (Rle_dec acc m); [|now left].
        destruct C1 as [->|C1]; [right; now left|]. apply in_map_iff in C1. destruct C1 as (c & E & I).
        destruct (level_mask01 l ls c) as [Mc|Mc]; rewrite Mc in E; cbn [Z.ltb Z.compare] in E.
        -- exfalso. pose proof lowest_small. lra.
        -- right; right. exists 0%nat, l, c. rewrite Nat.add_0_r. cbn [nth_error skipn].
           split; [reflexivity|]. split; [exact I|]. split; [exact Mc|]. symmetry. exact E.
      * right; now left.
      * right; right. exists (S i), l', c. rewrite Nat.add_succ_r. split; [exact Hn|]. split; [exact Hi|]. split; [exact Hm|reflexivity].
Qed.

Theorem c62_velocity problo len ls vel : mesh_ok ls ->
  (forall i c, uncovered ls i c -> Rabs (vel i c) < 10 ^ 8) ->
  let '((mx, _), (mn, _)) := max_and_loc problo len ls vel in
  (forall i c, uncovered ls i c -> mn <= vel i c <= mx) /\
  (exists i c, uncovered ls i c /\ mx = vel i c) /\
  (exists i c, uncovered ls i c /\ mn = vel i c).
Proof.
  intros M B. unfold max_and_loc.
  destruct (mesh_last ls M) as (init & a & El & Er).
  destruct (mesh_facts (fun _ => 1) (fun _ _ => 0) ls M init a El) as ((D0 & D1 & D2) & _).
  destruct (finest_source (fun _ _ => 0) ls M init a El (blo (g_dom a))) as (i0 & c0 & U0 & _ & _).
  { unfold ncells, icomp in D0, D1, D2. cbn [Z.eqb Pos.eqb] in D0, D1, D2. unfold in_box. lia. }
  destruct (vel_max_spec 1 vel ls 0%nat (- 10 ^ 8) (Rle_refl _)) as (_ & B1 & C1).
  destruct (vel_max_spec (-1) vel ls 0%nat (- 10 ^ 8) (Rle_refl _)) as (_ & B2 & C2). cbn zeta in *.
  assert (Bd : forall i c, uncovered ls i c -> - 10 ^ 8 < vel i c < 10 ^ 8).
  { intros i c U. specialize (B i c U). apply Rabs_def2 in B. lra. }
  assert (Up : forall i c, uncovered ls i c ->
     - vel_max (-1) vel (- 10 ^ 8) 0 ls <= vel i c <= vel_max 1 vel (- 10 ^ 8) 0 ls).
  { intros i c (l & Hn & Hi & Hm). specialize (B1 i l c Hn Hi Hm). specialize (B2 i l c Hn Hi Hm).
    cbn [Nat.add] in B1, B2. lra. }
  split; [exact Up|]. pose proof (Up i0 c0 U0) as K0. pose proof (Bd i0 c0 U0) as K1. split.
  - destruct C1 as [C1|[C1|(i & l & c & Hn & Hi & Hm & E)]]; [lra|lra|].
    exists i, c. split; [exists l; split; [exact Hn|split; [exact Hi|exact Hm]]|]. cbn [Nat.add] in E. lra.
  - destruct C2 as [C2|[C2|(i & l & c & Hn & Hi & Hm & E)]]; [lra|lra|].
    exists i, c. split; [exists l; split; [exact Hn|split; [exact Hi|exact Hm]]|]. cbn [Nat.add] in E. lra.
Qed.
Print Assumptions c62_velocity.

(** The printed location: right when only one cell attains the extremum. *)
Definition attains (ls : list glevel) (vel : nat -> ivec -> R) (ext : R) (i : nat) (c : ivec) : Prop :=
  uncovered ls i c /\ Rabs (ext - vel i c) < loc_tol.
Definition centre (problo len : Z -> R) (ls : list glevel) (i : nat) (c : ivec) (d : Z) : R :=
  problo d + (IZR (icomp c d) + 1/2) * cell_size len (nth_level ls i) d.

Lemma vel_loc_spec problo len d ext vel : forall ls lev acc, problo d <= acc ->
  let r := vel_loc problo len d ext vel acc lev ls in
  acc <= r /\
  (forall i l c, nth_error ls i = Some l -> In c (lcells l) -> level_mask l (skipn (S i) ls) c = 1%Z ->
     Rabs (ext - vel (lev + i)%nat c) < loc_tol ->
     problo d + (IZR (icomp c d) + 1/2) * cell_size len l d <= r) /\
  (r = acc \/
   exists i l c, nth_error ls i = Some l /\ In c (lcells l) /\ level_mask l (skipn (S i) ls) c = 1%Z /\
     Rabs (ext - vel (lev + i)%nat c) < loc_tol /\
     r = problo d + (IZR (icomp c d) + 1/2) * cell_size len l d).
Proof.
  induction ls as [|l ls IH]; intros lev acc Ha; cbn [vel_loc].
  - split; [lra|]. split; [intros i l c Hn; destruct i; discriminate|now left].
  - set (m := loc_level (problo d) (cell_size len l d) d ext (level_mask l ls) (vel lev) (lcells l)).
    assert (Ha' : problo d <= rmax acc m) by (rewrite rmax_spec; pose proof (Rmax_l acc m); lra).
    destruct (IH (S lev) (rmax acc m) Ha') as (A & B & C). cbn zeta in *.
    rewrite rmax_spec in *. pose proof (Rmax_l acc m). pose proof (Rmax_r acc m).
    destruct (fold_max_spec (map (fun c => if (0 <? level_mask l ls c)%Z && Rltb (Rabs (ext - vel lev c)) loc_tol
                   then problo d + (IZR (icomp c d) + 1/2) * cell_size len l d else problo d) (lcells l)) (problo d)) as (A1 & B1 & C1).
    fold (loc_level (problo d) (cell_size len l d) d ext (level_mask l ls) (vel lev) (lcells l)) in A1, B1, C1. fold m in A1, B1, C1.
    split; [lra|]. split.
    + intros i l' c Hn Hi Hm Hv. destruct i as [|i].
      * cbn in Hn. injection Hn as <-. rewrite Nat.add_0_r in Hv. cbn [skipn] in Hm.
        assert (K : problo d + (IZR (icomp c d) + 1/2) * cell_size len l d <= m); [|lra]. apply B1.
        apply in_map_iff. exists c. rewrite Hm, (proj2 (Rltb_spec _ _) Hv). split; [reflexivity|exact Hi].
      * rewrite Nat.add_succ_r in Hv. exact (B i l' c Hn Hi Hm Hv).
    + destruct C as [->|(i & l' & c & Hn & Hi & Hm & Hv & ->)].
      * unfold Rmax. destruct (Rle_dec acc m) as [Le|]; [|now left].
        destruct C1 as [C1|C1]; [left; lra|]. apply in_map_iff in C1. destruct C1 as (c & E & I).
        destruct ((0 <? level_mask l ls c)%Z && Rltb (Rabs (ext - vel lev c)) loc_tol) eqn:T; [|left; lra].
        apply andb_prop in T. destruct T as [T1 T2]. apply Rltb_spec in T2.
        right. exists 0%nat, l, c. rewrite Nat.add_0_r. cbn [nth_error skipn].
        split; [reflexivity|]. split; [exact I|]. split; [|split; [exact T2|symmetry; exact E]].
        destruct (level_mask01 l ls c) as [Mc|Mc]; [rewrite Mc in T1; discriminate|exact Mc].
      * right. exists (S i), l', c. rewrite Nat.add_succ_r. split; [exact Hn|]. split; [exact Hi|]. split; [exact Hm|]. split; [exact Hv|reflexivity].
Qed.

Theorem c62_location problo len ls vel ext i c d :
  attains ls vel ext i c ->
  (forall i' c', attains ls vel ext i' c' -> i' = i /\ c' = c) ->
  problo d <= centre problo len ls i c d ->
  vel_loc problo len d ext vel (problo d) 0 ls = centre problo len ls i c d.
Proof.
  intros (U & V) Uniq Hp.
  destruct (vel_loc_spec problo len d ext vel ls 0%nat (problo d) (Rle_refl _)) as (_ & B & C). cbn zeta in *.
  assert (Nth : forall i a, nth_error ls i = Some a -> nth_level ls i = a).
  { intros j a Ha. unfold nth_level. apply nth_error_nth. exact Ha. }
  destruct U as (l & Hn & Hi & Hm). pose proof (B i l c Hn Hi Hm V) as Low. cbn [Nat.add] in *.
  unfold centre in *. rewrite (Nth _ _ Hn) in *.
  destruct C as [C|(i' & l' & c' & Hn' & Hi' & Hm' & V' & C)]; [lra|].
  destruct (Uniq i' c') as [-> ->].
  { split; [exists l'; split; [exact Hn'|split; [exact Hi'|exact Hm']]|exact V']. }
  rewrite Hn in Hn'. injection Hn' as <-. exact C.
Qed.
Print Assumptions c62_location.

(** What is printed: for the maximum and for the minimum, attained by one cell each, all three
    coordinates of the centre of that cell. *)
Theorem c62_printed problo len ls vel ix cx im cm :
  let '((mx, (x0, x1, x2)), (mn, (n0, n1, n2))) := max_and_loc problo len ls vel in
  attains ls vel mx ix cx -> (forall i c, attains ls vel mx i c -> i = ix /\ c = cx) ->
  attains ls vel mn im cm -> (forall i c, attains ls vel mn i c -> i = im /\ c = cm) ->
  (forall d, problo d <= centre problo len ls ix cx d /\ problo d <= centre problo len ls im cm d) ->
  (x0 = centre problo len ls ix cx 0 /\ x1 = centre problo len ls ix cx 1 /\ x2 = centre problo len ls ix cx 2) /\
  (n0 = centre problo len ls im cm 0 /\ n1 = centre problo len ls im cm 1 /\ n2 = centre problo len ls im cm 2).
Proof.
  unfold max_and_loc. intros A UA B UB P.
  assert (K : forall d, problo d <= centre problo len ls ix cx d) by (intros d; apply P).
  assert (L : forall d, problo d <= centre problo len ls im cm d) by (intros d; apply P).
  split; (split; [|split]);
    [apply (c62_location problo len ls vel _ ix cx 0 A UA (K 0%Z))|apply (c62_location problo len ls vel _ ix cx 1 A UA (K 1%Z))
    |apply (c62_location problo len ls vel _ ix cx 2 A UA (K 2%Z))|apply (c62_location problo len ls vel _ im cm 0 B UB (L 0%Z))
    |apply (c62_location problo len ls vel _ im cm 1 B UB (L 1%Z))|apply (c62_location problo len ls vel _ im cm 2 B UB (L 2%Z))].
Qed.
Print Assumptions c62_printed.

(** Several cells with the same extreme value: each coordinate is maximised separately and the
    printed point need not be one of those cells. *)
Definition flat4 : list glevel :=
  [GL (Box (IV 0 0 0) (IV 1 1 0)) [Box (IV 0 0 0) (IV 1 1 0)] (IV 2 2 2)].
Lemma flat4_ok : mesh_ok flat4.
Proof.
  unfold flat4. cbn [mesh_ok]. split; [unfold ncells, icomp; cbn; lia|]. split.
  - intros c. unfold in_level. cbn [g_boxes g_dom]. split; [intros (b & [<-|[]] & H); exact H|].
    intros H. eexists. split; [now left|exact H].
  - cbn [chain]. split; [|split; exact I]. unfold no_overlap, lcells. cbn [g_boxes flat_map].
    rewrite app_nil_r. apply NoDup_cells.
Qed.
Definition vel4 (c : ivec) : R := if (iv0 c + iv1 c =? 1)%Z then 1 else 0.
Theorem c62_location_refuted :
  let len := fun d => if (d =? 2)%Z then 1 else 2 in
  vel_loc (fun _ => 0) len 0 1 (fun _ => vel4) 0 0 flat4 = 3/2 /\
  vel_loc (fun _ => 0) len 1 1 (fun _ => vel4) 0 0 flat4 = 3/2 /\
  vel4 (IV 1 1 0) = 0 /\ vel4 (IV 1 0 0) = 1 /\ vel4 (IV 0 1 0) = 1.
Proof.
  cbn zeta. set (len := fun d => if (d =? 2)%Z then 1 else 2).
  assert (T : 0 < loc_tol < 1).
  { unfold loc_tol. replace (10 ^ 6) with 1000000 by ring.
    assert (P : 0 < / 2 ^ 52) by (apply Rinv_0_lt_compat, pow_lt; lra).
    assert (Q : / 2 ^ 52 <= / 2 ^ 20) by (apply Rinv_le_contravar; [apply pow_lt; lra|apply Rle_pow; [lra|lia]]).
    replace (2 ^ 20) with 1048576 in Q by ring. lra. }
  assert (Near : forall c, Rltb (Rabs (1 - vel4 c)) loc_tol = (iv0 c + iv1 c =? 1)%Z).
  { intros c. unfold vel4. destruct (iv0 c + iv1 c =? 1)%Z.
    - replace (1 - 1) with 0 by ring. rewrite Rabs_R0. apply Rltb_spec. lra.
    - rewrite Rminus_0_r, Rabs_R1. apply Rltb_false. lra. }
  assert (Sz : forall d, (d = 0 \/ d = 1)%Z -> cell_size len (nth_level flat4 0) d = 1).
  { intros d [->| ->]; unfold cell_size, nth_level, flat4, ncells, icomp, len; cbn [nth g_dom blo bhi iv0 iv1 Z.eqb Pos.eqb];
      replace (1 - 0 + 1)%Z with 2%Z by reflexivity; field. }
  assert (Main : forall d, (d = 0 \/ d = 1)%Z -> vel_loc (fun _ => 0) len d 1 (fun _ => vel4) 0 0 flat4 = 3/2).
  { intros d Hd. destruct (vel_loc_spec (fun _ => 0) len d 1 (fun _ => vel4) flat4 0%nat 0 (Rle_refl _)) as (A & B & C). cbn zeta in *.
    set (r := vel_loc (fun _ => 0) len d 1 (fun _ => vel4) 0 0 flat4) in *.
    pose proof (Sz d Hd) as S. unfold nth_level, flat4 in S. cbn [nth] in S.
    assert (K : 3/2 <= r).
    { destruct Hd as [->| ->].
      - specialize (B 0%nat _ (IV 1 0 0) eq_refl). rewrite S in B. cbn [icomp iv0 Z.eqb] in B.
        assert (0 + (1 + 1/2) * 1 <= r); [|lra]. apply B; [vm_compute; tauto|reflexivity|].
        apply Rltb_spec. rewrite Near. reflexivity.
      - specialize (B 0%nat _ (IV 0 1 0) eq_refl). rewrite S in B. cbn [icomp iv1 Z.eqb Pos.eqb] in B.
        assert (0 + (1 + 1/2) * 1 <= r); [|lra]. apply B; [vm_compute; tauto|reflexivity|].
        apply Rltb_spec. rewrite Near. reflexivity. }
    destruct C as [C|(i & l & c & Hn & Hi & _ & _ & C)]; [lra|].
    destruct i as [|i]; [|destruct i; discriminate]. cbn in Hn. injection Hn as <-. rewrite S in C.
    apply in_lcells in Hi. destruct Hi as (b & [<-|[]] & Hb). unfold in_box in Hb. cbn [blo bhi iv0 iv1 iv2] in Hb.
    assert (IZR (icomp c d) <= 1) by (apply IZR_le; destruct Hd as [->| ->]; cbn [icomp Z.eqb Pos.eqb]; lia).
    lra. }
  split; [apply Main; now left|]. split; [apply Main; now right|].
  unfold vel4. cbn. repeat split; reflexivity.
Qed.
Print Assumptions c62_location_refuted.

(** * The hypotheses hold somewhere: a two-level mesh in two boxes, uniform flow *)
Example c60_case : mesh_ok mesh2 /\
  kinetic_energy (fun _ => 4) mesh2 (fun _ _ => 2) (fun _ _ => 3) (fun _ _ => 0) (fun _ _ => 4) = 25.
Proof.
  split; [exact mesh2_ok|]. rewrite (c60_uniform_flow _ _ _ _ _ _ mesh2_ok); [lra|unfold prob_volume; lra].
Qed.
Example c61_case : max_norm true cell_type mesh2 (fun i _ => [3; INR i; 4]) <> UB.
Proof. destruct (c61_infinity mesh2 (fun i _ => [3; INR i; 4]) mesh2_ok) as (m & E & _). rewrite E. discriminate. Qed.
Example c62_case : masked_extrema 1 [(1, 5); (0, 100); (1, -2)] = (5, -2, true).
Proof.
  pose proof (c62_masked 1 [(1, 5); (0, 100); (1, -2)]) as H.
  assert (T : 0 < tight_tol < 1).
  { unfold tight_tol. assert (P : 0 < / 2 ^ 52) by (apply Rinv_0_lt_compat, pow_lt; lra).
    assert (Q : / 2 ^ 52 <= / 2 ^ 20) by (apply Rinv_le_contravar; [apply pow_lt; lra|apply Rle_pow; [lra|lia]]).
    replace (2 ^ 20) with 1048576 in Q by ring. lra. }
  assert (B : forall p, In p [(1, 5); (0, 100); (1, -2)] -> Rabs (snd p) <= large_num / 4).
  { assert (L : 1000 <= large_num).
    { unfold large_num.
      assert (A : 0 < / 2 ^ 52 < 1).
      { split; [apply Rinv_0_lt_compat, pow_lt; lra|]. rewrite <- Rinv_1. apply Rinv_lt_contravar; [rewrite Rmult_1_l; apply pow_lt; lra|].
        replace 1 with (2 ^ 0) by ring. apply Rlt_pow; [lra|lia]. }
      assert (P : 2 ^ 44 <= 2 ^ 1023) by (apply Rle_pow; [lra|lia]).
      replace (2 ^ 44) with 17592186044416 in P by ring.
      replace (10 ^ 10) with 10000000000 by ring.
      set (x := 2 ^ 1023) in *. set (e := / 2 ^ 52) in *.
      assert (x * 1 <= (2 - e) * x) by (rewrite Rmult_comm; apply Rmult_le_compat_r; lra). lra. }
    intros p [<-|[<-|[<-|[]]]]; cbn [snd]; unfold Rabs; destruct (Rcase_abs _); lra. }
  specialize (H B). destruct (masked_extrema 1 [(1, 5); (0, 100); (1, -2)]) as [[mx mn] fd].
  destruct H as [F G].
  assert (Cl : forall p, In p [(1, 5); (0, 100); (1, -2)] -> (Rabs (fst p - 1) < tight_tol <-> fst p = 1)).
  { intros p [<-|[<-|[<-|[]]]]; cbn [fst]; unfold Rabs; destruct (Rcase_abs _); split; lra. }
  assert (Fd : fd = true).
  { apply F. exists (1, 5). split; [now left|]. apply Cl; [now left|reflexivity]. }
  destruct (G Fd) as (U & (p & Ip & Hp & Ep) & (q & Iq & Hq & Eq)). subst fd.
  apply (Cl p Ip) in Hp. apply (Cl q Iq) in Hq.
  assert (U1 : mn <= 5 <= mx) by (apply (U (1, 5)); [now left|apply Cl; [now left|reflexivity]]).
  assert (U2 : mn <= -2 <= mx) by (apply (U (1, -2)); [right; right; now left|apply Cl; [right; right; now left|reflexivity]]).
  assert (Emx : mx = 5) by (destruct Ip as [<-|[<-|[<-|[]]]]; cbn [fst snd] in *; lra).
  assert (Emn : mn = -2) by (destruct Iq as [<-|[<-|[<-|[]]]]; cbn [fst snd] in *; lra).
  rewrite Emx, Emn. reflexivity.
Qed.
