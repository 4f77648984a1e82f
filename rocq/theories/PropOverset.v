(** C46, C58: overset masks, blanked data and sharpening. *)
From Coq Require Import Reals Lra ZArith List Bool Lia ZifyBool Psatz Floats.SpecFloat.
From Verif Require Import BoxR BoxRFacts VecSpace Plic PropPlic VofAdvect VofSpec VofProofs VofProofs2 Overset.
Open Scope R_scope.

(** *** Vocabulary *)
(** The blanking field of the coupling: 1 solved here, 0 hole, -1 received from the
    other solver. *)
Definition blanking (ib : ivec -> Z) : Prop := forall c, (ib c = 1 \/ ib c = 0 \/ ib c = -1)%Z.
(** [x] is [c] or touches it (also at an edge or corner). *)
Definition touches (x c : ivec) : Prop :=
  (-1 <= iv0 x - iv0 c <= 1 /\ -1 <= iv1 x - iv1 c <= 1 /\ -1 <= iv2 x - iv2 c <= 1)%Z.
(** [c] is one of the eight cells around node [n]. *)
Definition around (n c : ivec) : Prop :=
  (-1 <= iv0 c - iv0 n <= 0 /\ -1 <= iv1 c - iv1 n <= 0 /\ -1 <= iv2 c - iv2 n <= 0)%Z.
(** The interface is near [c]: a mixed cell or a change of the volume fraction. *)
Definition interface_near (vof : ivec -> R) (c : ivec) : Prop :=
  (exists x, touches x c /\ 1 / 10000 < vof x < 1 - 1 / 10000) \/
  (exists x y, touches x c /\ touches y c /\ vof x - vof y > 1 / 10000).
(** A blanked cell is released to the solver near the interface next to its own cells,
    away from holes. *)
Definition released (ib : ivec -> Z) (c : ivec) : Prop :=
  ib c = (-1)%Z /\ (exists x, touches x c /\ ib x = 1%Z) /\ (forall x, touches x c -> ib x <> 0%Z).

Lemma in_hood x c : In x (hood c) <-> touches x c.
Proof. unfold hood. rewrite in_cells. unfold in_box, touches. cbn [blo bhi iv0 iv1 iv2]. lia. Qed.
Lemma in_node_cells x c : In x (node_cells c) <-> around c x.
Proof. unfold node_cells. rewrite in_cells. unfold in_box, around. cbn [blo bhi iv0 iv1 iv2]. lia. Qed.
Lemma ivec_eq x y : iv0 x = iv0 y -> iv1 x = iv1 y -> iv2 x = iv2 y -> x = y.
Proof. destruct x, y. cbn. intros -> -> ->. reflexivity. Qed.
Lemma band_spec vof c : (forall x, touches x c -> 0 <= vof x <= 1) ->
  (interface_band vof (iv0 c) (iv1 c) (iv2 c) 1 band_tol = true <-> interface_near vof c).
Proof.
  intros H.
  assert (T : forall a b e, (-1 <= a <= 1)%Z -> (-1 <= b <= 1)%Z -> (-1 <= e <= 1)%Z ->
     touches (IV (iv0 c + a) (iv1 c + b) (iv2 c + e)) c) by (intros; unfold touches; cbn [iv0 iv1 iv2]; lia).
  assert (U : forall x, touches x c -> exists a b e, (-1 <= a <= 1)%Z /\ (-1 <= b <= 1)%Z /\ (-1 <= e <= 1)%Z /\
     x = IV (iv0 c + a) (iv1 c + b) (iv2 c + e)).
  { intros x Hx. unfold touches in Hx. exists (iv0 x - iv0 c)%Z, (iv1 x - iv1 c)%Z, (iv2 x - iv2 c)%Z.
    split; [lia|]. split; [lia|]. split; [lia|]. apply ivec_eq; cbn [iv0 iv1 iv2]; lia. }
  rewrite c30_interface_band; [|lia|unfold band_tol; lra|intros a b e A B E; apply H, T; lia].
  unfold interface_near, band_tol. split.
  - intros [(a & b & e & A & B & E & F)|(a & b & e & a' & b' & e' & A & B & E & A' & B' & E' & F)].
    + left. eexists. split; [|exact F]. apply T; lia.
    + right. eexists. eexists. split; [|split; [|exact F]]; apply T; lia.
  - intros [(x & X & F)|(x & y & X & Y & F)].
    + left. destruct (U x X) as (a & b & e & A & B & E & ->). exists a, b, e. repeat (split; [assumption || lia|]). exact F.
    + right. destruct (U x X) as (a & b & e & A & B & E & ->). destruct (U y Y) as (a' & b' & e' & A' & B' & E' & ->).
      exists a, b, e, a', b', e'. repeat (split; [assumption || lia|]). exact F.
Qed.

(** *** Masks *)
Theorem c46_mask : forall ib c, blanking ib ->
  (iblank_to_mask ib c = 1%Z <-> ib c = 1%Z) /\ (iblank_to_mask ib c = 0%Z <-> ib c <> 1%Z).
Proof. intros ib c B. unfold iblank_to_mask. specialize (B c). lia. Qed.

Lemma mask_vof_spec near ib c : blanking ib ->
  (mask_vof near ib c = 1%Z <-> ib c = 1%Z \/ (released ib c /\ near = true)) /\
  (mask_vof near ib c = 1%Z \/ mask_vof near ib c = 0%Z).
Proof.
  intros B. unfold mask_vof. cbv zeta.
  destruct ((ib c =? -1)%Z && (existsb (fun x => (ib x =? 1)%Z) (hood c) && near && negb (existsb (fun x => (ib x =? 0)%Z) (hood c)))) eqn:E.
  - apply andb_prop in E as (E1 & E2). apply andb_prop in E2 as (E2 & E4). apply andb_prop in E2 as (E2 & E3).
    split; [|left; reflexivity]. split; [intros _; right|reflexivity].
    split; [|exact E3]. split; [lia|]. split.
    + apply existsb_exists in E2. destruct E2 as (x & X & Y). exists x. rewrite <- in_hood. split; [exact X|lia].
    + intros x X. rewrite <- in_hood in X. apply negb_true_iff in E4. intros Z0.
      assert (existsb (fun x => (ib x =? 0)%Z) (hood c) = true); [|congruence].
      apply existsb_exists. exists x. split; [exact X|lia].
  - specialize (B c). split; [|lia]. split; [intros M; left; lia|].
    intros [->|((R1 & (x & X & R2) & R3) & ->)]; [reflexivity|]. exfalso.
    rewrite R1 in E. cbn [Z.eqb Pos.eqb andb] in E. rewrite andb_true_r in E.
    assert (E2 : existsb (fun x => (ib x =? 1)%Z) (hood c) = true).
    { apply existsb_exists. exists x. rewrite in_hood. split; [exact X|lia]. }
    rewrite E2 in E. cbn [andb] in E. apply negb_false_iff in E. apply existsb_exists in E. destruct E as (y & Y & Z0).
    rewrite in_hood in Y. specialize (R3 y Y). lia.
Qed.
(** The masks used by the two projections. *)
Theorem c46_mask_mac : forall ib vof c, blanking ib -> (forall x, touches x c -> 0 <= vof x <= 1) ->
  (mask_vof_cell ib vof c = 1%Z <-> ib c = 1%Z \/ (released ib c /\ interface_near vof c)) /\
  (mask_vof_cell ib vof c = 1%Z \/ mask_vof_cell ib vof c = 0%Z).
Proof.
  intros ib vof c B V. unfold mask_vof_cell. destruct (mask_vof_spec (interface_band vof (iv0 c) (iv1 c) (iv2 c) 1 band_tol) ib c B) as (A1 & A2).
  split; [|exact A2]. rewrite A1, band_spec by exact V. reflexivity.
Qed.
Theorem c46_mask_nodal : forall ib vof n, blanking ib -> (forall x, 0 <= vof x <= 1) ->
  (mask_vof_node ib vof n = 1%Z <-> ib n = 1%Z \/ (released ib n /\ exists c, around n c /\ interface_near vof c)) /\
  (mask_vof_node ib vof n = 1%Z \/ mask_vof_node ib vof n = 0%Z).
Proof.
  intros ib vof n B V. unfold mask_vof_node.
  destruct (mask_vof_spec (existsb (fun x => interface_band vof (iv0 x) (iv1 x) (iv2 x) 1 band_tol) (node_cells n)) ib n B) as (A1 & A2).
  split; [|exact A2]. rewrite A1. apply or_iff_compat_l. apply and_iff_compat_l. rewrite existsb_exists. split.
  - intros (c & C & D). exists c. rewrite <- in_node_cells. split; [exact C|]. apply band_spec; [intros; apply V|exact D].
  - intros (c & C & D). exists c. rewrite in_node_cells. split; [exact C|]. apply band_spec; [intros; apply V|exact D].
Qed.
Lemma inb_spec b c : inb b c = true <-> in_box b c.
Proof. unfold inb, in_box. rewrite !andb_true_iff, !Z.leb_le. tauto. Qed.
(** Preparing the MAC projection changes the mask only in cells received from the other
    solver, from 0 to 1; reverting restores every cell and ghost cell. *)
Theorem c46_mask_mac_frame : forall b gh vof ib mask c, blanking ib -> (forall x, mask x = iblank_to_mask ib x) -> in_box b c ->
  prepare_mask b gh vof ib mask c = mask c \/
  (released ib c /\ mask c = 0%Z /\ prepare_mask b gh vof ib mask c = 1%Z).
Proof.
  intros b gh vof ib mask c B M H. destruct vof as [v|]; [|left; reflexivity].
  unfold prepare_mask, fill. apply inb_spec in H. rewrite H.
  unfold mask_vof_cell. destruct (mask_vof_spec (interface_band v (iv0 c) (iv1 c) (iv2 c) 1 band_tol) ib c B) as (A1 & A2).
  destruct (c46_mask ib c B) as (M1 & M2). rewrite M. pose proof (B c).
  destruct A2 as [A2|A2].
  - rewrite A2. apply A1 in A2. destruct A2 as [A2|(A2 & _)]; [left; symmetry; apply M1; exact A2|].
    right. split; [exact A2|]. split; [|reflexivity]. apply M2. destruct A2 as (A2 & _). lia.
  - rewrite A2. left. symmetry. apply M2. intros E. rewrite A2 in A1. assert (0 = 1)%Z by (apply A1; left; exact E). lia.
Qed.
Theorem c46_mask_restored : forall b gh vof ib mask, (forall x, mask x = iblank_to_mask ib x) ->
  forall c, revert_mask vof ib (prepare_mask b gh vof ib mask) c = mask c.
Proof. intros b gh vof ib mask M c. destruct vof as [v|]; [|reflexivity]. symmetry. apply M. Qed.

(** *** Replaced data *)
Theorem c46_harmonize : forall ib og tg c,
  (ib c = (-1)%Z -> harmonize_vof ib og tg c = tg c) /\ (ib c <> (-1)%Z -> harmonize_vof ib og tg c = og c).
Proof. intros ib og tg c. unfold harmonize_vof. destruct (Z.eqb_spec (ib c) (-1)); cbn [negb]; tauto. Qed.
(** After the solve: cells solved here keep pressure gradient and velocity; in blanked
    cells the pressure gradient of the other solver is restored, and the velocity is what
    it would have been with it. *)
Theorem c46_postsolve : forall dt ib rho gp0 gp vel n c, rho c <> 0 ->
  let r := replace_masked_gradp dt ib rho gp0 gp vel in
  ((ib c > 0)%Z -> fst r n c = gp n c /\ snd r n c = vel n c) /\
  ((ib c <= 0)%Z -> fst r n c = gp0 n c /\ rho c * (snd r n c - vel n c) = dt * (gp n c - gp0 n c)).
Proof.
  intros dt ib rho gp0 gp vel n c R r. unfold r, replace_masked_gradp. cbn [fst snd].
  unfold apply_gradp, replace_gradp. split; intros H.
  - replace (ib c <=? 0)%Z with false by lia. split; [reflexivity|]. field. exact R.
  - replace (ib c <=? 0)%Z with true by lia. split; [reflexivity|]. field. exact R.
Qed.
(** Not bit for bit: removing and adding the same pressure gradient changes the velocity
    of cells that are not masked (density 1, time step 0.5, gradient 1, velocity 0.1). *)
Theorem c46_postsolve_bits_refuted : exists dt rho gp vel,
  rho = b64 1 /\ SFeqb (b64_gradp_twice dt rho gp vel) vel = false.
Proof. exists (b64q 1 2), (b64 1), (b64 1), (b64q 1 10). split; [reflexivity|]. vm_compute. reflexivity. Qed.
(** Nor does sharpening: multiplying and dividing by the density (water, 0.7 m/s). *)
Theorem c46_velocity_bits_refuted : exists ptfac dens vel,
  dens = b64 1000 /\ vel = b64q 7 10 /\ SFeqb (b64_keep_velocity ptfac dens vel) vel = false.
Proof. exists (b64q 1 2), (b64 1000), (b64q 7 10). split; [reflexivity|]. split; [reflexivity|]. vm_compute. reflexivity. Qed.

(** *** Sharpening leaves the cells of this solver alone *)
Definition dir3 (d : Z) : Prop := (d = 0 \/ d = 1 \/ d = 2)%Z.
Lemma process_zero ib F d n c : blanking ib -> ib c <> (-1)%Z \/ ib (ish d (-1) c) <> (-1)%Z ->
  process_flux ib F d n c = 0.
Proof.
  intros B H. unfold process_flux. pose proof (B c). pose proof (B (ish d (-1) c)).
  replace (-2 <? ib (ish d (-1) c) + ib c)%Z with true by lia. ring.
Qed.
Lemma process_keep ib F d n c : ib c = (-1)%Z -> ib (ish d (-1) c) = (-1)%Z -> process_flux ib F d n c = F d n c.
Proof. intros A B. unfold process_flux. rewrite A, B. cbn. ring. Qed.
Lemma ish_back d c : ish d (-1) (ish d 1 c) = c.
Proof. unfold ish. rewrite shift_add. apply shift_0. Qed.
Lemma fdiv_frame P ib tg s n c : blanking ib -> ib c <> (-1)%Z -> fdiv (pc_dx P) (step_flux P ib tg s) n c = 0.
Proof.
  intros B H. unfold fdiv, step_flux.
  rewrite !process_zero by (exact B || (left; exact H) || (right; rewrite ish_back; exact H)).
  unfold Rdiv. ring.
Qed.
Lemma clip_range tol v : 0 <= tol < 1/2 -> 0 <= clip_vof tol v <= 1.
Proof.
  intros T. unfold clip_vof. destruct (Rltb v tol) eqn:A; [lra|]. apply Rltb_false in A.
  destruct (Rltb (1 - tol) v) eqn:E; [lra|]. apply Rltb_false in E. lra.
Qed.
Definition settled (tol v : R) : Prop := v = 0 \/ v = 1 \/ tol <= v <= 1 - tol.
Lemma clip_settled tol v : 0 <= tol < 1/2 -> (clip_vof tol v = v <-> settled tol v).
Proof.
  intros T. unfold clip_vof, settled. destruct (Rltb v tol) eqn:A.
  - apply Rltb_spec in A. split; [intros <-; left; reflexivity|]. intros [->|[->|H]]; [reflexivity|lra|lra].
  - apply Rltb_false in A. destruct (Rltb (1 - tol) v) eqn:E.
    + apply Rltb_spec in E. split; [intros <-; right; left; reflexivity|]. intros [->|[->|H]]; [lra|reflexivity|lra].
    + apply Rltb_false in E. split; [intros _; right; right; lra|reflexivity].
Qed.
Lemma clip_idem tol v : 0 <= tol < 1/2 -> settled tol (clip_vof tol v).
Proof.
  intros T. unfold clip_vof, settled. destruct (Rltb v tol) eqn:A; [left; reflexivity|]. apply Rltb_false in A.
  destruct (Rltb (1 - tol) v) eqn:E; [right; left; reflexivity|]. apply Rltb_false in E. right; right. lra.
Qed.
Lemma step_in P ib tg s c : in_box (pc_box P) c ->
  o_vof (sharpen_step P ib tg s) c =
    clip_vof (pc_vof_tol P) (o_vof s c + step_ptfac P ib tg s * fdiv (pc_dx P) (step_flux P ib tg s) 0 c) /\
  o_rho (sharpen_step P ib tg s) c = density_of (pc_rho1 P) (pc_rho2 P) (o_vof (sharpen_step P ib tg s) c) /\
  (forall n, o_vel (sharpen_step P ib tg s) n c =
     1 / (o_rho s c + step_ptfac P ib tg s * fdiv (pc_dx P) (step_flux P ib tg s) 1 c) *
     (o_rho s c * o_vel s n c + step_ptfac P ib tg s * fdiv (pc_dx P) (step_flux P ib tg s) (n + 2) c)) /\
  (forall n, o_gp (sharpen_step P ib tg s) n c =
     o_gp s n c + step_ptfac P ib tg s * fdiv (pc_dx P) (step_flux P ib tg s) (n + 5) c).
Proof.
  intros H. apply inb_spec in H. unfold sharpen_step. cbv zeta. cbn [o_vof o_rho o_vel o_gp]. unfold fill. rewrite H.
  split; [reflexivity|]. split; [reflexivity|]. split; intros n; reflexivity.
Qed.
Lemma density_pos r1 r2 v : 0 < r1 -> 0 < r2 -> 0 <= v <= 1 -> 0 < density_of r1 r2 v.
Proof.
  intros A B V. unfold density_of.
  destruct (Rle_lt_dec v (1/2)).
  - assert (0 <= r1 * v) by (apply Rmult_le_pos; lra). assert (0 < r2 * (1 - v)) by (apply Rmult_lt_0_compat; lra). lra.
  - assert (0 < r1 * v) by (apply Rmult_lt_0_compat; lra). assert (0 <= r2 * (1 - v)) by (apply Rmult_le_pos; lra). lra.
Qed.
(** Physically sensible parameters. *)
Definition good (P : oparams) : Prop :=
  0 < pc_rho1 P /\ 0 < pc_rho2 P /\ 0 <= pc_vof_tol P < 1/2 /\ (forall d, 0 < pc_dx P d) /\ 0 < pc_gamma P.
Definition kept (P : oparams) (c : ivec) (s s' : ostate) : Prop :=
  (forall k, o_vel s' k c = o_vel s k c) /\ (forall k, o_gp s' k c = o_gp s k c) /\
  (settled (pc_vof_tol P) (o_vof s c) -> o_vof s' c = o_vof s c /\
     (o_rho s c = density_of (pc_rho1 P) (pc_rho2 P) (o_vof s c) -> o_rho s' c = o_rho s c)).
Lemma step_frame P ib tg s c : good P -> blanking ib -> in_box (pc_box P) c -> ib c <> (-1)%Z -> o_rho s c <> 0 ->
  kept P c s (sharpen_step P ib tg s) /\ o_rho (sharpen_step P ib tg s) c <> 0.
Proof.
  intros (G1 & G2 & G3 & _) B H Hc R. destruct (step_in P ib tg s c H) as (V & D & U & G).
  rewrite fdiv_frame in V by assumption. rewrite Rmult_0_r, Rplus_0_r in V.
  split; [split; [|split]|].
  - intros k. rewrite U, !fdiv_frame by assumption. field. exact R.
  - intros k. rewrite G, !fdiv_frame by assumption. ring.
  - intros S. assert (E : o_vof (sharpen_step P ib tg s) c = o_vof s c) by (rewrite V; apply clip_settled; assumption).
    split; [exact E|]. intros DD. rewrite D, E. symmetry. exact DD.
  - rewrite D. apply Rgt_not_eq. apply density_pos; [exact G1|exact G2|]. rewrite V. apply clip_range, G3.
Qed.
Lemma kept_trans P c s s' s'' : kept P c s s' -> kept P c s' s'' -> kept P c s s''.
Proof.
  intros (A1 & A2 & A3) (B1 & B2 & B3). split; [|split].
  - intros k. rewrite B1. apply A1.
  - intros k. rewrite B2. apply A2.
  - intros S. destruct (A3 S) as (E & F). rewrite E in B3. destruct (B3 S) as (E' & F').
    split; [congruence|]. intros D. rewrite F'; [apply F, D|]. rewrite F by exact D. exact D.
Qed.
Lemma loop_ind (P : oparams) ib tg (I : ostate -> Prop) :
  (forall s, I s -> I (sharpen_step P ib tg s)) ->
  forall fuel n err s m s', I s -> sharpen_loop P ib tg fuel n err s = Ret (m, s') -> I s' /\ (n <= m <= n + Z.of_nat fuel)%Z.
Proof.
  intros St. induction fuel as [|k IH]; intros n err s m s' Is H; cbn [sharpen_loop] in H.
  - injection H as <- <-. split; [exact Is|lia].
  - destruct (Rltb (pc_convg_tol P) err); [|injection H as <- <-; split; [exact Is|lia]].
    destruct (pc_interval P =? 0)%Z; [discriminate|]. cbv zeta in H.
    apply IH in H; [|apply St, Is]. split; [tauto|lia].
Qed.
Theorem c46_sharpen_frame : forall P ib tg s n s' c, good P -> blanking ib -> in_box (pc_box P) c ->
  ib c <> (-1)%Z -> o_rho s c <> 0 -> sharpen P ib tg s = Ret (n, s') -> kept P c s s'.
Proof.
  intros P ib tg s n s' c G B H Hc R S. unfold sharpen in S.
  apply (loop_ind P ib (harmonize_vof ib (o_vof s) tg) (fun x => kept P c s x /\ o_rho x c <> 0)) in S.
  - tauto.
  - intros x (K & Rx). destruct (step_frame P ib (harmonize_vof ib (o_vof s) tg) x c G B H Hc Rx) as (K' & R').
    split; [exact (kept_trans _ _ _ _ _ K K')|exact R'].
  - split; [|exact R]. split; [reflexivity|]. split; [reflexivity|]. intros _. split; reflexivity.
Qed.
(** Pressure at a node changes only if one of the cells around it is received data. *)
Lemma faces_frame ib F d n c : dir3 d -> blanking ib -> (forall x, around c x -> ib x <> (-1)%Z) ->
  forall x, In x (node_faces d c) -> process_flux ib F d n x = 0.
Proof.
  intros D B H x X. apply process_zero; [exact B|]. left. apply H.
  unfold node_faces in X. destruct D as [->|[->| ->]]; cbn [Z.eqb Pos.eqb In] in X;
    repeat (destruct X as [<-|X]; [unfold around, ish, shift; cbn [Z.eqb Pos.eqb iv0 iv1 iv2]; lia|]); destruct X.
Qed.
Lemma psource_frame ib F vof c : blanking ib -> (forall x, around c x -> ib x <> (-1)%Z) ->
  psource veps (process_flux ib F) vof c = 0.
Proof.
  intros B H. unfold psource.
  assert (Z0 : forall d n, dir3 d -> rsum (map (process_flux ib F d n) (node_faces d c)) = 0).
  { intros d n D. apply rsum_zero. intros x X. apply (faces_frame ib F d n c D B H x X). }
  unfold tddot, gp_flux_tensor. cbv zeta. cbn [txx txy txz tyx tyy tyz tzx tzy tzz].
  rewrite !Z0 by (unfold dir3; tauto). unfold Rdiv. ring.
Qed.
Theorem c46_sharpen_pressure : forall P ib tg s n s' c, blanking ib ->
  (forall x, around c x -> ib x <> (-1)%Z) -> sharpen P ib tg s = Ret (n, s') -> o_p s' c = o_p s c.
Proof.
  intros P ib tg s n s' c B H S. unfold sharpen in S.
  apply (loop_ind P ib (harmonize_vof ib (o_vof s) tg) (fun x => o_p x c = o_p s c)) in S; [tauto| |reflexivity].
  intros x E. unfold sharpen_step. cbv zeta. cbn [o_p]. unfold apply_fluxes. cbn [o_p].
  unfold step_flux. rewrite psource_frame by assumption. rewrite E. ring.
Qed.
(** Volume fractions close to 0 or 1 are changed in all cells, also in those of this
    solver. *)
Theorem c46_sharpen_clip_refuted : exists P ib tg s s' c, good P /\ blanking ib /\ in_box (pc_box P) c /\
  ib c = 1%Z /\ (forall x, ib x <> 0%Z) /\ pc_vof_tol P = veps * 10000 /\ pc_convg_tol P = veps * 10000 /\ pc_interval P = 1%Z /\
  sharpen P ib tg s = Ret (1%Z, s') /\ 0 < o_vof s c /\ o_vof s' c = 0.
Proof.
  set (t := veps * 10000).
  assert (Vp : 0 < veps) by (unfold veps; apply Rinv_0_lt_compat; lra).
  assert (T : 0 < t) by (unfold t; apply Rmult_lt_0_compat; lra).
  assert (T2 : t < 1/2). { unfold t, veps. assert (/ 4503599627370496 * 10000 * 4503599627370496 = 10000) by (field; lra). lra. }
  set (P := OP (Box (IV 0 0 0) (IV 7 7 7)) (fun _ => 1) 1 (1/10) 1000 1 t t 1 1%nat (fun f => f)).
  set (s := OS (fun _ => t / 2) (fun _ => density_of 1000 1 (t/2)) (fun _ _ => 0) (fun _ _ => 0) (fun _ => 0)).
  exists P, (fun c => if (iv0 c =? 5)%Z then (-1)%Z else 1%Z), (fun _ => 0), s.
  assert (G : good P). { unfold good, P. cbn. split; [lra|]. split; [lra|]. split; [lra|]. split; intros; lra. }
  assert (B : blanking (fun c => if (iv0 c =? 5)%Z then (-1)%Z else 1%Z)) by (intros c; cbv beta; destruct (iv0 c =? 5)%Z; lia).
  assert (I : in_box (pc_box P) (IV 2 2 2)) by (unfold in_box; cbn; lia).
  eexists. exists (IV 2 2 2). split; [exact G|]. split; [exact B|]. split; [exact I|].
  split; [reflexivity|]. split; [intros x; destruct (iv0 x =? 5)%Z; lia|]. split; [reflexivity|]. split; [reflexivity|]. split; [reflexivity|].
  split; [|split].
  - unfold sharpen. cbn [pc_iter P sharpen_loop]. replace (Rltb (pc_convg_tol P) (100 * pc_convg_tol P)) with true; [reflexivity|].
    symmetry. apply Rltb_spec. cbn [pc_convg_tol P]. lra.
  - cbn [o_vof s]. lra.
  - rewrite (proj1 (step_in P _ _ s (IV 2 2 2) I)). rewrite fdiv_frame by (exact B || (cbn; discriminate)).
    rewrite Rmult_0_r, Rplus_0_r. cbn [o_vof s pc_vof_tol P]. unfold clip_vof.
    replace (Rltb (t / 2) t) with true; [reflexivity|]. symmetry. apply Rltb_spec. lra.
Qed.

(** *** C58: conservation, bounds, stopping *)
(** No liquid crosses the ends of the domain, or what leaves at one end enters at the
    other. *)
Definition closed (P : oparams) (ib : ivec -> Z) (tg : ivec -> R) (s : ostate) : Prop :=
  forall d n c, dir3 d -> in_box (low_layer (pc_box P) d) c ->
    step_flux P ib tg s d n c = step_flux P ib tg s d n (opposite (pc_box P) d c).
(** It holds when no ghost cell is flagged as received, *)
Theorem c58_closed_interior : forall P ib tg s, blanking ib ->
  (forall d, dir3 d -> (icomp (blo (pc_box P)) d <= icomp (bhi (pc_box P)) d)%Z) ->
  (forall c, ~ in_box (pc_box P) c -> ib c <> (-1)%Z) -> closed P ib tg s.
Proof.
  intros P ib tg s B N H d n c D C. unfold step_flux. specialize (N d D).
  rewrite (process_zero ib _ d n c B), (process_zero ib _ d n (opposite (pc_box P) d c) B); [reflexivity| |].
  - left. apply H. rewrite opposite_shift. intros X. revert C X. generalize (pc_box P) N. intros b N0 C X.
    destruct D as [->|[->| ->]]; unfold in_box, low_layer, extent, shift, icomp in *; cbn [Z.eqb Pos.eqb iv0 iv1 iv2 blo bhi] in *; lia.
  - right. apply H. intros X. revert C X. generalize (pc_box P). intros b C X. unfold ish in X.
    destruct D as [->|[->| ->]]; unfold in_box, low_layer, extent, shift, icomp in *; cbn [Z.eqb Pos.eqb iv0 iv1 iv2 blo bhi] in *; lia.
Qed.
(** and when the flags and the data are periodic. *)
Definition periodic {A} (b : box) (f : ivec -> A) : Prop :=
  forall d c, dir3 d -> f (shift c d (extent b d)) = f c.
Lemma shift_comm c d e s t : shift (shift c d s) e t = shift (shift c e t) d s.
Proof.
  unfold shift. destruct (d =? 0)%Z, (d =? 1)%Z, (e =? 0)%Z, (e =? 1)%Z; cbn [iv0 iv1 iv2]; f_equal; ring.
Qed.

Lemma icomp_shift c d s e : dir3 d -> dir3 e -> icomp (shift c d s) e = (icomp c e + if (d =? e)%Z then s else 0)%Z.
Proof.
  intros [->|[->| ->]] [->|[->| ->]]; unfold shift, icomp; cbn [Z.eqb Pos.eqb iv0 iv1 iv2]; lia.
Qed.
Lemma youngs_shift vof bdy c e L : dir3 e ->
  youngs_neumann vof bdy (shift c e L) = youngs_neumann (fun x => vof (shift x e L)) bdy c.
Proof.
  intros E. unfold youngs_neumann. cbv zeta.
  assert (LO : forall d, dir3 d -> (if (bdy d =? -1)%Z then icomp (shift c e L) d else icomp (shift c e L) d - 1)%Z =
     ((if (bdy d =? -1)%Z then icomp c d else icomp c d - 1) + if (e =? d)%Z then L else 0)%Z).
  { intros d D. rewrite icomp_shift by assumption. destruct (bdy d =? -1)%Z; lia. }
  assert (HI : forall d, dir3 d -> (if (bdy d =? 1)%Z then icomp (shift c e L) d else icomp (shift c e L) d + 1)%Z =
     ((if (bdy d =? 1)%Z then icomp c d else icomp c d + 1) + if (e =? d)%Z then L else 0)%Z).
  { intros d D. rewrite icomp_shift by assumption. destruct (bdy d =? 1)%Z; lia. }
  rewrite !LO, !HI by (unfold dir3; tauto).
  set (l0 := (if (bdy 0 =? -1)%Z then _ else _)). set (l1 := (if (bdy 1 =? -1)%Z then _ else _)). set (l2 := (if (bdy 2 =? -1)%Z then _ else _)).
  set (h0 := (if (bdy 0 =? 1)%Z then _ else _)). set (h1 := (if (bdy 1 =? 1)%Z then _ else _)). set (h2 := (if (bdy 2 =? 1)%Z then _ else _)).
  clearbody l0 l1 l2 h0 h1 h2. clear LO HI.
  destruct E as [->|[->| ->]]; unfold shift; cbn [Z.eqb Pos.eqb iv0 iv1 iv2]; rewrite ?Z.add_0_r; reflexivity.
Qed.
Definition sshift (s : ostate) (e L : Z) : ostate :=
  OS (fun x => o_vof s (shift x e L)) (fun x => o_rho s (shift x e L)) (fun n x => o_vel s n (shift x e L))
     (fun n x => o_gp s n (shift x e L)) (fun x => o_p s (shift x e L)).
Lemma normal_shift ib vof d c e L : dir3 e ->
  normal_vector ib vof d (shift c e L) = normal_vector (fun x => ib (shift x e L)) (fun x => vof (shift x e L)) d c.
Proof.
  intros E. unfold normal_vector. cbv zeta. rewrite youngs_shift by exact E. unfold ish.
  replace (fun e0 : Z => if negb (ib (shift c e L) =? ib (shift (shift c e L) e0 1))%Z then 1%Z else
             if negb (ib (shift c e L) =? ib (shift (shift c e L) e0 (-1)))%Z then (-1)%Z else 0%Z)
     with (fun e0 : Z => if negb (ib (shift c e L) =? ib (shift (shift c e0 1) e L))%Z then 1%Z else
             if negb (ib (shift c e L) =? ib (shift (shift c e0 (-1)) e L))%Z then (-1)%Z else 0%Z); [reflexivity|].
  apply FunctionalExtensionality.functional_extensionality. intros e0. rewrite !(shift_comm c e e0). reflexivity.
Qed.
Lemma flux_shift P ib tg s d n c e L : dir3 e ->
  step_flux P ib tg s d n (shift c e L) =
  step_flux P (fun x => ib (shift x e L)) (fun x => tg (shift x e L)) (sshift s e L) d n c.
Proof.
  intros E. unfold step_flux, process_flux, sharpen_flux. cbv zeta.
  assert (A : forall N N' : Z -> ivec -> R, (forall x, N d (shift x e L) = N' d x) ->
     alpha_flux d (pc_margin P) (o_vof s) tg N (shift c e L) =
     alpha_flux d (pc_margin P) (o_vof (sshift s e L)) (fun x => tg (shift x e L)) N' c).
  { intros N N' H. unfold alpha_flux. cbv zeta. cbn [sshift o_vof]. unfold ish. rewrite !(shift_comm c e d), !H. reflexivity. }
  rewrite (A _ _ (fun x => normal_shift ib (o_vof s) d x e L E)).
  assert (F : forall u u' : ivec -> R, (forall x, u (shift x e L) = u' x) ->
     face_value d (o_vof s) u (shift c e L) = face_value d (o_vof (sshift s e L)) u' c).
  { intros u u' H. unfold face_value. cbv zeta. cbn [sshift o_vof]. unfold ish. rewrite !(shift_comm c e d), !H. reflexivity. }
  rewrite (F (o_vel s (n - 2)) (o_vel (sshift s e L) (n - 2)) (fun x => eq_refl)).
  rewrite (F (fun x => o_gp s (n - 5) x / o_rho s x) (fun x => o_gp (sshift s e L) (n - 5) x / o_rho (sshift s e L) x) (fun x => eq_refl)).
  unfold ish. rewrite !(shift_comm c e d). reflexivity.
Qed.
Theorem c58_closed_periodic : forall P ib tg s,
  periodic (pc_box P) ib -> periodic (pc_box P) tg -> periodic (pc_box P) (o_vof s) -> periodic (pc_box P) (o_rho s) ->
  (forall n, periodic (pc_box P) (o_vel s n)) -> (forall n, periodic (pc_box P) (o_gp s n)) ->
  periodic (pc_box P) (o_p s) -> closed P ib tg s.
Proof.
  intros P ib tg s H1 H2 H3 H4 H5 H6 H7 d n c D C. rewrite opposite_shift, flux_shift by exact D.
  assert (X : forall (A : Type) (f : ivec -> A), periodic (pc_box P) f -> (fun x => f (shift x d (extent (pc_box P) d))) = f).
  { intros A f H. apply FunctionalExtensionality.functional_extensionality. intros x. apply H, D. }
  rewrite (X _ _ H1), (X _ _ H2).
  assert (S : sshift s d (extent (pc_box P) d) = s); [|rewrite S; reflexivity].
  destruct s as [v r u g p]. unfold sshift. cbn [o_vof o_rho o_vel o_gp o_p] in *. f_equal; try (apply X; assumption).
  - apply FunctionalExtensionality.functional_extensionality. intros k. apply X, H5.
  - apply FunctionalExtensionality.functional_extensionality. intros k. apply X, H6.
Qed.

(** *** Conservation *)
Lemma fdiv_total P ib tg s n : (forall d, dir3 d -> (icomp (blo (pc_box P)) d <= icomp (bhi (pc_box P)) d)%Z) ->
  closed P ib tg s -> total (pc_box P) (fdiv (pc_dx P) (step_flux P ib tg s) n) = 0.
Proof.
  intros N C. set (F := step_flux P ib tg s) in *.
  assert (T : forall d, dir3 d -> total (pc_box P) (fun c => (F d n (ish d 1 c) - F d n c) / pc_dx P d) = 0).
  { intros d D. assert (E : total (pc_box P) (fun c => (F d n (ish d 1 c) - F d n c) / pc_dx P d) =
       total (pc_box P) (fun c => F d n c - F d n (up c d)) * (- / pc_dx P d)).
    { rewrite <- total_scale. apply total_ext. intros c _. unfold ish. rewrite shift_up. unfold Rdiv. ring. }
    rewrite E, telescope by (apply N, D). rewrite total_zero; [ring|]. intros c Hc. pose proof (C d n c D Hc) as X. fold F in X. rewrite X. ring. }
  assert (E : total (pc_box P) (fdiv (pc_dx P) F n) =
    total (pc_box P) (fun c => (F 0%Z n (ish 0 1 c) - F 0%Z n c) / pc_dx P 0%Z) +
    total (pc_box P) (fun c => (F 1%Z n (ish 1 1 c) - F 1%Z n c) / pc_dx P 1%Z) +
    total (pc_box P) (fun c => (F 2%Z n (ish 2 1 c) - F 2%Z n c) / pc_dx P 2%Z)).
  { rewrite <- !total_plus. reflexivity. }
  rewrite E, !T by (unfold dir3; tauto). ring.
Qed.
Definition nonempty (b : box) : Prop := forall d, dir3 d -> (icomp (blo b) d <= icomp (bhi b) d)%Z.
(** Volume fraction of a cell before values outside the bounds are cut off. *)
Definition before_clip (P : oparams) (ib : ivec -> Z) (tg : ivec -> R) (s : ostate) (c : ivec) : R :=
  o_vof s c + step_ptfac P ib tg s * fdiv (pc_dx P) (step_flux P ib tg s) 0 c.
(** The volume changes exactly by what is cut off. *)
Theorem c58_volume : forall P ib tg s, nonempty (pc_box P) -> closed P ib tg s ->
  total (pc_box P) (o_vof (sharpen_step P ib tg s)) =
  total (pc_box P) (o_vof s) +
  total (pc_box P) (fun c => clip_vof (pc_vof_tol P) (before_clip P ib tg s c) - before_clip P ib tg s c).
Proof.
  intros P ib tg s N C.
  assert (E : total (pc_box P) (before_clip P ib tg s) = total (pc_box P) (o_vof s)).
  { unfold before_clip. rewrite total_plus.
    rewrite (total_ext _ (fun c => step_ptfac P ib tg s * fdiv (pc_dx P) (step_flux P ib tg s) 0 c)
      (fun c => fdiv (pc_dx P) (step_flux P ib tg s) 0 c * step_ptfac P ib tg s)) by (intros; ring).
    rewrite total_scale, fdiv_total by assumption. ring. }
  rewrite <- E, <- total_plus. apply total_ext. intros c Hc. rewrite (proj1 (step_in P ib tg s c Hc)). fold (before_clip P ib tg s c). ring.
Qed.
(** The density stays the mixture density. *)
Lemma fdiv_density P ib tg s c :
  fdiv (pc_dx P) (step_flux P ib tg s) 1 c = fdiv (pc_dx P) (step_flux P ib tg s) 0 c * (pc_rho1 P - pc_rho2 P).
Proof. unfold fdiv, step_flux, process_flux, sharpen_flux. cbn [Z.eqb Pos.eqb]. unfold Rdiv. ring. Qed.
Lemma density_before P ib tg s c : o_rho s c = density_of (pc_rho1 P) (pc_rho2 P) (o_vof s c) ->
  o_rho s c + step_ptfac P ib tg s * fdiv (pc_dx P) (step_flux P ib tg s) 1 c =
  density_of (pc_rho1 P) (pc_rho2 P) (before_clip P ib tg s c).
Proof. intros ->. rewrite fdiv_density. unfold before_clip, density_of. ring. Qed.
(** Without cut-off everything is conserved: volume, mass, momentum, pressure gradient. *)
Theorem c58_conserved : forall P ib tg s, good P -> nonempty (pc_box P) -> closed P ib tg s ->
  (forall c, in_box (pc_box P) c -> o_rho s c = density_of (pc_rho1 P) (pc_rho2 P) (o_vof s c)) ->
  (forall c, in_box (pc_box P) c -> settled (pc_vof_tol P) (before_clip P ib tg s c)) ->
  let s' := sharpen_step P ib tg s in
  total (pc_box P) (o_vof s') = total (pc_box P) (o_vof s) /\
  total (pc_box P) (o_rho s') = total (pc_box P) (o_rho s) /\
  (forall n, total (pc_box P) (fun c => o_rho s' c * o_vel s' n c) = total (pc_box P) (fun c => o_rho s c * o_vel s n c)) /\
  (forall n, total (pc_box P) (o_gp s' n) = total (pc_box P) (o_gp s n)).
Proof.
  intros P ib tg s (G1 & G2 & G3 & _) N C Hr Hc s'.
  set (k := step_ptfac P ib tg s) in *. set (F := step_flux P ib tg s) in *.
  assert (Z0 : forall n, total (pc_box P) (fun c => k * fdiv (pc_dx P) F n c) = 0).
  { intros n. rewrite (total_ext _ _ (fun c => fdiv (pc_dx P) F n c * k)) by (intros; ring).
    rewrite total_scale. unfold F. rewrite fdiv_total by assumption. ring. }
  assert (V : forall c, in_box (pc_box P) c -> o_vof s' c = before_clip P ib tg s c).
  { intros c H. unfold s'. rewrite (proj1 (step_in P ib tg s c H)). apply clip_settled; [exact G3|apply Hc, H]. }
  assert (D : forall c, in_box (pc_box P) c -> o_rho s' c = o_rho s c + k * fdiv (pc_dx P) F 1 c).
  { intros c H. unfold s'. rewrite (proj1 (proj2 (step_in P ib tg s c H))). fold s'. rewrite V by exact H.
    symmetry. apply density_before, Hr, H. }
  split; [|split; [|split]].
  - rewrite (total_ext _ _ (fun c => o_vof s c + k * fdiv (pc_dx P) F 0 c)) by (intros; apply V; assumption).
    rewrite total_plus, Z0. ring.
  - rewrite (total_ext _ _ _ D), total_plus, Z0. ring.
  - intros n. rewrite (total_ext _ _ (fun c => o_rho s c * o_vel s n c + k * fdiv (pc_dx P) F (n + 2) c)).
    + rewrite total_plus, Z0. ring.
    + intros c H. rewrite D by exact H. unfold s'. rewrite (proj1 (proj2 (proj2 (step_in P ib tg s c H)))). fold k F.
      assert (R : o_rho s c + k * fdiv (pc_dx P) F 1 c <> 0).
      { unfold k, F. rewrite density_before by (apply Hr, H). apply Rgt_not_eq, density_pos; [exact G1|exact G2|].
        destruct (Hc c H) as [->|[->|X]]; lra. }
      set (R1 := o_rho s c + k * fdiv (pc_dx P) F 1 c) in *. field. exact R.
  - intros n. rewrite (total_ext _ _ (fun c => o_gp s n c + k * fdiv (pc_dx P) F (n + 5) c)).
    + rewrite total_plus, Z0. ring.
    + intros c H. unfold s'. rewrite (proj2 (proj2 (proj2 (step_in P ib tg s c H)))). reflexivity.
Qed.
(** Bounds, whatever the fluxes. *)
Theorem c58_bounded : forall P ib tg s n s' c, good P -> in_box (pc_box P) c ->
  0 <= o_vof s c <= 1 -> o_rho s c = density_of (pc_rho1 P) (pc_rho2 P) (o_vof s c) ->
  sharpen P ib tg s = Ret (n, s') ->
  0 <= o_vof s' c <= 1 /\ o_rho s' c = density_of (pc_rho1 P) (pc_rho2 P) (o_vof s' c) /\
  Rmin (pc_rho1 P) (pc_rho2 P) <= o_rho s' c <= Rmax (pc_rho1 P) (pc_rho2 P).
Proof.
  intros P ib tg s n s' c (G1 & G2 & G3 & _) H V D S. unfold sharpen in S.
  apply (loop_ind P ib (harmonize_vof ib (o_vof s) tg) (fun x => 0 <= o_vof x c <= 1 /\ o_rho x c = density_of (pc_rho1 P) (pc_rho2 P) (o_vof x c))) in S.
  - destruct S as ((V' & D') & _). split; [exact V'|]. split; [exact D'|]. rewrite D'. unfold density_of.
    generalize (Rmin_l (pc_rho1 P) (pc_rho2 P)), (Rmin_r (pc_rho1 P) (pc_rho2 P)), (Rmax_l (pc_rho1 P) (pc_rho2 P)), (Rmax_r (pc_rho1 P) (pc_rho2 P)).
    set (a := pc_rho1 P) in *. set (b := pc_rho2 P) in *. set (v := o_vof s' c) in *. generalize (Rmin a b), (Rmax a b). intros m M A1 A2 A3 A4.
    assert (m * v <= a * v <= M * v) by (split; apply Rmult_le_compat_r; lra).
    assert (m * (1 - v) <= b * (1 - v) <= M * (1 - v)) by (split; apply Rmult_le_compat_r; lra). lra.
  - intros x _. destruct (step_in P ib (harmonize_vof ib (o_vof s) tg) x c H) as (V' & D' & _). split; [|exact D'].
    rewrite V'. apply clip_range, G3.
  - split; assumption.
Qed.
(** A field that already is the target is left alone, and the iteration stops. *)
Lemma flux_rest P ib tg s d n c : blanking ib -> (forall x, ib x = (-1)%Z -> o_vof s x = tg x) ->
  (n <= 7)%Z -> step_flux P ib tg s d n c = 0.
Proof.
  intros B H Hn. unfold step_flux.
  destruct (Z.eq_dec (ib c) (-1)) as [E|E]; [|apply process_zero; tauto].
  destruct (Z.eq_dec (ib (ish d (-1) c)) (-1)) as [E'|E']; [|apply process_zero; tauto].
  rewrite process_keep by assumption. unfold sharpen_flux. cbv zeta.
  assert (A : alpha_flux d (pc_margin P) (o_vof s) tg (normal_vector ib (o_vof s)) c = 0).
  { unfold alpha_flux. cbv zeta. rewrite (H c E), (H _ E').
    replace ((tg c - tg c) * _) with 0 by ring. replace ((tg (ish d (-1) c) - tg (ish d (-1) c)) * _) with 0 by ring.
    replace (1 / 2 * (0 + 0)) with 0 by lra.
    repeat match goal with |- context [if ?b then _ else _] => destruct b end; reflexivity. }
  rewrite A. replace (n <=? 7)%Z with true by lia.
  destruct (n =? 0)%Z; [ring|]. destruct (n =? 1)%Z; [ring|]. destruct (n <=? 4)%Z; ring.
Qed.
Lemma fdiv_rest P ib tg s n c : blanking ib -> (forall x, ib x = (-1)%Z -> o_vof s x = tg x) -> (n <= 7)%Z ->
  fdiv (pc_dx P) (step_flux P ib tg s) n c = 0.
Proof. intros B H Hn. unfold fdiv. rewrite !flux_rest by assumption. unfold Rdiv. ring. Qed.
Lemma fold_max_const l (f : ivec -> R) m : (forall c, In c l -> f c = 0) -> -1 <= m <= 0 ->
  fold_left (fun m c => rmax m (Rabs (f c))) l m <= 0.
Proof.
  revert m. induction l as [|x l IH]; intros m H M; cbn [fold_left]; [lra|].
  apply IH; [intros c C; apply H; right; exact C|]. rewrite (H x (or_introl eq_refl)), Rabs_R0, rmax_spec.
  unfold Rmax. destruct (Rle_dec m 0); lra.
Qed.
Theorem c58_at_rest : forall P ib tg s c, good P -> blanking ib -> pc_convg_tol P > 0 -> pc_interval P = 1%Z ->
  (forall x, ib x = (-1)%Z -> o_vof s x = tg x) -> in_box (pc_box P) c -> o_rho s c <> 0 ->
  exists n s', sharpen P ib tg s = Ret (n, s') /\ (n <= 1)%Z /\
    (forall k, (0 <= k <= 2)%Z -> o_vel s' k c = o_vel s k c /\ o_gp s' k c = o_gp s k c) /\
    o_p s' c = o_p s c /\ (settled (pc_vof_tol P) (o_vof s c) -> o_vof s' c = o_vof s c).
Proof.
  intros P ib tg s c (G1 & G2 & G3 & G4 & G5) B T I H Hc R. unfold sharpen.
  set (t := harmonize_vof ib (o_vof s) tg).
  assert (Ht : forall x, ib x = (-1)%Z -> o_vof s x = t x).
  { intros x X. unfold t. rewrite (proj1 (c46_harmonize ib (o_vof s) tg x) X). apply H, X. }
  destruct (pc_iter P) as [|k].
  { exists 0%Z, s. split; [reflexivity|]. split; [lia|]. split; [intros; split; reflexivity|]. split; reflexivity. }
  cbn [sharpen_loop]. replace (Rltb (pc_convg_tol P) (100 * pc_convg_tol P)) with true by (symmetry; apply Rltb_spec; lra).
  rewrite I. cbn [Z.eqb Pos.eqb]. replace (Z.rem (0 + 1) 1 =? 0)%Z with true by reflexivity. cbv zeta.
  assert (M : rmax 0 (measure P (step_flux P ib t s)) = 0).
  { rewrite rmax_spec. apply Rmax_left. unfold measure. cbv zeta.
    assert (Q : forall d, fold_left (fun m c0 => rmax m (Rabs (step_flux P ib t s d 0%Z c0))) (faces (pc_box P) d) (-1) <= 0).
    { intros d. apply (fold_max_const _ (step_flux P ib t s d 0%Z)); [|lra]. intros x _. apply flux_rest; [exact B|exact Ht|lia]. }
    rewrite !rmax_spec. apply Rmult_le_reg_r with (pc_gamma P); [exact G5|]. unfold Rdiv. rewrite Rmult_assoc, Rinv_l, Rmult_1_r, Rmult_0_l by lra.
    apply Rmax_lub; [apply Q|]. apply Rmax_lub; apply Q. }
  rewrite M.
  assert (L : forall m x, sharpen_loop P ib t k m 0 x = Ret (m, x)).
  { intros m x. destruct k as [|k']; cbn [sharpen_loop]; [reflexivity|].
    replace (Rltb (pc_convg_tol P) 0) with false; [reflexivity|]. symmetry. apply Rltb_false. lra. }
  rewrite L. exists (0 + 1)%Z, (sharpen_step P ib t s). split; [reflexivity|]. split; [lia|].
  destruct (step_in P ib t s c Hc) as (V & D & U & Gp).
  split; [|split].
  - intros n Hn. rewrite U, Gp. rewrite !fdiv_rest by (exact B || exact Ht || lia). split; [field; exact R|ring].
  - unfold sharpen_step. cbv zeta. cbn [o_p]. unfold apply_fluxes. cbn [o_p].
    assert (Z1 : psource veps (step_flux P ib t s) (o_vof s) c = 0); [|rewrite Z1; ring].
    unfold psource, tddot, gp_flux_tensor. cbv zeta. cbn [txx txy txz tyx tyy tyz tzx tzy tzz].
    assert (Z0 : forall d n, (n <= 7)%Z -> rsum (map (step_flux P ib t s d n) (node_faces d c)) = 0).
    { intros d n D'. apply rsum_zero. intros x X. apply flux_rest; [exact B|exact Ht|exact D']. }
    rewrite !Z0 by lia. unfold Rdiv. ring.
  - intros S. rewrite V, fdiv_rest by (exact B || exact Ht || lia). rewrite Rmult_0_r, Rplus_0_r. apply clip_settled; assumption.
Qed.
(** The pseudo time step: positive, at most one half, and no face takes more than half of
    the liquid of the cell it empties. *)
Lemma fold_min_le {A} (f : A -> R) l m : fold_left (fun m c => rmin m (f c)) l m <= m /\
  forall x, In x l -> fold_left (fun m c => rmin m (f c)) l m <= f x.
Proof.
  revert m. induction l as [|y l IH]; intros m; cbn [fold_left]; [split; [lra|intros x []]|].
  destruct (IH (rmin m (f y))) as (A1 & A2). rewrite rmin_spec in *. pose proof (Rmin_l m (f y)). pose proof (Rmin_r m (f y)).
  split; [lra|]. intros x [->|X]; [lra|]. apply A2, X.
Qed.
Lemma fold_min_pos {A} (f : A -> R) l m : 0 < m -> (forall x, In x l -> 0 < f x) -> 0 < fold_left (fun m c => rmin m (f c)) l m.
Proof.
  revert m. induction l as [|y l IH]; intros m M H; cbn [fold_left]; [exact M|]. apply IH; [|intros x X; apply H; right; exact X].
  rewrite rmin_spec. apply Rmin_glb_lt; [exact M|]. apply H. left. reflexivity.
Qed.
Lemma pdt_pos tol dx F vof d c : 0 <= tol -> 0 < dx d -> 0 < pdt_face tol dx F vof d c.
Proof.
  intros T D. unfold pdt_face. cbv zeta.
  destruct (Rltb tol (F d 0%Z c)) eqn:A, (Rltb tol (vof c)) eqn:B; cbn [andb];
    try (apply Rltb_spec in A; apply Rltb_spec in B; apply Rdiv_lt_0_compat; [apply Rmult_lt_0_compat; lra|lra]);
    destruct (Rltb (F d 0%Z c) (- tol)) eqn:A', (Rltb tol (vof (ish d (-1) c))) eqn:B'; cbn [andb]; try lra;
    apply Rltb_spec in A'; apply Rltb_spec in B'; apply Rdiv_lt_0_compat; [apply Rmult_lt_0_compat; lra|lra| | | |];
    try (apply Rmult_lt_0_compat; lra); lra.
Qed.
(** [c] is a face of the domain in direction [d]: the lower or the upper face of a cell. *)
Definition face_of (b : box) (d : Z) (c : ivec) : Prop := in_box b c \/ in_box b (ish d (-1) c).
Lemma face_in b d c : dir3 d -> face_of b d c -> In c (faces b d).
Proof.
  intros D H. unfold faces. apply in_cells. unfold face_of, in_box, ish, shift in *.
  destruct D as [->|[->| ->]]; cbn [Z.eqb Pos.eqb blo bhi iv0 iv1 iv2] in *; lia.
Qed.
Lemma in_face b d c : dir3 d -> in_box b (blo b) -> In c (faces b d) -> face_of b d c.
Proof.
  intros D N H. unfold faces in H. apply in_cells in H. unfold face_of, in_box, ish, shift in *.
  destruct D as [->|[->| ->]]; cbn [Z.eqb Pos.eqb blo bhi iv0 iv1 iv2] in *; lia.
Qed.
Theorem c58_pseudo_step : forall P ib tg s d c, good P -> 0 <= pc_convg_tol P -> dir3 d -> face_of (pc_box P) d c ->
  let k := step_ptfac P ib tg s in let f := step_flux P ib tg s d 0%Z c in
  0 < k <= 1/2 /\
  (pc_convg_tol P < f -> pc_convg_tol P < o_vof s c -> k * f / pc_dx P d <= o_vof s c / 2) /\
  (f < - pc_convg_tol P -> pc_convg_tol P < o_vof s (ish d (-1) c) ->
     k * (- f) / pc_dx P d <= o_vof s (ish d (-1) c) / 2).
Proof.
  intros P ib tg s d c (G1 & G2 & G3 & G4 & G5) T D Hc0 k f. pose proof (face_in _ _ _ D Hc0) as Hc.
  set (F := step_flux P ib tg s) in *.
  assert (K : k = 1/2 * rmin 1 (pseudo_dt (pc_convg_tol P) (pc_dx P) F (o_vof s) (pc_box P))) by reflexivity.
  set (q := pseudo_dt (pc_convg_tol P) (pc_dx P) F (o_vof s) (pc_box P)) in *.
  assert (Q0 : 0 < q).
  { unfold q, pseudo_dt, pdt_dir. rewrite !rmin_spec.
    repeat apply Rmin_glb_lt; (apply fold_min_pos; [lra|]; intros x _; apply pdt_pos; [exact T|apply G4]). }
  assert (Q1 : q <= pdt_face (pc_convg_tol P) (pc_dx P) F (o_vof s) d c).
  { unfold q, pseudo_dt. rewrite !rmin_spec.
    assert (X : pdt_dir (pc_convg_tol P) (pc_dx P) F (o_vof s) (pc_box P) d <= pdt_face (pc_convg_tol P) (pc_dx P) F (o_vof s) d c).
    { unfold pdt_dir. apply (fold_min_le (pdt_face (pc_convg_tol P) (pc_dx P) F (o_vof s) d)). exact Hc. }
    pose proof (Rmin_l (pdt_dir (pc_convg_tol P) (pc_dx P) F (o_vof s) (pc_box P) 0) (Rmin (pdt_dir (pc_convg_tol P) (pc_dx P) F (o_vof s) (pc_box P) 1) (pdt_dir (pc_convg_tol P) (pc_dx P) F (o_vof s) (pc_box P) 2))).
    pose proof (Rmin_r (pdt_dir (pc_convg_tol P) (pc_dx P) F (o_vof s) (pc_box P) 0) (Rmin (pdt_dir (pc_convg_tol P) (pc_dx P) F (o_vof s) (pc_box P) 1) (pdt_dir (pc_convg_tol P) (pc_dx P) F (o_vof s) (pc_box P) 2))).
    pose proof (Rmin_l (pdt_dir (pc_convg_tol P) (pc_dx P) F (o_vof s) (pc_box P) 1) (pdt_dir (pc_convg_tol P) (pc_dx P) F (o_vof s) (pc_box P) 2)).
    pose proof (Rmin_r (pdt_dir (pc_convg_tol P) (pc_dx P) F (o_vof s) (pc_box P) 1) (pdt_dir (pc_convg_tol P) (pc_dx P) F (o_vof s) (pc_box P) 2)).
    destruct D as [->|[->| ->]]; lra. }
  assert (K0 : 0 < k <= 1/2 /\ k <= q / 2).
  { rewrite K, rmin_spec. pose proof (Rmin_l 1 q). pose proof (Rmin_r 1 q). assert (0 < Rmin 1 q) by (apply Rmin_glb_lt; lra). lra. }
  split; [tauto|]. specialize (G4 d). unfold pdt_face in Q1. cbv zeta in Q1. fold f in Q1.
  assert (W : forall v g, 0 < g -> q <= v * pc_dx P d / g -> k * g / pc_dx P d <= v / 2).
  { intros v g Hg Hq. apply Rmult_le_reg_r with (pc_dx P d); [exact G4|].
    replace (k * g / pc_dx P d * pc_dx P d) with (k * g) by (field; lra).
    assert (q * g <= v * pc_dx P d / g * g) by (apply Rmult_le_compat_r; lra).
    replace (v * pc_dx P d / g * g) with (v * pc_dx P d) in H by (field; lra).
    assert (k * g <= q / 2 * g) by (apply Rmult_le_compat_r; lra). lra. }
  split; intros A V.
  - apply W; [lra|]. replace (Rltb (pc_convg_tol P) f) with true in Q1 by (symmetry; apply Rltb_spec; lra).
    replace (Rltb (pc_convg_tol P) (o_vof s c)) with true in Q1 by (symmetry; apply Rltb_spec; lra). exact Q1.
  - apply W; [lra|]. replace (Rltb (pc_convg_tol P) f) with false in Q1 by (symmetry; apply Rltb_false; lra).
    cbn [andb] in Q1. replace (Rltb f (- pc_convg_tol P)) with true in Q1 by (symmetry; apply Rltb_spec; lra).
    replace (Rltb (pc_convg_tol P) (o_vof s (ish d (-1) c))) with true in Q1 by (symmetry; apply Rltb_spec; lra). exact Q1.
Qed.
(** At most the requested number of iterations; a convergence tolerance of zero, which
    reads as "never stop early", means no iteration at all; interval 0 is a division by
    zero. *)
Theorem c58_iterations : forall P ib tg s n s', sharpen P ib tg s = Ret (n, s') -> (0 <= n <= Z.of_nat (pc_iter P))%Z.
Proof.
  intros P ib tg s n s' H. unfold sharpen in H. apply (loop_ind P ib (harmonize_vof ib (o_vof s) tg) (fun _ => True)) in H; [lia|trivial|trivial].
Qed.
(** The loop ends early only after an iteration whose number is a multiple of the interval
    and in which no sharpening flux exceeded the tolerance, and it ends at the first such
    iteration. *)
Definition converged (P : oparams) (ib : ivec -> Z) (tg : ivec -> R) (s : ostate) : Prop :=
  forall d c, dir3 d -> face_of (pc_box P) d c -> Rabs (step_flux P ib tg s d 0%Z c) <= pc_convg_tol P * pc_gamma P.
Definition after (P : oparams) (ib : ivec -> Z) (tg : ivec -> R) (k : nat) (s : ostate) : ostate :=
  Nat.iter k (sharpen_step P ib tg) s.
Lemma fold_rmax_le {A} (f : A -> R) l : forall m t, fold_left (fun m c => rmax m (f c)) l m <= t <->
  m <= t /\ forall c, In c l -> f c <= t.
Proof.
  induction l as [|x l IH]; intros m t; cbn [fold_left].
  - split; [intros H; split; [exact H|intros c []]|tauto].
  - rewrite IH, rmax_spec. split.
    + intros (A1 & A2). pose proof (Rmax_l m (f x)). pose proof (Rmax_r m (f x)). split; [lra|].
      intros c [<-|C]; [lra|apply A2, C].
    + intros (A1 & A2). split; [apply Rmax_lub; [exact A1|apply A2; left; reflexivity]|]. intros c C. apply A2. right. exact C.
Qed.
Lemma measure_conv P ib tg s : good P -> 0 <= pc_convg_tol P -> in_box (pc_box P) (blo (pc_box P)) ->
  rmax 0 (measure P (step_flux P ib tg s)) <= pc_convg_tol P <-> converged P ib tg s.
Proof.
  intros (G1 & G2 & G3 & G4 & G5) T N. unfold measure, converged. cbv zeta. rewrite !rmax_spec.
  set (m := fun d => fold_left (fun m c => rmax m (Rabs (step_flux P ib tg s d 0%Z c))) (faces (pc_box P) d) (-1)).
  change (Rmax 0 (Rmax (m 0%Z) (Rmax (m 1%Z) (m 2%Z)) / pc_gamma P) <= pc_convg_tol P <->
    (forall d c, dir3 d -> face_of (pc_box P) d c -> Rabs (step_flux P ib tg s d 0%Z c) <= pc_convg_tol P * pc_gamma P)).
  assert (T0 : 0 <= pc_convg_tol P * pc_gamma P) by (apply Rmult_le_pos; lra).
  assert (M : forall d, m d <= pc_convg_tol P * pc_gamma P <->
    forall c, In c (faces (pc_box P) d) -> Rabs (step_flux P ib tg s d 0%Z c) <= pc_convg_tol P * pc_gamma P).
  { intros d. unfold m. rewrite (fold_rmax_le (fun c => Rabs (step_flux P ib tg s d 0%Z c))). split; [tauto|]. intros H. split; [lra|exact H]. }
  assert (E : Rmax 0 (Rmax (m 0%Z) (Rmax (m 1%Z) (m 2%Z)) / pc_gamma P) <= pc_convg_tol P <->
    m 0%Z <= pc_convg_tol P * pc_gamma P /\ m 1%Z <= pc_convg_tol P * pc_gamma P /\ m 2%Z <= pc_convg_tol P * pc_gamma P).
  { set (x := Rmax (m 0%Z) (Rmax (m 1%Z) (m 2%Z))).
    assert (X1 : x <= pc_convg_tol P * pc_gamma P <-> m 0%Z <= pc_convg_tol P * pc_gamma P /\ m 1%Z <= pc_convg_tol P * pc_gamma P /\ m 2%Z <= pc_convg_tol P * pc_gamma P).
    { unfold x. pose proof (Rmax_l (m 0%Z) (Rmax (m 1%Z) (m 2%Z))). pose proof (Rmax_r (m 0%Z) (Rmax (m 1%Z) (m 2%Z))).
      pose proof (Rmax_l (m 1%Z) (m 2%Z)). pose proof (Rmax_r (m 1%Z) (m 2%Z)). split; [intros; lra|].
      intros (A & B & C). repeat apply Rmax_lub; assumption. }
    rewrite <- X1. assert (Ex : x = x / pc_gamma P * pc_gamma P) by (field; lra). split; intros H.
    - pose proof (Rmax_r 0 (x / pc_gamma P)). rewrite Ex. apply Rmult_le_compat_r; lra.
    - apply Rmax_lub; [exact T|]. apply Rmult_le_reg_r with (pc_gamma P); [exact G5|]. rewrite <- Ex. exact H. }
  rewrite E, !M. split.
  - intros (A & B & C) d c D H. pose proof (face_in _ _ _ D H) as I. destruct D as [->|[->| ->]]; auto.
  - intros H. split; [|split]; intros c I; (apply H; [unfold dir3; tauto|]); apply in_face; (exact N || exact I || (unfold dir3; tauto)).
Qed.
Lemma loop_stop P ib tg : good P -> 0 < pc_convg_tol P -> in_box (pc_box P) (blo (pc_box P)) -> (0 < pc_interval P)%Z ->
  forall fuel n err s m s', (0 <= n)%Z -> sharpen_loop P ib tg fuel n err s = Ret (m, s') ->
  exists k, m = (n + Z.of_nat k)%Z /\ (k <= fuel)%nat /\ s' = after P ib tg k s /\
   (pc_convg_tol P < err ->
     ((k < fuel)%nat -> (0 < k)%nat /\ (pc_interval P | m)%Z /\ converged P ib tg (after P ib tg (k - 1) s)) /\
     (forall j, (0 < j < k)%nat -> (pc_interval P | n + Z.of_nat j)%Z -> ~ converged P ib tg (after P ib tg (j - 1) s))) /\
   (err <= pc_convg_tol P -> k = 0%nat).
Proof.
  intros G T N I. assert (T1 : 0 <= pc_convg_tol P) by lra. induction fuel as [|f IH]; intros n err s m s' Hn H; cbn [sharpen_loop] in H.
  - injection H as <- <-. exists 0%nat. split; [lia|]. split; [lia|]. split; [reflexivity|]. split; [|reflexivity].
    intros _. split; [lia|]. intros j J. lia.
  - destruct (Rltb (pc_convg_tol P) err) eqn:E.
    + apply Rltb_spec in E. replace (pc_interval P =? 0)%Z with false in H by lia. cbv zeta in H.
      set (e' := if (Z.rem (n + 1) (pc_interval P) =? 0)%Z then rmax 0 (measure P (step_flux P ib tg s)) else err) in H.
      destruct (IH (n + 1)%Z e' (sharpen_step P ib tg s) m s' ltac:(lia) H) as (k & K1 & K2 & K3 & K4 & K5).
      assert (Dv : (Z.rem (n + 1) (pc_interval P) =? 0)%Z = true <-> (pc_interval P | n + 1)%Z).
      { rewrite Z.eqb_eq. apply Z.rem_divide. lia. }
      assert (Sft : forall j, after P ib tg j (sharpen_step P ib tg s) = after P ib tg (S j) s).
      { induction j as [|j J]; [reflexivity|]. exact (f_equal (sharpen_step P ib tg) J). }
      exists (S k). split; [lia|]. split; [lia|]. split; [rewrite K3; apply Sft|]. split; [|intros; lra]. intros _.
      destruct (Rlt_dec (pc_convg_tol P) e') as [L|L].
      * destruct (K4 L) as (A1 & A2). split.
        -- intros Hk. destruct (A1 ltac:(lia)) as (B1 & B2 & B3). split; [lia|]. split; [exact B2|].
           rewrite Sft in B3. replace (S k - 1)%nat with (S (k - 1)) by lia. exact B3.
        -- intros j Hj Hd. destruct (Nat.eq_dec j 1) as [->|J1].
           ++ cbn [Nat.sub]. change (after P ib tg 0 s) with s. intros C. change (Z.of_nat 1) with 1%Z in Hd.
              apply Dv in Hd. unfold e' in L. rewrite Hd in L. apply (measure_conv P ib tg s G T1 N) in C. lra.
           ++ specialize (A2 (j - 1)%nat ltac:(lia)). rewrite Sft in A2. replace (S (j - 1 - 1)) with (j - 1)%nat in A2 by lia.
              apply A2. replace (n + 1 + Z.of_nat (j - 1))%Z with (n + Z.of_nat j)%Z by lia. exact Hd.
      * apply Rnot_lt_le in L. specialize (K5 L). subst k.
        assert (D1 : (Z.rem (n + 1) (pc_interval P) =? 0)%Z = true).
        { destruct (Z.rem (n + 1) (pc_interval P) =? 0)%Z eqn:X; [reflexivity|]. unfold e' in L. lra. }
        split; [|intros j J; lia]. intros _. split; [lia|]. split; [replace m with (n + 1)%Z by lia; apply Dv, D1|].
        cbn [Nat.sub]. change (after P ib tg 0 s) with s. apply (measure_conv P ib tg s G T1 N). unfold e' in L. rewrite D1 in L. exact L.
    + injection H as <- <-. apply Rltb_false in E. exists 0%nat. split; [lia|]. split; [lia|]. split; [reflexivity|].
      split; [intros; lra|reflexivity].
Qed.
Theorem c58_stopping : forall P ib tg s n s', good P -> 0 < pc_convg_tol P -> in_box (pc_box P) (blo (pc_box P)) ->
  (0 < pc_interval P)%Z -> sharpen P ib tg s = Ret (n, s') ->
  let t := harmonize_vof ib (o_vof s) tg in let k := Z.to_nat n in
  s' = after P ib t k s /\
  ((k < pc_iter P)%nat -> (0 < k)%nat /\ (pc_interval P | n)%Z /\ converged P ib t (after P ib t (k - 1) s)) /\
  (forall j, (0 < j < k)%nat -> (pc_interval P | Z.of_nat j)%Z -> ~ converged P ib t (after P ib t (j - 1) s)).
Proof.
  intros P ib tg s n s' G T N I H. cbv zeta. unfold sharpen in H.
  destruct (loop_stop P ib _ G T N I _ _ _ _ _ _ (Z.le_refl 0) H) as (k & -> & K2 & K3 & K4 & _).
  replace (Z.to_nat (0 + Z.of_nat k)) with k by lia. destruct (K4 ltac:(lra)) as (A & B).
  split; [exact K3|]. split; [exact A|]. intros j J. exact (B j J).
Qed.
(** Pressure: at each node the pseudo time factor times the sharpening flux of the pressure
    gradient, averaged over the open faces around the node and contracted with the direction
    normal to the interface there.  A face is open if both of its cells are received data. *)
Definition four (d : Z) (n : ivec) : list ivec :=
  let '(IV i j k) := n in
  if (d =? 0)%Z then [IV i j k; IV i j (k - 1); IV i (j - 1) k; IV i (j - 1) (k - 1)]
  else if (d =? 1)%Z then [IV i j k; IV i j (k - 1); IV (i - 1) j k; IV (i - 1) j (k - 1)]
  else [IV i j k; IV i (j - 1) k; IV (i - 1) j k; IV (i - 1) (j - 1) k].
Definition below (d : Z) (c : ivec) : ivec :=
  let '(IV i j k) := c in if (d =? 0)%Z then IV (i - 1) j k else if (d =? 1)%Z then IV i (j - 1) k else IV i j (k - 1).
Definition is_open (ib : ivec -> Z) (d : Z) (c : ivec) : R :=
  if ((ib c =? -1) && (ib (below d c) =? -1))%Z then 1 else 0.
Definition open_mean (ib : ivec -> Z) (d : Z) (g : ivec -> R) (n : ivec) : R :=
  rsum (map (fun x => is_open ib d x * g x) (four d n)) / (rsum (map (is_open ib d) (four d n)) + / 4503599627370496).
Theorem c58_pressure : forall P ib tg s n, blanking ib ->
  let F := sharpen_flux (pc_gamma P) (pc_margin P) (pc_rho1 P) (pc_rho2 P) tg (normal_vector ib (o_vof s)) s in
  let M d e := open_mean ib d (F d (e + 5)%Z) n in
  let N := vnormalize (V3 (open_mean ib 0 (fun x => o_vof s x - o_vof s (below 0 x)) n)
                          (open_mean ib 1 (fun x => o_vof s x - o_vof s (below 1 x)) n)
                          (open_mean ib 2 (fun x => o_vof s x - o_vof s (below 2 x)) n)) in
  let N' d := if (d =? 0)%Z then vx N else if (d =? 1)%Z then vy N else vz N in
  o_p (sharpen_step P ib tg s) n = o_p s n + step_ptfac P ib tg s *
    (M 0%Z 0%Z * N' 0%Z * N' 0%Z + M 0%Z 1%Z * N' 0%Z * N' 1%Z + M 0%Z 2%Z * N' 0%Z * N' 2%Z +
     M 1%Z 0%Z * N' 1%Z * N' 0%Z + M 1%Z 1%Z * N' 1%Z * N' 1%Z + M 1%Z 2%Z * N' 1%Z * N' 2%Z +
     M 2%Z 0%Z * N' 2%Z * N' 0%Z + M 2%Z 1%Z * N' 2%Z * N' 1%Z + M 2%Z 2%Z * N' 2%Z * N' 2%Z).
Proof.
  intros P ib tg s n B F M N N'. unfold sharpen_step. cbv zeta. cbn [o_p]. unfold apply_fluxes. cbn [o_p].
  f_equal. f_equal. unfold psource, step_flux. fold F.
  assert (NF : forall d, dir3 d -> node_faces d n = four d n).
  { intros d D. destruct n as [i j k]. unfold node_faces, four, ish, shift.
    destruct D as [->|[->| ->]]; cbn [Z.eqb Pos.eqb iv0 iv1 iv2]; repeat f_equal; lia. }
  assert (BL : forall d c, dir3 d -> ish d (-1) c = below d c).
  { intros d [i j k] D. unfold below, ish, shift. destruct D as [->|[->| ->]]; cbn [Z.eqb Pos.eqb iv0 iv1 iv2]; f_equal; lia. }
  assert (PF : forall d m c, dir3 d -> process_flux ib F d m c = is_open ib d c * F d m c).
  { intros d m c D. unfold process_flux, is_open. rewrite BL by exact D. pose proof (B c). pose proof (B (below d c)).
    destruct (-2 <? ib (below d c) + ib c)%Z eqn:X, (ib c =? -1)%Z eqn:Y, (ib (below d c) =? -1)%Z eqn:W; cbn [andb]; try lia; ring. }
  assert (F8 : forall d c, F d 8%Z c = 1) by reflexivity.
  assert (AV : forall d, dir3 d -> node_avg veps (process_flux ib F) d n = rsum (map (is_open ib d) (four d n)) + / 4503599627370496).
  { intros d D. unfold node_avg, veps. rewrite NF by exact D. f_equal. f_equal. apply map_ext. intros c. rewrite PF, F8 by exact D. ring. }
  assert (T1 : forall d m, dir3 d -> rsum (map (process_flux ib F d m) (node_faces d n)) / node_avg veps (process_flux ib F) d n
                = open_mean ib d (F d m) n).
  { intros d m D. unfold open_mean. rewrite AV, NF by exact D. f_equal. f_equal. apply map_ext. intros c. apply PF, D. }
  assert (T2 : forall d, dir3 d -> rsum (map (fun x => (o_vof s x - o_vof s (ish d (-1) x)) * process_flux ib F d 8%Z x) (node_faces d n)) / node_avg veps (process_flux ib F) d n
                = open_mean ib d (fun x => o_vof s x - o_vof s (below d x)) n).
  { intros d D. unfold open_mean. rewrite AV, NF by exact D. f_equal. f_equal. apply map_ext. intros c. rewrite PF, F8, BL by exact D. ring. }
  unfold normal_reinit_tensor, gp_flux_tensor, tddot. cbv zeta. cbn [txx txy txz tyx tyy tyz tzx tzy tzz].
  rewrite !T1, !T2 by (unfold dir3; tauto). fold N.
  unfold N'. cbn [Z.eqb Pos.eqb]. unfold M. cbn [Z.add Pos.add Pos.succ]. ring.
Qed.
Theorem c58_zero_tolerance_refuted : forall P ib tg s, pc_convg_tol P <= 0 -> sharpen P ib tg s = Ret (0%Z, s).
Proof.
  intros P ib tg s T. unfold sharpen. destruct (pc_iter P) as [|k]; cbn [sharpen_loop]; [reflexivity|].
  replace (Rltb (pc_convg_tol P) (100 * pc_convg_tol P)) with false; [reflexivity|]. symmetry. apply Rltb_false. lra.
Qed.
Theorem c58_interval_refuted : forall P ib tg s, pc_interval P = 0%Z -> 0 < pc_convg_tol P -> (0 < pc_iter P)%nat ->
  sharpen P ib tg s = UB.
Proof.
  intros P ib tg s I T N. unfold sharpen. destruct (pc_iter P) as [|k]; [lia|]. cbn [sharpen_loop].
  replace (Rltb (pc_convg_tol P) (100 * pc_convg_tol P)) with true by (symmetry; apply Rltb_spec; lra).
  rewrite I. reflexivity.
Qed.

(** The step limits each face, not the sum over the faces of a cell: a cell can be asked
    for more liquid than it holds, and cutting off the negative value creates volume.
    Default parameters, unit cells, a closed 5 x 5 x 5 domain with 3 x 3 x 3 received
    cells; the target empties the centre. *)
Module Overdraw.
Definition ctr : ivec := IV 2 2 2.
Definition inner (c : ivec) : bool := inb (Box (IV 1 1 1) (IV 3 3 3)) c.
Definition ib (c : ivec) : Z := if inner c then (-1)%Z else 1%Z.
Definition at_ (c x : ivec) : bool := ((iv0 c =? iv0 x) && (iv1 c =? iv1 x) && (iv2 c =? iv2 x))%Z.
Definition vof (c : ivec) : R := if at_ c ctr then 1/5 else if at_ c (IV 3 2 2) then 2/5 else if at_ c (IV 2 3 2) then 2/5 else 3/10.
Definition tg (c : ivec) : R := if at_ c ctr then 0 else vof c.
Definition t : R := veps * 10000.
Definition P : oparams := OP (Box (IV 0 0 0) (IV 4 4 4)) (fun _ => 1) 1 (1/10) 1000 1 t t 1 10%nat (fun f => f).
Definition s : ostate := OS vof (fun c => density_of 1000 1 (vof c)) (fun _ _ => 0) (fun _ _ => 0) (fun _ => 0).

Lemma at_spec c x : at_ c x = true <-> c = x.
Proof.
  unfold at_. rewrite !andb_true_iff, !Z.eqb_eq. split; [intros ((A & B) & C); apply ivec_eq; assumption|intros ->; tauto].
Qed.
Lemma at_false c x : c <> x -> at_ c x = false.
Proof. intros H. destruct (at_ c x) eqn:E; [|reflexivity]. apply at_spec in E. contradiction. Qed.
Lemma t_range : 0 < t < 1/100.
Proof.
  unfold t, veps. split; [apply Rmult_lt_0_compat; [apply Rinv_0_lt_compat|]; lra|].
  assert (/ 4503599627370496 * 10000 * 4503599627370496 = 10000) by (field; lra). lra.
Qed.
Lemma good_P : good P.
Proof. pose proof t_range. unfold good, P. cbn. split; [lra|]. split; [lra|]. split; [lra|]. split; intros; lra. Qed.
Lemma blank : blanking ib.
Proof. intros c. unfold ib. destruct (inner c); lia. Qed.
Lemma nonempty_P : nonempty (pc_box P).
Proof. intros d [->|[->| ->]]; cbn; lia. Qed.
Lemma closed_P : forall tg, closed P ib tg s.
Proof.
  intros tg'. apply c58_closed_interior; [exact blank|exact nonempty_P|]. intros c H. unfold ib.
  destruct (inner c) eqn:E; [|discriminate]. unfold inner in E. apply inb_spec in E. exfalso. apply H.
  revert E. unfold in_box. cbn. lia.
Qed.
Lemma vof_range c : c <> ctr -> 3/10 <= vof c <= 2/5.
Proof. intros H. unfold vof. rewrite (at_false _ _ H). destruct (at_ c (IV 3 2 2)); [lra|]. destruct (at_ c (IV 2 3 2)); lra. Qed.
Definition a (d : Z) : R := Rabs (normal_vector ib vof d ctr).
Lemma a_val : 1/2 < a 0%Z <= 1 /\ 1/2 < a 1%Z <= 1 /\ a 2%Z = 0.
Proof.
  assert (Q : normal_vector ib vof 0 ctr = - (2/5) / sqrt (8/25 + veps) /\ normal_vector ib vof 1 ctr = - (2/5) / sqrt (8/25 + veps) /\
              normal_vector ib vof 2 ctr = 0).
  { unfold normal_vector. cbv zeta.
    assert (M : youngs_neumann vof (fun e => if negb (ib ctr =? ib (ish e 1 ctr))%Z then 1%Z else if negb (ib ctr =? ib (ish e (-1) ctr))%Z then (-1)%Z else 0%Z) ctr = V3 (- (2/5)) (- (2/5)) 0).
    { unfold youngs_neumann. cbv zeta.
      change (ib ctr =? ib (ish 0 1 ctr))%Z with true. change (ib ctr =? ib (ish 0 (-1) ctr))%Z with true.
      change (ib ctr =? ib (ish 1 1 ctr))%Z with true. change (ib ctr =? ib (ish 1 (-1) ctr))%Z with true.
      change (ib ctr =? ib (ish 2 1 ctr))%Z with true. change (ib ctr =? ib (ish 2 (-1) ctr))%Z with true.
      cbn [negb Z.eqb Pos.eqb]. change (icomp ctr 0) with 2%Z. change (icomp ctr 1) with 2%Z. change (icomp ctr 2) with 2%Z.
      change (iv0 ctr) with 2%Z. change (iv1 ctr) with 2%Z. change (iv2 ctr) with 2%Z.
      change (2 - 1)%Z with 1%Z. change (2 + 1)%Z with 3%Z. unfold patch, vof, at_, ctr. cbn [iv0 iv1 iv2 Z.eqb Pos.eqb andb].
      f_equal; lra. }
    rewrite M. cbn [vx vy vz vcmp Z.eqb Pos.eqb]. unfold vcmp. cbn [vx vy vz Z.eqb Pos.eqb].
    replace (- (2 / 5) * - (2 / 5) + - (2 / 5) * - (2 / 5) + 0 * 0 + veps) with (8/25 + veps) by lra.
    split; [reflexivity|]. split; [reflexivity|]. unfold Rdiv. ring. }
  destruct Q as (Q0 & Q1 & Q2). unfold a. rewrite Q0, Q1, Q2, Rabs_R0.
  assert (V : 0 < veps < 1/100).
  { unfold veps. split; [apply Rinv_0_lt_compat; lra|]. assert (/ 4503599627370496 * 4503599627370496 = 1) by (field; lra). lra. }
  assert (S1 : sqrt (8/25 + veps) < 4/5).
  { rewrite <- (sqrt_square (4/5)) by lra. apply sqrt_lt_1; lra. }
  assert (S0 : 2/5 < sqrt (8/25 + veps)).
  { rewrite <- (sqrt_square (2/5)) by lra. apply sqrt_lt_1; lra. }
  set (r := sqrt (8/25 + veps)) in *.
  assert (E : Rabs (- (2/5) / r) = 2/5 / r).
  { replace (- (2/5) / r) with (- (2/5/r)) by (field; lra). rewrite Rabs_Ropp. apply Rabs_right. apply Rle_ge. apply Rlt_le, Rdiv_lt_0_compat; lra. }
  rewrite E. assert (W : 1/2 < 2/5/r <= 1).
  { split.
    - apply Rmult_lt_reg_r with r; [lra|]. replace (2/5/r*r) with (2/5) by (field; lra). lra.
    - apply Rmult_le_reg_r with r; [lra|]. replace (2/5/r*r) with (2/5) by (field; lra). lra. }
  split; [exact W|]. split; [exact W|reflexivity].
Qed.
Lemma a_nonneg d : 0 <= a d.
Proof. apply Rabs_pos. Qed.
Lemma up_ctr d : dir3 d -> ish d 1 ctr <> ctr /\ ish d (-1) ctr <> ctr /\ ib (ish d 1 ctr) = (-1)%Z /\ ib (ish d (-1) ctr) = (-1)%Z.
Proof. intros [->|[->| ->]]; (split; [discriminate|]; split; [discriminate|]; split; reflexivity). Qed.
Definition F := step_flux P ib tg s.
Lemma flux d x : dir3 d -> F d 0%Z x = (if at_ x ctr then 1/5 * a d else if at_ x (ish d 1 ctr) then - (1/5 * a d) else 0).
Proof.
  intros D. destruct (up_ctr d D) as (U1 & U2 & U3 & U4). unfold F, step_flux.
  destruct (at_ x ctr) eqn:E1; [|destruct (at_ x (ish d 1 ctr)) eqn:E2].
  - apply at_spec in E1. subst x. rewrite process_keep by (reflexivity || exact U4).
    unfold sharpen_flux. cbn [Z.eqb]. unfold alpha_flux. cbv zeta. cbn [o_vof s pc_margin pc_gamma P].
    fold (a d). change (tg ctr) with 0. change (vof ctr) with (1/5).
    pose proof (vof_range _ U2) as V. set (v := vof (ish d (-1) ctr)) in *.
    replace (Rltb (1/10) (Rabs (1/5 - 1/2))) with true by (symmetry; apply Rltb_spec; rewrite Rabs_left; lra). cbn [orb].
    replace (Rltb (1/5 - v) 0) with true by (symmetry; apply Rltb_spec; lra).
    replace (Rltb (1/5) (1/2)) with true by (symmetry; apply Rltb_spec; lra).
    replace (Rleb v (1/2 + 1/10)) with true by (symmetry; apply Rleb_spec; lra).
    replace (Rleb (1/2 - 1/10) (1/5)) with false by (symmetry; apply Rleb_false; lra). cbn [andb]. ring.
  - apply at_spec in E2. subst x. rewrite process_keep by (exact U3 || (rewrite ish_back; reflexivity)).
    unfold sharpen_flux. cbn [Z.eqb]. unfold alpha_flux. cbv zeta. cbn [o_vof s pc_margin pc_gamma P].
    rewrite ish_back. fold (a d). change (tg ctr) with 0. change (vof ctr) with (1/5).
    pose proof (vof_range _ U1) as V. set (v := vof (ish d 1 ctr)) in *.
    replace (Rltb (1/10) (Rabs (1/5 - 1/2))) with true by (symmetry; apply Rltb_spec; rewrite Rabs_left; lra). rewrite orb_true_r.
    replace (Rltb (v - 1/5) 0) with false by (symmetry; apply Rltb_false; lra).
    replace (Rltb 0 (v - 1/5)) with true by (symmetry; apply Rltb_spec; lra).
    replace (Rltb (1/5) (1/2)) with true by (symmetry; apply Rltb_spec; lra).
    replace (Rleb v (1/2 + 1/10)) with true by (symmetry; apply Rleb_spec; lra).
    replace (Rleb (1/2 - 1/10) (1/5)) with false by (symmetry; apply Rleb_false; lra). cbn [andb]. ring.
  - assert (A : alpha_flux d (pc_margin P) vof tg (normal_vector ib vof) x = 0).
    { assert (E3 : at_ (ish d (-1) x) ctr = false).
      { apply at_false. intros X. assert (Y : x = ish d 1 ctr); [|apply at_spec in Y; congruence].
        rewrite <- X. unfold ish. rewrite shift_add. symmetry. apply shift_0. }
      unfold alpha_flux. cbv zeta. unfold tg. rewrite E1, E3.
      replace ((vof x - vof x) * _) with 0 by ring. replace ((vof (ish d (-1) x) - vof (ish d (-1) x)) * _) with 0 by ring.
      replace (1 / 2 * (0 + 0)) with 0 by lra.
      repeat match goal with |- context [if ?b then _ else _] => destruct b end; reflexivity. }
    unfold process_flux, sharpen_flux. cbn [Z.eqb]. cbv zeta. change (o_vof s) with vof. rewrite A. ring.
Qed.
Lemma fold_min_ge {A} (f : A -> R) l m q : q <= m -> (forall x, In x l -> q <= f x) -> q <= fold_left (fun m c => rmin m (f c)) l m.
Proof.
  revert m. induction l as [|y l IH]; intros m M H; cbn [fold_left]; [exact M|]. apply IH; [|intros x X; apply H; right; exact X].
  rewrite rmin_spec. apply Rmin_glb; [exact M|]. apply H. left. reflexivity.
Qed.
Lemma a_le d : dir3 d -> a d <= 1.
Proof. destruct a_val as (A & B & C). intros [->|[->| ->]]; lra. Qed.
Lemma ptfac : step_ptfac P ib tg s = 1/2.
Proof.
  unfold step_ptfac. fold F. rewrite rmin_spec.
  assert (Q : forall d x, dir3 d -> 1 <= pdt_face (pc_convg_tol P) (pc_dx P) F vof d x).
  { intros d x D. pose proof (a_le d D) as AL. pose proof t_range as T. destruct (up_ctr d D) as (U1 & U2 & _).
    unfold pdt_face. cbv zeta. cbn [pc_dx P]. change (pc_convg_tol P) with t. rewrite (flux d x D).
    assert (W : forall g, t < g -> g <= 1/5 -> 1 <= 1/5 * 1 / g).
    { intros g G1 G2. apply Rmult_le_reg_r with g; [lra|]. replace (1/5*1/g*g) with (1/5) by (field; lra). lra. }
    destruct (at_ x ctr) eqn:E1; [|destruct (at_ x (ish d 1 ctr)) eqn:E2].
    - apply at_spec in E1. subst x. change (vof ctr) with (1/5).
      destruct (Rltb t (1/5 * a d)) eqn:K; cbn [andb].
      + apply Rltb_spec in K. replace (Rltb t (1/5)) with true by (symmetry; apply Rltb_spec; lra). apply W; lra.
      + apply Rltb_false in K. replace (Rltb (1/5 * a d) (- t)) with false; [cbn [andb]; lra|]. symmetry. apply Rltb_false. pose proof (a_nonneg d). lra.
    - apply at_spec in E2. subst x. rewrite ish_back. change (vof ctr) with (1/5). pose proof (a_nonneg d).
      replace (Rltb t (- (1/5 * a d))) with false by (symmetry; apply Rltb_false; lra). cbn [andb].
      destruct (Rltb (- (1/5 * a d)) (- t)) eqn:K; cbn [andb]; [|lra]. apply Rltb_spec in K.
      replace (Rltb t (1/5)) with true by (symmetry; apply Rltb_spec; lra). apply W; lra.
    - replace (Rltb t 0) with false by (symmetry; apply Rltb_false; lra).
      replace (Rltb 0 (- t)) with false by (symmetry; apply Rltb_false; lra). cbn [andb]. lra. }
  assert (L : 1 <= pseudo_dt (pc_convg_tol P) (pc_dx P) F (o_vof s) (pc_box P)).
  { unfold pseudo_dt, pdt_dir. rewrite !rmin_spec. change (o_vof s) with vof.
    repeat apply Rmin_glb; (apply fold_min_ge; [lra|]; intros x _; apply Q; unfold dir3; tauto). }
  rewrite Rmin_left by exact L. lra.
Qed.
Lemma before c : c <> ctr -> t <= before_clip P ib tg s c <= 1 - t.
Proof.
  intros H. unfold before_clip. fold F. rewrite ptfac. change (o_vof s) with vof. pose proof (vof_range c H) as V. pose proof t_range as T.
  unfold fdiv. cbn [pc_dx P].
  assert (X : forall d, dir3 d -> 0 <= (F d 0%Z (ish d 1 c) - F d 0%Z c) / 1 <= 2/5 * a d).
  { intros d D. rewrite !(flux d _ D). rewrite (at_false _ _ H). pose proof (a_nonneg d).
    assert (E : at_ (ish d 1 c) (ish d 1 ctr) = false).
    { apply at_false. intros Y. apply H. rewrite <- (ish_back d c), <- (ish_back d ctr), Y. reflexivity. }
    rewrite E. destruct (at_ (ish d 1 c) ctr), (at_ c (ish d 1 ctr)); lra. }
  pose proof (X 0%Z ltac:(unfold dir3; tauto)). pose proof (X 1%Z ltac:(unfold dir3; tauto)). pose proof (X 2%Z ltac:(unfold dir3; tauto)).
  destruct a_val as (A & B & C). rewrite C in *. lra.
Qed.
Lemma centre : before_clip P ib tg s ctr < 0.
Proof.
  unfold before_clip. fold F. rewrite ptfac. change (o_vof s ctr) with (1/5). unfold fdiv. cbn [pc_dx P].
  assert (X : forall d, dir3 d -> (F d 0%Z (ish d 1 ctr) - F d 0%Z ctr) / 1 = - (2/5 * a d)).
  { intros d D. destruct (up_ctr d D) as (U & _). rewrite !(flux d _ D). rewrite (at_false _ _ U).
    replace (at_ ctr ctr) with true by reflexivity. replace (at_ (ish d 1 ctr) (ish d 1 ctr)) with true by (symmetry; apply at_spec; reflexivity). lra. }
  rewrite !X by (unfold dir3; tauto). destruct a_val as (A & B & C). rewrite C. lra.
Qed.
Lemma rsum_ge_one {A} (f : A -> R) l x : In x l -> (forall y, In y l -> 0 <= f y) -> f x <= rsum (map f l).
Proof.
  induction l as [|y l IH]; intros X H; [destruct X|]. simpl map. rewrite rsum_cons.
  assert (0 <= rsum (map f l)) by (apply rsum_nonneg; intros; apply H; right; assumption).
  pose proof (H y (or_introl eq_refl)). destruct X as [->|X]; [lra|]. specialize (IH X (fun z Z => H z (or_intror Z))). lra.
Qed.
Lemma volume_created : total (pc_box P) (o_vof s) < total (pc_box P) (o_vof (sharpen_step P ib tg s)).
Proof.
  rewrite (c58_volume P ib tg s nonempty_P (closed_P tg)).
  set (f := fun c => clip_vof (pc_vof_tol P) (before_clip P ib tg s c) - before_clip P ib tg s c).
  assert (Z0 : forall c, c <> ctr -> f c = 0).
  { intros c H. unfold f. replace (clip_vof (pc_vof_tol P) (before_clip P ib tg s c)) with (before_clip P ib tg s c); [ring|].
    symmetry. apply clip_settled; [change (pc_vof_tol P) with t; pose proof t_range; lra|]. right; right. apply before, H. }
  assert (K : 0 < f ctr).
  { unfold f. pose proof centre as C. unfold clip_vof. replace (Rltb (before_clip P ib tg s ctr) (pc_vof_tol P)) with true; [lra|].
    symmetry. apply Rltb_spec. change (pc_vof_tol P) with t. pose proof t_range. lra. }
  assert (G : f ctr <= total (pc_box P) f).
  { unfold total. apply rsum_ge_one; [apply in_cells; unfold in_box; cbn; lia|]. intros y _.
    destruct (at_ y ctr) eqn:E; [apply at_spec in E; subst y; lra|]. rewrite Z0; [lra|]. intros X. apply at_spec in X. congruence. }
  lra.
Qed.
End Overdraw.
Theorem c58_volume_created_refuted : exists P ib tg s, good P /\ blanking ib /\ nonempty (pc_box P) /\ closed P ib tg s /\
  pc_gamma P = pseudo_velocity (-1) (pc_dx P) (pc_dx P 0%Z) /\
  (forall c, 0 <= o_vof s c <= 1 /\ 0 <= tg c <= 1 /\ o_rho s c = density_of (pc_rho1 P) (pc_rho2 P) (o_vof s c)) /\
  (forall c, ib c <> (-1)%Z -> tg c = o_vof s c) /\
  total (pc_box P) (o_vof s) < total (pc_box P) (o_vof (sharpen_step P ib tg s)).
Proof.
  exists Overdraw.P, Overdraw.ib, Overdraw.tg, Overdraw.s.
  split; [exact Overdraw.good_P|]. split; [exact Overdraw.blank|]. split; [exact Overdraw.nonempty_P|]. split; [apply Overdraw.closed_P|].
  split. { unfold pseudo_velocity, rmin, Overdraw.P. cbn [pc_gamma pc_dx Z.eqb Pos.eqb]. destruct (Rltb 1 1); destruct (Rltb 1 1); reflexivity. }
  split.
  { intros c. cbn [Overdraw.s o_vof o_rho Overdraw.P pc_rho1 pc_rho2]. unfold Overdraw.tg, Overdraw.vof.
    destruct (Overdraw.at_ c Overdraw.ctr); [repeat split; lra|]. destruct (Overdraw.at_ c (IV 3 2 2)); [repeat split; lra|].
    destruct (Overdraw.at_ c (IV 2 3 2)); repeat split; lra. }
  split.
  { intros c H. unfold Overdraw.tg. cbn [Overdraw.s o_vof]. destruct (Overdraw.at_ c Overdraw.ctr) eqn:E; [|reflexivity].
    apply Overdraw.at_spec in E. subst c. exfalso. apply H. reflexivity. }
  exact Overdraw.volume_created.
Qed.

(** A mixed case: the hypotheses of the conservation theorem are met by a step that moves
    liquid between two received cells. *)
Example c58_case : closed Overdraw.P Overdraw.ib Overdraw.tg Overdraw.s /\ good Overdraw.P /\
  released (fun c => if (iv0 c =? 0)%Z then 1%Z else (-1)%Z) (IV 1 0 0) /\
  ~ released (fun c => if (iv0 c =? 0)%Z then 1%Z else (-1)%Z) (IV 2 0 0).
Proof.
  split; [apply Overdraw.closed_P|]. split; [exact Overdraw.good_P|]. split.
  - split; [reflexivity|]. split; [exists (IV 0 0 0); split; [unfold touches; cbn; lia|reflexivity]|].
    intros x _. destruct (iv0 x =? 0)%Z; discriminate.
  - intros (_ & (x & T & E) & _). unfold touches in T. cbn in T. destruct (Z.eqb_spec (iv0 x) 0); [lia|discriminate].
Qed.

Print Assumptions c46_mask_mac.
Print Assumptions c46_mask_nodal.
Print Assumptions c46_sharpen_frame.
Print Assumptions c46_sharpen_pressure.
Print Assumptions c46_postsolve.
Print Assumptions c46_postsolve_bits_refuted.
Print Assumptions c58_conserved.
Print Assumptions c58_closed_periodic.
Print Assumptions c58_volume_created_refuted.
Print Assumptions c58_at_rest.
Print Assumptions c58_stopping.
Print Assumptions c58_pressure.
Print Assumptions c58_pseudo_step.
