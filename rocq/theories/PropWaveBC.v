(** C95: waves at the inflow boundary. *)
From Coq Require Import Reals List ZArith Lra Lia.
From Verif Require Import Base BoxR BoxRFacts VofAdvect BoundaryCond WaveBC WaveBCSpec.
From Verif Require Composite.
Import ListNotations.
Open Scope R_scope.

(** ** Where *)

(** A domain of at least one cell; a direction repeats or does not, and the sides of one that does take no inflow. *)
Definition sound (ts : list bct) (dom : box) (per : nat -> Z) : Prop :=
  (forall e, (e < 3)%nat -> (blo_ dom e <= bhi_ dom e)%Z) /\ (forall e, per e = 0%Z \/ per e = 1%Z) /\
  (forall f, wave_side (type_of ts f) = true -> per (fdir f) = 0%Z).

Lemma in3 : forall e, In e [0; 1; 2]%nat <-> (e < 3)%nat.
Proof. intro e. simpl. lia. Qed.
Lemma faces_lt f : In f faces <-> (f < 6)%nat.
Proof. unfold faces. simpl. lia. Qed.
Lemma fdir_lt f : (fdir f < 3)%nat.
Proof. unfold fdir. apply Nat.mod_upper_bound. lia. Qed.
Lemma side_eq f g : (f < 6)%nat -> (g < 6)%nat -> fdir f = fdir g -> flow f = flow g -> f = g.
Proof.
  intros F G. do 6 (destruct f as [|f]; [do 6 (destruct g as [|g]; [cbv; intros; try reflexivity; discriminate|]); lia|]). lia.
Qed.

(** The patch of a side for values in the cells. *)
Lemma patch_cells ts dom vb per f c : sound ts dom per -> wave_side (type_of ts f) = true -> in_array vb c ->
  (patch dom vb per (fun _ => 0%Z) f c = true <-> first_outside dom f c /\ alongside dom per f c).
Proof.
  intros (D & P & S) W A. unfold patch. rewrite forallb_forall.
  assert (FS : forall e, face_shift (fun _ => 0%Z) f e = 0%Z).
  { intro e. unfold face_shift. destruct (negb (flow f) && (0 =? 1)%Z)%bool; reflexivity. }
  specialize (S f W). split.
  - intro H. split.
    + pose proof (fdir_lt f) as L. specialize (H (fdir f) (proj2 (in3 _) L)). rewrite FS in H.
      apply andb_prop in H. destruct H as [H1 H2]. apply Z.leb_le in H1. apply Z.leb_le in H2.
      unfold side_lo, side_hi in *. rewrite Nat.eqb_refl in *. rewrite S in *. unfold first_outside. destruct (flow f); lia.
    + intros e E N. specialize (H e (proj2 (in3 _) E)). rewrite FS in H.
      apply andb_prop in H. destruct H as [H1 H2]. apply Z.leb_le in H1. apply Z.leb_le in H2.
      unfold side_lo, side_hi in *. destruct (Nat.eqb_spec e (fdir f)); [contradiction|]. lia.
  - intros [O G] e E. apply in3 in E. rewrite FS. specialize (A e E). apply andb_true_intro.
    unfold side_lo, side_hi. destruct (Nat.eqb_spec e (fdir f)) as [->|N].
    + unfold first_outside in O. rewrite S in *. destruct (flow f); split; apply Z.leb_le; lia.
    + specialize (G e E N). split; apply Z.leb_le; lia.
Qed.

(** A cell is outside one side only. *)
Lemma one_side ts dom per f g c : sound ts dom per -> (f < 6)%nat -> (g < 6)%nat ->
  wave_side (type_of ts f) = true -> wave_side (type_of ts g) = true ->
  first_outside dom f c -> alongside dom per f c -> first_outside dom g c -> f = g.
Proof.
  intros (D & P & S) F G WF WG OF AF OG.
  destruct (Nat.eq_dec (fdir f) (fdir g)) as [E|N].
  - apply side_eq; auto. unfold first_outside in *. rewrite E in *. pose proof (D (fdir g) (fdir_lt g)).
    destruct (flow f), (flow g); auto; lia.
  - exfalso. specialize (AF (fdir g) (fdir_lt g)). assert (fdir g <> fdir f) as N' by congruence. specialize (AF N').
    rewrite (S g WG) in AF. unfold first_outside in OG. destruct (flow g); lia.
Qed.

Definition one (ts : list bct) (p : nat -> ivec -> bool) (put : nat -> ivec -> nat -> R -> R) (v : cfld) (f : nat) : cfld :=
  if wave_side (type_of ts f) then (fun c n => if p f c then put f c n (v c n) else v c n) else v.
Lemma one_off ts p (put : nat -> ivec -> nat -> R -> R) v f c n :
  (wave_side (type_of ts f) = true -> p f c = false) -> one ts p put v f c n = v c n.
Proof. intro H. unfold one. destruct (wave_side (type_of ts f)); [|reflexivity]. rewrite H; reflexivity. Qed.
Lemma fold_off ts p (put : nat -> ivec -> nat -> R -> R) c n : forall l v,
  (forall f, In f l -> wave_side (type_of ts f) = true -> p f c = false) ->
  fold_left (one ts p put) l v c n = v c n.
Proof.
  induction l as [|f r IH]; intros v H; simpl; [reflexivity|].
  rewrite IH by (intros g G; apply H; right; exact G). apply one_off. apply H. left. reflexivity.
Qed.
Lemma fold_on ts p (put : nat -> ivec -> nat -> R -> R) c n f : forall l v, In f l -> NoDup l ->
  wave_side (type_of ts f) = true -> p f c = true ->
  (forall g, In g l -> g <> f -> wave_side (type_of ts g) = true -> p g c = false) ->
  fold_left (one ts p put) l v c n = put f c n (v c n).
Proof.
  induction l as [|g r IH]; intros v I ND W P H; [contradiction|]. simpl. inversion_clear ND as [|? ? NI NR].
  destruct (Nat.eq_dec g f) as [->|N].
  - rewrite fold_off. { unfold one. rewrite W, P. reflexivity. }
    intros h HI. apply H; [right; exact HI|]. intro E. subst. contradiction.
  - destruct I as [->|I]; [congruence|]. rewrite IH; auto.
    + rewrite one_off; [reflexivity|]. apply H; [left; reflexivity|exact N].
    + intros h HI. apply H. right. exact HI.
Qed.
Lemma faces_nodup : NoDup faces.
Proof. unfold faces. repeat constructor; simpl; intuition lia. Qed.

Lemma over_on ts p (put : nat -> ivec -> nat -> R -> R) c n f v : (f < 6)%nat ->
  wave_side (type_of ts f) = true -> p f c = true ->
  (forall g, (g < 6)%nat -> g <> f -> wave_side (type_of ts g) = true -> p g c = false) ->
  over_sides ts p put v c n = put f c n (v c n).
Proof.
  intros F W P H. apply (fold_on ts p put c n f); auto; [apply faces_lt; exact F|exact faces_nodup|].
  intros g GI. apply H. apply faces_lt. exact GI.
Qed.

(** At a cell one step outside a wave side the loop does what the side asks. *)
Lemma sides_on ts dom vb per put u f c n : sound ts dom per -> (f < 6)%nat -> wave_side (type_of ts f) = true ->
  in_array vb c -> first_outside dom f c -> alongside dom per f c ->
  over_sides ts (patch dom vb per (fun _ => 0%Z)) put u c n = put f c n (u c n).
Proof.
  intros S F W A O G. apply (fold_on ts (patch dom vb per (fun _ => 0%Z)) put c n f).
  - apply faces_lt. exact F.
  - exact faces_nodup.
  - exact W.
  - apply (patch_cells ts); auto.
  - intros g GI N WG. apply faces_lt in GI. apply Bool.not_true_iff_false. intro H.
    apply (patch_cells ts) in H; auto. destruct H as [H1 H2]. apply N. symmetry. eapply one_side; eauto.
Qed.
Lemma sides_off ts dom vb per put u c n : sound ts dom per -> in_array vb c ->
  (forall f, (f < 6)%nat -> wave_side (type_of ts f) = true -> ~ (first_outside dom f c /\ alongside dom per f c)) ->
  over_sides ts (patch dom vb per (fun _ => 0%Z)) put u c n = u c n.
Proof.
  intros S A H. apply (fold_off ts (patch dom vb per (fun _ => 0%Z)) put c n).
  intros f FI W. apply faces_lt in FI. apply Bool.not_true_iff_false. intro E. apply (patch_cells ts) in E; auto. exact (H f FI W E).
Qed.

Lemma inner_across f c : (f < 6)%nat -> inner_cell (fun _ => 0%Z) f c = across f c.
Proof.
  intro F. destruct c as [x y z]. unfold inner_cell, across, step, shift.
  do 6 (destruct f as [|f]; [cbv -[Z.add]; f_equal; ring|]). lia.
Qed.

(** Waves come in through the sides with inflow and those that make waves, no others. *)
Theorem c95_sides : forall t, wave_side t = true <-> waves_enter t.
Proof. intro t. unfold waves_enter. destruct t; simpl; intuition congruence. Qed.

(** One step outside a side where waves come in, a wet place is given the velocity of the waves and a dry one keeps
    what the condition gave, except next to terrain, where all is zero. *)
Theorem c95_velocity : forall terr ts dom vb per ov ow blank u f c n,
  sound ts dom per -> (f < 6)%nat -> wave_side (type_of ts f) = true ->
  in_array vb c -> first_outside dom f c -> alongside dom per f c ->
  let v := set_velocity true terr ts dom vb per (fun _ => 0%Z) ov ow blank 0 u c n in
  (terr = true -> blank (across f c) = 1%Z -> v = 0) /\
  (terr = false \/ blank (across f c) <> 1%Z -> Composite.tight_tol < ov c -> v = ow c n) /\
  (terr = false \/ blank (across f c) <> 1%Z -> ov c <= Composite.tight_tol -> v = u c n).
Proof.
  intros terr ts dom vb per ov ow blank u f c n S F W A O G v.
  assert (V : v = if andb terr (blank (across f c) =? 1)%Z then 0
    else if Rltb Composite.tight_tol (ov c) then ow c n else u c n).
  { unfold v, set_velocity. rewrite (sides_on ts dom vb per _ u f c n S F W A O G). rewrite inner_across by exact F. reflexivity. }
  clearbody v. repeat split.
  - intros T B. rewrite V, T, B. reflexivity.
  - intros T B. rewrite V. assert (E : andb terr (blank (across f c) =? 1)%Z = false).
    { destruct T as [->|T]; [reflexivity|]. apply Z.eqb_neq in T. rewrite T. apply Bool.andb_false_r. }
    rewrite E. destruct (Rltb _ _) eqn:R; [reflexivity|]. apply Rltb_false in R. lra.
  - intros T B. rewrite V. assert (E : andb terr (blank (across f c) =? 1)%Z = false).
    { destruct T as [->|T]; [reflexivity|]. apply Z.eqb_neq in T. rewrite T. apply Bool.andb_false_r. }
    rewrite E. destruct (Rltb _ _) eqn:R; [|reflexivity]. apply Rltb_spec in R. lra.
Qed.

(** It is given the volume fraction of the waves. *)
Theorem c95_vof : forall ts dom vb per ov u f c n,
  sound ts dom per -> (f < 6)%nat -> wave_side (type_of ts f) = true ->
  in_array vb c -> first_outside dom f c -> alongside dom per f c ->
  set_vof true ts dom vb per ov u c n = ov c.
Proof. intros ts dom vb per ov u f c n S F W A O G. unfold set_vof. exact (sides_on ts dom vb per (fun _ c _ _ => ov c) u f c n S F W A O G). Qed.

(** It is given the density of the mixture of the liquid and of what the condition gave; that is the density of the
    mixture there exactly if it is all liquid or the condition gave the density of the gas. *)
Theorem c95_density : forall rho1 rho2 ts dom vb per ov u f c n,
  sound ts dom per -> (f < 6)%nat -> wave_side (type_of ts f) = true -> 0 <= rho1 ->
  in_array vb c -> first_outside dom f c -> alongside dom per f c ->
  let r := set_density true rho1 ts dom vb per ov u c n in
  r = mixture rho1 (u c n) (ov c) /\ (r = mixture rho1 rho2 (ov c) <-> ov c = 1 \/ u c n = rho2).
Proof.
  intros rho1 rho2 ts dom vb per ov u f c n S F W P A O G r.
  assert (V : r = mixture rho1 (u c n) (ov c)).
  { unfold r, set_density. assert (E : Rltb rho1 0 = false).
    { destruct (Rltb rho1 0) eqn:E; [|reflexivity]. apply Rltb_spec in E. lra. }
    rewrite E. simpl orb. cbv iota. exact (sides_on ts dom vb per _ u f c n S F W A O G). }
  clearbody r. split; [exact V|]. rewrite V. unfold mixture. split.
  - intro H. assert (Z0 : (1 - ov c) * (u c n - rho2) = 0) by lra.
    apply Rmult_integral in Z0. destruct Z0; [left|right]; lra.
  - intros [H|H]; rewrite H; ring.
Qed.

(** The condition gives a density of 1 unless the input has one (icns_bcop.H:34-36): with any other gas the density
    beside the waves is not that of the mixture, nor is it where the condition takes it from liquid inside. *)
Theorem c95_density_refuted : forall rho1 rho2 given ts dom vb per ov u f c n,
  sound ts dom per -> (f < 6)%nat -> wave_side (type_of ts f) = true -> 0 <= rho1 ->
  in_array vb c -> first_outside dom f c -> alongside dom per f c ->
  u c n = given -> given <> rho2 -> ov c < 1 ->
  set_density true rho1 ts dom vb per ov u c n <> mixture rho1 rho2 (ov c).
Proof.
  intros rho1 rho2 given ts dom vb per ov u f c n S F W P A O G U N L H.
  destruct (c95_density rho1 rho2 ts dom vb per ov u f c n S F W P A O G) as [_ E]. apply E in H. destruct H; [lra|congruence].
Qed.

(** Nothing else changes: cells of the domain, the second layer, other sides, edges and corners. *)
Theorem c95_elsewhere : forall terr rho1 ts dom vb per ov ow blank u c n,
  sound ts dom per -> in_array vb c ->
  (forall f, (f < 6)%nat -> wave_side (type_of ts f) = true -> ~ (first_outside dom f c /\ alongside dom per f c)) ->
  set_velocity true terr ts dom vb per (fun _ => 0%Z) ov ow blank 0 u c n = u c n /\
  set_vof true ts dom vb per ov u c n = u c n /\
  set_density true rho1 ts dom vb per ov u c n = u c n.
Proof.
  intros terr rho1 ts dom vb per ov ow blank u c n S A H. unfold set_velocity, set_vof, set_density. repeat split.
  - exact (sides_off ts dom vb per _ u c n S A H).
  - exact (sides_off ts dom vb per _ u c n S A H).
  - destruct (negb true || Rltb rho1 0)%bool; [reflexivity|]. exact (sides_off ts dom vb per _ u c n S A H).
Qed.
(** In particular cells of the domain. *)
Theorem c95_inside : forall terr rho1 ts dom vb per ov ow blank u c n,
  sound ts dom per -> in_array vb c -> (forall e, (e < 3)%nat -> (blo_ dom e <= ix c e <= bhi_ dom e)%Z) ->
  set_velocity true terr ts dom vb per (fun _ => 0%Z) ov ow blank 0 u c n = u c n /\
  set_vof true ts dom vb per ov u c n = u c n /\
  set_density true rho1 ts dom vb per ov u c n = u c n.
Proof.
  intros. apply c95_elsewhere; auto. intros f F W [O _]. specialize (H1 (fdir f) (fdir_lt f)).
  unfold first_outside in O. destruct (flow f); lia.
Qed.
(** With boundary planes read from a file nothing changes at all. *)
Theorem c95_planes : forall terr rho1 ts dom vb per ty ov ow blank orig d u,
  set_velocity false terr ts dom vb per ty ov ow blank orig u = u /\ set_vof false ts dom vb per ov u = u /\
  set_density false rho1 ts dom vb per ov u = u /\ set_faces false terr ts dom ov ow blank d u = u.
Proof. intros. repeat split; reflexivity. Qed.

(** ** Faces *)

Lemma boundary_faces_spec dom f c : boundary_faces dom f c = true <->
  ix c (fdir f) = (if flow f then blo_ dom (fdir f) else bhi_ dom (fdir f) + 1)%Z /\
  (forall e, (e < 3)%nat -> e <> fdir f -> (blo_ dom e <= ix c e <= bhi_ dom e)%Z).
Proof.
  unfold boundary_faces. rewrite forallb_forall. split.
  - intro H. split.
    + specialize (H (fdir f) (proj2 (in3 _) (fdir_lt f))). rewrite Nat.eqb_refl in H. apply Z.eqb_eq in H. exact H.
    + intros e E N. specialize (H e (proj2 (in3 _) E)). destruct (Nat.eqb_spec e (fdir f)); [contradiction|].
      apply andb_prop in H. destruct H as [H1 H2]. apply Z.leb_le in H1. apply Z.leb_le in H2. lia.
  - intros [H1 H2] e E. apply in3 in E. destruct (Nat.eqb_spec e (fdir f)) as [->|N].
    + apply Z.eqb_eq. exact H1.
    + specialize (H2 e E N). apply andb_true_intro. split; apply Z.leb_le; lia.
Qed.
Lemma outer_low f c : (f < 6)%nat -> flow f = true -> outer_cell f c = step c (fdir f) (-1).
Proof. intros F L. destruct c as [x y z]. do 3 (destruct f as [|f]; [cbv -[Z.add]; f_equal; ring|]). unfold flow in L. apply Nat.ltb_lt in L. lia. Qed.
Lemma outer_high f c : flow f = false -> outer_cell f c = c.
Proof. intro L. destruct c as [x y z]. unfold outer_cell. rewrite L. rewrite !Bool.andb_false_r. simpl. f_equal; ring. Qed.

(** A face of the boundary itself is given the component of the waves across it, taken from the cell outside. *)
Theorem c95_face : forall terr ts dom ov ow blank u f c n,
  (forall e, (e < 3)%nat -> (blo_ dom e <= bhi_ dom e)%Z) -> (f < 6)%nat -> wave_side (type_of ts f) = true ->
  ix c (fdir f) = (if flow f then blo_ dom (fdir f) else bhi_ dom (fdir f) + 1)%Z ->
  (forall e, (e < 3)%nat -> e <> fdir f -> (blo_ dom e <= ix c e <= bhi_ dom e)%Z) ->
  let o := if flow f then step c (fdir f) (-1) else c in
  let v := set_faces true terr ts dom ov ow blank (fdir f) u c n in
  (terr = true -> blank (across f o) = 1%Z -> v = 0) /\
  (terr = false \/ blank (across f o) <> 1%Z -> Composite.tight_tol < ov o -> v = ow o (fdir f)) /\
  (terr = false \/ blank (across f o) <> 1%Z -> ov o <= Composite.tight_tol -> v = u c n).
Proof.
  intros terr ts dom ov ow blank u f c n D F W I G o v.
  assert (O : outer_cell f c = o).
  { unfold o. destruct (flow f) eqn:L; [apply outer_low; auto|apply outer_high; exact L]. }
  assert (V : v = if andb terr (blank (across f o) =? 1)%Z then 0
    else if Rltb Composite.tight_tol (ov o) then ow o (fdir f) else u c n).
  { unfold v, set_faces.
    rewrite (over_on ts (fun g c => andb (Nat.eqb (fdir g) (fdir f)) (boundary_faces dom g c)) _ c n f u F W).
    - rewrite O, inner_across by exact F. reflexivity.
    - rewrite Nat.eqb_refl. apply boundary_faces_spec. split; assumption.
    - intros g GI N WG. destruct (Nat.eqb_spec (fdir g) (fdir f)) as [E|]; [|reflexivity].
      simpl. apply Bool.not_true_iff_false. intro H. apply boundary_faces_spec in H. destruct H as [H _]. rewrite E in H.
      apply N. apply side_eq; auto. pose proof (D (fdir f) (fdir_lt f)). destruct (flow f), (flow g); auto; lia. }
  clearbody v o. repeat split.
  - intros T B. rewrite V, T, B. reflexivity.
  - intros T B. rewrite V. assert (E : andb terr (blank (across f o) =? 1)%Z = false).
    { destruct T as [->|T]; [reflexivity|]. apply Z.eqb_neq in T. rewrite T. apply Bool.andb_false_r. }
    rewrite E. destruct (Rltb _ _) eqn:R; [reflexivity|]. apply Rltb_false in R. lra.
  - intros T B. rewrite V. assert (E : andb terr (blank (across f o) =? 1)%Z = false).
    { destruct T as [->|T]; [reflexivity|]. apply Z.eqb_neq in T. rewrite T. apply Bool.andb_false_r. }
    rewrite E. destruct (Rltb _ _) eqn:R; [|reflexivity]. apply Rltb_spec in R. lra.
Qed.

(** Other faces keep their value. *)
Theorem c95_other_faces : forall terr ts dom ov ow blank u d c n,
  (forall f, (f < 6)%nat -> wave_side (type_of ts f) = true -> fdir f = d ->
    ~ (ix c d = (if flow f then blo_ dom d else bhi_ dom d + 1)%Z /\
       forall e, (e < 3)%nat -> e <> d -> (blo_ dom e <= ix c e <= bhi_ dom e)%Z)) ->
  set_faces true terr ts dom ov ow blank d u c n = u c n.
Proof.
  intros terr ts dom ov ow blank u d c n H.
  apply (fold_off ts (fun g c => andb (Nat.eqb (fdir g) d) (boundary_faces dom g c))).
  intros f FI W. apply faces_lt in FI. destruct (Nat.eqb_spec (fdir f) d) as [E|]; [|reflexivity]. simpl.
  apply Bool.not_true_iff_false. intro B. apply boundary_faces_spec in B. rewrite E in B. exact (H f FI W E B).
Qed.

(** The type of the faces across direction [d]. *)
Definition faces_of (d e : nat) : Z := if Nat.eqb e d then 1%Z else 0%Z.

Lemma patch_true dom vb per ty f c : patch dom vb per ty f c = true <->
  (forall e, (e < 3)%nat -> let x := (ix c e - face_shift ty f e)%Z in
    (blo_ vb e - 1 <= x /\ side_lo dom per f e <= x /\ x <= bhi_ vb e + 1 - ty e /\ x <= side_hi dom per f e)%Z).
Proof.
  unfold patch. rewrite forallb_forall. split; intros H e E.
  - specialize (H e (proj2 (in3 _) E)). apply andb_prop in H. destruct H as [H1 H2].
    apply Z.leb_le in H1. apply Z.leb_le in H2. cbv zeta. lia.
  - apply in3 in E. specialize (H e E). cbv zeta in H. apply andb_true_intro. split; apply Z.leb_le; lia.
Qed.

Lemma inner_beyond f c : (f < 6)%nat -> inner_cell (faces_of (fdir f)) f c = step c (fdir f) (if flow f then 1 else -2).
Proof.
  intro F. destruct c as [x y z]. do 6 (destruct f as [|f]; [cbv -[Z.add]; f_equal; ring|]). lia.
Qed.

(** The face beyond the boundary: on a low side it takes the waves of the first cell outside, on a high side those of
    the second, which is the cell of the same index. *)
Theorem c95_ghost_face : forall terr ts dom vb per ov ow blank u f c,
  sound ts dom per -> (f < 6)%nat -> wave_side (type_of ts f) = true -> in_array vb c ->
  (blo_ dom (fdir f) <= bhi_ vb (fdir f) /\ blo_ vb (fdir f) <= bhi_ dom (fdir f) + 1)%Z ->
  ix c (fdir f) = (if flow f then blo_ dom (fdir f) - 1 else bhi_ dom (fdir f) + 2)%Z -> alongside dom per f c ->
  let inside := step c (fdir f) (if flow f then 1 else -2) in
  let v := set_velocity true terr ts dom vb per (faces_of (fdir f)) ov ow blank (fdir f) u c 0%nat in
  (terr = true -> blank inside = 1%Z -> v = 0) /\
  (terr = false \/ blank inside <> 1%Z -> Composite.tight_tol < ov c -> v = ow c (fdir f)) /\
  (terr = false \/ blank inside <> 1%Z -> ov c <= Composite.tight_tol -> v = u c 0%nat).
Proof.
  intros terr ts dom vb per ov ow blank u f c (D & P & S) F W A VB I G inside v.
  assert (V : v = if andb terr (blank inside =? 1)%Z then 0
    else if Rltb Composite.tight_tol (ov c) then ow c (fdir f) else u c 0%nat).
  2: { clearbody v inside. repeat split.
    - intros T B. rewrite V, T, B. reflexivity.
    - intros T B. rewrite V. assert (E : andb terr (blank inside =? 1)%Z = false).
      { destruct T as [->|T]; [reflexivity|]. apply Z.eqb_neq in T. rewrite T. apply Bool.andb_false_r. }
      rewrite E. destruct (Rltb _ _) eqn:R; [reflexivity|]. apply Rltb_false in R. lra.
    - intros T B. rewrite V. assert (E : andb terr (blank inside =? 1)%Z = false).
      { destruct T as [->|T]; [reflexivity|]. apply Z.eqb_neq in T. rewrite T. apply Bool.andb_false_r. }
      rewrite E. destruct (Rltb _ _) eqn:R; [|reflexivity]. apply Rltb_spec in R. lra. }
  unfold v, set_velocity.
  rewrite (over_on ts (patch dom vb per (faces_of (fdir f))) _ c 0%nat f u F W).
  - rewrite inner_beyond by exact F. rewrite Nat.add_0_r. reflexivity.
  - apply patch_true. intros e E. cbv zeta. specialize (A e E). specialize (S f W). unfold face_shift, side_lo, side_hi, faces_of.
    rewrite Nat.eqb_refl. destruct (Nat.eqb_spec e (fdir f)) as [->|N].
    + rewrite S. destruct (flow f); simpl; lia.
    + specialize (G e E N). destruct (flow f); simpl; lia.
  - intros g GI N WG. apply Bool.not_true_iff_false. intro H. rewrite patch_true in H.
    pose proof (S f W) as SF. pose proof (S g WG) as SG. pose proof (D (fdir f) (fdir_lt f)) as DF.
    specialize (H (fdir f) (fdir_lt f)). cbv zeta in H. unfold face_shift, side_lo, side_hi, faces_of in H. rewrite Nat.eqb_refl in H.
    destruct (Nat.eqb_spec (fdir f) (fdir g)) as [E|NE].
    + rewrite <- E in H. rewrite Nat.eqb_refl in H. rewrite SF in H. assert (X : flow f <> flow g).
      { intro X. apply N. symmetry. apply side_eq; auto. }
      destruct (flow f), (flow g); simpl in H; try congruence; lia.
    + rewrite SF in H. destruct (Nat.eqb_spec (fdir g) (fdir f)); [congruence|]. simpl in H.
      rewrite Bool.andb_false_r in H. destruct (flow f); lia.
Qed.

(** So with waves that differ from the first cell outside to the second the face beyond a high side is not given the
    waves of the first, as the face beyond a low side is. *)
Theorem c95_ghost_face_refuted : forall ts dom vb per ov ow blank u f c,
  sound ts dom per -> (f < 6)%nat -> wave_side (type_of ts f) = true -> in_array vb c -> flow f = false ->
  (blo_ dom (fdir f) <= bhi_ vb (fdir f) /\ blo_ vb (fdir f) <= bhi_ dom (fdir f) + 1)%Z ->
  ix c (fdir f) = (bhi_ dom (fdir f) + 2)%Z -> alongside dom per f c -> Composite.tight_tol < ov c ->
  ow c (fdir f) <> ow (step c (fdir f) (-1)) (fdir f) ->
  set_velocity true false ts dom vb per (faces_of (fdir f)) ov ow blank (fdir f) u c 0%nat <> ow (step c (fdir f) (-1)) (fdir f).
Proof.
  intros ts dom vb per ov ow blank u f c S F W A L VB I G B N.
  assert (I' : ix c (fdir f) = (if flow f then blo_ dom (fdir f) - 1 else bhi_ dom (fdir f) + 2)%Z) by (rewrite L; exact I).
  destruct (c95_ghost_face false ts dom vb per ov ow blank u f c S F W A VB I' G) as (_ & H & _).
  rewrite H by auto. exact N.
Qed.

(** Beside a side, the last of the faces along it is not given the waves unless the domain repeats there. *)
Theorem c95_last_face_refuted : forall terr ts dom vb per ov ow blank u f e c n,
  sound ts dom per -> (f < 6)%nat -> wave_side (type_of ts f) = true -> (e < 3)%nat -> e <> fdir f -> per e = 0%Z ->
  first_outside dom f c -> ix c e = (bhi_ dom e + 1)%Z ->
  set_velocity true terr ts dom vb per (faces_of e) ov ow blank e u c n = u c n.
Proof.
  intros terr ts dom vb per ov ow blank u f e c n (D & P & S) F W E N PE O I. unfold set_velocity.
  apply (fold_off ts (patch dom vb per (faces_of e))). intros g GI WG. apply faces_lt in GI.
  apply Bool.not_true_iff_false. intro H. rewrite patch_true in H.
  pose proof (S f W) as SF. pose proof (S g WG) as SG. pose proof (H (fdir f) (fdir_lt f)) as HF. specialize (H e E). cbv zeta in *.
  unfold face_shift, side_lo, side_hi, faces_of, first_outside in *. rewrite Nat.eqb_refl in *.
  pose proof (D e E). pose proof (D (fdir f) (fdir_lt f)).
  destruct (Nat.eqb_spec (fdir f) e); [congruence|]. destruct (Nat.eqb_spec e (fdir g)) as [EG|NG].
  - subst e. rewrite Nat.eqb_refl in *. destruct (Nat.eqb_spec (fdir f) (fdir g)); [congruence|].
    rewrite SF in HF. destruct (flow g), (flow f); simpl in *; lia.
  - rewrite PE in H. destruct (Nat.eqb_spec (fdir g) e); [congruence|]. simpl in *. rewrite ?Bool.andb_false_r in *. lia.
Qed.

(** A square of four cells by four by four with waves from the west, repeating in y: the cell west of cell 2. *)
Example sound_case : let ts := [WaveGeneration; Periodic; SlipWall; PressureOutflow; Periodic; SlipWall] in
  let dom := Box (IV 0 0 0) (IV 3 3 3) in let per := (fun e => if Nat.eqb e 1 then 1 else 0)%Z in
  sound ts dom per /\ wave_side (type_of ts 0) = true /\ in_array dom (IV (-1) 2 2) /\
  first_outside dom 0 (IV (-1) 2 2) /\ alongside dom per 0 (IV (-1) 2 2) /\
  set_vof true ts dom dom per (fun _ => / 2) (fun _ _ => 0) (IV (-1) 2 2) 0%nat = / 2 /\
  set_vof true ts dom dom per (fun _ => / 2) (fun _ _ => 0) (IV (-1) 2 4) 0%nat = 0.
Proof.
  assert (T : forall P : nat -> Prop, P 0%nat -> P 1%nat -> P 2%nat -> forall e, (e < 3)%nat -> P e).
  { intros P H0 H1 H2 e E. destruct e as [|[|[|e]]]; auto; lia. }
  cbv zeta. repeat split; try reflexivity.
  - apply T; cbv; congruence.
  - intro e. destruct (Nat.eqb e 1); auto.
  - intros f H. do 6 (destruct f as [|f]; [cbv in H |- *; try discriminate; reflexivity|]).
    unfold type_of in H. simpl in H. destruct f; discriminate.
  - revert e H. refine (T _ _ _ _); cbv; congruence.
  - revert e H. refine (T _ _ _ _); cbv; congruence.
  - revert H0. revert e H. refine (T _ _ _ _); cbv; congruence.
  - revert H0. revert e H. refine (T _ _ _ _); cbv; congruence.
Qed.

(** ** When *)

Lemma fills_app : forall l r d, fills d (l ++ r) = fills d l ++ fills (fold_left (fun d e => match e with Update t => t | Fill _ _ => d end) l d) r.
Proof. induction l as [|[t|k t] l IH]; intros r d; simpl; [reflexivity|apply IH|]. rewrite IH. reflexivity. Qed.
Lemma iterations_fills t0 t1 d : forall n i, fills d (flat_map (iteration t0 t1) (seq i n)) =
  flat_map (fun j => (match j with O => [] | S _ => [(Again, t0, d)] end) ++ [(Mac, / 2 * (t0 + t1), d); (New, t1, d)]) (seq i n).
Proof.
  induction n as [|n IH]; intro i; simpl; [reflexivity|]. unfold iteration at 1. rewrite <- app_assoc.
  destruct i; simpl; rewrite IH; reflexivity.
Qed.
Lemma iterations_last t0 t1 : forall n i d, fold_left (fun d e => match e with Update t => t | Fill _ _ => d end)
  (flat_map (iteration t0 t1) (seq i n)) d = d.
Proof. induction n as [|n IH]; intros i d; simpl; [reflexivity|]. rewrite fold_left_app. destruct i; simpl; apply IH. Qed.

Lemma step_fills iters t0 t1 d : fills d (time_step iters t0 t1) =
  [(Regrid, t0, d); (Half, / 2 * (t0 + t1), / 2 * (t0 + t1))] ++
  flat_map (fun j => (match j with O => [] | S _ => [(Again, t0, t1)] end) ++ [(Mac, / 2 * (t0 + t1), t1); (New, t1, t1)]) (seq 0 iters).
Proof. unfold time_step. simpl. rewrite iterations_fills. reflexivity. Qed.
Lemma step_last iters t0 t1 d : fold_left (fun d e => match e with Update t => t | Fill _ _ => d end) (time_step iters t0 t1) d = t1.
Proof. unfold time_step. rewrite fold_left_app. apply iterations_last. Qed.

(** Two times of a run that follow one another. *)
Inductive consecutive : R -> list R -> R -> R -> Prop :=
| c_here : forall t0 t1 r, consecutive t0 (t1 :: r) t0 t1
| c_later : forall t0 t1 r a b, consecutive t1 r a b -> consecutive t0 (t1 :: r) a b.

(** Every fill of a run: after a regridding, half way before the step and at its end the boundary has the waves of the
    time asked for; in the advection it is asked for the waves half way and has those of the end, and in a repeated
    iteration it is asked for those of the beginning and has those of the end. *)
Theorem c95_times : forall iters ts t0 start k t d, In (k, t, d) (fills start (run iters t0 ts)) ->
  exists a b, consecutive t0 ts a b /\
    match k with
    | Regrid => t = a /\ d = a
    | Half => t = (a + b) / 2 /\ d = (a + b) / 2
    | Mac => t = (a + b) / 2 /\ d = b
    | Again => t = a /\ d = b
    | New => t = b /\ d = b
    end.
Proof.
  intros iters ts t0 start k t d H. unfold run in H. simpl in H. revert t0 H. induction ts as [|t1 r IH]; intros t0 H; [contradiction|].
  assert (H' : In (k, t, d) (fills t0 (time_step iters t0 t1 ++ steps iters t1 r))) by exact H. clear H.
  rewrite fills_app, step_last in H'. apply in_app_or in H'. destruct H' as [H|H].
  - exists t0, t1. split; [constructor|]. rewrite step_fills in H. simpl in H. destruct H as [H|[H|H]].
    + inversion H; subst. auto.
    + inversion H; subst. split; field.
    + apply in_flat_map in H. destruct H as (j & _ & J). apply in_app_or in J. destruct J as [J|J].
      * destruct j; simpl in J; [contradiction|]. destruct J as [J|[]]. inversion J; subst. auto.
      * simpl in J. destruct J as [J|[J|[]]]; inversion J; subst; split; try reflexivity. field.
  - destruct (IH t1 H) as (a & b & C & M). exists a, b. split; [constructor; exact C|exact M].
Qed.

(** All of them happen. *)
Lemma steps_have iters : forall ts t0 a b, consecutive t0 ts a b ->
  exists l r, fills t0 (steps iters t0 ts) = l ++ fills a (time_step iters a b) ++ r.
Proof.
  intros ts t0 a b C. induction C as [t0 t1 r|t0 t1 r a b C (l & r' & E)].
  - exists []. change (steps iters t0 (t1 :: r)) with (time_step iters t0 t1 ++ steps iters t1 r). rewrite fills_app. simpl app. eexists. reflexivity.
  - change (steps iters t0 (t1 :: r)) with (time_step iters t0 t1 ++ steps iters t1 r). rewrite fills_app, step_last, E. exists (fills t0 (time_step iters t0 t1) ++ l), r'. rewrite <- app_assoc. reflexivity.
Qed.

(** The velocity carried across the boundary in every step is that of the waves at the end of the step, not half way,
    though the waves half way were worked out at its beginning. *)
Theorem c95_advection_refuted : forall iters ts t0 start a b, (0 < iters)%nat -> consecutive t0 ts a b -> a < b ->
  In (Mac, (a + b) / 2, b) (fills start (run iters t0 ts)) /\ b <> (a + b) / 2.
Proof.
  intros iters ts t0 start a b I C L. split; [|lra]. unfold run. simpl. destruct (steps_have iters ts t0 a b C) as (l & r & E).
  rewrite E. apply in_or_app. right. apply in_or_app. left. rewrite step_fills. apply in_or_app. right.
  apply in_flat_map. exists 0%nat. split; [apply in_seq; lia|]. simpl. left. f_equal. f_equal. field.
Qed.
(** In a repeated iteration the old velocity is given the waves of the end of the step. *)
Theorem c95_iteration_refuted : forall iters ts t0 start a b, (1 < iters)%nat -> consecutive t0 ts a b -> a < b ->
  In (Again, a, b) (fills start (run iters t0 ts)) /\ b <> a.
Proof.
  intros iters ts t0 start a b I C L. split; [|lra]. unfold run. simpl. destruct (steps_have iters ts t0 a b C) as (l & r & E).
  rewrite E. apply in_or_app. right. apply in_or_app. left. rewrite step_fills. apply in_or_app. right.
  apply in_flat_map. exists 1%nat. split; [apply in_seq; lia|]. simpl. left. reflexivity.
Qed.
(** Three times, two steps of two iterations. *)
Example run_case : consecutive 0 [1; 3] 1 3 /\ length (fills 0 (run 2 0 [1; 3])) = 14%nat.
Proof. split; [repeat constructor|reflexivity]. Qed.

(** The faces beyond the boundary are filled from the waves exactly in the steps of at least twice the tolerance; in a
    shorter step, as for waves older than asked for by any amount, the values are taken as given from outside. *)
Theorem c95_sibling : forall t data time given,
  (wave_side t = true -> (fst (sibling_rule t data time given) = ExtDir <-> data < time + loose_tol)) /\
  (wave_side t = true -> snd (sibling_rule t data time given) = FoExtrap) /\
  (wave_side t = false -> sibling_rule t data time given = (given, given)) /\
  (forall a b, time = (a + b) / 2 -> data = b -> (unchanged data time = false <-> 2 * loose_tol <= b - a)).
Proof.
  intros t data time given. unfold sibling_rule, unchanged. split; [|split; [|split]].
  - intro W. rewrite W. simpl. split.
    + intro H. destruct (Rltb (data - time) loose_tol) eqn:R; [apply Rltb_spec in R; lra|discriminate].
    + intro H. rewrite (proj2 (Rltb_spec _ _)) by lra. reflexivity.
  - intro W. rewrite W. reflexivity.
  - intro W. rewrite W. reflexivity.
  - intros a b T D. subst. split.
    + intro H. apply Rltb_false in H. lra.
    + intro H. destruct (Rltb _ _) eqn:R; [|reflexivity]. apply Rltb_spec in R. lra.
Qed.

Print Assumptions c95_sides.
Print Assumptions c95_velocity.
Print Assumptions c95_vof.
Print Assumptions c95_density.
Print Assumptions c95_density_refuted.
Print Assumptions c95_elsewhere.
Print Assumptions c95_inside.
Print Assumptions c95_planes.
Print Assumptions c95_face.
Print Assumptions c95_other_faces.
Print Assumptions c95_ghost_face.
Print Assumptions c95_ghost_face_refuted.
Print Assumptions c95_last_face_refuted.
Print Assumptions c95_times.
Print Assumptions c95_advection_refuted.
Print Assumptions c95_iteration_refuted.
Print Assumptions c95_sibling.
