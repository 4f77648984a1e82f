(** Lemmas on the transport step: sums of rates, the diffusion operator as a sum over
    neighbours, extrema, summation by parts. *)
From Coq Require Import Reals Lra ZArith List Bool Lia ZifyBool.
From Verif Require Import Base BoxR BoxRFacts VofAdvect VofSpec VofProofs VofProofs2 Advance AdvanceSpec.
Import ListNotations.
Open Scope R_scope.

Lemma shift_up1 c d : shift c d 1 = up c d.
Proof. reflexivity. Qed.

Lemma total_lin b f h k : total b (fun c => f c + k * h c) = total b f + k * total b h.
Proof.
  rewrite total_plus. f_equal. rewrite Rmult_comm, <- total_scale. apply total_ext. intros c _. ring.
Qed.

Lemma rate_total g F : nonempty (gr_dom g) -> total (gr_dom g) (conv_rate g F) = inflow g F.
Proof.
  intros (N0 & N1 & N2). unfold conv_rate, inflow.
  rewrite (total_ext _ _ (fun c => ((F 0%Z c - F 0%Z (up c 0)) * / gr_dx g 0%Z + (F 1%Z c - F 1%Z (up c 1)) * / gr_dx g 1%Z)
     + (F 2%Z c - F 2%Z (up c 2)) * / gr_dx g 2%Z)) by (intros; rewrite !shift_up1; ring).
  rewrite (total_plus _ (fun c => (F 0%Z c - F 0%Z (up c 0)) * / gr_dx g 0%Z + (F 1%Z c - F 1%Z (up c 1)) * / gr_dx g 1%Z)).
  rewrite (total_plus _ (fun c => (F 0%Z c - F 0%Z (up c 0)) * / gr_dx g 0%Z)).
  rewrite !total_scale. rewrite (telescope _ 0%Z (F 0%Z)) by exact N0. rewrite (telescope _ 1%Z (F 1%Z)) by exact N1.
  rewrite (telescope _ 2%Z (F 2%Z)) by exact N2. unfold Rdiv. reflexivity.
Qed.

(** ** Periodic images *)
Lemma wrap1_in b d x : (icomp (blo b) d <= icomp (bhi b) d)%Z ->
  (icomp (blo b) d <= wrap1 b d x <= icomp (bhi b) d)%Z.
Proof.
  intros H. unfold wrap1. pose proof (Z.mod_pos_bound (x - icomp (blo b) d) (extent b d)). unfold extent in *. lia.
Qed.
Lemma wrap1_id b d x : (icomp (blo b) d <= x <= icomp (bhi b) d)%Z -> wrap1 b d x = x.
Proof. intros H. unfold wrap1. rewrite Z.mod_small; unfold extent; lia. Qed.
Lemma wrap1_period b d x : (icomp (blo b) d <= icomp (bhi b) d)%Z -> wrap1 b d (x + extent b d) = wrap1 b d x.
Proof.
  intros H. unfold wrap1. f_equal. replace (x + extent b d - icomp (blo b) d)%Z with (x - icomp (blo b) d + 1 * extent b d)%Z by lia.
  apply Z.mod_add. unfold extent. lia.
Qed.
Lemma wrap_id g c : in_box (gr_dom g) c -> wrap g c = c.
Proof.
  intros (A & B & C). destruct c as [i j k]. unfold wrap. cbn [iv0 iv1 iv2] in *.
  rewrite (wrap1_id _ 0%Z i), (wrap1_id _ 1%Z j), (wrap1_id _ 2%Z k) by (unfold icomp; cbn [Z.eqb Pos.eqb]; lia).
  destruct (gr_per g 0%Z), (gr_per g 1%Z), (gr_per g 2%Z); reflexivity.
Qed.
(** A neighbour across a face that is not a wall is a cell of the domain. *)
Lemma wrap_in g c : nonempty (gr_dom g) ->
  (forall d, dirn d -> gr_per g d = true \/ (icomp (blo (gr_dom g)) d <= icomp c d <= icomp (bhi (gr_dom g)) d)%Z) ->
  in_box (gr_dom g) (wrap g c).
Proof.
  intros (N0 & N1 & N2) H. destruct c as [i j k].
  pose proof (H 0%Z (or_introl eq_refl)) as H0. pose proof (H 1%Z (or_intror (or_introl eq_refl))) as H1.
  pose proof (H 2%Z (or_intror (or_intror eq_refl))) as H2.
  pose proof (wrap1_in _ 0%Z i N0) as W0. pose proof (wrap1_in _ 1%Z j N1) as W1. pose proof (wrap1_in _ 2%Z k N2) as W2.
  unfold in_box, wrap. unfold icomp in *. cbn [Z.eqb Pos.eqb iv0 iv1 iv2] in *.
  destruct (gr_per g 0%Z), (gr_per g 1%Z), (gr_per g 2%Z);
    repeat match goal with X : false = true \/ _ |- _ => destruct X as [X|X]; [discriminate X|] end;
    repeat split; tauto || lia.
Qed.
Lemma icomp_shift c d s : dirn d -> icomp (shift c d s) d = (icomp c d + s)%Z.
Proof. intros [->|[->| ->]]; reflexivity. Qed.
Lemma icomp_shift_other c d s e : dirn d -> dirn e -> d <> e -> icomp (shift c d s) e = icomp c e.
Proof. intros [->|[->| ->]] [->|[->| ->]] N; try reflexivity; congruence. Qed.
Lemma in_box_icomp b c : in_box b c <-> forall d, dirn d -> (icomp (blo b) d <= icomp c d <= icomp (bhi b) d)%Z.
Proof.
  unfold in_box. split.
  - intros (A & B & C) d [->|[->| ->]]; unfold icomp; cbn [Z.eqb Pos.eqb]; lia.
  - intros H. pose proof (H 0%Z (or_introl eq_refl)) as H0. pose proof (H 1%Z (or_intror (or_introl eq_refl))) as H1.
    pose proof (H 2%Z (or_intror (or_intror eq_refl))) as H2. unfold icomp in *. cbn [Z.eqb Pos.eqb] in *. lia.
Qed.
Lemma below_in g c d : nonempty (gr_dom g) -> dirn d -> in_box (gr_dom g) c -> wall_face g d c = false ->
  in_box (gr_dom g) (wrap g (shift c d (-1))).
Proof.
  intros N D I W. rewrite in_box_icomp in I. apply wrap_in; [exact N|]. intros e De. destruct (Z.eq_dec d e) as [<-|X].
  - rewrite (icomp_shift c d (-1)) by exact D. specialize (I d D). unfold wall_face, at_low, at_high in W.
    destruct (gr_per g d); [left; reflexivity|right]. cbn [negb andb] in W. lia.
  - rewrite (icomp_shift_other c d (-1) e D De X). right. apply I, De.
Qed.
Lemma above_in g c d : nonempty (gr_dom g) -> dirn d -> in_box (gr_dom g) c -> wall_face g d (shift c d 1) = false ->
  in_box (gr_dom g) (wrap g (shift c d 1)).
Proof.
  intros N D I W. rewrite in_box_icomp in I. apply wrap_in; [exact N|]. intros e De. destruct (Z.eq_dec d e) as [<-|X].
  - unfold wall_face, at_low, at_high in W. rewrite (icomp_shift c d 1) in * by exact D. specialize (I d D).
    destruct (gr_per g d); [left; reflexivity|right]. cbn [negb andb] in W. lia.
  - rewrite (icomp_shift_other c d 1 e D De X). right. apply I, De.
Qed.

(** ** Diffusion as a weighted sum over the neighbours *)
Definition link_lo (g : grid) (mu : ivec -> R) (c : ivec) (d : Z) : R * ivec :=
  if wall_face g d c then (0, c) else (face_mu g mu d c / (gr_dx g d * gr_dx g d), wrap g (shift c d (-1))).
Definition link_hi (g : grid) (mu : ivec -> R) (c : ivec) (d : Z) : R * ivec :=
  if wall_face g d (shift c d 1) then (0, c)
  else (face_mu g mu d (shift c d 1) / (gr_dx g d * gr_dx g d), wrap g (shift c d 1)).
Definition links (g : grid) (mu : ivec -> R) (c : ivec) : list (R * ivec) :=
  flat_map (fun d => [link_lo g mu c d; link_hi g mu c d]) [0; 1; 2]%Z.
Definition no_flux : (ivec -> R) -> Z -> ivec -> R := fun _ _ _ => 0.

Lemma shift_back c d : shift (shift c d 1) d (-1) = c.
Proof. rewrite shift_add. apply shift_0. Qed.
Lemma dir_form g mu phi c d : dirn d -> gr_dx g d <> 0 -> in_box (gr_dom g) c ->
  / gr_dx g d * (diff_flux g mu no_flux phi d (shift c d 1) - diff_flux g mu no_flux phi d c)
  = fst (link_lo g mu c d) * (phi (snd (link_lo g mu c d)) - phi c) + fst (link_hi g mu c d) * (phi (snd (link_hi g mu c d)) - phi c).
Proof.
  intros D X I. unfold diff_flux, link_lo, link_hi, no_flux. rewrite shift_back, (wrap_id g c I).
  destruct (wall_face g d c), (wall_face g d (shift c d 1)); cbn [fst snd]; field; exact X.
Qed.
Lemma diff_form g mu phi c : (forall d, gr_dx g d <> 0) -> in_box (gr_dom g) c ->
  diff_term g mu no_flux phi c = rsum (map (fun p => fst p * (phi (snd p) - phi c)) (links g mu c)).
Proof.
  intros X I. unfold diff_term, conv_rate. unfold links. cbn [flat_map app map]. rewrite !rsum_cons.
  pose proof (dir_form g mu phi c 0%Z ltac:(unfold dirn; tauto) (X 0%Z) I) as E0.
  pose proof (dir_form g mu phi c 1%Z ltac:(unfold dirn; tauto) (X 1%Z) I) as E1.
  pose proof (dir_form g mu phi c 2%Z ltac:(unfold dirn; tauto) (X 2%Z) I) as E2.
  change (rsum []) with 0.
  transitivity ((fst (link_lo g mu c 0) * (phi (snd (link_lo g mu c 0)) - phi c) + fst (link_hi g mu c 0) * (phi (snd (link_hi g mu c 0)) - phi c))
    + (fst (link_lo g mu c 1) * (phi (snd (link_lo g mu c 1)) - phi c) + fst (link_hi g mu c 1) * (phi (snd (link_hi g mu c 1)) - phi c))
    + (fst (link_lo g mu c 2) * (phi (snd (link_lo g mu c 2)) - phi c) + fst (link_hi g mu c 2) * (phi (snd (link_hi g mu c 2)) - phi c))); [|ring].
  rewrite <- E0, <- E1, <- E2. ring.
Qed.
Lemma face_mu_range g mu M d c : nonempty (gr_dom g) -> dirn d -> (forall x, in_box (gr_dom g) x -> 0 <= mu x <= M) ->
  in_box (gr_dom g) c -> (wall_face g d c = false -> 0 <= face_mu g mu d c <= M) /\
  (wall_face g d (shift c d 1) = false -> 0 <= face_mu g mu d (shift c d 1) <= M).
Proof.
  intros N D H I. split; intros W.
  - pose proof (below_in g c d N D I W) as B. unfold face_mu. rewrite (wrap_id g c I).
    unfold wall_face in W. destruct (gr_per g d) eqn:P.
    + pose proof (H _ B). pose proof (H _ I). lra.
    + cbn [negb andb] in W. apply orb_false_iff in W. destruct W as (W1 & W2). rewrite W1, W2.
      assert (E : wrap g (shift c d (-1)) = shift c d (-1)).
      { apply wrap_id. apply in_box_icomp. intros e De. rewrite in_box_icomp in I. destruct (Z.eq_dec d e) as [<-|X].
        - rewrite icomp_shift by exact D. specialize (I d D). unfold at_low in W1. lia.
        - rewrite icomp_shift_other by assumption. apply I, De. }
      rewrite E in B. pose proof (H _ B). pose proof (H _ I). lra.
  - pose proof (above_in g c d N D I W) as B. unfold face_mu. rewrite shift_back, (wrap_id g c I).
    unfold wall_face in W. destruct (gr_per g d) eqn:P.
    + pose proof (H _ B). pose proof (H _ I). lra.
    + cbn [negb andb] in W. apply orb_false_iff in W. destruct W as (W1 & W2). rewrite W1, W2.
      assert (E : wrap g (shift c d 1) = shift c d 1).
      { apply wrap_id. apply in_box_icomp. intros e De. rewrite in_box_icomp in I. destruct (Z.eq_dec d e) as [<-|X].
        - rewrite icomp_shift by exact D. specialize (I d D). unfold at_high in W2. rewrite icomp_shift in W2 by exact D. lia.
        - rewrite icomp_shift_other by assumption. apply I, De. }
      rewrite E in B. pose proof (H _ B). pose proof (H _ I). lra.
Qed.
Lemma links_spec g mu M c : nonempty (gr_dom g) -> (forall d, gr_dx g d <> 0) ->
  (forall x, in_box (gr_dom g) x -> 0 <= mu x <= M) -> in_box (gr_dom g) c ->
  (forall p, In p (links g mu c) -> 0 <= fst p /\ in_box (gr_dom g) (snd p)) /\
  rsum (map fst (links g mu c)) <= 2 * M * (/ (gr_dx g 0%Z * gr_dx g 0%Z) + / (gr_dx g 1%Z * gr_dx g 1%Z) + / (gr_dx g 2%Z * gr_dx g 2%Z)).
Proof.
  intros N X H I.
  assert (Q : forall d, 0 < / (gr_dx g d * gr_dx g d)).
  { intros d. apply Rinv_0_lt_compat. specialize (X d). destruct (Rtotal_order (gr_dx g d) 0) as [L|[L|L]]; [nra|congruence|nra]. }
  assert (M0 : 0 <= M) by (pose proof (H c I); lra).
  assert (K : forall d, dirn d -> (0 <= fst (link_lo g mu c d) <= M * / (gr_dx g d * gr_dx g d) /\ in_box (gr_dom g) (snd (link_lo g mu c d))) /\
    (0 <= fst (link_hi g mu c d) <= M * / (gr_dx g d * gr_dx g d) /\ in_box (gr_dom g) (snd (link_hi g mu c d)))).
  { intros d D. destruct (face_mu_range g mu M d c N D H I) as (F1 & F2). specialize (Q d).
    assert (M1 : 0 <= M * / (gr_dx g d * gr_dx g d)) by (apply Rmult_le_pos; lra).
    unfold link_lo, link_hi, Rdiv. split.
    - destruct (wall_face g d c) eqn:W; cbn [fst snd]; [split; [lra|exact I]|]. specialize (F1 eq_refl).
      split; [split; [apply Rmult_le_pos; lra|apply Rmult_le_compat_r; lra]|apply below_in; assumption].
    - destruct (wall_face g d (shift c d 1)) eqn:W; cbn [fst snd]; [split; [lra|exact I]|]. specialize (F2 eq_refl).
      split; [split; [apply Rmult_le_pos; lra|apply Rmult_le_compat_r; lra]|apply above_in; assumption]. }
  pose proof (K 0%Z (or_introl eq_refl)) as K0. pose proof (K 1%Z (or_intror (or_introl eq_refl))) as K1.
  pose proof (K 2%Z (or_intror (or_intror eq_refl))) as K2. split.
  - intros p Hp. unfold links in Hp. cbn [flat_map app In] in Hp.
    repeat (destruct Hp as [<-|Hp]; [tauto|]). destruct Hp.
  - unfold links. cbn [flat_map app map]. rewrite !rsum_cons. change (rsum []) with 0. lra.
Qed.

(** ** Extrema *)
Lemma arg_max (phi : ivec -> R) : forall l, l <> [] -> exists c, In c l /\ forall x, In x l -> phi x <= phi c.
Proof.
  induction l as [|a l IH]; intros N; [congruence|]. destruct l as [|b l].
  - exists a. split; [left; reflexivity|]. intros x [<-|[]]. lra.
  - destruct IH as (c & C1 & C2); [discriminate|]. destruct (Rle_dec (phi a) (phi c)) as [L|L].
    + exists c. split; [right; exact C1|]. intros x [<-|Hx]; [exact L|apply C2, Hx].
    + exists a. split; [left; reflexivity|]. intros x [<-|Hx]; [lra|]. specialize (C2 x Hx). lra.
Qed.
Lemma cells_nonempty b : nonempty b -> cells b <> [].
Proof.
  intros (N0 & N1 & N2) E. assert (I : In (blo b) (cells b)).
  { apply in_cells. apply in_box_icomp. intros d [->|[->| ->]]; lia. }
  rewrite E in I. destruct I.
Qed.
Lemma rsum_le0 (l : list R) : (forall x, In x l -> x <= 0) -> rsum l <= 0.
Proof.
  induction l as [|a l IH]; intros H; [change (rsum []) with 0; lra|]. rewrite rsum_cons.
  pose proof (H a (or_introl eq_refl)). pose proof (IH (fun x Hx => H x (or_intror Hx))). lra.
Qed.
Lemma diff_at_max g mu M phi c : nonempty (gr_dom g) -> (forall d, gr_dx g d <> 0) ->
  (forall x, in_box (gr_dom g) x -> 0 <= mu x <= M) -> in_box (gr_dom g) c ->
  (forall x, in_box (gr_dom g) x -> phi x <= phi c) -> diff_term g mu no_flux phi c <= 0.
Proof.
  intros N X H I P. rewrite (diff_form g mu phi c X I). destruct (links_spec g mu M c N X H I) as (L & _).
  apply rsum_le0. intros y Hy. apply in_map_iff in Hy. destruct Hy as (p & <- & Hp). destruct (L p Hp) as (L1 & L2).
  specialize (P _ L2). nra.
Qed.
Lemma diff_neg g mu phi c : (forall d, gr_dx g d <> 0) -> in_box (gr_dom g) c ->
  diff_term g mu no_flux (fun x => - phi x) c = - diff_term g mu no_flux phi c.
Proof.
  intros X I. rewrite !diff_form by assumption. induction (links g mu c) as [|p l IH]; cbn [map]; [change (rsum []) with 0; ring|].
  rewrite !rsum_cons, IH. ring.
Qed.
(** A solution of the linear system stays below the bounds of its right side. *)
Lemma solve_upper g mu M dt rho rhs phi K : nonempty (gr_dom g) -> (forall d, gr_dx g d <> 0) ->
  (forall x, in_box (gr_dom g) x -> 0 <= mu x <= M) -> 0 <= dt -> (forall x, in_box (gr_dom g) x -> 0 < rho x) ->
  (forall c, in_box (gr_dom g) c -> rho c * phi c - dt * diff_term g mu no_flux phi c = rho c * rhs c) ->
  (forall x, in_box (gr_dom g) x -> rhs x <= K) -> forall x, in_box (gr_dom g) x -> phi x <= K.
Proof.
  intros N X H T Rp S B x Ix. destruct (arg_max phi (cells (gr_dom g)) (cells_nonempty _ N)) as (c & C1 & C2).
  apply in_cells in C1. assert (P : forall y, in_box (gr_dom g) y -> phi y <= phi c) by (intros y Hy; apply C2, in_cells, Hy).
  apply Rle_trans with (phi c); [apply P, Ix|].
  pose proof (diff_at_max g mu M phi c N X H C1 P) as D. pose proof (S c C1) as E. pose proof (Rp c C1) as R1. pose proof (B c C1) as B1.
  assert (dt * diff_term g mu no_flux phi c <= 0) by nra.
  apply Rmult_le_reg_l with (rho c); [exact R1|].
  assert (rho c * rhs c <= rho c * K) by (apply Rmult_le_compat_l; lra). lra.
Qed.
Lemma solve_lower g mu M dt rho rhs phi K : nonempty (gr_dom g) -> (forall d, gr_dx g d <> 0) ->
  (forall x, in_box (gr_dom g) x -> 0 <= mu x <= M) -> 0 <= dt -> (forall x, in_box (gr_dom g) x -> 0 < rho x) ->
  (forall c, in_box (gr_dom g) c -> rho c * phi c - dt * diff_term g mu no_flux phi c = rho c * rhs c) ->
  (forall x, in_box (gr_dom g) x -> K <= rhs x) -> forall x, in_box (gr_dom g) x -> K <= phi x.
Proof.
  intros N X H T Rp S B x Ix.
  pose proof (solve_upper g mu M dt rho (fun c => - rhs c) (fun c => - phi c) (- K) N X H T Rp) as U.
  enough (- phi x <= - K) by lra. apply U; [| |exact Ix].
  - intros c Hc. rewrite diff_neg by assumption. pose proof (S c Hc). lra.
  - intros y Hy. pose proof (B y Hy). lra.
Qed.
(** One explicit step is a convex combination. *)
Lemma euler_bounds g mu M k m phi lo hi c : nonempty (gr_dom g) -> (forall d, gr_dx g d <> 0) ->
  (forall x, in_box (gr_dom g) x -> 0 <= mu x <= M) -> 0 <= k ->
  k * (2 * M * (/ (gr_dx g 0%Z * gr_dx g 0%Z) + / (gr_dx g 1%Z * gr_dx g 1%Z) + / (gr_dx g 2%Z * gr_dx g 2%Z))) <= 1 ->
  (forall x, in_box (gr_dom g) x -> lo <= phi x <= hi) -> in_box (gr_dom g) c -> m = phi c + k * diff_term g mu no_flux phi c ->
  lo <= m <= hi.
Proof.
  intros N X H K0 K B I ->. rewrite (diff_form g mu phi c X I). destruct (links_spec g mu M c N X H I) as (L & S).
  assert (W : k * rsum (map fst (links g mu c)) <= 1).
  { eapply Rle_trans; [apply Rmult_le_compat_l; [exact K0|exact S]|exact K]. }
  pose proof (B c I) as Bc.
  assert (Z : forall l, (forall p, In p l -> 0 <= fst p /\ in_box (gr_dom g) (snd p)) ->
    (lo - phi c) * rsum (map fst l) <= rsum (map (fun p => fst p * (phi (snd p) - phi c)) l) <= (hi - phi c) * rsum (map fst l)
    /\ 0 <= rsum (map fst l)).
  { induction l as [|p l IH]; intros Hl; [cbn [map]; change (rsum []) with 0; lra|]. cbn [map]. rewrite !rsum_cons.
    destruct (Hl p (or_introl eq_refl)) as (P1 & P2). destruct (IH (fun q Hq => Hl q (or_intror Hq))) as (I1 & I2).
    pose proof (B _ P2). split; [split; nra|lra]. }
  destruct (Z _ L) as ((Z1 & Z2) & Z3). set (s := rsum (map fst (links g mu c))) in *.
  set (v := rsum (map (fun p => fst p * (phi (snd p) - phi c)) (links g mu c))) in *.
  assert (k * ((lo - phi c) * s) <= k * v) by (apply Rmult_le_compat_l; assumption).
  assert (k * v <= k * ((hi - phi c) * s)) by (apply Rmult_le_compat_l; assumption).
  assert (0 <= k * s) by (apply Rmult_le_pos; assumption). split; nra.
Qed.

(** ** Summation by parts *)
Lemma wrap_opposite g c d : nonempty (gr_dom g) -> dirn d -> gr_per g d = true -> wrap g (opposite (gr_dom g) d c) = wrap g c.
Proof.
  intros (N0 & N1 & N2) D P. destruct c as [i j k]. unfold wrap, opposite.
  destruct D as [->|[->| ->]]; cbn [Z.eqb Pos.eqb iv0 iv1 iv2]; rewrite P, wrap1_period; reflexivity || assumption.
Qed.
Lemma opposite_down b c d : shift (opposite b d c) d (-1) = opposite b d (shift c d (-1)).
Proof. rewrite !opposite_shift, !shift_add. f_equal. lia. Qed.
Lemma face_mu_opposite g mu c d : nonempty (gr_dom g) -> dirn d -> gr_per g d = true ->
  face_mu g mu d (opposite (gr_dom g) d c) = face_mu g mu d c.
Proof.
  intros N D P. unfold face_mu. rewrite P, opposite_down, !wrap_opposite by assumption. reflexivity.
Qed.
Lemma diff_flux_opposite g mu phi c d : nonempty (gr_dom g) -> dirn d -> gr_per g d = true ->
  diff_flux g mu no_flux phi d (opposite (gr_dom g) d c) = diff_flux g mu no_flux phi d c.
Proof.
  intros N D P. unfold diff_flux, wall_face. rewrite P. cbn [negb andb].
  rewrite face_mu_opposite, opposite_down, !wrap_opposite by assumption. reflexivity.
Qed.
Lemma wall_low g c d : dirn d -> gr_per g d = false -> in_box (low_layer (gr_dom g) d) c -> wall_face g d c = true.
Proof.
  intros D P I. unfold wall_face, at_low. rewrite P. cbn [negb andb]. apply orb_true_iff. left. apply Z.eqb_eq.
  unfold in_box, low_layer in I. destruct D as [->|[->| ->]]; unfold icomp; cbn [Z.eqb Pos.eqb blo bhi iv0 iv1 iv2] in *; lia.
Qed.
Lemma wall_high g c d : dirn d -> gr_per g d = false -> in_box (low_layer (gr_dom g) d) c ->
  wall_face g d (opposite (gr_dom g) d c) = true.
Proof.
  intros D P I. unfold wall_face, at_high. rewrite P. cbn [negb andb]. apply orb_true_iff. right. apply Z.eqb_eq.
  unfold in_box, low_layer in I. unfold opposite, extent.
  destruct D as [->|[->| ->]]; unfold icomp in *; cbn [Z.eqb Pos.eqb blo bhi iv0 iv1 iv2] in *; lia.
Qed.
Lemma parts_dir g mu M phi d : nonempty (gr_dom g) -> dirn d -> 0 < gr_dx g d ->
  (forall x, in_box (gr_dom g) x -> 0 <= mu x <= M) ->
  total (gr_dom g) (fun c => phi c * (diff_flux g mu no_flux phi d (up c d) - diff_flux g mu no_flux phi d c)) <= 0.
Proof.
  intros N D X H. set (Fl := diff_flux g mu no_flux phi d).
  set (G := fun c => phi (wrap g (shift c d (-1))) * Fl c).
  rewrite (total_ext _ _ (fun c => (G c - G (up c d)) * (-1) + - ((phi c - phi (wrap g (shift c d (-1)))) * Fl c))).
  2:{ intros c I. unfold G. rewrite <- shift_up1, shift_back, (wrap_id g c I). ring. }
  rewrite total_plus, total_scale.
  rewrite telescope by (destruct N as (N0 & N1 & N2); destruct D as [->|[->| ->]]; assumption).
  rewrite (total_zero (low_layer (gr_dom g) d)).
  2:{ intros c I. unfold G. destruct (gr_per g d) eqn:P.
      - unfold Fl. rewrite diff_flux_opposite, opposite_down, wrap_opposite by assumption. ring.
      - unfold Fl, diff_flux. rewrite (wall_low g c d), (wall_high g c d) by assumption. unfold no_flux. ring. }
  assert (Z : forall f, (forall c, in_box (gr_dom g) c -> f c <= 0) -> total (gr_dom g) f <= 0).
  { intros f Hf. unfold total. apply rsum_le0. intros y Hy. apply in_map_iff in Hy. destruct Hy as (c & <- & Hc). apply Hf, in_cells, Hc. }
  assert (total (gr_dom g) (fun c => - ((phi c - phi (wrap g (shift c d (-1)))) * Fl c)) <= 0); [|lra].
  apply Z. intros c I. unfold Fl, diff_flux. destruct (wall_face g d c) eqn:W; [unfold no_flux; lra|].
  rewrite (wrap_id g c I). destruct (face_mu_range g mu M d c N D H I) as (F1 & _). specialize (F1 W).
  set (y := phi c - phi (wrap g (shift c d (-1)))). unfold Rdiv.
  assert (0 <= face_mu g mu d c * / gr_dx g d).
  { apply Rmult_le_pos; [lra|]. left. apply Rinv_0_lt_compat, X. }
  assert (0 <= y * y) by nra. replace (- (y * (face_mu g mu d c * y * / gr_dx g d))) with (- ((face_mu g mu d c * / gr_dx g d) * (y * y))) by ring. nra.
Qed.
Lemma parts g mu M phi : nonempty (gr_dom g) -> (forall d, 0 < gr_dx g d) ->
  (forall x, in_box (gr_dom g) x -> 0 <= mu x <= M) ->
  total (gr_dom g) (fun c => phi c * diff_term g mu no_flux phi c) <= 0.
Proof.
  intros N X H. unfold diff_term, conv_rate.
  rewrite (total_ext _ _ (fun c => ((phi c * (diff_flux g mu no_flux phi 0 (up c 0) - diff_flux g mu no_flux phi 0 c)) * / gr_dx g 0%Z
     + (phi c * (diff_flux g mu no_flux phi 1 (up c 1) - diff_flux g mu no_flux phi 1 c)) * / gr_dx g 1%Z)
     + (phi c * (diff_flux g mu no_flux phi 2 (up c 2) - diff_flux g mu no_flux phi 2 c)) * / gr_dx g 2%Z)) by (intros; rewrite !shift_up1; ring).
  rewrite (total_plus _ (fun c => (phi c * (diff_flux g mu no_flux phi 0 (up c 0) - diff_flux g mu no_flux phi 0 c)) * / gr_dx g 0%Z
     + (phi c * (diff_flux g mu no_flux phi 1 (up c 1) - diff_flux g mu no_flux phi 1 c)) * / gr_dx g 1%Z)).
  rewrite (total_plus _ (fun c => (phi c * (diff_flux g mu no_flux phi 0 (up c 0) - diff_flux g mu no_flux phi 0 c)) * / gr_dx g 0%Z)).
  rewrite !total_scale.
  assert (P : forall d, dirn d -> total (gr_dom g) (fun c => phi c * (diff_flux g mu no_flux phi d (up c d) - diff_flux g mu no_flux phi d c)) * / gr_dx g d <= 0).
  { intros d D. pose proof (parts_dir g mu M phi d N D (X d) H) as Q. pose proof (Rinv_0_lt_compat _ (X d)). nra. }
  pose proof (P 0%Z (or_introl eq_refl)). pose proof (P 1%Z (or_intror (or_introl eq_refl))). pose proof (P 2%Z (or_intror (or_intror eq_refl))). lra.
Qed.
Lemma diff_add g mu p r c : (forall d, gr_dx g d <> 0) -> in_box (gr_dom g) c ->
  diff_term g mu no_flux (fun x => p x + r x) c = diff_term g mu no_flux p c + diff_term g mu no_flux r c.
Proof.
  intros X I. rewrite !diff_form by assumption. induction (links g mu c) as [|y l IH]; cbn [map]; [change (rsum []) with 0; ring|].
  rewrite !rsum_cons, IH. ring.
Qed.
Lemma diff_const g mu k c : nonempty (gr_dom g) -> (forall d, gr_dx g d <> 0) -> in_box (gr_dom g) c -> forall phi,
  (forall x, in_box (gr_dom g) x -> phi x = k) -> diff_term g mu no_flux phi c = 0.
Proof.
  intros N X I phi H. unfold diff_term, conv_rate, diff_flux, no_flux.
  assert (Z : forall d, dirn d -> (if wall_face g d c then 0 else face_mu g mu d c * (phi (wrap g c) - phi (wrap g (shift c d (-1)))) / gr_dx g d) = 0).
  { intros d D. destruct (wall_face g d c) eqn:W; [reflexivity|]. rewrite (H _ (below_in g c d N D I W)), (wrap_id g c I), (H c I). field. apply X. }
  assert (Y : forall d, dirn d -> (if wall_face g d (shift c d 1) then 0 else face_mu g mu d (shift c d 1) * (phi (wrap g (shift c d 1)) - phi (wrap g (shift (shift c d 1) d (-1)))) / gr_dx g d) = 0).
  { intros d D. destruct (wall_face g d (shift c d 1)) eqn:W; [reflexivity|].
    rewrite (H _ (above_in g c d N D I W)), shift_back, (wrap_id g c I), (H c I). field. apply X. }
  rewrite !Z, !Y by (unfold dirn; tauto). ring.
Qed.
