(** C98: forests. *)
From Coq Require Import Reals List ZArith Bool Lra Lia.
From Verif Require Import Base BoxR BoxRFacts Forest ForestSpec.
Import ListNotations.
Open Scope R_scope.

(** ** Reading *)

Lemma take8_words r rest : take8 (words r ++ rest) =
  let '(a, b, c, d, e, f, g, h) := r in Some (mktree 0 a b c d e f g h, rest).
Proof. destruct r as [[[[[[[a b] c] d] e] f] g] h]. reflexivity. Qed.
Lemma rows_forests rest : take8 rest = None -> forall rs fuel n, (length rs < fuel)%nat ->
  rows fuel n (flat_map words rs ++ rest) = forests n rs.
Proof.
  intros E. induction rs as [|r rs IH]; intros [|fuel] n L; cbn [length] in L; try lia.
  - cbn [rows flat_map app]. now rewrite E.
  - cbn [rows flat_map]. rewrite <- app_assoc, take8_words. destruct r as [[[[[[[a b] c] d] e] f] g] h].
    cbn [forests]. f_equal. apply IH. lia.
Qed.
Lemma length_words rs : length (flat_map words rs) = (8 * length rs)%nat.
Proof. induction rs as [|r rs IH]; [reflexivity|]. cbn [flat_map]. rewrite app_length, IH. destruct r as [[[[[[[a b] c] d] e] f] g] h].
  cbn [words map length]. lia. Qed.

(** Every complete row of eight numbers is a forest, numbered in the order of the file; what follows the last complete row
    is left out.  Without the file the program stops. *)
Theorem c98_file : forall rs rest, take8 rest = None ->
  read (Some (flat_map words rs ++ rest)) = Ret (forests 0 rs) /\ read None = Abort.
Proof.
  intros rs rest E. split; [|reflexivity]. unfold read. f_equal. destruct rs as [|r rs].
  - cbn [flat_map app forests]. destruct rest; [reflexivity|]. cbn [length rows]. now rewrite E.
  - apply rows_forests; [exact E|]. rewrite app_length, length_words. cbn [length]. lia.
Qed.
(** A file of two forests and a row that is cut off. *)
Example c98_file_case : read (Some (map Some [1; 500; 500; 20; 100; 1/5; 6; 4/5; 2; 0; 0; 10; 50; 1/5; 6; 4/5; 1; 7])) =
  Ret [mktree 0 1 500 500 20 100 (1/5) 6 (4/5); mktree 1 2 0 0 10 50 (1/5) 6 (4/5)].
Proof.
  exact (proj1 (c98_file [(1, 500, 500, 20, 100, 1/5, 6, 4/5); (2, 0, 0, 10, 50, 1/5, 6, 4/5)] [Some 1; Some 7] eq_refl)).
Qed.
(** A line of words above the rows, or a word in one of them, ends the reading without a message: the forests from there on
    do not exist. *)
Theorem c98_header_refuted : ~ (forall pre rs, Forall (fun w => w = None) pre ->
  read (Some (pre ++ flat_map words rs)) = Ret (forests 0 rs) \/ read (Some (pre ++ flat_map words rs)) = Abort).
Proof.
  intro H. destruct (H [None] [(1, 500, 500, 20, 100, 1/5, 6, 4/5)]) as [E|E]; [repeat constructor| |]; cbn in E; discriminate.
Qed.

(** ** Density *)

Lemma tiny_pos : 0 < tiny. Proof. unfold tiny. lra. Qed.
Lemma Rpower_pos x e : 0 < Rpower x e. Proof. unfold Rpower. apply exp_pos. Qed.
Lemma profile_pos h zm z : 0 < profile h zm z.
Proof. unfold profile. apply Rmult_lt_0_compat; [apply Rpower_pos|apply exp_pos]. Qed.
Lemma shape_profile t z : z < theight t -> tlaimax t * theight t < theight t ->
  shape t z = Some (profile (theight t) (tlaimax t * theight t) z).
Proof.
  intros Z M. unfold shape, quot. set (zm := tlaimax t * theight t) in *. set (h := theight t) in *.
  destruct (Req_EM_T (h - z) 0) as [C|_]; [lra|]. cbn [bind].
  assert (P : 0 < (h - zm) / (h - z)) by (apply Rdiv_lt_0_compat; lra).
  unfold pow_. rewrite (proj2 (Rltb_spec _ _) P). cbn [mul bind]. unfold profile, Rltb. destruct (Rlt_dec z zm).
  - reflexivity.
  - replace (1 / 2) with (/ 2) by field. reflexivity.
Qed.
(** Above the top of the tree the shape is asked for only at the height of the top. *)
Lemma inner_sum (f : R -> option R) (p : R -> R) dx : forall n i s,
  (forall j, (i <= j < i + n)%nat -> f (0 + INR j * dx) = Some (p (INR j * dx))) ->
  inner f 0 dx i n (Some s) = Some (s + rsum (map (fun j => p (INR j * dx)) (seq i n))).
Proof.
  induction n as [|n IH]; intros i s H.
  - cbn. f_equal. lra.
  - cbn [inner seq map]. rewrite H by lia. cbn [add bind]. rewrite IH.
    + f_equal. rewrite rsum_cons. lra.
    + intros j J. apply H. lia.
Qed.
Lemma integral_pos h zm : tiny < h -> 0 < integral h zm.
Proof.
  intro H. unfold integral. pose proof tiny_pos. apply Rmult_lt_0_compat; [lra|].
  pose proof (profile_pos h zm 0). pose proof (profile_pos h zm (h - tiny)).
  assert (0 <= rsum (map (fun i => profile h zm (INR i * ((h - tiny) / 100))) (seq 1 99))).
  { apply rsum_nonneg. intros. apply Rlt_le, profile_pos. }
  lra.
Qed.
Lemma trapz_integral t : tiny < theight t -> tlaimax t * theight t < theight t ->
  trapz 0 (theight t - tiny) 100 (shape t) = Some (integral (theight t) (tlaimax t * theight t)).
Proof.
  intros T M. pose proof tiny_pos as P. unfold trapz.
  rewrite !shape_profile by lra. cbn [add mul bind].
  replace (INR 100) with 100 by (cbn; lra). set (d := (theight t - tiny - 0) / 100).
  change (100 - 1)%nat with 99%nat.
  rewrite (inner_sum _ (profile (theight t) (tlaimax t * theight t))).
  - cbn [bind]. unfold integral. replace ((theight t - tiny) / 100) with d by (unfold d; f_equal; lra). f_equal. lra.
  - intros j J. rewrite Rplus_0_l. apply shape_profile; [|exact M].
    assert (INR j <= 99) by (replace 99 with (INR 99) by (cbn; lra); apply le_INR; lia).
    assert (0 < d) by (unfold d; lra). assert (E : d * 100 = theight t - tiny) by (unfold d; field). nra.
Qed.
Lemma zm_below t : 0 < theight t -> tlaimax t < 1 -> tlaimax t * theight t < theight t.
Proof. intros. nra. Qed.
Lemma area_density t z : sound t -> off_top t z -> z <= theight t -> area_fraction t z (lm t) = Some (density t z).
Proof.
  intros [T S] O Z. pose proof tiny_pos as P. unfold area_fraction, density.
  destruct (Req_EM_T (ttype t) 1) as [E|N].
  - unfold quot. destruct (Req_EM_T (theight t) 0); [lra|reflexivity].
  - destruct (Req_EM_T (ttype t) 2) as [E|N2]; [|reflexivity].
    specialize (O E). destruct (S E) as [A B]. assert (M := zm_below t ltac:(lra) B).
    unfold lm. destruct (Req_EM_T (ttype t) 2); [|lra].
    rewrite trapz_integral by assumption. cbn [bind]. unfold quot.
    pose proof (integral_pos (theight t) (tlaimax t * theight t) T).
    destruct (Req_EM_T (integral (theight t) (tlaimax t * theight t)) 0); [lra|].
    rewrite shape_profile by lra. reflexivity.
Qed.

(** The density of the second type is positive, grows up to the height of its maximum and falls from there on, and its
    integral from the ground to the top (trapezoidal rule) is the leaf area index. *)
Lemma ln_le x : 0 < x -> ln x <= x - 1.
Proof. intro H. pose proof (exp_ineq1_le (ln x)). rewrite exp_ln in H0 by exact H. lra. Qed.
Lemma profile_exp h zm z : zm < h -> z < h ->
  profile h zm z = exp ((if Rlt_dec z zm then 6 else 1 / 2) * (ln ((h - zm) / (h - z)) + 1 - (h - zm) / (h - z))).
Proof.
  intros. unfold profile. set (n := if Rlt_dec z zm then 6 else 1 / 2). unfold Rpower. rewrite <- exp_plus. f_equal. lra.
Qed.
Lemma ln_lt x : 0 < x -> x <> 1 -> ln x < x - 1.
Proof.
  intros H N. assert (E : ln x <> 0). { intro E. apply N. rewrite <- (exp_ln x H), E. apply exp_0. }
  pose proof (exp_ineq1 (ln x) E). rewrite exp_ln in H0 by exact H. lra.
Qed.
(** ln r + 1 - r grows up to one and falls from there. *)
Lemma hump_up a b : 0 < a < b -> b <= 1 -> ln a + 1 - a < ln b + 1 - b.
Proof.
  intros [A B] C. assert (D : 0 < a / b) by (apply Rdiv_lt_0_compat; lra).
  assert (N : a / b <> 1). { intro E. assert (a = b) by (replace a with (a / b * b) by (field; lra); rewrite E; lra). lra. }
  pose proof (ln_lt (a / b) D N) as L. unfold Rdiv in L at 1. rewrite ln_mult, ln_Rinv in L by (try apply Rinv_0_lt_compat; lra).
  assert (E : a / b * b = a) by (field; lra). set (q := a / b) in *.
  assert (q < 1) by nra. assert (0 <= (1 - q) * (1 - b)) by (apply Rmult_le_pos; lra). nra.
Qed.
Lemma hump_down a b : 1 <= a < b -> ln b + 1 - b < ln a + 1 - a.
Proof.
  intros [A B]. assert (D : 0 < b / a) by (apply Rdiv_lt_0_compat; lra).
  assert (N : b / a <> 1). { intro E. assert (b = a) by (replace b with (b / a * a) by (field; lra); rewrite E; lra). lra. }
  pose proof (ln_lt (b / a) D N) as L. unfold Rdiv in L at 1. rewrite ln_mult, ln_Rinv in L by (try apply Rinv_0_lt_compat; lra).
  assert (E : b / a * a = b) by (field; lra). set (q := b / a) in *.
  assert (1 < q) by nra. assert (0 <= (q - 1) * (a - 1)) by (apply Rmult_le_pos; lra). nra.
Qed.
Lemma ratio_lt h zm y z : zm < h -> y < z -> z < h -> 0 < (h - zm) / (h - y) < (h - zm) / (h - z).
Proof.
  intros. split; [apply Rdiv_lt_0_compat; lra|]. unfold Rdiv. apply Rmult_lt_compat_l; [lra|].
  apply Rinv_lt_contravar; [|lra]. apply Rmult_lt_0_compat; lra.
Qed.
Lemma profile_top h zm : zm < h -> profile h zm zm = 1.
Proof.
  intro. rewrite profile_exp by lra. replace ((h - zm) / (h - zm)) with 1 by (field; lra). rewrite ln_1.
  replace (_ * _) with 0 by lra. apply exp_0.
Qed.
Lemma profile_up h zm y z : zm < h -> y < z -> z <= zm -> profile h zm y < profile h zm z.
Proof.
  intros. assert (R : (h - zm) / (h - zm) = 1) by (field; lra). rewrite profile_exp by lra.
  destruct (Rlt_dec y zm); [|lra]. destruct (Req_dec z zm) as [->|N].
  - rewrite profile_top by lra. apply Rlt_le_trans with (exp 0); [apply exp_increasing|rewrite exp_0; lra].
    destruct (ratio_lt h zm y zm) as [P Q]; try lra. rewrite R in Q. pose proof (ln_lt _ P ltac:(lra)). lra.
  - rewrite profile_exp by lra. destruct (Rlt_dec z zm); [|lra]. apply exp_increasing.
    destruct (ratio_lt h zm y z) as [P Q]; try lra. destruct (ratio_lt h zm z zm) as [P' Q']; try lra. rewrite R in Q'.
    pose proof (hump_up _ _ (conj P Q) ltac:(lra)). lra.
Qed.
Lemma profile_down h zm y z : zm < h -> zm <= y -> y < z -> z < h -> profile h zm z < profile h zm y.
Proof.
  intros. assert (R : (h - zm) / (h - zm) = 1) by (field; lra). rewrite !profile_exp by lra.
  destruct (Rlt_dec y zm); [lra|]. destruct (Rlt_dec z zm); [lra|]. apply exp_increasing.
  destruct (ratio_lt h zm y z) as [P Q]; try lra.
  assert (1 <= (h - zm) / (h - y)).
  { destruct (Req_dec zm y) as [->|]; [right; symmetry; field; lra|]. destruct (ratio_lt h zm zm y); lra. }
  pose proof (hump_down _ _ (conj H3 Q)). lra.
Qed.

Theorem c98_density : forall t, sound t -> ttype t = 2 -> 0 < tlai t ->
  let h := theight t in let zm := tlaimax t * h in
  exists top, 0 < top /\
    (forall z, z < h -> exists a, area_fraction t z (lm t) = Some a /\ 0 < a <= top /\ (a = top <-> z = zm)) /\
    (forall y z a b, y < z -> z < h -> area_fraction t y (lm t) = Some a -> area_fraction t z (lm t) = Some b ->
       (z <= zm -> a < b) /\ (zm <= y -> b < a)) /\
    trapz 0 (h - tiny) 100 (fun z => area_fraction t z (lm t)) = Some (tlai t).
Proof.
  intros t S T L h zm. destruct S as [H S]. destruct (S T) as [A B]. pose proof tiny_pos as P.
  assert (M : zm < h) by (apply zm_below; unfold h in *; lra).
  pose proof (integral_pos h zm H) as I. set (top := tlai t / integral h zm).
  assert (Q : 0 < top) by (apply Rdiv_lt_0_compat; assumption).
  assert (D : forall z, z < h -> area_fraction t z (lm t) = Some (top * profile h zm z)).
  { intros z Z. rewrite area_density; try (unfold h in *; lra); [|split; [exact H|exact S]|intros _ C; unfold h in *; lra].
    f_equal. unfold density. destruct (Req_EM_T (ttype t) 1); [lra|]. destruct (Req_EM_T (ttype t) 2); [reflexivity|contradiction]. }
  exists top. split; [exact Q|]. split; [|split].
  - intros z Z. exists (top * profile h zm z). split; [apply D, Z|]. pose proof (profile_pos h zm z).
    destruct (Rtotal_order z zm) as [C|[->|C]].
    + pose proof (profile_up h zm z zm M C ltac:(lra)). rewrite profile_top in H1 by exact M. split; [nra|]. split; [intro; nra|lra].
    + rewrite profile_top by exact M. split; [lra|]. split; [reflexivity|lra].
    + pose proof (profile_down h zm zm z M ltac:(lra) C Z). rewrite profile_top in H1 by exact M. split; [nra|]. split; [intro; nra|lra].
  - intros y z a b Y Z E F. rewrite D in E by lra. rewrite D in F by lra. injection E as <-. injection F as <-. split; intro C.
    + apply Rmult_lt_compat_l; [exact Q|]. now apply profile_up.
    + apply Rmult_lt_compat_l; [exact Q|]. now apply profile_down.
  - assert (H' : tiny < h) by exact H. unfold trapz. rewrite !D by lra. cbn [add mul bind]. replace (INR 100) with 100 by (cbn; lra).
    set (d := (h - tiny - 0) / 100). change (100 - 1)%nat with 99%nat.
    rewrite (inner_sum _ (fun z => top * profile h zm z)).
    + cbn [bind]. f_equal.
      rewrite (rsum_ext _ (fun j => profile h zm (INR j * d) * top)) by (intros; lra).
      rewrite (rsum_scale (fun j => profile h zm (INR j * d)) top (seq 1 99)).
      transitivity (top * integral h zm); [|unfold top; field; lra].
      unfold integral. replace ((h - tiny) / 100) with d by (unfold d; f_equal; lra). lra.
    + intros j J. rewrite Rplus_0_l. apply D.
      assert (INR j <= 99) by (replace 99 with (INR 99) by (cbn; lra); apply le_INR; lia).
      assert (0 < d) by (unfold d; lra). assert (E : d * 100 = h - tiny) by (unfold d; field). nra.
Qed.
Example c98_density_case : let t := mktree 0 2 500 500 20 100 (1/5) 6 (4/5) in sound t /\ ttype t = 2 /\ 0 < tlai t.
Proof. cbn. unfold sound, tiny. cbn. lra. Qed.

(** ** Cells *)

Lemma inb_spec b c : inb b c = true <-> in_box b c.
Proof. unfold inb, in_box. rewrite !andb_true_iff, !Z.leb_le. tauto. Qed.
Lemma in_meet a b c : in_box (meet a b) c <-> in_box a c /\ in_box b c.
Proof. unfold in_box, meet. cbn. lia. Qed.
Lemma in_nonempty b c : in_box b c -> nonempty b = true.
Proof. unfold in_box, nonempty. intro H. rewrite !andb_true_iff, !Z.leb_le. lia. Qed.
Lemma to_lo_le lo problo probhi dx x i : 0 < dx -> lo <= x -> x = problo + (IZR i + / 2) * dx -> (0 <= i)%Z ->
  (to_lo lo problo probhi dx <= i)%Z.
Proof.
  intros D L E I. unfold to_lo. apply IZR_le in I.
  set (v := (rmax lo problo - problo) * / dx). destruct (rfloor_spec v) as [A _].
  assert (V : v * dx = rmax lo problo - problo) by (unfold v; field; lra).
  assert (rmax lo problo <= x). { rewrite rmax_spec. apply Rmax_lub; [exact L|]. rewrite E. nra. }
  assert (v < IZR i + 1) by nra.
  assert (IZR (rfloor v) < IZR (i + 1)) by (rewrite plus_IZR; lra). apply lt_IZR in H1. lia.
Qed.
Lemma to_hi_ge hi problo n dx x i : 0 < dx -> x <= hi -> x = problo + (IZR i + / 2) * dx -> (i < n)%Z ->
  (i <= to_hi hi problo (problo + IZR n * dx) dx)%Z.
Proof.
  intros D L E I. unfold to_hi, rceil.
  set (v := (rmin hi (problo + IZR n * dx) - problo) * / dx). destruct (rfloor_spec (- v)) as [A _].
  assert (V : v * dx = rmin hi (problo + IZR n * dx) - problo) by (unfold v; field; lra).
  assert (I' : IZR i + 1 <= IZR n) by (rewrite <- plus_IZR; apply IZR_le; lia).
  assert (x <= rmin hi (problo + IZR n * dx)). { rewrite rmin_spec. apply Rmin_glb; [exact L|]. rewrite E. nra. }
  assert (IZR i < v) by nra.
  assert (IZR i < IZR (- rfloor (- v))) by (rewrite opp_IZR; lra). apply lt_IZR in H1. lia.
Qed.
Lemma middle_centre g c : middle g c = centre g c.
Proof.
  unfold middle, centre, ax0, ax1, ax2. destruct (plo g) as [[a b] d]. destruct (gdx g) as [[e f] h]. cbn.
  f_equal; [f_equal|]; f_equal; f_equal; lra.
Qed.
Lemma inside_member t p : inside t p = true <-> member t p.
Proof.
  destruct p as [[x y] z]. unfold inside, member, ax0, ax1, ax2. cbn [fst snd]. rewrite andb_true_iff, !Rleb_spec.
  set (s := (x - tx t) * (x - tx t) + (y - ty t) * (y - ty t)).
  replace ((x - tx t) ^ 2 + (y - ty t) ^ 2) with s by (unfold s; ring).
  assert (S : 0 <= s) by (unfold s; pose proof (Rle_0_sqr (x - tx t)); pose proof (Rle_0_sqr (y - ty t)); unfold Rsqr in *; lra).
  pose proof (sqrt_pos s) as P. pose proof (sqrt_sqrt s S) as Q.
  split; intros [A B]; (split; [exact A|]).
  - split; [lra|]. rewrite <- Q. apply Rsqr_incr_1 in B; unfold Rsqr in B; lra.
  - destruct B as [B C]. apply Rsqr_incr_0_var; [|lra]. unfold Rsqr. rewrite Q. lra.
Qed.
Lemma sq_le u v b : 0 <= b -> u ^ 2 + v ^ 2 <= b ^ 2 -> - b <= u <= b.
Proof. intros B H. assert (u * u <= b * b) by (pose proof (Rle_0_sqr v); unfold Rsqr in *; nra). clear H. split; nra. Qed.
Lemma member_box t g n0 n1 n2 c : mesh g n0 n1 n2 -> (0 <= iv0 c < n0 /\ 0 <= iv1 c < n1 /\ 0 <= iv2 c < n2)%Z ->
  member t (centre g c) -> in_box (bounding_box t g) c.
Proof.
  intros M C B. unfold mesh in M. unfold centre, member in B. unfold bounding_box, in_box, ax0, ax1, ax2 in *. cbn [fst snd blo bhi iv0 iv1 iv2] in *.
  destruct (plo g) as [[a b] d]. destruct (gdx g) as [[dx dy] dz]. destruct M as (X & Y & Z & ->). cbn [fst snd] in *.
  destruct B as (H & D & R).
  set (x := a + (IZR (iv0 c) + / 2) * dx) in *. set (y := b + (IZR (iv1 c) + / 2) * dy) in *.
  set (z := d + (IZR (iv2 c) + / 2) * dz) in *. set (w := tdiam t) in *.
  assert (RX : - (w / 2) <= x - tx t <= w / 2) by (apply sq_le with (y - ty t); lra).
  assert (RY : - (w / 2) <= y - ty t <= w / 2) by (apply sq_le with (x - tx t); lra).
  destruct C as ((C0 & D0) & (C1 & D1) & (C2 & D2)).
  split; [|split]; split.
  - eapply to_lo_le with (x := x); try reflexivity; try assumption. lra.
  - eapply to_hi_ge with (x := x); try reflexivity; try assumption. lra.
  - eapply to_lo_le with (x := y); try reflexivity; try assumption. lra.
  - eapply to_hi_ge with (x := y); try reflexivity; try assumption. lra.
  - eapply to_lo_le with (x := z); try reflexivity; try assumption. unfold z. apply IZR_le in C2. nra.
  - eapply to_hi_ge with (x := z); try reflexivity; try assumption.
Qed.

Lemma plant_at t g n0 n1 n2 b f c : mesh g n0 n1 n2 -> (0 <= iv0 c < n0 /\ 0 <= iv1 c < n1 /\ 0 <= iv2 c < n2)%Z ->
  in_box b c ->
  plant g b f t c = if inside t (centre g c)
    then (add (fst (f c)) (mul (Some (tcd t)) (area_fraction t (ax2 (centre g c)) (lm t))), tid t) else f c.
Proof.
  intros M C B. unfold plant. destruct (inside t (centre g c)) eqn:I.
  - assert (X : in_box (meet b (bounding_box t g)) c).
    { apply in_meet. split; [exact B|]. exact (member_box t g n0 n1 n2 c M C (proj1 (inside_member _ _) I)). }
    rewrite (in_nonempty _ _ X). apply inb_spec in X. cbv beta. now rewrite X, I.
  - destruct (nonempty _); [|reflexivity]. cbv beta. now rewrite I, andb_false_r.
Qed.

Lemma last_default (us : list tree) (u : tree) (d : Z) : List.last (map tid (u :: us)) d = List.last (map tid us) (tid u).
Proof.
  revert u d. induction us as [|v us IH]; intros u d; [reflexivity|].
  change (List.last (map tid (v :: us)) d = List.last (map tid (v :: us)) (tid u)). now rewrite !IH.
Qed.
Lemma fold_plant g n0 n1 n2 b c : mesh g n0 n1 n2 -> (0 <= iv0 c < n0 /\ 0 <= iv1 c < n1 /\ 0 <= iv2 c < n2)%Z ->
  in_box b c -> forall ts us, picks (centre g c) ts us ->
  (forall t, In t ts -> sound t /\ off_top t (ax2 (centre g c))) ->
  forall f s k, f c = (Some s, k) ->
  fold_left (plant g b) ts f c =
    (Some (s + rsum (map (fun t => tcd t * density t (ax2 (centre g c))) us)), List.last (map tid us) k).
Proof.
  intros M C B ts us P. induction P as [|t ts us I P IH|t ts us I P IH]; intros S f s k E; cbn [fold_left].
  - cbn. rewrite E. f_equal. f_equal. lra.
  - rewrite (IH (fun t' J => S t' (or_intror J)) _ (s + tcd t * density t (ax2 (centre g c))) (tid t)).
    + rewrite last_default. cbn [map]. rewrite rsum_cons. f_equal. f_equal. lra.
    + rewrite (plant_at t g n0 n1 n2) by assumption. rewrite (proj2 (inside_member t _) I).
      destruct (S t (or_introl eq_refl)) as [S1 S2]. rewrite area_density; try assumption.
      * rewrite E. reflexivity.
      * unfold member in I. destruct (centre g c) as [[x y] z]. exact (proj1 I).
  - apply (IH (fun t' J => S t' (or_intror J))). rewrite (plant_at t g n0 n1 n2) by assumption.
    destruct (inside t (centre g c)) eqn:J; [|exact E]. apply inside_member in J. contradiction.
Qed.
(** Only forests that no box of the level can see are left out. *)
Lemma picks_keep g n0 n1 n2 ba c b : mesh g n0 n1 n2 -> (0 <= iv0 c < n0 /\ 0 <= iv1 c < n1 /\ 0 <= iv2 c < n2)%Z ->
  In b ba -> in_box b c -> forall ts us, picks (centre g c) ts us -> picks (centre g c) (keep g ba ts) us.
Proof.
  intros M C I B ts us P. unfold keep. induction P as [|t ts us J P IH|t ts us J P IH]; cbn [filter].
  - constructor.
  - assert (X : intersects ba (bounding_box t g) = true).
    { unfold intersects. apply existsb_exists. exists b. split; [exact I|]. apply (in_nonempty _ c). apply in_meet.
      split; [exact B|]. exact (member_box t g n0 n1 n2 c M C J). }
    rewrite X. now constructor.
  - destruct (intersects _ _); [now constructor|exact IH].
Qed.

Lemma all_levels_in file ts : read file = Ret ts -> forall ls, exists ls', all_levels file ls = Ret ls' /\
  Forall2 (fun l l' => initialize_fields file l = Ret l') ls ls'.
Proof.
  intros E. induction ls as [|l ls (ls' & A & F)]; [exists []; split; [reflexivity|constructor]|].
  cbn [all_levels]. unfold initialize_fields at 1. rewrite E. cbn [obind]. rewrite A. cbn [obind].
  eexists. split; [reflexivity|]. constructor; [|exact F]. unfold initialize_fields. now rewrite E.
Qed.
(** What holds of a level after it has been set. *)
Definition planted (ts : list tree) (l : level) : Prop :=
  valid_level l /\ forall b f c us, In (b, f) (lfabs l) -> held l b c -> picks (middle (lgeo l) c) ts us ->
    (forall t, In t ts -> sound t /\ off_top t (ax2 (middle (lgeo l) c))) ->
    f c = (Some (rsum (map (fun t => tcd t * density t (ax2 (middle (lgeo l) c))) us)), last_id us).
Lemma initialize_planted file ts l l' : read file = Ret ts -> valid_level l -> initialize_fields file l = Ret l' -> planted ts l'.
Proof.
  intros E V I. unfold initialize_fields in I. rewrite E in I. injection I as <-.
  set (ba := map fst (lfabs l)) in *.
  assert (BA : map fst (map (fun bf : box * fab => (fst bf, fill (lgeo l) (keep (lgeo l) ba ts) (fst bf) (snd bf))) (lfabs l)) = ba).
  { rewrite map_map. unfold ba. apply map_ext. reflexivity. }
  split.
  - destruct V as (n0 & n1 & n2 & M & V). exists n0, n1, n2. cbn [lgeo lfabs]. rewrite BA. split; assumption.
  - destruct V as (n0 & n1 & n2 & M & V). cbn [lgeo lfabs]. intros b f c us J [H (b' & K & L)] P S.
    cbn [lgeo lfabs] in *. rewrite BA in K. apply in_map_iff in J. destruct J as ((b0 & f0) & J & _). cbn [fst snd] in J.
    injection J as <- <-. rewrite middle_centre in *. pose proof (V b' K c L) as C.
    unfold fill. rewrite (fold_plant (lgeo l) n0 n1 n2 (grow 1 b0) c M C H _ us) with (s := 0) (k := (-1)%Z).
    + rewrite Rplus_0_l. reflexivity.
    + eapply picks_keep; eauto.
    + intros t T. apply S. unfold keep in T. apply filter_In in T. exact (proj1 T).
    + reflexivity.
Qed.
Lemma all_planted file ts ls ls' : read file = Ret ts -> Forall valid_level ls -> all_levels file ls = Ret ls' ->
  Forall (planted ts) ls'.
Proof.
  intros E V A. destruct (all_levels_in file ts E ls) as (r & A' & F). rewrite A in A'. injection A' as ->.
  induction F as [|l l' ls r I F IH]; [constructor|]. inversion V; subst. constructor; [eapply initialize_planted; eauto|].
  apply IH; [assumption|]. cbn [all_levels] in A. rewrite I in A. cbn [obind] in A.
  destruct (all_levels file ls) as [r'| |]; cbn [obind] in A; try discriminate. congruence.
Qed.
Lemma happen_planted file ts ls ls' e : read file = Ret ts -> valid_event e ->
  (e <> Advance \/ Forall (planted ts) ls) -> happen file ls e = Ret ls' -> Forall (planted ts) ls'.
Proof.
  intros E V D H. destruct e as [ls0|mx ls0|ls0|]; cbn [happen valid_event] in *.
  - eapply all_planted; eauto.
  - destruct V as [V L]. apply Nat.leb_le in L. rewrite L in H. eapply all_planted; eauto.
  - eapply all_planted; eauto.
  - injection H as <-. destruct D; [congruence|assumption].
Qed.

(** Whatever the run has been through (start or restart, time steps, regrids), on every level, for every division of the
    level into boxes, and whatever the fields held before: the drag of a cell is the sum over the forests of the file its
    centre is in, each counted once, and the number is that of the last of them, minus one if there is none. *)
Theorem c98_cells : forall file ts, read file = Ret ts ->
  forall es, begins es -> Forall valid_event es -> forall ls0, exists ls, history file ls0 es = Ret ls /\
  forall l, In l ls -> forall b f c, In (b, f) (lfabs l) -> held l b c ->
  let p := middle (lgeo l) c in
  (forall t, In t ts -> sound t /\ off_top t (ax2 p)) ->
  forall us, picks p ts us -> f c = (Some (rsum (map (fun t => tcd t * density t (ax2 p)) us)), last_id us).
Proof.
  intros file ts E es G V ls0.
  assert (T : forall ls e, valid_event e -> exists ls', happen file ls e = Ret ls').
  { intros ls e _. destruct e as [l1|mx l1|l1|]; cbn [happen];
      try (destruct (all_levels_in file ts E l1) as (r & A & _)); eauto. destruct (_ <=? _)%nat; eauto. }
  assert (K : forall es, Forall valid_event es -> forall ls, Forall (planted ts) ls ->
            exists ls', history file ls es = Ret ls' /\ Forall (planted ts) ls').
  { clear - E T. induction es as [|e es IH]; intros V ls F; [exists ls; split; [reflexivity|exact F]|].
    inversion V; subst. cbn [history]. destruct (T ls e H1) as (ls' & H). rewrite H. cbn [obind]. apply IH; [assumption|].
    eapply happen_planted; eauto. }
  destruct es as [|e es]; [contradiction|]. inversion V; subst. cbn [history]. destruct (T ls0 e H1) as (l1 & H). rewrite H. cbn [obind].
  assert (N : e <> Advance) by (intros ->; exact G).
  assert (F1 : Forall (planted ts) l1) by exact (happen_planted file ts ls0 l1 e E H1 (or_introl N) H).
  destruct (K es H2 l1 F1) as (ls & HI & F).
  exists ls. split; [exact HI|]. intros l I b f c J HL S us P. rewrite Forall_forall in F. destruct (F l I) as [_ Q].
  exact (Q b f c us J HL P S).
Qed.

(** A level of 4 x 4 x 4 cells of size 10 in two boxes, and a forest around its middle. *)
Definition ex_geo : geo := mkgeo (0, 0, 0) (40, 40, 40) (10, 10, 10).
Definition ex_level : level :=
  mklevel ex_geo [(Box (IV 0 0 0) (IV 1 3 3), fun _ => (None, 7%Z)); (Box (IV 2 0 0) (IV 3 3 3), fun _ => (None, 8%Z))].
Definition ex_row : row := (1, 20, 20, 12, 16, 1 / 5, 6, 0).
Lemma ex_valid : valid_level ex_level.
Proof.
  exists 4%Z, 4%Z, 4%Z. split; [cbn; repeat split; try lra; f_equal; [f_equal|]; lra|].
  intros b [<-|[<-|[]]] c H; unfold in_box in H; cbn in H; lia.
Qed.
Example c98_cells_case : exists ls l b f, history (Some (words ex_row)) [] [Start [ex_level]; Advance; Regrid [ex_level]] = Ret ls /\
  In l ls /\ In (b, f) (lfabs l) /\ held l b (IV 2 1 0) /\ inb b (IV 2 1 0) = false /\
  f (IV 2 1 0) = (Some (1 / 5 * (6 / 12)), 0%Z) /\ f (IV 0 0 0) = (Some 0, (-1)%Z).
Proof.
  assert (E : read (Some (words ex_row)) = Ret [mktree 0 1 20 20 12 16 (1 / 5) 6 0]) by reflexivity.
  destruct (c98_cells _ _ E [Start [ex_level]; Advance; Regrid [ex_level]] I) with (ls0 := @nil level) as (ls & H & C).
  { repeat constructor; exact ex_valid. }
  pose proof H as H'. cbn [history happen all_levels obind] in H'. unfold initialize_fields in H'. rewrite E in H'.
  cbn [obind all_levels] in H'. injection H' as <-.
  set (l := mklevel _ _) in H, C. specialize (C l (or_introl eq_refl)).
  eexists. exists l. eexists. eexists. split; [exact H|]. split; [now left|]. split; [left; reflexivity|].
  set (f := fill _ _ _ _).
  assert (HL : forall c, in_box (Box (IV 0 0 0) (IV 2 3 3)) c -> held l (Box (IV 0 0 0) (IV 1 3 3)) c).
  { intros c J. unfold in_box in J. cbn in J. split; [unfold in_box; cbn; lia|].
    assert (D : (iv0 c <= 1 \/ 2 <= iv0 c)%Z) by lia. destruct D.
    - exists (Box (IV 0 0 0) (IV 1 3 3)). split; [now left|]. unfold in_box; cbn; lia.
    - exists (Box (IV 2 0 0) (IV 3 3 3)). split; [right; now left|]. unfold in_box; cbn; lia. }
  assert (S : forall z, forall t, In t [mktree 0 1 20 20 12 16 (1 / 5) 6 0] -> sound t /\ off_top t z).
  { intros z t [<-|[]]. unfold sound, off_top, tiny. cbn. split; [split|]; [lra|intros; lra|intros; lra]. }
  split; [apply HL; unfold in_box; cbn; lia|]. split; [reflexivity|]. split.
  - rewrite (C (Box (IV 0 0 0) (IV 1 3 3)) f (IV 2 1 0) (or_introl eq_refl) (HL (IV 2 1 0) ltac:(unfold in_box; cbn; lia)) (S _)
      [mktree 0 1 20 20 12 16 (1 / 5) 6 0]).
    + cbn. unfold density. cbn. destruct (Req_EM_T 1 1); [|lra]. f_equal. f_equal. lra.
    + constructor; [|constructor]. cbn. lra.
  - rewrite (C (Box (IV 0 0 0) (IV 1 3 3)) f (IV 0 0 0) (or_introl eq_refl) (HL (IV 0 0 0) ltac:(unfold in_box; cbn; lia)) (S _) []).
    + reflexivity.
    + apply picks_out; [|constructor]. cbn. lra.
Qed.

(** ** Columns *)

(** Uniform trees on a ground at height zero: in a column of cells in the forest, the sum of density times cell height
    over the cells that get drag is the leaf area index up to half a cell, exactly if the height is a whole number of
    cells. *)
Lemma column_count h dz n : 0 < dz -> 0 <= h -> h <= IZR (Z.of_nat n) * dz ->
  let m := rfloor (h / dz + / 2) in
  forall g, rsum (map (fun k => if Rleb ((IZR k + / 2) * dz) h then g else 0) (zrange 0 (Z.of_nat n - 1))) = IZR m * g.
Proof.
  intros D H N m g. destruct (rfloor_spec (h / dz + / 2)) as [A B]. fold m in A, B.
  assert (Q : h / dz * dz = h) by (field; lra). set (q := h / dz) in *.
  assert (M0 : (0 <= m)%Z). { assert (0 < IZR (m + 1)) by (rewrite plus_IZR; nra). apply lt_IZR in H0. lia. }
  assert (MN : (m <= Z.of_nat n)%Z). { assert (IZR m < IZR (Z.of_nat n + 1)) by (rewrite plus_IZR; nra). apply lt_IZR in H0. lia. }
  assert (K : forall k, Rleb ((IZR k + / 2) * dz) h = (k <? m)%Z).
  { intro k. destruct (Z.ltb_spec k m) as [L|L].
    - apply Rleb_spec. assert (IZR k + 1 <= IZR m) by (rewrite <- plus_IZR; apply IZR_le; lia). nra.
    - apply Rleb_false. apply IZR_le in L. nra. }
  unfold zrange. rewrite map_map. replace (Z.to_nat (Z.of_nat n - 1 - 0 + 1)) with n by lia.
  rewrite (rsum_ext _ (fun x => if (Z.of_nat x <? m)%Z then g else 0)) by (intros x _; rewrite K; reflexivity).
  clear K A B. clearbody m. destruct (Z_of_nat_complete m M0) as [p ->].
  assert (P : (p <= n)%nat) by lia. replace n with (p + (n - p))%nat by lia. rewrite seq_app, map_app, rsum_app.
  rewrite (rsum_ext _ (fun _ => g) (seq 0 p)).
  - rewrite rsum_const, seq_length, <- INR_IZR_INZ. rewrite rsum_zero; [lra|]. intros x X. apply in_seq in X.
    destruct (Z.ltb_spec (Z.of_nat x) (Z.of_nat p)); [lia|reflexivity].
  - intros x X. apply in_seq in X. destruct (Z.ltb_spec (Z.of_nat x) (Z.of_nat p)); [reflexivity|lia].
Qed.
(** The leaf area of a column of cells over the point (x, y), for any factor [m] (ForestDrag.cpp:69-75 with a drag
    coefficient of one): the sum of density times cell height over the cells of the forest. *)
Definition column (t : tree) (x y z0 dz : R) (n : nat) : option R :=
  fold_right (fun k acc => let z := z0 + (IZR k + / 2) * dz in
    if inside t (x, y, z) then add (mul (Some dz) (area_fraction t z (lm t))) acc else acc) (Some 0)
    (zrange 0 (Z.of_nat n - 1)).
Theorem c98_column : forall t x y dz n, ttype t = 1 -> 0 < theight t -> 0 <= tlai t -> member t (x, y, 0) -> 0 < dz ->
  theight t <= IZR (Z.of_nat n) * dz ->
  exists a, column t x y 0 dz n = Some a /\ Rabs (a - tlai t) <= tlai t / theight t * (dz / 2) /\
    (forall k, theight t = IZR k * dz -> a = tlai t).
Proof.
  intros t x y dz n T H L M D N. set (h := theight t) in *. set (g := dz * (tlai t / h)).
  assert (IN : forall z, inside t (x, y, z) = Rleb z h).
  { intro z. apply inside_member in M. unfold inside, ax0, ax1, ax2 in *. cbn [fst snd] in *.
    apply andb_true_iff in M. destruct M as [_ M]. rewrite M. apply andb_true_r. }
  assert (AF : forall z, area_fraction t z (lm t) = Some (tlai t / h)).
  { intro z. unfold area_fraction, quot. destruct (Req_EM_T (ttype t) 1); [|contradiction]. fold h.
    destruct (Req_EM_T h 0); [lra|reflexivity]. }
  assert (C : column t x y 0 dz n =
              Some (rsum (map (fun k => if Rleb ((IZR k + / 2) * dz) h then g else 0) (zrange 0 (Z.of_nat n - 1))))).
  { unfold column. induction (zrange 0 (Z.of_nat n - 1)) as [|k ks IH]; [reflexivity|]. cbn [fold_right map]. rewrite IH, IN, AF.
    rewrite Rplus_0_l, rsum_cons. destruct (Rleb _ _); cbn [add mul bind]; f_equal. lra. }
  rewrite (column_count h dz n D ltac:(lra) N g) in C. eexists. split; [exact C|].
  destruct (rfloor_spec (h / dz + / 2)) as [A B]. set (m := rfloor (h / dz + / 2)) in *.
  assert (Q : h / dz * dz = h) by (field; lra). set (q := h / dz) in *.
  assert (G : g = tlai t / h * dz) by (unfold g; lra). set (r := tlai t / h) in *.
  assert (R0 : 0 <= r) by (unfold r, Rdiv; apply Rmult_le_pos; [exact L|left; apply Rinv_0_lt_compat; exact H]).
  assert (R1 : tlai t = r * h) by (unfold r; field; lra).
  split.
  - rewrite G, R1. replace (IZR m * (r * dz) - r * h) with (r * (dz * (IZR m - q))) by (rewrite <- Q; ring).
    rewrite Rabs_mult, (Rabs_right r) by lra. apply Rmult_le_compat_l; [exact R0|].
    rewrite Rabs_mult, (Rabs_right dz) by lra. unfold Rdiv. apply Rmult_le_compat_l; [lra|]. apply Rabs_le. lra.
  - intros k K. assert (E : q = IZR k) by nra. assert (m = k). { apply rfloor_unique. lra. } rewrite H0, G, R1, K. ring.
Qed.
Example c98_column_case : let t := mktree 0 1 500 500 20 100 (1/5) 6 0 in
  ttype t = 1 /\ 0 < theight t /\ 0 <= tlai t /\ member t (510, 490, 0) /\ theight t <= IZR (Z.of_nat 64) * 8.
Proof. cbn. lra. Qed.

(** ** Where the documented model is not what one gets *)

(** A cell centre exactly at the top of a tree of the second type (a tree of 30 m, cells of 4 m): the ratio of the profile
    is a division by zero, and the drag of the cell is not a number, where the profile tends to zero. *)
Theorem c98_top_refuted : ~ (forall t z, sound t -> z <= theight t -> exists a, area_fraction t z (lm t) = Some a).
Proof.
  intro H. destruct (H (mktree 0 2 500 500 30 100 (1/5) 6 (4/5)) (0 + (IZR 7 + / 2) * 4)) as [a E].
  - unfold sound, tiny. cbn. lra.
  - cbn. lra.
  - unfold area_fraction in E. cbn [ttype] in E. destruct (Req_EM_T 2 1); [lra|]. destruct (Req_EM_T 2 2); [|lra].
    unfold shape, quot in E. cbn [theight tlaimax] in E. destruct (Req_EM_T (30 - (0 + (7 + / 2) * 4)) 0); [|lra].
    destruct (lm _); discriminate.
Qed.
(** The largest density at the top of the tree: the integral is zero and no cell has a number for its drag. *)
Theorem c98_laimax_one_refuted : ~ (forall t z, tiny < theight t -> ttype t = 2 -> 0 <= tlaimax t <= 1 -> z < theight t ->
  exists a, area_fraction t z (lm t) = Some a).
Proof.
  intro H. set (t := mktree 0 2 500 500 30 100 (1/5) 6 1). destruct (H t 2) as [a E].
  - unfold tiny. cbn. lra.
  - reflexivity.
  - cbn. lra.
  - cbn. lra.
  - assert (Z : forall z, z < 30 -> shape t z = Some 0).
    { intros z L. unfold shape, quot. cbn [theight tlaimax t]. destruct (Req_EM_T (30 - z) 0); [lra|]. cbn [bind].
      replace ((30 - 1 * 30) / (30 - z)) with 0 by (field; lra). unfold pow_. rewrite (proj2 (Rltb_false 0 0)) by lra.
      destruct (Req_EM_T 0 0); [|lra]. cbn [mul bind]. f_equal. lra. }
    assert (K : lm t = None).
    { unfold lm. cbn [ttype t]. destruct (Req_EM_T 2 2); [|lra]. unfold trapz. cbn [theight t].
      pose proof tiny_pos as P. assert (T1 : tiny < 1) by (unfold tiny; lra).
      rewrite !Z by lra. cbn [add mul bind]. replace (INR 100) with 100 by (cbn; lra). set (d := (30 - tiny - 0) / 100).
      change (100 - 1)%nat with 99%nat. rewrite (inner_sum _ (fun _ => 0)).
      - cbn [bind]. rewrite rsum_const. unfold quot. destruct (Req_EM_T _ 0) as [_|N]; [reflexivity|]. exfalso. apply N. ring.
      - intros j J. rewrite Rplus_0_l. apply Z.
        assert (INR j <= 99) by (replace 99 with (INR 99) by (cbn; lra); apply le_INR; lia).
        assert (0 < d) by (unfold d; lra). assert (d * 100 = 30 - tiny) by (unfold d; field). nra. }
    unfold area_fraction in E. rewrite K in E. cbn [ttype t] in E. destruct (Req_EM_T 2 1); [lra|]. destruct (Req_EM_T 2 2); [|lra].
    discriminate.
Qed.
(** The height of a tree is a coordinate, not a height above the bottom of the domain: with the bottom at minus 20 m a
    column of a tree of 20 m has twice the leaf area index, with the bottom at 100 m it has none. *)
Theorem c98_floor_refuted :
  let t := mktree 0 1 500 500 20 100 (1/5) 6 0 in
  column t 500 500 0 10 10 = Some (tlai t) /\ column t 500 500 (-20) 10 10 = Some (2 * tlai t) /\
  column t 500 500 100 10 10 = Some 0.
Proof.
  intro t. assert (IN : forall z, inside t (500, 500, z) = Rleb z 20).
  { intro z. unfold inside, ax0, ax1, ax2. cbn [fst snd t theight tx ty tdiam].
    replace ((500 - 500) * (500 - 500) + (500 - 500) * (500 - 500)) with 0 by ring. rewrite sqrt_0.
    rewrite (proj2 (Rleb_spec 0 (/ 2 * 100))) by lra. apply andb_true_r. }
  assert (AF : forall z, area_fraction t z (lm t) = Some (6 / 20)).
  { intro z. unfold area_fraction, quot. cbn [ttype t tlai theight]. destruct (Req_EM_T 1 1); [|lra].
    destruct (Req_EM_T 20 0); [lra|reflexivity]. }
  unfold column. change (zrange 0 (Z.of_nat 10 - 1)) with [0; 1; 2; 3; 4; 5; 6; 7; 8; 9]%Z. cbn [fold_right].
  rewrite !IN, !AF. unfold Rleb.
  repeat split; repeat (match goal with |- context [Rle_dec ?a ?b] => destruct (Rle_dec a b); [try lra|try lra] end);
    cbn [add mul bind tlai t]; f_equal; lra.
Qed.
(** A type that is neither one nor two is accepted: its cells get the number of the forest, and no drag. *)
Theorem c98_type_refuted : ~ (forall t z, sound t -> 0 < tlai t -> z < theight t -> exists a, area_fraction t z (lm t) = Some a /\ 0 < a).
Proof.
  intro H. destruct (H (mktree 0 3 500 500 20 100 (1/5) 6 (4/5)) 5) as (a & E & P).
  - unfold sound, tiny. cbn. lra.
  - cbn. lra.
  - cbn. lra.
  - unfold area_fraction in E. cbn [ttype] in E. destruct (Req_EM_T 3 1); [lra|]. destruct (Req_EM_T 3 2); [lra|].
    injection E as <-. lra.
Qed.

Print Assumptions c98_file.
Print Assumptions c98_header_refuted.
Print Assumptions c98_density.
Print Assumptions c98_cells.
Print Assumptions c98_column.
Print Assumptions c98_top_refuted.
Print Assumptions c98_laimax_one_refuted.
Print Assumptions c98_floor_refuted.
Print Assumptions c98_type_refuted.
