(** C100: options given for one body come before those given for all bodies of its type. *)
From Coq Require Import String List ZArith Lra Lia.
From Verif Require Import BoxR VecSpace Inputs InputsSpec.
Import ListNotations.
Open Scope string_scope.
Open Scope R_scope.

Lemma overwrite_nil {A} (l : list A) : overwrite [] l = l.
Proof. unfold overwrite. rewrite skipn_nil, app_nil_r. reflexivity. Qed.

Lemma overwrite_long {A} (a b : list A) : (length a <= length b)%nat -> overwrite a b = b.
Proof. intros H. unfold overwrite. rewrite skipn_all2 by exact H. apply app_nil_r. Qed.

(** Single values: whatever the section of the body says, else what the section of the type says, else what the
    program starts from; options that must be there stop the run when neither section has them. *)
Theorem c100_scalar : forall (A : Type) (dflt own : sect A) k v r,
  no_empty dflt -> no_empty own ->
  (mp_query dflt own k v = r <-> optional dflt own k v r) /\
  (mp_get dflt own k = Ret r <-> required dflt own k r) /\
  (mp_get dflt own k = Abort <-> given dflt own k = None) /\
  (mp_contains dflt own k = true <-> given dflt own k <> None).
Proof.
  intros A dflt own k v r ND NO. specialize (ND k). specialize (NO k).
  unfold mp_query, mp_get, mp_contains, pp_contains, pp_query, pp_get, optional, required, given.
  destruct (own k) as [[|x o]|]; [contradiction| |].
  - cbn [orb]. repeat split.
    + intros <-. right. eauto.
    + intros [[E _]|[rest E]]; [discriminate|]. injection E as E _. exact E.
    + intros E. injection E as ->. eauto.
    + intros [rest E]. injection E as -> _. reflexivity.
    + discriminate.
    + discriminate.
    + intros _. discriminate.
  - destruct (dflt k) as [[|x d]|]; [contradiction| |]; cbn [orb]; repeat split.
    + intros <-. right. eauto.
    + intros [[E _]|[rest E]]; [discriminate|]. injection E as E _. exact E.
    + intros E. injection E as ->. eauto.
    + intros [rest E]. injection E as -> _. reflexivity.
    + discriminate.
    + discriminate.
    + intros _. discriminate.
    + intros <-. left. split; reflexivity.
    + intros [[_ ->]|[rest E]]; [reflexivity|discriminate].
    + discriminate.
    + intros [rest E]. discriminate.
    + discriminate.
    + intros E. contradiction E. reflexivity.
Qed.

Lemma three_iff l w : three l = Ret w <-> means false l w.
Proof.
  unfold three, means. split.
  - destruct l as [|x [|y [|z [|t l]]]]; try discriminate. intros E. injection E as <-. left. reflexivity.
  - intros [->|[E _]]; [destruct w; reflexivity|discriminate].
Qed.

Lemma one_iff l w : one_or_three l = Ret w <-> means true l w.
Proof.
  unfold one_or_three, means. split.
  - destruct l as [|x [|y [|z [|t l]]]]; try discriminate; intros E; injection E as <-; [right; eauto|left; reflexivity].
  - intros [->|[_ [x [-> ->]]]]; [destruct w; reflexivity|reflexivity].
Qed.

Lemma three_noub l : three l <> UB.
Proof. destruct l as [|x [|y [|z [|t l]]]]; discriminate. Qed.
Lemma one_noub l : one_or_three l <> UB.
Proof. destruct l as [|x [|y [|z [|t l]]]]; discriminate. Qed.

Lemma getarr_given {A} (dflt own : sect A) k :
  mp_getarr dflt own k [] = match given dflt own k with Some l => Ret l | None => Abort end.
Proof.
  unfold mp_getarr, pp_contains, pp_getarr, given. destruct (own k) as [o|]; [rewrite overwrite_nil; reflexivity|].
  destruct (dflt k); [rewrite overwrite_nil|]; reflexivity.
Qed.

Lemma queryarr_given dflt own k : not_shorter dflt own k ->
  mp_queryarr dflt own k [] = match given dflt own k with Some l => l | None => [] end.
Proof.
  intros N. unfold mp_queryarr, pp_queryarr, given. specialize (N). unfold not_shorter in N.
  destruct (own k) as [o|]; destruct (dflt k) as [d|]; rewrite ?overwrite_nil; try reflexivity.
  apply overwrite_long. apply N; reflexivity.
Qed.

(** Vectors that must be there: the numbers of one section alone, three of them, or a single one for all three
    directions where that is allowed; any other count, or none at all, stops the run. *)
Theorem c100_vector_get : forall (dflt own : sect R) k w,
  (mp_get_vec dflt own k = Ret w <-> required_vec false dflt own k w) /\
  (mp_get_either dflt own k = Ret w <-> required_vec true dflt own k w) /\
  mp_get_vec dflt own k <> UB /\ mp_get_either dflt own k <> UB.
Proof.
  intros dflt own k w. unfold mp_get_vec, mp_get_either, required_vec. rewrite getarr_given.
  destruct (given dflt own k) as [l|]; cbn [obind].
  - split; [rewrite three_iff; split; [eauto|intros [m [E H]]; injection E as <-; exact H]|].
    split; [rewrite one_iff; split; [eauto|intros [m [E H]]; injection E as <-; exact H]|].
    split; [apply three_noub|apply one_noub].
  - repeat split; try discriminate; intros [m [E _]]; discriminate.
Qed.

(** Vectors that may be left out: the same, provided the body gives no fewer numbers than its type. *)
Theorem c100_vector_query_partial : forall (dflt own : sect R) k v w,
  no_empty dflt -> no_empty own -> not_shorter dflt own k ->
  (mp_query_vec dflt own k v = Ret w <-> optional_vec false dflt own k v w) /\
  (mp_query_either dflt own k v = Ret w <-> optional_vec true dflt own k v w) /\
  mp_query_vec dflt own k v <> UB /\ mp_query_either dflt own k v <> UB.
Proof.
  intros dflt own k v w ND NO N. unfold mp_query_vec, mp_query_either, optional_vec.
  rewrite (queryarr_given _ _ _ N).
  assert (NE : given dflt own k <> Some []).
  { unfold given. specialize (ND k). specialize (NO k). destruct (own k); assumption. }
  destruct (given dflt own k) as [l|].
  - destruct l as [|x l]; [contradiction NE; reflexivity|].
    split; [rewrite three_iff; split; [right; eauto|intros [[E _]|[m [E H]]]; [discriminate|injection E as <-; exact H]]|].
    split; [rewrite one_iff; split; [right; eauto|intros [[E _]|[m [E H]]]; [discriminate|injection E as <-; exact H]]|].
    split; [apply three_noub|apply one_noub].
  - split; [split; [intros E; injection E as <-; left; split; reflexivity
                   |intros [[_ ->]|[m [E _]]]; [reflexivity|discriminate]]|].
    split; [split; [intros E; injection E as <-; left; split; reflexivity
                   |intros [[_ ->]|[m [E _]]]; [reflexivity|discriminate]]|].
    split; discriminate.
Qed.

(** One number given for the body where the type gives three does not stand for three equal numbers: it replaces
    the first number of the type only.  Two numbers, which are no vector, are taken with the third of the type. *)
Theorem c100_mixed_refuted : forall (dflt own : sect R) k v a b c x y,
  dflt k = Some [a; b; c] ->
  (own k = Some [x] -> mp_query_either dflt own k v = Ret (V3 x b c) /\ mp_query_vec dflt own k v = Ret (V3 x b c)) /\
  (own k = Some [x; y] -> mp_query_either dflt own k v = Ret (V3 x y c)).
Proof.
  intros dflt own k v a b c x y D.
  split; intros O; unfold mp_query_either, mp_query_vec, mp_queryarr, pp_queryarr; rewrite D, O; [split|]; reflexivity.
Qed.

Definition all_eps (dflt own : section) : Prop :=
  not_shorter (s_real dflt) (s_real own) "epsilon" /\ not_shorter (s_real dflt) (s_real own) "epsilon_chord" /\
  not_shorter (s_real dflt) (s_real own) "epsilon_min" /\ not_shorter (s_real dflt) (s_real own) "epsilon_tower".
Definition sec_ok (s : section) : Prop :=
  no_empty (s_int s) /\ no_empty (s_real s) /\ no_empty (s_bool s) /\ no_empty (s_str s).

Lemma obind_ret {A B} (o : outcome A) (f : A -> outcome B) (b : B) :
  obind o f = Ret b <-> exists a, o = Ret a /\ f a = Ret b.
Proof.
  destruct o as [a| |]; cbn [obind]; split; try (intros [a0 [E _]]; discriminate); try discriminate.
  - eauto.
  - intros [a0 [E H]]. injection E as <-. exact H.
Qed.

(** The options of a turbine: it is made exactly when every required option is there, every vector has a proper
    number of values, one of the two smearing lengths is there and the correction is not asked for a disk; then each
    member is the value of its key, and the bounding box follows from position, diameter and height. *)
Theorem c100_turbine_partial : forall solver d0 h0 dflt own t,
  sec_ok dflt -> sec_ok own -> all_eps dflt own ->
  (read_turbine solver d0 h0 dflt own = Ret t <->
   (optional (s_int dflt) (s_int own) "num_blades" 3%Z (t_blades t) /\
    required (s_int dflt) (s_int own) "num_points_blade" (t_pts_blade t) /\
    t_vel_pts_blade t = t_pts_blade t /\
    required (s_int dflt) (s_int own) "num_points_tower" (t_pts_tower t) /\
    optional (s_real dflt) (s_real own) "nacelle_area" 0 (t_area t) /\
    optional (s_real dflt) (s_real own) "nacelle_drag_coeff" 0 (t_cd t)) /\
   (given (s_real dflt) (s_real own) "epsilon" <> None \/ given (s_real dflt) (s_real own) "epsilon_chord" <> None) /\
   (optional_vec true (s_real dflt) (s_real own) "epsilon" vzero (t_eps t) /\
    optional_vec true (s_real dflt) (s_real own) "epsilon_chord" vzero (t_eps_chord t) /\
    optional_vec true (s_real dflt) (s_real own) "epsilon_min" vzero (t_eps_min t) /\
    optional_vec true (s_real dflt) (s_real own) "epsilon_tower" vzero (t_eps_tower t)) /\
   required_vec false (s_real dflt) (s_real own) "base_position" (t_base t) /\
   (solver = "Kynema" -> t_diam t = d0 /\ t_hub t = h0) /\
   (solver <> "Kynema" ->
    required (s_real dflt) (s_real own) "rotor_diameter" (t_diam t) /\
    required (s_real dflt) (s_real own) "hub_height" (t_hub t)) /\
   ((optional (s_bool dflt) (s_bool own) "fllc" false true /\
     ~ optional (s_str dflt) (s_str own) "type" "" "TurbineFastDisk" /\ t_fllc t = Z.max (t_blades t) 0) \/
    (optional (s_bool dflt) (s_bool own) "fllc" false false /\ t_fllc t = 0%Z)) /\
   let r := t_diam t / 2 in
   t_lo t = V3 (vx (t_base t) - 5 / 4 * r) (vy (t_base t) - 5 / 4 * r) (vz (t_base t) - 5 / 4 * r) /\
   t_hi t = V3 (vx (t_base t) + 5 / 4 * r) (vy (t_base t) + 5 / 4 * r) (vz (t_base t) + 5 / 4 * r + t_hub t)).
Proof.
  intros solver d0 h0 dflt own t (DI & DR & DB & DS) (OI & OR & OB & OS) (E1 & E2 & E3 & E4).
  assert (SI : forall k v r, (mp_query (s_int dflt) (s_int own) k v = r <-> optional (s_int dflt) (s_int own) k v r)).
  { intros k v r. apply (c100_scalar _ _ _ k v r DI OI). }
  assert (GI : forall k r, (mp_get (s_int dflt) (s_int own) k = Ret r <-> required (s_int dflt) (s_int own) k r)).
  { intros k r. apply (c100_scalar _ _ _ k r r DI OI). }
  assert (SR : forall k v r, (mp_query (s_real dflt) (s_real own) k v = r <-> optional (s_real dflt) (s_real own) k v r)).
  { intros k v r. apply (c100_scalar _ _ _ k v r DR OR). }
  assert (GR : forall k r, (mp_get (s_real dflt) (s_real own) k = Ret r <-> required (s_real dflt) (s_real own) k r)).
  { intros k r. apply (c100_scalar _ _ _ k r r DR OR). }
  assert (CR : forall k, (mp_contains (s_real dflt) (s_real own) k = true <-> given (s_real dflt) (s_real own) k <> None)).
  { intros k. apply (c100_scalar _ _ _ k 0 0 DR OR). }
  assert (SB : forall r, (mp_query (s_bool dflt) (s_bool own) "fllc" false = r <-> optional (s_bool dflt) (s_bool own) "fllc" false r)).
  { intros r. apply (c100_scalar _ _ _ "fllc" false r DB OB). }
  assert (SS : forall r, (mp_query (s_str dflt) (s_str own) "type" "" = r <-> optional (s_str dflt) (s_str own) "type" "" r)).
  { intros r. apply (c100_scalar _ _ _ "type" "" r DS OS). }
  assert (Q : forall k, not_shorter (s_real dflt) (s_real own) k -> forall w,
     (mp_query_either (s_real dflt) (s_real own) k vzero = Ret w <-> optional_vec true (s_real dflt) (s_real own) k vzero w)).
  { intros k N w. apply (c100_vector_query_partial _ _ k vzero w DR OR N). }
  assert (B : forall w, (mp_get_vec (s_real dflt) (s_real own) "base_position" = Ret w <->
     required_vec false (s_real dflt) (s_real own) "base_position" w)).
  { intros w. apply (c100_vector_get _ _ "base_position" w). }
  assert (BL : forall bp dm, box_lo bp dm = V3 (vx bp - 5 / 4 * (dm / 2)) (vy bp - 5 / 4 * (dm / 2)) (vz bp - 5 / 4 * (dm / 2))).
  { intros bp dm. unfold box_lo. cbn zeta. f_equal; lra. }
  assert (BH : forall bp dm hh, box_hi bp dm hh =
     V3 (vx bp + 5 / 4 * (dm / 2)) (vy bp + 5 / 4 * (dm / 2)) (vz bp + 5 / 4 * (dm / 2) + hh)).
  { intros bp dm hh. unfold box_hi. cbn zeta. f_equal; lra. }
  unfold read_turbine. cbn zeta. split.
  - intros H.
    apply obind_ret in H; destruct H as [npb [H1 H]].
    apply obind_ret in H; destruct H as [npt [H2 H]].
    destruct (negb (mp_contains (s_real dflt) (s_real own) "epsilon") &&
              negb (mp_contains (s_real dflt) (s_real own) "epsilon_chord"))%bool eqn:C; [discriminate|].
    apply obind_ret in H; destruct H as [e1 [H3 H]].
    apply obind_ret in H; destruct H as [e2 [H4 H]].
    apply obind_ret in H; destruct H as [e3 [H5 H]].
    apply obind_ret in H; destruct H as [e4 [H6 H]].
    apply obind_ret in H; destruct H as [bp [H7 H]].
    apply obind_ret in H; destruct H as [dm [H8 H]].
    apply obind_ret in H; destruct H as [hh [H9 H]].
    apply obind_ret in H; destruct H as [nf [H10 H]].
    injection H as <-.
    cbn [t_blades t_pts_blade t_vel_pts_blade t_pts_tower t_area t_cd t_eps t_eps_chord t_eps_min t_eps_tower
         t_base t_diam t_hub t_fllc t_lo t_hi].
    split; [|split; [|split; [|split; [|split; [|split; [|split]]]]]].
    + split; [apply SI; reflexivity|]. split; [apply GI; exact H1|]. split; [reflexivity|].
      split; [apply GI; exact H2|]. split; apply SR; reflexivity.
    + apply Bool.andb_false_iff in C. destruct C as [C|C]; apply Bool.negb_false_iff in C; apply CR in C; [left|right]; exact C.
    + split; [apply Q; assumption|]. split; [apply Q; assumption|]. split; apply Q; assumption.
    + apply B. exact H7.
    + intros ->. rewrite String.eqb_refl in H8, H9. injection H8 as <-. injection H9 as <-. split; reflexivity.
    + intros NK. apply String.eqb_neq in NK. rewrite NK in H8, H9. split; apply GR; assumption.
    + destruct (mp_query (s_bool dflt) (s_bool own) "fllc" false) eqn:F.
      * left. destruct (String.eqb (mp_query (s_str dflt) (s_str own) "type" "") "TurbineFastDisk") eqn:T; [discriminate|].
        injection H10 as <-. split; [apply SB; reflexivity|]. split; [|reflexivity].
        intros O. apply SS in O. rewrite O in T. discriminate.
      * right. injection H10 as <-. split; [apply SB; reflexivity|reflexivity].
    + split; [apply BL|apply BH].
  - intros ((A1 & A2 & A3 & A4 & A5 & A6) & C & (Q1 & Q2 & Q3 & Q4) & BP & K1 & K2 & F & L & U).
    destruct t as [nb npb nvb npt area cd e1 e2 e3 e4 bp dm hh nf lo hi].
    cbn [t_blades t_pts_blade t_vel_pts_blade t_pts_tower t_area t_cd t_eps t_eps_chord t_eps_min t_eps_tower
         t_base t_diam t_hub t_fllc t_lo t_hi] in *.
    apply SI in A1. apply GI in A2. apply GI in A4. apply SR in A5. apply SR in A6.
    apply Q in Q1; [|exact E1]. apply Q in Q2; [|exact E2]. apply Q in Q3; [|exact E3]. apply Q in Q4; [|exact E4].
    apply B in BP. subst nvb. rewrite A2. cbn [obind]. rewrite A4. cbn [obind].
    assert (C' : (negb (mp_contains (s_real dflt) (s_real own) "epsilon") &&
              negb (mp_contains (s_real dflt) (s_real own) "epsilon_chord"))%bool = false).
    { apply Bool.andb_false_iff. destruct C as [C|C]; apply CR in C; rewrite C; [left|right]; reflexivity. }
    rewrite C'. rewrite Q1. cbn [obind]. rewrite Q2. cbn [obind]. rewrite Q3. cbn [obind]. rewrite Q4. cbn [obind].
    rewrite BP. cbn [obind].
    assert (HD : (if String.eqb solver "Kynema" then Ret d0 else mp_get (s_real dflt) (s_real own) "rotor_diameter") = Ret dm).
    { destruct (String.eqb solver "Kynema") eqn:K.
      - apply String.eqb_eq in K. destruct (K1 K) as [-> _]. reflexivity.
      - apply String.eqb_neq in K. apply GR. apply K2. exact K. }
    assert (HH : (if String.eqb solver "Kynema" then Ret h0 else mp_get (s_real dflt) (s_real own) "hub_height") = Ret hh).
    { destruct (String.eqb solver "Kynema") eqn:K.
      - apply String.eqb_eq in K. destruct (K1 K) as [_ ->]. reflexivity.
      - apply String.eqb_neq in K. apply GR. apply K2. exact K. }
    rewrite HD. cbn [obind]. rewrite HH. cbn [obind].
    rewrite A1, A5, A6. rewrite BL, BH, <- L, <- U.
    destruct F as [[F [T ->]]|[F ->]]; apply SB in F; rewrite F.
    + assert (T' : String.eqb (mp_query (s_str dflt) (s_str own) "type" "") "TurbineFastDisk" = false).
      { apply String.eqb_neq. intros X. apply T. apply SS. exact X. }
      rewrite T'. cbn [obind]. reflexivity.
    + cbn [obind]. reflexivity.
Qed.

(** The box of a turbine holds its tower and everything within five quarters of the rotor radius of the hub. *)
Theorem c100_box : forall solver d0 h0 dflt own t p,
  read_turbine solver d0 h0 dflt own = Ret t -> 0 <= t_diam t -> 0 <= t_hub t ->
  (exists s, 0 <= s <= 1 /\
     (vx p - vx (t_base t)) ^ 2 + (vy p - vy (t_base t)) ^ 2 + (vz p - (vz (t_base t) + s * t_hub t)) ^ 2
       <= (5 / 4 * (t_diam t / 2)) ^ 2) ->
  vx (t_lo t) <= vx p <= vx (t_hi t) /\ vy (t_lo t) <= vy p <= vy (t_hi t) /\ vz (t_lo t) <= vz p <= vz (t_hi t).
Proof.
  intros solver d0 h0 dflt own t p H D HH [s [S I]].
  assert (L : t_lo t = box_lo (t_base t) (t_diam t) /\ t_hi t = box_hi (t_base t) (t_diam t) (t_hub t)).
  { unfold read_turbine in H. cbn zeta in H.
    apply obind_ret in H; destruct H as [npb [_ H]].
    apply obind_ret in H; destruct H as [npt [_ H]].
    destruct (negb (mp_contains (s_real dflt) (s_real own) "epsilon") &&
              negb (mp_contains (s_real dflt) (s_real own) "epsilon_chord"))%bool; [discriminate|].
    apply obind_ret in H; destruct H as [e1 [_ H]].
    apply obind_ret in H; destruct H as [e2 [_ H]].
    apply obind_ret in H; destruct H as [e3 [_ H]].
    apply obind_ret in H; destruct H as [e4 [_ H]].
    apply obind_ret in H; destruct H as [bp [_ H]].
    apply obind_ret in H; destruct H as [dm [_ H]].
    apply obind_ret in H; destruct H as [hh [_ H]].
    apply obind_ret in H; destruct H as [nf [_ H]].
    injection H as <-. split; reflexivity. }
  destruct L as [-> ->]. unfold box_lo, box_hi. cbn zeta. cbn [vx vy vz].
  set (r := 5 / 4 * (t_diam t / 2)) in *. assert (R0 : 0 <= r) by (unfold r; lra).
  replace (1.25 * (0.5 * t_diam t)) with r by (unfold r; lra).
  set (a := vx p - vx (t_base t)) in *. set (b := vy p - vy (t_base t)) in *.
  set (c := vz p - (vz (t_base t) + s * t_hub t)) in *.
  assert (SQ : forall u, u ^ 2 <= r ^ 2 -> - r <= u <= r).
  { intros u U. split.
    - destruct (Rle_or_lt (- r) u) as [X|X]; [exact X|]. nra.
    - destruct (Rle_or_lt u r) as [X|X]; [exact X|]. nra. }
  pose proof (pow2_ge_0 a). pose proof (pow2_ge_0 b). pose proof (pow2_ge_0 c).
  assert (A := SQ a ltac:(lra)). assert (B := SQ b ltac:(lra)). assert (C := SQ c ltac:(lra)).
  assert (T : 0 <= s * t_hub t <= t_hub t) by nra.
  unfold a, b, c in A, B, C. lra.
Qed.

(** The correction is refused for a rotor disk whose type stands in its own section. *)
Theorem c100_fllc_disk : forall solver top sub label t,
  sec_ok (sub label) ->
  make_turbine solver top sub label = Ret ("TurbineFastDisk", t) ->
  s_str (sub label) "type" <> None -> t_fllc t = 0%Z.
Proof.
  intros solver top sub label t (_ & _ & _ & NS) H G. unfold make_turbine, actuator_type in H. cbn zeta in H.
  specialize (NS "type"). unfold pp_query at 1 3 in H.
  destruct (s_str (sub label) "type") as [[|y rest]|] eqn:O; [contradiction| |contradiction].
  destruct (String.eqb y ""); [discriminate|]. cbn [obind] in H.
  apply obind_ret in H. destruct H as [u [H E]]. injection E as -> ->.
  unfold read_turbine in H. cbn zeta in H.
  apply obind_ret in H; destruct H as [npb [_ H]].
  apply obind_ret in H; destruct H as [npt [_ H]].
  destruct (negb (mp_contains (s_real (sub "TurbineFastDisk")) (s_real (sub label)) "epsilon") &&
            negb (mp_contains (s_real (sub "TurbineFastDisk")) (s_real (sub label)) "epsilon_chord"))%bool; [discriminate|].
  apply obind_ret in H; destruct H as [e1 [_ H]].
  apply obind_ret in H; destruct H as [e2 [_ H]].
  apply obind_ret in H; destruct H as [e3 [_ H]].
  apply obind_ret in H; destruct H as [e4 [_ H]].
  apply obind_ret in H; destruct H as [bp [_ H]].
  apply obind_ret in H; destruct H as [dm [_ H]].
  apply obind_ret in H; destruct H as [hh [_ H]].
  apply obind_ret in H; destruct H as [nf [F H]].
  injection H as <-. cbn [t_fllc].
  destruct (mp_query (s_bool (sub "TurbineFastDisk")) (s_bool (sub label)) "fllc" false).
  - unfold mp_query, pp_query in F. rewrite O in F. cbn in F. discriminate.
  - injection F as <-. reflexivity.
Qed.

(** An example: a turbine with the options of its type and its own position. *)
Definition none {A} : sect A := fun _ => None.
Definition ex_int : sect Z := fun k =>
  if String.eqb k "num_points_blade" then Some [64%Z] else if String.eqb k "num_points_tower" then Some [12%Z] else None.
Definition ex_real : sect R := fun k =>
  if String.eqb k "epsilon" then Some [10; 5; 2] else if String.eqb k "rotor_diameter" then Some [126]
  else if String.eqb k "hub_height" then Some [90] else None.
Definition ex_own : sect R := fun k => if String.eqb k "base_position" then Some [500; 400; 0] else None.
Definition ex_dflt : section := Sec ex_int ex_real none none.
Definition ex_turb : section := Sec none ex_own none none.

Example c100_turbine_example :
  sec_ok ex_dflt /\ sec_ok ex_turb /\ all_eps ex_dflt ex_turb /\
  exists t, read_turbine "OpenFAST" 0 0 ex_dflt ex_turb = Ret t /\ t_eps t = V3 10 5 2 /\ t_blades t = 3%Z /\
    t_hub t = 90 /\ t_diam t = 126.
Proof.
  assert (N : forall A, @no_empty A none) by (intros A k; discriminate).
  split; [split; [|split; [|split; apply N]]|split; [split; [apply N|split; [|split; apply N]]|]].
  - intros k. cbn. unfold ex_int. destruct (String.eqb k "num_points_blade"); [discriminate|].
    destruct (String.eqb k "num_points_tower"); discriminate.
  - intros k. cbn. unfold ex_real. destruct (String.eqb k "epsilon"); [discriminate|].
    destruct (String.eqb k "rotor_diameter"); [discriminate|]. destruct (String.eqb k "hub_height"); discriminate.
  - intros k. cbn. unfold ex_own. destruct (String.eqb k "base_position"); discriminate.
  - split; [repeat split; intros d o _ O; discriminate O|].
    eexists. split; [reflexivity|]. repeat split; reflexivity.
Qed.

(** The same turbine with an own smearing of one number: 7 where the type says 10, 5 and 2. *)
Example c100_mixed_example : forall v,
  mp_query_either ex_real (fun k => if String.eqb k "epsilon" then Some [7] else None) "epsilon" v = Ret (V3 7 5 2) /\
  mp_get_either ex_real (fun k => if String.eqb k "epsilon" then Some [7] else None) "epsilon" = Ret (V3 7 7 7).
Proof. intros v. split; reflexivity. Qed.

Definition top_disk : section :=
  Sec none none none (fun k => if String.eqb k "type" then Some ["TurbineFastDisk"] else None).
Definition yes_fllc : sect bool := fun k => if String.eqb k "fllc" then Some [true] else None.
Definition ex_sub (s : string) : section :=
  if String.eqb s "TurbineFastDisk" then Sec ex_int ex_real yes_fllc none else ex_turb.

(** When the type of all turbines stands in the section of the actuators, which is where the program takes it from,
    the check does not see it: a rotor disk is made with the correction it is said not to work with. *)
Theorem c100_fllc_disk_refuted : exists t,
  make_turbine (fun _ => "OpenFAST") top_disk ex_sub "T1" = Ret ("TurbineFastDisk", t) /\ t_fllc t = 3%Z.
Proof. eexists. split; reflexivity. Qed.

Print Assumptions c100_scalar.
Print Assumptions c100_vector_get.
Print Assumptions c100_vector_query_partial.
Print Assumptions c100_mixed_refuted.
Print Assumptions c100_turbine_partial.
Print Assumptions c100_box.
Print Assumptions c100_fllc_disk.
Print Assumptions c100_fllc_disk_refuted.
