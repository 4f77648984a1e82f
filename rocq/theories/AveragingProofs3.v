(** Averages at the level of the public inputs. *)
From Coq Require Import String.
From Verif Require Import BaseFacts Averaging SimTime SimTimeSpec SimTimeProofs5 AveragingSpec AveragingProofs AveragingProofs2.
Local Open Scope string_scope.
Local Open Scope list_scope.
Local Open Scope Q_scope.

Lemma rnth_repeat n j : (j < n)%nat -> rnth (repeat (Some 0) n) j = Some 0.
Proof. revert j; induction n; destruct j; simpl; intro H; try lia; auto. apply IHn. lia. Qed.

Lemma rnth_error l j v : (j < length l)%nat -> rnth l j = v -> nth_error l j = Some v.
Proof. intros H E. unfold rnth in E. rewrite <- E. apply nth_error_nth'. assumption. Qed.

Section One.
  Variables (ncomp : string -> option nat) (lbl : string) (es : list entry) (a : tavg) (p : avg_params)
            (t0 : Q) (cs smp : list call).
  Hypothesis Hset : setup ncomp lbl es = Ret a.
  Hypothesis Hdup : NoDup (requested es).
  Hypothesis Hi : ~ v_interval p == 0.
  Hypothesis Hcs : call_sequence t0 cs.
  Hypothesis Ht0 : t0 <= v_start p.
  Hypothesis Hsh : well_shaped ncomp cs.
  Hypothesis Hsm : sampled p cs smp.

  Lemma acc0 : ta_acc a = 0.
  Proof. apply (r_acc _ _ _ _ (setup_ready _ _ _ _ Hset Hdup)). Qed.
  Lemma smp_sched : map snd (sched p 0 cs) = smp.
  Proof. apply sched_sampled; [assumption| |assumption]. eapply call_sequence_dt; eauto. Qed.

  Lemma mean_scalar f n j : In ("ReAveraging", f) (requested es) -> ncomp f = Some n -> (j < n)%nat ->
    exists l, ta_store (averages p a cs) (avg_name f lbl) = Some l
      /\ nth_error l j = Some (scalar p (fun c => qnth (c_val c f) j) (sched p 0 cs) (Some 0))
      /\ rnth l j = scalar p (fun c => qnth (c_val c f) j) (sched p 0 cs) (Some 0).
  Proof.
    intros Hf Hn Hj. assert (R := setup_ready _ _ _ _ Hset Hdup).
    destruct (ready_facts _ _ _ _ R Hdup) as (F1 & F2 & F3 & F4 & F5).
    destruct (r_mean _ _ _ _ R f Hf) as (k & K1 & K2). assert (k = n) by congruence. subst k.
    destruct (mean_run lbl _ F1 F2 p f n j (F4 f Hf) Hj cs a _ eq_refl (fun c H => Hsh c f n H Hn) K2 (repeat_length _ _))
      as (v & E1 & E2 & E3).
    rewrite rnth_repeat, acc0 in E3 by assumption.
    exists v. split; [assumption|]. split; [|assumption]. apply rnth_error; [lia|assumption].
  Qed.

  Lemma stress_scalar mn m n : In ("ReynoldsStress", "velocity") (requested es) -> ncomp "velocity" = Some 3%nat ->
    In (mn, (m, n)) tensor -> sched p 0 cs <> [] ->
    exists l r, ta_store (averages p a cs) (stress_name "velocity" lbl) = Some l
      /\ ta_store (averages p a cs) (re_stress_name "velocity" lbl) = Some r
      /\ nth_error l mn = Some (scalar p (velprod m n) (sched p 0 cs) (Some 0))
      /\ nth_error r mn = Some (rsub (scalar p (velprod m n) (sched p 0 cs) (Some 0))
            (rmul (scalar p (fun c => qnth (c_val c "velocity") m) (sched p 0 cs) (Some 0))
                  (scalar p (fun c => qnth (c_val c "velocity") n) (sched p 0 cs) (Some 0)))).
  Proof.
    intros Hf Hn Hmn Hne. assert (R := setup_ready _ _ _ _ Hset Hdup).
    destruct (ready_facts _ _ _ _ R Hdup) as (F1 & F2 & F3 & F4 & F5).
    destruct (r_stress _ _ _ _ R Hf) as (K1 & K2).
    assert (Hm : In ("ReAveraging", "velocity") (requested es)).
    { apply in_split in Hf. destruct Hf as (q1 & q2 & E). assert (X := r_first _ _ _ _ R q1 q2 E).
      rewrite E. apply in_or_app. auto. }
    destruct (stress_run lbl _ F1 F2 F3 (F5 Hf) p mn m n Hmn cs a _ eq_refl (fun c H => Hsh c "velocity" 3%nat H Hn) K1 (repeat_length _ _))
      as (v & E1 & E2 & E3 & E4).
    assert (B : (mn < 6 /\ m < 3 /\ n < 3)%nat).
    { revert Hmn. unfold tensor. simpl. intro H. repeat (destruct H as [H|H]; [injection H as <- <- <-; lia|]). destruct H. }
    rewrite rnth_repeat, acc0 in E3 by lia. rewrite acc0 in E4.
    destruct (E4 Hne) as (rv & R1 & R2 & R3). cbv zeta in R3.
    destruct (mean_scalar "velocity" 3%nat m Hm Hn ltac:(lia)) as (mv & M1 & M2 & M3).
    destruct (mean_scalar "velocity" 3%nat n Hm Hn ltac:(lia)) as (mv' & M1' & M2' & M3').
    assert (mv' = mv) by congruence. subst mv'.
    unfold sget in R3. rewrite M1, M3, M3', E3 in R3.
    exists v, rv. split; [assumption|]. split; [assumption|].
    split; apply rnth_error; try lia; assumption.
  Qed.

  (** Nothing sampled: the averages are still the initial zero. *)
  Lemma mean_none f n j : In ("ReAveraging", f) (requested es) -> ncomp f = Some n -> (j < n)%nat ->
    smp = [] -> field_is (averages p a cs) (avg_name f lbl) j 0.
  Proof.
    intros Hf Hn Hj E. destruct (mean_scalar f n j Hf Hn Hj) as (l & E1 & E2 & _).
    assert (S : sched p 0 cs = []). { assert (X := smp_sched). rewrite E in X. destruct (sched p 0 cs); [reflexivity|discriminate]. }
    rewrite S in E2. exists l, 0. split; [assumption|]. split; [assumption|reflexivity].
  Qed.

  Lemma sched_nonempty : smp <> [] -> sched p 0 cs <> [].
  Proof. intros H E. apply H. rewrite <- smp_sched, E. reflexivity. Qed.

  Lemma map_smp {B} (g : call -> B) : map (fun e : Q * call => g (snd e)) (sched p 0 cs) = map g smp.
  Proof. rewrite <- smp_sched, map_map. reflexivity. Qed.

  (** Exact average. *)
  Lemma mean_average f n j : In ("ReAveraging", f) (requested es) -> ncomp f = Some n -> (j < n)%nat ->
    smp <> [] -> (forall c, In c smp -> c_t c - v_start p <= v_window p) ->
    exists v, field_is (averages p a cs) (avg_name f lbl) j v
      /\ v * (last (map c_t smp) 0 - v_start p)
         == integral (v_start p) (map (fun c => (c_t c, nth j (c_val c f) 0)) smp)
      /\ (forall c, smp = [c] -> v == nth j (c_val c f) 0).
  Proof.
    intros Hf Hn Hj Hne HW. destruct (mean_scalar f n j Hf Hn Hj) as (l & E1 & E2 & _).
    destruct (sched_run p cs t0 Hcs) as (prev & P1 & P2).
    destruct (mean_exact p (fun c => qnth (c_val c f) j) prev (sched p 0 cs) P2 ltac:(lra) (sched_nonempty Hne)) as (v & V1 & V2 & V3).
    { intros e He. apply HW. rewrite <- smp_sched. apply in_map. assumption. }
    exists v. split; [|split].
    - exists l, v. rewrite V1 in E2. split; [assumption|]. split; [assumption|reflexivity].
    - rewrite (map_smp c_t) in V2. rewrite V2. unfold stamped.
      rewrite (map_smp (fun c => (c_t c, qnth (c_val c f) j))). reflexivity.
    - intros c E. assert (X := smp_sched). rewrite E in X. destruct (sched p 0 cs) as [|e [|]] eqn:S; try discriminate.
      injection X as X. rewrite (V3 e eq_refl), X. reflexivity.
  Qed.

  Lemma dot_lin w k h (g1 g2 : call -> Q) l :
    dot w (map (fun c => k * g1 c + h * g2 c) l) == k * dot w (map g1 l) + h * dot w (map g2 l).
  Proof. revert w; induction l; destruct w; simpl; try ring. rewrite IHl. ring. Qed.

  Lemma dot_center w (g1 g2 : call -> Q) m1 m2 l : length w = length l ->
    dot w (map (fun c => (g1 c - m1) * (g2 c - m2)) l)
    == dot w (map (fun c => g1 c * g2 c) l) - m1 * dot w (map g2 l) - m2 * dot w (map g1 l) + m1 * m2 * total w.
  Proof. revert w; induction l; destruct w; simpl; intro H; try discriminate; [ring|]. rewrite IHl by (injection H; auto). ring. Qed.

  (** Common weights. *)
  Lemma common_weights : smp <> [] ->
    exists w, length w = length smp /\ Forall (Qle 0) w /\ total w == 1
    /\ (forall f n j, In ("ReAveraging", f) (requested es) -> ncomp f = Some n -> (j < n)%nat ->
          field_is (averages p a cs) (avg_name f lbl) j (dot w (values f j smp)))
    /\ (In ("ReynoldsStress", "velocity") (requested es) -> ncomp "velocity" = Some 3%nat ->
        forall mn m n, In (mn, (m, n)) tensor ->
          let u c := nth m (c_val c "velocity") 0 in
          let v c := nth n (c_val c "velocity") 0 in
          let um := dot w (map u smp) in
          let vm := dot w (map v smp) in
          field_is (averages p a cs) (stress_name "velocity" lbl) mn (dot w (map (fun c => u c * v c) smp))
          /\ field_is (averages p a cs) (re_stress_name "velocity" lbl) mn
               (dot w (map (fun c => (u c - um) * (v c - vm)) smp))).
  Proof.
    intro Hne. destruct (sched_run p cs t0 Hcs) as (prev & P1 & P2).
    destruct (weights p prev (sched p 0 cs) P2 ltac:(lra) (sched_nonempty Hne)) as (w & W1 & W2 & W3 & W4).
    exists w. split; [rewrite W1, <- smp_sched, map_length; reflexivity|]. split; [assumption|]. split; [assumption|].
    split.
    - intros f n j Hf Hn Hj. destruct (mean_scalar f n j Hf Hn Hj) as (l & E1 & E2 & _).
      destruct (W4 (fun c => qnth (c_val c f) j)) as (v & V1 & V2). rewrite V1 in E2.
      exists l, v. split; [assumption|]. split; [assumption|].
      rewrite V2, (map_smp (fun c => qnth (c_val c f) j)). reflexivity.
    - intros Hf Hn mn m n Hmn u v um vm.
      destruct (stress_scalar mn m n Hf Hn Hmn (sched_nonempty Hne)) as (l & r & E1 & E2 & E3 & E4).
      destruct (W4 (velprod m n)) as (x & X1 & X2).
      destruct (W4 (fun c => qnth (c_val c "velocity") m)) as (y & Y1 & Y2).
      destruct (W4 (fun c => qnth (c_val c "velocity") n)) as (z & Z1 & Z2).
      rewrite X1 in E3. rewrite X1, Y1, Z1 in E4. cbn [rsub rmul] in E4.
      rewrite (map_smp (velprod m n)) in X2.
      rewrite (map_smp (fun c => qnth (c_val c "velocity") m)) in Y2.
      rewrite (map_smp (fun c => qnth (c_val c "velocity") n)) in Z2.
      split.
      + exists l, x. auto.
      + exists r, (x - y * z). split; [assumption|]. split; [assumption|].
        rewrite (dot_center w u v um vm smp) by (rewrite W1, <- smp_sched, map_length; reflexivity).
        rewrite W3, X2, Y2, Z2.
        change (dot w (map (fun c => u c * v c) smp)) with (dot w (map (velprod m n) smp)).
        change (dot w (map (fun c => qnth (c_val c "velocity") m) smp)) with um.
        change (dot w (map (fun c => qnth (c_val c "velocity") n) smp)) with vm.
        change (dot w (map v smp)) with vm. change (dot w (map u smp)) with um. ring.
  Qed.

  Lemma dot_bounds w xs lo hi : length w = length xs -> Forall (Qle 0) w ->
    Forall (fun x => lo <= x /\ x <= hi) xs -> lo * total w <= dot w xs /\ dot w xs <= hi * total w.
  Proof.
    revert xs; induction w as [|y w IH]; destruct xs as [|x xs]; simpl; intros L N B; try discriminate.
    - split; ring_simplify; lra.
    - inversion N; inversion B; subst. destruct (IH xs) as [I1 I2]; auto.
      assert (A1 := Qmult_le_0_compat y (x - lo)). assert (A2 := Qmult_le_0_compat y (hi - x)).
      destruct H5. split; lra.
  Qed.

  Lemma mean_within f n j lo hi v : In ("ReAveraging", f) (requested es) -> ncomp f = Some n -> (j < n)%nat ->
    smp <> [] -> (forall c, In c smp -> lo <= nth j (c_val c f) 0 /\ nth j (c_val c f) 0 <= hi) ->
    field_is (averages p a cs) (avg_name f lbl) j v -> lo <= v /\ v <= hi.
  Proof.
    intros Hf Hn Hj Hne HB (l & x & E1 & E2 & E3).
    destruct (common_weights Hne) as (w & W1 & W2 & W3 & W4 & _).
    destruct (W4 f n j Hf Hn Hj) as (l' & x' & E1' & E2' & E3').
    assert (x = x') by congruence. subst x'.
    destruct (dot_bounds w (values f j smp) lo hi) as [B1 B2].
    - unfold values. rewrite map_length. assumption.
    - assumption.
    - unfold values. apply Forall_map, Forall_forall. assumption.
    - rewrite W3 in B1, B2. rewrite <- E3, E3'. split; lra.
  Qed.

  Lemma dot_sq_nonneg w xs : Forall (Qle 0) w -> 0 <= dot w (map (fun x => x * x) xs).
  Proof.
    revert w; induction xs as [|x xs IH]; destruct w as [|y w]; simpl; intro N; try lra.
    inversion N; subst. assert (A := IH w H2).
    assert (S : 0 <= x * x) by (destruct (Qlt_le_dec x 0); [assert (Z := Qmult_le_0_compat (-x) (-x)); lra|apply Qmult_le_0_compat; assumption]).
    assert (B := Qmult_le_0_compat y (x * x)). lra.
  Qed.

  Lemma dot_compat w (g1 g2 : call -> Q) l : (forall c, g1 c == g2 c) -> dot w (map g1 l) == dot w (map g2 l).
  Proof. intro H. revert w; induction l; destruct w; simpl; try reflexivity. rewrite IHl, H. reflexivity. Qed.

  (** Cauchy-Schwarz for weighted sums. *)
  Lemma dot_cs w (g1 g2 : call -> Q) l : Forall (Qle 0) w ->
    dot w (map (fun c => g1 c * g2 c) l) * dot w (map (fun c => g1 c * g2 c) l)
    <= dot w (map (fun c => g1 c * g1 c) l) * dot w (map (fun c => g2 c * g2 c) l).
  Proof.
    intro N.
    set (A := dot w (map (fun c => g1 c * g1 c) l)). set (B := dot w (map (fun c => g1 c * g2 c) l)).
    set (C := dot w (map (fun c => g2 c * g2 c) l)).
    assert (Q0 : forall k h, 0 <= k * k * A + 2 * k * h * B + h * h * C).
    { intros k h.
      assert (X := dot_sq_nonneg w (map (fun c => k * g1 c + h * g2 c) l) N). rewrite map_map in X.
      assert (E : dot w (map (fun c => (k * g1 c + h * g2 c) * (k * g1 c + h * g2 c)) l)
                  == k * k * A + 2 * k * h * B + h * h * C).
      { unfold A, B, C. clear. revert w; induction l; destruct w; simpl; try ring. rewrite IHl. ring. }
      lra. }
    assert (A0 : 0 <= A). { assert (X := Q0 1 0). lra. }
    assert (C0 : 0 <= C). { assert (X := Q0 0 1). lra. }
    destruct (Qlt_le_dec 0 A) as [PA|NA].
    - (* k = -B, h = A : A(AC - B^2) >= 0 *)
      assert (X := Q0 (- B) A).
      assert (Y : 0 <= A * (A * C - B * B)) by lra.
      destruct (Qlt_le_dec (A * C) (B * B)) as [Z|Z]; [|assumption].
      assert (Z2 := Qmult_lt_0_compat A (B * B - A * C) PA). lra.
    - assert (A == 0) by lra.
      (* then B = 0 *)
      assert (X := Q0 (- (1 + C) * B) 1).
      assert (Y := Q0 1 1). 
      assert (E : (- (1 + C) * B) * (- (1 + C) * B) * A + 2 * (- (1 + C) * B) * 1 * B + 1 * 1 * C
                  == C - 2 * (1 + C) * (B * B)) by (rewrite H; ring).
      rewrite E in X.
      assert (X2 := Q0 (- (1 + C) * B * (1 + C)) 1).
      destruct (Qeq_dec (B * B) 0) as [EB|NB].
      + rewrite EB, H. ring_simplify. lra.
      + exfalso.
        assert (SB : 0 < B * B).
        { destruct (Qlt_le_dec B 0); [assert (Z := Qmult_le_0_compat (-B) (-B))|assert (Z := Qmult_le_0_compat B B)];
            (destruct (Qlt_le_dec 0 (B * B)); [assumption|exfalso; apply NB; lra]). }
        assert (X3 := Q0 (- (1 + C) / (B * B) * B) 1).
        assert (E3 : - (1 + C) / (B * B) * B * (- (1 + C) / (B * B) * B) * A + 2 * (- (1 + C) / (B * B) * B) * 1 * B + 1 * 1 * C
                  == C - 2 * (1 + C)).
        { rewrite H. field. intro K; apply NB; rewrite K; ring. }
        rewrite E3 in X3. lra.
  Qed.

  Lemma reynolds_realizable mi mj mij m n vi vj vij : smp <> [] ->
    In ("ReynoldsStress", "velocity") (requested es) -> ncomp "velocity" = Some 3%nat ->
    In (mi, (m, m)) tensor -> In (mj, (n, n)) tensor -> In (mij, (m, n)) tensor ->
    field_is (averages p a cs) (re_stress_name "velocity" lbl) mi vi ->
    field_is (averages p a cs) (re_stress_name "velocity" lbl) mj vj ->
    field_is (averages p a cs) (re_stress_name "velocity" lbl) mij vij ->
    0 <= vi /\ 0 <= vj /\ vij * vij <= vi * vj.
  Proof.
    intros Hne Hf Hn H1 H2 H3 (l1 & x1 & A1 & B1 & C1) (l2 & x2 & A2 & B2 & C2) (l3 & x3 & A3 & B3 & C3).
    destruct (common_weights Hne) as (w & W1 & W2 & W3 & _ & W4).
    destruct (W4 Hf Hn _ _ _ H1) as (_ & l1' & x1' & A1' & B1' & C1').
    destruct (W4 Hf Hn _ _ _ H2) as (_ & l2' & x2' & A2' & B2' & C2').
    destruct (W4 Hf Hn _ _ _ H3) as (_ & l3' & x3' & A3' & B3' & C3').
    assert (x1 = x1') by congruence. assert (x2 = x2') by congruence. assert (x3 = x3') by congruence. subst x1' x2' x3'.
    cbv beta in C1', C2', C3'.
    set (um := dot w (map (fun c => nth m (c_val c "velocity") 0) smp)) in *.
    set (vm := dot w (map (fun c => nth n (c_val c "velocity") 0) smp)) in *.
    assert (S1 := dot_sq_nonneg w (map (fun c => nth m (c_val c "velocity") 0 - um) smp) W2). rewrite map_map in S1.
    assert (S2 := dot_sq_nonneg w (map (fun c => nth n (c_val c "velocity") 0 - vm) smp) W2). rewrite map_map in S2.
    assert (S3 := dot_cs w (fun c => nth m (c_val c "velocity") 0 - um) (fun c => nth n (c_val c "velocity") 0 - vm) smp W2).
    cbv beta in S3. rewrite <- C1', <- C2', <- C3', C1, C2, C3 in S3. rewrite <- C1', C1 in S1. rewrite <- C2', C2 in S2.
    split; [assumption|]. split; assumption.
  Qed.
End One.

(** Calls of a fixed-step run. *)
Lemma map_combine_steps flow : forall (l : list step) k t idx, chained idx t l -> Forall (fun st => 0 < st_dt st) l ->
  steps_from t (map (fun '(n, s) => {| c_t := st_t1 s; c_dt := st_dt s; c_val := flow (S n) |})
                  (combine (seq k (length l)) l)).
Proof.
  induction l as [|s r IH]; intros k t idx H F; simpl; [exact Logic.I|].
  destruct H as (_ & H1 & H2 & H3). inversion F; subst.
  split; [assumption|]. split; [rewrite H2, H1; reflexivity|]. eapply IH; eauto.
Qed.

Lemma fixed_calls sq p idx t inp s cf evs c0 flow :
  adaptive p = false -> p_delay_time p <= t -> is_run sq p idx t inp (s, cf, evs) ->
  k_new c0 == t -> k_dt0 c0 = p_fixed_dt p -> call_sequence t (run_calls c0 evs flow).
Proof.
  intros Ha Hd Hr E1 E2.
  destruct (SimTimeProofs5.run_time_fixed _ _ _ _ _ _ _ _ Ha Hd Hr) as (C & F & _).
  assert (Hf : 0 < p_fixed_dt p). { unfold adaptive in Ha. apply negb_false_iff in Ha. qprop. exact Ha. }
  unfold run_calls. cbn [call_sequence c_t c_dt]. split; [assumption|]. split; [rewrite E2; assumption|].
  assert (G : forall u, u == t -> chained idx u (steps_of evs)).
  { intros u Eu. destruct (steps_of evs); [exact Logic.I|]. cbn in *. destruct C as (A & B & D). rewrite Eu. auto. }
  eapply map_combine_steps; [apply G; exact E1|]. eapply Forall_impl; [|exact F]. cbn. intros x [E _]. rewrite E. exact Hf.
Qed.

Lemma scalar_none p g l : scalar p g l None = None.
Proof.
  unfold scalar. induction l as [|e r IH]; [reflexivity|]. cbn [fold_left]. unfold upd at 2, update.
  destruct (Qeq_bool _ _); exact IH.
Qed.

Lemma adaptive_start ncomp lbl es a p q evs flow f n j :
  setup ncomp lbl es = Ret a -> NoDup (requested es) ->
  In ("ReAveraging", f) (requested es) -> ncomp f = Some n -> (j < n)%nat ->
  adaptive q = true -> v_start p == 0 -> 0 < v_stop p -> v_interval p < 0 -> 0 <= v_window p ->
  well_shaped ncomp (run_calls (fresh_clock q) evs flow) ->
  exists l, ta_store (averages p a (run_calls (fresh_clock q) evs flow)) (avg_name f lbl) = Some l
            /\ nth_error l j = Some None.
Proof.
  intros Hset Hdup Hf Hn Hj Ha H1 H2 H3 H4 Hsh.
  destruct (mean_scalar ncomp lbl es a p _ Hset Hdup Hsh f n j Hf Hn Hj) as (l & E1 & E2 & _).
  exists l. split; [assumption|]. rewrite E2. f_equal.
  unfold run_calls. cbn [sched c_t c_dt].
  assert (K : k_dt0 (fresh_clock q) = (-1 # 1)).
  { unfold fresh_clock. cbn. unfold adaptive in Ha. apply negb_true_iff in Ha. rewrite Ha. reflexivity. }
  assert (D : do_avg p (k_new (fresh_clock q)) (k_dt0 (fresh_clock q)) = true).
  { unfold do_avg. cbn [fresh_clock k_new]. apply andb_true_iff. split.
    - apply andb_true_iff. split; [apply Qleb_true; lra|apply Qltb_true; lra].
    - apply orb_true_iff. left. apply Qltb_true. assumption. }
  rewrite D. unfold scalar. cbn [fold_left]. unfold upd at 2. cbn [fst snd c_t c_val].
  unfold update. rewrite K. cbn [fresh_clock k_new].
  assert (F : Qeq_bool (filter_of (v_window p) (0 + (-1 # 1)) (0 - v_start p)) 0 = true).
  { apply Qeq_bool_iff. unfold filter_of, qmax, qmin. destruct (Qltb (0 - v_start p) (v_window p)) eqn:E.
    - destruct (Qltb (0 - v_start p) (0 + (-1 # 1))) eqn:E'; qprop; lra.
    - qprop. destruct (Qltb (v_window p) (0 + (-1 # 1))) eqn:E'; qprop; lra. }
  rewrite F. apply scalar_none.
Qed.

Lemma skipped_call p a c : ~ v_interval p == 0 -> 0 < c_dt c -> ~ due p (c_t c) (c_dt c) ->
  ta_store (post_advance p a c) = ta_store a.
Proof.
  intros Hi Hd H. unfold post_advance. destruct (do_avg p (c_t c) (c_dt c)) eqn:D; [|reflexivity].
  apply do_avg_due in D; [contradiction|assumption|assumption].
Qed.
