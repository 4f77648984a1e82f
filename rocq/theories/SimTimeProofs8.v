(** The initial step and the first step of a fresh adaptive run (C03). *)
From Verif Require Import BaseFacts SimTime SimTimeSpec SimTimeProofs SimTimeProofs2 SimTimeProofs3
  SimTimeProofs4 SimTimeProofs5 SimTimeProofs6.
Local Open Scope Q_scope.

Lemma adaptive_dt_le p c d e : adaptive_dt p c d = Some e -> e <= d
  /\ (k_init c = true -> 0 < p_initial_dt p -> e <= p_initial_dt p).
Proof.
  unfold adaptive_dt. intro H.
  set (d1 := if Qltb 0 (p_max_dt p) then qmin d (p_max_dt p) else d) in *.
  assert (L1 : d1 <= d) by (unfold d1; destruct (Qltb 0 (p_max_dt p)); [apply qmin_l|lra]).
  destruct (Qltb 0 (p_min_dt p) && Qltb d1 (p_min_dt p)); [discriminate|].
  set (d2 := if Qltb 0 (p_stop_time p) && Qltb (p_stop_time p) (k_cur c + d1) then _ else d1) in *.
  assert (L2 : d2 <= d1).
  { unfold d2. destruct (Qltb 0 (p_stop_time p) && Qltb (p_stop_time p) (k_cur c + d1)) eqn:E; [|lra]. qprop. lra. }
  assert (L3 := enforce_all_le p (k_cur c) d2).
  injection H as H. revert H.
  destruct (k_init c && Qltb 0 (p_initial_dt p)) eqn:E; intro H; subst e.
  - split; [|intros; apply qmin_r]. assert (X := qmin_l (enforce_all p (k_cur c) d2) (p_initial_dt p)). lra.
  - split; [lra|]. intros Hi Hp. rewrite Hi in E. cbn [andb] in E. qprop. lra.
Qed.

Lemma init_step sq p i c1 :
  inputs_ok p -> adaptive p = true -> p_delay_time p <= 0 ->
  set_current_cfl sq p (fresh_clock p) i = Ret c1 ->
  0 < k_dt0 c1 /\ k_dt0 c1 * qmax (cfl_unit sq i) eps <= 2 * p_cfl p * p_init_shrink p
  /\ (0 < p_initial_dt p -> k_dt0 c1 <= p_initial_dt p)
  /\ k_new c1 = 0 /\ k_idx c1 = 0%Z.
Proof.
  intros Hok Had Hdl H. unfold set_current_cfl in H.
  destruct (cfl_dt sq p (fresh_clock p) i) as [d|] eqn:Ec; [|discriminate]. rewrite Had in H.
  destruct (adaptive_dt p (fresh_clock p) d) as [e|] eqn:Ea; [|discriminate].
  assert (Dp : 0 < d) by (eapply cfl_dt_pos; eauto).
  assert (Ed : d <= 2 * p_cfl p / qmax (cfl_unit sq i) eps * p_init_shrink p).
  { unfold cfl_dt in Ec. cbn [k_init fresh_clock k_cur k_dt0 negb] in Ec.
    rewrite andb_false_r in Ec. cbn [andb] in Ec.
    injection Ec as <-. match goal with |- (if ?b then _ else _) <= _ => destruct b end; [apply qmin_l|lra]. }
  assert (Hdel : in_delay p (k_cur (fresh_clock p)) = false).
  { unfold in_delay. apply Qltb_false. cbn. assert (X := qmax_r (p_initial_dt p) 0). lra. }
  rewrite Hdel in H. injection H as <-. cbn [k_dt0 k_new k_idx fresh_clock].
  destruct (adaptive_dt_le _ _ _ _ Ea) as [L1 L2].
  destruct (adaptive_dt_props p (fresh_clock p) d e Hok Dp) as (P1 & _); [cbn; tauto| exact Ea |].
  split; [exact P1|]. split.
  - assert (Q0 : 0 < qmax (cfl_unit sq i) eps) by apply qmax_eps_pos.
    set (m := qmax (cfl_unit sq i) eps) in *.
    assert (X : e * m <= 2 * p_cfl p / m * p_init_shrink p * m) by (apply Qmult_le_compat_r; lra).
    assert (Y : 2 * p_cfl p / m * p_init_shrink p * m == 2 * p_cfl p * p_init_shrink p) by (field; lra). lra.
  - split; [intro Hp; apply L2; [reflexivity|exact Hp]|]. split; reflexivity.
Qed.

Lemma run_first_step sq p i0 inp s cf evs st rest :
  inputs_ok p -> adaptive p = true -> p_delay_time p <= 0 ->
  run_fresh sq p (Some i0) inp = (s, cf, evs) -> steps_of evs = st :: rest ->
  exists d, 0 < d /\ st_dt st <= (1 + p_growth p) * d
    /\ cfl_number sq i0 d <= p_init_shrink p * p_cfl p
    /\ (0 < p_initial_dt p -> d <= p_initial_dt p).
Proof.
  intros Hok Had Hdl Hr Hs.
  apply run_fresh_inv in Hr. destruct Hr as [(_ & ->)|(c1 & ev & evs' & H1 & H2 & -> & H4 & H5 & H6 & H7)]; [discriminate|].
  rewrite H7 in Hs. unfold initialise in H1.
  destruct (set_current_cfl sq p (fresh_clock p) i0) as [c| |] eqn:Es; cbn [obind] in H1; try discriminate.
  injection H1 as E _. subst c.
  destruct (init_step _ _ _ _ Hok Had Hdl Es) as (D1 & D2 & D3 & D4 & D5).
  exists (k_dt0 c1). split; [exact D1|]. split; [|split; [|exact D3]].
  - destruct (continue_simulation p c1) eqn:Hc.
    2:{ rewrite evolve_stop in H2 by exact Hc. injection H2 as _ _ <-. rewrite steps_final in Hs. discriminate. }
    destruct inp as [|i r]; [rewrite evolve_nil in H2 by exact Hc; injection H2 as _ _ <-; discriminate|].
    rewrite evolve_cons in H2 by exact Hc. cbv zeta in H2.
    destruct (evolve_body sq p (fresh_origin p) (snd (new_timestep p c1)) i) as [[c2 ev2]| |] eqn:Eb;
      try (injection H2 as _ _ <-; discriminate).
    destruct (evolve sq p (fresh_origin p) c2 r) as [[s' cf'] evs2] eqn:E2. injection H2 as _ _ <-.
    apply body_inv in Eb. destruct Eb as (c3 & B1 & -> & ->).
    set (cn := snd (new_timestep p c1)) in *.
    assert (Kd : k_dt0 cn = k_dt0 c1) by (unfold cn, new_timestep; rewrite Hc; reflexivity).
    assert (Kc : k_cur cn = k_new c1) by (unfold cn, new_timestep; rewrite Hc; reflexivity).
    unfold set_current_cfl in B1.
    destruct (cfl_dt sq p cn i) as [d|] eqn:Ec; [|discriminate]. rewrite Had in B1.
    destruct (adaptive_dt p cn d) as [e|] eqn:Ea; [|discriminate].
    assert (Hdel : in_delay p (k_cur cn) = false).
    { unfold in_delay. apply Qltb_false. rewrite Kc, D4. assert (X := qmax_r (p_initial_dt p) 0). lra. }
    rewrite Hdel in B1. injection B1 as <-.
    destruct (adaptive_dt_le _ _ _ _ Ea) as [L1 _].
    assert (Ed : d <= (1 + p_growth p) * k_dt0 c1).
    { unfold cfl_dt in Ec. rewrite Kd, Had in Ec.
      assert (Eb : Qltb 0 (k_dt0 c1) = true) by (apply Qltb_true; exact D1). rewrite Eb in Ec.
      match type of Ec with (if ?b then _ else _) = _ => destruct b end; [discriminate|].
      injection Ec as <-. apply qmin_r. }
    rewrite steps_of_app in Hs.
    destruct (do_regrid p (fresh_origin p) cn); cbn [ev_if app steps_of] in Hs; injection Hs as <- _; cbn [st_dt k_dt0 advance_time]; lra.
  - unfold cfl_number. set (cd := i_conv i0 + i_diff i0).
    assert (Eu : cfl_unit sq i0 = cd + sq (cd * cd + 4 * i_src i0)) by reflexivity. rewrite <- Eu.
    assert (M := qmax_l (cfl_unit sq i0) eps).
    assert (X : k_dt0 c1 * cfl_unit sq i0 <= k_dt0 c1 * qmax (cfl_unit sq i0) eps).
    { rewrite !(Qmult_comm (k_dt0 c1)). apply Qmult_le_compat_r; lra. }
    apply Qle_shift_div_r; lra.
Qed.
