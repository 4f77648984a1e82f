(** C09-C13: the field repository. *)
From Coq Require Import String.
From Verif Require Import BaseFacts FieldRepo FieldRepoSpec FieldRepoProofs FieldRepoProofs2 FieldRepoProofs3 FieldRepoProofs4 FieldRepoProofs5.
Local Open Scope string_scope.
Local Open Scope list_scope.
Local Open Scope Q_scope.

(** *** C09 *)
(** Whatever history led here, a field found under a name was declared under that
    name (the declaration below is the first one of that name), has data with the
    declared location, components and ghost cells on the boxes of every active level,
    and no level beyond the active ones carries data. *)
Theorem c09_data_on_active_levels : forall os r name s fid,
  reach empty_repo os r -> is_valid_field_name name = true -> get_field r name s = Ret fid ->
  exists pre ncomp ngrow nstates loc post, os = pre ++ ODeclare name ncomp ngrow nstates loc :: post
    /\ (forall r0, reach empty_repo pre r0 -> field_exists r0 name NP1 = false)
    /\ (forall lev, (lev < m_nlev (r_mesh r))%nat -> exists m, get_multifab r fid lev = Ret m
          /\ layout m = (m_ba (r_mesh r) lev, m_dm (r_mesh r) lev, loc, ncomp, ngrow))
    /\ (forall lev, (m_nlev (r_mesh r) <= lev)%nat -> r_levels r lev = None).
Proof. exact lookup_layout. Qed.

(** The same for every handle: all registered fields have data. *)
Theorem c09_every_handle : forall os r fid lev,
  reach empty_repo os r -> handle r fid -> (lev < m_nlev (r_mesh r))%nat ->
  exists f m, nth_error (r_fields r) fid = Some f /\ get_multifab r fid lev = Ret m
    /\ layout m = (m_ba (r_mesh r) lev, m_dm (r_mesh r) lev, i_loc (info_of r f), i_ncomp (info_of r f), i_ngrow (info_of r f)).
Proof.
  intros os r fid lev R H Hl. assert (C := wf_core r (reach_empty _ _ R)).
  destruct (core_val r fid lev C H Hl) as (f & l & m & A1 & A2 & A3 & A4). exists f, m. split; [assumption|].
  split; [unfold get_multifab; rewrite A2, A3; reflexivity|exact A4].
Qed.

(** Different fields or states have different handles. *)
Theorem c09_handles_distinct : forall os r n1 s1 n2 s2 fid,
  reach empty_repo os r -> is_valid_field_name n1 = true -> is_valid_field_name n2 = true ->
  get_field r n1 s1 = Ret fid -> get_field r n2 s2 = Ret fid -> n1 = n2 /\ s1 = s2.
Proof. intros os r n1 s1 n2 s2 fid R. exact (lookup_inj r n1 s1 n2 s2 fid (reach_empty _ _ R)). Qed.

(** A handle stays that of its field. *)
Theorem c09_handles_stay : forall os r name s fid os' r',
  reach empty_repo os r -> get_field r name s = Ret fid -> reach r os' r' -> get_field r' name s = Ret fid.
Proof.
  intros os r name s fid os' r' R G R'. assert (W := reach_empty _ _ R). destruct (reach_wf _ _ _ R' W) as (W' & L).
  exact (later_get r r' name s fid (wf_core r W) (wf_core r' W') L G).
Qed.

(** Writing through a handle is seen through it and changes no other data. *)
Theorem c09_write_isolated : forall os r fid lev v,
  reach empty_repo os r -> handle r fid -> (lev < m_nlev (r_mesh r))%nat ->
  exists r', exec r (OWrite fid lev v) = Ret r' /\ at_level r' fid lev v
    /\ forall g l, g <> fid \/ l <> lev -> forall w, at_level r g l w <-> at_level r' g l w.
Proof. intros os r fid lev v R. exact (write_spec r fid lev v (reach_empty _ _ R)). Qed.

(** No allowed call dereferences data that is not there. *)
Theorem c09_defined : forall os r o, reach empty_repo os r -> allowed r o -> exec r o <> UB.
Proof.
  intros os r o R A E. destruct (exec_ok r o (reach_empty _ _ R) A) as [H|(r' & H & _)]; congruence.
Qed.

(** *** C10 *)
(** A new, valid declaration gives [nstates] states, all zero on all levels, leaves
    the other fields alone and makes no further state. *)
Theorem c10_fresh : forall os r name ncomp ngrow nstates loc,
  reach empty_repo os r -> field_exists r name NP1 = false -> (1 <= nstates <= 3)%Z -> is_valid_field_name name = true ->
  exists fid r', declare_field r name ncomp ngrow nstates loc = Ret (fid, r')
    /\ get_field r' name NP1 = Ret fid /\ num_states r' name nstates
    /\ (forall j, (j < Z.to_nat nstates)%nat -> exists g, get_field r' name (fstate_of j) = Ret g /\ (length (r_fields r) <= g)%nat
           /\ forall lev, (lev < m_nlev (r_mesh r'))%nat -> at_level r' g lev zero)
    /\ (forall s, (forall j, (j < Z.to_nat nstates)%nat -> s <> fstate_of j) -> field_exists r' name s = false)
    /\ (forall g lev, (g < length (r_fields r))%nat -> get_multifab r' g lev = get_multifab r g lev).
Proof. intros os r name ncomp ngrow nstates loc R. exact (declare_fresh r name ncomp ngrow nstates loc (reach_empty _ _ R)). Qed.

(** After a declaration, whatever happens in between, declaring the name again with
    the same components, states and location returns the same field and changes
    nothing; with any other it aborts. *)
Theorem c10_redeclare : forall os r name ncomp ngrow nstates loc fid r1 os' r2 ngrow',
  reach empty_repo os r -> (1 <= nstates)%Z -> declare_field r name ncomp ngrow nstates loc = Ret (fid, r1) -> reach r1 os' r2 ->
  declare_field r2 name ncomp ngrow' nstates loc = Ret (fid, r2)
  /\ forall ncomp' nstates' loc', (ncomp', nstates', loc') <> (ncomp, nstates, loc) ->
       declare_field r2 name ncomp' ngrow' nstates' loc' = Abort.
Proof.
  intros os r name ncomp ngrow nstates loc fid r1 os' r2 ngrow' R Hn D R'. assert (W := reach_empty _ _ R). split.
  - rewrite (redeclare r name ncomp ngrow nstates loc fid r1 os' r2 ncomp ngrow' nstates loc W Hn D R').
    rewrite Nat.eqb_refl, Z.eqb_refl. destruct loc; reflexivity.
  - intros nc ns lc H. rewrite (redeclare r name ncomp ngrow nstates loc fid r1 os' r2 nc ngrow' ns lc W Hn D R').
    destruct (Nat.eqb_spec nc ncomp); [|reflexivity]. destruct (Z.eqb_spec nstates ns); [|reflexivity].
    destruct (floc_eqb_spec lc loc); [|reflexivity]. exfalso. congruence.
Qed.

(** A new declaration with too many states, or with a reserved name, aborts. *)
Theorem c10_rejects : forall r name ncomp ngrow nstates loc,
  field_exists r name NP1 = false -> (3 < nstates)%Z \/ is_valid_field_name name = false ->
  declare_field r name ncomp ngrow nstates loc = Abort.
Proof. exact declare_rejects. Qed.

Definition vel2 : list op := [ODeclare "velocity" 3 1 2 CELL].
Definition after (os : list op) : repo := repo_of (run empty_repo os).

(** A reserved name is accepted when it is that of an existing old state: the caller
    gets the old state of another field instead of an abort. *)
Theorem c10_reserved_name_refuted : exists os r fid r',
  reach empty_repo os r /\ is_valid_field_name "velocity__FS_Old" = false
  /\ declare_field r "velocity__FS_Old" 3 1 2 CELL = Ret (fid, r')
  /\ get_field r "velocity" N = Ret fid.
Proof.
  exists vel2, (after vel2), 1%nat, (after vel2).
  split; [apply checkb_ok; vm_compute; reflexivity|]. split; [reflexivity|]. split; vm_compute; reflexivity.
Qed.

(** A declaration with no states returns the handle of another field. *)
Theorem c10_zero_states_refuted : exists os r r',
  reach empty_repo os r /\ field_exists r "density" NP1 = false
  /\ declare_field r "density" 1 1 0 CELL = Ret (0%nat, r')
  /\ get_field r "velocity" NP1 = Ret 0%nat /\ get_field r' "density" NP1 = Ret 0%nat.
Proof.
  exists vel2, (after vel2). eexists. split; [apply checkb_ok; vm_compute; reflexivity|].
  split; [vm_compute; reflexivity|]. split; [vm_compute; reflexivity|]. split; vm_compute; reflexivity.
Qed.

(** The number of ghost cells is not compared: the second caller gets fewer than it
    asked for. *)
Theorem c10_ghost_cells_refuted : exists os r fid r' f,
  reach empty_repo os r /\ declare_field r "velocity" 3 4 2 CELL = Ret (fid, r')
  /\ nth_error (r_fields r') fid = Some f /\ i_ngrow (info_of r' f) = 1%nat.
Proof.
  exists vel2, (after vel2), 0%nat, (after vel2). eexists. split; [apply checkb_ok; vm_compute; reflexivity|].
  split; [vm_compute; reflexivity|]. split; vm_compute; reflexivity.
Qed.

(** *** C11 *)
(** One advance: on every active level the newest state is unchanged, the old state
    is the newest as it was, the one before is the old as it was; states that do not
    take part keep their values. *)
Theorem c11_advance : forall os r name n lev,
  reach empty_repo os r -> is_valid_field_name name = true -> num_states r name n -> (lev < m_nlev (r_mesh r))%nat ->
  exists r', exec r OAdvance = Ret r'
    /\ values r' name NP1 lev = values r name NP1 lev
    /\ ((2 <= n)%Z -> values r' name N lev = values r name NP1 lev)
    /\ ((3 <= n)%Z -> values r' name NM1 lev = values r name N lev)
    /\ ((n < 2)%Z -> values r' name N lev = values r name N lev)
    /\ ((n < 3)%Z -> values r' name NM1 lev = values r name NM1 lev)
    /\ values r' name NPH lev = values r name NPH lev
    /\ values r' name NMH lev = values r name NMH lev
    /\ (forall j, (j < Z.to_nat n)%nat -> exists v, values r name (fstate_of j) lev = Ret v).
Proof.
  intros os r name n lev R Hv Hn Hl. destruct (advance_values r name n lev (reach_empty _ _ R) Hv Hn Hl) as (r' & E & A1 & A2 & A3 & A4).
  exists r'. split; [assumption|]. split; [apply (A1 NP1); reflexivity|].
  split. { intro H. rewrite (A2 N) by (apply (A4 1%nat); lia). cbn. destruct (Z.leb_spec 2 n); [reflexivity|lia]. }
  split. { intro H. rewrite (A2 NM1) by (apply (A4 2%nat); lia). cbn. destruct (Z.leb_spec 3 n); [reflexivity|lia]. }
  split. { intro H. apply (A1 N). cbn. destruct (Z.leb_spec 2 n); [lia|reflexivity]. }
  split. { intro H. apply (A1 NM1). cbn. destruct (Z.leb_spec 3 n); [lia|reflexivity]. }
  split; [apply (A1 NPH); reflexivity|]. split; [apply (A1 NMH); reflexivity|].
  intros j Hj. apply A3. apply A4. assumption.
Qed.

(** Since the last advance: the old state holds what was newest at it, whatever was
    done in between that does not address the old state itself or rebuild the level. *)
Theorem c11_old_state : forall os r r1 seg r2 name n lev,
  reach empty_repo os r -> is_valid_field_name name = true -> num_states r name n -> (2 <= n)%Z -> (lev < m_nlev (r_mesh r))%nat ->
  exec r OAdvance = Ret r1 -> reach r1 seg r2 -> undisturbed name N lev r1 seg ->
  values r2 name N lev = values r name NP1 lev /\ exists v, values r name NP1 lev = Ret v.
Proof. intros os r r1 seg r2 name n lev R. exact (old_state_since r r1 seg r2 name n lev (reach_empty _ _ R)). Qed.

(** Copying one state of a field into another: afterwards, on every active level,
    the destination holds what the source held, and no other data changed. *)
Theorem c11_copy_state : forall os r fid to from gt gf,
  reach empty_repo os r -> state_of r fid to = Ret gt -> state_of r fid from = Ret gf ->
  exists r', exec r (OCopyState fid to from) = Ret r'
    /\ (forall lev, (lev < m_nlev (r_mesh r))%nat -> exists v, at_level r gf lev v /\ at_level r' gt lev v)
    /\ (forall g lev w, g <> gt -> (at_level r g lev w <-> at_level r' g lev w)).
Proof.
  intros os r fid to from gt gf R Et Ef. assert (C := wf_core r (reach_empty _ _ R)).
  destruct (copy_levels_spec (m_nlev (r_mesh r)) r gt gf C) as (r1 & E1 & S & _ & V);
    [eapply state_of_lt; eauto|eapply state_of_lt; eauto|lia|].
  exists r1. split; [cbn [exec]; unfold copy_state; rewrite Et, Ef; exact E1|]. split.
  - intros lev L. destruct (val_ok r gf lev C) as (v & Hv); [eapply state_of_lt; eauto|assumption|].
    exists v. split; [apply at_val; assumption|]. apply at_val. rewrite V, Nat.eqb_refl.
    rewrite (proj2 (Nat.ltb_lt lev _) L). exact Hv.
  - intros g lev w N. rewrite !at_val, V. destruct (Nat.eqb_spec g gt); [contradiction|]. reflexivity.
Qed.
Print Assumptions c11_copy_state.

(** Two advances ago. *)
Theorem c11_older_state : forall os r r1 seg r2 r3 seg2 r4 name n lev,
  reach empty_repo os r -> is_valid_field_name name = true -> num_states r name n -> (3 <= n)%Z -> (lev < m_nlev (r_mesh r))%nat ->
  exec r OAdvance = Ret r1 -> reach r1 seg r2 -> undisturbed name N lev r1 seg ->
  exec r2 OAdvance = Ret r3 -> reach r3 seg2 r4 -> undisturbed name NM1 lev r3 seg2 ->
  values r4 name NM1 lev = values r name NP1 lev.
Proof. intros os r r1 seg r2 r3 seg2 r4 name n lev R. exact (nm1_state_since r r1 seg r2 r3 seg2 r4 name n lev (reach_empty _ _ R)). Qed.

(** *** C12 *)
(** After any sequence of conversions the flag says the last space asked for; when it
    is the one the field started in, the values are the original ones, otherwise they
    are the original ones scaled exactly once; no other field changes. *)
Theorem c12_conversions : forall os r fid f fac det lev vf vd v bs r',
  reach empty_repo os r -> nth_error (r_fields r) fid = Some f -> mapped_by r fid fac det ->
  at_level r fac lev vf -> at_level r det lev vd ->
  (forall pt c, (c < num_comp r fid)%nat -> ~ vf pt c == 0) -> (forall pt, ~ vd pt 0%nat == 0) ->
  at_level r fid lev v -> reach r (conversions fid bs) r' ->
  exists v', at_level r' fid lev v'
    /\ (forall b, last (map Some bs) None = Some b -> in_uniform r' fid = Some b)
    /\ (in_uniform r' fid = in_uniform r fid -> forall pt c, v' pt c == v pt c)
    /\ (in_uniform r fid = Some false -> in_uniform r' fid = Some true -> forall pt c, (c < num_comp r fid)%nat ->
          v' pt c == v pt c * (vd pt 0%nat / vf pt c))
    /\ (in_uniform r fid = Some true -> in_uniform r' fid = Some false -> forall pt c, (c < num_comp r fid)%nat ->
          v' pt c == v pt c * (vf pt c / vd pt 0%nat))
    /\ (forall g l w, g <> fid -> (at_level r' g l w <-> at_level r g l w)).
Proof.
  intros os r fid f fac det lev vf vd v bs r' R Hf MB Af Ad Nf Nd Av R'.
  destruct (conversions_spec fac det lev vf vd bs r r' fid f v (reach_empty _ _ R) R' Hf MB Af Ad Nf Nd Av) as (f' & v' & B1 & B2 & B3 & B4 & B5 & B6 & B7).
  exists v'. unfold in_uniform. rewrite B1, Hf. cbn [option_map]. split; [assumption|].
  split. { intros b Hb. f_equal. auto. }
  split. { intro H. apply B5. congruence. }
  split. { intros H1 H2 pt c Hc. injection H1 as H1. injection H2 as H2. rewrite H1, H2 in B6. rewrite (B6 eq_refl pt c). unfold scaled.
           destruct (Nat.ltb_spec c (num_comp r fid)); [reflexivity|lia]. }
  split; [|assumption]. intros H1 H2 pt c Hc. injection H1 as H1. injection H2 as H2. rewrite H1, H2 in B6. rewrite (B6 eq_refl pt c). unfold scaled.
  destruct (Nat.ltb_spec c (num_comp r fid)); [reflexivity|lia].
Qed.

(** Fields that are not vectors cannot be converted. *)
Theorem c12_scalars_abort : forall r fid f b, nth_error (r_fields r) fid = Some f -> (i_ncomp (info_of r f) < 3)%nat ->
  to_space b r fid = Abort.
Proof. intros r fid f b Hf H. unfold to_space. rewrite Hf. apply Nat.ltb_lt in H. rewrite H. reflexivity. Qed.

Definition two : data := fun _ _ => 2.
Definition one : data := fun _ _ => 1.
(** Mapping factor 2, determinant 1, velocity 1, one level. *)
Definition mapped (nc : nat) : list op :=
  [ODeclare "mesh_scaling_factor_cc" 3 1 1 CELL; ODeclare "mesh_scaling_detJ_cc" 1 1 1 CELL;
   ODeclare "velocity" nc 1 2 CELL; OScratch 0 7 8; OWrite 0 0 two; OWrite 1 0 one; OWrite 2 0 one].

(** A field with more components than the mapping factor reads past its end. *)
Theorem c12_many_components_refuted : exists os r fid f, reach empty_repo os r /\ nth_error (r_fields r) fid = Some f
  /\ i_ncomp (info_of r f) = 4%nat /\ to_uniform_space r fid = UB.
Proof.
  exists (mapped 4), (after (mapped 4)), 2%nat. eexists. split; [apply checkb_ok; vm_compute; reflexivity|].
  split; [vm_compute; reflexivity|]. split; vm_compute; reflexivity.
Qed.

(** Copying a state copies the values but not the flag: the values of the old state,
    copied while the newest state is in the uniform space, get scaled again (the value
    1 becomes 1/4 instead of 1/2). *)
Theorem c12_copied_state_refuted : exists os r old v,
  reach empty_repo os r /\ os = mapped 3 ++ [OUniform 2; OAdvance; OUniform old]
  /\ get_field r "velocity" N = Ret old /\ at_level r old 0 v /\ (forall pt c, (c < 3)%nat -> v pt c == 1 # 4)
  /\ exists v1, at_level r 2 0 v1 /\ forall pt c, (c < 3)%nat -> v1 pt c == 1 # 2.
Proof.
  exists (mapped 3 ++ [OUniform 2; OAdvance; OUniform 3]), (after (mapped 3 ++ [OUniform 2; OAdvance; OUniform 3])), 3%nat.
  eexists. split; [apply checkb_ok; vm_compute; reflexivity|].
  split; [reflexivity|]. split; [vm_compute; reflexivity|]. split; [eexists; split; [vm_compute; reflexivity|reflexivity]|]. split.
  - intros pt c Hc. destruct c as [|[|[|c]]]; [reflexivity|reflexivity|reflexivity|lia].
  - eexists. split; [eexists; split; [vm_compute; reflexivity|reflexivity]|]. intros pt c Hc. destruct c as [|[|[|c]]]; [reflexivity|reflexivity|reflexivity|lia].
Qed.

(** *** C13 *)
(** A regrid from level [lbase] to new grids: coarser levels and levels whose grids do
    not change keep their data; levels beyond have none; every other level has data on
    the new grids: what the fill operator makes for fields filled on regrid (seeing the
    new coarser levels and the old data of this and finer levels), zero for the others. *)
Theorem c13_regrid : forall os r fill lbase grids fid f,
  reach empty_repo os r -> (lbase < m_nlev (r_mesh r))%nat -> nth_error (r_fields r) fid = Some f ->
  let r' := regrid r fill lbase grids in
  m_nlev (r_mesh r') = (S lbase + length grids)%nat
  /\ (forall lev, (lev <= lbase)%nat -> get_multifab r' fid lev = get_multifab r fid lev
        /\ m_ba (r_mesh r') lev = m_ba (r_mesh r) lev /\ m_dm (r_mesh r') lev = m_dm (r_mesh r) lev)
  /\ (forall lev, (S lbase + length grids <= lev)%nat -> r_levels r' lev = None)
  /\ (forall j ba dm, let lev := (S lbase + j)%nat in nth_error grids j = Some (ba, dm) ->
        m_ba (r_mesh r') lev = ba /\ m_dm (r_mesh r') lev = dm
        /\ ((lev < m_nlev (r_mesh r))%nat /\ ba = m_ba (r_mesh r) lev /\ dm = m_dm (r_mesh r) lev ->
              get_multifab r' fid lev = get_multifab r fid lev)
        /\ (~ ((lev < m_nlev (r_mesh r))%nat /\ ba = m_ba (r_mesh r) lev /\ dm = m_dm (r_mesh r) lev) ->
              exists rr m, get_multifab r' fid lev = Ret m
                /\ layout m = (ba, dm, i_loc (info_of r f), i_ncomp (info_of r f), i_ngrow (info_of r f))
                /\ mf_val m = (if f_regrid f then fill rr lev fid else zero)
                /\ (forall g l, (l < lev)%nat -> get_multifab rr g l = get_multifab r' g l)
                /\ (forall g l, (lev <= l)%nat -> get_multifab rr g l = get_multifab r g l))).
Proof. intros os r fill lbase grids fid f R. exact (regrid_data r fill lbase grids fid f (reach_empty _ _ R)). Qed.

(** Over any sequence of calls that does not address a level (or this field on it),
    the values stay. *)
Theorem c13_untouched : forall os r name s fid lev os' r',
  reach empty_repo os r -> get_field r name s = Ret fid -> (lev < m_nlev (r_mesh r))%nat ->
  reach r os' r' -> undisturbed name s lev r os' ->
  values r' name s lev = values r name s lev.
Proof.
  intros os r name s fid lev os' r' R G Hl R' U.
  destruct (undisturbed_ok name s lev os' r r' fid (reach_empty _ _ R) R' U G Hl) as (_ & G' & V).
  rewrite (values_val r' name s lev fid G'), (values_val r name s lev fid G), V. reflexivity.
Qed.

(** A level made from scratch: zero data on the given grids, other levels untouched. *)
Theorem c13_scratch : forall os r lev ba dm fid f,
  reach empty_repo os r -> (lev <= m_nlev (r_mesh r))%nat -> nth_error (r_fields r) fid = Some f ->
  let r' := level_from_scratch r lev ba dm in
  (exists m, get_multifab r' fid lev = Ret m
     /\ layout m = (ba, dm, i_loc (info_of r f), i_ncomp (info_of r f), i_ngrow (info_of r f)) /\ mf_val m = zero)
  /\ (forall l, l <> lev -> get_multifab r' fid l = get_multifab r fid l)
  /\ m_nlev (r_mesh r') = Nat.max (m_nlev (r_mesh r)) (S lev).
Proof.
  intros os r lev ba dm fid f R Hl Hf. cbn zeta. split; [|split; [intros l H; apply scratch_other; assumption|reflexivity]].
  exists (new_mfab ba dm (info_of r f)). split; [|split; reflexivity]. unfold get_multifab. cbn. unfold fupd. rewrite Nat.eqb_refl.
  unfold allocate_level. rewrite (map_nth_error (fun f => new_mfab ba dm (info_of r f)) fid (r_fields r) Hf). reflexivity.
Qed.

(** *** The hypotheses can be met *)
Definition hist : list op :=
  [ODeclare "velocity" 3 1 3 CELL; OScratch 0 7 8; OScratch 1 9 10; OWrite 0 1 one; OAdvance; OWrite 0 1 two; OCreateState 0 NPH; OAdvance].
Example hist_reach : exists r, reach empty_repo hist r /\ num_states r "velocity" 3
  /\ values r "velocity" NM1 1 = Ret one /\ values r "velocity" N 1 = Ret two /\ values r "velocity" NP1 1 = Ret two.
Proof.
  exists (after hist). split; [apply checkb_ok; vm_compute; reflexivity|].
  split; [|split; [vm_compute; reflexivity|split; vm_compute; reflexivity]].
  exists 0%nat. eexists. split; [vm_compute; reflexivity|]. split; vm_compute; reflexivity.
Qed.
(** Between the advances above, the old state is undisturbed. *)
Example hist_undisturbed : exists r1, reach empty_repo (firstn 5 hist) r1
  /\ undisturbed "velocity" N 1 r1 [OWrite 0 1 two; OCreateState 0 NPH].
Proof.
  exists (after (firstn 5 hist)). split; [apply checkb_ok; vm_compute; reflexivity|].
  eapply und_cons; [left; vm_compute; discriminate|vm_compute; reflexivity|].
  eapply und_cons; [exact Logic.I|vm_compute; reflexivity|constructor].
Qed.
Example mapped_case : exists r f, reach empty_repo (mapped 3) r /\ nth_error (r_fields r) 2 = Some f
  /\ mapped_by r 2 0 1 /\ at_level r 0 0 two /\ at_level r 1 0 one /\ at_level r 2 0 one
  /\ exists r', reach r (conversions 2 [true; true; false]) r'.
Proof.
  exists (after (mapped 3)). eexists. split; [apply checkb_ok; vm_compute; reflexivity|]. split; [vm_compute; reflexivity|].
  split. { eexists. split; [vm_compute; reflexivity|]. split; [vm_compute; reflexivity|]. split; [vm_compute; reflexivity|]. split; discriminate. }
  split; [eexists; split; [vm_compute; reflexivity|reflexivity]|].
  split; [eexists; split; [vm_compute; reflexivity|reflexivity]|]. split; [eexists; split; [vm_compute; reflexivity|reflexivity]|].
  eexists. apply checkb_ok. vm_compute. reflexivity.
Qed.
Example regrid_case : exists r, reach empty_repo (hist ++ [ORegrid (fun _ _ _ => two) 0 [(9, 10); (11, 12)]%nat]) r
  /\ m_nlev (r_mesh r) = 3%nat /\ values r "velocity" NM1 1 = Ret one /\ values r "velocity" NM1 2 = Ret zero.
Proof.
  eexists. split; [apply checkb_ok; vm_compute; reflexivity|]. split; [vm_compute; reflexivity|]. split; vm_compute; reflexivity.
Qed.

Print Assumptions c09_data_on_active_levels.
Print Assumptions c09_every_handle.
Print Assumptions c09_handles_distinct.
Print Assumptions c09_handles_stay.
Print Assumptions c09_write_isolated.
Print Assumptions c09_defined.
Print Assumptions c10_fresh.
Print Assumptions c10_redeclare.
Print Assumptions c10_rejects.
Print Assumptions c10_reserved_name_refuted.
Print Assumptions c10_zero_states_refuted.
Print Assumptions c10_ghost_cells_refuted.
Print Assumptions c11_advance.
Print Assumptions c11_old_state.
Print Assumptions c11_older_state.
Print Assumptions c12_conversions.
Print Assumptions c12_scalars_abort.
Print Assumptions c12_many_components_refuted.
Print Assumptions c12_copied_state_refuted.
Print Assumptions c13_regrid.
Print Assumptions c13_untouched.
Print Assumptions c13_scratch.
