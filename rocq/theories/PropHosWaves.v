(** C97: waves read from the file of another simulation. *)
From Coq Require Import Reals List ZArith Bool Lra Lia.
From Verif Require Import Base BoxR BoxRFacts HosWaves HosWavesSpec.
Import ListNotations.
Open Scope R_scope.

Lemma tol_pos : 0 < tol. Proof. unfold tol. lra. Qed.
Lemma eps_pos : 0 < eps. Proof. unfold eps. lra. Qed.
Lemma Rabs_def2b x a : Rabs x <= a -> - a <= x <= a.
Proof. intro H. unfold Rabs in H. destruct (Rcase_abs x); lra. Qed.
Lemma last_any : forall (l : list R) z a b, List.last (z :: l) a = List.last (z :: l) b.
Proof. induction l as [|u l IH]; intros; [reflexivity|]. change (List.last (u :: l) a = List.last (u :: l) b). apply IH. Qed.
Lemma last_cons (l : list R) z a : List.last (z :: l) a = List.last l z.
Proof. destruct l as [|u l]; [reflexivity|]. change (List.last (u :: l) a = List.last (u :: l) z). apply last_any. Qed.
Lemma last_forward least : forall l p, forward least p l -> p <= List.last l p.
Proof.
  induction l as [|y l IH]; intros p F; [cbn; lra|]. rewrite last_cons. destruct F as (_ & G & F). specialize (IH y F). lra.
Qed.
Lemma last_least least : forall l p, forward least p l -> l <> [] -> least <= List.last l p.
Proof.
  intros [|y l] p F N; [congruence|]. rewrite last_cons. destruct F as (A & _ & F). pose proof (last_forward least l y F). lra.
Qed.
Lemma eps_small : eps < tol. Proof. unfold eps, tol. lra. Qed.

(** ** Steps *)

Lemma step_spec dt t : 0 < dt -> (IZR (step dt t) - 1) * dt < t <= IZR (step dt t) * dt.
Proof.
  intro D. unfold step. rewrite opp_IZR. destruct (rfloor_spec (- (t / dt))) as [A B].
  assert (E : t = t / dt * dt) by (field; lra). set (q := t / dt) in *. set (f := IZR (rfloor (- q))) in *. rewrite E. split; nra.
Qed.
Lemma step_unique dt t n : 0 < dt -> (IZR n - 1) * dt < t <= IZR n * dt -> step dt t = n.
Proof.
  intros D [A B]. destruct (step_spec dt t D) as [A' B'].
  assert (IZR n < IZR (step dt t) + 1) by nra. assert (IZR (step dt t) < IZR n + 1) by nra.
  rewrite <- plus_IZR in *. apply lt_IZR in H. apply lt_IZR in H0. lia.
Qed.
Lemma step_start dt n0 : 0 < dt -> step dt (0 + tw dt n0) = n0.
Proof. intro D. apply step_unique; [exact D|]. unfold tw. split; nra. Qed.
Lemma step_next dt a b : 0 < dt -> a <= b <= a + dt -> step dt b = step dt a \/ step dt b = (step dt a + 1)%Z.
Proof.
  intros D [A B]. destruct (step_spec dt a D), (step_spec dt b D). set (p := step dt a) in *. set (q := step dt b) in *.
  assert (IZR p < IZR q + 1) by nra. assert (IZR q < IZR p + 2) by nra. rewrite <- plus_IZR in *.
  apply lt_IZR in H3. apply lt_IZR in H4. lia.
Qed.
Lemma step_mono dt a b : 0 < dt -> a <= b -> (step dt a <= step dt b)%Z.
Proof.
  intros D L. destruct (step_spec dt a D), (step_spec dt b D). assert (IZR (step dt a) < IZR (step dt b) + 1) by nra.
  rewrite <- plus_IZR in *. apply lt_IZR in H3. lia.
Qed.

Lemma again_range n0 m n : (n0 <= m)%Z -> (n0 <= again n0 m n <= m)%Z.
Proof. intro L. unfold again. pose proof (Z.mod_pos_bound (n - n0) (m - n0 + 1) ltac:(lia)). lia. Qed.
Lemma again_next n0 m n : (n0 <= m)%Z ->
  again n0 m (n + 1) = if (again n0 m n =? m)%Z then n0 else (again n0 m n + 1)%Z.
Proof.
  intro L. unfold again. set (P := (m - n0 + 1)%Z). assert (0 < P)%Z by (unfold P; lia).
  replace (n + 1 - n0)%Z with ((n - n0) + 1)%Z by ring.
  pose proof (Z.mod_pos_bound (n - n0) P H). pose proof (Z.div_mod (n - n0) P ltac:(lia)) as E.
  destruct (Z.eqb_spec (n0 + (n - n0) mod P) m) as [X|X].
  - assert ((n - n0) mod P = P - 1)%Z by (unfold P in *; lia).
    rewrite <- (Z.mod_unique (n - n0 + 1) P ((n - n0) / P + 1) 0); [lia|lia|]. rewrite E at 1. rewrite H1. ring.
  - rewrite <- (Z.mod_unique (n - n0 + 1) P ((n - n0) / P) ((n - n0) mod P + 1)); [lia| |].
    + left. unfold P in *. lia.
    + rewrite E at 1. ring.
Qed.
Lemma again_first n0 m : (n0 <= m)%Z -> again n0 m n0 = n0.
Proof. intro. unfold again. rewrite Z.sub_diag, Z.mod_0_l by lia. lia. Qed.
Lemma again_small n0 m n : (n0 <= n <= m)%Z -> again n0 m n = n.
Proof. intro. unfold again. rewrite Z.mod_small by lia. lia. Qed.

Section File.
Variables (dt : R) (n0 nstop last : Z) (wave : Z -> R).
Hypothesis D : 0 < dt.
Let m := Z.min nstop last.
Hypothesis L : (n0 <= m)%Z.
Let w n := wave (again n0 m n).
Notation upd := (update dt n0 nstop last wave).
Notation go := (run dt n0 nstop last wave).
Notation stp t := (step dt (t + tw dt n0)).
(** What is left of the way to the next step. *)
Let left_ n t := (IZR n - IZR n0) * dt - t + eps.
Let whole := (1 - IZR n0) * dt + eps.
Hypothesis WH : whole <> 0.

Lemma stp_bound t : t <= (IZR (stp t) - IZR n0) * dt.
Proof. destruct (step_spec dt (t + tw dt n0) D). unfold tw in *. nra. Qed.
Lemma stp_lower t : (IZR (stp t) - IZR n0 - 1) * dt < t.
Proof. destruct (step_spec dt (t + tw dt n0) D). unfold tw in *. nra. Qed.
Lemma left_pos t : 0 < left_ (stp t) t.
Proof. pose proof (stp_bound t). pose proof eps_pos. unfold left_. lra. Qed.

Lemma interp_read o v n t : interpolate o v ((IZR n - 1) * dt) t (IZR n * dt - tw dt n0) = v - (v - o) * (left_ n t / whole).
Proof.
  unfold interpolate, left_, whole, tw in *. 
  replace (IZR n * dt - dt * IZR n0 - (IZR n - 1) * dt + eps) with ((1 - IZR n0) * dt + eps) by ring.
  field. exact WH.
Qed.
Lemma interp_on o v n t t' : t <= (IZR n - IZR n0) * dt ->
  interpolate (v - (v - o) * (left_ n t / whole)) v t t' (IZR n * dt - tw dt n0) = v - (v - o) * (left_ n t' / whole).
Proof.
  intro B. pose proof eps_pos. unfold interpolate, left_, whole, tw in *.
  assert (X : IZR n * dt - dt * IZR n0 - t + eps <> 0) by lra.
  field. split; [lra|exact X].
Qed.

(** One more step is read: the value of the next step, over and over. *)
Lemma read_next n off : (n + off)%Z = again n0 m n ->
  let off' := if (nstop <? n + 1 + off)%Z then update_offset n0 (n + 1) else off in
  exists o, populate n0 last wave (n + 1) off' 0 = Ret (w (n + 1), o) /\ (n + 1 + o)%Z = again n0 m (n + 1).
Proof.
  intros I off'. pose proof (again_range n0 m n L). pose proof (again_next n0 m n L) as N. unfold w. rewrite N.
  unfold populate, get_data, off', update_offset in *. unfold m in *.
  destruct (Z.ltb_spec nstop (n + 1 + off)) as [A|A].
  - destruct (Z.eqb_spec (again n0 (Z.min nstop last) n) (Z.min nstop last)) as [E|E]; [|lia].
    replace (n + 1 + (- (n + 1) + n0) + 0)%Z with n0 by ring. destruct (Z.leb_spec n0 last); [|lia].
    eexists. split; [reflexivity|]. lia.
  - destruct (Z.eqb_spec (again n0 (Z.min nstop last) n) (Z.min nstop last)) as [E|E].
    + destruct (Z.leb_spec (n + 1 + off + 0) last); [lia|].
      replace (n + 1 + (- (n + 1) + n0) + 0)%Z with n0 by ring. destruct (Z.leb_spec n0 last); [|lia].
      eexists. split; [reflexivity|]. lia.
    + destruct (Z.leb_spec (n + 1 + off + 0) last); [|lia].
      exists off. split; [|lia]. replace (n + 1 + off + 0)%Z with (again n0 (Z.min nstop last) n + 1)%Z by lia. reflexivity.
Qed.

(** The state after an update at time [t]. *)
Definition at_ (t : R) (o : R) (s : hos) : Prop :=
  ntime s = stp t /\ (ntime s + offset s)%Z = again n0 m (stp t) /\ t_last s = t /\
  t_data s = IZR (stp t) * dt - tw dt n0 /\ new s = w (stp t) /\
  old s = w (stp t) - (w (stp t) - o) * (left_ (stp t) t / whole).

Lemma not_negative t : 0 <= t -> Rltb t (- tol) = false.
Proof. intro. apply Rltb_false. pose proof tol_pos. lra. Qed.

Lemma at_start calm : exists s, upd (fresh n0 wave calm) 0 = Ret s /\ at_ 0 calm s.
Proof.
  unfold update. pose proof (step_start dt n0 D) as S0. rewrite S0. unfold evaluate, fresh. cbn [ntime t_last t_data offset old new].
  rewrite Z.eqb_refl. cbn [negb andb orb]. rewrite not_negative by lra. rewrite Rabs_R0.
  rewrite (proj2 (Rltb_spec _ _) tol_pos). unfold m in L.
  destruct (Z.ltb_spec nstop (n0 + 0)); [lia|]. cbn [obind fst snd]. unfold populate, get_data.
  destruct (Z.leb_spec (n0 + 0 + 0) last); [|lia]. cbn [obind fst snd].
  eexists. split; [reflexivity|]. unfold at_. rewrite S0. cbn. rewrite again_first by exact L. repeat split; try lia.
  - unfold tw. ring.
  - unfold w. rewrite again_first by exact L. f_equal. lia.
  - replace 0 with (IZR n0 * dt - tw dt n0) at 2 by (unfold tw; ring).
    assert (W : wave (n0 + 0 + 0) = w n0). { unfold w. rewrite again_first by exact L. f_equal. lia. }
    rewrite W. apply interp_read.
Qed.
Lemma at_next t o s t' : at_ t o s -> tol <= t' -> 0 <= t -> t <= t' <= t + dt -> (t = 0 \/ tol <= t) ->
  exists s', upd s t' = Ret s' /\ at_ t' (if (stp t' =? stp t)%Z then o else w (stp t' - 1)) s' /\ (t = 0 -> stp t' <> stp t).
Proof.
  intros (N & I & T & TD & NW & OL) T' P O Z0.
  assert (Q : stp t' = stp t \/ stp t' = (stp t + 1)%Z).
  { apply step_next; [exact D|]. lra. }
  unfold update, evaluate. rewrite N, T. rewrite not_negative by exact P.
  destruct Q as [Q|Q].
  - assert (Z1 : tol <= t).
    { destruct Z0 as [->|Z1]; [|exact Z1]. exfalso. pose proof (step_start dt n0 D). rewrite H in Q.
      pose proof (stp_bound t'). rewrite Q in H0. pose proof tol_pos. nra. }
    rewrite Q, Z.eqb_refl. cbn [negb andb orb].
    assert (F : Rltb (Rabs t) tol = false). { apply Rltb_false. rewrite Rabs_pos_eq; lra. }
    rewrite F. eexists. split; [reflexivity|]. split; [|intros E; pose proof tol_pos; lra].
    unfold at_. cbn. rewrite Q. repeat split; auto; [rewrite N in I; exact I|].
    rewrite OL, NW, TD. apply interp_on. apply stp_bound.
  - rewrite Q. assert (NE : (stp t + 1 =? stp t)%Z = false) by (apply Z.eqb_neq; lia). rewrite NE. cbn [negb andb orb].
    rewrite Z.ltb_irrefl. rewrite N in I. destruct (read_next _ _ I) as (off & R & I').
    cbn [obind fst snd]. rewrite R. cbn [obind fst snd].
    eexists. split; [reflexivity|]. split; [|intros E X; lia].
    unfold at_. cbn. rewrite Q. repeat split; auto. rewrite NW. replace (stp t + 1 - 1)%Z with (stp t) by ring. apply interp_read.
Qed.

Lemma at_run : forall ts t o s, at_ t o s -> 0 <= t -> (t = 0 \/ tol <= t /\ o = w (stp t - 1)) -> paced dt tol t ts ->
  ts <> [] -> exists s', go s ts = Ret s' /\ at_ (List.last ts 0) (w (stp (List.last ts 0) - 1)) s'.
Proof.
  induction ts as [|t' ts IH]; intros t o s A P Z0 F NE; [congruence|]. cbn in F. destruct F as (T' & O & F).
  destruct (at_next t o s t' A T' P O) as (s' & U & A' & X). { destruct Z0 as [|[]]; auto. }
  assert (A2 : at_ t' (w (stp t' - 1)) s').
  { destruct (Z.eqb_spec (stp t') (stp t)) as [E|E]; [|exact A']. destruct Z0 as [Z0|[Z0 Z1]].
    - exfalso. apply X; auto. - rewrite E in *. rewrite <- Z1. exact A'. }
  cbn [run]. rewrite U. cbn [obind]. destruct ts as [|t2 ts].
  - cbn. exists s'. split; [reflexivity|exact A2].
  - change (List.last (t' :: t2 :: ts) 0) with (List.last (t2 :: ts) 0). apply (IH t' (w (stp t' - 1)) s'); auto.
    + pose proof tol_pos. lra. + discriminate.
Qed.
Lemma fresh_run calm ts : ts <> [] -> paced dt tol 0 ts ->
  exists s, go (fresh n0 wave calm) (0 :: ts) = Ret s /\ at_ (List.last ts 0) (w (stp (List.last ts 0) - 1)) s.
Proof.
  intros NE F. destruct (at_start calm) as (s & U & A). cbn [run]. rewrite U. cbn [obind].
  apply (at_run ts 0 calm s); auto; lra.
Qed.
End File.

(** Whatever the steps of the simulation, none longer than those of the file: the target at a time depends on the time
    alone.  With [n] the first step of the file at or after it, the target is the wave of step [n] but for the part
    [(t_n - t + eps) / ((1 - n0) dt + eps)] of the difference to the wave of step [n - 1], and the steps are taken over
    and over. *)
Theorem c97_target : forall dt n0 nstop last wave calm ts, 0 < dt -> (n0 <= nstop)%Z -> (n0 <= last)%Z ->
  (1 - IZR n0) * dt + eps <> 0 -> ts <> [] -> paced dt tol 0 ts ->
  let t := List.last ts 0 in let n := step dt (t + dt * IZR n0) in
  let w k := wave (again n0 (Z.min nstop last) k) in
  exists s, run dt n0 nstop last wave (fresh n0 wave calm) (0 :: ts) = Ret s /\
    old s = w n - (w n - w (n - 1)%Z) * (((IZR n - IZR n0) * dt - t + eps) / ((1 - IZR n0) * dt + eps)).
Proof.
  intros dt n0 nstop last wave calm ts D A B W NE F t n w.
  destruct (fresh_run dt n0 nstop last wave D ltac:(lia) W calm ts NE F) as (s & R & (_ & _ & _ & _ & _ & O)).
  exists s. split; [exact R|]. exact O.
Qed.

(** Steps of the file taken from the first: the target lies on the line between the two steps, up to rounding. *)
Theorem c97_between : forall dt nstop last wave calm ts, 0 < dt -> (0 <= nstop)%Z -> (0 <= last)%Z -> ts <> [] -> paced dt tol 0 ts ->
  let w k := wave (again 0 (Z.min nstop last) k) in
  exists s v n, run dt 0 nstop last wave (fresh 0 wave calm) (0 :: ts) = Ret s /\ between dt 0 w (List.last ts 0) v /\
    Rabs (old s - v) <= Rabs (w n - w (n - 1)%Z) * (eps / dt).
Proof.
  intros dt nstop last wave calm ts D A B NE F w. pose proof eps_pos as E.
  destruct (c97_target dt 0 nstop last wave calm ts D A B) as (s & R & O); auto. { lra. }
  set (t := List.last ts 0) in *. set (n := step dt (t + dt * 0)) in *. fold w in O.
  assert (T : (IZR n - 1) * dt < t <= IZR n * dt). { pose proof (step_spec dt (t + dt * 0) D). fold n in H. lra. }
  pose (lam := t / dt - IZR n + 1). assert (TL : t = (IZR n - 1 + lam) * dt) by (unfold lam; field; lra).
  exists s, ((1 - lam) * w (n - 1)%Z + lam * w n), n. split; [exact R|]. split.
  - exists n, lam. repeat split.
    + nra. + nra. + rewrite TL. ring.
  - assert (X : old s - ((1 - lam) * w (n - 1)%Z + lam * w n) = (w n - w (n - 1)%Z) * (- (lam * eps / (dt + eps)))).
    { change (old s = w n - (w n - w (n - 1)%Z) * (((IZR n - 0) * dt - t + eps) / ((1 - 0) * dt + eps))) in O. rewrite O.
      generalize (w n) (w (n - 1)%Z). intros a b. clearbody lam. rewrite TL. field. lra. }
    rewrite X.
    rewrite Rabs_mult. apply Rmult_le_compat_l; [apply Rabs_pos|]. rewrite Rabs_Ropp.
    assert (0 < lam <= 1) by nra. assert (P : 0 < eps / (dt + eps)) by (apply Rdiv_lt_0_compat; lra).
    replace (lam * eps / (dt + eps)) with (lam * (eps / (dt + eps))) by (field; lra). rewrite Rabs_pos_eq by nra.
    apply Rle_trans with (eps / (dt + eps)); [nra|]. unfold Rdiv. apply Rmult_le_compat_l; [lra|]. apply Rinv_le_contravar; lra.
Qed.

Lemma beyond a b r : a <> b -> 0 < r -> b - (b - a) * - r <> b /\ (b < a -> b - (b - a) * - r < b) /\ (a < b -> b < b - (b - a) * - r).
Proof. intros N P. repeat split; [intro E; assert (b - a = 0) by nra; lra| |]; intro; nra. Qed.

(** From any later step than the second the target is never between the two: it starts beyond the later wave and goes
    back to it, and the more so the nearer the first step is. *)
Theorem c97_init_refuted : forall dt n0 nstop last wave calm ts, eps < dt -> (2 <= n0)%Z -> (n0 <= nstop)%Z -> (n0 <= last)%Z ->
  ts <> [] -> paced dt tol 0 ts ->
  let t := List.last ts 0 in let n := step dt (t + dt * IZR n0) in
  let w k := wave (again n0 (Z.min nstop last) k) in
  exists s r, run dt n0 nstop last wave (fresh n0 wave calm) (0 :: ts) = Ret s /\ 0 < r /\
    r = ((IZR n - IZR n0) * dt - t + eps) / ((IZR n0 - 1) * dt - eps) /\
    old s = w n + r * (w n - w (n - 1)%Z) /\
    (w (n - 1)%Z < w n -> w n < old s) /\ (w n < w (n - 1)%Z -> old s < w n).
Proof.
  intros dt n0 nstop last wave calm ts D G A B NE F t n w. pose proof eps_pos as E.
  assert (I : 2 <= IZR n0) by (apply IZR_le; exact G). assert (X : 0 < (IZR n0 - 1) * dt - eps) by nra.
  destruct (c97_target dt n0 nstop last wave calm ts) as (s & R & O); auto; try lra; try lia.
  fold t in O. fold n in O. fold w in O.
  pose (r := ((IZR n - IZR n0) * dt - t + eps) / ((IZR n0 - 1) * dt - eps)).
  assert (PR : 0 < r).
  { apply Rdiv_lt_0_compat; [|exact X]. pose proof (stp_bound dt n0 ltac:(lra) t) as H. unfold tw in H. fold n in H. lra. }
  assert (O' : old s = w n + r * (w n - w (n - 1)%Z)). {
    change (old s = w n - (w n - w (n - 1)%Z) * (((IZR n - IZR n0) * dt - t + eps) / ((1 - IZR n0) * dt + eps))) in O.
    rewrite O. unfold r. generalize (w n) (w (n - 1)%Z). intros a b. field. split; intro Y; nra. }
  exists s, r. repeat split; auto; intro; nra.
Qed.
(** From the second step it is off by the difference of the two waves over the rounding unit. *)
Theorem c97_init_one_refuted : forall dt nstop last wave calm ts, 0 < dt -> (1 <= nstop)%Z -> (1 <= last)%Z ->
  ts <> [] -> paced dt tol 0 ts ->
  let t := List.last ts 0 in let n := step dt (t + dt * 1) in
  let w k := wave (again 1 (Z.min nstop last) k) in
  exists s, run dt 1 nstop last wave (fresh 1 wave calm) (0 :: ts) = Ret s /\
    Rabs (old s - w n) = Rabs (w n - w (n - 1)%Z) * (1 + ((IZR n - 1) * dt - t) / eps).
Proof.
  intros dt nstop last wave calm ts D A B NE F t n w. pose proof eps_pos as E.
  destruct (c97_target dt 1 nstop last wave calm ts) as (s & R & O); auto; try lra.
  exists s. split; [exact R|].
  assert (P : t <= (IZR n - 1) * dt). { pose proof (stp_bound dt 1 D t) as H. unfold tw in H. exact H. }
  assert (X : old s - w n = - ((w n - w (n - 1)%Z) * (1 + ((IZR n - 1) * dt - t) / eps))).
  { change (old s = w n - (w n - w (n - 1)%Z) * (((IZR n - 1) * dt - t + eps) / ((1 - 1) * dt + eps))) in O.
    rewrite O. generalize (w n) (w (n - 1)%Z). intros a b. field. lra. }
  rewrite X.
  rewrite Rabs_Ropp, Rabs_mult. f_equal. apply Rabs_pos_eq.
  assert (0 <= ((IZR n - 1) * dt - t) / eps). { apply Rmult_le_pos; [lra|]. left. apply Rinv_0_lt_compat. lra. } lra.
Qed.

(** ** Steps of any length, and restarts *)

Section Any.
Variables (dt : R) (nstop last N : Z) (wave : Z -> R) (M : R).
Hypothesis D : 0 < dt.
Hypothesis LN : (0 <= N /\ N <= nstop /\ N <= last)%Z.
Hypothesis WM : forall k, (0 <= k <= N)%Z -> Rabs (wave k) <= M.
Notation upd := (update dt 0 nstop last wave).
Notation go := (run dt 0 nstop last wave).
Notation stp t := (step dt (t + tw dt 0)).

Definition near (t : R) (s : hos) : Prop :=
  ntime s = stp t /\ offset s = 0%Z /\ t_last s = t /\ t_data s = IZR (stp t) * dt - tw dt 0 /\ new s = wave (stp t) /\
  exists o, Rabs o <= M /\ old s = wave (stp t) - (wave (stp t) - o) * ((IZR (stp t) * dt - t + eps) / (dt + eps)) /\
    (tol <= t -> o = wave (stp t - 1) \/ IZR (stp t) * dt - t <= tol).

Lemma stp0 t : (IZR (stp t) - 1) * dt < t <= IZR (stp t) * dt.
Proof. pose proof (stp_bound dt 0 D t). pose proof (stp_lower dt 0 D t). split; nra. Qed.
Lemma stp_N t : t <= IZR N * dt -> (stp t <= N)%Z.
Proof.
  intro H. destruct (stp0 t). assert (IZR (stp t) < IZR N + 1) by nra. rewrite <- plus_IZR in H2. apply lt_IZR in H2. lia.
Qed.
Lemma stp_pos t : 0 < t -> (1 <= stp t)%Z.
Proof. intro H. destruct (stp0 t). assert (0 < IZR (stp t)) by nra. apply lt_IZR in H2. lia. Qed.
Lemma stp_nn t : 0 <= t -> (0 <= stp t)%Z.
Proof. intro H. destruct (stp0 t). assert (-1 < IZR (stp t)) by nra. apply lt_IZR in H2. lia. Qed.
Lemma ratio t : 0 < (IZR (stp t) * dt - t + eps) / (dt + eps) <= 1.
Proof.
  pose proof eps_pos. destruct (stp0 t). split.
  - apply Rdiv_lt_0_compat; lra.
  - apply Rmult_le_reg_r with (dt + eps); [lra|]. unfold Rdiv. rewrite Rmult_assoc, Rinv_l by lra. lra.
Qed.
Lemma near_old t s : near t s -> 0 <= t <= IZR N * dt -> Rabs (old s) <= M.
Proof.
  intros (_ & _ & _ & _ & _ & (o & OM & O & _)) T. rewrite O. pose proof (ratio t) as Q. set (r := _ / _) in *. clearbody r.
  assert (W : Rabs (wave (stp t)) <= M). { apply WM. split; [apply stp_nn|apply stp_N]; lra. }
  apply Rabs_def2b in OM. apply Rabs_def2b in W. apply Rabs_le. nra.
Qed.

(** Data of step [stp t] is read after that of an earlier one. *)
Lemma near_read t d s o : 0 < t <= IZR N * dt -> offset s = 0%Z -> tol <= t ->
  (d = 0%nat /\ new s = wave (stp t - 1) /\ o = wave (stp t - 1) \/ d = 1%nat /\ o = wave (stp t - 1) \/
   d = 2%nat /\ o = old s /\ Rabs o <= M /\ IZR (stp t) * dt - t <= tol) ->
  forall st, evaluate dt 0 s (stp t) t = (true, d, IZR (stp t) * dt - tw dt 0) -> st = s ->
  exists s', upd s t = Ret s' /\ near t s'.
Proof.
  intros T O TT K st E _. pose proof (stp_N t ltac:(lra)) as SN. pose proof (stp_pos t ltac:(lra)) as SP.
  unfold update. rewrite E, O. destruct (Z.ltb_spec nstop (stp t + 0)); [lia|].
  assert (P0 : populate 0 last wave (stp t) 0 0 = Ret (wave (stp t), 0%Z)).
  { unfold populate, get_data. destruct (Z.leb_spec (stp t + 0 + 0) last); [|lia]. rewrite !Z.add_0_r. reflexivity. }
  assert (P1 : populate 0 last wave (stp t) 0 (-1) = Ret (wave (stp t - 1), 0%Z)).
  { unfold populate, get_data. destruct (Z.leb_spec (stp t + 0 + -1) last); [|lia]. rewrite Z.add_0_r. reflexivity. }
  assert (F : forall x, interpolate x (wave (stp t)) ((IZR (stp t) - 1) * dt) t (IZR (stp t) * dt - tw dt 0) =
    wave (stp t) - (wave (stp t) - x) * ((IZR (stp t) * dt - t + eps) / (dt + eps))).
  { intro x. pose proof eps_pos. pose proof (interp_read dt 0 ltac:(lra) x (wave (stp t)) (stp t) t) as H1. rewrite H1.
    f_equal. f_equal. f_equal; ring. }
  assert (B : forall k, (0 <= k <= N)%Z -> Rabs (wave k) <= M) by exact WM.
  destruct K as [(-> & NW & ->)|[(-> & ->)|(-> & -> & OM & C)]]; cbn [obind fst snd].
  - rewrite P0. cbn [obind fst snd]. eexists. split; [reflexivity|]. unfold near. cbn. repeat split; auto.
    exists (wave (stp t - 1)). repeat split; [apply B; lia| |auto]. rewrite NW. apply F.
  - rewrite P1. cbn [obind fst snd]. rewrite P0. cbn [obind fst snd]. eexists. split; [reflexivity|]. unfold near. cbn.
    repeat split; auto. exists (wave (stp t - 1)). repeat split; [apply B; lia| |auto]. apply F.
  - rewrite P0. cbn [obind fst snd]. eexists. split; [reflexivity|]. unfold near. cbn. repeat split; auto.
    exists (old s). repeat split; [exact OM| |auto]. apply F.
Qed.
Lemma data_time t : Rabs (IZR (stp t) * dt - tw dt 0 - t) = IZR (stp t) * dt - t.
Proof. destruct (stp0 t). set (n := stp t) in *. clearbody n. unfold tw. rewrite Rabs_pos_eq; lra. Qed.

Lemma near_start calm : Rabs calm <= M -> exists s, upd (fresh 0 wave calm) 0 = Ret s /\ near 0 s.
Proof.
  intro C. destruct (at_start dt 0 nstop last wave D ltac:(lia)) with (calm := calm) as (s & U & (A1 & A2 & A3 & A4 & A5 & A6)).
  { pose proof eps_pos. lra. }
  exists s. split; [exact U|]. rewrite step_start in * by exact D. rewrite again_first in * by lia.
  unfold near. rewrite step_start by exact D. repeat split; auto; [lia|].
  exists calm. repeat split; auto. 2: { intro. pose proof tol_pos. lra. }
  rewrite A6. f_equal. f_equal. f_equal; ring.
Qed.
Lemma near_next t s t' : near t s -> (t = 0 \/ tol <= t) -> tol <= t' -> t <= t' <= IZR N * dt -> exists s', upd s t' = Ret s' /\ near t' s'.
Proof.
  intros A Z0 T' T. pose proof tol_pos as TP. assert (P : 0 <= t) by (destruct Z0; lra).
  assert (MO : Rabs (old s) <= M) by (apply (near_old t); [exact A|lra]).
  destruct A as (N1 & O & TL & TD & NW & (o & OM & OL & W)).
  pose proof (step_mono dt (t + tw dt 0) (t' + tw dt 0) D ltac:(lra)) as MN.
  destruct (Z.eq_dec (stp t') (stp t)) as [E|E].
  - (* no new data *)
    assert (Z1 : tol <= t).
    { destruct Z0 as [->|Z1]; [|exact Z1]. exfalso. rewrite step_start in E by exact D. pose proof (stp_pos t' ltac:(lra)). lia. }
    unfold update, evaluate. rewrite N1, TL, E, Z.eqb_refl. cbn [negb andb orb]. rewrite not_negative by exact P.
    assert (F : Rltb (Rabs t) tol = false). { apply Rltb_false. rewrite Rabs_pos_eq; lra. }
    rewrite F. eexists. split; [reflexivity|]. unfold near. cbn. rewrite E. repeat split; auto.
    exists o. repeat split; auto.
    + rewrite OL, NW, TD. pose proof eps_pos. destruct (stp0 t).
      pose proof (interp_on dt 0 ltac:(lra) o (wave (stp t)) (stp t) t t' ltac:(lra)) as H2. cbv beta in H2.
      replace ((IZR (stp t) - 0) * dt - t + eps) with (IZR (stp t) * dt - t + eps) in H2 by ring.
      replace ((IZR (stp t) - 0) * dt - t' + eps) with (IZR (stp t) * dt - t' + eps) in H2 by ring.
      replace ((1 - 0) * dt + eps) with (dt + eps) in H2 by ring. exact H2.
    + intro. destruct (W Z1) as [W1|W1]; [left; exact W1|right; lra].
  - assert (V : evaluate dt 0 s (stp t') t' = (true,
      (if (stp t + 1 <? stp t')%Z then (if Rleb (IZR (stp t') * dt - t') tol then 2%nat else 1%nat) else 0%nat), IZR (stp t') * dt - tw dt 0)).
    { unfold evaluate. rewrite N1, TL, not_negative by exact P. destruct (Z.eqb_spec (stp t') (stp t)); [contradiction|].
      cbn [negb andb orb]. rewrite data_time. reflexivity. }
    destruct (Z.ltb_spec (stp t + 1) (stp t')) as [F|F].
    + destruct (Rleb (IZR (stp t') * dt - t') tol) eqn:C.
      * apply (near_read t' 2 s (old s)) with (st := s); auto; try lra. right. right. repeat split; auto. apply Rleb_spec in C. exact C.
      * apply (near_read t' 1 s (wave (stp t' - 1))) with (st := s); auto; try lra.
    + apply (near_read t' 0 s (wave (stp t' - 1))) with (st := s); auto; try lra. left. repeat split; auto.
      rewrite NW. f_equal. lia.
Qed.
Lemma near_run : forall ts t s, near t s -> (t = 0 \/ tol <= t) -> forward tol t ts -> List.last ts t <= IZR N * dt ->
  exists s', go s ts = Ret s' /\ near (List.last ts t) s'.
Proof.
  induction ts as [|t' ts IH]; intros t s A Z0 F B.
  - exists s. split; [reflexivity|exact A].
  - cbn in F. destruct F as (T' & O & F).
    rewrite last_cons in *. pose proof (last_forward tol ts t' F).
    destruct (near_next t s t' A Z0 T' ltac:(lra)) as (s' & U & A'). cbn [run]. rewrite U. cbn [obind].
    apply (IH t' s'); auto.
Qed.
Lemma near_between t s : near t s -> tol <= t <= IZR N * dt ->
  exists v, between dt 0 wave t v /\ Rabs (old s - v) <= 2 * M * ((2 * tol + eps) / dt).
Proof.
  intros (_ & _ & _ & _ & _ & (o & OM & O & W)) T. pose proof tol_pos. pose proof eps_pos.
  destruct (stp0 t) as [S1 S2]. pose proof (stp_N t ltac:(lra)). pose proof (stp_pos t ltac:(lra)).
  pose proof (WM (stp t) ltac:(lia)) as W1. pose proof (WM (stp t - 1)%Z ltac:(lia)) as W2.
  set (n := stp t) in *. set (a := wave n) in *. set (b := wave (n - 1)%Z) in *.
  pose (lam := t / dt - IZR n + 1). assert (TL : t = (IZR n - 1 + lam) * dt) by (unfold lam; field; lra). clearbody lam.
  assert (LB : 0 < lam <= 1) by (split; nra).
  exists ((1 - lam) * b + lam * a). split. { exists n, lam. repeat split; lra. }
  assert (M0 : 0 <= M) by (pose proof (Rabs_pos o); lra).
  assert (Q1 : (1 - lam) - (IZR n * dt - t + eps) / (dt + eps) = - (lam * (eps / (dt + eps)))) by (rewrite TL; field; lra).
  assert (I1 : 0 < eps / (dt + eps) <= eps / dt).
  { split; [apply Rdiv_lt_0_compat; lra|]. unfold Rdiv. apply Rmult_le_compat_l; [lra|]. apply Rinv_le_contravar; lra. }
  assert (I2 : 0 < tol / dt) by (apply Rdiv_lt_0_compat; lra).
  replace ((2 * tol + eps) / dt) with (2 * (tol / dt) + eps / dt) by (field; lra).
  apply Rabs_def2b in W1. apply Rabs_def2b in W2. apply Rabs_def2b in OM.
  set (r := (IZR n * dt - t + eps) / (dt + eps)) in *. set (e := eps / (dt + eps)) in *.
  assert (R0 : 0 < r <= 1) by (apply (ratio t)).
  destruct (W (proj1 T)) as [W'|C].
  - subst o. rewrite O. replace (a - (a - b) * r - ((1 - lam) * b + lam * a)) with ((a - b) * ((1 - lam) - r)) by ring. rewrite Q1.
    rewrite Rabs_mult, Rabs_Ropp. rewrite (Rabs_pos_eq (lam * e)) by nra.
    assert (Rabs (a - b) <= 2 * M) by (apply Rabs_le; lra). pose proof (Rabs_pos (a - b)).
    apply Rle_trans with (2 * M * (eps / dt)); [|nra]. apply Rmult_le_compat; try nra.
  - assert (C1 : 1 - lam <= tol / dt).
    { apply Rmult_le_reg_r with dt; [lra|]. unfold Rdiv. rewrite Rmult_assoc, Rinv_l by lra. nra. }
    assert (C2 : r <= tol / dt + eps / dt). { nra. }
    rewrite O. replace (a - (a - o) * r - ((1 - lam) * b + lam * a)) with ((1 - lam) * (a - b) + - (r * (a - o))) by ring.
    apply Rle_trans with (1 := Rabs_triang _ _). rewrite Rabs_Ropp, !Rabs_mult, (Rabs_pos_eq r), (Rabs_pos_eq (1 - lam)) by lra.
    assert (Rabs (a - b) <= 2 * M) by (apply Rabs_le; lra). assert (Rabs (a - o) <= 2 * M) by (apply Rabs_le; lra).
    pose proof (Rabs_pos (a - b)). pose proof (Rabs_pos (a - o)).
    apply Rle_trans with ((tol / dt) * (2 * M) + (tol / dt + eps / dt) * (2 * M)); [|lra].
    apply Rplus_le_compat; apply Rmult_le_compat; lra.
Qed.
Lemma near_restart a b t : Rabs a <= M -> tol <= t <= IZR N * dt -> exists s, upd (restarted 0 a b) t = Ret s /\ near t s.
Proof.
  intros A T. pose proof tol_pos. pose proof (stp_pos t ltac:(lra)).
  assert (V : evaluate dt 0 (restarted 0 a b) (stp t) t = (true,
    (if Rltb tol (IZR (stp t) * dt - t) then 1%nat else 2%nat), IZR (stp t) * dt - tw dt 0)).
  { unfold evaluate, restarted. cbn [ntime t_last t_data]. destruct (Z.eqb_spec (stp t) 0); [lia|]. cbn [negb andb orb].
    assert (F : Rltb (-1) (- tol) = true) by (apply Rltb_spec; unfold tol; lra). rewrite F, data_time. reflexivity. }
  destruct (Rltb tol (IZR (stp t) * dt - t)) eqn:C.
  - apply (near_read t 1 (restarted 0 a b) (wave (stp t - 1))) with (st := restarted 0 a b); auto; try lra.
  - apply (near_read t 2 (restarted 0 a b) a) with (st := restarted 0 a b); auto; try lra. right. right. repeat split; auto.
    apply Rltb_false in C. lra.
Qed.
End Any.

(** Steps of any length, within the file and taken from its first step: the target lies on the line between the two
    steps of the file around the time, up to the tolerance. *)
Theorem c97_any_step : forall dt nstop last N wave M calm ts, 0 < dt -> (0 <= N)%Z -> (N <= nstop)%Z -> (N <= last)%Z ->
  (forall k, (0 <= k <= N)%Z -> Rabs (wave k) <= M) -> Rabs calm <= M ->
  ts <> [] -> forward tol 0 ts -> List.last ts 0 <= IZR N * dt ->
  exists s v, run dt 0 nstop last wave (fresh 0 wave calm) (0 :: ts) = Ret s /\ between dt 0 wave (List.last ts 0) v /\
    Rabs (old s - v) <= 2 * M * ((2 * tol + eps) / dt).
Proof.
  intros dt nstop last N wave M calm ts D A1 A2 A3 W C NE F B.
  destruct (near_start dt nstop last N wave M D ltac:(lia) calm C) as (s0 & U & I).
  destruct (near_run dt nstop last N wave M D ltac:(lia) W ts 0 s0 I ltac:(lra) F B) as (s & R & J).
  destruct (near_between dt N wave M D W (List.last ts 0) s J) as (v & V1 & V2).
  { split; [apply last_least; auto|exact B]. }
  exists s, v. cbn [run]. rewrite U. cbn [obind]. auto.
Qed.
(** The same after a restart, whatever is in the memory of the fields as long as it is a number no larger than the waves. *)
Theorem c97_restart : forall dt nstop last N wave M a b T ts, 0 < dt -> (0 <= N)%Z -> (N <= nstop)%Z -> (N <= last)%Z ->
  (forall k, (0 <= k <= N)%Z -> Rabs (wave k) <= M) -> Rabs a <= M -> tol <= T -> forward tol T ts -> List.last ts T <= IZR N * dt ->
  exists s v, run dt 0 nstop last wave (restarted 0 a b) (T :: ts) = Ret s /\ between dt 0 wave (List.last ts T) v /\
    Rabs (old s - v) <= 2 * M * ((2 * tol + eps) / dt).
Proof.
  intros dt nstop last N wave M a b T ts D A1 A2 A3 W C TT F B. pose proof (last_forward tol ts T F).
  destruct (near_restart dt nstop last N wave M D ltac:(lia) W a b T C ltac:(lra)) as (s0 & U & I).
  destruct (near_run dt nstop last N wave M D ltac:(lia) W ts T s0 I ltac:(lra) F B) as (s & R & J).
  destruct (near_between dt N wave M D W (List.last ts T) s J ltac:(lra)) as (v & V1 & V2).
  exists s, v. cbn [run]. rewrite U. cbn [obind]. auto.
Qed.
(** A run that is not interrupted takes the steps of the file over and over; restarted after the end of the file it
    begins again with the first. *)
Theorem c97_restart_end_refuted : forall dt n0 nstop last wave calm ts a b, 0 < dt -> (n0 <= nstop)%Z -> (n0 <= last)%Z ->
  (1 - IZR n0) * dt + eps <> 0 -> ts <> [] -> paced dt tol 0 ts ->
  let t := List.last ts 0 in let n := step dt (t + dt * IZR n0) in (nstop < n)%Z ->
  exists s s', run dt n0 nstop last wave (fresh n0 wave calm) (0 :: ts) = Ret s /\ new s = wave (again n0 (Z.min nstop last) n) /\
    update dt n0 nstop last wave (restarted n0 a b) t = Ret s' /\ new s' = wave n0.
Proof.
  intros dt n0 nstop last wave calm ts a b D A B W NE F t n G.
  destruct (fresh_run dt n0 nstop last wave D ltac:(lia) W calm ts NE F) as (s & R & (_ & _ & _ & _ & NW & _)).
  fold t in NW. fold n in NW.
  assert (X : exists s', update dt n0 nstop last wave (restarted n0 a b) t = Ret s' /\ new s' = wave n0).
  { unfold update. change (step dt (t + tw dt n0)) with n. unfold evaluate, restarted. cbn [ntime t_last t_data offset old new].
    assert (TF : Rltb (-1) (- tol) = true) by (apply Rltb_spec; unfold tol; lra). rewrite TF.
    destruct (Z.ltb_spec nstop (n + 0)); [|lia].
    assert (P : forall k, (k <= 0)%Z -> populate n0 last wave n (update_offset n0 n) k = Ret (wave (n0 + k)%Z, update_offset n0 n)).
    { intros k K. unfold populate, get_data, update_offset. replace (n + (- n + n0) + k)%Z with (n0 + k)%Z by ring.
      destruct (Z.leb_spec (n0 + k) last); [reflexivity|lia]. }
    destruct (Rltb tol _); cbn [obind fst snd].
    - rewrite (P (-1)%Z) by lia. cbn [obind fst snd]. rewrite (P 0%Z) by lia. cbn [obind fst snd].
      eexists. split; [reflexivity|]. cbn. f_equal. lia.
    - rewrite (P 0%Z) by lia. cbn [obind fst snd]. eexists. split; [reflexivity|]. cbn. f_equal. lia. }
  destruct X as (s' & U & N'). exists s, s'. auto.
Qed.

(** ** Several processes *)

Lemma max_same o : forall k, fold_right Z.max o (map snd (repeat (true, o) k)) = o.
Proof. induction k as [|k IH]; [reflexivity|]. cbn. rewrite IH. apply Z.max_id. Qed.
Lemma read_same n0 nstop last n o k : let m := if (nstop <? n + o)%Z then update_offset n0 n else o in
  read_all n0 nstop last n (repeat (true, o) (S k)) = repeat (true, if (n + m <=? last)%Z then m else update_offset n0 n) (S k).
Proof.
  intro m. unfold read_all. 
  assert (E : map (fun p : bool * Z => (fst p, if (nstop <? n + snd p)%Z then update_offset n0 n else snd p)) (repeat (true, o) (S k)) = repeat (true, m) (S k)).
  { generalize (S k). induction n1 as [|j IH]; [reflexivity|]. cbn. rewrite IH. reflexivity. }
  rewrite E. cbn [repeat]. rewrite max_same. cbn [map fst snd]. f_equal.
  generalize k. induction k0 as [|j IH]; [reflexivity|]. cbn. rewrite IH. reflexivity.
Qed.
(** Where every process interpolates they all read the same step, over and over up to the last of the header or of the
    file, whichever comes first. *)
Theorem c97_processes : forall n0 nstop last p k, (n0 <= nstop)%Z -> (n0 <= last)%Z ->
  let n := (n0 + Z.of_nat k)%Z in
  forall q, In q (reads n0 nstop last (S k) (repeat (true, 0%Z) p)) -> (n + snd q)%Z = again n0 (Z.min nstop last) n.
Proof.
  intros n0 nstop last p k A B. destruct p as [|p].
  { intros n q I. exfalso. assert (E : forall j, reads n0 nstop last j (repeat (true, 0%Z) 0) = []).
    { induction j as [|j IH]; [reflexivity|]. cbn [reads]. rewrite IH. reflexivity. }
    rewrite E in I. exact I. }
  assert (G : exists o, reads n0 nstop last (S k) (repeat (true, 0%Z) (S p)) = repeat (true, o) (S p) /\
    (n0 + Z.of_nat k + o)%Z = again n0 (Z.min nstop last) (n0 + Z.of_nat k)).
  { induction k as [|k IH].
    - cbn [reads]. rewrite read_same. eexists. split; [reflexivity|]. rewrite !Z.add_0_r. rewrite again_first by lia.
      destruct (Z.ltb_spec nstop n0); [lia|]. destruct (Z.leb_spec (n0 + 0) last); lia.
    - destruct IH as (o & R & I). cbn [reads] in *. rewrite R, read_same. eexists. split; [reflexivity|].
      replace (n0 + Z.of_nat (S k))%Z with (n0 + Z.of_nat k + 1)%Z by lia. set (n := (n0 + Z.of_nat k)%Z) in *. clearbody n.
      rewrite again_next by lia. pose proof (again_range n0 (Z.min nstop last) n ltac:(lia)). unfold update_offset.
      destruct (Z.eqb_spec (again n0 (Z.min nstop last) n) (Z.min nstop last)).
      + destruct (Z.ltb_spec nstop (n + 1 + o)).
        * destruct (Z.leb_spec (n + 1 + (- (n + 1) + n0)) last); lia.
        * destruct (Z.leb_spec (n + 1 + o) last); lia.
      + destruct (Z.ltb_spec nstop (n + 1 + o)); [lia|]. destruct (Z.leb_spec (n + 1 + o) last); lia. }
  destruct G as (o & R & I). intros n q Q. rewrite R in Q. apply repeat_spec in Q. subst q. exact I.
Qed.
Lemma max_zero : forall l h, (h <= 0)%Z -> (forall x, In x l -> (x <= 0)%Z) -> (h = 0%Z \/ In 0%Z l) -> fold_right Z.max h l = 0%Z.
Proof.
  induction l as [|x l IH]; intros h H A Z0; [destruct Z0 as [|[]]; assumption|]. cbn [fold_right].
  assert (B : forall y, In y l -> (y <= 0)%Z) by (intros; apply A; right; assumption).
  assert (C : forall l' h', (h' <= 0)%Z -> (forall y, In y l' -> (y <= 0)%Z) -> (fold_right Z.max h' l' <= 0)%Z).
  { clear. induction l' as [|y l' IH]; intros h' H A; [exact H|]. cbn [fold_right]. apply Z.max_lub; [apply A; left; reflexivity|].
    apply IH; [exact H|]. intros; apply A; right; assumption. }
  destruct Z0 as [Z0|[Z0|Z0]].
  - rewrite (IH h H B (or_introl Z0)). specialize (A x (or_introl eq_refl)). lia.
  - subst x. specialize (C l h H B). lia.
  - rewrite (IH h H B (or_intror Z0)). specialize (A x (or_introl eq_refl)). lia.
Qed.
Lemma read_max n0 nstop last n ps : (n <= nstop)%Z -> (forall p, In p ps -> (snd p <= 0)%Z) -> (exists p, In p ps /\ snd p = 0%Z) ->
  read_all n0 nstop last n ps = map (fun p : bool * Z => (fst p, if fst p then (if (n <=? last)%Z then 0%Z else update_offset n0 n) else 0%Z)) ps.
Proof.
  intros S A (p0 & I0 & Z0). unfold read_all.
  assert (E : map (fun p : bool * Z => (fst p, if (nstop <? n + snd p)%Z then update_offset n0 n else snd p)) ps = ps).
  { rewrite <- (map_id ps) at 2. apply map_ext_in. intros [b o] I. cbn. specialize (A _ I). cbn in A.
    destruct (Z.ltb_spec nstop (n + o)); [lia|reflexivity]. }
  rewrite E. destruct ps as [|p r]; [destruct I0|].
  rewrite max_zero; [rewrite Z.add_0_r; reflexivity| | |].
  - apply A. left. reflexivity.
  - intros x I. apply in_map_iff in I. destruct I as (q & <- & I). apply A. right. exact I.
  - destruct I0 as [->|I0]; [left; exact Z0|right]. apply in_map_iff. exists p0. auto.
Qed.
(** Where the file is shorter than its header says and some process does not interpolate, the others read the first step
    again at every step between the end of the file and that of the header. *)
Theorem c97_processes_refuted : forall n0 nstop last bs k, (n0 <= last)%Z -> In false bs ->
  let n := (n0 + Z.of_nat k)%Z in (last < n <= nstop)%Z ->
  forall q, In q (reads n0 nstop last (S k) (map (fun b => (b, 0%Z)) bs)) -> fst q = true -> (n + snd q)%Z = n0.
Proof.
  intros n0 nstop last bs k A F n [B C] q Q T.
  assert (G : forall j, (j <= k)%nat -> let ps := reads n0 nstop last j (map (fun b => (b, 0%Z)) bs) in
    (forall p, In p ps -> (snd p <= 0)%Z) /\ In (false, 0%Z) ps).
  { induction j as [|j IH]; intro J.
    - cbn. split.
      + intros p I. apply in_map_iff in I. destruct I as (b & <- & _). cbn. lia.
      + apply in_map_iff. exists false. auto.
    - destruct (IH ltac:(lia)) as (P1 & P2). cbn [reads]. rewrite read_max; [|lia|exact P1|exists (false, 0%Z); auto]. split.
      + intros p I. apply in_map_iff in I. destruct I as ([b o] & <- & _). cbn. unfold update_offset. destruct b; [|lia].
        destruct (Z.leb_spec (n0 + Z.of_nat j) last); lia.
      + apply in_map_iff. exists (false, 0%Z). auto. }
  destruct (G k (le_n k)) as (P1 & P2). cbn [reads] in Q. rewrite read_max in Q; [|lia|exact P1|exists (false, 0%Z); auto].
  apply in_map_iff in Q. destruct Q as ([b o] & <- & _). cbn in T |- *. subst b. fold n.
  destruct (Z.leb_spec n last); [lia|]. unfold update_offset. lia.
Qed.

(** A run of three updates from the first step, the same from the third step, and processes with and without waves. *)
Example target_case : paced 1 tol 0 [/ 2; 1; 3 / 2] /\ [/ 2; 1; 3 / 2] <> [] /\
  exists s, run 1 0 9 9 (fun n => IZR n) (fresh 0 (fun n => IZR n) 0) [0; / 2; 1; 3 / 2] = Ret s /\ Rabs (old s - 3 / 2) <= eps.
Proof.
  assert (P : paced 1 tol 0 [/ 2; 1; 3 / 2]) by (cbn; unfold tol; repeat split; lra).
  split; [exact P|]. split; [discriminate|].
  destruct (c97_target 1 0 9 9 (fun n => IZR n) 0 [/ 2; 1; 3 / 2]) as (s & R & O); try lra; try lia; try discriminate; auto.
  { unfold eps. lra. }
  exists s. split; [exact R|]. cbn [List.last] in O. rewrite (step_unique 1 (3 / 2 + 1 * 0) 2) in O by lra.
  rewrite O. cbn. unfold again. cbn. unfold Rabs, eps. destruct (Rcase_abs _); lra.
Qed.
Example init_case : paced 1 tol 0 [/ 2] /\ exists s, run 1 2 9 9 (fun n => IZR n) (fresh 2 (fun n => IZR n) 0) [0; / 2] = Ret s /\ 3 < old s.
Proof.
  assert (P : paced 1 tol 0 [/ 2]) by (cbn; unfold tol; repeat split; lra). split; [exact P|].
  destruct (c97_init_refuted 1 2 9 9 (fun n => IZR n) 0 [/ 2]) as (s & r & R & _ & _ & _ & H & _); try lia; try discriminate; auto.
  { unfold eps. lra. }
  exists s. split; [exact R|]. cbn [List.last] in H. rewrite (step_unique 1 (/ 2 + 1 * 2) 3) in H by lra.
  apply H. cbn. unfold again. cbn. lra.
Qed.
Example init_one_case : paced 1 tol 0 [/ 2] /\ exists s, run 1 1 9 9 (fun n => IZR n) (fresh 1 (fun n => IZR n) 0) [0; / 2] = Ret s /\ 1000000000000 < Rabs (old s - 2).
Proof.
  assert (P : paced 1 tol 0 [/ 2]) by (cbn; unfold tol; repeat split; lra). split; [exact P|].
  destruct (c97_init_one_refuted 1 9 9 (fun n => IZR n) 0 [/ 2]) as (s & R & H); try lia; try lra; try discriminate; auto.
  exists s. split; [exact R|]. cbn [List.last] in H. rewrite (step_unique 1 (/ 2 + 1 * 1) 2) in H by lra.
  cbn in H. unfold again in H. cbn in H. rewrite H. rewrite Rabs_pos_eq by lra. unfold eps. lra.
Qed.
Example restart_case : forward tol 3 [7 / 2] /\ (forall k, (0 <= k <= 9)%Z -> Rabs (IZR k) <= 9) /\ List.last [7 / 2] 3 <= IZR 9 * 1.
Proof.
  split; [cbn; unfold tol; repeat split; lra|]. split; [|cbn; lra]. intros k [A B]. apply IZR_le in A. apply IZR_le in B.
  rewrite Rabs_pos_eq; lra.
Qed.
Example end_case : paced 1 tol 0 [1; 2; 3; 4; 5] /\ step 1 (List.last [1; 2; 3; 4; 5] 0 + 1 * 0) = 5%Z /\ again 0 2 5 = 2%Z.
Proof. split; [cbn; unfold tol; repeat split; lra|]. split; [|reflexivity]. apply step_unique; cbn; lra. Qed.
Example processes_case : map snd (reads 0 9 3 6 [(true, 0); (true, 0)])%Z = [-4; -4]%Z /\
  map snd (reads 0 9 3 6 [(true, 0); (false, 0)])%Z = [-5; 0]%Z.
Proof. split; reflexivity. Qed.

Print Assumptions c97_target.
Print Assumptions c97_between.
Print Assumptions c97_init_refuted.
Print Assumptions c97_init_one_refuted.
Print Assumptions c97_any_step.
Print Assumptions c97_restart.
Print Assumptions c97_restart_end_refuted.
Print Assumptions c97_processes.
Print Assumptions c97_processes_refuted.
