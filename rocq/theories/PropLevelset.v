(** Property C32, level set: density over a run, content of the level set. *)
From Coq Require Import Reals List Lra.
From Verif Require Import Base BoxR BoxRFacts VofAdvect VofSpec VofProofs VofProofs2 Advance AdvanceSpec AdvanceProofs MultiPhase PropMultiPhase PropAdvance Levelset.
Import ListNotations.
Open Scope R_scope.

(** After any number of steps, from any start and with any flow, the density of a cell is between those of the two fluids, whichever is the heavier,
    and is that of one of them away from the interface. *)
Theorem c32_levelset_run : forall rho1 rho2 eps xs s c, 0 < eps -> xs <> [] -> let r := ls_run rho1 rho2 eps xs s in
  Rmin rho1 rho2 <= snd r c <= Rmax rho1 rho2 /\ (eps <= fst r c -> snd r c = rho1) /\ (fst r c <= - eps -> snd r c = rho2) /\ (fst r c = 0 -> snd r c = (rho1 + rho2) / 2).
Proof.
  intros rho1 rho2 eps xs s c E NE r.
  assert (D : snd r c = ls_density rho1 rho2 eps (fst r) c).
  { unfold r, ls_run. destruct (exists_last NE) as (ys & y & ->). rewrite fold_left_app. cbn [fold_left]. unfold ls_advance, ls_stage. destruct (l_new y); reflexivity. }
  rewrite D. unfold ls_density. set (p := fst r c). clearbody p. destruct (c32_heaviside eps p E) as (B & M & H & L & _). set (h := heaviside eps p) in *.
  split; [|split; [intros X; rewrite (H X); ring|split; [intros X; rewrite (L X); ring|]]].
  - clearbody h. clear - B. unfold Rmin, Rmax. destruct (Rle_dec rho1 rho2) as [O|O].
    + pose proof (Rmult_le_pos h (rho2 - rho1) ltac:(lra) ltac:(lra)). pose proof (Rmult_le_pos (1 - h) (rho2 - rho1) ltac:(lra) ltac:(lra)). nra.
    + pose proof (Rmult_le_pos h (rho1 - rho2) ltac:(lra) ltac:(lra)). pose proof (Rmult_le_pos (1 - h) (rho1 - rho2) ltac:(lra) ltac:(lra)). nra.
  - intros X. unfold h. rewrite X, M. field.
Qed.
(** The half width of the interface: its cube is twice the volume of a cell. *)
Theorem c32_levelset_width : forall dx dy dz, 0 < dx -> 0 < dy -> 0 < dz -> 0 < ls_width dx dy dz /\ ls_width dx dy dz ^ 3 = 2 * (dx * dy * dz).
Proof.
  intros dx dy dz X Y Z. unfold ls_width. split; [apply exp_pos|]. rewrite <- Rpower_pow by apply exp_pos. rewrite Rpower_mult. replace (1 / 3 * INR 3) with 1 by (cbn; field).
  rewrite Rpower_1; [ring|]. repeat apply Rmult_lt_0_compat; lra.
Qed.
(** The corrector gives the mean of the old field and of a step made from the predicted one. *)
Theorem c32_levelset_corrector : forall dt phi conv_o conv c,
  ls_corrector dt phi conv_o conv c = (phi c + ls_predictor dt (ls_predictor dt phi conv_o) conv c) / 2.
Proof. intros. unfold ls_corrector, ls_predictor. field. Qed.
(** Over a run, what the level set sums to changes only by what enters through the boundary. *)
Theorem c32_levelset_content : forall g rho1 rho2 eps (xs : list (R * (Z -> ivec -> R) * option (Z -> ivec -> R))) s, nonempty (gr_dom g) ->
  total (gr_dom g) (fst (ls_run rho1 rho2 eps (map (fun x => LS (fst (fst x)) (conv_rate g (snd (fst x))) (option_map (conv_rate g) (snd x))) xs) s)) =
  total (gr_dom g) (fst s) + fold_right (fun x a => fst (fst x) * match snd x with None => inflow g (snd (fst x)) | Some F => (inflow g (snd (fst x)) + inflow g F) / 2 end + a) 0 xs.
Proof.
  intros g rho1 rho2 eps xs. induction xs as [|[[dt Fo] F] xs IH]; intros s N; [cbn; ring|]. unfold ls_run in *. cbn [map fold_left fold_right fst snd option_map]. rewrite IH by exact N.
  destruct (c63_mass g dt (fst s) Fo (match F with Some F => F | None => Fo end) N) as [P C].
  destruct F as [F|].
  - match goal with |- total _ ?f + _ = _ => assert (E : total (gr_dom g) f = total (gr_dom g) (fst s) + dt * ((inflow g Fo + inflow g F) / 2)) by exact C end. rewrite E. ring.
  - match goal with |- total _ ?f + _ = _ => assert (E : total (gr_dom g) f = total (gr_dom g) (fst s) + dt * inflow g Fo) by exact P end. rewrite E. ring.
Qed.

(** One step of a uniform field with rate one: phi is 3 at the end, the width 2, the density that of the first fluid. *)
Example c32_ex_levelset : snd (ls_run 1000 1 2 [LS 1 (fun _ => 1) None] (fun _ => 2, fun _ => 5)) (IV 0 0 0) = 1000.
Proof. apply c32_levelset_run; [lra|discriminate|]. cbn. unfold ls_predictor. lra. Qed.

Print Assumptions c32_levelset_run.
Print Assumptions c32_levelset_width.
Print Assumptions c32_levelset_corrector.
Print Assumptions c32_levelset_content.
