(** C89: immersed bodies. *)
From Coq Require Import Reals Lra Lia Psatz List.
From Coquelicot Require Import Coquelicot.
From Verif Require Import BoxR BoxRFacts VecSpace VecSpaceProofs ABLInitProofs Immersed ImmersedSpec.
Import ListNotations.
Local Open Scope R_scope.

(** ** Distances *)
Lemma vmag_nonneg v : 0 <= vmag v.
Proof. apply sqrt_pos. Qed.
Lemma vmag_sq v : vmag v * vmag v = vmag_sqr v.
Proof. unfold vmag. apply sqrt_sqrt. unfold vmag_sqr. nra. Qed.
Lemma sq_le a b : 0 <= b -> a * a <= b * b -> a <= b.
Proof. intros B H. destruct (Rle_lt_dec a b); [assumption|]. assert (b * b < a * a) by (apply Rmult_le_0_lt_compat; lra). lra. Qed.
Lemma sq_eq a b : 0 <= a -> 0 <= b -> a * a = b * b -> a = b.
Proof. intros. apply Rle_antisym; apply sq_le; lra. Qed.
Lemma abs_sq x : Rabs x * Rabs x = x * x.
Proof. exact (eq_sym (Rsqr_abs x)). Qed.
Lemma vdot_le v w : vdot v w <= vmag v * vmag w.
Proof.
  apply sq_le; [apply Rmult_le_pos; apply vmag_nonneg|]. replace (vmag v * vmag w * (vmag v * vmag w)) with ((vmag v * vmag v) * (vmag w * vmag w)) by ring. rewrite !vmag_sq.
  destruct v as [a b c], w as [d e f]. unfold vdot, vmag_sqr. cbn.
  pose proof (Rle_0_sqr (a * e - b * d)) as H1. pose proof (Rle_0_sqr (b * f - c * e)) as H2. pose proof (Rle_0_sqr (c * d - a * f)) as H3. unfold Rsqr in *. lra.
Qed.
Lemma dist_sq p q : dist p q * dist p q = (vx p - vx q) * (vx p - vx q) + (vy p - vy q) * (vy p - vy q) + (vz p - vz q) * (vz p - vz q).
Proof. unfold dist. rewrite vmag_sq. destruct p, q. unfold vmag_sqr. cbn. ring. Qed.
Lemma dist_nonneg p q : 0 <= dist p q.
Proof. apply vmag_nonneg. Qed.
Lemma dist_tri p q r : dist p r <= dist p q + dist q r.
Proof.
  apply sq_le; [pose proof (dist_nonneg p q); pose proof (dist_nonneg q r); lra|].
  pose proof (vdot_le (vsub p q) (vsub q r)) as H. fold (dist p q) (dist q r) in H.
  replace ((dist p q + dist q r) * (dist p q + dist q r)) with (dist p q * dist p q + dist q r * dist q r + 2 * (dist p q * dist q r)) by ring. rewrite !dist_sq.
  destruct p as [a b c], q as [d e f], r as [g h i]. unfold vdot in H. cbn in *. lra.
Qed.
Lemma dist_sym p q : dist p q = dist q p.
Proof. apply sq_eq; try apply dist_nonneg. rewrite !dist_sq. ring. Qed.
Lemma dist_coord p q : Rabs (vx p - vx q) <= dist p q /\ Rabs (vy p - vy q) <= dist p q /\ Rabs (vz p - vz q) <= dist p q.
Proof.
  pose proof (dist_sq p q) as H. pose proof (dist_nonneg p q) as N.
  set (a := vx p - vx q) in *. set (b := vy p - vy q) in *. set (c := vz p - vz q) in *.
  pose proof (Rle_0_sqr a). pose proof (Rle_0_sqr b). pose proof (Rle_0_sqr c). unfold Rsqr in *.
  repeat split; (apply sq_le; [exact N|rewrite abs_sq; lra]).
Qed.
Definition flat (p : vec) : vec := V3 (vx p) (vy p) 0.
Lemma dist_flat p q : dist (flat p) (flat q) <= dist p q.
Proof. apply sq_le; [apply dist_nonneg|]. rewrite !dist_sq. unfold flat. cbn. pose proof (Rle_0_sqr (vz p - vz q)) as H. unfold Rsqr in H. lra. Qed.
Lemma phi_sphere c r p : phi_loc (Sphere c r) p = dist p c - r.
Proof. reflexivity. Qed.
Lemma phi_cylinder c r h p : phi_loc (Cylinder c r h) p = dist (flat p) (flat c) - r.
Proof. cbn [phi_loc]. f_equal. apply sq_eq; [apply sqrt_pos|apply dist_nonneg|]. rewrite sqrt_sqrt by (pose proof (Rle_0_sqr (vx p - vx c)) as A; pose proof (Rle_0_sqr (vy p - vy c)) as B; unfold Rsqr in *; lra). rewrite dist_sq. unfold flat. cbn. ring. Qed.
Lemma towards c p r : 0 <= r -> vz c = vz p \/ True -> exists q, dist q c = r /\ dist p q = Rabs (dist p c - r) /\ (vz p = vz c -> vz q = vz c).
Proof.
  intros H _. destruct (Req_dec (dist p c) 0) as [Z|NZ].
  - exists (vadd c (V3 r 0 0)). assert (E : dist (vadd c (V3 r 0 0)) c = r).
    { apply sq_eq; [apply dist_nonneg|exact H|]. rewrite dist_sq. unfold vadd. cbn. ring. }
    split; [exact E|]. split; [|intros _; unfold vadd; cbn; ring]. rewrite Z. replace (Rabs (0 - r)) with r by (rewrite Rabs_left1; lra).
    apply Rle_antisym.
    + pose proof (dist_tri p c (vadd c (V3 r 0 0))) as T. rewrite (dist_sym c), E, Z in T. lra.
    + pose proof (dist_tri c p (vadd c (V3 r 0 0))) as T. rewrite (dist_sym c (vadd _ _)), E, (dist_sym c p), Z in T. lra.
  - pose proof (dist_nonneg p c) as P. set (d := dist p c) in *. assert (D : 0 < d) by lra. pose proof (dist_sq p c) as S. fold d in S.
    exists (vadd c (vscale (vsub p c) (r / d))). split; [|split].
    + apply sq_eq; [apply dist_nonneg|exact H|]. rewrite dist_sq. destruct p as [a b e], c as [f g h]. unfold vadd, vscale, vsub. cbn in *.
      replace ((f + (a - f) * (r / d) - f) * (f + (a - f) * (r / d) - f) + (g + (b - g) * (r / d) - g) * (g + (b - g) * (r / d) - g) + (h + (e - h) * (r / d) - h) * (h + (e - h) * (r / d) - h))
        with (((a - f) * (a - f) + (b - g) * (b - g) + (e - h) * (e - h)) * (r / d) * (r / d)) by ring. rewrite <- S. field. lra.
    + apply sq_eq; [apply dist_nonneg|apply Rabs_pos|]. rewrite abs_sq.
      rewrite dist_sq. destruct p as [a b e], c as [f g h]. unfold vadd, vscale, vsub. cbn in *.
      replace ((a - (f + (a - f) * (r / d))) * (a - (f + (a - f) * (r / d))) + (b - (g + (b - g) * (r / d))) * (b - (g + (b - g) * (r / d))) + (e - (h + (e - h) * (r / d))) * (e - (h + (e - h) * (r / d))))
        with (((a - f) * (a - f) + (b - g) * (b - g) + (e - h) * (e - h)) * (1 - r / d) * (1 - r / d)) by ring. rewrite <- S. field. lra.
    + intros E. unfold vadd, vscale, vsub. cbn. rewrite E. ring.
Qed.
Lemma on_ball d r : d <= r /\ ~ d < r <-> d = r.
Proof. split; [lra|intros ->; lra]. Qed.
Lemma abs_diff a b r d : Rabs (a - b) <= d -> b = r -> Rabs (a - r) <= d.
Proof. intros H <-. exact H. Qed.
Lemma rev_tri p q c : Rabs (dist p c - dist q c) <= dist p q.
Proof.
  apply Rabs_le. pose proof (dist_tri p q c). pose proof (dist_tri q p c). rewrite (dist_sym q p) in *. lra.
Qed.
(** The level set of a sphere is, up to the sign, the distance from its surface: negative inside. *)
Theorem c89_sphere : forall c r p, 0 <= r -> is_distance (Sphere c r) p (Rabs (phi_loc (Sphere c r) p)) /\ (phi_loc (Sphere c r) p < 0 <-> interior (Sphere c r) p).
Proof.
  intros c r p H. rewrite phi_sphere. split; [|cbn; lra]. split.
  - intros q Q. unfold surface, solid, interior in Q. rewrite on_ball in Q. rewrite <- Q. apply rev_tri.
  - destruct (towards c p r H (or_intror I)) as (q & A & B & _). exists q. split; [|exact B]. unfold surface, solid, interior. rewrite on_ball. exact A.
Qed.
(** The same of a cylinder, which goes on for ever up and down. *)
Theorem c89_cylinder : forall c r h p, 0 <= r -> is_distance (Cylinder c r h) p (Rabs (phi_loc (Cylinder c r h) p)) /\ (phi_loc (Cylinder c r h) p < 0 <-> interior (Cylinder c r h) p).
Proof.
  intros c r h p H. rewrite phi_cylinder. split; [|cbn; unfold flat; lra]. split.
  - intros q Q. unfold surface, solid, interior in Q. rewrite on_ball in Q. fold (flat q) (flat c) in Q. rewrite <- Q. eapply Rle_trans; [apply rev_tri|apply dist_flat].
  - destruct (towards (flat c) (flat p) r H (or_intror I)) as (q & A & B & C). cbn in C. specialize (C eq_refl).
    exists (V3 (vx q) (vy q) (vz p)). split.
    + unfold surface, solid, interior. rewrite on_ball. cbn. rewrite <- A. unfold flat. f_equal. destruct q. cbn in *. rewrite C. reflexivity.
    + rewrite <- B. apply sq_eq; try apply dist_nonneg. rewrite !dist_sq. unfold flat. cbn. rewrite C. ring.
Qed.
(** The given height of a cylinder has no effect: points of any height are inside, and any two heights give the same body. *)
Theorem c89_cylinder_height_refuted : forall c r h h' p z dx, 0 < r ->
  phi_loc (Cylinder c r h) p = phi_loc (Cylinder c r h') p /\ blanks (Cylinder c r h) dx p = blanks (Cylinder c r h') dx p /\
  phi_loc (Cylinder c r h) (V3 (vx c) (vy c) z) < 0.
Proof.
  intros c r h h' p z dx H. split; [reflexivity|]. split; [reflexivity|]. cbn. replace ((vx c - vx c) * (vx c - vx c) + (vy c - vy c) * (vy c - vy c)) with 0 by ring. rewrite sqrt_0. lra.
Qed.
Lemma box_test c l w h p : (Rleb (Rabs (vx p - vx c)) (0.5 * l) && Rleb (Rabs (vy p - vy c)) (0.5 * w) && Rleb (Rabs (vz p - vz c)) (0.5 * h))%bool = true <-> solid (Box c l w h) p.
Proof. rewrite !Bool.andb_true_iff, !Rleb_spec. cbn. rewrite !half_dot. lra. Qed.
Lemma max3 a b c x : Rmax a (Rmax b c) <= x <-> a <= x /\ b <= x /\ c <= x.
Proof. unfold Rmax. repeat destruct (Rle_dec _ _); lra. Qed.
Lemma max3_cases a b c : (Rmax a (Rmax b c) = a \/ Rmax a (Rmax b c) = b \/ Rmax a (Rmax b c) = c) /\ a <= Rmax a (Rmax b c) /\ b <= Rmax a (Rmax b c) /\ c <= Rmax a (Rmax b c).
Proof. unfold Rmax. repeat destruct (Rle_dec _ _); lra. Qed.
Lemma min3_cases a b c : (Rmin a (Rmin b c) = a \/ Rmin a (Rmin b c) = b \/ Rmin a (Rmin b c) = c) /\ Rmin a (Rmin b c) <= a /\ Rmin a (Rmin b c) <= b /\ Rmin a (Rmin b c) <= c.
Proof. unfold Rmin. repeat destruct (Rle_dec _ _); lra. Qed.
Lemma face (x x0 l : R) : 0 <= l -> Rabs (x - x0) <= l / 2 -> exists y, Rabs (y - x0) = l / 2 /\ Rabs (x - y) = l / 2 - Rabs (x - x0).
Proof.
  intros L H. destruct (Rle_lt_dec 0 (x - x0)) as [P|N].
  - exists (x0 + l / 2). rewrite (Rabs_right (x - x0)) in * by lra. rewrite (Rabs_right (x0 + l / 2 - x0)) by lra. rewrite Rabs_left1 by lra. lra.
  - exists (x0 - l / 2). rewrite (Rabs_left (x - x0)) in * by lra. rewrite (Rabs_left1 (x0 - l / 2 - x0)) by lra. rewrite Rabs_right by lra. lra.
Qed.
Lemma dist_along p q d : 0 <= d -> (Rabs (vx p - vx q) = d /\ vy p = vy q /\ vz p = vz q) \/ (vx p = vx q /\ Rabs (vy p - vy q) = d /\ vz p = vz q) \/ (vx p = vx q /\ vy p = vy q /\ Rabs (vz p - vz q) = d) -> dist p q = d.
Proof.
  intros D H. apply sq_eq; [apply dist_nonneg|exact D|]. rewrite dist_sq. assert (S : forall x, x * x = Rabs x * Rabs x) by (intros x; symmetry; apply abs_sq).
  destruct H as [(A & B & C)|[(A & B & C)|(A & B & C)]].
  - rewrite B, C, (S (vx p - vx q)), A. ring.
  - rewrite A, C, (S (vy p - vy q)), B. ring.
  - rewrite A, B, (S (vz p - vz q)), C. ring.
Qed.
(** Inside a box the level set is minus the distance from the surface. *)
Theorem c89_box : forall c l w h p, 0 <= l -> 0 <= w -> 0 <= h -> solid (Box c l w h) p ->
  phi_loc (Box c l w h) p <= 0 /\ is_distance (Box c l w h) p (- phi_loc (Box c l w h) p) /\ (phi_loc (Box c l w h) p < 0 <-> interior (Box c l w h) p).
Proof.
  intros c l w h p L W H S. assert (F : phi_loc (Box c l w h) p = Rmax (Rabs (vx p - vx c) - l / 2) (Rmax (Rabs (vy p - vy c) - w / 2) (Rabs (vz p - vz c) - h / 2))).
  { unfold phi_loc. rewrite (proj2 (box_test c l w h p) S). cbv zeta. rewrite !rmax_spec, !half_dot. unfold Rdiv. rewrite !(Rmult_comm (/ 2)). reflexivity. }
  rewrite F. destruct (max3_cases (Rabs (vx p - vx c) - l / 2) (Rabs (vy p - vy c) - w / 2) (Rabs (vz p - vz c) - h / 2)) as (M & MA & MB & MC). set (m := Rmax _ _) in *. clearbody m.
  destruct S as (SX & SY & SZ). split; [lra|]. split; [split|].
  - intros q ((QX & QY & QZ) & N). cbn in QX, QY, QZ, N. destruct (dist_coord p q) as (DX & DY & DZ).
    assert (T : forall a b d, Rabs (b - d) <= Rabs (a - b) + Rabs (a - d)) by (intros a b d; replace (b - d) with (- (a - b) + (a - d)) by ring; eapply Rle_trans; [apply Rabs_triang|rewrite Rabs_Ropp; lra]).
    pose proof (T (vx p) (vx q) (vx c)). pose proof (T (vy p) (vy q) (vy c)). pose proof (T (vz p) (vz q) (vz c)).
    destruct (Rle_lt_dec (l / 2) (Rabs (vx q - vx c))); [lra|]. destruct (Rle_lt_dec (w / 2) (Rabs (vy q - vy c))); [lra|]. destruct (Rle_lt_dec (h / 2) (Rabs (vz q - vz c))); [lra|]. tauto.
  - destruct M as [M|[M|M]].
    + destruct (face (vx p) (vx c) l L SX) as (y & A & B). exists (V3 y (vy p) (vz p)). split; [split; [cbn; lra|cbn; lra]|]. apply dist_along; [lra|]. left. cbn. lra.
    + destruct (face (vy p) (vy c) w W SY) as (y & A & B). exists (V3 (vx p) y (vz p)). split; [split; [cbn; lra|cbn; lra]|]. apply dist_along; [lra|]. right. left. cbn. lra.
    + destruct (face (vz p) (vz c) h H SZ) as (y & A & B). exists (V3 (vx p) (vy p) y). split; [split; [cbn; lra|cbn; lra]|]. apply dist_along; [lra|]. right. right. cbn. lra.
  - cbn. destruct M as [M|[M|M]]; lra.
Qed.
Lemma phi_box_outside c l w h p : ~ solid (Box c l w h) p ->
  phi_loc (Box c l w h) p = Rmin (Rabs (Rabs (vx p - vx c) - l / 2)) (Rmin (Rabs (Rabs (vy p - vy c) - w / 2)) (Rabs (Rabs (vz p - vz c) - h / 2))).
Proof.
  intros N. unfold phi_loc. destruct (_ && _)%bool eqn:E; [apply box_test in E; contradiction|]. cbv zeta. rewrite !rmin_spec, !half_dot. unfold Rdiv. rewrite !(Rmult_comm (/ 2)). reflexivity.
Qed.
(** Outside a box it is not negative and at most the distance from the box (missing: equal to it). *)
Theorem c89_box_outside_partial : forall c l w h p, ~ solid (Box c l w h) p ->
  0 <= phi_loc (Box c l w h) p /\ forall q, solid (Box c l w h) q -> phi_loc (Box c l w h) p <= dist p q.
Proof.
  intros c l w h p N. rewrite (phi_box_outside c l w h p N).
  destruct (min3_cases (Rabs (Rabs (vx p - vx c) - l / 2)) (Rabs (Rabs (vy p - vy c) - w / 2)) (Rabs (Rabs (vz p - vz c) - h / 2))) as (M & MA & MB & MC). set (m := Rmin _ _) in *. clearbody m. split.
  - destruct M as [->|[->| ->]]; apply Rabs_pos.
  - intros q (QX & QY & QZ). destruct (dist_coord p q) as (DX & DY & DZ).
    assert (T : forall a b d, Rabs (a - d) <= Rabs (a - b) + Rabs (b - d)) by (intros a b d; replace (a - d) with ((a - b) + (b - d)) by ring; apply Rabs_triang).
    pose proof (T (vx p) (vx q) (vx c)). pose proof (T (vy p) (vy q) (vy c)). pose proof (T (vz p) (vz q) (vz c)).
    assert (O : l / 2 < Rabs (vx p - vx c) \/ w / 2 < Rabs (vy p - vy c) \/ h / 2 < Rabs (vz p - vz c)).
    { destruct (Rle_lt_dec (Rabs (vx p - vx c)) (l / 2)); [|lra]. destruct (Rle_lt_dec (Rabs (vy p - vy c)) (w / 2)); [|lra]. destruct (Rle_lt_dec (Rabs (vz p - vz c)) (h / 2)); [|lra]. exfalso. apply N. cbn. lra. }
    destruct O as [O|[O|O]].
    + rewrite (Rabs_right (Rabs (vx p - vx c) - l / 2)) in MA by lra. lra.
    + rewrite (Rabs_right (Rabs (vy p - vy c) - w / 2)) in MB by lra. lra.
    + rewrite (Rabs_right (Rabs (vz p - vz c) - h / 2)) in MC by lra. lra.
Qed.
(** In the planes of its faces the level set of a box is zero, however far from it. *)
Theorem c89_box_planes_refuted : forall c l w h D, 0 < l -> 0 < w -> 0 < h -> 0 < D ->
  exists p, phi_loc (Box c l w h) p = 0 /\ (forall q, solid (Box c l w h) q -> D <= dist p q).
Proof.
  intros c l w h D L W H P. set (p := V3 (vx c + l / 2) (vy c + w / 2 + D) (vz c)). exists p.
  assert (Y : Rabs (vy p - vy c) = w / 2 + D) by (unfold p; cbn; rewrite Rabs_right; lra).
  assert (N : ~ solid (Box c l w h) p) by (intros (_ & A & _); lra). split.
  - rewrite phi_box_outside by exact N. replace (Rabs (vx p - vx c)) with (l / 2) by (unfold p; cbn; rewrite Rabs_right; lra). replace (l / 2 - l / 2) with 0 by ring. rewrite Rabs_R0.
    apply Rmin_left. apply Rmin_glb; apply Rabs_pos.
  - intros q (_ & Q & _). destruct (dist_coord p q) as (_ & DY & _). assert (Rabs (vy p - vy c) <= Rabs (vy p - vy q) + Rabs (vy q - vy c)) by (replace (vy p - vy c) with ((vy p - vy q) + (vy q - vy c)) by ring; apply Rabs_triang). lra.
Qed.

(** ** Several bodies *)
Definition sized (s : shape) : Prop := match s with Sphere _ r | Cylinder _ r _ => 0 <= r | Box _ l w h => 0 <= l /\ 0 <= w /\ 0 <= h end.
Lemma phi_sign s p : sized s -> (phi_loc s p < 0 <-> interior s p).
Proof.
  intros Z. destruct s as [c r|c r h|c l w h].
  - apply c89_sphere, Z.
  - apply c89_cylinder, Z.
  - destruct Z as (L & W & H). destruct (Rle_lt_dec (Rabs (vx p - vx c)) (l / 2)) as [A|A]; [destruct (Rle_lt_dec (Rabs (vy p - vy c)) (w / 2)) as [B|B]; [destruct (Rle_lt_dec (Rabs (vz p - vz c)) (h / 2)) as [C|C]|]|].
    1: apply c89_box; try assumption; cbn; lra.
    all: assert (N : ~ solid (Box c l w h) p) by (cbn; lra); pose proof (proj1 (c89_box_outside_partial c l w h p N)); cbn [interior]; split; [lra|lra].
Qed.
Lemma level_fold bs p : forall a, let m := fold_left (fun phi b => rmin (phi_loc (b_shape b) p) phi) bs a in
  m <= a /\ (forall b, In b bs -> m <= phi_loc (b_shape b) p) /\ (m = a \/ exists b, In b bs /\ m = phi_loc (b_shape b) p).
Proof.
  induction bs as [|b bs IH]; intros a; cbn zeta.
  - cbn. split; [lra|]. split; [intros ? []|]. left. reflexivity.
  - cbn [fold_left]. destruct (IH (rmin (phi_loc (b_shape b) p) a)) as (A & B & C). set (m := fold_left _ bs _) in *. clearbody m. rewrite rmin_spec in *.
    pose proof (Rmin_l (phi_loc (b_shape b) p) a). pose proof (Rmin_r (phi_loc (b_shape b) p) a).
    split; [lra|]. split.
    + intros b' [<-|I]; [lra|auto].
    + destruct C as [C|(b' & I & C)]; [|right; exists b'; split; [right; exact I|exact C]].
      assert (E : Rmin (phi_loc (b_shape b) p) a = phi_loc (b_shape b) p \/ Rmin (phi_loc (b_shape b) p) a = a) by (unfold Rmin; destruct (Rle_dec _ _); [left|right]; reflexivity). destruct E as [E|E]; rewrite E in C; [right; exists b; split; [left; reflexivity|exact C]|left; exact C].
Qed.
(** The level set of all bodies is the smallest of those of the bodies (or the value it starts with), and negative exactly
    inside one of them. *)
Theorem c89_union : forall bs p,
  (forall b, In b bs -> level_set bs p <= phi_loc (b_shape b) p) /\ (level_set bs p = 10 ^ 30 \/ exists b, In b bs /\ level_set bs p = phi_loc (b_shape b) p) /\
  ((forall b, In b bs -> sized (b_shape b)) -> (level_set bs p < 0 <-> exists b, In b bs /\ interior (b_shape b) p)).
Proof.
  intros bs p. unfold level_set. destruct (level_fold bs p (10 ^ 30)) as (A & B & C). set (m := fold_left _ bs _) in *. clearbody m. split; [exact B|]. split; [exact C|]. intros S. split.
  - intros N. destruct C as [C|(b & I & C)]; [assert (0 < 10 ^ 30) by (apply pow_lt; lra); lra|]. exists b. split; [exact I|]. apply phi_sign; [apply S, I|lra].
  - intros (b & I & H). apply phi_sign in H; [|apply S, I]. specialize (B b I). lra.
Qed.
Lemma blanks_ok s dx p : blanks s dx p = true <-> solid (grown s dx) p.
Proof.
  destruct s as [c r|c r h|c l w h]; cbn [blanks grown].
  - rewrite Rleb_spec. reflexivity.
  - rewrite Rleb_spec. pose proof (phi_cylinder c r h p) as E. cbn [phi_loc] in E. cbn [solid]. fold (flat p) (flat c). lra.
  - rewrite !Bool.andb_true_iff, !Rleb_spec. cbn [solid]. rewrite !half_dot. lra.
Qed.
(** The divergence is taken out at exactly the nodes of the bodies (of boxes grown by half a cell), and kept elsewhere. *)
Theorem c89_nodes : forall bs dx p rhs,
  ((exists b, In b bs /\ solid (grown (b_shape b) dx) p) -> masked_rhs bs dx p rhs = 0) /\
  ((forall b, In b bs -> ~ solid (grown (b_shape b) dx) p) -> masked_rhs bs dx p rhs = rhs).
Proof.
  intros bs dx p rhs. unfold masked_rhs, node_mask.
  assert (Z : forall bs, fold_left (fun m b => if blanks (b_shape b) dx p then 0%Z else m) bs 0%Z = 0%Z) by (induction bs0 as [|b bs0 IH]; [reflexivity|]; cbn [fold_left]; destruct (blanks _ _ _); exact IH).
  split.
  - intros (b & I & S). apply blanks_ok in S. enough (E : fold_left (fun m b => if blanks (b_shape b) dx p then 0%Z else m) bs 1%Z = 0%Z) by (rewrite E; ring).
    revert I. generalize 1%Z. induction bs as [|b' bs IH]; intros z I; [destruct I|]. cbn [fold_left]. destruct I as [->|I]; [rewrite S; apply Z|apply IH, I].
  - intros N. enough (E : fold_left (fun m b => if blanks (b_shape b) dx p then 0%Z else m) bs 1%Z = 1%Z) by (rewrite E; ring).
    induction bs as [|b' bs IH]; [reflexivity|]. cbn [fold_left]. destruct (blanks (b_shape b') dx p) eqn:E; [apply blanks_ok in E; exfalso; apply (N b'); [left; reflexivity|exact E]|].
    apply IH. intros b I. apply N. right. exact I.
Qed.

(** ** Velocities *)
Definition given (b : body) (v : vec) : Prop := b_mms b = false /\ exists rest, b_vel b = vx v :: vy v :: vz v :: rest.
Lemma dirichlet_ok vs phi_b phi a b c rest v : vs = a :: b :: c :: rest -> 0 <= phi_b -> dirichlet_vel vs phi_b phi v = Ret (if Rltb phi 0 then V3 a b c else v).
Proof.
  intros -> P. cbn [dirichlet_vel]. f_equal. destruct (Rltb phi (- phi_b)) eqn:E.
  - apply Rltb_spec in E. rewrite (proj2 (Rltb_spec phi 0)) by lra. reflexivity.
  - apply Rltb_false in E. rewrite (proj2 (Rleb_spec (- phi_b) phi)) by lra. rewrite Bool.andb_true_r. reflexivity.
Qed.
Lemma update_last vo t p phi_b phi bs l w v : 0 <= phi_b -> (forall b, In b bs -> exists u, given b u) -> given l w ->
  update_velocities vo t p phi_b phi (bs ++ [l]) v = Ret (if Rltb phi 0 then w else v).
Proof.
  intros P G L. revert v. induction bs as [|b bs IH]; intros v.
  - destruct L as (M & rest & E). cbn [app update_velocities]. rewrite M, (dirichlet_ok _ phi_b phi _ _ _ rest v E P). cbn [obind]. destruct w; reflexivity.
  - destruct (G b (or_introl eq_refl)) as (u & M & rest & E). cbn [app update_velocities]. rewrite M, (dirichlet_ok _ phi_b phi _ _ _ rest v E P). cbn [obind].
    rewrite IH by (intros b' I; apply G; right; exact I). destruct (Rltb phi 0); reflexivity.
Qed.
(** When all bodies have the same velocity, it is the velocity handed to the pressure solve in every cell inside a body, and
    every other cell keeps its own. *)
Theorem c89_velocity_partial : forall vo t p phi_b bs w v, 0 <= phi_b -> bs <> [] -> (forall b, In b bs -> sized (b_shape b) /\ given b w) ->
  ((exists b, In b bs /\ interior (b_shape b) p) -> update_velocities vo t p phi_b (level_set bs p) bs v = Ret w) /\
  ((forall b, In b bs -> ~ interior (b_shape b) p) -> update_velocities vo t p phi_b (level_set bs p) bs v = Ret v).
Proof.
  intros vo t p phi_b bs w v P NE G. destruct (c89_union bs p) as (_ & _ & U). specialize (U (fun b I => proj1 (G b I))). set (m := level_set bs p) in *. clearbody m.
  destruct (exists_last NE) as (bs' & l & ->).
  rewrite (update_last vo t p phi_b m bs' l w v P) by (try (intros b I; exists w; apply G, in_or_app; left; exact I); apply G, in_or_app; right; left; reflexivity).
  split.
  - intros H. apply U in H. rewrite (proj2 (Rltb_spec _ _) H). reflexivity.
  - intros H. destruct (Rltb m 0) eqn:E; [|reflexivity]. apply Rltb_spec in E. apply U in E. destruct E as (b & I & C). exfalso. exact (H b I C).
Qed.
(** With different velocities the last body gives its own to all of them. *)
Theorem c89_last_body_refuted : forall vo t p phi_b bs l w v, 0 <= phi_b -> (forall b, In b (bs ++ [l]) -> sized (b_shape b) /\ exists u, given b u) -> given l w ->
  (exists b, In b bs /\ interior (b_shape b) p) -> update_velocities vo t p phi_b (level_set (bs ++ [l]) p) (bs ++ [l]) v = Ret w.
Proof.
  intros vo t p phi_b bs l w v P G L (b & I & C). destruct (c89_union (bs ++ [l]) p) as (_ & _ & U). specialize (U (fun b I => proj1 (G b I))). set (m := level_set _ p) in *. clearbody m.
  rewrite (update_last vo t p phi_b m bs l w v P (fun b I => proj2 (G b (in_or_app _ _ _ (or_introl I)))) L).
  rewrite (proj2 (Rltb_spec m 0)); [reflexivity|]. apply U. exists b. split; [apply in_or_app; left; exact I|exact C].
Qed.
(** Fewer than three numbers for the velocity are read past their end. *)
Theorem c89_short_velocity_refuted : forall vo t p phi_b phi b bs v, b_mms b = false -> (length (b_vel b) < 3)%nat -> update_velocities vo t p phi_b phi (b :: bs) v = UB.
Proof. intros vo t p phi_b phi b bs v M L. cbn [update_velocities]. rewrite M. destruct (b_vel b) as [|x [|y [|z r]]]; cbn in L; try reflexivity. lia. Qed.
(** The normal is a unit vector in the outermost layer inside a body, where the level set has a gradient, and zero elsewhere. *)
Theorem c89_normal : forall eps phi_b phi g, 0 <= eps -> 0 <= phi_b ->
  (- phi_b <= phi < 0 -> eps < vmag_sqr g -> vmag (normal_at eps phi_b phi g) = 1 /\ exists k, 0 < k /\ normal_at eps phi_b phi g = vscale g k) /\
  (phi < - phi_b \/ 0 <= phi -> normal_at eps phi_b phi g = vzero).
Proof.
  intros eps phi_b phi g E P. unfold normal_at. split.
  - intros [A B] C. rewrite (proj2 (Rltb_false phi (- phi_b))) by lra. rewrite (proj2 (Rltb_spec phi 0)) by lra. rewrite (proj2 (Rleb_spec _ _)) by lra. cbn [andb]. rewrite (proj2 (Rltb_spec _ _) C).
    assert (M : 0 < sqrt (vmag_sqr g)) by (apply sqrt_lt_R0; lra). pose proof (sqrt_sqrt (vmag_sqr g) ltac:(lra)) as SS. set (s := sqrt (vmag_sqr g)) in *. clearbody s. split.
    + apply sq_eq; [apply vmag_nonneg|lra|]. rewrite vmag_sq. destruct g as [a b c]. unfold vmag_sqr, vdivs in *. cbn in *.
      replace (a / s * (a / s) + b / s * (b / s) + c / s * (c / s)) with ((a * a + b * b + c * c) / (s * s)) by (field; lra). rewrite <- SS. field. lra.
    + exists (/ s). split; [apply Rinv_0_lt_compat, M|]. reflexivity.
  - intros [A|A].
    + rewrite (proj2 (Rltb_spec _ _) A). reflexivity.
    + rewrite (proj2 (Rltb_false phi (- phi_b))) by lra. rewrite (proj2 (Rltb_false phi 0)) by lra. reflexivity.
Qed.

(** ** Manufactured solution *)
Definition vortex_u (u0 v0 omega x y t : R) : R := u0 - cos (PI * (x - u0 * t)) * sin (PI * (y - v0 * t)) * exp (-2 * omega * t).
Definition vortex_v (u0 v0 omega x y t : R) : R := v0 + sin (PI * (x - u0 * t)) * cos (PI * (y - v0 * t)) * exp (-2 * omega * t).
(** With the manufactured solution every cell inside or on a body has the velocity of the vortex at that time; that velocity
    has no divergence. *)
Theorem c89_vortex : forall u0 v0 omega t p phi_b phi bs v, bs <> [] -> (forall b, In b bs -> b_mms b = true) ->
  update_velocities (u0, v0, omega) t p phi_b phi bs v = Ret (if Rle_dec phi 0 then V3 (vortex_u u0 v0 omega (vx p) (vy p) t) (vortex_v u0 v0 omega (vx p) (vy p) t) 0 else v) /\
  exists a, is_derive (fun x => vortex_u u0 v0 omega x (vy p) t) (vx p) a /\ is_derive (fun y => vortex_v u0 v0 omega (vx p) y t) (vy p) (- a).
Proof.
  intros u0 v0 omega t p phi_b phi bs v NE M. split.
  - revert v. induction bs as [|b bs IH]; intros v; [contradiction|]. cbn [update_velocities]. rewrite (M b (or_introl eq_refl)). cbn [obind].
    assert (E : forall w, mms_vel (u0, v0, omega) t p phi w = if Rle_dec phi 0 then V3 (vortex_u u0 v0 omega (vx p) (vy p) t) (vortex_v u0 v0 omega (vx p) (vy p) t) 0 else w).
    { intros w. unfold mms_vel. destruct (Rle_dec phi 0) as [A|A]; [rewrite (proj2 (Rleb_spec _ _) A)|rewrite (proj2 (Rleb_false phi 0)) by lra]; reflexivity. }
    rewrite E. destruct bs as [|b' bs']; [reflexivity|]. rewrite IH; [|discriminate|intros b'' I; apply M; right; exact I]. destruct (Rle_dec phi 0); reflexivity.
  - exists (PI * sin (PI * (vx p - u0 * t)) * sin (PI * (vy p - v0 * t)) * exp (-2 * omega * t)). split; unfold vortex_u, vortex_v; auto_derive; try exact I; unfold Rminus; ring.
Qed.
(** It is also put into cells that are far from a box, in the planes of its faces. *)
Theorem c89_vortex_planes_refuted : forall u0 v0 omega t phi_b c l w h vel D v, 0 < l -> 0 < w -> 0 < h -> 0 < D ->
  exists p, (forall q, solid (Box c l w h) q -> D <= dist p q) /\
  let bs := [BB (Box c l w h) true vel] in
  update_velocities (u0, v0, omega) t p phi_b (level_set bs p) bs v = Ret (V3 (vortex_u u0 v0 omega (vx p) (vy p) t) (vortex_v u0 v0 omega (vx p) (vy p) t) 0).
Proof.
  intros u0 v0 omega t phi_b c l w h vel D v L W H P. destruct (c89_box_planes_refuted c l w h D L W H P) as (p & A & B). exists p. split; [exact B|]. intros bs.
  rewrite (proj1 (c89_vortex u0 v0 omega t p phi_b (level_set bs p) bs v ltac:(discriminate) ltac:(intros b [<-|[]]; reflexivity))).
  destruct (c89_union bs p) as (U & _). specialize (U _ (or_introl eq_refl)). cbn [b_shape] in U. rewrite A in U. destruct (Rle_dec (level_set bs p) 0); [reflexivity|lra].
Qed.

(** ** Over a run *)
Definition keeps (e : event) : Prop := match e with Regrid true _ => False | _ => True end.
Lemma life_phi vo bs p phi_b es : forall s c h, Forall keeps es -> life vo bs p phi_b es s = Ret (c, h) -> c_phi c = c_phi (fst s).
Proof.
  induction es as [|e es IH]; intros [c0 h0] c h K H.
  - cbn in H. injection H as <- <-. reflexivity.
  - inversion K as [|? ? K1 K2]; subst. cbn [life] in H. destruct e as [t proj|[] v]; [|destruct K1|].
    + cbn [act] in H. destruct (update_velocities _ _ _ _ _ _ _) as [w| |]; try discriminate. cbn [obind] in H. apply IH in H; [exact H|exact K2].
    + cbn [act obind] in H. apply IH in H; [exact H|exact K2].
Qed.
Lemma life_app vo bs p phi_b es es' s : life vo bs p phi_b (es ++ es') s = obind (life vo bs p phi_b es s) (life vo bs p phi_b es').
Proof.
  revert s. induction es as [|e es IH]; intros s; [reflexivity|]. cbn [app life]. destruct (act vo bs p phi_b e s); cbn [obind]; [apply IH|reflexivity|reflexivity].
Qed.
(** As long as the level of a cell is not made anew, every pressure solve is handed the velocity of the bodies inside them. *)
Theorem c89_handed : forall vo bs dx p q phi_b w v es c h, 0 <= phi_b -> bs <> [] -> (forall b, In b bs -> sized (b_shape b) /\ given b w) ->
  (exists b, In b bs /\ interior (b_shape b) p) -> Forall keeps es ->
  life vo bs p phi_b es (begin bs dx p q v, []) = Ret (c, h) -> forall u, In u h -> u = w.
Proof.
  intros vo bs dx p q phi_b w v es c h P NE G X K H.
  assert (Gen : forall es s c h, Forall keeps es -> c_phi (fst s) = level_set bs p -> Forall (fun u => u = w) (snd s) -> life vo bs p phi_b es s = Ret (c, h) -> Forall (fun u => u = w) h).
  { clear es c h K H. induction es as [|e es IH]; intros [c0 h0] c h K E F H.
    - cbn in H. injection H as <- <-. exact F.
    - inversion K as [|? ? K1 K2]; subst. cbn [life] in H. cbn [fst snd] in *. destruct e as [t proj|[] v']; [|destruct K1|].
      + cbn [act] in H. rewrite E in H. rewrite (proj1 (c89_velocity_partial vo t p phi_b bs w (c_vel c0) P NE G) X) in H. cbn [obind] in H.
        apply IH in H; [exact H|exact K2|reflexivity|]. cbn [snd]. apply Forall_app. split; [exact F|]. constructor; [reflexivity|constructor].
      + cbn [act obind] in H. apply IH in H; [exact H|exact K2|exact E|exact F]. }
  specialize (Gen es (begin bs dx p q v, []) c h K eq_refl (Forall_nil _) H). rewrite Forall_forall in Gen. exact Gen.
Qed.
(** After the solve the velocity is what the solve makes of it: nothing puts that of the body back. *)
Theorem c89_after_solve_refuted : forall vo bs dx p q phi_b w v, 0 <= phi_b -> bs <> [] -> (forall b, In b bs -> sized (b_shape b) /\ given b w) ->
  (exists b, In b bs /\ interior (b_shape b) p) -> forall t (any : vec),
  exists proj c, life vo bs p phi_b [Correct t proj] (begin bs dx p q v, []) = Ret (c, [w]) /\ c_vel c = any.
Proof.
  intros vo bs dx p q phi_b w v P NE G X t any. exists (fun _ => any). cbn [life act begin c_phi c_vel]. rewrite (proj1 (c89_velocity_partial vo t p phi_b bs w v P NE G) X). cbn [obind].
  eexists. split; reflexivity.
Qed.
Lemma regrid_gone : forall vo bs p phi_b v es c h, 0 <= phi_b ->
  life vo bs p phi_b es (CL 0 v 1%Z, []) = Ret (c, h) -> forall u, In u h ->
  ((forall b, In b bs -> exists w, given b w) -> exists before c' h', life vo bs p phi_b before (CL 0 v 1%Z, []) = Ret (c', h') /\ u = c_vel c') /\
  (bs <> [] -> (forall b, In b bs -> b_mms b = true) -> exists t, let '(u0, v0, omega) := vo in u = V3 (vortex_u u0 v0 omega (vx p) (vy p) t) (vortex_v u0 v0 omega (vx p) (vy p) t) 0).
Proof.
  intros vo bs p phi_b v es c h P. revert c h. pattern es. apply rev_ind; clear es.
  - intros c h H u I. cbn in H. injection H as <- <-. destruct I.
  - intros e es IH c h H u I. rewrite life_app in H. destruct (life vo bs p phi_b es (CL 0 v 1%Z, [])) as [[c1 h1]| |] eqn:E; try discriminate. cbn [obind life] in H.
    assert (PH : c_phi c1 = 0).
    { clear -E. assert (Gen : forall es s c h, c_phi (fst s) = 0 -> life vo bs p phi_b es s = Ret (c, h) -> c_phi c = 0).
      { induction es0 as [|e es0 IH]; intros [c0 h0] c h Z H; [cbn in H; injection H as <- <-; exact Z|]. cbn [life] in H. cbn [fst] in Z. destruct e as [t proj|rm v'].
        - cbn [act] in H. destruct (update_velocities _ _ _ _ _ _ _) as [w| |]; try discriminate. cbn [obind] in H. apply IH in H; [exact H|exact Z].
        - cbn [act obind] in H. apply IH in H; [exact H|]. cbn. destruct rm; [reflexivity|exact Z]. }
      exact (Gen es (CL 0 v 1%Z, []) c1 h1 eq_refl E). }
    destruct e as [t proj|rm v'].
    + cbn [act] in H. destruct (update_velocities vo t p phi_b (c_phi c1) bs (c_vel c1)) as [w| |] eqn:U; try discriminate. cbn [obind] in H. injection H as <- <-.
      apply in_app_or in I. destruct I as [I|[<-|[]]]; [exact (IH c1 h1 eq_refl u I)|]. split.
      * intros G. exists es, c1, h1. split; [exact E|]. rewrite PH in U. clear -G U P. revert U. generalize (c_vel c1). induction bs as [|b bs IH]; intros x U; [cbn in U; injection U as <-; reflexivity|].
        destruct (G b (or_introl eq_refl)) as (g & M & rest & B). cbn [update_velocities] in U. rewrite M, (dirichlet_ok _ phi_b 0 _ _ _ rest x B P) in U. cbn [obind] in U.
        rewrite (proj2 (Rltb_false 0 0)) in U by lra. apply IH; [intros b' I'; apply G; right; exact I'|exact U].
      * intros NE M. exists t. destruct vo as [[u0 v0] omega]. rewrite (proj1 (c89_vortex u0 v0 omega t p phi_b (c_phi c1) bs (c_vel c1) NE M)) in U. injection U as <-. destruct (Rle_dec (c_phi c1) 0); [reflexivity|lra].
    + cbn [act obind] in H. injection H as <- <-. exact (IH c1 h1 eq_refl u I).
Qed.
Lemma regrid_state vo bs p phi_b v0 s : act vo bs p phi_b (Regrid true v0) s = Ret (CL 0 v0 1%Z, snd s).
Proof. destruct s. reflexivity. Qed.
(** When the level of a cell is made anew, its bodies are gone: later solves are handed the cell's own velocity, inside them
    as well; with a manufactured solution, all cells of the level are handed that of the vortex. *)
Theorem c89_regrid_refuted : forall vo bs p phi_b v before_mesh at_mesh es c h, 0 <= phi_b ->
  act vo bs p phi_b (Regrid true v) before_mesh = Ret at_mesh -> life vo bs p phi_b es (fst at_mesh, []) = Ret (c, h) -> forall u, In u h ->
  ((forall b, In b bs -> exists w, given b w) -> exists before c' h', life vo bs p phi_b before (fst at_mesh, []) = Ret (c', h') /\ u = c_vel c') /\
  (bs <> [] -> (forall b, In b bs -> b_mms b = true) -> exists t, let '(u0, v0, omega) := vo in u = V3 (vortex_u u0 v0 omega (vx p) (vy p) t) (vortex_v u0 v0 omega (vx p) (vy p) t) 0).
Proof.
  intros vo bs p phi_b v s s' es c h P A H u I. rewrite regrid_state in A. injection A as <-. exact (regrid_gone vo bs p phi_b v es c h P H u I).
Qed.
(** After any change of the mesh no node is taken out any more, on any level. *)
Theorem c89_regrid_nodes_refuted : forall vo bs p phi_b es s c h, (exists r v, In (Regrid r v) es) -> life vo bs p phi_b es s = Ret (c, h) -> c_mask c = 1%Z.
Proof.
  intros vo bs p phi_b es s c h (r & v & I) H.
  assert (Gen : forall es s c h, c_mask (fst s) = 1%Z -> life vo bs p phi_b es s = Ret (c, h) -> c_mask c = 1%Z).
  { induction es0 as [|e es0 IH]; intros [c0 h0] c' h' Z H'; [cbn in H'; injection H' as <- <-; exact Z|]. cbn [life] in H'. cbn [fst] in Z. destruct e as [t proj|rm v'].
    - cbn [act] in H'. destruct (update_velocities _ _ _ _ _ _ _) as [w| |]; try discriminate. cbn [obind] in H'. apply IH in H'; [exact H'|exact Z].
    - cbn [act obind] in H'. apply IH in H'; [exact H'|reflexivity]. }
  apply in_split in I. destruct I as (a & b & ->). rewrite life_app in H. destruct (life vo bs p phi_b a s) as [[c1 h1]| |]; try discriminate. cbn [obind life act] in H.
  exact (Gen b (CL (if r then 0 else c_phi c1) v 1%Z, h1) c h eq_refl H).
Qed.

(** ** Cases *)
Example case_union : let bs := [BB (Sphere (V3 0 0 0) 1) false [1; 2; 3]; BB (Box (V3 5 0 0) 2 2 2) false [0; 0; 0]] in
  (forall b, In b bs -> sized (b_shape b)) /\ interior (b_shape (nth 0 bs (BB (Sphere vzero 0) false []))) (cell_point (V3 (-1) (-1) (-1)) (V3 1 1 1) 0 0 0) /\
  exists w, given (nth 0 bs (BB (Sphere vzero 0) false [])) w.
Proof.
  cbn zeta. split; [intros b [<-|[<-|[]]]; cbn; lra|]. split.
  - cbn. unfold dist, cell_point. apply (Rle_lt_trans _ (sqrt (3 / 4))); [right; unfold vmag, vmag_sqr; cbn; f_equal; lra|]. apply Rlt_le_trans with (sqrt 1); [apply sqrt_lt_1; lra|rewrite sqrt_1; lra].
  - exists (V3 1 2 3). split; [reflexivity|]. exists []. reflexivity.
Qed.
Example case_band : - 1 <= - (1 / 2) < 0 /\ 0 < vmag_sqr (V3 1 0 0).
Proof. unfold vmag_sqr. cbn. lra. Qed.

Print Assumptions c89_sphere.
Print Assumptions c89_cylinder.
Print Assumptions c89_cylinder_height_refuted.
Print Assumptions c89_box.
Print Assumptions c89_box_outside_partial.
Print Assumptions c89_box_planes_refuted.
Print Assumptions c89_union.
Print Assumptions c89_nodes.
Print Assumptions c89_velocity_partial.
Print Assumptions c89_last_body_refuted.
Print Assumptions c89_short_velocity_refuted.
Print Assumptions c89_normal.
Print Assumptions c89_vortex.
Print Assumptions c89_vortex_planes_refuted.
Print Assumptions c89_handed.
Print Assumptions c89_after_solve_refuted.
Print Assumptions c89_regrid_refuted.
Print Assumptions c89_regrid_nodes_refuted.
