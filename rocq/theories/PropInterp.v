(** C14-C18, C20: table search, interpolation, trapezoidal integration. *)
From Coq Require Import Morphisms Qabs.
From Verif Require Import BaseFacts Interp InterpSpec InterpProofs InterpProofs2 InterpProofs3.
Local Open Scope Q_scope.

Definition tab : list Q := [0; 1; (5#2); 4; 10].
Lemma tab_increasing : increasing tab.
Proof.
  intros i j a b Hij Ha Hb. unfold at_, tab in *.
  do 5 (destruct j as [|j]; [do 5 (destruct i as [|i]; [try lia; cbn in *; injection Ha as <-; injection Hb as <-; reflexivity|]); lia|]).
  destruct j; discriminate.
Qed.
Lemma tab_spaced : spaced tab.
Proof.
  intros i a b Ha Hb. unfold at_, tab in *.
  do 4 (destruct i as [|i]; [cbn in *; injection Ha as <-; injection Hb as <-; reflexivity|]).
  destruct i as [|i]; [discriminate|]. destruct i; discriminate.
Qed.

(** ** C14 *)

(** Bisection on a sorted table: always returns (no out-of-range read), after at
    most ceil(log2 length) probes, classifies out-of-range queries and brackets the
    others. *)
Theorem c14_bisection_search xs x : nondecreasing xs ->
  exists i n, bisection_search_probes xs x = Ret (i, n)
    /\ (forall k, (length xs <= 2 ^ k)%nat -> (n <= k)%nat)
    /\ ((length xs < 2)%nat -> i = mkIndex 0 LOWLIM)
    /\ (forall a, (2 <= length xs)%nat -> at_ xs 0 a -> x < a -> i = mkIndex 0 LOWLIM)
    /\ (forall a b, (2 <= length xs)%nat -> at_ xs 0 a -> a <= x -> at_ xs (length xs - 1) b ->
         (b < x -> i = mkIndex (length xs - 1) UPLIM)
         /\ (x <= b -> lim i = VALID /\ brackets xs (ix i) x)).
Proof. exact (bisection_total xs x). Qed.
Print Assumptions c14_bisection_search.

(** Hinted search: any hint that points into the table and not past the query. *)
Theorem c14_hinted_search xs x a b c hint :
  at_ xs 0 a -> a <= x -> at_ xs (length xs - 1) b -> x <= b ->
  (1 <= hint < length xs)%nat -> at_ xs (hint - 1) c -> c <= x ->
  exists j, find_index xs x hint = Ret (mkIndex j VALID) /\ (hint - 1 <= j)%nat /\ brackets xs j x.
Proof. exact (find_index_brackets xs x a b c hint). Qed.
Print Assumptions c14_hinted_search.

Theorem c14_nearest_search xs x a b :
  nondecreasing xs -> (2 <= length xs)%nat -> at_ xs 0 a -> a <= x -> at_ xs (length xs - 1) b -> x <= b ->
  exists j c, nearest_search xs x = Ret (mkIndex j VALID) /\ at_ xs j c
    /\ forall k d, at_ xs k d -> Qabs (x - c) <= Qabs (x - d).
Proof. exact (nearest_spec xs x a b). Qed.
Print Assumptions c14_nearest_search.

Example c14_example :
  bisection_search_probes tab 3 = Ret (mkIndex 2 VALID, 2%nat)
  /\ bisection_search_probes tab 10 = Ret (mkIndex 3 VALID, 3%nat)
  /\ bisection_search_probes tab 11 = Ret (mkIndex 4 UPLIM, 0%nat)
  /\ find_index tab 3 2 = Ret (mkIndex 2 VALID)
  /\ nearest_search tab 3 = Ret (mkIndex 2 VALID) /\ nearest_search tab (7#2) = Ret (mkIndex 3 VALID).
Proof. vm_compute. repeat split. Qed.

(** ** C15 *)

(** Never reads outside, whatever the query, for any component of any number. *)
Theorem c15_total xs ys x ncomp comp :
  nondecreasing xs -> xs <> [] -> length ys = (ncomp * length xs)%nat -> (comp < ncomp)%nat ->
  exists v, linear xs ys x ncomp comp = Ret v.
Proof. exact (linear_total xs ys x ncomp comp). Qed.
Print Assumptions c15_total.

Theorem c15_exact_on_nodes xs ys ncomp comp k x y :
  increasing xs -> (2 <= length xs)%nat -> length ys = (ncomp * length xs)%nat -> (comp < ncomp)%nat ->
  at_ xs k x -> at_ ys (ncomp * k + comp) y ->
  (k = 0%nat -> forall a b, at_ xs 0 a -> at_ xs 1 b -> feps < b - a) ->
  exists v, linear xs ys x ncomp comp = Ret v /\ v == y.
Proof. exact (linear_node xs ys ncomp comp k x y). Qed.
Print Assumptions c15_exact_on_nodes.

(** Inside: between the two bracketing values. *)
Theorem c15_between xs ys x ncomp comp a b :
  nondecreasing xs -> (2 <= length xs)%nat -> at_ xs 0 a -> a <= x -> at_ xs (length xs - 1) b -> x <= b ->
  length ys = (ncomp * length xs)%nat -> (comp < ncomp)%nat ->
  exists j y0 y1 v, brackets xs j x /\ at_ ys (ncomp * j + comp) y0 /\ at_ ys (ncomp * S j + comp) y1
    /\ linear xs ys x ncomp comp = Ret v /\ qmin y0 y1 <= v /\ v <= qmax y0 y1.
Proof.
  intros Hs Hl Ha Hax Hb Hxb Hy Hc.
  destruct (linear_valid xs ys x ncomp comp a b Hs Hl Ha Hax Hb Hxb Hy Hc)
    as (j & x0 & x1 & y0 & y1 & X0 & X1 & Y0 & Y1 & L & R & Lo & E).
  destruct (wgt_range x0 x1 x L R) as [W0 W1]. destruct (conv_between _ y0 y1 W0 W1) as [B1 B2].
  exists j, y0, y1. eexists. split; [exists x0, x1; auto|]. split; [exact Y0|]. split; [exact Y1|]. split; [exact E|]. split; assumption.
Qed.
Print Assumptions c15_between.

(** Affine data are reproduced exactly. *)
Theorem c15_affine_exact xs ys x ncomp comp a b c m :
  nondecreasing xs -> spaced xs -> (2 <= length xs)%nat ->
  length ys = (ncomp * length xs)%nat -> (comp < ncomp)%nat ->
  at_ xs 0 a -> a <= x -> at_ xs (length xs - 1) b -> x <= b ->
  (forall k xk yk, at_ xs k xk -> at_ ys (ncomp * k + comp) yk -> yk == c + m * xk) ->
  exists v, linear xs ys x ncomp comp = Ret v /\ v == c + m * x.
Proof. exact (linear_affine xs ys x ncomp comp a b c m). Qed.
Print Assumptions c15_affine_exact.

(** Outside: the end values. *)
Theorem c15_below xs ys x ncomp comp y a :
  at_ ys comp y -> at_ xs 0 a -> x < a -> linear xs ys x ncomp comp = Ret y.
Proof. intros Hy Ha Hx. apply linear_low; [exact Hy|right; exists a; auto]. Qed.
Print Assumptions c15_below.

Theorem c15_above xs ys x ncomp comp a b y :
  (2 <= length xs)%nat -> at_ xs 0 a -> a <= x -> at_ xs (length xs - 1) b -> b < x ->
  at_ ys (ncomp * (length xs - 1) + comp) y -> linear xs ys x ncomp comp = Ret y.
Proof. exact (linear_up xs ys x ncomp comp a b y). Qed.
Print Assumptions c15_above.

Definition oeq (o : outcome Q) (v : Q) : bool := match o with Ret a => Qeq_bool a v | _ => false end.

Example c15_example :
  let ys := [1; 10; 2; 20; 3; 30; 4; 40; 5; 50] in
  increasing tab /\ spaced tab /\ length ys = (2 * length tab)%nat
  /\ oeq (linear tab ys 7 2 1) 45 = true /\ oeq (linear tab ys (5#2) 2 0) 3 = true
  /\ oeq (linear tab ys (-1) 2 1) 10 = true /\ oeq (linear tab ys 11 2 1) 50 = true.
Proof. split; [exact tab_increasing|]. split; [exact tab_spaced|]. vm_compute. repeat split. Qed.

(** With a first interval not longer than the tolerance the first node is not
    reproduced: the second value is returned. *)
Theorem c15_first_node_refuted :
  exists xs ys x y v, increasing xs /\ at_ xs 0 x /\ at_ ys 0 y /\ length ys = length xs
    /\ linear xs ys x 1 0 = Ret v /\ ~ v == y.
Proof.
  exists [0; 1 # 100000000], [1; 2], 0, 1. eexists.
  split.
  { intros i j a b Hij Ha Hb. unfold at_ in *. destruct j as [|[|j]]; [lia| |destruct j; discriminate].
    destruct i; [|lia]. cbn in *. injection Ha as <-. injection Hb as <-. reflexivity. }
  split; [reflexivity|]. split; [reflexivity|]. split; [reflexivity|]. split; [vm_compute; reflexivity|].
  vm_compute. discriminate.
Qed.
Print Assumptions c15_first_node_refuted.

(** ** C16 *)

Theorem c16_sweep_equals_pointwise xs ys xout ncomp comp :
  nondecreasing xs -> nondecreasing_list xout ->
  linear_monotonic xs ys xout ncomp comp = linear_list xs ys xout ncomp comp.
Proof. exact (monotonic_eq xs ys xout ncomp comp). Qed.
Print Assumptions c16_sweep_equals_pointwise.

Example c16_example :
  let ys := [0; 10; 20; 30; 40] in let q := [-1#1; 0; (1#2); (1#2); 1; 3; 10; 12] in
  nondecreasing_list q /\ linear_monotonic tab ys q 1 0 = linear_list tab ys q 1 0
  /\ exists l, linear_list tab ys q 1 0 = Ret l /\ map Qred l = [0; 0; 5; 5; 10; (70#3); 40; 40].
Proof.
  split; [vm_compute; repeat split; congruence|]. split; [vm_compute; reflexivity|].
  eexists. split; vm_compute; reflexivity.
Qed.

(** The order of the queries matters: with a decreasing list the carried hint gives
    another (wrong) interval. *)
Theorem c16_needs_order :
  exists ys q, linear_monotonic tab ys q 1 0 <> linear_list tab ys q 1 0.
Proof. exists [0; 10; 20; 30; 40], [3; (1#2)]. vm_compute. discriminate. Qed.

(** ** C17 *)

(** Between two nodes the angle moves along the arc [d], congruent to the difference
    of the tabulated angles and of length at most half a period. *)
Theorem c17_shorter_arc xs ys x u a b :
  0 < u -> nondecreasing xs -> spaced xs -> (2 <= length xs)%nat -> length ys = length xs ->
  at_ xs 0 a -> a <= x -> at_ xs (length xs - 1) b -> x <= b ->
  exists j x0 x1 y0 y1 d v, at_ xs j x0 /\ at_ xs (S j) x1 /\ at_ ys j y0 /\ at_ ys (S j) y1
    /\ x0 <= x /\ x <= x1
    /\ linear_angle xs ys x u = Ret v
    /\ - (1 # 2) * u <= d /\ d < (1 # 2) * u /\ eqmod u (y0 + d) y1
    /\ v == y0 + d * ((x - x0) / (x1 - x0)).
Proof. exact (angle_arc xs ys x u a b). Qed.
Print Assumptions c17_shorter_arc.

Theorem c17_nodes xs ys k x y u :
  0 < u -> increasing xs -> spaced xs -> (2 <= length xs)%nat -> length ys = length xs ->
  at_ xs k x -> at_ ys k y -> exists v, linear_angle xs ys x u = Ret v /\ eqmod u v y.
Proof. exact (angle_node xs ys k x y u). Qed.
Print Assumptions c17_nodes.

Theorem c17_period_invariant xs ys ys' x u :
  0 < u -> nondecreasing xs -> length ys = length xs -> length ys' = length xs -> xs <> [] ->
  (forall k y y', at_ ys k y -> at_ ys' k y' -> eqmod u y' y) ->
  exists v v', linear_angle xs ys x u = Ret v /\ linear_angle xs ys' x u = Ret v' /\ eqmod u v' v.
Proof. exact (angle_periods xs ys ys' x u). Qed.
Print Assumptions c17_period_invariant.

Example c17_example :
  oeq (linear_angle [0; 1] [350; 10] (1#2) 360) 360 = true
  /\ oeq (linear_angle [0; 1] [10; 350] (1#4) 360) 5 = true
  /\ oeq (linear_angle [0; 1] [-170#1; 170] (1#2) 360) (-180#1) = true.
Proof. vm_compute. repeat split. Qed.

(** ** C18 *)

Theorem c18_bilinear_exact xs ys zs x y ax bx ay by_ a b c d :
  nondecreasing xs -> nondecreasing ys -> spaced xs -> spaced ys ->
  (2 <= length xs)%nat -> (2 <= length ys)%nat ->
  length zs = (length xs * length ys)%nat ->
  at_ xs 0 ax -> ax <= x -> at_ xs (length xs - 1) bx -> x <= bx ->
  at_ ys 0 ay -> ay <= y -> at_ ys (length ys - 1) by_ -> y <= by_ ->
  (forall i j xi yj z, at_ xs i xi -> at_ ys j yj -> at_ zs (i * length ys + j) z ->
     z == a + b * xi + c * yj + d * xi * yj) ->
  exists v, bilinear xs ys zs x y = Ret v /\ v == a + b * x + c * y + d * x * y.
Proof. exact (bilinear_exact xs ys zs x y ax bx ay by_ a b c d). Qed.
Print Assumptions c18_bilinear_exact.

Theorem c18_within_corner_values xs ys zs x y ax bx ay by_ :
  nondecreasing xs -> nondecreasing ys -> (2 <= length xs)%nat -> (2 <= length ys)%nat ->
  length zs = (length xs * length ys)%nat ->
  at_ xs 0 ax -> ax <= x -> at_ xs (length xs - 1) bx -> x <= bx ->
  at_ ys 0 ay -> ay <= y -> at_ ys (length ys - 1) by_ -> y <= by_ ->
  exists i j v, brackets xs i x /\ brackets ys j y /\ bilinear xs ys zs x y = Ret v
    /\ forall lo hi,
       (forall i' j' z, (i' = i \/ i' = S i) -> (j' = j \/ j' = S j) -> at_ zs (i' * length ys + j') z -> lo <= z /\ z <= hi) ->
       lo <= v /\ v <= hi.
Proof. exact (bilinear_bounds xs ys zs x y ax bx ay by_). Qed.
Print Assumptions c18_within_corner_values.

(** Both coordinates out of range: the corner value. *)
Theorem c18_outside_corner_partial xs ys zs x y k m z :
  (2 <= length xs)%nat -> (2 <= length ys)%nat -> length zs = (length xs * length ys)%nat ->
  out_idx xs x k -> out_idx ys y m -> at_ zs (k * length ys + m) z ->
  bilinear xs ys zs x y = Ret z.
Proof. exact (bilinear_corner xs ys zs x y k m z). Qed.
Print Assumptions c18_outside_corner_partial.

Example c18_example :
  let xs := [0; 1; 3] in let ys := [0; 2] in let zs := [1; 3; 4; 12; 10; 30] in
  oeq (bilinear xs ys zs 2 1) 14 = true /\ oeq (bilinear xs ys zs 4 3) 30 = true
  /\ oeq (bilinear xs ys zs 0 2) 3 = true.
Proof. vm_compute. repeat split. Qed.

(** One coordinate out of range: the other one is not interpolated, so data that
    depend on y only are returned wrong by up to a whole table interval. *)
Theorem c18_one_outside_refuted :
  exists xs ys zs x y v, increasing xs /\ increasing ys /\ spaced xs /\ spaced ys
    /\ length zs = (length xs * length ys)%nat
    /\ (forall i j yj z, (i < length xs)%nat -> at_ ys j yj -> at_ zs (i * length ys + j) z -> z == yj)
    /\ bilinear xs ys zs x y = Ret v /\ brackets ys 0 y /\ v == y - (9 # 10).
Proof.
  exists [0; 1], [0; 1], [0; 1; 0; 1], 2, (9 # 10). eexists.
  assert (I : increasing [0; 1]).
  { intros i j a b Hij Ha Hb. unfold at_ in *. destruct j as [|[|j]]; [lia| |destruct j; discriminate].
    destruct i; [|lia]. cbn in *. injection Ha as <-. injection Hb as <-. reflexivity. }
  assert (S1 : spaced [0; 1]).
  { intros i a b Ha Hb. unfold at_ in *. destruct i as [|i]; [|destruct i; discriminate].
    cbn in *. injection Ha as <-. injection Hb as <-. reflexivity. }
  split; [exact I|]. split; [exact I|]. split; [exact S1|]. split; [exact S1|]. split; [reflexivity|].
  split.
  { intros i j yj z Hi Hy Hz. unfold at_ in *. destruct i as [|[|i]]; [| |cbn in Hi; lia];
    (destruct j as [|[|j]]; [| |destruct j; discriminate]); cbn in *; injection Hy as <-; injection Hz as <-; reflexivity. }
  split; [vm_compute; reflexivity|]. split; [|vm_compute; reflexivity].
  exists 0, 1. unfold at_. split; [reflexivity|]. split; [reflexivity|]. split; vm_compute; discriminate.
Qed.
Print Assumptions c18_one_outside_refuted.

(** ** C20 *)

(** [Proper (Qeq ==> Qeq) f]: f gives equal values for equal rationals. *)
Theorem c20_sum_of_trapezia xa xb n f : Proper (Qeq ==> Qeq) f -> (1 <= n)%nat ->
  trapz xa xb n f == trapezia xa xb n f.
Proof. exact (trapz_trapezia xa xb n f). Qed.
Print Assumptions c20_sum_of_trapezia.

Theorem c20_affine_exact xa xb n a b : (1 <= n)%nat ->
  trapz xa xb n (fun x => a + b * x) == (xb - xa) * (a + b * ((xa + xb) / 2)).
Proof. exact (trapz_affine xa xb n a b). Qed.
Print Assumptions c20_affine_exact.

Theorem c20_linear xa xb n f g a b : Proper (Qeq ==> Qeq) f -> Proper (Qeq ==> Qeq) g -> (1 <= n)%nat ->
  trapz xa xb n (fun x => a * f x + b * g x) == a * trapz xa xb n f + b * trapz xa xb n g.
Proof. exact (trapz_linear xa xb n f g a b). Qed.
Print Assumptions c20_linear.

Theorem c20_monotone xa xb n f g : Proper (Qeq ==> Qeq) f -> Proper (Qeq ==> Qeq) g ->
  (1 <= n)%nat -> xa <= xb -> (forall x, xa <= x -> x <= xb -> f x <= g x) ->
  trapz xa xb n f <= trapz xa xb n g.
Proof. exact (trapz_mono xa xb n f g). Qed.
Print Assumptions c20_monotone.

Theorem c20_additive xa xb xc n m f : Proper (Qeq ==> Qeq) f -> (1 <= n)%nat -> (1 <= m)%nat ->
  (xb - xa) * inject_Z (Z.of_nat m) == (xc - xb) * inject_Z (Z.of_nat n) ->
  trapz xa xb n f + trapz xb xc m f == trapz xa xc (n + m) f.
Proof. exact (trapz_additive xa xb xc n m f). Qed.
Print Assumptions c20_additive.

Example c20_example : Qred (trapz 0 2 4 (fun x => x * x)) = 11 # 4.
Proof. vm_compute. reflexivity. Qed.
