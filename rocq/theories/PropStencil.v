(** C33, C34, C51: the finite-volume operators are exact on polynomials in every
    cell, next to every kind of boundary and for every tiling. *)
From Coq Require Import Reals Lra ZArith List Bool Lia ZifyBool Psatz.
From Coquelicot Require Import Coquelicot.
From Verif Require Import BoxR BoxRFacts Stencil StencilSpec StencilProofs.
Local Open Scope R_scope.

(** The geometry object of a grid: inverse cell sizes as AMReX stores them. *)
Definition geometry (G : grid) : geom := Geom (dom G) (per G) (fun d => / dx G d).

Lemma rmax_eq a b : rmax a b = Rmax a b.
Proof. unfold rmax, Rmax, Rltb. destruct (Rlt_dec a b), (Rle_dec a b); lra. Qed.

(** ** From tiles to one stencil *)
Lemma usable_thick G : usable G -> thick (geometry G).
Proof.
  intros H d Hd Hp. destruct (H d) as (_ & _ & Hl); [unfold axes; lia|]. exact (Hl Hp).
Qed.

Definition here (G : grid) (c : ivec) : stencil :=
  the_stencil (where_is (geometry G) c 0) (where_is (geometry G) c 1) (where_is (geometry G) c 2).

Lemma apply_here G op tiles out c n : usable G -> tiling G tiles -> covered tiles c ->
  apply op (geometry G) tiles out c n = op (here G c) c n.
Proof.
  intros Hu Ht (t & Hin & Hc). unfold here.
  rewrite apply_tiles; [| apply usable_thick; assumption |].
  - replace (existsb _ tiles) with true; [reflexivity|].
    symmetry. apply existsb_exists. exists t. split; [assumption|]. apply in_boxb_spec; assumption.
  - intros t' Ht'. split; intros d Hd; specialize (Ht t' Ht' d);
      (destruct Ht as (A & B & C); [unfold axes; lia|]); cbn; [split|]; assumption.
Qed.

Lemma covered_in G tiles c : tiling G tiles -> covered tiles c ->
  forall d, axes d -> (icomp (blo (dom G)) d <= icomp c d <= icomp (bhi (dom G)) d)%Z.
Proof.
  intros Ht (t & Hin & Hc) d Hd. specialize (Ht t Hin d Hd). unfold in_box in Hc.
  destruct Hd as [-> | [-> | ->]]; unfold icomp in *; cbn [Z.eqb Pos.eqb] in *; lia.
Qed.

(** ** One axis *)
Definition three (t : tri) (p : R -> R) (G : grid) (d i : Z) : R :=
  tp1 t * p (site G d (i + 1)) + tc t * p (site G d i) + tm1 t * p (site G d (i - 1)).

Lemma centre_succ G d i : centre G d (i + 1) = centre G d i + dx G d.
Proof. unfold centre. rewrite !minus_IZR, plus_IZR. ring. Qed.
Lemma centre_pred G d i : centre G d (i - 1) = centre G d i - dx G d.
Proof. unfold centre. rewrite !minus_IZR. ring. Qed.
Lemma centre_lo G d i : i = icomp (blo (dom G)) d -> plo G d = centre G d i - dx G d / 2.
Proof. intros ->. unfold centre. rewrite Z.sub_diag. simpl. lra. Qed.
Lemma centre_hi G d i : i = icomp (bhi (dom G)) d ->
  plo G d + IZR (icomp (bhi (dom G)) d - icomp (blo (dom G)) d + 1) * dx G d
  = centre G d i + dx G d / 2.
Proof. intros ->. unfold centre. rewrite plus_IZR. simpl. lra. Qed.

Definition inD (G : grid) (d i : Z) : Prop :=
  (icomp (blo (dom G)) d <= i <= icomp (bhi (dom G)) d)%Z.

Lemma sites G d c : axes d -> usable G -> inD G d (icomp c d) -> let i := icomp c d in
  let h := dx G d in let x := site G d i in
  x = centre G d i /\
  match where_is (geometry G) c d with
  | PLo => site G d (i + 1) = x + h /\ site G d (i - 1) = x - h / 2
  | PMid => site G d (i + 1) = x + h /\ site G d (i - 1) = x - h
  | PHi => site G d (i + 1) = x + h / 2 /\ site G d (i - 1) = x - h
  end.
Proof.
  intros Hd Hu Hin. cbv zeta. destruct (Hu d Hd) as (_ & Hne & Hth). unfold inD in Hin.
  unfold where_is, at_lo, at_hi, geometry, site; cbn [gper gdom].
  destruct (per G d); cbn [negb andb].
  - rewrite centre_succ, centre_pred. repeat split; reflexivity.
  - specialize (Hth eq_refl). set (i := icomp c d) in *.
    set (lo := icomp (blo (dom G)) d) in *. set (hi := icomp (bhi (dom G)) d) in *.
    replace (i <? lo)%Z with false by lia. replace (hi <? i)%Z with false by lia.
    split; [reflexivity|].
    replace (i + 1 <? lo)%Z with false by lia. replace (hi <? i - 1)%Z with false by lia.
    destruct (i =? lo)%Z eqn:El.
    + replace (hi <? i + 1)%Z with false by lia. replace (i - 1 <? lo)%Z with true by lia.
      rewrite centre_succ. split; [reflexivity|]. apply centre_lo. unfold lo in El; lia.
    + replace (i - 1 <? lo)%Z with false by lia.
      destruct (i =? hi)%Z eqn:Eh.
      * replace (hi <? i + 1)%Z with true by lia. rewrite centre_pred. split; [|reflexivity].
        apply centre_hi. unfold hi in Eh; lia.
      * replace (hi <? i + 1)%Z with false by lia. rewrite centre_succ, centre_pred.
        split; reflexivity.
Qed.

Lemma three_c G d c p a b q : axes d -> usable G -> inD G d (icomp c d) ->
  (forall x, p x = a + b * x + q * x * x) ->
  three (ctri (where_is (geometry G) c d)) p G d (icomp c d) * / dx G d
  = b + 2 * q * site G d (icomp c d).
Proof.
  intros Hd Hu Hin Hp. destruct (Hu d Hd) as (Hdx & _).
  destruct (sites G d c Hd Hu Hin) as [_ H]. unfold three. rewrite !Hp.
  destruct (where_is _ c d); destruct H as [-> ->]; cbn [ctri tp1 tc tm1]; field; lra.
Qed.
Lemma three_s G d c p a b q : axes d -> usable G -> inD G d (icomp c d) ->
  (forall x, p x = a + b * x + q * x * x) ->
  three (stri (where_is (geometry G) c d)) p G d (icomp c d) * / dx G d * / dx G d = 2 * q.
Proof.
  intros Hd Hu Hin Hp. destruct (Hu d Hd) as (Hdx & _).
  destruct (sites G d c Hd Hu Hin) as [_ H]. unfold three. rewrite !Hp.
  destruct (where_is _ c d); destruct H as [-> ->]; cbn [stri tp1 tc tm1]; field; lra.
Qed.
Lemma three_f G d c p a b : axes d -> usable G -> inD G d (icomp c d) ->
  (forall x, p x = a + b * x) ->
  three (ftri (where_is (geometry G) c d)) p G d (icomp c d) = p (site G d (icomp c d)).
Proof.
  intros Hd Hu Hin Hp.
  destruct (sites G d c Hd Hu Hin) as [_ H]. unfold three. rewrite !Hp.
  destruct (where_is _ c d); destruct H as [-> ->]; cbn [ftri tp1 tc tm1]; field.
Qed.

(** ** Polynomials and their derivatives *)
Definition quad (a b0 b1 b2 q00 q11 q22 q01 q02 q12 x y z : R) : R :=
  a + b0 * x + b1 * y + b2 * z + q00 * x * x + q11 * y * y + q22 * z * z
  + q01 * x * y + q02 * x * z + q12 * y * z.

Lemma ax0 : axes 0. Proof. left; reflexivity. Qed.
Lemma ax1 : axes 1. Proof. right; left; reflexivity. Qed.
Lemma ax2 : axes 2. Proof. right; right; reflexivity. Qed.

Definition carries1 (G : grid) (phi : field) (n : Z) (f : R -> R -> R -> R) : Prop :=
  forall c, in_grown G c -> phi c n = f (site G 0 (iv0 c)) (site G 1 (iv1 c)) (site G 2 (iv2 c)).

Definition insideD (G : grid) (c : ivec) : Prop := forall d, axes d -> inD G d (icomp c d).

(** Cells one step along an axis from a domain cell lie in the grown domain; so do
    those one step along two axes. *)
Lemma grown G c i j k : insideD G c ->
  (Z.abs (i - iv0 c) <= 1 /\ Z.abs (j - iv1 c) <= 1 /\ Z.abs (k - iv2 c) <= 1)%Z ->
  in_grown G (IV i j k).
Proof.
  intros Hc Hn d Hd. specialize (Hc d Hd). unfold inD in Hc.
  destruct Hd as [-> | [-> | ->]]; unfold icomp in *; cbn [Z.eqb Pos.eqb iv0 iv1 iv2] in *; lia.
Qed.

Lemma c_eta c : IV (iv0 c) (iv1 c) (iv2 c) = c.
Proof. destruct c; reflexivity. Qed.

Section OneQuad.
Variables (G : grid) (phi : field) (n : Z) (c : ivec).
Variables (a b0 b1 b2 q00 q11 q22 q01 q02 q12 : R).
Let f := quad a b0 b1 b2 q00 q11 q22 q01 q02 q12.
Hypothesis Hu : usable G.
Hypothesis Hc : insideD G c.
Hypothesis Hphi : carries1 G phi n f.
Let x := site G 0 (iv0 c).
Let y := site G 1 (iv1 c).
Let z := site G 2 (iv2 c).

Lemma along0_three t j k : (Z.abs (j - iv1 c) <= 1 /\ Z.abs (k - iv2 c) <= 1)%Z ->
  along0 t phi (IV (iv0 c) j k) n = three t (fun s => f s (site G 1 j) (site G 2 k)) G 0 (iv0 c).
Proof.
  intros H. unfold along0, three; cbn [iv0 iv1 iv2].
  rewrite !Hphi by (apply (grown G c); [exact Hc|lia]). reflexivity.
Qed.
Lemma along1_three t i k : (Z.abs (i - iv0 c) <= 1 /\ Z.abs (k - iv2 c) <= 1)%Z ->
  along1 t phi (IV i (iv1 c) k) n = three t (fun s => f (site G 0 i) s (site G 2 k)) G 1 (iv1 c).
Proof.
  intros H. unfold along1, three; cbn [iv0 iv1 iv2].
  rewrite !Hphi by (apply (grown G c); [exact Hc|lia]). reflexivity.
Qed.
Lemma along2_three t i j : (Z.abs (i - iv0 c) <= 1 /\ Z.abs (j - iv1 c) <= 1)%Z ->
  along2 t phi (IV i j (iv2 c)) n = three t (fun s => f (site G 0 i) (site G 1 j) s) G 2 (iv2 c).
Proof.
  intros H. unfold along2, three; cbn [iv0 iv1 iv2].
  rewrite !Hphi by (apply (grown G c); [exact Hc|lia]). reflexivity.
Qed.

Let s := here G c.

Lemma coefs : (c0 s = ctri (where_is (geometry G) c 0) /\ c1 s = ctri (where_is (geometry G) c 1) /\
               c2 s = ctri (where_is (geometry G) c 2)) /\
  (s0 s = stri (where_is (geometry G) c 0) /\ s1 s = stri (where_is (geometry G) c 1) /\
   s2 s = stri (where_is (geometry G) c 2)) /\
  (f0 s = ftri (where_is (geometry G) c 0) /\ f1 s = ftri (where_is (geometry G) c 1) /\
   f2 s = ftri (where_is (geometry G) c 2)).
Proof. apply the_stencil_coefs. Qed.

Lemma d0_gen j k : (Z.abs (j - iv1 c) <= 1 /\ Z.abs (k - iv2 c) <= 1)%Z ->
  along0 (c0 s) phi (IV (iv0 c) j k) n * gidx (geometry G) 0
  = b0 + 2 * q00 * x + q01 * site G 1 j + q02 * site G 2 k.
Proof.
  intros H. rewrite along0_three by exact H. destruct coefs as ((-> & _) & _).
  cbn [gidx geometry].
  etransitivity; [apply (three_c G 0 c _ (a + b1 * site G 1 j + b2 * site G 2 k
     + q11 * site G 1 j * site G 1 j + q22 * site G 2 k * site G 2 k + q12 * site G 1 j * site G 2 k)
     (b0 + q01 * site G 1 j + q02 * site G 2 k) q00 ax0 Hu (Hc 0%Z ax0))|].
  - intros t. unfold f, quad. ring.
  - unfold x, icomp; cbn [Z.eqb]. ring.
Qed.
Lemma d1_gen i k : (Z.abs (i - iv0 c) <= 1 /\ Z.abs (k - iv2 c) <= 1)%Z ->
  along1 (c1 s) phi (IV i (iv1 c) k) n * gidx (geometry G) 1
  = b1 + 2 * q11 * y + q01 * site G 0 i + q12 * site G 2 k.
Proof.
  intros H. rewrite along1_three by exact H. destruct coefs as ((_ & -> & _) & _).
  cbn [gidx geometry].
  etransitivity; [apply (three_c G 1 c _ (a + b0 * site G 0 i + b2 * site G 2 k
     + q00 * site G 0 i * site G 0 i + q22 * site G 2 k * site G 2 k + q02 * site G 0 i * site G 2 k)
     (b1 + q01 * site G 0 i + q12 * site G 2 k) q11 ax1 Hu (Hc 1%Z ax1))|].
  - intros t. unfold f, quad. ring.
  - unfold y, icomp; cbn [Z.eqb Pos.eqb]. ring.
Qed.
Lemma d2_gen i j : (Z.abs (i - iv0 c) <= 1 /\ Z.abs (j - iv1 c) <= 1)%Z ->
  along2 (c2 s) phi (IV i j (iv2 c)) n * gidx (geometry G) 2
  = b2 + 2 * q22 * z + q02 * site G 0 i + q12 * site G 1 j.
Proof.
  intros H. rewrite along2_three by exact H. destruct coefs as ((_ & _ & ->) & _).
  cbn [gidx geometry].
  etransitivity; [apply (three_c G 2 c _ (a + b0 * site G 0 i + b1 * site G 1 j
     + q00 * site G 0 i * site G 0 i + q11 * site G 1 j * site G 1 j + q01 * site G 0 i * site G 1 j)
     (b2 + q02 * site G 0 i + q12 * site G 1 j) q22 ax2 Hu (Hc 2%Z ax2))|].
  - intros t. unfold f, quad. ring.
  - unfold z, icomp; cbn [Z.eqb Pos.eqb]. ring.
Qed.


Lemma d0 : along0 (c0 s) phi c n * gidx (geometry G) 0 = b0 + 2 * q00 * x + q01 * y + q02 * z.
Proof. rewrite <- (c_eta c) at 1. apply d0_gen. lia. Qed.
Lemma d1 : along1 (c1 s) phi c n * gidx (geometry G) 1 = b1 + 2 * q11 * y + q01 * x + q12 * z.
Proof. rewrite <- (c_eta c) at 1. apply d1_gen. lia. Qed.
Lemma d2 : along2 (c2 s) phi c n * gidx (geometry G) 2 = b2 + 2 * q22 * z + q02 * x + q12 * y.
Proof. rewrite <- (c_eta c) at 1. apply d2_gen. lia. Qed.

Lemma dd0 : along0 (s0 s) phi c n * gidx (geometry G) 0 * gidx (geometry G) 0 = 2 * q00.
Proof.
  rewrite <- (c_eta c) at 1. rewrite along0_three by lia. destruct coefs as (_ & (-> & _) & _).
  cbn [gidx geometry].
  apply (three_s G 0 c _ (a + b1 * y + b2 * z + q11 * y * y + q22 * z * z + q12 * y * z)
     (b0 + q01 * y + q02 * z) q00 ax0 Hu (Hc 0%Z ax0)).
  intros t. unfold f, quad, y, z. ring.
Qed.
Lemma dd1 : along1 (s1 s) phi c n * gidx (geometry G) 1 * gidx (geometry G) 1 = 2 * q11.
Proof.
  rewrite <- (c_eta c) at 1. rewrite along1_three by lia. destruct coefs as (_ & (_ & -> & _) & _).
  cbn [gidx geometry].
  apply (three_s G 1 c _ (a + b0 * x + b2 * z + q00 * x * x + q22 * z * z + q02 * x * z)
     (b1 + q01 * x + q12 * z) q11 ax1 Hu (Hc 1%Z ax1)).
  intros t. unfold f, quad, x, z. ring.
Qed.
Lemma dd2 : along2 (s2 s) phi c n * gidx (geometry G) 2 * gidx (geometry G) 2 = 2 * q22.
Proof.
  rewrite <- (c_eta c) at 1. rewrite along2_three by lia. destruct coefs as (_ & (_ & _ & ->) & _).
  cbn [gidx geometry].
  apply (three_s G 2 c _ (a + b0 * x + b1 * y + q00 * x * x + q11 * y * y + q01 * x * y)
     (b2 + q02 * x + q12 * y) q22 ax2 Hu (Hc 2%Z ax2)).
  intros t. unfold f, quad, x, y. ring.
Qed.

(** Mixed derivatives, as curvature.H forms them. *)
Lemma site_lin0 (K L : R) :
  along0 (c0 s) (fun c' _ => K + L * site G 0 (iv0 c')) c 0 * gidx (geometry G) 0 = L.
Proof.
  destruct coefs as ((-> & _) & _). cbn [gidx geometry].
  assert (P : forall t, (fun t => K + L * t) t = K + L * t + 0 * t * t) by (intros; cbv beta; ring).
  etransitivity; [exact (three_c G 0 c (fun t => K + L * t) K L 0 ax0 Hu (Hc 0%Z ax0) P)|ring].
Qed.
Lemma site_lin1 (K L : R) :
  along1 (c1 s) (fun c' _ => K + L * site G 1 (iv1 c')) c 0 * gidx (geometry G) 1 = L.
Proof.
  destruct coefs as ((_ & -> & _) & _). cbn [gidx geometry].
  assert (P : forall t, (fun t => K + L * t) t = K + L * t + 0 * t * t) by (intros; cbv beta; ring).
  etransitivity; [exact (three_c G 1 c (fun t => K + L * t) K L 0 ax1 Hu (Hc 1%Z ax1) P)|ring].
Qed.
Lemma d01 : along0 (c0 s) (fun c' _ => along1 (c1 s) phi c' n * gidx (geometry G) 1) c 0
            * gidx (geometry G) 0 = q01.
Proof.
  rewrite <- (site_lin0 (b1 + 2 * q11 * y + q12 * z) q01). f_equal. unfold along0.
  pose proof d1 as E. cbv zeta in E. rewrite E, !d1_gen by lia. cbn [iv0 iv1 iv2]. fold x; fold y; fold z. ring.
Qed.
Lemma d02 : along0 (c0 s) (fun c' _ => along2 (c2 s) phi c' n * gidx (geometry G) 2) c 0
            * gidx (geometry G) 0 = q02.
Proof.
  rewrite <- (site_lin0 (b2 + 2 * q22 * z + q12 * y) q02). f_equal. unfold along0.
  pose proof d2 as E. cbv zeta in E. rewrite E, !d2_gen by lia. cbn [iv0 iv1 iv2]. fold x; fold y; fold z. ring.
Qed.
Lemma d12 : along1 (c1 s) (fun c' _ => along2 (c2 s) phi c' n * gidx (geometry G) 2) c 0
            * gidx (geometry G) 1 = q12.
Proof.
  rewrite <- (site_lin1 (b2 + 2 * q22 * z + q02 * x) q12). f_equal. unfold along1.
  pose proof d2 as E. cbv zeta in E. rewrite E, !d2_gen by lia. cbn [iv0 iv1 iv2]. fold x; fold y; fold z. ring.
Qed.

End OneQuad.

(** ** Derivatives of quadratics *)
Lemma quadratic_quad f : quadratic f ->
  exists a b0 b1 b2 q00 q11 q22 q01 q02 q12, forall x y z,
    f x y z = quad a b0 b1 b2 q00 q11 q22 q01 q02 q12 x y z.
Proof. intros (a & b0 & b1 & b2 & q00 & q11 & q22 & q01 & q02 & q12 & H).
  exists a, b0, b1, b2, q00, q11, q22, q01, q02, q12. exact H. Qed.

Section Der.
Variables (a b0 b1 b2 q00 q11 q22 q01 q02 q12 : R).
Let f := quad a b0 b1 b2 q00 q11 q22 q01 q02 q12.
Lemma quad_p0 x y z : partial f 0 x y z (b0 + 2 * q00 * x + q01 * y + q02 * z).
Proof. unfold partial, restrict, coord, f, quad; cbn [Z.eqb]. auto_derive; [exact I|ring]. Qed.
Lemma quad_p1 x y z : partial f 1 x y z (b1 + 2 * q11 * y + q01 * x + q12 * z).
Proof. unfold partial, restrict, coord, f, quad; cbn [Z.eqb Pos.eqb]. auto_derive; [exact I|ring]. Qed.
Lemma quad_p2 x y z : partial f 2 x y z (b2 + 2 * q22 * z + q02 * x + q12 * y).
Proof. unfold partial, restrict, coord, f, quad; cbn [Z.eqb Pos.eqb]. auto_derive; [exact I|ring]. Qed.
End Der.

Lemma partial_ext f h d x y z l : (forall x y z, f x y z = h x y z) ->
  partial h d x y z l -> partial f d x y z l.
Proof.
  intros E H. unfold partial in *. eapply is_derive_ext; [|exact H].
  intros t. unfold restrict. destruct (d =? 0)%Z; [|destruct (d =? 1)%Z]; symmetry; apply E.
Qed.
Lemma partial_D f d x y z l : partial f d x y z l -> D f d x y z = l.
Proof. intros H. unfold D. apply is_derive_unique. exact H. Qed.
Lemma D_ext f h d x y z : (forall x y z, f x y z = h x y z) -> D f d x y z = D h d x y z.
Proof.
  intros E. unfold D. apply Derive_ext. intros t. unfold restrict.
  destruct (d =? 0)%Z; [|destruct (d =? 1)%Z]; apply E.
Qed.

Lemma carries_quad G phi f n a b0 b1 b2 q00 q11 q22 q01 q02 q12 : carries G phi f ->
  (forall x y z, f n x y z = quad a b0 b1 b2 q00 q11 q22 q01 q02 q12 x y z) ->
  carries1 G phi n (quad a b0 b1 b2 q00 q11 q22 q01 q02 q12).
Proof. intros H E c Hc. rewrite (H c n Hc). apply E. Qed.

(** The three discrete first and second derivatives of one component. *)
Lemma exact_first G phi f n c : usable G -> insideD G c -> carries G phi f -> quadratic (f n) ->
  let x := site G 0 (iv0 c) in let y := site G 1 (iv1 c) in let z := site G 2 (iv2 c) in
  let s := here G c in let g := geometry G in
  partial (f n) 0 x y z (along0 (c0 s) phi c n * gidx g 0) /\
  partial (f n) 1 x y z (along1 (c1 s) phi c n * gidx g 1) /\
  partial (f n) 2 x y z (along2 (c2 s) phi c n * gidx g 2).
Proof.
  intros Hu Hc Hf Hq. cbv zeta.
  destruct (quadratic_quad _ Hq) as (a & b0 & b1 & b2 & q00 & q11 & q22 & q01 & q02 & q12 & E).
  pose proof (carries_quad G phi f n _ _ _ _ _ _ _ _ _ _ Hf E) as H1.
  split; [|split]; (eapply partial_ext; [exact E|]).
  - rewrite (d0 G phi n c _ _ _ _ _ _ _ _ _ _ Hu Hc H1). apply quad_p0.
  - rewrite (d1 G phi n c _ _ _ _ _ _ _ _ _ _ Hu Hc H1). apply quad_p1.
  - rewrite (d2 G phi n c _ _ _ _ _ _ _ _ _ _ Hu Hc H1). apply quad_p2.
Qed.

Lemma D2_quad f a b0 b1 b2 q00 q11 q22 q01 q02 q12 x y z :
  (forall x y z, f x y z = quad a b0 b1 b2 q00 q11 q22 q01 q02 q12 x y z) ->
  D2 f 0 0 x y z = 2 * q00 /\ D2 f 1 1 x y z = 2 * q11 /\ D2 f 2 2 x y z = 2 * q22.
Proof.
  intros E. unfold D2. repeat split.
  - rewrite (D_ext _ (quad b0 (2*q00) q01 q02 0 0 0 0 0 0)).
    + rewrite (partial_D _ _ _ _ _ _ (quad_p0 _ _ _ _ _ _ _ _ _ _ x y z)). ring.
    + intros. rewrite (partial_D _ _ _ _ _ _ (partial_ext _ _ _ _ _ _ _ E (quad_p0 _ _ _ _ _ _ _ _ _ _ _ _ _))).
      unfold quad. ring.
  - rewrite (D_ext _ (quad b1 q01 (2*q11) q12 0 0 0 0 0 0)).
    + rewrite (partial_D _ _ _ _ _ _ (quad_p1 _ _ _ _ _ _ _ _ _ _ x y z)). ring.
    + intros. rewrite (partial_D _ _ _ _ _ _ (partial_ext _ _ _ _ _ _ _ E (quad_p1 _ _ _ _ _ _ _ _ _ _ _ _ _))).
      unfold quad. ring.
  - rewrite (D_ext _ (quad b2 q02 q12 (2*q22) 0 0 0 0 0 0)).
    + rewrite (partial_D _ _ _ _ _ _ (quad_p2 _ _ _ _ _ _ _ _ _ _ x y z)). ring.
    + intros. rewrite (partial_D _ _ _ _ _ _ (partial_ext _ _ _ _ _ _ _ E (quad_p2 _ _ _ _ _ _ _ _ _ _ _ _ _))).
      unfold quad. ring.
Qed.

Lemma covered_inside G tiles c : tiling G tiles -> covered tiles c -> insideD G c.
Proof. intros Ht Hc d Hd. exact (covered_in G tiles c Ht Hc d Hd). Qed.

(** ** C33 *)

(** Gradient: component 3n+d of the result is the partial derivative along d of
    component n, in every computed cell, whatever the tiling and whatever the
    output field held before. *)
Theorem c33_gradient : forall G tiles phi out f c n d,
  usable G -> tiling G tiles -> covered tiles c -> carries G phi f ->
  quadratic (f n) -> axes d ->
  partial (f n) d (site G 0 (iv0 c)) (site G 1 (iv1 c)) (site G 2 (iv2 c))
    (apply (gradient_op (geometry G) phi) (geometry G) tiles out c (3 * n + d)%Z).
Proof.
  intros G tiles phi out f c n d Hu Ht Hc Hf Hq Hd.
  rewrite apply_here by assumption. pose proof (covered_inside G tiles c Ht Hc) as Hi.
  destruct (exact_first G phi f n c Hu Hi Hf Hq) as (A & B & C).
  unfold gradient_op.
  destruct Hd as [-> | [-> | ->]].
  - replace ((3 * n + 0) mod 3)%Z with 0%Z by (symmetry; rewrite Z.add_comm, Z.mul_comm, Z_mod_plus_full; reflexivity).
    replace ((3 * n + 0) / 3)%Z with n by (rewrite Z.add_comm, Z.mul_comm, Z_div_plus_full by lia; reflexivity).
    exact A.
  - replace ((3 * n + 1) mod 3)%Z with 1%Z by (symmetry; rewrite Z.add_comm, Z.mul_comm, Z_mod_plus_full; reflexivity).
    replace ((3 * n + 1) / 3)%Z with n by (rewrite Z.add_comm, Z.mul_comm, Z_div_plus_full by lia; reflexivity).
    exact B.
  - replace ((3 * n + 2) mod 3)%Z with 2%Z by (symmetry; rewrite Z.add_comm, Z.mul_comm, Z_mod_plus_full; reflexivity).
    replace ((3 * n + 2) / 3)%Z with n by (rewrite Z.add_comm, Z.mul_comm, Z_div_plus_full by lia; reflexivity).
    exact C.
Qed.

(** Divergence of the vector held in components 3n, 3n+1, 3n+2. *)
Theorem c33_divergence : forall G tiles phi out f c n,
  usable G -> tiling G tiles -> covered tiles c -> carries G phi f ->
  (forall d, axes d -> quadratic (f (3 * n + d)%Z)) ->
  apply (divergence_op (geometry G) phi) (geometry G) tiles out c n =
  sum3 (fun d => D (f (3 * n + d)%Z) d (site G 0 (iv0 c)) (site G 1 (iv1 c)) (site G 2 (iv2 c))).
Proof.
  intros G tiles phi out f c n Hu Ht Hc Hf Hq.
  rewrite apply_here by assumption. pose proof (covered_inside G tiles c Ht Hc) as Hi.
  destruct (exact_first G phi f (3*n+0)%Z c Hu Hi Hf (Hq _ ax0)) as (A & _ & _).
  destruct (exact_first G phi f (3*n+1)%Z c Hu Hi Hf (Hq _ ax1)) as (_ & B & _).
  destruct (exact_first G phi f (3*n+2)%Z c Hu Hi Hf (Hq _ ax2)) as (_ & _ & C).
  unfold sum3, divergence_op. rewrite (partial_D _ _ _ _ _ _ A), (partial_D _ _ _ _ _ _ B), (partial_D _ _ _ _ _ _ C).
  rewrite !(Z.mul_comm n 3). reflexivity.
Qed.

(** The velocity gradient used by the remaining operators. *)
Lemma vel_grad_exact G phi f c : usable G -> insideD G c -> carries G phi f ->
  (forall n, axes n -> quadratic (f n)) ->
  let J := jac f (site G 0 (iv0 c)) (site G 1 (iv1 c)) (site G 2 (iv2 c)) in
  vel_grad (geometry G) phi (here G c) c =
  Grad (J 0%Z 0%Z) (J 0%Z 1%Z) (J 0%Z 2%Z) (J 1%Z 0%Z) (J 1%Z 1%Z) (J 1%Z 2%Z)
       (J 2%Z 0%Z) (J 2%Z 1%Z) (J 2%Z 2%Z).
Proof.
  intros Hu Hi Hf Hq. cbv zeta. unfold jac, vel_grad.
  destruct (exact_first G phi f 0 c Hu Hi Hf (Hq _ ax0)) as (A & B & C).
  destruct (exact_first G phi f 1 c Hu Hi Hf (Hq _ ax1)) as (A1 & B1 & C1).
  destruct (exact_first G phi f 2 c Hu Hi Hf (Hq _ ax2)) as (A2 & B2 & C2).
  rewrite (partial_D _ _ _ _ _ _ A), (partial_D _ _ _ _ _ _ B), (partial_D _ _ _ _ _ _ C),
    (partial_D _ _ _ _ _ _ A1), (partial_D _ _ _ _ _ _ B1), (partial_D _ _ _ _ _ _ C1),
    (partial_D _ _ _ _ _ _ A2), (partial_D _ _ _ _ _ _ B2), (partial_D _ _ _ _ _ _ C2).
  reflexivity.
Qed.

(** Strain rate magnitude sqrt(2 S:S), curl, its magnitude, and the Q-criterion
    (half the excess of rotation over strain, or that divided by the strain). *)
Theorem c33_strain_vorticity : forall G tiles phi out f c,
  usable G -> tiling G tiles -> covered tiles c -> carries G phi f ->
  (forall n, axes n -> quadratic (f n)) ->
  let g := geometry G in
  let J := jac f (site G 0 (iv0 c)) (site G 1 (iv1 c)) (site G 2 (iv2 c)) in
  apply (strainrate_op g phi) g tiles out c 0%Z = sqrt (2 * square_norm (strain J)) /\
  (apply (vorticity_op g phi) g tiles out c 0%Z = J 2%Z 1%Z - J 1%Z 2%Z /\
   apply (vorticity_op g phi) g tiles out c 1%Z = J 0%Z 2%Z - J 2%Z 0%Z /\
   apply (vorticity_op g phi) g tiles out c 2%Z = J 1%Z 0%Z - J 0%Z 1%Z) /\
  apply (vorticity_mag_op g phi) g tiles out c 0%Z = sqrt (2 * square_norm (spin J)) /\
  apply (qcriterion_op false g phi) g tiles out c 0%Z
    = (square_norm (spin J) - square_norm (strain J)) / 2 /\
  (/ 2 ^ 52 * 100 <= square_norm (strain J) ->
   apply (qcriterion_op true g phi) g tiles out c 0%Z
     = (square_norm (spin J) / square_norm (strain J) - 1) / 2).
Proof.
  intros G tiles phi out f c Hu Ht Hc Hf Hq. cbv zeta.
  rewrite !apply_here by assumption. pose proof (covered_inside G tiles c Ht Hc) as Hi.
  unfold strainrate_op, vorticity_op, vorticity_mag_op, qcriterion_op.
  rewrite (vel_grad_exact G phi f c Hu Hi Hf Hq).
  set (J := jac f _ _ _). clearbody J.
  unfold strainrate_of, vorticity_of, vorticity_mag_of, qcriterion_of, q_s2, q_w2;
    cbn [ux uy uz vx vy vz wx wy wz Z.eqb Pos.eqb].
  unfold square_norm, strain, spin, sum3.
  repeat split.
  - f_equal. field.
  - f_equal. field.
  - field.
  - intros Hs. match goal with |- context [rmax ?a ?b] => replace (rmax a b) with b end.
    + match goal with |- context [_ / ?b - 1] => set (s2 := b) in * at 1 end.
      match goal with |- context [(_ / ?b - 1) / 2] => set (s3 := b) in * end.
      assert (E : s2 = s3) by (unfold s2, s3; field).
      assert (P : 0 < s3) by (assert (0 < / 2 ^ 52 * 100) by (apply Rmult_lt_0_compat; [apply Rinv_0_lt_compat; apply pow_lt; lra|lra]); lra).
      rewrite E. field. lra.
    + rewrite rmax_eq, Rmax_right; [reflexivity|].
      eapply Rle_trans; [exact Hs|]. right. field.
Qed.

(** Filter: affine fields pass through unchanged, and in any field at all the
    result lies between the smallest and the largest of the values around. *)
Theorem c33_filter_affine : forall G tiles phi out f c n,
  usable G -> tiling G tiles -> covered tiles c -> carries G phi f -> affine (f n) ->
  apply (filter_op phi) (geometry G) tiles out c n
  = f n (site G 0 (iv0 c)) (site G 1 (iv1 c)) (site G 2 (iv2 c)).
Proof.
  intros G tiles phi out f c n Hu Ht Hc Hf (a & b0 & b1 & b2 & E).
  rewrite apply_here by assumption. pose proof (covered_inside G tiles c Ht Hc) as Hi.
  assert (H1 : carries1 G phi n (quad a b0 b1 b2 0 0 0 0 0 0)).
  { intros c' Hc'. rewrite (Hf c' n Hc'), E. unfold quad. ring. }
  unfold filter_op.
  destruct (coefs G c) as (_ & _ & -> & -> & ->).
  pose proof (along0_three G phi n c _ _ _ _ _ _ _ _ _ _ Hi H1 (ftri (where_is (geometry G) c 0)) (iv1 c) (iv2 c) ltac:(lia)) as A0.
  rewrite (c_eta c) in A0. rewrite A0.
  pose proof (along1_three G phi n c _ _ _ _ _ _ _ _ _ _ Hi H1 (ftri (where_is (geometry G) c 1)) (iv0 c) (iv2 c) ltac:(lia)) as A1.
  rewrite (c_eta c) in A1. rewrite A1.
  pose proof (along2_three G phi n c _ _ _ _ _ _ _ _ _ _ Hi H1 (ftri (where_is (geometry G) c 2)) (iv0 c) (iv1 c) ltac:(lia)) as A2.
  rewrite (c_eta c) in A2. rewrite A2.
  set (x := site G 0 (iv0 c)). set (y := site G 1 (iv1 c)). set (z := site G 2 (iv2 c)).
  pose proof (three_f G 0 c (fun s => quad a b0 b1 b2 0 0 0 0 0 0 s y z) (a + b1*y + b2*z) b0
    ax0 Hu (Hi _ ax0) ltac:(intros; unfold quad; ring)) as F0.
  pose proof (three_f G 1 c (fun s => quad a b0 b1 b2 0 0 0 0 0 0 x s z) (a + b0*x + b2*z) b1
    ax1 Hu (Hi _ ax1) ltac:(intros; unfold quad; ring)) as F1.
  pose proof (three_f G 2 c (fun s => quad a b0 b1 b2 0 0 0 0 0 0 x y s) (a + b0*x + b1*y) b2
    ax2 Hu (Hi _ ax2) ltac:(intros; unfold quad; ring)) as F2.
  unfold icomp in F0, F1, F2; cbn [Z.eqb Pos.eqb] in F0, F1, F2.
  rewrite F0, F1, F2, E. fold x; fold y; fold z. unfold quad. field.
Qed.

Theorem c33_filter_bounds : forall G tiles phi out c n lo hi,
  usable G -> tiling G tiles -> covered tiles c ->
  (forall c', in_grown G c' -> lo <= phi c' n <= hi) ->
  lo <= apply (filter_op phi) (geometry G) tiles out c n <= hi.
Proof.
  intros G tiles phi out c n lo hi Hu Ht Hc Hb.
  rewrite apply_here by assumption. pose proof (covered_inside G tiles c Ht Hc) as Hi.
  unfold filter_op. destruct (coefs G c) as (_ & _ & -> & -> & ->).
  unfold along0, along1, along2.
  pose proof (Hb c ltac:(rewrite <- (c_eta c); apply (grown G c _ _ _ Hi); lia)).
  pose proof (Hb _ (grown G c (iv0 c + 1) (iv1 c) (iv2 c) Hi ltac:(lia))).
  pose proof (Hb _ (grown G c (iv0 c - 1) (iv1 c) (iv2 c) Hi ltac:(lia))).
  pose proof (Hb _ (grown G c (iv0 c) (iv1 c + 1) (iv2 c) Hi ltac:(lia))).
  pose proof (Hb _ (grown G c (iv0 c) (iv1 c - 1) (iv2 c) Hi ltac:(lia))).
  pose proof (Hb _ (grown G c (iv0 c) (iv1 c) (iv2 c + 1) Hi ltac:(lia))).
  pose proof (Hb _ (grown G c (iv0 c) (iv1 c) (iv2 c - 1) Hi ltac:(lia))).
  destruct (where_is _ c 0), (where_is _ c 1), (where_is _ c 2); cbn [ftri tp1 tc tm1]; lra.
Qed.

(** The result in a cell does not depend on how the level is cut into tiles, on
    their order, or on what the output held. *)
Theorem c33_decomposition : forall G op tiles tiles' out out' c n,
  usable G -> tiling G tiles -> tiling G tiles' -> covered tiles c -> covered tiles' c ->
  apply op (geometry G) tiles out c n = apply op (geometry G) tiles' out' c n.
Proof. intros. rewrite !apply_here by assumption. reflexivity. Qed.

(** Cells in no tile (ghost cells, cells of other processes) are not written. *)
Theorem c33_untouched : forall G op tiles out c n,
  usable G -> tiling G tiles -> ~ covered tiles c ->
  apply op (geometry G) tiles out c n = out c n.
Proof.
  intros G op tiles out c n Hu Ht Hc.
  rewrite apply_tiles; [|apply usable_thick; assumption|].
  - destruct (existsb _ tiles) eqn:E; [|reflexivity]. exfalso. apply Hc.
    apply existsb_exists in E. destruct E as (t & Hin & Hb). exists t.
    split; [assumption|]. apply in_boxb_spec; assumption.
  - intros t' Ht'. split; intros d Hd; specialize (Ht t' Ht' d);
      (destruct Ht as (A & B & C); [unfold axes; lia|]); cbn; [split|]; assumption.
Qed.

(** ** C34 *)

(** With the same scalar in its three components the operator is the Laplacian,
    exact for quadratics; affine fields give zero. *)
Theorem c34_laplacian : forall G tiles phi out h c n,
  usable G -> tiling G tiles -> covered tiles c -> carries G phi (fun _ => h) -> quadratic h ->
  apply (laplacian_op (geometry G) phi) (geometry G) tiles out c n =
  sum3 (fun d => D2 h d d (site G 0 (iv0 c)) (site G 1 (iv1 c)) (site G 2 (iv2 c))).
Proof.
  intros G tiles phi out h c n Hu Ht Hc Hf Hq.
  rewrite apply_here by assumption. pose proof (covered_inside G tiles c Ht Hc) as Hi.
  destruct (quadratic_quad _ Hq) as (a & b0 & b1 & b2 & q00 & q11 & q22 & q01 & q02 & q12 & E).
  destruct (D2_quad h _ _ _ _ _ _ _ _ _ _ (site G 0 (iv0 c)) (site G 1 (iv1 c)) (site G 2 (iv2 c)) E)
    as (A & B & C).
  unfold sum3. rewrite A, B, C. unfold laplacian_op.
  rewrite (dd0 G phi 0 c _ _ _ _ _ _ _ _ _ _ Hu Hi (carries_quad G phi _ 0 _ _ _ _ _ _ _ _ _ _ Hf E)).
  rewrite (dd1 G phi 1 c _ _ _ _ _ _ _ _ _ _ Hu Hi (carries_quad G phi _ 1 _ _ _ _ _ _ _ _ _ _ Hf E)).
  rewrite (dd2 G phi 2 c _ _ _ _ _ _ _ _ _ _ Hu Hi (carries_quad G phi _ 2 _ _ _ _ _ _ _ _ _ _ Hf E)).
  reflexivity.
Qed.

Lemma affine_quadratic f : affine f -> quadratic f.
Proof.
  intros (a & b0 & b1 & b2 & E). exists a, b0, b1, b2, 0, 0, 0, 0, 0, 0.
  intros. rewrite E. ring.
Qed.

Theorem c34_laplacian_affine : forall G tiles phi out f c n,
  usable G -> tiling G tiles -> covered tiles c -> carries G phi f ->
  (forall i, axes i -> affine (f i)) ->
  apply (laplacian_op (geometry G) phi) (geometry G) tiles out c n = 0.
Proof.
  intros G tiles phi out f c n Hu Ht Hc Hf Hq.
  rewrite apply_here by assumption. pose proof (covered_inside G tiles c Ht Hc) as Hi.
  unfold laplacian_op.
  destruct (Hq _ ax0) as (a & b0 & b1 & b2 & E).
  rewrite (dd0 G phi 0 c a b0 b1 b2 0 0 0 0 0 0 Hu Hi);
    [|eapply carries_quad; [exact Hf|]; intros; rewrite E; unfold quad; ring].
  destruct (Hq _ ax1) as (a' & b0' & b1' & b2' & E').
  rewrite (dd1 G phi 1 c a' b0' b1' b2' 0 0 0 0 0 0 Hu Hi);
    [|eapply carries_quad; [exact Hf|]; intros; rewrite E'; unfold quad; ring].
  destruct (Hq _ ax2) as (a2 & b02 & b12 & b22 & E2).
  rewrite (dd2 G phi 2 c a2 b02 b12 b22 0 0 0 0 0 0 Hu Hi);
    [|eapply carries_quad; [exact Hf|]; intros; rewrite E2; unfold quad; ring].
  ring.
Qed.

(** What it computes for a vector field with different components: the second
    derivative along axis d of component d only. *)
Theorem c34_laplacian_of_vector : forall G tiles phi out f c n,
  usable G -> tiling G tiles -> covered tiles c -> carries G phi f ->
  (forall i, axes i -> quadratic (f i)) ->
  apply (laplacian_op (geometry G) phi) (geometry G) tiles out c n =
  sum3 (fun d => D2 (f d) d d (site G 0 (iv0 c)) (site G 1 (iv1 c)) (site G 2 (iv2 c))).
Proof.
  intros G tiles phi out f c n Hu Ht Hc Hf Hq.
  rewrite apply_here by assumption. pose proof (covered_inside G tiles c Ht Hc) as Hi.
  unfold laplacian_op, sum3.
  destruct (quadratic_quad _ (Hq _ ax0)) as (a & b0 & b1 & b2 & q00 & q11 & q22 & q01 & q02 & q12 & E).
  rewrite (dd0 G phi 0 c _ _ _ _ _ _ _ _ _ _ Hu Hi (carries_quad G phi _ 0 _ _ _ _ _ _ _ _ _ _ Hf E)).
  rewrite (proj1 (D2_quad _ _ _ _ _ _ _ _ _ _ _ _ _ _ E)).
  destruct (quadratic_quad _ (Hq _ ax1)) as (a' & b0' & b1' & b2' & q00' & q11' & q22' & q01' & q02' & q12' & E').
  rewrite (dd1 G phi 1 c _ _ _ _ _ _ _ _ _ _ Hu Hi (carries_quad G phi _ 1 _ _ _ _ _ _ _ _ _ _ Hf E')).
  rewrite (proj1 (proj2 (D2_quad _ _ _ _ _ _ _ _ _ _ _ _ _ _ E'))).
  destruct (quadratic_quad _ (Hq _ ax2)) as (a2 & b02 & b12 & b22 & q002 & q112 & q222 & q012 & q022 & q122 & E2).
  rewrite (dd2 G phi 2 c _ _ _ _ _ _ _ _ _ _ Hu Hi (carries_quad G phi _ 2 _ _ _ _ _ _ _ _ _ _ Hf E2)).
  rewrite (proj2 (proj2 (D2_quad _ _ _ _ _ _ _ _ _ _ _ _ _ _ E2))).
  reflexivity.
Qed.

(** ** Curvature *)
Lemma Rpower_32 s : 0 < s -> Rpower s (3/2) = s * sqrt s.
Proof.
  intros H. replace (3/2) with (1 + /2) by field.
  rewrite Rpower_plus, Rpower_1, Rpower_sqrt by assumption. reflexivity.
Qed.

Lemma normal_deriv a0 a1 b0 b1 c0 c1 t :
  let A := a0 + a1 * t in let B := b0 + b1 * t in let C := c0 + c1 * t in
  let s := A * A + B * B + C * C in 0 < s ->
  is_derive (fun t => (a0 + a1 * t) / sqrt ((a0 + a1*t)*(a0 + a1*t) + (b0 + b1*t)*(b0 + b1*t)
                                              + (c0 + c1*t)*(c0 + c1*t))) t
    ((a1 * s - A * (A * a1 + B * b1 + C * c1)) / (s * sqrt s)).
Proof.
  cbv zeta. intros Hs.
  assert (Hr : 0 < sqrt ((a0 + a1*t)*(a0 + a1*t) + (b0 + b1*t)*(b0 + b1*t) + (c0 + c1*t)*(c0 + c1*t)))
    by (apply sqrt_lt_R0; exact Hs).
  auto_derive; [repeat split; lra|].
  set (A := a0 + a1 * t) in *. set (B := b0 + b1 * t) in *. set (C := c0 + c1 * t) in *.
  pose proof (sqrt_sqrt _ (Rlt_le _ _ Hs)) as Hq.
  set (r := sqrt (A * A + B * B + C * C)) in *.
  rewrite <- Hq. field. lra.
Qed.

(** The curvature operator is minus the divergence of the unit normal of the level
    sets, for every quadratic level function, wherever its gradient is not zero. *)
Theorem c34_curvature : forall G tiles phi out f c n,
  usable G -> tiling G tiles -> covered tiles c -> carries G phi f -> quadratic (f n) ->
  let x := site G 0 (iv0 c) in let y := site G 1 (iv1 c) in let z := site G 2 (iv2 c) in
  0 < grad_norm (f n) x y z ->
  exists k : Z -> R,
    (forall d, axes d -> partial (unit_normal (f n) d) d x y z (k d)) /\
    apply (curvature_op (geometry G) phi) (geometry G) tiles out c n = - sum3 k.
Proof.
  intros G tiles phi out f c n Hu Ht Hc Hf Hq. cbv zeta.
  rewrite apply_here by assumption. pose proof (covered_inside G tiles c Ht Hc) as Hi.
  destruct (quadratic_quad _ Hq) as (a & b0 & b1 & b2 & q00 & q11 & q22 & q01 & q02 & q12 & E).
  pose proof (carries_quad G phi f n _ _ _ _ _ _ _ _ _ _ Hf E) as H1.
  unfold curvature_op. cbv zeta.
  rewrite (d0 G phi n c _ _ _ _ _ _ _ _ _ _ Hu Hi H1).
  rewrite (d1 G phi n c _ _ _ _ _ _ _ _ _ _ Hu Hi H1).
  rewrite (d2 G phi n c _ _ _ _ _ _ _ _ _ _ Hu Hi H1).
  rewrite (d01 G phi n c _ _ _ _ _ _ _ _ _ _ Hu Hi H1).
  rewrite (d02 G phi n c _ _ _ _ _ _ _ _ _ _ Hu Hi H1).
  rewrite (d12 G phi n c _ _ _ _ _ _ _ _ _ _ Hu Hi H1).
  rewrite (dd0 G phi n c _ _ _ _ _ _ _ _ _ _ Hu Hi H1).
  rewrite (dd1 G phi n c _ _ _ _ _ _ _ _ _ _ Hu Hi H1).
  rewrite (dd2 G phi n c _ _ _ _ _ _ _ _ _ _ Hu Hi H1).
  set (x := site G 0 (iv0 c)). set (y := site G 1 (iv1 c)). set (z := site G 2 (iv2 c)).
  assert (G0 : forall x y z, D (f n) 0 x y z = b0 + 2 * q00 * x + q01 * y + q02 * z)
    by (intros; apply partial_D; eapply partial_ext; [exact E|apply quad_p0]).
  assert (G1 : forall x y z, D (f n) 1 x y z = b1 + 2 * q11 * y + q01 * x + q12 * z)
    by (intros; apply partial_D; eapply partial_ext; [exact E|apply quad_p1]).
  assert (G2 : forall x y z, D (f n) 2 x y z = b2 + 2 * q22 * z + q02 * x + q12 * y)
    by (intros; apply partial_D; eapply partial_ext; [exact E|apply quad_p2]).
  unfold grad_norm, sum3. rewrite G0, G1, G2. intros Hs.
  set (g0 := b0 + 2 * q00 * x + q01 * y + q02 * z) in *.
  set (g1 := b1 + 2 * q11 * y + q01 * x + q12 * z) in *.
  set (g2 := b2 + 2 * q22 * z + q02 * x + q12 * y) in *.
  set (s := g0 * g0 + g1 * g1 + g2 * g2) in *.
  assert (Ps : 0 < s).
  { destruct (Rlt_dec 0 s) as [|Hn]; [assumption|]. rewrite sqrt_neg_0 in Hs; lra. }
  exists (fun d => if (d =? 0)%Z then (2 * q00 * s - g0 * (g0 * (2*q00) + g1 * q01 + g2 * q02)) / (s * sqrt s)
           else if (d =? 1)%Z then (2 * q11 * s - g1 * (g1 * (2*q11) + g0 * q01 + g2 * q12)) / (s * sqrt s)
           else (2 * q22 * s - g2 * (g2 * (2*q22) + g0 * q02 + g1 * q12)) / (s * sqrt s)).
  split.
  - intros d Hd. unfold partial.
    destruct Hd as [-> | [-> | ->]]; unfold coord; cbn [Z.eqb Pos.eqb].
    + pose proof (normal_deriv (b0 + q01 * y + q02 * z) (2*q00) (b1 + 2*q11*y + q12*z) q01
                   (b2 + 2*q22*z + q12*y) q02 x) as N. cbv zeta in N.
      replace (b0 + q01 * y + q02 * z + 2*q00*x) with g0 in N by (unfold g0; ring).
      replace (b1 + 2*q11*y + q12*z + q01*x) with g1 in N by (unfold g1; ring).
      replace (b2 + 2*q22*z + q12*y + q02*x) with g2 in N by (unfold g2; ring).
      eapply is_derive_ext; [|exact (N Ps)].
      intros t. cbv beta. unfold restrict, unit_normal, grad_norm, sum3; cbn [Z.eqb].
      rewrite G0, G1, G2. apply f_equal2; [ring | apply f_equal; ring].
    + pose proof (normal_deriv (b1 + q01 * x + q12 * z) (2*q11) (b0 + 2*q00*x + q02*z) q01
                   (b2 + 2*q22*z + q02*x) q12 y) as N. cbv zeta in N.
      replace (b1 + q01 * x + q12 * z + 2*q11*y) with g1 in N by (unfold g1; ring).
      replace (b0 + 2*q00*x + q02*z + q01*y) with g0 in N by (unfold g0; ring).
      replace (b2 + 2*q22*z + q02*x + q12*y) with g2 in N by (unfold g2; ring).
      replace (g1 * g1 + g0 * g0 + g2 * g2) with s in N by (unfold s; ring).
      eapply is_derive_ext; [|exact (N Ps)].
      intros t. cbv beta. unfold restrict, unit_normal, grad_norm, sum3; cbn [Z.eqb Pos.eqb].
      rewrite G0, G1, G2. apply f_equal2; [ring | apply f_equal; ring].
    + pose proof (normal_deriv (b2 + q02 * x + q12 * y) (2*q22) (b0 + 2*q00*x + q01*y) q02
                   (b1 + 2*q11*y + q01*x) q12 z) as N. cbv zeta in N.
      replace (b2 + q02 * x + q12 * y + 2*q22*z) with g2 in N by (unfold g2; ring).
      replace (b0 + 2*q00*x + q01*y + q02*z) with g0 in N by (unfold g0; ring).
      replace (b1 + 2*q11*y + q01*x + q12*z) with g1 in N by (unfold g1; ring).
      replace (g2 * g2 + g0 * g0 + g1 * g1) with s in N by (unfold s; ring).
      eapply is_derive_ext; [|exact (N Ps)].
      intros t. cbv beta. unfold restrict, unit_normal, grad_norm, sum3; cbn [Z.eqb Pos.eqb].
      rewrite G0, G1, G2. apply f_equal2; [ring | apply f_equal; ring].
  - cbn [Z.eqb Pos.eqb]. unfold curvature_of. fold s. rewrite Rpower_32 by exact Ps.
    assert (0 < sqrt s) by (apply sqrt_lt_R0; exact Ps).
    clearbody g0 g1 g2. unfold s in *. field. split; lra.
Qed.

(** Special case: around a sphere the curvature is -2 over the distance. *)
Theorem c34_curvature_sphere : forall G tiles phi out f c n p0 p1 p2 r,
  usable G -> tiling G tiles -> covered tiles c -> carries G phi f ->
  (forall x y z, f n x y z = (x - p0)^2 + (y - p1)^2 + (z - p2)^2 - r) ->
  let x := site G 0 (iv0 c) in let y := site G 1 (iv1 c) in let z := site G 2 (iv2 c) in
  0 < (x - p0)^2 + (y - p1)^2 + (z - p2)^2 ->
  apply (curvature_op (geometry G) phi) (geometry G) tiles out c n
  = - 2 / sqrt ((x - p0)^2 + (y - p1)^2 + (z - p2)^2).
Proof.
  intros G tiles phi out f c n p0 p1 p2 r Hu Ht Hc Hf E. cbv zeta. intros Hp.
  rewrite apply_here by assumption. pose proof (covered_inside G tiles c Ht Hc) as Hi.
  assert (H1 : carries1 G phi n (quad (p0^2+p1^2+p2^2 - r) (-2*p0) (-2*p1) (-2*p2) 1 1 1 0 0 0)).
  { eapply carries_quad; [exact Hf|]. intros. rewrite E. unfold quad. ring. }
  unfold curvature_op. cbv zeta.
  rewrite (d0 G phi n c _ _ _ _ _ _ _ _ _ _ Hu Hi H1).
  rewrite (d1 G phi n c _ _ _ _ _ _ _ _ _ _ Hu Hi H1).
  rewrite (d2 G phi n c _ _ _ _ _ _ _ _ _ _ Hu Hi H1).
  rewrite (d01 G phi n c _ _ _ _ _ _ _ _ _ _ Hu Hi H1).
  rewrite (d02 G phi n c _ _ _ _ _ _ _ _ _ _ Hu Hi H1).
  rewrite (d12 G phi n c _ _ _ _ _ _ _ _ _ _ Hu Hi H1).
  rewrite (dd0 G phi n c _ _ _ _ _ _ _ _ _ _ Hu Hi H1).
  rewrite (dd1 G phi n c _ _ _ _ _ _ _ _ _ _ Hu Hi H1).
  rewrite (dd2 G phi n c _ _ _ _ _ _ _ _ _ _ Hu Hi H1).
  set (x := site G 0 (iv0 c)) in *. set (y := site G 1 (iv1 c)) in *. set (z := site G 2 (iv2 c)) in *.
  set (s := (x - p0)^2 + (y - p1)^2 + (z - p2)^2) in *.
  unfold curvature_of.
  match goal with |- context [Rpower ?b _] => replace b with (2 * 2 * s) by (unfold s; ring) end.
  rewrite Rpower_32 by lra.
  rewrite sqrt_mult, sqrt_square by lra.
  assert (0 < sqrt s) by (apply sqrt_lt_R0; exact Hp).
  unfold s in *. field. split; lra.
Qed.

(** ** C51: the nonlinear stress of the Kosovic model *)

(** Seven of the nine components are 4 (S.S + S.W - W.S), S and W the symmetric
    and antisymmetric parts of the velocity gradient. *)
Theorem c51_nonlinear_partial : forall G tiles phi out f c i j,
  usable G -> tiling G tiles -> covered tiles c -> carries G phi f ->
  (forall n, axes n -> quadratic (f n)) -> axes i -> axes j ->
  ~ (i = 1%Z /\ (j = 1%Z \/ j = 2%Z)) ->
  let J := jac f (site G 0 (iv0 c)) (site G 1 (iv1 c)) (site G 2 (iv2 c)) in
  let S := strain J in let W := spin J in
  apply (nonlinear_op (geometry G) phi) (geometry G) tiles out c (3 * i + j)%Z
  = 4 * (dot S S i j + dot S W i j - dot W S i j).
Proof.
  intros G tiles phi out f c i j Hu Ht Hc Hf Hq Hi Hj Hne. cbv zeta.
  rewrite apply_here by assumption. pose proof (covered_inside G tiles c Ht Hc) as Hin.
  unfold nonlinear_op. rewrite (vel_grad_exact G phi f c Hu Hin Hf Hq).
  set (J := jac f _ _ _). clearbody J.
  destruct Hi as [-> | [-> | ->]], Hj as [-> | [-> | ->]]; try (exfalso; apply Hne; lia);
    cbn [nonlinear_of Z.add Z.mul Pos.add Pos.mul Pos.succ]; unfold dot, strain, spin, sum3; field.
Qed.

(** A grid to show cases on: 4 cells per side of size 1, walls below and above,
    periodic sideways; tiles split the domain in two. *)
Definition G4 : grid :=
  Grid (Box (IV 0 0 0) (IV 3 3 3)) (fun d => negb (d =? 2)%Z) (fun _ => 0) (fun _ => 1).
Definition tiles4 : list box := [Box (IV 0 0 2) (IV 3 3 3); Box (IV 0 0 0) (IV 3 3 1)].
Lemma G4_usable : usable G4.
Proof. intros d [-> | [-> | ->]]; repeat split; cbn; try lra; try lia; discriminate. Qed.
Lemma tiles4_ok : tiling G4 tiles4.
Proof. intros t [<- | [<- | []]] d [-> | [-> | ->]]; cbn; lia. Qed.
Definition exact_field (G : grid) (f : Z -> R -> R -> R -> R) : field :=
  fun c n => f n (site G 0 (iv0 c)) (site G 1 (iv1 c)) (site G 2 (iv2 c)).
Lemma exact_carries G f : carries G (exact_field G f) f.
Proof. intros c n _. reflexivity. Qed.

(** A simple shear du/dz, then the two remaining components: dv/dx and du/dy in
    component (2,2), du/dz and dw/dx with du/dy in component (2,3). *)
Definition lin3 (A : Z -> Z -> R) : Z -> R -> R -> R -> R :=
  fun n x y z => A n 0%Z * x + A n 1%Z * y + A n 2%Z * z.
Lemma lin3_quadratic A n : quadratic (lin3 A n).
Proof.
  exists 0, (A n 0%Z), (A n 1%Z), (A n 2%Z), 0, 0, 0, 0, 0, 0. intros. unfold lin3. ring.
Qed.
Lemma lin3_jac A x y z i j : axes j -> jac (lin3 A) x y z i j = A i j.
Proof.
  intros Hj. unfold jac. apply partial_D.
  assert (E : forall x y z, lin3 A i x y z = quad 0 (A i 0%Z) (A i 1%Z) (A i 2%Z) 0 0 0 0 0 0 x y z)
    by (intros; unfold lin3, quad; ring).
  eapply partial_ext; [exact E|]. destruct Hj as [-> | [-> | ->]].
  - eapply eq_rect; [apply quad_p0|ring].
  - eapply eq_rect; [apply quad_p1|ring].
  - eapply eq_rect; [apply quad_p2|ring].
Qed.

(** Claimed of all nine components, it fails for (2,2) and (2,3): the flow
    u = y gives 0 instead of 3 and u = y + z, w = 0 gives an asymmetric tensor. *)
Theorem c51_nonlinear_refuted : exists G tiles phi f c,
  usable G /\ tiling G tiles /\ covered tiles c /\ carries G phi f /\
  (forall n, axes n -> quadratic (f n)) /\
  let J := jac f (site G 0 (iv0 c)) (site G 1 (iv1 c)) (site G 2 (iv2 c)) in
  let S := strain J in let W := spin J in
  let N := apply (nonlinear_op (geometry G) phi) (geometry G) tiles (fun _ _ => 0) c in
  N 4%Z <> 4 * (dot S S 1%Z 1%Z + dot S W 1%Z 1%Z - dot W S 1%Z 1%Z) /\
  N 5%Z <> 4 * (dot S S 1%Z 2%Z + dot S W 1%Z 2%Z - dot W S 1%Z 2%Z) /\
  N 5%Z <> N 7%Z.
Proof.
  set (A := fun i j => if ((i =? 0) && negb (j =? 0))%Z then 1 else 0).
  exists G4, tiles4, (exact_field G4 (lin3 A)), (lin3 A), (IV 1 1 0).
  assert (Hcov : covered tiles4 (IV 1 1 0)).
  { exists (Box (IV 0 0 0) (IV 3 3 1)). split; [cbn; tauto|]. unfold in_box; cbn; lia. }
  split; [exact G4_usable|]. split; [exact tiles4_ok|]. split; [exact Hcov|].
  split; [apply exact_carries|]. split; [intros; apply lin3_quadratic|].
  cbv zeta. rewrite !apply_here by (exact G4_usable || exact tiles4_ok || exact Hcov).
  pose proof (covered_inside G4 tiles4 _ tiles4_ok Hcov) as Hin.
  unfold nonlinear_op.
  rewrite (vel_grad_exact G4 _ (lin3 A) _ G4_usable Hin (exact_carries _ _)
    (fun n _ => lin3_quadratic A n)).
  unfold dot, strain, spin, sum3. rewrite !lin3_jac by (unfold axes; tauto).
  unfold A; cbn [Z.eqb Pos.eqb andb negb nonlinear_of]. repeat split; lra.
Qed.

(** ** Limits of C33, C34 *)

(** The derived quantity "laplacian" of a velocity field is the Laplacian of no
    component: u = y^2 has Laplacian 2, the operator says 0. *)
Theorem c34_laplacian_refuted : exists G tiles phi f c,
  usable G /\ tiling G tiles /\ covered tiles c /\ carries G phi f /\
  (forall n, axes n -> quadratic (f n)) /\
  let x := site G 0 (iv0 c) in let y := site G 1 (iv1 c) in let z := site G 2 (iv2 c) in
  forall i, axes i ->
  apply (laplacian_op (geometry G) phi) (geometry G) tiles (fun _ _ => 0) c 0%Z
  <> sum3 (fun d => D2 (f i) d d x y z).
Proof.
  set (f := fun (n : Z) (x y z : R) => if (n =? 0)%Z then x*x + y*y else if (n =? 1)%Z then 3*x*x else 4*x*x).
  exists G4, tiles4, (exact_field G4 f), f, (IV 1 1 0).
  assert (Hcov : covered tiles4 (IV 1 1 0)).
  { exists (Box (IV 0 0 0) (IV 3 3 1)). split; [cbn; tauto|]. unfold in_box; cbn; lia. }
  assert (Hq : forall n, axes n -> quadratic (f n)).
  { intros n [-> | [-> | ->]]; unfold f; cbn [Z.eqb Pos.eqb].
    - exists 0,0,0,0,1,1,0,0,0,0; intros; ring.
    - exists 0,0,0,0,3,0,0,0,0,0; intros; ring.
    - exists 0,0,0,0,4,0,0,0,0,0; intros; ring. }
  split; [exact G4_usable|]. split; [exact tiles4_ok|]. split; [exact Hcov|].
  split; [apply exact_carries|]. split; [exact Hq|]. cbv zeta. intros i Hi.
  rewrite (c34_laplacian_of_vector G4 tiles4 _ _ f _ _ G4_usable tiles4_ok Hcov (exact_carries _ _) Hq).
  assert (E0 : forall x y z, f 0%Z x y z = quad 0 0 0 0 1 1 0 0 0 0 x y z) by (intros; unfold f, quad; cbn [Z.eqb]; ring).
  assert (E1 : forall x y z, f 1%Z x y z = quad 0 0 0 0 3 0 0 0 0 0 x y z) by (intros; unfold f, quad; cbn [Z.eqb Pos.eqb]; ring).
  assert (E2 : forall x y z, f 2%Z x y z = quad 0 0 0 0 4 0 0 0 0 0 x y z) by (intros; unfold f, quad; cbn [Z.eqb Pos.eqb]; ring).
  unfold sum3.
  set (x := site G4 0 _). set (y := site G4 1 _). set (z := site G4 2 _).
  destruct (D2_quad _ _ _ _ _ _ _ _ _ _ _ x y z E0) as (A & B & C).
  destruct (D2_quad _ _ _ _ _ _ _ _ _ _ _ x y z E1) as (A1 & B1 & C1).
  destruct (D2_quad _ _ _ _ _ _ _ _ _ _ _ x y z E2) as (A2 & B2 & C2).
  destruct Hi as [-> | [-> | ->]]; rewrite ?A, ?B, ?C, ?A1, ?B1, ?C1, ?A2, ?B2, ?C2; lra.
Qed.

(** Two cells between opposite walls are needed: with a single one the upper wall's
    stencil takes the lower wall's value for that of a cell. *)
Definition G1 : grid :=
  Grid (Box (IV 0 0 0) (IV 3 3 0)) (fun d => negb (d =? 2)%Z) (fun _ => 0) (fun _ => 1).
Theorem c33_single_layer_refuted :
  let phi := exact_field G1 (fun (_ : Z) (_ _ z : R) => z) in
  apply (gradient_op (geometry G1) phi) (geometry G1) [dom G1] (fun _ _ => 0) (IV 1 1 0) 2%Z = 5/6.
Proof.
  cbv zeta. unfold apply, apply_tile. cbn [fold_left].
  replace (strictly_contains _ _) with false by reflexivity.
  unfold boundary_passes. cbn [fold_left]. unfold pass.
  repeat match goal with |- context [if in_boxb (sbox ?s ?g ?b) ?c then _ else _] =>
    let v := eval vm_compute in (in_boxb (box_hi g b 2) c) in
    first [ replace (in_boxb (sbox s g b) c) with false by reflexivity
          | replace (in_boxb (sbox s g b) c) with true by reflexivity ] end.
  unfold gradient_op, along2, exact_field, site, centre. cbn. lra.
Qed.

(** ** Non-trivial cases *)
Example c33_case : let A := fun i j : Z => IZR (i + 2 * j) in
  let phi := exact_field G4 (lin3 A) in
  usable G4 /\ tiling G4 tiles4 /\ covered tiles4 (IV 1 2 3) /\ carries G4 phi (lin3 A) /\
  (forall n, quadratic (lin3 A n)) /\
  apply (divergence_op (geometry G4) phi) (geometry G4) tiles4 (fun _ _ => 7) (IV 1 2 3) 0%Z = 9.
Proof.
  cbv zeta.
  assert (Hcov : covered tiles4 (IV 1 2 3)).
  { exists (Box (IV 0 0 2) (IV 3 3 3)). split; [cbn; tauto|]. unfold in_box; cbn; lia. }
  split; [exact G4_usable|]. split; [exact tiles4_ok|]. split; [exact Hcov|].
  split; [apply exact_carries|]. split; [intros; apply lin3_quadratic|].
  rewrite (c33_divergence G4 tiles4 _ _ _ _ 0 G4_usable tiles4_ok Hcov (exact_carries _ _)
    (fun d _ => lin3_quadratic _ _)).
  transitivity (sum3 (fun d => jac (lin3 (fun i j : Z => IZR (i + 2 * j)))
    (site G4 0 1) (site G4 1 2) (site G4 2 3) d d)); [reflexivity|].
  unfold sum3. rewrite !lin3_jac by (unfold axes; tauto). simpl. lra.
Qed.

Print Assumptions c33_gradient.
Print Assumptions c33_divergence.
Print Assumptions c33_strain_vorticity.
Print Assumptions c33_filter_affine.
Print Assumptions c33_filter_bounds.
Print Assumptions c33_decomposition.
Print Assumptions c33_untouched.
Print Assumptions c33_single_layer_refuted.
Print Assumptions c34_laplacian.
Print Assumptions c34_laplacian_affine.
Print Assumptions c34_laplacian_of_vector.
Print Assumptions c34_laplacian_refuted.
Print Assumptions c34_curvature.
Print Assumptions c34_curvature_sphere.
Print Assumptions c51_nonlinear_partial.
Print Assumptions c51_nonlinear_refuted.
