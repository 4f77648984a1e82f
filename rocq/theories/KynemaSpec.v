(** What is expected of a turbine computed by Kynema, without the model. *)
From Coq Require Import Reals List Arith.
From Verif Require Import VecSpace.
Import ListNotations.
Open Scope R_scope.

(** Points of a turbine whose bodies have [sizes] nodes: the hub first, then node after node, body after body. *)
Definition total (sizes : list nat) : nat := S (fold_right Nat.add 0%nat sizes).
Definition number (sizes : list nat) (b k : nat) : nat := S (fold_right Nat.add 0%nat (firstn b sizes) + k).
Definition node (sizes : list nat) (b k : nat) : Prop := (b < length sizes)%nat /\ (k < nth b sizes 0)%nat.

(** Quaternions (a scalar and a vector), their product, and the vector turned by one *)
Definition qmul (p q : R * vec) : R * vec :=
  (fst p * fst q - vdot (snd p) (snd q),
   vadd (vadd (V3 (fst p * vx (snd q)) (fst p * vy (snd q)) (fst p * vz (snd q))) (V3 (fst q * vx (snd p)) (fst q * vy (snd p)) (fst q * vz (snd p))))
        (vcross (snd p) (snd q))).
(** four numbers, the scalar first *)
Definition as_q (q : nat -> R) : R * vec := (q 0%nat, V3 (q 1%nat) (q 2%nat) (q 3%nat)).
Definition qconj (q : R * vec) : R * vec := (fst q, V3 (- vx (snd q)) (- vy (snd q)) (- vz (snd q))).
Definition turned (q : R * vec) (v : vec) : vec := snd (qmul (qmul q (0, v)) (qconj q)).
Definition unit_q (q : R * vec) : Prop := fst q * fst q + vdot (snd q) (snd q) = 1.

(** Twice the kinetic energy of a motion by a matrix of six rows: three velocities, three rates of rotation *)
Definition dotl (a b : list R) : R := fold_right Rplus 0 (map (fun p => fst p * snd p) (combine a b)).
Definition twice_energy (m : list (list R)) (w : list R) : R := dotl w (map (fun row => dotl row w) m).
(** Particles of a flat section: mass, and place in the plane of the section *)
Definition psum (ps : list (R * vec)) (f : R -> R -> R -> R) : R := fold_right (fun p s => f (fst p) (vx (snd p)) (vy (snd p)) + s) 0 ps.
Definition particles_energy (ps : list (R * vec)) (v w : vec) : R :=
  psum ps (fun m x y => m * (let u := vadd v (vcross w (V3 x y 0)) in vdot u u)).
