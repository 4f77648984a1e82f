(** What it means for a flow in closed form to be one the solver can be compared with, in terms of
    derivatives only (the derivative of Coquelicot), and what an average over a cell is. *)
From Coq Require Import Reals List.
From Coquelicot Require Import Coquelicot.
Import ListNotations.
Local Open Scope R_scope.

(** A function of x, y and t with its derivative in time, its first and its second derivatives in space. *)
Definition derivatives (f ft fx fy fxx fyy : R -> R -> R -> R) : Prop :=
  forall x y t,
    is_derive (fun s => f x y s) t (ft x y t) /\
    is_derive (fun s => f s y t) x (fx x y t) /\ is_derive (fun s => f x s t) y (fy x y t) /\
    is_derive (fun s => fx s y t) x (fxx x y t) /\ is_derive (fun s => fy x s t) y (fyy x y t).

(** Incompressible flow in a plane: the equations of mass and momentum for density [rho], dynamic
    viscosity [mu], pressure gradient ([gx], [gy]) and force per mass ([ax], [ay]). *)
Definition solves (rho mu : R) (u v gx gy ax ay : R -> R -> R -> R) : Prop :=
  exists ut ux uy uxx uyy vt vx vy vxx vyy,
    derivatives u ut ux uy uxx uyy /\ derivatives v vt vx vy vxx vyy /\
    forall x y t,
      ux x y t + vy x y t = 0 /\
      rho * (ut x y t + u x y t * ux x y t + v x y t * uy x y t)
        = - gx x y t + mu * (uxx x y t + uyy x y t) + rho * ax x y t /\
      rho * (vt x y t + u x y t * vx x y t + v x y t * vy x y t)
        = - gy x y t + mu * (vxx x y t + vyy x y t) + rho * ay x y t.

(** ([gx], [gy]) is the gradient of [p]. *)
Definition gradient_of (p gx gy : R -> R -> R -> R) : Prop :=
  forall x y t, is_derive (fun s => p s y t) x (gx x y t) /\ is_derive (fun s => p x s t) y (gy x y t).

(** The divergence of a field in space is [d]. *)
Definition divergence_at (u v w : R -> R -> R -> R) (x y z d : R) : Prop :=
  exists a b c, is_derive (fun s => u s y z) x a /\ is_derive (fun s => v x s z) y b /\
    is_derive (fun s => w x y s) z c /\ d = a + b + c.

(** A function and its first two derivatives. *)
Definition twice (f f1 f2 : R -> R) : Prop :=
  forall z, is_derive f z (f1 z) /\ is_derive f1 z (f2 z).

(** The error function. *)
Definition the_erf (x : R) : R := 2 / sqrt PI * RInt (fun s => exp (- s ^ 2)) 0 x.
(** The average of [f] over the cell of size [d] centred at [x]. *)
Definition average (f : R -> R) (x d : R) : R := RInt f (x - d / 2) (x + d / 2) / d.
(** The length of the part of a cell within a distance of a point. *)
Definition overlap (x d x0 w : R) : R := Rmax 0 (Rmin (x + d / 2) (x0 + w / 2) - Rmax (x - d / 2) (x0 - w / 2)).
