(** Free-surface conditions of an irrotational wave under constant pressure
    (unit density).  [eta] is the elevation, [u] and [v] the horizontal and
    vertical velocity, as functions of time and position. *)
From Coquelicot Require Import Coquelicot.
From Verif Require Import BoxR WavesSpec.
Open Scope R_scope.

(** Kinematic residual: vertical velocity of the water at the surface minus the
    rate at which the surface rises following the water. *)
Definition kinematic_residual (eta : R -> R -> R) (u v : R -> R -> R -> R) (t x r : R) : Prop :=
  exists et ex, is_derive (fun s => eta s x) t et /\ is_derive (fun s => eta t s) x ex /\
    r = v t x (eta t x) - (et + u t x (eta t x) * ex).
(** [phi] is a velocity potential at a point. *)
Definition potential (phi u v : R -> R -> R -> R) (t x z : R) : Prop :=
  dx phi t x z (u t x z) /\ dz phi t x z (v t x z).
(** Bernoulli sum at the surface: minus the pressure there, up to a constant. *)
Definition bernoulli (phi u v : R -> R -> R -> R) (eta : R -> R -> R) (g z0 t x b : R) : Prop :=
  exists pt, dt phi t x (eta t x) pt /\
    b = pt + (u t x (eta t x) ^ 2 + v t x (eta t x) ^ 2) / 2 + g * (eta t x - z0).
