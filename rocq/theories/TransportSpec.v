(** What C99 says, apart from the program. *)
From Coq Require Import Reals ZArith List Bool String.
From Verif Require Import Base BoxR Transport.
Import ListNotations.
Open Scope R_scope.
Open Scope string_scope.

(** The value of the first of some keys that the input has. *)
Inductive first_of (i : input) (d : R) : list string -> R -> Prop :=
| first_none : first_of i d [] d
| first_here k ks v : i k = Some v -> first_of i d (k :: ks) v
| first_later k ks v : i k = None -> first_of i d ks v -> first_of i d (k :: ks) v.
Definition one (i : input) (k : string) (d v : R) : Prop := first_of i d [k] v.

(** The fraction of the first fluid (water) in a cell: given by the volume fraction, or by the level set: all of it above
    the half width, none of it below, half of it at the interface. *)
Definition fraction (fl : fluid) (c : ivec) (w : R) : Prop :=
  match fl with
  | Const _ => False
  | TwoVof vof => w = vof c
  | TwoLs eps phi => (eps < phi c -> w = 1) /\ (phi c < - eps -> w = 0) /\ (phi c = 0 -> w = 1 / 2) /\ 0 <= w <= 1
  end.
(** No water in a cell, and enough of it to switch buoyancy off. *)
Definition dry (fl : fluid) (c : ivec) : Prop :=
  match fl with
  | Const None => True
  | Const (Some vof) => vof c <= 0
  | TwoVof vof => vof c <= 0
  | TwoLs eps phi => phi c < - eps
  end.
Definition wet (fl : fluid) (c : ivec) : Prop :=
  match fl with
  | Const None => False
  | Const (Some vof) => / 1000000000000 <= vof c
  | TwoVof vof => / 1000000000000 <= vof c
  | TwoLs eps phi => eps < phi c
  end.
(** The input gives a reference temperature. *)
Definition has_tref (i : input) (t : R) : Prop :=
  first_of i (-1) ["transport.reference_temperature"; "BoussinesqBuoyancy.reference_temperature"; "ABL.reference_temperature"] t
  /\ 0 < t.
