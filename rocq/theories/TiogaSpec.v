(** What the library that connects meshes should be told, without the code of the model.  From Tioga.v: patches, levels,
    fields and calls. *)
From Coq Require Import List ZArith.
From Verif Require Import BoxR Tioga.
Import ListNotations.
Open Scope R_scope.

(** All patches of all levels, one after another. *)
Fixpoint placed (lev : nat) (ls : list mesh_level) : list (nat * (R * R * R) * patch) :=
  match ls with
  | [] => []
  | l :: ls => map (fun p => (lev, v_dx l, p)) (v_patches l) ++ placed (S lev) ls
  end.
(** The places in a list of patches that belong to process [r]. *)
Definition owned (r : nat) (q : list (nat * (R * R * R) * patch)) : list nat :=
  filter (fun g => match nth_error q g with Some (_, _, p) => (p_rank p =? r)%nat | None => false end) (seq 0 (length q)).

(** What an entry says about a patch. *)
Definition describes (lo : R * R * R) (e : entry) (x : nat * (R * R * R) * patch) : Prop :=
  let '(lev, dx, p) := x in
  let at_ a i d := a + IZR i * d in
  e_level e = lev /\ e_rank e = p_rank p /\ e_ilow e = p_lo p /\ e_ihigh e = p_hi p /\ e_dx e = dx /\
  (iv0 (e_dims e) = iv0 (p_hi p) - iv0 (p_lo p) + 1 /\ iv1 (e_dims e) = iv1 (p_hi p) - iv1 (p_lo p) + 1 /\
   iv2 (e_dims e) = iv2 (p_hi p) - iv2 (p_lo p) + 1)%Z /\
  fst (fst (e_xlo e)) = at_ (fst (fst lo)) (iv0 (p_lo p)) (fst (fst dx)) /\
  snd (fst (e_xlo e)) = at_ (snd (fst lo)) (iv1 (p_lo p)) (snd (fst dx)) /\
  snd (e_xlo e) = at_ (snd lo) (iv2 (p_lo p)) (snd dx).

(** A connectivity update has begun and has not ended. *)
Definition pending (es : list event) : Prop := exists a b, es = a ++ Pre :: b /\ ~ In Post b.
(** Calls that leave the mask of the solvers alone. *)
Definition no_mask (es : list event) : Prop := ~ In Init es /\ ~ In Regrid es /\ ~ In Post es.
(** Values were handed over and have not been taken back. *)
Definition registered (es : list event) : Prop := exists a b, es = a ++ Register :: b /\ ~ In Update b.
