(** Specification vocabulary for the field repository. *)
From Coq Require Import String.
From Verif Require Import Base FieldRepo.
Local Open Scope string_scope.
Local Open Scope list_scope.
Local Open Scope Q_scope.

(** Calls a client can sensibly make in the current state: at least one time state,
    handles that were handed out, levels that exist (a new level only on top),
    states that exist. *)
Definition handle (r : repo) (fid : nat) : Prop := (fid < length (r_fields r))%nat.
Definition has_state (r : repo) (fid : nat) (s : fstate) : Prop := exists g, state_of r fid s = Ret g.
(** The mapping factors have a component for every component of the field. *)
Definition mappable (r : repo) (fid : nat) : Prop :=
  forall f fac g, nth_error (r_fields r) fid = Some f -> map_field r (i_loc (info_of r f)) = Ret fac ->
    nth_error (r_fields r) fac = Some g -> (i_ncomp (info_of r f) <= i_ncomp (info_of r g))%nat.
Definition allowed (r : repo) (o : op) : Prop :=
  match o with
  | ODeclare _ _ _ nstates _ => (1 <= nstates)%Z
  | OCreateState fid _ => handle r fid
  | OFillpatch fid _ => handle r fid
  | OScratch lev _ _ => (lev <= m_nlev (r_mesh r))%nat
  | ORegrid _ lbase _ => (lbase < m_nlev (r_mesh r))%nat
  | OWrite fid lev _ => handle r fid /\ (lev < m_nlev (r_mesh r))%nat
  | OCopyState fid a b => has_state r fid a /\ has_state r fid b
  | OAdvance => True
  | OUniform fid | OStretched fid => handle r fid /\ mappable r fid
  end.

(** [reach r os r']: the calls [os] lead from [r] to [r'] without aborting. *)
Inductive reach : repo -> list op -> repo -> Prop :=
| reach_nil r : reach r [] r
| reach_cons r o r1 os r2 : allowed r o -> exec r o = Ret r1 -> reach r1 os r2 -> reach r (o :: os) r2.

(** The layout a multifab has. *)
Definition layout (m : mfab) : nat * nat * floc * nat * nat :=
  (mf_ba m, mf_dm m, mf_loc m, mf_ncomp m, mf_ngrow m).

(** Values of a state of a field on a level. *)
Definition values (r : repo) (name : string) (s : fstate) (lev : nat) : outcome data :=
  obind (get_field r name s) (fun fid => obind (get_multifab r fid lev) (fun m => Ret (mf_val m))).

(** The call does not touch the values of (name, s) on level [lev]. *)
Definition leaves (r : repo) (name : string) (s : fstate) (lev : nat) (o : op) : Prop :=
  match o with
  | OWrite fid l _ => get_field r name s <> Ret fid \/ l <> lev
  | OCopyState fid a _ => get_field r name s <> state_of r fid a
  | OScratch l _ _ => l <> lev
  | ORegrid _ lbase grids =>
      (lev <= lbase)%nat
      \/ nth_error grids (lev - S lbase) = Some (m_ba (r_mesh r) lev, m_dm (r_mesh r) lev)
  | OUniform fid | OStretched fid => get_field r name s <> Ret fid
  | OAdvance => False
  | _ => True
  end.
Inductive undisturbed (name : string) (s : fstate) (lev : nat) : repo -> list op -> Prop :=
| und_nil r : undisturbed name s lev r []
| und_cons r o r1 os : leaves r name s lev o -> exec r o = Ret r1 ->
    undisturbed name s lev r1 os -> undisturbed name s lev r (o :: os).

(** Field::num_time_states of a named field. *)
Definition num_states (r : repo) (name : string) (n : Z) : Prop :=
  exists fid f, get_field r name NP1 = Ret fid /\ nth_error (r_fields r) fid = Some f /\ i_nstates (info_of r f) = n.
(** The flag Field::in_uniform_space. *)
Definition in_uniform (r : repo) (fid : nat) : option bool := option_map f_mapped (nth_error (r_fields r) fid).
(** Values on a level through a handle. *)
Definition at_level (r : repo) (fid lev : nat) (v : data) : Prop :=
  exists m, get_multifab r fid lev = Ret m /\ mf_val m = v.
(** A sequence of conversions of one field: true is to_uniform_space. *)
Definition conversions (fid : nat) (bs : list bool) : list op :=
  map (fun b : bool => if b then OUniform fid else OStretched fid) bs.
(** Mapping factor and determinant of the field's location are other fields, and
    nowhere zero on the level. *)
Definition mapped_by (r : repo) (fid : nat) (fac det : nat) : Prop :=
  exists f, nth_error (r_fields r) fid = Some f
    /\ map_field r (i_loc (info_of r f)) = Ret fac /\ map_det r (i_loc (info_of r f)) = Ret det
    /\ fac <> fid /\ det <> fid.
Definition num_comp (r : repo) (fid : nat) : nat :=
  match nth_error (r_fields r) fid with Some f => i_ncomp (info_of r f) | None => 0 end.
