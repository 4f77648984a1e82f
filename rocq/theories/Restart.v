(** Checkpoint header and restart: /repo/amr-wind/utilities/IOManager.cpp:192-356 and
    utilities/io.cpp:12-220.  The text file is a list of tokens and line ends; numbers are
    tokens that carry their value (17 significant digits, IOManager.cpp:328, determine a
    double), and the text form of a box and of amrex::BoxArray::writeOn/readFrom is
    AMReX's.  Numbers are exact rationals. *)
From Coq Require Import String QArith Qabs Floats.SpecFloat.
From Verif Require Import BoxR.
Local Open Scope Z_scope.

Inductive tok : Type := TW (w : string) | TZ (z : Z) | TQ (q : Q) | TB (b : box) | TNL.

(** What a checkpoint records: finest level (relative to the first one written), step,
    time, step sizes, the corners of the domain and the boxes of every level. *)
Record header : Type := Header {
  h_finest : Z; h_step : Z; h_time : Q; h_dt : Q; h_nm1 : Q; h_nm2 : Q;
  h_lo : list Q; h_hi : list Q; h_boxes : list (list box) }.

(** amrex::BoxArray::writeOn *)
Definition write_ba (ba : list box) : list tok :=
  [TW "("; TZ (Z.of_nat (List.length ba)); TZ 0; TNL] ++ flat_map (fun b => [TB b; TNL]) ba ++ [TW ")"].
(** IOManager.cpp:332-353; [levels] are the boxes of all levels of the mesh,
    203-204 the choice of the last level ([end_level] = -1: the finest). *)
Definition last_level (nlev start_level end_level : Z) : Z :=
  Z.max (if end_level =? -1 then nlev - 1 else end_level) start_level.
Definition write_header (step : Z) (time dt nm1 nm2 : Q) (lo hi : list Q) (levels : list (list box))
    (start_level end_level : Z) : list tok :=
  [TW "Checkpoint"; TW "version:"; TZ 1; TNL;
   TZ (end_level - start_level); TNL; TZ step; TNL; TQ time; TNL; TQ dt; TNL; TQ nm1; TNL; TQ nm2; TNL] ++
  map TQ lo ++ [TNL] ++ map TQ hi ++ [TNL] ++
  flat_map (fun lev => write_ba (nth (Z.to_nat lev) levels []) ++ [TNL]) (zrange start_level end_level).

(** std::istream operations.  A file that is not of the expected form is outside the
    model (UB): operator>> then leaves zeros. *)
Fixpoint skip_ws (s : list tok) : list tok := match s with TNL :: s' => skip_ws s' | _ => s end.
Definition rd_int (s : list tok) : outcome (Z * list tok) :=
  match skip_ws s with TZ z :: s' => Ret (z, s') | _ => UB end.
Definition rd_real (s : list tok) : outcome (Q * list tok) :=
  match skip_ws s with TQ q :: s' => Ret (q, s') | _ => UB end.
(** io_utils.cpp:7-11, goto_next_line *)
Fixpoint next_line (s : list tok) : list tok :=
  match s with [] => [] | TNL :: s' => s' | _ :: s' => next_line s' end.
(** std::getline *)
Fixpoint get_line (s : list tok) : list tok * list tok :=
  match s with
  | [] => ([], [])
  | TNL :: s' => ([], s')
  | t :: s' => let '(l, r) := get_line s' in (t :: l, r)
  end.
(** io.cpp:70-88: the words of the line as numbers; more than three overrun the array. *)
Fixpoint words_real (l : list tok) : outcome (list Q) :=
  match l with
  | [] => Ret []
  | TQ q :: l' => obind (words_real l') (fun r => Ret (q :: r))
  | _ => UB
  end.
Definition rd_corner (s : list tok) : outcome (list Q * list tok) :=
  let '(l, r) := get_line s in
  obind (words_real l) (fun w => if (List.length w =? 3)%nat then Ret (w, r) else UB).
(** amrex::BoxArray::readFrom *)
Fixpoint rd_boxes (n : nat) (s : list tok) : outcome (list box * list tok) :=
  match n with
  | O => Ret ([], s)
  | S n' => match skip_ws s with
            | TB b :: s' => obind (rd_boxes n' s') (fun r => Ret (b :: fst r, snd r))
            | _ => UB
            end
  end.
Definition rd_ba (s : list tok) : outcome (list box * list tok) :=
  match skip_ws s with
  | TW "(" :: TZ n :: TZ _ :: s1 =>
      obind (rd_boxes (Z.to_nat n) s1) (fun r =>
      match skip_ws (snd r) with TW ")" :: s2 => Ret (fst r, s2) | _ => UB end)
  | _ => UB
  end.
Fixpoint rd_levels (n : nat) (s : list tok) : outcome (list (list box) * list tok) :=
  match n with
  | O => Ret ([], s)
  | S n' => obind (rd_ba s) (fun r =>
            obind (rd_levels n' (next_line (snd r))) (fun q => Ret (fst r :: fst q, snd q)))
  end.
(** io.cpp:41-88, 141-148 *)
Definition read_header (s : list tok) : outcome header :=
  let s := snd (get_line s) in
  obind (rd_int s) (fun f =>
  obind (rd_int (next_line (snd f))) (fun n =>
  obind (rd_real (next_line (snd n))) (fun t =>
  obind (rd_real (next_line (snd t))) (fun d =>
  obind (rd_real (next_line (snd d))) (fun d1 =>
  obind (rd_real (next_line (snd d1))) (fun d2 =>
  obind (rd_corner (next_line (snd d2))) (fun lo =>
  obind (rd_corner (snd lo)) (fun hi =>
  obind (rd_levels (Z.to_nat (fst f + 1)) (snd hi)) (fun bas =>
  Ret (Header (fst f) (fst n) (fst t) (fst d) (fst d1) (fst d2) (fst lo) (fst hi) (fst bas))))))))))).

(** io.cpp:90-123.  static_cast<int> truncates; 1e-6 is the literal. *)
Definition trunc (q : Q) : Z := Z.quot (Qnum q) (Zpos (Qden q)).
Definition domain_ratio (lo hi lo_in hi_in : Q) : Q := ((hi_in - lo_in) / (hi - lo))%Q.
Definition rep1 (lo hi lo_in hi_in : Q) : outcome Z :=
  if Qle_bool hi lo then Abort
  else let r := domain_ratio lo hi lo_in hi_in in
       if Qle_bool (Qabs (inject_Z (trunc r) - r)) (1 # 1000000) then Ret (trunc r) else Abort.
Definition qn (l : list Q) (d : nat) : Q := nth d l 0%Q.
Definition replication (lo hi lo_in hi_in : list Q) : outcome ivec :=
  let r d := rep1 (qn lo d) (qn hi d) (qn lo_in d) (qn hi_in d) in
  obind (r 0%nat) (fun a => obind (r 1%nat) (fun b => obind (r 2%nat) (fun c => Ret (IV a b c)))).
Definition unit_rep (r : ivec) : bool := (iv0 r =? 1) && (iv1 r =? 1) && (iv2 r =? 1).

(** amrex::BoxArray::minimalBox; an empty array gives the empty box of AMReX. *)
Definition hull (a b : box) : box :=
  Box (IV (Z.min (iv0 (blo a)) (iv0 (blo b))) (Z.min (iv1 (blo a)) (iv1 (blo b))) (Z.min (iv2 (blo a)) (iv2 (blo b))))
      (IV (Z.max (iv0 (bhi a)) (iv0 (bhi b))) (Z.max (iv1 (bhi a)) (iv1 (bhi b))) (Z.max (iv2 (bhi a)) (iv2 (bhi b)))).
Definition minimal_box (ba : list box) : box :=
  match ba with [] => Box (IV 1 1 1) (IV 0 0 0) | b :: r => fold_left hull r b end.
Definition blen (b : box) (d : Z) : Z := icomp (bhi b) d - icomp (blo b) d + 1.

Definition ivadd (a b : ivec) : ivec := IV (iv0 a + iv0 b) (iv1 a + iv1 b) (iv2 a + iv2 b).
Definition ivsub (a b : ivec) : ivec := IV (iv0 a - iv0 b) (iv1 a - iv1 b) (iv2 a - iv2 b).
Definition bshift (b : box) (s : ivec) : box := Box (ivadd (blo b) s) (ivadd (bhi b) s).
(** io.cpp:162-180, IOManager.cpp:267-277: the shifts, k outermost; [len] is the size of
    the domain of the checkpoint at level 0. *)
Definition shifts (rep len : ivec) (lev : nat) : list ivec :=
  flat_map (fun k => flat_map (fun j => map (fun i =>
      IV (i * iv0 len * 2 ^ Z.of_nat lev) (j * iv1 len * 2 ^ Z.of_nat lev) (k * iv2 len * 2 ^ Z.of_nat lev))
    (zrange 0 (iv0 rep - 1))) (zrange 0 (iv1 rep - 1))) (zrange 0 (iv2 rep - 1)).
Definition replicate_boxes (rep len : ivec) (lev : nat) (ba : list box) : list box :=
  flat_map (fun s => map (fun b => bshift b s) ba) (shifts rep len lev).

(** io.cpp:12-216.  The new boxes are given before AMReX merges and splits them
    (simplified, maxSize, ChopGrids: the cells stay the same).  The per-level tables of
    amrex::AmrCore have max_level + 1 entries. *)
Record restart_input : Type := RIn { ri_lo : list Q; ri_hi : list Q; ri_ncell : ivec; ri_max_level : Z }.
Record restarted : Type := RS {
  rs_finest : Z; rs_step : Z; rs_time : Q; rs_nm1 : Q; rs_nm2 : Q; rs_rep : ivec; rs_boxes : list (list box) }.
Definition ncell_ok (i : restart_input) (b : box) : bool :=
  (iv0 (bhi b) + 1 =? iv0 (ri_ncell i)) && (iv1 (bhi b) + 1 =? iv1 (ri_ncell i)) && (iv2 (bhi b) + 1 =? iv2 (ri_ncell i)).
Definition read_checkpoint (i : restart_input) (file : list tok) : outcome restarted :=
  obind (read_header file) (fun h =>
  obind (replication (h_lo h) (h_hi h) (ri_lo i) (ri_hi i)) (fun rep =>
  match h_boxes h with
  | [] => UB
  | ba0 :: _ =>
      let dom := minimal_box ba0 in
      let len := IV (blen dom 0) (blen dom 1) (blen dom 2) in
      let new := map (fun lb => replicate_boxes rep len (fst lb) (snd lb)) (combine (seq 0 (List.length (h_boxes h))) (h_boxes h)) in
      if negb (unit_rep rep) && negb (ncell_ok i (minimal_box (nth 0 new []))) then Abort
      else if ri_max_level i <? h_finest h then UB
      else Ret (RS (h_finest h) (h_step h) (h_time h) (h_nm1 h) (h_nm2 h) rep new)
  end)).

(** IOManager.cpp:252-287: one field on one level.  [ty] has a 1 in the directions in
    which the field lives at nodes; [chk] are the data of the file on the boxes [ba]
    (converted to that type).  ParallelCopy overwrites the points the shifted boxes and
    the field have in common; points no copy reaches keep [old].  The direct read of
    254-259 is the case of one copy without shift. *)
Definition has (b : box) (c : ivec) : bool :=
  (iv0 (blo b) <=? iv0 c) && (iv0 c <=? iv0 (bhi b)) && (iv1 (blo b) <=? iv1 c) &&
  (iv1 c <=? iv1 (bhi b)) && (iv2 (blo b) <=? iv2 c) && (iv2 c <=? iv2 (bhi b)).
Definition convert (ty : ivec) (b : box) : box := Box (blo b) (ivadd (bhi b) ty).
Definition copy_one {V} (ty : ivec) (ba : list box) (chk : ivec -> V) (s : ivec) (f : ivec -> V) : ivec -> V :=
  fun c => if existsb (fun b => has (convert ty b) (ivsub c s)) ba then chk (ivsub c s) else f c.
Definition restart_field {V} (rep len ty : ivec) (lev : nat) (ba : list box) (chk old : ivec -> V) : ivec -> V :=
  fold_left (fun f s => copy_one ty ba chk s f) (shifts rep len lev) old.

(** ** io.cpp:110-117 in binary64 (round to nearest even) for a domain starting at 0. *)
Definition b64Z (z : Z) : spec_float := binary_normalize 53 1024 z 0 false.
(** The double nearest to n/10, as std::stod and ParmParse read "0.n". *)
Definition b64_tenths (n : Z) : spec_float := SFdiv 53 1024 (b64Z n) (b64Z 10).
(** static_cast<int> of a finite non-negative double. *)
Definition b64_trunc (x : spec_float) : Z :=
  match x with S754_finite s m e => Z.shiftl (if s then - Zpos m else Zpos m) e | _ => 0 end.
Definition b64_rep (hi hi_in : spec_float) : outcome Z :=
  let r := SFdiv 53 1024 hi_in hi in
  let t := b64_trunc r in
  let eps := SFdiv 53 1024 (b64Z 1) (b64Z 1000000) in
  if SFltb eps (SFabs (SFsub 53 1024 (b64Z t) r)) then Abort else Ret t.
