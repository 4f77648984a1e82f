(** Model of amr-wind/utilities/linear_interpolation.H and integrals.H.
    Arithmetic is exact (Q); a read outside a table is [UB].  Iterators are
    modelled as (table, index) pairs; hints and indices are naturals, as every
    caller passes. *)
From Verif Require Import Base.
Local Open Scope Q_scope.

Notation "'do' x <- e ;; f" := (obind e (fun x => f)) (at level 200, x name, e at level 100, f at level 200).

(** Pointer read [p[i]]. *)
Definition rd (l : list Q) (i : nat) : outcome Q :=
  match nth_error l i with Some a => Ret a | None => UB end.

(** enum class Limits, lines 12-16; struct Index, lines 18-22. *)
Inductive limits := LOWLIM | UPLIM | VALID.
Record index := mkIndex { ix : nat; lim : limits }.

(** check_bounds, lines 24-38. *)
Definition check_bounds (xs : list Q) (x : Q) : outcome index :=
  let sz := length xs in
  if (sz <? 2)%nat then Ret (mkIndex 0 LOWLIM)
  else
    do a <- rd xs 0;;
    if Qltb x a then Ret (mkIndex 0 LOWLIM)
    else
      do b <- rd xs (sz - 1);;
      if Qltb b x then Ret (mkIndex (sz - 1) UPLIM) else Ret (mkIndex 0 VALID).

(** The while loop of bisection_search, lines 53-62; also counts the probes of the
    table.  [fuel] bounds the number of iterations; running out of it is [Abort],
    which the theorems exclude. *)
Fixpoint bisect_loop (fuel : nat) (xs : list Q) (x xl : Q) (il ir probes : nat) : outcome (nat * nat) :=
  if (1 <? ir - il)%nat then
    match fuel with
    | O => Abort
    | S fuel' =>
      let mid := Nat.div2 (il + ir) in
      do xmid <- rd xs mid;;
      if Qleb ((x - xmid) * (x - xl)) 0
      then bisect_loop fuel' xs x xl il mid (S probes)
      else bisect_loop fuel' xs x xl mid ir (S probes)
    end
  else Ret (il, probes).

(** bisection_search, lines 40-65, with the number of probes. *)
Definition bisection_search_probes (xs : list Q) (x : Q) : outcome (index * nat) :=
  do idx <- check_bounds xs x;;
  match lim idx with
  | VALID =>
    do xl <- rd xs 0;;
    do r <- bisect_loop (length xs) xs x xl 0 (length xs) 0;;
    Ret (mkIndex (fst r) VALID, snd r)
  | _ => Ret (idx, 0%nat)
  end.

Definition bisection_search (xs : list Q) (x : Q) : outcome index :=
  do r <- bisection_search_probes xs x;; Ret (fst r).

(** nearest_search, lines 67-82. *)
Definition nearest_search (xs : list Q) (x : Q) : outcome index :=
  do idx <- bisection_search xs x;;
  match lim idx with
  | VALID =>
    do a <- rd xs (ix idx);;
    do b <- rd xs (ix idx + 1);;
    if Qltb (b - x) (x - a) then Ret (mkIndex (ix idx + 1) VALID) else Ret idx
  | _ => Ret idx
  end.

(** The for loop of find_index, lines 93-98: first position >= [i] whose entry is
    >= x; the index stays 0 when there is none. *)
Fixpoint find_from (fuel : nat) (xs : list Q) (x : Q) (i : nat) : outcome nat :=
  if (i <? length xs)%nat then
    match fuel with
    | O => Abort
    | S fuel' =>
      do a <- rd xs i;;
      if Qleb x a then Ret (i - 1)%nat else find_from fuel' xs x (S i)
    end
  else Ret 0%nat.

(** find_index, lines 84-100. *)
Definition find_index (xs : list Q) (x : Q) (hint : nat) : outcome index :=
  do idx <- check_bounds xs x;;
  match lim idx with
  | VALID => do i <- find_from (length xs) xs x hint;; Ret (mkIndex i VALID)
  | _ => Ret idx
  end.

(** std::numeric_limits<float>::epsilon() = 2^-23. *)
Definition feps : Q := 1 # 8388608.

(** linear_impl, lines 102-125. *)
Definition linear_impl (xs ys : list Q) (x : Q) (idx : index) (ncomp comp : nat) : outcome Q :=
  match lim idx with
  | VALID =>
    let j := ix idx in
    do x1 <- rd xs (j + 1);;
    do x0 <- rd xs j;;
    let denom := x1 - x0 in
    let facR := if Qltb feps denom then (x - x0) / denom else 1 in
    let facL := 1 - facR in
    do y0 <- rd ys (ncomp * j + comp);;
    do y1 <- rd ys (ncomp * (j + 1) + comp);;
    Ret (facL * y0 + facR * y1)
  | _ => rd ys (ncomp * ix idx + comp)
  end.

(** linear on iterators and on containers, lines 127-153. *)
Definition linear (xs ys : list Q) (x : Q) (ncomp comp : nat) : outcome Q :=
  do idx <- bisection_search xs x;; linear_impl xs ys x idx ncomp comp.

(** linear over a list of query points, lines 192-212. *)
Fixpoint linear_list (xs ys : list Q) (xout : list Q) (ncomp comp : nat) : outcome (list Q) :=
  match xout with
  | [] => Ret []
  | x :: r => do y <- linear xs ys x ncomp comp;; do l <- linear_list xs ys r ncomp comp;; Ret (y :: l)
  end.

(** linear_monotonic, lines 155-190; [hint] is the loop-carried variable. *)
Fixpoint linear_monotonic_from (hint : nat) (xs ys : list Q) (xout : list Q) (ncomp comp : nat)
  : outcome (list Q) :=
  match xout with
  | [] => Ret []
  | x :: r =>
    do idx <- find_index xs x hint;;
    do y <- linear_impl xs ys x idx ncomp comp;;
    do l <- linear_monotonic_from (ix idx + 1) xs ys r ncomp comp;;
    Ret (y :: l)
  end.
Definition linear_monotonic (xs ys xout : list Q) (ncomp comp : nat) : outcome (list Q) :=
  linear_monotonic_from 1 xs ys xout ncomp comp.

(** C trunc and std::fmod: a - b*trunc(a/b), with the sign of [a]. *)
Definition qtrunc (x : Q) : Q := if Qltb x 0 then - qfloor (- x) else qfloor x.
Definition fmod (a b : Q) : Q := a - b * qtrunc (a / b).

(** The signed arc of linear_angle, line 242. *)
Definition angle_step (ub d : Q) : Q :=
  fmod (fmod d ub + (3 # 2) * ub) ub - (1 # 2) * ub.

(** linear_angle, lines 216-244. *)
Definition linear_angle (xs ys : list Q) (x ub : Q) : outcome Q :=
  do idx <- bisection_search xs x;;
  match lim idx with
  | VALID =>
    let j := ix idx in
    do x1 <- rd xs (j + 1);;
    do x0 <- rd xs j;;
    let denom := x1 - x0 in
    let R := if Qltb feps denom then (x - x0) / denom else 0 in
    do y0 <- rd ys j;;
    do y1 <- rd ys (j + 1);;
    Ret (y0 + angle_step ub (y1 - y0) * R)
  | _ => rd ys (ix idx)
  end.

(** bilinear_impl, lines 279-317. *)
Definition bilinear_impl (xs ys : list Q) (ny : nat) (zs : list Q) (x y : Q) (xi yi : index) : outcome Q :=
  match lim xi, lim yi with
  | VALID, VALID =>
    let i := ix xi in let j := ix yi in
    do x1 <- rd xs (i + 1);; do x0 <- rd xs i;;
    let xden := x1 - x0 in
    let xfR := if Qltb feps xden then (x - x0) / xden else 1 in
    let xfL := 1 - xfR in
    do y1 <- rd ys (j + 1);; do y0 <- rd ys j;;
    let yden := y1 - y0 in
    let yfR := if Qltb feps yden then (y - y0) / yden else 1 in
    let yfL := 1 - yfR in
    do z00 <- rd zs (i * ny + j);;
    do z10 <- rd zs ((i + 1) * ny + j);;
    do z01 <- rd zs (i * ny + (j + 1));;
    do z11 <- rd zs ((i + 1) * ny + (j + 1));;
    Ret (z00 * xfL * yfL + z10 * xfR * yfL + z01 * xfL * yfR + z11 * xfR * yfR)
  | _, _ => rd zs (ix xi * ny + ix yi)
  end.

(** bilinear on iterators, lines 319-336, and on containers, lines 338-350
    (AMREX_ALWAYS_ASSERT aborts). *)
Definition bilinear (xs ys zs : list Q) (x y : Q) : outcome Q :=
  if (length xs * length ys =? length zs)%nat then
    do xi <- bisection_search xs x;;
    do yi <- bisection_search ys y;;
    bilinear_impl xs ys (length ys) zs x y xi yi
  else Abort.

(** utils::trapz, integrals.H:13-27. *)
Definition trapz (xa xb : Q) (n : nat) (f : Q -> Q) : Q :=
  let dx := (xb - xa) / inject_Z (Z.of_nat n) in
  let sum := (1 # 2) * (f xa + f xb) in
  dx * fold_left (fun s i => s + f (xa + inject_Z (Z.of_nat i) * dx)) (seq 1 (n - 1)) sum.

(** utils::closest_index, index_operations.H:16-31; std::ranges::upper_bound on a
    sorted vector is the position of the first entry > value. *)
Fixpoint upper_bound (l : list Q) (v : Q) : nat :=
  match l with
  | [] => O
  | a :: r => if Qltb v a then O else S (upper_bound r v)
  end.
Definition closest_index (l : list Q) (v tol : Q) : outcome nat :=
  let it := upper_bound l v in
  let it := if (it =? length l)%nat then upper_bound l (v - tol) else it in
  if (it =? length l)%nat then Abort else Ret (it - 1)%nat.
