(** What is asked of subvolume outputs, without reference to the model. *)
From Coq Require Import Reals ZArith.
Local Open Scope R_scope.

(** A row of [n] cells of size [h] from the cell [i0] on, in a domain that starts at [problo], spans the length asked for:
    from [origin], [n] cells of size [dx], each end to the tolerance *)
Definition spans (problo h : R) (i0 : Z) (n : Z) (origin dx : R) : Prop :=
  Rabs ((problo + IZR i0 * h) - origin) < / 10000 /\
  Rabs ((problo + IZR (i0 + n) * h) - (origin + IZR n * dx)) < / 10000 * (1 + IZR n).
