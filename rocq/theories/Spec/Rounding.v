(** * Rounding to [d] decimals *)
From Coq Require Import Reals ZArith.
Local Open Scope R_scope.

(** [y] is [x] rounded to [d] decimals: the multiple k / 10^d nearest to [x]; of two nearest ones the
    one with even [k]. *)
Definition rounded (d : Z) (x y : R) : Prop :=
  exists k : Z, y = IZR k * powerRZ 10 (- d) /\ Rabs (y - x) <= / 2 * powerRZ 10 (- d) /\
    (Rabs (y - x) = / 2 * powerRZ 10 (- d) -> Z.even k = true).
