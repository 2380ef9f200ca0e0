(** * Floating-point sums of products in any order (no reference to the model)

    [sums_to l r] says that the double [r] is a possible result of computing the sum of the products x*y, (x, y) in
    the list [l], in double precision: the products may be taken in any order, the additions associated in any way
    (left to right, right to left, pairwise, in blocks, one accumulator per SIMD lane, accumulators starting at 0),
    and a product may be rounded before it is added or be fused with an addition (FMA).  Overflow is ignored: the
    theorems about [sums_to] show that it cannot happen.  numpy's dot, inner and norm and the BLAS routines behind
    them compute their sums in one of these ways. *)
From Coq Require Import Reals ZArith List Permutation.
From Verif.Spec Require Import Floats.
Import ListNotations.
Local Open Scope R_scope.

Inductive sums_to : list (R * R) -> R -> Prop :=
| sum_none : sums_to [] 0
| sum_product : forall x y, sums_to [(x, y)] (rnd (x * y))
| sum_add : forall l l1 l2 r1 r2, Permutation l (l1 ++ l2) -> sums_to l1 r1 -> sums_to l2 r2 -> sums_to l (rnd (r1 + r2))
| sum_fma : forall l l1 x y r1, Permutation l ((x, y) :: l1) -> sums_to l1 r1 -> sums_to l (rnd (x * y + r1)).
