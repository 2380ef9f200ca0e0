(** * What math.isclose means (documented formula), on reals *)
From Coq Require Import Reals.
Local Open Scope R_scope.

(** abs(a-b) <= max(rel_tol * max(abs(a), abs(b)), abs_tol) *)
Definition close (rel abst a b : R) : Prop :=
  Rabs (a - b) <= Rmax (rel * Rmax (Rabs a) (Rabs b)) abst.

(** The default relative tolerance 1e-9 as a double. *)
Definition rel_default : R := 4835703278458517 / 4835703278458516698824704.
