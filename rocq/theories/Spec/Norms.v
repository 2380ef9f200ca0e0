(** * Norms of a coordinate vector *)
From Coq Require Import Reals List.
From Verif.Spec Require Import Geometry.
Local Open Scope R_scope.

(** |x|^p for a positive exponent. *)
Definition abs_pow (x p : R) : R := if Req_EM_T x 0 then 0 else Rpower (Rabs x) p.
(** [r] is the p-norm: the non-negative number whose p-th power is the sum of the p-th powers of the coordinates. *)
Definition is_pnorm (p : R) (v : pt) (r : R) : Prop := 0 <= r /\ abs_pow r p = Rsum (map (fun x => abs_pow x p) v).
(** The largest (smallest) absolute value of a coordinate. *)
Definition is_largest (v : pt) (r : R) : Prop := (forall x, In x v -> Rabs x <= r) /\ exists x, In x v /\ Rabs x = r.
Definition is_smallest (v : pt) (r : R) : Prop := (forall x, In x v -> r <= Rabs x) /\ exists x, In x v /\ Rabs x = r.
(** The number of non-zero coordinates. *)
Fixpoint count_nonzero (v : pt) : nat := match v with nil => 0 | x :: r => if Req_EM_T x 0 then count_nonzero r else S (count_nonzero r) end.
