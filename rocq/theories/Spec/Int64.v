(** * Vocabulary for 64-bit integer arithmetic (no reference to the model) *)
From Coq Require Import ZArith List Lia.
Import ListNotations.
Local Open Scope Z_scope.

(** The integers numpy's int64 can hold. *)
Definition fits (z : Z) : Prop := - 2 ^ 63 <= z < 2 ^ 63.
(** [w] is what is left of the exact integer [z] after wrapping: the one int64 differing from it by a multiple of 2^64. *)
Definition wraps_to (z w : Z) : Prop := fits w /\ exists k, w = z + k * 2 ^ 64.
(** Exact integer scalar product. *)
Fixpoint zdot (a b : list Z) : Z :=
  match a, b with x :: a', y :: b' => x * y + zdot a' b' | _, _ => 0 end.
(** Exact determinant of two plane vectors. *)
Definition zdet (x1 y1 x2 y2 : Z) : Z := x1 * y2 - y1 * x2.
(** Exact doubled signed area of the polygon: sum of the determinants of consecutive vertices, closing up at the end. *)
Fixpoint zpath (ps : list (Z * Z)) : Z :=
  match ps with
  | (x, y) :: (((x', y') :: _) as t) => zdet x y x' y' + zpath t
  | _ => 0
  end.
Definition zarea2 (ps : list (Z * Z)) : Z := match ps with [] => 0 | p :: _ => zpath (ps ++ [p]) end.
