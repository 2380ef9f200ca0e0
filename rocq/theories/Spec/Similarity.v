(** * Changes of the coordinate system

    A map from [n]-dimensional to [m]-dimensional points that multiplies every distance by the same positive factor [s]:
    a change of the unit of length combined with any translation, rotation, reflection and (when m > n)
    embedding into a space of higher dimension. *)
From Coq Require Import Reals List.
From Verif.Spec Require Import Geometry.
Local Open Scope R_scope.

Definition similarity (n m : nat) (s : R) (T : pt -> pt) : Prop :=
  0 < s /\ (forall x, length x = n -> length (T x) = m) /\
  forall x y, length x = n -> length y = n -> dist (T x) (T y) = s * dist x y.
(** What the map does to a displacement (a vector from the origin). *)
Definition vmap (n : nat) (T : pt -> pt) (v : pt) : pt := sub (T v) (T (origin n)).
