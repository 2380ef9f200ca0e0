(** * Broadcasting, by index *)
From Coq Require Import List Arith.
From Verif.Model Require Import Num BaseArray.
Import ListNotations.

(** The value of [a] at a multi-index, an axis of length one being repeated (every index of that axis
    denotes its only entry). *)
Fixpoint at_index {N : Num} (a : nd N) (idx : list nat) : option N :=
  match a, idx with
  | Sc x, [] => Some x
  | Ar l, i :: idx => match nth_error l (if Nat.eqb (length l) 1 then 0 else i) with
                      | Some b => at_index b idx
                      | None => None
                      end
  | _, _ => None
  end.

(** The last [k] entries of an index: what an array with [k] axes sees of it. *)
Definition last_axes (k : nat) (idx : list nat) : list nat := skipn (length idx - k) idx.

(** [x] (of [a], with axes [sa]) meets [y] (of [b], with axes [sb]) at some index of the broadcast array. *)
Definition meets {N : Num} (a : nd N) (sa : list nat) (b : nd N) (sb : list nat) (x y : N) : Prop :=
  exists idx, length idx = Nat.max (length sa) (length sb) /\
    at_index a (last_axes (length sa) idx) = Some x /\ at_index b (last_axes (length sb) idx) = Some y.

(** Shapes are compatible when, counted from the last axis, the lengths agree or one of them is 1. *)
Definition compatible (sa sb : list nat) : Prop :=
  forall k m n, nth_error (rev sa) k = Some m -> nth_error (rev sb) k = Some n -> m = n \/ m = 1 \/ n = 1.
