(** * What it means for a nested sequence to be a rectangular array *)
From Coq Require Import List.
From Verif.Model Require Import Num BaseArray.
Import ListNotations.

(** [has_shape a s]: the nested sequence [a] is rectangular with shape [s]. *)
Inductive has_shape {N : Num} : nd N -> list nat -> Prop :=
| hs_scalar x : has_shape (Sc x) []
| hs_empty : has_shape (Ar []) [0]
| hs_array l s : l <> [] -> (forall a, In a l -> has_shape a s) -> has_shape (Ar l) (length l :: s).

(** [value_in x a]: the number [x] occurs somewhere in [a]. *)
Inductive value_in {N : Num} (x : N) : nd N -> Prop :=
| vi_here : value_in x (Sc x)
| vi_there a l : In a l -> value_in x a -> value_in x (Ar l).
