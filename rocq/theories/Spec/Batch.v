(** * Specification vocabulary for C89: 2D array-likes *)
From Coq Require Import String List.
From Verif.Model Require Import Outcome.
Import ListNotations.

(** The rows form a 2D array: at least one row, all rows equally long. *)
Definition rectangular {A} (rows : list (list A)) : Prop := exists k, rows <> [] /\ Forall (fun r => length r = k) rows.
(** The call raises ValueError. *)
Definition raises_value_error {A} (r : res A) : Prop := exists m, r = Raise (ValueError m).

