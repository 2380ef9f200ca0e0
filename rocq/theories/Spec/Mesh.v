(** * Coordinate matrices *)
From Coq Require Import Reals List.
Import ListNotations.

(** A matrix of [n] rows and [m] columns; its entry in row [i], column [j]. *)
Definition is_mesh (n m : nat) (M : list (list R)) : Prop :=
  length M = n /\ Forall (fun r => length r = m) M.
Definition ent (M : list (list R)) (i j : nat) : R := nth j (nth i M []) 0%R.
