(** * Numbers on a binary grid (no reference to the model)

    Whole numbers, halves, quarters, ... and more generally whole multiples m * 2^e of a power of two. *)
From Coq Require Import Reals ZArith Floats.
From Flocq Require Import Core.
From Verif.Spec Require Import Floats.
Local Open Scope R_scope.

(** [x] is a double equal to m * 2^e for a whole number m of size at most M. *)
Definition on_grid (e M : Z) (x : PrimFloat.float) : Prop :=
  finite x /\ exists m : Z, (Z.abs m <= M)%Z /\ FR x = IZR m * bpow radix2 e.
(** The grids considered: no multiple below 2^53 steps underflows or overflows. *)
Definition grid_ok (e : Z) : Prop := (-1074 <= e <= 900)%Z.
