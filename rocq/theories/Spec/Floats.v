(** * IEEE binary64 in terms of the real numbers (Flocq's definitions; no reference to the model) *)
From Coq Require Import Reals ZArith Floats List.
From Flocq Require Import Core BinarySingleNaN.
From Flocq Require Import IEEE754.PrimFloat.
Import ListNotations.
Local Open Scope R_scope.

(** The real number a finite double stands for (0 for infinities and nan). *)
Definition FR (x : PrimFloat.float) : R := B2R (Prim2B x).
(** Neither infinite nor nan; not nan. *)
Definition finite (x : PrimFloat.float) : Prop := is_finite (Prim2B x) = true.
Definition not_nan (x : PrimFloat.float) : Prop := is_nan (Prim2B x) = false.
(** The double nearest to a real number (ties to even), ignoring overflow. *)
Definition rnd (x : R) : R := round radix2 (FLT_exp (-1074) 53) ZnearestE x.
(** Unit roundoff 2^-53 and half the smallest positive double, 2^-1075. *)
Definition uro : R := bpow radix2 (-53).
Definition eta : R := bpow radix2 (-1075).
