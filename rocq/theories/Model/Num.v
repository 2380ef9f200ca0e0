(** * The number structure the model is generic over.

    numpy float64 / Python float arithmetic as an abstract record.  Two instances are given in
    Instances.v: exact real numbers and IEEE binary64. *)
From Coq Require Import ZArith List Bool.
From Verif.Model Require Import Outcome.

(** The operations numpy and Python provide on numbers. *)
Record Num : Type := MkNum {
  num :> Type;
  n0 : num;
  n1 : num;
  nofZ : Z -> num;                       (* exact integer constants in the source *)
  ndyad : Z -> Z -> num;                 (* m * 2^(-e): binary constants such as eps, 1e-9 *)
  nadd : num -> num -> num;
  nsub : num -> num -> num;
  nmul : num -> num -> num;
  nopp : num -> num;
  nabs : num -> num;
  ndiv : num -> num -> res num;          (* numpy true division *)
  nsqrt : num -> num;                    (* on non-negative arguments *)
  nrint : num -> num;                    (* np.rint: nearest integer, ties to even *)
  neqb : num -> num -> bool;
  nleb : num -> num -> bool;
  nltb : num -> num -> bool;
  nfin : num -> bool                     (* np.isfinite *)
}.

Arguments n0 {_}. Arguments n1 {_}. Arguments nofZ {_}. Arguments ndyad {_}.
Arguments nadd {_}. Arguments nsub {_}. Arguments nmul {_}. Arguments nopp {_}.
Arguments nabs {_}. Arguments ndiv {_}. Arguments nsqrt {_}. Arguments nrint {_}.
Arguments neqb {_}. Arguments nleb {_}. Arguments nltb {_}. Arguments nfin {_}.

(** Elementary functions (math / numpy): cos, sin, acos, atan2 (argument order: y, x) and pi. *)
Record Trig (N : Num) : Type := MkTrig {
  tcos : N -> N;
  tsin : N -> N;
  tacos : N -> N;                        (* on [-1, 1] *)
  tatan2 : N -> N -> N;
  tpi : N
}.
Arguments tcos {_}. Arguments tsin {_}. Arguments tacos {_}. Arguments tatan2 {_}. Arguments tpi {_}.

Declare Scope num_scope.
Delimit Scope num_scope with num.
Infix "+" := nadd : num_scope.
Infix "-" := nsub : num_scope.
Infix "*" := nmul : num_scope.
Notation "- x" := (nopp x) : num_scope.
Infix "=?" := neqb : num_scope.
Infix "<=?" := nleb : num_scope.
Infix "<?" := nltb : num_scope.
