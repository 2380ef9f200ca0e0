(** * The two number structures: exact reals and IEEE binary64. *)
From Coq Require Import Reals ZArith Floats Bool Lra.
From Verif.Model Require Import Outcome Num.

(** ** Exact real arithmetic *)
Local Open Scope R_scope.

(** ==, <=, < on exact numbers. *)
Definition Reqb (a b : R) : bool := if Req_EM_T a b then true else false.
Definition Rleb (a b : R) : bool := if Rle_dec a b then true else false.
Definition Rltb (a b : R) : bool := if Rlt_dec a b then true else false.

(** Nearest integer, ties to even (np.rint). *)
Definition Rrint (x : R) : R :=
  let f := Int_part x in
  let d := x - IZR f in
  if Rlt_dec d (1/2) then IZR f
  else if Rlt_dec (1/2) d then IZR (f + 1)
  else if Z.even f then IZR f else IZR (f + 1).

(** m / 2^e *)
Definition Rdyad (m e : Z) : R := IZR m / IZR (2 ^ e).

(** Arithmetic as the documentation of the library describes it: no rounding, nan or overflow. *)
Definition RNum : Num := {|
  num := R; n0 := 0; n1 := 1;
  nofZ := IZR; ndyad := Rdyad;
  nadd := Rplus; nsub := Rminus; nmul := Rmult; nopp := Ropp; nabs := Rabs;
  ndiv := fun a b => if Req_EM_T b 0 then NonFinite else Ok (a / b);
  nsqrt := R_sqrt.sqrt; nrint := Rrint;
  neqb := Reqb; nleb := Rleb; nltb := Rltb;
  nfin := fun _ => true
|}.

(** C99/IEEE atan2 on reals (Python's math.atan2 / np.arctan2), first argument y. *)
Definition Ratan2 (y x : R) : R :=
  if Rlt_dec 0 x then atan (y / x)
  else if Rlt_dec x 0 then
    if Rle_dec 0 y then atan (y / x) + PI else atan (y / x) - PI
  else if Rlt_dec 0 y then PI / 2
  else if Rlt_dec y 0 then - (PI / 2) else 0.

(** math.cos, math.sin, math.acos, math.atan2, math.pi without rounding. *)
Definition RTrig : Trig RNum :=
  MkTrig RNum cos sin acos Ratan2 PI.

(** ** IEEE binary64 (Coq primitive floats) *)
Local Open Scope float_scope.

(** Exact for |z| < 2^53, which covers every integer constant in the source. *)
Definition f_ofZ (z : Z) : float :=
  match z with
  | Z0 => 0
  | Zpos p => PrimFloat.of_uint63 (Uint63.of_Z (Zpos p))
  | Zneg p => - PrimFloat.of_uint63 (Uint63.of_Z (Zpos p))
  end.

(** m / 2^e rounded to binary64 (exact for the constants used). *)
Definition f_dyad (m e : Z) : float := Z.ldexp (f_ofZ m) (- e).

(** np.isfinite *)
Definition f_finite (x : float) : bool :=
  match PrimFloat.classify x with
  | NaN | PInf | NInf => false
  | _ => true
  end.

(** np.rint by the usual 2^52 trick (round-to-nearest-even addition). *)
Definition f_rint (x : float) : float :=
  let big := f_ofZ 4503599627370496 in
  if PrimFloat.ltb (PrimFloat.abs x) big then
    if PrimFloat.ltb x 0 then (x - big) + big else (x + big) - big
  else x.

(** numpy float64: IEEE binary64, round to nearest even, by the kernel primitives of Coq. *)
Definition FNum : Num := {|
  num := float; n0 := 0; n1 := 1;
  nofZ := f_ofZ; ndyad := f_dyad;
  nadd := PrimFloat.add; nsub := PrimFloat.sub; nmul := PrimFloat.mul;
  nopp := PrimFloat.opp; nabs := PrimFloat.abs;
  ndiv := fun a b => Ok (a / b);
  nsqrt := PrimFloat.sqrt; nrint := f_rint;
  neqb := PrimFloat.eqb; nleb := PrimFloat.leb; nltb := PrimFloat.ltb;
  nfin := f_finite
|}.

(** So that [list R] and [list float] arguments select the instance. *)
Canonical Structure RNum.
Canonical Structure FNum.
