(** * Vector.norm with a keyword argument (vector.py 103-133): np.linalg.norm(self, ord=...) *)
From Coq Require Import String Reals List ZArith Bool.
From Verif.Model Require Import Outcome Num Instances Numpy Vector.
Import ListNotations.
Local Open Scope string_scope.

(** Values of the keyword [ord]: missing, inf, -inf, any other number, a string.
    The keywords axis and keepdims are in [norm_kw]. *)
Inductive norm_order (N : Num) : Type := OrdDefault | OrdInf | OrdNegInf | OrdNum (p : N) | OrdStr (s : string).
Arguments OrdDefault {N}. Arguments OrdInf {N}. Arguments OrdNegInf {N}. Arguments OrdNum {N} p. Arguments OrdStr {N} s.

Section Norms.
Context {N : Num}.
Local Open Scope num_scope.
(** [np.power x p] for x >= 0; the value at x = 0, p < 0 (which numpy makes inf) is not used below. *)
Context (pw : N -> N -> N).

(** [abs(x).max()], [abs(x).min()]: ufunc reductions; zero-size arrays have no identity. *)
Definition reduce1 (f : N -> N -> N) (v : vec N) : res N :=
  match v with
  | [] => Raise (ValueError "zero-size array to reduction operation which has no identity")
  | x :: r => Ok (fold_left f r x)
  end.
Definition nmax2 (a b : N) : N := if a <=? b then b else a.
Definition nmin2 (a b : N) : N := if a <=? b then a else b.

(** numpy/linalg/_linalg.py norm, the branches for a 1D array with axis=None: default and ord=2 are sqrt(dot(x, x));
    inf / -inf the largest / smallest absolute value; 0 counts the non-zero entries; 1 sums absolute values;
    any other number p gives sum(abs(x)**p)**(1/p) - with p < 0 and a zero entry the sum is inf and the result 0;
    strings raise ValueError.  Called from vector.py 133. *)
Definition norm_ord (o : norm_order N) (v : vec N) : res N :=
  match o with
  | OrdDefault => norm v
  | OrdInf => reduce1 nmax2 (map nabs v)
  | OrdNegInf => reduce1 nmin2 (map nabs v)
  | OrdStr s => Raise (ValueError ("Invalid norm order '" ++ s ++ "' for vectors"))
  | OrdNum p =>
      if p =? nofZ 2 then norm v
      else if p =? n0 then Ok (nsum (map (fun x => if x =? n0 then n0 else n1) v))
      else if p =? n1 then Ok (nsum (map nabs v))
      else if (p <? n0) && existsb (fun x => x =? n0) v then Ok n0
      else let* q := ndiv n1 p in
           Ok (pw (nsum (map (fun x => pw (nabs x) p) v)) q)
  end.

(** The keywords [axis] (None or an integer) and [keepdims]: numpy/linalg/_linalg.py norm on a 1D array.  The only axis is 0, also
    called -1; any other raises AxisError (a ValueError).  With keepdims the result is an array of one item ([inr]).
    Simplification: axis given as a tuple is not modelled. *)
Definition norm_kw (o : norm_order N) (axis : option Z) (keepdims : bool) (v : vec N) : res (N + vec N) :=
  match axis with
  | None | Some 0%Z | Some (-1)%Z => let* r := norm_ord o v in Ok (if keepdims then inr [r] else inl r)
  | Some _ => Raise (ValueError "axis is out of bounds for array of dimension 1")
  end.
End Norms.

(** Real powers of non-negative reals (np.power on float64, exact): 0**p = 0 for p > 0. *)
Definition Rpw (x p : R) : R := if Req_EM_T x 0 then (if Req_EM_T p 0 then 1 else 0)%R else Rpower x p.
