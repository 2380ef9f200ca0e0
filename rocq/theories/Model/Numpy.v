(** * The fragment of numpy / Python's math used by the library.

    Arrays are lists; a 2D array is a list of rows.  Broadcasting of length-1 operands is
    modelled because it decides which calls raise.  Summation order (BLAS, pairwise
    summation) is not modelled: sums associate to the right, which is irrelevant over the
    exact reals. *)
From Coq Require Import String ZArith List Bool.
From Verif.Model Require Import Outcome Num.
Import ListNotations.
Local Open Scope string_scope.

(** 1D arrays. *)
Notation vec N := (list (num N)).

Section Numpy.
Context {N : Num}.
Local Open Scope num_scope.

(** Element-wise zip (equal lengths). *)
Fixpoint map2 (f : N -> N -> N) (a b : vec N) : vec N :=
  match a, b with
  | x :: a', y :: b' => f x y :: map2 f a' b'
  | _, _ => []
  end.

(** numpy / math error messages. *)
Definition err_broadcast : exn := ValueError "operands could not be broadcast together".
Definition err_aligned : exn := ValueError "shapes not aligned".
Definition err_ragged : exn := ValueError "setting an array element with a sequence. The requested array has an inhomogeneous shape.".
Definition err_domain : exn := ValueError "math domain error".

(** numpy broadcasting of a binary ufunc on two 1D arrays. *)
Definition bcast (f : N -> N -> N) (a b : vec N) : res (vec N) :=
  if Nat.eqb (length a) (length b) then Ok (map2 f a b)
  else match a, b with
       | [x], _ => Ok (map (f x) b)
       | _, [y] => Ok (map (fun x => f x y) a)
       | _, _ => Raise err_broadcast
       end.

(** The result of a ufunc on Point/Vector/Points: [__array_wrap__] keeps finite results as
    objects; a non-finite one stays a plain array (_base_array.py 34-54). *)
Definition wrap1 (v : vec N) : res (vec N) :=
  if forallb nfin v then Ok v else NonFinite.
Definition wrap_scalar (x : N) : res N :=
  if nfin x then Ok x else NonFinite.

(** numpy: scalar times array, sum and difference of arrays, on Point/Vector objects. *)
Definition vscale (s : N) (v : vec N) : vec N := map (fun x => s * x) v.
Definition vadd (a b : vec N) : res (vec N) := let* v := bcast nadd a b in wrap1 v.
Definition vsub (a b : vec N) : res (vec N) := let* v := bcast nsub a b in wrap1 v.
(** scalar * array and array / scalar on objects *)
Definition vmuls (s : N) (v : vec N) : res (vec N) := wrap1 (vscale s v).
Definition vdivs (v : vec N) (s : N) : res (vec N) :=
  let* w := mapM (fun x => ndiv x s) v in wrap1 w.

(** ndarray.sum of a 1D array; sum of products. *)
Definition nsum (l : vec N) : N := fold_right nadd n0 l.
Definition dot_raw (a b : vec N) : N := nsum (map2 nmul a b).

(** np.dot of two 1D arrays: no broadcasting. *)
Definition np_dot (a b : vec N) : res N :=
  if Nat.eqb (length a) (length b) then Ok (dot_raw a b) else Raise err_aligned.

(** x ** 2 *)
Definition nsq (x : N) : N := x * x.
(** np.linalg.norm of a 1D array (default ord): sqrt(dot(x, x)). *)
Definition norm_raw (a : vec N) : N := nsqrt (dot_raw a a).

(** np.sign on finite values, as an integer. *)
Definition nsign (x : N) : Z :=
  if x <? n0 then (-1)%Z else if n0 <? x then 1%Z else 0%Z.
(** int(np.sign(x)): np.sign(nan) is nan, and int(nan) raises. *)
Definition int_sign (x : N) : res Z :=
  if x =? x then Ok (nsign x) else Raise (ValueError "cannot convert float NaN to integer").

(** np.clip(x, -1, 1) *)
Definition nclip1 (x : N) : N :=
  if x <? nopp n1 then nopp n1 else if n1 <? x then n1 else x.

(** The larger of two numbers (np.maximum, max). *)
Definition nmax (a b : N) : N := if a <? b then b else a.

(** math.sqrt raises on negative arguments; np.sqrt returns nan. *)
Definition math_sqrt (x : N) : res N :=
  if x <? n0 then Raise err_domain else Ok (nsqrt x).
Definition np_sqrt (x : N) : res N :=
  if x <? n0 then NonFinite else Ok (nsqrt x).

(** math.acos raises outside [-1, 1] *)
Definition math_acos (T : Trig N) (x : N) : res N :=
  if (x <? nopp n1) || (n1 <? x) then Raise err_domain else Ok (tacos T x).
(** np.arccos gives nan outside [-1, 1] *)
Definition np_arccos (T : Trig N) (x : N) : res N :=
  if (x <? nopp n1) || (n1 <? x) then NonFinite else Ok (tacos T x).

(** Keyword arguments of math.isclose; the defaults are rel_tol=1e-9 (the double nearest to
    it) and abs_tol=0.0. *)
Record tol : Type := MkTol { rel_tol : N; abs_tol : N }.
Definition tol_default : tol := MkTol (ndyad 4835703278458517 82) n0.

(** math.isclose, following CPython's math_isclose_impl (Modules/mathmodule.c). *)
Definition isclose (t : tol) (a b : N) : res bool :=
  if (rel_tol t <? n0) || (abs_tol t <? n0)
  then Raise (ValueError "tolerances must be non-negative")
  else if a =? b then Ok true
  else if negb (nfin a) || negb (nfin b) then Ok false
  else let diff := nabs (b - a) in
       Ok ((diff <=? nabs (rel_tol t * b)) || (diff <=? nabs (rel_tol t * a))
           || (diff <=? abs_tol t)).

(** np.linalg.det of 2x2 and 3x3 matrices (numpy uses LU; the exact value is the same). *)
Definition det2 (a b c d : N) : N := a * d - b * c.
Definition det3 (a b c d e f g h i : N) : N :=
  a * (e * i - f * h) - b * (d * i - f * g) + c * (d * h - e * g).

(** np.cross of two 3D vectors. *)
Definition cross3 (a b : vec N) : res (vec N) :=
  match a, b with
  | [a1; a2; a3], [b1; b2; b3] =>
      Ok [a2 * b3 - a3 * b2; a3 * b1 - a1 * b3; a1 * b2 - a2 * b1]
  | _, _ => Raise (ValueError "incompatible dimensions for cross product")
  end.

(** np.zeros *)
Definition zeros (n : nat) : vec N := repeat n0 n.
(** np.pad(v, (0, n), 'constant') *)
Definition pad (v : vec N) (n : nat) : vec N := (v ++ zeros n)%list.

(** 10 ** n *)
Definition npow10 (n : nat) : N := nofZ (10 ^ Z.of_nat n).

(** np.around / np.float64.__round__: scale by 10^n, rint, scale back. *)
Definition np_round (d : Z) (x : N) : res N :=
  if (d =? 0)%Z then Ok (nrint x)
  else if (0 <? d)%Z then ndiv (nrint (x * nofZ (10 ^ d))) (nofZ (10 ^ d))
  else let* y := ndiv x (nofZ (10 ^ (- d))) in Ok (nrint y * nofZ (10 ^ (- d))).

(** np.linspace(start, stop, n). *)
Definition linspace (start stop : N) (n : nat) : res (vec N) :=
  match n with
  | O => Ok []
  | S O => Ok [start]
  | S m =>
      let* step := ndiv (stop - start) (nofZ (Z.of_nat m)) in
      Ok (map (fun i => start + nofZ (Z.of_nat i) * step) (seq 0 m) ++ [stop])%list
  end.

(** np.meshgrid(x, y) (default 'xy' indexing): rows follow y, columns follow x. *)
Definition meshgrid (xs ys : vec N) : list (vec N) * list (vec N) :=
  (map (fun _ => xs) ys, map (fun y => map (fun _ => y) xs) ys).

(** 2D array-likes given as rows: must be rectangular and have at least one row (an empty one
    has shape (0,), which fails in the operations below). *)
Definition as2d (rows : list (vec N)) : res (list (vec N)) :=
  match rows with
  | [] => Raise err_broadcast
  | r :: _ => if forallb (fun r' => Nat.eqb (length r') (length r)) rows
              then Ok rows else Raise err_ragged
  end.

(** Lexicographic order on rows, used by np.unique(axis=0). *)
Fixpoint lex_ltb (a b : vec N) : bool :=
  match a, b with
  | x :: a', y :: b' => (x <? y) || ((x =? y) && lex_ltb a' b')
  | _, _ => false
  end.
Fixpoint row_eqb (a b : vec N) : bool :=
  match a, b with
  | [], [] => true
  | x :: a', y :: b' => (x =? y) && row_eqb a' b'
  | _, _ => false
  end.
(** Sorted insertion dropping duplicates: sort + deduplicate, as np.unique does. *)
Fixpoint insert_row (r : vec N) (l : list (vec N)) : list (vec N) :=
  match l with
  | [] => [r]
  | x :: l' => if lex_ltb r x then r :: l
               else if row_eqb r x then l
               else x :: insert_row r l'
  end.
Definition np_unique (rows : list (vec N)) : list (vec N) := fold_right insert_row [] rows.

(** Sum and mean over axis 0 of a rectangular 2D array of width [d]. *)
Definition colsum (d : nat) (rows : list (vec N)) : vec N := fold_right (map2 nadd) (zeros d) rows.
Definition colmean (d : nat) (rows : list (vec N)) : res (vec N) :=
  mapM (fun s => ndiv s (nofZ (Z.of_nat (length rows)))) (colsum d rows).

(** Column [j] of a 2D array, and its transpose. *)
Definition column (j : nat) (rows : list (vec N)) : vec N := map (fun r => nth j r n0) rows.
Definition transpose (d : nat) (rows : list (vec N)) : list (vec N) :=
  map (fun j => column j rows) (seq 0 d).

(** Stable sort of Python's [sorted] on numbers (insertion sort). *)
Fixpoint insert_num (x : N) (l : vec N) : vec N :=
  match l with
  | [] => [x]
  | y :: l' => if x <? y then x :: l else y :: insert_num x l'
  end.
Definition py_sorted (l : vec N) : vec N := fold_left (fun acc x => insert_num x acc) l [].

(** max over a non-empty array (ndarray.max) *)
Definition vmax (l : vec N) : N :=
  match l with [] => n0 | x :: l' => fold_left nmax l' x end.

(** LAPACK / scipy routines: not modelled, passed as a parameter and specified in Spec. *)
Record linalg : Type := MkLinalg {
  la_svd : list (vec N) -> res (list (vec N) * (vec N) * list (vec N));   (* np.linalg.svd: U, S, Vh *)
  la_solve : list (vec N) -> (vec N) -> res (vec N);                  (* np.linalg.solve *)
  la_lstsq : list (vec N) -> (vec N) -> res (vec N)                   (* np.linalg.lstsq(..)[0] *)
}.

(** np.finfo(float64).eps = 2^-52 *)
Definition neps : N := ndyad 1 52.

(** np.linalg.matrix_rank(A, tol) for a (n, d) array: number of singular values above the
    tolerance (default S.max() * max(n, d) * eps). *)
Definition matrix_rank (LA : linalg) (tolerance : option N) (d : nat) (rows : list (vec N)) : res nat :=
  let* (_, s, _) := la_svd LA rows in
  let thr := match tolerance with
             | None => vmax s * (nofZ (Z.of_nat (Nat.max (length rows) d)) * neps)
             | Some t => t
             end in
  Ok (length (filter (fun x => thr <? x) s)).

End Numpy.

Arguments tol : clear implicits.
Arguments linalg : clear implicits.
