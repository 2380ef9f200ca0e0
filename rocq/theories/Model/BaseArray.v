(** * objects/_base_array.py: the ndarray subclasses behind Point, Vector and Points *)
From Coq Require Import String ZArith List Bool.
From Verif.Model Require Import Outcome Num Numpy.
Import ListNotations.
Local Open Scope string_scope.

Section BaseArray.
Context {N : Num}.
Local Open Scope num_scope.

(** An array_like argument: a number or a (possibly nested, possibly ragged) sequence
    (typing.py [array_like]).  An ndarray of any shape is a rectangular such value. *)
Inductive nd : Type := Sc (x : N) | Ar (l : list nd).

(** Shape discovered by [np.array]; [None] for ragged input, on which numpy raises. *)
Definition shape_eqb (s t : option (list nat)) : bool :=
  match s, t with
  | Some a, Some b => if list_eq_dec Nat.eq_dec a b then true else false
  | None, None => true
  | _, _ => false
  end.
Fixpoint shape (a : nd) : option (list nat) :=
  match a with
  | Sc _ => Some []
  | Ar l => match map shape l with
            | [] => Some [0%nat]
            | s :: ss => if forallb (shape_eqb s) ss
                         then option_map (cons (length l)) s else None
            end
  end.
(** The values in C order. *)
Fixpoint flat (a : nd) : vec N :=
  match a with
  | Sc x => [x]
  | Ar l => flat_map flat l
  end.

(** The messages of _base_array.py 24, 27, 135, 194. *)
Definition err_empty : exn := ValueError "The array must not be empty.".
Definition err_finite : exn := ValueError "The values must all be finite.".
Definition err_1d : exn := ValueError "The array must be 1D.".
Definition err_2d : exn := ValueError "The array must be 2D.".

(** _base_array.py 22-32 [_BaseArray.__new__]: np.size == 0, isfinite checks, then a view of the data. *)
Definition base_new (values : vec N) : res unit :=
  if Nat.eqb (length values) 0 then Raise err_empty
  else if negb (forallb nfin values) then Raise err_finite
  else Ok tt.

(** _base_array.py 131-137 [_BaseArray1D.__new__] (class Point, point.py 10; class Vector, vector.py 15).
    [np.array] raises on ragged input.  The result is the list of values. *)
Definition array1d_new (a : nd) : res (vec N) :=
  match shape a with
  | None => Raise err_ragged
  | Some s => if negb (Nat.eqb (length s) 1) then Raise err_1d
              else let* _ := base_new (flat a) in Ok (flat a)
  end.

(** Rows of a 2D array. *)
Definition rows_of (a : nd) : list (vec N) :=
  match a with Sc _ => [] | Ar l => map flat l end.

(** _base_array.py 190-196 [_BaseArray2D.__new__] (class Points, points.py 14). *)
Definition array2d_new (a : nd) : res (list (vec N)) :=
  match shape a with
  | None => Raise err_ragged
  | Some s => if negb (Nat.eqb (length s) 2) then Raise err_2d
              else let* _ := base_new (flat a) in Ok (rows_of a)
  end.

(** The common call [Point(x)] / [Vector(x)] on a flat sequence and [Points(x)] on a sequence of
    flat sequences. *)
Definition nd_of_vec (v : vec N) : nd := Ar (map Sc v).
Definition nd_of_rows (rows : list (vec N)) : nd := Ar (map nd_of_vec rows).
Definition point_of (v : vec N) : res (vec N) := array1d_new (nd_of_vec v).
Definition vector_of (v : vec N) : res (vec N) := array1d_new (nd_of_vec v).
Definition points_of (rows : list (vec N)) : res (list (vec N)) := array2d_new (nd_of_rows rows).

(** _base_array.py 139-140 and 198-202 [__array_finalize__]: the [dimension] attribute. *)
Definition dim1 (v : vec N) : nat := length v.
Definition dim2 (rows : list (vec N)) : nat :=
  match rows with [] => 0%nat | r :: _ => length r end.

(** _base_array.py 56-70 [to_array] *)
Definition to_array (v : vec N) : vec N := v.

(** Broadcast pairs for np.vectorize. *)
Definition bpairs {A B} (a : list A) (b : list B) : res (list (A * B)) :=
  if Nat.eqb (length a) (length b) then Ok (combine a b)
  else match a, b with
       | [x], _ => Ok (map (fun y => (x, y)) b)
       | _, [y] => Ok (map (fun x => (x, y)) a)
       | _, _ => Raise err_broadcast
       end.

(** numpy: np.vectorize on zero-size inputs. *)
Definition err_vectorize : exn := ValueError "cannot call `vectorize` on size 0 inputs unless `otypes` is set".

(** _functions.py 137 [_allclose = np.vectorize(math.isclose)] followed by [.all()],
    _base_array.py 72-89 [is_close], for 1D arrays. *)
Definition allclose_pairs (t : tol N) (ps : list (N * N)) : res bool :=
  match ps with
  | [] => Raise err_vectorize
  | _ => let* bs := mapM (fun p => isclose t (fst p) (snd p)) ps in Ok (forallb (fun b => b) bs)
  end.
Definition is_close1 (t : tol N) (a b : vec N) : res bool :=
  let* ps := bpairs a b in allclose_pairs t ps.
(** ... and for Points (2D). *)
Definition is_close2 (t : tol N) (a b : list (vec N)) : res bool :=
  let* rs := bpairs a b in
  let* pss := mapM (fun r => bpairs (fst r) (snd r)) rs in
  allclose_pairs t (concat pss).

(** _base_array.py 91-106 [is_equal] = np.array_equal, for 1D and 2D operands. *)
Definition is_equal1 (a b : vec N) : bool := row_eqb a b.
Fixpoint is_equal2 (a b : list (vec N)) : bool :=
  match a, b with
  | [], [] => true
  | x :: a', y :: b' => row_eqb x y && is_equal2 a' b'
  | _, _ => false
  end.

(** The message of _base_array.py 179 and 248. *)
Definition err_dim_less : exn := ValueError "The desired dimension cannot be less than the current dimension.".

(** _base_array.py 142-184 [_BaseArray1D.set_dimension] *)
Definition set_dimension1 (v : vec N) (dim : Z) : res (vec N) :=
  if (dim <? Z.of_nat (dim1 v))%Z then Raise err_dim_less
  else array1d_new (nd_of_vec (pad v (Z.to_nat dim - length v))).

(** _base_array.py 204-252 [_BaseArray2D.set_dimension] *)
Definition set_dimension2 (rows : list (vec N)) (dim : Z) : res (list (vec N)) :=
  if (dim <? Z.of_nat (dim2 rows))%Z then Raise err_dim_less
  else array2d_new (nd_of_rows (map (fun r => pad r (Z.to_nat dim - dim2 rows)) rows)).

(** _base_array.py 108-125 [round]: the values after the in-place rounding (the aliasing is
    modelled in Heap.v). *)
Definition round1 (v : vec N) (decimals : Z) : res (vec N) := mapM (np_round decimals) v.
(** The same method on Points. *)
Definition round2 (rows : list (vec N)) (decimals : Z) : res (list (vec N)) := mapM (fun r => round1 r decimals) rows.

(** _base_array.py 34-54 [__array_wrap__] for a result array of shape [s] with values [vs]:
    [inl] is an object of the same class (1D or 2D), [inr] the plain array / scalar.
    [two_d] tells Points from Point/Vector. *)
Definition array_wrap (two_d : bool) (return_scalar : bool) (a : nd) : sum nd nd :=
  if return_scalar then inr a
  else if two_d then match array2d_new a with Ok _ => inl a | _ => inr a end
       else match array1d_new a with Ok _ => inl a | _ => inr a end.

End BaseArray.
Arguments nd : clear implicits.
