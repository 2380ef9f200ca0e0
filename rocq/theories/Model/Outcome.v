(** * Outcomes of a call: values, exceptions, non-finite numpy results.

    Every Python call in the model returns a [res].
    - [Ok a]      : the call returns [a];
    - [Raise e]   : the call raises the exception [e];
    - [NonFinite] : numpy produced nan/inf without raising (division by zero of numpy
      scalars, [np.sqrt] of a negative number, ...).  The code then hands on a plain,
      non-finite ndarray (see [_BaseArray.__array_wrap__], _base_array.py 34-54, which
      refuses to wrap such a result as Point/Vector/Points). *)
From Coq Require Import String List.
Import ListNotations.

(** Exceptions raised by the library itself or by numpy/math on its behalf.
    [LinAlgError] is, as in numpy, a subclass of ValueError (see [is_value_error]). *)
Inductive exn : Type :=
| ValueError (msg : string)
| TypeError (msg : string)
| LinAlgError (msg : string)
| AttributeError (msg : string)
| IndexError (msg : string).

(** What a call does. *)
Inductive res (A : Type) : Type :=
| Ok (a : A)
| Raise (e : exn)
| NonFinite.
Arguments Ok {A} a.
Arguments Raise {A} e.
Arguments NonFinite {A}.

(** Statement sequencing: an exception (or nan) ends the call. *)
Definition bind {A B} (r : res A) (f : A -> res B) : res B :=
  match r with
  | Ok a => f a
  | Raise e => Raise e
  | NonFinite => NonFinite
  end.

Declare Scope res_scope.
Notation "'let*' x := e1 'in' e2" := (bind e1 (fun x => e2))
  (at level 200, x pattern, e1 at level 100, e2 at level 200) : res_scope.
Open Scope res_scope.

(** Post-processing of a result. *)
Definition res_map {A B} (f : A -> B) (r : res A) : res B :=
  let* a := r in Ok (f a).

(** Python's evaluation of [f] on each element in order, stopping at the first failure. *)
Fixpoint mapM {A B} (f : A -> res B) (l : list A) : res (list B) :=
  match l with
  | [] => Ok []
  | x :: xs => let* y := f x in let* ys := mapM f xs in Ok (y :: ys)
  end.

(** Short-circuiting [a or b] / [a and b] on Python bools. *)
Definition por (a : res bool) (b : res bool) : res bool :=
  let* x := a in if x then Ok true else b.

(** [except ValueError] also catches LinAlgError (a subclass). *)
Definition is_value_error (e : exn) : bool :=
  match e with ValueError _ | LinAlgError _ => true | _ => false end.
