(** * objects/_base_array.py: is_close and is_equal against an arbitrary array_like operand *)
From Coq Require Import String ZArith List Bool.
From Verif.Model Require Import Outcome Num Numpy BaseArray.
Import ListNotations.

Section Compare.
Context {N : Num}.

(** Number of axes of a (rectangular) array_like. *)
Fixpoint ndim (a : nd N) : nat :=
  match a with
  | Sc _ => 0%nat
  | Ar l => match map ndim l with [] => 1%nat | k :: _ => S k end
  end.

(** numpy broadcasting of two rectangular arrays (used by np.vectorize, _functions.py 137): the array
    with fewer axes is repeated along the leading axes of the other, and along a common axis a length of
    one is repeated.  The result lists the pairs of values that meet.  [fuel] bounds the number of axes. *)
Fixpoint broadcast_pairs (fuel : nat) (a b : nd N) : res (list (N * N)) :=
  match fuel with
  | O => Raise err_broadcast
  | S fuel =>
      match a, b with
      | Sc x, Sc y => Ok [(x, y)]
      | Ar la, Ar lb =>
          if Nat.ltb (ndim b) (ndim a) then let* ps := mapM (fun x => broadcast_pairs fuel x b) la in Ok (concat ps)
          else if Nat.ltb (ndim a) (ndim b) then let* ps := mapM (fun y => broadcast_pairs fuel a y) lb in Ok (concat ps)
          else let* rs := bpairs la lb in
               let* ps := mapM (fun r => broadcast_pairs fuel (fst r) (snd r)) rs in Ok (concat ps)
      | Ar la, Sc _ => let* ps := mapM (fun x => broadcast_pairs fuel x b) la in Ok (concat ps)
      | Sc _, Ar lb => let* ps := mapM (fun y => broadcast_pairs fuel a y) lb in Ok (concat ps)
      end
  end.

(** _base_array.py 72-89 [is_close] = [bool(_allclose(self, other).all())] with
    [_allclose = np.vectorize(math.isclose)] (_functions.py 137).  np.vectorize (numpy/lib/function_base.py
    [_get_ufunc_and_otypes], [_vectorize_call]) converts both operands (raising on ragged ones), rejects
    empty operands, calls math.isclose once on the two first values to learn the output type, and then
    broadcasts. *)
Definition is_close_any (t : tol N) (a b : nd N) : res bool :=
  match shape a, shape b with
  | Some _, Some _ =>
      match flat a, flat b with
      | x :: _, y :: _ =>
          let* _ := isclose t x y in
          let* ps := broadcast_pairs (S (ndim a + ndim b)) a b in
          allclose_pairs t ps
      | _, _ => Raise err_vectorize
      end
  | _, _ => Raise err_ragged
  end.

(** _base_array.py 91-106 [is_equal] = np.array_equal: False when an operand cannot be converted to an
    array or when the shapes differ, otherwise whether all values are equal. *)
Definition is_equal_any (a b : nd N) : bool :=
  match shape a, shape b with
  | Some _, Some _ => shape_eqb (shape a) (shape b) && row_eqb (flat a) (flat b)
  | _, _ => false
  end.
End Compare.
