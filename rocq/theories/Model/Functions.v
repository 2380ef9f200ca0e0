(** * _functions.py and transformation.py *)
From Coq Require Import String ZArith List Bool.
From Verif.Model Require Import Outcome Num Numpy BaseArray.
Import ListNotations.
Local Open Scope string_scope.

Section Functions.
Context {N : Num}.
Local Open Scope num_scope.

(** _functions.py 14-41 [_contains_point]: the object is given by its distance_point method. *)
Definition contains_point_gen (distance_point : vec N -> res N) (t : tol N) (p : vec N) : res bool :=
  let* distance := distance_point p in isclose t distance n0.

(** _functions.py 44-48 [_sum_squares] *)
Definition sum_squares_gen (distance_point : vec N -> res N) (points : list (vec N)) : res N :=
  let* rows := as2d points in
  let* ds := mapM distance_point rows in
  Ok (nsum (map nsq ds)).

(** _functions.py 51-53 [_mesh_to_points]: ravel, vstack, transpose. *)
Fixpoint zip3 (xs ys zs : vec N) : list (vec N) :=
  match xs, ys, zs with
  | x :: xs', y :: ys', z :: zs' => [x; y; z] :: zip3 xs' ys' zs'
  | _, _, _ => []
  end.
Definition mesh_to_points (X Y Z : list (vec N)) : list (vec N) :=
  zip3 (concat X) (concat Y) (concat Z).

(** _mixins.py 14-54 [to_points]: the mesh points as a Points object. *)
Definition to_points_gen (mesh : res (list (vec N) * list (vec N) * list (vec N))) : res (list (vec N)) :=
  let* (X, Y, Z) := mesh in points_of (mesh_to_points X Y Z).

(** _functions.py 117-120: [if n_digits: a = round(a, n_digits)].  The value None and 0 both skip
    the rounding.  Callers pass np.float64 values, whose round() is np.around. *)
Definition round_opt (n_digits : option Z) (x : N) : res N :=
  match n_digits with
  | None => Ok x
  | Some d => if (d =? 0)%Z then Ok x else np_round d x
  end.

(** _functions.py 73-134 [_solve_quadratic] *)
Definition solve_quadratic (a b c : N) (n_digits : option Z) : res (N * N) :=
  let* a := round_opt n_digits a in
  let* b := round_opt n_digits b in
  let* c := round_opt n_digits c in
  if a =? n0 then Raise (ValueError "The coefficient `a` must be non-zero.")
  else
    let discriminant := b * b - nofZ 4 * a * c in
    if discriminant <? n0 then Raise (ValueError "The discriminant must not be negative.")
    else let* r := math_sqrt discriminant in
         let* x1 := ndiv (nopp b + nofZ (-1) * r) (nofZ 2 * a) in
         let* x2 := ndiv (nopp b + n1 * r) (nofZ 2 * a) in
         Ok (x1, x2).

(** transformation.py 10-56 [transform_coordinates]: np.subtract(points, origin) times the
    transposed basis. *)
Definition transform_coordinates (points : list (vec N)) (origin : vec N) (basis : list (vec N))
  : res (list (vec N)) :=
  let* rows := as2d points in
  let* vs := mapM (fun r => bcast nsub r origin) rows in
  let* bs := as2d basis in
  mapM (fun v => mapM (fun b => np_dot v b) bs) vs.

End Functions.
