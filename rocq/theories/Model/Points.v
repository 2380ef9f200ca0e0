(** * objects/point.py and objects/points.py *)
From Coq Require Import String ZArith List Bool.
From Verif.Model Require Import Outcome Num Numpy BaseArray Vector.
Import ListNotations.
Local Open Scope string_scope.

Section Points.
Context {N : Num}.
Local Open Scope num_scope.

(** point.py 65-96 [Point.distance_point] *)
Definition distance_point (p other : vec N) : res N :=
  let* v := from_points p other in norm v.

(** points.py 69-91 [Points.unique] *)
Definition unique (rows : list (vec N)) : res (list (vec N)) :=
  points_of (np_unique rows).

(** points.py 93-112 [Points.centroid]: mean over axis 0, then the Point constructor. *)
Definition centroid (rows : list (vec N)) : res (vec N) :=
  let* c := colmean (dim2 rows) rows in point_of c.

(** points.py 114-154 [Points.mean_center] with return_centroid=True; the plain call returns the
    first component. *)
Definition mean_center_c (rows : list (vec N)) : res (list (vec N) * vec N) :=
  let* c := centroid rows in
  let* centered := mapM (fun r => vsub r c) rows in
  Ok (centered, c).
Definition mean_center (rows : list (vec N)) : res (list (vec N)) :=
  let* (centered, _) := mean_center_c rows in Ok centered.

(** points.py 156-188 [Points.normalize_distance] *)
Definition normalize_distance (rows : list (vec N)) : res (list (vec N)) :=
  let distances := map norm_raw rows in
  mapM (fun r => vdivs r (vmax distances)) rows.

(** points.py 190-236 [Points.affine_rank] (keyword tol) *)
Definition affine_rank (LA : linalg N) (tolerance : option N) (rows : list (vec N)) : res nat :=
  let* u := unique rows in
  let* centered := mean_center u in
  matrix_rank LA tolerance (dim2 u) centered.

(** points.py 238-263, 265-293, 295-323 *)
Definition are_concurrent (LA : linalg N) (tolerance : option N) (rows : list (vec N)) : res bool :=
  let* r := affine_rank LA tolerance rows in Ok (Nat.eqb r 0).
Definition are_collinear (LA : linalg N) (tolerance : option N) (rows : list (vec N)) : res bool :=
  let* r := affine_rank LA tolerance rows in Ok (Nat.leb r 1).
Definition are_coplanar (LA : linalg N) (tolerance : option N) (rows : list (vec N)) : res bool :=
  let* r := affine_rank LA tolerance rows in Ok (Nat.leb r 2).

End Points.
