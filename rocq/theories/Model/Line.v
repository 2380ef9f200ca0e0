(** * objects/line.py and the Line part of objects/_base_line_plane.py *)
From Coq Require Import String ZArith List Bool.
From Verif.Model Require Import Outcome Num Numpy BaseArray Vector Points Functions.
Import ListNotations.
Local Open Scope string_scope.

Section Line.
Context {N : Num}.
Local Open Scope num_scope.

(** line.py 17-87: a Line object (point, direction = vector). *)
Record line : Type := MkLine { l_point : vec N; l_dir : vec N }.

(** _base_line_plane.py 17-27 [__init__]: shared by Line and Plane (never called with keywords). *)
Definition check_point_vector (point vector : vec N) : res (vec N * vec N) :=
  let* p := point_of point in
  let* v := vector_of vector in
  if negb (Nat.eqb (dim1 p) (dim1 v))
  then Raise (ValueError "The point and vector must have the same dimension.")
  else let* z := is_zero tol_default v in
       if z then Raise (ValueError "The vector must not be the zero vector.")
       else Ok (p, v).

(** line.py 84-87 [Line.__init__] *)
Definition line_new (point direction : vec N) : res line :=
  let* (p, d) := check_point_vector point direction in Ok (MkLine p d).

(** attribute [dimension], _base_line_plane.py 27 *)
Definition line_dim (l : line) : nat := dim1 (l_point l).

(** line.py 90-119 [Line.from_points] *)
Definition line_from_points (point_a point_b : vec N) : res line :=
  let* ab := from_points point_a point_b in line_new point_a ab.

(** line.py 122-164 [Line.from_slope] *)
Definition line_from_slope (slope y_intercept : N) : res line :=
  line_new [n0; y_intercept] [n1; slope].

(** line.py 230-265 [to_point] *)
Definition line_to_point (l : line) (t : N) : res (vec N) :=
  let* w := vmuls t (l_dir l) in vadd (l_point l) w.

(** line.py 166-228 [is_coplanar] (the isinstance check is in [line_is_coplanar_obj]) *)
Definition line_is_coplanar (LA : linalg N) (tolerance : option N) (l other : line) : res bool :=
  let* point_2 := line_to_point l n1 in
  let* point_4 := line_to_point other n1 in
  let* points := points_of [l_point l; point_2; l_point other; point_4] in
  are_coplanar LA tolerance points.

(** line.py 267-299 [project_point] *)
Definition line_project_point (l : line) (point : vec N) : res (vec N) :=
  let* vector_to_point := from_points (l_point l) point in
  let* vector_projected := project_vector (l_dir l) vector_to_point in
  vadd (l_point l) vector_projected.

(** line.py 301-339 [project_points] *)
Definition line_project_points (l : line) (points : list (vec N)) : res (list (vec N)) :=
  let* rows := as2d points in
  let* vectors := mapM (fun r => bcast nsub r (l_point l)) rows in
  let* u := unit_vec (l_dir l) in
  let* dots := mapM (fun v => np_dot v u) vectors in
  let* rs := mapM (fun d => bcast nadd (vscale d u) (l_point l)) dots in
  points_of rs.

(** line.py 341-365 [project_vector] *)
Definition line_project_vector (l : line) (v : vec N) : res (vec N) := project_vector (l_dir l) v.

(** line.py 367-409 [side_point] *)
Definition line_side_point (l : line) (point : vec N) : res Z :=
  let* vector_to_point := from_points (l_point l) point in
  side_vector (l_dir l) vector_to_point.

(** line.py 411-446 [distance_point] *)
Definition line_distance_point (l : line) (point : vec N) : res N :=
  let* q := line_project_point l point in distance_point q point.

(** line.py 448-483 [distance_points] *)
Definition line_distance_points (l : line) (points : list (vec N)) : res (vec N) :=
  let* proj := line_project_points l points in
  let* prs := bpairs points proj in
  let* diffs := mapM (fun pr => bcast nsub (fst pr) (snd pr)) prs in
  Ok (map norm_raw diffs).

(** _base_line_plane.py 38-40 [contains_point] *)
Definition line_contains_point (t : tol N) (l : line) (point : vec N) : res bool :=
  contains_point_gen (line_distance_point l) t point.

(** _base_line_plane.py 101-102 [sum_squares] *)
Definition line_sum_squares (l : line) (points : list (vec N)) : res N :=
  sum_squares_gen (line_distance_point l) points.

(** _base_line_plane.py 42-99 [is_close], both operands lines *)
Definition line_is_close (t : tol N) (l other : line) : res bool :=
  let* c := line_contains_point t l (l_point other) in
  let* p := is_parallel t (l_dir l) (l_dir other) in
  Ok (c && p).

(** line.py 485-549 [distance_line] *)
Definition line_distance_line (LA : linalg N) (l other : line) : res N :=
  let* par := is_parallel tol_default (l_dir l) (l_dir other) in
  if par then line_distance_point l (l_point other)
  else let* cop := line_is_coplanar LA None l other in
       if cop then Ok n0
       else let* vector_ab := from_points (l_point l) (l_point other) in
            let* vector_perpendicular := cross (l_dir l) (l_dir other) in
            let* d := np_dot vector_ab vector_perpendicular in
            let* n := norm vector_perpendicular in
            ndiv (nabs d) n.

(** line.py 551-654 [intersect_line]; the keywords [t] only reach is_parallel. *)
Definition line_intersect_line (LA : linalg N) (t : tol N) (check_coplanar : bool) (l other : line)
  : res (vec N) :=
  if negb (Nat.eqb (line_dim l) (line_dim other))
  then Raise (ValueError "The lines must have the same dimension.")
  else if Nat.ltb 3 (line_dim l) || Nat.ltb 3 (line_dim other)
  then Raise (ValueError "The line dimension cannot be greater than 3.")
  else let* par := is_parallel t (l_dir l) (l_dir other) in
  if par then Raise (ValueError "The lines must not be parallel.")
  else let* bad := (if check_coplanar
                    then let* c := line_is_coplanar LA None l other in Ok (negb c)
                    else Ok false) in
  if bad : bool then Raise (ValueError "The lines must be coplanar.")
  else let* vector_ab := from_points (l_point l) (l_point other) in
       let* vector_perpendicular := cross (l_dir l) (l_dir other) in
       let* c := cross vector_ab (l_dir other) in
       let* num := np_dot c vector_perpendicular in
       let* n := norm vector_perpendicular in
       let* s := ndiv num (n * n) in
       let* vector_a_scaled := vmuls s (l_dir l) in
       vadd (l_point l) vector_a_scaled.

(** line.py 657-734 [best_fit] with return_error=True (the plain call returns the first component). *)
Definition line_best_fit_err (LA : linalg N) (tolerance : option N) (points : list (vec N)) : res (line * N) :=
  let* ps := points_of points in
  let* conc := are_concurrent LA tolerance ps in
  if conc then Raise (ValueError "The points must not be concurrent.")
  else let* (centered, c) := mean_center_c ps in
       let* (_, s, vh) := la_svd LA centered in
       let* l := line_new c (nth 0 vh []) in
       Ok (l, nsum (map nsq (skipn 1 s))).
Definition line_best_fit (LA : linalg N) (tolerance : option N) (points : list (vec N)) : res line :=
  let* (l, _) := line_best_fit_err LA tolerance points in Ok l.

(** line.py 736-785 [transform_points] *)
Definition line_transform_points (l : line) (points : list (vec N)) : res (vec N) :=
  let* u := unit_vec (l_dir l) in
  let* col := transform_coordinates points (to_array (l_point l)) [u] in
  Ok (concat col).

End Line.
Arguments line : clear implicits.
