(** * objects/line_segment.py *)
From Coq Require Import String ZArith List Bool.
From Verif.Model Require Import Outcome Num Numpy BaseArray Vector Points Functions Line.
Import ListNotations.
Local Open Scope string_scope.

Section LineSegment.
Context {N : Num}.
Local Open Scope num_scope.

(** line_segment.py 16-58: a LineSegment object (point_a, point_b). *)
Record segment : Type := MkSegment { s_a : vec N; s_b : vec N }.

(** line_segment.py 53-58 [__init__] *)
Definition segment_new (point_a point_b : vec N) : res segment :=
  let* a := point_of point_a in
  let* b := point_of point_b in
  let* c := is_close1 tol_default a b in
  if c then Raise (ValueError "The endpoints must not be equal.")
  else Ok (MkSegment a b).

(** line_segment.py 66-103 [contains_point] *)
Definition segment_contains_point (t : tol N) (s : segment) (point : vec N) : res bool :=
  let* vector_a := from_points point (s_a s) in
  let* vector_b := from_points point (s_b s) in
  let* z := por (is_zero t vector_a) (is_zero t vector_b) in
  if z then Ok true
  else let* similarity := cosine_similarity vector_a vector_b in
       isclose t similarity (nopp n1).

(** line_segment.py 105-155 [intersect_line_segment]; the keywords are those of Line.intersect_line *)
Definition segment_intersect_segment (LA : linalg N) (t : tol N) (check_coplanar : bool) (s other : segment)
  : res (vec N) :=
  let* line_a := line_from_points (s_a s) (s_b s) in
  let* line_b := line_from_points (s_a other) (s_b other) in
  let* p := line_intersect_line LA t check_coplanar line_a line_b in
  let* on_a := segment_contains_point tol_default s p in
  let* on_b := segment_contains_point tol_default other p in
  if negb (on_a && on_b) then Raise (ValueError "The line segments must intersect.")
  else Ok p.

End LineSegment.
Arguments segment : clear implicits.
