(** * objects/triangle.py and measurement.py *)
From Coq Require Import String ZArith List Bool.
From Verif.Model Require Import Outcome Num Numpy BaseArray Vector Points Functions Line.
Import ListNotations.
Local Open Scope string_scope.

Section Triangle.
Context {N : Num}.
Local Open Scope num_scope.

(** triangle.py 18-75: a Triangle object (point_a, point_b, point_c). *)
Record triangle : Type := MkTriangle { t_a : vec N; t_b : vec N; t_c : vec N }.

(** triangle.py 64-75 [__init__] *)
Definition triangle_new (LA : linalg N) (point_a point_b point_c : vec N) : res triangle :=
  let* a := point_of point_a in
  let* b := point_of point_b in
  let* c := point_of point_c in
  if negb (Nat.eqb (dim1 a) (dim1 b) && Nat.eqb (dim1 b) (dim1 c))
  then Raise (ValueError "The points must have the same dimension.")
  else let* ps := points_of [a; b; c] in
  let* col := are_collinear LA None ps in
  if col then Raise (ValueError "The points must not be collinear.")
  else Ok (MkTriangle a b c).

(** The messages of triangle.py 263, 416, 496 (vertex) and 316 (side). *)
Definition err_vertex : exn := ValueError "The vertex must be 'A', 'B', or 'C'.".
Definition err_side : exn := ValueError "The side must be 'a', 'b', or 'c'.".

(** triangle.py 214-263 [point] *)
Definition triangle_point (t : triangle) (vertex : string) : res (vec N) :=
  if String.eqb vertex "A" then Ok (t_a t)
  else if String.eqb vertex "B" then Ok (t_b t)
  else if String.eqb vertex "C" then Ok (t_c t)
  else Raise err_vertex.

(** triangle.py 265-318 [line] *)
Definition triangle_line (t : triangle) (side : string) : res (line N) :=
  if String.eqb side "a" then line_from_points (t_b t) (t_c t)
  else if String.eqb side "b" then line_from_points (t_c t) (t_a t)
  else if String.eqb side "c" then line_from_points (t_a t) (t_b t)
  else Raise err_side.

(** triangle.py 320-361 [length] *)
Definition triangle_length (t : triangle) (side : string) : res N :=
  let* l := triangle_line t side in norm (l_dir l).

(** triangle.py 84-118 [multiple('length', 'abc')] as used internally; iterating the string gives its
    characters. *)
Definition triangle_lengths (t : triangle) : res (vec N) := mapM (triangle_length t) ["a"; "b"; "c"].

(** triangle.py 120-157 [normal] *)
Definition triangle_normal (t : triangle) : res (vec N) :=
  let* ab := from_points (t_a t) (t_b t) in
  let* ac := from_points (t_a t) (t_c t) in
  cross ab ac.

(** triangle.py 159-188 [area] *)
Definition triangle_area (t : triangle) : res N :=
  let* n := triangle_normal t in
  let* m := norm n in Ok (ndyad 1 1 * m).

(** triangle.py 190-212 [perimeter] *)
Definition triangle_perimeter (t : triangle) : res N :=
  let* ls := triangle_lengths t in Ok (nsum ls).

(** triangle.py 364-418 [angle] *)
Definition triangle_angle (T : Trig N) (t : triangle) (vertex : string) : res N :=
  let* ls := triangle_lengths t in
  match ls with
  | [a; b; c] =>
      let arg :=
        if String.eqb vertex "A" then ndiv (b * b + c * c - a * a) (nofZ 2 * b * c)
        else if String.eqb vertex "B" then ndiv (a * a + c * c - b * b) (nofZ 2 * a * c)
        else if String.eqb vertex "C" then ndiv (a * a + b * b - c * c) (nofZ 2 * a * b)
        else Raise err_vertex in
      let* x := arg in math_acos T x
  | _ => Raise (ValueError "not enough values to unpack (expected 3)")
  end.

(** triangle.py 420-440 [centroid] *)
Definition triangle_centroid (t : triangle) : res (vec N) :=
  let* ps := points_of [t_a t; t_b t; t_c t] in centroid ps.

(** triangle.py 442-496 [altitude] *)
Definition triangle_altitude (t : triangle) (vertex : string) : res (line N) :=
  let alt side p :=
    let* l := triangle_line t side in
    let* foot := line_project_point l p in
    line_from_points p foot in
  if String.eqb vertex "A" then alt "a" (t_a t)
  else if String.eqb vertex "B" then alt "b" (t_b t)
  else if String.eqb vertex "C" then alt "c" (t_c t)
  else Raise err_vertex.

(** triangle.py 498-528 [orthocenter] *)
Definition triangle_orthocenter (LA : linalg N) (tl : tol N) (check_coplanar : bool) (t : triangle) : res (vec N) :=
  let* line_alt_a := triangle_altitude t "A" in
  let* line_alt_b := triangle_altitude t "B" in
  line_intersect_line LA tl check_coplanar line_alt_a line_alt_b.

(** triangle.py 530-583 [classify] *)
Definition triangle_classify (tl : tol N) (t : triangle) : res string :=
  let* ls := triangle_lengths t in
  match ls with
  | [a; b; c] =>
      let* p1 := isclose tl a b in
      let* p2 := isclose tl a c in
      let* p3 := isclose tl b c in
      let n := ((if p1 : bool then 1 else 0) + (if p2 : bool then 1 else 0) + (if p3 : bool then 1 else 0))%nat in
      if Nat.eqb n 3 then Ok "equilateral"
      else if Nat.eqb n 1 then Ok "isosceles"
      else Ok "scalene"
  | _ => Raise (ValueError "not enough values to unpack (expected 3)")
  end.

(** triangle.py 585-630 [is_right] *)
Definition triangle_is_right (tl : tol N) (t : triangle) : res bool :=
  let* ls := triangle_lengths t in
  match py_sorted ls with
  | [a; b; c] => isclose tl (a * a + b * b) (c * c)
  | _ => Raise (ValueError "not enough values to unpack (expected 3)")
  end.

(** triangle.py 84-118 [multiple]: getattr by name, then one call per input.  Only the one-argument
    string methods are listed; any other name is treated as missing. *)
Inductive tri_value : Type := VPoint (p : vec N) | VLine (l : line N) | VNum (x : N).
Definition triangle_method (T : Trig N) (t : triangle) (name : string) : option (string -> res tri_value) :=
  if String.eqb name "point" then Some (fun s => res_map VPoint (triangle_point t s))
  else if String.eqb name "line" then Some (fun s => res_map VLine (triangle_line t s))
  else if String.eqb name "length" then Some (fun s => res_map VNum (triangle_length t s))
  else if String.eqb name "angle" then Some (fun s => res_map VNum (triangle_angle T t s))
  else if String.eqb name "altitude" then Some (fun s => res_map VLine (triangle_altitude t s))
  else None.
Definition triangle_multiple (T : Trig N) (t : triangle) (name : string) (inputs : list string) : res (list tri_value) :=
  match triangle_method T t name with
  | Some m => mapM m inputs
  | None => Raise (AttributeError "'Triangle' object has no such attribute")
  end.

(** measurement.py 9-49 [area_triangle] *)
Definition area_triangle (point_a point_b point_c : vec N) : res N :=
  let* ab := from_points point_a point_b in
  let* ac := from_points point_a point_c in
  let* n := cross ab ac in
  let* m := norm n in
  Ok (ndyad 1 1 * m).

(** measurement.py 52-100 [volume_tetrahedron] *)
Definition volume_tetrahedron (point_a point_b point_c point_d : vec N) : res N :=
  let* ab := from_points point_a point_b in
  let* ac := from_points point_a point_c in
  let* ad := from_points point_a point_d in
  let* vector_cross := cross ac ad in
  let* ab3 := set_dimension1 ab 3 in
  let* d := np_dot ab3 vector_cross in
  let* sixth := ndiv n1 (nofZ 6) in
  Ok (sixth * nabs d).

(** measurement.py 103-162 [area_signed]: X[indices - 1] is X rotated right by one
    (index -1 is the last element). *)
Definition rot1 (v : vec N) : vec N := last v n0 :: removelast v.
Definition area_signed (points : list (vec N)) : res N :=
  let* ps := points_of points in
  if negb (Nat.eqb (dim2 ps) 2) then Raise (ValueError "The points must be 2D.")
  else if Nat.ltb (length ps) 3 then Raise (ValueError "There must be at least 3 points.")
  else
    let X := column 0 ps in
    let Y := column 1 ps in
    Ok (ndyad 1 1 * nsum (map2 nsub (map2 nmul (rot1 X) Y) (map2 nmul X (rot1 Y)))).

End Triangle.
Arguments triangle : clear implicits.
Arguments tri_value : clear implicits.
