(** * objects/plane.py and the Plane part of objects/_base_line_plane.py *)
From Coq Require Import String ZArith List Bool.
From Verif.Model Require Import Outcome Num Numpy BaseArray Vector Points Functions Line.
Import ListNotations.
Local Open Scope string_scope.

Section Plane.
Context {N : Num}.
Local Open Scope num_scope.

(** plane.py 18-87: a Plane object (point, normal = vector). *)
Record plane : Type := MkPlane { pl_point : vec N; pl_normal : vec N }.

(** plane.py 85-87 [Plane.__init__] *)
Definition plane_new (point normal : vec N) : res plane :=
  let* (p, n) := check_point_vector point normal in Ok (MkPlane p n).

(** attribute [dimension], _base_line_plane.py 27 *)
Definition plane_dim (p : plane) : nat := dim1 (pl_point p).

(** plane.py 90-139 [from_vectors] *)
Definition plane_from_vectors (t : tol N) (point vector_a vector_b : vec N) : res plane :=
  let* a := vector_of vector_a in
  let* par := is_parallel t a vector_b in
  if par then Raise (ValueError "The vectors must not be parallel.")
  else let* n := cross a vector_b in
       let* p := point_of point in
       let* p3 := set_dimension1 p 3 in
       plane_new p3 n.

(** plane.py 142-189 [from_points] (keyword tol; from_vectors is called with default tolerances) *)
Definition plane_from_points (LA : linalg N) (tolerance : option N) (point_a point_b point_c : vec N) : res plane :=
  let* ps := points_of [point_a; point_b; point_c] in
  let* col := are_collinear LA tolerance ps in
  if col then Raise (ValueError "The points must not be collinear.")
  else let* ab := from_points point_a point_b in
       let* ac := from_points point_a point_c in
       plane_from_vectors tol_default point_a ab ac.

(** plane.py 191-237 [cartesian] *)
Definition plane_cartesian (pl : plane) : res (N * N * N * N) :=
  if Nat.ltb 3 (plane_dim pl) then Raise (ValueError "The plane dimension must be <= 3.")
  else let* n3 := set_dimension1 (pl_normal pl) 3 in
       let* d := np_dot (pl_normal pl) (pl_point pl) in
       match n3 with
       | [a; b; c] => Ok (a, b, c, nopp d)
       | _ => Raise (ValueError "not enough values to unpack (expected 3)")
       end.

(** plane.py 239-272 [project_point] *)
Definition plane_project_point (pl : plane) (point : vec N) : res (vec N) :=
  let* vector_to_plane := from_points point (pl_point pl) in
  let* vector_projected := project_vector (pl_normal pl) vector_to_plane in
  let* p := point_of point in
  vadd p vector_projected.

(** plane.py 274-303 [project_points] *)
Definition plane_project_points (pl : plane) (points : list (vec N)) : res (list (vec N)) :=
  let* rows := as2d points in
  let* vectors := mapM (fun r => bcast nsub (pl_point pl) r) rows in
  let* u := unit_vec (pl_normal pl) in
  let* dots := mapM (fun v => np_dot v u) vectors in
  let* rs := mapM (fun dr => bcast nadd (vscale (fst dr) u) (snd dr)) (combine dots rows) in
  points_of rs.

(** plane.py 305-332 [project_vector] *)
Definition plane_project_vector (pl : plane) (v : vec N) : res (vec N) :=
  let* point_in_space := vadd (pl_point pl) v in
  let* point_on_plane := plane_project_point pl point_in_space in
  from_points (pl_point pl) point_on_plane.

(** plane.py 334-382 [project_line] *)
Definition plane_project_line (t : tol N) (pl : plane) (l : line N) : res (line N) :=
  let* par := is_parallel t (pl_normal pl) (l_dir l) in
  if par then Raise (ValueError "The line and plane must not be perpendicular.")
  else let* point_projected := plane_project_point pl (l_point l) in
       let* perp := is_perpendicular t (pl_normal pl) (l_dir l) in
       if perp then line_new point_projected (l_dir l)
       else let* vector_projected := plane_project_vector pl (l_dir l) in
            line_new point_projected vector_projected.

(** plane.py 384-422 [distance_point_signed] *)
Definition plane_distance_point_signed (pl : plane) (point : vec N) : res N :=
  let* vector_to_point := from_points (pl_point pl) point in
  scalar_projection (pl_normal pl) vector_to_point.

(** plane.py 424-454 [distance_points_signed] *)
Definition plane_distance_points_signed (pl : plane) (points : list (vec N)) : res (vec N) :=
  let* rows := as2d points in
  let* vectors := mapM (fun r => bcast nsub r (pl_point pl)) rows in
  let* u := unit_vec (pl_normal pl) in
  mapM (fun v => np_dot v u) vectors.

(** plane.py 456-490 [distance_point] *)
Definition plane_distance_point (pl : plane) (point : vec N) : res N :=
  let* d := plane_distance_point_signed pl point in Ok (nabs d).

(** plane.py 492-520 [distance_points] *)
Definition plane_distance_points (pl : plane) (points : list (vec N)) : res (vec N) :=
  let* ds := plane_distance_points_signed pl points in Ok (map nabs ds).

(** plane.py 522-565 [side_point] *)
Definition plane_side_point (pl : plane) (point : vec N) : res Z :=
  let* d := plane_distance_point_signed pl point in int_sign d.

(** _base_line_plane.py 38-40, 101-102 *)
Definition plane_contains_point (t : tol N) (pl : plane) (point : vec N) : res bool :=
  contains_point_gen (plane_distance_point pl) t point.
Definition plane_sum_squares (pl : plane) (points : list (vec N)) : res N :=
  sum_squares_gen (plane_distance_point pl) points.

(** _base_line_plane.py 42-99 [is_close], both operands planes *)
Definition plane_is_close (t : tol N) (pl other : plane) : res bool :=
  let* c := plane_contains_point t pl (pl_point other) in
  let* p := is_parallel t (pl_normal pl) (pl_normal other) in
  Ok (c && p).

(** The dynamic type test of [is_close] (_base_line_plane.py 91-92) and of
    [Line.is_coplanar] (line.py 218-219). *)
Inductive line_or_plane : Type := LineObj (l : line N) | PlaneObj (p : plane).
Definition lp_is_close (t : tol N) (a b : line_or_plane) : res bool :=
  match a, b with
  | LineObj l, LineObj m => line_is_close t l m
  | PlaneObj p, PlaneObj q => plane_is_close t p q
  | _, _ => Raise (TypeError "The input must have the same type as the object.")
  end.
Definition line_is_coplanar_obj (LA : linalg N) (tolerance : option N) (l : line N) (other : line_or_plane) : res bool :=
  match other with
  | LineObj m => line_is_coplanar LA tolerance l m
  | PlaneObj _ => Raise (TypeError "The input must also be a line.")
  end.

(** plane.py 567-626 [intersect_line] *)
Definition plane_intersect_line (t : tol N) (pl : plane) (l : line N) : res (vec N) :=
  let* perp := is_perpendicular t (pl_normal pl) (l_dir l) in
  if perp then Raise (ValueError "The line and plane must not be parallel.")
  else let* vector_plane_line := from_points (pl_point pl) (l_point l) in
       let* nd := np_dot (pl_normal pl) vector_plane_line in
       let num := nopp nd in
       let* denom := np_dot (pl_normal pl) (l_dir l) in
       let* s := ndiv num denom in
       let* vector_line_scaled := vmuls s (l_dir l) in
       vadd (l_point l) vector_line_scaled.

(** plane.py 628-702 [intersect_plane].  [np.vstack] and [np.block] require 3D normals: other
    dimensions raise ValueError. *)
Definition plane_intersect_plane (LA : linalg N) (t : tol N) (pl other : plane) : res (line N) :=
  let* par := is_parallel t (pl_normal pl) (pl_normal other) in
  if par then Raise (ValueError "The planes must not be parallel.")
  else match pl_normal pl, pl_normal other with
  | [a1; a2; a3], [b1; b2; b3] =>
      let two := nofZ 2 in
      let matrix := [[two; n0; n0; a1; b1];
                     [n0; two; n0; a2; b2];
                     [n0; n0; two; a3; b3];
                     [a1; a2; a3; n0; n0];
                     [b1; b2; b3; n0; n0]] in
      let* dot_a := np_dot (pl_point pl) (pl_normal pl) in
      let* dot_b := np_dot (pl_point other) (pl_normal other) in
      let* solution := la_solve LA matrix [n0; n0; n0; dot_a; dot_b] in
      let* point_line := point_of (firstn 3 solution) in
      let* direction_line := cross (pl_normal pl) (pl_normal other) in
      line_new point_line direction_line
  | _, _ => Raise (ValueError "all the input array dimensions except for the concatenation axis must match exactly")
  end.

(** plane.py 705-793 [best_fit] with return_error=True *)
Definition plane_best_fit_err (LA : linalg N) (tolerance : option N) (points : list (vec N)) : res (plane * N) :=
  let* ps := points_of points in
  if negb (Nat.eqb (dim2 ps) 3) then Raise (ValueError "The points must be 3D.")
  else let* col := are_collinear LA tolerance ps in
  if col then Raise (ValueError "The points must not be collinear.")
  else let* (centered, c) := mean_center_c ps in
       let* (u, s, _) := la_svd LA (transpose 3 centered) in
       let* normal := vector_of (column 2 u) in
       let* pl := plane_new c normal in
       Ok (pl, nsum (map nsq (skipn 2 s))).
Definition plane_best_fit (LA : linalg N) (tolerance : option N) (points : list (vec N)) : res plane :=
  let* (pl, _) := plane_best_fit_err LA tolerance points in Ok pl.

(** Element-wise combination of two meshes of equal shape. *)
Definition mesh2 (f : N -> N -> N) (X Y : list (vec N)) : list (vec N) :=
  map (fun xy => map2 f (fst xy) (snd xy)) (combine X Y).

(** plane.py 795-853 [to_mesh].  [lims_x], [lims_y] may have any length. *)
Definition plane_to_mesh (pl : plane) (lims_x lims_y : vec N) : res (list (vec N) * list (vec N) * list (vec N)) :=
  let* (a, b, c, d) := plane_cartesian pl in
  match pl_point pl with
  | x_center :: y_center :: _ =>
      let values_x := map (fun l => x_center + l) lims_x in
      let values_y := map (fun l => y_center + l) lims_y in
      let (X, Y) := meshgrid values_x values_y in
      let solve k1 k2 den :=
        mapM (fun row => mapM (fun v => ndiv v den) row)
             (mesh2 (fun x y => nopp (k1 * x + k2 * y + d)) X Y) in
      if negb (c =? n0) then let* Z := solve a b c in Ok (X, Y, Z)
      else if negb (b =? n0) then let* Z := solve a c b in Ok (X, Z, Y)
      else let* Z := solve b c a in Ok (Z, X, Y)
  | _ => Raise (ValueError "not enough values to unpack (expected 2)")
  end.

(** _mixins.py 14-54 *)
Definition plane_to_points (pl : plane) (lims_x lims_y : vec N) : res (list (vec N)) :=
  to_points_gen (plane_to_mesh pl lims_x lims_y).

End Plane.
Arguments plane : clear implicits.
Arguments line_or_plane : clear implicits.
