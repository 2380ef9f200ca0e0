(** * objects/_base_sphere.py, objects/circle.py, objects/sphere.py *)
From Coq Require Import String ZArith List Bool.
From Verif.Model Require Import Outcome Num Numpy BaseArray Vector Points Functions Line.
Import ListNotations.
Local Open Scope string_scope.

Section Sphere.
Context {N : Num}.
Local Open Scope num_scope.

(** A Circle or Sphere object: centre and radius. *)
Record ball : Type := MkBall { c_point : vec N; c_radius : N }.

(** _base_sphere.py 17-24 [__init__] *)
Definition base_sphere_new (point : vec N) (radius : N) : res ball :=
  if radius <=? n0 then Raise (ValueError "The radius must be positive.")
  else let* p := point_of point in Ok (MkBall p radius).

(** circle.py 74-78, sphere.py 75-79 [__init__] *)
Definition circle_new (point : vec N) (radius : N) : res ball :=
  let* c := base_sphere_new point radius in
  if negb (Nat.eqb (dim1 (c_point c)) 2) then Raise (ValueError "The point must be 2D.") else Ok c.
Definition sphere_new (point : vec N) (radius : N) : res ball :=
  let* c := base_sphere_new point radius in
  if negb (Nat.eqb (dim1 (c_point c)) 3) then Raise (ValueError "The point must be 3D.") else Ok c.

(** _base_sphere.py 33-37 [distance_point] *)
Definition ball_distance_point (c : ball) (point : vec N) : res N :=
  let* d := distance_point (c_point c) point in Ok (nabs (d - c_radius c)).

(** _base_sphere.py 39-41 [contains_point] *)
Definition ball_contains_point (t : tol N) (c : ball) (point : vec N) : res bool :=
  contains_point_gen (ball_distance_point c) t point.

(** _base_sphere.py 43-90 [project_point] *)
Definition ball_project_point (c : ball) (point : vec N) : res (vec N) :=
  if is_equal1 (c_point c) point
  then Raise (ValueError "The point must not be the center of the circle or sphere.")
  else let* v := from_points (c_point c) point in
       let* u := unit_vec v in
       let* w := vmuls (c_radius c) u in
       vadd (c_point c) w.

(** circle.py 81-162 [Circle.from_points] (keyword tol).  The minors of the 4x4 matrix along its first
    row are written out as 3x3 determinants. *)
Definition circle_from_points (LA : linalg N) (tolerance : option N) (point_a point_b point_c : vec N) : res ball :=
  let* pa := point_of point_a in
  let* pb := point_of point_b in
  let* pc := point_of point_c in
  if negb (Nat.eqb (dim1 pa) 2) || negb (Nat.eqb (dim1 pb) 2) || negb (Nat.eqb (dim1 pc) 2)
  then Raise (ValueError "The points must be 2D.")
  else let* ps := points_of [pa; pb; pc] in
  let* col := are_collinear LA tolerance ps in
  if col then Raise (ValueError "The points must not be collinear.")
  else match pa, pb, pc with
  | [xa; ya], [xb; yb], [xc; yc] =>
      let sa := xa * xa + ya * ya in
      let sb := xb * xb + yb * yb in
      let sc := xc * xc + yc * yc in
      let M00 := det3 xa ya n1 xb yb n1 xc yc n1 in
      let M01 := det3 sa ya n1 sb yb n1 sc yc n1 in
      let M02 := det3 sa xa n1 sb xb n1 sc xc n1 in
      let M03 := det3 sa xa ya sb xb yb sc xc yc in
      let half := ndyad 1 1 in
      let* x := ndiv (half * M01) M00 in
      let* y := ndiv (nopp half * M02) M00 in
      let* q := ndiv M03 M00 in
      let* radius := math_sqrt (x * x + y * y + q) in
      circle_new [x; y] radius
  | _, _, _ => Raise (ValueError "The points must be 2D.")
  end.

(** circle.py 165-189 [circumference], 192-216 [area]; sphere.py 82-106 [surface_area], 109-133 [volume] *)
Definition circle_circumference (T : Trig N) (c : ball) : N := nofZ 2 * tpi T * c_radius c.
Definition circle_area (T : Trig N) (c : ball) : N := tpi T * (c_radius c * c_radius c).
Definition sphere_surface_area (T : Trig N) (c : ball) : N := nofZ 4 * tpi T * (c_radius c * c_radius c).
Definition sphere_volume (T : Trig N) (c : ball) : res N :=
  let* k := ndiv (nofZ 4) (nofZ 3) in
  Ok (k * tpi T * (c_radius c * c_radius c * c_radius c)).

(** circle.py 218-296 [intersect_circle] *)
Definition circle_intersect_circle (c o : ball) : res (vec N * vec N) :=
  let* d := distance_point (c_point c) (c_point o) in
  if d =? n0 then Raise (ValueError "The centres of the circles are coincident.")
  else if c_radius c + c_radius o <? d
  then Raise (ValueError "The circles do not intersect. These circles are separate.")
  else if d <? nabs (c_radius c - c_radius o)
  then Raise (ValueError "The circles do not intersect. One circle is contained within the other.")
  else
    let r := c_radius c in
    let* a := ndiv (r * r - c_radius o * c_radius o + d * d) (nofZ 2 * d) in
    let* h := math_sqrt (r * r - a * a) in
    let* v := from_points (c_point c) (c_point o) in
    let* v1 := vmuls a v in
    let* v2 := vdivs v1 d in
    let* m := vadd (c_point c) v2 in
    match m, c_point c, c_point o with
    | [m0; m1], [x1; y1], [x2; y2] =>
        let coord pm delta := ndiv (pm * h * delta) d in
        let* dx0 := coord n1 (y1 - y2) in
        let* dx1 := coord (nofZ (-1)) (y1 - y2) in
        let* dy0 := coord n1 (x1 - x2) in
        let* dy1 := coord (nofZ (-1)) (x1 - x2) in
        let* pa := point_of [m0 + dx0; m1 - dy0] in
        let* pb := point_of [m0 + dx1; m1 - dy1] in
        Ok (pa, pb)
    | _, _, _ => Raise (ValueError "The point must be 2D.")
    end.

(** circle.py 298-401 [Circle.intersect_line] *)
Definition circle_intersect_line (c : ball) (l : line N) : res (vec N * vec N) :=
  let* u := unit_vec (l_dir l) in
  let* point_2 := vadd (l_point l) u in
  let* t1 := vsub (l_point l) (c_point c) in
  let* t2 := vsub point_2 (c_point c) in
  match t1, t2 with
  | [x_1; y_1], [x_2; y_2] =>
      let d_x := x_2 - x_1 in
      let d_y := y_2 - y_1 in
      let d_r_squared := d_x * d_x + d_y * d_y in
      let determinant := x_1 * y_2 - x_2 * y_1 in
      let discriminant := c_radius c * c_radius c * d_r_squared - determinant * determinant in
      if discriminant <? n0 then Raise (ValueError "The line does not intersect the circle.")
      else
        let* root := math_sqrt discriminant in
        let sign := if d_y <? n0 then nofZ (-1) else n1 in
        let coord_x mp := ndiv (determinant * d_y + mp * sign * d_x * root) d_r_squared in
        let coord_y mp := ndiv (nopp determinant * d_x + mp * nabs d_y * root) d_r_squared in
        let* xa := coord_x (nofZ (-1)) in
        let* xb := coord_x n1 in
        let* ya := coord_y (nofZ (-1)) in
        let* yb := coord_y n1 in
        let* ta := point_of [xa; ya] in
        let* tb := point_of [xb; yb] in
        let* pa := vadd ta (c_point c) in
        let* pb := vadd tb (c_point c) in
        Ok (pa, pb)
  | _, _ => Raise (ValueError "too many values to unpack (expected 2)")
  end.

(** The design matrix and right-hand side shared by both best_fit methods:
    A = hstack((2 * points, ones)), b = (points**2).sum(axis=1). *)
Definition fit_matrix (points : list (vec N)) : list (vec N) :=
  map (fun r => vscale (nofZ 2) r ++ [n1])%list points.
Definition fit_rhs (points : list (vec N)) : vec N :=
  map (fun r => nsum (map nsq r)) points.

(** circle.py 404-464 [Circle.best_fit] *)
Definition circle_best_fit (LA : linalg N) (points : list (vec N)) : res ball :=
  let* ps := points_of points in
  if negb (Nat.eqb (dim2 ps) 2) then Raise (ValueError "The points must be 2D.")
  else if Nat.ltb (length ps) 3 then Raise (ValueError "There must be at least 3 points.")
  else let* rank := affine_rank LA None ps in
  if negb (Nat.eqb rank 2) then Raise (ValueError "The points must not be collinear.")
  else let* c := la_lstsq LA (fit_matrix ps) (fit_rhs ps) in
  match c with
  | [c0; c1; c2] =>
      let* radius := np_sqrt (c2 + c0 * c0 + c1 * c1) in
      circle_new [c0; c1] radius
  | _ => Raise (IndexError "index out of bounds")
  end.

(** sphere.py 187-244 [Sphere.best_fit] *)
Definition sphere_best_fit (LA : linalg N) (points : list (vec N)) : res ball :=
  let* ps := points_of points in
  if negb (Nat.eqb (dim2 ps) 3) then Raise (ValueError "The points must be 3D.")
  else if Nat.ltb (length ps) 4 then Raise (ValueError "There must be at least 4 points.")
  else let* rank := affine_rank LA None ps in
  if negb (Nat.eqb rank 3) then Raise (ValueError "The points must not be in a plane.")
  else let* c := la_lstsq LA (fit_matrix ps) (fit_rhs ps) in
  match c with
  | [c0; c1; c2; c3] =>
      let* radius := np_sqrt (dot_raw [c0; c1; c2] [c0; c1; c2] + c3) in
      sphere_new [c0; c1; c2] radius
  | _ => Raise (IndexError "index out of bounds")
  end.

(** sphere.py 135-184 [Sphere.intersect_line] *)
Definition sphere_intersect_line (c : ball) (l : line N) : res (vec N * vec N) :=
  let* vector_to_line := from_points (c_point c) (l_point l) in
  let* u := unit_vec (l_dir l) in
  let* dot := np_dot u vector_to_line in
  let* n := norm vector_to_line in
  let discriminant := dot * dot - (n * n - c_radius c * c_radius c) in
  if discriminant <? n0 then Raise (ValueError "The line does not intersect the sphere.")
  else let* r := math_sqrt discriminant in
       let da := nopp dot + nofZ (-1) * r in
       let db := nopp dot + n1 * r in
       let* ra := bcast nadd (l_point l) (vscale da u) in
       let* rb := bcast nadd (l_point l) (vscale db u) in
       let* pa := point_of ra in
       let* pb := point_of rb in
       Ok (pa, pb).

(** np.outer *)
Definition outer (a b : vec N) : list (vec N) := map (fun x => map (fun y => x * y) b) a.
(** c + r * M element-wise *)
Definition mesh_affine (c r : N) (M : list (vec N)) : list (vec N) :=
  map (map (fun m => c + r * m)) M.

(** sphere.py 246-301 [to_mesh] *)
Definition sphere_to_mesh (T : Trig N) (c : ball) (n_angles : nat) : res (list (vec N) * list (vec N) * list (vec N)) :=
  let* angles_a := linspace n0 (tpi T) n_angles in
  let* angles_b := linspace n0 (nofZ 2 * tpi T) n_angles in
  let sin_a := map (tsin T) angles_a in
  let cos_a := map (tcos T) angles_a in
  let sin_b := map (tsin T) angles_b in
  let cos_b := map (tcos T) angles_b in
  let ones := map (fun _ => n1) angles_b in
  match c_point c with
  | [p0; p1; p2] =>
      Ok (mesh_affine p0 (c_radius c) (outer sin_a sin_b),
          mesh_affine p1 (c_radius c) (outer sin_a cos_b),
          mesh_affine p2 (c_radius c) (outer cos_a ones))
  | _ => Raise (IndexError "index out of bounds")
  end.

(** _mixins.py 14-54 *)
Definition sphere_to_points (T : Trig N) (c : ball) (n_angles : nat) : res (list (vec N)) :=
  to_points_gen (sphere_to_mesh T c n_angles).

End Sphere.
Arguments ball : clear implicits.
