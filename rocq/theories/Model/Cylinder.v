(** * objects/cylinder.py *)
From Coq Require Import String ZArith List Bool.
From Verif.Model Require Import Outcome Num Numpy BaseArray Vector Points Functions Line Plane Sphere.
Import ListNotations.
Local Open Scope string_scope.

Section Cylinder.
Context {N : Num}.
Local Open Scope num_scope.

(** cylinder.py 23-116: a Cylinder object (point, vector, radius). *)
Record cylinder : Type := MkCylinder { cy_point : vec N; cy_vector : vec N; cy_radius : N }.

(** cylinder.py 98-116 [__init__] *)
Definition cylinder_new (point vector : vec N) (radius : N) : res cylinder :=
  let* p := point_of point in
  let* v := vector_of vector in
  if negb (Nat.eqb (dim1 p) 3) then Raise (ValueError "The point must be 3D.")
  else if negb (Nat.eqb (dim1 v) 3) then Raise (ValueError "The vector must be 3D.")
  else let* z := is_zero tol_default v in
  if z then Raise (ValueError "The vector must not be the zero vector.")
  else if negb (n0 <? radius) then Raise (ValueError "The radius must be positive.")
  else Ok (MkCylinder p v radius).

(** cylinder.py 125-154 [from_points] *)
Definition cylinder_from_points (point_a point_b : vec N) (radius : N) : res cylinder :=
  let* ab := from_points point_a point_b in cylinder_new point_a ab radius.

(** cylinder.py 156-181, 183-206, 208-233, 235-261 *)
Definition cylinder_length (c : cylinder) : N := norm_raw (cy_vector c).
Definition cylinder_lateral_surface_area (T : Trig N) (c : cylinder) : N :=
  nofZ 2 * tpi T * cy_radius c * cylinder_length c.
Definition cylinder_surface_area (T : Trig N) (c : cylinder) : N :=
  cylinder_lateral_surface_area T c + nofZ 2 * tpi T * (cy_radius c * cy_radius c).
Definition cylinder_volume (T : Trig N) (c : cylinder) : N :=
  tpi T * (cy_radius c * cy_radius c) * cylinder_length c.

(** cylinder.py 698-703 [_between_cap_planes]: 0 <= d <= d <= length *)
Definition between_cap_planes (c : cylinder) (point : vec N) : res bool :=
  let* plane_base := plane_new (cy_point c) (cy_vector c) in
  let* d := plane_distance_point_signed plane_base point in
  Ok ((n0 <=? d) && (d <=? d) && (d <=? cylinder_length c)).

(** cylinder.py 263-308 [is_point_within] *)
Definition cylinder_is_point_within (c : cylinder) (point : vec N) : res bool :=
  let* line_axis := line_new (cy_point c) (cy_vector c) in
  let* distance_to_axis := line_distance_point line_axis point in
  let within_radius := distance_to_axis <=? cy_radius c in
  let* between := between_cap_planes c point in
  Ok (within_radius && between).

(** The message of cylinder.py 727 and 775. *)
Definition err_no_intersect : exn := ValueError "The line does not intersect the cylinder.".

(** x - x.dot(v) * v, used three times in cylinder.py 720-722 *)
Definition reject (x v : vec N) : res (vec N) :=
  let* d := np_dot x v in
  let* w := vmuls d v in
  vsub x w.

(** cylinder.py 706-731 [_intersect_line_with_infinite_cylinder] *)
Definition intersect_infinite (c : cylinder) (l : line N) (n_digits : option Z) : res (vec N * vec N) :=
  let p_c := cy_point c in
  let* v_c := unit_vec (cy_vector c) in
  let r := cy_radius c in
  let p_l := l_point l in
  let* v_l := unit_vec (l_dir l) in
  let* delta_p := from_points p_c p_l in
  let* rv := reject v_l v_c in
  let* rp := reject delta_p v_c in
  let* na := norm rv in
  let a := na * na in
  let* dvp := np_dot rv rp in
  let b := nofZ 2 * dvp in
  let* np := norm rp in
  let q := np * np - r * r in
  match solve_quadratic a b q n_digits with
  | Raise e => if is_value_error e then Raise err_no_intersect else Raise e
  | NonFinite => NonFinite
  | Ok (x1, x2) =>
      let* ra := bcast nadd p_l (vscale x1 v_l) in
      let* rb := bcast nadd p_l (vscale x2 v_l) in
      let* pa := point_of ra in
      let* pb := point_of rb in
      Ok (pa, pb)
  end.

(** cylinder.py 737-743 [_intersect_cap] *)
Definition intersect_cap (c : cylinder) (l : line N) (plane_cap : plane N) : res (option (vec N)) :=
  match plane_intersect_line tol_default plane_cap l with
  | Raise e => if is_value_error e then Ok None else Raise e
  | NonFinite => NonFinite
  | Ok p => let* d := distance_point p (pl_point plane_cap) in
            Ok (if d <=? cy_radius c then Some p else None)
  end.

(** cylinder.py 734-752 [_intersect_line_with_caps] *)
Definition intersect_caps (c : cylinder) (l : line N) : res (option (vec N) * option (vec N)) :=
  let* plane_base := plane_new (cy_point c) (cy_vector c) in
  let* top := vadd (cy_point c) (cy_vector c) in
  let* plane_top := plane_new top (cy_vector c) in
  let* point_base := intersect_cap c l plane_base in
  let* point_top := intersect_cap c l plane_top in
  Ok (point_base, point_top).

(** cylinder.py 755-777 [_intersect_line_with_finite_cylinder] *)
Definition intersect_finite (c : cylinder) (l : line N) (n_digits : option Z) : res (vec N * vec N) :=
  let* (point_base, point_top) := intersect_caps c l in
  match point_base, point_top with
  | Some b, Some t => Ok (b, t)
  | _, _ =>
      let* (point_a, point_b) := intersect_infinite c l n_digits in
      let fallback := match point_base with Some b => Some b | None => point_top end in
      let* ba := between_cap_planes c point_a in
      let oa := if ba then Some point_a else fallback in
      let* bb := between_cap_planes c point_b in
      let ob := if bb then Some point_b else fallback in
      match oa, ob with
      | Some a, Some b => Ok (a, b)
      | _, _ => Raise err_no_intersect
      end
  end.

(** cylinder.py 310-409 [intersect_line] *)
Definition cylinder_intersect_line (c : cylinder) (l : line N) (n_digits : option Z) (infinite : bool) : res (vec N * vec N) :=
  if negb (Nat.eqb (line_dim l) 3) then Raise (ValueError "The line must be 3D.")
  else if infinite then intersect_infinite c l n_digits
  else intersect_finite c l n_digits.

(** cylinder.py 411-478 [to_mesh] *)
Definition cylinder_to_mesh (T : Trig N) (c : cylinder) (n_along_axis n_angles : nat)
  : res (list (vec N) * list (vec N) * list (vec N)) :=
  let* v_axis := unit_vec (cy_vector c) in
  let* v_diff := different_direction tol_default v_axis in
  let* c1 := cross v_axis v_diff in
  let* u_1 := unit_vec c1 in
  let* c2 := cross v_axis u_1 in
  let* u_2 := unit_vec c2 in
  let* ts := linspace n0 (cylinder_length c) n_along_axis in
  let* thetas := linspace n0 (nofZ 2 * tpi T) n_angles in
  let (t, theta) := meshgrid ts thetas in
  let coord i :=
    mesh2 (fun t th => nth i (cy_point c) n0 + nth i v_axis n0 * t
                       + cy_radius c * tsin T th * nth i u_1 n0
                       + cy_radius c * tcos T th * nth i u_2 n0) t theta in
  Ok (coord 0%nat, coord 1%nat, coord 2%nat).

(** _mixins.py 14-54 *)
Definition cylinder_to_points (T : Trig N) (c : cylinder) (n_along_axis n_angles : nat) : res (list (vec N)) :=
  to_points_gen (cylinder_to_mesh T c n_along_axis n_angles).

(** ** best_fit (cylinder.py 480-639) *)

(** numpy: matrix times vector, matrix product, sum, trace, of 3x3 arrays. *)
Definition matvec (m : list (vec N)) (v : vec N) : vec N := map (fun r => dot_raw r v) m.
Definition matmul (a b : list (vec N)) : list (vec N) :=
  map (fun r => map (fun j => dot_raw r (column j b)) (seq 0 (dim2 b))) a.
Definition madd (a b : list (vec N)) : list (vec N) := mesh2 nadd a b.
Definition trace3 (m : list (vec N)) : N :=
  nth 0 (nth 0 m []) n0 + nth 1 (nth 1 m []) n0 + nth 2 (nth 2 m []) n0.

(** cylinder.py 551-552 *)
Definition projection_matrix (d : vec N) : list (vec N) :=
  mesh2 nsub [[n1; n0; n0]; [n0; n1; n0]; [n0; n0; n1]] (outer d d).

(** cylinder.py 554-561 *)
Definition skew_matrix (d : vec N) : list (vec N) :=
  let d0 := nth 0 d n0 in let d1 := nth 1 d n0 in let d2 := nth 2 d n0 in
  [[n0; nopp d2; d1]; [d2; n0; nopp d0]; [nopp d1; d0; n0]].

(** cylinder.py 563-564 *)
Definition a_matrix (samples : list (vec N)) : list (vec N) :=
  fold_right (fun s acc => madd (outer s s) acc) [zeros 3; zeros 3; zeros 3] samples.

(** cylinder.py 566-567 *)
Definition a_hat_matrix (a skew : list (vec N)) : list (vec N) :=
  matmul skew (matmul a (transpose 3 skew)).

(** The quantities shared by 569-580 and 582-594: input samples and the vector
    a_hat . sum (s.s) s / trace(a_hat . a). *)
Definition fit_samples (direction : vec N) (points : list (vec N)) : list (vec N) :=
  map (matvec (projection_matrix direction)) points.
Definition fit_center (direction : vec N) (points : list (vec N)) : res (vec N) :=
  let samples := fit_samples direction points in
  let a := a_matrix samples in
  let ah := a_hat_matrix a (skew_matrix direction) in
  let s := colsum 3 (map (fun x => vscale (dot_raw x x) x) samples) in
  let tr := trace3 (matmul ah a) in
  mapM (fun x => ndiv x tr) (matvec ah s).

(** cylinder.py 569-580 [_compute_g] *)
Definition compute_g (direction : vec N) (points : list (vec N)) : res N :=
  let samples := fit_samples direction points in
  let* u := ndiv (nsum (map (fun s => dot_raw s s) samples)) (nofZ (Z.of_nat (length points))) in
  let* v := fit_center direction points in
  Ok (nsum (map (fun s => nsq (dot_raw s s - u - nofZ 2 * dot_raw s v)) samples)).

(** cylinder.py 582-594 [_compute_center] *)
Definition compute_center (direction : vec N) (points : list (vec N)) : res (vec N) :=
  let* v := fit_center direction points in point_of v.

(** cylinder.py 596-602 [_compute_radius] *)
Definition compute_radius (direction : vec N) (points : list (vec N)) : res N :=
  let* center := compute_center direction points in
  let pm := projection_matrix direction in
  let sq := nsum (map (fun p => let d := map2 nsub center p in dot_raw d (matvec pm d)) points) in
  let* m := ndiv sq (nofZ (Z.of_nat (length points))) in
  np_sqrt m.

(** cylinder.py 604-612 [_cartesian_to_spherical]; 1e-9 is the double nearest to it. *)
Definition cartesian_to_spherical (T : Trig N) (x y z : N) : res (N * N) :=
  let* q := ndiv z (nsqrt (x * x + y * y + z * z)) in
  let* theta := np_arccos T q in
  let t := MkTol (rel_tol tol_default) (ndyad 4835703278458517 82) in
  let* cx := isclose t x n0 in
  let* cy := (if cx : bool then isclose t y n0 else Ok false) in
  if cy : bool then Ok (theta, n0)
  else let* qx := ndiv x (nsqrt (x * x + y * y)) in
       let* ac := np_arccos T qx in
       Ok (theta, nofZ (nsign y) * ac).

(** cylinder.py 614-618 [_spherical_to_cartesian] *)
Definition spherical_to_cartesian (T : Trig N) (theta phi : N) : res (vec N) :=
  vector_of [tcos T phi * tsin T theta; tsin T phi * tsin T theta; tcos T theta].

(** cylinder.py 542-549 [_compute_initial_direction] *)
Definition initial_direction (LA : linalg N) (T : Trig N) (points : list (vec N)) : res (N * N) :=
  let* l := line_best_fit LA None points in
  let* u := unit_vec (l_dir l) in
  match u with
  | [x; y; z] => cartesian_to_spherical T x y z
  | _ => Raise (TypeError "missing positional arguments")
  end.

(** scipy.optimize.minimize(method="Powell"): an oracle from objective and start to the final x. *)
Definition minimizer : Type := (N -> N -> res N) -> N * N -> res (N * N).

(** index of the first minimum, np.argmin *)
Fixpoint argmin_from (best : N) (ibest i : nat) (l : vec N) : nat :=
  match l with
  | [] => ibest
  | x :: l' => if x <? best then argmin_from x i (S i) l' else argmin_from best ibest (S i) l'
  end.
Definition argmin (l : vec N) : nat :=
  match l with [] => 0%nat | x :: l' => argmin_from x 0 1 l' end.

(** cylinder.py 529-540 [_best_fit]: direction, center and radius for the angles the optimiser
    returned. *)
Definition cylinder_fit_for (T : Trig N) (angles : N * N) (centered : list (vec N)) (c : vec N)
  : res (vec N * vec N * N) :=
  let* direction := spherical_to_cartesian T (fst angles) (snd angles) in
  let* center0 := compute_center direction centered in
  let* center := vadd center0 c in
  let* radius := compute_radius direction centered in
  Ok (direction, center, radius).

(** cylinder.py 620-639 [Cylinder.best_fit] *)
Definition cylinder_best_fit (LA : linalg N) (T : Trig N) (M : minimizer) (points : list (vec N)) : res cylinder :=
  let* ps := points_of points in
  if negb (Nat.eqb (dim2 ps) 3) then Raise (ValueError "The points must be 3D.")
  else if Nat.ltb (length ps) 6 then Raise (ValueError "There must be at least 6 points.")
  else let* cop := are_coplanar LA None ps in
  if cop then Raise (ValueError "The points must not be coplanar.")
  else let* (centered, c) := mean_center_c ps in
       let* x0 := initial_direction LA T centered in
       let* angles := M (fun th ph => let* d := spherical_to_cartesian T th ph in compute_g d centered) x0 in
       let* (unit_vector, center, radius) := cylinder_fit_for T angles centered c in
       let* axis := line_new center unit_vector in
       let* points_1d := line_transform_points axis ps in
       let* point_a := line_project_point axis (nth (argmin points_1d) ps []) in
       let* dd := distance_point point_a center in
       let length := dd * nofZ 2 in
       let* vector_ab := vmuls length unit_vector in
       cylinder_new point_a vector_ab radius.

End Cylinder.
Arguments cylinder : clear implicits.
