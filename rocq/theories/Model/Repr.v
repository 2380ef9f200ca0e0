(** * The [__repr__] methods of the composite objects *)
From Coq Require Import String List.
From Verif.Model Require Import Outcome Num Numpy BaseArray Line Plane LineSegment Sphere Triangle Cylinder Plotter.
Local Open Scope string_scope.

Section Repr.
Context {N : Num}.
(** [np.array_repr] of a Point or Vector (class name, data) and the formatting of a number in an f-string; numpy and Python code,
    left as parameters. *)
Variable array_repr : string -> vec N -> string.
Variable number_str : N -> string.

(** _base_line_plane.py 29-36: [type(self).__name__], and the last parameter of the constructor (line.py 84: direction; plane.py 85: normal) *)
Definition line_plane_repr (name_class name_vector : string) (point vector : vec N) : string :=
  name_class ++ "(point=" ++ array_repr "Point" point ++ ", " ++ name_vector ++ "=" ++ array_repr "Vector" vector ++ ")".
Definition line_repr (l : line N) : string := line_plane_repr "Line" "direction" (l_point l) (l_dir l).
Definition plane_repr (p : plane N) : string := line_plane_repr "Plane" "normal" (pl_point p) (pl_normal p).
(** line_segment.py 60-64 *)
Definition segment_repr (s : segment N) : string :=
  "LineSegment(point_a=" ++ array_repr "Point" (s_a s) ++ ", point_b=" ++ array_repr "Point" (s_b s) ++ ")".
(** _base_sphere.py 26-31 *)
Definition ball_repr (name_class : string) (c : ball N) : string :=
  name_class ++ "(point=" ++ array_repr "Point" (c_point c) ++ ", radius=" ++ number_str (c_radius c) ++ ")".
(** triangle.py 77-82 *)
Definition triangle_repr (t : triangle N) : string :=
  "Triangle(point_a=" ++ array_repr "Point" (t_a t) ++ ", point_b=" ++ array_repr "Point" (t_b t) ++ ", point_c=" ++ array_repr "Point" (t_c t) ++ ")".
(** cylinder.py 118-122 *)
Definition cylinder_repr (c : cylinder N) : string :=
  "Cylinder(point=" ++ array_repr "Point" (cy_point c) ++ ", vector=" ++ array_repr "Vector" (cy_vector c) ++ ", radius=" ++ number_str (cy_radius c) ++ ")".
(** [repr(o)].  Point and Vector inherit numpy's [ndarray.__repr__], which is [array_repr]; Points (2D data) is not modelled (None). *)
Definition obj_repr (o : obj N) : option string :=
  match o with
  | OPoint p => Some (array_repr "Point" p)
  | OPoints _ => None
  | OVector v => Some (array_repr "Vector" v)
  | OLine l => Some (line_repr l)
  | OSegment s => Some (segment_repr s)
  | OPlane p => Some (plane_repr p)
  | OCircle c => Some (ball_repr "Circle" c)
  | OSphere c => Some (ball_repr "Sphere" c)
  | OTriangle t => Some (triangle_repr t)
  | OCylinder c => Some (cylinder_repr c)
  end.
End Repr.
