(** * objects/_base_spatial.py: plotter dispatch, and the coordinates handed to matplotlib *)
From Coq Require Import String ZArith List Bool.
From Verif.Model Require Import Outcome.
Import ListNotations.
Local Open Scope string_scope.

(** The public classes deriving from _BaseSpatial. *)
Inductive cls : Type := CPoint | CPoints | CVector | CLine | CLineSegment | CPlane | CCircle | CSphere | CTriangle | CCylinder.

(** Which classes define plot_2d / plot_3d: point.py 98,126; points.py 325,354; vector.py 759,796;
    line.py 787,828; line_segment.py 157,194; plane.py 855; circle.py 466; sphere.py 303;
    triangle.py 632,671; cylinder.py 641. *)
Definition has_plot_2d (c : cls) : bool :=
  match c with
  | CPoint | CPoints | CVector | CLine | CLineSegment | CCircle | CTriangle => true
  | CPlane | CSphere | CCylinder => false
  end.
Definition has_plot_3d (c : cls) : bool :=
  match c with
  | CPoint | CPoints | CVector | CLine | CLineSegment | CPlane | CSphere | CTriangle | CCylinder => true
  | CCircle => false
  end.
(** Classes whose constructor sets the attribute [dimension]; LineSegment.__init__
    (line_segment.py 53-58) does not, and the class annotation in _base_spatial.py 2 creates no value. *)
Definition sets_dimension (c : cls) : bool :=
  match c with CLineSegment => false | _ => true end.

(** _base_spatial.py 10, 16: the method [plotter] hands the axes to. *)
Inductive plot_call : Type := Plot2D | Plot3D.

(** _base_spatial.py 4-18 [plotter] for an object of class [c] whose coordinates have dimension [dim]. *)
Definition plotter (c : cls) (dim : nat) : res plot_call :=
  if negb (sets_dimension c)
  then Raise (AttributeError "'LineSegment' object has no attribute 'dimension'")
  else if Nat.eqb dim 2
  then if negb (has_plot_2d c) then Raise (ValueError "The object cannot be plotted in 2D.") else Ok Plot2D
  else if Nat.eqb dim 3
  then if negb (has_plot_3d c) then Raise (ValueError "The object cannot be plotted in 3D.") else Ok Plot3D
  else Raise (ValueError "The dimension must be 2 or 3.").

(** ** What the plotting methods hand to matplotlib *)
From Verif.Model Require Import Num Numpy BaseArray Vector Points Functions Line Plane LineSegment Sphere Triangle Cylinder.

Section Draw.
Context {N : Num}.
Local Open Scope num_scope.

(** One call on a matplotlib axes, with the coordinates passed; style keywords are not modelled.
    [Scatter2]/[Scatter3]: Axes.scatter; [Plot2]/[Plot3]: Axes.plot; [Arrow]: Axes.arrow;
    [CircleArtist]: add_artist(plt.Circle(...)); [Surface]: Axes3D.plot_surface. *)
Inductive draw : Type :=
| Scatter2 (xs ys : vec N)
| Scatter3 (xs ys zs : vec N)
| Plot2 (xs ys : vec N)
| Plot3 (xs ys zs : vec N)
| Arrow (x y dx dy : N)
| CircleArtist (center : vec N) (radius : N)
| Surface (X Y Z : list (vec N)).

(** item access point[i] (plotting.py 37, 63, 80-81, 108-110). *)
Definition get (v : vec N) (i : nat) : res N :=
  match nth_error v i with Some x => Ok x | None => Raise (IndexError "index out of bounds") end.
(** The message of plotting.py 60 and 106. *)
Definition err_axes3d : exn := ValueError "Axis must be instance of class Axes3D.".

(** plotting.py 22-37 [_scatter_2d] *)
Definition scatter_2d (points : list (vec N)) : res draw :=
  let* xs := mapM (fun r => get r 0) points in
  let* ys := mapM (fun r => get r 1) points in
  Ok (Scatter2 xs ys).
(** plotting.py 40-63 [_scatter_3d]; [ax3d]: the axes is an Axes3D. *)
Definition scatter_3d (ax3d : bool) (points : list (vec N)) : res draw :=
  if negb ax3d then Raise err_axes3d else
  let* xs := mapM (fun r => get r 0) points in
  let* ys := mapM (fun r => get r 1) points in
  let* zs := mapM (fun r => get r 2) points in
  Ok (Scatter3 xs ys zs).
(** plotting.py 66-83 [_connect_points_2d] *)
Definition connect_points_2d (a b : vec N) : res draw :=
  let* a0 := get a 0 in let* b0 := get b 0 in
  let* a1 := get a 1 in let* b1 := get b 1 in
  Ok (Plot2 [a0; b0] [a1; b1]).
(** plotting.py 86-112 [_connect_points_3d] *)
Definition connect_points_3d (ax3d : bool) (a b : vec N) : res draw :=
  if negb ax3d then Raise err_axes3d else
  let* a0 := get a 0 in let* b0 := get b 0 in
  let* a1 := get a 1 in let* b1 := get b 1 in
  let* a2 := get a 2 in let* b2 := get b 2 in
  Ok (Plot3 [a0; b0] [a1; b1] [a2; b2]).
(** ax_3d.plot_surface(X, Y, Z): a 2D Axes has no such method. *)
Definition surface (ax3d : bool) (mesh : res (list (vec N) * list (vec N) * list (vec N))) : res draw :=
  let* (X, Y, Z) := mesh in
  if negb ax3d then Raise (AttributeError "'Axes' object has no attribute 'plot_surface'") else Ok (Surface X Y Z).

(** The keyword arguments the plotting methods take themselves (all others go to matplotlib). *)
Record opts : Type := MkOpts {
  o_t1 : N; o_t2 : N;                     (* Line *)
  o_point : option (vec N); o_scalar : N; (* Vector; None: the default (0, 0) or (0, 0, 0) *)
  o_part : string;                        (* Triangle *)
  o_along : nat; o_angles : nat;          (* Cylinder, Sphere *)
  o_limx : vec N; o_limy : vec N          (* Plane *)
}.
(** The defaults of the signatures cited below. *)
Definition default_opts : opts := MkOpts n0 n1 None n1 "points" 100 30 [nopp n1; n1] [nopp n1; n1].

(** The classes exported by objects/__init__.py 3-14. *)
Inductive obj : Type :=
| OPoint (p : vec N) | OPoints (rows : list (vec N)) | OVector (v : vec N) | OLine (l : line N)
| OSegment (s : segment N) | OPlane (p : plane N) | OCircle (c : ball N) | OSphere (c : ball N)
| OTriangle (t : triangle N) | OCylinder (c : cylinder N).
(** [type(o)] *)
Definition obj_cls (o : obj) : cls :=
  match o with
  | OPoint _ => CPoint | OPoints _ => CPoints | OVector _ => CVector | OLine _ => CLine | OSegment _ => CLineSegment
  | OPlane _ => CPlane | OCircle _ => CCircle | OSphere _ => CSphere | OTriangle _ => CTriangle | OCylinder _ => CCylinder
  end.
(** The [dimension] attribute (for LineSegment, which has none, the dimension of its first point). *)
Definition obj_dim (o : obj) : nat :=
  match o with
  | OPoint p => dim1 p | OPoints rows => dim2 rows | OVector v => dim1 v | OLine l => line_dim l
  | OSegment s => dim1 (s_a s) | OPlane p => plane_dim p | OCircle c => dim1 (c_point c) | OSphere c => dim1 (c_point c)
  | OTriangle t => dim1 (t_a t) | OCylinder c => dim1 (cy_point c)
  end.

(** line.py 787-826 [plot_2d], 828-869 [plot_3d] *)
Definition line_plot_2d (p : opts) (l : line N) : res draw :=
  let* a := line_to_point l (o_t1 p) in let* b := line_to_point l (o_t2 p) in connect_points_2d a b.
Definition line_plot_3d (p : opts) (ax3d : bool) (l : line N) : res draw :=
  let* a := line_to_point l (o_t1 p) in let* b := line_to_point l (o_t2 p) in connect_points_3d ax3d a b.
(** vector.py 759-794 [plot_2d], 796-834 [plot_3d] *)
Definition err_unpack : exn := ValueError "values to unpack (expected 2)".
Definition vector_plot_2d (p : opts) (v : vec N) : res draw :=
  match (match o_point p with None => [n0; n0] | Some q => q end) with
  | [x; y] => match vscale (o_scalar p) v with [dx; dy] => Ok (Arrow x y dx dy) | _ => Raise err_unpack end
  | _ => Raise err_unpack
  end.
Definition vector_plot_3d (p : opts) (ax3d : bool) (v : vec N) : res draw :=
  let point := match o_point p with None => [n0; n0; n0] | Some q => q end in
  let* point_2 := bcast nadd point (vscale (o_scalar p) v) in
  connect_points_3d ax3d point point_2.
(** triangle.py 632-669 [plot_2d], 671-708 [plot_3d]; keyword arguments other than [part] are passed on,
    to the points' or lines' methods. *)
Definition triangle_plot (T : Trig N) (p : opts) (plot_point : vec N -> res draw) (plot_line : line N -> res draw) (t : triangle N) : res (list draw) :=
  if String.eqb (o_part p) "points" then
    let* vs := triangle_multiple T t "point" ["A"; "B"; "C"] in
    mapM (fun v => match v with VPoint q => plot_point q | _ => Raise (AttributeError "no plot method") end) vs
  else if String.eqb (o_part p) "lines" then
    let* vs := triangle_multiple T t "line" ["a"; "b"; "c"] in
    mapM (fun v => match v with VLine l => plot_line l | _ => Raise (AttributeError "no plot method") end) vs
  else Ok [].
Definition one (r : res draw) : res (list draw) := let* d := r in Ok [d].

(** The plot_2d methods: point.py 98-124, points.py 325-352, vector.py 759-794, line.py 787-826,
    line_segment.py 157-192, circle.py 466-498, triangle.py 632-669. *)
Definition obj_plot_2d (T : Trig N) (p : opts) (o : obj) : res (list draw) :=
  match o with
  | OPoint q => one (scatter_2d [q])
  | OPoints rows => one (scatter_2d rows)
  | OVector v => one (vector_plot_2d p v)
  | OLine l => one (line_plot_2d p l)
  | OSegment s => one (connect_points_2d (s_a s) (s_b s))
  | OCircle c => Ok [CircleArtist (c_point c) (c_radius c)]
  | OTriangle t => triangle_plot T p (fun q => scatter_2d [q]) (line_plot_2d p) t
  | OPlane _ | OSphere _ | OCylinder _ => Raise (AttributeError "no attribute 'plot_2d'")
  end.
(** The plot_3d methods: point.py 126-155, points.py 354-384, vector.py 796-834, line.py 828-869,
    line_segment.py 194-230, plane.py 855-891, sphere.py 303-335, triangle.py 671-708, cylinder.py 641-677. *)
Definition obj_plot_3d (T : Trig N) (p : opts) (ax3d : bool) (o : obj) : res (list draw) :=
  match o with
  | OPoint q => one (scatter_3d ax3d [q])
  | OPoints rows => one (scatter_3d ax3d rows)
  | OVector v => one (vector_plot_3d p ax3d v)
  | OLine l => one (line_plot_3d p ax3d l)
  | OSegment s => one (connect_points_3d ax3d (s_a s) (s_b s))
  | OPlane pl => one (surface ax3d (plane_to_mesh pl (o_limx p) (o_limy p)))
  | OSphere c => one (surface ax3d (sphere_to_mesh T c (o_angles p)))
  | OTriangle t => triangle_plot T p (fun q => scatter_3d ax3d [q]) (line_plot_3d p ax3d) t
  | OCylinder c => one (surface ax3d (cylinder_to_mesh T c (o_along p) (o_angles p)))
  | OCircle _ => Raise (AttributeError "no attribute 'plot_3d'")
  end.

(** _base_spatial.py 4-18 [plotter]: the returned callable, as a function of the axes it is applied to. *)
Definition obj_plotter (T : Trig N) (p : opts) (o : obj) : res (bool -> res (list draw)) :=
  let* k := plotter (obj_cls o) (obj_dim o) in
  match k with
  | Plot2D => Ok (fun _ => obj_plot_2d T p o)
  | Plot3D => Ok (fun ax3d => obj_plot_3d T p ax3d o)
  end.

(** plotting.py 115-122 [plot_2d] ([ax3d] = false), 125-133 [plot_3d] ([ax3d] = true): the calls made on
    the fresh axes, in order. *)
Definition plot_all (ax3d : bool) (plotters : list (bool -> res (list draw))) : res (list draw) :=
  let* dss := mapM (fun f => f ax3d) plotters in Ok (concat dss).
End Draw.
Arguments draw : clear implicits.
Arguments obj : clear implicits.
Arguments opts : clear implicits.
