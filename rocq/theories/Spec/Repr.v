(** * Specification of [repr]: reading a constructor call back, and evaluating it

    A text [Name(k1=t1, k2=t2, ...)] is read as the name and the list of keyword arguments; commas and closing parentheses
    inside brackets belong to the argument.  Evaluation calls the class constructor of that name with the arguments decoded. *)
From Coq Require Import String Ascii List.
From Verif.Model Require Import Outcome Num Numpy BaseArray Line Plane LineSegment Sphere Triangle Cylinder Plotter.
Import ListNotations.
Local Open Scope string_scope.

Definition opening (c : ascii) : bool := Ascii.eqb c "("%char || Ascii.eqb c "["%char.
Definition closing (c : ascii) : bool := Ascii.eqb c ")"%char || Ascii.eqb c "]"%char.

(** Up to the first occurrence of [c], and the rest behind it. *)
Fixpoint cut (c : ascii) (s : string) : option (string * string) :=
  match s with
  | EmptyString => None
  | String x r => if Ascii.eqb x c then Some ("", r) else match cut c r with Some (a, b) => Some (String x a, b) | None => None end
  end.
(** The arguments of a call, [s] being the text behind the opening parenthesis: split at the commas outside brackets; the text ends with
    the closing parenthesis of the call. [d] brackets are open, [cur] is the current argument so far. *)
Fixpoint args (cur : string) (d : nat) (s : string) : option (list string) :=
  match s with
  | EmptyString => None
  | String c r =>
      if opening c then args (cur ++ String c "") (S d) r
      else if closing c then
        match d with
        | S d' => args (cur ++ String c "") d' r
        | O => if Ascii.eqb c ")"%char then match r with "" => Some [cur] | _ => None end else None
        end
      else match d with
        | O => if Ascii.eqb c ","%char
               then match r with String " " r' => option_map (cons cur) (args "" 0 r') | _ => None end
               else args (cur ++ String c "") 0 r
        | S _ => args (cur ++ String c "") d r
        end
  end.
Fixpoint all_some {A} (l : list (option A)) : option (list A) :=
  match l with [] => Some [] | x :: r => match x, all_some r with Some a, Some b => Some (a :: b) | _, _ => None end end.
Definition read (s : string) : option (string * list (string * string)) :=
  match cut "("%char s with
  | Some (name, rest) =>
      match args "" 0 rest with
      | Some l => option_map (pair name) (all_some (map (cut "="%char) l))
      | None => None
      end
  | None => None
  end.

(** Texts that can stand as an argument: every bracket is closed, no comma outside brackets. *)
Fixpoint closed (d : nat) (s : string) : bool :=
  match s with
  | EmptyString => Nat.eqb d 0
  | String c r =>
      if opening c then closed (S d) r
      else if closing c then match d with S d' => closed d' r | O => false end
      else match d with O => negb (Ascii.eqb c ","%char) && closed 0 r | S _ => closed d r end
  end.

Section Eval.
Context {N : Num}.
(** The objects the class constructors return. *)
Inductive constructed (LA : linalg N) : obj N -> Prop :=
| c_line p d l : line_new p d = Ok l -> constructed LA (OLine l)
| c_plane p n l : plane_new p n = Ok l -> constructed LA (OPlane l)
| c_segment a b s : segment_new a b = Ok s -> constructed LA (OSegment s)
| c_circle p r c : circle_new p r = Ok c -> constructed LA (OCircle c)
| c_sphere p r c : sphere_new p r = Ok c -> constructed LA (OSphere c)
| c_triangle a b c t : triangle_new LA a b c = Ok t -> constructed LA (OTriangle t)
| c_cylinder p v r c : cylinder_new p v r = Ok c -> constructed LA (OCylinder c).

(** Evaluating the text: [dv], [dn] decode arrays and numbers. *)
Variable dv : string -> option (vec N).
Variable dn : string -> option N.
Definition eval (LA : linalg N) (text : string) : option (res (obj N)) :=
  match read text with
  | Some ("Line", [("point", p); ("direction", d)]) =>
      match dv p, dv d with Some p, Some d => Some (res_map OLine (line_new p d)) | _, _ => None end
  | Some ("Plane", [("point", p); ("normal", n)]) =>
      match dv p, dv n with Some p, Some n => Some (res_map OPlane (plane_new p n)) | _, _ => None end
  | Some ("LineSegment", [("point_a", a); ("point_b", b)]) =>
      match dv a, dv b with Some a, Some b => Some (res_map OSegment (segment_new a b)) | _, _ => None end
  | Some ("Circle", [("point", p); ("radius", r)]) =>
      match dv p, dn r with Some p, Some r => Some (res_map OCircle (circle_new p r)) | _, _ => None end
  | Some ("Sphere", [("point", p); ("radius", r)]) =>
      match dv p, dn r with Some p, Some r => Some (res_map OSphere (sphere_new p r)) | _, _ => None end
  | Some ("Triangle", [("point_a", a); ("point_b", b); ("point_c", c)]) =>
      match dv a, dv b, dv c with Some a, Some b, Some c => Some (res_map OTriangle (triangle_new LA a b c)) | _, _, _ => None end
  | Some ("Cylinder", [("point", p); ("vector", v); ("radius", r)]) =>
      match dv p, dv v, dn r with Some p, Some v, Some r => Some (res_map OCylinder (cylinder_new p v r)) | _, _, _ => None end
  | _ => None
  end.
End Eval.

Section Shown.
Context {N : Num}.
(** [pv], [pn]: the texts of an array (with its class name) and of a number. *)
Variable pv : string -> vec N -> string.
Variable pn : N -> string.
(** The keyword arguments shown: one per constructor parameter, in order. *)
Definition shown (o : obj N) : list (string * string) :=
  match o with
  | OLine l => [("point", pv "Point" (l_point l)); ("direction", pv "Vector" (l_dir l))]
  | OPlane p => [("point", pv "Point" (pl_point p)); ("normal", pv "Vector" (pl_normal p))]
  | OSegment s => [("point_a", pv "Point" (s_a s)); ("point_b", pv "Point" (s_b s))]
  | OCircle c | OSphere c => [("point", pv "Point" (c_point c)); ("radius", pn (c_radius c))]
  | OTriangle t => [("point_a", pv "Point" (t_a t)); ("point_b", pv "Point" (t_b t)); ("point_c", pv "Point" (t_c t))]
  | OCylinder c => [("point", pv "Point" (cy_point c)); ("vector", pv "Vector" (cy_vector c)); ("radius", pn (cy_radius c))]
  | _ => []
  end.
Definition class_name (o : obj N) : string :=
  match o with
  | OPoint _ => "Point" | OPoints _ => "Points" | OVector _ => "Vector" | OLine _ => "Line" | OSegment _ => "LineSegment" | OPlane _ => "Plane"
  | OCircle _ => "Circle" | OSphere _ => "Sphere" | OTriangle _ => "Triangle" | OCylinder _ => "Cylinder"
  end.
Definition composite (o : obj N) : Prop := match o with OPoint _ | OPoints _ | OVector _ => False | _ => True end.

End Shown.
