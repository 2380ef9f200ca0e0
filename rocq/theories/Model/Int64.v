(** * Integer inputs: numpy int64 arithmetic

    An array of Python ints becomes an int64 array; sums, differences and products of such arrays wrap
    around silently.  Divisions, norms and math.isclose convert to float; that conversion is modelled as
    exact (it maps a non-zero integer to a non-zero float of the same sign). *)
From Coq Require Import String Reals ZArith List Bool.
From Verif.Model Require Import Outcome Num Instances Numpy BaseArray.
Import ListNotations.
Local Open Scope Z_scope.

(** The int64 with the given residue modulo 2^64. *)
Definition wrap64 (z : Z) : Z := (z + 2 ^ 63) mod 2 ^ 64 - 2 ^ 63.
Definition iadd (a b : Z) : Z := wrap64 (a + b).
Definition isub (a b : Z) : Z := wrap64 (a - b).
Definition imul (a b : Z) : Z := wrap64 (a * b).

(** ndarray.dot of two int64 arrays of the same length. *)
Fixpoint idot (a b : list Z) : Z :=
  match a, b with
  | x :: a', y :: b' => iadd (imul x y) (idot a' b')
  | _, _ => 0
  end.
Definition ivdot (a b : list Z) : res Z :=
  if Nat.eqb (length a) (length b) then Ok (idot a b) else Raise err_aligned.
(** Float conversion of an int64. *)
Definition tofloat (z : Z) : RNum := IZR z.

(** vector.py 71-101 [from_points]: np.subtract(point_b, point_a) (same shape). *)
Definition ifrom_points (a b : list Z) : res (list Z) :=
  if Nat.eqb (length a) (length b) then Ok (map (fun p => isub (snd p) (fst p)) (combine a b)) else Raise err_broadcast.
(** vector.py 103-133 [norm]: np.linalg.norm converts to float first. *)
Definition inorm (v : list Z) : RNum := norm_raw (map tofloat v).
(** point.py 65-96 [distance_point] *)
Definition idistance (a b : list Z) : res RNum := let* v := ifrom_points a b in Ok (inorm v).
(** vector.py 180-211 [is_zero] *)
Definition iis_zero (t : tol RNum) (v : list Z) : res bool := isclose t (tofloat (idot v v)) (tofloat 0).
(** vector.py 466-506 [is_perpendicular] *)
Definition iis_perpendicular (t : tol RNum) (v other : list Z) : res bool :=
  let* d := ivdot v other in isclose t (tofloat d) (tofloat 0).
(** vector.py 564-632 [side_vector]: np.cross of the padded vectors, third component. *)
Definition iside_vector (v other : list Z) : res Z :=
  match v, other with
  | [v1; v2], [o1; o2] => Ok (Z.sgn (isub (imul o1 v2) (imul o2 v1)))
  | _, _ => Raise (ValueError "The vectors must be 2D.")
  end.
(** vector.py 213-248 [cross], both vectors 3D. *)
Definition icross (v other : list Z) : res (list Z) :=
  match v, other with
  | [a1; a2; a3], [b1; b2; b3] =>
      Ok [isub (imul a2 b3) (imul a3 b2); isub (imul a3 b1) (imul a1 b3); isub (imul a1 b2) (imul a2 b1)]
  | _, _ => Raise (ValueError "The desired dimension cannot be less than the current dimension.")
  end.
(** vector.py 669-700 [project_vector]: self.dot(other) / self.dot(self) * self; numpy's true division. *)
Definition iproject_vector (v other : list Z) : res (list RNum) :=
  let* d := ivdot v other in
  let* q := ndiv (tofloat d) (tofloat (idot v v)) in
  Ok (map (fun x => nmul q (tofloat x)) v).
(** _base_line_plane.py 17-27 [Line]/[Plane] from integer point and vector. *)
Definition iline_new (point vector : list Z) : res (list Z * list Z) :=
  match point, vector with
  | [], _ => Raise err_empty
  | _, [] => Raise err_empty
  | _, _ =>
    if negb (Nat.eqb (length point) (length vector)) then Raise (ValueError "The point and vector must have the same dimension.")
    else let* z := iis_zero tol_default vector in
         if z then Raise (ValueError "The vector must not be the zero vector.") else Ok (point, vector)
  end.
(** measurement.py 103-162 [area_signed] of 2D integer points, at least three. *)
Fixpoint iarea_terms (px py : Z) (ps : list (Z * Z)) : Z :=
  match ps with
  | [] => 0
  | (x, y) :: r => iadd (isub (imul px y) (imul x py)) (iarea_terms x y r)
  end.
Definition iarea_signed (ps : list (Z * Z)) : res RNum :=
  if Nat.ltb (length ps) 3 then Raise (ValueError "There must be at least 3 points.")
  else let (lx, ly) := last ps (0, 0) in Ok (nmul (ndyad 1 1) (tofloat (iarea_terms lx ly ps))).
