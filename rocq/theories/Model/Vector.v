(** * objects/vector.py *)
From Coq Require Import String ZArith List Bool.
From Verif.Model Require Import Outcome Num Numpy BaseArray.
Import ListNotations.
Local Open Scope string_scope.

Section Vector.
Context {N : Num}.
Local Open Scope num_scope.

(** vector.py 71-101 [Vector.from_points]: np.subtract then the Vector constructor. *)
Definition from_points (point_a point_b : vec N) : res (vec N) :=
  let* d := bcast nsub point_b point_a in vector_of d.

(** vector.py 103-133 [norm] (default keywords). *)
Definition norm (v : vec N) : res N := Ok (norm_raw v).

(** vector.py 135-178 [unit] *)
Definition unit_vec (v : vec N) : res (vec N) :=
  let* magnitude := norm v in
  if magnitude =? n0 then Raise (ValueError "The magnitude must not be zero.")
  else vdivs v magnitude.

(** vector.py 180-211 [is_zero] *)
Definition is_zero (t : tol N) (v : vec N) : res bool :=
  let* d := np_dot v v in isclose t d n0.

(** vector.py 213-248 [cross] *)
Definition cross (v other : vec N) : res (vec N) :=
  let* vector_a := set_dimension1 v 3 in
  let* o := vector_of other in
  let* vector_b := set_dimension1 o 3 in
  let* c := cross3 vector_a vector_b in
  vector_of c.

(** vector.py 250-304 [cosine_similarity] *)
Definition cosine_similarity (v other : vec N) : res N :=
  let* na := norm v in
  let* o := vector_of other in
  let* nb := norm o in
  let denom := na * nb in
  if denom =? n0 then Raise (ValueError "The vectors must have non-zero magnitudes.")
  else let* d := np_dot v other in
       let* cos_theta := ndiv d denom in
       Ok (nclip1 cos_theta).

(** vector.py 307-343 [angle_between] *)
Definition angle_between (T : Trig N) (v other : vec N) : res N :=
  let* cos_theta := cosine_similarity v other in math_acos T cos_theta.

(** vector.py 346-393 [angle_signed] *)
Definition angle_signed (T : Trig N) (v other : vec N) : res N :=
  let* o := vector_of other in
  if negb (Nat.eqb (dim1 v) 2 && Nat.eqb (dim1 o) 2)
  then Raise (ValueError "The vectors must be 2D.")
  else let* d := np_dot v other in
       match v, other with
       | [x1; y1], [x2; y2] => Ok (tatan2 T (det2 x1 y1 x2 y2) d)
       | _, _ => Raise (ValueError "The vectors must be 2D.")
       end.

(** vector.py 466-506 [is_perpendicular] *)
Definition is_perpendicular (t : tol N) (v other : vec N) : res bool :=
  let* d := np_dot v other in isclose t d n0.

(** vector.py 508-562 [is_parallel] *)
Definition is_parallel (t : tol N) (v other : vec N) : res bool :=
  let* z := por (is_zero t v) (let* o := vector_of other in is_zero t o) in
  if z then Ok true
  else let* similarity := cosine_similarity v other in isclose t (nabs similarity) n1.

(** vector.py 396-464 [angle_signed_3d] *)
Definition angle_signed_3d (T : Trig N) (v other direction_positive : vec N) : res N :=
  let* o := vector_of other in
  let* dp := vector_of direction_positive in
  if negb (Nat.eqb (dim1 v) 3 && Nat.eqb (dim1 o) 3 && Nat.eqb (dim1 dp) 3)
  then Raise (ValueError "The vectors must be 3D.")
  else let* c := cross v other in
       let* par := is_parallel tol_default c direction_positive in
       if negb par
       then Raise (ValueError "The positive direction vector must be perpendicular to the plane formed by the two main input vectors.")
       else let* u := unit_vec dp in
            let* y := np_dot c u in
            let* x := np_dot v other in
            Ok (tatan2 T y x).

(** vector.py 564-632 [side_vector] *)
Definition side_vector (v other : vec N) : res Z :=
  let* o := vector_of other in
  if negb (Nat.eqb (dim1 v) 2) || negb (Nat.eqb (dim1 o) 2)
  then Raise (ValueError "The vectors must be 2D.")
  else let* o3 := set_dimension1 o 3 in
       let* v3 := set_dimension1 v 3 in
       let* product := cross3 o3 v3 in
       int_sign (nth 2 product n0).

(** vector.py 634-667 [scalar_projection] *)
Definition scalar_projection (v other : vec N) : res N :=
  let* u := unit_vec v in np_dot u other.

(** vector.py 669-700 [project_vector]: self.dot(other) / self.dot(self) * self *)
Definition project_vector (v other : vec N) : res (vec N) :=
  let* a := np_dot v other in
  let* b := np_dot v v in
  let* s := ndiv a b in
  vmuls s v.

(** The message of vector.py 745. *)
Definition err_zero_vector : exn := ValueError "The vector must not be the zero vector.".

(** vector.py 702-757 [different_direction] *)
Definition different_direction (t : tol N) (v : vec N) : res (vec N) :=
  let* z := is_zero t v in
  if z then Raise err_zero_vector
  else if Nat.eqb (dim1 v) 1
       then vector_of [nopp (nofZ (nsign (nth 0 v n0)))]
       else let d1 := n1 :: zeros (dim1 v - 1) in
            let* par := is_parallel t v d1 in
            if par then Ok (n0 :: n1 :: zeros (dim1 v - 2)) else Ok d1.

End Vector.
