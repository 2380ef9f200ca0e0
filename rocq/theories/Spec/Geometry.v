(** * Independent specification vocabulary: Euclidean geometry on lists of reals.

    Nothing in this file mentions the model.  A point or vector is a list of its coordinates. *)
From Coq Require Import Reals List ZArith.
Import ListNotations.
Local Open Scope R_scope.

Notation pt := (list R).

(** Scalar product, sum, difference, multiple. *)
Fixpoint dot (a b : pt) : R :=
  match a, b with
  | x :: a', y :: b' => x * y + dot a' b'
  | _, _ => 0
  end.
Fixpoint add (a b : pt) : pt :=
  match a, b with
  | x :: a', y :: b' => (x + y) :: add a' b'
  | _, _ => []
  end.
Fixpoint sub (a b : pt) : pt :=
  match a, b with
  | x :: a', y :: b' => (x - y) :: sub a' b'
  | _, _ => []
  end.
Definition scale (s : R) (a : pt) : pt := map (fun x => s * x) a.

(** Length of a vector, distance of two points. *)
Definition len (a : pt) : R := sqrt (dot a a).
Definition dist (p q : pt) : R := len (sub p q).

Definition origin (n : nat) : pt := repeat 0 n.
Definition is_zero_vec (v : pt) : Prop := v = origin (length v).

(** The point set of the line through [p] with direction [d]; of the plane through [p] with
    normal [n]; of the sphere (circle) with centre [c] and radius [r]. *)
Definition on_line (p d x : pt) : Prop := exists t : R, x = add p (scale t d).
Definition on_plane (p n x : pt) : Prop := length x = length p /\ dot (sub x p) n = 0.
Definition on_sphere (c : pt) (r : R) (x : pt) : Prop := length x = length c /\ dist x c = r.
(** The closed segment from [a] to [b]. *)
Definition on_segment (a b x : pt) : Prop :=
  exists t : R, 0 <= t <= 1 /\ x = add a (scale t (sub b a)).
(** The solid cylinder with base centre [p], axis vector [v], radius [r]. *)
Definition in_cylinder (p v : pt) (r : R) (x : pt) : Prop :=
  exists (t : R) (w : pt), length w = length p /\ 0 <= t <= 1 /\ dot w v = 0 /\ len w <= r /\
    x = add (add p (scale t v)) w.

(** Linear dependence of two vectors: one is a multiple of the other. *)
Definition dependent (a b : pt) : Prop :=
  (exists s, a = scale s b) \/ (exists s, b = scale s a).

(** All points of a family on one point / line / plane (affine, any dimension). *)
Definition concurrent (ps : list pt) : Prop := forall p q, In p ps -> In q ps -> p = q.
Definition collinear (ps : list pt) : Prop :=
  exists p d : pt, length d = length p /\ forall x, In x ps -> on_line p d x.
Definition coplanar (ps : list pt) : Prop :=
  exists p d e : pt, length d = length p /\ length e = length p /\
    forall x, In x ps -> exists s t, x = add (add p (scale s d)) (scale t e).

(** [m] is a nearest element of the set [P] to [x]. *)
Definition nearest (P : pt -> Prop) (x m : pt) : Prop :=
  P m /\ forall y, P y -> dist x m <= dist x y.
(** [d] is the minimum of the distances from [x] to elements of [P]. *)
Definition min_dist (P : pt -> Prop) (x : pt) (d : R) : Prop :=
  (exists y, P y /\ dist x y = d) /\ forall y, P y -> d <= dist x y.

(** Sums over lists. *)
Definition Rsum (l : list R) : R := fold_right Rplus 0 l.

(** 3D cross product. *)
Definition cross_spec (a b : pt) : pt :=
  match a, b with
  | [a1; a2; a3], [b1; b2; b3] =>
      [a2 * b3 - a3 * b2; a3 * b1 - a1 * b3; a1 * b2 - a2 * b1]
  | _, _ => []
  end.
(** Extension by zeros to dimension 3 (and in general to dimension [n]). *)
Definition pad_to (n : nat) (v : pt) : pt := v ++ repeat 0 (n - length v).

(** Valid data of a Points object: at least one row, all of the same positive dimension [d]. *)
Definition points_ok (d : nat) (rows : list pt) : Prop :=
  rows <> [] /\ (0 < d)%nat /\ Forall (fun r => length r = d) rows.
(** Sum of the squared distances of points to a point. *)
Definition sumsq (ps : list pt) (q : pt) : R := Rsum (map (fun p => dist p q * dist p q) ps).
(** Strict lexicographic order on coordinates. *)
Fixpoint lex_lt (a b : pt) : Prop :=
  match a, b with
  | x :: a', y :: b' => x < y \/ (x = y /\ lex_lt a' b')
  | _, _ => False
  end.
(** Sum of vectors of dimension [d]. *)
Definition vsum (d : nat) (vs : list pt) : pt := fold_right add (origin d) vs.
(** Linear combination [sum_j c_j * b_j] in dimension [d]. *)
Fixpoint lincomb (d : nat) (cs : list R) (bs : list pt) : pt :=
  match cs, bs with
  | c :: cs', b :: bs' => add (scale c b) (lincomb d cs' bs')
  | _, _ => origin d
  end.
(** Pairwise orthogonal unit vectors. *)
Definition orthonormal (bs : list pt) : Prop :=
  (forall b, In b bs -> dot b b = 1) /\ ForallOrdPairs (fun a b => dot a b = 0) bs.
(** All points of a family in one flat of dimension at most [m] (point [p] plus the span of [m] vectors). *)
Definition in_flat (d m : nat) (ps : list pt) : Prop :=
  exists (p : pt) (dirs : list pt), length p = d /\ length dirs = m /\ Forall (fun v => length v = d) dirs /\
    (forall x, In x ps -> exists cs, length cs = m /\ x = add p (lincomb d cs dirs)).
(** Two lines (base point, direction) in one common flat of dimension two. *)
Definition lines_coplanar (p d q e : pt) : Prop :=
  exists o u v : pt, length o = length p /\ length u = length p /\ length v = length p /\
    forall x, on_line p d x \/ on_line q e x -> exists s t, x = add (add o (scale s u)) (scale t v).
(** [r] is the minimal distance between a point of the first and a point of the second line. *)
Definition line_distance (p d q e : pt) (r : R) : Prop :=
  (exists x y, on_line p d x /\ on_line q e y /\ dist x y = r) /\
  forall x y, on_line p d x -> on_line q e y -> r <= dist x y.
(** All points of a family within distance [eps] of one flat of dimension at most [m]. *)
Definition near_flat (d m : nat) (eps : R) (ps : list pt) : Prop :=
  exists (p : pt) (dirs : list pt), length p = d /\ length dirs = m /\ Forall (fun v => length v = d) dirs /\
    (forall x, In x ps -> exists cs, length cs = m /\ dist x (add p (lincomb d cs dirs)) <= eps).
(** [r] is the sum of the squared distances of the points [ps] from the set [P]. *)
Definition sq_error (P : pt -> Prop) (ps : list pt) (r : R) : Prop :=
  exists ds, Forall2 (fun x s => min_dist P x s) ps ds /\ r = Rsum (map (fun s => s * s) ds).
(** Algebraic fitting error of the sphere (circle) with centre [c] and radius [r]:
    the sum over the points of (|p - c|^2 - r^2)^2. *)
Definition alg_error (ps : list pt) (c : pt) (r : R) : R :=
  Rsum (map (fun p => (dist p c * dist p c - r * r) * (dist p c * dist p c - r * r)) ps).
