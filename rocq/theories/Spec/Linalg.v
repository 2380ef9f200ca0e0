(** * What the numerical linear algebra routines are specified to do.

    The LAPACK routines behind np.linalg.svd / solve / lstsq are a parameter of the model.  These are
    their textbook specifications, in exact arithmetic. *)
From Coq Require Import Reals List.
From Verif.Model Require Import Outcome Num Instances Numpy.
From Verif.Spec Require Import Geometry Mesh.
Import ListNotations.
Local Open Scope R_scope.

(** [Sum n f] = f 0 + ... + f (n-1). *)
Definition Sum (n : nat) (f : nat -> R) : R := Rsum (map f (seq 0 n)).
Definition delta (j k : nat) : R := if Nat.eqb j k then 1 else 0.

(** A = U diag(S) Vh, for [A] with [n] rows of length [d]: the singular values are non-negative and
    non-increasing, U has n rows, the first min(n, d) columns of U and rows of Vh are orthonormal. *)
Record svd_spec (d : nat) (A U : list pt) (S : list R) (Vh : list pt) : Prop := {
  sv_len : length S = Nat.min (length A) d;
  sv_nonneg : forall k, (k < length S)%nat -> 0 <= nth k S 0;
  sv_decr : forall j k, (j <= k < length S)%nat -> nth k S 0 <= nth j S 0;
  sv_rows : length U = length A;
  sv_dim : forall k, (k < length S)%nat -> length (nth k Vh []) = d;
  sv_V : forall j k, (j < length S)%nat -> (k < length S)%nat -> dot (nth j Vh []) (nth k Vh []) = delta j k;
  sv_U : forall j k, (j < length S)%nat -> (k < length S)%nat ->
    Sum (length A) (fun i => ent U i j * ent U i k) = delta j k;
  sv_A : forall i j, (i < length A)%nat -> (j < d)%nat ->
    ent A i j = Sum (length S) (fun k => ent U i k * nth k S 0 * ent Vh k j)
}.

(** np.linalg.svd on every non-empty rectangular matrix. *)
Definition svd_correct (LA : linalg RNum) : Prop :=
  forall d A, points_ok d A -> exists U S Vh, la_svd LA A = Ok (U, S, Vh) /\ svd_spec d A U S Vh.

(** np.linalg.solve on every non-singular square matrix. *)
Definition nonsingular (n : nat) (A : list pt) : Prop :=
  forall x, length x = n -> (forall a, In a A -> dot a x = 0) -> x = origin n.
Definition solve_correct (LA : linalg RNum) : Prop :=
  forall A y, A <> [] -> Forall (fun a => length a = length A) A -> length y = length A -> nonsingular (length A) A ->
    exists x, la_solve LA A y = Ok x /\ length x = length A /\ map (fun a => dot a x) A = y.

(** np.linalg.lstsq: a minimiser of |A x - y|. *)
Definition lstsq_correct (LA : linalg RNum) : Prop :=
  forall d A y, points_ok d A -> length y = length A ->
    exists x, la_lstsq LA A y = Ok x /\ length x = d /\
      forall z, length z = d -> dist (map (fun a => dot a x) A) y <= dist (map (fun a => dot a z) A) y.
