(** * Specification vocabulary for C72: which exceptions a call may raise *)
From Coq Require Import String List.
From Verif.Model Require Import Outcome Num Numpy Cylinder.
Import ListNotations.
Local Open Scope string_scope.

(** The call raises, if it raises, only exceptions satisfying [P]. *)
Definition raises_only (P : exn -> Prop) {A} (r : res A) : Prop := forall e, r = Raise e -> P e.
(** A ValueError, or a LinAlgError (in recent numpy a subclass of ValueError). *)
Definition value_error (e : exn) : Prop := (exists m, e = ValueError m) \/ (exists m, e = LinAlgError m).
Definition not_domain_error (e : exn) : Prop := value_error e /\ e <> ValueError "math domain error".

(** What is needed of the numbers: division raises nothing (numpy: it warns) and clipping to [-1, 1] works. *)
Definition num_ok (N : Num) : Prop :=
  (forall (a b : N) e, ndiv a b <> Raise e) /\
  (forall x : N, nltb (nclip1 x) (nopp n1) = false /\ nltb n1 (nclip1 x) = false).
(** What is needed of LAPACK: it raises only LinAlgError / ValueError, and least-squares solutions have one entry
    per column. *)
Definition linalg_ok {N : Num} (LA : linalg N) : Prop :=
  (forall m, raises_only not_domain_error (la_svd LA m)) /\
  (forall m b, raises_only not_domain_error (la_solve LA m b)) /\
  (forall m b, raises_only not_domain_error (la_lstsq LA m b)) /\
  (forall m b x r m', la_lstsq LA m b = Ok x -> m = r :: m' -> length x = length r).
Definition minimizer_ok {N : Num} (M : minimizer (N:=N)) : Prop :=
  forall f x0, (forall a b, raises_only not_domain_error (f a b)) -> raises_only not_domain_error (M f x0).

(** The call returns a value or raises: no nan or infinity produced by a division by zero, the square root of a
    negative number or the arc cosine of a number outside [-1, 1] (C77). *)
Definition definite {A} (r : res A) : Prop := r <> NonFinite.
(** LAPACK and the optimiser return a value or raise. *)
Definition linalg_definite {N : Num} (LA : linalg N) : Prop :=
  (forall m, definite (la_svd LA m)) /\ (forall m b, definite (la_solve LA m b)) /\ (forall m b, definite (la_lstsq LA m b)).
