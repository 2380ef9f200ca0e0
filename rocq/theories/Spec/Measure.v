(** * Vocabulary for areas and volumes (no reference to the model) *)
From Coq Require Import Reals List.
From Verif.Spec Require Import Geometry.
Import ListNotations.
Local Open Scope R_scope.

(** Sum of [f] over the consecutive pairs of an open path, and of the closed path that returns to its first point. *)
Fixpoint path (f : pt -> pt -> R) (l : list pt) : R :=
  match l with
  | a :: ((b :: _) as t) => f a b + path f t
  | _ => 0
  end.
Definition closed (f : pt -> pt -> R) (l : list pt) : R :=
  match l with [] => 0 | a :: _ => path f (l ++ [a]) end.
Definition px (p : pt) : R := nth 0 p 0.
Definition py (p : pt) : R := nth 1 p 0.
(** Twice the signed area of the triangle o, p, q in the plane: positive when o, p, q turn counter-clockwise. *)
Definition turn (o p q : pt) : R := (px p - px o) * (py q - py o) - (px q - px o) * (py p - py o).
(** The shoelace formula: half the sum of the cross products of consecutive vertices around the closed path. *)
Definition shoelace (l : list pt) : R := / 2 * closed (turn [0; 0]) l.
(** The plane through three points, as a set. *)
Definition span3 (a b c x : pt) : Prop := exists u v, x = add (add a (scale u (sub b a))) (scale v (sub c a)).
(** The linear map of the plane with matrix [[m11 m12] [m21 m22]], followed by a translation. *)
Definition affine2 (m11 m12 m21 m22 t1 t2 : R) (p : pt) : pt := [m11 * px p + m12 * py p + t1; m21 * px p + m22 * py p + t2].
