(** * Cylinder fitting *)
From Coq Require Import Reals List.
From Verif.Spec Require Import Geometry.
Import ListNotations.
Local Open Scope R_scope.

(** [e] is the algebraic error of the infinite cylinder with axis through [p] along [v] and radius [r] for the points [ps]:
    the sum of (s^2 - r^2)^2 over the distances [s] of the points from the axis. *)
Definition axis_error (p v : pt) (r : R) (ps : list pt) (e : R) : Prop :=
  exists ds, Forall2 (fun x s => min_dist (on_line p v) x s) ps ds /\
    e = Rsum (map (fun s => (s * s - r * r) * (s * s - r * r)) ds).
(** The unit vector with polar angle [theta] and azimuth [phi]. *)
Definition spherical (theta phi : R) : pt := [cos phi * sin theta; sin phi * sin theta; cos theta].
