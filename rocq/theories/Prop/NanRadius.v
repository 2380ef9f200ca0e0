(** * Properties C45 and C59: a radius that is not a number *)
From Coq Require Import String Reals List ZArith Floats Lra Lia Bool.
From Verif.Model Require Import Outcome Num Instances Numpy BaseArray Vector Sphere Cylinder.
From Verif.Spec Require Import Floats.
From Verif.Prop Require Import Floats.
Import ListNotations.

(** Circle and Sphere reject radius <= 0, so they accept nan at every finite centre of the right dimension. *)
Theorem C45_nan_radius : forall p : list flt, Forall finite p ->
  (length p = 2%nat -> circle_new (N:=FNum) p nan = Ok (MkBall (N:=FNum) p nan)) /\ (length p = 3%nat -> sphere_new (N:=FNum) p nan = Ok (MkBall (N:=FNum) p nan)).
Proof.
  intros p F. unfold circle_new, sphere_new, base_sphere_new. change (nleb (n:=FNum) nan n0) with false. change (point_of (N:=FNum)) with (vector_of (N:=FNum)).
  split; intro L; (rewrite vector_of_ok; [|intro Z; subst p; discriminate L|exact F]); cbn [bind c_point]; unfold dim1; change (vec FNum) with (list flt) in *.
  - destruct p as [|x [|y [|z p]]]; try discriminate L. reflexivity.
  - destruct p as [|x [|y [|z [|w p]]]]; try discriminate L. reflexivity.
Qed.
Print Assumptions C45_nan_radius.
(** Cylinder demands radius > 0, so it never accepts nan. *)
Theorem C59_nan_radius : forall (p v : list flt) c, cylinder_new (N:=FNum) p v nan <> Ok c.
Proof.
  intros p v c H. unfold cylinder_new in H. destruct (point_of (N:=FNum) p) as [p'| |]; cbn [bind] in H; try discriminate H. destruct (vector_of (N:=FNum) v) as [v'| |]; cbn [bind] in H; try discriminate H.
  destruct (negb (dim1 p' =? 3)%nat); [discriminate H|]. destruct (negb (dim1 v' =? 3)%nat); [discriminate H|]. destruct (is_zero (N:=FNum) tol_default v') as [z| |]; cbn [bind] in H; try discriminate H. destruct z; [discriminate H|].
  change (nltb (n:=FNum) n0 nan) with false in H. discriminate H.
Qed.
Print Assumptions C59_nan_radius.
Example C45_nan_radius_nonvacuous : Forall finite [0.5; 2]%float /\ exists c, cylinder_new (N:=FNum) [0; 0; 0]%float [0; 0; 1]%float 1%float = Ok c.
Proof. split; [constructor; [reflexivity|constructor; [reflexivity|constructor]]|eexists; reflexivity]. Qed.
