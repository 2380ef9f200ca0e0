(** * Cylinder construction over the reals *)
From Coq Require Import String Reals List ZArith Lra Lia Psatz Bool.
From Verif.Model Require Import Outcome Num Instances Numpy BaseArray Vector Points Functions Line Plane Sphere Cylinder.
From Verif.Spec Require Import Geometry Tolerance Mesh Linalg.
From Verif.Proof Require Import VecAlg Bridge Arrays Vectors Points Lines.
Import ListNotations.
Local Open Scope R_scope.

Definition cyl_ok (p v : pt) (r : R) : Prop := length p = 3%nat /\ length v = 3%nat /\ ~ is_zero_vec v /\ 0 < r.
Lemma cylinder_new_R (p v : pt) (r : R) : cyl_ok p v r -> cylinder_new (N:=RNum) p v r = Ok (MkCylinder p v r).
Proof.
  intros (Lp & Lv & Hz & Hr). unfold cylinder_new. rewrite point_of_R, vector_of_R by (intro Z; subst; simpl in *; lia). cbn [bind]. unfold dim1. rn. rewrite Lp, Lv. cbn [Nat.eqb negb].
  rewrite is_zero_default. cbn [bind]. destruct (is_zero_vec_dec v); [contradiction|]. rops. rewrite (proj2 (Rltb_true 0 r)) by auto. reflexivity.
Qed.
Lemma cylinder_new_raise (p v : pt) (r : R) : ~ cyl_ok p v r -> exists m, cylinder_new (N:=RNum) p v r = Raise (ValueError m).
Proof.
  intro H. unfold cylinder_new. destruct p as [|x p]; [eexists; reflexivity|]. rewrite point_of_R by discriminate. cbn [bind].
  destruct v as [|y v]; [eexists; reflexivity|]. rewrite vector_of_R by discriminate. cbn [bind]. unfold dim1. rn.
  destruct (Nat.eqb_spec (length (x :: p)) 3) as [Lp|]; [|eexists; reflexivity]. cbn [negb]. destruct (Nat.eqb_spec (length (y :: v)) 3) as [Lv|]; [|eexists; reflexivity]. cbn [negb].
  rewrite is_zero_default. cbn [bind]. destruct (is_zero_vec_dec (y :: v)) as [|Hz]; [eexists; reflexivity|]. rops. rb; [|eexists; reflexivity]. exfalso. apply H. split; auto.
Qed.
Lemma cyl_ok_dec p v r : {cyl_ok p v r} + {~ cyl_ok p v r}.
Proof.
  unfold cyl_ok. destruct (Nat.eq_dec (length p) 3); [|right; tauto]. destruct (Nat.eq_dec (length v) 3); [|right; tauto]. destruct (is_zero_vec_dec v); [right; tauto|]. destruct (Rlt_dec 0 r); [left|right]; tauto.
Qed.
Lemma cylinder_new_iff (p v : pt) (r : R) c : cylinder_new (N:=RNum) p v r = Ok c <-> c = MkCylinder p v r /\ cyl_ok p v r.
Proof.
  split.
  - intro H. destruct (cyl_ok_dec p v r) as [K|K]; [rewrite cylinder_new_R in H by auto; injection H as <-; auto|]. apply cylinder_new_raise in K as (m & K). rewrite K in H. discriminate.
  - intros (-> & K). apply cylinder_new_R; auto.
Qed.
