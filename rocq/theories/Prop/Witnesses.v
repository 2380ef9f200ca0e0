(** * Concrete cases meeting the hypotheses of the theorems of C06, C10, C23, C29, C30, C31, C43, C48 and C66
    (the other property files carry their own examples) *)
From Coq Require Import String Reals List Bool Lra Lia ZArith.
From Verif.Spec Require Import Geometry Tolerance Linalg Rounding Heap.
From Verif.Model Require Import Outcome Num Instances Numpy BaseArray Vector Points Line Plane LineSegment Sphere Cylinder Functions Heap.
From Verif.Proof Require Import VecAlg Bridge Vectors Points Lines SvdExists Ranks Rounding Cylinders.
From Verif.Prop Require Import Planes Vectors Lines Ranks LinePairs Fits Segments Balls Cylinders Rounding Heap.
Import ListNotations.
Local Open Scope R_scope.

Lemma nz (v : pt) : dot v v <> 0 -> ~ is_zero_vec v.
Proof. intros H Z. apply H. apply dot_self_zero_iff, Z. Qed.
Lemma mkl (p d : pt) : length p = length d -> dot d d <> 0 -> line_new (N:=RNum) p d = Ok (MkLine p d).
Proof. intros L H. apply line_new_R; [congruence|apply nz, H]. Qed.
Ltac nzd := simpl; lra.
Ltac vlra := repeat (apply (f_equal2 (@cons R)); [lra|]); reflexivity.

Example C10_nonvacuous : exists c, cross (N:=RNum) [1; 2] [3; 4; 5] = Ok c /\ c = [10; -5; -2] /\ exists m, cross (N:=RNum) [1; 2; 3; 4] [1; 2; 3] = Raise (ValueError m).
Proof.
  destruct (C10_cross_result [1; 2] [3; 4; 5]) as (c & E & L & D1 & D2 & Q & _); try discriminate; try (simpl; lia).
  exists c. split; [exact E|]. split.
  - rewrite cross_R in E by (try discriminate; simpl; lia). injection E as <-. unfold pad_to. simpl. vlra.
  - apply C10_cross_rejects; try discriminate. left. simpl. lia.
Qed.

(** The same line and the same plane, represented differently. *)
Example C29_nonvacuous :
  line_new (N:=RNum) [0; 1] [1; 2] = Ok (MkLine [0; 1] [1; 2]) /\ line_new (N:=RNum) [3; 7] [-2; -4] = Ok (MkLine [3; 7] [-2; -4]) /\
  (forall x, on_line [0; 1] [1; 2] x <-> on_line [3; 7] [-2; -4] x) /\
  plane_new (N:=RNum) [0; 0; 1] [0; 0; 1] = Ok (MkPlane [0; 0; 1] [0; 0; 1]) /\ plane_new (N:=RNum) [3; 7; 1] [0; 0; -2] = Ok (MkPlane [3; 7; 1] [0; 0; -2]) /\
  (forall x, on_plane [0; 0; 1] [0; 0; 1] x <-> on_plane [3; 7; 1] [0; 0; -2] x).
Proof.
  split; [apply mkl; [reflexivity|nzd]|]. split; [apply mkl; [reflexivity|nzd]|]. split.
  { intro x. split; intros (t & ->); [exists ((3 - t) / 2)|exists (3 - 2 * t)]; unfold scale; simpl; vlra. }
  split; [apply plane_new_R; split; [reflexivity|split; [apply nz; nzd|discriminate]]|]. split; [apply plane_new_R; split; [reflexivity|split; [apply nz; nzd|discriminate]]|].
  intro x. unfold on_plane. split; intros (L & E); (split; [exact L|]); destruct x as [|x [|y [|z [|]]]]; try discriminate L; simpl in *; lra.
Qed.

(** Two lines meeting in exactly one point, two skew lines and two parallel ones. *)
Example C31_nonvacuous : svd_correct ideal_linalg /\
  line_new (N:=RNum) [0; 0; 1] [1; 0; 0] = Ok (MkLine [0; 0; 1] [1; 0; 0]) /\ line_new (N:=RNum) [4; 0; 1] [0; 1; 0] = Ok (MkLine [4; 0; 1] [0; 1; 0]) /\
  is_parallel (N:=RNum) tol_default [1; 0; 0] [0; 1; 0] = Ok false /\ on_line [0; 0; 1] [1; 0; 0] [4; 0; 1] /\ on_line [4; 0; 1] [0; 1; 0] [4; 0; 1] /\
  line_intersect_line ideal_linalg tol_default true (MkLine [0; 0; 1] [1; 0; 0]) (MkLine [4; 0; 1] [0; 1; 0]) = Ok [4; 0; 1] /\
  dependent [1; 0; 0] [-3; 0; 0].
Proof.
  pose proof (proj1 ideal_linalg_correct) as HL. pose proof (mkl [0; 0; 1] [1; 0; 0] eq_refl ltac:(nzd)) as H1. pose proof (mkl [4; 0; 1] [0; 1; 0] eq_refl ltac:(nzd)) as H2.
  assert (O1 : on_line [0; 0; 1] [1; 0; 0] [4; 0; 1]) by (exists 4; unfold scale; simpl; vlra).
  assert (O2 : on_line [4; 0; 1] [0; 1; 0] [4; 0; 1]) by (exists 0; unfold scale; simpl; vlra).
  split; [exact HL|]. split; [exact H1|]. split; [exact H2|]. split; [exact e12_not_parallel|]. split; [exact O1|]. split; [exact O2|]. split.
  - refine (proj1 (C31_returns_common_point ideal_linalg tol_default true _ _ _ _ _ _ _ HL (proj1 tol_default_ok) (proj2 tol_default_ok) H1 H2 eq_refl _ e12_not_parallel O1 O2)). simpl. lia.
  - right. exists (-3). unfold scale. simpl. vlra.
Qed.

Example C30_nonvacuous : exists l m, line_new (N:=RNum) [0; 0; 0; 0] [1; 0; 0; 0] = Ok l /\ line_new (N:=RNum) [0; 0; 0; 2] [1; 0; 0; 1] = Ok m /\
  line_is_coplanar_obj ideal_linalg None l (LineObj m) = Ok true /\ line_is_coplanar_obj ideal_linalg (Some 0) l (LineObj m) = Ok true.
Proof.
  pose proof (proj1 ideal_linalg_correct) as HL. pose proof (mkl [0; 0; 0; 0] [1; 0; 0; 0] eq_refl ltac:(nzd)) as H1. pose proof (mkl [0; 0; 0; 2] [1; 0; 0; 1] eq_refl ltac:(nzd)) as H2.
  eexists. eexists. split; [exact H1|]. split; [exact H2|].
  assert (M : exists x, on_line [0; 0; 0; 0] [1; 0; 0; 0] x /\ on_line [0; 0; 0; 2] [1; 0; 0; 1] x).
  { exists [-2; 0; 0; 0]. split; [exists (-2)|exists (-2)]; unfold scale; simpl; vlra. }
  split; (eapply C30_meeting_or_parallel_accepted; [exact HL| |exact H1|exact H2|reflexivity|left; exact M]); simpl; auto; lra.
Qed.

Example C43_nonvacuous : exists s, segment_new (N:=RNum) [2; 1] [0; 5] = Ok s /\ on_segment [2; 1] [0; 5] [1; 3] /\
  segment_contains_point (N:=RNum) tol_default s [1; 3] = Ok true /\ segment_contains_point (MkTol (N:=RNum) 0 0) s [4; -3] = Ok false.
Proof.
  destruct (seg_ok 2 1 0 5) as [E|]; [lra| |lra]. eexists. split; [exact E|].
  assert (O : on_segment [2; 1] [0; 5] [1; 3]) by (exists (1 / 2); split; [lra|]; unfold scale; simpl; vlra). split; [exact O|]. split.
  - apply (C43_contains_complete tol_default [2; 1] [0; 5] [1; 3] _ (proj1 tol_default_ok) (proj2 tol_default_ok) eq_refl eq_refl E O).
  - destruct (C43_contains_zero_tolerance [2; 1] [0; 5] [4; -3] _ eq_refl eq_refl E) as (r & -> & K). f_equal. destruct r; auto. exfalso.
    destruct (proj1 K eq_refl) as (t & Ht & Z). unfold scale in Z. simpl in Z. injection Z. intros. lra.
Qed.

Example C48_nonvacuous : exists c l a b, circle_new (N:=RNum) [0; 0] 5 = Ok c /\ line_new (N:=RNum) [0; 3] [1; 0] = Ok l /\
  circle_intersect_line c l = Ok (a, b) /\ (exists x, on_line [0; 3] [1; 0] x /\ on_sphere [0; 0] 5 x).
Proof.
  assert (Hc : circle_new (N:=RNum) [0; 0] 5 = Ok (MkBall [0; 0] 5)) by (apply C45_construction; split; auto; split; auto; lra).
  pose proof (mkl [0; 3] [1; 0] eq_refl ltac:(nzd)) as Hl.
  assert (X : exists x, on_line [0; 3] [1; 0] x /\ on_sphere [0; 0] 5 x).
  { exists [4; 3]. split; [exists 4; unfold scale; simpl; vlra|]. apply on_circle_iff; lra. }
  destruct (C48_intersect_line [0; 3] [1; 0] [0; 0] 5 _ _ Hc Hl eq_refl) as (A & _). destruct (A X) as (a & b & E & _).
  do 4 eexists. split; [exact Hc|]. split; [exact Hl|]. split; [exact E|exact X].
Qed.

(** A finite point set for each of the configurations of C23. *)
Example C23_configurations : points_ok 4 [[1; 2; 3; 4]; [1; 2; 3; 4]] /\ concurrent [[1; 2; 3; 4]; [1; 2; 3; 4]] /\
  points_ok 3 [[0; 0; 1]; [1; 0; 1]; [0; 1; 1]; [1; 1; 1]] /\ coplanar [[0; 0; 1]; [1; 0; 1]; [0; 1; 1]; [1; 1; 1]] /\ ~ coplanar simplex.
Proof.
  split; [split; [discriminate|]; split; [lia|repeat constructor]|]. split; [intros x y [<-|[<-|[]]] [<-|[<-|[]]]; reflexivity|].
  split; [split; [discriminate|]; split; [lia|repeat constructor]|]. split.
  - exists [0; 0; 1], [1; 0; 0], [0; 1; 0]. split; [reflexivity|]. split; [reflexivity|]. intros x [<-|[<-|[<-|[<-|[]]]]]; [exists 0, 0|exists 1, 0|exists 0, 1|exists 1, 1]; unfold scale; simpl; vlra.
  - intro C. destruct (C23_true_configurations ideal_linalg 3 simplex None (proj1 ideal_linalg_correct) simplex_ok I) as (_ & _ & K).
    pose proof (C23_simplex_not_coplanar _ (proj1 ideal_linalg_correct)) as Q. pose proof (eq_trans (eq_sym Q) (K C)) as Z. discriminate Z.
Qed.

(** A history that writes, copies and pads. *)
Example C06_nonvacuous : forall (LA : linalg RNum) np1,
  let s := run LA np1 initial [ONew1 [1; 2]; ONew2 [[1; 2]; [3; 4]]] in
  reachable LA np1 s /\ (exists s', step LA np1 s (OSet1 0 1 7) = Ok s' /\ look s' 0 = Some [[1; 7]] /\ look s' 1 = look s 1) /\
  (exists s', step LA np1 s (OToArray 1) = Ok s' /\ look s' 2 = Some [[1; 2]; [3; 4]]) /\ (exists s', step LA np1 s (ORound 1 2) = Ok s') /\
  (exists e, step LA np1 s (OSet1 0 2 7) = Raise e).
Proof.
  intros LA np1. cbv zeta. split; [eexists; reflexivity|]. split; [eexists; split; [reflexivity|split; reflexivity]|]. split; [eexists; split; reflexivity|]. split.
  - cbn [step]. change (nth_error (live (run LA np1 initial [ONew1 [1; 2]; ONew2 [[1; 2]; [3; 4]]])) 1) with (Some (A2 KArray [[2; 3]; [4; 5]]%nat)). cbv iota beta.
    match goal with |- context [round2 ?r ?d] => destruct (C71_round_points r d) as (ws & -> & _) end. cbn [bind]. destruct np1; eauto.
  - eexists. reflexivity.
Qed.

Example C66_nonvacuous : exists c l a b, cylinder_new (N:=RNum) [0; 0; 0] [0; 0; 1] 1 = Ok c /\ line_new (N:=RNum) [0; 0; 0] [1; 0; 0] = Ok l /\
  cylinder_intersect_line c l (Some 2%Z) true = Ok (a, b).
Proof.
  assert (K : cyl_ok [0; 0; 0] [0; 0; 1] 1) by (split; [auto|]; split; [auto|]; split; [apply nz; nzd|lra]).
  pose proof (mkl [0; 0; 0] [1; 0; 0] eq_refl ltac:(nzd)) as Hl. pose proof (cylinder_new_R _ _ _ K) as Hc.
  assert (O : pv_ok [0; 0; 0] [1; 0; 0]) by (split; [reflexivity|split; [apply nz; nzd|discriminate]]).
  assert (I : exists ab, intersect_infinite (N:=RNum) (MkCylinder [0; 0; 0] [0; 0; 1] 1) (MkLine [0; 0; 0] [1; 0; 0]) (Some 2%Z) = Ok ab).
  { pose proof K as (Lp & Lv & Hz & Hr). pose proof O as (Le & He & Hq). unfold intersect_infinite. cbn [cy_point cy_vector cy_radius l_point l_dir].
    rewrite !unit_R by auto. cbn [bind]. rewrite from_points_R by (first [reflexivity|discriminate]). cbn [bind].
    rewrite reject_R by (auto; len). cbn [bind]. rewrite reject_R by (auto; len). cbn [bind]. rewrite norm_R. cbn [bind].
    rewrite np_dot_R by (rewrite !length_rej; len). cbn [bind]. rewrite norm_R. cbn [bind]. rops.
    rewrite !len_sq. fold (qa [0; 0; 1] [1; 0; 0]). fold (qb [0; 0; 0] [0; 0; 1] [0; 0; 0] [1; 0; 0]). fold (qc [0; 0; 0] [0; 0; 1] [0; 0; 0] 1).
    assert (L1 : len [1; 0; 0] = 1) by (apply len_eq_val; [lra|]; simpl; ring).
    assert (Ea : qa [0; 0; 1] [1; 0; 0] = 1) by (unfold qa, rej, scale; rewrite L1; simpl; field).
    assert (Eb : qb [0; 0; 0] [0; 0; 1] [0; 0; 0] [1; 0; 0] = 0) by (unfold qb, rej, scale; rewrite L1; simpl; field).
    assert (Ec : qc [0; 0; 0] [0; 0; 1] [0; 0; 0] 1 = -1) by (unfold qc, rej, scale; simpl; field).
    rewrite Ea, Eb, Ec. destruct (C66_rounded_coefficients 1 0 (-1) 2%Z ltac:(discriminate)) as (a' & b' & c' & Ra & Rb & Rc & ->).
    assert (F : forall x : Z, rounded 2 (IZR x) (IZR x)).
    { intro x. apply (rounded_fix 2 (IZR x) (x * 100)). rewrite mult_IZR. simpl. field. }
    rewrite (rounded_unique _ _ _ _ Ra (F 1%Z)), (rounded_unique _ _ _ _ Rb (F 0%Z)), (rounded_unique _ _ _ _ Rc (F (-1)%Z)), solve_quadratic_R.
    destruct (Req_EM_T 1 0); [lra|]. destruct (Rlt_dec _ 0); [lra|]. cbn [bind].
    change (vscale (N:=RNum)) with scale. rewrite !bcast_eq by len. cbn [bind]. rewrite !map2_add.
    rewrite !point_of_R; [|discriminate ..]. cbn [bind]. eauto. }
  destruct I as ((a, b) & E). do 4 eexists. split; [exact Hc|]. split; [exact Hl|]. unfold cylinder_intersect_line. cbn [line_dim dim1 l_point length]. rn. cbn. exact E.
Qed.
