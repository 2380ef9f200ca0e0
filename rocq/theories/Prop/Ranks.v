(** * Property C23: Points.affine_rank, are_concurrent, are_collinear, are_coplanar *)
From Coq Require Import String Reals List ZArith Lra Lia Psatz Bool.
From Verif.Model Require Import Outcome Num Instances Numpy BaseArray Vector Points.
From Verif.Spec Require Import Geometry Mesh Linalg.
From Verif.Proof Require Import VecAlg Bridge Vectors Points Lincomb Svd SvdExists Ranks.
Import ListNotations.
Local Open Scope R_scope.

(** Points that lie in a flat of dimension [m] have affine rank at most [m], whatever non-negative
    tolerance (or the default) is used. *)
Theorem C23_affine_rank_upper : forall LA d m rows tolerance, svd_correct LA -> points_ok d rows -> tol_nonneg tolerance ->
  in_flat d m rows -> exists r, affine_rank LA tolerance rows = Ok r /\ (r <= m)%nat.
Proof. intros. eapply flat_rank_le; eauto. Qed.
Print Assumptions C23_affine_rank_upper.

(** With tol = 0 the affine rank is the dimension of the affine hull: the least dimension of a flat
    containing all the points. *)
Theorem C23_affine_rank_exact : forall LA d rows, svd_correct LA -> points_ok d rows ->
  exists r, affine_rank LA (Some 0) rows = Ok r /\ in_flat d r rows /\ forall m, in_flat d m rows -> (r <= m)%nat.
Proof.
  intros LA d rows HL H. destruct (affine_rank_R LA (Some 0) d rows HL H) as (U & S & Vh & Hs & E). rewrite E. eexists. split; [reflexivity|].
  split; [eapply zero_tol_flat; eauto|]. intros m Hm.
  destruct (flat_rank_le LA (Some 0) d m rows HL H ltac:(simpl; lra) Hm) as (r & Er & Hr). rewrite E in Er. injection Er as <-. exact Hr.
Qed.
Print Assumptions C23_affine_rank_exact.

(** No tolerance can make an exact configuration be rejected. *)
Theorem C23_true_configurations : forall LA d rows tolerance, svd_correct LA -> points_ok d rows -> tol_nonneg tolerance ->
  (concurrent rows -> are_concurrent LA tolerance rows = Ok true) /\
  (collinear rows -> are_collinear LA tolerance rows = Ok true) /\
  (coplanar rows -> are_coplanar LA tolerance rows = Ok true).
Proof.
  intros LA d rows tolerance HL H Ht. split; [|split]; intro C.
  - apply (flat_concurrent d) in C; auto. destruct (flat_rank_le LA tolerance d 0 rows HL H Ht C) as (r & E & Hr).
    unfold are_concurrent. rewrite E. cbn [bind]. f_equal. apply Nat.eqb_eq. lia.
  - apply (flat_collinear d) in C; auto. destruct (flat_rank_le LA tolerance d 1 rows HL H Ht C) as (r & E & Hr).
    unfold are_collinear. rewrite E. cbn [bind]. f_equal. apply Nat.leb_le. lia.
  - apply (flat_coplanar d) in C; auto. destruct (flat_rank_le LA tolerance d 2 rows HL H Ht C) as (r & E & Hr).
    unfold are_coplanar. rewrite E. cbn [bind]. f_equal. apply Nat.leb_le. lia.
Qed.
Print Assumptions C23_true_configurations.

(** With tol = 0 the answers are exact in both directions. *)
Theorem C23_zero_tolerance_exact : forall LA d rows, svd_correct LA -> points_ok d rows ->
  exists a b c, are_concurrent LA (Some 0) rows = Ok a /\ are_collinear LA (Some 0) rows = Ok b /\ are_coplanar LA (Some 0) rows = Ok c /\
    (a = true <-> concurrent rows) /\ (b = true <-> collinear rows) /\ (c = true <-> coplanar rows).
Proof.
  intros LA d rows HL H. destruct (C23_affine_rank_exact LA d rows HL H) as (r & E & Hf & Hmin).
  unfold are_concurrent, are_collinear, are_coplanar. rewrite E. cbn [bind]. do 3 eexists. split; [reflexivity|]. split; [reflexivity|]. split; [reflexivity|].
  destruct (C23_true_configurations LA d rows (Some 0) HL H ltac:(simpl; lra)) as (T0 & T1 & T2).
  unfold are_concurrent in T0. unfold are_collinear in T1. unfold are_coplanar in T2. rewrite E in T0, T1, T2. cbn [bind] in T0, T1, T2.
  assert (Up : forall k, (r <= k)%nat -> (k <= 2)%nat -> in_flat d k rows).
  { intros k Hr Hk. destruct Hf as (p & dirs & Lp & Ld & Fd & Hx).
    exists p, (dirs ++ repeat (origin d) (k - r)). split; auto. split; [rewrite app_length, repeat_length; lia|].
    assert (F' : Forall (fun v => length v = d) (repeat (origin d) (k - r))).
    { apply Forall_forall. intros e He. apply repeat_spec in He. subst. apply length_origin. }
    split; [apply Forall_app; split; auto|].
    intros x Hin. destruct (Hx x Hin) as (cs & Lcs & ->). exists (cs ++ repeat 0 (k - r)). split; [rewrite app_length, repeat_length; lia|]. f_equal.
    assert (L2 : length cs = length dirs) by lia. clear - Fd L2 F'. revert cs L2.
    induction Fd as [|e dirs He Fd IH]; intros [|c cs] L2; simpl in *; try discriminate.
    - symmetry. induction (k - r)%nat as [|j IH]; simpl; auto. inversion F'; subst. rewrite IH by auto. rewrite scale_0, length_origin. apply add_origin_r, length_origin.
    - f_equal. apply IH. lia. }
  split; [|split].
  - split; [|intro C; apply T0 in C; congruence]. intro Hr. apply Nat.eqb_eq in Hr. apply (flat_concurrent d); auto. apply Up; lia.
  - split; [|intro C; apply T1 in C; congruence]. intro Hr. apply Nat.leb_le in Hr. apply (flat_collinear d); auto.
  - split; [|intro C; apply T2 in C; congruence]. intro Hr. apply Nat.leb_le in Hr. apply (flat_coplanar d); auto.
Qed.
Print Assumptions C23_zero_tolerance_exact.

(** With the default tolerance are_concurrent is exact up to 2^52 rows and dimensions. *)
Theorem C23_concurrent_default_exact : forall LA d rows, svd_correct LA -> points_ok d rows ->
  (Z.of_nat (Nat.max (length rows) d) < 2 ^ 52)%Z ->
  exists a, are_concurrent LA None rows = Ok a /\ (a = true <-> concurrent rows).
Proof.
  intros LA d rows HL H Hsz. destruct (affine_rank_R LA None d rows HL H) as (U & S & Vh & Hs & E).
  unfold are_concurrent. rewrite E. cbn [bind]. eexists. split; [reflexivity|].
  split; [|intro C; destruct (C23_true_configurations LA d rows None HL H I) as (T & _); apply T in C; unfold are_concurrent in C; rn; rewrite E in C; cbn [bind] in C; congruence].
  intro Hr. apply Nat.eqb_eq in Hr.
  destruct (unique_R d rows H) as [_ Hu]. set (u := np_unique (N:=RNum) rows) in *. pose proof (centered_ok d u Hu) as Hc.
  destruct (count_above (threshold None (length u) d S) S (sv_decr _ _ _ _ _ Hs)) as (_ & _ & C3). rn; rewrite Hr in C3.
  destruct (svd_max d _ _ _ _ Hc Hs) as (Sn & Em).
  assert (L0 : (0 < length S)%nat) by (destruct S; [contradiction|simpl; lia]).
  pose proof (C3 0%nat ltac:(lia)) as Q. unfold threshold in Q. rewrite Em in Q. pose proof (sv_nonneg _ _ _ _ _ Hs 0%nat L0) as P0.
  assert (Lu : (length u <= length rows)%nat).
  { pose proof H as (_ & _ & F). destruct (np_unique_spec d rows F) as (Ss & Iu & _). apply NoDup_incl_length; [apply sorted_nodup; auto|]. intros x Hx. apply Iu, Hx. }
  assert (B : IZR (Z.of_nat (Nat.max (length u) d)) * Rdyad 1 52 < 1).
  { unfold Rdyad. apply Rmult_lt_reg_r with (IZR (2 ^ 52)); [apply IZR_lt; lia|].
    replace (IZR (Z.of_nat (Nat.max (length u) d)) * (1 / IZR (2 ^ 52)) * IZR (2 ^ 52)) with (IZR (Z.of_nat (Nat.max (length u) d))).
    - rewrite Rmult_1_l. apply IZR_lt. lia.
    - field. apply not_0_IZR. lia. }
  assert (Z0 : nth 0 S 0 = 0).
  { set (k := IZR (Z.of_nat (Nat.max (length u) d)) * Rdyad 1 52) in *. destruct P0 as [P0|P0]; [|auto]. nra. }
  apply (flat_concurrent d); auto. apply unique_flat; auto. apply flat_centered; auto. eapply rank_flat; eauto; [lia|].
  intros k Hk. apply (svd_tail_zero d _ _ _ _ Hs 0 k); auto.
Qed.
Print Assumptions C23_concurrent_default_exact.

(** concurrent => collinear => coplanar, for every numeric backend, SVD and tolerance. *)
Theorem C23_implications : forall (N : Num) (LA : linalg N) tolerance rows,
  (are_concurrent LA tolerance rows = Ok true -> are_collinear LA tolerance rows = Ok true) /\
  (are_collinear LA tolerance rows = Ok true -> are_coplanar LA tolerance rows = Ok true).
Proof.
  intros N LA tolerance rows. unfold are_concurrent, are_collinear, are_coplanar.
  destruct (affine_rank LA tolerance rows) as [r| |]; cbn [bind]; split; try discriminate; intro E; injection E as E; f_equal.
  - apply Nat.leb_le. apply Nat.eqb_eq in E. lia.
  - apply Nat.leb_le. apply Nat.leb_le in E. lia.
Qed.
Print Assumptions C23_implications.

(** The answers depend only on the set of points: duplicates and order do not matter (any SVD, any tolerance). *)
Theorem C23_depends_on_set : forall LA tolerance d rows rows', points_ok d rows -> points_ok d rows' -> (forall x, In x rows' <-> In x rows) ->
  affine_rank (N:=RNum) LA tolerance rows' = affine_rank LA tolerance rows /\
  are_concurrent (N:=RNum) LA tolerance rows' = are_concurrent LA tolerance rows /\
  are_collinear (N:=RNum) LA tolerance rows' = are_collinear LA tolerance rows /\
  are_coplanar (N:=RNum) LA tolerance rows' = are_coplanar LA tolerance rows.
Proof.
  intros LA tolerance d rows rows' H H' I.
  assert (E : affine_rank (N:=RNum) LA tolerance rows' = affine_rank LA tolerance rows).
  { unfold affine_rank. destruct (unique_R d rows H) as [-> _], (unique_R d rows' H') as [-> _].
    replace (np_unique (N:=RNum) rows') with (np_unique (N:=RNum) rows); auto.
    destruct H as (_ & _ & F), H' as (_ & _ & F'). destruct (np_unique_spec d rows F) as (S1 & I1 & _), (np_unique_spec d rows' F') as (S2 & I2 & _).
    apply sorted_unique; auto. intro x. rewrite I1, I2, I. tauto. }
  unfold are_concurrent, are_collinear, are_coplanar. rewrite E. auto.
Qed.
Print Assumptions C23_depends_on_set.

(** Soundness with a tolerance: with the default tolerance the points are within M^2 * 2^-52 * (diameter)
    of a flat of the reported dimension (M the larger of the number of rows and the dimension); with tol = t
    they are within d * t of one. *)
Theorem C23_default_sound : forall LA d rows r D, svd_correct LA -> points_ok d rows -> affine_rank LA None rows = Ok r ->
  (forall x y, In x rows -> In y rows -> dist x y <= D) ->
  let M := INR (Nat.max (length rows) d) in near_flat d r (M * M * / 2 ^ 52 * D) rows.
Proof. intros. eapply default_near; eauto. Qed.
Print Assumptions C23_default_sound.

Theorem C23_tolerance_sound : forall LA d rows r t, svd_correct LA -> points_ok d rows -> 0 <= t -> affine_rank LA (Some t) rows = Ok r ->
  near_flat d r (INR d * t) rows.
Proof.
  intros LA d rows r t HL H Ht E. destruct (rank_near LA (Some t) d rows r HL H Ht E) as (U & S & Vh & Hs & Pt & _ & Hn).
  simpl in Hn. assert (Pd : 1 <= INR d) by (pose proof H as (_ & Hd & _); change 1 with (INR 1); apply le_INR; lia). apply Hn; [nra|].
  assert (INR (length S) <= INR d) by (apply le_INR; rewrite (sv_len _ _ _ _ _ Hs); lia). pose proof (pos_INR (length S)).
  assert (0 <= t * t) by nra. apply Rle_trans with (INR d * (t * t)); nra.
Qed.
Print Assumptions C23_tolerance_sound.

(** The three tests with the default tolerance. *)
Theorem C23_default_tests_sound : forall LA d rows D, svd_correct LA -> points_ok d rows -> (forall x y, In x rows -> In y rows -> dist x y <= D) ->
  let M := INR (Nat.max (length rows) d) in let eps := M * M * / 2 ^ 52 * D in
  (are_collinear LA None rows = Ok true -> near_flat d 1 eps rows) /\ (are_coplanar LA None rows = Ok true -> near_flat d 2 eps rows).
Proof.
  intros LA d rows D HL H HD M eps. unfold are_collinear, are_coplanar. destruct (affine_rank LA None rows) as [r| |] eqn:E; cbn [bind]; split; try discriminate.
  - intro Q. injection Q as Q. apply Nat.leb_le in Q. eapply near_flat_mono; [exact Q|]. eapply C23_default_sound; eauto.
  - intro Q. injection Q as Q. apply Nat.leb_le in Q. eapply near_flat_mono; [exact Q|]. eapply C23_default_sound; eauto.
Qed.
Print Assumptions C23_default_tests_sound.

(** The hypotheses are met and the tests really discriminate: the corners of a simplex are not coplanar, for every
    correct SVD, at the default tolerance; and a correct SVD exists. *)
Definition simplex : list pt := [[0; 0; 0]; [1; 0; 0]; [0; 1; 0]; [0; 0; 1]].
Lemma simplex_ok : points_ok 3 simplex.
Proof. split; [discriminate|]. split; [lia|repeat constructor]. Qed.
Lemma simplex_diam : forall x y, In x simplex -> In y simplex -> dist x y <= 2.
Proof.
  intros x y Hx Hy. unfold dist, len. replace 2 with (sqrt 4) by (replace 4 with (2 * 2) by ring; apply sqrt_square; lra).
  apply sqrt_le_1_alt. simpl in Hx, Hy. destruct Hx as [<-|[<-|[<-|[<-|[]]]]], Hy as [<-|[<-|[<-|[<-|[]]]]]; simpl; lra.
Qed.
Lemma eps_small n : n = 4%nat -> 0 <= 2 * (INR n * INR n * / 2 ^ 52 * 2) <= 1 / 10.
Proof.
  intros ->. assert (0 < / 2 ^ 52 <= / 1000).
  { split; [apply Rinv_0_lt_compat, pow_lt; lra|]. apply Rinv_le_contravar; [lra|]. simpl; lra. }
  replace (INR 4) with 4 by (simpl; ring). lra.
Qed.
Theorem C23_simplex_not_coplanar : forall LA, svd_correct LA -> are_coplanar LA None simplex = Ok false.
Proof.
  intros LA HL. destruct (are_coplanar LA None simplex) as [[|]| |] eqn:E; auto; exfalso.
  - destruct (C23_default_tests_sound LA 3 simplex 2 HL simplex_ok simplex_diam) as (_ & K). specialize (K E). cbv zeta in K. set (eps := _ * 2) in K.
    assert (P : 0 <= 2 * eps <= 1 / 10) by (apply eps_small; reflexivity). clearbody eps.
    destruct (near_flat_direction 3 2 _ simplex [] K) as (w & Lw & Uw & _ & B); [apply simplex_ok|auto|simpl; lia|].
    destruct w as [|w1 [|w2 [|w3 [|]]]]; try discriminate.
    assert (B1 := B [1; 0; 0] [0; 0; 0] ltac:(simpl; auto) ltac:(simpl; auto)).
    assert (B2 := B [0; 1; 0] [0; 0; 0] ltac:(simpl; auto) ltac:(simpl; auto)).
    assert (B3 := B [0; 0; 1] [0; 0; 0] ltac:(simpl; auto) ltac:(simpl; auto)).
    set (e2 := 2 * eps) in *. clearbody e2.
    simpl in Uw, B1, B2, B3. clear - Uw B1 B2 B3 P.
    replace ((1 - 0) * w1 + ((0 - 0) * w2 + ((0 - 0) * w3 + 0))) with w1 in B1 by ring.
    replace ((0 - 0) * w1 + ((1 - 0) * w2 + ((0 - 0) * w3 + 0))) with w2 in B2 by ring.
    replace ((0 - 0) * w1 + ((0 - 0) * w2 + ((1 - 0) * w3 + 0))) with w3 in B3 by ring.
    assert (forall a, Rabs a <= e2 -> a * a <= 1 / 100). { intros a Ha. pose proof (Rabs_pos a). assert (a * a = Rabs a * Rabs a) by (unfold Rabs; destruct Rcase_abs; ring). nra. }
    pose proof (H w1 B1). pose proof (H w2 B2). pose proof (H w3 B3). lra.
  - unfold are_coplanar in E. destruct (affine_rank_R LA None 3 simplex HL simplex_ok) as (U & S & Vh & Hs & Er). rewrite Er in E. discriminate.
  - unfold are_coplanar in E. destruct (affine_rank_R LA None 3 simplex HL simplex_ok) as (U & S & Vh & Hs & Er). rewrite Er in E. discriminate.
Qed.
Print Assumptions C23_simplex_not_coplanar.
Definition corner : list pt := [[0; 0]; [1; 0]; [0; 1]].
Lemma corner_ok : points_ok 2 corner.
Proof. split; [discriminate|]. split; [lia|repeat constructor]. Qed.
Lemma corner_diam : forall x y, In x corner -> In y corner -> dist x y <= 2.
Proof.
  intros x y Hx Hy. unfold dist, len. replace 2 with (sqrt 4) by (replace 4 with (2 * 2) by ring; apply sqrt_square; lra).
  apply sqrt_le_1_alt. simpl in Hx, Hy. destruct Hx as [<-|[<-|[<-|[]]]], Hy as [<-|[<-|[<-|[]]]]; simpl; lra.
Qed.
Theorem C23_corner_not_collinear : forall LA, svd_correct LA -> are_collinear LA None corner = Ok false.
Proof.
  intros LA HL. destruct (are_collinear LA None corner) as [[|]| |] eqn:E; auto; exfalso.
  - destruct (C23_default_tests_sound LA 2 corner 2 HL corner_ok corner_diam) as (K & _). specialize (K E). cbv zeta in K. set (eps := _ * 2) in K.
    assert (P : 0 <= 2 * eps <= 1 / 10).
    { unfold eps. assert (0 < / 2 ^ 52 <= / 1000) by (split; [apply Rinv_0_lt_compat, pow_lt; lra|apply Rinv_le_contravar; [lra|simpl; lra]]).
      replace (INR (Nat.max (length corner) 2)) with 3 by (simpl; ring). lra. } clearbody eps.
    destruct (near_flat_direction 2 1 _ corner [] K) as (w & Lw & Uw & _ & B); [apply corner_ok|auto|simpl; lia|].
    destruct w as [|w1 [|w2 [|]]]; try discriminate.
    assert (B1 := B [1; 0] [0; 0] ltac:(simpl; auto) ltac:(simpl; auto)).
    assert (B2 := B [0; 1] [0; 0] ltac:(simpl; auto) ltac:(simpl; auto)).
    set (e2 := 2 * eps) in *. clearbody e2. simpl in Uw, B1, B2. clear - Uw B1 B2 P.
    replace ((1 - 0) * w1 + ((0 - 0) * w2 + 0)) with w1 in B1 by ring. replace ((0 - 0) * w1 + ((1 - 0) * w2 + 0)) with w2 in B2 by ring.
    assert (forall a, Rabs a <= e2 -> a * a <= 1 / 100). { intros a Ha. pose proof (Rabs_pos a). assert (a * a = Rabs a * Rabs a) by (unfold Rabs; destruct Rcase_abs; ring). nra. }
    pose proof (H w1 B1). pose proof (H w2 B2). lra.
  - unfold are_collinear in E. destruct (affine_rank_R LA None 2 corner HL corner_ok) as (U & S & Vh & Hs & Er). rewrite Er in E. discriminate.
  - unfold are_collinear in E. destruct (affine_rank_R LA None 2 corner HL corner_ok) as (U & S & Vh & Hs & Er). rewrite Er in E. discriminate.
Qed.
Print Assumptions C23_corner_not_collinear.
Example C23_nonvacuous : svd_correct ideal_linalg /\ points_ok 3 simplex /\ points_ok 3 [[0; 0; 0]; [1; 1; 1]; [2; 2; 2]] /\ collinear [[0; 0; 0]; [1; 1; 1]; [2; 2; 2]].
Proof.
  split; [apply ideal_linalg_correct|]. split; [apply simplex_ok|]. split; [split; [discriminate|]; split; [lia|repeat constructor]|].
  exists [0; 0; 0], [1; 1; 1]. split; auto. intros x [<-|[<-|[<-|[]]]]; [exists 0|exists 1|exists 2]; unfold scale; simpl; veq.
Qed.
