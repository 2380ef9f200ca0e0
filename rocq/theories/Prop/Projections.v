(** * Property C84: projections and distances in double precision

    Forward error bounds for Vector.scalar_projection, Vector.project_vector, Line.project_point,
    Line.distance_point, Plane.project_point, Plane.distance_point(_signed) and what they mean for
    contains_point and side_point.  The model runs on IEEE doubles; the exact values are those of the
    real-number geometry of the same inputs. *)
From Coq Require Import String Reals List ZArith Floats Lra Lia Psatz Bool.
From Flocq Require Import Core BinarySingleNaN.
From Flocq Require Import IEEE754.PrimFloat.
From Verif.Model Require Import Outcome Num Instances Numpy BaseArray Vector Points Functions Line Plane.
From Verif.Spec Require Import Geometry Tolerance Floats.
From Verif.Proof Require Import VecAlg Bridge Vectors Floats FloatErr.
From Verif.Prop Require Import Floats Accuracy AnyOrder Decisions.
Import ListNotations.
Local Open Scope R_scope.

(** ** Real-number lemmas *)
Fixpoint sabs (z : pt) : R := match z with [] => 0 | x :: z' => Rabs x + sabs z' end.
Lemma sabs_pos z : 0 <= sabs z.
Proof. induction z as [|x z IH]; cbn; [lra|]. pose proof (Rabs_pos x). lra. Qed.
Lemma sabs_le (B : R) z : Forall (fun x => Rabs x <= B) z -> sabs z <= INR (length z) * B.
Proof. induction 1 as [|x z Hx H IH]; [cbn; lra|]. cbn [sabs length]. rewrite S_INR. lra. Qed.
Lemma dot_affine (al ta : R) (y x z : pt) : 0 <= al -> 0 <= ta -> Forall2 (fun a b => Rabs (a - b) <= al * Rabs b + ta) y x -> length x = length z ->
  Rabs (dot y z - dot x z) <= al * absdot x z + ta * sabs z /\ absdot y z <= (1 + al) * absdot x z + ta * sabs z.
Proof.
  intros Ha Ht F. revert z. induction F as [|a b y x H F IH]; intros [|c z] L; try discriminate L; unfold absdot in *; cbn [dot map sabs].
  - rewrite Rminus_0_r, Rabs_R0. lra.
  - destruct (IH z ltac:(simpl in L; lia)) as (I1 & I2). pose proof (Rabs_pos c) as Pc. pose proof (Rabs_pos b) as Pb. split.
    + replace (a * c + dot y z - (b * c + dot x z)) with ((a - b) * c + (dot y z - dot x z)) by ring. eapply Rle_trans; [apply Rabs_triang|]. rewrite Rabs_mult.
      assert (Rabs (a - b) * Rabs c <= (al * Rabs b + ta) * Rabs c) by (apply Rmult_le_compat_r; auto). nra.
    + pose proof (Rabs_triang (a - b) b) as T. replace (a - b + b) with a in T by ring. assert (Rabs a * Rabs c <= ((1 + al) * Rabs b + ta) * Rabs c) by (apply Rmult_le_compat_r; lra). nra.
Qed.
Lemma len_cons x v : len (x :: v) * len (x :: v) = x * x + len v * len v.
Proof. rewrite !len_sq. reflexivity. Qed.
Lemma len_affine (al ta : R) (d x : pt) : 0 <= al -> 0 <= ta -> Forall2 (fun a b => Rabs a <= al * Rabs b + ta) d x -> len d <= al * len x + INR (length x) * ta.
Proof.
  intros Ha Ht F. induction F as [|a b d x H F IH]; [unfold len; cbn; rewrite R_sqrt.sqrt_0; lra|]. cbn [length]. rewrite S_INR. pose proof (pos_INR (length x)) as Pn.
  pose proof (len_nonneg (a :: d)) as N1. pose proof (len_nonneg (b :: x)) as N2. pose proof (len_nonneg d) as N3. pose proof (len_nonneg x) as N4. pose proof (len_cons a d) as E1. pose proof (len_cons b x) as E2.
  set (D := len d) in *. set (X := len x) in *. set (D' := len (a :: d)) in *. set (X' := len (b :: x)) in *. set (n := INR (length x)) in *.
  pose proof (Rabs_pos a) as Pa. pose proof (Rabs_pos b) as Pb.
  assert (B1 : Rabs b <= X'). { apply Rsqr_incr_0; unfold Rsqr; auto. rewrite <- Rabs_mult, (Rabs_pos_eq (b * b)) by nra. nra. }
  assert (B2 : X <= X') by (apply Rsqr_incr_0; unfold Rsqr; auto; nra).
  apply Rsqr_incr_0; unfold Rsqr; auto; [|assert (0 <= al * X') by (apply Rmult_le_pos; auto); nra]. rewrite E1.
  assert (A2 : a * a <= (al * Rabs b + ta) * (al * Rabs b + ta)). { rewrite <- (Rabs_pos_eq (a * a)), Rabs_mult by nra. apply Rmult_le_compat; auto. }
  assert (D2 : D * D <= (al * X + n * ta) * (al * X + n * ta)) by (apply Rmult_le_compat; auto).
  assert (bb : Rabs b * Rabs b = b * b) by (rewrite <- Rabs_mult, Rabs_pos_eq; nra).
  assert (M1 : al * ta * Rabs b <= al * ta * X') by (apply Rmult_le_compat_l; [apply Rmult_le_pos|]; auto). assert (M2 : al * ta * n * X <= al * ta * n * X') by (apply Rmult_le_compat_l; [apply Rmult_le_pos; [apply Rmult_le_pos|]|]; auto).
  assert (T0 : 0 <= n * (ta * ta)) by (apply Rmult_le_pos; nra).
  assert (S0 : (al * Rabs b + ta) * (al * Rabs b + ta) = al * al * (b * b) + 2 * (al * ta * Rabs b) + ta * ta) by (rewrite <- bb; ring).
  replace ((al * X' + (n + 1) * ta) * (al * X' + (n + 1) * ta)) with (al * al * (X' * X') + 2 * (al * ta * X') + 2 * (al * ta * n * X') + (n * n * (ta * ta) + 2 * (n * (ta * ta)) + ta * ta)) by ring. rewrite E2.
  replace ((al * X + n * ta) * (al * X + n * ta)) with (al * al * (X * X) + 2 * (al * ta * n * X) + n * n * (ta * ta)) in D2 by ring. lra.
Qed.
Lemma coord_le (v : pt) x : In x v -> Rabs x <= len v.
Proof.
  induction v as [|y v IH]; intro H; [destruct H|]. pose proof (len_cons y v) as E. pose proof (len_nonneg (y :: v)) as N. pose proof (len_nonneg v) as N'. apply Rsqr_incr_0; unfold Rsqr; auto; [|apply Rabs_pos].
  rewrite E, <- Rabs_mult, Rabs_pos_eq by nra. destruct H as [->|H]; [nra|]. specialize (IH H). pose proof (Rabs_pos x). assert (Rabs x * Rabs x <= len v * len v) by (apply Rmult_le_compat; auto). rewrite <- Rabs_mult, Rabs_pos_eq in H1 by nra. nra.
Qed.
Lemma Forall2_weaken {A B} (P Q : A -> B -> Prop) l m : (forall x y, In x l -> In y m -> P x y -> Q x y) -> Forall2 P l m -> Forall2 Q l m.
Proof. intros H F. induction F; constructor; [apply H; [left|left|]; auto|apply IHF; intros; apply H; [right|right|]; auto]. Qed.
Lemma Forall2_len {A B} (P : A -> B -> Prop) l m : Forall2 P l m -> length l = length m.
Proof. induction 1; cbn; auto. Qed.
Lemma Forall2_map2 {A B C D} (f : A -> C) (h : B -> D) (P : C -> D -> Prop) l m : Forall2 (fun x y => P (f x) (h y)) l m -> Forall2 P (map f l) (map h m).
Proof. induction 1; constructor; auto. Qed.
Lemma dist_affine (al ta : R) (y x z : pt) : 0 <= al -> 0 <= ta -> length y = length x -> Forall2 (fun p c => Rabs (fst p - snd p) <= al * Rabs c + ta) (combine y x) z -> dist y x <= al * len z + INR (length z) * ta.
Proof.
  intros Ha Ht L F. unfold dist. apply len_affine; auto. revert x L F. revert y. induction z as [|c z IH]; intros [|a y] [|b x] L F; try discriminate L; inversion_clear F; cbn [sub]; constructor; auto.
Qed.

(** ** Vector.scalar_projection *)
Lemma unit_moderate (v w : list flt) : (Z.of_nat (length v) <= max_dim)%Z -> 0 < len (map FR v) ->
  Forall2 (fun y x => finite y /\ Rabs (FR y - FR x / len (map FR v)) <= (INR (length v) + 6) * bpow radix2 (-53) * (Rabs (FR x) / len (map FR v)) + bpow radix2 (-1075)) w v -> Forall moderate w.
Proof.
  intros Ln Lp F. pose proof (ndim_small (length v) 6 Ln ltac:(lia)) as S. fold uro in F. set (K := len (map FR v)) in *. set (k := (INR (length v) + 6) * uro) in *.
  assert (B30 : bpow radix2 (-30) <= 1) by (change 1 with (bpow radix2 0); apply bpow_le; lia). assert (E1 : bpow radix2 (-1075) <= 1) by (change 1 with (bpow radix2 0); apply bpow_le; lia).
  assert (k0 : 0 <= k) by (unfold k; apply Rmult_le_pos; [pose proof (pos_INR (length v)); lra|pose proof uro_pos; lra]).
  assert (A : Forall2 (fun y x => moderate y) w v).
  { eapply Forall2_weaken; [|exact F]. intros y x _ Hx (Fy & H). split; auto. assert (C : Rabs (FR x) / K <= 1).
    { apply Rmult_le_reg_r with K; auto. unfold Rdiv. rewrite Rmult_assoc, Rinv_l, Rmult_1_r, Rmult_1_l by lra. apply coord_le, in_map. exact Hx. }
    assert (P : 0 <= Rabs (FR x) / K) by (unfold Rdiv; apply Rmult_le_pos; [apply Rabs_pos|left; apply Rinv_0_lt_compat; auto]).
    pose proof (Rabs_triang (FR y - FR x / K) (FR x / K)) as T. replace (FR y - FR x / K + FR x / K) with (FR y) in T by ring.
    assert (Q : Rabs (FR x / K) = Rabs (FR x) / K) by (unfold Rdiv; rewrite Rabs_mult, Rabs_inv, (Rabs_pos_eq K) by lra; reflexivity). rewrite Q in T.
    assert (k * (Rabs (FR x) / K) <= 1 * 1) by (apply Rmult_le_compat; lra). apply Rle_trans with (bpow radix2 2); [change (bpow radix2 2) with 4; lra|apply bpow_le; lia]. }
  clear - A. induction A; constructor; auto.
Qed.
Lemma moderate_sabs (o : list flt) : (Z.of_nat (length o) <= max_dim)%Z -> Forall moderate o -> sabs (map FR o) <= bpow radix2 520.
Proof.
  intros Ln Ho. eapply Rle_trans; [apply (sabs_le (bpow radix2 500)); apply Forall_map; eapply Forall_impl; [|exact Ho]; intros x (_ & H); exact H|]. rewrite map_length. change 520%Z with (20 + 500)%Z. rewrite bpow_plus.
  apply Rmult_le_compat_r; [apply bpow_ge_0|]. rewrite INR_IZR_INZ. change (bpow radix2 20) with (IZR (2 ^ 20)). apply IZR_le. exact Ln.
Qed.
Theorem C84_scalar_projection : forall v o : list flt, length v = length o -> (Z.of_nat (length v) <= max_dim)%Z -> Forall moderate v -> Forall moderate o -> bpow radix2 (-400) <= len (map FR v) ->
  exists d, scalar_projection (N:=FNum) v o = Ok d /\ finite d /\
    Rabs (FR d - dot (map FR v) (map FR o) / len (map FR v)) <= (2 * INR (length v) + 10) * bpow radix2 (-53) * len (map FR o) + bpow radix2 (-550).
Proof.
  intros v o L Ln Hv Ho Lv. destruct (C73_unit_accurate v Ln Hv Lv) as (w & Ew & Hw). assert (Kp : 0 < len (map FR v)) by (eapply Rlt_le_trans; [apply bpow_gt_0|exact Lv]).
  pose proof (unit_moderate v w Ln Kp Hw) as Mw. assert (Lw : length w = length v) by (exact (Forall2_len _ _ _ Hw)). assert (Lwo : length w = length o) by congruence. assert (Lnw : (Z.of_nat (length w) <= max_dim)%Z) by (rewrite Lw; auto).
  destruct (C73_dot_accurate w o Lwo Lnw Mw Ho) as (d & Ed & Fd & Hd). exists d. unfold scalar_projection. rewrite Ew. cbn [bind]. split; [exact Ed|]. split; auto. pose proof (f_equal INR Lw) as LwR. fn. rewrite LwR in Hd. clear Ed Ew LwR.
  fold uro eta in *. set (K := len (map FR v)) in *. set (n := INR (length v)) in *. pose proof (ndim_small (length v) 6 Ln ltac:(lia)) as S6. fold n in S6. pose proof (pos_INR (length v)) as Pn. fold n in Pn. pose proof uro_small as (U1 & U2).
  assert (B30 : bpow radix2 (-30) <= / 1024) by (replace (/ 1024) with (bpow radix2 (-10)) by (simpl; lra); apply bpow_le; lia).
  assert (F : Forall2 (fun a b => Rabs (a - b) <= (n + 6) * uro * Rabs b + eta) (map FR w) (scale (/ K) (map FR v))).
  { unfold scale. rewrite map_map. apply Forall2_map2. eapply Forall2_weaken; [|exact Hw]. intros y x _ _ (_ & H). cbv beta. replace (/ K * FR x) with (FR x / K) by (unfold Rdiv; ring). unfold Rdiv at 2. rewrite Rabs_mult, Rabs_inv, (Rabs_pos_eq K) by lra. exact H. }
  assert (k00 : 0 <= (n + 6) * uro) by (apply Rmult_le_pos; lra).
  destruct (dot_affine _ _ _ _ (map FR o) k00 (bpow_ge_0 radix2 (-1075)) F ltac:(len)) as (D1 & D2). fold eta in D1, D2.
  assert (Ln' : (Z.of_nat (length o) <= max_dim)%Z) by (rewrite <- L; auto). pose proof (moderate_sabs o Ln' Ho) as SA. pose proof (sabs_pos (map FR o)) as SP.
  assert (AB : absdot (scale (/ K) (map FR v)) (map FR o) <= len (map FR o)).
  { eapply Rle_trans; [apply absdot_cauchy; len|]. rewrite len_scale. fold K. rewrite Rabs_inv, (Rabs_pos_eq K), Rinv_l by lra. lra. }
  pose proof (absdot_pos (scale (/ K) (map FR v)) (map FR o)) as AP. rewrite dot_scale_l in D1. replace (/ K * dot (map FR v) (map FR o)) with (dot (map FR v) (map FR o) / K) in D1 by (unfold Rdiv; ring).
  fold (absdot (map FR w) (map FR o)) in Hd. set (A := absdot (scale (/ K) (map FR v)) (map FR o)) in *. set (M := len (map FR o)) in *. set (k := (n + 6) * uro) in *. set (s := sabs (map FR o)) in *.
  assert (E1 : eta * s <= bpow radix2 (-555)). { change (-555)%Z with (-1075 + 520)%Z. rewrite bpow_plus. apply Rmult_le_compat_l; [apply bpow_ge_0|auto]. }
  assert (E2 : bpow radix2 (-1050) <= bpow radix2 (-555)) by (apply bpow_le; lia). assert (E3 : bpow radix2 (-550) = 32 * bpow radix2 (-555)) by (change (-550)%Z with (5 + -555)%Z; rewrite bpow_plus; reflexivity).
  pose proof (bpow_gt_0 radix2 (-555)) as E4. assert (k2 : k <= / 1024) by lra. assert (k0 : 0 <= k) by (unfold k; apply Rmult_le_pos; lra).
  assert (n2 : 0 <= (n + 2) * uro <= k) by (unfold k; nra).
  pose proof (Rabs_triang (FR d - dot (map FR w) (map FR o)) (dot (map FR w) (map FR o) - dot (map FR v) (map FR o) / K)) as T. replace (FR d - dot (map FR w) (map FR o) + (dot (map FR w) (map FR o) - dot (map FR v) (map FR o) / K)) with (FR d - dot (map FR v) (map FR o) / K) in T by ring.
  assert (H1 : (n + 2) * uro * absdot (map FR w) (map FR o) <= (n + 2) * uro * ((1 + k) * A + eta * s)) by (apply Rmult_le_compat_l; lra).
  assert (ES : 0 <= eta * s) by (apply Rmult_le_pos; [apply bpow_ge_0|auto]).
  assert (H2 : (n + 2) * uro * (eta * s) <= / 1024 * (eta * s)) by (apply Rmult_le_compat_r; lra).
  assert (H3 : (n + 2) * uro * k <= uro). { assert (Q : (n + 2) * uro * k <= bpow radix2 (-30) * bpow radix2 (-30)) by (apply Rmult_le_compat; lra). rewrite <- bpow_plus in Q. assert (bpow radix2 (-30 + -30) <= uro) by (apply bpow_le; lia). lra. }
  assert (H4 : (n + 2) * uro * (k * A) <= uro * A) by (rewrite <- Rmult_assoc; apply Rmult_le_compat_r; auto).
  assert (H5 : (2 * n + 9) * uro * A <= (2 * n + 9) * uro * M) by (apply Rmult_le_compat_l; [apply Rmult_le_pos|]; lra). assert (H6 : 0 <= uro * M) by (apply Rmult_le_pos; lra). unfold k in *. lra.
Qed.
Print Assumptions C84_scalar_projection.

(** ** Vector.project_vector *)
Lemma sq_small (n : nat) (c d : Z) : (Z.of_nat n <= max_dim)%Z -> (0 <= c <= 2 ^ 10)%Z -> (0 <= d <= 2 ^ 10)%Z -> (INR n + IZR c) * uro * ((INR n + IZR d) * uro) <= / 128 * uro.
Proof.
  intros Ln Hc Hd. pose proof (ndim_small n c Ln Hc) as A. pose proof (ndim_small n d Ln Hd) as B. pose proof (pos_INR n) as P. pose proof uro_pos as U. assert (0 <= IZR c) by (apply (IZR_le 0); lia). assert (0 <= IZR d) by (apply (IZR_le 0); lia).
  assert (Q : (INR n + IZR c) * uro * ((INR n + IZR d) * uro) <= bpow radix2 (-30) * bpow radix2 (-30)) by (apply Rmult_le_compat; auto; apply Rmult_le_pos; lra).
  rewrite <- bpow_plus in Q. assert (B7 : bpow radix2 (-30 + -30) <= bpow radix2 (-7) * uro) by (unfold uro; rewrite <- bpow_plus; apply bpow_le; lia). change (bpow radix2 (-7)) with (/ 128) in B7. lra.
Qed.
Lemma dot_self_rel (v : list flt) : (Z.of_nat (length v) <= max_dim)%Z -> Forall moderate v -> bpow radix2 (-400) <= len (map FR v) ->
  finite (dot_raw (N:=FNum) v v) /\ exists e, FR (dot_raw (N:=FNum) v v) = len (map FR v) * len (map FR v) * (1 + e) /\ Rabs e <= (INR (length v) + 3) * uro.
Proof.
  intros Ln Hv Lv. destruct (C73_dot_accurate v v eq_refl Ln Hv Hv) as (d & Ed & Fd & Hd). rewrite np_dot_F in Ed by auto. injection Ed as <-. split; auto. fold uro in Hd. fold (absdot (map FR v) (map FR v)) in Hd. rewrite absdot_self, <- len_sq in Hd.
  set (K := len (map FR v)) in *. assert (Kp : 0 < K) by (eapply Rlt_le_trans; [apply bpow_gt_0|exact Lv]). set (d := FR (dot_raw (N:=FNum) v v)) in *. assert (KK : 0 < K * K) by (apply Rmult_lt_0_compat; auto).
  assert (T : bpow radix2 (-1050) <= uro * (K * K)). { apply Rle_trans with (bpow radix2 (-53) * bpow radix2 (-800)); [rewrite <- bpow_plus; apply bpow_le; lia|]. apply Rmult_le_compat_l; [apply bpow_ge_0|]. change (-800)%Z with (-400 + -400)%Z. rewrite bpow_plus. apply Rmult_le_compat; auto; apply bpow_ge_0. }
  exists (d / (K * K) - 1). split; [field; lra|]. replace (d / (K * K) - 1) with ((d - K * K) / (K * K)) by (field; lra). unfold Rdiv. rewrite Rabs_mult, Rabs_inv, (Rabs_pos_eq (K * K)) by lra. apply Rmult_le_reg_r with (K * K); auto. rewrite Rmult_assoc, Rinv_l, Rmult_1_r by lra. lra.
Qed.
Lemma inv_bound e k : Rabs e <= k -> k <= / 1024 -> Rabs (/ (1 + e) - 1) <= k + 2 * (k * k).
Proof.
  intros H K. pose proof (inv_close e ltac:(lra)) as I. pose proof (Rabs_pos e). assert (Rabs e * Rabs e <= k * k) by (apply Rmult_le_compat; auto). lra.
Qed.
Theorem C84_project_vector : forall v o : list flt, length v = length o -> (Z.of_nat (length v) <= max_dim)%Z -> Forall moderate v -> Forall moderate o -> bpow radix2 (-400) <= len (map FR v) ->
  exists w, project_vector (N:=FNum) v o = Ok w /\
    Forall2 (fun y x => finite y /\ Rabs (FR y - dot (map FR v) (map FR o) / dot (map FR v) (map FR v) * FR x) <=
      (2 * INR (length v) + 10) * bpow radix2 (-53) * len (map FR o) * (Rabs (FR x) / len (map FR v)) + bpow radix2 (-560)) w v.
Proof.
  intros v o L Ln Hv Ho Lv. destruct (C73_dot_accurate v o L Ln Hv Ho) as (a & Ea & Fa & Ha). destruct (dot_self_rel v Ln Hv Lv) as (Fb & e & Eb & He). assert (Ln' : (Z.of_nat (length o) <= max_dim)%Z) by (rewrite <- L; auto).
  pose proof (absdot_cauchy (map FR v) (map FR o) ltac:(rewrite !map_length; auto)) as AC. pose proof (cauchy_schwarz (map FR v) (map FR o) ltac:(rewrite !map_length; auto)) as CS.
  pose proof (len_510 o Ln' Ho) as M5. pose proof (len_510 v Ln Hv) as K5. rewrite <- len_sq. unfold project_vector. rewrite Ea. cbn [bind]. rewrite np_dot_F by auto. cbn [bind ndiv FNum]. set (bb := dot_raw (N:=FNum) v v) in *.
  fold (absdot (map FR v) (map FR o)) in Ha. fold uro in *. set (D := dot (map FR v) (map FR o)) in *. set (A := absdot (map FR v) (map FR o)) in *. set (M := len (map FR o)) in *.
  assert (CO : forall x, In x v -> Rabs (FR x) <= len (map FR v)) by (intros x Hx; apply coord_le, in_map; auto).
  set (K := len (map FR v)) in *. set (n := INR (length v)) in *. clear Ea.
  assert (Kp : 0 < K) by (eapply Rlt_le_trans; [apply bpow_gt_0|exact Lv]). assert (Mp : 0 <= M) by apply len_nonneg. pose proof uro_small as (U1 & U2). pose proof (pos_INR (length v)) as Pn. fold n in Pn.
  pose proof (ndim_small (length v) 3 Ln ltac:(lia)) as S3. fold n in S3. pose proof (sq_small (length v) 3 3 Ln ltac:(lia) ltac:(lia)) as Q33. fold n in Q33.
  set (k := (n + 3) * uro) in *. assert (B30 : bpow radix2 (-30) <= / 1024) by (replace (/ 1024) with (bpow radix2 (-10)) by (simpl; lra); apply bpow_le; lia).
  assert (k0 : 0 <= k) by (unfold k; apply Rmult_le_pos; lra). assert (k1 : k <= / 1024) by lra. pose proof (inv_bound e k He k1) as I. set (f := / (1 + e)) in *. pose proof (Rabs_le_inv _ _ I) as I'.
  assert (e1 : / 2 <= 1 + e) by (apply Rabs_le_inv in He; lra).
  set (tp := bpow radix2 (-1050) / K). assert (tp0 : 0 <= tp) by (apply Rmult_le_pos; [apply bpow_ge_0|left; apply Rinv_0_lt_compat; auto]).
  assert (tp1 : tp <= bpow radix2 (-650)). { apply Rmult_le_reg_r with K; auto. unfold tp, Rdiv. rewrite Rmult_assoc, Rinv_l, Rmult_1_r by lra. change (-1050)%Z with (-650 + -400)%Z. rewrite bpow_plus. apply Rmult_le_compat_l; [apply bpow_ge_0|auto]. }
  set (c := D / (K * K)). set (c' := D / K). set (a' := FR a / K).
  assert (Hc' : Rabs c' <= M). { unfold c', Rdiv. rewrite Rabs_mult, Rabs_inv, (Rabs_pos_eq K) by lra. apply Rmult_le_reg_r with K; auto. rewrite Rmult_assoc, Rinv_l, Rmult_1_r by lra. lra. }
  assert (Ha' : Rabs (a' - c') <= (n + 2) * uro * M + tp).
  { replace (a' - c') with ((FR a - D) / K) by (unfold a', c'; field; lra). unfold Rdiv. rewrite Rabs_mult, Rabs_inv, (Rabs_pos_eq K) by lra. apply Rmult_le_reg_r with K; auto. rewrite Rmult_assoc, Rinv_l, Rmult_1_r by lra.
    assert ((n + 2) * uro * A <= (n + 2) * uro * (K * M)) by (apply Rmult_le_compat_l; [apply Rmult_le_pos; lra|exact AC]). unfold tp, Rdiv. rewrite Rmult_plus_distr_r, (Rmult_assoc (bpow radix2 (-1050))), Rinv_l, Rmult_1_r by lra. lra. }
  assert (bpos : 0 < FR bb) by (rewrite Eb; apply Rmult_lt_0_compat; [apply Rmult_lt_0_compat; auto|lra]).
  set (q := FR a / FR bb). set (q' := q * K). assert (Eq' : q' = a' * f) by (unfold q', q, a', f; rewrite Eb; field; split; lra).
  assert (f2 : Rabs f <= 2) by (apply Rabs_le; lra).
  assert (Hq' : Rabs (q' - c') <= (2 * n + 6) * uro * M + 2 * tp).
  { replace (q' - c') with ((a' - c') * f + c' * (f - 1)) by (rewrite Eq'; ring). eapply Rle_trans; [apply Rabs_triang|]. rewrite !Rabs_mult.
    assert (P1 : Rabs (a' - c') * Rabs f <= ((n + 2) * uro * M + tp) * (1 + (k + 2 * (k * k)))). { apply Rmult_le_compat; auto; try apply Rabs_pos. apply Rabs_le. lra. }
    assert (P2 : Rabs c' * Rabs (f - 1) <= M * (k + 2 * (k * k))) by (apply Rmult_le_compat; auto; apply Rabs_pos).
    assert (X1 : tp * (k + 2 * (k * k)) <= tp * 1) by (apply Rmult_le_compat_l; lra).
    assert (kk1 : 0 <= k * k <= / 1024 * k) by (split; [apply Rmult_le_pos; auto|apply Rmult_le_compat_r; auto]). assert (nk : 0 <= (n + 2) * uro <= k) by (unfold k; split; [apply Rmult_le_pos; lra|apply Rmult_le_compat_r; lra]).
    assert (X2 : (n + 2) * uro * (k + 2 * (k * k)) <= / 2 * uro). { assert ((n + 2) * uro * (k + 2 * (k * k)) <= k * (2 * k)) by (apply Rmult_le_compat; lra). lra. }
    assert (X3 : (n + 2) * uro * (k + 2 * (k * k)) * M <= / 2 * uro * M) by (apply Rmult_le_compat_r; auto). assert (X4 : 2 * (k * k) * M <= / 64 * uro * M) by (apply Rmult_le_compat_r; lra). assert (0 <= uro * M) by (apply Rmult_le_pos; lra).
    unfold k in P2 at 1. lra. }
  assert (n6 : (2 * n + 6) * uro <= / 512) by (unfold k in k1; lra). assert (NM : (2 * n + 6) * uro * M <= / 512 * M) by (apply Rmult_le_compat_r; auto).
  assert (q'M : Rabs q' <= (1 + / 512) * M + 2 * tp). { pose proof (Rabs_triang (q' - c') c') as T. replace (q' - c' + c') with q' in T by ring. lra. }
  assert (b650 : bpow radix2 (-650) <= 1) by (change 1 with (bpow radix2 0); apply bpow_le; lia).
  assert (b510 : 2 <= bpow radix2 510) by (change 2 with (bpow radix2 1); apply bpow_le; lia).
  assert (b512 : bpow radix2 512 = 4 * bpow radix2 510) by (change 512%Z with (2 + 510)%Z; rewrite bpow_plus; reflexivity).
  assert (Kinv : / K <= bpow radix2 400). { change 400%Z with (- (-400))%Z. rewrite bpow_opp. apply Rinv_le_contravar; [apply bpow_gt_0|exact Lv]. }
  assert (Qb : Rabs q <= bpow radix2 912). { replace q with (q' * / K) by (unfold q'; field; lra). rewrite Rabs_mult, Rabs_inv, (Rabs_pos_eq K) by lra. change 912%Z with (512 + 400)%Z. rewrite bpow_plus. apply Rmult_le_compat; [apply Rabs_pos|left; apply Rinv_0_lt_compat; auto|lra|auto]. }
  destruct (fin_div a bb Fa ltac:(lra)) as (Fs & Es). { fold q. eapply Rle_lt_trans; [apply (rnd_bpow_le q 912); [lia|exact Qb]|]. apply bpow_lt. lia. }
  set (s := (a / bb)%float) in *. fold q in Es. pose proof (rnd_err q) as R1. rewrite <- Es in R1. set (s' := FR s * K).
  set (t2 := eta * K). assert (t20 : 0 <= t2) by (apply Rmult_le_pos; [apply bpow_ge_0|lra]). assert (t21 : t2 <= bpow radix2 (-565)). { change (-565)%Z with (-1075 + 510)%Z. rewrite bpow_plus. apply Rmult_le_compat_l; [apply bpow_ge_0|auto]. }
  assert (Hs1 : Rabs (s' - q') <= uro * Rabs q' + t2). { replace (s' - q') with ((FR s - q) * K) by (unfold s', q'; ring). replace (Rabs q') with (Rabs q * K) by (unfold q'; rewrite Rabs_mult, (Rabs_pos_eq K) by lra; reflexivity). rewrite Rabs_mult, (Rabs_pos_eq K) by lra. unfold t2. assert (Rabs (FR s - q) * K <= (uro * Rabs q + eta) * K) by (apply Rmult_le_compat_r; lra). lra. }
  assert (UM : 0 <= uro * M) by (apply Rmult_le_pos; lra). assert (uq : uro * Rabs q' <= uro * ((1 + / 512) * M + 2 * tp)) by (apply Rmult_le_compat_l; lra). assert (ut : uro * tp <= / 1024 * tp) by (apply Rmult_le_compat_r; lra).
  assert (Hs' : Rabs (s' - c') <= (2 * n + 8) * uro * M + 3 * tp + t2). { pose proof (Rabs_triang (s' - q') (q' - c')) as T. replace (s' - q' + (q' - c')) with (s' - c') in T by ring. lra. }
  assert (s'M : Rabs s' <= (1 + / 256) * M + 3 * tp + t2). { pose proof (Rabs_triang (s' - q') q') as T. replace (s' - q' + q') with s' in T by ring. assert (uro * M <= / 1024 * M) by (apply Rmult_le_compat_r; lra). lra. }
  assert (bt : bpow radix2 (-565) <= 1) by (change 1 with (bpow radix2 0); apply bpow_le; lia).
  assert (tot : 4 * bpow radix2 (-650) + 2 * bpow radix2 (-565) + eta <= bpow radix2 (-560)).
  { assert (bpow radix2 (-650) <= bpow radix2 (-565)) by (apply bpow_le; lia). assert (eta <= bpow radix2 (-565)) by (apply bpow_le; lia). assert (bpow radix2 (-560) = 32 * bpow radix2 (-565)) by (change (-560)%Z with (5 + -565)%Z; rewrite bpow_plus; reflexivity). pose proof (bpow_gt_0 radix2 (-565)). lra. }
  assert (W : Forall2 (fun y x => finite y /\ Rabs (FR y - c * FR x) <= (2 * n + 10) * uro * M * (Rabs (FR x) / K) + bpow radix2 (-560)) (map (fun x => s * x)%float v) v).
  { assert (Sub : forall x, In x v -> In x v) by auto. revert Sub. generalize v at 1 3 4 as l. induction l as [|x l IH]; intro Sub; [constructor|]. constructor; [|apply IH; intros; apply Sub; right; auto].
    assert (Hx : In x v) by (apply Sub; left; auto). pose proof (CO x Hx) as Cx. rewrite Forall_forall in Hv. destruct (Hv x Hx) as (Fx & _). set (r := FR x / K). assert (Er : FR x = r * K) by (unfold r; field; lra).
    assert (r1 : Rabs r = Rabs (FR x) / K) by (unfold r, Rdiv; rewrite Rabs_mult, Rabs_inv, (Rabs_pos_eq K) by lra; reflexivity). assert (r2 : Rabs r <= 1). { rewrite r1. apply Rmult_le_reg_r with K; auto. unfold Rdiv. rewrite Rmult_assoc, Rinv_l by lra. lra. }
    pose proof (Rabs_pos r) as r0. assert (Esx : FR s * FR x = s' * r) by (rewrite Er; unfold s'; ring). assert (Ecx : c * FR x = c' * r) by (rewrite Er; unfold c, c'; field; lra). rewrite <- r1, Ecx.
    assert (Bsx : Rabs (s' * r) <= bpow radix2 512). { rewrite Rabs_mult. apply Rle_trans with (Rabs s' * 1); [apply Rmult_le_compat_l; auto; apply Rabs_pos|]. lra. }
    destruct (fin_mul s x Fs Fx) as (Fy & Ey). { rewrite Esx. eapply Rle_lt_trans; [apply (rnd_bpow_le _ 512); [lia|exact Bsx]|]. apply bpow_lt. lia. }
    split; auto. rewrite Ey, Esx. pose proof (rnd_err (s' * r)) as R2. pose proof (Rabs_triang (rnd (s' * r) - s' * r) ((s' - c') * r)) as T. replace (rnd (s' * r) - s' * r + (s' - c') * r) with (rnd (s' * r) - c' * r) in T by ring. rewrite Rabs_mult in R2, T.
    assert (Y1 : Rabs (s' - c') * Rabs r <= ((2 * n + 8) * uro * M + 3 * tp + t2) * Rabs r) by (apply Rmult_le_compat_r; auto). assert (Y2 : uro * (Rabs s' * Rabs r) <= uro * (((1 + / 256) * M + 3 * tp + t2) * Rabs r)) by (apply Rmult_le_compat_l; [lra|apply Rmult_le_compat_r; auto]).
    assert (Y3 : (3 * tp + t2) * Rabs r <= (3 * tp + t2) * 1) by (apply Rmult_le_compat_l; lra). assert (Y4 : uro * ((3 * tp + t2) * Rabs r) <= / 1024 * (3 * tp + t2)) by (apply Rmult_le_compat; try lra; apply Rmult_le_pos; lra).
    assert (Y5 : 0 <= uro * M * Rabs r) by (apply Rmult_le_pos; auto). lra. }
  exists (map (fun x => s * x)%float v). split; [|exact W]. unfold vmuls, vscale. apply wrap1_F. eapply Forall2_left. exact W.
Qed.
Print Assumptions C84_project_vector.

(** ** Rounded differences *)
Lemma dot_rel (x x' v : pt) : length x = length v -> Forall2 (fun y z => Rabs (y - z) <= uro * Rabs z) x' x -> Rabs (dot v x' - dot v x) <= uro * (len v * len x).
Proof.
  intros L F. assert (F' : Forall2 (fun a b => Rabs (a - b) <= uro * Rabs b + 0) x' x) by (eapply Forall2_weaken; [|exact F]; cbv beta; intros; lra). pose proof uro_pos as U.
  destruct (dot_affine uro 0 x' x v ltac:(lra) ltac:(lra) F' L) as (H & _). rewrite (dot_comm v x'), (dot_comm v x). eapply Rle_trans; [exact H|]. pose proof (absdot_cauchy x v L) as C. rewrite (Rmult_comm (len v)).
  assert (uro * absdot x v <= uro * (len x * len v)) by (apply Rmult_le_compat_l; lra). lra.
Qed.
Lemma len_rel (x x' : pt) : Forall2 (fun y z => Rabs (y - z) <= uro * Rabs z) x' x -> len x' <= (1 + uro) * len x.
Proof. intro F. pose proof uro_pos as U. pose proof (len_close uro _ _ ltac:(lra) F) as Q. apply Rabs_le_inv in Q. lra. Qed.
Lemma n_uro_small (n : nat) (c : Z) (M : R) : (Z.of_nat n <= max_dim)%Z -> (0 <= c <= 2 ^ 10)%Z -> 0 <= M -> (2 * INR n + IZR c) * uro * (uro * M) <= / 1024 * (uro * M).
Proof.
  intros Ln Hc HM. pose proof (ndim_small n c Ln Hc) as S. pose proof uro_pos as U. assert (0 <= IZR c) by (apply (IZR_le 0); lia). assert (B30 : bpow radix2 (-30) <= / 2048) by (replace (/ 2048) with (bpow radix2 (-11)) by (simpl; lra); apply bpow_le; lia). pose proof (pos_INR n).
  apply Rmult_le_compat_r; [apply Rmult_le_pos; lra|]. nra.
Qed.

(** ** Plane.distance_point_signed, distance_point, side_point *)
Lemma plane_new_F (p v : list flt) pl : plane_new (N:=FNum) p v = Ok pl -> pl = MkPlane (N:=FNum) p v /\ p <> [] /\ length v = length p.
Proof. intro H. unfold plane_new in H. destruct (check_point_vector p v) as [(p', d')| |] eqn:E; cbn [bind] in H; try discriminate. injection H as <-. apply check_F in E. destruct E as (-> & -> & Np & _ & _ & L & _). split; auto. Qed.
Lemma line_new_F (p v : list flt) l : line_new (N:=FNum) p v = Ok l -> l = MkLine (N:=FNum) p v /\ p <> [] /\ length v = length p.
Proof. intro H. unfold line_new in H. destruct (check_point_vector p v) as [(p', d')| |] eqn:E; cbn [bind] in H; try discriminate. injection H as <-. apply check_F in E. destruct E as (-> & -> & Np & _ & _ & L & _). split; auto. Qed.
Theorem C84_plane_distance_signed : forall (p v q : list flt) (pl : plane FNum), plane_new (N:=FNum) p v = Ok pl -> length q = length p -> (Z.of_nat (length p) <= max_dim)%Z ->
  Forall half_moderate p -> Forall half_moderate q -> Forall moderate v -> bpow radix2 (-400) <= len (map FR v) ->
  exists d, plane_distance_point_signed pl q = Ok d /\ finite d /\
    Rabs (FR d - dot (sub (map FR q) (map FR p)) (map FR v) / len (map FR v)) <= (2 * INR (length p) + 12) * bpow radix2 (-53) * dist (map FR p) (map FR q) + bpow radix2 (-550).
Proof.
  intros p v q pl Hpl Lq Ln Hp Hq Hv Lv. apply plane_new_F in Hpl as (-> & Np & Lvp). unfold plane_distance_point_signed. cbn [pl_point pl_normal].
  destruct (from_points_F p q Np (eq_sym Lq) Hp Hq) as (-> & Lo & Mo & Fo). cbn [bind]. set (o := map2 (N:=FNum) PrimFloat.sub q p) in *.
  assert (Lvo : length v = length o) by (exact (eq_trans Lvp (eq_sym Lo))). assert (Lnv : (Z.of_nat (length v) <= max_dim)%Z) by (rewrite Lvp; auto).
  destruct (C84_scalar_projection v o Lvo Lnv Hv Mo Lv) as (d & -> & Fd & Hd). exists d. split; auto. split; auto. pose proof (f_equal INR Lvp) as LR. fn. rewrite LR in Hd. clear LR.
  assert (Kp : 0 < len (map FR v)) by (eapply Rlt_le_trans; [apply bpow_gt_0|exact Lv]).
  pose proof (dot_rel (sub (map FR q) (map FR p)) (map FR o) (map FR v) ltac:(len) Fo) as DR. pose proof (len_rel _ _ Fo) as LR.
  rewrite (dist_sym (map FR p)). change (dist (map FR q) (map FR p)) with (len (sub (map FR q) (map FR p))). rewrite (dot_comm (sub (map FR q) (map FR p))). fold uro in *.
  set (M := len (sub (map FR q) (map FR p))) in *. set (K := len (map FR v)) in *. set (D := dot (map FR v) (sub (map FR q) (map FR p))) in *. set (D' := dot (map FR v) (map FR o)) in *.
  assert (M0 : 0 <= M) by apply len_nonneg. pose proof (n_uro_small (length p) 10 M Ln ltac:(lia) M0) as NS. pose proof uro_pos as U. pose proof (pos_INR (length p)) as Pn. set (n := INR (length p)) in *.
  assert (E1 : Rabs (D' / K - D / K) <= uro * M). { replace (D' / K - D / K) with ((D' - D) / K) by (field; lra). unfold Rdiv. rewrite Rabs_mult, Rabs_inv, (Rabs_pos_eq K) by lra. apply Rmult_le_reg_r with K; auto. rewrite Rmult_assoc, Rinv_l by lra. lra. }
  pose proof (Rabs_triang (FR d - D' / K) (D' / K - D / K)) as T. replace (FR d - D' / K + (D' / K - D / K)) with (FR d - D / K) in T by ring.
  assert (H1 : (2 * n + 10) * uro * len (map FR o) <= (2 * n + 10) * uro * ((1 + uro) * M)) by (apply Rmult_le_compat_l; [apply Rmult_le_pos; lra|exact LR]). assert (0 <= uro * M) by (apply Rmult_le_pos; lra). lra.
Qed.
Print Assumptions C84_plane_distance_signed.

Theorem C84_plane_distance : forall (p v q : list flt) (pl : plane FNum), plane_new (N:=FNum) p v = Ok pl -> length q = length p -> (Z.of_nat (length p) <= max_dim)%Z ->
  Forall half_moderate p -> Forall half_moderate q -> Forall moderate v -> bpow radix2 (-400) <= len (map FR v) ->
  let signed := dot (sub (map FR q) (map FR p)) (map FR v) / len (map FR v) in let e := (2 * INR (length p) + 12) * bpow radix2 (-53) * dist (map FR p) (map FR q) + bpow radix2 (-550) in
  (exists d, plane_distance_point pl q = Ok d /\ finite d /\ 0 <= FR d /\ Rabs (FR d - Rabs signed) <= e) /\
  (exists s, plane_side_point pl q = Ok s /\ (e < signed -> s = 1%Z) /\ (signed < - e -> s = (-1)%Z)).
Proof.
  intros p v q pl Hpl Lq Ln Hp Hq Hv Lv signed e. destruct (C84_plane_distance_signed p v q pl Hpl Lq Ln Hp Hq Hv Lv) as (d & Ed & Fd & Hd). fold signed e in Hd. split.
  - exists (PrimFloat.abs d). unfold plane_distance_point. rewrite Ed. cbn [bind]. split; [reflexivity|]. split; [apply abs_finite; auto|]. rewrite abs_F. split; [apply Rabs_pos|]. eapply Rle_trans; [apply Rabs_triang_inv2|exact Hd].
  - unfold plane_side_point. rewrite Ed. cbn [bind]. rewrite int_sign_F by auto. eexists. split; [reflexivity|]. apply Rabs_le_inv in Hd. destruct zero_F as (Z & Fz).
    assert (e0 : 0 <= e) by (unfold e; apply Rplus_le_le_0_compat; [apply Rmult_le_pos; [apply Rmult_le_pos; [pose proof (pos_INR (length p)); lra|apply bpow_ge_0]|apply len_nonneg]|apply bpow_ge_0]).
    unfold nsign. change (nltb (n:=FNum)) with PrimFloat.ltb. change (n0 (n:=FNum)) with 0%float. split; intro H.
    + destruct (PrimFloat.ltb d 0) eqn:E; [apply (ltb_F d 0%float Fd Fz) in E; lra|]. rewrite (proj2 (ltb_F 0%float d Fz Fd)) by lra. reflexivity.
    + rewrite (proj2 (ltb_F d 0%float Fd Fz)) by lra. reflexivity.
Qed.
Print Assumptions C84_plane_distance.

(** ** The foot of a perpendicular: Line.project_point, Plane.project_point *)
(** base + project_vector(direction, target - base), the sum both methods compute *)
Lemma adds_ok (p w : list flt) : length p = length w -> Forall half_moderate p -> Forall (fun x => finite x /\ Rabs (FR x) <= bpow radix2 513) w ->
  Forall finite (map2 (N:=FNum) PrimFloat.add p w) /\ length (map2 (N:=FNum) PrimFloat.add p w) = length p /\
  Forall2 (fun y z => Rabs (y - z) <= uro * Rabs z) (map FR (map2 (N:=FNum) PrimFloat.add p w)) (add (map FR p) (map FR w)).
Proof.
  revert w. induction p as [|x p IH]; intros [|y w] L Hp Hw; try discriminate L; cbn [map2 map add length]; [repeat constructor|].
  inversion_clear Hp as [|? ? (Fx & Hx) Hp']. inversion_clear Hw as [|? ? (Fy & Hy) Hw']. destruct (IH w ltac:(simpl in L; lia) Hp' Hw') as (I1 & I2 & I3).
  destruct (fin_add x y Fx Fy) as (F & E).
  { eapply Rle_lt_trans; [apply (rnd_bpow_le _ 514); [lia|]|apply bpow_lt; lia]. eapply Rle_trans; [apply Rabs_triang|]. assert (bpow radix2 499 <= bpow radix2 513) by (apply bpow_le; lia). change 514%Z with (1 + 513)%Z. rewrite bpow_plus. change (bpow radix2 1) with 2. lra. }
  split; [constructor; auto|]. split; [cbn; f_equal; exact I2|]. constructor; auto. rewrite E. apply rnd_plus.
Qed.
Ltac lenr := repeat first [ rewrite length_add | rewrite length_sub | rewrite length_scale ]; lia.
Lemma foot_F (p v q : list flt) : p <> [] -> length v = length p -> length q = length p -> (Z.of_nat (length p) <= max_dim)%Z ->
  Forall half_moderate p -> Forall half_moderate q -> Forall moderate v -> bpow radix2 (-400) <= len (map FR v) ->
  forall f, on_line (map FR p) (map FR v) f -> dot (sub (map FR q) f) (map FR v) = 0 ->
  exists o w r, from_points (N:=FNum) p q = Ok o /\ project_vector (N:=FNum) v o = Ok w /\ vadd (N:=FNum) p w = Ok r /\ Forall finite r /\ length r = length p /\
    dist (map FR r) f <= (2 * INR (length p) + 13) * bpow radix2 (-53) * dist (map FR p) (map FR q) + bpow radix2 (-53) * len f + bpow radix2 (-539).
Proof.
  intros Np Lv Lq Ln Hp Hq Hv Kl f (t & Ef) Hf.
  destruct (from_points_F p q Np (eq_sym Lq) Hp Hq) as (Eo & Lo & Mo & Fo). set (o := map2 (N:=FNum) PrimFloat.sub q p) in *. exists o.
  assert (Lvo : length v = length o) by (exact (eq_trans Lv (eq_sym Lo))). assert (Lnv : (Z.of_nat (length v) <= max_dim)%Z) by (rewrite Lv; auto).
  destruct (C84_project_vector v o Lvo Lnv Hv Mo Kl) as (w & Ew & Hw). exists w. assert (Lw : length w = length v) by exact (Forall2_len _ _ _ Hw). assert (Lpw : length p = length w) by exact (eq_sym (eq_trans Lw Lv)).
  rewrite Lv in Hw. pose proof (dot_rel (sub (map FR q) (map FR p)) (map FR o) (map FR v) ltac:(len) Fo) as DR. pose proof (len_rel _ _ Fo) as LR.
  assert (LvoR : length (map FR v) = length (map FR o)) by (rewrite !map_length; exact Lvo). pose proof (cauchy_schwarz (map FR v) (map FR o) LvoR) as CS.
  assert (Lno : (Z.of_nat (length o) <= max_dim)%Z) by (rewrite <- Lvo; auto). pose proof (len_510 o Lno Mo) as M5.
  assert (Et : t = dot (map FR v) (sub (map FR q) (map FR p)) / (len (map FR v) * len (map FR v))).
  { rewrite len_sq. assert (NZ : dot (map FR v) (map FR v) <> 0). { rewrite <- len_sq. assert (0 < len (map FR v)) by (eapply Rlt_le_trans; [apply bpow_gt_0|exact Kl]). nra. }
    rewrite Ef, (dot_comm _ (map FR v)), dot_sub_r, dot_add_r, dot_scale_r in Hf by len. rewrite dot_sub_r by len. field_simplify_eq; auto. lra. }
  rewrite <- len_sq in Hw. change (dist (map FR p) (map FR q)) with (len (sub (map FR p) (map FR q))). replace (len (sub (map FR p) (map FR q))) with (len (sub (map FR q) (map FR p))) by (change (dist (map FR q) (map FR p) = dist (map FR p) (map FR q)); apply dist_sym).
  assert (CO : forall x, In x v -> Rabs (FR x) <= len (map FR v)) by (intros x Hx; apply coord_le, in_map; auto).
  fold uro in *. set (K := len (map FR v)) in *. assert (Kp : 0 < K) by (eapply Rlt_le_trans; [apply bpow_gt_0|exact Kl]). set (D := dot (map FR v) (sub (map FR q) (map FR p))) in *. set (D' := dot (map FR v) (map FR o)) in *.
  set (M := len (sub (map FR q) (map FR p))) in *. set (M' := len (map FR o)) in *. assert (M0 : 0 <= M) by apply len_nonneg. assert (M0' : 0 <= M') by apply len_nonneg. set (n := INR (length p)) in *.
  pose proof (n_uro_small (length p) 10 M Ln ltac:(lia) M0) as NS. fold n in NS. pose proof uro_small as (U & U'). pose proof (pos_INR (length p)) as Pn. fold n in Pn. pose proof (ndim_small (length p) 12 Ln ltac:(lia)) as S12. fold n in S12.
  assert (B30 : bpow radix2 (-30) <= / 2048) by (replace (/ 2048) with (bpow radix2 (-11)) by (simpl; lra); apply bpow_le; lia).
  assert (UM : 0 <= uro * M) by (apply Rmult_le_pos; lra).
  assert (Hw2 : Forall2 (fun y x => (finite y /\ Rabs (FR y) <= bpow radix2 513) /\ Rabs (FR y - t * FR x) <= (2 * n + 12) * uro * M / K * Rabs (FR x) + bpow radix2 (-560)) w v).
  { eapply Forall2_weaken; [|exact Hw]. intros y x _ Hx (Fy & Hy). pose proof (CO x Hx) as Cx. set (r := Rabs (FR x) / K) in *. assert (Er : Rabs (FR x) = r * K) by (unfold r; field; lra).
    assert (r0 : 0 <= r) by (unfold r, Rdiv; apply Rmult_le_pos; [apply Rabs_pos|left; apply Rinv_0_lt_compat; auto]). assert (r1 : r <= 1) by (apply Rmult_le_reg_r with K; lra).
    assert (Q1 : Rabs (D' / (K * K) * FR x) <= M').
    { unfold Rdiv. rewrite !Rabs_mult, Rabs_inv, Rabs_mult, (Rabs_pos_eq K), Er by lra. replace (Rabs D' * / (K * K) * (r * K)) with (Rabs D' * / K * r) by (field; lra).
      assert (Rabs D' * / K <= M'). { apply Rmult_le_reg_r with K; auto. rewrite Rmult_assoc, Rinv_l by lra. lra. } assert (0 <= Rabs D' * / K) by (apply Rmult_le_pos; [apply Rabs_pos|left; apply Rinv_0_lt_compat; auto]). nra. }
    assert (Q2 : Rabs (D' / (K * K) * FR x - t * FR x) <= uro * M * r).
    { rewrite Et. replace (D' / (K * K) * FR x - D / (K * K) * FR x) with ((D' - D) / (K * K) * FR x) by (field; lra). unfold Rdiv. rewrite !Rabs_mult, Rabs_inv, Rabs_mult, (Rabs_pos_eq K), Er by lra.
      replace (Rabs (D' - D) * / (K * K) * (r * K)) with (Rabs (D' - D) * / K * r) by (field; lra). apply Rmult_le_compat_r; auto. apply Rmult_le_reg_r with K; auto. rewrite Rmult_assoc, Rinv_l by lra. lra. }
    assert (T0 : (2 * n + 10) * uro * M' * r <= (2 * n + 10) * uro * ((1 + uro) * M) * r) by (apply Rmult_le_compat_r; auto; apply Rmult_le_compat_l; [apply Rmult_le_pos; lra|exact LR]).
    assert (T1 : (2 * n + 10) * uro * (uro * M) * r <= / 1024 * (uro * M) * r) by (apply Rmult_le_compat_r; auto). assert (T2 : 0 <= uro * M * r) by (apply Rmult_le_pos; auto). split; [split; auto|].
    - pose proof (Rabs_triang (FR y - D' / (K * K) * FR x) (D' / (K * K) * FR x)) as T. replace (FR y - D' / (K * K) * FR x + D' / (K * K) * FR x) with (FR y) in T by ring.
      assert ((2 * n + 10) * uro * M' * r <= 1 * M' * 1) by (apply Rmult_le_compat; auto; [apply Rmult_le_pos; auto; apply Rmult_le_pos; lra|apply Rmult_le_compat_r; auto; lra]).
      assert (bpow radix2 (-560) <= 1) by (change 1 with (bpow radix2 0); apply bpow_le; lia). assert (1 <= bpow radix2 510) by (change 1 with (bpow radix2 0); apply bpow_le; lia). change 513%Z with (3 + 510)%Z. rewrite bpow_plus. change (bpow radix2 3) with 8. lra.
    - pose proof (Rabs_triang (FR y - D' / (K * K) * FR x) (D' / (K * K) * FR x - t * FR x)) as T. replace (FR y - D' / (K * K) * FR x + (D' / (K * K) * FR x - t * FR x)) with (FR y - t * FR x) in T by ring.
      rewrite Er. replace ((2 * n + 12) * uro * M / K * (r * K)) with ((2 * n + 12) * uro * M * r) by (field; lra). lra. }
  destruct (adds_ok p w Lpw Hp (Forall2_left _ _ _ _ Hw2)) as (Fr & Lr & Cr). exists (map2 (N:=FNum) PrimFloat.add p w). set (rr := map2 (N:=FNum) PrimFloat.add p w) in *.
  split; [exact Eo|]. split; [exact Ew|]. split; [|split; [exact Fr|split; [exact Lr|]]].
  { unfold vadd. change (nadd (n:=FNum)) with PrimFloat.add. rewrite (bcast_F _ p w Lpw). cbn [bind]. apply wrap1_F. exact Fr. }
  assert (DW : dist (map FR w) (scale t (map FR v)) <= (2 * n + 12) * uro * M + bpow radix2 (-540)).
  { assert (al0 : 0 <= (2 * n + 12) * uro * M / K) by (unfold Rdiv; apply Rmult_le_pos; [apply Rmult_le_pos; [apply Rmult_le_pos; lra|auto]|left; apply Rinv_0_lt_compat; auto]).
    unfold dist. eapply Rle_trans; [apply (len_affine ((2 * n + 12) * uro * M / K) (bpow radix2 (-560)) _ (map FR v)); [exact al0|apply bpow_ge_0|]|].
    - clear - Hw2. generalize dependent ((2 * n + 12) * uro * M / K). intros al Hw2. clear - Hw2. induction Hw2 as [|y x w v (_ & H) F IH]; [constructor|]. cbn [map sub scale]. constructor; [exact H|exact IH].
    - fold K. replace ((2 * n + 12) * uro * M / K * K) with ((2 * n + 12) * uro * M) by (field; lra). apply Rplus_le_compat_l. rewrite map_length. change (-540)%Z with (20 + -560)%Z. rewrite bpow_plus. apply Rmult_le_compat_r; [apply bpow_ge_0|].
      rewrite INR_IZR_INZ. change (bpow radix2 20) with (IZR (2 ^ 20)). apply IZR_le. exact Lnv. }
  assert (LwR : length (map FR w) = length (map FR p)) by (rewrite !map_length; exact (eq_sym Lpw)).
  assert (LrR : length (map FR rr) = length (map FR p)) by (rewrite !map_length; exact Lr). assert (LvR : length (map FR v) = length (map FR p)) by (rewrite !map_length; exact Lv).
  assert (D2 : dist (add (map FR p) (map FR w)) f = dist (map FR w) (scale t (map FR v))) by (rewrite Ef; unfold dist; rewrite sub_add_add by lenr; reflexivity).
  assert (D1 : dist (map FR rr) (add (map FR p) (map FR w)) <= uro * len (add (map FR p) (map FR w))).
  { unfold dist. eapply Rle_trans; [apply (len_affine uro 0 _ (add (map FR p) (map FR w))); [lra|lra|]|].
    - clear - Cr. induction Cr as [|y z l m H F IH]; cbn [sub]; constructor; [rewrite Rplus_0_r; exact H|exact IH].
    - lra. }
  assert (Lf : length f = length (map FR p)) by (rewrite Ef; lenr).
  assert (La : len (add (map FR p) (map FR w)) <= dist (add (map FR p) (map FR w)) f + len f).
  { unfold dist. eapply Rle_trans; [|apply len_triangle; lenr]. right. rewrite (add_comm (sub _ f)), add_sub_cancel by lenr. reflexivity. }
  pose proof (dist_triangle (map FR rr) (add (map FR p) (map FR w)) f ltac:(lenr) ltac:(lenr)) as DT. rewrite D2 in *.
  assert (uro * len (add (map FR p) (map FR w)) <= uro * (dist (map FR w) (scale t (map FR v)) + len f)) by (apply Rmult_le_compat_l; lra).
  assert (E1 : uro * dist (map FR w) (scale t (map FR v)) <= uro * ((2 * n + 12) * uro * M + bpow radix2 (-540))) by (apply Rmult_le_compat_l; lra).
  pose proof (n_uro_small (length p) 12 M Ln ltac:(lia) M0) as NS2. fold n in NS2. pose proof (bpow_gt_0 radix2 (-540)) as B540. assert (uro * bpow radix2 (-540) <= / 1024 * bpow radix2 (-540)) by (apply Rmult_le_compat_r; lra).
  assert (B539 : bpow radix2 (-539) = 2 * bpow radix2 (-540)) by (change (-539)%Z with (1 + -540)%Z; rewrite bpow_plus; reflexivity). lra.
Qed.
Theorem C84_line_project_point : forall (p v q : list flt) (l : line FNum), line_new (N:=FNum) p v = Ok l -> length q = length p -> (Z.of_nat (length p) <= max_dim)%Z ->
  Forall half_moderate p -> Forall half_moderate q -> Forall moderate v -> bpow radix2 (-400) <= len (map FR v) ->
  forall f, on_line (map FR p) (map FR v) f -> dot (sub (map FR q) f) (map FR v) = 0 ->
  exists r, line_project_point l q = Ok r /\ Forall finite r /\ length r = length p /\
    dist (map FR r) f <= (2 * INR (length p) + 13) * bpow radix2 (-53) * dist (map FR p) (map FR q) + bpow radix2 (-53) * len f + bpow radix2 (-539).
Proof.
  intros p v q l Hl Lq Ln Hp Hq Hv Kl f Of Hf. apply line_new_F in Hl as (-> & Np & Lv). destruct (foot_F p v q Np Lv Lq Ln Hp Hq Hv Kl f Of Hf) as (o & w & r & Eo & Ew & Er & Fr & Lr & D). exists r.
  split; [|auto]. unfold line_project_point. cbn [l_point l_dir]. rewrite Eo. cbn [bind]. rewrite Ew. cbn [bind]. exact Er.
Qed.
Print Assumptions C84_line_project_point.
Theorem C84_plane_project_point : forall (p v q : list flt) (pl : plane FNum), plane_new (N:=FNum) p v = Ok pl -> length q = length p -> (Z.of_nat (length p) <= max_dim)%Z ->
  Forall half_moderate p -> Forall half_moderate q -> Forall moderate v -> bpow radix2 (-400) <= len (map FR v) ->
  forall f, on_plane (map FR p) (map FR v) f -> on_line (map FR q) (map FR v) f ->
  exists r, plane_project_point pl q = Ok r /\ Forall finite r /\ length r = length p /\
    dist (map FR r) f <= (2 * INR (length p) + 13) * bpow radix2 (-53) * dist (map FR p) (map FR q) + bpow radix2 (-53) * len f + bpow radix2 (-539).
Proof.
  intros p v q pl Hl Lq Ln Hp Hq Hv Kl f (Lf & Hf) Of. apply plane_new_F in Hl as (-> & Np & Lv). assert (Nq : q <> []) by (intro E; rewrite E in Lq; destruct p; [contradiction|discriminate Lq]).
  assert (Hf' : dot (sub (map FR p) f) (map FR v) = 0). { rewrite dot_sub_l in Hf |- * by lenr. lra. }
  destruct (foot_F q v p Nq (eq_trans Lv (eq_sym Lq)) (eq_sym Lq) ltac:(rewrite Lq; auto) Hq Hp Hv Kl f Of Hf') as (o & w & r & Eo & Ew & Er & Fr & Lr & D). exists r. rewrite dist_sym, Lq in D.
  split; [|split; [auto|split; [exact (eq_trans Lr Lq)|]]].
  - unfold plane_project_point. cbn [pl_point pl_normal]. rewrite Eo. cbn [bind]. rewrite Ew. cbn [bind]. change (point_of (N:=FNum)) with (vector_of (N:=FNum)). rewrite (vector_of_ok q Nq (moderate_finite _ (half_moderate_m _ Hq))). cbn [bind]. exact Er.
  - rewrite (dist_sym (map FR r)). rewrite (dist_sym (map FR p)). exact D.
Qed.
Print Assumptions C84_plane_project_point.

(** ** Line.distance_point *)
(** Coordinates up to 2^400, so that the projected point stays below 2^500. *)
Definition tame (x : flt) : Prop := finite x /\ Rabs (FR x) <= bpow radix2 400.
Lemma tame_half v : Forall tame v -> Forall half_moderate v.
Proof. intro H. eapply Forall_impl; [|exact H]. intros x (F & B). split; auto. eapply Rle_trans; [exact B|]. apply bpow_le. lia. Qed.
Lemma len_410 (w : list flt) : (Z.of_nat (length w) <= max_dim)%Z -> Forall tame w -> len (map FR w) <= bpow radix2 420.
Proof.
  intros Lw Hw. eapply Rle_trans; [apply (len_affine 0 (bpow radix2 400) _ (map FR w)); [lra|apply bpow_ge_0|]|].
  - clear Lw. induction Hw as [|x w (_ & H) Hw IH]; cbn [map]; constructor; auto. lra.
  - rewrite Rmult_0_l, Rplus_0_l, map_length. change 420%Z with (20 + 400)%Z. rewrite bpow_plus. apply Rmult_le_compat_r; [apply bpow_ge_0|]. rewrite INR_IZR_INZ. change (bpow radix2 20) with (IZR (2 ^ 20)). apply IZR_le. exact Lw.
Qed.
Lemma foot_near (p v q f : pt) : length v = length p -> length q = length p -> on_line p v f -> dot (sub q f) v = 0 -> dist f q <= dist p q /\ length f = length p /\ len f <= len p + dist p q.
Proof.
  intros Lv Lq (t & Ef) H. assert (Lf : length f = length p) by (rewrite Ef; len).
  assert (P : dist p q * dist p q = dist f q * dist f q + dist p f * dist p f).
  { unfold dist. rewrite !len_sq. assert (E : sub p q = add (sub p f) (sub f q)) by (rewrite Ef; clear - Lv Lq; revert v q Lv Lq; induction p as [|x p IH]; intros [|y v] [|z q] Lv Lq; try discriminate; cbn; auto; f_equal; [ring|apply IH; simpl in *; lia]). rewrite E at 1 2.
    rewrite dot_add_l, !dot_add_r by len. assert (Z : dot (sub f q) (sub p f) = 0).
    { assert (Es : sub p f = scale (- t) v) by (rewrite Ef; clear - Lv; revert v Lv; induction p as [|x p IH]; intros [|y v] Lv; try discriminate; cbn; auto; f_equal; [ring|apply IH; simpl in *; lia]). rewrite Es, dot_scale_r. rewrite dot_sub_l in H |- * by len. nra. }
    rewrite (dot_comm (sub p f) (sub f q)), Z. ring. }
  pose proof (len_nonneg (sub p q)) as N1. pose proof (len_nonneg (sub f q)) as N2. pose proof (len_nonneg (sub p f)) as N3. fold (dist p q) in N1. fold (dist f q) in N2. fold (dist p f) in N3.
  split; [apply Rsqr_incr_0; unfold Rsqr; auto; nra|]. split; auto. assert (F1 : dist f p <= dist p q) by (rewrite dist_sym; apply Rsqr_incr_0; unfold Rsqr; auto; nra).
  pose proof (len_triangle p (sub f p) ltac:(len)) as T. rewrite add_sub_cancel in T by len. fold (dist f p) in T. lra.
Qed.
Theorem C84_line_distance_point : forall (p v q : list flt) (l : line FNum), line_new (N:=FNum) p v = Ok l -> length q = length p -> (Z.of_nat (length p) <= max_dim)%Z ->
  Forall tame p -> Forall tame q -> Forall moderate v -> bpow radix2 (-400) <= len (map FR v) ->
  forall f, on_line (map FR p) (map FR v) f -> dot (sub (map FR q) f) (map FR v) = 0 ->
  exists d, line_distance_point l q = Ok d /\ finite d /\ 0 <= FR d /\
    Rabs (FR d - dist (map FR q) f) <= (3 * INR (length p) + 22) * bpow radix2 (-53) * (dist (map FR p) (map FR q) + len (map FR p)) + bpow radix2 (-510).
Proof.
  intros p v q l Hl Lq Ln Hp Hq Hv Kl f Of Hf. destruct (C84_line_project_point p v q l Hl Lq Ln (tame_half _ Hp) (tame_half _ Hq) Hv Kl f Of Hf) as (r & Er & Fr & Lr & D).
  apply line_new_F in Hl as (-> & Np & Lv). assert (LvR : length (map FR v) = length (map FR p)) by (rewrite !map_length; exact Lv). assert (LqR : length (map FR q) = length (map FR p)) by (rewrite !map_length; exact Lq).
  destruct (foot_near (map FR p) (map FR v) (map FR q) f LvR LqR Of Hf) as (N1 & Lf & N2). assert (LrR : length (map FR r) = length (map FR p)) by (rewrite !map_length; exact Lr).
  assert (Lnq : (Z.of_nat (length q) <= max_dim)%Z) by (rewrite Lq; auto). pose proof (len_410 p Ln Hp) as P4. pose proof (len_410 q Lnq Hq) as Q4.
  assert (DQ : dist (map FR p) (map FR q) <= len (map FR p) + len (map FR q)).
  { unfold dist. rewrite sub_scale by (symmetry; exact LqR). eapply Rle_trans; [apply len_triangle; lenr|]. rewrite len_scale. rewrite Rabs_left by lra. lra. }
  fold uro in *. set (M := dist (map FR p) (map FR q)) in *. assert (M0 : 0 <= M) by apply len_nonneg. set (P := len (map FR p)) in *. assert (P0 : 0 <= P) by apply len_nonneg. pose proof (len_nonneg f) as F0. pose proof uro_small as (U & U').
  set (n := INR (length p)) in *. pose proof (pos_INR (length p)) as Pn. fold n in Pn. pose proof (ndim_small (length p) 13 Ln ltac:(lia)) as S13. fold n in S13.
  assert (B30 : bpow radix2 (-30) <= / 2048) by (replace (/ 2048) with (bpow radix2 (-11)) by (simpl; lra); apply bpow_le; lia). assert (B539 : bpow radix2 (-539) <= 1) by (change 1 with (bpow radix2 0); apply bpow_le; lia).
  assert (NU : (2 * n + 13) * uro <= / 1024) by lra. assert (NUM : (2 * n + 13) * uro * M <= / 1024 * M) by (apply Rmult_le_compat_r; auto). assert (UF : uro * len f <= / 1024 * len f) by (apply Rmult_le_compat_r; auto).
  assert (Mr : Forall moderate r).
  { rewrite Forall_forall in Fr |- *. intros x Hx. split; auto. eapply Rle_trans; [apply coord_le, in_map; exact Hx|].
    assert (len (map FR r) <= dist (map FR r) f + len f). { unfold dist. eapply Rle_trans; [|apply len_triangle; lenr]. right. rewrite (add_comm (sub _ f)), add_sub_cancel by lenr. reflexivity. }
    assert (B : bpow radix2 423 <= bpow radix2 500) by (apply bpow_le; lia). change 423%Z with (3 + 420)%Z in B. rewrite bpow_plus in B. change (bpow radix2 3) with 8 in B. assert (1 <= bpow radix2 420) by (change 1 with (bpow radix2 0); apply bpow_le; lia). lra. }
  assert (Nr : r <> []) by (intro E; rewrite E in Lr; destruct p; [contradiction|discriminate Lr]). assert (Lrq : length r = length q) by exact (eq_trans Lr (eq_sym Lq)).
  assert (Lr' : @length flt r = @length flt p) by exact Lr. assert (Lnr : (Z.of_nat (@length flt r) <= max_dim)%Z) by (rewrite Lr'; auto).
  destruct (C73_distance_accurate r q Nr Lrq Lnr Mr (half_moderate_m _ (tame_half _ Hq))) as (d & Ed & Fd & Hd). exists d.
  unfold line_distance_point. rewrite Er. cbn [bind]. split; [exact Ed|]. split; auto.
  split. { unfold distance_point in Ed. destruct (from_points _ _) as [w| |]; cbn [bind] in Ed; try discriminate. unfold norm in Ed. injection Ed as <-. change (norm_raw (N:=FNum) w) with (PrimFloat.sqrt (dot_raw (N:=FNum) w w)) in *. apply finite_not_nan in Fd as Nd. pose proof (sqrt_nonneg_F _ Nd) as H. apply (leb_F _ _ (proj2 zero_F) Fd) in H. rewrite (proj1 zero_F) in H. exact H. }
  rewrite Lr' in Hd. fold uro n in Hd. clear Ed. rewrite (dist_sym (map FR q) f).
  pose proof (dist_triangle (map FR r) f (map FR q) ltac:(lenr) ltac:(lenr)) as T1. pose proof (dist_triangle f (map FR r) (map FR q) ltac:(lenr) ltac:(lenr)) as T2. rewrite (dist_sym f (map FR r)) in T2.
  set (E := dist (map FR r) f) in *. set (G := dist (map FR r) (map FR q)) in *. set (H := dist f (map FR q)) in *. assert (E0 : 0 <= E) by apply len_nonneg.
  assert (X1 : (n + 5) * uro * G <= (n + 5) * uro * (E + M)) by (apply Rmult_le_compat_l; [apply Rmult_le_pos; lra|lra]). assert (X2 : (n + 5) * uro * E <= / 1024 * E) by (apply Rmult_le_compat_r; lra).
  pose proof (n_uro_small (length p) 13 M Ln ltac:(lia) M0) as NS. fold n in NS.
  assert (X3 : (2 * n + 13) * uro * M <= (2 * n + 13) * uro * M * 1) by lra.
  assert (UM : 0 <= uro * M) by (apply Rmult_le_pos; lra). assert (UP : 0 <= uro * P) by (apply Rmult_le_pos; lra). assert (UF2 : uro * len f <= uro * (P + M)) by (apply Rmult_le_compat_l; lra).
  assert (B1 : bpow radix2 (-539) <= bpow radix2 (-520)) by (apply bpow_le; lia). assert (B2 : bpow radix2 (-510) = 1024 * bpow radix2 (-520)) by (change (-510)%Z with (10 + -520)%Z; rewrite bpow_plus; reflexivity). pose proof (bpow_gt_0 radix2 (-520)) as B3.
  (* X2 is used with the small factor n u <= 2^-30 *)
  assert (X4 : (n + 5) * uro * E <= (n + 5) * uro * ((2 * n + 13) * uro * M + uro * (P + M) + bpow radix2 (-539))) by (apply Rmult_le_compat_l; [apply Rmult_le_pos; lra|lra]).
  assert (X5 : (n + 5) * uro * ((2 * n + 13) * uro) <= / 32 * uro). { pose proof (sq_small (length p) 5 6 Ln ltac:(lia) ltac:(lia)) as Q. fold n in Q. pose proof (sq_small (length p) 5 7 Ln ltac:(lia) ltac:(lia)) as Q'. fold n in Q'. lra. }
  assert (X6 : (n + 5) * uro * ((2 * n + 13) * uro * M) <= / 32 * uro * M) by (rewrite <- Rmult_assoc; apply Rmult_le_compat_r; auto).
  assert (X7 : (n + 5) * uro * (uro * (P + M)) <= / 1024 * (uro * (P + M))) by (apply Rmult_le_compat_r; lra). assert (X8 : (n + 5) * uro * bpow radix2 (-539) <= 1 * bpow radix2 (-520)) by (apply Rmult_le_compat; try lra; [apply Rmult_le_pos; lra|apply bpow_ge_0]).
  apply Rabs_le. apply Rabs_le_inv in Hd. assert (NP : 0 <= (3 * n + 20) * uro * P) by (apply Rmult_le_pos; [apply Rmult_le_pos|]; lra). lra.
Qed.
Print Assumptions C84_line_distance_point.

(** ** contains_point with an absolute tolerance *)
(** math.isclose(d, 0, abs_tol=a) *)
Lemma isclose_abs_F (a d : flt) : finite a -> 0 <= FR a -> finite d -> exists r, isclose (MkTol (N:=FNum) relF a) d 0%float = Ok r /\ (r = true <-> Rabs (FR d) <= FR a).
Proof.
  intros Fa Ha Fd. destruct zero_F as (Z & Fz). destruct relF_val as (Fr & Er). unfold isclose. cbn [rel_tol abs_tol]. change (nltb (n:=FNum)) with PrimFloat.ltb. change (n0 (n:=FNum)) with 0%float.
  destruct (PrimFloat.ltb relF 0) eqn:E1. { apply (ltb_F _ _ Fr Fz) in E1. rewrite Er, Z in E1. pose proof rel_default_small as RS. pose proof (bpow_gt_0 radix2 (-30)). lra. }
  destruct (PrimFloat.ltb a 0) eqn:E2. { apply (ltb_F _ _ Fa Fz) in E2. rewrite Z in E2. lra. } cbn [orb]. change (neqb (n:=FNum)) with PrimFloat.eqb.
  destruct (PrimFloat.eqb d 0) eqn:E3. { exists true. split; auto. apply (eqb_F _ _ Fd Fz) in E3. rewrite E3, Z, Rabs_R0. tauto. }
  assert (E : FR d <> 0) by (intro Q; rewrite <- Z in Q; apply (eqb_F _ _ Fd Fz) in Q; congruence).
  change (nfin (n:=FNum)) with f_finite. rewrite (proj2 (f_finite_iff d) Fd), (proj2 (f_finite_iff _) Fz). cbn [negb orb]. eexists. split; [reflexivity|].
  pose proof rel_default_small as RS. pose proof (bpow_gt_0 radix2 (-30)) as B30. pose proof (FR_min d E) as Mn. pose proof eta_pos as Ep. pose proof (Rabs_pos (FR d)) as Pd.
  destruct (fin_sub 0%float d Fz Fd) as (Fs & Es).
  { rewrite Z. replace (0 - FR d) with (- FR d) by ring. rewrite rnd_opp, rnd_FR, Rabs_Ropp by auto. unfold FR. apply abs_B2R_lt_emax. }
  rewrite Z in Es. replace (0 - FR d) with (- FR d) in Es by ring. rewrite rnd_opp, rnd_FR in Es by auto.
  assert (Rd : Rabs (rel_default * FR d) <= / 1024 * Rabs (FR d)) by (rewrite Rabs_mult, (Rabs_pos_eq rel_default) by lra; apply Rmult_le_compat_r; lra).
  pose proof (rnd_err (rel_default * FR d)) as Re. pose proof uro_small as (U1 & U2).
  assert (Rm : Rabs (rnd (rel_default * FR d)) < Rabs (FR d)).
  { pose proof (Rabs_triang (rnd (rel_default * FR d) - rel_default * FR d) (rel_default * FR d)) as T. replace (rnd (rel_default * FR d) - rel_default * FR d + rel_default * FR d) with (rnd (rel_default * FR d)) in T by ring.
    assert (uro * Rabs (rel_default * FR d) <= / 1024 * (/ 1024 * Rabs (FR d))) by (apply Rmult_le_compat; try lra; apply Rabs_pos). lra. }
  destruct (fin_mul relF d Fr Fd) as (Fm & Em). { rewrite Er. eapply Rlt_le_trans; [exact Rm|]. left. unfold FR. apply abs_B2R_lt_emax. }
  destruct (fin_mul relF 0%float Fr Fz) as (Fm0 & Em0). { rewrite Z, Rmult_0_r, rnd_0, Rabs_R0. apply bpow_gt_0. }
  rewrite Z, Rmult_0_r, rnd_0 in Em0. rewrite Er in Em. change (nleb (n:=FNum)) with PrimFloat.leb. change (nabs (n:=FNum)) with PrimFloat.abs. change (nmul (n:=FNum)) with PrimFloat.mul. change (nsub (n:=FNum)) with PrimFloat.sub.
  rewrite !orb_true_iff. rewrite (leb_abs _ _ Fs Fm0), (leb_abs _ _ Fs Fm). rewrite (leb_F _ _ (proj2 (abs_finite _) Fs) Fa), abs_F. rewrite Es, Em, Em0, Rabs_Ropp, Rabs_R0. split; [|auto]. intros [[H|H]|H]; lra.
Qed.
Theorem C84_line_contains_point : forall (p v q : list flt) (l : line FNum) (a : flt), line_new (N:=FNum) p v = Ok l -> length q = length p -> (Z.of_nat (length p) <= max_dim)%Z ->
  Forall tame p -> Forall tame q -> Forall moderate v -> bpow radix2 (-400) <= len (map FR v) -> finite a -> 0 <= FR a ->
  forall f, on_line (map FR p) (map FR v) f -> dot (sub (map FR q) f) (map FR v) = 0 ->
  let e := (3 * INR (length p) + 22) * bpow radix2 (-53) * (dist (map FR p) (map FR q) + len (map FR p)) + bpow radix2 (-510) in
  exists r, line_contains_point (MkTol (N:=FNum) (rel_tol tol_default) a) l q = Ok r /\ (dist (map FR q) f + e <= FR a -> r = true) /\ (FR a + e < dist (map FR q) f -> r = false).
Proof.
  intros p v q l a Hl Lq Ln Hp Hq Hv Kl Fa Ha f Of Hf e. destruct (C84_line_distance_point p v q l Hl Lq Ln Hp Hq Hv Kl f Of Hf) as (d & Ed & Fd & Pd & Hd). fold e in Hd. apply Rabs_le_inv in Hd.
  unfold line_contains_point, contains_point_gen. rewrite Ed. cbn [bind]. destruct (isclose_abs_F a d Fa Ha Fd) as (r & Er & Kr). rewrite (Rabs_pos_eq _ Pd) in Kr. exists r. split; [exact Er|]. split; intro H.
  - apply Kr. lra. - destruct r; auto. assert (FR d <= FR a) by (apply Kr; auto). lra.
Qed.
Print Assumptions C84_line_contains_point.
Theorem C84_plane_contains_point : forall (p v q : list flt) (pl : plane FNum) (a : flt), plane_new (N:=FNum) p v = Ok pl -> length q = length p -> (Z.of_nat (length p) <= max_dim)%Z ->
  Forall half_moderate p -> Forall half_moderate q -> Forall moderate v -> bpow radix2 (-400) <= len (map FR v) -> finite a -> 0 <= FR a ->
  let e := (2 * INR (length p) + 12) * bpow radix2 (-53) * dist (map FR p) (map FR q) + bpow radix2 (-550) in let d := Rabs (dot (sub (map FR q) (map FR p)) (map FR v)) / len (map FR v) in
  exists r, plane_contains_point (MkTol (N:=FNum) (rel_tol tol_default) a) pl q = Ok r /\ (d + e <= FR a -> r = true) /\ (FR a + e < d -> r = false).
Proof.
  intros p v q pl a Hl Lq Ln Hp Hq Hv Kl Fa Ha e d0. destruct (C84_plane_distance p v q pl Hl Lq Ln Hp Hq Hv Kl) as ((d & Ed & Fd & Pd & Hd) & _). fold e in Hd. assert (Kp : 0 < len (map FR v)) by (eapply Rlt_le_trans; [apply bpow_gt_0|exact Kl]).
  unfold Rdiv in Hd at 1. rewrite Rabs_mult, Rabs_inv, (Rabs_pos_eq (len (map FR v))) in Hd by lra. change (Rabs (dot (sub (map FR q) (map FR p)) (map FR v)) * / len (map FR v)) with d0 in Hd. apply Rabs_le_inv in Hd.
  unfold plane_contains_point, contains_point_gen. rewrite Ed. cbn [bind]. destruct (isclose_abs_F a d Fa Ha Fd) as (r & Er & Kr). rewrite (Rabs_pos_eq _ Pd) in Kr. exists r. split; [exact Er|]. split; intro H.
  - apply Kr. lra. - destruct r; auto. assert (FR d <= FR a) by (apply Kr; auto). lra.
Qed.
Print Assumptions C84_plane_contains_point.

(** The foot of (3, 1) on the line through (1, 1) with direction (1, 1) is (2, 2). *)
Example C84_nonvacuous :
  let p := [1; 1]%float in let v := [1; 1]%float in let q := [3; 1]%float in
  Forall tame p /\ Forall tame q /\ Forall half_moderate p /\ Forall half_moderate q /\ Forall moderate v /\ bpow radix2 (-400) <= len (map FR v) /\
  on_line (map FR p) (map FR v) [2; 2] /\ dot (sub (map FR q) [2; 2]) (map FR v) = 0 /\ line_new (N:=FNum) p v = Ok (MkLine (N:=FNum) p v) /\ plane_new (N:=FNum) p v = Ok (MkPlane (N:=FNum) p v) /\
  line_project_point (MkLine (N:=FNum) p v) q = Ok [2; 2]%float.
Proof.
  intros p v q.
  assert (HP : map FR p = [1; 1]). { unfold p. cbn [map]. repeat (erewrite FR_val by (vm_compute; reflexivity)). repeat f_equal; simpl; unfold F2R; simpl; lra. }
  assert (HV : map FR v = [1; 1]) by exact HP.
  assert (HQ : map FR q = [3; 1]). { unfold q. cbn [map]. repeat (erewrite FR_val by (vm_compute; reflexivity)). repeat f_equal; simpl; unfold F2R; simpl; lra. }
  assert (FM : forall v : list flt, Forall finite v -> Forall (fun x => Rabs x <= 4) (map FR v) -> Forall tame v).
  { intros w F G. induction F as [|x w Fx F IH]; cbn [map] in G; inversion_clear G; constructor; auto. split; auto. eapply Rle_trans; [eassumption|]. change 4 with (bpow radix2 2). apply bpow_le. lia. }
  assert (TP : Forall tame p) by (apply FM; [repeat constructor; vm_compute; reflexivity|rewrite HP; repeat constructor; unfold Rabs; destruct Rcase_abs; lra]).
  assert (TQ : Forall tame q) by (apply FM; [repeat constructor; vm_compute; reflexivity|rewrite HQ; repeat constructor; unfold Rabs; destruct Rcase_abs; lra]).
  assert (S1 : 1 <= len (map FR v)). { rewrite HV. unfold len. apply Rle_trans with (R_sqrt.sqrt 1); [rewrite sqrt_1; lra|]. apply sqrt_le_1_alt. cbn. lra. }
  split; [auto|]. split; [auto|]. split; [apply tame_half; auto|]. split; [apply tame_half; auto|]. split; [apply half_moderate_m, tame_half; exact TP|].
  split; [eapply Rle_trans; [|exact S1]; change 1 with (bpow radix2 0); apply bpow_le; lia|]. split; [exists 1; rewrite HP, HV; cbn; apply f_equal2; [lra|apply f_equal2; [lra|reflexivity]]|]. split; [rewrite HQ, HV; cbn; lra|]. split; [reflexivity|]. split; reflexivity.
Qed.
