(** * Property C82: the accuracy does not depend on the order in which numpy adds

    numpy and BLAS do not promise an order of summation: dot products and norms may be added left to right, pairwise,
    in blocks, on SIMD lanes, or with fused multiply-adds.  The bounds of C73 hold for every such order
    ([sums_to] in Spec/Summation.v), nothing overflows on the way, and the order used by the model is one of them. *)
From Coq Require Import String Reals List ZArith Floats Lra Lia Psatz Bool Permutation.
From Flocq Require Import Core BinarySingleNaN.
From Flocq Require Import IEEE754.PrimFloat.
From Verif.Model Require Import Outcome Num Instances Numpy BaseArray Vector Points.
From Verif.Spec Require Import Geometry Floats Summation.
From Verif.Proof Require Import VecAlg Bridge Floats FloatErr Summation.
From Verif.Prop Require Import Floats Accuracy.
Import ListNotations.
Local Open Scope R_scope.

Lemma moderate_pairs v o : Forall moderate v -> Forall moderate o -> Forall (fun p => Rabs (fst p) <= 2 * B500 /\ Rabs (snd p) <= 2 * B500) (combine (map FR v) (map FR o)).
Proof.
  intros Hv. revert o. unfold B500. pose proof (bpow_ge_0 radix2 500). induction Hv as [|x v (_ & Hx) Hv IH]; intros o Ho; [constructor|]. destruct Ho as [|y o (_ & Hy) Ho']; [constructor|]. constructor; [cbn [fst snd]; lra|auto].
Qed.
Lemma pairs_length (v o : list R) : length v = length o -> length (combine v o) = length v.
Proof. intro L. rewrite combine_length, L. lia. Qed.

(** No partial sum overflows: of no part of the products, added in any order. *)
Theorem C82_no_overflow : forall v o : list flt, length v = length o -> (Z.of_nat (length v) <= max_dim)%Z -> Forall moderate v -> Forall moderate o ->
  forall part rest s, Permutation (combine (map FR v) (map FR o)) (part ++ rest) -> sums_to part s -> Rabs s < bpow radix2 1024.
Proof.
  intros v o L Ln Hv Ho part rest s P H. unfold max_dim in Ln. pose proof (Permutation_Forall P (moderate_pairs v o Hv Ho)) as F. apply Forall_app in F as (F & _). apply (sums_bounded part); auto.
  apply Permutation_length in P. rewrite app_length, pairs_length, map_length in P by (rewrite !map_length; auto). lia.
Qed.
Print Assumptions C82_no_overflow.

Theorem C82_dot : forall v o : list flt, length v = length o -> (Z.of_nat (length v) <= max_dim)%Z -> Forall moderate v -> Forall moderate o ->
  forall r, sums_to (combine (map FR v) (map FR o)) r ->
    Rabs (r - dot (map FR v) (map FR o)) <= (INR (length v) + 1) * bpow radix2 (-53) * dot (map Rabs (map FR v)) (map Rabs (map FR o)) + bpow radix2 (-1050).
Proof.
  intros v o L Ln Hv Ho r H. unfold max_dim in Ln. apply sums_error in H. rewrite psum_combine, pabs_combine, pairs_length, map_length in H by (rewrite !map_length; auto).
  eapply Rle_trans; [exact H|]. apply Rplus_le_compat; [|apply dn_bound; auto]. fold (absdot (map FR v) (map FR o)). apply Rmult_le_compat_r; [apply absdot_pos|]. fold uro. apply g_bound. lia.
Qed.
Print Assumptions C82_dot.

Lemma self_pairs_nonneg v : Forall (fun p : R * R => 0 <= fst p * snd p) (combine v v).
Proof. induction v as [|x v IH]; constructor; auto. cbn. nra. Qed.
Lemma norm_any v s : (Z.of_nat (length v) <= 2 ^ 20)%Z -> sums_to (combine v v) s ->
  0 <= s /\ Rabs (rnd (R_sqrt.sqrt s) - len v) <= (INR (length v) + 2) * uro * len v + bpow radix2 (-520).
Proof.
  intros Ln H. pose proof (sums_nonneg _ _ H (self_pairs_nonneg v)) as P. split; auto. apply sums_error in H. rewrite psum_combine, pabs_combine, pairs_length, absdot_self in H by auto.
  unfold len. set (S := dot v v) in *. assert (HS : 0 <= S) by apply dot_self_nonneg. pose proof (sqrt_error s S _ _ P HS (g_pos (length v)) (dn_pos (length v)) H) as Q. pose proof (rnd_err (R_sqrt.sqrt s)) as R. rewrite (Rabs_pos_eq (R_sqrt.sqrt s)) in R by apply sqrt_pos.
  set (a := R_sqrt.sqrt s) in *. pose proof (sqrt_pos S). set (b := R_sqrt.sqrt S) in *. pose proof (tail_bound (length v) Ln) as T. set (c := R_sqrt.sqrt (dn (length v))) in *.
  pose proof (g_bound (1 + length v) ltac:(lia)) as G. change (1 + length v)%nat with (Datatypes.S (length v)) in G. rewrite g_S, S_INR in G. set (k := g (length v)) in *.
  apply Rabs_le_inv in Q. apply Rabs_le_inv in R. pose proof uro_pos. apply Rabs_le. assert (uro * a <= uro * (b + k * b + c)) by (apply Rmult_le_compat_l; lra).
  assert ((uro + (1 + uro) * k) * b <= (INR (length v) + 1 + 1) * uro * b) by (apply Rmult_le_compat_r; auto). lra.
Qed.
Theorem C82_norm : forall v : list flt, (Z.of_nat (length v) <= max_dim)%Z -> Forall moderate v ->
  forall s, sums_to (combine (map FR v) (map FR v)) s ->
    0 <= s /\ Rabs (rnd (R_sqrt.sqrt s) - len (map FR v)) <= (INR (length v) + 2) * bpow radix2 (-53) * len (map FR v) + bpow radix2 (-520).
Proof. intros v Ln Hv s H. apply norm_any in H; rewrite map_length in *; auto. Qed.
Print Assumptions C82_norm.

(** distance_point: the differences are rounded, then squared and added in any order. *)
Definition diffs (a b : list R) : list R := map (fun p => rnd (snd p - fst p)) (combine a b).
Lemma diffs_close (a b : list flt) : length a = length b -> Forall2 (fun y z => Rabs (y - z) <= uro * Rabs z) (diffs (map FR a) (map FR b)) (sub (map FR b) (map FR a)).
Proof.
  revert b. induction a as [|x a IH]; intros [|y b] L; try discriminate; [constructor|]. cbn. constructor; [apply rnd_minus|]. apply IH. simpl in L. lia.
Qed.
Lemma diffs_length a b : length a = length b -> length (diffs a b) = length a.
Proof. intro L. unfold diffs. rewrite map_length. apply pairs_length; auto. Qed.
Theorem C82_distance : forall a b : list flt, length a = length b -> (Z.of_nat (length a) <= max_dim)%Z -> Forall moderate a -> Forall moderate b ->
  forall s, sums_to (combine (diffs (map FR a) (map FR b)) (diffs (map FR a) (map FR b))) s ->
    0 <= s /\ Rabs (rnd (R_sqrt.sqrt s) - dist (map FR a) (map FR b)) <= (INR (length a) + 4) * bpow radix2 (-53) * dist (map FR a) (map FR b) + bpow radix2 (-520).
Proof.
  intros a b L Ln Ha Hb s H. assert (Ld : length (diffs (map FR a) (map FR b)) = length a) by (rewrite diffs_length, map_length; auto; rewrite !map_length; auto).
  apply norm_any in H; rewrite Ld in *; auto. destruct H as (P & E). split; auto. rewrite dist_sym. unfold dist. pose proof (len_close uro _ _ (Rlt_le _ _ uro_pos) (diffs_close a b L)) as Q.
  set (D := len (sub (map FR b) (map FR a))) in *. set (K := len (diffs (map FR a) (map FR b))) in *. fold uro. assert (HD : 0 <= D) by apply len_nonneg.
  apply Rabs_le_inv in E. apply Rabs_le_inv in Q. apply Rabs_le. pose proof uro_pos as U. pose proof (pos_INR (length a)) as N. pose proof (ndim_small (length a) 2 Ln ltac:(lia)) as S.
  assert (B : bpow radix2 (-30) <= 1) by (change 1 with (bpow radix2 0); apply bpow_le; lia).
  set (k := (INR (length a) + 2) * uro) in *. assert (Hk : 0 <= k) by (unfold k; apply Rmult_le_pos; lra). replace ((INR (length a) + 4) * uro * D) with ((k + 2 * uro) * D) by (unfold k; ring).
  assert (k * K <= k * (D + uro * D)) by (apply Rmult_le_compat_l; lra). assert (k * (uro * D) <= 1 * (uro * D)) by (apply Rmult_le_compat_r; [apply Rmult_le_pos; lra|lra]). lra.
Qed.
Print Assumptions C82_distance.

(** The order of the model is one of the orders. *)
Theorem C82_model_order :
  (forall v o d, np_dot (N:=FNum) v o = Ok d -> finite d -> sums_to (combine (map FR v) (map FR o)) (FR d)) /\
  (forall v r, norm (N:=FNum) v = Ok r -> finite r -> exists s, sums_to (combine (map FR v) (map FR v)) s /\ FR r = rnd (R_sqrt.sqrt s)) /\
  (forall a b r, length a = length b -> distance_point (N:=FNum) a b = Ok r -> finite r -> exists s, sums_to (combine (diffs (map FR a) (map FR b)) (diffs (map FR a) (map FR b))) s /\ FR r = rnd (R_sqrt.sqrt s)).
Proof.
  split; [|split].
  - intros v o d E F. unfold np_dot in E. fn. destruct (Nat.eqb_spec (length v) (length o)) as [L|L]; [|discriminate]. injection E as <-. apply dot_raw_sums; auto.
  - intros v r E F. injection E as <-. apply sqrt_F in F as (Fd & _ & E). exists (FR (dot_raw (N:=FNum) v v)). split; [apply dot_raw_sums; auto|exact E].
  - intros a b r L E F. unfold distance_point, from_points in E. change (nsub (n:=FNum)) with PrimFloat.sub in E. rewrite bcast_F in E by auto. cbn [bind] in E. destruct (vector_of _) as [w| |] eqn:V; try discriminate. cbn [bind] in E. injection E as <-.
    apply vector_of_inv in V as (-> & _ & Fn). set (d := map2 (N:=FNum) PrimFloat.sub b a) in *. apply sqrt_F in F as (Fd & _ & E). exists (FR (dot_raw (N:=FNum) d d)). split; [|exact E].
    replace (diffs (map FR a) (map FR b)) with (map FR d); [apply dot_raw_sums; auto|]. unfold d in *. clear - L Fn. revert b L Fn. induction a as [|x a IH]; intros [|y b] L Fn; try discriminate; auto.
    cbn [forallb map2 map combine diffs] in *. apply andb_true_iff in Fn as (F1 & F2). unfold diffs. cbn [map combine fst snd]. f_equal; [|apply IH; [injection L as L; exact L|exact F2]].
    apply f_finite_iff in F1. apply sub_F in F1. apply F1.
Qed.
Print Assumptions C82_model_order.

(** ** cosine_similarity, with the three sums taken in any order *)
Lemma len_510 (w : list flt) : (Z.of_nat (length w) <= max_dim)%Z -> Forall moderate w -> len (map FR w) <= bpow radix2 510.
Proof.
  intros Lw Hw. assert (Q : dot (map FR w) (map FR w) <= INR (length w) * (bpow radix2 500 * bpow radix2 500)).
  { clear -Hw. induction Hw as [|x w (_ & Hx) Hw IH]; [cbn; lra|]. cbn [map dot length]. rewrite S_INR. rewrite <- (Rabs_pos_eq (FR x * FR x)), Rabs_mult by nra. pose proof (Rabs_pos (FR x)). assert (Rabs (FR x) * Rabs (FR x) <= bpow radix2 500 * bpow radix2 500) by (apply Rmult_le_compat; auto). lra. }
  apply Rsqr_incr_0; unfold Rsqr; [|apply len_nonneg|apply bpow_ge_0]. rewrite len_sq. eapply Rle_trans; [exact Q|]. rewrite <- bpow_plus, <- bpow_plus. change (510 + 510)%Z with (20 + (500 + 500))%Z. rewrite (bpow_plus radix2 20). apply Rmult_le_compat_r; [apply bpow_ge_0|].
  rewrite INR_IZR_INZ. change (bpow radix2 20) with (IZR (2 ^ 20)). apply IZR_le. exact Lw.
Qed.
Lemma cos_real (n : nat) (K M D A na nb d : R) : (Z.of_nat n <= max_dim)%Z ->
  bpow radix2 (-400) <= K <= bpow radix2 510 -> bpow radix2 (-400) <= M <= bpow radix2 510 -> A <= K * M -> Rabs D <= K * M ->
  Rabs (d - D) <= (INR n + 2) * uro * A + bpow radix2 (-1050) -> Rabs (na - K) <= (INR n + 4) * uro * K -> Rabs (nb - M) <= (INR n + 4) * uro * M ->
  0 < rnd (na * nb) < bpow radix2 1024 /\ Rabs (rnd (d / rnd (na * nb)) - D / (K * M)) <= (3 * INR n + 20) * uro.
Proof.
  intros Ln (Lv & Kb) (Lo & Mb) AC CS Hd Ha Hb.
  assert (Kp : 0 < K) by (eapply Rlt_le_trans; [apply bpow_gt_0|exact Lv]). assert (Mp : 0 < M) by (eapply Rlt_le_trans; [apply bpow_gt_0|exact Lo]).
  assert (rel : forall x y, 0 < y -> Rabs (x - y) <= (INR n + 4) * uro * y -> exists e, x = y * (1 + e) /\ Rabs e <= (INR n + 4) * uro).
  { intros x y Hy H. exists ((x - y) / y). split; [field; lra|]. unfold Rdiv. rewrite Rabs_mult, Rabs_inv, (Rabs_pos_eq y) by lra. apply Rmult_le_reg_r with y; auto. rewrite Rmult_assoc, Rinv_l by lra. lra. }
  destruct (rel na K Kp Ha) as (ea & Ea & Hea). destruct (rel nb M Mp Hb) as (eb & Eb & Heb).
  set (P := K * M) in *. assert (Pp : 0 < P) by (apply Rmult_lt_0_compat; auto). assert (P800 : bpow radix2 (-800) <= P).
  { change (-800)%Z with (-400 + -400)%Z. rewrite bpow_plus. apply Rmult_le_compat; auto; apply bpow_ge_0. }
  assert (tiny : forall e, (e <= -860)%Z -> bpow radix2 e <= uro * P).
  { intros e He. apply Rle_trans with (bpow radix2 (-53) * bpow radix2 (-800)); [rewrite <- bpow_plus; apply bpow_le; lia|]. apply Rmult_le_compat_l; [apply bpow_ge_0|auto]. }
  pose proof uro_small as (U & U'). pose proof (pos_INR n) as Pn. pose proof (ndim_small n 4 Ln ltac:(lia)) as S4.
  set (k := (INR n + 4) * uro) in *. assert (k0 : 0 <= k) by (unfold k; apply Rmult_le_pos; lra).
  assert (kk : k * k <= / 128 * uro).
  { assert (k * k <= bpow radix2 (-30) * bpow radix2 (-30)) by (apply Rmult_le_compat; lra). rewrite <- bpow_plus in H. assert (B : bpow radix2 (-30 + -30) <= bpow radix2 (-7) * uro) by (unfold uro; rewrite <- bpow_plus; apply bpow_le; lia). change (bpow radix2 (-7)) with (/ 128) in B. lra. }
  assert (k1 : k <= / 1024). { eapply Rle_trans; [exact S4|]. replace (/ 1024) with (bpow radix2 (-10)) by (simpl; lra). apply bpow_le. lia. }
  assert (Pb : P <= bpow radix2 1020). { change 1020%Z with (510 + 510)%Z. rewrite bpow_plus. apply Rmult_le_compat; lra. }
  assert (Ep : na * nb = P * ((1 + ea) * (1 + eb))) by (rewrite Ea, Eb; unfold P; ring).
  set (z := (1 + ea) * (1 + eb)) in *. assert (Hz : Rabs (z - 1) <= 2 * k + / 128 * uro).
  { replace (z - 1) with (ea + eb + ea * eb) by (unfold z; ring). pose proof (Rabs_triang (ea + eb) (ea * eb)) as T1. pose proof (Rabs_triang ea eb) as T2. rewrite Rabs_mult in T1. assert (Rabs ea * Rabs eb <= k * k) by (apply Rmult_le_compat; auto; apply Rabs_pos). lra. }
  pose proof (Rabs_le_inv _ _ Hz) as Hz'. assert (z2 : / 2 <= z <= 2) by lra.
  assert (PzB : Rabs (P * z) <= bpow radix2 1021). { rewrite Rabs_pos_eq by (apply Rmult_le_pos; lra). change 1021%Z with (1020 + 1)%Z. rewrite bpow_plus. change (bpow radix2 1) with 2. apply Rmult_le_compat; lra. }
  rewrite Ep. pose proof (rnd_err (P * z)) as R1. rewrite (Rabs_pos_eq (P * z)) in R1 by (apply Rmult_le_pos; lra). pose proof (tiny (-1075)%Z ltac:(lia)) as T1. fold eta in T1.
  assert (mB : rnd (P * z) < bpow radix2 1024). { eapply Rle_lt_trans; [apply Rle_abs|]. eapply Rle_lt_trans; [apply (rnd_bpow_le _ 1021); [lia|exact PzB]|]. apply bpow_lt. lia. }
  set (m := rnd (P * z)) in *. set (t := m / P). assert (Em : m = P * t) by (unfold t; field; lra).
  assert (Ht : Rabs (t - z) <= 3 * uro + uro * (2 * k + / 128 * uro)).
  { replace (t - z) with ((m - P * z) * / P) by (rewrite Em; field; lra). rewrite Rabs_mult, Rabs_inv, (Rabs_pos_eq P) by lra. apply Rmult_le_reg_r with P; auto. rewrite Rmult_assoc, Rinv_l, Rmult_1_r by lra.
    assert (uro * (P * z) <= uro * (P * (1 + 2 * k + / 128 * uro))) by (apply Rmult_le_compat_l; [lra|apply Rmult_le_compat_l; lra]).
    assert (0 <= uro * P) by (apply Rmult_le_pos; lra). lra. }
  assert (Ht1 : Rabs (t - 1) <= 2 * k + 4 * uro).
  { pose proof (Rabs_triang (t - z) (z - 1)) as T. replace (t - z + (z - 1)) with (t - 1) in T by ring. assert (uro * (2 * k + / 128 * uro) <= uro * (/ 4)) by (apply Rmult_le_compat_l; lra). lra. }
  pose proof (Rabs_le_inv _ _ Ht1) as Ht1'. assert (t2 : / 2 <= t) by lra.
  assert (mp : 0 < m) by (rewrite Em; apply Rmult_lt_0_compat; lra). split; [auto|].
  set (c := D / P). assert (c1 : Rabs c <= 1). { unfold c, Rdiv. rewrite Rabs_mult, Rabs_inv, (Rabs_pos_eq P) by lra. apply Rmult_le_reg_r with P; auto. rewrite Rmult_assoc, Rinv_l by lra. lra. }
  set (d' := d / P). pose proof (tiny (-1050)%Z ltac:(lia)) as T2.
  assert (Hd' : Rabs (d' - c) <= k).
  { replace (d' - c) with ((d - D) * / P) by (unfold d', c; field; lra). rewrite Rabs_mult, Rabs_inv, (Rabs_pos_eq P) by lra. apply Rmult_le_reg_r with P; auto. rewrite Rmult_assoc, Rinv_l, Rmult_1_r by lra.
    assert ((INR n + 2) * uro * A <= (INR n + 2) * uro * P) by (apply Rmult_le_compat_l; [apply Rmult_le_pos; lra|exact AC]). assert (0 <= uro * P) by (apply Rmult_le_pos; lra). unfold k. lra. }
  set (q := d / m). assert (Eq : q = d' / t) by (unfold q, d'; rewrite Em; field; split; lra).
  assert (Hq : Rabs (q - c) <= 3 * k + 4 * uro + (/ 2 * uro)).
  { replace (q - c) with ((d' - c - c * (t - 1)) * / t) by (rewrite Eq; field; lra). rewrite Rabs_mult, Rabs_inv, (Rabs_pos_eq t) by lra. apply Rmult_le_reg_r with t; [lra|]. rewrite Rmult_assoc, Rinv_l, Rmult_1_r by lra.
    pose proof (Rabs_triang (d' - c) (- (c * (t - 1)))) as T. rewrite Rabs_Ropp, Rabs_mult in T. assert (Rabs c * Rabs (t - 1) <= 1 * (2 * k + 4 * uro)) by (apply Rmult_le_compat; auto; apply Rabs_pos). fold (d' - c - c * (t - 1)) in T.
    assert ((3 * k + 4 * uro + / 2 * uro) * (1 - (2 * k + 4 * uro)) <= (3 * k + 4 * uro + / 2 * uro) * t) by (apply Rmult_le_compat_l; lra).
    assert (k * uro <= / 1024 * uro) by (apply Rmult_le_compat_r; lra). assert (uro * uro <= / 1024 * uro) by (apply Rmult_le_compat_r; lra). unfold Rminus in *. nra. }
  assert (q2 : Rabs q <= 2). { pose proof (Rabs_triang (q - c) c) as T. replace (q - c + c) with q in T by ring. lra. }
  pose proof (rnd_err q) as R2. pose proof (Rabs_triang (rnd q - q) (q - c)) as T. replace (rnd q - q + (q - c)) with (rnd q - c) in T by ring. assert (uro * Rabs q <= uro * 2) by (apply Rmult_le_compat_l; lra).
  assert (eta <= uro) by (apply bpow_le; lia). unfold k in *. lra.
Qed.
Theorem C82_cosine : forall v o : list flt, length v = length o -> (Z.of_nat (length v) <= max_dim)%Z -> Forall moderate v -> Forall moderate o ->
  bpow radix2 (-400) <= len (map FR v) -> bpow radix2 (-400) <= len (map FR o) ->
  forall d s t, sums_to (combine (map FR v) (map FR o)) d -> sums_to (combine (map FR v) (map FR v)) s -> sums_to (combine (map FR o) (map FR o)) t ->
    let m := rnd (rnd (R_sqrt.sqrt s) * rnd (R_sqrt.sqrt t)) in
    0 < m < bpow radix2 1024 /\
    Rabs (Rmax (-1) (Rmin 1 (rnd (d / m))) - dot (map FR v) (map FR o) / (len (map FR v) * len (map FR o))) <= (3 * INR (length v) + 20) * bpow radix2 (-53).
Proof.
  intros v o L Ln Hv Ho Lv Lo d s t Hd Hs Ht m. assert (Ln' : (Z.of_nat (length o) <= max_dim)%Z) by (rewrite <- L; auto).
  pose proof (C82_dot v o L Ln Hv Ho d Hd) as Ed. destruct (C82_norm v Ln Hv s Hs) as (_ & Es). destruct (C82_norm o Ln' Ho t Ht) as (_ & Et). rewrite <- L in Et.
  fold (absdot (map FR v) (map FR o)) in Ed. pose proof (absdot_cauchy (map FR v) (map FR o) ltac:(rewrite !map_length; auto)) as AC. pose proof (cauchy_schwarz (map FR v) (map FR o) ltac:(rewrite !map_length; auto)) as CS.
  pose proof (absdot_pos (map FR v) (map FR o)) as Ap. fold uro in *. pose proof uro_pos as U. pose proof (pos_INR (length v)) as Pn.
  pose proof (tiny_rel _ (-520) Lv ltac:(lia)) as T1. pose proof (tiny_rel _ (-520) Lo ltac:(lia)) as T2. pose proof (len_nonneg (map FR v)) as N1. pose proof (len_nonneg (map FR o)) as N2.
  destruct (cos_real (length v) (len (map FR v)) (len (map FR o)) (dot (map FR v) (map FR o)) (absdot (map FR v) (map FR o)) (rnd (R_sqrt.sqrt s)) (rnd (R_sqrt.sqrt t)) d Ln) as (B & E); auto.
  - split; auto. apply len_510; auto.
  - split; auto. apply len_510; auto.
  - assert (0 <= uro * absdot (map FR v) (map FR o)) by (apply Rmult_le_pos; lra). lra.
  - assert (0 <= uro * len (map FR v)) by (apply Rmult_le_pos; lra). lra.
  - assert (0 <= uro * len (map FR o)) by (apply Rmult_le_pos; lra). lra.
  - fold m in B, E. split; auto. set (c := dot (map FR v) (map FR o) / (len (map FR v) * len (map FR o))) in *.
    assert (Pp : 0 < len (map FR v) * len (map FR o)). { pose proof (bpow_gt_0 radix2 (-400)). apply Rmult_lt_0_compat; lra. }
    assert (c1 : Rabs c <= 1). { unfold c, Rdiv. rewrite Rabs_mult, Rabs_inv, (Rabs_pos_eq (len (map FR v) * len (map FR o))) by lra. apply Rmult_le_reg_r with (len (map FR v) * len (map FR o)); auto. rewrite Rmult_assoc, Rinv_l by lra. lra. }
    apply Rabs_le_inv in c1. apply Rabs_le_inv in E. apply Rabs_le. unfold Rmax, Rmin. destruct (Rle_dec 1 (rnd (d / m))); repeat destruct (Rle_dec (-1) _); lra.
Qed.
Print Assumptions C82_cosine.

(** ** Every list of products can be added in some order, and the order does matter *)
Theorem C82_orders_exist : forall l, exists r, sums_to l r.
Proof.
  induction l as [|(x, y) l (r & H)]; [exists 0; constructor|]. exists (rnd (x * y + r)). apply (sum_fma _ l); auto.
Qed.
Print Assumptions C82_orders_exist.

Lemma FR_val x f : Prim2SF x = f -> FR x = SF2R radix2 f.
Proof. intros <-. unfold FR. rewrite <- SF2R_B2SF, B2SF_Prim2B. reflexivity. Qed.
Lemma add_val x y z : (x + y)%float = z -> finite z -> rnd (FR x + FR y) = FR z.
Proof. intros <- F. symmetry. apply add_F. auto. Qed.
Lemma sums_eq l r r' : sums_to l r -> r = r' -> sums_to l r'.
Proof. intros H <-. auto. Qed.
Theorem C82_orders_differ : exists v o : list flt, exists r1 r2,
  length v = length o /\ Forall moderate v /\ Forall moderate o /\ sums_to (combine (map FR v) (map FR o)) r1 /\ sums_to (combine (map FR v) (map FR o)) r2 /\ r1 = 1 /\ r2 > 1.
Proof.
  set (e := 0x1p-53%float). exists [1; e; e]%float, [1; 1; 1]%float, 1, (FR 0x1.0000000000001p0%float).
  assert (E1 : FR 1%float = 1) by apply one_F. assert (Ee : FR e = uro) by (unfold e, uro; erewrite FR_val by (vm_compute; reflexivity); simpl; unfold F2R; simpl; lra).
  assert (B : 1 <= bpow radix2 500) by (change 1 with (bpow radix2 0); apply bpow_le; lia). pose proof uro_small as (U & U').
  split; [reflexivity|]. split; [|split; [|split; [|split; [|split]]]].
  - repeat (apply Forall_cons; [split; [reflexivity|]|]); [| | |apply Forall_nil]; fold e; rewrite ?E1, ?Ee, Rabs_pos_eq; lra.
  - repeat (apply Forall_cons; [split; [reflexivity|]|]); [| | |apply Forall_nil]; rewrite ?E1, Rabs_pos_eq; lra.
  - apply sums_eq with (rnd (rnd (FR 1 + FR e) + FR e)).
    + cbn [map combine]. apply (sum_add _ [(FR 1%float, FR 1%float); (FR e, FR 1%float)] [(FR e, FR 1%float)]); [apply Permutation_refl| |].
      * apply (sum_add _ [(FR 1%float, FR 1%float)] [(FR e, FR 1%float)]); [apply Permutation_refl| |]; (eapply sums_eq; [constructor|]; rewrite E1, Rmult_1_r, <- ?E1; apply rnd_FR; reflexivity).
      * eapply sums_eq; [constructor|]; rewrite E1, Rmult_1_r; apply rnd_FR; reflexivity.
    + rewrite (add_val 1 e 1) by reflexivity. rewrite (add_val 1 e 1) by reflexivity. exact E1.
  - apply sums_eq with (rnd (FR 1 + rnd (FR e + FR e))).
    + cbn [map combine]. apply (sum_add _ [(FR 1%float, FR 1%float)] [(FR e, FR 1%float); (FR e, FR 1%float)]); [apply Permutation_refl| |].
      * eapply sums_eq; [constructor|]; rewrite E1, Rmult_1_r, <- E1; apply rnd_FR; reflexivity.
      * apply (sum_add _ [(FR e, FR 1%float)] [(FR e, FR 1%float)]); [apply Permutation_refl| |]; (eapply sums_eq; [constructor|]; rewrite E1, Rmult_1_r; apply rnd_FR; reflexivity).
    + rewrite (add_val e e 0x1p-52) by reflexivity. apply add_val; reflexivity.
  - reflexivity.
  - erewrite FR_val by (vm_compute; reflexivity). simpl. unfold F2R. simpl. lra.
Qed.
Print Assumptions C82_orders_differ.

(** ** unit *)
Lemma div_close (n : nat) (K na x : R) : (Z.of_nat n <= max_dim)%Z -> 0 < K -> Rabs x <= K -> Rabs (na - K) <= (INR n + 4) * uro * K ->
  Rabs (rnd (x / na) - x / K) <= (INR n + 6) * uro * (Rabs x / K) + eta.
Proof.
  intros Ln Kp Hx Ha. set (e := (na - K) / K). assert (En : na = K * (1 + e)) by (unfold e; field; lra).
  assert (He : Rabs e <= (INR n + 4) * uro). { unfold e, Rdiv. rewrite Rabs_mult, Rabs_inv, (Rabs_pos_eq K) by lra. apply Rmult_le_reg_r with K; auto. rewrite Rmult_assoc, Rinv_l by lra. lra. }
  destruct (small_e _ _ Ln He) as (He' & Hp). set (q := x / na). set (c := x / K).
  assert (Ac : Rabs c = Rabs x / K) by (unfold c, Rdiv; rewrite Rabs_mult, Rabs_inv, (Rabs_pos_eq K) by lra; reflexivity). rewrite <- Ac.
  assert (Qe : q - c = c * (/ (1 + e) - 1)) by (unfold q, c; rewrite En; field; split; lra).
  pose proof (inv_close e He') as I. set (k := Rabs e) in *. pose proof (Rabs_pos c) as Pc. pose proof (Rabs_pos e) as Pe. fold k in Pe.
  assert (D1 : Rabs (q - c) <= Rabs c * (k + 2 * (k * k))) by (rewrite Qe, Rabs_mult; apply Rmult_le_compat_l; auto).
  assert (Q1 : Rabs q <= Rabs c * (1 + k + 2 * (k * k))). { replace q with (q - c + c) by ring. eapply Rle_trans; [apply Rabs_triang|]. lra. }
  assert (K2 : 2 * (k * k) <= / 4 * uro * / 1).
  { pose proof (ndim_small n 4 Ln ltac:(lia)) as S. assert (k * k <= bpow radix2 (-30) * bpow radix2 (-30)) by (apply Rmult_le_compat; lra). rewrite <- bpow_plus in H. assert (B : bpow radix2 (-30 + -30) <= bpow radix2 (-5) * uro) by (unfold uro; rewrite <- bpow_plus; apply bpow_le; lia). change (bpow radix2 (-5)) with (/ 32) in B. pose proof uro_pos. lra. }
  pose proof uro_small as (U & U'). pose proof (rnd_err q) as R. pose proof (Rabs_triang (rnd q - q) (q - c)) as T. replace (rnd q - q + (q - c)) with (rnd q - c) in T by ring.
  assert (U1 : uro * Rabs q <= uro * (Rabs c * (1 + k + 2 * (k * k)))) by (apply Rmult_le_compat_l; lra).
  assert (U2 : uro * (Rabs c * (1 + k + 2 * (k * k))) <= uro * (Rabs c * (5 / 4))) by (apply Rmult_le_compat_l; [lra|apply Rmult_le_compat_l; nra]).
  assert (U3 : Rabs c * (k + 2 * (k * k)) <= Rabs c * ((INR n + 4) * uro + / 4 * uro)) by (apply Rmult_le_compat_l; lra). nra.
Qed.
Lemma coord_le_len x (v : list R) : In x v -> Rabs x <= len v.
Proof.
  intro H. assert (M : x * x <= dot v v). { revert H. induction v as [|y v IH]; intro H; [destruct H|]. destruct H as [->|H]; cbn [dot]; [pose proof (dot_self_nonneg v); lra|specialize (IH H); nra]. }
  rewrite <- len_sq in M. apply Rsqr_incr_0; unfold Rsqr; [rewrite <- Rabs_mult, Rabs_pos_eq by nra; auto|apply Rabs_pos|apply len_nonneg].
Qed.
Theorem C82_unit : forall v : list flt, (Z.of_nat (length v) <= max_dim)%Z -> Forall moderate v -> bpow radix2 (-400) <= len (map FR v) ->
  forall s, sums_to (combine (map FR v) (map FR v)) s -> 0 < rnd (R_sqrt.sqrt s) /\
    forall x, In x (map FR v) -> Rabs (rnd (x / rnd (R_sqrt.sqrt s)) - x / len (map FR v)) <= (INR (length v) + 6) * bpow radix2 (-53) * (Rabs x / len (map FR v)) + bpow radix2 (-1075).
Proof.
  intros v Ln Hv Lv s Hs. destruct (C82_norm v Ln Hv s Hs) as (_ & Es). fold uro eta in *. pose proof uro_pos as U. pose proof (tiny_rel _ (-520) Lv ltac:(lia)) as T1. pose proof (bpow_gt_0 radix2 (-400)) as P.
  assert (Kp : 0 < len (map FR v)) by lra. assert (0 <= uro * len (map FR v)) by (apply Rmult_le_pos; lra). assert (E : Rabs (rnd (R_sqrt.sqrt s) - len (map FR v)) <= (INR (length v) + 4) * uro * len (map FR v)) by lra. split.
  - pose proof (ndim_small (length v) 4 Ln ltac:(lia)) as S4. assert (B : bpow radix2 (-30) <= / 1024) by (replace (/ 1024) with (bpow radix2 (-10)) by (simpl; lra); apply bpow_le; lia). apply Rabs_le_inv in E.
    assert ((INR (length v) + 4) * uro * len (map FR v) <= / 1024 * len (map FR v)) by (apply Rmult_le_compat_r; lra). lra.
  - intros x Hx. apply div_close; auto. apply coord_le_len; auto.
Qed.
Print Assumptions C82_unit.

(** ** A concrete case of the hypotheses: three products added pairwise, one of them fused *)
Theorem C82_nonvacuous :
  let v := [3%float; 4%float] in let o := [(-1)%float; 0.5%float] in
  length v = length o /\ (Z.of_nat (length v) <= max_dim)%Z /\ Forall moderate v /\ Forall moderate o /\ bpow radix2 (-400) <= len (map FR v) /\ bpow radix2 (-400) <= len (map FR o) /\
  sums_to (combine (map FR v) (map FR o)) (rnd (FR 4 * FR 0.5 + rnd (FR 3 * FR (-1)))).
Proof.
  destruct C73_nonvacuous as (_ & A & B & C & D & E & F). cbv zeta. split; auto. split; auto. split; auto. split; auto. split; auto. split; auto.
  cbn [map combine]. apply (sum_fma _ [(FR 3%float, FR (-1)%float)]); [apply perm_swap|constructor].
Qed.
Print Assumptions C82_nonvacuous.
