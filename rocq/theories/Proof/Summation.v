(** * Rounding errors of sums of products, whatever the order of the additions *)
From Coq Require Import Reals ZArith Floats List Lra Lia Bool Psatz Permutation.
From Flocq Require Import Core BinarySingleNaN.
From Flocq Require Import Plus_error Relative.
From Flocq Require Import IEEE754.PrimFloat.
From Verif.Model Require Import Outcome Num Instances Numpy.
From Verif.Spec Require Import Geometry Floats Summation.
From Verif.Proof Require Import VecAlg Floats FloatErr.
Import ListNotations.
Local Open Scope R_scope.
Local Existing Instance Hprec.
Local Existing Instance Hmax.
Local Instance p53' : Prec_gt_0 53 := eq_refl.

Definition psum (l : list (R * R)) : R := fold_right (fun p s => fst p * snd p + s) 0 l.
Definition pabs (l : list (R * R)) : R := fold_right (fun p s => Rabs (fst p * snd p) + s) 0 l.
Lemma psum_nil : psum [] = 0. Proof. reflexivity. Qed.
Lemma pabs_nil : pabs [] = 0. Proof. reflexivity. Qed.
Lemma psum_cons p l : psum (p :: l) = fst p * snd p + psum l. Proof. reflexivity. Qed.
Lemma pabs_cons p l : pabs (p :: l) = Rabs (fst p * snd p) + pabs l. Proof. reflexivity. Qed.
Lemma psum_app l m : psum (l ++ m) = psum l + psum m.
Proof. induction l as [|p l IH]; [rewrite psum_nil; cbn [app]; lra|]. cbn [app]. rewrite !psum_cons, IH. ring. Qed.
Lemma pabs_app l m : pabs (l ++ m) = pabs l + pabs m.
Proof. induction l as [|p l IH]; [rewrite pabs_nil; cbn [app]; lra|]. cbn [app]. rewrite !pabs_cons, IH. ring. Qed.
Lemma psum_perm l m : Permutation l m -> psum l = psum m.
Proof. induction 1; rewrite ?psum_cons; lra. Qed.
Lemma pabs_perm l m : Permutation l m -> pabs l = pabs m.
Proof. induction 1; rewrite ?pabs_cons; lra. Qed.
Lemma pabs_pos l : 0 <= pabs l.
Proof. induction l as [|p l IH]; [rewrite pabs_nil; lra|]. rewrite pabs_cons. pose proof (Rabs_pos (fst p * snd p)). lra. Qed.
Lemma psum_pabs l : Rabs (psum l) <= pabs l.
Proof. induction l as [|p l IH]; [rewrite psum_nil, pabs_nil, Rabs_R0; lra|]. rewrite psum_cons, pabs_cons. pose proof (Rabs_triang (fst p * snd p) (psum l)). lra. Qed.
Lemma psum_combine a b : psum (combine a b) = dot a b.
Proof. revert b. induction a as [|x a IH]; intros [|y b]; auto. cbn [combine dot]. rewrite psum_cons, IH. reflexivity. Qed.
Lemma pabs_combine a b : pabs (combine a b) = absdot a b.
Proof. unfold absdot. revert b. induction a as [|x a IH]; intros [|y b]; auto. cbn [combine map dot]. rewrite pabs_cons, IH. cbn [fst snd]. rewrite Rabs_mult. reflexivity. Qed.

Lemma rnd_gf x : generic_format radix2 (FLT_exp (-1074) 53) (rnd x).
Proof. unfold rnd. apply generic_format_round; [apply FLT_exp_valid; reflexivity|apply valid_rnd_N]. Qed.
Lemma sums_gf l r : sums_to l r -> generic_format radix2 (FLT_exp (-1074) 53) r.
Proof. intro H. destruct H; try apply rnd_gf. apply generic_format_0. Qed.
Lemma sums_nil l r : sums_to l r -> l = [] -> r = 0.
Proof.
  induction 1 as [|x y|l l1 l2 r1 r2 P H1 IH1 H2 IH2|l l1 x y r1 P H1 IH1]; intro E; auto; try discriminate.
  - subst l. apply Permutation_nil in P. apply app_eq_nil in P as (-> & ->). rewrite IH1, IH2 by auto. rewrite Rplus_0_r. apply rnd_0.
  - subst l. apply Permutation_nil in P. discriminate.
Qed.
Lemma rnd_id x : generic_format radix2 (FLT_exp (-1074) 53) x -> rnd x = x.
Proof. intro H. unfold rnd. apply round_generic; [apply valid_rnd_N|auto]. Qed.
Lemma rnd_plus_gf x y : generic_format radix2 (FLT_exp (-1074) 53) x -> generic_format radix2 (FLT_exp (-1074) 53) y -> Rabs (rnd (x + y) - (x + y)) <= uro * Rabs (x + y).
Proof.
  intros Gx Gy. destruct (FLT_plus_error_N_ex radix2 (-1074) 53 (fun n => negb (Z.even n)) x y Gx Gy) as (e & He & E).
  unfold rnd. rewrite E. replace ((x + y) * (1 + e) - (x + y)) with (e * (x + y)) by ring. rewrite Rabs_mult. apply Rmult_le_compat_r; [apply Rabs_pos|].
  rewrite <- u_ro_uro. eapply Rle_trans; [exact He|]. apply u_rod1pu_ro_le_u_ro.
Qed.
Lemma dn_add m n : (1 <= m)%nat -> (1 <= n)%nat -> (1 + uro) * (dn m + dn n) <= dn (m + n).
Proof.
  intros Hm Hn. unfold dn. rewrite plus_INR. pose proof uro_pos as U. pose proof eta_pos as E. pose proof (pos_INR m) as Pm. pose proof (pos_INR n) as Pn.
  pose proof (Rle_pow (1 + uro) (S m) (m + n) ltac:(lra) ltac:(lia)) as A. pose proof (Rle_pow (1 + uro) (S n) (m + n) ltac:(lra) ltac:(lia)) as B. cbn [pow] in A, B.
  set (p := (1 + uro) ^ m) in *. set (q := (1 + uro) ^ n) in *. set (s := (1 + uro) ^ (m + n)) in *.
  assert (INR m * ((1 + uro) * p) <= INR m * s) by (apply Rmult_le_compat_l; lra). assert (INR n * ((1 + uro) * q) <= INR n * s) by (apply Rmult_le_compat_l; lra).
  replace ((1 + uro) * (3 * INR m * p * eta + 3 * INR n * q * eta)) with (3 * (INR m * ((1 + uro) * p) + INR n * ((1 + uro) * q)) * eta) by ring.
  replace (3 * (INR m + INR n) * s * eta) with (3 * (INR m * s + INR n * s) * eta) by ring. apply Rmult_le_compat_r; lra.
Qed.

Theorem sums_error l r : sums_to l r -> Rabs (r - psum l) <= g (length l) * pabs l + dn (length l).
Proof.
  induction 1 as [|x y|l l1 l2 r1 r2 P H1 IH1 H2 IH2|l l1 x y r1 P H1 IH1].
  - rewrite psum_nil, pabs_nil, Rminus_0_r, Rabs_R0. cbn [length]. unfold dn. cbn [INR pow]. lra.
  - rewrite psum_cons, pabs_cons, psum_nil, pabs_nil. cbn [length fst snd]. rewrite !Rplus_0_r. replace (g 1) with uro by (unfold g; ring). eapply Rle_trans; [apply rnd_err|].
    unfold dn. cbn [INR pow]. pose proof uro_pos. pose proof eta_pos. nra.
  - rewrite (Permutation_length P), (psum_perm _ _ P), (pabs_perm _ _ P), app_length, psum_app, pabs_app.
    destruct l1 as [|p1 l1].
    { rewrite (sums_nil _ _ H1 eq_refl), Rplus_0_l, (rnd_id r2) by (eapply sums_gf; eauto). cbn [length plus]. rewrite psum_nil, pabs_nil, !Rplus_0_l. exact IH2. }
    destruct l2 as [|p2 l2].
    { rewrite (sums_nil _ _ H2 eq_refl), Rplus_0_r, (rnd_id r1) by (eapply sums_gf; eauto). cbn [length]. rewrite Nat.add_0_r. rewrite psum_nil, pabs_nil, !Rplus_0_r. exact IH1. }
    remember (p1 :: l1) as a1. remember (p2 :: l2) as a2. assert (L1 : (1 <= length a1)%nat) by (subst; simpl; lia). assert (L2 : (1 <= length a2)%nat) by (subst; simpl; lia). clear Heqa1 Heqa2.
    set (m := length a1) in *. set (n := length a2) in *. pose proof (dn_add m n L1 L2) as D.
    pose proof (rnd_plus_gf r1 r2 (sums_gf _ _ H1) (sums_gf _ _ H2)) as E. pose proof (pabs_pos a1) as A1. pose proof (pabs_pos a2) as A2. pose proof (psum_pabs a1) as B1. pose proof (psum_pabs a2) as B2.
    set (k := g (m + n - 1)). assert (G : g (m + n) = uro + (1 + uro) * k) by (unfold k; rewrite <- g_S; f_equal; lia). pose proof (g_mono m (m + n - 1) ltac:(lia)) as G1. pose proof (g_mono n (m + n - 1) ltac:(lia)) as G2. fold k in G1, G2.
    assert (C1 : g m * pabs a1 <= k * pabs a1) by (apply Rmult_le_compat_r; auto). assert (C2 : g n * pabs a2 <= k * pabs a2) by (apply Rmult_le_compat_r; auto). rewrite G.
    set (S1 := psum a1) in *. set (S2 := psum a2) in *. pose proof uro_pos as U.
    pose proof (Rabs_triang (r1 - S1) (r2 - S2)) as T. replace (r1 - S1 + (r2 - S2)) with (r1 + r2 - (S1 + S2)) in T by ring.
    pose proof (Rabs_triang (rnd (r1 + r2) - (r1 + r2)) (r1 + r2 - (S1 + S2))) as T2. replace (rnd (r1 + r2) - (r1 + r2) + (r1 + r2 - (S1 + S2))) with (rnd (r1 + r2) - (S1 + S2)) in T2 by ring.
    pose proof (Rabs_triang (r1 + r2 - (S1 + S2)) (S1 + S2)) as T3. replace (r1 + r2 - (S1 + S2) + (S1 + S2)) with (r1 + r2) in T3 by ring. pose proof (Rabs_triang S1 S2) as T4.
    assert (uro * Rabs (r1 + r2) <= uro * (k * pabs a1 + k * pabs a2 + (dn m + dn n) + (pabs a1 + pabs a2))) by (apply Rmult_le_compat_l; lra). lra.
  - rewrite (Permutation_length P), (psum_perm _ _ P), (pabs_perm _ _ P). cbn [length]. set (n := length l1) in *. rewrite psum_cons, pabs_cons. cbn [fst snd].
    pose proof (rnd_err (x * y + r1)) as E. pose proof (pabs_pos l1) as A1. pose proof (psum_pabs l1) as B1. rewrite g_S. pose proof (g_pos n) as G. pose proof (dn_S n) as D. pose proof uro_pos as U. pose proof eta_pos as Et.
    set (p := x * y) in *. set (S := psum l1) in *. set (A := pabs l1) in *. set (k := g n) in *. pose proof (Rabs_pos p) as Pp.
    pose proof (Rabs_triang (rnd (p + r1) - (p + r1)) (r1 - S)) as T. replace (rnd (p + r1) - (p + r1) + (r1 - S)) with (rnd (p + r1) - (p + S)) in T by ring.
    pose proof (Rabs_triang p r1) as T2. pose proof (Rabs_triang (r1 - S) S) as T3. replace (r1 - S + S) with r1 in T3 by ring.
    assert (uro * Rabs (p + r1) <= uro * (Rabs p + (k * A + dn n + A))) by (apply Rmult_le_compat_l; lra). assert (0 <= k * Rabs p) by (apply Rmult_le_pos; auto). assert (0 <= uro * (k * Rabs p)) by (apply Rmult_le_pos; lra).
    assert (0 <= uro * eta) by nra. lra.
Qed.

(** A sum of squares is not negative. *)
Lemma sums_nonneg l r : sums_to l r -> Forall (fun p => 0 <= fst p * snd p) l -> 0 <= r.
Proof.
  induction 1 as [|x y|l l1 l2 r1 r2 P H1 IH1 H2 IH2|l l1 x y r1 P H1 IH1]; intro F.
  - lra.
  - apply rnd_pos. apply (Forall_inv F).
  - pose proof (Permutation_Forall P F) as Q. apply Forall_app in Q as (Q1 & Q2). apply rnd_pos. specialize (IH1 Q1). specialize (IH2 Q2). lra.
  - pose proof (Permutation_Forall P F) as Q. inversion_clear Q as [|? ? q Q1]. cbn in q. specialize (IH1 Q1). apply rnd_pos. lra.
Qed.

(** No partial sum overflows. *)
Lemma pabs_bound l B : Forall (fun p => Rabs (fst p) <= B /\ Rabs (snd p) <= B) l -> pabs l <= INR (length l) * (B * B).
Proof.
  induction 1 as [|p l (Hx & Hy) F IH]; [rewrite pabs_nil; cbn [length INR]; lra|]. rewrite pabs_cons. cbn [length]. rewrite S_INR, Rabs_mult. pose proof (Rabs_pos (fst p)). pose proof (Rabs_pos (snd p)).
  assert (Rabs (fst p) * Rabs (snd p) <= B * B) by (apply Rmult_le_compat; auto). lra.
Qed.
Lemma sums_bounded l r : sums_to l r -> (Z.of_nat (length l) <= 2 ^ 20)%Z -> Forall (fun p => Rabs (fst p) <= 2 * B500 /\ Rabs (snd p) <= 2 * B500) l -> Rabs r < bpow radix2 1024.
Proof.
  intros H Ln F. pose proof (sums_error l r H) as E. pose proof (pabs_bound l _ F) as A. pose proof (pow_le2 (length l) Ln) as P. pose proof (dn_bound (length l) Ln) as D. pose proof (psum_pabs l) as B.
  assert (G : g (length l) <= 1) by (unfold g; lra). pose proof (pabs_pos l) as Pp. pose proof (Rabs_triang (r - psum l) (psum l)) as T. replace (r - psum l + psum l) with r in T by ring.
  assert (g (length l) * pabs l <= 1 * pabs l) by (apply Rmult_le_compat_r; auto).
  assert (X : INR (length l) * (2 * B500 * (2 * B500)) <= bpow radix2 1022).
  { replace (2 * B500 * (2 * B500)) with (bpow radix2 1002) by (unfold B500; change 1002%Z with (1 + 500 + (1 + 500))%Z; rewrite !bpow_plus; change (bpow radix2 1) with 2; ring). change 1022%Z with (20 + 1002)%Z. rewrite bpow_plus. apply Rmult_le_compat_r; [apply bpow_ge_0|].
    rewrite INR_IZR_INZ. change (bpow radix2 20) with (IZR (2 ^ 20)). apply IZR_le. auto. }
  assert (Y : bpow radix2 1024 = 4 * bpow radix2 1022) by (change 1024%Z with (2 + 1022)%Z; rewrite bpow_plus; reflexivity).
  assert (Z : bpow radix2 (-1050) < bpow radix2 1022) by (apply bpow_lt; lia). lra.
Qed.

(** The sum of the model is one of them. *)
Lemma dot_raw_sums (a b : list fl) : length a = length b -> finite (dot_raw (N:=FNum) a b) -> sums_to (combine (map FR a) (map FR b)) (FR (dot_raw (N:=FNum) a b)).
Proof.
  revert b. induction a as [|x a IH]; intros [|y b] L H; try discriminate.
  - change (FR (dot_raw (N:=FNum) [] [])) with 0. constructor.
  - rewrite dot_cons in *. apply add_F in H as (Fm & Fs & E). apply mul_F in Fm as (Fx & Fy & Em). rewrite E, Em. cbn [map combine]. apply (sum_add _ [(FR x, FR y)] (combine (map FR a) (map FR b))); [apply Permutation_refl|constructor|apply IH; auto].
Qed.
