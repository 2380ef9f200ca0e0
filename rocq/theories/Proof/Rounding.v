(** * np.around over the reals *)
From Coq Require Import String Reals List ZArith Lra Lia Psatz Bool.
From Verif.Model Require Import Outcome Num Instances Numpy.
From Verif.Spec Require Import Geometry Rounding.
From Verif.Proof Require Import VecAlg Bridge Arrays Vectors.
Import ListNotations.
Local Open Scope R_scope.

Lemma Rrint_int x : exists k : Z, Rrint x = IZR k /\ Rabs (IZR k - x) <= 1 / 2 /\ (Rabs (IZR k - x) = 1 / 2 -> Z.even k = true).
Proof.
  unfold Rrint. destruct (base_Int_part x) as (B1 & B2). set (f := Int_part x) in *. clearbody f.
  destruct (Rlt_dec (x - IZR f) (1 / 2)).
  { exists f. split; auto. unfold Rabs. destruct (Rcase_abs (IZR f - x)); split; try lra; intro; exfalso; lra. }
  destruct (Rlt_dec (1 / 2) (x - IZR f)).
  { exists (f + 1)%Z. split; auto. rewrite plus_IZR. unfold Rabs. destruct (Rcase_abs (IZR f + 1 - x)); split; try lra; intro; exfalso; lra. }
  assert (E : x - IZR f = 1 / 2) by lra. destruct (Z.even f) eqn:V.
  - exists f. split; auto. split; auto. unfold Rabs. destruct (Rcase_abs (IZR f - x)); lra.
  - exists (f + 1)%Z. split; auto. rewrite plus_IZR. split; [unfold Rabs; destruct (Rcase_abs (IZR f + 1 - x)); lra|]. intros _. rewrite Z.add_1_r, Z.even_succ, <- Z.negb_even, V. reflexivity.
Qed.
Lemma int_half_unique (j k : Z) x : Rabs (IZR j - x) <= 1 / 2 -> (Rabs (IZR j - x) = 1 / 2 -> Z.even j = true) ->
  Rabs (IZR k - x) <= 1 / 2 -> (Rabs (IZR k - x) = 1 / 2 -> Z.even k = true) -> j = k.
Proof.
  intros H1 E1 H2 E2. pose proof (Rabs_def2 (IZR j - x) 1 ltac:(lra)) as (A1 & A2). pose proof (Rabs_def2 (IZR k - x) 1 ltac:(lra)) as (A3 & A4).
  assert (D : Rabs (IZR j - IZR k) <= 1) by (replace (IZR j - IZR k) with ((IZR j - x) - (IZR k - x)) by ring; eapply Rle_trans; [apply Rabs_triang|]; rewrite Rabs_Ropp; lra).
  rewrite <- minus_IZR, <- abs_IZR in D. apply le_IZR in D.
  destruct (Z.eq_dec j k); auto. exfalso. assert (K : (j = k + 1 \/ k = j + 1)%Z) by lia.
  assert (S : Rabs (IZR j - x) = 1 / 2 /\ Rabs (IZR k - x) = 1 / 2).
  { destruct K; subst; rewrite plus_IZR in *; unfold Rabs in *; destruct (Rcase_abs _); destruct (Rcase_abs _); lra. }
  destruct S as (S1 & S2). specialize (E1 S1). specialize (E2 S2). destruct K; subst; rewrite Z.add_1_r, Z.even_succ, <- Z.negb_even in *; rewrite ?E1, ?E2 in *; discriminate.
Qed.
Lemma pow10_pos d : 0 < powerRZ 10 d. Proof. apply powerRZ_lt. lra. Qed.
Lemma pow10_Z d : (0 <= d)%Z -> IZR (10 ^ d) = powerRZ 10 d.
Proof.
  intro H. rewrite <- (Z2Nat.id d) by auto. rewrite <- pow_powerRZ, <- pow_IZR. reflexivity.
Qed.
Lemma np_round_R (d : Z) (x : R) : np_round (N:=RNum) d x = Ok (Rrint (x * powerRZ 10 d) * powerRZ 10 (- d)).
Proof.
  unfold np_round. rops. destruct (Z.eqb_spec d 0) as [->|N]; [simpl; rewrite !Rmult_1_r; reflexivity|]. destruct (Z.ltb_spec 0 d) as [P|P].
  - rewrite pow10_Z by lia. pose proof (pow10_pos d). rewrite ndiv_R by lra. f_equal. rewrite powerRZ_neg'. reflexivity.
  - rewrite pow10_Z by lia. pose proof (pow10_pos (- d)). rewrite ndiv_R by lra. cbn [bind]. f_equal. f_equal. f_equal. unfold Rdiv. f_equal.
    rewrite powerRZ_neg', Rinv_inv. reflexivity.
Qed.

Lemma pow10_cancel d : powerRZ 10 d * powerRZ 10 (- d) = 1.
Proof. rewrite powerRZ_neg'. apply Rinv_r. pose proof (pow10_pos d). lra. Qed.
Lemma rounded_iff d x y : rounded d x y <-> exists k : Z, y = IZR k * powerRZ 10 (- d) /\ Rabs (IZR k - x * powerRZ 10 d) <= 1 / 2 /\ (Rabs (IZR k - x * powerRZ 10 d) = 1 / 2 -> Z.even k = true).
Proof.
  pose proof (pow10_pos d) as P. pose proof (pow10_pos (- d)) as P'. pose proof (pow10_cancel d) as C.
  assert (E : forall k, Rabs (IZR k * powerRZ 10 (- d) - x) = Rabs (IZR k - x * powerRZ 10 d) * powerRZ 10 (- d)).
  { intro k. rewrite <- (Rabs_pos_eq (powerRZ 10 (- d))) at 2 by lra. rewrite <- Rabs_mult. f_equal. rewrite Rmult_minus_distr_r, Rmult_assoc, C. ring. }
  split; intros (k & -> & H1 & H2); exists k; (split; [reflexivity|]); rewrite E in *.
  - split; [apply Rmult_le_reg_r with (powerRZ 10 (- d)); lra|]. intro Q. apply H2. rewrite Q. lra.
  - split; [apply Rmult_le_compat_r with (r := powerRZ 10 (- d)) in H1; lra|]. intro Q. apply H2. apply Rmult_eq_reg_r with (powerRZ 10 (- d)); lra.
Qed.
Lemma rounded_exists d x : exists y, np_round (N:=RNum) d x = Ok y /\ rounded d x y.
Proof. rewrite np_round_R. eexists. split; [reflexivity|]. apply rounded_iff. destruct (Rrint_int (x * powerRZ 10 d)) as (k & -> & H). exists k. auto. Qed.
Lemma rounded_unique d x y z : rounded d x y -> rounded d x z -> y = z.
Proof.
  intros H1 H2. apply rounded_iff in H1 as (j & -> & A1 & A2). apply rounded_iff in H2 as (k & -> & B1 & B2). rewrite (int_half_unique j k (x * powerRZ 10 d)); auto.
Qed.
Lemma rounded_R d x y : np_round (N:=RNum) d x = Ok y <-> rounded d x y.
Proof.
  destruct (rounded_exists d x) as (z & E & H). split; intro K.
  - rewrite E in K. injection K as <-. auto.
  - rewrite (rounded_unique d x y z K H). auto.
Qed.
Lemma rounded_fix d x (k : Z) : x = IZR k * powerRZ 10 (- d) -> rounded d x x.
Proof. intro E. exists k. split; auto. rewrite Rminus_diag_eq by reflexivity. rewrite Rabs_R0. pose proof (pow10_pos (- d)). split; [lra|]. intro; lra. Qed.
Lemma rounded_idem d x y : rounded d x y -> rounded d y y.
Proof. intros (k & E & _). apply (rounded_fix d y k E). Qed.
Lemma rounded_mono d x x' y y' : x <= x' -> rounded d x y -> rounded d x' y' -> y <= y'.
Proof.
  intros L H1 H2. pose proof (pow10_pos d) as P. pose proof (pow10_pos (- d)) as P'. apply rounded_iff in H1 as (j & -> & A1 & A2). apply rounded_iff in H2 as (k & -> & B1 & B2).
  apply Rmult_le_compat_r; [lra|]. apply IZR_le. assert (L' : x * powerRZ 10 d <= x' * powerRZ 10 d) by (apply Rmult_le_compat_r; lra).
  set (s := x * powerRZ 10 d) in *. set (t := x' * powerRZ 10 d) in *. clearbody s t. destruct (Z.le_gt_cases j k); auto. exfalso.
  assert (K : (k + 1 <= j)%Z) by lia. apply IZR_le in K. rewrite plus_IZR in K.
  pose proof A1 as A1'. pose proof B1 as B1'. assert (Rl : forall z, Rabs z <= 1 / 2 -> -(1/2) <= z <= 1/2) by (intros z; unfold Rabs; destruct (Rcase_abs z); lra). apply Rl in A1'; apply Rl in B1'. 
  assert (Q1 : IZR j = IZR k + 1) by lra. assert (Q2 : s = t) by lra. subst t.
  assert (j = k); [|lia]. apply (int_half_unique j k s); auto.
Qed.
