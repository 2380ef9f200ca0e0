(** * Property C95: round in double precision *)
From Coq Require Import String Reals List ZArith Floats Lra Lia Psatz Bool.
From Flocq Require Import Core BinarySingleNaN.
From Flocq Require Import IEEE754.PrimFloat.
From Verif.Model Require Import Outcome Num Instances Numpy BaseArray.
From Verif.Spec Require Import Geometry Tolerance Floats Rounding.
From Verif.Proof Require Import VecAlg Bridge Vectors Floats FloatErr.
From Verif.Prop Require Import Floats Accuracy AnyOrder Decisions Projections.
From Verif.Prop Require FloatShapes Rounding.
Import ListNotations.
Local Open Scope R_scope.

(** ** The nearest integer, ties to even *)
Definition nearest_even (x : R) (k : Z) : Prop := Rabs (IZR k - x) <= / 2 /\ (Rabs (IZR k - x) = / 2 -> Z.even k = true).
Lemma ZE_spec x : nearest_even x (ZnearestE x).
Proof.
  unfold nearest_even, Znearest. set (f := Zfloor x). pose proof (Zfloor_lb x) as L. pose proof (Zfloor_ub x) as U. fold f in L, U.
  assert (C : x <> IZR f -> Zceil x = (f + 1)%Z) by (intro N; apply Zceil_floor_neq; auto).
  destruct (Rcompare_spec (x - IZR f) (/ 2)) as [H|H|H].
  - rewrite Rabs_left1 by lra. split; [lra|intro; lra].
  - rewrite C by lra. destruct (Z.even f) eqn:E; cbn [negb].
    + split; [rewrite Rabs_left1; lra|auto].
    + rewrite plus_IZR. split; [rewrite Rabs_pos_eq; lra|]. intros _. rewrite Z.even_add, E. reflexivity.
  - rewrite C by lra. rewrite plus_IZR. rewrite Rabs_pos_eq by lra. split; [lra|intro; lra].
Qed.
Lemma ne_opp x k : nearest_even (- x) k -> nearest_even x (- k).
Proof. intros (A & B). unfold nearest_even. rewrite opp_IZR. replace (- IZR k - x) with (- (IZR k - - x)) by ring. rewrite Rabs_Ropp, Z.even_opp. auto. Qed.
Lemma ne_shift x k (m : Z) : Z.even m = true -> nearest_even (x + IZR m) k -> nearest_even x (k - m).
Proof. intros Hm (A & B). unfold nearest_even. rewrite minus_IZR. replace (IZR k - IZR m - x) with (IZR k - (x + IZR m)) by ring. rewrite Z.even_sub, Hm. split; auto. intro E. rewrite (B E). reflexivity. Qed.
Lemma ne_int (k : Z) : nearest_even (IZR k) k.
Proof. unfold nearest_even. replace (IZR k - IZR k) with 0 by ring. rewrite Rabs_R0. split; [lra|intro; lra]. Qed.
Lemma ne_near x k m : nearest_even x k -> Rabs (IZR m - x) < / 2 -> k = m.
Proof.
  intros (A & _) B. apply Rabs_le_inv in A. apply Rabs_lt_inv in B. assert (-1 < IZR k - IZR m < 1) by lra. rewrite <- minus_IZR in H. destruct H as (H1 & H2). apply lt_IZR in H1, H2. lia.
Qed.

(** ** np.rint on doubles *)
Lemma rnd_binade y : bpow radix2 52 <= y <= bpow radix2 53 -> rnd y = IZR (ZnearestE y).
Proof.
  intros (H1 & H2). destruct (Rle_lt_or_eq_dec _ _ H2) as [H2'|E].
  - unfold rnd, round, scaled_mantissa, cexp. assert (M : mag radix2 y = 53%Z :> Z). { apply mag_unique. rewrite Rabs_pos_eq by (pose proof (bpow_gt_0 radix2 52); lra). split; auto. } rewrite M. change (FLT_exp (-1074) 53 53) with 0%Z. change (- 0)%Z with 0%Z. cbn [bpow]. unfold F2R. cbn [Fnum Fexp bpow]. rewrite !Rmult_1_r. reflexivity.
  - subst y. assert (EI : bpow radix2 53 = IZR (2 ^ 53)) by (simpl; lra). rewrite Znearest_imp with (n := (2 ^ 53)%Z) by (rewrite EI; unfold Rminus; rewrite Rplus_opp_r, Rabs_R0; lra). rewrite <- EI. unfold rnd. apply round_generic; [typeclasses eauto|]. apply generic_format_bpow. unfold FLT_exp. lia.
Qed.
Lemma rnd_int (k : Z) : (Z.abs k < 2 ^ 53)%Z -> rnd (IZR k) = IZR k.
Proof.
  intro H. assert (P : forall j : Z, (0 <= j < 2 ^ 53)%Z -> rnd (IZR j) = IZR j). { intros j Hj. pose proof (rnd_dyad j 0 Hj ltac:(lia)) as Q. cbn [bpow] in Q. rewrite !Rmult_1_r in Q. exact Q. }
  destruct (Z_le_gt_dec 0 k); [apply P; lia|]. replace k with (- (- k))%Z by lia. rewrite opp_IZR, rnd_opp, P by lia. reflexivity.
Qed.
Lemma big_F : finite (f_ofZ 4503599627370496) /\ FR (f_ofZ 4503599627370496) = IZR (2 ^ 52).
Proof. apply FloatShapes.ofZ_F. lia. Qed.
Lemma big_int x : finite x -> bpow radix2 52 <= Rabs (FR x) -> exists k, FR x = IZR k.
Proof.
  intros F H. pose proof (gf x) as G. unfold generic_format in G. set (c := cexp radix2 (FLT_exp (-1074) 53) (FR x)) in *. assert (C : (0 <= c)%Z). { unfold c, cexp, FLT_exp. assert (52 < mag radix2 (FR x))%Z by (apply mag_gt_bpow; exact H). lia. }
  rewrite G. unfold F2R. cbn [Fnum Fexp]. rewrite <- (IZR_Zpower radix2 c C), <- mult_IZR. eexists. reflexivity.
Qed.
Lemma rint_pos (y : R) : 0 <= y < IZR (2 ^ 52) -> exists K, rnd (y + IZR (2 ^ 52)) = IZR K /\ (2 ^ 52 <= K <= 2 ^ 53)%Z /\ nearest_even y (K - 2 ^ 52).
Proof.
  intros (H1 & H2). exists (ZnearestE (y + IZR (2 ^ 52))). assert (E52 : bpow radix2 52 = IZR (2 ^ 52)) by (simpl; lra). assert (E53 : bpow radix2 53 = IZR (2 ^ 52) + IZR (2 ^ 52)) by (simpl; lra). split; [apply rnd_binade; rewrite E52, E53; lra|]. pose proof (ZE_spec (y + IZR (2 ^ 52))) as Q. split; [|apply ne_shift; [reflexivity|exact Q]].
  destruct Q as (Q & _). apply Rabs_le_inv in Q. set (K := ZnearestE (y + IZR (2 ^ 52))) in *. assert (L : IZR (2 ^ 52 - 1) < IZR K) by (rewrite minus_IZR; lra). assert (U : IZR K < IZR (2 ^ 53 + 1)) by (rewrite plus_IZR; change (2 ^ 53)%Z with (2 ^ 52 + 2 ^ 52)%Z; rewrite plus_IZR; lra). apply lt_IZR in L, U. lia.
Qed.
Lemma int_small (k : Z) : (Z.abs k <= 2 ^ 53)%Z -> Rabs (IZR k) < bpow radix2 1024.
Proof. intro H. apply Rle_lt_trans with (bpow radix2 53); [|apply bpow_lt; lia]. rewrite <- abs_IZR. change (bpow radix2 53) with (IZR (2 ^ 53)). apply IZR_le. exact H. Qed.
Lemma rint_F x : finite x -> exists k, finite (f_rint x) /\ FR (f_rint x) = IZR k /\ nearest_even (FR x) k.
Proof.
  intro F. destruct big_F as (Fb & Eb). unfold f_rint. set (big := f_ofZ 4503599627370496) in *. cbv zeta. clearbody big. assert (E52 : bpow radix2 52 = IZR (2 ^ 52)) by (simpl; lra).
  destruct (PrimFloat.ltb (PrimFloat.abs x) big) eqn:L.
  - apply (ltb_F _ _ (proj2 (abs_finite x) F) Fb) in L. rewrite abs_F, Eb in L. destruct (PrimFloat.ltb x 0) eqn:N.
    + apply (ltb_F _ _ F (proj2 zero_F)) in N. rewrite (proj1 zero_F) in N. rewrite Rabs_left in L by lra. destruct (rint_pos (- FR x) ltac:(lra)) as (K & EK & BK & HK). assert (R1 : rnd (FR x - FR big) = IZR (- K)) by (rewrite Eb; replace (FR x - IZR (2 ^ 52)) with (- (- FR x + IZR (2 ^ 52))) by ring; rewrite rnd_opp, EK, opp_IZR; reflexivity).
      destruct (fin_sub x big F Fb) as (F1 & E1); [rewrite R1; apply int_small; lia|]. assert (R2 : rnd (FR (x - big)%float + FR big) = IZR (- (K - 2 ^ 52))) by (rewrite E1, R1, Eb, <- plus_IZR; replace (- K + 2 ^ 52)%Z with (- (K - 2 ^ 52))%Z by lia; apply rnd_int; lia).
      destruct (fin_add (x - big)%float big F1 Fb) as (F2 & E2); [rewrite R2; apply int_small; lia|]. exists (- (K - 2 ^ 52))%Z. split; [exact F2|]. split; [rewrite E2; exact R2|apply ne_opp; exact HK].
    + assert (N' : 0 <= FR x). { apply Rnot_lt_le. intro Q. assert (T : PrimFloat.ltb x 0 = true) by (apply (ltb_F _ _ F (proj2 zero_F)); rewrite (proj1 zero_F); exact Q). rewrite T in N. discriminate. } rewrite Rabs_pos_eq in L by exact N'. destruct (rint_pos (FR x) ltac:(lra)) as (K & EK & BK & HK). assert (R1 : rnd (FR x + FR big) = IZR K) by (rewrite Eb; exact EK).
      destruct (fin_add x big F Fb) as (F1 & E1); [rewrite R1; apply int_small; lia|]. assert (R2 : rnd (FR (x + big)%float - FR big) = IZR (K - 2 ^ 52)) by (rewrite E1, R1, Eb, <- minus_IZR; apply rnd_int; lia).
      destruct (fin_sub (x + big)%float big F1 Fb) as (F2 & E2); [rewrite R2; apply int_small; lia|]. exists (K - 2 ^ 52)%Z. split; [exact F2|]. split; [rewrite E2; exact R2|exact HK].
  - assert (L' : IZR (2 ^ 52) <= Rabs (FR x)). { apply Rnot_lt_le. intro Q. assert (T : PrimFloat.ltb (PrimFloat.abs x) big = true) by (apply (ltb_F _ _ (proj2 (abs_finite x) F) Fb); rewrite abs_F, Eb; exact Q). rewrite T in L. discriminate. } destruct (big_int x F ltac:(rewrite E52; exact L')) as (k & Ek). exists k. split; [exact F|]. split; [exact Ek|]. rewrite Ek. apply ne_int.
Qed.

(** ** round(0): exact for every double *)
Lemma map_F2 (f : flt -> res flt) (P : flt -> flt -> Prop) (Q : flt -> Prop) (v : list flt) : (forall x, Q x -> exists y, f x = Ok y /\ P x y) -> Forall Q v -> exists w, mapM f v = Ok w /\ Forall2 P v w.
Proof.
  intros H F. induction F as [|x v Hx F (w & Ew & IH)]; [exists []; split; [reflexivity|constructor]|]. destruct (H x Hx) as (y & Ey & Py). exists (y :: w). cbn [mapM]. rewrite Ey. cbn [bind]. rewrite Ew. split; [reflexivity|constructor; auto].
Qed.
Theorem C95_round_whole : forall v : list flt, Forall finite v -> exists w, round1 (N:=FNum) v 0 = Ok w /\ Forall2 (fun x y => finite y /\ rounded 0 (FR x) (FR y)) v w.
Proof.
  intros v F. apply (map_F2 _ (fun x y => finite y /\ rounded 0 (FR x) (FR y)) finite); [|exact F]. intros x Fx. destruct (rint_F x Fx) as (k & Fk & Ek & A & B). exists (f_rint x). split; [reflexivity|]. split; [exact Fk|]. exists k. change (- 0)%Z with 0%Z. cbn [powerRZ]. rewrite !Rmult_1_r, Ek. auto.
Qed.
Print Assumptions C95_round_whole.

(** ** round(d) for d <> 0: multiply, round to an integer, divide *)
Lemma ten_F d : (1 <= d <= 15)%Z -> finite (f_ofZ (10 ^ d)) /\ FR (f_ofZ (10 ^ d)) = IZR (10 ^ d) /\ 1 <= IZR (10 ^ d) <= bpow radix2 52.
Proof.
  intro H. assert (B : (1 <= 10 ^ d <= 10 ^ 15)%Z) by (split; [change 1%Z with (10 ^ 0)%Z|]; apply Z.pow_le_mono_r; lia). destruct (FloatShapes.ofZ_F (10 ^ d) ltac:(lia)) as (F & E). split; [exact F|]. split; [exact E|]. split; [apply IZR_le; lia|]. change (bpow radix2 52) with (IZR (2 ^ 52)). apply IZR_le. lia.
Qed.
Lemma k_bound (k : Z) p : Rabs (IZR k - p) <= / 2 -> Rabs p <= bpow radix2 960 -> Rabs (IZR k) <= bpow radix2 961.
Proof.
  intros H1 H2. replace (IZR k) with ((IZR k - p) + p) by ring. eapply Rle_trans; [apply Rabs_triang|]. change 961%Z with (1 + 960)%Z. rewrite bpow_plus. change (bpow radix2 1) with 2. assert (bpow radix2 0 <= bpow radix2 960) by (apply bpow_le; lia). change (bpow radix2 0) with 1 in H. lra.
Qed.
Lemma round_pos_F d x : (1 <= d <= 15)%Z -> finite x -> Rabs (FR x) <= bpow radix2 900 ->
  exists y k, np_round (N:=FNum) d x = Ok y /\ finite y /\ FR y = rnd (IZR k / IZR (10 ^ d)) /\ nearest_even (rnd (FR x * IZR (10 ^ d))) k.
Proof.
  intros Hd F B. destruct (ten_F d Hd) as (Ft & Et & T1 & T2). unfold np_round. destruct (Z.eqb_spec d 0); [lia|]. destruct (Z.ltb_spec 0 d); [|lia]. change (nofZ (n:=FNum)) with f_ofZ. change (nmul (n:=FNum)) with PrimFloat.mul. change (ndiv (n:=FNum)) with (fun a b : flt => Ok (a / b)%float). change (nrint (n:=FNum)) with f_rint. cbv beta. set (t := f_ofZ (10 ^ d)) in *. clearbody t. set (T := IZR (10 ^ d)) in *.
  assert (B1 : Rabs (rnd (FR x * FR t)) <= bpow radix2 960). { apply rnd_bpow_le; [lia|]. rewrite Et, Rabs_mult, (Rabs_pos_eq T) by lra. apply Rle_trans with (bpow radix2 900 * bpow radix2 52); [apply Rmult_le_compat; [apply Rabs_pos|lra|auto|auto]|rewrite <- bpow_plus; apply bpow_le; lia]. }
  destruct (fin_mul x t F Ft) as (F1 & E1); [eapply Rle_lt_trans; [exact B1|apply bpow_lt; lia]|]. destruct (rint_F (x * t)%float F1) as (k & Fk & Ek & NE). rewrite E1 in NE. pose proof (k_bound k _ (proj1 NE) B1) as Bk. set (r := f_rint (x * t)%float) in *. clearbody r.
  assert (B2 : Rabs (rnd (FR r / FR t)) <= bpow radix2 961). { apply rnd_bpow_le; [lia|]. rewrite Ek, Et. unfold Rdiv. rewrite Rabs_mult, (Rabs_pos_eq (/ T)) by (left; apply Rinv_0_lt_compat; lra). rewrite <- (Rmult_1_r (bpow radix2 961)). apply Rmult_le_compat; [apply Rabs_pos|left; apply Rinv_0_lt_compat; lra|auto|]. rewrite <- Rinv_1. apply Rinv_le_contravar; lra. }
  destruct (fin_div r t Fk ltac:(rewrite Et; lra)) as (F2 & E2); [eapply Rle_lt_trans; [exact B2|apply bpow_lt; lia]|]. exists (r / t)%float, k. split; [reflexivity|]. split; [exact F2|]. rewrite E2, Ek, Et. rewrite Et in NE. auto.
Qed.
Lemma round_neg_F d x : (1 <= d <= 15)%Z -> finite x -> Rabs (FR x) <= bpow radix2 900 ->
  exists y k, np_round (N:=FNum) (- d) x = Ok y /\ finite y /\ FR y = rnd (IZR k * IZR (10 ^ d)) /\ nearest_even (rnd (FR x / IZR (10 ^ d))) k.
Proof.
  intros Hd F B. destruct (ten_F d Hd) as (Ft & Et & T1 & T2). unfold np_round. destruct (Z.eqb_spec (- d) 0); [lia|]. destruct (Z.ltb_spec 0 (- d)); [lia|]. rewrite Z.opp_involutive. change (nofZ (n:=FNum)) with f_ofZ. change (nmul (n:=FNum)) with PrimFloat.mul. change (ndiv (n:=FNum)) with (fun a b : flt => Ok (a / b)%float). change (nrint (n:=FNum)) with f_rint. cbv beta. cbn [bind]. set (t := f_ofZ (10 ^ d)) in *. clearbody t. set (T := IZR (10 ^ d)) in *.
  assert (IT : 0 < / T <= 1) by (split; [apply Rinv_0_lt_compat; lra|rewrite <- Rinv_1; apply Rinv_le_contravar; lra]).
  assert (B1 : Rabs (rnd (FR x / FR t)) <= bpow radix2 900). { apply rnd_bpow_le; [lia|]. rewrite Et. unfold Rdiv. rewrite Rabs_mult, (Rabs_pos_eq (/ T)) by lra. rewrite <- (Rmult_1_r (bpow radix2 900)). apply Rmult_le_compat; [apply Rabs_pos|lra|auto|lra]. }
  destruct (fin_div x t F ltac:(rewrite Et; lra)) as (F1 & E1); [eapply Rle_lt_trans; [exact B1|apply bpow_lt; lia]|]. destruct (rint_F (x / t)%float F1) as (k & Fk & Ek & NE). rewrite E1 in NE. assert (B900 : bpow radix2 900 <= bpow radix2 960) by (apply bpow_le; lia). pose proof (k_bound k _ (proj1 NE) ltac:(lra)) as Bk. set (r := f_rint (x / t)%float) in *. clearbody r.
  assert (B2 : Rabs (rnd (FR r * FR t)) <= bpow radix2 1013). { apply rnd_bpow_le; [lia|]. rewrite Ek, Et, Rabs_mult, (Rabs_pos_eq T) by lra. apply Rle_trans with (bpow radix2 961 * bpow radix2 52); [apply Rmult_le_compat; [apply Rabs_pos|lra|auto|auto]|rewrite <- bpow_plus; apply bpow_le; lia]. }
  destruct (fin_mul r t Fk Ft) as (F2 & E2); [eapply Rle_lt_trans; [exact B2|apply bpow_lt; lia]|]. exists (r * t)%float, k. split; [reflexivity|]. split; [exact F2|]. rewrite E2, Ek, Et. rewrite Et in NE. auto.
Qed.
(** From the rounded product to the exact one: k is within half a unit, up to the rounding error of the product; away from ties it is the right integer. *)
Lemma k_near (s : R) k : nearest_even (rnd s) k -> let de := bpow radix2 (-53) * Rabs s + bpow radix2 (-1075) in Rabs (IZR k - s) <= / 2 + de /\ ((forall m : Z, de < Rabs (s - (IZR m + / 2))) -> Rabs (IZR k - s) < / 2).
Proof.
  intros (A & _) de. pose proof (rnd_err s) as E. change (uro * Rabs s + eta) with de in E. assert (H : Rabs (IZR k - s) <= / 2 + de). { replace (IZR k - s) with ((IZR k - rnd s) + (rnd s - s)) by ring. eapply Rle_trans; [apply Rabs_triang|]. lra. }
  split; [exact H|]. intro HM. destruct (Rlt_le_dec (Rabs (IZR k - s)) (/ 2)) as [|C]; auto. exfalso. destruct (Rle_lt_dec 0 (IZR k - s)) as [P|P].
  - rewrite Rabs_pos_eq in C, H by lra. specialize (HM (k - 1)%Z). rewrite minus_IZR in HM. rewrite Rabs_left1 in HM by lra. lra.
  - rewrite Rabs_left in C, H by lra. specialize (HM k). rewrite Rabs_pos_eq in HM by lra. lra.
Qed.
Lemma ten_pos d : (0 <= d)%Z -> powerRZ 10 d = IZR (10 ^ d).
Proof. intro H. rewrite <- (Z2Nat.id d H). generalize (Z.to_nat d). clear. intro n. rewrite <- pow_powerRZ, <- pow_IZR. reflexivity. Qed.
Lemma ten_neg d : (0 <= d)%Z -> powerRZ 10 (- d) = / IZR (10 ^ d).
Proof. intro H. rewrite <- (ten_pos d H). assert (P : 0 < powerRZ 10 d) by (apply powerRZ_lt; lra). apply Rmult_eq_reg_r with (powerRZ 10 d); [|lra]. rewrite Rinv_l by lra. rewrite <- powerRZ_add by lra. rewrite Z.add_opp_diag_l. reflexivity. Qed.
Theorem C95_round_decimals : forall (d : Z) (v : list flt), (-15 <= d <= 15)%Z -> d <> 0%Z -> Forall (fun x => finite x /\ Rabs (FR x) <= bpow radix2 900) v ->
  exists w, round1 (N:=FNum) v d = Ok w /\ Forall2 (fun x y => finite y /\ let s := FR x * powerRZ 10 d in let de := bpow radix2 (-53) * Rabs s + bpow radix2 (-1075) in
    (exists k : Z, FR y = rnd (IZR k * powerRZ 10 (- d)) /\ Rabs (IZR k - s) <= / 2 + de) /\
    ((forall m : Z, de < Rabs (s - (IZR m + / 2))) -> exists z, rounded d (FR x) z /\ FR y = rnd z)) v w.
Proof.
  intros d v Hd Nd F. apply (map_F2 _ _ (fun x => finite x /\ Rabs (FR x) <= bpow radix2 900)); [|exact F]. intros x (Fx & Bx).
  assert (K : exists y k, np_round (N:=FNum) d x = Ok y /\ finite y /\ FR y = rnd (IZR k * powerRZ 10 (- d)) /\ nearest_even (rnd (FR x * powerRZ 10 d)) k).
  { destruct (Z_lt_le_dec 0 d).
    - destruct (round_pos_F d x ltac:(lia) Fx Bx) as (y & k & E1 & E2 & E3 & E4). exists y, k. rewrite ten_neg, ten_pos by lia. auto.
    - destruct (round_neg_F (- d) x ltac:(lia) Fx Bx) as (y & k & E1 & E2 & E3 & E4). exists y, k. rewrite Z.opp_involutive in E1. rewrite (ten_pos (- d)) by lia. replace (powerRZ 10 d) with (/ IZR (10 ^ (- d))) by (rewrite <- ten_neg by lia; rewrite Z.opp_involutive; reflexivity). auto. }
  destruct K as (y & k & E1 & E2 & E3 & E4). exists y. split; [exact E1|]. split; [exact E2|]. cbv zeta. destruct (k_near _ k E4) as (K1 & K2). cbv zeta in K1, K2. split; [exists k; auto|]. intro HM. specialize (K2 HM). exists (IZR k * powerRZ 10 (- d)). split; [|exact E3].
  assert (PP : 0 < powerRZ 10 (- d)) by (apply powerRZ_lt; lra). assert (Q : powerRZ 10 d * powerRZ 10 (- d) = 1) by (rewrite <- powerRZ_add by lra; rewrite Z.add_opp_diag_r; reflexivity). assert (L : Rabs (IZR k * powerRZ 10 (- d) - FR x) < / 2 * powerRZ 10 (- d)). { replace (IZR k * powerRZ 10 (- d) - FR x) with ((IZR k - FR x * powerRZ 10 d) * powerRZ 10 (- d)) by (rewrite Rmult_minus_distr_r, (Rmult_assoc (FR x)), Q; ring). rewrite Rabs_mult, (Rabs_pos_eq (powerRZ _ _)) by lra. apply Rmult_lt_compat_r; lra. }
  exists k. split; [reflexivity|]. split; [lra|intro; lra].
Qed.
Print Assumptions C95_round_decimals.

(** ** Rounding twice *)
Lemma idem_k (k : Z) T y : 1 <= T <= bpow radix2 52 -> Rabs (IZR k) <= bpow radix2 50 -> y = rnd (IZR k / T) -> Rabs (IZR k - rnd (y * T)) < / 2 /\ Rabs y <= bpow radix2 50.
Proof.
  intros (T1 & T2) K ->. assert (IT : 0 < / T <= 1) by (split; [apply Rinv_0_lt_compat; lra|rewrite <- Rinv_1; apply Rinv_le_contravar; lra]).
  assert (KT : Rabs (IZR k / T) = Rabs (IZR k) * / T) by (unfold Rdiv; rewrite Rabs_mult, (Rabs_pos_eq (/ T)) by lra; reflexivity). assert (KP : 0 <= Rabs (IZR k)) by apply Rabs_pos.
  assert (BY : Rabs (rnd (IZR k / T)) <= bpow radix2 50). { apply rnd_bpow_le; [lia|]. rewrite KT, <- (Rmult_1_r (bpow radix2 50)). apply Rmult_le_compat; lra. } split; [|exact BY].
  pose proof (rnd_err (IZR k / T)) as E1. rewrite KT in E1. set (y := rnd (IZR k / T)) in *. pose proof (rnd_err (y * T)) as E2.
  assert (U50 : uro * bpow radix2 50 = / 8) by (unfold uro; rewrite <- bpow_plus; simpl; lra). assert (ET : eta * bpow radix2 52 <= / 1024) by (unfold eta; rewrite <- bpow_plus; replace (/ 1024) with (bpow radix2 (-10)) by (simpl; lra); apply bpow_le; lia). assert (EP : 0 < eta) by apply bpow_gt_0. assert (E0 : eta <= / 1024) by (unfold eta; replace (/ 1024) with (bpow radix2 (-10)) by (simpl; lra); apply bpow_le; lia). destruct uro_small as (UP & US).
  assert (D1 : Rabs (y * T - IZR k) <= / 8 + / 1024). { replace (y * T - IZR k) with ((y - IZR k / T) * T) by (field; lra). rewrite Rabs_mult, (Rabs_pos_eq T) by lra. apply Rle_trans with ((uro * (Rabs (IZR k) * / T) + eta) * T); [apply Rmult_le_compat_r; lra|]. replace ((uro * (Rabs (IZR k) * / T) + eta) * T) with (uro * Rabs (IZR k) + eta * T) by (field; lra). apply Rplus_le_compat; [rewrite <- U50; apply Rmult_le_compat_l; lra|]. apply Rle_trans with (eta * bpow radix2 52); [apply Rmult_le_compat_l; lra|exact ET]. }
  assert (D2 : Rabs (y * T) <= bpow radix2 50 + 1). { replace (y * T) with ((y * T - IZR k) + IZR k) by ring. eapply Rle_trans; [apply Rabs_triang|]. lra. }
  assert (D3 : uro * Rabs (y * T) <= / 8 + / 1024). { apply Rle_trans with (uro * (bpow radix2 50 + 1)); [apply Rmult_le_compat_l; lra|]. rewrite Rmult_plus_distr_l, U50. lra. }
  replace (IZR k - rnd (y * T)) with (- ((rnd (y * T) - y * T) + (y * T - IZR k))) by ring. rewrite Rabs_Ropp. eapply Rle_lt_trans; [apply Rabs_triang|]. lra.
Qed.
Lemma forall2_map {A B C} (P : A -> B -> Prop) (f : A -> C) (g : B -> C) u v : Forall2 P u v -> (forall a b, P a b -> f a = g b) -> map f u = map g v.
Proof. intros F H. induction F; cbn [map]; [reflexivity|]. rewrite IHF. f_equal. auto. Qed.
Lemma round_twice_1 d x : (1 <= d <= 15)%Z -> finite x -> Rabs (FR x * powerRZ 10 d) <= bpow radix2 49 ->
  exists y z, np_round (N:=FNum) d x = Ok y /\ np_round (N:=FNum) d y = Ok z /\ finite y /\ FR z = FR y.
Proof.
  intros Hd Fx Bx. rewrite ten_pos in Bx by lia. destruct (ten_F d Hd) as (_ & _ & T1 & T2). set (T := IZR (10 ^ d)) in *.
  assert (X : Rabs (FR x) <= bpow radix2 900). { apply Rle_trans with (bpow radix2 49); [|apply bpow_le; lia]. eapply Rle_trans; [|exact Bx]. rewrite Rabs_mult, (Rabs_pos_eq T) by lra. rewrite <- (Rmult_1_r (Rabs (FR x))) at 1. apply Rmult_le_compat_l; [apply Rabs_pos|lra]. }
  destruct (round_pos_F d x Hd Fx X) as (y & k & E1 & Fy & E2 & NE). fold T in E2, NE. pose proof (rnd_bpow_le _ 49 ltac:(lia) Bx) as Bs. assert (K : Rabs (IZR k) <= bpow radix2 50). { destruct NE as (NE & _). replace (IZR k) with ((IZR k - rnd (FR x * T)) + rnd (FR x * T)) by ring. eapply Rle_trans; [apply Rabs_triang|]. replace (bpow radix2 50) with (2 * bpow radix2 49) by (simpl; lra). assert (1 <= bpow radix2 49) by (change 1 with (bpow radix2 0); apply bpow_le; lia). lra. }
  destruct (idem_k k T (FR y) (conj T1 T2) K E2) as (Q1 & Q2). destruct (round_pos_F d y Hd Fy) as (z & k' & E3 & Fz & E4 & NE'); [eapply Rle_trans; [exact Q2|apply bpow_le; lia]|]. fold T in E4, NE'. pose proof (ne_near _ _ _ NE' Q1) as ->. exists y, z. rewrite E4, E2. auto.
Qed.
Theorem C95_idempotent : forall (d : Z) (v : list flt), (1 <= d <= 15)%Z -> Forall (fun x => finite x /\ Rabs (FR x * powerRZ 10 d) <= bpow radix2 49) v ->
  exists w w', round1 (N:=FNum) v d = Ok w /\ Forall finite w /\ round1 (N:=FNum) w d = Ok w' /\ map FR w' = map FR w.
Proof.
  intros d v Hd F. induction F as [|x v (Fx & Bx) F (w & w' & E1 & Fw & E2 & E3)]; [exists [], []; split; [reflexivity|]; split; [constructor|]; split; reflexivity|].
  destruct (round_twice_1 d x Hd Fx Bx) as (y & z & Y1 & Y2 & Y3 & Y4). exists (y :: w), (z :: w'). unfold round1 in *. cbn [mapM]. rewrite Y1. cbn [bind]. rewrite E1. split; [reflexivity|]. split; [constructor; auto|]. rewrite Y2. cbn [bind]. rewrite E2. split; [reflexivity|]. cbn [map]. rewrite Y4, E3. reflexivity.
Qed.
Print Assumptions C95_idempotent.

(** ** What is not true of doubles *)
Lemma x2675 : FR 2.675 = 3011782250804019 / 1125899906842624.
Proof. erewrite FR_val by (vm_compute; reflexivity). simpl. unfold F2R. simpl. lra. Qed.
Lemma x268 : FR 2.68 = 6034823500676465 / 2251799813685248.
Proof. erewrite FR_val by (vm_compute; reflexivity). simpl. unfold F2R. simpl. lra. Qed.
(** 2.675 is stored below 2.675, so the nearest multiple of 1/100 is 2.67; the scaled product 267.5 is exact and rounds to 268. *)
Theorem C95_nearest_refuted : exists x y : flt, finite x /\ round1 (N:=FNum) [x] 2 = Ok [y] /\ finite y /\ ~ exists z, rounded 2 (FR x) z /\ FR y = rnd z.
Proof.
  exists 2.675%float, 2.68%float. split; [reflexivity|]. split; [reflexivity|]. split; [reflexivity|]. intros (z & (k & Ez & A & _) & E). rewrite x2675 in A. rewrite x268 in E. rewrite (ten_neg 2) in Ez, A by lia. change (10 ^ 2)%Z with 100%Z in Ez, A. apply Rabs_le_inv in A.
  assert (K : k = 267%Z). { assert (IZR 266 < IZR k < IZR 268) as (K1 & K2) by lra. apply lt_IZR in K1, K2. lia. } subst k. assert (Z2 : z = 267 / 100) by lra. pose proof (rnd_err z) as B. rewrite <- E, Z2 in B. rewrite (Rabs_pos_eq (267 / 100)) in B by lra. destruct uro_small as (_ & US).
  assert (E0 : eta <= / 1024) by (unfold eta; replace (/ 1024) with (bpow radix2 (-10)) by (simpl; lra); apply bpow_le; lia). apply Rabs_le_inv in B. lra.
Qed.
Print Assumptions C95_nearest_refuted.
(** Rounding a finite array to more decimals than its size allows makes it infinite. *)
Theorem C95_overflow_refuted : exists x y : flt, finite x /\ round1 (N:=FNum) [x] 10 = Ok [y] /\ ~ finite y.
Proof. exists 1e300%float, infinity. split; [reflexivity|]. split; [reflexivity|]. discriminate. Qed.
Print Assumptions C95_overflow_refuted.

(** ** The hypotheses are met *)
Lemma x314 : FR 3.14159 = 3537115888337719 / 1125899906842624.
Proof. erewrite FR_val by (vm_compute; reflexivity). simpl. unfold F2R. simpl. lra. Qed.
Lemma p900 : 4 <= bpow radix2 900.
Proof. replace 4 with (bpow radix2 2) by (simpl; lra). apply bpow_le. lia. Qed.
Theorem C95_nonvacuous : Forall finite [2.5; -3.5; 0.3]%float /\ round1 (N:=FNum) [2.5; -3.5; 0.3]%float 0 = Ok [2; -4; 0]%float /\
  (finite 3.14159%float /\ Rabs (FR 3.14159) <= bpow radix2 900 /\ Rabs (FR 3.14159 * powerRZ 10 2) <= bpow radix2 49 /\
    let s := FR 3.14159 * powerRZ 10 2 in forall m : Z, bpow radix2 (-53) * Rabs s + bpow radix2 (-1075) < Rabs (s - (IZR m + / 2))) /\
  round1 (N:=FNum) [3.14159]%float 2 = Ok [3.14]%float /\ round1 (N:=FNum) [3.14]%float 2 = Ok [3.14]%float /\ round1 (N:=FNum) [1251; -1250]%float (-2) = Ok [1300; -1200]%float.
Proof.
  split; [repeat constructor; reflexivity|]. split; [reflexivity|]. split; [|split; [reflexivity|]; split; reflexivity]. split; [reflexivity|]. rewrite x314. rewrite (ten_pos 2) by lia. change (10 ^ 2)%Z with 100%Z. split; [rewrite Rabs_pos_eq by lra; pose proof p900; lra|]. split. { rewrite Rabs_pos_eq by lra. replace (bpow radix2 49) with 562949953421312 by (simpl; lra). lra. }
  cbv zeta. intro m. set (s := 3537115888337719 / 1125899906842624 * 100). assert (S1 : 314.1 < s < 314.2) by (unfold s; lra). clearbody s. rewrite (Rabs_pos_eq s) by lra. assert (U : bpow radix2 (-53) <= / 1048576) by (replace (/ 1048576) with (bpow radix2 (-20)) by (simpl; lra); apply bpow_le; lia). assert (V : bpow radix2 (-1075) <= / 1048576) by (replace (/ 1048576) with (bpow radix2 (-20)) by (simpl; lra); apply bpow_le; lia). pose proof (bpow_gt_0 radix2 (-53)) as P.
  assert (L : bpow radix2 (-53) * s <= / 1048576 * 315) by (apply Rmult_le_compat; lra). destruct (Z_le_gt_dec m 313) as [M|M].
  - apply IZR_le in M. rewrite Rabs_pos_eq by lra. lra.
  - assert (M' : (314 <= m)%Z) by lia. apply IZR_le in M'. rewrite Rabs_left by lra. lra.
Qed.
Print Assumptions C95_nonvacuous.
