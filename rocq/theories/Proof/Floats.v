(** * Lemmas on IEEE binary64, from Flocq *)
From Coq Require Import Reals ZArith Floats List Lra Lia Bool.
From Flocq Require Import Core BinarySingleNaN.
From Flocq Require Import IEEE754.PrimFloat.
From Verif.Model Require Import Outcome Num Instances.
From Verif.Spec Require Import Floats.
Import ListNotations.
Local Open Scope R_scope.
Local Existing Instance Hprec.
Local Existing Instance Hmax.

Lemma rnd_eq : rnd = round radix2 (fexp prec emax) (round_mode mode_NE).
Proof. reflexivity. Qed.

Lemma f_finite_equiv x : f_finite x = is_finite (Prim2B x).
Proof.
  unfold f_finite. rewrite classify_spec, <- B2SF_Prim2B. destruct (Prim2B x) as [[|]|[|]| |[|] m e H]; simpl; try reflexivity; match goal with |- context [if ?b then _ else _] => destruct b end; reflexivity.
Qed.
Lemma f_finite_iff x : f_finite x = true <-> finite x.
Proof. rewrite f_finite_equiv. reflexivity. Qed.
Lemma finite_not_nan x : finite x -> not_nan x.
Proof. unfold finite, not_nan. destruct (Prim2B x); simpl; congruence. Qed.

(** Comparisons of finite doubles are comparisons of reals. *)
Lemma ltb_F x y : finite x -> finite y -> PrimFloat.ltb x y = true <-> FR x < FR y.
Proof.
  intros Hx Hy. rewrite ltb_equiv, Bltb_correct by assumption. fold (FR x) (FR y). destruct (Rlt_bool_spec (FR x) (FR y)); split; intro; try congruence; try lra; auto.
Qed.
Lemma leb_F x y : finite x -> finite y -> PrimFloat.leb x y = true <-> FR x <= FR y.
Proof.
  intros Hx Hy. rewrite leb_equiv, Bleb_correct by assumption. fold (FR x) (FR y). destruct (Rle_bool_spec (FR x) (FR y)); split; intro; try congruence; try lra; auto.
Qed.
Lemma eqb_F x y : finite x -> finite y -> PrimFloat.eqb x y = true <-> FR x = FR y.
Proof.
  intros Hx Hy. rewrite eqb_equiv, Beqb_correct by assumption. fold (FR x) (FR y). destruct (Req_bool_spec (FR x) (FR y)); split; intro; try congruence; try lra; auto.
Qed.
Lemma eqb_refl_F x : not_nan x -> PrimFloat.eqb x x = true.
Proof. intro H. rewrite eqb_equiv, Beqb_refl. unfold not_nan in H. rewrite H. reflexivity. Qed.

(** A finite result of +, -, *, sqrt comes from finite operands and is the rounded exact result. *)
Lemma overflow_inf b : binary_overflow prec emax mode_NE b = SpecFloat.S754_infinity b.
Proof. reflexivity. Qed.
Lemma inf_not_finite (z : binary_float prec emax) b : B2SF z = SpecFloat.S754_infinity b -> is_finite z = false.
Proof. destruct z; simpl; intros; congruence. Qed.

Lemma Bplus_fin (x y : binary_float prec emax) : is_finite (Bplus mode_NE x y) = true ->
  is_finite x = true /\ is_finite y = true /\ B2R (Bplus mode_NE x y) = rnd (B2R x + B2R y).
Proof.
  intro H. assert (A : is_finite x = true /\ is_finite y = true).
  { destruct x as [[|]|[|]| |[|] ? ? ?], y as [[|]|[|]| |[|] ? ? ?]; simpl in H; try congruence; auto. }
  destruct A as (Hx & Hy). split; auto. split; auto. pose proof (Bplus_correct prec emax Hprec Hmax mode_NE x y Hx Hy) as C.
  rewrite <- rnd_eq in C. destruct (Rlt_bool _ _); [tauto|]. destruct C as (C & _). rewrite overflow_inf in C. apply inf_not_finite in C. congruence.
Qed.
Lemma Bminus_fin (x y : binary_float prec emax) : is_finite (Bminus mode_NE x y) = true ->
  is_finite x = true /\ is_finite y = true /\ B2R (Bminus mode_NE x y) = rnd (B2R x - B2R y).
Proof.
  intro H. assert (A : is_finite x = true /\ is_finite y = true).
  { destruct x as [[|]|[|]| |[|] ? ? ?], y as [[|]|[|]| |[|] ? ? ?]; simpl in H; try congruence; auto. }
  destruct A as (Hx & Hy). split; auto. split; auto. pose proof (Bminus_correct prec emax Hprec Hmax mode_NE x y Hx Hy) as C.
  rewrite <- rnd_eq in C. destruct (Rlt_bool _ _); [tauto|]. destruct C as (C & _). rewrite overflow_inf in C. apply inf_not_finite in C. congruence.
Qed.
Lemma Bmult_fin (x y : binary_float prec emax) : is_finite (Bmult mode_NE x y) = true ->
  is_finite x = true /\ is_finite y = true /\ B2R (Bmult mode_NE x y) = rnd (B2R x * B2R y).
Proof.
  intro H. pose proof (Bmult_correct prec emax Hprec Hmax mode_NE x y) as C. rewrite <- rnd_eq in C. destruct (Rlt_bool _ _).
  - destruct C as (C1 & C2 & _). rewrite C2 in H. apply andb_prop in H. tauto.
  - rewrite overflow_inf in C. apply inf_not_finite in C. congruence.
Qed.
Lemma Bdiv_fin (x y : binary_float prec emax) : B2R y <> 0 -> is_finite (Bdiv mode_NE x y) = true ->
  is_finite x = true /\ B2R (Bdiv mode_NE x y) = rnd (B2R x / B2R y).
Proof.
  intros Hy H. pose proof (Bdiv_correct prec emax Hprec Hmax mode_NE x y Hy) as C. rewrite <- rnd_eq in C. destruct (Rlt_bool _ _).
  - destruct C as (C1 & C2 & _). rewrite C2 in H. tauto.
  - rewrite overflow_inf in C. apply inf_not_finite in C. congruence.
Qed.

Lemma add_F x y : finite (x + y)%float -> finite x /\ finite y /\ FR (x + y)%float = rnd (FR x + FR y).
Proof. unfold finite, FR. rewrite add_equiv. apply Bplus_fin. Qed.
Lemma sub_F x y : finite (x - y)%float -> finite x /\ finite y /\ FR (x - y)%float = rnd (FR x - FR y).
Proof. unfold finite, FR. rewrite sub_equiv. apply Bminus_fin. Qed.
Lemma mul_F x y : finite (x * y)%float -> finite x /\ finite y /\ FR (x * y)%float = rnd (FR x * FR y).
Proof. unfold finite, FR. rewrite mul_equiv. apply Bmult_fin. Qed.
Lemma div_F x y : FR y <> 0 -> finite (x / y)%float -> finite x /\ FR (x / y)%float = rnd (FR x / FR y).
Proof. unfold finite, FR. rewrite div_equiv. apply Bdiv_fin. Qed.
Lemma sqrt_F x : finite (PrimFloat.sqrt x) -> finite x /\ 0 <= FR x /\ FR (PrimFloat.sqrt x) = rnd (R_sqrt.sqrt (FR x)).
Proof.
  unfold finite, FR. rewrite sqrt_equiv. destruct (Bsqrt_correct prec emax Hprec Hmax mode_NE (Prim2B x)) as (C & F & _). rewrite <- rnd_eq in C. rewrite F. intro H.
  split; [destruct (Prim2B x) as [[|]|[|]| |[|] ? ? ?]; auto; congruence|]. split; auto.
  destruct (Prim2B x) as [[|]|[|]| |[|] m e ?]; try congruence; simpl; try lra. apply F2R_ge_0. simpl. lia.
Qed.
Lemma opp_F x : FR (- x)%float = - FR x.
Proof. unfold FR. rewrite opp_equiv. apply B2R_Bopp. Qed.
Lemma opp_finite x : finite (- x)%float <-> finite x.
Proof. unfold finite. rewrite opp_equiv, is_finite_Bopp. reflexivity. Qed.
Lemma abs_F x : FR (PrimFloat.abs x) = Rabs (FR x).
Proof. unfold FR. rewrite abs_equiv. apply B2R_Babs. Qed.
Lemma abs_finite x : finite (PrimFloat.abs x) <-> finite x.
Proof. unfold finite. rewrite abs_equiv, is_finite_Babs. reflexivity. Qed.
Lemma zero_F : FR 0%float = 0 /\ finite 0%float.
Proof. split; reflexivity. Qed.
Lemma one_F : FR 1%float = 1 /\ finite 1%float.
Proof. split; [unfold FR; change 1%float with one; rewrite one_equiv, Prim2B_B2Prim; apply Bone_correct|reflexivity]. Qed.

(** ** Rounding *)
Global Instance flt_valid : Valid_exp (FLT_exp (-1074) 53).
Proof. apply FLT_exp_valid. reflexivity. Qed.
Lemma rnd_le x y : x <= y -> rnd x <= rnd y.
Proof. apply round_le; auto with typeclass_instances. Qed.
Lemma rnd_0 : rnd 0 = 0.
Proof. apply round_0; auto with typeclass_instances. Qed.
Lemma rnd_opp x : rnd (- x) = - rnd x.
Proof. apply round_NE_opp. Qed.
Lemma rnd_pos x : 0 <= x -> 0 <= rnd x.
Proof. intro. rewrite <- rnd_0. apply rnd_le; auto. Qed.
Lemma rnd_FR x : finite x -> rnd (FR x) = FR x.
Proof.
  intros _. apply round_generic; auto with typeclass_instances. apply (generic_format_B2R prec emax).
Qed.
Lemma rnd_err x : Rabs (rnd x - x) <= uro * Rabs x + eta.
Proof.
  destruct (Relative.error_N_FLT radix2 (-1074) 53 eq_refl (fun n => negb (Z.even n)) x) as (e & n & He & Hn & _ & E).
  unfold rnd. rewrite E.
  replace (x * (1 + e) + n - x) with (x * e + n) by ring. eapply Rle_trans; [apply Rabs_triang|]. apply Rplus_le_compat.
  - rewrite Rabs_mult, (Rmult_comm uro). apply Rmult_le_compat_l; [apply Rabs_pos|]. eapply Rle_trans; [exact He|]. right.
    unfold uro. transitivity (bpow radix2 (-1 + (-53 + 1))); [rewrite (bpow_plus radix2 (-1)); reflexivity|reflexivity].
  - unfold eta. eapply Rle_trans; [exact Hn|]. right. change (-1075)%Z with (-1 + -1074)%Z. rewrite bpow_plus. reflexivity.
Qed.

(** ** The converse direction: results that do not overflow *)
Lemma below_emax (r : R) (x : PrimFloat.float) : Rabs r <= Rabs (FR x) -> finite x -> Rlt_bool (Rabs r) (bpow radix2 emax) = true.
Proof.
  intros H F. apply Rlt_bool_true. eapply Rle_lt_trans; [exact H|]. unfold FR. apply abs_B2R_lt_emax.
Qed.
Lemma add_ok x y z : finite x -> finite y -> finite z -> Rabs (rnd (FR x + FR y)) <= Rabs (FR z) -> finite (x + y)%float /\ FR (x + y)%float = rnd (FR x + FR y).
Proof.
  unfold finite, FR. intros Fx Fy Fz H. rewrite add_equiv. pose proof (Bplus_correct prec emax Hprec Hmax mode_NE _ _ Fx Fy) as C. rewrite <- rnd_eq in C.
  pose proof (below_emax _ z H Fz) as E. rewrite E in C. tauto.
Qed.
Lemma sub_ok x y z : finite x -> finite y -> finite z -> Rabs (rnd (FR x - FR y)) <= Rabs (FR z) -> finite (x - y)%float /\ FR (x - y)%float = rnd (FR x - FR y).
Proof.
  unfold finite, FR. intros Fx Fy Fz H. rewrite sub_equiv. pose proof (Bminus_correct prec emax Hprec Hmax mode_NE _ _ Fx Fy) as C. rewrite <- rnd_eq in C.
  pose proof (below_emax _ z H Fz) as E. rewrite E in C. tauto.
Qed.
Lemma mul_ok x y z : finite x -> finite y -> finite z -> Rabs (rnd (FR x * FR y)) <= Rabs (FR z) -> finite (x * y)%float /\ FR (x * y)%float = rnd (FR x * FR y).
Proof.
  unfold finite, FR. intros Fx Fy Fz H. rewrite mul_equiv. pose proof (Bmult_correct prec emax Hprec Hmax mode_NE (Prim2B x) (Prim2B y)) as C. rewrite <- rnd_eq in C.
  pose proof (below_emax _ z H Fz) as E. rewrite E, Fx, Fy in C. tauto.
Qed.
Lemma div_ok x y z : finite x -> FR y <> 0 -> finite z -> Rabs (rnd (FR x / FR y)) <= Rabs (FR z) -> finite (x / y)%float /\ FR (x / y)%float = rnd (FR x / FR y).
Proof.
  unfold finite, FR. intros Fx Fy Fz H. rewrite div_equiv. pose proof (Bdiv_correct prec emax Hprec Hmax mode_NE (Prim2B x) (Prim2B y) Fy) as C. rewrite <- rnd_eq in C.
  pose proof (below_emax _ z H Fz) as E. rewrite E, Fx in C. tauto.
Qed.

(** ** Zeros (of either sign) *)
Definition fzero (x : PrimFloat.float) : Prop := finite x /\ FR x = 0.
Lemma fzero_0 : fzero 0%float. Proof. split; reflexivity. Qed.
Ltac abs0 := rewrite ?Rabs_R0; apply Rabs_pos || apply Rle_refl.
Lemma fzero_sub x y : finite x -> finite y -> FR x = FR y -> fzero (x - y)%float.
Proof.
  intros Fx Fy E. destruct (sub_ok x y 0%float Fx Fy eq_refl) as (F & R).
  - rewrite E. replace (FR y - FR y) with 0 by ring. rewrite rnd_0. abs0.
  - split; auto. rewrite R, E. replace (FR y - FR y) with 0 by ring. apply rnd_0.
Qed.
Lemma fzero_mul x y : finite x -> finite y -> FR x * FR y = 0 -> fzero (x * y)%float.
Proof. intros Fx Fy E. destruct (mul_ok x y 0%float Fx Fy eq_refl) as (F & R); rewrite ?E, ?rnd_0 in *; [abs0|]. split; auto. Qed.
Lemma fzero_add x y : fzero x -> fzero y -> fzero (x + y)%float.
Proof.
  intros (Fx & X) (Fy & Y). destruct (add_ok x y 0%float Fx Fy eq_refl) as (F & R); rewrite ?X, ?Y, ?Rplus_0_r, ?rnd_0 in *; [abs0|]. split; auto.
Qed.
Lemma add_fzero x y : finite x -> fzero y -> finite (x + y)%float /\ FR (x + y)%float = FR x.
Proof.
  intros Fx (Fy & Y). destruct (add_ok x y x Fx Fy Fx) as (F & R); rewrite ?Y, ?Rplus_0_r, ?rnd_FR in * by auto; [abs0|]. auto.
Qed.
Lemma fzero_eqb x : fzero x <-> PrimFloat.eqb x 0 = true.
Proof.
  split.
  - intros (F & R). apply eqb_F; auto. reflexivity.
  - intro H. assert (F : finite x).
    { unfold finite. rewrite eqb_equiv in H. unfold Beqb in H. destruct (Prim2B x) as [[|]|[|]| |[|] m e Hb]; auto; discriminate. }
    split; auto. apply eqb_F in H; auto. reflexivity.
Qed.
(** Dividing a zero by anything but a zero or nan gives a zero. *)
Lemma fzero_div x y : fzero x -> not_nan y -> ~ fzero y -> fzero (x / y)%float.
Proof.
  intros (Fx & X) Hn Hz. destruct (is_finite (Prim2B y)) eqn:Fy.
  - assert (Y : FR y <> 0) by (intro; apply Hz; split; auto). destruct (div_ok x y 0%float Fx Y eq_refl) as (F & R).
    + rewrite X. unfold Rdiv. rewrite Rmult_0_l, rnd_0. abs0.
    + split; auto. rewrite R, X. unfold Rdiv. rewrite Rmult_0_l. apply rnd_0.
  - unfold fzero, finite, FR in *. rewrite div_equiv. unfold not_nan in Hn. destruct (Prim2B y) as [[|]|[|]| |[|] ? ? ?]; try discriminate;
    destruct (Prim2B x) as [[|]|[|]| |[|] ? ? ?]; try discriminate; split; auto; exfalso; simpl in X; apply eq_0_F2R in X; discriminate.
Qed.
Lemma fzero_sqrt x : fzero x -> fzero (PrimFloat.sqrt x).
Proof.
  intros (Fx & X). unfold fzero, finite, FR in *. rewrite sqrt_equiv. destruct (Prim2B x) as [[|]|[|]| |[|] ? ? ?]; try discriminate; split; auto; exfalso; simpl in X; apply eq_0_F2R in X; discriminate.
Qed.

(** ** Doubles without a minus sign, possibly infinite, not nan *)
Definition fpos (x : PrimFloat.float) : Prop := Bsign (Prim2B x) = false /\ not_nan x.
Lemma fpos_FR x : fpos x -> 0 <= FR x.
Proof. intros (S & _). unfold FR. destruct (Prim2B x) as [[|]|[|]| |[|] m e H]; simpl in *; try lra; try discriminate. apply F2R_ge_0. simpl. lia. Qed.
Lemma fpos_0 : fpos 0%float. Proof. split; reflexivity. Qed.
Lemma Bsign_inf (z : binary_float prec emax) b : B2SF z = SpecFloat.S754_infinity b -> Bsign z = b /\ is_nan z = false.
Proof. destruct z; simpl; intro E; try discriminate. injection E as <-. auto. Qed.
Lemma fpos_sq x : not_nan x -> fpos (x * x)%float.
Proof.
  intro Hn. unfold fpos, not_nan in *. rewrite mul_equiv. set (b := Prim2B x) in *. destruct (is_finite b) eqn:F.
  - pose proof (Bmult_correct prec emax Hprec Hmax mode_NE b b) as C. destruct (Rlt_bool _ _).
    + destruct C as (_ & C & S). rewrite F in C. assert (N : is_nan (Bmult mode_NE b b) = false) by (destruct (Bmult mode_NE b b); auto; discriminate).
      split; auto. rewrite S by auto. apply xorb_nilpotent.
    + rewrite overflow_inf, xorb_nilpotent in C. apply Bsign_inf in C. exact C.
  - destruct b as [[|]|[|]| |[|] ? ? ?]; try discriminate; split; auto.
Qed.
Lemma fpos_add x y : fpos x -> fpos y -> fpos (x + y)%float.
Proof.
  intros Hx Hy. pose proof (fpos_FR x Hx) as Rx. pose proof (fpos_FR y Hy) as Ry. unfold fpos, not_nan, FR in *. rewrite add_equiv. set (a := Prim2B x) in *. set (b := Prim2B y) in *.
  destruct (is_finite a) eqn:Fa; [destruct (is_finite b) eqn:Fb|].
  - pose proof (Bplus_correct prec emax Hprec Hmax mode_NE a b Fa Fb) as C. destruct (Rlt_bool _ _).
    + destruct C as (_ & C & S). split; [|destruct (Bplus mode_NE a b); auto; discriminate]. rewrite S. destruct (Rcompare_spec (B2R a + B2R b) 0); auto; [lra|]. destruct Hx as (-> & _). reflexivity.
    + destruct C as (C & _). rewrite overflow_inf in C. apply Bsign_inf in C. destruct Hx as (Hx & _). rewrite Hx in C. exact C.
  - destruct a as [[|]|[|]| |[|] ? ? ?], b as [[|]|[|]| |[|] ? ? ?]; simpl in *; try discriminate; split; auto; tauto.
  - destruct a as [[|]|[|]| |[|] ? ? ?], b as [[|]|[|]| |[|] ? ? ?]; simpl in *; try discriminate; split; auto; try tauto; destruct Hx, Hy; discriminate.
Qed.
Lemma sqrt_nonneg_F x : not_nan (PrimFloat.sqrt x) -> PrimFloat.leb 0 (PrimFloat.sqrt x) = true.
Proof.
  unfold not_nan. intro Hn. rewrite leb_equiv. rewrite sqrt_equiv in *. destruct (Bsqrt_correct prec emax Hprec Hmax mode_NE (Prim2B x)) as (C & F & _).
  destruct (Prim2B x) as [[|]|[|]| |[|] m e H]; try reflexivity; try discriminate Hn.
  rewrite Bleb_correct; auto. apply Rle_bool_true. rewrite C, <- rnd_eq. change (B2R (Prim2B 0)) with 0. apply rnd_pos. apply sqrt_pos.
Qed.

(** ** Sizes *)
Lemma eta_pos : 0 < eta. Proof. apply bpow_gt_0. Qed.
Lemma uro_small : 0 < uro <= / 1024.
Proof.
  split; [apply bpow_gt_0|]. unfold uro. replace (/ 1024) with (bpow radix2 (-10)) by (simpl; lra). apply bpow_le. lia.
Qed.
(** The smallest positive double is 2^-1074. *)
Lemma FR_min x : FR x <> 0 -> 2 * eta <= Rabs (FR x).
Proof.
  intro H. unfold FR in *.
  assert (E : 2 * eta = bpow radix2 (-1074)). { unfold eta. change (-1074)%Z with (1 + -1075)%Z. rewrite bpow_plus. reflexivity. }
  rewrite E. apply (abs_B2R_ge_emin prec emax). destruct (Prim2B x); simpl in *; auto; exfalso; apply H; reflexivity.
Qed.
Lemma rnd_ge_mult x : 0 <= x -> (1 - uro) * x - eta <= rnd x.
Proof. intro H. pose proof (rnd_err x) as E. rewrite (Rabs_pos_eq x) in E by auto. apply Rabs_le_inv in E. lra. Qed.
Lemma rnd_le_mult x : 0 <= x -> rnd x <= (1 + uro) * x + eta.
Proof. intro H. pose proof (rnd_err x) as E. rewrite (Rabs_pos_eq x) in E by auto. apply Rabs_le_inv in E. lra. Qed.
Lemma sqrt_eta : 1024 * eta <= R_sqrt.sqrt (2 * eta).
Proof.
  assert (E : 2 * eta = bpow radix2 (-537) * bpow radix2 (-537)). { unfold eta. rewrite <- bpow_plus. change (-537 + -537)%Z with (1 + -1075)%Z. rewrite bpow_plus. reflexivity. }
  rewrite E, sqrt_square by apply bpow_ge_0. replace 1024 with (bpow radix2 10) by reflexivity. unfold eta. rewrite <- bpow_plus. apply bpow_le. lia.
Qed.
(** The rounded square root of a double y >= (1-u) x^2 - eta, y > 0, is at least half of |x|. *)
Lemma root_bound x y : 2 * eta <= y -> (1 - uro) * (x * x) - eta <= y -> Rabs x <= 2 * rnd (R_sqrt.sqrt y).
Proof.
  intros H1 H2. pose proof eta_pos. pose proof uro_small as (Hu & Hu'). assert (Y : 0 <= R_sqrt.sqrt y) by apply sqrt_pos.
  assert (S1 : R_sqrt.sqrt (2 * eta) <= R_sqrt.sqrt y) by (apply sqrt_le_1_alt; auto). pose proof sqrt_eta.
  pose proof (rnd_ge_mult _ Y) as G. assert (G' : 9 / 10 * R_sqrt.sqrt y <= rnd (R_sqrt.sqrt y)) by nra.
  assert (SS : R_sqrt.sqrt y * R_sqrt.sqrt y = y) by (apply sqrt_sqrt; lra).
  assert (X : x * x <= 2 * y) by nra. assert (X2 : Rabs x * Rabs x <= (18 / 10 * R_sqrt.sqrt y) * (18 / 10 * R_sqrt.sqrt y)).
  { rewrite <- Rabs_mult, Rabs_pos_eq by nra. nra. }
  assert (Rabs x <= 18 / 10 * R_sqrt.sqrt y). { apply Rsqr_incr_0; [exact X2|apply Rabs_pos|lra]. }
  lra.
Qed.
