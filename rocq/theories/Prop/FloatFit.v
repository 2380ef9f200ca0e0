(** * Property C100: the starting direction of Cylinder.best_fit in double precision *)
From Coq Require Import String Reals List ZArith Floats Lra Lia Psatz Bool.
From Flocq Require Import Core BinarySingleNaN.
From Flocq Require Import IEEE754.PrimFloat.
From Verif.Model Require Import Outcome Num Instances Numpy BaseArray Vector Points Functions Line Plane Sphere Cylinder.
From Verif.Spec Require Import Geometry Tolerance Floats.
From Verif.Proof Require Import VecAlg Bridge Vectors Floats FloatErr.
From Verif.Prop Require Import Floats Accuracy AnyOrder Decisions Projections.
Import ListNotations.
Local Open Scope R_scope.

(** ** The rounded square root of a rounded square is never smaller than the number *)
Notation fmt := (generic_format radix2 (FLT_exp (-1074) 53)).
Lemma root_of_square (x : R) : fmt x -> bpow radix2 (-500) <= x <= bpow radix2 500 -> x <= rnd (R_sqrt.sqrt (rnd (x * x))).
Proof.
  intros G (L & U). pose proof (bpow_gt_0 radix2 (-500)) as P0. assert (x0 : 0 < x) by lra. destruct (mag radix2 x) as (ex & He0) eqn:Em. assert (He : bpow radix2 (ex - 1) <= x < bpow radix2 ex) by (rewrite <- (Rabs_pos_eq x) by lra; apply He0; lra).
  assert (Ex : (-500 < ex)%Z) by (apply (lt_bpow radix2); lra). assert (Ex' : (ex - 1 <= 500)%Z) by (apply (le_bpow radix2); lra).
  assert (Mx : mag radix2 x = ex :> Z) by (rewrite Em; reflexivity). clear He0 Em.
  set (w := bpow radix2 (ex - 53)). assert (w0 : 0 < w) by apply bpow_gt_0. assert (Fe : FLT_exp (-1074) 53 ex = (ex - 53)%Z) by (unfold FLT_exp; lia).
  destruct (Req_dec x (bpow radix2 (ex - 1))) as [E|NE].
  { rewrite E, <- bpow_plus. assert (Er : rnd (bpow radix2 (ex - 1 + (ex - 1))) = bpow radix2 (ex - 1 + (ex - 1))). { apply round_generic; auto with typeclass_instances. apply generic_format_bpow. unfold FLT_exp. lia. }
    rewrite Er, bpow_plus, sqrt_square by apply bpow_ge_0. apply Req_le. symmetry. apply round_generic; auto with typeclass_instances. apply generic_format_bpow. unfold FLT_exp. lia. }
  assert (X1 : bpow radix2 (ex - 1) + w <= x).
  { assert (Gb : fmt (bpow radix2 (ex - 1))) by (apply generic_format_bpow; unfold FLT_exp; lia). pose proof (succ_le_lt radix2 (FLT_exp (-1074) 53) _ _ Gb G ltac:(lra)) as S. rewrite succ_eq_pos in S by apply bpow_ge_0. rewrite ulp_bpow in S. replace (ex - 1 + 1)%Z with ex in S by ring. rewrite Fe in S. exact S. }
  assert (Pr : pred radix2 (FLT_exp (-1074) 53) x = x - w).
  { rewrite pred_eq_pos by lra. unfold pred_pos. rewrite Mx. rewrite Req_bool_false by exact NE. rewrite ulp_neq_0 by lra. unfold cexp. rewrite Mx, Fe. reflexivity. }
  set (y := R_sqrt.sqrt (rnd (x * x))). apply round_N_ge_midp; [apply FLT_exp_valid; reflexivity|exact G|]. rewrite Pr.
  assert (XX : 0 < x * x) by (apply Rmult_lt_0_compat; lra).
  assert (Ul : ulp radix2 (FLT_exp (-1074) 53) (x * x) <= bpow radix2 (2 * ex - 53)).
  { rewrite ulp_neq_0 by lra. unfold cexp. apply bpow_le. assert (Mq : (mag radix2 (x * x) <= 2 * ex)%Z). { apply mag_le_bpow; [lra|]. rewrite Rabs_pos_eq by lra. replace (2 * ex)%Z with (ex + ex)%Z by ring. rewrite bpow_plus. apply Rmult_le_0_lt_compat; lra. } unfold FLT_exp. lia. }
  pose proof (error_le_half_ulp radix2 (FLT_exp (-1074) 53) (fun n => negb (Z.even n)) (x * x)) as Hu. change (round radix2 (FLT_exp (-1074) 53) (Znearest (fun n => negb (Z.even n))) (x * x)) with (rnd (x * x)) in Hu. apply Rabs_le_inv in Hu.
  assert (Eb : bpow radix2 (2 * ex - 53) = 2 * (bpow radix2 (ex - 1) * w)). { unfold w. rewrite <- bpow_plus. change 2 with (bpow radix2 1). rewrite <- bpow_plus. f_equal. ring. }
  pose proof (bpow_gt_0 radix2 (ex - 1)) as Pe. apply Rsqr_incrst_0; [|lra|apply sqrt_pos]. unfold Rsqr, y. rewrite sqrt_sqrt by (apply rnd_pos; lra).
  assert (Q : (bpow radix2 (ex - 1) + w) * w <= x * w) by (apply Rmult_le_compat_r; lra). assert (WW : 0 < w * w) by (apply Rmult_lt_0_compat; lra).
  replace ((x + (x - w)) / 2 * ((x + (x - w)) / 2)) with (x * x - x * w + w * w / 4) by field. lra.
Qed.
Lemma fmt_abs (c : flt) : fmt (Rabs (FR c)).
Proof. apply generic_format_abs. apply (generic_format_B2R prec emax). Qed.
Lemma root_ge (s c : flt) : finite s -> 0 < FR s -> bpow radix2 (-500) <= Rabs (FR c) <= bpow radix2 500 -> rnd (FR c * FR c) <= FR s -> finite (PrimFloat.sqrt s) /\ Rabs (FR c) <= FR (PrimFloat.sqrt s).
Proof.
  intros Fs Ps B H. destruct (fin_sqrt s Fs (or_introl Ps)) as (F & E). split; [exact F|]. rewrite E. eapply Rle_trans; [apply (root_of_square _ (fmt_abs c) B)|]. apply rnd_le. apply sqrt_le_1_alt. rewrite <- Rabs_mult, Rabs_pos_eq by (apply Rle_0_sqr). exact H.
Qed.
Lemma sq_part (c : flt) : finite c -> Rabs (FR c) <= 2 -> finite (c * c)%float /\ FR (c * c)%float = rnd (FR c * FR c) /\ 0 <= FR (c * c)%float <= 4.
Proof.
  intros F B. assert (Q : Rabs (rnd (FR c * FR c)) <= bpow radix2 2). { apply rnd_bpow_le; [lia|]. rewrite Rabs_mult. change (bpow radix2 2) with (2 * 2). apply Rmult_le_compat; auto; apply Rabs_pos. }
  destruct (fin_mul c c F F) as (F' & E); [eapply Rle_lt_trans; [exact Q|apply bpow_lt; lia]|]. split; [exact F'|]. split; [exact E|]. rewrite E. split; [apply rnd_pos; apply Rle_0_sqr|]. apply Rabs_le_inv in Q. change (bpow radix2 2) with 4 in Q. lra.
Qed.
Lemma sum_part (p q : flt) (k : Z) : (2 <= k <= 10)%Z -> finite p -> finite q -> 0 <= FR p -> 0 <= FR q -> FR p + FR q <= bpow radix2 k -> finite (p + q)%float /\ FR p <= FR (p + q)%float /\ FR q <= FR (p + q)%float /\ FR (p + q)%float <= bpow radix2 k.
Proof.
  intros Hk Fp Fq Pp Pq B. assert (Q : Rabs (rnd (FR p + FR q)) <= bpow radix2 k) by (apply rnd_bpow_le; [lia|]; rewrite Rabs_pos_eq; lra).
  destruct (fin_add p q Fp Fq) as (F & E); [eapply Rle_lt_trans; [exact Q|apply bpow_lt; lia]|]. split; [exact F|]. rewrite E. split; [rewrite <- (rnd_FR p Fp) at 1; apply rnd_le; lra|]. split; [rewrite <- (rnd_FR q Fq) at 1; apply rnd_le; lra|]. apply Rabs_le_inv in Q. lra.
Qed.
Lemma not_iff (b : bool) (P : Prop) : (b = true <-> P) -> ~ P -> b = false.
Proof. intros H N. destruct b; auto. exfalso. apply N, H. reflexivity. Qed.
(** A quotient of absolute value at most one is accepted by np.arccos. *)
Lemma arccos_in (T : Trig FNum) (x s : flt) : finite x -> finite s -> 0 < FR s -> Rabs (FR x) <= FR s -> exists q, (let* q := ndiv (n:=FNum) x s in np_arccos T q) = Ok (tacos T q) /\ q = (x / s)%float /\ finite q /\ Rabs (FR q) <= 1.
Proof.
  intros Fx Fs Ps H. assert (B : Rabs (FR x / FR s) <= bpow radix2 0). { unfold Rdiv. rewrite Rabs_mult, Rabs_inv, (Rabs_pos_eq (FR s)) by lra. change (bpow radix2 0) with 1. apply Rmult_le_reg_r with (FR s); [lra|]. rewrite Rmult_assoc, Rinv_l by lra. lra. }
  pose proof (rnd_bpow_le _ 0 ltac:(lia) B) as Q. destruct (fin_div x s Fx ltac:(lra)) as (F & E); [eapply Rle_lt_trans; [exact Q|apply bpow_lt; lia]|]. rewrite <- E in Q. change (bpow radix2 0) with 1 in Q. exists (x / s)%float. split; [|auto].
  change (ndiv (n:=FNum) x s) with (Ok (x / s)%float). cbn [bind]. unfold np_arccos. change (nltb (n:=FNum)) with PrimFloat.ltb. change (nopp (n:=FNum) n1) with (- (1))%float. change (n1 (n:=FNum)) with 1%float. pose proof one_F as (E1 & F1). apply Rabs_le_inv in Q.
  assert (N1 : PrimFloat.ltb (x / s) (- (1)) = false). { apply (not_iff _ _ (ltb_F _ _ F (proj2 (opp_finite 1%float) F1))). rewrite opp_F, E1. lra. }
  assert (N2 : PrimFloat.ltb 1 (x / s) = false). { apply (not_iff _ _ (ltb_F _ _ F1 F)). rewrite E1. lra. }
  rewrite N1, N2. reflexivity.
Qed.

Definition size_ok (x : flt) : Prop := finite x /\ Rabs (FR x) <= 2.
Theorem C100_spherical : forall (T : Trig FNum) (x y z : flt), size_ok x -> size_ok y -> size_ok z -> / 4 <= FR x * FR x + FR y * FR y + FR z * FR z ->
  exists theta phi q, cartesian_to_spherical T x y z = Ok (theta, phi) /\ theta = tacos T q /\ finite q /\ Rabs (FR q) <= 1 /\
    (Rabs (FR x) <= rel_default /\ Rabs (FR y) <= rel_default -> phi = 0%float) /\
    (~ (Rabs (FR x) <= rel_default /\ Rabs (FR y) <= rel_default) -> exists p, finite p /\ Rabs (FR p) <= 1 /\ phi = (f_ofZ (nsign (N:=FNum) y) * tacos T p)%float).
Proof.
  intros T x y z (Fx & Bx) (Fy & By) (Fz & Bz) H. destruct (sq_part x Fx Bx) as (Px & Ex & Qx). destruct (sq_part y Fy By) as (Py & Ey & Qy). destruct (sq_part z Fz Bz) as (Pz & Ez & Qz).
  destruct (sum_part _ _ 3 ltac:(lia) Px Py (proj1 Qx) (proj1 Qy) ltac:(simpl; lra)) as (F1 & A1 & A2 & U1). destruct (sum_part _ _ 4 ltac:(lia) F1 Pz ltac:(lra) (proj1 Qz) ltac:(simpl in *; lra)) as (F2 & A3 & A4 & _). set (s1 := (x * x + y * y)%float) in *. set (s := (s1 + z * z)%float) in *.
  assert (B500 : bpow radix2 1 <= bpow radix2 500) by (apply bpow_le; lia). change (bpow radix2 1) with 2 in B500. assert (Bm : bpow radix2 (-500) <= bpow radix2 (-60)) by (apply bpow_le; lia). assert (B60 : bpow radix2 (-60) <= / 1000000000000) by (simpl; lra).
  assert (Pos : forall (c t : flt), finite c -> Rabs (FR c) <= 2 -> bpow radix2 (-60) <= Rabs (FR c) -> finite t -> rnd (FR c * FR c) <= FR t -> finite (PrimFloat.sqrt t) /\ Rabs (FR c) <= FR (PrimFloat.sqrt t)).
  { intros c t Fc Bc Lc Ft Ht. apply root_ge; [exact Ft| |lra|exact Ht]. eapply Rlt_le_trans; [|exact Ht]. apply Rlt_le_trans with (bpow radix2 (-120)); [apply bpow_gt_0|]. rewrite <- (round_generic radix2 (FLT_exp (-1074) 53) ZnearestE (bpow radix2 (-120))) by (apply generic_format_bpow; unfold FLT_exp; lia). apply rnd_le. change (-120)%Z with (-60 + -60)%Z. rewrite bpow_plus. replace (FR c * FR c) with (Rabs (FR c) * Rabs (FR c)) by (rewrite <- Rabs_mult; apply Rabs_pos_eq; apply Rle_0_sqr). pose proof (bpow_ge_0 radix2 (-60)). apply Rmult_le_compat; lra. }
  assert (Le : forall (c b t : flt), finite c -> Rabs (FR c) <= 2 -> rnd (FR c * FR c) <= FR t -> finite t -> bpow radix2 (-60) <= Rabs (FR b) -> Rabs (FR b) <= FR (PrimFloat.sqrt t) -> Rabs (FR c) <= FR (PrimFloat.sqrt t)).
  { intros c b t Fc Bc Ht Ft Lb Hb. destruct (Rle_lt_dec (bpow radix2 (-60)) (Rabs (FR c))) as [L|L]; [apply (Pos c t); auto|lra]. }
  assert (Hs : exists b, bpow radix2 (-60) <= Rabs (FR b) /\ finite (PrimFloat.sqrt s) /\ Rabs (FR b) <= FR (PrimFloat.sqrt s)).
  { assert (Big : / 4 <= Rabs (FR x) \/ / 4 <= Rabs (FR y) \/ / 4 <= Rabs (FR z)). { destruct (Rle_lt_dec (/ 4) (Rabs (FR x))) as [|K1]; auto. destruct (Rle_lt_dec (/ 4) (Rabs (FR y))) as [|K2]; auto. destruct (Rle_lt_dec (/ 4) (Rabs (FR z))) as [|K3]; auto. exfalso.
      assert (Sm : forall r, Rabs r < / 4 -> r * r <= / 16). { intros r Hr. replace (r * r) with (Rabs r * Rabs r) by (rewrite <- Rabs_mult; apply Rabs_pos_eq; apply Rle_0_sqr). replace (/ 16) with (/ 4 * / 4) by field. pose proof (Rabs_pos r). apply Rmult_le_compat; lra. } pose proof (Sm _ K1). pose proof (Sm _ K2). pose proof (Sm _ K3). lra. }
    destruct Big as [K|[K|K]]; [exists x|exists y|exists z]; (split; [lra|]); apply Pos; auto; lra. }
  destruct Hs as (b & Lb & Fs & Hb). assert (Sz : Rabs (FR z) <= FR (PrimFloat.sqrt s)) by (apply (Le z b s); auto; lra). assert (Ps : 0 < FR (PrimFloat.sqrt s)) by (pose proof (bpow_gt_0 radix2 (-60)); lra).
  destruct (arccos_in T z _ Fz Fs Ps Sz) as (q & Eq & Dq & Fq & Bq). destruct relF_val as (Fr & Er). pose proof rel_default_small as RS. pose proof (bpow_gt_0 radix2 (-30)) as P30.
  destruct (isclose_abs_F relF x Fr ltac:(rewrite Er; lra) Fx) as (r1 & E1 & K1). destruct (isclose_abs_F relF y Fr ltac:(rewrite Er; lra) Fy) as (r2 & E2 & K2). rewrite Er in K1, K2.
  change (ndiv (n:=FNum) z (PrimFloat.sqrt s)) with (Ok (z / PrimFloat.sqrt s)%float) in Eq. cbn [bind] in Eq. rewrite <- Dq in Eq.
  assert (EqC : cartesian_to_spherical T x y z = let* cy := (if r1 then Ok r2 else Ok false) in if cy : bool then Ok (tacos T q, 0%float) else let* qx := ndiv (n:=FNum) x (PrimFloat.sqrt s1) in let* ac := np_arccos T qx in Ok (tacos T q, (f_ofZ (nsign (N:=FNum) y) * ac)%float)).
  { unfold cartesian_to_spherical. cbv zeta. change (ndiv (n:=FNum) z _) with (Ok (z / PrimFloat.sqrt s)%float). cbn [bind]. rewrite <- Dq, Eq. cbn [bind]. change (rel_tol tol_default) with relF. change (ndyad (n:=FNum) 4835703278458517 82) with relF. change (n0 (n:=FNum)) with 0%float. rewrite E1. cbn [bind]. destruct r1; [rewrite E2|]; reflexivity. }
  assert (Two : forall c, finite c -> Rabs (FR c) <= 2 -> (c = x \/ c = y) -> ~ Rabs (FR c) <= rel_default -> bpow radix2 (-60) <= Rabs (FR c) /\ finite (PrimFloat.sqrt s1) /\ Rabs (FR c) <= FR (PrimFloat.sqrt s1)).
  { intros c Fc Bc D N. assert (L : bpow radix2 (-60) <= Rabs (FR c)). { assert (bpow radix2 (-60) <= bpow radix2 (-30)) by (apply bpow_le; lia). lra. } split; [exact L|]. apply Pos; auto. destruct D as [->| ->]; lra. }
  destruct (Bool.bool_dec r1 true) as [Y1|N1]; [destruct (Bool.bool_dec r2 true) as [Y2|N2]|].
  - exists (tacos T q), 0%float, q. rewrite EqC, Y1, Y2. split; [reflexivity|]. split; [reflexivity|]. split; [exact Fq|]. split; [exact Bq|]. split; [auto|]. intro N. exfalso. apply N. split; [apply K1|apply K2]; assumption.
  - assert (Ny : ~ Rabs (FR y) <= rel_default) by (intro Q; apply N2; apply K2; exact Q). destruct (Two y Fy By (or_intror eq_refl) Ny) as (Ly & Fs1 & Hy). assert (Hx : Rabs (FR x) <= FR (PrimFloat.sqrt s1)) by (apply (Le x y s1); auto; lra).
    destruct (arccos_in T x _ Fx Fs1 ltac:(pose proof (bpow_gt_0 radix2 (-60)); lra) Hx) as (p & Ep & Dp & Fp & Bp). change (ndiv (n:=FNum) x (PrimFloat.sqrt s1)) with (Ok (x / PrimFloat.sqrt s1)%float) in Ep, EqC. cbn [bind] in Ep, EqC. rewrite <- Dp in Ep, EqC. rewrite Ep in EqC. cbn [bind] in EqC.
    apply not_true_is_false in N2. rewrite Y1, N2 in EqC. cbn [bind] in EqC. exists (tacos T q), (f_ofZ (nsign (N:=FNum) y) * tacos T p)%float, q. split; [exact EqC|]. split; [reflexivity|]. split; [exact Fq|]. split; [exact Bq|]. split; [intros (_ & Q); contradiction|]. intros _. exists p. auto.
  - assert (Nx : ~ Rabs (FR x) <= rel_default) by (intro Q; apply N1; apply K1; exact Q). destruct (Two x Fx Bx (or_introl eq_refl) Nx) as (Lx & Fs1 & Hx).
    destruct (arccos_in T x _ Fx Fs1 ltac:(pose proof (bpow_gt_0 radix2 (-60)); lra) Hx) as (p & Ep & Dp & Fp & Bp). change (ndiv (n:=FNum) x (PrimFloat.sqrt s1)) with (Ok (x / PrimFloat.sqrt s1)%float) in Ep, EqC. cbn [bind] in Ep, EqC. rewrite <- Dp in Ep, EqC. rewrite Ep in EqC. cbn [bind] in EqC.
    apply not_true_is_false in N1. rewrite N1 in EqC. cbn [bind] in EqC. exists (tacos T q), (f_ofZ (nsign (N:=FNum) y) * tacos T p)%float, q. split; [exact EqC|]. split; [reflexivity|]. split; [exact Fq|]. split; [exact Bq|]. split; [intros (Q & _); contradiction|]. intros _. exists p. auto.
Qed.
Print Assumptions C100_spherical.

(** ** The starting direction *)
Lemma sq_low u a : Rabs (u - a) <= / 1000 * Rabs a + / 1000 -> Rabs a <= 1 -> a * a - / 100 <= u * u.
Proof.
  intros H A. pose proof (Rabs_pos a) as P. assert (L : Rabs a - / 500 <= Rabs u). { pose proof (Rabs_triang (a - u) u) as T. replace (a - u + u) with a in T by ring. rewrite Rabs_minus_sym in T. lra. }
  replace (a * a) with (Rabs a * Rabs a) by (rewrite <- Rabs_mult; apply Rabs_pos_eq; apply Rle_0_sqr). replace (u * u) with (Rabs u * Rabs u) by (rewrite <- Rabs_mult; apply Rabs_pos_eq; apply Rle_0_sqr). set (p := Rabs a) in *. set (q := Rabs u) in *. assert (q0 : 0 <= q) by apply Rabs_pos.
  destruct (Rle_lt_dec p q) as [Q|Q]. { assert (p * p <= q * q) by (apply Rmult_le_compat; lra). lra. }
  assert (E : p * p - q * q = (p - q) * (p + q)) by ring. assert ((p - q) * (p + q) <= / 500 * 2) by (apply Rmult_le_compat; lra). lra.
Qed.
Theorem C100_initial_direction : forall LA (T : Trig FNum) (points : list (list flt)) (l : line FNum), line_best_fit (N:=FNum) LA None points = Ok l -> length (l_dir l) = 3%nat ->
  Forall moderate (l_dir l) -> bpow radix2 (-400) <= len (map FR (l_dir l)) ->
  exists (x y z theta phi q : flt), unit_vec (N:=FNum) (l_dir l) = Ok [x; y; z] /\ initial_direction LA T points = Ok (theta, phi) /\ theta = tacos T q /\ finite q /\ Rabs (FR q) <= 1 /\
    (phi = 0%float \/ exists p, finite p /\ Rabs (FR p) <= 1 /\ phi = (f_ofZ (nsign (N:=FNum) y) * tacos T p)%float).
Proof.
  intros LA T points l Hl L3 Hv Kl. assert (L3' : @length flt (l_dir l) = 3%nat) by exact L3. destruct (C73_unit_accurate (l_dir l) ltac:(rewrite L3'; vm_compute; discriminate) Hv Kl) as (w & Ew & Hw).
  rewrite L3' in Hw. pose proof (bpow_gt_0 radix2 (-400)) as P0. set (K := len (map FR (l_dir l))) in *. assert (Kp : 0 < K) by lra. assert (KK : K * K = dot (map FR (l_dir l)) (map FR (l_dir l))) by apply len_sq.
  destruct (l_dir l) as [|v1 [|v2 [|v3 [|]]]] eqn:Ed; try discriminate L3'. inversion Hw as [|x ? w1 ? (Fx & Bx) Hw1]; subst. inversion Hw1 as [|y ? w2 ? (Fy & By) Hw2]; subst. inversion Hw2 as [|z ? w3 ? (Fz & Bz) Hw3]; subst. inversion Hw3; subst. clear Hw Hw1 Hw2 Hw3.
  cbn [map dot] in KK. set (a := FR v1 / K) in *. set (b := FR v2 / K) in *. set (c := FR v3 / K) in *. assert (U : a * a + b * b + c * c = 1). { unfold a, b, c. replace (FR v1 / K * (FR v1 / K) + FR v2 / K * (FR v2 / K) + FR v3 / K * (FR v3 / K)) with ((FR v1 * FR v1 + (FR v2 * FR v2 + (FR v3 * FR v3 + 0))) / (K * K)) by (field; lra). rewrite <- KK. field. lra. }
  assert (Q : forall v, Rabs (FR v) / K = Rabs (FR v / K)) by (intro v; unfold Rdiv; rewrite Rabs_mult, Rabs_inv, (Rabs_pos_eq K) by lra; reflexivity). rewrite Q in Bx, By, Bz. fold a in Bx. fold b in By. fold c in Bz. clear Q.
  assert (One : forall r, r * r <= 1 -> Rabs r <= 1). { intros r Hr. apply Rsqr_incr_0_var; [|lra]. unfold Rsqr. rewrite <- Rabs_mult, (Rabs_pos_eq (r * r)) by apply Rle_0_sqr. lra. }
  pose proof (Rle_0_sqr a) as a0. pose proof (Rle_0_sqr b) as b0. pose proof (Rle_0_sqr c) as c0. unfold Rsqr in a0, b0, c0. assert (a1 : Rabs a <= 1) by (apply One; lra). assert (b1 : Rabs b <= 1) by (apply One; lra). assert (c1 : Rabs c <= 1) by (apply One; lra).
  assert (Te : bpow radix2 (-1075) <= / 1000) by (apply Rle_trans with (bpow radix2 (-10)); [apply bpow_le; lia|simpl; lra]). assert (Re : (INR 3 + 6) * bpow radix2 (-53) <= / 1000) by (simpl; lra).
  assert (G : forall (u : flt) d, Rabs d <= 1 -> Rabs (FR u - d) <= (INR 3 + 6) * bpow radix2 (-53) * Rabs d + bpow radix2 (-1075) -> Rabs (FR u - d) <= / 1000 * Rabs d + / 1000).
  { intros u d Hd Hu. assert ((INR 3 + 6) * bpow radix2 (-53) * Rabs d <= / 1000 * Rabs d) by (apply Rmult_le_compat_r; [apply Rabs_pos|exact Re]). lra. }
  apply (G _ _ a1) in Bx. apply (G _ _ b1) in By. apply (G _ _ c1) in Bz. clear G.
  assert (S : forall (u : flt) d, finite u -> Rabs d <= 1 -> Rabs (FR u - d) <= / 1000 * Rabs d + / 1000 -> size_ok u). { intros u d Fu Hd Hu. split; [exact Fu|]. pose proof (Rabs_triang (FR u - d) d) as T1. replace (FR u - d + d) with (FR u) in T1 by ring. lra. }
  pose proof (sq_low _ _ Bx a1) as Sx. pose proof (sq_low _ _ By b1) as Sy. pose proof (sq_low _ _ Bz c1) as Sz.
  destruct (C100_spherical T x y z (S _ _ Fx a1 Bx) (S _ _ Fy b1 By) (S _ _ Fz c1 Bz) ltac:(lra)) as (theta & phi & q & E & Et & Fq & Bq & H1 & H2). exists x, y, z, theta, phi, q. split; [exact Ew|]. split.
  { unfold initial_direction. rewrite Hl. cbn [bind]. rewrite Ed. rewrite Ew. cbn [bind]. exact E. }
  split; [exact Et|]. split; [exact Fq|]. split; [exact Bq|].
  destruct (Rle_lt_dec (Rabs (FR x)) rel_default) as [X|X]; [destruct (Rle_lt_dec (Rabs (FR y)) rel_default) as [Y|Y]; [left; apply H1; auto|right; apply H2; lra]|right; apply H2; lra].
Qed.
Print Assumptions C100_initial_direction.

(** Outside the stated range the quotient can exceed one: 1e-160 is larger than the rounded root of its rounded square. *)
Theorem C100_tiny_refuted : forall T : Trig FNum, cartesian_to_spherical T 0%float 0%float 1e-160%float = NonFinite /\ PrimFloat.ltb 1 (1e-160 / PrimFloat.sqrt (1e-160 * 1e-160)) = true.
Proof. intro T. split; reflexivity. Qed.
Print Assumptions C100_tiny_refuted.
(** The unit vector of (1, 2, 2) and the axis (0, 0, 1). *)
Example C100_nonvacuous : forall T : Trig FNum,
  cartesian_to_spherical T 0%float 0%float 1%float = Ok (tacos T 1%float, 0%float) /\ cartesian_to_spherical T 0%float (-1)%float 0%float = Ok (tacos T 0%float, (-1 * tacos T 0)%float) /\
  size_ok 0%float /\ size_ok 1%float /\ size_ok (-1)%float /\ / 4 <= FR 0%float * FR 0%float + FR 0%float * FR 0%float + FR 1%float * FR 1%float /\
  exists LA l, line_best_fit (N:=FNum) LA None [[0; 0; 0]; [1; 2; 2]]%float = Ok l /\ l_dir l = [1; 2; 2]%float /\ Forall moderate (l_dir l) /\ bpow radix2 (-400) <= len (map FR (l_dir l)).
Proof.
  intro T. split; [reflexivity|]. split; [reflexivity|]. assert (E0 : FR 0%float = 0) by apply zero_F. assert (E1 : FR 1%float = 1) by apply one_F. assert (Em : FR (-1)%float = -1) by (erewrite FR_val by (vm_compute; reflexivity); simpl; unfold F2R; simpl; lra). assert (E2 : FR 2%float = 2) by (erewrite FR_val by (vm_compute; reflexivity); simpl; unfold F2R; simpl; lra).
  split; [split; [reflexivity|rewrite E0, Rabs_pos_eq; lra]|]. split; [split; [reflexivity|rewrite E1, Rabs_pos_eq; lra]|]. split; [split; [reflexivity|rewrite Em, Rabs_left; lra]|]. split; [rewrite E0, E1; lra|].
  exists (MkLinalg (N:=FNum) (fun _ => Ok ([[1; 2; 2]; [0; 0; 1]; [1; 0; 0]]%float, [1.5; 0; 0]%float, [[1; 2; 2]; [0; 0; 1]; [1; 0; 0]]%float)) (fun _ _ => NonFinite) (fun _ _ => NonFinite)).
  exists (MkLine (N:=FNum) [0.5; 1; 1]%float [1; 2; 2]%float). split; [reflexivity|]. split; [reflexivity|]. change (l_dir (MkLine (N:=FNum) [0.5; 1; 1]%float [1; 2; 2]%float)) with ([1; 2; 2]%float : list flt).
  assert (M : forall z, finite z -> Rabs (FR z) <= 2 -> moderate z) by (intros z F A; split; [exact F|]; eapply Rle_trans; [exact A|apply Rle_trans with (bpow radix2 1); [simpl; lra|apply bpow_le; lia]]).
  split; [apply Forall_cons; [apply M; [reflexivity|rewrite E1, Rabs_pos_eq; lra]|apply Forall_cons; [apply M; [reflexivity|rewrite E2, Rabs_pos_eq; lra]|apply Forall_cons; [apply M; [reflexivity|rewrite E2, Rabs_pos_eq; lra]|constructor]]]|].
  cbn [map]. rewrite E1, E2. apply Rle_trans with 1; [change 1 with (bpow radix2 0); apply bpow_le; lia|]. rewrite <- sqrt_1. unfold len. apply sqrt_le_1_alt. cbn [dot]. rewrite sqrt_1. lra.
Qed.
Print Assumptions C100_nonvacuous.
