(** * Property C76: Vector.norm with the keyword ord *)
From Coq Require Import String Reals List ZArith Lra Lia Psatz Bool Permutation.
From Verif.Model Require Import Outcome Num Instances Numpy BaseArray Vector Norms.
From Verif.Spec Require Import Geometry Norms.
From Verif.Proof Require Import VecAlg Bridge Arrays Vectors Points.
Import ListNotations.
Local Open Scope R_scope.

(** ** Powers *)
Lemma apw_0 p : abs_pow 0 p = 0. Proof. unfold abs_pow. destruct (Req_EM_T 0 0); lra. Qed.
Lemma apw_nz x p : x <> 0 -> abs_pow x p = Rpower (Rabs x) p. Proof. intro. unfold abs_pow. destruct (Req_EM_T x 0); [contradiction|reflexivity]. Qed.
Lemma apw_pos x p : x <> 0 -> 0 < abs_pow x p. Proof. intro. rewrite apw_nz by auto. apply exp_pos. Qed.
Lemma apw_nonneg x p : 0 <= abs_pow x p. Proof. destruct (Req_EM_T x 0) as [->|N]; [rewrite apw_0; lra|]. apply Rlt_le, apw_pos; auto. Qed.
Lemma apw_zero x p : abs_pow x p = 0 -> x = 0. Proof. intro E. destruct (Req_EM_T x 0) as [|N]; auto. pose proof (apw_pos x p N). lra. Qed.
Lemma abs_nz x : x <> 0 -> 0 < Rabs x. Proof. apply Rabs_pos_lt. Qed.
Lemma apw_abs x p : abs_pow (Rabs x) p = abs_pow x p.
Proof. destruct (Req_EM_T x 0) as [->|N]; [rewrite Rabs_R0; reflexivity|]. pose proof (abs_nz x N). rewrite !apw_nz by (auto; lra). rewrite Rabs_Rabsolu. reflexivity. Qed.
Lemma apw_mult x y p : abs_pow (x * y) p = abs_pow x p * abs_pow y p.
Proof.
  destruct (Req_EM_T x 0) as [->|Nx]; [rewrite Rmult_0_l, apw_0; ring|]. destruct (Req_EM_T y 0) as [->|Ny]; [rewrite Rmult_0_r, apw_0; ring|].
  rewrite !apw_nz by (auto; apply Rmult_integral_contrapositive; auto). rewrite Rabs_mult. symmetry. apply Rpower_mult_distr; apply abs_nz; auto.
Qed.
Lemma apw_pw x p q : abs_pow (abs_pow x p) q = abs_pow x (p * q).
Proof.
  destruct (Req_EM_T x 0) as [->|N]; [rewrite !apw_0; reflexivity|]. pose proof (apw_pos x p N) as P. rewrite (apw_nz (abs_pow x p)) by lra. rewrite Rabs_right by lra. rewrite !apw_nz by auto. apply Rpower_mult.
Qed.
Lemma apw_1 x : abs_pow x 1 = Rabs x.
Proof. destruct (Req_EM_T x 0) as [->|N]; [rewrite apw_0, Rabs_R0; reflexivity|]. rewrite apw_nz by auto. apply Rpower_1, abs_nz; auto. Qed.
Lemma apw_2 x : abs_pow x 2 = x * x.
Proof.
  destruct (Req_EM_T x 0) as [->|N]; [rewrite apw_0; ring|]. rewrite apw_nz by auto. replace 2 with (1 + 1) by ring. rewrite Rpower_plus, Rpower_1 by (apply abs_nz; auto).
  rewrite <- Rabs_mult. apply Rabs_right. apply Rle_ge, Rle_0_sqr.
Qed.
Lemma apw_one p : abs_pow 1 p = 1.
Proof. rewrite apw_nz by lra. rewrite Rabs_R1. unfold Rpower. rewrite ln_1, Rmult_0_r. apply exp_0. Qed.
Lemma apw_lt x y p : 0 < p -> 0 <= x < y -> abs_pow x p < abs_pow y p.
Proof.
  intros P (X & Y). destruct (Req_EM_T x 0) as [->|N]; [rewrite apw_0; apply apw_pos; lra|]. rewrite !apw_nz by lra. rewrite !Rabs_right by lra. unfold Rpower. apply exp_increasing. apply Rmult_lt_compat_l; auto. apply ln_increasing; lra.
Qed.
Lemma apw_le x y p : 0 < p -> 0 <= x <= y -> abs_pow x p <= abs_pow y p.
Proof. intros P (X & [Y| ->]); [|lra]. apply Rlt_le, apw_lt; auto. Qed.
Lemma apw_le_inv x y p : 0 < p -> 0 <= x -> 0 <= y -> abs_pow x p <= abs_pow y p -> x <= y.
Proof. intros P X Y E. destruct (Rle_dec x y) as [|N]; auto. pose proof (apw_lt y x p P ltac:(lra)). lra. Qed.
Lemma apw_inj x y p : 0 < p -> 0 <= x -> 0 <= y -> abs_pow x p = abs_pow y p -> x = y.
Proof. intros P X Y E. apply Rle_antisym; apply (apw_le_inv _ _ p); auto; lra. Qed.
Lemma apw_expt x p q : 0 < p <= q -> 0 <= x <= 1 -> abs_pow x q <= abs_pow x p.
Proof.
  intros (P & Q) (X & X1). destruct (Req_EM_T x 0) as [->|N]; [rewrite !apw_0; lra|]. rewrite !apw_nz by auto. rewrite Rabs_right by lra. unfold Rpower.
  assert (L : ln x <= 0) by (destruct X1 as [X1| ->]; [apply Rlt_le; rewrite <- ln_1; apply ln_increasing; lra|rewrite ln_1; lra]).
  assert (q * ln x <= p * ln x) by nra. destruct H as [H| ->]; [apply Rlt_le, exp_increasing; auto|lra].
Qed.
Lemma Rpw_apw x p : 0 <= x -> p <> 0 -> Rpw x p = abs_pow x p.
Proof. intros X P. unfold Rpw, abs_pow. destruct (Req_EM_T x 0); [destruct (Req_EM_T p 0); [contradiction|reflexivity]|]. rewrite Rabs_right by lra. reflexivity. Qed.

(** ** Convexity *)
Lemma ln_ge x : 0 < x -> 1 - / x <= ln x.
Proof.
  intro P. assert (Q : 0 < / x) by (apply Rinv_0_lt_compat; auto). assert (L : ln (/ x) <= / x - 1).
  { replace (/ x - 1) with (ln (exp (/ x - 1))) by apply ln_exp. pose proof (exp_ineq1_le (/ x - 1)) as E. destruct E as [E|E]; [apply Rlt_le, ln_increasing; lra|]. replace (1 + (/ x - 1)) with (/ x) in E by ring. rewrite <- E. lra. }
  rewrite ln_Rinv in L by auto. lra.
Qed.
Lemma bernoulli t p : 0 < t -> 1 <= p -> 1 + p * (t - 1) <= Rpower t p.
Proof.
  intros Pt Pp. replace p with ((p - 1) + 1) at 2 by ring. rewrite Rpower_plus, Rpower_1 by auto.
  assert (E : 1 + (p - 1) * (1 - / t) <= Rpower t (p - 1)).
  { unfold Rpower. eapply Rle_trans; [|apply exp_ineq1_le]. pose proof (ln_ge t Pt). nra. }
  apply Rmult_le_compat_r with (r := t) in E; [|lra]. eapply Rle_trans; [|exact E]. apply Req_le. field. lra.
Qed.
Lemma tangent w z p : 0 <= w -> 0 < z -> 1 <= p -> abs_pow z p + p * abs_pow z p / z * (w - z) <= abs_pow w p.
Proof.
  intros W Z P. pose proof (apw_pos z p ltac:(lra)) as Pz. destruct W as [W|<-].
  - pose proof (bernoulli (w / z) p ltac:(apply Rdiv_lt_0_compat; auto) P) as B. assert (E : abs_pow w p = abs_pow z p * Rpower (w / z) p).
    { replace w with (z * (w / z)) at 1 by (field; lra). rewrite apw_mult. f_equal. assert (0 < w / z) by (apply Rdiv_lt_0_compat; auto). rewrite apw_nz by lra. rewrite Rabs_right by lra. reflexivity. }
    rewrite E. apply Rmult_le_compat_l with (r := abs_pow z p) in B; [|lra]. eapply Rle_trans; [|exact B]. apply Req_le. field. lra.
  - rewrite apw_0. replace (abs_pow z p + p * abs_pow z p / z * (0 - z)) with ((1 - p) * abs_pow z p) by (field; lra). nra.
Qed.
Lemma apw_convex l X Y p : 0 <= l <= 1 -> 1 <= p -> abs_pow (l * X + (1 - l) * Y) p <= l * abs_pow X p + (1 - l) * abs_pow Y p.
Proof.
  intros (L0 & L1) P. pose proof (apw_nonneg X p). pose proof (apw_nonneg Y p). rewrite <- (apw_abs (_ + _)). set (z := Rabs (l * X + (1 - l) * Y)).
  destruct (Req_EM_T z 0) as [E|E]; [rewrite E, apw_0; nra|]. assert (Pz : 0 < z) by (pose proof (Rabs_pos (l * X + (1 - l) * Y)); unfold z in *; lra).
  pose proof (tangent (Rabs X) z p (Rabs_pos X) Pz P) as TX. pose proof (tangent (Rabs Y) z p (Rabs_pos Y) Pz P) as TY. rewrite apw_abs in TX, TY.
  assert (Tri : z <= l * Rabs X + (1 - l) * Rabs Y).
  { unfold z. eapply Rle_trans; [apply Rabs_triang|]. rewrite !Rabs_mult, (Rabs_right l), (Rabs_right (1 - l)) by lra. lra. }
  set (k := p * abs_pow z p / z) in *. assert (Pk : 0 <= k) by (unfold k; apply Rlt_le, Rdiv_lt_0_compat; auto; apply Rmult_lt_0_compat; [lra|apply apw_pos; lra]).
  apply Rmult_le_compat_l with (r := l) in TX; auto. apply Rmult_le_compat_l with (r := 1 - l) in TY; [|lra]. assert (0 <= k * (l * Rabs X + (1 - l) * Rabs Y - z)) by (apply Rmult_le_pos; lra). nra.
Qed.

(** ** The p-norm *)
Lemma psum_nonneg p v : 0 <= Rsum (map (fun x => abs_pow x p) v).
Proof. apply Rsum_nonneg. intros y Hy. apply in_map_iff in Hy as (x & <- & _). apply apw_nonneg. Qed.
Lemma pnorm_val p v : 0 < p -> is_pnorm p v (abs_pow (Rsum (map (fun x => abs_pow x p) v)) (/ p)).
Proof.
  intro P. split; [apply apw_nonneg|]. rewrite apw_pw, Rinv_l by lra. rewrite apw_1. apply Rabs_right, Rle_ge, psum_nonneg.
Qed.
Lemma pnorm_unique p v a b : 0 < p -> is_pnorm p v a -> is_pnorm p v b -> a = b.
Proof. intros P (A & Ea) (B & Eb). apply (apw_inj a b p); auto. congruence. Qed.
Lemma pnorm_zero p v r : 0 < p -> is_pnorm p v r -> (r = 0 <-> is_zero_vec v).
Proof.
  intros P (R0 & E). split.
  - intros ->. rewrite apw_0 in E. unfold is_zero_vec. apply nth_ext with (d := 0) (d' := 0); [rewrite length_origin; auto|]. intros i Hi. unfold origin. rewrite nth_repeat.
    apply (apw_zero _ p). apply (Rsum_zero (map (fun x => abs_pow x p) v)); auto. { intros y Hy. apply in_map_iff in Hy as (x & <- & _). apply apw_nonneg. }
    apply in_map_iff. exists (nth i v 0). split; auto. apply nth_In; auto.
  - intro Z. apply (apw_zero r p). rewrite E. rewrite (Rsum_map_ext _ (fun _ => 0)); [rewrite Rsum_map_const; ring|]. intros x Hx. rewrite Z in Hx. apply repeat_spec in Hx. subst. apply apw_0.
Qed.
Lemma pnorm_scale p v r k : 0 < p -> is_pnorm p v r -> is_pnorm p (scale k v) (Rabs k * r).
Proof.
  intros P (R0 & E). split; [apply Rmult_le_pos; auto; apply Rabs_pos|]. rewrite apw_mult, apw_abs, E. unfold scale. rewrite map_map. rewrite (Rsum_map_ext (fun x => abs_pow (k * x) p) (fun x => abs_pow k p * abs_pow x p)).
  - rewrite Rsum_map_scale. reflexivity.
  - intros; apply apw_mult.
Qed.
Lemma psum_add_le p a b u v : 0 < a -> 0 < b -> 1 <= p -> length u = length v ->
  Rsum (map (fun x => abs_pow x p) (add u v)) <= abs_pow (a + b) p * (a / (a + b) * (Rsum (map (fun x => abs_pow x p) u) / abs_pow a p) + b / (a + b) * (Rsum (map (fun x => abs_pow x p) v) / abs_pow b p)).
Proof.
  intros A B P. revert v. induction u as [|x u IH]; intros [|y v] L; try discriminate L; cbn [add map Rsum fold_right].
  - pose proof (apw_nonneg (a + b) p). pose proof (apw_pos a p ltac:(lra)). pose proof (apw_pos b p ltac:(lra)). unfold Rdiv. rewrite !Rmult_0_l, !Rmult_0_r. lra.
  - injection L as L. specialize (IH v L). pose proof (apw_pos a p ltac:(lra)) as Pa. pose proof (apw_pos b p ltac:(lra)) as Pb. pose proof (apw_pos (a + b) p ltac:(lra)) as Pab.
    assert (C : abs_pow (x + y) p <= abs_pow (a + b) p * (a / (a + b) * (abs_pow x p / abs_pow a p) + b / (a + b) * (abs_pow y p / abs_pow b p))).
    { assert (Hl : 0 <= a / (a + b) <= 1). { split; [apply Rlt_le, Rdiv_lt_0_compat; lra|]. apply Rmult_le_reg_r with (a + b); [lra|]. unfold Rdiv. rewrite Rmult_assoc, Rinv_l by lra. lra. }
      pose proof (apw_convex (a / (a + b)) (x / a) (y / b) p Hl P) as Cv. replace (1 - a / (a + b)) with (b / (a + b)) in Cv by (field; lra).
      replace (a / (a + b) * (x / a) + b / (a + b) * (y / b)) with ((x + y) / (a + b)) in Cv by (field; lra).
      assert (D : forall z k, 0 < k -> abs_pow (z / k) p = abs_pow z p / abs_pow k p).
      { intros z k K. pose proof (apw_pos k p ltac:(lra)) as Pk. replace (abs_pow z p) with (abs_pow (z / k * k) p) by (f_equal; field; lra). rewrite apw_mult. field. lra. }
      rewrite !D in Cv by lra. apply Rmult_le_compat_l with (r := abs_pow (a + b) p) in Cv; [|lra]. eapply Rle_trans; [|exact Cv]. apply Req_le. field. lra. }
    unfold Rsum in IH |- *. eapply Rle_trans; [apply Rplus_le_compat; [exact C|exact IH]|]. unfold map2 in *. apply Req_le.
    generalize (fold_right Rplus 0 (map (fun x0 : R => abs_pow x0 p) u)) (fold_right Rplus 0 (map (fun x0 : R => abs_pow x0 p) v)). intros s1 s2. field. lra.
Qed.
Lemma minkowski p u v a b c : 1 <= p -> length u = length v -> is_pnorm p u a -> is_pnorm p v b -> is_pnorm p (add u v) c -> c <= a + b.
Proof.
  intros P L A B C. pose proof A as (A0 & Ea). pose proof B as (B0 & Eb). pose proof C as (C0 & Ec). assert (P0 : 0 < p) by lra.
  destruct A0 as [A0|<-].
  2:{ assert (Z : is_zero_vec u) by (apply (pnorm_zero p u 0); auto). rewrite Z, L in C. rewrite add_comm, add_origin_r in C by reflexivity. rewrite (pnorm_unique p v c b); auto; lra. }
  destruct B0 as [B0|<-].
  2:{ assert (Z : is_zero_vec v) by (apply (pnorm_zero p v 0); auto). rewrite Z, <- L in C. rewrite add_origin_r in C by reflexivity. rewrite (pnorm_unique p u c a); auto; lra. }
  apply (apw_le_inv c (a + b) p); auto; try lra. rewrite Ec. eapply Rle_trans; [apply (psum_add_le p a b u v); auto|]. rewrite <- Ea, <- Eb.
  pose proof (apw_pos a p ltac:(lra)). pose proof (apw_pos b p ltac:(lra)). apply Req_le. field. repeat split; lra.
Qed.
Lemma Rsum_ge_in l x : (forall y, In y l -> 0 <= y) -> In x l -> x <= Rsum l.
Proof.
  induction l as [|y l IH]; intros N I; [destruct I|]. cbn [Rsum fold_right]. fold (Rsum l). destruct I as [->|I].
  - pose proof (Rsum_nonneg l ltac:(intros; apply N; right; auto)). lra.
  - pose proof (N y (or_introl eq_refl)). pose proof (IH ltac:(intros; apply N; right; auto) I). lra.
Qed.
Lemma pnorm_coord p v r x : 0 < p -> is_pnorm p v r -> In x v -> Rabs x <= r.
Proof.
  intros P (R0 & E) I. apply (apw_le_inv (Rabs x) r p); auto using Rabs_pos. rewrite apw_abs, E. apply Rsum_ge_in; [intros y Hy; apply in_map_iff in Hy as (z & <- & _); apply apw_nonneg|]. apply in_map_iff. exists x. auto.
Qed.
Lemma pnorm_decreasing p q v a b : 0 < p <= q -> is_pnorm p v a -> is_pnorm q v b -> b <= a.
Proof.
  intros (P & Q) A B. pose proof A as (A0 & Ea). pose proof B as (B0 & Eb). assert (P' : 0 < q) by lra. destruct A0 as [A0|<-].
  2:{ assert (b = 0) by (apply (pnorm_zero q v b); auto; apply (pnorm_zero p v 0); auto). lra. }
  apply (apw_le_inv b a q); auto; try lra. rewrite Eb. pose proof (apw_pos a q ltac:(lra)) as Paq. pose proof (apw_pos a p ltac:(lra)) as Pap.
  assert (S : forall x, In x v -> abs_pow x q <= abs_pow a q * (/ abs_pow a p * abs_pow x p)).
  { intros x Hx. pose proof (pnorm_coord p v a x P A Hx) as X. rewrite <- (apw_abs x q), <- (apw_abs x p). replace (Rabs x) with (a * (Rabs x / a)) by (field; lra). rewrite !apw_mult.
    assert (X1 : 0 <= Rabs x / a <= 1). { split; [apply Rmult_le_pos; [apply Rabs_pos|apply Rlt_le, Rinv_0_lt_compat; auto]|]. apply Rmult_le_reg_r with a; auto. unfold Rdiv. rewrite Rmult_assoc, Rinv_l by lra. lra. }
    pose proof (apw_expt (Rabs x / a) p q (conj P Q) X1) as D. replace (/ abs_pow a p * (abs_pow a p * abs_pow (Rabs x / a) p)) with (abs_pow (Rabs x / a) p) by (field; lra). apply Rmult_le_compat_l; lra. }
  eapply Rle_trans; [apply (Rsum_map_le _ (fun x => abs_pow a q * (/ abs_pow a p * abs_pow x p))); exact S|]. rewrite Rsum_map_scale, Rsum_map_scale, <- Ea. apply Req_le. field. lra.
Qed.

(** ** The library's norm *)
Ltac rb1 := match goal with
  | |- context [Reqb ?a ?b] => let E := fresh "E" in destruct (Reqb a b) eqn:E; [apply Reqb_true in E | apply Reqb_false in E]
  | |- context [Rltb ?a ?b] => let E := fresh "E" in destruct (Rltb a b) eqn:E; [apply Rltb_true in E | apply Rltb_false in E]
  end.
Lemma Rsum_perm l l' : Permutation l l' -> Rsum l = Rsum l'.
Proof. unfold Rsum. induction 1; cbn [fold_right]; try lra. Qed.
Lemma len_pnorm v : is_pnorm 2 v (len v).
Proof. split; [apply len_nonneg|]. rewrite apw_2. rewrite (Rsum_map_ext (fun x => abs_pow x 2) (fun x => x * x)) by (intros; apply apw_2). rewrite len_sq. clear. induction v as [|x v IH]; [reflexivity|]. cbn [dot map Rsum fold_right]. rewrite IH. reflexivity. Qed.
Lemma norm_pos_R (p : R) (v : pt) : 0 < p -> exists r, norm_ord (N:=RNum) Rpw (OrdNum (N:=RNum) p) v = Ok r /\ is_pnorm p v r.
Proof.
  intro P. unfold norm_ord. rops. rn. change (IZR 2) with 2. rb1.
  { subst. eexists. split; [apply norm_R|apply len_pnorm]. }
  rb1; [lra|]. rb1.
  { subst. eexists. split; [reflexivity|]. rewrite nsum_Rsum. split.
    - apply Rsum_nonneg. intros y Hy. apply in_map_iff in Hy as (x & <- & _). apply Rabs_pos.
    - rewrite apw_1, Rabs_right. + apply Rsum_map_ext. intros. symmetry. apply apw_1.
      + apply Rle_ge, Rsum_nonneg. intros y Hy. apply in_map_iff in Hy as (x & <- & _). apply Rabs_pos. }
  rb1; [lra|]. cbn [andb]. rewrite ndiv_R by lra. cbn [bind]. eexists. split; [reflexivity|]. rewrite nsum_Rsum.
  replace (Rpw _ _) with (abs_pow (Rsum (map (fun x => abs_pow x p) v)) (/ p)); [apply pnorm_val; auto|].
  rewrite (Rsum_map_ext (fun x => Rpw (Rabs x) p) (fun x => abs_pow x p)) by (intros; rewrite Rpw_apw by (apply Rabs_pos || lra); apply apw_abs).
  rewrite Rpw_apw; [f_equal; field; lra|apply psum_nonneg|]. unfold Rdiv. rewrite Rmult_1_l. apply Rinv_neq_0_compat. lra.
Qed.

Lemma norm_neg_R (p : R) (v : pt) : p < 0 -> ~ In 0 v -> v <> [] ->
  exists r, norm_ord (N:=RNum) Rpw (OrdNum (N:=RNum) p) v = Ok r /\ 0 < r /\ abs_pow r p = Rsum (map (fun x => abs_pow x p) v).
Proof.
  intros P I NE. unfold norm_ord. rops. rn. change (IZR 2) with 2. rb1; [lra|]. rb1; [lra|]. rb1; [lra|]. rb1; [|lra]. cbn [andb].
  replace (existsb (fun x : R => Reqb x 0) v) with false.
  2:{ symmetry. destruct (existsb _ v) eqn:Ex; auto. apply existsb_exists in Ex as (x & Hx & Z). apply Reqb_true in Z. subst. contradiction. }
  rewrite ndiv_R by lra. cbn [bind]. eexists. split; [reflexivity|]. rewrite nsum_Rsum.
  rewrite (Rsum_map_ext (fun x => Rpw (Rabs x) p) (fun x => abs_pow x p)) by (intros; rewrite Rpw_apw by (apply Rabs_pos || lra); apply apw_abs).
  assert (Q : 0 < Rsum (map (fun x => abs_pow x p) v)).
  { destruct v as [|x v]; [contradiction|]. cbn [map Rsum fold_right]. pose proof (psum_nonneg p v) as S. unfold Rsum in S. pose proof (apw_pos x p ltac:(intros ->; apply I; left; reflexivity)). lra. }
  rewrite Rpw_apw by (lra || (unfold Rdiv; rewrite Rmult_1_l; apply Rinv_neq_0_compat; lra)). split; [apply apw_pos; lra|]. rewrite apw_pw. replace (1 / p * p) with 1 by (field; lra). rewrite apw_1. apply Rabs_right. lra.
Qed.
Lemma norm_neg_zero_R (p : R) (v : pt) : p < 0 -> In 0 v -> norm_ord (N:=RNum) Rpw (OrdNum (N:=RNum) p) v = Ok 0.
Proof.
  intros P I. unfold norm_ord. rops. rn. change (IZR 2) with 2. rb1; [lra|]. rb1; [lra|]. rb1; [lra|]. rb1; [|lra]. cbn [andb].
  replace (existsb (fun x : R => Reqb x 0) v) with true; [reflexivity|]. symmetry. apply existsb_exists. exists 0. split; auto. apply Reqb_refl.
Qed.
Lemma norm_zero_R (v : pt) : norm_ord (N:=RNum) Rpw (OrdNum (N:=RNum) 0) v = Ok (INR (count_nonzero v)).
Proof.
  unfold norm_ord. rops. rn. change (IZR 2) with 2. rb1; [lra|]. rb1; [|lra]. apply (f_equal (@Ok R)). rewrite nsum_Rsum. clear. induction v as [|x v IH]; [reflexivity|].
  cbn [map Rsum fold_right count_nonzero]. unfold Rsum in IH. rewrite IH. rb1; destruct (Req_EM_T x 0); try contradiction; [lra|]. rewrite S_INR. lra.
Qed.
Lemma nmax2_R a b : nmax2 (N:=RNum) a b = Rmax a b.
Proof. unfold nmax2, Rmax. rops. destruct (Rleb a b) eqn:E; destruct (Rle_dec a b); auto; [apply Rleb_true in E|apply Rleb_false in E]; lra. Qed.
Lemma nmin2_R a b : nmin2 (N:=RNum) a b = Rmin a b.
Proof. unfold nmin2, Rmin. rops. destruct (Rleb a b) eqn:E; destruct (Rle_dec a b); auto; [apply Rleb_true in E|apply Rleb_false in E]; lra. Qed.
Lemma fold_max (l : list R) : forall a, let m := fold_left (nmax2 (N:=RNum)) l a in (a <= m /\ forall x, In x l -> x <= m) /\ (m = a \/ In m l).
Proof.
  induction l as [|y l IH]; intro a; cbn [fold_left]; [repeat split; [lra|intros ? []|auto]|]. rewrite nmax2_R. destruct (IH (Rmax a y)) as ((A & B) & C). pose proof (Rmax_l a y). pose proof (Rmax_r a y).
  split; [split; [lra|intros x [<-|Hx]; [lra|auto]]|]. destruct C as [C|C]; [|right; right; auto]. rewrite C. unfold Rmax. destruct (Rle_dec a y); [right; left; auto|auto].
Qed.
Lemma fold_min (l : list R) : forall a, let m := fold_left (nmin2 (N:=RNum)) l a in (m <= a /\ forall x, In x l -> m <= x) /\ (m = a \/ In m l).
Proof.
  induction l as [|y l IH]; intro a; cbn [fold_left]; [repeat split; [lra|intros ? []|auto]|]. rewrite nmin2_R. destruct (IH (Rmin a y)) as ((A & B) & C). pose proof (Rmin_l a y). pose proof (Rmin_r a y).
  split; [split; [lra|intros x [<-|Hx]; [lra|auto]]|]. destruct C as [C|C]; [|right; right; auto]. rewrite C. unfold Rmin. destruct (Rle_dec a y); [auto|right; left; auto].
Qed.
Lemma norm_inf_R (v : pt) : v <> [] -> exists r, norm_ord (N:=RNum) Rpw OrdInf v = Ok r /\ is_largest v r.
Proof.
  destruct v as [|a v]; [contradiction|]. intros _. unfold norm_ord. cbn [map reduce1]. rops. eexists. split; [reflexivity|]. destruct (fold_max (map Rabs v) (Rabs a)) as ((A & B) & C). split.
  - intros x [<-|Hx]; auto. apply B. apply in_map; auto.
  - destruct C as [C|C]; [exists a; split; [left|]; auto|]. apply in_map_iff in C as (x & E & Hx). exists x. split; [right|]; auto.
Qed.
Lemma norm_neginf_R (v : pt) : v <> [] -> exists r, norm_ord (N:=RNum) Rpw OrdNegInf v = Ok r /\ is_smallest v r.
Proof.
  destruct v as [|a v]; [contradiction|]. intros _. unfold norm_ord. cbn [map reduce1]. rops. eexists. split; [reflexivity|]. destruct (fold_min (map Rabs v) (Rabs a)) as ((A & B) & C). split.
  - intros x [<-|Hx]; auto. apply B. apply in_map; auto.
  - destruct C as [C|C]; [exists a; split; [left|]; auto|]. apply in_map_iff in C as (x & E & Hx). exists x. split; [right|]; auto.
Qed.
Lemma largest_unique v a b : is_largest v a -> is_largest v b -> a = b.
Proof. intros (A & x & Hx & <-) (B & y & Hy & <-). apply Rle_antisym; auto. Qed.
Lemma smallest_unique v a b : is_smallest v a -> is_smallest v b -> a = b.
Proof. intros (A & x & Hx & <-) (B & y & Hy & <-). apply Rle_antisym; auto. Qed.

(** What each value of ord computes. *)
Theorem C76_orders : forall v : pt,
  norm_ord (N:=RNum) Rpw OrdDefault v = Ok (len v) /\
  norm_ord (N:=RNum) Rpw (OrdNum (N:=RNum) 2) v = Ok (len v) /\
  norm_ord (N:=RNum) Rpw (OrdNum (N:=RNum) 1) v = Ok (Rsum (map Rabs v)) /\
  norm_ord (N:=RNum) Rpw (OrdNum (N:=RNum) 0) v = Ok (INR (count_nonzero v)) /\
  (v <> [] -> exists r, norm_ord (N:=RNum) Rpw OrdInf v = Ok r /\ is_largest v r) /\
  (v <> [] -> exists r, norm_ord (N:=RNum) Rpw OrdNegInf v = Ok r /\ is_smallest v r) /\
  (forall s, exists m, norm_ord (N:=RNum) Rpw (OrdStr s) v = Raise (ValueError m)).
Proof.
  intro v. split; [apply norm_R|]. split; [unfold norm_ord; rops; rn; change (IZR 2) with 2; rb1; [apply norm_R|lra]|].
  split; [unfold norm_ord; rops; rn; change (IZR 2) with 2; rb1; [lra|]; rb1; [lra|]; rb1; [reflexivity|lra]|].
  split; [apply norm_zero_R|]. split; [apply norm_inf_R|]. split; [apply norm_neginf_R|]. intro s. eexists. reflexivity.
Qed.
Print Assumptions C76_orders.

(** Every other number: the p-norm for p > 0, and its formula for p < 0. *)
Theorem C76_power : forall (p : R) (v : pt),
  (0 < p -> exists r, norm_ord (N:=RNum) Rpw (OrdNum (N:=RNum) p) v = Ok r /\ is_pnorm p v r /\ forall r', is_pnorm p v r' -> r' = r) /\
  (p < 0 -> In 0 v -> norm_ord (N:=RNum) Rpw (OrdNum (N:=RNum) p) v = Ok 0) /\
  (p < 0 -> ~ In 0 v -> v <> [] -> exists r, norm_ord (N:=RNum) Rpw (OrdNum (N:=RNum) p) v = Ok r /\ 0 < r /\
     Rpower r p = Rsum (map (fun x => Rpower (Rabs x) p) v) /\ forall x, In x v -> r <= Rabs x).
Proof.
  intros p v. split; [|split].
  - intro P. destruct (norm_pos_R p v P) as (r & E & H). exists r. split; [exact E|]. split; [exact H|]. intros r' H'. apply (pnorm_unique p v); auto.
  - apply norm_neg_zero_R.
  - intros P I NE. destruct (norm_neg_R p v P I NE) as (r & E & H & S). exists r. split; [exact E|]. split; [exact H|]. split.
    + rewrite apw_nz, Rabs_right in S by lra. rewrite S. apply Rsum_map_ext. intros x Hx. apply apw_nz. intros ->. contradiction.
    + intros x Hx. assert (Nx : x <> 0) by (intros ->; contradiction). assert (L : abs_pow x p <= abs_pow r p).
      { rewrite S. apply Rsum_ge_in; [intros y Hy; apply in_map_iff in Hy as (z & <- & _); apply apw_nonneg|]. apply in_map_iff. exists x. auto. }
      pose proof (abs_nz x Nx). destruct (Rle_dec r (Rabs x)) as [|F]; auto. exfalso. rewrite !apw_nz in L by lra. rewrite (Rabs_right r) in L by lra. unfold Rpower in L.
      assert (ln (Rabs x) < ln r) by (apply ln_increasing; lra). assert (p * ln r < p * ln (Rabs x)) by nra. pose proof (exp_increasing _ _ H2). lra.
Qed.
Print Assumptions C76_power.

(** The values of ord that numpy calls norms. *)
Definition proper_order (o : norm_order RNum) : Prop := o = OrdDefault \/ o = OrdInf \/ exists p : R, 1 <= p /\ o = OrdNum (N:=RNum) p.

(** For those the result is a norm. *)
Theorem C76_norm_axioms : forall (o : norm_order RNum) (u v : pt) (k : R), proper_order o -> u <> [] -> length u = length v ->
  exists a b c, norm_ord (N:=RNum) Rpw o u = Ok a /\ norm_ord (N:=RNum) Rpw o v = Ok b /\ norm_ord (N:=RNum) Rpw o (add u v) = Ok c /\
    0 <= a /\ (a = 0 <-> is_zero_vec u) /\ c <= a + b /\ norm_ord (N:=RNum) Rpw o (scale k u) = Ok (Rabs k * a).
Proof.
  intros o u v k O NE L.
  assert (NEv : v <> []) by (intros ->; destruct u; [contradiction|discriminate L]).
  assert (PC : forall p, 1 <= p -> exists a b c, norm_ord (N:=RNum) Rpw (OrdNum (N:=RNum) p) u = Ok a /\ norm_ord (N:=RNum) Rpw (OrdNum (N:=RNum) p) v = Ok b /\ norm_ord (N:=RNum) Rpw (OrdNum (N:=RNum) p) (add u v) = Ok c /\
    0 <= a /\ (a = 0 <-> is_zero_vec u) /\ c <= a + b /\ norm_ord (N:=RNum) Rpw (OrdNum (N:=RNum) p) (scale k u) = Ok (Rabs k * a)).
  { intros p P. assert (P0 : 0 < p) by lra. destruct (norm_pos_R p u P0) as (a & Ea & Ha). destruct (norm_pos_R p v P0) as (b & Eb & Hb). destruct (norm_pos_R p (add u v) P0) as (c & Ec & Hc). destruct (norm_pos_R p (scale k u) P0) as (d & Ed & Hd).
    exists a, b, c. split; [exact Ea|]. split; [exact Eb|]. split; [exact Ec|]. split; [apply Ha|]. split; [apply (pnorm_zero p u a); auto|]. split; [apply (minkowski p u v); auto|].
    rewrite Ed. apply (f_equal (@Ok R)). apply (pnorm_unique p (scale k u)); auto. apply pnorm_scale; auto. }
  destruct O as [->|[->|(p & P & ->)]]; [|clear PC|apply PC; auto].
  { destruct (PC 2 ltac:(lra)) as (a & b & c & H). assert (Q : forall w : pt, norm_ord (N:=RNum) Rpw OrdDefault w = norm_ord (N:=RNum) Rpw (OrdNum (N:=RNum) 2) w) by (intro w; rewrite (proj1 (C76_orders w)), (proj1 (proj2 (C76_orders w))); reflexivity).
    exists a, b, c. rewrite !Q. exact H. }
  assert (NEa : add u v <> []) by (destruct u, v; try contradiction; discriminate). assert (NEs : scale k u <> []) by (destruct u; try contradiction; discriminate).
  destruct (norm_inf_R u NE) as (a & Ea & Ha). destruct (norm_inf_R v NEv) as (b & Eb & Hb). destruct (norm_inf_R (add u v) NEa) as (c & Ec & Hc). destruct (norm_inf_R (scale k u) NEs) as (d & Ed & Hd).
  exists a, b, c. split; [exact Ea|]. split; [exact Eb|]. split; [exact Ec|].
  split. { destruct Ha as (_ & x & _ & <-). apply Rabs_pos. }
  split.
  { split.
    - intros ->. apply nth_ext with (d := 0) (d' := 0); [rewrite length_origin; auto|]. intros i Hi. unfold origin. rewrite nth_repeat. destruct Ha as (Ha & _). pose proof (Ha (nth i u 0) (nth_In u 0 Hi)) as X. pose proof (Rabs_pos (nth i u 0)). destruct (Req_EM_T (nth i u 0) 0); auto. pose proof (abs_nz _ n). lra.
    - intro Z. destruct Ha as (_ & x & Hx & <-). rewrite Z in Hx. apply repeat_spec in Hx. subst. apply Rabs_R0. }
  split.
  { destruct Hc as (_ & x & Hx & <-). apply (In_nth _ _ 0) in Hx as (i & Hi & <-). assert (Li : (i < length u)%nat) by (revert Hi; len). rewrite nth_add by (auto; lia). eapply Rle_trans; [apply Rabs_triang|]. apply Rplus_le_compat; [apply Ha|apply Hb]; apply nth_In; lia. }
  rewrite Ed. apply (f_equal (@Ok R)). apply (largest_unique (scale k u)); auto. destruct Ha as (Ha & x & Hx & Ex). split.
  - intros y Hy. apply in_map_iff in Hy as (z & <- & Hz). rewrite Rabs_mult. apply Rmult_le_compat_l; [apply Rabs_pos|auto].
  - exists (k * x). split; [apply in_map_iff; exists x; auto|]. rewrite Rabs_mult, Ex. reflexivity.
Qed.
Print Assumptions C76_norm_axioms.

(** Larger orders give smaller norms, and all p-norms lie within a factor n^(1/p) of the largest coordinate. *)
Theorem C76_ordering : forall (p q : R) (v : pt), 0 < p <= q -> v <> [] ->
  exists a b m, norm_ord (N:=RNum) Rpw (OrdNum (N:=RNum) p) v = Ok a /\ norm_ord (N:=RNum) Rpw (OrdNum (N:=RNum) q) v = Ok b /\ norm_ord (N:=RNum) Rpw OrdInf v = Ok m /\
    b <= a /\ m <= b /\ a <= Rpower (INR (length v)) (1 / p) * m.
Proof.
  intros p q v (P & Q) NE. destruct (norm_pos_R p v P) as (a & Ea & Ha). destruct (norm_pos_R q v ltac:(lra)) as (b & Eb & Hb). destruct (norm_inf_R v NE) as (m & Em & Hm).
  exists a, b, m. split; [exact Ea|]. split; [exact Eb|]. split; [exact Em|]. split; [apply (pnorm_decreasing p q v); auto|].
  split; [destruct Hm as (_ & x & Hx & <-); apply (pnorm_coord q v b x); auto; lra|].
  assert (Ln : 0 < INR (length v)) by (apply lt_0_INR; destruct v; [contradiction|cbn; lia]). pose proof Hm as (Hm' & x & Hx & Ex). assert (M0 : 0 <= m) by (rewrite <- Ex; apply Rabs_pos).
  apply (apw_le_inv a (Rpower (INR (length v)) (1 / p) * m) p); auto; [apply Ha|apply Rmult_le_pos; auto; apply Rlt_le, exp_pos|].
  rewrite apw_mult. rewrite (apw_nz (Rpower _ _)) by (apply Rgt_not_eq, exp_pos). rewrite (Rabs_right (Rpower _ _)) by (left; apply exp_pos). rewrite Rpower_mult. replace (1 / p * p) with 1 by (field; lra). rewrite Rpower_1 by auto.
  destruct Ha as (A0 & Sa). rewrite Sa. eapply Rle_trans; [apply (Rsum_map_le _ (fun _ => abs_pow m p)); intros y Hy; rewrite <- apw_abs; apply apw_le; auto; split; [apply Rabs_pos|apply Hm'; auto]|]. rewrite Rsum_map_const. lra.
Qed.
Print Assumptions C76_ordering.

(** The order and the signs of the coordinates do not matter. *)
Theorem C76_invariance : forall (o : norm_order RNum) (v w : pt), v <> [] -> Permutation (map Rabs v) (map Rabs w) ->
  norm_ord (N:=RNum) Rpw o v = norm_ord (N:=RNum) Rpw o w.
Proof.
  intros o v w NE Pm.
  assert (NW : w <> []) by (intros ->; apply Permutation_sym, Permutation_nil in Pm; destruct v; [contradiction|discriminate Pm]).
  assert (SP : forall f : R -> R, (forall x, f (Rabs x) = f x) -> Rsum (map f v) = Rsum (map f w)).
  { intros f Hf. assert (G : forall u, Rsum (map f u) = Rsum (map f (map Rabs u))) by (intro u; rewrite map_map; apply Rsum_map_ext; intros; symmetry; apply Hf). rewrite (G v), (G w). apply Rsum_perm, Permutation_map, Pm. }
  assert (IN : forall y, (exists x, In x v /\ Rabs x = y) <-> (exists x, In x w /\ Rabs x = y)).
  { intro y. split; intros (x & Hx & E).
    - assert (I : In y (map Rabs v)) by (apply in_map_iff; exists x; auto). apply (Permutation_in _ Pm) in I. apply in_map_iff in I as (z & Ez & Hz). exists z; auto.
    - assert (I : In y (map Rabs w)) by (apply in_map_iff; exists x; auto). apply (Permutation_in _ (Permutation_sym Pm)) in I. apply in_map_iff in I as (z & Ez & Hz). exists z; auto. }
  assert (LEN : len v = len w). { apply (pnorm_unique 2 v); [lra|apply len_pnorm|]. destruct (len_pnorm w) as (W0 & W1). split; auto. rewrite W1. symmetry. apply SP. intro x. apply apw_abs. }
  destruct o as [| | |p|s]; [unfold norm_ord; rewrite !norm_R, LEN; reflexivity| | |
    |reflexivity].
  - destruct (norm_inf_R v NE) as (a & Ea & Ha). destruct (norm_inf_R w NW) as (b & Eb & Hb). rewrite Ea, Eb. apply (f_equal (@Ok R)). apply (largest_unique v); auto. destruct Hb as (B1 & B2). split; [|apply IN, B2].
    intros x Hx. destruct (proj1 (IN (Rabs x)) (ex_intro _ x (conj Hx eq_refl))) as (z & Hz & <-). auto.
  - destruct (norm_neginf_R v NE) as (a & Ea & Ha). destruct (norm_neginf_R w NW) as (b & Eb & Hb). rewrite Ea, Eb. apply (f_equal (@Ok R)). apply (smallest_unique v); auto. destruct Hb as (B1 & B2). split; [|apply IN, B2].
    intros x Hx. destruct (proj1 (IN (Rabs x)) (ex_intro _ x (conj Hx eq_refl))) as (z & Hz & <-). auto.
  - change (num RNum) with R in p. destruct (Rtotal_order p 0) as [P|[->|P]].
    + assert (Z : In 0 v <-> In 0 w).
      { split; intro I; [destruct (proj1 (IN 0) (ex_intro _ 0 (conj I Rabs_R0))) as (z & Hz & E)|destruct (proj2 (IN 0) (ex_intro _ 0 (conj I Rabs_R0))) as (z & Hz & E)];
          (destruct (Req_EM_T z 0) as [->|F]; [exact Hz|pose proof (abs_nz z F); lra]). }
      destruct (in_dec Req_EM_T 0 v) as [I|I].
      * rewrite (norm_neg_zero_R p v P I), (norm_neg_zero_R p w P (proj1 Z I)). reflexivity.
      * assert (I' : ~ In 0 w) by tauto. destruct (norm_neg_R p v P I NE) as (a & Ea & A0 & Ha). destruct (norm_neg_R p w P I' NW) as (b & Eb & B0 & Hb). rewrite Ea, Eb. apply (f_equal (@Ok R)).
        assert (E : abs_pow a p = abs_pow b p) by (rewrite Ha, Hb; apply SP; intro; apply apw_abs).
        assert (G : forall t, 0 < t -> abs_pow (abs_pow t p) (/ p) = t) by (intros t T; rewrite apw_pw, Rinv_r, apw_1 by lra; apply Rabs_right; lra). rewrite <- (G a A0), <- (G b B0), E. reflexivity.
    + rewrite !norm_zero_R. apply (f_equal (@Ok R)). pose (f := fun x : R => if Req_EM_T x 0 then 0 else 1).
      assert (C : forall u, INR (count_nonzero u) = Rsum (map f u)). { induction u as [|x u IH]; [reflexivity|]. cbn [count_nonzero map Rsum fold_right]. unfold Rsum in IH. rewrite <- IH. unfold f. destruct (Req_EM_T x 0); [lra|]. rewrite S_INR. lra. }
      rewrite !C. apply SP. intro x. unfold f. destruct (Req_EM_T x 0) as [->|F]; [rewrite Rabs_R0; destruct (Req_EM_T 0 0); lra|]. destruct (Req_EM_T (Rabs x) 0); auto. pose proof (abs_nz x F). lra.
    + destruct (norm_pos_R p v P) as (a & Ea & Ha). destruct (norm_pos_R p w P) as (b & Eb & B0 & Hb). rewrite Ea, Eb. apply (f_equal (@Ok R)). apply (pnorm_unique p v); auto. split; auto. rewrite Hb. symmetry. apply SP. intro; apply apw_abs.
Qed.
Print Assumptions C76_invariance.

(** Orders between 0 and 1 are not norms: the triangle inequality fails for ord = 1/2. *)
Theorem C76_quasi_refuted : exists u v : pt, length u = length v /\
  norm_ord (N:=RNum) Rpw (OrdNum (N:=RNum) (1/2)) u = Ok 1 /\ norm_ord (N:=RNum) Rpw (OrdNum (N:=RNum) (1/2)) v = Ok 1 /\
  norm_ord (N:=RNum) Rpw (OrdNum (N:=RNum) (1/2)) (add u v) = Ok 4.
Proof.
  exists [1; 0], [0; 1]. split; [reflexivity|].
  assert (G : forall v r s, Rsum (map (fun x => abs_pow x (1/2)) v) = s -> r = s * s -> norm_ord (N:=RNum) Rpw (OrdNum (N:=RNum) (1/2)) v = Ok r).
  { intros v r s S E. destruct (norm_pos_R (1/2) v ltac:(lra)) as (a & Ea & A0 & Ha). rewrite Ea. apply (f_equal (@Ok R)). rewrite S in Ha. rewrite E, <- Ha, <- apw_2, apw_pw. replace (1 / 2 * 2) with 1 by lra. rewrite apw_1. symmetry. apply Rabs_right. lra. }
  split; [|split]; [apply (G _ _ 1)|apply (G _ _ 1)|apply (G _ _ 2)]; try lra; cbn [add map Rsum fold_right]; rewrite ?Rplus_0_l, ?Rplus_0_r, ?apw_0, ?apw_one; lra.
Qed.
Print Assumptions C76_quasi_refuted.

(** axis and keepdims choose the shape of the result, never its value; 0 and -1 are the only axes. *)
Theorem C76_axis_keepdims : forall (N : Num) (pw : N -> N -> N) (o : norm_order N) (v : vec N),
  (forall axis, axis = None \/ axis = Some 0%Z \/ axis = Some (-1)%Z ->
     (forall r, norm_ord pw o v = Ok r <-> norm_kw pw o axis false v = Ok (inl r)) /\
     (forall r, norm_ord pw o v = Ok r <-> norm_kw pw o axis true v = Ok (inr [r])) /\
     (forall k e, norm_ord pw o v = Raise e -> norm_kw pw o axis k v = Raise e)) /\
  (forall z k, z <> 0%Z -> z <> (-1)%Z -> exists m, norm_kw pw o (Some z) k v = Raise (ValueError m)).
Proof.
  intros N pw o v. split.
  - intros axis Ha.
    assert (E : forall k : bool, norm_kw pw o axis k v = bind (norm_ord pw o v) (fun r => Ok (if k then inr [r] else inl r))) by (intro k; destruct Ha as [->|[->| ->]]; reflexivity).
    rewrite !E. split; [|split].
    + intro r. destruct (norm_ord pw o v); cbn [bind]; split; intro H; try discriminate H; injection H as <-; reflexivity.
    + intro r. destruct (norm_ord pw o v); cbn [bind]; split; intro H; try discriminate H; injection H as <-; reflexivity.
    + intros k e H. rewrite E, H. reflexivity.
  - intros z k H0 H1. destruct z as [|z|z]; [contradiction|simpl; eauto|]. destruct z; simpl; eauto. contradiction.
Qed.
Print Assumptions C76_axis_keepdims.

Theorem C76_nonvacuous :
  norm_ord (N:=RNum) Rpw OrdDefault [3; -4; 0] = Ok 5 /\ norm_ord (N:=RNum) Rpw (OrdNum (N:=RNum) 1) [3; -4; 0] = Ok 7 /\ norm_ord (N:=RNum) Rpw (OrdNum (N:=RNum) 0) [3; -4; 0] = Ok 2 /\
  norm_ord (N:=RNum) Rpw OrdInf [3; -4; 0] = Ok 4 /\ norm_ord (N:=RNum) Rpw OrdNegInf [3; -4; 0] = Ok 0 /\
  norm_ord (N:=RNum) Rpw (OrdNum (N:=RNum) (-1)) [3; -4; 0] = Ok 0 /\ norm_ord (N:=RNum) Rpw (OrdNum (N:=RNum) (-1)) [1; 2] = Ok (2/3) /\
  proper_order (OrdNum (N:=RNum) 3) /\ Permutation (map Rabs [3; -4; 0]) (map Rabs [0; 4; -3]).
Proof.
  split. { rewrite (proj1 (C76_orders _)). apply (f_equal (@Ok R)). unfold len. cbn [dot]. replace (3 * 3 + (-4 * -4 + (0 * 0 + 0))) with (5 * 5) by ring. apply sqrt_square. lra. }
  split. { rewrite (proj1 (proj2 (proj2 (C76_orders _)))). apply (f_equal (@Ok R)). cbn [map Rsum fold_right]. rewrite Rabs_right, Rabs_left, Rabs_R0 by lra. lra. }
  split. { rewrite norm_zero_R. apply (f_equal (@Ok R)). cbn [count_nonzero]. destruct (Req_EM_T 3 0), (Req_EM_T (-4) 0), (Req_EM_T 0 0); try lra. cbn. lra. }
  assert (A3 : Rabs 3 = 3) by (apply Rabs_right; lra). assert (A4 : Rabs (-4) = 4) by (rewrite Rabs_left by lra; lra).
  split. { destruct (norm_inf_R [3; -4; 0] ltac:(discriminate)) as (r & E & H). rewrite E. apply (f_equal (@Ok R)). apply (largest_unique [3; -4; 0]); auto. split; [intros x [<-|[<-|[<-|[]]]]; rewrite ?A3, ?A4, ?Rabs_R0; lra|]. exists (-4). split; [right; left|]; auto. }
  split. { destruct (norm_neginf_R [3; -4; 0] ltac:(discriminate)) as (r & E & H). rewrite E. apply (f_equal (@Ok R)). apply (smallest_unique [3; -4; 0]); auto. split; [intros x [<-|[<-|[<-|[]]]]; rewrite ?A3, ?A4, ?Rabs_R0; lra|]. exists 0. split; [right; right; left|]; auto. apply Rabs_R0. }
  split. { apply norm_neg_zero_R; [lra|right; right; left; reflexivity]. }
  split. { assert (I : ~ In 0 [1; 2]) by (intros [H|[H|[]]]; lra). destruct (norm_neg_R (-1) [1; 2] ltac:(lra) I ltac:(discriminate)) as (r & E & P & H). rewrite E. apply (f_equal (@Ok R)).
    assert (G : forall x, 0 < x -> abs_pow x (-1) = / x). { intros x X. rewrite apw_nz, Rabs_right by lra. replace (-1) with (- (1)) by ring. rewrite Rpower_Ropp, Rpower_1 by lra. reflexivity. }
    cbn [map Rsum fold_right] in H. rewrite !G in H by lra. rewrite <- (Rinv_inv r), H. field. }
  split; [right; right; exists 3; split; [lra|reflexivity]|]. cbn [map]. rewrite A3, A4, Rabs_R0. replace (Rabs 4) with 4 by (symmetry; apply Rabs_right; lra). replace (Rabs (-3)) with 3 by (rewrite Rabs_left; lra).
  change [3; 4; 0] with (rev [0; 4; 3]). apply Permutation_sym, Permutation_rev.
Qed.
Print Assumptions C76_nonvacuous.
