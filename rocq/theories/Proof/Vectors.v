(** * Facts about the model of objects/vector.py over the reals *)
From Coq Require Import String Reals List ZArith Lra Lia Psatz Bool.
From Verif.Model Require Import Outcome Num Instances Numpy BaseArray Vector.
From Verif.Spec Require Import Geometry Tolerance.
From Verif.Proof Require Import VecAlg Bridge Arrays.
Import ListNotations.
Local Open Scope R_scope.

(** Model constants as their real meaning. *)
Ltac rops := change (neqb (n:=RNum)) with Reqb in *; change (nleb (n:=RNum)) with Rleb in *;
  change (nltb (n:=RNum)) with Rltb in *; change (n0 (n:=RNum)) with 0 in *; change (n1 (n:=RNum)) with 1 in *;
  change (nadd (n:=RNum)) with Rplus in *; change (nsub (n:=RNum)) with Rminus in *;
  change (nmul (n:=RNum)) with Rmult in *; change (nopp (n:=RNum)) with Ropp in *;
  change (nabs (n:=RNum)) with Rabs in *; change (nsqrt (n:=RNum)) with sqrt in *;
  change (nofZ (n:=RNum)) with IZR in *; change (num RNum) with R in *.

(** Decide comparisons of concrete numbers. *)
Ltac rcmp := repeat (cbn [orb andb negb]; first
  [ match goal with |- context [Rltb ?a ?b] => first [rewrite (proj2 (Rltb_true a b)) by lra | rewrite (proj2 (Rltb_false a b)) by lra] end
  | match goal with |- context [Reqb ?a ?b] => first [rewrite (proj2 (Reqb_true a b)) by lra | rewrite (proj2 (Reqb_false a b)) by lra] end
  | match goal with |- context [Rleb ?a ?b] => first [rewrite (proj2 (Rleb_true a b)) by lra | rewrite (proj2 (Rleb_false a b)) by lra] end ]);
  cbn [orb andb negb].

Lemma list3 (v : pt) : length v = 3%nat -> exists x y z, v = [x; y; z].
Proof. destruct v as [|x [|y [|z [|? ?]]]]; simpl; try discriminate. eauto. Qed.
Lemma list2 (v : pt) : length v = 2%nat -> exists x y, v = [x; y].
Proof. destruct v as [|x [|y [|? ?]]]; simpl; try discriminate. eauto. Qed.
Lemma list1 (v : pt) : length v = 1%nat -> exists x, v = [x].
Proof. destruct v as [|x [|? ?]]; simpl; try discriminate. eauto. Qed.

(** ** Cosine similarity and angle *)
Definition cosine (a b : pt) : R := dot a b / (len a * len b).

Lemma len_prod_pos a b : ~ is_zero_vec a -> ~ is_zero_vec b -> 0 < len a * len b.
Proof. intros. apply Rmult_lt_0_compat; apply len_pos; auto. Qed.

Lemma cosine_bounds a b : length a = length b -> ~ is_zero_vec a -> ~ is_zero_vec b -> -1 <= cosine a b <= 1.
Proof.
  intros L Ha Hb. pose proof (len_prod_pos a b Ha Hb) as P. pose proof (cauchy_schwarz a b L) as C.
  assert (- (len a * len b) <= dot a b <= len a * len b) as [C1 C2].
  { revert C. unfold Rabs. destruct Rcase_abs; lra. }
  unfold cosine. split.
  - apply Rmult_le_reg_r with (len a * len b); auto. unfold Rdiv. rewrite Rmult_assoc, Rinv_l by lra. lra.
  - apply Rmult_le_reg_r with (len a * len b); auto. unfold Rdiv. rewrite Rmult_assoc, Rinv_l by lra. lra.
Qed.
Lemma cosine_comm a b : cosine a b = cosine b a.
Proof. unfold cosine. rewrite dot_comm, (Rmult_comm (len a)). reflexivity. Qed.
Lemma cosine_scale s a b : 0 < s -> ~ is_zero_vec a -> ~ is_zero_vec b -> cosine (scale s a) b = cosine a b.
Proof.
  intros Hs Ha Hb. unfold cosine. rewrite dot_scale_l, len_scale, Rabs_pos_eq by lra.
  pose proof (len_pos a Ha). pose proof (len_pos b Hb). field. lra.
Qed.
Lemma cosine_neg a b : ~ is_zero_vec a -> ~ is_zero_vec b -> cosine a (scale (-1) b) = - cosine a b.
Proof.
  intros Ha Hb. unfold cosine. rewrite dot_scale_r, len_scale. replace (Rabs (-1)) with 1 by (rewrite Rabs_Ropp || (unfold Rabs; destruct Rcase_abs; lra); rewrite ?Rabs_R1; lra).
  pose proof (len_pos a Ha). pose proof (len_pos b Hb). field. lra.
Qed.
Lemma cosine_dot a b : ~ is_zero_vec a -> ~ is_zero_vec b -> dot a b = cosine a b * (len a * len b).
Proof. intros Ha Hb. pose proof (len_prod_pos a b Ha Hb). unfold cosine. field. split; intro E; rewrite E in *; lra. Qed.
Lemma cosine_sq1 a b : length a = length b -> ~ is_zero_vec a -> ~ is_zero_vec b ->
  cosine a b * cosine a b = 1 -> exists s, a = scale s b.
Proof.
  intros L Ha Hb E. apply cs_eq_sq in L; auto. { eauto. }
  rewrite (cosine_dot a b) by auto. rewrite <- (len_sq a), <- (len_sq b).
  replace (cosine a b * (len a * len b) * (cosine a b * (len a * len b))) with (cosine a b * cosine a b * (len a * len b * (len a * len b))) by ring.
  rewrite E. ring.
Qed.
Lemma cosine_one a b : length a = length b -> ~ is_zero_vec a -> ~ is_zero_vec b ->
  (cosine a b = 1 <-> exists s, 0 < s /\ b = scale s a).
Proof.
  intros L Ha Hb. split.
  - intro E. destruct (cosine_sq1 b a) as (s & Hs); auto. { rewrite cosine_comm, E. lra. }
    exists s. split; auto. rewrite Hs in E. assert (0 < dot a a) by (apply dot_self_pos; auto).
    pose proof (cosine_dot a b Ha Hb) as D. rewrite Hs, E, dot_scale_r in D.
    pose proof (len_pos a Ha). pose proof (len_nonneg (scale s a)). assert (~ is_zero_vec (scale s a)) by congruence.
    pose proof (len_pos _ H2). nra.
  - intros (s & Hs & ->). rewrite cosine_comm, cosine_scale by auto. unfold cosine. rewrite <- len_sq.
    pose proof (len_pos a Ha). field. lra.
Qed.
Lemma cosine_mone a b : length a = length b -> ~ is_zero_vec a -> ~ is_zero_vec b ->
  (cosine a b = -1 <-> exists s, s < 0 /\ b = scale s a).
Proof.
  intros L Ha Hb. assert (Hb' : ~ is_zero_vec (scale (-1) b)) by (apply scale_nonzero; auto; lra).
  assert (E : cosine a b = -1 <-> cosine a (scale (-1) b) = 1) by (rewrite cosine_neg by auto; lra).
  rewrite E, cosine_one; auto; [|len]. split.
  - intros (s & Hs & H). exists (- s). split; [lra|]. apply (f_equal (scale (-1))) in H.
    rewrite !scale_scale in H. replace (-1 * -1) with 1 in H by ring. rewrite scale_1 in H. rewrite H. f_equal. ring.
  - intros (s & Hs & ->). exists (- s). split; [lra|]. rewrite scale_scale. f_equal. ring.
Qed.
Lemma cosine_zero a b : ~ is_zero_vec a -> ~ is_zero_vec b -> (cosine a b = 0 <-> dot a b = 0).
Proof.
  intros Ha Hb. pose proof (cosine_dot a b Ha Hb). pose proof (len_prod_pos a b Ha Hb). split; intro E.
  - rewrite H, E. ring.
  - unfold cosine. rewrite E. unfold Rdiv. ring.
Qed.

Lemma nclip1_R x : -1 <= x <= 1 -> nclip1 (N:=RNum) x = x.
Proof. intro H. unfold nclip1. rops. rb; auto; lra. Qed.
Lemma nclip1_range x : -1 <= nclip1 (N:=RNum) x <= 1.
Proof. unfold nclip1. rops. rb; lra. Qed.

Lemma nonzero_ne v : ~ is_zero_vec v -> v <> [].
Proof. apply not_zero_nonempty. Qed.

Lemma cosine_R (a b : pt) : length a = length b -> ~ is_zero_vec a -> ~ is_zero_vec b ->
  cosine_similarity (N:=RNum) a b = Ok (cosine a b).
Proof.
  intros L Ha Hb. unfold cosine_similarity. rewrite !norm_R, vector_of_R by (apply nonzero_ne; auto). cbn [bind].
  rewrite norm_R. cbn [bind]. rops. pose proof (len_prod_pos a b Ha Hb). rb; [lra|].
  rewrite np_dot_R by auto. cbn [bind]. rewrite ndiv_R by lra. cbn [bind]. rewrite nclip1_R; auto.
  apply cosine_bounds; auto.
Qed.
Lemma cosine_R_zero (a b : pt) : b <> [] -> is_zero_vec a \/ is_zero_vec b ->
  cosine_similarity (N:=RNum) a b = Raise (ValueError "The vectors must have non-zero magnitudes.").
Proof.
  intros Hb H. unfold cosine_similarity. rewrite !norm_R, vector_of_R by auto. cbn [bind]. rewrite norm_R. cbn [bind]. rops.
  rb; auto. exfalso. apply E. destruct H as [H|H]; apply len_zero_iff in H; rewrite H; ring.
Qed.
Lemma cosine_R_mismatch (a b : pt) : length a <> length b -> ~ is_zero_vec a -> ~ is_zero_vec b ->
  cosine_similarity (N:=RNum) a b = Raise err_aligned.
Proof.
  intros L Ha Hb. unfold cosine_similarity. rewrite !norm_R, vector_of_R by (apply nonzero_ne; auto). cbn [bind].
  rewrite norm_R. cbn [bind]. rops. pose proof (len_prod_pos a b Ha Hb). rb; [lra|].
  rewrite np_dot_err by auto. reflexivity.
Qed.
Lemma angle_R (a b : pt) : length a = length b -> ~ is_zero_vec a -> ~ is_zero_vec b ->
  angle_between (N:=RNum) RTrig a b = Ok (acos (cosine a b)).
Proof.
  intros L Ha Hb. unfold angle_between. rewrite cosine_R by auto. cbn [bind]. unfold math_acos. rops.
  pose proof (cosine_bounds a b L Ha Hb). rb; simpl; auto; lra.
Qed.

Lemma acos_inj_val c1 c2 : -1 <= c1 <= 1 -> -1 <= c2 <= 1 -> acos c1 = acos c2 -> c1 = c2.
Proof. intros H1 H2 E. rewrite <- (cos_acos c1), <- (cos_acos c2), E by auto. reflexivity. Qed.
Lemma acos_PI2_iff c : -1 <= c <= 1 -> (acos c = PI / 2 <-> c = 0).
Proof. intro H. split; intro E. - apply acos_inj_val; try lra. rewrite acos_0; auto. - subst. apply acos_0. Qed.
Lemma acos_0_iff c : -1 <= c <= 1 -> (acos c = 0 <-> c = 1).
Proof. intro H. split; intro E. - apply acos_inj_val; try lra. rewrite acos_1; auto. - subst. apply acos_1. Qed.
Lemma acos_m1 : acos (-1) = PI.
Proof. replace (-1) with (Ropp 1) by lra. rewrite acos_opp, acos_1. lra. Qed.
Lemma acos_PI_iff c : -1 <= c <= 1 -> (acos c = PI <-> c = -1).
Proof. intro H. split; intro E. - apply acos_inj_val; try lra. rewrite acos_m1; auto. - subst. apply acos_m1. Qed.

(** ** atan2 *)
Lemma sqrt_sum_pos x y : x <> 0 \/ y <> 0 -> 0 < sqrt (x * x + y * y).
Proof. intro H. apply sqrt_lt_R0. destruct H; nra. Qed.

Lemma cos_atan_pos u : cos (atan u) = / sqrt (1 + u * u).
Proof. rewrite cos_atan. unfold Rsqr. unfold Rdiv. ring. Qed.

Lemma atan_polar x y : 0 < x -> let r := sqrt (x * x + y * y) in cos (atan (y / x)) = x / r /\ sin (atan (y / x)) = y / r.
Proof.
  intros Hx r. assert (Hr : 0 < r) by (apply sqrt_sum_pos; left; lra).
  assert (E : sqrt (1 + (y / x) * (y / x)) = r / x).
  { apply Rmult_eq_reg_r with x; [|lra]. unfold Rdiv at 3. rewrite Rmult_assoc, Rinv_l, Rmult_1_r by lra.
    rewrite <- (sqrt_square x) at 3 by lra. rewrite <- sqrt_mult_alt.
    - unfold r. f_equal. field. lra.
    - pose proof (Rle_0_sqr (y / x)). unfold Rsqr in *. lra. }
  rewrite cos_atan, sin_atan. unfold Rsqr. rewrite E. split; field; lra.
Qed.

Lemma Ratan2_polar x y : x <> 0 \/ y <> 0 ->
  let a := Ratan2 y x in let r := sqrt (x * x + y * y) in
  - PI < a <= PI /\ cos a = x / r /\ sin a = y / r.
Proof.
  intros H a r. pose proof PI_RGT_0 as HP. assert (Hr : 0 < r) by (apply sqrt_sum_pos; auto).
  unfold a, Ratan2. destruct (Rlt_dec 0 x) as [Hx|Hx].
  - destruct (atan_polar x y Hx) as [C S]. fold r in C, S. pose proof (atan_bound (y / x)). split; [lra|auto].
  - destruct (Rlt_dec x 0) as [Hx'|Hx'].
    + destruct (atan_polar (- x) (- y)) as [C S]; [lra|].
      replace (- y / - x) with (y / x) in * by (field; lra).
      replace (- x * - x + - y * - y) with (x * x + y * y) in * by ring. fold r in C, S.
      pose proof (atan_bound (y / x)) as B.
      destruct (Rle_dec 0 y) as [Hy|Hy].
      * assert (atan (y / x) <= 0).
        { destruct (Req_dec y 0) as [->|Ny]. - unfold Rdiv. rewrite Rmult_0_l, atan_0. lra.
          - rewrite <- atan_0. left. apply atan_increasing. apply Rmult_lt_reg_r with (- x); [lra|].
            replace (y / x * - x) with (- y) by (field; lra). lra. }
        split; [lra|]. rewrite neg_cos, neg_sin, C, S. split; field; lra.
      * assert (0 < atan (y / x)).
        { rewrite <- atan_0. apply atan_increasing. apply Rmult_lt_reg_r with (- x); [lra|].
            replace (y / x * - x) with (- y) by (field; lra). lra. }
        split; [lra|]. replace (atan (y / x) - PI) with (- (PI - atan (y / x))) by ring.
        rewrite cos_neg, sin_neg, Rtrigo_facts.cos_pi_minus, Rtrigo_facts.sin_pi_minus, C, S. split; field; lra.
    + assert (x = 0) by lra. assert (Hy0 : y <> 0) by (destruct H; lra).
      destruct (Rlt_dec 0 y) as [Hy|Hy].
      * assert (Er : r = y) by (unfold r; rewrite H0; rewrite Rmult_0_l, Rplus_0_l; apply sqrt_square; lra).
        rewrite cos_PI2, sin_PI2, Er, H0. split; [lra|]. split; field; lra.
      * destruct (Rlt_dec y 0); [|lra].
        assert (Er : r = - y) by (unfold r; rewrite H0; replace (0 * 0 + y * y) with (- y * - y) by ring; apply sqrt_square; lra).
        rewrite cos_neg, sin_neg, cos_PI2, sin_PI2, Er, H0. split; [lra|]. split; field; lra.
Qed.

Lemma Ratan2_00 : Ratan2 0 0 = 0.
Proof. unfold Ratan2. repeat (destruct Rlt_dec; try lra). Qed.

(** An angle in (-pi, pi] is determined by its cosine and sine. *)
Lemma angle_unique a b : - PI < a <= PI -> - PI < b <= PI -> cos a = cos b -> sin a = sin b -> a = b.
Proof.
  intros Ha Hb C S. pose proof PI_RGT_0.
  assert (K : forall u v, - PI < u <= PI -> - PI < v <= PI -> cos u = cos v -> sin u = sin v -> 0 <= u -> u = v).
  { intros u v Hu Hv Cu Su Pu. destruct (Rle_dec 0 v) as [Pv|Pv].
    - apply cos_inj; lra || auto. all: lra.
    - exfalso. assert (0 <= sin u) by (apply sin_ge_0; lra). assert (sin v < 0).
      { replace v with (- - v) by ring. rewrite sin_neg. assert (0 < sin (- v)) by (apply sin_gt_0; lra). lra. } lra. }
  destruct (Rle_dec 0 a); [apply K; auto|]. destruct (Rle_dec 0 b); [symmetry; apply K; auto|].
  assert (- a = - b); [|lra]. apply cos_inj; try lra. rewrite !cos_neg; auto.
Qed.

(** |angle| = acos of the cosine. *)
Lemma abs_angle_acos a : - PI < a <= PI -> Rabs a = acos (cos a).
Proof.
  intro H. unfold Rabs. destruct Rcase_abs.
  - rewrite <- cos_neg. rewrite acos_cos; lra.
  - rewrite acos_cos; lra.
Qed.

Lemma Ratan2_opp x y : y <> 0 -> Ratan2 (- y) x = - Ratan2 y x.
Proof.
  intro Hy. pose proof PI_RGT_0.
  destruct (Ratan2_polar x y) as (R1 & C1 & S1); [auto|]. destruct (Ratan2_polar x (- y)) as (R2 & C2 & S2); [right; lra|].
  replace (- y * - y) with (y * y) in * by ring.
  assert (Hr : 0 < sqrt (x * x + y * y)) by (apply sqrt_sum_pos; auto).
  assert (Ratan2 y x <> PI).
  { intro E. rewrite E, sin_PI in S1. apply Hy. apply (Rmult_eq_compat_r (sqrt (x * x + y * y))) in S1.
    unfold Rdiv in S1. rewrite Rmult_assoc, Rinv_l in S1; lra. }
  apply angle_unique; try lra.
  - rewrite cos_neg; lra.
  - rewrite sin_neg, S1, S2. field; lra.
Qed.

Lemma Ratan2_zero_pos x : 0 < x -> Ratan2 0 x = 0.
Proof. intro H. unfold Ratan2. destruct (Rlt_dec 0 x); [|lra]. unfold Rdiv. rewrite Rmult_0_l. apply atan_0. Qed.
Lemma Ratan2_zero_neg x : x < 0 -> Ratan2 0 x = PI.
Proof.
  intro H. unfold Ratan2. destruct (Rlt_dec 0 x); [lra|]. destruct (Rlt_dec x 0); [|lra]. destruct (Rle_dec 0 0); [|lra].
  unfold Rdiv. rewrite Rmult_0_l, atan_0. lra.
Qed.

(** ** Cross product *)
Lemma cross3_R (a b : pt) : length a = 3%nat -> length b = 3%nat -> cross3 (N:=RNum) a b = Ok (cross_spec a b).
Proof. intros Ha Hb. apply list3 in Ha as (x & y & z & ->). apply list3 in Hb as (u & v & w & ->). reflexivity. Qed.
Lemma length_cross a b : length a = 3%nat -> length b = 3%nat -> length (cross_spec a b) = 3%nat.
Proof. intros Ha Hb. apply list3 in Ha as (x & y & z & ->). apply list3 in Hb as (u & v & w & ->). reflexivity. Qed.
Lemma cross_R (a b : pt) : a <> [] -> b <> [] -> (length a <= 3)%nat -> (length b <= 3)%nat ->
  cross (N:=RNum) a b = Ok (cross_spec (pad_to 3 a) (pad_to 3 b)).
Proof.
  intros Ha Hb La Lb. unfold cross. rewrite set_dimension1_R by (auto; lia). cbn [bind].
  rewrite vector_of_R by auto. cbn [bind]. rewrite set_dimension1_R by (auto; lia). cbn [bind].
  rewrite cross3_R by (rewrite length_pad_to; lia). cbn [bind]. apply vector_of_R.
  intro E. apply (f_equal (@length R)) in E. rewrite length_cross in E by (rewrite length_pad_to; lia). discriminate.
Qed.
Lemma cross_R3 (a b : pt) : length a = 3%nat -> length b = 3%nat -> cross (N:=RNum) a b = Ok (cross_spec a b).
Proof.
  intros La Lb. rewrite cross_R; try (rewrite ?La, ?Lb; lia); try (intro E; subst; discriminate).
  rewrite !pad_to_id by lia. reflexivity.
Qed.
Lemma cross_err_l {N : Num} (a b : vec N) : (3 < length a)%nat -> exists m, cross a b = Raise (ValueError m).
Proof. intro H. unfold cross. rewrite set_dimension1_lt by lia. eexists; reflexivity. Qed.
Lemma cross_err_r (a b : pt) : a <> [] -> (3 < length b)%nat -> exists m, cross (N:=RNum) a b = Raise (ValueError m).
Proof.
  intros Ha H. destruct (Nat.lt_ge_cases 3 (length a)) as [L|L]; [apply cross_err_l; auto|].
  unfold cross. rewrite set_dimension1_R by (auto; lia). cbn [bind].
  rewrite vector_of_R by (intro E; subst; simpl in H; lia). cbn [bind]. rewrite set_dimension1_lt by (rn; lia). eexists; reflexivity.
Qed.

Ltac veq := repeat (apply (f_equal2 (@cons R)); [ring|]); reflexivity.
Ltac d3 := repeat match goal with
  | H : length ?v = 3%nat |- _ => is_var v; let x := fresh "x" in let y := fresh "y" in let z := fresh "z" in
      apply list3 in H as (x & y & z & ->)
  | H : 3%nat = length ?v |- _ => symmetry in H
  end.
Ltac d2 := repeat match goal with
  | H : length ?v = 2%nat |- _ => is_var v; let x := fresh "x" in let y := fresh "y" in
      apply list2 in H as (x & y & ->)
  end.

Lemma cross_dot_l a b : length a = 3%nat -> length b = 3%nat -> dot (cross_spec a b) a = 0.
Proof. intros. d3. simpl. ring. Qed.
Lemma cross_dot_r a b : length a = 3%nat -> length b = 3%nat -> dot (cross_spec a b) b = 0.
Proof. intros. d3. simpl. ring. Qed.
Lemma cross_anti a b : length a = 3%nat -> length b = 3%nat -> cross_spec b a = scale (-1) (cross_spec a b).
Proof. intros. d3. unfold scale. simpl. veq. Qed.
Lemma cross_add_l a b c : length a = 3%nat -> length b = 3%nat -> length c = 3%nat ->
  cross_spec (add a b) c = add (cross_spec a c) (cross_spec b c).
Proof. intros. d3. simpl. veq. Qed.
Lemma cross_add_r a b c : length a = 3%nat -> length b = 3%nat -> length c = 3%nat ->
  cross_spec c (add a b) = add (cross_spec c a) (cross_spec c b).
Proof. intros. d3. simpl. veq. Qed.
Lemma cross_scale_l s a b : length a = 3%nat -> length b = 3%nat -> cross_spec (scale s a) b = scale s (cross_spec a b).
Proof. intros. d3. unfold scale. simpl. veq. Qed.
Lemma cross_scale_r s a b : length a = 3%nat -> length b = 3%nat -> cross_spec a (scale s b) = scale s (cross_spec a b).
Proof. intros. d3. unfold scale. simpl. veq. Qed.
Lemma lagrange a b : length a = 3%nat -> length b = 3%nat ->
  dot (cross_spec a b) (cross_spec a b) = dot a a * dot b b - dot a b * dot a b.
Proof. intros. d3. simpl. ring. Qed.
Lemma triple_cyc a b c : length a = 3%nat -> length b = 3%nat -> length c = 3%nat ->
  dot (cross_spec a b) c = dot (cross_spec b c) a.
Proof. intros. d3. simpl. ring. Qed.

Lemma zero_origin n : is_zero_vec (origin n).
Proof. unfold is_zero_vec. rewrite length_origin. reflexivity. Qed.
Lemma dependent_sq a b : length a = length b -> (dependent a b <-> dot a b * dot a b = dot a a * dot b b).
Proof.
  intro L. split.
  - intros [[s ->]|[s ->]]; rewrite ?dot_scale_l, ?dot_scale_r, ?dot_scale_l; ring.
  - intro E. destruct (is_zero_vec_dec b) as [Z|Z].
    + right. exists 0. rewrite scale_0, L. exact Z.
    + left. eexists. eapply cs_eq_sq; eauto.
Qed.
Lemma dependent_sym a b : dependent a b -> dependent b a.
Proof. intros [H|H]; [right|left]; auto. Qed.
Lemma zero_dependent_l a b : length a = length b -> is_zero_vec a -> dependent a b.
Proof. intros L H. left. exists 0. rewrite scale_0, <- L. exact H. Qed.
Lemma zero_dependent_r a b : length a = length b -> is_zero_vec b -> dependent a b.
Proof. intros L H. right. exists 0. rewrite scale_0, L. exact H. Qed.
Lemma cross_zero_iff a b : length a = 3%nat -> length b = 3%nat -> (is_zero_vec (cross_spec a b) <-> dependent a b).
Proof.
  intros Ha Hb. rewrite <- dot_self_zero_iff, lagrange by auto. rewrite dependent_sq by lia. lra.
Qed.
Lemma dependent_nonzero a b : ~ is_zero_vec b -> length a = length b -> (dependent a b <-> exists s, a = scale s b).
Proof.
  intros Hb L. split; [|intro; left; auto]. intros [H|[s H]]; auto.
  destruct (Req_dec s 0) as [->|Hs].
  - exfalso. apply Hb. rewrite H, scale_0. apply zero_origin.
  - exists (/ s). rewrite H, scale_scale, Rinv_l, scale_1; auto.
Qed.

(** ** is_zero, is_perpendicular, is_parallel *)
Lemma is_zero_R (t : tol RNum) (v : pt) : tol_ok t ->
  exists r, is_zero t v = Ok r /\ (r = true <-> close (rel_tol t) (abs_tol t) (dot v v) 0).
Proof. intro H. unfold is_zero. rewrite np_dot_R by auto. cbn [bind]. rops. apply isclose_R; auto. Qed.
Lemma is_perp_R (t : tol RNum) (a b : pt) : tol_ok t -> length a = length b ->
  exists r, is_perpendicular t a b = Ok r /\ (r = true <-> close (rel_tol t) (abs_tol t) (dot a b) 0).
Proof. intros H L. unfold is_perpendicular. rewrite np_dot_R by auto. cbn [bind]. rops. apply isclose_R; auto. Qed.

Lemma zero_close_zero (t : tol RNum) v : tol_ok t -> is_zero_vec v -> close (rel_tol t) (abs_tol t) (dot v v) 0.
Proof. intros [H1 H2] Hv. rewrite (zero_dot v v Hv). apply close_refl; auto. Qed.

(** The exact decision of is_parallel, for vectors of equal length. *)
Lemma is_parallel_R (t : tol RNum) (a b : pt) : tol_ok t -> length a = length b -> a <> [] ->
  exists r, is_parallel t a b = Ok r /\
   (r = true <-> close (rel_tol t) (abs_tol t) (dot a a) 0 \/ close (rel_tol t) (abs_tol t) (dot b b) 0 \/
                 (~ is_zero_vec a /\ ~ is_zero_vec b /\ close (rel_tol t) (abs_tol t) (Rabs (cosine a b)) 1)).
Proof.
  intros Ht L Hne. assert (Hb : b <> []) by (destruct a, b; simpl in *; congruence).
  unfold is_parallel, por. destruct (is_zero_R t a Ht) as (ra & -> & Ea). cbn [bind]. destruct ra.
  { exists true. split; auto. split; auto. intros _. left. apply Ea; auto. }
  rewrite vector_of_R by auto. cbn [bind]. destruct (is_zero_R t b Ht) as (rb & -> & Eb). cbn [bind]. destruct rb.
  { exists true. split; auto. split; auto. intros _. right; left. apply Eb; auto. }
  assert (Na : ~ close (rel_tol t) (abs_tol t) (dot a a) 0) by (intro C; apply Ea in C; discriminate).
  assert (Nb : ~ close (rel_tol t) (abs_tol t) (dot b b) 0) by (intro C; apply Eb in C; discriminate).
  assert (Za : ~ is_zero_vec a) by (intro Z; apply Na; apply zero_close_zero; auto).
  assert (Zb : ~ is_zero_vec b) by (intro Z; apply Nb; apply zero_close_zero; auto).
  rewrite cosine_R by auto. cbn [bind]. rops. destruct (isclose_R t (Rabs (cosine a b)) 1 Ht) as (r & -> & E).
  exists r. split; auto. rewrite E. tauto.
Qed.
Lemma is_parallel_mismatch (t : tol RNum) (a b : pt) : tol_ok t -> length a <> length b -> a <> [] -> b <> [] ->
  ~ close (rel_tol t) (abs_tol t) (dot a a) 0 -> ~ close (rel_tol t) (abs_tol t) (dot b b) 0 ->
  is_parallel t a b = Raise err_aligned.
Proof.
  intros Ht L Hae Hbe Na Nb. unfold is_parallel, por.
  destruct (is_zero_R t a Ht) as (ra & -> & Ea). cbn [bind]. destruct ra; [exfalso; tauto|].
  rewrite vector_of_R by auto. cbn [bind]. destruct (is_zero_R t b Ht) as (rb & -> & Eb). cbn [bind]. destruct rb; [exfalso; tauto|].
  rewrite cosine_R_mismatch; auto; intro Z; [apply Na|apply Nb]; apply zero_close_zero; auto.
Qed.

Lemma dependent_abs_cosine a b : length a = length b -> ~ is_zero_vec a -> ~ is_zero_vec b -> dependent a b ->
  Rabs (cosine a b) = 1.
Proof.
  intros L Ha Hb D. apply dependent_nonzero in D as [s Hs]; auto.
  assert (s <> 0). { intro; subst s. apply Ha. rewrite Hs, scale_0. apply zero_origin. }
  destruct (Rlt_dec 0 s).
  - replace (cosine a b) with 1. { apply Rabs_R1. } symmetry. rewrite cosine_comm. apply cosine_one; auto. eauto.
  - replace (cosine a b) with (-1). { rewrite <- Rabs_Ropp, Rabs_pos_eq; lra. } symmetry. rewrite cosine_comm. apply cosine_mone; auto.
    exists s; split; auto; lra.
Qed.
Lemma abs_cosine_dependent a b : length a = length b -> ~ is_zero_vec a -> ~ is_zero_vec b -> Rabs (cosine a b) = 1 -> dependent a b.
Proof.
  intros L Ha Hb E. left. apply cosine_sq1; auto. rewrite <- (Rabs_sqr_id (cosine a b)) || idtac.
  replace (cosine a b * cosine a b) with (Rabs (cosine a b) * Rabs (cosine a b)) by (unfold Rabs; destruct Rcase_abs; ring).
  rewrite E. ring.
Qed.
Lemma is_parallel_dependent (t : tol RNum) (a b : pt) : tol_ok t -> length a = length b -> a <> [] -> dependent a b ->
  is_parallel t a b = Ok true.
Proof.
  intros Ht L Hne D. destruct (is_parallel_R t a b Ht L Hne) as (r & -> & E). f_equal. apply E.
  destruct (is_zero_vec_dec a); [left; apply zero_close_zero; auto|].
  destruct (is_zero_vec_dec b); [right; left; apply zero_close_zero; auto|].
  right; right. split; auto; split; auto. rewrite dependent_abs_cosine by auto. destruct Ht; apply close_refl; auto.
Qed.
Lemma is_parallel_exact (t : tol RNum) (a b : pt) : rel_tol t = 0 -> abs_tol t = 0 -> length a = length b -> a <> [] ->
  is_parallel t a b = Ok true -> dependent a b.
Proof.
  intros E1 E2 L Hne H. assert (Ht : tol_ok t) by (split; rewrite ?E1, ?E2; lra).
  destruct (is_parallel_R t a b Ht L Hne) as (r & Hr & E). rewrite Hr in H. injection H as ->.
  rewrite E1, E2 in E. destruct E as [E _]. destruct (E eq_refl) as [C|[C|(Ha & Hb & C)]]; apply close_exact in C.
  - apply zero_dependent_l; auto. apply dot_self_zero; auto.
  - apply zero_dependent_r; auto. apply dot_self_zero; auto.
  - apply abs_cosine_dependent; auto.
Qed.
Lemma close_default_one c : 0 <= c <= 1 -> (close rel_default 0 c 1 <-> 1 - rel_default <= c).
Proof.
  intro H. pose proof rel_default_bounds. unfold close. rewrite Rabs_R1, (Rabs_pos_eq c) by lra.
  rewrite (Rmax_right c 1) by lra. rewrite Rmax_left by lra. rewrite Rabs_minus_sym, Rabs_pos_eq by lra. lra.
Qed.
Lemma is_parallel_default (a b : pt) : length a = length b -> a <> [] ->
  exists r, is_parallel (N:=RNum) tol_default a b = Ok r /\
    (r = true <-> is_zero_vec a \/ is_zero_vec b \/ (~ is_zero_vec a /\ ~ is_zero_vec b /\ 1 - rel_default <= Rabs (cosine a b))).
Proof.
  intros L Hne. destruct (is_parallel_R tol_default a b tol_default_ok L Hne) as (r & -> & E). exists r. split; auto.
  rewrite E, rel_default_eq, abs_default_eq. rewrite !close_default_zero, !dot_self_zero_iff.
  split; (intros [H|[H|(Ha & Hb & H)]]; [auto|auto|right; right; split; auto; split; auto]).
  - apply close_default_one in H; auto. split; [apply Rabs_pos|]. pose proof (cosine_bounds a b L Ha Hb). apply Rabs_le; lra.
  - apply close_default_one; auto. split; [apply Rabs_pos|]. pose proof (cosine_bounds a b L Ha Hb). apply Rabs_le; lra.
Qed.
