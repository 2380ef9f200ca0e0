(** * Properties C13-C18: objects/vector.py, continued *)
From Coq Require Import String Reals List ZArith Lra Lia Psatz Bool.
From Verif.Model Require Import Outcome Num Instances Numpy BaseArray Vector Points Line.
From Verif.Spec Require Import Geometry Tolerance.
From Verif.Proof Require Import VecAlg Bridge Arrays Vectors.
Import ListNotations.
Local Open Scope R_scope.

Lemma nz34 : ~ is_zero_vec [3; 4]. Proof. intro H. inversion H. lra. Qed.
Lemma nz10 : ~ is_zero_vec [1; 0]. Proof. intro H. inversion H. lra. Qed.
Lemma len34 : len [3; 4] = 5. Proof. apply len_eq_val; simpl; lra. Qed.
Lemma len10 : len [1; 0] = 1. Proof. apply len_eq_val; simpl; lra. Qed.

(** ** C13  angle_signed *)
(** Counter-clockwise rotation of the plane by the angle th. *)
Definition rotate2 (th x y : R) : pt := [x * cos th - y * sin th; x * sin th + y * cos th].

Lemma nz2 x y : ~ is_zero_vec [x; y] <-> x <> 0 \/ y <> 0.
Proof.
  split.
  - intro H. destruct (Req_dec x 0); auto. right. intro. apply H. subst. reflexivity.
  - intros H Z. inversion Z. subst. destruct H; auto.
Qed.
Lemma len2 x y : len [x; y] = sqrt (x * x + y * y).
Proof. unfold len. f_equal. simpl. ring. Qed.
Lemma angle_signed_R (x1 y1 x2 y2 : R) :
  angle_signed (N:=RNum) RTrig [x1; y1] [x2; y2] = Ok (Ratan2 (x1 * y2 - y1 * x2) (x1 * x2 + y1 * y2)).
Proof.
  unfold angle_signed. rewrite vector_of_R by discriminate. cbn [bind dim1 length Nat.eqb andb negb].
  rewrite np_dot_R by reflexivity. cbn [bind]. simpl. do 2 f_equal; ring.
Qed.
Lemma det_dot_len x1 y1 x2 y2 :
  (x1 * x2 + y1 * y2) * (x1 * x2 + y1 * y2) + (x1 * y2 - y1 * x2) * (x1 * y2 - y1 * x2) =
  (len [x1; y1] * len [x2; y2]) * (len [x1; y1] * len [x2; y2]).
Proof.
  replace ((len [x1; y1] * len [x2; y2]) * (len [x1; y1] * len [x2; y2])) with
    ((len [x1; y1] * len [x1; y1]) * (len [x2; y2] * len [x2; y2])) by ring. rewrite !len_sq. simpl. ring.
Qed.
Lemma angle_signed_polar x1 y1 x2 y2 : ~ is_zero_vec [x1; y1] -> ~ is_zero_vec [x2; y2] ->
  let th := Ratan2 (x1 * y2 - y1 * x2) (x1 * x2 + y1 * y2) in
  let m := len [x1; y1] * len [x2; y2] in
  0 < m /\ - PI < th <= PI /\ cos th = (x1 * x2 + y1 * y2) / m /\ sin th = (x1 * y2 - y1 * x2) / m.
Proof.
  intros H1 H2 th m. pose proof (len_prod_pos _ _ H1 H2) as P. fold m in P. split; auto.
  pose proof (det_dot_len x1 y1 x2 y2) as D. fold m in D.
  destruct (Ratan2_polar (x1 * x2 + y1 * y2) (x1 * y2 - y1 * x2)) as (A & B & C).
  { destruct (Req_dec (x1 * x2 + y1 * y2) 0) as [E|E]; auto. right. intro E'. rewrite E, E' in D. nra. }
  rewrite D, sqrt_square in B, C by lra. auto.
Qed.

Theorem C13_angle_signed : forall x1 y1 x2 y2 : R, ~ is_zero_vec [x1; y1] -> ~ is_zero_vec [x2; y2] ->
  exists th, angle_signed (N:=RNum) RTrig [x1; y1] [x2; y2] = Ok th /\ - PI < th <= PI /\
    [x2; y2] = scale (len [x2; y2] / len [x1; y1]) (rotate2 th x1 y1) /\
    angle_between (N:=RNum) RTrig [x1; y1] [x2; y2] = Ok (Rabs th) /\
    (th <> PI -> angle_signed (N:=RNum) RTrig [x2; y2] [x1; y1] = Ok (- th)) /\
    (th = PI -> angle_signed (N:=RNum) RTrig [x2; y2] [x1; y1] = Ok PI).
Proof.
  intros x1 y1 x2 y2 H1 H2. exists (Ratan2 (x1 * y2 - y1 * x2) (x1 * x2 + y1 * y2)).
  destruct (angle_signed_polar x1 y1 x2 y2 H1 H2) as (P & Rg & C & S). cbv zeta in C, S.
  pose proof (len_pos _ H1) as P1. pose proof (len_pos _ H2) as P2.
  assert (Q : len [x1; y1] * len [x1; y1] = x1 * x1 + y1 * y1) by (rewrite len_sq; simpl; ring).
  rewrite !angle_signed_R. split; auto. split; auto. split.
  { unfold rotate2, scale. cbn [map]. rewrite C, S.
    apply (f_equal2 (@cons R)); [|apply (f_equal2 (@cons R)); [|reflexivity]].
    - apply Rmult_eq_reg_r with (len [x1; y1] * len [x1; y1]); [|nra]. rewrite Q at 1. field. lra.
    - apply Rmult_eq_reg_r with (len [x1; y1] * len [x1; y1]); [|nra]. rewrite Q at 1. field. lra. }
  split. { rewrite angle_R by auto. rewrite abs_angle_acos by auto. rewrite C. unfold cosine. simpl dot. do 3 f_equal. ring. }
  destruct (angle_signed_polar x2 y2 x1 y1 H2 H1) as (P' & R' & C' & S'). cbv zeta in C', S'.
  split; intro E.
  - f_equal. apply angle_unique; auto; try lra.
    + rewrite cos_neg, C, C'. f_equal; ring.
    + rewrite sin_neg, S, S'. rewrite (Rmult_comm (len [x2; y2])). field. lra.
  - f_equal. apply angle_unique; auto; [split; [pose proof PI_RGT_0; lra|lra]|..].
    + rewrite <- E, C, C'. f_equal; ring.
    + rewrite E, sin_PI in S. rewrite sin_PI, S'. rewrite (Rmult_comm (len [x2; y2])).
      replace (x2 * y1 - y2 * x1) with (- (x1 * y2 - y1 * x2)) by ring. unfold Rdiv in *. lra.
Qed.
Print Assumptions C13_angle_signed.

Theorem C13_angle_signed_rejects : forall a b : pt, a <> [] -> b <> [] -> length a <> 2%nat \/ length b <> 2%nat ->
  angle_signed (N:=RNum) RTrig a b = Raise (ValueError "The vectors must be 2D.").
Proof.
  intros a b Ha Hb H. unfold angle_signed. rewrite vector_of_R by auto. cbn [bind]. unfold dim1. rn.
  destruct (Nat.eqb_spec (length a) 2), (Nat.eqb_spec (length b) 2); simpl; auto. destruct H; contradiction.
Qed.
Print Assumptions C13_angle_signed_rejects.

(** Zero vectors are not rejected (angle_between does reject them). *)
Theorem C13_zero_vector_raises_refuted : forall x y : R,
  angle_signed (N:=RNum) RTrig [0; 0] [x; y] = Ok 0 /\ angle_signed (N:=RNum) RTrig [x; y] [0; 0] = Ok 0.
Proof.
  intros. rewrite !angle_signed_R. replace (0 * y - 0 * x) with 0 by ring. replace (0 * x + 0 * y) with 0 by ring.
  replace (x * 0 - y * 0) with 0 by ring. replace (x * 0 + y * 0) with 0 by ring. rewrite Ratan2_00. split; reflexivity.
Qed.
Print Assumptions C13_zero_vector_raises_refuted.

Example C13_nonvacuous : angle_signed (N:=RNum) RTrig [1; 0] [0; -1] = Ok (- (PI / 2)).
Proof.
  rewrite angle_signed_R. replace (1 * -1 - 0 * 0) with (-1) by ring. replace (1 * 0 + 0 * -1) with 0 by ring.
  f_equal. unfold Ratan2. repeat (destruct Rlt_dec; try lra).
Qed.

(** ** C14  angle_signed_3d *)
Lemma angle_signed_3d_R (a b d : pt) : length a = 3%nat -> length b = 3%nat -> length d = 3%nat ->
  ~ is_zero_vec d -> is_parallel (N:=RNum) tol_default (cross_spec a b) d = Ok true ->
  angle_signed_3d (N:=RNum) RTrig a b d = Ok (Ratan2 (dot (cross_spec a b) d / len d) (dot a b)).
Proof.
  intros La Lb Ld Hd P. unfold angle_signed_3d.
  rewrite !vector_of_R by (intro E; subst; discriminate). cbn [bind]. unfold dim1. rn. rewrite La, Lb, Ld. cbn [Nat.eqb andb negb].
  rewrite cross_R3 by auto. cbn [bind]. rewrite P. cbn [bind negb]. rewrite unit_R by auto. cbn [bind].
  rewrite np_dot_R by (rewrite length_cross by auto; len). cbn [bind]. rewrite np_dot_R by congruence. cbn [bind].
  rewrite dot_scale_r. simpl. do 2 f_equal. unfold Rdiv. ring.
Qed.

(** When the reference direction is exactly along the normal of the two vectors. *)
Theorem C14_angle_signed_3d : forall (a b d : pt),
  length a = 3%nat -> length b = 3%nat -> length d = 3%nat ->
  ~ is_zero_vec a -> ~ is_zero_vec b -> ~ is_zero_vec d -> dependent (cross_spec a b) d ->
  exists th, angle_signed_3d (N:=RNum) RTrig a b d = Ok th /\ - PI < th <= PI /\
    angle_between (N:=RNum) RTrig a b = Ok (Rabs th) /\
    (0 < dot (cross_spec a b) d -> 0 < th) /\ (dot (cross_spec a b) d < 0 -> th < 0) /\
    (~ dependent a b -> angle_signed_3d (N:=RNum) RTrig a b (scale (-1) d) = Ok (- th)).
Proof.
  intros a b d La Lb Ld Ha Hb Hd D. pose proof (length_cross a b La Lb) as Lc.
  assert (Hc : cross_spec a b <> []) by (intro E; rewrite E in Lc; discriminate).
  pose proof (len_pos d Hd) as Pd. pose proof (len_prod_pos a b Ha Hb) as P.
  exists (Ratan2 (dot (cross_spec a b) d / len d) (dot a b)).
  rewrite angle_signed_3d_R; auto. 2: apply is_parallel_dependent; auto using tol_default_ok; congruence.
  set (y := dot (cross_spec a b) d / len d).
  assert (Y : y * y = dot a a * dot b b - dot a b * dot a b).
  { rewrite <- lagrange by auto. apply dependent_sq in D; [|congruence]. unfold y.
    replace (dot (cross_spec a b) d / len d * (dot (cross_spec a b) d / len d)) with
      (dot (cross_spec a b) d * dot (cross_spec a b) d / (len d * len d)) by (field; lra).
    rewrite D, len_sq. field. intro E. apply dot_self_zero in E. contradiction. }
  assert (S : dot a b * dot a b + y * y = (len a * len b) * (len a * len b)).
  { rewrite Y. replace ((len a * len b) * (len a * len b)) with ((len a * len a) * (len b * len b)) by ring. rewrite !len_sq. ring. }
  destruct (Ratan2_polar (dot a b) y) as (Rg & C & Sn).
  { destruct (Req_dec (dot a b) 0) as [E|E]; auto. right. intro E'. rewrite E, E' in S. nra. }
  rewrite S, sqrt_square in C, Sn by lra.
  split; auto. split; auto. split.
  { rewrite angle_R by (auto; congruence). rewrite abs_angle_acos by auto. rewrite C. reflexivity. }
  pose proof PI_RGT_0.
  split; [|split].
  - intro Hpos. assert (0 < y) by (unfold y; apply Rdiv_lt_0_compat; auto).
    assert (0 < sin (Ratan2 y (dot a b))) by (rewrite Sn; apply Rdiv_lt_0_compat; auto).
    destruct (Rlt_dec 0 (Ratan2 y (dot a b))); auto. exfalso.
    assert (0 <= sin (- Ratan2 y (dot a b))) by (apply sin_ge_0; lra). rewrite sin_neg in *. lra.
  - intro Hneg. assert (y < 0). { unfold y. replace (dot (cross_spec a b) d / len d) with (- (- dot (cross_spec a b) d / len d)) by (field; lra).
      assert (0 < - dot (cross_spec a b) d / len d) by (apply Rdiv_lt_0_compat; lra). lra. }
    assert (sin (Ratan2 y (dot a b)) < 0). { rewrite Sn. replace (y / (len a * len b)) with (- (- y / (len a * len b))).
      - assert (0 < - y / (len a * len b)) by (apply Rdiv_lt_0_compat; lra). lra.
      - unfold Rdiv. ring. }
    destruct (Rlt_dec (Ratan2 y (dot a b)) 0); auto. exfalso.
    assert (0 <= sin (Ratan2 y (dot a b))) by (apply sin_ge_0; lra). lra.
  - intro Ni. assert (Hnd : ~ is_zero_vec (scale (-1) d)) by (apply scale_nonzero; auto; lra).
    rewrite angle_signed_3d_R; auto; [|len|].
    + rewrite dot_scale_r, len_scale. replace (Rabs (-1)) with 1 by (unfold Rabs; destruct Rcase_abs; lra).
      replace (-1 * dot (cross_spec a b) d / (1 * len d)) with (- y) by (unfold y; field; lra).
      f_equal. apply Ratan2_opp. intro E. apply Ni. apply dependent_sq; [congruence|]. rewrite E in Y. lra.
    + apply is_parallel_dependent; auto using tol_default_ok; [rewrite Lc; len|].
      apply dependent_nonzero in D as [s Hs]; auto; [|congruence]. left. exists (- s). rewrite Hs, scale_scale. f_equal. ring.
Qed.
Print Assumptions C14_angle_signed_3d.

Theorem C14_rejects : forall a b d : pt, a <> [] -> b <> [] -> d <> [] ->
  (length a <> 3%nat \/ length b <> 3%nat \/ length d <> 3%nat ->
     angle_signed_3d (N:=RNum) RTrig a b d = Raise (ValueError "The vectors must be 3D.")) /\
  (length a = 3%nat -> length b = 3%nat -> length d = 3%nat ->
    is_parallel (N:=RNum) tol_default (cross_spec a b) d = Ok false ->
     exists m, angle_signed_3d (N:=RNum) RTrig a b d = Raise (ValueError m)) /\
  (length a = 3%nat -> length b = 3%nat -> length d = 3%nat -> is_zero_vec d ->
     exists m, angle_signed_3d (N:=RNum) RTrig a b d = Raise (ValueError m)) /\
  (forall th, angle_signed_3d (N:=RNum) RTrig a b d = Ok th ->
     length a = 3%nat /\ length b = 3%nat /\ length d = 3%nat /\ ~ is_zero_vec d /\
     is_parallel (N:=RNum) tol_default (cross_spec a b) d = Ok true).
Proof.
  intros a b d Ha Hb Hd.
  assert (K : length a <> 3%nat \/ length b <> 3%nat \/ length d <> 3%nat ->
     angle_signed_3d (N:=RNum) RTrig a b d = Raise (ValueError "The vectors must be 3D.")).
  { intro H. unfold angle_signed_3d. rewrite !vector_of_R by auto. cbn [bind]. unfold dim1. rn.
    destruct (Nat.eqb_spec (length a) 3), (Nat.eqb_spec (length b) 3), (Nat.eqb_spec (length d) 3); simpl; auto. tauto. }
  assert (K2 : length a = 3%nat -> length b = 3%nat -> length d = 3%nat ->
    is_parallel (N:=RNum) tol_default (cross_spec a b) d = Ok false ->
     exists m, angle_signed_3d (N:=RNum) RTrig a b d = Raise (ValueError m)).
  { intros La Lb Ld P. unfold angle_signed_3d. rewrite !vector_of_R by auto. cbn [bind]. unfold dim1. rn. rewrite La, Lb, Ld. cbn [Nat.eqb andb negb].
    rewrite cross_R3 by auto. cbn [bind]. rewrite P. cbn [bind negb]. eexists; reflexivity. }
  assert (K3 : length a = 3%nat -> length b = 3%nat -> length d = 3%nat -> is_zero_vec d ->
     exists m, angle_signed_3d (N:=RNum) RTrig a b d = Raise (ValueError m)).
  { intros La Lb Ld Z. unfold angle_signed_3d. rewrite !vector_of_R by auto. cbn [bind]. unfold dim1. rn. rewrite La, Lb, Ld. cbn [Nat.eqb andb negb].
    rewrite cross_R3 by auto. cbn [bind]. rewrite is_parallel_dependent; auto using tol_default_ok.
    - cbn [bind negb]. rewrite unit_R_zero by auto. eexists; reflexivity.
    - rewrite length_cross; auto.
    - intro E. pose proof (length_cross a b La Lb) as Lc. rewrite E in Lc. discriminate.
    - apply zero_dependent_r; auto. rewrite length_cross; auto. }
  split; auto. split; auto. split; auto. intros th H.
  destruct (Nat.eq_dec (length a) 3) as [La|La]; [|rewrite K in H by auto; discriminate].
  destruct (Nat.eq_dec (length b) 3) as [Lb|Lb]; [|rewrite K in H by auto; discriminate].
  destruct (Nat.eq_dec (length d) 3) as [Ld|Ld]; [|rewrite K in H by auto; discriminate].
  destruct (is_zero_vec_dec d) as [Z|Z]. { destruct K3 as [m E]; auto. rewrite E in H. discriminate. }
  split; auto. split; auto. split; auto. split; auto.
  pose proof (length_cross a b La Lb) as Lc.
  destruct (is_parallel_default (cross_spec a b) d) as (r & E & _); [congruence|intro E; rewrite E in Lc; discriminate|].
  destruct r; auto. destruct K2 as [m E']; auto. rewrite E' in H. discriminate.
Qed.
Print Assumptions C14_rejects.

Example C14_nonvacuous : angle_signed_3d (N:=RNum) RTrig [1; 0; 0] [0; 1; 0] [0; 0; -2] = Ok (- (PI / 2)).
Proof.
  assert (~ is_zero_vec [0; 0; -2]) by (intro H; inversion H; lra).
  rewrite angle_signed_3d_R; auto.
  - assert (E : len [0; 0; -2] = 2) by (apply len_eq_val; simpl; lra). rewrite E. simpl. f_equal.
    unfold Ratan2. repeat (destruct Rlt_dec; try lra).
  - apply is_parallel_dependent; auto using tol_default_ok; [discriminate|]. left. exists (- (1/2)). unfold scale. simpl.
    apply (f_equal2 (@cons R)); [lra|]. apply (f_equal2 (@cons R)); [lra|]. apply (f_equal2 (@cons R)); [lra|reflexivity].
Qed.

(** ** C15  is_parallel *)
Theorem C15_parallel_complete : forall (t : tol RNum) (a b : pt), 0 <= rel_tol t -> 0 <= abs_tol t ->
  length a = length b -> a <> [] -> dependent a b -> is_parallel t a b = Ok true.
Proof. intros. apply is_parallel_dependent; auto. split; auto. Qed.
Print Assumptions C15_parallel_complete.

Theorem C15_parallel_zero_tolerance : forall a b : pt, length a = length b -> a <> [] ->
  (is_parallel (MkTol (N:=RNum) 0 0) a b = Ok true <-> dependent a b).
Proof.
  intros a b L Hne. split.
  - apply is_parallel_exact; auto.
  - apply C15_parallel_complete; simpl; auto; lra.
Qed.
Print Assumptions C15_parallel_zero_tolerance.

(** The exact decision at the default tolerance (rel_default is the double 1e-9). *)
Theorem C15_parallel_default : forall a b : pt, length a = length b -> ~ is_zero_vec a -> ~ is_zero_vec b ->
  exists r, is_parallel (N:=RNum) tol_default a b = Ok r /\
    (r = true <-> (1 - rel_default) * (len a * len b) <= Rabs (dot a b)).
Proof.
  intros a b L Ha Hb. destruct (is_parallel_default a b L (nonzero_ne a Ha)) as (r & -> & E). exists r. split; auto.
  assert (D : Rabs (dot a b) = Rabs (cosine a b) * (len a * len b)).
  { rewrite (cosine_dot a b) at 1 by auto. rewrite Rabs_mult. rewrite (Rabs_pos_eq (len a * len b)); auto.
    left; apply len_prod_pos; auto. }
  rewrite E, D. pose proof (len_prod_pos a b Ha Hb). split.
  - intros [Z|[Z|(_ & _ & Z)]]; try contradiction. apply Rmult_le_compat_r; lra.
  - intro Z. right; right. split; auto. split; auto. apply Rmult_le_reg_r in Z; auto.
Qed.
Print Assumptions C15_parallel_default.

Lemma acos_small c : 1 - rel_default <= c <= 1 -> acos c <= 45 / 1000000.
Proof.
  intros [H1 H2]. destruct (Rle_dec (acos c) (45/1000000)) as [|N]; auto. exfalso. apply Rnot_le_lt in N.
  assert (HP : 3 < PI) by (pose proof PI2_1; pose proof PI2_3_2; lra).
  assert (B := acos_bound c).
  assert (RD : 0 < rel_default < 1001 / 1000000000000) by (unfold rel_default; split; lra).
  assert (C : cos (acos c) < cos (45/1000000)) by (apply cos_decreasing_1; lra).
  rewrite cos_acos in C by lra.
  assert (U : cos (45/1000000) <= 1 - (45/1000000)^2 / 2 + (45/1000000)^4 / 24).
  { destruct (cos_bound (45/1000000) 0) as [_ U]; try lra. eapply Rle_trans; [exact U|].
    unfold cos_approx, cos_term. simpl. lra. }
  lra.
Qed.

(** A True answer means an angle within 4.5e-5 rad of 0 or pi. *)
Theorem C15_parallel_default_angle : forall a b : pt, length a = length b -> ~ is_zero_vec a -> ~ is_zero_vec b ->
  is_parallel (N:=RNum) tol_default a b = Ok true ->
  exists th, angle_between (N:=RNum) RTrig a b = Ok th /\ (th <= 45 / 1000000 \/ PI - 45 / 1000000 <= th).
Proof.
  intros a b L Ha Hb H. exists (acos (cosine a b)). rewrite angle_R by auto. split; auto.
  destruct (is_parallel_default a b L (nonzero_ne a Ha)) as (r & Hr & E). rewrite Hr in H. injection H as ->.
  destruct E as [E _]. destruct (E eq_refl) as [Z|[Z|(_ & _ & Z)]]; try contradiction.
  pose proof (cosine_bounds a b L Ha Hb) as B. revert Z. unfold Rabs. destruct Rcase_abs; intro Z.
  - right. assert (K : acos (- cosine a b) <= 45 / 1000000) by (apply acos_small; lra). rewrite acos_opp in K. lra.
  - left. apply acos_small; lra.
Qed.
Print Assumptions C15_parallel_default_angle.

Theorem C15_parallel_symmetric : forall (t : tol RNum) (a b : pt), 0 <= rel_tol t -> 0 <= abs_tol t ->
  length a = length b -> a <> [] -> is_parallel t a b = is_parallel t b a.
Proof.
  intros t a b H1 H2 L Hne. assert (Ht : tol_ok t) by (split; auto). assert (Hb : b <> []) by (destruct a, b; simpl in *; congruence).
  destruct (is_parallel_R t a b Ht L Hne) as (r & -> & E). destruct (is_parallel_R t b a Ht (eq_sym L) Hb) as (r' & -> & E').
  f_equal. apply eq_true_iff_eq. rewrite E, E', (cosine_comm b a). tauto.
Qed.
Print Assumptions C15_parallel_symmetric.

(** Unequal dimensions raise when neither vector is zero; a zero vector of any dimension is "parallel". *)
Theorem C15_parallel_mismatch : forall a b : pt, a <> [] -> b <> [] -> length a <> length b ->
  (~ is_zero_vec a -> ~ is_zero_vec b -> exists m, is_parallel (N:=RNum) tol_default a b = Raise (ValueError m)) /\
  (is_zero_vec a \/ is_zero_vec b -> is_parallel (N:=RNum) tol_default a b = Ok true).
Proof.
  intros a b Ha Hb L. split.
  - intros Za Zb. rewrite is_parallel_mismatch; auto using tol_default_ok; [eexists; reflexivity|..];
      rewrite rel_default_eq, abs_default_eq, close_default_zero, dot_self_zero_iff; auto.
  - intro Z. unfold is_parallel, por. rewrite vector_of_R by auto. rewrite !is_zero_default. cbn [bind]. rewrite is_zero_default.
    destruct (is_zero_vec_dec a); cbn [bind]; auto. destruct (is_zero_vec_dec b); cbn [bind]; auto. tauto.
Qed.
Print Assumptions C15_parallel_mismatch.

Example C15_nonvacuous : is_parallel (N:=RNum) tol_default [1; 2; 3] [-2; -4; -6] = Ok true /\
  is_parallel (N:=RNum) tol_default [3; 4] [1; 0] = Ok false.
Proof.
  split.
  - apply C15_parallel_complete; try apply tol_default_ok; auto; [discriminate|]. right. exists (-2). unfold scale. simpl. veq.
  - destruct (C15_parallel_default [3; 4] [1; 0]) as (r & E & H); auto using nz34, nz10. rewrite E. destruct r; auto.
    exfalso. assert (K := proj1 H eq_refl). rewrite len34, len10 in K. simpl dot in K. rewrite Rabs_pos_eq in K by lra.
    pose proof rel_default_bounds. lra.
Qed.

(** ** C16  side_vector, Line.side_point *)
Lemma nsign_R x : (x < 0 /\ nsign (N:=RNum) x = (-1)%Z) \/ (0 < x /\ nsign (N:=RNum) x = 1%Z) \/ (x = 0 /\ nsign (N:=RNum) x = 0%Z).
Proof. unfold nsign. rops. rb; auto; right; right; split; auto; lra. Qed.
Lemma side_vector_R x1 y1 x2 y2 : side_vector (N:=RNum) [x1; y1] [x2; y2] = Ok (nsign (N:=RNum) (x2 * y1 - y2 * x1)).
Proof.
  unfold side_vector. rewrite vector_of_R by discriminate. cbn [bind dim1 length Nat.eqb negb orb].
  rewrite !set_dimension1_R by (try discriminate; simpl; lia). cbn [bind]. rewrite cross3_R by reflexivity. cbn [bind]. rewrite int_sign_R. reflexivity.
Qed.

(** [x1*y2 - y1*x2 < 0] : other is clockwise of self. *)
Theorem C16_side_vector : forall x1 y1 x2 y2 : R,
  exists s, side_vector (N:=RNum) [x1; y1] [x2; y2] = Ok s /\
    (s = 1%Z <-> x1 * y2 - y1 * x2 < 0) /\ (s = (-1)%Z <-> 0 < x1 * y2 - y1 * x2) /\
    (s = 0%Z <-> dependent [x1; y1] [x2; y2]) /\ (s = 1 \/ s = -1 \/ s = 0)%Z /\
    side_vector (N:=RNum) [x2; y2] [x1; y1] = Ok (- s)%Z.
Proof.
  intros. rewrite !side_vector_R. eexists; split; [reflexivity|].
  assert (D : dependent [x1; y1] [x2; y2] <-> x1 * y2 - y1 * x2 = 0).
  { rewrite dependent_sq by reflexivity. simpl. split; intro H.
    - assert ((x1 * y2 - y1 * x2) * (x1 * y2 - y1 * x2) = 0) by lra. nra.
    - assert (E : x1 * y2 = y1 * x2) by lra. 
      assert ((x1 * y2 - y1 * x2) * (x1 * y2 - y1 * x2) = 0) by (rewrite H; ring). lra. }
  rewrite D. destruct (nsign_R (x2 * y1 - y2 * x1)) as [[H ->]|[[H ->]|[H ->]]];
  destruct (nsign_R (x1 * y2 - y1 * x2)) as [[H' ->]|[[H' ->]|[H' ->]]]; try lra;
  (split; [split; [lia||lra|lia||lra]|]; split; [split; [lia||lra|lia||lra]|]; split; [split; [lia||lra|lia||lra]|]; split; [tauto|reflexivity]).
Qed.
Print Assumptions C16_side_vector.

(** Consistency with angle_signed: the side is +1 exactly for negative (clockwise) angles. *)
Theorem C16_side_vector_angle : forall x1 y1 x2 y2 : R, ~ is_zero_vec [x1; y1] -> ~ is_zero_vec [x2; y2] ->
  exists s th, side_vector (N:=RNum) [x1; y1] [x2; y2] = Ok s /\ angle_signed (N:=RNum) RTrig [x1; y1] [x2; y2] = Ok th /\
    (s = 1%Z <-> th < 0) /\ (s = (-1)%Z <-> 0 < th < PI) /\ (s = 0%Z <-> th = 0 \/ th = PI).
Proof.
  intros x1 y1 x2 y2 H1 H2. rewrite side_vector_R, angle_signed_R. do 2 eexists. split; [reflexivity|]. split; [reflexivity|].
  destruct (angle_signed_polar x1 y1 x2 y2 H1 H2) as (P & Rg & C & S). cbv zeta in C, S. set (th := Ratan2 _ _) in *.
  pose proof PI_RGT_0.
  assert (S' : x1 * y2 - y1 * x2 = sin th * (len [x1; y1] * len [x2; y2])).
  { rewrite S. pose proof (len_pos _ H1). pose proof (len_pos _ H2). field. lra. }
  assert (T : (th < 0 /\ sin th < 0) \/ (th = 0 /\ sin th = 0) \/ (0 < th < PI /\ 0 < sin th) \/ (th = PI /\ sin th = 0)).
  { destruct (Rtotal_order th 0) as [T|[T|T]].
    - left. split; auto. assert (0 < sin (- th)) by (apply sin_gt_0; lra). rewrite sin_neg in *. lra.
    - right; left. rewrite T, sin_0. auto.
    - right; right. destruct (Req_dec th PI) as [E|E]; [right; rewrite E, sin_PI; auto|]. left. split; [lra|]. apply sin_gt_0; lra. }
  destruct (nsign_R (x2 * y1 - y2 * x1)) as [[H' ->]|[[H' ->]|[H' ->]]]; destruct T as [[T T']|[[T T']|[[T T']|[T T']]]];
   try (exfalso; nra);
   (split; [split; [lia||lra|lia||lra]|]; split; [split; [lia||lra|lia||lra]|]; split; [lia||lra|lia||lra]).
Qed.
Print Assumptions C16_side_vector_angle.

Theorem C16_side_vector_rejects : forall a b : pt, a <> [] -> b <> [] -> length a <> 2%nat \/ length b <> 2%nat ->
  side_vector (N:=RNum) a b = Raise (ValueError "The vectors must be 2D.").
Proof.
  intros a b Ha Hb H. unfold side_vector. rewrite vector_of_R by auto. cbn [bind]. unfold dim1. rn.
  destruct (Nat.eqb_spec (length a) 2), (Nat.eqb_spec (length b) 2); simpl; auto. tauto.
Qed.
Print Assumptions C16_side_vector_rejects.

Theorem C16_line_side_point : forall (p d q : pt) (l : line RNum), length q = 2%nat -> length d = 2%nat ->
  line_new (N:=RNum) p d = Ok l ->
  exists s v, line_side_point l q = Ok s /\ from_points (N:=RNum) p q = Ok v /\ side_vector (N:=RNum) d v = Ok s /\
    (s = 0%Z <-> on_line p d q) /\
    (* any other base point of the same line gives the same answer *)
    (forall t l', line_new (N:=RNum) (add p (scale t d)) d = Ok l' -> line_side_point l' q = Ok s).
Proof.
  intros p d q l Lq Ld Hl. apply line_new_inv in Hl as (-> & Lp & Hd & Hp). unfold line_side_point. cbn [l_point l_dir].
  rewrite from_points_R by (auto; congruence). cbn [bind].
  rewrite Ld in Lp. d2. simpl sub. rewrite side_vector_R. do 2 eexists. split; [reflexivity|]. split; [reflexivity|].
  split; [apply side_vector_R|]. split.
  - match goal with |- nsign ?e = _ <-> _ => destruct (nsign_R e) as [[H' ->]|[[H' ->]|[H' ->]]] end.
    + split; [lia|]. intros (t & E). unfold scale in E. simpl in E. inversion E. subst. exfalso; lra.
    + split; [lia|]. intros (t & E). unfold scale in E. simpl in E. inversion E. subst. exfalso; lra.
    + split; auto. intros _. unfold on_line, scale. simpl. apply nz2 in Hd. 
      match type of Hd with ?u <> 0 \/ ?v <> 0 => destruct (Req_dec u 0) as [U|U] end.
      * destruct Hd as [Hd|Hd]; [contradiction|]. subst.
        match type of H' with (?q0 - ?p0) * 0 - (?q1 - ?p1) * ?v = 0 => idtac | (?q0 - ?p0) * ?v - (?q1 - ?p1) * 0 = 0 => exists ((q1 - p1) / v) end.
        apply (f_equal2 (@cons R)); [nra|]. apply (f_equal2 (@cons R)); [field; auto|reflexivity].
      * match type of H' with (?q0 - ?p0) * ?v - (?q1 - ?p1) * ?u = 0 => exists ((q0 - p0) / u);
          apply (f_equal2 (@cons R)); [field; auto|]; apply (f_equal2 (@cons R)); [|reflexivity];
          apply Rmult_eq_reg_r with u; auto; replace ((p1 + (q0 - p0) / u * v) * u) with (p1 * u + (q0 - p0) * v) by (field; auto); lra end.
  - intros t l' Hl'. apply line_new_inv in Hl' as (-> & _ & _ & _). cbn [l_point l_dir].
    rewrite from_points_R by (simpl; auto; discriminate). cbn [bind]. unfold scale. simpl. rewrite side_vector_R. do 2 f_equal. ring.
Qed.
Print Assumptions C16_line_side_point.

Example C16_nonvacuous : side_vector (N:=RNum) [0; 1] [1; 0] = Ok 1%Z.
Proof. rewrite side_vector_R. destruct (nsign_R (1 * 1 - 0 * 0)) as [[H E]|[[H E]|[H E]]]; try lra. rewrite E. reflexivity. Qed.

(** ** C17  scalar_projection, project_vector *)
Theorem C17_project_vector : forall v o : pt, length v = length o -> ~ is_zero_vec v ->
  exists p s k, project_vector (N:=RNum) v o = Ok p /\ scalar_projection (N:=RNum) v o = Ok s /\
    p = scale k v /\ dot (sub o p) v = 0 /\
    (forall k', dot (sub o (scale k' v)) v = 0 -> scale k' v = p) /\
    (forall k', scale k' v <> p -> dist o p < dist o (scale k' v)) /\
    s = dot v o / len v /\ p = scale (s / len v) v /\ len p = Rabs s /\
    project_vector (N:=RNum) v p = Ok p.
Proof.
  intros v o L Hz. pose proof (len_pos v Hz) as P. pose proof (dot_self_pos v Hz) as Pd.
  set (k := dot v o / dot v v). exists (scale k v), (dot v o / len v), k.
  rewrite !project_vector_R by (auto; len). split; auto.
  assert (Es : scalar_projection (N:=RNum) v o = Ok (dot v o / len v)).
  { unfold scalar_projection. rewrite unit_R by auto. cbn [bind]. rewrite np_dot_R by len. rewrite dot_scale_l. f_equal. field. lra. }
  rewrite Es. split; auto. split; auto.
  assert (Q : forall k', dot (sub o (scale k' v)) v = dot v o - k' * dot v v).
  { intro k'. rewrite dot_sub_l by len. rewrite dot_scale_l, (dot_comm o v). reflexivity. }
  split. { rewrite Q. unfold k. field. lra. }
  split. { intros k' E. rewrite Q in E. f_equal. unfold k. apply Rmult_eq_reg_r with (dot v v); [|lra]. field_simplify; lra. }
  split.
  { intros k' N. apply len_lt_iff.
    assert (F : forall x, dot (sub o (scale x v)) (sub o (scale x v)) = dot o o - 2 * x * dot v o + x * x * dot v v).
    { intro x. rewrite dot_sub_l by len. rewrite !dot_sub_r by len. rewrite !dot_scale_l, !dot_scale_r, (dot_comm o v). ring. }
    rewrite !F. assert (k' <> k) by congruence. assert (E : dot v o = k * dot v v) by (unfold k; field; lra). rewrite E.
    assert (0 < (k' - k) * (k' - k)) by nra. nra. }
  split; auto. split. { f_equal. unfold k. rewrite <- len_sq. field. lra. }
  split. { rewrite len_scale. unfold k. rewrite <- len_sq. unfold Rdiv.
    rewrite <- (Rabs_pos_eq (len v)) at 3 by lra. rewrite <- Rabs_mult. f_equal. field. lra. }
  rewrite dot_scale_r. rn. f_equal. f_equal. unfold k. field. lra.
Qed.
Print Assumptions C17_project_vector.

Theorem C17_project_linear : forall (v o w : pt) (s : R), length v = length o -> length v = length w -> ~ is_zero_vec v ->
  exists po pw, project_vector (N:=RNum) v o = Ok po /\ project_vector (N:=RNum) v w = Ok pw /\
    project_vector (N:=RNum) v (add o (scale s w)) = Ok (add po (scale s pw)).
Proof.
  intros v o w s L1 L2 Hz. pose proof (dot_self_pos v Hz). rewrite !project_vector_R by (auto; len).
  do 2 eexists. split; [reflexivity|]. split; [reflexivity|]. rewrite dot_add_r, dot_scale_r, scale_scale, <- scale_plus by len.
  rn. f_equal. f_equal. field. lra.
Qed.
Print Assumptions C17_project_linear.

(** Projecting onto the zero vector: no finite value from project_vector, ValueError from scalar_projection. *)
Theorem C17_zero_vector : forall v o : pt, length v = length o -> is_zero_vec v ->
  project_vector (N:=RNum) v o = NonFinite /\ (exists m, scalar_projection (N:=RNum) v o = Raise (ValueError m)).
Proof.
  intros v o L Hz. split.
  - unfold project_vector. rewrite !np_dot_R by auto. cbn [bind]. rewrite (zero_dot v v) by auto. rewrite ndiv_R0. reflexivity.
  - unfold scalar_projection. rewrite unit_R_zero by auto. eexists; reflexivity.
Qed.
Print Assumptions C17_zero_vector.

Example C17_nonvacuous : project_vector (N:=RNum) [2; 0] [3; 4] = Ok [3; 0].
Proof.
  rewrite project_vector_R; auto. 2: intro H; inversion H; lra.
  f_equal. unfold scale. simpl. apply (f_equal2 (@cons R)); [field; lra|]. apply (f_equal2 (@cons R)); [ring|reflexivity].
Qed.

(** ** C18  different_direction *)
Lemma basis_vec_dot (v : pt) : dot v (1 :: zeros (N:=RNum) (length v - 1)) = nth 0 v 0.
Proof.
  destruct v as [|x v]; simpl; auto. rewrite Nat.sub_0_r. change (zeros (N:=RNum)) with origin. rewrite dot_origin_r. ring.
Qed.
Lemma basis_len n : len (1 :: zeros (N:=RNum) n) = 1.
Proof. apply len_eq_val; [lra|]. simpl. change (zeros (N:=RNum)) with origin. rewrite dot_origin_r. ring. Qed.
Lemma basis_len2 n : len (0 :: 1 :: zeros (N:=RNum) n) = 1.
Proof. apply len_eq_val; [lra|]. simpl. change (zeros (N:=RNum)) with origin. rewrite dot_origin_r. ring. Qed.
Lemma len1_nonzero u : len u = 1 -> ~ is_zero_vec u.
Proof. intros H Z. apply len_zero_iff in Z. lra. Qed.

Theorem C18_different_direction : forall v : pt, ~ is_zero_vec v -> (2 <= length v)%nat ->
  exists u, different_direction (N:=RNum) tol_default v = Ok u /\ length u = length v /\ len u = 1 /\
    is_parallel (N:=RNum) tol_default v u = Ok false /\ ~ dependent v u.
Proof.
  intros v Hz L.
  assert (K : exists u, different_direction (N:=RNum) tol_default v = Ok u /\ length u = length v /\ len u = 1 /\
    is_parallel (N:=RNum) tol_default v u = Ok false).
  2:{ destruct K as (u & E & Lu & U & P). exists u. split; auto. split; auto. split; auto. split; auto.
      intro D. apply is_parallel_dependent with (t := tol_default) in D; auto using tol_default_ok; [congruence|].
      apply nonzero_ne; auto. }
  unfold different_direction. rewrite is_zero_default. destruct (is_zero_vec_dec v) as [|_]; [contradiction|]. cbn [bind].
  unfold dim1. rn. destruct (Nat.eqb_spec (length v) 1) as [|_]; [lia|]. rops.
  set (e1 := 1 :: zeros (N:=RNum) (length v - 1)). rn.
  assert (Le1 : length e1 = length v) by (unfold e1, zeros; simpl; rewrite repeat_length; lia).
  assert (U1 : len e1 = 1) by apply basis_len.
  destruct (C15_parallel_default v e1) as (r & Er & Dr); auto using len1_nonzero. rewrite Er. cbn [bind].
  destruct r.
  - set (e2 := 0 :: 1 :: zeros (N:=RNum) (length v - 2)). rn. exists e2. split; auto.
    assert (Le2 : length e2 = length v) by (unfold e2, zeros; simpl; rewrite repeat_length; lia).
    assert (U2 : len e2 = 1) by apply basis_len2. split; auto. split; auto.
    destruct (C15_parallel_default v e2) as (r & Er2 & Dr2); auto using len1_nonzero. rewrite Er2. destruct r; auto. exfalso.
    assert (D1 := proj1 Dr eq_refl). assert (D2 := proj1 Dr2 eq_refl). rewrite U1, Rmult_1_r in D1. rewrite U2, Rmult_1_r in D2.
    pose proof rel_default_bounds as RB. pose proof (len_pos v Hz) as P.
    destruct v as [|x [|y w]]; simpl in L; try lia.
    assert (E1 : dot (x :: y :: w) e1 = x).
    { exact (basis_vec_dot (x :: y :: w)). }
    assert (E2 : dot (x :: y :: w) e2 = y).
    { unfold e2. simpl. change (zeros (N:=RNum)) with origin. rewrite dot_origin_r. ring. }
    rewrite E1 in D1. rewrite E2 in D2. pose proof (len_sq (x :: y :: w)) as Q. simpl dot in Q.
    set (n := len (x :: y :: w)) in *. pose proof (dot_self_nonneg w).
    assert (n * n * (1 - rel_default) * (1 - rel_default) <= x * x).
    { replace (x * x) with (Rabs x * Rabs x) by (unfold Rabs; destruct Rcase_abs; ring).
      replace (n * n * (1 - rel_default) * (1 - rel_default)) with (((1 - rel_default) * n) * ((1 - rel_default) * n)) by ring.
      apply Rmult_le_compat; auto; apply Rmult_le_pos; lra. }
    assert (n * n * (1 - rel_default) * (1 - rel_default) <= y * y).
    { replace (y * y) with (Rabs y * Rabs y) by (unfold Rabs; destruct Rcase_abs; ring).
      replace (n * n * (1 - rel_default) * (1 - rel_default)) with (((1 - rel_default) * n) * ((1 - rel_default) * n)) by ring.
      apply Rmult_le_compat; auto; apply Rmult_le_pos; lra. }
    assert (0 < n * n) by nra.
    assert (9/10 < (1 - rel_default) * (1 - rel_default)) by nra. nra.
  - exists e1. split; auto.
Qed.
Print Assumptions C18_different_direction.

(** In dimension 1: the opposite direction, of length 1. *)
Theorem C18_different_direction_1d : forall x : R, x <> 0 ->
  exists u, different_direction (N:=RNum) tol_default [x] = Ok [u] /\ Rabs u = 1 /\ u * x < 0.
Proof.
  intros x Hx. unfold different_direction. rewrite is_zero_default.
  destruct (is_zero_vec_dec [x]) as [Z|_]; [inversion Z; congruence|]. cbn [bind dim1 length Nat.eqb nth].
  rewrite vector_of_R by discriminate. rops. eexists. split; [reflexivity|].
  destruct (nsign_R x) as [[H ->]|[[H ->]|[H _]]]; [| |contradiction].
  - rewrite Ropp_Ropp_IZR || idtac. split; [rewrite Rabs_pos_eq; lra|lra].
  - split; [rewrite Rabs_Ropp, Rabs_R1; lra|lra].
Qed.
Print Assumptions C18_different_direction_1d.

Theorem C18_different_direction_raises : forall v : pt, v <> [] ->
  ((exists m, different_direction (N:=RNum) tol_default v = Raise (ValueError m)) <-> is_zero_vec v).
Proof.
  intros v Hne. split.
  - intros [m H]. destruct (is_zero_vec_dec v) as [Z|Z]; auto. exfalso.
    destruct (Nat.le_gt_cases 2 (length v)) as [L|L].
    + destruct (C18_different_direction v Z L) as (u & E & _). rewrite E in H. discriminate.
    + destruct v as [|x [|? ?]]; simpl in L; try lia; [contradiction|].
      destruct (C18_different_direction_1d x) as (u & E & _). { intro; subst. apply Z. reflexivity. } rewrite E in H. discriminate.
  - intro Z. unfold different_direction. rewrite is_zero_default. destruct (is_zero_vec_dec v); [|contradiction]. eexists; reflexivity.
Qed.
Print Assumptions C18_different_direction_raises.

Example C18_nonvacuous : different_direction (N:=RNum) tol_default [5; 0; 0] = Ok [0; 1; 0].
Proof.
  assert (~ is_zero_vec [5; 0; 0]) by (intro Z; inversion Z; lra).
  unfold different_direction. rewrite is_zero_default. destruct is_zero_vec_dec; [contradiction|]. cbn [bind].
  rewrite is_parallel_dependent; [reflexivity|apply tol_default_ok|reflexivity|discriminate|].
  left. exists 5. unfold scale, zeros. simpl. rops. veq.
Qed.
