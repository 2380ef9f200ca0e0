(** * Properties C07-C12: objects/vector.py

    [pt] is a list of reals; an actual Vector is a non-empty one. *)
From Coq Require Import String Reals List ZArith Lra Lia Psatz Bool.
From Verif.Model Require Import Outcome Num Instances Numpy BaseArray Vector Points Line.
From Verif.Spec Require Import Geometry Tolerance.
From Verif.Proof Require Import VecAlg Bridge Arrays Vectors.
Import ListNotations.
Local Open Scope R_scope.

(** ** C07  Vector.from_points *)
Theorem C07_from_points_unique_displacement : forall a b : pt, a <> [] -> length a = length b ->
  exists v, from_points (N:=RNum) a b = Ok v /\ length v = length a /\ add a v = b /\
    forall w, length w = length a -> add a w = b -> w = v.
Proof.
  intros a b Hne L. exists (sub b a). rewrite from_points_R by auto. split; auto. split; [len|].
  split; [apply add_sub_cancel; auto|]. intros w Lw <-. symmetry. apply sub_add_cancel; auto.
Qed.
Print Assumptions C07_from_points_unique_displacement.

Theorem C07_from_points_laws : forall a b c t : pt, a <> [] -> length b = length a -> length c = length a -> length t = length a ->
  exists ab bc ac ba tab, from_points (N:=RNum) a b = Ok ab /\ from_points (N:=RNum) b c = Ok bc /\
    from_points (N:=RNum) a c = Ok ac /\ from_points (N:=RNum) b a = Ok ba /\
    from_points (N:=RNum) (add t a) (add t b) = Ok tab /\
    ba = scale (-1) ab /\ add ab bc = ac /\ tab = ab /\ (is_zero_vec ab <-> a = b).
Proof.
  intros a b c t Ha Lb Lc Lt. assert (Hb : b <> []) by (destruct a, b; simpl in *; congruence).
  exists (sub b a), (sub c b), (sub c a), (sub a b), (sub b a).
  rewrite !from_points_R; auto; try congruence; try len.
  2:{ intro E. apply (f_equal (@length R)) in E. revert E. len. rewrite Lt, Nat.min_id. destruct a; simpl; congruence. }
  rewrite sub_add_add by congruence.
  split; auto. split; auto. split; auto. split; auto. split; auto.
  split; [apply sub_sub_swap|]. split; [apply sub_chain; congruence|]. split; auto.
  rewrite sub_zero_iff by auto. split; congruence.
Qed.
Print Assumptions C07_from_points_laws.

Theorem C07_from_points_mismatch : forall (N : Num) (a b : vec N),
  length a <> length b -> length a <> 1%nat -> length b <> 1%nat -> exists m, from_points a b = Raise (ValueError m).
Proof. intros N a b H1 H2 H3. unfold from_points. rewrite bcast_err by auto. eexists; reflexivity. Qed.
Print Assumptions C07_from_points_mismatch.

(** With a one-coordinate operand the call does not raise: numpy broadcasting. *)
Theorem C07_mismatch_always_raises_refuted :
  exists a b : pt, length a <> length b /\ from_points (N:=RNum) a b = Ok [2; 3; 4].
Proof.
  exists [1], [3; 4; 5]. split; [discriminate|]. unfold from_points, bcast. simpl.
  rewrite vector_of_R by discriminate. f_equal. veq.
Qed.
Print Assumptions C07_mismatch_always_raises_refuted.

Example C07_nonvacuous : from_points (N:=RNum) [1; 2] [4; 6] = Ok [3; 4].
Proof. rewrite from_points_R by (try discriminate; reflexivity). f_equal. simpl. veq. Qed.

(** ** C08  norm and unit *)
Theorem C08_norm_is_length : forall (v w : pt) (s : R), length w = length v ->
  exists n, norm (N:=RNum) v = Ok n /\ n = sqrt (dot v v) /\ 0 <= n /\ (n = 0 <-> is_zero_vec v) /\
    (exists ns, norm (N:=RNum) (scale s v) = Ok ns /\ ns = Rabs s * n) /\
    (exists nw nvw, norm (N:=RNum) w = Ok nw /\ norm (N:=RNum) (add v w) = Ok nvw /\
        nvw <= n + nw /\ Rabs (dot v w) <= n * nw).
Proof.
  intros v w s L. exists (len v). rewrite !norm_R. split; auto. split; auto. split; [apply len_nonneg|].
  split; [apply len_zero_iff|]. split.
  - eexists; split; [reflexivity|]. apply len_scale.
  - exists (len w), (len (add v w)). split; auto. split; auto. split.
    + apply len_triangle; auto.
    + apply cauchy_schwarz; auto.
Qed.
Print Assumptions C08_norm_is_length.

Theorem C08_unit : forall v : pt, ~ is_zero_vec v ->
  exists u, unit_vec (N:=RNum) v = Ok u /\ len u = 1 /\ (exists s, 0 < s /\ u = scale s v) /\
    (forall s, 0 < s -> unit_vec (N:=RNum) (scale s v) = Ok u) /\
    (forall u', len u' = 1 -> (exists s, 0 < s /\ u' = scale s v) -> u' = u).
Proof.
  intros v H. pose proof (len_pos v H). exists (scale (/ len v) v). rewrite unit_R by auto. split; auto.
  assert (Hi : 0 < / len v) by (apply Rinv_0_lt_compat; auto).
  split; [rewrite len_scale, Rabs_pos_eq by lra; field; lra|]. split; [eauto|]. split.
  - intros s Hs. rewrite unit_R by (apply scale_nonzero; auto; lra). rewrite len_scale, Rabs_pos_eq, scale_scale by lra.
    rn. f_equal. f_equal. field. lra.
  - intros u' Hu (s & Hs & ->). f_equal. rewrite len_scale, Rabs_pos_eq in Hu by lra.
    apply Rmult_eq_reg_r with (len v); [|lra]. rewrite Hu. field. lra.
Qed.
Print Assumptions C08_unit.

Theorem C08_unit_raises_iff_zero : forall v : pt,
  (exists m, unit_vec (N:=RNum) v = Raise (ValueError m)) <-> is_zero_vec v.
Proof.
  intro v. split.
  - intros [m H]. destruct (is_zero_vec_dec v); auto. rewrite unit_R in H by auto. discriminate.
  - intro H. eexists. apply unit_R_zero; auto.
Qed.
Print Assumptions C08_unit_raises_iff_zero.

Example C08_nonvacuous : norm (N:=RNum) [3; 4] = Ok 5 /\ ~ is_zero_vec [3; 4].
Proof.
  split.
  - rewrite norm_R. f_equal. unfold len. replace (dot [3; 4] [3; 4]) with (5 * 5) by (simpl; ring). apply sqrt_square; lra.
  - intro H. inversion H. lra.
Qed.

(** ** C09  is_zero, is_perpendicular *)
Theorem C09_is_zero_default : forall v : pt,
  (is_zero (N:=RNum) tol_default v = Ok true <-> is_zero_vec v) /\
  (is_zero (N:=RNum) tol_default v = Ok false <-> ~ is_zero_vec v).
Proof. intro v. rewrite is_zero_default. destruct (is_zero_vec_dec v); split; split; congruence. Qed.
Print Assumptions C09_is_zero_default.

Theorem C09_is_perpendicular_default : forall a b : pt, length a = length b ->
  (is_perpendicular (N:=RNum) tol_default a b = Ok true <-> dot a b = 0) /\
  (is_perpendicular (N:=RNum) tol_default a b = Ok false <-> dot a b <> 0).
Proof.
  intros a b L. unfold is_perpendicular. rewrite np_dot_R by auto. cbn [bind]. rops. rewrite isclose_default_zero.
  destruct Req_EM_T; split; split; congruence.
Qed.
Print Assumptions C09_is_perpendicular_default.

Theorem C09_with_tolerance : forall (rel abst : R) (a b : pt), 0 <= rel < 1 -> 0 <= abst -> length a = length b ->
  let t := MkTol (N:=RNum) rel abst in
  (exists r, is_zero t a = Ok r /\ (r = true <-> dot a a <= abst)) /\
  (exists r, is_perpendicular t a b = Ok r /\ (r = true <-> Rabs (dot a b) <= abst)) /\
  is_perpendicular t a b = is_perpendicular t b a.
Proof.
  intros rel abst a b Hr Ha L t. assert (Ht : tol_ok t) by (split; simpl; lra). split; [|split].
  - destruct (is_zero_R t a Ht) as (r & -> & E). exists r; split; auto. rewrite E. simpl. rewrite close_zero by auto.
    rewrite Rabs_pos_eq by apply dot_self_nonneg. tauto.
  - destruct (is_perp_R t a b Ht L) as (r & -> & E). exists r; split; auto. rewrite E. simpl. apply close_zero; auto.
  - unfold is_perpendicular. rewrite !np_dot_R by auto. cbn [bind]. rewrite dot_comm. reflexivity.
Qed.
Print Assumptions C09_with_tolerance.

(** Scale invariance at the default tolerance. *)
Theorem C09_scale_invariant : forall (s u : R) (a b : pt), s <> 0 -> u <> 0 -> length a = length b ->
  is_zero (N:=RNum) tol_default (scale s a) = is_zero (N:=RNum) tol_default a /\
  is_perpendicular (N:=RNum) tol_default (scale s a) (scale u b) = is_perpendicular (N:=RNum) tol_default a b.
Proof.
  intros s u a b Hs Hu L. split.
  - rewrite !is_zero_default. destruct (is_zero_vec_dec a) as [Z|Z], (is_zero_vec_dec (scale s a)) as [Z'|Z']; auto.
    + exfalso; apply Z', zero_vec_scale; auto.
    + exfalso. revert Z'. apply scale_nonzero; auto.
  - unfold is_perpendicular. rewrite !np_dot_R by len. cbn [bind]. rops. rewrite !isclose_default_zero, dot_scale_l, dot_scale_r.
    destruct (Req_EM_T (s * (u * dot a b)) 0) as [E|E], (Req_EM_T (dot a b) 0) as [E'|E']; auto.
    + exfalso. apply Rmult_integral in E as [E|E]; [lra|]. apply Rmult_integral in E as [E|E]; lra.
    + exfalso. apply E. rewrite E'. ring.
Qed.
Print Assumptions C09_scale_invariant.

Theorem C09_perpendicular_mismatch : forall (N : Num) (t : tol N) (a b : vec N), length a <> length b ->
  exists m, is_perpendicular t a b = Raise (ValueError m).
Proof. intros. unfold is_perpendicular. rewrite np_dot_err by auto. eexists; reflexivity. Qed.
Print Assumptions C09_perpendicular_mismatch.

Example C09_nonvacuous : is_perpendicular (N:=RNum) tol_default [1; 2] [-2; 1] = Ok true /\
  is_zero (N:=RNum) (MkTol (N:=RNum) 0 1) [1/2; 0] = Ok true.
Proof.
  split.
  - apply C09_is_perpendicular_default; [reflexivity|]. simpl; ring.
  - destruct (C09_with_tolerance 0 1 [1/2; 0] [1; 1]) as [(r & E & H) _]; try lra; [reflexivity|]. rewrite E. f_equal. apply H. simpl. lra.
Qed.

(** ** C10  cross *)
Theorem C10_cross_result : forall a b : pt, a <> [] -> b <> [] -> (length a <= 3)%nat -> (length b <= 3)%nat ->
  exists c, cross (N:=RNum) a b = Ok c /\ length c = 3%nat /\
    dot c (pad_to 3 a) = 0 /\ dot c (pad_to 3 b) = 0 /\
    len c * len c = dot a a * dot b b - dot (pad_to 3 a) (pad_to 3 b) * dot (pad_to 3 a) (pad_to 3 b) /\
    (is_zero_vec c <-> dependent (pad_to 3 a) (pad_to 3 b)) /\
    (length a = length b -> (is_zero_vec c <-> dependent a b)) /\
    cross (N:=RNum) b a = Ok (scale (-1) c).
Proof.
  intros a b Ha Hb La Lb. assert (La3 : length (pad_to 3 a) = 3%nat) by len. assert (Lb3 : length (pad_to 3 b) = 3%nat) by len.
  exists (cross_spec (pad_to 3 a) (pad_to 3 b)). rewrite !cross_R by auto.
  split; auto. split; [apply length_cross; auto|]. split; [apply cross_dot_l; auto|]. split; [apply cross_dot_r; auto|].
  split. { rewrite len_sq, lagrange by auto. rewrite !(pad_to_dot 3 a a), !(pad_to_dot 3 b b) by auto. reflexivity. }
  split; [apply cross_zero_iff; auto|]. split.
  - intro L. rewrite cross_zero_iff by auto. rewrite !dependent_sq by congruence. rewrite !pad_to_dot by auto. tauto.
  - rewrite cross_anti by auto. reflexivity.
Qed.
Print Assumptions C10_cross_result.

Theorem C10_cross_bilinear : forall (a b c : pt) (s : R), length a = 3%nat -> length b = 3%nat -> length c = 3%nat ->
  exists ac bc, cross (N:=RNum) a c = Ok ac /\ cross (N:=RNum) b c = Ok bc /\
    cross (N:=RNum) (add a (scale s b)) c = Ok (add ac (scale s bc)) /\
    cross (N:=RNum) c (add a (scale s b)) = Ok (scale (-1) (add ac (scale s bc))).
Proof.
  intros a b c s La Lb Lc. exists (cross_spec a c), (cross_spec b c). rewrite !cross_R3 by (auto; len).
  split; auto. split; auto. split.
  - rewrite cross_add_l by (auto; len). rewrite cross_scale_l by auto. reflexivity.
  - rewrite cross_anti by (auto; len). rewrite cross_add_l by (auto; len). rewrite cross_scale_l by auto. reflexivity.
Qed.
Print Assumptions C10_cross_bilinear.

(** Right-handed: the basis vectors, and det(a, b, a x b) > 0 for independent a, b. *)
Theorem C10_cross_right_handed :
  cross (N:=RNum) [1; 0; 0] [0; 1; 0] = Ok [0; 0; 1] /\
  cross (N:=RNum) [0; 1; 0] [0; 0; 1] = Ok [1; 0; 0] /\
  cross (N:=RNum) [0; 0; 1] [1; 0; 0] = Ok [0; 1; 0] /\
  (forall x y u v : R, cross (N:=RNum) [x; y] [u; v] = Ok [0; 0; x * v - y * u]).
Proof.
  rewrite !cross_R3 by reflexivity. split; [|split; [|split]]; try (f_equal; simpl; veq).
  intros. rewrite cross_R by (try discriminate; simpl; lia). f_equal. unfold pad_to. simpl. veq.
Qed.
Print Assumptions C10_cross_right_handed.

Theorem C10_cross_rejects : forall a b : pt, a <> [] -> b <> [] -> (3 < length a)%nat \/ (3 < length b)%nat ->
  exists m, cross (N:=RNum) a b = Raise (ValueError m).
Proof. intros a b Ha Hb [H|H]; [apply cross_err_l|apply cross_err_r]; auto. Qed.
Print Assumptions C10_cross_rejects.

(** ** C11  cosine_similarity *)
Theorem C11_cosine : forall a b : pt, length a = length b -> ~ is_zero_vec a -> ~ is_zero_vec b ->
  exists c, cosine_similarity (N:=RNum) a b = Ok c /\ c = dot a b / (len a * len b) /\ -1 <= c <= 1 /\
    cosine_similarity (N:=RNum) b a = Ok c /\
    (forall s t, 0 < s -> 0 < t -> cosine_similarity (N:=RNum) (scale s a) (scale t b) = Ok c) /\
    (c = 1 <-> exists s, 0 < s /\ b = scale s a) /\
    (c = -1 <-> exists s, s < 0 /\ b = scale s a).
Proof.
  intros a b L Ha Hb. exists (cosine a b). rewrite !cosine_R by auto. split; auto. split; auto. split; [apply cosine_bounds; auto|].
  split; [rewrite cosine_comm; auto|]. split; [|split; [apply cosine_one; auto|apply cosine_mone; auto]].
  intros s t Hs Ht. assert (~ is_zero_vec (scale s a)) by (apply scale_nonzero; auto; lra).
  assert (~ is_zero_vec (scale t b)) by (apply scale_nonzero; auto; lra).
  rewrite cosine_R by (auto; len). f_equal. rewrite cosine_scale, cosine_comm, cosine_scale, cosine_comm; auto.
Qed.
Print Assumptions C11_cosine.

Theorem C11_cosine_raises : forall a b : pt, a <> [] -> b <> [] -> length a = length b ->
  ((exists m, cosine_similarity (N:=RNum) a b = Raise (ValueError m)) <-> is_zero_vec a \/ is_zero_vec b).
Proof.
  intros a b Ha Hb L. split.
  - intros [m H]. destruct (is_zero_vec_dec a); auto. destruct (is_zero_vec_dec b); auto.
    rewrite cosine_R in H by auto. discriminate.
  - intro H. eexists. apply cosine_R_zero; auto.
Qed.
Print Assumptions C11_cosine_raises.

(** Whatever the inputs, a returned value lies in [-1, 1]. *)
Theorem C11_cosine_range_always : forall (a b : pt) c, cosine_similarity (N:=RNum) a b = Ok c -> -1 <= c <= 1.
Proof.
  intros a b c H. unfold cosine_similarity in H. inv_bind H. inv_bind H. inv_bind H.
  destruct (neqb _ _); [discriminate|]. inv_bind H. inv_bind H. injection H as <-. apply nclip1_range.
Qed.
Print Assumptions C11_cosine_range_always.

Theorem C11_cosine_mismatch : forall a b : pt, length a <> length b -> ~ is_zero_vec a -> ~ is_zero_vec b ->
  exists m, cosine_similarity (N:=RNum) a b = Raise (ValueError m).
Proof. intros. rewrite cosine_R_mismatch by auto. eexists; reflexivity. Qed.
Print Assumptions C11_cosine_mismatch.

Lemma nz34 : ~ is_zero_vec [3; 4]. Proof. intro H. inversion H. lra. Qed.
Lemma nz10 : ~ is_zero_vec [1; 0]. Proof. intro H. inversion H. lra. Qed.
Lemma len34 : len [3; 4] = 5. Proof. apply len_eq_val; simpl; lra. Qed.
Lemma len10 : len [1; 0] = 1. Proof. apply len_eq_val; simpl; lra. Qed.
Example C11_nonvacuous : cosine_similarity (N:=RNum) [3; 4] [1; 0] = Ok (3 / 5).
Proof. rewrite cosine_R by (auto using nz34, nz10). f_equal. unfold cosine. rewrite len34, len10. simpl. lra. Qed.

(** ** C12  angle_between *)
Theorem C12_angle_between : forall a b : pt, length a = length b -> ~ is_zero_vec a -> ~ is_zero_vec b ->
  exists th, angle_between (N:=RNum) RTrig a b = Ok th /\ 0 <= th <= PI /\
    cos th = dot a b / (len a * len b) /\
    (forall th', 0 <= th' <= PI -> cos th' = dot a b / (len a * len b) -> th' = th) /\
    angle_between (N:=RNum) RTrig b a = Ok th /\
    (forall s t, 0 < s -> 0 < t -> angle_between (N:=RNum) RTrig (scale s a) (scale t b) = Ok th) /\
    angle_between (N:=RNum) RTrig a (scale (-1) b) = Ok (PI - th) /\
    (th = 0 <-> exists s, 0 < s /\ b = scale s a) /\
    (th = PI <-> exists s, s < 0 /\ b = scale s a) /\
    (th = PI / 2 <-> dot a b = 0).
Proof.
  intros a b L Ha Hb. exists (acos (cosine a b)). rewrite !angle_R by auto. pose proof (cosine_bounds a b L Ha Hb) as B.
  split; auto. split; [apply acos_bound|]. split; [apply cos_acos; auto|].
  split. { intros th' R C. change (dot a b / (len a * len b)) with (cosine a b) in C. rewrite <- C. symmetry. apply acos_cos; auto. }
  split; [rewrite cosine_comm; auto|].
  split. { intros s t Hs Ht. assert (~ is_zero_vec (scale s a)) by (apply scale_nonzero; auto; lra).
    assert (~ is_zero_vec (scale t b)) by (apply scale_nonzero; auto; lra).
    rewrite angle_R by (auto; len). do 2 f_equal. rewrite cosine_scale, cosine_comm, cosine_scale, cosine_comm; auto. }
  split. { rewrite angle_R; auto; [|len|apply scale_nonzero; auto; lra]. rewrite cosine_neg, acos_opp; auto. }
  split; [rewrite acos_0_iff by auto; apply cosine_one; auto|].
  split; [rewrite acos_PI_iff by auto; apply cosine_mone; auto|]. rewrite acos_PI2_iff by auto. apply cosine_zero; auto.
Qed.
Print Assumptions C12_angle_between.

Theorem C12_angle_between_raises : forall a b : pt, a <> [] -> b <> [] -> is_zero_vec a \/ is_zero_vec b ->
  exists m, angle_between (N:=RNum) RTrig a b = Raise (ValueError m).
Proof. intros. unfold angle_between. rewrite cosine_R_zero by auto. eexists; reflexivity. Qed.
Print Assumptions C12_angle_between_raises.

Example C12_nonvacuous : angle_between (N:=RNum) RTrig [1; 0] [0; 1] = Ok (PI / 2).
Proof.
  assert (~ is_zero_vec [0; 1]) by (intro H; inversion H; lra).
  destruct (C12_angle_between [1; 0] [0; 1]) as (th & E & _ & _ & _ & _ & _ & _ & _ & _ & H90); auto using nz10.
  rewrite E. f_equal. apply H90. simpl; ring.
Qed.

