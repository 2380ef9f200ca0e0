(** * Properties C59-C62, C66: Cylinder (construction, containment, intersection with a line, mesh) *)
From Coq Require Import String Reals List ZArith Lra Lia Psatz Bool.
From Verif.Model Require Import Outcome Num Instances Numpy BaseArray Vector Points Functions Line Plane Sphere Cylinder.
From Verif.Spec Require Import Geometry Tolerance Mesh Linalg Rounding.
From Verif.Proof Require Import VecAlg Bridge Arrays Vectors Points Lines Cylinders Rounding.
From Verif.Proof Require Mesh.
From Verif.Prop Require Import Arrays Vectors Directions Points Lines Planes Balls Spheres.
Import Verif.Proof.Mesh.
Import ListNotations.
Local Open Scope R_scope.

(** ** The solid cylinder in terms of scalar products *)
(** Component of [z] perpendicular to [v]. *)
Definition rej (v z : pt) : pt := sub z (scale (dot z v / dot v v) v).
Lemma length_rej v z : length z = length v -> length (rej v z) = length v.
Proof. intro. unfold rej. len. Qed.
Lemma rej_perp v z : length z = length v -> 0 < dot v v -> dot (rej v z) v = 0.
Proof. intros H P. unfold rej. rewrite dot_sub_l by len. rewrite dot_scale_l. field. lra. Qed.
Lemma rej_add v y z : length y = length v -> length z = length v -> 0 < dot v v -> rej v (add y z) = add (rej v y) (rej v z).
Proof.
  intros Hy Hz P. unfold rej. rewrite dot_add_l by len. apply pt_ext; [len|]. intros i _. repeat rewrite ?nth_add, ?nth_scale, ?nth_sub by len. field. lra.
Qed.
Lemma rej_scale v s z : length z = length v -> 0 < dot v v -> rej v (scale s z) = scale s (rej v z).
Proof.
  intros Hz P. unfold rej. rewrite dot_scale_l. apply pt_ext; [len|]. intros i _. repeat rewrite ?nth_add, ?nth_scale, ?nth_sub by len. field. lra.
Qed.
Lemma rej_lproj p v x : length p = length v -> length x = length p -> sub x (lproj p v x) = rej v (sub x p).
Proof. intros Hp Hx. unfold lproj, rej. rewrite sub_sub_l by len. rewrite (dot_comm v). reflexivity. Qed.

Lemma in_cylinder_iff p v r x : cyl_ok p v r -> length x = length p ->
  (in_cylinder p v r x <-> 0 <= dot (sub x p) v <= dot v v /\ dot (rej v (sub x p)) (rej v (sub x p)) <= r * r).
Proof.
  intros (Lp & Lv & Hz & Hr) Lx. pose proof (dot_self_pos v Hz) as P. split.
  - intros (t & w & Lw & Ht & Hw & Hl & ->).
    assert (E : sub (add (add p (scale t v)) w) p = add (scale t v) w).
    { rewrite add_assoc. apply sub_add_cancel. len. }
    rewrite E. assert (D : dot (add (scale t v) w) v = t * dot v v) by (rewrite dot_add_l by len; rewrite dot_scale_l, Hw; ring).
    rewrite D. split; [split; [apply Rmult_le_pos; lra|]|].
    + rewrite <- (Rmult_1_l (dot v v)) at 2. apply Rmult_le_compat_r; lra.
    + assert (Er : rej v (add (scale t v) w) = w).
      { unfold rej. rewrite D. apply pt_ext; [len|]. intros i _. repeat rewrite ?nth_add, ?nth_scale, ?nth_sub by len. field. lra. }
      rewrite Er, <- len_sq. pose proof (len_nonneg w). nra.
  - intros ((H1 & H2) & H3). exists (dot (sub x p) v / dot v v), (rej v (sub x p)).
    split; [rewrite length_rej; len|]. split.
    { split; [apply Rle_mult_inv_pos; auto|]. apply Rmult_le_reg_r with (dot v v); auto. unfold Rdiv. rewrite Rmult_assoc, Rinv_l by lra. lra. }
    split; [apply rej_perp; [len|auto]|]. split.
    { rewrite <- len_sq in H3. pose proof (len_nonneg (rej v (sub x p))). nra. }
    unfold rej. apply pt_ext; [len|]. intros i _. repeat rewrite ?nth_add, ?nth_scale, ?nth_sub by len. ring.
Qed.

(** ** C59  construction, is_point_within *)
Theorem C59_construction : forall (p v : pt) (r : R),
  (forall c, cylinder_new (N:=RNum) p v r = Ok c <-> c = MkCylinder p v r /\ length p = 3%nat /\ length v = 3%nat /\ ~ is_zero_vec v /\ 0 < r) /\
  (~ (length p = 3%nat /\ length v = 3%nat /\ ~ is_zero_vec v /\ 0 < r) -> exists m, cylinder_new (N:=RNum) p v r = Raise (ValueError m)).
Proof. intros p v r. split; [intro c; apply cylinder_new_iff|apply cylinder_new_raise]. Qed.
Print Assumptions C59_construction.

Lemma between_R (p v x : pt) r : cyl_ok p v r -> length x = length p ->
  exists b, between_cap_planes (N:=RNum) (MkCylinder p v r) x = Ok b /\ (b = true <-> 0 <= dot (sub x p) v <= dot v v).
Proof.
  intros (Lp & Lv & Hz & Hr) Lx. pose proof (dot_self_pos v Hz) as P. pose proof (len_pos v Hz) as Pl.
  assert (PV : pv_ok p v) by (split; [congruence|]; split; auto; intro E; subst; discriminate).
  unfold between_cap_planes. cbn [cy_point cy_vector]. rewrite plane_new_R by auto. cbn [bind]. rewrite plane_signed_R by auto. cbn [bind].
  eexists. split; [reflexivity|]. rops. unfold cylinder_length. cbn [cy_vector]. rewrite norm_raw_len. unfold sdist.
  rewrite !andb_true_iff, !Rleb_true, (dot_comm v (sub x p)).
  assert (E : dot (sub x p) v = dot (sub x p) v / len v * len v) by (field; lra). set (s := dot (sub x p) v / len v) in *. rewrite E, <- len_sq. clearbody s. split.
  - intros ((H1 & _) & H2). split; [apply Rmult_le_pos; lra|]. apply Rmult_le_compat_r; lra.
  - intros (H1 & H2). split; [split; [|lra]|].
    + apply Rmult_le_reg_r with (len v); lra.
    + apply Rmult_le_reg_r with (len v); lra.
Qed.

Theorem C59_is_point_within : forall (p v x : pt) (r : R) c, cylinder_new (N:=RNum) p v r = Ok c -> length x = 3%nat ->
  exists b, cylinder_is_point_within c x = Ok b /\ (b = true <-> in_cylinder p v r x).
Proof.
  intros p v x r c Hc Lx. apply cylinder_new_iff in Hc as (-> & K). pose proof K as (Lp & Lv & Hz & Hr).
  assert (PV : pv_ok p v) by (split; [congruence|]; split; auto; intro E; subst; discriminate).
  unfold cylinder_is_point_within. cbn [cy_point cy_vector cy_radius]. rewrite line_new_R by (auto; congruence). cbn [bind].
  rewrite line_distance_point_R by (auto; congruence). cbn [bind]. destruct (between_R p v x r K) as (b & -> & Hb); [congruence|]. cbn [bind].
  eexists. split; [reflexivity|]. rops. rewrite andb_true_iff, Rleb_true, Hb, (in_cylinder_iff p v r x K) by congruence.
  rewrite <- (rej_lproj p v x) by congruence. rewrite <- dist_sq. pose proof (dist_nonneg x (lproj p v x)) as Hd. split; intros (H1 & H2); split; auto; nra.
Qed.
Print Assumptions C59_is_point_within.

(** from_points: the two points are the centres of the caps. *)
Theorem C59_from_points : forall (a b : pt) (r : R), length a = 3%nat -> length b = 3%nat ->
  (a <> b -> 0 < r -> exists c, cylinder_from_points (N:=RNum) a b r = Ok c /\ cy_point c = a /\ add (cy_point c) (cy_vector c) = b /\ cy_radius c = r /\
     cylinder_length c = dist a b) /\
  (a = b \/ r <= 0 -> exists m, cylinder_from_points (N:=RNum) a b r = Raise (ValueError m)).
Proof.
  intros a b r La Lb. assert (Na : a <> []) by (intro E; subst; discriminate). unfold cylinder_from_points. rewrite from_points_R by congruence. cbn [bind]. split.
  - intros N Hr. rewrite cylinder_new_R; [|split; [auto|]; split; [len|]; split; [|auto]; intro Z; apply N; symmetry; apply sub_zero_iff; [congruence|auto]].
    eexists. split; [reflexivity|]. cbn [cy_point cy_vector cy_radius]. split; auto. split; [apply add_sub_cancel; congruence|]. split; auto.
    unfold cylinder_length. cbn [cy_vector]. rewrite norm_raw_len, (dist_sym a b). reflexivity.
  - intro H. apply cylinder_new_raise. intros (_ & _ & K & Hr). destruct H as [->|H]; [|lra]. apply K. rewrite sub_self. apply zero_origin.
Qed.
Print Assumptions C59_from_points.
Example C59_nonvacuous : exists c, cylinder_new (N:=RNum) [0; 0; 0] [0; 0; 1] 1 = Ok c /\ in_cylinder [0; 0; 0] [0; 0; 1] 1 [0; 1; 1] /\ length ([0; 1; 1] : pt) = 3%nat.
Proof.
  eexists. split; [apply cylinder_new_R; split; [auto|]; split; [auto|]; split; [intro Z; apply dot_self_zero_iff in Z; simpl in Z; lra|lra]|]. split; [|auto].
  exists 1, [0; 1; 0]. split; [auto|]. split; [lra|]. split; [simpl; ring|]. split.
  - right. apply len_eq_val; [lra|]. simpl. ring.
  - unfold scale. simpl. veq.
Qed.

(** ** C66  the quadratic *)
Lemma solve_quadratic_R (a b c : R) : solve_quadratic (N:=RNum) a b c None =
  if Req_EM_T a 0 then Raise (ValueError "The coefficient `a` must be non-zero.")
  else if Rlt_dec (b * b - 4 * a * c) 0 then Raise (ValueError "The discriminant must not be negative.")
  else Ok ((- b - sqrt (b * b - 4 * a * c)) / (2 * a), (- b + sqrt (b * b - 4 * a * c)) / (2 * a)).
Proof.
  unfold solve_quadratic. cbn [round_opt bind]. rops. destruct (Req_EM_T a 0) as [E|E].
  - rewrite (proj2 (Reqb_true a 0)) by auto. reflexivity.
  - rewrite (proj2 (Reqb_false a 0)) by auto. destruct (Rlt_dec (b * b - 4 * a * c) 0) as [D|D].
    + rewrite (proj2 (Rltb_true _ 0)) by auto. reflexivity.
    + rewrite (proj2 (Rltb_false _ 0)) by lra. rewrite math_sqrt_R by lra. cbn [bind]. rewrite !ndiv_R by lra. cbn [bind]. do 2 f_equal; f_equal; ring.
Qed.
Lemma quad_factor a b c x1 x2 t : a <> 0 -> 0 <= b * b - 4 * a * c ->
  x1 = (- b - sqrt (b * b - 4 * a * c)) / (2 * a) -> x2 = (- b + sqrt (b * b - 4 * a * c)) / (2 * a) ->
  a * t * t + b * t + c = a * (t - x1) * (t - x2).
Proof.
  intros Ha Hd -> ->. set (s := sqrt (b * b - 4 * a * c)). assert (Hs : s * s = b * b - 4 * a * c) by (apply sqrt_sqrt; auto).
  assert (Hc : c = (b * b - s * s) / (4 * a)) by (rewrite Hs; field; auto). clearbody s. rewrite Hc at 1. field. auto.
Qed.
Lemma quad_order a b c : 0 < a -> 0 <= b * b - 4 * a * c ->
  (- b - sqrt (b * b - 4 * a * c)) / (2 * a) <= (- b + sqrt (b * b - 4 * a * c)) / (2 * a).
Proof. intros Ha Hd. pose proof (sqrt_pos (b * b - 4 * a * c)). apply Rmult_le_compat_r; [apply Rlt_le, Rinv_0_lt_compat; lra|lra]. Qed.
Lemma quad_sign a x1 x2 t : 0 < a -> x1 <= x2 -> (a * (t - x1) * (t - x2) <= 0 <-> x1 <= t <= x2).
Proof.
  intros Ha Hx. split.
  - intro H. assert (K : (t - x1) * (t - x2) <= 0). { apply Rnot_lt_le. intro X. assert (0 < a * ((t - x1) * (t - x2))) by (apply Rmult_lt_0_compat; auto). lra. }
    split; apply Rnot_lt_le; intro X; assert (0 < (x1 - t) * (x2 - t) \/ 0 < (t - x1) * (t - x2)) by (first [left; apply Rmult_lt_0_compat; lra | right; apply Rmult_lt_0_compat; lra]); lra.
  - intros (H1 & H2). assert (0 <= a * ((t - x1) * (x2 - t))) by (repeat apply Rmult_le_pos; lra). lra.
Qed.
Lemma quad_no_root a b c t : 0 < a -> b * b - 4 * a * c < 0 -> 0 < a * t * t + b * t + c.
Proof.
  intros Ha Hd. assert (E : 4 * a * (a * t * t + b * t + c) = (2 * a * t + b) * (2 * a * t + b) - (b * b - 4 * a * c)) by ring.
  pose proof (Rle_0_sqr (2 * a * t + b)) as S. unfold Rsqr in S. assert (0 < 4 * a * (a * t * t + b * t + c)) by lra.
  apply Rmult_lt_reg_l with (4 * a); lra.
Qed.

Theorem C66_solve_quadratic : forall a b c : R,
  (a <> 0 -> (exists x, a * x * x + b * x + c = 0) ->
     exists x1 x2, solve_quadratic (N:=RNum) a b c None = Ok (x1, x2) /\
       (forall x, a * x * x + b * x + c = 0 <-> x = x1 \/ x = x2) /\ (0 < a -> x1 <= x2) /\ (a < 0 -> x2 <= x1)) /\
  (a = 0 -> exists m, solve_quadratic (N:=RNum) a b c None = Raise (ValueError m)) /\
  (a <> 0 -> ~ (exists x, a * x * x + b * x + c = 0) -> exists m, solve_quadratic (N:=RNum) a b c None = Raise (ValueError m)) /\
  solve_quadratic (N:=RNum) a b c (Some 0%Z) = solve_quadratic (N:=RNum) a b c None.
Proof.
  intros a b c. rewrite solve_quadratic_R. split; [|split; [|split]].
  - intros Ha (x & Hx). destruct (Req_EM_T a 0); [contradiction|]. destruct (Rlt_dec (b * b - 4 * a * c) 0) as [D|D].
    { exfalso. assert (E : 4 * a * (a * x * x + b * x + c) = (2 * a * x + b) * (2 * a * x + b) - (b * b - 4 * a * c)) by ring.
      pose proof (Rle_0_sqr (2 * a * x + b)) as S. unfold Rsqr in S. rewrite Hx in E. lra. }
    do 2 eexists. split; [reflexivity|]. split; [|split].
    + intro y. erewrite (quad_factor a b c _ _ y Ha) by (try reflexivity; lra). split.
      * intro H. apply Rmult_integral in H as [H|H]; [apply Rmult_integral in H as [H|H]; [contradiction|left; lra]|right; lra].
      * intros [->| ->]; ring.
    + intro P. apply quad_order; lra.
    + intro P. pose proof (sqrt_pos (b * b - 4 * a * c)). unfold Rdiv. rewrite !(Rmult_comm _ (/ (2 * a))). apply Rmult_le_compat_neg_l; [apply Rlt_le, Rinv_lt_0_compat; lra|lra].
  - intros ->. destruct (Req_EM_T 0 0); [eauto|contradiction].
  - intros Ha H. destruct (Req_EM_T a 0); [contradiction|]. destruct (Rlt_dec (b * b - 4 * a * c) 0) as [D|D]; [eauto|]. exfalso. apply H.
    exists ((- b - sqrt (b * b - 4 * a * c)) / (2 * a)). erewrite (quad_factor a b c _ _ _ Ha) by (try reflexivity; lra). ring.
  - rewrite <- solve_quadratic_R. reflexivity.
Qed.
Print Assumptions C66_solve_quadratic.
(** With n_digits = d <> 0 the equation solved is the one whose coefficients are rounded to d decimals (half to even),
    so that each of them is moved by at most half a unit of the d-th decimal (see [rounded]). *)
Theorem C66_rounded_coefficients : forall (a b c : R) (d : Z), d <> 0%Z -> exists a' b' c', rounded d a a' /\ rounded d b b' /\ rounded d c c' /\
  solve_quadratic (N:=RNum) a b c (Some d) = solve_quadratic (N:=RNum) a' b' c' None.
Proof.
  intros a b c d Hd. destruct (rounded_exists d a) as (a' & Ea & Ra). destruct (rounded_exists d b) as (b' & Eb & Rb). destruct (rounded_exists d c) as (c' & Ec & Rc).
  exists a', b', c'. split; auto. split; auto. split; auto. unfold solve_quadratic at 1. cbn [round_opt]. apply Z.eqb_neq in Hd. rewrite Hd, Ea, Eb, Ec. reflexivity.
Qed.
Print Assumptions C66_rounded_coefficients.

(** ** C60  intersect_line, infinite cylinder *)
(** Squared distance from the axis minus r^2 at parameter [t] along the unit direction of the line. *)
Definition qa (v e : pt) : R := dot (rej v (scale (/ len e) e)) (rej v (scale (/ len e) e)).
Definition qb (p v q e : pt) : R := 2 * dot (rej v (scale (/ len e) e)) (rej v (sub q p)).
Definition qc (p v q : pt) (r : R) : R := dot (rej v (sub q p)) (rej v (sub q p)) - r * r.
Definition at_t (q e : pt) (t : R) : pt := add q (scale t (scale (/ len e) e)).

Lemma reject_R (x v : pt) : length x = length v -> ~ is_zero_vec v -> reject (N:=RNum) x (scale (/ len v) v) = Ok (rej v x).
Proof.
  intros L Hz. pose proof (len_pos v Hz) as P. unfold reject. rewrite np_dot_R by len. cbn [bind]. rewrite vmuls_R. cbn [bind]. rewrite vsub_R by len. f_equal.
  unfold rej. f_equal. rewrite scale_scale, dot_scale_r. f_equal. rewrite <- len_sq. field. lra.
Qed.
Lemma tube_value p v q e r t : length q = length v -> length p = length v -> length e = length v -> 0 < dot v v ->
  dot (rej v (sub (at_t q e t) p)) (rej v (sub (at_t q e t) p)) - r * r = qa v e * t * t + qb p v q e * t + qc p v q r.
Proof.
  intros Lq Lp Le P. unfold at_t, qa, qb, qc. set (u := scale (/ len e) e). assert (Lu : length u = length v) by (unfold u; len).
  rewrite sub_add_l by len. rewrite rej_add by len. rewrite rej_scale by (auto; len).
  set (a := rej v u). set (d := rej v (sub q p)). assert (La : length a = length v) by (unfold a; rewrite length_rej; auto). assert (Ld : length d = length v) by (unfold d; rewrite length_rej; len).
  rewrite dot_add_add by len. rewrite dot_scale_l, !dot_scale_r, dot_scale_l. ring.
Qed.
Lemma qa_nonneg v e : 0 <= qa v e. Proof. apply dot_self_nonneg. Qed.
Lemma qa_zero v e : length e = length v -> ~ is_zero_vec v -> ~ is_zero_vec e -> (qa v e = 0 <-> dependent v e).
Proof.
  intros L Hv He. pose proof (dot_self_pos v Hv) as P. pose proof (len_pos e He) as Pe. unfold qa. rewrite dot_self_zero_iff. unfold rej. set (u := scale (/ len e) e).
  assert (Lu : length u = length v) by (unfold u; len). rewrite sub_zero_iff by len.
  destruct (unit_dir e He) as (_ & Ee). fold u in Ee. split.
  - intro E. right. exists (len e * (dot u v / dot v v)). transitivity (scale (len e) u); [exact Ee|]. rewrite E at 1. rewrite scale_scale. reflexivity.
  - intro D. apply dependent_sym in D. apply dependent_nonzero in D as (s & D); [|auto|auto].
    unfold u. generalize (/ len e). intro k. rewrite D. rewrite !scale_scale. rewrite !dot_scale_l. f_equal. field. lra.
Qed.
Lemma intersect_infinite_R (p v q e : pt) r : cyl_ok p v r -> pv_ok q e -> length q = 3%nat ->
  intersect_infinite (N:=RNum) (MkCylinder p v r) (MkLine q e) None =
  let a := qa v e in let b := qb p v q e in let c := qc p v q r in
  if Req_EM_T a 0 then Raise err_no_intersect else if Rlt_dec (b * b - 4 * a * c) 0 then Raise err_no_intersect
  else Ok (at_t q e ((- b - sqrt (b * b - 4 * a * c)) / (2 * a)), at_t q e ((- b + sqrt (b * b - 4 * a * c)) / (2 * a))).
Proof.
  intros (Lp & Lv & Hz & Hr) (Le & He & Hq) Lq. unfold intersect_infinite. cbn [cy_point cy_vector cy_radius l_point l_dir].
  rewrite !unit_R by auto. cbn [bind]. rewrite from_points_R by (try congruence; intro E; subst; discriminate). cbn [bind].
  rewrite reject_R by (auto; len). cbn [bind]. rewrite reject_R by (auto; len). cbn [bind]. rewrite norm_R. cbn [bind].
  rewrite np_dot_R by (rewrite !length_rej; len). cbn [bind]. rewrite norm_R. cbn [bind]. rops.
  rewrite !len_sq. fold (qa v e). fold (qb p v q e). fold (qc p v q r). cbv zeta. rewrite solve_quadratic_R.
  destruct (Req_EM_T (qa v e) 0); [reflexivity|]. destruct (Rlt_dec _ 0); [reflexivity|].
  change (vscale (N:=RNum)) with scale. rewrite !bcast_eq by len. cbn [bind]. rewrite !map2_add.
  rewrite !point_of_R; [reflexivity| |]; intro E; apply (f_equal (@length R)) in E; lenh E; rn; simpl in *; lia.
Qed.

(** The lateral surface: distance [r] from the axis. *)
Lemma tube_iff p v r x : cyl_ok p v r -> length x = length p ->
  (min_dist (on_line p v) x r <-> dot (rej v (sub x p)) (rej v (sub x p)) = r * r).
Proof.
  intros (Lp & Lv & Hz & Hr) Lx. assert (PV : pv_ok p v) by (split; [congruence|]; split; auto; intro E; subst; discriminate).
  rewrite <- (rej_lproj p v x) by congruence. rewrite <- dist_sq. pose proof (lproj_min p v x PV Lx) as M. pose proof (dist_nonneg x (lproj p v x)) as Hd. split.
  - intro H. rewrite (min_dist_unique _ _ _ _ M H). reflexivity.
  - intro E. replace r with (dist x (lproj p v x)); auto. nra.
Qed.
Lemma length_at_t q e t : length q = length e -> length (at_t q e t) = length q. Proof. intro. unfold at_t. len. Qed.

Theorem C60_intersect_infinite : forall (p v q e : pt) (r : R) c l, cylinder_new (N:=RNum) p v r = Ok c -> line_new (N:=RNum) q e = Ok l ->
  let common x := on_line q e x /\ min_dist (on_line p v) x r in
  (length q = 3%nat -> ~ dependent v e -> (exists x, common x) ->
     exists a b, cylinder_intersect_line c l None true = Ok (a, b) /\ (forall x, common x <-> x = a \/ x = b) /\ (exists k, 0 <= k /\ sub b a = scale k e)) /\
  (length q = 3%nat -> dependent v e \/ ~ (exists x, common x) ->
     cylinder_intersect_line c l None true = Raise (ValueError "The line does not intersect the cylinder.")) /\
  (length q <> 3%nat -> forall nd inf, cylinder_intersect_line c l nd inf = Raise (ValueError "The line must be 3D.")).
Proof.
  intros p v q e r c l Hc Hl common. apply cylinder_new_iff in Hc as (-> & K). apply line_new_iff in Hl as (-> & O). pose proof K as (Lp & Lv & Hz & Hr). pose proof O as (Le & He & Hq).
  assert (U : length q = 3%nat -> cylinder_intersect_line (N:=RNum) (MkCylinder p v r) (MkLine q e) None true = intersect_infinite (N:=RNum) (MkCylinder p v r) (MkLine q e) None).
  { intro Lq. unfold cylinder_intersect_line, line_dim, dim1. cbn [l_point]. rn. rewrite Lq. reflexivity. }
  pose proof (dot_self_pos v Hz) as P. pose proof (len_pos e He) as Pe.
  assert (C : length q = 3%nat -> forall t, common (at_t q e t) <-> qa v e * t * t + qb p v q e * t + qc p v q r = 0).
  { intros Lq t. unfold common. rewrite (tube_iff p v r) by (auto; rewrite length_at_t; congruence).
    rewrite <- (tube_value p v q e r t) by congruence. split; [intros (_ & E); lra|]. intro E. split; [apply on_line_unit; auto; exists t; reflexivity|lra]. }
  assert (Ex : forall x, common x -> exists t, x = at_t q e t).
  { intros x (Hx & _). apply on_line_unit in Hx as (t & ->); auto. exists t. reflexivity. }
  split; [|split].
  - intros Lq D (x & Hx). rewrite U, intersect_infinite_R by auto. cbv zeta. pose proof (qa_nonneg v e) as Qn.
    assert (Qa : qa v e <> 0) by (intro Z; apply D, (qa_zero v e); auto; congruence). assert (Qp : 0 < qa v e) by lra.
    destruct (Req_EM_T (qa v e) 0); [contradiction|]. destruct (Ex x Hx) as (t & ->). apply C in Hx; auto.
    destruct (Rlt_dec _ 0) as [D0|D0]; [exfalso; pose proof (quad_no_root _ _ _ t Qp D0); lra|].
    do 2 eexists. split; [reflexivity|]. split.
    + intro y. assert (G : forall s, common (at_t q e s) <-> s = (- qb p v q e - sqrt (qb p v q e * qb p v q e - 4 * qa v e * qc p v q r)) / (2 * qa v e) \/ s = (- qb p v q e + sqrt (qb p v q e * qb p v q e - 4 * qa v e * qc p v q r)) / (2 * qa v e)).
      { intro s. rewrite (C Lq s). erewrite (quad_factor _ _ _ _ _ s Qa) by (try reflexivity; lra). split.
        - intro H. apply Rmult_integral in H as [H|H]; [apply Rmult_integral in H as [H|H]; [contradiction|left; lra]|right; lra].
        - intros [->| ->]; ring. }
      split.
      * intro Hy. destruct (Ex y Hy) as (s & ->). apply G in Hy as [->| ->]; auto.
      * intros [->| ->]; apply G; auto.
    + exists ((((- qb p v q e + sqrt (qb p v q e * qb p v q e - 4 * qa v e * qc p v q r)) / (2 * qa v e)) - ((- qb p v q e - sqrt (qb p v q e * qb p v q e - 4 * qa v e * qc p v q r)) / (2 * qa v e))) * / len e). split.
      * pose proof (quad_order (qa v e) (qb p v q e) (qc p v q r) Qp ltac:(lra)). apply Rmult_le_pos; [lra|]. apply Rlt_le, Rinv_0_lt_compat, Pe.
      * unfold at_t. rewrite sub_add_add by len. rewrite <- scale_minus, scale_scale. reflexivity.
  - intros Lq H. rewrite U, intersect_infinite_R by auto. cbv zeta. pose proof (qa_nonneg v e) as Qn.
    destruct (Req_EM_T (qa v e) 0) as [Qa|Qa]; [reflexivity|]. destruct (Rlt_dec _ 0) as [D0|D0]; [reflexivity|]. exfalso. destruct H as [D|H].
    + apply Qa, (qa_zero v e); auto. congruence.
    + apply H. exists (at_t q e ((- qb p v q e - sqrt (qb p v q e * qb p v q e - 4 * qa v e * qc p v q r)) / (2 * qa v e))). apply C; auto.
      erewrite (quad_factor _ _ _ _ _ _ Qa) by (try reflexivity; lra). ring.
  - intros Lq nd inf. unfold cylinder_intersect_line, line_dim, dim1. cbn [l_point]. rn. destruct (Nat.eqb_spec (length q) 3); [contradiction|reflexivity].
Qed.
Print Assumptions C60_intersect_infinite.
Example C60_nonvacuous : exists c l, cylinder_new (N:=RNum) [0; 0; 0] [0; 0; 1] 1 = Ok c /\ line_new (N:=RNum) [1; 0; 5] [0; 1; 0] = Ok l /\
  ~ dependent [0; 0; 1] [0; 1; 0] /\ exists x, on_line [1; 0; 5] [0; 1; 0] x /\ min_dist (on_line [0; 0; 0] [0; 0; 1]) x 1.
Proof.
  assert (K : cyl_ok [0; 0; 0] [0; 0; 1] 1) by (split; [auto|]; split; [auto|]; split; [intro Z; apply dot_self_zero_iff in Z; simpl in Z; lra|lra]).
  eexists. eexists. split; [apply cylinder_new_R; auto|]. split; [apply line_new_R; [reflexivity|intro Z; inversion Z; lra]|]. split.
  - intros [(s & E)|(s & E)]; inversion E; lra.
  - exists [1; 0; 5]. split; [exists 0; unfold scale; simpl; veq|]. apply tube_iff; auto. unfold rej. simpl. field.
Qed.

(** With rounding to [d] decimals the returned points are still on the line, and off the surface by an amount bounded
    in terms of [d] and of the distance from the line's base point. *)
Theorem C66_intersect_rounded : forall (p v q e : pt) (r : R) (d : Z) c l a b, cylinder_new (N:=RNum) p v r = Ok c -> line_new (N:=RNum) q e = Ok l -> d <> 0%Z ->
  cylinder_intersect_line c l (Some d) true = Ok (a, b) -> forall x, x = a \/ x = b -> on_line q e x /\
  exists s, min_dist (on_line p v) x s /\ Rabs (s * s - r * r) <= / 2 * powerRZ 10 (- d) * (dist x q * dist x q + dist x q + 1).
Proof.
  intros p v q e r d c l a b Hc Hl Hd E. apply cylinder_new_iff in Hc as (-> & K). apply line_new_iff in Hl as (-> & O). pose proof K as (Lp & Lv & Hz & Hr). pose proof O as (Le & He & Hq).
  unfold cylinder_intersect_line, line_dim, dim1 in E. cbn [l_point] in E. rn. destruct (Nat.eqb_spec (length q) 3) as [Lq|]; [|discriminate]. cbn [negb] in E.
  pose proof (dot_self_pos v Hz) as P. pose proof (len_pos e He) as Pe. destruct (unit_dir e He) as (U & _).
  unfold intersect_infinite in E. cbn [cy_point cy_vector cy_radius l_point l_dir] in E.
  rewrite !unit_R in E by auto. cbn [bind] in E. rewrite from_points_R in E by (try congruence; intro Z; subst; discriminate). cbn [bind] in E.
  rewrite reject_R in E by (auto; len). cbn [bind] in E. rewrite reject_R in E by (auto; len). cbn [bind] in E. rewrite norm_R in E. cbn [bind] in E.
  rewrite np_dot_R in E by (rewrite !length_rej; len). cbn [bind] in E. rewrite norm_R in E. cbn [bind] in E. rops.
  rewrite !len_sq in E. fold (qa v e) in E. fold (qb p v q e) in E. fold (qc p v q r) in E.
  destruct (C66_rounded_coefficients (qa v e) (qb p v q e) (qc p v q r) d Hd) as (a' & b' & c' & (ka & _ & Ra & _) & (kb & _ & Rb & _) & (kc & _ & Rc & _) & Es). rewrite Es, solve_quadratic_R in E.
  destruct (Req_EM_T a' 0) as [|Ha]; [discriminate|]. destruct (Rlt_dec _ 0) as [|HD]; [discriminate|].
  change (vscale (N:=RNum)) with scale in E. rewrite !bcast_eq in E by len. cbn [bind] in E. rewrite !map2_add in E.
  rewrite !point_of_R in E; [|intro Z; apply (f_equal (@length R)) in Z; lenh Z; rn; simpl in *; lia ..]. cbn [bind] in E. injection E as Ea Eb.
  intros x Hx. assert (T : exists t, x = at_t q e t /\ a' * t * t + b' * t + c' = 0).
  { destruct Hx as [->| ->]; [exists ((- b' - sqrt (b' * b' - 4 * a' * c')) / (2 * a'))|exists ((- b' + sqrt (b' * b' - 4 * a' * c')) / (2 * a'))];
      (split; [symmetry; assumption|]); erewrite (quad_factor a' b' c' _ _ _ Ha) by (try reflexivity; lra); ring. }
  destruct T as (t & Ex & Ht). split; [apply on_line_unit; auto; exists t; exact Ex|].
  assert (PV : pv_ok p v) by (split; [congruence|]; split; auto; intro Z; subst; discriminate).
  assert (Lx : length x = length p) by (rewrite Ex, length_at_t; congruence).
  exists (dist x (lproj p v x)). split; [apply lproj_min; auto|]. rewrite dist_sq, rej_lproj by congruence.
  assert (Dx : dist x q = Rabs t). { unfold dist. rewrite Ex. unfold at_t. rewrite sub_add_cancel by len. rewrite len_scale. unfold len at 1. rewrite U, sqrt_1. ring. }
  rewrite Dx. rewrite Ex at 1 2. rewrite tube_value by congruence.
  set (h := / 2 * powerRZ 10 (- d)) in *. pose proof (pow10_pos (- d)) as Ph. assert (0 < h) by (unfold h; lra).
  replace (qa v e * t * t + qb p v q e * t + qc p v q r) with (- ((a' - qa v e) * (t * t) + (b' - qb p v q e) * t + (c' - qc p v q r))) by (rewrite <- (Rminus_0_r (qa v e * t * t + _ + _)), <- Ht at 1; ring).
  rewrite Rabs_Ropp. eapply Rle_trans; [apply Rabs_triang|]. eapply Rle_trans; [apply Rplus_le_compat_r, Rabs_triang|]. rewrite !Rabs_mult.
  pose proof (Rabs_pos t) as Pt. assert (0 <= Rabs t * Rabs t) by (apply Rmult_le_pos; auto).
  apply Rmult_le_compat_r with (r := Rabs t * Rabs t) in Ra; auto. apply Rmult_le_compat_r with (r := Rabs t) in Rb; auto. lra.
Qed.
Print Assumptions C66_intersect_rounded.

(** ** C61  intersect_line, finite cylinder *)
(** [x] between [s] and [t], in either order. *)
Definition between (s t x : R) : Prop := s <= x <= t \/ t <= x <= s.
Lemma between_comm s t x : between s t x <-> between t s x. Proof. unfold between. tauto. Qed.
Lemma segment_at_t (q e : pt) (s t : R) (y : pt) : length q = length e ->
  (on_segment (at_t q e s) (at_t q e t) y <-> exists x, between s t x /\ y = at_t q e x).
Proof.
  intro L. assert (E : forall k, add (at_t q e s) (scale k (sub (at_t q e t) (at_t q e s))) = at_t q e (s + k * (t - s))).
  { intro k. unfold at_t. apply pt_ext; [len|]. intros i _. repeat rewrite ?nth_add, ?nth_scale, ?nth_sub by len. ring. }
  split.
  - intros (k & Hk & ->). exists (s + k * (t - s)). split; [|apply E]. destruct (Rle_dec s t); [left|right]; nra.
  - intros (x & Hx & ->). destruct (Req_EM_T s t) as [->|N].
    + exists 0. split; [lra|]. rewrite E. f_equal. destruct Hx; lra.
    + exists ((x - s) / (t - s)). split; [|rewrite E; f_equal; field; lra]. destruct Hx as [(H1 & H2)|(H1 & H2)].
      * assert (s < t) by lra. split; [apply Rle_mult_inv_pos; lra|]. apply Rmult_le_reg_r with (t - s); [lra|]. unfold Rdiv. rewrite Rmult_assoc, Rinv_l by lra. lra.
      * assert (t < s) by lra. replace ((x - s) / (t - s)) with ((s - x) / (s - t)) by (field; lra). split; [apply Rle_mult_inv_pos; lra|].
        apply Rmult_le_reg_r with (s - t); [lra|]. unfold Rdiv. rewrite Rmult_assoc, Rinv_l by lra. lra.
Qed.
Lemma sub_add_r (x p w : pt) : length x = length p -> length w = length p -> sub x (add p w) = sub (sub x p) w.
Proof. intros. apply pt_ext; [len|]. intros i _. repeat rewrite ?nth_add, ?nth_sub by len. ring. Qed.
Definition dv (v e : pt) : R := dot (scale (/ len e) e) v.
Lemma height_at (p v q e : pt) t : length q = length v -> length p = length v -> length e = length v ->
  dot (sub (at_t q e t) p) v = dot (sub q p) v + dv v e * t.
Proof. intros Lq Lp Le. unfold at_t, dv. rewrite sub_add_l by len. rewrite dot_add_l by len. rewrite dot_scale_l. ring. Qed.
Lemma at_t_inj (q e : pt) s t : length q = length e -> ~ is_zero_vec e -> at_t q e s = at_t q e t -> s = t.
Proof.
  intros L He E. destruct (unit_dir e He) as (U & _). apply (f_equal (fun x => dot (sub x q) (scale (/ len e) e))) in E. unfold at_t in E.
  rewrite !sub_add_cancel in E by len. rewrite !dot_scale_l in E. rewrite !dot_scale_l in U.
  first [ lra | match type of U with _ = 1 => idtac end; nra ].
Qed.
(** The parameter at which the line has height [h] above the base plane, and the cap test. *)
Definition th (p v q e : pt) (h : R) : R := (h - dot (sub q p) v) / dv v e.
Definition tube_q (p v q e : pt) (r t : R) : R := qa v e * t * t + qb p v q e * t + qc p v q r.
Lemma cap_R (p v q e : pt) r s : cyl_ok p v r -> pv_ok q e -> length q = 3%nat ->
  intersect_cap (N:=RNum) (MkCylinder p v r) (MkLine q e) (MkPlane (add p (scale s v)) v) =
  Ok (if Req_EM_T (dv v e) 0 then None else if Rle_dec (tube_q p v q e r (th p v q e (s * dot v v))) 0 then Some (at_t q e (th p v q e (s * dot v v))) else None).
Proof.
  intros (Lp & Lv & Hz & Hr) (Le & He & Hq) Lq. pose proof (dot_self_pos v Hz) as P. pose proof (len_pos e He) as Pe.
  set (o := add p (scale s v)). assert (Lo : length o = 3%nat) by (unfold o; len). assert (PV : pv_ok o v) by (split; [congruence|]; split; auto; intro E; rewrite E in Lo; discriminate).
  assert (No : o <> []) by (intro E; rewrite E in Lo; discriminate).
  destruct (C39_intersect_line o v q e _ _ (plane_new_R _ _ PV) (line_new_R q e Le He) ltac:(congruence)) as (C1 & C2 & _).
  assert (Z : dot v e = dv v e * len e) by (unfold dv; rewrite dot_scale_l, (dot_comm v e); field; lra).
  unfold intersect_cap. destruct (Req_EM_T (dv v e) 0) as [D|D].
  - destruct C1 as (m & ->); [rewrite Z, D; ring|reflexivity].
  - destruct C2 as (x & -> & (Lx & Hx) & Hl & _); [rewrite Z; apply Rmult_integral_contrapositive; split; lra|].
    apply on_line_unit in Hl as (t & Ex); auto. change (x = at_t q e t) in Ex.
    assert (Hh : dot (sub x p) v = s * dot v v).
    { unfold o in Hx. rewrite sub_add_r in Hx by len. rewrite dot_sub_l in Hx by len. rewrite dot_scale_l in Hx. lra. }
    assert (Et : t = th p v q e (s * dot v v)). { rewrite Ex, height_at in Hh by congruence. unfold th. rewrite <- Hh. field. auto. }
    assert (Er : sub x o = rej v (sub x p)). { unfold rej, o. rewrite Hh, sub_add_r by len. f_equal. f_equal. field. lra. }
    cbn [pl_point]. rewrite distance_point_R; [|congruence|intro E; rewrite E in Lx; simpl in Lx; congruence]. cbn [bind cy_radius]. rops.
    rewrite <- Et. unfold tube_q. rewrite <- (tube_value p v q e r t), <- Ex by congruence. rewrite <- Er, <- dist_sq. pose proof (dist_nonneg x o) as Dn.
    destruct (Rle_dec _ 0) as [K|K]; rb; auto; exfalso; nra.
Qed.
Lemma slab_iff g h0 H x : 0 < H -> g <> 0 -> (0 <= h0 + g * x <= H <-> between ((0 - h0) / g) ((H - h0) / g) x).
Proof.
  intros HH Hg. set (tb := (0 - h0) / g). set (tt := (H - h0) / g). assert (Eb : h0 = - g * tb) by (unfold tb; field; auto). assert (Et : H = g * (tt - tb)) by (unfold tb, tt; field; auto).
  clearbody tb tt. subst h0 H. unfold between. replace (- g * tb + g * x) with (g * (x - tb)) by ring. destruct (Rlt_dec 0 g) as [P|P].
  - assert (0 < tt - tb) by (apply Rmult_lt_reg_l with g; lra). split.
    + intros (A & B). left. split; [|apply Rmult_le_reg_l in B; lra]. assert (0 <= x - tb); [|lra]. apply Rmult_le_reg_l with g; lra.
    + intros [(A & B)|(A & B)]; [|lra]. split; [apply Rmult_le_pos; lra|apply Rmult_le_compat_l; lra].
  - assert (Q : 0 < - g) by lra. assert (0 < tb - tt) by (apply Rmult_lt_reg_l with (- g); lra). split.
    + intros (A & B). right. split; [|].
      * assert (tb - x <= tb - tt); [|lra]. apply Rmult_le_reg_l with (- g); lra.
      * assert (0 <= tb - x); [|lra]. apply Rmult_le_reg_l with (- g); lra.
    + intros [(A & B)|(A & B)]; [lra|]. split; [assert (0 <= (- g) * (tb - x)) by (apply Rmult_le_pos; lra); lra|].
      assert ((- g) * (tb - x) <= (- g) * (tb - tt)) by (apply Rmult_le_compat_l; lra). lra.
Qed.
Lemma quad_convex a b c s t x : 0 <= a -> between s t x -> a * s * s + b * s + c <= 0 -> a * t * t + b * t + c <= 0 -> a * x * x + b * x + c <= 0.
Proof.
  intros Ha Hx Hs Ht. assert (G : forall u w, u <= x <= w -> a * u * u + b * u + c <= 0 -> a * w * w + b * w + c <= 0 -> a * x * x + b * x + c <= 0).
  { intros u w (H1 & H2) Hu Hw. destruct (Req_EM_T u w) as [->|N]; [replace x with w by lra; auto|].
    assert (E : (w - u) * (a * x * x + b * x + c) = (w - x) * (a * u * u + b * u + c) + (x - u) * (a * w * w + b * w + c) - a * ((w - x) * (x - u) * (w - u))) by ring.
    assert (0 <= a * ((w - x) * (x - u) * (w - u))) by (repeat apply Rmult_le_pos; lra).
    assert ((w - x) * (a * u * u + b * u + c) <= 0) by nra. assert ((x - u) * (a * w * w + b * w + c) <= 0) by nra.
    apply Rmult_le_reg_l with (w - u); lra. }
  destruct Hx as [Hx|Hx]; [apply (G s t)|apply (G t s)]; auto.
Qed.

Theorem C61_intersect_finite : forall (p v q e : pt) (r : R) c l, cylinder_new (N:=RNum) p v r = Ok c -> line_new (N:=RNum) q e = Ok l -> length q = 3%nat ->
  let common x := on_line q e x /\ in_cylinder p v r x in
  ((exists x, common x) -> exists a b, cylinder_intersect_line c l None false = Ok (a, b) /\ forall x, common x <-> on_segment a b x) /\
  (~ (exists x, common x) -> cylinder_intersect_line c l None false = Raise (ValueError "The line does not intersect the cylinder.")).
Proof.
  intros p v q e r c l Hc Hl Lq common. apply cylinder_new_iff in Hc as (-> & K). apply line_new_iff in Hl as (-> & O). pose proof K as (Lp & Lv & Hz & Hr). pose proof O as (Le & He & Hq).
  pose proof (dot_self_pos v Hz) as P. pose proof (len_pos e He) as Pe.
  set (g := dv v e). set (h0 := dot (sub q p) v). set (H := dot v v). fold H in P.
  assert (C : forall t, common (at_t q e t) <-> 0 <= h0 + g * t <= H /\ tube_q p v q e r t <= 0).
  { intro t. unfold common. rewrite (in_cylinder_iff p v r) by (auto; rewrite length_at_t; congruence). rewrite height_at by congruence. unfold tube_q.
    rewrite <- (tube_value p v q e r t) by (first [exact P|congruence]). fold g h0 H. split; [intros (_ & E1 & E2); split; auto; lra|]. intros (E1 & E2). split; [apply on_line_unit; auto; exists t; reflexivity|]. split; auto. lra. }
  assert (Ex : forall x, common x -> exists t, x = at_t q e t). { intros x (Hx & _). apply on_line_unit in Hx as (t & ->); auto. exists t. reflexivity. }
  assert (Bt : forall t, exists b, between_cap_planes (N:=RNum) (MkCylinder p v r) (at_t q e t) = Ok b /\ (b = true <-> 0 <= h0 + g * t <= H)).
  { intro t. destruct (between_R p v (at_t q e t) r K) as (b & -> & Hb); [rewrite length_at_t; congruence|]. exists b. split; auto. rewrite Hb, height_at by congruence. reflexivity. }
  (* two parameters s, t whose hull is the common part *)
  assert (Fin : forall s t, (forall x, 0 <= h0 + g * x <= H /\ tube_q p v q e r x <= 0 <-> between s t x) ->
     cylinder_intersect_line (N:=RNum) (MkCylinder p v r) (MkLine q e) None false = Ok (at_t q e s, at_t q e t) ->
     ((exists x, common x) -> exists a b, cylinder_intersect_line (N:=RNum) (MkCylinder p v r) (MkLine q e) None false = Ok (a, b) /\ forall x, common x <-> on_segment a b x) /\
     (~ (exists x, common x) -> cylinder_intersect_line (N:=RNum) (MkCylinder p v r) (MkLine q e) None false = Raise (ValueError "The line does not intersect the cylinder."))).
  { intros s t S E. split.
    - intros _. do 2 eexists. split; [exact E|]. intro x. rewrite segment_at_t by congruence. split.
      + intro Hx. destruct (Ex x Hx) as (y & ->). exists y. split; auto. apply S, C. auto.
      + intros (y & Hy & ->). apply C, S. auto.
    - intro N. exfalso. apply N. exists (at_t q e s). apply C, S. destruct (Rle_dec s t); [left|right]; lra. }
  assert (Rai : (forall x, ~ (0 <= h0 + g * x <= H /\ tube_q p v q e r x <= 0)) ->
     cylinder_intersect_line (N:=RNum) (MkCylinder p v r) (MkLine q e) None false = Raise err_no_intersect ->
     ((exists x, common x) -> exists a b, cylinder_intersect_line (N:=RNum) (MkCylinder p v r) (MkLine q e) None false = Ok (a, b) /\ forall x, common x <-> on_segment a b x) /\
     (~ (exists x, common x) -> cylinder_intersect_line (N:=RNum) (MkCylinder p v r) (MkLine q e) None false = Raise (ValueError "The line does not intersect the cylinder."))).
  { intros S E. split; [|intros _; exact E]. intros (x & Hx). exfalso. destruct (Ex x Hx) as (y & ->). apply (S y), C, Hx. }
  (* unfold the program *)
  set (tb := th p v q e 0). set (tt := th p v q e H).
  assert (Prog : cylinder_intersect_line (N:=RNum) (MkCylinder p v r) (MkLine q e) None false =
    let pb := if Req_EM_T g 0 then None else if Rle_dec (tube_q p v q e r tb) 0 then Some (at_t q e tb) else None in
    let pt_ := if Req_EM_T g 0 then None else if Rle_dec (tube_q p v q e r tt) 0 then Some (at_t q e tt) else None in
    match pb, pt_ with
    | Some b, Some t => Ok (b, t)
    | _, _ =>
      let* (point_a, point_b) := intersect_infinite (N:=RNum) (MkCylinder p v r) (MkLine q e) None in
      let fallback := match pb with Some b => Some b | None => pt_ end in
      let* ba := between_cap_planes (N:=RNum) (MkCylinder p v r) point_a in
      let oa := if ba then Some point_a else fallback in
      let* bb := between_cap_planes (N:=RNum) (MkCylinder p v r) point_b in
      let ob := if bb then Some point_b else fallback in
      match oa, ob with Some a, Some b => Ok (a, b) | _, _ => Raise err_no_intersect end
    end).
  { unfold cylinder_intersect_line, line_dim, dim1. cbn [l_point]. rn. rewrite Lq. cbn [Nat.eqb negb]. unfold intersect_finite, intersect_caps. cbn [cy_point cy_vector].
    assert (PV : pv_ok p v) by (split; [congruence|]; split; auto; intro E; subst; discriminate).
    assert (PV' : pv_ok (add p v) v) by (split; [len|]; split; auto; intro E; apply (f_equal (@length R)) in E; lenh E; simpl in *; lia).
    rewrite plane_new_R by auto. cbn [bind]. rewrite vadd_R by congruence. cbn [bind]. rewrite plane_new_R by auto. cbn [bind].
    pose proof (cap_R p v q e r 0 K O Lq) as C0. rewrite scale_0, add_origin_r, Rmult_0_l in C0 by (rn; congruence). rewrite C0. cbn [bind].
    pose proof (cap_R p v q e r 1 K O Lq) as C1. rewrite scale_1, Rmult_1_l in C1. rewrite C1. cbn [bind]. reflexivity. }
  pose proof (qa_nonneg v e) as Qn. rewrite intersect_infinite_R in Prog by auto. cbv zeta in Prog.
  assert (Tb : tb = (0 - h0) / g) by reflexivity. assert (Tt : tt = (H - h0) / g) by reflexivity.
  destruct (Req_EM_T (qa v e) 0) as [Qa|Qa].
  - (* parallel to the axis *)
    set (u := scale (/ len e) e). assert (Lu : length u = length v) by (unfold u; len). assert (Zr : is_zero_vec (rej v u)) by (apply dot_self_zero_iff; exact Qa).
    assert (Gn : g <> 0).
    { intro Z. unfold is_zero_vec in Zr. rewrite length_rej in Zr by auto. unfold rej in Zr. unfold g, dv in Z. fold u in Z. rewrite Z in Zr.
      assert (Eu : u = origin (length v)). { rewrite <- Zr. apply pt_ext; [len|]. intros i _. repeat rewrite ?nth_scale, ?nth_sub by len. unfold Rdiv. ring. }
      destruct (unit_dir e He) as (U & _). fold u in U. rewrite Eu, dot_origin_l in U. lra. }
    assert (Qb : qb p v q e = 0). { unfold qb. fold u. rewrite Zr, dot_origin_l. ring. }
    assert (Qt : forall t, tube_q p v q e r t = qc p v q r) by (intro t; unfold tube_q; rewrite Qa, Qb; ring).
    rewrite !Qt in Prog. destruct (Req_EM_T g 0); [contradiction|]. destruct (Rle_dec (qc p v q r) 0) as [Hc|Hc].
    + apply (Fin tb tt); [|exact Prog]. intro x. rewrite Qt, slab_iff, <- Tb, <- Tt by auto. tauto.
    + apply Rai; [|exact Prog]. intros x (_ & X). rewrite Qt in X. contradiction.
  - assert (Qp : 0 < qa v e) by lra. set (D := qb p v q e * qb p v q e - 4 * qa v e * qc p v q r) in *.
    destruct (Rlt_dec D 0) as [HD|HD].
    + assert (N : forall t, 0 < tube_q p v q e r t) by (intro t; apply quad_no_root; auto). apply Rai; [intros x (_ & X); specialize (N x); lra|].
      rewrite Prog. destruct (Req_EM_T g 0); [reflexivity|]. destruct (Rle_dec _ 0) as [X|_]; [specialize (N tb); lra|]. destruct (Rle_dec _ 0) as [X|_]; [specialize (N tt); lra|]. reflexivity.
    + set (x1 := (- qb p v q e - sqrt D) / (2 * qa v e)) in *. set (x2 := (- qb p v q e + sqrt D) / (2 * qa v e)) in *.
      assert (X12 : x1 <= x2) by (apply quad_order; auto; fold D; lra).
      assert (T : forall t, tube_q p v q e r t <= 0 <-> x1 <= t <= x2).
      { intro t. unfold tube_q. rewrite (quad_factor _ _ _ x1 x2 t Qa) by (try reflexivity; fold D; lra). apply quad_sign; auto. }
      cbn [bind] in Prog. destruct (Bt x1) as (b1 & E1 & B1). destruct (Bt x2) as (b2 & E2 & B2).
      destruct (Req_EM_T g 0) as [G|G].
      * rewrite E1 in Prog. cbn [bind] in Prog. rewrite E2 in Prog. cbn [bind] in Prog. rewrite G, Rmult_0_l, Rplus_0_r in B1, B2.
        destruct (Rle_dec 0 h0) as [A1|A1]; [destruct (Rle_dec h0 H) as [A2|A2]|].
        -- rewrite (proj2 B1), (proj2 B2) in Prog by auto. apply (Fin x1 x2); [|exact Prog]. intro x. rewrite T, G. unfold between. split; [intros (_ & X); auto|]. intro X. split; lra.
        -- destruct b1; [exfalso; destruct (proj1 B1 eq_refl); lra|]. apply Rai; [|exact Prog]. intros x. rewrite G. lra.
        -- destruct b1; [exfalso; destruct (proj1 B1 eq_refl); lra|]. apply Rai; [|exact Prog]. intros x. rewrite G. lra.
      * assert (S : forall x, 0 <= h0 + g * x <= H <-> between tb tt x) by (intro x; rewrite Tb, Tt; apply slab_iff; auto).
        assert (Nbt : tb <> tt). { intro Z. assert (H = 0); [|lra]. replace H with (g * (tt - tb)) by (rewrite Tb, Tt; field; auto). rewrite Z. ring. }
        rewrite S in B1, B2. clearbody x1 x2 tb tt. clear Tb Tt.
        assert (Tb : forall t, (if Rle_dec (tube_q p v q e r t) 0 then Some (at_t q e t) else None) = (if Rle_dec x1 t then if Rle_dec t x2 then Some (at_t q e t) else None else None)).
        { intro t. specialize (T t). destruct (Rle_dec (tube_q p v q e r t) 0), (Rle_dec x1 t), (Rle_dec t x2); auto; exfalso; tauto. }
        rewrite !Tb in Prog. rewrite E1 in Prog. cbn [bind] in Prog. rewrite E2 in Prog. cbn [bind] in Prog.
        assert (F1 : b1 = true \/ b1 = false /\ ~ between tb tt x1) by (destruct b1; [left; auto|right; split; auto; intro X; apply B1 in X; discriminate]).
        assert (F2 : b2 = true \/ b2 = false /\ ~ between tb tt x2) by (destruct b2; [left; auto|right; split; auto; intro X; apply B2 in X; discriminate]).
        unfold between in *.
        destruct (Rle_dec x1 tb) as [A1|A1]; [destruct (Rle_dec tb x2) as [A2|A2]|].
        { destruct (Rle_dec x1 tt) as [A3|A3]; [destruct (Rle_dec tt x2) as [A4|A4]|].
          all: try (apply (Fin tb tt); [|exact Prog]; intro x; rewrite S, T; unfold between; intuition lra).
          all: destruct F1 as [-> |(-> & F1)]; try pose proof (proj1 B1 eq_refl); destruct F2 as [-> |(-> & F2)]; try pose proof (proj1 B2 eq_refl); cbv match in Prog.
          all: try (exfalso; lra).
          all: match type of Prog with _ = Ok (at_t _ _ ?s, at_t _ _ ?t) => apply (Fin s t); [|exact Prog]; intro x; rewrite S, T; unfold between; intuition lra | _ => apply Rai; [|exact Prog]; intro x; rewrite S, T; unfold between; intuition lra end. }
        all: destruct (Rle_dec x1 tt) as [A3|A3]; [destruct (Rle_dec tt x2) as [A4|A4]|].
        all: destruct F1 as [-> |(-> & F1)]; try pose proof (proj1 B1 eq_refl); destruct F2 as [-> |(-> & F2)]; try pose proof (proj1 B2 eq_refl); cbv match in Prog.
        all: try (exfalso; lra).
        all: match type of Prog with _ = Ok (at_t _ _ ?s, at_t _ _ ?t) => apply (Fin s t); [|exact Prog]; intro x; rewrite S, T; unfold between; intuition lra | _ => apply Rai; [|exact Prog]; intro x; rewrite S, T; unfold between; intuition lra end.
Qed.
Print Assumptions C61_intersect_finite.
(** Enters through the base, leaves through the side. *)
Example C61_nonvacuous : exists c l, cylinder_new (N:=RNum) [0; 0; 0] [0; 0; 5] 1 = Ok c /\ line_new (N:=RNum) [0; 0; 0] [1; 0; 1] = Ok l /\
  exists x, on_line [0; 0; 0] [1; 0; 1] x /\ in_cylinder [0; 0; 0] [0; 0; 5] 1 x.
Proof.
  assert (K : cyl_ok [0; 0; 0] [0; 0; 5] 1) by (split; [auto|]; split; [auto|]; split; [intro Z; apply dot_self_zero_iff in Z; simpl in Z; lra|lra]).
  eexists. eexists. split; [apply cylinder_new_R; auto|]. split; [apply line_new_R; [reflexivity|intro Z; inversion Z; lra]|].
  exists [1; 0; 1]. split; [exists 1; unfold scale; simpl; veq|]. apply in_cylinder_iff; auto. unfold rej. simpl. split; [lra|]. lra.
Qed.
