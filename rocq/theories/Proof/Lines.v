(** * Facts about the models of objects/line.py and objects/plane.py over the reals *)
From Coq Require Import String Reals List ZArith Lra Lia Psatz Bool.
From Verif.Model Require Import Outcome Num Instances Numpy BaseArray Vector Points Functions Line Plane.
From Verif.Spec Require Import Geometry Tolerance.
From Verif.Proof Require Import VecAlg Bridge Arrays Vectors Points.
Import ListNotations.
Local Open Scope R_scope.

(** A valid point/vector pair, as accepted by the constructors. *)
Definition pv_ok (p d : pt) : Prop := length p = length d /\ ~ is_zero_vec d /\ p <> [].

Lemma pv_ok_dir p d : pv_ok p d -> d <> [].
Proof. intros (_ & H & _). apply not_zero_nonempty; auto. Qed.
Lemma line_new_iff (p d : pt) l : line_new (N:=RNum) p d = Ok l <-> l = MkLine p d /\ pv_ok p d.
Proof. split; [apply line_new_inv|]. intros (-> & H1 & H2 & H3). apply line_new_R; auto. Qed.
Lemma plane_new_R (p n : pt) : pv_ok p n -> plane_new (N:=RNum) p n = Ok (MkPlane p n).
Proof. intros (H1 & H2 & H3). unfold plane_new. rewrite check_point_vector_R by auto. reflexivity. Qed.
Lemma plane_new_inv (p n : pt) pl : plane_new (N:=RNum) p n = Ok pl -> pl = MkPlane p n /\ pv_ok p n.
Proof.
  unfold plane_new. intro H. inv_bind H. apply check_point_vector_inv in E as (-> & E). injection H as <-. auto.
Qed.
Lemma check_point_vector_raise (p d : pt) : ~ pv_ok p d -> exists m, check_point_vector (N:=RNum) p d = Raise (ValueError m).
Proof.
  intro H. unfold check_point_vector. destruct p as [|x p]; [rewrite point_of_nil; eexists; reflexivity|].
  rewrite point_of_R by discriminate. cbn [bind]. destruct d as [|y d]; [change (vector_of (N:=RNum) []) with (point_of (N:=RNum) []); rewrite point_of_nil; eexists; reflexivity|].
  rewrite vector_of_R by discriminate. cbn [bind]. unfold dim1. rn. destruct (Nat.eqb_spec (length (x :: p)) (length (y :: d))) as [L|L]; cbn [negb]; [|eexists; reflexivity].
  rewrite is_zero_default. cbn [bind]. destruct (is_zero_vec_dec (y :: d)); [eexists; reflexivity|]. exfalso. apply H. split; auto. split; auto. discriminate.
Qed.

(** ** Projection on a line *)
Definition lproj (p d q : pt) : pt := add p (scale (dot d (sub q p) / dot d d) d).

Lemma length_lproj p d q : length p = length d -> length (lproj p d q) = length p.
Proof. intro H. unfold lproj. len. Qed.
Lemma line_project_point_R (p d q : pt) : pv_ok p d -> length q = length p ->
  line_project_point (N:=RNum) (MkLine p d) q = Ok (lproj p d q).
Proof.
  intros (L & Hz & Hp) Lq. unfold line_project_point. cbn [l_point l_dir]. rewrite from_points_R by auto. cbn [bind].
  rewrite project_vector_R by (auto; len). cbn [bind]. rewrite vadd_R by len. reflexivity.
Qed.
Lemma line_distance_point_R (p d q : pt) : pv_ok p d -> length q = length p ->
  line_distance_point (N:=RNum) (MkLine p d) q = Ok (dist q (lproj p d q)).
Proof.
  intros H Lq. unfold line_distance_point. rewrite line_project_point_R by auto. cbn [bind]. pose proof H as (L & _ & Hp).
  rewrite distance_point_R; [rewrite dist_sym; reflexivity|rewrite length_lproj; congruence|].
  intro E. apply (f_equal (@length R)) in E. rewrite length_lproj in E by auto. destruct p; [contradiction|discriminate].
Qed.
Lemma lproj_perp p d q : pv_ok p d -> length q = length p -> dot (sub q (lproj p d q)) d = 0.
Proof.
  intros (L & Hz & Hp) Lq. unfold lproj. rewrite sub_sub_l by len. rewrite dot_sub_l by len. rewrite dot_scale_l, (dot_comm (sub q p) d).
  pose proof (dot_self_pos d Hz). field. lra.
Qed.
Lemma lproj_on p d q : on_line p d (lproj p d q).
Proof. exists (dot d (sub q p) / dot d d). reflexivity. Qed.
Lemma on_line_length p d x : length p = length d -> on_line p d x -> length x = length p.
Proof. intros L [t ->]. len. Qed.
Lemma on_line_sub p d x y : length p = length d -> on_line p d x -> on_line p d y -> exists s, sub x y = scale s d.
Proof.
  intros L [t ->] [u ->]. exists (t - u). rewrite sub_add_add by len. rewrite scale_minus. reflexivity.
Qed.
Lemma line_pythagoras p d q y : pv_ok p d -> length q = length p -> on_line p d y ->
  dist q y * dist q y = dist q (lproj p d q) * dist q (lproj p d q) + dist (lproj p d q) y * dist (lproj p d q) y.
Proof.
  intros H Lq Hy. pose proof H as (L & Hz & Hp). set (m := lproj p d q). assert (Lm : length m = length p) by (apply length_lproj; auto).
  assert (Ly := on_line_length p d y L Hy). rewrite !dist_sq.
  replace (sub q y) with (add (sub q m) (sub m y)).
  2:{ apply pt_ext; [len|]. intros i _. rewrite nth_add by len. rewrite !nth_sub by len. ring. }
  rewrite dot_add_add by len. destruct (on_line_sub p d m y L (lproj_on p d q) Hy) as [s Hs]. rewrite Hs at 1.
  rewrite dot_scale_r. unfold m at 3. rewrite lproj_perp by auto. ring.
Qed.
Lemma lproj_nearest p d q y : pv_ok p d -> length q = length p -> on_line p d y -> y <> lproj p d q ->
  dist q (lproj p d q) < dist q y.
Proof.
  intros H Lq Hy N. pose proof H as (L & Hz & Hp). pose proof (line_pythagoras p d q y H Lq Hy) as P.
  pose proof (dist_nonneg q y). pose proof (dist_nonneg q (lproj p d q)).
  assert (0 < dist (lproj p d q) y).
  { destruct (dist_nonneg (lproj p d q) y) as [K|K]; auto. symmetry in K. apply dist_zero_iff in K; [congruence|].
    rewrite length_lproj by auto. symmetry. eapply on_line_length; eauto. }
  nra.
Qed.
Lemma lproj_fix p d q : pv_ok p d -> on_line p d q -> lproj p d q = q.
Proof.
  intros (L & Hz & Hp) [t ->]. unfold lproj. rewrite sub_add_cancel by len. rewrite dot_scale_r. f_equal. f_equal.
  pose proof (dot_self_pos d Hz). field. lra.
Qed.
Lemma lproj_min p d q : pv_ok p d -> length q = length p -> min_dist (on_line p d) q (dist q (lproj p d q)).
Proof.
  intros H Lq. split; [exists (lproj p d q); split; auto using lproj_on|].
  intros y Hy. destruct (list_eq_dec Req_EM_T y (lproj p d q)) as [->|N]; [lra|]. left. apply lproj_nearest; auto.
Qed.
Lemma min_dist_unique P x r s : min_dist P x r -> min_dist P x s -> r = s.
Proof. intros [(y & Hy & E) H] [(z & Hz & E') H']. specialize (H z Hz). specialize (H' y Hy). lra. Qed.
Lemma min_dist_ext P Q x r : (forall y, P y <-> Q y) -> min_dist P x r -> min_dist Q x r.
Proof. intros H [(y & Hy & E) K]. split; [exists y; split; auto; apply H; auto|]. intros z Hz. apply K, H; auto. Qed.
Lemma line_dist_zero p d q : pv_ok p d -> length q = length p -> (dist q (lproj p d q) = 0 <-> on_line p d q).
Proof.
  intros H Lq. pose proof H as (L & _ & _). split.
  - intro E. apply dist_zero_iff in E; [|rewrite length_lproj; auto]. rewrite E. apply lproj_on.
  - intro E. rewrite lproj_fix by auto. apply dist_refl.
Qed.
Lemma contains_gen_R (f : pt -> res R) (t : tol RNum) q r : f q = Ok r -> tol_ok t ->
  exists b, contains_point_gen (N:=RNum) f t q = Ok b /\ (b = true <-> close (rel_tol t) (abs_tol t) r 0).
Proof. intros E Ht. unfold contains_point_gen. rewrite E. cbn [bind]. rops. apply isclose_R; auto. Qed.
Lemma contains_gen_default (f : pt -> res R) q r : f q = Ok r ->
  contains_point_gen (N:=RNum) f tol_default q = Ok (if Req_EM_T r 0 then true else false).
Proof. intros E. unfold contains_point_gen. rewrite E. cbn [bind]. rops. apply isclose_default_zero. Qed.

(** Lines with the same points. *)
Definition same_set (P Q : pt -> Prop) : Prop := forall x, P x <-> Q x.
Lemma on_line_base p d : length p = length d -> on_line p d p.
Proof. intro L. exists 0. rewrite scale_0, <- L, add_origin_r; auto. Qed.
Lemma on_line_step p d : on_line p d (add p d).
Proof. exists 1. rewrite scale_1. reflexivity. Qed.
Lemma same_line_iff p d q e : pv_ok p d -> pv_ok q e -> length q = length p ->
  (same_set (on_line p d) (on_line q e) <-> on_line p d q /\ dependent d e).
Proof.
  intros (L & Hz & Hp) (L' & Hz' & Hp') Lq. split.
  - intro S. assert (Hq : on_line p d q) by (apply S, on_line_base; auto). split; auto.
    assert (Hs : on_line p d (add q e)) by (apply S, on_line_step).
    destruct (on_line_sub p d _ _ L Hs Hq) as [s E]. rewrite sub_add_cancel in E by auto. right. exists s; auto.
  - intros ([t Ht] & D). apply dependent_nonzero in D as [s Hs]; auto; [|congruence].
    assert (s <> 0). { intro; subst s. apply Hz. rewrite Hs, scale_0. apply zero_origin. }
    assert (Hq : forall i, nth i q 0 = nth i p 0 + t * nth i d 0).
    { intro i. rewrite Ht at 1. rewrite nth_add by len. rewrite nth_scale. reflexivity. }
    assert (Hd : forall i, nth i d 0 = s * nth i e 0).
    { intro i. rewrite Hs at 1. rewrite nth_scale. reflexivity. }
    intro x. split; intros [u ->].
    + exists ((u - t) * s).
      apply pt_ext; [len|]. intros i _. rewrite !nth_add by len. rewrite !nth_scale. rewrite Hq, Hd. ring.
    + exists (t + u * / s).
      apply pt_ext; [len|]. intros i _. rewrite !nth_add by len. rewrite !nth_scale. rewrite Hq, Hd. field. auto.
Qed.

(** ** Projection on a plane *)
Definition pproj (p n q : pt) : pt := add q (scale (dot n (sub p q) / dot n n) n).

Lemma length_pproj p n q : length q = length n -> length (pproj p n q) = length n.
Proof. intro H. unfold pproj. len. Qed.
Lemma plane_project_point_R (p n q : pt) : pv_ok p n -> length q = length p ->
  plane_project_point (N:=RNum) (MkPlane p n) q = Ok (pproj p n q).
Proof.
  intros (L & Hz & Hp) Lq. assert (Hq : q <> []) by (destruct p, q; simpl in *; congruence).
  unfold plane_project_point. cbn [pl_point pl_normal]. rewrite from_points_R by auto. cbn [bind].
  rewrite project_vector_R by (auto; len). cbn [bind]. rewrite point_of_R by auto. cbn [bind]. rewrite vadd_R by len. reflexivity.
Qed.
Lemma pproj_on p n q : pv_ok p n -> length q = length p -> on_plane p n (pproj p n q).
Proof.
  intros (L & Hz & Hp) Lq. split; [rewrite length_pproj; congruence|]. unfold pproj. rewrite sub_add_l by len.
  rewrite dot_add_l by len. rewrite dot_scale_l. rewrite (dot_comm n), (sub_sub_swap q p), dot_scale_l. pose proof (dot_self_pos n Hz). field. lra.
Qed.
Lemma pproj_diff p n q : length p = length n -> length q = length p -> sub q (pproj p n q) = scale (dot (sub q p) n / dot n n) n.
Proof.
  intros L Lq. unfold pproj. apply pt_ext; [len|]. intros i _. rewrite nth_sub by len. rewrite nth_add by len. rewrite !nth_scale.
  rewrite (sub_sub_swap q p), dot_scale_r, (dot_comm n). unfold Rdiv. ring.
Qed.
Lemma on_plane_sub p n x y : length p = length n -> on_plane p n x -> on_plane p n y -> dot (sub x y) n = 0.
Proof.
  intros L (Lx & Hx) (Ly & Hy). rewrite (sub_via x y p) by congruence. rewrite dot_sub_l by len. lra.
Qed.
Lemma plane_pythagoras p n q y : pv_ok p n -> length q = length p -> on_plane p n y ->
  dist q y * dist q y = dist q (pproj p n q) * dist q (pproj p n q) + dist (pproj p n q) y * dist (pproj p n q) y.
Proof.
  intros H Lq Hy. pose proof H as (L & Hz & Hp). set (m := pproj p n q). assert (Lm : length m = length p) by (unfold m; rewrite length_pproj; congruence).
  assert (Ly := proj1 Hy). rewrite !dist_sq. 
  replace (sub q y) with (add (sub q m) (sub m y)).
  2:{ apply pt_ext; [len|]. intros i _. rewrite nth_add by len. rewrite !nth_sub by len. ring. }
  assert (Z : dot (sub q m) (sub m y) = 0).
  { unfold m at 1. rewrite pproj_diff by auto. rewrite dot_scale_l, (dot_comm n (sub m y)).
    unfold m. rewrite (on_plane_sub p n _ y L (pproj_on p n q H Lq) Hy). ring. }
  rewrite dot_add_add by len. rewrite Z. ring.
Qed.
Lemma pproj_nearest p n q y : pv_ok p n -> length q = length p -> on_plane p n y -> y <> pproj p n q ->
  dist q (pproj p n q) < dist q y.
Proof.
  intros H Lq Hy N. pose proof H as (L & Hz & Hp). pose proof (plane_pythagoras p n q y H Lq Hy) as P.
  pose proof (dist_nonneg q y). pose proof (dist_nonneg q (pproj p n q)).
  assert (0 < dist (pproj p n q) y).
  { destruct (dist_nonneg (pproj p n q) y) as [K|K]; auto. symmetry in K. apply dist_zero_iff in K; [congruence|].
    rewrite length_pproj by congruence. destruct Hy. congruence. }
  nra.
Qed.
Lemma pproj_min p n q : pv_ok p n -> length q = length p -> min_dist (on_plane p n) q (dist q (pproj p n q)).
Proof.
  intros H Lq. split; [exists (pproj p n q); split; auto using pproj_on|].
  intros y Hy. destruct (list_eq_dec Req_EM_T y (pproj p n q)) as [->|N]; [lra|]. left. apply pproj_nearest; auto.
Qed.
Lemma pproj_fix p n q : pv_ok p n -> on_plane p n q -> pproj p n q = q.
Proof.
  intros (L & Hz & Hp) (Lq & E). unfold pproj. rewrite (sub_sub_swap q p), dot_scale_r, (dot_comm n), E.
  replace (-1 * 0 / dot n n) with 0 by (unfold Rdiv; ring). rewrite scale_0. apply add_origin_r. congruence.
Qed.
Definition sdist (p n q : pt) : R := dot n (sub q p) / len n.
Lemma plane_signed_R (p n q : pt) : pv_ok p n -> length q = length p ->
  plane_distance_point_signed (N:=RNum) (MkPlane p n) q = Ok (sdist p n q).
Proof.
  intros (L & Hz & Hp) Lq. unfold plane_distance_point_signed. cbn [pl_point pl_normal]. rewrite from_points_R by auto. cbn [bind].
  unfold scalar_projection. rewrite unit_R by auto. cbn [bind]. rewrite np_dot_R by len. rewrite dot_scale_l. f_equal. unfold sdist, Rdiv. ring.
Qed.
Lemma sdist_abs p n q : pv_ok p n -> length q = length p -> Rabs (sdist p n q) = dist q (pproj p n q).
Proof.
  intros (L & Hz & Hp) Lq. unfold dist. rewrite pproj_diff by auto. rewrite len_scale. unfold sdist.
  pose proof (len_pos n Hz). rewrite (dot_comm n). rewrite <- (Rabs_pos_eq (len n)) at 2 by lra. rewrite <- Rabs_mult. f_equal.
  rewrite <- len_sq. field. lra.
Qed.
Lemma plane_distance_point_R (p n q : pt) : pv_ok p n -> length q = length p ->
  plane_distance_point (N:=RNum) (MkPlane p n) q = Ok (dist q (pproj p n q)).
Proof. intros H Lq. unfold plane_distance_point. rewrite plane_signed_R by auto. cbn [bind]. rops. rewrite sdist_abs by auto. reflexivity. Qed.
Lemma sdist_zero p n q : pv_ok p n -> length q = length p -> (sdist p n q = 0 <-> on_plane p n q).
Proof.
  intros (L & Hz & Hp) Lq. pose proof (len_pos n Hz). unfold sdist, on_plane. rewrite (dot_comm n). split.
  - intro E. split; auto. apply (Rmult_eq_compat_r (len n)) in E. unfold Rdiv in E. rewrite Rmult_assoc, Rinv_l in E by lra. lra.
  - intros [_ ->]. unfold Rdiv. ring.
Qed.
Lemma same_plane_iff p n q m : pv_ok p n -> pv_ok q m -> length q = length p ->
  (same_set (on_plane p n) (on_plane q m) <-> on_plane p n q /\ dependent n m).
Proof.
  intros (L & Hz & Hp) (L' & Hz' & Hp') Lq.
  assert (Base : on_plane q m q) by (split; auto; rewrite sub_self, dot_origin_l; auto). split.
  - intro S. assert (Hq : on_plane p n q) by (apply S; auto). split; auto.
    set (v := sub m (scale (dot m n / dot n n) n)). assert (Lv : length v = length n) by (unfold v; len).
    pose proof (dot_self_pos n Hz).
    assert (Vn : dot v n = 0) by (unfold v; rewrite dot_sub_l by len; rewrite dot_scale_l; field; lra).
    assert (Hx : on_plane p n (add q v)).
    { split; [len|]. rewrite sub_add_l by len. rewrite dot_add_l by len. rewrite Vn. destruct Hq as [_ ->]. ring. }
    apply S in Hx. destruct Hx as [_ Hx]. rewrite sub_add_cancel in Hx by len.
    assert (Vv : dot v v = 0). { unfold v at 2. rewrite dot_sub_r by len. rewrite dot_scale_r, Vn, Hx. ring. }
    apply dot_self_zero in Vv. right. exists (dot m n / dot n n). apply sub_zero_iff; [len|]. exact Vv.
  - intros ((_ & Hq) & D). apply dependent_nonzero in D as [s Hs]; auto; [|congruence].
    assert (s <> 0). { intro; subst s. apply Hz. rewrite Hs, scale_0. apply zero_origin. }
    intro x. unfold on_plane. split; intros [Lx E]; (split; [congruence|]).
    + rewrite (sub_via x q p) by congruence. rewrite dot_sub_l by len. rewrite Hs, !dot_scale_r in *. 
      assert (dot (sub x p) m = 0) by nra. assert (dot (sub q p) m = 0) by nra. lra.
    + rewrite (sub_via x q p) in E by congruence. rewrite dot_sub_l in E by len. rewrite Hs, !dot_scale_r in *. nra.
Qed.
