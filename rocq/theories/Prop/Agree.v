(** * Property C80: different routes to the same answer agree

    The library often offers several ways to compute one quantity (a triangle's area from the object or from its three
    points, a projection or the intersection with a perpendicular, a fit or an exact construction, ...).  These theorems say
    that the different calls return the same value. *)
From Coq Require Import Reals List ZArith Lra Lia Psatz Bool Classical.
From Verif.Model Require Import Outcome Num Instances Numpy BaseArray Vector Points Functions Line Plane LineSegment Sphere Triangle.
From Verif.Spec Require Import Geometry Tolerance Linalg.
From Verif.Proof Require Import VecAlg Bridge Arrays Vectors Points Lines Triangles Ranks Fits Svd SvdExists CylFits.
From Verif.Prop Require Import Vectors Directions Points Lines Planes Balls Spheres Ranks LinePairs Fits Triangles BallFits Measure Stability.
Import ListNotations.
Local Open Scope R_scope.

(** ** Projection as an intersection *)
(** The projection of a point on a plane is the point where the perpendicular through it meets the plane. *)
Theorem C80_plane_projection : forall (p n q : pt) (pl : plane RNum) (l : line RNum), plane_new (N:=RNum) p n = Ok pl ->
  line_new (N:=RNum) q n = Ok l -> length q = length p ->
  exists x, plane_project_point pl q = Ok x /\ plane_intersect_line tol_default pl l = Ok x.
Proof.
  intros p n q pl l Hp Hl L. pose proof (proj1 (proj2 (C39_intersect_line p n q n _ l Hp Hl L))) as H.
  destruct (plane_new_inv _ _ _ Hp) as (-> & Pv). pose proof Pv as (Lp & Hz & Hne).
  assert (dot n n <> 0) as Hd by (pose proof (dot_self_pos n Hz); lra).
  destruct (H Hd) as (x & Hx & _ & _ & Hu). exists x. split; auto. rewrite plane_project_point_R by auto. apply (f_equal (@Ok pt)).
  apply Hu; [apply pproj_on; auto|]. unfold pproj. eexists; reflexivity.
Qed.
Print Assumptions C80_plane_projection.

(** The projection of a point on a line is the point where the line meets the plane through the point perpendicular to it. *)
Theorem C80_line_projection : forall (p d q : pt) (l : line RNum) (pl : plane RNum), line_new (N:=RNum) p d = Ok l ->
  plane_new (N:=RNum) q d = Ok pl -> length q = length p ->
  exists x, line_project_point l q = Ok x /\ plane_intersect_line tol_default pl l = Ok x.
Proof.
  intros p d q l pl Hl Hp L. pose proof (proj1 (proj2 (C39_intersect_line q d p d pl l Hp Hl (eq_sym L)))) as H.
  destruct (line_new_inv _ _ _ Hl) as (-> & Pv). pose proof Pv as (Lp & Hz & Hne).
  assert (dot d d <> 0) as Hd by (pose proof (dot_self_pos d Hz); lra).
  destruct (H Hd) as (x & Hx & _ & _ & Hu). exists x. split; auto. rewrite line_project_point_R by auto. apply (f_equal (@Ok pt)).
  apply Hu; [|apply lproj_on]. split; [rewrite length_lproj; congruence|].
  pose proof (lproj_perp p d q Pv L) as Z. rewrite dot_sub_l in * by (rewrite ?length_lproj; congruence). lra.
Qed.
Print Assumptions C80_line_projection.

(** Projection of vectors is projection of points on the line (plane) through the origin. *)
Theorem C80_vector_projection : forall (v w p : pt), ~ is_zero_vec v -> length w = length v -> length p = length v ->
  (forall l, line_new (N:=RNum) (origin (length v)) v = Ok l ->
    exists x, line_project_point l w = Ok x /\ project_vector (N:=RNum) v w = Ok x /\
      forall l', line_new (N:=RNum) p v = Ok l' -> line_project_vector l' w = Ok x) /\
  (forall pl pl', plane_new (N:=RNum) (origin (length v)) v = Ok pl -> plane_new (N:=RNum) p v = Ok pl' ->
    exists x y, plane_project_point pl w = Ok x /\ plane_project_vector pl' w = Ok x /\
      project_vector (N:=RNum) v w = Ok y /\ add x y = w).
Proof.
  intros v w p Hz Lw Lp. split.
  - intros l Hl. destruct (line_new_inv _ _ _ Hl) as (-> & Pv). exists (scale (dot v w / dot v v) v).
    rewrite line_project_point_R by (auto; unfold origin; rewrite repeat_length; auto). unfold lproj. rewrite sub_origin_r by auto.
    rewrite add_origin_l by (unfold scale; rewrite map_length; auto). split; auto. split; [apply project_vector_R; auto|].
    intros l' Hl'. destruct (line_new_inv _ _ _ Hl') as (-> & _). unfold line_project_vector. cbn [l_dir]. apply project_vector_R; auto.
  - intros pl pl' Hp Hp'. destruct (plane_new_inv _ _ _ Hp) as (-> & Pv). destruct (C38_project_vector p v w pl' Hp' (eq_trans Lw (eq_sym Lp))) as (x & Hx & Lx & Dx & (s & Es) & _).
    pose proof (dot_self_pos v Hz) as Pos. exists x, (scale (dot v w / dot v v) v).
    assert (Ex : s = dot v w / dot v v).
    { assert (E : dot (sub w x) v = dot (scale s v) v) by (rewrite Es; auto). rewrite dot_sub_l, Dx, dot_scale_l in E by (first [exact (eq_sym Lx)|exact Lx|len]). rewrite (dot_comm w v) in E. field_simplify_eq; [|lra]. lra. }
    split.
    { rewrite plane_project_point_R by (auto; unfold origin; rewrite repeat_length; auto). apply (f_equal (@Ok pt)). unfold pproj.
      assert (Q : dot v (sub (origin (length v)) w) = - dot v w) by (rewrite dot_sub_r by (unfold origin; rewrite ?repeat_length; auto); rewrite (dot_comm v (origin _)); assert (dot (origin (length v)) v = 0) as -> by apply dot_origin_l; lra).
      rewrite Q. replace (- dot v w / dot v v) with (- s) by (rewrite Ex; field; lra). clear - Es Lw Lx.
      revert v x Lw Lx Es. induction w as [|a w IH]; intros [|b v] [|c x] Lw Lx Es; try discriminate; auto. injection Lw as Lw. injection Lx as Lx. simpl in Es. injection Es as E0 Es.
      simpl. f_equal; [lra|]. apply IH; auto. }
    split; auto. split; [apply project_vector_R; auto|]. rewrite <- Ex, <- Es. clear - Lx Lw.
    assert (L : length x = length w) by congruence. clear Lw Lx. revert w L. induction x as [|a x IH]; intros [|b w] L; try discriminate; auto. simpl. f_equal; [lra|apply IH; auto].
Qed.
Print Assumptions C80_vector_projection.

(** A point projected on a sphere is where the ray from the centre meets it: the second point of the intersection of the sphere with the line
    from the centre through the point. *)
Theorem C80_sphere_projection : forall (p q : pt) (r : R) c l, sphere_new (N:=RNum) p r = Ok c -> length q = 3%nat ->
  line_from_points (N:=RNum) p q = Ok l ->
  exists a b, sphere_intersect_line c l = Ok (a, b) /\ ball_project_point c q = Ok b.
Proof.
  intros p q r c l Hc Lq Hl. destruct (sphere_inv _ _ _ Hc) as (-> & Hr & Lp).
  assert (Lpq : length q = length p) by exact (eq_trans Lq (eq_sym Lp)).
  assert (Hpn : p <> []) by (intro; subst; discriminate).
  assert (Hn : line_new (N:=RNum) p (sub q p) = Ok l). { unfold line_from_points in Hl. rewrite (from_points_R p q (eq_sym Lpq) Hpn) in Hl. exact Hl. }
  destruct (line_new_inv _ _ _ Hn) as (-> & Pv). pose proof Pv as (L & Hz & _).
  assert (Hqp : q <> p). { intro; subst. apply Hz. apply (proj2 (sub_zero_iff p p eq_refl)); auto. }
  pose proof (len_pos _ Hz) as Hlen.
  assert (Pon : on_line p (sub q p) (bproj p r q) /\ on_sphere p r (bproj p r q)). { split; [eexists; reflexivity|]. apply bproj_on; auto. }
  destruct (C49_intersect_line p (sub q p) p r _ _ Hc Hn Lp) as (H & _).
  destruct H as (a & b & Hab & Hall & _ & (k & Hk & Ek)). { exists (bproj p r q). exact Pon. }
  exists a, b. split; auto. rewrite ball_project_R' by auto. apply (f_equal (@Ok pt)).
  destruct (proj1 (Hall (bproj p r q)) Pon) as [E|E]; auto.
  destruct (proj2 (Hall b) (or_intror eq_refl)) as ((t & Et) & (Lb & Db)).
  assert (Edt : dist q p = len (sub q p)) by reflexivity.
  unfold dist in Db. rewrite Et, sub_add_cancel, len_scale in Db by len.
  assert (Eb : sub b a = scale (t - r / len (sub q p)) (sub q p)). { rewrite <- E, Et. unfold bproj. rewrite Edt. generalize (r / len (sub q p)); intro s. clear - Lp Lq. d3. simpl. veq. }
  assert (t - r / len (sub q p) = k).
  { rewrite Ek in Eb. assert (Q : dot (scale k (sub q p)) (sub q p) = dot (scale (t - r / len (sub q p)) (sub q p)) (sub q p)) by (rewrite Eb; auto).
    rewrite !dot_scale_l in Q. pose proof (dot_self_pos _ Hz). apply (Rmult_eq_reg_r (dot (sub q p) (sub q p))); lra. }
  assert (0 < r / len (sub q p)) by (apply Rdiv_lt_0_compat; auto).
  rewrite Rabs_pos_eq in Db by lra. assert (t = r / len (sub q p)) by (rewrite <- Db; field; lra).
  rewrite Et. unfold bproj. rewrite Edt. subst t. reflexivity.
Qed.
Print Assumptions C80_sphere_projection.

Lemma div_nonneg x y : 0 <= x -> 0 < y -> 0 <= x / y.
Proof. intros Hx Hy. unfold Rdiv. apply Rmult_le_pos; auto. left. apply Rinv_0_lt_compat; auto. Qed.

(** ** Plane geometry: lines of the plane as 2D planes *)
(** In two dimensions a line is the plane through the same point whose normal is the direction turned clockwise: the two
    objects contain the same points, give the same distances and the same sides. *)
Theorem C80_line_as_plane : forall (x0 y0 dx dy : R) (q : pt) l pl, line_new (N:=RNum) [x0; y0] [dx; dy] = Ok l ->
  plane_new (N:=RNum) [x0; y0] [dy; - dx] = Ok pl -> length q = 2%nat ->
  line_side_point l q = plane_side_point pl q /\ line_distance_point l q = plane_distance_point pl q /\
  line_project_point l q = plane_project_point pl q /\
  (forall t, line_contains_point t l q = plane_contains_point t pl q) /\ (on_line [x0; y0] [dx; dy] q <-> on_plane [x0; y0] [dy; - dx] q).
Proof.
  intros x0 y0 dx dy q l pl Hl Hp Lq. destruct (line_new_inv _ _ _ Hl) as (-> & Pl). destruct (plane_new_inv _ _ _ Hp) as (-> & Pp). apply list2 in Lq as (x & x1 & ->).
  pose proof Pl as (_ & Hz & _). pose proof (dot_self_pos _ Hz) as Pos. simpl in Pos.
  assert (E : lproj [x0; y0] [dx; dy] [x; x1] = pproj [x0; y0] [dy; - dx] [x; x1]).
  { unfold lproj, pproj. simpl. f_equal; [field; nra|f_equal; field; nra]. }
  assert (D : line_distance_point (MkLine (N:=RNum) [x0; y0] [dx; dy]) [x; x1] = plane_distance_point (MkPlane (N:=RNum) [x0; y0] [dy; - dx]) [x; x1]).
  { rewrite line_distance_point_R, plane_distance_point_R, E by auto. reflexivity. }
  split; [|split; [|split; [|split]]].
  - unfold line_side_point, plane_side_point. cbn [l_point l_dir]. rewrite from_points_R by (auto; discriminate). cbn [bind sub]. rewrite side_vector_R, plane_signed_R by auto. cbn [bind].
    rewrite int_sign_R. apply (f_equal (@Ok Z)). rewrite !nsign_R. unfold sdist.
    pose proof (len_pos _ (proj1 (proj2 Pp))) as Lp.
    assert (Q : (x - x0) * dy - (x1 - y0) * dx = dot [dy; - dx] (sub [x; x1] [x0; y0])) by (simpl; ring). rewrite Q. set (u := dot _ _) in *. set (v := len _) in *.
    assert (u < 0 <-> u / v < 0). { split; intro. { assert (0 < (- u) / v) by (apply Rdiv_lt_0_compat; lra). unfold Rdiv in *. lra. } destruct (Rlt_dec u 0); auto. assert (0 <= u / v) by (apply div_nonneg; lra). lra. }
    assert (0 < u <-> 0 < u / v). { split; intro. apply Rdiv_lt_0_compat; auto. destruct (Rlt_dec 0 u); auto. assert (0 <= (- u) / v) by (apply div_nonneg; lra). unfold Rdiv in *. lra. }
    destruct (Rlt_dec u 0), (Rlt_dec (u / v) 0); try tauto. destruct (Rlt_dec 0 u), (Rlt_dec 0 (u / v)); tauto.
  - exact D.
  - rewrite line_project_point_R, plane_project_point_R, E by auto. reflexivity.
  - intro t. unfold line_contains_point, plane_contains_point, contains_point_gen. rewrite D. reflexivity.
  - rewrite <- (line_dist_zero _ _ _ Pl), <- sdist_zero by auto. rewrite E, <- sdist_abs by auto.
    split; intro Z; [|rewrite Z; apply Rabs_R0]. destruct (Req_dec (sdist [x0; y0] [dy; - dx] [x; x1]) 0) as [|NZ]; auto. apply Rabs_pos_lt in NZ. lra.
Qed.
Print Assumptions C80_line_as_plane.

(** ... and intersecting with the line or with that plane gives the same point. *)
Theorem C80_intersection_2d : forall LA (t t' : tol RNum) check (p d : pt) (x0 y0 ex ey : R) l m pl x y, 0 <= rel_tol t -> 0 <= abs_tol t -> 0 <= rel_tol t' -> 0 <= abs_tol t' ->
  length p = 2%nat -> line_new (N:=RNum) p d = Ok l -> line_new (N:=RNum) [x0; y0] [ex; ey] = Ok m -> plane_new (N:=RNum) [x0; y0] [ey; - ex] = Ok pl ->
  line_intersect_line LA t check l m = Ok x -> plane_intersect_line t' pl l = Ok y -> x = y.
Proof.
  intros LA t t' check p d x0 y0 ex ey l m pl x y H1 H2 H3 H4 Lp Hl Hm Hp Hx Hy.
  destruct (C31_result_sound LA t check p d [x0; y0] [ex; ey] l m x H1 H2 Hl Hm Hx) as (Lq & _ & Ox & Oy).
  pose proof (line_new_inv _ _ _ Hl) as (_ & Pl). pose proof (line_new_inv _ _ _ Hm) as (_ & Pm).
  assert (Oy' : on_line [x0; y0] [ex; ey] x) by (apply Oy, low_dim_coplanar; auto; rewrite Lp; auto).
  destruct (C39_intersect_line [x0; y0] [ey; - ex] p d pl l Hp Hl Lp) as (_ & _ & K). destruct (K t' y H3 H4 Hy) as (_ & _ & U). apply U; auto.
  assert (Lx : length x = 2%nat) by (apply on_line_length in Oy'; auto).
  destruct (C80_line_as_plane x0 y0 ex ey x m pl Hm Hp Lx) as (_ & _ & _ & _ & E). apply E; auto.
Qed.
Print Assumptions C80_intersection_2d.

(** The signed angle of two vectors of the plane is their signed 3D angle about the third axis. *)
Theorem C80_angle_signed : forall x1 y1 x2 y2 k : R, 0 < k ->
  exists th, angle_signed (N:=RNum) RTrig [x1; y1] [x2; y2] = Ok th /\ angle_signed_3d (N:=RNum) RTrig [x1; y1; 0] [x2; y2; 0] [0; 0; k] = Ok th.
Proof.
  intros x1 y1 x2 y2 k Hk. exists (Ratan2 (x1 * y2 - y1 * x2) (x1 * x2 + y1 * y2)). split; [apply angle_signed_R|].
  assert (Dp : dependent (cross_spec [x1; y1; 0] [x2; y2; 0]) [0; 0; k]). { left. exists ((x1 * y2 - y1 * x2) / k). simpl. f_equal; [ring|f_equal; [ring|f_equal; field; lra]]. }
  rewrite angle_signed_3d_R; auto.
  - apply (f_equal (@Ok R)). assert (E : len [0; 0; k] = k) by (apply len_eq_val; simpl; lra). rewrite E. simpl. f_equal; [field; lra|ring].
  - intro Z; injection Z; lra.
  - apply C15_parallel_complete; auto; cbn [rel_tol abs_tol tol_default]; try (rn; lra); try discriminate. all: try (pose proof tol_default_ok as (? & ?); auto).
Qed.
Print Assumptions C80_angle_signed.

(** ** Measures *)
(** The area and normal of a Triangle object, against the free function and the plane through the same points. *)
Theorem C80_triangle : forall LA (a b c : pt) t, svd_correct LA -> triangle_new LA a b c = Ok t -> (length a <= 3)%nat ->
  exists k n, triangle_area t = Ok k /\ area_triangle (N:=RNum) a b c = Ok k /\ triangle_normal t = Ok n /\
    forall tolerance pl, plane_from_points LA tolerance a b c = Ok pl -> pl = MkPlane (N:=RNum) (pad_to 3 a) n.
Proof.
  intros LA a b c t HLA Ht L. destruct (triangle_tri LA a b c t HLA Ht) as (-> & Tr). pose proof Tr as Tr'. apply tri_iff in Tr' as (Ha & Lb & Lc & Nc).
  exists (1 / 2 * sqrt (gram (sub b a) (sub c a))), (nrm (sub b a) (sub c a)).
  rewrite triangle_area_R, area_triangle_R, triangle_normal_R by auto.
  split; auto. split; [apply (f_equal (@Ok R)); f_equal; lra|]. split; auto.
  intros tolerance pl Hpl. destruct (C34_from_points_sound LA tolerance a b c pl Hpl) as (_ & _ & _ & _ & Ep & En & _). destruct pl as [pp pn]. cbn [pl_point pl_normal] in *. subst. unfold nrm.
  rewrite !Planes.pad_sub by auto. reflexivity.
Qed.
Print Assumptions C80_triangle.

(** Half base times height, with the height measured by the Line object. *)
Theorem C80_area_by_line : forall (a b c : pt) l, a <> [] -> length b = length a -> length c = length a -> (length a <= 3)%nat -> line_from_points (N:=RNum) a b = Ok l ->
  exists base h, distance_point (N:=RNum) a b = Ok base /\ line_distance_point l c = Ok h /\ area_triangle (N:=RNum) a b c = Ok (base * h / 2).
Proof.
  intros a b c l Ha Lb Lc L Hl.
  assert (Hn : line_new (N:=RNum) a (sub b a) = Ok l). { unfold line_from_points in Hl. rewrite (from_points_R a b (eq_sym Lb) Ha) in Hl. exact Hl. }
  destruct (C28_distance_point_min a (sub b a) c l Hn Lc) as (h & Hh & Mh & _).
  destruct (C19_distance_is_metric a b c a Ha Lb Lc eq_refl) as (ab & _ & _ & Hab & _ & _ & Eab & _).
  destruct (C65_area a b c Ha Lb Lc L) as (k & Hk & _ & _ & Hm). exists ab, h. split; auto. split; auto. rn. rewrite Hk. apply (f_equal (@Ok R)). rewrite (Hm h Mh).
  replace ab with (dist a b); auto. rewrite Eab, dist_sym. reflexivity.
Qed.
Print Assumptions C80_area_by_line.

(** A third of base area times height, with the height measured by the Plane object. *)
Theorem C80_volume_by_plane : forall (LA : linalg RNum) tolerance (a b c d : pt) pl, length a = 3%nat -> length d = 3%nat ->
  plane_from_points LA tolerance a b c = Ok pl ->
  exists base h, area_triangle (N:=RNum) a b c = Ok base /\ plane_distance_point pl d = Ok h /\ volume_tetrahedron (N:=RNum) a b c d = Ok (base * h / 3).
Proof.
  intros LA tolerance a b c d pl La Ld Hp. destruct (C34_from_points_sound LA tolerance a b c pl Hp) as (Lb & Lc & _ & Nc & Ep & En & Nz & _).
  assert (Lb3 : length b = 3%nat) by exact (eq_trans (eq_sym Lb) La). assert (Lc3 : length c = 3%nat) by exact (eq_trans (eq_sym Lc) Lb3).
  assert (P3 : forall x : pt, length x = 3%nat -> pad_to 3 x = x) by (intros x Lx; unfold pad_to; rewrite Lx; simpl; apply app_nil_r).
  rewrite (P3 a La) in Ep, En. rewrite (P3 b Lb3), (P3 c Lc3) in En. destruct pl as [pp pn]. cbn [pl_point pl_normal] in *. subst pp pn.
  set (u := sub b a) in *. set (v := sub c a) in *. assert (Lu : length u = 3%nat) by (unfold u; len). assert (Lv : length v = 3%nat) by (unfold v; len).
  assert (Pv : pv_ok a (cross_spec u v)). { split; [rewrite length_cross by auto; auto|]. split; [exact Nz|]. intro Z; rewrite Z in La; discriminate La. }
  assert (La0 : a <> []) by (intro Z; rewrite Z in La; discriminate La).
  exists (/ 2 * sqrt (gram u v)), (dist d (pproj a (cross_spec u v) d)).
  split; [apply area_triangle_R; auto; try (exact (eq_trans Lb3 (eq_sym La))); try (exact (eq_trans Lc3 (eq_sym La))); lia|].
  split; [apply plane_distance_point_R; auto; exact (eq_trans Ld (eq_sym La))|].
  rewrite volume_triple_R; auto; try (exact (eq_trans Lb3 (eq_sym La))); try (exact (eq_trans Lc3 (eq_sym La))); try (exact (eq_trans Ld (eq_sym La))); try lia.
  apply (f_equal (@Ok R)). rewrite <- sdist_abs by (auto; exact (eq_trans Ld (eq_sym La))). fold u v. rewrite !P3 by (unfold u, v; len).
  unfold sdist, len. rewrite lagrange by auto. fold (gram u v). pose proof (len_pos _ Nz) as Lp. unfold len in Lp. rewrite lagrange in Lp by auto. fold (gram u v) in Lp.
  assert (Q : dot u (cross_spec v (sub d a)) = dot (cross_spec u v) (sub d a)). { assert (Lw : length (sub d a) = 3%nat) by len. revert Lw. generalize (sub d a). intros w Lw. clear - Lu Lv Lw. d3. simpl. ring. }
  rewrite Q. unfold Rdiv. rewrite Rabs_mult, Rabs_inv. rewrite (Rabs_pos_eq (sqrt (gram u v))) by lra. field. lra.
Qed.
Print Assumptions C80_volume_by_plane.

(** Distances, lengths of vectors and the origin. *)
Theorem C80_distance : forall a b v : pt, a <> [] -> length b = length a -> length v = length a ->
  exists r, distance_point (N:=RNum) a b = Ok r /\ (exists w, from_points (N:=RNum) a b = Ok w /\ norm (N:=RNum) w = Ok r) /\
    (exists k, norm (N:=RNum) v = Ok k /\ distance_point (N:=RNum) (origin (length v)) v = Ok k /\ distance_point (N:=RNum) a (add a v) = Ok k).
Proof.
  intros a b v Ha Lb Lv. destruct (C19_distance_is_metric a b a a Ha Lb eq_refl eq_refl) as (r & _ & _ & Hr & _ & _ & Er & _).
  exists r. split; auto. split. { exists (sub b a). split; [apply from_points_R; auto|]. rewrite norm_R. rewrite Er. reflexivity. }
  exists (len v). split; [apply norm_R|]. assert (Hv : length v <> 0%nat) by (destruct a; [contradiction|]; simpl in Lv; lia).
  destruct (C19_distance_is_metric (origin (length v)) v v v) as (k & _ & _ & Hk & _ & _ & Ek & _); try (unfold origin; rewrite repeat_length; reflexivity).
  { destruct v; [contradiction Hv; reflexivity|discriminate]. }
  destruct (C19_distance_is_metric a (add a v) a a Ha ltac:(len) eq_refl eq_refl) as (k' & _ & _ & Hk' & _ & _ & Ek' & _).
  rn. rewrite Hk, Hk'. split; apply (f_equal (@Ok R)); [rewrite Ek, sub_origin_r by auto|rewrite Ek', sub_add_cancel by auto]; reflexivity.
Qed.
Print Assumptions C80_distance.

(** ** Tests *)
(** Three points are collinear (tolerance 0) exactly when the line through two of them contains the third; four points of
    space are coplanar (tolerance 0) exactly when the plane through three of them contains the fourth, and exactly when the tetrahedron has volume 0.
    The lines through two pairs of points are coplanar when the four points are (any tolerance). *)
Theorem C80_collinear : forall LA (a b c : pt) l, svd_correct LA -> a <> [] -> length b = length a -> length c = length a -> line_from_points (N:=RNum) a b = Ok l ->
  exists r, are_collinear LA (Some 0) [a; b; c] = Ok r /\ line_contains_point tol_default l c = Ok r.
Proof.
  intros LA a b c l HL Ha Lb Lc Hl.
  assert (Hn : line_new (N:=RNum) a (sub b a) = Ok l). { unfold line_from_points in Hl. rewrite (from_points_R a b (eq_sym Lb) Ha) in Hl. exact Hl. }
  destruct (C23_zero_tolerance_exact LA (length a) [a; b; c] HL (tri_points_ok a b c Ha Lb Lc)) as (_ & r & _ & _ & Hr & _ & _ & Er & _).
  exists r. split; auto. destruct (C28_distance_point_min a (sub b a) c l Hn Lc) as (_ & _ & _ & T & F & _).
  destruct (line_new_inv _ _ _ Hn) as (-> & (Ld & Hz & _)).
  assert (Q : collinear [a; b; c] <-> on_line a (sub b a) c).
  { split; intro H.
    - apply collinear3_dependent in H; auto. destruct H as [(s & Es)|(s & Es)].
      + assert (Hs : s <> 0). { intro; subst s. apply Hz. rewrite Es. unfold is_zero_vec. rewrite length_scale. apply scale_0. }
        exists (/ s). rewrite Es, scale_scale, Rinv_l, scale_1 by auto. symmetry. apply add_sub_cancel; auto.
      + exists s. rewrite <- Es. symmetry. apply add_sub_cancel; auto.
    - exists a, (sub b a). split; [len|]. intros x Hx. destruct Hx as [<-|[<-|[<-|[]]]]; auto.
      + exists 0. rewrite scale_0, length_sub, Lb, Nat.min_id. symmetry. apply add_origin_r. auto.
      + exists 1. rewrite scale_1. symmetry. apply add_sub_cancel; auto. }
  rewrite Q in Er. destruct r; [apply T, Er; auto|apply F; intro H; apply Er in H; discriminate].
Qed.
Print Assumptions C80_collinear.

Lemma pad3_id (x : pt) : length x = 3%nat -> pad_to 3 x = x.
Proof. intro Lx; unfold pad_to; rewrite Lx; simpl; apply app_nil_r. Qed.
Theorem C80_coplanar : forall LA LA' tolerance (a b c d : pt) pl, svd_correct LA -> length a = 3%nat -> length d = 3%nat -> plane_from_points LA' tolerance a b c = Ok pl ->
  exists r k, are_coplanar LA (Some 0) [a; b; c; d] = Ok r /\ plane_contains_point tol_default pl d = Ok r /\
    volume_tetrahedron (N:=RNum) a b c d = Ok k /\ (k = 0 <-> r = true).
Proof.
  intros LA LA' tolerance a b c d pl HL La Ld Hp. destruct (C34_from_points_sound LA' tolerance a b c pl Hp) as (Lb & Lc & _ & Nc & Ep & En & Nz & _).
  assert (Lb3 : length b = 3%nat) by exact (eq_trans (eq_sym Lb) La). assert (Lc3 : length c = 3%nat) by exact (eq_trans (eq_sym Lc) Lb3).
  rewrite (pad3_id a La) in Ep, En. rewrite (pad3_id b Lb3), (pad3_id c Lc3) in En. destruct pl as [pp pn]. cbn [pl_point pl_normal] in *. subst pp pn.
  assert (Lba : length b = length a) by exact (eq_sym Lb). assert (Lca : length c = length a) by exact (eq_trans Lc3 (eq_sym La)). assert (Lda : length d = length a) by exact (eq_trans Ld (eq_sym La)).
  assert (La0 : a <> []) by (intro Z; rewrite Z in La; discriminate La).
  assert (Hr : points_ok (length a) [a; b; c; d]). { split; [discriminate|]. split; [rewrite La; lia|]. repeat constructor; auto. }
  destruct (C23_zero_tolerance_exact LA (length a) _ HL Hr) as (_ & _ & r & _ & _ & Hc & _ & _ & Er).
  destruct (C65_volume a b c d La0 Lba Lca Lda ltac:(lia)) as (k & Hk & _ & Ek & _).
  exists r, k. split; auto. split; [|split; auto; rewrite Ek; symmetry; auto].
  assert (Pv : pv_ok a (cross_spec (sub b a) (sub c a))). { split; [rewrite length_cross by len; auto|]. split; [exact Nz|auto]. }
  destruct (C37_side_point a (cross_spec (sub b a) (sub c a)) d _ (plane_new_R _ _ Pv) Lda) as (z & _ & _ & _ & Z & T & F & _).
  rewrite Z in T, F. rewrite <- (coplanar_triple a b c d) in Er by auto.
  assert (Q : dot (sub b a) (cross_spec (sub c a) (sub d a)) = 0 <-> on_plane a (cross_spec (sub b a) (sub c a)) d).
  { unfold on_plane. assert (E : dot (sub b a) (cross_spec (sub c a) (sub d a)) = dot (sub d a) (cross_spec (sub b a) (sub c a))). { clear - La Lb3 Lc3 Ld. d3. simpl. ring. } rewrite E. tauto. }
  rewrite Q in Er. destruct r; [apply T, Er; auto|]. destruct F as (_ & F). apply F. intro W. first [apply Er in W; discriminate|apply Z, Er in W; discriminate].
Qed.
Print Assumptions C80_coplanar.

Theorem C80_lines_coplanar : forall (LA : linalg RNum) tolerance (a b c d : pt) l m, length b = length a -> length c = length a -> length d = length a -> a <> [] ->
  line_from_points (N:=RNum) a b = Ok l -> line_from_points (N:=RNum) c d = Ok m ->
  line_is_coplanar LA tolerance l m = are_coplanar LA tolerance [a; b; c; d].
Proof.
  intros LA tolerance a b c d l m Lb Lc Ld Ha Hl Hm. assert (Hc : c <> []) by (intro Z; rewrite Z in Lc; destruct a; [contradiction|discriminate]).
  assert (Hn : line_new (N:=RNum) a (sub b a) = Ok l). { unfold line_from_points in Hl. rewrite (from_points_R a b (eq_sym Lb) Ha) in Hl. exact Hl. }
  assert (Hn' : line_new (N:=RNum) c (sub d c) = Ok m). { unfold line_from_points in Hm. rewrite (from_points_R c d (eq_trans Lc (eq_sym Ld)) Hc) in Hm. exact Hm. }
  destruct (line_new_inv _ _ _ Hn) as (-> & P). destruct (line_new_inv _ _ _ Hn') as (-> & P').
  rewrite is_coplanar_R by auto. unfold four. rewrite !scale_1, !add_sub_cancel by len. reflexivity.
Qed.
Print Assumptions C80_lines_coplanar.

(** ** Fits *)
Lemma two_points (p d q e x y : pt) : pv_ok p d -> pv_ok q e -> length q = length p -> x <> y ->
  on_line p d x -> on_line p d y -> on_line q e x -> on_line q e y -> same_set (on_line p d) (on_line q e).
Proof.
  intros P Q L N Hx Hy Hx' Hy'. pose proof P as (Lp & _). pose proof Q as (Lq & _).
  destruct Hx as (s & Ex). destruct Hy as (t & Ey). destruct Hx' as (s' & Ex'). destruct Hy' as (t' & Ey').
  assert (Ed : sub y x = scale (t - s) d). { rewrite Ex, Ey, sub_add_add, scale_minus by len. reflexivity. }
  assert (Ee : sub y x = scale (t' - s') e). { rewrite Ex', Ey', sub_add_add, scale_minus by len. reflexivity. }
  assert (Hts : t - s <> 0). { intro Z. apply N. assert (t = s) by lra. subst t. congruence. }
  assert (Hts' : t' - s' <> 0). { intro Z. apply N. assert (t' = s') by lra. subst t'. congruence. }
  assert (Ed' : d = scale ((t' - s') / (t - s)) e). { rewrite Ee in Ed. apply (f_equal (scale (/ (t - s)))) in Ed. rewrite !scale_scale in Ed. rewrite (Rinv_l (t - s)), scale_1 in Ed by auto. rewrite <- Ed. f_equal. field. auto. }
  apply same_line_iff; auto. split; [|left; eexists; exact Ed'].
  assert (Eq : sub q p = sub (scale s d) (scale s' e)).
  { clear - Ex Ex' Lp Lq L. revert q d e x L Lp Lq Ex Ex'. induction p as [|a p IH]; intros [|b q] [|c d] [|f e] x L Lp Lq Ex Ex'; try discriminate; auto. simpl in *. destruct x as [|g x]; [discriminate|].
    injection Ex as E1 E2. injection Ex' as E3 E4. f_equal; [lra|]. apply (IH q d e x); auto; lia. }
  exists (s - s' * ((t - s) / (t' - s'))). apply (f_equal (add p)) in Eq. rewrite add_sub_cancel in Eq by auto. rewrite Eq. f_equal.
  rewrite scale_minus. f_equal. rewrite Ed', scale_scale. f_equal. field. auto.
Qed.
Lemma sq_error_zero (P : pt -> Prop) ps : sq_error P ps 0 -> (forall x y, In x ps -> P y -> length y = length x) -> forall x, In x ps -> P x.
Proof.
  intros (ds & F & E) Hl x Hx. assert (G : Forall (fun s => 0 <= s * s) ds) by (apply Forall_forall; intros; nra).
  revert Hl x Hx. induction F as [|y s ps ds M F IH]; intros Hl x Hx; [destruct Hx|]. simpl in E. fold (Rsum (map (fun s => s * s) ds)) in E. pose proof (Forall_inv G) as G0. apply Forall_inv_tail in G.
  assert (0 <= Rsum (map (fun s => s * s) ds)). { apply Rsum_nonneg. intros z Hz. apply in_map_iff in Hz as (w & <- & _). nra. }
  assert (s * s = 0 /\ Rsum (map (fun s => s * s) ds) = 0) as (S0 & R0) by lra. destruct Hx as [<-|Hx].
  - destruct M as ((z & Hz & Dz) & _). assert (Z0 : s = 0) by nra. rewrite Z0 in Dz. apply dist_zero_iff in Dz; [congruence|]. symmetry. apply Hl; simpl; auto. 
  - apply IH; auto. intros; apply Hl; simpl; auto.
Qed.

(** Points of a line (not all equal): Line.best_fit returns that line; in particular the fit of two points is the line from_points returns. *)
Theorem C80_line_fit : forall LA tolerance d rows (p u : pt) l l', svd_correct LA -> points_ok d rows -> tol_nonneg tolerance ->
  line_new (N:=RNum) p u = Ok l -> (forall x, In x rows -> on_line p u x) -> line_best_fit LA tolerance rows = Ok l' ->
  same_set (on_line (l_point l') (l_dir l')) (on_line p u).
Proof.
  intros LA tolerance d rows p u l l' HL Hr Ht Hl Hon Hf. pose proof Hr as (Hne & Hd & F). rewrite Forall_forall in F. destruct (line_new_inv _ _ _ Hl) as (-> & Pv). pose proof Pv as (Lu & _).
  assert (Nc : ~ concurrent rows). { intro C. destruct (C33_concurrent_rejected LA tolerance d rows HL Hr Ht C) as (m & Hm). rewrite Hm in Hf. discriminate. }
  assert (Hc : are_concurrent LA tolerance rows = Ok false).
  { pose proof Hf as Hf'. unfold line_best_fit, line_best_fit_err in Hf'. rewrite (points_of_R rows d Hne Hd (proj2 (proj2 Hr))) in Hf'. cbn [bind] in Hf'. destruct (are_concurrent LA tolerance rows) as [[]| |]; try discriminate; auto. }
  destruct (C33_line_best_fit LA tolerance d rows HL Hr Hc) as (q & e & err & _ & Hf' & Hn & Hq & Se & _ & Hcol).
  assert (l' = MkLine (N:=RNum) q e) by congruence. subst l'. cbn [l_point l_dir]. destruct (line_new_inv _ _ _ Hn) as (_ & Pv'). pose proof Pv' as (Lq & _).
  assert (Lqd : length q = d). { rewrite (centroid_R d) in Hq by auto. injection Hq as <-. apply length_cent; auto; apply Hr. }
  assert (err = 0) by (apply Hcol; exists p, u; auto). subst err.
  assert (On : forall x, In x rows -> on_line q e x). { apply (sq_error_zero _ _ Se). intros x y Hx (t & ->). rewrite length_add, length_scale, <- Lq, Nat.min_id, Lqd. symmetry. apply F; auto. }
  assert (Ex : exists x y, In x rows /\ In y rows /\ x <> y).
  { apply NNPP. intro N. apply Nc. intros x y Hx Hy. apply NNPP. intro Nx. apply N. exists x, y. auto. }
  destruct Ex as (x & y & Hx & Hy & Nxy). apply (two_points q e p u x y); auto.
  assert (L1 := F x Hx). destruct (Hon x Hx) as (t & Et). rewrite Et, length_add, length_scale, <- Lu, Nat.min_id in L1. congruence.
Qed.
Print Assumptions C80_line_fit.

Corollary C80_line_through_two : forall LA tolerance (a b : pt) l l', svd_correct LA -> a <> [] -> length b = length a -> tol_nonneg tolerance ->
  line_from_points (N:=RNum) a b = Ok l -> line_best_fit LA tolerance [a; b] = Ok l' ->
  same_set (on_line (l_point l') (l_dir l')) (on_line (l_point l) (l_dir l)).
Proof.
  intros LA tolerance a b l l' HL Ha Lb Ht Hl Hf.
  assert (Hn : line_new (N:=RNum) a (sub b a) = Ok l). { unfold line_from_points in Hl. rewrite (from_points_R a b (eq_sym Lb) Ha) in Hl. exact Hl. }
  pose proof (line_new_inv _ _ _ Hn) as (E & _). rewrite E. cbn [l_point l_dir].
  apply (C80_line_fit LA tolerance (length a) [a; b] a (sub b a) l l'); auto.
  - split; [discriminate|]. split; [destruct a; [contradiction|simpl; lia]|repeat constructor; auto].
  - intros x Hx. destruct Hx as [<-|[<-|[]]]; [exists 0|exists 1]; rewrite ?scale_1, ?scale_0, ?length_sub, ?Lb, ?Nat.min_id, ?add_sub_cancel, ?add_origin_r; auto.
Qed.
Print Assumptions C80_line_through_two.

Ltac vlra0 := repeat (apply (f_equal2 (@cons R)); [lra|]); reflexivity.
Lemma perp_both (n u v : pt) : length n = 3%nat -> length u = 3%nat -> length v = 3%nat -> ~ dependent u v -> dot u n = 0 -> dot v n = 0 ->
  exists s, n = scale s (cross_spec u v).
Proof.
  intros Ln Lu Lv Nd Du Dv. assert (Nz : ~ is_zero_vec (cross_spec u v)) by (intro Z; apply Nd, cross_zero_iff; auto).
  assert (Lw : length (cross_spec u v) = 3%nat) by (apply length_cross; auto).
  assert (Z : is_zero_vec (cross_spec n (cross_spec u v))).
  { assert (E : cross_spec n (cross_spec u v) = sub (scale (dot v n) u) (scale (dot u n) v)) by (clear - Ln Lu Lv; d3; simpl; veq).
    rewrite E, Du, Dv, !scale_0, Lu, Lv. clear. unfold is_zero_vec. simpl. vlra0. }
  apply cross_zero_iff in Z; auto. destruct Z as [Z|(s & Es)]; auto.
  assert (s <> 0). { intro; subst s. apply Nz. rewrite Es. unfold is_zero_vec. rewrite length_scale. apply scale_0. }
  exists (/ s). rewrite Es, scale_scale, Rinv_l, scale_1 by auto. reflexivity.
Qed.
(** Points of a plane (not on one line): Plane.best_fit returns that plane; in particular the fit of three points is the plane from_points returns. *)
Theorem C80_plane_fit : forall LA tolerance rows (p n : pt) pl pl', svd_correct LA -> points_ok 3 rows -> tol_nonneg tolerance ->
  plane_new (N:=RNum) p n = Ok pl -> (forall x, In x rows -> on_plane p n x) -> plane_best_fit LA tolerance rows = Ok pl' ->
  same_set (on_plane (pl_point pl') (pl_normal pl')) (on_plane p n).
Proof.
  intros LA tolerance rows p n pl pl' HL Hr Ht Hp Hon Hf. pose proof Hr as (Hne & Hd & F). rewrite Forall_forall in F. destruct (plane_new_inv _ _ _ Hp) as (-> & Pv). pose proof Pv as (Ln & Hz & _).
  assert (Nc : ~ collinear rows). { intro C. destruct (proj2 (C41_rejections LA tolerance 3 rows HL Hr) Ht C) as (m & Hm). rewrite Hm in Hf. discriminate. }
  assert (Hc : are_collinear LA tolerance rows = Ok false).
  { pose proof Hf as Hf'. unfold plane_best_fit, plane_best_fit_err in Hf'. rewrite (points_of_R rows 3 Hne Hd (proj2 (proj2 Hr))) in Hf'. cbn [bind] in Hf'. destruct (negb (Nat.eqb (dim2 rows) 3)); [discriminate|]. destruct (are_collinear LA tolerance rows) as [[]| |]; try discriminate; auto. }
  destruct (C41_plane_best_fit LA tolerance rows HL Hr Ht Hc) as (q & m & err & _ & Hf' & Hn & _ & Hq & Se & _ & Hcop).
  assert (pl' = MkPlane (N:=RNum) q m) by congruence. subst pl'. cbn [pl_point pl_normal]. destruct (plane_new_inv _ _ _ Hn) as (_ & Pv'). pose proof Pv' as (Lq & Hz' & _).
  assert (Lqd : length q = 3%nat). { rewrite (centroid_R 3) in Hq by auto. injection Hq as <-. apply length_cent; auto; apply Hr. }
  destruct rows as [|x rows]; [contradiction|]. set (ps := x :: rows) in *. assert (Lx : length x = 3%nat) by (apply F; simpl; auto).
  assert (Lp : length p = 3%nat) by (destruct (Hon x (or_introl eq_refl)) as (E & _); congruence). assert (Ln3 : length n = 3%nat) by congruence. assert (Lm3 : length m = 3%nat) by congruence.
  assert (err = 0). { apply Hcop. apply (plane_coplanar p n); auto; [apply Hr|]. intros y Hy. apply Hon; auto. } subst err.
  assert (On : forall y, In y ps -> on_plane q m y). { apply (sq_error_zero _ _ Se). intros y z Hy (Lz & _). rewrite Lz, Lqd. symmetry. apply F; auto. }
  assert (Ex : exists y z, In y ps /\ In z ps /\ ~ dependent (sub y x) (sub z x)).
  { apply NNPP. intro N. apply Nc. assert (N' : forall y z, In y ps -> In z ps -> dependent (sub y x) (sub z x)). { intros y z Hy Hz0. apply NNPP. intro Nx. apply N. exists y, z. auto. }
    destruct (classic (exists y, In y ps /\ y <> x)) as [(y & Hy & Ny)|Q].
    - exists x, (sub y x). assert (Ly := F y Hy). split; [len|]. intros z Hz0. assert (Lz := F z Hz0).
      destruct (N' y z Hy Hz0) as [(s & Es)|(s & Es)].
      + assert (Hs : s <> 0). { intro Hs; subst s. apply Ny. apply (proj1 (sub_zero_iff y x ltac:(congruence))). rewrite Es. unfold is_zero_vec. rewrite length_scale. apply scale_0. }
        exists (/ s). rewrite Es, scale_scale, Rinv_l, scale_1 by auto. symmetry. apply add_sub_cancel; congruence.
      + exists s. rewrite <- Es. symmetry. apply add_sub_cancel; congruence.
    - exists x, x. split; auto. intros z Hz0. exists 0. rewrite scale_0, Lx, add_origin_r by auto. apply NNPP. intro; apply Q. exists z. auto. }
  destruct Ex as (y & z & Hy & Hz0 & Nd). assert (Ly := F y Hy). assert (Lz := F z Hz0).
  assert (D : forall r k w, length r = 3%nat -> length k = 3%nat -> length w = 3%nat -> on_plane r k x -> on_plane r k w -> dot (sub w x) k = 0).
  { intros r k w Lr Lk Lw (_ & A) (_ & B). rewrite !dot_sub_l in * by congruence. lra. }
  assert (Hx : In x ps) by (left; reflexivity). assert (Lyx : length (sub y x) = 3%nat) by len. assert (Lzx : length (sub z x) = 3%nat) by len.
  destruct (perp_both n (sub y x) (sub z x) Ln3 Lyx Lzx Nd (D p n y Lp Ln3 Ly (Hon x Hx) (Hon y Hy)) (D p n z Lp Ln3 Lz (Hon x Hx) (Hon z Hz0))) as (s & Es).
  destruct (perp_both m (sub y x) (sub z x) Lm3 Lyx Lzx Nd (D q m y Lqd Lm3 Ly (On x Hx) (On y Hy)) (D q m z Lqd Lm3 Lz (On x Hx) (On z Hz0))) as (t & Et).
  apply same_plane_iff; auto; [congruence|]. split.
  - split; [congruence|]. assert (Dp : dot (sub x p) n = 0) by (apply Hon; simpl; auto). assert (Dq : dot (sub x q) m = 0) by (apply On; simpl; auto).
    assert (Hs : s <> 0). { intro Hs; subst s. apply Hz. rewrite Es. unfold is_zero_vec. rewrite length_scale. apply scale_0. }
    rewrite Es in Dp. rewrite Et in Dq |- *. rewrite (dot_comm _ (scale s _)), dot_scale_l in Dp. rewrite dot_scale_r, (dot_comm (sub x q)) in Dq. rewrite dot_scale_r, (dot_comm (sub p q)). set (w := cross_spec (sub y x) (sub z x)) in *.
    assert (Dp' : dot w (sub x p) = 0) by (apply Rmult_integral in Dp; destruct Dp; [contradiction|auto]). rewrite !dot_sub_r in * by congruence. nra.
  - assert (Ht0 : t <> 0). { intro Hs; subst t. apply Hz'. rewrite Et. unfold is_zero_vec. rewrite length_scale. apply scale_0. }
    right. exists (s / t). rewrite Es, Et, scale_scale. f_equal. field. auto.
Qed.
Print Assumptions C80_plane_fit.

Corollary C80_plane_through_three : forall LA tolerance tolerance' (a b c : pt) pl pl', svd_correct LA -> length a = 3%nat -> tol_nonneg tolerance' ->
  plane_from_points LA tolerance a b c = Ok pl -> plane_best_fit LA tolerance' [a; b; c] = Ok pl' ->
  same_set (on_plane (pl_point pl') (pl_normal pl')) (on_plane (pl_point pl) (pl_normal pl)).
Proof.
  intros LA tolerance tolerance' a b c pl pl' HL La Ht Hp Hf. destruct (C34_from_points_sound LA tolerance a b c pl Hp) as (Lb & Lc & _ & _ & Ep & En & Nz & Oa & Ob & Oc & _).
  assert (Lb3 : length b = 3%nat) by exact (eq_trans (eq_sym Lb) La). assert (Lc3 : length c = 3%nat) by exact (eq_trans (eq_sym Lc) Lb3).
  rewrite (pad3_id a La) in *. rewrite (pad3_id b Lb3) in *. rewrite (pad3_id c Lc3) in *.
  apply (C80_plane_fit LA tolerance' [a; b; c] (pl_point pl) (pl_normal pl) pl pl'); auto.
  - split; [discriminate|]. split; [lia|]. repeat constructor; auto.
  - destruct pl as [pp pn]. cbn [pl_point pl_normal] in *. apply plane_new_R. subst. split; [rewrite length_cross by len; auto|]. split; auto. intro Z; rewrite Z in La; discriminate La.
  - intros x Hx. destruct Hx as [<-|[<-|[<-|[]]]]; auto.
Qed.
Print Assumptions C80_plane_through_three.


(** Three points of the plane: the fitted circle is the circle through them. *)
Theorem C80_circle_fit : forall LA (a b c : pt) k, svd_correct LA -> lstsq_correct LA -> circle_best_fit LA [a; b; c] = Ok k ->
  circle_from_points LA None a b c = Ok k.
Proof.
  intros LA a b c k HL HQ Hk. pose proof Hk as Hi. unfold circle_best_fit in Hi.
  destruct (points_of (N:=RNum) [a; b; c]) as [qs| |] eqn:E; cbn [bind] in Hi; [|discriminate|discriminate]. apply points_of_inv in E as (-> & Hne & Hd & F & _).
  destruct (Nat.eqb_spec (dim2 (N:=RNum) [a; b; c]) 2) as [E2|E2]; cbn [negb] in Hi; [|discriminate]. destruct (Nat.ltb _ _); [discriminate|].
  destruct (affine_rank LA None [a; b; c]) as [r| |] eqn:Er; cbn [bind] in Hi; [|discriminate|discriminate]. destruct (Nat.eqb_spec r 2) as [->|]; cbn [negb] in Hi; [|discriminate]. clear Hi.
  rewrite E2 in F. assert (HP : points_ok 2 [a; b; c]) by (split; [discriminate|split; [lia|exact F]]). pose proof (Forall_inv F) as La. pose proof (Forall_inv (Forall_inv_tail F)) as Lb. pose proof (Forall_inv (Forall_inv_tail (Forall_inv_tail F))) as Lc.
  assert (Hcol : are_collinear LA None [a; b; c] = Ok false) by (unfold are_collinear; rewrite Er; reflexivity).
  destruct (proj1 (C46_from_points LA None a b c HL I La Lb Lc) Hcol) as (p & s & Hf & Hn & Oa & Ob & Oc & _).
  destruct (C50_circle_best_fit LA [a; b; c] HL HQ HP ltac:(simpl; lia) Er) as (k' & p' & s' & Hk' & -> & _ & _ & _ & _ & U).
  apply circle_inv in Hn as (_ & Ps & (x0 & y0 & Ep)). assert (Lp : length p = 2%nat) by (rewrite Ep; reflexivity). clear x0 y0 Ep. destruct (U p s Ps Lp) as (-> & ->). { intros x Hx. destruct Hx as [<-|[<-|[<-|[]]]]; auto. }
  rn. rewrite Hf. rewrite <- Hk, Hk'. reflexivity.
Qed.
Print Assumptions C80_circle_fit.

(** Four points of space (not in a plane) lie on exactly one sphere, and that is the fitted one. *)
Lemma circumsphere (a b c d : pt) : length a = 3%nat -> length b = 3%nat -> length c = 3%nat -> length d = 3%nat -> ~ coplanar [a; b; c; d] ->
  exists m r, length m = 3%nat /\ 0 < r /\ on_sphere m r a /\ on_sphere m r b /\ on_sphere m r c /\ on_sphere m r d.
Proof.
  intros La Lb Lc Ld Nc. rewrite <- (coplanar_triple a b c d) in Nc by auto.
  set (u := sub b a) in *. set (v := sub c a) in *. set (w := sub d a) in *. assert (Lu : length u = 3%nat) by (unfold u; len). assert (Lv : length v = 3%nat) by (unfold v; len). assert (Lw : length w = 3%nat) by (unfold w; len).
  set (T := dot u (cross_spec v w)) in *.
  (* offset of the centre from [a] *)
  set (o := scale (/ (2 * T)) (add (add (scale (dot u u) (cross_spec v w)) (scale (dot v v) (cross_spec w u))) (scale (dot w w) (cross_spec u v)))).
  assert (Lo : length o = 3%nat) by (unfold o; rewrite length_scale, !length_add, !length_scale, !length_cross by auto; reflexivity).
  assert (Du : dot u o = dot u u / 2).
  { assert (E : dot u (add (add (scale (dot u u) (cross_spec v w)) (scale (dot v v) (cross_spec w u))) (scale (dot w w) (cross_spec u v))) = dot u u * T) by (unfold T; clear - Lu Lv Lw; d3; simpl; ring).
    unfold o. rewrite dot_scale_r, E. field. auto. }
  assert (Dv : dot v o = dot v v / 2).
  { assert (E : dot v (add (add (scale (dot u u) (cross_spec v w)) (scale (dot v v) (cross_spec w u))) (scale (dot w w) (cross_spec u v))) = dot v v * T) by (unfold T; clear - Lu Lv Lw; d3; simpl; ring).
    unfold o. rewrite dot_scale_r, E. field. auto. }
  assert (Dw : dot w o = dot w w / 2).
  { assert (E : dot w (add (add (scale (dot u u) (cross_spec v w)) (scale (dot v v) (cross_spec w u))) (scale (dot w w) (cross_spec u v))) = dot w w * T) by (unfold T; clear - Lu Lv Lw; d3; simpl; ring).
    unfold o. rewrite dot_scale_r, E. field. auto. }
  assert (Zo : ~ is_zero_vec o). { intro Z. assert (Zu : dot u o = 0) by (rewrite Z; apply dot_origin_r). rewrite Du in Zu. assert (Z0 : dot u u = 0) by lra. apply dot_self_zero_iff in Z0. apply Nc. unfold T. rewrite Z0. apply dot_origin_l. }
  clearbody o. exists (add a o), (len o). split; [len|]. split; [apply len_pos; auto|].
  assert (On : forall x, length x = 3%nat -> dot (sub x a) o = dot (sub x a) (sub x a) / 2 -> on_sphere (add a o) (len o) x).
  { intros x Lx Hx. split; [len|]. unfold dist, len. f_equal. rewrite sub_sub_l by len. assert (Ly : length (sub x a) = 3%nat) by len. set (y := sub x a) in *. clearbody y. rewrite dot_sub_l, !dot_sub_r by congruence. rewrite (dot_comm o y). lra. }
  split; [apply On; auto; rewrite sub_self, !dot_origin_l; lra|]. split; [apply On; auto|]. split; apply On; auto.
Qed.
Theorem C80_sphere_fit : forall LA (a b c d : pt) k, svd_correct LA -> lstsq_correct LA -> sphere_best_fit LA [a; b; c; d] = Ok k ->
  on_sphere (c_point k) (c_radius k) a /\ on_sphere (c_point k) (c_radius k) b /\ on_sphere (c_point k) (c_radius k) c /\ on_sphere (c_point k) (c_radius k) d /\
  forall p r, length p = 3%nat -> 0 < r -> on_sphere p r a -> on_sphere p r b -> on_sphere p r c -> on_sphere p r d -> p = c_point k /\ r = c_radius k.
Proof.
  intros LA a b c d k HL HQ Hk. pose proof Hk as Hi. unfold sphere_best_fit in Hi.
  destruct (points_of (N:=RNum) [a; b; c; d]) as [qs| |] eqn:E; cbn [bind] in Hi; [|discriminate|discriminate]. apply points_of_inv in E as (-> & Hne & Hd & F & _).
  destruct (Nat.eqb_spec (dim2 (N:=RNum) [a; b; c; d]) 3) as [E2|E2]; cbn [negb] in Hi; [|discriminate]. destruct (Nat.ltb _ _); [discriminate|].
  destruct (affine_rank LA None [a; b; c; d]) as [r| |] eqn:Er; cbn [bind] in Hi; [|discriminate|discriminate]. destruct (Nat.eqb_spec r 3) as [->|]; cbn [negb] in Hi; [|discriminate]. clear Hi.
  rewrite E2 in F. assert (HP : points_ok 3 [a; b; c; d]) by (split; [discriminate|split; [lia|exact F]]). pose proof (Forall_inv F) as La. pose proof (Forall_inv (Forall_inv_tail F)) as Lb. pose proof (Forall_inv (Forall_inv_tail (Forall_inv_tail F))) as Lc. pose proof (Forall_inv (Forall_inv_tail (Forall_inv_tail (Forall_inv_tail F)))) as Ld.
  assert (Nc : ~ coplanar [a; b; c; d]). { intro C. pose proof (proj2 (proj2 (C23_true_configurations LA 3 _ None HL HP I)) C) as Q. unfold are_coplanar in Q. assert (Er' : affine_rank (N:=RNum) LA (@None R) [a; b; c; d] = Ok 3%nat) by exact Er. rn. rewrite Er' in Q. cbn in Q. discriminate. }
  destruct (circumsphere a b c d La Lb Lc Ld Nc) as (m & s & Lm & Ps & Oa & Ob & Oc & Od).
  destruct (C50_sphere_best_fit LA [a; b; c; d] HL HQ HP ltac:(simpl; lia) Er) as (k' & p' & s' & Hk' & -> & _ & _ & _ & _ & U).
  assert (k = MkBall (N:=RNum) p' s') by congruence. subst k. cbn [c_point c_radius].
  destruct (U m s Ps Lm) as (-> & ->). { intros x Hx. destruct Hx as [<-|[<-|[<-|[<-|[]]]]]; auto. }
  split; auto. split; auto. split; auto. split; auto. intros p r Lp Pr Pa Pb Pc Pd. destruct (U p r Pr Lp) as (-> & ->); auto. intros x Hx. destruct Hx as [<-|[<-|[<-|[<-|[]]]]]; auto.
Qed.
Print Assumptions C80_sphere_fit.

(** The hypotheses of the theorems above are met: a triangle in a coordinate plane, fitted and constructed; the circle through a
    corner; the sphere through the unit simplex; two points. *)
Example C80_nonvacuous : exists LA, svd_correct LA /\ lstsq_correct LA /\
  (exists pl pl', plane_from_points LA (Some 0) [0; 0; 0] [1; 0; 0] [0; 1; 0] = Ok pl /\ plane_best_fit LA (Some 0) [[0; 0; 0]; [1; 0; 0]; [0; 1; 0]] = Ok pl' /\
    (forall x y z, on_plane (pl_point pl') (pl_normal pl') [x; y; z] <-> z = 0) /\ plane_contains_point tol_default pl [2; 3; 1] = Ok false) /\
  (exists k, circle_best_fit LA [[0; 0]; [1; 0]; [0; 1]] = Ok k /\ circle_from_points LA None [0; 0] [1; 0] [0; 1] = Ok k) /\
  (exists k, sphere_best_fit LA simplex = Ok k) /\
  (exists l l', line_from_points (N:=RNum) [1; 2] [4; 6] = Ok l /\ line_best_fit LA None [[1; 2]; [4; 6]] = Ok l' /\ on_line (l_point l') (l_dir l') [7; 10]) /\
  (exists t, triangle_new LA [0; 0] [1; 0] [0; 1] = Ok t).
Proof.
  exists ideal_linalg. destruct ideal_linalg_correct as (HS & _ & HQ). split; auto. split; auto.
  set (a := [0; 0; 0] : pt). set (b := [1; 0; 0] : pt). set (c := [0; 1; 0] : pt).
  assert (Nc : ~ collinear [a; b; c]).
  { intro C. apply collinear3_dependent in C; [|reflexivity|reflexivity]. unfold a, b, c in C. destruct C as [(s & Es)|(s & Es)]; simpl in Es; injection Es; intros; lra. }
  assert (Pok : points_ok 3 [a; b; c]) by (split; [discriminate|]; split; [lia|repeat constructor]).
  assert (Hcol : are_collinear ideal_linalg (Some 0) [a; b; c] = Ok false).
  { destruct (C23_zero_tolerance_exact ideal_linalg 3 _ HS Pok) as (_ & r & _ & _ & Hr & _ & _ & Er & _). rn. rewrite Hr. destruct r; auto. exfalso. apply Nc, Er; auto. }
  split; [|split; [|split; [|split]]].
  - assert (Ex : exists pl, plane_from_points ideal_linalg (Some 0) a b c = Ok pl).
    { unfold plane_from_points. assert (Hpo : points_of (N:=RNum) [a; b; c] = Ok [a; b; c]) by (apply (points_of_R _ 3); apply Pok). rn. rewrite Hpo. cbn [bind]. rewrite Hcol. cbn [bind]. rewrite !from_points_R by (try reflexivity; discriminate). cbn [bind].
      assert (E1 : sub b a = [1; 0; 0]) by (unfold a, b; simpl; veq). assert (E2 : sub c a = [0; 1; 0]) by (unfold a, c; simpl; veq). rewrite E1, E2.
      apply (proj1 (proj2 (C34_from_vectors_total tol_default a [1; 0; 0] [0; 1; 0] (proj1 tol_default_ok) (proj2 tol_default_ok)))); try discriminate; auto. apply e12_not_parallel. }
    destruct Ex as (pl & Hpl). destruct (C41_plane_best_fit ideal_linalg (Some 0) _ HS Pok ltac:(simpl; lra) Hcol) as (p & n & err & _ & Hf & _).
    exists pl, (MkPlane (N:=RNum) p n). split; auto. split; auto.
    pose proof (C80_plane_through_three ideal_linalg (Some 0) (Some 0) a b c pl _ HS eq_refl ltac:(simpl; lra) Hpl Hf) as S.
    destruct (C34_from_points_sound _ _ _ _ _ _ Hpl) as (_ & _ & _ & _ & Ep & En & _).
    assert (On : forall x y z, on_plane (pl_point pl) (pl_normal pl) [x; y; z] <-> z = 0).
    { intros x y z. rewrite Ep, En. unfold on_plane, a, b, c, pad_to. simpl. split; [intros (_ & E); lra|intros ->; split; [auto|lra]]. }
    split. { intros x y z. rewrite (S [x; y; z]). apply On. }
    destruct (C80_coplanar ideal_linalg ideal_linalg (Some 0) a b c [2; 3; 1] pl HS eq_refl eq_refl Hpl) as (r & k & _ & Hr & Hk & Ek). rn. rewrite Hr. destruct r; auto.
    exfalso. rewrite volume_triple_R in Hk; try reflexivity; try discriminate; try (simpl; lia). injection Hk as Hk. assert (Z : k = 0) by (apply Ek; auto). rewrite <- Hk in Z. unfold a, b, c, pad_to in Z. simpl in Z.
    replace ((1 - 0) * ((1 - 0) * (1 - 0) - (0 - 0) * (3 - 0)) + ((0 - 0) * ((0 - 0) * (2 - 0) - (0 - 0) * (1 - 0)) + ((0 - 0) * ((0 - 0) * (3 - 0) - (1 - 0) * (2 - 0)) + 0))) with 1 in Z by ring. rewrite Rabs_R1 in Z. lra.
  - destruct C50_circle_nonvacuous as (_ & _ & _ & _ & _). destruct (C50_circle_best_fit ideal_linalg corner HS HQ corner_ok ltac:(simpl; lia)) as (k & c0 & r & E & _).
    { pose proof (C23_corner_not_collinear ideal_linalg HS) as E. unfold are_collinear in E. destruct (affine_rank_R ideal_linalg None 2 corner HS corner_ok) as (U & S & Vh & _ & Er).
      set (rk := length (filter _ S)) in Er. rewrite Er in E. cbn [bind] in E. injection E as E. apply Nat.leb_gt in E. pose proof (rank_le_dim _ _ _ _ HS corner_ok Er). rewrite Er. f_equal. lia. }
    exists k. split; auto. apply C80_circle_fit; auto.
  - destruct (C50_sphere_best_fit ideal_linalg simplex HS HQ simplex_ok ltac:(simpl; lia)) as (k & c0 & r & E & _); [|exists k; auto].
    pose proof (C23_simplex_not_coplanar ideal_linalg HS) as E. unfold are_coplanar in E. destruct (affine_rank_R ideal_linalg None 3 simplex HS simplex_ok) as (U & S & Vh & _ & Er).
    set (rk := length (filter _ S)) in Er. rewrite Er in E. cbn [bind] in E. injection E as E. apply Nat.leb_gt in E. pose proof (rank_le_dim _ _ _ _ HS simplex_ok Er). rewrite Er. f_equal. lia.
  - assert (Hz : ~ is_zero_vec (sub [4; 6] [1; 2])) by (intro Z; simpl in Z; injection Z; intros; lra).
    assert (Hl : line_from_points (N:=RNum) [1; 2] [4; 6] = Ok (MkLine (N:=RNum) [1; 2] (sub [4; 6] [1; 2]))).
    { unfold line_from_points. rewrite from_points_R by (auto; discriminate). cbn [bind]. apply line_new_R; auto. }
    assert (Hf : exists l, line_best_fit ideal_linalg None [[1; 2]; [4; 6]] = Ok l).
    { apply (C33_default_accepts ideal_linalg 2); auto; [split; [discriminate|]; split; [lia|repeat constructor]|simpl; lia|].
      intro C. assert (E := C [1; 2] [4; 6] ltac:(simpl; auto) ltac:(simpl; auto)). inversion E. lra. }
    destruct Hf as (l' & Hf). eexists _, l'. split; [exact Hl|]. split; auto.
    apply (C80_line_through_two ideal_linalg None [1; 2] [4; 6] _ _ HS ltac:(discriminate) eq_refl I Hl Hf). exists 2. cbn [l_point l_dir]. simpl. vlra0.
  - eexists. apply corner_triangle; auto.
Qed.
