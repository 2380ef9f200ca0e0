(** * Property C75: results do not depend on the coordinate system

    [T] is any map multiplying all distances by [s] (Spec/Similarity.v): change of unit, translation, rotation,
    reflection, embedding into a space of higher dimension.  [vmap n T] is what it does to vectors.
    Transforming the inputs and calling a method gives the transformed result of the call on the original inputs. *)
From Coq Require Import String Reals List ZArith Lra Lia Psatz Bool.
From Verif.Model Require Import Outcome Num Instances Numpy BaseArray Vector Points Functions Line Plane LineSegment Sphere Triangle Cylinder.
From Verif.Spec Require Import Geometry Tolerance Mesh Linalg Triangle Similarity.
From Verif.Proof Require Import VecAlg Bridge Arrays Vectors Points Lines Lincomb Svd SvdExists Ranks Singular Similarity SimRank Triangles Cylinders.
From Verif.Prop Require Import Points Planes LinePairs Segments Balls Spheres Triangles Measure Cylinders.
Import ListNotations.
Local Open Scope R_scope.

(** ** math.isclose is homogeneous when the absolute tolerance is scaled too *)
Lemma Rleb_scale k a b : 0 < k -> Rleb (k * a) (k * b) = Rleb a b.
Proof. intro P. destruct (Rleb a b) eqn:E; [apply Rleb_true in E; apply Rleb_true; nra|apply Rleb_false in E; apply Rleb_false; nra]. Qed.
Lemma Rltb_scale k a b : 0 < k -> Rltb (k * a) (k * b) = Rltb a b.
Proof. intro P. destruct (Rltb a b) eqn:E; [apply Rltb_true in E; apply Rltb_true; nra|apply Rltb_false in E; apply Rltb_false; nra]. Qed.
Lemma Rltb_scale0 k a : 0 < k -> Rltb (k * a) 0 = Rltb a 0.
Proof. intro P. rewrite <- (Rmult_0_r k) at 1. apply Rltb_scale; auto. Qed.
Lemma Reqb_scale k a b : 0 < k -> Reqb (k * a) (k * b) = Reqb a b.
Proof. intro P. destruct (Reqb a b) eqn:E; [apply Reqb_true in E; apply Reqb_true; subst; auto|apply Reqb_false in E; apply Reqb_false; intro Q; apply E; nra]. Qed.
Definition scale_tol (k : R) (t : tol RNum) : tol RNum := MkTol (N:=RNum) (rel_tol t) (k * abs_tol t).
Lemma isclose_scale k (t : tol RNum) a b : 0 < k -> isclose (scale_tol k t) (k * a) (k * b) = isclose t a b.
Proof.
  intro P. unfold isclose, scale_tol. cbn [rel_tol abs_tol]. rops. rewrite (Rltb_scale0 k) by auto. rewrite Reqb_scale by auto.
  replace (k * b - k * a) with (k * (b - a)) by ring. replace (rel_tol t * (k * b)) with (k * (rel_tol t * b)) by ring. replace (rel_tol t * (k * a)) with (k * (rel_tol t * a)) by ring.
  rewrite !(Rabs_mult k), (Rabs_pos_eq k) by lra. rewrite !Rleb_scale by auto. reflexivity.
Qed.
Lemma isclose_scale0 k (t : tol RNum) a : 0 < k -> isclose (scale_tol k t) (k * a) 0 = isclose t a 0.
Proof. intro P. pose proof (isclose_scale k t a 0 P) as E. rewrite Rmult_0_r in E. exact E. Qed.
Lemma scale_tol_0 k (t : tol RNum) : abs_tol t = 0 -> scale_tol k t = t.
Proof. destruct t as [r a]. simpl. intros ->. unfold scale_tol. simpl. f_equal. apply Rmult_0_r. Qed.

Section S.
Context (n m : nat) (s : R) (T : pt -> pt) (H : similarity n m s T) (Hn : (0 < n)%nat).
Notation V := (vmap n T).
Local Notation Ps := (sim_pos n m s T H).
Local Notation tlen := (sim_len n m s T H).
Local Notation vlen := (vmap_len n m s T H).
Lemma Vne v : length v = n -> V v <> []. Proof. intro L. apply (vmap_ne n m s T H); auto. Qed.
Lemma Tne v : length v = n -> T v <> []. Proof. intro L. apply (sim_ne n m s T H); auto. Qed.
Lemma ne (v : pt) : length v = n -> v <> []. Proof. intros L ->. simpl in L. lia. Qed.
Lemma Vz v : length v = n -> ~ is_zero_vec v -> ~ is_zero_vec (V v).
Proof. intros L Z Q. apply Z. apply (proj1 (vmap_zero n m s T H v L)). exact Q. Qed.
Lemma s2 : 0 < s * s. Proof. pose proof Ps. nra. Qed.

(** ** Vectors *)
Lemma cosine_vmap u v : length u = n -> length v = n -> ~ is_zero_vec u -> ~ is_zero_vec v -> cosine (V u) (V v) = cosine u v.
Proof.
  intros Lu Lv Zu Zv. unfold cosine. rewrite (vmap_dot n m s T H), !(vmap_lenv n m s T H) by auto. pose proof Ps. pose proof (len_pos u Zu). pose proof (len_pos v Zv). field. repeat split; lra.
Qed.
Lemma is_zero_vmap (t : tol RNum) u : length u = n -> is_zero (scale_tol (s * s) t) (V u) = is_zero t u.
Proof.
  intro Lu. unfold is_zero. rewrite !np_dot_R by auto. cbn [bind]. rops. rewrite (vmap_dot n m s T H) by auto. apply isclose_scale0, s2.
Qed.
Lemma is_zero_vmap0 (t : tol RNum) u : abs_tol t = 0 -> length u = n -> is_zero t (V u) = is_zero t u.
Proof. intros Ha Lu. pose proof (is_zero_vmap t u Lu) as E. rewrite scale_tol_0 in E by auto. exact E. Qed.
Lemma cosine_sim_vmap u v : length u = n -> length v = n -> cosine_similarity (N:=RNum) (V u) (V v) = cosine_similarity u v.
Proof.
  intros Lu Lv. destruct (is_zero_vec_dec u) as [Zu|Zu]; [|destruct (is_zero_vec_dec v) as [Zv|Zv]].
  - rewrite !cosine_R_zero; auto using Vne, ne. left. apply (vmap_zero n m s T H); auto.
  - rewrite !cosine_R_zero; auto using Vne, ne. right. apply (vmap_zero n m s T H); auto.
  - rewrite !cosine_R by (auto using Vz; try congruence; rewrite !vlen by auto; reflexivity). rewrite cosine_vmap by auto. reflexivity.
Qed.
Lemma is_parallel_vmap (t : tol RNum) u v : abs_tol t = 0 -> length u = n -> length v = n -> is_parallel t (V u) (V v) = is_parallel t u v.
Proof.
  intros Ha Lu Lv. unfold is_parallel, por. rewrite !vector_of_R by auto using Vne, ne. cbn [bind].
  rewrite !is_zero_vmap0 by auto. rewrite cosine_sim_vmap by auto. reflexivity.
Qed.
(** Lengths and distances are multiplied by the factor; cosines, angles and the zero, perpendicularity and parallelism
    tests are unchanged (their default absolute tolerance is 0); projections are transformed. *)
Theorem C75_vectors : forall (t : tol RNum) (u v : pt), abs_tol t = 0 -> length u = n -> length v = n ->
  distance_point (N:=RNum) (T u) (T v) = res_map (Rmult s) (distance_point (N:=RNum) u v) /\
  norm (N:=RNum) (V u) = res_map (Rmult s) (norm (N:=RNum) u) /\
  cosine_similarity (N:=RNum) (V u) (V v) = cosine_similarity (N:=RNum) u v /\
  angle_between (N:=RNum) RTrig (V u) (V v) = angle_between (N:=RNum) RTrig u v /\
  is_zero t (V u) = is_zero t u /\
  is_perpendicular t (V u) (V v) = is_perpendicular t u v /\
  is_parallel t (V u) (V v) = is_parallel t u v /\
  scalar_projection (N:=RNum) (V u) (V v) = res_map (Rmult s) (scalar_projection (N:=RNum) u v) /\
  project_vector (N:=RNum) (V u) (V v) = res_map V (project_vector (N:=RNum) u v).
Proof.
  intros t u v Ha Lu Lv. pose proof Ps as P. assert (LV : length (V u) = length (V v)) by (rewrite !vlen; auto). assert (L : length u = length v) by congruence.
  split; [|split; [|split; [|split; [|split; [|split; [|split; [|split]]]]]]].
  - rewrite !distance_point_R by (auto using Tne, ne; rewrite ?tlen; congruence). unfold res_map; cbn [bind]. rewrite (sim_dist n m s T H) by auto. reflexivity.
  - rewrite !norm_R. unfold res_map; cbn [bind]. rewrite (vmap_lenv n m s T H) by auto. reflexivity.
  - apply cosine_sim_vmap; auto.
  - unfold angle_between. rewrite cosine_sim_vmap by auto. reflexivity.
  - apply is_zero_vmap0; auto.
  - pattern t at 1. rewrite <- (scale_tol_0 (s * s) t Ha). unfold is_perpendicular. rewrite !np_dot_R by auto. cbn [bind]. rops. rewrite (vmap_dot n m s T H) by auto. apply isclose_scale0, s2.
  - apply is_parallel_vmap; auto.
  - unfold scalar_projection. destruct (is_zero_vec_dec u) as [Z|Z].
    + rewrite !unit_R_zero by (auto; apply (vmap_zero n m s T H); auto). reflexivity.
    + rewrite !unit_R by auto using Vz. cbn [bind]. rewrite !np_dot_R by len. unfold res_map; cbn [bind]. rewrite !dot_scale_l, (vmap_dot n m s T H), (vmap_lenv n m s T H) by auto.
      pose proof (len_pos u Z). apply (f_equal (@Ok R)). field. split; lra.
  - destruct (is_zero_vec_dec u) as [Z|Z].
    + unfold project_vector. rewrite !np_dot_R by auto. cbn [bind]. assert (D : dot u u = 0) by (apply zero_dot; auto). rewrite !(vmap_dot n m s T H) by auto. rewrite D.
      replace (s * s * 0) with 0 by ring. rewrite !ndiv_R0. reflexivity.
    + rewrite !project_vector_R by auto using Vz. unfold res_map; cbn [bind]. rewrite !(vmap_dot n m s T H), (vmap_scale n m s T H) by auto. pose proof (dot_self_pos u Z). apply (f_equal (@Ok pt)). f_equal. field. split; lra.
Qed.

(** ** Points *)
Theorem C75_points : forall (LA LA' : linalg RNum) (rows : list pt) (tolerance : option R), svd_correct LA -> svd_correct LA' -> points_ok n rows -> tol_nonneg tolerance ->
  centroid (N:=RNum) (map T rows) = res_map T (centroid (N:=RNum) rows) /\
  mean_center (N:=RNum) (map T rows) = res_map (map V) (mean_center (N:=RNum) rows) /\
  (m = n \/ tolerance <> None ->
    affine_rank LA' (option_map (Rmult s) tolerance) (map T rows) = affine_rank LA tolerance rows /\
    are_concurrent LA' (option_map (Rmult s) tolerance) (map T rows) = are_concurrent LA tolerance rows /\
    are_collinear LA' (option_map (Rmult s) tolerance) (map T rows) = are_collinear LA tolerance rows /\
    are_coplanar LA' (option_map (Rmult s) tolerance) (map T rows) = are_coplanar LA tolerance rows).
Proof.
  intros LA LA' rows tolerance HL HL' Hr Ht. pose proof Hr as (Hne & _ & F). pose proof (sim_points_ok n m s T H rows Hr) as Hr'. split; [|split].
  - rewrite (centroid_R n rows), (centroid_R m (map T rows)) by auto. unfold res_map; cbn [bind]. rewrite (sim_cent n m s T H) by auto. reflexivity.
  - unfold mean_center. rewrite (mean_center_c_R n rows), (mean_center_c_R m (map T rows)) by auto. unfold res_map; cbn [bind]. fold (centered n rows) (centered m (map T rows)). rewrite (sim_centered n m s T H) by auto. reflexivity.
  - intro Hm. pose proof (sim_affine_rank n m s T H LA LA' tolerance rows HL HL' Hr Ht Hm) as E. unfold are_concurrent, are_collinear, are_coplanar. rn. rewrite E. auto.
Qed.

(** ** Lines *)
Definition move_line (l : line RNum) : line RNum := MkLine (N:=RNum) (T (l_point l)) (V (l_dir l)).
Definition move_plane (pl : plane RNum) : plane RNum := MkPlane (N:=RNum) (T (pl_point pl)) (V (pl_normal pl)).
Lemma pv_move p d : length p = n -> pv_ok p d -> pv_ok (T p) (V d).
Proof. intros Lp (L & Z & _). assert (Ld : length d = n) by congruence. split; [rewrite tlen, vlen; auto|]. split; [apply Vz; auto|apply Tne; auto]. Qed.
Lemma lproj_move p d q : length p = n -> length d = n -> length q = n -> ~ is_zero_vec d -> lproj (T p) (V d) (T q) = T (lproj p d q).
Proof.
  intros Lp Ld Lq Z. unfold lproj. rewrite (sim_along n m s T H) by auto. rewrite (sim_sub n m s T H), !(vmap_dot n m s T H) by (auto; len). f_equal. f_equal.
  pose proof (dot_self_pos d Z). pose proof Ps. field. split; lra.
Qed.
Lemma pproj_move p d q : length p = n -> length d = n -> length q = n -> ~ is_zero_vec d -> pproj (T p) (V d) (T q) = T (pproj p d q).
Proof.
  intros Lp Ld Lq Z. unfold pproj. rewrite (sim_along n m s T H) by auto. rewrite (sim_sub n m s T H), !(vmap_dot n m s T H) by (auto; len). f_equal. f_equal.
  pose proof (dot_self_pos d Z). pose proof Ps. field. split; lra.
Qed.
Lemma contains_move (f g : pt -> res R) (t : tol RNum) q r : f q = Ok r -> g (T q) = Ok (s * r) ->
  contains_point_gen (N:=RNum) g (scale_tol s t) (T q) = contains_point_gen (N:=RNum) f t q.
Proof. intros E E'. unfold contains_point_gen. rewrite E, E'. cbn [bind]. rops. apply isclose_scale0, Ps. Qed.
(** Construction, points on the line, projection, distance, containment (the absolute tolerance is a length). *)
Theorem C75_lines : forall (t : tol RNum) (p d q : pt) (l : line RNum) (k : R), line_new (N:=RNum) p d = Ok l -> length p = n -> length q = n ->
  line_new (N:=RNum) (T p) (V d) = Ok (move_line l) /\
  line_from_points (N:=RNum) (T p) (T q) = res_map move_line (line_from_points (N:=RNum) p q) /\
  line_to_point (N:=RNum) (move_line l) k = res_map T (line_to_point (N:=RNum) l k) /\
  line_project_point (N:=RNum) (move_line l) (T q) = res_map T (line_project_point (N:=RNum) l q) /\
  line_distance_point (N:=RNum) (move_line l) (T q) = res_map (Rmult s) (line_distance_point (N:=RNum) l q) /\
  line_contains_point (scale_tol s t) (move_line l) (T q) = line_contains_point t l q.
Proof.
  intros t p d q l k Hl Lp Lq. apply line_new_iff in Hl as (-> & O). pose proof O as (L & Z & _). assert (Ld : length d = n) by congruence.
  pose proof (pv_move p d Lp O) as O'. unfold move_line. cbn [l_point l_dir].
  assert (D : line_distance_point (N:=RNum) (MkLine (T p) (V d)) (T q) = Ok (s * dist q (lproj p d q))).
  { rewrite line_distance_point_R by (auto; rewrite !tlen; auto). rewrite lproj_move by auto. rewrite (sim_dist n m s T H) by (auto; rewrite length_lproj; auto). reflexivity. }
  assert (D0 : line_distance_point (N:=RNum) (MkLine p d) q = Ok (dist q (lproj p d q))) by (apply line_distance_point_R; auto; congruence).
  split; [apply line_new_R; apply O'|]. split; [|split; [|split; [|split]]].
  - unfold line_from_points. rewrite !from_points_R by (rewrite ?tlen; auto using Tne, ne; congruence). cbn [bind]. rewrite (sim_sub n m s T H) by auto.
    assert (Ls : length (sub q p) = n) by len. destruct (is_zero_vec_dec (sub q p)) as [Zs|Zs].
    + assert (C : forall (x w : pt), x <> [] -> length x = length w -> is_zero_vec w -> line_new (N:=RNum) x w = Raise (ValueError "The vector must not be the zero vector.")).
      { intros x w Hx Lw Zw. unfold line_new, check_point_vector. rewrite point_of_R, vector_of_R by (auto; intros ->; destruct x; simpl in *; congruence). cbn [bind]. unfold dim1. rn. rewrite Lw, Nat.eqb_refl. cbn [negb].
        rewrite is_zero_default. destruct (is_zero_vec_dec w); [reflexivity|contradiction]. }
      rewrite (C p), (C (T p)); auto using ne, Tne; try congruence; [rewrite tlen, vlen; auto|]. apply (vmap_zero n m s T H); auto.
    + rewrite !line_new_R by (auto using Vz; rewrite ?tlen, ?vlen; congruence). reflexivity.
  - rewrite !line_to_point_R by (rewrite ?tlen, ?vlen; auto; congruence). unfold res_map; cbn [bind]. rewrite (sim_along n m s T H) by auto. reflexivity.
  - rewrite !line_project_point_R by (auto; rewrite ?tlen; congruence). unfold res_map; cbn [bind]. rewrite lproj_move by auto. reflexivity.
  - rewrite D, D0. reflexivity.
  - unfold line_contains_point. eapply contains_move; eauto.
Qed.
(** Line.is_close and, in the same space, is_coplanar: unchanged. *)
Theorem C75_line_pairs_tests : forall (LA LA' : linalg RNum) (t : tol RNum) (tolerance : option R) (p d q e : pt) (l l' : line RNum), abs_tol t = 0 -> svd_correct LA -> svd_correct LA' -> tol_nonneg tolerance ->
  line_new (N:=RNum) p d = Ok l -> line_new (N:=RNum) q e = Ok l' -> length p = n -> length q = n ->
  line_is_close t (move_line l) (move_line l') = line_is_close t l l' /\
  (m = n \/ tolerance <> None -> line_is_coplanar LA' (option_map (Rmult s) tolerance) (move_line l) (move_line l') = line_is_coplanar LA tolerance l l').
Proof.
  intros LA LA' t tolerance p d q e l l' Ha HL HL' Ht Hl Hl' Lp Lq. pose proof Hl as Hl0. pose proof Hl' as Hl0'.
  apply line_new_iff in Hl as (-> & O). apply line_new_iff in Hl' as (-> & O').
  pose proof O as (L & Z & _). pose proof O' as (L' & Z' & _). assert (Ld : length d = n) by congruence. assert (Le : length e = n) by congruence. split.
  - unfold line_is_close. destruct (C75_lines t p d q _ 0 Hl0 Lp Lq) as (_ & _ & _ & _ & _ & C). rewrite scale_tol_0 in C by auto. unfold move_line at 2. cbn [l_point]. rewrite C.
    unfold move_line. cbn [l_point l_dir]. rewrite is_parallel_vmap by auto. reflexivity.
  - intro Hm. unfold line_is_coplanar, move_line. cbn [l_point l_dir]. rops. rewrite !line_to_point_R by (rewrite ?tlen, ?vlen; auto; congruence). cbn [bind].
    rewrite <- !(sim_along n m s T H) by auto. set (rows := [p; add p (scale 1 d); q; add q (scale 1 e)]).
    assert (Hr : points_ok n rows) by (split; [discriminate|split; [auto|repeat constructor; len]]). pose proof Hr as (Hne & _ & F).
    pose proof (sim_points_ok n m s T H rows Hr) as (Hne' & Hm' & F').
    change [T p; T (add p (scale 1 d)); T q; T (add q (scale 1 e))] with (map T rows). rewrite (points_of_R rows n), (points_of_R (map T rows) m) by auto. cbn [bind].
    apply (C75_points LA LA' rows tolerance HL HL' Hr Ht); auto.
Qed.
(** ** Planes *)
Theorem C75_planes : forall (t : tol RNum) (p d q : pt) (pl : plane RNum), plane_new (N:=RNum) p d = Ok pl -> length p = n -> length q = n ->
  plane_new (N:=RNum) (T p) (V d) = Ok (move_plane pl) /\
  plane_project_point (N:=RNum) (move_plane pl) (T q) = res_map T (plane_project_point (N:=RNum) pl q) /\
  plane_distance_point_signed (N:=RNum) (move_plane pl) (T q) = res_map (Rmult s) (plane_distance_point_signed (N:=RNum) pl q) /\
  plane_distance_point (N:=RNum) (move_plane pl) (T q) = res_map (Rmult s) (plane_distance_point (N:=RNum) pl q) /\
  plane_side_point (N:=RNum) (move_plane pl) (T q) = plane_side_point (N:=RNum) pl q /\
  plane_contains_point (scale_tol s t) (move_plane pl) (T q) = plane_contains_point t pl q.
Proof.
  intros t p d q pl Hl Lp Lq. apply plane_new_inv in Hl as (-> & O). pose proof O as (L & Z & _). assert (Ld : length d = n) by congruence.
  pose proof (pv_move p d Lp O) as O'. unfold move_plane. cbn [pl_point pl_normal]. pose proof Ps as P. pose proof (len_pos d Z) as Pd.
  assert (Es : sdist (T p) (V d) (T q) = s * sdist p d q).
  { unfold sdist. rewrite (sim_sub n m s T H), (vmap_dot n m s T H), (vmap_lenv n m s T H) by (auto; len). field. split; lra. }
  assert (LT : length (T q) = length (T p)) by (rewrite !tlen; auto). assert (Lqp : length q = length p) by congruence.
  assert (D : plane_distance_point (N:=RNum) (MkPlane (T p) (V d)) (T q) = Ok (s * dist q (pproj p d q))).
  { rewrite plane_distance_point_R by auto. rewrite pproj_move by auto. rewrite (sim_dist n m s T H) by (auto; rewrite length_pproj; congruence). reflexivity. }
  assert (D0 : plane_distance_point (N:=RNum) (MkPlane p d) q = Ok (dist q (pproj p d q))) by (apply plane_distance_point_R; auto).
  split; [apply plane_new_R; auto|]. split; [|split; [|split; [|split]]].
  - rewrite !plane_project_point_R by auto. unfold res_map; cbn [bind]. rewrite pproj_move by auto. reflexivity.
  - rewrite !plane_signed_R by auto. unfold res_map; cbn [bind]. rewrite Es. reflexivity.
  - rewrite D, D0. reflexivity.
  - unfold plane_side_point. rewrite !plane_signed_R by auto. cbn [bind]. rewrite Es. rewrite !int_sign_R, !nsign_R. f_equal.
    repeat (destruct (Rlt_dec _ _)); auto; exfalso; nra.
  - unfold plane_contains_point. eapply contains_move; eauto.
Qed.
Theorem C75_plane_line : forall (t : tol RNum) (p d q e : pt) (pl : plane RNum) (l : line RNum), abs_tol t = 0 ->
  plane_new (N:=RNum) p d = Ok pl -> line_new (N:=RNum) q e = Ok l -> length p = n -> length q = n ->
  plane_intersect_line t (move_plane pl) (move_line l) = res_map T (plane_intersect_line t pl l) /\
  plane_project_vector (N:=RNum) (move_plane pl) (V e) = res_map V (plane_project_vector (N:=RNum) pl e) /\
  plane_project_line t (move_plane pl) (move_line l) = res_map move_line (plane_project_line t pl l).
Proof.
  intros t p d q e pl l Ha Hp Hl Lp Lq. apply plane_new_inv in Hp as (-> & O). apply line_new_iff in Hl as (-> & O2).
  pose proof O as (L & Z & _). pose proof O2 as (L2 & Z2 & _). assert (Ld : length d = n) by congruence. assert (Le : length e = n) by congruence.
  pose proof (pv_move p d Lp O) as O'. pose proof (pv_move q e Lq O2) as O2'. pose proof Ps as P.
  assert (Epp : is_perpendicular t (V d) (V e) = is_perpendicular t d e) by (apply (C75_vectors t d e Ha Ld Le)).
  unfold move_plane, move_line. cbn [pl_point pl_normal l_point l_dir].
  assert (PV : plane_project_vector (N:=RNum) (MkPlane (T p) (V d)) (V e) = res_map V (plane_project_vector (N:=RNum) (MkPlane p d) e)).
  { unfold plane_project_vector. cbn [pl_point]. rewrite !vadd_R by (rewrite ?tlen, ?vlen; congruence). cbn [bind]. assert (La : length (add p e) = n) by len.
    rewrite <- (sim_add n m s T H) by auto. rewrite !plane_project_point_R by (auto; rewrite ?tlen; congruence). cbn [bind]. rewrite pproj_move by auto.
    assert (Lpp : length (pproj p d (add p e)) = n) by (rewrite length_pproj; congruence).
    rewrite !from_points_R by (auto using Tne, ne; rewrite ?tlen; congruence). unfold res_map; cbn [bind]. rewrite (sim_sub n m s T H) by auto. reflexivity. }
  split; [|split; [exact PV|]].
  - unfold plane_intersect_line. cbn [pl_point pl_normal l_point l_dir]. rn. rewrite Epp. destruct (is_perpendicular t d e) as [[|]| |] eqn:Ep; unfold res_map; cbn [bind]; auto.
    rewrite !from_points_R by (auto using Tne, ne; rewrite ?tlen; congruence). cbn [bind]. rewrite (sim_sub n m s T H) by auto. assert (Ls : length (sub q p) = n) by len.
    rewrite !np_dot_R by (rewrite ?vlen; auto; congruence). cbn [bind]. rewrite !(vmap_dot n m s T H) by auto. rops.
    destruct (Req_EM_T (dot d e) 0) as [E0|E0].
    + rewrite E0. replace (s * s * 0) with 0 by ring. rewrite !ndiv_R0. reflexivity.
    + assert (E1 : s * s * dot d e <> 0) by (apply Rmult_integral_contrapositive_currified; [pose proof s2; lra|auto]). rewrite !ndiv_R by auto. cbn [bind]. rewrite !vmuls_R. cbn [bind]. rewrite !vadd_R by (rewrite ?length_scale, ?tlen, ?vlen; congruence). cbn [bind].
      rewrite (sim_along n m s T H) by auto. apply (f_equal (@Ok pt)). do 2 f_equal. field. split; [auto|lra].
  - unfold plane_project_line. cbn [pl_point pl_normal l_point l_dir]. rn. rewrite is_parallel_vmap by auto. destruct (is_parallel t d e) as [[|]| |] eqn:Ep; unfold res_map; cbn [bind]; auto.
    assert (Ht : tol_ok t). { apply Classical_Prop.NNPP. intro Nt. unfold is_parallel, por, is_zero in Ep. rewrite np_dot_R in Ep by auto. cbn [bind] in Ep. rewrite isclose_neg in Ep by auto. discriminate. }
    rewrite !plane_project_point_R by (auto; rewrite ?tlen; congruence). cbn [bind]. rewrite Epp. rewrite pproj_move by auto. assert (Lpp : length (pproj p d q) = n) by (rewrite length_pproj; congruence).
    destruct (is_perpendicular t d e) as [[|]| |] eqn:Eq; unfold res_map; cbn [bind]; auto.
    + rewrite !line_new_R by (auto using Vz; rewrite ?tlen, ?vlen; congruence). reflexivity.
    + rn. rewrite PV. unfold plane_project_vector. cbn [pl_point]. rewrite vadd_R by congruence. cbn [bind]. assert (La : length (add p e) = n) by len.
      rewrite plane_project_point_R by (auto; congruence). cbn [bind]. assert (Lp2 : length (pproj p d (add p e)) = n) by (rewrite length_pproj; congruence).
      rewrite from_points_R by (auto using ne; congruence). unfold res_map; cbn [bind]. set (w := sub (pproj p d (add p e)) p). assert (Lw : length w = n) by (unfold w; len).
      assert (Zw : ~ is_zero_vec w).
      { intro Zw. assert (I : ~ dependent d e) by (apply (not_parallel_independent t d e); [exact Ht|exact (eq_trans Ld (eq_sym Le))|exact (ne d Ld)|exact Ep]). apply I. right.
        exists (- (dot d (sub p (add p e)) / dot d d)). unfold w, pproj in Zw.
        set (c := dot d (sub p (add p e)) / dot d d) in *. apply pt_ext; [rewrite length_scale; congruence|]. intros i _.
        assert (Q : nth i (sub (add (add p e) (scale c d)) p) 0 = 0) by (rewrite Zw; apply nth_origin).
        rewrite nth_sub, nth_add, nth_add, nth_scale in Q by len. rewrite nth_scale. lra. }
      rewrite !line_new_R by (auto using Vz; rewrite ?tlen, ?vlen; congruence). reflexivity.
Qed.
End S.
Print Assumptions C75_vectors.
Print Assumptions C75_points.
Print Assumptions C75_lines.
Print Assumptions C75_line_pairs_tests.
Print Assumptions C75_planes.
Print Assumptions C75_plane_line.
