(** * Property C78: measured results depend continuously on the data, with sharp constants

    Moving an argument by at most [e] moves a distance, a projection, a centroid by at most [e]: the distance queries are
    1-Lipschitz and the projections onto lines, planes and vectors do not increase distances; the projection onto a circle
    or sphere and the direction of a vector have the bound that degrades towards the centre (zero vector); angles satisfy
    the triangle inequality, so an angle changes by at most the angle its arguments are turned by. *)
From Coq Require Import Reals List ZArith Lra Lia Psatz Bool.
From Verif.Model Require Import Outcome Num Instances Numpy BaseArray Vector Points Functions Line Plane LineSegment Sphere.
From Verif.Spec Require Import Geometry Tolerance.
From Verif.Proof Require Import VecAlg Bridge Arrays Vectors Points Lines.
From Verif.Prop Require Import Vectors Directions Points Lines Planes Balls.
Import ListNotations.
Local Open Scope R_scope.

(** ** Euclidean lemmas *)
Lemma min_dist_lip (S : pt -> Prop) (x y : pt) (r s : R) : (forall z, S z -> length z = length x) -> length y = length x ->
  min_dist S x r -> min_dist S y s -> Rabs (r - s) <= dist x y.
Proof.
  intros HS L [(a & Ha & Ea) Ma] [(b & Hb & Eb) Mb]. pose proof (Ma b Hb) as H1. pose proof (Mb a Ha) as H2.
  pose proof (HS a Ha) as La. pose proof (HS b Hb) as Lb.
  pose proof (dist_triangle x y b ltac:(congruence) ltac:(congruence)) as T1. pose proof (dist_triangle y x a ltac:(congruence) ltac:(congruence)) as T2.
  rewrite (dist_sym y x) in T2. apply Rabs_le. lra.
Qed.
Lemma le_of_sq a b : 0 <= b -> a * a <= b * b -> a <= b.
Proof. intros Hb H. destruct (Rle_dec a b); auto. nra. Qed.
Lemma sq_of_le a b : 0 <= a -> a <= b -> a * a <= b * b.
Proof. intros; nra. Qed.
Lemma proj_len (v o : pt) : length v = length o -> ~ is_zero_vec v -> len (scale (dot v o / dot v v) v) <= len o.
Proof.
  intros L Hz. rewrite len_scale. pose proof (len_pos v Hz) as Hp. pose proof (dot_self_pos v Hz) as Hd.
  pose proof (cauchy_schwarz v o L) as C. unfold Rdiv. rewrite Rabs_mult, (Rabs_pos_eq (/ dot v v)) by (left; apply Rinv_0_lt_compat; auto).
  rewrite <- len_sq. apply (Rmult_le_reg_r (len v)); auto.
  replace (Rabs (dot v o) * / (len v * len v) * len v * len v) with (Rabs (dot v o)) by (field; lra). lra.
Qed.
Lemma resid_len (v o : pt) : length v = length o -> ~ is_zero_vec v -> len (sub o (scale (dot v o / dot v v) v)) <= len o.
Proof.
  intros L Hz. apply le_of_sq; [apply len_nonneg|]. rewrite !len_sq. pose proof (dot_self_pos v Hz) as Hd.
  rewrite dot_sub_l, !dot_sub_r, !dot_scale_l, !dot_scale_r by len. rewrite (dot_comm o v).
  assert (E : dot v o / dot v v * (dot v o / dot v v * dot v v) = dot v o / dot v v * dot v o) by (field; lra).
  rewrite E. assert (0 <= dot v o / dot v v * dot v o); [|lra].
  replace (dot v o / dot v v * dot v o) with (dot v o * dot v o * / dot v v) by (field; lra).
  apply Rmult_le_pos; [nra|left; apply Rinv_0_lt_compat; auto].
Qed.
Lemma len_lip a b : length a = length b -> Rabs (len a - len b) <= dist a b.
Proof.
  intro L. apply (min_dist_lip (fun z => z = origin (length a))).
  - intros z ->. unfold origin. apply repeat_length.
  - auto.
  - assert (E : dist a (origin (length a)) = len a).
    { unfold dist. f_equal. apply pt_ext; [unfold origin; len; rewrite repeat_length; lia|]. intros i _. rewrite nth_sub by (unfold origin; rewrite repeat_length; auto). unfold origin. rewrite nth_repeat. ring. }
    split; [exists (origin (length a)); auto|intros y ->; lra].
  - assert (E : dist b (origin (length a)) = len b).
    { unfold dist. f_equal. apply pt_ext; [unfold origin; len; rewrite repeat_length; lia|]. intros i _. rewrite nth_sub by (unfold origin; rewrite repeat_length; auto). unfold origin. rewrite nth_repeat. ring. }
    split; [exists (origin (length a)); auto|intros y ->; lra].
Qed.
Lemma unit_diff (a b : pt) : length a = length b -> ~ is_zero_vec a -> ~ is_zero_vec b ->
  dist (scale (/ len a) a) (scale (/ len b) b) * dist (scale (/ len a) a) (scale (/ len b) b) * (len a * len b) <= dist a b * dist a b.
Proof.
  intros L Ha Hb. unfold dist. rewrite !len_sq. pose proof (len_pos a Ha) as Pa. pose proof (len_pos b Hb) as Pb.
  rewrite !dot_sub_l, !dot_sub_r by len. rewrite !dot_scale_l, !dot_scale_r, (dot_comm b a), <- !len_sq.
  replace ((/ len a * (/ len a * (len a * len a)) - / len a * (/ len b * dot a b) - (/ len b * (/ len a * dot a b) - / len b * (/ len b * (len b * len b)))) * (len a * len b))
    with (2 * (len a * len b) - 2 * dot a b) by (field; lra).
  pose proof (Rle_0_sqr (len a - len b)) as Q. unfold Rsqr in Q. lra.
Qed.

(** ** Point.distance_point, Vector.norm, Vector.unit *)
Theorem C78_point_distance : forall x y x' y' : pt, x <> [] -> length y = length x -> length x' = length x -> length y' = length x ->
  exists r s e f, distance_point (N:=RNum) x y = Ok r /\ distance_point (N:=RNum) x' y' = Ok s /\
    distance_point (N:=RNum) x x' = Ok e /\ distance_point (N:=RNum) y y' = Ok f /\ Rabs (r - s) <= e + f.
Proof.
  intros x y x' y' Hx L1 L2 L3. assert (Hx' : x' <> []) by (destruct x, x'; simpl in *; congruence). assert (Hy : y <> []) by (destruct x, y; simpl in *; congruence).
  exists (dist x y), (dist x' y'), (dist x x'), (dist y y'). repeat (split; [apply distance_point_R; congruence|]).
  pose proof (dist_triangle x x' y ltac:(congruence) ltac:(congruence)). pose proof (dist_triangle x' y' y ltac:(congruence) ltac:(congruence)).
  pose proof (dist_triangle x' x y' ltac:(congruence) ltac:(congruence)). pose proof (dist_triangle x y y' ltac:(congruence) ltac:(congruence)).
  rewrite (dist_sym y' y) in *. rewrite (dist_sym x' x) in *. apply Rabs_le. lra.
Qed.
Theorem C78_norm : forall a b : pt, length a = length b ->
  exists r s, norm (N:=RNum) a = Ok r /\ norm (N:=RNum) b = Ok s /\ Rabs (r - s) <= dist a b.
Proof. intros a b L. exists (len a), (len b). split; [apply norm_R|]. split; [apply norm_R|]. apply len_lip; auto. Qed.
Theorem C78_unit : forall a b : pt, length a = length b -> ~ is_zero_vec a -> ~ is_zero_vec b ->
  exists u v, unit_vec (N:=RNum) a = Ok u /\ unit_vec (N:=RNum) b = Ok v /\
    dist u v * dist u v * (len a * len b) <= dist a b * dist a b /\
    (* in particular: vectors no shorter than m *)
    (forall m, 0 < m -> m <= len a -> m <= len b -> dist u v <= dist a b / m).
Proof.
  intros a b L Ha Hb. exists (scale (/ len a) a), (scale (/ len b) b). split; [apply unit_R; auto|]. split; [apply unit_R; auto|].
  pose proof (unit_diff a b L Ha Hb) as U. split; [exact U|]. intros m Hm H1 H2.
  set (u := dist (scale (/ len a) a) (scale (/ len b) b)) in *. assert (Hu : 0 <= u) by apply len_nonneg. pose proof (len_nonneg (sub a b)) as Hd. fold (dist a b) in Hd.
  apply (Rmult_le_reg_r m); auto. unfold Rdiv. rewrite Rmult_assoc, Rinv_l, Rmult_1_r by lra. apply le_of_sq; auto.
  assert (m * m <= len a * len b) by nra. assert (0 <= u * u) by nra. nra.
Qed.

(** ** Vector.project_vector, Vector.scalar_projection, Plane.project_vector *)
Theorem C78_project_vector : forall v a b : pt, length a = length v -> length b = length v -> ~ is_zero_vec v ->
  exists pa pb sa sb, project_vector (N:=RNum) v a = Ok pa /\ project_vector (N:=RNum) v b = Ok pb /\
    scalar_projection (N:=RNum) v a = Ok sa /\ scalar_projection (N:=RNum) v b = Ok sb /\
    dist pa pb <= dist a b /\ Rabs (sa - sb) <= dist a b.
Proof.
  intros v a b La Lb Hz.
  destruct (C17_project_vector v a ltac:(congruence) Hz) as (pa & sa & ka & E1 & E2 & _ & _ & _ & _ & Ea & _).
  destruct (C17_project_vector v b ltac:(congruence) Hz) as (pb & sb & kb & E3 & E4 & _ & _ & _ & _ & Eb & _).
  exists pa, pb, sa, sb. do 4 (split; auto). rewrite project_vector_R in E1, E3 by (auto; congruence). injection E1 as <-. injection E3 as <-.
  assert (Es : sub a b = sub a b) by reflexivity. pose proof (len_pos v Hz) as Pv. split.
  - unfold dist. replace (sub (scale (dot v a / dot v v) v) (scale (dot v b / dot v v) v)) with (scale (dot v (sub a b) / dot v v) v); [apply proj_len; auto; len|].
    apply pt_ext; [len|]. intros i _. rewrite nth_sub by len. rewrite !nth_scale, dot_sub_r by len. unfold Rdiv. ring.
  - subst sa sb. unfold Rdiv. rewrite <- Rmult_minus_distr_r, <- dot_sub_r by len. rewrite Rabs_mult, (Rabs_pos_eq (/ len v)) by (left; apply Rinv_0_lt_compat; auto).
    pose proof (cauchy_schwarz v (sub a b) ltac:(len)) as C. apply (Rmult_le_reg_r (len v)); auto. rewrite Rmult_assoc, Rinv_l, Rmult_1_r by lra. unfold dist. lra.
Qed.

(** ** Lines *)
Lemma lproj_nonexp p d x y : pv_ok p d -> length x = length p -> length y = length p -> dist (lproj p d x) (lproj p d y) <= dist x y.
Proof.
  intros (L & Hz & Hp) Lx Ly. unfold dist, lproj.
  replace (sub _ _) with (scale (dot d (sub x y) / dot d d) d); [apply proj_len; auto; len|].
  apply pt_ext; [len|]. intros i _. rewrite nth_sub by len. rewrite !nth_add by len. rewrite !nth_scale, !dot_sub_r by len. unfold Rdiv. ring.
Qed.
Theorem C78_line : forall (p d x y : pt) l, line_new (N:=RNum) p d = Ok l -> length x = length p -> length y = length p ->
  exists r s px py, line_distance_point l x = Ok r /\ line_distance_point l y = Ok s /\ Rabs (r - s) <= dist x y /\
    line_project_point l x = Ok px /\ line_project_point l y = Ok py /\ dist px py <= dist x y.
Proof.
  intros p d x y l E Lx Ly. apply line_new_inv in E as (-> & L & Hz & Hp). assert (V : pv_ok p d) by (split; auto).
  exists (dist x (lproj p d x)), (dist y (lproj p d y)), (lproj p d x), (lproj p d y).
  split; [apply line_distance_point_R; auto|]. split; [apply line_distance_point_R; auto|]. split.
  - apply (min_dist_lip (on_line p d)); [intros z (t & ->); len|congruence|apply lproj_min; auto|apply lproj_min; auto].
  - split; [apply line_project_point_R; auto|]. split; [apply line_project_point_R; auto|]. apply lproj_nonexp; auto.
Qed.
(** The line itself moves: same direction, base point displaced. *)
Theorem C78_line_base : forall (p p' d x : pt) l l', line_new (N:=RNum) p d = Ok l -> line_new (N:=RNum) p' d = Ok l' -> length x = length p ->
  exists r s px py, line_distance_point l x = Ok r /\ line_distance_point l' x = Ok s /\ Rabs (r - s) <= dist p p' /\
    line_project_point l x = Ok px /\ line_project_point l' x = Ok py /\ dist px py <= dist p p'.
Proof.
  intros p p' d x l l' E E' Lx. apply line_new_inv in E as (-> & L & Hz & Hp). apply line_new_inv in E' as (-> & L' & _ & Hp').
  assert (V : pv_ok p d) by (split; auto). assert (V' : pv_ok p' d) by (split; auto). assert (Lx' : length x = length p') by congruence.
  exists (dist x (lproj p d x)), (dist x (lproj p' d x)), (lproj p d x), (lproj p' d x).
  assert (D : dist (lproj p d x) (lproj p' d x) <= dist p p').
  { unfold dist, lproj. replace (sub _ _) with (sub (sub p p') (scale (dot d (sub p p') / dot d d) d)); [apply resid_len; auto; len|].
    apply pt_ext; [len|]. intros i _. repeat rewrite ?nth_sub, ?nth_add, ?nth_scale by len. rewrite !dot_sub_r by len. unfold Rdiv. ring. }
  split; [apply line_distance_point_R; auto|]. split; [apply line_distance_point_R; auto|]. split.
  - pose proof (length_lproj p d x L) as K. pose proof (length_lproj p' d x L') as K'.
    pose proof (dist_triangle x (lproj p d x) (lproj p' d x) ltac:(congruence) ltac:(congruence)) as T1.
    pose proof (dist_triangle x (lproj p' d x) (lproj p d x) ltac:(congruence) ltac:(congruence)) as T2.
    rewrite (dist_sym (lproj p' d x) (lproj p d x)) in T2. apply Rabs_le. lra.
  - split; [apply line_project_point_R; auto|]. split; [apply line_project_point_R; auto|]. auto.
Qed.

(** ** Planes *)
Lemma sdist_lip p n x y : pv_ok p n -> length x = length p -> length y = length p -> Rabs (sdist p n x - sdist p n y) <= dist x y.
Proof.
  intros (L & Hz & Hp) Lx Ly. pose proof (len_pos n Hz) as Pv. unfold sdist.
  replace (dot n (sub x p) / len n - dot n (sub y p) / len n) with (dot n (sub x y) * / len n) by (rewrite !dot_sub_r by len; unfold Rdiv; ring).
  rewrite Rabs_mult, (Rabs_pos_eq (/ len n)) by (left; apply Rinv_0_lt_compat; auto).
  pose proof (cauchy_schwarz n (sub x y) ltac:(len)) as C. apply (Rmult_le_reg_r (len n)); auto. rewrite Rmult_assoc, Rinv_l, Rmult_1_r by lra. unfold dist. lra.
Qed.
Lemma sdist_lip_base p p' n x : pv_ok p n -> pv_ok p' n -> length x = length p -> Rabs (sdist p n x - sdist p' n x) <= dist p p'.
Proof.
  intros (L & Hz & Hp) (L' & _ & _) Lx. pose proof (len_pos n Hz) as Pv. unfold sdist.
  replace (dot n (sub x p) / len n - dot n (sub x p') / len n) with (- (dot n (sub p p') * / len n)) by (rewrite !dot_sub_r by len; unfold Rdiv; ring).
  rewrite Rabs_Ropp, Rabs_mult, (Rabs_pos_eq (/ len n)) by (left; apply Rinv_0_lt_compat; auto).
  pose proof (cauchy_schwarz n (sub p p') ltac:(len)) as C. apply (Rmult_le_reg_r (len n)); auto. rewrite Rmult_assoc, Rinv_l, Rmult_1_r by lra. unfold dist. lra.
Qed.
Lemma abs_lip a b e : Rabs (a - b) <= e -> Rabs (Rabs a - Rabs b) <= e.
Proof. intro H. eapply Rle_trans; [apply Rabs_triang_inv2|exact H]. Qed.
Lemma pproj_nonexp p n x y : pv_ok p n -> length x = length p -> length y = length p -> dist (pproj p n x) (pproj p n y) <= dist x y.
Proof.
  intros (L & Hz & Hp) Lx Ly. unfold dist, pproj.
  replace (sub _ _) with (sub (sub x y) (scale (dot n (sub x y) / dot n n) n)); [apply resid_len; auto; len|].
  apply pt_ext; [len|]. intros i _. repeat rewrite ?nth_sub, ?nth_add, ?nth_scale by len. rewrite !dot_sub_r by len. unfold Rdiv. ring.
Qed.
Theorem C78_plane : forall (p n x y : pt) pl, plane_new (N:=RNum) p n = Ok pl -> length x = length p -> length y = length p ->
  exists r s rs ss px py, plane_distance_point pl x = Ok r /\ plane_distance_point pl y = Ok s /\ Rabs (r - s) <= dist x y /\
    plane_distance_point_signed pl x = Ok rs /\ plane_distance_point_signed pl y = Ok ss /\ Rabs (rs - ss) <= dist x y /\
    plane_project_point pl x = Ok px /\ plane_project_point pl y = Ok py /\ dist px py <= dist x y.
Proof.
  intros p n x y pl E Lx Ly. apply plane_new_inv in E as (-> & V).
  exists (dist x (pproj p n x)), (dist y (pproj p n y)), (sdist p n x), (sdist p n y), (pproj p n x), (pproj p n y).
  pose proof (sdist_lip p n x y V Lx Ly) as S.
  split; [apply plane_distance_point_R; auto|]. split; [apply plane_distance_point_R; auto|].
  split; [rewrite <- !sdist_abs by auto; apply abs_lip; auto|].
  split; [apply plane_signed_R; auto|]. split; [apply plane_signed_R; auto|]. split; auto.
  split; [apply plane_project_point_R; auto|]. split; [apply plane_project_point_R; auto|]. apply pproj_nonexp; auto.
Qed.
Theorem C78_plane_base : forall (p p' n x : pt) pl pl', plane_new (N:=RNum) p n = Ok pl -> plane_new (N:=RNum) p' n = Ok pl' -> length x = length p ->
  exists r s rs ss px py, plane_distance_point pl x = Ok r /\ plane_distance_point pl' x = Ok s /\ Rabs (r - s) <= dist p p' /\
    plane_distance_point_signed pl x = Ok rs /\ plane_distance_point_signed pl' x = Ok ss /\ Rabs (rs - ss) <= dist p p' /\
    plane_project_point pl x = Ok px /\ plane_project_point pl' x = Ok py /\ dist px py <= dist p p'.
Proof.
  intros p p' n x pl pl' E E' Lx. apply plane_new_inv in E as (-> & V). apply plane_new_inv in E' as (-> & V').
  pose proof V as (L & Hz & _). pose proof V' as (L' & _ & _). assert (Lx' : length x = length p') by congruence.
  exists (dist x (pproj p n x)), (dist x (pproj p' n x)), (sdist p n x), (sdist p' n x), (pproj p n x), (pproj p' n x).
  pose proof (sdist_lip_base p p' n x V V' Lx) as S.
  split; [apply plane_distance_point_R; auto|]. split; [apply plane_distance_point_R; auto|].
  split; [rewrite <- !sdist_abs by auto; apply abs_lip; auto|].
  split; [apply plane_signed_R; auto|]. split; [apply plane_signed_R; auto|]. split; auto.
  split; [apply plane_project_point_R; auto|]. split; [apply plane_project_point_R; auto|].
  unfold dist, pproj. replace (sub _ _) with (scale (dot n (sub p p') / dot n n) n); [apply proj_len; auto; len|].
  apply pt_ext; [len|]. intros i _. repeat rewrite ?nth_sub, ?nth_add, ?nth_scale by len. rewrite !dot_sub_r by len. unfold Rdiv. ring.
Qed.
Theorem C78_plane_project_vector : forall (p n a b : pt) pl, plane_new (N:=RNum) p n = Ok pl -> length a = length p -> length b = length p ->
  exists u v, plane_project_vector pl a = Ok u /\ plane_project_vector pl b = Ok v /\ dist u v <= dist a b.
Proof.
  intros p n a b pl E La Lb. apply plane_new_inv in E as (-> & V). pose proof V as (L & Hz & Hp).
  assert (G : forall a, length a = length p -> plane_project_vector (N:=RNum) (MkPlane p n) a = Ok (sub (pproj p n (add p a)) p)).
  { clear a La. intros a La; rn. unfold plane_project_vector. cbn [pl_point]. rewrite vadd_R by (symmetry; exact La). cbn [bind].
    rewrite plane_project_point_R by (auto; len). cbn [bind]. apply from_points_R; auto. symmetry. etransitivity; [apply length_pproj; len|congruence]. }
  exists (sub (pproj p n (add p a)) p), (sub (pproj p n (add p b)) p). split; [apply G; auto|]. split; [apply G; auto|].
  assert (Ka : length (pproj p n (add p a)) = length p) by (rewrite length_pproj; [congruence|len]).
  assert (Kb : length (pproj p n (add p b)) = length p) by (rewrite length_pproj; [congruence|len]).
  unfold dist at 1. rewrite <- sub_via by congruence. fold (dist (pproj p n (add p a)) (pproj p n (add p b))).
  eapply Rle_trans; [apply pproj_nonexp; auto; len|]. right. unfold dist. f_equal.
  apply pt_ext; [len|]. intros i _. repeat rewrite ?nth_sub, ?nth_add by len. ring.
Qed.

(** ** Circles and spheres *)
Lemma ball_distance_R (p q : pt) r : p <> [] -> length q = length p -> ball_distance_point (MkBall (N:=RNum) p r) q = Ok (Rabs (dist q p - r)).
Proof. intros Hp L. unfold ball_distance_point. cbn [c_point c_radius]. rewrite distance_point_R by auto. cbn [bind]. rewrite (dist_sym p q). reflexivity. Qed.
Lemma ball_project_R' (p q : pt) r : p <> [] -> length q = length p -> q <> p -> ball_project_point (MkBall (N:=RNum) p r) q = Ok (bproj p r q).
Proof.
  intros Hp L Hq. unfold ball_project_point. cbn [c_point c_radius].
  destruct (is_equal1 (N:=RNum) p q) eqn:Eq; [apply (proj1 (Arrays.C04_is_equal_exact p q [] [])) in Eq; congruence|].
  rewrite from_points_R by auto. cbn [bind]. assert (Z : ~ is_zero_vec (sub q p)) by (intro Z; apply Hq, sub_zero_iff; auto).
  rewrite unit_R by auto. cbn [bind]. rewrite vmuls_R. cbn [bind]. rewrite vadd_R by len. unfold bproj. rewrite scale_scale. reflexivity.
Qed.
Theorem C78_ball_distance : forall (c c' x y : pt) (r r' : R) b b', ball_ok b c r -> ball_ok b' c' r' ->
  length c' = length c -> length x = length c -> length y = length c ->
  exists s s', ball_distance_point b x = Ok s /\ ball_distance_point b' y = Ok s' /\
    Rabs (s - s') <= dist x y + dist c c' + Rabs (r - r').
Proof.
  intros c c' x y r r' b b' B B' Lc Lx Ly. apply ball_ok_inv in B as (-> & Hr & Hc). apply ball_ok_inv in B' as (-> & Hr' & Hc').
  exists (Rabs (dist x c - r)), (Rabs (dist y c' - r')). split; [apply ball_distance_R; auto|]. split; [apply ball_distance_R; auto; congruence|].
  apply abs_lip. pose proof (dist_triangle x y c ltac:(congruence) ltac:(congruence)). pose proof (dist_triangle y c' c ltac:(congruence) ltac:(congruence)).
  pose proof (dist_triangle y x c' ltac:(congruence) ltac:(congruence)). pose proof (dist_triangle x c c' ltac:(congruence) ltac:(congruence)).
  rewrite (dist_sym y x) in *. rewrite (dist_sym c' c) in *. pose proof (Rle_abs (r - r')). pose proof (Rle_abs (-(r - r'))). rewrite Rabs_Ropp in *. apply Rabs_le. lra.
Qed.
Theorem C78_ball_project : forall (c x y : pt) (r : R) b, ball_ok b c r -> length x = length c -> length y = length c -> x <> c -> y <> c ->
  exists px py, ball_project_point b x = Ok px /\ ball_project_point b y = Ok py /\
    dist px py * dist px py * (dist x c * dist y c) <= r * r * (dist x y * dist x y) /\
    (* outside (and on) the circle or sphere the projection does not increase distances *)
    (r <= dist x c -> r <= dist y c -> dist px py <= dist x y).
Proof.
  intros c x y r b B Lx Ly Nx Ny. apply ball_ok_inv in B as (-> & Hr & Hc).
  exists (bproj c r x), (bproj c r y). split; [apply ball_project_R'; auto|]. split; [apply ball_project_R'; auto|].
  assert (Zx : ~ is_zero_vec (sub x c)) by (intro Z; apply Nx, sub_zero_iff; auto). assert (Zy : ~ is_zero_vec (sub y c)) by (intro Z; apply Ny, sub_zero_iff; auto).
  pose proof (unit_diff (sub x c) (sub y c) ltac:(len) Zx Zy) as U.
  assert (Ed : dist (sub x c) (sub y c) = dist x y) by (unfold dist; rewrite <- sub_via by congruence; reflexivity).
  pose proof (len_pos _ Zx) as Px. pose proof (len_pos _ Zy) as Py. fold (dist x c) in *. fold (dist y c) in *.
  set (u := dist (scale (/ dist x c) (sub x c)) (scale (/ dist y c) (sub y c))) in *.
  assert (Eb : dist (bproj c r x) (bproj c r y) = r * u).
  { unfold dist at 1. replace (sub (bproj c r x) (bproj c r y)) with (scale r (sub (scale (/ dist x c) (sub x c)) (scale (/ dist y c) (sub y c)))).
    - rewrite len_scale, Rabs_pos_eq by lra. reflexivity.
    - unfold bproj. apply pt_ext; [len|]. intros i _. repeat rewrite ?nth_sub, ?nth_add, ?nth_scale by len. unfold Rdiv. ring. }
  rewrite Ed in U. rewrite Eb. assert (Hu : 0 <= u) by apply len_nonneg.
  assert (M : r * u * (r * u) * (dist x c * dist y c) <= r * r * (dist x y * dist x y)).
  { replace (r * u * (r * u) * (dist x c * dist y c)) with (r * r * (u * u * (dist x c * dist y c))) by ring. apply Rmult_le_compat_l; [nra|auto]. }
  split; auto. intros H1 H2. apply le_of_sq; [apply len_nonneg|].
  assert (r * r <= dist x c * dist y c) by nra. assert (0 <= u * u) by nra.
  eapply Rle_trans; [|exact U]. replace (r * u * (r * u)) with (u * u * (r * r)) by ring. apply Rmult_le_compat_l; auto.
Qed.
(** Inside, it can: two points close to the centre are sent to opposite points of the circle. *)
Theorem C78_ball_project_inside_refuted : forall e, 0 < e -> exists (b : ball RNum) (x y px py : pt),
  circle_new (N:=RNum) [0; 0] 1 = Ok b /\ dist x y <= e /\ ball_project_point b x = Ok px /\ ball_project_point b y = Ok py /\ dist px py = 2.
Proof.
  intros e He. assert (Ec : circle_new (N:=RNum) [0; 0] 1 = Ok (MkBall (N:=RNum) [0; 0] 1)).
  { apply (proj1 (C45_construction [0; 0] 1)). split; auto. split; [lra|reflexivity]. }
  assert (D : forall t, dist [t; 0] [0; 0] = Rabs t).
  { intro t. unfold dist, len. simpl. replace ((t - 0) * (t - 0) + ((0 - 0) * (0 - 0) + 0)) with (Rsqr t) by (unfold Rsqr; ring). apply sqrt_Rsqr_abs. }
  assert (B : forall t, t <> 0 -> bproj [0; 0] 1 [t; 0] = [t / Rabs t; 0]).
  { intros t Ht. unfold bproj. rewrite D. simpl. f_equal; [field; apply Rabs_no_R0; auto|]. f_equal. unfold Rdiv. ring. }
  exists (MkBall (N:=RNum) [0; 0] 1), [e / 2; 0], [- (e / 2); 0], [1; 0], [-1; 0]. split; auto. split; [|split; [|split]].
  - unfold dist, len. simpl. replace ((e / 2 - - (e / 2)) * (e / 2 - - (e / 2)) + ((0 - 0) * (0 - 0) + 0)) with (e * e) by field. rewrite sqrt_square; lra.
  - rewrite ball_project_R'; [rewrite B by lra; rewrite Rabs_pos_eq by lra; do 2 f_equal; field; lra|discriminate|reflexivity|intro Q; injection Q; lra].
  - rewrite ball_project_R'; [rewrite B by lra; rewrite Rabs_left by lra; do 2 f_equal; field; lra|discriminate|reflexivity|intro Q; injection Q; lra].
  - unfold dist, len. simpl. replace ((1 - -1) * (1 - -1) + ((0 - 0) * (0 - 0) + 0)) with (2 * 2) by ring. rewrite sqrt_square; lra.
Qed.

(** ** Points.centroid *)
Lemma vsum_diff d rows rows' e : Forall2 (fun a b => length a = d /\ length b = d /\ dist a b <= e) rows rows' ->
  dist (vsum d rows) (vsum d rows') <= INR (length rows) * e.
Proof.
  intro F. induction F as [|a b ra rb (La & Lb & H) F IH].
  - simpl. unfold dist. rewrite sub_self. rewrite Rmult_0_l. right. apply len_zero_iff. apply zero_origin.
  - assert (Fa : Forall (fun r => length r = d) ra) by (clear -F; induction F as [|? ? ? ? (? & _)]; constructor; auto).
    assert (Fb : Forall (fun r => length r = d) rb) by (clear -F; induction F as [|? ? ? ? (_ & ? & _)]; constructor; auto).
    pose proof (length_vsum d ra Fa) as Ka. pose proof (length_vsum d rb Fb) as Kb.
    change (length (a :: ra)) with (S (length ra)). rewrite S_INR, !vsum_cons. unfold dist.
    replace (sub (add a (vsum d ra)) (add b (vsum d rb))) with (add (sub a b) (sub (vsum d ra) (vsum d rb))).
    + eapply Rle_trans; [apply len_triangle; len|]. fold (dist a b). fold (dist (vsum d ra) (vsum d rb)). lra.
    + apply pt_ext; [len|]. intros i _. repeat rewrite ?nth_sub, ?nth_add by len. ring.
Qed.
Theorem C78_centroid : forall d (rows rows' : list pt) e, points_ok d rows -> points_ok d rows' ->
  Forall2 (fun a b => dist a b <= e) rows rows' ->
  exists c c', centroid (N:=RNum) rows = Ok c /\ centroid (N:=RNum) rows' = Ok c' /\ dist c c' <= e.
Proof.
  intros d rows rows' e P P' F. exists (cent d rows), (cent d rows'). split; [apply centroid_R; auto|]. split; [apply centroid_R; auto|].
  destruct P as (Hne & _ & Fr). destruct P' as (_ & _ & Fr').
  assert (Ln : length rows = length rows') by (clear -F; induction F; simpl; auto).
  assert (G : Forall2 (fun a b => length a = d /\ length b = d /\ dist a b <= e) rows rows').
  { clear -F Fr Fr'. induction F; constructor; inversion Fr; inversion Fr'; subst; auto. }
  apply vsum_diff in G. pose proof (length_vsum d rows Fr) as Ka. pose proof (length_vsum d rows' Fr') as Kb.
  assert (Hn : 0 < INR (length rows)) by (apply lt_0_INR; destruct rows; [contradiction|simpl; lia]).
  unfold cent. rewrite <- Ln. unfold dist. replace (sub _ _) with (scale (/ INR (length rows)) (sub (vsum d rows) (vsum d rows'))).
  - rewrite len_scale, Rabs_pos_eq by (left; apply Rinv_0_lt_compat; auto). fold (dist (vsum d rows) (vsum d rows')).
    apply (Rmult_le_reg_l (INR (length rows))); auto. rewrite <- Rmult_assoc, Rinv_r by lra. lra.
  - apply pt_ext; [len|]. intros i _. repeat rewrite ?nth_sub, ?nth_scale by len. ring.
Qed.

(** ** Vector.angle_between *)
Lemma acos_triangle (a b c : pt) : length a = length b -> length c = length b -> ~ is_zero_vec a -> ~ is_zero_vec b -> ~ is_zero_vec c ->
  acos (cosine a c) <= acos (cosine a b) + acos (cosine b c).
Proof.
  intros La Lc Ha Hb Hc. pose proof (cosine_bounds a b La Ha Hb) as B1. pose proof (cosine_bounds b c ltac:(congruence) Hb Hc) as B2.
  pose proof (cosine_bounds a c ltac:(congruence) Ha Hc) as B3.
  set (al := acos (cosine a b)). set (be := acos (cosine b c)). pose proof (acos_bound (cosine a b)) as A1. pose proof (acos_bound (cosine b c)) as A2. pose proof (acos_bound (cosine a c)) as A3. fold al in A1. fold be in A2.
  destruct (Rle_dec PI (al + be)) as [|N]; [lra|]. apply Rnot_le_lt in N.
  destruct (Rle_dec (acos (cosine a c)) (al + be)) as [|M]; auto. exfalso. apply Rnot_le_lt in M.
  assert (C : cos (acos (cosine a c)) < cos (al + be)) by (apply cos_decreasing_1; lra).
  rewrite cos_acos in C by auto. rewrite cos_plus in C. unfold al, be in C. rewrite !cos_acos, !sin_acos in C by auto.
  pose proof (len_pos a Ha) as Pa. pose proof (len_pos b Hb) as Pb. pose proof (len_pos c Hc) as Pc.
  set (x := cosine a b) in *. set (y := cosine b c) in *. set (z := cosine a c) in *.
  set (ua := scale (/ len a) a). set (ub := scale (/ len b) b). set (uc := scale (/ len c) c).
  assert (Eab : dot ua ub = x) by (unfold ua, ub, x, cosine; rewrite dot_scale_l, dot_scale_r; field; lra).
  assert (Ebc : dot ub uc = y) by (unfold uc, ub, y, cosine; rewrite dot_scale_l, dot_scale_r; field; lra).
  assert (Eac : dot ua uc = z) by (unfold ua, uc, z, cosine; rewrite dot_scale_l, dot_scale_r; field; lra).
  assert (Eaa : dot ua ua = 1) by (unfold ua; rewrite dot_scale_l, dot_scale_r, <- len_sq; field; lra).
  assert (Ebb : dot ub ub = 1) by (unfold ub; rewrite dot_scale_l, dot_scale_r, <- len_sq; field; lra).
  assert (Ecc : dot uc uc = 1) by (unfold uc; rewrite dot_scale_l, dot_scale_r, <- len_sq; field; lra).
  assert (L1 : length ua = length b) by (unfold ua; len). assert (L2 : length ub = length b) by (unfold ub; len). assert (L3 : length uc = length b) by (unfold uc; len).
  clearbody ua ub uc.
  set (a' := sub ua (scale x ub)). set (c' := sub uc (scale y ub)).
  assert (Ka : len a' = sqrt (1 - x²)).
  { unfold len. f_equal. unfold a'. rewrite dot_sub_l, !dot_sub_r, !dot_scale_l, !dot_scale_r by len. rewrite (dot_comm ub ua), Eab, Eaa, Ebb. unfold Rsqr. ring. }
  assert (Kc : len c' = sqrt (1 - y²)).
  { unfold len. f_equal. unfold c'. rewrite dot_sub_l, !dot_sub_r, !dot_scale_l, !dot_scale_r by len. rewrite (dot_comm uc ub), Ebc, Ecc, Ebb. unfold Rsqr. ring. }
  assert (Kd : dot a' c' = z - x * y).
  { unfold a', c'. rewrite dot_sub_l, !dot_sub_r, !dot_scale_l, !dot_scale_r by len. rewrite Ebc, Eac, Eab, Ebb. ring. }
  pose proof (cauchy_schwarz a' c' ltac:(unfold a', c'; len)) as CS. rewrite Ka, Kc, Kd in CS.
  pose proof (Rle_abs (- (z - x * y))) as Q. rewrite Rabs_Ropp in Q. lra.
Qed.
Theorem C78_angle_triangle : forall a b c : pt, length a = length b -> length c = length b -> ~ is_zero_vec a -> ~ is_zero_vec b -> ~ is_zero_vec c ->
  exists ab bc ac, angle_between (N:=RNum) RTrig a b = Ok ab /\ angle_between (N:=RNum) RTrig b c = Ok bc /\
    angle_between (N:=RNum) RTrig a c = Ok ac /\ ac <= ab + bc /\ Rabs (ab - bc) <= ac.
Proof.
  intros a b c La Lc Ha Hb Hc. exists (acos (cosine a b)), (acos (cosine b c)), (acos (cosine a c)).
  split; [apply angle_R; auto|]. split; [apply angle_R; auto|]. split; [apply angle_R; auto; congruence|].
  assert (Sy : forall u v, cosine u v = cosine v u) by (intros; unfold cosine; rewrite dot_comm, (Rmult_comm (len u)); reflexivity).
  split; [apply acos_triangle; auto|]. pose proof (acos_triangle a c b ltac:(congruence) ltac:(congruence) Ha Hc Hb) as T1.
  pose proof (acos_triangle b a c ltac:(congruence) ltac:(congruence) Hb Ha Hc) as T2. rewrite (Sy c b) in T1. rewrite (Sy b a) in T2. apply Rabs_le. lra.
Qed.

(** ** The hypotheses are met, and the constant 1 cannot be lowered *)
Theorem C78_nonvacuous :
  (exists l r s, line_new (N:=RNum) [0; 0] [1; 0] = Ok l /\ line_distance_point l [3; 1] = Ok r /\ line_distance_point l [3; 5] = Ok s /\
     Rabs (r - s) = dist [3; 1] [3; 5] /\ dist [3; 1] [3; 5] = 4) /\
  (exists b px py, circle_new (N:=RNum) [0; 0] 1 = Ok b /\ ball_project_point b [2; 0] = Ok px /\ ball_project_point b [0; 2] = Ok py /\
     dist px py * dist px py * (dist [2; 0] [0; 0] * dist [0; 2] [0; 0]) = 1 * 1 * (dist [2; 0] [0; 2] * dist [2; 0] [0; 2])) /\
  (exists ab bc ac, angle_between (N:=RNum) RTrig [1; 0] [1; 1] = Ok ab /\ angle_between (N:=RNum) RTrig [1; 1] [0; 1] = Ok bc /\
     angle_between (N:=RNum) RTrig [1; 0] [0; 1] = Ok ac /\ ac <= ab + bc).
Proof.
  split; [|split].
  - assert (Hz : ~ is_zero_vec [1; 0]) by (intro Z; injection Z; lra). assert (V : pv_ok [0; 0] [1; 0]) by (split; [reflexivity|split; auto; discriminate]).
    assert (P : forall y, dist [3; y] (lproj [0; 0] [1; 0] [3; y]) = Rabs y).
    { intro y. unfold dist, len, lproj. simpl. match goal with |- sqrt ?e = _ => replace e with (Rsqr y) by (unfold Rsqr; field) end. apply sqrt_Rsqr_abs. }
    exists (MkLine (N:=RNum) [0; 0] [1; 0]), (Rabs 1), (Rabs 5). split; [apply line_new_R; auto|].
    assert (D : dist [3; 1] [3; 5] = 4) by (unfold dist, len; simpl; replace ((3 - 3) * (3 - 3) + ((1 - 5) * (1 - 5) + 0)) with (4 * 4) by ring; apply sqrt_square; lra).
    split; [rewrite line_distance_point_R by auto; rewrite P; reflexivity|]. split; [rewrite line_distance_point_R by auto; rewrite P; reflexivity|].
    rewrite D. split; auto. rewrite (Rabs_pos_eq 1), (Rabs_pos_eq 5) by lra. rewrite Rabs_left; lra.
  - assert (Ec : circle_new (N:=RNum) [0; 0] 1 = Ok (MkBall (N:=RNum) [0; 0] 1)) by (apply (proj1 (C45_construction [0; 0] 1)); split; auto; split; [lra|reflexivity]).
    assert (D : dist [2; 0] [0; 0] = 2) by (unfold dist, len; simpl; replace ((2 - 0) * (2 - 0) + ((0 - 0) * (0 - 0) + 0)) with (2 * 2) by ring; apply sqrt_square; lra).
    assert (D' : dist [0; 2] [0; 0] = 2) by (unfold dist, len; simpl; replace ((0 - 0) * (0 - 0) + ((2 - 0) * (2 - 0) + 0)) with (2 * 2) by ring; apply sqrt_square; lra).
    assert (B : bproj [0; 0] 1 [2; 0] = [1; 0]) by (unfold bproj; rewrite D; simpl; repeat (f_equal; try lra)).
    assert (B' : bproj [0; 0] 1 [0; 2] = [0; 1]) by (unfold bproj; rewrite D'; simpl; repeat (f_equal; try lra)).
    exists (MkBall (N:=RNum) [0; 0] 1), [1; 0], [0; 1]. split; auto.
    split; [rewrite ball_project_R'; [rewrite B; reflexivity|discriminate|reflexivity|intro Q; injection Q; lra]|].
    split; [rewrite ball_project_R'; [rewrite B'; reflexivity|discriminate|reflexivity|intro Q; injection Q; lra]|].
    rewrite D, D'. unfold dist. rewrite !len_sq. simpl. ring.
  - destruct (C78_angle_triangle [1; 0] [1; 1] [0; 1]) as (ab & bc & ac & H1 & H2 & H3 & H4 & _); try reflexivity; try (intro Z; injection Z; lra).
    exists ab, bc, ac. auto.
Qed.

Print Assumptions C78_point_distance. Print Assumptions C78_norm. Print Assumptions C78_unit. Print Assumptions C78_project_vector.
Print Assumptions C78_line. Print Assumptions C78_line_base. Print Assumptions C78_plane. Print Assumptions C78_plane_base.
Print Assumptions C78_plane_project_vector. Print Assumptions C78_ball_distance. Print Assumptions C78_ball_project.
Print Assumptions C78_ball_project_inside_refuted. Print Assumptions C78_centroid. Print Assumptions C78_angle_triangle. Print Assumptions C78_nonvacuous.
