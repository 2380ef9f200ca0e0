(** * Maps multiplying all distances by a constant are affine *)
From Coq Require Import Reals List Lra Lia Psatz.
From Verif.Spec Require Import Geometry Similarity.
From Verif.Proof Require Import VecAlg.
Import ListNotations.
Local Open Scope R_scope.

Section S.
Context (n m : nat) (s : R) (T : pt -> pt) (H : similarity n m s T).
Notation V := (vmap n T).

Lemma sim_pos : 0 < s. Proof. apply H. Qed.
Lemma sim_len x : length x = n -> length (T x) = m. Proof. apply H. Qed.
Lemma sim_dist x y : length x = n -> length y = n -> dist (T x) (T y) = s * dist x y. Proof. apply H. Qed.
Lemma vmap_len v : length v = n -> length (V v) = m.
Proof. intro L. unfold vmap. rewrite length_sub, !sim_len by (auto; apply length_origin). lia. Qed.

Lemma polar a b c : length a = length b -> length a = length c ->
  2 * dot (sub b a) (sub c a) = dist b a * dist b a + dist c a * dist c a - dist b c * dist b c.
Proof.
  intros Lb Lc. rewrite !dist_sq. rewrite (sub_via b c a) by congruence.
  assert (L : length (sub b a) = length (sub c a)) by (rewrite !length_sub; lia). revert L. generalize (sub b a) (sub c a). intros u w L.
  rewrite (dot_sub_l u w), !dot_sub_r by auto. rewrite (dot_comm w u). ring.
Qed.
Lemma sim_dot a b c : length a = n -> length b = n -> length c = n ->
  dot (sub (T b) (T a)) (sub (T c) (T a)) = s * s * dot (sub b a) (sub c a).
Proof.
  intros La Lb Lc. pose proof (polar (T a) (T b) (T c)) as P. pose proof (polar a b c) as Q.
  rewrite !sim_len in P by auto. specialize (P eq_refl eq_refl). rewrite !sim_dist in P by auto. specialize (Q ltac:(congruence) ltac:(congruence)).
  assert (E : 2 * dot (sub (T b) (T a)) (sub (T c) (T a)) = s * s * (2 * dot (sub b a) (sub c a))) by (rewrite P, Q; ring). lra.
Qed.
Lemma vmap_dot u v : length u = n -> length v = n -> dot (V u) (V v) = s * s * dot u v.
Proof. intros Lu Lv. unfold vmap. rewrite sim_dot by (auto; apply length_origin). rewrite !sub_origin_r by auto. reflexivity. Qed.
Lemma vmap_add u v : length u = n -> length v = n -> V (add u v) = add (V u) (V v).
Proof.
  intros Lu Lv. assert (La : length (add u v) = n) by (rewrite length_add; lia).
  assert (L1 := vmap_len _ Lu). assert (L2 := vmap_len _ Lv). assert (L3 := vmap_len _ La).
  assert (L4 : length (add (V u) (V v)) = m) by (rewrite length_add; lia).
  assert (L5 : length (V (add u v)) = length (add (V u) (V v))) by congruence.
  apply (proj1 (sub_zero_iff (V (add u v)) (add (V u) (V v)) L5)). apply dot_self_zero.
  rewrite dot_sub_l by congruence. rewrite !dot_sub_r by congruence. rewrite !dot_add_l by congruence. rewrite !dot_add_r by congruence.
  rewrite !vmap_dot by auto. rewrite !dot_add_l by congruence. rewrite !dot_add_r by congruence. ring.
Qed.
Lemma vmap_scale t v : length v = n -> V (scale t v) = scale t (V v).
Proof.
  intro Lv. assert (Ls : length (scale t v) = n) by (rewrite length_scale; auto). assert (L1 := vmap_len _ Lv). assert (L2 := vmap_len _ Ls).
  apply (proj1 (sub_zero_iff (V (scale t v)) (scale t (V v)) ltac:(rewrite length_scale; congruence))). apply dot_self_zero.
  rewrite dot_sub_l by (rewrite length_scale; congruence). rewrite !dot_sub_r by (rewrite length_scale; congruence).
  repeat rewrite ?dot_scale_l, ?dot_scale_r, ?vmap_dot by auto. repeat rewrite ?dot_scale_l, ?dot_scale_r. ring.
Qed.
Lemma vmap_origin : V (origin n) = origin m.
Proof. unfold vmap. rewrite sub_self, sim_len by apply length_origin. reflexivity. Qed.
Lemma sim_sub a b : length a = n -> length b = n -> sub (T b) (T a) = V (sub b a).
Proof.
  intros La Lb. assert (E : b = add a (sub b a)) by (symmetry; apply add_sub_cancel; congruence).
  assert (Ls : length (sub b a) = n) by (rewrite length_sub; lia).
  assert (G : V b = add (V a) (V (sub b a))) by (rewrite <- vmap_add by auto; f_equal; exact E).
  assert (F : sub (T b) (T a) = sub (V b) (V a)). { unfold vmap. apply sub_via; rewrite !sim_len; auto using length_origin. }
  rewrite F, G. apply sub_add_cancel. rewrite !vmap_len by auto. reflexivity.
Qed.
Lemma sim_add p v : length p = n -> length v = n -> T (add p v) = add (T p) (V v).
Proof.
  intros Lp Lv. assert (La : length (add p v) = n) by (rewrite length_add; lia).
  rewrite <- (add_sub_cancel (T p) (T (add p v))) by (rewrite !sim_len; auto). f_equal. rewrite sim_sub by auto. f_equal. apply sub_add_cancel. congruence.
Qed.
Lemma sim_along p v t : length p = n -> length v = n -> T (add p (scale t v)) = add (T p) (scale t (V v)).
Proof. intros Lp Lv. rewrite sim_add by (auto; rewrite length_scale; auto). rewrite vmap_scale by auto. reflexivity. Qed.
Lemma vmap_sub u v : length u = n -> length v = n -> V (sub u v) = sub (V u) (V v).
Proof.
  intros Lu Lv. rewrite !sub_scale by (rewrite ?vmap_len; congruence). rewrite vmap_add by (rewrite ?length_scale; auto). rewrite vmap_scale by auto. reflexivity.
Qed.
Lemma vmap_lenv v : length v = n -> len (V v) = s * len v.
Proof.
  intro L. pose proof sim_pos. apply len_eq_val; [pose proof (len_nonneg v); nra|]. rewrite vmap_dot by auto.
  replace (s * len v * (s * len v)) with (s * s * (len v * len v)) by ring. rewrite len_sq. reflexivity.
Qed.
Lemma vmap_zero v : length v = n -> (is_zero_vec (V v) <-> is_zero_vec v).
Proof.
  intro L. pose proof sim_pos. rewrite <- !dot_self_zero_iff, vmap_dot by auto. split; intro E; [|rewrite E; ring].
  apply Rmult_integral in E as [E|E]; auto. nra.
Qed.
Lemma vmap_inj u v : length u = n -> length v = n -> V u = V v -> u = v.
Proof.
  intros Lu Lv E. apply (proj1 (sub_zero_iff u v ltac:(congruence))). apply vmap_zero; [rewrite length_sub; lia|]. rewrite vmap_sub, E by auto.
  unfold is_zero_vec. rewrite sub_self, length_origin. reflexivity.
Qed.
Lemma sim_inj a b : length a = n -> length b = n -> T a = T b -> a = b.
Proof. intros La Lb E. apply dist_zero_iff; [congruence|]. pose proof sim_pos. pose proof (sim_dist a b La Lb) as D. rewrite E, dist_refl in D. nra. Qed.
Lemma vmap_ne v : length v = n -> (0 < n)%nat -> V v <> [].
Proof.
  intros L N E. assert (M : m = 0%nat) by (rewrite <- (vmap_len v L), E; reflexivity).
  assert (Z : is_zero_vec (V (repeat 1 n))). { assert (Q := vmap_len (repeat 1 n) (repeat_length _ _)). destruct (V (repeat 1 n)); [reflexivity|simpl in Q; lia]. }
  apply (proj1 (vmap_zero (repeat 1 n) (repeat_length _ _))) in Z. clear -Z N. destruct n; [lia|]. unfold is_zero_vec, origin in Z. simpl in Z. injection Z. intros. lra.
Qed.
Lemma sim_m : (0 < n)%nat -> (0 < m)%nat.
Proof. intro N. pose proof (vmap_ne (origin n) (length_origin n) N) as E. rewrite vmap_origin in E. destruct m; [contradiction E; reflexivity|lia]. Qed.
Lemma sim_ne x : length x = n -> (0 < n)%nat -> T x <> [].
Proof. intros L N E. pose proof (sim_len x L) as Q. rewrite E in Q. pose proof (sim_m N). simpl in Q. lia. Qed.
Lemma vmap_dependent u v : length u = n -> length v = n -> (dependent (V u) (V v) <-> dependent u v).
Proof.
  intros Lu Lv. split; intros [(t & E)|(t & E)]; [left|right|left|right]; exists t.
  - rewrite <- vmap_scale in E by auto. apply vmap_inj in E; auto. rewrite length_scale; auto.
  - rewrite <- vmap_scale in E by auto. apply vmap_inj in E; auto. rewrite length_scale; auto.
  - rewrite E, vmap_scale by auto. reflexivity.
  - rewrite E, vmap_scale by auto. reflexivity.
Qed.
(** Point sets. *)
Lemma sim_on_line p d x : length p = n -> length d = n -> length x = n -> (on_line (T p) (V d) (T x) <-> on_line p d x).
Proof.
  intros Lp Ld Lx. split; intros (t & E); exists t.
  - rewrite <- sim_along in E by auto. apply sim_inj in E; auto. rewrite length_add, length_scale. lia.
  - rewrite E. apply sim_along; auto.
Qed.
Lemma sim_on_line_img p d y : length p = n -> length d = n -> (on_line (T p) (V d) y <-> exists x, length x = n /\ y = T x /\ on_line p d x).
Proof.
  intros Lp Ld. split.
  - intros (t & ->). exists (add p (scale t d)). split; [rewrite length_add, length_scale; lia|]. split; [symmetry; apply sim_along; auto|]. exists t. reflexivity.
  - intros (x & Lx & -> & O). apply sim_on_line; auto.
Qed.
Lemma sim_on_plane p v x : length p = n -> length v = n -> length x = n -> (on_plane (T p) (V v) (T x) <-> on_plane p v x).
Proof.
  intros Lp Lv Lx. unfold on_plane. rewrite !sim_len, sim_sub, vmap_dot by (auto; rewrite length_sub; lia). pose proof sim_pos.
  split; intros (_ & E); split; try congruence; [|rewrite E; ring]. apply Rmult_integral in E as [E|E]; auto. nra.
Qed.
Lemma sim_on_sphere c r x : length c = n -> length x = n -> (on_sphere (T c) (s * r) (T x) <-> on_sphere c r x).
Proof.
  intros Lc Lx. unfold on_sphere. rewrite !sim_len, sim_dist by auto. pose proof sim_pos. split; intros (_ & E); split; try congruence; nra.
Qed.
Lemma sim_on_segment a b x : length a = n -> length b = n -> length x = n -> (on_segment (T a) (T b) (T x) <-> on_segment a b x).
Proof.
  intros La Lb Lx. unfold on_segment. assert (Ls : length (sub b a) = n) by (rewrite length_sub; lia). rewrite sim_sub by auto. split; intros (t & Ht & E); exists t; (split; [exact Ht|]).
  - rewrite <- sim_along in E by auto. apply sim_inj in E; auto. rewrite length_add, length_scale. lia.
  - rewrite E. apply sim_along; auto.
Qed.
End S.
