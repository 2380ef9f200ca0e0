(** * Vector algebra on lists of reals (facts about Spec/Geometry.v) *)
From Coq Require Import Reals List ZArith Lra Lia Psatz.
From Verif.Spec Require Import Geometry.
Import ListNotations.
Local Open Scope R_scope.

Lemma length_add a b : length (add a b) = Nat.min (length a) (length b).
Proof. revert b; induction a as [|x a IH]; intros [|y b]; simpl; auto. Qed.
Lemma length_sub a b : length (sub a b) = Nat.min (length a) (length b).
Proof. revert b; induction a as [|x a IH]; intros [|y b]; simpl; auto. Qed.
Lemma length_scale s a : length (scale s a) = length a.
Proof. apply map_length. Qed.
Lemma length_origin n : length (origin n) = n.
Proof. apply repeat_length. Qed.
Lemma length_pad_to n v : length (pad_to n v) = Nat.max n (length v).
Proof. unfold pad_to. rewrite app_length, repeat_length. lia. Qed.

Ltac len := repeat first [ rewrite length_add | rewrite length_sub | rewrite length_scale
   | rewrite length_origin | rewrite length_pad_to | rewrite app_length | rewrite repeat_length
   | rewrite map_length ]; try lia; try congruence.
Ltac lenh H := repeat first [ rewrite length_add in H | rewrite length_sub in H | rewrite length_scale in H
   | rewrite length_origin in H | rewrite length_pad_to in H | rewrite app_length in H
   | rewrite repeat_length in H | rewrite map_length in H ].

(** Induction over two or three lists of equal length. *)
Lemma ind2 (P : pt -> pt -> Prop) :
  P [] [] -> (forall x y a b, length a = length b -> P a b -> P (x :: a) (y :: b)) ->
  forall a b, length a = length b -> P a b.
Proof.
  intros H0 HS a; induction a as [|x a IH]; intros [|y b] H; simpl in H; try discriminate; auto.
Qed.
Lemma ind3 (P : pt -> pt -> pt -> Prop) :
  P [] [] [] -> (forall x y z a b c, length a = length b -> length a = length c -> P a b c -> P (x :: a) (y :: b) (z :: c)) ->
  forall a b c, length a = length b -> length a = length c -> P a b c.
Proof.
  intros H0 HS a; induction a as [|x a IH]; intros [|y b] [|z c] H H'; simpl in *; try discriminate; auto.
Qed.

(** ** dot *)
Lemma dot_comm a b : dot a b = dot b a.
Proof. revert b; induction a as [|x a IH]; intros [|y b]; simpl; auto. rewrite IH; ring. Qed.
Lemma dot_nil_r a : dot a [] = 0.
Proof. destruct a; reflexivity. Qed.
Lemma dot_scale_l s a b : dot (scale s a) b = s * dot a b.
Proof. revert b; induction a as [|x a IH]; intros [|y b]; simpl; try ring. rewrite IH; ring. Qed.
Lemma dot_scale_r s a b : dot a (scale s b) = s * dot a b.
Proof. rewrite dot_comm, dot_scale_l, dot_comm; reflexivity. Qed.
Lemma dot_add_l a b c : length a = length b -> dot (add a b) c = dot a c + dot b c.
Proof.
  intro H; revert c; pattern a, b; apply ind2; auto.
  - intros [|z c]; simpl; ring.
  - intros x y a' b' _ IH [|z c]; simpl; [ring|]. rewrite IH; ring.
Qed.
Lemma dot_add_r a b c : length b = length c -> dot a (add b c) = dot a b + dot a c.
Proof. intro H. rewrite dot_comm, dot_add_l by auto. rewrite (dot_comm b), (dot_comm c); reflexivity. Qed.
Lemma dot_sub_l a b c : length a = length b -> dot (sub a b) c = dot a c - dot b c.
Proof.
  intro H; revert c; pattern a, b; apply ind2; auto.
  - intros [|z c]; simpl; ring.
  - intros x y a' b' _ IH [|z c]; simpl; [ring|]. rewrite IH; ring.
Qed.
Lemma dot_sub_r a b c : length b = length c -> dot a (sub b c) = dot a b - dot a c.
Proof. intro H. rewrite dot_comm, dot_sub_l by auto. rewrite (dot_comm b), (dot_comm c); reflexivity. Qed.
Lemma dot_origin_l n a : dot (origin n) a = 0.
Proof. revert a; induction n as [|n IH]; intros [|x a]; simpl; auto. change (repeat 0 n) with (origin n); rewrite IH; ring. Qed.
Lemma dot_origin_r n a : dot a (origin n) = 0.
Proof. rewrite dot_comm; apply dot_origin_l. Qed.
Lemma dot_self_nonneg a : 0 <= dot a a.
Proof. induction a as [|x a IH]; simpl; nra. Qed.
Lemma dot_self_zero a : dot a a = 0 -> is_zero_vec a.
Proof.
  unfold is_zero_vec, origin; induction a as [|x a IH]; simpl; auto. intro H.
  pose proof (dot_self_nonneg a). assert (x = 0) by nra. assert (dot a a = 0) by nra. subst. f_equal; auto.
Qed.
Lemma zero_dot a b : is_zero_vec a -> dot a b = 0.
Proof. intro H; rewrite H; apply dot_origin_l. Qed.
Lemma dot_self_zero_iff a : dot a a = 0 <-> is_zero_vec a.
Proof. split; [apply dot_self_zero | apply zero_dot]. Qed.
Lemma dot_self_pos a : ~ is_zero_vec a -> 0 < dot a a.
Proof. intro H. destruct (Rle_lt_or_eq_dec _ _ (dot_self_nonneg a)); auto. exfalso; apply H, dot_self_zero; auto. Qed.
Lemma dot_app a b c d : length a = length c -> dot (a ++ b) (c ++ d) = dot a c + dot b d.
Proof.
  intro H; pattern a, c; apply ind2; auto; simpl. { ring. }
  intros x y a' c' _ IH; rewrite IH; ring.
Qed.

(** ** add / sub / scale *)
Lemma add_comm a b : add a b = add b a.
Proof. revert b; induction a as [|x a IH]; intros [|y b]; simpl; auto. f_equal; [ring|auto]. Qed.
Lemma add_assoc a b c : add (add a b) c = add a (add b c).
Proof. revert b c; induction a as [|x a IH]; intros [|y b] [|z c]; simpl; auto. f_equal; [ring|auto]. Qed.
Lemma add_origin_r a n : length a = n -> add a (origin n) = a.
Proof. intros <-; induction a as [|x a IH]; simpl; auto. f_equal; [ring|auto]. Qed.
Lemma sub_origin_r a n : length a = n -> sub a (origin n) = a.
Proof. intros <-; induction a as [|x a IH]; simpl; auto. f_equal; [ring|auto]. Qed.
Lemma add_origin_l a n : length a = n -> add (origin n) a = a.
Proof. intro; rewrite add_comm; apply add_origin_r; auto. Qed.
Lemma sub_self a : sub a a = origin (length a).
Proof. induction a as [|x a IH]; simpl; auto. unfold origin in *; simpl; f_equal; [ring|auto]. Qed.
Lemma sub_eq_origin a b : length a = length b -> sub a b = origin (length a) -> a = b.
Proof.
  intro H; pattern a, b; apply ind2; auto. intros x y a' b' _ IH; unfold origin; simpl.
  intro E; injection E as E1 E2. f_equal; [lra|]. apply IH; exact E2.
Qed.
Lemma sub_zero_iff a b : length a = length b -> (is_zero_vec (sub a b) <-> a = b).
Proof.
  intro H; unfold is_zero_vec; rewrite length_sub, <- H, Nat.min_id. split.
  - apply sub_eq_origin; auto.
  - intros ->; apply sub_self.
Qed.
Lemma add_sub_cancel a b : length a = length b -> add a (sub b a) = b.
Proof. intro H; pattern a, b; apply ind2; auto. intros x y a' b' _ IH; simpl; f_equal; [ring|auto]. Qed.
Lemma sub_add_cancel a b : length a = length b -> sub (add a b) a = b.
Proof. intro H; pattern a, b; apply ind2; auto. intros x y a' b' _ IH; simpl; f_equal; [ring|auto]. Qed.
Lemma sub_add_cancel_r a b : length a = length b -> sub (add a b) b = a.
Proof. intro H; pattern a, b; apply ind2; auto. intros x y a' b' _ IH; simpl; f_equal; [ring|auto]. Qed.
Lemma scale_scale s t a : scale s (scale t a) = scale (s * t) a.
Proof. unfold scale; rewrite map_map; apply map_ext; intro; ring. Qed.
Lemma scale_1 a : scale 1 a = a.
Proof. unfold scale; rewrite <- (map_id a) at 2; apply map_ext; intro; ring. Qed.
Lemma scale_0 a : scale 0 a = origin (length a).
Proof. unfold scale, origin; induction a; simpl; auto. f_equal; [ring|auto]. Qed.
Lemma scale_origin s n : scale s (origin n) = origin n.
Proof. unfold scale, origin; induction n; simpl; auto. f_equal; [ring|auto]. Qed.
Lemma scale_add s a b : scale s (add a b) = add (scale s a) (scale s b).
Proof. revert b; induction a as [|x a IH]; intros [|y b]; simpl; auto. f_equal; [ring|auto]. Qed.
Lemma scale_sub s a b : scale s (sub a b) = sub (scale s a) (scale s b).
Proof. revert b; induction a as [|x a IH]; intros [|y b]; simpl; auto. f_equal; [ring|auto]. Qed.
Lemma scale_plus s t a : scale (s + t) a = add (scale s a) (scale t a).
Proof. induction a as [|x a IH]; simpl; auto. f_equal; [ring|auto]. Qed.
Lemma scale_minus s t a : scale (s - t) a = sub (scale s a) (scale t a).
Proof. induction a as [|x a IH]; simpl; auto. f_equal; [ring|auto]. Qed.
Lemma sub_scale a b : length a = length b -> sub a b = add a (scale (-1) b).
Proof. intro H; pattern a, b; apply ind2; auto. intros x y a' b' _ IH; simpl; f_equal; [ring|auto]. Qed.
Lemma sub_sub_swap a b : sub b a = scale (-1) (sub a b).
Proof. revert b; induction a as [|x a IH]; intros [|y b]; simpl; auto. f_equal; [ring|auto]. Qed.
Lemma sub_chain a b c : length a = length b -> length a = length c -> add (sub b a) (sub c b) = sub c a.
Proof. intros H H'. pattern a, b, c; apply ind3; auto. intros x y z a' b' c' _ _ IH; simpl; f_equal; [ring|auto]. Qed.
Lemma sub_add_add p a b : length p = length a -> length p = length b -> sub (add p a) (add p b) = sub a b.
Proof. intros H H'. pattern p, a, b; apply ind3; auto. intros x y z a' b' c' _ _ IH; simpl; f_equal; [ring|auto]. Qed.
Lemma sub_add_l p a b : length p = length a -> length p = length b -> sub (add p a) b = add a (sub p b).
Proof. intros H H'. pattern p, a, b; apply ind3; auto. intros x y z a' b' c' _ _ IH; simpl; f_equal; [ring|auto]. Qed.
Lemma sub_sub_l p a b : length p = length a -> length p = length b -> sub p (add a b) = sub (sub p a) b.
Proof. intros H H'. pattern p, a, b; apply ind3; auto. intros x y z a' b' c' _ _ IH; simpl; f_equal; [ring|auto]. Qed.

Lemma scale_nonzero s v : s <> 0 -> ~ is_zero_vec v -> ~ is_zero_vec (scale s v).
Proof.
  intros Hs Hv H. apply dot_self_zero_iff in H. rewrite dot_scale_l, dot_scale_r in H.
  apply Hv, dot_self_zero. apply Rmult_integral in H as [H|H]; [lra|]. apply Rmult_integral in H as [H|H]; lra.
Qed.
Lemma zero_vec_scale s v : is_zero_vec v -> is_zero_vec (scale s v).
Proof. unfold is_zero_vec; intro H. rewrite H at 1. rewrite scale_origin, length_scale; reflexivity. Qed.
Lemma not_zero_nonempty v : ~ is_zero_vec v -> v <> [].
Proof. intros H ->; apply H; reflexivity. Qed.
Lemma is_zero_vec_dec v : {is_zero_vec v} + {~ is_zero_vec v}.
Proof.
  destruct (Req_EM_T (dot v v) 0) as [E|E]; [left; apply dot_self_zero; auto|right].
  intro H; apply E, zero_dot; auto.
Qed.
Lemma scale_inj s t v : ~ is_zero_vec v -> scale s v = scale t v -> s = t.
Proof.
  intros Hv E. apply dot_self_pos in Hv.
  assert (H : dot (scale s v) v = dot (scale t v) v) by congruence.
  rewrite !dot_scale_l in H. nra.
Qed.
Lemma scale_eq_origin s v n : scale s v = origin n -> s = 0 \/ is_zero_vec v.
Proof.
  intro E. destruct (is_zero_vec_dec v) as [Hz|Hz]; auto. left.
  destruct (Req_dec s 0); auto. exfalso. apply (scale_nonzero s v); auto.
  unfold is_zero_vec. rewrite E, length_origin; auto.
Qed.

(** ** len *)
Lemma len_nonneg a : 0 <= len a.
Proof. apply sqrt_pos. Qed.
Lemma len_sq a : len a * len a = dot a a.
Proof. apply sqrt_sqrt, dot_self_nonneg. Qed.
Lemma len_zero_iff a : len a = 0 <-> is_zero_vec a.
Proof.
  rewrite <- dot_self_zero_iff. split; intro H.
  - rewrite <- len_sq, H; ring.
  - unfold len; rewrite H; apply sqrt_0.
Qed.
Lemma len_pos a : ~ is_zero_vec a -> 0 < len a.
Proof. intro H; apply sqrt_lt_R0, dot_self_pos, H. Qed.
Lemma len_scale s a : len (scale s a) = Rabs s * len a.
Proof.
  unfold len. rewrite dot_scale_l, dot_scale_r, <- Rmult_assoc, sqrt_mult_alt by nra.
  f_equal. rewrite <- sqrt_Rsqr_abs; reflexivity.
Qed.
Lemma len_eq_iff a b : len a = len b <-> dot a a = dot b b.
Proof. split; intro H; [rewrite <- !len_sq, H; auto | unfold len; congruence]. Qed.
Lemma len_le_iff a b : len a <= len b <-> dot a a <= dot b b.
Proof.
  split; intro H.
  - rewrite <- !len_sq. pose proof (len_nonneg a). nra.
  - apply sqrt_le_1_alt, H.
Qed.
Lemma len_lt_iff a b : len a < len b <-> dot a a < dot b b.
Proof.
  split; intro H.
  - rewrite <- !len_sq. pose proof (len_nonneg a). nra.
  - apply sqrt_lt_1_alt; split; auto. apply dot_self_nonneg.
Qed.
Lemma len_eq_val a r : 0 <= r -> dot a a = r * r -> len a = r.
Proof. intros Hr E. unfold len; rewrite E. apply sqrt_square; auto. Qed.

(** Cauchy-Schwarz *)
Lemma dot_quad a b s t : length a = length b ->
  dot (add (scale s a) (scale t b)) (add (scale s a) (scale t b)) = s*s*dot a a + 2*s*t*dot a b + t*t*dot b b.
Proof.
  intro H. rewrite dot_add_l, !dot_add_r, !dot_scale_l, !dot_scale_r, (dot_comm b a) by len. ring.
Qed.
Lemma cauchy_schwarz_sq a b : length a = length b -> dot a b * dot a b <= dot a a * dot b b.
Proof.
  intro H. destruct (is_zero_vec_dec b) as [Hz|Hz].
  - rewrite dot_comm, (zero_dot b a), (zero_dot b b) by auto. lra.
  - pose proof (dot_self_pos b Hz) as Hb.
    pose proof (dot_self_nonneg (add (scale (dot b b) a) (scale (- dot a b) b))) as Q.
    rewrite dot_quad in Q by auto.
    assert (0 <= dot b b * (dot a a * dot b b - dot a b * dot a b)) by (ring_simplify; ring_simplify in Q; lra).
    assert (0 <= dot a a * dot b b - dot a b * dot a b).
    { destruct (Rle_lt_dec 0 (dot a a * dot b b - dot a b * dot a b)); auto.
      exfalso. assert (dot b b * (dot a a * dot b b - dot a b * dot a b) < 0) by nra. lra. }
    lra.
Qed.
Lemma cauchy_schwarz a b : length a = length b -> Rabs (dot a b) <= len a * len b.
Proof.
  intro H. rewrite <- (Rabs_pos_eq (len a * len b)) by (apply Rmult_le_pos; apply len_nonneg).
  apply Rsqr_le_abs_0. unfold Rsqr.
  replace (len a * len b * (len a * len b)) with ((len a * len a) * (len b * len b)) by ring.
  rewrite !len_sq. apply cauchy_schwarz_sq; auto.
Qed.
Lemma cauchy_schwarz_le a b : length a = length b -> dot a b <= len a * len b.
Proof. intro H. eapply Rle_trans; [apply Rle_abs|apply cauchy_schwarz; auto]. Qed.

(** Equality case: a.b = |a||b| means a is a non-negative multiple. *)
Lemma cs_eq_sq a b : length a = length b -> ~ is_zero_vec b -> dot a b * dot a b = dot a a * dot b b ->
  a = scale (dot a b / dot b b) b.
Proof.
  intros H Hz E. pose proof (dot_self_pos b Hz) as Hb.
  apply sub_zero_iff; [len|]. apply dot_self_zero.
  rewrite dot_sub_l, !dot_sub_r, !dot_scale_l, !dot_scale_r, (dot_comm b a) by len.
  field_simplify_eq; [|lra]. nra.
Qed.

Lemma len_triangle a b : length a = length b -> len (add a b) <= len a + len b.
Proof.
  intro H. assert (0 <= len a + len b) by (pose proof (len_nonneg a); pose proof (len_nonneg b); lra).
  apply Rsqr_incr_0; auto using len_nonneg. unfold Rsqr. rewrite len_sq, dot_add_l, !dot_add_r by len.
  pose proof (cauchy_schwarz_le a b H). rewrite (dot_comm b a), <- !len_sq. nra.
Qed.

(** ** dist *)
Lemma dist_nonneg a b : 0 <= dist a b.
Proof. apply len_nonneg. Qed.
Lemma dist_sym a b : dist a b = dist b a.
Proof. unfold dist. rewrite (sub_sub_swap b a), len_scale. rewrite Rabs_left by lra. ring. Qed.
Lemma dist_zero_iff a b : length a = length b -> (dist a b = 0 <-> a = b).
Proof. intro H. unfold dist. rewrite len_zero_iff. apply sub_zero_iff; auto. Qed.
Lemma dist_refl a : dist a a = 0.
Proof. apply dist_zero_iff; auto. Qed.
Lemma dist_triangle a b c : length a = length b -> length a = length c -> dist a c <= dist a b + dist b c.
Proof.
  intros H H'. unfold dist. rewrite <- (sub_chain c b a) by congruence.
  eapply Rle_trans; [apply len_triangle; len|]. lra.
Qed.
Lemma dist_sq a b : dist a b * dist a b = dot (sub a b) (sub a b).
Proof. apply len_sq. Qed.
Lemma dist_translate v a b : length v = length a -> length v = length b -> dist (add v a) (add v b) = dist a b.
Proof. intros. unfold dist. rewrite sub_add_add by auto. reflexivity. Qed.

(** Polarisation: rewriting differences relative to a base point. *)
Lemma sub_via a b c : length a = length b -> length a = length c -> sub a b = sub (sub a c) (sub b c).
Proof. intros H H'. pattern a, b, c; apply ind3; auto. intros x y z a' b' c' _ _ IH; simpl; f_equal; [ring|auto]. Qed.

Lemma dot_ext3 a b : length a = length b -> (forall c, length c = length a -> dot a c = dot b c) -> a = b.
Proof.
  intros H E. apply sub_zero_iff; auto. apply dot_self_zero. rewrite dot_sub_l by auto.
  rewrite E by len. ring.
Qed.
