(** * Facts about triangles used by Prop/Triangles.v *)
From Coq Require Import String Reals List ZArith Lra Lia Psatz Bool Permutation.
From Verif.Model Require Import Outcome Num Instances Numpy BaseArray Vector Points Functions Line Triangle.
From Verif.Spec Require Import Geometry Tolerance Linalg Triangle.
From Verif.Proof Require Import VecAlg Bridge Arrays Vectors Points Lines Lincomb Svd Ranks.
Import ListNotations.
Local Open Scope R_scope.

Definition gram (u v : pt) : R := dot u u * dot v v - dot u v * dot u v.
Definition tri (a b c : pt) : Prop :=
  a <> [] /\ length b = length a /\ length c = length a /\ 0 < gram (sub b a) (sub c a).

Lemma gram_nonneg u v : length u = length v -> 0 <= gram u v.
Proof. intro H. unfold gram. pose proof (cauchy_schwarz_sq u v H). lra. Qed.
Lemma gram_zero u v : length u = length v -> (gram u v = 0 <-> dependent u v).
Proof. intro H. rewrite (dependent_sq u v H). unfold gram. split; lra. Qed.

Lemma collinear_gram a b c : length b = length a -> length c = length a ->
  (collinear [a; b; c] <-> gram (sub b a) (sub c a) = 0).
Proof.
  intros Hb Hc. rewrite gram_zero by len. split.
  - intros (p & d & Ld & H).
    destruct (on_line_sub p d b a (eq_sym Ld) (H b ltac:(simpl; auto)) (H a ltac:(simpl; auto))) as (s & Es).
    destruct (on_line_sub p d c a (eq_sym Ld) (H c ltac:(simpl; auto)) (H a ltac:(simpl; auto))) as (t & Et).
    rewrite Es, Et. destruct (Req_dec s 0) as [->|Hs].
    + left. exists 0. rewrite scale_scale. f_equal. ring.
    + right. exists (t / s). rewrite scale_scale. f_equal. field. auto.
  - intros [(s & E)|(s & E)].
    + exists a, (sub c a). split; [len|]. intros x [<-|[<-|[<-|[]]]].
      * apply on_line_base; len.
      * exists s. rewrite <- E. symmetry. apply add_sub_cancel. auto.
      * exists 1. rewrite scale_1, add_sub_cancel by auto. auto.
    + exists a, (sub b a). split; [len|]. intros x [<-|[<-|[<-|[]]]].
      * apply on_line_base; len.
      * exists 1. rewrite scale_1, add_sub_cancel by auto. auto.
      * exists s. rewrite <- E. symmetry. apply add_sub_cancel. auto.
Qed.

Lemma tri_iff a b c : tri a b c <-> a <> [] /\ length b = length a /\ length c = length a /\ ~ collinear [a; b; c].
Proof.
  split.
  - intros (Na & Lb & Lc & G). repeat (split; auto). rewrite (collinear_gram a b c) by auto. lra.
  - intros (Na & Lb & Lc & G). repeat (split; auto). rewrite (collinear_gram a b c) in G by auto.
    pose proof (gram_nonneg (sub b a) (sub c a) ltac:(len)). lra.
Qed.

(** The three scalar products that determine everything. *)
Lemma rot_dots a b c : length b = length a -> length c = length a ->
  let P := dot (sub b a) (sub b a) in let Q := dot (sub c a) (sub c a) in let S := dot (sub b a) (sub c a) in
  dot (sub c b) (sub c b) = P + Q - 2 * S /\ dot (sub a b) (sub a b) = P /\ dot (sub c b) (sub a b) = P - S.
Proof.
  intros Hb Hc P Q S. unfold P, Q, S.
  assert (E : sub c b = sub (sub c a) (sub b a)) by (apply sub_via; len).
  rewrite E, (sub_sub_swap b a). split; [|split].
  - rewrite dot_sub_sub by len. rewrite (dot_comm (sub c a) (sub b a)). lra.
  - rewrite dot_scale_l, dot_scale_r. lra.
  - rewrite dot_scale_r, dot_sub_l by len. rewrite (dot_comm (sub c a) (sub b a)). lra.
Qed.
Lemma gram_rot a b c : length b = length a -> length c = length a ->
  gram (sub c b) (sub a b) = gram (sub b a) (sub c a).
Proof. intros Hb Hc. destruct (rot_dots a b c Hb Hc) as (E1 & E2 & E3). unfold gram. rewrite E1, E2, E3. ring. Qed.
Lemma tri_rot a b c : tri a b c -> tri b c a.
Proof.
  intros (Na & Lb & Lc & G). split; [destruct b; [destruct a; [contradiction|discriminate]|discriminate]|].
  split; [lia|]. split; [lia|]. rewrite gram_rot; auto.
Qed.
Lemma gram_swap u v : gram u v = gram v u.
Proof. unfold gram. rewrite (dot_comm v u). ring. Qed.
Lemma tri_swap a b c : tri a b c -> tri a c b.
Proof. intros (Na & Lb & Lc & G). repeat (split; auto). rewrite gram_swap. auto. Qed.
Lemma gram_pos_l u v : 0 < gram u v -> ~ is_zero_vec u.
Proof. unfold gram. intros G Z. rewrite (proj2 (dot_self_zero_iff u) Z), (zero_dot u v Z) in G. lra. Qed.
Lemma tri_ne a b c : tri a b c -> ~ is_zero_vec (sub b a).
Proof. intros (_ & _ & _ & G). eapply gram_pos_l, G. Qed.
Lemma tri_ne2 a b c : tri a b c -> ~ is_zero_vec (sub c a).
Proof. intros H. eapply tri_ne, tri_swap, H. Qed.
Lemma tri_dist_pos a b c : tri a b c -> 0 < dist a b.
Proof. intro H. rewrite dist_sym. apply len_pos, (tri_ne a b c H). Qed.

Lemma named_tri a b c v p q r : tri a b c -> vertex_named a b c v p q r -> tri p q r.
Proof.
  intros T [(_ & -> & -> & ->)|[(_ & -> & -> & ->)|(_ & -> & -> & ->)]]; auto using tri_rot.
Qed.
Lemma side_tri a b c v p q r : tri a b c -> side_named a b c v p q r -> tri p q r.
Proof.
  intros T [(_ & -> & -> & ->)|[(_ & -> & -> & ->)|(_ & -> & -> & ->)]]; auto using tri_rot.
Qed.

Lemma tri_points_ok a b c : a <> [] -> length b = length a -> length c = length a -> points_ok (length a) [a; b; c].
Proof. intros Na Lb Lc. split; [discriminate|]. split; [destruct a; [contradiction|simpl; lia]|]. repeat constructor; auto. Qed.

(** ** Construction *)
Lemma are_collinear_R LA d rows : svd_correct LA -> points_ok d rows -> exists b, are_collinear LA None rows = Ok b.
Proof.
  intros HL H. unfold are_collinear. destruct (affine_rank_R LA None d rows HL H) as (U & S & Vh & Hs & Er). rewrite Er. cbn [bind]. eauto.
Qed.
Lemma triangle_new_unfold (LA : linalg RNum) (a b c : pt) : a <> [] -> length b = length a -> length c = length a ->
  triangle_new LA a b c = (let* col := are_collinear LA None [a; b; c] in
    if col then Raise (ValueError "The points must not be collinear.") else Ok (MkTriangle a b c)).
Proof.
  intros Na Lb Lc. unfold triangle_new.
  assert (Nb : b <> []) by (destruct b; [destruct a; [contradiction|discriminate]|discriminate]).
  assert (Nc : c <> []) by (destruct c; [destruct a; [contradiction|discriminate]|discriminate]).
  rewrite !point_of_R by auto. cbn [bind]. unfold dim1. rn. rewrite Lb, Lc, !Nat.eqb_refl. cbn [andb negb].
  rewrite (points_of_R [a; b; c] (length a)); [reflexivity|discriminate|destruct a; [contradiction|simpl; lia]|repeat constructor; auto].
Qed.
Lemma triangle_new_inv (LA : linalg RNum) (a b c : pt) t : triangle_new LA a b c = Ok t ->
  t = MkTriangle (N:=RNum) a b c /\ a <> [] /\ length b = length a /\ length c = length a /\ are_collinear LA None [a; b; c] = Ok false.
Proof.
  intro H. unfold triangle_new in H.
  apply bind_ok_inv in H as (a' & Ea & H). apply point_of_inv in Ea as (-> & Na & _).
  apply bind_ok_inv in H as (b' & Eb & H). apply point_of_inv in Eb as (-> & Nb & _).
  apply bind_ok_inv in H as (c' & Ec & H). apply point_of_inv in Ec as (-> & Nc & _).
  unfold dim1 in H. rn. destruct (Nat.eqb_spec (length a) (length b)) as [L1|L1]; [|discriminate].
  destruct (Nat.eqb_spec (length b) (length c)) as [L2|L2]; [|discriminate]. cbn [andb negb] in H.
  rewrite (points_of_R [a; b; c] (length a)) in H; [|discriminate|destruct a; [contradiction|simpl; lia]|repeat constructor; congruence].
  cbn [bind] in H. apply bind_ok_inv in H as ([|] & E & H); [discriminate|].
  injection H as <-. repeat (split; [solve [auto | congruence]|]). exact E.
Qed.

(** ** Sides *)
Lemma line_from_points_tri (p q r : pt) : tri p q r -> line_from_points (N:=RNum) q r = Ok (MkLine q (sub r q)).
Proof.
  intros T. pose proof (tri_rot _ _ _ T) as (Nq & Lr & Lp & _). unfold line_from_points. rewrite from_points_R by auto. cbn [bind].
  apply line_new_R; [len|]. apply (tri_ne q r p), tri_rot, T.
Qed.
Lemma tri_pv p q r : tri p q r -> pv_ok q (sub r q).
Proof. intro T. pose proof (tri_rot _ _ _ T) as T2. pose proof T2 as (Nq & Lr & Lp & _). split; [len|]. split; [|auto]. apply (tri_ne q r p), T2. Qed.

Lemma triangle_lengths_R (a b c : pt) : tri a b c ->
  triangle_lengths (N:=RNum) (MkTriangle a b c) = Ok [dist b c; dist c a; dist a b].
Proof.
  intro T. unfold triangle_lengths, triangle_length, triangle_line. cbn [mapM t_a t_b t_c]. cbn [String.eqb Ascii.eqb Bool.eqb].
  rewrite (line_from_points_tri a b c T). rewrite (line_from_points_tri b c a (tri_rot _ _ _ T)).
  rewrite (line_from_points_tri c a b (tri_rot _ _ _ (tri_rot _ _ _ T))). cbn [bind l_dir].
  rewrite !norm_R. cbn [bind]. rewrite (dist_sym b c), (dist_sym c a), (dist_sym a b). reflexivity.
Qed.

(** ** Law of cosines, sum of angles *)
Lemma law_of_cosines p q r : tri p q r ->
  (dist p r * dist p r + dist p q * dist p q - dist q r * dist q r) / (2 * dist p r * dist p q) = cosine (sub q p) (sub r p).
Proof.
  intros T. pose proof T as (Np & Lq & Lr & G). destruct (rot_dots p q r Lq Lr) as (E1 & _ & _).
  rewrite (dist_sym p r), (dist_sym p q), (dist_sym q r), !dist_sq, E1. unfold cosine. fold (dist r p). fold (dist q p).
  assert (0 < dist q p) by (apply len_pos, (tri_ne p q r T)). assert (0 < dist r p) by (apply len_pos, (tri_ne2 p q r T)).
  unfold dist in *. field. lra.
Qed.
Lemma law_of_cosines2 p q r : tri p q r ->
  (dist p q * dist p q + dist p r * dist p r - dist q r * dist q r) / (2 * dist p q * dist p r) = cosine (sub q p) (sub r p).
Proof. intro T. rewrite <- (law_of_cosines p q r T). f_equal; ring. Qed.

Lemma cosine_strict p q r : tri p q r -> -1 < cosine (sub q p) (sub r p) < 1.
Proof.
  intros T. pose proof T as (Np & Lq & Lr & G).
  pose proof (cosine_bounds (sub q p) (sub r p) ltac:(len) (tri_ne _ _ _ T) (tri_ne2 _ _ _ T)) as B.
  assert (D : ~ dependent (sub q p) (sub r p)). { intro D. apply gram_zero in D; [lra|len]. }
  split; apply Rnot_le_lt; intro X; apply D.
  - apply abs_cosine_dependent; [len|apply (tri_ne _ _ _ T)|apply (tri_ne2 _ _ _ T)|].
    replace (cosine (sub q p) (sub r p)) with (-1) by lra. unfold Rabs. destruct Rcase_abs; lra.
  - apply abs_cosine_dependent; [len|apply (tri_ne _ _ _ T)|apply (tri_ne2 _ _ _ T)|].
    replace (cosine (sub q p) (sub r p)) with 1 by lra. unfold Rabs. destruct Rcase_abs; lra.
Qed.

Lemma sin_angle p q r : tri p q r -> sin (acos (cosine (sub q p) (sub r p))) = sqrt (gram (sub q p) (sub r p)) / (dist p q * dist p r).
Proof.
  intros T. pose proof T as (Np & Lq & Lr & G). pose proof (cosine_strict p q r T) as B.
  rewrite sin_acos by lra.
  assert (Pq : 0 < dist q p) by (apply len_pos, (tri_ne p q r T)). assert (Pr : 0 < dist r p) by (apply len_pos, (tri_ne2 p q r T)).
  rewrite (dist_sym p q), (dist_sym p r).
  apply sqrt_lem_1.
  - assert (cosine (sub q p) (sub r p) * cosine (sub q p) (sub r p) < 1) by nra. unfold Rsqr. lra.
  - apply Rmult_le_pos; [apply sqrt_pos|]. apply Rlt_le, Rinv_0_lt_compat, Rmult_lt_0_compat; auto.
  - unfold Rsqr. replace (sqrt (gram (sub q p) (sub r p)) / (dist q p * dist r p) * (sqrt (gram (sub q p) (sub r p)) / (dist q p * dist r p)))
      with (sqrt (gram (sub q p) (sub r p)) * sqrt (gram (sub q p) (sub r p)) / ((dist q p * dist q p) * (dist r p * dist r p))) by (field; lra).
    rewrite sqrt_sqrt by lra. unfold gram. rewrite <- !dist_sq. unfold cosine. fold (dist q p). fold (dist r p). field. lra.
Qed.

Lemma angle_sum_pi x y z : 0 < x < PI -> 0 < y < PI -> 0 < z < PI -> cos (x + y) = - cos z -> 0 < sin (x + y) -> x + y + z = PI.
Proof.
  intros Hx Hy Hz Hc Hs. destruct (Rlt_le_dec (x + y) PI) as [L|L].
  - assert (E : x + y = PI - z).
    { rewrite <- (acos_cos (x + y)) by lra. rewrite <- (acos_cos (PI - z)) by lra. f_equal. rewrite Hc, Rtrigo_facts.cos_pi_minus. reflexivity. }
    lra.
  - exfalso. pose proof (sin_le_0 (x + y) L). lra.
Qed.

Lemma tri_angle_sum a b c : tri a b c ->
  acos (cosine (sub b a) (sub c a)) + acos (cosine (sub c b) (sub a b)) + acos (cosine (sub a c) (sub b c)) = PI.
Proof.
  intro T. pose proof (tri_rot _ _ _ T) as T2. pose proof (tri_rot _ _ _ T2) as T3.
  pose proof T as (Na & Lb & Lc & G).
  pose proof (cosine_strict a b c T) as B1. pose proof (cosine_strict b c a T2) as B2. pose proof (cosine_strict c a b T3) as B3.
  pose proof (sin_angle a b c T) as S1. pose proof (sin_angle b c a T2) as S2.
  rewrite (gram_rot a b c Lb Lc) in S2. set (g := gram (sub b a) (sub c a)) in *.
  assert (Hg : sqrt g * sqrt g = g) by (apply sqrt_sqrt; lra).
  assert (Pg : 0 < sqrt g) by (apply sqrt_lt_R0; auto).
  pose proof (tri_dist_pos a b c T) as Pc. pose proof (tri_dist_pos b c a T2) as Pa. pose proof (tri_dist_pos c a b T3) as Pb.
  destruct (rot_dots a b c Lb Lc) as (E1 & E2 & E3).
  rewrite <- (law_of_cosines a b c T) in *. rewrite <- (law_of_cosines b c a T2) in *. rewrite <- (law_of_cosines c a b T3) in *.
  rewrite (dist_sym a c), (dist_sym b a), (dist_sym c b) in *.
  assert (Hgram : 4 * g = 4 * (dist c a * dist c a) * (dist a b * dist a b) - (dist c a * dist c a + dist a b * dist a b - dist b c * dist b c) * (dist c a * dist c a + dist a b * dist a b - dist b c * dist b c)).
  { unfold g, gram. rewrite (dist_sym a b), (dist_sym b c), !dist_sq, E1. ring. }
  set (x := dist b c) in *. set (y := dist c a) in *. set (z := dist a b) in *. clearbody x y z g.
  apply angle_sum_pi.
  - apply acos_bound_lt. lra.
  - apply acos_bound_lt. lra.
  - apply acos_bound_lt. lra.
  - rewrite cos_plus, !cos_acos by lra. rewrite S1, S2.
    replace (sqrt g / (z * y) * (sqrt g / (x * z))) with (sqrt g * sqrt g / (x * y * z * z)) by (field; lra).
    rewrite Hg. replace g with ((4 * g) / 4) by field. rewrite Hgram. field. lra.
  - rewrite sin_plus, !cos_acos by lra. rewrite S1, S2.
    match goal with |- 0 < ?e => replace e with (sqrt g / (x * y)) by (field; lra) end.
    apply Rdiv_lt_0_compat; auto. apply Rmult_lt_0_compat; auto.
Qed.
