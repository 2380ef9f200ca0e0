(** * Property C75, continued: triangles and measurements *)
From Coq Require Import String Reals List ZArith Lra Lia Psatz Bool.
From Verif.Model Require Import Outcome Num Instances Numpy BaseArray Vector Points Functions Line Plane LineSegment Sphere Triangle Cylinder.
From Verif.Spec Require Import Geometry Tolerance Mesh Linalg Triangle Similarity Measure.
From Verif.Proof Require Import VecAlg Bridge Arrays Vectors Points Lines Lincomb Svd SvdExists Ranks Singular Similarity SimRank Triangles Cylinders.
From Verif.Prop Require Import Arrays Vectors Points Planes LinePairs Segments Balls Spheres Triangles Measure Cylinders Coordinates CoordShapes CoordBalls.
Import ListNotations.
Local Open Scope R_scope.
Local Open Scope string_scope.

Section S.
Context (n m : nat) (s : R) (T : pt -> pt) (H : similarity n m s T) (Hn : (0 < n)%nat).
Notation V := (vmap n T).
Local Notation Ps := (sim_pos n m s T H).
Local Notation tlen := (sim_len n m s T H).
Local Notation vlen := (vmap_len n m s T H).
Local Notation mline := (move_line n T).
Local Notation ne := (ne n Hn).
Local Notation Tne := (Tne n m s T H Hn).
Local Notation Vne := (Vne n m s T H Hn).
Local Notation Vz := (Vz n m s T H).
Definition move_triangle (t : triangle RNum) : triangle RNum := MkTriangle (N:=RNum) (T (t_a t)) (T (t_b t)) (T (t_c t)).

Lemma tri_move a b c : length a = n -> tri a b c -> tri (T a) (T b) (T c).
Proof.
  intros La (Na & Lb & Lc & G). assert (Lb' : length b = n) by congruence. assert (Lc' : length c = n) by congruence.
  split; [apply Tne; auto|]. split; [rewrite !tlen; auto|]. split; [rewrite !tlen; auto|].
  rewrite !(sim_sub n m s T H), (gram_vmap n m s T H) by (auto; len). pose proof Ps. assert (0 < s * s) by nra. replace (s * s * s * s * gram (sub b a) (sub c a)) with ((s * s) * (s * s) * gram (sub b a) (sub c a)) by ring. apply Rmult_lt_0_compat; auto. nra.
Qed.
Theorem C75_triangle_new : forall (LA LA' : linalg RNum) (a b c : pt), svd_correct LA -> svd_correct LA' -> length a = n -> length b = n -> length c = n -> m = n ->
  triangle_new LA' (T a) (T b) (T c) = res_map move_triangle (triangle_new LA a b c).
Proof.
  intros LA LA' a b c HL HL' La Lb Lc Hm. rewrite !triangle_new_unfold by (auto using ne, Tne; rewrite ?tlen; congruence).
  assert (Hr : points_ok n [a; b; c]) by (split; [discriminate|split; [lia|repeat constructor; auto]]).
  destruct (C75_points n m s T H LA LA' [a; b; c] None HL HL' Hr I) as (_ & _ & K). destruct K as (_ & _ & Ec & _); [left; congruence|]. cbn [map option_map] in Ec. rn. rewrite Ec.
  match goal with |- bind ?r ?f = res_map ?g (bind _ ?h) => assert (G : forall x, bind x f = res_map g (bind x h)) by (intros [[|]| |]; reflexivity); exact (G r) end.
Qed.
Lemma lfp_move p q : length p = n -> length q = n -> line_from_points (N:=RNum) (T p) (T q) = res_map mline (line_from_points (N:=RNum) p q).
Proof.
  intros Lp Lq. set (d := T p). assert (D : exists d : pt, length d = n /\ ~ is_zero_vec d).
  { exists (1 :: origin (n - 1)). split; [simpl; rewrite length_origin; lia|]. intro Z. inversion Z. lra. }
  destruct D as (e & Le & Ze). assert (Hl : line_new (N:=RNum) p e = Ok (MkLine (N:=RNum) p e)) by (apply line_new_R; auto; congruence).
  apply (C75_lines n m s T H Hn tol_default p e q _ 0 Hl Lp Lq).
Qed.
(** Points, sides, lengths, perimeter, angles, centroid, altitudes for every name argument; the absolute tolerances are 0 (the default). *)
Theorem C75_triangles : forall (LA : linalg RNum) (tl : tol RNum) (a b c : pt) t (v : string), svd_correct LA -> triangle_new LA a b c = Ok t -> length a = n -> abs_tol tl = 0 ->
  triangle_point (move_triangle t) v = res_map T (triangle_point t v) /\
  triangle_line (move_triangle t) v = res_map mline (triangle_line t v) /\
  triangle_length (move_triangle t) v = res_map (Rmult s) (triangle_length t v) /\
  triangle_perimeter (move_triangle t) = res_map (Rmult s) (triangle_perimeter t) /\
  triangle_angle (N:=RNum) RTrig (move_triangle t) v = triangle_angle (N:=RNum) RTrig t v /\
  triangle_centroid (move_triangle t) = res_map T (triangle_centroid t) /\
  triangle_altitude (move_triangle t) v = res_map mline (triangle_altitude t v) /\
  triangle_classify tl (move_triangle t) = triangle_classify tl t /\
  triangle_is_right tl (move_triangle t) = triangle_is_right tl t.
Proof.
  intros LA tl a b c t v HL Ht La Ha. apply triangle_tri in Ht as (-> & Tr); auto. pose proof (tri_move a b c La Tr) as Tr'. pose proof Tr as (Na & Lb & Lc & G). pose proof Ps as P.
  assert (Lb' : length b = n) by congruence. assert (Lc' : length c = n) by congruence. unfold move_triangle. cbn [t_a t_b t_c].
  assert (LN : forall v, triangle_line (N:=RNum) (MkTriangle (N:=RNum) (T a) (T b) (T c)) v = res_map mline (triangle_line (N:=RNum) (MkTriangle (N:=RNum) a b c) v)).
  { intro w. unfold triangle_line. cbn [t_a t_b t_c]. destruct (String.eqb w "a"); [apply lfp_move; auto|]. destruct (String.eqb w "b"); [apply lfp_move; auto|]. destruct (String.eqb w "c"); [apply lfp_move; auto|]. reflexivity. }
  pose proof (triangle_lengths_R a b c Tr) as LS. pose proof (triangle_lengths_R (T a) (T b) (T c) Tr') as LS'. rewrite !(sim_dist n m s T H) in LS' by auto.
  assert (PD : 0 < dist b c /\ 0 < dist c a /\ 0 < dist a b). { split; [apply (tri_dist_pos b c a), tri_rot, Tr|]. split; [apply (tri_dist_pos c a b), tri_rot, tri_rot, Tr|apply (tri_dist_pos a b c), Tr]. }
  split; [|split; [|split; [|split; [|split; [|split; [|split; [|split]]]]]]].
  - unfold triangle_point. cbn [t_a t_b t_c]. repeat destruct (String.eqb v _); reflexivity.
  - apply LN.
  - unfold triangle_length. rewrite LN. assert (K : forall l, triangle_line (N:=RNum) (MkTriangle (N:=RNum) a b c) v = Ok l -> length (l_dir l) = n).
    { intros l. unfold triangle_line. cbn [t_a t_b t_c]. assert (Q : forall (x y : pt) l, length x = n -> length y = n -> line_from_points (N:=RNum) x y = Ok l -> length (l_dir l) = n).
      { intros x y l0 Lx Ly E. unfold line_from_points in E. rewrite from_points_R in E by (auto using ne; congruence). cbn [bind] in E. apply line_new_iff in E as (-> & O). cbn [l_dir]. len. }
      repeat (destruct (String.eqb v _); [apply Q; auto|]). discriminate. }
    destruct (triangle_line (N:=RNum) (MkTriangle (N:=RNum) a b c) v) as [l| |]; try reflexivity. unfold res_map; cbn [bind]. rewrite !norm_R. cbn [bind]. unfold move_line. cbn [l_dir]. rewrite (vmap_lenv n m s T H) by (apply K; auto). reflexivity.
  - rewrite !triangle_perimeter_R by auto. unfold res_map; cbn [bind]. rewrite !(sim_dist n m s T H) by auto. apply (f_equal (@Ok R)). ring.
  - unfold triangle_angle. rn. rewrite LS, LS'. cbn [bind]. rops. change (nofZ 2) with 2. destruct PD as (P1 & P2 & P3). set (x := dist b c) in *. set (y := dist c a) in *. set (z := dist a b) in *.
    assert (Q : forall u w k, 0 < u -> 0 < w -> ndiv (n:=RNum) (s * u * (s * u) + s * w * (s * w) - s * k * (s * k)) (2 * (s * u) * (s * w)) = ndiv (n:=RNum) (u * u + w * w - k * k) (2 * u * w)).
    { intros u w k Pu Pw. assert (0 < u * w) by (apply Rmult_lt_0_compat; auto). assert (0 < s * s) by nra. rewrite !ndiv_R by nra. apply (f_equal (@Ok R)). field. repeat split; lra. }
    rewrite !Q by auto. reflexivity.
  - unfold triangle_centroid. cbn [t_a t_b t_c]. assert (Hr : points_ok n [a; b; c]) by (split; [discriminate|split; [lia|repeat constructor; auto]]).
    pose proof (sim_points_ok n m s T H _ Hr) as Hr'. cbn [map] in Hr'. rn. rewrite (points_of_R [a; b; c] n), (points_of_R [T a; T b; T c] m) by (apply Hr || apply Hr'). cbn [bind].
    apply (C75_points n m s T H LA LA [a; b; c] None HL HL Hr I).
  - assert (Al : forall side p, (side = "a" \/ side = "b" \/ side = "c") -> length p = n -> (let* l := triangle_line (N:=RNum) (MkTriangle (N:=RNum) (T a) (T b) (T c)) side in let* foot := line_project_point l (T p) in line_from_points (T p) foot) =
       res_map mline (let* l := triangle_line (N:=RNum) (MkTriangle (N:=RNum) a b c) side in let* foot := line_project_point l p in line_from_points p foot)).
    { intros side p Hs Lp. rn. rewrite LN. assert (Q : exists q r, length q = n /\ length r = n /\ ~ is_zero_vec (sub r q) /\ triangle_line (N:=RNum) (MkTriangle (N:=RNum) a b c) side = Ok (MkLine (N:=RNum) q (sub r q))).
      { destruct Hs as [->|[->| ->]].
        - exists b, c. split; auto. split; auto. split; [apply (tri_ne b c a), tri_rot, Tr|]. apply (line_from_points_tri a b c Tr).
        - exists c, a. split; auto. split; auto. split; [apply (tri_ne c a b), tri_rot, tri_rot, Tr|]. apply (line_from_points_tri b c a), tri_rot, Tr.
        - exists a, b. split; auto. split; auto. split; [apply (tri_ne a b c), Tr|]. apply (line_from_points_tri c a b), tri_rot, tri_rot, Tr. }
      destruct Q as (q & r & Lq & Lr & Zq & ->). unfold res_map at 1; cbn [bind]. assert (Lrq : length (sub r q) = n) by len.
      assert (Hl : line_new (N:=RNum) q (sub r q) = Ok (MkLine (N:=RNum) q (sub r q))) by (apply line_new_R; auto; congruence).
      destruct (C75_lines n m s T H Hn tl q (sub r q) p _ 0 Hl Lq Lp) as (_ & _ & _ & Ep & _). rn. rewrite Ep.
      assert (O : pv_ok q (sub r q)) by (split; [congruence|split; [auto|apply ne; auto]]).
      rewrite line_project_point_R by (auto; congruence). unfold res_map at 1; cbn [bind]. apply lfp_move; auto. rewrite length_lproj; congruence. }
    unfold triangle_altitude. cbn [t_a t_b t_c]. destruct (String.eqb v "A"); [apply Al; auto|]. destruct (String.eqb v "B"); [apply Al; auto|]. destruct (String.eqb v "C"); [apply Al; auto|]. reflexivity.
  - unfold triangle_classify. rn. rewrite LS, LS'. cbn [bind]. pose proof (isclose_scale s tl (dist b c) (dist c a) P) as E1. pose proof (isclose_scale s tl (dist b c) (dist a b) P) as E2. pose proof (isclose_scale s tl (dist c a) (dist a b) P) as E3.
    rewrite scale_tol_0 in E1, E2, E3 by auto. rewrite E1, E2, E3. reflexivity.
  - unfold triangle_is_right. rn. rewrite LS, LS'. cbn [bind].
    assert (Hs : py_sorted (N:=RNum) [s * dist b c; s * dist c a; s * dist a b] = map (Rmult s) (py_sorted (N:=RNum) [dist b c; dist c a; dist a b])).
    { unfold py_sorted. cbn [fold_left insert_num]. rops. repeat (rewrite ?Rltb_scale, ?Rleb_scale by auto; match goal with |- context [if ?c then _ else _] => destruct c; cbn [insert_num map]; rops end); reflexivity. }
    rewrite Hs. destruct (py_sorted3 (dist b c) (dist c a) (dist a b)) as (x & y & z & E & _). rn. rewrite E. cbn [map].
    pose proof (isclose_scale (s * s) tl (x * x + y * y) (z * z) ltac:(nra)) as Q. rewrite scale_tol_0 in Q by auto. rops. refine (eq_trans _ Q). f_equal; ring.
Qed.
Theorem C75_triangle_area : forall (LA : linalg RNum) (a b c : pt) t, svd_correct LA -> triangle_new LA a b c = Ok t -> length a = n -> (n <= 3)%nat -> (m <= 3)%nat ->
  triangle_area (move_triangle t) = res_map (Rmult (s * s)) (triangle_area t).
Proof.
  intros LA a b c t HL Ht La N3 M3. apply triangle_tri in Ht as (-> & Tr); auto. pose proof (tri_move a b c La Tr) as Tr'. pose proof Tr as (Na & Lb & Lc & G). pose proof Ps as P.
  assert (Lb' : length b = n) by congruence. assert (Lc' : length c = n) by congruence.
  unfold move_triangle. cbn [t_a t_b t_c]. rewrite !triangle_area_R by (auto; rewrite ?tlen; auto; lia). unfold res_map; cbn [bind]. apply (f_equal (@Ok R)).
  rewrite !(sim_sub n m s T H), (gram_vmap n m s T H) by (auto; len). replace (s * s * s * s * gram (sub b a) (sub c a)) with ((s * s) * (s * s) * gram (sub b a) (sub c a)) by ring. rewrite sqrt_scale2 by nra. ring.
Qed.
Theorem C75_orthocenter : forall (LA LA' : linalg RNum) (tl : tol RNum) check (a b c : pt) t, svd_correct LA -> svd_correct LA' -> triangle_new LA a b c = Ok t -> length a = n -> (n <= 3)%nat -> (m <= 3)%nat -> m = n \/ check = false ->
  abs_tol tl = 0 -> triangle_orthocenter LA' tl check (move_triangle t) = res_map T (triangle_orthocenter LA tl check t).
Proof.
  intros LA LA' tl check a b c t HL HL' Ht La N3 M3 Hm Ha. unfold triangle_orthocenter.
  destruct (C75_triangles LA tl a b c t "A" HL Ht La Ha) as (_ & _ & _ & _ & _ & _ & EA & _). destruct (C75_triangles LA tl a b c t "B" HL Ht La Ha) as (_ & _ & _ & _ & _ & _ & EB & _).
  rewrite EA, EB. apply triangle_tri in Ht as (-> & Tr); auto. pose proof Tr as (Na & Lb & Lc & G). pose proof (tri_rot _ _ _ Tr) as T2.
  rewrite (altitude_R a b c "A" a b c Tr) by (left; auto). rewrite (altitude_R a b c "B" b c a Tr) by (right; left; auto). unfold res_map at 1 2; cbn [bind].
  destruct (tri_foot a b c Tr) as (F1 & NZ1 & L1). destruct (tri_foot b c a T2) as (F2 & NZ2 & L2).
  apply (C75_intersect_line n m s T H Hn LA LA' tl check a (sub (lproj b (sub c b) a) a) b (sub (lproj c (sub a c) b) b)); auto; try congruence; apply line_new_R; auto; len.
Qed.

(** ** Measurements *)
Theorem C75_area_triangle : forall (a b c : pt), length a = n -> length b = n -> length c = n -> (n <= 3)%nat -> (m <= 3)%nat ->
  area_triangle (N:=RNum) (T a) (T b) (T c) = res_map (Rmult (s * s)) (area_triangle (N:=RNum) a b c).
Proof.
  intros a b c La Lb Lc N3 M3. pose proof Ps as P. rewrite !area_triangle_R by (auto using ne, Tne; rewrite ?tlen; auto; congruence || lia). unfold res_map; cbn [bind]. apply (f_equal (@Ok R)).
  rewrite !(sim_sub n m s T H), (gram_vmap n m s T H) by (auto; len). replace (s * s * s * s * gram (sub b a) (sub c a)) with ((s * s) * (s * s) * gram (sub b a) (sub c a)) by ring.
  rewrite sqrt_scale2; [ring|nra|apply gram_nonneg; len].
Qed.
Theorem C75_volume_tetrahedron : forall (a b c d : pt), length a = n -> length b = n -> length c = n -> length d = n -> (n <= 3)%nat -> (m <= 3)%nat ->
  volume_tetrahedron (N:=RNum) (T a) (T b) (T c) (T d) = res_map (Rmult (s * s * s)) (volume_tetrahedron (N:=RNum) a b c d).
Proof.
  intros a b c d La Lb Lc Ld N3 M3. pose proof Ps as P. assert (P3 : 0 < s * s * s) by (apply Rmult_lt_0_compat; nra).
  rewrite !volume_R by (auto using ne, Tne; rewrite ?tlen; auto; congruence || lia). unfold res_map; cbn [bind]. apply (f_equal (@Ok R)).
  rewrite !(sim_sub n m s T H) by auto. unfold gram3. rewrite !(vmap_dot n m s T H) by (auto; len).
  set (u := sub b a). set (v := sub c a). set (w := sub d a).
  match goal with |- _ * sqrt ?x = _ * (_ * sqrt ?y) => replace x with ((s * s * s) * (s * s * s) * y) by ring; assert (Y : 0 <= y) end.
  { pose proof (triple_sq (pad_to 3 u) (pad_to 3 v) (pad_to 3 w)) as Q.
    match type of Q with ?A -> ?B -> ?C -> _ => assert (K1 : A) by (rewrite length_pad_to; unfold u; len); assert (K2 : B) by (rewrite length_pad_to; unfold v; len); assert (K3 : C) by (rewrite length_pad_to; unfold w; len) end.
    specialize (Q K1 K2 K3). unfold gram3 in Q. rewrite !dot_pad in Q by (unfold u, v, w; len). unfold gram3 in Q. rewrite <- Q. apply Rle_0_sqr. }
  rewrite sqrt_scale2 by auto. ring.
Qed.
End S.
Print Assumptions C75_triangle_new.
Print Assumptions C75_triangles.
Print Assumptions C75_triangle_area.
Print Assumptions C75_orthocenter.
Print Assumptions C75_area_triangle.
Print Assumptions C75_volume_tetrahedron.
