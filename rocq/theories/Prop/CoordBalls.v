(** * Property C75, continued: circles, spheres, triangles, measurements *)
From Coq Require Import String Reals List ZArith Lra Lia Psatz Bool.
From Verif.Model Require Import Outcome Num Instances Numpy BaseArray Vector Points Functions Line Plane LineSegment Sphere Triangle Cylinder.
From Verif.Spec Require Import Geometry Tolerance Mesh Linalg Triangle Similarity.
From Verif.Proof Require Import VecAlg Bridge Arrays Vectors Points Lines Lincomb Svd SvdExists Ranks Singular Similarity SimRank Triangles Cylinders.
From Verif.Prop Require Import Arrays Vectors Points Planes LinePairs Segments Balls Spheres Triangles Measure Cylinders Coordinates CoordShapes.
Import ListNotations.
Local Open Scope R_scope.
Local Open Scope string_scope.

Lemma sqrt_scale2 k x : 0 < k -> 0 <= x -> sqrt (k * k * x) = k * sqrt x.
Proof. intros P X. rewrite sqrt_mult by nra. rewrite sqrt_square by lra. reflexivity. Qed.
(** Two pairs of points agree up to the order of the pair; failures are ValueErrors on both sides. *)
Definition same_pair (T : pt -> pt) (r r' : res (pt * pt)) : Prop :=
  (exists a b, r = Ok (a, b) /\ (r' = Ok (T a, T b) \/ r' = Ok (T b, T a))) \/
  ((exists msg, r = Raise (ValueError msg)) /\ (exists msg, r' = Raise (ValueError msg))).

Section S.
Context (n m : nat) (s : R) (T : pt -> pt) (H : similarity n m s T) (Hn : (0 < n)%nat).
Notation V := (vmap n T).
Local Notation Ps := (sim_pos n m s T H).
Local Notation tlen := (sim_len n m s T H).
Local Notation vlen := (vmap_len n m s T H).
Local Notation mline := (move_line n T).
Local Notation ne := (ne n Hn).
Local Notation Tne := (Tne n m s T H Hn).
Local Notation Vne := (Vne n m s T H Hn).
Local Notation Vz := (Vz n m s T H).

(** ** Circles and spheres *)
Definition move_ball (c : ball RNum) : ball RNum := MkBall (N:=RNum) (T (c_point c)) (s * c_radius c).
Theorem C75_ball_new : forall (p : pt) (r : R), length p = n -> m = n ->
  circle_new (N:=RNum) (T p) (s * r) = res_map move_ball (circle_new (N:=RNum) p r) /\
  sphere_new (N:=RNum) (T p) (s * r) = res_map move_ball (sphere_new (N:=RNum) p r).
Proof.
  intros p r Lp Hm. pose proof Ps as P. pose proof (Tne p Lp) as NT. pose proof (ne p Lp) as N0.
  assert (K : forall k e, (let* c := base_sphere_new (N:=RNum) (T p) (s * r) in if negb (Nat.eqb (dim1 (c_point c)) k) then Raise e else Ok c) =
     res_map move_ball (let* c := base_sphere_new (N:=RNum) p r in if negb (Nat.eqb (dim1 (c_point c)) k) then Raise e else Ok c)).
  { intros k e. rewrite !ball_new_R. assert (LT : length (T p) = length p) by (rewrite tlen; congruence).
    destruct (Rle_dec r 0) as [Hr|Hr], (Rle_dec (s * r) 0) as [Hr'|Hr']; try (exfalso; nra); [reflexivity|].
    destruct (T p) as [|x0 tp] eqn:ET; [contradiction|]. destruct p as [|y0 p]; [contradiction|]. rewrite LT. destruct (Nat.eqb _ _); [|reflexivity].
    unfold res_map, move_ball; cbn [bind c_point c_radius]. rewrite ET. reflexivity. }
  split; apply K.
Qed.
Theorem C75_balls : forall (t : tol RNum) (p q : pt) (r : R) c, ball_ok c p r -> length p = n -> length q = n ->
  ball_distance_point (move_ball c) (T q) = res_map (Rmult s) (ball_distance_point c q) /\
  ball_contains_point (scale_tol s t) (move_ball c) (T q) = ball_contains_point t c q /\
  ball_project_point (move_ball c) (T q) = res_map T (ball_project_point c q).
Proof.
  intros t p q r c Hc Lp Lq. apply ball_ok_inv in Hc as (-> & Hr & Np). pose proof Ps as P.
  unfold move_ball. cbn [c_point c_radius].
  assert (E : ball_distance_point (MkBall (N:=RNum) p r) q = Ok (Rabs (dist p q - r))).
  { unfold ball_distance_point. cbn [c_point c_radius]. rewrite distance_point_R by (auto; congruence). reflexivity. }
  assert (E' : ball_distance_point (MkBall (N:=RNum) (T p) (s * r)) (T q) = Ok (s * Rabs (dist p q - r))).
  { unfold ball_distance_point. cbn [c_point c_radius]. rewrite distance_point_R by (auto using Tne; rewrite !tlen; auto). cbn [bind]. rops. apply (f_equal (@Ok R)).
    rewrite (sim_dist n m s T H) by auto. rewrite <- Rmult_minus_distr_l, Rabs_mult, (Rabs_pos_eq s) by lra. reflexivity. }
  split; [rewrite E, E'; reflexivity|]. split; [unfold ball_contains_point; eapply (contains_move n m s T H); eauto|].
  unfold ball_project_point. cbn [c_point c_radius].
  destruct (is_equal1 (N:=RNum) p q) eqn:Eq.
  - apply (proj1 (C04_is_equal_exact p q [] [])) in Eq. subst q. rewrite (proj2 (proj1 (C04_is_equal_exact (T p) (T p) [] [])) eq_refl). reflexivity.
  - assert (Npq : p <> q). { intros ->. rewrite (proj2 (proj1 (C04_is_equal_exact q q [] [])) eq_refl) in Eq. discriminate. }
    destruct (is_equal1 (N:=RNum) (T p) (T q)) eqn:Eq'.
    { apply (proj1 (C04_is_equal_exact (T p) (T q) [] [])) in Eq'. apply (sim_inj n m s T H) in Eq'; auto. contradiction. }
    rewrite !from_points_R by (auto using Tne; rewrite ?tlen; congruence). cbn [bind]. rewrite (sim_sub n m s T H) by auto.
    assert (Ls : length (sub q p) = n) by len. assert (Zs : ~ is_zero_vec (sub q p)) by (intro Z; apply Npq; symmetry; apply sub_zero_iff; auto; congruence).
    rewrite !unit_R by auto using Vz. cbn [bind]. rewrite !vmuls_R. cbn [bind]. rewrite !vadd_R by (rewrite !length_scale, ?tlen, ?vlen; auto; congruence). unfold res_map; cbn [bind].
    rewrite !scale_scale. rewrite (sim_along n m s T H), (vmap_lenv n m s T H) by auto. apply (f_equal (@Ok pt)). do 2 f_equal. pose proof (len_pos _ Zs). field. split; lra.
Qed.
Definition both (f : pt -> pt) (x : pt * pt) : pt * pt := (f (fst x), f (snd x)).
(** Sphere.intersect_line orders the points along the line, so the order is preserved too. *)
Theorem C75_sphere_line : forall (p e q : pt) (r : R) c l, sphere_new (N:=RNum) q r = Ok c -> line_new (N:=RNum) p e = Ok l -> length p = n -> n = 3%nat -> m = 3%nat ->
  sphere_intersect_line (move_ball c) (mline l) = res_map (both T) (sphere_intersect_line c l).
Proof.
  intros p e q r c l Hc Hl Lp N3 M3. apply sphere_inv in Hc as (-> & Hr & Lq). apply line_new_iff in Hl as (-> & O). pose proof O as (L & Z & _). pose proof Ps as P.
  assert (Le : length e = n) by exact (eq_trans (eq_sym L) Lp). assert (Lqn : length q = n) by exact (eq_trans Lq (eq_sym N3)).
  unfold sphere_intersect_line, move_ball, move_line. cbn [l_point l_dir c_point c_radius].
  rewrite !from_points_R by (auto using Tne, ne; rewrite ?tlen; congruence). cbn [bind]. rewrite (sim_sub n m s T H) by auto. assert (Ls : length (sub p q) = n) by len.
  rewrite !unit_R by auto using Vz. cbn [bind]. rewrite !np_dot_R by (rewrite !length_scale, ?vlen; auto; congruence). cbn [bind]. rewrite !norm_R. cbn [bind]. rops.
  rewrite !dot_scale_l, (vmap_dot n m s T H), !(vmap_lenv n m s T H) by auto. pose proof (len_pos e Z) as Pe.
  set (D := / len e * dot e (sub p q)). set (w := len (sub p q)).
  replace (/ (s * len e) * (s * s * dot e (sub p q))) with (s * D) by (unfold D; field; split; lra).
  replace (s * D * (s * D) - (s * w * (s * w) - s * r * (s * r))) with (s * s * (D * D - (w * w - r * r))) by ring. set (dd := D * D - (w * w - r * r)).
  assert (S2 : 0 < s * s) by nra. rewrite (Rltb_scale0 (s * s)) by auto. destruct (Rltb dd 0) eqn:Ed; [reflexivity|]. apply Rltb_false in Ed.
  rewrite !math_sqrt_R by nra. cbn [bind]. rewrite sqrt_scale2 by lra. change (vscale (N:=RNum)) with scale. rewrite !bcast_eq by (rn; rewrite !length_scale, ?tlen, ?vlen; auto; congruence). cbn [bind]. rewrite !map2_add.
  assert (Eu : forall k, add (T p) (scale (s * k) (scale (/ (s * len e)) (V e))) = T (add p (scale k (scale (/ len e) e)))).
  { intro k. rewrite !scale_scale, (sim_along n m s T H) by auto. do 2 f_equal. field. split; lra. }
  change (nofZ (-1)) with (-1). replace (- (s * D) + -1 * (s * sqrt dd)) with (s * (- D + -1 * sqrt dd)) by ring. replace (- (s * D) + 1 * (s * sqrt dd)) with (s * (- D + 1 * sqrt dd)) by ring.
  rewrite !Eu. assert (La : forall k, length (add p (scale k (scale (/ len e) e))) = n) by (intro k; rewrite length_add, !length_scale, Lp, Le; apply Nat.min_id).
  rewrite !point_of_R by (first [apply Tne, La|apply ne, La]). reflexivity.
Qed.
(** Circle.intersect_line and Circle.intersect_circle order the points by coordinates: the pair is preserved up to its order. *)
Lemma same_pair_of (P : pt -> Prop) (P' : pt -> Prop) r r' : (forall x, P x -> length x = n) ->
  (forall y, P' y <-> exists x, length x = n /\ y = T x /\ P x) ->
  ((exists x, P x) -> exists a b, r = Ok (a, b) /\ forall x, P x <-> x = a \/ x = b) -> ((exists x, P' x) -> exists a b, r' = Ok (a, b) /\ forall x, P' x <-> x = a \/ x = b) ->
  ((~ exists x, P x) -> exists msg, r = Raise (ValueError msg)) -> ((~ exists x, P' x) -> exists msg, r' = Raise (ValueError msg)) -> same_pair T r r'.
Proof.
  intros PL Im A A' B B'. destruct (Classical_Prop.classic (exists x, P x)) as [E|E].
  - left. destruct (A E) as (a & b & -> & G). exists a, b. split; auto.
    assert (Pa : P a) by (apply G; auto). assert (Pb : P b) by (apply G; auto).
    destruct A' as (a' & b' & -> & G'). { exists (T a). apply Im. exists a. auto. }
    assert (Pa' : P' a') by (apply G'; auto). assert (Pb' : P' b') by (apply G'; auto).
    assert (Ta : T a = a' \/ T a = b') by (apply G', Im; exists a; auto). assert (Tb : T b = a' \/ T b = b') by (apply G', Im; exists b; auto).
    apply Im in Pa' as (x & _ & -> & X). apply G in X. apply Im in Pb' as (y & _ & -> & Y). apply G in Y.
    destruct X as [->| ->], Y as [->| ->]; auto.
    + destruct Tb as [Tb|Tb]; left; rewrite Tb; reflexivity.
    + destruct Ta as [Ta|Ta]; left; rewrite Ta; reflexivity.
  - right. split; [apply B; auto|]. apply B'. intros (y & Y). apply Im in Y as (x & _ & _ & X). eauto.
Qed.
Theorem C75_circle_line : forall (p e q : pt) (r : R) c l, circle_new (N:=RNum) q r = Ok c -> line_new (N:=RNum) p e = Ok l -> length p = n -> n = 2%nat -> m = 2%nat ->
  same_pair T (circle_intersect_line c l) (circle_intersect_line (move_ball c) (mline l)).
Proof.
  intros p e q r c l Hc Hl Lp N2 M2. assert (Lq : length q = n) by (apply circle_inv in Hc as (_ & _ & x & y & ->); simpl; congruence). assert (Em : m = n) by congruence.
  destruct (C75_ball_new q r Lq Em) as (Hc' & _). rewrite Hc in Hc'. unfold res_map in Hc'; cbn [bind] in Hc'.
  destruct (C75_lines n m s T H Hn tol_default p e q l 0 Hl Lp Lq) as (Hl' & _).
  destruct (C48_intersect_line p e q r c l Hc Hl) as (A & B); [congruence|]. destruct (C48_intersect_line (T p) (V e) (T q) (s * r) _ _ Hc' Hl') as (A' & B'); [rewrite tlen; congruence|].
  apply line_new_iff in Hl as (-> & O). pose proof O as (L & Z & _). assert (Le : length e = n) by congruence.
  apply (same_pair_of (fun x => on_line p e x /\ on_sphere q r x) (fun x => on_line (T p) (V e) x /\ on_sphere (T q) (s * r) x)); auto.
  - intros x (_ & Lx & _). congruence.
  - apply (sim_img n m s T H); auto; [intros x (_ & Lx & _); rewrite Lx; apply tlen; auto|intros x (_ & Lx & _); congruence|].
    intros x Lx. rewrite (sim_on_line n m s T H), (sim_on_sphere n m s T H) by auto. tauto.
  - intro X. destruct (A X) as (a & b & E & G & _). eauto.
  - intro X. destruct (A' X) as (a & b & E & G & _). eauto.
Qed.
Theorem C75_circle_circle : forall (p q : pt) (r k : R) c o, circle_new (N:=RNum) p r = Ok c -> circle_new (N:=RNum) q k = Ok o -> length p = n -> n = 2%nat -> m = 2%nat ->
  same_pair T (circle_intersect_circle c o) (circle_intersect_circle (move_ball c) (move_ball o)).
Proof.
  intros p q r k c o Hc Ho Lp N2 M2. assert (Lq : length q = n) by (apply circle_inv in Ho as (_ & _ & x & y & ->); simpl; congruence). assert (Em : m = n) by congruence.
  destruct (C75_ball_new p r Lp Em) as (Hc' & _). rewrite Hc in Hc'. unfold res_map in Hc'; cbn [bind] in Hc'.
  destruct (C75_ball_new q k Lq Em) as (Ho' & _). rewrite Ho in Ho'. unfold res_map in Ho'; cbn [bind] in Ho'. pose proof Ps as P.
  destruct (is_zero_vec_dec (sub p q)) as [Z|Z].
  - apply (proj1 (sub_zero_iff p q ltac:(congruence))) in Z. subst q. right.
    destruct (C47_intersect_circle p p r k c o Hc Ho) as (_ & A). destruct (C47_intersect_circle (T p) (T p) (s * r) (s * k) _ _ Hc' Ho') as (_ & A'). split; [apply A|apply A']; auto.
  - assert (Npq : p <> q) by (intros ->; apply Z; rewrite sub_self; apply zero_origin). assert (Npq' : T p <> T q) by (intro X; apply Npq, (sim_inj n m s T H); auto).
    destruct (C47_intersect_circle p q r k c o Hc Ho) as (A & A0). destruct (C47_intersect_circle (T p) (T q) (s * r) (s * k) _ _ Hc' Ho') as (A' & A0').
    pose proof (C47_raises_iff_disjoint p q r k c o Hc Ho Npq) as D. pose proof (C47_raises_iff_disjoint (T p) (T q) (s * r) (s * k) _ _ Hc' Ho' Npq') as D'.
    assert (G : forall (p q : pt) (r k : R) c o, circle_new (N:=RNum) p r = Ok c -> circle_new (N:=RNum) q k = Ok o -> p <> q ->
       (exists x, on_sphere p r x /\ on_sphere q k x) -> exists a b, circle_intersect_circle c o = Ok (a, b) /\ forall x, on_sphere p r x /\ on_sphere q k x <-> x = a \/ x = b).
    { clear. intros p q r k c o Hc Ho Npq X. destruct (C47_intersect_circle p q r k c o Hc Ho) as (A & A0). pose proof (C47_raises_iff_disjoint p q r k c o Hc Ho Npq) as D.
      destruct (Rle_dec (dist p q) (r + k)) as [H1|H1]; [|exfalso; apply D in X; auto; apply A0; right; left; lra].
      destruct (Rle_dec (Rabs (r - k)) (dist p q)) as [H2|H2]; [|exfalso; apply D in X; auto; apply A0; right; right; lra].
      destruct (A Npq (conj H2 H1)) as (a & b & E & K & _). eauto. }
    apply (same_pair_of (fun x => on_sphere p r x /\ on_sphere q k x) (fun x => on_sphere (T p) (s * r) x /\ on_sphere (T q) (s * k) x)).
    + intros x ((Lx & _) & _). congruence.
    + apply (sim_img n m s T H); auto; [intros x ((Lx & _) & _); rewrite Lx; apply tlen; auto|intros x ((Lx & _) & _); congruence|].
      intros x Lx. rewrite !(sim_on_sphere n m s T H) by auto. tauto.
    + apply (G p q r k c o); auto.
    + apply (G (T p) (T q) (s * r) (s * k)); auto.
    + intro X. apply D in X. auto.
    + intro X. apply D' in X. auto.
Qed.
Theorem C75_circle_from_points : forall (LA LA' : linalg RNum) tolerance (a b c : pt), svd_correct LA -> svd_correct LA' -> tol_nonneg tolerance ->
  length a = n -> length b = n -> length c = n -> n = 2%nat -> m = 2%nat ->
  circle_from_points LA' (option_map (Rmult s) tolerance) (T a) (T b) (T c) = res_map move_ball (circle_from_points LA tolerance a b c).
Proof.
  intros LA LA' tolerance a b c HL HL' Ht La Lb Lc N2 M2. pose proof Ps as P.
  assert (Hr : points_ok n [a; b; c]) by (split; [discriminate|split; [lia|repeat constructor; auto]]).
  destruct (C75_points n m s T H LA LA' [a; b; c] tolerance HL HL' Hr Ht) as (_ & _ & K). destruct K as (_ & _ & Ec & _); [left; congruence|]. cbn [map] in Ec.
  assert (Ht' : tol_nonneg (option_map (Rmult s) tolerance)) by (destruct tolerance as [t|]; simpl in *; auto; nra).
  assert (L2 : forall x : pt, length x = n -> length x = 2%nat) by (intros; congruence). assert (T2 : forall x : pt, length x = n -> length (T x) = 2%nat) by (intros; rewrite tlen; auto).
  destruct (C46_from_points LA tolerance a b c HL Ht (L2 a La) (L2 b Lb) (L2 c Lc)) as (A & _).
  destruct (C46_from_points LA' (option_map (Rmult s) tolerance) (T a) (T b) (T c) HL' Ht' (T2 a La) (T2 b Lb) (T2 c Lc)) as (A' & _).
  destruct (are_collinear LA tolerance [a; b; c]) as [[|]| |] eqn:E.
  - unfold circle_from_points. rewrite !point_of_R by auto using Tne, ne. cbn [bind]. unfold dim1. rn. rewrite !T2, !L2 by auto. cbn [Nat.eqb negb orb].
    rewrite (points_of_R [a; b; c] n), (points_of_R [T a; T b; T c] m) by (try discriminate; try lia; repeat constructor; auto; apply tlen; auto). cbn [bind]. rn. rewrite Ec, E. reflexivity.
  - destruct (A eq_refl) as (p & r & E1 & Hp & O1 & O2 & O3 & U). destruct (A' Ec) as (p' & r' & E1' & Hp' & O1' & O2' & O3' & U').
    rn. rewrite E1, E1'. unfold res_map, move_ball; cbn [bind c_point c_radius].
    apply circle_inv in Hp as (_ & Hr0 & px & py & Ep). assert (Lp : length p = n) by (subst p; simpl; congruence).
    destruct (U' (T p) (s * r)) as (<- & <-); [apply Rmult_lt_0_compat; auto|apply (sim_on_sphere n m s T H); auto|apply (sim_on_sphere n m s T H); auto|apply (sim_on_sphere n m s T H); auto|]. reflexivity.
  - exfalso. destruct (affine_rank_R LA tolerance n [a; b; c] HL Hr) as (U & sv & Vh & _ & Er). unfold are_collinear in E. rn. rewrite Er in E. discriminate.
  - exfalso. destruct (affine_rank_R LA tolerance n [a; b; c] HL Hr) as (U & sv & Vh & _ & Er). unfold are_collinear in E. rn. rewrite Er in E. discriminate.
Qed.
End S.
Print Assumptions C75_ball_new.
Print Assumptions C75_balls.
Print Assumptions C75_sphere_line.
Print Assumptions C75_circle_line.
Print Assumptions C75_circle_circle.
Print Assumptions C75_circle_from_points.
