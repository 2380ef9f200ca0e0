(** * Property C75, continued: cylinders *)
From Coq Require Import String Reals List ZArith Lra Lia Psatz Bool.
From Verif.Model Require Import Outcome Num Instances Numpy BaseArray Vector Points Functions Line Plane LineSegment Sphere Triangle Cylinder.
From Verif.Spec Require Import Geometry Tolerance Mesh Linalg Triangle Similarity Measure Cylinder.
From Verif.Proof Require Import VecAlg Bridge Arrays Vectors Points Lines Lincomb Svd SvdExists Ranks Singular Similarity SimRank Triangles Cylinders.
From Verif.Prop Require Import Arrays Vectors Points Planes LinePairs Segments Balls Spheres Triangles Measure Cylinders Coordinates CoordShapes CoordBalls CoordTriangles.
Import ListNotations.
Local Open Scope R_scope.
Local Open Scope string_scope.

Section S.
Context (s : R) (T : pt -> pt) (H : similarity 3 3 s T).
Notation V := (vmap 3 T).
Local Notation Ps := (sim_pos 3 3 s T H).
Local Notation tlen := (sim_len 3 3 s T H).
Local Notation vlen := (vmap_len 3 3 s T H).
Local Notation mline := (move_line 3 T).
Definition move_cylinder (c : cylinder RNum) : cylinder RNum := MkCylinder (N:=RNum) (T (cy_point c)) (V (cy_vector c)) (s * cy_radius c).

Lemma pos3 : (0 < 3)%nat. Proof. lia. Qed.
Lemma cyl_move p v r : cyl_ok p v r -> cyl_ok (T p) (V v) (s * r).
Proof.
  intros (Lp & Lv & Z & P). split; [apply tlen; auto|]. split; [apply vlen; auto|]. split; [intro K; apply (proj1 (vmap_zero 3 3 s T H v Lv)) in K; auto|].
  pose proof Ps. apply Rmult_lt_0_compat; auto.
Qed.
Lemma cyl_move_inv p v r : length p = 3%nat -> length v = 3%nat -> cyl_ok (T p) (V v) (s * r) -> cyl_ok p v r.
Proof.
  intros Lp Lv (_ & _ & Z & P). split; auto. split; auto. split; [intro K; apply Z, (proj2 (vmap_zero 3 3 s T H v Lv)), K|].
  pose proof Ps. apply Rmult_lt_reg_l with s; auto. rewrite Rmult_0_r. auto.
Qed.
(** Construction accepts the same cylinders before and after the change of coordinates. *)
Theorem C75_cylinder_new : forall (p v : pt) (r : R), length p = 3%nat -> length v = 3%nat ->
  (forall c, cylinder_new (N:=RNum) p v r = Ok c -> cylinder_new (N:=RNum) (T p) (V v) (s * r) = Ok (move_cylinder c)) /\
  ((exists msg, cylinder_new (N:=RNum) p v r = Raise (ValueError msg)) <-> (exists msg, cylinder_new (N:=RNum) (T p) (V v) (s * r) = Raise (ValueError msg))).
Proof.
  intros p v r Lp Lv. split.
  - intros c Hc. apply cylinder_new_iff in Hc as (-> & K). apply cylinder_new_R, cyl_move, K.
  - destruct (cyl_ok_dec p v r) as [K|K].
    + rewrite (cylinder_new_R p v r K), (cylinder_new_R _ _ _ (cyl_move p v r K)). split; intros (msg & E); discriminate.
    + split; intros _; apply cylinder_new_raise; auto. intro K'. apply K, cyl_move_inv; auto.
Qed.
Theorem C75_cylinder_from_points : forall (a b : pt) (r : R) c, length a = 3%nat -> length b = 3%nat ->
  cylinder_from_points (N:=RNum) a b r = Ok c -> cylinder_from_points (N:=RNum) (T a) (T b) (s * r) = Ok (move_cylinder c).
Proof.
  intros a b r c La Lb E. unfold cylinder_from_points in *. assert (Na : a <> []) by (intro; subst; discriminate).
  rewrite from_points_R in E by (auto; congruence). cbn [bind] in E. rewrite from_points_R by (try (apply (sim_ne 3 3 s T H a La pos3)); rewrite !tlen; auto). cbn [bind].
  rewrite (sim_sub 3 3 s T H) by auto. apply C75_cylinder_new; auto. len.
Qed.
Lemma rej_move v z : length v = 3%nat -> length z = 3%nat -> ~ is_zero_vec v -> rej (V v) (V z) = V (rej v z).
Proof.
  intros Lv Lz Z. pose proof (dot_self_pos v Z) as P. pose proof Ps. unfold rej. rewrite !(vmap_dot 3 3 s T H), (vmap_sub 3 3 s T H), (vmap_scale 3 3 s T H) by (auto; len).
  do 2 f_equal. field. split; lra.
Qed.
Lemma unit_move e : length e = 3%nat -> ~ is_zero_vec e -> scale (/ len (V e)) (V e) = V (scale (/ s) (scale (/ len e) e)).
Proof.
  intros Le Z. pose proof (len_pos e Z) as P. pose proof Ps. rewrite scale_scale, (vmap_scale 3 3 s T H), (vmap_lenv 3 3 s T H) by auto. f_equal. field. split; lra.
Qed.
Lemma at_t_move q e t : length q = 3%nat -> length e = 3%nat -> ~ is_zero_vec e -> at_t (T q) (V e) (s * t) = T (at_t q e t).
Proof.
  intros Lq Le Z. pose proof Ps. unfold at_t. rewrite unit_move by auto. assert (Lu : length (scale (/ len e) e) = 3%nat) by len. rewrite (sim_along 3 3 s T H) by auto. f_equal.
  rewrite (vmap_scale 3 3 s T H (/ s)) by auto. rewrite scale_scale. f_equal. field. lra.
Qed.
Lemma dvv v : ~ is_zero_vec v -> 0 < dot v v. Proof. apply dot_self_pos. Qed.
Lemma qa_move v e : length v = 3%nat -> length e = 3%nat -> ~ is_zero_vec v -> ~ is_zero_vec e -> qa (V v) (V e) = qa v e.
Proof.
  intros Lv Le Zv Z. pose proof Ps. unfold qa. rewrite unit_move by auto. rewrite rej_move by (auto; len). rewrite (vmap_dot 3 3 s T H) by (rewrite length_rej; len).
  rewrite rej_scale by (auto using dvv; len). rewrite dot_scale_l, dot_scale_r. field. lra.
Qed.
Lemma qb_move p v q e : length p = 3%nat -> length v = 3%nat -> length q = 3%nat -> length e = 3%nat -> ~ is_zero_vec v -> ~ is_zero_vec e -> qb (T p) (V v) (T q) (V e) = s * qb p v q e.
Proof.
  intros Lp Lv Lq Le Zv Z. pose proof Ps. unfold qb. rewrite unit_move, (sim_sub 3 3 s T H) by auto. rewrite !rej_move by (auto; len). rewrite (vmap_dot 3 3 s T H) by (rewrite length_rej; len).
  rewrite (rej_scale v (/ s)) by (auto using dvv; len). rewrite dot_scale_l. field. lra.
Qed.
Lemma qc_move p v q r : length p = 3%nat -> length v = 3%nat -> length q = 3%nat -> ~ is_zero_vec v -> qc (T p) (V v) (T q) (s * r) = s * s * qc p v q r.
Proof.
  intros Lp Lv Lq Zv. unfold qc. rewrite (sim_sub 3 3 s T H) by auto. rewrite !rej_move by (auto; len). rewrite (vmap_dot 3 3 s T H) by (rewrite length_rej; len). ring.
Qed.
Lemma dv_move v e : length v = 3%nat -> length e = 3%nat -> ~ is_zero_vec e -> dv (V v) (V e) = s * dv v e.
Proof. intros Lv Le Z. pose proof Ps. unfold dv. rewrite unit_move by auto. rewrite (vmap_dot 3 3 s T H) by len. rewrite dot_scale_l. field. lra. Qed.
Lemma between_move p v r x : cyl_ok p v r -> length x = 3%nat ->
  between_cap_planes (N:=RNum) (MkCylinder (T p) (V v) (s * r)) (T x) = between_cap_planes (N:=RNum) (MkCylinder p v r) x.
Proof.
  intros K Lx. pose proof K as (Lp & Lv & Z & _). destruct (between_R p v x r K) as (b & -> & Hb); [congruence|].
  destruct (between_R (T p) (V v) (T x) (s * r) (cyl_move p v r K)) as (b' & -> & Hb'); [rewrite !tlen; auto|].
  rewrite (sim_sub 3 3 s T H), !(vmap_dot 3 3 s T H) in Hb' by (auto; len). pose proof Ps. assert (P2 : 0 < s * s) by nra. f_equal.
  assert (E : 0 <= s * s * dot (sub x p) v <= s * s * dot v v <-> 0 <= dot (sub x p) v <= dot v v).
  { split; intros (A & B); split.
    - apply Rmult_le_reg_l with (s * s); lra.
    - apply Rmult_le_reg_l with (s * s); lra.
    - apply Rmult_le_pos; lra.
    - apply Rmult_le_compat_l; lra. }
  rewrite E in Hb'. destruct b, b'; intuition congruence.
Qed.
(** Lengths scale with s, areas with its square, volumes with its cube; the points inside are moved along. *)
Theorem C75_cylinders : forall (p v x : pt) (r : R) c, cylinder_new (N:=RNum) p v r = Ok c -> length x = 3%nat ->
  cylinder_length (move_cylinder c) = s * cylinder_length c /\
  cylinder_lateral_surface_area (N:=RNum) RTrig (move_cylinder c) = s * s * cylinder_lateral_surface_area (N:=RNum) RTrig c /\
  cylinder_surface_area (N:=RNum) RTrig (move_cylinder c) = s * s * cylinder_surface_area (N:=RNum) RTrig c /\
  cylinder_volume (N:=RNum) RTrig (move_cylinder c) = s * s * s * cylinder_volume (N:=RNum) RTrig c /\
  cylinder_is_point_within (move_cylinder c) (T x) = cylinder_is_point_within c x.
Proof.
  intros p v x r c Hc Lx. apply cylinder_new_iff in Hc as (-> & K). pose proof K as (Lp & Lv & Z & P).
  assert (EL : cylinder_length (N:=RNum) (MkCylinder (T p) (V v) (s * r)) = s * cylinder_length (N:=RNum) (MkCylinder p v r)).
  { unfold cylinder_length. cbn [cy_vector]. rewrite !norm_raw_len. apply (vmap_lenv 3 3 s T H); auto. }
  unfold move_cylinder. cbn [cy_point cy_vector cy_radius]. split; [exact EL|]. unfold cylinder_surface_area, cylinder_lateral_surface_area, cylinder_volume. cbn [cy_radius]. rewrite EL. rops.
  split; [|split; [|split]].
  - generalize (cylinder_length (N:=RNum) (MkCylinder p v r)). intro L. rops. change (nofZ 2) with 2. rops. ring.
  - generalize (cylinder_length (N:=RNum) (MkCylinder p v r)). intro L. change (nofZ 2) with 2. rops. ring.
  - generalize (cylinder_length (N:=RNum) (MkCylinder p v r)). intro L. rops. ring.
  - assert (PV : pv_ok p v) by (split; [congruence|]; split; auto; intro E; subst; discriminate).
    unfold cylinder_is_point_within. cbn [cy_point cy_vector cy_radius]. rewrite between_move by auto.
    assert (Hl : line_new (N:=RNum) p v = Ok (MkLine (N:=RNum) p v)) by (apply line_new_iff; auto).
    destruct (C75_lines 3 3 s T H pos3 tol_default p v x _ 0 Hl Lp Lx) as (Hl' & _). rn. rewrite Hl, Hl'. cbn [bind].
    destruct (C75_lines 3 3 s T H pos3 tol_default p v x _ 0 Hl Lp Lx) as (_ & _ & _ & _ & Ed & _). rewrite Ed.
    rewrite line_distance_point_R by (auto; congruence). unfold res_map; cbn [bind]. rops. rewrite Rleb_scale by apply Ps. reflexivity.
Qed.
Theorem C75_cylinder_line : forall (p v q e : pt) (r : R) (infinite : bool) c l, cylinder_new (N:=RNum) p v r = Ok c -> line_new (N:=RNum) q e = Ok l -> length q = 3%nat ->
  cylinder_intersect_line (move_cylinder c) (mline l) None infinite = res_map (both T) (cylinder_intersect_line c l None infinite).
Proof.
  intros p v q e r infinite c l Hc Hl Lq. apply cylinder_new_iff in Hc as (-> & K). apply line_new_iff in Hl as (-> & O). pose proof K as (Lp & Lv & Z & P). pose proof O as (L & Ze & _).
  assert (Le : length e = 3%nat) by congruence. pose proof (cyl_move p v r K) as K'. pose proof (pv_move 3 3 s T H pos3 q e Lq O) as O'. pose proof Ps as Pp.
  unfold move_cylinder, move_line, cylinder_intersect_line, line_dim, dim1. cbn [cy_point cy_vector cy_radius l_point l_dir]. rn. rewrite tlen, Lq by auto. cbn [Nat.eqb negb].
  assert (Inf : intersect_infinite (N:=RNum) (MkCylinder (T p) (V v) (s * r)) (MkLine (T q) (V e)) None = res_map (both T) (intersect_infinite (N:=RNum) (MkCylinder p v r) (MkLine q e) None)).
  { rewrite !intersect_infinite_R by (auto; apply tlen; auto). cbv zeta. rewrite qa_move, qb_move, qc_move by auto. set (a := qa v e). set (b := qb p v q e). set (k := qc p v q r).
    replace (s * b * (s * b) - 4 * a * (s * s * k)) with (s * s * (b * b - 4 * a * k)) by ring. assert (0 < s * s) by nra.
    destruct (Req_EM_T a 0) as [A|A]; [reflexivity|]. destruct (Rlt_dec (b * b - 4 * a * k) 0) as [D|D].
    - destruct (Rlt_dec (s * s * (b * b - 4 * a * k)) 0) as [D'|D']; [reflexivity|]. exfalso. apply D'. nra.
    - destruct (Rlt_dec (s * s * (b * b - 4 * a * k)) 0) as [D'|D']; [exfalso; nra|]. rewrite sqrt_scale2 by lra. unfold res_map; cbn [bind]. unfold both. cbn [fst snd]. rewrite <- !at_t_move by auto.
      do 2 f_equal; f_equal; field; lra. }
  destruct infinite; [exact Inf|]. unfold intersect_finite, intersect_caps. cbn [cy_point cy_vector].
  assert (Cap : forall k, intersect_cap (N:=RNum) (MkCylinder (T p) (V v) (s * r)) (MkLine (T q) (V e)) (MkPlane (add (T p) (scale k (V v))) (V v)) =
     res_map (option_map T) (intersect_cap (N:=RNum) (MkCylinder p v r) (MkLine q e) (MkPlane (add p (scale k v)) v))).
  { intro k. rewrite !cap_R by (auto; apply tlen; auto). unfold res_map; cbn [bind]. apply (f_equal (@Ok (option pt))). rewrite dv_move by auto.
    destruct (Req_EM_T (dv v e) 0) as [D|D].
    - destruct (Req_EM_T (s * dv v e) 0) as [D'|D']; [reflexivity|]. exfalso. apply D'. rewrite D. ring.
    - destruct (Req_EM_T (s * dv v e) 0) as [D'|D']; [exfalso; nra|].
      assert (Et : th (T p) (V v) (T q) (V e) (k * dot (V v) (V v)) = s * th p v q e (k * dot v v)).
      { unfold th. rewrite dv_move, (sim_sub 3 3 s T H), !(vmap_dot 3 3 s T H) by (auto; len). field. split; lra. }
      rewrite Et. set (t := th p v q e (k * dot v v)).
      assert (Eq : tube_q (T p) (V v) (T q) (V e) (s * r) (s * t) = s * s * tube_q p v q e r t) by (unfold tube_q; rewrite (qa_move v e), (qb_move p v q e), (qc_move p v q r) by auto; ring). assert (0 < s * s) by nra.
      destruct (Rle_dec (tube_q p v q e r t) 0) as [G|G]; destruct (Rle_dec (tube_q (T p) (V v) (T q) (V e) (s * r) (s * t)) 0) as [G'|G']; try reflexivity; rewrite Eq in G'; [|exfalso; apply G'; nra|exfalso; nra].
      cbn [option_map]. rewrite at_t_move by auto. reflexivity. }
  assert (PV : pv_ok p v) by (split; [congruence|]; split; auto; intro E; subst; discriminate).
  assert (Lpv : length (add p v) = 3%nat) by len.
  assert (PV' : pv_ok (add p v) v) by (split; [congruence|]; split; auto; intro E; rewrite E in Lpv; discriminate).
  pose proof (pv_move 3 3 s T H pos3 p v Lp PV) as PVT. pose proof (pv_move 3 3 s T H pos3 (add p v) v Lpv PV') as PVT'. rewrite (sim_add 3 3 s T H) in PVT' by auto.
  rewrite !(plane_new_R p v), !(plane_new_R (T p) (V v)) by auto. cbn [bind]. rewrite !vadd_R by (rewrite ?tlen, ?vlen; congruence). cbn [bind]. rewrite !(plane_new_R (add p v) v), !(plane_new_R (add (T p) (V v)) (V v)) by auto. cbn [bind].
  pose proof (Cap 0) as C0. rewrite !scale_0 in C0. rewrite vlen, Lv in C0 by auto. rewrite (add_origin_r p), (add_origin_r (T p)) in C0 by (rewrite ?tlen; auto). pose proof (Cap 1) as C1. rewrite !scale_1 in C1.
  rn. rewrite C0, C1.
  destruct (intersect_cap (N:=RNum) (MkCylinder p v r) (MkLine q e) (MkPlane p v)) as [cb| |] eqn:Eb; [|reflexivity|reflexivity].
  destruct (intersect_cap (N:=RNum) (MkCylinder p v r) (MkLine q e) (MkPlane (add p v) v)) as [ct| |] eqn:Et; [|unfold res_map; cbn [bind]; reflexivity|unfold res_map; cbn [bind]; reflexivity].
  unfold res_map at 1 2; cbn [bind]. rn. rewrite Inf.
  destruct (intersect_infinite (N:=RNum) (MkCylinder p v r) (MkLine q e) None) as [[pa pb]| |] eqn:Ei.
  2, 3: destruct cb, ct; reflexivity.
  assert (LL : length pa = 3%nat /\ length pb = 3%nat).
  { rewrite intersect_infinite_R in Ei by auto. cbv zeta in Ei. destruct (Req_EM_T (qa v e) 0); [discriminate|]. destruct (Rlt_dec _ 0); [discriminate|]. injection Ei as <- <-. rewrite !length_at_t by congruence. auto. }
  destruct (between_R p v pa r K) as (ba & Ba & _); [rewrite Lp; apply LL|]. destruct (between_R p v pb r K) as (bb & Bb & _); [rewrite Lp; apply LL|].
  pose proof (between_move p v r pa K (proj1 LL)) as Ba'. pose proof (between_move p v r pb K (proj2 LL)) as Bb'. rewrite Ba in Ba'. rewrite Bb in Bb'.
  destruct cb, ct; cbn [option_map]; try reflexivity; unfold res_map, both; cbn [bind fst snd]; rn; rewrite Ba, Bb, Ba', Bb'; destruct ba, bb; reflexivity.
Qed.
End S.
Print Assumptions C75_cylinder_new.
Print Assumptions C75_cylinder_from_points.
Print Assumptions C75_cylinders.
Print Assumptions C75_cylinder_line.
