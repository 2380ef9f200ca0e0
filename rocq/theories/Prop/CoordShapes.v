(** * Property C75, continued: pairs of lines, segments, balls, triangles, measurements *)
From Coq Require Import String Reals List ZArith Lra Lia Psatz Bool.
From Verif.Model Require Import Outcome Num Instances Numpy BaseArray Vector Points Functions Line Plane LineSegment Sphere Triangle Cylinder.
From Verif.Spec Require Import Geometry Tolerance Mesh Linalg Triangle Similarity.
From Verif.Proof Require Import VecAlg Bridge Arrays Vectors Points Lines Lincomb Svd SvdExists Ranks Singular Similarity SimRank Triangles Cylinders.
From Verif.Prop Require Import Vectors Points Planes LinePairs Segments Balls Spheres Triangles Measure Cylinders Coordinates.
Import ListNotations.
Local Open Scope R_scope.
Local Open Scope string_scope.

(** The parameter of the nearest point in terms of scalar products only. *)
Lemma lagrange4 (a b c d : pt) : length a = 3%nat -> length b = 3%nat -> length c = 3%nat -> length d = 3%nat ->
  dot (cross_spec a b) (cross_spec c d) = dot a c * dot b d - dot a d * dot b c.
Proof. intros. d3. unfold cross_spec, dot. simpl. ring. Qed.
Lemma par_a_gram w d e : length w = length d -> length e = length d -> (length d <= 3)%nat ->
  par_a w d e = (dot w d * dot e e - dot w e * dot e d) / gram d e.
Proof.
  intros Lw Le L3. unfold par_a, nrm, gram. rewrite !lagrange4 by len. rewrite !dot_pad by congruence. rewrite (dot_comm e d). reflexivity.
Qed.

Section S.
Context (n m : nat) (s : R) (T : pt -> pt) (H : similarity n m s T) (Hn : (0 < n)%nat).
Notation V := (vmap n T).
Local Notation Ps := (sim_pos n m s T H).
Local Notation tlen := (sim_len n m s T H).
Local Notation vlen := (vmap_len n m s T H).
Local Notation mline := (move_line n T).
Local Notation ne := (ne n Hn).
Local Notation Tne := (Tne n m s T H Hn).
Local Notation Vne := (Vne n m s T H Hn).
Local Notation Vz := (Vz n m s T H).

Lemma gram_vmap u v : length u = n -> length v = n -> gram (V u) (V v) = s * s * s * s * gram u v.
Proof. intros Lu Lv. unfold gram. rewrite !(vmap_dot n m s T H) by auto. ring. Qed.
Lemma tol_of_parallel (t : tol RNum) (u v : pt) b : length u = length v -> is_parallel t u v = Ok b -> tol_ok t.
Proof.
  intros L E. apply Classical_Prop.NNPP. intro Nt. unfold is_parallel, por, is_zero in E.
  rewrite np_dot_R in E by auto. cbn [bind] in E. rewrite isclose_neg in E by auto. discriminate.
Qed.
(** ** Pairs of lines *)
Theorem C75_intersect_line : forall (LA LA' : linalg RNum) (t : tol RNum) check (p d q e : pt) (l l' : line RNum), abs_tol t = 0 -> svd_correct LA -> svd_correct LA' ->
  line_new (N:=RNum) p d = Ok l -> line_new (N:=RNum) q e = Ok l' -> length p = n -> length q = n -> (n <= 3)%nat -> (m <= 3)%nat -> m = n \/ check = false ->
  line_intersect_line LA' t check (mline l) (mline l') = res_map T (line_intersect_line LA t check l l').
Proof.
  intros LA LA' t check p d q e l l' Ha HL HL' Hl Hl' Lp Lq N3 M3 Hm.
  destruct (C75_line_pairs_tests n m s T H Hn LA LA' t None p d q e l l' Ha HL HL' I Hl Hl' Lp Lq) as (_ & Ec).
  apply line_new_iff in Hl as (-> & O). apply line_new_iff in Hl' as (-> & O').
  pose proof O as (L & Z & _). pose proof O' as (L' & Z' & _). assert (Ld : length d = n) by congruence. assert (Le : length e = n) by congruence.
  pose proof (pv_move n m s T H Hn p d Lp O) as OT. pose proof (pv_move n m s T H Hn q e Lq O') as OT'. pose proof Ps as P.
  unfold move_line in *. cbn [l_point l_dir] in *.
  assert (Epar : is_parallel t (V d) (V e) = is_parallel t d e) by (apply (is_parallel_vmap n m s T H Hn); auto).
  destruct (is_parallel t d e) as [[|]| |] eqn:Ep.
  - unfold line_intersect_line, line_dim, dim1. cbn [l_point l_dir]. rn. rewrite Epar, Ep, Lp, Lq, !tlen by auto. rewrite !Nat.eqb_refl. cbn [negb].
    destruct (Nat.ltb_spec 3 n); [lia|]. destruct (Nat.ltb_spec 3 m); [lia|]. reflexivity.
  - assert (Ht : tol_ok t) by (eapply (tol_of_parallel t d e); [congruence|exact Ep]).
    assert (Hc : check = true -> line_is_coplanar LA' None (MkLine (N:=RNum) (T p) (V d)) (MkLine (N:=RNum) (T q) (V e)) = line_is_coplanar LA None (MkLine (N:=RNum) p d) (MkLine (N:=RNum) q e)).
    { intros ->. destruct Hm as [Hm|Hm]; [|discriminate]. apply Ec. auto. }
    assert (Main : (check = true -> line_is_coplanar LA None (MkLine (N:=RNum) p d) (MkLine (N:=RNum) q e) = Ok true) ->
       line_intersect_line LA' t check (MkLine (N:=RNum) (T p) (V d)) (MkLine (N:=RNum) (T q) (V e)) = res_map T (line_intersect_line LA t check (MkLine (N:=RNum) p d) (MkLine (N:=RNum) q e))).
    { intro K. rewrite !intersect_core; auto; try congruence; try (rewrite !tlen; auto; fail); try (intro X; rewrite ?(Hc X); auto; fail). unfold res_map; cbn [bind].
      rewrite (sim_along n m s T H) by auto. apply (f_equal (@Ok pt)). do 2 f_equal.
      rewrite (sim_sub n m s T H) by auto. rewrite !par_a_gram by (rewrite ?vlen; auto; try lia; len). rewrite gram_vmap, !(vmap_dot n m s T H) by (auto; len).
      assert (G : gram d e <> 0). { intro G. apply gram_zero in G; [|congruence]. revert G. apply (not_parallel_independent t d e); auto; [exact (eq_trans Ld (eq_sym Le))|apply ne; auto]. }
      field. split; auto. lra. }
    destruct check; [|apply Main; discriminate].
    destruct (line_is_coplanar LA None (MkLine (N:=RNum) p d) (MkLine (N:=RNum) q e)) as [[|]| |] eqn:Eq; [apply Main; auto| | |];
      (unfold line_intersect_line, line_dim, dim1; cbn [l_point l_dir]; rn; rewrite Epar, Ep, (Hc eq_refl), Eq, Lp, Lq, !tlen by auto; rewrite !Nat.eqb_refl; cbn [negb];
       destruct (Nat.ltb_spec 3 n); [lia|]; destruct (Nat.ltb_spec 3 m); [lia|]; reflexivity).
  - unfold line_intersect_line, line_dim, dim1. cbn [l_point l_dir]. rn. rewrite Epar, Ep, Lp, Lq, !tlen by auto. rewrite !Nat.eqb_refl. cbn [negb].
    destruct (Nat.ltb_spec 3 n); [lia|]. destruct (Nat.ltb_spec 3 m); [lia|]. reflexivity.
  - unfold line_intersect_line, line_dim, dim1. cbn [l_point l_dir]. rn. rewrite Epar, Ep, Lp, Lq, !tlen by auto. rewrite !Nat.eqb_refl. cbn [negb].
    destruct (Nat.ltb_spec 3 n); [lia|]. destruct (Nat.ltb_spec 3 m); [lia|]. reflexivity.
Qed.
Theorem C75_distance_line : forall (LA LA' : linalg RNum) (p d q e : pt) (l l' : line RNum), svd_correct LA -> svd_correct LA' ->
  line_new (N:=RNum) p d = Ok l -> line_new (N:=RNum) q e = Ok l' -> length p = n -> length q = n -> (n <= 3)%nat -> m = n ->
  line_distance_line LA' (mline l) (mline l') = res_map (Rmult s) (line_distance_line LA l l').
Proof.
  intros LA LA' p d q e l l' HL HL' Hl Hl' Lp Lq N3 Hm. pose proof Hl as Hl0. pose proof Hl' as Hl0'.
  destruct (C75_line_pairs_tests n m s T H Hn LA LA' tol_default None p d q e l l' abs_default_eq HL HL' I Hl Hl' Lp Lq) as (_ & Ec). specialize (Ec (or_introl Hm)).
  destruct (C75_lines n m s T H Hn tol_default p d q l 0 Hl Lp Lq) as (HT & _ & _ & _ & Ed & _).
  destruct (C75_lines n m s T H Hn tol_default q e p l' 0 Hl' Lq Lp) as (HT' & _).
  apply line_new_iff in Hl as (-> & O). apply line_new_iff in Hl' as (-> & O').
  pose proof O as (L & Z & _). pose proof O' as (L' & Z' & _). assert (Ld : length d = n) by congruence. assert (Le : length e = n) by congruence. pose proof Ps as P.
  assert (Epar : is_parallel (N:=RNum) tol_default (V d) (V e) = is_parallel tol_default d e) by (apply (is_parallel_vmap n m s T H Hn); auto; apply abs_default_eq).
  unfold move_line in *. cbn [l_point l_dir option_map] in *.
  destruct (is_parallel_R tol_default d e tol_default_ok) as ([|] & Ep & _); [exact (eq_trans Ld (eq_sym Le))|apply ne; auto| |].
  - unfold line_distance_line. cbn [l_point l_dir]. rn. rewrite Epar, Ep. cbn [bind]. exact Ed.
  - destruct (line_is_coplanar LA None (MkLine (N:=RNum) p d) (MkLine (N:=RNum) q e)) as [[|]| |] eqn:Eq.
    + unfold line_distance_line. cbn [l_point l_dir]. rn. rewrite Epar, Ep. cbn [bind]. rn. rewrite Ec, Eq. unfold res_map; cbn [bind]. rops. rewrite Rmult_0_r. reflexivity.
    + destruct (Nat.eq_dec n 3) as [E3|E3].
      * destruct (C32_skew_lines LA p d q e _ _ Hl0 Hl0' (eq_trans Lp E3) (eq_trans Lq E3) Ep Eq) as (r & Er & Dr).
        assert (T3 : forall x, length x = n -> length (T x) = 3%nat) by (intros x Lx; rewrite tlen by auto; congruence).
        destruct (C32_skew_lines LA' (T p) (V d) (T q) (V e) _ _ HT HT' (T3 p Lp) (T3 q Lq) (eq_trans Epar Ep) (eq_trans Ec Eq)) as (r' & Er' & Dr').
        rn. rewrite Er, Er'. unfold res_map; cbn [bind]. f_equal. eapply line_distance_unique; [exact Dr'|].
        destruct Dr as ((x & y & X & Y & Exy) & Dm). assert (Lx : length x = n) by (apply on_line_length in X; congruence). assert (Ly : length y = n) by (apply on_line_length in Y; congruence). split.
        { exists (T x), (T y). split; [apply (sim_on_line n m s T H); auto|]. split; [apply (sim_on_line n m s T H); auto|]. rewrite (sim_dist n m s T H) by auto. congruence. }
        intros a b A B. apply (sim_on_line_img n m s T H) in A as (x' & Lx' & -> & A); auto. apply (sim_on_line_img n m s T H) in B as (y' & Ly' & -> & B); auto.
        rewrite (sim_dist n m s T H) by auto. apply Rmult_le_compat_l; [lra|]. apply Dm; auto.
      * exfalso. assert (C : line_is_coplanar LA None (MkLine (N:=RNum) p d) (MkLine (N:=RNum) q e) = Ok true).
        { assert (Lqp : length q = length p) by (rewrite Lq, Lp; reflexivity). apply (C30_coplanar_accepted LA None p d q e _ _ HL I Hl0 Hl0' Lqp). apply low_dim_coplanar; auto. rewrite Lp. lia. }
        rewrite C in Eq. discriminate.
    + unfold line_distance_line. cbn [l_point l_dir]. rn. rewrite Epar, Ep. cbn [bind]. rn. rewrite Ec, Eq. reflexivity.
    + unfold line_distance_line. cbn [l_point l_dir]. rn. rewrite Epar, Ep. cbn [bind]. rn. rewrite Ec, Eq. reflexivity.
Qed.

Lemma intersect_tol (LA : linalg RNum) (t : tol RNum) check (p d q e x : pt) : length d = length e -> line_intersect_line LA t check (MkLine (N:=RNum) p d) (MkLine (N:=RNum) q e) = Ok x -> tol_ok t.
Proof.
  intros L E. unfold line_intersect_line in E. cbn [l_point l_dir] in E. destruct (negb _); [discriminate E|]. destruct (_ || _)%bool; [discriminate E|].
  apply bind_ok_inv in E as (par & Ep & _). exact (tol_of_parallel t d e par L Ep).
Qed.
(** ** Line segments *)
Definition move_segment (g : segment RNum) : segment RNum := MkSegment (N:=RNum) (T (s_a g)) (T (s_b g)).
Theorem C75_segment_contains : forall (t : tol RNum) (a b q : pt), abs_tol t = 0 -> length a = n -> length b = n -> length q = n ->
  segment_contains_point t (move_segment (MkSegment (N:=RNum) a b)) (T q) = segment_contains_point t (MkSegment (N:=RNum) a b) q.
Proof.
  intros t a b q Ha La Lb Lq. unfold segment_contains_point, move_segment. cbn [s_a s_b].
  rewrite !from_points_R by (auto using Tne, ne; rewrite ?tlen; congruence). cbn [bind]. rewrite !(sim_sub n m s T H) by auto. unfold por.
  rewrite !(is_zero_vmap0 n m s T H) by (auto; len). rewrite (cosine_sim_vmap n m s T H Hn) by (auto; len). reflexivity.
Qed.
(** Segments that exist in both coordinate systems intersect in corresponding points. *)
Theorem C75_segment_intersect : forall (LA LA' : linalg RNum) (t : tol RNum) check (a b c d : pt) g g', abs_tol t = 0 -> svd_correct LA -> svd_correct LA' ->
  length a = n -> length b = n -> length c = n -> length d = n -> (n <= 3)%nat -> (m <= 3)%nat -> m = n \/ check = false ->
  segment_new (N:=RNum) a b = Ok g -> segment_new (N:=RNum) c d = Ok g' ->
  segment_intersect_segment LA' t check (move_segment g) (move_segment g') = res_map T (segment_intersect_segment LA t check g g').
Proof.
  intros LA LA' t check a b c d g g' Ha HL HL' La Lb Lc Ld N3 M3 Hm Hg Hg'.
  apply segment_ne in Hg as (-> & Na & Nab & O); [|congruence]. apply segment_ne in Hg' as (-> & Nc & Ncd & O'); [|congruence].
  unfold segment_intersect_segment. assert (Lba : length (sub b a) = n) by len. assert (Ldc : length (sub d c) = n) by len.
  pose proof (pv_move n m s T H Hn a (sub b a) La O) as OT. pose proof (pv_move n m s T H Hn c (sub d c) Lc O') as OT'.
  cbn [move_segment s_a s_b]. rewrite !line_from_points_R by (rewrite ?tlen, ?(sim_sub n m s T H) by auto; auto; congruence). cbn [bind]. rewrite !(sim_sub n m s T H) by auto.
  assert (E : line_intersect_line LA' t check (MkLine (N:=RNum) (T a) (V (sub b a))) (MkLine (N:=RNum) (T c) (V (sub d c))) = res_map T (line_intersect_line LA t check (MkLine (N:=RNum) a (sub b a)) (MkLine (N:=RNum) c (sub d c)))).
  { apply (C75_intersect_line LA LA' t check a (sub b a) c (sub d c) (MkLine (N:=RNum) a (sub b a)) (MkLine (N:=RNum) c (sub d c))); auto; apply line_new_iff; auto. }
  rn. rewrite E. clear E. destruct (line_intersect_line LA t check (MkLine (N:=RNum) a (sub b a)) (MkLine (N:=RNum) c (sub d c))) as [x| |] eqn:Ex; [|reflexivity|reflexivity].
  unfold res_map; cbn [bind].
  assert (Lx : length x = n).
  { assert (Ht : tol_ok t) by (apply (intersect_tol LA t check a (sub b a) c (sub d c) x); [congruence|exact Ex]).
    destruct (C31_result_sound LA t check a (sub b a) c (sub d c) _ _ x (proj1 Ht) (proj2 Ht) (proj2 (line_new_iff _ _ _) (conj eq_refl O)) (proj2 (line_new_iff _ _ _) (conj eq_refl O')) Ex) as (_ & _ & X & _).
    exact (eq_trans (on_line_length a (sub b a) x (eq_trans La (eq_sym Lba)) X) La). }
  rewrite !(C75_segment_contains tol_default) by (auto; apply abs_default_eq). rn.
  destruct (segment_contains_point tol_default (MkSegment (N:=RNum) a b) x) as [u| |]; try reflexivity. cbn [bind].
  destruct (segment_contains_point tol_default (MkSegment (N:=RNum) c d) x) as [v| |]; try reflexivity. cbn [bind]. destruct (negb (u && v)); reflexivity.
Qed.
End S.
Print Assumptions C75_intersect_line.
Print Assumptions C75_distance_line.
Print Assumptions C75_segment_contains.
Print Assumptions C75_segment_intersect.
