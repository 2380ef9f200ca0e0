(** * Properties C30-C32: Line.is_coplanar, Line.intersect_line, Line.distance_line *)
From Coq Require Import String Reals List ZArith Lra Lia Psatz Bool.
From Verif.Model Require Import Outcome Num Instances Numpy BaseArray Vector Points Functions Line Plane.
From Verif.Spec Require Import Geometry Tolerance Mesh Linalg.
From Verif.Proof Require Import VecAlg Bridge Arrays Vectors Points Lines Lincomb Svd Ranks SvdExists.
From Verif.Prop Require Import Directions Lines Ranks Planes.
Import ListNotations.
Local Open Scope R_scope.

Lemma line_to_point_R (p d : pt) (t : R) : length p = length d -> line_to_point (N:=RNum) (MkLine p d) t = Ok (add p (scale t d)).
Proof. intro L. unfold line_to_point. cbn [l_dir l_point]. rewrite vmuls_R. cbn [bind]. apply vadd_R. len. Qed.

Definition four (p d q e : pt) : list pt := [p; add p (scale 1 d); q; add q (scale 1 e)].
Lemma four_ok p d q e : pv_ok p d -> pv_ok q e -> length q = length p -> points_ok (length p) (four p d q e).
Proof.
  intros (L & Hz & Hp) (L' & Hz' & Hp') Lq. split; [discriminate|]. split; [destruct p; [contradiction|simpl; lia]|].
  unfold four. repeat constructor; len.
Qed.
Lemma four_coplanar p d q e : pv_ok p d -> pv_ok q e -> length q = length p ->
  (coplanar (four p d q e) <-> lines_coplanar p d q e).
Proof.
  intros (L & Hz & Hp) (L' & Hz' & Hp') Lq. split.
  - intros (o & u & v & Lu & Lv & H).
    destruct (H p) as (s1 & t1 & E1); [simpl; auto|]. destruct (H (add p (scale 1 d))) as (s2 & t2 & E2); [simpl; auto|].
    destruct (H q) as (s3 & t3 & E3); [simpl; auto|]. destruct (H (add q (scale 1 e))) as (s4 & t4 & E4); [simpl; auto|].
    assert (Lo : length o = length p) by (rewrite E1; len).
    exists o, u, v. split; auto. split; [congruence|]. split; [congruence|].
    assert (K : forall a b, length a = length b -> length a = length p -> forall s t s' t' r, a = add (add o (scale s u)) (scale t v) -> add a (scale 1 b) = add (add o (scale s' u)) (scale t' v) ->
      add a (scale r b) = add (add o (scale (s + r * (s' - s)) u)) (scale (t + r * (t' - t)) v)).
    { intros a b Lab La s t s' t' r Ea Eb. apply pt_ext; [len|]. intros i Hi.
      assert (N1 : nth i a 0 = nth i o 0 + s * nth i u 0 + t * nth i v 0) by (rewrite Ea; repeat rewrite ?nth_add, ?nth_scale by len; ring).
      assert (N2 : nth i a 0 + nth i b 0 = nth i o 0 + s' * nth i u 0 + t' * nth i v 0).
      { apply (f_equal (fun w => nth i w 0)) in Eb. repeat rewrite ?nth_add, ?nth_scale in Eb by len. lra. }
      repeat rewrite ?nth_add, ?nth_scale by len. replace (nth i b 0) with (nth i o 0 + s' * nth i u 0 + t' * nth i v 0 - nth i a 0) by lra. rewrite N1. ring. }
    intros x [[r ->]|[r ->]]; do 2 eexists; eapply K; eauto; congruence.
  - intros (o & u & v & Lo & Lu & Lv & H). exists o, u, v. split; [congruence|]. split; [congruence|].
    intros x Hx. apply H. unfold four in Hx. destruct Hx as [<-|[<-|[<-|[<-|[]]]]].
    + left. apply on_line_base; auto.
    + left. exists 1. reflexivity.
    + right. apply on_line_base; auto.
    + right. exists 1. reflexivity.
Qed.
Lemma is_coplanar_R LA tolerance p d q e : pv_ok p d -> pv_ok q e -> length q = length p ->
  line_is_coplanar (N:=RNum) LA tolerance (MkLine p d) (MkLine q e) = are_coplanar LA tolerance (four p d q e).
Proof.
  intros H H' Lq. unfold line_is_coplanar. destruct (four_ok p d q e H H' Lq) as (Hn & Hd & F). pose proof H as (L & _). pose proof H' as (L' & _).
  change (n1 (n:=RNum)) with 1. rewrite !line_to_point_R by auto. cbn [bind l_point]. change [p; add p (scale 1 d); q; add q (scale 1 e)] with (four p d q e).
  rewrite (points_of_R _ (length p)) by auto. reflexivity.
Qed.

(** ** C30  is_coplanar *)
Theorem C30_coplanar_accepted : forall LA tolerance p d q e l m, svd_correct LA -> tol_nonneg tolerance ->
  line_new (N:=RNum) p d = Ok l -> line_new (N:=RNum) q e = Ok m -> length q = length p ->
  lines_coplanar p d q e -> line_is_coplanar_obj LA tolerance l (LineObj m) = Ok true.
Proof.
  intros LA tolerance p d q e l m HL Ht Hl Hm Lq C. apply line_new_iff in Hl as (-> & H), Hm as (-> & H'). cbn [line_is_coplanar_obj].
  rewrite is_coplanar_R by auto. apply (C23_true_configurations LA (length p)); auto; [apply four_ok; auto|]. apply four_coplanar; auto.
Qed.
Print Assumptions C30_coplanar_accepted.

(** Lines with a common point, and parallel lines, are coplanar. *)
Lemma meeting_coplanar p d q e x : pv_ok p d -> pv_ok q e -> length q = length p -> on_line p d x -> on_line q e x -> lines_coplanar p d q e.
Proof.
  intros (L & Hz & Hp) (L' & Hz' & Hp') Lq [s ->] [t Et]. exists (add p (scale s d)), d, e. split; [len|]. split; [congruence|]. split; [congruence|].
  intros y [[r ->]|[r ->]].
  - exists (r - s), 0. apply pt_ext; [len|]. intros i _. repeat rewrite ?nth_add, ?nth_scale by len. ring.
  - exists 0, (r - t). rewrite Et. apply pt_ext; [len|]. intros i _. repeat rewrite ?nth_add, ?nth_scale by len. ring.
Qed.
Lemma parallel_coplanar p d q e : pv_ok p d -> pv_ok q e -> length q = length p -> dependent d e -> lines_coplanar p d q e.
Proof.
  intros (L & Hz & Hp) (L' & Hz' & Hp') Lq D. apply dependent_sym in D. apply dependent_nonzero in D as (s & Hs); auto; [|congruence].
  exists p, d, (sub q p). split; auto. split; auto. split; [len|]. intros y [[r ->]|[r ->]].
  - exists r, 0. apply pt_ext; [len|]. intros i _. repeat rewrite ?nth_add, ?nth_scale, ?nth_sub by len. ring.
  - exists (r * s), 1. rewrite Hs. apply pt_ext; [len|]. intros i _. repeat rewrite ?nth_add, ?nth_scale, ?nth_sub by len. ring.
Qed.
Theorem C30_meeting_or_parallel_accepted : forall LA tolerance p d q e l m, svd_correct LA -> tol_nonneg tolerance ->
  line_new (N:=RNum) p d = Ok l -> line_new (N:=RNum) q e = Ok m -> length q = length p ->
  (exists x, on_line p d x /\ on_line q e x) \/ dependent d e -> line_is_coplanar_obj LA tolerance l (LineObj m) = Ok true.
Proof.
  intros LA tolerance p d q e l m HL Ht Hl Hm Lq C. pose proof Hl as Hl'. pose proof Hm as Hm'. apply line_new_iff in Hl' as (_ & H), Hm' as (_ & H').
  eapply C30_coplanar_accepted; eauto. destruct C as [(x & H1 & H2)|D]; [eapply meeting_coplanar; eauto|apply parallel_coplanar; auto].
Qed.
Print Assumptions C30_meeting_or_parallel_accepted.

Theorem C30_zero_tolerance_exact : forall LA p d q e l m, svd_correct LA ->
  line_new (N:=RNum) p d = Ok l -> line_new (N:=RNum) q e = Ok m -> length q = length p ->
  exists b, line_is_coplanar_obj LA (Some 0) l (LineObj m) = Ok b /\ (b = true <-> lines_coplanar p d q e).
Proof.
  intros LA p d q e l m HL Hl Hm Lq. apply line_new_iff in Hl as (-> & H), Hm as (-> & H'). cbn [line_is_coplanar_obj]. rewrite is_coplanar_R by auto.
  destruct (C23_zero_tolerance_exact LA (length p) (four p d q e) HL (four_ok p d q e H H' Lq)) as (_ & _ & c & _ & _ & E & _ & _ & K).
  exists c. split; auto. rewrite K. apply four_coplanar; auto.
Qed.
Print Assumptions C30_zero_tolerance_exact.

Theorem C30_symmetric : forall LA tolerance p d q e l m,
  line_new (N:=RNum) p d = Ok l -> line_new (N:=RNum) q e = Ok m -> length q = length p ->
  line_is_coplanar LA tolerance l m = line_is_coplanar LA tolerance m l.
Proof.
  intros LA tolerance p d q e l m Hl Hm Lq. apply line_new_iff in Hl as (-> & H), Hm as (-> & H'). rewrite !is_coplanar_R by auto.
  apply (C23_depends_on_set LA tolerance (length p)).
  - rewrite <- Lq. apply four_ok; auto.
  - apply four_ok; auto.
  - intro x. unfold four. simpl. tauto.
Qed.
Print Assumptions C30_symmetric.

Theorem C30_type_error : forall (N : Num) (LA : linalg N) tolerance l pl, exists m, line_is_coplanar_obj LA tolerance l (PlaneObj pl) = Raise (TypeError m).
Proof. intros. eexists; reflexivity. Qed.
Print Assumptions C30_type_error.

Theorem C30_dimension_mismatch : forall LA tolerance p d q e l m,
  line_new (N:=RNum) p d = Ok l -> line_new (N:=RNum) q e = Ok m -> length q <> length p ->
  exists msg, line_is_coplanar LA tolerance l m = Raise (ValueError msg).
Proof.
  intros LA tolerance p d q e l m Hl Hm Lq. apply line_new_iff in Hl as (-> & H), Hm as (-> & H'). pose proof H as (L & _). pose proof H' as (L' & _).
  unfold line_is_coplanar. change (n1 (n:=RNum)) with 1. rewrite !line_to_point_R by auto. cbn [bind l_point].
  unfold points_of, array2d_new. destruct (shape (nd_of_rows _)) as [s|] eqn:E; [|cbn; eexists; reflexivity].
  apply (shape_nd_of_rows_inv (N:=RNum)) in E as [E|(_ & k & F & _)]; [discriminate|]. exfalso. rewrite Forall_forall in F. apply Lq. rn. rewrite (F q), (F p) by (simpl; auto). reflexivity.
Qed.
Print Assumptions C30_dimension_mismatch.

(** ** Two non-parallel coplanar lines meet (any dimension) *)
Lemma coplanar_meet p d q e : pv_ok p d -> pv_ok q e -> length q = length p -> lines_coplanar p d q e -> ~ dependent d e ->
  exists x, on_line p d x /\ on_line q e x.
Proof.
  intros H H' Lq C D. pose proof H as (L & Hz & Hp). pose proof H' as (L' & Hz' & Hp').
  apply four_coplanar in C; auto. destruct C as (o & u & v & Lu & Lv & C).
  destruct (C p) as (s1 & t1 & E1); [simpl; auto|]. destruct (C (add p (scale 1 d))) as (s2 & t2 & E2); [simpl; auto|].
  destruct (C q) as (s3 & t3 & E3); [simpl; auto|]. destruct (C (add q (scale 1 e))) as (s4 & t4 & E4); [simpl; auto|].
  assert (Lo : length o = length p) by (rewrite E1; len).
  assert (Nd : forall i, nth i d 0 = (s2 - s1) * nth i u 0 + (t2 - t1) * nth i v 0).
  { intro i. apply (f_equal (fun w => nth i w 0)) in E1, E2. repeat rewrite ?nth_add, ?nth_scale in E1 by len. repeat rewrite ?nth_add, ?nth_scale in E2 by len. lra. }
  assert (Ne : forall i, nth i e 0 = (s4 - s3) * nth i u 0 + (t4 - t3) * nth i v 0).
  { intro i. apply (f_equal (fun w => nth i w 0)) in E3, E4. repeat rewrite ?nth_add, ?nth_scale in E3 by len. repeat rewrite ?nth_add, ?nth_scale in E4 by len. lra. }
  assert (Nw : forall i, nth i q 0 - nth i p 0 = (s3 - s1) * nth i u 0 + (t3 - t1) * nth i v 0).
  { intro i. apply (f_equal (fun w => nth i w 0)) in E1, E3. repeat rewrite ?nth_add, ?nth_scale in E1 by len. repeat rewrite ?nth_add, ?nth_scale in E3 by len. lra. }
  set (D1 := s2 - s1) in *. set (D2 := t2 - t1) in *. set (F1 := s4 - s3) in *. set (F2 := t4 - t3) in *. set (W1 := s3 - s1) in *. set (W2 := t3 - t1) in *.
  destruct (Req_dec (D1 * F2 - D2 * F1) 0) as [Z|Z].
  - exfalso. apply D.
    assert (K : forall i, F1 * nth i d 0 = D1 * nth i e 0 /\ F2 * nth i d 0 = D2 * nth i e 0).
    { intro i. rewrite Nd, Ne. split; apply Rminus_diag_uniq; [transitivity (- (D1 * F2 - D2 * F1) * nth i v 0)|transitivity ((D1 * F2 - D2 * F1) * nth i u 0)]; try ring; rewrite Z; ring. }
    destruct (Req_dec F1 0) as [Z1|Z1].
    + destruct (Req_dec F2 0) as [Z2|Z2].
      * exfalso. apply Hz'. unfold is_zero_vec. apply pt_ext; [rewrite length_origin; auto|]. intros i _. rewrite nth_origin, Ne, Z1, Z2. ring.
      * left. exists (D2 / F2). apply pt_ext; [len|]. intros i _. rewrite nth_scale. destruct (K i) as [_ K2].
        apply Rmult_eq_reg_l with F2; auto. rewrite K2. field. auto.
    + left. exists (D1 / F1). apply pt_ext; [len|]. intros i _. rewrite nth_scale. destruct (K i) as [K1 _].
      apply Rmult_eq_reg_l with F1; auto. rewrite K1. field. auto.
  - set (a := (W1 * F2 - W2 * F1) / (D1 * F2 - D2 * F1)). set (b := (D1 * W2 - D2 * W1) / (D1 * F2 - D2 * F1)).
    exists (add p (scale a d)). split; [exists a; auto|]. exists (- b). apply pt_ext; [len|]. intros i _. repeat rewrite ?nth_add, ?nth_scale by len.
    assert (nth i q 0 = nth i p 0 + (W1 * nth i u 0 + W2 * nth i v 0)) by (rewrite <- Nw; ring). rewrite H0, Nd, Ne. unfold a, b. field. auto.
Qed.

(** ** The closest points of two lines in dimension <= 3 *)
Definition nrm (d e : pt) : pt := cross_spec (pad_to 3 d) (pad_to 3 e).
Definition par_a (w d e : pt) : R := dot (cross_spec (pad_to 3 w) (pad_to 3 e)) (nrm d e) / dot (nrm d e) (nrm d e).
Definition par_b (w d e : pt) : R := dot (cross_spec (pad_to 3 d) (pad_to 3 w)) (nrm d e) / dot (nrm d e) (nrm d e).
Definition par_c (w d e : pt) : R := dot (pad_to 3 w) (nrm d e) / dot (nrm d e) (nrm d e).
Lemma nrm_facts d e : length d = length e -> (length d <= 3)%nat -> ~ dependent d e ->
  length (nrm d e) = 3%nat /\ 0 < dot (nrm d e) (nrm d e) /\ dot (pad_to 3 d) (nrm d e) = 0 /\ dot (pad_to 3 e) (nrm d e) = 0.
Proof.
  intros L L3 D. split; [apply length_cross; len|]. split; [apply dot_self_pos, pad_cross_nonzero; auto|].
  split; rewrite dot_comm; [apply cross_dot_l|apply cross_dot_r]; len.
Qed.
Lemma decompose w d e : length w = length d -> length d = length e -> (length d <= 3)%nat -> ~ dependent d e ->
  pad_to 3 w = add (add (scale (par_a w d e) (pad_to 3 d)) (scale (par_b w d e) (pad_to 3 e))) (scale (par_c w d e) (nrm d e)).
Proof.
  intros Lw L L3 D. destruct (nrm_facts d e L L3 D) as (Ln & P & _ & _). unfold par_a, par_b, par_c. set (c := nrm d e) in *.
  assert (E : scale (dot c c) (pad_to 3 w) = add (add (scale (dot (cross_spec (pad_to 3 w) (pad_to 3 e)) c) (pad_to 3 d)) (scale (dot (cross_spec (pad_to 3 d) (pad_to 3 w)) c) (pad_to 3 e))) (scale (dot (pad_to 3 w) c) c)).
  { unfold c, nrm. assert (L1 : length (pad_to 3 w) = 3%nat) by len. assert (L2 : length (pad_to 3 d) = 3%nat) by len. assert (L4 : length (pad_to 3 e) = 3%nat) by len.
    generalize dependent (pad_to 3 w). generalize dependent (pad_to 3 d). generalize dependent (pad_to 3 e). clear. intros b Lb a La w Lw. d3. unfold cross_spec, scale, dot, add. simpl. veq. }
  apply (f_equal (scale (/ dot c c))) in E. rewrite scale_scale, Rinv_l, scale_1 in E by lra. eapply eq_trans; [exact E|].
  rewrite !scale_add, !scale_scale. unfold Rdiv. rewrite !(Rmult_comm (/ dot c c)). reflexivity.
Qed.
Lemma pad_add n a b : length a = length b -> pad_to n (add a b) = add (pad_to n a) (pad_to n b).
Proof.
  intro H. replace b with (scale (-1) (scale (-1) b)) by (rewrite scale_scale; replace (-1 * -1) with 1 by ring; apply scale_1).
  set (b' := scale (-1) b). assert (L : length a = length b') by (unfold b'; len).
  rewrite pad_scale, <- !sub_scale by len. apply pad_sub. auto.
Qed.
Lemma pad_len n a : len (pad_to n a) = len a.
Proof. unfold len. rewrite pad_dot by auto. reflexivity. Qed.
Lemma pad_inj n a b : length a = length b -> pad_to n a = pad_to n b -> a = b.
Proof. intros L E. unfold pad_to in E. apply (f_equal (firstn (length a))) in E. rewrite firstn_app, Nat.sub_diag, firstn_all, firstn_O, app_nil_r in E. rewrite L, firstn_app, Nat.sub_diag, firstn_all, firstn_O, app_nil_r in E. auto. Qed.

(** The difference of any two points of the lines, in padded coordinates. *)
Lemma line_pair_diff p d q e s t : pv_ok p d -> pv_ok q e -> length q = length p -> (length p <= 3)%nat -> ~ dependent d e ->
  let w := sub q p in
  pad_to 3 (sub (add q (scale t e)) (add p (scale s d))) =
    add (add (scale (par_a w d e - s) (pad_to 3 d)) (scale (par_b w d e + t) (pad_to 3 e))) (scale (par_c w d e) (nrm d e)).
Proof.
  intros (L & Hz & Hp) (L' & Hz' & Hp') Lq L3 D w.
  assert (E : sub (add q (scale t e)) (add p (scale s d)) = add w (add (scale t e) (scale (- s) d))).
  { unfold w. apply pt_ext; [len|]. intros i _. repeat rewrite ?nth_add, ?nth_scale, ?nth_sub by len. ring. }
  rewrite E, !pad_add by (unfold w; len). rewrite !pad_scale. rewrite (decompose w d e) at 1; [|unfold w; len|congruence|lia|auto].
  destruct (nrm_facts d e) as (Ln & _); [congruence|lia|auto|].
  apply pt_ext; [len|]. intros i _. repeat rewrite ?nth_add, ?nth_scale by len. ring.
Qed.
Lemma line_pair_distance p d q e : pv_ok p d -> pv_ok q e -> length q = length p -> (length p <= 3)%nat -> ~ dependent d e ->
  let w := sub q p in
  dist (add p (scale (par_a w d e) d)) (add q (scale (- par_b w d e) e)) = Rabs (par_c w d e) * len (nrm d e) /\
  forall x y, on_line p d x -> on_line q e y -> Rabs (par_c w d e) * len (nrm d e) <= dist x y.
Proof.
  intros H H' Lq L3 D w. pose proof H as (L & Hz & Hp). pose proof H' as (L' & Hz' & Hp').
  destruct (nrm_facts d e) as (Ln & P & Pd & Pe); [congruence|lia|auto|].
  split.
  - rewrite dist_sym. unfold dist. rewrite <- (pad_len 3), line_pair_diff by auto. fold w. rewrite <- len_scale. f_equal.
    apply pt_ext; [len|]. intros i _. repeat rewrite ?nth_add, ?nth_scale by len. ring.
  - intros x y [s ->] [t ->]. rewrite dist_sym. unfold dist. rewrite <- (pad_len 3 (sub _ _)), line_pair_diff by auto. fold w. rewrite <- len_scale. apply len_le_iff.
    set (u := add (scale (par_a w d e - s) (pad_to 3 d)) (scale (par_b w d e + t) (pad_to 3 e))). assert (Lu : length u = 3%nat) by (unfold u; len).
    rewrite dot_add_add by len. assert (Z : dot u (nrm d e) = 0) by (unfold u; rewrite dot_add_l by len; rewrite !dot_scale_l, Pd, Pe; ring).
    rewrite (dot_scale_r _ u), Z. pose proof (dot_self_nonneg u). lra.
Qed.
Lemma meet_params p d q e x : pv_ok p d -> pv_ok q e -> length q = length p -> (length p <= 3)%nat -> ~ dependent d e ->
  on_line p d x -> on_line q e x -> x = add p (scale (par_a (sub q p) d e) d) /\ par_c (sub q p) d e = 0.
Proof.
  intros H H' Lq L3 D Hx Hy. pose proof H as (L & Hz & Hp). pose proof H' as (L' & Hz' & Hp').
  destruct (nrm_facts d e) as (Ln & P & Pd & Pe); [congruence|lia|auto|]. destruct Hx as [s Es], Hy as [t Et].
  pose proof (line_pair_diff p d q e s t H H' Lq L3 D) as K. simpl in K. rewrite <- Et, <- Es in K.
  set (w := sub q p) in *.
  assert (Z0 : pad_to 3 (sub x x) = origin 3).
  { rewrite sub_self. assert (Lx : length x = length p) by (rewrite Es; len). rewrite Lx. unfold pad_to, origin. rewrite repeat_length, <- repeat_app. f_equal. lia. }
  rewrite Z0 in K. set (A := par_a w d e - s) in *. set (B := par_b w d e + t) in *.
  assert (C0 : par_c w d e = 0).
  { assert (E : dot (origin 3) (nrm d e) = 0) by apply dot_origin_l. rewrite K in E. rewrite !dot_add_l in E by len. rewrite !dot_scale_l, Pd, Pe in E. nra. }
  split; auto. rewrite Es. f_equal. f_equal.
  destruct (Req_dec A 0) as [A0|A0]; [unfold A in A0; lra|]. exfalso. apply D.
  apply (pad_dependent 3); [congruence|]. left. exists (- (B / A)).
  rewrite C0 in K. apply pt_ext; [len|]. intros i _. apply (f_equal (fun z => nth i z 0)) in K. repeat rewrite ?nth_add, ?nth_scale, ?nth_origin in K by len.
  rewrite nth_scale. apply Rmult_eq_reg_l with A; auto. transitivity (- (B * nth i (pad_to 3 e) 0)); [lra|]. field. auto.
Qed.

Lemma intersect_core (LA : linalg RNum) t check p d q e : tol_ok t -> pv_ok p d -> pv_ok q e -> length q = length p -> (length p <= 3)%nat ->
  is_parallel t d e = Ok false -> (check = true -> line_is_coplanar LA None (MkLine p d) (MkLine q e) = Ok true) ->
  line_intersect_line LA t check (MkLine p d) (MkLine q e) = Ok (add p (scale (par_a (sub q p) d e) d)).
Proof.
  intros Ht H H' Lq L3 Ep Hc. pose proof H as (L & Hz & Hp). pose proof H' as (L' & Hz' & Hp').
  assert (D : ~ dependent d e) by (apply (not_parallel_independent t); auto; [rn; congruence|apply nonzero_ne; auto]).
  destruct (nrm_facts d e) as (Ln & P & _); [rn; congruence|rn; lia|auto|].
  unfold line_intersect_line, line_dim, dim1. cbn [l_point l_dir]. rn. rewrite Lq, Nat.eqb_refl. cbn [negb].
  destruct (Nat.ltb_spec 3 (length p)); [lia|]. cbn [orb]. rewrite Ep. cbn [bind].
  assert (E : (if check then let* c := line_is_coplanar LA None (MkLine p d) (MkLine q e) in Ok (negb c) else Ok false) = Ok false).
  { destruct check; auto. rn. rewrite Hc by auto. reflexivity. }
  rn. rewrite E. cbn [bind]. rewrite from_points_R by auto. cbn [bind].
  assert (Hw : sub q p <> []) by (apply sub_nonempty; auto; congruence).
  rewrite cross_R by (try apply nonzero_ne; auto; lia). cbn [bind]. fold (nrm d e).
  rewrite cross_R by (first [exact Hw|lia|len; fail|rewrite ?length_sub; lia|apply nonzero_ne; auto]). cbn [bind].
  rewrite np_dot_R by (rewrite length_cross by len; auto). cbn [bind]. rewrite norm_R. cbn [bind]. rops. rewrite len_sq. rewrite ndiv_R by lra. cbn [bind].
  rewrite vmuls_R. cbn [bind]. rewrite vadd_R by len. reflexivity.
Qed.

(** ** C31  intersect_line *)
Theorem C31_returns_common_point : forall LA (t : tol RNum) check p d q e l m x, svd_correct LA -> 0 <= rel_tol t -> 0 <= abs_tol t ->
  line_new (N:=RNum) p d = Ok l -> line_new (N:=RNum) q e = Ok m -> length q = length p -> (length p <= 3)%nat ->
  is_parallel t d e = Ok false -> on_line p d x -> on_line q e x ->
  line_intersect_line LA t check l m = Ok x /\ forall y, on_line p d y -> on_line q e y -> y = x.
Proof.
  intros LA t check p d q e l m x HL H1 H2 Hl Hm Lq L3 Ep Hx Hy. assert (Ht : tol_ok t) by (split; auto).
  apply line_new_iff in Hl as (-> & H), Hm as (-> & H'). pose proof H as (L & Hz & Hp). pose proof H' as (L' & Hz' & Hp').
  assert (D : ~ dependent d e) by (apply (not_parallel_independent t); auto; [rn; congruence|apply nonzero_ne; auto]).
  split.
  - rewrite intersect_core; auto.
    + f_equal. symmetry. apply meet_params; auto.
    + intros _. rewrite is_coplanar_R by auto. apply (C23_true_configurations LA (length p)); simpl; auto; [apply four_ok; auto|]. apply four_coplanar; auto.
      eapply meeting_coplanar; eauto.
  - intros y Hy1 Hy2. destruct (meet_params p d q e x) as [-> _]; auto. apply meet_params; auto.
Qed.
Print Assumptions C31_returns_common_point.

(** Whatever is returned lies on the first line; for coplanar lines it lies on both. *)
Theorem C31_result_sound : forall (LA : linalg RNum) (t : tol RNum) check p d q e l m x, 0 <= rel_tol t -> 0 <= abs_tol t ->
  line_new (N:=RNum) p d = Ok l -> line_new (N:=RNum) q e = Ok m -> line_intersect_line LA t check l m = Ok x ->
  length q = length p /\ (length p <= 3)%nat /\ on_line p d x /\ (lines_coplanar p d q e -> on_line q e x).
Proof.
  intros LA t check p d q e l m x H1 H2 Hl Hm E. assert (Ht : tol_ok t) by (split; auto).
  apply line_new_iff in Hl as (-> & H), Hm as (-> & H'). pose proof H as (L & Hz & Hp). pose proof H' as (L' & Hz' & Hp').
  pose proof E as E'. unfold line_intersect_line, line_dim, dim1 in E. cbn [l_point l_dir] in E. rn.
  destruct (Nat.eqb_spec (length p) (length q)) as [Lq|]; [|discriminate]. cbn [negb] in E.
  destruct (Nat.ltb_spec 3 (length p)); [discriminate|]. destruct (Nat.ltb_spec 3 (length q)); [discriminate|]. cbn [orb] in E.
  apply bind_ok_inv in E as (par & Ep & E). destruct par; [discriminate|]. apply bind_ok_inv in E as (bad & Eb & E). destruct bad; [discriminate|]. clear E.
  assert (D : ~ dependent d e) by (apply (not_parallel_independent t); auto; [rn; congruence|apply nonzero_ne; auto]).
  rewrite intersect_core in E'; auto.
  - injection E' as <-. split; auto. split; auto. split; [eexists; reflexivity|]. intro C.
    destruct (coplanar_meet p d q e H H' (eq_sym Lq) C D) as (z & Z1 & Z2). destruct (meet_params p d q e z) as [Ez _]; auto. rewrite <- Ez. auto.
  - intros ->. apply bind_ok_inv in Eb as (c & Ec & Eb). injection Eb as Eb. destruct c; [auto|discriminate].
Qed.
Print Assumptions C31_result_sound.

Theorem C31_errors : forall (LA : linalg RNum) (t : tol RNum) check p d q e l m, 0 <= rel_tol t -> 0 <= abs_tol t ->
  line_new (N:=RNum) p d = Ok l -> line_new (N:=RNum) q e = Ok m ->
  (length q <> length p -> exists msg, line_intersect_line LA t check l m = Raise (ValueError msg)) /\
  ((3 < length p)%nat -> exists msg, line_intersect_line LA t check l m = Raise (ValueError msg)) /\
  (dependent d e -> exists msg, line_intersect_line LA t check l m = Raise (ValueError msg)) /\
  (check = true -> line_is_coplanar LA None l m = Ok false -> exists msg, line_intersect_line LA t check l m = Raise (ValueError msg)).
Proof.
  intros LA t check p d q e l m H1 H2 Hl Hm. assert (Ht : tol_ok t) by (split; auto).
  apply line_new_iff in Hl as (-> & H), Hm as (-> & H'). pose proof H as (L & Hz & Hp). pose proof H' as (L' & Hz' & Hp').
  unfold line_intersect_line, line_dim, dim1. cbn [l_point l_dir]. rn.
  destruct (Nat.eqb_spec (length p) (length q)) as [Lq|Lq]; cbn [negb].
  2:{ split; [|split; [|split]]; intros; eexists; reflexivity. }
  split; [intro; congruence|]. destruct (Nat.ltb_spec 3 (length p)) as [L3|L3]; cbn [orb].
  { split; [|split]; intros; eexists; reflexivity. }
  destruct (Nat.ltb_spec 3 (length q)) as [L3'|L3']; [lia|]. split; [intro; lia|].
  destruct (is_parallel_R t d e Ht) as (r & Er & _); [congruence|apply nonzero_ne; auto|].
  split.
  - intro D. rewrite is_parallel_dependent by (first [assumption|apply nonzero_ne; assumption|rn; congruence]). cbn [bind]. eexists; reflexivity.
  - intros -> C. rewrite Er. cbn [bind]. destruct r; [eexists; reflexivity|]. rewrite C. cbn [bind negb]. eexists; reflexivity.
Qed.
Print Assumptions C31_errors.

(** With check_coplanar=False and lines that are not parallel, the result is the point of the first line
    nearest to the second line. *)
Theorem C31_unchecked_nearest : forall (LA : linalg RNum) (t : tol RNum) p d q e l m, 0 <= rel_tol t -> 0 <= abs_tol t ->
  line_new (N:=RNum) p d = Ok l -> line_new (N:=RNum) q e = Ok m -> length q = length p -> (length p <= 3)%nat ->
  is_parallel t d e = Ok false ->
  exists x y, line_intersect_line LA t false l m = Ok x /\ on_line p d x /\ on_line q e y /\ line_distance p d q e (dist x y).
Proof.
  intros LA t p d q e l m H1 H2 Hl Hm Lq L3 Ep. assert (Ht : tol_ok t) by (split; auto).
  apply line_new_iff in Hl as (-> & H), Hm as (-> & H'). pose proof H as (L & Hz & Hp). pose proof H' as (L' & Hz' & Hp').
  assert (D : ~ dependent d e) by (apply (not_parallel_independent t); auto; [rn; congruence|apply nonzero_ne; auto]).
  exists (add p (scale (par_a (sub q p) d e) d)), (add q (scale (- par_b (sub q p) d e) e)).
  rewrite intersect_core by (auto; discriminate). split; auto. split; [eexists; reflexivity|]. split; [eexists; reflexivity|].
  destruct (line_pair_distance p d q e H H' Lq L3 D) as (E & Hmin). split.
  - do 2 eexists. split; [eexists; reflexivity|]. split; [eexists; reflexivity|]. reflexivity.
  - intros x y Hx Hy. rewrite E. auto.
Qed.
Print Assumptions C31_unchecked_nearest.

(** Soundness of the default coplanarity test: the defining points of the lines are close to one plane. *)
Theorem C30_default_sound : forall LA p d q e l m D, svd_correct LA ->
  line_new (N:=RNum) p d = Ok l -> line_new (N:=RNum) q e = Ok m -> length q = length p -> line_is_coplanar LA None l m = Ok true ->
  (forall x y, In x [p; add p d; q; add q e] -> In y [p; add p d; q; add q e] -> dist x y <= D) ->
  let M := INR (Nat.max 4 (length p)) in near_flat (length p) 2 (M * M * / 2 ^ 52 * D) [p; add p d; q; add q e].
Proof.
  intros LA p d q e l m D HL Hl Hm Lq E HD M. apply line_new_iff in Hl as (-> & H), Hm as (-> & H'). rewrite is_coplanar_R in E by auto.
  pose proof (four_ok p d q e H H' Lq) as F. assert (Ef : four p d q e = [p; add p d; q; add q e]) by (unfold four; rewrite !scale_1; reflexivity).
  rewrite Ef in *. apply (C23_default_tests_sound LA (length p) _ D HL F HD). auto.
Qed.
Print Assumptions C30_default_sound.

(** ** C32  distance_line *)
Lemma line_distance_unique p d q e r r' : line_distance p d q e r -> line_distance p d q e r' -> r = r'.
Proof.
  intros ((x & y & Hx & Hy & E) & Hmin) ((x' & y' & Hx' & Hy' & E') & Hmin'). apply Rle_antisym.
  - rewrite <- E'. auto.
  - rewrite <- E. auto.
Qed.
Lemma line_distance_sym p d q e r : line_distance p d q e r -> line_distance q e p d r.
Proof. intros ((x & y & Hx & Hy & E) & Hmin). split; [exists y, x; rewrite dist_sym; auto|]. intros a b Ha Hb. rewrite dist_sym. auto. Qed.
Lemma parallel_distance p d q e r : pv_ok p d -> pv_ok q e -> length q = length p -> dependent d e -> min_dist (on_line p d) q r -> line_distance p d q e r.
Proof.
  intros (L & Hz & Hp) (L' & Hz' & Hp') Lq D ((y & Hy & E) & Hmin).
  assert (K : exists s, e = scale s d).
  { destruct D as [(s & Es)|(s & Es)]; [|eauto]. exists (/ s). rewrite Es, scale_scale. rewrite Rinv_l; [symmetry; apply scale_1|].
    intro Z. subst s. apply Hz. rewrite Es, scale_0. unfold is_zero_vec. rewrite length_origin. reflexivity. }
  destruct K as (s & Es). split.
  - exists y, q. split; auto. split; [apply on_line_base; congruence|]. rewrite dist_sym. auto.
  - intros x z [a ->] [b ->]. rewrite Es, scale_scale.
    assert (Ed : dist (add p (scale a d)) (add q (scale (b * s) d)) = dist q (add p (scale (a - b * s) d))).
    { rewrite (dist_sym q). unfold dist. f_equal. apply pt_ext; [len|]. intros i _. repeat rewrite ?nth_add, ?nth_scale, ?nth_sub by len. ring. }
    rewrite Ed. apply Hmin. eexists; reflexivity.
Qed.

(** Exactly parallel lines, any dimension. *)
Theorem C32_parallel_lines : forall LA p d q e l m,
  line_new (N:=RNum) p d = Ok l -> line_new (N:=RNum) q e = Ok m -> length q = length p -> dependent d e ->
  exists r, line_distance_line LA l m = Ok r /\ line_distance p d q e r.
Proof.
  intros LA p d q e l m Hl Hm Lq D. destruct (C28_distance_point_min p d q l Hl Lq) as (r & E & Hmin & _).
  apply line_new_iff in Hl as (-> & H), Hm as (-> & H'). pose proof H as (L & Hz & Hp). pose proof H' as (L' & Hz' & Hp').
  exists r. split; [|apply parallel_distance; auto]. unfold line_distance_line. cbn [l_dir l_point].
  rewrite is_parallel_dependent by (first [apply tol_default_ok|assumption|apply nonzero_ne; assumption|rn; congruence]). cbn [bind]. auto.
Qed.
Print Assumptions C32_parallel_lines.

(** Coplanar lines not reported parallel, any dimension: distance 0, and they do meet. *)
Theorem C32_coplanar_lines : forall LA p d q e l m, svd_correct LA ->
  line_new (N:=RNum) p d = Ok l -> line_new (N:=RNum) q e = Ok m -> length q = length p ->
  is_parallel (N:=RNum) tol_default d e = Ok false -> lines_coplanar p d q e ->
  line_distance_line LA l m = Ok 0 /\ line_distance p d q e 0.
Proof.
  intros LA p d q e l m HL Hl Hm Lq Ep C. pose proof (C30_coplanar_accepted LA None p d q e l m HL I Hl Hm Lq C) as Ec. cbn [line_is_coplanar_obj] in Ec.
  apply line_new_iff in Hl as (-> & H), Hm as (-> & H'). pose proof H as (L & Hz & Hp). pose proof H' as (L' & Hz' & Hp').
  split.
  - unfold line_distance_line. cbn [l_dir l_point]. rewrite Ep. cbn [bind]. rn. rewrite Ec. reflexivity.
  - assert (D : ~ dependent d e) by (apply (not_parallel_independent tol_default); auto using tol_default_ok; [rn; congruence|apply nonzero_ne; auto]).
    destruct (coplanar_meet p d q e H H' Lq C D) as (x & X1 & X2). split; [exists x, x; rewrite dist_refl; auto|]. intros; apply dist_nonneg.
Qed.
Print Assumptions C32_coplanar_lines.

(** Lines reported neither parallel nor coplanar, dimension 3. *)
Theorem C32_skew_lines : forall (LA : linalg RNum) p d q e l m,
  line_new (N:=RNum) p d = Ok l -> line_new (N:=RNum) q e = Ok m -> length p = 3%nat -> length q = 3%nat ->
  is_parallel (N:=RNum) tol_default d e = Ok false -> line_is_coplanar LA None l m = Ok false ->
  exists r, line_distance_line LA l m = Ok r /\ line_distance p d q e r.
Proof.
  intros LA p d q e l m Hl Hm Lp Lq3 Ep Ec. assert (Lq : length q = length p) by congruence. assert (L3 : (length p <= 3)%nat) by lia.
  apply line_new_iff in Hl as (-> & H), Hm as (-> & H'). pose proof H as (L & Hz & Hp). pose proof H' as (L' & Hz' & Hp').
  assert (D : ~ dependent d e) by (apply (not_parallel_independent tol_default); auto using tol_default_ok; [rn; congruence|apply nonzero_ne; auto]).
  destruct (nrm_facts d e) as (Ln & P & _); [rn; congruence|rn; lia|auto|].
  destruct (line_pair_distance p d q e H H' Lq L3 D) as (E & Hmin).
  exists (Rabs (par_c (sub q p) d e) * len (nrm d e)). split.
  2:{ split; auto. do 2 eexists. split; [eexists; reflexivity|]. split; [eexists; reflexivity|]. exact E. }
  unfold line_distance_line. cbn [l_dir l_point]. rewrite Ep. cbn [bind]. rn. rewrite Ec. cbn [bind].
  rewrite from_points_R by auto. cbn [bind]. rewrite cross_R by (try apply nonzero_ne; auto; rn; lia). cbn [bind]. fold (nrm d e).
  rewrite np_dot_R by (rewrite Ln; len). cbn [bind]. rewrite norm_R. cbn [bind]. change (nabs (n:=RNum)) with Rabs.
  assert (Pl : 0 < len (nrm d e)) by (apply len_pos; intro Z; apply dot_self_zero_iff in Z; lra).
  rewrite ndiv_R by lra. f_equal. unfold par_c. rewrite pad_to_id by len. rewrite <- len_sq. unfold Rdiv.
  rewrite Rabs_mult, (Rabs_pos_eq (/ _)) by (left; apply Rinv_0_lt_compat; nra). field. lra.
Qed.
Print Assumptions C32_skew_lines.

Lemma low_dim_coplanar p d q e : pv_ok p d -> pv_ok q e -> length q = length p -> (length p <= 2)%nat -> lines_coplanar p d q e.
Proof.
  intros (L & Hz & Hp) (L' & Hz' & Hp') Lq L2.
  assert (K : length p = 1%nat \/ length p = 2%nat) by (destruct p as [|a [|b [|]]]; simpl in *; try lia; contradiction). destruct K as [K|K].
  - exists [0], [1], [0]. rewrite K. split; auto. split; auto. split; auto. intros x Hx.
    assert (Lx : length x = 1%nat) by (destruct Hx as [[r ->]|[r ->]]; len). destruct x as [|x0 [|]]; try discriminate.
    exists x0, 0. unfold scale. simpl. veq.
  - exists [0; 0], [1; 0], [0; 1]. rewrite K. split; auto. split; auto. split; auto. intros x Hx.
    assert (Lx : length x = 2%nat) by (destruct Hx as [[r ->]|[r ->]]; len). destruct x as [|x0 [|x1 [|]]]; try discriminate.
    exists x0, x1. unfold scale. simpl. veq.
Qed.

(** Dimension at most 3, parallel and coplanar decisions exact: the minimal distance, and symmetric. *)
Theorem C32_distance_line : forall LA p d q e l m, svd_correct LA ->
  line_new (N:=RNum) p d = Ok l -> line_new (N:=RNum) q e = Ok m -> length q = length p -> (length p <= 3)%nat ->
  (is_parallel (N:=RNum) tol_default d e = Ok true -> dependent d e) ->
  (line_is_coplanar LA None l m = Ok true -> lines_coplanar p d q e) ->
  exists r, line_distance_line LA l m = Ok r /\ line_distance_line LA m l = Ok r /\ line_distance p d q e r.
Proof.
  assert (One : forall LA p d q e l m, svd_correct LA ->
    line_new (N:=RNum) p d = Ok l -> line_new (N:=RNum) q e = Ok m -> length q = length p -> (length p <= 3)%nat ->
    (is_parallel (N:=RNum) tol_default d e = Ok true -> dependent d e) ->
    (line_is_coplanar LA None l m = Ok true -> lines_coplanar p d q e) ->
    exists r, line_distance_line LA l m = Ok r /\ line_distance p d q e r).
  { intros LA p d q e l m HL Hl Hm Lq L3 Xp Xc.
    pose proof Hl as Hl'. pose proof Hm as Hm'. apply line_new_iff in Hl' as (El & H), Hm' as (Em & H'). pose proof H as (L & Hz & Hp). pose proof H' as (L' & Hz' & Hp').
    destruct (is_parallel_R tol_default d e tol_default_ok) as ([|] & Ep & _); [rn; congruence|apply nonzero_ne; auto| |].
    - apply (C32_parallel_lines LA p d q e l m); auto.
    - destruct (Nat.eq_dec (length p) 3) as [E3|E3].
      + destruct (line_is_coplanar LA None l m) as [[|]| |] eqn:Ec.
        * exists 0. apply C32_coplanar_lines; auto.
        * apply (C32_skew_lines LA p d q e l m); auto. congruence.
        * exfalso. subst l m. rewrite is_coplanar_R in Ec by auto. unfold are_coplanar in Ec.
          destruct (affine_rank_R LA None (length p) (four p d q e) HL (four_ok p d q e H H' Lq)) as (U & sv & Vh & _ & Er). rewrite Er in Ec. discriminate.
        * exfalso. subst l m. rewrite is_coplanar_R in Ec by auto. unfold are_coplanar in Ec.
          destruct (affine_rank_R LA None (length p) (four p d q e) HL (four_ok p d q e H H' Lq)) as (U & sv & Vh & _ & Er). rewrite Er in Ec. discriminate.
      + exists 0. apply C32_coplanar_lines; auto. apply low_dim_coplanar; auto. rn; lia. }
  intros LA p d q e l m HL Hl Hm Lq L3 Xp Xc. destruct (One LA p d q e l m) as (r & Er & Hr); auto.
  exists r. split; auto. split; auto.
  pose proof Hl as Hl'. pose proof Hm as Hm'. apply line_new_iff in Hl' as (El & H), Hm' as (Em & H'). pose proof H as (L & Hz & Hp). pose proof H' as (L' & Hz' & Hp').
  destruct (One LA q e p d m l) as (r' & Er' & Hr'); auto.
  - rn; lia.
  - rewrite (C15_parallel_symmetric tol_default e d); [|apply tol_default_ok|apply tol_default_ok|rn; congruence|apply nonzero_ne; auto].
    intro X. apply Xp in X. destruct X as [X|X]; [right|left]; exact X.
  - rewrite <- (C30_symmetric LA None p d q e l m Hl Hm Lq). intro X. destruct (Xc X) as (o & u & v & Lo & Lu & Lv & K). exists o, u, v. rn. rewrite Lq.
    split; auto. split; auto. split; auto. intros x [X1|X1]; apply K; auto.
  - rewrite Er'. f_equal. eapply line_distance_unique; [exact Hr'|]. apply line_distance_sym. auto.
Qed.
Print Assumptions C32_distance_line.

(** Skew lines above dimension 3 raise ValueError. *)
Theorem C32_high_dimension : forall (LA : linalg RNum) p d q e l m,
  line_new (N:=RNum) p d = Ok l -> line_new (N:=RNum) q e = Ok m -> length q = length p -> (3 < length p)%nat ->
  is_parallel (N:=RNum) tol_default d e = Ok false -> line_is_coplanar LA None l m = Ok false ->
  exists msg, line_distance_line LA l m = Raise (ValueError msg).
Proof.
  intros LA p d q e l m Hl Hm Lq L3 Ep Ec.
  apply line_new_iff in Hl as (-> & H), Hm as (-> & H'). pose proof H as (L & Hz & Hp). pose proof H' as (L' & Hz' & Hp').
  unfold line_distance_line. cbn [l_dir l_point]. rewrite Ep. cbn [bind]. rn. rewrite Ec. cbn [bind].
  rewrite from_points_R by auto. cbn [bind]. unfold cross, set_dimension1, dim1. rn. destruct (Z.ltb_spec 3 (Z.of_nat (length d))); [|lia]. cbn [bind]. eexists; reflexivity.
Qed.
Print Assumptions C32_high_dimension.

(** Within the parallel tolerance the answer can be arbitrarily wrong: two lines of the plane that cross in one
    point (true distance 0) for which distance_line returns any prescribed M > 0. *)
Theorem C32_near_parallel_refuted : forall (LA : linalg RNum) M, 0 < M ->
  exists p d q e l m x, line_new (N:=RNum) p d = Ok l /\ line_new (N:=RNum) q e = Ok m /\
    on_line p d x /\ on_line q e x /\ line_distance_line LA l m = Ok M.
Proof.
  intros LA M HM. set (k := 1 / 100000).
  assert (Nd : ~ is_zero_vec [1; 0]) by (intro Z; inversion Z; lra).
  assert (Ne : ~ is_zero_vec [1 - k * k; 2 * k]) by (unfold k; intro Z; inversion Z; lra).
  exists [0; 0], [1; 0], [0; M], [1 - k * k; 2 * k], (MkLine [0; 0] [1; 0]), (MkLine [0; M] [1 - k * k; 2 * k]), [- M * (1 - k * k) / (2 * k); 0].
  assert (Hl : line_new (N:=RNum) [0; 0] [1; 0] = Ok (MkLine [0; 0] [1; 0])) by (apply line_new_R; auto).
  split; auto. split; [apply line_new_R; auto|].
  split. { exists (- M * (1 - k * k) / (2 * k)). unfold scale. simpl. veq. }
  split. { exists (- M / (2 * k)). unfold scale. simpl. apply (f_equal2 (@cons R)); [unfold k; field|]. apply (f_equal2 (@cons R)); [unfold k; field|reflexivity]. }
  unfold line_distance_line. cbn [l_dir l_point].
  destruct (C15_parallel_default [1; 0] [1 - k * k; 2 * k]) as (r & Er & Hr); auto. rewrite Er.
  assert (r = true) as ->.
  { apply Hr. assert (L1 : len [1; 0] = 1) by (apply len_eq_val; simpl; lra). assert (L2 : len [1 - k * k; 2 * k] = 1 + k * k) by (apply len_eq_val; [unfold k; lra|simpl; ring]).
    rewrite L1, L2. simpl dot. rewrite Rabs_pos_eq by (unfold k; lra). unfold rel_default, k. lra. }
  cbn [bind]. rewrite line_distance_point_R; [|split; [reflexivity|split; [auto|discriminate]]|reflexivity]. f_equal. unfold dist, lproj. unfold len. simpl.
  unfold scale. simpl. match goal with |- sqrt ?e = _ => replace e with (M * M) by (field; lra) end. apply sqrt_square. lra.
Qed.
Print Assumptions C32_near_parallel_refuted.

(** The hypotheses of C30-C32 are met by the skew lines along the x axis and along the y axis at height 1,
    for every correct SVD; one exists. *)
Example C32_nonvacuous : svd_correct ideal_linalg /\
  forall LA, svd_correct LA -> exists l m,
    line_new (N:=RNum) [0; 0; 0] [1; 0; 0] = Ok l /\ line_new (N:=RNum) [0; 0; 1] [0; 1; 0] = Ok m /\
    is_parallel (N:=RNum) tol_default [1; 0; 0] [0; 1; 0] = Ok false /\ line_is_coplanar LA None l m = Ok false /\
    (exists r, line_distance_line LA l m = Ok r /\ r = 1).
Proof.
  split; [apply ideal_linalg_correct|]. intros LA HL.
  assert (N1 : ~ is_zero_vec [1; 0; 0]) by (intro Z; inversion Z; lra). assert (N2 : ~ is_zero_vec [0; 1; 0]) by (intro Z; inversion Z; lra).
  assert (P1 : pv_ok [0; 0; 0] [1; 0; 0]) by (split; [reflexivity|split; [auto|discriminate]]).
  assert (P2 : pv_ok [0; 0; 1] [0; 1; 0]) by (split; [reflexivity|split; [auto|discriminate]]).
  assert (Hl : line_new (N:=RNum) [0; 0; 0] [1; 0; 0] = Ok (MkLine [0; 0; 0] [1; 0; 0])) by (apply line_new_R; auto).
  assert (Hm : line_new (N:=RNum) [0; 0; 1] [0; 1; 0] = Ok (MkLine [0; 0; 1] [0; 1; 0])) by (apply line_new_R; auto).
  exists (MkLine [0; 0; 0] [1; 0; 0]), (MkLine [0; 0; 1] [0; 1; 0]). split; auto. split; auto.
  assert (Ep : is_parallel (N:=RNum) tol_default [1; 0; 0] [0; 1; 0] = Ok false).
  { destruct (C15_parallel_default [1; 0; 0] [0; 1; 0]) as (r & Er & Hr); auto. rewrite Er. destruct r; auto. exfalso. assert (K := proj1 Hr eq_refl).
    assert (L1 : len [1; 0; 0] = 1) by (apply len_eq_val; simpl; lra). assert (L2 : len [0; 1; 0] = 1) by (apply len_eq_val; simpl; lra).
    rewrite L1, L2 in K. simpl dot in K. rewrite Rabs_pos_eq in K by lra. pose proof rel_default_bounds. lra. }
  split; auto.
  assert (Ec : line_is_coplanar LA None (MkLine [0; 0; 0] [1; 0; 0]) (MkLine [0; 0; 1] [0; 1; 0]) = Ok false).
  { rewrite is_coplanar_R by auto. pose proof (four_ok _ _ _ _ P1 P2 eq_refl) as F4. set (rows := four _ _ _ _) in *.
    assert (Er : rows = [[0; 0; 0]; [1; 0; 0]; [0; 0; 1]; [0; 1; 1]]) by (unfold rows, four, scale; simpl; repeat (apply (f_equal2 cons); [veq|]); reflexivity).
    rewrite Er in *. destruct (are_coplanar LA None _) as [[|]| |] eqn:E; auto; exfalso.
    - assert (HD : forall x y, In x [[0; 0; 0]; [1; 0; 0]; [0; 0; 1]; [0; 1; 1]] -> In y [[0; 0; 0]; [1; 0; 0]; [0; 0; 1]; [0; 1; 1]] -> dist x y <= 2).
      { intros x y Hx Hy. unfold dist, len. replace 2 with (sqrt 4) by (replace 4 with (2 * 2) by ring; apply sqrt_square; lra).
        apply sqrt_le_1_alt. simpl in Hx, Hy. destruct Hx as [<-|[<-|[<-|[<-|[]]]]], Hy as [<-|[<-|[<-|[<-|[]]]]]; simpl; lra. }
      destruct (C23_default_tests_sound LA 3 _ 2 HL F4 HD) as (_ & K). specialize (K E). cbv zeta in K. set (eps := _ * 2) in K.
      assert (P : 0 <= 2 * eps <= 1 / 10) by (apply eps_small; reflexivity). clearbody eps.
      destruct (near_flat_direction 3 2 _ _ [] K) as (w & Lw & Uw & _ & B); [apply F4|auto|simpl; lia|].
      destruct w as [|w1 [|w2 [|w3 [|]]]]; try discriminate.
      assert (B1 := B [1; 0; 0] [0; 0; 0] ltac:(simpl; auto) ltac:(simpl; auto)).
      assert (B2 := B [0; 0; 1] [0; 0; 0] ltac:(simpl; auto) ltac:(simpl; auto)).
      assert (B3 := B [0; 1; 1] [0; 0; 1] ltac:(simpl; auto) ltac:(simpl; auto)).
      set (e2 := 2 * eps) in *. clearbody e2. simpl in Uw, B1, B2, B3. clear - Uw B1 B2 B3 P.
      replace ((1 - 0) * w1 + ((0 - 0) * w2 + ((0 - 0) * w3 + 0))) with w1 in B1 by ring.
      replace ((0 - 0) * w1 + ((0 - 0) * w2 + ((1 - 0) * w3 + 0))) with w3 in B2 by ring.
      replace ((0 - 0) * w1 + ((1 - 0) * w2 + ((1 - 1) * w3 + 0))) with w2 in B3 by ring.
      assert (forall a, Rabs a <= e2 -> a * a <= 1 / 100). { intros a Ha. pose proof (Rabs_pos a). assert (a * a = Rabs a * Rabs a) by (unfold Rabs; destruct Rcase_abs; ring). nra. }
      pose proof (H w1 B1). pose proof (H w2 B3). pose proof (H w3 B2). lra.
    - unfold are_coplanar in E. destruct (affine_rank_R LA None 3 _ HL F4) as (U & sv & Vh & Hs & Ef). rewrite Ef in E. discriminate.
    - unfold are_coplanar in E. destruct (affine_rank_R LA None 3 _ HL F4) as (U & sv & Vh & Hs & Ef). rewrite Ef in E. discriminate. }
  split; auto. destruct (C32_skew_lines LA _ _ _ _ _ _ Hl Hm eq_refl eq_refl Ep Ec) as (r & Er & (x & y & [s Hx] & [t Hy] & Hd) & Hmin).
  exists r. split; auto. apply Rle_antisym.
  - assert (D1 : dist [0; 0; 0] [0; 0; 1] = 1) by (unfold dist; apply len_eq_val; simpl; lra). rewrite <- D1. apply Hmin; [exists 0|exists 0]; unfold scale; simpl; veq.
  - rewrite <- Hd, Hx, Hy. unfold dist, len, scale. simpl. rewrite <- sqrt_1 at 1. apply sqrt_le_1_alt. nra.
Qed.
