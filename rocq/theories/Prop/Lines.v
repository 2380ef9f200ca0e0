(** * Properties C25-C29: objects/line.py, objects/_base_line_plane.py *)
From Coq Require Import String Reals List ZArith Lra Lia Psatz Bool.
From Verif.Model Require Import Outcome Num Instances Numpy BaseArray Vector Points Functions Line Plane.
From Verif.Spec Require Import Geometry Tolerance.
From Verif.Proof Require Import VecAlg Bridge Arrays Vectors Points Lines.
Import ListNotations.
Local Open Scope R_scope.

(** ** C25  construction *)
Theorem C25_line_construction : forall (p d : pt),
  (forall l, line_new (N:=RNum) p d = Ok l <->
     l = MkLine p d /\ length p = length d /\ ~ is_zero_vec d /\ p <> []) /\
  (~ (length p = length d /\ ~ is_zero_vec d /\ p <> []) -> exists m, line_new (N:=RNum) p d = Raise (ValueError m)).
Proof.
  intros p d. split; [intro l; apply line_new_iff|]. intro H. destruct (check_point_vector_raise p d H) as [m E].
  unfold line_new. rewrite E. eexists; reflexivity.
Qed.
Print Assumptions C25_line_construction.

Theorem C25_from_points : forall a b : pt, a <> [] -> length a = length b ->
  (a <> b -> exists l, line_from_points (N:=RNum) a b = Ok l /\ l_point l = a /\ l_dir l = sub b a /\
     line_to_point l 0 = Ok a /\ line_to_point l 1 = Ok b) /\
  (a = b -> exists m, line_from_points (N:=RNum) a b = Raise (ValueError m)).
Proof.
  intros a b Ha L. unfold line_from_points. rewrite from_points_R by auto. cbn [bind]. split.
  - intro N. assert (Hz : ~ is_zero_vec (sub b a)) by (rewrite sub_zero_iff by auto; congruence).
    rewrite line_new_R by (auto; len). eexists. split; [reflexivity|]. cbn [l_point l_dir]. split; auto. split; auto.
    unfold line_to_point. cbn [l_point l_dir]. rewrite !vmuls_R. cbn [bind]. rewrite !vadd_R by len. split; f_equal.
    + rewrite scale_0. apply add_origin_r. len.
    + rewrite scale_1. apply add_sub_cancel; auto.
  - intros <-. destruct (check_point_vector_raise a (sub a a)) as [m E].
    + intros (_ & H & _). apply H. rewrite sub_self. apply zero_origin.
    + unfold line_new. rewrite E. eexists; reflexivity.
Qed.
Print Assumptions C25_from_points.

Theorem C25_from_slope : forall m c : R, exists l, line_from_slope (N:=RNum) m c = Ok l /\
  forall q : pt, on_line (l_point l) (l_dir l) q <-> exists x, q = [x; m * x + c].
Proof.
  intros m c. unfold line_from_slope. rops. rewrite line_new_R; [|reflexivity|intro Z; inversion Z; lra].
  eexists. split; [reflexivity|]. cbn [l_point l_dir]. intro q. split.
  - intros [t ->]. exists t. unfold scale. simpl. veq.
  - intros [x ->]. exists x. unfold scale. simpl. veq.
Qed.
Print Assumptions C25_from_slope.

Theorem C25_to_point : forall (p d : pt) (l : line RNum) (t : R), line_new (N:=RNum) p d = Ok l ->
  exists x, line_to_point l t = Ok x /\ x = add p (scale t d) /\ on_line p d x /\
    (forall u, line_to_point l u = Ok x -> u = t) /\
    (forall y, on_line p d y -> exists u, line_to_point l u = Ok y).
Proof.
  intros p d l t H. apply line_new_iff in H as (-> & L & Hz & Hp).
  assert (E : forall u, line_to_point (N:=RNum) (MkLine p d) u = Ok (add p (scale u d))).
  { intro u. unfold line_to_point. cbn [l_point l_dir]. rewrite vmuls_R. cbn [bind]. apply vadd_R. len. }
  exists (add p (scale t d)). rewrite E. split; auto. split; auto. split; [exists t; auto|]. split.
  - intros u Hu. rewrite E in Hu. injection Hu as Hu. apply (f_equal (fun z => sub z p)) in Hu.
    rewrite !sub_add_cancel in Hu by len. eapply scale_inj; eauto.
  - intros y [u ->]. exists u. apply E.
Qed.
Print Assumptions C25_to_point.

Example C25_nonvacuous : exists l, line_new (N:=RNum) [1; 2; 3] [0; 0; 5] = Ok l.
Proof. eexists. apply line_new_R; [reflexivity|]. intro Z; inversion Z; lra. Qed.

(** ** C26  project_point *)
Theorem C26_project_point : forall (p d q : pt) (l : line RNum), line_new (N:=RNum) p d = Ok l -> length q = length p ->
  exists m, line_project_point l q = Ok m /\ on_line p d m /\
    (forall y, on_line p d y -> y <> m -> dist q m < dist q y) /\
    dot (sub q m) d = 0 /\ line_project_point l m = Ok m /\
    (on_line p d q -> m = q).
Proof.
  intros p d q l H Lq. apply line_new_iff in H as (-> & H). pose proof H as (L & Hz & Hp). exists (lproj p d q).
  rewrite !line_project_point_R by (auto; apply length_lproj; auto).
  split; auto. split; [apply lproj_on|]. split; [intros; apply lproj_nearest; auto|]. split; [apply lproj_perp; auto|].
  split; [rn; f_equal; apply lproj_fix; auto using lproj_on|]. apply lproj_fix; auto.
Qed.
Print Assumptions C26_project_point.

(** Points of another dimension raise, except one-coordinate points, which are broadcast. *)
Theorem C26_project_point_mismatch : forall (p d q : pt) (l : line RNum), line_new (N:=RNum) p d = Ok l ->
  length q <> length p -> length q <> 1%nat -> exists m, line_project_point l q = Raise (ValueError m).
Proof.
  intros p d q l H Lq L1. apply line_new_iff in H as (-> & L & Hz & Hp). unfold line_project_point. cbn [l_point l_dir].
  destruct (Nat.eq_dec (length p) 1) as [E|E].
  - destruct p as [|x [|? ?]]; try discriminate. unfold from_points. destruct q as [|y [|z q]]; [|simpl in L1; lia|].
    + exists "The array must not be empty."%string. reflexivity.
    + unfold bcast. cbn [length Nat.eqb map]. cbn [bind]. rewrite vector_of_R by discriminate. cbn [bind].
      unfold project_vector. rewrite np_dot_err; [eexists; reflexivity|]. rn. rewrite <- L. simpl. lia.
  - unfold from_points. rewrite bcast_err by (auto; congruence). eexists; reflexivity.
Qed.
Print Assumptions C26_project_point_mismatch.

Lemma nz3 : ~ is_zero_vec [0; 0; 5]. Proof. intro Z; inversion Z; lra. Qed.
Example C26_nonvacuous : exists l, line_new (N:=RNum) [1; 2; 3] [0; 0; 5] = Ok l /\ line_project_point l [7; 8; 9] = Ok [1; 2; 9].
Proof.
  eexists. split; [apply line_new_R; [reflexivity|apply nz3]|].
  rewrite line_project_point_R; [|split; [reflexivity|split; [apply nz3|discriminate]]|reflexivity].
  f_equal. unfold lproj, scale. simpl. repeat (apply (f_equal2 (@cons R)); [field; lra|]). reflexivity.
Qed.

(** ** C27  batch methods *)
Lemma pair_map_mapM {A B C} (f : A -> B) (g : A * B -> res C) (h : A -> C) (l : list A) :
  (forall x, In x l -> g (x, f x) = Ok (h x)) -> mapM g (combine l (map f l)) = Ok (map h l).
Proof. induction l; simpl; intro H; auto. rewrite H by auto. cbn [bind]. rewrite IHl by auto. reflexivity. Qed.

Theorem C27_project_points_rowwise : forall (p d : pt) (l : line RNum) (ps : list pt),
  line_new (N:=RNum) p d = Ok l -> points_ok (length p) ps ->
  exists ms, line_project_points l ps = Ok ms /\ mapM (line_project_point l) ps = Ok ms /\ length ms = length ps.
Proof.
  intros p d l ps H (Hne & Hd & F). apply line_new_iff in H as (-> & H). pose proof H as (L & Hz & Hp). exists (map (lproj p d) ps).
  pose proof (len_pos d Hz) as P.
  assert (Fr : forall r, In r ps -> length r = length p) by (rewrite Forall_forall in F; auto).
  split; [|split; [apply mapM_map; intros; apply line_project_point_R; auto|apply map_length]].
  unfold line_project_points. cbn [l_point l_dir]. rewrite (as2d_R ps (length p)) by auto. cbn [bind].
  rewrite (mapM_map _ (fun r => sub r p)). 2:{ intros r Hr. rewrite bcast_eq by (apply Fr; auto). rops. rewrite map2_sub. reflexivity. }
  cbn [bind]. rewrite unit_R by auto. cbn [bind].
  rewrite (mapM_map _ (fun v => dot v (scale (/ len d) d))).
  2:{ intros v Hv. apply in_map_iff in Hv as (r & <- & Hr). apply np_dot_R. specialize (Fr r Hr). len. }
  cbn [bind]. rewrite (mapM_map _ (fun s => add (scale s (scale (/ len d) d)) p)).
  2:{ intros s _. rewrite vscale_scale. rewrite bcast_eq by len. rops. rewrite map2_add. reflexivity. }
  cbn [bind]. rewrite !map_map.
  assert (E : map (fun r => add (scale (dot (sub r p) (scale (/ len d) d)) (scale (/ len d) d)) p) ps = map (lproj p d) ps).
  { apply map_ext_in. intros r Hr. unfold lproj. rewrite add_comm. f_equal. rewrite scale_scale, dot_scale_r, (dot_comm d). f_equal.
    rewrite <- len_sq. field. lra. }
  rn. rewrite E. apply (points_of_R _ (length p)); auto.
  - destruct ps; [contradiction|discriminate].
  - apply Forall_map. apply Forall_forall. intros r Hr. apply length_lproj; auto.
Qed.
Print Assumptions C27_project_points_rowwise.

Theorem C27_distance_points_rowwise : forall (p d : pt) (l : line RNum) (ps : list pt),
  line_new (N:=RNum) p d = Ok l -> points_ok (length p) ps ->
  exists ds, line_distance_points l ps = Ok ds /\ mapM (line_distance_point l) ps = Ok ds /\
    line_sum_squares l ps = Ok (Rsum (map (fun r => r * r) ds)).
Proof.
  intros p d l ps H Hps. pose proof Hps as (Hne & Hd & F). pose proof H as Hl. apply line_new_iff in H as (-> & H). pose proof H as (L & Hz & Hp).
  exists (map (fun q => dist q (lproj p d q)) ps).
  assert (Fr : forall r, In r ps -> length r = length p) by (rewrite Forall_forall in F; auto).
  assert (M : mapM (line_distance_point (N:=RNum) (MkLine p d)) ps = Ok (map (fun q => dist q (lproj p d q)) ps))
    by (apply mapM_map; intros; apply line_distance_point_R; auto).
  split; [|split; auto].
  - unfold line_distance_points. destruct (C27_project_points_rowwise p d _ ps Hl Hps) as (ms & -> & E & _). cbn [bind].
    rewrite (mapM_map _ (lproj p d)) in E by (intros; apply line_project_point_R; auto). injection E as <-.
    unfold bpairs. rewrite map_length. rn. rewrite Nat.eqb_refl. cbn [bind].
    rewrite (pair_map_mapM (lproj p d) _ (fun q => sub q (lproj p d q))).
    + cbn [bind]. rewrite map_map. f_equal. apply map_ext. intro r. rewrite norm_raw_len. reflexivity.
    + intros r Hr. cbn [fst snd]. rewrite bcast_eq by (rewrite length_lproj, Fr; auto). rops. rewrite map2_sub. reflexivity.
  - unfold line_sum_squares, sum_squares_gen. rewrite (as2d_R ps (length p)) by auto. cbn [bind]. rn. rewrite M. reflexivity.
Qed.
Print Assumptions C27_distance_points_rowwise.

Example C27_nonvacuous : points_ok 3 [[1; 2; 3]; [4; 5; 6]; [1; 2; 3]].
Proof. split; [discriminate|]. split; [lia|repeat constructor]. Qed.

(** ** C28  distance_point, contains_point *)
Theorem C28_distance_point_min : forall (p d q : pt) (l : line RNum), line_new (N:=RNum) p d = Ok l -> length q = length p ->
  exists r, line_distance_point l q = Ok r /\ min_dist (on_line p d) q r /\
    (line_contains_point (N:=RNum) tol_default l q = Ok true <-> on_line p d q) /\
    (line_contains_point (N:=RNum) tol_default l q = Ok false <-> ~ on_line p d q) /\
    (forall rel abst, 0 <= rel < 1 -> 0 <= abst ->
       exists b, line_contains_point (MkTol (N:=RNum) rel abst) l q = Ok b /\ (b = true <-> r <= abst)).
Proof.
  intros p d q l H Lq. apply line_new_iff in H as (-> & H). exists (dist q (lproj p d q)). pose proof (line_distance_point_R p d q H Lq) as E.
  split; auto. split; [apply lproj_min; auto|].
  unfold line_contains_point. rewrite (contains_gen_default _ _ _ E). rewrite <- (line_dist_zero p d q) by auto.
  destruct (Req_EM_T _ 0) as [Z|Z]; (split; [split; intro; congruence|]); (split; [split; intro; congruence|]).
  all: intros rel abst Hr Ha; destruct (contains_gen_R _ (MkTol (N:=RNum) rel abst) _ _ E) as (b & Hb & K); [split; simpl; lra|]; exists b; split; auto;
    rewrite K; simpl; rewrite close_zero by auto; rewrite Rabs_pos_eq by apply dist_nonneg; tauto.
Qed.
Print Assumptions C28_distance_point_min.

(** Independence of the representation of the line. *)
Theorem C28_representation_independent : forall (p d p' d' q : pt) (l l' : line RNum) (t : tol RNum),
  line_new (N:=RNum) p d = Ok l -> line_new (N:=RNum) p' d' = Ok l' -> length p' = length p -> length q = length p ->
  (forall x, on_line p d x <-> on_line p' d' x) ->
  line_distance_point l q = line_distance_point l' q /\ line_project_point l q = line_project_point l' q /\
  line_contains_point t l q = line_contains_point t l' q.
Proof.
  intros p d p' d' q l l' t H H' L Lq S. apply line_new_iff in H as (-> & H). apply line_new_iff in H' as (-> & H').
  assert (E : line_distance_point (N:=RNum) (MkLine p d) q = line_distance_point (N:=RNum) (MkLine p' d') q).
  { rewrite !line_distance_point_R by congruence. f_equal. eapply min_dist_unique; [apply lproj_min; auto|].
    eapply min_dist_ext; [|apply lproj_min; congruence]. intro y. symmetry. apply S. }
  split; auto. split.
  - rewrite !line_project_point_R by congruence. f_equal.
    destruct (list_eq_dec Req_EM_T (lproj p d q) (lproj p' d' q)) as [Q|Q]; auto. exfalso.
    assert (dist q (lproj p d q) < dist q (lproj p' d' q)) by (apply lproj_nearest; auto; apply S, lproj_on).
    assert (dist q (lproj p' d' q) < dist q (lproj p d q)) by (apply lproj_nearest; auto; [congruence|apply S, lproj_on]). lra.
  - unfold line_contains_point, contains_point_gen. rewrite E. reflexivity.
Qed.
Print Assumptions C28_representation_independent.

Example C28_nonvacuous : forall x, on_line [0; 0] [1; 1] x <-> on_line [3; 3] [-2; -2] x.
Proof.
  apply (same_line_iff [0; 0] [1; 1] [3; 3] [-2; -2]); try reflexivity.
  - split; [reflexivity|]. split; [intro Z; inversion Z; lra|discriminate].
  - split; [reflexivity|]. split; [intro Z; inversion Z; lra|discriminate].
  - split; [exists 3; unfold scale; simpl; veq|]. right. exists (-2). unfold scale; simpl; veq.
Qed.

(** ** C29  is_close of lines and of planes *)
Theorem C29_line_is_close : forall (p d p' d' : pt) (l l' : line RNum),
  line_new (N:=RNum) p d = Ok l -> line_new (N:=RNum) p' d' = Ok l' -> length p' = length p ->
  let same := forall x, on_line p d x <-> on_line p' d' x in
  (forall t : tol RNum, 0 <= rel_tol t -> 0 <= abs_tol t -> same -> lp_is_close t (LineObj l) (LineObj l') = Ok true) /\
  (lp_is_close (MkTol (N:=RNum) 0 0) (LineObj l) (LineObj l') = Ok true <-> same).
Proof.
  intros p d p' d' l l' H H' L same. apply line_new_iff in H as (-> & H). apply line_new_iff in H' as (-> & H').
  pose proof H as (Ld & Hz & Hp). pose proof H' as (Ld' & Hz' & Hp'). cbn [lp_is_close].
  assert (S : same <-> on_line p d p' /\ dependent d d') by (apply (same_line_iff p d p' d'); auto).
  assert (A : forall t : tol RNum, 0 <= rel_tol t -> 0 <= abs_tol t -> same -> line_is_close t (MkLine p d) (MkLine p' d') = Ok true).
  { intros t H1 H2 K. apply S in K as [K D]. unfold line_is_close. cbn [l_point l_dir]. unfold line_contains_point.
    destruct (contains_gen_R _ t p' _ (line_distance_point_R p d p' H L)) as (b & -> & E); [split; auto|]. cbn [bind].
    rewrite is_parallel_dependent; auto; [|split; auto|congruence|eapply pv_ok_dir; eauto]. cbn [bind]. f_equal. apply andb_true_iff. split; auto.
    apply E. apply line_dist_zero in K; auto. rewrite K. apply close_refl; auto. }
  split; auto. split.
  - intro K. apply S. unfold line_is_close in K. cbn [l_point l_dir] in K. unfold line_contains_point in K.
    destruct (contains_gen_R _ (MkTol (N:=RNum) 0 0) p' _ (line_distance_point_R p d p' H L)) as (b & Hb & E); [split; simpl; lra|].
    rewrite Hb in K. cbn [bind] in K. inv_bind K. injection K as K. apply andb_true_iff in K as [-> ->].
    split.
    + apply line_dist_zero; auto. apply close_exact. apply E; auto.
    + apply (is_parallel_exact (MkTol (N:=RNum) 0 0)); auto; [congruence|eapply pv_ok_dir; eauto].
  - apply A; simpl; lra.
Qed.
Print Assumptions C29_line_is_close.

Theorem C29_plane_is_close : forall (p n p' n' : pt) (pl pl' : plane RNum),
  plane_new (N:=RNum) p n = Ok pl -> plane_new (N:=RNum) p' n' = Ok pl' -> length p' = length p ->
  let same := forall x, on_plane p n x <-> on_plane p' n' x in
  (forall t : tol RNum, 0 <= rel_tol t -> 0 <= abs_tol t -> same -> lp_is_close t (PlaneObj pl) (PlaneObj pl') = Ok true) /\
  (lp_is_close (MkTol (N:=RNum) 0 0) (PlaneObj pl) (PlaneObj pl') = Ok true <-> same).
Proof.
  intros p d p' d' l l' H H' L same. apply plane_new_inv in H as (-> & H). apply plane_new_inv in H' as (-> & H').
  pose proof H as (Ld & Hz & Hp). pose proof H' as (Ld' & Hz' & Hp'). cbn [lp_is_close].
  assert (S : same <-> on_plane p d p' /\ dependent d d') by (apply (same_plane_iff p d p' d'); auto).
  assert (Z : dist p' (pproj p d p') = 0 <-> on_plane p d p').
  { rewrite <- sdist_abs by auto. rewrite <- (sdist_zero p d p') by auto. split; intro E; [|rewrite E; apply Rabs_R0].
    destruct (Req_dec (sdist p d p') 0) as [Q|Q]; auto. apply Rabs_pos_lt in Q. lra. }
  assert (A : forall t : tol RNum, 0 <= rel_tol t -> 0 <= abs_tol t -> same -> plane_is_close t (MkPlane p d) (MkPlane p' d') = Ok true).
  { intros t H1 H2 K. apply S in K as [K D]. unfold plane_is_close. cbn [pl_point pl_normal]. unfold plane_contains_point.
    destruct (contains_gen_R _ t p' _ (plane_distance_point_R p d p' H L)) as (b & -> & E); [split; auto|]. cbn [bind].
    rewrite is_parallel_dependent; auto; [|split; auto|congruence|eapply pv_ok_dir; eauto]. cbn [bind]. f_equal. apply andb_true_iff. split; auto.
    apply E. apply Z in K. rewrite K. apply close_refl; auto. }
  split; auto. split.
  - intro K. apply S. unfold plane_is_close in K. cbn [pl_point pl_normal] in K. unfold plane_contains_point in K.
    destruct (contains_gen_R _ (MkTol (N:=RNum) 0 0) p' _ (plane_distance_point_R p d p' H L)) as (b & Hb & E); [split; simpl; lra|].
    rewrite Hb in K. cbn [bind] in K. inv_bind K. injection K as K. apply andb_true_iff in K as [-> ->].
    split.
    + apply Z. apply close_exact. apply E; auto.
    + apply (is_parallel_exact (MkTol (N:=RNum) 0 0)); auto; [congruence|eapply pv_ok_dir; eauto].
  - apply A; simpl; lra.
Qed.
Print Assumptions C29_plane_is_close.

Theorem C29_mixed_type_error : forall (N : Num) (t : tol N) (l : line N) (p : plane N),
  lp_is_close t (LineObj l) (PlaneObj p) = Raise (TypeError "The input must have the same type as the object.") /\
  lp_is_close t (PlaneObj p) (LineObj l) = Raise (TypeError "The input must have the same type as the object.").
Proof. split; reflexivity. Qed.
Print Assumptions C29_mixed_type_error.
