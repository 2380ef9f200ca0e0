(** * Properties C19-C22, C24: objects/point.py, objects/points.py, transformation.py *)
From Coq Require Import String Reals List ZArith Lra Lia Psatz Bool Permutation Sorted.
From Verif.Model Require Import Outcome Num Instances Numpy BaseArray Vector Points Functions Line.
From Verif.Spec Require Import Geometry Tolerance.
From Verif.Proof Require Import VecAlg Bridge Arrays Vectors Points Lincomb.
Import ListNotations.
Local Open Scope R_scope.

(** ** C19  Point.distance_point *)
Theorem C19_distance_is_metric : forall a b c t : pt, a <> [] -> length b = length a -> length c = length a -> length t = length a ->
  exists ab bc ac, distance_point (N:=RNum) a b = Ok ab /\ distance_point (N:=RNum) b c = Ok bc /\ distance_point (N:=RNum) a c = Ok ac /\
    ab = sqrt (dot (sub b a) (sub b a)) /\
    0 <= ab /\ (ab = 0 <-> a = b) /\ distance_point (N:=RNum) b a = Ok ab /\ ac <= ab + bc /\
    distance_point (N:=RNum) (add t a) (add t b) = Ok ab /\
    (forall s, distance_point (N:=RNum) (scale s a) (scale s b) = Ok (Rabs s * ab)).
Proof.
  intros a b c t Ha Lb Lc Lt. assert (Hb : b <> []) by (destruct a, b; simpl in *; congruence).
  exists (dist a b), (dist b c), (dist a c). rewrite !distance_point_R; auto; try congruence.
  2: len. 2:{ intro E. apply (f_equal (@length R)) in E. rewrite length_add, Lt, Nat.min_id in E. destruct a; simpl in *; congruence. }
  split; auto. split; auto. split; auto. split; [rewrite dist_sym; reflexivity|]. split; [apply dist_nonneg|]. split; [apply dist_zero_iff; auto|].
  split; [rewrite dist_sym; auto|]. split; [apply dist_triangle; auto|]. split; [rewrite dist_translate by congruence; auto|].
  intro s. rewrite distance_point_R; [|len|destruct a; simpl; [contradiction|discriminate]].
  unfold dist. rewrite <- scale_sub, len_scale. reflexivity.
Qed.
Print Assumptions C19_distance_is_metric.

(** A one-coordinate point is silently compared with every coordinate of the other. *)
Theorem C19_dimension_checked_refuted : exists a b : pt, length a <> length b /\ distance_point (N:=RNum) a b = Ok 5.
Proof.
  exists [0], [3; 4]. split; [discriminate|]. unfold distance_point. change (from_points (N:=RNum) [0] [3; 4]) with (vector_of (N:=RNum) [3 - 0; 4 - 0]).
  rewrite vector_of_R by discriminate. cbn [bind]. rewrite norm_R. f_equal. apply len_eq_val; [lra|]. simpl. ring.
Qed.
Print Assumptions C19_dimension_checked_refuted.

Theorem C19_mismatch_raises : forall (N : Num) (a b : vec N), length a <> length b -> length a <> 1%nat -> length b <> 1%nat ->
  exists m, distance_point a b = Raise (ValueError m).
Proof. intros. unfold distance_point, from_points. rewrite bcast_err by auto. eexists; reflexivity. Qed.
Print Assumptions C19_mismatch_raises.

Example C19_nonvacuous : distance_point (N:=RNum) [1; 1] [4; 5] = Ok 5.
Proof. rewrite distance_point_R by (try discriminate; reflexivity). f_equal. apply len_eq_val; simpl; lra. Qed.

(** ** C20  centroid, mean_center *)
Theorem C20_centroid_mean : forall (d : nat) (rows : list pt), points_ok d rows ->
  exists c, centroid (N:=RNum) rows = Ok c /\ length c = d /\
    (forall j, nth j c 0 = Rsum (map (fun r => nth j r 0) rows) / INR (length rows)) /\
    (forall q, length q = d -> q <> c -> sumsq rows c < sumsq rows q).
Proof.
  intros d rows H. exists (cent d rows). pose proof H as (Hne & Hd & F). rewrite (centroid_R d) by auto. split; auto.
  split; [apply length_cent; auto|]. split; [intro; apply cent_nth; auto|].
  intros q Lq Hq. rewrite (sumsq_split d rows q) by auto. pose proof (INR_length_pos rows Hne).
  assert (0 < dist q (cent d rows)).
  { destruct (dist_nonneg q (cent d rows)) as [P|E]; auto. symmetry in E. apply dist_zero_iff in E; [contradiction|]. rewrite length_cent; auto. }
  assert (0 < INR (length rows) * (dist q (cent d rows) * dist q (cent d rows))) by (repeat apply Rmult_lt_0_compat; auto). lra.
Qed.
Print Assumptions C20_centroid_mean.

Theorem C20_centroid_permutation : forall (d : nat) (rows rows' : list pt), points_ok d rows -> Permutation rows rows' ->
  centroid (N:=RNum) rows' = centroid (N:=RNum) rows.
Proof.
  intros d rows rows' H P. pose proof H as (Hne & Hd & F).
  assert (H' : points_ok d rows').
  { split; [intro; subst; apply Permutation_sym, Permutation_nil in P; contradiction|]. split; auto. eapply Permutation_Forall; eauto. }
  rewrite !(centroid_R d) by auto. f_equal. unfold cent. rewrite (vsum_perm d rows rows'), (Permutation_length P); auto.
Qed.
Print Assumptions C20_centroid_permutation.

Theorem C20_centroid_translation : forall (d : nat) (rows : list pt) (t c : pt), points_ok d rows -> length t = d ->
  centroid (N:=RNum) rows = Ok c -> centroid (N:=RNum) (map (add t) rows) = Ok (add t c).
Proof.
  intros d rows t c H Lt Hc. pose proof H as (Hne & Hd & F). rewrite (centroid_R d) in Hc by auto. injection Hc as <-.
  assert (F' : Forall (fun r => length r = d) (map (add t) rows)).
  { apply Forall_map. eapply Forall_impl; [|exact F]. simpl. intros; len. }
  assert (H' : points_ok d (map (add t) rows)) by (split; [destruct rows; [contradiction|discriminate]|auto]).
  rewrite (centroid_R d) by auto. f_equal. apply pt_ext.
  - rewrite length_add, !length_cent by auto. rewrite Lt. lia.
  - intros i _. rewrite nth_add by (rewrite length_cent; auto). destruct H' as (H' & _ & _). rewrite !cent_nth by auto. rewrite map_length, map_map.
    rewrite (Rsum_map_ext _ (fun r => nth i t 0 + nth i r 0)).
    + rewrite (Rsum_map_add (fun _ => nth i t 0)), Rsum_map_const. pose proof (INR_length_pos rows Hne). field. lra.
    + intros r Hr. rewrite Forall_forall in F. apply nth_add. rewrite (F r Hr); auto.
Qed.
Print Assumptions C20_centroid_translation.

Theorem C20_mean_center : forall (d : nat) (rows : list pt), points_ok d rows ->
  exists m c, mean_center (N:=RNum) rows = Ok m /\ mean_center_c (N:=RNum) rows = Ok (m, c) /\ centroid (N:=RNum) rows = Ok c /\
    length m = length rows /\ points_ok d m /\ centroid (N:=RNum) m = Ok (origin d) /\ map (fun r => add r c) m = rows /\
    (forall i j, (i < length rows)%nat -> (j < length rows)%nat ->
       sub (nth i m []) (nth j m []) = sub (nth i rows []) (nth j rows [])).
Proof.
  intros d rows H. pose proof H as (Hne & Hd & F). set (c := cent d rows). exists (map (fun r => sub r c) rows), c.
  assert (Lc : length c = d) by (apply length_cent; auto).
  assert (Lr : forall r, In r rows -> length r = d) by (rewrite Forall_forall in F; auto).
  unfold mean_center. rewrite (mean_center_c_R d) by auto. split; auto. split; auto. split; [apply centroid_R; auto|].
  split; [apply map_length|].
  assert (H' : points_ok d (map (fun r => sub r c) rows)).
  { split; [destruct rows; [contradiction|discriminate]|]. split; auto. apply Forall_map. eapply Forall_impl; [|exact F]. simpl; intros; len. }
  split; auto. split. { rewrite (centroid_R d) by auto. f_equal. unfold cent. unfold c at 2. rewrite vsum_centered by auto. apply scale_origin. }
  split.
  - rewrite map_map. rewrite <- (map_id rows) at 2. apply map_ext_in. intros r Hr. rewrite add_comm. apply add_sub_cancel. rewrite (Lr r Hr); auto.
  - intros i j Hi Hj. assert (E : forall k, (k < length rows)%nat -> nth k (map (fun r => sub r c) rows) [] = sub (nth k rows []) c).
    { intros k Hk. rewrite (nth_indep _ [] (sub [] c)) by (rewrite map_length; auto). apply (map_nth (fun r => sub r c)). }
    rewrite !E by auto.
    assert (Li := Lr _ (nth_In rows [] Hi)). assert (Lj := Lr _ (nth_In rows [] Hj)). rewrite <- sub_via; auto; congruence.
Qed.
Print Assumptions C20_mean_center.

Example C20_nonvacuous : points_ok 2 [[0; 0]; [2; 4]] /\ centroid (N:=RNum) [[0; 0]; [2; 4]] = Ok [1; 2].
Proof.
  assert (H : points_ok 2 [[0; 0]; [2; 4]]) by (split; [discriminate|split; [lia|repeat constructor]]). split; auto.
  rewrite (centroid_R 2) by auto. f_equal. unfold cent, scale. simpl.
  apply (f_equal2 (@cons R)); [lra|]. apply (f_equal2 (@cons R)); [lra|reflexivity].
Qed.

(** ** C21  normalize_distance *)
Theorem C21_normalize_distance : forall (d : nat) (rows : list pt), points_ok d rows -> (exists r, In r rows /\ ~ is_zero_vec r) ->
  exists k m, 0 < k /\ m = map (scale k) rows /\ normalize_distance (N:=RNum) rows = Ok m /\
    (forall r, In r m -> len r <= 1) /\ (exists r, In r m /\ len r = 1) /\ normalize_distance (N:=RNum) m = Ok m.
Proof.
  intros d rows (Hne & Hd & F) (r0 & Hr0 & Hz).
  set (M := vmax (N:=RNum) (map (norm_raw (N:=RNum)) rows)).
  assert (Hm : map (norm_raw (N:=RNum)) rows <> []) by (destruct rows; [contradiction|discriminate]).
  destruct (vmax_spec _ Hm) as (Min & Mle). fold M in Min, Mle.
  assert (Mpos : 0 < M). { pose proof (len_pos r0 Hz). assert (len r0 <= M) by (apply Mle; rewrite <- norm_raw_len; apply in_map; auto). lra. }
  exists (/ M), (map (scale (/ M)) rows). pose proof (Rinv_0_lt_compat M Mpos). split; auto. split; auto.
  assert (E : normalize_distance (N:=RNum) rows = Ok (map (scale (/ M)) rows)).
  { unfold normalize_distance. apply mapM_map. intros r _. apply vdivs_R. fold M. lra. }
  split; auto.
  assert (Le : forall r, In r (map (scale (/ M)) rows) -> len r <= 1).
  { intros r Hr. apply in_map_iff in Hr as (q & <- & Hq). rewrite len_scale, Rabs_pos_eq by lra.
    assert (len q <= M) by (apply Mle; rewrite <- norm_raw_len; apply in_map; auto).
    apply Rmult_le_reg_l with M; auto. rewrite <- Rmult_assoc, Rinv_r by lra. lra. }
  assert (Ex : exists r, In r (map (scale (/ M)) rows) /\ len r = 1).
  { apply in_map_iff in Min as (q & Eq & Hq). exists (scale (/ M) q). split; [apply in_map; auto|].
    rewrite len_scale, Rabs_pos_eq by lra. rewrite <- norm_raw_len, Eq. field. lra. }
  split; auto. split; auto.
  set (m := map (scale (/ M)) rows) in *.
  assert (Hm2 : map (norm_raw (N:=RNum)) m <> []) by (unfold m; destruct rows; [contradiction|discriminate]).
  destruct (vmax_spec _ Hm2) as (Min2 & Mle2). set (M2 := vmax (N:=RNum) (map (norm_raw (N:=RNum)) m)) in *.
  assert (M2 = 1).
  { apply Rle_antisym.
    - apply in_map_iff in Min2 as (q & Eq & Hq). rewrite <- Eq, norm_raw_len. auto.
    - destruct Ex as (r & Hr & E1). rewrite <- E1. apply Mle2. rewrite <- norm_raw_len. apply in_map; auto. }
  unfold normalize_distance. fold M2. rewrite H0. rewrite (mapM_map _ (fun r => r)).
  - rewrite map_id. reflexivity.
  - intros r _. rewrite vdivs_R by lra. rewrite Rinv_1, scale_1. reflexivity.
Qed.
Print Assumptions C21_normalize_distance.

Theorem C21_normalize_all_zero : forall (d : nat) (rows : list pt), points_ok d rows -> (forall r, In r rows -> is_zero_vec r) ->
  normalize_distance (N:=RNum) rows = NonFinite.
Proof.
  intros d rows (Hne & Hd & F) Z.
  assert (Hm : map (norm_raw (N:=RNum)) rows <> []) by (destruct rows; [contradiction|discriminate]).
  destruct (vmax_spec _ Hm) as (Min & _). unfold normalize_distance. set (M := vmax (N:=RNum) (map (norm_raw (N:=RNum)) rows)) in *.
  apply in_map_iff in Min as (q & Eq & Hq). rewrite norm_raw_len in Eq. rewrite (proj2 (len_zero_iff q) (Z q Hq)) in Eq.
  rewrite <- Eq. destruct F as [|r rows Hr F]; [contradiction|]. destruct r as [|x r]; [simpl in Hr; lia|].
  cbn [mapM]. unfold vdivs at 1. cbn [mapM]. rewrite ndiv_R0. reflexivity.
Qed.
Print Assumptions C21_normalize_all_zero.

Example C21_nonvacuous : exists r, In r [[0; 0]; [3; 4]] /\ ~ is_zero_vec r.
Proof. exists [3; 4]. split; [simpl; auto|]. intro H. inversion H. lra. Qed.

(** ** C22  unique *)
Theorem C22_unique : forall (d : nat) (rows : list pt), points_ok d rows ->
  exists u, unique (N:=RNum) rows = Ok u /\ points_ok d u /\ (forall x, In x u <-> In x rows) /\ NoDup u /\
    StronglySorted lex_lt u /\ unique (N:=RNum) u = Ok u /\
    (forall rows', points_ok d rows' -> (forall x, In x rows' <-> In x rows) -> unique (N:=RNum) rows' = Ok u).
Proof.
  intros d rows H. destruct (unique_R d rows H) as [E Hu]. pose proof H as (Hne & Hd & F). destruct (np_unique_spec d rows F) as (S & I & L).
  exists (np_unique (N:=RNum) rows). split; auto. split; auto. split; auto. split; [apply sorted_nodup; auto|]. split; auto.
  assert (K : forall rows', points_ok d rows' -> (forall x, In x rows' <-> In x rows) -> unique (N:=RNum) rows' = Ok (np_unique (N:=RNum) rows)).
  { intros rows' H' I'. destruct (unique_R d rows' H') as [-> _]. f_equal. destruct H' as (_ & _ & F').
    destruct (np_unique_spec d rows' F') as (S' & I'' & _). apply sorted_unique; auto. intro x. rewrite I'', I, I'. tauto. }
  split; auto.
Qed.
Print Assumptions C22_unique.

Example C22_nonvacuous : unique (N:=RNum) [[2; 1]; [1; 5]; [2; 1]] = Ok [[1; 5]; [2; 1]].
Proof.
  unfold unique, np_unique. cbn [fold_right insert_row lex_ltb row_eqb]. rops. rcmp. cbn [insert_row lex_ltb row_eqb]. rops. rcmp.
  apply (points_of_R _ 2); [discriminate|lia|repeat constructor].
Qed.

(** ** C24  transform_coordinates, Line.transform_points *)
Lemma transform_R d (ps basis : list pt) (o : pt) : points_ok d ps -> points_ok d basis -> length o = d ->
  transform_coordinates (N:=RNum) ps o basis = Ok (map (fun p => map (fun b => dot (sub p o) b) basis) ps).
Proof.
  intros (Hp & Hd & Fp) (Hb & _ & Fb) Lo. unfold transform_coordinates. rewrite (as2d_R ps d) by auto. cbn [bind].
  rewrite Forall_forall in Fp, Fb.
  rewrite (mapM_map _ (fun r => sub r o)). 2:{ intros r Hr. rewrite bcast_eq by (rewrite Fp; auto). rops. rewrite map2_sub. reflexivity. }
  cbn [bind]. rewrite (as2d_R basis d) by (auto; apply Forall_forall; auto). cbn [bind].
  rewrite (mapM_map _ (fun v => map (fun b => dot v b) basis)). { rewrite map_map. reflexivity. }
  intros v Hv. apply in_map_iff in Hv as (r & <- & Hr). apply mapM_map. intros b Hb'. apply np_dot_R.
  rewrite (Fb b Hb'). pose proof (Fp r Hr). len.
Qed.

Theorem C24_transform_coordinates : forall (d : nat) (ps basis : list pt) (o : pt), points_ok d ps -> points_ok d basis -> length o = d ->
  exists out, transform_coordinates (N:=RNum) ps o basis = Ok out /\ length out = length ps /\
    forall i j, (i < length ps)%nat -> (j < length basis)%nat ->
      nth j (nth i out []) 0 = dot (sub (nth i ps []) o) (nth j basis []).
Proof.
  intros d ps basis o Hp Hb Lo. eexists. split; [apply (transform_R d); auto|]. split; [apply map_length|].
  intros i j Hi Hj. rewrite (nth_indep _ [] ((fun p => map (fun b => dot (sub p o) b) basis) [])) by (rewrite map_length; auto).
  rewrite (map_nth (fun p => map (fun b => dot (sub p o) b) basis)).
  rewrite (nth_indep _ 0 ((fun b => dot (sub (nth i ps []) o) b) [])) by (rewrite map_length; auto).
  rewrite (map_nth (fun b => dot (sub (nth i ps []) o) b)). reflexivity.
Qed.
Print Assumptions C24_transform_coordinates.

(** For an orthonormal basis and points [o + sum c_ij b_j] the result is exactly the coordinates [c_ij];
    hence it is inverted by [o + sum coords * basis] and preserves distances. *)
Theorem C24_transform_orthonormal : forall (d : nat) (coords : list (list R)) (basis : list pt) (o : pt),
  coords <> [] -> points_ok d basis -> orthonormal basis -> length o = d -> Forall (fun c => length c = length basis) coords ->
  let ps := map (fun c => add o (lincomb d c basis)) coords in
  transform_coordinates (N:=RNum) ps o basis = Ok coords /\
  (forall c e, In c coords -> In e coords ->
     dist (add o (lincomb d c basis)) (add o (lincomb d e basis)) = dist c e).
Proof.
  intros d coords basis o Hc Hb On Lo Fc ps. pose proof Hb as (Hbn & Hd & Fb). rewrite Forall_forall in Fc.
  assert (LL : forall c, length (lincomb d c basis) = d) by (intro; apply length_lincomb; auto).
  split.
  - rewrite (transform_R d); auto.
    + f_equal. unfold ps. rewrite map_map. rewrite <- (map_id coords) at 2. apply map_ext_in. intros c Hin.
      rewrite sub_add_cancel by (rewrite LL; auto). apply coords_lincomb; auto.
    + split; [unfold ps; destruct coords; [contradiction|discriminate]|]. split; auto. unfold ps. apply Forall_map.
      apply Forall_forall. intros c _. rewrite length_add, LL. lia.
  - intros c e Hi He. rewrite dist_translate by (rewrite LL; auto).
    unfold dist. apply len_eq_iff.
    assert (L1 := Fc c Hi). assert (L2 := Fc e He).
    rewrite !dot_sub_l by (rewrite ?LL; congruence). rewrite !dot_sub_r by (rewrite ?LL; congruence). rewrite !dot_lincomb by auto. ring.
Qed.
Print Assumptions C24_transform_orthonormal.

Theorem C24_line_transform_points : forall (d : nat) (p v : pt) (l : line RNum) (ps : list pt),
  points_ok d ps -> length p = d -> line_new (N:=RNum) p v = Ok l ->
  exists ts u, line_transform_points l ps = Ok ts /\ length ts = length ps /\ unit_vec (N:=RNum) v = Ok u /\
    forall i, (i < length ps)%nat ->
      line_project_point l (nth i ps []) = Ok (add p (scale (nth i ts 0) u)).
Proof.
  intros d p v l ps Hps Lp Hl. pose proof Hps as (Hne & Hd & F). apply line_new_inv in Hl as (-> & Lv & Hz & Hpe).
  pose proof (len_pos v Hz) as Pv.
  unfold line_transform_points. cbn [l_dir l_point]. rewrite unit_R by auto. cbn [bind]. unfold to_array.
  assert (Hb : points_ok d [scale (/ len v) v]).
  { split; [discriminate|]. split; auto. constructor; [rewrite length_scale; congruence|constructor]. }
  rewrite (transform_R d) by auto. cbn [bind]. do 2 eexists. split; [reflexivity|].
  assert (Ec : forall (A : Type) (f : A -> R) (xs : list A), concat (map (fun x => [f x]) xs) = map f xs).
  { intros A f xs. induction xs; simpl; congruence. }
  cbn [map]. rewrite (Ec _ (fun x => dot (sub x p) (scale (/ len v) v))). split; [apply map_length|]. split; [reflexivity|].
  intros i Hi. set (q := nth i ps []). assert (Lq : length q = d).
  { rewrite Forall_forall in F. apply F. apply nth_In; auto. }
  rewrite (nth_indep _ 0 ((fun x => dot (sub x p) (scale (/ len v) v)) [])) by (rewrite map_length; auto).
  rewrite (map_nth (fun x => dot (sub x p) (scale (/ len v) v))). fold q.
  unfold line_project_point. cbn [l_point l_dir]. rewrite from_points_R by (auto; congruence). cbn [bind].
  rewrite project_vector_R by (auto; len). cbn [bind]. rewrite vadd_R by len. f_equal. f_equal.
  rewrite scale_scale, dot_scale_r. f_equal. rewrite (dot_comm v), <- len_sq. field. lra.
Qed.
Print Assumptions C24_line_transform_points.

Example C24_nonvacuous : points_ok 2 [[1; 0]; [0; 1]] /\ orthonormal [[3/5; 4/5]; [-4/5; 3/5]].
Proof.
  split; [split; [discriminate|split; [lia|repeat constructor]]|]. split.
  - simpl. intros b [<-|[<-|[]]]; simpl; lra.
  - constructor; [repeat constructor; simpl; lra|]. constructor; [constructor|]. constructor.
Qed.
