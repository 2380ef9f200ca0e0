(** * Property C74: results do not depend on the linear-algebra backend

    np.linalg.svd / solve / lstsq only promise a correct answer; a singular value decomposition is not unique
    (signs, order of equal values, completion of the bases), so different LAPACK builds return different ones.
    Every query of the library that is not a best-fit direction gives the same answer with every correct backend. *)
From Coq Require Import String Reals List ZArith Lra Lia Psatz Bool.
From Verif.Model Require Import Outcome Num Instances Numpy BaseArray Vector Points Functions Line Plane LineSegment Sphere Triangle Cylinder Heap.
From Verif.Spec Require Import Geometry Tolerance Mesh Linalg.
From Verif.Proof Require Import VecAlg Bridge Arrays Vectors Points Lines Lincomb Svd SvdExists Ranks Singular Fits.
From Verif.Prop Require Import Arrays Points Planes Ranks Fits Balls Spheres BallFits.
Import ListNotations.
Local Open Scope R_scope.

Section Two.
Context (LA LA' : linalg RNum) (H : svd_correct LA) (H' : svd_correct LA').

Lemma same_sv d A : points_ok d A -> exists U S Vh U' Vh', la_svd LA A = Ok (U, S, Vh) /\ la_svd LA' A = Ok (U', S, Vh').
Proof.
  intro HA. destruct (H d A HA) as (U & S & Vh & E & Hs), (H' d A HA) as (U' & S' & Vh' & E' & Hs').
  rewrite (sv_unique d A _ _ _ _ _ _ HA Hs Hs') in *. eauto 10.
Qed.

(** Any rows (also invalid ones), any tolerance. *)
Theorem C74_affine_rank : forall (tolerance : option R) (rows : list pt), affine_rank LA tolerance rows = affine_rank LA' tolerance rows.
Proof.
  intros tolerance rows. unfold affine_rank, unique. destruct (points_of (np_unique (N:=RNum) rows)) as [u| |] eqn:E; cbn [bind]; auto.
  apply points_of_inv in E as (-> & Hne & Hd & F & _). set (u := np_unique (N:=RNum) rows) in *. set (d := dim2 (N:=RNum) u) in *.
  assert (Hu : points_ok d u) by (split; auto). unfold mean_center. rewrite (mean_center_c_R d) by auto. cbn [bind].
  unfold matrix_rank. destruct (same_sv d _ (centered_ok d u Hu)) as (U & S & Vh & U' & Vh' & E1 & E2).
  unfold centered in E1, E2. rewrite E1, E2. reflexivity.
Qed.
Theorem C74_predicates : forall (tolerance : option R) (rows : list pt) (l : line RNum) (o : line_or_plane RNum),
  are_concurrent LA tolerance rows = are_concurrent LA' tolerance rows /\
  are_collinear LA tolerance rows = are_collinear LA' tolerance rows /\
  are_coplanar LA tolerance rows = are_coplanar LA' tolerance rows /\
  line_is_coplanar_obj LA tolerance l o = line_is_coplanar_obj LA' tolerance l o.
Proof.
  intros tolerance rows l o. split; [|split; [|split]].
  - unfold are_concurrent. rewrite C74_affine_rank. reflexivity.
  - unfold are_collinear. rewrite C74_affine_rank. reflexivity.
  - unfold are_coplanar. rewrite C74_affine_rank. reflexivity.
  - destruct o as [m|m]; [|reflexivity]. unfold line_is_coplanar_obj, line_is_coplanar.
    destruct (line_to_point l n1); cbn [bind]; auto. destruct (line_to_point m n1); cbn [bind]; auto.
    destruct (points_of _); cbn [bind]; auto. unfold are_coplanar. rewrite C74_affine_rank. reflexivity.
Qed.
Lemma collinear_same tolerance rows : are_collinear LA tolerance rows = are_collinear LA' tolerance rows.
Proof. apply (C74_predicates tolerance rows (MkLine [] []) (LineObj (MkLine [] []))). Qed.
Lemma line_coplanar_same tolerance l m : line_is_coplanar LA tolerance l m = line_is_coplanar LA' tolerance l m.
Proof. apply (C74_predicates tolerance [] l (LineObj m)). Qed.

Theorem C74_constructors : forall (tolerance : option R) (a b c : pt),
  triangle_new LA a b c = triangle_new LA' a b c /\
  plane_from_points LA tolerance a b c = plane_from_points LA' tolerance a b c /\
  circle_from_points LA tolerance a b c = circle_from_points LA' tolerance a b c.
Proof.
  intros tolerance a b c. split; [|split].
  - unfold triangle_new. destruct (point_of a); cbn [bind]; auto. destruct (point_of b); cbn [bind]; auto. destruct (point_of c); cbn [bind]; auto.
    destruct (negb _); auto. destruct (points_of _); cbn [bind]; auto. rewrite collinear_same. reflexivity.
  - unfold plane_from_points. destruct (points_of _); cbn [bind]; auto. rewrite collinear_same. reflexivity.
  - unfold circle_from_points. destruct (point_of a); cbn [bind]; auto. destruct (point_of b); cbn [bind]; auto. destruct (point_of c); cbn [bind]; auto.
    destruct (orb _ _); cbn [bind]; auto; repeat (destruct (negb _); cbn [bind]; auto); destruct (points_of _); cbn [bind]; auto; rewrite collinear_same; reflexivity.
Qed.
Theorem C74_line_pairs : forall (t : tol RNum) (check : bool) (l m : line RNum) (s s' : segment RNum) (tr : triangle RNum),
  line_distance_line LA l m = line_distance_line LA' l m /\
  line_intersect_line LA t check l m = line_intersect_line LA' t check l m /\
  segment_intersect_segment LA t check s s' = segment_intersect_segment LA' t check s s' /\
  triangle_orthocenter LA t check tr = triangle_orthocenter LA' t check tr.
Proof.
  intros t check l m s s' tr.
  assert (I : forall l m, line_intersect_line LA t check l m = line_intersect_line LA' t check l m).
  { intros x y. unfold line_intersect_line. destruct (negb _); auto. destruct (orb _ _); auto. destruct (is_parallel _ _ _) as [[|]| |]; cbn [bind]; auto.
    destruct check; [rewrite line_coplanar_same|]; reflexivity. }
  split; [|split; [apply I|split]].
  - unfold line_distance_line. destruct (is_parallel _ _ _) as [[|]| |]; cbn [bind]; auto. rewrite line_coplanar_same. reflexivity.
  - unfold segment_intersect_segment. destruct (line_from_points _ _); cbn [bind]; auto. destruct (line_from_points _ _); cbn [bind]; auto. rewrite I. reflexivity.
  - unfold triangle_orthocenter. destruct (triangle_altitude _ _); cbn [bind]; auto. destruct (triangle_altitude _ _); cbn [bind]; auto.
Qed.
(** Plane.intersect_plane, for all plane objects and all tolerances. *)
Theorem C74_intersect_plane : forall (t : tol RNum) (p n q m : pt) (pl pl' : plane RNum), solve_correct LA -> solve_correct LA' ->
  plane_new (N:=RNum) p n = Ok pl -> plane_new (N:=RNum) q m = Ok pl' -> plane_intersect_plane LA t pl pl' = plane_intersect_plane LA' t pl pl'.
Proof.
  intros t p n q m pl pl' HS HS' Hp Hq. apply plane_new_inv in Hp as (-> & Op). apply plane_new_inv in Hq as (-> & Oq).
  pose proof Op as (Ln & Zn & _). pose proof Oq as (Lm & Zm & _).
  unfold plane_intersect_plane. cbn [pl_normal pl_point]. rn. destruct (is_parallel t n m) as [[|]| |] eqn:Ep; cbn [bind]; auto.
  destruct n as [|a1 [|a2 [|a3 [|]]]]; auto. destruct m as [|b1 [|b2 [|b3 [|]]]]; auto.
  assert (Ht : tol_ok t).
  { apply Classical_Prop.NNPP. intro Nt. unfold is_parallel, por, is_zero in Ep. rewrite np_dot_R in Ep by auto. cbn [bind] in Ep. rewrite isclose_neg in Ep by auto. discriminate. }
  assert (Hi : ~ dependent [a1; a2; a3] [b1; b2; b3]) by (apply (not_parallel_independent t); auto; discriminate).
  pose proof (kkt_nonsingular a1 a2 a3 b1 b2 b3 Hi) as NS.
  rewrite !np_dot_R by (simpl in *; lia). cbn [bind]. rops. change (nofZ 2) with 2. change (IZR 2) with 2.
  set (y := [0; 0; 0; dot p [a1; a2; a3]; dot q [b1; b2; b3]]) in *. change (n0 : num RNum) with 0. change (nofZ (n:=RNum) 2) with 2. rn.
  match type of NS with nonsingular 5 ?M => set (A := M) in *; destruct (HS A y) as (x & Ex & Lx & Eq); [discriminate|repeat constructor|reflexivity|exact NS|];
     destruct (HS' A y) as (x' & Ex' & Lx' & Eq'); [discriminate|repeat constructor|reflexivity|exact NS|] end.
  assert (x = x').
  { assert (Lx5 : @length R x = 5%nat) by exact Lx. assert (Lx5' : @length R x' = 5%nat) by exact Lx'.
    apply sub_zero_iff; [congruence|]. unfold is_zero_vec. rewrite length_sub, Lx5, Lx5'. apply NS; [rewrite length_sub, Lx5, Lx5'; reflexivity|].
    intros a Ha. assert (La : length a = 5%nat) by (repeat (destruct Ha as [<-|Ha]; [reflexivity|]); contradiction).
    rewrite dot_sub_r by congruence. assert (G : forall a, In a A -> dot a x = dot a x').
    { rewrite <- Eq' in Eq. clear -Eq. induction A as [|b B IH]; [contradiction|]. simpl in Eq. injection Eq as E1 E2. intros a [<-|Ha]; auto. }
    rewrite (G a Ha). ring. }
  subst x'. rewrite Ex, Ex'. reflexivity.
Qed.
(** A least-squares problem whose matrix has independent columns has one solution. *)
Lemma lstsq_unique d ps z z' : points_ok d ps -> ~ in_flat d (d - 1) ps -> length z = S d -> length z' = S d ->
  (forall w, length w = S d -> residual ps z <= residual ps w) -> (forall w, length w = S d -> residual ps z' <= residual ps w) -> z = z'.
Proof.
  intros HP Nf Lz Lz' M M'. pose proof HP as (Hne & Hd & F). destruct (fit_matrix_ok d ps HP) as (HM & HR).
  set (A := fit_matrix (N:=RNum) ps : list pt) in *. set (y := fit_rhs (N:=RNum) ps : pt) in *. change (@length R y = @length pt A) in HR.
  assert (Rz : residual ps z = residual ps z') by (apply Rle_antisym; auto).
  set (w := scale (/ 2) (add z z')). assert (Lw : length w = S d) by (unfold w; len).
  pose proof (M w Lw) as Q.
  assert (Im : forall x, map (fun a => dot a x) A = image A x) by reflexivity. unfold residual in Rz, Q. change (dist (image A z) y = dist (image A z') y) in Rz. change (dist (image A z) y <= dist (image A w) y) in Q.
  assert (LI : forall x, length (image A x) = length A) by (intro; apply map_length).
  set (u := sub (image A z) y). set (u' := sub (image A z') y). assert (Lu : length u = length A) by (unfold u; rewrite length_sub, LI, HR; lia). assert (Lu' : length u' = length A) by (unfold u'; rewrite length_sub, LI, HR; lia).
  assert (Ew : sub (image A w) y = scale (/ 2) (add u u')).
  { apply pt_ext; [rewrite length_sub, length_scale, length_add, LI, Lu, Lu'; rewrite HR; lia|]. intros i _. rewrite nth_sub by (rewrite LI; auto). rewrite nth_scale, nth_add by congruence.
    unfold u, u'. rewrite !nth_sub by (rewrite LI; auto). rewrite !nth_image. unfold w. rewrite dot_scale_r, dot_add_r by congruence. lra. }
  unfold dist in Rz, Q. rewrite Ew in Q. fold u in Rz, Q. fold u' in Rz. assert (Rq : dot u u = dot u' u') by (rewrite <- !len_sq, Rz; reflexivity).
  apply len_le_iff in Q. rewrite dot_scale_l, dot_scale_r, dot_add_add in Q by congruence.
  assert (Z : is_zero_vec (sub u u')). { apply dot_self_zero. rewrite dot_sub_sub by congruence. pose proof (dot_self_nonneg (sub u u')) as P. rewrite dot_sub_sub in P by congruence. lra. }
  assert (Luu : length u = length u') by congruence. apply (proj1 (sub_zero_iff u u' Luu)) in Z.
  assert (G : forall a, In a A -> dot a (sub z z') = 0).
  { intros a Ha. apply (In_nth _ _ []) in Ha as (i & Hi & <-). rewrite dot_sub_r by congruence. rewrite <- !nth_image.
    assert (E : nth i u 0 = nth i u' 0) by (rewrite Z; reflexivity). unfold u, u' in E. rewrite !nth_sub in E by (rewrite LI; auto). lra. }
  destruct (exists_last (l := sub z z')) as (c & k & Ec). { intro E. apply (f_equal (@length R)) in E. rewrite length_sub, Lz, Lz' in E. simpl in E. lia. }
  assert (Lc : length c = d). { apply (f_equal (@length R)) in Ec. rewrite length_sub, app_length, Lz, Lz' in Ec. simpl in Ec. lia. }
  rewrite Ec in G.
  assert (G2 : forall p, In p ps -> 2 * dot p c + k = 0).
  { intros p Hp. rewrite <- (G (vscale (N:=RNum) 2 p ++ [1])).
    - rewrite Forall_forall in F. change (vscale (N:=RNum)) with scale. rewrite dot_app by (rewrite length_scale, (F p Hp); auto). rewrite dot_scale_l. simpl. ring.
    - unfold A, fit_matrix. apply in_map_iff. exists p. split; auto. }
  assert (Zc : is_zero_vec c).
  { destruct (is_zero_vec_dec c) as [|Nz]; auto. exfalso. apply Nf. destruct ps as [|p0 ps]; [contradiction|]. pose proof (G2 p0 (or_introl eq_refl)) as G0.
    assert (F0 := Forall_inv F). apply (hyperplane_flat d c p0); auto. intros x Hx. rewrite Forall_forall in F. rewrite dot_sub_l by (rewrite (F x Hx); auto). pose proof (G2 x Hx). lra. }
  assert (k = 0). { destruct ps as [|p0 ps]; [contradiction|]. pose proof (G2 p0 (or_introl eq_refl)) as G0. rewrite Zc in G0. rewrite (dot_comm p0), dot_origin_l in G0. lra. }
  subst k. apply sub_zero_iff; [congruence|]. unfold is_zero_vec. rewrite Ec, Zc, app_length, length_origin, Lc. unfold origin. rewrite repeat_app. reflexivity.
Qed.
(** Circle.best_fit and Sphere.best_fit, for any points (also rejected ones). *)
Theorem C74_ball_fits : lstsq_correct LA -> lstsq_correct LA' -> forall (rows : list pt),
  circle_best_fit LA rows = circle_best_fit LA' rows /\ sphere_best_fit LA rows = sphere_best_fit LA' rows.
Proof.
  intros HL HL' rows.
  assert (K : forall d ps r, points_ok d ps -> affine_rank LA' None ps = Ok r -> r = d -> la_lstsq LA (fit_matrix ps) (fit_rhs ps) = la_lstsq LA' (fit_matrix ps) (fit_rhs ps)).
  { intros d ps r HP Er ->. destruct (fit_matrix_ok d ps HP) as (HM & HR). destruct (HL _ _ _ HM HR) as (z & Ez & Lz & Mz), (HL' _ _ _ HM HR) as (z' & Ez' & Lz' & Mz').
    rewrite Ez, Ez'. f_equal. apply (lstsq_unique d ps); auto. apply (rank_not_flat LA' d (d - 1) ps d); auto. destruct HP as (_ & Hd & _). lia. }
  split.
  - unfold circle_best_fit. destruct (points_of rows) as [ps| |] eqn:E; cbn [bind]; auto. apply points_of_inv in E as (-> & Hne & Hd & F & _).
    destruct (Nat.eqb_spec (dim2 (N:=RNum) rows) 2) as [E2|E2]; cbn [negb]; auto. destruct (Nat.ltb _ _); auto. rewrite C74_affine_rank.
    destruct (affine_rank LA' None rows) as [r| |] eqn:Er; cbn [bind]; auto. destruct (Nat.eqb_spec r 2) as [E3|E3]; cbn [negb]; auto.
    rn. rewrite E2 in *. rewrite (K 2%nat rows r); auto. split; auto.
  - unfold sphere_best_fit. destruct (points_of rows) as [ps| |] eqn:E; cbn [bind]; auto. apply points_of_inv in E as (-> & Hne & Hd & F & _).
    destruct (Nat.eqb_spec (dim2 (N:=RNum) rows) 3) as [E2|E2]; cbn [negb]; auto. destruct (Nat.ltb _ _); auto. rewrite C74_affine_rank.
    destruct (affine_rank LA' None rows) as [r| |] eqn:Er; cbn [bind]; auto. destruct (Nat.eqb_spec r 3) as [E3|E3]; cbn [negb]; auto.
    rn. rewrite E2 in *. rewrite (K 3%nat rows r); auto. split; auto.
Qed.
(** Line.best_fit and Plane.best_fit: the same inputs are accepted, and the reported error and the point (the centroid) agree;
    only the direction (normal) is left to the backend (it is a minimiser by C33, C41). *)
Theorem C74_line_plane_fits : forall (tolerance : option R) (d : nat) (rows : list pt), points_ok d rows -> tol_nonneg tolerance ->
  ((exists e, line_best_fit_err LA tolerance rows = Raise e /\ line_best_fit_err LA' tolerance rows = Raise e) \/
   (exists p u u' err, line_best_fit_err LA tolerance rows = Ok (MkLine (N:=RNum) p u, err) /\ line_best_fit_err LA' tolerance rows = Ok (MkLine (N:=RNum) p u', err))) /\
  ((exists e, plane_best_fit_err LA tolerance rows = Raise e /\ plane_best_fit_err LA' tolerance rows = Raise e) \/
   (exists p n n' err, plane_best_fit_err LA tolerance rows = Ok (MkPlane (N:=RNum) p n, err) /\ plane_best_fit_err LA' tolerance rows = Ok (MkPlane (N:=RNum) p n', err))).
Proof.
  intros tolerance d rows Hr Ht. pose proof Hr as (Hne & Hd & F).
  destruct (affine_rank_R LA tolerance d rows H Hr) as (U0 & S0 & Vh0 & _ & E0). cbv zeta in E0. set (r0 := length (filter _ S0)) in E0.
  pose proof (C74_affine_rank tolerance rows) as E0'. rewrite E0 in E0'. symmetry in E0'. split.
  - destruct (Nat.eqb_spec r0 0) as [Z|Z].
    + left. exists (ValueError "The points must not be concurrent."). unfold line_best_fit_err, are_concurrent. rewrite (points_of_R rows d) by auto. cbn [bind].
      rn. rewrite E0, E0'. cbn [bind]. rewrite (proj2 (Nat.eqb_eq r0 0) Z). split; reflexivity.
    + right. assert (C : are_concurrent LA tolerance rows = Ok false) by (unfold are_concurrent; rn; rewrite E0; cbn [bind]; rewrite (proj2 (Nat.eqb_neq r0 0) Z); reflexivity).
      assert (C' : are_concurrent LA' tolerance rows = Ok false) by (unfold are_concurrent; rn; rewrite E0'; cbn [bind]; rewrite (proj2 (Nat.eqb_neq r0 0) Z); reflexivity).
      destruct (C33_line_best_fit LA tolerance d rows H Hr C) as (p & u & err & E1 & _ & N1 & K1 & Q1 & M1 & _).
      destruct (C33_line_best_fit LA' tolerance d rows H' Hr C') as (p' & u' & err' & E2 & _ & N2 & K2 & Q2 & M2 & _).
      pose proof (eq_trans (eq_sym K1) K2) as Ep. injection Ep as <-.
      assert (Lp : length p = d) by (rewrite (centroid_R d) in K1 by auto; injection K1 as <-; apply length_cent; auto).
      assert (err = err') by (apply Rle_antisym; [exact (M1 p u' _ err' N2 Lp Q2)|exact (M2 p u _ err N1 Lp Q1)]). subst err'. exists p, u, u', err. split; assumption.
  - destruct (Nat.eq_dec d 3) as [->|D3].
    2:{ left. exists (ValueError "The points must be 3D."). unfold plane_best_fit_err. rewrite (points_of_R rows d) by auto. cbn [bind]. rewrite (dim2_ok d) by auto. rewrite (proj2 (Nat.eqb_neq d 3) D3). split; reflexivity. }
    destruct (Nat.leb_spec r0 1) as [Z|Z].
    + left. exists (ValueError "The points must not be collinear."). unfold plane_best_fit_err, are_collinear. rewrite (points_of_R rows 3) by auto. cbn [bind]. rewrite (dim2_ok 3) by auto. cbn [Nat.eqb negb].
      rn. rewrite E0, E0'. cbn [bind]. rewrite (proj2 (Nat.leb_le r0 1) Z). split; reflexivity.
    + right. assert (C : are_collinear LA tolerance rows = Ok false) by (unfold are_collinear; rn; rewrite E0; cbn [bind]; rewrite (proj2 (Nat.leb_gt r0 1) Z); reflexivity).
      assert (C' : are_collinear LA' tolerance rows = Ok false) by (unfold are_collinear; rn; rewrite E0'; cbn [bind]; rewrite (proj2 (Nat.leb_gt r0 1) Z); reflexivity).
      destruct (C41_plane_best_fit LA tolerance rows H Hr Ht C) as (p & u & err & E1 & _ & N1 & _ & K1 & Q1 & M1 & _).
      destruct (C41_plane_best_fit LA' tolerance rows H' Hr Ht C') as (p' & u' & err' & E2 & _ & N2 & _ & K2 & Q2 & M2 & _).
      pose proof (eq_trans (eq_sym K1) K2) as Ep. injection Ep as <-.
      assert (Lp : length p = 3%nat) by (rewrite (centroid_R 3) in K1 by auto; injection K1 as <-; apply length_cent; auto).
      assert (err = err') by (apply Rle_antisym; [exact (M1 p u' _ err' N2 Lp Q2)|exact (M2 p u _ err N1 Lp Q1)]). subst err'. exists p, u, u', err. split; assumption.
Qed.
(** All histories of calls (construction, sharing, in-place changes): the reached state is the same. *)
Theorem C74_histories : forall (np1 : bool) (os : list (op RNum)), run LA np1 initial os = run LA' np1 initial os.
Proof.
  intros np1 os. unfold run. generalize (initial (N:=RNum)). induction os as [|o os IH]; intro s; simpl; auto.
  assert (E : step LA np1 s o = step LA' np1 s o).
  { destruct o as [v|rs|a|a|a|c args|h k|h idx|h i|h i x|h i j x|h d|h|h d|hs g]; try reflexivity.
    cbn [step]. destruct (fields _ _ _) as [[m fs]| |]; cbn [bind]; auto.
    assert (C : comp_check LA c (map (read m) fs) = comp_check LA' c (map (read m) fs)).
    { destruct c; try reflexivity. unfold comp_check. destruct (map (read m) fs) as [|a [|b [|c [|]]]]; auto. rewrite (proj1 (C74_constructors None a b c)). reflexivity. }
    rewrite C. reflexivity. }
  unfold after at 2 4. rewrite E. apply IH.
Qed.
End Two.

Print Assumptions C74_affine_rank.
Print Assumptions C74_predicates.
Print Assumptions C74_constructors.
Print Assumptions C74_line_pairs.
Print Assumptions C74_intersect_plane.
Print Assumptions C74_ball_fits.
Print Assumptions C74_line_plane_fits.
Print Assumptions C74_histories.

(** There are different correct backends: one that returns the opposite singular vectors. *)
Definition flipped : linalg RNum := MkLinalg (N:=RNum)
  (fun A => match la_svd ideal_linalg A with Ok (U, s, Vh) => Ok (map (scale (-1)) U, s, map (scale (-1)) Vh) | e => e end)
  (la_solve ideal_linalg) (la_lstsq ideal_linalg).
Lemma ent_flip M i j : ent (map (scale (-1)) M) i j = - ent M i j.
Proof.
  unfold ent. destruct (Nat.lt_ge_cases i (length M)) as [L|L].
  - rewrite (nth_indep _ [] (scale (-1) [])) by (rewrite map_length; auto). rewrite map_nth, nth_scale. ring.
  - rewrite !nth_overflow with (n := i) by (rewrite ?map_length; auto). destruct j; simpl; ring.
Qed.
Lemma flipped_correct : svd_correct flipped /\ solve_correct flipped /\ lstsq_correct flipped.
Proof.
  destruct ideal_linalg_correct as (H1 & H2 & H3). split; [|split; [exact H2|exact H3]].
  intros d A HA. destruct (H1 d A HA) as (U & S & Vh & E & Hs). exists (map (scale (-1)) U), S, (map (scale (-1)) Vh). split.
  - unfold flipped. cbn [la_svd]. rewrite E. reflexivity.
  - assert (N : forall k, (k < length S)%nat -> nth k (map (scale (-1)) Vh) [] = scale (-1) (nth k Vh [])) by (intros; apply (map_nth (scale (-1)) Vh [])).
    constructor; try apply Hs.
    + rewrite map_length. apply Hs.
    + intros k Hk. rewrite N, length_scale by auto. apply Hs; auto.
    + intros j k Hj Hk. rewrite !N by auto. rewrite dot_scale_l, dot_scale_r, (sv_V _ _ _ _ _ Hs) by auto. ring.
    + intros j k Hj Hk. rewrite <- (sv_U _ _ _ _ _ Hs j k Hj Hk). apply Sum_ext. intros i _. rewrite !ent_flip. ring.
    + intros i j Hi Hj. rewrite (sv_A _ _ _ _ _ Hs i j Hi Hj). apply Sum_ext. intros k _. rewrite !ent_flip. ring.
Qed.
Example C74_nonvacuous : svd_correct ideal_linalg /\ svd_correct flipped /\ la_svd flipped [[1]] <> la_svd ideal_linalg [[1]] /\
  (forall rows, are_collinear flipped None rows = are_collinear ideal_linalg None rows) /\
  triangle_new flipped [0; 0] [1; 0] [0; 1] = triangle_new ideal_linalg [0; 0] [1; 0] [0; 1].
Proof.
  destruct ideal_linalg_correct as (H1 & _). destruct flipped_correct as (H2 & _). split; auto. split; auto. split; [|split].
  - assert (P : points_ok 1 [[1]]) by (split; [discriminate|split; [lia|repeat constructor]]).
    destruct (H1 1%nat [[1]] P) as (U & S & Vh & E & Hs). unfold flipped. cbn [la_svd]. rewrite E. intro Q. injection Q as Q _.
    pose proof (sv_len _ _ _ _ _ Hs) as L. simpl in L. pose proof (sv_U _ _ _ _ _ Hs 0%nat 0%nat ltac:(rn; lia) ltac:(rn; lia)) as G. rewrite delta_eq in G.
    unfold Sum in G. simpl in G. assert (Z : ent U 0 0 = - ent U 0 0) by (rewrite <- ent_flip, Q; reflexivity). nra.
  - intro rows. apply collinear_same; auto.
  - apply (C74_constructors flipped ideal_linalg H2 H1 None).
Qed.
