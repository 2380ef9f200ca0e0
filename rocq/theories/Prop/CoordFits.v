(** * Properties C50 (uniqueness of the best circle and sphere) and C75 (best fits in changed coordinates) *)
From Coq Require Import String Reals List ZArith Lra Lia Psatz Bool.
From Verif.Model Require Import Outcome Num Instances Numpy BaseArray Vector Points Functions Line Plane LineSegment Sphere Triangle Cylinder.
From Verif.Spec Require Import Geometry Tolerance Mesh Linalg Triangle Similarity Measure Cylinder.
From Verif.Proof Require Import VecAlg Bridge Arrays Vectors Points Lines Lincomb Svd SvdExists Ranks Singular Similarity SimRank Triangles Cylinders.
From Verif.Prop Require Import Arrays Vectors Points Planes LinePairs Fits Segments Balls Spheres BallFits Backends Triangles Measure Cylinders Coordinates CoordShapes CoordBalls CoordTriangles CoordCylinders.
Import ListNotations.
Local Open Scope R_scope.


Lemma best_unique d ps c k c' r' : points_ok d ps -> ~ in_flat d (d - 1) ps -> length c = d -> (forall w, length w = S d -> residual ps (c ++ [k]) <= residual ps w) -> length c' = d ->
  alg_error ps c' r' <= Rsum (map (fun p => (dist p c * dist p c - (k + dot c c)) * (dist p c * dist p c - (k + dot c c))) ps) -> c' = c /\ r' * r' = k + dot c c.
Proof.
  intros HP Nf Lc M Lc' A. pose proof HP as (Hne & Hd & F). set (z' := c' ++ [r' * r' - dot c' c']). assert (Lz' : length z' = S d) by (unfold z'; rewrite app_length; simpl; lia).
  assert (Lz : length (c ++ [k]) = S d) by (rewrite app_length; simpl; lia).
  assert (Ez : residual ps z' * residual ps z' = alg_error ps c' r').
  { unfold z'. rewrite (residual_sq d) by auto. unfold alg_error. apply Rsum_map_ext. intros p _. replace (r' * r' - dot c' c' + dot c' c') with (r' * r') by ring. reflexivity. }
  rewrite <- (residual_sq d) in A by auto. rewrite <- Ez in A.
  assert (P1 : 0 <= residual ps z') by apply dist_nonneg. assert (P2 : 0 <= residual ps (c ++ [k])) by apply dist_nonneg.
  assert (Q : residual ps z' <= residual ps (c ++ [k])) by nra.
  assert (E : z' = c ++ [k]). { apply (lstsq_unique d ps); auto. intros w Lw. eapply Rle_trans; [exact Q|apply M; auto]. }
  unfold z' in E. apply app_inj_tail in E as (-> & E). split; auto. lra.
Qed.
(** No other circle (sphere) has an algebraic error as small as the one returned: the best fit is the only minimiser. *)
Theorem C50_circle_unique : forall LA (ps : list pt) c r c' r', svd_correct LA -> lstsq_correct LA -> circle_best_fit LA ps = Ok (MkBall c r) ->
  length c' = 2%nat -> 0 <= r' -> alg_error ps c' r' <= alg_error ps c r -> c' = c /\ r' = r.
Proof.
  intros LA ps c r c' r' HS HL. unfold circle_best_fit. destruct (points_of ps) as [qs| |] eqn:E; cbn [bind]; [|discriminate|discriminate]. apply points_of_inv in E as (-> & Hne & Hd & F & _).
  destruct (Nat.eqb_spec (dim2 (N:=RNum) ps) 2) as [E2|E2]; cbn [negb]; [|discriminate]. destruct (Nat.ltb _ _); [discriminate|].
  destruct (affine_rank LA None ps) as [k| |] eqn:Er; cbn [bind]; [|discriminate|discriminate]. destruct (Nat.eqb_spec k 2) as [->|]; cbn [negb]; [|discriminate].
  rn. rewrite E2 in *. assert (HP : points_ok 2 ps) by (split; auto). destruct (fit_matrix_ok 2 ps HP) as (HM & HR). destruct (HL _ _ _ HM HR) as (z & Ez & Lz & Mz). rewrite Ez. cbn [bind].
  destruct (fit_core 2 ps z HP Lz Mz) as (w & k & -> & Lw & Q & Opt). destruct (list2 w Lw) as (c0 & c1 & ->). cbn [app]. rops.
  assert (S0 : k + c0 * c0 + c1 * c1 = k + dot [c0; c1] [c0; c1]) by (simpl; ring). rewrite S0.
  set (s := k + dot [c0; c1] [c0; c1]) in *. unfold np_sqrt. rops. destruct (Rltb s 0) eqn:G; [discriminate|]. apply Rltb_false in G. cbn [bind]. intros Hc Lc' Pr A.
  apply circle_inv in Hc as (Hc & P & _). injection Hc as -> ->. assert (Qr : sqrt s * sqrt s = s) by (apply sqrt_sqrt; lra). unfold alg_error at 2 in A. rewrite Qr in A.
  destruct (best_unique 2 ps [c0; c1] k c' r' HP) as (B1 & B2); auto.
  - apply (rank_not_flat LA 2 1 ps 2); auto.
  - split; auto. unfold s. rewrite <- B2. symmetry. apply sqrt_square. auto.
Qed.
Theorem C50_sphere_unique : forall LA (ps : list pt) c r c' r', svd_correct LA -> lstsq_correct LA -> sphere_best_fit LA ps = Ok (MkBall c r) ->
  length c' = 3%nat -> 0 <= r' -> alg_error ps c' r' <= alg_error ps c r -> c' = c /\ r' = r.
Proof.
  intros LA ps c r c' r' HS HL. unfold sphere_best_fit. destruct (points_of ps) as [qs| |] eqn:E; cbn [bind]; [|discriminate|discriminate]. apply points_of_inv in E as (-> & Hne & Hd & F & _).
  destruct (Nat.eqb_spec (dim2 (N:=RNum) ps) 3) as [E2|E2]; cbn [negb]; [|discriminate]. destruct (Nat.ltb _ _); [discriminate|].
  destruct (affine_rank LA None ps) as [k| |] eqn:Er; cbn [bind]; [|discriminate|discriminate]. destruct (Nat.eqb_spec k 3) as [->|]; cbn [negb]; [|discriminate].
  rn. rewrite E2 in *. assert (HP : points_ok 3 ps) by (split; auto). destruct (fit_matrix_ok 3 ps HP) as (HM & HR). destruct (HL _ _ _ HM HR) as (z & Ez & Lz & Mz). rewrite Ez. cbn [bind].
  destruct (fit_core 3 ps z HP Lz Mz) as (w & k & -> & Lw & Q & Opt). destruct (list3 w Lw) as (c0 & c1 & c2 & ->). cbn [app]. rops.
  rewrite dot_raw_dot. rewrite (Rplus_comm (dot [c0; c1; c2] [c0; c1; c2]) k).
  set (s := k + dot [c0; c1; c2] [c0; c1; c2]) in *. unfold np_sqrt. rops. destruct (Rltb s 0) eqn:G; [discriminate|]. apply Rltb_false in G. cbn [bind]. intros Hc Lc' Pr A.
  apply sphere_inv in Hc as (Hc & P & _). injection Hc as -> ->. assert (Qr : sqrt s * sqrt s = s) by (apply sqrt_sqrt; lra). unfold alg_error at 2 in A. rewrite Qr in A.
  destruct (best_unique 3 ps [c0; c1; c2] k c' r' HP) as (B1 & B2); auto.
  - apply (rank_not_flat LA 3 2 ps 3); auto.
  - split; auto. unfold s. rewrite <- B2. symmetry. apply sqrt_square. auto.
Qed.
Print Assumptions C50_circle_unique.
Print Assumptions C50_sphere_unique.

(** ** Fits in changed coordinates *)
Section S.
Context (n : nat) (s : R) (T : pt -> pt) (H : similarity n n s T) (Hn : (0 < n)%nat).
Notation V := (vmap n T).
Local Notation Ps := (sim_pos n n s T H).
Lemma alg_error_move ps c r : Forall (fun x => length x = n) ps -> length c = n -> alg_error (map T ps) (T c) (s * r) = s * s * (s * s) * alg_error ps c r.
Proof.
  intros F Lc. unfold alg_error. rewrite map_map, <- Rsum_map_scale. apply Rsum_map_ext. intros p Hp. rewrite Forall_forall in F. rewrite (sim_dist n n s T H) by auto. ring.
Qed.
Lemma min_dist_move (P P' : pt -> Prop) x r : (forall y, P' y <-> exists z, length z = n /\ y = T z /\ P z) -> (forall z, P z -> length z = n) -> length x = n -> (min_dist P' (T x) (s * r) <-> min_dist P x r).
Proof.
  intros I L Lx. pose proof Ps as Pp. split; intros ((y & Y & D) & M).
  - apply I in Y as (z & Lz & -> & Z). split.
    + exists z. split; auto. rewrite (sim_dist n n s T H) in D by auto. apply Rmult_eq_reg_l with s; lra.
    + intros w W. assert (Q : P' (T w)) by (apply I; exists w; auto). apply M in Q. rewrite (sim_dist n n s T H) in Q by auto. apply Rmult_le_reg_l with s; auto.
  - split.
    + exists (T y). split; [apply I; exists y; auto|]. rewrite (sim_dist n n s T H) by auto. rewrite D. reflexivity.
    + intros w W. apply I in W as (z & Lz & -> & Z). rewrite (sim_dist n n s T H) by auto. apply Rmult_le_compat_l; [lra|]. apply M; auto.
Qed.
Lemma sq_error_move (P P' : pt -> Prop) ps r : (forall y, P' y <-> exists z, length z = n /\ y = T z /\ P z) -> (forall z, P z -> length z = n) -> Forall (fun x => length x = n) ps ->
  sq_error P ps r -> sq_error P' (map T ps) (s * s * r).
Proof.
  intros I L F (ds & D & ->). exists (map (Rmult s) ds). split.
  - induction D as [|x d ps ds Dx D IH]; cbn [map]; constructor; [|apply IH; exact (Forall_inv_tail F)]. pose proof (Forall_inv F). apply (min_dist_move P P'); auto.
  - rewrite map_map, <- Rsum_map_scale, ?map_map. apply Rsum_map_ext. intros; ring.
Qed.
Lemma sq_error_back (P P' : pt -> Prop) ps r : (forall y, P' y <-> exists z, length z = n /\ y = T z /\ P z) -> (forall z, P z -> length z = n) -> Forall (fun x => length x = n) ps ->
  sq_error P' (map T ps) r -> sq_error P ps (/ (s * s) * r).
Proof.
  intros I L F (ds & D & ->). pose proof Ps as Pp. exists (map (Rmult (/ s)) ds). split.
  - revert ds D. induction ps as [|x ps IH]; intros ds D; inversion D as [|? d ? ds' Dx D']; subst; cbn [map]; constructor; [|apply IH; auto; exact (Forall_inv_tail F)].
    pose proof (Forall_inv F). apply (min_dist_move P P'); auto. rewrite <- Rmult_assoc, Rinv_r, Rmult_1_l by lra. auto.
  - rewrite <- Rsum_map_scale, !map_map. apply Rsum_map_ext. intros; field; lra.
Qed.
Lemma vmap_surj w : length w = n -> exists v, length v = n /\ w = V v.
Proof.
  intro Lw. destruct (sim_surj n n s T H (add (T (origin n)) w) eq_refl) as (x & Lx & E). { rewrite length_add, (sim_len n n s T H) by apply length_origin. lia. }
  exists x. split; auto. unfold vmap. rewrite <- E. symmetry. rewrite sub_add_cancel; auto. rewrite (sim_len n n s T H) by apply length_origin. auto.
Qed.
Lemma on_line_img p e : length p = n -> length e = n -> forall y, on_line (T p) (V e) y <-> exists z, length z = n /\ y = T z /\ on_line p e z.
Proof. intros Lp Le y. apply (sim_on_line_img n n s T H); auto. Qed.
Lemma on_plane_img p e : length p = n -> length e = n -> forall y, on_plane (T p) (V e) y <-> exists z, length z = n /\ y = T z /\ on_plane p e z.
Proof.
  intros Lp Le. apply (sim_img n n s T H); auto.
  - intros y (Ly & _). rewrite Ly. apply (sim_len n n s T H); auto.
  - intros x (Lx & _). congruence.
  - intros x Lx. apply (sim_on_plane n n s T H); auto.
Qed.
(** Line.best_fit and Plane.best_fit: the same inputs are accepted, the point is moved along, and the error is multiplied by s^2. *)
Theorem C75_line_fit : forall LA LA' (tolerance : option R) rows, svd_correct LA -> svd_correct LA' -> points_ok n rows -> tol_nonneg tolerance ->
  are_concurrent LA tolerance rows = Ok false ->
  exists p u u' err, line_best_fit_err LA tolerance rows = Ok (MkLine (N:=RNum) p u, err) /\
    line_best_fit_err LA' (option_map (Rmult s) tolerance) (map T rows) = Ok (MkLine (N:=RNum) (T p) u', s * s * err).
Proof.
  intros LA LA' tolerance rows HL HL' Hr Ht Hc. pose proof Hr as (Hne & Hd & F). pose proof Ps as P. pose proof (sim_points_ok n n s T H rows Hr) as Hr'.
  destruct (C75_points n n s T H LA LA' rows tolerance HL HL' Hr Ht) as (Ce & _ & K). destruct K as (_ & Ec & _); [left; reflexivity|]. rewrite Hc in Ec.
  destruct (C33_line_best_fit LA tolerance n rows HL Hr Hc) as (p & u & err & E1 & _ & N1 & K1 & Q1 & M1 & _).
  destruct (C33_line_best_fit LA' _ n (map T rows) HL' Hr' Ec) as (p' & u' & err' & E2 & _ & N2 & K2 & Q2 & M2 & _).
  assert (Lp : length p = n) by (rewrite (centroid_R n) in K1 by auto; injection K1 as <-; apply length_cent; auto).
  rn. rewrite K1 in Ce. unfold res_map in Ce; cbn [bind] in Ce. assert (Ep : p' = T p) by congruence. subst p'.
  exists p, u, u', err. split; [exact E1|]. rn. rewrite E2. assert (Ee : err' = s * s * err); [|rewrite Ee; reflexivity].
  pose proof (proj1 (line_new_iff _ _ _) N1) as (_ & (Lu & Zu & _)). pose proof (proj1 (line_new_iff _ _ _) N2) as (_ & (Lu' & Zu' & _)).
  assert (Lun : length u = n) by congruence. assert (Lun' : length u' = n) by (rewrite <- Lu'; apply (sim_len n n s T H); auto).
  assert (PL : forall e z, length e = n -> on_line p e z -> length z = n) by (intros e z Le Z; apply on_line_length in Z; congruence).
  apply Rle_antisym.
  - apply (M2 (T p) (V u) (MkLine (T p) (V u)) (s * s * err)).
    + apply line_new_iff. split; auto. apply (pv_move n n s T H Hn); auto. apply (proj1 (line_new_iff _ _ _) N1).
    + apply (sim_len n n s T H); auto.
    + apply (sq_error_move (on_line p u)); auto. apply on_line_img; auto. intros z Z. apply (PL u); auto.
  - destruct (vmap_surj u' Lun') as (w & Lw & ->).
    assert (B : err <= / (s * s) * err').
    { apply (M1 p w (MkLine p w) _).
      - apply line_new_iff. split; [reflexivity|]. split; [congruence|]. split; [intro Z; apply Zu', (proj2 (vmap_zero n n s T H w Lw)), Z|intro Z; rewrite Z in Lp; simpl in Lp; lia].
      - auto.
      - apply (sq_error_back (on_line p w) (on_line (T p) (V w))); auto. apply on_line_img; auto. intros z Z. apply (PL w); auto. }
    apply Rmult_le_compat_l with (r := s * s) in B; [|nra]. rewrite <- Rmult_assoc, Rinv_r, Rmult_1_l in B by nra. exact B.
Qed.
Theorem C75_plane_fit : forall LA LA' (tolerance : option R) rows, n = 3%nat -> svd_correct LA -> svd_correct LA' -> points_ok n rows -> tol_nonneg tolerance ->
  are_collinear LA tolerance rows = Ok false ->
  exists p u u' err, plane_best_fit_err LA tolerance rows = Ok (MkPlane (N:=RNum) p u, err) /\
    plane_best_fit_err LA' (option_map (Rmult s) tolerance) (map T rows) = Ok (MkPlane (N:=RNum) (T p) u', s * s * err).
Proof.
  intros LA LA' tolerance rows N3 HL HL' Hr Ht Hc. pose proof Hr as (Hne & Hd & F). pose proof Ps as P. pose proof (sim_points_ok n n s T H rows Hr) as Hr'.
  destruct (C75_points n n s T H LA LA' rows tolerance HL HL' Hr Ht) as (Ce & _ & K). destruct K as (_ & _ & Ec & _); [left; reflexivity|]. rewrite Hc in Ec.
  assert (Hr3 : points_ok 3 rows) by (rewrite <- N3; auto). assert (Hr3' : points_ok 3 (map T rows)) by (rewrite <- N3; auto).
  assert (Ht' : tol_nonneg (option_map (Rmult s) tolerance)) by (destruct tolerance; cbn in *; auto; apply Rmult_le_pos; lra).
  destruct (C41_plane_best_fit LA tolerance rows HL Hr3 Ht Hc) as (p & u & err & E1 & _ & N1 & _ & K1 & Q1 & M1 & _).
  destruct (C41_plane_best_fit LA' _ (map T rows) HL' Hr3' Ht' Ec) as (p' & u' & err' & E2 & _ & N2 & _ & K2 & Q2 & M2 & _).
  assert (Lp : length p = n) by (rewrite (centroid_R n) in K1 by auto; injection K1 as <-; apply length_cent; auto).
  rn. rewrite K1 in Ce. unfold res_map in Ce; cbn [bind] in Ce. assert (Ep : p' = T p) by congruence. subst p'.
  exists p, u, u', err. split; [exact E1|]. rn. rewrite E2. assert (Ee : err' = s * s * err); [|rewrite Ee; reflexivity].
  pose proof (plane_new_inv _ _ _ N1) as (_ & O1). pose proof (plane_new_inv _ _ _ N2) as (_ & O2). pose proof O1 as (Lu & Zu & _). pose proof O2 as (Lu' & Zu' & _).
  assert (Lun : length u = n) by congruence. assert (Lun' : length u' = n) by (rewrite <- Lu'; apply (sim_len n n s T H); auto).
  assert (PL : forall e z, on_plane p e z -> length z = n) by (intros e z (Lz & _); congruence).
  apply Rle_antisym.
  - apply (M2 (T p) (V u) (MkPlane (T p) (V u)) (s * s * err)).
    + apply plane_new_R. apply (pv_move n n s T H Hn); auto.
    + rewrite <- N3. apply (sim_len n n s T H); auto.
    + apply (sq_error_move (on_plane p u)); auto. apply on_plane_img; auto. apply PL.
  - destruct (vmap_surj u' Lun') as (w & Lw & ->).
    assert (B : err <= / (s * s) * err').
    { apply (M1 p w (MkPlane p w) _).
      - apply plane_new_R. split; [congruence|]. split; [intro Z; apply Zu', (proj2 (vmap_zero n n s T H w Lw)), Z|intro Z; rewrite Z in Lp; simpl in Lp; lia].
      - congruence.
      - apply (sq_error_back (on_plane p w) (on_plane (T p) (V w))); auto. apply on_plane_img; auto. apply PL. }
    apply Rmult_le_compat_l with (r := s * s) in B; [|nra]. rewrite <- Rmult_assoc, Rinv_r, Rmult_1_l in B by nra. exact B.
Qed.
(** Circle.best_fit and Sphere.best_fit: the fitted ball is moved along. *)
Theorem C75_ball_fits : forall LA LA' rows b, svd_correct LA -> svd_correct LA' -> lstsq_correct LA -> lstsq_correct LA' -> points_ok n rows ->
  (circle_best_fit LA rows = Ok b -> circle_best_fit LA' (map T rows) = Ok (move_ball s T b)) /\
  (sphere_best_fit LA rows = Ok b -> sphere_best_fit LA' (map T rows) = Ok (move_ball s T b)).
Proof.
  intros LA LA' rows b HL HL' HQ HQ' Hr. pose proof Hr as (Hne & Hd & F). pose proof Ps as P. pose proof (sim_points_ok n n s T H rows Hr) as Hr'.
  destruct (C75_points n n s T H LA LA' rows None HL HL' Hr I) as (_ & _ & K). destruct K as (Er & _); [left; reflexivity|]. cbn [option_map] in Er.
  split; intro Hb.
  - pose proof Hb as Hb0. unfold circle_best_fit in Hb. rewrite (points_of_R rows n) in Hb by auto. cbn [bind] in Hb. rewrite (dim2_ok n) in Hb by auto.
    destruct (Nat.eqb_spec n 2) as [N2|]; cbn [negb] in Hb; [|discriminate]. destruct (Nat.ltb_spec (length rows) 3) as [L3|L3]; rn; [rewrite (proj2 (Nat.ltb_lt _ _) L3) in Hb; discriminate|]. clear Hb.
    destruct (affine_rank LA None rows) as [k| |] eqn:Ek.
    2, 3: exfalso; revert Hb0; unfold circle_best_fit; rewrite (points_of_R rows n) by auto; cbn [bind]; rewrite (dim2_ok n), N2 by auto; cbn [Nat.eqb negb]; destruct (Nat.ltb _ _); [discriminate|rn; rewrite Ek; discriminate].
    assert (k = 2%nat). { revert Hb0; unfold circle_best_fit; rewrite (points_of_R rows n) by auto; cbn [bind]; rewrite (dim2_ok n), N2 by auto; cbn [Nat.eqb negb]; destruct (Nat.ltb _ _); [discriminate|rn; rewrite Ek; cbn [bind]; destruct (Nat.eqb_spec k 2); [auto|discriminate]]. }
    subst k. rewrite N2 in Hr, Hr'.
    destruct (C50_circle_best_fit LA rows HL HQ Hr L3 Ek) as (b0 & c & r & E0 & -> & Lc & Pr & M & _). rewrite E0 in Hb0. injection Hb0 as <-.
    destruct (C50_circle_best_fit LA' (map T rows) HL' HQ' Hr') as (b' & c' & r' & E1 & -> & Lc' & Pr' & M' & _); [rewrite map_length; auto|rn; rewrite Er; exact Ek|].
    rewrite E1. unfold move_ball. cbn [c_point c_radius].
    destruct (sim_surj n n s T H c' eq_refl) as (c0 & Lc0 & Ec); [exact (eq_trans Lc' (eq_sym N2))|]. subst c'. assert (Lcn : length c = n) by exact (eq_trans Lc (eq_sym N2)).
    destruct (C50_circle_unique LA' (map T rows) (T c0) r' (T c) (s * r) HL' HQ' E1) as (U1 & U2).
    + rewrite <- N2. apply (sim_len n n s T H); auto.
    + apply Rmult_le_pos; lra.
    + replace r' with (s * (r' / s)) by (field; lra). rewrite !alg_error_move by auto. apply Rmult_le_compat_l; [nra|]. apply M. exact (eq_trans Lc0 N2).
    + rewrite U1, U2. reflexivity.
  - pose proof Hb as Hb0. unfold sphere_best_fit in Hb. rewrite (points_of_R rows n) in Hb by auto. cbn [bind] in Hb. rewrite (dim2_ok n) in Hb by auto.
    destruct (Nat.eqb_spec n 3) as [N2|]; cbn [negb] in Hb; [|discriminate]. destruct (Nat.ltb_spec (length rows) 4) as [L3|L3]; rn; [rewrite (proj2 (Nat.ltb_lt _ _) L3) in Hb; discriminate|]. clear Hb.
    destruct (affine_rank LA None rows) as [k| |] eqn:Ek.
    2, 3: exfalso; revert Hb0; unfold sphere_best_fit; rewrite (points_of_R rows n) by auto; cbn [bind]; rewrite (dim2_ok n), N2 by auto; cbn [Nat.eqb negb]; destruct (Nat.ltb _ _); [discriminate|rn; rewrite Ek; discriminate].
    assert (k = 3%nat). { revert Hb0; unfold sphere_best_fit; rewrite (points_of_R rows n) by auto; cbn [bind]; rewrite (dim2_ok n), N2 by auto; cbn [Nat.eqb negb]; destruct (Nat.ltb _ _); [discriminate|rn; rewrite Ek; cbn [bind]; destruct (Nat.eqb_spec k 3); [auto|discriminate]]. }
    subst k. rewrite N2 in Hr, Hr'.
    destruct (C50_sphere_best_fit LA rows HL HQ Hr L3 Ek) as (b0 & c & r & E0 & -> & Lc & Pr & M & _). rewrite E0 in Hb0. injection Hb0 as <-.
    destruct (C50_sphere_best_fit LA' (map T rows) HL' HQ' Hr') as (b' & c' & r' & E1 & -> & Lc' & Pr' & M' & _); [rewrite map_length; auto|rn; rewrite Er; exact Ek|].
    rewrite E1. unfold move_ball. cbn [c_point c_radius].
    destruct (sim_surj n n s T H c' eq_refl) as (c0 & Lc0 & Ec); [exact (eq_trans Lc' (eq_sym N2))|]. subst c'. assert (Lcn : length c = n) by exact (eq_trans Lc (eq_sym N2)).
    destruct (C50_sphere_unique LA' (map T rows) (T c0) r' (T c) (s * r) HL' HQ' E1) as (U1 & U2).
    + rewrite <- N2. apply (sim_len n n s T H); auto.
    + apply Rmult_le_pos; lra.
    + replace r' with (s * (r' / s)) by (field; lra). rewrite !alg_error_move by auto. apply Rmult_le_compat_l; [nra|]. apply M. exact (eq_trans Lc0 N2).
    + rewrite U1, U2. reflexivity.
Qed.
End S.
Print Assumptions C75_line_fit.
Print Assumptions C75_plane_fit.
Print Assumptions C75_ball_fits.
