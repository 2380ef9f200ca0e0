(** * Property C77: in exact arithmetic no call silently produces nan

    Over the real numbers every modelled call on objects made by the constructors returns a value or raises; the
    guards the library writes in front of its divisions and roots are enough.  The three places where they are not
    (the zero vector in Vector.project_vector, all-zero points in Points.normalize_distance, a negative tolerance in
    Circle.from_points) are characterised exactly. *)
From Coq Require Import String Reals List ZArith Lra Lia Psatz Bool ClassicalEpsilon.
From Verif.Model Require Import Outcome Num Instances Numpy BaseArray Vector Points Functions Line Plane LineSegment Sphere Triangle Cylinder.
From Verif.Spec Require Import Geometry Tolerance Mesh Linalg Errors.
From Verif.Proof Require Import VecAlg Bridge Arrays Vectors Points Lines SvdExists Svd Ranks.
From Verif.Prop Require Import Vectors Points Lines Planes LinePairs Balls BallFits Triangles CylFit Errors Witnesses.
Import ListNotations.
Local Open Scope R_scope.
Notation "a +++ b" := (List.app a b) (at level 60, right associativity, only parsing).

Lemma def_ok {A} (a : A) : definite (Ok a). Proof. discriminate. Qed.
Lemma def_raise {A} e : definite (A:=A) (Raise e). Proof. discriminate. Qed.
Lemma def_bind {A B} (r : res A) (f : A -> res B) : definite r -> (forall a, r = Ok a -> definite (f a)) -> definite (bind r f).
Proof. intros H1 H2. destruct r as [a|e|]; simpl; auto; try discriminate. contradiction. Qed.
Lemma def_mapM {A B} (f : A -> res B) l : (forall a, In a l -> definite (f a)) -> definite (mapM f l).
Proof.
  induction l as [|x l IH]; intro H; simpl; [apply def_ok|]. apply def_bind; [apply H; left; auto|]. intros y _. apply def_bind; [apply IH; intros; apply H; right; auto|]. intros; apply def_ok.
Qed.
Lemma def_map {A B} (f : A -> B) r : definite r -> definite (res_map f r).
Proof. intro H. apply def_bind; auto. intros; apply def_ok. Qed.
Lemma def_por (a b : res bool) : definite a -> definite b -> definite (por a b).
Proof. intros Ha Hb. apply def_bind; auto. intros [|] _; auto. apply def_ok. Qed.
Lemma def_div (a b : R) : b <> 0 -> definite (ndiv (n:=RNum) a b).
Proof. intro H. rewrite ndiv_R by auto. apply def_ok. Qed.

Create HintDb fin.
Ltac dstep :=
  first
    [ apply def_ok | apply def_raise
    | apply def_mapM; intros ? _
    | apply def_map | apply def_por
    | solve [eauto 3 with fin]
    | match goal with
      | |- definite (bind _ _) => apply def_bind; [|intros ? ?]
      | |- definite (if ?b then _ else _) => let E := fresh "E" in destruct b eqn:E
      | |- definite (match ?x with _ => _ end) => destruct x
      | |- definite (let '(_, _) := ?x in _) => destruct x
      | |- definite (let x := _ in _) => cbv zeta
      end ].
Ltac dn := repeat dstep.

Lemma d_wrap1 (v : pt) : definite (wrap1 (N:=RNum) v).
Proof. unfold wrap1. replace (forallb _ v) with true; [apply def_ok|]. symmetry. apply forallb_forall. intros; reflexivity. Qed.
Lemma d_bcast f (a b : pt) : definite (bcast (N:=RNum) f a b). Proof. unfold bcast. dn. Qed.
#[local] Hint Resolve d_bcast d_wrap1 : fin.
Lemma d_vadd (a b : pt) : definite (vadd (N:=RNum) a b). Proof. unfold vadd. dn. Qed.
Lemma d_vsub (a b : pt) : definite (vsub (N:=RNum) a b). Proof. unfold vsub. dn. Qed.
Lemma d_vmuls s (v : pt) : definite (vmuls (N:=RNum) s v). Proof. unfold vmuls. dn. Qed.
Lemma d_vdivs (v : pt) s : s <> 0 -> definite (vdivs (N:=RNum) v s). Proof. intro H. rewrite vdivs_R by auto. dn. Qed.
Lemma d_dot (a b : pt) : definite (np_dot (N:=RNum) a b). Proof. unfold np_dot. dn. Qed.
Lemma d_isclose t (a b : R) : definite (isclose (N:=RNum) t a b). Proof. unfold isclose. dn. Qed.
Lemma d_cross3 (a b : pt) : definite (cross3 (N:=RNum) a b). Proof. unfold cross3. dn. Qed.
Lemma pow10_pos d : (0 < d)%Z -> IZR (10 ^ d) <> 0.
Proof. intro H. apply not_0_IZR. pose proof (Z.pow_pos_nonneg 10 d). lia. Qed.
Lemma d_round d (x : R) : definite (np_round (N:=RNum) d x).
Proof.
  unfold np_round. destruct (Z.eqb_spec d 0); [dn|]. destruct (Z.ltb_spec 0 d).
  - apply def_div. apply pow10_pos. auto.
  - apply def_bind; [apply def_div, pow10_pos; lia|]. intros; dn.
Qed.
Lemma d_linspace (a b : R) n : definite (linspace (N:=RNum) a b n).
Proof.
  unfold linspace. destruct n as [|[|m]]; [dn|dn|]. apply def_bind; [|intros; dn]. apply def_div. apply not_0_IZR. lia.
Qed.
Lemma d_as2d (l : list pt) : definite (as2d (N:=RNum) l). Proof. unfold as2d. dn. Qed.
#[local] Hint Resolve d_vadd d_vsub d_vmuls d_vdivs d_dot d_isclose d_cross3 d_round d_linspace d_as2d : fin.

Lemma d_base (v : pt) : definite (base_new (N:=RNum) v). Proof. unfold base_new. dn. Qed.
#[local] Hint Resolve d_base : fin.
Lemma d_array1 a : definite (array1d_new (N:=RNum) a). Proof. unfold array1d_new. dn. Qed.
Lemma d_array2 a : definite (array2d_new (N:=RNum) a). Proof. unfold array2d_new. dn. Qed.
#[local] Hint Resolve d_array1 d_array2 : fin.
Lemma d_point (v : pt) : definite (point_of (N:=RNum) v). Proof. apply d_array1. Qed.
Lemma d_vector (v : pt) : definite (vector_of (N:=RNum) v). Proof. apply d_array1. Qed.
Lemma d_points (v : list pt) : definite (points_of (N:=RNum) v). Proof. apply d_array2. Qed.
Lemma d_bpairs {A B} (a : list A) (b : list B) : definite (bpairs a b). Proof. unfold bpairs. dn. Qed.
#[local] Hint Resolve d_point d_vector d_points d_bpairs : fin.
Lemma d_allclose t (l : list (R * R)) : definite (allclose_pairs (N:=RNum) t l). Proof. unfold allclose_pairs. dn. Qed.
#[local] Hint Resolve d_allclose : fin.
Lemma d_close1 t (a b : pt) : definite (is_close1 (N:=RNum) t a b). Proof. unfold is_close1. dn. Qed.
Lemma d_close2 t (a b : list pt) : definite (is_close2 (N:=RNum) t a b). Proof. unfold is_close2. dn. Qed.
Lemma d_setdim1 (v : pt) d : definite (set_dimension1 (N:=RNum) v d). Proof. unfold set_dimension1. dn. Qed.
Lemma d_setdim2 (v : list pt) d : definite (set_dimension2 (N:=RNum) v d). Proof. unfold set_dimension2. dn. Qed.
Lemma d_round1 (v : pt) d : definite (round1 (N:=RNum) v d). Proof. unfold round1. dn. Qed.
#[local] Hint Resolve d_close1 d_close2 d_setdim1 d_setdim2 d_round1 : fin.
Lemma d_round2 (v : list pt) d : definite (round2 (N:=RNum) v d). Proof. unfold round2. dn. Qed.
#[local] Hint Resolve d_round2 : fin.

Lemma d_from_points (a b : pt) : definite (from_points (N:=RNum) a b). Proof. unfold from_points. dn. Qed.
Lemma d_norm (v : pt) : definite (norm (N:=RNum) v). Proof. unfold norm. dn. Qed.
#[local] Hint Resolve d_from_points d_norm : fin.
Lemma d_unit (v : pt) : definite (unit_vec (N:=RNum) v).
Proof. destruct (is_zero_vec_dec v); [rewrite unit_R_zero by auto|rewrite unit_R by auto]; dn. Qed.
Lemma d_iszero t (v : pt) : definite (is_zero (N:=RNum) t v). Proof. unfold is_zero. dn. Qed.
Lemma d_cross (a b : pt) : definite (cross (N:=RNum) a b). Proof. unfold cross. dn. Qed.
Lemma d_cosine (a b : pt) : definite (cosine_similarity (N:=RNum) a b).
Proof.
  unfold cosine_similarity. apply def_bind; [dn|intros na _]. apply def_bind; [dn|intros o _]. apply def_bind; [dn|intros nb _]. cbv zeta.
  rops. destruct (Reqb (na * nb) 0) eqn:E; [dn|]. apply Reqb_false in E. apply def_bind; [dn|intros d _]. apply def_bind; [apply def_div; auto|intros; dn].
Qed.
#[local] Hint Resolve d_unit d_iszero d_cross d_cosine : fin.
Lemma d_angle T (a b : pt) : definite (angle_between (N:=RNum) T a b). Proof. unfold angle_between, math_acos. dn. Qed.
Lemma d_signed T (a b : pt) : definite (angle_signed (N:=RNum) T a b). Proof. unfold angle_signed. dn. Qed.
Lemma d_perp t (a b : pt) : definite (is_perpendicular (N:=RNum) t a b). Proof. unfold is_perpendicular. dn. Qed.
Lemma d_parallel t (a b : pt) : definite (is_parallel (N:=RNum) t a b). Proof. unfold is_parallel. dn. Qed.
#[local] Hint Resolve d_angle d_signed d_perp d_parallel : fin.
Lemma d_signed3 T (a b d : pt) : definite (angle_signed_3d (N:=RNum) T a b d). Proof. unfold angle_signed_3d. dn. Qed.
Lemma d_side (a b : pt) : definite (side_vector (N:=RNum) a b). Proof. unfold side_vector, int_sign. dn. Qed.
Lemma d_scalar (a b : pt) : definite (scalar_projection (N:=RNum) a b). Proof. unfold scalar_projection. dn. Qed.
Lemma d_project (a b : pt) : ~ is_zero_vec a -> definite (project_vector (N:=RNum) a b).
Proof.
  intro H. unfold project_vector. apply def_bind; [dn|intros x _]. rewrite np_dot_R by auto. cbn [bind]. apply dot_self_pos in H. apply def_bind; [apply def_div; lra|intros; dn].
Qed.
Lemma d_diff t (a : pt) : definite (different_direction (N:=RNum) t a). Proof. unfold different_direction. dn. Qed.
#[local] Hint Resolve d_signed3 d_side d_scalar d_project d_diff : fin.

Lemma d_distance (a b : pt) : definite (distance_point (N:=RNum) a b). Proof. unfold distance_point. dn. Qed.
Lemma d_unique (l : list pt) : definite (unique (N:=RNum) l). Proof. unfold unique. dn. Qed.
Lemma d_centroid (l : list pt) : definite (centroid (N:=RNum) l).
Proof.
  unfold centroid. apply def_bind; [|intros; dn]. destruct l as [|r l]; [discriminate|]. unfold colmean. apply def_mapM. intros x _. apply def_div. apply not_0_IZR. cbn [length]. lia.
Qed.
#[local] Hint Resolve d_distance d_unique d_centroid : fin.
Lemma d_mcc (l : list pt) : definite (mean_center_c (N:=RNum) l). Proof. unfold mean_center_c. dn. Qed.
#[local] Hint Resolve d_mcc : fin.
Lemma d_mc (l : list pt) : definite (mean_center (N:=RNum) l). Proof. unfold mean_center. dn. Qed.
#[local] Hint Resolve d_mc : fin.
Lemma d_contains f t (p : pt) : definite (f p) -> definite (contains_point_gen (N:=RNum) f t p).
Proof. intro. unfold contains_point_gen. dn. Qed.
Lemma d_sumsq f (l : list pt) : (forall x, definite (f x)) -> definite (sum_squares_gen (N:=RNum) f l).
Proof. intro. unfold sum_squares_gen. dn. Qed.
Lemma d_topoints m : definite m -> definite (to_points_gen (N:=RNum) m).
Proof. intro. unfold to_points_gen. dn. Qed.
Lemma d_roundopt d (x : R) : definite (round_opt (N:=RNum) d x). Proof. unfold round_opt. dn. Qed.
#[local] Hint Resolve d_roundopt : fin.
Lemma d_quad (a b c : R) d : definite (solve_quadratic (N:=RNum) a b c d).
Proof.
  unfold solve_quadratic. apply def_bind; [dn|intros x _]. apply def_bind; [dn|intros y _]. apply def_bind; [dn|intros z _]. rops.
  destruct (Reqb x 0) eqn:E; [dn|]. apply Reqb_false in E. cbv zeta. destruct (Rltb _ 0); [dn|]. unfold math_sqrt. apply def_bind; [dn|intros r _].
  change (nofZ (n:=RNum) 2) with 2. apply def_bind; [apply def_div; lra|intros u _]. apply def_bind; [apply def_div; lra|intros; dn].
Qed.
Lemma d_transform (l : list pt) o b : definite (transform_coordinates (N:=RNum) l o b). Proof. unfold transform_coordinates. dn. Qed.
#[local] Hint Resolve d_quad d_transform : fin.

(** ** Lines *)
Definition lok (l : line RNum) : Prop := ~ is_zero_vec (l_dir l).
Definition pok (p : plane RNum) : Prop := ~ is_zero_vec (pl_normal p).
Lemma line_lok (p d : pt) l : line_new (N:=RNum) p d = Ok l -> lok l.
Proof. intro H. apply line_new_iff in H as (-> & _ & H & _). exact H. Qed.
Lemma plane_pok (p d : pt) l : plane_new (N:=RNum) p d = Ok l -> pok l.
Proof. intro H. apply plane_new_inv in H as (-> & _ & H & _). exact H. Qed.
Lemma linefp_lok (p q : pt) l : line_from_points (N:=RNum) p q = Ok l -> lok l.
Proof. unfold line_from_points. intro H. inv_bind H. apply line_lok in H. exact H. Qed.
#[local] Hint Resolve line_lok plane_pok linefp_lok : fin.
Lemma d_check (p v : pt) : definite (check_point_vector (N:=RNum) p v). Proof. unfold check_point_vector. dn. Qed.
#[local] Hint Resolve d_check : fin.
Lemma d_line (p v : pt) : definite (line_new (N:=RNum) p v). Proof. unfold line_new. dn. Qed.
#[local] Hint Resolve d_line : fin.
Lemma d_linefp (p v : pt) : definite (line_from_points (N:=RNum) p v). Proof. unfold line_from_points. dn. Qed.
Lemma d_slope (a b : R) : definite (line_from_slope (N:=RNum) a b). Proof. unfold line_from_slope. dn. Qed.
Lemma d_topoint (l : line RNum) s : definite (line_to_point l s). Proof. unfold line_to_point. dn. Qed.
#[local] Hint Resolve d_linefp d_slope d_topoint : fin.
Lemma d_lpp (l : line RNum) p : lok l -> definite (line_project_point l p). Proof. intro H. unfold line_project_point. unfold lok in H. dn. Qed.
#[local] Hint Resolve d_lpp : fin.
Lemma d_lpps (l : line RNum) p : definite (line_project_points l p). Proof. unfold line_project_points. dn. Qed.
Lemma d_lpv (l : line RNum) p : lok l -> definite (line_project_vector l p). Proof. intro H. unfold line_project_vector. unfold lok in H. dn. Qed.
Lemma d_lside (l : line RNum) p : definite (line_side_point l p). Proof. unfold line_side_point. dn. Qed.
Lemma d_ldp (l : line RNum) p : lok l -> definite (line_distance_point l p). Proof. intro. unfold line_distance_point. dn. Qed.
#[local] Hint Resolve d_lpps d_lpv d_lside d_ldp : fin.
Lemma d_ldps (l : line RNum) p : definite (line_distance_points l p). Proof. unfold line_distance_points. dn. Qed.
Lemma d_lcontains t (l : line RNum) p : lok l -> definite (line_contains_point t l p). Proof. intro. unfold line_contains_point. apply d_contains. dn. Qed.
Lemma d_lss (l : line RNum) p : lok l -> definite (line_sum_squares l p). Proof. intro. unfold line_sum_squares. apply d_sumsq. intro; dn. Qed.
#[local] Hint Resolve d_ldps d_lcontains d_lss : fin.
Lemma d_lclose t (l m : line RNum) : lok l -> definite (line_is_close t l m). Proof. intro. unfold line_is_close. dn. Qed.
Lemma d_ltp (l : line RNum) p : definite (line_transform_points l p). Proof. unfold line_transform_points. dn. Qed.
#[local] Hint Resolve d_lclose d_ltp : fin.

Lemma isclose_ok_tol t (a b : R) r : isclose (N:=RNum) t a b = Ok r -> tol_ok t.
Proof.
  unfold isclose, tol_ok. rops. destruct (Rltb (rel_tol t) 0) eqn:E1; [discriminate|]. destruct (Rltb (abs_tol t) 0) eqn:E2; [discriminate|].
  apply Rltb_false in E1, E2. intros _. lra.
Qed.
Lemma parallel_false_inv t (a b : pt) : is_parallel (N:=RNum) t a b = Ok false -> tol_ok t /\ length a = length b /\ a <> [] /\ ~ dependent a b.
Proof.
  intro H. pose proof H as H0. unfold is_parallel, por in H. inv_bind H. inv_bind E. unfold is_zero in E0. inv_bind E0. apply isclose_ok_tol in E0.
  destruct a0; [injection H; discriminate|]. inv_bind H. unfold cosine_similarity in E2. inv_bind E2. inv_bind E2. inv_bind E2.
  match type of E2 with (if ?c then _ else _) = _ => destruct c; [discriminate|] end. inv_bind E2. clear E2. unfold np_dot in E6. rn. destruct (Nat.eqb_spec (length a) (length b)) as [L|]; [|discriminate].
  assert (Ha : a <> []). { intros ->. destruct b; [|discriminate]. unfold vector_of in E4. discriminate. }
  split; auto. split; auto. split; auto. apply (not_parallel_independent t); auto.
Qed.
Lemma cross_nonzero t (a b c : pt) : is_parallel (N:=RNum) t a b = Ok false -> cross (N:=RNum) a b = Ok c -> 0 < len c.
Proof.
  intros P C. apply parallel_false_inv in P as (Ht & L & Ha & D). assert (Hb : b <> []) by (destruct a, b; try discriminate; contradiction).
  destruct (le_lt_dec (length a) 3) as [L3|L3].
  - rewrite cross_R in C by (auto; rewrite <- ?L; auto). injection C as <-. apply len_pos. apply pad_cross_nonzero; auto.
  - exfalso. unfold cross in C. inv_bind C. unfold set_dimension1 in E. unfold dim1 in E. rn. destruct (Z.ltb_spec 3 (Z.of_nat (length a))); [discriminate|lia].
Qed.

Section Backend.
Variable LA : linalg RNum.
Hypothesis HLA : linalg_definite LA.
Lemma d_svd m : definite (la_svd LA m). Proof. apply HLA. Qed.
Lemma d_solve m b : definite (la_solve LA m b). Proof. apply HLA. Qed.
Lemma d_lstsq m b : definite (la_lstsq LA m b). Proof. apply HLA. Qed.
Hint Resolve d_svd d_solve d_lstsq : fin.
Lemma d_rank t d (m : list pt) : definite (matrix_rank LA t d m). Proof. unfold matrix_rank. dn. Qed.
Hint Resolve d_rank : fin.
Lemma d_affine t (l : list pt) : definite (affine_rank LA t l). Proof. unfold affine_rank. dn. Qed.
Hint Resolve d_affine : fin.
Lemma d_conc t (l : list pt) : definite (are_concurrent LA t l). Proof. unfold are_concurrent. dn. Qed.
Lemma d_coll t (l : list pt) : definite (are_collinear LA t l). Proof. unfold are_collinear. dn. Qed.
Lemma d_copl t (l : list pt) : definite (are_coplanar LA t l). Proof. unfold are_coplanar. dn. Qed.
Hint Resolve d_conc d_coll d_copl : fin.
Lemma d_lcop t (l m : line RNum) : definite (line_is_coplanar LA t l m). Proof. unfold line_is_coplanar. dn. Qed.
Hint Resolve d_lcop : fin.
Lemma d_ldl (l m : line RNum) : lok l -> definite (line_distance_line LA l m).
Proof.
  intro Hl. unfold line_distance_line. apply def_bind; [dn|intros par Hp]. destruct par; [dn|]. apply def_bind; [dn|intros cop _]. destruct cop; [dn|]. apply def_bind; [dn|intros ab _]. apply def_bind; [dn|intros w Hw].
  apply def_bind; [dn|intros d _]. rewrite norm_R. cbn [bind]. pose proof (cross_nonzero _ _ _ _ Hp Hw). apply def_div. lra.
Qed.
Lemma d_lil t c (l m : line RNum) : definite (line_intersect_line LA t c l m).
Proof.
  unfold line_intersect_line. destruct (negb _); [dn|]. destruct (_ || _)%bool; [dn|]. apply def_bind; [dn|intros par Hp]. destruct par; [dn|]. apply def_bind; [destruct c; dn|intros bad _]. destruct bad; [dn|].
  apply def_bind; [dn|intros ab _]. apply def_bind; [dn|intros w Hw]. apply def_bind; [dn|intros q _]. apply def_bind; [dn|intros d _]. rewrite norm_R. cbn [bind]. pose proof (cross_nonzero _ _ _ _ Hp Hw).
  apply def_bind; [apply def_div; rops; nra|intros; dn].
Qed.
Lemma d_lfite t (l : list pt) : definite (line_best_fit_err LA t l). Proof. unfold line_best_fit_err. dn. Qed.
Hint Resolve d_ldl d_lil d_lfite : fin.
Lemma d_lfit t (l : list pt) : definite (line_best_fit LA t l). Proof. unfold line_best_fit. dn. Qed.
Hint Resolve d_lfit : fin.

(** ** Planes *)
Lemma d_plane (p v : pt) : definite (plane_new (N:=RNum) p v). Proof. unfold plane_new. dn. Qed.
Hint Resolve d_plane : fin.
Lemma d_pfv t (p a b : pt) : definite (plane_from_vectors (N:=RNum) t p a b). Proof. unfold plane_from_vectors. dn. Qed.
Hint Resolve d_pfv : fin.
Lemma d_pfp t (a b c : pt) : definite (plane_from_points LA t a b c). Proof. unfold plane_from_points. dn. Qed.
Lemma d_cart (p : plane RNum) : definite (plane_cartesian p). Proof. unfold plane_cartesian. dn. Qed.
Lemma d_pds (p : plane RNum) q : definite (plane_distance_point_signed p q). Proof. unfold plane_distance_point_signed. dn. Qed.
Hint Resolve d_pfp d_cart d_pds : fin.
Lemma d_ppp (p : plane RNum) q : pok p -> definite (plane_project_point p q). Proof. intro H. unfold pok in H. unfold plane_project_point. dn. Qed.
Lemma d_ppps (p : plane RNum) q : definite (plane_project_points p q). Proof. unfold plane_project_points. dn. Qed.
Hint Resolve d_ppp d_ppps : fin.
Lemma d_ppv (p : plane RNum) q : pok p -> definite (plane_project_vector p q). Proof. intro. unfold plane_project_vector. dn. Qed.
Hint Resolve d_ppv : fin.
Lemma d_ppl t (p : plane RNum) q : pok p -> definite (plane_project_line t p q). Proof. intro. unfold plane_project_line. dn. Qed.
Lemma d_pdss (p : plane RNum) q : definite (plane_distance_points_signed p q). Proof. unfold plane_distance_points_signed. dn. Qed.
Hint Resolve d_ppl d_pdss : fin.
Lemma d_pd (p : plane RNum) q : definite (plane_distance_point p q). Proof. unfold plane_distance_point. dn. Qed.
Lemma d_pdp (p : plane RNum) q : definite (plane_distance_points p q). Proof. unfold plane_distance_points. dn. Qed.
Lemma d_pside (p : plane RNum) q : definite (plane_side_point p q). Proof. unfold plane_side_point, int_sign. dn. Qed.
Hint Resolve d_pd d_pdp d_pside : fin.
Lemma d_pcontains t (l : plane RNum) p : definite (plane_contains_point t l p). Proof. unfold plane_contains_point. apply d_contains. dn. Qed.
Lemma d_pss (l : plane RNum) p : definite (plane_sum_squares l p). Proof. unfold plane_sum_squares. apply d_sumsq. intro; dn. Qed.
Hint Resolve d_pcontains d_pss : fin.
Lemma d_pclose t (l m : plane RNum) : definite (plane_is_close t l m). Proof. unfold plane_is_close. dn. Qed.
Lemma perp_false_inv t (a b : pt) : is_perpendicular (N:=RNum) t a b = Ok false -> length a = length b /\ dot a b <> 0.
Proof.
  unfold is_perpendicular, np_dot. rn. destruct (Nat.eqb_spec (length a) (length b)) as [L|]; [|discriminate]. cbn [bind]. intro H. split; auto. intro Z. rewrite dot_raw_dot in H. pose proof (isclose_ok_tol _ _ _ _ H) as Ht.
  destruct (isclose_R t (dot a b) 0 Ht) as (r & Er & E). change (n0 (n:=RNum)) with 0 in H. rewrite Er in H. injection H as ->. rewrite Z in E. destruct Ht. assert (false = true) by (apply E, close_refl; auto). discriminate.
Qed.
Lemma d_pil t (p : plane RNum) l : definite (plane_intersect_line t p l).
Proof.
  unfold plane_intersect_line. apply def_bind; [dn|intros perp Hp]. destruct perp; [dn|]. apply perp_false_inv in Hp as (L & D). apply def_bind; [dn|intros w _]. apply def_bind; [dn|intros n _]. cbv zeta. rewrite np_dot_R by auto. cbn [bind].
  apply def_bind; [apply def_div; auto|intros; dn].
Qed.
Lemma d_pip t (p q : plane RNum) : definite (plane_intersect_plane LA t p q). Proof. unfold plane_intersect_plane. dn. Qed.
Lemma d_pfite t (l : list pt) : definite (plane_best_fit_err LA t l). Proof. unfold plane_best_fit_err. dn. Qed.
Hint Resolve d_pclose d_pil d_pip d_pfite : fin.
Lemma d_pfit t (l : list pt) : definite (plane_best_fit LA t l). Proof. unfold plane_best_fit. dn. Qed.
Hint Resolve d_pfit : fin.
Lemma d_pmesh (p : plane RNum) a b : pok p -> definite (plane_to_mesh p a b).
Proof.
  intro H. unfold plane_to_mesh. apply def_bind; [dn|intros (((x, y), z), w) E]. destruct (pl_point p) as [|px [|py pz]]; [dn|dn|]. cbv zeta. destruct (meshgrid _ _) as (X, Y). rops.
  destruct (Reqb z 0) eqn:Ez; cbn [negb]; [|apply Reqb_false in Ez; dn; apply def_div; auto].
  destruct (Reqb y 0) eqn:Ey; cbn [negb]; [|apply Reqb_false in Ey; dn; apply def_div; auto].
  apply Reqb_true in Ez, Ey. dn. apply def_div. intros ->. apply H. clear H. unfold plane_cartesian in E. destruct (Nat.ltb _ _); [discriminate|]. inv_bind E. inv_bind E. clear E1.
  unfold set_dimension1 in E0. destruct (Z.ltb _ _); [discriminate|]. apply point_of_inv in E0 as (-> & _ & _). subst y z. unfold pad, zeros, is_zero_vec, origin in *. rn.
  destruct (pl_normal p) as [|u [|v [|t [|]]]]; cbn in *; try reflexivity; try discriminate E; injection E; intros; subst; reflexivity.
Qed.
Hint Resolve d_pmesh : fin.
Lemma d_ptop (p : plane RNum) a b : pok p -> definite (plane_to_points p a b). Proof. intro. apply d_topoints. dn. Qed.

(** ** Segments, circles, spheres *)
Lemma d_seg (a b : pt) : definite (segment_new (N:=RNum) a b). Proof. unfold segment_new. dn. Qed.
Lemma d_segc t (s : segment RNum) p : definite (segment_contains_point t s p). Proof. unfold segment_contains_point. dn. Qed.
Hint Resolve d_seg d_segc : fin.
Lemma d_segi t c (s o : segment RNum) : definite (segment_intersect_segment LA t c s o). Proof. unfold segment_intersect_segment. dn. Qed.
Lemma d_bsn (p : pt) r : definite (base_sphere_new (N:=RNum) p r). Proof. unfold base_sphere_new. dn. Qed.
Hint Resolve d_segi d_bsn : fin.
Lemma d_circle (p : pt) r : definite (circle_new (N:=RNum) p r). Proof. unfold circle_new. dn. Qed.
Lemma d_sphere (p : pt) r : definite (sphere_new (N:=RNum) p r). Proof. unfold sphere_new. dn. Qed.
Lemma d_bdp (c : ball RNum) p : definite (ball_distance_point c p). Proof. unfold ball_distance_point. dn. Qed.
Hint Resolve d_circle d_sphere d_bdp : fin.
Lemma d_bcp t (c : ball RNum) p : definite (ball_contains_point t c p). Proof. unfold ball_contains_point. apply d_contains. dn. Qed.
Lemma d_bpp (c : ball RNum) p : definite (ball_project_point c p). Proof. unfold ball_project_point. dn. Qed.
Lemma d_vol T (c : ball RNum) : definite (sphere_volume (N:=RNum) T c).
Proof. unfold sphere_volume. apply def_bind; [apply def_div; change (nofZ (n:=RNum) 3) with 3; lra|intros; dn]. Qed.
Lemma d_cil (c : ball RNum) l : length (c_point c) = 2%nat -> definite (circle_intersect_line c l).
Proof.
  intro Lc. unfold circle_intersect_line. destruct (is_zero_vec_dec (l_dir l)) as [Z|Z]; [rewrite unit_R_zero by auto; dn|]. rewrite unit_R by auto. cbn [bind].
  apply def_bind; [dn|intros p2 E2]. apply def_bind; [dn|intros t1 E1]. apply def_bind; [dn|intros t2 E3]. destruct t1 as [|x1 [|y1 [|]]]; try solve [dn]. destruct t2 as [|x2 [|y2 [|]]]; try solve [dn]. cbv zeta. rops.
  assert (Hd : (x2 - x1) * (x2 - x1) + (y2 - y1) * (y2 - y1) <> 0).
  { destruct (c_point c) as [|cx [|cy [|]]]; try discriminate. pose proof (len_pos _ Z) as HL. pose proof (len_sq (l_dir l)) as HS.
    unfold vadd, vsub, wrap1, bcast in E1, E2, E3. rops. rn. set (u := scale (/ len (l_dir l)) (l_dir l)) in *.
    assert (Hu : dot u u = 1). { unfold u. rewrite dot_scale_l, dot_scale_r, <- HS. field. lra. }
    assert (nf : forall l : list R, forallb (nfin (n:=RNum)) l = true) by (intro; apply forallb_forall; intros; reflexivity).
    destruct (l_point l) as [|a [|b [|]]]; cbn [length Nat.eqb map2 map bind] in E1; try discriminate E1; rewrite nf in E1; injection E1 as <- <-.
    - destruct u as [|u1 [|u2 [|]]]; cbn [length Nat.eqb map2 map bind] in E2; try (rewrite nf in E2; injection E2 as <-); try discriminate E2; cbn [length Nat.eqb map2 map bind] in E3; try (rewrite nf in E3; injection E3 as <- <-); try discriminate E3; cbn in Hu; try lra; nra.
    - destruct u as [|u1 [|u2 [|]]]; cbn [length Nat.eqb map2 map bind] in E2; try (rewrite nf in E2; injection E2 as <-); try discriminate E2; cbn [length Nat.eqb map2 map bind] in E3; try (rewrite nf in E3; injection E3 as <- <-); try discriminate E3; cbn in Hu; try lra; nra. }
  destruct (Rltb _ 0); [dn|]. unfold math_sqrt. apply def_bind; [dn|intros r _]. do 4 (apply def_bind; [apply def_div; exact Hd|intros ? _]). dn.
Qed.
Lemma d_sil (c : ball RNum) l : definite (sphere_intersect_line c l).
Proof. unfold sphere_intersect_line, math_sqrt. dn. Qed.
Lemma d_cic (c o : ball RNum) : definite (circle_intersect_circle c o).
Proof.
  unfold circle_intersect_circle. apply def_bind; [dn|intros d _]. rops. destruct (Reqb d 0) eqn:E; [dn|]. apply Reqb_false in E. destruct (Rltb _ d); [dn|]. destruct (Rltb d _); [dn|]. cbv zeta. change (nofZ (n:=RNum) 2) with 2.
  apply def_bind; [apply def_div; lra|intros a _]. unfold math_sqrt. apply def_bind; [dn|intros h _]. apply def_bind; [dn|intros v _]. apply def_bind; [dn|intros v1 _]. apply def_bind; [dn|intros v2 _]. apply def_bind; [dn|intros m _].
  destruct m as [|m0 [|m1 [|]]]; try solve [dn]. destruct (c_point c) as [|x1 [|y1 [|]]]; try solve [dn]. destruct (c_point o) as [|x2 [|y2 [|]]]; try solve [dn].
  do 4 (apply def_bind; [apply def_div; exact E|intros ? _]). dn.
Qed.
Lemma d_smesh T (c : ball RNum) n : definite (sphere_to_mesh (N:=RNum) T c n). Proof. unfold sphere_to_mesh. dn. Qed.
Hint Resolve d_bcp d_bpp d_vol d_cil d_sil d_cic d_smesh : fin.
Lemma d_stop T (c : ball RNum) n : definite (sphere_to_points (N:=RNum) T c n). Proof. apply d_topoints. dn. Qed.

(** ** Triangles *)
Lemma d_tri (a b c : pt) : definite (triangle_new LA a b c). Proof. unfold triangle_new. dn. Qed.
Lemma d_tpoint (t : triangle RNum) v : definite (triangle_point t v). Proof. unfold triangle_point. dn. Qed.
Lemma d_tline (t : triangle RNum) v : definite (triangle_line t v). Proof. unfold triangle_line. dn. Qed.
Lemma tline_lok (t : triangle RNum) v l : triangle_line t v = Ok l -> lok l.
Proof. unfold triangle_line. intro H. repeat match type of H with (if ?b then _ else _) = _ => destruct b end; try discriminate; apply linefp_lok in H; auto. Qed.
Hint Resolve d_tri d_tpoint d_tline tline_lok : fin.
Lemma d_tlen (t : triangle RNum) v : definite (triangle_length t v). Proof. unfold triangle_length. dn. Qed.
Lemma tlen_pos (t : triangle RNum) v x : triangle_length t v = Ok x -> 0 < x.
Proof. unfold triangle_length. intro H. inv_bind H. rewrite norm_R in H. injection H as <-. apply len_pos. apply tline_lok in E. exact E. Qed.
Lemma d_tnormal (t : triangle RNum) : definite (triangle_normal t). Proof. unfold triangle_normal. dn. Qed.
Hint Resolve d_tlen d_tnormal : fin.
Lemma d_tlens (t : triangle RNum) : definite (triangle_lengths t). Proof. unfold triangle_lengths. dn. Qed.
Lemma d_tarea (t : triangle RNum) : definite (triangle_area t). Proof. unfold triangle_area. dn. Qed.
Hint Resolve d_tlens d_tarea : fin.
Lemma d_tperi (t : triangle RNum) : definite (triangle_perimeter t). Proof. unfold triangle_perimeter. dn. Qed.
Lemma d_tcent (t : triangle RNum) : definite (triangle_centroid t). Proof. unfold triangle_centroid. dn. Qed.
Lemma d_talt (t : triangle RNum) v : definite (triangle_altitude t v). Proof. unfold triangle_altitude. dn. Qed.
Hint Resolve d_tperi d_tcent d_talt : fin.
Lemma d_tortho tl c (t : triangle RNum) : definite (triangle_orthocenter LA tl c t). Proof. unfold triangle_orthocenter. dn. Qed.
Lemma d_tclass tl (t : triangle RNum) : definite (triangle_classify tl t). Proof. unfold triangle_classify. dn. Qed.
Lemma d_tright tl (t : triangle RNum) : definite (triangle_is_right tl t). Proof. unfold triangle_is_right. dn. Qed.
Lemma d_tangle T (t : triangle RNum) v : definite (triangle_angle (N:=RNum) T t v).
Proof.
  unfold triangle_angle. apply def_bind; [dn|intros ls E]. unfold triangle_lengths in E. cbn [mapM] in E. inv_bind E. inv_bind E. inv_bind E1. inv_bind E1. inv_bind E3. injection E3 as <-. injection E1 as <-. injection E as <-.
  apply tlen_pos in E0, E2, E4. cbv zeta. rops. change (nofZ (n:=RNum) 2) with 2. apply def_bind; [|intros; unfold math_acos; dn].
  repeat match goal with |- definite (if ?b then _ else _) => destruct b end; try apply def_raise; apply def_div; nra.
Qed.
Hint Resolve d_tortho d_tclass d_tright d_tangle : fin.
Lemma d_multiple T (t : triangle RNum) name inputs : definite (triangle_multiple (N:=RNum) T t name inputs).
Proof. unfold triangle_multiple, triangle_method. repeat match goal with |- context [String.eqb name ?s] => destruct (String.eqb name s) end; dn. Qed.
Lemma d_areatri (a b c : pt) : definite (area_triangle (N:=RNum) a b c). Proof. unfold area_triangle. dn. Qed.
Lemma d_voltet (a b c d : pt) : definite (volume_tetrahedron (N:=RNum) a b c d).
Proof. unfold volume_tetrahedron. do 6 (apply def_bind; [dn|intros ? _]). apply def_bind; [apply def_div; change (nofZ (n:=RNum) 6) with 6; lra|intros; dn]. Qed.
Lemma d_areas (l : list pt) : definite (area_signed (N:=RNum) l). Proof. unfold area_signed. dn. Qed.

(** ** Cylinders *)
Lemma d_cyl (a b : pt) r : definite (cylinder_new (N:=RNum) a b r). Proof. unfold cylinder_new. dn. Qed.
Hint Resolve d_areatri d_voltet d_areas d_cyl : fin.
Lemma d_cylfp (a b : pt) r : definite (cylinder_from_points (N:=RNum) a b r). Proof. unfold cylinder_from_points. dn. Qed.
Lemma d_between (c : cylinder RNum) p : definite (between_cap_planes c p). Proof. unfold between_cap_planes. dn. Qed.
Hint Resolve d_cylfp d_between : fin.
Lemma d_within (c : cylinder RNum) p : definite (cylinder_is_point_within c p). Proof. unfold cylinder_is_point_within. dn. Qed.
Lemma d_reject (x v : pt) : definite (reject (N:=RNum) x v). Proof. unfold reject. dn. Qed.
Hint Resolve d_within d_reject : fin.
Lemma def_try {A B} (r : res A) (h : exn -> res B) (f : A -> res B) : definite r -> (forall e, definite (h e)) -> (forall a, definite (f a)) ->
  definite (match r with Ok a => f a | Raise e => h e | NonFinite => NonFinite end).
Proof. intros Hr Hh Hf. destruct r as [a|e|]; [apply Hf|apply Hh|contradiction]. Qed.
Lemma d_iinf (c : cylinder RNum) l d : definite (intersect_infinite c l d).
Proof. unfold intersect_infinite. repeat (apply def_bind; [dn|intros ? _]). cbv zeta. repeat (apply def_bind; [dn|intros ? _]). apply def_try; [dn|intro; dn|intros (x1, x2); dn]. Qed.
Lemma d_icap (c : cylinder RNum) l p : definite (intersect_cap c l p).
Proof. unfold intersect_cap. apply def_try; [dn|intro; dn|intro; dn]. Qed.
Hint Resolve d_iinf d_icap : fin.
Lemma d_icaps (c : cylinder RNum) l : definite (intersect_caps c l). Proof. unfold intersect_caps. dn. Qed.
Hint Resolve d_icaps : fin.
Lemma d_ifin (c : cylinder RNum) l d : definite (intersect_finite c l d). Proof. unfold intersect_finite. dn. Qed.
Hint Resolve d_ifin : fin.
Lemma d_cil2 (c : cylinder RNum) l d i : definite (cylinder_intersect_line c l d i). Proof. unfold cylinder_intersect_line. dn. Qed.
Lemma d_cmesh T (c : cylinder RNum) a b : definite (cylinder_to_mesh (N:=RNum) T c a b). Proof. unfold cylinder_to_mesh. dn. Qed.
Hint Resolve d_cil2 d_cmesh : fin.
Lemma d_ctop T (c : cylinder RNum) a b : definite (cylinder_to_points (N:=RNum) T c a b). Proof. unfold cylinder_to_points. apply d_topoints. dn. Qed.
End Backend.

(** ** The theorems *)
Theorem C77_arrays : forall (a : nd RNum) (t : tol RNum) (x y : pt) (xs ys : list pt) (d : Z),
  definite (array1d_new a) /\ definite (array2d_new a) /\ definite (is_close1 (N:=RNum) t x y) /\ definite (is_close2 (N:=RNum) t xs ys) /\
  definite (set_dimension1 (N:=RNum) x d) /\ definite (set_dimension2 (N:=RNum) xs d) /\ definite (round1 (N:=RNum) x d) /\ definite (round2 (N:=RNum) xs d).
Proof.
  intros. split; [apply d_array1|]. split; [apply d_array2|]. split; [apply d_close1|]. split; [apply d_close2|]. split; [apply d_setdim1|]. split; [apply d_setdim2|]. split; [apply d_round1|apply d_round2].
Qed.
Print Assumptions C77_arrays.

(** Vector: only project_vector of the zero vector (onto which nothing can be projected) gives nan. *)
Theorem C77_vectors : forall (t : tol RNum) (a b c : pt),
  definite (from_points (N:=RNum) a b) /\ definite (norm (N:=RNum) a) /\ definite (unit_vec (N:=RNum) a) /\ definite (is_zero (N:=RNum) t a) /\ definite (cross (N:=RNum) a b) /\
  definite (cosine_similarity (N:=RNum) a b) /\ definite (angle_between (N:=RNum) RTrig a b) /\ definite (angle_signed (N:=RNum) RTrig a b) /\ definite (angle_signed_3d (N:=RNum) RTrig a b c) /\
  definite (is_perpendicular (N:=RNum) t a b) /\ definite (is_parallel (N:=RNum) t a b) /\ definite (side_vector (N:=RNum) a b) /\ definite (scalar_projection (N:=RNum) a b) /\
  definite (different_direction (N:=RNum) t a) /\
  (project_vector (N:=RNum) a b = NonFinite <-> is_zero_vec a /\ length a = length b).
Proof.
  intros. repeat match goal with |- definite _ /\ _ => split; [first [apply d_from_points|apply d_norm|apply d_unit|apply d_iszero|apply d_cross|apply d_cosine|apply d_angle|apply d_signed|apply d_signed3|apply d_perp|apply d_parallel|apply d_side|apply d_scalar|apply d_diff]|] end.
  split.
  - intro H. destruct (is_zero_vec_dec a) as [Z|Z]; [|exfalso; exact (d_project a b Z H)]. split; auto. unfold project_vector, np_dot in H. rn. destruct (Nat.eqb_spec (length a) (length b)) as [L|L]; auto. discriminate.
  - intros (Z & L). unfold project_vector. rewrite !np_dot_R by auto. cbn [bind]. rewrite (zero_dot a a) by auto. rewrite ndiv_R0. reflexivity.
Qed.
Print Assumptions C77_vectors.

(** Points: only normalize_distance of points that are all the origin gives nan. *)
Theorem C77_points : forall (LA : linalg RNum) (t : option R) (a b : pt) (l : list pt), linalg_definite LA ->
  definite (distance_point (N:=RNum) a b) /\ definite (unique (N:=RNum) l) /\ definite (centroid (N:=RNum) l) /\ definite (mean_center (N:=RNum) l) /\ definite (mean_center_c (N:=RNum) l) /\
  definite (affine_rank LA t l) /\ definite (are_concurrent LA t l) /\ definite (are_collinear LA t l) /\ definite (are_coplanar LA t l) /\
  (forall d, points_ok d l -> (normalize_distance (N:=RNum) l = NonFinite <-> forall r, In r l -> is_zero_vec r)).
Proof.
  intros LA t a b l HL.
  repeat match goal with |- definite _ /\ _ => split; [first [apply d_distance|apply d_unique|apply d_centroid|apply d_mc|apply d_mcc|apply d_affine; auto|apply d_conc; auto|apply d_coll; auto|apply d_copl; auto]|] end.
  intros d Hl. destruct Hl as (Hne & Hd & F). destruct (vmax_spec (map (norm_raw (N:=RNum)) l)) as (V1 & V2); [destruct l; [contradiction|discriminate]|]. split.
  - intros H r Hr. destruct (is_zero_vec_dec r) as [|Z]; auto. exfalso. apply len_pos in Z. specialize (V2 (len r)). rn.
    assert (Hin : In (len r) (map (norm_raw (N:=RNum)) l)) by (apply in_map_iff; exists r; split; auto; apply norm_raw_len). apply V2 in Hin. clear V2.
    revert H. unfold normalize_distance. apply def_mapM. intros x _. apply d_vdivs. rn. lra.
  - intro Z. assert (V0 : vmax (N:=RNum) (map (norm_raw (N:=RNum)) l) = 0). { apply in_map_iff in V1 as (r & E & Hr). rn. rewrite <- E, norm_raw_len. apply len_zero_iff. auto. }
    unfold normalize_distance. rn. rewrite V0. destruct l as [|r l]; [contradiction|]. cbn [mapM]. inversion F; subst. destruct r as [|x r]; [simpl in Hd; lia|]. unfold vdivs. cbn [mapM]. rewrite ndiv_R0. reflexivity.
Qed.
Print Assumptions C77_points.

Theorem C77_lines : forall (LA : linalg RNum) (p d : pt) l, linalg_definite LA -> line_new (N:=RNum) p d = Ok l ->
  forall (t : tol RNum) (tr : option R) (chk : bool) (x y : pt) (s r : R) (ps : list pt) (m : line RNum),
  definite (line_new (N:=RNum) x y) /\ definite (line_from_points (N:=RNum) x y) /\ definite (line_from_slope (N:=RNum) s r) /\
  definite (line_to_point l s) /\ definite (line_is_coplanar LA tr l m) /\ definite (line_project_point l x) /\ definite (line_project_points l ps) /\ definite (line_project_vector l x) /\
  definite (line_side_point l x) /\ definite (line_distance_point l x) /\ definite (line_distance_points l ps) /\ definite (line_contains_point t l x) /\ definite (line_sum_squares l ps) /\
  definite (line_is_close t l m) /\ definite (line_distance_line LA l m) /\ definite (line_intersect_line LA t chk l m) /\ definite (line_best_fit LA tr ps) /\ definite (line_best_fit_err LA tr ps) /\
  definite (line_transform_points l ps).
Proof.
  intros LA p d l HL H. apply line_lok in H. intros.
  repeat match goal with |- _ /\ _ => split end; first [apply d_line|apply d_linefp|apply d_slope|apply d_topoint|apply d_lcop|apply d_lpp|apply d_lpps|apply d_lpv|apply d_lside|apply d_ldps|apply d_ldp|apply d_lcontains|apply d_lss|apply d_lclose|apply d_ldl|apply d_lil|apply d_lfite|apply d_lfit|apply d_ltp]; auto.
Qed.
Print Assumptions C77_lines.

Theorem C77_planes : forall (LA : linalg RNum) (q n : pt) p, linalg_definite LA -> plane_new (N:=RNum) q n = Ok p ->
  forall (t : tol RNum) (tr : option R) (x y z : pt) (us vs : pt) (ps : list pt) (l : line RNum) (o : plane RNum),
  definite (plane_new (N:=RNum) x y) /\ definite (plane_from_vectors (N:=RNum) t x y z) /\ definite (plane_from_points LA tr x y z) /\ definite (plane_cartesian p) /\
  definite (plane_project_point p x) /\ definite (plane_project_points p ps) /\ definite (plane_project_vector p x) /\ definite (plane_project_line t p l) /\ definite (plane_distance_point_signed p x) /\
  definite (plane_distance_points_signed p ps) /\ definite (plane_distance_point p x) /\ definite (plane_distance_points p ps) /\ definite (plane_side_point p x) /\ definite (plane_contains_point t p x) /\
  definite (plane_sum_squares p ps) /\ definite (plane_is_close t p o) /\ definite (plane_intersect_line t p l) /\ definite (plane_intersect_plane LA t p o) /\ definite (plane_best_fit LA tr ps) /\
  definite (plane_best_fit_err LA tr ps) /\ definite (plane_to_mesh p us vs) /\ definite (plane_to_points p us vs).
Proof.
  intros LA q n p HL H. apply plane_pok in H. intros.
  repeat match goal with |- _ /\ _ => split end; first [apply d_plane|apply d_pfv|apply d_pfp|apply d_cart|apply d_ppps|apply d_ppp|apply d_ppv|apply d_ppl|apply d_pdss|apply d_pds|apply d_pdp|apply d_pd|apply d_pside|apply d_pcontains|apply d_pss|apply d_pclose|apply d_pil|apply d_pip|apply d_pfite|apply d_pfit|apply d_pmesh|apply d_ptop]; auto.
Qed.
Print Assumptions C77_planes.

Theorem C77_balls : forall (LA : linalg RNum) (q q' : pt) r r' c o s, linalg_definite LA -> svd_correct LA -> lstsq_correct LA ->
  circle_new (N:=RNum) q r = Ok c -> sphere_new (N:=RNum) q' r' = Ok s ->
  forall (t : tol RNum) (chk : bool) (x y : pt) (u : R) (n : nat) (ps : list pt) (l : line RNum) (g h : segment RNum),
  definite (circle_new (N:=RNum) x u) /\ definite (sphere_new (N:=RNum) x u) /\ definite (ball_distance_point o x) /\ definite (ball_contains_point t o x) /\ definite (ball_project_point o x) /\
  definite (circle_intersect_circle c o) /\ definite (circle_intersect_line c l) /\ definite (sphere_intersect_line s l) /\ definite (sphere_volume RTrig s) /\
  definite (sphere_to_mesh RTrig s n) /\ definite (sphere_to_points RTrig s n) /\ definite (circle_best_fit LA ps) /\ definite (sphere_best_fit LA ps) /\
  definite (segment_new (N:=RNum) x y) /\ definite (segment_contains_point t g x) /\ definite (segment_intersect_segment LA t chk g h).
Proof.
  intros LA q q' r r' c o s HL HS HQ Hc Hs. intros.
  assert (Lc : length (c_point c) = 2%nat). { apply C45_construction in Hc as (-> & _ & L). exact L. }
  repeat match goal with |- _ /\ _ => split end;
    try solve [first [apply d_circle|apply d_sphere|apply d_bdp|apply d_bcp|apply d_bpp|apply d_cic|apply d_cil|apply d_sil|apply d_vol|apply d_smesh|apply d_stop|apply d_segi|apply d_segc|apply d_seg]; auto].
  - destruct (points_of (N:=RNum) ps) as [ps'| |] eqn:E; [|unfold circle_best_fit; rn; rewrite E; discriminate|exfalso; exact (d_points ps E)].
    apply points_of_inv in E as (_ & H1 & H2 & H3 & _). destruct (C50_rejections LA (dim2 (N:=RNum) ps) ps HS (conj H1 (conj H2 H3))) as (_ & _ & B & _). destruct (B HQ) as [(b & E)|(m & E)]; rewrite E; discriminate.
  - destruct (points_of (N:=RNum) ps) as [ps'| |] eqn:E; [|unfold sphere_best_fit; rn; rewrite E; discriminate|exfalso; exact (d_points ps E)].
    apply points_of_inv in E as (_ & H1 & H2 & H3 & _). destruct (C50_rejections LA (dim2 (N:=RNum) ps) ps HS (conj H1 (conj H2 H3))) as (_ & _ & _ & B). destruct (B HQ) as [(b & E)|(m & E)]; rewrite E; discriminate.
Qed.
Print Assumptions C77_balls.

(** Circle.from_points divides by twice the signed area of the three points, which it only compares with zero through
    are_collinear: nan exactly when that test says "not collinear" of collinear points — never with a non-negative
    tolerance, always with a negative one. *)
Theorem C77_circle_from_points : forall (LA : linalg RNum) (tr : option R) (a b c : pt), linalg_definite LA ->
  (circle_from_points LA tr a b c = NonFinite <->
     length a = 2%nat /\ length b = 2%nat /\ length c = 2%nat /\ collinear [a; b; c] /\ are_collinear LA tr [a; b; c] = Ok false) /\
  (svd_correct LA -> tol_nonneg tr -> definite (circle_from_points LA tr a b c)).
Proof.
  intros LA tr a b c HL.
  assert (K : circle_from_points LA tr a b c = NonFinite <->
     length a = 2%nat /\ length b = 2%nat /\ length c = 2%nat /\ collinear [a; b; c] /\ are_collinear LA tr [a; b; c] = Ok false).
  { destruct (Nat.eq_dec (length a) 2) as [La|La]; [|split; [|intros (? & _); contradiction]; intro H; destruct (C46_not_2d LA tr a b c (or_introl La)) as (m & E); congruence].
    destruct (Nat.eq_dec (length b) 2) as [Lb|Lb]; [|split; [|intros (_ & ? & _); contradiction]; intro H; destruct (C46_not_2d LA tr a b c (or_intror (or_introl Lb))) as (m & E); congruence].
    destruct (Nat.eq_dec (length c) 2) as [Lc|Lc]; [|split; [|intros (_ & _ & ? & _); contradiction]; intro H; destruct (C46_not_2d LA tr a b c (or_intror (or_intror Lc))) as (m & E); congruence].
    destruct a as [|xa [|ya [|]]]; try discriminate. destruct b as [|xb [|yb [|]]]; try discriminate. destruct c as [|xc [|yc [|]]]; try discriminate.
    destruct (are_collinear LA tr [[xa; ya]; [xb; yb]; [xc; yc]]) as [[|]|e|] eqn:E.
    - split; [|intros (_ & _ & _ & _ & ?); discriminate]. unfold circle_from_points. rewrite !point_of_R by discriminate. cbn [bind dim1 length Nat.eqb negb orb]. rewrite (points_of_R _ 2) by (try discriminate; try lia; repeat constructor). cbn [bind]. rn. rewrite E. discriminate.
    - pose proof (from_points_core LA tr xa ya xb yb xc yc E) as (C1 & C2). destruct (Classical_Prop.classic (collinear [[xa; ya]; [xb; yb]; [xc; yc]])) as [C|C].
      + split; auto 6.
      + split; [|intros (_ & _ & _ & ? & _); contradiction]. intro H. destruct (C1 C) as (p & r & H' & _). pose proof (eq_trans (eq_sym H) H') as Q. discriminate Q.
    - split; [|intros (_ & _ & _ & _ & ?); discriminate]. unfold circle_from_points. rewrite !point_of_R by discriminate. cbn [bind dim1 length Nat.eqb negb orb]. rewrite (points_of_R _ 2) by (try discriminate; try lia; repeat constructor). cbn [bind]. rn. rewrite E. discriminate.
    - exfalso. exact (d_coll LA HL tr _ E). }
  split; auto. intros HS Ht H. apply K in H as (La & Lb & Lc & C & E). destruct (C46_from_points LA tr a b c HS Ht La Lb Lc) as (H1 & _). destruct (H1 E) as (p & r & H2 & _).
  assert (N : circle_from_points LA tr a b c = NonFinite) by (apply K; auto 6). pose proof (eq_trans (eq_sym N) H2) as Q. discriminate Q.
Qed.
Print Assumptions C77_circle_from_points.

Theorem C77_negative_tolerance : forall (LA : linalg RNum) tl, svd_correct LA -> linalg_definite LA -> tl < 0 ->
  circle_from_points LA (Some tl) [0; 0] [1; 0] [2; 0] = NonFinite.
Proof.
  intros LA tl HS HL Ht. apply (proj1 (C77_circle_from_points LA (Some tl) [0; 0] [1; 0] [2; 0] HL)). split; auto. split; auto. split; auto. split; [apply collinear_det; ring|].
  assert (Hok : points_ok 2 [[0; 0]; [1; 0]; [2; 0]]) by (split; [discriminate|]; split; [lia|]; repeat constructor).
  unfold are_collinear. destruct (affine_rank_R LA (Some tl) 2 _ HS Hok) as (U & S & Vh & Hs & E). cbv zeta in Hs, E. rn. rewrite E. cbn [bind]. f_equal.
  set (u := np_unique (N:=RNum) [[0; 0]; [1; 0]; [2; 0]]) in *. destruct (np_unique_spec 2 [[0; 0]; [1; 0]; [2; 0]] (proj2 (proj2 Hok))) as (_ & I & _). fold u in I. rn.
  assert (Lu : (2 <= length u)%nat).
  { assert (A0 : In [0; 0] u) by (apply I; simpl; auto). assert (A1 : In [1; 0] u) by (apply I; simpl; auto). destruct u as [|v [|w u']]; simpl in *; [contradiction| |lia]. destruct A0 as [A0|[]], A1 as [A1|[]]. rewrite A0 in A1. injection A1. lra. }
  assert (LS : length S = 2%nat). { rewrite (sv_len _ _ _ _ _ Hs). assert (Lc : length (centered 2 u) = length u) by (unfold centered; apply map_length). rn. lia. }
  replace (filter (fun x : R => Rltb (threshold (Some tl) (length u) 2 S) x) S) with S; [rewrite LS; reflexivity|].
  pose proof (sv_nonneg _ _ _ _ _ Hs) as Hn. cbn [threshold]. destruct S as [|s0 [|s1 [|]]]; try discriminate. pose proof (Hn 0%nat ltac:(simpl; lia)) as N0. pose proof (Hn 1%nat ltac:(simpl; lia)) as N1. cbn [nth] in N0, N1.
  cbn [filter]. rewrite (proj2 (Rltb_true tl s0)) by lra. rewrite (proj2 (Rltb_true tl s1)) by lra. reflexivity.
Qed.
Print Assumptions C77_negative_tolerance.

Theorem C77_triangles : forall (LA : linalg RNum), linalg_definite LA ->
  forall (tl : tol RNum) (chk : bool) (a b c d : pt) (ps : list pt) (t : triangle RNum) (v name : string) (inputs : list string),
  definite (triangle_new LA a b c) /\ definite (triangle_point t v) /\ definite (triangle_line t v) /\ definite (triangle_length t v) /\ definite (triangle_normal t) /\ definite (triangle_area t) /\
  definite (triangle_perimeter t) /\ definite (triangle_centroid t) /\ definite (triangle_altitude t v) /\ definite (triangle_orthocenter LA tl chk t) /\ definite (triangle_classify tl t) /\ definite (triangle_is_right tl t) /\
  definite (triangle_angle RTrig t v) /\ definite (triangle_multiple RTrig t name inputs) /\ definite (area_triangle (N:=RNum) a b c) /\ definite (volume_tetrahedron (N:=RNum) a b c d) /\ definite (area_signed (N:=RNum) ps).
Proof.
  intros LA HL. intros. repeat match goal with |- _ /\ _ => split end; first [apply d_tri|apply d_tpoint|apply d_tline|apply d_tlen|apply d_tnormal|apply d_tarea|apply d_tperi|apply d_tcent|apply d_talt|apply d_tortho|apply d_tclass|apply d_tright|apply d_tangle|apply d_multiple|apply d_areatri|apply d_voltet|apply d_areas]; auto.
Qed.
Print Assumptions C77_triangles.

Theorem C77_cylinders : forall (LA : linalg RNum) (M : minimizer (N:=RNum)), linalg_definite LA -> svd_correct LA -> (forall g x0, exists th ph, M g x0 = Ok (th, ph)) ->
  forall (a b : pt) (r : R) (c : cylinder RNum) (l : line RNum) (nd : option Z) (inf : bool) (n m : nat) (ps : list pt),
  definite (cylinder_new (N:=RNum) a b r) /\ definite (cylinder_from_points (N:=RNum) a b r) /\ definite (cylinder_is_point_within c a) /\ definite (cylinder_intersect_line c l nd inf) /\
  definite (cylinder_to_mesh RTrig c n m) /\ definite (cylinder_to_points RTrig c n m) /\
  ((Z.of_nat (length ps) < 2 ^ 52)%Z -> definite (cylinder_best_fit LA RTrig M ps)).
Proof.
  intros LA M HL HS HM. intros. split; [apply d_cyl|]. split; [apply d_cylfp|]. split; [apply d_within|]. split; [apply d_cil2|]. split; [apply d_cmesh|]. split; [apply d_ctop|].
  intro Hz. destruct (points_of (N:=RNum) ps) as [ps'| |] eqn:E; [|unfold cylinder_best_fit; rn; rewrite E; discriminate|exfalso; exact (d_points ps E)].
  pose proof E as E'. apply points_of_inv in E as (-> & H1 & H2 & H3 & _). pose proof (conj H1 (conj H2 H3)) as Hok. fold (points_ok (dim2 (N:=RNum) ps) ps) in Hok.
  destruct (Nat.eq_dec (dim2 (N:=RNum) ps) 3) as [D|D]; [|destruct (C63_rejects LA M _ ps HS Hok (or_introl D)) as (m' & E); rewrite E; discriminate].
  destruct (le_lt_dec 6 (length ps)) as [L6|L6]; [|destruct (C63_rejects LA M _ ps HS Hok (or_intror (or_introl L6))) as (m' & E); rewrite E; discriminate].
  destruct (are_coplanar LA None ps) as [[|]| |] eqn:Ec.
  - unfold cylinder_best_fit. rn. rewrite E'. cbn [bind]. rewrite D. cbn [Nat.eqb negb]. destruct (Nat.ltb _ _); [discriminate|]. rn. rewrite Ec. discriminate.
  - rewrite D in Hok. destruct (C63_returns LA M ps HS Hok L6 Hz Ec HM) as (cy & ->). discriminate.
  - unfold cylinder_best_fit. rn. rewrite E'. cbn [bind]. rewrite D. cbn [Nat.eqb negb]. destruct (Nat.ltb _ _); [discriminate|]. rn. rewrite Ec. discriminate.
  - exfalso. exact (d_copl LA HL None ps Ec).
Qed.
Print Assumptions C77_cylinders.

Theorem C77_functions : forall (a b c : R) (n : option Z) (ps : list pt) (o : pt) (basis : list pt),
  definite (solve_quadratic (N:=RNum) a b c n) /\ definite (transform_coordinates (N:=RNum) ps o basis).
Proof. intros. split; [apply d_quad|apply d_transform]. Qed.
Print Assumptions C77_functions.

(** The hypotheses on LAPACK and on the optimiser can be met together; the guarded cases do occur. *)
Theorem C77_nonvacuous : linalg_definite ideal_linalg /\ (svd_correct ideal_linalg /\ solve_correct ideal_linalg /\ lstsq_correct ideal_linalg) /\
  (exists M : minimizer (N:=RNum), forall g x0, exists th ph, M g x0 = Ok (th, ph)) /\
  project_vector (N:=RNum) [0; 0] [1; 2] = NonFinite /\ normalize_distance (N:=RNum) [[0; 0]; [0; 0]] = NonFinite /\
  circle_from_points ideal_linalg (Some (-1)) [0; 0] [1; 0] [2; 0] = NonFinite.
Proof.
  assert (D : linalg_definite ideal_linalg). { split; [|split]; intros; simpl; destruct excluded_middle_informative; discriminate. }
  split; auto. split; [exact ideal_linalg_correct|]. split; [exists (fun _ x0 => Ok x0); intros g (th, ph); exists th, ph; reflexivity|].
  split; [apply C77_vectors; [exact (MkTol (N:=RNum) 0 0)|exact []|split; reflexivity]|]. split; [|apply C77_negative_tolerance; auto; [apply ideal_linalg_correct|lra]].
  destruct (C77_points ideal_linalg None [] [] [[0; 0]; [0; 0]] D) as (_ & _ & _ & _ & _ & _ & _ & _ & _ & K). apply (K 2%nat); [split; [discriminate|]; split; [lia|]; repeat constructor|]. intros r Hr. simpl in Hr. destruct Hr as [<-|[<-|[]]]; reflexivity.
Qed.
Print Assumptions C77_nonvacuous.
