(** * Property C72: which exceptions can escape

    Whatever the arguments, every modelled call either returns, or yields a non-finite value, or raises a
    ValueError or a LinAlgError (in recent numpy a subclass of it); the exceptions to this rule are listed.  And "math domain
    error" can only come from Circle.from_points, Circle.intersect_circle and Triangle.angle (and from
    Triangle.multiple calling the latter).  All statements hold for exact reals and for IEEE doubles alike. *)
From Coq Require Import String List ZArith Bool Lia Reals Floats ClassicalEpsilon.
From Verif.Model Require Import Outcome Num Instances Numpy BaseArray Vector Points Functions Line Plane LineSegment Sphere Triangle Cylinder.
From Verif.Spec Require Import Geometry Linalg Errors.
From Verif.Proof Require Import Bridge SvdExists.
Import ListNotations.
Local Open Scope string_scope.

Section Errors.
Context {N : Num}.
Variable HN : num_ok N.
Variable P : exn -> Prop.
Variable HP : forall e, not_domain_error e -> P e.
Notation only := (raises_only P).

Lemma only_ok {A} (a : A) : only (Ok a).
Proof. intros e H. discriminate. Qed.
Lemma only_nf {A} : only (NonFinite (A:=A)).
Proof. intros e H. discriminate. Qed.
Lemma only_raise {A} m : m <> "math domain error" -> only (Raise (A:=A) (ValueError m)).
Proof. intros Hm e H. injection H as <-. apply HP. split; [left; eauto|congruence]. Qed.
Lemma only_bind {A B} (r : res A) (f : A -> res B) : only r -> (forall a, r = Ok a -> only (f a)) -> only (bind r f).
Proof. intros H1 H2. destruct r as [a|e|]; simpl; auto; [|apply only_nf]. intros e' E. injection E as <-. apply H1. reflexivity. Qed.
Lemma only_mapM {A B} (f : A -> res B) l : (forall a, In a l -> only (f a)) -> only (mapM f l).
Proof.
  induction l as [|x l IH]; intro H; simpl; [apply only_ok|]. apply only_bind; [apply H; left; auto|]. intros y _. apply only_bind; [apply IH; intros; apply H; right; auto|]. intros; apply only_ok.
Qed.
Lemma only_map {A B} (f : A -> B) r : only r -> only (res_map f r).
Proof. intro H. apply only_bind; auto. intros; apply only_ok. Qed.
Lemma only_div (a b : N) : only (ndiv a b).
Proof. intros e H. exfalso. apply (proj1 HN a b e H). Qed.
Lemma only_por (a b : res bool) : only a -> only b -> only (por a b).
Proof. intros Ha Hb. apply only_bind; auto. intros [|] _; auto. apply only_ok. Qed.

Ltac ostep :=
  first
    [ apply only_ok | apply only_nf | apply only_div
    | apply only_raise; discriminate
    | apply only_mapM; intros ? _
    | apply only_map | apply only_por
    | solve [eauto 2 with only]
    | match goal with
      | |- raises_only _ (bind _ _) => apply only_bind; [|intros ? ?]
      | |- raises_only _ (if ?b then _ else _) => let E := fresh "E" in destruct b eqn:E
      | |- raises_only _ (match ?x with _ => _ end) => destruct x
      | |- raises_only _ (let '(_, _) := ?x in _) => destruct x
      | |- raises_only _ (let x := _ in _) => cbv zeta
      end ].
Ltac on := repeat ostep.
Create HintDb only.

Lemma o_bcast f (a b : vec N) : only (bcast f a b).
Proof. unfold bcast, err_broadcast. on. Qed.
Lemma o_wrap1 (v : vec N) : only (wrap1 v).
Proof. unfold wrap1. on. Qed.
Hint Resolve o_bcast o_wrap1 : only.
Lemma o_vadd (a b : vec N) : only (vadd a b). Proof. unfold vadd. on. Qed.
Lemma o_vsub (a b : vec N) : only (vsub a b). Proof. unfold vsub. on. Qed.
Lemma o_vmuls s (v : vec N) : only (vmuls s v). Proof. unfold vmuls. on. Qed.
Lemma o_vdivs (v : vec N) s : only (vdivs v s). Proof. unfold vdivs. on. Qed.
Lemma o_dot (a b : vec N) : only (np_dot a b). Proof. unfold np_dot, err_aligned. on. Qed.
Lemma o_npsqrt (x : N) : only (np_sqrt x). Proof. unfold np_sqrt. on. Qed.
Lemma o_arccos T (x : N) : only (np_arccos T x). Proof. unfold np_arccos. on. Qed.
Lemma o_isclose t (a b : N) : only (isclose t a b). Proof. unfold isclose. on. Qed.
Lemma o_cross3 (a b : vec N) : only (cross3 a b). Proof. unfold cross3. on. Qed.
Lemma o_round d (x : N) : only (np_round d x). Proof. unfold np_round. on. Qed.
Lemma o_linspace (a b : N) n : only (linspace a b n). Proof. unfold linspace. on. Qed.
Lemma o_as2d (l : list (vec N)) : only (as2d l). Proof. unfold as2d, err_broadcast, err_ragged. on. Qed.
Hint Resolve o_vadd o_vsub o_vmuls o_vdivs o_dot o_npsqrt o_arccos o_isclose o_cross3 o_round o_linspace o_as2d : only.

Lemma o_base (v : vec N) : only (base_new v). Proof. unfold base_new, err_empty, err_finite. on. Qed.
Hint Resolve o_base : only.
Lemma o_array1 a : only (array1d_new (N:=N) a). Proof. unfold array1d_new, err_ragged, err_1d. on. Qed.
Lemma o_array2 a : only (array2d_new (N:=N) a). Proof. unfold array2d_new, err_ragged, err_2d. on. Qed.
Hint Resolve o_array1 o_array2 : only.
Lemma o_point (v : vec N) : only (point_of v). Proof. apply o_array1. Qed.
Lemma o_vector (v : vec N) : only (vector_of v). Proof. apply o_array1. Qed.
Lemma o_points (v : list (vec N)) : only (points_of v). Proof. apply o_array2. Qed.
Lemma o_bpairs {A B} (a : list A) (b : list B) : only (bpairs a b). Proof. unfold bpairs, err_broadcast. on. Qed.
Hint Resolve o_point o_vector o_points o_bpairs : only.
Lemma o_allclose t (l : list (N * N)) : only (allclose_pairs t l). Proof. unfold allclose_pairs, err_vectorize. on. Qed.
Hint Resolve o_allclose : only.
Lemma o_close1 t (a b : vec N) : only (is_close1 t a b). Proof. unfold is_close1. on. Qed.
Lemma o_close2 t (a b : list (vec N)) : only (is_close2 t a b). Proof. unfold is_close2. on. Qed.
Lemma o_setdim1 (v : vec N) d : only (set_dimension1 v d). Proof. unfold set_dimension1, err_dim_less. on. Qed.
Lemma o_setdim2 (v : list (vec N)) d : only (set_dimension2 v d). Proof. unfold set_dimension2, err_dim_less. on. Qed.
Lemma o_round1 (v : vec N) d : only (round1 v d). Proof. unfold round1. on. Qed.
Lemma o_round2 (v : list (vec N)) d : only (round2 v d). Proof. unfold round2, round1. on. Qed.
Hint Resolve o_close1 o_close2 o_setdim1 o_setdim2 o_round1 o_round2 : only.

Lemma o_from_points (a b : vec N) : only (from_points a b). Proof. unfold from_points. on. Qed.
Lemma o_norm (v : vec N) : only (norm v). Proof. unfold norm. on. Qed.
Hint Resolve o_from_points o_norm : only.
Lemma o_unit (v : vec N) : only (unit_vec v). Proof. unfold unit_vec. on. Qed.
Lemma o_iszero t (v : vec N) : only (is_zero t v). Proof. unfold is_zero. on. Qed.
Lemma o_cross (a b : vec N) : only (cross a b). Proof. unfold cross. on. Qed.
Lemma o_cosine (a b : vec N) : only (cosine_similarity a b). Proof. unfold cosine_similarity. on. Qed.
Hint Resolve o_unit o_iszero o_cross o_cosine : only.
Lemma cosine_clipped (a b c : vec N) (x : N) : cosine_similarity a b = Ok x -> nltb x (nopp n1) = false /\ nltb n1 x = false.
Proof.
  unfold cosine_similarity. intro E. cbn [bind norm] in E. destruct (vector_of b) as [o'| |]; cbn [bind norm] in E; try discriminate.
  match type of E with (if ?b then _ else _) = _ => destruct b end; try discriminate. destruct (np_dot a b) as [d| |]; cbn [bind] in E; try discriminate.
  match type of E with bind ?r _ = _ => destruct r as [q| |] end; cbn [bind] in E; try discriminate. injection E as <-. apply (proj2 HN).
Qed.
Lemma o_angle T (a b : vec N) : only (angle_between T a b).
Proof. unfold angle_between, math_acos. apply only_bind; [on|]. intros c Hc. destruct (cosine_clipped a b [] c Hc) as (-> & ->). on. Qed.
Hint Resolve o_angle : only.
Lemma o_signed T (a b : vec N) : only (angle_signed T a b). Proof. unfold angle_signed. on. Qed.
Lemma o_perp t (a b : vec N) : only (is_perpendicular t a b). Proof. unfold is_perpendicular. on. Qed.
Lemma o_parallel t (a b : vec N) : only (is_parallel t a b). Proof. unfold is_parallel. on. Qed.
Hint Resolve o_signed o_perp o_parallel : only.
Lemma o_signed3 T (a b d : vec N) : only (angle_signed_3d T a b d). Proof. unfold angle_signed_3d. on. Qed.
Lemma o_side (a b : vec N) : only (side_vector a b). Proof. unfold side_vector, int_sign. on. Qed.
Lemma o_scalar (a b : vec N) : only (scalar_projection a b). Proof. unfold scalar_projection. on. Qed.
Lemma o_project (a b : vec N) : only (project_vector a b). Proof. unfold project_vector. on. Qed.
Lemma o_diff t (a : vec N) : only (different_direction t a). Proof. unfold different_direction, err_zero_vector. on. Qed.
Hint Resolve o_signed3 o_side o_scalar o_project o_diff : only.

Lemma o_distance (a b : vec N) : only (distance_point a b). Proof. unfold distance_point. on. Qed.
Lemma o_unique (l : list (vec N)) : only (unique l). Proof. unfold unique. on. Qed.
Lemma o_centroid (l : list (vec N)) : only (centroid l). Proof. unfold centroid, colmean. on. Qed.
Hint Resolve o_distance o_unique o_centroid : only.
Lemma o_mcc (l : list (vec N)) : only (mean_center_c l). Proof. unfold mean_center_c. on. Qed.
Hint Resolve o_mcc : only.
Lemma o_mc (l : list (vec N)) : only (mean_center l). Proof. unfold mean_center. on. Qed.
Lemma o_normalize (l : list (vec N)) : only (normalize_distance l). Proof. unfold normalize_distance. on. Qed.
Hint Resolve o_mc o_normalize : only.

Variable LA : linalg N.
Hypothesis HLA : linalg_ok LA.
Lemma o_svd m : only (la_svd LA m). Proof. intros e H. apply HP. exact (proj1 HLA m e H). Qed.
Lemma o_solve m b : only (la_solve LA m b). Proof. intros e H. apply HP. exact (proj1 (proj2 HLA) m b e H). Qed.
Lemma o_lstsq m b : only (la_lstsq LA m b). Proof. intros e H. apply HP. exact (proj1 (proj2 (proj2 HLA)) m b e H). Qed.
Hint Resolve o_svd o_solve o_lstsq : only.
Lemma o_rank t d (m : list (vec N)) : only (matrix_rank LA t d m). Proof. unfold matrix_rank. on. Qed.
Hint Resolve o_rank : only.
Lemma o_affine t (l : list (vec N)) : only (affine_rank LA t l). Proof. unfold affine_rank. on. Qed.
Hint Resolve o_affine : only.
Lemma o_conc t (l : list (vec N)) : only (are_concurrent LA t l). Proof. unfold are_concurrent. on. Qed.
Lemma o_coll t (l : list (vec N)) : only (are_collinear LA t l). Proof. unfold are_collinear. on. Qed.
Lemma o_copl t (l : list (vec N)) : only (are_coplanar LA t l). Proof. unfold are_coplanar. on. Qed.
Hint Resolve o_conc o_coll o_copl : only.

Lemma o_contains f t (p : vec N) : (forall x, only (f x)) -> only (contains_point_gen f t p).
Proof. intro. unfold contains_point_gen. on. Qed.
Lemma o_sumsq f (l : list (vec N)) : (forall x, only (f x)) -> only (sum_squares_gen f l).
Proof. intro. unfold sum_squares_gen. on. Qed.
Lemma o_topoints m : only m -> only (to_points_gen (N:=N) m).
Proof. intro. unfold to_points_gen. on. Qed.
Lemma o_quad (a b c : N) d : only (solve_quadratic a b c d).
Proof.
  unfold solve_quadratic, round_opt, math_sqrt. apply only_bind; [on|intros x _]. apply only_bind; [on|intros y _]. apply only_bind; [on|intros z _].
  destruct (neqb x n0); on.
Qed.
Lemma o_transform (l : list (vec N)) o b : only (transform_coordinates l o b). Proof. unfold transform_coordinates. on. Qed.
Hint Resolve o_quad o_transform : only.

Lemma o_check (p v : vec N) : only (check_point_vector p v). Proof. unfold check_point_vector. on. Qed.
Hint Resolve o_check : only.
Lemma o_line (p v : vec N) : only (line_new p v). Proof. unfold line_new. on. Qed.
Hint Resolve o_line : only.
Lemma o_linefp (p v : vec N) : only (line_from_points p v). Proof. unfold line_from_points. on. Qed.
Lemma o_slope (a b : N) : only (line_from_slope a b). Proof. unfold line_from_slope. on. Qed.
Lemma o_topoint (l : line N) s : only (line_to_point l s). Proof. unfold line_to_point. on. Qed.
Hint Resolve o_linefp o_slope o_topoint : only.
Lemma o_lcop t (l m : line N) : only (line_is_coplanar LA t l m). Proof. unfold line_is_coplanar. on. Qed.
Lemma o_lpp (l : line N) p : only (line_project_point l p). Proof. unfold line_project_point. on. Qed.
Hint Resolve o_lcop o_lpp : only.
Lemma o_lpps (l : line N) p : only (line_project_points l p). Proof. unfold line_project_points. on. Qed.
Lemma o_lpv (l : line N) p : only (line_project_vector l p). Proof. unfold line_project_vector. on. Qed.
Lemma o_lside (l : line N) p : only (line_side_point l p). Proof. unfold line_side_point. on. Qed.
Lemma o_ldp (l : line N) p : only (line_distance_point l p). Proof. unfold line_distance_point. on. Qed.
Hint Resolve o_lpps o_lpv o_lside o_ldp : only.
Lemma o_ldps (l : line N) p : only (line_distance_points l p). Proof. unfold line_distance_points. on. Qed.
Lemma o_lcontains t (l : line N) p : only (line_contains_point t l p). Proof. unfold line_contains_point. apply o_contains. intro; on. Qed.
Lemma o_lss (l : line N) p : only (line_sum_squares l p). Proof. unfold line_sum_squares. apply o_sumsq. intro; on. Qed.
Hint Resolve o_ldps o_lcontains o_lss : only.
Lemma o_lclose t (l m : line N) : only (line_is_close t l m). Proof. unfold line_is_close. on. Qed.
Lemma o_ldl (l m : line N) : only (line_distance_line LA l m). Proof. unfold line_distance_line. on. Qed.
Lemma o_lil t c (l m : line N) : only (line_intersect_line LA t c l m). Proof. unfold line_intersect_line. on. Qed.
Lemma o_lfite t (l : list (vec N)) : only (line_best_fit_err LA t l). Proof. unfold line_best_fit_err. on. Qed.
Hint Resolve o_lclose o_ldl o_lil o_lfite : only.
Lemma o_lfit t (l : list (vec N)) : only (line_best_fit LA t l). Proof. unfold line_best_fit. on. Qed.
Lemma o_ltp (l : line N) p : only (line_transform_points l p). Proof. unfold line_transform_points. on. Qed.
Hint Resolve o_lfit o_ltp : only.

Lemma o_plane (p v : vec N) : only (plane_new p v). Proof. unfold plane_new. on. Qed.
Hint Resolve o_plane : only.
Lemma o_pfv t (p a b : vec N) : only (plane_from_vectors t p a b). Proof. unfold plane_from_vectors. on. Qed.
Hint Resolve o_pfv : only.
Lemma o_pfp t (a b c : vec N) : only (plane_from_points LA t a b c). Proof. unfold plane_from_points. on. Qed.
Lemma o_cart (p : plane N) : only (plane_cartesian p). Proof. unfold plane_cartesian. on. Qed.
Lemma o_pds (p : plane N) q : only (plane_distance_point_signed p q). Proof. unfold plane_distance_point_signed. on. Qed.
Hint Resolve o_pfp o_cart o_pds : only.
Lemma o_ppp (p : plane N) q : only (plane_project_point p q). Proof. unfold plane_project_point. on. Qed.
Lemma o_ppps (p : plane N) q : only (plane_project_points p q). Proof. unfold plane_project_points. on. Qed.
Lemma o_ppv (p : plane N) q : only (plane_project_vector p q). Proof. unfold plane_project_vector, plane_project_point. on. Qed.
Hint Resolve o_ppp o_ppps o_ppv : only.
Lemma o_ppl t (p : plane N) q : only (plane_project_line t p q). Proof. unfold plane_project_line. on. Qed.
Lemma o_pdss (p : plane N) q : only (plane_distance_points_signed p q). Proof. unfold plane_distance_points_signed. on. Qed.
Hint Resolve o_ppl o_pdss : only.
Lemma o_pd (p : plane N) q : only (plane_distance_point p q). Proof. unfold plane_distance_point. on. Qed.
Lemma o_pdp (p : plane N) q : only (plane_distance_points p q). Proof. unfold plane_distance_points. on. Qed.
Lemma o_pside (p : plane N) q : only (plane_side_point p q). Proof. unfold plane_side_point, int_sign. on. Qed.
Hint Resolve o_pd o_pdp o_pside : only.
Lemma o_pcontains t (l : plane N) p : only (plane_contains_point t l p). Proof. unfold plane_contains_point. apply o_contains. intro; on. Qed.
Lemma o_pss (l : plane N) p : only (plane_sum_squares l p). Proof. unfold plane_sum_squares. apply o_sumsq. intro; on. Qed.
Hint Resolve o_pcontains o_pss : only.
Lemma o_pclose t (l m : plane N) : only (plane_is_close t l m). Proof. unfold plane_is_close. on. Qed.
Lemma o_pil t (p : plane N) l : only (plane_intersect_line t p l). Proof. unfold plane_intersect_line. on. Qed.
Lemma o_pip t (p q : plane N) : only (plane_intersect_plane LA t p q). Proof. unfold plane_intersect_plane. on. Qed.
Lemma o_pfite t (l : list (vec N)) : only (plane_best_fit_err LA t l). Proof. unfold plane_best_fit_err. on. Qed.
Hint Resolve o_pclose o_pil o_pip o_pfite : only.
Lemma o_pfit t (l : list (vec N)) : only (plane_best_fit LA t l). Proof. unfold plane_best_fit. on. Qed.
Lemma o_pmesh (p : plane N) a b : only (plane_to_mesh p a b). Proof. unfold plane_to_mesh. on. Qed.
Hint Resolve o_pfit o_pmesh : only.
Lemma o_ptop (p : plane N) a b : only (plane_to_points p a b). Proof. apply o_topoints. on. Qed.
Hint Resolve o_ptop : only.

Lemma o_seg (a b : vec N) : only (segment_new a b). Proof. unfold segment_new. on. Qed.
Lemma o_segc t (s : segment N) p : only (segment_contains_point t s p). Proof. unfold segment_contains_point. on. Qed.
Hint Resolve o_seg o_segc : only.
Lemma o_segi t c (s o : segment N) : only (segment_intersect_segment LA t c s o). Proof. unfold segment_intersect_segment. on. Qed.
Hint Resolve o_segi : only.

Lemma o_bsn (p : vec N) r : only (base_sphere_new p r). Proof. unfold base_sphere_new. on. Qed.
Hint Resolve o_bsn : only.
Lemma o_circle (p : vec N) r : only (circle_new p r). Proof. unfold circle_new. on. Qed.
Lemma o_sphere (p : vec N) r : only (sphere_new p r). Proof. unfold sphere_new. on. Qed.
Lemma o_bdp (c : ball N) p : only (ball_distance_point c p). Proof. unfold ball_distance_point. on. Qed.
Hint Resolve o_circle o_sphere o_bdp : only.
Lemma o_bcp t (c : ball N) p : only (ball_contains_point t c p). Proof. unfold ball_contains_point, contains_point_gen. on. Qed.
Lemma o_bpp (c : ball N) p : only (ball_project_point c p). Proof. unfold ball_project_point. on. Qed.
Lemma o_vol T (c : ball N) : only (sphere_volume T c). Proof. unfold sphere_volume. on. Qed.
Hint Resolve o_bcp o_bpp o_vol : only.
Lemma o_cil (c : ball N) l : only (circle_intersect_line c l).
Proof. unfold circle_intersect_line, math_sqrt. on. Qed.
Lemma o_sil (c : ball N) l : only (sphere_intersect_line c l).
Proof. unfold sphere_intersect_line, math_sqrt. on. Qed.
Hint Resolve o_cil o_sil : only.
(** Sphere meshes need a 3D centre, which Sphere() guarantees. *)
Lemma o_smesh T (c : ball N) n : length (c_point c) = 3%nat -> only (sphere_to_mesh T c n).
Proof. intro L. unfold sphere_to_mesh. apply only_bind; [on|intros a _]. apply only_bind; [on|intros b _]. destruct (c_point c) as [|x [|y [|z [|]]]]; try discriminate; on. Qed.
Lemma o_stop T (c : ball N) n : length (c_point c) = 3%nat -> only (sphere_to_points T c n).
Proof. intro L. apply o_topoints. apply o_smesh; auto. Qed.

Lemma points_of_rows (l ps : list (vec N)) : points_of l = Ok ps -> ps = l /\ ps <> [] /\ Forall (fun r => length r = dim2 ps) ps.
Proof.
  intro H. destruct l as [|r l]; [discriminate H|]. assert (Hne : r :: l <> []) by discriminate. revert H. generalize (r :: l) as m, Hne. clear. intros m Hne H. unfold points_of in H. unfold array2d_new in H. destruct (shape (nd_of_rows m)) as [s|] eqn:E; [|discriminate].
  destruct (negb (Nat.eqb (length s) 2)) eqn:E2; [discriminate|]. destruct (base_new (flat (nd_of_rows m))); cbn [bind] in H; try discriminate.
  assert (R : rows_of (nd_of_rows m) = m). { unfold nd_of_rows, rows_of. rewrite map_map. rewrite <- map_id. apply map_ext. intro v. unfold nd_of_vec. cbn [flat]. induction v as [|x v IH]; simpl; auto. f_equal. exact IH. }
  rewrite R in H. assert (Q : ps = m) by congruence. rewrite Q. split; auto. split; auto. clear R H Q.
  destruct m as [|v m]; [contradiction|]. cbn [dim2]. unfold nd_of_rows in E. cbn [map shape] in E.
  match type of E with (if ?b then _ else _) = _ => destruct b eqn:B; [|discriminate] end.
  constructor; auto. apply Forall_forall. intros w Hw. rewrite forallb_forall in B. specialize (B (shape (nd_of_vec w))).
  assert (Hin : In (shape (nd_of_vec w)) (map shape (map nd_of_vec m))) by (apply in_map, in_map; auto). specialize (B Hin).
  assert (S : forall u : vec N, shape (nd_of_vec u) = Some [length u]).
  { intro u. unfold nd_of_vec. cbn [shape]. destruct u as [|x u]; auto. cbn [map]. assert (F : forallb (shape_eqb (shape (Sc x))) (map shape (map Sc u)) = true) by (apply forallb_forall; intros s' Hs; apply in_map_iff in Hs as (y & <- & Hy); apply in_map_iff in Hy as (z & <- & _); reflexivity).
    cbn [map shape] in *. rewrite F. cbn [option_map]. cbn [length]. rewrite map_length. reflexivity. }
  rewrite !S in B. unfold shape_eqb in B. destruct (list_eq_dec Nat.eq_dec _ _) as [Q|]; [|discriminate]. congruence.
Qed.
Lemma fit_rows_len (l : list (vec N)) r m : fit_matrix l = r :: m -> length r = S (dim2 l).
Proof. destruct l as [|v l]; [discriminate|]. cbn. intro E. injection E as <- _. unfold vscale. rewrite app_length, map_length. cbn. lia. Qed.
Lemma o_cfit l : only (circle_best_fit LA l).
Proof.
  unfold circle_best_fit. apply only_bind; [on|intros ps Hps]. apply points_of_rows in Hps as (_ & Hne & _). destruct (negb (Nat.eqb (dim2 ps) 2)) eqn:D; [on|]. destruct (Nat.ltb _ _); [on|]. apply only_bind; [on|intros k _]. destruct (negb (Nat.eqb k 2)); [on|].
  apply only_bind; [on|intros c Hc]. destruct (fit_matrix ps) as [|r m] eqn:F; [destruct ps; [contradiction|discriminate]|]. pose proof (proj2 (proj2 (proj2 HLA)) _ _ _ r m Hc eq_refl) as L. apply fit_rows_len in F. apply negb_false_iff, Nat.eqb_eq in D. rewrite F, D in L.
  destruct c as [|c0 [|c1 [|c2 [|]]]]; try discriminate; on.
Qed.
Lemma o_sfit l : only (sphere_best_fit LA l).
Proof.
  unfold sphere_best_fit. apply only_bind; [on|intros ps Hps]. apply points_of_rows in Hps as (_ & Hne & _). destruct (negb (Nat.eqb (dim2 ps) 3)) eqn:D; [on|]. destruct (Nat.ltb _ _); [on|]. apply only_bind; [on|intros k _]. destruct (negb (Nat.eqb k 3)); [on|].
  apply only_bind; [on|intros c Hc]. destruct (fit_matrix ps) as [|r m] eqn:F; [destruct ps; [contradiction|discriminate]|]. pose proof (proj2 (proj2 (proj2 HLA)) _ _ _ r m Hc eq_refl) as L. apply fit_rows_len in F. apply negb_false_iff, Nat.eqb_eq in D. rewrite F, D in L.
  destruct c as [|c0 [|c1 [|c2 [|c3 [|]]]]]; try discriminate; on.
Qed.
Hint Resolve o_cfit o_sfit : only.

Lemma o_tri (a b c : vec N) : only (triangle_new LA a b c). Proof. unfold triangle_new. on. Qed.
Lemma o_tpoint (t : triangle N) v : only (triangle_point t v). Proof. unfold triangle_point, err_vertex. on. Qed.
Lemma o_tline (t : triangle N) v : only (triangle_line t v). Proof. unfold triangle_line, err_side. on. Qed.
Hint Resolve o_tri o_tpoint o_tline : only.
Lemma o_tlen (t : triangle N) v : only (triangle_length t v). Proof. unfold triangle_length. on. Qed.
Lemma o_tnormal (t : triangle N) : only (triangle_normal t). Proof. unfold triangle_normal. on. Qed.
Hint Resolve o_tlen o_tnormal : only.
Lemma o_tlens (t : triangle N) : only (triangle_lengths t). Proof. unfold triangle_lengths. on. Qed.
Lemma o_tarea (t : triangle N) : only (triangle_area t). Proof. unfold triangle_area. on. Qed.
Hint Resolve o_tlens o_tarea : only.
Lemma o_tperi (t : triangle N) : only (triangle_perimeter t). Proof. unfold triangle_perimeter. on. Qed.
Lemma o_tcent (t : triangle N) : only (triangle_centroid t). Proof. unfold triangle_centroid. on. Qed.
Lemma o_talt (t : triangle N) v : only (triangle_altitude t v). Proof. unfold triangle_altitude, err_vertex. on. Qed.
Hint Resolve o_tperi o_tcent o_talt : only.
Lemma o_tortho tl c (t : triangle N) : only (triangle_orthocenter LA tl c t). Proof. unfold triangle_orthocenter. on. Qed.
Lemma o_tclass tl (t : triangle N) : only (triangle_classify tl t). Proof. unfold triangle_classify. on. Qed.
Lemma o_tright tl (t : triangle N) : only (triangle_is_right tl t). Proof. unfold triangle_is_right. on. Qed.
Hint Resolve o_tortho o_tclass o_tright : only.
Lemma o_areatri (a b c : vec N) : only (area_triangle a b c). Proof. unfold area_triangle. on. Qed.
Lemma o_voltet (a b c d : vec N) : only (volume_tetrahedron a b c d). Proof. unfold volume_tetrahedron. on. Qed.
Lemma o_areas (l : list (vec N)) : only (area_signed l). Proof. unfold area_signed. on. Qed.
Hint Resolve o_areatri o_voltet o_areas : only.

Lemma o_cyl (a b : vec N) r : only (cylinder_new a b r). Proof. unfold cylinder_new. on. Qed.
Hint Resolve o_cyl : only.
Lemma o_cylfp (a b : vec N) r : only (cylinder_from_points a b r). Proof. unfold cylinder_from_points. on. Qed.
Lemma o_between (c : cylinder N) p : only (between_cap_planes c p). Proof. unfold between_cap_planes. on. Qed.
Hint Resolve o_cylfp o_between : only.
Lemma o_within (c : cylinder N) p : only (cylinder_is_point_within c p). Proof. unfold cylinder_is_point_within. on. Qed.
Lemma o_reject (x v : vec N) : only (reject x v). Proof. unfold reject. on. Qed.
Hint Resolve o_within o_reject : only.
Lemma only_try {A B} (r : res A) (h : exn -> res B) (f : A -> res B) : only r -> (forall e, P e -> only (h e)) -> (forall a, only (f a)) ->
  only (match r with Ok a => f a | Raise e => h e | NonFinite => NonFinite end).
Proof. intros Hr Hh Hf. destruct r as [a|e|]; [apply Hf|apply Hh, Hr; reflexivity|apply only_nf]. Qed.
Lemma only_re {A} e : P e -> only (Raise (A:=A) e).
Proof. intros H e' E. injection E as <-. exact H. Qed.
Lemma o_iinf (c : cylinder N) l d : only (intersect_infinite c l d).
Proof.
  unfold intersect_infinite, err_no_intersect. repeat (apply only_bind; [on|intros ? _]). cbv zeta. repeat (apply only_bind; [on|intros ? _]). apply only_try; [on| |intros (x1, x2); on]. intros e He. destruct (is_value_error e); [on|apply only_re; auto].
Qed.
Lemma o_icap (c : cylinder N) l p : only (intersect_cap c l p).
Proof. unfold intersect_cap. apply only_try; [on| |intro; on]. intros e He. destruct (is_value_error e); [on|apply only_re; auto]. Qed.
Hint Resolve o_iinf o_icap : only.
Lemma o_icaps (c : cylinder N) l : only (intersect_caps c l). Proof. unfold intersect_caps. on. Qed.
Hint Resolve o_icaps : only.
Lemma o_ifin (c : cylinder N) l d : only (intersect_finite c l d). Proof. unfold intersect_finite, err_no_intersect. on. Qed.
Hint Resolve o_ifin : only.
Lemma o_cil2 (c : cylinder N) l d i : only (cylinder_intersect_line c l d i). Proof. unfold cylinder_intersect_line. on. Qed.
Lemma o_cmesh T (c : cylinder N) a b : only (cylinder_to_mesh T c a b). Proof. unfold cylinder_to_mesh. on. Qed.
Hint Resolve o_cil2 o_cmesh : only.
Lemma o_ctop T (c : cylinder N) a b : only (cylinder_to_points T c a b). Proof. unfold cylinder_to_points. apply o_topoints. on. Qed.
Hint Resolve o_ctop : only.

(** Sizes, needed only for the start direction of Cylinder.best_fit. *)
Lemma vec_of_id (v w : vec N) : array1d_new (nd_of_vec v) = Ok w -> w = v.
Proof. rewrite array1d_of_vec. destruct (base_new v); cbn [bind]; congruence. Qed.
Lemma mapM_len {A B} (f : A -> res B) l m : mapM f l = Ok m -> length m = length l.
Proof.
  revert m. induction l as [|x l IH]; intros m H; simpl in H; [injection H as <-; reflexivity|]. destruct (f x); cbn [bind] in H; try discriminate. destruct (mapM f l) as [ys| |]; cbn [bind] in H; try discriminate. injection H as <-. simpl. f_equal. apply IH. reflexivity.
Qed.
Lemma mapM_all {A B} (f : A -> res B) (Q : B -> Prop) l m : (forall x y, In x l -> f x = Ok y -> Q y) -> mapM f l = Ok m -> Forall Q m.
Proof.
  revert m. induction l as [|x l IH]; intros m HQ H; simpl in H; [injection H as <-; constructor|]. destruct (f x) as [y| |] eqn:E; cbn [bind] in H; try discriminate. destruct (mapM f l) as [ys| |] eqn:E2; cbn [bind] in H; try discriminate. injection H as <-. constructor; [apply (HQ x); auto; left; auto|]. apply IH; auto. intros z w Hz. apply HQ. right; auto.
Qed.
Lemma map2_len (f : N -> N -> N) (a b : vec N) : length a = length b -> length (map2 f a b) = length a.
Proof. revert b. induction a as [|x a IH]; intros [|y b] L; try discriminate; auto. simpl. f_equal. apply IH. simpl in L. lia. Qed.
Lemma colsum_len d (l : list (vec N)) : Forall (fun r => length r = d) l -> length (colsum d l) = d.
Proof. unfold colsum. induction 1 as [|r l Hr F IH]; simpl; [apply repeat_length|]. rewrite map2_len; auto. congruence. Qed.
Lemma bcast_len f (a b v : vec N) d : length a = d -> length b = d -> bcast f a b = Ok v -> length v = d.
Proof. intros La Lb. unfold bcast. rewrite La, Lb, Nat.eqb_refl. intro H. injection H as <-. rewrite map2_len; congruence. Qed.
Lemma wrap1_id (v w : vec N) : wrap1 v = Ok w -> w = v.
Proof. unfold wrap1. destruct (forallb nfin v); congruence. Qed.
Lemma mcc_dims d (l cen : list (vec N)) c : l <> [] -> Forall (fun r => length r = d) l -> mean_center_c l = Ok (cen, c) -> length c = d /\ Forall (fun r => length r = d) cen /\ cen <> [].
Proof.
  intros Hne F H. unfold mean_center_c, centroid in H. destruct (colmean (dim2 l) l) as [m| |] eqn:E; cbn [bind] in H; try discriminate. destruct (point_of m) as [p| |] eqn:E2; cbn [bind] in H; try discriminate. apply vec_of_id in E2. subst p.
  destruct (mapM (fun r => vsub r m) l) as [cs| |] eqn:E3; cbn [bind] in H; try discriminate. injection H as <- <-.
  assert (D : dim2 l = d) by (destruct l as [|r l]; [contradiction|]; inversion F; auto). assert (Lm : length m = d).
  { unfold colmean in E. apply mapM_len in E. rewrite D, colsum_len in E; auto. }
  split; auto. split.
  - eapply mapM_all; [|exact E3]. intros x y Hx H. unfold vsub in H. destruct (bcast nsub x m) as [v| |] eqn:B; cbn [bind] in H; try discriminate. apply wrap1_id in H. subst y. eapply bcast_len; [|exact Lm|exact B]. rewrite Forall_forall in F. auto.
  - apply mapM_len in E3. intro Q. subst cs. destruct l; [contradiction|discriminate].
Qed.
Lemma unit_len (v u : vec N) : unit_vec v = Ok u -> length u = length v.
Proof.
  unfold unit_vec. cbn [bind norm]. destruct (neqb _ _); [discriminate|]. unfold vdivs. destruct (mapM _ v) as [w| |] eqn:E; cbn [bind]; try discriminate. intro H. apply wrap1_id in H. subst u. apply mapM_len in E. exact E.
Qed.
Lemma line_fit_dims d t (l : list (vec N)) ln : l <> [] -> Forall (fun r => length r = d) l -> line_best_fit LA t l = Ok ln -> length (l_dir ln) = d.
Proof.
  intros Hne F H. unfold line_best_fit, line_best_fit_err in H. destruct (points_of l) as [ps| |] eqn:E; cbn [bind] in H; try discriminate. apply points_of_rows in E as (-> & _ & _).
  destruct (are_concurrent LA t l) as [[|]| |]; cbn [bind] in H; try discriminate. destruct (mean_center_c l) as [(cen, c)| |] eqn:M; cbn [bind] in H; try discriminate. apply (mcc_dims d) in M as (Lc & _ & _); auto.
  destruct (la_svd LA cen) as [((u, s), vh)| |]; cbn [bind] in H; try discriminate. destruct (line_new c (nth 0 vh [])) as [l'| |] eqn:L; cbn [bind] in H; try discriminate. injection H as <-.
  unfold line_new, check_point_vector in L. destruct (point_of c) as [p| |] eqn:Ep; cbn [bind] in L; try discriminate. apply vec_of_id in Ep. subst p. destruct (vector_of (nth 0 vh [])) as [v| |] eqn:Ev; cbn [bind] in L; try discriminate.
  destruct (negb (Nat.eqb (dim1 c) (dim1 v))) eqn:D; cbn [bind] in L; try discriminate. destruct (is_zero tol_default v) as [[|]| |]; cbn [bind] in L; try discriminate. injection L as <-. cbn [l_dir]. apply negb_false_iff, Nat.eqb_eq in D. unfold dim1 in D. congruence.
Qed.
Lemma o_init T (l : list (vec N)) : l <> [] -> Forall (fun r => length r = 3%nat) l -> only (initial_direction LA T l).
Proof.
  intros Hne F. unfold initial_direction. apply only_bind; [on|intros ln Hl]. apply (line_fit_dims 3) in Hl; auto. apply only_bind; [on|intros u Hu]. apply unit_len in Hu. rewrite Hl in Hu. destruct u as [|x [|y [|z [|]]]]; try discriminate. unfold cartesian_to_spherical. on.
Qed.
Lemma o_stc T (a b : N) : only (spherical_to_cartesian T a b). Proof. unfold spherical_to_cartesian. on. Qed.
Lemma o_fc (d : vec N) l : only (fit_center d l). Proof. unfold fit_center. cbv zeta. on. Qed.
Hint Resolve o_stc o_fc : only.
Lemma o_g (d : vec N) l : only (compute_g d l). Proof. unfold compute_g. cbv zeta. on. Qed.
Lemma o_cc (d : vec N) l : only (compute_center d l). Proof. unfold compute_center. on. Qed.
Hint Resolve o_g o_cc : only.
Lemma o_cr (d : vec N) l : only (compute_radius d l). Proof. unfold compute_radius. cbv zeta. on. Qed.
Hint Resolve o_cr : only.
Lemma o_ff T a (l : list (vec N)) c : only (cylinder_fit_for T a l c). Proof. unfold cylinder_fit_for. on. Qed.
Hint Resolve o_ff : only.

(** The three with a square root or arc cosine that is not guarded by a check. *)
Hypothesis HD : P (ValueError "math domain error").
Lemma o_dom {A} : only (Raise (A:=A) err_domain). Proof. apply only_re. exact HD. Qed.
Hint Resolve o_dom : only.
Lemma o_cfp t (a b c : vec N) : only (circle_from_points LA t a b c). Proof. unfold circle_from_points, math_sqrt. cbv zeta. on. Qed.
Lemma o_cic (c o : ball N) : only (circle_intersect_circle c o). Proof. unfold circle_intersect_circle, math_sqrt. cbv zeta. on. Qed.
Lemma o_tangle T (t : triangle N) v : only (triangle_angle T t v). Proof. unfold triangle_angle, math_acos, err_vertex. cbv zeta. on. Qed.
End Errors.

(** ** The theorems *)
Notation fine := (raises_only not_domain_error).
Definition id_ok : forall e, not_domain_error e -> not_domain_error e := fun e H => H.
Lemma nd_ve e : not_domain_error e -> value_error e. Proof. intros (H & _); exact H. Qed.

Theorem C72_arrays : forall (N : Num), num_ok N ->
  (forall a : nd N, fine (array1d_new a) /\ fine (array2d_new a)) /\
  (forall t (a b : vec N), fine (is_close1 t a b)) /\ (forall t (a b : list (vec N)), fine (is_close2 t a b)) /\
  (forall (v : vec N) d, fine (set_dimension1 v d)) /\ (forall (l : list (vec N)) d, fine (set_dimension2 l d)) /\
  (forall (v : vec N) d, fine (round1 v d)) /\ (forall (l : list (vec N)) d, fine (round2 l d)).
Proof.
  intros N H. split; [split; [apply o_array1|apply o_array2]; auto|]. split; [intros; apply o_close1; auto|]. split; [intros; apply o_close2; auto|]. split; [intros; apply o_setdim1; auto|]. split; [intros; apply o_setdim2; auto|].
  split; [intros; apply o_round1; auto|intros; apply o_round2; auto].
Qed.
Print Assumptions C72_arrays.

Theorem C72_vectors : forall (N : Num) (T : Trig N), num_ok N -> forall (t : tol N) (a b c : vec N),
  fine (from_points a b) /\ fine (norm a) /\ fine (unit_vec a) /\ fine (is_zero t a) /\ fine (cross a b) /\ fine (cosine_similarity a b) /\
  fine (angle_between T a b) /\ fine (angle_signed T a b) /\ fine (angle_signed_3d T a b c) /\ fine (is_perpendicular t a b) /\ fine (is_parallel t a b) /\
  fine (side_vector a b) /\ fine (scalar_projection a b) /\ fine (project_vector a b) /\ fine (different_direction t a).
Proof.
  intros N T H t a b c. pose proof id_ok as I.
  repeat match goal with |- _ /\ _ => split end; first [apply o_from_points|apply o_norm|apply o_unit|apply o_iszero|apply o_cross|apply o_cosine|apply o_angle|apply o_signed|apply o_signed3|apply o_perp|apply o_parallel|apply o_side|apply o_scalar|apply o_project|apply o_diff]; auto.
Qed.
Print Assumptions C72_vectors.

Theorem C72_points : forall (N : Num) (LA : linalg N), num_ok N -> linalg_ok LA -> forall (t : option N) (a b : vec N) (l : list (vec N)),
  fine (distance_point a b) /\ fine (unique l) /\ fine (centroid l) /\ fine (mean_center l) /\ fine (mean_center_c l) /\ fine (normalize_distance l) /\
  fine (affine_rank LA t l) /\ fine (are_concurrent LA t l) /\ fine (are_collinear LA t l) /\ fine (are_coplanar LA t l).
Proof.
  intros N LA H HL t a b l. pose proof id_ok as I.
  repeat match goal with |- _ /\ _ => split end; first [apply o_distance|apply o_unique|apply o_centroid|apply o_mc|apply o_mcc|apply o_normalize|apply o_affine|apply o_conc|apply o_coll|apply o_copl]; auto.
Qed.
Print Assumptions C72_points.

Theorem C72_lines : forall (N : Num) (LA : linalg N), num_ok N -> linalg_ok LA -> forall (tr : option N) (t : tol N) (chk : bool) (a b : vec N) (s : N) (ps : list (vec N)) (l m : line N),
  fine (line_new a b) /\ fine (line_from_points a b) /\ fine (line_from_slope s s) /\ fine (line_to_point l s) /\ fine (line_is_coplanar LA tr l m) /\
  fine (line_project_point l a) /\ fine (line_project_points l ps) /\ fine (line_project_vector l a) /\ fine (line_side_point l a) /\ fine (line_distance_point l a) /\
  fine (line_distance_points l ps) /\ fine (line_contains_point t l a) /\ fine (line_sum_squares l ps) /\ fine (line_is_close t l m) /\ fine (line_distance_line LA l m) /\
  fine (line_intersect_line LA t chk l m) /\ fine (line_best_fit LA tr ps) /\ fine (line_best_fit_err LA tr ps) /\ fine (line_transform_points l ps).
Proof.
  intros N LA H HL tr t chk a b s ps l m. pose proof id_ok as I.
  repeat match goal with |- _ /\ _ => split end; first [apply o_line|apply o_linefp|apply o_slope|apply o_topoint|apply o_lcop|apply o_lpp|apply o_lpps|apply o_lpv|apply o_lside|apply o_ldp|apply o_ldps|apply o_lcontains|apply o_lss|apply o_lclose|apply o_ldl|apply o_lil|apply o_lfit|apply o_lfite|apply o_ltp]; auto.
Qed.
Print Assumptions C72_lines.

Theorem C72_planes : forall (N : Num) (LA : linalg N), num_ok N -> linalg_ok LA -> forall (tr : option N) (t : tol N) (a b c : vec N) (xs ys : vec N) (ps : list (vec N)) (l : line N) (p q : plane N),
  fine (plane_new a b) /\ fine (plane_from_vectors t a b c) /\ fine (plane_from_points LA tr a b c) /\ fine (plane_cartesian p) /\ fine (plane_project_point p a) /\
  fine (plane_project_points p ps) /\ fine (plane_project_vector p a) /\ fine (plane_project_line t p l) /\ fine (plane_distance_point_signed p a) /\ fine (plane_distance_points_signed p ps) /\
  fine (plane_distance_point p a) /\ fine (plane_distance_points p ps) /\ fine (plane_side_point p a) /\ fine (plane_contains_point t p a) /\ fine (plane_sum_squares p ps) /\ fine (plane_is_close t p q) /\
  fine (plane_intersect_line t p l) /\ fine (plane_intersect_plane LA t p q) /\ fine (plane_best_fit LA tr ps) /\ fine (plane_best_fit_err LA tr ps) /\ fine (plane_to_mesh p xs ys) /\ fine (plane_to_points p xs ys).
Proof.
  intros N LA H HL tr t a b c xs ys ps l p q. pose proof id_ok as I.
  repeat match goal with |- _ /\ _ => split end; first [apply o_plane|apply o_pfv|apply o_pfp|apply o_cart|apply o_ppp|apply o_ppps|apply o_ppv|apply o_ppl|apply o_pds|apply o_pdss|apply o_pd|apply o_pdp|apply o_pside|apply o_pcontains|apply o_pss|apply o_pclose|apply o_pil|apply o_pip|apply o_pfit|apply o_pfite|apply o_pmesh|apply o_ptop]; auto.
Qed.
Print Assumptions C72_planes.

(** Comparing a line with a plane, or asking whether a line is coplanar with a plane, is a TypeError; nothing else is. *)
Theorem C72_type_errors : forall (N : Num) (LA : linalg N), num_ok N -> linalg_ok LA -> forall (t : tol N) (tr : option N) (l m : line N) (p q : plane N),
  lp_is_close t (LineObj l) (PlaneObj p) = Raise (TypeError "The input must have the same type as the object.") /\
  lp_is_close t (PlaneObj p) (LineObj l) = Raise (TypeError "The input must have the same type as the object.") /\
  line_is_coplanar_obj LA tr l (PlaneObj p) = Raise (TypeError "The input must also be a line.") /\
  fine (lp_is_close t (LineObj l) (LineObj m)) /\ fine (lp_is_close t (PlaneObj p) (PlaneObj q)) /\ fine (line_is_coplanar_obj LA tr l (LineObj m)).
Proof.
  intros. split; [reflexivity|]. split; [reflexivity|]. split; [reflexivity|]. split; [apply o_lclose; auto|]. split; [apply o_pclose; auto|apply o_lcop; auto].
Qed.
Print Assumptions C72_type_errors.

Theorem C72_balls : forall (N : Num) (LA : linalg N) (T : Trig N), num_ok N -> linalg_ok LA -> forall (t : tol N) (tr : option N) (a b d : vec N) (r : N) (n : nat) (ps : list (vec N)) (l : line N) (c o : ball N) (s g : segment N) (chk : bool),
  fine (circle_new a r) /\ fine (sphere_new a r) /\ fine (ball_distance_point c a) /\ fine (ball_contains_point t c a) /\ fine (ball_project_point c a) /\ fine (sphere_volume T c) /\
  fine (circle_intersect_line c l) /\ fine (sphere_intersect_line c l) /\ fine (circle_best_fit LA ps) /\ fine (sphere_best_fit LA ps) /\
  (forall ball, sphere_new a r = Ok ball -> fine (sphere_to_mesh T ball n) /\ fine (sphere_to_points T ball n)) /\
  raises_only value_error (circle_from_points LA tr a b d) /\ raises_only value_error (circle_intersect_circle c o) /\
  fine (segment_new a b) /\ fine (segment_contains_point t s a) /\ fine (segment_intersect_segment LA t chk s g).
Proof.
  intros N LA T H HL t tr a b d r n ps l c o s g chk. pose proof id_ok as I. pose proof nd_ve as V. assert (D : value_error (ValueError "math domain error")) by (left; eauto).
  repeat match goal with |- _ /\ _ => split end; try solve [first [apply o_circle|apply o_sphere|apply o_bdp|apply o_bcp|apply o_bpp|apply o_vol|apply o_cil|apply o_sil|apply o_cfit|apply o_sfit|apply o_cfp|apply o_cic|apply o_seg|apply o_segc|apply o_segi]; auto].
  intros k Hk. assert (L : length (c_point k) = 3%nat).
  { unfold sphere_new in Hk. destruct (base_sphere_new a r) as [k'| |]; cbn [bind] in Hk; try discriminate. match type of Hk with (if ?b then _ else _) = _ => destruct b eqn:E end; try discriminate. injection Hk as <-. apply negb_false_iff, Nat.eqb_eq in E. exact E. }
  split; [apply o_smesh|apply o_stop]; auto.
Qed.
Print Assumptions C72_balls.

Theorem C72_triangles : forall (N : Num) (LA : linalg N) (T : Trig N), num_ok N -> linalg_ok LA -> forall (tl : tol N) (chk : bool) (a b c d : vec N) (ps : list (vec N)) (t : triangle N) (v : string),
  fine (triangle_new LA a b c) /\ fine (triangle_point t v) /\ fine (triangle_line t v) /\ fine (triangle_length t v) /\ fine (triangle_normal t) /\ fine (triangle_area t) /\
  fine (triangle_perimeter t) /\ fine (triangle_centroid t) /\ fine (triangle_altitude t v) /\ fine (triangle_orthocenter LA tl chk t) /\ fine (triangle_classify tl t) /\ fine (triangle_is_right tl t) /\
  raises_only value_error (triangle_angle T t v) /\
  fine (area_triangle a b c) /\ fine (volume_tetrahedron a b c d) /\ fine (area_signed ps).
Proof.
  intros N LA T H HL tl chk a b c d ps t v. pose proof id_ok as I. pose proof nd_ve as V. assert (D : value_error (ValueError "math domain error")) by (left; eauto).
  repeat match goal with |- _ /\ _ => split end; first [apply o_tri|apply o_tpoint|apply o_tline|apply o_tlen|apply o_tnormal|apply o_tarea|apply o_tperi|apply o_tcent|apply o_talt|apply o_tortho|apply o_tclass|apply o_tright|apply o_tangle|apply o_areatri|apply o_voltet|apply o_areas]; auto.
Qed.
Print Assumptions C72_triangles.

(** Triangle.multiple: an unknown name is an AttributeError (before anything is computed), a known one raises only ValueErrors. *)
Theorem C72_multiple : forall (N : Num) (T : Trig N), num_ok N -> forall (t : triangle N) (name : string) (inputs : list string),
  (~ In name ["point"; "line"; "length"; "angle"; "altitude"] -> triangle_multiple T t name inputs = Raise (AttributeError "'Triangle' object has no such attribute")) /\
  (In name ["point"; "line"; "length"; "angle"; "altitude"] -> raises_only value_error (triangle_multiple T t name inputs)).
Proof.
  intros N T H t name inputs. pose proof nd_ve as V. assert (D : value_error (ValueError "math domain error")) by (left; eauto). unfold triangle_multiple, triangle_method. split.
  - intro Hn. repeat match goal with |- context [String.eqb name ?s] => destruct (String.eqb_spec name s) as [->|?]; [exfalso; apply Hn; simpl; tauto|] end. reflexivity.
  - intro Hn. simpl in Hn. destruct Hn as [<-|[<-|[<-|[<-|[<-|[]]]]]]; cbn; apply only_mapM; auto; intros s _; apply only_map; auto;
    first [apply o_tpoint|apply o_tline|apply o_tlen|apply o_tangle|apply o_talt]; auto.
Qed.
Print Assumptions C72_multiple.

Theorem C72_cylinders : forall (N : Num) (LA : linalg N) (T : Trig N) (M : minimizer (N:=N)), num_ok N -> linalg_ok LA -> minimizer_ok M ->
  forall (a b : vec N) (r : N) (c : cylinder N) (l : line N) (nd : option Z) (inf : bool) (n m : nat) (ps : list (vec N)),
  fine (cylinder_new a b r) /\ fine (cylinder_from_points a b r) /\ fine (cylinder_is_point_within c a) /\ fine (cylinder_intersect_line c l nd inf) /\
  fine (cylinder_to_mesh T c n m) /\ fine (cylinder_to_points T c n m) /\ fine (cylinder_best_fit LA T M ps).
Proof.
  intros N LA T M H HL HM a b r c l nd inf n m ps. pose proof id_ok as I.
  repeat match goal with |- _ /\ _ => split end; try solve [first [apply o_cyl|apply o_cylfp|apply o_within|apply o_cil2|apply o_cmesh|apply o_ctop]; auto].
  unfold cylinder_best_fit. apply only_bind; [apply o_points; auto|intros qs Hq]. apply points_of_rows in Hq as (-> & Hne & F). destruct (negb (Nat.eqb (dim2 ps) 3)) eqn:D; [apply only_raise; auto; discriminate|]. apply negb_false_iff, Nat.eqb_eq in D. rewrite D in F.
  destruct (Nat.ltb _ _); [apply only_raise; auto; discriminate|]. apply only_bind; [apply o_copl; auto|intros cop _]. destruct cop; [apply only_raise; auto; discriminate|]. apply only_bind; [apply o_mcc; auto|intros (cen, cc) Hc]. apply (mcc_dims 3) in Hc as (Lc & Fc & Nc); auto.
  apply only_bind; [apply o_init; auto|intros x0 _]. apply only_bind; [apply HM; intros; apply only_bind; [apply o_stc; auto|intros; apply o_g; auto]|intros an _]. apply only_bind; [apply o_ff; auto|intros ((uv, ce), ra) _].
  apply only_bind; [apply o_line; auto|intros ax _]. apply only_bind; [apply o_ltp; auto|intros p1 _]. apply only_bind; [apply o_lpp; auto|intros pa _]. apply only_bind; [apply o_distance; auto|intros dd _]. apply only_bind; [apply o_vmuls; auto|intros vab _]. apply o_cyl; auto.
Qed.
Print Assumptions C72_cylinders.

Theorem C72_functions : forall (N : Num), num_ok N -> forall (a b c : N) (nd : option Z) (ps : list (vec N)) (o : vec N) (basis : list (vec N)),
  fine (solve_quadratic a b c nd) /\ fine (transform_coordinates ps o basis).
Proof. intros. split; [apply o_quad; auto|apply o_transform; auto]. Qed.
Print Assumptions C72_functions.

(** ** The hypotheses hold for exact reals and for doubles *)
Theorem C72_nonvacuous : num_ok RNum /\ num_ok FNum /\ linalg_ok (N:=FNum) (MkLinalg (fun m => Raise (LinAlgError "SVD did not converge")) (fun _ _ => Raise (LinAlgError "Singular matrix")) (fun m b => Ok (hd [] m))) /\
  linalg_ok ideal_linalg /\ (svd_correct ideal_linalg /\ solve_correct ideal_linalg /\ lstsq_correct ideal_linalg) /\
  minimizer_ok (N:=RNum) (fun f x0 => let* _ := f (fst x0) (snd x0) in Ok x0).
Proof.
  split; [|split; [|split; [|split; [|split; [exact ideal_linalg_correct|]]]]].
  - split.
    + intros a b e. unfold RNum, ndiv. destruct (Req_EM_T b 0); discriminate.
    + intro x. unfold nclip1. change (@nltb RNum) with Rltb. change (@nopp RNum (@n1 RNum)) with (-(1))%R. change (@n1 RNum) with 1%R. unfold Rltb.
      destruct (Rlt_dec x (-(1))); [|destruct (Rlt_dec 1 x)]; split; destruct (Rlt_dec _ _); auto; exfalso; Lra.lra.
  - split; [discriminate|]. intro x. change (nclip1 (N:=FNum) x) with (if PrimFloat.ltb x (-1) then (-1)%float else if PrimFloat.ltb 1 x then 1%float else x).
    change (@nltb FNum) with PrimFloat.ltb. change (@nopp FNum (@n1 FNum)) with (-1)%float. change (@n1 FNum) with 1%float. destruct (PrimFloat.ltb x (-1)) eqn:E; [|destruct (PrimFloat.ltb 1 x) eqn:E']; auto; split; reflexivity.
  - split; [|split; [|split]].
    + intros m e E. injection E as <-. split; [right; eauto|discriminate].
    + intros m b e E. injection E as <-. split; [right; eauto|discriminate].
    + intros m b e E. discriminate.
    + intros m b x r m' E ->. cbn in E. injection E as <-. reflexivity.
  - split; [|split; [|split]].
    + intros A e. simpl. destruct excluded_middle_informative; [discriminate|]. intro E. injection E as <-. split; [right; eauto|discriminate].
    + intros A y e. simpl. destruct excluded_middle_informative; [discriminate|]. intro E. injection E as <-. split; [right; eauto|discriminate].
    + intros A y e. simpl. destruct excluded_middle_informative; [discriminate|]. intro E. injection E as <-. split; [right; eauto|discriminate].
    + intros A y x r m' E ->. simpl in E. destruct excluded_middle_informative as [H|H]; [|discriminate]. injection E as <-. destruct (constructive_indefinite_description _ H) as (z & Lz & Hz). exact Lz.
  - intros f x0 Hf. apply only_bind; [apply Hf|]. intros; apply only_ok.
Qed.
Print Assumptions C72_nonvacuous.
