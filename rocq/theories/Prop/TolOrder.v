(** * Property C79: loosening a tolerance only turns False into True

    With larger tolerances every yes/no test keeps its True answers; every function that refuses degenerate arguments by
    such a test and returns with the larger tolerance returns the same value with the smaller one.  Stated for the real
    numbers and for doubles, for every object (also ones no constructor would return). *)
From Coq Require Import String Reals List ZArith Floats Lra Lia Bool.
From Flocq Require Import Core BinarySingleNaN.
From Flocq Require Import IEEE754.PrimFloat.
From Verif.Model Require Import Outcome Num Instances Numpy BaseArray Vector Points Functions Line Plane LineSegment Sphere Triangle.
From Verif.Spec Require Import Geometry Tolerance Linalg Floats.
From Verif.Proof Require Import VecAlg Bridge Vectors Lines Triangles SvdExists Floats.
From Verif.Prop Require Import Vectors Planes Triangles Witnesses.
Import ListNotations.
Local Open Scope R_scope.

(** ** What is claimed, for a number type [N] and tolerances [t] (tighter) and [t'] (looser) *)
Definition keeps_true (r r' : res bool) : Prop := r = Ok true -> r' = Ok true.
(** A result obtained with the looser tolerance is also obtained with the tighter one. *)
Definition keeps_result {A} (r' r : res A) : Prop := forall a, r' = Ok a -> r = Ok a.

Definition tests_monotone (N : Num) (t t' : tol N) : Prop :=
  (forall a b : N, keeps_true (isclose t a b) (isclose t' a b)) /\
  (forall a b : vec N, keeps_true (is_close1 t a b) (is_close1 t' a b)) /\
  (forall a b : list (vec N), keeps_true (is_close2 t a b) (is_close2 t' a b)) /\
  (forall v : vec N, keeps_true (is_zero t v) (is_zero t' v)) /\
  (forall v w : vec N, keeps_true (is_perpendicular t v w) (is_perpendicular t' v w)) /\
  (forall v w : vec N, keeps_true (is_parallel t v w) (is_parallel t' v w)) /\
  (forall (l : line N) p, keeps_true (line_contains_point t l p) (line_contains_point t' l p)) /\
  (forall (pl : plane N) p, keeps_true (plane_contains_point t pl p) (plane_contains_point t' pl p)) /\
  (forall (c : ball N) p, keeps_true (ball_contains_point t c p) (ball_contains_point t' c p)) /\
  (forall (s : segment N) p, keeps_true (segment_contains_point t s p) (segment_contains_point t' s p)) /\
  (forall x y : line_or_plane N, keeps_true (lp_is_close t x y) (lp_is_close t' x y)) /\
  (forall tr : triangle N, keeps_true (triangle_is_right t tr) (triangle_is_right t' tr)).
Definition guards_monotone (N : Num) (t t' : tol N) : Prop :=
  (forall (pl : plane N) l, keeps_result (plane_intersect_line t' pl l) (plane_intersect_line t pl l)) /\
  (forall LA (pl pl' : plane N), keeps_result (plane_intersect_plane LA t' pl pl') (plane_intersect_plane LA t pl pl')) /\
  (forall LA check (l l' : line N), keeps_result (line_intersect_line LA t' check l l') (line_intersect_line LA t check l l')) /\
  (forall LA check (s s' : segment N), keeps_result (segment_intersect_segment LA t' check s s') (segment_intersect_segment LA t check s s')) /\
  (forall p a b : vec N, keeps_result (plane_from_vectors t' p a b) (plane_from_vectors t p a b)) /\
  (forall LA check (tr : triangle N), keeps_result (triangle_orthocenter LA t' check tr) (triangle_orthocenter LA t check tr)).
(** The rank tests take one absolute tolerance [u] (tighter), [u'] (looser). *)
Definition ranks_monotone (N : Num) (u u' : N) : Prop :=
  (forall LA rows r, affine_rank LA (Some u) rows = Ok r -> exists r', affine_rank LA (Some u') rows = Ok r' /\ (r' <= r)%nat) /\
  (forall LA rows, keeps_true (are_concurrent LA (Some u) rows) (are_concurrent LA (Some u') rows)) /\
  (forall LA rows, keeps_true (are_collinear LA (Some u) rows) (are_collinear LA (Some u') rows)) /\
  (forall LA rows, keeps_true (are_coplanar LA (Some u) rows) (are_coplanar LA (Some u') rows)) /\
  (forall LA (l : line N) x, keeps_true (line_is_coplanar_obj LA (Some u) l x) (line_is_coplanar_obj LA (Some u') l x)) /\
  (forall LA (a b c : vec N), keeps_result (plane_from_points LA (Some u') a b c) (plane_from_points LA (Some u) a b c)) /\
  (forall LA (a b c : vec N), keeps_result (circle_from_points LA (Some u') a b c) (circle_from_points LA (Some u) a b c)) /\
  (forall LA (ps : list (vec N)), keeps_result (line_best_fit_err LA (Some u') ps) (line_best_fit_err LA (Some u) ps)) /\
  (forall LA (ps : list (vec N)), keeps_result (line_best_fit LA (Some u') ps) (line_best_fit LA (Some u) ps)) /\
  (forall LA (ps : list (vec N)), keeps_result (plane_best_fit_err LA (Some u') ps) (plane_best_fit_err LA (Some u) ps)) /\
  (forall LA (ps : list (vec N)), keeps_result (plane_best_fit LA (Some u') ps) (plane_best_fit LA (Some u) ps)).

(** ** Proofs, once for every number type *)
(** The tighter answer [r] against the looser [r']: equal errors, or the looser test says True, or both say False. *)
Definition U (r r' : res bool) : Prop := r' = Ok true \/ r = r' \/ (exists b, r = Ok false /\ r' = Ok b).
(** The same, with errors kept. *)
Definition V (r r' : res bool) : Prop := r = r' \/ (r = Ok false /\ r' = Ok true).
Lemma V_U r r' : V r r' -> U r r'. Proof. intros [->|[-> ->]]; unfold U; eauto. Qed.
Lemma U_true r r' : U r r' -> keeps_true r r'.
Proof. intros [->|[->|(b & -> & ->)]]; unfold keeps_true; auto; discriminate. Qed.
Lemma U_false r r' : U r r' -> r' = Ok false -> r = Ok false.
Proof. intros [->|[->|(b & -> & ->)]]; auto; discriminate. Qed.
Lemma V_refl r : V r r. Proof. left; auto. Qed.
Lemma V_bind {A} (r : res A) f g : (forall a, V (f a) (g a)) -> V (bind r f) (bind r g).
Proof. intro H. destruct r; simpl; auto; apply V_refl. Qed.
Lemma U_bind {A} (r : res A) f g : (forall a, U (f a) (g a)) -> U (bind r f) (bind r g).
Proof. intro H. destruct r; simpl; auto; unfold U; auto. Qed.
Lemma U_por a a' b b' : U a a' -> U b b' -> U (por a b) (por a' b').
Proof.
  intros Ha Hb. unfold por. destruct Ha as [->|[->|(x & -> & ->)]]; simpl; [left; auto| |].
  - destruct a' as [[|]| |]; simpl; auto; unfold U; auto.
  - destruct x; simpl; auto. left; auto.
Qed.
Lemma U_if z z' k k' : U z z' -> U k k' -> U (let* x := z in if x then Ok true else k) (let* x := z' in if x then Ok true else k').
Proof. apply (U_por z z' k k'). Qed.
Lemma guard_keeps {A} z z' (e : res A) k : U z z' -> (forall a, e <> Ok a) ->
  keeps_result (let* x := z' in if x : bool then e else k) (let* x := z in if x then e else k).
Proof.
  intros H He a E. destruct z' as [[|]| |]; simpl in E; try discriminate; [destruct (He a E)|]. rewrite (U_false _ _ H) by auto. exact E.
Qed.
Lemma keeps_refl {A} (r : res A) : keeps_result r r. Proof. intros a H; exact H. Qed.
Lemma keeps_bind {A B} (r : res A) (f g : A -> res B) : (forall a, keeps_result (f a) (g a)) -> keeps_result (bind r f) (bind r g).
Proof. intros H b. destruct r; simpl; try discriminate. apply H. Qed.
Lemma keeps_bind_l {A B} (r' r : res A) (f : A -> res B) : keeps_result r' r -> keeps_result (bind r' f) (bind r f).
Proof. intros H b E. destruct r' as [a| |]; simpl in E; try discriminate. rewrite (H a eq_refl). exact E. Qed.

Section Generic.
Context (N : Num) (t t' : tol N).
Hypothesis C : forall a b : N, V (isclose t a b) (isclose t' a b).

Lemma V_mapM {A} (f : A -> N * N) (l : list A) :
  (exists e, mapM (fun p => isclose t (fst (f p)) (snd (f p))) l = Raise e /\ mapM (fun p => isclose t' (fst (f p)) (snd (f p))) l = Raise e) \/
  (mapM (fun p => isclose t (fst (f p)) (snd (f p))) l = NonFinite /\ mapM (fun p => isclose t' (fst (f p)) (snd (f p))) l = NonFinite) \/
  (exists bs bs', mapM (fun p => isclose t (fst (f p)) (snd (f p))) l = Ok bs /\ mapM (fun p => isclose t' (fst (f p)) (snd (f p))) l = Ok bs' /\
     (forallb (fun b => b) bs = true -> forallb (fun b => b) bs' = true)).
Proof.
  induction l as [|x l IH]; simpl; [right; right; exists [], []; auto|].
  destruct (C (fst (f x)) (snd (f x))) as [->|[-> ->]]; simpl.
  - destruct (isclose t' _ _) as [b|e|]; simpl; eauto. destruct IH as [(e & -> & ->)|[[-> ->]|(bs & bs' & -> & -> & H)]]; simpl; eauto.
    right; right. exists (b :: bs), (b :: bs'). do 2 (split; auto). simpl. destruct b; simpl; auto.
  - destruct IH as [(e & -> & ->)|[[-> ->]|(bs & bs' & -> & -> & H)]]; simpl; eauto.
    right; right. exists (false :: bs), (true :: bs'). do 2 (split; auto). simpl. discriminate.
Qed.
Lemma V_pairs ps : V (allclose_pairs t ps) (allclose_pairs t' ps).
Proof.
  unfold allclose_pairs. destruct ps as [|p ps]; [apply V_refl|].
  destruct (V_mapM (fun p => p) (p :: ps)) as [(e & -> & ->)|[[-> ->]|(bs & bs' & -> & -> & H)]]; simpl; try apply V_refl.
  destruct (forallb _ bs) eqn:E; [rewrite H by auto; apply V_refl|]. destruct (forallb _ bs'); [right; auto|left; auto].
Qed.
Lemma V_zero v : V (is_zero t v) (is_zero t' v).
Proof. unfold is_zero. apply V_bind; intros; apply C. Qed.
Lemma V_perp v w : V (is_perpendicular t v w) (is_perpendicular t' v w).
Proof. unfold is_perpendicular. apply V_bind; intros; apply C. Qed.
Lemma U_parallel v w : U (is_parallel t v w) (is_parallel t' v w).
Proof.
  unfold is_parallel. apply U_if.
  - apply U_por; [apply V_U, V_zero|]. apply U_bind. intro o. apply V_U, V_zero.
  - apply U_bind. intro s. apply V_U, C.
Qed.
Lemma V_contains f p : V (contains_point_gen f t p) (contains_point_gen f t' p).
Proof. unfold contains_point_gen. apply V_bind; intros; apply C. Qed.
Lemma U_segment s p : U (segment_contains_point t s p) (segment_contains_point t' s p).
Proof.
  unfold segment_contains_point. apply U_bind; intro a. apply U_bind; intro b. apply U_if; [apply U_por; apply V_U, V_zero|].
  apply U_bind. intro c. apply V_U, C.
Qed.
Lemma T_and c c' p p' : keeps_true c c' -> keeps_true p p' -> keeps_true (let* x := c in let* y := p in Ok (x && y)) (let* x := c' in let* y := p' in Ok (x && y)).
Proof.
  unfold keeps_true. intros H1 H2 E. destruct c as [[|]| |]; simpl in E; try discriminate.
  - rewrite H1 by auto. destruct p as [[|]| |]; simpl in E; try discriminate. rewrite H2 by auto. reflexivity.
  - destruct p as [[|]| |]; discriminate.
Qed.
Lemma tests_generic : tests_monotone N t t'.
Proof.
  assert (K : forall r r', V r r' -> keeps_true r r') by (intros; apply U_true, V_U; auto).
  unfold tests_monotone. do 11 try apply conj.
  - intros; apply K, C.
  - intros a b. apply K. unfold is_close1. apply V_bind. intro; apply V_pairs.
  - intros a b. apply K. unfold is_close2. apply V_bind. intro. apply V_bind. intro; apply V_pairs.
  - intros; apply K, V_zero.
  - intros; apply K, V_perp.
  - intros; apply U_true, U_parallel.
  - intros; apply K, V_contains.
  - intros; apply K, V_contains.
  - intros; apply K, V_contains.
  - intros; apply U_true, U_segment.
  - intros [l|p] [m|q]; try (intro; discriminate); simpl.
    + unfold line_is_close. apply T_and; [apply K, V_contains|apply U_true, U_parallel].
    + unfold plane_is_close. apply T_and; [apply K, V_contains|apply U_true, U_parallel].
  - intro tr. apply K. unfold triangle_is_right. apply V_bind. intro ls. destruct (py_sorted ls) as [|a [|b [|c [|d l]]]]; try apply V_refl. apply C.
Qed.
Lemma keeps_line LA check (l l' : line N) : keeps_result (line_intersect_line LA t' check l l') (line_intersect_line LA t check l l').
Proof.
  unfold line_intersect_line. destruct (negb _); [apply keeps_refl|]. destruct (_ || _); [apply keeps_refl|]. apply guard_keeps; [apply U_parallel|discriminate].
Qed.
Lemma guards_generic : guards_monotone N t t'.
Proof.
  unfold guards_monotone. do 5 try apply conj.
  - intros. unfold plane_intersect_line. apply guard_keeps; [apply V_U, V_perp|discriminate].
  - intros. unfold plane_intersect_plane. apply guard_keeps; [apply U_parallel|discriminate].
  - apply keeps_line.
  - intros. unfold segment_intersect_segment. apply keeps_bind; intro. apply keeps_bind; intro. apply keeps_bind_l. apply keeps_line.
  - intros. unfold plane_from_vectors. apply keeps_bind; intro. apply guard_keeps; [apply U_parallel|discriminate].
  - intros. unfold triangle_orthocenter. apply keeps_bind; intro. apply keeps_bind; intro. apply keeps_line.
Qed.
End Generic.

Section GenericRank.
Context (N : Num) (u u' : N).
Hypothesis L : forall x : N, nltb u' x = true -> nltb u x = true.
Lemma filter_le (s : list N) : (length (filter (fun x => nltb u' x) s) <= length (filter (fun x => nltb u x) s))%nat.
Proof. induction s as [|x s IH]; simpl; auto. pose proof (L x). destruct (nltb u' x); [rewrite H by auto; simpl; lia|]. destruct (nltb u x); simpl; lia. Qed.
Lemma rank_cases LA rows : (exists r r', affine_rank LA (Some u) rows = Ok r /\ affine_rank LA (Some u') rows = Ok r' /\ (r' <= r)%nat) \/
  (affine_rank LA (Some u) rows = affine_rank LA (Some u') rows /\ forall r, affine_rank LA (Some u) rows <> Ok r).
Proof.
  unfold affine_rank, matrix_rank. destruct (unique rows) as [q| |]; simpl; try (right; split; auto; discriminate).
  destruct (mean_center q) as [m| |]; simpl; try (right; split; auto; discriminate). destruct (la_svd LA m) as [[[a s] b]| |]; simpl; try (right; split; auto; discriminate).
  left. do 2 eexists. do 2 (split; [reflexivity|]). apply filter_le.
Qed.
Lemma V_rank LA rows (f : nat -> bool) : (forall r r', (r' <= r)%nat -> f r = true -> f r' = true) ->
  V (let* r := affine_rank LA (Some u) rows in Ok (f r)) (let* r := affine_rank LA (Some u') rows in Ok (f r)).
Proof.
  intro M. destruct (rank_cases LA rows) as [(r & r' & -> & -> & H)|[-> H]]; [|apply V_refl]. simpl.
  destruct (f r) eqn:E; [rewrite (M r r') by auto; apply V_refl|]. destruct (f r'); [right; auto|left; auto].
Qed.
Lemma V_conc LA rows : V (are_concurrent LA (Some u) rows) (are_concurrent LA (Some u') rows).
Proof. apply V_rank. intros r r' H E. apply Nat.eqb_eq in E. subst. apply Nat.eqb_eq. lia. Qed.
Lemma V_coll LA rows : V (are_collinear LA (Some u) rows) (are_collinear LA (Some u') rows).
Proof. apply V_rank. intros r r' H E. apply Nat.leb_le in E. apply Nat.leb_le. lia. Qed.
Lemma V_copl LA rows : V (are_coplanar LA (Some u) rows) (are_coplanar LA (Some u') rows).
Proof. apply V_rank. intros r r' H E. apply Nat.leb_le in E. apply Nat.leb_le. lia. Qed.
Lemma ranks_generic : ranks_monotone N u u'.
Proof.
  assert (K : forall r r', V r r' -> keeps_true r r') by (intros; apply U_true, V_U; auto).
  assert (B1 : forall LA (ps : list (vec N)), keeps_result (line_best_fit_err LA (Some u') ps) (line_best_fit_err LA (Some u) ps)).
  { intros. unfold line_best_fit_err. apply keeps_bind; intro. apply guard_keeps; [apply V_U, V_conc|discriminate]. }
  assert (B2 : forall LA (ps : list (vec N)), keeps_result (plane_best_fit_err LA (Some u') ps) (plane_best_fit_err LA (Some u) ps)).
  { intros. unfold plane_best_fit_err. apply keeps_bind; intro. destruct (negb _); [apply keeps_refl|]. apply guard_keeps; [apply V_U, V_coll|discriminate]. }
  unfold ranks_monotone. do 10 try apply conj.
  - intros LA rows r E. destruct (rank_cases LA rows) as [(r1 & r' & E1 & E2 & H)|[E1 H]]; [|destruct (H r E)]. rewrite E in E1. injection E1 as ->. eauto.
  - intros; apply K, V_conc.
  - intros; apply K, V_coll.
  - intros; apply K, V_copl.
  - intros LA l [m|p]; simpl; [|intro; discriminate]. unfold line_is_coplanar. apply K. apply V_bind; intro. apply V_bind; intro. apply V_bind; intro. apply V_copl.
  - intros. unfold plane_from_points. apply keeps_bind; intro. apply guard_keeps; [apply V_U, V_coll|discriminate].
  - intros. unfold circle_from_points. do 3 (apply keeps_bind; intro). destruct (_ || _); [apply keeps_refl|]. apply keeps_bind; intro. apply guard_keeps; [apply V_U, V_coll|discriminate].
  - exact B1.
  - intros. apply keeps_bind_l, B1.
  - exact B2.
  - intros. apply keeps_bind_l, B2.
Qed.
End GenericRank.

(** ** Real numbers *)
Lemma isclose_V_R (t t' : tol RNum) a b : 0 <= rel_tol t <= rel_tol t' -> 0 <= abs_tol t <= abs_tol t' -> V (isclose t a b) (isclose t' a b).
Proof.
  intros Hr Ha. destruct (isclose_R t a b) as (r & -> & H); [split; lra|]. destruct (isclose_R t' a b) as (r' & -> & H'); [split; lra|].
  destruct r; [|destruct r'; [right; auto|left; auto]]. left. f_equal. symmetry. apply H'. assert (C : close (rel_tol t) (abs_tol t) a b) by (apply H; auto).
  unfold close in *. eapply Rle_trans; [exact C|].
  assert (0 <= Rmax (Rabs a) (Rabs b)) by (eapply Rle_trans; [apply Rabs_pos|apply Rmax_l]).
  apply Rmax_lub; [eapply Rle_trans; [|apply Rmax_l]; apply Rmult_le_compat_r; lra|eapply Rle_trans; [|apply Rmax_r]; lra].
Qed.
Theorem C79_tests : forall t t' : tol RNum, 0 <= rel_tol t <= rel_tol t' -> 0 <= abs_tol t <= abs_tol t' -> tests_monotone RNum t t'.
Proof. intros. apply tests_generic. intros; apply isclose_V_R; auto. Qed.
Theorem C79_guards : forall t t' : tol RNum, 0 <= rel_tol t <= rel_tol t' -> 0 <= abs_tol t <= abs_tol t' -> guards_monotone RNum t t'.
Proof. intros. apply guards_generic. intros; apply isclose_V_R; auto. Qed.
Theorem C79_ranks : forall u u' : R, u <= u' -> ranks_monotone RNum u u'.
Proof. intros u u' H. apply ranks_generic. rops. intros x E. apply Rltb_true in E. apply Rltb_true. lra. Qed.

(** ** Doubles *)
Notation fl := PrimFloat.float.
Lemma leb_inf (x : fl) : not_nan x -> PrimFloat.leb x infinity = true.
Proof. intro H. rewrite leb_equiv. unfold not_nan in H. destruct (Prim2B x) as [[|]|[|]| |[|] m e B]; try reflexivity; discriminate. Qed.
Lemma leb_not_nan (x y : fl) : PrimFloat.leb x y = true -> not_nan x /\ not_nan y.
Proof.
  rewrite leb_equiv. unfold not_nan. intro H. split.
  - destruct (Prim2B x); try reflexivity. simpl in H. discriminate.
  - destruct (Prim2B y) as [[|]|[|]| |[|] m e B]; try reflexivity. destruct (Prim2B x) as [[|]|[|]| |[|] ? ? ?]; discriminate.
Qed.
(** A double that lies between zero and a finite one is finite. *)
Lemma leb_abs_finite (x y : fl) : PrimFloat.leb (PrimFloat.abs x) y = true -> finite y -> finite (PrimFloat.abs x).
Proof.
  rewrite leb_equiv. unfold finite. rewrite abs_equiv. intros H F. destruct (Prim2B x) as [[|]|[|]| |[|] m e B]; try reflexivity; simpl in *;
    destruct (Prim2B y) as [[|]|[|]| |[|] ? ? ?]; discriminate.
Qed.
(** The product of finite doubles is finite and rounded, or its absolute value is infinity. *)
Lemma abs_mul_cases (x y : fl) : finite x -> finite y ->
  (finite (x * y)%float /\ FR (x * y)%float = rnd (FR x * FR y)) \/ PrimFloat.abs (x * y)%float = infinity.
Proof.
  intros Hx Hy. destruct (f_finite (x * y)%float) eqn:E; [apply f_finite_iff in E; left; destruct (mul_F _ _ E) as (_ & _ & Q); auto|].
  right. rewrite f_finite_equiv in E. rewrite mul_equiv in E. pose proof (Bmult_correct prec emax Hprec Hmax mode_NE (Prim2B x) (Prim2B y)) as M.
  unfold finite in *. destruct (Rlt_bool _ _); [destruct M as (_ & M & _); rewrite M, Hx, Hy in E; discriminate|].
  rewrite overflow_inf in M. apply Prim2B_inj. rewrite abs_equiv, mul_equiv. destruct (Bmult mode_NE (Prim2B x) (Prim2B y)) as [s|s| |s m e B]; simpl in M; try discriminate. reflexivity.
Qed.
Lemma leb_mul_mono (d r r' b : fl) : finite r -> finite r' -> finite b -> PrimFloat.leb 0 r = true -> PrimFloat.leb r r' = true ->
  PrimFloat.leb (PrimFloat.abs d) (PrimFloat.abs (r * b)) = true -> PrimFloat.leb (PrimFloat.abs d) (PrimFloat.abs (r' * b)) = true.
Proof.
  intros Fr Fr' Fb P Q H. pose proof (leb_not_nan _ _ H) as [Nd _]. destruct (abs_mul_cases r' b Fr' Fb) as [[F E]|E]; [|rewrite E; apply leb_inf; auto].
  apply (leb_F 0%float r (proj2 zero_F) Fr) in P. rewrite (proj1 zero_F) in P. apply (leb_F r r' Fr Fr') in Q.
  assert (M : Rabs (rnd (FR r * FR b)) <= Rabs (rnd (FR r' * FR b))).
  { unfold Rabs at 1 2. destruct (Rle_dec 0 (FR b)) as [Hb|Hb].
    - assert (0 <= FR r * FR b) by nra. assert (FR r * FR b <= FR r' * FR b) by nra. pose proof (rnd_pos _ H0). pose proof (rnd_le _ _ H1). destruct (Rcase_abs _); destruct (Rcase_abs _); lra.
    - assert (0 <= FR r * - FR b) by nra. assert (FR r * - FR b <= FR r' * - FR b) by nra. pose proof (rnd_pos _ H0). pose proof (rnd_le _ _ H1).
      rewrite <- !Ropp_mult_distr_r, !rnd_opp in *. destruct (Rcase_abs _); destruct (Rcase_abs _); lra. }
  rewrite <- E in M. destruct (mul_ok r b (r' * b)%float Fr Fb F M) as [F0 E0].
  assert (Fd : finite (PrimFloat.abs d)) by (apply (leb_abs_finite d _ H); apply abs_finite; auto).
  apply leb_F; auto; [apply abs_finite; auto|]. apply leb_F in H; auto; [|apply abs_finite; auto]. rewrite !abs_F in *. rewrite E0 in H. rewrite E in M. rewrite E. lra.
Qed.
Lemma isclose_V_F (t t' : tol FNum) a b : finite (rel_tol t') -> finite (abs_tol t') ->
  PrimFloat.leb 0 (rel_tol t) = true -> PrimFloat.leb (rel_tol t) (rel_tol t') = true -> PrimFloat.leb 0 (abs_tol t) = true -> PrimFloat.leb (abs_tol t) (abs_tol t') = true ->
  V (isclose t a b) (isclose t' a b).
Proof.
  destruct t as [r u], t' as [r' u']. cbn [rel_tol abs_tol]. intros Fr' Fu' P Q P' Q'.
  assert (Bet : forall x y : fl, PrimFloat.leb 0 x = true -> PrimFloat.leb x y = true -> finite y -> finite x).
  { intros x y H1 H2 F. rewrite leb_equiv in H1, H2. unfold finite in *. destruct (Prim2B x) as [[|]|[|]| |[|] m e B]; try reflexivity; simpl in *; try discriminate;
      destruct (Prim2B y) as [[|]|[|]| |[|] ? ? ?]; discriminate. }
  pose proof (Bet _ _ P Q Fr') as Fr. pose proof (Bet _ _ P' Q' Fu') as Fu.
  assert (NL : forall x : fl, finite x -> PrimFloat.leb 0 x = true -> PrimFloat.ltb x 0 = false).
  { intros x F H. destruct (PrimFloat.ltb x 0) eqn:E; auto. apply (ltb_F x 0%float F (proj2 zero_F)) in E. apply (leb_F 0%float x (proj2 zero_F) F) in H. lra. }
  assert (P2 : PrimFloat.leb 0 r' = true).
  { apply (leb_F _ _ (proj2 zero_F) Fr'). apply (leb_F _ _ (proj2 zero_F) Fr) in P. apply (leb_F r r' Fr Fr') in Q. lra. }
  assert (P2' : PrimFloat.leb 0 u' = true).
  { apply (leb_F _ _ (proj2 zero_F) Fu'). apply (leb_F _ _ (proj2 zero_F) Fu) in P'. apply (leb_F u u' Fu Fu') in Q'. lra. }
  unfold isclose. cbn [rel_tol abs_tol]. change (nltb (n:=FNum)) with PrimFloat.ltb. change (n0 (n:=FNum)) with 0%float.
  rewrite (NL r Fr P), (NL u Fu P'), (NL r' Fr' P2), (NL u' Fu' P2'). cbn [orb].
  destruct (neqb a b); [apply V_refl|]. change (nfin (n:=FNum)) with f_finite.
  destruct (negb (f_finite a) || negb (f_finite b)) eqn:Ef; [apply V_refl|]. apply orb_false_iff in Ef as [Fa Fb]. apply negb_false_iff in Fa, Fb. apply f_finite_iff in Fa, Fb.
  change (nleb (n:=FNum)) with PrimFloat.leb. change (nabs (n:=FNum)) with PrimFloat.abs. change (nmul (n:=FNum)) with PrimFloat.mul. change (nsub (n:=FNum)) with PrimFloat.sub.
  set (d := (b - a)%float).
  assert (K1 := leb_mul_mono d r r' b Fr Fr' Fb P Q). assert (K2 := leb_mul_mono d r r' a Fr Fr' Fa P Q).
  assert (K3 : PrimFloat.leb (PrimFloat.abs d) u = true -> PrimFloat.leb (PrimFloat.abs d) u' = true).
  { intro H. pose proof (leb_abs_finite d u H Fu) as Fd. apply (leb_F _ _ Fd Fu) in H. apply (leb_F _ _ Fd Fu'). apply (leb_F u u' Fu Fu') in Q'. lra. }
  destruct (PrimFloat.leb (PrimFloat.abs d) (PrimFloat.abs (r * b))) eqn:E1; [rewrite K1 by auto; apply V_refl|].
  destruct (PrimFloat.leb (PrimFloat.abs d) (PrimFloat.abs (r * a))) eqn:E2; [rewrite K2 by auto; cbn [orb]; rewrite orb_true_r; apply V_refl|].
  destruct (PrimFloat.leb (PrimFloat.abs d) u) eqn:E3; [rewrite K3 by auto; cbn [orb]; rewrite orb_true_r; apply V_refl|].
  cbn [orb]. destruct (_ || _ || _); [right; auto|left; auto].
Qed.
Definition tol_le_F (t t' : tol FNum) : Prop := finite (rel_tol t') /\ finite (abs_tol t') /\
  PrimFloat.leb 0 (rel_tol t) = true /\ PrimFloat.leb (rel_tol t) (rel_tol t') = true /\ PrimFloat.leb 0 (abs_tol t) = true /\ PrimFloat.leb (abs_tol t) (abs_tol t') = true.
Theorem C79_tests_double : forall t t' : tol FNum, tol_le_F t t' -> tests_monotone FNum t t'.
Proof. intros t t' (H1 & H2 & H3 & H4 & H5 & H6). apply tests_generic. intros; apply isclose_V_F; auto. Qed.
Theorem C79_guards_double : forall t t' : tol FNum, tol_le_F t t' -> guards_monotone FNum t t'.
Proof. intros t t' (H1 & H2 & H3 & H4 & H5 & H6). apply guards_generic. intros; apply isclose_V_F; auto. Qed.
Theorem C79_ranks_double : forall u u' : fl, finite u -> finite u' -> PrimFloat.leb u u' = true -> ranks_monotone FNum u u'.
Proof.
  intros u u' F F' H. apply ranks_generic. change (nltb (n:=FNum)) with PrimFloat.ltb. intros x E. apply (leb_F u u' F F') in H.
  destruct (is_finite (Prim2B x)) eqn:Fx; [apply (ltb_F u x F Fx); apply (ltb_F u' x F' Fx) in E; lra|].
  rewrite ltb_equiv in E |- *. unfold finite in F, F'. destruct (Prim2B x) as [[|]|[|]| |[|] m e B]; try discriminate;
    destruct (Prim2B u') as [[|]|[|]| |[|] ? ? ?]; try discriminate; destruct (Prim2B u) as [[|]|[|]| |[|] ? ? ?]; try discriminate; reflexivity.
Qed.

(** ** Where it fails: two answers that are not a yes/no test *)
(** Triangle.classify: 'isosceles' with the tighter, 'scalene' with the looser tolerance. *)
Theorem C79_classify_refuted : forall LA, svd_correct LA -> exists (t : triangle RNum) (tl tl' : tol RNum),
  triangle_new LA [0; 0] [5; 0] [0; 12] = Ok t /\ 0 <= rel_tol tl <= rel_tol tl' /\ 0 <= abs_tol tl <= abs_tol tl' /\
  triangle_classify tl t = Ok "isosceles"%string /\ triangle_classify tl' t = Ok "scalene"%string.
Proof.
  intros LA HL. pose proof (axis_triangle LA 0 0 5 12 HL ltac:(lra) ltac:(lra)) as E. rewrite !Rplus_0_l in E.
  exists (MkTriangle (N:=RNum) [0; 0] [5; 0] [0; 12]), (MkTol (N:=RNum) 0 1), (MkTol (N:=RNum) 0 7). split; [exact E|].
  pose proof (proj2 (triangle_tri _ _ _ _ _ HL E)) as T. cbn [rel_tol abs_tol]. split; [lra|]. split; [lra|].
  assert (D1 : dist [5; 0] [0; 12] = 13) by (unfold dist; apply len_eq_val; [lra|simpl; ring]).
  assert (D2 : dist [0; 12] [0; 0] = 12) by (unfold dist; apply len_eq_val; [lra|simpl; ring]).
  assert (D3 : dist [0; 0] [5; 0] = 5) by (unfold dist; apply len_eq_val; [lra|simpl; ring]).
  assert (Cy : forall k x y, 0 <= y - x <= k -> close 0 k y x).
  { intros k x y H. apply close_alt; try lra; right; right; right; unfold Rabs; destruct Rcase_abs; lra. }
  assert (Cn : forall k x y, 0 <= k < y - x -> ~ close 0 k y x).
  { intros k x y H X. unfold close in X. rewrite Rmult_0_l, Rmax_right, Rabs_pos_eq in X by lra. lra. }
  assert (Ht : tol_ok (MkTol (N:=RNum) 0 1)) by (split; simpl; lra). assert (Ht' : tol_ok (MkTol (N:=RNum) 0 7)) by (split; simpl; lra).
  split; unfold triangle_classify; rewrite triangle_lengths_R by auto; cbn [bind]; rewrite D1, D2, D3.
  - rewrite (proj2 (isclose_true _ 13 12 Ht)) by (apply Cy; simpl; lra). rewrite (proj2 (isclose_false _ 13 5 Ht)) by (apply Cn; simpl; lra).
    rewrite (proj2 (isclose_false _ 12 5 Ht)) by (apply Cn; simpl; lra). reflexivity.
  - rewrite (proj2 (isclose_true _ 13 12 Ht')) by (apply Cy; simpl; lra). rewrite (proj2 (isclose_false _ 13 5 Ht')) by (apply Cn; simpl; lra).
    rewrite (proj2 (isclose_true _ 12 5 Ht')) by (apply Cy; simpl; lra). reflexivity.
Qed.
(** Plane.project_line returns with both tolerances, but different lines: the looser one keeps a direction that leaves the plane. *)
Theorem C79_project_line_refuted : exists (pl : plane RNum) (l : line RNum) (t t' : tol RNum) (m m' : line RNum),
  plane_new (N:=RNum) [0; 0; 0] [0; 0; 1] = Ok pl /\ line_new (N:=RNum) [0; 0; 0] [1; 0; 1 / 10] = Ok l /\
  0 <= rel_tol t <= rel_tol t' /\ 0 <= abs_tol t <= abs_tol t' /\
  plane_project_line t pl l = Ok m /\ plane_project_line t' pl l = Ok m' /\ l_dir m = [1; 0; 0] /\ l_dir m' = [1; 0; 1 / 10].
Proof.
  assert (Hn : ~ is_zero_vec [0; 0; 1]) by (apply nz; nzd). assert (Hd : ~ is_zero_vec [1; 0; 1 / 10]) by (apply nz; nzd).
  assert (Vp : pv_ok [0; 0; 0] [0; 0; 1]) by (split; [reflexivity|split; [auto|discriminate]]).
  set (n := [0; 0; 1]). set (d := [1; 0; 1 / 10]).
  assert (Dnn : dot n n = 1) by (unfold n; simpl; ring). assert (Ddd : dot d d = 101 / 100) by (unfold d; simpl; field). assert (Dnd : dot n d = 1 / 10) by (unfold n, d; simpl; field).
  assert (Ln : len n = 1) by (unfold len; rewrite Dnn; apply sqrt_1).
  assert (Ld : 1 <= len d) by (unfold len; rewrite Ddd; rewrite <- sqrt_1 at 1; apply sqrt_le_1_alt; lra).
  assert (Cs : 0 <= cosine n d <= 1 / 10).
  { unfold cosine. rewrite Dnd, Ln, Rmult_1_l. split; [apply Rmult_le_pos; [lra|left; apply Rinv_0_lt_compat; lra]|].
    apply (Rmult_le_reg_r (len d)); [lra|]. unfold Rdiv. rewrite Rmult_assoc, Rinv_l, Rmult_1_r by lra. nra. }
  assert (Pf : forall u, 0 <= u <= 1 / 2 -> is_parallel (MkTol (N:=RNum) 0 u) n d = Ok false).
  { intros u Hu. destruct (is_parallel_R (MkTol (N:=RNum) 0 u) n d) as ([|] & E & H); [split; simpl; lra|reflexivity|discriminate| |exact E]. exfalso.
    assert (H0 := proj1 H eq_refl). clear H E. cbn [rel_tol abs_tol] in H0. unfold close in H0. rewrite !Rmult_0_l in H0. rewrite Rmax_right in H0 by lra. rewrite Dnn, Ddd in H0.
    rewrite (Rabs_pos_eq (cosine n d)) in H0 by lra. destruct H0 as [H0|[H0|(_ & _ & H0)]]; unfold Rabs in H0; destruct Rcase_abs in H0; lra. }
  exists (MkPlane (N:=RNum) [0; 0; 0] n), (MkLine (N:=RNum) [0; 0; 0] d), (MkTol (N:=RNum) 0 0), (MkTol (N:=RNum) 0 (1 / 2)), (MkLine (N:=RNum) [0; 0; 0] [1; 0; 0]), (MkLine (N:=RNum) [0; 0; 0] d).
  split; [apply plane_new_R; auto|]. split; [apply line_new_R; auto|]. cbn [rel_tol abs_tol]. split; [lra|]. split; [lra|].
  assert (Pp : plane_project_point (N:=RNum) (MkPlane [0; 0; 0] n) [0; 0; 0] = Ok [0; 0; 0]).
  { rewrite plane_project_point_R by auto. f_equal. unfold pproj, n. simpl. vlra. }
  split; [|split; [|split; reflexivity]].
  - unfold plane_project_line. cbn [pl_normal l_dir l_point]. rewrite Pf by lra. cbn [bind]. rewrite Pp. cbn [bind].
    unfold is_perpendicular. rewrite np_dot_R by reflexivity. cbn [bind]. rewrite Dnd. change (n0 (n:=RNum)) with 0.
    rewrite (proj2 (isclose_false (MkTol (N:=RNum) 0 0) (1 / 10) 0 ltac:(split; simpl; lra))).
    2: { cbn [rel_tol abs_tol]. unfold close. rewrite Rmult_0_l, Rmax_right by lra. unfold Rabs. destruct Rcase_abs; lra. }
    cbn [bind]. unfold plane_project_vector. cbn [pl_point]. rewrite vadd_R by reflexivity. cbn [bind].
    rewrite plane_project_point_R by (auto; reflexivity). cbn [bind]. rewrite from_points_R by (try discriminate; reflexivity). cbn [bind].
    replace (sub (pproj [0; 0; 0] n (add [0; 0; 0] d)) [0; 0; 0]) with [1; 0; 0] by (unfold pproj, n, d; simpl; vlra).
    apply line_new_R; [reflexivity|]. apply nz; nzd.
  - unfold plane_project_line. cbn [pl_normal l_dir l_point]. rewrite Pf by lra. cbn [bind]. rewrite Pp. cbn [bind].
    unfold is_perpendicular. rewrite np_dot_R by reflexivity. cbn [bind]. rewrite Dnd. change (n0 (n:=RNum)) with 0.
    rewrite (proj2 (isclose_true (MkTol (N:=RNum) 0 (1 / 2)) (1 / 10) 0 ltac:(split; simpl; lra))).
    2: { cbn [rel_tol abs_tol]. unfold close. rewrite Rmult_0_l, Rmax_right by lra. unfold Rabs. destruct Rcase_abs; lra. }
    cbn [bind]. apply line_new_R; auto.
Qed.

(** ** The hypotheses are met and the tests do change *)
Theorem C79_nonvacuous :
  (is_zero (MkTol (N:=RNum) 0 1) [1; 1] = Ok false /\ is_zero (MkTol (N:=RNum) 0 2) [1; 1] = Ok true) /\
  (exists t t' : tol FNum, tol_le_F t t' /\ isclose t 1%float 1.5%float = Ok false /\ isclose t' 1%float 1.5%float = Ok true) /\
  (exists x, plane_intersect_line (MkTol (N:=RNum) 0 (1 / 20)) (MkPlane (N:=RNum) [0; 0; 0] [0; 0; 1]) (MkLine (N:=RNum) [0; 0; 1] [1; 0; 1 / 10]) = Ok x).
Proof.
  split; [|split].
  - split; unfold is_zero; rewrite np_dot_R by reflexivity; cbn [bind]; change (n0 (n:=RNum)) with 0; [apply isclose_false|apply isclose_true]; try (split; simpl; lra);
      cbn [rel_tol abs_tol]; change (n0 (n:=RNum)) with 0; unfold close; rewrite Rmult_0_l, Rmax_right by lra; simpl dot; unfold Rabs; destruct Rcase_abs; lra.
  - exists (MkTol (N:=FNum) 0%float 0.25%float), (MkTol (N:=FNum) 0%float 0.5%float). split; [|split; vm_compute; reflexivity].
    unfold tol_le_F. cbn [rel_tol abs_tol]. repeat apply conj; try (apply f_finite_iff); vm_compute; reflexivity.
  - unfold plane_intersect_line. cbn [pl_normal l_dir pl_point l_point]. unfold is_perpendicular. rewrite np_dot_R by reflexivity. cbn [bind]. change (n0 (n:=RNum)) with 0.
    rewrite (proj2 (isclose_false (MkTol (N:=RNum) 0 (1 / 20)) _ 0 ltac:(split; simpl; lra))).
    2: { cbn [rel_tol abs_tol]. unfold close. rewrite Rmult_0_l, Rmax_right by lra. simpl dot. unfold Rabs. destruct Rcase_abs; lra. }
    cbn [bind]. rewrite from_points_R by (try discriminate; reflexivity). cbn [bind]. rewrite np_dot_R by reflexivity. cbn [bind].
    rewrite ndiv_R by (simpl; lra). cbn [bind]. rewrite vmuls_R. cbn [bind]. rewrite vadd_R by reflexivity. eexists; reflexivity.
Qed.

Print Assumptions C79_tests. Print Assumptions C79_guards. Print Assumptions C79_ranks.
Print Assumptions C79_tests_double. Print Assumptions C79_guards_double. Print Assumptions C79_ranks_double.
Print Assumptions C79_classify_refuted. Print Assumptions C79_project_line_refuted. Print Assumptions C79_nonvacuous.
