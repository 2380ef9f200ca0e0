(** * Properties C53-C58: Triangle *)
From Coq Require Import String Reals List ZArith Lra Lia Psatz Bool Permutation.
From Verif.Model Require Import Outcome Num Instances Numpy BaseArray Vector Points Functions Line Triangle.
From Verif.Spec Require Import Geometry Tolerance Linalg Triangle.
From Verif.Proof Require Import VecAlg Bridge Arrays Vectors Points Lines Lincomb Svd SvdExists Ranks Triangles.
From Verif.Prop Require Import Arrays Vectors Directions Points Lines Ranks LinePairs.
Import ListNotations.
Local Open Scope R_scope.

(** ** C53  construction and accessors *)
Lemma triangle_tri LA (a b c : pt) t : svd_correct LA -> triangle_new LA a b c = Ok t -> t = MkTriangle (N:=RNum) a b c /\ tri a b c.
Proof.
  intros HL H. apply triangle_new_inv in H as (-> & Na & Lb & Lc & E). split; auto. apply tri_iff. repeat (split; auto).
  intro C. destruct (C23_true_configurations LA (length a) [a; b; c] None HL (tri_points_ok a b c Na Lb Lc) I) as (_ & T & _).
  pose proof (eq_trans (eq_sym E) (T C)) as Z. discriminate.
Qed.

Theorem C53_construction : forall LA (a b c : pt), svd_correct LA ->
  (forall t, triangle_new LA a b c = Ok t ->
     t_a t = a /\ t_b t = b /\ t_c t = c /\ a <> [] /\ length b = length a /\ length c = length a /\ ~ collinear [a; b; c]) /\
  (length b <> length a \/ length c <> length a -> exists m, triangle_new LA a b c = Raise (ValueError m)) /\
  (collinear [a; b; c] -> exists m, triangle_new LA a b c = Raise (ValueError m)) /\
  (a <> [] -> length b = length a -> length c = length a ->
     (are_collinear LA None [a; b; c] = Ok false <-> exists t, triangle_new LA a b c = Ok t)) /\
  ((exists t, triangle_new LA a b c = Ok t) \/ (exists m, triangle_new LA a b c = Raise (ValueError m))).
Proof.
  intros LA a b c HL.
  assert (R0 : a = [] \/ length b <> length a \/ length c <> length a -> exists m, triangle_new LA a b c = Raise (ValueError m)).
  { intro H. unfold triangle_new. destruct a as [|x a]; [rewrite point_of_nil; cbn [bind]; unfold err_empty; eauto|]. rewrite point_of_R by discriminate. cbn [bind].
    destruct b as [|y b]; [rewrite point_of_nil; cbn [bind]; unfold err_empty; eauto|]. rewrite point_of_R by discriminate. cbn [bind].
    destruct c as [|z c]; [rewrite point_of_nil; cbn [bind]; unfold err_empty; eauto|]. rewrite point_of_R by discriminate. cbn [bind].
    unfold dim1. rn. destruct (Nat.eqb_spec (length (x :: a)) (length (y :: b))) as [E1|E1]; cbn [andb negb]; [|eauto].
    destruct (Nat.eqb_spec (length (y :: b)) (length (z :: c))) as [E2|E2]; cbn [negb]; [|eauto].
    exfalso. destruct H as [H|[H|H]]; [discriminate| |]; congruence. }
  assert (R1 : a <> [] -> length b = length a -> length c = length a -> exists col, are_collinear LA None [a; b; c] = Ok col /\
     triangle_new LA a b c = if col then Raise (ValueError "The points must not be collinear.") else Ok (MkTriangle a b c)).
  { intros Na Lb Lc. destruct (are_collinear_R LA (length a) [a; b; c] HL (tri_points_ok a b c Na Lb Lc)) as (col & E).
    exists col. split; auto. rewrite triangle_new_unfold by auto. rewrite E. reflexivity. }
  split; [|split; [|split; [|split]]].
  - intros t H. pose proof (triangle_tri LA a b c t HL H) as (-> & T). apply tri_iff in T as (Na & Lb & Lc & C).
    split; [reflexivity|]. split; [reflexivity|]. split; [reflexivity|]. auto.
  - intro H. apply R0. auto.
  - intro C. destruct (list_eq_dec Req_EM_T a []) as [->|Na]; [apply R0; auto|].
    destruct (Nat.eq_dec (length b) (length a)) as [Lb|Lb]; [|apply R0; auto].
    destruct (Nat.eq_dec (length c) (length a)) as [Lc|Lc]; [|apply R0; auto].
    destruct (R1 Na Lb Lc) as (col & E & ->).
    destruct (C23_true_configurations LA (length a) [a; b; c] None HL (tri_points_ok a b c Na Lb Lc) I) as (_ & T & _).
    pose proof (eq_trans (eq_sym E) (T C)) as Z. injection Z as ->. eauto.
  - intros Na Lb Lc. destruct (R1 Na Lb Lc) as (col & E & ->). rewrite E. destruct col; split; intro H; try discriminate; eauto.
    destruct H as (t & H). discriminate.
  - destruct (list_eq_dec Req_EM_T a []) as [Na|Na]; [right; apply R0; auto|].
    destruct (Nat.eq_dec (length b) (length a)) as [Lb|Lb]; [|right; apply R0; auto].
    destruct (Nat.eq_dec (length c) (length a)) as [Lc|Lc]; [|right; apply R0; auto].
    destruct (R1 Na Lb Lc) as (col & E & ->). destruct col; eauto.
Qed.
Print Assumptions C53_construction.

Lemma eqb_neq s s' : s <> s' -> String.eqb s s' = false. Proof. apply String.eqb_neq. Qed.

Theorem C53_accessors : forall LA (a b c : pt) t, svd_correct LA -> triangle_new LA a b c = Ok t ->
  (forall v p q r, vertex_named a b c v p q r -> triangle_point t v = Ok p) /\
  (forall s p q r, side_named a b c s p q r ->
     triangle_line t s = Ok (MkLine q (sub r q)) /\ triangle_length t s = Ok (dist q r)) /\
  (forall v, ~ is_vertex_name v -> exists m, triangle_point t v = Raise (ValueError m)) /\
  (forall s, ~ is_side_name s -> (exists m, triangle_line t s = Raise (ValueError m)) /\ (exists m, triangle_length t s = Raise (ValueError m))).
Proof.
  intros LA a b c t HL H. apply triangle_tri in H as (-> & T); auto. split; [|split; [|split]].
  - intros v p q r [(-> & -> & -> & ->)|[(-> & -> & -> & ->)|(-> & -> & -> & ->)]]; reflexivity.
  - intros s p q r Hn. pose proof (side_tri _ _ _ _ _ _ _ T Hn) as T'.
    assert (E : triangle_line (N:=RNum) (MkTriangle a b c) s = Ok (MkLine q (sub r q))).
    { rewrite <- (line_from_points_tri p q r T'). destruct Hn as [(-> & -> & -> & ->)|[(-> & -> & -> & ->)|(-> & -> & -> & ->)]]; reflexivity. }
    split; auto. unfold triangle_length. rewrite E. cbn [bind l_dir]. rewrite norm_R. rewrite (dist_sym q r). reflexivity.
  - intros v Hv. unfold triangle_point. rewrite !eqb_neq by (intro; apply Hv; unfold is_vertex_name; auto). unfold err_vertex. eauto.
  - intros s Hs. assert (E : triangle_line (N:=RNum) (MkTriangle a b c) s = Raise err_side).
    { unfold triangle_line. rewrite !eqb_neq by (intro; apply Hs; unfold is_side_name; auto). reflexivity. }
    unfold triangle_length. rewrite E. unfold err_side. cbn [bind]. eauto.
Qed.
Print Assumptions C53_accessors.

Lemma mapM_Ok_iff {A B} (f : A -> res B) l ys : mapM f l = Ok ys <-> Forall2 (fun x y => f x = Ok y) l ys.
Proof. split; [apply mapM_Ok|apply Forall2_mapM]. Qed.
Lemma mapM_first_raise {A B} (f : A -> res B) pre x post ys e :
  Forall2 (fun x y => f x = Ok y) pre ys -> f x = Raise e -> mapM f (pre ++ x :: post) = Raise e.
Proof. intros H E. induction H as [|u y pre ys Hu H IH]; simpl; [rewrite E; reflexivity|]. rewrite Hu. cbn [bind]. rewrite IH. reflexivity. Qed.
Lemma res_map_Ok {A B} (g : A -> B) r y : res_map g r = Ok y <-> exists x, r = Ok x /\ y = g x.
Proof.
  unfold res_map. destruct r as [x| |]; split; intro H; try discriminate H; try (destruct H as (z & H & _); discriminate H).
  - injection H as <-. eauto.
  - destruct H as (z & H & ->). injection H as ->. reflexivity.
Qed.

(** multiple(name, inputs): the tuple of the results in order; the first failing call raises its own error. *)
Theorem C53_multiple : forall (N : Num) (T : Trig N) (t : triangle N) (inputs : list string),
  (forall ys, triangle_multiple T t "point" inputs = Ok ys <-> Forall2 (fun s y => exists p, triangle_point t s = Ok p /\ y = VPoint p) inputs ys) /\
  (forall ys, triangle_multiple T t "line" inputs = Ok ys <-> Forall2 (fun s y => exists p, triangle_line t s = Ok p /\ y = VLine p) inputs ys) /\
  (forall ys, triangle_multiple T t "length" inputs = Ok ys <-> Forall2 (fun s y => exists p, triangle_length t s = Ok p /\ y = VNum p) inputs ys) /\
  (forall ys, triangle_multiple T t "angle" inputs = Ok ys <-> Forall2 (fun s y => exists p, triangle_angle T t s = Ok p /\ y = VNum p) inputs ys) /\
  (forall ys, triangle_multiple T t "altitude" inputs = Ok ys <-> Forall2 (fun s y => exists p, triangle_altitude t s = Ok p /\ y = VLine p) inputs ys) /\
  (forall pre s post ys e, inputs = pre ++ s :: post -> Forall2 (fun s y => exists p, triangle_length t s = Ok p /\ y = p) pre ys ->
     triangle_length t s = Raise e -> triangle_multiple T t "length" inputs = Raise e) /\
  (forall pre s post ys e, inputs = pre ++ s :: post -> Forall2 (fun s y => exists p, triangle_angle T t s = Ok p /\ y = p) pre ys ->
     triangle_angle T t s = Raise e -> triangle_multiple T t "angle" inputs = Raise e) /\
  (forall pre s post ys e, inputs = pre ++ s :: post -> Forall2 (fun s y => exists p, triangle_point t s = Ok p /\ y = p) pre ys ->
     triangle_point t s = Raise e -> triangle_multiple T t "point" inputs = Raise e) /\
  (forall pre s post ys e, inputs = pre ++ s :: post -> Forall2 (fun s y => exists p, triangle_line t s = Ok p /\ y = p) pre ys ->
     triangle_line t s = Raise e -> triangle_multiple T t "line" inputs = Raise e) /\
  (forall pre s post ys e, inputs = pre ++ s :: post -> Forall2 (fun s y => exists p, triangle_altitude t s = Ok p /\ y = p) pre ys ->
     triangle_altitude t s = Raise e -> triangle_multiple T t "altitude" inputs = Raise e).
Proof.
  intros N T t inputs.
  assert (G : forall A (g : A -> tri_value N) (f : string -> res A) ys, mapM (fun s => res_map g (f s)) inputs = Ok ys <->
     Forall2 (fun s y => exists p, f s = Ok p /\ y = g p) inputs ys).
  { intros A g f ys. rewrite mapM_Ok_iff. split; intro H; induction H as [|s y l ys E H IH]; constructor; auto; [apply res_map_Ok in E; auto|apply res_map_Ok; auto]. }
  assert (F : forall A (g : A -> tri_value N) (f : string -> res A) pre s post ys e, inputs = pre ++ s :: post ->
     Forall2 (fun s y => exists p, f s = Ok p /\ y = p) pre ys -> f s = Raise e -> mapM (fun s => res_map g (f s)) inputs = Raise e).
  { intros A g f pre s post ys e -> H E. clear G. apply (mapM_first_raise _ _ _ _ (map g ys)); [|rewrite E; reflexivity].
    induction H as [|u y l ys (p & Ep & ->) H IH]; constructor; auto. apply res_map_Ok. eauto. }
  do 5 (split; [intro ys; apply G|]). split; [|split; [|split; [|split]]].
  - intros pre s post ys e E H Hs. exact (F N (@VNum N) (triangle_length t) pre s post ys e E H Hs).
  - intros pre s post ys e E H Hs. exact (F N (@VNum N) (triangle_angle T t) pre s post ys e E H Hs).
  - intros pre s post ys e E H Hs. exact (F (vec N) (@VPoint N) (triangle_point t) pre s post ys e E H Hs).
  - intros pre s post ys e E H Hs. exact (F (line N) (@VLine N) (triangle_line t) pre s post ys e E H Hs).
  - intros pre s post ys e E H Hs. exact (F (line N) (@VLine N) (triangle_altitude t) pre s post ys e E H Hs).
Qed.
Print Assumptions C53_multiple.

(** A concrete triangle. *)
Lemma corner_triangle LA : svd_correct LA -> triangle_new LA [0; 0] [1; 0] [0; 1] = Ok (MkTriangle (N:=RNum) [0; 0] [1; 0] [0; 1]).
Proof.
  intro HL. rewrite triangle_new_unfold by (auto; discriminate).
  pose proof (C23_corner_not_collinear LA HL) as E. unfold corner in E. rn. rewrite E. reflexivity.
Qed.
Example C53_nonvacuous : svd_correct ideal_linalg /\ exists t, triangle_new ideal_linalg [0; 0] [1; 0] [0; 1] = Ok t /\ side_named [0; 0] [1; 0] [0; 1] "a" [0; 0] [1; 0] [0; 1].
Proof. split; [apply ideal_linalg_correct|]. eexists. split; [apply corner_triangle, ideal_linalg_correct|]. left. auto. Qed.

(** ** C54  normal, area, perimeter *)
Lemma dot_pad n a b : length a = length b -> dot (pad_to n a) (pad_to n b) = dot a b.
Proof. intro H. unfold pad_to. rewrite dot_app by auto. fold (origin (n - length a)). rewrite dot_origin_l. ring. Qed.
Lemma triangle_normal_R (a b c : pt) : tri a b c -> (length a <= 3)%nat ->
  triangle_normal (N:=RNum) (MkTriangle a b c) = Ok (nrm (sub b a) (sub c a)).
Proof.
  intros T L. pose proof T as (Na & Lb & Lc & G). unfold triangle_normal. cbn [t_a t_b t_c]. rewrite !from_points_R by auto. cbn [bind].
  unfold nrm. apply cross_R; try (apply sub_nonempty; [destruct b, c, a; congruence|congruence]); len.
  - apply nonzero_ne, (tri_ne _ _ _ T).
  - apply nonzero_ne, (tri_ne2 _ _ _ T).
Qed.
Lemma nrm_sq u v : length u = length v -> (length u <= 3)%nat -> dot (nrm u v) (nrm u v) = gram u v.
Proof. intros H L. unfold nrm, gram. rewrite lagrange by len. rewrite !dot_pad by auto. reflexivity. Qed.
Lemma half_dyad : Rdyad 1 1 = 1 / 2. Proof. unfold Rdyad. simpl. lra. Qed.
Lemma triangle_area_R (a b c : pt) : tri a b c -> (length a <= 3)%nat ->
  triangle_area (N:=RNum) (MkTriangle a b c) = Ok (1 / 2 * sqrt (gram (sub b a) (sub c a))).
Proof.
  intros T L. pose proof T as (Na & Lb & Lc & G). unfold triangle_area. rewrite triangle_normal_R by auto. cbn [bind]. rewrite norm_R. cbn [bind].
  cbn [ndyad RNum nmul]. rewrite half_dyad. unfold len. rewrite nrm_sq by len. reflexivity.
Qed.
Lemma triangle_perimeter_R (a b c : pt) : tri a b c -> triangle_perimeter (N:=RNum) (MkTriangle a b c) = Ok (dist b c + dist c a + dist a b).
Proof.
  intros T. unfold triangle_perimeter. rewrite triangle_lengths_R by auto. cbn [bind]. rewrite nsum_Rsum. unfold Rsum. simpl. rn. f_equal. ring.
Qed.

Theorem C54_normal : forall LA (a b c : pt) t, svd_correct LA -> triangle_new LA a b c = Ok t ->
  ((length a <= 3)%nat -> exists n, triangle_normal t = Ok n /\ length n = 3%nat /\ ~ is_zero_vec n /\
     dot n (pad_to 3 (sub b a)) = 0 /\ dot n (pad_to 3 (sub c a)) = 0 /\ dot n (pad_to 3 (sub c b)) = 0 /\
     n = cross_spec (pad_to 3 (sub b a)) (pad_to 3 (sub c a))) /\
  ((3 < length a)%nat -> (exists m, triangle_normal t = Raise (ValueError m)) /\ (exists m, triangle_area t = Raise (ValueError m))).
Proof.
  intros LA a b c t HL H. apply triangle_tri in H as (-> & T); auto. pose proof T as (Na & Lb & Lc & G). split; intro L.
  - exists (nrm (sub b a) (sub c a)). rewrite triangle_normal_R by auto. split; auto. unfold nrm. split; [apply length_cross; len|].
    assert (E1 : dot (cross_spec (pad_to 3 (sub b a)) (pad_to 3 (sub c a))) (pad_to 3 (sub b a)) = 0) by (apply cross_dot_l; len).
    assert (E2 : dot (cross_spec (pad_to 3 (sub b a)) (pad_to 3 (sub c a))) (pad_to 3 (sub c a)) = 0) by (apply cross_dot_r; len).
    split; [|split; [auto|split; [auto|split; [|auto]]]].
    + intro Z. apply dot_self_zero_iff in Z. fold (nrm (sub b a) (sub c a)) in Z. rewrite nrm_sq in Z by len. lra.
    + assert (E : sub c a = add (sub b a) (sub c b)) by (symmetry; apply sub_chain; len).
      rewrite E in E2 at 2. rewrite pad_add, dot_add_r in E2 by len. lra.
  - assert (E : exists m, triangle_normal (N:=RNum) (MkTriangle a b c) = Raise (ValueError m)).
    { unfold triangle_normal. cbn [t_a t_b t_c]. rewrite !from_points_R by auto. cbn [bind]. apply cross_err_l. len. }
    split; auto. destruct E as (m & E). unfold triangle_area. rewrite E. cbn [bind]. eauto.
Qed.
Print Assumptions C54_normal.

(** Half the norm of the normal; positive; Heron's formula; half base times height for each side; the strict
    triangle inequality; the perimeter. *)
Theorem C54_area_perimeter : forall LA (a b c : pt) t, svd_correct LA -> triangle_new LA a b c = Ok t ->
  exists s, triangle_perimeter t = Ok (2 * s) /\ 2 * s = dist b c + dist c a + dist a b /\
    dist b c < dist c a + dist a b /\ dist c a < dist a b + dist b c /\ dist a b < dist b c + dist c a /\
    ((length a <= 3)%nat -> exists n k, triangle_normal t = Ok n /\ triangle_area t = Ok k /\ k = len n / 2 /\ 0 < k /\
       k = sqrt (s * (s - dist b c) * (s - dist c a) * (s - dist a b)) /\
       (forall h, min_dist (on_line b (sub c b)) a h -> k = dist b c * h / 2) /\
       (forall h, min_dist (on_line c (sub a c)) b h -> k = dist c a * h / 2) /\
       (forall h, min_dist (on_line a (sub b a)) c h -> k = dist a b * h / 2)).
Proof.
  assert (Base : forall p q r, tri p q r -> forall h, min_dist (on_line q (sub r q)) p h -> sqrt (gram (sub q p) (sub r p)) = dist q r * h).
  { intros p q r T h Hh. pose proof T as (Np & Lq & Lr & G). pose proof (tri_pv p q r T) as PV.
    assert (Eh : h = dist p (lproj q (sub r q) p)) by (eapply min_dist_unique; [exact Hh|apply lproj_min; auto]).
    assert (Hh0 : 0 <= h) by (rewrite Eh; apply dist_nonneg).
    rewrite <- (gram_rot p q r Lq Lr).
    assert (Pd : 0 < dot (sub r q) (sub r q)) by (apply dot_self_pos, PV).
    assert (Sq : h * h * dot (sub r q) (sub r q) = gram (sub r q) (sub p q)).
    { rewrite Eh, dist_sq. unfold lproj. rewrite sub_sub_l by len. set (w := sub p q) in *. set (d := sub r q) in *.
      assert (Lw : length w = length d) by (unfold w, d; len). rewrite dot_sub_sub by len. rewrite dot_scale_l, !dot_scale_r. unfold gram. rewrite (dot_comm w d). field. lra. }
    rewrite <- Sq. rewrite (dist_sym q r). rewrite <- (dist_sq r q).
    replace (h * h * (dist r q * dist r q)) with ((dist r q * h) * (dist r q * h)) by ring. apply sqrt_square. apply Rmult_le_pos; auto. apply dist_nonneg. }
  assert (Strict : forall p q r, tri p q r -> dist q r < dist r p + dist p q).
  { intros p q r T. pose proof T as (Np & Lq & Lr & G). destruct (rot_dots p q r Lq Lr) as (E1 & _ & _).
    pose proof (cosine_strict p q r T) as B. pose proof (cosine_dot (sub q p) (sub r p) (tri_ne _ _ _ T) (tri_ne2 _ _ _ T)) as D.
    assert (Pq : 0 < dist q p) by (apply len_pos, (tri_ne p q r T)). assert (Pr : 0 < dist r p) by (apply len_pos, (tri_ne2 p q r T)).
    fold (dist q p) in D. fold (dist r p) in D. rewrite <- !dist_sq in E1. rewrite D in E1. rewrite (dist_sym q r), (dist_sym p q).
    set (x := dist q p) in *. set (y := dist r p) in *. set (z := dist r q) in *. set (k := cosine _ _) in *.
    assert (0 < x * y) by (apply Rmult_lt_0_compat; auto). assert (0 <= z) by apply dist_nonneg. clearbody x y z k.
    apply Rnot_le_lt. intro X. assert ((y + x) * (y + x) <= z * z) by nra. nra. }
  intros LA a b c t HL H. apply triangle_tri in H as (-> & T); auto. pose proof T as (Na & Lb & Lc & G).
  pose proof (tri_rot _ _ _ T) as T2. pose proof (tri_rot _ _ _ T2) as T3.
  exists ((dist b c + dist c a + dist a b) / 2). split; [rewrite triangle_perimeter_R by auto; f_equal; rn; lra|]. split; [lra|].
  split; [apply (Strict a b c T)|]. split; [apply (Strict b c a T2)|]. split; [apply (Strict c a b T3)|].
  intro L. exists (nrm (sub b a) (sub c a)), (1 / 2 * sqrt (gram (sub b a) (sub c a))).
  rewrite triangle_normal_R, triangle_area_R by auto. split; auto. split; auto.
  split; [unfold len; rewrite nrm_sq by len; lra|].
  assert (Pg : 0 < sqrt (gram (sub b a) (sub c a))) by (apply sqrt_lt_R0; auto).
  split; [lra|]. split.
  - symmetry. assert (Es : gram (sub b a) (sub c a) = 4 * ((dist b c + dist c a + dist a b) / 2 * ((dist b c + dist c a + dist a b) / 2 - dist b c) *
      ((dist b c + dist c a + dist a b) / 2 - dist c a) * ((dist b c + dist c a + dist a b) / 2 - dist a b))).
    { destruct (rot_dots a b c Lb Lc) as (E1 & _ & _). rewrite <- !dist_sq in E1. unfold gram. rewrite <- !dist_sq.
      rewrite (dist_sym b c), (dist_sym a b). set (S := dot (sub b a) (sub c a)) in *. set (x := dist c b) in *. set (y := dist c a) in *. set (z := dist b a) in *.
      replace S with ((z * z + y * y - x * x) / 2) by lra. field. }
    rewrite Es. rewrite (sqrt_mult_alt 4) by lra. replace (sqrt 4) with 2 by (symmetry; replace 4 with (2 * 2) by ring; apply sqrt_square; lra). lra.
  - split; [|split]; intros h Hh.
    + rewrite (Base a b c T h Hh). lra.
    + pose proof (Base b c a T2 h Hh) as E. rewrite (gram_rot a b c Lb Lc) in E. rewrite E. lra.
    + pose proof (Base c a b T3 h Hh) as E. rewrite <- (gram_rot c a b) in E by len. rewrite E. lra.
Qed.
Print Assumptions C54_area_perimeter.

Lemma perm3 {A} (x y z : A) l : Permutation [x; y; z] l ->
  l = [x; y; z] \/ l = [x; z; y] \/ l = [y; x; z] \/ l = [y; z; x] \/ l = [z; x; y] \/ l = [z; y; x].
Proof.
  intro H. pose proof (Permutation_length H) as L. destruct l as [|a l]; [discriminate|].
  assert (Ha : In a [x; y; z]) by (eapply Permutation_in; [symmetry; exact H|left; auto]).
  destruct Ha as [<-|[<-|[<-|[]]]].
  - apply Permutation_cons_inv in H. apply Permutation_length_2_inv in H as [->| ->]; auto.
  - assert (H' : Permutation (y :: [x; z]) (y :: l)) by (rewrite <- H; constructor).
    apply Permutation_cons_inv in H'. apply Permutation_length_2_inv in H' as [->| ->]; auto.
  - assert (H' : Permutation (z :: [x; y]) (z :: l)) by (rewrite <- H; apply (Permutation_cons_append [x; y] z)).
    apply Permutation_cons_inv in H'. apply Permutation_length_2_inv in H' as [->| ->]; auto 6.
Qed.
Lemma pad_sub n a b : length a = length b -> pad_to n (sub a b) = sub (pad_to n a) (pad_to n b).
Proof.
  intro H. apply pt_ext; [len|]. intros i _. rewrite nth_sub by len. unfold pad_to.
  destruct (Nat.lt_ge_cases i (length a)) as [I|I].
  - rewrite !app_nth1 by len. apply nth_sub. auto.
  - rewrite !app_nth2 by len. rewrite !nth_repeat. ring.
Qed.
Lemma nrm_rot a b c : length b = length a -> length c = length a -> (length a <= 3)%nat -> nrm (sub c b) (sub a b) = nrm (sub b a) (sub c a).
Proof.
  intros Lb Lc L. unfold nrm. rewrite !pad_sub by congruence.
  assert (La : length (pad_to 3 a) = 3%nat) by len. assert (Lb' : length (pad_to 3 b) = 3%nat) by len. assert (Lc' : length (pad_to 3 c) = 3%nat) by len.
  apply list3 in La as (x & y & z & ->). apply list3 in Lb' as (x' & y' & z' & ->). apply list3 in Lc' as (x2 & y2 & z2 & ->). simpl. veq.
Qed.
Lemma nrm_swap u v : length u = length v -> (length u <= 3)%nat -> nrm v u = scale (-1) (nrm u v).
Proof. intros H L. unfold nrm. apply cross_anti; len. Qed.

(** The order of the vertices does not matter for being a triangle, the area and the perimeter; the normal changes at most its sign. *)
Theorem C54_order_of_vertices : forall LA (a b c a' b' c' : pt) t, svd_correct LA -> Permutation [a; b; c] [a'; b'; c'] ->
  triangle_new LA a b c = Ok t -> exists t', triangle_new LA a' b' c' = Ok t' /\
    triangle_perimeter t' = triangle_perimeter t /\
    ((length a <= 3)%nat -> triangle_area t' = triangle_area t /\
       exists n s, triangle_normal t = Ok n /\ triangle_normal t' = Ok (scale s n) /\ (s = 1 \/ s = -1)).
Proof.
  intros LA a b c a' b' c' t HL HP H. pose proof (triangle_new_inv LA a b c t H) as (_ & Na & Lb & Lc & E).
  apply triangle_tri in H as (-> & T); auto. pose proof T as (_ & _ & _ & G).
  assert (Len : forall x, In x [a'; b'; c'] -> length x = length a).
  { intros x Hx. apply (Permutation_in x (Permutation_sym HP)) in Hx. destruct Hx as [<-|[<-|[<-|[]]]]; auto. }
  assert (La' : length a' = length a) by (apply Len; simpl; auto). assert (Lb' : length b' = length a) by (apply Len; simpl; auto).
  assert (Lc' : length c' = length a) by (apply Len; simpl; auto).
  assert (Na' : a' <> []) by (destruct a'; [destruct a; [contradiction|discriminate]|discriminate]).
  assert (E' : are_collinear LA None [a'; b'; c'] = Ok false).
  { assert (P1 : points_ok (length a) [a; b; c]) by (apply tri_points_ok; auto).
    assert (P2 : points_ok (length a) [a'; b'; c']) by (rewrite <- La'; apply tri_points_ok; auto; lia).
    assert (Hin : forall x, In x [a'; b'; c'] <-> In x [a; b; c]) by (intro x; split; apply Permutation_in; [symmetry; exact HP|exact HP]).
    destruct (C23_depends_on_set LA None (length a) [a; b; c] [a'; b'; c'] P1 P2 Hin) as (_ & _ & X & _). exact (eq_trans X E). }
  exists (MkTriangle (N:=RNum) a' b' c'). split; [rewrite triangle_new_unfold by lia || auto; rewrite E'; reflexivity|].
  pose proof (gram_rot a b c Lb Lc) as G1. pose proof (gram_rot b c a ltac:(lia) ltac:(lia)) as G2.
  pose proof (tri_rot _ _ _ T) as T2. pose proof (tri_rot _ _ _ T2) as T3. pose proof (tri_swap _ _ _ T) as T4. pose proof (tri_rot _ _ _ T4) as T5. pose proof (tri_rot _ _ _ T5) as T6.
  assert (T' : tri a' b' c').
  { apply perm3 in HP as [X|[X|[X|[X|[X|X]]]]]; injection X as -> -> ->; auto. }
  rewrite !triangle_perimeter_R by auto. split.
  - f_equal. apply perm3 in HP as [X|[X|[X|[X|[X|X]]]]]; injection X as -> -> ->; rewrite ?(dist_sym c b), ?(dist_sym b a), ?(dist_sym a c); rn; ring.
  - intro L. rewrite !triangle_area_R, !triangle_normal_R by (auto; lia). split.
    + do 3 f_equal. apply perm3 in HP as [X|[X|[X|[X|[X|X]]]]]; injection X as -> -> ->; auto.
      * apply gram_swap.
      * rewrite gram_swap. auto.
      * rewrite G2, G1. auto.
      * rewrite gram_swap, G2. auto.
    + exists (nrm (sub b a) (sub c a)).
      pose proof (nrm_rot a b c Lb Lc L) as N1. pose proof (nrm_rot b c a ltac:(lia) ltac:(lia) ltac:(lia)) as N2. rewrite N1 in N2.
      pose proof (nrm_swap (sub b a) (sub c a) ltac:(len) ltac:(len)) as N3.
      pose proof (nrm_swap (sub c b) (sub a b) ltac:(len) ltac:(len)) as N4. rewrite N1 in N4.
      pose proof (nrm_swap (sub a c) (sub b c) ltac:(len) ltac:(len)) as N5. rewrite N2 in N5.
      apply perm3 in HP as [X|[X|[X|[X|[X|X]]]]]; injection X as -> -> ->;
        [exists 1|exists (-1)|exists (-1)|exists 1|exists 1|exists (-1)]; (split; [reflexivity|]); rewrite ?scale_1; rewrite ?N1, ?N2, ?N3, ?N4, ?N5; auto.
Qed.
Print Assumptions C54_order_of_vertices.
Example C54_nonvacuous : exists t, triangle_new ideal_linalg [0; 0] [1; 0] [0; 1] = Ok t /\ triangle_area t = Ok (1 / 2).
Proof.
  assert (HL : svd_correct ideal_linalg) by apply ideal_linalg_correct.
  eexists. split; [apply corner_triangle, HL|]. pose proof (proj2 (triangle_tri _ _ _ _ _ HL (corner_triangle _ HL))) as T.
  rewrite triangle_area_R by (auto; simpl; lia). f_equal. unfold gram. simpl. replace (_ - _) with 1 by ring. rewrite sqrt_1. lra.
Qed.

(** ** C55  angle *)
Lemma triangle_angle_R (a b c : pt) v p q r : tri a b c -> vertex_named a b c v p q r ->
  triangle_angle (N:=RNum) RTrig (MkTriangle a b c) v = Ok (acos (cosine (sub q p) (sub r p))).
Proof.
  intros T Hv. pose proof (named_tri _ _ _ _ _ _ _ T Hv) as T'.
  pose proof (tri_rot _ _ _ T) as T2. pose proof (tri_rot _ _ _ T2) as T3.
  pose proof (tri_dist_pos a b c T) as Pc. pose proof (tri_dist_pos b c a T2) as Pa. pose proof (tri_dist_pos c a b T3) as Pb.
  unfold triangle_angle. rewrite triangle_lengths_R by auto. cbn [bind].
  pose proof (cosine_strict p q r T') as B.
  assert (Fin : forall x, x = cosine (sub q p) (sub r p) -> (let* x := Ok x in math_acos (N:=RNum) RTrig x) = Ok (acos (cosine (sub q p) (sub r p)))).
  { intros x ->. cbn [bind]. unfold math_acos. rops. rcmp. reflexivity. }
  destruct Hv as [(-> & -> & -> & ->)|[(-> & -> & -> & ->)|(-> & -> & -> & ->)]]; cbn [String.eqb Ascii.eqb Bool.eqb]; rops.
  - rewrite ndiv_R by (apply Rgt_not_eq; repeat apply Rmult_lt_0_compat; lra). apply Fin.
    rewrite <- (law_of_cosines a b c T'). rewrite (dist_sym a c). reflexivity.
  - rewrite ndiv_R by (apply Rgt_not_eq; repeat apply Rmult_lt_0_compat; lra). apply Fin.
    rewrite <- (law_of_cosines2 b c a T'). rewrite (dist_sym b a). reflexivity.
  - rewrite ndiv_R by (apply Rgt_not_eq; repeat apply Rmult_lt_0_compat; lra). apply Fin.
    rewrite <- (law_of_cosines c a b T'). rewrite (dist_sym c b). reflexivity.
Qed.

(** The angle is the one of the two sides meeting in the vertex, strictly between 0 and pi. *)
Theorem C55_angle : forall LA (a b c : pt) t, svd_correct LA -> triangle_new LA a b c = Ok t ->
  (forall v p q r, vertex_named a b c v p q r -> exists x, triangle_angle RTrig t v = Ok x /\ 0 < x < PI /\
     angle_between (N:=RNum) RTrig (sub q p) (sub r p) = Ok x /\
     dot (sub q p) (sub r p) = dist p q * dist p r * cos x) /\
  (forall v, ~ is_vertex_name v -> exists m, triangle_angle RTrig t v = Raise (ValueError m)).
Proof.
  intros LA a b c t HL H. apply triangle_tri in H as (-> & T); auto. split.
  - intros v p q r Hv. pose proof (named_tri _ _ _ _ _ _ _ T Hv) as T'. pose proof T' as (Np & Lq & Lr & _).
    pose proof (cosine_strict p q r T') as B.
    rewrite (triangle_angle_R a b c v p q r T Hv). eexists. split; [reflexivity|].
    split; [apply acos_bound_lt; lra|]. split; [apply angle_R; [len|apply (tri_ne _ _ _ T')|apply (tri_ne2 _ _ _ T')]|].
    rewrite cos_acos by lra. rewrite (dist_sym p q), (dist_sym p r).
    rewrite (cosine_dot (sub q p) (sub r p) (tri_ne _ _ _ T') (tri_ne2 _ _ _ T')). unfold dist. ring.
  - intros v Hv. unfold triangle_angle. rewrite triangle_lengths_R by auto. cbn [bind].
    rewrite !eqb_neq by (intro; apply Hv; unfold is_vertex_name; auto). cbn [bind]. unfold err_vertex. eauto.
Qed.
Print Assumptions C55_angle.

(** The angles sum to pi, and the law of sines. *)
Theorem C55_angle_sum_and_sines : forall LA (a b c : pt) t, svd_correct LA -> triangle_new LA a b c = Ok t ->
  exists x y z, triangle_angle RTrig t "A" = Ok x /\ triangle_angle RTrig t "B" = Ok y /\ triangle_angle RTrig t "C" = Ok z /\
    x + y + z = PI /\ dist b c / sin x = dist c a / sin y /\ dist c a / sin y = dist a b / sin z.
Proof.
  intros LA a b c t HL H. apply triangle_tri in H as (-> & T); auto. pose proof T as (Na & Lb & Lc & G).
  pose proof (tri_rot _ _ _ T) as T2. pose proof (tri_rot _ _ _ T2) as T3.
  rewrite (triangle_angle_R a b c "A" a b c T) by (left; auto). rewrite (triangle_angle_R a b c "B" b c a T) by (right; left; auto).
  rewrite (triangle_angle_R a b c "C" c a b T) by (right; right; auto).
  do 3 eexists. split; [reflexivity|]. split; [reflexivity|]. split; [reflexivity|]. split; [apply tri_angle_sum; auto|].
  rewrite !sin_angle by auto. rewrite (gram_rot b c a), (gram_rot a b c) by len.
  pose proof (tri_dist_pos a b c T) as Pc. pose proof (tri_dist_pos b c a T2) as Pa. pose proof (tri_dist_pos c a b T3) as Pb.
  rewrite (dist_sym a c), (dist_sym b a), (dist_sym c b). assert (Pg : 0 < sqrt (gram (sub b a) (sub c a))) by (apply sqrt_lt_R0; auto).
  split; field; lra.
Qed.
Print Assumptions C55_angle_sum_and_sines.
Example C55_nonvacuous : exists t, triangle_new ideal_linalg [0; 0] [1; 0] [0; 1] = Ok t /\ triangle_angle RTrig t "A" = Ok (PI / 2).
Proof.
  assert (HL : svd_correct ideal_linalg) by apply ideal_linalg_correct.
  eexists. split; [apply corner_triangle, HL|]. pose proof (proj2 (triangle_tri _ _ _ _ _ HL (corner_triangle _ HL))) as T.
  rewrite (triangle_angle_R _ _ _ "A" [0; 0] [1; 0] [0; 1] T) by (left; auto). f_equal. apply acos_PI2_iff; unfold cosine; simpl; unfold Rdiv; rewrite ?Rmult_0_r, ?Rmult_0_l; try lra;
  replace ((1 - 0) * (0 - 0) + ((0 - 0) * (1 - 0) + 0)) with 0 by ring; lra.
Qed.

(** ** C56  altitude and orthocenter *)
Lemma tri_foot p q r : tri p q r -> foot_of p q r (lproj q (sub r q) p) /\ ~ is_zero_vec (sub (lproj q (sub r q) p) p) /\ length (lproj q (sub r q) p) = length p.
Proof.
  intros T. pose proof T as (Np & Lq & Lr & G). pose proof (tri_pv p q r T) as PV.
  assert (Ll : length (lproj q (sub r q) p) = length p) by (rewrite length_lproj; [auto|apply PV]).
  split; [split; [apply lproj_on|]|split; [|auto]].
  - rewrite (sub_sub_swap p _). rewrite dot_scale_l. rewrite (lproj_perp q (sub r q) p PV) by len. ring.
  - intro Z. apply (proj1 (sub_zero_iff _ _ Ll)) in Z. apply tri_iff in T as (_ & _ & _ & C). apply C.
    exists q, (sub r q). split; [len|]. intros x [<-|[<-|[<-|[]]]].
    + rewrite <- Z. apply lproj_on.
    + apply on_line_base. len.
    + exists 1. rewrite scale_1, add_sub_cancel by len. auto.
Qed.
Lemma foot_unique p q r f f' : tri p q r -> foot_of p q r f -> foot_of p q r f' -> f = f'.
Proof.
  intros T (O & D) (O' & D'). pose proof T as (Np & Lq & Lr & G). pose proof (tri_pv p q r T) as PV.
  assert (Lf : length f = length q) by (eapply on_line_length; [|exact O]; len). assert (Lf' : length f' = length q) by (eapply on_line_length; [|exact O']; len).
  destruct (on_line_sub q (sub r q) f f' ltac:(len) O O') as (s & E).
  assert (Z : dot (sub f f') (sub r q) = 0). { rewrite (sub_via f f' p) by len. rewrite dot_sub_l by len. lra. }
  rewrite E, dot_scale_l in Z. assert (Pd : 0 < dot (sub r q) (sub r q)) by (apply dot_self_pos, PV).
  assert (s = 0) by (apply Rmult_integral in Z; lra). subst s. rewrite scale_0 in E. apply sub_zero_iff; [len|]. rewrite E. apply zero_origin.
Qed.
Lemma altitude_R (a b c : pt) v p q r : tri a b c -> vertex_named a b c v p q r ->
  triangle_altitude (N:=RNum) (MkTriangle a b c) v = Ok (MkLine p (sub (lproj q (sub r q) p) p)).
Proof.
  intros T Hv. pose proof (named_tri _ _ _ _ _ _ _ T Hv) as T'. pose proof T' as (Np & Lq & Lr & G). pose proof (tri_pv p q r T') as PV.
  destruct (tri_foot p q r T') as (F & NZ & Lf).
  assert (E : (let* l := line_from_points (N:=RNum) q r in let* foot := line_project_point l p in line_from_points p foot) = Ok (MkLine p (sub (lproj q (sub r q) p) p))).
  { rewrite (line_from_points_tri p q r T'). cbn [bind]. rewrite line_project_point_R by auto. cbn [bind].
    unfold line_from_points. rewrite from_points_R by auto. cbn [bind]. apply line_new_R; [len|auto]. }
  rewrite <- E. destruct Hv as [(-> & -> & -> & ->)|[(-> & -> & -> & ->)|(-> & -> & -> & ->)]]; reflexivity.
Qed.

(** altitude(v) exists for every triangle (in every dimension): the line through the vertex and the foot of the
    perpendicular on the line of the opposite side. *)
Theorem C56_altitude : forall LA (a b c : pt) t, svd_correct LA -> triangle_new LA a b c = Ok t ->
  (forall v p q r, vertex_named a b c v p q r ->
     exists l f, triangle_altitude t v = Ok l /\ l = MkLine (N:=RNum) p (sub f p) /\ foot_of p q r f /\ f <> p /\
       on_line (l_point l) (l_dir l) p /\ on_line (l_point l) (l_dir l) f /\ min_dist (on_line q (sub r q)) p (dist p f)) /\
  (forall v, ~ is_vertex_name v -> exists m, triangle_altitude t v = Raise (ValueError m)).
Proof.
  intros LA a b c t HL H. apply triangle_tri in H as (-> & T); auto. split.
  - intros v p q r Hv. pose proof (named_tri _ _ _ _ _ _ _ T Hv) as T'. destruct (tri_foot p q r T') as (F & NZ & Lf).
    rewrite (altitude_R a b c v p q r T Hv). do 2 eexists. split; [reflexivity|]. split; [reflexivity|]. split; [exact F|].
    cbn [l_point l_dir]. split; [intro E; apply NZ; apply sub_zero_iff; auto|].
    split; [apply on_line_base; len|]. split; [exists 1; rewrite scale_1, add_sub_cancel by len; auto|].
    apply lproj_min; [apply (tri_pv p q r T')|]. destruct T' as (_ & Lq & _). auto.
  - intros v Hv. unfold triangle_altitude. rewrite !eqb_neq by (intro; apply Hv; unfold is_vertex_name; auto). unfold err_vertex. eauto.
Qed.
Print Assumptions C56_altitude.

(** The orthocenter, by its coordinates. *)
Definition orth (a b c : pt) : pt :=
  let P := dot (sub b a) (sub b a) in let Q := dot (sub c a) (sub c a) in let S := dot (sub b a) (sub c a) in
  let G := gram (sub b a) (sub c a) in
  add a (add (scale (S * (Q - S) / G) (sub b a)) (scale (S * (P - S) / G) (sub c a))).
Lemma length_orth a b c : length b = length a -> length c = length a -> length (orth a b c) = length a.
Proof. intros. unfold orth. cbv zeta. len. Qed.
Lemma orth_rot a b c : tri a b c -> orth b c a = orth a b c.
Proof.
  intros (Na & Lb & Lc & G). destruct (rot_dots a b c Lb Lc) as (E1 & E2 & E3). unfold orth. cbv zeta.
  rewrite (gram_rot a b c Lb Lc), E1, E2, E3. set (g := gram (sub b a) (sub c a)) in *.
  assert (Eg : g = dot (sub b a) (sub b a) * dot (sub c a) (sub c a) - dot (sub b a) (sub c a) * dot (sub b a) (sub c a)) by reflexivity.
  set (P := dot (sub b a) (sub b a)) in *. set (Q := dot (sub c a) (sub c a)) in *. set (S := dot (sub b a) (sub c a)) in *.
  apply pt_ext; [len|]. intros i _. rewrite !nth_add by len. rewrite !nth_scale, !nth_sub by len.
  set (x := nth i a 0). set (y := nth i b 0). set (z := nth i c 0). clearbody P Q S x y z g.
  apply Rmult_eq_reg_r with g; [|lra].
  replace ((y + ((P - S) * (P - (P - S)) / g * (z - y) + (P - S) * (P + Q - 2 * S - (P - S)) / g * (x - y))) * g)
    with (y * g + (P - S) * S * (z - y) + (P - S) * (Q - S) * (x - y)) by (field; lra).
  replace ((x + (S * (Q - S) / g * (y - x) + S * (P - S) / g * (z - x))) * g) with (x * g + S * (Q - S) * (y - x) + S * (P - S) * (z - x)) by (field; lra).
  rewrite Eg. ring.
Qed.
Lemma orth_on_altitude a b c : tri a b c -> on_line a (sub (lproj b (sub c b) a) a) (orth a b c).
Proof.
  intros T. pose proof T as (Na & Lb & Lc & G). destruct (rot_dots a b c Lb Lc) as (E1 & E2 & E3). pose proof (tri_pv a b c T) as PV.
  assert (Pd : 0 < dot (sub c b) (sub c b)) by (apply dot_self_pos, PV).
  exists (dot (sub b a) (sub c a) * dot (sub c b) (sub c b) / gram (sub b a) (sub c a)).
  unfold orth, lproj. cbv zeta. rewrite E3. f_equal. rewrite E1 in *.
  set (g := gram (sub b a) (sub c a)) in *. set (P := dot (sub b a) (sub b a)) in *. set (Q := dot (sub c a) (sub c a)) in *. set (S := dot (sub b a) (sub c a)) in *.
  apply pt_ext; [len|]. intros i _. repeat rewrite ?nth_add, ?nth_scale, ?nth_sub by len. field. lra.
Qed.
Lemma altitudes_independent a b c : tri a b c -> ~ dependent (sub (lproj b (sub c b) a) a) (sub (lproj c (sub a c) b) b).
Proof.
  intros T D. pose proof T as (Na & Lb & Lc & G). pose proof (tri_rot _ _ _ T) as T2.
  destruct (tri_foot a b c T) as ((O & P1) & NZ1 & L1). destruct (tri_foot b c a T2) as ((O2 & P2) & NZ2 & L2).
  set (d := sub (lproj b (sub c b) a) a) in *. set (e := sub (lproj c (sub a c) b) b) in *.
  apply dependent_nonzero in D as (s & D); [|auto|unfold d, e; len].
  assert (Q : dot d (sub a c) = 0) by (rewrite D, dot_scale_l, P2; ring).
  (* d = (b - a) + k (c - b) is in the span of c - b and a - c *)
  apply NZ1, dot_self_zero_iff. destruct O as (k & Ek). unfold d at 2. rewrite Ek.
  replace (sub (add b (scale k (sub c b))) a) with (add (scale (-1) (sub a c)) (scale (k - 1) (sub c b)))
    by (apply pt_ext; [len|]; intros i _; repeat rewrite ?nth_add, ?nth_scale, ?nth_sub by len; ring).
  rewrite dot_add_r by len. rewrite !dot_scale_r, P1, Q. ring.
Qed.

(** The result of orthocenter lies on all three altitudes; (x - vertex) is perpendicular to the opposite side. *)
Theorem C56_orthocenter_sound : forall LA (tl : tol RNum) check (a b c : pt) t x, svd_correct LA -> 0 <= rel_tol tl -> 0 <= abs_tol tl ->
  triangle_new LA a b c = Ok t -> triangle_orthocenter LA tl check t = Ok x ->
  (length a <= 3)%nat /\
  forall v p q r, vertex_named a b c v p q r ->
    on_altitude p q r x /\ dot (sub x p) (sub r q) = 0 /\
    (exists l, triangle_altitude t v = Ok l /\ on_line (l_point l) (l_dir l) x).
Proof.
  intros LA tl check a b c t x HL Hr Ha H Hx. apply triangle_tri in H as (-> & T); auto. pose proof T as (Na & Lb & Lc & G).
  pose proof (tri_rot _ _ _ T) as T2. pose proof (tri_rot _ _ _ T2) as T3.
  unfold triangle_orthocenter in Hx. rewrite (altitude_R a b c "A" a b c T) in Hx by (left; auto).
  rewrite (altitude_R a b c "B" b c a T) in Hx by (right; left; auto). cbn [bind] in Hx.
  set (d := sub (lproj b (sub c b) a) a) in *. set (e := sub (lproj c (sub a c) b) b) in *.
  destruct (tri_foot a b c T) as (F1 & NZ1 & L1). destruct (tri_foot b c a T2) as (F2 & NZ2 & L2). destruct (tri_foot c a b T3) as (F3 & NZ3 & L3).
  assert (PV1 : pv_ok a d) by (split; [unfold d; len|auto]). assert (PV2 : pv_ok b e) by (split; [unfold e; len|]; split; [auto|]; destruct T2; auto).
  assert (N1 : line_new (N:=RNum) a d = Ok (MkLine a d)) by (apply line_new_R; apply PV1).
  assert (N2 : line_new (N:=RNum) b e = Ok (MkLine b e)) by (apply line_new_R; apply PV2).
  pose proof (orth_on_altitude a b c T) as O1. fold d in O1. pose proof (orth_on_altitude b c a T2) as O2. fold e in O2. rewrite (orth_rot a b c T) in O2.
  pose proof (orth_on_altitude c a b T3) as O3. rewrite (orth_rot b c a T2), (orth_rot a b c T) in O3.
  destruct (C31_result_sound LA tl check a d b e _ _ x Hr Ha N1 N2 Hx) as (_ & L & X1 & X2).
  assert (X2' : on_line b e x) by (apply X2; exact (meeting_coplanar a d b e _ PV1 PV2 Lb O1 O2)).
  pose proof (altitudes_independent a b c T) as D. fold d e in D.
  destruct (meet_params a d b e x PV1 PV2 Lb L D X1 X2') as (Ex & _). destruct (meet_params a d b e _ PV1 PV2 Lb L D O1 O2) as (Eo & _).
  assert (Xo : x = orth a b c) by congruence. clear Ex Eo. subst x. split; auto.
  assert (K : forall p q r, tri p q r -> on_line p (sub (lproj q (sub r q) p) p) (orth a b c) -> on_altitude p q r (orth a b c) /\ dot (sub (orth a b c) p) (sub r q) = 0).
  { intros p q r T' O. destruct (tri_foot p q r T') as (F & NZ & Lf). split; [exists (lproj q (sub r q) p); auto|].
    destruct O as (s & ->). rewrite sub_add_cancel by len. rewrite dot_scale_l, (proj2 F). ring. }
  intros v p q r Hv. pose proof (named_tri _ _ _ _ _ _ _ T Hv) as T'.
  assert (O : on_line p (sub (lproj q (sub r q) p) p) (orth a b c)).
  { destruct Hv as [(-> & -> & -> & ->)|[(-> & -> & -> & ->)|(-> & -> & -> & ->)]]; auto. }
  destruct (K p q r T' O) as (K1 & K2). split; [exact K1|]. split; [exact K2|].
  rewrite (altitude_R a b c v p q r T Hv). eexists. split; [reflexivity|]. exact O.
Qed.
Print Assumptions C56_orthocenter_sound.

(** It returns whenever the two altitudes used are not numerically parallel (with zero tolerances: always), in dimension at most 3;
    in higher dimensions it raises. *)
Theorem C56_orthocenter_returns : forall LA (tl : tol RNum) check (a b c : pt) t, svd_correct LA -> 0 <= rel_tol tl -> 0 <= abs_tol tl ->
  triangle_new LA a b c = Ok t ->
  ((length a <= 3)%nat -> forall l m, triangle_altitude t "A" = Ok l -> triangle_altitude t "B" = Ok m ->
     is_parallel tl (l_dir l) (l_dir m) = Ok false -> exists x, triangle_orthocenter LA tl check t = Ok x) /\
  ((length a <= 3)%nat -> rel_tol tl = 0 -> abs_tol tl = 0 -> exists x, triangle_orthocenter LA tl check t = Ok x) /\
  ((3 < length a)%nat -> exists m, triangle_orthocenter LA tl check t = Raise (ValueError m)).
Proof.
  intros LA tl check a b c t HL Hr Ha H. apply triangle_tri in H as (-> & T); auto. pose proof T as (Na & Lb & Lc & G).
  pose proof (tri_rot _ _ _ T) as T2.
  unfold triangle_orthocenter. rewrite (altitude_R a b c "A" a b c T) by (left; auto).
  rewrite (altitude_R a b c "B" b c a T) by (right; left; auto). cbn [bind].
  set (d := sub (lproj b (sub c b) a) a) in *. set (e := sub (lproj c (sub a c) b) b) in *.
  destruct (tri_foot a b c T) as (F1 & NZ1 & L1). destruct (tri_foot b c a T2) as (F2 & NZ2 & L2).
  assert (PV1 : pv_ok a d) by (split; [unfold d; len|auto]). assert (PV2 : pv_ok b e) by (split; [unfold e; len|]; split; [auto|]; destruct T2; auto).
  assert (N1 : line_new (N:=RNum) a d = Ok (MkLine a d)) by (apply line_new_R; apply PV1).
  assert (N2 : line_new (N:=RNum) b e = Ok (MkLine b e)) by (apply line_new_R; apply PV2).
  pose proof (orth_on_altitude a b c T) as O1. fold d in O1. pose proof (orth_on_altitude b c a T2) as O2. fold e in O2. rewrite (orth_rot a b c T) in O2.
  assert (A1 : (length a <= 3)%nat -> is_parallel tl d e = Ok false -> exists x, line_intersect_line LA tl check (MkLine a d) (MkLine b e) = Ok x).
  { intros L Hp. destruct (C31_returns_common_point LA tl check a d b e _ _ _ HL Hr Ha N1 N2 Lb L Hp O1 O2) as (X & _). eauto. }
  split; [|split].
  - intros L l m [= <-] [= <-] Hp. apply A1; auto.
  - intros L Z1 Z2. apply A1; auto.
    destruct (is_parallel_R tl d e) as (r & Er & _); [split; auto|unfold d, e; len|apply nonzero_ne, NZ1|].
    destruct r; auto. exfalso. apply (altitudes_independent a b c T). fold d e.
    eapply (is_parallel_exact tl d e); eauto; [unfold d, e; len|apply nonzero_ne, NZ1].
  - intro L. destruct (C31_errors LA tl check a d b e _ _ Hr Ha N1 N2) as (_ & X & _). auto.
Qed.
Print Assumptions C56_orthocenter_returns.

(** With the default tolerance a valid but thin triangle has no orthocenter: its altitudes count as parallel. *)
Lemma thin_triangle LA : svd_correct LA -> triangle_new LA [100000; 0] [100000; 1] [0; 0] = Ok (MkTriangle (N:=RNum) [100000; 0] [100000; 1] [0; 0]).
Proof.
  intro HL. rewrite triangle_new_unfold by (auto; discriminate). set (ps := [[100000; 0]; [100000; 1]; [0; 0]]).
  assert (Hok : points_ok 2 ps) by (split; [discriminate|]; split; [lia|repeat constructor]).
  destruct (are_collinear_R LA 2 ps HL Hok) as ([|] & E); rn; rewrite E; [exfalso|reflexivity].
  assert (Hd : forall x y, In x ps -> In y ps -> dist x y <= 200000).
  { intros x y Hx Hy. unfold dist, len. replace 200000 with (sqrt (200000 * 200000)) by (apply sqrt_square; lra).
    apply sqrt_le_1_alt. unfold ps in Hx, Hy. destruct Hx as [<-|[<-|[<-|[]]]], Hy as [<-|[<-|[<-|[]]]]; simpl; lra. }
  destruct (C23_default_tests_sound LA 2 ps 200000 HL Hok Hd) as (K & _). specialize (K E). cbv zeta in K. set (eps := _ * 200000) in K.
  assert (P : 0 <= 2 * eps <= 1 / 10).
  { unfold eps. assert (0 < / 2 ^ 52 <= / 1000000000) by (split; [apply Rinv_0_lt_compat, pow_lt; lra|apply Rinv_le_contravar; [lra|simpl; lra]]).
    replace (INR (Nat.max (length ps) 2)) with 3 by (simpl; ring). lra. } clearbody eps.
  destruct (near_flat_direction 2 1 _ ps [] K) as (w & Lw & Uw & _ & B); [apply Hok|auto|simpl; lia|].
  destruct w as [|w1 [|w2 [|]]]; try discriminate.
  assert (B1 := B [100000; 0] [0; 0] ltac:(simpl; auto) ltac:(simpl; auto)).
  assert (B2 := B [100000; 1] [100000; 0] ltac:(simpl; auto) ltac:(simpl; auto)).
  set (e2 := 2 * eps) in *. clearbody e2. simpl in Uw, B1, B2. clear - Uw B1 B2 P.
  replace ((100000 - 0) * w1 + ((0 - 0) * w2 + 0)) with (100000 * w1) in B1 by ring. replace ((100000 - 100000) * w1 + ((1 - 0) * w2 + 0)) with w2 in B2 by ring.
  assert (H : forall a, Rabs a <= e2 -> a * a <= 1 / 100). { intros a Ha. pose proof (Rabs_pos a). assert (a * a = Rabs a * Rabs a) by (unfold Rabs; destruct Rcase_abs; ring). nra. }
  pose proof (H _ B1). pose proof (H _ B2). nra.
Qed.
Theorem C56_thin_triangle_refuted : forall LA, svd_correct LA -> exists (a b c : pt) t,
  triangle_new LA a b c = Ok t /\ (length a <= 3)%nat /\ forall check, triangle_orthocenter LA (tol_default (N:=RNum)) check t = Raise (ValueError "The lines must not be parallel.").
Proof.
  intros LA HL. exists [100000; 0], [100000; 1], [0; 0]. eexists. split; [apply thin_triangle; auto|]. split; [simpl; lia|]. intro check.
  pose proof (proj2 (triangle_tri _ _ _ _ _ HL (thin_triangle _ HL))) as T.
  unfold triangle_orthocenter. rewrite (altitude_R _ _ _ "A" [100000; 0] [100000; 1] [0; 0] T) by (left; auto).
  rewrite (altitude_R _ _ _ "B" [100000; 1] [0; 0] [100000; 0] T) by (right; left; auto). cbn [bind].
  set (d := sub (lproj _ _ [100000; 0]) [100000; 0]). set (e := sub _ [100000; 1]).
  assert (Ed : d = scale (100000 / 10000000001) [-1; 100000]).
  { unfold d, lproj, scale. simpl. apply (f_equal2 (@cons R)); [field|]. apply (f_equal2 (@cons R)); [field|reflexivity]. }
  assert (Ee : e = [0; -1]).
  { unfold e, lproj, scale. simpl. apply (f_equal2 (@cons R)); [field|]. apply (f_equal2 (@cons R)); [field|reflexivity]. }
  unfold line_intersect_line, line_dim, dim1. cbn [l_point l_dir length Nat.eqb negb Nat.ltb Nat.leb orb].
  assert (N1 : ~ is_zero_vec [-1; 100000]) by (intro Z; apply dot_self_zero_iff in Z; simpl in Z; lra).
  assert (N2 : ~ is_zero_vec [0; -1]) by (intro Z; apply dot_self_zero_iff in Z; simpl in Z; lra).
  assert (Par : is_parallel (N:=RNum) tol_default d e = Ok true).
  { rewrite Ed, Ee. destruct (is_parallel_default (scale (100000 / 10000000001) [-1; 100000]) [0; -1]) as (r & -> & Hr); [reflexivity|discriminate|]. f_equal. apply Hr.
    right. right. split; [apply scale_nonzero; [lra|auto]|]. split; [auto|]. rewrite cosine_scale by (auto; lra).
    assert (E0 : cosine [-1; 100000] [0; -1] = - (100000 / sqrt 10000000001)).
    { unfold cosine, len. simpl. replace (0 * 0 + (-1 * -1 + 0)) with 1 by ring. rewrite sqrt_1. replace (-1 * -1 + (100000 * 100000 + 0)) with 10000000001 by ring. field.
      apply Rgt_not_eq, sqrt_lt_R0. lra. }
    rewrite E0, Rabs_Ropp. assert (Ps : 0 < sqrt 10000000001) by (apply sqrt_lt_R0; lra).
    rewrite Rabs_right by (apply Rle_ge, Rlt_le, Rdiv_lt_0_compat; lra).
    assert (Ub : sqrt 10000000001 <= 100000 + 1 / 100000). { rewrite <- (sqrt_square (100000 + 1 / 100000)) by lra. apply sqrt_le_1_alt. lra. }
    apply Rmult_le_reg_r with (sqrt 10000000001); [auto|]. replace (100000 / sqrt 10000000001 * sqrt 10000000001) with 100000 by (field; lra).
    unfold rel_default. nra. }
  rn. rewrite Par. reflexivity.
Qed.
Print Assumptions C56_thin_triangle_refuted.
Example C56_nonvacuous : exists t x, triangle_new ideal_linalg [0; 0] [1; 0] [0; 1] = Ok t /\ triangle_orthocenter ideal_linalg (MkTol (N:=RNum) 0 0) true t = Ok x.
Proof.
  assert (HL : svd_correct ideal_linalg) by apply ideal_linalg_correct. pose proof (corner_triangle _ HL) as E.
  destruct (C56_orthocenter_returns _ (MkTol (N:=RNum) 0 0) true _ _ _ _ HL ltac:(simpl; lra) ltac:(simpl; lra) E) as (_ & X & _).
  destruct X as (x & X); [simpl; lia|reflexivity|reflexivity|]. eauto.
Qed.

(** ** C57  classify, is_right *)
Lemma isclose_exact (x y : R) : isclose (MkTol (N:=RNum) 0 0) x y = Ok (if Req_EM_T x y then true else false).
Proof.
  destruct (isclose_R (MkTol (N:=RNum) 0 0) x y) as (r & -> & Hr); [split; simpl; lra|]. f_equal. cbn [rel_tol abs_tol] in Hr. rewrite close_exact in Hr.
  destruct (Req_EM_T x y) as [E|E]; [apply Hr; auto|]. destruct r; auto. exfalso. apply E, Hr. auto.
Qed.
Theorem C57_classify_exact : forall LA (a b c : pt) t, svd_correct LA -> triangle_new LA a b c = Ok t ->
  exists k, triangle_classify (MkTol (N:=RNum) 0 0) t = Ok k /\
   (k = "equilateral"%string <-> dist b c = dist c a /\ dist c a = dist a b) /\
   (k = "isosceles"%string <-> (dist b c = dist c a \/ dist c a = dist a b \/ dist a b = dist b c) /\ ~ (dist b c = dist c a /\ dist c a = dist a b)) /\
   (k = "scalene"%string <-> dist b c <> dist c a /\ dist c a <> dist a b /\ dist a b <> dist b c).
Proof.
  intros LA a b c t HL H. apply triangle_tri in H as (-> & T); auto. unfold triangle_classify. rewrite triangle_lengths_R by auto. cbn [bind].
  rewrite !isclose_exact. cbn [bind]. set (x := dist b c). set (y := dist c a). set (z := dist a b).
  destruct (Req_EM_T x y) as [E1|E1], (Req_EM_T x z) as [E2|E2], (Req_EM_T y z) as [E3|E3]; cbn [Nat.add Nat.eqb]; try (exfalso; congruence);
    eexists; (split; [reflexivity|]); (split; [|split]); split; intro H; try discriminate H; try reflexivity;
    repeat match goal with H : _ /\ _ |- _ => destruct H end; try (exfalso; congruence); try (split; congruence).
  - exfalso. apply H0. split; congruence.
  - split; [left; auto|]. intros []; congruence.
  - split; [right; right; congruence|]. intros []; congruence.
  - split; [right; left; auto|]. intros []; congruence.
  - exfalso. destruct H as [H|[H|H]]; congruence.
  - split; [auto|]. split; congruence.
Qed.
Print Assumptions C57_classify_exact.

(** In general the answer counts the pairs of close sides: three - equilateral, one - isosceles, none or two - scalene. *)
Theorem C57_classify_counts : forall LA (tl : tol RNum) (a b c : pt) t, svd_correct LA -> 0 <= rel_tol tl -> 0 <= abs_tol tl -> triangle_new LA a b c = Ok t ->
  let cl := close (rel_tol tl) (abs_tol tl) in
  exists k, triangle_classify tl t = Ok k /\
   (cl (dist b c) (dist c a) /\ cl (dist c a) (dist a b) /\ cl (dist a b) (dist b c) -> k = "equilateral"%string) /\
   (~ cl (dist b c) (dist c a) /\ ~ cl (dist c a) (dist a b) /\ ~ cl (dist a b) (dist b c) -> k = "scalene"%string) /\
   (cl (dist b c) (dist c a) /\ ~ cl (dist c a) (dist a b) /\ ~ cl (dist a b) (dist b c) -> k = "isosceles"%string) /\
   (~ cl (dist b c) (dist c a) /\ cl (dist c a) (dist a b) /\ ~ cl (dist a b) (dist b c) -> k = "isosceles"%string) /\
   (~ cl (dist b c) (dist c a) /\ ~ cl (dist c a) (dist a b) /\ cl (dist a b) (dist b c) -> k = "isosceles"%string).
Proof.
  intros LA tl a b c t HL Hr Ha H cl. apply triangle_tri in H as (-> & T); auto. unfold triangle_classify. rewrite triangle_lengths_R by auto. cbn [bind].
  assert (Ht : tol_ok tl) by (split; auto).
  destruct (isclose_R tl (dist b c) (dist c a) Ht) as (r1 & -> & H1). destruct (isclose_R tl (dist b c) (dist a b) Ht) as (r2 & -> & H2).
  destruct (isclose_R tl (dist c a) (dist a b) Ht) as (r3 & -> & H3). cbn [bind].
  assert (H2' : r2 = true <-> cl (dist a b) (dist b c)) by (rewrite H2; unfold cl; split; apply close_sym).
  fold (cl (dist b c) (dist c a)) in H1. fold (cl (dist c a) (dist a b)) in H3.
  destruct r1, r2, r3; cbn [Nat.add Nat.eqb]; eexists; (split; [reflexivity|]); (split; [|split; [|split; [|split]]]); intros (X1 & X2 & X3);
    try reflexivity; exfalso; rewrite <- ?H1, <- ?H2', <- ?H3 in *; intuition congruence.
Qed.
Print Assumptions C57_classify_counts.

(** Closeness is not transitive: with exactly two close pairs (whichever they are) the answer is 'scalene'. *)
Theorem C57_two_close_pairs : forall LA (tl : tol RNum) (a b c : pt) t, svd_correct LA -> 0 <= rel_tol tl -> 0 <= abs_tol tl -> triangle_new LA a b c = Ok t ->
  let cl := close (rel_tol tl) (abs_tol tl) in
  (cl (dist b c) (dist c a) /\ cl (dist c a) (dist a b) /\ ~ cl (dist a b) (dist b c)) \/
  (cl (dist b c) (dist c a) /\ ~ cl (dist c a) (dist a b) /\ cl (dist a b) (dist b c)) \/
  (~ cl (dist b c) (dist c a) /\ cl (dist c a) (dist a b) /\ cl (dist a b) (dist b c)) ->
  triangle_classify tl t = Ok "scalene"%string.
Proof.
  intros LA tl a b c t HL Hr Ha H cl. apply triangle_tri in H as (-> & T); auto. unfold triangle_classify. rewrite triangle_lengths_R by auto. cbn [bind].
  assert (Ht : tol_ok tl) by (split; auto).
  destruct (isclose_R tl (dist b c) (dist c a) Ht) as (r1 & -> & H1). destruct (isclose_R tl (dist b c) (dist a b) Ht) as (r2 & -> & H2).
  destruct (isclose_R tl (dist c a) (dist a b) Ht) as (r3 & -> & H3). cbn [bind].
  assert (H2' : r2 = true <-> cl (dist a b) (dist b c)) by (rewrite H2; unfold cl; split; apply close_sym).
  fold (cl (dist b c) (dist c a)) in H1. fold (cl (dist c a) (dist a b)) in H3.
  rewrite <- H1, <- H2', <- H3. destruct r1, r2, r3; cbn [Nat.add Nat.eqb]; intro X; try reflexivity; exfalso; intuition congruence.
Qed.
Print Assumptions C57_two_close_pairs.

(** A triangle with legs parallel to the axes is accepted. *)
Lemma axis_triangle LA x y l1 l2 : svd_correct LA -> 1 <= l1 <= 100000 -> 1 <= l2 <= 100000 ->
  triangle_new LA [x; y] [x + l1; y] [x; y + l2] = Ok (MkTriangle (N:=RNum) [x; y] [x + l1; y] [x; y + l2]).
Proof.
  intros HL H1 H2. rewrite triangle_new_unfold by (auto; discriminate). rn. set (ps := [[x; y]; [x + l1; y]; [x; y + l2]]).
  assert (Hok : points_ok 2 ps) by (split; [discriminate|]; split; [lia|repeat constructor]).
  destruct (are_collinear_R LA 2 ps HL Hok) as ([|] & E); rn; rewrite E; [exfalso|reflexivity].
  assert (Hd : forall u v, In u ps -> In v ps -> dist u v <= 200000).
  { intros u v Hu Hv. unfold dist, len. replace 200000 with (sqrt (200000 * 200000)) by (apply sqrt_square; lra).
    assert (l1 * l1 <= 100000 * 100000) by nra. assert (l2 * l2 <= 100000 * 100000) by nra.
    apply sqrt_le_1_alt. unfold ps in Hu, Hv. destruct Hu as [<-|[<-|[<-|[]]]], Hv as [<-|[<-|[<-|[]]]]; simpl; ring_simplify; lra. }
  destruct (C23_default_tests_sound LA 2 ps 200000 HL Hok Hd) as (K & _). specialize (K E). cbv zeta in K. set (eps := _ * 200000) in K.
  assert (P : 0 <= 2 * eps <= 1 / 10).
  { unfold eps. assert (0 < / 2 ^ 52 <= / 1000000000) by (split; [apply Rinv_0_lt_compat, pow_lt; lra|apply Rinv_le_contravar; [lra|simpl; lra]]).
    replace (INR (Nat.max (length ps) 2)) with 3 by (simpl; ring). lra. } clearbody eps.
  destruct (near_flat_direction 2 1 _ ps [] K) as (w & Lw & Uw & _ & B); [apply Hok|auto|simpl; lia|].
  destruct w as [|w1 [|w2 [|]]]; try discriminate.
  assert (B1 := B [x + l1; y] [x; y] ltac:(simpl; auto) ltac:(simpl; auto)).
  assert (B2 := B [x; y + l2] [x; y] ltac:(simpl; auto) ltac:(simpl; auto)).
  set (e2 := 2 * eps) in *. clearbody e2. simpl in Uw, B1, B2. clear - Uw B1 B2 P H1 H2.
  replace ((x + l1 - x) * w1 + ((y - y) * w2 + 0)) with (l1 * w1) in B1 by ring. replace ((x - x) * w1 + ((y + l2 - y) * w2 + 0)) with (l2 * w2) in B2 by ring.
  assert (H : forall l a, 1 <= l -> Rabs (l * a) <= e2 -> a * a <= 1 / 100).
  { intros l a Hl Ha. rewrite Rabs_mult, (Rabs_right l) in Ha by lra. pose proof (Rabs_pos a). assert (a * a = Rabs a * Rabs a) by (unfold Rabs; destruct Rcase_abs; ring).
    assert (Rabs a <= 1 / 10) by nra. nra. }
  pose proof (H l1 w1 ltac:(lra) B1). pose proof (H l2 w2 ltac:(lra) B2). nra.
Qed.
Lemma t345 LA : svd_correct LA -> triangle_new LA [0; 0] [3; 0] [0; 4] = Ok (MkTriangle (N:=RNum) [0; 0] [3; 0] [0; 4]).
Proof. intro HL. pose proof (axis_triangle LA 0 0 3 4 HL ltac:(lra) ltac:(lra)) as E. rewrite !Rplus_0_l in E. exact E. Qed.
Lemma dist345 : dist [3; 0] [0; 4] = 5 /\ dist [0; 4] [0; 0] = 4 /\ dist [0; 0] [3; 0] = 3.
Proof. unfold dist. split; [|split]; apply len_eq_val; try lra; simpl; ring. Qed.

(** Two close pairs of sides: neither 'equilateral' nor 'isosceles', although sides are equal within the tolerance. *)
Theorem C57_two_close_pairs_refuted : forall LA, svd_correct LA -> exists (a b c : pt) t (tl : tol RNum),
  triangle_new LA a b c = Ok t /\ 0 <= rel_tol tl /\ 0 <= abs_tol tl /\
  close (rel_tol tl) (abs_tol tl) (dist b c) (dist c a) /\ close (rel_tol tl) (abs_tol tl) (dist c a) (dist a b) /\
  triangle_classify tl t = Ok "scalene"%string.
Proof.
  intros LA HL. exists [0; 0], [3; 0], [0; 4]. eexists. exists (MkTol (N:=RNum) 0 1). split; [apply t345, HL|].
  pose proof (proj2 (triangle_tri _ _ _ _ _ HL (t345 _ HL))) as T. destruct dist345 as (D1 & D2 & D3).
  cbn [rel_tol abs_tol]. split; [lra|]. split; [lra|]. rewrite D1, D2, D3.
  assert (C1 : close 0 1 5 4). { apply close_alt; try lra. right. right. right. unfold Rabs. destruct Rcase_abs; lra. }
  assert (C2 : close 0 1 4 3). { apply close_alt; try lra. right. right. right. unfold Rabs. destruct Rcase_abs; lra. }
  assert (C3 : ~ close 0 1 5 3). { intro X. apply close_alt in X; try lra. unfold Rabs in X. destruct X as [X|[X|[X|X]]]; repeat destruct Rcase_abs in X; lra. }
  split; [auto|]. split; [auto|].
  unfold triangle_classify. rewrite triangle_lengths_R by auto. cbn [bind]. rewrite D1, D2, D3.
  assert (Ht : tol_ok (MkTol (N:=RNum) 0 1)) by (split; simpl; lra).
  rewrite (proj2 (isclose_true _ 5 4 Ht)) by exact C1. rewrite (proj2 (isclose_false _ 5 3 Ht)) by exact C3. rewrite (proj2 (isclose_true _ 4 3 Ht)) by exact C2. reflexivity.
Qed.
Print Assumptions C57_two_close_pairs_refuted.

Lemma py_sorted3 (x y z : R) : exists u v w, py_sorted (N:=RNum) [x; y; z] = [u; v; w] /\ Permutation [x; y; z] [u; v; w] /\ u <= v /\ v <= w.
Proof.
  unfold py_sorted. cbn [fold_left insert_num]. rops.
  assert (K : forall p q r l : list R, Permutation p l -> True) by auto. clear K.
  destruct (Rltb y x) eqn:E1; cbn [insert_num]; rops; rb;
  repeat match goal with H : Rltb _ _ = true |- _ => apply Rltb_true in H | H : Rltb _ _ = false |- _ => apply Rltb_false in H end;
  do 3 eexists; (split; [reflexivity|]); (split; [|lra]);
  first [ reflexivity | apply perm_swap | apply perm_skip, perm_swap
        | apply (Permutation_cons_append [_; _] _) 
        | symmetry; apply (Permutation_cons_append [_; _] _)
        | symmetry; apply (Permutation_rev [_; _; _]) | apply (Permutation_rev [_; _; _]) | idtac ].
Qed.

(** is_right: the two smaller squared lengths sum to the largest, within tolerance. *)
Theorem C57_is_right : forall LA (tl : tol RNum) (a b c : pt) t, svd_correct LA -> 0 <= rel_tol tl -> 0 <= abs_tol tl -> triangle_new LA a b c = Ok t ->
  exists r, triangle_is_right tl t = Ok r /\
    forall x y z, Permutation [x; y; z] [dist b c; dist c a; dist a b] -> x <= y -> y <= z ->
      (r = true <-> close (rel_tol tl) (abs_tol tl) (x * x + y * y) (z * z)).
Proof.
  intros LA tl a b c t HL Hr Ha H. apply triangle_tri in H as (-> & T); auto. unfold triangle_is_right. rewrite triangle_lengths_R by auto. cbn [bind].
  destruct (py_sorted3 (dist b c) (dist c a) (dist a b)) as (u & v & w & E & HP & H1 & H2). rn. rewrite E.
  destruct (isclose_R tl (u * u + v * v) (w * w)) as (r & Er & K); [split; auto|]. exists r. split; [exact Er|].
  intros x y z HP' H1' H2'. rewrite K. assert (P2 : Permutation [u; v; w] [x; y; z]) by (rewrite HP'; symmetry; exact HP).
  assert (X : u = x /\ v = y /\ w = z).
  { apply perm3 in P2 as [X|[X|[X|[X|[X|X]]]]]; injection X as -> -> ->; split; try split; lra. }
  destruct X as (-> & -> & ->). reflexivity.
Qed.
Print Assumptions C57_is_right.

Lemma right_pythagoras p q r : tri p q r -> (dot (sub q p) (sub r p) = 0 <-> dist p r * dist p r + dist p q * dist p q = dist q r * dist q r).
Proof.
  intros (Np & Lq & Lr & _). destruct (rot_dots p q r Lq Lr) as (E & _ & _). rewrite (dist_sym p r), (dist_sym p q), (dist_sym q r), !dist_sq, E. lra.
Qed.
(** Zero tolerances: exactly the triangles with a right angle. *)
Theorem C57_is_right_exact : forall LA (a b c : pt) t, svd_correct LA -> triangle_new LA a b c = Ok t ->
  exists r, triangle_is_right (MkTol (N:=RNum) 0 0) t = Ok r /\
    (r = true <-> exists v p q s, vertex_named a b c v p q s /\ dot (sub q p) (sub s p) = 0) /\
    (r = true <-> exists v, triangle_angle RTrig t v = Ok (PI / 2)).
Proof.
  intros LA a b c t HL H. destruct (C57_is_right LA (MkTol (N:=RNum) 0 0) a b c t HL ltac:(simpl; lra) ltac:(simpl; lra) H) as (r & Er & K).
  exists r. split; auto. cbn [rel_tol abs_tol] in K. apply triangle_tri in H as (-> & T); auto.
  pose proof (tri_rot _ _ _ T) as T2. pose proof (tri_rot _ _ _ T2) as T3.
  pose proof (tri_dist_pos a b c T) as Pc. pose proof (tri_dist_pos b c a T2) as Pa. pose proof (tri_dist_pos c a b T3) as Pb.
  assert (V : r = true <-> exists v p q s, vertex_named a b c v p q s /\ dot (sub q p) (sub s p) = 0).
  { destruct (py_sorted3 (dist b c) (dist c a) (dist a b)) as (x & y & z & _ & HP & H1 & H2).
    rewrite (K x y z (Permutation_sym HP) H1 H2), close_exact.
    pose proof (right_pythagoras a b c T) as Q1. pose proof (right_pythagoras b c a T2) as Q2. pose proof (right_pythagoras c a b T3) as Q3.
    rewrite (dist_sym a c) in Q1. rewrite (dist_sym b a) in Q2. rewrite (dist_sym c b) in Q3.
    set (x0 := dist b c) in *. set (y0 := dist c a) in *. set (z0 := dist a b) in *. clearbody x0 y0 z0.
    assert (Sym : (exists v p q s, vertex_named a b c v p q s /\ dot (sub q p) (sub s p) = 0) <->
                  (y0 * y0 + z0 * z0 = x0 * x0 \/ z0 * z0 + x0 * x0 = y0 * y0 \/ x0 * x0 + y0 * y0 = z0 * z0)).
    { split.
      - intros (v & p & q & s & [(-> & -> & -> & ->)|[(-> & -> & -> & ->)|(-> & -> & -> & ->)]] & D); [apply Q1 in D|apply Q2 in D|apply Q3 in D]; lra.
      - intros [D|[D|D]].
        + exists "A"%string, a, b, c. split; [left; auto|]. apply Q1. lra.
        + exists "B"%string, b, c, a. split; [right; left; auto|]. apply Q2. lra.
        + exists "C"%string, c, a, b. split; [right; right; auto|]. apply Q3. lra. }
    rewrite Sym. clear - HP H1 H2 Pa Pb Pc.
    apply perm3 in HP as [X|[X|[X|[X|[X|X]]]]]; injection X as -> -> ->; split; intro D; try lra; destruct D as [D|[D|D]]; nra. }
  split; auto. rewrite V. split.
  - intros (v & p & q & s & Hv & D). pose proof (named_tri _ _ _ _ _ _ _ T Hv) as T'. exists v. rewrite (triangle_angle_R a b c v p q s T Hv). f_equal.
    pose proof (cosine_strict p q s T'). apply acos_PI2_iff; [lra|]. apply cosine_zero; [apply (tri_ne _ _ _ T')|apply (tri_ne2 _ _ _ T')|auto].
  - intros (v & E). assert (Hv : is_vertex_name v).
    { destruct (string_dec v "A") as [->|V1]; [left; auto|]. destruct (string_dec v "B") as [->|V2]; [right; left; auto|]. destruct (string_dec v "C") as [->|V3]; [right; right; auto|].
      exfalso. unfold triangle_angle in E. rewrite triangle_lengths_R in E by auto. cbn [bind] in E. rewrite !eqb_neq in E by auto. discriminate. }
    assert (Hn : exists p q s, vertex_named a b c v p q s).
    { destruct Hv as [->|[->| ->]]; [exists a, b, c; left|exists b, c, a; right; left|exists c, a, b; right; right]; auto. }
    destruct Hn as (p & q & s & Hn). exists v, p, q, s. split; auto. pose proof (named_tri _ _ _ _ _ _ _ T Hn) as T'. pose proof (cosine_strict p q s T').
    rewrite (triangle_angle_R a b c v p q s T Hn) in E. injection E as E. apply acos_PI2_iff in E; [|lra].
    apply cosine_zero in E; auto; [apply (tri_ne _ _ _ T')|apply (tri_ne2 _ _ _ T')].
Qed.
Print Assumptions C57_is_right_exact.
Example C57_nonvacuous : exists t, triangle_new ideal_linalg [0; 0] [3; 0] [0; 4] = Ok t /\ triangle_is_right (MkTol (N:=RNum) 0 0) t = Ok true /\ triangle_classify (MkTol (N:=RNum) 0 0) t = Ok "scalene"%string.
Proof.
  assert (HL : svd_correct ideal_linalg) by apply ideal_linalg_correct. eexists. split; [apply t345, HL|]. destruct dist345 as (D1 & D2 & D3). split.
  - destruct (C57_is_right_exact _ _ _ _ _ HL (t345 _ HL)) as (r & -> & K & _). f_equal. apply K. exists "A"%string, [0; 0], [3; 0], [0; 4]. split; [left; auto|]. simpl. ring.
  - destruct (C57_classify_exact _ _ _ _ _ HL (t345 _ HL)) as (k & -> & _ & _ & K). f_equal. apply K. rewrite D1, D2, D3. lra.
Qed.

(** ** C58  centroid *)
Theorem C58_centroid : forall LA (a b c : pt) t, svd_correct LA -> triangle_new LA a b c = Ok t ->
  exists g, triangle_centroid t = Ok g /\ g = scale (1 / 3) (add a (add b c)) /\
    (forall v p q r, vertex_named a b c v p q r ->
       let m := add q (scale (1 / 2) (sub r q)) in
       on_segment p m g /\ dist p g = 2 * dist g m /\ g = add p (scale (2 / 3) (sub m p))) /\
    ~ on_line a (sub b a) g /\ ~ on_line b (sub c b) g /\ ~ on_line c (sub a c) g.
Proof.
  intros LA a b c t HL H. apply triangle_tri in H as (-> & T); auto. pose proof T as (Na & Lb & Lc & G).
  exists (scale (1 / 3) (add a (add b c))).
  assert (M : forall p q r, tri p q r -> let m := add q (scale (1 / 2) (sub r q)) in let g := scale (1 / 3) (add p (add q r)) in
     on_segment p m g /\ dist p g = 2 * dist g m /\ g = add p (scale (2 / 3) (sub m p))).
  { intros p q r T' m g. pose proof T' as (Np & Lq & Lr & _). assert (Lm : length m = length p) by (unfold m; len). assert (Lg : length g = length p) by (unfold g; len).
    assert (E : g = add p (scale (2 / 3) (sub m p))). { unfold g, m. apply pt_ext; [len|]. intros i _. repeat rewrite ?nth_add, ?nth_scale, ?nth_sub by len. field. }
    split; [exists (2 / 3); split; [lra|auto]|]. split; [|auto].
    assert (E1 : sub p g = scale (- 2 / 3) (sub m p)). { rewrite E. apply pt_ext; [len|]. intros i _. repeat rewrite ?nth_add, ?nth_scale, ?nth_sub by len. field. }
    assert (E2 : sub g m = scale (- 1 / 3) (sub m p)). { rewrite E. apply pt_ext; [len|]. intros i _. repeat rewrite ?nth_add, ?nth_scale, ?nth_sub by len. field. }
    unfold dist. rewrite E1, E2, !len_scale. rewrite !Rabs_left by lra. field. }
  assert (O : forall p q r, tri p q r -> ~ on_line p (sub q p) (scale (1 / 3) (add p (add q r)))).
  { intros p q r T' (s & Es). pose proof T' as (Np & Lq & Lr & G'). assert (gram (sub q p) (sub r p) = 0); [|lra]. apply gram_zero; [len|].
    right. exists (3 * s - 1). apply pt_ext; [len|]. intros i _.
    assert (Ei : nth i (scale (1 / 3) (add p (add q r))) 0 = nth i (add p (scale s (sub q p))) 0) by (rewrite Es; auto).
    repeat rewrite ?nth_add, ?nth_scale, ?nth_sub in Ei by len. repeat rewrite ?nth_scale, ?nth_sub by len. lra. }
  pose proof (tri_rot _ _ _ T) as T2. pose proof (tri_rot _ _ _ T2) as T3.
  assert (P2 : add b (add c a) = add a (add b c)) by (rewrite <- (add_assoc b c a), add_comm; auto).
  assert (P3 : add c (add a b) = add a (add b c)) by (rewrite (add_comm c), add_assoc; auto).
  split; [|split; [reflexivity|split; [|split; [|split]]]].
  - unfold triangle_centroid. cbn [t_a t_b t_c]. change (points_of (N:=RNum) [a; b; c]) with (points_of (N:=RNum) ([a; b; c] : list pt)). rn. rewrite (points_of_R [a; b; c] (length a)); [|discriminate|destruct a; [contradiction|simpl; lia]|repeat constructor; auto].
    cbn [bind]. rewrite (centroid_R (length a)) by (apply tri_points_ok; auto). f_equal. unfold cent, vsum. cbn [fold_right length].
    rewrite add_origin_r by auto. f_equal. simpl. lra.
  - intros v p q r Hv. pose proof (M p q r (named_tri _ _ _ _ _ _ _ T Hv)) as K. cbv zeta in K.
    replace (add p (add q r)) with (add a (add b c)) in K; [exact K|].
    destruct Hv as [(-> & -> & -> & ->)|[(-> & -> & -> & ->)|(-> & -> & -> & ->)]]; auto.
  - apply (O a b c T).
  - rewrite <- P2. apply (O b c a T2).
  - rewrite <- P3. apply (O c a b T3).
Qed.
Print Assumptions C58_centroid.
Example C58_nonvacuous : exists t, triangle_new ideal_linalg [0; 0] [3; 0] [0; 4] = Ok t /\ triangle_centroid t = Ok [1; 4 / 3].
Proof.
  assert (HL : svd_correct ideal_linalg) by apply ideal_linalg_correct. eexists. split; [apply t345, HL|].
  destruct (C58_centroid _ _ _ _ _ HL (t345 _ HL)) as (g & -> & -> & _). f_equal. unfold scale. simpl. apply (f_equal2 (@cons R)); [field|]. apply (f_equal2 (@cons R)); [field|reflexivity].
Qed.
