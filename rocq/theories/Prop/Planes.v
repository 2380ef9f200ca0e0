(** * Properties C34-C39, C42: objects/plane.py *)
From Coq Require Import String Reals List ZArith Lra Lia Psatz Bool.
From Verif.Model Require Import Outcome Num Instances Numpy BaseArray Vector Points Functions Line Plane.
From Verif.Spec Require Import Geometry Tolerance.
From Verif.Proof Require Import VecAlg Bridge Arrays Vectors Points Lines Mesh.
Import ListNotations.
Local Open Scope R_scope.

(** ** C34  construction *)
Theorem C34_plane_construction : forall (p n : pt),
  (forall pl, plane_new (N:=RNum) p n = Ok pl <->
     pl = MkPlane p n /\ length p = length n /\ ~ is_zero_vec n /\ p <> []) /\
  (~ (length p = length n /\ ~ is_zero_vec n /\ p <> []) -> exists m, plane_new (N:=RNum) p n = Raise (ValueError m)).
Proof.
  intros p n. split.
  - intro pl. split; [apply plane_new_inv|]. intros (-> & H). apply plane_new_R; auto.
  - intro H. destruct (check_point_vector_raise p n H) as [m E]. unfold plane_new. rewrite E. eexists; reflexivity.
Qed.
Print Assumptions C34_plane_construction.

(** A 3D vector orthogonal to a x b is a combination of a and b. *)
Lemma span_of_perp a b w : length a = 3%nat -> length b = 3%nat -> length w = 3%nat -> ~ is_zero_vec (cross_spec a b) ->
  dot w (cross_spec a b) = 0 -> exists s t, w = add (scale s a) (scale t b).
Proof.
  intros La Lb Lw Hz Hd. pose proof (dot_self_pos _ Hz) as P. set (c := cross_spec a b) in *.
  exists (dot (cross_spec w b) c / dot c c), (dot (cross_spec a w) c / dot c c).
  assert (E : scale (dot c c) w = add (add (scale (dot (cross_spec w b) c) a) (scale (dot (cross_spec a w) c) b)) (scale (dot w c) c)).
  { unfold c. clear -La Lb Lw. d3. unfold cross_spec, scale, dot, add. simpl. veq. }
  rewrite Hd, scale_0 in E. rewrite add_origin_r in E by (unfold c; rewrite length_cross by auto; len).
  apply (f_equal (scale (/ dot c c))) in E. rewrite scale_scale, Rinv_l, scale_1 in E by lra. rewrite E at 1.
  rewrite scale_add, !scale_scale. unfold Rdiv. f_equal; f_equal; ring.
Qed.
Lemma plane_span p a b x : length p = 3%nat -> length a = 3%nat -> length b = 3%nat -> ~ is_zero_vec (cross_spec a b) ->
  (on_plane p (cross_spec a b) x <-> exists s t, x = add (add p (scale s a)) (scale t b)).
Proof.
  intros Lp La Lb Hz. split.
  - intros [Lx E]. destruct (span_of_perp a b (sub x p)) as (s & t & Q); auto; [len|]. exists s, t.
    rewrite add_assoc, <- Q. symmetry. apply add_sub_cancel. auto.
  - intros (s & t & ->). split; [len|]. rewrite add_assoc, sub_add_cancel by len. rewrite dot_add_l by len.
    rewrite !dot_scale_l. rewrite (dot_comm a), (dot_comm b), cross_dot_l, cross_dot_r by auto. ring.
Qed.
Lemma pad_scale n s a : pad_to n (scale s a) = scale s (pad_to n a).
Proof.
  unfold pad_to, scale. rewrite map_app, map_length. f_equal. rewrite map_repeat || idtac.
  generalize (n - length a)%nat. intro k. induction k; simpl; auto. rewrite <- IHk. f_equal. ring.
Qed.
Lemma pad_dot n a b : length a = length b -> dot (pad_to n a) (pad_to n b) = dot a b.
Proof. intro H. unfold pad_to. rewrite dot_app by auto. rewrite H. change (repeat 0 (n - length b)) with (origin (n - length b)). rewrite dot_origin_l. ring. Qed.
Lemma pad_dependent n a b : length a = length b -> (dependent (pad_to n a) (pad_to n b) <-> dependent a b).
Proof. intro H. rewrite !dependent_sq by len. rewrite !pad_dot by auto. tauto. Qed.
Lemma pad_sub n a b : length a = length b -> pad_to n (sub a b) = sub (pad_to n a) (pad_to n b).
Proof.
  intro H. apply pt_ext; [len|]. intros i _. rewrite nth_sub by len. unfold pad_to. rewrite H, length_sub, H, Nat.min_id.
  destruct (Nat.lt_ge_cases i (length b)) as [K|K].
  - rewrite !app_nth1 by len. rewrite nth_sub by auto. ring.
  - rewrite !app_nth2 by len. rewrite length_sub, H, Nat.min_id. change (repeat 0 (n - length b)) with (origin (n - length b)). rewrite nth_origin. ring.
Qed.
Lemma set_dimension3_R (p : pt) : p <> [] -> (length p <= 3)%nat -> set_dimension1 (N:=RNum) p 3 = Ok (pad_to 3 p).
Proof.
  intros Hp L. unfold set_dimension1, dim1. rn. destruct (Z.ltb_spec 3 (Z.of_nat (length p))); [lia|].
  change (array1d_new (N:=RNum) (nd_of_vec ?x)) with (point_of (N:=RNum) x). unfold pad. simpl Z.to_nat.
  apply point_of_R. destruct p; [contradiction|discriminate].
Qed.
Lemma set_dimension3_err {N : Num} (p : vec N) : (3 < length p)%nat -> set_dimension1 p 3 = Raise err_dim_less.
Proof. intros L. unfold set_dimension1, dim1. destruct (Z.ltb_spec 3 (Z.of_nat (length p))); [auto|lia]. Qed.

(** The normal is non-zero whenever the parallelism test says False. *)
Lemma not_parallel_independent (t : tol RNum) a b : tol_ok t -> length a = length b -> a <> [] ->
  is_parallel t a b = Ok false -> ~ dependent a b.
Proof. intros Ht L Ha E D. rewrite is_parallel_dependent in E by auto. discriminate. Qed.

Lemma from_vectors_inv (t : tol RNum) (p a b : pt) pl : tol_ok t -> plane_from_vectors (N:=RNum) t p a b = Ok pl ->
  length a = length b /\ (length a <= 3)%nat /\ (length p <= 3)%nat /\ p <> [] /\ a <> [] /\ ~ dependent a b /\
  is_parallel t a b = Ok false /\
  pl = MkPlane (pad_to 3 p) (cross_spec (pad_to 3 a) (pad_to 3 b)).
Proof.
  intros Ht H. unfold plane_from_vectors in H. inv_bind H. apply vector_of_inv in E as (-> & Ha & _).
  apply bind_ok_inv in H as (par & Ep & H). destruct par; [discriminate|].
  apply bind_ok_inv in H as (nn & Ec & H). apply bind_ok_inv in H as (pp & E & H). apply point_of_inv in E as (-> & Hp & _).
  apply bind_ok_inv in H as (p3 & E & H).
  assert (Hb : b <> []). { intro; subst b. unfold cross in Ec. inv_bind Ec. cbn in Ec. discriminate. }
  assert (L : length a = length b).
  { destruct (Nat.eq_dec (length a) (length b)) as [|NE]; auto. exfalso.
    unfold is_parallel, por in Ep. destruct (is_zero_R t a Ht) as (ra & Ea & Ka). rewrite Ea in Ep. cbn [bind] in Ep. destruct ra; [discriminate|].
    rewrite vector_of_R in Ep by auto. cbn [bind] in Ep. destruct (is_zero_R t b Ht) as (rb & Eb & Kb). rewrite Eb in Ep. cbn [bind] in Ep. destruct rb; [discriminate|].
    rewrite cosine_R_mismatch in Ep; auto; [discriminate| |].
    - intro Z. assert (false = true) by (apply Ka; apply zero_close_zero; auto). discriminate.
    - intro Z. assert (false = true) by (apply Kb; apply zero_close_zero; auto). discriminate. }
  destruct (Nat.le_gt_cases (length a) 3) as [La|La].
  2:{ destruct (cross_err_l a b La) as [m K]. rn. congruence. }
  rewrite cross_R in Ec by (auto; lia). injection Ec as <-.
  destruct (Nat.le_gt_cases (length p) 3) as [Lp|Lp].
  2:{ rewrite set_dimension3_err in E by auto. discriminate. }
  rewrite set_dimension3_R in E by auto. injection E as <-. apply plane_new_inv in H as (-> & _).
  repeat (split; [auto|]); auto. apply (not_parallel_independent t); auto.
Qed.
Lemma pad_cross_nonzero a b : length a = length b -> (length a <= 3)%nat -> ~ dependent a b ->
  ~ is_zero_vec (cross_spec (pad_to 3 a) (pad_to 3 b)).
Proof. intros L L3 D. rewrite cross_zero_iff by len. rewrite pad_dependent; auto. Qed.

Theorem C34_from_vectors_sound : forall (t : tol RNum) (p a b : pt) pl, 0 <= rel_tol t -> 0 <= abs_tol t ->
  plane_from_vectors (N:=RNum) t p a b = Ok pl ->
  pl_point pl = pad_to 3 p /\ length (pl_normal pl) = 3%nat /\ ~ is_zero_vec (pl_normal pl) /\
  dot (pl_normal pl) (pad_to 3 a) = 0 /\ dot (pl_normal pl) (pad_to 3 b) = 0 /\
  forall x, on_plane (pl_point pl) (pl_normal pl) x <->
            exists u v, x = add (add (pad_to 3 p) (scale u (pad_to 3 a))) (scale v (pad_to 3 b)).
Proof.
  intros t p a b pl H1 H2 H. apply from_vectors_inv in H as (L & La & Lp & Hp & Ha & D & _ & ->); [|split; auto].
  cbn [pl_point pl_normal]. split; auto. split; [apply length_cross; len|]. split; [apply pad_cross_nonzero; auto|].
  split; [apply cross_dot_l; len|]. split; [apply cross_dot_r; len|].
  intro x. apply plane_span; try len. apply pad_cross_nonzero; auto.
Qed.
Print Assumptions C34_from_vectors_sound.

(** When it succeeds, and that every failure is a ValueError. *)
Theorem C34_from_vectors_total : forall (t : tol RNum) (p a b : pt), 0 <= rel_tol t -> 0 <= abs_tol t ->
  (dependent a b -> exists m, plane_from_vectors (N:=RNum) t p a b = Raise (ValueError m)) /\
  (p <> [] -> (length p <= 3)%nat -> a <> [] -> length a = length b -> (length a <= 3)%nat ->
     is_parallel t a b = Ok false -> exists pl, plane_from_vectors (N:=RNum) t p a b = Ok pl) /\
  ((exists pl, plane_from_vectors (N:=RNum) t p a b = Ok pl) \/ exists m, plane_from_vectors (N:=RNum) t p a b = Raise (ValueError m)).
Proof.
  intros t p a b H1 H2. assert (Ht : tol_ok t) by (split; auto).
  assert (T : (exists pl, plane_from_vectors (N:=RNum) t p a b = Ok pl) \/ exists m, plane_from_vectors (N:=RNum) t p a b = Raise (ValueError m)).
  { unfold plane_from_vectors. destruct a as [|a0 a]; [right; eexists; reflexivity|]. set (a' := a0 :: a) in *. assert (Ha : a' <> []) by discriminate.
    rewrite vector_of_R by auto. cbn [bind].
    destruct (Nat.eq_dec (length a') (length b)) as [L|NE].
    - destruct (is_parallel_R t a' b Ht L Ha) as (r & Er & _). rewrite Er. cbn [bind]. destruct r; [right; eexists; reflexivity|].
      assert (Hb : b <> []) by (destruct b; [discriminate|congruence]).
      destruct (Nat.le_gt_cases (length a') 3) as [La|La].
      2:{ destruct (cross_err_l a' b La) as [m K]. rewrite K. right; eexists; reflexivity. }
      rewrite cross_R by (auto; lia). cbn [bind]. destruct p as [|p0 p]; [right; eexists; reflexivity|]. set (p' := p0 :: p). assert (Hp : p' <> []) by discriminate.
      rewrite point_of_R by auto. cbn [bind]. destruct (Nat.le_gt_cases (length p') 3) as [Lp|Lp].
      + rewrite set_dimension3_R by auto. cbn [bind]. left. eexists. apply plane_new_R. split; [rewrite length_cross by len; len|].
        split; [apply pad_cross_nonzero; auto; apply (not_parallel_independent t); auto|destruct p'; [contradiction|discriminate]].
      + rewrite set_dimension3_err by auto. right; eexists; reflexivity.
    - unfold is_parallel, por. destruct (is_zero_R t a' Ht) as (ra & -> & Ka). cbn [bind]. destruct ra; [right; eexists; reflexivity|].
      destruct b as [|b0 b]; [right; eexists; reflexivity|]. set (b' := b0 :: b) in *. assert (Hb : b' <> []) by discriminate.
      rewrite vector_of_R by auto. cbn [bind]. destruct (is_zero_R t b' Ht) as (rb & -> & Kb). cbn [bind]. destruct rb; [right; eexists; reflexivity|].
      rewrite cosine_R_mismatch; auto; [right; eexists; reflexivity| |].
      + intro Z. assert (false = true) by (apply Ka; apply zero_close_zero; auto). discriminate.
      + intro Z. assert (false = true) by (apply Kb; apply zero_close_zero; auto). discriminate. }
  split; [|split; auto].
  - intro D. destruct T as [[pl E]|]; auto. exfalso. apply from_vectors_inv in E as (_ & _ & _ & _ & _ & K & _); auto.
  - intros Hp Lp Ha L La E. destruct T as [|[m K]]; auto. exfalso. revert K. unfold plane_from_vectors.
    assert (Hb : b <> []) by (destruct a, b; simpl in *; congruence).
    rewrite vector_of_R by auto. cbn [bind]. rewrite E. cbn [bind]. rewrite cross_R by (auto; lia). cbn [bind]. rewrite point_of_R by auto. cbn [bind].
    rewrite set_dimension3_R by auto. cbn [bind]. rewrite plane_new_R; [discriminate|]. split; [rewrite length_cross by len; len|].
    split; [apply pad_cross_nonzero; auto; apply (not_parallel_independent t); auto|destruct p; [contradiction|discriminate]].
Qed.
Print Assumptions C34_from_vectors_total.

Lemma collinear3_dependent a b c : length b = length a -> length c = length a -> collinear [a; b; c] -> dependent (sub b a) (sub c a).
Proof.
  intros Lb Lc (p & d & L & H). destruct (H a) as [s Ha]; [simpl; auto|]. destruct (H b) as [u Hb]; [simpl; auto|]. destruct (H c) as [v Hc]; [simpl; auto|].
  assert (Eb : sub b a = scale (u - s) d). { rewrite Ha, Hb. rewrite sub_add_add by len. rewrite <- scale_minus. reflexivity. }
  assert (Ec : sub c a = scale (v - s) d). { rewrite Ha, Hc. rewrite sub_add_add by len. rewrite <- scale_minus. reflexivity. }
  rewrite Eb, Ec. destruct (Req_dec (u - s) 0) as [Z|Z].
  - left. exists 0. rewrite Z, !scale_scale, Rmult_0_l. reflexivity.
  - right. exists ((v - s) / (u - s)). rewrite scale_scale. f_equal. field. auto.
Qed.

(** Whatever the numerical rank routine answers. *)
Theorem C34_from_points_sound : forall (LA : linalg RNum) (tolerance : option R) (a b c : pt) pl,
  plane_from_points (N:=RNum) LA tolerance a b c = Ok pl ->
  let a3 := pad_to 3 a in let b3 := pad_to 3 b in let c3 := pad_to 3 c in
  length a = length b /\ length b = length c /\ (length a <= 3)%nat /\ ~ collinear [a; b; c] /\
  pl_point pl = a3 /\ pl_normal pl = cross_spec (sub b3 a3) (sub c3 a3) /\ ~ is_zero_vec (pl_normal pl) /\
  on_plane (pl_point pl) (pl_normal pl) a3 /\ on_plane (pl_point pl) (pl_normal pl) b3 /\ on_plane (pl_point pl) (pl_normal pl) c3 /\
  forall x, on_plane (pl_point pl) (pl_normal pl) x <-> exists u v, x = add (add a3 (scale u (sub b3 a3))) (scale v (sub c3 a3)).
Proof.
  intros LA tolerance a b c pl H a3 b3 c3. unfold plane_from_points in H. inv_bind H.
  apply points_of_inv in E as (-> & Hne & Hd & F & _). cbn [dim2] in Hd, F. rn.
  inversion F as [|? ? _ F1]; subst. inversion F1 as [|? ? Lb F2]; subst. inversion F2 as [|? ? Lc _]; subst.
  apply bind_ok_inv in H as (col & _ & H). destruct col; [discriminate|]. assert (Ha : a <> []) by (destruct a; simpl in *; [lia|discriminate]).
  rewrite !from_points_R in H by auto. cbn [bind] in H.
  pose proof (from_vectors_inv _ _ _ _ _ tol_default_ok H) as (L & L3 & Lp & _ & Hs & D & _ & ->).
  apply C34_from_vectors_sound in H as (_ & _ & Hz & Ha' & Hb' & S); try apply tol_default_ok.
  cbn [pl_point pl_normal] in *. rewrite !pad_sub in * by auto. fold a3 b3 c3 in Hz, Ha', Hb', S |- *.
  assert (L3a : length a3 = 3%nat) by (unfold a3; len). assert (L3b : length b3 = 3%nat) by (unfold b3; len). assert (L3c : length c3 = 3%nat) by (unfold c3; len).
  split; [auto|]. split; [congruence|]. split; [auto|]. split; [intro C; apply D; apply collinear3_dependent; auto|].
  split; [auto|]. split; [auto|]. split; [auto|].
  split; [split; auto; rewrite sub_self, dot_origin_l; auto|].
  split; [split; [congruence|]; rewrite dot_comm; auto|].
  split; [split; [congruence|]; rewrite dot_comm; auto|]. exact S.
Qed.
Print Assumptions C34_from_points_sound.

Corollary C34_from_points_collinear_never_ok : forall (LA : linalg RNum) (tolerance : option R) (a b c : pt) pl,
  collinear [a; b; c] -> plane_from_points (N:=RNum) LA tolerance a b c <> Ok pl.
Proof. intros LA tolerance a b c pl C E. apply C34_from_points_sound in E as (_ & _ & _ & K & _). auto. Qed.
Print Assumptions C34_from_points_collinear_never_ok.

Lemma e12_not_parallel : is_parallel (N:=RNum) tol_default [1; 0; 0] [0; 1; 0] = Ok false.
Proof.
  destruct (is_parallel_default [1; 0; 0] [0; 1; 0]) as (r & -> & E); [reflexivity|discriminate|]. f_equal.
  destruct r; auto. exfalso. destruct E as [E _]. destruct (E eq_refl) as [Z|[Z|(_ & _ & K)]]; [inversion Z; lra|inversion Z; lra|].
  revert K. unfold cosine. simpl. replace (1 * 0 + (0 * 1 + (0 * 0 + 0))) with 0 by ring. unfold Rdiv. rewrite Rmult_0_l, Rabs_R0.
  pose proof rel_default_bounds. lra.
Qed.
Example C34_nonvacuous : exists pl, plane_from_vectors (N:=RNum) tol_default [1; 2] [1; 0; 0] [0; 1; 0] = Ok pl /\
  on_plane (pl_point pl) (pl_normal pl) [5; 7; 0].
Proof.
  destruct (C34_from_vectors_total tol_default [1; 2] [1; 0; 0] [0; 1; 0]) as (_ & K & _); try apply tol_default_ok.
  destruct K as [pl E]; try discriminate; simpl; try lia; [apply e12_not_parallel|]. exists pl. split; auto.
  apply C34_from_vectors_sound in E as (_ & _ & _ & _ & _ & S); try apply tol_default_ok. apply S. exists 4, 5. unfold pad_to, scale; simpl. veq.
Qed.

(** ** C35  cartesian *)
Theorem C35_cartesian : forall (p n : pt) (pl : plane RNum), plane_new (N:=RNum) p n = Ok pl -> (length p <= 3)%nat ->
  exists a b c d, plane_cartesian pl = Ok (a, b, c, d) /\ [a; b; c] = pad_to 3 n /\
    (forall x y z, on_plane (pad_to 3 p) (pad_to 3 n) [x; y; z] <-> a * x + b * y + c * z + d = 0) /\
    (forall q, length q = length p -> (on_plane p n q <->
       let q3 := pad_to 3 q in a * nth 0 q3 0 + b * nth 1 q3 0 + c * nth 2 q3 0 + d = 0)).
Proof.
  intros p n pl H L3. apply plane_new_inv in H as (-> & L & Hz & Hp). unfold plane_cartesian, plane_dim, dim1. cbn [pl_point pl_normal]. rn.
  destruct (Nat.ltb_spec 3 (length p)); [lia|]. rewrite set_dimension3_R by (try congruence; apply not_zero_nonempty; auto). cbn [bind].
  rewrite np_dot_R by auto. cbn [bind].
  destruct (list3 (pad_to 3 n)) as (a & b & c & E); [len|]. rewrite E. exists a, b, c, (- dot n p). split; [reflexivity|]. split; [auto|].
  assert (A : forall x y z, on_plane (pad_to 3 p) (pad_to 3 n) [x; y; z] <-> a * x + b * y + c * z + - dot n p = 0).
  { intros x y z. rewrite <- (pad_dot 3 n p) by auto. unfold on_plane. rewrite length_pad_to. destruct (list3 (pad_to 3 p)) as (u & v & w & Q); [len|].
    rewrite E, Q. rewrite Nat.max_l by lia. simpl. split; [intros [_ K]; lra|intro K; split; [auto|lra]]. }
  split; [rewrite <- E; exact A|]. intros q Lq. cbv zeta. set (q3 := pad_to 3 q). assert (Lq3 : length q3 = 3%nat) by (unfold q3; len). destruct (list3 q3 Lq3) as (x & y & z & Q). rewrite Q. cbn [nth].
  rewrite <- A, <- Q. unfold on_plane, q3. rewrite <- pad_sub by auto. rewrite pad_dot by len. rewrite !length_pad_to. split; intros [? ?]; split; auto; congruence.
Qed.
Print Assumptions C35_cartesian.
Theorem C35_cartesian_high_dim : forall (N : Num) (pl : plane N), (3 < length (pl_point pl))%nat ->
  plane_cartesian pl = Raise (ValueError "The plane dimension must be <= 3.").
Proof. intros N pl H. unfold plane_cartesian, plane_dim, dim1. destruct (Nat.ltb_spec 3 (length (pl_point pl))); [auto|lia]. Qed.
Print Assumptions C35_cartesian_high_dim.
Example C35_nonvacuous : exists pl, plane_new (N:=RNum) [1; 1] [2; 3] = Ok pl /\ plane_cartesian pl = Ok (2, 3, 0, -5).
Proof.
  assert (K : pv_ok [1; 1] [2; 3]) by (split; [reflexivity|split; [intro Z; inversion Z; lra|discriminate]]).
  exists (MkPlane (N:=RNum) [1; 1] [2; 3]). split; [apply plane_new_R; auto|].
  destruct (C35_cartesian [1; 1] [2; 3] _ (plane_new_R _ _ K)) as (a & b & c & d & E & P & S & _); [simpl; lia|]. rewrite E.
  unfold pad_to in P. simpl in P. injection P as -> -> ->. destruct (S 1 1 0) as [S1 _].
  assert (d = -5). { assert (2 * 1 + 3 * 1 + 0 * 0 + d = 0) by (apply S1; split; [reflexivity|unfold pad_to; simpl; ring]). lra. }
  subst d. reflexivity.
Qed.

(** ** C36  projection of points *)
Theorem C36_project_point : forall (p n q : pt) (pl : plane RNum), plane_new (N:=RNum) p n = Ok pl -> length q = length p ->
  exists m, plane_project_point pl q = Ok m /\ on_plane p n m /\
    (forall y, on_plane p n y -> y <> m -> dist q m < dist q y) /\
    (exists s, sub q m = scale s n) /\ plane_project_point pl m = Ok m /\ (on_plane p n q -> m = q).
Proof.
  intros p n q pl H Lq. apply plane_new_inv in H as (-> & H). pose proof H as (L & Hz & Hp). exists (pproj p n q).
  rewrite !plane_project_point_R by (auto; rewrite length_pproj; congruence).
  split; auto. split; [apply pproj_on; auto|]. split; [intros; apply pproj_nearest; auto|]. split; [eexists; apply pproj_diff; auto|].
  split; [rn; f_equal; apply pproj_fix; auto using pproj_on|]. apply pproj_fix; auto.
Qed.
Print Assumptions C36_project_point.

Lemma mapM_combine {A B C} (f : A -> B) (g : B * A -> res C) (h : A -> C) (l : list A) :
  (forall x, In x l -> g (f x, x) = Ok (h x)) -> mapM g (combine (map f l) l) = Ok (map h l).
Proof. induction l; simpl; intro H; auto. rewrite H by auto. cbn [bind]. rewrite IHl by auto. reflexivity. Qed.

Theorem C36_project_points_rowwise : forall (p n : pt) (pl : plane RNum) (ps : list pt),
  plane_new (N:=RNum) p n = Ok pl -> points_ok (length p) ps ->
  exists ms, plane_project_points pl ps = Ok ms /\ mapM (plane_project_point pl) ps = Ok ms /\ length ms = length ps.
Proof.
  intros p d pl ps H (Hne & Hd & F). apply plane_new_inv in H as (-> & H). pose proof H as (L & Hz & Hp). exists (map (pproj p d) ps).
  pose proof (len_pos d Hz) as P.
  assert (Fr : forall r, In r ps -> length r = length p) by (rewrite Forall_forall in F; auto).
  split; [|split; [apply mapM_map; intros; apply plane_project_point_R; auto|apply map_length]].
  unfold plane_project_points. cbn [pl_point pl_normal]. rewrite (as2d_R ps (length p)) by auto. cbn [bind].
  rewrite (mapM_map _ (fun r => sub p r)). 2:{ intros r Hr. rewrite bcast_eq by (symmetry; apply Fr; auto). rops. rewrite map2_sub. reflexivity. }
  cbn [bind]. rewrite unit_R by auto. cbn [bind].
  rewrite (mapM_map _ (fun v => dot v (scale (/ len d) d))).
  2:{ intros v Hv. apply in_map_iff in Hv as (r & <- & Hr). apply np_dot_R. specialize (Fr r Hr). len. }
  cbn [bind]. rewrite map_map. rewrite (mapM_combine _ _ (pproj p d)).
  2:{ intros r Hr. cbn [fst snd]. rewrite vscale_scale. specialize (Fr r Hr). rewrite bcast_eq by len. rops. rewrite map2_add. f_equal.
      unfold pproj. rewrite add_comm. f_equal. rewrite scale_scale, dot_scale_r, (dot_comm d). f_equal. rewrite <- len_sq. field. lra. }
  cbn [bind]. apply (points_of_R _ (length p)); auto.
  - destruct ps; [contradiction|discriminate].
  - apply Forall_map. apply Forall_forall. intros r Hr. rewrite length_pproj; [auto|]. rewrite Fr; auto.
Qed.
Print Assumptions C36_project_points_rowwise.
Example C36_nonvacuous : exists pl, plane_new (N:=RNum) [0; 0; 1] [0; 0; 2] = Ok pl /\ plane_project_point pl [7; 8; 9] = Ok [7; 8; 1].
Proof.
  assert (K : pv_ok [0; 0; 1] [0; 0; 2]) by (split; [reflexivity|split; [intro Z; inversion Z; lra|discriminate]]).
  eexists. split; [apply plane_new_R; auto|]. rewrite plane_project_point_R; auto.
  f_equal. unfold pproj, scale. simpl. repeat (apply (f_equal2 (@cons R)); [field; lra|]). reflexivity.
Qed.

(** ** C37  distances and sides *)
Theorem C37_distances : forall (p n q : pt) (pl : plane RNum), plane_new (N:=RNum) p n = Ok pl -> length q = length p ->
  exists r s, plane_distance_point pl q = Ok r /\ plane_distance_point_signed pl q = Ok s /\
    min_dist (on_plane p n) q r /\ r = Rabs s /\
    (0 < s <-> 0 < dot (sub q p) n) /\ (s < 0 <-> dot (sub q p) n < 0) /\ (s = 0 <-> on_plane p n q).
Proof.
  intros p n q pl H Lq. apply plane_new_inv in H as (-> & H). pose proof H as (L & Hz & Hp).
  exists (dist q (pproj p n q)), (sdist p n q). rewrite plane_distance_point_R, plane_signed_R by auto. split; auto. split; auto.
  split; [apply pproj_min; auto|]. split; [symmetry; apply sdist_abs; auto|].
  pose proof (len_pos n Hz) as P. unfold sdist at 1 2. rewrite (dot_comm n).
  assert (E : dot (sub q p) n = dot (sub q p) n / len n * len n) by (field; lra).
  split; [split; intro K; [rewrite E; nra|apply Rdiv_lt_0_compat; auto]|].
  split; [split; intro K; [rewrite E; nra|]|apply sdist_zero; auto].
  apply Ropp_lt_cancel. rewrite Ropp_0, <- Ropp_div. apply Rdiv_lt_0_compat; lra.
Qed.
Print Assumptions C37_distances.

Lemma nsign_R (x : R) : nsign (N:=RNum) x = (if Rlt_dec x 0 then -1 else if Rlt_dec 0 x then 1 else 0)%Z.
Proof. unfold nsign. rops. unfold Rltb. destruct (Rlt_dec x 0), (Rlt_dec 0 x); auto. Qed.

Theorem C37_side_point : forall (p n q : pt) (pl : plane RNum), plane_new (N:=RNum) p n = Ok pl -> length q = length p ->
  exists k, plane_side_point pl q = Ok k /\
    (k = 1%Z <-> 0 < dot (sub q p) n) /\ (k = (-1)%Z <-> dot (sub q p) n < 0) /\ (k = 0%Z <-> on_plane p n q) /\
    (plane_contains_point (N:=RNum) tol_default pl q = Ok true <-> k = 0%Z) /\
    (plane_contains_point (N:=RNum) tol_default pl q = Ok false <-> k <> 0%Z) /\
    (forall pl', plane_new (N:=RNum) p (scale (-1) n) = Ok pl' -> plane_side_point pl' q = Ok (- k)%Z).
Proof.
  intros p n q pl Hpl Lq. destruct (C37_distances p n q pl Hpl Lq) as (r & s & Hr & Hs & M & A & S1 & S2 & S3).
  exists (nsign (N:=RNum) s). unfold plane_side_point. rewrite Hs. cbn [bind]. rewrite int_sign_R. split; auto. rewrite nsign_R.
  assert (C : plane_contains_point (N:=RNum) tol_default pl q = Ok (if Req_EM_T r 0 then true else false)).
  { unfold plane_contains_point. apply contains_gen_default; auto. }
  rewrite C. subst r.
  assert (Z : Rabs s = 0 <-> s = 0). { split; intro E; [|subst; apply Rabs_R0]. destruct (Req_dec s 0); auto. apply Rabs_pos_lt in H. lra. }
  assert (N : forall pl', plane_new (N:=RNum) p (scale (-1) n) = Ok pl' -> plane_distance_point_signed pl' q = Ok (- s)).
  { intros pl' H'. apply plane_new_inv in H' as (-> & H'). apply plane_new_inv in Hpl as (-> & H). rewrite plane_signed_R in * by auto.
    injection Hs as <-. f_equal. unfold sdist. rewrite dot_scale_l, len_scale. rewrite Rabs_left by lra. destruct H as (_ & Hz & _). pose proof (len_pos n Hz). field. lra. }
  destruct (Rlt_dec s 0) as [a|a]; [|destruct (Rlt_dec 0 s) as [b|b]].
  - split; [split; intro E; [discriminate|apply S1 in E; lra]|]. split; [tauto|]. split; [split; intro E; [discriminate|apply S3 in E; lra]|].
    destruct (Req_EM_T (Rabs s) 0) as [E|E]; [apply Z in E; lra|]. split; [split; intro; discriminate|]. split; [split; intro; [discriminate|auto]|].
    intros pl' H'. unfold plane_side_point. rewrite (N pl' H'). cbn [bind]. rewrite int_sign_R, nsign_R. destruct (Rlt_dec (- s) 0); [lra|]. destruct (Rlt_dec 0 (- s)); [auto|lra].
  - split; [tauto|]. split; [split; intro E; [discriminate|apply S2 in E; lra]|]. split; [split; intro E; [discriminate|apply S3 in E; lra]|].
    destruct (Req_EM_T (Rabs s) 0) as [E|E]; [apply Z in E; lra|]. split; [split; intro; discriminate|]. split; [split; intro; [discriminate|auto]|].
    intros pl' H'. unfold plane_side_point. rewrite (N pl' H'). cbn [bind]. rewrite int_sign_R, nsign_R. destruct (Rlt_dec (- s) 0); [auto|lra].
  - assert (s = 0) by lra. split; [split; intro E; [discriminate|apply S1 in E; lra]|]. split; [split; intro E; [discriminate|apply S2 in E; lra]|].
    split; [tauto|]. destruct (Req_EM_T (Rabs s) 0) as [E|E]; [|apply E in Z; [contradiction|tauto] || (exfalso; apply E; apply Z; auto)].
    split; [tauto|]. split; [split; intro; [discriminate|contradiction]|].
    intros pl' H'. unfold plane_side_point. rewrite (N pl' H'). cbn [bind]. rewrite int_sign_R, nsign_R. destruct (Rlt_dec (- s) 0); [lra|]. destruct (Rlt_dec 0 (- s)); [lra|auto].
Qed.
Print Assumptions C37_side_point.

Theorem C37_contains_tolerance : forall (p n q : pt) (pl : plane RNum) (rel abst : R), plane_new (N:=RNum) p n = Ok pl -> length q = length p ->
  0 <= rel < 1 -> 0 <= abst ->
  exists b r, plane_contains_point (MkTol (N:=RNum) rel abst) pl q = Ok b /\ plane_distance_point pl q = Ok r /\ (b = true <-> r <= abst).
Proof.
  intros p n q pl rel abst H Lq Hr Ha. apply plane_new_inv in H as (-> & H). pose proof (plane_distance_point_R p n q H Lq) as E.
  destruct (contains_gen_R _ (MkTol (N:=RNum) rel abst) _ _ E) as (b & Hb & K); [split; simpl; lra|]. exists b, (dist q (pproj p n q)).
  split; auto. split; auto. rewrite K. simpl. rewrite close_zero by auto. rewrite Rabs_pos_eq by apply dist_nonneg. tauto.
Qed.
Print Assumptions C37_contains_tolerance.

Theorem C37_representation_independent : forall (p n p' n' q : pt) (pl pl' : plane RNum),
  plane_new (N:=RNum) p n = Ok pl -> plane_new (N:=RNum) p' n' = Ok pl' -> length p' = length p -> length q = length p ->
  (forall x, on_plane p n x <-> on_plane p' n' x) ->
  plane_distance_point pl q = plane_distance_point pl' q /\ plane_project_point pl q = plane_project_point pl' q.
Proof.
  intros p n p' n' q l l' H H' L Lq S. apply plane_new_inv in H as (-> & H). apply plane_new_inv in H' as (-> & H').
  split.
  - rewrite !plane_distance_point_R by congruence. f_equal. eapply min_dist_unique; [apply pproj_min; auto|].
    eapply min_dist_ext; [|apply pproj_min; congruence]. intro y. symmetry. apply S.
  - rewrite !plane_project_point_R by congruence. f_equal.
    destruct (list_eq_dec Req_EM_T (pproj p n q) (pproj p' n' q)) as [Q|Q]; auto. exfalso.
    assert (dist q (pproj p n q) < dist q (pproj p' n' q)) by (apply pproj_nearest; auto; apply S, pproj_on; congruence).
    assert (dist q (pproj p' n' q) < dist q (pproj p n q)) by (apply pproj_nearest; auto; [congruence|apply S, pproj_on; auto]). lra.
Qed.
Print Assumptions C37_representation_independent.

Theorem C37_batch_rowwise : forall (p n : pt) (pl : plane RNum) (ps : list pt),
  plane_new (N:=RNum) p n = Ok pl -> points_ok (length p) ps ->
  exists ss, plane_distance_points_signed pl ps = Ok ss /\ mapM (plane_distance_point_signed pl) ps = Ok ss /\
    plane_distance_points pl ps = Ok (map Rabs ss) /\ mapM (plane_distance_point pl) ps = Ok (map Rabs ss) /\
    plane_sum_squares pl ps = Ok (Rsum (map (fun r => r * r) ss)).
Proof.
  intros p d pl ps H (Hne & Hd & F). apply plane_new_inv in H as (-> & H). pose proof H as (L & Hz & Hp). exists (map (sdist p d) ps).
  pose proof (len_pos d Hz) as P.
  assert (Fr : forall r, In r ps -> length r = length p) by (rewrite Forall_forall in F; auto).
  assert (E : plane_distance_points_signed (N:=RNum) (MkPlane p d) ps = Ok (map (sdist p d) ps)).
  { unfold plane_distance_points_signed. cbn [pl_point pl_normal]. rewrite (as2d_R ps (length p)) by auto. cbn [bind].
    rewrite (mapM_map _ (fun r => sub r p)). 2:{ intros r Hr. rewrite bcast_eq by (apply Fr; auto). rops. rewrite map2_sub. reflexivity. }
    cbn [bind]. rewrite unit_R by auto. cbn [bind].
    rewrite (mapM_map _ (fun v => dot v (scale (/ len d) d))).
    2:{ intros v Hv. apply in_map_iff in Hv as (r & <- & Hr). apply np_dot_R. specialize (Fr r Hr). len. }
    rewrite map_map. f_equal. apply map_ext. intro r. rewrite dot_scale_r, dot_comm. unfold sdist, Rdiv. ring. }
  assert (M : mapM (plane_distance_point (N:=RNum) (MkPlane p d)) ps = Ok (map Rabs (map (sdist p d) ps))).
  { rewrite map_map. apply mapM_map. intros r Hr. rewrite plane_distance_point_R by auto. rewrite sdist_abs by auto. reflexivity. }
  split; auto. split; [apply mapM_map; intros; apply plane_signed_R; auto|]. split; [unfold plane_distance_points; rewrite E; reflexivity|]. split; auto.
  unfold plane_sum_squares, sum_squares_gen. rewrite (as2d_R ps (length p)) by auto. cbn [bind]. rn. rewrite M. cbn [bind]. rewrite nsum_Rsum. f_equal. f_equal.
  rewrite map_map. apply map_ext. intro x. unfold nsq. rops. unfold Rabs; destruct Rcase_abs; ring.
Qed.
Print Assumptions C37_batch_rowwise.

Example C37_nonvacuous : exists pl, plane_new (N:=RNum) [0; 0; 1] [0; 0; 2] = Ok pl /\ plane_side_point pl [0; 5; -3] = Ok (-1)%Z.
Proof.
  assert (K : pv_ok [0; 0; 1] [0; 0; 2]) by (split; [reflexivity|split; [intro Z; inversion Z; lra|discriminate]]).
  exists (MkPlane (N:=RNum) [0; 0; 1] [0; 0; 2]). split; [apply plane_new_R; auto|].
  destruct (C37_side_point [0; 0; 1] [0; 0; 2] [0; 5; -3] _ (plane_new_R _ _ K) eq_refl) as (k & -> & _ & E & _).
  f_equal. apply E. simpl. lra.
Qed.

(** ** C38  projection of vectors and lines *)
Theorem C38_project_vector : forall (p n v : pt) (pl : plane RNum), plane_new (N:=RNum) p n = Ok pl -> length v = length p ->
  exists w, plane_project_vector pl v = Ok w /\ length w = length v /\ dot w n = 0 /\ (exists s, sub v w = scale s n) /\
    (dot v n = 0 -> w = v) /\ plane_project_vector pl w = Ok w.
Proof.
  intros p n v pl H Lv. apply plane_new_inv in H as (-> & H). pose proof H as (L & Hz & Hp). pose proof (dot_self_pos n Hz).
  assert (A : forall u, length u = length p -> plane_project_vector (N:=RNum) (MkPlane p n) u = Ok (sub u (scale (dot u n / dot n n) n))).
  { intros u Lu. unfold plane_project_vector. cbn [pl_point pl_normal]. rewrite vadd_R by len. cbn [bind]. rewrite plane_project_point_R by (auto; len). cbn [bind].
    rewrite from_points_R by (auto; rewrite length_pproj; len). f_equal. unfold pproj. apply pt_ext; [len|]. intros i _.
    repeat (rewrite ?nth_sub, ?nth_add by len). rewrite !nth_scale. rewrite dot_sub_r by len. rewrite dot_add_r by len. rewrite (dot_comm u). field. lra. }
  exists (sub v (scale (dot v n / dot n n) n)). rewrite A by auto. split; auto. split; [len|].
  assert (Z : dot (sub v (scale (dot v n / dot n n) n)) n = 0) by (rewrite dot_sub_l by len; rewrite dot_scale_l; field; lra).
  split; auto. split; [|split].
  - exists (dot v n / dot n n). apply pt_ext; [len|]. intros i _. rewrite !nth_sub by len. ring.
  - intros ->. unfold Rdiv. rewrite Rmult_0_l, scale_0. apply sub_origin_r. len.
  - rewrite A by len. rn. f_equal. rewrite Z. replace (0 / dot n n) with 0 by (field; lra). rewrite scale_0. apply sub_origin_r. len.
Qed.
Print Assumptions C38_project_vector.

Theorem C38_project_line : forall (p n q d : pt) (pl : plane RNum) (l : line RNum),
  plane_new (N:=RNum) p n = Ok pl -> line_new (N:=RNum) q d = Ok l -> length q = length p ->
  (dependent n d -> exists m, plane_project_line tol_default pl l = Raise (ValueError m)) /\
  (is_parallel (N:=RNum) tol_default n d = Ok true -> exists m, plane_project_line tol_default pl l = Raise (ValueError m)) /\
  (is_parallel (N:=RNum) tol_default n d = Ok false -> exists l', plane_project_line tol_default pl l = Ok l' /\
     (forall x, on_line (l_point l') (l_dir l') x -> on_plane p n x) /\
     (forall x, on_line (l_point l') (l_dir l') x <->
                exists y, on_line q d y /\ plane_project_point pl y = Ok x)).
Proof.
  intros p n q d pl l Hpl Hl Lq. pose proof Hpl as Hpl0. apply plane_new_inv in Hpl as (-> & H). apply line_new_iff in Hl as (-> & H').
  pose proof H as (L & Hz & Hp). pose proof H' as (L' & Hz' & Hp'). pose proof (dot_self_pos n Hz) as P.
  assert (E1 : is_parallel (N:=RNum) tol_default n d = Ok true -> exists m, plane_project_line (N:=RNum) tol_default (MkPlane p n) (MkLine q d) = Raise (ValueError m)).
  { intro E. unfold plane_project_line. cbn [pl_normal l_dir]. rewrite E. eexists; reflexivity. }
  split; [|split; auto].
  { intro D. apply E1. apply is_parallel_dependent; auto; [apply tol_default_ok|congruence|eapply pv_ok_dir; eauto]. }
  intro E. set (w := sub d (scale (dot d n / dot n n) n)).
  assert (Lw : length w = length d) by (unfold w; len).
  assert (Wn : dot w n = 0) by (unfold w; rewrite dot_sub_l by len; rewrite dot_scale_l; field; lra).
  assert (R : plane_project_line (N:=RNum) tol_default (MkPlane p n) (MkLine q d) = Ok (MkLine (pproj p n q) w)).
  { unfold plane_project_line. cbn [pl_normal l_dir l_point]. rewrite E. cbn [bind]. rewrite plane_project_point_R by auto. cbn [bind].
    destruct (is_perp_R tol_default n d tol_default_ok) as (r & -> & K); [congruence|]. cbn [bind]. rewrite rel_default_eq, abs_default_eq, close_default_zero in K.
    assert (Wz : ~ is_zero_vec w).
    { intro Z. assert (Lnd : length n = length d) by (rn; lia). apply (not_parallel_independent tol_default n d tol_default_ok Lnd ltac:(apply not_zero_nonempty; auto) E).
      right. exists (dot d n / dot n n). apply sub_zero_iff; [len|exact Z]. }
    assert (Lpr : length (pproj p n q) = length w) by (rewrite length_pproj by congruence; congruence).
    destruct r.
    - assert (D0 : dot d n = 0) by (rewrite dot_comm; apply K; auto).
      assert (w = d). { unfold w. rewrite D0. unfold Rdiv. rewrite Rmult_0_l, scale_0. apply sub_origin_r. congruence. }
      rewrite H0. apply line_new_R; auto. congruence.
    - destruct (C38_project_vector p n d _ Hpl0) as (w' & -> & Lw' & Wn' & (s & Hs) & _); [len|]. cbn [bind].
      assert (w' = w).
      { apply sub_zero_iff; [len|]. apply dot_self_zero.
        assert (Q : sub w' w = scale (dot d n / dot n n - s) n).
        { apply pt_ext; [len|]. intros i _. rewrite nth_sub by len. unfold w. rewrite nth_sub by len. rewrite !nth_scale.
          assert (T : nth i (sub d w') 0 = s * nth i n 0) by (rewrite Hs; apply nth_scale). rewrite nth_sub in T by len. lra. }
        rewrite Q at 1. rewrite dot_scale_l. rewrite (dot_comm n (sub w' w)). rewrite dot_sub_l by len. rewrite Wn, Wn'. ring. }
      subst w'. apply line_new_R; auto. }
  exists (MkLine (N:=RNum) (pproj p n q) w). split; auto. cbn [l_point l_dir].
  assert (Lpr : length (pproj p n q) = length p) by (rewrite length_pproj by len; auto).
  assert (I : forall t, pproj p n (add q (scale t d)) = add (pproj p n q) (scale t w)).
  { intro t. unfold pproj, w. apply pt_ext; [len|]. intros i _. repeat (rewrite ?nth_add, ?nth_scale, ?nth_sub by len).
    rewrite !dot_sub_r by len. rewrite dot_add_r by len. rewrite dot_scale_r, (dot_comm d). field. lra. }
  split.
  - intros x [t ->]. rewrite <- I. apply pproj_on; auto. len.
  - intro x. split.
    + intros [t ->]. exists (add q (scale t d)). split; [exists t; auto|]. rewrite plane_project_point_R by (auto; len). rewrite I. reflexivity.
    + intros (y & [t ->] & K). rewrite plane_project_point_R in K by (auto; len). injection K as <-. exists t. apply I.
Qed.
Print Assumptions C38_project_line.

(** For any tolerances: lines the tolerance calls parallel to the normal raise; any other line is sent to its exact projection,
    except that a direction the tolerance calls perpendicular to the normal is kept unchanged. *)
Theorem C38_project_line_any_tolerance : forall (t : tol RNum) (p n q d : pt) (pl : plane RNum) (l : line RNum),
  0 <= rel_tol t -> 0 <= abs_tol t ->
  plane_new (N:=RNum) p n = Ok pl -> line_new (N:=RNum) q d = Ok l -> length q = length p ->
  exists par perp, is_parallel (N:=RNum) t n d = Ok par /\ is_perpendicular (N:=RNum) t n d = Ok perp /\ (dependent n d -> par = true) /\ (dot n d = 0 -> perp = true) /\
  (par = true -> exists m, plane_project_line t pl l = Raise (ValueError m)) /\
  (par = false -> exists l', plane_project_line t pl l = Ok l' /\ plane_project_point pl q = Ok (l_point l') /\
     (perp = true -> l_dir l' = d) /\
     (perp = false -> forall x, on_line (l_point l') (l_dir l') x <-> exists y, on_line q d y /\ plane_project_point pl y = Ok x)).
Proof.
  intros t p n q d pl l Hr Ha Hpl Hl Lq. assert (Ht : tol_ok t) by (split; auto). pose proof Hpl as Hpl0. apply plane_new_inv in Hpl as (-> & H). apply line_new_iff in Hl as (-> & H').
  pose proof H as (L & Hz & Hp). pose proof H' as (L' & Hz' & Hp'). pose proof (dot_self_pos n Hz) as P.
  destruct (is_perp_R t n d Ht) as (perp & Eperp & Kperp); [congruence|].
  destruct (is_parallel_R t n d Ht) as (par & Epar & _); [congruence|apply not_zero_nonempty; auto|].
  exists par, perp. split; [exact Epar|]. split; [exact Eperp|]. split; [|split; [|split]].
  - intro D. assert (E : is_parallel (N:=RNum) t n d = Ok true) by (apply is_parallel_dependent; auto; [congruence|eapply pv_ok_dir; eauto]). rewrite E in Epar. injection Epar as <-. reflexivity.
  - intro Z. apply Kperp. rewrite Z. apply close_refl; auto.
  - intros ->. unfold plane_project_line. cbn [pl_normal l_dir]. rewrite Epar. eexists; reflexivity.
  - intros ->. set (w := sub d (scale (dot d n / dot n n) n)).
    assert (Lw : length w = length d) by (unfold w; len).
    assert (Wz : ~ is_zero_vec w).
    { intro Z. assert (Lnd : length n = length d) by (rn; lia). apply (not_parallel_independent t n d Ht Lnd ltac:(apply not_zero_nonempty; auto) Epar).
      right. exists (dot d n / dot n n). apply sub_zero_iff; [len|exact Z]. }
    assert (Wn : dot w n = 0) by (unfold w; rewrite dot_sub_l by len; rewrite dot_scale_l; field; lra).
    assert (Lpr : length (pproj p n q) = length w) by (rewrite length_pproj by congruence; congruence).
    assert (U : plane_project_line (N:=RNum) t (MkPlane p n) (MkLine q d) = Ok (MkLine (pproj p n q) (if perp then d else w))).
    { unfold plane_project_line. cbn [pl_normal l_dir l_point]. rewrite Epar. cbn [bind]. rewrite plane_project_point_R by auto. cbn [bind]. rewrite Eperp. cbn [bind].
      destruct perp; [apply line_new_R; auto; congruence|].
      destruct (C38_project_vector p n d _ Hpl0) as (w' & -> & Lw' & Wn' & (s & Hs) & _); [len|]. cbn [bind].
      assert (w' = w).
      { apply sub_zero_iff; [len|]. apply dot_self_zero.
        assert (Q : sub w' w = scale (dot d n / dot n n - s) n).
        { apply pt_ext; [len|]. intros i _. rewrite nth_sub by len. unfold w. rewrite nth_sub by len. rewrite !nth_scale.
          assert (T : nth i (sub d w') 0 = s * nth i n 0) by (rewrite Hs; apply nth_scale). rewrite nth_sub in T by len. lra. }
        rewrite Q at 1. rewrite dot_scale_l. rewrite (dot_comm n (sub w' w)). rewrite dot_sub_l by len. rewrite Wn, Wn'. ring. }
      subst w'. apply line_new_R; auto. }
    eexists. split; [exact U|]. cbn [l_point l_dir]. split; [apply plane_project_point_R; auto|]. split; [intros ->; reflexivity|]. intros ->.
    assert (I : forall s, pproj p n (add q (scale s d)) = add (pproj p n q) (scale s w)).
    { intro s. unfold pproj, w. apply pt_ext; [len|]. intros i _. repeat (rewrite ?nth_add, ?nth_scale, ?nth_sub by len).
      rewrite !dot_sub_r by len. rewrite dot_add_r by len. rewrite dot_scale_r, (dot_comm d). field. lra. }
    intro x. split.
    + intros [s ->]. exists (add q (scale s d)). split; [exists s; auto|]. rewrite plane_project_point_R by (auto; len). rewrite I. reflexivity.
    + intros (y & [s ->] & K). rewrite plane_project_point_R in K by (auto; len). injection K as <-. exists s. apply I.
Qed.
Print Assumptions C38_project_line_any_tolerance.
Example C38_nonvacuous : exists pl l, plane_new (N:=RNum) [0; 0; 0] [1; 0; 0] = Ok pl /\ line_new (N:=RNum) [0; 0; 0] [0; 1; 0] = Ok l /\
  is_parallel (N:=RNum) tol_default (pl_normal pl) (l_dir l) = Ok false.
Proof.
  eexists. eexists. split; [apply plane_new_R; split; [reflexivity|split; [intro Z; inversion Z; lra|discriminate]]|].
  split; [apply line_new_R; [reflexivity|intro Z; inversion Z; lra]|]. apply e12_not_parallel.
Qed.

(** ** C39  intersect_line *)
Theorem C39_intersect_line : forall (p n q d : pt) (pl : plane RNum) (l : line RNum),
  plane_new (N:=RNum) p n = Ok pl -> line_new (N:=RNum) q d = Ok l -> length q = length p ->
  (dot n d = 0 -> exists m, plane_intersect_line tol_default pl l = Raise (ValueError m)) /\
  (dot n d <> 0 -> exists x, plane_intersect_line tol_default pl l = Ok x /\ on_plane p n x /\ on_line q d x /\
     forall y, on_plane p n y -> on_line q d y -> y = x) /\
  (forall (t : tol RNum) x, 0 <= rel_tol t -> 0 <= abs_tol t -> plane_intersect_line t pl l = Ok x ->
     on_plane p n x /\ on_line q d x /\ forall y, on_plane p n y -> on_line q d y -> y = x).
Proof.
  intros p n q d pl l Hpl Hl Lq. apply plane_new_inv in Hpl as (-> & H). apply line_new_iff in Hl as (-> & H').
  pose proof H as (L & Hz & Hp). pose proof H' as (L' & Hz' & Hp').
  set (x := add q (scale (- dot n (sub q p) / dot n d) d)).
  assert (A : dot n d <> 0 -> on_plane p n x /\ on_line q d x /\ forall y, on_plane p n y -> on_line q d y -> y = x).
  { intro ND. unfold x. split; [split; [len|]|split; [eexists; reflexivity|]].
    - rewrite sub_add_l by len. rewrite dot_add_l by len. rewrite dot_scale_l, (dot_comm d), (dot_comm (sub q p)). field. auto.
    - intros y (Ly & Ey) [t ->]. f_equal. f_equal. rewrite sub_add_l in Ey by len. rewrite dot_add_l in Ey by len.
      rewrite dot_scale_l, (dot_comm d), (dot_comm (sub q p)) in Ey. apply (Rmult_eq_reg_r (dot n d)); auto. unfold Rdiv. rewrite Rmult_assoc, Rinv_l by auto. lra. }
  assert (B : forall t : tol RNum, plane_intersect_line (N:=RNum) t (MkPlane p n) (MkLine q d) =
     (let* perp := is_perpendicular (N:=RNum) t n d in
      if perp then Raise (ValueError "The line and plane must not be parallel.")
      else let* s := ndiv (n:=RNum) (- dot n (sub q p)) (dot n d) in Ok (add q (scale s d)))).
  { intro t. unfold plane_intersect_line. cbn [pl_normal l_dir l_point pl_point]. destruct (is_perpendicular (N:=RNum) t n d) as [[|]| |]; auto. cbn [bind].
    rewrite from_points_R by auto. cbn [bind]. rewrite np_dot_R by len. cbn [bind]. rewrite np_dot_R by congruence. cbn [bind]. rops.
    destruct (ndiv (n:=RNum) _ _) as [s| |]; auto. cbn [bind]. rewrite vmuls_R. cbn [bind]. apply vadd_R. len. }
  split; [|split].
  - intro Z. rewrite B. destruct (is_perp_R tol_default n d tol_default_ok) as (r & -> & K); [congruence|]. cbn [bind].
    rewrite rel_default_eq, abs_default_eq, close_default_zero in K. rewrite (proj2 K Z). eexists; reflexivity.
  - intro ND. exists x. split; [|apply A; auto]. rewrite B. destruct (is_perp_R tol_default n d tol_default_ok) as (r & -> & K); [congruence|]. cbn [bind].
    rewrite rel_default_eq, abs_default_eq, close_default_zero in K. destruct r; [exfalso; apply ND, K; auto|]. rewrite ndiv_R by auto. reflexivity.
  - intros t y H1 H2 E. rewrite B in E. destruct (is_perp_R t n d) as (r & Er & K); [split; auto|congruence|]. rewrite Er in E. cbn [bind] in E. destruct r; [discriminate|].
    assert (ND : dot n d <> 0). { intro Z. assert (false = true); [|discriminate]. apply K. rewrite Z. apply close_refl; auto. }
    rewrite ndiv_R in E by auto. cbn [bind] in E. injection E as <-. apply A; auto.
Qed.
Print Assumptions C39_intersect_line.
Example C39_nonvacuous : exists pl l, plane_new (N:=RNum) [0; 0; 1] [0; 0; 2] = Ok pl /\ line_new (N:=RNum) [5; 6; 7] [1; 1; 1] = Ok l /\
  dot (pl_normal pl) (l_dir l) <> 0.
Proof.
  eexists. eexists. split; [apply plane_new_R; split; [reflexivity|split; [intro Z; inversion Z; lra|discriminate]]|].
  split; [apply line_new_R; [reflexivity|intro Z; inversion Z; lra]|]. simpl. lra.
Qed.
