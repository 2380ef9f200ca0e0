(** * Properties C64 (area_signed) and C65 (area_triangle, volume_tetrahedron) *)
From Coq Require Import String Reals List ZArith Lra Lia Psatz Bool Permutation.
From Verif.Model Require Import Outcome Num Instances Numpy BaseArray Vector Points Functions Line Plane Triangle.
From Verif.Spec Require Import Geometry Tolerance Mesh Measure.
From Verif.Proof Require Import VecAlg Bridge Arrays Vectors Points Lines Triangles SvdExists CylFits.
From Verif.Prop Require Import Planes.
Import ListNotations.
Local Open Scope R_scope.

(** ** Paths *)
Lemma path_cons2 f a b l : path f (a :: b :: l) = f a b + path f (b :: l).
Proof. reflexivity. Qed.
Section Paths.
Context (f : pt -> pt -> R).
Lemma path_app l a m : path f (l ++ a :: m) = path f (l ++ [a]) + path f (a :: m).
Proof. induction l as [|x [|y l] IH]; cbn [app path] in *; [destruct m; simpl; ring|destruct m; simpl; ring|]. rewrite IH. ring. Qed.
Lemma path_snoc l a b : path f (l ++ [a; b]) = path f (l ++ [a]) + f a b.
Proof. rewrite path_app. cbn [path]. ring. Qed.
Lemma closed_rot l m : closed f (l ++ m) = closed f (m ++ l).
Proof.
  destruct l as [|a l]; [rewrite app_nil_r; reflexivity|]. destruct m as [|b m]; [rewrite app_nil_r; reflexivity|]. unfold closed. cbn [app].
  rewrite <- !app_assoc. cbn [app]. change (a :: l ++ b :: m ++ [a]) with ((a :: l) ++ b :: m ++ [a]). change (b :: m ++ a :: l ++ [b]) with ((b :: m) ++ a :: l ++ [b]).
  rewrite (path_app (a :: l) b), (path_app (b :: m) a). cbn [app]. ring.
Qed.
Lemma path_rev (Hf : forall a b, f b a = - f a b) l : path f (rev l) = - path f l.
Proof.
  induction l as [|a [|b l] IH]; try (simpl; ring). cbn [rev path] in *. rewrite <- app_assoc. cbn [app]. rewrite path_snoc, IH, Hf. ring.
Qed.
Lemma closed_rev (Hf : forall a b, f b a = - f a b) l : closed f (rev l) = - closed f l.
Proof.
  destruct l as [|a l]; [simpl; ring|]. cbn [rev]. rewrite closed_rot. unfold closed. cbn [app]. rewrite <- path_rev by auto. cbn [rev]. rewrite rev_app_distr. reflexivity.
Qed.
Lemma closed_cut (Hf : forall a b, f b a = - f a b) a p b q : closed f (a :: p ++ b :: q) = closed f (a :: p ++ [b]) + closed f (b :: q ++ [a]).
Proof.
  unfold closed. cbn [app]. rewrite <- !app_assoc. cbn [app]. change (a :: p ++ b :: q ++ [a]) with ((a :: p) ++ b :: q ++ [a]). rewrite path_app.
  change (a :: p ++ [b; a]) with ((a :: p) ++ [b; a]). rewrite path_snoc. change (b :: q ++ [a; b]) with ((b :: q) ++ [a; b]). rewrite path_snoc. cbn [app]. rewrite (Hf a b). ring.
Qed.
End Paths.
Lemma path_ext f g l : (forall a b, In a l -> In b l -> f a b = g a b) -> path f l = path g l.
Proof. induction l as [|a [|b l] IH]; intro H; auto. rewrite !path_cons2. rewrite IH by (intros; apply H; simpl in *; tauto). rewrite (H a b) by (simpl; auto). reflexivity. Qed.
Lemma path_map f h l : path f (map h l) = path (fun a b => f (h a) (h b)) l.
Proof. induction l as [|a [|b l] IH]; auto. cbn [map] in *. rewrite !path_cons2, IH. reflexivity. Qed.
Lemma path_tele k f g l a z : path (fun a b => k * f a b + (g b - g a)) (a :: l ++ [z]) = k * path f (a :: l ++ [z]) + (g z - g a).
Proof.
  revert a. induction l as [|b l IH]; intro a; [simpl; ring|]. cbn [app path]. cbn [app path] in IH. rewrite IH. ring.
Qed.
Lemma closed_ext f g l : (forall a b, f a b = g a b) -> closed f l = closed g l.
Proof. intro H. destruct l; auto. unfold closed. apply path_ext. auto. Qed.
Lemma closed_map f h l : closed f (map h l) = closed (fun a b => f (h a) (h b)) l.
Proof. destruct l as [|a l]; auto. unfold closed. cbn [map app]. change [h a] with (map h [a]). rewrite <- map_app. change (h a :: map h (l ++ [a])) with (map h (a :: l ++ [a])). apply path_map. Qed.
Lemma closed_tele k f g l : closed (fun a b => k * f a b + (g b - g a)) l = k * closed f l.
Proof. destruct l as [|a l]; [simpl; ring|]. unfold closed. cbn [app]. rewrite path_tele. ring. Qed.
Lemma turn_anti o a b : turn o b a = - turn o a b.
Proof. unfold turn. ring. Qed.
(** The base point of the cross products is irrelevant around a closed path. *)
Lemma closed_base o l : closed (turn o) l = closed (turn [0; 0]) l.
Proof.
  rewrite (closed_ext (turn o) (fun a b => 1 * turn [0; 0] a b + ((fun p => px p * py o - px o * py p) b - (fun p => px p * py o - px o * py p) a))).
  - rewrite closed_tele. ring.
  - intros a b. unfold turn. cbn. ring.
Qed.
Lemma path_pos f l : (forall a b, f a b >= 0) -> 0 <= path f l.
Proof. intro H. induction l as [|a [|b l] IH]; try (simpl; lra). cbn [path] in *. specialize (H a b). lra. Qed.

(** ** The model computes the shoelace sum *)
Lemma rot_sum (l : list pt) : l <> [] -> forall p, nsum (N:=RNum) (map2 (N:=RNum) Rminus (map2 (N:=RNum) Rmult (px p :: removelast (map px l)) (map py l)) (map2 (N:=RNum) Rmult (map px l) (py p :: removelast (map py l)))) = path (turn [0; 0]) (p :: l).
Proof.
  induction l as [|a [|b l] IH]; intros Hne p; [contradiction| |].
  - cbn. unfold turn, px, py. cbn. ring.
  - cbn [map removelast]. cbn [map] in IH. specialize (IH ltac:(discriminate) a). cbn [map2 nsum fold_right]. cbn [map2] in IH. unfold nsum in IH. rops.
    rewrite path_cons2, <- IH. f_equal. unfold turn. cbn. ring.
Qed.
Lemma last_map {A B} (g : A -> B) l d e : l <> [] -> last (map g l) e = g (last l d).
Proof. induction l as [|a [|b l] IH]; intro H; [contradiction|reflexivity|]. cbn [map last] in *. apply IH. discriminate. Qed.
Lemma half_R : ndyad (n:=RNum) 1 1 = / 2.
Proof. change (1 / 2 = / 2). unfold Rdiv. ring. Qed.

(** area_signed is half the sum of the cross products around the closed path, for every list of three or more 2D points. *)
Theorem C64_shoelace : forall rows, points_ok 2 rows -> (3 <= length rows)%nat -> area_signed (N:=RNum) rows = Ok (shoelace rows).
Proof.
  intros rows Hr L3. pose proof Hr as (Hne & Hd & F). unfold area_signed. rewrite (points_of_R rows 2) by auto. cbn [bind]. rewrite (dim2_ok 2) by auto. cbn [Nat.eqb negb].
  rn. destruct (Nat.ltb_spec (length rows) 3); [lia|]. f_equal. unfold shoelace. rewrite half_R. change (nmul (n:=RNum)) with Rmult. f_equal.
  change (column (N:=RNum) 0 rows) with (map px rows). change (column (N:=RNum) 1 rows) with (map py rows). unfold rot1. change (n0 (n:=RNum)) with 0.
  rewrite !(last_map _ rows []) by auto. change (nsub (n:=RNum)) with Rminus. change (nmul (n:=RNum)) with Rmult. rewrite rot_sum by auto.
  transitivity (closed (turn [0; 0]) ([last rows []] ++ removelast rows)).
  - unfold closed. cbn [app]. rewrite <- (app_removelast_last [] Hne). reflexivity.
  - rewrite closed_rot, <- (app_removelast_last [] Hne). reflexivity.
Qed.
Print Assumptions C64_shoelace.

(** Everything else raises ValueError. *)
Theorem C64_rejects : forall d rows, points_ok d rows -> d <> 2%nat \/ (length rows < 3)%nat -> exists msg, area_signed (N:=RNum) rows = Raise (ValueError msg).
Proof.
  intros d rows Hr H. pose proof Hr as (Hne & Hd & F). unfold area_signed. rewrite (points_of_R rows d) by auto. cbn [bind]. rewrite (dim2_ok d) by auto.
  destruct (Nat.eqb_spec d 2) as [->|]; [|eexists; reflexivity]. cbn [negb]. rn. destruct (Nat.ltb_spec (length rows) 3); [eexists; reflexivity|lia].
Qed.
Print Assumptions C64_rejects.

(** Starting at another vertex gives the same area; walking the other way round negates it. *)
Theorem C64_rotation_reversal : forall l m r, points_ok 2 (l ++ m) -> area_signed (N:=RNum) (l ++ m) = Ok r ->
  area_signed (N:=RNum) (m ++ l) = Ok r /\ area_signed (N:=RNum) (rev (l ++ m)) = Ok (- r).
Proof.
  intros l m r Hr E. assert (L3 : (3 <= length (l ++ m))%nat).
  { destruct (Nat.lt_ge_cases (length (l ++ m)) 3) as [L|L]; auto. destruct (C64_rejects 2 _ Hr (or_intror L)) as (msg & Em). rewrite Em in E. discriminate. }
  rewrite C64_shoelace in E by auto. injection E as <-. destruct Hr as (Hne & Hd & F). split.
  - rewrite C64_shoelace; [unfold shoelace; rewrite closed_rot; reflexivity| |rewrite app_length in *; lia].
    split; [intro Z; apply Hne; apply app_eq_nil in Z as (-> & ->); reflexivity|]. split; auto. apply Forall_app in F. apply Forall_app. tauto.
  - rewrite C64_shoelace; [unfold shoelace; rewrite closed_rev by apply turn_anti; f_equal; ring| |rewrite rev_length; auto].
    split; [intro Z; apply Hne; rewrite <- (rev_involutive (l ++ m)), Z; reflexivity|]. split; auto. apply Forall_rev. exact F.
Qed.
Print Assumptions C64_rotation_reversal.

(** An affine map multiplies the area by its determinant (in particular translations and rotations keep it, reflections negate it). *)
Theorem C64_affine : forall m11 m12 m21 m22 t1 t2 rows r, points_ok 2 rows -> area_signed (N:=RNum) rows = Ok r ->
  area_signed (N:=RNum) (map (affine2 m11 m12 m21 m22 t1 t2) rows) = Ok ((m11 * m22 - m12 * m21) * r).
Proof.
  intros m11 m12 m21 m22 t1 t2 rows r Hr E. assert (L3 : (3 <= length rows)%nat).
  { destruct (Nat.lt_ge_cases (length rows) 3) as [L|L]; auto. destruct (C64_rejects 2 _ Hr (or_intror L)) as (msg & Em). rewrite Em in E. discriminate. }
  rewrite C64_shoelace in E by auto. injection E as <-. pose proof Hr as (Hne & Hd & F). rewrite C64_shoelace; [| |rewrite map_length; auto].
  - f_equal. unfold shoelace. rewrite closed_map.
    rewrite (closed_ext _ (fun a b => (m11 * m22 - m12 * m21) * turn [0; 0] a b +
      ((fun p => t1 * (m21 * px p + m22 * py p) - t2 * (m11 * px p + m12 * py p)) b - (fun p => t1 * (m21 * px p + m22 * py p) - t2 * (m11 * px p + m12 * py p)) a))).
    + rewrite closed_tele. ring.
    + intros a b. unfold turn, affine2, px, py. cbn [nth]. ring.
  - split; [destruct rows; [contradiction|discriminate]|]. split; auto. apply Forall_map. apply Forall_forall. intros x _. reflexivity.
Qed.
Print Assumptions C64_affine.

(** Cutting the polygon along the diagonal from a to b splits the area. *)
Theorem C64_cut : forall a p b q, points_ok 2 (a :: p ++ b :: q) -> p <> [] -> q <> [] ->
  exists r s, area_signed (N:=RNum) (a :: p ++ [b]) = Ok r /\ area_signed (N:=RNum) (b :: q ++ [a]) = Ok s /\ area_signed (N:=RNum) (a :: p ++ b :: q) = Ok (r + s).
Proof.
  intros a p b q (_ & Hd & F) Hp Hq. inversion F as [|x y Ha F0]; subst. apply Forall_app in F0 as (Fp & Fb). inversion Fb as [|x y Hb Fq]; subst.
  assert (1 <= length p)%nat by (destruct p; [contradiction|simpl; lia]). assert (1 <= length q)%nat by (destruct q; [contradiction|simpl; lia]).
  exists (shoelace (a :: p ++ [b])), (shoelace (b :: q ++ [a])).
  split; [|split]; rewrite C64_shoelace; try reflexivity; try (simpl; rewrite app_length; simpl; lia); try (split; [discriminate|split; auto; constructor; auto; apply Forall_app; auto]).
  unfold shoelace. rewrite closed_cut by apply turn_anti. f_equal. ring.
Qed.
Print Assumptions C64_cut.

(** A polygon that runs counter-clockwise around some point o (for instance any convex counter-clockwise polygon and an interior
    point) has positive area; clockwise negative. *)
Definition around (o : pt) (l : list pt) : Prop := match l with [] => True | a :: _ => forall l1 p q l2, l ++ [a] = l1 ++ p :: q :: l2 -> 0 < turn o p q end.
Lemma path_all_pos f l : (2 <= length l)%nat -> (forall l1 p q l2, l = l1 ++ p :: q :: l2 -> 0 < f p q) -> 0 < path f l.
Proof.
  induction l as [|a [|b l] IH]; intros L H; [simpl in L; lia|simpl in L; lia|]. rewrite path_cons2. pose proof (H [] a b l eq_refl) as H0. destruct l as [|c l]; [simpl; lra|].
  assert (0 < path f (b :: c :: l)); [|lra]. apply IH; [simpl; lia|]. intros l1 p q l2 E. apply (H (a :: l1) p q l2). rewrite E. reflexivity.
Qed.
Theorem C64_positive : forall o rows r, points_ok 2 rows -> area_signed (N:=RNum) rows = Ok r -> around o rows -> 0 < r.
Proof.
  intros o rows r Hr E H. assert (L3 : (3 <= length rows)%nat).
  { destruct (Nat.lt_ge_cases (length rows) 3) as [L|L]; auto. destruct (C64_rejects 2 _ Hr (or_intror L)) as (msg & Em). rewrite Em in E. discriminate. }
  rewrite C64_shoelace in E by auto. injection E as <-. unfold shoelace. rewrite <- (closed_base o). destruct rows as [|a rows]; [simpl in L3; lia|]. unfold closed.
  assert (0 < path (turn o) ((a :: rows) ++ [a])); [|lra]. apply path_all_pos; [rewrite app_length; simpl in *; lia|exact H].
Qed.
Print Assumptions C64_positive.

(** For three points: positive exactly when they turn counter-clockwise, zero exactly when collinear, and the absolute value is
    area_triangle. *)
Theorem C64_triangle : forall (a b c : pt), length a = 2%nat -> length b = 2%nat -> length c = 2%nat -> exists r,
  area_signed (N:=RNum) [a; b; c] = Ok r /\ area_triangle (N:=RNum) a b c = Ok (Rabs r) /\ (0 < r <-> 0 < turn a b c) /\ (r = 0 <-> collinear [a; b; c]).
Proof.
  intros a b c La Lb Lc. exists (/ 2 * turn a b c).
  assert (A : area_triangle (N:=RNum) a b c = Ok (Rabs (/ 2 * turn a b c))).
  { assert (a <> []) by (intro Z; subst; discriminate). unfold area_triangle. rewrite (from_points_R a b), (from_points_R a c) by (auto; congruence). cbn [bind]. rewrite cross_R by (rewrite ?length_sub, ?La, ?Lb, ?Lc; simpl; try lia; intro Z; apply (f_equal (@length R)) in Z; rewrite length_sub in Z; rewrite ?La, ?Lb, ?Lc in Z; discriminate).
    cbn [bind]. rewrite norm_R. cbn [bind]. rewrite half_R. change (nmul (n:=RNum)) with Rmult. f_equal. rewrite Rabs_mult, Rabs_right by lra. f_equal. d2. unfold turn, px, py, len. cbn [nth sub pad_to length repeat app Nat.sub cross_spec dot].
    match goal with |- sqrt ?e = Rabs ?t => replace e with (t * t) by ring end. apply sqrt_Rsqr_abs. }
  split; [|split; [exact A|split]].
  - rewrite C64_shoelace; [|split; [discriminate|split; [lia|repeat constructor; auto]]|simpl; lia]. apply (f_equal (@Ok R)). unfold shoelace, closed, turn. cbn [app path]. d2. unfold px, py. cbn [nth]. ring.
  - lra.
  - rewrite collinear_gram by congruence. d2. unfold turn, px, py, gram. cbn [nth sub dot].
    match goal with |- / 2 * ?t = 0 <-> ?e = 0 => replace e with (t * t) by ring; generalize t end. intro t. split; intro Z; nra.
Qed.
Print Assumptions C64_triangle.
Example C64_nonvacuous : area_signed (N:=RNum) [[0; 0]; [2; 0]; [2; 1]; [0; 1]] = Ok 2 /\ around [1; 1 / 2] [[0; 0]; [2; 0]; [2; 1]; [0; 1]].
Proof.
  split.
  - rewrite C64_shoelace; [|split; [discriminate|split; [lia|repeat constructor]]|simpl; lia]. f_equal. unfold shoelace, closed, turn, px, py. simpl. field.
  - unfold around. intros l1 p q l2 E. cbn [app] in E. destruct l1 as [|x1 [|x2 [|x3 [|x4 [|x5 l1]]]]]; cbn [app] in E; try (injection E as <- <- _; unfold turn, px, py; simpl; lra).
    + injection E as _ <- <- _; unfold turn, px, py; simpl; lra.
    + injection E as _ _ <- <- _; unfold turn, px, py; simpl; lra.
    + injection E as _ _ _ <- <- _; unfold turn, px, py; simpl; lra.
    + exfalso. apply (f_equal (@length pt)) in E. simpl in E. rewrite ?app_length in E. simpl in E. lia.
    + exfalso. apply (f_equal (@length pt)) in E. simpl in E. rewrite ?app_length in E. simpl in E. lia.
Qed.

(** ** C65 *)
Lemma sub_ne (a b : pt) : a <> [] -> length b = length a -> sub b a <> [].
Proof. intros Ha L Z. apply Ha. apply length_zero_iff_nil. apply (f_equal (@length R)) in Z. rewrite length_sub in Z. simpl in Z. lia. Qed.
Lemma pad_ab n (a b : pt) : length b = length a -> (length a <= n)%nat -> length (pad_to n (sub b a)) = n.
Proof. intros. rewrite length_pad_to; rewrite length_sub; lia. Qed.
Lemma area_triangle_R (a b c : pt) : a <> [] -> length b = length a -> length c = length a -> (length a <= 3)%nat ->
  area_triangle (N:=RNum) a b c = Ok (/ 2 * sqrt (gram (sub b a) (sub c a))).
Proof.
  intros Ha Lb Lc L3. unfold area_triangle. rewrite (from_points_R a b), (from_points_R a c) by (auto; congruence). cbn [bind].
  rewrite cross_R by (try (apply sub_ne; auto; congruence); rewrite length_sub; lia). cbn [bind]. rewrite norm_R. cbn [bind]. rewrite half_R. change (nmul (n:=RNum)) with Rmult.
  unfold len. rewrite lagrange by (apply pad_ab; congruence). rewrite !pad_to_dot by len. reflexivity.
Qed.
(** Gram determinant of three vectors. *)
Definition gram3 (u v w : pt) : R :=
  dot u u * dot v v * dot w w + 2 * dot u v * dot u w * dot v w - dot u u * (dot v w * dot v w) - dot v v * (dot u w * dot u w) - dot w w * (dot u v * dot u v).
Lemma triple_sq u v w : length u = 3%nat -> length v = 3%nat -> length w = 3%nat -> dot u (cross_spec v w) * dot u (cross_spec v w) = gram3 u v w.
Proof. intros. d3. unfold gram3. cbn [cross_spec dot]. ring. Qed.
Lemma volume_triple_R (a b c d : pt) : a <> [] -> length b = length a -> length c = length a -> length d = length a -> (length a <= 3)%nat ->
  volume_tetrahedron (N:=RNum) a b c d = Ok (/ 6 * Rabs (dot (pad_to 3 (sub b a)) (cross_spec (pad_to 3 (sub c a)) (pad_to 3 (sub d a))))).
Proof.
  intros Ha Lb Lc Ld L3. unfold volume_tetrahedron. rewrite (from_points_R a b), (from_points_R a c), (from_points_R a d) by (auto; congruence). cbn [bind].
  rewrite cross_R by (try (apply sub_ne; auto; congruence); rewrite length_sub; lia). cbn [bind].
  rewrite set_dimension1_R by (try (apply sub_ne; auto; congruence); rn; rewrite length_sub; lia). cbn [bind]. change (Z.to_nat 3) with 3%nat.
  rewrite np_dot_R by (rewrite length_cross, pad_ab; auto; apply pad_ab; auto). cbn [bind]. change (n1 (n:=RNum)) with 1. change (nofZ (n:=RNum) 6) with 6. rewrite ndiv_R by lra. cbn [bind].
  apply (f_equal (@Ok R)). change (nmul (n:=RNum)) with Rmult. change (nabs (n:=RNum)) with Rabs. f_equal. unfold Rdiv. ring.
Qed.
Lemma volume_R (a b c d : pt) : a <> [] -> length b = length a -> length c = length a -> length d = length a -> (length a <= 3)%nat ->
  volume_tetrahedron (N:=RNum) a b c d = Ok (/ 6 * sqrt (gram3 (sub b a) (sub c a) (sub d a))).
Proof.
  intros Ha Lb Lc Ld L3. rewrite volume_triple_R by auto. apply (f_equal (@Ok R)). f_equal. rewrite <- sqrt_Rsqr_abs. f_equal. unfold Rsqr. rewrite triple_sq by (apply pad_ab; auto).
  unfold gram3. rewrite !pad_to_dot by len. reflexivity.
Qed.
Lemma polar a b c : length b = length a -> length c = length a -> dot (sub b a) (sub c a) = (dist a b * dist a b + dist a c * dist a c - dist b c * dist b c) / 2.
Proof.
  intros Lb Lc. unfold dist. rewrite !len_sq. replace (sub c a) with (add (sub c b) (sub b a)) at 1.
  2:{ apply pt_ext; [len|]. intros i _. repeat rewrite ?nth_add, ?nth_scale, ?nth_sub by len. ring. }
  repeat rewrite ?dot_sub_l, ?dot_sub_r, ?dot_add_r, ?dot_add_l by len. rewrite (dot_comm b a), (dot_comm c a), (dot_comm c b). field.
Qed.

(** area_triangle is half of base times height, and zero exactly for collinear points. *)
Theorem C65_area : forall a b c : pt, a <> [] -> length b = length a -> length c = length a -> (length a <= 3)%nat ->
  exists k : R, area_triangle (N:=RNum) a b c = Ok k /\ 0 <= k /\ (k = 0 <-> collinear [a; b; c]) /\
    forall h, min_dist (on_line a (sub b a)) c h -> k = dist a b * h / 2.
Proof.
  intros a b c Ha Lb Lc L3. exists (/ 2 * sqrt (gram (sub b a) (sub c a))). rewrite area_triangle_R by auto. split; auto. pose proof (gram_nonneg (sub b a) (sub c a) ltac:(len)) as G.
  pose proof (sqrt_pos (gram (sub b a) (sub c a))) as P. split; [lra|]. split.
  - rewrite collinear_gram by auto. split; intro Z; [apply sqrt_eq_0; auto; lra|rewrite Z, sqrt_0; ring].
  - intros h Hh. enough (sqrt (gram (sub b a) (sub c a)) = dist a b * h) by lra. destruct (list_eq_dec Req_EM_T a b) as [<-|NE].
    + assert (D : dist a a = 0) by (apply dist_zero_iff; auto). rewrite D. assert (E : gram (sub a a) (sub c a) = 0). { unfold gram. rewrite sub_self, !dot_origin_l. ring. } rewrite E, sqrt_0. ring.
    + assert (Hz : ~ is_zero_vec (sub b a)) by (rewrite sub_zero_iff by auto; congruence). assert (PV : pv_ok a (sub b a)) by (split; [len|]; split; auto).
      rewrite (min_dist_unique _ _ _ _ Hh (lproj_min a (sub b a) c PV Lc)). rewrite (dist_sym a b) by auto. apply sqrt_lem_1; auto; [apply Rmult_le_pos; apply sqrt_pos|].
      set (u := sub b a) in *. assert (Lu : length u = length a) by (unfold u; len). replace (dist b a * dist c (lproj a u c) * (dist b a * dist c (lproj a u c))) with ((dist b a * dist b a) * (dist c (lproj a u c) * dist c (lproj a u c))) by ring.
      unfold dist. rewrite !len_sq. fold u. unfold lproj. set (w := sub c a). assert (Lw : length w = length a) by (unfold w; len).
      assert (E : sub c (add a (scale (dot u w / dot u u) u)) = sub w (scale (dot u w / dot u u) u)). { unfold w. apply pt_ext; [len|]. intros i _. repeat rewrite ?nth_add, ?nth_scale, ?nth_sub by len. ring. }
      rewrite E. clear E. pose proof (dot_self_pos u Hz) as Pu. clearbody w u. repeat rewrite ?dot_sub_l, ?dot_sub_r by len. repeat rewrite ?dot_scale_l, ?dot_scale_r. rewrite (dot_comm w u). unfold gram. field. lra.
Qed.
Print Assumptions C65_area.
(** Only the distances between the points matter (so area and volume are invariant under translations, rotations and reflections, and
    do not change when zeros are appended to all points). *)
Theorem C65_distances : forall a b c d a' b' c' d' : pt, a <> [] -> length b = length a -> length c = length a -> length d = length a -> (length a <= 3)%nat ->
  a' <> [] -> length b' = length a' -> length c' = length a' -> length d' = length a' -> (length a' <= 3)%nat ->
  dist a b = dist a' b' -> dist a c = dist a' c' -> dist b c = dist b' c' ->
  area_triangle (N:=RNum) a b c = area_triangle (N:=RNum) a' b' c' /\
  (dist a d = dist a' d' -> dist b d = dist b' d' -> dist c d = dist c' d' -> volume_tetrahedron (N:=RNum) a b c d = volume_tetrahedron (N:=RNum) a' b' c' d').
Proof.
  intros a b c d a' b' c' d' Ha Lb Lc Ld L3 Ha' Lb' Lc' Ld' L3' E1 E2 E3.
  assert (P1 : dot (sub b a) (sub b a) = dot (sub b' a') (sub b' a')) by (rewrite !polar by auto; rewrite E1, (proj2 (dist_zero_iff b b eq_refl) eq_refl), (proj2 (dist_zero_iff b' b' eq_refl) eq_refl); reflexivity).
  assert (P2 : dot (sub c a) (sub c a) = dot (sub c' a') (sub c' a')) by (rewrite !polar by auto; rewrite E2, (proj2 (dist_zero_iff c c eq_refl) eq_refl), (proj2 (dist_zero_iff c' c' eq_refl) eq_refl); reflexivity).
  assert (P3 : dot (sub b a) (sub c a) = dot (sub b' a') (sub c' a')) by (rewrite !polar by auto; rewrite E1, E2, E3; reflexivity).
  split; [rewrite !area_triangle_R by auto; unfold gram; rewrite P1, P2, P3; reflexivity|]. intros E4 E5 E6.
  assert (P4 : dot (sub d a) (sub d a) = dot (sub d' a') (sub d' a')) by (rewrite !polar by auto; rewrite E4, (proj2 (dist_zero_iff d d eq_refl) eq_refl), (proj2 (dist_zero_iff d' d' eq_refl) eq_refl); reflexivity).
  assert (P5 : dot (sub b a) (sub d a) = dot (sub b' a') (sub d' a')) by (rewrite !polar by auto; rewrite E1, E4, E5; reflexivity).
  assert (P6 : dot (sub c a) (sub d a) = dot (sub c' a') (sub d' a')) by (rewrite !polar by auto; rewrite E2, E4, E6; reflexivity).
  rewrite !volume_R by auto. unfold gram3. rewrite P1, P2, P3, P4, P5, P6. reflexivity.
Qed.
Print Assumptions C65_distances.
(** The order of the points is irrelevant. *)
Lemma transp_inv (F : list pt -> res R) (d : nat) : (forall l1 x y l2, Forall (fun p => length p = d) (l1 ++ y :: x :: l2) -> F (l1 ++ y :: x :: l2) = F (l1 ++ x :: y :: l2)) ->
  forall l l', Permutation l l' -> Forall (fun p => length p = d) l -> F l = F l'.
Proof.
  intros H l l' P. apply Permutation_Permutation_transp in P. induction P as [l|x y l1 l2|l l' l'' P1 IH1 P2 IH2]; intro Fl; auto.
  rewrite IH1 by auto. apply IH2. eapply Permutation_Forall; [|exact Fl]. apply Permutation_Permutation_transp. exact P1.
Qed.
Theorem C65_permutation : forall a b c d a' b' c' d' : pt, a <> [] -> length b = length a -> length c = length a -> length d = length a -> (length a <= 3)%nat ->
  (Permutation [a; b; c] [a'; b'; c'] -> area_triangle (N:=RNum) a b c = area_triangle (N:=RNum) a' b' c') /\
  (Permutation [a; b; c; d] [a'; b'; c'; d'] -> volume_tetrahedron (N:=RNum) a b c d = volume_tetrahedron (N:=RNum) a' b' c' d').
Proof.
  intros a b c d a' b' c' d' Ha Lb Lc Ld L3. assert (NE : forall p : pt, length p = length a -> p <> []) by (intros p L Z; subst; apply Ha, length_zero_iff_nil; auto). split; intro P.
  - set (F := fun l : list pt => match l with [x; y; z] => area_triangle (N:=RNum) x y z | _ => NonFinite end). change (F [a; b; c] = F [a'; b'; c']).
    apply (transp_inv F (length a)); [|exact P|repeat constructor; auto]. clear P. intros l1 x y l2 Fl.
    destruct l1 as [|z [|z1 [|z2 l1]]].
    + destruct l2 as [|z [|]]; auto. unfold F. cbn [app]. inversion_clear Fl as [|? ? Ly G1]. inversion_clear G1 as [|? ? Lx G2]. inversion_clear G2 as [|? ? Lz _].
      rewrite !area_triangle_R by (auto; congruence). do 3 f_equal. unfold gram. rewrite !polar by congruence. rewrite (dist_sym y x) by congruence. rewrite !(proj2 (dist_zero_iff _ _ eq_refl) eq_refl). field.
    + destruct l2 as [|]; auto. unfold F. cbn [app]. inversion_clear Fl as [|? ? Ly G1]. inversion_clear G1 as [|? ? Lx G2]. inversion_clear G2 as [|? ? Lz _].
      rewrite !area_triangle_R by (auto; congruence). do 3 f_equal. unfold gram. rewrite !polar by congruence. rewrite (dist_sym y x) by congruence. rewrite !(proj2 (dist_zero_iff _ _ eq_refl) eq_refl). field.
    + reflexivity.
    + unfold F. cbn [app]. destruct l1; reflexivity.
  - set (F := fun l : list pt => match l with [x; y; z; w] => volume_tetrahedron (N:=RNum) x y z w | _ => NonFinite end). change (F [a; b; c; d] = F [a'; b'; c'; d']).
    apply (transp_inv F (length a)); [|exact P|repeat constructor; auto]. clear P. intros l1 x y l2 Fl.
    assert (K : forall p q r s : pt, length p = length a -> length q = length a -> length r = length a -> length s = length a ->
      volume_tetrahedron (N:=RNum) p q r s = volume_tetrahedron (N:=RNum) q p r s /\ volume_tetrahedron (N:=RNum) p q r s = volume_tetrahedron (N:=RNum) p r q s /\ volume_tetrahedron (N:=RNum) p q r s = volume_tetrahedron (N:=RNum) p q s r).
    { intros p q r s Lp Lq Lr Ls. rewrite !volume_R by (auto; congruence). split; [|split]; do 3 f_equal; unfold gram3; rewrite !polar by congruence; rewrite ?(dist_sym q p), ?(dist_sym r q), ?(dist_sym s r) by congruence; rewrite !(proj2 (dist_zero_iff _ _ eq_refl) eq_refl); field. }
    destruct l1 as [|z [|z1 [|z2 [|z3 l1]]]].
    + destruct l2 as [|z [|z1 [|]]]; auto. cbn [app F] in *. inversion_clear Fl as [|? ? Ly G1]. inversion_clear G1 as [|? ? Lx G2]. inversion_clear G2 as [|? ? Lz G3]. inversion_clear G3 as [|? ? Lz1 _]. apply K; auto.
    + destruct l2 as [|z1 [|]]; auto. cbn [app F] in *. inversion_clear Fl as [|? ? Ly G1]. inversion_clear G1 as [|? ? Lx G2]. inversion_clear G2 as [|? ? Lz G3]. inversion_clear G3 as [|? ? Lz1 _]. apply K; auto.
    + destruct l2 as [|]; auto. cbn [app F] in *. inversion_clear Fl as [|? ? Ly G1]. inversion_clear G1 as [|? ? Lx G2]. inversion_clear G2 as [|? ? Lz G3]. inversion_clear G3 as [|? ? Lz1 _]. apply K; auto.
    + reflexivity.
    + unfold F. cbn [app]. destruct l1; reflexivity.
Qed.
Print Assumptions C65_permutation.

Lemma coplanar_triple a b c d : length a = 3%nat -> length b = 3%nat -> length c = 3%nat -> length d = 3%nat ->
  (dot (sub b a) (cross_spec (sub c a) (sub d a)) = 0 <-> coplanar [a; b; c; d]).
Proof.
  intros La Lb Lc Ld. split.
  - intro Z. set (u := sub b a) in *. set (v := sub c a) in *. set (w := sub d a) in *. assert (Lu : length u = 3%nat) by (unfold u; len). assert (Lv : length v = 3%nat) by (unfold v; len). assert (Lw : length w = 3%nat) by (unfold w; len).
    assert (K : exists n, length n = 3%nat /\ ~ is_zero_vec n /\ dot u n = 0 /\ dot v n = 0 /\ dot w n = 0).
    { assert (O : forall ws, (length ws < 3)%nat -> Forall (fun w => length w = 3%nat) ws -> exists x, length x = 3%nat /\ ~ is_zero_vec x /\ forall w, In w ws -> dot w x = 0).
      { intros ws L Fw. destruct (exists_orth 3 ws L Fw) as (x & Lx & Ux & Ox). exists x. split; auto. split; auto. intro Hz. apply dot_self_zero_iff in Hz. lra. }
      destruct (Req_EM_T (dot (cross_spec v w) (cross_spec v w)) 0) as [Hz|Hn].
      - apply dot_self_zero_iff in Hz. apply cross_zero_iff in Hz; auto. destruct Hz as [(t & ->)|(t & ->)].
        + destruct (O [u; w]) as (n & Ln & Zn & On); [simpl; lia|repeat constructor; auto|]. exists n. split; auto. split; auto. rewrite dot_scale_l, (On u), (On w) by (simpl; auto). split; auto. split; auto. ring.
        + destruct (O [u; v]) as (n & Ln & Zn & On); [simpl; lia|repeat constructor; auto|]. exists n. split; auto. split; auto. rewrite dot_scale_l, (On u), (On v) by (simpl; auto). split; auto. split; auto. ring.
      - exists (cross_spec v w). split; [apply length_cross; auto|]. split; [intro Hz; apply dot_self_zero_iff in Hz; auto|]. split; auto. split; [rewrite dot_comm; apply cross_dot_l; auto|rewrite dot_comm; apply cross_dot_r; auto]. }
    destruct K as (n & Ln & Zn & K1 & K2 & K3). apply (plane_coplanar a n); auto. intros x Hx. destruct Hx as [<-|[<-|[<-|[<-|[]]]]]; auto. rewrite sub_self. apply dot_origin_l.
  - intros (p & u & v & Lu & Lv & H). destruct (H a) as (sa & ta & Ea); [simpl; auto|]. destruct (H b) as (sb & tb & Eb); [simpl; auto|]. destruct (H c) as (sc & tc & Ec); [simpl; auto|]. destruct (H d) as (sd & td & Ed); [simpl; auto|].
    assert (Lp : length p = 3%nat). { rewrite Ea in La. rewrite !length_add, !length_scale in La. lia. }
    rewrite Lp in Lu, Lv. clear H. rewrite Ea, Eb, Ec, Ed. clear - Lp Lu Lv. d3. unfold scale. cbn [map add sub cross_spec dot]. ring.
Qed.
Lemma small_flat (a b c d : pt) : a <> [] -> length b = length a -> length c = length a -> length d = length a -> (length a < 3)%nat ->
  coplanar [a; b; c; d] /\ dot (pad_to 3 (sub b a)) (cross_spec (pad_to 3 (sub c a)) (pad_to 3 (sub d a))) = 0.
Proof.
  intros Ha Lb Lc Ld L. destruct a as [|a1 [|a2 [|]]]; [contradiction| | |simpl in L; lia].
  - destruct b as [|b1 [|]]; try discriminate. destruct c as [|c1 [|]]; try discriminate. destruct d as [|d1 [|]]; try discriminate. split; [|simpl; ring].
    exists [0], [1], [1]. split; auto. split; auto. intros x [<-|[<-|[<-|[<-|[]]]]]; match goal with |- exists s t, [?r] = _ => exists r, 0 end; unfold scale; cbn [map add]; veq.
  - destruct b as [|b1 [|b2 [|]]]; try discriminate. destruct c as [|c1 [|c2 [|]]]; try discriminate. destruct d as [|d1 [|d2 [|]]]; try discriminate. split; [|simpl; ring].
    exists [0; 0], [1; 0], [0; 1]. split; auto. split; auto. intros x [<-|[<-|[<-|[<-|[]]]]]; match goal with |- exists s t, [?r; ?q] = _ => exists r, q end; unfold scale; cbn [map add]; veq.
Qed.
Lemma pad_inj n a b : length a = length b -> pad_to n a = pad_to n b -> a = b.
Proof. intros L E. unfold pad_to in E. rewrite <- L in E. apply app_inv_tail in E. exact E. Qed.
Lemma pad_add n a b : length a = length b -> pad_to n (add a b) = add (pad_to n a) (pad_to n b).
Proof.
  intro L. apply pt_ext; [rewrite length_add; unfold pad_to; rewrite !app_length, !repeat_length, length_add; lia|]. intros i _. rewrite nth_add by (unfold pad_to; rewrite !app_length, !repeat_length; lia).
  unfold pad_to. destruct (Nat.lt_ge_cases i (length a)) as [Hi|Hi].
  - rewrite !app_nth1 by (rewrite ?length_add; lia). apply nth_add; auto.
  - rewrite !app_nth2 by (rewrite ?length_add; lia). rewrite !nth_repeat. ring.
Qed.
Lemma pad_scale n k a : pad_to n (scale k a) = scale k (pad_to n a).
Proof. unfold pad_to, scale. rewrite map_app, map_length. f_equal. generalize (n - length a)%nat. intro m. induction m; simpl; auto. rewrite <- IHm. f_equal. ring. Qed.

(** volume_tetrahedron is one third of base times height, and zero exactly for coplanar points. *)
Theorem C65_volume : forall a b c d : pt, a <> [] -> length b = length a -> length c = length a -> length d = length a -> (length a <= 3)%nat ->
  exists k : R, volume_tetrahedron (N:=RNum) a b c d = Ok k /\ 0 <= k /\ (k = 0 <-> coplanar [a; b; c; d]) /\
    forall s h, area_triangle (N:=RNum) a b c = Ok s -> min_dist (span3 a b c) d h -> k = s * h / 3.
Proof.
  intros a b c d Ha Lb Lc Ld L3. rewrite volume_triple_R by auto. eexists. split; [reflexivity|]. set (T := dot (pad_to 3 (sub b a)) _). pose proof (Rabs_pos T) as PT. split; [lra|].
  assert (Zt : / 6 * Rabs T = 0 <-> T = 0). { split; intro Z; [destruct (Req_EM_T T 0) as [|N]; auto; apply Rabs_pos_lt in N; lra|rewrite Z, Rabs_R0; ring]. }
  split.
  - rewrite Zt. destruct (Nat.eq_dec (length a) 3) as [E3|N3].
    + unfold T. rewrite !pad_to_id by (rewrite length_sub; lia). apply coplanar_triple; congruence.
    + destruct (small_flat a b c d) as (C1 & C2); auto; [lia|]. unfold T. split; auto.
  - intros s h Es Hh. rewrite area_triangle_R in Es by auto. injection Es as <-. set (n := cross_spec (pad_to 3 (sub b a)) (pad_to 3 (sub c a))).
    assert (P1 : length (pad_to 3 (sub b a)) = 3%nat) by (apply pad_ab; auto). assert (P2 : length (pad_to 3 (sub c a)) = 3%nat) by (apply pad_ab; auto). assert (P3 : length (pad_to 3 (sub d a)) = 3%nat) by (apply pad_ab; auto).
    assert (Gn : gram (sub b a) (sub c a) = dot n n). { unfold n. rewrite lagrange by auto. rewrite !pad_to_dot by len. reflexivity. }
    assert (Tn : T = dot n (pad_to 3 (sub d a))) by (unfold T, n; clear - P1 P2 P3; generalize dependent (pad_to 3 (sub d a)); generalize dependent (pad_to 3 (sub c a)); generalize dependent (pad_to 3 (sub b a)); intros x X y Y z Z; d3; cbn [cross_spec dot]; ring).
    assert (Ln : length n = 3%nat) by (apply length_cross; auto). rewrite Gn. change (sqrt (dot n n)) with (len n).
    destruct (Req_EM_T (dot n n) 0) as [Zn|Nn].
    + apply dot_self_zero_iff in Zn as Zv. assert (Z0 : len n = 0) by (unfold len; rewrite Zn; apply sqrt_0). rewrite Z0. rewrite Tn. unfold is_zero_vec in Zv. rewrite Zv, dot_origin_l, Rabs_R0. field.
    + assert (Hz : ~ is_zero_vec n) by (intro Z; apply dot_self_zero_iff in Z; auto).
      destruct (Req_EM_T T 0) as [T0|TN].
      * assert (Sp : span3 a b c d).
        { destruct (proj1 (plane_span (pad_to 3 a) (pad_to 3 (sub b a)) (pad_to 3 (sub c a)) (pad_to 3 d) ltac:(rewrite length_pad_to; lia) P1 P2 Hz)) as (u & v & E).
          - split; [rewrite !length_pad_to; lia|]. rewrite pad_to_sub by auto. rewrite dot_comm. fold n. rewrite <- Tn. exact T0.
          - exists u, v. apply (pad_inj 3); [len|]. rewrite E. rewrite !pad_add by len. rewrite !pad_scale. reflexivity. }
        destruct Hh as ((y & Hy & Hd) & Hm). assert (h = 0). { apply Rle_antisym; [specialize (Hm d Sp); rewrite (proj2 (dist_zero_iff d d eq_refl) eq_refl) in Hm; exact Hm|rewrite <- Hd; apply sqrt_pos]. }
        rewrite H, T0, Rabs_R0. field.
      * assert (E3 : length a = 3%nat). { destruct (Nat.eq_dec (length a) 3) as [|N3]; auto. exfalso. apply TN. unfold T. apply small_flat; auto; lia. }
        assert (En : n = cross_spec (sub b a) (sub c a)) by (unfold n; rewrite !pad_to_id by (rewrite length_sub; lia); reflexivity).
        assert (PV : pv_ok a n) by (split; [congruence|]; split; auto).
        assert (Hp : min_dist (on_plane a n) d h).
        { assert (EQ : forall x, on_plane a n x <-> span3 a b c x) by (intro x; rewrite En; unfold span3; apply plane_span; try len; rewrite <- En; auto).
          destruct Hh as ((y & Hy & Hd) & Hm). split; [exists y; split; auto; apply EQ; auto|]. intros z Hz'. apply Hm, EQ, Hz'. }
        rewrite (min_dist_unique _ _ _ _ Hp (pproj_min a n d PV Ld)). rewrite <- sdist_abs by auto. unfold sdist. pose proof (len_pos n Hz) as Pl.
        rewrite Tn, (pad_to_id 3 (sub d a)) by (rewrite length_sub; lia). unfold Rdiv. rewrite Rabs_mult, Rabs_inv, (Rabs_right (len n)) by lra. field. lra.
Qed.
Print Assumptions C65_volume.

(** Points of more than three dimensions are rejected. *)
Theorem C65_rejects : forall a b c d : pt, (3 < length a)%nat -> length b = length a -> length c = length a -> length d = length a ->
  (exists msg, area_triangle (N:=RNum) a b c = Raise (ValueError msg)) /\ (exists msg, volume_tetrahedron (N:=RNum) a b c d = Raise (ValueError msg)).
Proof.
  intros a b c d L Lb Lc Ld. assert (Ha : a <> []) by (intro; subst; simpl in L; lia).
  unfold area_triangle, volume_tetrahedron. rewrite (from_points_R a b), (from_points_R a c), (from_points_R a d) by (auto; congruence). cbn [bind].
  destruct (cross_err_l (N:=RNum) (sub b a) (sub c a)) as (m1 & E1); [rn; rewrite length_sub; lia|]. destruct (cross_err_l (N:=RNum) (sub c a) (sub d a)) as (m2 & E2); [rn; rewrite length_sub; lia|].
  rewrite E1, E2. split; eexists; reflexivity.
Qed.
Print Assumptions C65_rejects.
Example C65_nonvacuous : volume_tetrahedron (N:=RNum) [0; 0; 0] [1; 0; 0] [0; 2; 0] [0; 0; 3] = Ok 1 /\ area_triangle (N:=RNum) [0; 0] [3; 0] [1; 4] = Ok 6.
Proof.
  split.
  - rewrite volume_triple_R by (simpl; auto; try discriminate; lia). apply (f_equal (@Ok R)). cbn [sub pad_to length Nat.sub repeat app cross_spec dot]. rewrite Rabs_right by lra. field.
  - rewrite area_triangle_R by (simpl; auto; try discriminate; lia). apply (f_equal (@Ok R)). unfold gram. cbn [sub dot]. match goal with |- / 2 * sqrt ?e = 6 => replace e with (12 * 12) by ring end. rewrite sqrt_square by lra. field.
Qed.
