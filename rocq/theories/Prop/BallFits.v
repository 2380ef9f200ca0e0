(** * Property C50: Circle.best_fit and Sphere.best_fit *)
From Coq Require Import String Reals List ZArith Lra Lia Psatz Bool.
From Verif.Model Require Import Outcome Num Instances Numpy BaseArray Vector Points Functions Line Plane Sphere.
From Verif.Spec Require Import Geometry Tolerance Mesh Linalg.
From Verif.Proof Require Import VecAlg Bridge Arrays Vectors Points Lines Lincomb Svd SvdExists Ranks.
From Verif.Prop Require Import Arrays Points Ranks Balls Spheres.
Import ListNotations.
Local Open Scope R_scope.

(** ** Orthonormal completion, and the flat perpendicular to a vector *)
Lemma onb_extend d : forall k vs, onb d vs -> (d - length vs = k)%nat -> exists ws, onb d (vs ++ ws) /\ length (vs ++ ws) = d.
Proof.
  induction k as [|k IH]; intros vs H L.
  - exists []. rewrite app_nil_r. split; auto. pose proof (onb_bound d vs H). lia.
  - destruct (exists_orth d vs) as (x & Lx & Ux & Px); [lia|apply onb_Forall; auto|].
    destruct (IH (vs ++ [x])) as (ws & Hw & Lw); [apply onb_snoc; auto|rewrite app_length; simpl; lia|].
    exists (x :: ws). rewrite <- app_assoc in Hw, Lw. auto.
Qed.
Lemma hyperplane_flat d (n p : pt) (ps : list pt) : length n = d -> ~ is_zero_vec n -> length p = d -> Forall (fun x => length x = d) ps ->
  (forall x, In x ps -> dot (sub x p) n = 0) -> in_flat d (d - 1) ps.
Proof.
  intros Ln Hn Lp F H. set (u := scale (/ len n) n). assert (Uu : dot u u = 1) by (apply unit_of_nonzero; auto). assert (Lu : length u = d) by (unfold u; len).
  assert (Ou : onb d [u]). { split; intros; destruct k as [|[|]]; simpl in *; try lia; auto. destruct j as [|[|]]; try lia. rewrite delta_eq. auto. }
  destruct (onb_extend d _ [u] Ou eq_refl) as (ws & Ow & Lw). simpl app in Ow, Lw.
  exists p, ws. split; auto. split; [simpl in Lw; lia|]. pose proof (onb_Forall d _ Ow) as Fw. split; [inversion Fw; auto|].
  intros x Hx. rewrite Forall_forall in F. assert (Lx := F x Hx). exists (map (fun w => dot w (sub x p)) ws). split; [rewrite map_length; simpl in Lw; lia|].
  pose proof (onb_coords d (u :: ws) (sub x p) Ow Lw ltac:(len)) as E. cbn [map lincomb] in E.
  assert (Z : dot u (sub x p) = 0). { unfold u. rewrite dot_scale_l, (dot_comm n), H by auto. ring. }
  rewrite Z, scale_0, add_origin_l in E by (rewrite Lu; apply length_lincomb; inversion Fw; auto).
  rewrite <- E, add_sub_cancel by congruence. reflexivity.
Qed.

(** ** The linear system *)
Lemma dist2_expand d p c : length p = d -> length c = d -> dist p c * dist p c = dot p p - 2 * dot p c + dot c c.
Proof. intros Lp Lc. rewrite dist_sq, dot_sub_sub by congruence. reflexivity. Qed.
Lemma map2_lists {A} (f g : A -> R) l : dot (sub (map f l) (map g l)) (sub (map f l) (map g l)) = Rsum (map (fun x => (f x - g x) * (f x - g x)) l).
Proof. induction l as [|x l IH]; simpl; auto. rewrite IH. unfold Rsum. simpl. reflexivity. Qed.
Lemma nsum_sq (r : pt) : nsum (N:=RNum) (map (nsq (N:=RNum)) r) = dot r r.
Proof. rewrite nsum_Rsum. induction r as [|x r IH]; [reflexivity|]. cbn [map dot]. rewrite <- IH. reflexivity. Qed.

(** The residual of the linear system at (c, k) is the algebraic error of centre c with r^2 = k + |c|^2. *)
Definition residual (ps : list pt) (z : pt) : R := dist (map (fun a => dot a z) (fit_matrix (N:=RNum) ps)) (fit_rhs (N:=RNum) ps).
Lemma residual_sq d ps c k : Forall (fun p => length p = d) ps -> length c = d ->
  residual ps (c ++ [k]) * residual ps (c ++ [k]) = Rsum (map (fun p => (dist p c * dist p c - (k + dot c c)) * (dist p c * dist p c - (k + dot c c))) ps).
Proof.
  intros F Lc. unfold residual. rewrite dist_sq. unfold fit_matrix, fit_rhs. rewrite map_map. rewrite map2_lists. apply Rsum_map_ext.
  intros p Hp. rewrite Forall_forall in F. assert (Lp := F p Hp). rewrite (dist2_expand d) by auto.
  rewrite nsum_sq, dot_app by (rewrite length_scale; congruence). change (vscale (N:=RNum)) with scale. rewrite dot_scale_l. rops. simpl (dot [1] [k]). ring.
Qed.

(** Core: a least-squares solution of the system. *)
Lemma fit_core d ps z : points_ok d ps -> length z = S d -> (forall z', length z' = S d -> residual ps z <= residual ps z') ->
  exists c k, z = c ++ [k] /\ length c = d /\
    INR (length ps) * (k + dot c c) = sumsq ps c /\
    (forall c' r', length c' = d -> Rsum (map (fun p => (dist p c * dist p c - (k + dot c c)) * (dist p c * dist p c - (k + dot c c))) ps) <= alg_error ps c' r').
Proof.
  intros (Hne & Hd & F) Lz M.
  destruct (exists_last (l := z)) as (c & k & ->); [destruct z; discriminate|]. rewrite app_length in Lz. simpl in Lz. assert (Lc : length c = d) by lia.
  exists c, k. split; auto. split; auto.
  assert (Opt : forall c' k', length c' = d -> Rsum (map (fun p => (dist p c * dist p c - (k + dot c c)) * (dist p c * dist p c - (k + dot c c))) ps) <=
       Rsum (map (fun p => (dist p c' * dist p c' - (k' + dot c' c')) * (dist p c' * dist p c' - (k' + dot c' c'))) ps)).
  { intros c' k' Lc'. rewrite <- !(residual_sq d) by auto. assert (B := M (c' ++ [k']) ltac:(rewrite app_length; simpl; lia)).
    apply Rmult_le_compat; auto; apply dist_nonneg. }
  split.
  - (* optimality in the last coordinate *)
    set (s := k + dot c c). assert (P := INR_length_pos ps Hne). set (n := INR (length ps)) in *.
    assert (E : forall s', Rsum (map (fun p => (dist p c * dist p c - s') * (dist p c * dist p c - s')) ps) =
        Rsum (map (fun p => (dist p c * dist p c) * (dist p c * dist p c)) ps) - 2 * s' * sumsq ps c + n * (s' * s')).
    { intro s'. unfold sumsq, n. rewrite <- Rsum_map_const. rewrite (Rsum_map_ext _ (fun p => (dist p c * dist p c * (dist p c * dist p c) + (- 2 * s') * (dist p c * dist p c)) + s' * s')) by (intros; ring).
      rewrite Rsum_map_add, Rsum_map_add, Rsum_map_scale. ring. }
    specialize (Opt c (sumsq ps c / n - dot c c) Lc). replace (sumsq ps c / n - dot c c + dot c c) with (sumsq ps c / n) in Opt by ring. fold s in Opt. rewrite !E in Opt.
    set (A := Rsum _) in Opt. clearbody A s. set (W := sumsq ps c) in *. clearbody W n. clear - P Opt.
    assert (Q : n * (s - W / n) * (s - W / n) <= 0). { replace (n * (s - W / n) * (s - W / n)) with (n * (s * s) - 2 * s * W + W * W / n) by (field; lra). replace (- (2 * (W / n) * W) + n * (W / n * (W / n))) with (- (W * W / n)) in Opt by (field; lra).
      assert (n * (W / n * (W / n)) - 2 * (W / n) * W = - (W * W / n)) by (field; lra). lra. }
    assert (Z : s - W / n = 0). { apply Rsqr_0_uniq. unfold Rsqr. assert (0 <= (s - W / n) * (s - W / n)) by apply Rle_0_sqr. apply Rle_antisym; auto. apply Rmult_le_reg_l with n; auto. lra. }
    replace s with (W / n) by lra. field. lra.
  - intros c' r' Lc'. specialize (Opt c' (r' * r' - dot c' c') Lc'). replace (r' * r' - dot c' c' + dot c' c') with (r' * r') in Opt by ring. exact Opt.
Qed.
Lemma fit_matrix_ok d ps : points_ok d ps -> points_ok (S d) (fit_matrix (N:=RNum) ps) /\ length (fit_rhs (N:=RNum) ps) = length (fit_matrix (N:=RNum) ps).
Proof.
  intros (Hne & Hd & F). unfold fit_matrix, fit_rhs. split; [|rewrite !map_length; auto]. split; [destruct ps; [contradiction|discriminate]|]. split; [lia|].
  apply Forall_forall. intros a Ha. apply in_map_iff in Ha as (p & <- & Hp). rewrite Forall_forall in F. rewrite app_length. change (vscale (N:=RNum)) with scale. rewrite length_scale, (F p Hp). simpl. lia.
Qed.
(** Points that are not all equal have a positive sum of squared distances. *)
Lemma sumsq_pos d ps c : points_ok d ps -> length c = d -> ~ in_flat d 0 ps -> 0 < sumsq ps c.
Proof.
  intros (Hne & Hd & F) Lc Nf. assert (P : 0 <= sumsq ps c). { apply Rsum_nonneg. intros x Hx. apply in_map_iff in Hx as (p & <- & _). apply Rle_0_sqr. }
  destruct P as [P|P]; auto. exfalso. apply Nf. exists c, []. split; auto. split; auto. split; auto. intros x Hx. exists []. split; auto. simpl. rewrite add_origin_r by auto.
  rewrite Forall_forall in F. apply dist_zero_iff; [rewrite (F x Hx); auto|]. apply Rsqr_0_uniq. unfold Rsqr.
  apply (Rsum_zero (map (fun p => dist p c * dist p c) ps)); auto.
  - intros y Hy. apply in_map_iff in Hy as (p & <- & _). apply Rle_0_sqr.
  - apply in_map_iff. exists x. auto.
Qed.
(** A sphere through points not in a flat of lower dimension is determined by them. *)
Lemma sphere_unique d ps c c' s s' : points_ok d ps -> length c = d -> length c' = d -> ~ in_flat d (d - 1) ps ->
  (forall p, In p ps -> dist p c * dist p c = s) -> (forall p, In p ps -> dist p c' * dist p c' = s') -> c = c' /\ s = s'.
Proof.
  intros (Hne & Hd & F) Lc Lc' Nf H H'. assert (E : c = c').
  { destruct (is_zero_vec_dec (sub c c')) as [Z|Z]; [apply sub_zero_iff; auto; congruence|]. exfalso. apply Nf.
    destruct ps as [|p0 ps]; [contradiction|]. assert (F0 := Forall_inv F). rewrite Forall_forall in F.
    apply (hyperplane_flat d (sub c c') p0); auto; [len|apply Forall_forall; auto|]. intros x Hx. assert (Lx := F x Hx).
    assert (A := H x Hx). assert (A' := H' x Hx). assert (B := H p0 (or_introl eq_refl)). assert (B' := H' p0 (or_introl eq_refl)).
    rewrite (dist2_expand d) in A, A', B, B' by auto. rewrite dot_sub_l, !dot_sub_r by congruence. lra. }
  split; auto. subst c'. destruct ps as [|p0 ps]; [contradiction|]. rewrite <- (H p0 (or_introl eq_refl)). apply H'. left; auto.
Qed.
Lemma rank_not_flat LA d m ps r : svd_correct LA -> points_ok d ps -> affine_rank LA None ps = Ok r -> (m < r)%nat -> ~ in_flat d m ps.
Proof. intros HL HP E Hm Hf. destruct (flat_rank_le LA None d m ps HL HP I Hf) as (r' & E' & Hr). pose proof (eq_trans (eq_sym E) E') as Z. injection Z as <-. lia. Qed.

(** ** Circle.best_fit *)
(** Points (at least three, of numerical affine rank two): the result exists, minimises the algebraic error over all
    centres and radii, its squared radius is the mean squared distance from the centre, and points exactly on a circle recover it. *)
Theorem C50_circle_best_fit : forall LA (ps : list pt), svd_correct LA -> lstsq_correct LA -> points_ok 2 ps -> (3 <= length ps)%nat -> affine_rank LA None ps = Ok 2%nat ->
  exists b c r, circle_best_fit LA ps = Ok b /\ b = MkBall c r /\ length c = 2%nat /\ 0 < r /\
    (forall c' r', length c' = 2%nat -> alg_error ps c r <= alg_error ps c' r') /\
    INR (length ps) * (r * r) = sumsq ps c /\
    (forall c0 r0, 0 < r0 -> length c0 = 2%nat -> (forall p, In p ps -> on_sphere c0 r0 p) -> c = c0 /\ r = r0).
Proof.
  intros LA ps HS HL HP Hn Hr. pose proof HP as (Hne & Hd & F). unfold circle_best_fit.
  rewrite (points_of_R ps 2) by auto. cbn [bind]. rewrite (dim2_ok 2) by auto. cbn [Nat.eqb negb]. rewrite (proj2 (Nat.ltb_ge _ _)) by (rn; auto). rewrite Hr. cbn [bind Nat.eqb negb].
  destruct (fit_matrix_ok 2 ps HP) as (HM & HR). destruct (HL _ _ _ HM HR) as (z & Ez & Lz & Mz). rewrite Ez. cbn [bind].
  destruct (fit_core 2 ps z HP Lz Mz) as (c & k & -> & Lc & Q & Opt). destruct (list2 c Lc) as (c0 & c1 & ->). cbn [app]. rops.
  assert (S0 : k + c0 * c0 + c1 * c1 = k + dot [c0; c1] [c0; c1]) by (simpl; ring). rewrite S0.
  set (s := k + dot [c0; c1] [c0; c1]) in *. assert (Ps : 0 < s).
  { assert (P := INR_length_pos ps Hne). assert (W := sumsq_pos 2 ps [c0; c1] HP eq_refl (rank_not_flat LA 2 0 ps 2 HS HP Hr ltac:(lia))). rewrite <- Q in W. apply Rmult_lt_reg_l with (INR (length ps)); auto. lra. }
  unfold np_sqrt. rops. rewrite (proj2 (Rltb_false s 0)) by lra. cbn [bind]. assert (Pr : 0 < sqrt s) by (apply sqrt_lt_R0; auto). assert (Qr : sqrt s * sqrt s = s) by (apply sqrt_sqrt; lra).
  exists (MkBall (N:=RNum) [c0; c1] (sqrt s)), [c0; c1], (sqrt s). split; [apply C45_construction; auto|]. split; auto. split; auto. split; auto. split; [|split].
  - intros c' r' Lc'. unfold alg_error at 1. rewrite Qr. apply Opt; auto.
  - rewrite Qr. auto.
  - intros q0 r0 H0 L0 On.
    assert (Z : Rsum (map (fun p => (dist p [c0; c1] * dist p [c0; c1] - s) * (dist p [c0; c1] * dist p [c0; c1] - s)) ps) = 0).
    { apply Rle_antisym; [|apply Rsum_nonneg; intros x Hx; apply in_map_iff in Hx as (p & <- & _); apply Rle_0_sqr].
      eapply Rle_trans; [apply (Opt q0 r0 L0)|]. apply Req_le. unfold alg_error. rewrite (Rsum_map_ext _ (fun _ => 0)); [rewrite Rsum_map_const; ring|]. intros p Hp. destruct (On p Hp) as (_ & ->). ring. }
    destruct (sphere_unique 2 ps [c0; c1] q0 s (r0 * r0) HP eq_refl L0) as (A & B).
    + apply (rank_not_flat LA 2 1 ps 2); auto.
    + intros p Hp. assert (G : (dist p [c0; c1] * dist p [c0; c1] - s) * (dist p [c0; c1] * dist p [c0; c1] - s) = 0).
      { apply (Rsum_zero (map (fun p => (dist p [c0; c1] * dist p [c0; c1] - s) * (dist p [c0; c1] * dist p [c0; c1] - s)) ps)); auto.
        - intros x Hx. apply in_map_iff in Hx as (y & <- & _). apply Rle_0_sqr.
        - apply in_map_iff. exists p. auto. }
      apply Rsqr_0_uniq in G. lra.
    + intros p Hp. destruct (On p Hp) as (_ & ->). reflexivity.
    + split; auto. rewrite B. apply sqrt_square. lra.
Qed.
Print Assumptions C50_circle_best_fit.

(** ** Sphere.best_fit *)
Theorem C50_sphere_best_fit : forall LA (ps : list pt), svd_correct LA -> lstsq_correct LA -> points_ok 3 ps -> (4 <= length ps)%nat -> affine_rank LA None ps = Ok 3%nat ->
  exists b c r, sphere_best_fit LA ps = Ok b /\ b = MkBall c r /\ length c = 3%nat /\ 0 < r /\
    (forall c' r', length c' = 3%nat -> alg_error ps c r <= alg_error ps c' r') /\
    INR (length ps) * (r * r) = sumsq ps c /\
    (forall c0 r0, 0 < r0 -> length c0 = 3%nat -> (forall p, In p ps -> on_sphere c0 r0 p) -> c = c0 /\ r = r0).
Proof.
  intros LA ps HS HL HP Hn Hr. pose proof HP as (Hne & Hd & F). unfold sphere_best_fit.
  rewrite (points_of_R ps 3) by auto. cbn [bind]. rewrite (dim2_ok 3) by auto. cbn [Nat.eqb negb]. rewrite (proj2 (Nat.ltb_ge _ _)) by (rn; auto). rewrite Hr. cbn [bind Nat.eqb negb].
  destruct (fit_matrix_ok 3 ps HP) as (HM & HR). destruct (HL _ _ _ HM HR) as (z & Ez & Lz & Mz). rewrite Ez. cbn [bind].
  destruct (fit_core 3 ps z HP Lz Mz) as (c & k & -> & Lc & Q & Opt). destruct (list3 c Lc) as (c0 & c1 & c2 & ->). cbn [app]. rops. rewrite dot_raw_dot.
  rewrite (Rplus_comm (dot [c0; c1; c2] [c0; c1; c2]) k).
  set (s := k + dot [c0; c1; c2] [c0; c1; c2]) in *. assert (Ps : 0 < s).
  { assert (P := INR_length_pos ps Hne). assert (W := sumsq_pos 3 ps [c0; c1; c2] HP eq_refl (rank_not_flat LA 3 0 ps 3 HS HP Hr ltac:(lia))). rewrite <- Q in W. apply Rmult_lt_reg_l with (INR (length ps)); auto. lra. }
  unfold np_sqrt. rops. rewrite (proj2 (Rltb_false s 0)) by lra. cbn [bind]. assert (Pr : 0 < sqrt s) by (apply sqrt_lt_R0; auto). assert (Qr : sqrt s * sqrt s = s) by (apply sqrt_sqrt; lra).
  exists (MkBall (N:=RNum) [c0; c1; c2] (sqrt s)), [c0; c1; c2], (sqrt s). split; [apply C45_construction; auto|]. split; auto. split; auto. split; auto. split; [|split].
  - intros c' r' Lc'. unfold alg_error at 1. rewrite Qr. apply Opt; auto.
  - rewrite Qr. auto.
  - intros q0 r0 H0 L0 On.
    assert (Z : Rsum (map (fun p => (dist p [c0; c1; c2] * dist p [c0; c1; c2] - s) * (dist p [c0; c1; c2] * dist p [c0; c1; c2] - s)) ps) = 0).
    { apply Rle_antisym; [|apply Rsum_nonneg; intros x Hx; apply in_map_iff in Hx as (p & <- & _); apply Rle_0_sqr].
      eapply Rle_trans; [apply (Opt q0 r0 L0)|]. apply Req_le. unfold alg_error. rewrite (Rsum_map_ext _ (fun _ => 0)); [rewrite Rsum_map_const; ring|]. intros p Hp. destruct (On p Hp) as (_ & ->). ring. }
    destruct (sphere_unique 3 ps [c0; c1; c2] q0 s (r0 * r0) HP eq_refl L0) as (A & B).
    + apply (rank_not_flat LA 3 2 ps 3); auto.
    + intros p Hp. assert (G : (dist p [c0; c1; c2] * dist p [c0; c1; c2] - s) * (dist p [c0; c1; c2] * dist p [c0; c1; c2] - s) = 0).
      { apply (Rsum_zero (map (fun p => (dist p [c0; c1; c2] * dist p [c0; c1; c2] - s) * (dist p [c0; c1; c2] * dist p [c0; c1; c2] - s)) ps)); auto.
        - intros x Hx. apply in_map_iff in Hx as (y & <- & _). apply Rle_0_sqr.
        - apply in_map_iff. exists p. auto. }
      apply Rsqr_0_uniq in G. lra.
    + intros p Hp. destruct (On p Hp) as (_ & ->). reflexivity.
    + split; auto. rewrite B. apply sqrt_square. lra.
Qed.
Print Assumptions C50_sphere_best_fit.

(** Everything else is rejected with ValueError: wrong dimension, too few points, exactly collinear / coplanar points.
    With a correct SVD and least-squares solver no valid Points input produces any other outcome. *)
Theorem C50_rejections : forall LA (d : nat) (ps : list pt), svd_correct LA -> points_ok d ps ->
  (d <> 2%nat \/ (length ps < 3)%nat \/ collinear ps -> exists m, circle_best_fit LA ps = Raise (ValueError m)) /\
  (d <> 3%nat \/ (length ps < 4)%nat \/ coplanar ps -> exists m, sphere_best_fit LA ps = Raise (ValueError m)) /\
  (lstsq_correct LA -> (exists b, circle_best_fit LA ps = Ok b) \/ exists m, circle_best_fit LA ps = Raise (ValueError m)) /\
  (lstsq_correct LA -> (exists b, sphere_best_fit LA ps = Ok b) \/ exists m, sphere_best_fit LA ps = Raise (ValueError m)).
Proof.
  intros LA d ps HS HP. pose proof HP as (Hne & Hd & F).
  destruct (affine_rank_R LA None d ps HS HP) as (U & S & Vh & _ & Er). set (rk := length (filter _ S)) in Er.
  assert (Cr : forall m e, (d <> m \/ (length ps < e)%nat \/ rk <> m -> negb (Nat.eqb d m) = true \/ Nat.ltb (length ps) e = true \/ negb (Nat.eqb rk m) = true)).
  { intros m e [H|[H|H]]; [left|right; left|right; right]; [apply negb_true_iff, Nat.eqb_neq; auto|apply Nat.ltb_lt; auto|apply negb_true_iff, Nat.eqb_neq; auto]. }
  assert (Kc : negb (Nat.eqb d 2) = true \/ Nat.ltb (length ps) 3 = true \/ negb (Nat.eqb rk 2) = true -> exists m, circle_best_fit LA ps = Raise (ValueError m)).
  { intro H. unfold circle_best_fit. rewrite (points_of_R ps d) by auto. cbn [bind]. rewrite (dim2_ok d) by auto. destruct (negb (Nat.eqb d 2)); [eexists; reflexivity|].
    rn. destruct (Nat.ltb (length ps) 3); [eexists; reflexivity|]. rewrite Er. cbn [bind]. destruct H as [H|[H|H]]; try discriminate. rewrite H. eexists; reflexivity. }
  assert (Ks : negb (Nat.eqb d 3) = true \/ Nat.ltb (length ps) 4 = true \/ negb (Nat.eqb rk 3) = true -> exists m, sphere_best_fit LA ps = Raise (ValueError m)).
  { intro H. unfold sphere_best_fit. rewrite (points_of_R ps d) by auto. cbn [bind]. rewrite (dim2_ok d) by auto. destruct (negb (Nat.eqb d 3)); [eexists; reflexivity|].
    rn. destruct (Nat.ltb (length ps) 4); [eexists; reflexivity|]. rewrite Er. cbn [bind]. destruct H as [H|[H|H]]; try discriminate. rewrite H. eexists; reflexivity. }
  split; [|split; [|split]].
  - intro H. apply Kc, Cr. destruct H as [H|[H|H]]; auto. right; right. apply (flat_collinear d) in H; auto. destruct (flat_rank_le LA None d 1 ps HS HP I H) as (r' & E' & Hr'). pose proof (eq_trans (eq_sym Er) E') as Z. injection Z as <-. lia.
  - intro H. apply Ks, Cr. destruct H as [H|[H|H]]; auto. right; right. apply (flat_coplanar d) in H; auto. destruct (flat_rank_le LA None d 2 ps HS HP I H) as (r' & E' & Hr'). pose proof (eq_trans (eq_sym Er) E') as Z. injection Z as <-. lia.
  - intro HL. destruct (Nat.eq_dec d 2) as [->|]; [|right; apply Kc, Cr; auto]. destruct (Nat.le_gt_cases 3 (length ps)) as [Hn|Hn]; [|right; apply Kc, Cr; auto]. destruct (Nat.eq_dec rk 2) as [Ek|]; [|right; apply Kc, Cr; auto].
    rewrite Ek in Er. destruct (C50_circle_best_fit LA ps HS HL HP Hn Er) as (b & c & r & E & _). eauto.
  - intro HL. destruct (Nat.eq_dec d 3) as [->|]; [|right; apply Ks, Cr; auto]. destruct (Nat.le_gt_cases 4 (length ps)) as [Hn|Hn]; [|right; apply Ks, Cr; auto]. destruct (Nat.eq_dec rk 3) as [Ek|]; [|right; apply Ks, Cr; auto].
    rewrite Ek in Er. destruct (C50_sphere_best_fit LA ps HS HL HP Hn Er) as (b & c & r & E & _). eauto.
Qed.
Print Assumptions C50_rejections.

(** Non-vacuity: the simplex has rank three for every correct SVD, and the fitted sphere is its circumsphere. *)
Lemma filter_le {A} (f : A -> bool) l : (length (filter f l) <= length l)%nat.
Proof. induction l as [|x l IH]; simpl; auto. destruct (f x); simpl; lia. Qed.
Lemma rank_le_dim LA d ps r : svd_correct LA -> points_ok d ps -> affine_rank LA None ps = Ok r -> (r <= d)%nat.
Proof.
  intros HS HP E. destruct (affine_rank_R LA None d ps HS HP) as (U & S & Vh & Hs & Er). pose proof (eq_trans (eq_sym E) Er) as Z. injection Z as ->.
  etransitivity; [apply filter_le|]. rewrite (sv_len _ _ _ _ _ Hs). lia.
Qed.
Example C50_nonvacuous : exists LA, svd_correct LA /\ lstsq_correct LA /\ affine_rank LA None simplex = Ok 3%nat /\
  exists b, sphere_best_fit LA simplex = Ok b /\ c_point b = [1 / 2; 1 / 2; 1 / 2] /\ c_radius b = sqrt (3 / 4).
Proof.
  exists ideal_linalg. destruct ideal_linalg_correct as (HS & _ & HL). split; auto. split; auto.
  assert (Er : affine_rank ideal_linalg None simplex = Ok 3%nat).
  { pose proof (C23_simplex_not_coplanar ideal_linalg HS) as E. unfold are_coplanar in E. destruct (affine_rank_R ideal_linalg None 3 simplex HS simplex_ok) as (U & S & Vh & _ & Er).
    set (rk := length (filter _ S)) in Er. rewrite Er in E. cbn [bind] in E. injection E as E. apply Nat.leb_gt in E. pose proof (rank_le_dim _ _ _ _ HS simplex_ok Er). rewrite Er. f_equal. lia. }
  split; auto. destruct (C50_sphere_best_fit ideal_linalg simplex HS HL simplex_ok ltac:(simpl; lia) Er) as (b & c & r & E & -> & _ & _ & _ & _ & U).
  exists (MkBall (N:=RNum) c r). split; auto. cbn [c_point c_radius]. apply U; auto; [apply sqrt_lt_R0; lra|].
  intros p Hp. assert (Q : sqrt (3 / 4) * sqrt (3 / 4) = 3 / 4) by (apply sqrt_sqrt; lra).
  simpl in Hp. destruct Hp as [<-|[<-|[<-|[<-|[]]]]]; (split; [reflexivity|]); apply len_eq_val; try apply sqrt_pos; rewrite Q; simpl; lra.
Qed.

Example C50_circle_nonvacuous : exists LA, svd_correct LA /\ lstsq_correct LA /\ affine_rank LA None corner = Ok 2%nat /\
  exists b, circle_best_fit LA corner = Ok b /\ c_point b = [1 / 2; 1 / 2] /\ c_radius b = sqrt (1 / 2).
Proof.
  exists ideal_linalg. destruct ideal_linalg_correct as (HS & _ & HL). split; auto. split; auto.
  assert (Er : affine_rank ideal_linalg None corner = Ok 2%nat).
  { pose proof (C23_corner_not_collinear ideal_linalg HS) as E. unfold are_collinear in E. destruct (affine_rank_R ideal_linalg None 2 corner HS corner_ok) as (U & S & Vh & _ & Er).
    set (rk := length (filter _ S)) in Er. rewrite Er in E. cbn [bind] in E. injection E as E. apply Nat.leb_gt in E. pose proof (rank_le_dim _ _ _ _ HS corner_ok Er). rewrite Er. f_equal. lia. }
  split; auto. destruct (C50_circle_best_fit ideal_linalg corner HS HL corner_ok ltac:(simpl; lia) Er) as (b & c & r & E & -> & _ & _ & _ & _ & U).
  exists (MkBall (N:=RNum) c r). split; auto. cbn [c_point c_radius]. apply U; auto; [apply sqrt_lt_R0; lra|].
  intros p Hp. assert (Q : sqrt (1 / 2) * sqrt (1 / 2) = 1 / 2) by (apply sqrt_sqrt; lra).
  simpl in Hp. destruct Hp as [<-|[<-|[<-|[]]]]; (split; [reflexivity|]); apply len_eq_val; try apply sqrt_pos; rewrite Q; simpl; lra.
Qed.
