(** * Least-squares lines and planes from the SVD of the centred points *)
From Coq Require Import Reals List Lra Lia Psatz ZArith.
From Verif.Model Require Import Outcome Num Instances Numpy BaseArray Vector Points Line Plane.
From Verif.Spec Require Import Geometry Mesh Linalg.
From Verif.Proof Require Import VecAlg Bridge Vectors Points Lines Lincomb Svd SvdExists Ranks.
Import ListNotations.
Local Open Scope R_scope.

Lemma sq_error_fun (P : pt -> Prop) (f : pt -> R) ps : (forall x, In x ps -> min_dist P x (f x)) ->
  sq_error P ps (Rsum (map (fun x => f x * f x) ps)) /\ forall r, sq_error P ps r -> r = Rsum (map (fun x => f x * f x) ps).
Proof.
  intro H. split.
  - exists (map f ps). split; [|rewrite map_map; reflexivity]. induction ps as [|x ps IH]; constructor; auto. { apply H; left; auto. } apply IH. intros; apply H; right; auto.
  - intros r (ds & F & ->). f_equal. induction F as [|x s ps ds Hs F IH]; simpl; auto. rewrite (min_dist_unique P x s (f x)) by (auto; apply H; left; auto).
    f_equal. apply IH. intros; apply H; right; auto.
Qed.

(** Squared distance from a line and from a plane. *)
Lemma line_dist_sq p e q : pv_ok p e -> length q = length p ->
  dist q (lproj p e q) * dist q (lproj p e q) = dot (sub q p) (sub q p) - dot (sub q p) e * dot (sub q p) e / dot e e.
Proof.
  intros H Lq. pose proof H as (L & Hz & Hp). pose proof (dot_self_pos e Hz) as P.
  pose proof (line_pythagoras p e q p H Lq (on_line_base p e L)) as E.
  rewrite !dist_sq in *. unfold lproj in *. set (k := dot e (sub q p) / dot e e) in *.
  assert (E1 : sub p (add p (scale k e)) = scale (- k) e) by (apply pt_ext; [len|]; intros i _; repeat rewrite ?nth_add, ?nth_scale, ?nth_sub by len; ring).
  assert (E2 : sub (add p (scale k e)) p = scale k e) by (apply pt_ext; [len|]; intros i _; repeat rewrite ?nth_add, ?nth_scale, ?nth_sub by len; ring).
  rewrite ?E1, ?E2 in E. rewrite dot_scale_l, dot_scale_r in E. unfold k in *. rewrite (dot_comm e (sub q p)) in *.
  assert (K : dot (sub q p) e / dot e e * (dot (sub q p) e / dot e e * dot e e) = dot (sub q p) e * dot (sub q p) e / dot e e) by (field; lra).
  lra.
Qed.
Lemma plane_dist_sq p m q : pv_ok p m -> length q = length p ->
  dist q (pproj p m q) * dist q (pproj p m q) = dot (sub q p) m * dot (sub q p) m / dot m m.
Proof.
  intros H Lq. pose proof H as (L & Hz & Hp). pose proof (dot_self_pos m Hz) as P.
  rewrite dist_sq, pproj_diff by auto. rewrite dot_scale_l, dot_scale_r. field. lra.
Qed.

Section Fit.
Context (d : nat) (rows U : list pt) (S : list R) (Vh : list pt) (Hr : points_ok d rows) (Hs : svd_spec d (centered d rows) U S Vh).
Notation A := (centered d rows).
Notation n := (length rows).
Notation c := (cent d rows).
Notation a i := (nth i (centered d rows) []).
Notation v k := (nth k Vh []).
Notation sg k := (nth k S 0).

Lemma fit_HA : points_ok d A. Proof. apply centered_ok, Hr. Qed.
Lemma fit_n : length A = n. Proof. unfold centered. apply map_length. Qed.
Lemma fit_Lc : length c = d. Proof. destruct Hr as (_ & _ & F). apply length_cent, F. Qed.
Lemma fit_La i : (i < n)%nat -> length (a i) = d.
Proof. intro Hi. apply (row_len d A fit_HA). rewrite fit_n. auto. Qed.
Lemma fit_row i p : (i < n)%nat -> length p = d -> sub (nth i rows []) p = add (a i) (sub c p).
Proof.
  intros Hi Lp. rewrite nth_centered by auto. destruct Hr as (_ & _ & F). rewrite Forall_forall in F. assert (Lx := F _ (nth_In rows [] Hi)). pose proof fit_Lc.
  apply pt_ext; [len|]. intros j _. repeat rewrite ?nth_add, ?nth_sub by len. ring.
Qed.
Lemma fit_mean w : Sum n (fun i => dot (a i) w) = 0.
Proof.
  pose proof (vsum_centered d rows Hr) as E. fold (centered d rows) in E. pose proof fit_HA as (_ & _ & F).
  rewrite <- fit_n. rewrite <- (Rsum_map_nth (fun x => dot x w) A []). rewrite <- (dot_vsum d) by auto. rewrite E. apply dot_origin_l.
Qed.

Lemma line_err_split p e : pv_ok p e -> length p = d ->
  Rsum (map (fun x => dist x (lproj p e x) * dist x (lproj p e x)) rows) =
  Sum n (fun i => dot (a i) (a i)) - Sum n (fun i => dot (a i) e * dot (a i) e) / dot e e
    + INR n * (dot (sub c p) (sub c p) - dot (sub c p) e * dot (sub c p) e / dot e e).
Proof.
  intros H Lp. pose proof H as (L & Hz & Hp). pose proof (dot_self_pos e Hz) as P. set (w := sub c p). assert (Lw : length w = d) by (unfold w; pose proof fit_Lc; len).
  rewrite (Rsum_map_nth _ rows []).
  rewrite (Sum_ext n _ (fun i => (dot (a i) (a i) + (-1 / dot e e) * (dot (a i) e * dot (a i) e)) + (2 * dot (a i) w + (- 2 * dot w e / dot e e) * dot (a i) e)
     + (dot w w - dot w e * dot w e / dot e e))).
  2:{ intros i Hi. pose proof Hr as (_ & _ & F). rewrite Forall_forall in F. assert (Lx := F _ (nth_In rows [] Hi)). pose proof (fit_La i Hi).
      rewrite line_dist_sq by (auto; congruence). rewrite fit_row by auto. fold w. rewrite dot_add_add, dot_add_l by congruence. field. lra. }
  rewrite !Sum_add, !Sum_scale, !fit_mean, Sum_const. field. lra.
Qed.
Lemma plane_err_split p m : pv_ok p m -> length p = d ->
  Rsum (map (fun x => dist x (pproj p m x) * dist x (pproj p m x)) rows) =
  Sum n (fun i => dot (a i) m * dot (a i) m) / dot m m + INR n * (dot (sub c p) m * dot (sub c p) m / dot m m).
Proof.
  intros H Lp. pose proof H as (L & Hz & Hp). pose proof (dot_self_pos m Hz) as P. set (w := sub c p). assert (Lw : length w = d) by (unfold w; pose proof fit_Lc; len).
  rewrite (Rsum_map_nth _ rows []).
  rewrite (Sum_ext n _ (fun i => ((1 / dot m m) * (dot (a i) m * dot (a i) m)) + ((2 * dot w m / dot m m) * dot (a i) m)
     + (dot w m * dot w m / dot m m))).
  2:{ intros i Hi. pose proof Hr as (_ & _ & F). rewrite Forall_forall in F. assert (Lx := F _ (nth_In rows [] Hi)). pose proof (fit_La i Hi).
      rewrite plane_dist_sq by (auto; congruence). rewrite fit_row by auto. fold w. rewrite dot_add_l by congruence. field. lra. }
  rewrite !Sum_add, !Sum_scale, !fit_mean, Sum_const. field. lra.
Qed.

Lemma fit_S0 : (0 < length S)%nat.
Proof. rewrite (sv_len _ _ _ _ _ Hs), fit_n. destruct Hr as (Hne & Hd & _). destruct rows; [contradiction|cbn [length]; lia]. Qed.
Lemma fit_gram e : length e = d -> Sum n (fun i => dot (a i) e * dot (a i) e) = Sum (length S) (fun k => sg k * sg k * (dot (v k) e * dot (v k) e)).
Proof. intro Le. rewrite <- fit_n. apply (svd_gram d A U S Vh fit_HA Hs); auto. Qed.
Lemma fit_total : Sum n (fun i => dot (a i) (a i)) = Sum (length S) (fun k => sg k * sg k).
Proof. rewrite <- fit_n. apply (svd_frob d A U S Vh fit_HA Hs). Qed.
Lemma fit_gram_v j : (j < length S)%nat -> Sum n (fun i => dot (a i) (v j) * dot (a i) (v j)) = sg j * sg j.
Proof.
  intro Hj. rewrite fit_gram by (apply (sv_dim _ _ _ _ _ Hs); auto).
  rewrite (Sum_ext _ _ (fun k => sg k * sg k * delta k j)); [apply (Sum_delta _ j (fun k => sg k * sg k)); auto|].
  intros k Hk. rewrite (sv_V _ _ _ _ _ Hs) by auto. unfold delta. destruct (Nat.eqb k j); ring.
Qed.
Lemma fit_gram_le e : length e = d -> Sum n (fun i => dot (a i) e * dot (a i) e) <= sg 0 * sg 0 * dot e e.
Proof.
  intro Le. rewrite fit_gram by auto. eapply Rle_trans; [apply Sum_le with (g := fun k => sg 0 * sg 0 * (dot (v k) e * dot (v k) e))|].
  - intros k Hk. pose proof (sv_nonneg _ _ _ _ _ Hs k Hk). pose proof (sv_decr _ _ _ _ _ Hs 0%nat k ltac:(lia)).
    pose proof (Rle_0_sqr (dot (v k) e)). unfold Rsqr in *. apply Rmult_le_compat_r; auto. nra.
  - rewrite Sum_scale. apply Rmult_le_compat_l; [pose proof (Rle_0_sqr (sg 0)); auto|]. apply (bessel d A U S Vh Hs e (length S)); auto.
Qed.
Lemma v_unit j : (j < length S)%nat -> dot (v j) (v j) = 1.
Proof. intro Hj. rewrite (sv_V _ _ _ _ _ Hs) by auto. apply delta_eq. Qed.
Lemma v_nz j : (j < length S)%nat -> ~ is_zero_vec (v j).
Proof. intros Hj Z. apply dot_self_zero_iff in Z. rewrite v_unit in Z by auto. lra. Qed.
Lemma fit_pv j : (j < length S)%nat -> pv_ok c (v j).
Proof.
  intro Hj. pose proof fit_Lc. pose proof (sv_dim _ _ _ _ _ Hs j Hj). split; [congruence|]. split; [apply v_nz; auto|].
  pose proof Hr as (_ & Hd & _). intro E. rewrite E in *. simpl in *. lia.
Qed.
Lemma line_fit_err : Rsum (map (fun x => dist x (lproj c (v 0) x) * dist x (lproj c (v 0) x)) rows) = Rsum (map (fun s => s * s) (skipn 1 S)).
Proof.
  pose proof fit_S0 as H0. rewrite line_err_split by (auto using fit_pv, fit_Lc). rewrite fit_gram_v, v_unit, fit_total by auto.
  assert (E0 : sub c c = origin d) by (rewrite sub_self, fit_Lc; reflexivity). rewrite E0, !dot_origin_l.
  assert (E : Rsum (map (fun s => s * s) (skipn 1 S)) = Sum (length S) (fun k => sg k * sg k) - sg 0 * sg 0).
  { rewrite <- (Rsum_map_nth (fun s => s * s) S 0). destruct S as [|s0 S']; [simpl in H0; lia|]. simpl. ring. }
  rewrite E. field.
Qed.
Lemma line_fit_best p e : pv_ok p e -> length p = d ->
  Rsum (map (fun s => s * s) (skipn 1 S)) <= Rsum (map (fun x => dist x (lproj p e x) * dist x (lproj p e x)) rows).
Proof.
  intros H Lp. pose proof H as (L & Hz & Hp). pose proof (dot_self_pos e Hz) as P. pose proof fit_S0 as H0. pose proof fit_Lc as Lc.
  rewrite line_err_split by auto. pose proof (fit_gram_le e ltac:(congruence)) as B. rewrite fit_total.
  assert (E : Rsum (map (fun s => s * s) (skipn 1 S)) = Sum (length S) (fun k => sg k * sg k) - sg 0 * sg 0).
  { rewrite <- (Rsum_map_nth (fun s => s * s) S 0). destruct S as [|s0 S']; [simpl in H0; lia|]. simpl. ring. }
  rewrite E. set (G := Sum n _) in *. set (T := Sum (length S) _) in *.
  assert (B1 : G / dot e e <= sg 0 * sg 0) by (apply Rmult_le_reg_r with (dot e e); auto; unfold Rdiv; rewrite Rmult_assoc, Rinv_l; lra).
  assert (B2 : 0 <= INR n * (dot (sub c p) (sub c p) - dot (sub c p) e * dot (sub c p) e / dot e e)).
  { apply Rmult_le_pos; [apply pos_INR|]. pose proof (cauchy_schwarz_sq (sub c p) e ltac:(len)) as CS.
    assert (dot (sub c p) e * dot (sub c p) e / dot e e <= dot (sub c p) (sub c p)) by (apply Rmult_le_reg_r with (dot e e); auto; unfold Rdiv; rewrite Rmult_assoc, Rinv_l; lra). lra. }
  lra.
Qed.
Lemma line_fit_collinear : collinear rows -> Rsum (map (fun s => s * s) (skipn 1 S)) = 0.
Proof.
  intro C. apply (flat_collinear d) in C; auto. apply flat_centered in C as (dirs & Ld & Fd & Ha); auto.
  assert (Z : forall k, (1 <= k < length S)%nat -> sg k = 0).
  { intros k Hk. apply (svd_tail_zero d A U S Vh Hs 1 k); auto; [lia|]. apply (svd_rank_le d A U S Vh fit_HA Hs 1 dirs); auto. lia. }
  rewrite (Rsum_map_nth _ _ 0). apply Sum_zero_ext. intros i Hi. rewrite skipn_length in Hi. rewrite nth_skipn. rewrite Z by lia. ring.
Qed.
End Fit.

(** ** The SVD of the transposed matrix *)
Lemma length_transpose d (A : list pt) : length (transpose (N:=RNum) d A) = d.
Proof. unfold transpose. rewrite map_length, seq_length. reflexivity. Qed.
Lemma length_column j (A : list pt) : length (column (N:=RNum) j A) = length A.
Proof. apply map_length. Qed.
Lemma nth_column j (A : list pt) i : nth i (column (N:=RNum) j A) 0 = ent A i j.
Proof.
  unfold column, ent. destruct (Nat.lt_ge_cases i (length A)) as [Hi|Hi].
  - set (f := fun r : pt => nth j r 0). change (nth i (map f A) 0 = f (nth i A [])). rewrite (nth_indep _ 0 (f [])) by (rewrite map_length; auto). apply map_nth.
  - rewrite !nth_overflow with (l := A) by auto. rewrite nth_overflow by (rewrite map_length; auto). destruct j; reflexivity.
Qed.
Lemma ent_transpose d (A : list pt) i j : (i < d)%nat -> ent (transpose (N:=RNum) d A) i j = ent A j i.
Proof. intro Hi. unfold ent at 1, transpose. rewrite nth_map_seq by auto. apply nth_column. Qed.
Lemma transpose_ok d A : points_ok d A -> points_ok (length A) (transpose (N:=RNum) d A).
Proof.
  intros (Hne & Hd & F). split. { intro E. apply (f_equal (@length pt)) in E. rewrite length_transpose in E. simpl in E. lia. }
  split; [destruct A; [contradiction|simpl; lia]|]. apply Forall_forall. intros r Hin. unfold transpose in Hin. apply in_map_iff in Hin as (j & <- & _). apply length_column.
Qed.
Lemma svd_transpose d A U S Vh : points_ok d A -> svd_spec (length A) (transpose (N:=RNum) d A) U S Vh ->
  svd_spec d A (transpose (N:=RNum) (length A) Vh) S (transpose (N:=RNum) (length S) U).
Proof.
  intros HA H. pose proof HA as (Hne & Hd & F). set (n := length A) in *. assert (LT : @length (list R) (transpose (N:=RNum) d A) = d) by apply length_transpose. change (svd_spec n (transpose (N:=RNum) d A : list (list R)) U S Vh) in H.
  assert (LS : length S = Nat.min n d) by (rewrite (sv_len _ _ _ _ _ H); rn; rewrite LT; lia).
  assert (LU : length U = d) by (rewrite (sv_rows _ _ _ _ _ H); rn; auto).
  assert (Nu : forall k, (k < length S)%nat -> nth k (transpose (N:=RNum) (length S) U) [] = column (N:=RNum) k U) by (intros; unfold transpose; rewrite nth_map_seq; auto).
  constructor; auto.
  - apply (sv_nonneg _ _ _ _ _ H).
  - apply (sv_decr _ _ _ _ _ H).
  - apply length_transpose.
  - intros k Hk. rewrite Nu by auto. rewrite length_column. auto.
  - intros j k Hj Hk. rewrite !Nu by auto. rewrite (dot_Sum _ _ d) by (rewrite length_column; auto).
    rewrite <- (sv_U _ _ _ _ _ H j k) by auto. rn. rewrite LT. apply Sum_ext. intros i _. rewrite !nth_column. reflexivity.
  - intros j k Hj Hk. fold n. rewrite <- (sv_V _ _ _ _ _ H j k) by auto. rewrite (dot_Sum _ _ n) by (apply (sv_dim _ _ _ _ _ H); auto).
    apply Sum_ext. intros i Hi. rewrite !ent_transpose by auto. reflexivity.
  - intros i j Hi Hj. fold n in Hi. rewrite <- (ent_transpose d A j i) by auto. rewrite (sv_A _ _ _ _ _ H) by (rn; rewrite ?LT; auto).
    apply Sum_ext. intros k Hk. rewrite !ent_transpose by auto. ring.
Qed.

Section PlaneFit.
Context (d : nat) (rows U : list pt) (S : list R) (Vh : list pt) (Hr : points_ok d rows) (Hs : svd_spec d (centered d rows) U S Vh).
Context (Hfull : length S = d) (m : nat) (Hm : d = Datatypes.S m).
Notation n := (length rows).
Notation a i := (nth i (centered d rows) []).
Notation c := (cent d rows).
Notation v k := (nth k Vh []).
Notation sg k := (nth k S 0).

Lemma parseval e : length e = d -> Sum d (fun k => dot (v k) e * dot (v k) e) = dot e e.
Proof.
  intro Le. destruct (svd_span_dirs d _ _ _ _ Hs d ltac:(lia)) as (Ld & Fd). set (vs := firstn d Vh) in *.
  assert (Nvs : forall k, (k < d)%nat -> nth k vs [] = v k).
  { intros k Hk. unfold vs. rewrite <- (firstn_skipn d Vh) at 2. rewrite app_nth1; auto. fold vs. lia. }
  assert (Ho : onb d vs).
  { split. - intros k Hk. rewrite Ld in Hk. rewrite Nvs by auto. apply (sv_dim _ _ _ _ _ Hs). lia.
    - intros j k Hj Hk. rewrite Ld in Hj, Hk. rewrite !Nvs by auto. apply (sv_V _ _ _ _ _ Hs); lia. }
  transitivity (dot (lincomb d (map (fun w => dot w e) vs) vs) e); [|rewrite <- onb_coords; auto]. rewrite dot_lincomb_r by (auto; apply map_length). rewrite Ld.
  apply Sum_ext. intros k Hk. rewrite Nvs by auto.
  rewrite (nth_indep _ 0 ((fun w => dot w e) [])) by (rewrite map_length; lia). rewrite (map_nth (fun w => dot w e)). rewrite Nvs by auto. reflexivity.
Qed.
Lemma skip_last : Rsum (map (fun s => s * s) (skipn m S)) = sg m * sg m.
Proof.
  rewrite (Rsum_map_nth _ _ 0). rewrite skipn_length. replace (length S - m)%nat with 1%nat by lia. rewrite Sum_S, Sum_0, nth_skipn, Nat.add_0_r. ring.
Qed.
Lemma plane_fit_err : Rsum (map (fun x => dist x (pproj c (v m) x) * dist x (pproj c (v m) x)) rows) = sg m * sg m.
Proof.
  assert (Hlt : (m < length S)%nat) by lia. pose proof (fit_Lc d rows Hr) as Lc.
  rewrite (plane_err_split d rows Hr) by (auto; eapply fit_pv; eauto). rewrite (fit_gram_v d rows U S Vh Hr Hs) by auto. rewrite (v_unit d rows U S Vh Hs) by auto.
  assert (E0 : sub c c = origin d) by (rewrite sub_self, Lc; reflexivity). rewrite E0, !dot_origin_l. field.
Qed.
Lemma plane_fit_best p e : pv_ok p e -> length p = d ->
  sg m * sg m <= Rsum (map (fun x => dist x (pproj p e x) * dist x (pproj p e x)) rows).
Proof.
  intros H Lp. pose proof H as (L & Hz & Hp). pose proof (dot_self_pos e Hz) as P. assert (Hlt : (m < length S)%nat) by lia.
  rewrite (plane_err_split d rows Hr) by auto. rewrite (fit_gram d rows U S Vh Hr Hs) by congruence. rewrite Hfull.
  assert (B : sg m * sg m * dot e e <= Sum d (fun k => sg k * sg k * (dot (v k) e * dot (v k) e))).
  { rewrite <- (parseval e) by congruence. rewrite <- Sum_scale. apply Sum_le. intros k Hk.
    pose proof (sv_nonneg _ _ _ _ _ Hs m Hlt). pose proof (sv_decr _ _ _ _ _ Hs k m ltac:(lia)).
    pose proof (Rle_0_sqr (dot (v k) e)). unfold Rsqr in *. apply Rmult_le_compat_r; auto. nra. }
  set (G := Sum d _) in *. set (w := dot (sub c p) e).
  assert (B1 : sg m * sg m <= G / dot e e) by (apply Rmult_le_reg_r with (dot e e); auto; replace (G / dot e e * dot e e) with G by (field; lra); lra).
  assert (B2 : 0 <= INR n * (w * w / dot e e)).
  { apply Rmult_le_pos; [apply pos_INR|]. apply Rmult_le_pos; [pose proof (Rle_0_sqr w); auto|]. left. apply Rinv_0_lt_compat; auto. }
  lra.
Qed.
Lemma plane_fit_flat : in_flat d m rows -> sg m = 0.
Proof.
  intro C. apply flat_centered in C as (dirs & Ld & Fd & Ha); auto.
  apply (svd_rank_le d _ U S Vh (fit_HA d rows Hr) Hs m dirs); auto. lia.
Qed.
End PlaneFit.
