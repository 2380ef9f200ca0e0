(** * Property C63: Cylinder.best_fit *)
From Coq Require Import String Reals List ZArith Lra Lia Psatz Bool.
From Verif.Model Require Import Outcome Num Instances Numpy BaseArray Vector Points Functions Line Plane Sphere Cylinder.
From Verif.Spec Require Import Geometry Tolerance Mesh Linalg Cylinder.
From Verif.Proof Require Import VecAlg Bridge Arrays Vectors Points Lines Lincomb Svd SvdExists Ranks Fits Cylinders CylFits.
From Verif.Prop Require Import Arrays Vectors Directions Points Lines Ranks Fits Spheres Cylinders.
Import ListNotations.
Local Open Scope R_scope.

Lemma argmin_from_spec (l : list R) : forall best ib i (full : list R), (ib < length full)%nat -> nth ib full 0 = best ->
  length full = (i + length l)%nat -> (forall j, (j < length l)%nat -> nth (i + j) full 0 = nth j l 0) -> (forall j, (j < i)%nat -> best <= nth j full 0) ->
  let k := argmin_from (N:=RNum) best ib i l in (k < length full)%nat /\ forall j, (j < length full)%nat -> nth k full 0 <= nth j full 0.
Proof.
  induction l as [|x l IH]; intros best ib i full Hib Eb Lf Hn Hmin; cbn [argmin_from].
  - split; auto. intros j Hj. rewrite Eb. apply Hmin. simpl in Lf. lia.
  - assert (Ex : nth i full 0 = x) by (rewrite <- (Nat.add_0_r i), (Hn 0%nat) by (simpl; lia); reflexivity).
    assert (Hn' : forall j, (j < length l)%nat -> nth (S i + j) full 0 = nth j l 0) by (intros j Hj; replace (S i + j)%nat with (i + S j)%nat by lia; rewrite Hn by (simpl; lia); reflexivity).
    simpl in Lf. rops. unfold Rltb. destruct (Rlt_dec x best) as [C|C]; apply IH; auto; try lia.
    + intros j Hj. destruct (Nat.eq_dec j i) as [->|]; [lra|]. specialize (Hmin j ltac:(lia)). lra.
    + intros j Hj. destruct (Nat.eq_dec j i) as [->|]; [lra|]. apply Hmin. lia.
Qed.
Lemma argmin_spec (l : list R) : l <> [] -> (argmin (N:=RNum) l < length l)%nat /\ forall j, (j < length l)%nat -> nth (argmin (N:=RNum) l) l 0 <= nth j l 0.
Proof.
  destruct l as [|x l]; [contradiction|]. intros _. apply (argmin_from_spec l x 0%nat 1%nat (x :: l)); simpl; auto; try lia. intros j Hj. assert (j = 0%nat) by lia. subst. lra.
Qed.
Lemma spherical_R th ph : spherical_to_cartesian (N:=RNum) RTrig th ph = Ok (spherical th ph).
Proof. unfold spherical_to_cartesian. rewrite vector_of_R by discriminate. reflexivity. Qed.
Lemma spherical_unit th ph : length (spherical th ph) = 3%nat /\ dot (spherical th ph) (spherical th ph) = 1.
Proof.
  split; [reflexivity|]. unfold spherical. cbn [dot]. pose proof (sin2_cos2 th) as A. pose proof (sin2_cos2 ph) as B. unfold Rsqr in *.
  transitivity (sin th * sin th * (sin ph * sin ph + cos ph * cos ph) + cos th * cos th); [ring|]. rewrite B. lra.
Qed.
Lemma rej_perp_eq k d z : length d = 3%nat -> length z = 3%nat -> dot d d = 1 -> k <> 0 -> rej (scale k d) z = perp d z.
Proof. intros Ld Lz U Hk. unfold rej, perp. f_equal. rewrite scale_scale, !dot_scale_r, dot_scale_l, U. f_equal. field. auto. Qed.
Lemma axd_min (d u1 u2 : pt) k o x : frame d u1 u2 -> k <> 0 -> length o = 3%nat -> length x = 3%nat -> min_dist (on_line o (scale k d)) x (sqrt (axd u1 u2 o x)).
Proof.
  intros Fr Hk Lo Lx. pose proof (fr_d _ _ _ Fr) as Ld. pose proof (fr_dd _ _ _ Fr) as Ud.
  assert (Hz : ~ is_zero_vec (scale k d)) by (apply scale_nonzero; auto; intro Z; apply dot_self_zero_iff in Z; lra).
  assert (PV : pv_ok o (scale k d)) by (split; [len|]; split; auto; intro E; subst; discriminate).
  replace (sqrt (axd u1 u2 o x)) with (dist x (lproj o (scale k d) x)); [apply lproj_min; auto; congruence|].
  rewrite (axd_perp d u1 u2 Fr) by auto. unfold dist. rewrite rej_lproj by len. rewrite rej_perp_eq by (auto; len). unfold len.
  f_equal. rewrite (sub_sub_swap x o). rewrite !(dot_perp d u1 u2 Fr) by len. rewrite !dot_scale_l. ring.
Qed.
Lemma axis_error_R (d u1 u2 : pt) k o r (ps : list pt) : frame d u1 u2 -> k <> 0 -> length o = 3%nat -> Forall (fun x => length x = 3%nat) ps -> forall e,
  (axis_error o (scale k d) r ps e <-> e = Rsum (map (fun x => (axd u1 u2 o x - r * r) * (axd u1 u2 o x - r * r)) ps)).
Proof.
  intros Fr Hk Lo F e. assert (Q : forall x, sqrt (axd u1 u2 o x) * sqrt (axd u1 u2 o x) = axd u1 u2 o x) by (intro x; apply sqrt_sqrt, axd_nonneg). split.
  - intros (ds & F2 & ->). f_equal. induction F2 as [|x s ps ds Hs F2 IH]; auto. inversion F; subst. cbn [map]. rewrite IH by auto. f_equal.
    rewrite (min_dist_unique _ _ _ _ Hs (axd_min d u1 u2 k o x Fr Hk Lo H1)). rewrite Q. reflexivity.
  - intros ->. exists (map (fun x => sqrt (axd u1 u2 o x)) ps). split.
    + clear Q. induction F; constructor; auto. apply (axd_min d); auto.
    + rewrite map_map. apply Rsum_map_ext. intros x _. rewrite Q. reflexivity.
Qed.

Section Tail.
Context (rows : list pt) (Hr : points_ok 3 rows) (NC : ~ coplanar rows) (d u1 u2 : pt) (Fr : frame d u1 u2).
Let Ld := fr_d _ _ _ Fr. Let L1 := fr_1 _ _ _ Fr. Let L2 := fr_2 _ _ _ Fr.
Notation c0 := (cent 3 rows).
Notation ys := (centered 3 rows).
Lemma t_F : Forall (fun x => length x = 3%nat) rows. Proof. apply Hr. Qed.
Lemma t_Lc : length c0 = 3%nat. Proof. apply length_cent, t_F. Qed.
Lemma t_Fy : Forall (fun x => length x = 3%nat) ys. Proof. apply centered_ok, Hr. Qed.
Lemma t_ne : ys <> []. Proof. apply (centered_ok 3 rows Hr). Qed.
Lemma t_sum : vsum 3 ys = origin 3. Proof. apply vsum_centered, Hr. Qed.
Lemma t_not_in_plane w : length w = 3%nat -> ~ is_zero_vec w -> ~ (forall y, In y ys -> dot y w = 0).
Proof.
  intros Lw Hz H. apply NC. apply (plane_coplanar c0 w); auto using t_Lc, t_F. intros x Hx. apply H. apply (in_map (fun r => sub r c0)), Hx.
Qed.
Lemma t_SD : SD u1 u2 ys <> 0.
Proof. intro Z. destruct (SD_zero d u1 u2 ys Fr Z) as (w & Lw & Hz & H). exact (t_not_in_plane w Lw Hz H). Qed.
Notation o := (add (K u1 u2 ys) c0).
Lemma t_Lo : length o = 3%nat. Proof. pose proof (length_K d u1 u2 Fr ys). pose proof t_Lc. len. Qed.
Lemma t_MS : 0 < MS u1 u2 ys.
Proof.
  pose proof (MS_nonneg u1 u2 ys t_ne) as P. destruct (Req_EM_T (MS u1 u2 ys) 0) as [Z|]; [|lra]. exfalso.
  pose proof (n_pos ys t_ne) as Pn. unfold MS in Z. apply Rmult_integral in Z as [Z|Z]; [|pose proof (Rinv_0_lt_compat _ Pn); lra].
  assert (A : forall y, In y ys -> dot y u1 = SX u1 u2 ys).
  { intros y Hy. assert (E : axd u1 u2 (K u1 u2 ys) y = 0). { apply (Rsum_zero (map (axd u1 u2 (K u1 u2 ys)) ys)); auto; [|apply in_map, Hy]. intros z Hz. apply in_map_iff in Hz as (q & <- & _). apply axd_nonneg. }
    unfold axd in E. rewrite (al_K d u1 u2 Fr), (be_K d u1 u2 Fr) in E.
    set (a := dot y u1 - SX u1 u2 ys) in *. set (b := dot y u2 - SY u1 u2 ys) in *. assert (a = 0); [|unfold a in *; lra]. clearbody a b. nra. }
  assert (X0 : SX u1 u2 ys = 0).
  { pose proof (sum_dot ys t_Fy t_sum u1) as S. rewrite (Rsum_map_ext _ (fun _ => SX u1 u2 ys)) in S by auto. rewrite Rsum_map_const in S. apply Rmult_integral in S as [S|S]; lra. }
  apply (t_not_in_plane u1); [exact L1| |intros y Hy; rewrite A by auto; auto]. intro E. apply dot_self_zero_iff in E. rewrite (fr_11 _ _ _ Fr) in E. lra.
Qed.
Lemma t_level x : In x rows -> dot (sub x o) d = dot (sub x c0) d.
Proof.
  intro Hx. pose proof t_Lc as Lc. pose proof (length_K d u1 u2 Fr ys) as LK. pose proof t_F as F. rewrite Forall_forall in F. pose proof (F x Hx) as Lx.
  rewrite !dot_sub_l by len. rewrite dot_add_l by len. rewrite (d_K d u1 u2 Fr). ring.
Qed.
Lemma t_axd x : In x rows -> axd u1 u2 o x = axd u1 u2 (K u1 u2 ys) (sub x c0).
Proof.
  intro Hx. pose proof t_Lc as Lc. pose proof (length_K d u1 u2 Fr ys) as LK. pose proof t_F as F. rewrite Forall_forall in F. pose proof (F x Hx) as Lx.
  unfold axd. rewrite !dot_sub_l by len. rewrite !dot_add_l by len. ring.
Qed.

(** The lowest point along the axis. *)
Lemma tail_R : exists xm, In xm rows /\ (forall x, In x rows -> dot (sub xm c0) d <= dot (sub x c0) d) /\ dot (sub xm c0) d < 0 /\
  (let* axis := line_new (N:=RNum) o d in
   let* points_1d := line_transform_points axis rows in
   let* point_a := line_project_point axis (nth (argmin points_1d) rows []) in
   let* dd := distance_point point_a o in
   let length := nmul (n:=RNum) dd (nofZ (n:=RNum) 2) in
   let* vector_ab := vmuls length d in
   cylinder_new point_a vector_ab (sqrt (MS u1 u2 ys))) =
  Ok (MkCylinder (N:=RNum) (add o (scale (dot (sub xm c0) d) d)) (scale (- 2 * dot (sub xm c0) d) d) (sqrt (MS u1 u2 ys))).
Proof.
  pose proof t_Lo as Lo. pose proof (fr_dd _ _ _ Fr) as Ud. assert (Hz : ~ is_zero_vec d) by (intro E; apply dot_self_zero_iff in E; lra).
  pose proof t_F as F. rewrite Forall_forall in F. pose proof t_Lc as Lc. pose proof (length_K d u1 u2 Fr ys) as LK. pose proof Hr as (Hne & _ & _).
  assert (PV : pv_ok o d) by (split; [congruence|]; split; auto; intro E; rewrite E in Lo; discriminate).
  assert (L1d : len d = 1) by (unfold len; rewrite Ud; apply sqrt_1).
  set (ts := map (fun x => dot (sub x o) d) rows).
  assert (Et : line_transform_points (N:=RNum) (MkLine o d) rows = Ok ts).
  { unfold line_transform_points. cbn [l_dir l_point]. rewrite unit_R by auto. cbn [bind]. unfold to_array. rewrite L1d, Rinv_1, scale_1.
    rewrite (transform_R 3); [|exact Hr|split; [discriminate|]; split; [lia|]; repeat constructor; exact Ld|exact Lo]. cbn [bind map]. f_equal. unfold ts. generalize o. intro oo. clear. induction rows as [|r0 rs IH]; [reflexivity|]. cbn [map concat app]. f_equal. exact IH. }
  assert (Hts : ts <> []) by (unfold ts; destruct rows; [contradiction|discriminate]). destruct (argmin_spec ts Hts) as (Hk & Hm). set (k := argmin (N:=RNum) ts) in *.
  assert (Lts : length ts = length rows) by apply map_length. rewrite Lts in Hk, Hm.
  assert (Nt : forall j, (j < length rows)%nat -> nth j ts 0 = dot (sub (nth j rows []) c0) d).
  { intros j Hj. unfold ts. rewrite (nth_indep _ 0 ((fun x => dot (sub x o) d) [])) by (rewrite map_length; auto). rewrite (map_nth (fun x => dot (sub x o) d)). apply t_level, nth_In, Hj. }
  set (xm := nth k rows []). assert (Hxm : In xm rows) by (apply nth_In, Hk). pose proof (F xm Hxm) as Lxm. exists xm. split; auto.
  assert (Min : forall x, In x rows -> dot (sub xm c0) d <= dot (sub x c0) d).
  { intros x Hx. apply (In_nth _ _ []) in Hx as (j & Hj & <-). unfold xm. rewrite <- !Nt by auto. apply Hm, Hj. }
  split; auto. set (m := dot (sub xm c0) d) in *.
  assert (Neg : m < 0).
  { destruct (Rlt_dec m 0) as [|P]; auto. exfalso. apply (t_not_in_plane d); auto. intros y Hy.
    assert (S0 : Rsum (map (fun y => dot y d) ys) = 0) by (apply sum_dot; [apply t_Fy|apply t_sum]).
    apply (Rsum_zero _) with (x := dot y d) in S0; auto; [|apply (in_map (fun y => dot y d)), Hy].
    intros z Hz'. apply in_map_iff in Hz' as (q & <- & Hq). unfold centered in Hq. apply in_map_iff in Hq as (x & <- & Hx). specialize (Min x Hx). lra. }
  split; auto. rewrite line_new_R by (auto; congruence). cbn [bind]. rewrite Et. cbn [bind]. rn. fold k. fold xm.
  rewrite line_project_point_R by (auto; congruence). cbn [bind].
  assert (Ep : lproj o d xm = add o (scale m d)).
  { unfold lproj. f_equal. f_equal. rewrite Ud, (dot_comm d), t_level by auto. unfold m. field. }
  rewrite Ep. rewrite distance_point_R; [|len|intro E; apply (f_equal (@length R)) in E; lenh E; simpl in *; lia]. cbn [bind].
  assert (Ed : dist (add o (scale m d)) o = - m). { unfold dist. rewrite sub_add_cancel by len. rewrite len_scale, L1d, Rabs_left by auto. ring. }
  rewrite Ed. rops. rewrite vmuls_R. cbn [bind]. replace (- m * 2) with (- 2 * m) by ring.
  apply cylinder_new_R. split; [len|]. split; [len|]. split; [apply scale_nonzero; auto; lra|]. apply sqrt_lt_R0, t_MS.
Qed.
End Tail.

Lemma fit_for_R rows (Hr : points_ok 3 rows) (NC : ~ coplanar rows) th ph u1 u2 : frame (spherical th ph) u1 u2 ->
  cylinder_fit_for (N:=RNum) RTrig (th, ph) (centered 3 rows) (cent 3 rows) =
  Ok (spherical th ph, add (K u1 u2 (centered 3 rows)) (cent 3 rows), sqrt (MS u1 u2 (centered 3 rows))).
Proof.
  intro Fr. pose proof (t_SD rows Hr NC _ _ _ Fr) as SDn. pose proof (t_Fy rows Hr) as Fy. pose proof (t_ne rows Hr) as Ney. pose proof (t_sum rows Hr) as Sy. pose proof (t_Lc rows Hr) as Lc.
  unfold cylinder_fit_for. cbn [fst snd]. rewrite spherical_R. cbn [bind]. rewrite (compute_center_R _ u1 u2) by auto. cbn [bind].
  rewrite vadd_R by (rewrite (length_K _ _ _ Fr); auto). cbn [bind]. rewrite (compute_radius_R _ u1 u2) by auto. reflexivity.
Qed.

Lemma coplanar_false LA rows : svd_correct LA -> points_ok 3 rows -> are_coplanar LA None rows = Ok false -> ~ coplanar rows.
Proof.
  intros HL Hr E C. destruct (C23_true_configurations LA 3 rows None HL Hr I) as (_ & _ & K). pose proof (eq_trans (eq_sym E) (K C)) as Z. discriminate.
Qed.

(** What best_fit computes once the optimiser has returned the angles. *)
Definition fitted (rows : list pt) (th ph : R) (c : cylinder RNum) : Prop :=
  exists u1 u2, frame (spherical th ph) u1 u2 /\ exists xm, In xm rows /\
    (forall x, In x rows -> dot (sub xm (cent 3 rows)) (spherical th ph) <= dot (sub x (cent 3 rows)) (spherical th ph)) /\
    dot (sub xm (cent 3 rows)) (spherical th ph) < 0 /\
    c = MkCylinder (N:=RNum) (add (add (K u1 u2 (centered 3 rows)) (cent 3 rows)) (scale (dot (sub xm (cent 3 rows)) (spherical th ph)) (spherical th ph)))
      (scale (- 2 * dot (sub xm (cent 3 rows)) (spherical th ph)) (spherical th ph)) (sqrt (MS u1 u2 (centered 3 rows))).

Definition objective (ys : list pt) (th ph : R) : res R := let* d := spherical_to_cartesian (N:=RNum) RTrig th ph in compute_g (N:=RNum) d ys.

Lemma best_fit_run LA M rows : svd_correct LA -> points_ok 3 rows -> (6 <= length rows)%nat -> are_coplanar LA None rows = Ok false ->
  cylinder_best_fit LA RTrig M rows =
  let* x0 := initial_direction LA RTrig (centered 3 rows) in
  let* angles := M (objective (centered 3 rows)) x0 in
  let* (unit_vector, center, radius) := cylinder_fit_for (N:=RNum) RTrig angles (centered 3 rows) (cent 3 rows) in
  let* axis := line_new (N:=RNum) center unit_vector in
  let* points_1d := line_transform_points axis rows in
  let* point_a := line_project_point axis (nth (argmin points_1d) rows []) in
  let* dd := distance_point point_a center in
  let length := nmul (n:=RNum) dd (nofZ (n:=RNum) 2) in
  let* vector_ab := vmuls length unit_vector in
  cylinder_new point_a vector_ab radius.
Proof.
  intros HL Hr L6 E. pose proof Hr as (Hne & Hd & F). unfold cylinder_best_fit. rewrite (points_of_R rows 3) by auto. cbn [bind]. rewrite (dim2_ok 3) by auto. cbn [Nat.eqb negb].
  rn. destruct (Nat.ltb_spec (length rows) 6); [lia|]. rn. rewrite E. cbn [bind]. rewrite (mean_center_c_R 3) by auto. cbn [bind]. reflexivity.
Qed.

Lemma fit_tail_R LA M rows x0 th ph : svd_correct LA -> points_ok 3 rows -> (6 <= length rows)%nat -> are_coplanar LA None rows = Ok false ->
  initial_direction LA RTrig (centered 3 rows) = Ok x0 -> M (objective (centered 3 rows)) x0 = Ok (th, ph) ->
  exists c, cylinder_best_fit LA RTrig M rows = Ok c /\ fitted rows th ph c.
Proof.
  intros HL Hr L6 E E0 EM. pose proof (coplanar_false LA rows HL Hr E) as NC. rewrite best_fit_run by auto. rn. rewrite E0. cbn [bind]. rn. rewrite EM. cbn [bind].
  destruct (spherical_unit th ph) as (Ld & Ud). destruct (frame_exists _ Ld Ud) as (u1 & u2 & Fr). rewrite (fit_for_R rows Hr NC th ph u1 u2 Fr). cbn [bind].
  destruct (tail_R rows Hr NC _ u1 u2 Fr) as (xm & H1 & H2 & H3 & H4). eexists. split; [exact H4|]. exists u1, u2. split; auto. exists xm. auto.
Qed.

Section Facts.
Context (rows : list pt) (Hr : points_ok 3 rows) (NC : ~ coplanar rows) (th ph : R) (u1 u2 : pt) (Fr : frame (spherical th ph) u1 u2).
Notation d := (spherical th ph).
Notation c0 := (cent 3 rows).
Notation ys := (centered 3 rows).
Notation o := (add (K u1 u2 ys) c0).
Let Ld := fr_d _ _ _ Fr. Let L1 := fr_1 _ _ _ Fr. Let L2 := fr_2 _ _ _ Fr.
Let Hne := t_ne rows Hr. Let Fy := t_Fy rows Hr. Let Sy := t_sum rows Hr. Let Lc := t_Lc rows Hr. Let F := t_F rows Hr.
Let SDn := t_SD rows Hr NC d u1 u2 Fr.
Lemma dir_ok k : k <> 0 -> ~ is_zero_vec (scale k d).
Proof. intro Hk. apply scale_nonzero; auto. intro Z. apply dot_self_zero_iff in Z. pose proof (fr_dd _ _ _ Fr). lra. Qed.
Lemma axd_shift q m x : length q = 3%nat -> axd u1 u2 (add q (scale m d)) x = axd u1 u2 q x.
Proof. intro Lq. unfold axd. rewrite !dot_add_l by len. rewrite !dot_scale_l, (dot_comm d u1), (dot_comm d u2), (fr_1d _ _ _ Fr), (fr_2d _ _ _ Fr). ring. Qed.
(** Error of any parallel axis. *)
Lemma axis_error_err k q r e : k <> 0 -> length q = 3%nat ->
  (axis_error q (scale k d) r rows e <-> e = err u1 u2 ys (dot (sub q c0) u1) (dot (sub q c0) u2) (r * r)).
Proof.
  intros Hk Lq. rewrite (axis_error_R d u1 u2 k q r rows Fr Hk Lq F e). unfold err, centered. rewrite map_map.
  rewrite (Rsum_map_ext _ (fun x => ((dot (sub x c0) u1 - dot (sub q c0) u1) * (dot (sub x c0) u1 - dot (sub q c0) u1) + (dot (sub x c0) u2 - dot (sub q c0) u2) * (dot (sub x c0) u2 - dot (sub q c0) u2) - r * r) *
    ((dot (sub x c0) u1 - dot (sub q c0) u1) * (dot (sub x c0) u1 - dot (sub q c0) u1) + (dot (sub x c0) u2 - dot (sub q c0) u2) * (dot (sub x c0) u2 - dot (sub q c0) u2) - r * r))); [tauto|].
  intros x Hx. pose proof F as F'. rewrite Forall_forall in F'. pose proof (F' x Hx) as Lx. unfold axd. rewrite !dot_sub_l by len. ring.
Qed.
Lemma center_coords m : dot (sub (add o (scale m d)) c0) u1 = SX u1 u2 ys /\ dot (sub (add o (scale m d)) c0) u2 = SY u1 u2 ys.
Proof.
  pose proof (length_K d u1 u2 Fr ys) as LK. assert (E : sub (add o (scale m d)) c0 = add (K u1 u2 ys) (scale m d)).
  { apply pt_ext; [len|]. intros i _. repeat rewrite ?nth_add, ?nth_scale, ?nth_sub by len. ring. }
  rewrite E, !dot_add_l by len. rewrite !dot_scale_l, (dot_comm d u1), (dot_comm d u2), (fr_1d _ _ _ Fr), (fr_2d _ _ _ Fr), (al_K d u1 u2 Fr), (be_K d u1 u2 Fr). lra.
Qed.
Lemma g_least : exists e, compute_g (N:=RNum) d ys = Ok e /\
  (forall m k, k <> 0 -> axis_error (add o (scale m d)) (scale k d) (sqrt (MS u1 u2 ys)) rows e) /\
  forall k q r e', k <> 0 -> length q = 3%nat -> axis_error q (scale k d) r rows e' -> e <= e'.
Proof.
  pose proof (length_K d u1 u2 Fr ys) as LK. exists (err u1 u2 ys (SX u1 u2 ys) (SY u1 u2 ys) (MS u1 u2 ys)). split; [apply (compute_g_R d); auto|]. split.
  - intros m k Hk. apply axis_error_err; auto; [len|]. destruct (center_coords m) as (-> & ->). rewrite sqrt_sqrt by (apply MS_nonneg; auto). reflexivity.
  - intros k q r e' Hk Lq H. apply axis_error_err in H; auto. subst e'. apply (err_min d); auto.
Qed.
Lemma rms k m : k <> 0 -> sq_error (on_line (add o (scale m d)) (scale k d)) rows (INR (length rows) * (sqrt (MS u1 u2 ys) * sqrt (MS u1 u2 ys))).
Proof.
  intro Hk. pose proof (length_K d u1 u2 Fr ys) as LK. pose proof F as F'. rewrite Forall_forall in F'. rewrite sqrt_sqrt by (apply MS_nonneg; auto).
  destruct (sq_error_fun (on_line (add o (scale m d)) (scale k d)) (fun x => sqrt (axd u1 u2 (add o (scale m d)) x)) rows) as (S & _).
  - intros x Hx. apply (axd_min d); auto; len.
  - replace (INR (length rows) * MS u1 u2 ys) with (Rsum (map (fun x => sqrt (axd u1 u2 (add o (scale m d)) x) * sqrt (axd u1 u2 (add o (scale m d)) x)) rows)); auto.
    rewrite (Rsum_map_ext _ (fun x => axd u1 u2 (K u1 u2 ys) (sub x c0))).
    + unfold MS. unfold centered at 3. rewrite map_map. assert (L : length ys = length rows) by apply map_length. rewrite L. pose proof (n_pos ys Hne) as P. rewrite L in P. field. lra.
    + intros x Hx. rewrite sqrt_sqrt by apply axd_nonneg. rewrite axd_shift by len. apply (t_axd rows Hr d); auto.
Qed.
End Facts.

Lemma fitted_facts rows th ph c : points_ok 3 rows -> ~ coplanar rows -> fitted rows th ph c ->
  let p := cy_point c in let v := cy_vector c in let r := cy_radius c in
  cylinder_new (N:=RNum) p v r = Ok c /\
  (exists k, 0 < k /\ v = scale k (spherical th ph)) /\
  sq_error (on_line p v) rows (INR (length rows) * (r * r)) /\
  (exists e, compute_g (N:=RNum) (spherical th ph) (centered 3 rows) = Ok e /\ axis_error p v r rows e /\
     forall q s e', length q = 3%nat -> axis_error q v s rows e' -> e <= e') /\
  (exists x, In x rows /\ dot (sub x p) v = 0) /\ (forall x, In x rows -> 0 <= dot (sub x p) v) /\
  dot (sub (cent 3 rows) p) v = dot v v / 2.
Proof.
  intros Hr NC (u1 & u2 & Fr & xm & Hxm & Hmin & Hneg & ->). cbn [cy_point cy_vector cy_radius]. set (d := spherical th ph) in *. set (m := dot (sub xm (cent 3 rows)) d) in *.
  pose proof (fr_d _ _ _ Fr) as Ld. pose proof (fr_dd _ _ _ Fr) as Ud. pose proof (t_Lc rows Hr) as Lc. pose proof (length_K d u1 u2 Fr (centered 3 rows)) as LK. pose proof (t_F rows Hr) as F. rewrite Forall_forall in F.
  assert (Hk : - 2 * m <> 0) by lra. assert (Hz : ~ is_zero_vec (scale (-2 * m) d)) by (apply (dir_ok th ph u1 u2 Fr); auto).
  assert (Q : forall x, length x = 3%nat -> dot (sub x (add (add (K u1 u2 (centered 3 rows)) (cent 3 rows)) (scale m d))) (scale (-2 * m) d) = -2 * m * (dot (sub x (cent 3 rows)) d - m)).
  { intros x Lx. rewrite dot_scale_r, !dot_sub_l, !dot_add_l, dot_scale_l, (d_K d u1 u2 Fr), Ud by len. ring. }
  split; [apply cylinder_new_R; split; [len|]; split; [len|]; split; auto; apply sqrt_lt_R0, (t_MS rows Hr NC d); auto|].
  split; [exists (-2 * m); split; auto; lra|].
  split; [apply rms; auto|].
  split; [destruct (g_least rows Hr NC th ph u1 u2 Fr) as (e & E & A & B); exists e; split; auto; split; [apply A; auto|]; intros q s e' Lq; apply B; auto|].
  split; [exists xm; split; auto; rewrite Q by auto; fold m; ring|].
  split; [intros x Hx; rewrite Q by auto; specialize (Hmin x Hx); nra|].
  rewrite Q by auto. rewrite dot_scale_l, dot_scale_r, Ud, dot_sub_l by len. field.
Qed.

Lemma best_fit_ok_inv LA M dd rows c : svd_correct LA -> points_ok dd rows -> cylinder_best_fit LA RTrig M rows = Ok c ->
  dd = 3%nat /\ (6 <= length rows)%nat /\ are_coplanar LA None rows = Ok false /\
  exists x0 th ph, initial_direction LA RTrig (centered 3 rows) = Ok x0 /\ M (objective (centered 3 rows)) x0 = Ok (th, ph) /\ fitted rows th ph c.
Proof.
  intros HL Hr E. pose proof Hr as (Hne & Hd & F). pose proof E as E1. unfold cylinder_best_fit in E1. rewrite (points_of_R rows dd) in E1 by auto. cbn [bind] in E1. rewrite (dim2_ok dd) in E1 by auto.
  destruct (Nat.eqb_spec dd 3) as [->|]; [|cbn [negb] in E1; discriminate]. cbn [negb] in E1. rn; destruct (Nat.ltb_spec (length rows) 6) as [|L6]; [discriminate|]. split; auto. split; auto.
  apply bind_ok_inv in E1 as (cop & Ec & E1). destruct cop; [discriminate|]. split; auto. clear E1.
  pose proof E as E2. rewrite best_fit_run in E2 by auto. apply bind_ok_inv in E2 as (x0 & E0 & E2). apply bind_ok_inv in E2 as ([th ph] & EM & _).
  exists x0, th, ph. split; auto. split; auto. destruct (fit_tail_R LA M rows x0 th ph HL Hr L6 Ec E0 EM) as (c' & E' & Hc). rewrite E in E'. injection E' as <-. exact Hc.
Qed.

(** Whatever the optimiser returns, a returned cylinder has these properties: it is a valid cylinder; its radius is the
    root mean square distance of the points from its axis; among all axes of the same direction and all radii it has
    the least error sum (dist^2 - r^2)^2; its base plane touches the points and the points are on the axis side of it;
    and the centroid of the points lies half-way up the cylinder. *)
Theorem C63_fit : forall LA M d rows c, svd_correct LA -> points_ok d rows -> cylinder_best_fit LA RTrig M rows = Ok c ->
  let p := cy_point c in let v := cy_vector c in let r := cy_radius c in
  cylinder_new (N:=RNum) p v r = Ok c /\
  sq_error (on_line p v) rows (INR (length rows) * (r * r)) /\
  (exists e, axis_error p v r rows e /\ forall q s e', length q = 3%nat -> axis_error q v s rows e' -> e <= e') /\
  (exists x, In x rows /\ dot (sub x p) v = 0) /\ (forall x, In x rows -> 0 <= dot (sub x p) v) /\
  (forall m, centroid (N:=RNum) rows = Ok m -> dot (sub m p) v = dot v v / 2).
Proof.
  intros LA M d rows c HL Hr E. destruct (best_fit_ok_inv LA M d rows c HL Hr E) as (-> & L6 & Ec & x0 & th & ph & _ & _ & Hf).
  destruct (fitted_facts rows th ph c Hr (coplanar_false LA rows HL Hr Ec) Hf) as (A & _ & B & (e & _ & C & D) & G & H & I0).
  split; auto. split; auto. split; [exists e; auto|]. split; auto. split; auto. intros m Em. rewrite (centroid_R 3) in Em by auto. injection Em as <-. exact I0.
Qed.
Print Assumptions C63_fit.

(** The error of a fit with the best centre and radius for an axis direction [w]. *)
Definition direction_error (w : pt) (rows : list pt) (e : R) : Prop :=
  (exists p r, length p = 3%nat /\ axis_error p w r rows e) /\ forall p r e', length p = 3%nat -> axis_error p w r rows e' -> e <= e'.

(** The function handed to the optimiser is, for every pair of angles, the least error over all axes in the direction with these
    angles and all radii; the axis of the result has the direction given by the angles the optimiser returns. *)
Theorem C63_objective : forall LA rows, svd_correct LA -> points_ok 3 rows -> are_coplanar LA None rows = Ok false -> (6 <= length rows)%nat ->
  exists g, (forall th ph, exists e, g th ph = Ok e /\ direction_error (spherical th ph) rows e) /\
  forall M c, cylinder_best_fit LA RTrig M rows = Ok c -> exists x0 th ph k, M g x0 = Ok (th, ph) /\ 0 < k /\ cy_vector c = scale k (spherical th ph) /\
    exists e, g th ph = Ok e /\ axis_error (cy_point c) (cy_vector c) (cy_radius c) rows e.
Proof.
  intros LA rows HL Hr Ec L6. pose proof (coplanar_false LA rows HL Hr Ec) as NC. exists (objective (centered 3 rows)).
  assert (G : forall th ph, objective (centered 3 rows) th ph = compute_g (N:=RNum) (spherical th ph) (centered 3 rows)) by (intros; unfold objective; rewrite spherical_R; reflexivity).
  split.
  - intros th ph. rewrite G. destruct (spherical_unit th ph) as (Ld & Ud). destruct (frame_exists _ Ld Ud) as (u1 & u2 & Fr). destruct (g_least rows Hr NC th ph u1 u2 Fr) as (e & E & A & B). exists e. split; auto.
    pose proof (t_Lo rows Hr (spherical th ph) u1 u2 Fr) as Lo. split.
    + specialize (A 0 1 ltac:(lra)). rewrite scale_1 in A. eexists. eexists. split; [|exact A]. rewrite length_add, length_scale, Lo. reflexivity.
    + intros q s e' Lq H. apply (B 1 q s e'); [lra|exact Lq|]. rewrite scale_1. exact H.
  - intros M c E. destruct (best_fit_ok_inv LA M 3 rows c HL Hr E) as (_ & _ & _ & x0 & th & ph & E0 & EM & Hf).
    destruct (fitted_facts rows th ph c Hr NC Hf) as (_ & (k & Pk & Ek) & _ & (e & Eg & C & _) & _). exists x0, th, ph, k. split; auto. split; auto. split; auto. exists e. rewrite G. auto.
Qed.
Print Assumptions C63_objective.

(** ** The start of the search *)
Definition tol_axis : R := 4835703278458517 / 2 ^ 82.
Lemma clamp_arccos x : -1 <= x <= 1 -> np_arccos (N:=RNum) RTrig x = Ok (acos x).
Proof. intro H. unfold np_arccos. rops. change (nopp 1) with (- (1)). rb; try lra. reflexivity. Qed.
Lemma isclose_axis x : exists b, isclose (N:=RNum) (MkTol (N:=RNum) (rel_tol tol_default) (ndyad 4835703278458517 82)) x 0 = Ok b /\ (b = true <-> Rabs x <= tol_axis).
Proof.
  assert (T : ndyad (n:=RNum) 4835703278458517 82 = tol_axis) by (unfold tol_axis; change (IZR 4835703278458517 / IZR (2 ^ 82) = 4835703278458517 / 2 ^ 82); f_equal; rewrite pow_IZR; reflexivity).
  assert (P : 0 <= tol_axis) by (unfold tol_axis; apply Rle_mult_inv_pos; [lra|apply pow_lt; lra]).
  destruct (isclose_R (MkTol (N:=RNum) (rel_tol tol_default) (ndyad 4835703278458517 82)) x 0) as (b & E & H).
  - split; [apply tol_default_ok|]. cbn [abs_tol]. rewrite T. exact P.
  - exists b. split; auto. rewrite H. cbn [rel_tol abs_tol]. rewrite T. change (4835703278458517 / 2 ^ 82) with tol_axis. unfold close. rewrite Rminus_0_r, Rabs_R0. pose proof (Rabs_pos x) as Px. rewrite (Rmax_left (Rabs x) 0) by auto.
    pose proof rel_default_eq as R0. change (ndyad (n:=RNum) 4835703278458517 82) with (rel_tol (N:=RNum) tol_default). rewrite R0.
    assert (Q : rel_default < 1 / 2) by (unfold rel_default; lra). assert (Q0 : 0 <= rel_default) by (unfold rel_default; lra).
    assert (S : rel_default * Rabs x <= Rabs x / 2) by nra. unfold Rmax. destruct Rle_dec; [tauto|]. split; [|intros; lra].
    intro Z. lra.
Qed.
Lemma Rabs_mult_self x : Rabs x * Rabs x = x * x.
Proof. unfold Rabs. destruct Rcase_abs; ring. Qed.
Lemma unit_bounds x y z : x * x + y * y + z * z = 1 -> -1 <= z <= 1.
Proof. intro H. pose proof (Rle_0_sqr x). pose proof (Rle_0_sqr y). unfold Rsqr in *. nra. Qed.
(** The angles the search starts from, for a unit direction (x, y, z): they are the spherical coordinates of the direction
    unless it is within 1e-9 of the z axis (then a nearby direction) or y = 0 and x < 0 (then the direction mirrored in
    the yz plane, because sign(0) = 0). *)
Theorem C63_initial_direction : forall x y z, x * x + y * y + z * z = 1 ->
  exists th ph, cartesian_to_spherical (N:=RNum) RTrig x y z = Ok (th, ph) /\ th = acos z /\
  (Rabs x <= tol_axis /\ Rabs y <= tol_axis -> dist (spherical th ph) [x; y; z] <= 3 * tol_axis) /\
  (~ (Rabs x <= tol_axis /\ Rabs y <= tol_axis) -> y <> 0 \/ 0 < x -> spherical th ph = [x; y; z]) /\
  (~ (Rabs x <= tol_axis /\ Rabs y <= tol_axis) -> y = 0 -> x < 0 -> spherical th ph = [- x; 0; z]).
Proof.
  intros x y z U. pose proof (unit_bounds x y z U) as Bz.
  assert (P : 0 <= tol_axis) by (unfold tol_axis; apply Rle_mult_inv_pos; [lra|apply pow_lt; lra]).
  set (s := sqrt (x * x + y * y)). pose proof (Rle_0_sqr x) as Qx. pose proof (Rle_0_sqr y) as Qy. unfold Rsqr in Qx, Qy. assert (Hs : s * s = x * x + y * y) by (apply sqrt_sqrt; lra). assert (Ps : 0 <= s) by apply sqrt_pos.
  assert (Sth : sin (acos z) = s). { rewrite sin_acos by auto. unfold s. f_equal. unfold Rsqr. lra. }
  assert (Cth : cos (acos z) = z) by (apply cos_acos; auto).
  assert (E0 : ndiv (n:=RNum) z (nsqrt (n:=RNum) (x * x + y * y + z * z)) = Ok z).
  { rops. rewrite U, sqrt_1. rewrite ndiv_R by lra. f_equal. unfold Rdiv. rewrite Rinv_1. ring. }
  unfold cartesian_to_spherical. change (nadd (n:=RNum)) with Rplus. change (nmul (n:=RNum)) with Rmult. rewrite E0. cbn [bind]. rewrite clamp_arccos by auto. cbn [bind].
  destruct (isclose_axis x) as (bx & Ex & Hx). destruct (isclose_axis y) as (bY & EY & HY). change (n0 (n:=RNum)) with 0. rewrite Ex. cbn [bind].
  assert (Hcy : (if bx then isclose (N:=RNum) (MkTol (N:=RNum) (rel_tol tol_default) (ndyad 4835703278458517 82)) y 0 else Ok false) = Ok (bx && bY)%bool) by (destruct bx; auto).
  rewrite Hcy. cbn [bind]. clear Hcy Ex EY. assert (HB : (bx && bY)%bool = true <-> Rabs x <= tol_axis /\ Rabs y <= tol_axis) by (rewrite andb_true_iff; tauto).
  destruct (bx && bY)%bool.
  - exists (acos z), 0. split; auto. split; auto. split; [|split; intro C; exfalso; apply C, HB; auto].
    intros (Ax & Ay). unfold spherical. rewrite cos_0, sin_0, Sth, Cth. unfold dist, len. cbn [sub dot].
    replace (3 * tol_axis) with (sqrt (3 * tol_axis * (3 * tol_axis))) by (apply sqrt_square; lra). apply sqrt_le_1_alt.
    assert (x * x <= tol_axis * tol_axis /\ y * y <= tol_axis * tol_axis). { split; [rewrite <- (Rabs_mult_self x)|rewrite <- (Rabs_mult_self y)]; apply Rmult_le_compat; auto using Rabs_pos. }
    assert (s * s <= 2 * (tol_axis * tol_axis)) by lra. assert (Hsx : - (2 * (s * x)) <= s * s + x * x) by (pose proof (Rle_0_sqr (s + x)); unfold Rsqr in *; lra).
    apply Rle_trans with (s * s - 2 * (s * x) + x * x + y * y); [right; ring|]. lra.
  - assert (Hs0 : s <> 0). { intro Z. rewrite Z in Hs. assert (x = 0) by nra. assert (y = 0) by nra. subst. rewrite Rabs_R0 in HB. destruct HB as (_ & HB). discriminate HB. auto. }
    rops. fold s. rewrite ndiv_R by auto. cbn [bind]. assert (Bx : -1 <= x / s <= 1).
    { assert (0 < s) by lra. split; apply (Rmult_le_reg_r s); auto; unfold Rdiv; rewrite Rmult_assoc, Rinv_l by auto; nra. }
    rewrite clamp_arccos by auto. cbn [bind]. assert (Cph : cos (acos (x / s)) = x / s) by (apply cos_acos; auto).
    assert (Sph : sin (acos (x / s)) = Rabs y / s).
    { rewrite sin_acos by auto. apply sqrt_lem_1; [| |].
      - unfold Rsqr. assert (-1 <= x / s <= 1) by auto. nra.
      - apply Rle_mult_inv_pos; [apply Rabs_pos|lra].
      - unfold Rsqr. transitivity (Rabs y * Rabs y / (s * s)); [field; auto|]. rewrite Rabs_mult_self. replace (y * y) with (s * s - x * x) by lra. field. auto. }
    exists (acos z), (IZR (nsign (N:=RNum) y) * acos (x / s)). split; auto. split; auto. split; [intro C; apply HB in C; discriminate|].
    unfold spherical. rewrite Sth, Cth. destruct (Directions.nsign_R y) as [[Hy ->]|[[Hy ->]|[Hy ->]]].
    + replace (-1 * acos (x / s)) with (- acos (x / s)) by ring. rewrite cos_neg, sin_neg, Cph, Sph, (Rabs_left y) by auto. split; [intros _ _|intros; lra]. apply (f_equal2 (@cons R)); [field; auto|]; apply (f_equal2 (@cons R)); [field; auto|reflexivity].
    + rewrite Rmult_1_l, Cph, Sph, (Rabs_right y) by lra. split; [intros _ _|intros; lra]. apply (f_equal2 (@cons R)); [field; auto|]; apply (f_equal2 (@cons R)); [field; auto|reflexivity].
    + rewrite Rmult_0_l, cos_0, sin_0. subst y. assert (Sx : s = Rabs x). { unfold s. rewrite Rmult_0_l, Rplus_0_r. rewrite <- (Rabs_mult_self x). apply sqrt_square, Rabs_pos. }
      split; intros _; [intros [C|C]; [lra|]; rewrite Sx, Rabs_right by lra|intros _ C; rewrite Sx, Rabs_left by lra]; veq.
Qed.
Print Assumptions C63_initial_direction.

(** Points that are not 3D, fewer than six points and coplanar points are rejected with ValueError, whatever the
    optimiser would do. *)
Theorem C63_rejects : forall LA M d rows, svd_correct LA -> points_ok d rows -> d <> 3%nat \/ (length rows < 6)%nat \/ coplanar rows ->
  exists msg, cylinder_best_fit LA RTrig M rows = Raise (ValueError msg).
Proof.
  intros LA M d rows HL Hr H. pose proof Hr as (Hne & Hd & F). unfold cylinder_best_fit. rewrite (points_of_R rows d) by auto. cbn [bind]. rewrite (dim2_ok d) by auto.
  destruct (Nat.eqb_spec d 3) as [->|]; [|eexists; reflexivity]. cbn [negb]. rn. destruct (Nat.ltb_spec (length rows) 6); [eexists; reflexivity|].
  assert (C : coplanar rows) by (destruct H as [H|[H|H]]; [lia|lia|exact H]).
  destruct (C23_true_configurations LA 3 rows None HL Hr I) as (_ & _ & K). rewrite (K C). eexists; reflexivity.
Qed.
Print Assumptions C63_rejects.

Lemma centered_not_concurrent rows : points_ok 3 rows -> ~ coplanar rows -> ~ concurrent (centered 3 rows).
Proof.
  intros Hr NC C. apply NC. pose proof Hr as (Hne & _ & F). pose proof (t_Lc rows Hr) as Lc. destruct rows as [|r0 rs]; [contradiction|]. rewrite Forall_forall in F.
  exists r0, r0, r0. split; auto. split; auto. intros x Hx. exists 0, 0. pose proof (F x Hx) as Lx. pose proof (F r0 (or_introl eq_refl)) as L0.
  assert (E : sub x (cent 3 (r0 :: rs)) = sub r0 (cent 3 (r0 :: rs))) by (apply C; unfold centered; apply (in_map (fun r => sub r (cent 3 (r0 :: rs)))); simpl in *; tauto).
  apply (f_equal (fun z => add (cent 3 (r0 :: rs)) z)) in E. rewrite !add_sub_cancel in E by len. rewrite E, !scale_0, !add_origin_r by len. reflexivity.
Qed.
Lemma initial_direction_ok LA rows : svd_correct LA -> points_ok 3 rows -> ~ coplanar rows -> (Z.of_nat (length rows) < 2 ^ 52)%Z ->
  exists x0, initial_direction LA RTrig (centered 3 rows) = Ok x0.
Proof.
  intros HL Hr NC Hsz. pose proof (centered_ok 3 rows Hr) as Hy. pose proof (centered_not_concurrent rows Hr NC) as NCc. assert (Ly : length (centered 3 rows) = length rows) by apply map_length.
  destruct (C23_concurrent_default_exact LA 3 _ HL Hy) as (a & Ea & Ha); [rewrite Ly; lia|]. destruct a; [exfalso; apply NCc, Ha; auto|].
  destruct (C33_line_best_fit LA None 3 _ HL Hy Ea) as (p & e & er & _ & El & Enew & Ep & _). unfold initial_direction. rn. rewrite El. cbn [bind l_dir].
  apply line_new_iff in Enew as (_ & Hpv). destruct Hpv as (Lpe & Hz & _).
  rewrite (centroid_R 3) in Ep by auto. injection Ep as <-. assert (Lc : length (cent 3 (centered 3 rows)) = 3%nat) by (apply length_cent, Hy).
  rewrite unit_R by auto. cbn [bind]. assert (L3 : length (scale (/ len e) e) = 3%nat) by len. pose proof (unit_scale_dot e Hz) as U.
  destruct (list3 _ L3) as (x & y & z & E). rewrite E in U |- *. cbn [dot] in U.
  destruct (C63_initial_direction x y z ltac:(lra)) as (th & ph & Es & _). exists (th, ph). exact Es.
Qed.

(** On at least six 3D points (fewer than 2^52) that do not look coplanar, best_fit returns a cylinder as soon as the optimiser
    returns some angles. *)
Theorem C63_returns : forall LA M rows, svd_correct LA -> points_ok 3 rows -> (6 <= length rows)%nat -> (Z.of_nat (length rows) < 2 ^ 52)%Z ->
  are_coplanar LA None rows = Ok false -> (forall g x0, exists th ph, M g x0 = Ok (th, ph)) -> exists c, cylinder_best_fit LA RTrig M rows = Ok c.
Proof.
  intros LA M rows HL Hr L6 Hsz Ec HM. destruct (initial_direction_ok LA rows HL Hr (coplanar_false LA rows HL Hr Ec) Hsz) as (x0 & E0).
  destruct (HM (objective (centered 3 rows)) x0) as (th & ph & EM). destruct (fit_tail_R LA M rows x0 th ph HL Hr L6 Ec E0 EM) as (c & E & _). exists c. exact E.
Qed.
Print Assumptions C63_returns.

(** ** With a perfect optimiser *)
Lemma spherical_surj w : length w = 3%nat -> dot w w = 1 -> exists th ph, spherical th ph = w.
Proof.
  intros Lw U. destruct (list3 w Lw) as (x & y & z & ->). cbn [dot] in U. assert (U' : x * x + y * y + z * z = 1) by lra. pose proof (unit_bounds x y z U') as Bz.
  set (s := sqrt (x * x + y * y)). pose proof (Rle_0_sqr x) as Qx. pose proof (Rle_0_sqr y) as Qy. unfold Rsqr in Qx, Qy. assert (Hs : s * s = x * x + y * y) by (apply sqrt_sqrt; lra). assert (Ps : 0 <= s) by apply sqrt_pos.
  assert (Sth : sin (acos z) = s). { rewrite sin_acos by auto. unfold s. f_equal. unfold Rsqr. lra. }
  assert (Cth : cos (acos z) = z) by (apply cos_acos; auto). exists (acos z).
  destruct (Req_EM_T s 0) as [Z|Hs0].
  - exists 0. unfold spherical. rewrite cos_0, sin_0, Sth, Cth, Z. rewrite Z in Hs. assert (x = 0) by nra. assert (y = 0) by nra. subst. veq.
  - assert (Bx : -1 <= x / s <= 1).
    { assert (0 < s) by lra. split; apply (Rmult_le_reg_r s); auto; unfold Rdiv; rewrite Rmult_assoc, Rinv_l by auto; nra. }
    assert (Cph : cos (acos (x / s)) = x / s) by (apply cos_acos; auto).
    assert (Sph : sin (acos (x / s)) = Rabs y / s).
    { rewrite sin_acos by auto. apply sqrt_lem_1.
      - unfold Rsqr. nra.
      - apply Rle_mult_inv_pos; [apply Rabs_pos|lra].
      - unfold Rsqr. transitivity (Rabs y * Rabs y / (s * s)); [field; auto|]. rewrite Rabs_mult_self. replace (y * y) with (s * s - x * x) by lra. field. auto. }
    destruct (Rlt_dec y 0) as [Hy|Hy]; [exists (- acos (x / s))|exists (acos (x / s))]; unfold spherical; rewrite ?cos_neg, ?sin_neg, Sth, Cth, Cph, Sph;
    [rewrite (Rabs_left y) by auto|rewrite (Rabs_right y) by lra]; apply (f_equal2 (@cons R)); try (field; auto); apply (f_equal2 (@cons R)); try (field; auto); reflexivity.
Qed.
(** The optimiser only ever returns global minimisers of the function it is given. *)
Definition global_optimiser (M : minimizer (N:=RNum)) : Prop :=
  forall g x0 th ph, M g x0 = Ok (th, ph) -> forall th' ph' e', g th' ph' = Ok e' -> exists e, g th ph = Ok e /\ e <= e'.

(** With such an optimiser the result has the least error sum (dist^2 - r^2)^2 of all infinite cylinders. *)
Theorem C63_global : forall LA M rows c, svd_correct LA -> points_ok 3 rows -> global_optimiser M -> cylinder_best_fit LA RTrig M rows = Ok c ->
  exists e, axis_error (cy_point c) (cy_vector c) (cy_radius c) rows e /\
    forall q w s e', length q = 3%nat -> length w = 3%nat -> ~ is_zero_vec w -> axis_error q w s rows e' -> e <= e'.
Proof.
  intros LA M rows c HL Hr HM E. destruct (best_fit_ok_inv LA M 3 rows c HL Hr E) as (_ & L6 & Ec & _).
  destruct (C63_objective LA rows HL Hr Ec L6) as (g & G1 & G2). destruct (G2 M c E) as (x0 & th & ph & k & EM & Pk & Ev & e & Eg & He). exists e. split; auto.
  intros q w s e' Lq Lw Hz He'. destruct (spherical_surj (scale (/ len w) w)) as (th' & ph' & Es); [len|apply unit_scale_dot; auto|].
  destruct (G1 th' ph') as (e2 & Eg2 & _ & Hmin). destruct (HM g x0 th ph EM th' ph' e2 Eg2) as (e1 & Eg1 & Hle). pose proof (eq_trans (eq_sym Eg) Eg1) as Z. injection Z as <-.
  apply Rle_trans with e2; auto. apply (Hmin q s e' Lq). rewrite Es. destruct He' as (ds & F2 & ->). exists ds. split; auto. 
  assert (Imp : forall a b, min_dist (on_line q w) a b -> min_dist (on_line q (scale (/ len w) w)) a b); [|clear - F2 Imp; induction F2; constructor; auto].
  intros a b [(y & Hy & Hd) Hb].
  assert (Heq : forall y, on_line q (scale (/ len w) w) y <-> on_line q w y).
  { pose proof (len_pos w Hz) as Pw. intro y0. split; intros (t & ->); [exists (t * / len w)|exists (t * len w)]; f_equal; rewrite scale_scale; f_equal; field; lra. }
  split; [exists y; split; auto; apply Heq; auto|]. intros y0 Hy0. apply Hb, Heq, Hy0.
Qed.
Print Assumptions C63_global.
(** In particular points that lie exactly on some infinite cylinder lie exactly on the fitted one. *)
Theorem C63_exact_recovery : forall LA M rows c q w s, svd_correct LA -> points_ok 3 rows -> global_optimiser M -> cylinder_best_fit LA RTrig M rows = Ok c ->
  length q = 3%nat -> length w = 3%nat -> ~ is_zero_vec w -> (forall x, In x rows -> min_dist (on_line q w) x s) ->
  forall x, In x rows -> min_dist (on_line (cy_point c) (cy_vector c)) x (cy_radius c).
Proof.
  intros LA M rows c q w s HL Hr HM E Lq Lw Hz H x Hx. destruct (C63_global LA M rows c HL Hr HM E) as (e & (ds & F2 & ->) & Hmin).
  destruct (C63_fit LA M 3 rows c HL Hr E) as (Hc & _). apply cylinder_new_iff in Hc as (_ & Hc). destruct Hc as (_ & _ & _ & Pr).
  assert (He' : axis_error q w s rows 0).
  { exists (map (fun _ => s) rows). split.
    - clear - H. induction rows; constructor; [apply H; simpl; auto|apply IHrows; intros; apply H; simpl; auto].
    - rewrite map_map. rewrite (Rsum_map_ext _ (fun _ => 0)) by (intros; ring). rewrite Rsum_map_const. ring. }
  specialize (Hmin q w s 0 Lq Lw Hz He').
  assert (Z : forall s', In s' ds -> s' * s' - cy_radius c * cy_radius c = 0).
  { intros s' Hs'. set (f := fun s0 => (s0 * s0 - cy_radius c * cy_radius c) * (s0 * s0 - cy_radius c * cy_radius c)) in *.
    assert (E0 : Rsum (map f ds) = 0). { apply Rle_antisym; auto. apply Rsum_nonneg. intros y Hy. apply in_map_iff in Hy as (z & <- & _). apply Rle_0_sqr. }
    assert (E1 : f s' = 0). { apply (Rsum_zero (map f ds)); auto; [|apply in_map, Hs']. intros y Hy. apply in_map_iff in Hy as (z & <- & _). apply Rle_0_sqr. }
    unfold f in E1. apply Rmult_integral in E1. tauto. }
  clear - F2 Z Hx Pr. induction F2 as [|a b l l' Hab F2 IH]; [contradiction|]. destruct Hx as [<-|Hx]; [|apply IH; auto; intros; apply Z; simpl; auto].
  specialize (Z b (or_introl eq_refl)). assert (Pb : 0 <= b) by (destruct Hab as ((y & _ & <-) & _); apply sqrt_pos). assert (b = cy_radius c) by nra. subst b. exact Hab.
Qed.
Print Assumptions C63_exact_recovery.

(** ** A concrete fit: six points exactly on the unit cylinder around the z axis *)
Definition ring6 : list pt := [[1; 0; 0]; [-1; 0; 0]; [0; 1; 0]; [0; -1; 0]; [3 / 5; 4 / 5; 0]; [1; 0; 1]].
Lemma ring6_ok : points_ok 3 ring6.
Proof. split; [discriminate|]. split; [lia|repeat constructor]. Qed.
Lemma ring6_diam : forall x y, In x ring6 -> In y ring6 -> dist x y <= 3.
Proof.
  intros x y Hx Hy. unfold dist, len. replace 3 with (sqrt 9) by (replace 9 with (3 * 3) by ring; apply sqrt_square; lra).
  apply sqrt_le_1_alt. simpl in Hx, Hy. destruct Hx as [<-|[<-|[<-|[<-|[<-|[<-|[]]]]]]], Hy as [<-|[<-|[<-|[<-|[<-|[<-|[]]]]]]]; simpl; lra.
Qed.
Lemma ring6_not_coplanar : forall LA, svd_correct LA -> are_coplanar LA None ring6 = Ok false.
Proof.
  intros LA HL. destruct (affine_rank_R LA None 3 ring6 HL ring6_ok) as (U & S & Vh & Hs & Er).
  destruct (are_coplanar LA None ring6) as [[|]| |] eqn:E; auto; exfalso; [|unfold are_coplanar in E; rewrite Er in E; discriminate|unfold are_coplanar in E; rewrite Er in E; discriminate].
  destruct (C23_default_tests_sound LA 3 ring6 3 HL ring6_ok ring6_diam) as (_ & K). specialize (K E). cbv zeta in K. set (eps := _ * 3) in K.
  assert (P : 0 <= 2 * eps <= 1 / 10).
  { unfold eps. assert (0 < / 2 ^ 52 <= / 10000) by (split; [apply Rinv_0_lt_compat, pow_lt; lra|apply Rinv_le_contravar; [lra|simpl; lra]]).
    change (Nat.max (length ring6) 3) with 6%nat. replace (INR 6) with 6 by (simpl; ring). lra. }
  clearbody eps. destruct (near_flat_direction 3 2 _ ring6 [] K) as (w & Lw & Uw & _ & B); [apply ring6_ok|auto|simpl; lia|].
  destruct (list3 w Lw) as (w1 & w2 & w3 & ->).
  assert (B1 := B [1; 0; 0] [-1; 0; 0] ltac:(simpl; auto) ltac:(simpl; auto)). assert (B2 := B [0; 1; 0] [0; -1; 0] ltac:(simpl; auto) ltac:(simpl; auto)).
  assert (B3 := B [1; 0; 1] [1; 0; 0] ltac:(simpl; tauto) ltac:(simpl; auto)).
  set (e2 := 2 * eps) in *. clearbody e2. cbn [sub dot] in Uw, B1, B2, B3. clear - Uw B1 B2 B3 P.
  assert (A : forall a b, Rabs a <= e2 -> b * b <= a * a -> b * b <= 1 / 100). { intros a b Ha Hb. pose proof (Rabs_pos a). assert (a * a = Rabs a * Rabs a) by (rewrite Rabs_mult_self; auto). nra. }
  pose proof (A _ w1 B1 ltac:(nra)). pose proof (A _ w2 B2 ltac:(nra)). pose proof (A _ w3 B3 ltac:(nra)). lra.
Qed.
Lemma ring6_on : forall x, In x ring6 -> min_dist (on_line [0; 0; 0] [0; 0; 1]) x 1.
Proof.
  intros x Hx. assert (PV : pv_ok [0; 0; 0] [0; 0; 1]) by (split; [reflexivity|split; [intro Z; inversion Z; lra|discriminate]]).
  assert (Lx : length x = 3%nat) by (pose proof ring6_ok as (_ & _ & F); rewrite Forall_forall in F; auto).
  assert (D : dist x (lproj [0; 0; 0] [0; 0; 1] x) = 1); [|pose proof (lproj_min _ _ x PV Lx) as Q; rewrite D in Q; exact Q]. unfold dist, len.
  simpl in Hx. destruct Hx as [<-|[<-|[<-|[<-|[<-|[<-|[]]]]]]]; unfold lproj, scale; cbn [sub dot add map]; match goal with |- sqrt ?e = _ => replace e with 1 by field end; apply sqrt_1.
Qed.
(** All points lie on the unit cylinder around the z axis, the optimiser returns that direction, the fit has error 0, and yet
    one of the points lies beyond the top of the returned cylinder: the length is twice the height of the centroid. *)
Theorem C63_covers_refuted : ~ forall LA M rows c x, svd_correct LA -> points_ok 3 rows -> cylinder_best_fit LA RTrig M rows = Ok c ->
  axis_error (cy_point c) (cy_vector c) (cy_radius c) rows 0 -> In x rows -> dot (sub x (cy_point c)) (cy_vector c) <= dot (cy_vector c) (cy_vector c).
Proof.
  intro H. set (M := fun (_ : R -> R -> res R) (_ : R * R) => Ok (0, 0) : res (R * R)). destruct ideal_linalg_correct as (HL & _).
  destruct (C63_returns ideal_linalg M ring6 HL ring6_ok ltac:(simpl; lia) ltac:(simpl; lia) (ring6_not_coplanar _ HL)) as (c & Ec); [intros; exists 0, 0; reflexivity|].
  destruct (C63_fit ideal_linalg M 3 ring6 c HL ring6_ok Ec) as (Hc & _ & (e & He & Hmin) & (xb & Hxb & Hb) & Hpos & Hmid).
  destruct (C63_objective ideal_linalg ring6 HL ring6_ok (ring6_not_coplanar _ HL) ltac:(simpl; lia)) as (g & _ & G). destruct (G M c Ec) as (x0 & th & ph & k & EM & Pk & Ev & _).
  unfold M in EM. injection EM as <- <-. unfold spherical, scale in Ev. rewrite cos_0, sin_0 in Ev. cbn [map] in Ev. replace [k * (1 * 0); k * (0 * 0); k * 1] with [0; 0; k] in Ev by veq.
  apply cylinder_new_iff in Hc as (_ & (Lp & _)). destruct (list3 _ Lp) as (p1 & p2 & p3 & Ep).
  assert (He0 : axis_error [0; 0; 0] (cy_vector c) 1 ring6 0).
  { exists (map (fun _ => 1) ring6). split; [|simpl; ring]. assert (Q : forall x, In x ring6 -> min_dist (on_line [0; 0; 0] (cy_vector c)) x 1).
    { intros x Hx. destruct (ring6_on x Hx) as ((y & Hy & Hd) & Hm). assert (EQ : forall y, on_line [0;0;0] (cy_vector c) y <-> on_line [0;0;0] [0;0;1] y).
      { intro y0. rewrite Ev. split; intros (t & ->); [exists (t * k)|exists (t / k)]; unfold scale; cbn [map add]; [veq|]. apply (f_equal2 (@cons R)); [field; lra|]. apply (f_equal2 (@cons R)); [field; lra|]. apply (f_equal2 (@cons R)); [field; lra|reflexivity]. }
      split; [exists y; split; auto; apply EQ; auto|]. intros z Hz. apply Hm, EQ, Hz. }
    clear - Q. induction ring6; constructor; [apply Q; simpl; auto|apply IHl; intros; apply Q; simpl; auto]. }
  assert (e = 0).
  { apply Rle_antisym; [apply (Hmin [0; 0; 0] 1); auto|]. destruct He as (ds & _ & ->). apply Rsum_nonneg. intros y Hy. apply in_map_iff in Hy as (z & <- & _). apply Rle_0_sqr. }
  subst e. specialize (H ideal_linalg M ring6 c [1; 0; 1] HL ring6_ok Ec He ltac:(simpl; tauto)). rewrite Ep, Ev in *. cbn [sub dot] in *.
  assert (Hm := Hmid _ (centroid_R 3 ring6 ring6_ok)). assert (H0 := Hpos [1; 0; 0] ltac:(simpl; auto)). cbn [sub dot] in H0.
  assert (P3 : p3 = 0). { simpl in Hxb. destruct Hxb as [<-|[<-|[<-|[<-|[<-|[<-|[]]]]]]]; cbn [sub dot] in Hb; nra. }
  unfold cent, scale in Hm. cbn [vsum fold_right ring6 map add sub dot length repeat origin] in Hm. replace (INR 6) with 6 in Hm by (simpl; ring). subst p3. nra.
Qed.
Print Assumptions C63_covers_refuted.
(** The hypotheses of the C63 theorems are met. *)
Example C63_nonvacuous : exists LA M c, svd_correct LA /\ are_coplanar LA None ring6 = Ok false /\ cylinder_best_fit LA RTrig M ring6 = Ok c.
Proof.
  destruct ideal_linalg_correct as (HL & _). exists ideal_linalg, (fun _ _ => Ok (0, 0)).
  destruct (C63_returns ideal_linalg (fun _ _ => Ok (0, 0)) ring6 HL ring6_ok ltac:(simpl; lia) ltac:(simpl; lia) (ring6_not_coplanar _ HL)) as (c & Ec); [intros; exists 0, 0; reflexivity|].
  exists c. split; auto. split; auto. apply ring6_not_coplanar, HL.
Qed.
