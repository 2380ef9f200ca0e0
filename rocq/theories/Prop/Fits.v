(** * Properties C33 (Line.best_fit), C40 (Plane.intersect_plane), C41 (Plane.best_fit) *)
From Coq Require Import String Reals List ZArith Lra Lia Psatz Bool.
From Verif.Model Require Import Outcome Num Instances Numpy BaseArray Vector Points Functions Line Plane.
From Verif.Spec Require Import Geometry Tolerance Mesh Linalg.
From Verif.Proof Require Import VecAlg Bridge Arrays Vectors Points Lines Lincomb Svd SvdExists Ranks Fits.
From Verif.Prop Require Import Directions Points Lines Ranks Planes.
Import ListNotations.
Local Open Scope R_scope.

(** ** C33  Line.best_fit *)
Theorem C33_line_best_fit : forall LA tolerance d rows, svd_correct LA -> points_ok d rows ->
  are_concurrent LA tolerance rows = Ok false ->
  exists (p e : pt) (err : R),
    line_best_fit_err LA tolerance rows = Ok (MkLine (N:=RNum) p e, err) /\ line_best_fit LA tolerance rows = Ok (MkLine (N:=RNum) p e) /\
    line_new (N:=RNum) p e = Ok (MkLine p e) /\
    centroid (N:=RNum) rows = Ok p /\
    sq_error (on_line p e) rows err /\
    (forall p' e' l' r', line_new (N:=RNum) p' e' = Ok l' -> length p' = d -> sq_error (on_line p' e') rows r' -> err <= r') /\
    (collinear rows -> err = 0).
Proof.
  intros LA tolerance d rows HL Hr Ec. pose proof Hr as (Hne & Hd & F).
  destruct (HL d (centered d rows) (centered_ok d rows Hr)) as (U & sv & Vh & Es & Hs).
  pose proof (fit_S0 d rows U sv Vh Hr Hs) as H0. pose proof (fit_pv d rows U sv Vh Hr Hs 0%nat H0) as Hpv. pose proof (fit_Lc d rows Hr) as Lc.
  assert (E : line_best_fit_err LA tolerance rows = Ok (MkLine (N:=RNum) (cent d rows) (nth 0 Vh []), Rsum (map (fun s => s * s) (skipn 1 sv)))).
  { unfold line_best_fit_err. rewrite (points_of_R rows d) by auto. cbn [bind]. rn. rewrite Ec. cbn [bind]. rewrite (mean_center_c_R d) by auto. cbn [bind].
    fold (centered d rows). rewrite Es. cbn [bind]. rewrite (proj2 (line_new_iff _ _ _) (conj eq_refl Hpv)). cbn [bind]. rewrite nsum_Rsum. reflexivity. }
  exists (cent d rows), (nth 0 Vh []), (Rsum (map (fun s => s * s) (skipn 1 sv))).
  split; auto. split; [unfold line_best_fit; rn; rewrite E; reflexivity|]. split; [apply line_new_iff; auto|].
  split; [apply centroid_R; auto|]. rewrite Forall_forall in F.
  split; [|split].
  - rn. rewrite <- (line_fit_err d rows U sv Vh Hr Hs). apply (sq_error_fun _ (fun x => dist x (lproj (cent d rows) (nth 0 Vh []) x))).
    intros x Hx. apply lproj_min; auto. rewrite (F x Hx). auto.
  - intros p' e' l' r' Hl' Lp' Hq. apply line_new_iff in Hl' as (_ & Hpv').
    apply (proj2 (sq_error_fun _ (fun x => dist x (lproj p' e' x)) rows ltac:(intros x Hx; apply lproj_min; auto; rewrite (F x Hx); auto))) in Hq.
    rewrite Hq. apply (line_fit_best d rows U sv Vh Hr Hs); auto.
  - apply (line_fit_collinear d rows U sv Vh Hr Hs).
Qed.
Print Assumptions C33_line_best_fit.

(** All-equal points are rejected, whatever the (non-negative) tolerance; with the default tolerance only those are (up to 2^52 rows). *)
Theorem C33_concurrent_rejected : forall LA tolerance d rows, svd_correct LA -> points_ok d rows -> tol_nonneg tolerance -> concurrent rows ->
  exists msg, line_best_fit LA tolerance rows = Raise (ValueError msg).
Proof.
  intros LA tolerance d rows HL Hr Ht C. destruct (C23_true_configurations LA d rows tolerance HL Hr Ht) as (T & _). pose proof Hr as (Hne & Hd & F).
  unfold line_best_fit, line_best_fit_err. rewrite (points_of_R rows d) by auto. cbn [bind]. rn. rewrite (T C). cbn [bind]. eexists; reflexivity.
Qed.
Print Assumptions C33_concurrent_rejected.
Theorem C33_default_accepts : forall LA d rows, svd_correct LA -> points_ok d rows -> (Z.of_nat (Nat.max (length rows) d) < 2 ^ 52)%Z ->
  ((exists l, line_best_fit LA None rows = Ok l) <-> ~ concurrent rows).
Proof.
  intros LA d rows HL Hr Hsz. split.
  - intros (l & El) C. destruct (C33_concurrent_rejected LA None d rows HL Hr I C) as (m & Em). rn; rewrite El in Em; discriminate.
  - intro C. destruct (C23_concurrent_default_exact LA d rows HL Hr Hsz) as (a & Ea & Ha). destruct a; [exfalso; apply C, Ha; auto|].
    destruct (C33_line_best_fit LA None d rows HL Hr Ea) as (p & e & err & _ & El & _). eauto.
Qed.
Print Assumptions C33_default_accepts.

Example C33_nonvacuous : exists l, line_best_fit ideal_linalg None [[0; 0]; [1; 2]; [2; 1]] = Ok l.
Proof.
  apply (C33_default_accepts ideal_linalg 2); [apply ideal_linalg_correct|split; [discriminate|]; split; [lia|repeat constructor]|simpl; lia|].
  intro C. assert (E := C [0; 0] [1; 2] ltac:(simpl; auto) ltac:(simpl; auto)). inversion E. lra.
Qed.

(** ** C40  Plane.intersect_plane *)
Lemma kkt_nonsingular a1 a2 a3 b1 b2 b3 : ~ dependent [a1; a2; a3] [b1; b2; b3] ->
  nonsingular 5 [[2; 0; 0; a1; b1]; [0; 2; 0; a2; b2]; [0; 0; 2; a3; b3]; [a1; a2; a3; 0; 0]; [b1; b2; b3; 0; 0]].
Proof.
  intros Hi x Lx Hx. destruct x as [|x [|y [|z [|l [|m [|]]]]]]; try discriminate Lx.
  assert (E1 := Hx _ (or_introl eq_refl)). assert (E2 := Hx _ (or_intror (or_introl eq_refl))). assert (E3 := Hx _ (or_intror (or_intror (or_introl eq_refl)))).
  assert (E4 := Hx _ (or_intror (or_intror (or_intror (or_introl eq_refl))))). assert (E5 := Hx _ (or_intror (or_intror (or_intror (or_intror (or_introl eq_refl)))))).
  simpl in E1, E2, E3, E4, E5.
  assert (Q : x * x + y * y + z * z = 0).
  { assert (x * (2 * x + a1 * l + b1 * m) = 0) by (replace (2 * x + a1 * l + b1 * m) with 0 by lra; ring).
    assert (y * (2 * y + a2 * l + b2 * m) = 0) by (replace (2 * y + a2 * l + b2 * m) with 0 by lra; ring).
    assert (z * (2 * z + a3 * l + b3 * m) = 0) by (replace (2 * z + a3 * l + b3 * m) with 0 by lra; ring).
    assert (l * (a1 * x + a2 * y + a3 * z) = 0) by (replace (a1 * x + a2 * y + a3 * z) with 0 by lra; ring).
    assert (m * (b1 * x + b2 * y + b3 * z) = 0) by (replace (b1 * x + b2 * y + b3 * z) with 0 by lra; ring). lra. }
  assert (x = 0) by nra. assert (y = 0) by nra. assert (z = 0) by nra. subst x y z.
  destruct (Req_dec l 0) as [->|Hl]; [destruct (Req_dec m 0) as [->|Hm]; [reflexivity|]|]; exfalso; apply Hi.
  - right. exists 0. assert (b1 = 0) by (apply Rmult_eq_reg_r with m; lra). assert (b2 = 0) by (apply Rmult_eq_reg_r with m; lra). assert (b3 = 0) by (apply Rmult_eq_reg_r with m; lra).
    subst. unfold scale. simpl. veq.
  - left. exists (- m / l). unfold scale. cbn [map]. apply (f_equal2 (@cons R)); [apply Rmult_eq_reg_r with l; auto; field_simplify; lra|].
    apply (f_equal2 (@cons R)); [apply Rmult_eq_reg_r with l; auto; field_simplify; lra|].
    apply (f_equal2 (@cons R)); [apply Rmult_eq_reg_r with l; auto; field_simplify; lra|reflexivity].
Qed.

(** Two independent normals in 3D: the common points of two planes form a line with the cross product as direction. *)
Lemma planes_meet_line p n q m o x : length p = 3%nat -> length n = 3%nat -> length q = 3%nat -> length m = 3%nat ->
  ~ dependent n m -> on_plane p n o -> on_plane q m o ->
  (on_line o (cross_spec n m) x <-> on_plane p n x /\ on_plane q m x).
Proof.
  intros Lp Ln Lq Lm Hi (Lo & Ho1) (_ & Ho2). assert (Lc := length_cross n m Ln Lm). rewrite Lp in Lo.
  split.
  - intros (t & ->). split; (split; [len|]); rewrite sub_add_l by len; rewrite dot_add_l by len; rewrite dot_scale_l.
    + rewrite cross_dot_l, Ho1 by auto. ring.
    + rewrite cross_dot_r, Ho2 by auto. ring.
  - intros ((Lx & Hx1) & (_ & Hx2)). rewrite Lp in Lx. set (c := cross_spec n m) in *.
    assert (Hc : ~ is_zero_vec c) by (intro Z; apply Hi, cross_zero_iff; auto). assert (P := dot_self_pos c Hc).
    set (w := sub x o). assert (Lw : length w = 3%nat) by (unfold w; len).
    assert (W1 : dot w n = 0). { unfold w. replace (sub x o) with (sub (sub x p) (sub o p)) by (symmetry; apply sub_via; len). rewrite dot_sub_l by len. lra. }
    assert (W2 : dot w m = 0). { unfold w. replace (sub x o) with (sub (sub x q) (sub o q)) by (symmetry; apply sub_via; len). rewrite dot_sub_l by len. lra. }
    exists (dot w c / dot c c). rewrite <- (add_sub_cancel o x) at 1 by len. f_equal. fold w.
    assert (E : scale (dot c c) w = scale (dot w c) c).
    { assert (I : sub (scale (dot c c) w) (scale (dot w c) c) = add (scale (dot w n * dot m m - dot w m * dot n m) n) (scale (dot w m * dot n n - dot w n * dot n m) m)).
      { unfold c. clear - Ln Lm Lw. clearbody w. d3. unfold scale, cross_spec. simpl. veq. }
      rewrite W1, W2 in I. replace (0 * dot m m - 0 * dot n m) with 0 in I by ring. replace (0 * dot n n - 0 * dot n m) with 0 in I by ring.
      rewrite !scale_0 in I. rewrite Ln, Lm, add_origin_r in I by apply length_origin. apply sub_eq_origin; [len|]. rewrite I. f_equal. len. }
    apply (f_equal (scale (/ dot c c))) in E. rewrite !scale_scale in E. rewrite Rinv_l, scale_1 in E by lra. etransitivity; [exact E|]. f_equal. field. lra.
Qed.

Theorem C40_intersect_plane : forall (LA : linalg RNum) (t : tol RNum) (p n q m : pt) (pl pl' : plane RNum),
  solve_correct LA -> 0 <= rel_tol t -> 0 <= abs_tol t ->
  plane_new (N:=RNum) p n = Ok pl -> plane_new (N:=RNum) q m = Ok pl' -> length p = 3%nat -> length q = 3%nat ->
  is_parallel t n m = Ok false ->
  exists l, plane_intersect_plane LA t pl pl' = Ok l /\ line_new (N:=RNum) (l_point l) (l_dir l) = Ok l /\
    (forall x, on_line (l_point l) (l_dir l) x <-> on_plane p n x /\ on_plane q m x) /\
    nearest (fun x => on_plane p n x /\ on_plane q m x) (origin 3) (l_point l).
Proof.
  intros LA t p n q m pl pl' HL Hr Ha Hp Hq Lp Lq Ep. apply plane_new_inv in Hp as (-> & Op). apply plane_new_inv in Hq as (-> & Oq).
  pose proof Op as (Ln & Zn & _). pose proof Oq as (Lm & Zm & _). rewrite Lp in Ln. rewrite Lq in Lm. symmetry in Ln, Lm.
  assert (Hi : ~ dependent n m) by (apply (not_parallel_independent t); auto; [split; auto|rn; congruence|apply nonzero_ne; auto]).
  unfold plane_intersect_plane. cbn [pl_normal pl_point]. rn. rewrite Ep. cbn [bind].
  destruct n as [|a1 [|a2 [|a3 [|]]]]; try discriminate Ln. destruct m as [|b1 [|b2 [|b3 [|]]]]; try discriminate Lm.
  pose proof (kkt_nonsingular a1 a2 a3 b1 b2 b3 Hi) as NS.
  rewrite !np_dot_R by (rn; congruence). cbn [bind]. rops. change (nofZ 2) with 2. change (IZR 2) with 2.
  match type of NS with nonsingular 5 ?M => destruct (HL M [0; 0; 0; dot p [a1; a2; a3]; dot q [b1; b2; b3]]) as (x & Ex & Lx & Eq) end;
    [discriminate|repeat constructor|reflexivity|exact NS|].
  change (n0 : num RNum) with 0. change (nofZ (n:=RNum) 2) with 2. rn. rewrite Ex. cbn [bind].
  destruct x as [|x [|y [|z [|l [|k [|]]]]]]; try discriminate Lx. cbn [firstn].
  rewrite point_of_R by discriminate. cbn [bind]. rewrite cross_R3 by reflexivity. cbn [bind].
  set (n := [a1; a2; a3]) in *. set (m := [b1; b2; b3]) in *. set (o := [x; y; z]) in *.
  simpl map in Eq. injection Eq as E1 E2 E3 E4 E5.
  assert (Oo1 : on_plane p n o). { split; [simpl; auto|]. rewrite dot_sub_l by (simpl; auto). unfold n at 1, o. simpl. unfold n in *. simpl. rn. lra. }
  assert (Oo2 : on_plane q m o). { split; [simpl; auto|]. rewrite dot_sub_l by (simpl; auto). unfold m at 1, o. simpl. unfold m in *. simpl. rn. lra. }
  assert (Hc : ~ is_zero_vec (cross_spec n m)) by (intro Z; apply Hi, cross_zero_iff; auto).
  exists (MkLine (N:=RNum) o (cross_spec n m)). cbn [l_point l_dir].
  assert (El : line_new (N:=RNum) o (cross_spec n m) = Ok (MkLine o (cross_spec n m))) by (apply line_new_R; auto).
  split; [exact El|]. split; [exact El|]. split; [intro w; apply planes_meet_line; auto|].
  assert (Lo : length o = 3%nat) by reflexivity.
  split; [split; auto|]. intros w ((Lw & W1) & (_ & W2)). rewrite Lp in Lw.
  apply len_le_iff. rewrite !dot_sub_sub by (rewrite length_origin; simpl; auto). rewrite !dot_origin_l.
  destruct Oo1 as (_ & O1). destruct Oo2 as (_ & O2).
  assert (D1 : dot (sub w o) n = 0). { replace (sub w o) with (sub (sub w p) (sub o p)) by (symmetry; apply sub_via; rn; congruence). rewrite dot_sub_l by len. lra. }
  assert (D2 : dot (sub w o) m = 0). { replace (sub w o) with (sub (sub w q) (sub o q)) by (symmetry; apply sub_via; rn; congruence). rewrite dot_sub_l by len. lra. }
  assert (Eo : scale 2 o = sub (scale (- l) n) (scale k m)) by (unfold o, n, m, scale; simpl; apply (f_equal2 (@cons R)); [lra|]; apply (f_equal2 (@cons R)); [lra|]; apply (f_equal2 (@cons R)); [lra|reflexivity]).
  assert (D : dot (sub w o) o = 0).
  { assert (T : dot (sub w o) (scale 2 o) = 0). { rewrite Eo. rewrite dot_sub_r by reflexivity. rewrite !dot_scale_r. rewrite D1, D2. ring. } rewrite dot_scale_r in T. lra. }
  assert (dot w w = dot (sub w o) (sub w o) + 2 * dot (sub w o) o + dot o o).
  { rewrite <- dot_add_add by len. replace (add (sub w o) o) with w; auto. rewrite add_comm. symmetry. apply add_sub_cancel. simpl. auto. }
  pose proof (dot_self_nonneg (sub w o)). lra.
Qed.
Print Assumptions C40_intersect_plane.

(** Everything else raises ValueError: parallel planes (whatever the solver does), planes that are not 3D, planes of different dimensions. *)
Theorem C40_rejections : forall (LA : linalg RNum) (t : tol RNum) (p n q m : pt) (pl pl' : plane RNum),
  0 <= rel_tol t -> 0 <= abs_tol t -> plane_new (N:=RNum) p n = Ok pl -> plane_new (N:=RNum) q m = Ok pl' ->
  (is_parallel t n m = Ok true -> exists msg, plane_intersect_plane LA t pl pl' = Raise (ValueError msg)) /\
  (length p = length q -> dependent n m -> exists msg, plane_intersect_plane LA t pl pl' = Raise (ValueError msg)) /\
  (length p = length q -> length p <> 3%nat -> exists msg, plane_intersect_plane LA t pl pl' = Raise (ValueError msg)) /\
  (length p <> length q -> exists msg, plane_intersect_plane LA t pl pl' = Raise (ValueError msg)).
Proof.
  intros LA t p n q m pl pl' Hr Ha Hp Hq. apply plane_new_inv in Hp as (-> & Op). apply plane_new_inv in Hq as (-> & Oq).
  pose proof Op as (Ln & Zn & _). pose proof Oq as (Lm & Zm & _). unfold plane_intersect_plane. cbn [pl_normal pl_point].
  assert (K : is_parallel t n m = Ok true -> exists msg, plane_intersect_plane LA t (MkPlane p n) (MkPlane q m) = Raise (ValueError msg)).
  { intro E. unfold plane_intersect_plane. cbn [pl_normal pl_point]. rn. rewrite E. eexists; reflexivity. }
  split; [exact K|]. split; [|split].
  - intros L D. apply K. apply is_parallel_dependent; auto; [split; auto|rn; congruence|apply nonzero_ne; auto].
  - intros L L3. destruct (is_parallel_R t n m (conj Hr Ha) ltac:(rn; congruence) (nonzero_ne n Zn)) as (b & E & _). rn. rewrite E. cbn [bind].
    destruct b; [eexists; reflexivity|]. destruct n as [|a1 [|a2 [|a3 [|]]]]; try (eexists; reflexivity). exfalso. apply L3. simpl in Ln. lia.
  - intros L. destruct (Classical_Prop.classic (close (rel_tol t) (abs_tol t) (dot n n) 0 \/ close (rel_tol t) (abs_tol t) (dot m m) 0)) as [C|C].
    + apply K. unfold is_parallel, por. destruct (is_zero_R t n (conj Hr Ha)) as (ra & -> & Ea). cbn [bind]. destruct ra; auto.
      rewrite vector_of_R by (apply nonzero_ne; auto). cbn [bind]. destruct (is_zero_R t m (conj Hr Ha)) as (rb & -> & Eb). cbn [bind]. destruct rb; auto.
      exfalso. destruct C as [C|C]; [apply Ea in C|apply Eb in C]; discriminate.
    + rn. rewrite is_parallel_mismatch; [eexists; reflexivity|split; auto|rn; congruence|apply nonzero_ne; auto|apply nonzero_ne; auto|tauto|tauto].
Qed.

Print Assumptions C40_rejections.
Example C40_nonvacuous : exists l, plane_intersect_plane (N:=RNum) ideal_linalg tol_default (MkPlane [0; 0; 1] [1; 0; 0]) (MkPlane [0; 2; 0] [0; 1; 0]) = Ok l /\
  on_line (l_point l) (l_dir l) [0; 2; 7] /\ l_point l = [0; 2; 0].
Proof.
  assert (O1 : pv_ok [0; 0; 1] [1; 0; 0]) by (split; [reflexivity|split; [intro Z; inversion Z; lra|discriminate]]).
  assert (O2 : pv_ok [0; 2; 0] [0; 1; 0]) by (split; [reflexivity|split; [intro Z; inversion Z; lra|discriminate]]).
  destruct (C40_intersect_plane ideal_linalg tol_default [0; 0; 1] [1; 0; 0] [0; 2; 0] [0; 1; 0] _ _ (proj1 (proj2 ideal_linalg_correct)) (proj1 tol_default_ok) (proj2 tol_default_ok)
    (plane_new_R _ _ O1) (plane_new_R _ _ O2) eq_refl eq_refl e12_not_parallel) as (l & E & _ & S & (P & M)).
  exists l. split; [exact E|]. split.
  - apply S. split; (split; [reflexivity|simpl; ring]).
  - destruct P as ((Lx & P1) & (_ & P2)). destruct (list3 (l_point l) Lx) as (x & y & z & El). rewrite El in *. simpl in P1, P2.
    specialize (M [0; 2; 0]). assert (K : dist (origin 3) [x; y; z] <= dist (origin 3) [0; 2; 0]) by (apply M; split; (split; [reflexivity|simpl; ring])).
    apply len_le_iff in K. simpl in K. assert (x = 0) by lra. assert (y = 2) by lra. assert (z = 0) by (subst; nra). subst. reflexivity.
Qed.

(** ** C34 (continued): with a correct SVD, collinear points make Plane.from_points raise, for every tolerance. *)
Theorem C34_from_points_collinear_raises : forall LA tolerance (a b c : pt), svd_correct LA -> tol_nonneg tolerance ->
  a <> [] -> length b = length a -> length c = length a -> collinear [a; b; c] ->
  exists msg, plane_from_points LA tolerance a b c = Raise (ValueError msg).
Proof.
  intros LA tolerance a b c HL Ht Ha Lb Lc C. set (d := length a).
  assert (Hr : points_ok d [a; b; c]) by (split; [discriminate|split; [destruct a; [contradiction|simpl in *; lia]|repeat constructor; auto]]).
  unfold plane_from_points. pose proof Hr as (Hne & Hd & F). rewrite (points_of_R _ d) by auto. cbn [bind].
  destruct (C23_true_configurations LA d _ tolerance HL Hr Ht) as (_ & T & _). rn. rewrite (T C). cbn [bind]. eexists; reflexivity.
Qed.
Print Assumptions C34_from_points_collinear_raises.

(** ** C41  Plane.best_fit *)
Lemma not_collinear_size d rows : points_ok d rows -> ~ collinear rows -> (3 <= length rows)%nat.
Proof.
  intros (Hne & Hd & F) C. destruct rows as [|x [|y [|z rows]]]; [contradiction| | |simpl; lia]; exfalso; apply C.
  - exists x, x. split; auto. intros w [<-|[]]. exists 0. rewrite scale_0. symmetry. apply add_origin_r. auto.
  - pose proof (Forall_inv F) as Lx. pose proof (Forall_inv (Forall_inv_tail F)) as Ly. simpl in Lx, Ly.
    exists x, (sub y x). split; [len|]. intros w [<-|[<-|[]]].
    + exists 0. rewrite scale_0. symmetry. apply add_origin_r. len.
    + exists 1. rewrite scale_1. symmetry. apply add_sub_cancel. congruence.
Qed.

Theorem C41_plane_best_fit : forall LA tolerance rows, svd_correct LA -> points_ok 3 rows -> tol_nonneg tolerance ->
  are_collinear LA tolerance rows = Ok false ->
  exists (p n : pt) (err : R),
    plane_best_fit_err LA tolerance rows = Ok (MkPlane (N:=RNum) p n, err) /\ plane_best_fit LA tolerance rows = Ok (MkPlane (N:=RNum) p n) /\
    plane_new (N:=RNum) p n = Ok (MkPlane p n) /\ dot n n = 1 /\
    centroid (N:=RNum) rows = Ok p /\
    sq_error (on_plane p n) rows err /\
    (forall p' n' pl' r', plane_new (N:=RNum) p' n' = Ok pl' -> length p' = 3%nat -> sq_error (on_plane p' n') rows r' -> err <= r') /\
    (coplanar rows -> err = 0).
Proof.
  intros LA tolerance rows HL Hr Ht Ec. pose proof Hr as (Hne & Hd & F). pose proof (centered_ok 3 rows Hr) as Hc.
  assert (NC : ~ collinear rows). { intro C. destruct (C23_true_configurations LA 3 rows tolerance HL Hr Ht) as (_ & T & _). apply T in C. congruence. }
  pose proof (not_collinear_size 3 rows Hr NC) as Hn.
  destruct (HL _ _ (transpose_ok 3 _ Hc)) as (U & sv & Vh & Es & Hs').
  pose proof (svd_transpose 3 _ U sv Vh Hc Hs') as Hs.
  assert (Lsv : length sv = 3%nat) by (rn; rewrite (sv_len _ _ _ _ _ Hs); unfold centered; rewrite map_length; rn; lia).
  set (Vt := transpose (N:=RNum) (length sv) U) in *.
  assert (En : column (N:=RNum) 2 U = nth 2 Vt []) by (unfold Vt, transpose; rewrite nth_map_seq by (rn; lia); reflexivity).
  pose proof (fit_pv 3 rows _ sv Vt Hr Hs 2%nat ltac:(rn; lia)) as Hpv. pose proof (fit_Lc 3 rows Hr) as Lc.
  pose proof (v_unit 3 rows _ sv Vt Hs 2%nat ltac:(rn; lia)) as Hu.
  assert (E : plane_best_fit_err LA tolerance rows = Ok (MkPlane (N:=RNum) (cent 3 rows) (nth 2 Vt []), nth 2 sv 0 * nth 2 sv 0)).
  { unfold plane_best_fit_err. rewrite (points_of_R rows 3) by auto. cbn [bind]. rewrite (dim2_ok 3) by auto. cbn [Nat.eqb negb]. rn. rewrite Ec. cbn [bind]. rewrite (mean_center_c_R 3) by auto. cbn [bind].
    fold (centered 3 rows). rewrite Es. cbn [bind]. rewrite En. rewrite vector_of_R by (eapply pv_ok_dir; eauto). cbn [bind]. rewrite plane_new_R by auto. cbn [bind]. rewrite nsum_Rsum.
    do 2 f_equal. apply (skip_last 3 sv Lsv 2 eq_refl). }
  exists (cent 3 rows), (nth 2 Vt []), (nth 2 sv 0 * nth 2 sv 0).
  split; auto. split; [unfold plane_best_fit; rn; rewrite E; reflexivity|]. split; [apply plane_new_R; auto|]. split; auto.
  split; [apply centroid_R; auto|]. rewrite Forall_forall in F.
  split; [|split].
  - rn. rewrite <- (plane_fit_err 3 rows _ sv Vt Hr Hs Lsv 2 eq_refl). apply (sq_error_fun _ (fun x => dist x (pproj (cent 3 rows) (nth 2 Vt []) x))).
    intros x Hx. apply pproj_min; auto. rewrite (F x Hx). auto.
  - intros p' n' pl' r' Hl' Lp' Hq. apply plane_new_inv in Hl' as (_ & Hpv').
    apply (proj2 (sq_error_fun _ (fun x => dist x (pproj p' n' x)) rows ltac:(intros x Hx; apply pproj_min; auto; rewrite (F x Hx); auto))) in Hq.
    rewrite Hq. apply (plane_fit_best 3 rows _ sv Vt Hr Hs Lsv 2 eq_refl); auto.
  - intro C. apply (flat_coplanar 3) in C; auto. rn. rewrite (plane_fit_flat 3 rows _ sv Vt Hr Hs Lsv 2 eq_refl C). ring.
Qed.
Print Assumptions C41_plane_best_fit.

Theorem C41_rejections : forall LA tolerance d rows, svd_correct LA -> points_ok d rows ->
  (d <> 3%nat -> exists msg, plane_best_fit LA tolerance rows = Raise (ValueError msg)) /\
  (tol_nonneg tolerance -> collinear rows -> exists msg, plane_best_fit LA tolerance rows = Raise (ValueError msg)).
Proof.
  intros LA tolerance d rows HL Hr. pose proof Hr as (Hne & Hd & F). unfold plane_best_fit, plane_best_fit_err. rewrite (points_of_R rows d) by auto. cbn [bind]. rewrite (dim2_ok d) by auto.
  destruct (Nat.eqb_spec d 3) as [E|E]; cbn [negb].
  - split; [intro; contradiction|]. intros Ht C. destruct (C23_true_configurations LA d rows tolerance HL Hr Ht) as (_ & T & _). rn. rewrite (T C). cbn [bind]. eexists; reflexivity.
  - split; intros; cbn [bind]; eexists; reflexivity.
Qed.
Print Assumptions C41_rejections.

Example C41_nonvacuous : svd_correct ideal_linalg /\ are_collinear ideal_linalg None simplex = Ok false.
Proof.
  split; [apply ideal_linalg_correct|]. pose proof (C23_simplex_not_coplanar ideal_linalg (proj1 ideal_linalg_correct)) as E.
  destruct (C23_implications RNum ideal_linalg None simplex) as (_ & K).
  destruct (affine_rank_R ideal_linalg None 3 simplex (proj1 ideal_linalg_correct) simplex_ok) as (U & S & Vh & _ & Er).
  unfold are_collinear, are_coplanar in *. rn. rewrite Er in *. cbn [bind] in *. destruct (Nat.leb _ 1); auto. specialize (K eq_refl). congruence.
Qed.
