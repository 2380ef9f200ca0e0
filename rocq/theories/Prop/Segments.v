(** * Properties C43 (LineSegment construction, contains_point) and C44 (intersect_line_segment) *)
From Coq Require Import String Reals List ZArith Lra Lia Psatz Bool.
From Verif.Model Require Import Outcome Num Instances Numpy BaseArray Vector Points Functions Line Plane LineSegment.
From Verif.Spec Require Import Geometry Tolerance Mesh Linalg.
From Verif.Proof Require Import VecAlg Bridge Arrays Vectors Points Lines Lincomb Svd SvdExists Ranks.
From Verif.Prop Require Import Directions Points Lines Ranks Planes LinePairs.
Import ListNotations.
Local Open Scope R_scope.

(** ** C43  construction *)
Theorem C43_construction : forall a b : pt, a <> [] -> length a = length b ->
  (forall s, segment_new (N:=RNum) a b = Ok s <-> s = MkSegment a b /\ ~ Forall2 (close rel_default 0) a b) /\
  (Forall2 (close rel_default 0) a b -> exists m, segment_new (N:=RNum) a b = Raise (ValueError m)) /\
  (a = b -> exists m, segment_new (N:=RNum) a b = Raise (ValueError m)).
Proof.
  intros a b Ha L. assert (Hb : b <> []) by (destruct a, b; simpl in *; congruence).
  destruct (is_close1_R tol_default a b tol_default_ok Ha L) as (r & E & Er). rewrite rel_default_eq, abs_default_eq in Er.
  assert (En : segment_new (N:=RNum) a b = if r then Raise (ValueError "The endpoints must not be equal.") else Ok (MkSegment (N:=RNum) a b)).
  { unfold segment_new. rewrite !point_of_R by auto. cbn [bind]. rn. rewrite E. reflexivity. }
  rewrite En. split; [|split].
  - intro s. destruct r; split.
    + discriminate.
    + intros (_ & K). exfalso. apply K, Er; auto.
    + intro H. injection H as <-. split; auto. intro C. apply Er in C. discriminate.
    + intros (-> & _). reflexivity.
  - intro C. apply Er in C. subst r. eexists; reflexivity.
  - intros <-. assert (C : Forall2 (close rel_default 0) a a).
    { clear. induction a; constructor; auto. apply close_refl; [|lra]. pose proof rel_default_bounds. lra. }
    apply Er in C. subst r. eexists; reflexivity.
Qed.
Print Assumptions C43_construction.

(** End points of different dimensions are rejected, except when one of them is one-dimensional: then its coordinate is
    compared with every coordinate of the other, and the segment may be accepted. *)
Theorem C43_dimension_mismatch : forall (a b : pt), length a <> length b -> length a <> 1%nat -> length b <> 1%nat ->
  exists m, segment_new (N:=RNum) a b = Raise (ValueError m).
Proof.
  intros a b L La Lb. unfold segment_new. destruct a as [|x a]; [eexists; reflexivity|]. destruct b as [|y b]; [rewrite point_of_R by discriminate; eexists; reflexivity|].
  rewrite !point_of_R by discriminate. cbn [bind]. rn. rewrite is_close1_mismatch by auto. eexists; reflexivity.
Qed.
Print Assumptions C43_dimension_mismatch.
Theorem C43_mixed_dimensions_refuted : exists s : segment RNum, segment_new (N:=RNum) [1; 2] [0] = Ok s /\ length (s_a s) <> length (s_b s).
Proof.
  exists (MkSegment (N:=RNum) [1; 2] [0]). split; [|simpl; lia]. unfold segment_new. rewrite !point_of_R by discriminate. cbn [bind].
  destruct (is_close1_bcast_r tol_default [1; 2] 0 tol_default_ok) as (r & E & Er); [simpl; lia|]. rn. rewrite E. cbn [bind].
  destruct r; [|reflexivity]. exfalso. destruct Er as [Er _]. specialize (Er eq_refl). apply Forall_inv in Er. rewrite rel_default_eq, abs_default_eq in Er. apply close_default_zero in Er. lra.
Qed.
Print Assumptions C43_mixed_dimensions_refuted.


(** ** C43  contains_point *)
Lemma contains_R (t : tol RNum) (a b q : pt) : tol_ok t -> length b = length a -> length q = length a -> a <> [] ->
  let u := sub a q in let v := sub b q in
  exists r, segment_contains_point t (MkSegment (N:=RNum) a b) q = Ok r /\
    (r = true <-> close (rel_tol t) (abs_tol t) (dot u u) 0 \/ close (rel_tol t) (abs_tol t) (dot v v) 0 \/
                  (~ is_zero_vec u /\ ~ is_zero_vec v /\ close (rel_tol t) (abs_tol t) (cosine u v) (-1))).
Proof.
  intros Ht Lb Lq Ha u v. assert (Hq : q <> []) by (destruct a, q; simpl in *; congruence).
  unfold segment_contains_point. cbn [s_a s_b]. rewrite !from_points_R by (auto; congruence). cbn [bind]. fold u v. unfold por.
  destruct (is_zero_R t u Ht) as (ra & -> & Ea). cbn [bind]. destruct ra.
  { exists true. split; auto. split; auto. intros _. left. apply Ea; auto. }
  destruct (is_zero_R t v Ht) as (rb & -> & Eb). cbn [bind]. destruct rb.
  { exists true. split; auto. split; auto. intros _. right; left. apply Eb; auto. }
  assert (Na : ~ close (rel_tol t) (abs_tol t) (dot u u) 0) by (intro C; apply Ea in C; discriminate).
  assert (Nb : ~ close (rel_tol t) (abs_tol t) (dot v v) 0) by (intro C; apply Eb in C; discriminate).
  assert (Za : ~ is_zero_vec u) by (intro Z; apply Na; apply zero_close_zero; auto).
  assert (Zb : ~ is_zero_vec v) by (intro Z; apply Nb; apply zero_close_zero; auto).
  rewrite cosine_R by (auto; unfold u, v; len). cbn [bind]. rops. change (- (1)) with (-1).
  destruct (isclose_R t (cosine u v) (-1) Ht) as (r & E & Er). exists r. split; [exact E|]. rewrite Er. tauto.
Qed.

Lemma on_segment_iff a b q : length b = length a -> length q = length a ->
  (on_segment a b q <-> is_zero_vec (sub a q) \/ is_zero_vec (sub b q) \/
     (~ is_zero_vec (sub a q) /\ ~ is_zero_vec (sub b q) /\ cosine (sub a q) (sub b q) = -1)).
Proof.
  intros Lb Lq. split.
  - intros (t & Ht & Eq). destruct (is_zero_vec_dec (sub a q)) as [Z|Z]; auto. destruct (is_zero_vec_dec (sub b q)) as [Z'|Z']; auto.
    right; right. split; auto. split; auto. apply cosine_mone; auto; [len|].
    assert (Eu : sub a q = scale (- t) (sub b a)). { rewrite Eq. apply pt_ext; [len|]. intros i _. repeat rewrite ?nth_add, ?nth_scale, ?nth_sub by len. ring. }
    assert (Ev : sub b q = scale (1 - t) (sub b a)). { rewrite Eq. apply pt_ext; [len|]. intros i _. repeat rewrite ?nth_add, ?nth_scale, ?nth_sub by len. ring. }
    assert (t <> 0). { intro; subst t. apply Z. rewrite Eu. replace (-0) with 0 by ring. rewrite scale_0. apply zero_origin. }
    assert (t <> 1). { intro; subst t. apply Z'. rewrite Ev. replace (1 - 1) with 0 by ring. rewrite scale_0. apply zero_origin. }
    exists (- ((1 - t) / t)). split.
    { assert (0 < (1 - t) / t) by (apply Rdiv_lt_0_compat; lra). lra. }
    rewrite Eu, Ev, scale_scale. f_equal. field. auto.
  - intros [Z|[Z|(Z & Z' & C)]].
    + assert (Eq : a = q) by (apply sub_zero_iff; auto). subst q. exists 0. split; [lra|]. rewrite scale_0. symmetry. apply add_origin_r. len.
    + assert (Eq : b = q) by (apply sub_zero_iff; auto; congruence). subst q. exists 1. split; [lra|]. rewrite scale_1. symmetry. apply add_sub_cancel. auto.
    + apply cosine_mone in C; auto; [|len]. destruct C as (s & Hs & E). exists (/ (1 - s)). split.
      { assert (0 < / (1 - s)) by (apply Rinv_0_lt_compat; lra). split; [lra|]. apply Rmult_le_reg_r with (1 - s); [lra|]. rewrite Rinv_l; lra. }
      apply pt_ext; [len|]. intros i _. apply (f_equal (fun w => nth i w 0)) in E. revert E. repeat rewrite ?nth_add, ?nth_scale, ?nth_sub by len. intro E.
      apply Rmult_eq_reg_r with (1 - s); [|lra]. field_simplify; lra.
Qed.

(** Every point (1-t) a + t b of the segment is accepted, whatever the tolerances. *)
Theorem C43_contains_complete : forall (t : tol RNum) (a b q : pt) s, 0 <= rel_tol t -> 0 <= abs_tol t ->
  length a = length b -> length q = length a -> segment_new (N:=RNum) a b = Ok s -> on_segment a b q -> segment_contains_point t s q = Ok true.
Proof.
  intros t a b q s H1 H2 L Lq Hs Hq. assert (Ha : a <> []). { intro; subst a. discriminate Hs. }
  apply (C43_construction a b Ha L) in Hs as (-> & _). destruct (contains_R t a b q (conj H1 H2)) as (r & -> & Er); auto.
  f_equal. apply Er. apply on_segment_iff in Hq; auto. destruct Hq as [Z|[Z|(Z & Z' & C)]].
  - left. apply zero_close_zero; auto. split; auto.
  - right; left. apply zero_close_zero; auto. split; auto.
  - right; right. split; auto. split; auto. rewrite C. apply close_refl; auto.
Qed.
Print Assumptions C43_contains_complete.

Theorem C43_contains_zero_tolerance : forall (a b q : pt) s,
  length a = length b -> length q = length a -> segment_new (N:=RNum) a b = Ok s ->
  exists r, segment_contains_point (MkTol (N:=RNum) 0 0) s q = Ok r /\ (r = true <-> on_segment a b q).
Proof.
  intros a b q s L Lq Hs. assert (Ha : a <> []). { intro; subst a. discriminate Hs. }
  apply (C43_construction a b Ha L) in Hs as (-> & _). destruct (contains_R (MkTol (N:=RNum) 0 0) a b q) as (r & -> & Er); auto; [split; simpl; lra|].
  exists r. split; auto. rewrite Er, on_segment_iff by auto. cbn [rel_tol abs_tol]. rewrite !close_exact, !dot_self_zero_iff. tauto.
Qed.
Print Assumptions C43_contains_zero_tolerance.

Lemma close_default_mone c : -1 <= c <= 1 -> (close rel_default 0 c (-1) <-> c <= - (1 - rel_default)).
Proof.
  intro H. unfold close. pose proof rel_default_bounds. rewrite (Rabs_right (c - -1)) by lra. rewrite (Rabs_left (-1)) by lra.
  rewrite (Rmax_right (Rabs c)) by (apply Rabs_le; lra). rewrite Rmax_left by lra. lra.
Qed.

(** Default tolerances: accepted exactly at the end points and where the end points are seen at an angle whose
    cosine is at most -(1 - 1e-9). *)
Theorem C43_contains_default : forall (a b q : pt) s,
  length a = length b -> length q = length a -> segment_new (N:=RNum) a b = Ok s ->
  exists r, segment_contains_point (N:=RNum) tol_default s q = Ok r /\
    (r = true <-> q = a \/ q = b \/ (q <> a /\ q <> b /\ dot (sub a q) (sub b q) <= - (1 - rel_default) * (dist a q * dist b q))).
Proof.
  intros a b q s L Lq Hs. assert (Ha : a <> []). { intro; subst a. discriminate Hs. }
  apply (C43_construction a b Ha L) in Hs as (-> & _). destruct (contains_R tol_default a b q tol_default_ok) as (r & -> & Er); auto.
  exists r. split; auto. rewrite Er. rewrite rel_default_eq, abs_default_eq, !close_default_zero, !dot_self_zero_iff, !sub_zero_iff by congruence.
  assert (K : a <> q -> b <> q -> (close rel_default 0 (cosine (sub a q) (sub b q)) (-1) <-> dot (sub a q) (sub b q) <= - (1 - rel_default) * (dist a q * dist b q))).
  { intros Na Nb. assert (Za : ~ is_zero_vec (sub a q)) by (intro Z; apply Na, sub_zero_iff; auto).
    assert (Zb : ~ is_zero_vec (sub b q)) by (intro Z; apply Nb, sub_zero_iff; auto; congruence).
    rewrite close_default_mone by (apply cosine_bounds; auto; len). rewrite (cosine_dot _ _ Za Zb). fold (dist a q) (dist b q).
    pose proof (len_pos _ Za) as P1. pose proof (len_pos _ Zb) as P2. fold (dist a q) in P1. fold (dist b q) in P2.
    assert (P : 0 < dist a q * dist b q) by (apply Rmult_lt_0_compat; auto). split; intro H.
    - apply Rmult_le_compat_r; lra.
    - apply Rmult_le_reg_r with (dist a q * dist b q); auto. }
  split.
  - intros [E|[E|(E1 & E2 & C)]]; auto. right; right. split; auto. split; auto. apply K; auto.
  - intros [E|[E|(E1 & E2 & C)]]; auto. right; right. split; auto. split; auto. apply K; auto.
Qed.
Print Assumptions C43_contains_default.

(** Geometric meaning: an accepted point is within 1.2e-5 times the segment's length of a point of the segment. *)
Theorem C43_contains_default_near : forall (a b q : pt) s,
  length a = length b -> length q = length a -> segment_new (N:=RNum) a b = Ok s ->
  segment_contains_point (N:=RNum) tol_default s q = Ok true -> exists x, on_segment a b x /\ dist q x <= 12 / 1000000 * dist a b.
Proof.
  intros a b q s L Lq Hs Hc. destruct (C43_contains_default a b q s L Lq Hs) as (r & E & K). rn. rewrite E in Hc. injection Hc as ->.
  pose proof (dist_nonneg a b) as D0. destruct K as [K _]. destruct (K eq_refl) as [->|[->|(Na & Nb & C)]].
  - exists a. split; [exists 0; split; [lra|rewrite scale_0; symmetry; apply add_origin_r; len]|]. rewrite dist_refl. lra.
  - exists b. split; [exists 1; split; [lra|rewrite scale_1; symmetry; apply add_sub_cancel; auto]|]. rewrite dist_refl. lra.
  - clear K E Hs. set (u := sub a q) in *. set (v := sub b q) in *. set (P := dot u v) in *.
    assert (Lu : length u = length a) by (unfold u; len). assert (Lv : length v = length a) by (unfold v; len).
    assert (Pu : 0 < len u) by (apply len_pos; intro Z; apply Na; symmetry; apply sub_zero_iff; auto).
    assert (Pv : 0 < len v) by (apply len_pos; intro Z; apply Nb; symmetry; apply sub_zero_iff; auto; congruence).
    unfold dist in C. fold u v in C. pose proof rel_default_bounds as B. set (k := len u * len v) in *. assert (Pk : 0 < k) by (apply Rmult_lt_0_compat; auto).
    set (e := sub b a). assert (Ee : e = sub v u). { unfold e, v, u. apply sub_via; congruence. }
    assert (QE : dot e e = dot u u - 2 * P + dot v v). { rewrite Ee. rewrite dot_sub_sub by congruence. unfold P. rewrite (dot_comm v u). ring. }
    pose proof (len_sq u) as Qu. pose proof (len_sq v) as Qv.
    assert (P0 : P < 0) by (assert (0 < (1 - rel_default) * k) by (apply Rmult_lt_0_compat; lra); lra).
    assert (PE : 0 < dot e e) by nra.
    set (t := (dot u u - P) / dot e e). set (x := add a (scale t e)). exists x.
    assert (Ht : 0 <= t <= 1). { unfold t. split; [apply Rmult_le_pos; [nra|left; apply Rinv_0_lt_compat; auto]|]. apply Rmult_le_reg_r with (dot e e); auto. field_simplify; nra. }
    split; [exists t; split; [auto|reflexivity]|].
    assert (EX : sub x q = add u (scale t e)). { unfold x, u. apply pt_ext; [unfold e; len|]. intros i _. unfold e. repeat rewrite ?nth_add, ?nth_scale, ?nth_sub by len. ring. }
    assert (UE : dot u e = P - dot u u). { rewrite Ee. rewrite dot_sub_r by congruence. reflexivity. }
    assert (QX : dot (sub x q) (sub x q) * dot e e = dot u u * dot v v - P * P).
    { rewrite EX. rewrite dot_add_add by (unfold e; len). rewrite !dot_scale_r, dot_scale_l, UE.
      replace (dot v v) with (dot e e + 2 * P - dot u u) by lra. unfold t. field. lra. }
    assert (KK : dot u u * dot v v = k * k) by (rewrite <- Qu, <- Qv; unfold k; ring).
    assert (BE : 4 * (1 - rel_default) * k <= dot e e). { assert (0 <= (len u - len v) * (len u - len v)) by apply Rle_0_sqr. unfold k in *. nra. }
    assert (BX : dot (sub x q) (sub x q) * dot e e <= 2 * rel_default * (k * k)).
    { rewrite QX, KK. assert (0 <= (1 - rel_default) * k) by (apply Rmult_le_pos; lra). assert ((1 - rel_default) * k * ((1 - rel_default) * k) <= (- P) * (- P)) by (apply Rmult_le_compat; lra). assert (0 <= rel_default * rel_default * (k * k)) by (apply Rmult_le_pos; apply Rle_0_sqr). nra. }
    rewrite dist_sym. apply Rsqr_incr_0; [|apply dist_nonneg|lra]. unfold Rsqr. rewrite (dist_sym a b). unfold dist. fold e. rewrite len_sq.
    replace (12 / 1000000 * len e * (12 / 1000000 * len e)) with (12 / 1000000 * (12 / 1000000) * (len e * len e)) by ring. rewrite len_sq.
    apply Rmult_le_reg_r with (dot e e); auto. eapply Rle_trans; [exact BX|].
    assert (16 * ((1 - rel_default) * (1 - rel_default)) * (k * k) <= dot e e * dot e e).
    { replace (16 * ((1 - rel_default) * (1 - rel_default)) * (k * k)) with ((4 * (1 - rel_default) * k) * (4 * (1 - rel_default) * k)) by ring.
      apply Rmult_le_compat; auto; nra. }
    assert (rel_default <= 1000001 / 1000000000000000) by (unfold rel_default; lra).
    assert (99 / 100 <= (1 - rel_default) * (1 - rel_default)) by nra.
    assert (0 < k * k) by nra. assert (2 * rel_default <= 12 / 1000000 * (12 / 1000000) * (16 * ((1 - rel_default) * (1 - rel_default)))) by nra.
    rewrite Rmult_assoc. nra.
Qed.
Print Assumptions C43_contains_default_near.

(** ** C44  intersect_line_segment *)
Lemma segment_ne (a b : pt) s : length a = length b -> segment_new (N:=RNum) a b = Ok s -> s = MkSegment (N:=RNum) a b /\ a <> [] /\ a <> b /\ pv_ok a (sub b a).
Proof.
  intros L Hs. assert (Ha : a <> []). { intro; subst a. discriminate Hs. }
  pose proof Hs as Hs'. apply (C43_construction a b Ha L) in Hs' as (-> & K). split; auto. split; auto.
  assert (Ne : a <> b). { intros <-. destruct (C43_construction a a Ha L) as (_ & _ & M). destruct (M eq_refl) as (m & E). rn. rewrite E in Hs. discriminate. }
  split; auto. split; [len|]. split; auto. intro Z. apply Ne. symmetry. apply sub_zero_iff; auto.
Qed.
Lemma line_from_points_R (a b : pt) : pv_ok a (sub b a) -> length a = length b -> line_from_points (N:=RNum) a b = Ok (MkLine (N:=RNum) a (sub b a)).
Proof.
  intros H L. pose proof H as (_ & _ & Ha). unfold line_from_points. rewrite from_points_R by auto. cbn [bind]. apply line_new_iff. auto.
Qed.
Lemma segment_on_line a b x : on_segment a b x -> on_line a (sub b a) x.
Proof. intros (t & _ & E). exists t. auto. Qed.
(** On the carrier line the default containment test is exact. *)
Lemma carrier_exact (a b : pt) s (x : pt) : length a = length b -> segment_new (N:=RNum) a b = Ok s -> on_line a (sub b a) x ->
  (segment_contains_point (N:=RNum) tol_default s x = Ok true <-> on_segment a b x).
Proof.
  intros L Hs Hx. destruct (segment_ne a b s L Hs) as (-> & Ha & Ne & Ho). assert (Lx : length x = length a) by (apply (on_line_length a (sub b a)); [apply Ho|auto]).
  split; [|intro K; apply (C43_contains_complete tol_default a b x); auto; apply tol_default_ok].
  destruct (contains_R tol_default a b x tol_default_ok) as (r & -> & Er); auto. intro E. injection E as ->. destruct Er as [Er _]. specialize (Er eq_refl).
  rewrite rel_default_eq, abs_default_eq, !close_default_zero, !dot_self_zero_iff in Er. apply on_segment_iff; auto. destruct Er as [Z|[Z|(Z & Z' & C)]]; auto.
  right; right. split; auto. split; auto.
  assert (D : dependent (sub a x) (sub b x)).
  { destruct Hx as (t & ->). assert (Eu : sub a (add a (scale t (sub b a))) = scale (- t) (sub b a)) by (apply pt_ext; [len|]; intros i _; repeat rewrite ?nth_add, ?nth_scale, ?nth_sub by len; ring).
    assert (Ev : sub b (add a (scale t (sub b a))) = scale (1 - t) (sub b a)) by (apply pt_ext; [len|]; intros i _; repeat rewrite ?nth_add, ?nth_scale, ?nth_sub by len; ring).
    rewrite Eu, Ev. apply dependent_sq; [len|]. rewrite !dot_scale_r, !dot_scale_l. ring. }
  assert (Lab : length (sub a x) = length (sub b x)) by len.
  apply dependent_abs_cosine in D; auto. rewrite close_default_mone in C by (apply cosine_bounds; auto). pose proof rel_default_bounds.
  unfold Rabs in D. destruct (Rcase_abs _); lra.
Qed.

(** A common point of two segments that are not (near-)parallel is returned, and it is the only one. *)
Theorem C44_common_point_returned : forall LA (t : tol RNum) check (a b c d x : pt) s s', svd_correct LA -> 0 <= rel_tol t -> 0 <= abs_tol t ->
  length b = length a -> length c = length a -> length d = length a -> (length a <= 3)%nat ->
  segment_new (N:=RNum) a b = Ok s -> segment_new (N:=RNum) c d = Ok s' -> is_parallel t (sub b a) (sub d c) = Ok false ->
  on_segment a b x -> on_segment c d x ->
  segment_intersect_segment LA t check s s' = Ok x /\ (forall y, on_segment a b y -> on_segment c d y -> y = x).
Proof.
  intros LA t check a b c d x s s' HL H1 H2 Lb Lc Ld L3 Hs Hs' Hp Hx Hx'.
  destruct (segment_ne a b s ltac:(auto) Hs) as (Es & _ & _ & O1). destruct (segment_ne c d s' ltac:(rn; congruence) Hs') as (Es' & _ & _ & O2).
  assert (N1 : line_new (N:=RNum) a (sub b a) = Ok (MkLine a (sub b a))) by (apply line_new_iff; auto).
  assert (N2 : line_new (N:=RNum) c (sub d c) = Ok (MkLine c (sub d c))) by (apply line_new_iff; auto).
  destruct (C31_returns_common_point LA t check a (sub b a) c (sub d c) _ _ x HL H1 H2 N1 N2 Lc L3 Hp (segment_on_line _ _ _ Hx) (segment_on_line _ _ _ Hx')) as (E & U).
  split; [|intros y Hy Hy'; apply U; apply segment_on_line; auto].
  unfold segment_intersect_segment. rewrite Es, Es'. cbn [s_a s_b]. rewrite !line_from_points_R by first [assumption|rn; congruence]. cbn [bind]. rn. rewrite E. cbn [bind]. rewrite <- Es, <- Es'.
  rewrite (proj2 (carrier_exact a b s x ltac:(auto) Hs (segment_on_line _ _ _ Hx)) Hx). cbn [bind].
  rewrite (proj2 (carrier_exact c d s' x ltac:(rn; congruence) Hs' (segment_on_line _ _ _ Hx')) Hx'). reflexivity.
Qed.
Print Assumptions C44_common_point_returned.

(** Whatever is returned is within 1.2e-5 segment lengths of both segments; if the segments are exactly coplanar it lies on both. *)
Theorem C44_result_sound : forall (LA : linalg RNum) (t : tol RNum) check (a b c d x : pt) s s', 0 <= rel_tol t -> 0 <= abs_tol t ->
  length b = length a -> length d = length c ->
  segment_new (N:=RNum) a b = Ok s -> segment_new (N:=RNum) c d = Ok s' -> segment_intersect_segment LA t check s s' = Ok x ->
  length c = length a /\ (length a <= 3)%nat /\ on_segment a b x /\
  segment_contains_point (N:=RNum) tol_default s x = Ok true /\ segment_contains_point (N:=RNum) tol_default s' x = Ok true /\
  (exists y, on_segment c d y /\ dist x y <= 12 / 1000000 * dist c d) /\
  (lines_coplanar a (sub b a) c (sub d c) -> on_segment c d x).
Proof.
  intros LA t check a b c d x s s' H1 H2 Lb Ld Hs Hs' E.
  destruct (segment_ne a b s ltac:(auto) Hs) as (Es & _ & _ & O1). destruct (segment_ne c d s' ltac:(auto) Hs') as (Es' & _ & _ & O2).
  assert (N1 : line_new (N:=RNum) a (sub b a) = Ok (MkLine a (sub b a))) by (apply line_new_iff; auto).
  assert (N2 : line_new (N:=RNum) c (sub d c) = Ok (MkLine c (sub d c))) by (apply line_new_iff; auto).
  unfold segment_intersect_segment in E. rewrite Es, Es' in E. cbn [s_a s_b] in E. rewrite !line_from_points_R in E by auto. cbn [bind] in E.
  apply bind_ok_inv in E as (y & Ey & E). apply bind_ok_inv in E as (oa & Ea & E). apply bind_ok_inv in E as (ob & Eb & E).
  destruct oa, ob; try discriminate E. injection E as ->. rewrite <- Es in Ea. rewrite <- Es' in Eb.
  destruct (C31_result_sound LA t check a (sub b a) c (sub d c) _ _ x H1 H2 N1 N2 Ey) as (Lc & L3 & Hx & Hc).
  assert (Lx : length x = length a) by (apply (on_line_length a (sub b a)); [apply O1|auto]).
  split; auto. split; auto. split; [apply (carrier_exact a b s); auto|]. split; auto. split; auto. split.
  - apply (C43_contains_default_near c d x s'); auto; rn; congruence.
  - intro C. apply (carrier_exact c d s'); auto.
Qed.
Print Assumptions C44_result_sound.

(** Segments in one plane, not near-parallel: the call succeeds exactly when they meet, and otherwise raises ValueError. *)
Theorem C44_coplanar_segments : forall LA (t : tol RNum) check (a b c d : pt) s s', svd_correct LA -> 0 <= rel_tol t -> 0 <= abs_tol t ->
  length b = length a -> length c = length a -> length d = length a -> (length a <= 3)%nat ->
  segment_new (N:=RNum) a b = Ok s -> segment_new (N:=RNum) c d = Ok s' -> is_parallel t (sub b a) (sub d c) = Ok false ->
  lines_coplanar a (sub b a) c (sub d c) ->
  ((exists x, segment_intersect_segment LA t check s s' = Ok x) <-> (exists x, on_segment a b x /\ on_segment c d x)) /\
  ((~ exists x, on_segment a b x /\ on_segment c d x) -> exists m, segment_intersect_segment LA t check s s' = Raise (ValueError m)).
Proof.
  intros LA t check a b c d s s' HL H1 H2 Lb Lc Ld L3 Hs Hs' Hp C.
  assert (W : (exists x, segment_intersect_segment LA t check s s' = Ok x) -> exists x, on_segment a b x /\ on_segment c d x).
  { intros (x & E). exists x. destruct (C44_result_sound LA t check a b c d x s s' H1 H2 Lb ltac:(rn; congruence) Hs Hs' E) as (_ & _ & Hx & _ & _ & _ & K). split; auto. }
  split.
  - split; auto. intros (x & Hx & Hx'). exists x. exact (proj1 (C44_common_point_returned LA t check a b c d x s s' HL H1 H2 Lb Lc Ld L3 Hs Hs' Hp Hx Hx')).
  - intro NM. destruct (segment_ne a b s ltac:(auto) Hs) as (Es & _ & _ & O1). destruct (segment_ne c d s' ltac:(rn; congruence) Hs') as (Es' & _ & _ & O2).
    assert (D : ~ dependent (sub b a) (sub d c)) by (apply (not_parallel_independent t); auto; [split; auto|len|apply nonzero_ne; apply O1]).
    destruct (coplanar_meet a (sub b a) c (sub d c) O1 O2 Lc C D) as (x & Hx & Hx').
    assert (N1 : line_new (N:=RNum) a (sub b a) = Ok (MkLine a (sub b a))) by (apply line_new_iff; auto).
    assert (N2 : line_new (N:=RNum) c (sub d c) = Ok (MkLine c (sub d c))) by (apply line_new_iff; auto).
    destruct (C31_returns_common_point LA t check a (sub b a) c (sub d c) _ _ x HL H1 H2 N1 N2 Lc L3 Hp Hx Hx') as (E & U).
    unfold segment_intersect_segment. rewrite Es, Es'. cbn [s_a s_b]. rewrite !line_from_points_R by first [assumption|rn; congruence]. cbn [bind]. rn. rewrite E. cbn [bind]. rewrite <- Es, <- Es'.
    assert (Lx : length x = length a) by (apply (on_line_length a (sub b a)); [apply O1|auto]).
    destruct (C43_contains_default a b x s) as (r & Er & _); auto. destruct (C43_contains_default c d x s') as (r' & Er' & _); auto; try (rn; congruence).
    rn. rewrite Er, Er'. cbn [bind]. destruct (r && r') eqn:Z; [|eexists; reflexivity]. exfalso. apply NM. apply andb_true_iff in Z as (-> & ->). exists x.
    split; [apply (carrier_exact a b s); auto|apply (carrier_exact c d s'); auto; rn; congruence].
Qed.
Print Assumptions C44_coplanar_segments.

(** Near-parallel segments, segments of different dimensions or of dimension above 3 raise ValueError. *)
Theorem C44_rejections : forall (LA : linalg RNum) (t : tol RNum) check (a b c d : pt) s s', 0 <= rel_tol t -> 0 <= abs_tol t ->
  length b = length a -> length d = length c -> segment_new (N:=RNum) a b = Ok s -> segment_new (N:=RNum) c d = Ok s' ->
  length c <> length a \/ (3 < length a)%nat \/ dependent (sub b a) (sub d c) ->
  exists m, segment_intersect_segment LA t check s s' = Raise (ValueError m).
Proof.
  intros LA t check a b c d s s' H1 H2 Lb Ld Hs Hs' K.
  destruct (segment_ne a b s ltac:(auto) Hs) as (Es & _ & _ & O1). destruct (segment_ne c d s' ltac:(auto) Hs') as (Es' & _ & _ & O2).
  assert (N1 : line_new (N:=RNum) a (sub b a) = Ok (MkLine a (sub b a))) by (apply line_new_iff; auto).
  assert (N2 : line_new (N:=RNum) c (sub d c) = Ok (MkLine c (sub d c))) by (apply line_new_iff; auto).
  destruct (C31_errors LA t check a (sub b a) c (sub d c) _ _ H1 H2 N1 N2) as (E1 & E2 & E3 & _).
  assert (Em : exists m, line_intersect_line LA t check (MkLine (N:=RNum) a (sub b a)) (MkLine c (sub d c)) = Raise (ValueError m)) by (destruct K as [K|[K|K]]; auto).
  destruct Em as (m & Em). exists m. unfold segment_intersect_segment. rewrite Es, Es'. cbn [s_a s_b]. rewrite !line_from_points_R by auto. cbn [bind]. rn. rewrite Em. reflexivity.
Qed.
Print Assumptions C44_rejections.

Lemma seg_ok x y u v : x <> 0 -> segment_new (N:=RNum) [x; y] [0; v] = Ok (MkSegment [x; y] [0; v]) \/ u = v.
Proof.
  intro H. left. apply C43_construction; try discriminate; auto. split; auto. intro F. inversion F as [|? ? ? ? C]; subst. apply close_default_zero in C. auto.
Qed.
Example C44_nonvacuous : exists s s', segment_new (N:=RNum) [2; 2] [0; 0] = Ok s /\ segment_new (N:=RNum) [2; 0] [0; 2] = Ok s' /\
  segment_intersect_segment ideal_linalg tol_default true s s' = Ok [1; 1].
Proof.
  destruct (seg_ok 2 2 1 0) as [E1|]; [lra| |lra]. destruct (seg_ok 2 0 1 2) as [E2|]; [lra| |lra]. eexists; eexists. split; [exact E1|]. split; [exact E2|].
  refine (proj1 (C44_common_point_returned ideal_linalg tol_default true [2; 2] [0; 0] [2; 0] [0; 2] [1; 1] _ _ _ (proj1 tol_default_ok) (proj2 tol_default_ok) eq_refl eq_refl eq_refl _ E1 E2 _ _ _)); [| simpl; lia| | |].
  - apply ideal_linalg_correct.
  - destruct (is_parallel_default (sub [0; 0] [2; 2]) (sub [0; 2] [2; 0])) as (r & -> & E); [reflexivity|discriminate|]. f_equal. destruct r; auto. exfalso.
    destruct E as [E _]. destruct (E eq_refl) as [Z|[Z|(_ & _ & K)]]; [inversion Z; lra|inversion Z; lra|]. revert K. unfold cosine. simpl.
    replace ((0 - 2) * (0 - 2) + ((0 - 2) * (2 - 0) + 0)) with 0 by ring. unfold Rdiv. rewrite Rmult_0_l, Rabs_R0. pose proof rel_default_bounds. lra.
  - exists (1 / 2). split; [lra|]. unfold scale; simpl. apply (f_equal2 (@cons R)); [lra|]. apply (f_equal2 (@cons R)); [lra|reflexivity].
  - exists (1 / 2). split; [lra|]. unfold scale; simpl. apply (f_equal2 (@cons R)); [lra|]. apply (f_equal2 (@cons R)); [lra|reflexivity].
Qed.
