(** * Property C69: integer inputs wrap around *)
From Coq Require Import String Reals List ZArith Lra Lia Psatz Bool.
From Verif.Model Require Import Outcome Num Instances Numpy BaseArray Vector Points Functions Line Plane Triangle Int64.
From Verif.Spec Require Import Geometry Tolerance Measure Int64.
From Verif.Proof Require Import VecAlg Bridge Arrays Vectors Points.
From Verif.Prop Require Import Vectors Directions Measure.
Import ListNotations.
Local Open Scope Z_scope.

(** ** Wrapping *)
Lemma wrap_wraps z : wraps_to z (wrap64 z).
Proof.
  unfold wraps_to, fits, wrap64. pose proof (Z.mod_pos_bound (z + 2 ^ 63) (2 ^ 64) eq_refl). split; [lia|].
  exists (- ((z + 2 ^ 63) / 2 ^ 64)). pose proof (Z.div_mod (z + 2 ^ 63) (2 ^ 64) ltac:(discriminate)). lia.
Qed.
Lemma wraps_unique z w w' : wraps_to z w -> wraps_to z w' -> w = w'.
Proof. unfold wraps_to, fits. intros (? & k & ->) (? & k' & ->). assert (k = k') by lia. congruence. Qed.
Lemma wraps_fits z w : wraps_to z w -> fits z -> w = z.
Proof. unfold wraps_to, fits. intros (? & k & ->) ?. assert (k = 0) by lia. lia. Qed.
Lemma wraps_shift z z' w : wraps_to z' w -> (exists k, z' = z + k * 2 ^ 64) -> wraps_to z w.
Proof. intros (F & k & ->) (k' & ->). split; auto. exists (k' + k). ring. Qed.
Lemma wraps_add a a' b b' w : wraps_to a a' -> wraps_to b b' -> wraps_to (a' + b') w -> wraps_to (a + b) w.
Proof. intros (_ & k & ->) (_ & j & ->) H. apply (wraps_shift _ _ _ H). exists (k + j). ring. Qed.
Lemma wraps_sub a a' b b' w : wraps_to a a' -> wraps_to b b' -> wraps_to (a' - b') w -> wraps_to (a - b) w.
Proof. intros (_ & k & ->) (_ & j & ->) H. apply (wraps_shift _ _ _ H). exists (k - j). ring. Qed.
Lemma fits_0 : wraps_to 0 0.
Proof. split; [unfold fits; lia|exists 0; lia]. Qed.
Lemma iadd_w a a' b b' : wraps_to a a' -> wraps_to b b' -> wraps_to (a + b) (iadd a' b').
Proof. intros Ha Hb. apply (wraps_add a a' b b'); auto. apply wrap_wraps. Qed.
Lemma isub_w a a' b b' : wraps_to a a' -> wraps_to b b' -> wraps_to (a - b) (isub a' b').
Proof. intros Ha Hb. apply (wraps_sub a a' b b'); auto. apply wrap_wraps. Qed.
Lemma imul_w a b : wraps_to (a * b) (imul a b).
Proof. apply wrap_wraps. Qed.

(** ** Every product sum is the exact one modulo 2^64 *)
Lemma idot_w a b : wraps_to (zdot a b) (idot a b).
Proof. revert b. induction a as [|x a IH]; intros [|y b]; try apply fits_0. cbn [zdot idot]. apply iadd_w; auto using imul_w. Qed.
Lemma zdot_IZR a b : IZR (zdot a b) = dot (map IZR a) (map IZR b).
Proof. revert b. induction a as [|x a IH]; intros [|y b]; auto. cbn [zdot map dot]. rewrite plus_IZR, mult_IZR, IH. reflexivity. Qed.
Lemma wraps_zero z w : wraps_to z w -> (w = 0 <-> (2 ^ 64 | z)).
Proof.
  intros (F & k & ->). split.
  - intro H. exists (- k). lia.
  - intros (j & ->). unfold fits in F. assert (j + k = 0) by lia. lia.
Qed.

(** Dot products, displacements, determinants and cross products of int64 data are the exact integers reduced into the int64 range. *)
Theorem C69_dot : forall a b, length a = length b -> exists w, ivdot a b = Ok w /\ wraps_to (zdot a b) w /\ (fits (zdot a b) -> w = zdot a b).
Proof.
  intros a b L. exists (idot a b). unfold ivdot. rewrite L, Nat.eqb_refl. split; auto. pose proof (idot_w a b). split; auto. intro. eapply wraps_fits; eauto.
Qed.
Print Assumptions C69_dot.

Theorem C69_from_points : forall a b, length a = length b -> exists v, ifrom_points a b = Ok v /\ length v = length a /\
  forall i, wraps_to (nth i b 0 - nth i a 0) (nth i v 0).
Proof.
  intros a b L. unfold ifrom_points. rewrite L, Nat.eqb_refl. eexists. split; [reflexivity|]. split; [rewrite map_length, combine_length; lia|].
  revert b L. induction a as [|x a IH]; intros [|y b] L [|i]; try discriminate; cbn; try apply fits_0; [apply wrap_wraps|]. apply IH. auto.
Qed.
Print Assumptions C69_from_points.

Theorem C69_cross : forall a1 a2 a3 b1 b2 b3, exists c1 c2 c3, icross [a1; a2; a3] [b1; b2; b3] = Ok [c1; c2; c3] /\
  wraps_to (zdet a2 a3 b2 b3) c1 /\ wraps_to (zdet a3 a1 b3 b1) c2 /\ wraps_to (zdet a1 a2 b1 b2) c3.
Proof.
  intros. do 3 eexists. split; [reflexivity|]. unfold zdet. split; [|split]; apply isub_w; apply imul_w.
Qed.
Print Assumptions C69_cross.

(** is_zero (default tolerances) answers True exactly when the exact squared length is a multiple of 2^64. *)
Theorem C69_is_zero : forall v, exists b, iis_zero tol_default v = Ok b /\ (b = true <-> (2 ^ 64 | zdot v v)).
Proof.
  intro v. unfold iis_zero, tofloat. change (IZR 0) with 0%R. rewrite isclose_default_zero. eexists. split; [reflexivity|]. rewrite <- (wraps_zero _ _ (idot_w v v)).
  destruct (Req_EM_T (IZR (idot v v)) 0) as [E|E]; split; intro H; auto; try discriminate.
  - apply eq_IZR. exact E.
  - exfalso. apply E. rewrite H. reflexivity.
Qed.
Print Assumptions C69_is_zero.

Lemma zdot_nonneg v : 0 <= zdot v v.
Proof. induction v as [|x v IH]; cbn [zdot]; nia. Qed.
Lemma zdot_zero v : zdot v v = 0 -> Forall (eq 0) v.
Proof. induction v as [|x v IH]; cbn [zdot]; intro H; constructor; [|apply IH]; pose proof (zdot_nonneg v); nia. Qed.
Lemma zdot_bound B v : Forall (fun x => Z.abs x <= B) v -> zdot v v <= Z.of_nat (length v) * B ^ 2.
Proof. induction 1 as [|x v Hx F IH]; [reflexivity|]. cbn [zdot length]. assert (x * x <= B ^ 2) by nia. lia. Qed.
(** It is right whenever the squared length stays below 2^64, e.g. coordinates below 2^31 in up to four dimensions. *)
Theorem C69_is_zero_exact : forall v, zdot v v < 2 ^ 64 -> iis_zero tol_default v = Ok (forallb (Z.eqb 0) v).
Proof.
  intros v H. destruct (C69_is_zero v) as (b & -> & E). f_equal. destruct (forallb (Z.eqb 0) v) eqn:F.
  - rewrite forallb_forall in F. apply E. assert (Z0 : zdot v v = 0); [|rewrite Z0; exists 0; reflexivity].
    clear -F. induction v as [|x v IH]; auto. cbn [zdot]. rewrite IH by (intros; apply F; simpl; auto). specialize (F x (or_introl eq_refl)). apply Z.eqb_eq in F. subst. reflexivity.
  - destruct b; auto. destruct (proj1 E eq_refl) as (k & Ek). pose proof (zdot_nonneg v). assert (Z0 : zdot v v = 0) by lia. apply zdot_zero in Z0.
    assert (forallb (Z.eqb 0) v = true) by (apply forallb_forall; rewrite Forall_forall in Z0; intros x Hx; apply Z.eqb_eq; auto). congruence.
Qed.
Print Assumptions C69_is_zero_exact.

Theorem C69_small_exact : forall v B, Forall (fun x => Z.abs x <= B) v -> Z.of_nat (length v) * B ^ 2 < 2 ^ 63 ->
  fits (zdot v v) /\ iis_zero tol_default v = Ok (forallb (Z.eqb 0) v).
Proof.
  intros v B F H. pose proof (zdot_bound B v F). pose proof (zdot_nonneg v). split; [unfold fits; lia|]. apply C69_is_zero_exact. lia.
Qed.
Print Assumptions C69_small_exact.

Theorem C69_is_perpendicular : forall a b, length a = length b -> exists r, iis_perpendicular tol_default a b = Ok r /\
  (r = true <-> (2 ^ 64 | zdot a b)) /\
  (Z.abs (zdot a b) < 2 ^ 64 -> is_perpendicular (N:=RNum) tol_default (map IZR a) (map IZR b) = Ok r).
Proof.
  intros a b L. unfold iis_perpendicular, ivdot. rewrite L, Nat.eqb_refl. cbn [bind]. unfold tofloat. change (IZR 0) with 0%R. rewrite isclose_default_zero.
  eexists. split; [reflexivity|]. assert (K : idot a b = 0 <-> (2 ^ 64 | zdot a b)) by apply (wraps_zero _ _ (idot_w a b)). split.
  - rewrite <- K. destruct (Req_EM_T (IZR (idot a b)) 0) as [E|E]; split; intro H; auto; try discriminate; [apply eq_IZR; exact E|]. exfalso. apply E. rewrite H. reflexivity.
  - intro H. unfold is_perpendicular. rewrite np_dot_R by (rewrite !map_length; auto). cbn [bind]. rewrite <- zdot_IZR. change (@n0 RNum) with 0%R. rewrite isclose_default_zero. f_equal.
    destruct (Req_EM_T (IZR (zdot a b)) 0) as [E|E], (Req_EM_T (IZR (idot a b)) 0) as [E'|E']; auto.
    + exfalso. apply eq_IZR in E. apply E'. rewrite (proj2 K); auto. rewrite E. exists 0. reflexivity.
    + exfalso. apply eq_IZR in E'. apply K in E' as (k & Ek). apply E. replace (zdot a b) with 0; auto. lia.
Qed.
Print Assumptions C69_is_perpendicular.

(** side_vector is the sign of the wrapped determinant; right as long as the determinant fits. *)
Theorem C69_side_vector : forall x1 y1 x2 y2, exists w, iside_vector [x1; y1] [x2; y2] = Ok (Z.sgn w) /\ wraps_to (zdet x2 y2 x1 y1) w /\
  (fits (zdet x2 y2 x1 y1) -> side_vector (N:=RNum) [IZR x1; IZR y1] [IZR x2; IZR y2] = Ok (Z.sgn w)).
Proof.
  intros. eexists. split; [reflexivity|]. assert (W : wraps_to (zdet x2 y2 x1 y1) (isub (imul x2 y1) (imul y2 x1))) by (apply isub_w; apply imul_w). split; [exact W|].
  intro F. rewrite (wraps_fits _ _ W F). destruct (C16_side_vector (IZR x1) (IZR y1) (IZR x2) (IZR y2)) as (s & -> & P & M & _ & S & _). f_equal.
  assert (D : (IZR (zdet x2 y2 x1 y1) = - (IZR x1 * IZR y2 - IZR y1 * IZR x2))%R) by (unfold zdet; rewrite minus_IZR, !mult_IZR; ring).
  destruct (Z.lt_trichotomy (zdet x2 y2 x1 y1) 0) as [H|[H|H]].
  - rewrite (Z.sgn_neg _ H). apply M. apply IZR_lt in H. lra.
  - rewrite H. simpl. apply (f_equal IZR) in H. destruct S as [S|[S|S]]; auto; [apply P in S|apply M in S]; lra.
  - rewrite (Z.sgn_pos _ H). apply P. apply IZR_lt in H. lra.
Qed.
Print Assumptions C69_side_vector.

(** Line and Plane construction from int64 data: refused for exactly the directions whose squared length is a multiple of 2^64. *)
Theorem C69_line : forall p v, p <> [] -> v <> [] -> length p = length v ->
  ((2 ^ 64 | zdot v v) -> iline_new p v = Raise (ValueError "The vector must not be the zero vector.")) /\
  (~ (2 ^ 64 | zdot v v) -> iline_new p v = Ok (p, v)).
Proof.
  intros p v Hp Hv L. destruct (C69_is_zero v) as (b & E & K). unfold iline_new. destruct p as [|p0 p], v as [|v0 v]; try contradiction. rewrite L, Nat.eqb_refl. cbn [negb]. rewrite E. cbn [bind].
  destruct b; split; intro H; auto; exfalso; [apply H; apply K; auto|apply K in H; discriminate].
Qed.
Print Assumptions C69_line.

(** area_signed: half the wrapped doubled area; right as long as the doubled area fits (intermediate sums may overflow). *)
Lemma iarea_w ps : forall x y, wraps_to (zpath ((x, y) :: ps)) (iarea_terms x y ps).
Proof.
  induction ps as [|(x', y') ps IH]; intros x y; [apply fits_0|]. cbn [iarea_terms]. change (zpath ((x, y) :: (x', y') :: ps)) with (zdet x y x' y' + zpath ((x', y') :: ps)).
  apply iadd_w; auto. unfold zdet. replace (x * y' - y * x') with (x * y' - x' * y) by ring. apply isub_w; apply imul_w.
Qed.
Definition zpt (p : Z * Z) : pt := [IZR (fst p); IZR (snd p)].
Lemma zpath_R ps : (IZR (zpath ps) = path (turn [0; 0]%R) (map zpt ps))%R.
Proof.
  induction ps as [|(x, y) [|(x', y') ps] IH]; auto. change (zpath ((x, y) :: (x', y') :: ps)) with (zdet x y x' y' + zpath ((x', y') :: ps)). rewrite plus_IZR, IH.
  cbn [map]. rewrite path_cons2. f_equal. unfold zdet, zpt, turn, px, py. cbn [fst snd nth]. rewrite minus_IZR, !mult_IZR. ring.
Qed.
Lemma zarea2_R ps : (IZR (zarea2 ps) = closed (turn [0; 0]%R) (map zpt ps))%R.
Proof. destruct ps as [|p ps]; auto. unfold zarea2, closed. rewrite zpath_R, map_app. reflexivity. Qed.
Lemma zarea2_last ps : ps <> [] -> zarea2 ps = zpath (last ps (0, 0) :: ps).
Proof.
  intro H. apply eq_IZR. rewrite zarea2_R, zpath_R. set (l := last ps (0, 0)). pose proof (app_removelast_last (0, 0) H) as E. fold l in E. rewrite E, map_app, closed_rot. cbn [map app]. unfold closed. cbn [app]. rewrite map_app. reflexivity.
Qed.
Theorem C69_area_signed : forall ps, (3 <= length ps)%nat -> exists w, iarea_signed ps = Ok (/ 2 * IZR w)%R /\ wraps_to (zarea2 ps) w /\
  (fits (zarea2 ps) -> area_signed (N:=RNum) (map zpt ps) = Ok (/ 2 * IZR w)%R).
Proof.
  intros ps L. assert (Hne : ps <> []) by (destruct ps; [simpl in L; lia|discriminate]). unfold iarea_signed. destruct (Nat.ltb_spec (length ps) 3); [lia|].
  destruct (last ps (0, 0)) as (lx, ly) eqn:El. exists (iarea_terms lx ly ps). split.
  - rewrite half_R. reflexivity.
  - assert (W : wraps_to (zarea2 ps) (iarea_terms lx ly ps)) by (rewrite zarea2_last, El by auto; apply iarea_w). split; auto. intro F.
    rewrite (wraps_fits _ _ W F). rewrite C64_shoelace.
    + unfold shoelace. rewrite zarea2_R. reflexivity.
    + split; [destruct ps; [contradiction|discriminate]|]. split; [lia|]. apply Forall_map. apply Forall_forall. reflexivity.
    + rewrite map_length. exact L.
Qed.
Print Assumptions C69_area_signed.

(** project_vector on int64 data: the quotient of the two wrapped dot products times the vector; right when both fit. *)
Theorem C69_project_vector : forall v o, length o = length v -> fits (zdot v v) -> fits (zdot v o) ->
  iproject_vector v o = project_vector (N:=RNum) (map IZR v) (map IZR o).
Proof.
  intros v o L F1 F2. unfold iproject_vector, project_vector, ivdot. rewrite L, Nat.eqb_refl. cbn [bind].
  rewrite (wraps_fits _ _ (idot_w v o)), (wraps_fits _ _ (idot_w v v)) by auto. unfold tofloat. rewrite !np_dot_R by (rewrite !map_length; auto). cbn [bind]. rewrite !zdot_IZR.
  destruct (ndiv (n:=RNum) _ _) as [q| |]; cbn [bind]; auto. rewrite vmuls_R. f_equal. unfold scale. rewrite map_map. reflexivity.
Qed.
Print Assumptions C69_project_vector.

(** distance_point of int64 points is the distance whenever no coordinate difference overflows. *)
Theorem C69_distance_point : forall a b, length a = length b -> a <> [] -> (forall i, fits (nth i b 0 - nth i a 0)) ->
  idistance a b = distance_point (N:=RNum) (map IZR a) (map IZR b).
Proof.
  intros a b L Hne F. destruct (C69_from_points a b L) as (v & E & Lv & W). unfold idistance. rewrite E. cbn [bind].
  unfold distance_point. rewrite from_points_R by (first [rewrite !map_length; exact L|destruct a; [contradiction|discriminate]]). cbn [bind]. unfold inorm, norm. f_equal. f_equal.
  apply pt_ext; [unfold tofloat; rewrite map_length, length_sub, !map_length; lia|]. intros i Hi. rewrite map_length in Hi. unfold tofloat.
  rewrite nth_sub by (rewrite !map_length; lia). change (nth i (map IZR v) (IZR 0) = nth i (map IZR b) (IZR 0) - nth i (map IZR a) (IZR 0))%R. rewrite !map_nth, <- minus_IZR. f_equal. apply (wraps_fits _ _ (W i)). apply F.
Qed.
Print Assumptions C69_distance_point.

(** ** Wrong answers that follow *)
Theorem C69_is_zero_refuted : iis_zero tol_default [2 ^ 32; 0] = Ok true /\ is_zero (N:=RNum) tol_default (map IZR [2 ^ 32; 0]) = Ok false /\
  iline_new [0; 0] [2 ^ 32; 0] = Raise (ValueError "The vector must not be the zero vector.") /\
  iis_perpendicular tol_default [2 ^ 32; 0] [2 ^ 32; 1] = Ok true.
Proof.
  assert (Z0 : iis_zero tol_default [2 ^ 32; 0] = Ok true).
  { destruct (C69_is_zero [2 ^ 32; 0]) as (b & -> & K). f_equal. apply K. exists 1. reflexivity. }
  split; [exact Z0|]. split; [|split].
  - unfold is_zero. rewrite np_dot_R by reflexivity. cbn [bind]. change (@n0 RNum) with 0%R. rewrite isclose_default_zero. rewrite <- zdot_IZR.
    destruct (Req_EM_T _ _) as [E|E]; auto. apply eq_IZR in E. discriminate.
  - apply C69_line; try discriminate; auto. exists 1. reflexivity.
  - destruct (C69_is_perpendicular [2 ^ 32; 0] [2 ^ 32; 1] eq_refl) as (b & -> & K & _). f_equal. apply K. exists 1. reflexivity.
Qed.
Print Assumptions C69_is_zero_refuted.

(** Two vectors are each reported to lie on the left of the other (the true answer to the second call is 1); the area of a large
    counter-clockwise triangle is negative; the distance of the two extreme integers is 1. *)
Theorem C69_side_refuted : iside_vector [2 ^ 62; 0] [0; 2] = Ok (-1) /\ iside_vector [0; 2] [2 ^ 62; 0] = Ok (-1) /\
  (exists r, iarea_signed [(0, 0); (2 ^ 32, 0); (0, 2 ^ 31)] = Ok r /\ (r < 0)%R) /\
  idistance [- 2 ^ 63] [2 ^ 63 - 1] = Ok 1%R.
Proof.
  split; [reflexivity|]. split; [reflexivity|]. split.
  - eexists. split; [reflexivity|]. rewrite half_R. change (nmul (n:=RNum)) with Rmult. unfold tofloat. vm_compute (iarea_terms _ _ _).
    assert (IZR (-9223372036854775808) < 0)%R by (apply IZR_lt; reflexivity). lra.
  - unfold idistance. change (ifrom_points [- 2 ^ 63] [2 ^ 63 - 1]) with (Ok [-1]). cbn [bind]. unfold inorm. rewrite norm_raw_len. f_equal. unfold len. cbn [map dot tofloat]. replace (_ + 0)%R with 1%R by (unfold tofloat; ring). apply sqrt_1.
Qed.
Print Assumptions C69_side_refuted.

(** The exactness hypotheses are met by ordinary integer data. *)
Theorem C69_nonvacuous : fits (zdot [3; 4; -12] [4; -3; 0]) /\ zdot [3; 4; -12] [3; 4; -12] < 2 ^ 64 /\ fits (zdet 1 7 (-5) 2) /\
  fits (zarea2 [(0, 0); (4, 0); (4, 3); (0, 3)]) /\ zarea2 [(0, 0); (4, 0); (4, 3); (0, 3)] = 24 /\
  iis_zero tol_default [3; 4; -12] = Ok false /\ iline_new [1; 2; 3] [3; 4; -12] = Ok ([1; 2; 3], [3; 4; -12]) /\
  (forall i, fits (nth i [5; -6] 0 - nth i [1; 2] 0)).
Proof.
  split; [split; [discriminate|reflexivity]|]. split; [reflexivity|]. split; [split; [discriminate|reflexivity]|]. split; [split; [discriminate|reflexivity]|]. split; [reflexivity|].
  split; [apply (C69_is_zero_exact [3; 4; -12]); reflexivity|]. split.
  - apply C69_line; try discriminate; auto. intros (k & E). cbn in E. lia.
  - intros [|[|[|i]]]; split; cbn; lia.
Qed.
Print Assumptions C69_nonvacuous.
