(** * Property C96: lines and planes with whole-number coordinates compared in double precision *)
From Coq Require Import String Reals List ZArith Floats Lra Lia Psatz Bool.
From Flocq Require Import Core BinarySingleNaN Sterbenz.
From Flocq Require Import IEEE754.PrimFloat.
From Verif.Model Require Import Outcome Num Instances Numpy BaseArray Vector Points Functions Line Plane.
From Verif.Spec Require Import Geometry Tolerance Floats Grid.
From Verif.Proof Require Import VecAlg Bridge Vectors Floats FloatErr.
From Verif.Prop Require Import Floats Accuracy AnyOrder Decisions Projections Grid GridCircles GridLines.
From Verif.Prop Require GridPlanes.
From Verif.Proof Require Lines.
Import ListNotations.
Local Open Scope R_scope.

(** ** An absolute tolerance only adds a comparison of the computed difference *)
Definition abs_tol_F (a : flt) : tol FNum := MkTol (N:=FNum) (rel_tol tol_default) a.
Lemma isclose_wider (a x y : flt) r0 : finite a -> 0 <= FR a -> finite x -> finite y -> finite (y - x)%float -> isclose (N:=FNum) tol_default x y = Ok r0 ->
  exists r, isclose (abs_tol_F a) x y = Ok r /\ (r = true <-> r0 = true \/ Rabs (FR (y - x)%float) <= FR a).
Proof.
  intros Fa Ha Fx Fy Fd. destruct zero_F as (Z & Fz). unfold isclose, abs_tol_F, tol_default. cbn [rel_tol abs_tol]. change (nltb (n:=FNum)) with PrimFloat.ltb. change (n0 (n:=FNum)) with 0%float. destruct (PrimFloat.ltb _ 0) eqn:E1; [discriminate|]. cbn [orb].
  destruct (PrimFloat.ltb a 0) eqn:E2. { apply (ltb_F _ _ Fa Fz) in E2. rewrite Z in E2. lra. } destruct (PrimFloat.ltb 0 0) eqn:E3. { apply (ltb_F _ _ Fz Fz) in E3. lra. }
  change (neqb (n:=FNum)) with PrimFloat.eqb. destruct (PrimFloat.eqb x y); [intro H; injection H as <-; exists true; tauto|]. change (nfin (n:=FNum)) with f_finite. rewrite (proj2 (f_finite_iff x) Fx), (proj2 (f_finite_iff y) Fy). cbn [negb orb]. intro H. injection H as H. eexists. split; [reflexivity|]. rewrite <- H. clear H r0.
  change (nsub (n:=FNum)) with PrimFloat.sub. change (nabs (n:=FNum)) with PrimFloat.abs. change (nleb (n:=FNum)) with PrimFloat.leb. rewrite !orb_true_iff.
  assert (L : forall c : flt, finite c -> PrimFloat.leb (PrimFloat.abs (y - x)) c = true <-> Rabs (FR (y - x)%float) <= FR c) by (intros c Fc; rewrite (leb_F _ _ (proj2 (abs_finite _) Fd) Fc), abs_F; reflexivity).
  rewrite (L a Fa), (L 0%float Fz), Z. split; [tauto|]. intros [[H|H]|H]; [tauto| |tauto]. right. lra.
Qed.
Lemma one_minus (x : flt) a : finite x -> -1 <= FR x <= 1 -> 0 <= a <= / 4 ->
  finite (1 - PrimFloat.abs x)%float /\ (Rabs (FR (1 - PrimFloat.abs x)%float) <= a <-> 1 - Rabs (FR x) <= a).
Proof.
  intros Fx Hx Ha. destruct one_F as (O & Fo). assert (H01 : 0 <= Rabs (FR x) <= 1) by (split; [apply Rabs_pos|apply Rabs_le; lra]). assert (Fa : finite (PrimFloat.abs x)) by (apply abs_finite; auto).
  destruct (fin_sub 1%float (PrimFloat.abs x) Fo Fa) as (Fd & Ed). { rewrite abs_F, O. eapply Rle_lt_trans; [apply (rnd_bpow_le _ 0); [lia|]|apply bpow_lt; lia]. change (bpow radix2 0) with 1. rewrite Rabs_pos_eq; lra. }
  split; [exact Fd|]. rewrite Ed, O, abs_F. destruct (Rle_lt_dec (/ 2) (Rabs (FR x))) as [C|C].
  - assert (E : rnd (1 - Rabs (FR x)) = 1 - Rabs (FR x)). { unfold rnd. apply round_generic; [typeclasses eauto|]. assert (G1 : generic_format radix2 (FLT_exp (-1074) 53) 1) by (rewrite <- O; apply gf). assert (G2 : generic_format radix2 (FLT_exp (-1074) 53) (Rabs (FR x))) by (rewrite <- abs_F; apply gf). apply sterbenz; first [typeclasses eauto|exact G1|exact G2|lra]. } rewrite E, Rabs_pos_eq by lra. tauto.
  - assert (E : / 2 <= rnd (1 - Rabs (FR x))). { replace (/ 2) with (rnd (/ 2)); [unfold rnd; apply round_le; [typeclasses eauto|typeclasses eauto|lra]|]. pose proof (rnd_dyad 1 (-1) ltac:(lia) ltac:(lia)) as Q. replace (1 * bpow radix2 (-1)) with (/ 2) in Q by (simpl; lra). exact Q. } rewrite Rabs_pos_eq by lra. lra.
Qed.
Lemma is_zero_abs e M (v : list flt) (a : flt) : grid_ok (e + e) -> (0 <= M)%Z -> (Z.of_nat (length v) * (M * M) < 2 ^ 53)%Z -> Forall (on_grid e M) v -> finite a -> 0 <= FR a < bpow radix2 (e + e) ->
  exists b, is_zero (abs_tol_F a) v = Ok b /\ (b = true <-> is_zero_vec (map FR v)).
Proof.
  intros G P B H Fa Ha. destruct (grid_dots e e M M G P P v v eq_refl H H B) as (D & E). pose proof (on_grid_finite _ _ _ D) as F. unfold is_zero. rewrite np_dot_F by auto. cbn [bind]. destruct (isclose_abs_F a _ Fa (proj1 Ha) F) as (r & Er & Kr). exists r. split; [exact Er|]. rewrite Kr, E.
  destruct (grid_self e M v G P B H) as (k & Bk & Ek & Zk). rewrite Rabs_pos_eq by apply dot_self_nonneg. split.
  - intro L. destruct Zk as [Zk|(K1 & _)]; [exact Zk|]. exfalso. rewrite Ek in L. apply IZR_le in K1. pose proof (bpow_gt_0 radix2 (e + e)). assert (1 * bpow radix2 (e + e) <= IZR k * bpow radix2 (e + e)) by (apply Rmult_le_compat_r; lra). lra.
  - intro Zv. rewrite (proj2 (dot_self_zero_iff _) Zv). lra.
Qed.
Theorem C96_is_parallel : forall e f M M' (v o : list flt) (a : flt), (-300 <= e <= 300)%Z -> (-300 <= f <= 300)%Z -> (1 <= M)%Z -> (1 <= M')%Z -> v <> [] -> length o = length v -> (Z.of_nat (length v) * (M * M') <= 2 ^ 14)%Z ->
  Forall (on_grid e M) v -> Forall (on_grid f M') o -> finite a -> 0 <= FR a <= rel_default -> FR a < bpow radix2 (e + e) -> FR a < bpow radix2 (f + f) ->
  exists b, is_parallel (abs_tol_F a) v o = Ok b /\ (b = true <-> dependent (map FR v) (map FR o)).
Proof.
  intros e f M M' v o a He Hf P P' Nv Lo B Hv Ho Fa Ha Hae Haf. destruct (C92_is_parallel e f M M' v o He Hf P P' Nv Lo B Hv Ho) as (b0 & Eb0 & Kb0).
  assert (nn1 : (1 <= Z.of_nat (length v))%Z) by (destruct v; [contradiction|cbn [length]; lia]). set (n := Z.of_nat (length v)) in *.
  assert (Q1 : (1 <= M * M')%Z) by nia. assert (Bn : (n <= 2 ^ 14)%Z) by nia. assert (BM : (n * M <= 2 ^ 14)%Z) by nia. assert (BM' : (n * M' <= 2 ^ 14)%Z) by nia. assert (CM : (n * (M * M) <= 2 ^ 28)%Z) by nia. assert (CM' : (n * (M' * M') <= 2 ^ 28)%Z) by nia.
  assert (Go : grid_ok (e + e)) by (unfold grid_ok; lia). assert (Gf : grid_ok (f + f)) by (unfold grid_ok; lia). assert (Lo' : (Z.of_nat (length o) * (M' * M') < 2 ^ 53)%Z) by (rewrite Lo; fold n; lia).
  destruct (is_zero_abs e M v a Go ltac:(lia) ltac:(fold n; lia) Hv Fa ltac:(lra)) as (z1 & Ez1 & Kz1). destruct (is_zero_abs f M' o a Gf ltac:(lia) Lo' Ho Fa ltac:(lra)) as (z2 & Ez2 & Kz2).
  destruct (C86_is_zero e M v Go ltac:(lia) ltac:(fold n; lia) Hv) as (y1 & Ey1 & Ky1). destruct (C86_is_zero f M' o Gf ltac:(lia) Lo' Ho) as (y2 & Ey2 & Ky2).
  assert (No : o <> []) by (intro Q; rewrite Q in Lo; destruct v; [contradiction|discriminate]). assert (LR : length (map FR v) = length (map FR o)) by (rewrite !map_length; auto).
  unfold is_parallel, por in *. rewrite Ez1. rewrite Ey1 in Eb0. rewrite (vector_of_ok o No (on_grid_all _ _ _ Ho)) in *. cbn [bind] in *. rewrite Ez2. rewrite Ey2 in Eb0.
  assert (Y1 : y1 = z1) by (apply eq_true_iff_eq; rewrite Ky1, Kz1; tauto). assert (Y2 : y2 = z2) by (apply eq_true_iff_eq; rewrite Ky2, Kz2; tauto). subst y1 y2. clear Ky1 Ky2.
  destruct z1; [exists true; split; [reflexivity|]; split; auto; intros _; apply zero_dependent_l; auto; apply Kz1; auto|]. cbn [bind] in *. destruct z2; [exists true; split; [reflexivity|]; split; auto; intros _; apply zero_dependent_r; auto; apply Kz2; auto|]. cbn [bind] in *.
  destruct (grid_self e M v Go ltac:(lia) ltac:(fold n; lia) Hv) as (k1 & _ & _ & [Z1|(_ & L1)]); [exfalso; apply Kz1 in Z1; discriminate|]. destruct (grid_self f M' o Gf ltac:(lia) Lo' Ho) as (k2 & _ & _ & [Z2|(_ & L2)]); [exfalso; apply Kz2 in Z2; discriminate|].
  assert (Ln : (Z.of_nat (length v) <= max_dim)%Z) by (unfold max_dim; fold n; lia).
  assert (Mv : Forall moderate v) by (apply half_moderate_m; apply (grid_half_moderate e M); auto; nia). assert (Mo : Forall moderate o) by (apply half_moderate_m; apply (grid_half_moderate f M'); auto; nia).
  destruct (C73_cosine_accurate v o (eq_sym Lo) Nv Ln Mv Mo ltac:(eapply Rle_trans; [|exact L1]; apply bpow_le; lia) ltac:(eapply Rle_trans; [|exact L2]; apply bpow_le; lia)) as (x & Ex & Fx & _). rewrite Ex in *. cbn [bind] in *.
  destruct (C70_cosine_range v o x Ex (finite_not_nan _ Fx)) as (_ & Hr). destruct (isclose_one x Fx Hr) as (r0 & Er0 & Kr0). change (nabs (n:=FNum)) with PrimFloat.abs in *. change (n1 (n:=FNum)) with 1%float in *. rewrite Er0 in Eb0. injection Eb0 as ->.
  pose proof rel_default_small as RS. assert (B30 : bpow radix2 (-30) <= / 4) by (replace (/ 4) with (bpow radix2 (-2)) by (simpl; lra); apply bpow_le; lia).
  destruct (one_minus x (FR a) Fx Hr ltac:(lra)) as (Fd & Kd). destruct (isclose_wider a (PrimFloat.abs x) 1%float b0 Fa (proj1 Ha) (proj2 (abs_finite x) Fx) (proj2 one_F) Fd Er0) as (r & Er & Kr). exists r. split; [exact Er|]. rewrite Kr, Kd, <- Kb0. split; [|tauto]. intros [H|H]; [exact H|]. apply Kr0. lra.
Qed.
Print Assumptions C96_is_parallel.

(** ** Points off a grid line or grid plane keep a distance from it *)
Lemma lproj_gram p d q : Lines.pv_ok p d -> length q = length p ->
  dist q (Lines.lproj p d q) * dist q (Lines.lproj p d q) * dot d d = dot (sub q p) (sub q p) * dot d d - dot d (sub q p) * dot d (sub q p).
Proof.
  intros (L & Hz & Hp) Lq. assert (D : dot d d <> 0) by (intro Q; apply Hz; apply dot_self_zero; exact Q). unfold dist. rewrite len_sq. unfold Lines.lproj. rewrite sub_sub_l by len. set (w := sub q p). assert (Lw : length w = length d) by (unfold w; len).
  rewrite dot_sub_l, !dot_sub_r by len. rewrite !dot_scale_l, !dot_scale_r. rewrite (dot_comm w d). field. exact D.
Qed.
Lemma line_gap e f M K (p v q : list flt) : (-100 <= e <= 100)%Z -> (-100 <= f <= 100)%Z -> (0 <= M)%Z -> (0 <= K)%Z -> length v = length p -> length q = length p -> (Z.of_nat (length p) * (M * M) <= 2 ^ 50)%Z -> (Z.of_nat (length p) * (K * K) <= 2 ^ 14)%Z ->
  Forall (on_grid e M) p -> Forall (on_grid e M) q -> Forall (on_grid f K) v -> Lines.pv_ok (map FR p) (map FR v) -> ~ on_line (map FR p) (map FR v) (map FR q) ->
  bpow radix2 (e - 7) <= dist (map FR q) (Lines.lproj (map FR p) (map FR v) (map FR q)).
Proof.
  intros He Hf PM PK Lv Lq BM BK Hp Hq Hv OK NO. set (n := Z.of_nat (length p)) in *. assert (LR : length (map FR q) = length (map FR p)) by (rewrite !map_length; exact Lq).
  assert (n1 : (1 <= n)%Z). { destruct OK as (_ & _ & Q). unfold n. destruct p; [contradiction Q; reflexivity|cbn [length]; lia]. } assert (M50 : (M <= 2 ^ 25)%Z) by nia. assert (K7 : (K <= 2 ^ 7)%Z) by nia. assert (MK : (n * (2 * M * K) < 2 ^ 53)%Z). { assert ((n * (M * K)) * (n * (M * K)) <= 2 ^ 64)%Z by (replace (n * (M * K) * (n * (M * K)))%Z with ((n * (M * M)) * (n * (K * K)))%Z by ring; change (2 ^ 64)%Z with (2 ^ 50 * 2 ^ 14)%Z; apply Z.mul_le_mono_nonneg; nia). nia. }
  destruct (grid_subs e M p q ltac:(unfold grid_ok; lia) ltac:(lia) Lq Hp Hq) as (Hw & Ew & Lw). set (w := map2 (N:=FNum) PrimFloat.sub q p) in *. clearbody w. pose proof (lproj_gram _ _ _ OK LR) as G. rewrite <- Ew in G. 
  assert (L0 : dist (map FR q) (Lines.lproj (map FR p) (map FR v) (map FR q)) <> 0) by (intro Q; apply NO; apply Lines.line_dist_zero; auto). set (D := dist (map FR q) _) in *. assert (D0 : 0 < D) by (pose proof (len_nonneg (sub (map FR q) (Lines.lproj (map FR p) (map FR v) (map FR q)))) as Q; fold (dist (map FR q) (Lines.lproj (map FR p) (map FR v) (map FR q))) in Q; fold D in Q; lra). clearbody D.
  assert (Lw' : @length flt w = @length flt p) by exact Lw. assert (Bw0 : (Z.of_nat (@length flt w) * (2 * M * (2 * M)) < 2 ^ 53)%Z) by (rewrite Lw'; fold n; lia). destruct (grid_self e (2 * M) w ltac:(unfold grid_ok; lia) ltac:(lia) Bw0 Hw) as (kw & Bw & Dw & _). destruct (grid_self f K v ltac:(unfold grid_ok; lia) PK ltac:(rewrite Lv; fold n; lia) Hv) as (kv & Bv & Dv & _). rewrite Lv in Bv. fold n in Bv.
  destruct (grid_dots f e K (2 * M) ltac:(unfold grid_ok; lia) PK ltac:(lia) v w ltac:(rewrite Lw'; exact Lv) Hv Hw ltac:(rewrite Lv; fold n; replace (K * (2 * M))%Z with (2 * M * K)%Z by ring; exact MK)) as ((_ & k & _ & Ek) & E). rewrite E in Ek. rewrite Dw, Dv, Ek, !bpow_plus in G. pose proof (bpow_gt_0 radix2 e) as Be. pose proof (bpow_gt_0 radix2 f) as Bf. set (b := bpow radix2 e) in *. set (c := bpow radix2 f) in *.
  assert (J : IZR kw * (b * b) * (IZR kv * (c * c)) - IZR k * (c * b) * (IZR k * (c * b)) = IZR (kw * kv - k * k) * (b * b) * (c * c)) by (rewrite minus_IZR, !mult_IZR; ring). rewrite J in G. set (j := (kw * kv - k * k)%Z) in *. clearbody j. assert (C2 : 0 < c * c) by (apply Rmult_lt_0_compat; auto). assert (B2 : 0 < b * b) by (apply Rmult_lt_0_compat; auto).
  assert (G' : D * D * IZR kv = IZR j * (b * b)). { apply Rmult_eq_reg_r with (c * c); [|lra]. lra. }
  assert (kv1 : (1 <= kv)%Z). { destruct (Z.eq_dec kv 0) as [Q|Q]; [|lia]. exfalso. destruct OK as (_ & NZ & _). apply NZ. apply dot_self_zero. rewrite Dv, Q. ring. } apply IZR_le in kv1. assert (kv2 : IZR kv <= 16384) by (change 16384 with (IZR (2 ^ 14)); apply IZR_le; lia).
  assert (P : 0 < D * D * IZR kv) by (apply Rmult_lt_0_compat; [apply Rmult_lt_0_compat; auto|lra]). assert (j1 : (0 < j)%Z). { apply lt_IZR. apply Rmult_lt_reg_r with (b * b); auto. rewrite Rmult_0_l, <- G'. exact P. } assert (j1' : 1 <= IZR j) by (apply IZR_le; lia).
  unfold Zminus. rewrite bpow_plus. fold b. replace (bpow radix2 (- (7))) with (/ 128) by (simpl; lra). apply Rsqr_incr_0; unfold Rsqr; [|lra|lra]. assert (S1 : b * b <= D * D * 16384). { apply Rle_trans with (D * D * IZR kv); [rewrite G'; rewrite <- (Rmult_1_l (b * b)) at 1; apply Rmult_le_compat_r; lra|apply Rmult_le_compat_l; [apply Rle_0_sqr|lra]]. } lra.
Qed.
Lemma plane_gap e f M K (p v q : list flt) : (-100 <= e <= 100)%Z -> (-100 <= f <= 100)%Z -> (0 <= M)%Z -> (0 <= K)%Z -> length v = length p -> length q = length p -> (Z.of_nat (length p) * (M * M) <= 2 ^ 50)%Z -> (Z.of_nat (length p) * (K * K) <= 2 ^ 14)%Z ->
  Forall (on_grid e M) p -> Forall (on_grid e M) q -> Forall (on_grid f K) v -> Lines.pv_ok (map FR p) (map FR v) -> ~ on_plane (map FR p) (map FR v) (map FR q) ->
  bpow radix2 (e - 7) <= Rabs (dot (sub (map FR q) (map FR p)) (map FR v)) / len (map FR v).
Proof.
  intros He Hf PM PK Lv Lq BM BK Hp Hq Hv OK NO. set (n := Z.of_nat (length p)) in *. assert (LR : length (map FR q) = length (map FR p)) by (rewrite !map_length; exact Lq).
  assert (n1 : (1 <= n)%Z). { destruct OK as (_ & _ & Q). unfold n. destruct p; [contradiction Q; reflexivity|cbn [length]; lia]. } assert (M50 : (M <= 2 ^ 25)%Z) by nia. assert (MK : (n * (2 * M * K) < 2 ^ 53)%Z). { assert ((n * (M * K)) * (n * (M * K)) <= 2 ^ 64)%Z by (replace (n * (M * K) * (n * (M * K)))%Z with ((n * (M * M)) * (n * (K * K)))%Z by ring; change (2 ^ 64)%Z with (2 ^ 50 * 2 ^ 14)%Z; apply Z.mul_le_mono_nonneg; nia). nia. }
  destruct (grid_subs e M p q ltac:(unfold grid_ok; lia) ltac:(lia) Lq Hp Hq) as (Hw & Ew & Lw). set (w := map2 (N:=FNum) PrimFloat.sub q p) in *. clearbody w. assert (Lw' : @length flt w = @length flt p) by exact Lw.
  destruct (grid_self f K v ltac:(unfold grid_ok; lia) PK ltac:(rewrite Lv; fold n; lia) Hv) as (kv & Bv & Dv & _). rewrite Lv in Bv. fold n in Bv. assert (Bd : (Z.of_nat (@length flt w) * (2 * M * K) < 2 ^ 53)%Z) by (rewrite Lw'; exact MK).
  destruct (grid_dots e f (2 * M) K ltac:(unfold grid_ok; lia) ltac:(lia) PK w v ltac:(rewrite Lw'; auto) Hw Hv Bd) as ((_ & k & _ & Ek) & E). rewrite E in Ek. rewrite <- Ew, Ek. pose proof (bpow_gt_0 radix2 e) as Be. pose proof (bpow_gt_0 radix2 f) as Bf.
  assert (k0 : k <> 0%Z). { intro Q. apply NO. split; [exact LR|]. rewrite <- Ew, Ek, Q. ring. } assert (k1 : 1 <= IZR (Z.abs k)) by (apply IZR_le; lia). rewrite abs_IZR in k1.
  destruct OK as (_ & NZ & _). pose proof (len_pos _ NZ) as LP. assert (LU : len (map FR v) <= 128 * bpow radix2 f). { apply Rsqr_incr_0; unfold Rsqr; [|lra|lra]. rewrite len_sq, Dv, bpow_plus. replace (128 * bpow radix2 f * (128 * bpow radix2 f)) with (16384 * (bpow radix2 f * bpow radix2 f)) by ring. apply Rmult_le_compat_r; [apply Rle_0_sqr|]. change 16384 with (IZR (2 ^ 14)). apply IZR_le. lia. }
  rewrite Rabs_mult, (Rabs_pos_eq (bpow _ _)) by apply bpow_ge_0. rewrite bpow_plus. unfold Zminus. rewrite bpow_plus. replace (bpow radix2 (- (7))) with (/ 128) by (simpl; lra). apply Rmult_le_reg_r with (len (map FR v)); auto. unfold Rdiv. rewrite (Rmult_assoc (Rabs (IZR k) * _)), Rinv_l, Rmult_1_r by lra. set (b := bpow radix2 e) in *. set (c := bpow radix2 f) in *. set (L := len (map FR v)) in *.
  apply Rle_trans with (b * / 128 * (128 * c)); [apply Rmult_le_compat_l; [lra|exact LU]|]. replace (b * / 128 * (128 * c)) with (1 * (b * c)) by field. apply Rmult_le_compat_r; [apply Rmult_le_pos; lra|exact k1].
Qed.
Lemma grid_tame e M (v : list flt) : (e <= 100)%Z -> (0 <= M <= 2 ^ 53)%Z -> Forall (on_grid e M) v -> Forall tame v.
Proof.
  intros He HM H. apply Forall_impl with (2 := H). intros x (F & m & Bm & E). split; [exact F|]. rewrite E, Rabs_mult, (Rabs_pos_eq (bpow _ _)), <- abs_IZR by apply bpow_ge_0. apply Rle_trans with (bpow radix2 53 * bpow radix2 100); [apply Rmult_le_compat; [apply IZR_le; lia|apply bpow_ge_0|change (bpow radix2 53) with (IZR (2 ^ 53)); apply IZR_le; lia|apply bpow_le; lia]|]. rewrite <- bpow_plus. apply bpow_le. lia.
Qed.
(** Sizes of the points involved *)
Lemma grid_sizes e M (p q : list flt) : (-100 <= e <= 100)%Z -> (0 <= M <= 2 ^ 25)%Z -> length q = length p -> Forall (on_grid e M) p -> Forall (on_grid e M) q ->
  dist (map FR p) (map FR q) + len (map FR p) <= 3 * INR (length p) * (IZR M * bpow radix2 e).
Proof.
  intros He HM L Hp Hq. destruct (grid_subs e M q p ltac:(unfold grid_ok; lia) ltac:(lia) (eq_sym L) Hq Hp) as (Hw & Ew & Lw). unfold dist. rewrite <- Ew. set (w := map2 (N:=FNum) PrimFloat.sub p q) in *. assert (Lw' : @length flt w = @length flt q) by exact Lw. pose proof (grid_len e (2 * M) _ ltac:(lia) Hw) as G1. pose proof (grid_len e M p ltac:(lia) Hp) as G2. rewrite Lw', L, mult_IZR in G1. lra.
Qed.
(** ** The decisions *)
(** The rounding error of the distance of a grid point (coordinates up to M steps of 2^e, dimension n) from a grid line. *)
Definition equality_noise (n : nat) (e M : Z) : R := (3 * INR n + 22) * (3 * INR n) * IZR M * bpow radix2 (e - 53) + bpow radix2 (-510).
Lemma noise_line n e M s : s <= 3 * INR n * (IZR M * bpow radix2 e) -> (3 * INR n + 22) * bpow radix2 (-53) * s + bpow radix2 (-510) <= equality_noise n e M.
Proof.
  intro H. unfold equality_noise, Zminus. rewrite bpow_plus. apply Rplus_le_compat_r. pose proof (pos_INR n) as P. replace ((3 * INR n + 22) * (3 * INR n) * IZR M * (bpow radix2 e * bpow radix2 (- (53)))) with ((3 * INR n + 22) * bpow radix2 (-53) * (3 * INR n * (IZR M * bpow radix2 e))) by (change (- (53))%Z with (-53)%Z; ring). apply Rmult_le_compat_l; [|exact H]. apply Rmult_le_pos; [lra|apply bpow_ge_0].
Qed.
Theorem C96_line_is_close : forall e f g M K (p v q w : list flt) (l m : line FNum) (a : flt), (-100 <= e <= 100)%Z -> (-100 <= f <= 100)%Z -> (-100 <= g <= 100)%Z -> (0 <= M)%Z -> (1 <= K)%Z -> length q = length p -> (Z.of_nat (length p) * (M * M) <= 2 ^ 50)%Z -> (Z.of_nat (length p) * (K * K) <= 2 ^ 14)%Z ->
  Forall (on_grid e M) p -> Forall (on_grid e M) q -> Forall (on_grid f K) v -> Forall (on_grid g K) w -> line_new (N:=FNum) p v = Ok l -> line_new (N:=FNum) q w = Ok m ->
  finite a -> equality_noise (length p) e M <= FR a <= rel_default -> FR a < bpow radix2 (e - 8) -> FR a < bpow radix2 (f + f) -> FR a < bpow radix2 (g + g) ->
  exists b, line_is_close (MkTol (N:=FNum) (rel_tol tol_default) a) l m = Ok b /\ (b = true <-> forall X, on_line (map FR p) (map FR v) X <-> on_line (map FR q) (map FR w) X).
Proof.
  intros e f g M K p v q w l m a He Hf Hg PM PK Lq BM BK Hp Hq Hv Hw Hl Hm Fa Ha Hae Haf Hag. pose proof Hl as Hl0. apply line_new_F in Hl0 as (El & Np & Lv). pose proof Hm as Hm0. apply line_new_F in Hm0 as (Em & Nq & Lw). assert (Lv' : @length flt v = @length flt p) by exact Lv. assert (Lw' : @length flt w = @length flt q) by exact Lw.
  set (n := Z.of_nat (length p)) in *. assert (nn1 : (1 <= n)%Z) by (unfold n; destruct p; [contradiction|cbn [length]; lia]). assert (M50 : (0 <= M <= 2 ^ 25)%Z) by nia. assert (Nn : (n <= 2 ^ 14)%Z) by nia.
  destruct (line_dir_nonzero f K p v l Hf ltac:(lia) ltac:(rewrite Lv'; exact BK) Hl Hv) as (NZv & Kv). destruct (line_dir_nonzero g K q w m Hg ltac:(lia) ltac:(rewrite Lw', Lq; exact BK) Hm Hw) as (NZw & Kw). pose proof (pv_F p v Lv' Np NZv) as OK. pose proof (pv_F q w Lw' Nq NZw) as OK'.
  assert (LR : length (map FR q) = length (map FR p)) by (rewrite !map_length; exact Lq). assert (Nv : v <> []) by (intro Q; rewrite Q in Lv'; destruct p; [contradiction|discriminate]).
  assert (Na : 0 <= FR a) by (eapply Rle_trans; [|apply Ha]; unfold equality_noise; pose proof (pos_INR (length p)); pose proof (bpow_ge_0 radix2 (-510)); assert (0 <= (3 * INR (length p) + 22) * (3 * INR (length p)) * IZR M * bpow radix2 (e - 53)) by (repeat apply Rmult_le_pos; try lra; [apply IZR_le; lia|apply bpow_ge_0]); lra).
  destruct (C96_is_parallel f g K K v w a ltac:(lia) ltac:(lia) PK PK Nv ltac:(rewrite Lw', Lv'; exact Lq) ltac:(rewrite Lv'; exact BK) Hv Hw Fa ltac:(split; [exact Na|apply Ha]) Haf Hag) as (b & Eb & Kb).
  assert (Mv : Forall moderate v) by (apply half_moderate_m; apply (grid_half_moderate f K); auto; [lia|nia]).
  destruct (C84_line_contains_point p v q l a Hl Lq ltac:(unfold max_dim; fold n; lia) (grid_tame e M p ltac:(lia) ltac:(lia) Hp) (grid_tame e M q ltac:(lia) ltac:(lia) Hq) Mv Kv Fa Na _ (Lines.lproj_on (map FR p) (map FR v) (map FR q)) (Lines.lproj_perp _ _ _ OK LR)) as (r & Er & R1 & R2). cbv zeta in R1, R2.
  pose proof (noise_line (length p) e M _ (grid_sizes e M p q He M50 Lq Hp Hq)) as NO. set (er := (3 * INR (length p) + 22) * bpow radix2 (-53) * (dist (map FR p) (map FR q) + len (map FR p)) + bpow radix2 (-510)) in *. clearbody er.
  assert (KR : r = true <-> on_line (map FR p) (map FR v) (map FR q)). { split.
    - intro Q. destruct (Req_EM_T (dist (map FR q) (Lines.lproj (map FR p) (map FR v) (map FR q))) 0) as [Y|N0]; [apply (Lines.line_dist_zero _ _ _ OK LR); exact Y|]. exfalso. assert (N : ~ on_line (map FR p) (map FR v) (map FR q)) by (intro O; apply N0; apply (Lines.line_dist_zero _ _ _ OK LR); exact O). pose proof (line_gap e f M K p v q He Hf ltac:(lia) ltac:(lia) Lv' Lq BM BK Hp Hq Hv OK N) as G. rewrite R2 in Q; [discriminate|]. replace (bpow radix2 (e - 7)) with (2 * bpow radix2 (e - 8)) in G by (replace (e - 7)%Z with (1 + (e - 8))%Z by lia; rewrite (bpow_plus _ 1); simpl; lra). lra.
    - intro Q. apply R1. apply (Lines.line_dist_zero _ _ _ OK LR) in Q. rewrite Q. lra. }
  exists (r && b). subst l m. unfold line_is_close. cbn [l_point l_dir]. rewrite Er. cbn [bind]. unfold abs_tol_F in Eb. rewrite Eb. split; [reflexivity|]. rewrite andb_true_iff, KR, Kb. symmetry. apply (Lines.same_line_iff _ _ _ _ OK OK' LR).
Qed.
Print Assumptions C96_line_is_close.
Theorem C96_plane_is_close : forall e f g M K (p v q w : list flt) (l m : plane FNum) (a : flt), (-100 <= e <= 100)%Z -> (-100 <= f <= 100)%Z -> (-100 <= g <= 100)%Z -> (0 <= M)%Z -> (1 <= K)%Z -> length q = length p -> (Z.of_nat (length p) * (M * M) <= 2 ^ 50)%Z -> (Z.of_nat (length p) * (K * K) <= 2 ^ 14)%Z ->
  Forall (on_grid e M) p -> Forall (on_grid e M) q -> Forall (on_grid f K) v -> Forall (on_grid g K) w -> plane_new (N:=FNum) p v = Ok l -> plane_new (N:=FNum) q w = Ok m ->
  finite a -> equality_noise (length p) e M <= FR a <= rel_default -> FR a < bpow radix2 (e - 8) -> FR a < bpow radix2 (f + f) -> FR a < bpow radix2 (g + g) ->
  exists b, plane_is_close (MkTol (N:=FNum) (rel_tol tol_default) a) l m = Ok b /\ (b = true <-> forall X, on_plane (map FR p) (map FR v) X <-> on_plane (map FR q) (map FR w) X).
Proof.
  intros e f g M K p v q w l m a He Hf Hg PM PK Lq BM BK Hp Hq Hv Hw Hl Hm Fa Ha Hae Haf Hag. pose proof Hl as Hl0. apply plane_new_F in Hl0 as (El & Np & Lv). pose proof Hm as Hm0. apply plane_new_F in Hm0 as (Em & Nq & Lw). assert (Lv' : @length flt v = @length flt p) by exact Lv. assert (Lw' : @length flt w = @length flt q) by exact Lw.
  set (n := Z.of_nat (length p)) in *. assert (nn1 : (1 <= n)%Z) by (unfold n; destruct p; [contradiction|cbn [length]; lia]). assert (M50 : (0 <= M <= 2 ^ 25)%Z) by nia. assert (Nn : (n <= 2 ^ 14)%Z) by nia.
  assert (LN : forall p' v' k, plane_new (N:=FNum) p' v' = Ok k -> line_new (N:=FNum) p' v' = Ok (MkLine (N:=FNum) p' v')). { intros p' v' k Hk. unfold plane_new in Hk. unfold line_new. destruct (check_point_vector p' v') as [(x & y)| |] eqn:C; cbn [bind] in *; try discriminate. apply check_F in C as (-> & -> & _). reflexivity. }
  destruct (line_dir_nonzero f K p v _ Hf ltac:(lia) ltac:(rewrite Lv'; exact BK) (LN _ _ _ Hl) Hv) as (NZv & Kv). destruct (line_dir_nonzero g K q w _ Hg ltac:(lia) ltac:(rewrite Lw', Lq; exact BK) (LN _ _ _ Hm) Hw) as (NZw & Kw). pose proof (pv_F p v Lv' Np NZv) as OK. pose proof (pv_F q w Lw' Nq NZw) as OK'.
  assert (LR : length (map FR q) = length (map FR p)) by (rewrite !map_length; exact Lq). assert (Nv : v <> []) by (intro Q; rewrite Q in Lv'; destruct p; [contradiction|discriminate]).
  assert (Na : 0 <= FR a) by (eapply Rle_trans; [|apply Ha]; unfold equality_noise; pose proof (pos_INR (length p)); pose proof (bpow_ge_0 radix2 (-510)); assert (0 <= (3 * INR (length p) + 22) * (3 * INR (length p)) * IZR M * bpow radix2 (e - 53)) by (repeat apply Rmult_le_pos; try lra; [apply IZR_le; lia|apply bpow_ge_0]); lra).
  destruct (C96_is_parallel f g K K v w a ltac:(lia) ltac:(lia) PK PK Nv ltac:(rewrite Lw', Lv'; exact Lq) ltac:(rewrite Lv'; exact BK) Hv Hw Fa ltac:(split; [exact Na|apply Ha]) Haf Hag) as (b & Eb & Kb).
  assert (Mv : Forall moderate v) by (apply half_moderate_m; apply (grid_half_moderate f K); auto; [lia|nia]).
  destruct (C84_plane_contains_point p v q l a Hl Lq ltac:(unfold max_dim; fold n; lia) (tame_half _ (grid_tame e M p ltac:(lia) ltac:(lia) Hp)) (tame_half _ (grid_tame e M q ltac:(lia) ltac:(lia) Hq)) Mv Kv Fa Na) as (r & Er & R1 & R2). cbv zeta in R1, R2.
  pose proof (noise_line (length p) e M _ (grid_sizes e M p q He M50 Lq Hp Hq)) as NO. assert (NO' : (2 * INR (length p) + 12) * bpow radix2 (-53) * dist (map FR p) (map FR q) + bpow radix2 (-550) <= equality_noise (length p) e M).
  { eapply Rle_trans; [|exact NO]. assert (bpow radix2 (-550) <= bpow radix2 (-510)) by (apply bpow_le; lia). pose proof (pos_INR (length p)) as P1. pose proof (len_nonneg (map FR p)) as P2. pose proof (bpow_ge_0 radix2 (-53)) as P3. assert (P4 : 0 <= dist (map FR p) (map FR q)) by apply len_nonneg. apply Rplus_le_compat; [|auto]. apply Rmult_le_compat; [apply Rmult_le_pos; lra|auto|apply Rmult_le_compat_r; lra|lra]. }
  clear NO. set (er := (2 * INR (length p) + 12) * bpow radix2 (-53) * dist (map FR p) (map FR q) + bpow radix2 (-550)) in *. clearbody er.
  assert (KR : r = true <-> on_plane (map FR p) (map FR v) (map FR q)). { split.
    - intro Q. destruct (Req_EM_T (dot (sub (map FR q) (map FR p)) (map FR v)) 0) as [Y|N]; [split; auto|]. exfalso. assert (N' : ~ on_plane (map FR p) (map FR v) (map FR q)) by (intros (_ & O); contradiction). pose proof (plane_gap e f M K p v q He Hf ltac:(lia) ltac:(lia) Lv' Lq BM BK Hp Hq Hv OK N') as G. rewrite R2 in Q; [discriminate|]. replace (bpow radix2 (e - 7)) with (2 * bpow radix2 (e - 8)) in G by (replace (e - 7)%Z with (1 + (e - 8))%Z by lia; rewrite (bpow_plus _ 1); simpl; lra). lra.
    - intros (_ & Q). apply R1. rewrite Q, Rabs_R0. unfold Rdiv. rewrite Rmult_0_l. lra. }
  exists (r && b). subst l m. unfold plane_is_close. cbn [pl_point pl_normal]. rewrite Er. cbn [bind]. unfold abs_tol_F in Eb. rewrite Eb. split; [reflexivity|]. rewrite andb_true_iff, KR, Kb. symmetry. apply (Lines.same_plane_iff _ _ _ _ OK OK' LR).
Qed.
Print Assumptions C96_plane_is_close.

(** ** Without an absolute tolerance equal lines and planes are told apart *)
Lemma z_val : FR 0%float = 0. Proof. apply zero_F. Qed.
Lemma o_val : FR 1%float = 1. Proof. apply one_F. Qed.
Lemma v49 : FR 49%float = 49. Proof. erewrite FR_val by (vm_compute; reflexivity). simpl. unfold F2R. simpl. lra. Qed.
Lemma v3 : FR 3%float = 3. Proof. erewrite FR_val by (vm_compute; reflexivity). simpl. unfold F2R. simpl. lra. Qed.
Lemma v4 : FR 4%float = 4. Proof. erewrite FR_val by (vm_compute; reflexivity). simpl. unfold F2R. simpl. lra. Qed.
Lemma vm4 : FR (-4)%float = -4. Proof. erewrite FR_val by (vm_compute; reflexivity). simpl. unfold F2R. simpl. lra. Qed.
Theorem C96_default_tolerance_refuted :
  (exists (p v q w : list flt) (l m : line FNum), Forall (on_grid 0 49) p /\ Forall (on_grid 0 49) v /\ Forall (on_grid 0 49) q /\ Forall (on_grid 0 49) w /\ line_new (N:=FNum) p v = Ok l /\ line_new (N:=FNum) q w = Ok m /\
     (forall X, on_line (map FR p) (map FR v) X <-> on_line (map FR q) (map FR w) X) /\ line_is_close (N:=FNum) tol_default l m = Ok false /\ line_is_close (N:=FNum) tol_default m l = Ok true) /\
  (exists (p v q : list flt) (l m : plane FNum), Forall (on_grid 0 4) p /\ Forall (on_grid 0 4) v /\ Forall (on_grid 0 4) q /\ plane_new (N:=FNum) p v = Ok l /\ plane_new (N:=FNum) q v = Ok m /\
     (forall X, on_plane (map FR p) (map FR v) X <-> on_plane (map FR q) (map FR v) X) /\ plane_is_close (N:=FNum) tol_default l m = Ok false).
Proof.
  split.
  - exists [0; 0]%float, [49; 0]%float, [1; 0]%float, [1; 0]%float. eexists. eexists. do 4 (split; [constructor; [first [lit 0%Z|lit 49%Z|lit 1%Z]|constructor; [lit 0%Z|constructor]]|]). split; [reflexivity|]. split; [reflexivity|]. split; [|split; reflexivity].
    cbn [map]. rewrite z_val, o_val, v49. apply Lines.same_line_iff; try reflexivity; [split; [reflexivity|]; split; [intro Q; injection Q; intros; lra|discriminate]|split; [reflexivity|]; split; [intro Q; injection Q; intros; lra|discriminate]|].
    split; [exists (/ 49)|right; exists (/ 49)]; cbn; (apply f_equal2; [lra|apply f_equal2; [lra|reflexivity]]).
  - exists [0; 0; 0]%float, [0; 3; 4]%float, [0; -4; 3]%float. eexists. eexists. split; [constructor; [lit 0%Z|constructor; [lit 0%Z|constructor; [lit 0%Z|constructor]]]|]. split; [constructor; [lit 0%Z|constructor; [lit 3%Z|constructor; [lit 4%Z|constructor]]]|]. split; [constructor; [lit 0%Z|constructor; [lit (-4)%Z|constructor; [lit 3%Z|constructor]]]|].
    split; [reflexivity|]. split; [reflexivity|]. split; [|reflexivity]. cbn [map]. rewrite z_val, v3, v4, vm4. apply Lines.same_plane_iff; try reflexivity; [split; [reflexivity|]; split; [intro Q; injection Q; intros; lra|discriminate]|split; [reflexivity|]; split; [intro Q; injection Q; intros; lra|discriminate]|].
    split; [split; [reflexivity|cbn; lra]|]. right. exists 1. cbn. apply f_equal2; [lra|apply f_equal2; [lra|apply f_equal2; [lra|reflexivity]]].
Qed.
Print Assumptions C96_default_tolerance_refuted.

(** ** The hypotheses are met: whole numbers up to 1000, abs_tol=1e-9 *)
Theorem C96_nonvacuous : let a := 1e-9%float in finite a /\ equality_noise 2 0 1000 <= FR a <= rel_default /\ FR a < bpow radix2 (0 - 8) /\ FR a < bpow radix2 (0 + 0) /\ (Z.of_nat 2 * (1000 * 1000) <= 2 ^ 50)%Z /\ (Z.of_nat 2 * (49 * 49) <= 2 ^ 14)%Z /\
  exists l m k : line FNum, line_new (N:=FNum) [0; 0]%float [49; 0]%float = Ok l /\ line_new (N:=FNum) [1; 0]%float [1; 0]%float = Ok m /\ line_new (N:=FNum) [1; 1]%float [1; 0]%float = Ok k /\
    line_is_close (MkTol (N:=FNum) (rel_tol tol_default) a) l m = Ok true /\ line_is_close (MkTol (N:=FNum) (rel_tol tol_default) a) l k = Ok false /\
  exists pl pm pk : plane FNum, plane_new (N:=FNum) [0; 0; 0]%float [0; 3; 4]%float = Ok pl /\ plane_new (N:=FNum) [0; -4; 3]%float [0; -3; -4]%float = Ok pm /\ plane_new (N:=FNum) [0; -4; 3]%float [0; 4; 3]%float = Ok pk /\
    plane_is_close (MkTol (N:=FNum) (rel_tol tol_default) a) pl pm = Ok true /\ plane_is_close (MkTol (N:=FNum) (rel_tol tol_default) a) pl pk = Ok false.
Proof.
  cbv zeta. assert (E : FR 1e-9%float = rel_default) by (rewrite <- (proj2 relF_val); reflexivity). pose proof rel_default_small as (R1 & R2). pose proof (bpow_gt_0 radix2 (-30)) as B30. split; [reflexivity|]. rewrite E. split.
  { split; [|lra]. unfold equality_noise. assert (B510 : bpow radix2 (-510) <= bpow radix2 (-40)) by (apply bpow_le; lia). replace (bpow radix2 (0 - 53)) with (bpow radix2 (-13) * bpow radix2 (-40)) by (rewrite <- bpow_plus; reflexivity). replace (bpow radix2 (-40)) with (/ 1024 * bpow radix2 (-30)) in * by (change (-40)%Z with (-10 + -30)%Z; rewrite bpow_plus; simpl; lra). replace (bpow radix2 (-13)) with (/ 8192) by (simpl; lra). replace (INR 2) with 2 by (simpl; lra). lra. }
  assert (B8 : bpow radix2 (-8) = / 256) by (simpl; lra). split; [change (0 - 8)%Z with (-8)%Z; rewrite B8; lra|]. split; [change (bpow radix2 (0 + 0)) with 1; lra|]. split; [lia|]. split; [lia|].
  do 3 eexists. split; [reflexivity|]. split; [reflexivity|]. split; [reflexivity|]. split; [reflexivity|]. split; [reflexivity|]. do 3 eexists. split; [reflexivity|]. split; [reflexivity|]. split; [reflexivity|]. split; reflexivity.
Qed.
Print Assumptions C96_nonvacuous.
