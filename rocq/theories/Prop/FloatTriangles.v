(** * Property C99: triangles measured in double precision *)
From Coq Require Import String Reals List ZArith Floats Lra Lia Psatz Bool.
From Flocq Require Import Core BinarySingleNaN.
From Flocq Require Import IEEE754.PrimFloat.
From Verif.Model Require Import Outcome Num Instances Numpy BaseArray Vector Points Functions Line Plane Sphere Triangle.
From Verif.Spec Require Import Geometry Tolerance Floats Measure Summation Grid.
From Verif.Proof Require Import VecAlg Bridge Vectors Floats FloatErr.
From Verif.Prop Require Import Floats Accuracy AnyOrder Decisions Projections FloatShapes Grid GridCircles GridTriangles.
Import ListNotations.
Local Open Scope R_scope.

(** ** One side *)
Lemma dist_421 (a b : list flt) : length b = length a -> (Z.of_nat (length a) <= max_dim)%Z -> Forall tame a -> Forall tame b -> dist (map FR a) (map FR b) <= bpow radix2 421.
Proof.
  intros L Ln Ha Hb. pose proof (len_410 a Ln Ha) as A. assert (Lnb : (Z.of_nat (length b) <= max_dim)%Z) by (rewrite L; exact Ln). pose proof (len_410 b Lnb Hb) as B.
  set (n := length a) in *. assert (La' : length (map FR a) = n) by apply map_length. assert (Lb' : length (map FR b) = n) by (rewrite map_length; exact L).
  pose proof (dist_triangle (map FR a) (origin n) (map FR b) ltac:(rewrite length_origin; exact La') ltac:(congruence)) as T.
  rewrite (dist_sym (origin n)) in T. unfold dist at 2 3 in T. rewrite (sub_origin_r _ n La'), (sub_origin_r _ n Lb') in T. change 421%Z with (1 + 420)%Z. rewrite bpow_plus. change (bpow radix2 1) with 2. lra.
Qed.
Lemma side_len (a b : list flt) : a <> [] -> length b = length a -> (Z.of_nat (length a) <= max_dim)%Z -> Forall tame a -> Forall tame b -> bpow radix2 (-399) <= dist (map FR a) (map FR b) ->
  exists r, (let* ln := line_from_points (N:=FNum) a b in norm (l_dir ln)) = Ok r /\ finite r /\
    Rabs (FR r - dist (map FR a) (map FR b)) <= (INR (length a) + 5) * bpow radix2 (-53) * dist (map FR a) (map FR b) + bpow radix2 (-520).
Proof.
  intros Na Lb Ln Ha Hb D. pose proof (tame_half _ Ha) as Ha'. pose proof (tame_half _ Hb) as Hb'. destruct (from_points_F a b Na (eq_sym Lb) Ha' Hb') as (E & Ls & M & C).
  destruct (C73_distance_accurate a b Na (eq_sym Lb) Ln (half_moderate_m _ Ha') (half_moderate_m _ Hb')) as (r & Er & Fr & Hr). exists r. split; [|auto]. rewrite <- Er. unfold distance_point, line_from_points. rewrite E. cbn [bind].
  set (d := map2 (N:=FNum) PrimFloat.sub b a) in *. assert (Nd : d <> []) by (intro Z; rewrite Z in Ls; destruct a; [contradiction|discriminate Ls]).
  unfold line_new, check_point_vector. change (point_of (N:=FNum)) with (vector_of (N:=FNum)). rewrite (vector_of_ok a Na (moderate_finite _ (half_moderate_m _ Ha'))). cbn [bind]. rewrite (vector_of_ok d Nd (moderate_finite _ M)). cbn [bind]. unfold dim1.
  assert (Eq : Nat.eqb (@length flt a) (@length flt d) = true) by (apply Nat.eqb_eq; exact (eq_sym Ls)). refine (eq_trans (f_equal (fun b : bool => bind (bind (if negb b then _ else _) _) _) Eq) _). cbn [negb].
  assert (NZ : is_zero (N:=FNum) tol_default d = Ok false). { apply not_zero_F; [exact (eq_ind_r (fun n => (Z.of_nat n <= max_dim)%Z) Ln Ls)|exact M|]. apply (len_half _ _ C). rewrite dist_sym in D. exact D. }
  rewrite NZ. reflexivity.
Qed.

(** The relative error of one side *)
Lemma side_rel (a b : list flt) r : length b = length a -> (Z.of_nat (length a) <= max_dim)%Z -> Forall tame a -> Forall tame b -> bpow radix2 (-399) <= dist (map FR a) (map FR b) -> finite r ->
  Rabs (FR r - dist (map FR a) (map FR b)) <= (INR (length a) + 5) * bpow radix2 (-53) * dist (map FR a) (map FR b) + bpow radix2 (-520) ->
  Rabs (FR r - dist (map FR a) (map FR b)) <= 2 * bpow radix2 (-30) * dist (map FR a) (map FR b) /\ normal_size r /\ Rabs (FR r) <= bpow radix2 422.
Proof.
  intros L Ln Ha Hb D Fr H. pose proof (dist_421 a b L Ln Ha Hb) as U. set (x := dist (map FR a) (map FR b)) in *. pose proof (ndim_small (length a) 5 Ln ltac:(lia)) as K. fold uro in H. pose proof (bpow_gt_0 radix2 (-399)) as B0.
  assert (K' : (INR (length a) + 5) * uro * x <= bpow radix2 (-30) * x) by (apply Rmult_le_compat_r; lra).
  assert (T : bpow radix2 (-520) <= bpow radix2 (-30) * x). { apply Rle_trans with (bpow radix2 (-30) * bpow radix2 (-399)); [rewrite <- bpow_plus; apply bpow_le; lia|apply Rmult_le_compat_l; [apply bpow_ge_0|exact D]]. }
  assert (E : Rabs (FR r - x) <= 2 * bpow radix2 (-30) * x) by lra. split; [exact E|].
  assert (B30 : bpow radix2 (-30) <= / 4) by (change (/ 4) with (bpow radix2 (-2)); apply bpow_le; lia). assert (B31 : bpow radix2 (-30) * x <= / 4 * x) by (apply Rmult_le_compat_r; lra). apply Rabs_le_inv in E.
  assert (B4 : bpow radix2 422 = 2 * bpow radix2 421) by (change 422%Z with (1 + 421)%Z; rewrite bpow_plus; reflexivity).
  split; [|rewrite Rabs_pos_eq by lra; lra]. split; [exact Fr|]. assert (B5 : bpow radix2 (-800) <= / 2 * bpow radix2 (-399)) by (change (/ 2) with (bpow radix2 (-1)); rewrite <- bpow_plus; apply bpow_le; lia). assert (B6 : bpow radix2 422 <= bpow radix2 800) by (apply bpow_le; lia). lra.
Qed.

(** ** Triangles *)
Definition side_ok (a b : list flt) : Prop := bpow radix2 (-399) <= dist (map FR a) (map FR b).
Theorem C99_length : forall LA (a b c : list flt) t, triangle_new (N:=FNum) LA a b c = Ok t -> (Z.of_nat (length a) <= max_dim)%Z -> Forall tame a -> Forall tame b -> Forall tame c ->
  bpow radix2 (-399) <= dist (map FR b) (map FR c) -> bpow radix2 (-399) <= dist (map FR c) (map FR a) -> bpow radix2 (-399) <= dist (map FR a) (map FR b) ->
  let close (r : flt) (d : R) := finite r /\ Rabs (FR r - d) <= (INR (length a) + 5) * bpow radix2 (-53) * d + bpow radix2 (-520) in
  exists x y z, triangle_length t "a" = Ok x /\ triangle_length t "b" = Ok y /\ triangle_length t "c" = Ok z /\ triangle_lengths t = Ok [x; y; z] /\
    close x (dist (map FR b) (map FR c)) /\ close y (dist (map FR c) (map FR a)) /\ close z (dist (map FR a) (map FR b)).
Proof.
  intros LA a b c t Ht Ln Ha Hb Hc D1 D2 D3 close. assert (FT : forall v, Forall tame v -> Forall finite v) by (intros v; apply Forall_impl; intros x (F & _); exact F).
  apply triangle_shape in Ht as (-> & Na & Lb & Lc); auto. assert (Nb : b <> []) by (intro Z; subst b; apply Na; destruct a; [reflexivity|discriminate]). assert (Nc : c <> []) by (intro Z; subst c; apply Na; destruct a; [reflexivity|discriminate]).
  assert (Lbc : length c = length b) by congruence.
  destruct (side_len b c Nb Lbc ltac:(rewrite Lb; exact Ln) Hb Hc D1) as (x & E1 & F1 & B1). destruct (side_len c a Nc (eq_sym Lc) ltac:(rewrite Lc; exact Ln) Hc Ha D2) as (y & E2 & F2 & B2). destruct (side_len a b Na Lb Ln Ha Hb D3) as (z & E3 & F3 & B3).
  rewrite Lb in B1. rewrite Lc in B2. exists x, y, z. split; [exact E1|]. split; [exact E2|]. split; [exact E3|]. split; [|unfold close; auto].
  unfold triangle_lengths. cbn [mapM]. change (triangle_length (MkTriangle (N:=FNum) a b c) "a") with (let* ln := line_from_points (N:=FNum) b c in norm (l_dir ln)). change (triangle_length (MkTriangle (N:=FNum) a b c) "b") with (let* ln := line_from_points (N:=FNum) c a in norm (l_dir ln)). change (triangle_length (MkTriangle (N:=FNum) a b c) "c") with (let* ln := line_from_points (N:=FNum) a b in norm (l_dir ln)).
  rewrite E1, E2, E3. reflexivity.
Qed.
Print Assumptions C99_length.

Theorem C99_perimeter : forall LA (a b c : list flt) t, triangle_new (N:=FNum) LA a b c = Ok t -> (Z.of_nat (length a) <= max_dim)%Z -> Forall tame a -> Forall tame b -> Forall tame c ->
  bpow radix2 (-399) <= dist (map FR b) (map FR c) -> bpow radix2 (-399) <= dist (map FR c) (map FR a) -> bpow radix2 (-399) <= dist (map FR a) (map FR b) ->
  let P := dist (map FR b) (map FR c) + dist (map FR c) (map FR a) + dist (map FR a) (map FR b) in
  exists r, triangle_perimeter t = Ok r /\ finite r /\ Rabs (FR r - P) <= (INR (length a) + 8) * bpow radix2 (-53) * P + bpow radix2 (-518).
Proof.
  intros LA a b c t Ht Ln Ha Hb Hc D1 D2 D3 P. destruct (C99_length LA a b c t Ht Ln Ha Hb Hc D1 D2 D3) as (x & y & z & _ & _ & _ & El & (F1 & B1) & (F2 & B2) & (F3 & B3)).
  assert (FT : forall v, Forall tame v -> Forall finite v) by (intros v; apply Forall_impl; intros w (F & _); exact F). pose proof (triangle_shape LA a b c t (FT _ Ha) (FT _ Hb) (FT _ Hc) Ht) as (_ & Na & Lb & Lc).
  destruct (side_rel b c x ltac:(congruence) ltac:(rewrite Lb; exact Ln) Hb Hc D1 F1 ltac:(rewrite Lb; exact B1)) as (R1 & _ & U1). destruct (side_rel c a y ltac:(congruence) ltac:(rewrite Lc; exact Ln) Hc Ha D2 F2 ltac:(rewrite Lc; exact B2)) as (R2 & _ & U2). destruct (side_rel a b z Lb Ln Ha Hb D3 F3 B3) as (R3 & _ & U3).
  set (X := dist (map FR b) (map FR c)) in *. set (Y := dist (map FR c) (map FR a)) in *. set (W := dist (map FR a) (map FR b)) in *. set (k := (INR (length a) + 5) * bpow radix2 (-53)) in *.
  assert (B30 : bpow radix2 (-30) <= / 4096) by (apply Rle_trans with (bpow radix2 (-12)); [apply bpow_le; lia|simpl; lra]). pose proof (bpow_gt_0 radix2 (-399)) as P0. assert (Q : forall T, bpow radix2 (-399) <= T -> 2 * bpow radix2 (-30) * T <= / 2048 * T) by (intros T HT; apply Rmult_le_compat_r; lra).
  pose proof (Q X D1) as Q1. pose proof (Q Y D2) as Q2. pose proof (Q W D3) as Q3. clear Q. apply Rabs_le_inv in R1, R2, R3. rewrite Rabs_pos_eq in U1, U2, U3 by lra. destruct uro_small as (Up & Us). pose proof eta_pos as Et. pose proof uro_tiny as Ut.
  assert (B428 : forall s, 0 <= s <= 8 * bpow radix2 422 -> Rabs (rnd s) < bpow radix2 1024). { intros s (S0 & S1). eapply Rle_lt_trans; [apply (rnd_bpow_le _ 425); [lia|]|apply bpow_lt; lia]. rewrite Rabs_pos_eq by lra. change 425%Z with (3 + 422)%Z. rewrite bpow_plus. change (bpow radix2 3) with 8. lra. }
  destruct zero_F as (Z0 & Fz).
  destruct (fin_add z 0%float F3 Fz) as (G1 & H1). { rewrite Z0, Rplus_0_r. apply B428. lra. } rewrite Z0, Rplus_0_r, (rnd_FR z F3) in H1.
  pose proof (rnd_err (FR y + FR z)) as N2. rewrite (Rabs_pos_eq (FR y + FR z)) in N2 by lra.
  destruct (fin_add y (z + 0)%float F2 G1) as (G2 & H2). { rewrite H1. apply B428. lra. } rewrite H1 in H2. rewrite <- H2 in N2.
  assert (e1 : eta <= / 1024 * bpow radix2 (-520)). { change (/ 1024) with (bpow radix2 (-10)). unfold eta. rewrite <- bpow_plus. apply bpow_le. lia. }
  assert (e2 : bpow radix2 (-520) <= / 1024 * bpow radix2 (-399)) by (change (/ 1024) with (bpow radix2 (-10)); rewrite <- bpow_plus; apply bpow_le; lia).
  assert (uy : 0 <= uro * (FR y + FR z) <= / 1000000 * (FR y + FR z)) by (split; [apply Rmult_le_pos; lra|apply Rmult_le_compat_r; lra]). set (s2 := FR (y + (z + 0))%float) in *. apply Rabs_le_inv in N2.
  pose proof (rnd_err (FR x + s2)) as N3. rewrite (Rabs_pos_eq (FR x + s2)) in N3 by lra.
  destruct (fin_add x (y + (z + 0))%float F1 G2) as (G3 & H3). { fold s2. apply B428. lra. } fold s2 in H3. rewrite <- H3 in N3.
  exists (x + (y + (z + 0)))%float. split; [unfold triangle_perimeter; rewrite El; reflexivity|]. split; [exact G3|].
  assert (v1 : uro * (FR y + FR z) <= uro * ((1 + / 2048) * (Y + W))) by (apply Rmult_le_compat_l; lra). assert (v2 : uro * (FR x + s2) <= uro * ((1 + / 1024) * P)) by (unfold P; apply Rmult_le_compat_l; lra). apply Rabs_le_inv in N3, B1, B2, B3. apply Rabs_le.
  replace ((INR (length a) + 8) * bpow radix2 (-53) * P) with (k * X + k * Y + k * W + 3 * (uro * P)) by (unfold k, P, uro; ring). assert (vX : 0 <= uro * X) by (apply Rmult_le_pos; lra). assert (vY : 0 <= uro * Y) by (apply Rmult_le_pos; lra). assert (vW : 0 <= uro * W) by (apply Rmult_le_pos; lra).
  assert (E518 : bpow radix2 (-518) = 4 * bpow radix2 (-520)) by (change (-518)%Z with (2 + -520)%Z; rewrite bpow_plus; reflexivity). unfold P in *. lra.
Qed.
Print Assumptions C99_perimeter.

Theorem C99_area : forall LA (a b c : list flt) t, triangle_new (N:=FNum) LA a b c = Ok t -> (length a <= 3)%nat -> Forall modest a -> Forall modest b -> Forall modest c ->
  exists s, triangle_area t = Ok s /\ finite s /\ 0 <= FR s /\
    forall h, min_dist (on_line (map FR a) (sub (map FR b) (map FR a))) (map FR c) h ->
      Rabs (FR s - dist (map FR a) (map FR b) * h / 2) <= 7 * bpow radix2 (-53) * (dist (map FR a) (map FR b) * dist (map FR a) (map FR c)) + bpow radix2 (-519).
Proof.
  intros LA a b c t Ht L3 Ha Hb Hc. assert (FT : forall v, Forall modest v -> Forall finite v) by (intros v; apply Forall_impl; intros w (F & _); exact F). apply triangle_shape in Ht as (-> & Na & Lb & Lc); auto.
  destruct (C85_area_triangle a b c Na Lb Lc L3 Ha Hb Hc) as (s & Es & Hs). exists s. split; [|exact Hs]. rewrite <- Es. unfold triangle_area, triangle_normal, area_triangle. cbn [t_a t_b t_c].
  destruct (from_points (N:=FNum) a b) as [v| |]; cbn [bind]; try reflexivity. destruct (from_points (N:=FNum) a c) as [w| |]; cbn [bind]; reflexivity.
Qed.
Print Assumptions C99_area.

Theorem C99_centroid : forall LA (a b c : list flt) t, triangle_new (N:=FNum) LA a b c = Ok t -> Forall moderate a -> Forall moderate b -> Forall moderate c ->
  exists m, triangle_centroid t = Ok m /\ length m = length a /\ Forall finite m /\
    forall j, (j < length a)%nat -> let p := FR (nth j a 0%float) in let q := FR (nth j b 0%float) in let r := FR (nth j c 0%float) in
      Rabs (FR (nth j m 0%float) - (p + q + r) / 3) <= 5 * bpow radix2 (-53) * ((Rabs p + Rabs q + Rabs r) / 3) + bpow radix2 (-1075).
Proof.
  intros LA a b c t Ht Ha Hb Hc. apply triangle_shape in Ht as (-> & Na & Lb & Lc); try (apply moderate_finite; assumption). set (rows := [a; b; c] : list (list flt)).
  assert (Dp : (0 < length a)%nat) by (destruct a; [contradiction|cbn [length]; lia]). assert (LF : Forall (fun r => length r = length a) rows) by (repeat (apply Forall_cons; auto)). assert (MF : Forall (Forall moderate) rows) by (repeat (apply Forall_cons; auto)).
  destruct (C85_centroid (length a) rows ltac:(discriminate) Dp LF MF ltac:(vm_compute; discriminate)) as (m & Em & Lm & Fm & Hm). exists m. split.
  { unfold triangle_centroid. cbn [t_a t_b t_c]. refine (eq_trans (f_equal (fun r => bind r centroid) (points_of_ok rows (length a) ltac:(discriminate) Dp LF _)) Em). eapply Forall_impl; [|exact MF]. intros r. apply moderate_finite. }
  split; [exact Lm|]. split; [exact Fm|]. intros j Hj p q r. pose proof (Hm j Hj) as H. cbv zeta in H. unfold rows in H. cbn [map length INR] in H. fold p q r in H. unfold Rsum in H. cbn in H. fold p q r in H.
  replace (p + q + r) with (p + (q + (r + 0))) by ring. replace (Rabs p + Rabs q + Rabs r) with (Rabs p + (Rabs q + (Rabs r + 0))) by ring. replace 3 with (1 + 1 + 1) by ring. replace 5 with (1 + 1 + 1 + 2) by ring. exact H.
Qed.
Print Assumptions C99_centroid.

(** ** classify with the default tolerances *)
(** Two lengths agreeing to within 4e-10 of the larger, and two lengths differing by at least 1.6e-9 of the larger. *)
Definition tied (x y : R) : Prop := Rabs (x - y) <= 0.4 * / 1000000000 * Rmax x y.
Definition apart (x y : R) : Prop := 1.6 * / 1000000000 * Rmax x y <= Rabs (x - y).
Lemma isclose_sides (x y : flt) X Y : normal_size x -> normal_size y -> 0 < X -> 0 < Y -> Rabs (FR x - X) <= / 1000000000000 * X -> Rabs (FR y - Y) <= / 1000000000000 * Y -> tied X Y \/ apart X Y ->
  exists r, isclose (N:=FNum) tol_default x y = Ok r /\ ((r = true /\ tied X Y) \/ (r = false /\ apart X Y)).
Proof.
  intros Nx Ny PX PY Hx Hy H. destruct (isclose_sep x y Nx Ny) as (r & E & R1 & R2). exists r. split; [exact E|]. destruct Nx as (_ & Bx & _). destruct Ny as (_ & By & _). pose proof (bpow_gt_0 radix2 (-800)) as P0. apply Rabs_le_inv in Hx, Hy. unfold tied, apart in *.
  assert (MX : X <= Rmax X Y) by apply Rmax_l. assert (MY : Y <= Rmax X Y) by apply Rmax_r. assert (mx : FR x <= Rmax (FR x) (FR y)) by apply Rmax_l. assert (my : FR y <= Rmax (FR x) (FR y)) by apply Rmax_r.
  assert (M1 : Rmax X Y <= (1 + 2 * / 1000000000000) * Rmax (FR x) (FR y)) by (apply Rmax_lub; lra). assert (M2 : Rmax (FR x) (FR y) <= (1 + / 1000000000000) * Rmax X Y) by (apply Rmax_lub; lra).
  assert (D : Rabs ((FR x - FR y) - (X - Y)) <= 2 * / 1000000000000 * Rmax X Y) by (apply Rabs_le; lra). set (M := Rmax X Y) in *. set (m := Rmax (FR x) (FR y)) in *.
  pose proof (Rabs_triang ((FR x - FR y) - (X - Y)) (X - Y)) as T1. replace ((FR x - FR y) - (X - Y) + (X - Y)) with (FR x - FR y) in T1 by ring. pose proof (Rabs_triang ((X - Y) - (FR x - FR y)) (FR x - FR y)) as T2. replace ((X - Y) - (FR x - FR y) + (FR x - FR y)) with (X - Y) in T2 by ring. rewrite (Rabs_minus_sym (X - Y)) in T2.
  destruct H as [H|H]; [left|right]; (split; [|exact H]); [apply R1|apply R2]; lra.
Qed.
Theorem C99_classify : forall LA (a b c : list flt) t, triangle_new (N:=FNum) LA a b c = Ok t -> (length a <= 1000)%nat -> Forall tame a -> Forall tame b -> Forall tame c ->
  let x := dist (map FR b) (map FR c) in let y := dist (map FR c) (map FR a) in let z := dist (map FR a) (map FR b) in
  bpow radix2 (-399) <= x -> bpow radix2 (-399) <= y -> bpow radix2 (-399) <= z ->
  tied x y \/ apart x y -> tied y z \/ apart y z -> tied x z \/ apart x z ->
  exists k, triangle_classify (N:=FNum) tol_default t = Ok k /\
    (k = "equilateral"%string <-> tied x y /\ tied y z /\ tied x z) /\
    (k = "isosceles"%string <-> (tied x y /\ apart y z /\ apart x z) \/ (tied y z /\ apart x y /\ apart x z) \/ (tied x z /\ apart x y /\ apart y z)) /\
    (k = "scalene"%string <-> apart x y /\ apart y z /\ apart x z).
Proof.
  intros LA a b c t Ht Ln0 Ha Hb Hc X Y W D1 D2 D3 Txy Tyz Txz. assert (Ln : (Z.of_nat (length a) <= max_dim)%Z) by (unfold max_dim; lia). destruct (C99_length LA a b c t Ht Ln Ha Hb Hc D1 D2 D3) as (x & y & z & _ & _ & _ & El & (F1 & B1) & (F2 & B2) & (F3 & B3)).
  assert (FT : forall v, Forall tame v -> Forall finite v) by (intros v; apply Forall_impl; intros w (F & _); exact F). pose proof (triangle_shape LA a b c t (FT _ Ha) (FT _ Hb) (FT _ Hc) Ht) as (_ & Na & Lb & Lc).
  destruct (side_rel b c x ltac:(congruence) ltac:(rewrite Lb; exact Ln) Hb Hc D1 F1 ltac:(rewrite Lb; exact B1)) as (_ & N1 & _). destruct (side_rel c a y ltac:(congruence) ltac:(rewrite Lc; exact Ln) Hc Ha D2 F2 ltac:(rewrite Lc; exact B2)) as (_ & N2 & _). destruct (side_rel a b z Lb Ln Ha Hb D3 F3 B3) as (_ & N3 & _).
  fold X in B1. fold Y in B2. fold W in B3. pose proof (bpow_gt_0 radix2 (-399)) as P0.
  assert (K : (INR (length a) + 5) * bpow radix2 (-53) <= / 2000000000000). { assert (In : INR (length a) <= 1000) by (apply le_INR in Ln0; replace 1000 with (INR 1000) by (rewrite INR_IZR_INZ; reflexivity); exact Ln0). apply Rle_trans with (1005 * bpow radix2 (-53)); [apply Rmult_le_compat_r; [apply bpow_ge_0|lra]|simpl; lra]. }
  assert (G : forall (r : flt) d, bpow radix2 (-399) <= d -> Rabs (FR r - d) <= (INR (length a) + 5) * bpow radix2 (-53) * d + bpow radix2 (-520) -> Rabs (FR r - d) <= / 1000000000000 * d).
  { intros r d Hd H. assert (V : (INR (length a) + 5) * bpow radix2 (-53) * d <= / 2000000000000 * d) by (apply Rmult_le_compat_r; lra). assert (T : bpow radix2 (-520) <= / 2000000000000 * d). { apply Rle_trans with (bpow radix2 (-100) * bpow radix2 (-399)); [rewrite <- bpow_plus; apply bpow_le; lia|]. apply Rmult_le_compat; [apply bpow_ge_0|apply bpow_ge_0|simpl; lra|exact Hd]. } lra. }
  apply (G _ _ D1) in B1. apply (G _ _ D2) in B2. apply (G _ _ D3) in B3. clear G K.
  destruct (isclose_sides x y X Y N1 N2 ltac:(lra) ltac:(lra) B1 B2 Txy) as (r1 & E1 & O1). destruct (isclose_sides x z X W N1 N3 ltac:(lra) ltac:(lra) B1 B3 Txz) as (r2 & E2 & O2). destruct (isclose_sides y z Y W N2 N3 ltac:(lra) ltac:(lra) B2 B3 Tyz) as (r3 & E3 & O3).
  unfold triangle_classify. rewrite El. cbn [bind]. rewrite E1, E2, E3. cbn [bind]. assert (Ex : forall u v, 0 < u -> 0 < v -> tied u v -> apart u v -> False). { intros u v Hu Hv A B. unfold tied, apart in *. pose proof (Rmax_l u v). lra. }
  assert (Tr : forall u v w, 0 < u -> 0 < v -> 0 < w -> tied u v -> tied v w -> apart u w -> False).
  { intros u v w Hu Hv Hw A B C. unfold tied, apart in *. assert (Rabs (u - w) <= Rabs (u - v) + Rabs (v - w)) by (replace (u - w) with ((u - v) + (v - w)) by ring; apply Rabs_triang). pose proof (Rmax_l u w) as m1. pose proof (Rmax_r u w) as m2.
    assert (v <= (1 + / 100000000) * Rmax u w). { unfold Rmax in A at 1. destruct (Rle_dec u v); [apply Rabs_le_inv in A; lra|lra]. } assert (Rmax u v <= (1 + / 100000000) * Rmax u w) by (apply Rmax_lub; lra). assert (Rmax v w <= (1 + / 100000000) * Rmax u w) by (apply Rmax_lub; lra). lra. }
  assert (Sy : forall u v, tied u v -> tied v u) by (intros u v; unfold tied; rewrite Rmax_comm, Rabs_minus_sym; auto). assert (Sa : forall u v, apart u v -> apart v u) by (intros u v; unfold apart; rewrite Rmax_comm, Rabs_minus_sym; auto).
  assert (PX : 0 < X) by lra. assert (PY : 0 < Y) by lra. assert (PW : 0 < W) by lra. pose proof (Ex X Y PX PY) as x1. pose proof (Ex Y W PY PW) as x2. pose proof (Ex X W PX PW) as x3. pose proof (Tr X Y W PX PY PW) as t1. pose proof (Tr Y X W PY PX PW) as t2. pose proof (Tr X W Y PX PW PY) as t3. pose proof (Sy X Y) as s1. pose proof (Sy Y W) as s2. pose proof (Sy X W) as s3. pose proof (Sa X Y) as s4.
  clear - O1 O2 O3 x1 x2 x3 t1 t2 t3 s1 s2 s3 s4.
  destruct O1 as [(-> & o1)|(-> & o1)], O2 as [(-> & o2)|(-> & o2)], O3 as [(-> & o3)|(-> & o3)]; cbn [Nat.add Nat.eqb]; try (exfalso; tauto); eexists; (split; [reflexivity|]); (split; [|split]); split; intro H; try discriminate H; try reflexivity; tauto.
Qed.
Print Assumptions C99_classify.

(** ** What the bounds do not cover *)
(** Two different vertices whose differences square to zero: the side cannot be measured, and neither can the perimeter, although the constructor accepts such a triangle (see [C99_tiny_side_nonvacuous]). *)
Theorem C99_tiny_side_refuted : dist (map FR [0; 0]%float) (map FR [1e-170; 0]%float) <> 0 /\
  forall c : list flt, let t := MkTriangle (N:=FNum) [0; 0]%float [1e-170; 0]%float c in
   triangle_length t "c" = Raise (ValueError "The vector must not be the zero vector.") /\ (forall l, triangle_perimeter t <> Ok l).
Proof.
  split.
  - assert (E : forall x, finite x -> FR x = 0 -> PrimFloat.eqb x 0 = true) by (intros x F E; apply eqb_F; [exact F|apply zero_F|rewrite E; symmetry; apply zero_F]).
    intro H. apply dist_zero_iff in H; [|reflexivity]. cbn [map] in H. injection H as H. rewrite (proj1 zero_F) in H. specialize (E 1e-170%float eq_refl (eq_sym H)). vm_compute in E. discriminate E.
  - intros c t. split; [reflexivity|]. intros l H. unfold triangle_perimeter, triangle_lengths in H. cbn [mapM] in H. destruct (triangle_length t "a") as [x| |]; cbn [bind] in H; try discriminate H. destruct (triangle_length t "b") as [y| |]; cbn [bind] in H; try discriminate H.
Qed.
Print Assumptions C99_tiny_side_refuted.
(** The triangle (0,0), (1e-170,0), (0,1e-170) is accepted by the constructor: its centred points have two singular values of the same size. *)
Example C99_tiny_side_nonvacuous : exists LA, triangle_new (N:=FNum) LA [0; 0]%float [1e-170; 0]%float [0; 1e-170]%float = Ok (MkTriangle (N:=FNum) [0; 0]%float [1e-170; 0]%float [0; 1e-170]%float).
Proof. exists (MkLinalg (N:=FNum) (fun _ => Ok ([], [1e-170; 0.57e-170]%float, [])) (fun _ _ => NonFinite) (fun _ _ => NonFinite)). reflexivity. Qed.
Print Assumptions C99_tiny_side_nonvacuous.
(** The triangle (0,0), (4,0), (0,3): every hypothesis of the theorems above holds, and the results are exact. *)
Example C99_nonvacuous : let a := [0; 0]%float in let b := [4; 0]%float in let c := [0; 3]%float in
  Forall tame a /\ Forall tame b /\ Forall tame c /\ Forall modest a /\ Forall modest b /\ Forall modest c /\
  dist (map FR b) (map FR c) = 5 /\ dist (map FR c) (map FR a) = 3 /\ dist (map FR a) (map FR b) = 4 /\ apart 5 3 /\ apart 3 4 /\ apart 5 4 /\ bpow radix2 (-399) <= 3 /\
  exists LA t, triangle_new (N:=FNum) LA a b c = Ok t /\ triangle_lengths t = Ok [5; 3; 4]%float /\ triangle_perimeter t = Ok 12%float /\ triangle_area t = Ok 6%float /\ triangle_centroid t = Ok [4 / 3; 1]%float /\
    triangle_classify (N:=FNum) tol_default t = Ok "scalene"%string.
Proof.
  cbv zeta. assert (E0 : FR 0%float = 0) by apply zero_F. assert (E3 : FR 3%float = 3) by (erewrite FR_val by (vm_compute; reflexivity); simpl; unfold F2R; simpl; lra). assert (E4 : FR 4%float = 4) by (erewrite FR_val by (vm_compute; reflexivity); simpl; unfold F2R; simpl; lra).
  assert (TM : forall z, finite z -> Rabs (FR z) <= 8 -> tame z /\ modest z). { intros z F A. split; (split; [exact F|]); (eapply Rle_trans; [exact A|apply Rle_trans with (bpow radix2 3); [simpl; lra|apply bpow_le; lia]]). }
  assert (T0 : tame 0%float /\ modest 0%float) by (apply TM; [reflexivity|rewrite E0, Rabs_pos_eq; lra]). assert (T3 : tame 3%float /\ modest 3%float) by (apply TM; [reflexivity|rewrite E3, Rabs_pos_eq; lra]). assert (T4 : tame 4%float /\ modest 4%float) by (apply TM; [reflexivity|rewrite E4, Rabs_pos_eq; lra]).
  destruct T0 as (T0 & M0). destruct T3 as (T3 & M3). destruct T4 as (T4 & M4). clear TM.
  split; [repeat (apply Forall_cons; auto)|]. split; [repeat (apply Forall_cons; auto)|]. split; [repeat (apply Forall_cons; auto)|]. split; [repeat (apply Forall_cons; auto)|]. split; [repeat (apply Forall_cons; auto)|]. split; [repeat (apply Forall_cons; auto)|].
  assert (Sq : forall p q r, 0 <= r -> p * p + q * q = r * r -> len [p; q] = r). { intros p q r Hr E. apply Rsqr_inj; [apply len_nonneg|exact Hr|]. unfold Rsqr. rewrite len_sq. cbn. lra. }
  cbn [map]. rewrite E0, E3, E4. unfold dist. cbn [sub]. split; [apply Sq; lra|]. split; [apply Sq; lra|]. split; [apply Sq; lra|]. unfold apart.
  split; [rewrite Rmax_left by lra; rewrite Rabs_pos_eq; lra|]. split; [rewrite Rmax_right by lra; rewrite Rabs_left; lra|]. split; [rewrite Rmax_left by lra; rewrite Rabs_pos_eq; lra|]. split; [apply Rle_trans with (bpow radix2 0); [apply bpow_le; lia|simpl; lra]|].
  exists (MkLinalg (N:=FNum) (fun _ => Ok ([], [3.7; 2.2]%float, [])) (fun _ _ => NonFinite) (fun _ _ => NonFinite)), (MkTriangle (N:=FNum) [0; 0]%float [4; 0]%float [0; 3]%float).
  split; [reflexivity|]. split; [reflexivity|]. split; [reflexivity|]. split; [reflexivity|]. split; [reflexivity|]. reflexivity.
Qed.
Print Assumptions C99_nonvacuous.
