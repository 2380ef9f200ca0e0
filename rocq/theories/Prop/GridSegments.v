(** * Property C93: where two line segments with whole-number endpoints meet, in double precision *)
From Coq Require Import String Reals List ZArith Floats Lra Lia Psatz Bool.
From Flocq Require Import Core BinarySingleNaN.
From Flocq Require Import IEEE754.PrimFloat.
From Verif.Model Require Import Outcome Num Instances Numpy BaseArray Vector Points Functions Line LineSegment.
From Verif.Spec Require Import Geometry Tolerance Floats Grid.
From Verif.Proof Require Import VecAlg Bridge Vectors Floats FloatErr.
From Verif.Prop Require Import Floats Accuracy AnyOrder Decisions Projections Grid GridCircles GridLines.
From Verif.Prop Require LinePairs Planes.
From Verif.Proof Require Lines Points.
Import ListNotations.
Local Open Scope R_scope.

(** ** A point very near a point of the line through a and b sees the endpoints in opposite directions exactly when that point is between them *)
Definition eps17 : R := / 131072.
Lemma between_scalar (t g h k D n : R) : 0 < D -> g = D * D -> 0 <= n -> Rabs h <= D * n -> 0 <= k <= n * n -> t <> 0 -> t <> 1 -> n <= eps17 * (Rabs t * D) -> n <= eps17 * (Rabs (1 - t) * D) ->
  let P := t * t * g - 2 * t * h + k in let Q := (1 - t) * (1 - t) * g + 2 * (1 - t) * h + k in let S := - (t * (1 - t)) * g + (1 - 2 * t) * h + k in
  / 4 * (t * t * g) <= P /\ / 4 * ((1 - t) * (1 - t) * g) <= Q /\ (1 - 3 / 10000000000) * (P * Q) <= S * S /\ (0 < t < 1 -> S < 0) /\ (t < 0 \/ 1 < t -> 0 < S).
Proof.
  intros HD Eg Hn Hh Hk N0 N1 B1 B2 P Q S. set (a := Rabs t) in *. set (b := Rabs (1 - t)) in *. unfold eps17 in *.
  assert (a0 : 0 < a) by (apply Rabs_pos_lt; auto). assert (b0 : 0 < b) by (apply Rabs_pos_lt; lra). assert (ab : 1 <= a + b) by (unfold a, b, Rabs; destruct (Rcase_abs t), (Rcase_abs (1 - t)); lra).
  assert (ta : t * t = a * a) by (unfold a, Rabs; destruct (Rcase_abs t); ring). assert (tb : (1 - t) * (1 - t) = b * b) by (unfold b, Rabs; destruct (Rcase_abs (1 - t)); ring). assert (Eab : Rabs (t * (1 - t)) = a * b) by apply Rabs_mult.
  set (x := a * D) in *. set (y := b * D) in *. assert (x0 : 0 < x) by (apply Rmult_lt_0_compat; auto). assert (y0 : 0 < y) by (apply Rmult_lt_0_compat; auto). assert (xy : D <= x + y) by (unfold x, y; nra).
  assert (th : Rabs (t * h) <= x * n). { rewrite Rabs_mult. fold a. unfold x. rewrite Rmult_assoc. apply Rmult_le_compat_l; lra. } assert (th' : Rabs ((1 - t) * h) <= y * n). { rewrite Rabs_mult. fold b. unfold y. rewrite Rmult_assoc. apply Rmult_le_compat_l; lra. }
  apply Rabs_le_inv in th, th'. assert (xx : t * t * g = x * x) by (rewrite ta, Eg; unfold x; ring). assert (yy : (1 - t) * (1 - t) * g = y * y) by (rewrite tb, Eg; unfold y; ring).
  assert (xn : x * n <= x * (/ 131072 * x)) by (apply Rmult_le_compat_l; lra). assert (yn : y * n <= y * (/ 131072 * y)) by (apply Rmult_le_compat_l; lra). assert (xn' : x * n <= x * (/ 131072 * y)) by (apply Rmult_le_compat_l; lra). assert (yn' : y * n <= y * (/ 131072 * x)) by (apply Rmult_le_compat_l; lra).
  assert (X2 : 0 < x * x) by (apply Rmult_lt_0_compat; auto). assert (Y2 : 0 < y * y) by (apply Rmult_lt_0_compat; auto). assert (XY : 0 < x * y) by (apply Rmult_lt_0_compat; auto).
  assert (PL : (1 - 2 * / 131072) * (x * x) <= P) by (unfold P; rewrite xx; lra). assert (QL : (1 - 2 * / 131072) * (y * y) <= Q) by (unfold Q; rewrite yy; lra).
  assert (nn : n * n <= (/ 131072 * x) * (/ 131072 * y)) by (apply Rmult_le_compat; lra).
  split; [rewrite xx; lra|]. split; [rewrite yy; lra|].
  assert (ES : S = - (t * (1 - t)) * g + ((1 - t) * h - t * h) + k) by (unfold S; ring). assert (Tg : Rabs (t * (1 - t) * g) = x * y) by (rewrite Rabs_mult, Eab, (Rabs_pos_eq g) by (rewrite Eg; apply Rmult_le_pos; lra); rewrite Eg; unfold x, y; ring).
  split; [|split].
  - assert (G : P * Q - S * S = g * k - h * h) by (unfold P, Q, S; ring). assert (gk : g * k <= 4 * (/ 131072 * / 131072) * ((x * x) * (y * y))).
    { rewrite Eg. assert (Q1 : D * D * k <= (D * D) * (n * n)) by (apply Rmult_le_compat_l; [apply Rmult_le_pos; lra|lra]).
      assert (Q2 : D * n <= 2 * (/ 131072) * (x * y)). { assert (D * n <= (x + y) * n) by (apply Rmult_le_compat_r; lra). lra. }
      assert (Q3 : (D * n) * (D * n) <= (2 * (/ 131072) * (x * y)) * (2 * (/ 131072) * (x * y))) by (apply Rmult_le_compat; auto; apply Rmult_le_pos; lra). lra. }
    assert (PQ : ((1 - 2 * / 131072) * (x * x)) * ((1 - 2 * / 131072) * (y * y)) <= P * Q) by (apply Rmult_le_compat; try lra; apply Rmult_le_pos; lra). assert (H2 : 0 <= h * h) by apply Rle_0_sqr. assert (XXYY : 0 <= (x * x) * (y * y)) by (apply Rmult_le_pos; lra).
    lra.
  - intro H. assert (E : Rabs (t * (1 - t) * g) = t * (1 - t) * g) by (apply Rabs_pos_eq; apply Rmult_le_pos; [apply Rmult_le_pos; lra|rewrite Eg; apply Rmult_le_pos; lra]). rewrite E in Tg. rewrite ES. lra.
  - intro H. assert (t * (1 - t) <= 0) by (destruct H; nra). assert (E : Rabs (t * (1 - t) * g) = - (t * (1 - t) * g)). { apply Rabs_left1. assert (0 <= g) by (rewrite Eg; apply Rmult_le_pos; lra). assert (0 <= - (t * (1 - t)) * g) by (apply Rmult_le_pos; lra). lra. } rewrite E in Tg. rewrite ES. lra.
Qed.
Lemma near_between (a b x : pt) (t n : R) : length b = length a -> length x = length a -> ~ is_zero_vec (sub b a) -> t <> 0 -> t <> 1 -> dist x (add a (scale t (sub b a))) <= n ->
  n <= eps17 * (Rabs t * len (sub b a)) -> n <= eps17 * (Rabs (1 - t) * len (sub b a)) ->
  let c := dot (sub a x) (sub b x) / (dist x a * dist x b) in
  / 2 * (Rabs t * len (sub b a)) <= dist x a /\ / 2 * (Rabs (1 - t) * len (sub b a)) <= dist x b /\ (0 < t < 1 -> c <= -1 + 3 / 10000000000) /\ (t < 0 \/ 1 < t -> 0 < c).
Proof.
  intros Lb Lx NZ N0 N1 Hn B1 B2 c. set (D := sub b a) in *. assert (LD : length D = length a) by (unfold D; rewrite length_sub, Lb; apply Nat.min_id). set (X := add a (scale t D)) in *. assert (LX : length X = length a) by (unfold X; len). set (E := sub X x). assert (LE : length E = length a) by (unfold E; len).
  assert (DP : 0 < len D) by (pose proof (len_nonneg D); destruct (Req_dec (len D) 0) as [Z|]; [exfalso; apply NZ; apply len_zero_iff; exact Z|lra]).
  assert (EA : sub a x = add (scale (- t) D) E). { apply Points.pt_ext; [len|]. intros i _. unfold E, X. repeat rewrite ?Points.nth_add, ?Points.nth_scale, ?Points.nth_sub by len. ring. }
  assert (EB : sub b x = add (scale (1 - t) D) E). { apply Points.pt_ext; [len|]. intros i _. unfold E, X. repeat rewrite ?Points.nth_add, ?Points.nth_scale, ?Points.nth_sub by len. unfold D. rewrite Points.nth_sub by len. ring. }
  assert (LenE : len E <= n) by (unfold E; change (dist X x <= n); rewrite dist_sym; exact Hn). pose proof (len_nonneg E) as E0.
  pose proof (cauchy_schwarz E D ltac:(congruence)) as CS. assert (Hh : Rabs (dot E D) <= len D * n). { eapply Rle_trans; [exact CS|]. rewrite Rmult_comm. apply Rmult_le_compat_l; lra. }
  assert (Hk : 0 <= dot E E <= n * n) by (rewrite <- len_sq; split; [apply Rmult_le_pos; lra|apply Rmult_le_compat; lra]).
  destruct (between_scalar t (dot D D) (dot E D) (dot E E) (len D) n DP ltac:(rewrite len_sq; reflexivity) ltac:(lra) Hh Hk N0 N1 B1 B2) as (PL & QL & SS & S1 & S2). cbv zeta in *.
  set (P := t * t * dot D D - 2 * t * dot E D + dot E E) in *. set (Q := (1 - t) * (1 - t) * dot D D + 2 * (1 - t) * dot E D + dot E E) in *. set (S := - (t * (1 - t)) * dot D D + (1 - 2 * t) * dot E D + dot E E) in *.
  assert (VP : dist x a * dist x a = P). { rewrite dist_sym. unfold dist. rewrite len_sq, EA. rewrite Points.dot_add_add by len. rewrite !dot_scale_l, dot_scale_r, (dot_comm D E). unfold P. ring. }
  assert (VQ : dist x b * dist x b = Q). { rewrite (dist_sym x b). unfold dist. rewrite len_sq, EB. rewrite Points.dot_add_add by len. rewrite !dot_scale_l, dot_scale_r, (dot_comm D E). unfold Q. ring. }
  assert (VS : dot (sub a x) (sub b x) = S). { rewrite EA, EB. rewrite !dot_add_l, !dot_add_r by len. rewrite !dot_scale_l, !dot_scale_r, (dot_comm D E). unfold S. ring. }
  pose proof (dist_nonneg x a) as Pa. pose proof (dist_nonneg x b) as Pb. unfold c. rewrite VS. set (p := dist x a) in *. set (q := dist x b) in *. rewrite <- (len_sq D) in PL, QL. set (L := len D) in *.
  assert (HA : / 2 * (Rabs t * L) <= p). { apply Rsqr_incr_0_var; auto. unfold Rsqr. rewrite VP. replace (/ 2 * (Rabs t * L) * (/ 2 * (Rabs t * L))) with (/ 4 * ((Rabs t * Rabs t) * (L * L))) by field. replace (Rabs t * Rabs t) with (t * t) by (unfold Rabs; destruct (Rcase_abs t); ring). exact PL. }
  assert (HB : / 2 * (Rabs (1 - t) * L) <= q). { apply Rsqr_incr_0_var; auto. unfold Rsqr. rewrite VQ. replace (/ 2 * (Rabs (1 - t) * L) * (/ 2 * (Rabs (1 - t) * L))) with (/ 4 * ((Rabs (1 - t) * Rabs (1 - t)) * (L * L))) by field. replace (Rabs (1 - t) * Rabs (1 - t)) with ((1 - t) * (1 - t)) by (unfold Rabs; destruct (Rcase_abs (1 - t)); ring). exact QL. }
  assert (p0 : 0 < p). { assert (0 < Rabs t * L) by (apply Rmult_lt_0_compat; [apply Rabs_pos_lt; auto|auto]). lra. } assert (q0 : 0 < q). { assert (0 < Rabs (1 - t) * L) by (apply Rmult_lt_0_compat; [apply Rabs_pos_lt; lra|auto]). lra. } assert (pq : 0 < p * q) by (apply Rmult_lt_0_compat; auto).
  split; [exact HA|]. split; [exact HB|]. split; intro H.
  - specialize (S1 H). apply Rmult_le_reg_r with (p * q); auto. unfold Rdiv. rewrite Rmult_assoc, Rinv_l, Rmult_1_r by lra. assert (K : (1 - 3 / 10000000000) * (p * q) <= - S); [|lra].
    apply Rsqr_incr_0_var; [|lra]. unfold Rsqr. rewrite <- VP, <- VQ in SS. assert (PP : 0 <= (p * q) * (p * q)) by (apply Rmult_le_pos; lra). lra.
  - specialize (S2 H). apply Rmult_lt_0_compat; [auto|apply Rinv_0_lt_compat; auto].
Qed.

(** ** Positions along grid segments are fractions with small denominators *)
Lemma regrid e M M' (v : list flt) : Forall (on_grid e M) v -> Forall (fun y => Rabs y <= IZR M' * bpow radix2 e) (map FR v) -> Forall (on_grid e M') v.
Proof.
  intros H B. induction H as [|x v (F & m & Bm & Em) H IH]; [constructor|]. cbn [map] in B. inversion_clear B as [|? ? B1 B2]. constructor; [|apply IH; exact B2]. split; auto. exists m. split; auto. apply le_IZR. rewrite abs_IZR. pose proof (bpow_gt_0 radix2 e) as Be. apply Rmult_le_reg_r with (bpow radix2 e); auto. rewrite <- (Rabs_pos_eq (bpow radix2 e)) at 1 by lra. rewrite <- Rabs_mult, <- Em. exact B1.
Qed.
Lemma frac_gap (m k : Z) t : (k <> 0)%Z -> (Z.abs k <= 2 ^ 14)%Z -> IZR m = t * IZR k -> t = 0 \/ / 16384 <= Rabs t.
Proof.
  intros K B E. assert (Nk : IZR k <> 0) by (apply (IZR_neq k 0); exact K). destruct (Z.eq_dec m 0) as [->|Nm]; [left; apply Rmult_eq_reg_r with (IZR k); auto; lra|right].
  assert (K1 : 0 < IZR (Z.abs k) <= 16384) by (split; [apply (IZR_lt 0); lia|change 16384 with (IZR (2 ^ 14)); apply IZR_le; exact B]). assert (M1 : 1 <= IZR (Z.abs m)) by (apply IZR_le; lia). rewrite abs_IZR, E, Rabs_mult, <- abs_IZR in M1. pose proof (Rabs_pos t). nra.
Qed.
Lemma cross_lin (x y : pt) t s : length x = 3%nat -> length y = 3%nat -> cross_spec (add (scale t x) (scale (- s) y)) y = scale t (cross_spec x y).
Proof. intros Lx Ly. d3. unfold cross_spec, scale. cbn. repeat (apply (f_equal2 (@cons R)); [ring|]). reflexivity. Qed.
Lemma param_gap e M M' (v w ab : list flt) t s : (-100 <= e <= 100)%Z -> (0 <= M <= 2 ^ 16)%Z -> (1 <= M')%Z -> (Z.of_nat (length v) * (M' * M') <= 2 ^ 14)%Z -> v <> [] -> (length v <= 3)%nat -> length w = length v -> length ab = length v ->
  Forall (on_grid e M') v -> Forall (on_grid e M') w -> Forall (on_grid e (2 * M)) ab -> ~ dependent (map FR v) (map FR w) -> map FR ab = sub (scale t (map FR v)) (scale s (map FR w)) ->
  (t = 0 \/ / 16384 <= Rabs t) /\ (t = 1 \/ / 16384 <= Rabs (1 - t)) /\ Rabs t <= bpow radix2 40.
Proof.
  intros He HM P' B Nv L3 Lw Lab Hv Hw Hab ND E. assert (n2 : (2 <= length v)%nat).
  { destruct v as [|x [|y v]]; [contradiction| |cbn [length]; lia]. exfalso. apply ND. destruct w as [|z [|z' w]]; try discriminate Lw. apply dependent_sq; [reflexivity|]. cbn [map dot]. ring. }
  assert (BM : (M' * M' <= 2 ^ 13)%Z) by nia. assert (BM7 : (M' <= 2 ^ 7)%Z) by nia. assert (Nw : w <> []) by (intro Z; rewrite Z in Lw; destruct v; [contradiction|discriminate]). assert (Nab : ab <> []) by (intro Z; rewrite Z in Lab; destruct v; [contradiction|discriminate]).
  destruct (C86_cross e e M' M' v w ltac:(unfold grid_ok; lia) ltac:(lia) Nv Nw L3 ltac:(rewrite Lw; exact L3) Hv Hw) as (pe & _ & Lpe & Gpe & Mpe).
  destruct (C86_cross e e (2 * M) M' ab w ltac:(unfold grid_ok; lia) ltac:(nia) Nab Nw ltac:(rewrite Lab; exact L3) ltac:(rewrite Lw; exact L3) Hab Hw) as (c & _ & Lc & Gc & Mc).
  assert (NZ : ~ is_zero_vec (map FR pe)). { rewrite Mpe. apply Planes.pad_cross_nonzero; [rewrite !map_length; auto|rewrite map_length; exact L3|exact ND]. }
  assert (EC : map FR c = scale t (map FR pe)).
  { rewrite Mc, Mpe, E. assert (LL : length (scale t (map FR v)) = length (scale (- s) (map FR w))) by (rewrite !length_scale, !map_length; auto). assert (E' : sub (scale t (map FR v)) (scale s (map FR w)) = add (scale t (map FR v)) (scale (- s) (map FR w))). { apply Points.pt_ext; [len|]. intros i _. repeat rewrite ?Points.nth_add, ?Points.nth_scale, ?Points.nth_sub by len. ring. }
    rewrite E', LinePairs.pad_add, !Planes.pad_scale by exact LL. assert (P1 : length (pad_to 3 (map FR v)) = 3%nat) by (rewrite length_pad_to, map_length; lia). assert (P2 : length (pad_to 3 (map FR w)) = 3%nat) by (rewrite length_pad_to, map_length, Lw; lia).
    apply cross_lin; assumption. }
  clear Mc Mpe E. assert (X : exists m k, (k <> 0)%Z /\ (Z.abs k <= 2 ^ 14)%Z /\ (Z.abs m <= 2 ^ 26)%Z /\ IZR m = t * IZR k).
  { assert (Lc' : @length flt c = @length flt pe) by (transitivity 3%nat; [exact Lc|symmetry; exact Lpe]). clear Lpe Lc. pose proof (bpow_gt_0 radix2 (e + e)) as Be. assert (Q1 : (2 * (M' * M') <= 2 ^ 14)%Z) by lia. assert (Q2 : (2 * (2 * M * M') <= 2 ^ 26)%Z) by nia. clear - Gpe Gc NZ EC Lc' Be Q1 Q2. revert c Lc' Gc EC. induction Gpe as [|x pe (Fx & k & Bk & Ek) Gpe IH]; intros [|y c] Lc Gc EC; try discriminate Lc; [exfalso; apply NZ; reflexivity|].
    inversion_clear Gc as [|? ? (Fy & m & Bm & Em) Gc']. cbn [map scale] in EC. unfold scale in EC. cbn [map] in EC. injection EC as E1 E2. destruct (Z.eq_dec k 0) as [->|Nk].
    - apply (IH ltac:(intro Z; apply NZ; unfold is_zero_vec in *; cbn [map length] in *; cbn; rewrite Ek; f_equal; [ring|exact Z]) c ltac:(injection Lc; auto) Gc'). exact E2.
    - exists m, k. split; [exact Nk|]. split; [lia|]. split; [lia|]. apply Rmult_eq_reg_r with (bpow radix2 (e + e)); [|lra]. rewrite <- Em, E1, Ek. ring. }
  destruct X as (m & k & Nk & Bk & Bm & Em). split; [apply (frac_gap m k); auto|]. split.
  - destruct (frac_gap (k - m) k (1 - t) Nk Bk) as [Z|Z]; [rewrite minus_IZR, Em; ring|left; lra|right; exact Z].
  - assert (K1 : 1 <= Rabs (IZR k)) by (rewrite <- abs_IZR; apply IZR_le; lia). assert (M1 : Rabs (IZR m) <= 67108864) by (rewrite <- abs_IZR; change 67108864 with (IZR (2 ^ 26)); apply IZR_le; exact Bm). rewrite Em, Rabs_mult in M1. pose proof (Rabs_pos t) as T0. assert (Rabs t * 1 <= Rabs t * Rabs (IZR k)) by (apply Rmult_le_compat_l; lra). assert (67108864 <= bpow radix2 40) by (simpl; lra). lra.
Qed.

(** ** contains_point on grid segments, at a point computed with a small error *)
Lemma seg_new_F (a b : list flt) (s : segment FNum) : segment_new (N:=FNum) a b = Ok s -> length b = length a -> Forall finite a -> Forall finite b -> s = MkSegment (N:=FNum) a b /\ a <> [] /\ map FR a <> map FR b.
Proof.
  intros Hs Lb Fa Fb. assert (Na : a <> []) by (intro E; subst a; discriminate Hs). assert (Nb : b <> []) by (intro E; subst b; destruct a; [contradiction|discriminate Lb]).
  unfold segment_new in Hs. change (point_of (N:=FNum)) with (vector_of (N:=FNum)) in Hs. rewrite (vector_of_ok a Na Fa), (vector_of_ok b Nb Fb) in Hs. cbn [bind] in Hs.
  destruct (is_close1 tol_default a b) as [[|]| |] eqn:E; cbn [bind] in Hs; try discriminate. injection Hs as <-. split; [reflexivity|]. split; [exact Na|]. intro Q.
  assert (H : is_close1 (N:=FNum) tol_default a b = Ok true); [|rewrite H in E; discriminate E]. clear E Nb. unfold is_close1, bpairs. assert (L' : Nat.eqb (@length flt a) (@length flt b) = true) by (apply Nat.eqb_eq; symmetry; exact Lb). fn. rewrite L'. cbn [bind]. unfold allclose_pairs.
  assert (M : mapM (fun p => isclose (N:=FNum) tol_default (fst p) (snd p)) (combine a b) = Ok (map (fun _ => true) a)).
  { clear Na L'. revert b Lb Fb Q. induction Fa as [|x a Fx Fa IH]; intros [|y b] Lb Fb Q; try discriminate Lb; auto. cbn [map] in Q. injection Q as Q1 Q2. inversion_clear Fb as [|? ? Fy Fb']. cbn [combine mapM fst snd]. rewrite isclose_eq_F; [|split; reflexivity|apply eqb_F; auto]. cbn [bind]. fn. rewrite IH; auto. }
  destruct a as [|x a], b as [|y b]; try contradiction; try discriminate Lb. cbn [combine] in *. fn. rewrite M. cbn [bind map forallb]. f_equal. clear. induction a; auto.
Qed.
Lemma u53 : bpow radix2 (-53) = / 9007199254740992.
Proof. simpl. lra. Qed.
Lemma seg_scalar (B tau M M' L : R) : 0 < B <= L -> 1 <= M <= 65536 -> 1 <= M' <= 128 -> tau = 0 \/ / 16384 <= Rabs tau -> tau = 1 \/ / 16384 <= Rabs (1 - tau) -> 
  let n := 3 * (bpow radix2 (-53) * B * (16 * M + 8 * Rabs tau * M')) in 0 <= n /\ (tau <> 0 -> n <= eps17 * (Rabs tau * L)) /\ (tau <> 1 -> n <= eps17 * (Rabs (1 - tau) * L)).
Proof.
  intros HB HM HM' H0 H1 n. pose proof (Rabs_pos tau) as T0. pose proof (Rabs_pos (1 - tau)) as T1. assert (T : Rabs tau <= 1 + Rabs (1 - tau)) by (unfold Rabs; destruct (Rcase_abs tau), (Rcase_abs (1 - tau)); lra). unfold n, eps17. rewrite u53. clear n.
  assert (Q1 : B * M <= B * 65536) by (apply Rmult_le_compat_l; lra). assert (BT : 0 <= B * Rabs tau) by (apply Rmult_le_pos; lra). assert (Q2 : B * Rabs tau * M' <= B * Rabs tau * 128) by (apply Rmult_le_compat_l; lra). assert (BM : 0 <= B * M) by (apply Rmult_le_pos; lra). assert (BM2 : 0 <= B * Rabs tau * M') by (apply Rmult_le_pos; lra).
  split; [lra|]. split; intro N.
  - destruct H0 as [|H0]; [contradiction|]. assert (Q3 : B * / 16384 <= B * Rabs tau) by (apply Rmult_le_compat_l; lra). assert (Q4 : B * Rabs tau <= L * Rabs tau) by (apply Rmult_le_compat_r; lra). lra.
  - destruct H1 as [|H1]; [contradiction|]. assert (Q3 : B * / 16384 <= B * Rabs (1 - tau)) by (apply Rmult_le_compat_l; lra). assert (Q4 : B * Rabs (1 - tau) <= L * Rabs (1 - tau)) by (apply Rmult_le_compat_r; lra). assert (Q5 : B * Rabs tau <= B * (1 + Rabs (1 - tau))) by (apply Rmult_le_compat_l; lra). lra.
Qed.
Lemma dist_coords (x X : pt) (r : R) : length X = length x -> (length x <= 3)%nat -> 0 <= r -> (forall i, Rabs (nth i x 0 - nth i X 0) <= r) -> dist x X <= 3 * r.
Proof.
  intros L L3 Hr H. unfold dist. assert (F : Forall2 (fun a b => Rabs a <= 0 * Rabs b + r) (sub x X) (sub x X)).
  { revert X L H. clear L3. induction x as [|a x IH]; intros [|b X] L H; try discriminate L; [constructor|]. cbn [sub]. constructor; [pose proof (H 0%nat) as H0; cbn [nth] in H0; lra|apply IH; [injection L; auto|intro i; exact (H (Datatypes.S i))]]. }
  pose proof (len_affine 0 r _ _ ltac:(lra) Hr F) as Q. rewrite length_sub, L, Nat.min_id in Q. assert (INR (length x) <= 3) by (replace 3 with (INR 3) by (simpl; lra); apply le_INR; exact L3). assert (INR (length x) * r <= 3 * r) by (apply Rmult_le_compat_r; auto). lra.
Qed.
Lemma seg_decide e M M' (p q x : list flt) (s : segment FNum) tau : (-100 <= e <= 100)%Z -> (1 <= M <= 2 ^ 16)%Z -> (1 <= M' <= 2 ^ 7)%Z -> segment_new (N:=FNum) p q = Ok s -> (length p <= 3)%nat -> length q = length p -> length x = length p ->
  Forall (on_grid e M) p -> Forall (on_grid e M) q -> Forall (fun y => Rabs y <= IZR M' * bpow radix2 e) (sub (map FR q) (map FR p)) -> Forall finite x ->
  tau = 0 \/ / 16384 <= Rabs tau -> tau = 1 \/ / 16384 <= Rabs (1 - tau) -> Rabs tau <= bpow radix2 40 ->
  (forall i, Rabs (nth i (map FR x) 0 - nth i (add (map FR p) (scale tau (sub (map FR q) (map FR p)))) 0) <= bpow radix2 (-53) * bpow radix2 e * (16 * IZR M + 8 * Rabs tau * IZR M')) ->
  (tau = 0 \/ tau = 1 -> map FR x = add (map FR p) (scale tau (sub (map FR q) (map FR p)))) ->
  exists r, segment_contains_point (N:=FNum) tol_default s x = Ok r /\ (r = true <-> 0 <= tau <= 1).
Proof.
  intros He HM HM' Hs L3 Lq Lx Hp Hq HV Fx T0 T1 T40 Hx Hex. destruct (seg_new_F p q s Hs Lq (on_grid_all _ _ _ Hp) (on_grid_all _ _ _ Hq)) as (Es & Np & NE).
  assert (NZ : ~ is_zero_vec (sub (map FR q) (map FR p))). { intro Z. apply NE. symmetry. apply dist_zero_iff; [rewrite !map_length; auto|]. unfold dist. apply len_zero_iff. exact Z. }
  destruct (C86_from_points e M p q ltac:(unfold grid_ok; lia) ltac:(lia) Np Lq Hp Hq) as (v & _ & Gv & Lv & Ev). assert (Lv' : @length flt v = @length flt p) by exact Lv. 
  set (V := sub (map FR q) (map FR p)) in *. assert (LV : length V = length p) by (unfold V; rewrite length_sub, !map_length, Lq; apply Nat.min_id).
  destruct (grid_self e (2 * M) v ltac:(unfold grid_ok; lia) ltac:(lia) ltac:(rewrite Lv'; nia) Gv) as (_ & _ & _ & [Z|(_ & LB)]); [rewrite Ev in Z; contradiction|]. rewrite Ev in LB. pose proof (bpow_gt_0 radix2 e) as Be.
  assert (RM : 1 <= IZR M <= 65536) by (split; [apply IZR_le; lia|change 65536 with (IZR (2 ^ 16)); apply IZR_le; lia]). assert (RM' : 1 <= IZR M' <= 128) by (split; [apply IZR_le; lia|change 128 with (IZR (2 ^ 7)); apply IZR_le; lia]).
  destruct (seg_scalar (bpow radix2 e) tau (IZR M) (IZR M') (len V) (conj Be LB) RM RM' T0 T1) as (n0 & N0 & N1). cbv zeta in *. set (r := bpow radix2 (-53) * bpow radix2 e * (16 * IZR M + 8 * Rabs tau * IZR M')) in *.
  set (X := add (map FR p) (scale tau V)) in *. assert (LX : length X = length (map FR x)) by (unfold X; rewrite length_add, length_scale, !map_length, LV, Lx; apply Nat.min_id).
  assert (D : dist (map FR x) X <= 3 * r) by (apply dist_coords; [exact LX|rewrite map_length, Lx; exact L3|lra|exact Hx]).
  pose proof (Rabs_pos tau) as Ta. 
  assert (Hh : Forall half_moderate x).
  { assert (G : forall i, Rabs (nth i (map FR x) 0) <= bpow radix2 499).
    { intro i. specialize (Hx i). assert (EX : nth i X 0 = nth i (map FR p) 0 + tau * nth i V 0) by (unfold X; rewrite Points.nth_add, Points.nth_scale by (rewrite ?length_scale, ?map_length; auto); reflexivity).
      assert (B1 : Rabs (nth i (map FR p) 0) <= 65536 * bpow radix2 e). { assert (P0 : 0 <= 65536 * bpow radix2 e) by lra. destruct (nth_in_or_default i (map FR p) 0) as [I| -> ]; [|rewrite Rabs_R0; exact P0]. apply in_map_iff in I as (y & <- & I). rewrite Forall_forall in Hp. destruct (Hp y I) as (_ & m & Bm & ->). rewrite Rabs_mult, <- abs_IZR, (Rabs_pos_eq (bpow _ _)) by lra. apply Rmult_le_compat_r; [lra|]. change 65536 with (IZR (2 ^ 16)). apply IZR_le. lia. }
      assert (B2 : Rabs (nth i V 0) <= 128 * bpow radix2 e). { assert (P0 : 0 <= 128 * bpow radix2 e) by lra. destruct (nth_in_or_default i V 0) as [I| -> ]; [|rewrite Rabs_R0; exact P0]. rewrite Forall_forall in HV. eapply Rle_trans; [exact (HV _ I)|]. apply Rmult_le_compat_r; lra. }
      assert (E40 : bpow radix2 40 = 1099511627776) by (simpl; lra). rewrite E40 in T40.
      assert (B3 : Rabs (tau * nth i V 0) <= 1099511627776 * (128 * bpow radix2 e)) by (rewrite Rabs_mult; apply Rmult_le_compat; auto using Rabs_pos).
      assert (B4 : r <= bpow radix2 e * 1099511627776). { unfold r. rewrite u53. assert (Rabs tau * IZR M' <= 1099511627776 * 128) by (apply Rmult_le_compat; lra). replace (/ 9007199254740992 * bpow radix2 e * (16 * IZR M + 8 * Rabs tau * IZR M')) with (bpow radix2 e * (/ 9007199254740992 * (16 * IZR M + 8 * (Rabs tau * IZR M')))) by ring. apply Rmult_le_compat_l; lra. }
      assert (B5 : Rabs (nth i X 0) <= 65536 * bpow radix2 e + 1099511627776 * (128 * bpow radix2 e)) by (rewrite EX; eapply Rle_trans; [apply Rabs_triang|]; lra).
      assert (B6 : Rabs (nth i (map FR x) 0) <= Rabs (nth i X 0) + r). { replace (nth i (map FR x) 0) with (nth i X 0 + (nth i (map FR x) 0 - nth i X 0)) by ring. eapply Rle_trans; [apply Rabs_triang|]. lra. }
      apply Rle_trans with (bpow radix2 60 * bpow radix2 e); [|rewrite <- bpow_plus; apply bpow_le; lia]. assert (E60 : bpow radix2 60 = 1152921504606846976) by (simpl; lra). rewrite E60. lra. }
    apply Forall_forall. intros y I. split; [rewrite Forall_forall in Fx; auto|]. apply (in_map FR) in I. destruct (In_nth _ _ 0 I) as (i & _ & <-). apply G. }
  pose proof (grid_half_moderate e M p ltac:(lia) ltac:(lia) Hp) as Hhp. pose proof (grid_half_moderate e M q ltac:(lia) ltac:(lia) Hq) as Hhq.
  assert (Ln : (Z.of_nat (@length flt p) <= max_dim)%Z) by (unfold max_dim; lia). assert (LqR : length (map FR q) = length (map FR p)) by (rewrite !map_length; auto). assert (LxR : length (map FR x) = length (map FR p)) by (rewrite !map_length; auto).
  assert (LB399 : bpow radix2 (-399) <= / 32768 * bpow radix2 e). { replace (/ 32768) with (bpow radix2 (-15)) by (simpl; lra). rewrite <- bpow_plus. apply bpow_le. lia. }
  destruct (Req_dec tau 0) as [Z0|Z0]; [|destruct (Req_dec tau 1) as [Z1|Z1]].
  - exists true. split; [|split; auto; lra]. specialize (Hex (or_introl Z0)). assert (EP : map FR x = map FR p). { rewrite Hex. unfold X. rewrite Z0. apply Points.pt_ext; [rewrite length_add, length_scale, map_length, LV; apply Nat.min_id|]. intros i _. rewrite Points.nth_add, Points.nth_scale by (rewrite ?length_scale, ?map_length; auto). ring. }
    apply (C83_segment_recognises p q x s Hs Lq Lx Ln Hhp Hhq Hh); rewrite EP.
    + left. apply dist_zero_iff; auto.
    + right. rewrite dist_sym. unfold dist. fold V. lra.
    + exists 0. split; [lra|]. fold V. symmetry. rewrite <- Z0. rewrite <- EP at 2. symmetry. exact Hex.
  - exists true. split; [|split; auto; lra]. specialize (Hex (or_intror Z1)). assert (EP : map FR x = map FR q). { rewrite Hex. unfold X. rewrite Z1. apply Points.pt_ext; [rewrite length_add, length_scale, !map_length, LV, Lq; apply Nat.min_id|]. intros i _. rewrite Points.nth_add, Points.nth_scale by (rewrite ?length_scale, ?map_length; auto). unfold V. rewrite Points.nth_sub by auto. ring. }
    apply (C83_segment_recognises p q x s Hs Lq Lx Ln Hhp Hhq Hh); rewrite EP.
    + right. unfold dist. fold V. lra.
    + left. apply dist_zero_iff; auto.
    + exists 1. split; [lra|]. fold V. rewrite <- Z1. rewrite <- EP. exact Hex.
  - specialize (N0 Z0). specialize (N1 Z1). destruct (near_between (map FR p) (map FR q) (map FR x) tau (3 * r) LqR LxR NZ Z0 Z1 D N0 N1) as (DA & DB & CT & CF). cbv zeta in CT, CF. fold V in DA, DB.
    destruct T0 as [|T0]; [contradiction|]. destruct T1 as [|T1]; [contradiction|].
    assert (P1 : / 16384 * bpow radix2 e <= Rabs tau * len V) by (apply Rmult_le_compat; lra). assert (P2 : / 16384 * bpow radix2 e <= Rabs (1 - tau) * len V) by (apply Rmult_le_compat; lra).
    destruct (C83_segment_contains_point p q x s Hs Lq Lx Ln Hhp Hhq Hh ltac:(lra) ltac:(lra)) as (b & Eb & BT & BF). exists b. split; [exact Eb|].
    assert (ER : 0 <= (3 * INR (length p) + 25) * bpow radix2 (-53) <= / 10000000000). { assert (INR (length p) <= 3) by (replace 3 with (INR 3) by (simpl; lra); apply le_INR; exact L3). pose proof (pos_INR (length p)). rewrite u53. lra. }
    assert (RD : 9 / 10000000000 <= rel_default <= / 1024) by (unfold rel_default; simpl; lra).
    split; intro H.
    + destruct (Rlt_dec tau 0) as [C|C]; [exfalso|destruct (Rlt_dec 1 tau) as [C'|C']; [exfalso|lra]].
      * specialize (CF (or_introl C)). rewrite BF in H; [discriminate|lra].
      * specialize (CF (or_intror C')). rewrite BF in H; [discriminate|lra].
    + apply BT. specialize (CT ltac:(lra)). lra.
Qed.

(** ** LineSegment.intersect_line_segment *)
Lemma scale_inj (p d : pt) (t t' : R) : length d = length p -> ~ is_zero_vec d -> add p (scale t d) = add p (scale t' d) -> t = t'.
Proof.
  intros L NZ E. destruct (Req_dec t t') as [|Nt]; auto. exfalso. apply NZ. unfold is_zero_vec. apply Points.pt_ext; [rewrite length_origin; reflexivity|]. intros i _. rewrite Points.nth_origin. apply (f_equal (fun z => nth i z 0)) in E. rewrite !Points.nth_add, !Points.nth_scale in E by (rewrite length_scale; auto).
  apply Rmult_eq_reg_l with (t - t'); [lra|]. intro. apply Nt. lra.
Qed.
Lemma on_seg_iff (p q : pt) t : length q = length p -> ~ is_zero_vec (sub q p) -> on_segment p q (add p (scale t (sub q p))) <-> 0 <= t <= 1.
Proof.
  intros L NZ. split; [intros (t' & H & E)|intro H; exists t; auto]. apply scale_inj in E; [lra| |exact NZ]. rewrite length_sub, L. apply Nat.min_id.
Qed.
Lemma end_param (p q : pt) t : length q = length p -> t = 0 \/ t = 1 -> add p (scale t (sub q p)) = p \/ add p (scale t (sub q p)) = q.
Proof.
  intros L [-> | ->]; [left|right]; (apply Points.pt_ext; [rewrite length_add, length_scale, length_sub, L, !Nat.min_id; reflexivity|]; intros i _; rewrite Points.nth_add, Points.nth_scale, Points.nth_sub by (rewrite ?length_scale, ?length_sub, ?L, ?Nat.min_id; auto); ring).
Qed.
Theorem C93_intersect : forall LA (check : bool) e M M' (a b c d : list flt) (s o : segment FNum), (-100 <= e <= 100)%Z -> (1 <= M <= 2 ^ 16)%Z -> (1 <= M')%Z -> (length a <= 3)%nat -> length b = length a -> length c = length a -> length d = length a -> (Z.of_nat (length a) * (M' * M') <= 2 ^ 14)%Z ->
  segment_new (N:=FNum) a b = Ok s -> segment_new (N:=FNum) c d = Ok o -> Forall (on_grid e M) a -> Forall (on_grid e M) b -> Forall (on_grid e M) c -> Forall (on_grid e M) d ->
  Forall (fun y => Rabs y <= IZR M' * bpow radix2 e) (sub (map FR b) (map FR a)) -> Forall (fun y => Rabs y <= IZR M' * bpow radix2 e) (sub (map FR d) (map FR c)) ->
  (dependent (sub (map FR b) (map FR a)) (sub (map FR d) (map FR c)) -> segment_intersect_segment LA tol_default check s o = Raise (ValueError "The lines must not be parallel.")) /\
  (~ dependent (sub (map FR b) (map FR a)) (sub (map FR d) (map FR c)) -> check = false \/ (forall l m, line_from_points (N:=FNum) a b = Ok l -> line_from_points (N:=FNum) c d = Ok m -> line_is_coplanar LA None l m = Ok true) ->
   forall X, on_line (map FR a) (sub (map FR b) (map FR a)) X -> on_line (map FR c) (sub (map FR d) (map FR c)) X -> X <> map FR b -> X = map FR a \/ X <> map FR c /\ X <> map FR d ->
   (on_segment (map FR a) (map FR b) X /\ on_segment (map FR c) (map FR d) X -> exists x, segment_intersect_segment LA tol_default check s o = Ok x /\ length x = length a /\ Forall finite x /\
      forall i, Rabs (nth i (map FR x) 0 - nth i X 0) <= bpow radix2 (-53) * Rabs (nth i X 0) + 7 * bpow radix2 (-53) * Rabs (nth i X 0 - nth i (map FR a) 0) + bpow radix2 (-1073)) /\
   (~ (on_segment (map FR a) (map FR b) X /\ on_segment (map FR c) (map FR d) X) -> segment_intersect_segment LA tol_default check s o = Raise (ValueError "The line segments must intersect."))).
Proof.
  intros LA check e M M' a b c d s o He HM P' L3 Lb Lc Ld B Hs Ho Ha Hb Hc Hd HV HW.
  assert (Ldc : length d = length c) by congruence. destruct (seg_new_F a b s Hs Lb (on_grid_all _ _ _ Ha) (on_grid_all _ _ _ Hb)) as (Es & Na & NEab). destruct (seg_new_F c d o Ho Ldc (on_grid_all _ _ _ Hc) (on_grid_all _ _ _ Hd)) as (Eo & Nc & NEcd).
  assert (n1 : (1 <= Z.of_nat (length a))%Z) by (destruct a; [contradiction|cbn [length]; lia]). assert (BM : (M' * M' <= 2 ^ 14)%Z) by nia. assert (M7 : (M' <= 2 ^ 7)%Z) by nia.
  assert (BB : (Z.of_nat (length a) * (2 * M * (2 * M)) < 2 ^ 53)%Z) by nia. assert (L3' : (length c <= 3)%nat) by (rewrite Lc; exact L3).
  destruct (C86_line_from_points e M a b ltac:(unfold grid_ok; lia) ltac:(unfold grid_ok; lia) BB Na Lb Ha Hb) as (_ & KL). destruct (KL NEab) as (l & El & _ & Ll & Gl & Ml). clear KL.
  destruct (C86_line_from_points e M c d ltac:(unfold grid_ok; lia) ltac:(unfold grid_ok; lia) ltac:(rewrite Lc; exact BB) Nc Ldc Hc Hd) as (_ & KL). destruct (KL NEcd) as (m & Em & _ & Lm & Gm & Mm). clear KL. clear BB.
  pose proof El as Fl. pose proof Em as Fm. unfold line_from_points in Fl, Fm. destruct (from_points a b) as [v| |]; try discriminate Fl. destruct (from_points c d) as [w| |]; try discriminate Fm. cbn [bind] in Fl, Fm. pose proof Fl as Fl'. pose proof Fm as Fm'. apply line_new_F in Fl' as (Ql & _ & Lv), Fm' as (Qm & _ & Lw0).
  rewrite Ql in Gl, Ml. rewrite Qm in Gm, Mm. cbn [l_dir] in Gl, Ml, Gm, Mm. clear Ll Lm. assert (Lw : length w = length a) by (rewrite <- Lc; exact Lw0).
  rewrite <- Ml in HV |- *. rewrite <- Mm in HW |- *. pose proof (regrid e (2 * M) M' v Gl HV) as Gv. pose proof (regrid e (2 * M) M' w Gm HW) as Gw.
  destruct (C92_intersect_line LA check e e e M M' a v c w l m ltac:(lia) ltac:(lia) ltac:(lia) ltac:(lia) P' L3 Lc B Fl Fm Ha Gv Hc Gw) as (KP & KI).
  assert (RUN : segment_intersect_segment LA tol_default check s o = let* p := line_intersect_line LA tol_default check l m in let* on_a := segment_contains_point tol_default s p in let* on_b := segment_contains_point tol_default o p in if negb (on_a && on_b) then Raise (ValueError "The line segments must intersect.") else Ok p).
  { unfold segment_intersect_segment. rewrite Es, Eo. cbn [s_a s_b]. rewrite El, Em. reflexivity. }
  rewrite RUN. split; [intro Dp; rewrite (KP Dp); reflexivity|]. clear KP. intros ND HC X (t & EX) (s' & EX') NXb NX.
  destruct (KI ND) as (x & Ex & Lx & Fx & Hx); [destruct HC as [HC|HC]; [left; exact HC|right; apply HC; auto]|]. rewrite Ex. cbn [bind].
  assert (LvR : length (map FR v) = length (map FR a)) by (rewrite !map_length; exact Lv). assert (LwR : length (map FR w) = length (map FR a)) by (rewrite !map_length; exact Lw). assert (LcR : length (map FR c) = length (map FR a)) by (rewrite !map_length; exact Lc). assert (LbR : length (map FR b) = length (map FR a)) by (rewrite !map_length; exact Lb). assert (LdR : length (map FR d) = length (map FR c)) by (rewrite !map_length; exact Ldc).
  assert (OX : on_line (map FR a) (map FR v) X) by (exists t; exact EX). assert (OX' : on_line (map FR c) (map FR w) X) by (exists s'; exact EX').
  assert (LD : line_distance (map FR a) (map FR v) (map FR c) (map FR w) (dist X X)). { split; [exists X, X; auto|]. intros x0 y0 _ _. rewrite dist_refl. apply dist_nonneg. }
  specialize (Hx X X OX OX' LD). clear LD OX OX'.
  assert (NZ : ~ is_zero_vec (map FR v)). { rewrite Ml. intro Z. apply NEab. symmetry. apply dist_zero_iff; [exact LbR|]. unfold dist. apply len_zero_iff. exact Z. }
  assert (NZ' : ~ is_zero_vec (map FR w)). { rewrite Mm. intro Z. apply NEcd. symmetry. apply dist_zero_iff; [exact LdR|]. unfold dist. apply len_zero_iff. exact Z. }
  assert (Nv : v <> []) by (intro Z; rewrite Z in Lv; destruct a; [contradiction|discriminate]). assert (Nw : w <> []) by (intro Z; rewrite Z in Lw; destruct a; [contradiction|discriminate]).
  assert (CA : sub (map FR c) (map FR a) = sub (scale t (map FR v)) (scale s' (map FR w))).
  { apply Points.pt_ext; [rewrite !length_sub, !length_scale, LvR, LwR, LcR; reflexivity|]. intros i _. rewrite EX in EX'. apply (f_equal (fun z => nth i z 0)) in EX'. rewrite !Points.nth_add, !Points.nth_scale in EX' by (rewrite length_scale; congruence). rewrite !Points.nth_sub, !Points.nth_scale by (rewrite ?length_scale; congruence). lra. }
  assert (AC : sub (map FR a) (map FR c) = sub (scale s' (map FR w)) (scale t (map FR v))).
  { apply Points.pt_ext; [rewrite !length_sub, !length_scale, LvR, LwR, LcR; reflexivity|]. intros i _. rewrite EX in EX'. apply (f_equal (fun z => nth i z 0)) in EX'. rewrite !Points.nth_add, !Points.nth_scale in EX' by (rewrite length_scale; congruence). rewrite !Points.nth_sub, !Points.nth_scale by (rewrite ?length_scale; congruence). lra. }
  destruct (C86_from_points e M a c ltac:(unfold grid_ok; lia) ltac:(lia) Na Lc Ha Hc) as (ac & _ & Gac & Lac & Eac). destruct (C86_from_points e M c a ltac:(unfold grid_ok; lia) ltac:(lia) Nc (eq_sym Lc) Hc Ha) as (ca & _ & Gca & Lca & Eca).
  rewrite <- Eac in CA. rewrite <- Eca in AC.
  assert (ND' : ~ dependent (map FR w) (map FR v)). { intro Q. apply ND. apply dependent_sq; [congruence|]. apply dependent_sq in Q; [|congruence]. rewrite (dot_comm (map FR v) (map FR w)). lra. }
  assert (LvF : @length flt v = @length flt a) by exact Lv. assert (LwF : @length flt w = @length flt a) by exact Lw. assert (LacF : @length flt ac = @length flt v) by (rewrite LvF; exact Lac). assert (LcaF : @length flt ca = @length flt w) by (rewrite LwF, <- Lc; exact Lca). assert (Lwv : @length flt w = @length flt v) by congruence.
  assert (Bv : (Z.of_nat (@length flt v) * (M' * M') <= 2 ^ 14)%Z) by (rewrite LvF; exact B). assert (Bw : (Z.of_nat (@length flt w) * (M' * M') <= 2 ^ 14)%Z) by (rewrite LwF; exact B). assert (L3v : (@length flt v <= 3)%nat) by (rewrite LvF; exact L3). assert (L3w : (@length flt w <= 3)%nat) by (rewrite LwF; exact L3).
  destruct (param_gap e M M' v w ac t s' He ltac:(lia) P' Bv Nv L3v Lwv LacF Gv Gw Gac ND CA) as (T0 & T1 & T40).
  destruct (param_gap e M M' w v ca s' t He ltac:(lia) P' Bw Nw L3w (eq_sym Lwv) LcaF Gw Gv Gca ND' AC) as (S0 & S1 & S40). clear Bv Bw CA AC Gac Gca Eac Eca Lac Lca LacF LcaF ND ND'.
  assert (Xab : forall i, nth i (map FR a) 0 = nth i X 0 - t * nth i (map FR v) 0). { intro i. rewrite EX, Points.nth_add, Points.nth_scale by (rewrite length_scale; congruence). ring. }
  assert (NDX : map FR x = X \/ X <> map FR a /\ X <> map FR b /\ X <> map FR c /\ X <> map FR d).
  { destruct (Req_dec t 0) as [Zt|Zt].
    - left. assert (XA : X = map FR a) by (rewrite EX; apply Points.pt_ext; [rewrite length_add, length_scale, LvR; apply Nat.min_id|intros i _; rewrite Points.nth_add, Points.nth_scale, Zt by (rewrite length_scale; congruence); ring]). transitivity (map FR a); [|auto]. apply Points.pt_ext; [rewrite !map_length; exact Lx|]. intros i _. destruct (Hx i) as (_ & Q). auto.
    - right. assert (XA : X <> map FR a). { intro Q. apply Zt. apply (scale_inj0 (map FR a) (map FR v) t); auto. rewrite <- EX. exact Q. } destruct NX as [NX|(NX1 & NX2)]; [contradiction|]. auto. }
  assert (BX : forall tau p u, length u = length p -> X = add (map FR p) (scale tau (map FR u)) -> Forall (on_grid e M) p -> Forall (on_grid e M') u ->
     forall i, Rabs (nth i (map FR x) 0 - nth i X 0) <= bpow radix2 (-53) * bpow radix2 e * (16 * IZR M + 8 * Rabs tau * IZR M')).
  { intros tau p u Lpu E Hp Hu i. destruct (Hx i) as (Hi & _). eapply Rle_trans; [exact Hi|]. pose proof (bpow_gt_0 radix2 e) as Be.
    assert (Bd : forall K (z : list flt), (1 <= K)%Z -> Forall (on_grid e K) z -> Rabs (nth i (map FR z) 0) <= IZR K * bpow radix2 e).
    { intros K z K0 Hz. assert (P0 : 0 <= IZR K * bpow radix2 e) by (apply Rmult_le_pos; [apply (IZR_le 0); lia|lra]). destruct (nth_in_or_default i (map FR z) 0) as [I| -> ]; [|rewrite Rabs_R0; exact P0]. apply in_map_iff in I as (y & <- & I). rewrite Forall_forall in Hz. destruct (Hz y I) as (_ & k & Bk & ->). rewrite Rabs_mult, <- abs_IZR, (Rabs_pos_eq (bpow _ _)) by lra. apply Rmult_le_compat_r; [lra|]. apply IZR_le. lia. }
    pose proof (Bd M p ltac:(lia) Hp) as Bp. pose proof (Bd M a ltac:(lia) Ha) as Ba. pose proof (Bd M' u P' Hu) as Bu. clear Bd.
    assert (EXi : nth i X 0 = nth i (map FR p) 0 + tau * nth i (map FR u) 0) by (rewrite E, Points.nth_add, Points.nth_scale by (rewrite length_scale, !map_length; exact (eq_sym Lpu)); reflexivity).
    assert (B1 : Rabs (nth i X 0) <= IZR M * bpow radix2 e + Rabs tau * (IZR M' * bpow radix2 e)). { rewrite EXi. eapply Rle_trans; [apply Rabs_triang|]. rewrite Rabs_mult. apply Rplus_le_compat; [exact Bp|]. apply Rmult_le_compat_l; [apply Rabs_pos|exact Bu]. }
    assert (B2 : Rabs (nth i X 0 - nth i (map FR a) 0) <= Rabs (nth i X 0) + IZR M * bpow radix2 e). { unfold Rminus. eapply Rle_trans; [apply Rabs_triang|]. rewrite Rabs_Ropp. lra. }
    assert (B3 : bpow radix2 (-1073) <= bpow radix2 (-53) * bpow radix2 e) by (rewrite <- bpow_plus; apply bpow_le; lia). assert (RM1 : 1 <= IZR M) by (apply IZR_le; lia). assert (B4 : 1 * bpow radix2 e <= IZR M * bpow radix2 e) by (apply Rmult_le_compat_r; lra).
    pose proof (bpow_gt_0 radix2 (-53)) as U0. set (U := bpow radix2 (-53)) in *. set (Be' := bpow radix2 e) in *. 
    assert (B5 : U * Rabs (nth i X 0) + 7 * U * Rabs (nth i X 0 - nth i (map FR a) 0) <= U * (8 * (IZR M * Be' + Rabs tau * (IZR M' * Be')) + 7 * (IZR M * Be'))). { replace (U * Rabs (nth i X 0) + 7 * U * Rabs (nth i X 0 - nth i (map FR a) 0)) with (U * (Rabs (nth i X 0) + 7 * Rabs (nth i X 0 - nth i (map FR a) 0))) by ring. apply Rmult_le_compat_l; lra. }
    assert (B6 : U * (1 * Be') <= U * (IZR M * Be')) by (apply Rmult_le_compat_l; lra).
    replace (U * Be' * (16 * IZR M + 8 * Rabs tau * IZR M')) with (U * (8 * (IZR M * Be' + Rabs tau * (IZR M' * Be')) + 7 * (IZR M * Be')) + U * (IZR M * Be')) by ring. lra. }
  assert (A1 : exists r, segment_contains_point (N:=FNum) tol_default s x = Ok r /\ (r = true <-> 0 <= t <= 1)).
  { apply (seg_decide e M M' a b x s t He HM (conj P' M7) Hs L3 Lb Lx Ha Hb); auto; rewrite <- Ml; auto.
    - intro i. rewrite <- EX. apply (BX t a v Lv EX Ha Gv).
    - intro Q. rewrite <- EX. destruct NDX as [NDX|(N1 & N2 & _)]; [exact NDX|exfalso]. rewrite Ml in EX. destruct (end_param (map FR a) (map FR b) t LbR Q) as [Q'|Q']; rewrite <- EX in Q'; contradiction. }
  assert (A2 : exists r, segment_contains_point (N:=FNum) tol_default o x = Ok r /\ (r = true <-> 0 <= s' <= 1)).
  { apply (seg_decide e M M' c d x o s' He HM (conj P' M7) Ho L3' Ldc ltac:(rewrite Lc; exact Lx) Hc Hd); auto; rewrite <- Mm; auto.
    - intro i. rewrite <- EX'. apply (BX s' c w Lw0 EX' Hc Gw).
    - intro Q. rewrite <- EX'. destruct NDX as [NDX|(_ & _ & N1 & N2)]; [exact NDX|exfalso]. rewrite Mm in EX'. destruct (end_param (map FR c) (map FR d) s' LdR Q) as [Q'|Q']; rewrite <- EX' in Q'; contradiction. }
  assert (SA : on_segment (map FR a) (map FR b) X <-> 0 <= t <= 1) by (rewrite EX, Ml; apply on_seg_iff; [exact LbR|rewrite <- Ml; exact NZ]). assert (SC : on_segment (map FR c) (map FR d) X <-> 0 <= s' <= 1) by (rewrite EX', Mm; apply on_seg_iff; [exact LdR|rewrite <- Mm; exact NZ']).
  destruct A1 as (r1 & E1 & R1), A2 as (r2 & E2 & R2). rewrite E1. cbn [bind]. rewrite E2. cbn [bind]. split.
  - intros (H1 & H2). apply SA, R1 in H1. apply SC, R2 in H2. rewrite H1, H2. cbn. exists x. split; [reflexivity|]. split; [exact Lx|]. split; [exact Fx|]. intro i. apply (Hx i).
  - intro H. destruct (r1 && r2) eqn:Q; [|reflexivity]. exfalso. apply andb_true_iff in Q as (Q1 & Q2). apply H. split; [apply SA, R1; exact Q1|apply SC, R2; exact Q2].
Qed.
Print Assumptions C93_intersect.

(** The exclusion of the other endpoints is needed: the segment from (0, 0) to (49, 49) and the segment from (1, 1) to (2, 1) share the point (1, 1), an endpoint of the second one, but intersect_line_segment says that they do not intersect (49 * (1 / 49) is not 1 in doubles). Asked in the other order, it answers (1, 1). *)
Theorem C93_touching_refuted : exists (a b c d : list flt) (s o : segment FNum), Forall (on_grid 0 64) a /\ Forall (on_grid 0 64) b /\ Forall (on_grid 0 64) c /\ Forall (on_grid 0 64) d /\ (Z.of_nat (length a) * (64 * 64) <= 2 ^ 14)%Z /\
  segment_new (N:=FNum) a b = Ok s /\ segment_new (N:=FNum) c d = Ok o /\ on_segment (map FR a) (map FR b) [1; 1] /\ on_segment (map FR c) (map FR d) [1; 1] /\
  (forall LA, segment_intersect_segment LA tol_default false s o = Raise (ValueError "The line segments must intersect.")) /\
  (forall LA, (forall l m, line_is_coplanar LA None l m = Ok true) -> segment_intersect_segment LA tol_default true s o = Raise (ValueError "The line segments must intersect.")) /\
  (forall LA, segment_intersect_segment LA tol_default false o s = Ok [1; 1]%float).
Proof.
  assert (V49 : FR 49%float = 49) by (erewrite FR_val by (vm_compute; reflexivity); simpl; unfold F2R; simpl; lra). assert (V0 : FR 0%float = 0) by apply zero_F. assert (V1 : FR 1%float = 1) by apply one_F. assert (V2 : FR 2%float = 2) by (erewrite FR_val by (vm_compute; reflexivity); simpl; unfold F2R; simpl; lra).
  assert (G0 : on_grid 0 64 0%float) by (lit 0%Z). assert (G1 : on_grid 0 64 1%float) by (lit 1%Z). assert (G2 : on_grid 0 64 2%float) by (lit 2%Z). assert (G49 : on_grid 0 64 49%float) by (lit 49%Z).
  exists [0; 0]%float, [49; 49]%float, [1; 1]%float, [2; 1]%float, (MkSegment (N:=FNum) [0; 0]%float [49; 49]%float), (MkSegment (N:=FNum) [1; 1]%float [2; 1]%float).
  split; [constructor; [auto|constructor; [auto|constructor]]|]. split; [constructor; [auto|constructor; [auto|constructor]]|]. split; [constructor; [auto|constructor; [auto|constructor]]|]. split; [constructor; [auto|constructor; [auto|constructor]]|]. split; [simpl; lia|].
  split; [reflexivity|]. split; [reflexivity|]. split. { exists (/ 49). split; [lra|]. cbn [map]. rewrite V0, V49. unfold add, scale, sub. cbn [map]. repeat (apply (f_equal2 (@cons R)); [lra|]). reflexivity. }
  split. { exists 0. split; [lra|]. cbn [map]. rewrite V1, V2. unfold add, scale, sub. cbn [map]. repeat (apply (f_equal2 (@cons R)); [lra|]). reflexivity. }
  split; [intro LA; reflexivity|]. split; [|intro LA; reflexivity]. intros LA H.
  change (segment_intersect_segment LA tol_default true (MkSegment (N:=FNum) [0; 0]%float [49; 49]%float) (MkSegment (N:=FNum) [1; 1]%float [2; 1]%float)) with
    (let* p := (let* bad := (let* c := line_is_coplanar LA None (MkLine (N:=FNum) [0; 0]%float [49; 49]%float) (MkLine (N:=FNum) [1; 1]%float [1; 0]%float) in Ok (negb c)) in
       if bad : bool then Raise (ValueError "The lines must be coplanar.") else line_intersect_line LA tol_default false (MkLine (N:=FNum) [0; 0]%float [49; 49]%float) (MkLine (N:=FNum) [1; 1]%float [1; 0]%float)) in
     let* on_a := segment_contains_point tol_default (MkSegment (N:=FNum) [0; 0]%float [49; 49]%float) p in let* on_b := segment_contains_point tol_default (MkSegment (N:=FNum) [1; 1]%float [2; 1]%float) p in
     if negb (on_a && on_b) then Raise (ValueError "The line segments must intersect.") else Ok p).
  rewrite H. reflexivity.
Qed.
Print Assumptions C93_touching_refuted.

(** The hypotheses of C93_intersect are met by crossing diagonals, and by segments whose lines cross outside of them. *)
Theorem C93_nonvacuous : exists (s o o' : segment FNum), let a := [0; 0]%float in let b := [2; 3]%float in let c := [2; 0]%float in let d := [0; 1]%float in let d' := [3; 1]%float in
  segment_new a b = Ok s /\ segment_new c d = Ok o /\ segment_new c d' = Ok o' /\ Forall (on_grid 0 8) a /\ Forall (on_grid 0 8) b /\ Forall (on_grid 0 8) c /\ Forall (on_grid 0 8) d /\ Forall (on_grid 0 8) d' /\ (Z.of_nat (length a) * (8 * 8) <= 2 ^ 14)%Z /\
  Forall (fun y => Rabs y <= IZR 8 * bpow radix2 0) (sub (map FR b) (map FR a)) /\ Forall (fun y => Rabs y <= IZR 8 * bpow radix2 0) (sub (map FR d) (map FR c)) /\ Forall (fun y => Rabs y <= IZR 8 * bpow radix2 0) (sub (map FR d') (map FR c)) /\
  ~ dependent (sub (map FR b) (map FR a)) (sub (map FR d) (map FR c)) /\ ~ dependent (sub (map FR b) (map FR a)) (sub (map FR d') (map FR c)) /\
  (exists X, on_segment (map FR a) (map FR b) X /\ on_segment (map FR c) (map FR d) X /\ X <> map FR b /\ X <> map FR c /\ X <> map FR d) /\
  (exists X, on_line (map FR a) (sub (map FR b) (map FR a)) X /\ on_line (map FR c) (sub (map FR d') (map FR c)) X /\ X <> map FR b /\ X <> map FR c /\ X <> map FR d' /\ ~ (on_segment (map FR a) (map FR b) X /\ on_segment (map FR c) (map FR d') X)) /\
  (forall LA, exists x, segment_intersect_segment LA tol_default false s o = Ok x) /\ (forall LA, segment_intersect_segment LA tol_default false s o' = Raise (ValueError "The line segments must intersect.")).
Proof.
  assert (V3 : FR 3%float = 3) by (erewrite FR_val by (vm_compute; reflexivity); simpl; unfold F2R; simpl; lra). assert (V0 : FR 0%float = 0) by apply zero_F. assert (V1 : FR 1%float = 1) by apply one_F. assert (V2 : FR 2%float = 2) by (erewrite FR_val by (vm_compute; reflexivity); simpl; unfold F2R; simpl; lra).
  assert (G0 : on_grid 0 8 0%float) by (lit 0%Z). assert (G1 : on_grid 0 8 1%float) by (lit 1%Z). assert (G2 : on_grid 0 8 2%float) by (lit 2%Z). assert (G3 : on_grid 0 8 3%float) by (lit 3%Z).
  exists (MkSegment (N:=FNum) [0; 0]%float [2; 3]%float), (MkSegment (N:=FNum) [2; 0]%float [0; 1]%float), (MkSegment (N:=FNum) [2; 0]%float [3; 1]%float). cbv zeta. cbn [map]. rewrite V0, V1, V2, V3. change (bpow radix2 0) with 1.
  split; [reflexivity|]. split; [reflexivity|]. split; [reflexivity|]. do 5 (split; [constructor; [auto|constructor; [auto|constructor]]|]). split; [simpl; lia|].
  do 3 (split; [unfold sub; repeat constructor; unfold Rabs; destruct Rcase_abs; lra|]).
  split. { intro D. apply dependent_sq in D; [|reflexivity]. unfold sub in D. cbn [dot] in D. lra. } split. { intro D. apply dependent_sq in D; [|reflexivity]. unfold sub in D. cbn [dot] in D. lra. }
  split. { exists [1 / 2; 3 / 4]. split; [exists (1 / 4); split; [lra|]; unfold add, scale, sub; cbn [map]; repeat (apply (f_equal2 (@cons R)); [lra|]); reflexivity|]. split; [exists (3 / 4); split; [lra|]; unfold add, scale, sub; cbn [map]; repeat (apply (f_equal2 (@cons R)); [lra|]); reflexivity|]. repeat split; intro Q; injection Q; intros; lra. }
  split. { exists [-4; -6]. split; [exists (-2); unfold add, scale, sub; cbn [map]; repeat (apply (f_equal2 (@cons R)); [lra|]); reflexivity|]. split; [exists (-6); unfold add, scale, sub; cbn [map]; repeat (apply (f_equal2 (@cons R)); [lra|]); reflexivity|]. do 3 (split; [intro Q; injection Q; intros; lra|]). intros ((t & Ht & Q) & _). unfold add, scale, sub in Q. cbn [map] in Q. injection Q. intros. lra. }
  split; [intro LA; eexists; reflexivity|intro LA; reflexivity].
Qed.
Print Assumptions C93_nonvacuous.
