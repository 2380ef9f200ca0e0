(** * Property C92: parallel tests, meeting points and distances of lines with whole-number coordinates, in double precision *)
From Coq Require Import String Reals List ZArith Floats Lra Lia Psatz Bool.
From Flocq Require Import Core BinarySingleNaN.
From Flocq Require Import IEEE754.PrimFloat.
From Verif.Model Require Import Outcome Num Instances Numpy BaseArray Vector Points Functions Line.
From Verif.Spec Require Import Geometry Tolerance Floats Grid.
From Verif.Proof Require Import VecAlg Bridge Vectors Floats FloatErr.
From Verif.Prop Require Import Floats Accuracy AnyOrder Decisions Projections Grid GridCircles.
From Verif.Prop Require LinePairs Planes.
From Verif.Proof Require Lines Points.
Import ListNotations.
Local Open Scope R_scope.

(** ** Parallel or not, decided exactly *)
Lemma grid_self e M (v : list flt) : grid_ok (e + e) -> (0 <= M)%Z -> (Z.of_nat (length v) * (M * M) < 2 ^ 53)%Z -> Forall (on_grid e M) v ->
  exists k, (0 <= k <= Z.of_nat (length v) * (M * M))%Z /\ dot (map FR v) (map FR v) = IZR k * bpow radix2 (e + e) /\ (is_zero_vec (map FR v) \/ (1 <= k)%Z /\ bpow radix2 e <= len (map FR v)).
Proof.
  intros G P B H. destruct (grid_dots e e M M G P P v v eq_refl H H B) as ((_ & k & Bk & Ek) & E). rewrite E in Ek. exists k. pose proof (dot_self_nonneg (map FR v)) as D0. pose proof (bpow_gt_0 radix2 e) as Be. pose proof (bpow_gt_0 radix2 (e + e)) as Bee.
  assert (k0 : (0 <= k)%Z). { apply le_IZR. apply Rmult_le_reg_r with (bpow radix2 (e + e)); auto. rewrite Rmult_0_l, <- Ek. exact D0. }
  split; [lia|]. split; [exact Ek|]. destruct (Z.eq_dec k 0) as [->|NZ]; [left; apply dot_self_zero; rewrite Ek; ring|right]. split; [lia|].
  apply Rsqr_incr_0; [|lra|apply len_nonneg]. unfold Rsqr. rewrite len_sq, Ek, <- bpow_plus. rewrite <- (Rmult_1_l (bpow radix2 (e + e))) at 1. apply Rmult_le_compat_r; [lra|]. apply IZR_le. lia.
Qed.
Lemma cos_gap (k k1 k2 : Z) b b' D L1 L2 : 0 < b -> 0 < b' -> 0 < L1 -> 0 < L2 -> L1 * L1 = IZR k1 * (b * b) -> L2 * L2 = IZR k2 * (b' * b') -> D = IZR k * (b * b') -> (k * k < k1 * k2)%Z -> (k1 * k2 <= 2 ^ 28)%Z ->
  Rabs (D / (L1 * L2)) <= 1 - / 2 ^ 29.
Proof.
  intros Pb Pb' P1 P2 E1 E2 ED Lt Le. apply Rsqr_incr_0_var; [|simpl; lra]. rewrite <- Rsqr_abs. unfold Rsqr, Rdiv. assert (T : 1 <= IZR (k1 * k2) - IZR (k * k)) by (rewrite <- minus_IZR; apply IZR_le; lia). assert (T2 : IZR (k1 * k2) <= 268435456) by (change 268435456 with (IZR (2 ^ 28)); apply IZR_le; exact Le).
  rewrite mult_IZR in *. rewrite mult_IZR in T. set (x := IZR k1 * IZR k2) in *. assert (K2 : 0 <= IZR k * IZR k) by apply Rle_0_sqr. assert (x0 : 0 < x) by lra.
  assert (E : D * / (L1 * L2) * (D * / (L1 * L2)) = IZR k * IZR k / x). { assert (N1 : IZR k1 <> 0) by (intro Z; unfold x in x0; rewrite Z in x0; lra). assert (N2 : IZR k2 <> 0) by (intro Z; unfold x in x0; rewrite Z in x0; lra).
    replace (D * / (L1 * L2) * (D * / (L1 * L2))) with (D * D / ((L1 * L1) * (L2 * L2))) by (field; lra). rewrite E1, E2, ED. unfold x. field. repeat split; auto; lra. }
  rewrite E. apply Rmult_le_reg_r with x; auto. unfold Rdiv. rewrite Rmult_assoc, Rinv_l by lra. assert (/ 268435456 * x <= 1) by lra. simpl. nra.
Qed.
Theorem C92_is_parallel : forall e f M M' (v o : list flt), (-300 <= e <= 300)%Z -> (-300 <= f <= 300)%Z -> (1 <= M)%Z -> (1 <= M')%Z -> v <> [] -> length o = length v -> (Z.of_nat (length v) * (M * M') <= 2 ^ 14)%Z ->
  Forall (on_grid e M) v -> Forall (on_grid f M') o -> exists b, is_parallel (N:=FNum) tol_default v o = Ok b /\ (b = true <-> dependent (map FR v) (map FR o)).
Proof.
  intros e f M M' v o He Hf P P' Nv Lo B Hv Ho. assert (n1 : (1 <= Z.of_nat (length v))%Z) by (destruct v; [contradiction|cbn [length]; lia]). set (n := Z.of_nat (length v)) in *.
  assert (Q1 : (1 <= M * M')%Z) by nia. assert (Bn : (n <= 2 ^ 14)%Z) by nia. assert (BM : (n * M <= 2 ^ 14)%Z) by nia. assert (BM' : (n * M' <= 2 ^ 14)%Z) by nia. assert (CM : (n * (M * M) <= 2 ^ 28)%Z) by nia. assert (CM' : (n * (M' * M') <= 2 ^ 28)%Z) by nia.
  destruct (grid_self e M v ltac:(unfold grid_ok; lia) ltac:(lia) ltac:(fold n; lia) Hv) as (k1 & B1 & E1 & Z1). destruct (grid_self f M' o ltac:(unfold grid_ok; lia) ltac:(lia) ltac:(rewrite Lo; fold n; lia) Ho) as (k2 & B2 & E2 & Z2). rewrite Lo in B2. fold n in B1, B2.
  assert (Ln : (Z.of_nat (length v) <= max_dim)%Z) by (unfold max_dim; fold n; lia).
  assert (Mv : Forall moderate v) by (apply half_moderate_m; apply (grid_half_moderate e M); auto; nia). assert (Mo : Forall moderate o) by (apply half_moderate_m; apply (grid_half_moderate f M'); auto; nia).
  assert (Zv : zero_or_normal v) by (destruct Z1 as [Z1|(_ & Z1)]; [left; auto|right; eapply Rle_trans; [|exact Z1]; apply bpow_le; lia]). assert (Zo : zero_or_normal o) by (destruct Z2 as [Z2|(_ & Z2)]; [left; auto|right; eapply Rle_trans; [|exact Z2]; apply bpow_le; lia]).
  assert (LR : length (map FR v) = length (map FR o)) by (rewrite !map_length; auto). pose proof (dependent_sq (map FR v) (map FR o) LR) as DS.
  destruct (grid_dots e f M M' ltac:(unfold grid_ok; lia) ltac:(lia) ltac:(lia) v o (eq_sym Lo) Hv Ho ltac:(fold n; lia)) as ((_ & k & _ & Ek) & E). rewrite E in Ek.
  destruct (Req_dec (dot (map FR v) (map FR o) * dot (map FR v) (map FR o)) (dot (map FR v) (map FR v) * dot (map FR o) (map FR o))) as [Y|N].
  - exists true. split; [|split; auto; intros _; apply DS; exact Y]. apply C83_parallel_recognised; auto. apply DS. exact Y.
  - assert (ND : ~ dependent (map FR v) (map FR o)) by (intro D; apply N; apply DS; exact D). destruct Z1 as [Z1|(K1 & L1)]; [exfalso; apply ND; apply zero_dependent_l; auto|]. destruct Z2 as [Z2|(K2 & L2)]; [exfalso; apply ND; apply zero_dependent_r; auto|].
    destruct (C83_is_parallel v o (eq_sym Lo) Nv Ln Mv Mo ltac:(eapply Rle_trans; [|exact L1]; apply bpow_le; lia) ltac:(eapply Rle_trans; [|exact L2]; apply bpow_le; lia)) as (r & Er & _ & Hr). exists r. split; [exact Er|]. rewrite Hr; [split; [discriminate|intro D; contradiction]|].
    pose proof (bpow_gt_0 radix2 e) as Be. pose proof (bpow_gt_0 radix2 f) as Bf. pose proof (len_sq (map FR v)) as S1. pose proof (len_sq (map FR o)) as S2. rewrite E1, bpow_plus in S1. rewrite E2, bpow_plus in S2. rewrite bpow_plus in Ek.
    assert (Lt : (k * k < k1 * k2)%Z). { apply lt_IZR. rewrite !mult_IZR. pose proof (cauchy_schwarz_sq (map FR v) (map FR o) LR) as CS. rewrite E1, E2, Ek, !bpow_plus in N, CS. set (b := bpow radix2 e) in *. set (b' := bpow radix2 f) in *. assert (PP : 0 < (b * b) * (b' * b')) by (repeat apply Rmult_lt_0_compat; auto).
      replace (IZR k * (b * b') * (IZR k * (b * b'))) with (IZR k * IZR k * ((b * b) * (b' * b'))) in N, CS by ring. replace (IZR k1 * (b * b) * (IZR k2 * (b' * b'))) with (IZR k1 * IZR k2 * ((b * b) * (b' * b'))) in N, CS by ring. apply Rmult_lt_reg_r with ((b * b) * (b' * b')); auto. lra. }
    assert (Le : (k1 * k2 <= 2 ^ 28)%Z). { apply Z.le_trans with ((n * (M * M)) * (n * (M' * M')))%Z; [apply Z.mul_le_mono_nonneg; lia|]. replace (n * (M * M) * (n * (M' * M')))%Z with ((n * (M * M')) * (n * (M * M')))%Z by ring. nia. }
    assert (L1' := Rlt_le_trans _ _ _ Be L1). assert (L2' := Rlt_le_trans _ _ _ Bf L2). pose proof (cos_gap k k1 k2 _ _ _ _ _ Be Bf L1' L2' S1 S2 Ek Lt Le) as Gp. cbn zeta. eapply Rle_lt_trans; [exact Gp|].
    assert (I : INR (length v) <= 16384). { rewrite INR_IZR_INZ. fold n. change 16384 with (IZR (2 ^ 14)). apply IZR_le. exact Bn. } unfold rel_default. simpl. simpl in I. lra.
Qed.
Print Assumptions C92_is_parallel.

(** Above the size limit the answer can be wrong: (200, 199) and (199, 198) are not parallel. *)
Theorem C92_parallel_refuted : exists (v o : list flt) (l m : line FNum), Forall (on_grid 0 200) v /\ Forall (on_grid 0 200) o /\ length o = length v /\ ~ dependent (map FR v) (map FR o) /\ is_parallel (N:=FNum) tol_default v o = Ok true /\
  line_new [0; 0]%float v = Ok l /\ line_new [1; 0]%float o = Ok m /\ (exists X, on_line [0; 0] (map FR v) X /\ on_line [1; 0] (map FR o) X) /\
  forall LA c, line_intersect_line LA tol_default c l m = Raise (ValueError "The lines must not be parallel.").
Proof.
  assert (V1 : FR 200%float = 200) by (erewrite FR_val by (vm_compute; reflexivity); simpl; unfold F2R; simpl; lra). assert (V2 : FR 199%float = 199) by (erewrite FR_val by (vm_compute; reflexivity); simpl; unfold F2R; simpl; lra). assert (V3 : FR 198%float = 198) by (erewrite FR_val by (vm_compute; reflexivity); simpl; unfold F2R; simpl; lra).
  exists [200; 199]%float, [199; 198]%float, (MkLine (N:=FNum) [0; 0]%float [200; 199]%float), (MkLine (N:=FNum) [1; 0]%float [199; 198]%float).
  assert (G : forall x k, finite x -> FR x = IZR k -> (Z.abs k <= 200)%Z -> on_grid 0 200 x) by (intros x k F E B; split; auto; exists k; split; auto; rewrite E; simpl; ring).
  split; [constructor; [apply (G _ 200%Z); auto; [reflexivity|lia]|constructor; [apply (G _ 199%Z); auto; [reflexivity|lia]|constructor]]|]. split; [constructor; [apply (G _ 199%Z); auto; [reflexivity|lia]|constructor; [apply (G _ 198%Z); auto; [reflexivity|lia]|constructor]]|].
  split; [reflexivity|]. split. { intro D. apply dependent_sq in D; [|reflexivity]. cbn [map dot] in D. rewrite V1, V2, V3 in D. lra. } split; [reflexivity|]. split; [reflexivity|]. split; [reflexivity|]. split.
  { exists [-39600; -39402]. cbn [map]. rewrite V1, V2, V3. split; [exists (-198)|exists (-199)]; unfold add, scale; cbn [map]; repeat (apply (f_equal2 (@cons R)); [lra|]); reflexivity. }
  intros LA c. reflexivity.
Qed.
Print Assumptions C92_parallel_refuted.

(** ** The point where two lines meet, or the point of the first nearest to the second *)
Lemma nearest_unique p d q w X Y : Lines.pv_ok p d -> Lines.pv_ok q w -> length q = length p -> (length p <= 3)%nat -> ~ dependent d w -> on_line p d X -> on_line q w Y -> line_distance p d q w (dist X Y) ->
  X = add p (scale (LinePairs.par_a (sub q p) d w) d) /\ dist X Y = Rabs (LinePairs.par_c (sub q p) d w) * len (LinePairs.nrm d w).
Proof.
  intros H H' Lq L3 D (s & EX) (t & EY) (_ & Mn). pose proof H as (L & Hz & Hp). pose proof H' as (L' & Hz' & Hp').
  destruct (LinePairs.nrm_facts d w) as (Ln & P & Pd & Pe); [congruence|lia|auto|].
  destruct (LinePairs.line_pair_distance p d q w H H' Lq L3 D) as (E & Lo). cbv zeta in E, Lo. set (V := Rabs _ * _) in *.
  assert (EV : dist X Y = V). { apply Rle_antisym; [rewrite <- E; apply Mn; eexists; reflexivity|apply Lo; [exists s; auto|exists t; auto]]. }
  split; [|exact EV]. pose proof (LinePairs.line_pair_diff p d q w s t H H' Lq L3 D) as K. cbv zeta in K. rewrite <- EX, <- EY in K. set (v := sub q p) in *. set (A := LinePairs.par_a v d w - s) in *. set (B := LinePairs.par_b v d w + t) in *. set (c := LinePairs.par_c v d w) in *.
  set (u := add (scale A (pad_to 3 d)) (scale B (pad_to 3 w))) in *. assert (Lu : length u = 3%nat) by (unfold u; len). assert (Z : dot u (LinePairs.nrm d w) = 0) by (unfold u; rewrite dot_add_l by len; rewrite !dot_scale_l, Pd, Pe; ring).
  assert (DU : dot u u = 0). { assert (Q : dist X Y * dist X Y = dot u u + c * c * dot (LinePairs.nrm d w) (LinePairs.nrm d w)). { rewrite dist_sym. unfold dist. rewrite len_sq, <- (Planes.pad_dot 3), K by auto. rewrite Points.dot_add_add by len. rewrite (dot_scale_r _ u), Z, dot_scale_l, dot_scale_r. ring. } rewrite EV in Q. unfold V in Q. replace (Rabs c * len (LinePairs.nrm d w) * (Rabs c * len (LinePairs.nrm d w))) with (Rabs c * Rabs c * (len (LinePairs.nrm d w) * len (LinePairs.nrm d w))) in Q by ring. rewrite len_sq in Q. replace (Rabs c * Rabs c) with (c * c) in Q by (unfold Rabs; destruct (Rcase_abs c); ring). lra. }
  rewrite EX. f_equal. f_equal. destruct (Req_dec A 0) as [A0|A0]; [unfold A in A0; lra|]. exfalso. apply D. apply (Planes.pad_dependent 3); [congruence|]. left. exists (- (B / A)). apply dot_self_zero in DU. unfold is_zero_vec in DU. rewrite Lu in DU.
  apply Points.pt_ext; [len|]. intros i _. apply (f_equal (fun z => nth i z 0)) in DU. unfold u in DU. rewrite Points.nth_add, !Points.nth_scale, Points.nth_origin in DU by len. rewrite Points.nth_scale. apply Rmult_eq_reg_l with A; auto. transitivity (- (B * nth i (pad_to 3 w) 0)); [lra|]. field. auto.
Qed.

Lemma quot_err (u K n m N s : R) : 0 < u <= / 1024 -> 0 < K -> Rabs (n - K) <= u * K -> Rabs (m - n * n) <= u * (n * n) -> Rabs (s - N / m) <= u * Rabs (N / m) ->
  Rabs (s - N / (K * K)) <= 5 * u * Rabs (N / (K * K)) /\ / 2 * (K * K) <= m /\ m <= 2 * (K * K).
Proof.
  intros Hu HK Hn Hm Hs. apply Rabs_le_inv in Hn, Hm. assert (KK : 0 < K * K) by (apply Rmult_lt_0_compat; auto). assert (n0 : 0 < n) by nra. assert (nn : 0 < n * n) by (apply Rmult_lt_0_compat; auto).
  assert (U2 : 0 <= u * u) by (apply Rmult_le_pos; lra). assert (U3 : u * u <= / 1024 * u) by (apply Rmult_le_compat_r; lra).
  assert (Q1 : (1 - u) * K <= n) by lra. assert (Q2 : n <= (1 + u) * K) by lra. assert (N1 : ((1 - u) * K) * ((1 - u) * K) <= n * n) by (apply Rmult_le_compat; try lra; apply Rmult_le_pos; lra). assert (N2 : n * n <= ((1 + u) * K) * ((1 + u) * K)) by (apply Rmult_le_compat; lra).
  assert (P0 : 0 <= u * u * (K * K)) by (apply Rmult_le_pos; lra). replace ((1 - u) * K * ((1 - u) * K)) with ((1 - 2 * u) * (K * K) + u * u * (K * K)) in N1 by ring. replace ((1 + u) * K * ((1 + u) * K)) with ((1 + 2 * u + u * u) * (K * K)) in N2 by ring. assert (N1' : (1 - 2 * u) * (K * K) <= n * n) by lra.
  assert (M1 : (1 - 3 * u) * (K * K) <= m). { assert ((1 - u) * ((1 - 2 * u) * (K * K)) <= (1 - u) * (n * n)) by (apply Rmult_le_compat_l; lra). assert (0 <= u * u * (K * K)) by (apply Rmult_le_pos; lra). lra. }
  assert (M2 : m <= (1 + 31 / 10 * u) * (K * K)). { assert ((1 + u) * (n * n) <= (1 + u) * ((1 + 2 * u + u * u) * (K * K))) by (apply Rmult_le_compat_l; lra). assert ((1 + u) * (1 + 2 * u + u * u) <= 1 + 31 / 10 * u) by nra. assert ((1 + u) * (1 + 2 * u + u * u) * (K * K) <= (1 + 31 / 10 * u) * (K * K)) by (apply Rmult_le_compat_r; lra). lra. }
  assert (B1 : / 2 * (K * K) <= m) by nra. assert (B2 : m <= 2 * (K * K)) by nra. split; [|auto]. assert (m0 : 0 < m) by lra. set (S := N / (K * K)) in *. set (a := K * K / m). assert (Ea : a * m = K * K) by (unfold a; field; lra).
  assert (EN : N / m = S * a) by (unfold S, a; field; lra). rewrite EN in Hs. assert (a1 : a <= 1 + 31 / 10 * u). { apply Rmult_le_reg_r with m; auto. rewrite Ea. assert ((1 + 31 / 10 * u) * ((1 - 3 * u) * (K * K)) <= (1 + 31 / 10 * u) * m) by (apply Rmult_le_compat_l; lra). assert (1 <= (1 + 31 / 10 * u) * (1 - 3 * u)) by nra. assert (1 * (K * K) <= (1 + 31 / 10 * u) * (1 - 3 * u) * (K * K)) by (apply Rmult_le_compat_r; lra). lra. }
  assert (a2 : 1 - 31 / 10 * u <= a). { apply Rmult_le_reg_r with m; auto. rewrite Ea. assert ((1 - 31 / 10 * u) * m <= (1 - 31 / 10 * u) * ((1 + 31 / 10 * u) * (K * K))) by (apply Rmult_le_compat_l; lra). assert ((1 - 31 / 10 * u) * (1 + 31 / 10 * u) <= 1) by nra. assert ((1 - 31 / 10 * u) * (1 + 31 / 10 * u) * (K * K) <= 1 * (K * K)) by (apply Rmult_le_compat_r; lra). lra. }
  replace (s - S) with ((s - S * a) + S * (a - 1)) by ring. eapply Rle_trans; [apply Rabs_triang|]. rewrite Rabs_mult in *. assert (A0 : Rabs a <= 1 + 31 / 10 * u) by (apply Rabs_le; lra). assert (A1 : Rabs (a - 1) <= 31 / 10 * u) by (apply Rabs_le; lra). pose proof (Rabs_pos S) as S0. set (T := Rabs S) in *.
  assert (T * Rabs (a - 1) <= T * (31 / 10 * u)) by (apply Rmult_le_compat_l; lra). assert (u * (T * Rabs a) <= u * (T * (1 + 31 / 10 * u))) by (apply Rmult_le_compat_l; [lra|apply Rmult_le_compat_l; lra]). assert (T * (u * u) <= T * (/ 1024 * u)) by (apply Rmult_le_compat_l; lra). assert (0 <= T * u) by (apply Rmult_le_pos; lra). lra.
Qed.
Lemma coord_meet5 (u S s pi di Xi xi wi dl : R) : 0 < u <= / 1024 -> 0 <= dl -> Xi = pi + S * di -> Rabs (s - S) <= 5 * u * Rabs S -> Rabs (wi - s * di) <= u * Rabs (s * di) + dl -> Rabs (xi - (pi + wi)) <= u * Rabs (pi + wi) ->
  Rabs (xi - Xi) <= u * Rabs Xi + 7 * u * Rabs (Xi - pi) + 2 * dl.
Proof.
  intros Hu Hd EX Hs Hw Hx. replace (Xi - pi) with (S * di) by lra. set (A := Rabs (S * di)). assert (A0 : 0 <= A) by apply Rabs_pos.
  assert (H1 : Rabs ((s - S) * di) <= 5 * u * A) by (unfold A; rewrite !Rabs_mult, <- Rmult_assoc; apply Rmult_le_compat_r; [apply Rabs_pos|auto]).
  assert (H2 : Rabs (s * di) <= A + 5 * u * A). { replace (s * di) with (S * di + (s - S) * di) by ring. eapply Rle_trans; [apply Rabs_triang|]. fold A. lra. }
  assert (UA : u * (u * A) <= / 1024 * (u * A)) by (apply Rmult_le_compat_r; [apply Rmult_le_pos; lra|lra]). assert (UA0 : 0 <= u * A) by (apply Rmult_le_pos; lra).
  assert (H3 : Rabs (wi - S * di) <= (6 + / 128) * (u * A) + dl). { replace (wi - S * di) with ((wi - s * di) + (s - S) * di) by ring. eapply Rle_trans; [apply Rabs_triang|]. assert (u * Rabs (s * di) <= u * (A + 5 * u * A)) by (apply Rmult_le_compat_l; lra). lra. }
  assert (H4 : Rabs (pi + wi) <= Rabs Xi + Rabs (wi - S * di)). { replace (pi + wi) with (Xi + (wi - S * di)) by (rewrite EX; ring). apply Rabs_triang. }
  replace (xi - Xi) with ((xi - (pi + wi)) + (wi - S * di)) by (rewrite EX; ring). eapply Rle_trans; [apply Rabs_triang|]. set (W := Rabs (wi - S * di)) in *. assert (W0 : 0 <= W) by apply Rabs_pos. assert (u * Rabs (pi + wi) <= u * (Rabs Xi + W)) by (apply Rmult_le_compat_l; lra).
  assert (u * W <= / 1024 * W) by (apply Rmult_le_compat_r; lra). lra.
Qed.
(** A float multiple of a vector added to a point. *)
Lemma step_F (s : flt) (p d : list flt) : within 300 s -> Forall (within 300) p -> Forall (within 300) d -> length p = length d ->
  exists x, bind (vmuls (N:=FNum) s d) (fun w => vadd (N:=FNum) p w) = Ok x /\ length x = length p /\ Forall finite x /\
    forall i, exists w, Rabs (w - FR s * nth i (map FR d) 0) <= uro * Rabs (FR s * nth i (map FR d) 0) + eta /\ Rabs (nth i (map FR x) 0 - (nth i (map FR p) 0 + w)) <= uro * Rabs (nth i (map FR p) 0 + w) /\ (FR s = 0 -> nth i (map FR x) 0 = nth i (map FR p) 0).
Proof.
  intros Ws Hp Hd L. set (w := map (fun y => s * y)%float d).
  assert (Hw : Forall2 (fun w y => within 600 w /\ FR w = rnd (FR s * FR y)) w d).
  { unfold w. clear - Ws Hd. induction Hd as [|y d Hy Hd IH]; [constructor|]. cbn [map]. constructor; [|exact IH]. destruct (within_mul 300 300 s y ltac:(lia) Ws Hy) as (Wm & Em). auto. }
  assert (Fw : Forall finite w) by (clear - Hw; induction Hw as [|? ? ? ? ((F & _) & _) _ IH]; constructor; auto). assert (Lpw : @length flt p = @length flt w) by (unfold w; rewrite map_length; exact L).
  assert (Hx : Forall finite (map2 (N:=FNum) PrimFloat.add p w) /\ length (map2 (N:=FNum) PrimFloat.add p w) = length p /\
    forall i, Rabs (nth i (map FR w) 0 - FR s * nth i (map FR d) 0) <= uro * Rabs (FR s * nth i (map FR d) 0) + eta /\ Rabs (nth i (map FR (map2 (N:=FNum) PrimFloat.add p w)) 0 - (nth i (map FR p) 0 + nth i (map FR w) 0)) <= uro * Rabs (nth i (map FR p) 0 + nth i (map FR w) 0) /\ (FR s = 0 -> nth i (map FR (map2 (N:=FNum) PrimFloat.add p w)) 0 = nth i (map FR p) 0)).
  { clear - Hw Hp L. clearbody w. revert p Hp L. induction Hw as [|y z w d (Wy & Ey) Hw IH]; intros [|c p] Hp L; try discriminate L.
    - split; [constructor|]. split; [reflexivity|]. intro i. cbn [map map2]. destruct i; cbn [nth]; rewrite Rmult_0_r, Rplus_0_r, Rminus_0_r, !Rabs_R0; pose proof eta_pos; (split; [lra|split; [lra|reflexivity]]).
    - pose proof (Forall_inv Hp) as Hc. destruct (IH p (Forall_inv_tail Hp) ltac:(injection L; auto)) as (I1 & I2 & I3). cbn [map2 map].
      destruct (within_add 600 c y ltac:(lia) (within_le 300 600 c ltac:(lia) Hc) Wy) as ((Fz & _) & Ez).
      split; [constructor; auto|]. split; [cbn [length]; f_equal; exact I2|]. intros [|i]; [|exact (I3 i)]. cbn [nth]. rewrite Ez, Ey. split; [apply rnd_err|]. split; [rewrite <- Ey; apply rnd_plus|]. intro Z. rewrite Z, Rmult_0_l, rnd_0, Rplus_0_r. apply rnd_FR. apply Hc. }
  destruct Hx as (Fx & Lx & Hx). exists (map2 (N:=FNum) PrimFloat.add p w). split.
  { unfold vmuls. change (vscale (N:=FNum) s d) with w. rewrite (wrap1_F w Fw). cbn [bind]. unfold vadd. change (nadd (n:=FNum)) with PrimFloat.add. rewrite (bcast_F _ p w Lpw). cbn [bind]. apply wrap1_F. exact Fx. }
  split; [exact Lx|]. split; [exact Fx|]. intro i. exists (nth i (map FR w) 0). apply Hx.
Qed.
(** The exact quantities computed for a pair of lines that are not parallel. *)
Lemma pair_F e f g M M' (p d q w : list flt) : (-100 <= e <= 100)%Z -> (-100 <= f <= 100)%Z -> (-100 <= g <= 100)%Z -> (0 <= M <= 2 ^ 27)%Z -> (0 <= M')%Z -> (M' * M' <= 2 ^ 14)%Z -> p <> [] -> (length p <= 3)%nat -> length q = length p -> length d = length p -> length w = length p ->
  Forall (on_grid e M) p -> Forall (on_grid f M') d -> Forall (on_grid e M) q -> Forall (on_grid g M') w -> ~ dependent (map FR d) (map FR w) ->
  exists ab pe c, from_points (N:=FNum) p q = Ok ab /\ cross (N:=FNum) d w = Ok pe /\ cross (N:=FNum) ab w = Ok c /\ length c = length pe /\ length pe = 3%nat /\ length ab = length p /\
    let PE := LinePairs.nrm (map FR d) (map FR w) in let W := sub (map FR q) (map FR p) in
    (exists a, (Z.abs a < 2 ^ 53)%Z /\ FR (dot_raw (N:=FNum) c pe) = IZR a * bpow radix2 (e + g + (f + g)) /\ finite (dot_raw (N:=FNum) c pe)) /\
    FR (dot_raw (N:=FNum) c pe) = dot (cross_spec (pad_to 3 W) (pad_to 3 (map FR w))) PE /\
    (exists k, (1 <= k < 2 ^ 53)%Z /\ dot PE PE = IZR k * bpow radix2 (f + g + (f + g))) /\ finite (norm_raw (N:=FNum) pe) /\ FR (norm_raw (N:=FNum) pe) = rnd (len PE) /\ bpow radix2 (f + g) <= len PE /\
    (length p = 3%nat -> (exists a, (Z.abs a < 2 ^ 53)%Z /\ FR (dot_raw (N:=FNum) ab pe) = IZR a * bpow radix2 (e + (f + g))) /\ finite (dot_raw (N:=FNum) ab pe) /\ FR (dot_raw (N:=FNum) ab pe) = dot (pad_to 3 W) PE).
Proof.
  intros He Hf Hg HM P' BM' Np L3 Lq Ld Lw Hp Hd Hq Hw ND. assert (Q : (M' <= 2 ^ 7)%Z) by nia. assert (Nd : d <> []) by (intro Z; rewrite Z in Ld; destruct p; [contradiction|discriminate]). assert (Nw : w <> []) by (intro Z; rewrite Z in Lw; destruct p; [contradiction|discriminate]).
  destruct (C86_from_points e M p q ltac:(unfold grid_ok; lia) ltac:(lia) Np Lq Hp Hq) as (ab & Eab & Gab & Lab & Mab). assert (Nab : ab <> []) by (intro Z; rewrite Z in Lab; destruct p; [contradiction|discriminate]). assert (MM1 : (0 <= M' * M')%Z) by nia. assert (MM2 : (0 <= M * M' <= 2 ^ 34)%Z) by nia.
  destruct (C86_cross f g M' M' d w ltac:(unfold grid_ok; lia) ltac:(lia) Nd Nw (eq_ind_r (fun n => (n <= 3)%nat) L3 Ld) (eq_ind_r (fun n => (n <= 3)%nat) L3 Lw) Hd Hw) as (pe & Epe & Lpe & Gpe & Mpe).
  destruct (C86_cross e g (2 * M) M' ab w ltac:(unfold grid_ok; lia) ltac:(lia) Nab Nw (eq_ind_r (fun n => (n <= 3)%nat) L3 Lab) (eq_ind_r (fun n => (n <= 3)%nat) L3 Lw) Gab Hw) as (c & Ec & Lc & Gc & Mc).
  assert (Lpe' : @length flt pe = 3%nat) by exact Lpe. assert (Lc' : @length flt c = 3%nat) by exact Lc. assert (Lab' : @length flt ab = @length flt p) by exact Lab. fold (LinePairs.nrm (map FR d) (map FR w)) in Mpe.
  exists ab, pe, c. split; [exact Eab|]. split; [exact Epe|]. split; [exact Ec|]. split; [congruence|]. split; [exact Lpe|]. split; [exact Lab|]. cbv zeta. set (PE := LinePairs.nrm (map FR d) (map FR w)) in *.
  assert (B1 : (3 * (2 * (2 * M * M') * (2 * (M' * M'))) < 2 ^ 53)%Z). { replace (3 * (2 * (2 * M * M') * (2 * (M' * M'))))%Z with (24 * (M * M') * (M' * M'))%Z by ring. assert (24 * (M * M') * (M' * M') <= 24 * 2 ^ 34 * 2 ^ 14)%Z by (apply Z.mul_le_mono_nonneg; lia). lia. }
  destruct (grid_dots (e + g) (f + g) (2 * (2 * M * M')) (2 * (M' * M')) ltac:(unfold grid_ok; lia) ltac:(lia) ltac:(lia) c pe ltac:(congruence) Gc Gpe ltac:(rewrite Lc'; exact B1)) as ((Fn & a & Ba & Ea) & En). rewrite Lc' in Ba. change (Z.of_nat 3) with 3%Z in Ba.
  assert (Bk : (Z.of_nat (@length flt pe) * (2 * (M' * M') * (2 * (M' * M'))) < 2 ^ 53)%Z). { rewrite Lpe'. change (Z.of_nat 3) with 3%Z. assert ((M' * M') * (M' * M') <= 2 ^ 14 * 2 ^ 14)%Z by (apply Z.mul_le_mono_nonneg; lia). lia. }
  split; [exists a; split; [lia|auto]|]. split; [rewrite En, Mc, Mpe, Mab; reflexivity|].
  destruct (grid_self (f + g) (2 * (M' * M')) pe ltac:(unfold grid_ok; lia) ltac:(lia) Bk Gpe) as (k & Hk & Ek & Zk). rewrite Mpe in Ek, Zk.
  assert (NZ : ~ is_zero_vec PE) by (apply Planes.pad_cross_nonzero; rewrite ?map_length; auto; [congruence|rewrite Ld; exact L3]). destruct Zk as [Zk|(Zk & Lk)]; [contradiction|].
  destruct (grid_norm (f + g) (2 * (M' * M')) pe ltac:(unfold grid_ok; lia) ltac:(lia) Bk Gpe) as (Fm & Em). rewrite Mpe in Em.
  split; [exists k; split; [lia|exact Ek]|]. split; [exact Fm|]. split; [exact Em|]. split; [exact Lk|]. intro L. assert (Lab3 : @length flt ab = 3%nat) by (rewrite Lab'; exact L).
  destruct (grid_dots e (f + g) (2 * M) (2 * (M' * M')) ltac:(unfold grid_ok; lia) ltac:(lia) ltac:(lia) ab pe ltac:(congruence) Gab Gpe ltac:(rewrite Lab3; change (Z.of_nat 3) with 3%Z; assert (M * (M' * M') <= 2 ^ 27 * 2 ^ 14)%Z by (apply Z.mul_le_mono_nonneg; lia); lia)) as ((Fx & b & Bb & Eb) & Ex).
  rewrite Lab3 in Bb. change (Z.of_nat 3) with 3%Z in Bb. split; [exists b; split; [assert (M * (M' * M') <= 2 ^ 27 * 2 ^ 14)%Z by (apply Z.mul_le_mono_nonneg; lia); lia|exact Eb]|]. split; [exact Fx|]. rewrite Ex, Mab, Mpe. f_equal. unfold pad_to. rewrite VecAlg.length_sub, !map_length, Lq, L. cbn. rewrite app_nil_r. reflexivity.
Qed.
Lemma pv_F (p d : list flt) : length d = length p -> p <> [] -> ~ is_zero_vec (map FR d) -> Lines.pv_ok (map FR p) (map FR d).
Proof. intros L N Z. split; [rewrite !map_length; auto|]. split; auto. intro E. apply map_eq_nil in E. contradiction. Qed.
Lemma scale_inj0 (p d : pt) (t : R) : length d = length p -> ~ is_zero_vec d -> add p (scale t d) = p -> t = 0.
Proof.
  intros L NZ E. destruct (Req_dec t 0) as [|Nt]; auto. exfalso. apply NZ. unfold is_zero_vec. apply Points.pt_ext; [rewrite length_origin; reflexivity|]. intros i _. rewrite Points.nth_origin. apply (f_equal (fun z => nth i z 0)) in E. rewrite Points.nth_add, Points.nth_scale in E by (rewrite length_scale; auto).
  apply Rmult_eq_reg_l with t; auto. lra.
Qed.
Theorem C92_intersect_line : forall LA (check : bool) e f g M M' (p d q w : list flt) (l m : line FNum), (-100 <= e <= 100)%Z -> (-100 <= f <= 100)%Z -> (-100 <= g <= 100)%Z -> (0 <= M <= 2 ^ 27)%Z -> (1 <= M')%Z -> (length p <= 3)%nat -> length q = length p -> (Z.of_nat (length p) * (M' * M') <= 2 ^ 14)%Z ->
  line_new p d = Ok l -> line_new q w = Ok m -> Forall (on_grid e M) p -> Forall (on_grid f M') d -> Forall (on_grid e M) q -> Forall (on_grid g M') w ->
  (dependent (map FR d) (map FR w) -> line_intersect_line LA tol_default check l m = Raise (ValueError "The lines must not be parallel.")) /\
  (~ dependent (map FR d) (map FR w) -> check = false \/ line_is_coplanar LA None l m = Ok true -> exists x, line_intersect_line LA tol_default check l m = Ok x /\ length x = length p /\ Forall finite x /\
    forall X Y, on_line (map FR p) (map FR d) X -> on_line (map FR q) (map FR w) Y -> line_distance (map FR p) (map FR d) (map FR q) (map FR w) (dist X Y) ->
      forall i, Rabs (nth i (map FR x) 0 - nth i X 0) <= bpow radix2 (-53) * Rabs (nth i X 0) + 7 * bpow radix2 (-53) * Rabs (nth i X 0 - nth i (map FR p) 0) + bpow radix2 (-1073) /\ (X = map FR p -> nth i (map FR x) 0 = nth i (map FR p) 0)).
Proof.
  intros LA check e f g M M' p d q w l m He Hf Hg HM P' L3 Lq B Hl Hm Hp Hd Hq Hw. apply line_new_F in Hl as (-> & Np & Ld), Hm as (-> & Nq & Lw0). assert (Lw : length w = length p) by (rewrite <- Lq; exact Lw0).
  assert (n1 : (1 <= Z.of_nat (length p))%Z) by (destruct p; [contradiction|cbn [length]; lia]). assert (BM : (M' * M' <= 2 ^ 14)%Z) by nia. assert (Nd : d <> []) by (intro Z; rewrite Z in Ld; destruct p; [contradiction|discriminate]).
  destruct (C92_is_parallel f g M' M' d w ltac:(lia) ltac:(lia) P' P' Nd ltac:(congruence) ltac:(rewrite Ld; exact B) Hd Hw) as (b & Eb & Hb).
  assert (Start : line_intersect_line LA tol_default check (MkLine (N:=FNum) p d) (MkLine (N:=FNum) q w) = bind (is_parallel (N:=FNum) tol_default d w) (fun par => if par then Raise (ValueError "The lines must not be parallel.") else
     let* bad := (if check then let* c := line_is_coplanar LA None (MkLine (N:=FNum) p d) (MkLine (N:=FNum) q w) in Ok (negb c) else Ok false) in
     if bad : bool then Raise (ValueError "The lines must be coplanar.") else let* vector_ab := from_points (N:=FNum) p q in let* vector_perpendicular := cross (N:=FNum) d w in let* c := cross (N:=FNum) vector_ab w in let* num := np_dot c vector_perpendicular in let* n := norm vector_perpendicular in
       let* s := ndiv num (nmul n n) in bind (vmuls (N:=FNum) s d) (fun w => vadd (N:=FNum) p w))).
  { unfold line_intersect_line, line_dim, dim1. cbn [l_point l_dir]. fn. rewrite Lq, Nat.eqb_refl. cbn [negb]. destruct (Nat.ltb_spec 3 (length p)) as [L|_]; [lia|]. reflexivity. }
  rewrite Start, Eb. cbn [bind]. clear Start. split.
  { intro D. apply Hb in D. rewrite D. reflexivity. }
  intros ND Chk. destruct b; [exfalso; apply ND; apply Hb; reflexivity|]. assert (EC : (if check then let* c := line_is_coplanar LA None (MkLine (N:=FNum) p d) (MkLine (N:=FNum) q w) in Ok (negb c) else Ok false) = Ok false) by (destruct Chk as [->|Ec]; [reflexivity|destruct check; [rewrite Ec; reflexivity|reflexivity]]).
  rewrite EC. cbn [bind]. clear EC Eb Hb. destruct (pair_F e f g M M' p d q w He Hf Hg HM ltac:(lia) BM Np L3 Lq Ld Lw Hp Hd Hq Hw ND) as (ab & pe & c & -> & -> & Ec & Lc & Lpe & Lab & Hx). cbn [bind]. rewrite Ec. cbn [bind]. rewrite (np_dot_F c pe) by exact Lc. cbn [bind]. unfold norm. cbn [bind].
  cbv zeta in Hx. set (PE := LinePairs.nrm (map FR d) (map FR w)) in *. set (W := sub (map FR q) (map FR p)) in *. destruct Hx as ((a & Ba & Ea & Fa) & EN & (k & Bk & Ek) & Fn & Vn & Kn & _). set (nu := dot_raw (N:=FNum) c pe) in *. set (n := norm_raw (N:=FNum) pe) in *.
  change (nmul (n:=FNum) n n) with (n * n)%float. change (ndiv (n:=FNum) nu (n * n)%float) with (Ok (nu / (n * n))%float). cbn [bind]. set (K := len PE) in *. pose proof (bpow_gt_0 radix2 (f + g)) as Bfg. assert (K0 : 0 < K) by lra.
  pose proof uro_small as (U & U'). pose proof uro_pos as U0. assert (EK : K * K = IZR k * bpow radix2 (f + g + (f + g))) by (unfold K; rewrite len_sq; exact Ek).
  (* sizes *)
  assert (KU : K <= bpow radix2 228). { apply Rsqr_incr_0; [|lra|apply bpow_ge_0]. unfold Rsqr. rewrite EK, <- bpow_plus. apply Rle_trans with (bpow radix2 53 * bpow radix2 400); [|rewrite <- bpow_plus; apply bpow_le; lia]. apply Rmult_le_compat; [apply IZR_le; lia|apply bpow_ge_0| |apply bpow_le; lia]. change (bpow radix2 53) with (IZR (2 ^ 53)). apply IZR_le. lia. }
  assert (KL : bpow radix2 (-200) <= K) by (eapply Rle_trans; [|exact Kn]; apply bpow_le; lia).
  assert (Rn : Rabs (FR n - K) <= uro * K). { rewrite Vn. rewrite <- (Rabs_pos_eq K) at 3 by lra. apply rnd_rel. rewrite Rabs_pos_eq by lra. eapply Rle_trans; [|exact KL]. apply bpow_le. lia. }
  assert (nU : within 228 n). { split; [exact Fn|]. rewrite Vn. apply rnd_bpow_le; [lia|]. rewrite Rabs_pos_eq by lra. exact KU. }
  assert (nL : bpow radix2 (-201) <= FR n). { apply Rabs_le_inv in Rn. assert (bpow radix2 (-200) = 2 * bpow radix2 (-201)) by (change 2 with (bpow radix2 1); rewrite <- bpow_plus; reflexivity). assert (uro * K <= / 2 * K) by (apply Rmult_le_compat_r; lra). lra. }
  destruct (within_mul 228 228 n n ltac:(lia) nU nU) as (mU & Em). set (mm := (n * n)%float) in *. pose proof (bpow_gt_0 radix2 (-201)) as B201. assert (nn : bpow radix2 (-402) <= FR n * FR n). { change (-402)%Z with (-201 + -201)%Z. rewrite bpow_plus. apply Rmult_le_compat; lra. }
  assert (Rm : Rabs (FR mm - FR n * FR n) <= uro * (FR n * FR n)). { pose proof (bpow_ge_0 radix2 (-402)) as B0. rewrite Em. rewrite <- (Rabs_pos_eq (FR n * FR n)) at 3 by lra. apply rnd_rel. rewrite Rabs_pos_eq by lra. eapply Rle_trans; [|exact nn]. apply bpow_le. lia. }
  assert (mL : bpow radix2 (-403) <= FR mm). { apply Rabs_le_inv in Rm. assert (bpow radix2 (-402) = 2 * bpow radix2 (-403)) by (change 2 with (bpow radix2 1); rewrite <- bpow_plus; reflexivity). pose proof (bpow_ge_0 radix2 (-403)). assert (uro * (FR n * FR n) <= / 2 * (FR n * FR n)) by (apply Rmult_le_compat_r; lra). lra. }
  assert (aU : within 453 nu). { split; [exact Fa|]. rewrite Ea, Rabs_mult, <- abs_IZR, (Rabs_pos_eq (bpow _ _)) by apply bpow_ge_0. apply Rle_trans with (bpow radix2 53 * bpow radix2 400); [|rewrite <- bpow_plus; apply bpow_le; lia]. apply Rmult_le_compat; [apply IZR_le; lia|apply bpow_ge_0| |apply bpow_le; lia]. change (bpow radix2 53) with (IZR (2 ^ 53)). apply IZR_le. lia. }
  destruct (within_div 453 (-403) nu mm ltac:(lia) aU mL) as ((Fs & _) & Es). set (s := (nu / mm)%float) in *. pose proof (bpow_gt_0 radix2 (-403)) as B403.
  assert (Rs : Rabs (FR s - FR nu / FR mm) <= uro * Rabs (FR nu / FR mm)). { rewrite Es. destruct (Z.eq_dec a 0) as [Za|Na]; [rewrite Ea, Za; unfold Rdiv; rewrite !Rmult_0_l, rnd_0, Rminus_0_r, Rabs_R0; lra|]. apply rnd_rel. unfold Rdiv. rewrite Rabs_mult, Rabs_inv, (Rabs_pos_eq (FR mm)) by lra.
    assert (A1 : bpow radix2 (-400) <= Rabs (FR nu)). { rewrite Ea, Rabs_mult, <- abs_IZR, (Rabs_pos_eq (bpow _ _)) by apply bpow_ge_0. rewrite <- (Rmult_1_l (bpow radix2 (-400))). apply Rmult_le_compat; [lra|apply bpow_ge_0|apply IZR_le; lia|apply bpow_le; lia]. }
    destruct mU as (_ & mU). rewrite Rabs_pos_eq in mU by lra. apply Rle_trans with (bpow radix2 (-400) * / bpow radix2 (228 + 228)); [rewrite <- bpow_opp, <- bpow_plus; apply bpow_le; lia|]. apply Rmult_le_compat; [apply bpow_ge_0|left; apply Rinv_0_lt_compat, bpow_gt_0|exact A1|apply Rinv_le_contravar; lra]. }
  destruct (quot_err uro K (FR n) (FR mm) (FR nu) (FR s) ltac:(lra) K0 Rn Rm Rs) as (QE & _ & _). set (T := FR nu / (K * K)) in *.
  assert (TB : Rabs T <= bpow radix2 253). { assert (Bp : forall z, bpow radix2 z <> 0) by (intro z; apply Rgt_not_eq, bpow_gt_0). assert (k1 : 1 <= IZR k) by (apply IZR_le; lia). assert (E : T = IZR a / IZR k * bpow radix2 (e - f)). { unfold T. rewrite EK, Ea. replace (e + g + (f + g))%Z with ((e - f) + (f + g + (f + g)))%Z by lia. rewrite bpow_plus. field. split; [lra|apply Bp]. }
    rewrite E. unfold Rdiv. rewrite !Rabs_mult, Rabs_inv, (Rabs_pos_eq (bpow _ _)), (Rabs_pos_eq (IZR k)) by (try apply bpow_ge_0; lra). rewrite <- abs_IZR. change 253%Z with (53 + 200)%Z. rewrite bpow_plus. apply Rmult_le_compat; [apply Rmult_le_pos; [apply IZR_le; lia|left; apply Rinv_0_lt_compat; lra]|apply bpow_ge_0| |apply bpow_le; lia].
    rewrite <- (Rmult_1_r (bpow radix2 53)). apply Rmult_le_compat; [apply IZR_le; lia|left; apply Rinv_0_lt_compat; lra|change (bpow radix2 53) with (IZR (2 ^ 53)); apply IZR_le; lia|]. rewrite <- Rinv_1. apply Rinv_le_contravar; lra. }
  assert (sU : within 300 s). { split; [exact Fs|]. replace (FR s) with (T + (FR s - T)) by ring. eapply Rle_trans; [apply Rabs_triang|]. assert (5 * uro * Rabs T <= 1 * Rabs T) by (apply Rmult_le_compat_r; [apply Rabs_pos|lra]). assert (bpow radix2 254 = 2 * bpow radix2 253) by (change 2 with (bpow radix2 1); rewrite <- bpow_plus; reflexivity). assert (bpow radix2 254 <= bpow radix2 300) by (apply bpow_le; lia). lra. }
  assert (M27 : (2 ^ 27 <= 2 ^ 40)%Z) by lia. assert (M40 : (M' <= 2 ^ 40)%Z) by nia.
  assert (Wp : Forall (within 300) p) by (eapply Forall_impl; [|exact Hp]; intros y; apply (grid_within e M 300); lia). assert (Wd : Forall (within 300) d) by (eapply Forall_impl; [|exact Hd]; intros y; apply (grid_within f M' 300); lia).
  destruct (step_F s p d sU Wp Wd (eq_sym Ld)) as (x & Ex & Lx & Fx & Hx). exists x. split; [exact Ex|]. split; [exact Lx|]. split; [exact Fx|]. intros X Y OX OY MD i. destruct (Hx i) as (wi & W1 & W2 & W3).
  assert (NZd : ~ is_zero_vec (map FR d)) by (intro Z; apply ND; apply zero_dependent_l; auto; rewrite !map_length; congruence). assert (NZw : ~ is_zero_vec (map FR w)) by (intro Z; apply ND; apply zero_dependent_r; auto; rewrite !map_length; congruence).
  destruct (nearest_unique (map FR p) (map FR d) (map FR q) (map FR w) X Y (pv_F p d Ld Np NZd) (pv_F q w Lw0 Nq NZw) ltac:(rewrite !map_length; exact Lq) ltac:(rewrite map_length; exact L3) ND OX OY MD) as (EX & _). fold W in EX.
  assert (ET : LinePairs.par_a W (map FR d) (map FR w) = T) by (unfold LinePairs.par_a, T; fold PE; rewrite <- EN; unfold K; rewrite len_sq; reflexivity). rewrite ET in EX.
  assert (Xi : nth i X 0 = nth i (map FR p) 0 + T * nth i (map FR d) 0) by (rewrite EX, Points.nth_add, Points.nth_scale by (rewrite length_scale, !map_length; auto); reflexivity).
  split; [|intro XP; apply W3; assert (T0 : T = 0); [apply (scale_inj0 (map FR p) (map FR d)); [rewrite !map_length; auto|exact NZd|rewrite <- EX; exact XP]|]; rewrite Es; assert (N0 : FR nu = 0); [unfold T in T0; apply Rmult_integral in T0 as [T0|T0]; [exact T0|exfalso; revert T0; apply Rinv_neq_0_compat, Rmult_integral_contrapositive_currified; lra]|]; rewrite N0; unfold Rdiv; rewrite Rmult_0_l; apply rnd_0].
  eapply Rle_trans; [apply (coord_meet5 uro T (FR s) (nth i (map FR p) 0) (nth i (map FR d) 0) (nth i X 0) _ wi eta); auto; pose proof eta_pos; lra|]. unfold uro. assert (E2 : 2 * eta <= bpow radix2 (-1073)) by (unfold eta; change 2 with (bpow radix2 1); rewrite <- bpow_plus; apply bpow_le; lia). lra.
Qed.
Print Assumptions C92_intersect_line.

(** ** The distance between two lines *)
Lemma line_dir_nonzero f M (p d : list flt) (l : line FNum) : (-100 <= f <= 100)%Z -> (0 <= M)%Z -> (Z.of_nat (length d) * (M * M) <= 2 ^ 14)%Z -> line_new (N:=FNum) p d = Ok l -> Forall (on_grid f M) d -> ~ is_zero_vec (map FR d) /\ bpow radix2 (-400) <= len (map FR d).
Proof.
  intros Hf P B Hl Hd. unfold line_new in Hl. destruct (check_point_vector p d) as [[p' d']| |] eqn:Ec; try discriminate Hl. apply check_F in Ec as (_ & _ & Np & _ & _ & Ld & NZ).
  assert (n1 : (1 <= Z.of_nat (@length flt d))%Z) by (assert (Ld' : @length flt p = @length flt d) by exact Ld; rewrite <- Ld'; destruct p; [contradiction|cbn [length]; lia]). assert (M2 : (M < 2 ^ 53)%Z) by nia.
  assert (N : ~ is_zero_vec (map FR d)). { intro Z. apply NZ. apply zero_vec_F; auto. apply half_moderate_m. apply (grid_half_moderate f M); auto; lia. }
  split; [exact N|]. destruct (grid_self f M d ltac:(unfold grid_ok; lia) P ltac:(lia) Hd) as (_ & _ & _ & [Z|(_ & L)]); [contradiction|]. eapply Rle_trans; [|exact L]. apply bpow_le. lia.
Qed.
Lemma div_err2 (u K n D r : R) : 0 < u <= / 1024 -> 0 < K -> 0 <= D -> Rabs (n - K) <= u * K -> Rabs (r - D / n) <= u * (D / n) -> Rabs (r - D / K) <= 3 * u * (D / K).
Proof.
  intros Hu HK HD Hn Hr. apply Rabs_le_inv in Hn. assert (uK : u * K <= / 1024 * K) by (apply Rmult_le_compat_r; lra). assert (n0 : 0 < n) by lra. set (S := D / K) in *. assert (S0 : 0 <= S) by (apply Rmult_le_pos; [auto|left; apply Rinv_0_lt_compat; auto]). set (a := K / n). assert (Ea : a * n = K) by (unfold a; field; lra). assert (E : D / n = S * a) by (unfold S, a; field; lra). rewrite E in Hr.
  assert (U2 : u * u <= / 1024 * u) by (apply Rmult_le_compat_r; lra). assert (U0 : 0 <= u * u) by (apply Rmult_le_pos; lra).
  assert (a1 : a <= 1 + 11 / 10 * u). { apply Rmult_le_reg_r with n; auto. rewrite Ea. assert ((1 + 11 / 10 * u) * ((1 - u) * K) <= (1 + 11 / 10 * u) * n) by (apply Rmult_le_compat_l; lra). assert (1 <= (1 + 11 / 10 * u) * (1 - u)) by lra. assert (1 * K <= (1 + 11 / 10 * u) * (1 - u) * K) by (apply Rmult_le_compat_r; lra). lra. }
  assert (a2 : 1 - 11 / 10 * u <= a). { apply Rmult_le_reg_r with n; auto. rewrite Ea. assert ((1 - 11 / 10 * u) * n <= (1 - 11 / 10 * u) * ((1 + u) * K)) by (apply Rmult_le_compat_l; lra). assert ((1 - 11 / 10 * u) * (1 + u) <= 1) by lra. assert ((1 - 11 / 10 * u) * (1 + u) * K <= 1 * K) by (apply Rmult_le_compat_r; lra). lra. }
  replace (r - S) with ((r - S * a) + S * (a - 1)) by ring. eapply Rle_trans; [apply Rabs_triang|]. rewrite (Rabs_mult S), (Rabs_pos_eq S) by auto. assert (A1 : Rabs (a - 1) <= 11 / 10 * u) by (apply Rabs_le; lra). assert (S * Rabs (a - 1) <= S * (11 / 10 * u)) by (apply Rmult_le_compat_l; lra).
  assert (u * (S * a) <= u * (S * (1 + 11 / 10 * u))) by (apply Rmult_le_compat_l; [lra|apply Rmult_le_compat_l; lra]). assert (S * (u * u) <= S * (/ 1024 * u)) by (apply Rmult_le_compat_l; lra). assert (0 <= S * u) by (apply Rmult_le_pos; lra). lra.
Qed.
Theorem C92_distance_line : forall LA e f g M M' (p d q w : list flt) (l m : line FNum), (-100 <= e <= 100)%Z -> (-100 <= f <= 100)%Z -> (-100 <= g <= 100)%Z -> (0 <= M <= 2 ^ 27)%Z -> (1 <= M')%Z -> length q = length p -> (Z.of_nat (length p) * (M' * M') <= 2 ^ 14)%Z ->
  line_new p d = Ok l -> line_new q w = Ok m -> Forall (on_grid e M) p -> Forall (on_grid f M') d -> Forall (on_grid e M) q -> Forall (on_grid g M') w ->
  (dependent (map FR d) (map FR w) -> exists r, line_distance_line LA l m = Ok r /\ finite r /\ 0 <= FR r /\ forall r0, line_distance (map FR p) (map FR d) (map FR q) (map FR w) r0 ->
     Rabs (FR r - r0) <= (3 * INR (length p) + 22) * bpow radix2 (-53) * (dist (map FR p) (map FR q) + len (map FR p)) + bpow radix2 (-510)) /\
  (~ dependent (map FR d) (map FR w) -> line_is_coplanar LA None l m = Ok true -> line_distance_line LA l m = Ok 0%float) /\
  (~ dependent (map FR d) (map FR w) -> line_is_coplanar LA None l m = Ok false -> length p = 3%nat -> exists r, line_distance_line LA l m = Ok r /\ finite r /\
     forall r0, line_distance (map FR p) (map FR d) (map FR q) (map FR w) r0 -> Rabs (FR r - r0) <= 3 * bpow radix2 (-53) * r0).
Proof.
  intros LA e f g M M' p d q w l m He Hf Hg HM P' Lq B Hl Hm Hp Hd Hq Hw. pose proof Hl as Hl'. pose proof Hm as Hm'. apply line_new_F in Hl as (-> & Np & Ld), Hm as (-> & Nq & Lw0). assert (Lw : length w = length p) by (rewrite <- Lq; exact Lw0).
  assert (n1 : (1 <= Z.of_nat (length p))%Z) by (destruct p; [contradiction|cbn [length]; lia]). assert (BM : (M' * M' <= 2 ^ 14)%Z) by nia. assert (Nd : d <> []) by (intro Z; rewrite Z in Ld; destruct p; [contradiction|discriminate]). assert (M7 : (M' <= 2 ^ 14)%Z) by nia.
  destruct (C92_is_parallel f g M' M' d w ltac:(lia) ltac:(lia) P' P' Nd ltac:(congruence) ltac:(rewrite Ld; exact B) Hd Hw) as (b & Eb & Hb).
  unfold line_distance_line. cbn [l_dir l_point]. rewrite Eb. cbn [bind]. split; [|split].
  - intro D. assert (Eb' : b = true) by (apply Hb; exact D). rewrite Eb'. assert (Ln : (Z.of_nat (length p) <= max_dim)%Z) by (unfold max_dim; nia).
    destruct (line_dir_nonzero f M' p d _ Hf ltac:(lia) ltac:(rewrite Ld; exact B) Hl' Hd) as (NZd & Kd). destruct (line_dir_nonzero g M' q w _ Hg ltac:(lia) ltac:(rewrite Lw; exact B) Hm' Hw) as (NZw & _).
    assert (Tp : forall v, Forall (on_grid e M) v -> Forall tame v). { intros v. apply Forall_impl. intros y Hy. destruct (grid_within e M 400 y ltac:(lia) ltac:(lia) ltac:(lia) Hy) as (F & Bd). split; auto. }
    assert (LqR : length (map FR q) = length (map FR p)) by (rewrite !map_length; exact Lq). pose proof (pv_F p d Ld Np NZd) as Vp. pose proof (pv_F q w Lw0 Nq NZw) as Vq.
    destruct (C84_line_distance_point p d q _ Hl' Lq Ln (Tp p Hp) (Tp q Hq) (half_moderate_m _ (grid_half_moderate f M' d ltac:(lia) ltac:(lia) Hd)) Kd (Lines.lproj (map FR p) (map FR d) (map FR q)) (Lines.lproj_on _ _ _) (Lines.lproj_perp _ _ _ Vp LqR)) as (r & Er & Fr & R0 & Hr).
    exists r. split; [exact Er|]. split; [exact Fr|]. split; [exact R0|]. intros r0 H0. rewrite (LinePairs.line_distance_unique _ _ _ _ _ _ H0 (LinePairs.parallel_distance _ _ _ _ _ Vp Vq LqR D (Lines.lproj_min _ _ _ Vp LqR))). exact Hr.
  - intros ND Ec. destruct b; [exfalso; apply ND; apply Hb; reflexivity|]. rewrite Ec. reflexivity.
  - intros ND Ec L. destruct b; [exfalso; apply ND; apply Hb; reflexivity|]. rewrite Ec. cbn [bind]. assert (L3 : (length p <= 3)%nat) by lia. clear Eb Hb Ec.
    destruct (pair_F e f g M M' p d q w He Hf Hg HM ltac:(lia) BM Np L3 Lq Ld Lw Hp Hd Hq Hw ND) as (ab & pe & c & -> & -> & _ & _ & Lpe & Lab & Hx). cbn [bind]. assert (La : @length flt ab = @length flt pe) by (transitivity 3%nat; [rewrite <- L; exact Lab|symmetry; exact Lpe]). rewrite (np_dot_F ab pe) by exact La. cbn [bind]. unfold norm. cbn [bind].
    cbv zeta in Hx. set (PE := LinePairs.nrm (map FR d) (map FR w)) in *. set (W := sub (map FR q) (map FR p)) in *. destruct Hx as (_ & _ & (k & Bk & Ek) & Fn & Vn & Kn & Hx). destruct (Hx L) as ((a & Ba & Ea) & Fa & EN). clear Hx. set (nu := dot_raw (N:=FNum) ab pe) in *. set (n := norm_raw (N:=FNum) pe) in *.
    change (ndiv (n:=FNum) (nabs nu) n) with (Ok (PrimFloat.abs nu / n)%float). set (K := len PE) in *. pose proof (bpow_gt_0 radix2 (f + g)) as Bfg. assert (K0 : 0 < K) by lra. pose proof uro_small as (U & U'). pose proof uro_pos as U0.
    assert (KL : bpow radix2 (-200) <= K) by (eapply Rle_trans; [|exact Kn]; apply bpow_le; lia). assert (EK : K * K = IZR k * bpow radix2 (f + g + (f + g))) by (unfold K; rewrite len_sq; exact Ek).
    assert (KU : K <= bpow radix2 228). { apply Rsqr_incr_0; [|lra|apply bpow_ge_0]. unfold Rsqr. rewrite EK, <- bpow_plus. apply Rle_trans with (bpow radix2 53 * bpow radix2 400); [|rewrite <- bpow_plus; apply bpow_le; lia]. apply Rmult_le_compat; [apply IZR_le; lia|apply bpow_ge_0| |apply bpow_le; lia]. change (bpow radix2 53) with (IZR (2 ^ 53)). apply IZR_le. lia. }
    assert (Rn : Rabs (FR n - K) <= uro * K). { rewrite Vn. rewrite <- (Rabs_pos_eq K) at 3 by lra. apply rnd_rel. rewrite Rabs_pos_eq by lra. eapply Rle_trans; [|exact KL]. apply bpow_le. lia. }
    assert (nL : bpow radix2 (-201) <= FR n). { apply Rabs_le_inv in Rn. assert (bpow radix2 (-200) = 2 * bpow radix2 (-201)) by (change 2 with (bpow radix2 1); rewrite <- bpow_plus; reflexivity). assert (uro * K <= / 2 * K) by (apply Rmult_le_compat_r; lra). lra. }
    assert (nU : FR n <= bpow radix2 229). { apply Rabs_le_inv in Rn. assert (bpow radix2 229 = 2 * bpow radix2 228) by (change 2 with (bpow radix2 1); rewrite <- bpow_plus; reflexivity). assert (uro * K <= / 2 * K) by (apply Rmult_le_compat_r; lra). lra. }
    assert (aU : within 353 (PrimFloat.abs nu)). { split; [apply abs_finite; exact Fa|]. rewrite abs_F, Rabs_Rabsolu, Ea, Rabs_mult, <- abs_IZR, (Rabs_pos_eq (bpow _ _)) by apply bpow_ge_0. apply Rle_trans with (bpow radix2 53 * bpow radix2 300); [|rewrite <- bpow_plus; apply bpow_le; lia]. apply Rmult_le_compat; [apply IZR_le; lia|apply bpow_ge_0| |apply bpow_le; lia]. change (bpow radix2 53) with (IZR (2 ^ 53)). apply IZR_le. lia. }
    destruct (within_div 353 (-201) (PrimFloat.abs nu) n ltac:(lia) aU nL) as ((Fr & _) & Er). exists (PrimFloat.abs nu / n)%float. split; [reflexivity|]. split; [exact Fr|]. rewrite abs_F in Er. pose proof (bpow_gt_0 radix2 (-201)) as B201. assert (n0 : 0 < FR n) by lra.
    assert (Rr : Rabs (FR (PrimFloat.abs nu / n)%float - Rabs (FR nu) / FR n) <= uro * (Rabs (FR nu) / FR n)). { assert (Q0 : 0 <= Rabs (FR nu) / FR n) by (apply Rmult_le_pos; [apply Rabs_pos|left; apply Rinv_0_lt_compat; lra]). rewrite Er. destruct (Z.eq_dec a 0) as [Za|Na]; [rewrite Ea, Za; rewrite Rmult_0_l, Rabs_R0; unfold Rdiv; rewrite Rmult_0_l, rnd_0, Rminus_0_r, Rabs_R0; lra|]. rewrite <- (Rabs_pos_eq (Rabs (FR nu) / FR n)) at 3 by exact Q0. apply rnd_rel. rewrite Rabs_pos_eq by exact Q0.
      assert (A1 : bpow radix2 (-300) <= Rabs (FR nu)). { rewrite Ea, Rabs_mult, <- abs_IZR, (Rabs_pos_eq (bpow _ _)) by apply bpow_ge_0. rewrite <- (Rmult_1_l (bpow radix2 (-300))). apply Rmult_le_compat; [lra|apply bpow_ge_0|apply IZR_le; lia|apply bpow_le; lia]. }
      apply Rle_trans with (bpow radix2 (-300) * / bpow radix2 229); [rewrite <- bpow_opp, <- bpow_plus; apply bpow_le; lia|]. apply Rmult_le_compat; [apply bpow_ge_0|left; apply Rinv_0_lt_compat, bpow_gt_0|exact A1|apply Rinv_le_contravar; lra]. }
    pose proof (div_err2 uro K (FR n) (Rabs (FR nu)) _ ltac:(lra) K0 (Rabs_pos _) Rn Rr) as Fin. intros r0 H0.
    assert (NZd : ~ is_zero_vec (map FR d)) by (intro Z; apply ND; apply zero_dependent_l; auto; rewrite !map_length; congruence). assert (NZw : ~ is_zero_vec (map FR w)) by (intro Z; apply ND; apply zero_dependent_r; auto; rewrite !map_length; congruence). pose proof H0 as ((X & Y & OX & OY & EXY) & _). rewrite <- EXY in H0.
    destruct (nearest_unique (map FR p) (map FR d) (map FR q) (map FR w) X Y (pv_F p d Ld Np NZd) (pv_F q w Lw0 Nq NZw) ltac:(rewrite !map_length; exact Lq) ltac:(rewrite map_length; exact L3) ND OX OY H0) as (_ & EV). fold W PE K in EV.
    assert (V : r0 = Rabs (FR nu) / K). { rewrite <- EXY, EV. unfold LinePairs.par_c. fold PE. rewrite <- EN, <- len_sq. fold K. unfold Rdiv. rewrite Rabs_mult, Rabs_inv, (Rabs_pos_eq (K * K)) by (apply Rmult_le_pos; lra). field. lra. }
    rewrite V. exact Fin.
Qed.
Print Assumptions C92_distance_line.

(** A concrete instance: two skew lines in space and a factorisation routine that calls them skew. *)
Theorem C92_nonvacuous : exists (LA : linalg FNum) (l m : line FNum), let p := [0; 0; 0]%float in let d := [1; 2; 3]%float in let q := [1; 0; 5]%float in let w := [0; 1; 1]%float in
  line_new p d = Ok l /\ line_new q w = Ok m /\ Forall (on_grid 0 10) p /\ Forall (on_grid 0 10) d /\ Forall (on_grid 0 10) q /\ Forall (on_grid 0 10) w /\ (Z.of_nat (length p) * (10 * 10) <= 2 ^ 14)%Z /\
  ~ dependent (map FR d) (map FR w) /\ line_is_coplanar LA None l m = Ok false.
Proof.
  exists (MkLinalg (N:=FNum) (fun rows => Ok ([], [1; 1; 1]%float, [])) (fun _ b => Ok b) (fun _ b => Ok b)), (MkLine (N:=FNum) [0; 0; 0]%float [1; 2; 3]%float), (MkLine (N:=FNum) [1; 0; 5]%float [0; 1; 1]%float). cbv zeta.
  assert (G0 : on_grid 0 10 0%float) by (lit 0%Z). assert (G1 : on_grid 0 10 1%float) by (lit 1%Z). assert (G2 : on_grid 0 10 2%float) by (lit 2%Z). assert (G3 : on_grid 0 10 3%float) by (lit 3%Z). assert (G5 : on_grid 0 10 5%float) by (lit 5%Z).
  split; [reflexivity|]. split; [reflexivity|]. split; [constructor; [auto|constructor; [auto|constructor; [auto|constructor]]]|]. split; [constructor; [auto|constructor; [auto|constructor; [auto|constructor]]]|]. split; [constructor; [auto|constructor; [auto|constructor; [auto|constructor]]]|]. split; [constructor; [auto|constructor; [auto|constructor; [auto|constructor]]]|]. split; [simpl; lia|]. split; [|reflexivity].
  intro D. apply dependent_sq in D; [|reflexivity]. cbn [map dot] in D. assert (V1 : FR 1%float = 1) by apply one_F. assert (V0 : FR 0%float = 0) by apply zero_F. assert (V2 : FR 2%float = 2) by (erewrite FR_val by (vm_compute; reflexivity); simpl; unfold F2R; simpl; lra). assert (V3 : FR 3%float = 3) by (erewrite FR_val by (vm_compute; reflexivity); simpl; unfold F2R; simpl; lra). rewrite V0, V1, V2, V3 in D. lra.
Qed.
Print Assumptions C92_nonvacuous.
