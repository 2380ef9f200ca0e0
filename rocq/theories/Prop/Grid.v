(** * Property C86: whole-number and fixed-point coordinates are computed exactly in double precision *)
From Coq Require Import String Reals List ZArith Floats Lra Lia Psatz Bool Permutation.
From Flocq Require Import Core BinarySingleNaN.
From Flocq Require Import IEEE754.PrimFloat.
From Flocq Require Mult_error.
From Verif.Model Require Import Outcome Num Instances Numpy BaseArray Vector Points Functions Line Plane Sphere Triangle.
From Verif.Spec Require Import Geometry Tolerance Floats Measure Summation Grid.
From Verif.Proof Require Import VecAlg Bridge Vectors Floats FloatErr.
From Verif.Prop Require Import Floats Accuracy AnyOrder Decisions Projections FloatShapes.
From Verif.Prop Require Measure.
From Verif.Proof Require Arrays Points.
Import ListNotations.
Local Open Scope R_scope.

(** ** One operation *)
Lemma rnd_grid (m e : Z) : (Z.abs m < 2 ^ 53)%Z -> (-1074 <= e)%Z -> rnd (IZR m * bpow radix2 e) = IZR m * bpow radix2 e.
Proof.
  intros H E. destruct (Z_le_gt_dec 0 m) as [P|P]; [apply rnd_dyad; lia|]. replace m with (- (- m))%Z by lia. rewrite opp_IZR, Ropp_mult_distr_l_reverse, rnd_opp. f_equal. apply rnd_dyad; lia.
Qed.
Lemma grid_bound (m e : Z) : (Z.abs m < 2 ^ 53)%Z -> grid_ok e -> Rabs (IZR m * bpow radix2 e) < bpow radix2 1024.
Proof.
  intros H (_ & E). rewrite Rabs_mult, <- abs_IZR, (Rabs_pos_eq (bpow _ _)) by apply bpow_ge_0. apply Rlt_le_trans with (bpow radix2 53 * bpow radix2 e).
  - apply Rmult_lt_compat_r; [apply bpow_gt_0|]. change (bpow radix2 53) with (IZR (2 ^ 53)). apply IZR_lt; auto.
  - rewrite <- bpow_plus. apply bpow_le. lia.
Qed.
Lemma on_grid_finite e M x : on_grid e M x -> finite x. Proof. intros (F & _). exact F. Qed.
Lemma on_grid_all e M v : Forall (on_grid e M) v -> Forall finite v.
Proof. apply Forall_impl. intros x H. eapply on_grid_finite; eauto. Qed.
Lemma on_grid_le e M M' x : (M <= M')%Z -> on_grid e M x -> on_grid e M' x.
Proof. intros L (F & m & B & E). split; auto. exists m. split; auto. lia. Qed.
Lemma on_grid_zero e M : (0 <= M)%Z -> on_grid e M 0%float.
Proof. intro H. split; [reflexivity|]. exists 0%Z. split; [simpl; lia|]. rewrite (proj1 zero_F). simpl. ring. Qed.
Lemma grid_sub e M M' x y : grid_ok e -> (M + M' < 2 ^ 53)%Z -> on_grid e M x -> on_grid e M' y -> on_grid e (M + M') (x - y)%float /\ FR (x - y)%float = FR x - FR y.
Proof.
  intros G B (Fx & m & Bm & Ex) (Fy & k & Bk & Ey). assert (S : (Z.abs (m - k) <= M + M')%Z) by lia. assert (E : FR x - FR y = IZR (m - k) * bpow radix2 e) by (rewrite Ex, Ey, minus_IZR; ring).
  assert (R1 : rnd (FR x - FR y) = IZR (m - k) * bpow radix2 e) by (rewrite E; apply rnd_grid; [lia|destruct G; lia]).
  destruct (fin_sub x y Fx Fy) as (F & Ef); [rewrite R1; apply grid_bound; [lia|auto]|]. rewrite R1 in Ef. split; [split; auto; exists (m - k)%Z; auto|]. rewrite Ef, E. reflexivity.
Qed.
Lemma grid_add e M M' x y : grid_ok e -> (M + M' < 2 ^ 53)%Z -> on_grid e M x -> on_grid e M' y -> on_grid e (M + M') (x + y)%float /\ FR (x + y)%float = FR x + FR y.
Proof.
  intros G B (Fx & m & Bm & Ex) (Fy & k & Bk & Ey). assert (S : (Z.abs (m + k) <= M + M')%Z) by lia. assert (E : FR x + FR y = IZR (m + k) * bpow radix2 e) by (rewrite Ex, Ey, plus_IZR; ring).
  assert (R1 : rnd (FR x + FR y) = IZR (m + k) * bpow radix2 e) by (rewrite E; apply rnd_grid; [lia|destruct G; lia]).
  destruct (fin_add x y Fx Fy) as (F & Ef); [rewrite R1; apply grid_bound; [lia|auto]|]. rewrite R1 in Ef. split; [split; auto; exists (m + k)%Z; auto|]. rewrite Ef, E. reflexivity.
Qed.
Lemma grid_mul e f M M' x y : grid_ok (e + f) -> (M * M' < 2 ^ 53)%Z -> on_grid e M x -> on_grid f M' y -> on_grid (e + f) (M * M') (x * y)%float /\ FR (x * y)%float = FR x * FR y.
Proof.
  intros G B (Fx & m & Bm & Ex) (Fy & k & Bk & Ey). assert (S : (Z.abs (m * k) <= M * M')%Z) by (rewrite Z.abs_mul; apply Z.mul_le_mono_nonneg; lia). assert (E : FR x * FR y = IZR (m * k) * bpow radix2 (e + f)) by (rewrite Ex, Ey, mult_IZR, bpow_plus; ring).
  assert (R1 : rnd (FR x * FR y) = IZR (m * k) * bpow radix2 (e + f)) by (rewrite E; apply rnd_grid; [lia|destruct G; lia]).
  destruct (fin_mul x y Fx Fy) as (F & Ef); [rewrite R1; apply grid_bound; [lia|auto]|]. rewrite R1 in Ef. split; [split; auto; exists (m * k)%Z; auto|]. rewrite Ef, E. reflexivity.
Qed.
Lemma grid_opp e M x : on_grid e M x -> on_grid e M (- x)%float.
Proof. intros (F & m & B & E). split; [apply opp_finite; auto|]. exists (- m)%Z. split; [lia|]. rewrite opp_F, E, opp_IZR. ring. Qed.
Lemma grid_det e f M M' a b c d : grid_ok (e + f) -> (2 * (M * M') < 2 ^ 53)%Z -> on_grid e M a -> on_grid f M' b -> on_grid e M c -> on_grid f M' d ->
  on_grid (e + f) (2 * (M * M')) (a * b - c * d)%float /\ FR (a * b - c * d)%float = FR a * FR b - FR c * FR d.
Proof.
  intros G B Ha Hb Hc Hd. assert (0 <= M)%Z by (destruct Ha as (_ & m & ? & _); lia). assert (0 <= M')%Z by (destruct Hb as (_ & m & ? & _); lia). assert (0 <= M * M')%Z by nia.
  destruct (grid_mul e f M M' a b G ltac:(lia) Ha Hb) as (G1 & E1). destruct (grid_mul e f M M' c d G ltac:(lia) Hc Hd) as (G2 & E2).
  destruct (grid_sub (e + f) (M * M') (M * M') _ _ G ltac:(lia) G1 G2) as (G3 & E3). rewrite E1, E2 in E3. split; auto. replace (2 * (M * M'))%Z with (M * M' + M * M')%Z by ring. exact G3.
Qed.

(** ** Displacements, dot products, cross products *)
Lemma grid_subs e M (a b : list flt) : grid_ok e -> (2 * M < 2 ^ 53)%Z -> length b = length a -> Forall (on_grid e M) a -> Forall (on_grid e M) b ->
  Forall (on_grid e (2 * M)) (map2 (N:=FNum) PrimFloat.sub b a) /\ map FR (map2 (N:=FNum) PrimFloat.sub b a) = sub (map FR b) (map FR a) /\ length (map2 (N:=FNum) PrimFloat.sub b a) = length a.
Proof.
  intros G B L Ha. revert b L. induction Ha as [|x a Hx Ha IH]; intros [|y b] L Hb; try discriminate L; [repeat split; constructor|]. inversion_clear Hb as [|? ? Hy Hb']. cbn [map2 map sub length]. destruct (IH b) as (I1 & I2 & I3); auto.
  destruct (grid_sub e M M y x G ltac:(lia) Hy Hx) as (G1 & E1). replace (2 * M)%Z with (M + M)%Z in * by ring. split; [constructor; auto|]. split; [f_equal; auto|]. f_equal. exact I3.
Qed.
Theorem C86_from_points : forall e M (a b : list flt), grid_ok e -> (2 * M < 2 ^ 53)%Z -> a <> [] -> length b = length a -> Forall (on_grid e M) a -> Forall (on_grid e M) b ->
  exists v, from_points (N:=FNum) a b = Ok v /\ Forall (on_grid e (2 * M)) v /\ length v = length a /\ map FR v = sub (map FR b) (map FR a).
Proof.
  intros e M a b G B Na L Ha Hb. destruct (grid_subs e M a b G B L Ha Hb) as (I1 & I2 & I3). exists (map2 (N:=FNum) PrimFloat.sub b a). split; [|auto].
  unfold from_points. change (nsub (n:=FNum)) with PrimFloat.sub. rewrite bcast_F by auto. cbn [bind]. apply vector_of_ok; [|eapply on_grid_all; eauto]. intro E. rewrite E in I3. destruct a; [contradiction|discriminate].
Qed.
Print Assumptions C86_from_points.
Lemma grid_dots e f M M' : grid_ok (e + f) -> (0 <= M)%Z -> (0 <= M')%Z -> forall v o : list flt, length v = length o -> Forall (on_grid e M) v -> Forall (on_grid f M') o ->
  (Z.of_nat (length v) * (M * M') < 2 ^ 53)%Z -> on_grid (e + f) (Z.of_nat (length v) * (M * M')) (dot_raw (N:=FNum) v o) /\ FR (dot_raw (N:=FNum) v o) = dot (map FR v) (map FR o).
Proof.
  intros G P P'. assert (Q : (0 <= M * M')%Z) by nia. induction v as [|x v IH]; intros [|y o] L Hv Ho B; try discriminate L; [split; [apply on_grid_zero; simpl; lia|apply zero_F]|].
  inversion_clear Hv as [|? ? Hx Hv']. inversion_clear Ho as [|? ? Hy Ho']. rewrite dot_cons. cbn [map dot]. cbn [length] in B. rewrite Nat2Z.inj_succ, Z.mul_succ_l in B.
  assert (0 <= Z.of_nat (length v) * (M * M'))%Z by nia. destruct (IH o) as (I1 & I2); auto; [lia|]. destruct (grid_mul e f M M' x y G ltac:(lia) Hx Hy) as (G1 & E1). destruct (grid_add (e + f) _ _ _ _ G ltac:(rewrite Z.add_comm; exact B) G1 I1) as (G2 & E2).
  cbn [length]. rewrite Nat2Z.inj_succ, Z.mul_succ_l, (Z.add_comm (_ * _)). split; [exact G2|]. rewrite E2, E1, I2. reflexivity.
Qed.
Theorem C86_dot : forall e f M M' (v o : list flt), grid_ok (e + f) -> length v = length o -> Forall (on_grid e M) v -> Forall (on_grid f M') o -> (0 <= M)%Z -> (0 <= M')%Z ->
  (Z.of_nat (length v) * (M * M') < 2 ^ 53)%Z -> exists d, np_dot (N:=FNum) v o = Ok d /\ finite d /\ FR d = dot (map FR v) (map FR o).
Proof.
  intros e f M M' v o G L Hv Ho P P' B. destruct (grid_dots e f M M' G P P' v o L Hv Ho B) as (D & E). exists (dot_raw (N:=FNum) v o). split; [apply np_dot_F; auto|]. split; auto. eapply on_grid_finite; eauto.
Qed.
Print Assumptions C86_dot.

(** The exact value is obtained whatever the order of summation, with or without fused multiply-adds. *)
Theorem C86_any_order : forall e f M M' (v o : list flt), grid_ok (e + f) -> length v = length o -> Forall (on_grid e M) v -> Forall (on_grid f M') o -> (0 <= M)%Z -> (0 <= M')%Z ->
  (Z.of_nat (length v) * (M * M') < 2 ^ 53)%Z -> forall r, sums_to (combine (map FR v) (map FR o)) r -> r = dot (map FR v) (map FR o).
Proof.
  intros e f M M' v o G L Hv Ho P P' B r Sr.
  assert (Q0 : (0 <= M * M')%Z) by nia.
  set (ok := fun p : R * R => exists k, (Z.abs k <= M * M')%Z /\ fst p * snd p = IZR k * bpow radix2 (e + f)).
  set (tot := fun l : list (R * R) => Rsum (map (fun p => fst p * snd p) l)).
  assert (T : forall l1 l2, tot (l1 ++ l2) = tot l1 + tot l2) by (intros l1 l2; unfold tot; unfold Rsum; rewrite map_app; induction (map _ l1) as [|x xs IH]; cbn [app fold_right]; [ring|rewrite IH; ring]).
  assert (TP : forall l l', Permutation l l' -> tot l = tot l') by (intros l l' Pm; unfold tot, Rsum; induction Pm; cbn [map fold_right]; lra).
  assert (K : forall l s, sums_to l s -> Forall ok l -> (Z.of_nat (length l) * (M * M') < 2 ^ 53)%Z -> s = tot l /\ exists m, (Z.abs m <= Z.of_nat (length l) * (M * M'))%Z /\ s = IZR m * bpow radix2 (e + f)).
  { intros l s Hs. induction Hs as [|x y|l l1 l2 r1 r2 Pm H1 I1 H2 I2|l l1 x y r1 Pm H1 I1]; intros Fl Bl.
    - split; [reflexivity|]. exists 0%Z. split; [simpl; lia|simpl; ring].
    - inversion_clear Fl as [|? ? (k & Bk & Ek) _]. cbn [fst snd] in Ek. cbn [length Z.of_nat Pos.of_succ_nat] in *. rewrite Z.mul_1_l in *. rewrite Ek, rnd_grid by (destruct G; lia). unfold tot, Rsum. cbn [map fold_right fst snd]. rewrite Ek. split; [ring|]. exists k. auto.
    - assert (Fl' : Forall ok (l1 ++ l2)) by (eapply Permutation_Forall; eauto). apply Forall_app in Fl' as (F1 & F2). assert (Ll : length l = (length l1 + length l2)%nat) by (rewrite (Permutation_length Pm), app_length; reflexivity). rewrite Ll, Nat2Z.inj_add, Z.mul_add_distr_r in *.
      assert (0 <= Z.of_nat (length l1) * (M * M'))%Z by nia. assert (0 <= Z.of_nat (length l2) * (M * M'))%Z by nia. destruct I1 as (E1 & m1 & B1 & V1); auto; [lia|]. destruct I2 as (E2 & m2 & B2 & V2); auto; [lia|].
      assert (E : r1 + r2 = IZR (m1 + m2) * bpow radix2 (e + f)) by (rewrite V1, V2, plus_IZR; ring). rewrite (TP _ _ Pm), T, <- E1, <- E2, E, rnd_grid by (destruct G; lia). split; auto. exists (m1 + m2)%Z. split; auto. lia.
    - assert (Fl' : Forall ok ((x, y) :: l1)) by (eapply Permutation_Forall; eauto). inversion_clear Fl' as [|? ? (k & Bk & Ek) F1]. cbn [fst snd] in Ek. assert (Ll : length l = S (length l1)) by (rewrite (Permutation_length Pm); reflexivity). rewrite Ll, Nat2Z.inj_succ, Z.mul_succ_l in *.
      assert (0 <= Z.of_nat (length l1) * (M * M'))%Z by nia. destruct I1 as (E1 & m1 & B1 & V1); auto; [lia|].
      assert (E : x * y + r1 = IZR (k + m1) * bpow radix2 (e + f)) by (rewrite Ek, V1, plus_IZR; ring). rewrite (TP _ _ Pm). change (tot ((x, y) :: l1)) with (x * y + tot l1). rewrite <- E1, E, rnd_grid by (destruct G; lia). split; auto. exists (k + m1)%Z. split; auto. lia. }
  assert (F : Forall ok (combine (map FR v) (map FR o)) /\ tot (combine (map FR v) (map FR o)) = dot (map FR v) (map FR o) /\ length (combine (map FR v) (map FR o)) = length v).
  { clear - L Hv Ho P P'. revert o L Ho. induction Hv as [|x v (Fx & m & Bm & Ex) Hv IH]; intros [|y o] L Ho; try discriminate L; [repeat split; constructor|]. inversion_clear Ho as [|? ? (Fy & k & Bk & Ey) Ho']. destruct (IH o) as (I1 & I2 & I3); auto. cbn [map combine].
    split; [constructor; auto; exists (m * k)%Z; split; [rewrite Z.abs_mul; apply Z.mul_le_mono_nonneg; lia|cbn [fst snd]; rewrite Ex, Ey, mult_IZR, bpow_plus; ring]|]. split; [change (FR x * FR y + tot (combine (map FR v) (map FR o)) = FR x * FR y + dot (map FR v) (map FR o)); rewrite I2; reflexivity|]. cbn [length]. f_equal. exact I3. }
  destruct F as (F1 & F2 & F3). rewrite <- F2. apply (K _ _ Sr F1). rewrite F3. exact B.
Qed.
Print Assumptions C86_any_order.

Lemma grid_pad3 e M (v : list flt) : (0 <= M)%Z -> v <> [] -> (length v <= 3)%nat -> Forall (on_grid e M) v ->
  exists x y z, set_dimension1 (N:=FNum) v 3 = Ok [x; y; z] /\ pad_to 3 (map FR v) = [FR x; FR y; FR z] /\ on_grid e M x /\ on_grid e M y /\ on_grid e M z.
Proof.
  intros P Nv L3 H. pose proof (on_grid_zero e M P) as Z0. assert (K : forall x1 x2 x3 : flt, on_grid e M x1 -> on_grid e M x2 -> on_grid e M x3 -> array1d_new (N:=FNum) (nd_of_vec [x1; x2; x3]) = Ok [x1; x2; x3]).
  { intros x1 x2 x3 (F1 & _) (F2 & _) (F3 & _). apply vector_of_ok; [discriminate|]. repeat constructor; auto. }
  destruct v as [|a [|b [|c [|d v]]]]; [contradiction| | | |cbn in L3; lia]; repeat (match goal with H : Forall _ (_ :: _) |- _ => inversion H; clear H; subst | H : Forall _ [] |- _ => clear H end);
    unfold set_dimension1; cbn [dim1 length Z.of_nat Pos.of_succ_nat Pos.succ]; cbv iota.
  - change (3 <? 1)%Z with false. cbv iota. change (pad (N:=FNum) [a] (Z.to_nat 3 - 1)) with [a; 0%float; 0%float]. do 3 eexists. split; [eapply K; eauto|]. split; [transitivity [FR a; 0; 0]; [reflexivity|rewrite (proj1 zero_F); reflexivity]|]. auto.
  - change (3 <? 2)%Z with false. cbv iota. change (pad (N:=FNum) [a; b] (Z.to_nat 3 - 2)) with [a; b; 0%float]. do 3 eexists. split; [eapply K; eauto|]. split; [transitivity [FR a; FR b; 0]; [reflexivity|rewrite (proj1 zero_F); reflexivity]|]. auto.
  - change (3 <? 3)%Z with false. cbv iota. change (pad (N:=FNum) [a; b; c] (Z.to_nat 3 - 3)) with [a; b; c]. do 3 eexists. split; [eapply K; eauto|]. split; [reflexivity|]. auto.
Qed.
Theorem C86_cross : forall e f M M' (v w : list flt), grid_ok (e + f) -> (2 * (M * M') < 2 ^ 53)%Z -> v <> [] -> w <> [] -> (length v <= 3)%nat -> (length w <= 3)%nat -> Forall (on_grid e M) v -> Forall (on_grid f M') w ->
  exists c, cross (N:=FNum) v w = Ok c /\ length c = 3%nat /\ Forall (on_grid (e + f) (2 * (M * M'))) c /\ map FR c = cross_spec (pad_to 3 (map FR v)) (pad_to 3 (map FR w)).
Proof.
  intros e f M M' v w G B Nv Nw Lv Lw Hv Hw. assert (P : (0 <= M)%Z) by (destruct Hv as [|x v (_ & m & ? & _) _]; [contradiction|lia]). assert (P' : (0 <= M')%Z) by (destruct Hw as [|x w (_ & m & ? & _) _]; [contradiction|lia]).
  destruct (grid_pad3 e M v P Nv Lv Hv) as (x1 & x2 & x3 & Ex & EX & X1 & X2 & X3). destruct (grid_pad3 f M' w P' Nw Lw Hw) as (y1 & y2 & y3 & Ey & EY & Y1 & Y2 & Y3).
  destruct (grid_det e f M M' x2 y3 x3 y2 G B X2 Y3 X3 Y2) as (G1 & E1). destruct (grid_det e f M M' x3 y1 x1 y3 G B X3 Y1 X1 Y3) as (G2 & E2). destruct (grid_det e f M M' x1 y2 x2 y1 G B X1 Y2 X2 Y1) as (G3 & E3).
  exists [(x2 * y3 - x3 * y2)%float; (x3 * y1 - x1 * y3)%float; (x1 * y2 - x2 * y1)%float]. split; [|split; [reflexivity|split; [constructor; [auto|constructor; [auto|constructor; [auto|constructor]]]|]]].
  { unfold cross. rewrite Ex. cbn [bind]. rewrite (vector_of_ok w Nw (on_grid_all _ _ _ Hw)). cbn [bind]. rewrite Ey. cbn [bind cross3]. apply vector_of_ok; [discriminate|]. constructor; [eapply on_grid_finite; exact G1|constructor; [eapply on_grid_finite; exact G2|constructor; [eapply on_grid_finite; exact G3|constructor]]]. }
  rewrite EX, EY. cbn [map cross_spec]. rewrite E1, E2, E3. reflexivity.
Qed.
Print Assumptions C86_cross.

(** ** Lengths and distances: the correctly rounded value, so exact whenever a double can hold it *)
Lemma grid_pos e M x : on_grid e M x -> (0 <= M)%Z.
Proof. intros (_ & m & B & _). lia. Qed.
Lemma grid_norm e M (v : list flt) : grid_ok (e + e) -> (0 <= M)%Z -> (Z.of_nat (length v) * (M * M) < 2 ^ 53)%Z -> Forall (on_grid e M) v ->
  finite (norm_raw (N:=FNum) v) /\ FR (norm_raw (N:=FNum) v) = rnd (len (map FR v)).
Proof.
  intros G P B H. destruct (grid_dots e e M M G P P v v eq_refl H H B) as (D & E). unfold norm_raw. change (nsqrt (n:=FNum)) with PrimFloat.sqrt.
  destruct (fin_sqrt _ (on_grid_finite _ _ _ D) (or_intror (sq_dot_pos v (on_grid_all _ _ _ H)))) as (F & Es). split; auto. rewrite Es, E. reflexivity.
Qed.
Theorem C86_norm : forall e M (v : list flt), grid_ok (e + e) -> (0 <= M)%Z -> (Z.of_nat (length v) * (M * M) < 2 ^ 53)%Z -> Forall (on_grid e M) v ->
  exists r, norm (N:=FNum) v = Ok r /\ finite r /\ FR r = rnd (len (map FR v)).
Proof. intros e M v G P B H. destruct (grid_norm e M v G P B H) as (F & E). eexists. split; [reflexivity|]. auto. Qed.
Print Assumptions C86_norm.
Lemma grid_dist e M (a b : list flt) : grid_ok e -> grid_ok (e + e) -> (Z.of_nat (length a) * (2 * M * (2 * M)) < 2 ^ 53)%Z -> a <> [] -> length b = length a -> Forall (on_grid e M) a -> Forall (on_grid e M) b ->
  exists r, distance_point (N:=FNum) a b = Ok r /\ finite r /\ FR r = rnd (dist (map FR a) (map FR b)).
Proof.
  intros G G2 B Na L Ha Hb. assert (P : (0 <= M)%Z) by (destruct Ha as [|x a Hx _]; [contradiction|eapply grid_pos; eauto]).
  assert (B1 : (2 * M < 2 ^ 53)%Z) by (assert (1 <= Z.of_nat (length a))%Z by (destruct a; [contradiction|cbn [length]; lia]); nia).
  destruct (C86_from_points e M a b G B1 Na L Ha Hb) as (v & Ev & Gv & Lv & Mv). assert (Lv' : @length flt v = @length flt a) by exact Lv.
  destruct (grid_norm e (2 * M) v G2 ltac:(lia) ltac:(rewrite Lv'; exact B) Gv) as (F & E). exists (norm_raw (N:=FNum) v). unfold distance_point. rewrite Ev. split; [reflexivity|]. split; auto. rewrite E, Mv, dist_sym. reflexivity.
Qed.
Theorem C86_distance : forall e M (a b : list flt), grid_ok e -> grid_ok (e + e) -> (Z.of_nat (length a) * (2 * M * (2 * M)) < 2 ^ 53)%Z -> a <> [] -> length b = length a ->
  Forall (on_grid e M) a -> Forall (on_grid e M) b ->
  exists r, distance_point (N:=FNum) a b = Ok r /\ finite r /\ FR r = rnd (dist (map FR a) (map FR b)) /\
    (forall k : Z, dist (map FR a) (map FR b) = IZR k * bpow radix2 e -> FR r = dist (map FR a) (map FR b)).
Proof.
  intros e M a b G G2 B Na L Ha Hb. destruct (grid_dist e M a b G G2 B Na L Ha Hb) as (r & E & F & V). exists r. split; auto. split; auto. split; auto. intros k Ek. rewrite V, Ek. apply rnd_grid; [|destruct G; lia].
  assert (P : (0 <= M)%Z) by (destruct Ha as [|x a Hx _]; [contradiction|eapply grid_pos; eauto]).
  assert (B1 : (2 * M < 2 ^ 53)%Z) by (assert (1 <= Z.of_nat (length a))%Z by (destruct a; [contradiction|cbn [length]; lia]); nia).
  (* k^2 is the sum of the squared coordinate differences *)
  destruct (C86_from_points e M a b G B1 Na L Ha Hb) as (v & Ev & Gv & Lv & Mv). assert (Lv' : @length flt v = @length flt a) by exact Lv.
  destruct (grid_dots e e (2 * M) (2 * M) G2 ltac:(lia) ltac:(lia) v v eq_refl Gv Gv ltac:(rewrite Lv'; exact B)) as ((_ & m & Bm & Em) & D). rewrite D, Mv in Em. rewrite dist_sym in Ek. change (dist (map FR b) (map FR a)) with (len (sub (map FR b) (map FR a))) in Ek.
  rewrite <- len_sq, Ek, bpow_plus in Em. pose proof (bpow_gt_0 radix2 e) as Be. assert (Em' : IZR (k * k) = IZR m).
  { rewrite mult_IZR. apply Rmult_eq_reg_r with (bpow radix2 e * bpow radix2 e); [lra|]. apply Rgt_not_eq. apply Rmult_lt_0_compat; auto. }
  apply eq_IZR in Em'. rewrite Lv' in Bm. assert (Z.abs m < 2 ^ 53)%Z by lia. assert (k * k < 2 ^ 53)%Z by lia. nia.
Qed.
Print Assumptions C86_distance.

(** ** Zero vectors and right angles are recognised exactly *)
Theorem C86_is_zero : forall e M (v : list flt), grid_ok (e + e) -> (0 <= M)%Z -> (Z.of_nat (length v) * (M * M) < 2 ^ 53)%Z -> Forall (on_grid e M) v ->
  exists b, is_zero (N:=FNum) tol_default v = Ok b /\ (b = true <-> is_zero_vec (map FR v)).
Proof.
  intros e M v G P B H. destruct (grid_dots e e M M G P P v v eq_refl H H B) as (D & E). pose proof (on_grid_finite _ _ _ D) as F. eexists. split; [apply is_zero_F; auto|].
  rewrite (eqb_F _ _ F (proj2 zero_F)), (proj1 zero_F), E. apply dot_self_zero_iff.
Qed.
Print Assumptions C86_is_zero.
Theorem C86_is_perpendicular : forall e f M M' (v o : list flt), grid_ok (e + f) -> length v = length o -> Forall (on_grid e M) v -> Forall (on_grid f M') o -> (0 <= M)%Z -> (0 <= M')%Z ->
  (Z.of_nat (length v) * (M * M') < 2 ^ 53)%Z -> exists b, is_perpendicular (N:=FNum) tol_default v o = Ok b /\ (b = true <-> dot (map FR v) (map FR o) = 0).
Proof.
  intros e f M M' v o G L Hv Ho P P' B. destruct (grid_dots e f M M' G P P' v o L Hv Ho B) as (D & E). pose proof (on_grid_finite _ _ _ D) as F. unfold is_perpendicular. rewrite np_dot_F by auto. cbn [bind].
  eexists. split; [apply isclose_zero; auto|]. rewrite (eqb_F _ _ F (proj2 zero_F)), (proj1 zero_F), E. reflexivity.
Qed.
Print Assumptions C86_is_perpendicular.

(** ** Lines: construction and the side of a point *)
Lemma grid_check e f M M' (p d : list flt) : grid_ok (f + f) -> (Z.of_nat (length d) * (M' * M') < 2 ^ 53)%Z -> (0 <= M')%Z -> p <> [] -> length d = length p -> Forall (on_grid e M) p -> Forall (on_grid f M') d ->
  (~ is_zero_vec (map FR d) -> check_point_vector (N:=FNum) p d = Ok (p, d)) /\ (is_zero_vec (map FR d) -> check_point_vector (N:=FNum) p d = Raise (ValueError "The vector must not be the zero vector.")).
Proof.
  intros G B P Np L Hp Hd. assert (Nd : d <> []) by (intro Z; rewrite Z in L; destruct p; [contradiction|discriminate]). destruct (C86_is_zero f M' d G P B Hd) as (b & Eb & Hb).
  unfold check_point_vector. change (point_of (N:=FNum)) with (vector_of (N:=FNum)). rewrite (vector_of_ok p Np (on_grid_all _ _ _ Hp)), (vector_of_ok d Nd (on_grid_all _ _ _ Hd)). cbn [bind]. unfold dim1. fn. rewrite L, Nat.eqb_refl. cbn [negb]. rewrite Eb. cbn [bind].
  split; intro H; destruct b; try reflexivity; exfalso; [apply H; apply Hb; reflexivity|apply Hb in H; discriminate].
Qed.
Theorem C86_line_from_points : forall e M (a b : list flt), grid_ok e -> grid_ok (e + e) -> (Z.of_nat (length a) * (2 * M * (2 * M)) < 2 ^ 53)%Z -> a <> [] -> length b = length a -> Forall (on_grid e M) a -> Forall (on_grid e M) b ->
  (map FR a = map FR b -> line_from_points (N:=FNum) a b = Raise (ValueError "The vector must not be the zero vector.")) /\
  (map FR a <> map FR b -> exists l, line_from_points (N:=FNum) a b = Ok l /\ l_point l = a /\ length (l_dir l) = length a /\ Forall (on_grid e (2 * M)) (l_dir l) /\ map FR (l_dir l) = sub (map FR b) (map FR a)).
Proof.
  intros e M a b G G2 B Na L Ha Hb. assert (P : (0 <= M)%Z) by (destruct Ha as [|x a Hx _]; [contradiction|eapply grid_pos; eauto]).
  assert (B1 : (2 * M < 2 ^ 53)%Z) by (assert (1 <= Z.of_nat (length a))%Z by (destruct a; [contradiction|cbn [length]; lia]); nia).
  destruct (C86_from_points e M a b G B1 Na L Ha Hb) as (v & Ev & Gv & Lv & Mv). assert (Lv' : @length flt v = @length flt a) by exact Lv.
  destruct (grid_check e e M (2 * M) a v G2 ltac:(rewrite Lv'; exact B) ltac:(lia) Na Lv' Ha Gv) as (K1 & K2). unfold line_from_points, line_new. rewrite Ev. cbn [bind]. rewrite Mv in K1, K2.
  assert (Z : is_zero_vec (sub (map FR b) (map FR a)) <-> map FR a = map FR b).
  { rewrite sub_zero_iff by (rewrite !map_length; exact L). split; auto. }
  split; intro H.
  - rewrite K2 by (apply Z; auto). reflexivity.
  - rewrite K1 by (intro; apply H; apply Z; auto). cbn [bind]. eexists. split; [reflexivity|]. cbn [l_point l_dir]. auto.
Qed.
Print Assumptions C86_line_from_points.
Lemma nsign_F (x : flt) : finite x -> (nsign (N:=FNum) x = 1%Z <-> 0 < FR x) /\ (nsign (N:=FNum) x = (-1)%Z <-> FR x < 0) /\ (nsign (N:=FNum) x = 0%Z <-> FR x = 0).
Proof.
  intro F. change (nsign (N:=FNum) x) with (if PrimFloat.ltb x 0 then (-1)%Z else if PrimFloat.ltb 0 x then 1%Z else 0%Z). destruct zero_F as (Z & Fz). pose proof (ltb_F x 0%float F Fz) as H1. pose proof (ltb_F 0%float x Fz F) as H2. rewrite Z in *.
  destruct (PrimFloat.ltb x 0).
  - assert (FR x < 0) by (apply H1; reflexivity). repeat split; intro; try discriminate; try lra; reflexivity.
  - assert (~ FR x < 0) by (intro Q; apply H1 in Q; discriminate). destruct (PrimFloat.ltb 0 x).
    + assert (0 < FR x) by (apply H2; reflexivity). repeat split; intro; try discriminate; try lra; reflexivity.
    + assert (~ 0 < FR x) by (intro Q; apply H2 in Q; discriminate). repeat split; intro; try discriminate; try lra; reflexivity.
Qed.
Theorem C86_orientation : forall e M (a b c : list flt), grid_ok e -> grid_ok (e + e) -> (8 * (M * M) < 2 ^ 53)%Z -> length a = 2%nat -> length b = 2%nat -> length c = 2%nat ->
  Forall (on_grid e M) a -> Forall (on_grid e M) b -> Forall (on_grid e M) c -> map FR a <> map FR b ->
  exists l s, line_from_points (N:=FNum) a b = Ok l /\ line_side_point l c = Ok s /\
    let t := turn (map FR a) (map FR b) (map FR c) in (s = 1%Z <-> t < 0) /\ (s = (-1)%Z <-> t > 0) /\ (s = 0%Z <-> t = 0).
Proof.
  intros e M a b c G G2 B La Lb Lc Ha Hb Hc Hab. assert (Na : a <> []) by (intro Z; rewrite Z in La; discriminate). assert (P : (0 <= M)%Z) by (destruct Ha as [|x a Hx _]; [contradiction|eapply grid_pos; eauto]).
  destruct (C86_line_from_points e M a b G G2 ltac:(rewrite La; change (Z.of_nat 2) with 2%Z; lia) Na ltac:(congruence) Ha Hb) as (_ & K). destruct (K Hab) as (l & El & Pl & Ll & Gl & Ml). clear K.
  destruct (C86_from_points e M a c G ltac:(nia) Na ltac:(congruence) Ha Hc) as (v & Ev & Gv & Lv & Mv). exists l.
  unfold line_side_point. rewrite Pl, Ev. cbn [bind]. destruct l as [q d]. cbn [l_point l_dir] in *. subst q. rewrite La in Ll, Lv.
  destruct a as [|a1 [|a2 [|]]]; try discriminate La. destruct b as [|b1 [|b2 [|]]]; try discriminate Lb. destruct c as [|c1 [|c2 [|]]]; try discriminate Lc. destruct d as [|d1 [|d2 [|]]]; try discriminate Ll. destruct v as [|v1 [|v2 [|]]]; try discriminate Lv.
  cbn [map sub] in Ml, Mv. injection Ml as M1 M2. injection Mv as M3 M4. assert (D1 := Forall_inv Gl). assert (D2 := Forall_inv (Forall_inv_tail Gl)). assert (V1 := Forall_inv Gv). assert (V2 := Forall_inv (Forall_inv_tail Gv)).
  rewrite side_vector_F by (eapply on_grid_finite; eauto). destruct (grid_det e e (2 * M) (2 * M) v1 d2 v2 d1 G2 ltac:(lia) V1 D2 V2 D1) as (Gd & Ed). pose proof (on_grid_finite _ _ _ Gd) as Fd.
  eexists. split; [exact El|]. split; [apply int_sign_F; exact Fd|]. cbv zeta. unfold turn, px, py. cbn [map nth]. destruct (nsign_F _ Fd) as (S1 & S2 & S3). rewrite S1, S2, S3, Ed, M1, M2, M3, M4.
  repeat split; intro; lra.
Qed.
Print Assumptions C86_orientation.

(** ** The signed area of a polygon is exact *)
Lemma points_of_ok (rows : list (list flt)) d : rows <> [] -> (0 < d)%nat -> Forall (fun r => length r = d) rows -> Forall (Forall finite) rows -> points_of (N:=FNum) rows = Ok rows.
Proof.
  intros Nr Hd L F. unfold points_of. apply Arrays.array2d_ok_iff. split; [reflexivity|]. split; auto. split; [exists d; auto|]. eapply Forall_impl; [|exact F]. intros r Hr. eapply Forall_impl; [|exact Hr]. intros x Hx. apply f_finite_iff. exact Hx.
Qed.
Lemma grid_nsum e K (l : list flt) : grid_ok e -> (0 <= K)%Z -> Forall (on_grid e K) l -> (Z.of_nat (length l) * K < 2 ^ 53)%Z ->
  on_grid e (Z.of_nat (length l) * K) (nsum (N:=FNum) l) /\ FR (nsum (N:=FNum) l) = fold_right Rplus 0 (map FR l).
Proof.
  intros G P H. induction H as [|x l Hx H IH]; intro B; [split; [apply on_grid_zero; simpl; lia|apply zero_F]|]. cbn [length] in *. rewrite Nat2Z.inj_succ, Z.mul_succ_l in *. assert (0 <= Z.of_nat (length l) * K)%Z by nia. destruct IH as (I1 & I2); [lia|].
  destruct (grid_add e _ _ x _ G ltac:(rewrite Z.add_comm; exact B) Hx I1) as (G2 & E2). rewrite (Z.add_comm (_ * _)). split; [exact G2|]. transitivity (FR (x + nsum (N:=FNum) l)%float); [reflexivity|]. rewrite E2, I2. reflexivity.
Qed.
Lemma grid_terms e M (A B C D : list flt) : grid_ok (e + e) -> (2 * (M * M) < 2 ^ 53)%Z -> length B = length A -> length C = length A -> length D = length A ->
  Forall (on_grid e M) A -> Forall (on_grid e M) B -> Forall (on_grid e M) C -> Forall (on_grid e M) D ->
  let T := map2 (N:=FNum) PrimFloat.sub (map2 (N:=FNum) PrimFloat.mul A B) (map2 (N:=FNum) PrimFloat.mul C D) in
  length T = length A /\ Forall (on_grid (e + e) (2 * (M * M))) T /\ map FR T = map2 (N:=RNum) Rminus (map2 (N:=RNum) Rmult (map FR A) (map FR B)) (map2 (N:=RNum) Rmult (map FR C) (map FR D)).
Proof.
  intros G B0 L1 L2 L3 HA. revert B C D L1 L2 L3. induction HA as [|x A Hx HA IH]; intros [|b B] [|c C] [|d D] L1 L2 L3 HB HC HD; try discriminate L1; try discriminate L2; try discriminate L3; [repeat split; constructor|].
  inversion_clear HB as [|? ? Hb HB']. inversion_clear HC as [|? ? Hc HC']. inversion_clear HD as [|? ? Hd HD']. destruct (IH B C D) as (I1 & I2 & I3); auto. destruct (grid_det e e M M x b c d G B0 Hx Hb Hc Hd) as (G1 & E1). cbv zeta. cbn [map2 map length].
  split; [f_equal; exact I1|]. split; [constructor; auto|]. apply (f_equal2 (@cons R)); [exact E1|exact I3].
Qed.
Lemma removelast_map {A B} (g : A -> B) l : removelast (map g l) = map g (removelast l).
Proof. induction l as [|a [|b l] IH]; auto. cbn [map removelast] in *. f_equal. exact IH. Qed.
Lemma length_rot1 (N : Num) (v : vec N) : v <> [] -> length (rot1 v) = length v.
Proof. intro H. unfold rot1. cbn [length]. rewrite (app_removelast_last n0 H) at 2. rewrite app_length. cbn [length]. lia. Qed.
Lemma rot1_grid (e M : Z) (v : list flt) : v <> [] -> Forall (on_grid e M) v -> Forall (on_grid e M) (rot1 (N:=FNum) v).
Proof.
  intros Nv H. unfold rot1. rewrite (app_removelast_last (n0 (n:=FNum)) Nv) in H. apply Forall_app in H as (H1 & H2). constructor; [exact (Forall_inv H2)|exact H1].
Qed.
Lemma rot1_F (v : list flt) : v <> [] -> map FR (rot1 (N:=FNum) v) = rot1 (N:=RNum) (map FR v).
Proof. intro Nv. unfold rot1. cbn [map]. rewrite removelast_map. apply (f_equal2 (@cons R)); [|reflexivity]. symmetry. apply Measure.last_map. exact Nv. Qed.
Theorem C86_area_signed : forall e M (rows : list (list flt)), grid_ok (e + e) -> grid_ok (-1 + (e + e)) -> (Z.of_nat (length rows) * (2 * (M * M)) < 2 ^ 53)%Z -> (3 <= length rows)%nat ->
  Forall (fun r => length r = 2%nat) rows -> Forall (Forall (on_grid e M)) rows ->
  exists s, area_signed (N:=FNum) rows = Ok s /\ finite s /\ FR s = shoelace (map (map FR) rows).
Proof.
  intros e M rows G G1 B L3 L2 H. assert (Nr : rows <> []) by (intro Z; rewrite Z in L3; cbn in L3; lia).
  assert (P : (0 <= M)%Z). { destruct rows as [|r rows]; [contradiction|]. pose proof (Forall_inv L2) as Lr. pose proof (Forall_inv H) as Hr. cbn beta in *. destruct r as [|x r]; [discriminate|]. exact (grid_pos _ _ _ (Forall_inv Hr)). }
  set (X := column (N:=FNum) 0 rows). set (Y := column (N:=FNum) 1 rows).
  assert (HX : Forall (on_grid e M) X /\ map FR X = column (N:=RNum) 0 (map (map FR) rows)).
  { unfold X, column. clear - L2 H. induction H as [|r rows Hr H IH]; [split; [constructor|reflexivity]|]. destruct IH as (I1 & I2); [exact (Forall_inv_tail L2)|]. pose proof (Forall_inv L2) as Lr. cbn beta in Lr. destruct r as [|x [|y [|]]]; try discriminate. cbn [map nth]. split; [constructor; [exact (Forall_inv Hr)|exact I1]|apply (f_equal2 (@cons R)); [reflexivity|exact I2]]. }
  assert (HY : Forall (on_grid e M) Y /\ map FR Y = column (N:=RNum) 1 (map (map FR) rows)).
  { unfold Y, column. clear - L2 H. induction H as [|r rows Hr H IH]; [split; [constructor|reflexivity]|]. destruct IH as (I1 & I2); [exact (Forall_inv_tail L2)|]. pose proof (Forall_inv L2) as Lr. cbn beta in Lr. destruct r as [|x [|y [|]]]; try discriminate. cbn [map nth]. split; [constructor; [exact (Forall_inv (Forall_inv_tail Hr))|exact I1]|apply (f_equal2 (@cons R)); [reflexivity|exact I2]]. }
  destruct HX as (HX & EX). destruct HY as (HY & EY). assert (LX : @length flt X = length rows) by (unfold X, column; apply map_length). assert (LY : @length flt Y = length rows) by (unfold Y, column; apply map_length).
  assert (NX : X <> []) by (intro Z; rewrite Z in LX; cbn in LX; lia). assert (NY : Y <> []) by (intro Z; rewrite Z in LY; cbn in LY; lia).
  assert (LrX : @length flt (rot1 (N:=FNum) X) = length rows) by (exact (eq_trans (length_rot1 FNum X NX) LX)). assert (LrY : @length flt (rot1 (N:=FNum) Y) = length rows) by (exact (eq_trans (length_rot1 FNum Y NY) LY)).
  assert (B2 : (2 * (M * M) < 2 ^ 53)%Z) by nia.
  destruct (grid_terms e M (rot1 (N:=FNum) X) Y X (rot1 (N:=FNum) Y) G B2 ltac:(congruence) ltac:(congruence) ltac:(congruence) (rot1_grid e M X NX HX) HY HX (rot1_grid e M Y NY HY)) as (LT & HT & ET).
  set (T := map2 (N:=FNum) PrimFloat.sub _ _) in *. assert (LT' : @length flt T = length rows) by (exact (eq_trans LT LrX)).
  destruct (grid_nsum (e + e) (2 * (M * M)) T G ltac:(nia) HT ltac:(rewrite LT'; exact B)) as (GS & ES). rewrite LT' in GS.
  assert (Hh : on_grid (-1) 1 (ndyad (n:=FNum) 1 1)). { destruct half_F as (Fh & Eh). split; auto. exists 1%Z. split; [lia|]. rewrite Eh. simpl. lra. }
  destruct (grid_mul (-1) (e + e) 1 _ _ _ G1 ltac:(rewrite Z.mul_1_l; exact B) Hh GS) as (GR & ER). eexists. split; [|split; [exact (on_grid_finite _ _ _ GR)|]].
  - unfold area_signed. rewrite (points_of_ok rows 2 Nr ltac:(lia) L2); [|eapply Forall_impl; [|exact H]; intros r; apply on_grid_all]. cbn [bind].
    assert (D2 : dim2 (N:=FNum) rows = 2%nat) by (destruct rows as [|r rows]; [contradiction|exact (Forall_inv L2)]). rewrite D2. cbn [Nat.eqb negb]. change (vec FNum) with (list flt). destruct (Nat.ltb_spec (length rows) 3); [lia|]. reflexivity.
  - rewrite ER, (proj2 half_F), ES, ET, !rot1_F, EX, EY by auto.
    assert (Q : area_signed (N:=RNum) (map (map FR) rows) = Ok (shoelace (map (map FR) rows))).
    { apply Measure.C64_shoelace; [|rewrite map_length; exact L3]. split; [intro Z; apply map_eq_nil in Z; contradiction|]. split; [lia|]. apply Forall_map. eapply Forall_impl; [|exact L2]. intros r Lr. rewrite map_length. exact Lr. }
    unfold area_signed in Q. rewrite (points_of_R (map (map FR) rows) 2) in Q; [|intro Z; apply map_eq_nil in Z; contradiction|lia|apply Forall_map; eapply Forall_impl; [|exact L2]; intros r Lr; rewrite map_length; exact Lr]. cbn [bind] in Q.
    destruct (negb _) in Q; [discriminate Q|]. destruct (Nat.ltb _ _) in Q; [discriminate Q|]. match type of Q with Ok ?x = Ok ?y => assert (Q' : x = y) by (injection Q; auto) end. rewrite <- Q', Measure.half_R. reflexivity.
Qed.
Print Assumptions C86_area_signed.

(** ** Circles and spheres: whether a point lies on them is decided exactly *)
Lemma rnd_sqrt_cmp (e K m : Z) : grid_ok (e + e) -> (0 <= K < 2 ^ 50)%Z -> (0 <= m <= 2 ^ 25)%Z ->
  let D := R_sqrt.sqrt (IZR K) * bpow radix2 e in let r := IZR m * bpow radix2 e in (rnd D < r <-> D < r) /\ (r < rnd D <-> r < D) /\ (rnd D = r <-> D = r).
Proof.
  intros G HK Hm D r. pose proof (bpow_gt_0 radix2 e) as Be. set (b := bpow radix2 e) in *. set (s := R_sqrt.sqrt (IZR K)) in *. assert (K0 : 0 <= IZR K) by (apply IZR_le; lia). assert (s0 : 0 <= s) by apply R_sqrt.sqrt_pos. assert (ss : s * s = IZR K) by (apply sqrt_sqrt; auto).
  assert (m0 : 0 <= IZR m) by (apply IZR_le; lia). assert (sB : s <= 33554432). { apply Rsqr_incr_0; [|auto|lra]. unfold Rsqr. rewrite ss. replace (33554432 * 33554432) with (IZR (2 ^ 50)) by (simpl; lra). apply IZR_le. lia. }
  assert (mB : IZR m <= 33554432) by (replace 33554432 with (IZR (2 ^ 25)) by (simpl; lra); apply IZR_le; lia).
  assert (Rr : rnd r = r) by (apply rnd_grid; [lia|unfold grid_ok in G; lia]).
  assert (Er : Rabs (rnd D - D) <= / 268435456 * b + / 268435456 * / 268435456 * b).
  { eapply Rle_trans; [apply rnd_err|]. unfold D. rewrite Rabs_pos_eq by (apply Rmult_le_pos; lra). apply Rplus_le_compat.
    - unfold uro. replace (bpow radix2 (-53)) with (/ 9007199254740992) by (simpl; lra). assert (s * b <= 33554432 * b) by (apply Rmult_le_compat_r; lra). lra.
    - replace (/ 268435456 * / 268435456) with (bpow radix2 (-56)) by (simpl; lra). unfold b, eta. rewrite <- bpow_plus. apply bpow_le. unfold grid_ok in G. lia. }
  assert (Gap : s <> IZR m -> / 67108864 <= Rabs (s - IZR m)).
  { intro Hne. assert (Hz : (K <> m * m)%Z) by (intro Z; apply Hne; unfold s; rewrite Z, mult_IZR; apply R_sqrt.sqrt_square; auto). assert (H1 : 1 <= Rabs (IZR (K - m * m))) by (rewrite <- abs_IZR; apply IZR_le; lia). rewrite minus_IZR, mult_IZR, <- ss in H1.
    replace (s * s - IZR m * IZR m) with ((s - IZR m) * (s + IZR m)) in H1 by ring. rewrite Rabs_mult, (Rabs_pos_eq (s + _)) in H1 by lra. pose proof (Rabs_pos (s - IZR m)) as A0. assert (Rabs (s - IZR m) * (s + IZR m) <= Rabs (s - IZR m) * 67108864) by (apply Rmult_le_compat_l; lra). lra. }
  assert (GapD : D <> r -> / 67108864 * b <= Rabs (D - r)). { intro H. unfold D, r. rewrite <- Rmult_minus_distr_r, Rabs_mult, (Rabs_pos_eq b) by lra. apply Rmult_le_compat_r; [lra|]. apply Gap. intro Z. apply H. unfold D, r. rewrite Z. reflexivity. }
  assert (Lt : D < r -> rnd D < r). { intro H. specialize (GapD ltac:(lra)). rewrite Rabs_left in GapD by lra. apply Rabs_le_inv in Er. lra. }
  assert (Gt : r < D -> r < rnd D). { intro H. specialize (GapD ltac:(lra)). rewrite Rabs_pos_eq in GapD by lra. apply Rabs_le_inv in Er. lra. }
  assert (Eq : D = r -> rnd D = r) by (intro H; rewrite H; exact Rr).
  destruct (Rtotal_order D r) as [H|[H|H]]; [specialize (Lt H)|specialize (Eq H)|specialize (Gt H)]; repeat split; intro; lra.
Qed.
Lemma grid_dist_sqrt e M (a b : list flt) : grid_ok e -> grid_ok (e + e) -> (Z.of_nat (length a) * (2 * M * (2 * M)) < 2 ^ 50)%Z -> a <> [] -> length b = length a -> Forall (on_grid e M) a -> Forall (on_grid e M) b ->
  exists K, (0 <= K < 2 ^ 50)%Z /\ dist (map FR a) (map FR b) = R_sqrt.sqrt (IZR K) * bpow radix2 e.
Proof.
  intros G G2 B Na L Ha Hb. assert (P : (0 <= M)%Z) by (destruct Ha as [|x a Hx _]; [contradiction|eapply grid_pos; eauto]).
  assert (B1 : (2 * M < 2 ^ 53)%Z) by (assert (1 <= Z.of_nat (length a))%Z by (destruct a; [contradiction|cbn [length]; lia]); nia).
  destruct (C86_from_points e M a b G B1 Na L Ha Hb) as (v & Ev & Gv & Lv & Mv). assert (Lv' : @length flt v = @length flt a) by exact Lv.
  destruct (grid_dots e e (2 * M) (2 * M) G2 ltac:(lia) ltac:(lia) v v eq_refl Gv Gv ltac:(rewrite Lv'; lia)) as ((_ & m & Bm & Em) & D). rewrite D, Mv in Em. rewrite Lv' in Bm.
  pose proof (bpow_gt_0 radix2 e) as Be. rewrite bpow_plus in Em. assert (m0 : (0 <= m)%Z).
  { apply le_IZR. apply Rmult_le_reg_r with (bpow radix2 e * bpow radix2 e); [apply Rmult_lt_0_compat; auto|]. rewrite Rmult_0_l, <- Em. apply dot_self_nonneg. }
  exists m. split; [lia|]. rewrite dist_sym. change (dist (map FR b) (map FR a)) with (R_sqrt.sqrt (dot (sub (map FR b) (map FR a)) (sub (map FR b) (map FR a)))). rewrite Em, sqrt_mult by (try (apply IZR_le; exact m0); apply Rmult_le_pos; lra). rewrite sqrt_square by lra. reflexivity.
Qed.
Theorem C86_ball_contains : forall e M (p q : list flt) (r : flt) (c : ball FNum), grid_ok e -> grid_ok (e + e) -> (Z.of_nat (length p) * (2 * M * (2 * M)) < 2 ^ 50)%Z ->
  is_ball_F p r c -> length q = length p -> Forall (on_grid e M) p -> Forall (on_grid e M) q -> on_grid e M r ->
  exists b, ball_contains_point tol_default c q = Ok b /\ (b = true <-> dist (map FR p) (map FR q) = FR r).
Proof.
  intros e M p q r c G G2 B Hc L Hp Hq Hr. assert (Q : c = MkBall (N:=FNum) p r /\ p <> [] /\ 0 < FR r).
  { unfold is_ball_F, circle_new, sphere_new, base_sphere_new in Hc. change (point_of (N:=FNum)) with (vector_of (N:=FNum)) in Hc. assert (Np : p <> []) by (intro Z; subst p; destruct Hc as [Hc|Hc]; destruct (nleb r n0); discriminate).
    rewrite (vector_of_ok p Np (on_grid_all _ _ _ Hp)) in Hc. destruct (nleb (n:=FNum) r n0) eqn:Er; [destruct Hc; discriminate|]. cbn [bind c_point] in Hc. split; [destruct Hc as [Hc|Hc]; destruct (negb _) in Hc; try discriminate; injection Hc as <-; reflexivity|]. split; auto.
    destruct (Rlt_le_dec 0 (FR r)) as [H|H]; auto. rewrite <- (proj1 zero_F) in H. apply (leb_F _ _ (on_grid_finite _ _ _ Hr) (proj2 zero_F)) in H. change (nleb (n:=FNum) r n0) with (PrimFloat.leb r 0) in Er. congruence. }
  destruct Q as (-> & Np & Rp). destruct (grid_dist_sqrt e M p q G G2 B Np L Hp Hq) as (K & HK & ED). destruct (grid_dist e M p q G G2 ltac:(lia) Np L Hp Hq) as (x & Ex & Fx & Vx).
  destruct Hr as (Fr & m & Bm & Er). pose proof (bpow_gt_0 radix2 e) as Be. assert (m0 : (0 <= m)%Z) by (apply le_IZR; apply Rmult_le_reg_r with (bpow radix2 e); auto; rewrite Rmult_0_l, <- Er; lra).
  assert (mB : (m <= 2 ^ 25)%Z) by (assert (1 <= Z.of_nat (length p))%Z by (destruct p; [contradiction|cbn [length]; lia]); nia).
  destruct (rnd_sqrt_cmp e K m G2 HK ltac:(lia)) as (_ & _ & CE). cbv zeta in CE. rewrite <- ED, <- Er, <- Vx in CE.
  destruct (fin_sub x r Fx Fr) as (Fs & Es).
  { assert (X1 : Rabs (FR x) <= bpow radix2 (e + 25)). { rewrite Vx. apply rnd_bpow_le; [unfold grid_ok in G; lia|]. rewrite ED, Rabs_pos_eq by (apply Rmult_le_pos; [apply R_sqrt.sqrt_pos|lra]). rewrite bpow_plus, Rmult_comm. apply Rmult_le_compat_l; [lra|]. change (bpow radix2 25) with 33554432. apply Rsqr_incr_0; [|apply R_sqrt.sqrt_pos|lra]. unfold Rsqr. rewrite sqrt_sqrt by (apply IZR_le; lia). replace (33554432 * 33554432) with (IZR (2 ^ 50)) by (simpl; lra). apply IZR_le. lia. }
    assert (X2 : Rabs (FR r) <= bpow radix2 (e + 25)). { rewrite Er, Rabs_mult, (Rabs_pos_eq (bpow _ _)), (Rabs_pos_eq (IZR m)) by (try lra; apply IZR_le; auto). rewrite bpow_plus, Rmult_comm. apply Rmult_le_compat_l; [lra|]. change (bpow radix2 25) with (IZR (2 ^ 25)). apply IZR_le. exact mB. }
    eapply Rle_lt_trans; [apply (rnd_bpow_le _ (e + 26)); [unfold grid_ok in G; lia|]|apply bpow_lt; unfold grid_ok in G; lia]. replace (e + 26)%Z with (1 + (e + 25))%Z by lia. rewrite bpow_plus. change (bpow radix2 1) with 2. pose proof (Rabs_triang (FR x) (- FR r)) as T. rewrite Rabs_Ropp in T. unfold Rminus. lra. }
  unfold ball_contains_point, contains_point_gen, ball_distance_point. cbn [c_point c_radius]. rewrite Ex. cbn [bind]. change (nabs (n:=FNum)) with PrimFloat.abs. change (nsub (n:=FNum)) with PrimFloat.sub. change (n0 (n:=FNum)) with 0%float.
  eexists. split; [apply isclose_zero; apply abs_finite; exact Fs|]. rewrite (eqb_F _ _ (proj2 (abs_finite _) Fs) (proj2 zero_F)), (proj1 zero_F), abs_F, Es, <- CE. pose proof (rnd_minus x r) as R1. pose proof uro_small as (U & U').
  split; intro H.
  - assert (Z : rnd (FR x - FR r) = 0) by (destruct (Req_dec (rnd (FR x - FR r)) 0) as [|NZ]; auto; apply Rabs_no_R0 in NZ; contradiction). rewrite Z in R1. rewrite Rminus_0_l, Rabs_Ropp in R1. pose proof (Rabs_pos (FR x - FR r)) as A0. assert (A1 : Rabs (FR x - FR r) = 0) by nra. destruct (Req_dec (FR x - FR r) 0) as [E|NE]; [lra|]. apply Rabs_no_R0 in NE. contradiction.
  - rewrite H. replace (FR r - FR r) with 0 by ring. rewrite rnd_0, Rabs_R0. reflexivity.
Qed.
Print Assumptions C86_ball_contains.

(** ** Areas and volumes *)
Lemma half_exact (x : flt) : finite x -> FR x = 0 \/ bpow radix2 (-1021) <= FR x -> finite (ndyad (n:=FNum) 1 1 * x)%float /\ FR (ndyad (n:=FNum) 1 1 * x)%float = / 2 * FR x.
Proof.
  intros Fx H. destruct half_F as (Fh & Eh). assert (E : rnd (/ 2 * FR x) = / 2 * FR x).
  { destruct H as [H|H]; [rewrite H, Rmult_0_r; apply rnd_0|]. apply round_generic; auto with typeclass_instances. rewrite Rmult_comm. change (/ 2) with (bpow radix2 (-1)). apply Mult_error.mult_bpow_exact_FLT; [apply gf|].
    assert (mag radix2 (FR x) > -1021)%Z; [|lia]. apply Z.lt_gt. apply mag_gt_bpow. rewrite Rabs_pos_eq; [exact H|]. eapply Rle_trans; [|exact H]. apply bpow_ge_0. }
  destruct (fin_mul (ndyad (n:=FNum) 1 1) x Fh Fx) as (F & V); rewrite Eh, E in *; auto. rewrite Rabs_mult, Rabs_pos_eq by lra. pose proof (abs_B2R_lt_emax prec emax (Prim2B x)) as B. change (B2R (Prim2B x)) with (FR x) in B. pose proof (Rabs_pos (FR x)). change (bpow radix2 emax) with (bpow radix2 1024) in B. lra.
Qed.
Theorem C86_area_triangle : forall e M (a b c : list flt), grid_ok e -> grid_ok (e + e) -> grid_ok (e + e + (e + e)) -> (192 * (M * M * M * M) < 2 ^ 53)%Z -> a <> [] -> length b = length a -> length c = length a -> (length a <= 3)%nat ->
  Forall (on_grid e M) a -> Forall (on_grid e M) b -> Forall (on_grid e M) c ->
  exists s, area_triangle (N:=FNum) a b c = Ok s /\ finite s /\ (FR s = 0 <-> collinear [map FR a; map FR b; map FR c]) /\
    forall h, min_dist (on_line (map FR a) (sub (map FR b) (map FR a))) (map FR c) h -> 2 * FR s = rnd (dist (map FR a) (map FR b) * h).
Proof.
  intros e M a b c G G2 G4 B Na Lb Lc L3 Ha Hb Hc. assert (P : (0 <= M)%Z) by (destruct Ha as [|x a Hx _]; [contradiction|eapply grid_pos; eauto]).
  assert (Q1 : (0 <= M * M)%Z) by nia. assert (Q2 : (0 <= M * M * M)%Z) by nia. assert (Q3 : (M <= M * M)%Z) by nia. assert (Q4 : (M * M <= M * M * M)%Z) by nia. assert (Q5 : (M * M * M <= M * M * M * M)%Z) by nia.
  destruct (C86_from_points e M a b G ltac:(lia) Na Lb Ha Hb) as (v & Ev & Gv & Lv & Mv). destruct (C86_from_points e M a c G ltac:(lia) Na Lc Ha Hc) as (w & Ew & Gw & Lw & Mw).
  assert (Nv : v <> []) by (intro Z; rewrite Z in Lv; destruct a; [contradiction|discriminate]). assert (Nw : w <> []) by (intro Z; rewrite Z in Lw; destruct a; [contradiction|discriminate]).
  destruct (C86_cross e e (2 * M) (2 * M) v w G2 ltac:(lia) Nv Nw (eq_ind_r (fun n => (n <= 3)%nat) L3 Lv) (eq_ind_r (fun n => (n <= 3)%nat) L3 Lw) Gv Gw) as (x & Ex & Lx & Gx & Mx). assert (Lx' : @length flt x = 3%nat) by exact Lx.
  destruct (grid_norm (e + e) (2 * (2 * M * (2 * M))) x G4 ltac:(lia) ltac:(rewrite Lx'; change (Z.of_nat 3) with 3%Z; replace (3 * (2 * (2 * M * (2 * M)) * (2 * (2 * M * (2 * M)))))%Z with (192 * (M * M * M * M))%Z by ring; exact B) Gx) as (Fm & Em).
  set (X := sub (map FR b) (map FR a)) in *. set (Y := sub (map FR c) (map FR a)) in *. assert (LbR : length (map FR b) = length (map FR a)) by (rewrite !map_length; exact Lb). assert (LcR : length (map FR c) = length (map FR a)) by (rewrite !map_length; exact Lc). assert (L3R : (length (map FR a) <= 3)%nat) by (rewrite map_length; exact L3).
  assert (NaR : map FR a <> []) by (intro Z; apply map_eq_nil in Z; contradiction). rewrite Mv, Mw in Mx. rewrite Mx in Em. set (C := cross_spec (pad_to 3 X) (pad_to 3 Y)) in *.
  destruct (Measure.C65_area _ _ _ NaR LbR LcR L3R) as (k & Ek & K0 & Kc & Hk). rewrite Measure.area_triangle_R in Ek by auto. injection Ek as Ek. fold X Y in Ek.
  assert (EC : R_sqrt.sqrt (Triangles.gram X Y) = len C). { unfold len, C. f_equal. rewrite lagrange by (apply length_padsub; auto). rewrite !Verif.Proof.Arrays.pad_to_dot by (unfold X, Y; lenr). reflexivity. } rewrite EC in Ek.
  (* the length of the cross product is zero or at least one squared grid step *)
  assert (LB : len C = 0 \/ bpow radix2 (e + e) <= len C).
  { destruct (grid_dots (e + e) (e + e) (2 * (2 * M * (2 * M))) (2 * (2 * M * (2 * M))) G4 ltac:(lia) ltac:(lia) x x eq_refl Gx Gx ltac:(rewrite Lx'; change (Z.of_nat 3) with 3%Z; replace (3 * (2 * (2 * M * (2 * M)) * (2 * (2 * M * (2 * M)))))%Z with (192 * (M * M * M * M))%Z by ring; exact B)) as ((_ & m & _ & Dm) & D). rewrite D, Mx, bpow_plus in Dm.
    pose proof (dot_self_nonneg C) as D0. pose proof (bpow_gt_0 radix2 (e + e)) as Be. set (bb := bpow radix2 (e + e)) in *. assert (m0 : (0 <= m)%Z) by (apply le_IZR; apply Rmult_le_reg_r with (bb * bb); [apply Rmult_lt_0_compat; auto|]; rewrite Rmult_0_l, <- Dm; exact D0).
    destruct (Z.eq_dec m 0) as [->|NZ]; [left; unfold len; rewrite Dm, Rmult_0_l; apply sqrt_0|]. right. apply Rsqr_incr_0; [|lra|apply len_nonneg]. unfold Rsqr. rewrite len_sq, Dm. assert (1 <= IZR m) by (apply IZR_le; lia). rewrite <- (Rmult_1_l (bb * bb)) at 1. apply Rmult_le_compat_r; [apply Rmult_le_pos; lra|auto]. }
  assert (E1021 : (-1021 <= e + e)%Z) by (unfold grid_ok in G4; lia).
  assert (HM : FR (norm_raw (N:=FNum) x) = 0 \/ bpow radix2 (e + e) <= FR (norm_raw (N:=FNum) x)).
  { rewrite Em. destruct LB as [LB|LB]; [left; rewrite LB; apply rnd_0|right]. replace (bpow radix2 (e + e)) with (rnd (bpow radix2 (e + e))); [apply rnd_le; exact LB|]. rewrite <- (Rmult_1_l (bpow radix2 (e + e))). apply (rnd_grid 1); [lia|lia]. }
  destruct (half_exact (norm_raw (N:=FNum) x) Fm) as (Fs & Es); [destruct HM as [HM|HM]; [left; auto|right; eapply Rle_trans; [|exact HM]; apply bpow_le; lia]|].
  exists (ndyad (n:=FNum) 1 1 * norm_raw (N:=FNum) x)%float. split; [unfold area_triangle; rewrite Ev; cbn [bind]; rewrite Ew; cbn [bind]; rewrite Ex; reflexivity|]. split; [exact Fs|]. rewrite Es, Em. split.
  - rewrite <- Kc, <- Ek. pose proof (bpow_gt_0 radix2 (e + e)) as Be. split; intro H.
    + destruct LB as [LB|LB]; [rewrite LB; ring|]. exfalso. rewrite Em in HM. destruct HM as [HM|HM]; [|lra]. assert (bpow radix2 (e + e) <= rnd (len C)); [|lra]. replace (bpow radix2 (e + e)) with (rnd (bpow radix2 (e + e))); [apply rnd_le; exact LB|]. rewrite <- (Rmult_1_l (bpow radix2 (e + e))). apply (rnd_grid 1); lia.
    + assert (Z : len C = 0) by lra. rewrite Z, rnd_0. ring.
  - intros h Hh. specialize (Hk h Hh). replace (dist (map FR a) (map FR b) * h) with (len C) by lra. lra.
Qed.
Print Assumptions C86_area_triangle.
Theorem C86_volume_tetrahedron : forall e M (a b c d : list flt), grid_ok e -> grid_ok (e + e) -> grid_ok (e + (e + e)) -> (-1000 <= e + (e + e))%Z -> (48 * (M * M * M) < 2 ^ 53)%Z -> a <> [] -> length b = length a -> length c = length a -> length d = length a -> (length a <= 3)%nat ->
  Forall (on_grid e M) a -> Forall (on_grid e M) b -> Forall (on_grid e M) c -> Forall (on_grid e M) d ->
  exists V, volume_tetrahedron (N:=FNum) a b c d = Ok V /\ finite V /\ (FR V = 0 <-> coplanar [map FR a; map FR b; map FR c; map FR d]) /\
    forall h k, min_dist (on_line (map FR a) (sub (map FR b) (map FR a))) (map FR c) h -> min_dist (span3 (map FR a) (map FR b) (map FR c)) (map FR d) k ->
      let vol := dist (map FR a) (map FR b) * h / 2 * k / 3 in Rabs (FR V - vol) <= 3 * bpow radix2 (-53) * vol.
Proof.
  intros e M a b c d G G2 G3 GL B Na Lb Lc Ld L3 Ha Hb Hc Hd. assert (P : (0 <= M)%Z) by (destruct Ha as [|x a Hx _]; [contradiction|eapply grid_pos; eauto]).
  assert (Q1 : (0 <= M * M)%Z) by nia. assert (Q3 : (M <= M * M)%Z) by nia. assert (Q4 : (M * M <= M * M * M)%Z) by nia.
  destruct (C86_from_points e M a b G ltac:(lia) Na Lb Ha Hb) as (v & Ev & Gv & Lv & Mv). destruct (C86_from_points e M a c G ltac:(lia) Na Lc Ha Hc) as (w & Ew & Gw & Lw & Mw). destruct (C86_from_points e M a d G ltac:(lia) Na Ld Ha Hd) as (z & Ez & Gz & Lz & Mz).
  assert (Nv : v <> []) by (intro Z; rewrite Z in Lv; destruct a; [contradiction|discriminate]). assert (Nw : w <> []) by (intro Z; rewrite Z in Lw; destruct a; [contradiction|discriminate]). assert (Nz : z <> []) by (intro Z; rewrite Z in Lz; destruct a; [contradiction|discriminate]).
  destruct (C86_cross e e (2 * M) (2 * M) w z G2 ltac:(lia) Nw Nz (eq_ind_r (fun n => (n <= 3)%nat) L3 Lw) (eq_ind_r (fun n => (n <= 3)%nat) L3 Lz) Gw Gz) as (x & Ex & Lx & Gx & Mx). assert (Lx' : @length flt x = 3%nat) by exact Lx.
  destruct (grid_pad3 e (2 * M) v ltac:(lia) Nv (eq_ind_r (fun n => (n <= 3)%nat) L3 Lv) Gv) as (x1 & x2 & x3 & E3 & EX & X1 & X2 & X3).
  assert (Gu : Forall (on_grid e (2 * M)) [x1; x2; x3]) by (constructor; [auto|constructor; [auto|constructor; [auto|constructor]]]).
  destruct (grid_dots e (e + e) (2 * M) (2 * (2 * M * (2 * M))) G3 ltac:(lia) ltac:(lia) [x1; x2; x3] x (eq_sym Lx') Gu Gx) as ((Fd & m & Bm & Em) & Ed).
  { change (Z.of_nat (length [x1; x2; x3])) with 3%Z. replace (3 * (2 * M * (2 * (2 * M * (2 * M)))))%Z with (48 * (M * M * M))%Z by ring. exact B. }
  set (dd := dot_raw (N:=FNum) [x1; x2; x3] x) in *. rewrite Mw, Mz in Mx. rewrite Mv in EX. rewrite Ed in Em.
  set (X := sub (map FR b) (map FR a)) in *. set (Y := sub (map FR c) (map FR a)) in *. set (Z := sub (map FR d) (map FR a)) in *. assert (LbR : length (map FR b) = length (map FR a)) by (rewrite !map_length; exact Lb). assert (LcR : length (map FR c) = length (map FR a)) by (rewrite !map_length; exact Lc). assert (LdR : length (map FR d) = length (map FR a)) by (rewrite !map_length; exact Ld). assert (L3R : (length (map FR a) <= 3)%nat) by (rewrite map_length; exact L3).
  assert (NaR : map FR a <> []) by (intro Q; apply map_eq_nil in Q; contradiction). rewrite Mx in Ed, Em. change (map FR [x1; x2; x3]) with [FR x1; FR x2; FR x3] in Ed, Em. rewrite <- EX in Ed, Em. set (T := dot (pad_to 3 X) (cross_spec (pad_to 3 Y) (pad_to 3 Z))) in *.
  change (Z.of_nat (length [x1; x2; x3])) with 3%Z in Bm. assert (Bm' : (Z.abs m < 2 ^ 53)%Z) by lia.
  destruct sixth_F as (Fs & Es & Ps). pose proof uro_small as (U & U'). pose proof uro_pos as U0. assert (Es' := Rabs_le_inv _ _ Es). set (s := FR sixthF) in *. pose proof (Rabs_pos T) as T0. assert (TB : Rabs T < bpow radix2 (e + (e + e) + 53)).
  { rewrite Em, Rabs_mult, <- abs_IZR, (Rabs_pos_eq (bpow _ _)) by apply bpow_ge_0. rewrite (bpow_plus radix2 (e + (e + e)) 53), Rmult_comm. apply Rmult_lt_compat_l; [apply bpow_gt_0|]. change (bpow radix2 53) with (IZR (2 ^ 53)). apply IZR_lt. exact Bm'. }
  assert (TL : T = 0 \/ bpow radix2 (e + (e + e)) <= Rabs T).
  { destruct (Z.eq_dec m 0) as [Zm|NZ]; [left; rewrite Em, Zm; ring|right]. rewrite Em, Rabs_mult, <- abs_IZR, (Rabs_pos_eq (bpow _ _)) by apply bpow_ge_0. rewrite <- (Rmult_1_l (bpow radix2 (e + (e + e)))) at 1. apply Rmult_le_compat_r; [apply bpow_ge_0|]. apply IZR_le. lia. }
  assert (SB : Rabs (s * Rabs T) <= bpow radix2 (e + (e + e) + 53)). { rewrite Rabs_pos_eq by (apply Rmult_le_pos; auto). assert (s * Rabs T <= 1 * Rabs T) by (apply Rmult_le_compat_r; lra). lra. }
  destruct (fin_mul sixthF (PrimFloat.abs dd) Fs (proj2 (abs_finite dd) Fd)) as (FV & EV); [rewrite abs_F, Ed; fold s; eapply Rle_lt_trans; [apply rnd_bpow_le; [|exact SB]; unfold grid_ok in G3; lia|apply bpow_lt; unfold grid_ok in G3; lia]|]. rewrite abs_F, Ed in EV. fold s in EV.
  destruct (Measure.C65_area _ _ _ NaR LbR LcR L3R) as (ar & Ea & _ & _ & Har). destruct (Measure.C65_volume _ _ _ _ NaR LbR LcR LdR L3R) as (vo & Evo & V0 & Vc & Hvo). rewrite Measure.volume_triple_R in Evo by auto. fold X Y Z in Evo. fold T in Evo. injection Evo as Evo.
  assert (W : Rabs (FR (sixthF * PrimFloat.abs dd)%float - vo) <= 3 * uro * vo).
  { rewrite EV, <- Evo. destruct TL as [TL|TL]; [rewrite TL, Rabs_R0, !Rmult_0_r, rnd_0, Rminus_0_r, Rabs_R0; lra|].
    pose proof (rnd_err (s * Rabs T)) as R1. rewrite (Rabs_pos_eq (s * _)) in R1 by (apply Rmult_le_pos; auto). apply Rabs_le_inv in R1.
    assert (E1 : eta <= / 1024 * (uro * Rabs T)). { replace (/ 1024) with (bpow radix2 (-10)) by (simpl; lra). unfold uro, eta. apply Rle_trans with (bpow radix2 (-10) * (bpow radix2 (-53) * bpow radix2 (e + (e + e)))); [rewrite <- !bpow_plus; apply bpow_le; lia|]. apply Rmult_le_compat_l; [apply bpow_ge_0|]. apply Rmult_le_compat_l; [apply bpow_ge_0|exact TL]. }
    assert (W1 : Rabs ((s - / 6) * Rabs T) <= / 6 * uro * Rabs T) by (rewrite Rabs_mult, (Rabs_pos_eq (Rabs T)) by auto; apply Rmult_le_compat_r; auto). apply Rabs_le_inv in W1. assert (UT : 0 <= uro * Rabs T) by (apply Rmult_le_pos; lra).
    assert (W2 : uro * (s * Rabs T) <= uro * ((/ 6 + / 100) * Rabs T)) by (apply Rmult_le_compat_l; [lra|apply Rmult_le_compat_r; lra]). apply Rabs_le. lra. }
  exists (sixthF * PrimFloat.abs dd)%float. split; [unfold volume_tetrahedron; rewrite Ev; cbn [bind]; rewrite Ew; cbn [bind]; rewrite Ez; cbn [bind]; rewrite Ex; cbn [bind]; rewrite E3; cbn [bind]; rewrite (np_dot_F [x1; x2; x3] x (eq_sym Lx')); reflexivity|].
  split; [exact FV|]. split.
  - rewrite <- Vc. assert (UV : uro * vo <= / 1024 * vo) by (apply Rmult_le_compat_r; lra). apply Rabs_le_inv in W. split; intro H; [rewrite H in W; lra|rewrite H in W; lra].
  - intros h k Hh Hk. cbv zeta. rewrite <- (Har h Hh), <- (Hvo ar k Ea Hk). exact W.
Qed.
Print Assumptions C86_volume_tetrahedron.

(** ** Planes *)
Theorem C86_plane_from_vectors : forall e f M M' (p a b : list flt) (t : tol FNum) (pl : plane FNum), grid_ok (f + f) -> (2 * (M' * M') < 2 ^ 53)%Z -> (0 <= M)%Z -> p <> [] -> (length p <= 3)%nat -> a <> [] -> b <> [] -> (length a <= 3)%nat -> (length b <= 3)%nat ->
  Forall (on_grid e M) p -> Forall (on_grid f M') a -> Forall (on_grid f M') b -> plane_from_vectors t p a b = Ok pl ->
  map FR (pl_point pl) = pad_to 3 (map FR p) /\ map FR (pl_normal pl) = cross_spec (pad_to 3 (map FR a)) (pad_to 3 (map FR b)).
Proof.
  intros e f M M' p a b t pl G B PM Np Lp Na Nb La Lb Hp Ha Hb H. unfold plane_from_vectors in H. rewrite (vector_of_ok a Na (on_grid_all _ _ _ Ha)) in H. cbn [bind] in H. destruct (is_parallel t a b) as [[|]| |] eqn:Ep; try discriminate H. cbn [bind] in H.
  destruct (C86_cross f f M' M' a b G B Na Nb La Lb Ha Hb) as (n & En & Ln & Gn & Mn). rewrite En in H. cbn [bind] in H. change (point_of (N:=FNum)) with (vector_of (N:=FNum)) in H. rewrite (vector_of_ok p Np (on_grid_all _ _ _ Hp)) in H. cbn [bind] in H.
  destruct (grid_pad3 e M p PM Np Lp Hp) as (x & y & z & E3 & EX & _). rewrite E3 in H. cbn [bind] in H. unfold plane_new in H. destruct (check_point_vector [x; y; z] n) as [[p' n']| |] eqn:Ec; try discriminate H. cbn [bind] in H. injection H as <-. cbn [pl_point pl_normal]. apply check_F in Ec as (-> & -> & _). rewrite EX. auto.
Qed.
Print Assumptions C86_plane_from_vectors.
Theorem C86_plane_cartesian : forall e f M M' (p n : list flt) (pl : plane FNum), grid_ok (f + e) -> (0 <= M)%Z -> (0 <= M')%Z -> (Z.of_nat (length n) * (M' * M) < 2 ^ 53)%Z -> (length p <= 3)%nat -> Forall (on_grid e M) p -> Forall (on_grid f M') n -> plane_new p n = Ok pl ->
  exists a b c d, plane_cartesian pl = Ok (a, b, c, d) /\ Forall finite [a; b; c; d] /\ [FR a; FR b; FR c] = pad_to 3 (map FR n) /\
    forall x y z, FR a * x + FR b * y + FR c * z + FR d = dot (pad_to 3 (map FR n)) (sub [x; y; z] (pad_to 3 (map FR p))).
Proof.
  intros e f M M' p n pl G PM PM' B Lp Hp Hn H. unfold plane_new in H. destruct (check_point_vector p n) as [[p' n']| |] eqn:Ec; try discriminate H. cbn [bind] in H. injection H as <-. apply check_F in Ec as (-> & -> & Np & Fp & Fn & L & _).
  assert (Nn : n <> []) by (intro Z; rewrite Z in L; destruct p; [contradiction|discriminate]). assert (L' : @length flt p = @length flt n) by exact L. assert (Ln : (length n <= 3)%nat) by (rewrite <- L'; exact Lp).
  destruct (grid_pad3 f M' n PM' Nn Ln Hn) as (a & b & c & E3 & EX & A1 & A2 & A3). destruct (grid_dots f e M' M G PM' PM n p (eq_sym L') Hn Hp B) as (D & ED). exists a, b, c, (- dot_raw (N:=FNum) n p)%float.
  split; [unfold plane_cartesian, plane_dim; cbn [pl_point pl_normal]; unfold dim1; fn; destruct (Nat.ltb_spec 3 (length p)); [lia|]; rewrite E3; cbn [bind]; rewrite (np_dot_F n p (eq_sym L')); reflexivity|].
  split; [constructor; [eapply on_grid_finite; eauto|constructor; [eapply on_grid_finite; eauto|constructor; [eapply on_grid_finite; eauto|constructor; [apply opp_finite; eapply on_grid_finite; eauto|constructor]]]]|].
  split; [symmetry; exact EX|]. intros x y z. rewrite opp_F, ED. rewrite <- (Arrays.pad_to_dot 3 (map FR n) (map FR p)) by (rewrite !map_length; first [exact (eq_sym L')|exact Ln|exact Lp]). rewrite EX.
  assert (E : exists u v w, pad_to 3 (map FR p) = [u; v; w]). { clear - Lp Np. destruct p as [|x [|y [|z [|]]]]; [contradiction| | | |cbn in Lp; lia]; do 3 eexists; reflexivity. } destruct E as (u & v & w & ->). cbn [dot sub]. ring.
Qed.
Print Assumptions C86_plane_cartesian.

(** ** The intersection of a line and a plane: parallel pairs are recognised exactly and the point found is as good as rounding allows *)
Lemma coord_meet (u S s pi di Xi xi wi dl : R) : 0 < u <= / 1024 -> 0 <= dl -> Xi = pi + S * di -> Rabs (s - S) <= u * Rabs S + dl -> Rabs (wi - s * di) <= u * Rabs (s * di) + dl -> Rabs (xi - (pi + wi)) <= u * Rabs (pi + wi) ->
  Rabs (xi - Xi) <= u * Rabs Xi + 3 * u * Rabs (Xi - pi) + 2 * dl * Rabs di + 2 * dl.
Proof.
  intros Hu Hd EX Hs Hw Hx. replace (Xi - pi) with (S * di) by lra. rewrite (Rabs_mult S di). set (A := Rabs S) in *. set (D := Rabs di) in *. assert (A0 : 0 <= A) by apply Rabs_pos. assert (D0 : 0 <= D) by apply Rabs_pos.
  assert (H1 : Rabs ((s - S) * di) <= (u * A + dl) * D) by (rewrite Rabs_mult; apply Rmult_le_compat_r; auto).
  assert (H2 : Rabs (s * di) <= A * D + (u * A + dl) * D). { replace (s * di) with (S * di + (s - S) * di) by ring. eapply Rle_trans; [apply Rabs_triang|]. rewrite Rabs_mult. fold A D. lra. }
  assert (AD : 0 <= A * D) by (apply Rmult_le_pos; auto). assert (dD : 0 <= dl * D) by (apply Rmult_le_pos; auto).
  assert (H3 : Rabs (wi - S * di) <= (2 + / 128) * (u * (A * D)) + (1 + / 512) * (dl * D) + dl).
  { replace (wi - S * di) with ((wi - s * di) + (s - S) * di) by ring. eapply Rle_trans; [apply Rabs_triang|]. assert (u * Rabs (s * di) <= u * (A * D + (u * A + dl) * D)) by (apply Rmult_le_compat_l; lra).
    assert (u * (u * (A * D)) <= / 1024 * (u * (A * D))) by (apply Rmult_le_compat_r; [apply Rmult_le_pos; lra|lra]). assert (u * (dl * D) <= / 1024 * (dl * D)) by (apply Rmult_le_compat_r; [auto|lra]). assert (0 <= u * (A * D)) by (apply Rmult_le_pos; lra). lra. }
  assert (H4 : Rabs (pi + wi) <= Rabs Xi + Rabs (wi - S * di)). { replace (pi + wi) with (Xi + (wi - S * di)) by (rewrite EX; ring). apply Rabs_triang. }
  replace (xi - Xi) with ((xi - (pi + wi)) + (wi - S * di)) by (rewrite EX; ring). eapply Rle_trans; [apply Rabs_triang|]. set (W := Rabs (wi - S * di)) in *. assert (u * Rabs (pi + wi) <= u * (Rabs Xi + W)) by (apply Rmult_le_compat_l; lra).
  assert (W0 : 0 <= W) by apply Rabs_pos. assert (u * W <= / 1024 * W) by (apply Rmult_le_compat_r; lra). assert (0 <= u * (A * D)) by (apply Rmult_le_pos; lra). lra.
Qed.
Theorem C86_plane_intersect_line : forall e M (q n p d : list flt) (pl : plane FNum) (l : line FNum), (-200 <= e <= 200)%Z -> (Z.of_nat (length q) * (2 * (M * M)) < 2 ^ 53)%Z -> plane_new q n = Ok pl -> line_new p d = Ok l -> length p = length q ->
  Forall (on_grid e M) q -> Forall (on_grid e M) n -> Forall (on_grid e M) p -> Forall (on_grid e M) d ->
  (dot (map FR n) (map FR d) = 0 -> plane_intersect_line tol_default pl l = Raise (ValueError "The line and plane must not be parallel.")) /\
  (dot (map FR n) (map FR d) <> 0 -> exists x, plane_intersect_line tol_default pl l = Ok x /\ length x = length p /\ Forall finite x /\
    forall X, on_line (map FR p) (map FR d) X -> on_plane (map FR q) (map FR n) X ->
      forall i, Rabs (nth i (map FR x) 0 - nth i X 0) <= bpow radix2 (-53) * Rabs (nth i X 0) + 3 * bpow radix2 (-53) * Rabs (nth i X 0 - nth i (map FR p) 0) + bpow radix2 (-800)).
Proof.
  intros e M q n p d pl l He B Hpl Hl Lpq Hq Hn Hp Hd. unfold plane_new in Hpl. destruct (check_point_vector q n) as [[q' n']| |] eqn:Ec; try discriminate Hpl. cbn [bind] in Hpl. injection Hpl as <-. apply check_F in Ec as (-> & -> & Nq & Fq & Fn & Ln & _).
  unfold line_new in Hl. destruct (check_point_vector p d) as [[p' d']| |] eqn:Ec; try discriminate Hl. cbn [bind] in Hl. injection Hl as <-. apply check_F in Ec as (-> & -> & Np & Fp & Fd & Ld & _).
  assert (P : (0 <= M)%Z) by (destruct Hq as [|y q Hy _]; [contradiction|eapply grid_pos; eauto]). assert (Q0 : (0 <= M * M)%Z) by nia. assert (Q1 : (1 <= Z.of_nat (length q))%Z) by (destruct q; [contradiction|cbn [length]; lia]).
  assert (Lnq : @length flt n = @length flt q) by (symmetry; exact Ln). assert (Lnd : @length flt n = @length flt d) by (rewrite Lnq, <- Lpq; exact Ld). assert (Gee : grid_ok (e + e)) by (unfold grid_ok; lia). assert (Ge : grid_ok e) by (unfold grid_ok; lia).
  destruct (C86_is_perpendicular e e M M n d Gee Lnd Hn Hd P P ltac:(rewrite Lnq; lia)) as (b & Eb & Hb). unfold plane_intersect_line. cbn [pl_normal pl_point l_dir l_point]. rewrite Eb. cbn [bind]. split; intro H.
  { apply Hb in H. subst b. reflexivity. }
  destruct b; [exfalso; apply H; apply Hb; reflexivity|]. destruct (C86_from_points e M q p Ge ltac:(nia) Nq Lpq Hq Hp) as (o & Eo & Go & Lo & Mo). rewrite Eo. cbn [bind]. assert (Lo' : @length flt o = @length flt q) by exact Lo.
  destruct (grid_dots e e M (2 * M) Gee P ltac:(lia) n o ltac:(congruence) Hn Go ltac:(rewrite Lnq; lia)) as ((Fnu & a & Ba & Ea) & Enu). destruct (grid_dots e e M M Gee P P n d Lnd Hn Hd ltac:(rewrite Lnq; lia)) as ((Fde & k & Bk & Ek) & Ede).
  rewrite (np_dot_F n o) by congruence. cbn [bind]. rewrite (np_dot_F n d) by congruence. cbn [bind]. set (nu := dot_raw (N:=FNum) n o) in *. set (de := dot_raw (N:=FNum) n d) in *. change (ndiv (n:=FNum) (nopp nu) de) with (Ok (- nu / de)%float). cbn [bind].
  pose proof (bpow_gt_0 radix2 (e + e)) as Be. assert (Kz : (k <> 0)%Z). { intro Z. apply H. rewrite <- Ede, Ek, Z. ring. } assert (Dz : FR de <> 0) by (rewrite Ede; exact H).
  rewrite Lnq in Ba, Bk. assert (Ba' : (Z.abs a < 2 ^ 53)%Z) by lia. set (S := - FR nu / FR de). assert (ES : S = IZR (- a) / IZR k). { unfold S. rewrite Ea, Ek, opp_IZR. field. split; [apply (IZR_neq k 0); exact Kz|apply Rgt_not_eq; auto]. }
  assert (SB : Rabs S <= bpow radix2 53). { rewrite ES. unfold Rdiv. rewrite Rabs_mult, Rabs_inv, <- !abs_IZR. change (bpow radix2 53) with (IZR (2 ^ 53)). assert (K1 : 1 <= IZR (Z.abs k)) by (apply IZR_le; lia). rewrite <- (Rmult_1_r (IZR (2 ^ 53))). apply Rmult_le_compat; [apply IZR_le; lia|left; apply Rinv_0_lt_compat; lra|apply IZR_le; lia|]. rewrite <- Rinv_1. apply Rinv_le_contravar; lra. }
  destruct (fin_div (- nu)%float de (proj2 (opp_finite nu) Fnu) Dz) as (Fs & Es). { rewrite opp_F. fold S. eapply Rle_lt_trans; [apply (rnd_bpow_le _ 53); [lia|exact SB]|apply bpow_lt; lia]. } rewrite opp_F in Es. fold S in Es.
  set (s := (- nu / de)%float) in *. assert (sB : Rabs (FR s) <= bpow radix2 53) by (rewrite Es; apply rnd_bpow_le; [lia|exact SB]).
  assert (DB : forall y, on_grid e M y -> Rabs (FR y) <= bpow radix2 253). { intros y (_ & m & Bm & Em). rewrite Em, Rabs_mult, <- abs_IZR, (Rabs_pos_eq (bpow _ _)) by apply bpow_ge_0. change 253%Z with (53 + 200)%Z. rewrite bpow_plus. apply Rmult_le_compat; [apply IZR_le; lia|apply bpow_ge_0| |apply bpow_le; lia]. change (bpow radix2 53) with (IZR (2 ^ 53)). apply IZR_le. nia. }
  (* the scaled direction and the sum *)
  assert (Hw : Forall2 (fun w y => finite w /\ Rabs (FR w) <= bpow radix2 306 /\ FR w = rnd (FR s * FR y)) (map (fun y => s * y)%float d) d).
  { clear - Hd DB sB Fs. clearbody s. induction Hd as [|y d Hy Hd IH]; [constructor|]. cbn [map]. constructor; [|exact IH]. pose proof (DB y Hy) as Yb. pose proof (on_grid_finite _ _ _ Hy) as Fy. assert (Pb : Rabs (FR s * FR y) <= bpow radix2 306) by (rewrite Rabs_mult; change 306%Z with (53 + 253)%Z; rewrite bpow_plus; apply Rmult_le_compat; auto; apply Rabs_pos).
    pose proof (rnd_bpow_le _ 306 ltac:(lia) Pb) as Rb. destruct (fin_mul s y Fs Fy) as (Fm & Em); [eapply Rle_lt_trans; [exact Rb|apply bpow_lt; lia]|]. rewrite Em. auto. }
  set (w := map (fun y => s * y)%float d) in *. assert (Lpd : @length flt p = @length flt d) by exact Ld.
  assert (Fw : Forall finite w) by (clear - Hw; induction Hw as [|? ? ? ? (F & _) _ IH]; constructor; auto). assert (Lpw : @length flt p = @length flt w) by (rewrite Lpd; symmetry; exact (Forall2_len _ _ _ Hw)).
  assert (Hx : Forall finite (map2 (N:=FNum) PrimFloat.add p w) /\ length (map2 (N:=FNum) PrimFloat.add p w) = length p /\
    forall i, Rabs (nth i (map FR (map2 (N:=FNum) PrimFloat.add p w)) 0 - (nth i (map FR p) 0 + nth i (map FR w) 0)) <= uro * Rabs (nth i (map FR p) 0 + nth i (map FR w) 0) /\
      Rabs (nth i (map FR w) 0 - FR s * nth i (map FR d) 0) <= uro * Rabs (FR s * nth i (map FR d) 0) + eta).
  { clear - Hw Hp DB Lpd. clearbody w s. revert p Hp Lpd. induction Hw as [|y z w d (Fy & By & Ey) Hw IH]; intros [|c p] Hp L; try discriminate L.
    - split; [constructor|]. split; [reflexivity|]. intro i. cbn [map map2]. destruct i; cbn [nth]; rewrite Rmult_0_r, Rplus_0_r, Rminus_0_r, !Rabs_R0; pose proof eta_pos; lra.
    - pose proof (Forall_inv Hp) as Hc. destruct (IH p (Forall_inv_tail Hp) ltac:(injection L; auto)) as (I1 & I2 & I3). cbn [map2 map]. pose proof (DB c Hc) as Cb. pose proof (on_grid_finite _ _ _ Hc) as Fc.
      destruct (fin_add c y Fc Fy) as (Fz & Ez). { eapply Rle_lt_trans; [apply (rnd_bpow_le _ 307); [lia|]|apply bpow_lt; lia]. eapply Rle_trans; [apply Rabs_triang|]. change 307%Z with (1 + 306)%Z. rewrite bpow_plus. change (bpow radix2 1) with 2. assert (bpow radix2 253 <= bpow radix2 306) by (apply bpow_le; lia). lra. }
      split; [constructor; auto|]. split; [cbn [length]; f_equal; exact I2|]. intros [|i]; [|exact (I3 i)]. cbn [nth]. rewrite Ez, Ey. split; [rewrite <- Ey; apply rnd_plus|apply rnd_err]. }
  destruct Hx as (Fx & Lx & Hx). exists (map2 (N:=FNum) PrimFloat.add p w). split.
  { unfold vmuls. change (vscale (N:=FNum) s d) with w. rewrite (wrap1_F w Fw). cbn [bind]. unfold vadd. change (nadd (n:=FNum)) with PrimFloat.add. rewrite (bcast_F _ p w Lpw). cbn [bind]. apply wrap1_F. exact Fx. }
  split; [exact Lx|]. split; [exact Fx|]. intros X (t & EX) (LX & HX) i. destruct (Hx i) as (H1 & H2).
  assert (LdR : length (map FR d) = length (map FR p)) by (rewrite !map_length; symmetry; exact Lpd). assert (LpR : length (map FR p) = length (map FR q)) by (rewrite !map_length; exact Lpq). assert (LnR : length (map FR n) = length (map FR q)) by (rewrite !map_length; exact Lnq).
  assert (Et : t = S). { unfold S. rewrite Enu, Ede, Mo. rewrite EX in HX. assert (E0 : dot (sub (map FR p) (map FR q)) (map FR n) + t * dot (map FR d) (map FR n) = 0). { rewrite <- HX. rewrite !dot_sub_l, dot_add_l, dot_scale_l by lenr. ring. } rewrite (dot_comm (map FR n)), (dot_comm (map FR n) (map FR d)). rewrite dot_comm in H. apply Rmult_eq_reg_r with (dot (map FR d) (map FR n)); auto. unfold Rdiv. rewrite Rmult_assoc, Rinv_l by auto. lra. }
  assert (Xi : nth i X 0 = nth i (map FR p) 0 + S * nth i (map FR d) 0) by (rewrite EX, Et, Points.nth_add, Points.nth_scale by lenr; reflexivity).
  pose proof (rnd_err S) as Rs. rewrite <- Es in Rs. pose proof uro_small as (U & U'). pose proof uro_pos as U0. pose proof eta_pos as E0. eapply Rle_trans; [apply (coord_meet uro S (FR s) (nth i (map FR p) 0) (nth i (map FR d) 0) (nth i X 0) _ (nth i (map FR w) 0) eta); auto; lra|]. fold uro.
  assert (Di : Rabs (nth i (map FR d) 0) <= bpow radix2 253). { destruct (Nat.lt_ge_cases i (length (map FR d))) as [Li|Li]; [|rewrite nth_overflow by auto; rewrite Rabs_R0; apply bpow_ge_0]. rewrite (nth_indep _ 0 (FR 0%float)) by auto. rewrite map_nth. apply DB. rewrite map_length in Li. rewrite Forall_forall in Hd. apply Hd. apply nth_In. exact Li. }
  assert (T : 2 * eta * Rabs (nth i (map FR d) 0) + 2 * eta <= bpow radix2 (-800)). { assert (eta * Rabs (nth i (map FR d) 0) <= eta * bpow radix2 253) by (apply Rmult_le_compat_l; lra). unfold eta in *. rewrite <- bpow_plus in H0. change (-1075 + 253)%Z with (-822)%Z in H0. assert (bpow radix2 (-1075) <= bpow radix2 (-822)) by (apply bpow_le; lia). assert (bpow radix2 (-800) = bpow radix2 22 * bpow radix2 (-822)) by (rewrite <- bpow_plus; reflexivity). assert (4 <= bpow radix2 22) by (simpl; lra). pose proof (bpow_gt_0 radix2 (-822)). assert (4 * bpow radix2 (-822) <= bpow radix2 22 * bpow radix2 (-822)) by (apply Rmult_le_compat_r; lra). lra. }
  lra.
Qed.
Print Assumptions C86_plane_intersect_line.

(** ** Which side of a plane a point is on: always right for points off the plane, but not for points on it *)
Lemma grid_len e M (v : list flt) : (0 <= M)%Z -> Forall (on_grid e M) v -> len (map FR v) <= INR (length v) * (IZR M * bpow radix2 e).
Proof.
  intros P H. assert (P' : 0 <= IZR M) by (apply IZR_le; exact P). assert (F : Forall2 (fun a b => Rabs a <= 0 * Rabs b + IZR M * bpow radix2 e) (map FR v) (map FR v)).
  { induction H as [|x v (_ & m & Bm & Em) H IH]; [constructor|]. cbn [map]. constructor; auto. rewrite Em at 1. rewrite Rabs_mult, <- abs_IZR, (Rabs_pos_eq (bpow _ _)), Rmult_0_l, Rplus_0_l by apply bpow_ge_0. apply Rmult_le_compat_r; [apply bpow_ge_0|apply IZR_le; exact Bm]. }
  pose proof (len_affine 0 (IZR M * bpow radix2 e) _ _ ltac:(lra) ltac:(apply Rmult_le_pos; [auto|apply bpow_ge_0]) F) as L. rewrite map_length in L. lra.
Qed.
Lemma grid_half_moderate e M (v : list flt) : (e <= 400)%Z -> (M < 2 ^ 53)%Z -> Forall (on_grid e M) v -> Forall half_moderate v.
Proof.
  intros He HM. apply Forall_impl. intros x (F & m & Bm & Em). split; auto. rewrite Em, Rabs_mult, <- abs_IZR, (Rabs_pos_eq (bpow _ _)) by apply bpow_ge_0. apply Rle_trans with (bpow radix2 53 * bpow radix2 400); [|rewrite <- bpow_plus; apply bpow_le; lia].
  apply Rmult_le_compat; [apply IZR_le; lia|apply bpow_ge_0| |apply bpow_le; lia]. change (bpow radix2 53) with (IZR (2 ^ 53)). apply IZR_le. lia.
Qed.
Theorem C86_plane_side_point : forall e f M (p n q : list flt) (pl : plane FNum), (-200 <= e <= 200)%Z -> (-200 <= f <= 200)%Z -> (0 <= M <= 2 ^ 20)%Z -> (length p <= 3)%nat -> length q = length p -> plane_new p n = Ok pl ->
  Forall (on_grid e M) p -> Forall (on_grid e M) q -> Forall (on_grid f M) n ->
  exists s, plane_side_point pl q = Ok s /\ (dot (sub (map FR q) (map FR p)) (map FR n) > 0 -> s = 1%Z) /\ (dot (sub (map FR q) (map FR p)) (map FR n) < 0 -> s = (-1)%Z).
Proof.
  intros e f M p n q pl He Hf HM L3 Lq Hpl Hp Hq Hn. assert (Hpl' := Hpl). unfold plane_new in Hpl. destruct (check_point_vector p n) as [[p' n']| |] eqn:Ec; try discriminate Hpl. clear Hpl. apply check_F in Ec as (_ & _ & Np & Fp & Fn & Ln & NZ).
  assert (Lnp : @length flt n = @length flt p) by (symmetry; exact Ln). assert (n3 : (Z.of_nat (length p) <= 3)%Z) by lia. assert (MM : (M * M <= 2 ^ 40)%Z) by nia. assert (I3 : INR (length p) <= 3) by (replace 3 with (INR 3) by (simpl; lra); apply le_INR; exact L3). pose proof (pos_INR (length p)) as I0.
  destruct (C86_from_points e M p q ltac:(unfold grid_ok; lia) ltac:(lia) Np Lq Hp Hq) as (v & Ev & Gv & Lv & Mv). assert (Lv' : @length flt v = @length flt p) by exact Lv. assert (Gef : grid_ok (e + f)) by (unfold grid_ok; lia).
  destruct (grid_dots e f (2 * M) M Gef ltac:(lia) ltac:(lia) v n ltac:(congruence) Gv Hn ltac:(rewrite Lv'; nia)) as ((_ & m & _ & Em) & Ed). rewrite Ed, Mv in Em. clear Ed.
  destruct (grid_dots f f M M ltac:(unfold grid_ok; lia) ltac:(lia) ltac:(lia) n n eq_refl Hn Hn ltac:(rewrite Lnp; nia)) as ((FD & k & _ & Ek) & EK). rewrite EK in Ek.
  assert (KNZ : dot (map FR n) (map FR n) <> 0) by (intro Z; apply NZ; apply fzero_eqb; apply (eqb_F _ _ FD (proj2 zero_F)); rewrite (proj1 zero_F), EK; exact Z).
  pose proof (bpow_gt_0 radix2 e) as Be. pose proof (bpow_gt_0 radix2 f) as Bf. assert (LNf : bpow radix2 f <= len (map FR n)).
  { apply Rsqr_incr_0; [|lra|apply len_nonneg]. unfold Rsqr. rewrite len_sq, Ek, bpow_plus. pose proof (dot_self_nonneg (map FR n)) as D0. rewrite Ek, bpow_plus in D0. assert (k1 : (1 <= k)%Z). { destruct (Z_le_gt_dec 1 k) as [|K]; auto. exfalso. assert (IZR k <= 0) by (apply IZR_le; lia). destruct (Req_dec (IZR k) 0) as [Z|NZ']; [apply KNZ; rewrite Ek, Z; ring|]. assert (IZR k * (bpow radix2 f * bpow radix2 f) < 0) by (apply Rmult_neg_pos; [lra|apply Rmult_lt_0_compat; auto]) || (assert (0 < bpow radix2 f * bpow radix2 f) by (apply Rmult_lt_0_compat; auto); nra). lra. }
    assert (1 <= IZR k) by (apply IZR_le; exact k1). rewrite <- (Rmult_1_l (_ * _)) at 1. apply Rmult_le_compat_r; [apply Rmult_le_pos; lra|auto]. }
  assert (L400 : bpow radix2 (-400) <= len (map FR n)) by (eapply Rle_trans; [|exact LNf]; apply bpow_le; lia).
  destruct (C84_plane_distance p n q pl Hpl' Lq ltac:(unfold max_dim; lia) (grid_half_moderate e M p ltac:(lia) ltac:(lia) Hp) (grid_half_moderate e M q ltac:(lia) ltac:(lia) Hq) (half_moderate_m _ (grid_half_moderate f M n ltac:(lia) ltac:(lia) Hn)) L400) as (_ & (s & Es & S1 & S2)). cbv zeta in S1, S2.
  exists s. split; [exact Es|]. set (K := len (map FR n)) in *. assert (Kp : 0 < K) by lra. set (T := dot (sub (map FR q) (map FR p)) (map FR n)) in *.
  assert (KB : K <= 3145728 * bpow radix2 f). { pose proof (grid_len f M n ltac:(lia) Hn) as L. rewrite Lnp in L. fold K in L. assert (IZR M <= 1048576) by (replace 1048576 with (IZR (2 ^ 20)) by (simpl; lra); apply IZR_le; lia). assert (0 <= IZR M) by (apply IZR_le; lia). assert (INR (length p) * (IZR M * bpow radix2 f) <= 3 * (1048576 * bpow radix2 f)); [|lra]. apply Rmult_le_compat; auto; [apply Rmult_le_pos; lra|apply Rmult_le_compat_r; lra]. }
  assert (DB : dist (map FR p) (map FR q) <= 6291456 * bpow radix2 e). { rewrite dist_sym. change (dist (map FR q) (map FR p)) with (len (sub (map FR q) (map FR p))). rewrite <- Mv. pose proof (grid_len e (2 * M) v ltac:(lia) Gv) as L. rewrite Lv' in L. assert (IZR (2 * M) <= 2097152) by (replace 2097152 with (IZR (2 * 2 ^ 20)) by (simpl; lra); apply IZR_le; lia). assert (0 <= IZR (2 * M)) by (apply IZR_le; lia). assert (INR (length p) * (IZR (2 * M) * bpow radix2 e) <= 3 * (2097152 * bpow radix2 e)); [|lra]. apply Rmult_le_compat; auto; [apply Rmult_le_pos; lra|apply Rmult_le_compat_r; lra]. }
  assert (EB : (2 * INR (length p) + 12) * bpow radix2 (-53) * dist (map FR p) (map FR q) + bpow radix2 (-550) <= / 33554432 * bpow radix2 e).
  { assert (bpow radix2 (-550) <= bpow radix2 (-100) * bpow radix2 e) by (rewrite <- bpow_plus; apply bpow_le; lia). assert (bpow radix2 (-100) <= / 1152921504606846976) by (replace (/ 1152921504606846976) with (bpow radix2 (-60)) by (simpl; lra); apply bpow_le; lia). assert (bpow radix2 (-100) * bpow radix2 e <= / 1152921504606846976 * bpow radix2 e) by (apply Rmult_le_compat_r; lra).
    replace (bpow radix2 (-53)) with (/ 9007199254740992) by (simpl; lra). assert ((2 * INR (length p) + 12) * / 9007199254740992 * dist (map FR p) (map FR q) <= 18 * / 9007199254740992 * (6291456 * bpow radix2 e)) by (apply Rmult_le_compat; [lra|apply len_nonneg|lra|exact DB]). lra. }
  assert (Big : forall t, (1 <= t)%Z -> / 33554432 * bpow radix2 e < IZR t * bpow radix2 (e + f) / K).
  { intros t Ht. assert (1 <= IZR t) by (apply IZR_le; exact Ht). apply Rmult_lt_reg_r with K; auto. unfold Rdiv. rewrite (Rmult_assoc (IZR t * _)), Rinv_l, Rmult_1_r by lra. rewrite bpow_plus. assert (/ 33554432 * bpow radix2 e * K <= / 33554432 * bpow radix2 e * (3145728 * bpow radix2 f)) by (apply Rmult_le_compat_l; lra). assert (BB : 0 < bpow radix2 e * bpow radix2 f) by (apply Rmult_lt_0_compat; auto). assert (1 * (bpow radix2 e * bpow radix2 f) <= IZR t * (bpow radix2 e * bpow radix2 f)) by (apply Rmult_le_compat_r; lra). lra. }
  pose proof (bpow_gt_0 radix2 (e + f)) as Bef. split; intro HT.
  - apply S1. assert (m1 : (1 <= m)%Z) by (destruct (Z_le_gt_dec 1 m); auto; exfalso; assert (IZR m <= 0) by (apply IZR_le; lia); assert (IZR m * bpow radix2 (e + f) <= 0 * bpow radix2 (e + f)) by (apply Rmult_le_compat_r; lra); lra).
    pose proof (Big m m1) as H. rewrite <- Em in H. lra.
  - apply S2. assert (m1 : (1 <= - m)%Z) by (destruct (Z_le_gt_dec 1 (- m)); auto; exfalso; assert (0 <= IZR m) by (apply IZR_le; lia); assert (0 * bpow radix2 (e + f) <= IZR m * bpow radix2 (e + f)) by (apply Rmult_le_compat_r; lra); lra).
    pose proof (Big (- m)%Z m1) as H. rewrite opp_IZR in H. replace (- IZR m * bpow radix2 (e + f)) with (- T) in H by (rewrite Em; ring). unfold Rdiv in *. rewrite Ropp_mult_distr_l_reverse in H. lra.
Qed.
Print Assumptions C86_plane_side_point.
Lemma grid_lit (x : flt) f m : Prim2SF x = f -> is_finite_SF f = true -> SF2R radix2 f = IZR m -> on_grid 0 (Z.abs m) x.
Proof. intros E F V. split; [unfold finite; rewrite <- is_finite_SF_B2SF, B2SF_Prim2B, E; auto|]. exists m. split; [lia|]. rewrite (FR_val x f E), V. simpl. ring. Qed.
Ltac lit m := refine (on_grid_le 0 (Z.abs m) _ _ _ _); [simpl; lia|]; eapply (grid_lit _ _ m); [vm_compute; reflexivity|reflexivity|simpl; unfold F2R; simpl; lra].

(** The point (0, -4, 3) lies on the plane 3 y + 4 z = 0, but side_point says it is on the normal's side and contains_point, with the default tolerance, that it is not on the plane. *)
Theorem C86_plane_side_point_on_plane_refuted : exists (p n q : list flt) (pl : plane FNum), plane_new p n = Ok pl /\ Forall (on_grid 0 4) p /\ Forall (on_grid 0 4) n /\ Forall (on_grid 0 4) q /\
  dot (sub (map FR q) (map FR p)) (map FR n) = 0 /\ plane_side_point pl q = Ok 1%Z /\ plane_contains_point tol_default pl q = Ok false.
Proof.
  exists [0; 0; 0]%float, [0; 3; 4]%float, [0; -4; 3]%float. eexists. split; [reflexivity|].
  split; [constructor; [lit 0%Z|constructor; [lit 0%Z|constructor; [lit 0%Z|constructor]]]|]. split; [constructor; [lit 0%Z|constructor; [lit 3%Z|constructor; [lit 4%Z|constructor]]]|]. split; [constructor; [lit 0%Z|constructor; [lit (-4)%Z|constructor; [lit 3%Z|constructor]]]|].
  split; [cbn [map sub dot]; repeat (erewrite FR_val by (vm_compute; reflexivity)); simpl; unfold F2R; simpl; lra|]. split; reflexivity.
Qed.
Print Assumptions C86_plane_side_point_on_plane_refuted.
Example C86_nonvacuous : grid_ok (-2) /\ grid_ok (-2 + -2) /\ grid_ok (-2 + -2 + (-2 + -2)) /\ (192 * (1000 * 1000 * 1000 * 1000) < 2 ^ 53)%Z /\
  Forall (on_grid (-2) 1000) [0.25; -7; 249.75]%float /\ Forall (on_grid 0 4) [0; 3; 4]%float /\ ~ Forall (on_grid 0 4) [0.5]%float.
Proof.
  split; [unfold grid_ok; lia|]. split; [unfold grid_ok; lia|]. split; [unfold grid_ok; lia|]. split; [vm_compute; reflexivity|].
  assert (G : forall (x : flt) f m, Prim2SF x = f -> is_finite_SF f = true -> SF2R radix2 f = IZR m * / 4 -> (Z.abs m <= 1000)%Z -> on_grid (-2) 1000 x).
  { intros x f m E F V B. split; [unfold finite; rewrite <- is_finite_SF_B2SF, B2SF_Prim2B, E; auto|]. exists m. split; auto. rewrite (FR_val x f E), V. reflexivity. }
  split; [constructor; [eapply (G _ _ 1%Z)|constructor; [eapply (G _ _ (-28)%Z)|constructor; [eapply (G _ _ 999%Z)|constructor]]]; (lia || (vm_compute; reflexivity) || (simpl; unfold F2R; simpl; lra))|].
  split; [constructor; [lit 0%Z|constructor; [lit 3%Z|constructor; [lit 4%Z|constructor]]]|]. intro H. destruct (Forall_inv H) as (_ & m & _ & E). erewrite FR_val in E by (vm_compute; reflexivity). simpl in E. unfold F2R in E. simpl in E.
  assert (E2 : IZR (2 * m) = IZR 1) by (rewrite mult_IZR; lra). apply eq_IZR in E2. lia.
Qed.
