(** * Property C88: triangles with whole-number or fixed-point vertices in double precision *)
From Coq Require Import String Reals List ZArith Floats Lra Lia Psatz Bool Permutation.
From Flocq Require Import Core BinarySingleNaN.
From Flocq Require Import IEEE754.PrimFloat.
From Verif.Model Require Import Outcome Num Instances Numpy BaseArray Vector Points Functions Line Plane Sphere Triangle.
From Verif.Spec Require Import Geometry Tolerance Floats Measure Summation Grid.
From Verif.Proof Require Import VecAlg Bridge Vectors Floats FloatErr.
From Verif.Prop Require Import Floats Accuracy AnyOrder Decisions Projections FloatShapes Grid GridCircles.
From Verif.Proof Require Triangles.
Import ListNotations.
Local Open Scope R_scope.

(** ** math.isclose with the default tolerances, away from its threshold *)
Definition normal_size (x : flt) : Prop := finite x /\ bpow radix2 (-800) <= FR x <= bpow radix2 800.
Lemma rel_tight : 0.9999 * / 1000000000 <= rel_default <= 1.0001 * / 1000000000.
Proof. unfold rel_default. lra. Qed.
Lemma rel_mul x : normal_size x -> finite (relF * x)%float /\ 0.9998 * / 1000000000 * FR x <= FR (relF * x)%float <= 1.0002 * / 1000000000 * FR x.
Proof.
  intros (Fx & L & U). destruct relF_val as (Fr & Er). pose proof rel_tight as RT. pose proof uro_tiny as Hu. pose proof (bpow_gt_0 radix2 (-800)) as P. assert (X : 0 < FR x) by lra. assert (Y : 0 < rel_default * FR x) by (apply Rmult_lt_0_compat; lra).
  assert (Y1 : rel_default * FR x <= 1.0001 * / 1000000000 * FR x) by (apply Rmult_le_compat_r; lra). assert (Y2 : 0.9999 * / 1000000000 * FR x <= rel_default * FR x) by (apply Rmult_le_compat_r; lra).
  destruct (fin_mul relF x Fr Fx) as (F & E). { rewrite Er. eapply Rle_lt_trans; [apply (rnd_bpow_le _ 800); [lia|]|apply bpow_lt; lia]. rewrite Rabs_pos_eq; lra. } split; auto. rewrite E, Er.
  assert (Q : Rabs (rnd (rel_default * FR x) - rel_default * FR x) <= uro * Rabs (rel_default * FR x)). { apply rnd_rel. rewrite Rabs_pos_eq by lra. apply Rle_trans with (bpow radix2 (-30) * bpow radix2 (-800)); [rewrite <- bpow_plus; apply bpow_le; lia|]. pose proof rel_default_small. apply Rmult_le_compat; try apply bpow_ge_0; lra. }
  rewrite (Rabs_pos_eq (rel_default * FR x)) in Q by lra. apply Rabs_le_inv in Q. assert (uro * (rel_default * FR x) <= / 1000000 * (rel_default * FR x)) by (apply Rmult_le_compat_r; lra). lra.
Qed.
Lemma isclose_sep (x y : flt) : normal_size x -> normal_size y -> exists r, isclose (N:=FNum) tol_default x y = Ok r /\
  (Rabs (FR x - FR y) <= / 2 * / 1000000000 * Rmax (FR x) (FR y) -> r = true) /\ (1.5 * / 1000000000 * Rmax (FR x) (FR y) <= Rabs (FR x - FR y) -> r = false).
Proof.
  intros Nx Ny. destruct (rel_mul x Nx) as (Fx' & Bx). destruct (rel_mul y Ny) as (Fy' & By). destruct Nx as (Fx & Lx & Ux). destruct Ny as (Fy & Ly & Uy). pose proof (bpow_gt_0 radix2 (-800)) as P. pose proof uro_tiny as Hu. pose proof (bpow_gt_0 radix2 800) as P8.
  destruct (fin_sub y x Fy Fx) as (Fd & Ed). { eapply Rle_lt_trans; [apply (rnd_bpow_le _ 800); [lia|]|apply bpow_lt; lia]. apply Rabs_le. lra. }
  pose proof (rnd_minus y x) as Bd. rewrite <- Ed in Bd. rewrite isclose_default_F by auto. eexists. split; [reflexivity|]. rewrite (Rabs_minus_sym (FR x)). set (t := Rabs (FR y - FR x)) in *.
  assert (t0 : 0 <= t) by apply Rabs_pos. assert (ut : 0 <= uro * t <= / 1000000 * t) by (split; [apply Rmult_le_pos; lra|apply Rmult_le_compat_r; lra]).
  assert (B1 : Rabs (FR (y - x)%float) <= t + uro * t). { replace (FR (y - x)%float) with ((FR y - FR x) + (FR (y - x)%float - (FR y - FR x))) by ring. eapply Rle_trans; [apply Rabs_triang|]. fold t. lra. }
  assert (B2 : t - uro * t <= Rabs (FR (y - x)%float)). { pose proof (Rabs_triang_inv (FR y - FR x) ((FR y - FR x) - FR (y - x)%float)) as Q. replace ((FR y - FR x) - ((FR y - FR x) - FR (y - x)%float)) with (FR (y - x)%float) in Q by ring. rewrite (Rabs_minus_sym (FR y - FR x) (FR (y - x)%float)) in Q. fold t in Q. lra. }
  split; intro H.
  - apply orb_true_iff. right. apply orb_true_iff. left. apply orb_true_iff. unfold Rmax in H. destruct (Rle_dec (FR x) (FR y)); [left|right]; apply leb_abs; auto; rewrite (Rabs_pos_eq (FR (relF * _)%float)); lra.
  - assert (M1 : FR x <= Rmax (FR x) (FR y)) by apply Rmax_l. assert (M2 : FR y <= Rmax (FR x) (FR y)) by apply Rmax_r. set (m := Rmax (FR x) (FR y)) in *. apply orb_false_iff. split; [|apply orb_false_iff; split; [apply orb_false_iff; split|]].
    + apply (not_iff _ _ (eqb_F _ _ Fx Fy)). intro E. unfold t in *. rewrite E, Rminus_eq_0, Rabs_R0 in H. lra.
    + apply (not_iff _ _ (leb_abs _ _ Fd Fy')). rewrite (Rabs_pos_eq (FR (relF * _)%float)) by lra. lra.
    + apply (not_iff _ _ (leb_abs _ _ Fd Fx')). rewrite (Rabs_pos_eq (FR (relF * _)%float)) by lra. lra.
    + apply (not_iff _ _ (leb_abs0 _ Fd)). lra.
Qed.

(** ** Rounded square roots of whole numbers *)
Definition side (e : Z) (K : Z) (l : flt) : Prop := finite l /\ (1 <= K <= 2 ^ 28)%Z /\ FR l = rnd (R_sqrt.sqrt (IZR K) * bpow radix2 e).
Lemma root_size K : (1 <= K <= 2 ^ 28)%Z -> 1 <= R_sqrt.sqrt (IZR K) <= 16384 /\ R_sqrt.sqrt (IZR K) * R_sqrt.sqrt (IZR K) = IZR K.
Proof.
  intros (L & U). apply IZR_le in L, U. split; [|apply sqrt_sqrt; lra]. split; [rewrite <- sqrt_1 at 1; apply sqrt_le_1_alt; exact L|]. rewrite <- (sqrt_square 16384) by lra. apply sqrt_le_1_alt. eapply Rle_trans; [exact U|]. change (2 ^ 28)%Z with 268435456%Z. lra.
Qed.
Lemma side_err e K l : (-200 <= e <= 200)%Z -> side e K l -> let x := R_sqrt.sqrt (IZR K) * bpow radix2 e in Rabs (FR l - x) <= uro * x /\ 0 < x.
Proof.
  intros He (F & HK & E) x. destruct (root_size K HK) as (S1 & _). pose proof (bpow_gt_0 radix2 e) as Be. assert (x0 : bpow radix2 e <= x). { unfold x. rewrite <- (Rmult_1_l (bpow radix2 e)) at 1. apply Rmult_le_compat_r; lra. } split; [|lra].
  rewrite E. fold x. rewrite <- (Rabs_pos_eq x) at 3 by lra. apply rnd_rel. rewrite Rabs_pos_eq by lra. eapply Rle_trans; [|exact x0]. apply bpow_le. lia.
Qed.
Lemma root_gap K K' : (1 <= K <= 2 ^ 28)%Z -> (1 <= K' <= 2 ^ 28)%Z -> (K < K')%Z -> 1.86 * / 1000000000 * R_sqrt.sqrt (IZR K') <= R_sqrt.sqrt (IZR K') - R_sqrt.sqrt (IZR K).
Proof.
  intros H H' L. destruct (root_size K H) as ((a1 & a2) & a3). destruct (root_size K' H') as ((b1 & b2) & b3). set (x := R_sqrt.sqrt (IZR K)) in *. set (y := R_sqrt.sqrt (IZR K')) in *.
  assert (G : 1 <= y * y - x * x). { rewrite a3, b3, <- minus_IZR. apply IZR_le. lia. } assert (y2 : y * y <= 268435456). { rewrite b3. apply IZR_le. lia. }
  assert (xy : x <= y) by (apply Rsqr_incr_0_var; unfold Rsqr; lra).
  assert (2 * y * (y - x) >= 1). { assert ((y + x) * (y - x) <= 2 * y * (y - x)) by (apply Rmult_le_compat_r; lra). lra. }
  apply Rmult_le_reg_l with (2 * y); [lra|]. apply Rle_trans with 1; [|lra]. replace (2 * y * (1.86 * / 1000000000 * y)) with (2 * (1.86 * / 1000000000) * (y * y)) by ring. lra.
Qed.
Lemma side_normal e K l : (-200 <= e <= 200)%Z -> side e K l -> normal_size l.
Proof.
  intros He Hs. destruct (side_err e K l He Hs) as (E & x0). destruct Hs as (F & HK & _). destruct (root_size K HK) as (S1 & _). pose proof (bpow_gt_0 radix2 e) as Be. set (x := R_sqrt.sqrt (IZR K) * bpow radix2 e) in *. pose proof uro_tiny as U.
  assert (ux : uro * x <= / 1000000 * x) by (apply Rmult_le_compat_r; lra). apply Rabs_le_inv in E. assert (x1 : bpow radix2 e <= x). { unfold x. rewrite <- (Rmult_1_l (bpow radix2 e)) at 1. apply Rmult_le_compat_r; lra. } assert (x2 : x <= 16384 * bpow radix2 e) by (apply Rmult_le_compat_r; lra).
  split; auto. split.
  - apply Rle_trans with (bpow radix2 e / 2); [|lra]. replace (bpow radix2 e / 2) with (bpow radix2 (e + -1)) by (rewrite bpow_plus; reflexivity). apply bpow_le. lia.
  - apply Rle_trans with (32768 * bpow radix2 e); [lra|]. change 32768 with (bpow radix2 15). rewrite <- bpow_plus. apply bpow_le. lia.
Qed.
Lemma side_lt e K K' l l' : (-200 <= e <= 200)%Z -> side e K l -> side e K' l' -> (K < K')%Z -> FR l < FR l' /\ 1.5 * / 1000000000 * FR l' <= FR l' - FR l.
Proof.
  intros He Hs Hs' L. destruct (side_err e K l He Hs) as (E & x0). destruct (side_err e K' l' He Hs') as (E' & x0'). destruct Hs as (_ & HK & _). destruct Hs' as (_ & HK' & _). pose proof (root_gap K K' HK HK' L) as G. pose proof (bpow_gt_0 radix2 e) as Be. pose proof uro_tiny as U0.
  set (x := R_sqrt.sqrt (IZR K) * bpow radix2 e) in *. set (y := R_sqrt.sqrt (IZR K') * bpow radix2 e) in *. assert (G' : 1.86 * / 1000000000 * y <= y - x). { unfold x, y. replace (R_sqrt.sqrt (IZR K') * bpow radix2 e - R_sqrt.sqrt (IZR K) * bpow radix2 e) with ((R_sqrt.sqrt (IZR K') - R_sqrt.sqrt (IZR K)) * bpow radix2 e) by ring. rewrite <- Rmult_assoc. apply Rmult_le_compat_r; lra. }
  assert (u40 : uro <= / 1000000000000) by (unfold uro; simpl; lra). assert (ux : uro * x <= / 1000000000000 * x) by (apply Rmult_le_compat_r; lra). assert (uy : uro * y <= / 1000000000000 * y) by (apply Rmult_le_compat_r; lra). apply Rabs_le_inv in E, E'. lra.
Qed.
Lemma side_isclose e K K' l l' : (-200 <= e <= 200)%Z -> side e K l -> side e K' l' -> isclose (N:=FNum) tol_default l l' = Ok (K =? K')%Z.
Proof.
  intros He Hs Hs'. pose proof (side_normal e K l He Hs) as Nl. pose proof (side_normal e K' l' He Hs') as Nl'. destruct (isclose_sep l l' Nl Nl') as (r & -> & R1 & R2). f_equal. pose proof (bpow_gt_0 radix2 (-800)) as P. destruct Nl as (_ & Nl). destruct Nl' as (_ & Nl').
  destruct (Z.eqb_spec K K') as [->|N].
  - apply R1. assert (FR l = FR l') by (rewrite (proj2 (proj2 Hs)), (proj2 (proj2 Hs')); reflexivity). rewrite H, Rminus_eq_0, Rabs_R0. assert (FR l' <= Rmax (FR l') (FR l')) by apply Rmax_l. lra.
  - apply R2. assert (C : (K < K' \/ K' < K)%Z) by lia. destruct C as [C|C].
    + destruct (side_lt e K K' l l' He Hs Hs' C) as (L1 & L2). rewrite Rmax_right by lra. rewrite Rabs_left by lra. lra.
    + destruct (side_lt e K' K l' l He Hs' Hs C) as (L1 & L2). rewrite Rmax_left by lra. rewrite Rabs_pos_eq by lra. lra.
Qed.
(** The squares. *)
Lemma side_sq e K l : (-200 <= e <= 200)%Z -> side e K l -> finite (l * l)%float /\ Rabs (FR (l * l)%float - IZR K * bpow radix2 (e + e)) <= 4 * uro * (IZR K * bpow radix2 (e + e)).
Proof.
  intros He Hs. destruct (side_err e K l He Hs) as (E & x0). destruct (side_normal e K l He Hs) as (F & Nl). destruct Hs as (_ & HK & _). destruct (root_size K HK) as (S1 & S2). pose proof (bpow_gt_0 radix2 e) as Be. pose proof uro_tiny as U.
  set (x := R_sqrt.sqrt (IZR K) * bpow radix2 e) in *. assert (X2 : x * x = IZR K * bpow radix2 (e + e)) by (rewrite bpow_plus, <- S2; unfold x; ring). rewrite <- X2. assert (x2 : 0 < x * x) by (apply Rmult_lt_0_compat; auto).
  assert (x1 : bpow radix2 e <= x). { unfold x. rewrite <- (Rmult_1_l (bpow radix2 e)) at 1. apply Rmult_le_compat_r; lra. } assert (xu : x <= 16384 * bpow radix2 e) by (apply Rmult_le_compat_r; lra).
  assert (ux : 0 <= uro * x <= / 1000000 * x) by (split; [apply Rmult_le_pos; lra|apply Rmult_le_compat_r; lra]). set (y := FR l) in *. apply Rabs_le_inv in E.
  assert (ux2 : 0 <= uro * (x * x) <= / 1000000 * (x * x)) by (split; [apply Rmult_le_pos; lra|apply Rmult_le_compat_r; lra]).
  assert (y2 : Rabs (y * y - x * x) <= 2.1 * (uro * (x * x))). { replace (y * y - x * x) with ((y - x) * (y + x)) by ring. rewrite Rabs_mult. replace (2.1 * (uro * (x * x))) with (uro * x * (2.1 * x)) by ring. apply Rmult_le_compat; try apply Rabs_pos. apply Rabs_le; lra. rewrite Rabs_pos_eq by lra. lra. }
  apply Rabs_le_inv in y2. assert (yu : y <= bpow radix2 220). { apply Rle_trans with (32768 * bpow radix2 e); [lra|]. change 32768 with (bpow radix2 15). rewrite <- bpow_plus. apply bpow_le. lia. }
  destruct (within_mul 220 220 l l ltac:(lia)) as (W & Em); [split; auto; rewrite Rabs_pos_eq; fold y; lra|split; auto; rewrite Rabs_pos_eq; fold y; lra|]. split; [apply W|]. rewrite Em. fold y.
  assert (Q : Rabs (rnd (y * y) - y * y) <= uro * (y * y)). { rewrite <- (Rabs_pos_eq (y * y)) at 3 by lra. apply rnd_rel. rewrite Rabs_pos_eq by lra. apply Rle_trans with (x * x / 2); [|lra]. apply Rle_trans with (bpow radix2 (e + e) / 2); [|assert (bpow radix2 (e + e) <= x * x) by (rewrite bpow_plus; apply Rmult_le_compat; lra); lra]. replace (bpow radix2 (e + e) / 2) with (bpow radix2 (e + e + -1)) by (rewrite (bpow_plus radix2 (e + e)); reflexivity). apply bpow_le. lia. }
  assert (uro * (y * y) <= 1.1 * (uro * (x * x))). { replace (1.1 * (uro * (x * x))) with (uro * (1.1 * (x * x))) by ring. apply Rmult_le_compat_l; lra. }
  replace (rnd (y * y) - x * x) with ((rnd (y * y) - y * y) + (y * y - x * x)) by ring. eapply Rle_trans; [apply Rabs_triang|]. assert (Rabs (y * y - x * x) <= 2.1 * (uro * (x * x))) by (apply Rabs_le; lra). lra.
Qed.
Lemma right_F e K1 K2 K3 l1 l2 l3 : (-200 <= e <= 200)%Z -> side e K1 l1 -> side e K2 l2 -> side e K3 l3 -> isclose (N:=FNum) tol_default (l1 * l1 + l2 * l2)%float (l3 * l3)%float = Ok (K1 + K2 =? K3)%Z.
Proof.
  intros He H1 H2 H3. destruct (side_sq e K1 l1 He H1) as (F1 & E1). destruct (side_sq e K2 l2 He H2) as (F2 & E2). destruct (side_sq e K3 l3 He H3) as (F3 & E3).
  destruct H1 as (_ & B1 & _). destruct H2 as (_ & B2 & _). destruct H3 as (_ & B3 & _). set (b := bpow radix2 (e + e)) in *. assert (Be : 0 < b) by apply bpow_gt_0. pose proof uro_tiny as U.
  assert (u40 : uro <= / 1000000000000) by (unfold uro; simpl; lra).
  assert (Sz : forall K, (1 <= K <= 2 ^ 28)%Z -> b <= IZR K * b <= 268435456 * b). { intros K (L & V). apply IZR_le in L, V. split; [rewrite <- (Rmult_1_l b) at 1|]; apply Rmult_le_compat_r; lra. }
  pose proof (Sz _ B1) as Z1. pose proof (Sz _ B2) as Z2. pose proof (Sz _ B3) as Z3. set (q1 := IZR K1 * b) in *. set (q2 := IZR K2 * b) in *. set (q3 := IZR K3 * b) in *.
  assert (Ue : forall q, 0 <= q -> 4 * uro * q <= 4 * / 1000000000000 * q) by (intros q Hq; apply Rmult_le_compat_r; lra). apply Rabs_le_inv in E1, E2, E3. pose proof (Ue q1 ltac:(lra)). pose proof (Ue q2 ltac:(lra)). pose proof (Ue q3 ltac:(lra)).
  assert (b1 : bpow radix2 (-400) <= b) by (apply bpow_le; lia). assert (b2 : b <= bpow radix2 400) by (apply bpow_le; lia).
  assert (lo : bpow radix2 (-800) <= b / 2). { apply Rle_trans with (bpow radix2 (-400 + -1)); [apply bpow_le; lia|]. rewrite bpow_plus. change (bpow radix2 (-1)) with (/ 2). lra. }
  assert (hi : 1073741824 * b <= bpow radix2 500). { change 1073741824 with (bpow radix2 30). apply Rle_trans with (bpow radix2 30 * bpow radix2 400); [apply Rmult_le_compat_l; [apply bpow_ge_0|exact b2]|]. rewrite <- bpow_plus. apply bpow_le. lia. }
  destruct (within_add 500 (l1 * l1)%float (l2 * l2)%float ltac:(lia)) as (Ws & Es); [split; auto; rewrite Rabs_pos_eq; lra|split; auto; rewrite Rabs_pos_eq; lra|].
  pose proof (rnd_plus (l1 * l1)%float (l2 * l2)%float) as Q. rewrite <- Es in Q. rewrite (Rabs_pos_eq (FR (l1 * l1)%float + FR (l2 * l2)%float)) in Q by lra. set (s := (l1 * l1 + l2 * l2)%float) in *.
  assert (uro * (FR (l1 * l1)%float + FR (l2 * l2)%float) <= / 1000000000000 * (FR (l1 * l1)%float + FR (l2 * l2)%float)) by (apply Rmult_le_compat_r; lra). apply Rabs_le_inv in Q.
  assert (e8 : bpow radix2 500 <= bpow radix2 800) by (apply bpow_le; lia).
  destruct (isclose_sep s (l3 * l3)%float) as (r & -> & R1 & R2). { split; [apply Ws|]. lra. } { split; auto. lra. } f_equal.
  assert (M1 : FR s <= Rmax (FR s) (FR (l3 * l3)%float)) by apply Rmax_l. assert (M3 : Rmax (FR s) (FR (l3 * l3)%float) <= 1.001 * (q1 + q2) \/ Rmax (FR s) (FR (l3 * l3)%float) <= 1.001 * q3) by (unfold Rmax; destruct (Rle_dec _ _); [right|left]; lra). set (m := Rmax (FR s) (FR (l3 * l3)%float)) in *.
  destruct (Z.eqb_spec (K1 + K2) K3) as [E|N].
  - apply R1. assert (q3 = q1 + q2) by (unfold q1, q2, q3; rewrite <- E, plus_IZR; ring). apply Rabs_le. lra.
  - apply R2. assert (C : (K1 + K2 + 1 <= K3 \/ K3 + 1 <= K1 + K2)%Z) by lia. assert (G : b <= q3 - (q1 + q2) \/ b <= q1 + q2 - q3). { destruct C as [C|C]; apply IZR_le in C; rewrite !plus_IZR in C; [left|right]; unfold q1, q2, q3; apply (Rmult_le_compat_r b) in C; lra. }
    destruct G as [G|G]; [rewrite Rabs_left by lra|rewrite Rabs_pos_eq by lra]; destruct M3; lra.
Qed.

(** ** The sides of a triangle *)
Lemma grid_sq e M (a b : list flt) : grid_ok e -> grid_ok (e + e) -> (Z.of_nat (length a) * (2 * M * (2 * M)) < 2 ^ 53)%Z -> a <> [] -> length b = length a -> Forall (on_grid e M) a -> Forall (on_grid e M) b ->
  exists K, (0 <= K <= Z.of_nat (length a) * (2 * M * (2 * M)))%Z /\ dot (sub (map FR b) (map FR a)) (sub (map FR b) (map FR a)) = IZR K * bpow radix2 (e + e).
Proof.
  intros G G2 B Na L Ha Hb. assert (P : (0 <= M)%Z) by (destruct Ha as [|x a Hx _]; [contradiction|eapply grid_pos; eauto]).
  assert (B1 : (2 * M < 2 ^ 53)%Z) by (assert (1 <= Z.of_nat (length a))%Z by (destruct a; [contradiction|cbn [length]; lia]); nia).
  destruct (C86_from_points e M a b G B1 Na L Ha Hb) as (v & Ev & Gv & Lv & Mv). assert (Lv' : @length flt v = @length flt a) by exact Lv.
  destruct (grid_dots e e (2 * M) (2 * M) G2 ltac:(lia) ltac:(lia) v v eq_refl Gv Gv ltac:(rewrite Lv'; lia)) as ((_ & m & Bm & Em) & D). rewrite D, Mv in Em. rewrite Lv' in Bm. exists m. split; [|exact Em]. split; [|lia].
  apply le_IZR. apply Rmult_le_reg_r with (bpow radix2 (e + e)); [apply bpow_gt_0|]. rewrite Rmult_0_l, <- Em. apply dot_self_nonneg.
Qed.
Lemma side_F e M (a b : list flt) : (-200 <= e <= 200)%Z -> (Z.of_nat (length a) * (2 * M * (2 * M)) <= 2 ^ 28)%Z -> a <> [] -> length b = length a -> Forall (on_grid e M) a -> Forall (on_grid e M) b -> map FR a <> map FR b ->
  exists l K, (let* ln := line_from_points (N:=FNum) a b in norm (l_dir ln)) = Ok l /\ side e K l /\ dot (sub (map FR b) (map FR a)) (sub (map FR b) (map FR a)) = IZR K * bpow radix2 (e + e).
Proof.
  intros He B Na L Ha Hb Ne. assert (G : grid_ok e) by (unfold grid_ok; lia). assert (G2 : grid_ok (e + e)) by (unfold grid_ok; lia). assert (P : (0 <= M)%Z) by (destruct Ha as [|x a Hx _]; [contradiction|eapply grid_pos; eauto]).
  destruct (C86_line_from_points e M a b G G2 ltac:(lia) Na L Ha Hb) as (_ & Q). destruct (Q Ne) as (l & El & _ & Ld & Gd & Md). destruct (grid_sq e M a b G G2 ltac:(lia) Na L Ha Hb) as (K & BK & EK).
  assert (Ld' : @length flt (l_dir l) = @length flt a) by exact Ld. destruct (C86_norm e (2 * M) (l_dir l) G2 ltac:(lia) ltac:(rewrite Ld'; lia) Gd) as (r & Er & Fr & Vr). exists r, K. split; [rewrite El; exact Er|]. split; [|exact EK].
  split; [exact Fr|]. pose proof (bpow_gt_0 radix2 e) as Be. split.
  - split; [|lia]. assert (K <> 0)%Z; [|lia]. intro Z. rewrite Z, Rmult_0_l in EK. apply Ne. symmetry. apply sub_zero_iff; [rewrite !map_length; exact L|]. apply dot_self_zero. exact EK.
  - rewrite Vr, Md. f_equal. change (len (sub (map FR b) (map FR a))) with (R_sqrt.sqrt (dot (sub (map FR b) (map FR a)) (sub (map FR b) (map FR a)))). rewrite EK, bpow_plus, sqrt_mult by (try (apply IZR_le; lia); apply Rmult_le_pos; lra). rewrite sqrt_square by lra. reflexivity.
Qed.
Lemma triangle_shape LA (a b c : list flt) t : Forall finite a -> Forall finite b -> Forall finite c -> triangle_new (N:=FNum) LA a b c = Ok t -> t = MkTriangle (N:=FNum) a b c /\ a <> [] /\ length b = length a /\ length c = length a.
Proof.
  intros Fa Fb Fc H. unfold triangle_new in H. change (point_of (N:=FNum)) with (vector_of (N:=FNum)) in H. assert (Na : a <> []) by (intro Z; subst a; discriminate H). rewrite (vector_of_ok a Na Fa) in H. cbn [bind] in H.
  assert (Nb : b <> []) by (intro Z; subst b; discriminate H). rewrite (vector_of_ok b Nb Fb) in H. cbn [bind] in H. assert (Nc : c <> []) by (intro Z; subst c; discriminate H). rewrite (vector_of_ok c Nc Fc) in H. cbn [bind] in H. unfold dim1 in H.
  match type of H with (if ?b then _ else _) = _ => destruct b eqn:Eb end; [discriminate H|]. apply negb_false_iff, andb_true_iff in Eb as (E1 & E2). apply Nat.eqb_eq in E1, E2.
  match type of H with bind ?x _ = _ => destruct x as [ps| |] end; cbn [bind] in H; try discriminate H. match type of H with bind ?x _ = _ => destruct x as [col| |] end; cbn [bind] in H; try discriminate H. destruct col; [discriminate H|].
  split; [match type of H with Ok ?x = Ok ?y => assert (x = y) by (injection H; auto) end; auto|]. split; auto. split; [exact (eq_sym E1)|exact (eq_trans (eq_sym E2) (eq_sym E1))].
Qed.
Lemma lengths_F e M LA (a b c : list flt) t : (-200 <= e <= 200)%Z -> (Z.of_nat (length a) * (2 * M * (2 * M)) <= 2 ^ 28)%Z -> Forall (on_grid e M) a -> Forall (on_grid e M) b -> Forall (on_grid e M) c -> triangle_new (N:=FNum) LA a b c = Ok t ->
  map FR a <> map FR b -> map FR b <> map FR c -> map FR c <> map FR a ->
  exists x y z Kx Ky Kz, triangle_lengths t = Ok [x; y; z] /\ side e Kx x /\ side e Ky y /\ side e Kz z /\ length b = length a /\ length c = length a /\
    dot (sub (map FR c) (map FR b)) (sub (map FR c) (map FR b)) = IZR Kx * bpow radix2 (e + e) /\ dot (sub (map FR a) (map FR c)) (sub (map FR a) (map FR c)) = IZR Ky * bpow radix2 (e + e) /\ dot (sub (map FR b) (map FR a)) (sub (map FR b) (map FR a)) = IZR Kz * bpow radix2 (e + e).
Proof.
  intros He B Ga Gb Gc Ht N1 N2 N3. apply triangle_shape in Ht as (-> & Na & Lb & Lc); try (eapply on_grid_all; eassumption). assert (Nb : b <> []) by (intro Z; subst b; apply Na; destruct a; [reflexivity|discriminate]). assert (Nc : c <> []) by (intro Z; subst c; apply Na; destruct a; [reflexivity|discriminate]).
  assert (La : length a = length c) by auto. assert (Lbc : length c = length b) by congruence.
  destruct (side_F e M b c He ltac:(rewrite Lb; exact B) Nb Lbc Gb Gc N2) as (x & Kx & E1 & S1 & D1). destruct (side_F e M c a He ltac:(rewrite Lc; exact B) Nc La Gc Ga N3) as (y & Ky & E2 & S2 & D2). destruct (side_F e M a b He B Na Lb Ga Gb N1) as (z & Kz & E3 & S3 & D3).
  exists x, y, z, Kx, Ky, Kz. split; [|auto 10]. unfold triangle_lengths. cbn [mapM]. change (triangle_length (MkTriangle (N:=FNum) a b c) "a") with (let* ln := line_from_points (N:=FNum) b c in norm (l_dir ln)). change (triangle_length (MkTriangle (N:=FNum) a b c) "b") with (let* ln := line_from_points (N:=FNum) c a in norm (l_dir ln)). change (triangle_length (MkTriangle (N:=FNum) a b c) "c") with (let* ln := line_from_points (N:=FNum) a b in norm (l_dir ln)).
  rewrite E1, E2, E3. reflexivity.
Qed.
(** classify with the default tolerances: exact comparison of the side lengths. *)
Theorem C88_classify : forall e M LA (a b c : list flt) t, (-200 <= e <= 200)%Z -> (Z.of_nat (length a) * (2 * M * (2 * M)) <= 2 ^ 28)%Z -> Forall (on_grid e M) a -> Forall (on_grid e M) b -> Forall (on_grid e M) c ->
  triangle_new (N:=FNum) LA a b c = Ok t -> map FR a <> map FR b -> map FR b <> map FR c -> map FR c <> map FR a ->
  let x := dist (map FR b) (map FR c) in let y := dist (map FR c) (map FR a) in let z := dist (map FR a) (map FR b) in
  exists k, triangle_classify (N:=FNum) tol_default t = Ok k /\
   (k = "equilateral"%string <-> x = y /\ y = z) /\ (k = "isosceles"%string <-> (x = y \/ y = z \/ z = x) /\ ~ (x = y /\ y = z)) /\ (k = "scalene"%string <-> x <> y /\ y <> z /\ z <> x).
Proof.
  intros e M LA a b c t He B Ga Gb Gc Ht N1 N2 N3 X Y W. destruct (lengths_F e M LA a b c t He B Ga Gb Gc Ht N1 N2 N3) as (x & y & z & Kx & Ky & Kz & El & S1 & S2 & S3 & _ & _ & D1 & D2 & D3).
  unfold triangle_classify. rewrite El. cbn [bind]. rewrite (side_isclose e Kx Ky x y He S1 S2), (side_isclose e Kx Kz x z He S1 S3), (side_isclose e Ky Kz y z He S2 S3). cbn [bind].
  pose proof (bpow_gt_0 radix2 (e + e)) as Be. assert (Sq : forall u v (K K' : Z), 0 <= u -> 0 <= v -> u * u = IZR K * bpow radix2 (e + e) -> v * v = IZR K' * bpow radix2 (e + e) -> (u = v <-> K = K')).
  { intros u v K K' Hu Hv E E'. split; intro Q; [subst v; rewrite E in E'; apply Rmult_eq_reg_r in E'; [apply eq_IZR in E'; auto|lra]|]. apply Rsqr_inj; auto. unfold Rsqr. rewrite E, E', Q. reflexivity. }
  assert (EX : X * X = IZR Kx * bpow radix2 (e + e)) by (unfold X; rewrite dist_sym, dist_sq; exact D1). assert (EY : Y * Y = IZR Ky * bpow radix2 (e + e)) by (unfold Y; rewrite dist_sym, dist_sq; exact D2). assert (EZ : W * W = IZR Kz * bpow radix2 (e + e)) by (unfold W; rewrite dist_sym, dist_sq; exact D3).
  pose proof (dist_nonneg (map FR b) (map FR c) : 0 <= X) as PX. pose proof (dist_nonneg (map FR c) (map FR a) : 0 <= Y) as PY. pose proof (dist_nonneg (map FR a) (map FR b) : 0 <= W) as PZ.
  pose proof (Sq X Y _ _ PX PY EX EY) as Q1. pose proof (Sq Y W _ _ PY PZ EY EZ) as Q2. pose proof (Sq W X _ _ PZ PX EZ EX) as Q3. clearbody X Y W. clear -Q1 Q2 Q3.
  destruct (Z.eqb_spec Kx Ky) as [e1|e1], (Z.eqb_spec Kx Kz) as [e2|e2], (Z.eqb_spec Ky Kz) as [e3|e3]; assert (e2' : Kz = Kx <-> Kx = Kz) by (split; congruence); cbn [Nat.add Nat.eqb]; try (exfalso; congruence); eexists; (split; [reflexivity|]); (split; [|split]); split; intro H; try discriminate H; try reflexivity; tauto.
Qed.
Print Assumptions C88_classify.
(** Python's sorted on three doubles. *)
Lemma sorted3_F (x y z : flt) : finite x -> finite y -> finite z -> exists u v w, py_sorted (N:=FNum) [x; y; z] = [u; v; w] /\ FR u <= FR v /\ FR v <= FR w /\
  ((u = x /\ v = y /\ w = z) \/ (u = x /\ v = z /\ w = y) \/ (u = y /\ v = x /\ w = z) \/ (u = y /\ v = z /\ w = x) \/ (u = z /\ v = x /\ w = y) \/ (u = z /\ v = y /\ w = x)).
Proof.
  intros Fx Fy Fz. unfold py_sorted. cbn [fold_left insert_num]. change (nltb (n:=FNum)) with PrimFloat.ltb.
  assert (T : forall p q : flt, finite p -> finite q -> (PrimFloat.ltb p q = true /\ FR p < FR q) \/ (PrimFloat.ltb p q = false /\ FR q <= FR p)).
  { intros p q Fp Fq. destruct (Rlt_le_dec (FR p) (FR q)) as [L|L]; [left|right]; split; auto; [apply ltb_F; auto|apply (not_iff _ _ (ltb_F _ _ Fp Fq)); lra]. }
  destruct (T y x Fy Fx) as [(E1 & L1)|(E1 & L1)]; rewrite E1; cbn [insert_num]; change (nltb (n:=FNum)) with PrimFloat.ltb.
  - destruct (T z y Fz Fy) as [(E2 & L2)|(E2 & L2)]; rewrite E2; [exists z, y, x; split; [reflexivity|]; repeat split; try lra; tauto|]. cbn [insert_num]. change (nltb (n:=FNum)) with PrimFloat.ltb.
    destruct (T z x Fz Fx) as [(E3 & L3)|(E3 & L3)]; rewrite E3; [exists y, z, x|exists y, x, z]; (split; [reflexivity|]); repeat split; try lra; tauto.
  - destruct (T z x Fz Fx) as [(E2 & L2)|(E2 & L2)]; rewrite E2; [exists z, x, y; split; [reflexivity|]; repeat split; try lra; tauto|]. cbn [insert_num]. change (nltb (n:=FNum)) with PrimFloat.ltb.
    destruct (T z y Fz Fy) as [(E3 & L3)|(E3 & L3)]; rewrite E3; [exists x, z, y|exists x, y, z]; (split; [reflexivity|]); repeat split; try lra; tauto.
Qed.
(** is_right with the default tolerances: exactly the triangles with a right angle. *)
Theorem C88_is_right : forall e M LA (a b c : list flt) t, (-200 <= e <= 200)%Z -> (Z.of_nat (length a) * (2 * M * (2 * M)) <= 2 ^ 28)%Z -> Forall (on_grid e M) a -> Forall (on_grid e M) b -> Forall (on_grid e M) c ->
  triangle_new (N:=FNum) LA a b c = Ok t -> map FR a <> map FR b -> map FR b <> map FR c -> map FR c <> map FR a ->
  let A := map FR a in let B := map FR b in let C := map FR c in
  exists r, triangle_is_right (N:=FNum) tol_default t = Ok r /\ (r = true <-> dot (sub B A) (sub C A) = 0 \/ dot (sub A B) (sub C B) = 0 \/ dot (sub A C) (sub B C) = 0).
Proof.
  intros e M LA a b c t He Bd Ga Gb Gc Ht N1 N2 N3 A B C. destruct (lengths_F e M LA a b c t He Bd Ga Gb Gc Ht N1 N2 N3) as (x & y & z & Kx & Ky & Kz & El & S1 & S2 & S3 & Lb & Lc & D1 & D2 & D3). fold A B C in D1, D2, D3.
  assert (LB : length B = length A) by (unfold A, B; rewrite !map_length; exact Lb). assert (LC : length C = length A) by (unfold A, C; rewrite !map_length; exact Lc).
  assert (Q : (dot (sub B A) (sub C A) = 0 \/ dot (sub A B) (sub C B) = 0 \/ dot (sub A C) (sub B C) = 0) <-> (Ky + Kz = Kx \/ Kx + Kz = Ky \/ Kx + Ky = Kz)%Z).
  { pose proof (bpow_gt_0 radix2 (e + e)) as Be. destruct (Triangles.rot_dots A B C LB LC) as (P1 & _). destruct (Triangles.rot_dots B A C ltac:(lia) ltac:(lia)) as (P2 & P2' & _). destruct (Triangles.rot_dots C A B ltac:(lia) ltac:(lia)) as (P3 & P3' & _).
    destruct (Triangles.rot_dots A C B LC LB) as (_ & P4 & _). destruct (Triangles.rot_dots B C A ltac:(lia) ltac:(lia)) as (_ & P5 & _). destruct (Triangles.rot_dots C B A ltac:(lia) ltac:(lia)) as (_ & P6 & _).
    assert (I : forall k l m : Z, IZR k * bpow radix2 (e + e) + IZR l * bpow radix2 (e + e) = IZR m * bpow radix2 (e + e) <-> (k + l = m)%Z). { intros k l m. rewrite <- Rmult_plus_distr_r, <- plus_IZR. split; intro H; [apply Rmult_eq_reg_r in H; [apply eq_IZR; exact H|lra]|rewrite H; reflexivity]. }
    rewrite <- !I, <- D1, <- D2, <- D3. assert (G1 : dot (sub B A) (sub C A) = 0 <-> dot (sub A C) (sub A C) + dot (sub B A) (sub B A) = dot (sub C B) (sub C B)) by lra. assert (G2 : dot (sub A B) (sub C B) = 0 <-> dot (sub C B) (sub C B) + dot (sub B A) (sub B A) = dot (sub A C) (sub A C)) by lra. assert (G3 : dot (sub A C) (sub B C) = 0 <-> dot (sub C B) (sub C B) + dot (sub A C) (sub A C) = dot (sub B A) (sub B A)) by lra. tauto. }
  unfold triangle_is_right. rewrite El. cbn [bind]. destruct (sorted3_F x y z (proj1 S1) (proj1 S2) (proj1 S3)) as (u & v & w & Es & O1 & O2 & Pm). match goal with |- context [py_sorted ?l] => replace (py_sorted l) with ([u; v; w] : vec FNum) by exact (eq_sym Es) end. change (nmul (n:=FNum)) with PrimFloat.mul. change (nadd (n:=FNum)) with PrimFloat.add.
  assert (Ord : forall K K' l l', side e K l -> side e K' l' -> FR l <= FR l' -> (K <= K')%Z). { intros K K' l l' Hl Hl' L. destruct (Z_le_gt_dec K K') as [|G]; auto. destruct (side_lt e K' K l' l He Hl' Hl ltac:(lia)) as (L1 & _). lra. }
  assert (Go : forall Ku Kv Kw, side e Ku u -> side e Kv v -> side e Kw w -> ((Ky + Kz = Kx \/ Kx + Kz = Ky \/ Kx + Ky = Kz) <-> (Kv + Kw = Ku \/ Ku + Kw = Kv \/ Ku + Kv = Kw))%Z -> exists r, isclose (N:=FNum) tol_default (u * u + v * v)%float (w * w)%float = Ok r /\ (r = true <-> dot (sub B A) (sub C A) = 0 \/ dot (sub A B) (sub C B) = 0 \/ dot (sub A C) (sub B C) = 0)).
  { intros Ku Kv Kw Su Sv Sw HQ. exists (Ku + Kv =? Kw)%Z. split; [apply (right_F e); auto|]. rewrite Q, HQ, Z.eqb_eq. pose proof (Ord _ _ _ _ Su Sv O1). pose proof (Ord _ _ _ _ Sv Sw O2). destruct Su as (_ & B1 & _). destruct Sv as (_ & B2 & _). lia. }
  destruct Pm as [(-> & -> & ->)|[(-> & -> & ->)|[(-> & -> & ->)|[(-> & -> & ->)|[(-> & -> & ->)|(-> & -> & ->)]]]]]; [apply (Go Kx Ky Kz)|apply (Go Kx Kz Ky)|apply (Go Ky Kx Kz)|apply (Go Ky Kz Kx)|apply (Go Kz Kx Ky)|apply (Go Kz Ky Kx)]; auto; lia.
Qed.
Print Assumptions C88_is_right.
(** The triangle (0,0), (4,0), (0,3), accepted with any SVD routine that finds two non-negligible singular values. *)
Example C88_nonvacuous : exists LA t, triangle_new (N:=FNum) LA [0; 0]%float [4; 0]%float [0; 3]%float = Ok t /\ triangle_is_right (N:=FNum) tol_default t = Ok true /\ triangle_classify (N:=FNum) tol_default t = Ok "scalene"%string /\
  Forall (on_grid 0 4) [0; 0]%float /\ Forall (on_grid 0 4) [4; 0]%float /\ Forall (on_grid 0 4) [0; 3]%float /\ (Z.of_nat 2 * (2 * 4 * (2 * 4)) <= 2 ^ 28)%Z.
Proof.
  exists (MkLinalg (N:=FNum) (fun _ => Ok ([], [3.7; 2.2]%float, [])) (fun _ _ => NonFinite) (fun _ _ => NonFinite)), (MkTriangle (N:=FNum) [0; 0]%float [4; 0]%float [0; 3]%float).
  split; [reflexivity|]. split; [reflexivity|]. split; [reflexivity|]. split; [constructor; [lit 0%Z|constructor; [lit 0%Z|constructor]]|]. split; [constructor; [lit 4%Z|constructor; [lit 0%Z|constructor]]|]. split; [constructor; [lit 0%Z|constructor; [lit 3%Z|constructor]]|]. vm_compute. discriminate.
Qed.
(** Beyond that size the default tolerance is too coarse: the triangle (0,0), (60000,1), (1,-59999) has no right angle but is_right answers True; (0,0), (60000,1), (0,-60000) has three different sides but classify answers 'isosceles'. *)
Theorem C88_large_refuted : forall LA t t', triangle_new (N:=FNum) LA [0; 0]%float [60000; 1]%float [1; -59999]%float = Ok t -> triangle_new (N:=FNum) LA [0; 0]%float [60000; 1]%float [0; -60000]%float = Ok t' ->
  (triangle_is_right (N:=FNum) tol_default t = Ok true /\ let A := map FR [0; 0]%float in let B := map FR [60000; 1]%float in let C := map FR [1; -59999]%float in dot (sub B A) (sub C A) <> 0 /\ dot (sub A B) (sub C B) <> 0 /\ dot (sub A C) (sub B C) <> 0) /\
  (triangle_classify (N:=FNum) tol_default t' = Ok "isosceles"%string /\ let A := map FR [0; 0]%float in let B := map FR [60000; 1]%float in let C := map FR [0; -60000]%float in dist A B <> dist B C /\ dist B C <> dist C A /\ dist C A <> dist A B).
Proof.
  intros LA t t' Ht Ht'. assert (F : forall x f, Prim2SF x = f -> is_finite_SF f = true -> finite x) by (intros x f E Q; unfold finite; rewrite <- is_finite_SF_B2SF, B2SF_Prim2B, E; auto).
  assert (V0 : FR 0%float = 0) by apply zero_F. assert (V1 : FR 1%float = 1) by apply one_F. assert (V2 : FR 60000%float = 60000) by (erewrite FR_val by (vm_compute; reflexivity); simpl; unfold F2R; simpl; lra). assert (V3 : FR (-59999)%float = -59999) by (erewrite FR_val by (vm_compute; reflexivity); simpl; unfold F2R; simpl; lra). assert (V4 : FR (-60000)%float = -60000) by (erewrite FR_val by (vm_compute; reflexivity); simpl; unfold F2R; simpl; lra).
  apply triangle_shape in Ht as (-> & _); try (constructor; [eapply F; [vm_compute; reflexivity|reflexivity]|constructor; [eapply F; [vm_compute; reflexivity|reflexivity]|constructor]]). apply triangle_shape in Ht' as (-> & _); try (constructor; [eapply F; [vm_compute; reflexivity|reflexivity]|constructor; [eapply F; [vm_compute; reflexivity|reflexivity]|constructor]]). split; split.
  - reflexivity.
  - cbn [map]. rewrite V0, V1, V2, V3. cbn [sub dot]. lra.
  - reflexivity.
  - cbn [map]. rewrite V0, V1, V2, V4. assert (Q : forall p q r s : list R, dist p q * dist p q <> dist r s * dist r s -> dist p q <> dist r s) by (intros p q r s H E; apply H; rewrite E; reflexivity). split; [|split]; apply Q; rewrite !dist_sq; cbn [sub dot]; lra.
Qed.
Print Assumptions C88_large_refuted.
Example C88_large_nonvacuous : exists LA t t', triangle_new (N:=FNum) LA [0; 0]%float [60000; 1]%float [1; -59999]%float = Ok t /\ triangle_new (N:=FNum) LA [0; 0]%float [60000; 1]%float [0; -60000]%float = Ok t'.
Proof. exists (MkLinalg (N:=FNum) (fun _ => Ok ([], [60000; 30000]%float, [])) (fun _ _ => NonFinite) (fun _ _ => NonFinite)). eexists. eexists. split; reflexivity. Qed.
