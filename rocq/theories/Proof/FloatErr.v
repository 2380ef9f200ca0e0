(** * Rounding errors of sums, lengths and distances in binary64 *)
From Coq Require Import Reals ZArith Floats List Lra Lia Bool Psatz.
From Flocq Require Import Core BinarySingleNaN.
From Flocq Require Import Plus_error Relative.
From Flocq Require Import IEEE754.PrimFloat.
From Verif.Model Require Import Outcome Num Instances Numpy.
From Verif.Spec Require Import Geometry Floats.
From Verif.Proof Require Import VecAlg Floats.
Import ListNotations.
Local Open Scope R_scope.

Notation fl := PrimFloat.float.
Local Existing Instance Hprec.
Local Existing Instance Hmax.
Local Instance p53 : Prec_gt_0 53 := eq_refl.

(** Sum of the absolute values of the products. *)
Definition absdot (a b : pt) : R := dot (map Rabs a) (map Rabs b).
Lemma absdot_pos a b : 0 <= absdot a b.
Proof.
  unfold absdot. revert b. induction a as [|x a IH]; intros [|y b]; cbn [map dot]; try lra. specialize (IH b). pose proof (Rabs_pos x). pose proof (Rabs_pos y). nra.
Qed.
Lemma dot_absdot a b : Rabs (dot a b) <= absdot a b.
Proof.
  unfold absdot. revert b. induction a as [|x a IH]; intros [|y b]; cbn [map dot]; try (rewrite Rabs_R0; lra). eapply Rle_trans; [apply Rabs_triang|]. rewrite Rabs_mult. specialize (IH b). lra.
Qed.
Lemma absdot_self a : absdot a a = dot a a.
Proof. unfold absdot. induction a as [|x a IH]; cbn [map dot]; auto. rewrite IH, <- Rabs_mult, Rabs_pos_eq by nra. reflexivity. Qed.

Definition g (n : nat) : R := (1 + uro) ^ n - 1.
Lemma uro_pos : 0 < uro. Proof. apply uro_small. Qed.
Lemma pow_ge1 n : 1 <= (1 + uro) ^ n.
Proof. apply pow_R1_Rle. pose proof uro_pos. lra. Qed.
Lemma g_S n : g (S n) = uro + (1 + uro) * g n.
Proof. unfold g. simpl. ring. Qed.
Lemma g_pos n : 0 <= g n.
Proof. unfold g. pose proof (pow_ge1 n). lra. Qed.
Lemma g_mono m n : (m <= n)%nat -> g m <= g n.
Proof. intro H. unfold g. pose proof uro_pos. pose proof (Rle_pow (1 + uro) m n ltac:(lra) H). lra. Qed.

Definition dn (n : nat) : R := 3 * INR n * (1 + uro) ^ n * eta.
Lemma dn_pos n : 0 <= dn n.
Proof. unfold dn. pose proof (pow_ge1 n). pose proof eta_pos. pose proof (pos_INR n). apply Rmult_le_pos; [apply Rmult_le_pos|]; lra. Qed.
Lemma dn_S n : (1 + uro) * dn n + (2 + uro) * eta <= dn (S n).
Proof.
  unfold dn. rewrite S_INR. cbn [pow]. pose proof (pow_ge1 n) as P. pose proof uro_pos as U. pose proof eta_pos as E.
  set (p := (1 + uro) ^ n) in *. replace (3 * (INR n + 1) * ((1 + uro) * p) * eta) with ((1 + uro) * (3 * INR n * p * eta) + 3 * ((1 + uro) * p) * eta) by ring.
  assert (2 + uro <= 3 * ((1 + uro) * p)) by nra. nra.
Qed.

Lemma dot_cons (x y : fl) a b : dot_raw (N:=FNum) (x :: a) (y :: b) = (x * y + dot_raw (N:=FNum) a b)%float.
Proof. reflexivity. Qed.

Theorem dot_error (a b : list fl) : length a = length b -> finite (dot_raw (N:=FNum) a b) ->
  Rabs (FR (dot_raw (N:=FNum) a b) - dot (map FR a) (map FR b)) <= g (S (length a)) * absdot (map FR a) (map FR b) + dn (length a).
Proof.
  revert b. induction a as [|x a IH]; intros [|y b] L H; try discriminate.
  - cbn. unfold absdot. cbn. change (FR (dot_raw (N:=FNum) [] [])) with 0. rewrite Rminus_0_r, Rabs_R0. unfold dn. cbn. lra.
  - rewrite dot_cons in *. apply add_F in H as (Fm & Fs & E). apply mul_F in Fm as (Fx & Fy & Em). rewrite E, Em.
    specialize (IH b ltac:(simpl in L; lia) Fs). unfold absdot in *. cbn [map dot length]. set (A := dot (map Rabs (map FR a)) (map Rabs (map FR b))) in *.
    assert (HA : 0 <= A) by apply absdot_pos. assert (HS : Rabs (dot (map FR a) (map FR b)) <= A) by apply dot_absdot.
    set (s := FR (dot_raw (N:=FNum) a b)) in *. set (S := dot (map FR a) (map FR b)) in *. set (p := FR x * FR y). set (m := rnd p).
    pose proof (rnd_err p) as E1. pose proof (rnd_err (m + s)) as E2. fold m in E1. rewrite <- Rabs_mult. fold p.
    pose proof (Rabs_triang (m + s - (p + S)) (rnd (m + s) - (m + s))) as T. replace (m + s - (p + S) + (rnd (m + s) - (m + s))) with (rnd (m + s) - (p + S)) in T by ring.
    pose proof (Rabs_triang (m - p) (s - S)) as T2. replace (m - p + (s - S)) with (m + s - (p + S)) in T2 by ring.
    pose proof (Rabs_triang (m + s - (p + S)) (p + S)) as T3. replace (m + s - (p + S) + (p + S)) with (m + s) in T3 by ring. pose proof (Rabs_triang p S) as T4.
    pose proof uro_pos as U. pose proof eta_pos as Et. pose proof (g_S (Datatypes.S (length a))) as G. pose proof (g_mono 1 (Datatypes.S (length a)) ltac:(lia)) as G1. pose proof (dn_S (length a)) as D.
    assert (G1' : g 1 = uro) by (unfold g; ring). rewrite G1' in G1. set (k := g (Datatypes.S (length a))) in *. rewrite G. pose proof (Rabs_pos p). pose proof (dn_pos (length a)).
    assert (uro * Rabs (m + s) <= uro * (uro * Rabs p + eta + (k * A + dn (length a)) + (Rabs p + A))) by (apply Rmult_le_compat_l; lra).
    assert (Q : uro * Rabs p <= k * Rabs p) by (apply Rmult_le_compat_r; lra). assert (Q2 : uro * (uro * Rabs p) <= uro * (k * Rabs p)) by (apply Rmult_le_compat_l; lra). nra.
Qed.

(** The length. *)
Lemma sqrt_error (s S gg h : R) : 0 <= s -> 0 <= S -> 0 <= gg -> 0 <= h -> Rabs (s - S) <= gg * S + h ->
  Rabs (R_sqrt.sqrt s - R_sqrt.sqrt S) <= gg * R_sqrt.sqrt S + R_sqrt.sqrt h.
Proof.
  intros Hs HS Hg Hh H. apply Rabs_le_inv in H. pose proof (sqrt_pos s). pose proof (sqrt_pos S). pose proof (sqrt_pos h).
  pose proof (sqrt_sqrt s Hs) as E1. pose proof (sqrt_sqrt S HS) as E2. pose proof (sqrt_sqrt h Hh) as E3.
  set (a := R_sqrt.sqrt s) in *. set (b := R_sqrt.sqrt S) in *. set (c := R_sqrt.sqrt h) in *. apply Rabs_le. split.
  - destruct (Rle_lt_dec ((1 - gg) * b - c) 0) as [L|L]; [lra|]. enough ((1 - gg) * b - c <= a) by lra. apply Rsqr_incr_0; unfold Rsqr; try lra.
    assert (Q : gg < 1). { destruct (Rlt_le_dec gg 1); auto. exfalso. nra. }
    assert (((1 - gg) * b - c) * ((1 - gg) * b - c) <= (1 - gg) * b * ((1 - gg) * b) - c * c) by nra.
    assert (B : 0 <= b * b) by nra. assert (0 <= gg * ((1 - gg) * (b * b))) by (apply Rmult_le_pos; [lra|apply Rmult_le_pos; lra]).
    rewrite <- E1, <- E2, <- E3 in H. lra.
  - enough (a <= (1 + gg) * b + c) by lra. apply Rsqr_incr_0; unfold Rsqr; try nra. rewrite <- E1, <- E2, <- E3 in H.
    assert (0 <= gg * (b * b)) by (apply Rmult_le_pos; nra). assert (0 <= gg * gg * (b * b)) by (apply Rmult_le_pos; nra). assert (0 <= b * c) by nra. assert (0 <= gg * (b * c)) by (apply Rmult_le_pos; auto). lra.
Qed.

Theorem norm_error (v : list fl) : finite (norm_raw (N:=FNum) v) ->
  Rabs (FR (norm_raw (N:=FNum) v) - len (map FR v)) <= g (2 + length v) * len (map FR v) + (1 + uro) * R_sqrt.sqrt (dn (length v)) + eta.
Proof.
  unfold norm_raw. change (nsqrt (n:=FNum)) with PrimFloat.sqrt. intro H. apply sqrt_F in H as (Fd & P & E). rewrite E. pose proof (dot_error v v eq_refl Fd) as D. rewrite absdot_self in D.
  set (s := FR (dot_raw (N:=FNum) v v)) in *. unfold len. set (S := dot (map FR v) (map FR v)) in *. assert (HS : 0 <= S) by apply dot_self_nonneg.
  pose proof (sqrt_error s S _ _ P HS (g_pos (Datatypes.S (length v))) (dn_pos (length v)) D) as Q. pose proof (rnd_err (R_sqrt.sqrt s)) as R. rewrite (Rabs_pos_eq (R_sqrt.sqrt s)) in R by apply sqrt_pos.
  set (a := R_sqrt.sqrt s) in *. set (b := R_sqrt.sqrt S) in *. set (c := R_sqrt.sqrt (dn (length v))) in *. change (2 + length v)%nat with (Datatypes.S (Datatypes.S (length v))). rewrite g_S. set (k := g (Datatypes.S (length v))) in *.
  apply Rabs_le_inv in Q. apply Rabs_le_inv in R. pose proof uro_pos. pose proof (sqrt_pos S). fold b in H0. apply Rabs_le. assert (uro * a <= uro * (b + k * b + c)) by (apply Rmult_le_compat_l; lra). lra.
Qed.

(** Sums and differences of doubles are rounded with a purely relative error. *)
Lemma gf (x : fl) : generic_format radix2 (FLT_exp (-1074) 53) (FR x).
Proof. apply (generic_format_B2R prec emax). Qed.
Lemma u_ro_uro : u_ro radix2 53 = uro.
Proof. unfold u_ro, uro. change (-53)%Z with (-1 + (-53 + 1))%Z. rewrite (bpow_plus radix2 (-1)). reflexivity. Qed.
Lemma rnd_plus x y : Rabs (rnd (FR x + FR y) - (FR x + FR y)) <= uro * Rabs (FR x + FR y).
Proof.
  destruct (FLT_plus_error_N_ex radix2 (-1074) 53 (fun n => negb (Z.even n)) (FR x) (FR y) (gf x) (gf y)) as (e & He & E).
  unfold rnd. rewrite E. replace ((FR x + FR y) * (1 + e) - (FR x + FR y)) with (e * (FR x + FR y)) by ring. rewrite Rabs_mult. apply Rmult_le_compat_r; [apply Rabs_pos|].
  rewrite <- u_ro_uro. eapply Rle_trans; [exact He|]. apply u_rod1pu_ro_le_u_ro.
Qed.
Lemma rnd_minus x y : Rabs (rnd (FR x - FR y) - (FR x - FR y)) <= uro * Rabs (FR x - FR y).
Proof. replace (FR x - FR y) with (FR x + FR (- y)%float) by (rewrite opp_F; ring). apply rnd_plus. Qed.

(** Vectors whose components are relatively close have relatively close lengths. *)
Lemma len_close (e : R) (d x : pt) : 0 <= e -> Forall2 (fun y z => Rabs (y - z) <= e * Rabs z) d x -> Rabs (len d - len x) <= e * len x.
Proof.
  intros He H. assert (A : Forall2 (fun y z => Rabs y <= (1 + e) * Rabs z /\ (1 - e) * Rabs z <= Rabs y) d x).
  { induction H as [|y z d x Q H IH]; constructor; auto. clear -Q He. pose proof (Rabs_triang (y - z) z) as T. replace (y - z + z) with y in T by ring. pose proof (Rabs_triang (z - y) y) as T2. replace (z - y + y) with z in T2 by ring. rewrite Rabs_minus_sym in T2. lra. }
  assert (U : dot d d <= (1 + e) * (1 + e) * dot x x).
  { clear H. induction A as [|y z d x (Q & _) A IH]; cbn [dot]; [lra|]. rewrite <- (Rabs_pos_eq (y * y)), <- (Rabs_pos_eq (z * z)), !Rabs_mult by nra. pose proof (Rabs_pos y). assert (Rabs y * Rabs y <= ((1 + e) * Rabs z) * ((1 + e) * Rabs z)) by (apply Rmult_le_compat; lra). lra. }
  assert (D : e <= 1 -> (1 - e) * (1 - e) * dot x x <= dot d d).
  { intro He1. clear H U. induction A as [|y z d x (_ & Q) A IH]; cbn [dot]; [lra|]. rewrite <- (Rabs_pos_eq (y * y)), <- (Rabs_pos_eq (z * z)), !Rabs_mult by nra. pose proof (Rabs_pos z).
    assert (0 <= (1 - e) * Rabs z) by (apply Rmult_le_pos; lra). assert (((1 - e) * Rabs z) * ((1 - e) * Rabs z) <= Rabs y * Rabs y) by (apply Rmult_le_compat; lra). lra. }
  pose proof (len_nonneg d) as Ld. pose proof (len_nonneg x) as Lx. apply Rabs_le. split.
  - destruct (Rle_lt_dec e 1) as [L|L]; [|nra]. enough ((1 - e) * len x <= len d) by lra. apply Rsqr_incr_0; unfold Rsqr; auto; [|apply Rmult_le_pos; lra]. rewrite len_sq. replace ((1 - e) * len x * ((1 - e) * len x)) with ((1 - e) * (1 - e) * (len x * len x)) by ring. rewrite len_sq. auto.
  - enough (len d <= (1 + e) * len x) by lra. apply Rsqr_incr_0; unfold Rsqr; auto; [|apply Rmult_le_pos; lra]. rewrite len_sq. replace ((1 + e) * len x * ((1 + e) * len x)) with ((1 + e) * (1 + e) * (len x * len x)) by ring. rewrite len_sq. auto.
Qed.

(** ** No overflow for coordinates up to 2^500 *)
Definition B500 : R := bpow radix2 500.
Lemma fin_add x y : finite x -> finite y -> Rabs (rnd (FR x + FR y)) < bpow radix2 1024 -> finite (x + y)%float /\ FR (x + y)%float = rnd (FR x + FR y).
Proof.
  unfold finite, FR. intros Fx Fy H. rewrite add_equiv. pose proof (Bplus_correct prec emax Hprec Hmax mode_NE _ _ Fx Fy) as C. rewrite <- rnd_eq in C.
  rewrite Rlt_bool_true in C by exact H. tauto.
Qed.
Lemma fin_sub x y : finite x -> finite y -> Rabs (rnd (FR x - FR y)) < bpow radix2 1024 -> finite (x - y)%float /\ FR (x - y)%float = rnd (FR x - FR y).
Proof.
  unfold finite, FR. intros Fx Fy H. rewrite sub_equiv. pose proof (Bminus_correct prec emax Hprec Hmax mode_NE _ _ Fx Fy) as C. rewrite <- rnd_eq in C.
  rewrite Rlt_bool_true in C by exact H. tauto.
Qed.
Lemma fin_mul x y : finite x -> finite y -> Rabs (rnd (FR x * FR y)) < bpow radix2 1024 -> finite (x * y)%float /\ FR (x * y)%float = rnd (FR x * FR y).
Proof.
  unfold finite, FR. intros Fx Fy H. rewrite mul_equiv. pose proof (Bmult_correct prec emax Hprec Hmax mode_NE (Prim2B x) (Prim2B y)) as C. rewrite <- rnd_eq in C.
  rewrite Rlt_bool_true in C by exact H. rewrite Fx, Fy in C. tauto.
Qed.
Lemma fin_div x y : finite x -> FR y <> 0 -> Rabs (rnd (FR x / FR y)) < bpow radix2 1024 -> finite (x / y)%float /\ FR (x / y)%float = rnd (FR x / FR y).
Proof.
  unfold finite, FR. intros Fx Fy H. rewrite div_equiv. pose proof (Bdiv_correct prec emax Hprec Hmax mode_NE (Prim2B x) (Prim2B y) Fy) as C. rewrite <- rnd_eq in C.
  rewrite Rlt_bool_true in C by exact H. rewrite Fx in C. tauto.
Qed.
Lemma fin_sqrt x : finite x -> 0 < FR x \/ fpos x -> finite (PrimFloat.sqrt x) /\ FR (PrimFloat.sqrt x) = rnd (R_sqrt.sqrt (FR x)).
Proof.
  intros Fx H. assert (F : finite (PrimFloat.sqrt x)).
  { unfold finite in *. rewrite sqrt_equiv. destruct (Bsqrt_correct prec emax Hprec Hmax mode_NE (Prim2B x)) as (_ & C & _). rewrite C.
    unfold FR, fpos, not_nan in H. destruct (Prim2B x) as [[|]|[|]| |[|] ? ? ?]; auto; try discriminate. destruct H as [H|(H & _)]; [|discriminate]. exfalso. simpl in H. apply gt_0_F2R in H. simpl in H. lia. }
  split; auto. apply sqrt_F in F. tauto.
Qed.
(** k * 2^e is a double for 0 <= k < 2^53. *)
Lemma rnd_dyad (k : Z) e : (0 <= k < 2 ^ 53)%Z -> (-1074 <= e)%Z -> rnd (IZR k * bpow radix2 e) = IZR k * bpow radix2 e.
Proof.
  intros Hk He. apply round_generic; auto with typeclass_instances. apply generic_format_FLT. exists (Float radix2 k e); auto. simpl. rewrite Z.abs_eq; lia.
Qed.
Lemma rnd_abs_le x (k : Z) e : (0 <= k < 2 ^ 53)%Z -> (-1074 <= e)%Z -> Rabs x <= IZR k * bpow radix2 e -> Rabs (rnd x) <= IZR k * bpow radix2 e.
Proof.
  intros Hk He H. apply Rabs_le_inv in H. pose proof (rnd_dyad k e Hk He) as E. apply Rabs_le. split.
  - rewrite <- E, <- rnd_opp. apply rnd_le. lra.
  - rewrite <- E. apply rnd_le. lra.
Qed.
Lemma rnd_bpow_le x e : (-1074 <= e)%Z -> Rabs x <= bpow radix2 e -> Rabs (rnd x) <= bpow radix2 e.
Proof. intros He H. pose proof (rnd_abs_le x 1 e ltac:(lia) He) as R. rewrite Rmult_1_l in R. auto. Qed.

Definition small500 (x : fl) : Prop := finite x /\ Rabs (FR x) <= B500.
Definition small501 (x : fl) : Prop := finite x /\ Rabs (FR x) <= 2 * B500.
Lemma small_sub x y : small500 x -> small500 y -> finite (x - y)%float /\ FR (x - y)%float = rnd (FR x - FR y) /\ small501 (x - y)%float.
Proof.
  intros (Fx & Hx) (Fy & Hy). unfold small501, B500 in *. pose proof (Rabs_triang (FR x) (- FR y)) as T. rewrite Rabs_Ropp in T. fold (FR x - FR y) in T.
  assert (H : Rabs (rnd (FR x - FR y)) <= bpow radix2 501).
  { apply rnd_bpow_le; [lia|]. change 501%Z with (1 + 500)%Z. rewrite (bpow_plus radix2 1 500). change (bpow radix2 1) with 2. unfold Rminus in *. lra. }
  destruct (fin_sub x y Fx Fy) as (F & E). { eapply Rle_lt_trans; [exact H|]. apply bpow_lt. lia. }
  split; auto. split; auto. split; auto. rewrite E. eapply Rle_trans; [exact H|]. change 501%Z with (1 + 500)%Z. rewrite (bpow_plus radix2 1 500). change (bpow radix2 1) with 2. lra.
Qed.
Lemma small_dot (a b : list fl) : length a = length b -> (Z.of_nat (length a) <= 2 ^ 20)%Z -> Forall small501 a -> Forall small501 b ->
  finite (dot_raw (N:=FNum) a b) /\ Rabs (FR (dot_raw (N:=FNum) a b)) <= IZR (Z.of_nat (length a)) * bpow radix2 1002.
Proof.
  revert b. induction a as [|x a IH]; intros [|y b] L Ln Ha Hb; try discriminate.
  - split; [reflexivity|]. change (FR (dot_raw (N:=FNum) [] [])) with 0. rewrite Rabs_R0. cbn. lra.
  - inversion_clear Ha as [|? ? Hx Ha']. inversion_clear Hb as [|? ? Hy Hb']. cbn [length] in Ln. rewrite Nat2Z.inj_succ in *. destruct (IH b ltac:(simpl in L; lia) ltac:(lia) Ha' Hb') as (Fs & Bs).
    rewrite dot_cons. destruct Hx as (Fx & Hx), Hy as (Fy & Hy).
    assert (P : Rabs (FR x * FR y) <= bpow radix2 1002).
    { rewrite Rabs_mult. change 1002%Z with (501 + 501)%Z. rewrite (bpow_plus radix2 501 501). change 501%Z with (1 + 500)%Z. rewrite (bpow_plus radix2 1 500). change (bpow radix2 1) with 2. apply Rmult_le_compat; auto; apply Rabs_pos. }
    pose proof (rnd_bpow_le _ 1002 ltac:(lia) P) as P'. destruct (fin_mul x y Fx Fy) as (Fm & Em). { eapply Rle_lt_trans; [exact P'|]. apply bpow_lt. lia. }
    set (k := Z.of_nat (length a)) in *. assert (Hk : (0 <= k)%Z) by (unfold k; lia).
    assert (Q : Rabs (rnd (FR (x * y)%float + FR (dot_raw (N:=FNum) a b))) <= IZR (Z.succ k) * bpow radix2 1002).
    { apply rnd_abs_le; [|lia|]. { assert (2 ^ 20 < 2 ^ 53)%Z by reflexivity. lia. } rewrite succ_IZR, Rmult_plus_distr_r, Rmult_1_l, Em. eapply Rle_trans; [apply Rabs_triang|]. lra. }
    destruct (fin_add _ _ Fm Fs) as (F & E).
    { eapply Rle_lt_trans; [exact Q|]. apply Rle_lt_trans with (IZR (2 ^ 20) * bpow radix2 1002). { apply Rmult_le_compat_r; [apply bpow_ge_0|]. apply IZR_le. lia. } change (IZR (2 ^ 20)) with (bpow radix2 20). rewrite <- bpow_plus. apply bpow_lt. lia. }
    split; auto. cbn [length]. rewrite Nat2Z.inj_succ. fold k. rewrite E. exact Q.
Qed.

(** ** Readable bounds *)
Lemma g_bound m : (Z.of_nat m <= 2 ^ 26)%Z -> g m <= (INR m + 1) * uro.
Proof.
  intro H. assert (U : uro = / IZR (2 ^ 53)) by (unfold uro; reflexivity). pose proof uro_pos as Up.
  assert (A : forall k, (k <= m)%nat -> (1 + uro) ^ k <= 1 + INR k * uro + INR k * INR k * (uro * uro)).
  { induction k as [|k IH]; intro Hk; [cbn; lra|]. specialize (IH ltac:(lia)). rewrite S_INR. cbn [pow]. pose proof (pos_INR k) as Pk.
    assert (Hku : INR k * uro <= 1). { rewrite INR_IZR_INZ, U. apply Rmult_le_reg_r with (IZR (2 ^ 53)); [apply IZR_lt; reflexivity|]. rewrite Rmult_assoc, Rinv_l by (apply IZR_neq; discriminate). rewrite <- mult_IZR. rewrite Rmult_1_l. apply IZR_le. lia. }
    set (t := INR k * uro) in *. assert (Tp : 0 <= t) by (unfold t; apply Rmult_le_pos; lra).
    assert (IH' : (1 + uro) ^ k <= 1 + t + t * t) by (eapply Rle_trans; [exact IH|right; unfold t; ring]).
    replace (1 + (INR k + 1) * uro + (INR k + 1) * (INR k + 1) * (uro * uro)) with (1 + (t + uro) + (t + uro) * (t + uro)) by (unfold t; ring).
    assert ((1 + uro) * (1 + uro) ^ k <= (1 + uro) * (1 + t + t * t)) by (apply Rmult_le_compat_l; lra). assert (Ut : 0 <= uro * t) by (apply Rmult_le_pos; lra). assert (uro * t * t <= uro * t * 1) by (apply Rmult_le_compat_l; lra). assert (0 <= uro * uro) by nra. lra. }
  specialize (A m (le_n m)). unfold g. enough (INR m * INR m * (uro * uro) <= uro) by lra.
  enough (INR m * INR m * uro <= 1) by nra. rewrite U, INR_IZR_INZ, <- mult_IZR. apply Rmult_le_reg_r with (IZR (2 ^ 53)); [apply IZR_lt; reflexivity|]. rewrite Rmult_assoc, Rinv_l by (apply IZR_neq; discriminate). rewrite Rmult_1_r, Rmult_1_l. apply IZR_le. nia.
Qed.
Lemma pow_le2 n : (Z.of_nat n <= 2 ^ 20)%Z -> (1 + uro) ^ n <= 2.
Proof.
  intro H. pose proof (g_bound n ltac:(lia)) as G. unfold g in G. enough ((INR n + 1) * uro <= 1) by lra. rewrite INR_IZR_INZ. change uro with (/ IZR (2 ^ 53)). apply Rmult_le_reg_r with (IZR (2 ^ 53)); [apply IZR_lt; reflexivity|].
  rewrite Rmult_assoc, Rinv_l by (apply IZR_neq; discriminate). rewrite <- (plus_IZR _ 1), Rmult_1_l, Rmult_1_r. apply IZR_le. lia.
Qed.
Lemma dn_bound n : (Z.of_nat n <= 2 ^ 20)%Z -> dn n <= bpow radix2 (-1050).
Proof.
  intro H. unfold dn. pose proof (pow_le2 n H). pose proof (pow_ge1 n). pose proof eta_pos. assert (Hn : INR n <= bpow radix2 20) by (rewrite INR_IZR_INZ; change (bpow radix2 20) with (IZR (2 ^ 20)); apply IZR_le; auto).
  pose proof (pos_INR n). change (-1050)%Z with (3 + 20 + 2 + -1075)%Z. rewrite !bpow_plus. unfold eta in *. change (bpow radix2 3) with 8. change (bpow radix2 2) with 4.
  apply Rmult_le_compat_r; [lra|]. assert (INR n * (1 + uro) ^ n <= bpow radix2 20 * 2) by (apply Rmult_le_compat; lra). nra.
Qed.
Lemma tail_bound n : (Z.of_nat n <= 2 ^ 20)%Z -> (1 + uro) * R_sqrt.sqrt (dn n) + eta <= bpow radix2 (-520).
Proof.
  intro H. assert (S : R_sqrt.sqrt (dn n) <= bpow radix2 (-525)).
  { replace (bpow radix2 (-525)) with (R_sqrt.sqrt (bpow radix2 (-1050))); [apply sqrt_le_1_alt, dn_bound; auto|]. change (-1050)%Z with (-525 + -525)%Z. rewrite bpow_plus. apply sqrt_square. apply bpow_ge_0. }
  assert (E : eta <= bpow radix2 (-525)) by (apply bpow_le; lia). pose proof uro_small as (U & U'). pose proof (sqrt_pos (dn n)). change (-520)%Z with (5 + -525)%Z. rewrite bpow_plus. change (bpow radix2 5) with 32. nra.
Qed.
