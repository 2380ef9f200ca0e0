(** * Property C91: Circle.intersect_line in double precision *)
From Coq Require Import String Reals List ZArith Floats Lra Lia Psatz Bool.
From Flocq Require Import Core BinarySingleNaN.
From Flocq Require Import IEEE754.PrimFloat.
From Verif.Model Require Import Outcome Num Instances Numpy BaseArray Vector Points Functions Line Plane Sphere.
From Verif.Spec Require Import Geometry Floats Grid.
From Verif.Proof Require Import VecAlg Bridge Floats FloatErr.
From Verif.Prop Require Import Floats Accuracy Decisions Projections FloatShapes Grid GridCircles SphereHits.
From Verif.Prop Require Balls AnyOrder.
Import ListNotations.
Local Open Scope R_scope.

(** ** Error propagation over the reals *)
Definition rounds (u t z x : R) : Prop := Rabs (z - x) <= u * Rabs x + t.
Lemma rounds_to u t z x X k m : 0 <= u -> rounds u t z x -> Rabs (x - X) <= k -> Rabs x <= m -> Rabs (z - X) <= k + u * m + t.
Proof.
  unfold rounds. intros Hu H1 H2 H3. replace (z - X) with ((z - x) + (x - X)) by ring. eapply Rle_trans; [apply Rabs_triang|]. assert (u * Rabs x <= u * m) by (apply Rmult_le_compat_l; lra). lra.
Qed.
Lemma near x X k m : Rabs (x - X) <= k -> Rabs X <= m -> Rabs x <= k + m.
Proof. intros H1 H2. replace x with ((x - X) + X) by ring. eapply Rle_trans; [apply Rabs_triang|]. lra. Qed.
Lemma prod_err a A b B0 ka kb ma mb : Rabs (a - A) <= ka -> Rabs (b - B0) <= kb -> Rabs a <= ma -> Rabs B0 <= mb -> Rabs (a * b - A * B0) <= ma * kb + mb * ka.
Proof.
  intros H1 H2 H3 H4. replace (a * b - A * B0) with (a * (b - B0) + B0 * (a - A)) by ring. eapply Rle_trans; [apply Rabs_triang|]. rewrite !Rabs_mult.
  assert (Rabs a * Rabs (b - B0) <= ma * kb) by (apply Rmult_le_compat; auto using Rabs_pos). assert (Rabs B0 * Rabs (a - A) <= mb * ka) by (apply Rmult_le_compat; auto using Rabs_pos). lra.
Qed.
Lemma prod_abs a b ma mb : Rabs a <= ma -> Rabs b <= mb -> Rabs (a * b) <= ma * mb.
Proof. intros. rewrite Rabs_mult. apply Rmult_le_compat; auto using Rabs_pos. Qed.
Lemma sum_err a A b B0 ka kb : Rabs (a - A) <= ka -> Rabs (b - B0) <= kb -> Rabs (a + b - (A + B0)) <= ka + kb.
Proof. intros. replace (a + b - (A + B0)) with ((a - A) + (b - B0)) by ring. eapply Rle_trans; [apply Rabs_triang|]. lra. Qed.
Lemma diff_err a A b B0 ka kb : Rabs (a - A) <= ka -> Rabs (b - B0) <= kb -> Rabs (a - b - (A - B0)) <= ka + kb.
Proof. intros. replace (a - b - (A - B0)) with ((a - A) + - (b - B0)) by ring. eapply Rle_trans; [apply Rabs_triang|]. rewrite Rabs_Ropp. lra. Qed.

Section Analysis.
Variables u t B : R.
Hypothesis Hu : 0 < u.
Hypothesis Ht : 0 <= t <= u.
Hypothesis HB : 1 <= B.
Hypothesis HE : u * B <= / 8192.
Notation E := (u * B).
Notation G := (u * (B * B)).
Notation H := (u * (B * B * B)).
Lemma scales : 0 < u /\ u <= E /\ E <= G /\ G <= H /\ G <= / 8192 * B /\ H <= / 8192 * (B * B) /\ 1 <= B /\ B <= B * B /\ B * B <= B * B * B.
Proof.
  assert (b2 : B <= B * B) by nra. assert (b3 : B * B <= B * B * B) by nra.
  split; auto. split; [nra|]. split; [apply Rmult_le_compat_l; lra|]. split; [apply Rmult_le_compat_l; lra|]. split; [replace G with (E * B) by ring; apply Rmult_le_compat_r; lra|]. split; [replace H with (E * (B * B)) by ring; apply Rmult_le_compat_r; lra|]. auto.
Qed.

(** A coordinate of the translated points and of their difference. *)
Lemma coordinate p c ui U P2 t1 t2 d : Rabs p <= B -> Rabs c <= B -> Rabs U <= 1 -> Rabs (ui - U) <= 10 * u -> rounds u t P2 (p + ui) -> rounds u t t1 (p - c) -> rounds u t t2 (P2 - c) -> rounds u t d (t2 - t1) ->
  Rabs (p - c) <= 2 * B /\ Rabs (t1 - (p - c)) <= 3 * E /\ Rabs t1 <= 2.01 * B /\ Rabs t2 <= 3.01 * B /\ Rabs (t2 - t1 - U) <= 24 * E /\ Rabs (d - U) <= 27 * E.
Proof.
  intros Hp Hc HU Hui R1 R2 R3 R4. destruct scales as (S0 & S1 & S2 & S3 & S4 & S5 & S6 & S7 & S8).
  assert (A1 : Rabs (p - c) <= 2 * B) by (unfold Rminus; eapply Rle_trans; [apply Rabs_triang|]; rewrite Rabs_Ropp; lra).
  assert (A2 : Rabs (t1 - (p - c)) <= 3 * E). { pose proof (rounds_to u t t1 (p - c) (p - c) 0 (2 * B) ltac:(lra) R2 ltac:(rewrite Rminus_eq_0, Rabs_R0; lra) A1). lra. }
  assert (A3 : Rabs (p + ui - (p + U)) <= 10 * u) by (replace (p + ui - (p + U)) with (ui - U) by ring; auto).
  assert (A4 : Rabs (p + U) <= 2 * B) by (eapply Rle_trans; [apply Rabs_triang|]; lra). assert (A5 : Rabs (p + ui) <= 2.1 * B) by (pose proof (near _ _ _ _ A3 A4); lra).
  pose proof (rounds_to u t P2 (p + ui) (p + U) _ _ ltac:(lra) R1 A3 A5) as A6.
  assert (A7 : Rabs (P2 - c - (p - c + U)) <= 14 * E). { replace (P2 - c - (p - c + U)) with (P2 - (p + U)) by ring. eapply Rle_trans; [exact A6|]. lra. }
  assert (A8 : Rabs (p - c + U) <= 3 * B) by (eapply Rle_trans; [apply Rabs_triang|]; lra). assert (A9 : Rabs (P2 - c) <= 3.1 * B) by (pose proof (near _ _ _ _ A7 A8); lra).
  pose proof (rounds_to u t t2 (P2 - c) (p - c + U) _ _ ltac:(lra) R3 A7 A9) as A10.
  assert (A11 : Rabs (t2 - t1 - U) <= 24 * E). { replace (t2 - t1 - U) with ((t2 - (p - c + U)) - (t1 - (p - c)) ) by ring. unfold Rminus at 1. eapply Rle_trans; [apply Rabs_triang|]. rewrite Rabs_Ropp. lra. }
  split; auto. split; auto. split; [pose proof (near _ _ _ _ A2 A1); lra|]. split; [pose proof (near _ _ _ _ A10 A8); lra|]. split; auto.
  pose proof (near _ _ _ _ A11 HU) as A12. pose proof (rounds_to u t d (t2 - t1) U _ 2 ltac:(lra) R4 A11 ltac:(lra)). lra.
Qed.
Lemma determinant_err X1 Y1 Ux Uy x1 y1 x2 y2 m1 m2 dt : Rabs X1 <= 2 * B -> Rabs Y1 <= 2 * B -> Rabs Ux <= 1 -> Rabs Uy <= 1 -> Rabs (x1 - X1) <= 3 * E -> Rabs (y1 - Y1) <= 3 * E -> Rabs x1 <= 2.01 * B -> Rabs y1 <= 2.01 * B -> Rabs x2 <= 3.01 * B -> Rabs y2 <= 3.01 * B ->
  Rabs (x2 - x1 - Ux) <= 24 * E -> Rabs (y2 - y1 - Uy) <= 24 * E -> rounds u t m1 (x1 * y2) -> rounds u t m2 (x2 * y1) -> rounds u t dt (m1 - m2) -> Rabs (X1 * Uy - Y1 * Ux) <= 4 * B ->
  Rabs (dt - (X1 * Uy - Y1 * Ux)) <= 124 * G.
Proof.
  intros HX HY HUx HUy Hx Hy Bx By Bx2 By2 Dx Dy R1 R2 R3 BD. destruct scales as (S0 & S1 & S2 & S3 & S4 & S5 & S6 & S7 & S8). set (D := X1 * Uy - Y1 * Ux) in *.
  pose proof (prod_err x1 X1 (y2 - y1) Uy _ _ _ _ Hx Dy Bx HUy) as P1. pose proof (prod_err y1 Y1 (x2 - x1) Ux _ _ _ _ Hy Dx By HUx) as P2.
  assert (P3 : Rabs (x1 * y2 - x2 * y1 - D) <= 103 * G). { replace (x1 * y2 - x2 * y1 - D) with ((x1 * (y2 - y1) - X1 * Uy) - (y1 * (x2 - x1) - Y1 * Ux)) by (unfold D; ring). unfold Rminus at 1. eapply Rle_trans; [apply Rabs_triang|]. rewrite Rabs_Ropp.
    replace (2.01 * B * (24 * E)) with (48.24 * G) in * by lra. lra. }
  pose proof (prod_abs _ _ _ _ Bx By2) as Q1. pose proof (prod_abs _ _ _ _ Bx2 By) as Q2.
  assert (Q1' : Rabs (x1 * y2) <= 6.1 * (B * B)) by (eapply Rle_trans; [exact Q1|]; lra). assert (Q2' : Rabs (x2 * y1) <= 6.1 * (B * B)) by (eapply Rle_trans; [exact Q2|]; lra).
  pose proof (rounds_to u t m1 _ (x1 * y2) 0 _ ltac:(lra) R1 ltac:(rewrite Rminus_eq_0, Rabs_R0; lra) Q1') as M1. pose proof (rounds_to u t m2 _ (x2 * y1) 0 _ ltac:(lra) R2 ltac:(rewrite Rminus_eq_0, Rabs_R0; lra) Q2') as M2.
  assert (M3 : Rabs (m1 - m2 - D) <= 118 * G). { replace (m1 - m2 - D) with ((m1 - x1 * y2) - (m2 - x2 * y1) + (x1 * y2 - x2 * y1 - D)) by ring. eapply Rle_trans; [apply Rabs_triang|]. unfold Rminus at 1. pose proof (Rabs_triang (m1 - x1 * y2) (- (m2 - x2 * y1))) as T. rewrite Rabs_Ropp in T. lra. }
  pose proof (near _ _ _ _ M3 BD) as M4. pose proof (rounds_to u t dt _ D _ (4.1 * B) ltac:(lra) R3 M3 ltac:(lra)). lra.
Qed.
Lemma length_err Ux Uy dx dy xx yy q : Ux * Ux + Uy * Uy = 1 -> Rabs Ux <= 1 -> Rabs Uy <= 1 -> Rabs (dx - Ux) <= 27 * E -> Rabs (dy - Uy) <= 27 * E -> rounds u t xx (dx * dx) -> rounds u t yy (dy * dy) -> rounds u t q (xx + yy) -> Rabs (q - 1) <= 122 * E.
Proof.
  intros EU HUx HUy Hx Hy R1 R2 R3. destruct scales as (S0 & S1 & S2 & S3 & S4 & S5 & S6 & S7 & S8).
  assert (K : forall d U z, Rabs U <= 1 -> Rabs (d - U) <= 27 * E -> rounds u t z (d * d) -> Rabs (z - U * U) <= 58 * E).
  { intros d U z HU Hd R. pose proof (near _ _ _ _ Hd HU) as N. pose proof (prod_err d U d U _ _ _ _ Hd Hd ltac:(assert (Rabs d <= 1.01) by lra; eassumption) HU) as P. pose proof (prod_abs d d 1.01 1.01 ltac:(lra) ltac:(lra)) as P'.
    pose proof (rounds_to u t z (d * d) (U * U) _ _ ltac:(lra) R P P'). lra. }
  pose proof (sum_err _ _ _ _ _ _ (K dx Ux xx HUx Hx R1) (K dy Uy yy HUy Hy R2)) as S. rewrite EU in S. pose proof (near _ 1 _ 1 S ltac:(rewrite Rabs_R1; lra)) as N.
  pose proof (rounds_to u t q (xx + yy) 1 _ 1.1 ltac:(lra) R3 S ltac:(lra)). lra.
Qed.
Lemma discriminant_err r D dt q rr s dd dc : 0 <= r <= B -> Rabs D <= 3 * B -> Rabs (dt - D) <= 124 * G -> Rabs (q - 1) <= 122 * E -> rounds u t rr (r * r) -> rounds u t s (rr * q) -> rounds u t dd (dt * dt) -> rounds u t dc (s - dd) ->
  Rabs (dc - (r * r - D * D)) <= 1024 * H.
Proof.
  intros Hr HD Hdt Hq R1 R2 R3 R4. destruct scales as (S0 & S1 & S2 & S3 & S4 & S5 & S6 & S7 & S8).
  assert (rB : Rabs (r * r) <= B * B) by (rewrite Rabs_pos_eq by nra; apply Rmult_le_compat; lra).
  pose proof (rounds_to u t rr (r * r) (r * r) 0 _ ltac:(lra) R1 ltac:(rewrite Rminus_eq_0, Rabs_R0; lra) rB) as A1.
  assert (A1' : Rabs (rr - r * r) <= 2 * G) by lra. pose proof (near _ _ _ _ A1' rB) as A2. assert (A2' : Rabs rr <= 1.001 * (B * B)) by lra.
  pose proof (prod_err rr (r * r) q 1 _ _ _ _ A1' Hq A2' ltac:(rewrite Rabs_R1; apply Rle_refl)) as A3. rewrite Rmult_1_r in A3.
  assert (A3' : Rabs (rr * q - r * r) <= 125 * H) by (eapply Rle_trans; [exact A3|]; lra). pose proof (near _ _ _ _ A3' rB) as A4.
  pose proof (rounds_to u t s _ _ _ (1.1 * (B * B)) ltac:(lra) R2 A3' ltac:(lra)) as A5. assert (A5' : Rabs (s - r * r) <= 128 * H) by lra.
  pose proof (near _ _ _ _ Hdt HD) as B1. assert (B1' : Rabs dt <= 3.02 * B) by lra.
  pose proof (prod_err dt D dt D _ _ _ _ Hdt Hdt B1' HD) as B2. assert (B2' : Rabs (dt * dt - D * D) <= 750 * H) by (eapply Rle_trans; [exact B2|]; lra).
  pose proof (prod_abs dt dt _ _ B1' B1') as B3. pose proof (rounds_to u t dd _ _ _ (9.2 * (B * B)) ltac:(lra) R3 B2' ltac:(eapply Rle_trans; [exact B3|]; lra)) as B4. assert (B4' : Rabs (dd - D * D) <= 761 * H) by lra.
  pose proof (diff_err _ _ _ _ _ _ A5' B4') as C1.
  assert (C2 : Rabs (r * r - D * D) <= 10 * (B * B)). { pose proof (prod_abs D D _ _ HD HD) as T. unfold Rminus. eapply Rle_trans; [apply Rabs_triang|]. rewrite Rabs_Ropp. lra. }
  pose proof (near _ _ _ _ C1 C2) as C3. pose proof (rounds_to u t dc _ _ _ (10.2 * (B * B)) ltac:(lra) R4 C1 ltac:(lra)). lra.
Qed.
(** A coordinate of a returned point: [dt * d1 + sd * root], divided by [q], plus [c]. *)
Lemma hit_err2 D U1 U2 sg h dt d1 d2 q dc root m3 m4 nm z c x e : Rabs D <= 3 * B -> Rabs U1 <= 1 -> Rabs U2 <= 1 -> (sg = 1 \/ sg = -1) -> 0 < h <= B -> e = H / h -> 1024 * e < h -> Rabs (D * U1 + sg * U2 * h) <= B -> Rabs c <= B ->
  Rabs (dt - D) <= 124 * G -> Rabs (d1 - U1) <= 27 * E -> Rabs (d2 - U2) <= 27 * E -> Rabs (q - 1) <= 122 * E -> 0 <= dc -> Rabs (dc - h * h) <= 1024 * H -> rounds u t root (R_sqrt.sqrt dc) ->
  rounds u t m3 (dt * d1) -> rounds u t m4 (sg * d2 * root) -> rounds u t nm (m3 + m4) -> rounds u t z (nm / q) -> rounds u t x (z + c) ->
  Rabs (x - (c + (D * U1 + sg * U2 * h))) <= 2048 * e.
Proof.
  intros HD HU1 HU2 Hsg Hh He Heh HN Hc Hdt Hd1 Hd2 Hq Hdc0 Hdc R1 R2 R3 R4 R5 R6. destruct scales as (S0 & S1 & S2 & S3 & S4 & S5 & S6 & S7 & S8).
  assert (As : Rabs sg = 1) by (unfold Rabs; destruct (Rcase_abs sg); lra).
  assert (Ge : G <= e). { rewrite He. apply Rmult_le_reg_r with h; [lra|]. replace (H / h * h) with (G * B) by (field; lra). apply Rmult_le_compat_l; lra. }
  assert (Q1 : Rabs (R_sqrt.sqrt dc - h) <= 1024 * e). { eapply Rle_trans; [apply (sqrt_close h (h * h) dc _ ltac:(lra) eq_refl Hdc0 Hdc)|]. right. rewrite He. field. lra. }
  pose proof (near _ _ _ h Q1 ltac:(rewrite Rabs_pos_eq; lra)) as Q2. pose proof (rounds_to u t root _ h _ (2 * B) ltac:(lra) R1 Q1 ltac:(lra)) as Q3. assert (Q3' : Rabs (root - h) <= 1027 * e) by lra.
  pose proof (near _ _ _ _ Hdt HD) as B1. assert (B1' : Rabs dt <= 3.02 * B) by lra.
  pose proof (prod_err dt D d1 U1 _ _ _ _ Hdt Hd1 B1' HU1) as P1. assert (P1' : Rabs (dt * d1 - D * U1) <= 206 * e) by (eapply Rle_trans; [exact P1|]; lra).
  pose proof (prod_abs _ _ _ _ HD HU1) as P2. pose proof (near _ _ _ _ P1' P2) as P3. pose proof (rounds_to u t m3 _ _ _ (4 * B) ltac:(lra) R2 P1' ltac:(lra)) as P4. assert (P4' : Rabs (m3 - D * U1) <= 211 * e) by lra.
  assert (V1 : Rabs (sg * d2 - sg * U2) <= 27 * E) by (replace (sg * d2 - sg * U2) with (sg * (d2 - U2)) by ring; rewrite Rabs_mult, As; lra).
  assert (V2 : Rabs (sg * U2) <= 1) by (rewrite Rabs_mult, As; lra). pose proof (near _ _ _ _ V1 V2) as V3. assert (V3' : Rabs (sg * d2) <= 1.004) by lra.
  pose proof (prod_err (sg * d2) (sg * U2) root h _ _ _ B V1 Q3' V3' ltac:(rewrite Rabs_pos_eq; lra)) as W1. assert (W1' : Rabs (sg * d2 * root - sg * U2 * h) <= 1059 * e) by (eapply Rle_trans; [exact W1|]; lra).
  pose proof (prod_abs _ _ _ B V2 ltac:(rewrite Rabs_pos_eq; [apply Hh|lra])) as W2. pose proof (near _ _ _ _ W1' W2) as W3. pose proof (rounds_to u t m4 _ _ _ (3 * B) ltac:(lra) R3 W1' ltac:(lra)) as W4. assert (W4' : Rabs (m4 - sg * U2 * h) <= 1063 * e) by lra.
  pose proof (sum_err _ _ _ _ _ _ P4' W4') as T1. pose proof (near _ _ _ _ T1 HN) as T2. pose proof (rounds_to u t nm _ _ _ (3 * B) ltac:(lra) R4 T1 ltac:(lra)) as T3. set (N := D * U1 + sg * U2 * h) in *. assert (T3' : Rabs (nm - N) <= 1278 * e) by lra.
  assert (q0 : 0.985 <= q) by (apply Rabs_le_inv in Hq; lra).
  assert (T4 : Rabs (nm / q - N) <= 1424 * e).
  { apply Rmult_le_reg_r with q; [lra|]. rewrite <- (Rabs_pos_eq q) at 2 by lra. rewrite <- Rabs_mult. replace ((nm / q - N) * q) with ((nm - N) - N * (q - 1)) by (field; lra). unfold Rminus at 1. eapply Rle_trans; [apply Rabs_triang|]. rewrite Rabs_Ropp.
    pose proof (prod_abs _ _ _ _ HN Hq) as X. replace (B * (122 * E)) with (122 * G) in X by ring. assert (1424 * e * 0.985 <= 1424 * e * q) by (apply Rmult_le_compat_l; lra). lra. }
  pose proof (near _ _ _ _ T4 HN) as T5. pose proof (rounds_to u t z _ _ _ (3 * B) ltac:(lra) R5 T4 ltac:(lra)) as T6. assert (T6' : Rabs (z - N) <= 1428 * e) by lra.
  assert (T7 : Rabs (z + c - (c + N)) <= 1428 * e) by (replace (z + c - (c + N)) with (z - N) by ring; exact T6').
  assert (T8 : Rabs (c + N) <= 2 * B) by (eapply Rle_trans; [apply Rabs_triang|]; lra). pose proof (near _ _ _ _ T7 T8) as T9. pose proof (rounds_to u t x _ _ _ (4 * B) ltac:(lra) R6 T7 ltac:(lra)). lra.
Qed.
End Analysis.

(** ** The intermediate quantities in doubles *)
Lemma rnd_rounds x : rounds uro eta (rnd x) x.
Proof. unfold rounds. apply rnd_err. Qed.
Definition big (B : R) (x : flt) : Prop := finite x /\ Rabs (FR x) <= B.
Lemma big_within B x : B <= bpow radix2 40 -> big B x -> within 40 x.
Proof. intros H (F & G). split; auto. lra. Qed.
Lemma unit_scale B : 1 <= B <= bpow radix2 40 -> uro * B <= / 8192.
Proof. intros (_ & H). replace (/ 8192) with (bpow radix2 (-53) * bpow radix2 40) by (rewrite <- bpow_plus; simpl; lra). apply Rmult_le_compat_l; [apply bpow_ge_0|exact H]. Qed.
Lemma eta_uro : 0 <= eta <= uro.
Proof. split; [pose proof eta_pos; lra|]. apply bpow_le. lia. Qed.

(** The quantities computed before the decision, for a line point [p], computed unit direction [w], centre [c] and radius [r]. *)
Definition shift (p w c : flt) : flt := ((p + w) - c)%float.
Definition delta (p w c : flt) : flt := (shift p w c - (p - c))%float.
Lemma delta_F B (p w c : flt) U : 1 <= B <= bpow radix2 40 -> big B p -> big B c -> within 1 w -> Rabs U <= 1 -> Rabs (FR w - U) <= 10 * uro ->
  within 41 (p + w)%float /\ within 41 (p - c)%float /\ within 42 (shift p w c) /\ within 43 (delta p w c) /\
  Rabs (FR p - FR c) <= 2 * B /\ Rabs (FR (p - c)%float - (FR p - FR c)) <= 3 * (uro * B) /\ Rabs (FR (p - c)%float) <= 2.01 * B /\ Rabs (FR (shift p w c)) <= 3.01 * B /\
  Rabs (FR (shift p w c) - FR (p - c)%float - U) <= 24 * (uro * B) /\ Rabs (FR (delta p w c) - U) <= 27 * (uro * B) /\ (FR w = 0 -> FR (delta p w c) = 0).
Proof.
  intros HB Hp Hc Hw HU Hd. pose proof (big_within B p (proj2 HB) Hp) as Wp. pose proof (big_within B c (proj2 HB) Hc) as Wc.
  destruct (within_add 40 p w ltac:(lia) Wp (within_le 1 40 w ltac:(lia) Hw)) as (W1 & E1). destruct (within_sub 40 p c ltac:(lia) Wp Wc) as (W2 & E2).
  destruct (within_sub 41 (p + w) c ltac:(lia) W1 (within_le 40 41 c ltac:(lia) Wc)) as (W3 & E3). fold (shift p w c) in W3, E3. destruct (within_sub 42 (shift p w c) (p - c) ltac:(lia) W3 (within_le 41 42 _ ltac:(lia) W2)) as (W4 & E4). fold (delta p w c) in W4, E4.
  split; [exact W1|]. split; [exact W2|]. split; [exact W3|]. split; [exact W4|].
  destruct (coordinate uro eta B uro_pos eta_uro (proj1 HB) (unit_scale B HB) (FR p) (FR c) (FR w) U (FR (p + w)%float) (FR (p - c)%float) (FR (shift p w c)) (FR (delta p w c)) (proj2 Hp) (proj2 Hc) HU Hd) as (A1 & A2 & A3 & A4 & A5 & A6); [rewrite E1; apply rnd_rounds|rewrite E2; apply rnd_rounds|rewrite E3; apply rnd_rounds|rewrite E4; apply rnd_rounds|].
  split; [exact A1|]. split; [exact A2|]. split; [exact A3|]. split; [exact A4|]. split; [exact A5|]. split; [exact A6|].
  intro Z. rewrite E4, E3, E1, E2, Z, Rplus_0_r, (rnd_FR p (proj1 Hp)), Rminus_eq_0. unfold rnd. apply round_0. apply valid_rnd_N.
Qed.

Section Quantities.
Variables (B : R) (px py cx cy wx wy r : flt) (Ux Uy : R).
Hypothesis HB : 1 <= B <= bpow radix2 40.
Hypothesis Hpx : big B px.
Hypothesis Hpy : big B py.
Hypothesis Hcx : big B cx.
Hypothesis Hcy : big B cy.
Hypothesis Hr : big B r.
Hypothesis r0 : 0 < FR r.
Hypothesis Wx : within 1 wx.
Hypothesis Wy : within 1 wy.
Hypothesis EU : Ux * Ux + Uy * Uy = 1.
Hypothesis Dx : Rabs (FR wx - Ux) <= 10 * uro.
Hypothesis Dy : Rabs (FR wy - Uy) <= 10 * uro.
Let dx := delta px wx cx.
Let dy := delta py wy cy.
Definition sqlen_F : flt := (delta px wx cx * delta px wx cx + delta py wy cy * delta py wy cy)%float.
Definition det_F : flt := ((px - cx) * shift py wy cy - shift px wx cx * (py - cy))%float.
Definition disc2_F : flt := (r * r * sqlen_F - det_F * det_F)%float.
Let D := (FR px - FR cx) * Uy - (FR py - FR cy) * Ux.
Lemma U_le : Rabs Ux <= 1 /\ Rabs Uy <= 1.
Proof. split; apply Rsqr_incr_0; unfold Rsqr; try lra; try apply Rabs_pos; rewrite <- Rabs_mult, Rabs_pos_eq; nra. Qed.
Lemma D_le : Rabs D <= 3 * B.
Proof.
  assert (K : forall a b : flt, big B a -> big B b -> (FR a - FR b) * (FR a - FR b) <= 4 * (B * B)).
  { intros a b (_ & Ha) (_ & Hb). assert (Rabs (FR a - FR b) <= 2 * B) by (unfold Rminus; eapply Rle_trans; [apply Rabs_triang|]; rewrite Rabs_Ropp; lra). pose proof (prod_abs _ _ _ _ H H) as Q. rewrite Rabs_pos_eq in Q by apply Rle_0_sqr. lra. }
  pose proof (K px cx Hpx Hcx) as K1. pose proof (K py cy Hpy Hcy) as K2. set (X := FR px - FR cx) in *. set (Y := FR py - FR cy) in *.
  apply Rsqr_incr_0; unfold Rsqr; [|apply Rabs_pos|lra]. rewrite <- Rabs_mult, Rabs_pos_eq by apply Rle_0_sqr.
  assert (D * D <= (X * X + Y * Y) * (Ux * Ux + Uy * Uy)). { unfold D. fold X Y. pose proof (Rle_0_sqr (X * Ux + Y * Uy)) as Q. unfold Rsqr in Q. lra. } rewrite EU in H. nra.
Qed.
Lemma quantities2 : within 43 dx /\ within 43 dy /\ within 87 sqlen_F /\ within 84 det_F /\ within 169 disc2_F /\
  Rabs (FR dx - Ux) <= 27 * (uro * B) /\ Rabs (FR dy - Uy) <= 27 * (uro * B) /\ Rabs (FR sqlen_F - 1) <= 122 * (uro * B) /\ Rabs (FR det_F - D) <= 124 * (uro * (B * B)) /\ Rabs (FR disc2_F - (FR r * FR r - D * D)) <= 1024 * (uro * (B * B * B)).
Proof.
  destruct U_le as (UX & UY). pose proof D_le as DB. pose proof (unit_scale B HB) as SB. pose proof (proj1 HB) as B1.
  destruct (delta_F B px wx cx Ux HB Hpx Hcx Wx UX Dx) as (X1 & X2 & X3 & X4 & X5 & X6 & X7 & X8 & X9 & X10 & _). destruct (delta_F B py wy cy Uy HB Hpy Hcy Wy UY Dy) as (Y1 & Y2 & Y3 & Y4 & Y5 & Y6 & Y7 & Y8 & Y9 & Y10 & _).
  fold dx in X4, X10. fold dy in Y4, Y10.
  destruct (within_mul 43 43 dx dx ltac:(lia) X4 X4) as (V1 & F1). destruct (within_mul 43 43 dy dy ltac:(lia) Y4 Y4) as (V2 & F2). destruct (within_add 86 (dx * dx) (dy * dy) ltac:(lia) V1 V2) as (V3 & F3). fold dx dy in V3, F3. change (dx * dx + dy * dy)%float with sqlen_F in V3, F3.
  destruct (within_mul 41 42 (px - cx) (shift py wy cy) ltac:(lia) X2 Y3) as (V4 & F4). destruct (within_mul 42 41 (shift px wx cx) (py - cy) ltac:(lia) X3 Y2) as (V5 & F5). destruct (within_sub 83 _ _ ltac:(lia) V4 V5) as (V6 & F6). change ((px - cx) * shift py wy cy - shift px wx cx * (py - cy))%float with det_F in V6, F6.
  pose proof (big_within B r (proj2 HB) Hr) as Wr. destruct (within_mul 40 40 r r ltac:(lia) Wr Wr) as (V7 & F7). destruct (within_mul 80 87 (r * r) sqlen_F ltac:(lia) V7 V3) as (V8 & F8). destruct (within_mul 84 84 det_F det_F ltac:(lia) V6 V6) as (V9 & F9).
  destruct (within_sub 168 (r * r * sqlen_F) (det_F * det_F) ltac:(lia) (within_le 167 168 _ ltac:(lia) V8) V9) as (V10 & F10). fold disc2_F in V10, F10.
  split; [exact X4|]. split; [exact Y4|]. split; [exact V3|]. split; [exact V6|]. split; [exact V10|]. split; [exact X10|]. split; [exact Y10|].
  pose proof (length_err uro eta B uro_pos eta_uro B1 SB Ux Uy (FR dx) (FR dy) (FR (dx * dx)%float) (FR (dy * dy)%float) (FR sqlen_F) EU UX UY X10 Y10 ltac:(rewrite F1; apply rnd_rounds) ltac:(rewrite F2; apply rnd_rounds) ltac:(rewrite F3; apply rnd_rounds)) as G1. split; [exact G1|].
  pose proof (determinant_err uro eta B uro_pos eta_uro B1 SB (FR px - FR cx) (FR py - FR cy) Ux Uy _ _ _ _ (FR ((px - cx) * shift py wy cy)%float) (FR (shift px wx cx * (py - cy))%float) (FR det_F) X5 Y5 UX UY X6 Y6 X7 Y7 X8 Y8 X9 Y9 ltac:(rewrite F4; apply rnd_rounds) ltac:(rewrite F5; apply rnd_rounds) ltac:(rewrite F6; apply rnd_rounds) ltac:(fold D; lra)) as G2. fold D in G2. split; [exact G2|].
  assert (rB : 0 <= FR r <= B) by (destruct Hr as (_ & Q); apply Rabs_le_inv in Q; lra).
  exact (discriminant_err uro eta B uro_pos eta_uro B1 SB (FR r) D (FR det_F) (FR sqlen_F) (FR (r * r)%float) (FR (r * r * sqlen_F)%float) (FR (det_F * det_F)%float) (FR disc2_F) rB DB G2 G1 ltac:(rewrite F7; apply rnd_rounds) ltac:(rewrite F8; apply rnd_rounds) ltac:(rewrite F9; apply rnd_rounds) ltac:(rewrite F10; apply rnd_rounds)).
Qed.
End Quantities.

(** The last operations on one coordinate. *)
Definition hit_F (a d1 s root q c : flt) : flt := ((a * d1 + s * root) / q + c)%float.
Lemma hit_rounds a d1 s root q c : within 84 a -> within 43 d1 -> within 43 s -> within 85 root -> within 40 c -> / 2 <= FR q ->
  finite (a * d1 + s * root)%float /\ finite ((a * d1 + s * root) / q)%float /\ finite (hit_F a d1 s root q c) /\
  exists m3 m4 nm z, rounds uro eta m3 (FR a * FR d1) /\ rounds uro eta m4 (FR s * FR root) /\ rounds uro eta nm (m3 + m4) /\ rounds uro eta z (nm / FR q) /\ rounds uro eta (FR (hit_F a d1 s root q c)) (z + FR c).
Proof.
  intros Wa Wd Ws Wr Wc Hq. destruct (within_mul 84 43 a d1 ltac:(lia) Wa Wd) as (V1 & F1). destruct (within_mul 43 85 s root ltac:(lia) Ws Wr) as (V2 & F2). destruct (within_add 128 _ _ ltac:(lia) (within_le 127 128 _ ltac:(lia) V1) V2) as (V3 & F3).
  destruct (within_div 129 (-1) _ q ltac:(lia) V3 ltac:(simpl; lra)) as (V4 & F4). destruct (within_add 130 _ c ltac:(lia) V4 (within_le 40 130 _ ltac:(lia) Wc)) as (V5 & F5). fold (hit_F a d1 s root q c) in V5, F5.
  split; [apply V3|]. split; [apply V4|]. split; [apply V5|]. eexists. eexists. eexists. eexists. split; [apply rnd_rounds|]. split; [apply rnd_rounds|]. rewrite <- F1, <- F2. split; [apply rnd_rounds|]. rewrite <- F3. split; [apply rnd_rounds|]. rewrite <- F4, F5. apply rnd_rounds.
Qed.
Lemma pm_mul k (s x : flt) : (0 <= k <= 1000)%Z -> within 0 s -> (FR s = 1 \/ FR s = -1) -> within k x -> within k (s * x)%float /\ FR (s * x)%float = FR s * FR x.
Proof.
  intros Hk Ws Es Wx. destruct (within_mul 0 k s x ltac:(lia) Ws Wx) as (W & E). split; [exact W|]. rewrite E. destruct Es as [-> | ->]; [rewrite Rmult_1_l; apply rnd_FR; apply Wx|]. replace (-1 * FR x) with (- FR x) by ring. rewrite rnd_opp, rnd_FR by apply Wx. reflexivity.
Qed.

(** One of the two returned points. *)
Lemma point_hit B (px py cx cy wx wy r mp sign root : flt) (Ux Uy h : R) : 1 <= B <= bpow radix2 40 -> big B px -> big B py -> big B cx -> big B cy -> big B r -> 0 < FR r -> within 1 wx -> within 1 wy -> Ux * Ux + Uy * Uy = 1 -> Rabs (FR wx - Ux) <= 10 * uro -> Rabs (FR wy - Uy) <= 10 * uro ->
  let D := (FR px - FR cx) * Uy - (FR py - FR cy) * Ux in let dx := delta px wx cx in let dy := delta py wy cy in let dt := det_F px py cx cy wx wy in let q := sqlen_F px py cx cy wx wy in let dc := disc2_F px py cx cy wx wy r in
  0 < h -> h * h = FR r * FR r - D * D -> 1024 * (uro * (B * B * B)) < h * h -> root = PrimFloat.sqrt dc -> within 85 root ->
  within 0 mp -> (FR mp = 1 \/ FR mp = -1) -> within 0 sign -> (FR sign = 1 \/ FR sign = -1) -> Rabs (FR dy) = FR sign * FR dy ->
  let X := hit_F dt dy (mp * sign * dx) root q cx in let Y := hit_F (- dt) dx (mp * PrimFloat.abs dy) root q cy in let sg := FR mp * FR sign in
  finite ((dt * dy + mp * sign * dx * root) / q)%float /\ finite ((- dt * dx + mp * PrimFloat.abs dy * root) / q)%float /\ finite X /\ finite Y /\
  Rabs (FR X - (FR cx + (D * Uy + sg * Ux * h))) <= 2048 * (uro * (B * B * B) / h) /\ Rabs (FR Y - (FR cy + (- D * Ux + sg * Uy * h))) <= 2048 * (uro * (B * B * B) / h).
Proof.
  intros HB Hpx Hpy Hcx Hcy Hr r0 Wx Wy EU Dx Dy D dx dy dt q dc Hh Hhh Hbig Eroot Wroot Wmp Emp Wsg Esg Eabs X Y sg.
  destruct (quantities2 B px py cx cy wx wy r Ux Uy HB Hpx Hpy Hcx Hcy Hr r0 Wx Wy EU Dx Dy) as (Q1 & Q2 & Q3 & Q4 & Q5 & A1 & A2 & A3 & A4 & A5). cbv zeta in *. fold dx in Q1, A1. fold dy in Q2, A2. fold q in Q3, A3. fold dt in Q4, A4. fold dc in Q5, A5. fold D in A4, A5.
  destruct (U_le Ux Uy EU) as (UX & UY). pose proof (D_le B px py cx cy Ux Uy HB Hpx Hpy Hcx Hcy EU) as DB. fold D in DB. pose proof (unit_scale B HB) as SB. pose proof (proj1 HB) as B1.
  assert (q0 : / 2 <= FR q) by (apply Rabs_le_inv in A3; lra).
  assert (dc0 : 0 < FR dc) by (rewrite <- Hhh in A5; apply Rabs_le_inv in A5; lra). destruct (fin_sqrt dc (proj1 Q5) (or_introl dc0)) as (_ & Es). rewrite <- Eroot in Es.
  destruct (pm_mul 0 mp sign ltac:(lia) Wmp Emp Wsg) as (Wms & Ems). fold sg in Ems. assert (Esg' : sg = 1 \/ sg = -1) by (unfold sg; destruct Emp as [-> | ->]; destruct Esg as [-> | ->]; lra).
  destruct (pm_mul 43 (mp * sign) dx ltac:(lia) Wms ltac:(rewrite Ems; exact Esg') Q1) as (Wsx & Esx). rewrite Ems in Esx.
  assert (Way : within 43 (PrimFloat.abs dy)) by (split; [apply abs_finite; apply Q2|rewrite abs_F, Rabs_Rabsolu; apply Q2]).
  destruct (pm_mul 43 mp (PrimFloat.abs dy) ltac:(lia) Wmp Emp Way) as (Wsy & Esy). rewrite abs_F, Eabs, <- Rmult_assoc in Esy. fold sg in Esy.
  assert (Wnd : within 84 (- dt)%float) by (split; [apply opp_finite; apply Q4|rewrite opp_F, Rabs_Ropp; apply Q4]).
  destruct (hit_rounds dt dy (mp * sign * dx) root q cx Q4 Q2 Wsx Wroot (big_within B cx (proj2 HB) Hcx) q0) as (_ & FX1 & FX2 & m3 & m4 & nm & z & R1 & R2 & R3 & R4 & R5). fold X in FX2, R5.
  destruct (hit_rounds (- dt)%float dx (mp * PrimFloat.abs dy) root q cy Wnd Q1 Wsy Wroot (big_within B cy (proj2 HB) Hcy) q0) as (_ & FY1 & FY2 & m3' & m4' & nm' & z' & R1' & R2' & R3' & R4' & R5'). fold Y in FY2, R5'. rewrite opp_F in R1'. rewrite Esx in R2. rewrite Esy in R2'.
  split; [exact FX1|]. split; [exact FY1|]. split; [exact FX2|]. split; [exact FY2|].
  assert (rB : FR r <= B) by (destruct Hr as (_ & Q); apply Rabs_le_inv in Q; lra). assert (hr : h <= FR r) by (apply Rsqr_incr_0; unfold Rsqr; [pose proof (Rle_0_sqr D) as T; unfold Rsqr in T|lra|lra]; lra).
  assert (Heh : 1024 * (uro * (B * B * B) / h) < h). { apply Rmult_lt_reg_r with h; [lra|]. replace (1024 * (uro * (B * B * B) / h) * h) with (1024 * (uro * (B * B * B))) by (field; lra). exact Hbig. }
  assert (s2 : sg * sg = 1) by (destruct Esg' as [-> | ->]; ring).
  assert (ON : (D * Uy + sg * Ux * h) * (D * Uy + sg * Ux * h) + (- D * Ux + sg * Uy * h) * (- D * Ux + sg * Uy * h) = FR r * FR r).
  { transitivity ((D * D + (sg * sg) * (h * h)) * (Ux * Ux + Uy * Uy)); [ring|]. rewrite EU, s2, Hhh. ring. }
  assert (rr : FR r * FR r <= B * B) by (apply Rmult_le_compat; lra).
  assert (N1 : Rabs (D * Uy + sg * Ux * h) <= B). { apply Rsqr_incr_0; unfold Rsqr; [|apply Rabs_pos|lra]. rewrite <- Rabs_mult, Rabs_pos_eq by apply Rle_0_sqr. pose proof (Rle_0_sqr (- D * Ux + sg * Uy * h)) as T. unfold Rsqr in T. lra. }
  assert (N2 : Rabs (- D * Ux + sg * Uy * h) <= B). { apply Rsqr_incr_0; unfold Rsqr; [|apply Rabs_pos|lra]. rewrite <- Rabs_mult, Rabs_pos_eq by apply Rle_0_sqr. pose proof (Rle_0_sqr (D * Uy + sg * Ux * h)) as T. unfold Rsqr in T. lra. }
  rewrite <- Hhh in A5. assert (Rrt : rounds uro eta (FR root) (R_sqrt.sqrt (FR dc))) by (rewrite Es; apply rnd_rounds). assert (dc0' : 0 <= FR dc) by lra.
  split.
  - exact (hit_err2 uro eta B uro_pos eta_uro B1 SB D Uy Ux sg h (FR dt) (FR dy) (FR dx) (FR q) (FR dc) (FR root) m3 m4 nm z (FR cx) (FR X) _ DB UY UX Esg' (conj Hh (Rle_trans _ _ _ hr rB)) eq_refl Heh N1 (proj2 Hcx) A4 A2 A1 A3 dc0' A5 Rrt R1 R2 R3 R4 R5).
  - assert (DB' : Rabs (- D) <= 3 * B) by (rewrite Rabs_Ropp; exact DB). assert (A4' : Rabs (- FR dt - - D) <= 124 * (uro * (B * B))) by (replace (- FR dt - - D) with (- (FR dt - D)) by ring; rewrite Rabs_Ropp; exact A4).
    exact (hit_err2 uro eta B uro_pos eta_uro B1 SB (- D) Ux Uy sg h (- FR dt) (FR dx) (FR dy) (FR q) (FR dc) (FR root) m3' m4' nm' z' (FR cy) (FR Y) _ DB' UX UY Esg' (conj Hh (Rle_trans _ _ _ hr rB)) eq_refl Heh N2 (proj2 Hcy) A4' A1 A2 A3 dc0' A5 Rrt R1' R2' R3' R4' R5').
Qed.

(** ** The exact intersection points *)
Lemma chord2 cx cy px py vx vy K (fo : pt) (r h : R) : 0 < K -> K * K = vx * vx + vy * vy -> on_line [px; py] [vx; vy] fo -> dot (sub [cx; cy] fo) [vx; vy] = 0 -> 0 < r ->
  let Ux := vx / K in let Uy := vy / K in let D := (px - cx) * Uy - (py - cy) * Ux in
  Ux * Ux + Uy * Uy = 1 /\ dist [cx; cy] fo * dist [cx; cy] fo = D * D /\
  (h * h = r * r - D * D -> forall sg, (sg = 1 \/ sg = -1) -> let X := [cx + (D * Uy + sg * Ux * h); cy + (- D * Ux + sg * Uy * h)] in on_line [px; py] [vx; vy] X /\ on_sphere [cx; cy] r X) /\
  (0 < h -> forall sg, (sg = 1 \/ sg = -1) -> dot (sub [cx + (D * Uy + sg * Ux * h); cy + (- D * Ux + sg * Uy * h)] [cx + (D * Uy + - sg * Ux * h); cy + (- D * Ux + - sg * Uy * h)]) [vx; vy] = sg * (2 * h * K)).
Proof.
  intros HK KK (s & ->) Hf Hr Ux Uy D. assert (Ex : vx = K * Ux) by (unfold Ux; field; lra). assert (Ey : vy = K * Uy) by (unfold Uy; field; lra).
  assert (EU : Ux * Ux + Uy * Uy = 1). { apply Rmult_eq_reg_r with (K * K); [|nra]. rewrite Rmult_1_l. rewrite KK at 2. rewrite Ex, Ey. ring. }
  assert (NZ : ~ is_zero_vec [vx; vy]). { intro Z. assert (vx = 0 /\ vy = 0) as (Z1 & Z2). { unfold is_zero_vec in Z. cbn in Z. injection Z. auto. } rewrite Z1, Z2 in KK. nra. }
  split; [exact EU|]. split; [|split].
  - unfold dist. rewrite len_sq. cbn [sub add scale map dot] in *. rewrite Ex, Ey in *.
    assert (T : s * K = (cx - px) * Ux + (cy - py) * Uy). { apply Rmult_eq_reg_r with K; [|lra]. assert (Z : s * (K * K) * (Ux * Ux + Uy * Uy) = K * ((cx - px) * Ux + (cy - py) * Uy)) by lra. rewrite EU in Z. lra. }
    replace (cx - (px + s * (K * Ux))) with ((cx - px) - (s * K) * Ux) by ring. replace (cy - (py + s * (K * Uy))) with ((cy - py) - (s * K) * Uy) by ring. rewrite T.
    replace ((cx - px) - ((cx - px) * Ux + (cy - py) * Uy) * Ux) with (- D * Uy + (cx - px) * (1 - (Ux * Ux + Uy * Uy))) by (unfold D; ring). replace ((cy - py) - ((cx - px) * Ux + (cy - py) * Uy) * Uy) with (D * Ux + (cy - py) * (1 - (Ux * Ux + Uy * Uy))) by (unfold D; ring). rewrite EU.
    transitivity (D * D * (Ux * Ux + Uy * Uy)); [ring|rewrite EU; ring].
  - intros Hh sg Hsg X. assert (s2 : sg * sg = 1) by (destruct Hsg as [-> | ->]; ring). unfold X. split.
    + apply Balls.on_line2; auto. rewrite Ex, Ey. transitivity (K * (D * (Ux * Ux + Uy * Uy) - ((px - cx) * Uy - (py - cy) * Ux))); [ring|]. rewrite EU. fold D. ring.
    + split; [reflexivity|]. unfold dist, len. rewrite <- (sqrt_square r) by lra. apply (f_equal R_sqrt.sqrt). cbn [sub dot]. transitivity ((D * D + (sg * sg) * (h * h)) * (Ux * Ux + Uy * Uy)); [ring|]. rewrite EU, s2, Hh. ring.
  - intros Hh sg Hsg. cbn [sub dot]. rewrite Ex, Ey. transitivity (sg * (2 * h * K) * (Ux * Ux + Uy * Uy)); [ring|]. rewrite EU. ring.
Qed.

(** ** The theorem *)
Lemma circle_F (c : list flt) r s : Forall finite c -> finite r -> circle_new (N:=FNum) c r = Ok s -> s = MkBall (N:=FNum) c r /\ 0 < FR r /\ length c = 2%nat.
Proof.
  intros Fc Fr Hc. unfold circle_new, base_sphere_new in Hc. change (point_of (N:=FNum)) with (vector_of (N:=FNum)) in Hc. assert (Np : c <> []) by (intro Z; subst c; destruct (nleb r n0); discriminate).
  rewrite (vector_of_ok c Np Fc) in Hc. destruct (nleb (n:=FNum) r n0) eqn:Er; [discriminate|]. cbn [bind c_point] in Hc. destruct c as [|x [|y [|z c]]]; try discriminate Hc. cbn in Hc. injection Hc as <-. split; [reflexivity|]. split; [|reflexivity].
  destruct (Rlt_le_dec 0 (FR r)) as [H|H]; auto. rewrite <- (proj1 zero_F) in H. apply (leb_F _ _ Fr (proj2 zero_F)) in H. change (nleb (n:=FNum) r n0) with (PrimFloat.leb r 0) in Er. congruence.
Qed.
Theorem C91_circle_intersect_line : forall (B : R) (c p v : list flt) (r : flt) s l, circle_new (N:=FNum) c r = Ok s -> line_new (N:=FNum) p v = Ok l -> length p = 2%nat ->
  1 <= B <= bpow radix2 40 -> Forall (fun x => finite x /\ Rabs (FR x) <= B) c -> Forall (fun x => finite x /\ Rabs (FR x) <= B) p -> finite r /\ Rabs (FR r) <= B -> Forall (within 200) v -> bpow radix2 (-200) <= len (map FR v) ->
  forall f, on_line (map FR p) (map FR v) f -> dot (sub (map FR c) f) (map FR v) = 0 ->
  let d2 := dist (map FR c) f * dist (map FR c) f in let r2 := FR r * FR r in
  (r2 + bpow radix2 (-43) * (B * B * B) < d2 -> circle_intersect_line s l = Raise (ValueError "The line does not intersect the circle.")) /\
  (d2 + bpow radix2 (-43) * (B * B * B) < r2 -> exists a b X Y, circle_intersect_line s l = Ok (a, b) /\
     (on_line (map FR p) (map FR v) X /\ on_sphere (map FR c) (FR r) X) /\ (on_line (map FR p) (map FR v) Y /\ on_sphere (map FR c) (FR r) Y) /\ 0 < dot (sub Y X) (map FR v) /\
     let close x y := finite x /\ Rabs (FR x - y) <= bpow radix2 (-42) * (B * B * B) / R_sqrt.sqrt (r2 - d2) in
     let vy := nth 1 (map FR v) 0 in let margin := bpow radix2 (-48) * B * len (map FR v) in
     (Forall2 close a X /\ Forall2 close b Y \/ Forall2 close a Y /\ Forall2 close b X) /\
     (vy = 0 \/ margin < vy -> Forall2 close a X /\ Forall2 close b Y) /\ (vy < - margin -> Forall2 close a Y /\ Forall2 close b X)).
Proof.
  intros B c p v r s l Hs Hl Lp HB Hc Hp (Fr & Br) Hv v0 fo Of Hf d2 r2.
  assert (Fc : Forall finite c) by (eapply Forall_impl; [|exact Hc]; intros x (F & _); exact F). apply circle_F in Hs as (-> & r0 & Lc); auto. assert (Hl' := Hl). apply line_new_F in Hl' as (-> & Np & Lvp). assert (Lv : length v = 2%nat) by congruence.
  assert (Lnv : (Z.of_nat (length v) <= max_dim)%Z) by (rewrite Lv; vm_compute; discriminate). assert (V4 : bpow radix2 (-400) <= len (map FR v)) by (eapply Rle_trans; [apply bpow_le|exact v0]; lia).
  destruct (C73_unit_accurate v Lnv (sized_moderate _ Hv) V4) as (w & Ew & Hw). assert (KK := len_sq (map FR v)). assert (HK : 0 < len (map FR v)) by (pose proof (bpow_gt_0 radix2 (-200)); lra).
  destruct c as [|cx [|cy [|]]]; try discriminate Lc. destruct p as [|px [|py [|]]]; try discriminate Lp. destruct v as [|vx [|vy [|]]]; try discriminate Lv.
  pose proof (Forall_inv Hc) as Hcx. pose proof (Forall_inv (Forall_inv_tail Hc)) as Hcy. pose proof (Forall_inv Hp) as Hpx. pose proof (Forall_inv (Forall_inv_tail Hp)) as Hpy. cbv beta in Hcx, Hcy, Hpx, Hpy. fold (big B cx) in Hcx. fold (big B cy) in Hcy. fold (big B px) in Hpx. fold (big B py) in Hpy. assert (Hr : big B r) by (split; auto).
  inversion Hw as [|wx vx' w1 v1' Hwx Hw1]. subst. inversion Hw1 as [|wy vy' w2 v2' Hwy Hw2]. subst. inversion Hw2. subst. clear Hw Hw1 Hw2. cbn [map] in *. change (INR (length [vx; vy])) with (1 + 1) in Hwx, Hwy. set (K := len [FR vx; FR vy]) in *. cbn [dot] in KK.
  assert (KK' : K * K = FR vx * FR vx + FR vy * FR vy) by lra.
  set (h := R_sqrt.sqrt (r2 - d2)). destruct (chord2 (FR cx) (FR cy) (FR px) (FR py) (FR vx) (FR vy) K fo (FR r) h HK KK' Of Hf r0) as (EU & Ed & Hon & Hord). cbv zeta in *. fold d2 in Ed.
  set (Ux := FR vx / K) in *. set (Uy := FR vy / K) in *. set (D := (FR px - FR cx) * Uy - (FR py - FR cy) * Ux) in *. destruct (U_le Ux Uy EU) as (UX & UY). fold uro in Hwx, Hwy. fold eta in Hwx, Hwy. pose proof eta_uro as ET. pose proof uro_tiny as UT.
  assert (CL : forall (x V : flt), finite x /\ Rabs (FR x - FR V / K) <= (1 + 1 + 6) * uro * (Rabs (FR V) / K) + eta -> Rabs (FR V / K) <= 1 -> within 1 x /\ Rabs (FR x - FR V / K) <= 10 * uro /\ (FR V = 0 -> FR x = 0)).
  { intros x V (Fx & Bx) HV. assert (EV : Rabs (FR V) / K = Rabs (FR V / K)) by (unfold Rdiv; rewrite Rabs_mult, Rabs_inv, (Rabs_pos_eq K) by lra; reflexivity). rewrite EV in Bx.
    assert (Bx' : Rabs (FR x - FR V / K) <= 10 * uro). { eapply Rle_trans; [exact Bx|]. assert (uro * Rabs (FR V / K) <= uro * 1) by (apply Rmult_le_compat_l; lra). lra. }
    split; [split; [exact Fx|]|split; [exact Bx'|]]. - change (bpow radix2 1) with 2. pose proof (near _ _ _ _ Bx' HV). lra.
    - intro Z. rewrite Z in Bx. unfold Rdiv in Bx. rewrite Rmult_0_l, Rabs_R0, Rmult_0_r, Rminus_0_r, Rplus_0_l in Bx. destruct (Req_dec (FR x) 0) as [|N]; auto. apply FR_min in N. pose proof eta_pos. lra. }
  destruct (CL wx vx Hwx UX) as (Wx & Dx & _). destruct (CL wy vy Hwy UY) as (Wy & Dy & Zy). fold Ux in Dx. fold Uy in Dy. clear CL Hwx Hwy.
  destruct (quantities2 B px py cx cy wx wy r Ux Uy HB Hpx Hpy Hcx Hcy Hr r0 Wx Wy EU Dx Dy) as (Q1 & Q2 & Q3 & Q4 & Q5 & A1 & A2 & A3 & A4 & A5). cbv zeta in *. fold D in A4, A5. fold r2 in A5. rewrite <- Ed in A5.
  destruct (delta_F B px wx cx Ux HB Hpx Hcx Wx UX Dx) as (X1 & X2 & X3 & _). destruct (delta_F B py wy cy Uy HB Hpy Hcy Wy UY Dy) as (Y1 & Y2 & Y3 & _ & _ & _ & _ & _ & _ & _ & Zd).
  assert (b43 : bpow radix2 (-43) = 1024 * uro) by (unfold uro; change (-43)%Z with (10 + -53)%Z; rewrite bpow_plus; reflexivity). assert (b42 : bpow radix2 (-42) = 2048 * uro) by (unfold uro; change (-42)%Z with (11 + -53)%Z; rewrite bpow_plus; reflexivity). assert (b48 : bpow radix2 (-48) = 32 * uro) by (unfold uro; change (-48)%Z with (5 + -53)%Z; rewrite bpow_plus; reflexivity). rewrite b43, b42, b48.
  destruct zero_F as (Z0 & Fz).
  (* run the program up to the decision *)
  unfold circle_intersect_line. cbn [c_point c_radius l_point l_dir]. rewrite Ew. cbn [bind]. unfold vadd, vsub. rewrite !bcast_F by reflexivity. cbn [bind map2].
  change (nadd (n:=FNum)) with PrimFloat.add. change (nsub (n:=FNum)) with PrimFloat.sub. change (nmul (n:=FNum)) with PrimFloat.mul. change (nopp (n:=FNum)) with PrimFloat.opp. change (nabs (n:=FNum)) with PrimFloat.abs. change (nltb (n:=FNum)) with PrimFloat.ltb. change (n0 (n:=FNum)) with 0%float. change (n1 (n:=FNum)) with 1%float. change (nofZ (n:=FNum)) with f_ofZ. change (ndiv (n:=FNum)) with (fun a b : flt => Ok (a / b)%float).
  rewrite wrap1_F by (constructor; [exact (proj1 X1)|constructor; [exact (proj1 Y1)|constructor]]). cbn [bind]. rewrite !bcast_F by reflexivity. cbn [bind map2].
  rewrite wrap1_F by (constructor; [exact (proj1 X2)|constructor; [exact (proj1 Y2)|constructor]]). cbn [bind]. try (rewrite bcast_F by reflexivity). cbn [bind map2]. rewrite wrap1_F by (constructor; [exact (proj1 X3)|constructor; [exact (proj1 Y3)|constructor]]). cbn [bind].
  fold (shift px wx cx) (shift py wy cy). fold (delta px wx cx) (delta py wy cy). fold (sqlen_F px py cx cy wx wy) (det_F px py cx cy wx wy). fold (disc2_F px py cx cy wx wy r).
  set (dc := disc2_F px py cx cy wx wy r) in *. set (dt := det_F px py cx cy wx wy) in *. set (q := sqlen_F px py cx cy wx wy) in *. set (dx := delta px wx cx) in *. set (dy := delta py wy cy) in *.
  split; intro Hcase.
  - rewrite (proj2 (ltb_F dc 0%float (proj1 Q5) Fz)); [reflexivity|]. rewrite Z0. apply Rabs_le_inv in A5. lra.
  - assert (B3 : 0 < uro * (B * B * B)) by (apply Rmult_lt_0_compat; [lra|]; apply Rmult_lt_0_compat; [apply Rmult_lt_0_compat; lra|lra]).
    assert (dc0 : 0 < FR dc) by (apply Rabs_le_inv in A5; lra). assert (LT : PrimFloat.ltb dc 0 = false) by (destruct (PrimFloat.ltb dc 0) eqn:E; auto; apply (ltb_F dc 0%float (proj1 Q5) Fz) in E; lra). rewrite LT.
    unfold math_sqrt. change (nltb (n:=FNum)) with PrimFloat.ltb. change (n0 (n:=FNum)) with 0%float. rewrite LT. cbn [bind]. change (nsqrt (n:=FNum) dc) with (PrimFloat.sqrt dc).
    assert (h0 : 0 < h) by (apply sqrt_lt_R0; lra). assert (hh : h * h = r2 - d2) by (apply sqrt_sqrt; lra). destruct (fin_sqrt dc (proj1 Q5) (or_introl dc0)) as (Frt & Ert). remember (PrimFloat.sqrt dc) as root eqn:Eroot.
    assert (Wrt : within 85 root).
    { split; auto. rewrite Ert. apply rnd_bpow_le; [lia|]. rewrite Rabs_pos_eq by apply sqrt_pos. apply Rle_trans with (R_sqrt.sqrt (bpow radix2 170)); [apply sqrt_le_1_alt; destruct Q5 as (_ & Q5); apply Rabs_le_inv in Q5; assert (bpow radix2 169 <= bpow radix2 170) by (apply bpow_le; lia); lra|]. change 170%Z with (85 + 85)%Z. rewrite bpow_plus, sqrt_square by apply bpow_ge_0. apply Rle_refl. }
    destruct minus1_F as (Wm & Em). destruct plus1_F as (Wp & Ep).
    set (sign := if PrimFloat.ltb dy 0 then f_ofZ (-1) else 1%float).
    assert (SG : within 0 sign /\ (FR sign = 1 \/ FR sign = -1) /\ Rabs (FR dy) = FR sign * FR dy /\ (0 <= FR dy -> FR sign = 1) /\ (FR dy < 0 -> FR sign = -1)).
    { unfold sign. destruct (PrimFloat.ltb dy 0) eqn:E.
      - apply (ltb_F dy 0%float (proj1 Q2) Fz) in E. rewrite Z0 in E. rewrite Em. split; [exact Wm|]. split; [auto|]. split; [rewrite Rabs_left by lra; ring|]. split; intro; lra.
      - assert (E' : 0 <= FR dy). { apply Rnot_lt_le. intro H. rewrite <- Z0 in H. apply (ltb_F dy 0%float (proj1 Q2) Fz) in H. congruence. } rewrite Ep. split; [exact Wp|]. split; [auto|]. split; [rewrite Rabs_pos_eq by lra; ring|]. split; intro; lra. }
    destruct SG as (Wsg & Esg & Eabs & SG1 & SG2). cbv beta. cbn [bind].
    assert (hh' : h * h = FR r * FR r - D * D) by (rewrite hh, Ed; reflexivity). assert (Hbig : 1024 * (uro * (B * B * B)) < h * h) by (rewrite hh; lra).
    destruct (point_hit B px py cx cy wx wy r (f_ofZ (-1)) sign root Ux Uy h HB Hpx Hpy Hcx Hcy Hr r0 Wx Wy EU Dx Dy h0 hh' Hbig Eroot Wrt Wm (or_intror Em) Wsg Esg Eabs) as (FA1 & FA2 & FA3 & FA4 & FA5 & FA6).
    destruct (point_hit B px py cx cy wx wy r 1%float sign root Ux Uy h HB Hpx Hpy Hcx Hcy Hr r0 Wx Wy EU Dx Dy h0 hh' Hbig Eroot Wrt Wp (or_introl Ep) Wsg Esg Eabs) as (FB1 & FB2 & FB3 & FB4 & FB5 & FB6).
    fold D dx dy dt q in FA1, FA2, FA3, FA4, FA5, FA6, FB1, FB2, FB3, FB4, FB5, FB6.
    change (point_of (N:=FNum)) with (vector_of (N:=FNum)). rewrite vector_of_ok; [|discriminate|constructor; [exact FA1|constructor; [exact FA2|constructor]]]. cbn [bind]. rewrite vector_of_ok; [|discriminate|constructor; [exact FB1|constructor; [exact FB2|constructor]]]. cbn [bind].
    rewrite !bcast_F by reflexivity. cbn [bind map2]. rewrite wrap1_F by (constructor; [exact FA3|constructor; [exact FA4|constructor]]). cbn [bind]. rewrite wrap1_F by (constructor; [exact FB3|constructor; [exact FB4|constructor]]). cbn [bind].
    fold (hit_F dt dy (f_ofZ (-1) * sign * dx) root q cx) (hit_F (- dt) dx (f_ofZ (-1) * PrimFloat.abs dy) root q cy) (hit_F dt dy (1 * sign * dx) root q cx) (hit_F (- dt) dx (1 * PrimFloat.abs dy) root q cy).
    set (ax := hit_F dt dy (f_ofZ (-1) * sign * dx) root q cx) in *. set (ay := hit_F (- dt) dx (f_ofZ (-1) * PrimFloat.abs dy) root q cy) in *. set (bx := hit_F dt dy (1 * sign * dx) root q cx) in *. set (by_ := hit_F (- dt) dx (1 * PrimFloat.abs dy) root q cy) in *.
    rewrite Em in FA5, FA6. rewrite Ep in FB5, FB6.
    set (P := fun sg : R => [FR cx + (D * Uy + sg * Ux * h); FR cy + (- D * Ux + sg * Uy * h)]).
    exists [ax; ay], [bx; by_], (P (-1)), (P 1). split; [reflexivity|].
    split; [apply (Hon hh' (-1)); auto|]. split; [apply (Hon hh' 1); auto|]. split.
    { pose proof (Hord h0 1 (or_introl eq_refl)) as O. unfold P. replace (- (1)) with (-1) in O by ring. rewrite O. assert (0 < h * K) by (apply Rmult_lt_0_compat; lra). lra. }
    cbn [nth]. set (close := fun (x : flt) (y : R) => finite x /\ Rabs (FR x - y) <= 2048 * uro * (B * B * B) / h).
    assert (CA : forall sg, -1 * FR sign = sg -> Forall2 close [ax; ay] (P sg)). { intros sg <-. constructor; [|constructor; [|constructor]]; (split; [assumption|]); replace (2048 * uro * (B * B * B) / h) with (2048 * (uro * (B * B * B) / h)) by (field; lra); assumption. }
    assert (CB : forall sg, 1 * FR sign = sg -> Forall2 close [bx; by_] (P sg)). { intros sg <-. constructor; [|constructor; [|constructor]]; (split; [assumption|]); replace (2048 * uro * (B * B * B) / h) with (2048 * (uro * (B * B * B) / h)) by (field; lra); assumption. }
    assert (C1 : FR sign = 1 -> Forall2 close [ax; ay] (P (-1)) /\ Forall2 close [bx; by_] (P 1)) by (intro E; split; [apply CA|apply CB]; rewrite E; ring). assert (C2 : FR sign = -1 -> Forall2 close [ax; ay] (P 1) /\ Forall2 close [bx; by_] (P (-1))) by (intro E; split; [apply CA|apply CB]; rewrite E; ring).
    split; [destruct Esg as [E|E]; [left; auto|right; auto]|]. assert (EV : FR vy = Uy * K) by (unfold Uy; field; lra). apply Rabs_le_inv in A2. assert (uB : 0 < uro * B) by (apply Rmult_lt_0_compat; lra).
    split.
    + intros [E|E]; apply C1, SG1; [rewrite Zd; [lra|apply Zy; exact E]|]. assert (32 * (uro * B) < Uy) by (apply Rmult_lt_reg_r with K; [exact HK|]; rewrite <- EV; lra). lra.
    + intros E. apply C2, SG2. assert (Uy < - (32 * (uro * B))) by (apply Rmult_lt_reg_r with K; [exact HK|]; rewrite <- EV; lra). lra.
Qed.
Print Assumptions C91_circle_intersect_line.

(** ** Whole-number and fixed-point coordinates: the decision is right for every line that is not tangent *)
Lemma gap2 (e f M M' : Z) (cx cy px py vx vy r : R) (fo : pt) : (0 < M)%Z -> (0 < M')%Z -> IZR (M * M * M * (M' * M')) * bpow radix2 e <= bpow radix2 40 ->
  let g k B x := exists m : Z, (Z.abs m <= B)%Z /\ x = IZR m * bpow radix2 k in
  g e M cx -> g e M cy -> g e M px -> g e M py -> g f M' vx -> g f M' vy -> g e M r -> 0 < r -> 0 < len [vx; vy] -> on_line [px; py] [vx; vy] fo -> dot (sub [cx; cy] fo) [vx; vy] = 0 -> r * r <> dist [cx; cy] fo * dist [cx; cy] fo ->
  let B := IZR M * bpow radix2 e in bpow radix2 (-43) * (B * B * B) < Rabs (r * r - dist [cx; cy] fo * dist [cx; cy] fo).
Proof.
  intros HM HM' HMM g (k1 & B1 & E1) (k2 & B2 & E2) (m1 & C1 & E3) (m2 & C2 & E4) (n1 & D1 & E5) (n2 & D2 & E6) (q & Bq & E7) r0 HK Of Hf Hne B.
  pose proof (len_sq [vx; vy]) as KK. set (K := len [vx; vy]) in *. cbn [dot] in KK. assert (KK' : K * K = vx * vx + vy * vy) by lra.
  destruct (chord2 cx cy px py vx vy K fo r 0 HK KK' Of Hf r0) as (_ & Ed & _ & _). cbv zeta in Ed. rewrite Ed in *. set (D := (px - cx) * (vy / K) - (py - cy) * (vx / K)) in *.
  pose proof (bpow_gt_0 radix2 e) as Pe. pose proof (bpow_gt_0 radix2 f) as Pf. unfold B. clear B. set (b := bpow radix2 e) in *. set (ph := bpow radix2 f) in *.
  assert (EDK : D * K = IZR ((m1 - k1) * n2 - (m2 - k2) * n1) * (b * ph)). { unfold D. rewrite E1, E2, E3, E4, E5, E6, minus_IZR, !mult_IZR, !minus_IZR. field. lra. } set (T := ((m1 - k1) * n2 - (m2 - k2) * n1)%Z) in *. set (V := (n1 * n1 + n2 * n2)%Z).
  assert (EK : K * K = IZR V * (ph * ph)) by (rewrite KK', E5, E6; unfold V; rewrite plus_IZR, !mult_IZR; ring). assert (ph2 : 0 < ph * ph) by (apply Rmult_lt_0_compat; auto). assert (b2 : 0 < b * b) by (apply Rmult_lt_0_compat; auto).
  assert (VP : (0 < V)%Z). { apply lt_IZR. apply Rmult_lt_reg_r with (ph * ph); [exact ph2|]. rewrite <- EK. rewrite Rmult_0_l. apply Rmult_lt_0_compat; auto. }
  assert (ED : D * D * IZR V = IZR (T * T) * (b * b)). { apply Rmult_eq_reg_r with (ph * ph); [|lra]. replace (D * D * IZR V * (ph * ph)) with (D * D * (K * K)) by (rewrite EK; ring). replace (D * D * (K * K)) with ((D * K) * (D * K)) by ring. rewrite EDK, mult_IZR. ring. }
  set (X := r * r - D * D) in *. set (N := (q * q * V - T * T)%Z). assert (EX : X * IZR V = IZR N * (b * b)). { unfold X, N. rewrite Rmult_minus_distr_r, ED, E7, minus_IZR, !mult_IZR. ring. }
  assert (N0 : N <> 0%Z). { intro Z. rewrite Z, Rmult_0_l in EX. apply Rmult_integral in EX as [EX|EX]; [unfold X in EX; apply Hne; lra|]. apply eq_IZR in EX. lia. }
  assert (N1 : 1 <= Rabs (IZR N)) by (rewrite <- abs_IZR; apply IZR_le; lia). assert (VR : 0 < IZR V) by (apply IZR_lt; lia).
  assert (EXA : Rabs X * IZR V = Rabs (IZR N) * (b * b)). { rewrite <- (Rabs_pos_eq (IZR V)), <- (Rabs_pos_eq (b * b)), <- !Rabs_mult by lra. rewrite EX. reflexivity. }
  assert (VB : IZR V <= 2 * IZR (M' * M')). { rewrite <- mult_IZR. apply IZR_le. unfold V. pose proof (zsq n1 M' D1). pose proof (zsq n2 M' D2). lia. }
  apply Rmult_lt_reg_r with (IZR V); auto. rewrite EXA. apply Rlt_le_trans with (b * b); [|rewrite <- (Rmult_1_l (b * b)) at 1; apply Rmult_le_compat_r; lra].
  assert (M3 : 0 < IZR M * b) by (apply Rmult_lt_0_compat; [apply IZR_lt; auto|auto]). assert (Q : 0 < bpow radix2 (-43)) by apply bpow_gt_0. set (bb := IZR M * b * (IZR M * b) * (IZR M * b)) in *. assert (bb0 : 0 < bb) by (unfold bb; apply Rmult_lt_0_compat; [apply Rmult_lt_0_compat|]; auto).
  apply Rle_lt_trans with (bpow radix2 (-43) * bb * (2 * IZR (M' * M'))); [apply Rmult_le_compat_l; [apply Rmult_le_pos; lra|exact VB]|].
  replace (bpow radix2 (-43) * bb * (2 * IZR (M' * M'))) with (bpow radix2 (-42) * (IZR (M * M * M * (M' * M')) * b) * (b * b)).
  - rewrite <- (Rmult_1_l (b * b)) at 2. apply Rmult_lt_compat_r; [exact b2|]. apply Rle_lt_trans with (bpow radix2 (-42) * bpow radix2 40); [apply Rmult_le_compat_l; [apply bpow_ge_0|exact HMM]|]. rewrite <- bpow_plus. simpl. lra.
  - replace (bpow radix2 (-42)) with (2 * bpow radix2 (-43)) by (change (-42)%Z with (1 + -43)%Z; rewrite bpow_plus; reflexivity). unfold bb. rewrite !mult_IZR. ring.
Qed.

Theorem C91_circle_grid : forall e f M M' (c p v : list flt) (r : flt) s l, (-150 <= f <= 150)%Z -> (0 < M)%Z -> (0 < M')%Z -> let B := IZR M * bpow radix2 e in 1 <= B -> IZR (M * M * M * (M' * M')) * bpow radix2 e <= bpow radix2 40 ->
  Forall (on_grid e M) c -> Forall (on_grid e M) p -> on_grid e M r -> Forall (on_grid f M') v -> circle_new (N:=FNum) c r = Ok s -> line_new (N:=FNum) p v = Ok l -> length p = 2%nat ->
  forall fo, on_line (map FR p) (map FR v) fo -> dot (sub (map FR c) fo) (map FR v) = 0 ->
  let d := dist (map FR c) fo in
  (FR r < d -> circle_intersect_line s l = Raise (ValueError "The line does not intersect the circle.")) /\
  (d < FR r -> exists a b X Y, circle_intersect_line s l = Ok (a, b) /\
     (on_line (map FR p) (map FR v) X /\ on_sphere (map FR c) (FR r) X) /\ (on_line (map FR p) (map FR v) Y /\ on_sphere (map FR c) (FR r) Y) /\ 0 < dot (sub Y X) (map FR v) /\
     let close x y := finite x /\ Rabs (FR x - y) <= bpow radix2 (-42) * (B * B * B) / R_sqrt.sqrt (FR r * FR r - d * d) in
     if Rle_dec 0 (nth 1 (map FR v) 0) then Forall2 close a X /\ Forall2 close b Y else Forall2 close a Y /\ Forall2 close b X).
Proof.
  intros e f M M' c p v r s l Hf HM HM' B HB HMM Gc Gp Gr Gv Hs Hl Lp fo Of Hfo d.
  pose proof (bpow_gt_0 radix2 e) as Pe. pose proof (bpow_gt_0 radix2 f) as Pf. assert (MR : 1 <= IZR M) by (apply IZR_le; lia). assert (MR' : 1 <= IZR M') by (apply IZR_le; lia).
  assert (ES : IZR (M * M * M * (M' * M')) * bpow radix2 e = B * (IZR M * IZR M') * (IZR M * IZR M')) by (unfold B; rewrite !mult_IZR; ring). rewrite ES in HMM.
  assert (MM1 : 1 <= IZR M * IZR M') by nra. assert (MM2 : IZR M' <= IZR M * IZR M') by nra. set (mm := IZR M * IZR M') in *. assert (BM : 1 <= B * mm) by nra.
  assert (BM' : B * mm <= bpow radix2 40). { eapply Rle_trans; [|exact HMM]. rewrite <- (Rmult_1_r (B * mm)) at 1. apply Rmult_le_compat_l; lra. } assert (B40 : B <= bpow radix2 40). { eapply Rle_trans; [|exact BM']. rewrite <- (Rmult_1_r B) at 1. apply Rmult_le_compat_l; lra. }
  assert (M40 : IZR M' <= bpow radix2 40). { eapply Rle_trans; [exact MM2|]. eapply Rle_trans; [|exact BM']. rewrite <- (Rmult_1_l mm) at 1. apply Rmult_le_compat_r; lra. }
  assert (GB : forall k m x, on_grid k m x -> finite x /\ Rabs (FR x) <= IZR m * bpow radix2 k). { intros k m x (F & j & Bj & Ej). split; auto. rewrite Ej, Rabs_mult, (Rabs_pos_eq (bpow _ _)) by apply bpow_ge_0. apply Rmult_le_compat_r; [apply bpow_ge_0|]. rewrite <- abs_IZR. apply IZR_le. exact Bj. }
  assert (Bc : Forall (fun x => finite x /\ Rabs (FR x) <= B) c) by (eapply Forall_impl; [|exact Gc]; intros x Hx; apply (GB e M); auto). assert (Bp : Forall (fun x => finite x /\ Rabs (FR x) <= B) p) by (eapply Forall_impl; [|exact Gp]; intros x Hx; apply (GB e M); auto). assert (Br : finite r /\ Rabs (FR r) <= B) by (apply (GB e M); auto).
  assert (Wv : Forall (within 200) v). { eapply Forall_impl; [|exact Gv]. intros x Hx. destruct (GB f M' x Hx) as (F & Q). split; auto. eapply Rle_trans; [exact Q|]. apply Rle_trans with (bpow radix2 40 * bpow radix2 f); [apply Rmult_le_compat_r; lra|]. rewrite <- bpow_plus. apply bpow_le. lia. }
  assert (Fc : Forall finite c) by (eapply Forall_impl; [|exact Bc]; intros x (F & _); exact F). destruct (circle_F c r s Fc (proj1 Br) Hs) as (Es & r0 & Lc). assert (Hl' := Hl). apply line_new_F in Hl' as (El & Np & Lvp). assert (Lv : length v = 2%nat) by congruence.
  assert (NZ : ~ Forall (fun x => FR x = 0) v).
  { unfold line_new in Hl. destruct (check_point_vector p v) as [(p', d')| |] eqn:E; cbn [bind] in Hl; try discriminate. apply check_F in E. destruct E as (_ & _ & _ & _ & Fv & _ & NZ). intro Z. apply NZ. apply zeros_dot; [exact Fv|]. clear - Z Fv. induction Z as [|x v Zx Z IH]; constructor; [split; [exact (Forall_inv Fv)|exact Zx]|apply IH; exact (Forall_inv_tail Fv)]. }
  destruct c as [|cx [|cy [|]]]; try discriminate Lc. destruct p as [|px [|py [|]]]; try discriminate Lp. destruct v as [|vx [|vy [|]]]; try discriminate Lv. cbn [map nth] in *.
  assert (GP : forall k m x, on_grid k m x -> exists j : Z, (Z.abs j <= m)%Z /\ FR x = IZR j * bpow radix2 k) by (intros k m x (_ & j & Bj & Ej); exists j; auto).
  pose proof (GP _ _ _ (Forall_inv Gc)) as G1. pose proof (GP _ _ _ (Forall_inv (Forall_inv_tail Gc))) as G2. pose proof (GP _ _ _ (Forall_inv Gp)) as G3. pose proof (GP _ _ _ (Forall_inv (Forall_inv_tail Gp))) as G4. pose proof (GP _ _ _ (Forall_inv Gv)) as G5. pose proof (GP _ _ _ (Forall_inv (Forall_inv_tail Gv))) as G6. pose proof (GP _ _ _ Gr) as G7.
  assert (VL : bpow radix2 f <= len [FR vx; FR vy] /\ len [FR vx; FR vy] <= 2 * (IZR M' * bpow radix2 f)).
  { pose proof (len_nonneg [FR vx; FR vy]) as L0. destruct G5 as (j1 & J1 & E1). destruct G6 as (j2 & J2 & E2).
    assert (LS : len [FR vx; FR vy] * len [FR vx; FR vy] = IZR (j1 * j1 + j2 * j2) * (bpow radix2 f * bpow radix2 f)) by (rewrite len_sq; cbn [dot]; rewrite E1, E2, plus_IZR, !mult_IZR; ring).
    assert (P2 : 0 < bpow radix2 f * bpow radix2 f) by (apply Rmult_lt_0_compat; auto). pose proof (zsq j1 M' J1) as S1. pose proof (zsq j2 M' J2) as S2. pose proof (Z.square_nonneg j1) as S3. pose proof (Z.square_nonneg j2) as S4. split.
    - apply Rsqr_incr_0; unfold Rsqr; [|lra|auto]. rewrite LS. rewrite <- (Rmult_1_l (bpow radix2 f * bpow radix2 f)) at 1. apply Rmult_le_compat_r; [lra|]. apply IZR_le. destruct (Z.eq_dec (j1 * j1 + j2 * j2) 0) as [Z|Z]; [|lia]. exfalso. apply NZ. assert (Z1 : (j1 = 0)%Z) by (apply Zsqr0; lia). assert (Z2 : (j2 = 0)%Z) by (apply Zsqr0; lia). rewrite Z1, Rmult_0_l in E1. rewrite Z2, Rmult_0_l in E2. constructor; [auto|constructor; [auto|constructor]].
    - apply Rsqr_incr_0; unfold Rsqr; [|auto|nra]. rewrite LS. replace (2 * (IZR M' * bpow radix2 f) * (2 * (IZR M' * bpow radix2 f))) with (IZR (4 * (M' * M')) * (bpow radix2 f * bpow radix2 f)) by (rewrite !mult_IZR; ring). apply Rmult_le_compat_r; [lra|]. apply IZR_le. lia. }
  assert (vB : bpow radix2 (-200) <= len [FR vx; FR vy]) by (eapply Rle_trans; [apply bpow_le|exact (proj1 VL)]; lia).
  destruct (C91_circle_intersect_line B [cx; cy] [px; py] [vx; vy] r s l Hs Hl eq_refl (conj HB B40) Bc Bp Br Wv vB fo Of Hfo) as (H1 & H2). cbn [map nth] in H1, H2. fold d in H1, H2. assert (d0 : 0 <= d) by apply len_nonneg.
  assert (GAP : FR r * FR r <> d * d -> bpow radix2 (-43) * (B * B * B) < Rabs (FR r * FR r - d * d)).
  { intro Hne. apply (gap2 e f M M' (FR cx) (FR cy) (FR px) (FR py) (FR vx) (FR vy) (FR r) fo); auto; [rewrite ES; exact HMM|pose proof (proj1 VL); lra]. }
  split; intro Hd.
  - apply H1. assert (Q : FR r * FR r < d * d) by nra. specialize (GAP ltac:(lra)). rewrite Rabs_left in GAP by lra. lra.
  - assert (Q : d * d < FR r * FR r) by nra. specialize (GAP ltac:(lra)). rewrite Rabs_pos_eq in GAP by lra. destruct (H2 ltac:(lra)) as (a & b & X & Y & R1 & R2 & R3 & R4 & _ & R6 & R7). exists a, b, X, Y. split; [exact R1|]. split; [exact R2|]. split; [exact R3|]. split; [exact R4|].
    assert (MG : FR vy <> 0 -> bpow radix2 (-48) * B * len [FR vx; FR vy] < Rabs (FR vy)).
    { intro Ny. destruct G6 as (j2 & J2 & E2). apply Rlt_le_trans with (bpow radix2 f).
      - apply Rle_lt_trans with (bpow radix2 (-48) * B * (2 * (IZR M' * bpow radix2 f))); [apply Rmult_le_compat_l; [apply Rmult_le_pos; [apply bpow_ge_0|lra]|apply VL]|].
        replace (bpow radix2 (-48) * B * (2 * (IZR M' * bpow radix2 f))) with (2 * bpow radix2 (-48) * (B * IZR M') * bpow radix2 f) by ring. rewrite <- (Rmult_1_l (bpow radix2 f)) at 2. apply Rmult_lt_compat_r; [exact Pf|]. apply Rle_lt_trans with (2 * bpow radix2 (-48) * bpow radix2 40); [apply Rmult_le_compat_l; [pose proof (bpow_ge_0 radix2 (-48)); lra|]|].
        + eapply Rle_trans; [|exact BM']. apply Rmult_le_compat_l; lra. + rewrite Rmult_assoc, <- bpow_plus. simpl. lra.
      - rewrite E2, Rabs_mult, (Rabs_pos_eq (bpow radix2 f)) by lra. rewrite <- (Rmult_1_l (bpow radix2 f)) at 1. apply Rmult_le_compat_r; [lra|]. rewrite <- abs_IZR. apply IZR_le. assert (j2 <> 0)%Z; [|lia]. intro Z. apply Ny. rewrite E2, Z. ring. }
    cbv zeta in R6, R7 |- *. destruct (Rle_dec 0 (FR vy)) as [P|P].
    + apply R6. destruct (Req_dec (FR vy) 0) as [Z|Z]; [left; exact Z|right]. specialize (MG Z). rewrite Rabs_pos_eq in MG by lra. exact MG.
    + apply R7. assert (Z : FR vy <> 0) by lra. specialize (MG Z). rewrite Rabs_left in MG by lra. lra.
Qed.
Print Assumptions C91_circle_grid.

(** Tangent lines may be rejected: the line through (-1, 7) with direction (-4, 3) touches the circle of radius 5 about the origin at (3, 4). *)
Theorem C91_tangent_refuted : exists s l, circle_new (N:=FNum) [0; 0]%float 5%float = Ok s /\ line_new (N:=FNum) [-1; 7]%float [-4; 3]%float = Ok l /\
  (on_line [-1; 7] [-4; 3] [3; 4] /\ on_sphere [0; 0] 5 [3; 4]) /\ circle_intersect_line s l = Raise (ValueError "The line does not intersect the circle.").
Proof.
  eexists. eexists. split; [reflexivity|]. split; [reflexivity|]. split; [|reflexivity]. split.
  - exists (-1). cbn. apply (f_equal2 (@cons R)); [ring|]. apply (f_equal2 (@cons R)); [ring|reflexivity].
  - split; [reflexivity|]. unfold dist, len. cbn. replace (_ + _) with (5 * 5) by ring. apply sqrt_square. lra.
Qed.
Print Assumptions C91_tangent_refuted.

(** The bound on the coordinates matters: the x-axis given by the point (2^60, 0) passes through the centre of the unit circle, but its second point p + u rounds back to p,
    the length of the difference is 0, and 0 / 0 makes the result points fail their finiteness check. The same line given by the point (0, 0) is handled correctly. *)
Theorem C91_far_refuted : exists s l l' a b, circle_new (N:=FNum) [0; 0]%float 1%float = Ok s /\ line_new (N:=FNum) [1152921504606846976; 0]%float [1; 0]%float = Ok l /\ line_new (N:=FNum) [0; 0]%float [1; 0]%float = Ok l' /\
  FR 1152921504606846976%float = bpow radix2 60 /\
  (forall x, on_line [bpow radix2 60; 0] [1; 0] x <-> on_line [0; 0] [1; 0] x) /\
  circle_intersect_line s l' = Ok (a, b) /\ circle_intersect_line s l = Raise (ValueError "The values must all be finite.").
Proof.
  eexists. eexists. eexists. eexists. eexists. split; [reflexivity|]. split; [reflexivity|]. split; [reflexivity|]. split; [|split; [|split; reflexivity]].
  - erewrite AnyOrder.FR_val by (vm_compute; reflexivity). simpl. unfold F2R. simpl. lra.
  - intro x. split; intros (t & ->); [exists (t + bpow radix2 60)|exists (t - bpow radix2 60)]; unfold scale; cbn [map add]; (apply (f_equal2 (@cons R)); [ring|]); (apply (f_equal2 (@cons R)); [ring|reflexivity]).
Qed.
Print Assumptions C91_far_refuted.

Example C91_nonvacuous : exists s l a b, circle_new (N:=FNum) [2; 3]%float 5%float = Ok s /\ line_new (N:=FNum) [1; 1]%float [2; 3]%float = Ok l /\ Forall (on_grid 0 5) [2; 3]%float /\ Forall (on_grid 0 5) [1; 1]%float /\ on_grid 0 5 5%float /\ Forall (on_grid 0 3) [2; 3]%float /\
  1 <= IZR 5 * bpow radix2 0 /\ IZR (5 * 5 * 5 * (3 * 3)) * bpow radix2 0 <= bpow radix2 40 /\ circle_intersect_line s l = Ok (a, b) /\ length a = 2%nat.
Proof.
  eexists. eexists. eexists. eexists. split; [reflexivity|]. split; [reflexivity|].
  split; [constructor; [lit 2%Z|constructor; [lit 3%Z|constructor]]|]. split; [constructor; [lit 1%Z|constructor; [lit 1%Z|constructor]]|]. split; [lit 5%Z|]. split; [constructor; [lit 2%Z|constructor; [lit 3%Z|constructor]]|].
  split; [simpl; lra|]. split; [simpl; lra|]. split; reflexivity.
Qed.
