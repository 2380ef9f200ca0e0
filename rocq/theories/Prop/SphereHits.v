(** * Property C90: Sphere.intersect_line in double precision *)
From Coq Require Import String Reals List ZArith Floats Lra Lia Psatz Bool.
From Flocq Require Import Core BinarySingleNaN.
From Flocq Require Import IEEE754.PrimFloat.
From Verif.Model Require Import Outcome Num Instances Numpy BaseArray Vector Points Functions Line Plane Sphere.
From Verif.Spec Require Import Geometry Floats Grid.
From Verif.Proof Require Import VecAlg Bridge Floats FloatErr.
From Verif.Prop Require Import Floats Accuracy Decisions Projections FloatShapes Grid GridCircles.
Import ListNotations.
Local Open Scope R_scope.

(** ** Error propagation over the reals *)
Lemma sq_err e k Lm x X : 0 <= e <= / 1000 -> 0 <= Lm -> Rabs X <= Lm -> Rabs (x - X) <= e * Lm -> k = 2 * e + e * e -> Rabs (x * x - X * X) <= k * (Lm * Lm) /\ x * x <= (1 + k) * (Lm * Lm).
Proof.
  intros He HL HX H ->. assert (A : Rabs (x * x - X * X) <= (2 * e + e * e) * (Lm * Lm)).
  { replace (x * x - X * X) with ((x - X) * (x - X) + 2 * X * (x - X)) by ring. eapply Rle_trans; [apply Rabs_triang|]. rewrite !Rabs_mult, (Rabs_pos_eq 2) by lra.
    assert (Rabs (x - X) * Rabs (x - X) <= (e * Lm) * (e * Lm)) by (apply Rmult_le_compat; auto; apply Rabs_pos). assert (Rabs X * Rabs (x - X) <= Lm * (e * Lm)) by (apply Rmult_le_compat; auto; apply Rabs_pos). lra. }
  split; [exact A|]. apply Rabs_le_inv in A. assert (X * X <= Lm * Lm) by (rewrite <- (Rabs_pos_eq (X * X)), Rabs_mult by nra; apply Rmult_le_compat; auto; apply Rabs_pos). lra.
Qed.
Lemma rnd_close u t k L x X z : 0 <= u -> 0 <= L -> Rabs (x - X) <= k * L -> Rabs (z - x) <= u * Rabs x + t -> Rabs x <= 2 * L -> t <= u * L -> Rabs (z - X) <= (k + 3 * u) * L.
Proof.
  intros Hu HL H1 H2 H3 H4. replace (z - X) with ((z - x) + (x - X)) by ring. eapply Rle_trans; [apply Rabs_triang|]. assert (u * Rabs x <= u * (2 * L)) by (apply Rmult_le_compat_l; lra). lra.
Qed.
Lemma disc_err u t Lm A r dl dt dd n nn rr b dc : 0 < u <= / 1000000 -> 0 < Lm -> 0 <= t -> t <= u * (Lm * Lm) -> Lm * Lm = A * A + r * r -> 0 <= A -> 0 < r -> Rabs dl <= A ->
  Rabs (dt - dl) <= 19 * u * Lm -> Rabs (dd - dt * dt) <= u * Rabs (dt * dt) + t -> Rabs (n - A) <= 9 * u * Lm -> Rabs (nn - n * n) <= u * Rabs (n * n) + t ->
  Rabs (rr - r * r) <= u * Rabs (r * r) + t -> Rabs (b - (nn - rr)) <= u * Rabs (nn - rr) + t -> Rabs (dc - (dd - b)) <= u * Rabs (dd - b) + t ->
  Rabs (dc - (dl * dl - A * A + r * r)) <= 75 * u * (Lm * Lm).
Proof.
  intros Hu HL Ht Ht' EL HA Hr Hdl H1 H2 H3 H4 H5 H6 H7. assert (AL : A <= Lm) by nra. assert (rL : r <= Lm) by nra. set (L := Lm * Lm) in *. assert (L0 : 0 < L) by (unfold L; nra).
  assert (uL : 0 <= u * L) by (apply Rmult_le_pos; lra). assert (uuL : u * (u * L) <= / 1000000 * (u * L)) by (apply Rmult_le_compat_r; lra).
  destruct (sq_err (19 * u) _ Lm dt dl ltac:(lra) ltac:(lra) ltac:(lra) H1 eq_refl) as (S1 & S1'). fold L in S1, S1'.
  destruct (sq_err (9 * u) _ Lm n A ltac:(lra) ltac:(lra) ltac:(rewrite Rabs_pos_eq; lra) H3 eq_refl) as (S2 & S2'). fold L in S2, S2'.
  assert (Q1 : Rabs (dt * dt) <= 2 * L) by (rewrite Rabs_pos_eq by nra; nra). assert (Q2 : Rabs (n * n) <= 2 * L) by (rewrite Rabs_pos_eq by nra; nra). assert (Q3 : Rabs (r * r) <= 2 * L) by (rewrite Rabs_pos_eq by nra; nra).
  pose proof (rnd_close u t _ L (dt * dt) (dl * dl) dd ltac:(lra) ltac:(lra) S1 H2 Q1 Ht') as D1. pose proof (rnd_close u t _ L (n * n) (A * A) nn ltac:(lra) ltac:(lra) S2 H4 Q2 Ht') as D2.
  assert (D3 : Rabs (rr - r * r) <= 3 * u * L). { eapply Rle_trans; [exact H5|]. assert (u * Rabs (r * r) <= u * (2 * L)) by (apply Rmult_le_compat_l; lra). lra. }
  assert (dl2 : 0 <= dl * dl <= A * A) by (split; [nra|]; rewrite <- (Rabs_pos_eq (dl * dl)), Rabs_mult by nra; apply Rmult_le_compat; auto; apply Rabs_pos).
  assert (A2 : 0 <= A * A <= L) by (split; nra). assert (r2 : 0 <= r * r <= L) by (split; nra).
  apply Rabs_le_inv in D1, D2, D3.
  assert (X1 : Rabs ((nn - rr) - (A * A - r * r)) <= 25 * u * L) by (apply Rabs_le; nra).
  assert (X2 : Rabs (nn - rr) <= 2 * L). { apply Rabs_le_inv in X1. apply Rabs_le. nra. }
  pose proof (rnd_close u t _ L (nn - rr) (A * A - r * r) b ltac:(lra) ltac:(lra) X1 H6 X2 Ht') as D4. apply Rabs_le_inv in D4.
  assert (Y1 : Rabs ((dd - b) - (dl * dl - A * A + r * r)) <= 71 * u * L) by (apply Rabs_le; nra).
  assert (Y2 : Rabs (dd - b) <= 2 * L). { apply Rabs_le_inv in Y1. apply Rabs_le. nra. }
  pose proof (rnd_close u t _ L (dd - b) (dl * dl - A * A + r * r) dc ltac:(lra) ltac:(lra) Y1 H7 Y2 Ht') as D5. eapply Rle_trans; [exact D5|]. lra.
Qed.
Lemma sqrt_close h D dc e : 0 < h -> D = h * h -> 0 <= dc -> Rabs (dc - D) <= e -> Rabs (R_sqrt.sqrt dc - h) <= e / h.
Proof.
  intros Hh -> Hd H. pose proof (sqrt_pos dc) as P. pose proof (sqrt_sqrt dc Hd) as E. set (s := R_sqrt.sqrt dc) in *. rewrite <- E in H. replace (s * s - h * h) with ((s - h) * (s + h)) in H by ring. rewrite Rabs_mult, (Rabs_pos_eq (s + h)) in H by lra.
  apply Rmult_le_reg_r with h; auto. unfold Rdiv. rewrite Rmult_assoc, Rinv_l, Rmult_1_r by lra. eapply Rle_trans; [|exact H]. apply Rmult_le_compat_l; [apply Rabs_pos|lra].
Qed.
(** One coordinate of an intersection point: [sg] is the sign of the root. *)
Lemma hit_err u t Lm dl dt h dc root sg ta U ui P s x e : 0 < u <= / 1000000 -> 0 < Lm -> 0 <= t -> t <= u * Lm -> Rabs dl <= Lm -> 0 < h <= Lm -> e = u * (Lm * Lm) / h -> 150 * e <= Lm -> (sg = 1 \/ sg = -1) -> Rabs U <= 1 ->
  Rabs (dt - dl) <= 19 * u * Lm -> 0 <= dc -> Rabs (dc - h * h) <= 75 * u * (Lm * Lm) -> Rabs (root - R_sqrt.sqrt dc) <= u * R_sqrt.sqrt dc + t ->
  Rabs (ta - (- dt + sg * root)) <= u * Rabs (- dt + sg * root) + t -> Rabs (ui - U) <= 10 * u -> Rabs (s - ta * ui) <= u * Rabs (ta * ui) + t -> Rabs (x - (P + s)) <= u * Rabs (P + s) ->
  Rabs (x - (P + (- dl + sg * h) * U)) <= u * Rabs (P + (- dl + sg * h) * U) + 130 * e.
Proof.
  intros Hu HL Ht Ht' Hdl Hh He HeL Hsg HU H1 Hdc H2 H3 H4 H5 H6 H7.
  assert (uLe : u * Lm <= e). { rewrite He. unfold Rdiv. rewrite Rmult_assoc. apply Rmult_le_compat_l; [lra|]. apply Rmult_le_reg_r with h; [lra|]. rewrite Rmult_assoc, Rinv_l, Rmult_1_r by lra. apply Rmult_le_compat_l; lra. }
  assert (e0 : 0 < e) by (assert (0 < u * Lm) by (apply Rmult_lt_0_compat; lra); lra). assert (ue : u * e <= / 1000000 * e) by (apply Rmult_le_compat_r; lra).
  assert (R1 : Rabs (R_sqrt.sqrt dc - h) <= 75 * e). { eapply Rle_trans; [apply (sqrt_close h (h * h) dc _ ltac:(lra) eq_refl Hdc H2)|]. right. rewrite He. field. lra. }
  apply Rabs_le_inv in R1. pose proof (sqrt_pos dc) as Ps. set (q := R_sqrt.sqrt dc) in *.
  assert (R2 : Rabs (root - h) <= 78 * e). { apply Rabs_le_inv in H3. assert (u * q <= u * (2 * Lm)) by (apply Rmult_le_compat_l; lra). apply Rabs_le. lra. }
  assert (R3 : Rabs ((- dt + sg * root) - (- dl + sg * h)) <= 97 * e).
  { replace ((- dt + sg * root) - (- dl + sg * h)) with (- (dt - dl) + sg * (root - h)) by ring. eapply Rle_trans; [apply Rabs_triang|]. rewrite Rabs_Ropp, Rabs_mult. assert (Rabs sg = 1) as -> by (unfold Rabs; destruct (Rcase_abs sg); lra). lra. }
  assert (T1 : Rabs (- dl + sg * h) <= 2 * Lm).
  { eapply Rle_trans; [apply Rabs_triang|]. rewrite Rabs_Ropp, Rabs_mult, (Rabs_pos_eq h) by lra. assert (Rabs sg = 1) as -> by (unfold Rabs; destruct (Rcase_abs sg); lra). lra. }
  set (tau := - dl + sg * h) in *. set (tf := - dt + sg * root) in *.
  assert (T2 : Rabs tf <= 3 * Lm). { replace tf with ((tf - tau) + tau) by ring. eapply Rle_trans; [apply Rabs_triang|]. lra. }
  assert (R4 : Rabs (ta - tau) <= 101 * e). { replace (ta - tau) with ((ta - tf) + (tf - tau)) by ring. eapply Rle_trans; [apply Rabs_triang|]. assert (u * Rabs tf <= u * (3 * Lm)) by (apply Rmult_le_compat_l; lra). lra. }
  assert (U1 : Rabs ui <= 1 + 10 * u). { replace ui with ((ui - U) + U) by ring. eapply Rle_trans; [apply Rabs_triang|]. lra. }
  assert (R5 : Rabs (ta * ui - tau * U) <= 122 * e).
  { replace (ta * ui - tau * U) with ((ta - tau) * ui + tau * (ui - U)) by ring. eapply Rle_trans; [apply Rabs_triang|]. rewrite !Rabs_mult.
    assert (Rabs (ta - tau) * Rabs ui <= 101 * e * (1 + 10 * u)) by (apply Rmult_le_compat; try apply Rabs_pos; auto). assert (Rabs tau * Rabs (ui - U) <= 2 * Lm * (10 * u)) by (apply Rmult_le_compat; try apply Rabs_pos; auto). lra. }
  assert (T3 : Rabs (tau * U) <= 2 * Lm). { rewrite Rabs_mult. assert (Rabs tau * Rabs U <= 2 * Lm * 1) by (apply Rmult_le_compat; try apply Rabs_pos; auto). lra. }
  assert (T4 : Rabs (ta * ui) <= 3 * Lm). { replace (ta * ui) with ((ta * ui - tau * U) + tau * U) by ring. eapply Rle_trans; [apply Rabs_triang|]. lra. }
  assert (R6 : Rabs (s - tau * U) <= 126 * e). { replace (s - tau * U) with ((s - ta * ui) + (ta * ui - tau * U)) by ring. eapply Rle_trans; [apply Rabs_triang|]. assert (u * Rabs (ta * ui) <= u * (3 * Lm)) by (apply Rmult_le_compat_l; lra). lra. }
  replace (x - (P + tau * U)) with ((x - (P + s)) + (s - tau * U)) by ring. eapply Rle_trans; [apply Rabs_triang|].
  assert (R7 : Rabs (P + s) <= Rabs (P + tau * U) + 126 * e). { replace (P + s) with ((P + tau * U) + (s - tau * U)) by ring. eapply Rle_trans; [apply Rabs_triang|]. lra. }
  assert (u * Rabs (P + s) <= u * (Rabs (P + tau * U) + 126 * e)) by (apply Rmult_le_compat_l; lra). lra.
Qed.

(** ** The intermediate quantities *)
Lemma sized_half v : Forall (within 200) v -> Forall half_moderate v.
Proof. intro H. eapply Forall_impl; [|exact H]. intros x (F & B). split; auto. eapply Rle_trans; [exact B|apply bpow_le; lia]. Qed.
Lemma sized_moderate v : Forall (within 200) v -> Forall moderate v.
Proof. intro H. eapply Forall_impl; [|exact H]. intros x (F & B). split; auto. eapply Rle_trans; [exact B|apply bpow_le; lia]. Qed.
Lemma len_bound3 (w : pt) B : length w = 3%nat -> 0 <= B -> Forall (fun x => Rabs x <= B) w -> len w <= 2 * B.
Proof.
  intros L HB F. destruct w as [|x [|y [|z [|]]]]; try discriminate L. inversion_clear F as [|? ? Hx F1]. inversion_clear F1 as [|? ? Hy F2]. inversion_clear F2 as [|? ? Hz F3].
  pose proof (len_nonneg [x; y; z]). apply Rsqr_incr_0; [|auto|lra]. unfold Rsqr. rewrite len_sq. cbn [dot].
  assert (S : forall a, Rabs a <= B -> a * a <= B * B) by (intros a Ha; rewrite <- (Rabs_pos_eq (a * a)), Rabs_mult by nra; apply Rmult_le_compat; auto using Rabs_pos). pose proof (S _ Hx). pose proof (S _ Hy). pose proof (S _ Hz). nra.
Qed.
Lemma dist_bound3 (p c : list flt) : length p = 3%nat -> length c = 3%nat -> Forall (within 200) p -> Forall (within 200) c -> dist (map FR p) (map FR c) <= bpow radix2 202.
Proof.
  intros Lp Lc Fp Fc. change 202%Z with (1 + 201)%Z. rewrite bpow_plus. change (bpow radix2 1) with 2. apply len_bound3; [rewrite length_sub, !map_length, Lp, Lc; reflexivity|apply bpow_ge_0|].
  destruct p as [|x [|y [|z [|]]]]; try discriminate Lp. destruct c as [|x' [|y' [|z' [|]]]]; try discriminate Lc. inversion_clear Fp as [|? ? Hx F1]. inversion_clear F1 as [|? ? Hy F2]. inversion_clear F2 as [|? ? Hz F3].
  inversion_clear Fc as [|? ? Hx' G1]. inversion_clear G1 as [|? ? Hy' G2]. inversion_clear G2 as [|? ? Hz' G3].
  assert (S : forall a b, within 200 a -> within 200 b -> Rabs (FR a - FR b) <= bpow radix2 201). { intros a b (_ & Ha) (_ & Hb). change 201%Z with (1 + 200)%Z. rewrite bpow_plus. change (bpow radix2 1) with 2. unfold Rminus. eapply Rle_trans; [apply Rabs_triang|]. rewrite Rabs_Ropp. lra. }
  cbn [map sub]. constructor; [apply S; auto|constructor; [apply S; auto|constructor; [apply S; auto|constructor]]].
Qed.
Lemma plane_of_line (c p v : list flt) l : line_new (N:=FNum) p v = Ok l -> length c = length p -> Forall finite c -> plane_new (N:=FNum) c v = Ok (MkPlane (N:=FNum) c v).
Proof.
  intros H L F. assert (H' := H). apply line_new_F in H' as (-> & Np & Lv). unfold line_new, check_point_vector in H. unfold plane_new, check_point_vector. change (point_of (N:=FNum)) with (vector_of (N:=FNum)) in *.
  assert (Nc : c <> []) by (intro Z; subst c; destruct p; [contradiction|discriminate L]). rewrite (vector_of_ok c Nc F). cbn [bind]. destruct (vector_of p) as [p'| |] eqn:Ep; cbn [bind] in H; try discriminate H. rewrite vector_of_F in Ep.
  destruct (Nat.eqb (length p) 0); [discriminate Ep|]. destruct (negb (forallb f_finite p)); [discriminate Ep|]. injection Ep as <-.
  destruct (vector_of v) as [v'| |] eqn:Ev; cbn [bind] in H |- *; try discriminate H. unfold dim1 in *. assert (L' : @length flt c = @length flt p) by exact L. fn. rewrite L'. destruct (negb (Nat.eqb (length p) (length v'))); [discriminate H|].
  destruct (is_zero tol_default v') as [z| |]; cbn [bind] in H |- *; try discriminate H. destruct z; [discriminate H|]. cbn [bind] in H |- *. injection H as ->. reflexivity.
Qed.

Section Core.
Variables (c p v : list flt) (r : flt) (l : line FNum).
Hypothesis Lc : length c = 3%nat.
Hypothesis Lp : length p = 3%nat.
Hypothesis Hl : line_new (N:=FNum) p v = Ok l.
Hypothesis Hc : Forall (within 200) c.
Hypothesis Hp : Forall (within 200) p.
Hypothesis Hv : Forall (within 200) v.
Hypothesis Hr : within 200 r.
Hypothesis r0 : bpow radix2 (-200) <= FR r.
Hypothesis v0 : bpow radix2 (-200) <= len (map FR v).
Let A := dist (map FR p) (map FR c).
Let K := len (map FR v).
Let dl := dot (sub (map FR p) (map FR c)) (map FR v) / K.
Let D := dl * dl - A * A + FR r * FR r.
Let L2 := A * A + FR r * FR r.
Let Lm := R_sqrt.sqrt L2.

Lemma basics : 0 <= A <= bpow radix2 202 /\ 0 < FR r <= bpow radix2 200 /\ 0 < K /\ Lm * Lm = L2 /\ A <= Lm /\ FR r <= Lm /\ bpow radix2 (-200) <= Lm <= bpow radix2 203 /\ Rabs dl <= A /\ length v = 3%nat.
Proof.
  pose proof (bpow_gt_0 radix2 (-200)) as B0. assert (A0 : 0 <= A) by apply len_nonneg. assert (AB : A <= bpow radix2 202) by (apply dist_bound3; auto). assert (rB : FR r <= bpow radix2 200) by (destruct Hr as (_ & B); apply Rabs_le_inv in B; lra).
  assert (K0 : 0 < K) by (unfold K; lra). assert (LL : Lm * Lm = L2) by (apply sqrt_sqrt; unfold L2; nra). assert (Lm0 : 0 <= Lm) by apply sqrt_pos. unfold L2 in LL. assert (AL : A <= Lm) by nra. assert (rL : FR r <= Lm) by nra.
  assert (Lv : length v = 3%nat) by (destruct (line_new_F p v l Hl) as (_ & _ & E); congruence).
  split; [lra|]. split; [lra|]. split; auto. split; auto. split; auto. split; auto. split; [|split; auto].
  - split; [lra|]. apply Rle_trans with (A + FR r); [nra|]. change 203%Z with (1 + 202)%Z. rewrite bpow_plus. change (bpow radix2 1) with 2. assert (bpow radix2 200 <= bpow radix2 202) by (apply bpow_le; lia). lra.
  - unfold dl. unfold Rdiv. rewrite Rabs_mult, Rabs_inv, (Rabs_pos_eq K) by lra. apply Rmult_le_reg_r with K; auto. rewrite Rmult_assoc, Rinv_l, Rmult_1_r by lra. apply cauchy_schwarz. len.
Qed.
Lemma slack e : (e <= -500)%Z -> bpow radix2 e <= uro * Lm.
Proof.
  intro He. destruct basics as (_ & _ & _ & _ & _ & _ & (B & _) & _). apply Rle_trans with (bpow radix2 (-53) * bpow radix2 (-200)); [rewrite <- bpow_plus; apply bpow_le; lia|]. apply Rmult_le_compat_l; [apply bpow_ge_0|exact B].
Qed.
Lemma slack2 e : (e <= -500)%Z -> bpow radix2 e <= uro * (Lm * Lm).
Proof.
  intro He. destruct basics as (_ & _ & _ & _ & _ & _ & (B & _) & _). pose proof (bpow_gt_0 radix2 (-200)). apply Rle_trans with (bpow radix2 (-53) * (bpow radix2 (-200) * bpow radix2 (-200))); [rewrite <- !bpow_plus; apply bpow_le; lia|]. apply Rmult_le_compat_l; [apply bpow_ge_0|]. apply Rmult_le_compat; lra.
Qed.
Lemma quantities : exists (o w : list flt) (dt n : flt), from_points (N:=FNum) c p = Ok o /\ unit_vec (N:=FNum) v = Ok w /\ np_dot (N:=FNum) w o = Ok dt /\ norm (N:=FNum) o = Ok n /\
  Forall2 (fun y x => within 1 y /\ Rabs (FR y - FR x / K) <= 10 * uro) w v /\
  within 204 dt /\ within 204 n /\ Rabs (FR dt - dl) <= 19 * uro * Lm /\ Rabs (FR n - A) <= 9 * uro * Lm.
Proof.
  destruct basics as (HA & Hr' & HK & LL & AL & rL & (LB & LB') & Hd & Lv). assert (Lcp : length c = length p) by congruence. assert (Fc : Forall finite c) by (eapply Forall_impl; [|exact Hc]; intros x (F & _); exact F).
  assert (Nc : c <> []) by (intro Z; rewrite Z in Lc; discriminate). assert (Lnc : (Z.of_nat (length c) <= max_dim)%Z) by (rewrite Lc; vm_compute; discriminate). assert (Lnv : (Z.of_nat (length v) <= max_dim)%Z) by (rewrite Lv; vm_compute; discriminate).
  assert (V4 : bpow radix2 (-400) <= len (map FR v)) by (eapply Rle_trans; [apply bpow_le|exact v0]; lia).
  pose proof (plane_of_line c p v l Hl Lcp Fc) as Hpl.
  destruct (C84_plane_distance_signed c v p _ Hpl (eq_sym Lcp) Lnc (sized_half _ Hc) (sized_half _ Hp) (sized_moderate _ Hv) V4) as (dt & Edt & Fdt & Hdt).
  destruct (from_points_F c p Nc Lcp (sized_half _ Hc) (sized_half _ Hp)) as (Eo & _). destruct (C73_unit_accurate v Lnv (sized_moderate _ Hv) V4) as (w & Ew & Hw).
  destruct (C73_distance_accurate c p Nc Lcp Lnc (sized_moderate _ Hc) (sized_moderate _ Hp)) as (n & En & Fn & Hn).
  exists (map2 (N:=FNum) PrimFloat.sub p c), w, dt, n. split; [exact Eo|]. split; [exact Ew|].
  unfold plane_distance_point_signed, scalar_projection in Edt. cbn [pl_point pl_normal] in Edt. rewrite Eo in Edt. cbn [bind] in Edt. rewrite Ew in Edt. cbn [bind] in Edt. split; [exact Edt|].
  unfold distance_point in En. rewrite Eo in En. cbn [bind] in En. split; [exact En|]. rewrite Lc in Hdt, Hn. rewrite Lv in Hw. change (INR 3) with (1 + 1 + 1) in *. fold uro in Hdt, Hn, Hw. fold K dl in Hdt. fold K in Hw. rewrite dist_sym in Hdt, Hn. fold A in Hdt, Hn.
  pose proof (slack (-550) ltac:(lia)) as S1. pose proof (slack (-520) ltac:(lia)) as S2. pose proof uro_tiny as U.
  assert (UA : uro * A <= uro * Lm) by (apply Rmult_le_compat_l; lra). assert (U0 : 0 <= uro * Lm) by (apply Rmult_le_pos; lra). assert (U1 : uro * Lm <= / 1000000 * Lm) by (apply Rmult_le_compat_r; lra).
  assert (R1 : Rabs (FR dt - dl) <= 19 * uro * Lm) by (eapply Rle_trans; [exact Hdt|]; lra). assert (R2 : Rabs (FR n - A) <= 9 * uro * Lm) by (eapply Rle_trans; [exact Hn|]; lra).
  assert (B4 : bpow radix2 204 = 2 * bpow radix2 203) by (change 204%Z with (1 + 203)%Z; rewrite bpow_plus; reflexivity).
  split; [|split; [split; [exact Fdt|]|split; [split; [exact Fn|]|split; [exact R1|exact R2]]]].
  - assert (CO : forall x, In x v -> Rabs (FR x / K) <= 1).
    { intros x Hx. unfold Rdiv. rewrite Rabs_mult, Rabs_inv, (Rabs_pos_eq K) by lra. apply Rmult_le_reg_r with K; auto. rewrite Rmult_assoc, Rinv_l, Rmult_1_r, Rmult_1_l by lra.
      assert (M : forall l', In x l' -> FR x * FR x <= dot (map FR l') (map FR l')). { clear. induction l' as [|y l' IH]; intro H; [destruct H|]. destruct H as [->|H]; cbn [map dot]; [pose proof (dot_self_nonneg (map FR l')); lra|specialize (IH H); nra]. }
      specialize (M v Hx). rewrite <- len_sq in M. fold K in M. apply Rsqr_incr_0; unfold Rsqr; [rewrite <- Rabs_mult, Rabs_pos_eq by nra; exact M|apply Rabs_pos|lra]. }
    assert (T : bpow radix2 (-1075) <= uro) by (apply bpow_le; lia).
    assert (G : forall w' v' : list flt, Forall2 (fun y x => finite y /\ Rabs (FR y - FR x / K) <= (1 + 1 + 1 + 6) * uro * (Rabs (FR x) / K) + bpow radix2 (-1075)) w' v' -> (forall x, In x v' -> Rabs (FR x / K) <= 1) ->
      Forall2 (fun y x => within 1 y /\ Rabs (FR y - FR x / K) <= 10 * uro) w' v').
    { intros w' v' H. induction H as [|y x w' v' (Fy & Hy) H IH]; intro CO'; constructor; [|apply IH; intros; apply CO'; right; auto].
      pose proof (CO' x (or_introl eq_refl)) as Cx. assert (Ex : Rabs (FR x) / K = Rabs (FR x / K)) by (unfold Rdiv; rewrite Rabs_mult, Rabs_inv, (Rabs_pos_eq K) by lra; reflexivity). rewrite Ex in Hy.
      assert (Hy' : Rabs (FR y - FR x / K) <= 10 * uro). { eapply Rle_trans; [exact Hy|]. assert (uro * Rabs (FR x / K) <= uro * 1) by (apply Rmult_le_compat_l; lra). lra. }
      split; [|exact Hy']. split; [exact Fy|]. change (bpow radix2 1) with 2. replace (FR y) with ((FR y - FR x / K) + FR x / K) by ring. eapply Rle_trans; [apply Rabs_triang|]. lra. }
    apply G; [exact Hw|exact CO].
  - replace (FR dt) with ((FR dt - dl) + dl) by ring. eapply Rle_trans; [apply Rabs_triang|]. lra.
  - replace (FR n) with ((FR n - A) + A) by ring. eapply Rle_trans; [apply Rabs_triang|]. rewrite (Rabs_pos_eq A) by lra. lra.
Qed.

(** The discriminant, in floating point. *)
Definition disc_F (dt n r : flt) : flt := (dt * dt - (n * n - r * r))%float.
Lemma disc_ok dt n : within 204 dt -> within 204 n -> Rabs (FR dt - dl) <= 19 * uro * Lm -> Rabs (FR n - A) <= 9 * uro * Lm ->
  within 410 (disc_F dt n r) /\ Rabs (FR (disc_F dt n r) - D) <= 75 * uro * (Lm * Lm).
Proof.
  intros W1 W2 H1 H2. destruct basics as (HA & Hr' & HK & LL & AL & rL & (LB & LB') & Hd & Lv). pose proof uro_tiny as U. pose proof (bpow_gt_0 radix2 (-200)) as B0.
  destruct (within_mul 204 204 dt dt ltac:(lia) W1 W1) as (Q1 & E1). destruct (within_mul 204 204 n n ltac:(lia) W2 W2) as (Q2 & E2). destruct (within_mul 200 200 r r ltac:(lia) Hr Hr) as (Q3 & E3).
  destruct (within_sub 408 (n * n) (r * r) ltac:(lia) Q2 ltac:(apply (within_le 400 408); [lia|exact Q3])) as (Q4 & E4). destruct (within_sub 409 (dt * dt) (n * n - r * r) ltac:(lia) ltac:(apply (within_le 408 409); [lia|exact Q1]) Q4) as (Q5 & E5).
  split; [exact Q5|]. unfold D. pose proof (slack2 (-1075) ltac:(lia)) as S. fold eta in S. unfold disc_F.
  apply (disc_err uro eta Lm A (FR r) dl (FR dt) (FR (dt * dt)%float) (FR n) (FR (n * n)%float) (FR (r * r)%float) (FR (n * n - r * r)%float)); auto; try lra.
  - pose proof eta_pos; lra.
  - rewrite E1. apply rnd_err.
  - rewrite E2. apply rnd_err.
  - rewrite E3. apply rnd_err.
  - rewrite E4. apply rnd_err.
  - rewrite E5. apply rnd_err.
Qed.

(** One coordinate of a returned point. *)
Lemma coord_ok (sg h : R) (dt n root ta ui pi : flt) (U : R) : within 204 dt -> within 204 n -> Rabs (FR dt - dl) <= 19 * uro * Lm -> Rabs (FR n - A) <= 9 * uro * Lm ->
  0 < h -> D = h * h -> 75 * uro * L2 < D -> root = PrimFloat.sqrt (disc_F dt n r) -> (sg = 1 \/ sg = -1) -> FR ta = rnd (- FR dt + sg * FR root) -> within 206 ta ->
  within 1 ui -> Rabs U <= 1 -> Rabs (FR ui - U) <= 10 * uro -> within 200 pi ->
  finite (pi + ta * ui)%float /\ Rabs (FR (pi + ta * ui)%float - (FR pi + (- dl + sg * h) * U)) <= uro * Rabs (FR pi + (- dl + sg * h) * U) + 130 * (uro * L2 / h).
Proof.
  intros W1 W2 H1 H2 Hh HD Hbig Hroot Hsg Eta Wta Wui HU Hui Wpi. destruct basics as (HA & Hr' & HK & LL & AL & rL & (LB & LB') & Hd & Lv). pose proof uro_tiny as UT. pose proof (bpow_gt_0 radix2 (-200)) as B0.
  destruct (disc_ok dt n W1 W2 H1 H2) as ((Fd & _) & Hdc). set (dc := disc_F dt n r) in *. rewrite HD in Hdc. rewrite LL in Hdc. rewrite HD in Hbig.
  assert (dc0 : 0 < FR dc) by (apply Rabs_le_inv in Hdc; lra). destruct (fin_sqrt dc Fd (or_introl dc0)) as (Fs & Es). rewrite <- Hroot in Fs, Es.
  destruct (within_mul 206 1 ta ui ltac:(lia) Wta Wui) as (Q1 & E1). destruct (within_add 207 pi (ta * ui) ltac:(lia) ltac:(apply (within_le 200 207); [lia|exact Wpi]) Q1) as (Q2 & E2).
  split; [exact (proj1 Q2)|]. rewrite <- LL.
  assert (hL : h <= Lm). { assert (h * h <= Lm * Lm). { rewrite LL, <- HD. unfold D, L2. assert (dl * dl <= A * A) by (rewrite <- (Rabs_pos_eq (dl * dl)), Rabs_mult by nra; apply Rmult_le_compat; auto using Rabs_pos). nra. } nra. }
  assert (uL : 0 < uro * Lm) by (apply Rmult_lt_0_compat; lra).
  assert (He : 150 * (uro * (Lm * Lm) / h) <= Lm).
  { rewrite <- LL in Hbig. apply Rmult_le_reg_r with h; auto. unfold Rdiv. replace (150 * (uro * (Lm * Lm) * / h) * h) with (150 * uro * (Lm * Lm)) by (field; lra).
    assert (150 * uro * Lm <= h). { apply Rsqr_incr_0; unfold Rsqr; [|nra|lra]. apply Rle_trans with (75 * uro * (Lm * Lm)); [|lra]. replace (150 * uro * Lm * (150 * uro * Lm)) with (300 * uro * (75 * uro * (Lm * Lm))) by ring. assert (0 <= 75 * uro * (Lm * Lm)) by nra. nra. } nra. }
  pose proof (slack (-1075) ltac:(lia)) as S. fold eta in S. pose proof eta_pos as EP.
  apply (hit_err uro eta Lm dl (FR dt) h (FR dc) (FR root) sg (FR ta) U (FR ui) (FR pi) (FR (ta * ui)%float) _ _ UT); auto; try lra.
  - rewrite LL. exact Hdc.
  - rewrite Es. pose proof (rnd_err (R_sqrt.sqrt (FR dc))) as Q. rewrite (Rabs_pos_eq (R_sqrt.sqrt (FR dc))) in Q by apply sqrt_pos. exact Q.
  - rewrite Eta. apply rnd_err.
  - rewrite E1. apply rnd_err.
  - rewrite E2. apply rnd_plus.
Qed.
End Core.

(** ** The exact intersection points *)
Lemma chord3 (c p v f : pt) K dl h r : length c = 3%nat -> length p = 3%nat -> length v = 3%nat -> 0 < K -> K * K = dot v v -> dl = dot (sub p c) v / K -> on_line p v f -> dot (sub c f) v = 0 ->
  let A2 := dist p c * dist p c in
  dist c f * dist c f = A2 - dl * dl /\
  (0 < r -> h * h = dl * dl - A2 + r * r -> forall sg, (sg = 1 \/ sg = -1) -> let X := add p (scale ((- dl + sg * h) / K) v) in on_line p v X /\ on_sphere c r X).
Proof.
  intros Lc Lp Lv HK KK Edl (t & ->) Hf A2. unfold A2, dist. rewrite !len_sq.
  destruct c as [|c1 [|c2 [|c3 [|]]]]; try discriminate Lc. destruct p as [|p1 [|p2 [|p3 [|]]]]; try discriminate Lp. destruct v as [|v1 [|v2 [|v3 [|]]]]; try discriminate Lv.
  cbn [dot sub add scale map] in *.
  assert (Edl' : dl * K = (p1 - c1) * v1 + ((p2 - c2) * v2 + ((p3 - c3) * v3 + 0))) by (rewrite Edl; field; lra).
  assert (Et : t * K = - dl). { apply Rmult_eq_reg_r with K; [|lra]. rewrite Rmult_assoc, KK. lra. }
  split.
  - replace (dl * dl) with ((t * K) * (t * K)) by (rewrite Et; ring). replace (t * K * (t * K)) with (t * t * (K * K)) by ring. rewrite KK. assert (E : t * (K * K) = - (dl * K)) by (rewrite <- Rmult_assoc, Et; ring). rewrite KK, Edl' in E.
    assert (E2 : t * (t * (v1 * v1 + (v2 * v2 + (v3 * v3 + 0)))) = t * - ((p1 - c1) * v1 + ((p2 - c2) * v2 + ((p3 - c3) * v3 + 0)))) by (rewrite E; reflexivity). lra.
  - intros Hr Hh sg Hsg. split; [exists ((- dl + sg * h) / K); reflexivity|]. split; [reflexivity|]. unfold dist, len. cbn [sub].
    set (tau := - dl + sg * h). assert (T2 : tau * tau + 2 * dl * tau = h * h - dl * dl) by (unfold tau; destruct Hsg as [-> | ->]; ring). set (q := tau / K). assert (Eq : tau = q * K) by (unfold q; field; lra).
    rewrite <- (sqrt_square r) by lra. apply (f_equal R_sqrt.sqrt). cbn [dot]. rewrite Eq in T2. replace (q * K * (q * K)) with (q * q * (K * K)) in T2 by ring. replace (2 * dl * (q * K)) with (2 * q * (dl * K)) in T2 by ring. rewrite KK, Edl', Hh in T2. lra.
Qed.
Lemma chord_order (p v : pt) K (t1 t2 : R) : length p = 3%nat -> length v = 3%nat -> 0 < K -> K * K = dot v v -> t1 < t2 -> 0 < dot (sub (add p (scale (t2 / K) v)) (add p (scale (t1 / K) v))) v.
Proof.
  intros Lp Lv HK KK Ht. destruct p as [|p1 [|p2 [|p3 [|]]]]; try discriminate Lp. destruct v as [|v1 [|v2 [|v3 [|]]]]; try discriminate Lv. cbn [dot sub add scale map] in *.
  replace (_ + _) with ((t2 / K - t1 / K) * (v1 * v1 + (v2 * v2 + (v3 * v3 + 0)))) by ring. rewrite <- KK. replace ((t2 / K - t1 / K) * (K * K)) with ((t2 - t1) * K) by (field; lra). apply Rmult_lt_0_compat; lra.
Qed.

(** ** The theorem *)
Lemma sphere_F c r s : Forall finite c -> sphere_new (N:=FNum) c r = Ok s -> s = MkBall (N:=FNum) c r /\ length c = 3%nat.
Proof.
  intros F H. unfold sphere_new, base_sphere_new in H. change (point_of (N:=FNum)) with (vector_of (N:=FNum)) in H. rewrite vector_of_F in H. destruct (nleb r n0); cbn [bind] in H; [discriminate|]. destruct (Nat.eqb (length c) 0) eqn:E; cbn [bind] in H; [discriminate|].
  rewrite (all_finite _ F) in H. cbn [negb bind c_point] in H. unfold dim1 in H. destruct (Nat.eqb_spec (@length flt c) 3) as [L|L].
  - split; [|exact L]. fn. rewrite L in H. cbn in H. injection H as <-. reflexivity.
  - exfalso. fn. destruct (Nat.eqb (length c) 3) eqn:E'; [apply Nat.eqb_eq in E'; contradiction|]. discriminate H.
Qed.

Theorem C90_sphere_intersect_line : forall (c p v : list flt) (r : flt) s l, sphere_new (N:=FNum) c r = Ok s -> line_new (N:=FNum) p v = Ok l -> length p = 3%nat ->
  Forall (within 200) c -> Forall (within 200) p -> Forall (within 200) v -> within 200 r -> bpow radix2 (-200) <= FR r -> bpow radix2 (-200) <= len (map FR v) ->
  forall f, on_line (map FR p) (map FR v) f -> dot (sub (map FR c) f) (map FR v) = 0 ->
  let d2 := dist (map FR c) f * dist (map FR c) f in let r2 := FR r * FR r in let L2 := dist (map FR p) (map FR c) * dist (map FR p) (map FR c) + r2 in
  (r2 + 75 * bpow radix2 (-53) * L2 < d2 -> sphere_intersect_line s l = Raise (ValueError "The line does not intersect the sphere.")) /\
  (d2 + 75 * bpow radix2 (-53) * L2 < r2 -> exists a b X Y, sphere_intersect_line s l = Ok (a, b) /\
     (on_line (map FR p) (map FR v) X /\ on_sphere (map FR c) (FR r) X) /\ (on_line (map FR p) (map FR v) Y /\ on_sphere (map FR c) (FR r) Y) /\ 0 < dot (sub Y X) (map FR v) /\
     let close x y := finite x /\ Rabs (FR x - y) <= bpow radix2 (-53) * Rabs y + 130 * bpow radix2 (-53) * L2 / R_sqrt.sqrt (r2 - d2) in
     Forall2 close a X /\ Forall2 close b Y).
Proof.
  intros c p v r s l Hs Hl Lp Hc Hp Hv Hr r0 v0 f Of Hf d2 r2 L2. fold uro. assert (Fc : Forall finite c) by (eapply Forall_impl; [|exact Hc]; intros x (F & _); exact F).
  apply sphere_F in Hs as (-> & Lc); auto. assert (Hl' := Hl). apply line_new_F in Hl' as (-> & Np & Lvp).
  destruct (basics c p v r _ Lc Lp Hl Hc Hp Hr r0 v0) as (HA & Hr' & HK & LL & AL & rL & (LB & LB') & Hd & Lv).
  destruct (quantities c p v r _ Lc Lp Hl Hc Hp Hv Hr r0 v0) as (o & w & dt & n & Eo & Ew & Edt & En & Fw & W1 & W2 & Q1 & Q2).
  destruct (disc_ok c p v r _ Lc Lp Hl Hc Hp Hr r0 v0 dt n W1 W2 Q1 Q2) as ((Fdc & Bdc) & Hdc).
  assert (KK : len (map FR v) * len (map FR v) = dot (map FR v) (map FR v)) by apply len_sq.
  set (K := len (map FR v)) in *. set (A := dist (map FR p) (map FR c)) in *. set (dl := dot (sub (map FR p) (map FR c)) (map FR v) / K) in *.
  assert (Lc' : length (map FR c) = 3%nat) by (rewrite map_length; exact Lc). assert (Lp' : length (map FR p) = 3%nat) by (rewrite map_length; exact Lp). assert (Lv' : length (map FR v) = 3%nat) by (rewrite map_length; exact Lv).
  set (h := R_sqrt.sqrt (r2 - d2)).
  destruct (chord3 (map FR c) (map FR p) (map FR v) f K dl h (FR r) Lc' Lp' Lv' HK KK eq_refl Of Hf) as (Ed2 & Hchord). fold d2 in Ed2. fold A in Ed2, Hchord.
  fold r2 in Hdc, LL. assert (ED : dl * dl - A * A + r2 = r2 - d2) by (rewrite Ed2; ring). rewrite ED, LL in Hdc. fold L2 in Hdc. set (dc := disc_F dt n r) in *. apply Rabs_le_inv in Hdc. destruct zero_F as (Z0 & Fz).
  assert (uL2 : 0 <= 75 * uro * L2) by (pose proof uro_pos; assert (0 <= L2) by (unfold L2, r2; nra); nra).
  unfold sphere_intersect_line. cbn [c_point c_radius l_point l_dir]. rewrite Eo. cbn [bind]. rewrite Ew. cbn [bind]. rewrite Edt. cbn [bind]. rewrite En. cbn [bind].
  change (nsub (nmul dt dt) (nsub (nmul n n) (nmul r r))) with dc. change (nltb (n:=FNum)) with PrimFloat.ltb. change (n0 (n:=FNum)) with 0%float.
  split; intro Hcase.
  - rewrite (proj2 (ltb_F dc 0%float Fdc Fz)) by lra. reflexivity.
  - assert (LT : PrimFloat.ltb dc 0 = false) by (destruct (PrimFloat.ltb dc 0) eqn:E; auto; apply (ltb_F dc 0%float Fdc Fz) in E; lra). rewrite LT. unfold math_sqrt. change (nltb (n:=FNum)) with PrimFloat.ltb. change (n0 (n:=FNum)) with 0%float. rewrite LT. cbn [bind]. change (nsqrt (n:=FNum) dc) with (PrimFloat.sqrt dc).
    assert (h0 : 0 < h) by (apply sqrt_lt_R0; lra). assert (hh : h * h = r2 - d2) by (apply sqrt_sqrt; lra).
    assert (dc0 : 0 < FR dc) by lra. destruct (fin_sqrt dc Fdc (or_introl dc0)) as (Frt & Ert). remember (PrimFloat.sqrt dc) as root eqn:Eroot.
    assert (Wrt : within 205 root).
    { split; auto. rewrite Ert. apply rnd_bpow_le; [lia|]. rewrite Rabs_pos_eq by apply sqrt_pos. apply Rle_trans with (R_sqrt.sqrt (bpow radix2 410)); [apply sqrt_le_1_alt; apply Rabs_le_inv in Bdc; lra|]. change 410%Z with (205 + 205)%Z. rewrite bpow_plus, sqrt_square by apply bpow_ge_0. apply Rle_refl. }
    destruct minus1_F as (Wm & Em). destruct plus1_F as (Wp & Ep).
    destruct (within_mul 0 205 (f_ofZ (-1)) root ltac:(lia) Wm Wrt) as (Wmr & Emr). destruct (within_mul 0 205 1%float root ltac:(lia) Wp Wrt) as (Wpr & Epr).
    rewrite Em in Emr. rewrite Ep in Epr. replace (-1 * FR root) with (- FR root) in Emr by ring. rewrite rnd_opp, (rnd_FR root Frt) in Emr. rewrite Rmult_1_l, (rnd_FR root Frt) in Epr.
    assert (Wdt : within 205 (- dt)%float). { destruct W1 as (F1 & B1). split; [apply opp_finite; exact F1|]. rewrite opp_F, Rabs_Ropp. eapply Rle_trans; [exact B1|apply bpow_le; lia]. }
    destruct (within_add 205 (- dt) (f_ofZ (-1) * root) ltac:(lia) Wdt Wmr) as (Wa & Ea). destruct (within_add 205 (- dt) (1 * root) ltac:(lia) Wdt Wpr) as (Wb & Eb). rewrite opp_F, Emr in Ea. rewrite opp_F, Epr in Eb. change (205 + 1)%Z with 206%Z in *.
    change (nadd (n:=FNum) (nopp dt) (nmul (nofZ (-1)) root)) with (- dt + f_ofZ (-1) * root)%float. change (nadd (n:=FNum) (nopp dt) (nmul n1 root)) with (- dt + 1 * root)%float. set (ta := (- dt + f_ofZ (-1) * root)%float) in *. set (tb := (- dt + 1 * root)%float) in *.
    assert (Ea' : FR ta = rnd (- FR dt + -1 * FR root)) by (rewrite Ea; f_equal; ring). assert (Eb' : FR tb = rnd (- FR dt + 1 * FR root)) by (rewrite Eb; f_equal; ring).
    assert (Hbig : 75 * uro * (A * A + r2) < dl * dl - A * A + r2) by (rewrite ED; fold L2; lra). assert (HhD : dl * dl - A * A + r2 = h * h) by (rewrite ED; auto).
    pose proof (coord_ok c p v r _ Lc Lp Hl Hc Hp Hr r0 v0) as CO. fold A K in CO. fold dl in CO. fold r2 in CO. fold L2 in CO.
    assert (COa : forall (ui pi : flt) U, within 1 ui -> Rabs U <= 1 -> Rabs (FR ui - U) <= 10 * uro -> within 200 pi -> finite (pi + ta * ui)%float /\ Rabs (FR (pi + ta * ui)%float - (FR pi + (- dl + -1 * h) * U)) <= uro * Rabs (FR pi + (- dl + -1 * h) * U) + 130 * (uro * L2 / h))
      by (intros ui pi U V1 V2 V3 V4; apply (CO (-1) h dt n root ta ui pi U); auto).
    assert (COb : forall (ui pi : flt) U, within 1 ui -> Rabs U <= 1 -> Rabs (FR ui - U) <= 10 * uro -> within 200 pi -> finite (pi + tb * ui)%float /\ Rabs (FR (pi + tb * ui)%float - (FR pi + (- dl + 1 * h) * U)) <= uro * Rabs (FR pi + (- dl + 1 * h) * U) + 130 * (uro * L2 / h))
      by (intros ui pi U V1 V2 V3 V4; apply (CO 1 h dt n root tb ui pi U); auto).
    clear CO. change (r2 - d2) with (r2 - d2) in *.
    exists (map2 (N:=FNum) PrimFloat.add p (vscale (N:=FNum) ta w)), (map2 (N:=FNum) PrimFloat.add p (vscale (N:=FNum) tb w)), (add (map FR p) (scale ((- dl + -1 * h) / K) (map FR v))), (add (map FR p) (scale ((- dl + 1 * h) / K) (map FR v))).
    assert (hh' : h * h = dl * dl - A * A + FR r * FR r) by (fold r2; lra).
    assert (CX := Hchord (proj1 Hr') hh' (-1) (or_intror eq_refl)). assert (CY := Hchord (proj1 Hr') hh' 1 (or_introl eq_refl)). cbv zeta in CX, CY.
    assert (COL : forall x, In x v -> Rabs (FR x / K) <= 1).
    { intros x Hx. unfold Rdiv. rewrite Rabs_mult, Rabs_inv, (Rabs_pos_eq K) by lra. apply Rmult_le_reg_r with K; auto. rewrite Rmult_assoc, Rinv_l, Rmult_1_r, Rmult_1_l by lra.
      assert (M : forall l', In x l' -> FR x * FR x <= dot (map FR l') (map FR l')). { clear. induction l' as [|y l' IH]; intro H; [destruct H|]. destruct H as [->|H]; cbn [map dot]; [pose proof (dot_self_nonneg (map FR l')); lra|specialize (IH H); nra]. }
      specialize (M v Hx). rewrite <- KK in M. apply Rsqr_incr_0; unfold Rsqr; [rewrite <- Rabs_mult, Rabs_pos_eq by nra; exact M|apply Rabs_pos|lra]. }
    assert (GEN : forall (t : flt) (tau : R), (forall (ui pi : flt) U, within 1 ui -> Rabs U <= 1 -> Rabs (FR ui - U) <= 10 * uro -> within 200 pi -> finite (pi + t * ui)%float /\ Rabs (FR (pi + t * ui)%float - (FR pi + tau * U)) <= uro * Rabs (FR pi + tau * U) + 130 * (uro * L2 / h)) ->
      Forall2 (fun x y => finite x /\ Rabs (FR x - y) <= uro * Rabs y + 130 * uro * L2 / h) (map2 (N:=FNum) PrimFloat.add p (vscale (N:=FNum) t w)) (add (map FR p) (scale (tau / K) (map FR v)))).
    { intros t tau CO. assert (Lw : length w = length v) by exact (Forall2_len _ _ _ Fw). clear Hchord CX CY COa COb. clear - CO Fw Hp COL Lp Lv Lw.
      destruct p as [|p1 [|p2 [|p3 [|]]]]; try discriminate Lp. destruct v as [|v1 [|v2 [|v3 [|]]]]; try discriminate Lv. destruct w as [|w1 [|w2 [|w3 [|]]]]; try discriminate Lw.
      inversion_clear Fw as [|? ? ? ? (a1 & b1) F1]. inversion_clear F1 as [|? ? ? ? (a2 & b2) F2]. inversion_clear F2 as [|? ? ? ? (a3 & b3) F3]. inversion_clear Hp as [|? ? q1 G1]. inversion_clear G1 as [|? ? q2 G2]. inversion_clear G2 as [|? ? q3 G3].
      assert (ST : forall pi wi vi, within 1 wi -> Rabs (FR wi - FR vi / K) <= 10 * uro -> within 200 pi -> Rabs (FR vi / K) <= 1 -> finite (pi + t * wi)%float /\ Rabs (FR (pi + t * wi)%float - (FR pi + tau / K * FR vi)) <= uro * Rabs (FR pi + tau / K * FR vi) + 130 * uro * L2 / h).
      { intros pi wi vi X1 X2 X3 X4. destruct (CO wi pi (FR vi / K) X1 X4 X2 X3) as (Y1 & Y2). split; [exact Y1|]. replace (tau / K * FR vi) with (tau * (FR vi / K)) by (unfold Rdiv; ring). replace (130 * uro * L2 / h) with (130 * (uro * L2 / h)) by (unfold Rdiv; ring). exact Y2. }
      cbn [map2 vscale map add scale]. constructor; [apply ST; auto; apply COL; left; reflexivity|]. constructor; [apply ST; auto; apply COL; right; left; reflexivity|]. constructor; [apply ST; auto; apply COL; right; right; left; reflexivity|constructor]. }
    pose proof (GEN ta (- dl + -1 * h) COa) as FA. pose proof (GEN tb (- dl + 1 * h) COb) as FB. clear GEN COa COb.
    assert (Lw : @length flt w = @length flt p) by (transitivity (@length flt v); [exact (Forall2_len _ _ _ Fw)|exact Lvp]).
    split; [|split; [exact CX|split; [exact CY|split; [apply chord_order; auto; lra|]]]].
    + assert (OKP : forall (t : flt) Y, Forall2 (fun x y => finite x /\ Rabs (FR x - y) <= uro * Rabs y + 130 * uro * L2 / h) (map2 (N:=FNum) PrimFloat.add p (vscale (N:=FNum) t w)) Y -> point_of (N:=FNum) (map2 (N:=FNum) PrimFloat.add p (vscale (N:=FNum) t w)) = Ok (map2 (N:=FNum) PrimFloat.add p (vscale (N:=FNum) t w))).
      { intros t Y F. change (point_of (N:=FNum)) with (vector_of (N:=FNum)). apply vector_of_ok; [|eapply Forall2_left; exact F]. destruct p as [|p1 p']; [contradiction|]. destruct w as [|w1 w']; [discriminate Lw|]. discriminate. }
      change (nadd (n:=FNum)) with PrimFloat.add. rewrite !bcast_F by (unfold vscale; rewrite map_length; symmetry; exact Lw). cbn [bind]. rewrite (OKP ta _ FA). cbn [bind]. rewrite (OKP tb _ FB). reflexivity.
    + cbv zeta. split; [exact FA|exact FB].
Qed.
Print Assumptions C90_sphere_intersect_line.

(** ** Whole-number and fixed-point coordinates: the decision is right for every line that is not tangent *)
Lemma grid_sized e M x : (-150 <= e <= 150)%Z -> (M <= 2 ^ 20)%Z -> on_grid e M x -> within 200 x.
Proof. intros He HM H. apply (grid_within e M 200 x); [lia|assert (2 ^ 20 < 2 ^ 40)%Z by reflexivity; lia|lia|exact H]. Qed.
Lemma zsq i B : (Z.abs i <= B)%Z -> (i * i <= B * B)%Z.
Proof. intro H. rewrite <- (Z.abs_square i). apply Z.mul_le_mono_nonneg; lia. Qed.
Lemma Zsqr0 k : (k * k = 0)%Z -> (k = 0)%Z.
Proof. intro H. apply Z.mul_eq_0 in H. tauto. Qed.
Lemma vbound n1 n2 n3 B : (Z.abs n1 <= B -> Z.abs n2 <= B -> Z.abs n3 <= B -> n1 * n1 + (n2 * n2 + n3 * n3) <= 3 * (B * B))%Z.
Proof. intros D1 D2 D3. pose proof (zsq n1 B D1). pose proof (zsq n2 B D2). pose proof (zsq n3 B D3). lia. Qed.
Lemma wbound m1 m2 m3 k1 k2 k3 q M : (Z.abs m1 <= M -> Z.abs m2 <= M -> Z.abs m3 <= M -> Z.abs k1 <= M -> Z.abs k2 <= M -> Z.abs k3 <= M -> Z.abs q <= M ->
  0 <= ((m1 - k1) * (m1 - k1) + ((m2 - k2) * (m2 - k2) + (m3 - k3) * (m3 - k3))) + q * q /\ ((m1 - k1) * (m1 - k1) + ((m2 - k2) * (m2 - k2) + (m3 - k3) * (m3 - k3))) + q * q <= 13 * (M * M))%Z.
Proof.
  intros C1 C2 C3 B1 B2 B3 Bq. assert (S : forall i j, (Z.abs i <= M -> Z.abs j <= M -> 0 <= (i - j) * (i - j) <= 4 * (M * M))%Z).
  { intros i j Hi Hj. split; [apply Z.square_nonneg|]. assert (H : (Z.abs (i - j) <= 2 * M)%Z) by lia. apply zsq in H. replace (4 * (M * M))%Z with (2 * M * (2 * M))%Z by ring. exact H. }
  pose proof (S m1 k1 C1 B1) as H1. pose proof (S m2 k2 C2 B2) as H2. pose proof (S m3 k3 C3 B3) as H3. pose proof (zsq q M Bq) as H4. pose proof (Z.square_nonneg q) as H5.
  generalize dependent ((m1 - k1) * (m1 - k1))%Z. generalize dependent ((m2 - k2) * (m2 - k2))%Z. generalize dependent ((m3 - k3) * (m3 - k3))%Z. generalize dependent (q * q)%Z. generalize (M * M)%Z. clear. intros. lia.
Qed.
Lemma bbound W V M M' : (0 <= W -> 0 <= V -> W <= 13 * (M * M) -> V <= 3 * (M' * M') -> 0 <= M -> 0 <= M' -> M * M' <= 2 ^ 20 -> W * V <= 39 * 2 ^ 40)%Z.
Proof.
  intros W0 V0 HW HV HM HM' H. apply Z.le_trans with (13 * (M * M) * (3 * (M' * M')))%Z; [apply Z.mul_le_mono_nonneg; assumption|]. replace (13 * (M * M) * (3 * (M' * M')))%Z with (39 * ((M * M') * (M * M')))%Z by ring. apply Zmult_le_compat_l; [|lia]. change (2 ^ 40)%Z with (2 ^ 20 * 2 ^ 20)%Z.
  assert (0 <= M * M')%Z by (apply Z.mul_nonneg_nonneg; assumption). apply Z.mul_le_mono_nonneg; assumption.
Qed.
Lemma gap (e f M M' : Z) (c p v : pt) (r : R) (fo : pt) : (0 <= M)%Z -> (0 <= M')%Z -> (M * M' <= 2 ^ 20)%Z -> length c = 3%nat -> length p = 3%nat -> length v = 3%nat ->
  let g k B x := exists m : Z, (Z.abs m <= B)%Z /\ x = IZR m * bpow radix2 k in
  Forall (g e M) c -> Forall (g e M) p -> Forall (g f M') v -> g e M r -> 0 < len v -> on_line p v fo -> dot (sub c fo) v = 0 -> r * r <> dist c fo * dist c fo ->
  75 * uro * (dist p c * dist p c + r * r) < Rabs (r * r - dist c fo * dist c fo).
Proof.
  intros HM HM' HMM Lc Lp Lv g Hc Hp Hv Hr HK Of Hf Hne. pose proof (len_sq v) as KK. set (K := len v) in *. set (dl := dot (sub p c) v / K).
  destruct (chord3 c p v fo K dl 0 r Lc Lp Lv HK KK eq_refl Of Hf) as (Ed & _). cbv zeta in Ed. rewrite Ed in *. unfold dist in *. rewrite !len_sq in *. assert (dlK : dl * K = dot (sub p c) v) by (unfold dl; field; lra). clear Ed Of Hf. clearbody dl K.
  destruct c as [|c1 [|c2 [|c3 [|]]]]; try discriminate Lc. destruct p as [|p1 [|p2 [|p3 [|]]]]; try discriminate Lp. destruct v as [|v1 [|v2 [|v3 [|]]]]; try discriminate Lv.
  inversion_clear Hc as [|? ? (k1 & B1 & EE1) F1]. inversion_clear F1 as [|? ? (k2 & B2 & EE2) F2]. inversion_clear F2 as [|? ? (k3 & B3 & EE3) F3]. inversion_clear Hp as [|? ? (m1 & C1 & EE4) G1]. inversion_clear G1 as [|? ? (m2 & C2 & EE5) G2]. inversion_clear G2 as [|? ? (m3 & C3 & EE6) G3].
  inversion_clear Hv as [|? ? (n1 & D1 & EE7) I1]. inversion_clear I1 as [|? ? (n2 & D2 & EE8) I2]. inversion_clear I2 as [|? ? (n3 & D3 & EE9) I3]. destruct Hr as (q & Bq & EE10). subst. cbn [sub dot] in *.
  pose proof (bpow_gt_0 radix2 e) as Pe. pose proof (bpow_gt_0 radix2 f) as Pf. set (b := bpow radix2 e) in *. set (ph := bpow radix2 f) in *.
  set (W := ((m1 - k1) * (m1 - k1) + ((m2 - k2) * (m2 - k2) + (m3 - k3) * (m3 - k3)))%Z). set (V := (n1 * n1 + (n2 * n2 + n3 * n3))%Z). set (T := ((m1 - k1) * n1 + ((m2 - k2) * n2 + (m3 - k3) * n3))%Z).
  assert (EK : K * K = IZR V * (ph * ph)) by (rewrite KK; unfold V; rewrite !plus_IZR, !mult_IZR; ring).
  assert (EA : (IZR m1 * b - IZR k1 * b) * (IZR m1 * b - IZR k1 * b) + ((IZR m2 * b - IZR k2 * b) * (IZR m2 * b - IZR k2 * b) + ((IZR m3 * b - IZR k3 * b) * (IZR m3 * b - IZR k3 * b) + 0)) = IZR W * (b * b)) by (unfold W; rewrite !plus_IZR, !mult_IZR, !minus_IZR; ring).
  assert (Edl : dl * dl * (K * K) = IZR (T * T) * (b * b * (ph * ph))).
  { replace (dl * dl * (K * K)) with ((dl * K) * (dl * K)) by ring. assert (dl * K = IZR T * (b * ph)) as ->; [|rewrite mult_IZR; ring]. rewrite dlK. unfold T. rewrite !plus_IZR, !mult_IZR, !minus_IZR. ring. }
  rewrite EA in *. set (X := IZR q * b * (IZR q * b) - (IZR W * (b * b) - dl * dl)) in *.
  assert (VP : (0 < V)%Z). { apply lt_IZR. apply Rmult_lt_reg_r with (ph * ph); [nra|]. rewrite <- EK. nra. }
  set (N := (q * q * V - W * V + T * T)%Z).
  assert (EX : X * IZR V = IZR N * (b * b)).
  { apply Rmult_eq_reg_r with (ph * ph); [|nra]. replace (X * IZR V * (ph * ph)) with (X * (K * K)) by (rewrite EK; ring). unfold X. replace ((IZR q * b * (IZR q * b) - (IZR W * (b * b) - dl * dl)) * (K * K)) with ((IZR q * IZR q - IZR W) * (b * b) * (K * K) + dl * dl * (K * K)) by ring. rewrite Edl, EK. unfold N. rewrite plus_IZR, minus_IZR, !mult_IZR. ring. }
  assert (X0 : X <> 0) by (unfold X; intro Z; apply Hne; lra). assert (N0 : N <> 0%Z). { intro Z. rewrite Z in EX. rewrite Rmult_0_l in EX. apply Rmult_integral in EX as [E|E]; [contradiction|]. apply eq_IZR in E. lia. }
  assert (N1 : 1 <= Rabs (IZR N)) by (rewrite <- abs_IZR; apply IZR_le; lia).
  assert (EXA : Rabs X * IZR V = Rabs (IZR N) * (b * b)). { rewrite <- (Rabs_pos_eq (IZR V)), <- (Rabs_pos_eq (b * b)), <- !Rabs_mult by (try nra; apply IZR_le; lia). rewrite EX. reflexivity. }
  pose proof (vbound n1 n2 n3 M' D1 D2 D3) as VB. fold V in VB. pose proof (wbound m1 m2 m3 k1 k2 k3 q M C1 C2 C3 B1 B2 B3 Bq) as (W0 & WB). fold W in W0, WB.
  assert (VR : 0 < IZR V) by (apply IZR_lt; lia).
  apply Rmult_lt_reg_r with (IZR V); auto. rewrite EXA. replace (75 * uro * (IZR W * (b * b) + IZR q * b * (IZR q * b)) * IZR V) with (75 * uro * IZR ((W + q * q) * V) * (b * b)) by (rewrite mult_IZR, plus_IZR, mult_IZR; ring).
  apply Rmult_lt_compat_r; [nra|]. apply Rlt_le_trans with 1; [|exact N1]. pose proof (bbound (W + q * q) V M M' W0 ltac:(lia) WB VB HM HM' HMM) as BB.
  apply IZR_le in BB. change uro with (/ IZR (2 ^ 53)). apply Rmult_lt_reg_r with (IZR (2 ^ 53)); [apply IZR_lt; reflexivity|]. rewrite Rmult_1_l. replace (75 * / IZR (2 ^ 53) * IZR ((W + q * q) * V) * IZR (2 ^ 53)) with (75 * IZR ((W + q * q) * V)) by (field; apply IZR_neq; discriminate).
  apply Rle_lt_trans with (75 * IZR (39 * 2 ^ 40)); [lra|]. rewrite <- (mult_IZR 75). apply IZR_lt. reflexivity.
Qed.

Theorem C90_sphere_grid : forall e f M M' (c p v : list flt) (r : flt) s l, (-150 <= e <= 150)%Z -> (-150 <= f <= 150)%Z -> (0 < M)%Z -> (0 < M')%Z -> (M * M' <= 2 ^ 20)%Z ->
  Forall (on_grid e M) c -> Forall (on_grid e M) p -> on_grid e M r -> Forall (on_grid f M') v -> sphere_new (N:=FNum) c r = Ok s -> line_new (N:=FNum) p v = Ok l -> length p = 3%nat ->
  forall fo, on_line (map FR p) (map FR v) fo -> dot (sub (map FR c) fo) (map FR v) = 0 ->
  let d := dist (map FR c) fo in
  (FR r < d -> sphere_intersect_line s l = Raise (ValueError "The line does not intersect the sphere.")) /\
  (d < FR r -> exists a b X Y, sphere_intersect_line s l = Ok (a, b) /\
     (on_line (map FR p) (map FR v) X /\ on_sphere (map FR c) (FR r) X) /\ (on_line (map FR p) (map FR v) Y /\ on_sphere (map FR c) (FR r) Y) /\ 0 < dot (sub Y X) (map FR v) /\
     let close x y := finite x /\ Rabs (FR x - y) <= bpow radix2 (-53) * Rabs y + 130 * bpow radix2 (-53) * (dist (map FR p) (map FR c) * dist (map FR p) (map FR c) + FR r * FR r) / R_sqrt.sqrt (FR r * FR r - d * d) in
     Forall2 close a X /\ Forall2 close b Y).
Proof.
  intros e f M M' c p v r s l He Hf HM HM' HMM Gc Gp Gr Gv Hs Hl Lp fo Of Hfo d.
  assert (M20 : (M <= 2 ^ 20)%Z) by nia. assert (M20' : (M' <= 2 ^ 20)%Z) by nia.
  assert (Wc : Forall (within 200) c) by (eapply Forall_impl; [|exact Gc]; intros x Hx; apply (grid_sized e M); auto). assert (Wp : Forall (within 200) p) by (eapply Forall_impl; [|exact Gp]; intros x Hx; apply (grid_sized e M); auto).
  assert (Wv : Forall (within 200) v) by (eapply Forall_impl; [|exact Gv]; intros x Hx; apply (grid_sized f M'); auto). assert (Wr : within 200 r) by (apply (grid_sized e M); auto).
  assert (Fc : Forall finite c) by (eapply Forall_impl; [|exact Wc]; intros x (F & _); exact F). destruct (sphere_F c r s Fc Hs) as (Es & Lc).
  assert (r0 : 0 < FR r). { unfold sphere_new, base_sphere_new in Hs. change (nleb (n:=FNum)) with PrimFloat.leb in Hs. change (n0 (n:=FNum)) with 0%float in Hs. destruct (PrimFloat.leb r 0) eqn:E; [discriminate Hs|]. destruct (Rlt_le_dec 0 (FR r)) as [H|H]; auto. exfalso. rewrite (proj2 (leb_F r 0%float (proj1 Wr) (proj2 zero_F))) in E; [discriminate|]. rewrite (proj1 zero_F). exact H. }
  assert (rB : bpow radix2 (-200) <= FR r). { destruct Gr as (_ & m & _ & E). rewrite E in *. pose proof (bpow_gt_0 radix2 e) as Pe. assert (1 <= IZR m). { apply IZR_le. assert (0 < m)%Z; [|lia]. apply lt_IZR. apply Rmult_lt_reg_r with (bpow radix2 e); lra. } apply Rle_trans with (bpow radix2 e); [apply bpow_le; lia|nra]. }
  assert (Hl' := Hl). apply line_new_F in Hl' as (El & Np & Lvp). assert (Lv : length v = 3%nat) by congruence.
  assert (vB : bpow radix2 (-200) <= len (map FR v)).
  { unfold line_new in Hl. destruct (check_point_vector p v) as [(p', d')| |] eqn:E; cbn [bind] in Hl; try discriminate. apply check_F in E. destruct E as (_ & _ & _ & _ & Fv & _ & NZ).
    pose proof (bpow_gt_0 radix2 f) as Pf. apply Rle_trans with (bpow radix2 f); [apply bpow_le; lia|]. pose proof (len_nonneg (map FR v)). apply Rsqr_incr_0; unfold Rsqr; [|lra|auto]. rewrite len_sq.
    destruct v as [|x [|y [|z [|]]]]; try discriminate Lv. inversion_clear Gv as [|? ? (Fx & k1 & B1 & E1) G1]. inversion_clear G1 as [|? ? (Fy & k2 & B2 & E2) G2]. inversion_clear G2 as [|? ? (Fz & k3 & B3 & E3) G3].
    cbn [map dot]. rewrite E1, E2, E3. set (ph := bpow radix2 f) in *. replace (_ + _) with (IZR (k1 * k1 + k2 * k2 + k3 * k3) * (ph * ph)) by (rewrite !plus_IZR, !mult_IZR; ring).
    assert (1 <= k1 * k1 + k2 * k2 + k3 * k3)%Z. { pose proof (Z.square_nonneg k1). pose proof (Z.square_nonneg k2). pose proof (Z.square_nonneg k3). destruct (Z.eq_dec (k1 * k1 + k2 * k2 + k3 * k3) 0) as [Z|Z]; [|lia]. exfalso. apply NZ. assert (Z1 : (k1 = 0)%Z) by (apply Zsqr0; lia). assert (Z2 : (k2 = 0)%Z) by (apply Zsqr0; lia). assert (Z3 : (k3 = 0)%Z) by (apply Zsqr0; lia). rewrite Z1 in E1. rewrite Z2 in E2. rewrite Z3 in E3. rewrite Rmult_0_l in E1, E2, E3.
      assert (Fv' := Fv). inversion_clear Fv' as [|? ? f1 Fv1]. inversion_clear Fv1 as [|? ? f2 Fv2]. inversion_clear Fv2 as [|? ? f3 Fv3]. apply zeros_dot; [exact Fv|]. constructor; [split; auto|constructor; [split; auto|constructor; [split; auto|constructor]]]. }
    apply IZR_le in H0. assert (0 < ph * ph) by (apply Rmult_lt_0_compat; exact Pf). nra. }
  destruct (C90_sphere_intersect_line c p v r s l Hs Hl Lp Wc Wp Wv Wr rB vB fo Of Hfo) as (H1 & H2). fold d in H1, H2. assert (d0 : 0 <= d) by apply len_nonneg. pose proof (bpow_gt_0 radix2 (-200)) as B0.
  assert (GP : forall k B (x : list flt), Forall (on_grid k B) x -> Forall (fun y => exists m : Z, (Z.abs m <= B)%Z /\ y = IZR m * bpow radix2 k) (map FR x)).
  { intros k B x H. induction H as [|y x (Fy & m & Bm & Em) H IH]; cbn [map]; constructor; auto. exists m. auto. }
  assert (GAP : FR r * FR r <> d * d -> 75 * uro * (dist (map FR p) (map FR c) * dist (map FR p) (map FR c) + FR r * FR r) < Rabs (FR r * FR r - d * d)).
  { intro Hne. apply (gap e f M M' (map FR c) (map FR p) (map FR v) (FR r) fo); try (rewrite map_length; assumption); auto; try lia; try lra. destruct Gr as (_ & m & Bm & Em). exists m. auto. }
  fold uro in H1. change (bpow radix2 (-53)) with uro in H2.
  split; intro Hd.
  - apply H1. assert (Q : FR r * FR r < d * d) by nra. specialize (GAP ltac:(lra)). rewrite Rabs_left in GAP by lra. lra.
  - apply H2. assert (Q : d * d < FR r * FR r) by nra. specialize (GAP ltac:(lra)). rewrite Rabs_pos_eq in GAP by lra. lra.
Qed.
Print Assumptions C90_sphere_grid.

(** For tangent lines it is not right: the line through (1, -2, 2) with direction (0, -1, 1) touches the unit sphere at (1, 0, 0), but is rejected. *)
Theorem C90_tangent_refuted : exists s l, sphere_new (N:=FNum) [0; 0; 0]%float 1%float = Ok s /\ line_new (N:=FNum) [1; -2; 2]%float [0; -1; 1]%float = Ok l /\
  (on_line [1; -2; 2] [0; -1; 1] [1; 0; 0] /\ on_sphere [0; 0; 0] 1 [1; 0; 0]) /\ sphere_intersect_line s l = Raise (ValueError "The line does not intersect the sphere.").
Proof.
  eexists. eexists. split; [reflexivity|]. split; [reflexivity|]. split; [|reflexivity]. split.
  - exists (-2). cbn. apply (f_equal2 (@cons R)); [ring|]. apply (f_equal2 (@cons R)); [ring|]. apply (f_equal2 (@cons R)); [ring|reflexivity].
  - split; [reflexivity|]. unfold dist, len. cbn. replace (_ + _) with (1 * 1) by ring. apply sqrt_square. lra.
Qed.
Print Assumptions C90_tangent_refuted.

Example C90_nonvacuous : exists s l a b, sphere_new (N:=FNum) [0; 0; 0]%float 3%float = Ok s /\ line_new (N:=FNum) [1; 1; 2]%float [1; 2; -2]%float = Ok l /\ Forall (on_grid 0 5) [1; 1; 2]%float /\ Forall (on_grid 0 2) [1; 2; -2]%float /\ on_grid 0 5 3%float /\
  sphere_intersect_line s l = Ok (a, b) /\ length a = 3%nat.
Proof.
  eexists. eexists. eexists. eexists. split; [reflexivity|]. split; [reflexivity|].
  split; [constructor; [lit 1%Z|constructor; [lit 1%Z|constructor; [lit 2%Z|constructor]]]|]. split; [constructor; [lit 1%Z|constructor; [lit 2%Z|constructor; [lit (-2)%Z|constructor]]]|]. split; [lit 3%Z|]. split; reflexivity.
Qed.
