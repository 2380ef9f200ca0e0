(** * Properties C87 and C88: circles and triangles with whole-number or fixed-point data in double precision *)
From Coq Require Import String Reals List ZArith Floats Lra Lia Psatz Bool Permutation.
From Flocq Require Import Core BinarySingleNaN.
From Flocq Require Import IEEE754.PrimFloat.
From Flocq Require Relative.
From Verif.Model Require Import Outcome Num Instances Numpy BaseArray Vector Points Functions Line Plane Sphere Triangle.
From Verif.Spec Require Import Geometry Tolerance Floats Measure Summation Grid.
From Verif.Proof Require Import VecAlg Bridge Vectors Floats FloatErr.
From Verif.Prop Require Import Floats Accuracy AnyOrder Decisions Projections FloatShapes Grid.
From Verif.Prop Require Balls.
Import ListNotations.
Local Open Scope R_scope.

(** ** Error analysis over the reals *)
Ltac ab H := apply Rabs_le_inv in H; destruct H.

(** The foot parameter a = (r^2 - s^2 + d^2) / (2 d). *)
Lemma a_err u t D r w A d dd n d2 a : 0 < u <= / 1000000 -> 0 <= t -> 0 < D -> 0 < r -> Rabs A <= r -> 2 * D * A = w + D * D ->
  t <= / 1000 * (u * (D * D)) -> t <= / 1000 * (u * r) ->
  Rabs (d - D) <= u * D -> Rabs (dd - d * d) <= u * (d * d) + t -> Rabs (n - (w + dd)) <= u * Rabs (w + dd) -> Rabs (d2 - 2 * d) <= u * (2 * d) -> Rabs (a - n / d2) <= u * Rabs (n / d2) + t ->
  Rabs (a - A) <= u * (2 * D + 5 * r).
Proof.
  intros Hu Ht HD Hr HA E T1 T2 Hd Hdd Hn Hd2 Ha.
  set (Q := D * D) in *. assert (Q0 : 0 < Q) by (apply Rmult_lt_0_compat; auto). set (X := u * Q) in *. assert (X0 : 0 < X) by (apply Rmult_lt_0_compat; lra). assert (uX : u * X <= / 1000000 * X) by (apply Rmult_le_compat_r; lra).
  assert (uD : 0 < u * D) by (apply Rmult_lt_0_compat; lra). assert (uD' : u * D <= / 1000000 * D) by (apply Rmult_le_compat_r; lra).
  apply Rabs_le_inv in Hd.
  assert (P1 : d * d <= Q + 2 * X + u * X). { replace (Q + 2 * X + u * X) with ((D + u * D) * (D + u * D)) by (unfold X, Q; ring). apply Rmult_le_compat; lra. }
  assert (P2 : Q - 2 * X <= d * d). { assert ((D - u * D) * (D - u * D) <= d * d) by (apply Rmult_le_compat; lra). replace ((D - u * D) * (D - u * D)) with (Q - 2 * X + u * X) in H by (unfold X, Q; ring). assert (0 <= u * X) by (apply Rmult_le_pos; lra). lra. }
  assert (P3 : u * (d * d) <= 1.001 * X). { assert (u * (d * d) <= u * (Q + 2 * X + u * X)) by (apply Rmult_le_compat_l; lra). replace (u * (Q + 2 * X + u * X)) with (X + 2 * (u * X) + u * (u * X)) in H by (unfold X; ring). assert (u * (u * X) <= u * (/ 1000000 * X)) by (apply Rmult_le_compat_l; lra). lra. }
  apply Rabs_le_inv in Hdd. assert (DD : Rabs (dd - Q) <= 3.003 * X) by (apply Rabs_le; lra).
  assert (Dr : 0 < D * r) by (apply Rmult_lt_0_compat; auto). set (Y := u * (D * r)) in *. assert (Y0 : 0 < Y) by (apply Rmult_lt_0_compat; lra).
  assert (DA : Rabs (2 * D * A) <= 2 * (D * r)). { rewrite Rabs_mult, Rabs_pos_eq by lra. rewrite Rmult_assoc. apply Rmult_le_compat_l; [lra|]. apply Rmult_le_compat_l; lra. }
  assert (WD : Rabs (w + dd) <= 2 * (D * r) + 3.003 * X). { replace (w + dd) with (2 * D * A + (dd - Q)) by (rewrite E; ring). eapply Rle_trans; [apply Rabs_triang|]. lra. }
  assert (N1 : Rabs (n - 2 * D * A) <= 2 * Y + 3.01 * X). { replace (n - 2 * D * A) with ((n - (w + dd)) + (dd - Q)) by (rewrite E; ring). eapply Rle_trans; [apply Rabs_triang|]. assert (u * Rabs (w + dd) <= u * (2 * (D * r) + 3.003 * X)) by (apply Rmult_le_compat_l; lra). replace (u * (2 * (D * r) + 3.003 * X)) with (2 * Y + 3.003 * (u * X)) in H by (unfold Y; ring). lra. }
  assert (ud : u * (2 * d) <= 2.001 * (u * D)). { replace (2.001 * (u * D)) with (u * (2.001 * D)) by ring. apply Rmult_le_compat_l; lra. }
  apply Rabs_le_inv in Hd2. assert (D2 : Rabs (d2 - 2 * D) <= 4.01 * (u * D)) by (apply Rabs_le; lra). assert (D2p : 1.999 * D <= d2) by lra.
  set (q := n / d2) in *. assert (qd : q * d2 = n) by (unfold q; field; lra).
  assert (Q1 : Rabs (q - A) * d2 <= 6.01 * Y + 3.01 * X). { replace (Rabs (q - A) * d2) with (Rabs ((q - A) * d2)) by (rewrite Rabs_mult, (Rabs_pos_eq d2); [reflexivity|lra]). replace ((q - A) * d2) with ((n - 2 * D * A) - A * (d2 - 2 * D)) by (rewrite <- qd; ring). eapply Rle_trans; [apply Rabs_triang|]. rewrite Rabs_Ropp, Rabs_mult.
    assert (Rabs A * Rabs (d2 - 2 * D) <= r * (4.01 * (u * D))) by (apply Rmult_le_compat; auto; apply Rabs_pos). replace (r * (4.01 * (u * D))) with (4.01 * Y) in H by (unfold Y; ring). lra. }
  assert (Q2 : Rabs (q - A) <= 3.01 * (u * r) + 1.51 * (u * D)). { apply Rmult_le_reg_r with (1.999 * D); [lra|]. apply Rle_trans with (Rabs (q - A) * d2); [apply Rmult_le_compat_l; [apply Rabs_pos|lra]|]. eapply Rle_trans; [exact Q1|]. replace ((3.01 * (u * r) + 1.51 * (u * D)) * (1.999 * D)) with (3.01 * 1.999 * Y + 1.51 * 1.999 * X) by (unfold X, Y, Q; ring). lra. }
  assert (ur : 0 < u * r) by (apply Rmult_lt_0_compat; lra). assert (q1 : Rabs q <= r + Rabs (q - A)). { replace q with (A + (q - A)) at 1 by ring. eapply Rle_trans; [apply Rabs_triang|]. lra. }
  assert (uq : u * Rabs q <= u * r + / 1000000 * Rabs (q - A)). { apply Rle_trans with (u * (r + Rabs (q - A))); [apply Rmult_le_compat_l; lra|]. rewrite Rmult_plus_distr_l. pose proof (Rabs_pos (q - A)). assert (u * Rabs (q - A) <= / 1000000 * Rabs (q - A)) by (apply Rmult_le_compat_r; lra). lra. }
  replace (a - A) with ((a - q) + (q - A)) by ring. eapply Rle_trans; [apply Rabs_triang|]. lra.
Qed.
(** The square of the half chord, r^2 - a^2. *)
Lemma g_err u t D r A a aa g : 0 < u <= / 1000000 -> 0 <= t -> 0 < D -> 0 < r -> Rabs A <= r -> u * D <= / 1000000 * r -> t <= / 1000 * (u * (r * r)) ->
  Rabs (a - A) <= u * (2 * D + 5 * r) -> Rabs (aa - a * a) <= u * (a * a) + t -> Rabs (g - (r * r - aa)) <= u * Rabs (r * r - aa) ->
  Rabs (g - (r * r - A * A)) <= u * (r * (5 * D + 13 * r)).
Proof.
  intros Hu Ht HD Hr HA uD T1 Ha Haa Hg. assert (ur : 0 < u * r) by (apply Rmult_lt_0_compat; lra). assert (ur' : u * r <= / 1000000 * r) by (apply Rmult_le_compat_r; lra).
  set (ep := u * (2 * D + 5 * r)) in *. assert (ep0 : 0 < ep) by (apply Rmult_lt_0_compat; lra). assert (ep1 : ep <= / 100000 * r) by (unfold ep; lra).
  assert (rr : 0 < r * r) by (apply Rmult_lt_0_compat; auto). set (Z := u * (r * r)) in *. assert (Z0 : 0 < Z) by (apply Rmult_lt_0_compat; lra).
  assert (a1 : Rabs a <= 1.0001 * r). { replace a with (A + (a - A)) by ring. eapply Rle_trans; [apply Rabs_triang|]. lra. }
  assert (a2 : a * a <= 1.001 * (r * r)). { rewrite <- (Rabs_pos_eq (a * a)) by apply Rle_0_sqr. rewrite Rabs_mult. apply Rle_trans with (1.0001 * r * (1.0001 * r)); [apply Rmult_le_compat; auto; apply Rabs_pos|]. lra. }
  assert (a3 : Rabs (a * a - A * A) <= 2.001 * (r * ep)). { replace (a * a - A * A) with ((a - A) * (a + A)) by ring. rewrite Rabs_mult. replace (2.001 * (r * ep)) with (ep * (2.001 * r)) by ring. apply Rmult_le_compat; auto using Rabs_pos. eapply Rle_trans; [apply Rabs_triang|]. lra. }
  assert (re : r * ep <= / 100000 * (r * r)). { replace (/ 100000 * (r * r)) with (r * (/ 100000 * r)) by ring. apply Rmult_le_compat_l; lra. }
  assert (ua : u * (a * a) <= 1.001 * Z). { replace (1.001 * Z) with (u * (1.001 * (r * r))) by (unfold Z; ring). apply Rmult_le_compat_l; lra. }
  assert (A1 : Rabs (aa - A * A) <= 2.001 * (r * ep) + 1.002 * Z). { replace (aa - A * A) with ((aa - a * a) + (a * a - A * A)) by ring. eapply Rle_trans; [apply Rabs_triang|]. lra. }
  assert (A2 : A * A <= r * r). { rewrite <- (Rabs_pos_eq (A * A)) by apply Rle_0_sqr. rewrite Rabs_mult. apply Rmult_le_compat; auto using Rabs_pos. } pose proof (Rle_0_sqr A) as A3. unfold Rsqr in A3.
  assert (Zs : Z <= / 1000000 * (r * r)) by (apply Rmult_le_compat_r; lra).
  assert (G1 : Rabs (r * r - aa) <= 1.01 * (r * r)). { replace (r * r - aa) with ((r * r - A * A) - (aa - A * A)) by ring. eapply Rle_trans; [apply Rabs_triang|]. rewrite Rabs_Ropp, (Rabs_pos_eq (r * r - A * A)) by lra. lra. }
  assert (G2 : u * Rabs (r * r - aa) <= 1.01 * Z). { replace (1.01 * Z) with (u * (1.01 * (r * r))) by (unfold Z; ring). apply Rmult_le_compat_l; lra. }
  replace (g - (r * r - A * A)) with ((g - (r * r - aa)) - (aa - A * A)) by ring. eapply Rle_trans; [apply Rabs_triang|]. rewrite Rabs_Ropp.
  assert (F1 : r * ep = 2 * (u * (r * D)) + 5 * Z) by (unfold ep, Z; ring). replace (u * (r * (5 * D + 13 * r))) with (5 * (u * (r * D)) + 13 * Z) by (unfold Z; ring). assert (0 < u * (r * D)) by (apply Rmult_lt_0_compat; [lra|apply Rmult_lt_0_compat; auto]). lra.
Qed.
(** The half chord. *)
Lemma h_err u t H G g h de : 0 < u <= / 1000000 -> 0 <= t -> 0 < H -> G = H * H -> 0 <= g -> Rabs (g - G) <= de -> t <= / 1000 * (u * H) -> Rabs (h - R_sqrt.sqrt g) <= u * R_sqrt.sqrt g + t ->
  Rabs (h - H) <= 1.001 * (de / H) + 1.002 * (u * H).
Proof.
  intros Hu Ht HH EG Hg Hd T1 Hh. set (k := R_sqrt.sqrt g) in *. assert (k0 : 0 <= k) by apply R_sqrt.sqrt_pos. assert (kk : k * k = g) by (apply sqrt_sqrt; auto).
  assert (K1 : Rabs (k - H) * H <= de). { apply Rle_trans with (Rabs (k - H) * (k + H)); [apply Rmult_le_compat_l; [apply Rabs_pos|lra]|]. rewrite <- (Rabs_pos_eq (k + H)) by lra. rewrite <- Rabs_mult. replace ((k - H) * (k + H)) with (g - G) by (rewrite EG, <- kk; ring). exact Hd. }
  assert (K2 : Rabs (k - H) <= de / H). { apply Rmult_le_reg_r with H; auto. unfold Rdiv. rewrite Rmult_assoc, Rinv_l by lra. lra. }
  assert (K3 : k <= H + Rabs (k - H)). { pose proof (Rle_abs (k - H)). lra. } assert (uk : u * k <= u * H + / 1000000 * Rabs (k - H)). { apply Rle_trans with (u * (H + Rabs (k - H))); [apply Rmult_le_compat_l; lra|]. pose proof (Rabs_pos (k - H)). assert (u * Rabs (k - H) <= / 1000000 * Rabs (k - H)) by (apply Rmult_le_compat_r; lra). lra. }
  pose proof (Rabs_pos (k - H)) as K0. assert (uH : 0 < u * H) by (apply Rmult_lt_0_compat; lra). replace (h - H) with ((h - k) + (k - H)) by ring. eapply Rle_trans; [apply Rabs_triang|]. lra.
Qed.
(** A length times a direction cosine: fl(fl(a v) / d) for a near A, d near D. *)
Lemma ratio_err u t t' D A a ep V d v1 v2 : 0 < u <= / 1000000 -> 0 <= t -> 0 < D -> 0 <= ep -> Rabs V <= D -> t <= t' -> t <= t' * D -> Rabs (a - A) <= ep -> Rabs (d - D) <= u * D ->
  Rabs (v1 - a * V) <= u * Rabs (a * V) + t -> Rabs (v2 - v1 / d) <= u * Rabs (v1 / d) + t ->
  Rabs (v2 - A * V / D) <= 1.01 * ep + 3.01 * (u * Rabs A) + 3 * t'.
Proof.
  intros Hu Ht HD He HV T1 T2 Ha Hd H1 H2. set (c := V / D). assert (EV : V = D * c) by (unfold c; field; lra). assert (Hc : Rabs c <= 1). { apply Rmult_le_reg_l with D; auto. rewrite <- (Rabs_pos_eq D) at 1 by lra. rewrite <- Rabs_mult, <- EV. lra. }
  apply Rabs_le_inv in Hd. assert (uD : 0 < u * D) by (apply Rmult_lt_0_compat; lra). assert (uD' : u * D <= / 1000000 * D) by (apply Rmult_le_compat_r; lra). assert (d0 : 0.999999 * D <= d) by lra.
  pose proof (Rabs_pos A) as A0. pose proof (Rabs_pos V) as V0.
  assert (aV : Rabs (a * V) <= (Rabs A + ep) * D). { rewrite Rabs_mult. apply Rmult_le_compat; auto using Rabs_pos. replace a with (A + (a - A)) by ring. eapply Rle_trans; [apply Rabs_triang|]. lra. }
  assert (v1e : Rabs (v1 - A * V) <= u * ((Rabs A + ep) * D) + t + ep * D). { replace (v1 - A * V) with ((v1 - a * V) + (a - A) * V) by ring. eapply Rle_trans; [apply Rabs_triang|]. rewrite Rabs_mult. assert (Rabs (a - A) * Rabs V <= ep * D) by (apply Rmult_le_compat; auto using Rabs_pos). assert (u * Rabs (a * V) <= u * ((Rabs A + ep) * D)) by (apply Rmult_le_compat_l; lra). lra. }
  set (q := v1 / d) in *. assert (qd : q * d = v1) by (unfold q; field; lra).
  assert (q1 : Rabs (q - A * c) * d <= D * (2 * (u * Rabs A) + 1.000001 * ep + t')). { replace (Rabs (q - A * c) * d) with (Rabs ((q - A * c) * d)) by (rewrite Rabs_mult, (Rabs_pos_eq d); [reflexivity|lra]). replace ((q - A * c) * d) with ((v1 - A * V) - (A * c) * (d - D)) by (rewrite <- qd, EV; ring). eapply Rle_trans; [apply Rabs_triang|]. rewrite Rabs_Ropp, !Rabs_mult.
    assert (Rabs A * Rabs c * Rabs (d - D) <= Rabs A * 1 * (u * D)). { apply Rmult_le_compat; auto using Rabs_pos. apply Rmult_le_pos; apply Rabs_pos. apply Rmult_le_compat_l; auto. apply Rabs_le; lra. }
    assert (u * ep <= / 1000000 * ep) by (apply Rmult_le_compat_r; lra). assert (u * ep * D <= / 1000000 * ep * D) by (apply Rmult_le_compat_r; lra). replace (D * (2 * (u * Rabs A) + 1.000001 * ep + t')) with (2 * (u * Rabs A * D) + (/ 1000000 * ep * D) + ep * D + t' * D) by lra. replace (u * ((Rabs A + ep) * D)) with (u * Rabs A * D + u * ep * D) in v1e by ring. lra. }
  assert (S0 : 0 <= 2 * (u * Rabs A) + 1.000001 * ep + t') by (assert (0 <= u * Rabs A) by (apply Rmult_le_pos; lra); lra).
  assert (q2 : Rabs (q - A * c) <= 1.00001 * (2 * (u * Rabs A) + 1.000001 * ep + t')). { apply Rmult_le_reg_r with (0.999999 * D); [lra|]. apply Rle_trans with (Rabs (q - A * c) * d); [apply Rmult_le_compat_l; [apply Rabs_pos|lra]|]. eapply Rle_trans; [exact q1|]. set (s := 2 * (u * Rabs A) + 1.000001 * ep + t') in *. assert (0 <= D * s) by (apply Rmult_le_pos; lra). replace (1.00001 * s * (0.999999 * D)) with (1.00001 * 0.999999 * (D * s)) by ring. lra. }
  assert (q3 : Rabs q <= Rabs A + Rabs (q - A * c)). { replace q with (A * c + (q - A * c)) at 1 by ring. eapply Rle_trans; [apply Rabs_triang|]. apply Rplus_le_compat_r. rewrite Rabs_mult. rewrite <- (Rmult_1_r (Rabs A)) at 2. apply Rmult_le_compat_l; auto. }
  assert (uq : u * Rabs q <= u * Rabs A + / 1000000 * Rabs (q - A * c)). { apply Rle_trans with (u * (Rabs A + Rabs (q - A * c))); [apply Rmult_le_compat_l; lra|]. pose proof (Rabs_pos (q - A * c)). assert (u * Rabs (q - A * c) <= / 1000000 * Rabs (q - A * c)) by (apply Rmult_le_compat_r; lra). lra. }
  assert (uA : 0 <= u * Rabs A) by (apply Rmult_le_pos; lra). replace (A * V / D) with (A * c) by (unfold c; field; lra). replace (v2 - A * c) with ((v2 - q) + (q - A * c)) by ring. eapply Rle_trans; [apply Rabs_triang|]. lra.
Qed.
(** The two additions. *)
Lemma sum_err u P mv kv v2 k2 m X Ev Ek : 0 < u <= / 1000000 -> Rabs (v2 - mv) <= Ev -> Rabs (k2 - kv) <= Ek -> Rabs (m - (P + v2)) <= u * Rabs (P + v2) -> Rabs (X - (m + k2)) <= u * Rabs (m + k2) ->
  Rabs (X - (P + mv + kv)) <= 1.01 * (Ev + Ek) + 2.01 * (u * Rabs (P + mv + kv)) + 1.01 * (u * Rabs kv).
Proof.
  intros Hu Hv Hk Hm HX. set (x := P + mv + kv) in *. pose proof (Rabs_pos x) as x0. pose proof (Rabs_pos kv) as k0. assert (Ev0 : 0 <= Ev) by (pose proof (Rabs_pos (v2 - mv)); lra). assert (Ek0 : 0 <= Ek) by (pose proof (Rabs_pos (k2 - kv)); lra).
  assert (U : forall y, 0 <= y -> 0 <= u * y <= / 1000000 * y) by (intros y Hy; split; [apply Rmult_le_pos; lra|apply Rmult_le_compat_r; lra]).
  assert (p1 : Rabs (P + v2) <= Rabs x + Rabs kv + Ev). { replace (P + v2) with (x - kv + (v2 - mv)) by (unfold x; ring). eapply Rle_trans; [apply Rabs_triang|]. pose proof (Rabs_triang x (- kv)). rewrite Rabs_Ropp in H. unfold Rminus at 1. lra. }
  assert (p2 : u * Rabs (P + v2) <= u * Rabs x + u * Rabs kv + u * Ev). { replace (u * Rabs x + u * Rabs kv + u * Ev) with (u * (Rabs x + Rabs kv + Ev)) by ring. apply Rmult_le_compat_l; lra. }
  assert (m1 : Rabs (m + k2 - x) <= Ev + Ek + u * Rabs x + u * Rabs kv + u * Ev). { replace (m + k2 - x) with ((m - (P + v2)) + ((v2 - mv) + (k2 - kv))) by (unfold x; ring). eapply Rle_trans; [apply Rabs_triang|]. pose proof (Rabs_triang (v2 - mv) (k2 - kv)). lra. }
  assert (m2 : Rabs (m + k2) <= Rabs x + Rabs (m + k2 - x)). { replace (m + k2) with (x + (m + k2 - x)) at 1 by ring. apply Rabs_triang. }
  assert (m3 : u * Rabs (m + k2) <= u * Rabs x + / 1000000 * Rabs (m + k2 - x)). { apply Rle_trans with (u * (Rabs x + Rabs (m + k2 - x))); [apply Rmult_le_compat_l; lra|]. pose proof (proj2 (U (Rabs (m + k2 - x)) (Rabs_pos _))). lra. }
  replace (X - x) with ((X - (m + k2)) + (m + k2 - x)) by ring. eapply Rle_trans; [apply Rabs_triang|]. pose proof (U _ x0). pose proof (U _ k0). pose proof (U _ Ev0). lra.
Qed.

(** ** Operations on doubles of bounded size *)
Definition within (k : Z) (x : flt) : Prop := finite x /\ Rabs (FR x) <= bpow radix2 k.
Lemma within_mul i j x y : (-1074 <= i + j <= 1000)%Z -> within i x -> within j y -> within (i + j) (x * y)%float /\ FR (x * y)%float = rnd (FR x * FR y).
Proof.
  intros H (Fx & Bx) (Fy & By). assert (B : Rabs (FR x * FR y) <= bpow radix2 (i + j)) by (rewrite Rabs_mult, bpow_plus; apply Rmult_le_compat; auto using Rabs_pos). pose proof (rnd_bpow_le _ (i + j) ltac:(lia) B) as B'.
  destruct (fin_mul x y Fx Fy) as (F & E); [eapply Rle_lt_trans; [exact B'|apply bpow_lt; lia]|]. split; auto. split; auto. rewrite E. exact B'.
Qed.
Lemma within_div i j x y : (-1074 <= i - j <= 1000)%Z -> within i x -> bpow radix2 j <= FR y -> within (i - j) (x / y)%float /\ FR (x / y)%float = rnd (FR x / FR y).
Proof.
  intros H (Fx & Bx) By. pose proof (bpow_gt_0 radix2 j) as Pj. assert (B : Rabs (FR x / FR y) <= bpow radix2 (i - j)).
  { unfold Rdiv. rewrite Rabs_mult, Rabs_inv, (Rabs_pos_eq (FR y)) by lra. replace (i - j)%Z with (i + - j)%Z by lia. rewrite bpow_plus, bpow_opp. apply Rmult_le_compat; auto using Rabs_pos. left; apply Rinv_0_lt_compat; lra. apply Rinv_le_contravar; auto. }
  pose proof (rnd_bpow_le _ (i - j) ltac:(lia) B) as B'. destruct (fin_div x y Fx) as (F & E); [lra|eapply Rle_lt_trans; [exact B'|apply bpow_lt; lia]|]. split; auto. split; auto. rewrite E. exact B'.
Qed.
Lemma within_le i j x : (i <= j)%Z -> within i x -> within j x.
Proof. intros H (F & B). split; auto. eapply Rle_trans; [exact B|apply bpow_le; auto]. Qed.
Lemma within_add k x y : (-1074 <= k + 1 <= 1000)%Z -> within k x -> within k y -> within (k + 1) (x + y)%float /\ FR (x + y)%float = rnd (FR x + FR y).
Proof.
  intros H (Fx & Bx) (Fy & By). assert (B : Rabs (FR x + FR y) <= bpow radix2 (k + 1)) by (rewrite Z.add_comm, bpow_plus; change (bpow radix2 1) with 2; eapply Rle_trans; [apply Rabs_triang|]; lra). pose proof (rnd_bpow_le _ (k + 1) ltac:(lia) B) as B'.
  destruct (fin_add x y Fx Fy) as (F & E); [eapply Rle_lt_trans; [exact B'|apply bpow_lt; lia]|]. split; auto. split; auto. rewrite E. exact B'.
Qed.
Lemma within_sub k x y : (-1074 <= k + 1 <= 1000)%Z -> within k x -> within k y -> within (k + 1) (x - y)%float /\ FR (x - y)%float = rnd (FR x - FR y).
Proof.
  intros H (Fx & Bx) (Fy & By). assert (B : Rabs (FR x - FR y) <= bpow radix2 (k + 1)) by (rewrite Z.add_comm, bpow_plus; change (bpow radix2 1) with 2; unfold Rminus; eapply Rle_trans; [apply Rabs_triang|]; rewrite Rabs_Ropp; lra). pose proof (rnd_bpow_le _ (k + 1) ltac:(lia) B) as B'.
  destruct (fin_sub x y Fx Fy) as (F & E); [eapply Rle_lt_trans; [exact B'|apply bpow_lt; lia]|]. split; auto. split; auto. rewrite E. exact B'.
Qed.
Lemma grid_within e M k x : (-1074 <= e)%Z -> (M <= 2 ^ 40)%Z -> (e + 40 <= k)%Z -> on_grid e M x -> within k x.
Proof.
  intros H1 H2 H3 (F & m & B & E). split; auto. rewrite E, Rabs_mult, <- abs_IZR, (Rabs_pos_eq (bpow _ _)) by apply bpow_ge_0. apply Rle_trans with (bpow radix2 40 * bpow radix2 e); [|rewrite <- bpow_plus; apply bpow_le; lia]. apply Rmult_le_compat_r; [apply bpow_ge_0|]. change (bpow radix2 40) with (IZR (2 ^ 40)). apply IZR_le. lia.
Qed.

(** One coordinate of the result: P + fl(fl(a V) / d), then plus fl(fl(h W) / d). *)
Definition chain (a d h P V W X : R) : Prop := exists v1 v2 m k1 k2, v1 = rnd (a * V) /\ v2 = rnd (v1 / d) /\ m = rnd (P + v2) /\ Rabs (m - (P + v2)) <= uro * Rabs (P + v2) /\
  k1 = rnd (h * W) /\ k2 = rnd (k1 / d) /\ X = rnd (m + k2) /\ Rabs (X - (m + k2)) <= uro * Rabs (m + k2).
Lemma foot_ok (a d P V : flt) : within 250 a -> within 250 V -> within 250 P -> bpow radix2 (-210) <= FR d ->
  within 711 (P + (a * V) / d)%float /\ finite (a * V)%float /\ finite (a * V / d)%float /\ exists v1 v2, v1 = rnd (FR a * FR V) /\ v2 = rnd (v1 / FR d) /\ FR (P + (a * V) / d)%float = rnd (FR P + v2) /\ Rabs (FR (P + (a * V) / d)%float - (FR P + v2)) <= uro * Rabs (FR P + v2).
Proof.
  intros Ha HV HP Hd. destruct (within_mul 250 250 a V ltac:(lia) Ha HV) as (W1 & E1). destruct (within_div 500 (-210) _ d ltac:(lia) W1 Hd) as (W2 & E2). destruct (within_add 710 P (a * V / d)%float ltac:(lia) (within_le 250 710 P ltac:(lia) HP) W2) as (W3 & E3).
  split; [exact W3|]. split; [apply W1|]. split; [apply W2|]. exists (FR (a * V)%float), (FR (a * V / d)%float). split; auto. split; auto. split; auto. rewrite E3. apply rnd_plus.
Qed.
Lemma offs_ok (sg d h W : flt) : within 0 sg -> (FR sg = 1 \/ FR sg = -1) -> within 250 h -> within 250 W -> bpow radix2 (-210) <= FR d ->
  within 710 ((sg * h * W) / d)%float /\ FR ((sg * h * W) / d)%float = rnd (rnd (FR sg * FR h * FR W) / FR d).
Proof.
  intros Hs Es Hh HW Hd. destruct (within_mul 0 250 sg h ltac:(lia) Hs Hh) as (W0 & E0). assert (E0' : FR (sg * h)%float = FR sg * FR h). { rewrite E0. destruct Es as [-> | ->]; [rewrite Rmult_1_l; apply rnd_FR; apply Hh|replace (-1 * FR h) with (- FR h) by ring; rewrite rnd_opp, rnd_FR; [reflexivity|apply Hh]]. }
  destruct (within_mul 250 250 (sg * h)%float W ltac:(lia) W0 HW) as (W1 & E1). destruct (within_div 500 (-210) _ d ltac:(lia) W1 Hd) as (W2 & E2). split; auto. rewrite E2, E1, E0'. reflexivity.
Qed.
Lemma minus1_F : within 0 (f_ofZ (-1)) /\ FR (f_ofZ (-1)) = -1.
Proof. assert (E : FR (f_ofZ (-1)) = -1) by (erewrite FR_val by (vm_compute; reflexivity); simpl; unfold F2R; simpl; lra). split; auto. split; [reflexivity|]. rewrite E. change (bpow radix2 0) with 1. rewrite Rabs_left; lra. Qed.
Lemma plus1_F : within 0 1%float /\ FR 1%float = 1.
Proof. destruct one_F as (E & F). split; auto. split; auto. rewrite E. change (bpow radix2 0) with 1. rewrite Rabs_pos_eq; lra. Qed.

(** The last part of intersect_circle, in doubles. *)
Lemma tail_F (a d h x1 y1 x2 y2 : flt) : within 250 a -> within 250 h -> within 250 x1 -> within 250 y1 -> within 250 (x2 - x1)%float -> within 250 (y2 - y1)%float -> within 250 (x1 - x2)%float -> within 250 (y1 - y2)%float -> bpow radix2 (-210) <= FR d ->
  (FR (x1 - x2)%float = FR x1 - FR x2 /\ FR (x2 - x1)%float = FR x2 - FR x1 /\ FR (y1 - y2)%float = FR y1 - FR y2 /\ FR (y2 - y1)%float = FR y2 - FR y1) ->
  exists X0 Y0 X1 Y1 : flt,
    (let* v1 := vmuls (N:=FNum) a [(x2 - x1)%float; (y2 - y1)%float] in
     let* v2 := vdivs (N:=FNum) v1 d in
     let* m := vadd (N:=FNum) [x1; y1] v2 in
     match m with
     | [m0; m1] =>
        let coord pm delta := ndiv (n:=FNum) (pm * h * delta)%float d in
        let* dx0 := coord 1%float (y1 - y2)%float in
        let* dx1 := coord (f_ofZ (-1)) (y1 - y2)%float in
        let* dy0 := coord 1%float (x1 - x2)%float in
        let* dy1 := coord (f_ofZ (-1)) (x1 - x2)%float in
        let* pa := point_of (N:=FNum) [(m0 + dx0)%float; (m1 - dy0)%float] in
        let* pb := point_of (N:=FNum) [(m0 + dx1)%float; (m1 - dy1)%float] in
        Ok (pa, pb)
     | _ => Raise (ValueError "The point must be 2D.")
     end) = Ok ([X0; Y0], [X1; Y1]) /\ Forall finite [X0; Y0; X1; Y1] /\
    chain (FR a) (FR d) (FR h) (FR x1) (FR x2 - FR x1) (FR y1 - FR y2) (FR X0) /\ chain (FR a) (FR d) (FR h) (FR y1) (FR y2 - FR y1) (FR x2 - FR x1) (FR Y0) /\
    chain (FR a) (FR d) (FR h) (FR x1) (FR x2 - FR x1) (FR y2 - FR y1) (FR X1) /\ chain (FR a) (FR d) (FR h) (FR y1) (FR y2 - FR y1) (FR x1 - FR x2) (FR Y1).
Proof.
  intros Ha Hh Hx Hy HVx HVy HWx HWy Hd (Ex1 & Ex2 & Ey1 & Ey2).
  destruct (foot_ok a d x1 _ Ha HVx Hx Hd) as (M0 & F1 & F2 & M0e). destruct (foot_ok a d y1 _ Ha HVy Hy Hd) as (M1 & F3 & F4 & M1e).
  destruct plus1_F as (P1 & P1e). destruct minus1_F as (P2 & P2e).
  destruct (offs_ok 1%float d h _ P1 (or_introl P1e) Hh HWy Hd) as (K0 & K0e). destruct (offs_ok (f_ofZ (-1)) d h _ P2 (or_intror P2e) Hh HWy Hd) as (K1 & K1e).
  destruct (offs_ok 1%float d h _ P1 (or_introl P1e) Hh HWx Hd) as (K2 & K2e). destruct (offs_ok (f_ofZ (-1)) d h _ P2 (or_intror P2e) Hh HWx Hd) as (K3 & K3e).
  rewrite P1e, Ey1 in K0e. rewrite P2e, Ey1 in K1e. rewrite P1e, Ex1 in K2e. rewrite P2e, Ex1 in K3e. rewrite Ex2 in M0e. rewrite Ey2 in M1e.
  set (m0 := (x1 + a * (x2 - x1) / d)%float) in *. set (m1 := (y1 + a * (y2 - y1) / d)%float) in *.
  destruct (within_add 711 m0 _ ltac:(lia) M0 (within_le 710 711 _ ltac:(lia) K0)) as (S0 & S0e). destruct (within_add 711 m0 _ ltac:(lia) M0 (within_le 710 711 _ ltac:(lia) K1)) as (S1 & S1e).
  destruct (within_sub 711 m1 _ ltac:(lia) M1 (within_le 710 711 _ ltac:(lia) K2)) as (S2 & S2e). destruct (within_sub 711 m1 _ ltac:(lia) M1 (within_le 710 711 _ ltac:(lia) K3)) as (S3 & S3e).
  exists (m0 + 1 * h * (y1 - y2) / d)%float, (m1 - 1 * h * (x1 - x2) / d)%float, (m0 + f_ofZ (-1) * h * (y1 - y2) / d)%float, (m1 - f_ofZ (-1) * h * (x1 - x2) / d)%float. split.
  { unfold vmuls, vscale. cbn [map]. rewrite wrap1_F by (constructor; [exact F1|constructor; [exact F3|constructor]]). cbn [bind]. unfold vdivs. cbn [mapM bind]. change (ndiv (n:=FNum) ?x ?y) with (Ok (x / y)%float). cbn [mapM bind]. rewrite wrap1_F by (constructor; [exact F2|constructor; [exact F4|constructor]]). cbn [bind].
    unfold vadd. rewrite bcast_F by reflexivity. cbn [bind map2]. rewrite wrap1_F by (constructor; [exact (proj1 M0)|constructor; [exact (proj1 M1)|constructor]]). cbn [bind].
    change (point_of (N:=FNum)) with (vector_of (N:=FNum)). change (nadd (n:=FNum) x1 (a * (x2 - x1) / d)%float) with m0. change (nadd (n:=FNum) y1 (a * (y2 - y1) / d)%float) with m1.
    rewrite vector_of_ok; [|discriminate|constructor; [exact (proj1 S0)|constructor; [exact (proj1 S2)|constructor]]]. cbn [bind]. rewrite vector_of_ok; [|discriminate|constructor; [exact (proj1 S1)|constructor; [exact (proj1 S3)|constructor]]]. reflexivity. }
  split; [constructor; [exact (proj1 S0)|constructor; [exact (proj1 S2)|constructor; [exact (proj1 S1)|constructor; [exact (proj1 S3)|constructor]]]]|].
  destruct M0e as (v1 & v2 & A1 & A2 & A3 & A4). destruct M1e as (w1 & w2 & B1 & B2 & B3 & B4).
  assert (Neg : forall z, rnd (rnd (- z) / FR d) = - rnd (rnd z / FR d)) by (intro z; rewrite rnd_opp; unfold Rdiv; rewrite Ropp_mult_distr_l_reverse; apply rnd_opp).
  split; [|split; [|split]].
  - exists v1, v2, (FR m0). eexists. eexists. split; [exact A1|]. split; [exact A2|]. split; [exact A3|]. split; [exact A4|]. split; [reflexivity|]. split; [reflexivity|]. rewrite Rmult_1_l in K0e. rewrite <- K0e. split; [exact S0e|]. rewrite S0e. apply rnd_plus.
  - exists w1, w2, (FR m1). eexists. eexists. split; [exact B1|]. split; [exact B2|]. split; [exact B3|]. split; [exact B4|]. split; [reflexivity|]. split; [reflexivity|]. rewrite Rmult_1_l in K2e. replace (FR h * (FR x2 - FR x1)) with (- (FR h * (FR x1 - FR x2))) by ring. rewrite Neg, <- K2e. split; [exact S2e|]. rewrite S2e. apply rnd_minus.
  - exists v1, v2, (FR m0). eexists. eexists. split; [exact A1|]. split; [exact A2|]. split; [exact A3|]. split; [exact A4|]. split; [reflexivity|]. split; [reflexivity|]. replace (-1 * FR h * (FR y1 - FR y2)) with (FR h * (FR y2 - FR y1)) in K1e by ring. rewrite <- K1e. split; [exact S1e|]. rewrite S1e. apply rnd_plus.
  - exists w1, w2, (FR m1). eexists. eexists. split; [exact B1|]. split; [exact B2|]. split; [exact B3|]. split; [exact B4|]. split; [reflexivity|]. split; [reflexivity|]. replace (-1 * FR h * (FR x1 - FR x2)) with (- (FR h * (FR x1 - FR x2))) in K3e by ring. rewrite Neg in K3e. assert (K3f : FR (f_ofZ (-1) * h * (x1 - x2) / d)%float = - rnd (rnd (FR h * (FR x1 - FR x2)) / FR d)) by exact K3e.
    replace (rnd (rnd (FR h * (FR x1 - FR x2)) / FR d)) with (- FR (f_ofZ (-1) * h * (x1 - x2) / d)%float) by (rewrite K3f; ring). split; [exact S3e|]. rewrite S3e. apply rnd_minus.
Qed.

(** ** The decisions of intersect_circle *)
Lemma circle_shape e M (p : list flt) (r : flt) c : Forall (on_grid e M) p -> on_grid e M r -> circle_new (N:=FNum) p r = Ok c ->
  c = MkBall (N:=FNum) p r /\ 0 < FR r /\ exists x y, p = [x; y] /\ on_grid e M x /\ on_grid e M y.
Proof.
  intros Hp Hr Hc. unfold circle_new, base_sphere_new in Hc. change (point_of (N:=FNum)) with (vector_of (N:=FNum)) in Hc. assert (Np : p <> []) by (intro Z; subst p; destruct (nleb r n0); discriminate).
  rewrite (vector_of_ok p Np (on_grid_all _ _ _ Hp)) in Hc. destruct (nleb (n:=FNum) r n0) eqn:Er; [discriminate|]. cbn [bind c_point] in Hc. destruct p as [|x [|y [|z p]]]; try discriminate Hc. cbn in Hc. injection Hc as <-. split; [reflexivity|]. split.
  - destruct (Rlt_le_dec 0 (FR r)) as [H|H]; auto. rewrite <- (proj1 zero_F) in H. apply (leb_F _ _ (on_grid_finite _ _ _ Hr) (proj2 zero_F)) in H. change (nleb (n:=FNum) r n0) with (PrimFloat.leb r 0) in Er. congruence.
  - exists x, y. split; [reflexivity|]. split; [exact (Forall_inv Hp)|exact (Forall_inv (Forall_inv_tail Hp))].
Qed.
Lemma decide_F e M (x1 y1 x2 y2 r s : flt) : (-200 <= e <= 200)%Z -> (8 * (M * M) < 2 ^ 50)%Z -> on_grid e M x1 -> on_grid e M y1 -> on_grid e M x2 -> on_grid e M y2 -> on_grid e M r -> on_grid e M s -> 0 < FR r -> 0 < FR s ->
  let D := dist [FR x1; FR y1] [FR x2; FR y2] in
  exists d K, distance_point (N:=FNum) [x1; y1] [x2; y2] = Ok d /\ finite d /\ FR d = rnd D /\ (0 <= K < 2 ^ 50)%Z /\ D = R_sqrt.sqrt (IZR K) * bpow radix2 e /\
    (PrimFloat.eqb d 0 = true <-> D = 0) /\ (PrimFloat.ltb (r + s) d = true <-> FR r + FR s < D) /\ (PrimFloat.ltb d (PrimFloat.abs (r - s)) = true <-> D < Rabs (FR r - FR s)).
Proof.
  intros He HM Hx1 Hy1 Hx2 Hy2 Hr Hs Rp Sp D. assert (G : grid_ok e) by (unfold grid_ok; lia). assert (G2 : grid_ok (e + e)) by (unfold grid_ok; lia). assert (M0 : (0 <= M)%Z) by (eapply grid_pos; eauto).
  assert (Hp : Forall (on_grid e M) [x1; y1]) by (constructor; [auto|constructor; [auto|constructor]]). assert (Hq : Forall (on_grid e M) [x2; y2]) by (constructor; [auto|constructor; [auto|constructor]]).
  assert (B : (Z.of_nat (length [x1; y1]) * (2 * M * (2 * M)) < 2 ^ 50)%Z) by (cbn [length]; lia).
  destruct (grid_dist_sqrt e M [x1; y1] [x2; y2] G G2 B ltac:(discriminate) eq_refl Hp Hq) as (K & HK & ED). destruct (grid_dist e M [x1; y1] [x2; y2] G G2 ltac:(lia) ltac:(discriminate) eq_refl Hp Hq) as (d & Ex & Fd & Vd).
  cbn [map] in ED, Vd. fold D in ED, Vd. exists d, K. split; [exact Ex|]. split; [exact Fd|]. split; [exact Vd|]. split; [exact HK|]. split; [exact ED|].
  destruct (grid_add e M M r s G ltac:(nia) Hr Hs) as ((Fa & ka & Ba & Ea) & Ea'). destruct (grid_sub e M M r s G ltac:(nia) Hr Hs) as ((Fb & kb & Bb & Eb) & Eb').
  assert (MB : (M + M <= 2 ^ 25)%Z) by nia. pose proof (bpow_gt_0 radix2 e) as Be.
  assert (ka0 : (0 <= ka)%Z). { apply le_IZR. apply Rmult_le_reg_r with (bpow radix2 e); auto. rewrite Rmult_0_l, <- Ea, Ea'. lra. }
  destruct (rnd_sqrt_cmp e K 0 G2 HK ltac:(lia)) as (_ & _ & C0). destruct (rnd_sqrt_cmp e K ka G2 HK ltac:(lia)) as (_ & C1 & _). destruct (rnd_sqrt_cmp e K (Z.abs kb) G2 HK ltac:(lia)) as (C2 & _ & _). cbv zeta in C0, C1, C2. rewrite Rmult_0_l, <- ED, <- Vd in C0. rewrite <- ED, <- Vd, <- Ea, Ea' in C1.
  rewrite <- ED, <- Vd in C2. replace (IZR (Z.abs kb) * bpow radix2 e) with (Rabs (FR r - FR s)) in C2 by (rewrite <- Eb', Eb, Rabs_mult, <- abs_IZR, (Rabs_pos_eq (bpow _ _)) by apply bpow_ge_0; reflexivity).
  split; [rewrite (eqb_F _ _ Fd (proj2 zero_F)), (proj1 zero_F); exact C0|]. split; [rewrite (ltb_F _ _ Fa Fd), Ea'; exact C1|]. rewrite (ltb_F _ _ Fd (proj2 (abs_finite _) Fb)), abs_F, Eb'. exact C2.
Qed.

Lemma not_iff (b : bool) P : (b = true <-> P) -> ~ P -> b = false.
Proof. intros H N. destruct b; auto. exfalso. apply N. apply H. reflexivity. Qed.
(** Circles that do not meet are recognised exactly. *)
Theorem C87_rejections : forall e M (p q : list flt) (r s : flt) (c o : ball FNum), (-200 <= e <= 200)%Z -> (8 * (M * M) < 2 ^ 50)%Z ->
  Forall (on_grid e M) p -> Forall (on_grid e M) q -> on_grid e M r -> on_grid e M s -> circle_new (N:=FNum) p r = Ok c -> circle_new (N:=FNum) q s = Ok o ->
  let D := dist (map FR p) (map FR q) in
  (map FR p = map FR q -> circle_intersect_circle c o = Raise (ValueError "The centres of the circles are coincident.")) /\
  (FR r + FR s < D -> circle_intersect_circle c o = Raise (ValueError "The circles do not intersect. These circles are separate.")) /\
  (map FR p <> map FR q -> D < Rabs (FR r - FR s) -> circle_intersect_circle c o = Raise (ValueError "The circles do not intersect. One circle is contained within the other.")).
Proof.
  intros e M p q r s c o He HM Hp Hq Hr Hs Hc Ho. apply (circle_shape e M) in Hc as (-> & Rp & x1 & y1 & -> & Gx1 & Gy1); auto. apply (circle_shape e M) in Ho as (-> & Sp & x2 & y2 & -> & Gx2 & Gy2); auto. cbn [map].
  destruct (decide_F e M x1 y1 x2 y2 r s He HM Gx1 Gy1 Gx2 Gy2 Hr Hs Rp Sp) as (d & K & Ed & Fd & Vd & HK & ED & C0 & C1 & C2). set (D := dist [FR x1; FR y1] [FR x2; FR y2]) in *.
  unfold circle_intersect_circle. cbn [c_point c_radius]. rewrite Ed. cbn [bind]. change (neqb (n:=FNum) d n0) with (PrimFloat.eqb d 0). change (nltb (n:=FNum) (nadd r s) d) with (PrimFloat.ltb (r + s) d). change (nltb (n:=FNum) d (nabs (nsub r s))) with (PrimFloat.ltb d (PrimFloat.abs (r - s))).
  assert (D0 : D = 0 <-> [FR x1; FR y1] = [FR x2; FR y2]) by (unfold D; apply dist_zero_iff; reflexivity).
  split; [|split].
  - intro H. apply D0 in H. rewrite (proj2 C0 H). reflexivity.
  - intro H. rewrite (not_iff _ _ C0) by lra. rewrite (proj2 C1 H). reflexivity.
  - intros N H. rewrite (not_iff _ _ C0) by (rewrite D0; exact N). rewrite (not_iff _ _ C1) by (revert H; unfold Rabs; destruct (Rcase_abs _); lra). rewrite (proj2 C2 H). reflexivity.
Qed.
Print Assumptions C87_rejections.

(** The common points of two circles, in coordinates. *)
Lemma common_points x1 y1 x2 y2 r s D A H : 0 < r -> 0 < s -> 0 < D -> D = dist [x1; y1] [x2; y2] -> 2 * D * A = r * r - s * s + D * D -> H * H = r * r - A * A ->
  forall x, on_sphere [x1; y1] r x /\ on_sphere [x2; y2] s x <->
    x = [x1 + A * (x2 - x1) / D + H * (y1 - y2) / D; y1 + A * (y2 - y1) / D + H * (x2 - x1) / D] \/ x = [x1 + A * (x2 - x1) / D + H * (y2 - y1) / D; y1 + A * (y2 - y1) / D + H * (x1 - x2) / D].
Proof.
  intros Hr Hs HD ED QA QH x. assert (Qd : D * D = (x1 - x2) * (x1 - x2) + (y1 - y2) * (y1 - y2)) by (rewrite ED; apply Balls.dist2_sq).
  assert (TC : forall u v, on_sphere [x1; y1] r [u; v] /\ on_sphere [x2; y2] s [u; v] <-> (u = x1 + A * (x2 - x1) / D + H * (y1 - y2) / D /\ v = y1 + A * (y2 - y1) / D + H * (x2 - x1) / D) \/ (u = x1 + A * (x2 - x1) / D + H * (y2 - y1) / D /\ v = y1 + A * (y2 - y1) / D + H * (x1 - x2) / D)).
  { intros u v. rewrite !Balls.on_circle_iff by auto. rewrite (Balls.two_circles x1 y1 x2 y2 r s D A H u v HD Qd QA QH). replace (1 * H * (y1 - y2) / D) with (H * (y1 - y2) / D) by (field; lra). replace (y1 + A * (y2 - y1) / D - 1 * H * (x1 - x2) / D) with (y1 + A * (y2 - y1) / D + H * (x2 - x1) / D) by (field; lra).
    replace (-1 * H * (y1 - y2) / D) with (H * (y2 - y1) / D) by (field; lra). replace (y1 + A * (y2 - y1) / D - -1 * H * (x1 - x2) / D) with (y1 + A * (y2 - y1) / D + H * (x1 - x2) / D) by (field; lra). reflexivity. }
  split.
  - intro Hx. assert (Lx : length x = 2%nat) by (destruct Hx as ((L & _) & _); simpl in L; exact L). destruct x as [|u [|v [|]]]; try discriminate Lx. apply TC in Hx as [(-> & ->)|(-> & ->)]; auto.
  - intros [->| ->]; apply TC; auto.
Qed.
Lemma bind_ext {A B} (x : res A) (f g : A -> res B) : (forall v, f v = g v) -> bind x f = bind x g.
Proof. intro H. destruct x; cbn [bind]; auto. Qed.
(** intersect_circle after its three checks. *)
Lemma body_F (x1 y1 x2 y2 r s d : flt) : Forall finite [x1; y1; x2; y2] -> finite (x2 - x1)%float -> finite (y2 - y1)%float ->
  distance_point (N:=FNum) [x1; y1] [x2; y2] = Ok d -> PrimFloat.eqb d 0 = false -> PrimFloat.ltb (r + s) d = false -> PrimFloat.ltb d (PrimFloat.abs (r - s)) = false ->
  let a := ((r * r - s * s + d * d) / (f_ofZ 2 * d))%float in
  circle_intersect_circle (MkBall (N:=FNum) [x1; y1] r) (MkBall (N:=FNum) [x2; y2] s) =
    (let* h := math_sqrt (N:=FNum) (r * r - a * a)%float in
     let* v1 := vmuls (N:=FNum) a [(x2 - x1)%float; (y2 - y1)%float] in
     let* v2 := vdivs (N:=FNum) v1 d in
     let* m := vadd (N:=FNum) [x1; y1] v2 in
     match m with
     | [m0; m1] =>
        let coord pm delta := ndiv (n:=FNum) (pm * h * delta)%float d in
        let* dx0 := coord 1%float (y1 - y2)%float in
        let* dx1 := coord (f_ofZ (-1)) (y1 - y2)%float in
        let* dy0 := coord 1%float (x1 - x2)%float in
        let* dy1 := coord (f_ofZ (-1)) (x1 - x2)%float in
        let* pa := point_of (N:=FNum) [(m0 + dx0)%float; (m1 - dy0)%float] in
        let* pb := point_of (N:=FNum) [(m0 + dx1)%float; (m1 - dy1)%float] in
        Ok (pa, pb)
     | _ => Raise (ValueError "The point must be 2D.")
     end).
Proof.
  intros F Fx Fy Ed E0 E1 E2 a. unfold circle_intersect_circle. cbn [c_point c_radius]. rewrite Ed. cbn [bind]. change (neqb (n:=FNum) d n0) with (PrimFloat.eqb d 0). change (nltb (n:=FNum) (nadd r s) d) with (PrimFloat.ltb (r + s) d). change (nltb (n:=FNum) d (nabs (nsub r s))) with (PrimFloat.ltb d (PrimFloat.abs (r - s))). rewrite E0, E1, E2.
  change (ndiv (n:=FNum) (nadd (nsub (nmul r r) (nmul s s)) (nmul d d)) (nmul (nofZ 2) d)) with (Ok (A:=flt) a). cbn [bind]. change (nsub (n:=FNum) (nmul r r) (nmul a a)) with (r * r - a * a)%float. destruct (math_sqrt (N:=FNum) (r * r - a * a)%float) as [h| |]; cbn [bind]; try reflexivity.
  unfold from_points. change (nsub (n:=FNum)) with PrimFloat.sub. rewrite bcast_F by reflexivity. cbn [bind map2]. rewrite vector_of_ok; [|discriminate|constructor; [exact Fx|constructor; [exact Fy|constructor]]]. cbn [bind].
  apply bind_ext. intro v1. apply bind_ext. intro v2. apply bind_ext. intros [|m0 [|m1 [|]]]; reflexivity.
Qed.
Lemma rnd_rnd x : rnd (rnd x) = rnd x.
Proof. apply round_generic; auto with typeclass_instances. apply generic_format_round; auto with typeclass_instances. Qed.
Lemma two_F : on_grid 0 2 (f_ofZ 2) /\ FR (f_ofZ 2) = 2.
Proof. destruct (ofZ_F 2) as (F & E); [lia|]. split; auto. split; auto. exists 2%Z. split; [lia|]. rewrite E. simpl. lra. Qed.

Lemma uro_tiny : 0 < uro <= / 1000000.
Proof. split; [apply bpow_gt_0|]. unfold uro. apply Rle_trans with (bpow radix2 (-20)); [apply bpow_le; lia|]. simpl. lra. Qed.
(** One coordinate when the circles touch: the half chord is 0. *)
Lemma chain_zero e (A D P V W X : R) (ka kv kp : Z) : (-200 <= e <= 200)%Z -> (Z.abs ka * Z.abs kv < 2 ^ 53)%Z -> A = IZR ka * bpow radix2 e -> V = IZR kv * bpow radix2 e -> P = IZR kp * bpow radix2 e -> 0 < D ->
  chain A D 0 P V W X -> let T := P + A * V / D in
  X = rnd (P + rnd (A * V / D)) /\ Rabs (X - T) <= uro * Rabs T + 1.01 * (uro * Rabs (T - P)) + 2 * eta.
Proof.
  intros He Hk EA EV EP HD (v1 & v2 & m & k1 & k2 & E1 & E2 & E3 & B3 & F1 & F2 & F3 & B4) T.
  assert (v1e : v1 = A * V). { rewrite E1. replace (A * V) with (IZR (ka * kv) * bpow radix2 (e + e)) by (rewrite mult_IZR, bpow_plus, EA, EV; ring). apply rnd_grid; [rewrite Z.abs_mul; exact Hk|lia]. }
  assert (k20 : k2 = 0). { rewrite F2, F1, Rmult_0_l, rnd_0. unfold Rdiv. rewrite Rmult_0_l. apply rnd_0. }
  assert (Xm : X = m) by (rewrite F3, k20, Rplus_0_r, E3; apply rnd_rnd). rewrite v1e in E2. split; [rewrite Xm, E3, E2; reflexivity|].
  pose proof (rnd_err (A * V / D)) as Hv. rewrite <- E2 in Hv. replace (T - P) with (A * V / D) by (unfold T; ring). set (q := A * V / D) in *. pose proof uro_tiny as U. pose proof eta_pos as Et. pose proof (Rabs_pos q) as q0. pose proof (Rabs_pos (v2 - q)) as e0.
  assert (P1 : Rabs (P + v2) <= Rabs T + Rabs (v2 - q)). { replace (P + v2) with (T + (v2 - q)) by (unfold T; ring). apply Rabs_triang. }
  assert (P2 : uro * Rabs (P + v2) <= uro * Rabs T + / 1000000 * Rabs (v2 - q)). { apply Rle_trans with (uro * (Rabs T + Rabs (v2 - q))); [apply Rmult_le_compat_l; lra|]. assert (uro * Rabs (v2 - q) <= / 1000000 * Rabs (v2 - q)) by (apply Rmult_le_compat_r; lra). lra. }
  rewrite Xm. replace (m - T) with ((m - (P + v2)) + (v2 - q)) by (unfold T; ring). eapply Rle_trans; [apply Rabs_triang|]. assert (0 <= uro * Rabs q) by (apply Rmult_le_pos; lra). lra.
Qed.
(** A touching point on the grid is found exactly. *)
Lemma chain_zero_exact e M (A D P V X r : R) (k kp : Z) : (-200 <= e <= 200)%Z -> (8 * (M * M) < 2 ^ 50)%Z -> P = IZR kp * bpow radix2 e -> (Z.abs kp <= M)%Z -> 0 < D -> Rabs V <= D -> Rabs A <= r -> r <= IZR M * bpow radix2 e ->
  X = rnd (P + rnd (A * V / D)) -> P + A * V / D = IZR k * bpow radix2 e -> X = P + A * V / D.
Proof.
  intros He HM EP Bp HD HV HA Hr EX ET. pose proof (bpow_gt_0 radix2 e) as Be. assert (Bq : Rabs (A * V / D) <= IZR M * bpow radix2 e).
  { unfold Rdiv. rewrite Rmult_assoc, Rabs_mult. apply Rle_trans with (Rabs A * 1); [|lra]. apply Rmult_le_compat_l; [apply Rabs_pos|]. rewrite Rabs_mult, Rabs_inv, (Rabs_pos_eq D) by lra. apply Rmult_le_reg_r with D; auto. rewrite Rmult_assoc, Rinv_l by lra. lra. }
  assert (Eq : A * V / D = IZR (k - kp) * bpow radix2 e) by (rewrite minus_IZR; rewrite EP in ET; lra). rewrite Eq in Bq. rewrite Rabs_mult, <- abs_IZR, (Rabs_pos_eq (bpow _ _)) in Bq by lra. apply Rmult_le_reg_r in Bq; auto. apply le_IZR in Bq.
  assert (MB : (M < 2 ^ 24)%Z) by nia. rewrite EX. rewrite Eq at 1. rewrite (rnd_grid (k - kp) e) by lia. rewrite <- Eq, ET. apply rnd_grid; lia.
Qed.

(** Facts common to the touching and the crossing case. *)
Lemma pair_F e M (x y : flt) : (-200 <= e <= 200)%Z -> (8 * (M * M) < 2 ^ 50)%Z -> on_grid e M x -> on_grid e M y -> within 250 x /\ within 250 (x - y)%float /\ within 250 (y - x)%float /\ FR (x - y)%float = FR x - FR y /\ FR (y - x)%float = FR y - FR x.
Proof.
  intros He HM Hx Hy. assert (G : grid_ok e) by (unfold grid_ok; lia). assert (M0 : (0 <= M)%Z) by (eapply grid_pos; eauto). assert (MB : (M < 2 ^ 24)%Z) by nia.
  destruct (grid_sub e M M x y G ltac:(lia) Hx Hy) as (G1 & E1). destruct (grid_sub e M M y x G ltac:(lia) Hy Hx) as (G2 & E2).
  split; [apply (grid_within e M); auto; lia|]. split; [apply (grid_within e (M + M)); auto; lia|]. split; [apply (grid_within e (M + M)); auto; lia|]. auto.
Qed.
Lemma coord_dist x1 y1 x2 y2 : Rabs (x2 - x1) <= dist [x1; y1] [x2; y2] /\ Rabs (y2 - y1) <= dist [x1; y1] [x2; y2].
Proof.
  pose proof (Balls.dist2_sq x1 y1 x2 y2) as Q. pose proof (dist_nonneg [x1; y1] [x2; y2]) as N. set (D := dist [x1; y1] [x2; y2]) in *.
  split; apply Rsqr_incr_0_var; auto; rewrite <- Rsqr_abs; unfold Rsqr; rewrite Q; pose proof (Rle_0_sqr (x1 - x2)) as S1; pose proof (Rle_0_sqr (y1 - y2)) as S2; unfold Rsqr in S1, S2; nra.
Qed.
Theorem C87_tangent : forall e M (p q : list flt) (r s : flt) (c o : ball FNum), (-200 <= e <= 200)%Z -> (8 * (M * M) < 2 ^ 50)%Z ->
  Forall (on_grid e M) p -> Forall (on_grid e M) q -> on_grid e M r -> on_grid e M s -> circle_new (N:=FNum) p r = Ok c -> circle_new (N:=FNum) q s = Ok o ->
  let D := dist (map FR p) (map FR q) in
  map FR p <> map FR q -> D = FR r + FR s \/ D = Rabs (FR r - FR s) ->
  exists (a b : list flt) (T : list R), circle_intersect_circle c o = Ok (a, b) /\ Forall finite a /\ Forall finite b /\ length T = 2%nat /\
    (forall x, on_sphere (map FR p) (FR r) x /\ on_sphere (map FR q) (FR s) x <-> x = T) /\
    map FR a = map FR b /\ length a = 2%nat /\
    (forall i, Rabs (nth i (map FR a) 0 - nth i T 0) <= uro * Rabs (nth i T 0) + 1.01 * (uro * Rabs (nth i T 0 - nth i (map FR p) 0)) + 2 * eta) /\
    (forall i k, nth i T 0 = IZR k * bpow radix2 e -> nth i (map FR a) 0 = nth i T 0).
Proof.
  intros e M p q r s c o He HM Hp Hq Hr Hs Hc Ho. apply (circle_shape e M) in Hc as (-> & Rp & x1 & y1 & -> & Gx1 & Gy1); auto. apply (circle_shape e M) in Ho as (-> & Sp & x2 & y2 & -> & Gx2 & Gy2); auto. cbn [map].
  destruct (decide_F e M x1 y1 x2 y2 r s He HM Gx1 Gy1 Gx2 Gy2 Hr Hs Rp Sp) as (d & K & Ed & Fd & Vd & HK & ED & C0 & C1 & C2). destruct (coord_dist (FR x1) (FR y1) (FR x2) (FR y2)) as (CDx & CDy). pose proof (common_points (FR x1) (FR y1) (FR x2) (FR y2) (FR r) (FR s)) as CP.
  assert (D0 : dist [FR x1; FR y1] [FR x2; FR y2] = 0 <-> [FR x1; FR y1] = [FR x2; FR y2]) by (apply dist_zero_iff; reflexivity). pose proof (dist_nonneg [FR x1; FR y1] [FR x2; FR y2]) as Dn. set (D := dist [FR x1; FR y1] [FR x2; FR y2]) in *.
  intros Ne HD. assert (Dp : 0 < D) by (destruct Dn as [H|H]; [exact H|exfalso; apply Ne, D0; auto]).
  assert (G : grid_ok e) by (unfold grid_ok; lia). assert (G2 : grid_ok (e + e)) by (unfold grid_ok; lia). assert (M0 : (0 <= M)%Z) by (eapply grid_pos; eauto). assert (MB : (M < 2 ^ 24)%Z) by nia. pose proof (bpow_gt_0 radix2 e) as Be.
  assert (DK : exists kd, (0 < kd <= M + M)%Z /\ D = IZR kd * bpow radix2 e).
  { destruct Hr as (_ & kr & Br & Er). destruct Hs as (_ & ks & Bs & Es). destruct HD as [HD|HD].
    - exists (kr + ks)%Z. assert (E : D = IZR (kr + ks) * bpow radix2 e) by (rewrite HD, Er, Es, plus_IZR; ring). split; auto. split; [|lia]. apply lt_IZR. apply Rmult_lt_reg_r with (bpow radix2 e); auto. rewrite Rmult_0_l, <- E. exact Dp.
    - exists (Z.abs (kr - ks))%Z. assert (E : D = IZR (Z.abs (kr - ks)) * bpow radix2 e). { rewrite HD, Er, Es, abs_IZR, minus_IZR. rewrite <- (Rabs_pos_eq (bpow radix2 e)) at 3 by lra. rewrite <- Rabs_mult. f_equal. ring. } split; auto. split; [|lia]. apply lt_IZR. apply Rmult_lt_reg_r with (bpow radix2 e); auto. rewrite Rmult_0_l, <- E. exact Dp. }
  destruct DK as (kd & Bd & Ekd). assert (dD : FR d = D) by (rewrite Vd, Ekd; apply rnd_grid; lia). assert (Gd : on_grid e (M + M) d) by (split; auto; exists kd; split; [lia|rewrite dD; exact Ekd]).
  (* the foot *)
  destruct (grid_mul e e M M r r G2 ltac:(nia) Hr Hr) as (Grr & Err). destruct (grid_mul e e M M s s G2 ltac:(nia) Hs Hs) as (Gss & Ess). destruct (grid_mul e e (M + M) (M + M) d d G2 ltac:(nia) Gd Gd) as (Gdd & Edd).
  destruct (grid_sub (e + e) (M * M) (M * M) _ _ G2 ltac:(lia) Grr Gss) as (Gw & Ew). destruct (grid_add (e + e) (M * M + M * M) ((M + M) * (M + M)) _ _ G2 ltac:(nia) Gw Gdd) as (Gn & En). destruct two_F as (Gt & Et). destruct (grid_mul 0 e 2 (M + M) (f_ofZ 2) d G ltac:(lia) Gt Gd) as (Gd2 & Ed2).
  set (A := if Rle_dec (FR s) (FR r) then FR r else if Req_EM_T D (FR r + FR s) then FR r else - FR r).
  assert (QA : 2 * D * A = FR r * FR r - FR s * FR s + D * D). { unfold A. destruct (Rle_dec (FR s) (FR r)) as [L|L]; [destruct HD as [->|HD]; [ring|rewrite Rabs_pos_eq in HD by lra; rewrite HD; ring]|]. destruct (Req_EM_T D (FR r + FR s)) as [->|N]; [ring|]. destruct HD as [HD|HD]; [contradiction|]. rewrite Rabs_left in HD by lra. rewrite HD. ring. }
  assert (AA : A = FR r \/ A = - FR r) by (unfold A; destruct (Rle_dec _ _); auto; destruct (Req_EM_T _ _); auto).
  assert (A2 : FR r * FR r - A * A = 0) by (destruct AA as [-> | ->]; ring). assert (Aa : Rabs A = FR r) by (destruct AA as [-> | ->]; [|rewrite Rabs_Ropp]; apply Rabs_pos_eq; lra).
  set (a := ((r * r - s * s + d * d) / (f_ofZ 2 * d))%float). assert (qe : FR (r * r - s * s + d * d)%float / FR (f_ofZ 2 * d)%float = A). { rewrite En, Ew, Err, Ess, Edd, Ed2, Et, dD. rewrite <- QA. field. lra. }
  assert (Rr : rnd A = A) by (destruct AA as [-> | ->]; [|rewrite rnd_opp; f_equal]; apply rnd_FR; eapply on_grid_finite; eauto).
  assert (rB : FR r <= IZR M * bpow radix2 e). { destruct Hr as (_ & kr & Br & Er). rewrite Er. apply Rmult_le_compat_r; [lra|]. apply IZR_le. lia. }
  destruct (fin_div (r * r - s * s + d * d)%float (f_ofZ 2 * d)%float (on_grid_finite _ _ _ Gn)) as (Fa & Ea); [rewrite Ed2, Et, dD; lra|rewrite qe, Rr, Aa; eapply Rle_lt_trans; [exact rB|]; rewrite <- (Rabs_pos_eq (IZR M * bpow radix2 e)) by (apply Rmult_le_pos; [apply IZR_le; lia|lra]); apply grid_bound; auto; lia|].
  fold a in Fa, Ea. rewrite qe, Rr in Ea. assert (Ga : on_grid e M a). { split; auto. destruct Hr as (_ & kr & Br & Er). destruct AA as [AA|AA]; [exists kr|exists (- kr)%Z]; (split; [lia|]); rewrite Ea, AA, Er; auto. rewrite opp_IZR; ring. }
  destruct (grid_mul e e M M a a G2 ltac:(nia) Ga Ga) as (Gaa & Eaa). pose proof (fzero_sub (r * r)%float (a * a)%float (on_grid_finite _ _ _ Grr) (on_grid_finite _ _ _ Gaa) ltac:(rewrite Err, Eaa, Ea; lra)) as Zg. pose proof (fzero_sqrt _ Zg) as Zh.
  assert (Sq : math_sqrt (N:=FNum) (r * r - a * a)%float = Ok (PrimFloat.sqrt (r * r - a * a)%float)). { unfold math_sqrt. change (nltb (n:=FNum) (r * r - a * a)%float n0) with (PrimFloat.ltb (r * r - a * a) 0). rewrite (not_iff _ _ (ltb_F _ _ (proj1 Zg) (proj2 zero_F))); [reflexivity|]. rewrite (proj1 zero_F), (proj2 Zg). lra. }
  destruct (pair_F e M x1 x2 He HM Gx1 Gx2) as (W1 & W2 & W3 & E1 & E2). destruct (pair_F e M y1 y2 He HM Gy1 Gy2) as (W4 & W5 & W6 & E3 & E4).
  set (h := PrimFloat.sqrt (r * r - a * a)%float) in *. assert (Wh : within 250 h) by (split; [apply Zh|rewrite (proj2 Zh), Rabs_R0; apply bpow_ge_0]).
  destruct (tail_F a d h x1 y1 x2 y2) as (X0 & Y0 & X1 & Y1 & Et0 & Ft & H1 & H2 & H3 & H4); auto. { apply (grid_within e M); auto; lia. } { rewrite dD, Ekd. apply Rle_trans with (1 * bpow radix2 e); [rewrite Rmult_1_l; apply bpow_le; lia|]. apply Rmult_le_compat_r; [lra|]. apply IZR_le. lia. }
  assert (Body : circle_intersect_circle (MkBall (N:=FNum) [x1; y1] r) (MkBall (N:=FNum) [x2; y2] s) = Ok ([X0; Y0], [X1; Y1])).
  { eapply eq_trans; [apply (body_F x1 y1 x2 y2 r s d); auto|cbv zeta; fold a; rewrite Sq; cbn [bind]; exact Et0].
    - constructor; [exact (on_grid_finite _ _ _ Gx1)|constructor; [exact (on_grid_finite _ _ _ Gy1)|constructor; [exact (on_grid_finite _ _ _ Gx2)|constructor; [exact (on_grid_finite _ _ _ Gy2)|constructor]]]].
    - apply W3.
    - apply W6.
    - apply (not_iff _ _ C0). lra.
    - apply (not_iff _ _ C1). destruct HD as [-> |HD]; [lra|]. rewrite HD. unfold Rabs; destruct (Rcase_abs _); lra.
    - apply (not_iff _ _ C2). destruct HD as [HD| ->]; [|lra]. rewrite HD. unfold Rabs; destruct (Rcase_abs _); lra. }
  rewrite Ea, dD, (proj2 Zh) in H1, H2, H3, H4.
  assert (GV : forall u v : flt, on_grid e M u -> on_grid e M v -> exists kv, (Z.abs kv <= M + M)%Z /\ FR v - FR u = IZR kv * bpow radix2 e). { intros u v (_ & ku & Bu & Eu) (_ & kv & Bv & Ev). exists (kv - ku)%Z. split; [lia|]. rewrite Eu, Ev, minus_IZR. ring. }
  destruct Ga as (_ & ka & Ba & Eka). rewrite Ea in Eka. destruct (GV x1 x2 Gx1 Gx2) as (kv & Bv & Ekv). destruct (GV y1 y2 Gy1 Gy2) as (kw & Bw & Ekw). destruct Gx1 as (F1 & kx & Bx & Ex). destruct Gy1 as (F3 & ky & By & Ey).
  assert (PB : forall k : Z, (Z.abs k <= M + M)%Z -> (Z.abs ka * Z.abs k < 2 ^ 53)%Z) by (intros k Hk; apply Z.le_lt_trans with (M * (M + M))%Z; [apply Z.mul_le_mono_nonneg; lia|lia]).
  destruct (chain_zero e _ _ _ _ _ _ ka kv kx He (PB _ Bv) Eka Ekv Ex Dp H1) as (Q1 & R1). destruct (chain_zero e _ _ _ _ _ _ ka kw ky He (PB _ Bw) Eka Ekw Ey Dp H2) as (Q2 & R2).
  destruct (chain_zero e _ _ _ _ _ _ ka kv kx He (PB _ Bv) Eka Ekv Ex Dp H3) as (Q3 & R3). destruct (chain_zero e _ _ _ _ _ _ ka kw ky He (PB _ Bw) Eka Ekw Ey Dp H4) as (Q4 & R4).
  exists [X0; Y0], [X1; Y1], [FR x1 + A * (FR x2 - FR x1) / D; FR y1 + A * (FR y2 - FR y1) / D].
  split; [exact Body|]. split; [exact (Forall_cons _ (Forall_inv Ft) (Forall_cons _ (Forall_inv (Forall_inv_tail Ft)) (Forall_nil _)))|]. split; [exact (Forall_inv_tail (Forall_inv_tail Ft))|]. split; [reflexivity|]. split.
  { intro x. rewrite (CP D A 0 Rp Sp Dp eq_refl QA ltac:(lra) x). rewrite !Rmult_0_l. unfold Rdiv at 2 4 6 8. rewrite !Rmult_0_l, !Rplus_0_r. tauto. }
  split; [cbn [map]; rewrite Q1, Q2, Q3, Q4; reflexivity|]. split; [reflexivity|]. split.
  - assert (Z0 : Rabs (0 - 0) <= uro * Rabs 0 + 1.01 * (uro * Rabs (0 - 0)) + 2 * eta). { rewrite Rminus_0_r, Rabs_R0. pose proof eta_pos. lra. } intros [|[|[|i]]]; cbn [nth map]; [exact R1|exact R2|exact Z0|exact Z0].
  - intros [|[|[|i]]] k; cbn [nth map]; intro ET; auto; eapply (chain_zero_exact e M); eauto; try lra.
Qed.
Print Assumptions C87_tangent.

(** ** Two crossing circles *)
Lemma rnd_rel x : bpow radix2 (-1000) <= Rabs x -> Rabs (rnd x - x) <= uro * Rabs x.
Proof.
  intro H. unfold rnd. eapply Rle_trans; [apply Relative.relative_error_N_FLT; [reflexivity|eapply Rle_trans; [apply bpow_le|exact H]; lia]|]. apply Rmult_le_compat_r; [apply Rabs_pos|]. right. unfold uro. transitivity (bpow radix2 (-1 + (-53 + 1))); [rewrite (bpow_plus radix2 (-1)); reflexivity|reflexivity].
Qed.
Lemma half_chord (kr ks K M : Z) b D : (0 < kr <= M)%Z -> (0 < ks <= M)%Z -> ((kr - ks) * (kr - ks) < K)%Z -> (K < (kr + ks) * (kr + ks))%Z -> 0 < b -> 0 < D -> D * D = IZR K * (b * b) ->
  let r := IZR kr * b in let s := IZR ks * b in let A := (r * r - s * s + D * D) / (2 * D) in 3 * (b * b) <= 16 * IZR M * (r * r - A * A).
Proof.
  intros Hr Hs K1 K2 Hb HD QD r s A. set (F1 := ((kr + ks) * (kr + ks) - K)%Z). set (F2 := (K - (kr - ks) * (kr - ks))%Z). assert (B1 : (1 <= F1)%Z) by (unfold F1; lia). assert (B2 : (1 <= F2)%Z) by (unfold F2; lia).
  assert (E : (F1 + F2 = 4 * (kr * ks))%Z) by (unfold F1, F2; ring). assert (B3 : (F1 + F2 - 1 <= F1 * F2)%Z) by nia. assert (B4 : (0 < kr * ks)%Z) by nia. assert (B5 : (3 * (kr * ks) <= F1 * F2)%Z) by lia.
  assert (B6 : ((kr + ks) * (kr + ks) <= 4 * (M * (kr * ks)))%Z). { assert (kr * kr <= M * (kr * ks))%Z by nia. assert (ks * ks <= M * (kr * ks))%Z by nia. assert (kr * ks <= M * (kr * ks))%Z by nia. nia. }
  assert (B7 : (3 * K <= 4 * (M * (F1 * F2)))%Z) by nia.
  assert (EG : (r * r - A * A) * (4 * (D * D)) = IZR (F1 * F2) * (b * b * (b * b))).
  { unfold A. replace ((r * r - (r * r - s * s + D * D) / (2 * D) * ((r * r - s * s + D * D) / (2 * D))) * (4 * (D * D))) with (4 * (D * D) * (r * r) - (r * r - s * s + D * D) * (r * r - s * s + D * D)) by (field; lra). rewrite QD. unfold r, s, F1, F2. rewrite mult_IZR, !minus_IZR, !mult_IZR, plus_IZR, minus_IZR. ring. }
  assert (P4 : 0 < 4 * (D * D)) by (assert (0 < D * D) by (apply Rmult_lt_0_compat; auto); lra). apply Rmult_le_reg_r with (4 * (D * D)); auto. rewrite (Rmult_assoc (16 * IZR M)), EG. rewrite QD. apply IZR_le in B7. rewrite !mult_IZR in *.
  assert (0 < b * b * (b * b)) by (apply Rmult_lt_0_compat; apply Rmult_lt_0_compat; auto). apply Rle_trans with ((3 * IZR K) * (4 * (b * b * (b * b)))); [right; ring|]. apply Rle_trans with (4 * (IZR M * (IZR F1 * IZR F2)) * (4 * (b * b * (b * b)))); [apply Rmult_le_compat_r; lra|right; ring].
Qed.
Lemma chain_err (t' D r A H a d h P V W X : R) : 0 < D -> 0 < r -> 0 < H <= r -> Rabs A <= r -> eta <= t' -> eta <= t' * D -> t' <= / 1000 * (uro * r) -> Rabs V <= D -> Rabs W <= D ->
  Rabs (d - D) <= uro * D -> Rabs (a - A) <= uro * (2 * D + 5 * r) -> Rabs (h - H) <= 1.001 * (uro * (r * (5 * D + 13 * r)) / H) + 1.002 * (uro * H) ->
  chain a d h P V W X -> let x := P + A * V / D + H * W / D in Rabs (X - x) <= uro * ((8 * D + 28 * r) * (r / H)) + 3 * (uro * Rabs x).
Proof.
  intros HD Hr HH HA T1 T2 T3 HV HW Hd Ha Hh (v1 & v2 & m & k1 & k2 & E1 & E2 & E3 & B3 & F1 & F2 & F3 & B4) x.
  pose proof uro_tiny as U. pose proof eta_pos as Et. set (rho := r / H) in *. assert (Hrho : 1 <= rho). { unfold rho. apply Rmult_le_reg_r with H; [lra|]. unfold Rdiv. rewrite Rmult_assoc, Rinv_l by lra. lra. }
  set (Y1 := uro * (D * rho)). set (Y2 := uro * (r * rho)). assert (L1 : uro * D <= Y1). { unfold Y1. apply Rmult_le_compat_l; [lra|]. rewrite <- (Rmult_1_r D) at 1. apply Rmult_le_compat_l; lra. } assert (L2 : uro * r <= Y2). { unfold Y2. apply Rmult_le_compat_l; [lra|]. rewrite <- (Rmult_1_r r) at 1. apply Rmult_le_compat_l; lra. }
  assert (L3 : uro * H <= Y2) by (apply Rle_trans with (uro * r); [apply Rmult_le_compat_l; lra|exact L2]). assert (L4 : uro * Rabs A <= Y2) by (apply Rle_trans with (uro * r); [apply Rmult_le_compat_l; lra|exact L2]).
  assert (u0 : 0 < uro * D) by (apply Rmult_lt_0_compat; lra). assert (u1 : 0 < uro * r) by (apply Rmult_lt_0_compat; lra).
  assert (Eh : uro * (r * (5 * D + 13 * r)) / H = 5 * Y1 + 13 * Y2) by (unfold Y1, Y2, rho; field; lra). rewrite Eh in Hh.
  pose proof (ratio_err uro eta t' D A a (uro * (2 * D + 5 * r)) V d v1 v2 U ltac:(lra) HD ltac:(apply Rmult_le_pos; lra) HV T1 T2 Ha Hd ltac:(rewrite E1; apply rnd_err) ltac:(rewrite E2; apply rnd_err)) as Ev.
  assert (uH : 0 < uro * H) by (apply Rmult_lt_0_compat; lra).
  pose proof (ratio_err uro eta t' D H h (1.001 * (5 * Y1 + 13 * Y2) + 1.002 * (uro * H)) W d k1 k2 U ltac:(lra) HD ltac:(lra) HW T1 T2 Hh Hd ltac:(rewrite F1; apply rnd_err) ltac:(rewrite F2; apply rnd_err)) as Ek.
  rewrite (Rabs_pos_eq H) in Ek by lra.
  pose proof (sum_err uro P (A * V / D) (H * W / D) v2 k2 m X _ _ U Ev Ek B3 B4) as Es. fold x in Es.
  assert (kv : Rabs (H * W / D) <= H). { unfold Rdiv. rewrite Rmult_assoc, Rabs_mult, (Rabs_pos_eq H) by lra. rewrite <- (Rmult_1_r H) at 2. apply Rmult_le_compat_l; [lra|]. rewrite Rabs_mult, Rabs_inv, (Rabs_pos_eq D) by lra. apply Rmult_le_reg_r with D; auto. rewrite Rmult_assoc, Rinv_l by lra. lra. }
  assert (ukv : uro * Rabs (H * W / D) <= Y2) by (apply Rle_trans with (uro * H); [apply Rmult_le_compat_l; lra|exact L3]).
  assert (0 <= uro * Rabs x) by (apply Rmult_le_pos; [lra|apply Rabs_pos]). replace (uro * ((8 * D + 28 * r) * rho)) with (8 * Y1 + 28 * Y2) by (unfold Y1, Y2; ring). eapply Rle_trans; [exact Es|]. lra.
Qed.
(** The scalar part: a, g and h for crossing circles. *)
Lemma scalars_F e M (r s d : flt) D K : (-200 <= e <= 200)%Z -> (M <= 2 ^ 15)%Z -> on_grid e M r -> on_grid e M s -> 0 < FR r -> 0 < FR s -> finite d -> FR d = rnd D -> 0 < D -> (0 <= K < 2 ^ 50)%Z -> D = R_sqrt.sqrt (IZR K) * bpow radix2 e ->
  Rabs (FR r - FR s) < D -> D < FR r + FR s ->
  let a := ((r * r - s * s + d * d) / (f_ofZ 2 * d))%float in let A := (FR r * FR r - FR s * FR s + D * D) / (2 * D) in
  exists H h, 0 < H <= FR r /\ H * H = FR r * FR r - A * A /\ Rabs A <= FR r /\ math_sqrt (N:=FNum) (r * r - a * a)%float = Ok h /\ within 250 a /\ within 250 h /\ bpow radix2 (-210) <= FR d /\
    Rabs (FR d - D) <= uro * D /\ Rabs (FR a - A) <= uro * (2 * D + 5 * FR r) /\ Rabs (FR h - H) <= 1.001 * (uro * (FR r * (5 * D + 13 * FR r)) / H) + 1.002 * (uro * H) /\ bpow radix2 e <= FR r /\ bpow radix2 e <= D.
Proof.
  intros He HM Hr Hs Rp Sp Fd Vd Dp HK ED Lo Hi a A. set (b := bpow radix2 e) in *. assert (Be : 0 < b) by apply bpow_gt_0. pose proof uro_tiny as U. pose proof eta_pos as Et.
  assert (G2 : grid_ok (e + e)) by (unfold grid_ok; lia). assert (M0 : (0 <= M)%Z) by (eapply grid_pos; eauto). assert (QD : D * D = IZR K * (b * b)). { rewrite ED. fold b. replace (R_sqrt.sqrt (IZR K) * b * (R_sqrt.sqrt (IZR K) * b)) with (R_sqrt.sqrt (IZR K) * R_sqrt.sqrt (IZR K) * (b * b)) by ring. rewrite sqrt_sqrt by (apply IZR_le; lia). reflexivity. }
  destruct (grid_mul e e M M r r G2 ltac:(nia) Hr Hr) as (Grr & Err). destruct (grid_mul e e M M s s G2 ltac:(nia) Hs Hs) as (Gss & Ess). destruct (grid_sub (e + e) (M * M) (M * M) _ _ G2 ltac:(nia) Grr Gss) as (Gw & Ew). rewrite Err, Ess in Ew.
  assert (Hr' := Hr). assert (Hs' := Hs). destruct Hr' as (Fr & kr & Br & Er). destruct Hs' as (Fs & ks & Bs & Es). fold b in Er, Es.
  assert (kr0 : (0 < kr)%Z). { apply lt_IZR. apply Rmult_lt_reg_r with b; auto. rewrite Rmult_0_l, <- Er. exact Rp. } assert (ks0 : (0 < ks)%Z). { apply lt_IZR. apply Rmult_lt_reg_r with b; auto. rewrite Rmult_0_l, <- Es. exact Sp. }
  assert (bb : 0 < b * b) by (apply Rmult_lt_0_compat; auto).
  assert (K1 : ((kr - ks) * (kr - ks) < K)%Z). { apply lt_IZR. apply Rmult_lt_reg_r with (b * b); auto. rewrite <- QD, mult_IZR, minus_IZR. replace ((IZR kr - IZR ks) * (IZR kr - IZR ks) * (b * b)) with ((FR r - FR s) * (FR r - FR s)) by (rewrite Er, Es; ring). rewrite <- (Rabs_pos_eq ((FR r - FR s) * (FR r - FR s))) by apply Rle_0_sqr. rewrite Rabs_mult. apply Rmult_le_0_lt_compat; auto using Rabs_pos. }
  assert (K2 : (K < (kr + ks) * (kr + ks))%Z). { apply lt_IZR. apply Rmult_lt_reg_r with (b * b); auto. rewrite <- QD, mult_IZR, plus_IZR. replace ((IZR kr + IZR ks) * (IZR kr + IZR ks) * (b * b)) with ((FR r + FR s) * (FR r + FR s)) by (rewrite Er, Es; ring). apply Rmult_le_0_lt_compat; lra. }
  pose proof (half_chord kr ks K M b D ltac:(lia) ltac:(lia) K1 K2 Be Dp QD) as HC. cbv zeta in HC. rewrite <- Er, <- Es in HC. fold A in HC. set (G := FR r * FR r - A * A) in *.
  assert (Mp : 1 <= IZR M) by (apply IZR_le; lia). assert (MU : IZR M <= 32768) by (apply IZR_le; lia).
  assert (Gp : 0 < G). { destruct (Rlt_le_dec 0 G) as [L|L]; auto. assert (16 * IZR M * G <= 16 * IZR M * 0) by (apply Rmult_le_compat_l; lra). lra. }
  set (H := R_sqrt.sqrt G). assert (HH : H * H = G) by (apply sqrt_sqrt; lra). assert (Hp : 0 < H) by (apply sqrt_lt_R0; auto).
  assert (A0 : 0 <= A * A) by apply Rle_0_sqr. assert (Hle : H <= FR r) by (apply Rsqr_incr_0_var; [unfold Rsqr, G in *|]; lra).
  assert (Ale : Rabs A <= FR r). { rewrite <- (Rabs_pos_eq (FR r)) by lra. apply Rsqr_le_abs_0. unfold Rsqr, G in *. lra. }
  assert (rb : b <= FR r). { rewrite Er. rewrite <- (Rmult_1_l b) at 1. apply Rmult_le_compat_r; [lra|]. apply IZR_le. lia. }
  assert (rB : FR r <= IZR M * b). { rewrite Er. apply Rmult_le_compat_r; [lra|]. apply IZR_le. lia. } assert (sB : FR s <= IZR M * b). { rewrite Es. apply Rmult_le_compat_r; [lra|]. apply IZR_le. lia. }
  assert (mb : IZR M * b <= 32768 * b) by (apply Rmult_le_compat_r; lra). set (mB := IZR M * b) in *.
  assert (K0 : (1 <= K)%Z) by (pose proof (Z.square_nonneg (kr - ks)); lia). assert (Db : b <= D). { apply Rsqr_incr_0_var; [|lra]. unfold Rsqr. rewrite QD. rewrite <- (Rmult_1_l (b * b)) at 1. apply Rmult_le_compat_r; [lra|]. apply IZR_le. exact K0. }
  assert (Hb : b <= 512 * H). { destruct (Rle_lt_dec b (512 * H)) as [L|L]; auto. assert (512 * H * (512 * H) < b * b) by (apply Rmult_le_0_lt_compat; lra). assert (IZR M * G <= 32768 * G) by (apply Rmult_le_compat_r; lra). lra. }
  assert (b1 : bpow radix2 (-200) <= b) by (apply bpow_le; lia). assert (b2 : b <= bpow radix2 200) by (apply bpow_le; lia).
  assert (etaL : forall x, bpow radix2 (-420) <= x -> eta <= / 1000 * (uro * x)). { intros x Hx. apply Rle_trans with (bpow radix2 (-10) * (uro * bpow radix2 (-420))). - unfold uro, eta. rewrite <- !bpow_plus. apply bpow_le. lia. - apply Rmult_le_compat; [apply bpow_ge_0|apply Rmult_le_pos; [lra|apply bpow_ge_0]|simpl; lra|apply Rmult_le_compat_l; lra]. }
  assert (sm : forall x y, b <= x -> b <= y -> bpow radix2 (-420) <= x * y). { intros x y Hx Hy. apply Rle_trans with (b * b); [|apply Rmult_le_compat; lra]. apply Rle_trans with (bpow radix2 (-200) * bpow radix2 (-200)); [rewrite <- bpow_plus; apply bpow_le; lia|]. apply Rmult_le_compat; auto; apply bpow_ge_0. }
  assert (sm1 : bpow radix2 (-420) <= b) by (eapply Rle_trans; [|exact b1]; apply bpow_le; lia).
  assert (ru : rnd D - D = rnd D - D) by reflexivity. clear ru.
  assert (dD : Rabs (FR d - D) <= uro * D). { rewrite Vd. rewrite <- (Rabs_pos_eq D) at 3 by lra. apply rnd_rel. rewrite Rabs_pos_eq by lra. apply Rle_trans with b; [|exact Db]. eapply Rle_trans; [|exact b1]. apply bpow_le. lia. }
  assert (uD0 : 0 < uro * D <= / 1000000 * D) by (split; [apply Rmult_lt_0_compat; lra|apply Rmult_le_compat_r; lra]). apply Rabs_le_inv in dD as dD2.
  assert (u40 : uro <= bpow radix2 (-40)) by (apply bpow_le; lia). assert (u40' : uro * 65536 <= / 1000000) by (simpl in u40; lra).
  assert (uDr : uro * D <= / 1000000 * FR r). { apply Rle_trans with (uro * (65536 * FR r)); [apply Rmult_le_compat_l; lra|]. rewrite <- Rmult_assoc. apply Rmult_le_compat_r; lra. }
  assert (hb : bpow radix2 (-210) <= b / 2). { apply Rle_trans with (bpow radix2 (-201)); [apply bpow_le; lia|]. change (-201)%Z with (-200 + -1)%Z. rewrite bpow_plus. change (bpow radix2 (-1)) with (/ 2). lra. }
  assert (dlow : bpow radix2 (-210) <= FR d) by lra.
  assert (big : 131072 * b <= bpow radix2 220). { change 131072 with (bpow radix2 17). apply Rle_trans with (bpow radix2 17 * bpow radix2 200); [apply Rmult_le_compat_l; [apply bpow_ge_0|exact b2]|]. rewrite <- bpow_plus. apply bpow_le. lia. }
  assert (Wd : within 220 d) by (split; auto; rewrite Rabs_pos_eq by lra; lra).
  destruct (within_mul 220 220 d d ltac:(lia) Wd Wd) as (Wdd & Edd). assert (Ww : within 440 (r * r - s * s)%float) by (apply (grid_within (e + e) (M * M + M * M)); auto; [lia|nia|lia]).
  destruct (within_add 440 _ _ ltac:(lia) Ww Wdd) as (Wn & En). destruct two_F as (Gt & E2). assert (W2 : within 1 (f_ofZ 2)) by (split; [eapply on_grid_finite; eauto|rewrite E2; change (bpow radix2 1) with 2; rewrite Rabs_pos_eq; lra]).
  destruct (within_mul 1 220 (f_ofZ 2) d ltac:(lia) W2 Wd) as (Wd2 & Ed2). rewrite E2 in Ed2. assert (Bd2 : Rabs (FR (f_ofZ 2 * d)%float - 2 * FR d) <= uro * (2 * FR d)). { rewrite Ed2. replace (2 * FR d) with (FR d + FR d) by ring. pose proof (rnd_plus d d) as Q. rewrite (Rabs_pos_eq (FR d + FR d)) in Q by lra. exact Q. }
  assert (d2low : bpow radix2 (-210) <= FR (f_ofZ 2 * d)%float). { apply Rabs_le_inv in Bd2. assert (uro * (2 * FR d) <= / 1000000 * (2 * FR d)) by (apply Rmult_le_compat_r; lra). lra. }
  destruct (within_div 441 (-210) _ _ ltac:(lia) Wn d2low) as (Wa & Ea). fold a in Wa, Ea.
  assert (QA : 2 * D * A = FR r * FR r - FR s * FR s + D * D) by (unfold A; field; lra).
  assert (Ba : Rabs (FR a - A) <= uro * (2 * D + 5 * FR r)).
  { apply (a_err uro eta D (FR r) (FR r * FR r - FR s * FR s) A (FR d) (FR (d * d)%float) (FR (r * r - s * s + d * d)%float) (FR (f_ofZ 2 * d)%float) (FR a) U); auto; try lra.
    - apply etaL; lra.
    - rewrite Edd. pose proof (rnd_err (FR d * FR d)) as Q. rewrite (Rabs_pos_eq (FR d * FR d)) in Q by apply Rle_0_sqr. exact Q.
    - rewrite En, <- Ew. apply rnd_plus.
    - rewrite Ea. apply rnd_err. }
  assert (aB : Rabs (FR a) <= 2 * FR r). { replace (FR a) with (A + (FR a - A)) by ring. eapply Rle_trans; [apply Rabs_triang|]. assert (uro * FR r <= / 1000000 * FR r) by (apply Rmult_le_compat_r; lra). lra. }
  assert (Wa' : within 250 a). { split; [apply Wa|]. eapply Rle_trans; [exact aB|]. apply Rle_trans with (bpow radix2 220); [lra|apply bpow_le; lia]. }
  destruct (within_mul 250 250 a a ltac:(lia) Wa' Wa') as (Waa & Eaa). assert (Wrr : within 500 (r * r)%float) by (apply (grid_within (e + e) (M * M)); auto; [lia|nia|lia]). destruct (within_sub 500 _ _ ltac:(lia) Wrr Waa) as (Wg & Eg).
  set (g := (r * r - a * a)%float) in *. set (de := uro * (FR r * (5 * D + 13 * FR r))).
  assert (Bg : Rabs (FR g - G) <= de).
  { apply (g_err uro eta D (FR r) A (FR a) (FR (a * a)%float) (FR g) U); auto; try lra.
    - rewrite Eaa. pose proof (rnd_err (FR a * FR a)) as Q. rewrite (Rabs_pos_eq (FR a * FR a)) in Q by apply Rle_0_sqr. exact Q.
    - rewrite Eg, <- Err. apply rnd_minus. }
  assert (uv : uro = / 9007199254740992) by (unfold uro; simpl; lra).
  assert (deG : de < G).
  { assert (D2 : D <= 2 * mB) by lra. assert (r0 : FR r * (5 * D + 13 * FR r) <= mB * (23 * mB)) by (apply Rmult_le_compat; lra). assert (de1 : de <= uro * (mB * (23 * mB))) by (apply Rmult_le_compat_l; lra).
    assert (m3 : IZR M * (IZR M * IZR M) <= 35184372088832). { replace 35184372088832 with (32768 * (32768 * 32768)) by lra. apply Rmult_le_compat; try lra. apply Rmult_le_pos; lra. apply Rmult_le_compat; lra. }
    assert (de2 : 16 * IZR M * (uro * (mB * (23 * mB))) <= 2 * (b * b)). { replace (16 * IZR M * (uro * (mB * (23 * mB)))) with (368 * uro * (IZR M * (IZR M * IZR M)) * (b * b)) by (unfold mB; ring). apply Rmult_le_compat_r; [lra|]. rewrite uv. lra. }
    assert (de3 : 16 * IZR M * de <= 16 * IZR M * (uro * (mB * (23 * mB)))) by (apply Rmult_le_compat_l; lra). apply Rmult_lt_reg_l with (16 * IZR M); lra. }
  apply Rabs_le_inv in Bg as Bg2. assert (gp : 0 < FR g) by lra. destruct (fin_sqrt g (proj1 Wg) (or_introl gp)) as (Fh & Eh).
  exists H, (PrimFloat.sqrt g). split; [lra|]. split; [exact HH|]. split; [exact Ale|]. split.
  { unfold math_sqrt. change (nltb (n:=FNum) g n0) with (PrimFloat.ltb g 0). rewrite (not_iff _ _ (ltb_F _ _ (proj1 Wg) (proj2 zero_F))); [reflexivity|]. rewrite (proj1 zero_F). lra. }
  split; [exact Wa'|]. split.
  { split; [exact Fh|]. rewrite Eh. apply rnd_bpow_le; [lia|]. rewrite Rabs_pos_eq by apply R_sqrt.sqrt_pos. apply Rle_trans with (2 * FR r); [|apply Rle_trans with (bpow radix2 220); [lra|apply bpow_le; lia]]. rewrite <- (sqrt_square (2 * FR r)) by lra. apply sqrt_le_1_alt. assert (0 < FR r * FR r) by (apply Rmult_lt_0_compat; lra). unfold G in *. lra. }
  split; [exact dlow|]. split; [exact dD|]. split; [exact Ba|]. split; [|auto].
  apply (h_err uro eta H G (FR g) (FR (PrimFloat.sqrt g)) de U); auto; try lra.
  - apply etaL. apply Rle_trans with (bpow radix2 (-210)); [apply bpow_le; lia|]. apply Rle_trans with (bpow radix2 (-200 + -9)); [apply bpow_le; lia|]. rewrite bpow_plus. change (bpow radix2 (-9)) with (/ 512). lra.
  - rewrite Eh. pose proof (rnd_err (R_sqrt.sqrt (FR g))) as Q. rewrite (Rabs_pos_eq (R_sqrt.sqrt (FR g))) in Q by apply R_sqrt.sqrt_pos. exact Q.
Qed.

Theorem C87_secant : forall e M (p q : list flt) (r s : flt) (c o : ball FNum), (-200 <= e <= 200)%Z -> (M <= 2 ^ 15)%Z ->
  Forall (on_grid e M) p -> Forall (on_grid e M) q -> on_grid e M r -> on_grid e M s -> circle_new (N:=FNum) p r = Ok c -> circle_new (N:=FNum) q s = Ok o ->
  let D := dist (map FR p) (map FR q) in
  Rabs (FR r - FR s) < D -> D < FR r + FR s ->
  exists (a b : list flt) (A B : list R), circle_intersect_circle c o = Ok (a, b) /\ Forall finite a /\ Forall finite b /\ length a = 2%nat /\ length b = 2%nat /\
    A <> B /\ (forall x, on_sphere (map FR p) (FR r) x /\ on_sphere (map FR q) (FR s) x <-> x = A \/ x = B) /\
    let h := dist A B / 2 in
    forall i, Rabs (nth i (map FR a) 0 - nth i A 0) <= uro * ((8 * D + 28 * FR r) * (FR r / h)) + 3 * (uro * Rabs (nth i A 0)) /\
              Rabs (nth i (map FR b) 0 - nth i B 0) <= uro * ((8 * D + 28 * FR r) * (FR r / h)) + 3 * (uro * Rabs (nth i B 0)).
Proof.
  intros e M p q r s c o He HM Hp Hq Hr Hs Hc Ho. apply (circle_shape e M) in Hc as (-> & Rp & x1 & y1 & -> & Gx1 & Gy1); auto. apply (circle_shape e M) in Ho as (-> & Sp & x2 & y2 & -> & Gx2 & Gy2); auto. cbn [map].
  assert (M0 : (0 <= M)%Z) by (eapply grid_pos; eauto). assert (HM' : (8 * (M * M) < 2 ^ 50)%Z) by nia.
  destruct (decide_F e M x1 y1 x2 y2 r s He HM' Gx1 Gy1 Gx2 Gy2 Hr Hs Rp Sp) as (d & K & Ed & Fd & Vd & HK & ED & C0 & C1 & C2). destruct (coord_dist (FR x1) (FR y1) (FR x2) (FR y2)) as (CDx & CDy). pose proof (common_points (FR x1) (FR y1) (FR x2) (FR y2) (FR r) (FR s)) as CP.
  pose proof (Balls.dist2_sq (FR x1) (FR y1) (FR x2) (FR y2)) as Qd. set (D := dist [FR x1; FR y1] [FR x2; FR y2]) in *. intros Lo Hi. assert (Dp : 0 < D) by (pose proof (Rabs_pos (FR r - FR s)); lra).
  destruct (scalars_F e M r s d D K He HM Hr Hs Rp Sp Fd Vd Dp HK ED Lo Hi) as (H & h & HH & QH & HA & Sq & Wa & Wh & dlow & dD & Ba & Bh & rb & Db).
  set (a := ((r * r - s * s + d * d) / (f_ofZ 2 * d))%float) in *. set (A := (FR r * FR r - FR s * FR s + D * D) / (2 * D)) in *. assert (QA : 2 * D * A = FR r * FR r - FR s * FR s + D * D) by (unfold A; field; lra).
  destruct (pair_F e M x1 x2 He HM' Gx1 Gx2) as (W1 & W2 & W3 & E1 & E2). destruct (pair_F e M y1 y2 He HM' Gy1 Gy2) as (W4 & W5 & W6 & E3 & E4).
  destruct (tail_F a d h x1 y1 x2 y2) as (X0 & Y0 & X1 & Y1 & Et0 & Ft & H1 & H2 & H3 & H4); auto.
  assert (Body : circle_intersect_circle (MkBall (N:=FNum) [x1; y1] r) (MkBall (N:=FNum) [x2; y2] s) = Ok ([X0; Y0], [X1; Y1])).
  { eapply eq_trans; [apply (body_F x1 y1 x2 y2 r s d); auto|cbv zeta; fold a; rewrite Sq; cbn [bind]; exact Et0].
    - constructor; [exact (on_grid_finite _ _ _ Gx1)|constructor; [exact (on_grid_finite _ _ _ Gy1)|constructor; [exact (on_grid_finite _ _ _ Gx2)|constructor; [exact (on_grid_finite _ _ _ Gy2)|constructor]]]].
    - apply W3.
    - apply W6.
    - apply (not_iff _ _ C0). lra.
    - apply (not_iff _ _ C1). lra.
    - apply (not_iff _ _ C2). lra. }
  assert (CDx' : Rabs (FR x1 - FR x2) <= D) by (rewrite Rabs_minus_sym; auto). assert (CDy' : Rabs (FR y1 - FR y2) <= D) by (rewrite Rabs_minus_sym; auto).
  assert (b1 : bpow radix2 (-200) <= bpow radix2 e) by (apply bpow_le; lia). set (t' := bpow radix2 (-700)).
  assert (T1 : eta <= t') by (apply bpow_le; lia). assert (T2 : eta <= t' * D). { apply Rle_trans with (t' * bpow radix2 (-200)); [unfold eta, t'; rewrite <- bpow_plus; apply bpow_le; lia|]. apply Rmult_le_compat_l; [apply bpow_ge_0|lra]. }
  assert (T3 : t' <= / 1000 * (uro * FR r)). { apply Rle_trans with (bpow radix2 (-10) * (uro * bpow radix2 (-200))); [unfold t', uro; rewrite <- !bpow_plus; apply bpow_le; lia|]. pose proof uro_tiny. apply Rmult_le_compat; [apply bpow_ge_0|apply Rmult_le_pos; [lra|apply bpow_ge_0]|simpl; lra|apply Rmult_le_compat_l; lra]. }
  pose proof (chain_err t' D (FR r) A H _ _ _ _ _ _ _ Dp Rp HH HA T1 T2 T3 CDx CDy' dD Ba Bh H1) as R1. pose proof (chain_err t' D (FR r) A H _ _ _ _ _ _ _ Dp Rp HH HA T1 T2 T3 CDy CDx dD Ba Bh H2) as R2.
  pose proof (chain_err t' D (FR r) A H _ _ _ _ _ _ _ Dp Rp HH HA T1 T2 T3 CDx CDy dD Ba Bh H3) as R3. pose proof (chain_err t' D (FR r) A H _ _ _ _ _ _ _ Dp Rp HH HA T1 T2 T3 CDy CDx' dD Ba Bh H4) as R4. cbv zeta in R1, R2, R3, R4.
  set (PA := [FR x1 + A * (FR x2 - FR x1) / D + H * (FR y1 - FR y2) / D; FR y1 + A * (FR y2 - FR y1) / D + H * (FR x2 - FR x1) / D]). set (PB := [FR x1 + A * (FR x2 - FR x1) / D + H * (FR y2 - FR y1) / D; FR y1 + A * (FR y2 - FR y1) / D + H * (FR x1 - FR x2) / D]).
  assert (Dh : dist PA PB = 2 * H).
  { apply Rsqr_inj; [apply dist_nonneg|lra|]. unfold Rsqr, PA, PB. rewrite Balls.dist2_sq. set (dx := FR x1 - FR x2) in *. set (dy := FR y1 - FR y2) in *. replace (FR x2 - FR x1) with (- dx) by (unfold dx; ring). replace (FR y2 - FR y1) with (- dy) by (unfold dy; ring).
    transitivity (4 * (H * H) * ((dx * dx + dy * dy) / (D * D))); [field; lra|]. rewrite <- Qd. field. lra. }
  exists [X0; Y0], [X1; Y1], PA, PB. split; [exact Body|]. split; [exact (Forall_cons _ (Forall_inv Ft) (Forall_cons _ (Forall_inv (Forall_inv_tail Ft)) (Forall_nil _)))|]. split; [exact (Forall_inv_tail (Forall_inv_tail Ft))|]. split; [reflexivity|]. split; [reflexivity|].
  split; [intro Z; assert (dist PA PB = 0) by (apply dist_zero_iff; [reflexivity|exact Z]); lra|]. split; [intro x; apply (CP D A H Rp Sp Dp eq_refl QA QH x)|]. rewrite Dh. replace (2 * H / 2) with H by field.
  assert (Z0 : Rabs (0 - 0) <= uro * ((8 * D + 28 * FR r) * (FR r / H)) + 3 * (uro * Rabs 0)). { rewrite Rminus_0_r, Rabs_R0. pose proof uro_tiny. assert (0 <= uro * ((8 * D + 28 * FR r) * (FR r / H))); [|lra]. apply Rmult_le_pos; [lra|]. apply Rmult_le_pos; [lra|]. apply Rlt_le, Rdiv_lt_0_compat; lra. }
  unfold PA, PB. intros [|[|[|i]]]; cbn [nth map]; split; auto.
Qed.
Print Assumptions C87_secant.
(** Circles of radius 5 about (0,0) and (8,0) cross (in (4,3) and (4,-3)); those of radius 2 and 3 about (0,0) and (3,4) touch. *)
Example C87_nonvacuous : Forall (on_grid 0 8) [0; 0]%float /\ Forall (on_grid 0 8) [8; 0]%float /\ Forall (on_grid 0 8) [3; 4]%float /\ on_grid 0 8 5%float /\ on_grid 0 8 2%float /\ on_grid 0 8 3%float /\
  circle_new (N:=FNum) [0; 0]%float 5%float = Ok (MkBall (N:=FNum) [0; 0]%float 5%float) /\ circle_new (N:=FNum) [8; 0]%float 5%float = Ok (MkBall (N:=FNum) [8; 0]%float 5%float) /\
  dist (map FR [0; 0]%float) (map FR [8; 0]%float) = 8 /\ FR 5%float = 5 /\ dist (map FR [0; 0]%float) (map FR [3; 4]%float) = FR 2%float + FR 3%float /\
  circle_intersect_circle (MkBall (N:=FNum) [0; 0]%float 5%float) (MkBall (N:=FNum) [8; 0]%float 5%float) = Ok ([4; 3]%float, [4; -3]%float).
Proof.
  assert (V0 : FR 0%float = 0) by apply zero_F. assert (V8 : FR 8%float = 8) by (erewrite FR_val by (vm_compute; reflexivity); simpl; unfold F2R; simpl; lra). assert (V5 : FR 5%float = 5) by (erewrite FR_val by (vm_compute; reflexivity); simpl; unfold F2R; simpl; lra).
  assert (V2 : FR 2%float = 2) by (erewrite FR_val by (vm_compute; reflexivity); simpl; unfold F2R; simpl; lra). assert (V3 : FR 3%float = 3) by (erewrite FR_val by (vm_compute; reflexivity); simpl; unfold F2R; simpl; lra). assert (V4 : FR 4%float = 4) by (erewrite FR_val by (vm_compute; reflexivity); simpl; unfold F2R; simpl; lra).
  split; [constructor; [lit 0%Z|constructor; [lit 0%Z|constructor]]|]. split; [constructor; [lit 8%Z|constructor; [lit 0%Z|constructor]]|]. split; [constructor; [lit 3%Z|constructor; [lit 4%Z|constructor]]|]. split; [lit 5%Z|]. split; [lit 2%Z|]. split; [lit 3%Z|].
  split; [reflexivity|]. split; [reflexivity|]. split.
  { apply Rsqr_inj; [apply dist_nonneg|lra|]. unfold Rsqr. cbn [map]. rewrite Balls.dist2_sq, V0, V8. ring. }
  split; [exact V5|]. split.
  { apply Rsqr_inj; [apply dist_nonneg|rewrite V2, V3; lra|]. unfold Rsqr. cbn [map]. rewrite Balls.dist2_sq, V0, V2, V3, V4. ring. }
  reflexivity.
Qed.
