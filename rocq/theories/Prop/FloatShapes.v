(** * Property C85: circles, spheres, areas, volumes and centroids in double precision

    Forward error bounds for Circle/Sphere.distance_point, contains_point and project_point, for area_triangle,
    volume_tetrahedron and Points.centroid.  The model runs on IEEE doubles; the exact values are those of
    the real-number geometry of the same inputs. *)
From Coq Require Import String Reals List ZArith Floats Lra Lia Psatz Bool.
From Flocq Require Import Core BinarySingleNaN.
From Flocq Require Import IEEE754.PrimFloat.
From Verif.Model Require Import Outcome Num Instances Numpy BaseArray Vector Points Functions Line Plane Sphere Triangle.
From Verif.Spec Require Import Geometry Tolerance Floats Measure.
From Verif.Proof Require Import VecAlg Bridge Vectors Floats FloatErr.
From Verif.Prop Require Import Floats Accuracy AnyOrder Decisions Projections.
From Verif.Prop Require Measure.
From Verif.Proof Require Arrays.
Import ListNotations.
Local Open Scope R_scope.

(** ** Circle and Sphere: distance_point and contains_point *)
Definition is_ball_F (p : list flt) (r : flt) (c : ball FNum) : Prop := circle_new (N:=FNum) p r = Ok c \/ sphere_new (N:=FNum) p r = Ok c.
Lemma ball_F p r c : is_ball_F p r c -> Forall moderate p -> c = MkBall (N:=FNum) p r /\ p <> [] /\ (Z.of_nat (length p) <= max_dim)%Z /\ (length p = 2%nat \/ length p = 3%nat).
Proof.
  intros H M. unfold is_ball_F, circle_new, sphere_new, base_sphere_new in H. change (point_of (N:=FNum)) with (vector_of (N:=FNum)) in H. rewrite vector_of_F in H.
  destruct (nleb r n0); cbn [bind] in H; [destruct H; discriminate|]. destruct (Nat.eqb (length p) 0) eqn:E; cbn [bind] in H; [destruct H; discriminate|]. rewrite (all_finite _ (moderate_finite _ M)) in H. cbn [negb bind c_point] in H. unfold dim1 in H.
  assert (Q : c = MkBall (N:=FNum) p r /\ (length p = 2%nat \/ length p = 3%nat)).
  { destruct H as [H|H]; [destruct (Nat.eqb_spec (@length flt p) 2) as [L|L]|destruct (Nat.eqb_spec (@length flt p) 3) as [L|L]]; fn; rewrite ?L in H; cbn in H; try discriminate.
    all: try (injection H as <-; split; auto; fail). all: destruct (Nat.eqb _ _) eqn:E' in H; [apply Nat.eqb_eq in E'; contradiction|discriminate]. }
  destruct Q as (-> & L). split; auto. split; [intro Z; subst; destruct L; discriminate|]. split; auto. destruct L as [-> | ->]; vm_compute; discriminate.
Qed.
Theorem C85_ball_distance : forall (p q : list flt) (r : flt) (c : ball FNum), is_ball_F p r c -> length q = length p -> Forall moderate p -> Forall moderate q -> moderate r ->
  let D := dist (map FR p) (map FR q) in
  exists d, ball_distance_point c q = Ok d /\ finite d /\ 0 <= FR d /\
    Rabs (FR d - Rabs (D - FR r)) <= 9 * bpow radix2 (-53) * D + bpow radix2 (-53) * Rabs (D - FR r) + bpow radix2 (-519).
Proof.
  intros p q r c Hc Lq Hp Hq (Fr & Hr) D. apply ball_F in Hc as (-> & Np & Ln & L23); auto. destruct (C73_distance_accurate p q Np (eq_sym Lq) Ln Hp Hq) as (x & Ex & Fx & Hx). fold D uro in Hx.
  unfold ball_distance_point. cbn [c_point c_radius]. rewrite Ex. cbn [bind]. change (nabs (n:=FNum)) with PrimFloat.abs. change (nsub (n:=FNum)) with PrimFloat.sub. exists (PrimFloat.abs (x - r)). split; [reflexivity|].
  assert (n3 : INR (length p) <= 3) by (destruct L23 as [-> | ->]; cbn; lra). assert (D0 : 0 <= D) by apply len_nonneg. pose proof uro_small as (U & U').
  assert (Lnq : (Z.of_nat (length q) <= max_dim)%Z) by (rewrite Lq; auto). pose proof (len_510 p Ln Hp) as P5. pose proof (len_510 q Lnq Hq) as Q5.
  assert (LqR : length (map FR q) = length (map FR p)) by (rewrite !map_length; exact Lq).
  assert (DB : D <= len (map FR p) + len (map FR q)). { unfold D, dist. rewrite sub_scale by (symmetry; exact LqR). eapply Rle_trans; [apply len_triangle; lenr|]. rewrite len_scale. rewrite Rabs_left by lra. lra. }
  assert (UD : 0 <= uro * D) by (apply Rmult_le_pos; lra). assert (X1 : (INR (length p) + 5) * uro * D <= 8 * uro * D) by (rewrite !Rmult_assoc; apply Rmult_le_compat_r; lra). assert (uro * D <= / 1024 * D) by (apply Rmult_le_compat_r; lra).
  assert (B1 : bpow radix2 (-520) <= 1) by (change 1 with (bpow radix2 0); apply bpow_le; lia). assert (B2 : bpow radix2 500 <= bpow radix2 510) by (apply bpow_le; lia). assert (B3 : 1 <= bpow radix2 510) by (change 1 with (bpow radix2 0); apply bpow_le; lia).
  pose proof (Rabs_le_inv _ _ Hx) as Hx'. pose proof (Rabs_le_inv _ _ Hr) as Hr'.
  destruct (fin_sub x r Fx Fr) as (Fs & Es). { eapply Rle_lt_trans; [apply (rnd_bpow_le _ 513); [lia|]|apply bpow_lt; lia]. change 513%Z with (3 + 510)%Z. rewrite bpow_plus. change (bpow radix2 3) with 8. apply Rabs_le. lra. }
  split; [apply abs_finite; auto|]. rewrite abs_F, Es. split; [apply Rabs_pos|]. fold uro. eapply Rle_trans; [apply Rabs_triang_inv2|]. pose proof (rnd_minus x r) as R1.
  pose proof (Rabs_triang (rnd (FR x - FR r) - (FR x - FR r)) (FR x - D)) as T. replace (rnd (FR x - FR r) - (FR x - FR r) + (FR x - D)) with (rnd (FR x - FR r) - (D - FR r)) in T by ring.
  pose proof (Rabs_triang (FR x - D) (D - FR r)) as T2. replace (FR x - D + (D - FR r)) with (FR x - FR r) in T2 by ring.
  assert (X2 : uro * Rabs (FR x - FR r) <= uro * (8 * uro * D + bpow radix2 (-520) + Rabs (D - FR r))) by (apply Rmult_le_compat_l; lra).
  assert (X3 : uro * (uro * D) <= / 1024 * (uro * D)) by (apply Rmult_le_compat_r; lra). assert (X4 : uro * bpow radix2 (-520) <= / 1024 * bpow radix2 (-520)) by (apply Rmult_le_compat_r; [apply bpow_ge_0|lra]).
  assert (B4 : bpow radix2 (-519) = 2 * bpow radix2 (-520)) by (change (-519)%Z with (1 + -520)%Z; rewrite bpow_plus; reflexivity). pose proof (bpow_gt_0 radix2 (-520)). lra.
Qed.
Print Assumptions C85_ball_distance.
Theorem C85_ball_contains : forall (p q : list flt) (r a : flt) (c : ball FNum), is_ball_F p r c -> length q = length p -> Forall moderate p -> Forall moderate q -> moderate r -> finite a -> 0 <= FR a ->
  let D := dist (map FR p) (map FR q) in let e := 9 * bpow radix2 (-53) * D + bpow radix2 (-53) * Rabs (D - FR r) + bpow radix2 (-519) in
  exists b, ball_contains_point (MkTol (N:=FNum) (rel_tol tol_default) a) c q = Ok b /\ (Rabs (D - FR r) + e <= FR a -> b = true) /\ (FR a + e < Rabs (D - FR r) -> b = false).
Proof.
  intros p q r a c Hc Lq Hp Hq Hr Fa Ha D e. destruct (C85_ball_distance p q r c Hc Lq Hp Hq Hr) as (d & Ed & Fd & Pd & Hd). fold D in Hd. fold e in Hd. apply Rabs_le_inv in Hd.
  unfold ball_contains_point, contains_point_gen. rewrite Ed. cbn [bind]. destruct (isclose_abs_F a d Fa Ha Fd) as (b & Er & Kr). rewrite (Rabs_pos_eq _ Pd) in Kr. exists b. split; [exact Er|]. split; intro H.
  - apply Kr. lra. - destruct b; auto. assert (FR d <= FR a) by (apply Kr; auto). lra.
Qed.
Print Assumptions C85_ball_contains.

(** ** Circle and Sphere: project_point *)
Lemma row_eqb_F (a b : list flt) : Forall finite a -> Forall finite b -> is_equal1 (N:=FNum) a b = true -> map FR a = map FR b.
Proof.
  unfold is_equal1. revert b. induction a as [|x a IH]; intros [|y b] Fa Fb H; auto; try discriminate H. cbn in H. apply andb_true_iff in H as (H1 & H2). inversion_clear Fa as [|? ? Fx Fa']. inversion_clear Fb as [|? ? Fy Fb'].
  cbn [map]. f_equal; [apply (eqb_F _ _ Fx Fy); exact H1|]. apply IH; auto.
Qed.
Lemma unit_dir (o : list flt) (z : pt) (w : list flt) : (Z.of_nat (length o) <= max_dim)%Z -> 0 < len z -> 0 < len (map FR o) -> Forall2 (fun y x => Rabs (y - x) <= uro * Rabs x) (map FR o) z ->
  Forall2 (fun y x => finite y /\ Rabs (FR y - FR x / len (map FR o)) <= (INR (length o) + 6) * bpow radix2 (-53) * (Rabs (FR x) / len (map FR o)) + bpow radix2 (-1075)) w o ->
  Forall2 (fun y x => finite y /\ Rabs (FR y - x / len z) <= (INR (length o) + 9) * uro * (Rabs x / len z) + eta) w z.
Proof.
  intros Ln Zp Op F W. pose proof (len_close uro _ _ ltac:(pose proof uro_pos; lra) F) as LC. apply Rabs_le_inv in LC. pose proof (ndim_small (length o) 6 Ln ltac:(lia)) as S6. pose proof (pos_INR (length o)) as Pn. fold uro eta in W. pose proof uro_small as (U & U').
  set (n := INR (length o)) in *. clearbody n. set (K' := len (map FR o)) in *. set (K := len z) in *. clearbody K K'. assert (B30 : bpow radix2 (-30) <= / 2048) by (replace (/ 2048) with (bpow radix2 (-11)) by (simpl; lra); apply bpow_le; lia).
  clear Ln. revert z F. induction W as [|y x w o (Fy & Hy) W IH]; intros z F; [inversion F; constructor|]. destruct z as [|z0 z']; [inversion F|]. cbn [map] in F. inversion_clear F as [|? ? ? ? Hz F']. constructor; [|apply IH; auto]. split; auto.
  set (c := z0 / K). set (c' := FR x / K') in *. assert (Ac : Rabs z0 / K = Rabs c) by (unfold c, Rdiv; rewrite Rabs_mult, Rabs_inv, (Rabs_pos_eq K) by lra; reflexivity). rewrite Ac.
  assert (Ac' : Rabs (FR x) / K' = Rabs c') by (unfold c', Rdiv; rewrite Rabs_mult, Rabs_inv, (Rabs_pos_eq K') by lra; reflexivity). rewrite Ac' in Hy. pose proof (Rabs_pos c) as C0.
  assert (D : Rabs (c' - c) <= (2 * uro + / 256 * uro) * Rabs c).
  { replace (c' - c) with ((FR x - z0 - c * (K' - K)) / K') by (unfold c, c'; field; split; lra). unfold Rdiv. rewrite Rabs_mult, Rabs_inv, (Rabs_pos_eq K') by lra. apply Rmult_le_reg_r with K'; auto. rewrite Rmult_assoc, Rinv_l, Rmult_1_r by lra.
    assert (Ez : z0 = c * K) by (unfold c; field; lra). unfold Rminus at 1. eapply Rle_trans; [apply Rabs_triang|]. rewrite Rabs_Ropp, Rabs_mult. assert (Rabs (K' - K) <= uro * K) by (apply Rabs_le; lra). assert (Rabs c * Rabs (K' - K) <= Rabs c * (uro * K)) by (apply Rmult_le_compat_l; auto).
    rewrite Ez in Hz at 2. rewrite Rabs_mult, (Rabs_pos_eq K) in Hz by lra. assert (Q : (2 * uro + / 256 * uro) * Rabs c * ((1 - uro) * K) <= (2 * uro + / 256 * uro) * Rabs c * K') by (apply Rmult_le_compat_l; [apply Rmult_le_pos; lra|lra]).
    assert (V : 0 <= uro * (Rabs c * K)) by (apply Rmult_le_pos; [lra|apply Rmult_le_pos; lra]). assert (V2 : uro * (uro * (Rabs c * K)) <= / 1024 * (uro * (Rabs c * K))) by (apply Rmult_le_compat_r; auto). nra. }
  assert (C1 : Rabs c' <= (1 + / 256) * Rabs c). { pose proof (Rabs_triang (c' - c) c) as T. replace (c' - c + c) with c' in T by ring. assert ((2 * uro + / 256 * uro) * Rabs c <= / 256 * Rabs c) by (apply Rmult_le_compat_r; lra). lra. }
  pose proof (Rabs_triang (FR y - c') (c' - c)) as T. replace (FR y - c' + (c' - c)) with (FR y - c) in T by ring.
  assert (X1 : (n + 6) * uro * Rabs c' <= (n + 6) * uro * Rabs c + (n + 6) * uro * Rabs (c' - c)). { pose proof (Rabs_triang (c' - c) c) as T'. replace (c' - c + c) with c' in T' by ring. rewrite <- Rmult_plus_distr_l. apply Rmult_le_compat_l; [apply Rmult_le_pos; lra|lra]. }
  assert (X2 : (n + 6) * uro * Rabs (c' - c) <= / 2048 * ((2 * uro + / 256 * uro) * Rabs c)) by (apply Rmult_le_compat; try lra; [apply Rmult_le_pos; lra|apply Rabs_pos]). assert (V : 0 <= uro * Rabs c) by (apply Rmult_le_pos; lra). lra.
Qed.
Theorem C85_ball_project_point : forall (p q : list flt) (r : flt) (c : ball FNum), is_ball_F p r c -> length q = length p -> Forall half_moderate p -> Forall half_moderate q -> moderate r ->
  bpow radix2 (-399) <= dist (map FR p) (map FR q) ->
  forall f t, 0 <= t -> f = add (map FR p) (scale t (sub (map FR q) (map FR p))) -> dist f (map FR p) = FR r ->
  exists x, ball_project_point c q = Ok x /\ Forall finite x /\ length x = length p /\
    dist (map FR x) f <= 14 * bpow radix2 (-53) * FR r + bpow radix2 (-53) * len f + bpow radix2 (-560).
Proof.
  intros p q r c Hc Lq Hp Hq (Fr & Hr) HD f t Ht Ef Hf. assert (Hc' := Hc). apply ball_F in Hc as (-> & Np & Ln & L23); [|apply half_moderate_m; auto]. assert (n3 : INR (length p) <= 3) by (destruct L23 as [-> | ->]; cbn; lra).
  destruct (from_points_F p q Np (eq_sym Lq) Hp Hq) as (Eo & Lo & Mo & Fo). set (o := map2 (N:=FNum) PrimFloat.sub q p) in *. set (z := sub (map FR q) (map FR p)) in *.
  assert (LqR : length (map FR q) = length (map FR p)) by (rewrite !map_length; exact Lq). assert (Lz : length z = length (map FR p)) by (unfold z; lenr).
  rewrite dist_sym in HD. change (dist (map FR q) (map FR p)) with (len z) in HD. assert (Zp : 0 < len z) by (eapply Rlt_le_trans; [apply bpow_gt_0|exact HD]). pose proof (len_half _ _ Fo HD) as O4.
  assert (Op : 0 < len (map FR o)) by (eapply Rlt_le_trans; [apply bpow_gt_0|exact O4]). assert (Lo' : @length flt o = @length flt p) by exact Lo. assert (Lno : (Z.of_nat (@length flt o) <= max_dim)%Z) by (rewrite Lo'; auto).
  destruct (C73_unit_accurate o Lno Mo O4) as (u & Eu & Hu). pose proof (unit_dir o z u Lno Zp Op Fo Hu) as Hd. rewrite Lo' in Hd. clear Hu.
  assert (r0 : 0 < FR r). { assert (RP : PrimFloat.leb r 0 = false). { destruct Hc' as [H|H]; unfold circle_new, sphere_new, base_sphere_new in H; change (nleb (n:=FNum)) with PrimFloat.leb in H; change (n0 (n:=FNum)) with 0%float in H; destruct (PrimFloat.leb r 0); auto; discriminate H. }
    destruct (Rlt_le_dec 0 (FR r)) as [H|H]; auto. rewrite <- (proj1 zero_F) in H. apply (leb_F _ _ Fr (proj2 zero_F)) in H. congruence. }
  assert (Et : t * len z = FR r). { rewrite <- Hf, Ef. unfold dist. rewrite sub_add_cancel by (rewrite length_scale; symmetry; exact Lz). rewrite len_scale, Rabs_pos_eq; auto. }
  pose proof uro_small as (U & U'). set (rr := FR r) in *. pose proof (Rabs_le_inv _ _ Hr) as Hr'. pose proof (pos_INR (length p)) as Pn. set (n := INR (length p)) in *.
  assert (ER : eta * rr <= bpow radix2 (-575)). { change (-575)%Z with (-1075 + 500)%Z. rewrite bpow_plus. apply Rmult_le_compat_l; [apply bpow_ge_0|lra]. } assert (ER0 : 0 <= eta * rr) by (apply Rmult_le_pos; [apply bpow_ge_0|lra]).
  assert (E75 : eta <= bpow radix2 (-575)) by (apply bpow_le; lia). assert (B75 : 4 * bpow radix2 (-575) = bpow radix2 (-573)) by (change (-573)%Z with (2 + -575)%Z; rewrite bpow_plus; reflexivity). pose proof (bpow_gt_0 radix2 (-575)) as P75.
  set (K := len z) in *. assert (COz : forall x, In x z -> Rabs x <= K) by (intros x Hx; apply coord_le; auto).
  assert (Hw : Forall2 (fun y x => (finite y /\ Rabs (FR y) <= bpow radix2 513) /\ Rabs (FR y - t * x) <= (13 + / 32) * uro * t * Rabs x + bpow radix2 (-573)) (map (fun y => r * y)%float u) z).
  { clear - Hd COz Fr U U' Pn n3 r0 Hr' Et ER ER0 E75 B75 P75 Zp. clearbody K n. induction Hd as [|y x u z (Fy & Hy) F IH]; [constructor|]. cbn [map]. constructor; [|apply IH; intros; apply COz; right; auto]. pose proof (COz x (or_introl eq_refl)) as Cx.
    set (d := x / K) in *. assert (Ad : Rabs x / K = Rabs d) by (unfold d, Rdiv; rewrite Rabs_mult, Rabs_inv, (Rabs_pos_eq K) by lra; reflexivity). rewrite Ad in Hy. pose proof (Rabs_pos d) as d0.
    assert (d1 : Rabs d <= 1). { rewrite <- Ad. apply Rmult_le_reg_r with K; auto. unfold Rdiv. rewrite Rmult_assoc, Rinv_l by lra. lra. }
    assert (Ex : t * x = rr * d) by (rewrite <- Et; unfold d; field; lra). assert (Ax : t * Rabs x = rr * Rabs d) by (rewrite <- Et, <- Ad; field; lra). rewrite Ex, (Rmult_assoc ((13 + / 32) * uro)), Ax.
    assert (Hy2 : Rabs (FR y - d) <= 12 * uro * Rabs d + eta). { assert ((n + 9) * uro * Rabs d <= 12 * uro * Rabs d) by (apply Rmult_le_compat_r; auto; apply Rmult_le_compat_r; lra). lra. }
    assert (P1 : Rabs (rr * FR y - rr * d) <= 12 * uro * (rr * Rabs d) + eta * rr). { replace (rr * FR y - rr * d) with (rr * (FR y - d)) by ring. rewrite Rabs_mult, (Rabs_pos_eq rr) by lra. assert (rr * Rabs (FR y - d) <= rr * (12 * uro * Rabs d + eta)) by (apply Rmult_le_compat_l; lra). lra. }
    assert (V : 0 <= rr * Rabs d) by (apply Rmult_le_pos; lra). assert (V2 : uro * (rr * Rabs d) <= / 1024 * (rr * Rabs d)) by (apply Rmult_le_compat_r; auto).
    assert (P2 : Rabs (rr * FR y) <= (1 + / 64) * (rr * Rabs d) + eta * rr). { pose proof (Rabs_triang (rr * FR y - rr * d) (rr * d)) as T. replace (rr * FR y - rr * d + rr * d) with (rr * FR y) in T by ring. rewrite (Rabs_mult rr d), (Rabs_pos_eq rr) in T by lra. lra. }
    assert (V3 : rr * Rabs d <= bpow radix2 500 * 1) by (apply Rmult_le_compat; lra).
    assert (P3 : Rabs (rr * FR y) <= bpow radix2 502). { change 502%Z with (2 + 500)%Z. rewrite bpow_plus. change (bpow radix2 2) with 4. assert (bpow radix2 (-575) <= 1) by (change 1 with (bpow radix2 0); apply bpow_le; lia). assert (1 <= bpow radix2 500) by (change 1 with (bpow radix2 0); apply bpow_le; lia). lra. }
    pose proof (rnd_bpow_le _ 502 ltac:(lia) P3) as P4. destruct (fin_mul r y Fr Fy) as (Fm & Em). { fold rr. eapply Rle_lt_trans; [exact P4|]. apply bpow_lt. lia. } fold rr in Em. rewrite Em. split; [split; auto; eapply Rle_trans; [exact P4|]; apply bpow_le; lia|].
    pose proof (rnd_err (rr * FR y)) as R2. pose proof (Rabs_triang (rnd (rr * FR y) - rr * FR y) (rr * FR y - rr * d)) as T. replace (rnd (rr * FR y) - rr * FR y + (rr * FR y - rr * d)) with (rnd (rr * FR y) - rr * d) in T by ring.
    assert (X1 : uro * Rabs (rr * FR y) <= uro * ((1 + / 64) * (rr * Rabs d) + eta * rr)) by (apply Rmult_le_compat_l; lra). assert (X2 : uro * (eta * rr) <= / 1024 * (eta * rr)) by (apply Rmult_le_compat_r; auto).
    assert (X3 : 0 <= uro * (rr * Rabs d)) by (apply Rmult_le_pos; lra). lra. }
  set (w := map (fun y => r * y)%float u) in *. assert (Lw : length w = length z) by exact (Forall2_len _ _ _ Hw). assert (Lpw : @length flt p = @length flt w) by (rewrite Lw, Lz, map_length; reflexivity).
  destruct (adds_ok p w Lpw Hp (Forall2_left _ _ _ _ Hw)) as (Fx & Lx & Cx). exists (map2 (N:=FNum) PrimFloat.add p w). set (xx := map2 (N:=FNum) PrimFloat.add p w) in *.
  split; [|split; [exact Fx|split; [exact Lx|]]].
  { unfold ball_project_point. cbn [c_point c_radius]. destruct (is_equal1 (N:=FNum) p q) eqn:Eq.
    { exfalso. apply row_eqb_F in Eq; [|eapply Forall_impl; [|exact Hp]; intros a (Fa & _); exact Fa|eapply Forall_impl; [|exact Hq]; intros a (Fa & _); exact Fa]. unfold K, z in Zp. rewrite Eq in Zp. change (len (sub (map FR q) (map FR q))) with (dist (map FR q) (map FR q)) in Zp. rewrite dist_refl in Zp. lra. }
    rewrite Eo. cbn [bind]. rewrite Eu. cbn [bind]. unfold vmuls. change (nmul (n:=FNum)) with PrimFloat.mul. change (vscale (N:=FNum) r u) with w. rewrite (wrap1_F w). 2:{ clear - Hw. induction Hw as [|a b l m ((H & _) & _) F IH]; constructor; auto. }
    cbn [bind]. unfold vadd. change (nadd (n:=FNum)) with PrimFloat.add. rewrite (bcast_F _ p w Lpw). cbn [bind]. apply wrap1_F. exact Fx. }
  assert (DW : dist (map FR w) (scale t z) <= (13 + / 32) * uro * rr + bpow radix2 (-571)).
  { unfold dist. eapply Rle_trans; [apply (len_affine ((13 + / 32) * uro * t) (bpow radix2 (-573)) _ z); [apply Rmult_le_pos; lra|apply bpow_ge_0|]|].
    - clear - Hw. clearbody z w. induction Hw as [|y x w z (_ & H) F IH]; [constructor|]. cbn [map sub scale]. constructor; [exact H|exact IH].
    - fold K. rewrite (Rmult_assoc _ t K), Et. apply Rplus_le_compat_l. rewrite Lz, map_length. fold n. change (-571)%Z with (2 + -573)%Z. rewrite bpow_plus. change (bpow radix2 2) with 4. apply Rmult_le_compat_r; [apply bpow_ge_0|lra]. }
  assert (LwR : length (map FR w) = length (map FR p)) by (rewrite !map_length; exact (eq_sym Lpw)). assert (LxR : length (map FR xx) = length (map FR p)) by (rewrite !map_length; exact Lx).
  assert (D2 : dist (add (map FR p) (map FR w)) f = dist (map FR w) (scale t z)) by (rewrite Ef; unfold dist; rewrite sub_add_add by lenr; reflexivity).
  assert (D1 : dist (map FR xx) (add (map FR p) (map FR w)) <= uro * len (add (map FR p) (map FR w))).
  { unfold dist. eapply Rle_trans; [apply (len_affine uro 0 _ (add (map FR p) (map FR w))); [lra|lra|]|].
    - clear - Cx. induction Cx as [|y x l m H F IH]; cbn [sub]; constructor; [rewrite Rplus_0_r; exact H|exact IH].
    - lra. }
  assert (Lf : length f = length (map FR p)) by (rewrite Ef; lenr).
  assert (La : len (add (map FR p) (map FR w)) <= dist (add (map FR p) (map FR w)) f + len f).
  { unfold dist. eapply Rle_trans; [|apply len_triangle; lenr]. right. rewrite (add_comm (sub _ f)), add_sub_cancel by lenr. reflexivity. }
  pose proof (dist_triangle (map FR xx) (add (map FR p) (map FR w)) f ltac:(lenr) ltac:(lenr)) as DT. rewrite D2 in *.
  assert (uro * len (add (map FR p) (map FR w)) <= uro * (dist (map FR w) (scale t z) + len f)) by (apply Rmult_le_compat_l; lra).
  assert (E1 : uro * dist (map FR w) (scale t z) <= uro * ((13 + / 32) * uro * rr + bpow radix2 (-571))) by (apply Rmult_le_compat_l; lra).
  pose proof (bpow_gt_0 radix2 (-571)) as B571. assert (uro * bpow radix2 (-571) <= / 1024 * bpow radix2 (-571)) by (apply Rmult_le_compat_r; lra). assert (V : 0 <= uro * rr) by (apply Rmult_le_pos; lra). assert (uro * (uro * rr) <= / 1024 * (uro * rr)) by (apply Rmult_le_compat_r; lra).
  assert (B560 : 2 * bpow radix2 (-571) <= bpow radix2 (-560)). { apply Rle_trans with (bpow radix2 (-570)); [right; change (-570)%Z with (1 + -571)%Z; rewrite bpow_plus; reflexivity|apply bpow_le; lia]. } fold uro. lra.
Qed.
Print Assumptions C85_ball_project_point.

(** ** Triangles and tetrahedra *)
Definition modest (x : flt) : Prop := finite x /\ Rabs (FR x) <= bpow radix2 200.
(** [x] is [X] up to one rounding, and not large. *)
Definition near (x : flt) (X : R) : Prop := finite x /\ Rabs (FR x) <= bpow radix2 201 /\ Rabs (FR x - X) <= uro * Rabs X.
Lemma modest_half v : Forall modest v -> Forall half_moderate v.
Proof. intro H. eapply Forall_impl; [|exact H]. intros x (F & B). split; auto. eapply Rle_trans; [exact B|]. apply bpow_le. lia. Qed.
Lemma near_moderate x X : near x X -> moderate x.
Proof. intros (F & B & _). split; auto. eapply Rle_trans; [exact B|]. apply bpow_le. lia. Qed.
Lemma diff_near (a b : list flt) : length a = length b -> Forall modest a -> Forall modest b -> Forall2 near (map2 (N:=FNum) PrimFloat.sub b a) (sub (map FR b) (map FR a)).
Proof.
  revert b. induction a as [|x a IH]; intros [|y b] L Ha Hb; try discriminate L; cbn [map2 map sub]; constructor.
  - inversion_clear Ha as [|? ? (Fx & Hx) Ha']. inversion_clear Hb as [|? ? (Fy & Hy) Hb'].
    assert (B : Rabs (FR y - FR x) <= bpow radix2 201). { change 201%Z with (1 + 200)%Z. rewrite bpow_plus. change (bpow radix2 1) with 2. unfold Rminus. eapply Rle_trans; [apply Rabs_triang|]. rewrite Rabs_Ropp. lra. }
    pose proof (rnd_bpow_le _ 201 ltac:(lia) B) as B'. destruct (fin_sub y x Fy Fx) as (F & Es); [eapply Rle_lt_trans; [exact B'|apply bpow_lt; lia]|]. split; auto. rewrite Es. split; auto. apply rnd_minus.
  - inversion_clear Ha. inversion_clear Hb. apply IH; auto.
Qed.
Lemma pad3_F (v : list flt) (X : pt) : v <> [] -> (length v <= 3)%nat -> Forall2 near v X ->
  exists x1 x2 x3 X1 X2 X3, set_dimension1 (N:=FNum) v 3 = Ok [x1; x2; x3] /\ pad_to 3 X = [X1; X2; X3] /\ near x1 X1 /\ near x2 X2 /\ near x3 X3.
Proof.
  intros Nv L3 H. assert (Z0 : near 0%float 0) by (split; [reflexivity|]; rewrite (proj1 zero_F), Rabs_R0; split; [apply bpow_ge_0|rewrite Rminus_0_r, Rabs_R0; lra]).
  assert (K : forall x1 x2 x3 X1 X2 X3 : _, near x1 X1 -> near x2 X2 -> near x3 X3 -> array1d_new (N:=FNum) (nd_of_vec [x1; x2; x3]) = Ok [x1; x2; x3]).
  { intros x1 x2 x3 X1 X2 X3 (F1 & _) (F2 & _) (F3 & _). apply vector_of_ok; [discriminate|]. repeat constructor; auto. }
  destruct v as [|a [|b [|c [|d v]]]]; [contradiction| | | |cbn in L3; lia]; repeat (match goal with H : Forall2 _ (_ :: _) _ |- _ => inversion H; clear H; subst | H : Forall2 _ [] _ |- _ => inversion H; clear H; subst end);
    unfold set_dimension1; cbn [dim1 length Z.of_nat Pos.of_succ_nat Pos.succ]; cbv iota.
  - change (3 <? 1)%Z with false. cbv iota. change (pad (N:=FNum) [a] (Z.to_nat 3 - 1)) with [a; 0%float; 0%float]. do 6 eexists. split; [eapply K; eauto|]. split; [reflexivity|]. auto.
  - change (3 <? 2)%Z with false. cbv iota. change (pad (N:=FNum) [a; b] (Z.to_nat 3 - 2)) with [a; b; 0%float]. do 6 eexists. split; [eapply K; eauto|]. split; [reflexivity|]. auto.
  - change (3 <? 3)%Z with false. cbv iota. change (pad (N:=FNum) [a; b; c] (Z.to_nat 3 - 3)) with [a; b; c]. do 6 eexists. split; [eapply K; eauto|]. split; [reflexivity|]. auto.
Qed.
(** One product of two rounded numbers, and a difference of two such products. *)
Lemma mul_near a b A B : near a A -> near b B -> finite (a * b)%float /\ Rabs (FR (a * b)%float) <= bpow radix2 402 /\ Rabs (FR (a * b)%float - A * B) <= (3 + / 128) * uro * Rabs (A * B) + eta.
Proof.
  intros (Fa & Ba & Ha) (Fb & Bb & Hb). assert (P : Rabs (FR a * FR b) <= bpow radix2 402). { rewrite Rabs_mult. change 402%Z with (201 + 201)%Z. rewrite bpow_plus. apply Rmult_le_compat; auto; apply Rabs_pos. }
  pose proof (rnd_bpow_le _ 402 ltac:(lia) P) as P'. destruct (fin_mul a b Fa Fb) as (F & Em); [eapply Rle_lt_trans; [exact P'|apply bpow_lt; lia]|]. split; auto. rewrite Em. split; auto.
  pose proof (rnd_err (FR a * FR b)) as R1. pose proof uro_small as (U & U'). pose proof (Rabs_pos A) as A0. pose proof (Rabs_pos B) as B0. rewrite (Rabs_mult A B). assert (V : 0 <= Rabs A * Rabs B) by (apply Rmult_le_pos; auto).
  assert (Q : Rabs (FR a * FR b - A * B) <= (2 + / 512) * uro * (Rabs A * Rabs B)).
  { replace (FR a * FR b - A * B) with ((FR a - A) * (FR b - B) + (FR a - A) * B + A * (FR b - B)) by ring. eapply Rle_trans; [apply Rabs_triang|]. eapply Rle_trans; [apply Rplus_le_compat_r; apply Rabs_triang|]. rewrite !Rabs_mult.
    assert (Rabs (FR a - A) * Rabs (FR b - B) <= (uro * Rabs A) * (uro * Rabs B)) by (apply Rmult_le_compat; auto; apply Rabs_pos). assert (Rabs (FR a - A) * Rabs B <= (uro * Rabs A) * Rabs B) by (apply Rmult_le_compat_r; auto). assert (Rabs A * Rabs (FR b - B) <= Rabs A * (uro * Rabs B)) by (apply Rmult_le_compat_l; auto).
    assert (W : 0 <= uro * (Rabs A * Rabs B)) by (apply Rmult_le_pos; lra). assert (uro * (uro * (Rabs A * Rabs B)) <= / 1024 * (uro * (Rabs A * Rabs B))) by (apply Rmult_le_compat_r; auto). lra. }
  assert (Q2 : Rabs (FR a * FR b) <= (1 + / 256) * (Rabs A * Rabs B)). { pose proof (Rabs_triang (FR a * FR b - A * B) (A * B)) as T. replace (FR a * FR b - A * B + A * B) with (FR a * FR b) in T by ring. rewrite (Rabs_mult A B) in T. assert (uro * (Rabs A * Rabs B) <= / 1024 * (Rabs A * Rabs B)) by (apply Rmult_le_compat_r; auto). lra. }
  pose proof (Rabs_triang (rnd (FR a * FR b) - FR a * FR b) (FR a * FR b - A * B)) as T. replace (rnd (FR a * FR b) - FR a * FR b + (FR a * FR b - A * B)) with (rnd (FR a * FR b) - A * B) in T by ring.
  assert (uro * Rabs (FR a * FR b) <= uro * ((1 + / 256) * (Rabs A * Rabs B))) by (apply Rmult_le_compat_l; lra). assert (W : 0 <= uro * (Rabs A * Rabs B)) by (apply Rmult_le_pos; lra). lra.
Qed.
Lemma det_near a b c d A B C D : near a A -> near b B -> near c C -> near d D ->
  finite (a * b - c * d)%float /\ Rabs (FR (a * b - c * d)%float) <= bpow radix2 403 /\ Rabs (FR (a * b - c * d)%float - (A * B - C * D)) <= (4 + / 64) * uro * (Rabs (A * B) + Rabs (C * D)) + 3 * eta.
Proof.
  intros Ha Hb Hc Hd. destruct (mul_near a b A B Ha Hb) as (F1 & B1 & E1). destruct (mul_near c d C D Hc Hd) as (F2 & B2 & E2). set (x := (a * b)%float) in *. set (y := (c * d)%float) in *.
  assert (P : Rabs (FR x - FR y) <= bpow radix2 403). { change 403%Z with (1 + 402)%Z. rewrite bpow_plus. change (bpow radix2 1) with 2. unfold Rminus. eapply Rle_trans; [apply Rabs_triang|]. rewrite Rabs_Ropp. lra. }
  pose proof (rnd_bpow_le _ 403 ltac:(lia) P) as P'. destruct (fin_sub x y F1 F2) as (F & Es); [eapply Rle_lt_trans; [exact P'|apply bpow_lt; lia]|]. split; auto. rewrite Es. split; auto.
  pose proof (rnd_minus x y) as R1. pose proof uro_small as (U & U'). pose proof eta_pos as Et. set (p := A * B) in *. set (q := C * D) in *. pose proof (Rabs_pos p). pose proof (Rabs_pos q).
  pose proof (Rabs_triang (FR x - p) (- (FR y - q))) as T. rewrite Rabs_Ropp in T. replace (FR x - p + - (FR y - q)) with (FR x - FR y - (p - q)) in T by ring.
  pose proof (Rabs_triang (FR x - FR y - (p - q)) (p - q)) as T2. replace (FR x - FR y - (p - q) + (p - q)) with (FR x - FR y) in T2 by ring. pose proof (Rabs_triang p (- q)) as T3. rewrite Rabs_Ropp in T3. change (p + - q) with (p - q) in T3.
  pose proof (Rabs_triang (rnd (FR x - FR y) - (FR x - FR y)) (FR x - FR y - (p - q))) as T4. replace (rnd (FR x - FR y) - (FR x - FR y) + (FR x - FR y - (p - q))) with (rnd (FR x - FR y) - (p - q)) in T4 by ring.
  set (s := Rabs p + Rabs q). assert (V : 0 <= uro * s) by (unfold s; apply Rmult_le_pos; lra). assert (X : Rabs (FR x - FR y - (p - q)) <= (3 + / 128) * (uro * s) + 2 * eta) by (unfold s; lra).
  assert (W : uro * Rabs (FR x - FR y) <= uro * ((3 + / 128) * (uro * s) + 2 * eta + s)) by (apply Rmult_le_compat_l; unfold s in *; lra). assert (uro * (uro * s) <= / 1024 * (uro * s)) by (apply Rmult_le_compat_r; auto). assert (uro * eta <= / 1024 * eta) by (apply Rmult_le_compat_r; lra). lra.
Qed.
Lemma len_pad n X : len (pad_to n X) = len X.
Proof. unfold len. rewrite Verif.Proof.Arrays.pad_to_dot by reflexivity. reflexivity. Qed.
Lemma cross_near (v w : list flt) (X Y : pt) : v <> [] -> w <> [] -> (length v <= 3)%nat -> (length w <= 3)%nat -> Forall2 near v X -> Forall2 near w Y ->
  exists c, cross (N:=FNum) v w = Ok c /\ length c = 3%nat /\ Forall (fun x => finite x /\ Rabs (FR x) <= bpow radix2 403) c /\
    dist (map FR c) (cross_spec (pad_to 3 X) (pad_to 3 Y)) <= (6 + / 32) * uro * (len X * len Y) + 9 * eta.
Proof.
  intros Nv Nw Lv Lw HX HY. destruct (pad3_F v X Nv Lv HX) as (x1 & x2 & x3 & X1 & X2 & X3 & Ex & EX & N1 & N2 & N3). destruct (pad3_F w Y Nw Lw HY) as (y1 & y2 & y3 & Y1 & Y2 & Y3 & Ey & EY & M1 & M2 & M3).
  assert (Fw : Forall finite w) by (clear - HY; induction HY as [|y Y0 w Y (F & _) HY IH]; constructor; auto).
  destruct (det_near _ _ _ _ _ _ _ _ N2 M3 N3 M2) as (F1 & B1 & E1). destruct (det_near _ _ _ _ _ _ _ _ N3 M1 N1 M3) as (F2 & B2 & E2). destruct (det_near _ _ _ _ _ _ _ _ N1 M2 N2 M1) as (F3 & B3 & E3).
  exists [(x2 * y3 - x3 * y2)%float; (x3 * y1 - x1 * y3)%float; (x1 * y2 - x2 * y1)%float]. split; [|split; [reflexivity|split; [constructor; [split; auto|constructor; [split; auto|constructor; [split; auto|constructor]]]|]]].
  { unfold cross. rewrite Ex. cbn [bind]. rewrite (vector_of_ok w Nw Fw). cbn [bind]. rewrite Ey. cbn [bind cross3]. apply vector_of_ok; [discriminate|repeat constructor; auto]. }
  rewrite EX, EY. cbn [cross_spec map]. rewrite <- (len_pad 3 X), <- (len_pad 3 Y), EX, EY.
  set (m1 := Rabs (X2 * Y3) + Rabs (X3 * Y2)) in *. set (m2 := Rabs (X3 * Y1) + Rabs (X1 * Y3)) in *. set (m3 := Rabs (X1 * Y2) + Rabs (X2 * Y1)) in *.
  assert (m0 : 0 <= m1 /\ 0 <= m2 /\ 0 <= m3) by (unfold m1, m2, m3; repeat split; pose proof (Rabs_pos (X2 * Y3)); pose proof (Rabs_pos (X3 * Y2)); pose proof (Rabs_pos (X3 * Y1)); pose proof (Rabs_pos (X1 * Y3)); pose proof (Rabs_pos (X1 * Y2)); pose proof (Rabs_pos (X2 * Y1)); lra).
  destruct m0 as (P1 & P2 & P3). pose proof uro_small as (U & U'). pose proof eta_pos as Et.
  assert (LM : len [m1; m2; m3] <= 3 / 2 * (len [X1; X2; X3] * len [Y1; Y2; Y3])).
  { assert (V : 0 <= len [X1; X2; X3] * len [Y1; Y2; Y3]) by (apply Rmult_le_pos; apply len_nonneg). apply Rsqr_incr_0; [|apply len_nonneg|lra]. unfold Rsqr. rewrite len_sq.
    replace (3 / 2 * (len [X1; X2; X3] * len [Y1; Y2; Y3]) * (3 / 2 * (len [X1; X2; X3] * len [Y1; Y2; Y3]))) with (9 / 4 * ((len [X1; X2; X3] * len [X1; X2; X3]) * (len [Y1; Y2; Y3] * len [Y1; Y2; Y3]))) by field. rewrite !len_sq. cbn [dot].
    assert (S : forall a b, (Rabs a + Rabs b) * (Rabs a + Rabs b) <= 2 * (a * a + b * b)). { intros a b. pose proof (Rle_0_sqr (Rabs a - Rabs b)) as Q. unfold Rsqr in Q. assert (Rabs a * Rabs a = a * a) by (rewrite <- Rabs_mult; apply Rabs_pos_eq; apply Rle_0_sqr). assert (Rabs b * Rabs b = b * b) by (rewrite <- Rabs_mult; apply Rabs_pos_eq; apply Rle_0_sqr). lra. }
    pose proof (S (X2 * Y3) (X3 * Y2)) as S1. pose proof (S (X3 * Y1) (X1 * Y3)) as S2. pose proof (S (X1 * Y2) (X2 * Y1)) as S3. fold m1 in S1. fold m2 in S2. fold m3 in S3.
    pose proof (Rle_0_sqr (X1 * Y1)) as T1. pose proof (Rle_0_sqr (X2 * Y2)) as T2. pose proof (Rle_0_sqr (X3 * Y3)) as T3. unfold Rsqr in *.
    pose proof (Rle_0_sqr (X2 * Y3)) as T4. pose proof (Rle_0_sqr (X3 * Y2)) as T5. pose proof (Rle_0_sqr (X3 * Y1)) as T6. pose proof (Rle_0_sqr (X1 * Y3)) as T7. pose proof (Rle_0_sqr (X1 * Y2)) as T8. pose proof (Rle_0_sqr (X2 * Y1)) as T9. unfold Rsqr in *. lra. }
  unfold dist. cbn [sub]. eapply Rle_trans; [apply (len_affine ((4 + / 64) * uro) (3 * eta) _ [m1; m2; m3]); [apply Rmult_le_pos; lra|lra|constructor; [rewrite (Rabs_pos_eq m1); auto|constructor; [rewrite (Rabs_pos_eq m2); auto|constructor; [rewrite (Rabs_pos_eq m3); auto|constructor]]]]|].
  cbn [length INR]. assert ((4 + / 64) * uro * len [m1; m2; m3] <= (4 + / 64) * uro * (3 / 2 * (len [X1; X2; X3] * len [Y1; Y2; Y3]))) by (apply Rmult_le_compat_l; [apply Rmult_le_pos; lra|exact LM]).
  assert (V : 0 <= uro * (len [X1; X2; X3] * len [Y1; Y2; Y3])) by (apply Rmult_le_pos; [lra|apply Rmult_le_pos; apply len_nonneg]). lra.
Qed.
Lemma from_points_near (a b : list flt) : a <> [] -> length a = length b -> Forall modest a -> Forall modest b ->
  exists v, from_points (N:=FNum) a b = Ok v /\ v <> [] /\ length v = length a /\ Forall2 near v (sub (map FR b) (map FR a)).
Proof.
  intros Na L Ha Hb. destruct (from_points_F a b Na L (modest_half _ Ha) (modest_half _ Hb)) as (E & Ls & _). exists (map2 (N:=FNum) PrimFloat.sub b a). split; [exact E|]. split; [|split; [exact Ls|apply diff_near; auto]].
  intro Z. apply Na. assert (Ls' : @length flt (map2 (N:=FNum) PrimFloat.sub b a) = @length flt a) by exact Ls. rewrite Z in Ls'. destruct a; auto; discriminate Ls'.
Qed.
Lemma cross_len_le (a b : pt) : length a = 3%nat -> length b = 3%nat -> len (cross_spec a b) <= len a * len b.
Proof.
  intros La Lb. apply Rsqr_incr_0; [|apply len_nonneg|apply Rmult_le_pos; apply len_nonneg]. unfold Rsqr. rewrite len_sq, lagrange by auto. replace (len a * len b * (len a * len b)) with ((len a * len a) * (len b * len b)) by ring. rewrite !len_sq.
  pose proof (Rle_0_sqr (dot a b)). unfold Rsqr in *. lra.
Qed.
Lemma half_F : finite (ndyad (n:=FNum) 1 1) /\ FR (ndyad (n:=FNum) 1 1) = / 2.
Proof. split; [vm_compute; reflexivity|]. erewrite FR_val by (vm_compute; reflexivity). simpl. unfold F2R. simpl. lra. Qed.
Lemma length_padsub n (a b : pt) : length b = length a -> (length a <= n)%nat -> length (pad_to n (sub b a)) = n.
Proof. intros. apply Measure.pad_ab; auto. Qed.
Lemma norm_nonneg_F (v : list flt) : finite (norm_raw (N:=FNum) v) -> Forall finite v -> 0 <= FR (norm_raw (N:=FNum) v).
Proof.
  intros F Fv. unfold norm_raw in *. change (nsqrt (n:=FNum)) with PrimFloat.sqrt in *. destruct (sqrt_F _ F) as (_ & _ & E). rewrite E. apply rnd_pos. apply R_sqrt.sqrt_pos.
Qed.
Theorem C85_area_triangle : forall a b c : list flt, a <> [] -> length b = length a -> length c = length a -> (length a <= 3)%nat -> Forall modest a -> Forall modest b -> Forall modest c ->
  exists s, area_triangle (N:=FNum) a b c = Ok s /\ finite s /\ 0 <= FR s /\
    forall h, min_dist (on_line (map FR a) (sub (map FR b) (map FR a))) (map FR c) h ->
      Rabs (FR s - dist (map FR a) (map FR b) * h / 2) <= 7 * bpow radix2 (-53) * (dist (map FR a) (map FR b) * dist (map FR a) (map FR c)) + bpow radix2 (-519).
Proof.
  intros a b c Na Lb Lc L3 Ha Hb Hc. destruct (from_points_near a b Na (eq_sym Lb) Ha Hb) as (v & Ev & Nv & Lv & Hv). destruct (from_points_near a c Na (eq_sym Lc) Ha Hc) as (w & Ew & Nw & Lw & Hw).
  destruct (cross_near v w _ _ Nv Nw (eq_ind_r (fun n => (n <= 3)%nat) L3 Lv) (eq_ind_r (fun n => (n <= 3)%nat) L3 Lw) Hv Hw) as (x & Ex & Lx & Bx & Dx). assert (Mx : Forall moderate x) by (eapply Forall_impl; [|exact Bx]; intros y (F & B); split; auto; eapply Rle_trans; [exact B|apply bpow_le; lia]).
  assert (Lx' : @length flt x = 3%nat) by exact Lx. destruct (norm_501 x ltac:(rewrite Lx'; vm_compute; discriminate) (moderate_501 x Mx)) as (Fm & Em). pose proof (norm_nonneg_F x Fm (moderate_finite _ Mx)) as Pm. set (m := norm_raw (N:=FNum) x) in *. destruct half_F as (Fh & Eh).
  set (X := sub (map FR b) (map FR a)) in *. set (Y := sub (map FR c) (map FR a)) in *. assert (LbR : length (map FR b) = length (map FR a)) by (rewrite !map_length; exact Lb). assert (LcR : length (map FR c) = length (map FR a)) by (rewrite !map_length; exact Lc). assert (L3R : (length (map FR a) <= 3)%nat) by (rewrite map_length; exact L3).
  assert (NaR : map FR a <> []) by (intro Z; apply map_eq_nil in Z; contradiction). set (C := cross_spec (pad_to 3 X) (pad_to 3 Y)) in *. assert (LC : len C <= len X * len Y). { rewrite <- (len_pad 3 X), <- (len_pad 3 Y). apply cross_len_le; apply length_padsub; auto. }
  assert (L3C : length C = 3%nat) by (unfold C; apply length_cross; apply length_padsub; auto). assert (L3x : length (map FR x) = 3%nat) by (rewrite map_length; exact Lx).
  set (P := len X * len Y) in *. assert (P0 : 0 <= P) by (apply Rmult_le_pos; apply len_nonneg). pose proof uro_small as (U & U'). pose proof eta_pos as Et.
  assert (LD : Rabs (len (map FR x) - len C) <= dist (map FR x) C).
  { apply Rabs_le. pose proof (len_triangle (sub (map FR x) C) C ltac:(lenr)) as T1. replace (add (sub (map FR x) C) C) with (map FR x) in T1 by (rewrite (add_comm (sub _ C)), add_sub_cancel by lenr; reflexivity).
    pose proof (len_triangle (sub C (map FR x)) (map FR x) ltac:(lenr)) as T2. replace (add (sub C (map FR x)) (map FR x)) with C in T2 by (rewrite (add_comm (sub C _)), add_sub_cancel by lenr; reflexivity). fold (dist (map FR x) C) in T1. fold (dist C (map FR x)) in T2. rewrite (dist_sym C) in T2. lra. }
  rewrite Lx' in Em. cbn [INR] in Em. assert (B5 : 1000 * eta <= / 1024 * bpow radix2 (-520)). { apply Rle_trans with (bpow radix2 10 * eta); [apply Rmult_le_compat_r; [lra|simpl; lra]|]. replace (/ 1024) with (bpow radix2 (-10)) by (simpl; lra). unfold eta. rewrite <- !bpow_plus. apply bpow_le. lia. }
  pose proof (bpow_gt_0 radix2 (-520)) as B520. assert (UP : 0 <= uro * P) by (apply Rmult_le_pos; lra). assert (UP1 : uro * P <= / 1024 * P) by (apply Rmult_le_compat_r; lra). assert (UP2 : uro * (uro * P) <= / 1024 * (uro * P)) by (apply Rmult_le_compat_r; lra). assert (UE : uro * eta <= / 1024 * eta) by (apply Rmult_le_compat_r; lra).
  apply Rabs_le_inv in LD. assert (Lx2 : len (map FR x) <= P + ((6 + / 32) * (uro * P) + 9 * eta)) by lra.
  assert (X1 : uro * len (map FR x) <= uro * (P + ((6 + / 32) * (uro * P) + 9 * eta))) by (apply Rmult_le_compat_l; lra).
  assert (Dm : Rabs (FR m - len C) <= (12 + / 8) * (uro * P) + (1 + / 512) * bpow radix2 (-520)). { apply Rabs_le_inv in Em. apply Rabs_le. lra. }
  apply Rabs_le_inv in Dm. assert (MB : FR m <= 2 * P + bpow radix2 (-519)). { assert (bpow radix2 (-519) = 2 * bpow radix2 (-520)) by (change (-519)%Z with (1 + -520)%Z; rewrite bpow_plus; reflexivity). lra. }
  assert (LP : len (map FR x) <= bpow radix2 510) by (apply len_510; [rewrite Lx'; vm_compute; discriminate|exact Mx]).
  assert (MB2 : Rabs (/ 2 * FR m) <= bpow radix2 512). { rewrite Rabs_pos_eq by lra. apply Rabs_le_inv in Em. assert (uro * len (map FR x) <= / 1024 * len (map FR x)) by (apply Rmult_le_compat_r; [apply len_nonneg|lra]). change 512%Z with (2 + 510)%Z. rewrite bpow_plus. change (bpow radix2 2) with 4. assert (bpow radix2 (-520) <= bpow radix2 510) by (apply bpow_le; lia). lra. }
  pose proof (rnd_bpow_le _ 512 ltac:(lia) MB2) as MB3. destruct (fin_mul (ndyad (n:=FNum) 1 1) m Fh Fm) as (Fs & Es); [rewrite Eh; eapply Rle_lt_trans; [exact MB3|apply bpow_lt; lia]|]. rewrite Eh in Es.
  exists (ndyad (n:=FNum) 1 1 * m)%float. split; [unfold area_triangle; rewrite Ev; cbn [bind]; rewrite Ew; cbn [bind]; rewrite Ex; reflexivity|]. split; [exact Fs|]. rewrite Es. split; [apply rnd_pos; lra|].
  intros h Hh. destruct (Measure.C65_area _ _ _ NaR LbR LcR L3R) as (k & Ek & _ & _ & Hk). rewrite <- (Hk h Hh). rewrite Measure.area_triangle_R in Ek by auto. injection Ek as Ek. fold X Y in Ek.
  assert (EC : R_sqrt.sqrt (Triangles.gram X Y) = len C). { unfold len, C. f_equal. rewrite lagrange by (apply length_padsub; auto). rewrite !Verif.Proof.Arrays.pad_to_dot by (unfold X, Y; lenr). reflexivity. } rewrite EC in Ek. rewrite <- Ek.
  rewrite (dist_sym (map FR a)), (dist_sym (map FR a) (map FR c)). change (dist (map FR b) (map FR a) * dist (map FR c) (map FR a)) with P. fold uro.
  pose proof (rnd_err (/ 2 * FR m)) as R1. rewrite (Rabs_pos_eq (/ 2 * FR m)) in R1 by lra. assert (X2 : uro * FR m <= uro * (P + ((12 + / 8) * (uro * P) + (1 + / 512) * bpow radix2 (-520)))) by (apply Rmult_le_compat_l; lra). assert (uro * bpow radix2 (-520) <= / 1024 * bpow radix2 (-520)) by (apply Rmult_le_compat_r; lra).
  assert (bpow radix2 (-519) = 2 * bpow radix2 (-520)) by (change (-519)%Z with (1 + -520)%Z; rewrite bpow_plus; reflexivity). apply Rabs_le_inv in R1. apply Rabs_le. lra.
Qed.
Print Assumptions C85_area_triangle.
Lemma near_len (v : list flt) (X : pt) : Forall2 near v X -> (length X <= 3)%nat -> len X <= bpow radix2 204.
Proof.
  intros H L. assert (F : Forall2 (fun a b => Rabs a <= 0 * Rabs b + bpow radix2 202) X X). { clear L. induction H as [|x X0 v X (_ & B & N) H IH]; constructor; auto. pose proof uro_small as (U & U'). pose proof (Rabs_pos X0). assert (uro * Rabs X0 <= / 1024 * Rabs X0) by (apply Rmult_le_compat_r; auto). pose proof (Rabs_triang_inv X0 (FR x)) as T. rewrite Rabs_minus_sym in N. change 202%Z with (1 + 201)%Z. rewrite bpow_plus. change (bpow radix2 1) with 2. pose proof (bpow_gt_0 radix2 201). lra. }
  eapply Rle_trans; [apply (len_affine 0 (bpow radix2 202) X X); [lra|apply bpow_ge_0|exact F]|]. change 204%Z with (2 + 202)%Z. rewrite bpow_plus. change (bpow radix2 2) with 4. pose proof (bpow_gt_0 radix2 202). assert (INR (length X) <= 3) by (change 3 with (IZR (Z.of_nat 3)); rewrite <- INR_IZR_INZ; apply le_INR; exact L). assert (INR (length X) * bpow radix2 202 <= 3 * bpow radix2 202) by (apply Rmult_le_compat_r; lra). lra.
Qed.
Definition sixthF : flt := (1 / f_ofZ 6)%float.
Lemma sixth_F : finite sixthF /\ Rabs (FR sixthF - / 6) <= / 6 * uro /\ 0 <= FR sixthF.
Proof.
  split; [vm_compute; reflexivity|]. assert (E : FR sixthF = IZR 6004799503160661 * / IZR (2 ^ 55)). { unfold sixthF. erewrite FR_val by (vm_compute; reflexivity). simpl. unfold F2R. simpl. lra. }
  rewrite E. replace uro with (/ IZR (2 ^ 53)) by reflexivity. assert (E1 : IZR (2 ^ 55) = 36028797018963968) by reflexivity. assert (E2 : IZR (2 ^ 53) = 9007199254740992) by reflexivity. rewrite E1, E2. split; [apply Rabs_le; lra|lra].
Qed.
Theorem C85_volume_tetrahedron : forall a b c d : list flt, a <> [] -> length b = length a -> length c = length a -> length d = length a -> (length a <= 3)%nat ->
  Forall modest a -> Forall modest b -> Forall modest c -> Forall modest d ->
  exists V, volume_tetrahedron (N:=FNum) a b c d = Ok V /\ finite V /\ 0 <= FR V /\
    forall h k, min_dist (on_line (map FR a) (sub (map FR b) (map FR a))) (map FR c) h -> min_dist (span3 (map FR a) (map FR b) (map FR c)) (map FR d) k ->
      Rabs (FR V - dist (map FR a) (map FR b) * h / 2 * k / 3) <= 3 * bpow radix2 (-53) * (dist (map FR a) (map FR b) * dist (map FR a) (map FR c) * dist (map FR a) (map FR d)) + bpow radix2 (-840).
Proof.
  intros a b c d Na Lb Lc Ld L3 Ha Hb Hc Hd. destruct (from_points_near a b Na (eq_sym Lb) Ha Hb) as (v & Ev & Nv & Lv & Hv). destruct (from_points_near a c Na (eq_sym Lc) Ha Hc) as (w & Ew & Nw & Lw & Hw). destruct (from_points_near a d Na (eq_sym Ld) Ha Hd) as (z & Ez & Nz & Lz & Hz).
  destruct (cross_near w z _ _ Nw Nz (eq_ind_r (fun n => (n <= 3)%nat) L3 Lw) (eq_ind_r (fun n => (n <= 3)%nat) L3 Lz) Hw Hz) as (x & Ex & Lx & Bx & Dx). assert (Mx : Forall moderate x) by (eapply Forall_impl; [|exact Bx]; intros y (F & B); split; auto; eapply Rle_trans; [exact B|apply bpow_le; lia]).
  assert (Lx' : @length flt x = 3%nat) by exact Lx. destruct (pad3_F v _ Nv (eq_ind_r (fun n => (n <= 3)%nat) L3 Lv) Hv) as (x1 & x2 & x3 & X1 & X2 & X3 & E3 & EX & N1 & N2 & N3).
  set (X := sub (map FR b) (map FR a)) in *. set (Y := sub (map FR c) (map FR a)) in *. set (Z := sub (map FR d) (map FR a)) in *. assert (LbR : length (map FR b) = length (map FR a)) by (rewrite !map_length; exact Lb). assert (LcR : length (map FR c) = length (map FR a)) by (rewrite !map_length; exact Lc). assert (LdR : length (map FR d) = length (map FR a)) by (rewrite !map_length; exact Ld). assert (L3R : (length (map FR a) <= 3)%nat) by (rewrite map_length; exact L3).
  assert (NaR : map FR a <> []) by (intro Q; apply map_eq_nil in Q; contradiction). set (C := cross_spec (pad_to 3 Y) (pad_to 3 Z)) in *. assert (LC : len C <= len Y * len Z). { rewrite <- (len_pad 3 Y), <- (len_pad 3 Z). apply cross_len_le; apply length_padsub; auto. }
  assert (L3C : length C = 3%nat) by (unfold C; apply length_cross; apply length_padsub; auto). assert (L3x : length (map FR x) = 3%nat) by (rewrite map_length; exact Lx).
  set (u := [x1; x2; x3]) in *. set (XX := [X1; X2; X3]) in *. assert (LXX : len XX = len X) by (rewrite <- EX; apply len_pad). assert (Mu : Forall moderate u) by (constructor; [eapply near_moderate; eauto|constructor; [eapply near_moderate; eauto|constructor; [eapply near_moderate; eauto|constructor]]]).
  destruct (C73_dot_accurate u x (eq_sym Lx') ltac:(vm_compute; discriminate) Mu Mx) as (dd & Ed & Fd & Hd2). fold uro in Hd2. change (INR (length u)) with (2 + 1) in Hd2 || change (length u) with 3%nat in Hd2. replace (INR 3) with 3 in Hd2 by (simpl; lra).
  pose proof (absdot_cauchy (map FR u) (map FR x) ltac:(rewrite L3x; reflexivity)) as AC. unfold absdot in AC.
  set (K := len X) in *. set (Q := len Y * len Z) in *. assert (K0 : 0 <= K) by apply len_nonneg. assert (Q0 : 0 <= Q) by (apply Rmult_le_pos; apply len_nonneg). pose proof uro_small as (U & U'). pose proof eta_pos as Et.
  assert (DU : dist (map FR u) XX <= uro * K). { unfold dist. rewrite <- LXX. eapply Rle_trans; [apply (len_affine uro 0 _ XX); [lra|lra|]|lra]. destruct N1 as (_ & _ & N1), N2 as (_ & _ & N2), N3 as (_ & _ & N3). cbn [map u XX sub]. constructor; [lra|constructor; [lra|constructor; [lra|constructor]]]. }
  assert (LU : len (map FR u) <= (1 + uro) * K). { pose proof (len_triangle (sub (map FR u) XX) XX eq_refl) as T. replace (add (sub (map FR u) XX) XX) with (map FR u) in T by (rewrite (add_comm (sub _ XX)), add_sub_cancel by reflexivity; reflexivity). fold (dist (map FR u) XX) in T. lra. }
  assert (LXc : len (map FR x) <= Q + dist (map FR x) C). { pose proof (len_triangle (sub (map FR x) C) C ltac:(lenr)) as T. replace (add (sub (map FR x) C) C) with (map FR x) in T by (rewrite (add_comm (sub _ C)), add_sub_cancel by lenr; reflexivity). fold (dist (map FR x) C) in T. lra. }
  set (e := (6 + / 32) * uro * Q + 9 * eta) in *. assert (e0 : 0 <= e) by (unfold e; assert (0 <= uro * Q) by (apply Rmult_le_pos; lra); lra).
  assert (D1 : Rabs (dot (map FR u) (map FR x) - dot XX C) <= (1 + uro) * K * e + uro * K * Q).
  { replace (dot (map FR u) (map FR x) - dot XX C) with (dot (map FR u) (sub (map FR x) C) + dot (sub (map FR u) XX) C) by (rewrite dot_sub_r by lenr; rewrite dot_sub_l by reflexivity; ring). eapply Rle_trans; [apply Rabs_triang|].
    assert (Rabs (dot (map FR u) (sub (map FR x) C)) <= (1 + uro) * K * e). { eapply Rle_trans; [apply cauchy_schwarz; rewrite length_sub, L3x, L3C; reflexivity|]. apply Rmult_le_compat; try apply len_nonneg; auto. }
    assert (Rabs (dot (sub (map FR u) XX) C) <= uro * K * Q). { eapply Rle_trans; [apply cauchy_schwarz; rewrite L3C; reflexivity|]. apply Rmult_le_compat; try apply len_nonneg; auto. } lra. }
  assert (D2 : dot (map Rabs (map FR u)) (map Rabs (map FR x)) <= (1 + uro) * K * (Q + e)). { eapply Rle_trans; [exact AC|]. apply Rmult_le_compat; try apply len_nonneg; auto; lra. }
  assert (D3 : (3 + 2) * uro * dot (map Rabs (map FR u)) (map Rabs (map FR x)) <= (3 + 2) * uro * ((1 + uro) * K * (Q + e))) by (apply Rmult_le_compat_l; [lra|exact D2]).
  set (T := dot XX C) in *. assert (KQ0 : 0 <= K * Q) by (apply Rmult_le_pos; auto). assert (UK : 0 <= uro * (K * Q)) by (apply Rmult_le_pos; lra). assert (UK2 : uro * (uro * (K * Q)) <= / 1024 * (uro * (K * Q))) by (apply Rmult_le_compat_r; auto). assert (UK3 : uro * (uro * (uro * (K * Q))) <= / 1024 * (uro * (uro * (K * Q)))) by (apply Rmult_le_compat_r; auto; apply Rmult_le_pos; lra).
  assert (KE : 0 <= K * eta) by (apply Rmult_le_pos; lra). assert (UE : uro * (K * eta) <= / 1024 * (K * eta)) by (apply Rmult_le_compat_r; auto). assert (UE0 : 0 <= uro * (K * eta)) by (apply Rmult_le_pos; lra). assert (UE2 : uro * (uro * (K * eta)) <= / 1024 * (uro * (K * eta))) by (apply Rmult_le_compat_r; auto).
  assert (DT : Rabs (FR dd - T) <= (12 + / 8) * (uro * (K * Q)) + 10 * (K * eta) + bpow radix2 (-1050)).
  { pose proof (Rabs_triang (FR dd - dot (map FR u) (map FR x)) (dot (map FR u) (map FR x) - T)) as TT. replace (FR dd - dot (map FR u) (map FR x) + (dot (map FR u) (map FR x) - T)) with (FR dd - T) in TT by ring. unfold e in *. lra. }
  assert (XB : K <= bpow radix2 204) by (eapply near_len; [exact Hv|unfold X; lenr]). assert (YB : len Y <= bpow radix2 204) by (eapply near_len; [exact Hw|unfold Y; lenr]). assert (ZB : len Z <= bpow radix2 204) by (eapply near_len; [exact Hz|unfold Z; lenr]).
  assert (QB : Q <= bpow radix2 408) by (change 408%Z with (204 + 204)%Z; rewrite bpow_plus; apply Rmult_le_compat; auto; apply len_nonneg). assert (KQB : K * Q <= bpow radix2 612) by (change 612%Z with (204 + 408)%Z; rewrite bpow_plus; apply Rmult_le_compat; auto).
  assert (KEB : 10 * (K * eta) + bpow radix2 (-1050) <= bpow radix2 (-842)). { assert (K * eta <= bpow radix2 204 * eta) by (apply Rmult_le_compat_r; lra). unfold eta in *. rewrite <- bpow_plus in H. change (204 + -1075)%Z with (-871)%Z in H. assert (bpow radix2 (-1050) <= bpow radix2 (-871)) by (apply bpow_le; lia). assert (bpow radix2 (-842) = bpow radix2 29 * bpow radix2 (-871)) by (rewrite <- bpow_plus; reflexivity). assert (11 <= bpow radix2 29) by (simpl; lra). assert (11 * bpow radix2 (-871) <= bpow radix2 29 * bpow radix2 (-871)) by (apply Rmult_le_compat_r; [apply bpow_ge_0|lra]). lra. }
  assert (TB : Rabs T <= K * Q). { unfold T. eapply Rle_trans; [apply cauchy_schwarz; rewrite L3C; reflexivity|]. rewrite LXX. apply Rmult_le_compat_l; auto. }
  assert (AD : Rabs (Rabs (FR dd) - Rabs T) <= (12 + / 8) * (uro * (K * Q)) + bpow radix2 (-842)) by (eapply Rle_trans; [apply Rabs_triang_inv2|]; lra). apply Rabs_le_inv in AD. assert (UKs : uro * (K * Q) <= / 1024 * (K * Q)) by (apply Rmult_le_compat_r; auto).
  destruct sixth_F as (Fs & Es & Ps). apply Rabs_le_inv in Es. set (s := FR sixthF) in *. pose proof (Rabs_pos T) as T0. pose proof (bpow_gt_0 radix2 (-842)) as B842. pose proof (Rabs_pos (FR dd)) as d0.
  assert (DB : Rabs (FR dd) <= bpow radix2 614). { assert (bpow radix2 (-842) <= bpow radix2 612) by (apply bpow_le; lia). change 614%Z with (2 + 612)%Z. rewrite bpow_plus. change (bpow radix2 2) with 4. lra. }
  assert (SB : Rabs (s * Rabs (FR dd)) <= bpow radix2 614). { rewrite Rabs_pos_eq by (apply Rmult_le_pos; auto). assert (s * Rabs (FR dd) <= 1 * Rabs (FR dd)) by (apply Rmult_le_compat_r; lra). lra. }
  pose proof (rnd_bpow_le _ 614 ltac:(lia) SB) as SB'. destruct (fin_mul sixthF (PrimFloat.abs dd) Fs (proj2 (abs_finite dd) Fd)) as (FV & EV); [rewrite abs_F; eapply Rle_lt_trans; [exact SB'|apply bpow_lt; lia]|]. rewrite abs_F in EV. fold s in EV.
  exists (sixthF * PrimFloat.abs dd)%float. split; [unfold volume_tetrahedron; rewrite Ev; cbn [bind]; rewrite Ew; cbn [bind]; rewrite Ez; cbn [bind]; rewrite Ex; cbn [bind]; rewrite E3; cbn [bind]; fold u; rewrite Ed; reflexivity|].
  split; [exact FV|]. rewrite EV. split; [apply rnd_pos; apply Rmult_le_pos; auto|]. intros h k Hh Hk.
  destruct (Measure.C65_area _ _ _ NaR LbR LcR L3R) as (ar & Ea & _ & _ & Har). destruct (Measure.C65_volume _ _ _ _ NaR LbR LcR LdR L3R) as (vo & Evo & _ & _ & Hvo). rewrite <- (Har h Hh). rewrite <- (Hvo ar k Ea Hk). rewrite Measure.volume_triple_R in Evo by auto. fold X Y Z C in Evo. rewrite EX in Evo. fold T in Evo. injection Evo as <-.
  rewrite !(dist_sym (map FR a)). change (dist (map FR b) (map FR a) * dist (map FR c) (map FR a) * dist (map FR d) (map FR a)) with (K * len Y * len Z). rewrite (Rmult_assoc K). fold Q. fold uro.
  pose proof (rnd_err (s * Rabs (FR dd))) as R1. rewrite (Rabs_pos_eq (s * Rabs (FR dd))) in R1 by (apply Rmult_le_pos; auto).
  assert (W : Rabs (s * Rabs (FR dd) - / 6 * Rabs T) <= (2 + / 4) * (uro * (K * Q)) + bpow radix2 (-842)).
  { replace (s * Rabs (FR dd) - / 6 * Rabs T) with (s * (Rabs (FR dd) - Rabs T) + (s - / 6) * Rabs T) by ring. eapply Rle_trans; [apply Rabs_triang|]. rewrite !Rabs_mult, (Rabs_pos_eq s), (Rabs_pos_eq (Rabs T)) by auto.
    assert (s * Rabs (Rabs (FR dd) - Rabs T) <= (/ 6 + / 600) * ((12 + / 8) * (uro * (K * Q)) + bpow radix2 (-842))) by (apply Rmult_le_compat; auto; [apply Rabs_pos|lra|apply Rabs_le; lra]). assert (Rabs (s - / 6) * Rabs T <= (/ 6 * uro) * (K * Q)) by (apply Rmult_le_compat; auto; [apply Rabs_pos|apply Rabs_le; lra]). lra. }
  apply Rabs_le_inv in W. assert (W2 : uro * (s * Rabs (FR dd)) <= uro * ((/ 6 + / 100) * (K * Q) + bpow radix2 (-842))) by (apply Rmult_le_compat_l; lra). assert (uro * bpow radix2 (-842) <= / 1024 * bpow radix2 (-842)) by (apply Rmult_le_compat_r; lra). assert (eta <= bpow radix2 (-842)) by (apply bpow_le; lia).
  assert (B840 : bpow radix2 (-840) = 4 * bpow radix2 (-842)) by (change (-840)%Z with (2 + -842)%Z; rewrite bpow_plus; reflexivity). apply Rabs_le_inv in R1. apply Rabs_le. lra.
Qed.
Print Assumptions C85_volume_tetrahedron.

(** ** Points.centroid *)
Lemma ofZ_F (z : Z) : (0 <= z < 2 ^ 53)%Z -> finite (f_ofZ z) /\ FR (f_ofZ z) = IZR z.
Proof.
  intros (H0 & H1). destruct z as [|p|p]; [split; [reflexivity|apply zero_F]| |lia]. unfold f_ofZ, finite, FR. rewrite of_int63_equiv.
  assert (Ei : Uint63.to_Z (Uint63.of_Z (Z.pos p)) = Z.pos p). { rewrite Uint63.of_Z_spec. apply Z.mod_small. change Uint63.wB with (2 ^ 63)%Z. split; [lia|]. eapply Z.lt_trans; [exact H1|]. reflexivity. }
  rewrite Ei. pose proof (binary_normalize_correct prec emax Hprec Hmax mode_NE (Z.pos p) 0 false) as C. cbv zeta in C. rewrite <- rnd_eq in C. assert (E : F2R (Float radix2 (Z.pos p) 0) = IZR (Z.pos p)) by (unfold F2R; simpl; ring). rewrite E in C.
  assert (Er : rnd (IZR (Z.pos p)) = IZR (Z.pos p)) by (apply rnd_int; rewrite Z.abs_eq; lia). rewrite Er in C. rewrite Rlt_bool_true in C by (apply small_int_bound; rewrite Z.abs_eq; lia). destruct C as (C1 & C2 & _). split; [exact C2|exact C1].
Qed.
Definition abs_sum (l : pt) : R := Rsum (map Rabs l).
Lemma sum_F (l : list flt) : (Z.of_nat (length l) <= max_dim)%Z -> Forall moderate l ->
  finite (nsum (N:=FNum) l) /\ Rabs (FR (nsum (N:=FNum) l) - Rsum (map FR l)) <= g (length l) * abs_sum (map FR l) /\ abs_sum (map FR l) <= INR (length l) * bpow radix2 500 /\ Rabs (Rsum (map FR l)) <= abs_sum (map FR l).
Proof.
  unfold max_dim. induction l as [|x l IH]; intros Ln H. { change (nsum (N:=FNum) []) with 0%float. change (Rsum (map FR [])) with 0. change (abs_sum (map FR [])) with 0. change (length (@nil flt)) with 0%nat. rewrite (proj1 zero_F), Rminus_0_r, Rabs_R0. split; [apply zero_F|]. cbn [INR]. lra. }
  inversion_clear H as [|? ? (Fx & Hx) H']. assert (Ln' : (Z.of_nat (length l) <= 2 ^ 20)%Z) by (cbn [length] in Ln; lia). destruct (IH Ln' H') as (F & E & B & C). change (nsum (N:=FNum) (x :: l)) with (x + nsum (N:=FNum) l)%float. cbn [map length]. unfold abs_sum in *. cbn [map]. change (Rsum (FR x :: map FR l)) with (FR x + Rsum (map FR l)). change (Rsum (Rabs (FR x) :: map Rabs (map FR l))) with (Rabs (FR x) + Rsum (map Rabs (map FR l))).
  set (s := nsum (N:=FNum) l) in *. set (S := Rsum (map FR l)) in *. set (A := Rsum (map Rabs (map FR l))) in *. assert (A0 : 0 <= A) by (pose proof (Rabs_pos S); lra). pose proof (Rabs_pos (FR x)) as xp0. rewrite S_INR.
  pose proof (pow_le2 (length l) Ln') as P2. assert (G1 : g (length l) <= 1) by (unfold g; lra). assert (GA : g (length l) * A <= 1 * A) by (apply Rmult_le_compat_r; auto).
  pose proof (Rabs_triang (FR s - S) S) as T. replace (FR s - S + S) with (FR s) in T by ring. assert (NB : INR (length l) <= IZR (2 ^ 20)) by (rewrite INR_IZR_INZ; apply IZR_le; exact Ln'). pose proof (bpow_gt_0 radix2 500) as B5.
  assert (SB : Rabs (FR x + FR s) <= bpow radix2 522). { eapply Rle_trans; [apply Rabs_triang|]. assert (INR (length l) * bpow radix2 500 <= IZR (2 ^ 20) * bpow radix2 500) by (apply Rmult_le_compat_r; lra). change 522%Z with (22 + 500)%Z. rewrite bpow_plus. change (bpow radix2 22) with (IZR (2 ^ 22)). assert (E1 : IZR (2 ^ 20) = 1048576) by reflexivity. assert (E2 : IZR (2 ^ 22) = 4194304) by reflexivity. rewrite E1, E2 in *. lra. }
  pose proof (rnd_bpow_le _ 522 ltac:(lia) SB) as SB'. destruct (fin_add x s Fx F) as (Fa & Ea); [eapply Rle_lt_trans; [exact SB'|apply bpow_lt; lia]|]. split; [exact Fa|]. split; [|split; [lra|pose proof (Rabs_triang (FR x) S); lra]].
  rewrite Ea. pose proof (rnd_plus x s) as R1. pose proof (Rabs_triang (rnd (FR x + FR s) - (FR x + FR s)) (FR s - S)) as T2. replace (rnd (FR x + FR s) - (FR x + FR s) + (FR s - S)) with (rnd (FR x + FR s) - (FR x + S)) in T2 by ring.
  pose proof (Rabs_triang (FR x) (FR s)) as T3. pose proof uro_small as (U & U'). rewrite g_S. set (k := g (length l)) in *. assert (k0 : 0 <= k) by apply g_pos. assert (X1 : uro * Rabs (FR x + FR s) <= uro * (Rabs (FR x) + (k * A + A))) by (apply Rmult_le_compat_l; lra).
  assert (0 <= (1 + uro) * k * Rabs (FR x)) by (apply Rmult_le_pos; auto; apply Rmult_le_pos; lra). lra.
Qed.
Lemma column_sum (d : nat) (rows : list (list flt)) : Forall (fun r => length r = d) rows -> length (colsum (N:=FNum) d rows) = d /\ forall j, (j < d)%nat -> nth j (colsum (N:=FNum) d rows) 0%float = nsum (N:=FNum) (map (fun r => nth j r 0%float) rows).
Proof.
  induction 1 as [|r rows Hr F (L & IH)]. { split; [apply repeat_length|]. intros j Hj. cbn. apply nth_repeat. }
  change (colsum (N:=FNum) d (r :: rows)) with (map2 (N:=FNum) PrimFloat.add r (colsum (N:=FNum) d rows)). set (c := colsum (N:=FNum) d rows) in *.
  assert (K : forall (a b : list flt), length a = length b -> length (map2 (N:=FNum) PrimFloat.add a b) = length a /\ forall j, (j < length a)%nat -> nth j (map2 (N:=FNum) PrimFloat.add a b) 0%float = (nth j a 0 + nth j b 0)%float).
  { induction a as [|x a IHa]; intros [|y b] Lab; try discriminate Lab; [split; auto; intros j Hj; inversion Hj|]. destruct (IHa b ltac:(cbn in Lab; lia)) as (I1 & I2). split; [cbn; f_equal; exact I1|]. intros [|j] Hj; [reflexivity|]. cbn. apply I2. cbn in Hj. lia. }
  destruct (K r c) as (K1 & K2); [exact (eq_trans Hr (eq_sym L))|]. split; [exact (eq_trans K1 Hr)|]. intros j Hj. cbn [map]. change (nsum (N:=FNum) (nth j r 0%float :: map (fun r => nth j r 0%float) rows)) with (nth j r 0 + nsum (N:=FNum) (map (fun r => nth j r 0%float) rows))%float.
  rewrite <- IH by auto. apply K2. rewrite Hr. exact Hj.
Qed.
Theorem C85_centroid : forall (d : nat) (rows : list (list flt)), rows <> [] -> (0 < d)%nat -> Forall (fun r => length r = d) rows -> Forall (Forall moderate) rows -> (Z.of_nat (length rows) <= max_dim)%Z ->
  exists c, centroid (N:=FNum) rows = Ok c /\ length c = d /\ Forall finite c /\
    forall j, (j < d)%nat -> let xs := map (fun r => FR (nth j r 0%float)) rows in
      Rabs (FR (nth j c 0%float) - Rsum xs / INR (length rows)) <= (INR (length rows) + 2) * bpow radix2 (-53) * (Rsum (map Rabs xs) / INR (length rows)) + bpow radix2 (-1075).
Proof.
  intros d rows Hne Hd FL FM Ln. assert (Ed : dim2 (N:=FNum) rows = d) by (destruct rows; [contradiction|inversion_clear FL; auto]). destruct (column_sum d rows FL) as (Lc & Hc). set (m := INR (length rows)).
  assert (Hz : (0 <= Z.of_nat (length rows) < 2 ^ 53)%Z) by (unfold max_dim in Ln; split; [lia|eapply Z.le_lt_trans; [exact Ln|reflexivity]]). destruct (ofZ_F _ Hz) as (Fz & Ez). rewrite <- INR_IZR_INZ in Ez. fold m in Ez.
  assert (m1 : 1 <= m) by (unfold m; destruct rows; [contradiction|cbn [length]; rewrite S_INR; pose proof (pos_INR (length rows)); lra]). set (z := f_ofZ (Z.of_nat (length rows))) in *. set (s := colsum (N:=FNum) d rows) in *.
  set (c := map (fun x => x / z)%float s). assert (J : forall j, (j < d)%nat -> let xs := map (fun r => FR (nth j r 0%float)) rows in finite (nth j s 0 / z)%float /\ Rabs (FR (nth j s 0 / z)%float - Rsum xs / m) <= (m + 2) * bpow radix2 (-53) * (Rsum (map Rabs xs) / m) + bpow radix2 (-1075)).
  { intros j Hj xs. pose proof (Hc j Hj) as Es. set (col := map (fun r : list flt => nth j r 0%float) rows) in *. assert (Lcol : length col = length rows) by apply map_length.
    assert (Mc : Forall moderate col). { unfold col. clear - FL FM Hj. induction rows as [|r rows IH]; [constructor|]. inversion_clear FL as [|? ? Lr FL']. inversion_clear FM as [|? ? Mr FM']. constructor; auto. rewrite Forall_forall in Mr. apply Mr. apply nth_In. rewrite Lr. exact Hj. }
    destruct (sum_F col ltac:(rewrite Lcol; exact Ln) Mc) as (Fs & E & B & C). rewrite <- Es in *. set (x := nth j s 0%float) in *. replace (map FR col) with xs in * by (unfold xs, col; rewrite map_map; reflexivity). rewrite Lcol in *. fold m in B.
    change (Rsum (map Rabs xs)) with (abs_sum xs). set (A := abs_sum xs) in *. set (T := Rsum xs) in *. set (k := g (length rows)) in *. assert (k0 : 0 <= k) by apply g_pos. assert (A0 : 0 <= A) by (pose proof (Rabs_pos T); lra).
    assert (Ln20 : (Z.of_nat (length rows) <= 2 ^ 20)%Z) by exact Ln. pose proof (pow_le2 _ Ln20) as P2. assert (k1 : k <= 1) by (unfold k, g; lra). assert (kA : k * A <= 1 * A) by (apply Rmult_le_compat_r; auto).
    pose proof (Rabs_triang (FR x - T) T) as T1. replace (FR x - T + T) with (FR x) in T1 by ring. assert (im : 0 < / m) by (apply Rinv_0_lt_compat; lra). assert (Am : A / m <= bpow radix2 500). { apply Rmult_le_reg_r with m; [lra|]. unfold Rdiv. rewrite Rmult_assoc, Rinv_l by lra. lra. } assert (Am0 : 0 <= A / m) by (apply Rmult_le_pos; lra).
    assert (XB : Rabs (FR x / m) <= (1 + k) * (A / m)). { unfold Rdiv. rewrite Rabs_mult, (Rabs_pos_eq (/ m)), <- Rmult_assoc by lra. apply Rmult_le_compat_r; lra. }
    assert (XB2 : Rabs (FR x / m) <= bpow radix2 501). { change 501%Z with (1 + 500)%Z. rewrite bpow_plus. change (bpow radix2 1) with 2. eapply Rle_trans; [exact XB|]. apply Rmult_le_compat; lra. }
    pose proof (rnd_bpow_le _ 501 ltac:(lia) XB2) as XB3. destruct (fin_div x z Fs) as (Fq & Eq); [rewrite Ez; lra|rewrite Ez; eapply Rle_lt_trans; [exact XB3|apply bpow_lt; lia]|]. split; [exact Fq|]. rewrite Eq, Ez. fold uro eta. pose proof (rnd_err (FR x / m)) as R1.
    pose proof (Rabs_triang (rnd (FR x / m) - FR x / m) (FR x / m - T / m)) as T2. replace (rnd (FR x / m) - FR x / m + (FR x / m - T / m)) with (rnd (FR x / m) - T / m) in T2 by ring.
    assert (X1 : Rabs (FR x / m - T / m) <= k * (A / m)). { replace (FR x / m - T / m) with ((FR x - T) * / m) by (field; lra). rewrite Rabs_mult, (Rabs_pos_eq (/ m)) by lra. unfold Rdiv. rewrite <- Rmult_assoc. apply Rmult_le_compat_r; lra. }
    pose proof uro_small as (U & U'). assert (X2 : uro * Rabs (FR x / m) <= uro * ((1 + k) * (A / m))) by (apply Rmult_le_compat_l; lra). assert (G : g (S (length rows)) <= (INR (S (length rows)) + 1) * uro) by (apply g_bound; rewrite Nat2Z.inj_succ; unfold max_dim in Ln; lia).
    rewrite g_S, S_INR in G. fold k m in G. assert (G2 : (uro + (1 + uro) * k) * (A / m) <= (m + 1 + 1) * uro * (A / m)) by (apply Rmult_le_compat_r; auto). lra. }
  assert (Lc' : @length flt c = d) by (unfold c; rewrite map_length; exact Lc).
  assert (Nc : forall j, (j < d)%nat -> nth j c 0%float = (nth j s 0 / z)%float). { intros j Hj. unfold c. rewrite (nth_indep _ 0%float (0 / z)%float) by (fold c; rewrite Lc'; exact Hj). exact (map_nth (fun x : flt => x / z)%float s 0%float j). }
  assert (Fc : Forall finite c). { apply Forall_forall. intros x Hx. apply (In_nth _ _ 0%float) in Hx as (j & Hj & <-). rewrite Lc' in Hj. rewrite Nc by auto. apply J. exact Hj. }
  exists c. split; [|split; [exact Lc'|split; [exact Fc|]]].
  - assert (Em : mapM (fun s0 : flt => ndiv (n:=FNum) s0 (nofZ (Z.of_nat (length rows)))) s = Ok c). { unfold c. clear. induction s as [|x s IH]; [reflexivity|]. cbn [mapM map]. change (ndiv (n:=FNum) x (nofZ (Z.of_nat (length rows)))) with (Ok (x / z)%float). cbn [bind]. rewrite IH. reflexivity. }
    assert (Em' : colmean (N:=FNum) d rows = Ok c) by exact Em. unfold centroid. rewrite Ed, Em'. cbn [bind]. apply (vector_of_ok c); auto. intro Z. rewrite Z in Lc'. cbn in Lc'. lia.
  - intros j Hj xs. rewrite Nc by auto. apply J. exact Hj.
Qed.
Print Assumptions C85_centroid.

(** A circle, a triangle, a tetrahedron and a set of points meet the hypotheses; the floats are as expected. *)
Lemma dist_4 (x : R) (a b : pt) : 0 <= x -> x * x <= dot (sub a b) (sub a b) -> x <= dist a b.
Proof. intros H K. unfold dist, len. apply Rle_trans with (R_sqrt.sqrt (x * x)); [rewrite R_sqrt.sqrt_square by auto; lra|apply sqrt_le_1_alt; exact K]. Qed.
Lemma dist_is (x : R) (a b : pt) : 0 <= x -> dot (sub a b) (sub a b) = x * x -> dist a b = x.
Proof. intros H K. unfold dist, len. rewrite K. apply R_sqrt.sqrt_square. auto. Qed.
Example C85_nonvacuous :
  let p := [1; 1]%float in let q := [1; 4]%float in let r := 2%float in
  let a := [0; 0; 0]%float in let b := [3; 0; 0]%float in let c := [0; 4; 0]%float in let d := [0; 0; 2]%float in
  (is_ball_F p r (MkBall (N:=FNum) p r) /\ Forall half_moderate p /\ Forall half_moderate q /\ moderate r /\ bpow radix2 (-399) <= dist (map FR p) (map FR q) /\
   [1; 3] = add (map FR p) (scale (2 / 3) (sub (map FR q) (map FR p))) /\ dist [1; 3] (map FR p) = FR r /\ ball_project_point (MkBall (N:=FNum) p r) q = Ok [1; 3]%float) /\
  (Forall modest a /\ Forall modest b /\ Forall modest c /\ Forall modest d /\ min_dist (on_line (map FR a) (sub (map FR b) (map FR a))) (map FR c) 4 /\ min_dist (span3 (map FR a) (map FR b) (map FR c)) (map FR d) 2 /\
   area_triangle (N:=FNum) a b c = Ok 6%float /\ volume_tetrahedron (N:=FNum) a b c d = Ok 4%float) /\
  (Forall (Forall moderate) [a; b; c] /\ Forall (fun r => length r = 3%nat) [a; b; c] /\ centroid (N:=FNum) [a; b; c] = Ok [1; 4 / 3; 0]%float).
Proof.
  intros p q r a b c d.
  assert (HP : map FR p = [1; 1]). { unfold p. cbn [map]. repeat (erewrite FR_val by (vm_compute; reflexivity)). repeat f_equal; simpl; unfold F2R; simpl; lra. }
  assert (HQ : map FR q = [1; 4]). { unfold q. cbn [map]. repeat (erewrite FR_val by (vm_compute; reflexivity)). repeat f_equal; simpl; unfold F2R; simpl; lra. }
  assert (HR : FR r = 2). { unfold r. erewrite FR_val by (vm_compute; reflexivity). simpl; unfold F2R; simpl; lra. }
  assert (HA : map FR a = [0; 0; 0]). { unfold a. cbn [map]. rewrite !(proj1 zero_F). reflexivity. }
  assert (HB : map FR b = [3; 0; 0]). { unfold b. cbn [map]. rewrite !(proj1 zero_F). erewrite FR_val by (vm_compute; reflexivity). apply f_equal2; [simpl; unfold F2R; simpl; lra|reflexivity]. }
  assert (HC : map FR c = [0; 4; 0]). { unfold c. cbn [map]. rewrite !(proj1 zero_F). erewrite FR_val by (vm_compute; reflexivity). apply f_equal2; [reflexivity|]. apply f_equal2; [simpl; unfold F2R; simpl; lra|reflexivity]. }
  assert (HD : map FR d = [0; 0; 2]). { unfold d. cbn [map]. rewrite !(proj1 zero_F). fold r. rewrite HR. reflexivity. }
  assert (FM : forall v : list flt, Forall finite v -> Forall (fun x => Rabs x <= 4) (map FR v) -> Forall modest v).
  { intros w F G. induction F as [|x w Fx F IH]; cbn [map] in G; inversion_clear G; constructor; auto. split; auto. eapply Rle_trans; [eassumption|]. change 4 with (bpow radix2 2). apply bpow_le. lia. }
  assert (A4 : forall x, 0 <= x <= 4 -> Rabs x <= 4) by (intros x Hx; rewrite Rabs_pos_eq; lra).
  assert (TP : Forall modest p) by (apply FM; [repeat constructor; vm_compute; reflexivity|rewrite HP; constructor; [apply A4; lra|constructor; [apply A4; lra|constructor]]]).
  assert (TQ : Forall modest q) by (apply FM; [repeat constructor; vm_compute; reflexivity|rewrite HQ; constructor; [apply A4; lra|constructor; [apply A4; lra|constructor]]]).
  assert (TA : Forall modest a) by (apply FM; [repeat constructor; vm_compute; reflexivity|rewrite HA; constructor; [apply A4; lra|constructor; [apply A4; lra|constructor; [apply A4; lra|constructor]]]]).
  assert (TB : Forall modest b) by (apply FM; [repeat constructor; vm_compute; reflexivity|rewrite HB; constructor; [apply A4; lra|constructor; [apply A4; lra|constructor; [apply A4; lra|constructor]]]]).
  assert (TC : Forall modest c) by (apply FM; [repeat constructor; vm_compute; reflexivity|rewrite HC; constructor; [apply A4; lra|constructor; [apply A4; lra|constructor; [apply A4; lra|constructor]]]]).
  assert (TD : Forall modest d) by (apply FM; [repeat constructor; vm_compute; reflexivity|rewrite HD; constructor; [apply A4; lra|constructor; [apply A4; lra|constructor; [apply A4; lra|constructor]]]]).
  assert (TR : moderate r) by (split; [vm_compute; reflexivity|rewrite HR, Rabs_pos_eq by lra; change 2 with (bpow radix2 1); apply bpow_le; lia]).
  split; [|split].
  - split; [left; reflexivity|]. split; [apply modest_half; auto|]. split; [apply modest_half; auto|]. split; [exact TR|]. split; [|split; [|split; [|reflexivity]]].
    + apply Rle_trans with 1; [change 1 with (bpow radix2 0); apply bpow_le; lia|]. apply dist_4; [lra|]. rewrite HP, HQ. cbn. lra.
    + rewrite HP, HQ. cbn. apply f_equal2; [lra|apply f_equal2; [lra|reflexivity]].
    + rewrite HP, HR. apply dist_is; [lra|]. cbn. lra.
  - split; [auto|]. split; [auto|]. split; [auto|]. split; [auto|]. split; [|split; [|split; reflexivity]].
    + rewrite HA, HB, HC. split. * exists [0; 0; 0]. split; [exists 0; cbn; apply f_equal2; [lra|apply f_equal2; [lra|apply f_equal2; [lra|reflexivity]]]|]. apply dist_is; [lra|]. cbn. lra.
      * intros y (t & ->). apply dist_4; [lra|]. cbn. pose proof (Rle_0_sqr t) as T. unfold Rsqr in T. nra.
    + rewrite HA, HB, HC, HD. split. * exists [0; 0; 0]. split; [exists 0, 0; cbn; apply f_equal2; [lra|apply f_equal2; [lra|apply f_equal2; [lra|reflexivity]]]|]. apply dist_is; [lra|]. cbn. lra.
      * intros y (t & u & ->). apply dist_4; [lra|]. cbn. pose proof (Rle_0_sqr t) as T. pose proof (Rle_0_sqr u) as T'. unfold Rsqr in *. nra.
  - split; [constructor; [apply half_moderate_m, modest_half; auto|constructor; [apply half_moderate_m, modest_half; auto|constructor; [apply half_moderate_m, modest_half; auto|constructor]]]|]. split; [repeat constructor|]. reflexivity.
Qed.
