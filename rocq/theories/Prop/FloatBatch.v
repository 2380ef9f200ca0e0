(** * Property C98: batch methods in double precision *)
From Coq Require Import String Reals List ZArith Floats Lra Lia Psatz Bool.
From Flocq Require Import Core BinarySingleNaN.
From Flocq Require Import IEEE754.PrimFloat.
From Verif.Model Require Import Outcome Num Instances Numpy BaseArray Vector Points Functions Line Plane.
From Verif.Spec Require Import Geometry Tolerance Floats Batch.
From Verif.Proof Require Import VecAlg Bridge Vectors Floats FloatErr.
From Verif.Prop Require Import Floats Accuracy AnyOrder Decisions Projections Grid.
From Verif.Prop Require Compare Batch.
Import ListNotations.
Local Open Scope R_scope.

(** ** Multiplication of doubles is commutative, so the two dot products are the same double *)
Lemma SFmul_comm x y : SFmul prec emax x y = SFmul prec emax y x.
Proof. destruct x as [s|s| |s m e], y as [s'|s'| |s' m' e']; cbn; rewrite ?(xorb_comm s s'); try reflexivity. rewrite (Pos.mul_comm m' m), (Z.add_comm e' e). reflexivity. Qed.
Lemma mul_comm_F (x y : flt) : (x * y)%float = (y * x)%float.
Proof. apply Prim2SF_inj. rewrite !mul_spec. apply SFmul_comm. Qed.
Lemma dot_raw_comm (a b : list flt) : dot_raw (N:=FNum) a b = dot_raw (N:=FNum) b a.
Proof. unfold dot_raw. f_equal. revert b. induction a as [|x a IH]; intros [|y b]; cbn [map2]; auto. f_equal; [apply mul_comm_F|apply IH]. Qed.
Lemma np_dot_comm (a b : list flt) d : np_dot (N:=FNum) a b = Ok d -> np_dot (N:=FNum) b a = Ok d.
Proof.
  unfold np_dot. fn. destruct (Nat.eqb_spec (@length flt a) (@length flt b)) as [E|E]; [|discriminate]. replace (Nat.eqb (@length flt b) (@length flt a)) with true by (symmetry; apply Nat.eqb_eq; auto). rewrite dot_raw_comm. auto.
Qed.
Lemma vector_of_id (v w : list flt) : vector_of (N:=FNum) v = Ok w -> w = v.
Proof. rewrite vector_of_F. destruct (Nat.eqb _ _); [discriminate|]. destruct (negb _); [discriminate|]. congruence. Qed.
Lemma as2d_ok (rows : list (list flt)) : rectangular rows -> as2d (N:=FNum) rows = Ok rows.
Proof. intros H. destruct (Verif.Prop.Batch.as2d_spec (N:=FNum) rows) as [(_ & E)|(X & _)]; [exact E|contradiction]. Qed.

(** ** Plane.distance_points_signed and distance_points: the doubles of the single-point methods *)
Theorem C98_plane_distance_points : forall (pl : plane FNum) (qs : list (list flt)) (ds : list flt), rectangular qs -> Forall2 (fun q d => plane_distance_point_signed pl q = Ok d) qs ds ->
  plane_distance_points_signed pl qs = Ok ds /\ plane_distance_points pl qs = Ok (map PrimFloat.abs ds) /\ Forall2 (fun q d => plane_distance_point pl q = Ok d) qs (map PrimFloat.abs ds).
Proof.
  intros pl qs ds Hr F. assert (A : plane_distance_points_signed pl qs = Ok ds).
  { unfold plane_distance_points_signed. rewrite as2d_ok by exact Hr. cbn [bind]. destruct Hr as (k & Ne & _).
    assert (P : forall q d, plane_distance_point_signed pl q = Ok d -> exists o u, bcast (N:=FNum) (nsub (n:=FNum)) q (pl_point pl) = Ok o /\ unit_vec (N:=FNum) (pl_normal pl) = Ok u /\ np_dot (N:=FNum) o u = Ok d).
    { intros q d H. unfold plane_distance_point_signed, from_points in H. destruct (bcast _ q _) as [o| |]; cbn [bind] in H; try discriminate. destruct (vector_of o) as [o'| |] eqn:Eo; cbn [bind] in H; try discriminate. apply vector_of_id in Eo. subst o'. unfold scalar_projection in H. destruct (unit_vec _) as [w| |]; cbn [bind] in H; try discriminate. exists o, w. split; auto. split; auto. apply np_dot_comm. exact H. }
    assert (U : exists u, unit_vec (N:=FNum) (pl_normal pl) = Ok u). { destruct F as [|q d qs ds H F]; [contradiction|]. destruct (P _ _ H) as (_ & u & _ & E & _). eauto. }
    destruct U as (u & Eu). assert (V : exists vs, Forall2 (fun q o => bcast (N:=FNum) (nsub (n:=FNum)) q (pl_point pl) = Ok o) qs vs /\ Forall2 (fun o d => np_dot (N:=FNum) o u = Ok d) vs ds).
    { clear Ne. induction F as [|q d qs ds H F (vs & I1 & I2)]; [exists []; split; constructor|]. destruct (P _ _ H) as (o & u' & E1 & E2 & E3). rewrite Eu in E2. injection E2 as <-. exists (o :: vs). split; constructor; auto. }
    destruct V as (vs & V1 & V2). rewrite (Forall2_mapM _ _ _ V1). cbn [bind]. rewrite Eu. cbn [bind]. exact (Forall2_mapM _ _ _ V2). }
  split; [exact A|]. unfold plane_distance_points. rewrite A. cbn [bind]. split; [reflexivity|]. clear A Hr. induction F as [|q d qs ds H F IH]; cbn [map]; constructor; auto. unfold plane_distance_point. rewrite H. reflexivity.
Qed.
Print Assumptions C98_plane_distance_points.
(** ** Their accuracy *)
Theorem C98_plane_distance_points_accurate : forall (p v : list flt) (qs : list (list flt)) (pl : plane FNum), plane_new (N:=FNum) p v = Ok pl -> qs <> [] -> (Z.of_nat (length p) <= max_dim)%Z ->
  Forall half_moderate p -> Forall (fun q => length q = length p /\ Forall half_moderate q) qs -> Forall moderate v -> bpow radix2 (-400) <= len (map FR v) ->
  exists ds, plane_distance_points_signed pl qs = Ok ds /\ plane_distance_points pl qs = Ok (map PrimFloat.abs ds) /\
    Forall2 (fun q d => finite d /\ Rabs (FR d - dot (sub (map FR q) (map FR p)) (map FR v) / len (map FR v)) <= (2 * INR (length p) + 12) * bpow radix2 (-53) * dist (map FR p) (map FR q) + bpow radix2 (-550)) qs ds.
Proof.
  intros p v qs pl Hpl Ne Ln Hp Hq Hv Kl.
  assert (X : exists ds, Forall2 (fun q d => plane_distance_point_signed pl q = Ok d) qs ds /\ Forall2 (fun q d => finite d /\ Rabs (FR d - dot (sub (map FR q) (map FR p)) (map FR v) / len (map FR v)) <= (2 * INR (length p) + 12) * bpow radix2 (-53) * dist (map FR p) (map FR q) + bpow radix2 (-550)) qs ds).
  { clear Ne. induction Hq as [|q qs (Lq & Mq) Hq (ds & I1 & I2)]; [exists []; split; constructor|]. destruct (C84_plane_distance_signed p v q pl Hpl Lq Ln Hp Mq Hv Kl) as (d & Ed & H). exists (d :: ds). split; constructor; auto. }
  destruct X as (ds & X1 & X2). exists ds. assert (Rq : rectangular qs). { exists (length p). split; [exact Ne|]. eapply Forall_impl; [|exact Hq]. intros q (L & _). exact L. }
  destruct (C98_plane_distance_points pl qs ds Rq X1) as (A1 & A2 & _). auto.
Qed.
Print Assumptions C98_plane_distance_points_accurate.

(** ** Adding the scaled direction to the base point *)
Lemma adds_ok' (w p : list flt) : length w = length p -> Forall half_moderate p -> Forall (fun x => finite x /\ Rabs (FR x) <= bpow radix2 513) w ->
  Forall finite (map2 (N:=FNum) PrimFloat.add w p) /\ length (map2 (N:=FNum) PrimFloat.add w p) = length p /\
  Forall2 (fun y z => Rabs (y - z) <= uro * Rabs z) (map FR (map2 (N:=FNum) PrimFloat.add w p)) (add (map FR p) (map FR w)).
Proof.
  revert p. induction w as [|y w IH]; intros [|x p] L Hp Hw; try discriminate L; cbn [map2 map add length]; [repeat constructor|].
  inversion_clear Hp as [|? ? (Fx & Hx) Hp']. inversion_clear Hw as [|? ? (Fy & Hy) Hw']. destruct (IH p ltac:(simpl in L; lia) Hp' Hw') as (I1 & I2 & I3).
  destruct (fin_add y x Fy Fx) as (F & E).
  { eapply Rle_lt_trans; [apply (rnd_bpow_le _ 514); [lia|]|apply bpow_lt; lia]. eapply Rle_trans; [apply Rabs_triang|]. assert (bpow radix2 499 <= bpow radix2 513) by (apply bpow_le; lia). change 514%Z with (1 + 513)%Z. rewrite bpow_plus. change (bpow radix2 1) with 2. lra. }
  split; [constructor; auto|]. split; [cbn; f_equal; exact I2|]. constructor; auto. rewrite E, (Rplus_comm (FR y)). rewrite (Rplus_comm (FR x)). rewrite Rplus_comm. apply rnd_plus.
Qed.
(** The rounded sum of a base point and an approximate multiple of the direction *)
Lemma near_foot (p w rr : list flt) (f v : pt) (t c tau : R) : length p = length w -> length rr = length p -> length v = length p -> f = add (map FR p) (scale t v) -> 0 < len v -> 0 <= c -> 0 <= tau ->
  Forall2 (fun y x => Rabs (y - t * x) <= c / len v * Rabs x + tau) (map FR w) v ->
  Forall2 (fun y z => Rabs (y - z) <= uro * Rabs z) (map FR rr) (add (map FR p) (map FR w)) -> dist (map FR rr) f <= (1 + uro) * (c + INR (length p) * tau) + uro * len f.
Proof.
  intros Lw Lr Lv Ef Kp Hc Ht Hw Cr. pose proof uro_small as (U & _).
  assert (DW : dist (map FR w) (scale t v) <= c + INR (length p) * tau).
  { unfold dist. eapply Rle_trans; [apply (len_affine (c / len v) tau _ v); [|exact Ht|]|].
    - unfold Rdiv. apply Rmult_le_pos; [exact Hc|left; apply Rinv_0_lt_compat; auto].
    - clear - Hw. generalize dependent (c / len v). intros al Hw. induction Hw as [|y x w' v' H F IH]; [constructor|]. cbn [sub scale map]. constructor; [exact H|exact IH].
    - rewrite Lv. replace (c / len v * len v) with c by (field; lra). lra. }
  assert (LwR : length (map FR w) = length (map FR p)) by (rewrite !map_length; exact (eq_sym Lw)). assert (LrR : length (map FR rr) = length (map FR p)) by (rewrite !map_length; exact Lr). assert (LvR : length v = length (map FR p)) by (rewrite map_length; exact Lv).
  assert (D2 : dist (add (map FR p) (map FR w)) f = dist (map FR w) (scale t v)) by (rewrite Ef; unfold dist; rewrite sub_add_add by lenr; reflexivity).
  assert (D1 : dist (map FR rr) (add (map FR p) (map FR w)) <= uro * len (add (map FR p) (map FR w))).
  { unfold dist. eapply Rle_trans; [apply (len_affine uro 0 _ (add (map FR p) (map FR w))); [lra|lra|]|].
    - clear - Cr. induction Cr as [|y z l m H F IH]; cbn [sub]; constructor; [rewrite Rplus_0_r; exact H|exact IH].
    - lra. }
  assert (Lf : length f = length (map FR p)) by (rewrite Ef; lenr).
  assert (La : len (add (map FR p) (map FR w)) <= dist (add (map FR p) (map FR w)) f + len f).
  { unfold dist. eapply Rle_trans; [|apply len_triangle; lenr]. right. rewrite (add_comm (sub _ f)), add_sub_cancel by lenr. reflexivity. }
  pose proof (dist_triangle (map FR rr) (add (map FR p) (map FR w)) f ltac:(lenr) ltac:(lenr)) as DT. rewrite D2 in *.
  assert (uro * len (add (map FR p) (map FR w)) <= uro * (dist (map FR w) (scale t v) + len f)) by (apply Rmult_le_compat_l; lra). assert (uro * dist (map FR w) (scale t v) <= uro * (c + INR (length p) * tau)) by (apply Rmult_le_compat_l; lra). lra.
Qed.

(** ** Scaling the computed unit vector by the computed scalar projection *)
Lemma scaled_unit (v o u : list flt) (d : flt) : length v = length o -> (Z.of_nat (length v) <= max_dim)%Z -> Forall moderate v -> Forall moderate o -> bpow radix2 (-400) <= len (map FR v) -> unit_vec (N:=FNum) v = Ok u -> np_dot (N:=FNum) u o = Ok d ->
  let c := dot (map FR v) (map FR o) / len (map FR v) in
  Forall2 (fun y x => (finite y /\ Rabs (FR y) <= bpow radix2 513) /\ Rabs (FR y - c * (FR x / len (map FR v))) <= (3 * INR (length v) + 18) * uro * len (map FR o) * (Rabs (FR x) / len (map FR v)) + bpow radix2 (-549)) (vscale (N:=FNum) d u) v.
Proof.
  intros L Ln Hv Ho Kl Eu Ed. cbv zeta. destruct (C73_unit_accurate v Ln Hv Kl) as (u' & Eu' & Hu). rewrite Eu in Eu'. injection Eu' as <-.
  destruct (C84_scalar_projection v o L Ln Hv Ho Kl) as (d' & Ed' & Fd & Hd). unfold scalar_projection in Ed'. rewrite Eu in Ed'. cbn [bind] in Ed'. rewrite Ed in Ed'. injection Ed' as <-.
  assert (Ln' : (Z.of_nat (length o) <= max_dim)%Z) by (rewrite <- L; auto). pose proof (len_510 o Ln' Ho) as M5. pose proof (cauchy_schwarz (map FR v) (map FR o) ltac:(rewrite !map_length; auto)) as CS.
  assert (CO : forall x, In x v -> Rabs (FR x) <= len (map FR v)) by (intros x Hx; apply coord_le, in_map; auto).
  fold uro eta in *. set (K := len (map FR v)) in *. assert (Kp : 0 < K) by (eapply Rlt_le_trans; [apply bpow_gt_0|exact Kl]). set (M := len (map FR o)) in *. assert (Mp : 0 <= M) by apply len_nonneg. set (D := dot (map FR v) (map FR o)) in *. set (c := D / K) in *. set (n := INR (length v)) in *.
  assert (Hc : Rabs c <= M). { unfold c, Rdiv. rewrite Rabs_mult, Rabs_inv, (Rabs_pos_eq K) by lra. apply Rmult_le_reg_r with K; auto. rewrite Rmult_assoc, Rinv_l, Rmult_1_r by lra. lra. }
  pose proof uro_small as (U1 & U2). pose proof (pos_INR (length v)) as Pn. fold n in Pn. pose proof (ndim_small (length v) 6 Ln ltac:(lia)) as S6. fold n in S6. pose proof (sq_small (length v) 6 6 Ln ltac:(lia) ltac:(lia)) as Q66. fold n in Q66.
  assert (B30 : bpow radix2 (-30) <= / 1024) by (replace (/ 1024) with (bpow radix2 (-10)) by (simpl; lra); apply bpow_le; lia).
  set (k := (n + 6) * uro) in *. assert (k0 : 0 <= k) by (unfold k; apply Rmult_le_pos; lra). assert (k1 : k <= / 1024) by lra.
  set (T1 := bpow radix2 (-550)) in *. assert (T0 : 0 < T1) by apply bpow_gt_0. assert (T49 : bpow radix2 (-549) = 2 * T1) by (change (-549)%Z with (1 + -550)%Z; rewrite bpow_plus; reflexivity).
  set (E := (2 * n + 10) * uro * M + T1) in *. assert (a10 : 0 <= (2 * n + 10) * uro) by (apply Rmult_le_pos; lra). assert (a11 : (2 * n + 10) * uro <= 2 * k) by (unfold k; lra). assert (E0 : 0 <= E) by (unfold E; apply Rplus_le_le_0_compat; [apply Rmult_le_pos|]; lra). assert (eta0 : 0 <= eta) by apply bpow_ge_0.
  assert (E2 : E <= 2 * k * M + T1) by (unfold E; apply Rplus_le_compat_r; apply Rmult_le_compat_r; auto).
  assert (kM : k * M <= / 1024 * M) by (apply Rmult_le_compat_r; auto).
  assert (Me : M * eta <= / 64 * T1). { apply Rle_trans with (bpow radix2 510 * eta); [apply Rmult_le_compat_r; auto|]. unfold eta, T1. rewrite <- bpow_plus. replace (/ 64) with (bpow radix2 (-6)) by (simpl; lra). rewrite <- bpow_plus. apply bpow_le. lia. }
  assert (ee : eta <= / 64 * T1). { unfold eta, T1. replace (/ 64) with (bpow radix2 (-6)) by (simpl; lra). rewrite <- bpow_plus. apply bpow_le. lia. }
  assert (eta1 : eta <= / 1024) by (replace (/ 1024) with (bpow radix2 (-10)) by (simpl; lra); apply bpow_le; lia).
  assert (T1s : T1 <= 1) by (change 1 with (bpow radix2 0); apply bpow_le; lia). assert (b510 : 1 <= bpow radix2 510) by (change 1 with (bpow radix2 0); apply bpow_le; lia).
  assert (b513 : bpow radix2 513 = 8 * bpow radix2 510) by (change 513%Z with (3 + 510)%Z; rewrite bpow_plus; reflexivity).
  clear Ed Eu. unfold vscale. change (nmul (n:=FNum)) with PrimFloat.mul. clear L. assert (G : forall x, In x v -> In x v) by auto. revert Hu G. generalize u. generalize v at 1 2 4 as l. 
  induction l as [|x l IH]; intros w Hw G; inversion_clear Hw as [|y ? w' ? (Fy & Hy) Hw']; cbn [map]; constructor; [|apply IH; [exact Hw'|intros; apply G; right; auto]].
  pose proof (CO x (G x (or_introl eq_refl))) as Cx. set (r := FR x / K) in *. assert (r1 : Rabs (FR x) / K = Rabs r) by (unfold r, Rdiv; rewrite Rabs_mult, Rabs_inv, (Rabs_pos_eq K) by lra; reflexivity). assert (r2 : Rabs r <= 1). { rewrite <- r1. apply Rmult_le_reg_r with K; auto. unfold Rdiv. rewrite Rmult_assoc, Rinv_l by lra. lra. }
  rewrite r1 in *. pose proof (Rabs_pos r) as r0. set (q := Rabs r) in *. set (dl := FR y - r) in *. set (ep := FR d - c) in *.
  assert (P : FR d * FR y - c * r = ep * r + c * dl + ep * dl) by (unfold ep, dl; ring).
  assert (H1 : Rabs (ep * r) <= E * q) by (rewrite Rabs_mult; apply Rmult_le_compat; auto; try apply Rabs_pos; apply Rle_refl).
  assert (H2 : Rabs (c * dl) <= M * (k * q + eta)) by (rewrite Rabs_mult; apply Rmult_le_compat; auto; apply Rabs_pos).
  assert (H3 : Rabs (ep * dl) <= E * (k * q + eta)) by (rewrite Rabs_mult; apply Rmult_le_compat; auto; apply Rabs_pos).
  assert (kq : 0 <= k * q <= / 1024 * q) by (split; [apply Rmult_le_pos; auto|apply Rmult_le_compat_r; auto]).
  assert (uM : 0 <= uro * M) by (apply Rmult_le_pos; lra). assert (uMq : 0 <= uro * M * q) by (apply Rmult_le_pos; auto).
  (* the product of the two errors *)
  assert (H3a : (2 * n + 10) * uro * M * (k * q) <= / 64 * uro * M * q). { apply Rle_trans with (2 * (k * k) * M * q); [|apply Rmult_le_compat_r; auto; apply Rmult_le_compat_r; auto; lra]. replace ((2 * n + 10) * uro * M * (k * q)) with ((2 * n + 10) * uro * k * M * q) by ring. apply Rmult_le_compat_r; auto. apply Rmult_le_compat_r; auto. replace (2 * (k * k)) with (2 * k * k) by ring. apply Rmult_le_compat_r; auto. }
  assert (H3b : T1 * (k * q) <= / 1024 * T1). { replace (/ 1024 * T1) with (T1 * / 1024) by ring. apply Rmult_le_compat_l; lra. }
  assert (H3c : (2 * n + 10) * uro * (M * eta) <= / 512 * (M * eta)) by (apply Rmult_le_compat_r; [apply Rmult_le_pos; auto|lra]).
  assert (H3d : T1 * eta <= T1 * / 1024) by (apply Rmult_le_compat_l; lra).
  assert (H1b : T1 * q <= T1 * 1) by (apply Rmult_le_compat_l; lra).
  assert (Me0 : 0 <= M * eta) by (apply Rmult_le_pos; auto).
  assert (S : Rabs (FR d * FR y - c * r) <= ((3 * n + 16) * uro + / 64 * uro) * M * q + (1 + / 32) * T1).
  { rewrite P. eapply Rle_trans; [apply Rabs_triang|]. eapply Rle_trans; [apply Rplus_le_compat_r, Rabs_triang|]. unfold E in H1, H3. unfold k in H2 at 1. lra. }
  assert (A1 : Rabs (FR d * FR y) <= M * q + ((3 * n + 16) * uro + / 64 * uro) * M * q + (1 + / 32) * T1).
  { pose proof (Rabs_triang (FR d * FR y - c * r) (c * r)) as T. replace (FR d * FR y - c * r + c * r) with (FR d * FR y) in T by ring. rewrite (Rabs_mult c r) in T. fold q in T. assert (Rabs c * q <= M * q) by (apply Rmult_le_compat_r; auto). lra. }
  assert (cf : 0 <= (3 * n + 16) * uro + / 64 * uro <= / 256) by (split; [apply Rplus_le_le_0_compat; [apply Rmult_le_pos|]; lra|unfold k in k1; lra]).
  assert (Mq : 0 <= M * q) by (apply Rmult_le_pos; auto). assert (Mq1 : M * q <= M * 1) by (apply Rmult_le_compat_l; auto).
  assert (A2 : ((3 * n + 16) * uro + / 64 * uro) * M * q <= / 256 * (M * q)) by (rewrite Rmult_assoc; apply Rmult_le_compat_r; lra).
  assert (A3 : Rabs (FR d * FR y) <= (1 + / 256) * (M * q) + (1 + / 32) * T1) by lra.
  destruct (fin_mul d y Fd Fy) as (F & Ey). { eapply Rle_lt_trans; [apply (rnd_bpow_le _ 512); [lia|]|apply bpow_lt; lia]. assert (bpow radix2 512 = 4 * bpow radix2 510) by (change 512%Z with (2 + 510)%Z; rewrite bpow_plus; reflexivity). lra. }
  pose proof (rnd_err (FR d * FR y)) as R1. rewrite <- Ey in R1. set (z := (d * y)%float) in *.
  assert (UA : uro * Rabs (FR d * FR y) <= uro * ((1 + / 256) * (M * q) + (1 + / 32) * T1)) by (apply Rmult_le_compat_l; lra). assert (UT : uro * T1 <= / 1024 * T1) by (apply Rmult_le_compat_r; lra).
  assert (UMq : uro * (M * q) <= / 1024 * (M * q)) by (apply Rmult_le_compat_r; lra).
  split; [split; [exact F|]|].
  - pose proof (Rabs_triang (FR z - FR d * FR y) (FR d * FR y)) as T. replace (FR z - FR d * FR y + FR d * FR y) with (FR z) in T by ring. lra.
  - pose proof (Rabs_triang (FR z - FR d * FR y) (FR d * FR y - c * r)) as T. replace (FR z - FR d * FR y + (FR d * FR y - c * r)) with (FR z - c * r) in T by ring. lra.
Qed.
Lemma unit_exists (v : list flt) : (Z.of_nat (length v) <= max_dim)%Z -> Forall moderate v -> bpow radix2 (-400) <= len (map FR v) -> exists u, unit_vec (N:=FNum) v = Ok u /\ length u = length v.
Proof. intros Ln Hv Kl. destruct (C73_unit_accurate v Ln Hv Kl) as (u & Eu & Hu). exists u. split; [exact Eu|exact (Forall2_len _ _ _ Hu)]. Qed.
(** One row of the batch projections *)
Lemma batch_foot (p v q u : list flt) : p <> [] -> length v = length p -> length q = length p -> (Z.of_nat (length p) <= max_dim)%Z ->
  Forall half_moderate p -> Forall half_moderate q -> Forall moderate v -> bpow radix2 (-400) <= len (map FR v) -> unit_vec (N:=FNum) v = Ok u -> length u = length v ->
  exists o d r, bcast (N:=FNum) (nsub (n:=FNum)) q p = Ok o /\ np_dot (N:=FNum) o u = Ok d /\ bcast (N:=FNum) (nadd (n:=FNum)) (vscale (N:=FNum) d u) p = Ok r /\ Forall finite r /\ length r = length p /\
    forall f, on_line (map FR p) (map FR v) f -> dot (sub (map FR q) f) (map FR v) = 0 ->
    dist (map FR r) f <= (3 * INR (length p) + 20) * bpow radix2 (-53) * dist (map FR p) (map FR q) + bpow radix2 (-53) * len f + bpow radix2 (-528).
Proof.
  intros Np Lv Lq Ln Hp Hq Hv Kl Eu Lu. destruct (from_points_F p q Np (eq_sym Lq) Hp Hq) as (_ & Lo & Mo & Fo). set (o := map2 (N:=FNum) PrimFloat.sub q p) in *. exists o.
  assert (Lvo : length v = length o) by (exact (eq_trans Lv (eq_sym Lo))). assert (Lnv : (Z.of_nat (length v) <= max_dim)%Z) by (rewrite Lv; auto). assert (Luo : length u = length o) by (exact (eq_trans Lu Lvo)).
  assert (Ed : np_dot (N:=FNum) u o = Ok (dot_raw (N:=FNum) u o)) by (apply np_dot_F; exact Luo). set (d := dot_raw (N:=FNum) u o) in *. exists d.
  pose proof (scaled_unit v o u d Lvo Lnv Hv Mo Kl Eu Ed) as Hw. cbv zeta in Hw. set (w := vscale (N:=FNum) d u) in *. assert (Lw : length w = length p) by (exact (eq_trans (Forall2_len _ _ _ Hw) Lv)).
  destruct (adds_ok' w p Lw Hp (Forall2_left _ _ _ _ Hw)) as (Fr & Lr & Cr). exists (map2 (N:=FNum) PrimFloat.add w p). set (rr := map2 (N:=FNum) PrimFloat.add w p) in *.
  split; [apply bcast_F; exact Lq|]. split; [apply np_dot_comm; exact Ed|]. split; [apply bcast_F; exact Lw|]. split; [exact Fr|]. split; [exact Lr|]. intros f (t & Ef) Hf.
  pose proof (dot_rel (sub (map FR q) (map FR p)) (map FR o) (map FR v) ltac:(len) Fo) as DR. pose proof (len_rel _ _ Fo) as LR. rewrite Lv in Hw.
  assert (Et : t = dot (map FR v) (sub (map FR q) (map FR p)) / (len (map FR v) * len (map FR v))).
  { rewrite len_sq. assert (NZ : dot (map FR v) (map FR v) <> 0). { rewrite <- len_sq. assert (0 < len (map FR v)) by (eapply Rlt_le_trans; [apply bpow_gt_0|exact Kl]). nra. }
    rewrite Ef, (dot_comm _ (map FR v)), dot_sub_r, dot_add_r, dot_scale_r in Hf by len. rewrite dot_sub_r by len. field_simplify_eq; auto. lra. }
  rewrite (dist_sym (map FR p)). change (dist (map FR q) (map FR p)) with (len (sub (map FR q) (map FR p))).
  assert (Kp : 0 < len (map FR v)) by (eapply Rlt_le_trans; [apply bpow_gt_0|exact Kl]). fold uro in *.
  set (M := len (sub (map FR q) (map FR p))) in *. assert (M0 : 0 <= M) by apply len_nonneg. set (n := INR (length p)) in *. pose proof (pos_INR (length p)) as Pn. fold n in Pn. pose proof uro_small as (U & U').
  pose proof (n_uro_small (length p) 10 M Ln ltac:(lia) M0) as NS. fold n in NS. pose proof (ndim_small (length p) 10 Ln ltac:(lia)) as S10. fold n in S10. assert (B30 : bpow radix2 (-30) <= / 2048) by (replace (/ 2048) with (bpow radix2 (-11)) by (simpl; lra); apply bpow_le; lia).
  assert (UM : 0 <= uro * M) by (apply Rmult_le_pos; lra).
  assert (Lp : INR (length p) * bpow radix2 (-549) <= bpow radix2 (-529)). { change (-529)%Z with (20 + -549)%Z. rewrite bpow_plus. apply Rmult_le_compat_r; [apply bpow_ge_0|]. rewrite INR_IZR_INZ. change (bpow radix2 20) with (IZR (2 ^ 20)). apply IZR_le. exact Ln. }
  fold n in Lp. eapply Rle_trans; [apply (near_foot p w rr f (map FR v) t ((3 * n + 19) * uro * M + / 16 * (uro * M)) (bpow radix2 (-549))); auto|].
  - rewrite map_length. exact Lv.
  - apply Rplus_le_le_0_compat; [|lra]. apply Rmult_le_pos; auto. apply Rmult_le_pos; lra.
  - apply bpow_ge_0.
  - set (K := len (map FR v)) in *. set (D := dot (map FR v) (sub (map FR q) (map FR p))) in *. set (D' := dot (map FR v) (map FR o)) in *. set (M' := len (map FR o)) in *.
    assert (A : Forall2 (fun y x : flt => Rabs (FR y - t * FR x) <= ((3 * n + 19) * uro * M + / 16 * (uro * M)) / K * Rabs (FR x) + bpow radix2 (-549)) w v).
    { eapply Forall2_weaken; [|exact Hw]. intros y x _ _ (_ & H). cbv beta in H |- *. set (r := FR x / K) in *. assert (Er : FR x = r * K) by (unfold r; field; lra). assert (r1 : Rabs (FR x) / K = Rabs r) by (unfold r, Rdiv; rewrite Rabs_mult, Rabs_inv, (Rabs_pos_eq K) by lra; reflexivity). rewrite r1 in H.
      replace (((3 * n + 19) * uro * M + / 16 * (uro * M)) / K * Rabs (FR x)) with (((3 * n + 19) * uro * M + / 16 * (uro * M)) * Rabs r) by (rewrite <- r1; field; lra). pose proof (Rabs_pos r) as r0.
      assert (E1 : Rabs (D' / K * r - t * FR x) <= uro * M * Rabs r).
      { rewrite Et, Er. replace (D' / K * r - D / (K * K) * (r * K)) with ((D' - D) / K * r) by (field; lra). rewrite Rabs_mult. apply Rmult_le_compat_r; auto. unfold Rdiv. rewrite Rabs_mult, Rabs_inv, (Rabs_pos_eq K) by lra. apply Rmult_le_reg_r with K; auto. rewrite Rmult_assoc, Rinv_l by lra. lra. }
      assert (E2 : (3 * n + 18) * uro * M' <= (3 * n + 18) * uro * ((1 + uro) * M)) by (apply Rmult_le_compat_l; [apply Rmult_le_pos; lra|exact LR]).
      assert (E2b : (3 * n + 18) * uro * (uro * M) <= 2 * ((2 * n + 10) * uro * (uro * M))). { replace (2 * ((2 * n + 10) * uro * (uro * M))) with ((4 * n + 20) * (uro * (uro * M))) by ring. replace ((3 * n + 18) * uro * (uro * M)) with ((3 * n + 18) * (uro * (uro * M))) by ring. apply Rmult_le_compat_r; [apply Rmult_le_pos; lra|lra]. }
      assert (E3 : (3 * n + 18) * uro * M' * Rabs r <= ((3 * n + 18) * uro * M + / 16 * (uro * M)) * Rabs r) by (apply Rmult_le_compat_r; auto; lra).
      pose proof (Rabs_triang (FR y - D' / K * r) (D' / K * r - t * FR x)) as T. replace (FR y - D' / K * r + (D' / K * r - t * FR x)) with (FR y - t * FR x) in T by ring. lra. }
    exact (Forall2_map2 FR FR (fun a b => Rabs (a - t * b) <= ((3 * n + 19) * uro * M + / 16 * (uro * M)) / K * Rabs b + bpow radix2 (-549)) w v A).
  - fold n. pose proof (bpow_gt_0 radix2 (-529)) as B529. assert (B528 : bpow radix2 (-528) = 2 * bpow radix2 (-529)) by (change (-528)%Z with (1 + -529)%Z; rewrite bpow_plus; reflexivity).
    assert (E4 : (3 * n + 19) * uro <= / 512). { assert (2 * n * uro + 10 * uro <= / 1024) by lra. lra. }
    assert (E5 : uro * ((3 * n + 19) * uro * M) <= / 512 * (uro * M)). { replace (uro * ((3 * n + 19) * uro * M)) with ((3 * n + 19) * uro * (uro * M)) by ring. apply Rmult_le_compat_r; auto. }
    assert (E6 : uro * (/ 16 * (uro * M)) <= / 1024 * (uro * M)). { replace (uro * (/ 16 * (uro * M))) with (/ 16 * uro * (uro * M)) by ring. apply Rmult_le_compat_r; auto. lra. }
    assert (E7 : uro * (n * bpow radix2 (-549)) <= / 1024 * bpow radix2 (-529)) by (apply Rmult_le_compat; try lra; apply Rmult_le_pos; [lra|apply bpow_ge_0]). lra.
Qed.

(** ** Line.project_points *)
(** Every row is close to the foot of the perpendicular from the corresponding point. *)
Definition near_line_foot (p v q r : list flt) : Prop := Forall finite r /\ length r = length p /\
  forall f, on_line (map FR p) (map FR v) f -> dot (sub (map FR q) f) (map FR v) = 0 ->
  dist (map FR r) f <= (3 * INR (length p) + 20) * bpow radix2 (-53) * dist (map FR p) (map FR q) + bpow radix2 (-53) * len f + bpow radix2 (-528).
Theorem C98_line_project_points : forall (p v : list flt) (qs : list (list flt)) (l : line FNum), line_new (N:=FNum) p v = Ok l -> qs <> [] -> (Z.of_nat (length p) <= max_dim)%Z ->
  Forall half_moderate p -> Forall (fun q => length q = length p /\ Forall half_moderate q) qs -> Forall moderate v -> bpow radix2 (-400) <= len (map FR v) ->
  exists rs, line_project_points l qs = Ok rs /\ Forall2 (near_line_foot p v) qs rs.
Proof.
  intros p v qs l Hl Ne Ln Hp Hq Hv Kl. apply line_new_F in Hl as (-> & Np & Lv). assert (Lnv : (Z.of_nat (length v) <= max_dim)%Z) by (rewrite Lv; auto). destruct (unit_exists v Lnv Hv Kl) as (u & Eu & Lu).
  assert (Rq : rectangular qs). { exists (length p). split; [exact Ne|]. eapply Forall_impl; [|exact Hq]. intros q (L & _). exact L. }
  assert (X : exists os ds rs, Forall2 (fun q o => bcast (N:=FNum) (nsub (n:=FNum)) q p = Ok o) qs os /\ Forall2 (fun o d => np_dot (N:=FNum) o u = Ok d) os ds /\ Forall2 (fun d r => bcast (N:=FNum) (nadd (n:=FNum)) (vscale (N:=FNum) d u) p = Ok r) ds rs /\ Forall2 (near_line_foot p v) qs rs).
  { clear Ne Rq. induction Hq as [|q qs (Lq & Mq) Hq (os & ds & rs & I1 & I2 & I3 & I4)]; [exists [], [], []; repeat split; constructor|]. destruct (batch_foot p v q u Np Lv Lq Ln Hp Mq Hv Kl Eu Lu) as (o & d & r & E1 & E2 & E3 & E4 & E5 & E6). exists (o :: os), (d :: ds), (r :: rs). split; [constructor; auto|]. split; [constructor; auto|]. split; [constructor; auto|]. constructor; auto. split; auto. }
  destruct X as (os & ds & rs & X1 & X2 & X3 & X4). exists rs. split; [|exact X4]. unfold line_project_points. rewrite as2d_ok by exact Rq. cbn [bind l_point l_dir]. rewrite (Forall2_mapM _ _ _ X1). cbn [bind]. rewrite Eu. cbn [bind]. rewrite (Forall2_mapM _ _ _ X2). cbn [bind]. rewrite (Forall2_mapM _ _ _ X3). cbn [bind].
  apply (points_of_ok rs (length p)).
  - intro E. subst rs. inversion X4; subst; contradiction.
  - destruct p; [contradiction|simpl; lia].
  - clear - X4. induction X4 as [|q r qs rs (_ & H & _) F IH]; constructor; auto.
  - clear - X4. induction X4 as [|q r qs rs (H & _) F IH]; constructor; auto.
Qed.
Print Assumptions C98_line_project_points.

(** ** Line.distance_points *)
Lemma foot_exists (p v q : pt) : length v = length p -> length q = length p -> 0 < len v -> exists f, on_line p v f /\ dot (sub q f) v = 0.
Proof.
  intros Lv Lq Kp. exists (add p (scale (dot v (sub q p) / dot v v) v)). split; [eexists; reflexivity|]. assert (NZ : dot v v <> 0) by (rewrite <- len_sq; nra).
  rewrite (dot_comm _ v), dot_sub_r, dot_add_r, dot_scale_r, dot_sub_r by lenr. field. exact NZ.
Qed.
Definition near_line_distance (p v q : list flt) (d : flt) : Prop := finite d /\ 0 <= FR d /\
  forall f, on_line (map FR p) (map FR v) f -> dot (sub (map FR q) f) (map FR v) = 0 ->
  Rabs (FR d - dist (map FR q) f) <= (4 * INR (length p) + 30) * bpow radix2 (-53) * (dist (map FR p) (map FR q) + len (map FR p)) + bpow radix2 (-510).
Lemma batch_distance (p v q r : list flt) : p <> [] -> length v = length p -> length q = length p -> (Z.of_nat (length p) <= max_dim)%Z -> Forall tame p -> Forall tame q -> 0 < len (map FR v) -> near_line_foot p v q r ->
  exists e, bcast (N:=FNum) (nsub (n:=FNum)) q r = Ok e /\ near_line_distance p v q (norm_raw (N:=FNum) e).
Proof.
  intros Np Lv Lq Ln Hp Hq Kp (Fr & Lr & D). assert (LvR : length (map FR v) = length (map FR p)) by (rewrite !map_length; exact Lv). assert (LqR : length (map FR q) = length (map FR p)) by (rewrite !map_length; exact Lq).
  assert (LrR : length (map FR r) = length (map FR p)) by (rewrite !map_length; exact Lr).
  assert (Lnq : (Z.of_nat (length q) <= max_dim)%Z) by (rewrite Lq; auto). pose proof (len_410 p Ln Hp) as P4. pose proof (len_410 q Lnq Hq) as Q4.
  assert (DQ : dist (map FR p) (map FR q) <= len (map FR p) + len (map FR q)).
  { unfold dist. rewrite sub_scale by (symmetry; exact LqR). eapply Rle_trans; [apply len_triangle; lenr|]. rewrite len_scale. rewrite Rabs_left by lra. lra. }
  fold uro in *. set (M := dist (map FR p) (map FR q)) in *. assert (M0 : 0 <= M) by apply len_nonneg. set (P := len (map FR p)) in *. assert (P0 : 0 <= P) by apply len_nonneg. pose proof uro_small as (U & U').
  set (n := INR (length p)) in *. pose proof (pos_INR (length p)) as Pn. fold n in Pn. pose proof (ndim_small (length p) 20 Ln ltac:(lia)) as S20. fold n in S20.
  assert (B30 : bpow radix2 (-30) <= / 2048) by (replace (/ 2048) with (bpow radix2 (-11)) by (simpl; lra); apply bpow_le; lia). assert (B528 : bpow radix2 (-528) <= 1) by (change 1 with (bpow radix2 0); apply bpow_le; lia).
  assert (NU : (3 * n + 20) * uro <= / 512) by lra. assert (NUM : (3 * n + 20) * uro * M <= / 512 * M) by (apply Rmult_le_compat_r; auto).
  destruct (foot_exists (map FR p) (map FR v) (map FR q) LvR LqR Kp) as (f0 & Of0 & Hf0). destruct (foot_near (map FR p) (map FR v) (map FR q) f0 LvR LqR Of0 Hf0) as (N1 & Lf0 & N2). fold M P in N1, N2. pose proof (D f0 Of0 Hf0) as D0. pose proof (len_nonneg f0) as F0.
  assert (UF0 : uro * len f0 <= / 1024 * len f0) by (apply Rmult_le_compat_r; auto).
  assert (Mr : Forall moderate r).
  { rewrite Forall_forall in Fr |- *. intros x Hx. split; auto. eapply Rle_trans; [apply coord_le, in_map; exact Hx|].
    assert (len (map FR r) <= dist (map FR r) f0 + len f0). { unfold dist. eapply Rle_trans; [|apply len_triangle; lenr]. right. rewrite (add_comm (sub _ f0)), add_sub_cancel by lenr. reflexivity. }
    assert (B : bpow radix2 423 <= bpow radix2 500) by (apply bpow_le; lia). change 423%Z with (3 + 420)%Z in B. rewrite bpow_plus in B. change (bpow radix2 3) with 8 in B. assert (1 <= bpow radix2 420) by (change 1 with (bpow radix2 0); apply bpow_le; lia). lra. }
  assert (Nr : r <> []) by (intro E; rewrite E in Lr; destruct p; [contradiction|discriminate Lr]). assert (Lrq : length r = length q) by exact (eq_trans Lr (eq_sym Lq)).
  assert (Lr' : @length flt r = @length flt p) by exact Lr. assert (Lnr : (Z.of_nat (@length flt r) <= max_dim)%Z) by (rewrite Lr'; auto).
  destruct (C73_distance_accurate r q Nr Lrq Lnr Mr (half_moderate_m _ (tame_half _ Hq))) as (d & Ed & Fd & Hd).
  assert (Ee : bcast (N:=FNum) (nsub (n:=FNum)) q r = Ok (map2 (N:=FNum) PrimFloat.sub q r)) by (apply bcast_F; exact (eq_sym Lrq)). exists (map2 (N:=FNum) PrimFloat.sub q r). split; [exact Ee|].
  assert (Ed' : d = norm_raw (N:=FNum) (map2 (N:=FNum) PrimFloat.sub q r)). { unfold distance_point, from_points in Ed. rewrite Ee in Ed. cbn [bind] in Ed. destruct (vector_of _) as [w| |] eqn:Ew; cbn [bind] in Ed; try discriminate. apply vector_of_id in Ew. subst w. unfold norm in Ed. injection Ed as <-. reflexivity. }
  rewrite <- Ed'. split; [exact Fd|]. split.
  { rewrite Ed' in *. change (norm_raw (N:=FNum) (map2 (N:=FNum) PrimFloat.sub q r)) with (PrimFloat.sqrt (dot_raw (N:=FNum) (map2 (N:=FNum) PrimFloat.sub q r) (map2 (N:=FNum) PrimFloat.sub q r))) in *. apply finite_not_nan in Fd as Nd. pose proof (sqrt_nonneg_F _ Nd) as H. apply (leb_F _ _ (proj2 zero_F) Fd) in H. rewrite (proj1 zero_F) in H. exact H. }
  clear Ed' Ed Ee. rewrite Lr' in Hd. fold n in Hd. intros f Of Hf. destruct (foot_near (map FR p) (map FR v) (map FR q) f LvR LqR Of Hf) as (N1' & Lf & N2'). pose proof (D f Of Hf) as E1. clear N1 N2 UF0 D0 F0 Hf0 Of0 Lf0 D. pose proof (len_nonneg f) as F0. fold uro in *. fold M P n in E1, N1', N2' |- *.
  assert (UF : uro * len f <= uro * (P + M)) by (apply Rmult_le_compat_l; lra). rewrite (dist_sym (map FR q) f).
  pose proof (dist_triangle (map FR r) f (map FR q) ltac:(lenr) ltac:(lenr)) as T1. pose proof (dist_triangle f (map FR r) (map FR q) ltac:(lenr) ltac:(lenr)) as T2. rewrite (dist_sym f (map FR r)) in T2.
  set (E := dist (map FR r) f) in *. set (G := dist (map FR r) (map FR q)) in *. set (H := dist f (map FR q)) in *. assert (E0 : 0 <= E) by apply len_nonneg. assert (G0 : 0 <= G) by apply len_nonneg.
  assert (NS : 0 <= (n + 5) * uro <= / 1024) by (split; [apply Rmult_le_pos; lra|lra]).
  assert (X1 : (n + 5) * uro * G <= (n + 5) * uro * (E + M)) by (apply Rmult_le_compat_l; lra).
  assert (UM : 0 <= uro * M) by (apply Rmult_le_pos; lra). assert (UP : 0 <= uro * P) by (apply Rmult_le_pos; lra).
  assert (X4 : (n + 5) * uro * E <= (n + 5) * uro * ((3 * n + 20) * uro * M + uro * (P + M) + bpow radix2 (-528))) by (apply Rmult_le_compat_l; lra).
  assert (X5 : (n + 5) * uro * ((3 * n + 20) * uro) <= / 16 * uro). { pose proof (sq_small (length p) 5 7 Ln ltac:(lia) ltac:(lia)) as Q. fold n in Q. assert (0 <= uro * uro) by (apply Rmult_le_pos; lra). assert (0 <= n * (uro * uro)) by (apply Rmult_le_pos; lra). lra. }
  assert (X6 : (n + 5) * uro * ((3 * n + 20) * uro * M) <= / 16 * uro * M) by (rewrite <- Rmult_assoc; apply Rmult_le_compat_r; auto).
  assert (X7 : (n + 5) * uro * (uro * (P + M)) <= / 1024 * (uro * (P + M))) by (apply Rmult_le_compat_r; lra).
  assert (B1 : bpow radix2 (-520) = 256 * bpow radix2 (-528)) by (change (-520)%Z with (8 + -528)%Z; rewrite bpow_plus; reflexivity). assert (B2 : bpow radix2 (-510) = 1024 * bpow radix2 (-520)) by (change (-510)%Z with (10 + -520)%Z; rewrite bpow_plus; reflexivity). pose proof (bpow_gt_0 radix2 (-528)) as B3.
  assert (X8 : (n + 5) * uro * bpow radix2 (-528) <= / 1024 * bpow radix2 (-528)) by (apply Rmult_le_compat_r; lra).
  assert (NP : 0 <= (4 * n + 28) * uro * P) by (apply Rmult_le_pos; [apply Rmult_le_pos|]; lra).
  apply Rabs_le. apply Rabs_le_inv in Hd. lra.
Qed.
Theorem C98_line_distance_points : forall (p v : list flt) (qs : list (list flt)) (l : line FNum), line_new (N:=FNum) p v = Ok l -> qs <> [] -> (Z.of_nat (length p) <= max_dim)%Z ->
  Forall tame p -> Forall (fun q => length q = length p /\ Forall tame q) qs -> Forall moderate v -> bpow radix2 (-400) <= len (map FR v) ->
  exists ds, line_distance_points l qs = Ok ds /\ Forall2 (near_line_distance p v) qs ds.
Proof.
  intros p v qs l Hl Ne Ln Hp Hq Hv Kl. assert (Hq' : Forall (fun q => length q = length p /\ Forall half_moderate q) qs) by (eapply Forall_impl; [|exact Hq]; intros q (A & B); split; [exact A|apply tame_half; exact B]).
  destruct (C98_line_project_points p v qs l Hl Ne Ln (tame_half _ Hp) Hq' Hv Kl) as (rs & Er & F). destruct (line_new_F p v l Hl) as (_ & Np & Lv). assert (Kp : 0 < len (map FR v)) by (eapply Rlt_le_trans; [apply bpow_gt_0|exact Kl]).
  assert (X : exists es, Forall2 (fun pr e => bcast (N:=FNum) (nsub (n:=FNum)) (fst pr) (snd pr) = Ok e) (combine qs rs) es /\ Forall2 (near_line_distance p v) qs (map (norm_raw (N:=FNum)) es)).
  { clear Ne Er Hq'. induction F as [|q r qs rs H F IH]; [exists []; split; constructor|]. inversion_clear Hq as [|? ? (Lq & Tq) Hq']. destruct (IH Hq') as (es & I1 & I2). destruct (batch_distance p v q r Np Lv Lq Ln Hp Tq Kp H) as (e & E1 & E2). exists (e :: es). split; constructor; auto. }
  destruct X as (es & X1 & X2). exists (map (norm_raw (N:=FNum)) es). split; [|exact X2]. unfold line_distance_points. rewrite Er. cbn [bind]. unfold bpairs. assert (Lqr : length qs = length rs) by exact (Forall2_len _ _ _ F).
  assert (Eqb : Nat.eqb (length qs) (length rs) = true) by (apply Nat.eqb_eq; exact Lqr). refine (eq_trans (f_equal (fun b : bool => bind (if b then _ else _) _) Eqb) _). cbn [bind].
  refine (eq_trans (f_equal (fun z => bind z (fun ds => Ok (map (norm_raw (N:=FNum)) ds))) (Forall2_mapM (fun pr => bcast (N:=FNum) (nsub (n:=FNum)) (fst pr) (snd pr)) (combine qs rs) es X1)) _). reflexivity.
Qed.
Print Assumptions C98_line_distance_points.

(** ** Plane.project_points *)
Definition near_plane_foot (p v q r : list flt) : Prop := Forall finite r /\ length r = length p /\
  forall f, on_plane (map FR p) (map FR v) f -> on_line (map FR q) (map FR v) f ->
  dist (map FR r) f <= (3 * INR (length p) + 20) * bpow radix2 (-53) * dist (map FR p) (map FR q) + bpow radix2 (-53) * len f + bpow radix2 (-528).
Theorem C98_plane_project_points : forall (p v : list flt) (qs : list (list flt)) (pl : plane FNum), plane_new (N:=FNum) p v = Ok pl -> qs <> [] -> (Z.of_nat (length p) <= max_dim)%Z ->
  Forall half_moderate p -> Forall (fun q => length q = length p /\ Forall half_moderate q) qs -> Forall moderate v -> bpow radix2 (-400) <= len (map FR v) ->
  exists rs, plane_project_points pl qs = Ok rs /\ Forall2 (near_plane_foot p v) qs rs.
Proof.
  intros p v qs pl Hl Ne Ln Hp Hq Hv Kl. apply plane_new_F in Hl as (-> & Np & Lv). assert (Lnv : (Z.of_nat (length v) <= max_dim)%Z) by (rewrite Lv; auto). destruct (unit_exists v Lnv Hv Kl) as (u & Eu & Lu).
  assert (Rq : rectangular qs). { exists (length p). split; [exact Ne|]. eapply Forall_impl; [|exact Hq]. intros q (L & _). exact L. }
  assert (X : exists os ds rs, Forall2 (fun q o => bcast (N:=FNum) (nsub (n:=FNum)) p q = Ok o) qs os /\ Forall2 (fun o d => np_dot (N:=FNum) o u = Ok d) os ds /\ Forall2 (fun dr r => bcast (N:=FNum) (nadd (n:=FNum)) (vscale (N:=FNum) (fst dr) u) (snd dr) = Ok r) (combine ds qs) rs /\ Forall2 (near_plane_foot p v) qs rs).
  { clear Ne Rq. induction Hq as [|q qs (Lq & Mq) Hq (os & ds & rs & I1 & I2 & I3 & I4)]; [exists [], [], []; repeat split; constructor|].
    assert (Nq : q <> []) by (intro E; rewrite E in Lq; destruct p; [contradiction|discriminate Lq]).
    destruct (batch_foot q v p u Nq (eq_trans Lv (eq_sym Lq)) (eq_sym Lq) ltac:(rewrite Lq; auto) Mq Hp Hv Kl Eu Lu) as (o & d & r & E1 & E2 & E3 & E4 & E5 & E6). exists (o :: os), (d :: ds), (r :: rs). split; [constructor; auto|]. split; [constructor; auto|]. split; [constructor; auto|]. constructor; auto. split; [auto|]. split; [exact (eq_trans E5 Lq)|].
    intros f (Lf & Hf) Of. rewrite (dist_sym (map FR p)). rewrite Lq in E6. apply E6; [exact Of|]. rewrite dot_sub_l in Hf |- * by lenr. lra. }
  destruct X as (os & ds & rs & X1 & X2 & X3 & X4). exists rs. split; [|exact X4]. unfold plane_project_points. rewrite as2d_ok by exact Rq. cbn [bind pl_point pl_normal]. match goal with |- context [mapM ?g qs] => replace (mapM g qs) with (Ok os) by (symmetry; exact (Forall2_mapM g qs os X1)) end. cbn [bind]. rewrite Eu. cbn [bind]. rewrite (Forall2_mapM _ _ _ X2). cbn [bind]. refine (eq_trans (f_equal (fun z => bind z (points_of (N:=FNum))) (Forall2_mapM (fun dr => bcast (N:=FNum) (nadd (n:=FNum)) (vscale (N:=FNum) (fst dr) u) (snd dr)) (combine ds qs) rs X3)) _). cbn [bind].
  apply (points_of_ok rs (length p)).
  - intro E. subst rs. inversion X4; subst; contradiction.
  - destruct p; [contradiction|simpl; lia].
  - clear - X4. induction X4 as [|q r qs rs (_ & H & _) F IH]; constructor; auto.
  - clear - X4. induction X4 as [|q r qs rs (H & _) F IH]; constructor; auto.
Qed.
Print Assumptions C98_plane_project_points.

(** ** The batch and single-point methods of a line can give different doubles *)
Theorem C98_line_bitwise_refuted : ~ (forall (p v q : list flt) (l : line FNum) (r : list flt), line_new (N:=FNum) p v = Ok l -> Forall tame p -> Forall tame v -> Forall tame q -> line_project_point l q = Ok r -> line_project_points l [q] = Ok [r]) /\
  ~ (forall (p v q : list flt) (l : line FNum) (d : flt), line_new (N:=FNum) p v = Ok l -> Forall tame p -> Forall tame v -> Forall tame q -> line_distance_point l q = Ok d -> line_distance_points l [q] = Ok [d]).
Proof.
  assert (T0 : tame 0%float) by (split; [reflexivity|rewrite (proj1 zero_F), Rabs_R0; apply bpow_ge_0]). assert (T1 : tame 1%float) by (split; [reflexivity|rewrite (proj1 one_F), Rabs_pos_eq by lra; change 1 with (bpow radix2 0); apply bpow_le; lia]).
  assert (P0 : Forall tame [0; 0]%float) by (repeat (apply Forall_cons; auto)). assert (P1 : Forall tame [1; 1]%float) by (repeat (apply Forall_cons; auto)). split; intro H.
  - specialize (H [0; 0]%float [1; 1]%float [1; 1]%float _ _ eq_refl P0 P1 P1 eq_refl). revert H. change (line_project_points (N:=FNum) (MkLine (N:=FNum) [0; 0]%float [1; 1]%float) [[1; 1]%float]) with (Ok (A:=list (list flt)) [[0.9999999999999998; 0.9999999999999998]%float]). intro H. injection H as H _. apply (f_equal (fun x => PrimFloat.eqb x 1)) in H. revert H. vm_compute. discriminate.
  - specialize (H [0; 0]%float [1; 1]%float [1; 1]%float _ _ eq_refl P0 P1 P1 eq_refl). assert (X : forall z, z = line_distance_points (N:=FNum) (MkLine (N:=FNum) [0; 0]%float [1; 1]%float) [[1; 1]%float] -> match z with Ok [d] => PrimFloat.ltb 0 d = true | _ => False end) by (intros z ->; reflexivity). specialize (X _ (eq_sym H)). revert X. vm_compute. discriminate.
Qed.
Print Assumptions C98_line_bitwise_refuted.
(** ** The hypotheses are met *)
Theorem C98_nonvacuous : let p := [0; 0; 0]%float in let v := [0; 3; 4]%float in let qs := [[5; 3; 4]; [1; -4; 3]]%float in
  (Z.of_nat (length p) <= max_dim)%Z /\ Forall tame p /\ Forall half_moderate p /\ Forall (fun q => length q = length p /\ Forall tame q) qs /\ Forall (fun q => length q = length p /\ Forall half_moderate q) qs /\ Forall moderate v /\ bpow radix2 (-400) <= len (map FR v) /\
  exists l pl, line_new (N:=FNum) p v = Ok l /\ plane_new (N:=FNum) p v = Ok pl /\ line_project_points l qs = Ok [[0; 3; 4]; [0; 2.6645352591003756e-16; 3.5527136788005011e-16]]%float /\ line_distance_points l qs = Ok [5; 5.0990195135927845]%float /\
    plane_distance_points_signed pl qs = Ok [5; 4.4408920985006262e-16]%float /\ Forall2 (fun q d => plane_distance_point_signed pl q = Ok d) qs [5; 4.4408920985006262e-16]%float.
Proof.
  assert (TM : forall z, finite z -> Rabs (FR z) <= 8 -> tame z) by (intros z F A; split; [exact F|eapply Rle_trans; [exact A|apply Rle_trans with (bpow radix2 3); [simpl; lra|apply bpow_le; lia]]]).
  assert (E0 : FR 0%float = 0) by (apply zero_F). assert (E1 : FR 1%float = 1) by (apply one_F).
  assert (E3 : FR 3%float = 3) by (erewrite FR_val by (vm_compute; reflexivity); simpl; unfold F2R; simpl; lra). assert (E4 : FR 4%float = 4) by (erewrite FR_val by (vm_compute; reflexivity); simpl; unfold F2R; simpl; lra). assert (E5 : FR 5%float = 5) by (erewrite FR_val by (vm_compute; reflexivity); simpl; unfold F2R; simpl; lra). assert (Em : FR (-4)%float = -4) by (erewrite FR_val by (vm_compute; reflexivity); simpl; unfold F2R; simpl; lra).
  assert (T0 : tame 0%float) by (apply TM; [reflexivity|rewrite E0; apply Rabs_le; lra]). assert (T1 : tame 1%float) by (apply TM; [reflexivity|rewrite E1; apply Rabs_le; lra]). assert (T3 : tame 3%float) by (apply TM; [reflexivity|rewrite E3; apply Rabs_le; lra]). assert (T4 : tame 4%float) by (apply TM; [reflexivity|rewrite E4; apply Rabs_le; lra]). assert (T5 : tame 5%float) by (apply TM; [reflexivity|rewrite E5; apply Rabs_le; lra]). assert (Tm : tame (-4)%float) by (apply TM; [reflexivity|rewrite Em; apply Rabs_le; lra]).
  assert (P : Forall tame [0; 0; 0]%float) by (repeat (apply Forall_cons; auto)). assert (V : Forall tame [0; 3; 4]%float) by (repeat (apply Forall_cons; auto)). assert (Q1 : Forall tame [5; 3; 4]%float) by (repeat (apply Forall_cons; auto)). assert (Q2 : Forall tame [1; -4; 3]%float) by (repeat (apply Forall_cons; auto)).
  cbv zeta. split; [vm_compute; discriminate|]. split; [exact P|]. split; [apply tame_half; exact P|]. split; [repeat (apply Forall_cons; auto)|]. split; [repeat (apply Forall_cons; [split; [reflexivity|apply tame_half; assumption]|]); constructor|]. split; [apply half_moderate_m, tame_half; exact V|]. split.
  { assert (L : len (map FR [0; 3; 4]%float) = 5). { cbn [map]. rewrite E0, E3, E4. unfold len, dot. simpl. replace (0 * 0 + (3 * 3 + (4 * 4 + 0))) with (5 * 5) by lra. apply sqrt_square. lra. } rewrite L. apply Rle_trans with (bpow radix2 0); [apply bpow_le; lia|simpl; lra]. }
  do 2 eexists. split; [reflexivity|]. split; [reflexivity|]. split; [reflexivity|]. split; [reflexivity|]. split; [reflexivity|]. repeat (apply Forall2_cons; [reflexivity|]). constructor.
Qed.
Print Assumptions C98_nonvacuous.
