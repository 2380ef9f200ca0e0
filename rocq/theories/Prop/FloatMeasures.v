(** * Property C97: circles, spheres and cylinders measured in double precision *)
From Coq Require Import String Reals List ZArith Floats Lra Lia Psatz Bool Machin Ratan.
From Flocq Require Import Core BinarySingleNaN.
From Flocq Require Import IEEE754.PrimFloat.
From Verif.Model Require Import Outcome Num Instances Numpy BaseArray Vector Points Functions Line Plane Sphere Cylinder.
From Verif.Spec Require Import Geometry Tolerance Floats.
From Verif.Proof Require Import VecAlg Bridge Vectors Floats FloatErr.
From Verif.Prop Require Import Floats Accuracy AnyOrder Decisions Projections.
From Verif.Prop Require FloatShapes.
From Verif.Proof Require Lines.
Import ListNotations.
Local Open Scope R_scope.

(** ** math.pi *)
Lemma tg_val n : tg_alt PI_2_3_7_tg n = (-1) ^ n * (2 * ((/ 3) ^ (2 * n + 1) / INR (2 * n + 1)) + (/ 7) ^ (2 * n + 1) / INR (2 * n + 1)).
Proof. reflexivity. Qed.
Lemma pi_close : 3.1415926535897931159979634 <= PI <= 3.1415926535897933.
Proof.
  destruct (PI_2_3_7_ineq 8) as (L & U).
  assert (A : 3.1415926535897931159979634 / 4 <= sum_f_R0 (tg_alt PI_2_3_7_tg) (Datatypes.S (2 * 8))). { change (Datatypes.S (2 * 8)) with 17%nat. unfold sum_f_R0. rewrite !tg_val. rewrite ?INR_IZR_INZ. simpl Z.of_nat. simpl pow. lra. }
  assert (B : sum_f_R0 (tg_alt PI_2_3_7_tg) (2 * 8) <= 3.1415926535897933 / 4). { change (2 * 8)%nat with 16%nat. unfold sum_f_R0. rewrite !tg_val. rewrite ?INR_IZR_INZ. simpl Z.of_nat. simpl pow. lra. }
  lra.
Qed.
(** The constant math.pi of Python *)
Definition pi_F : flt := 3.141592653589793%float.
Lemma pi_val : FR pi_F = 884279719003555 / 281474976710656.
Proof. unfold pi_F. erewrite FR_val by (vm_compute; reflexivity). simpl. unfold F2R. simpl. lra. Qed.

(** ** Products with relative errors *)
Definition approx (k : R) (x : flt) (X : R) : Prop := finite x /\ 0 < X /\ Rabs (FR x - X) <= k * bpow radix2 (-53) * X.
Lemma u_val : uro = / 9007199254740992.
Proof. unfold uro. simpl. lra. Qed.
Lemma approx_pi : approx 1 pi_F PI.
Proof.
  split; [reflexivity|]. pose proof pi_close as P. split; [lra|]. rewrite pi_val. fold uro. rewrite u_val. apply Rabs_le. lra.
Qed.
Lemma approx_exact (x : flt) X : finite x -> FR x = X -> 0 < X -> approx 0 x X.
Proof. intros F E P. split; [exact F|]. split; [exact P|]. rewrite E. unfold Rminus. rewrite Rplus_opp_r, Rabs_R0. lra. Qed.
Lemma rnd_rel x : bpow radix2 (-1000) <= Rabs x -> Rabs (rnd x - x) <= (1 + / 1024) * uro * Rabs x.
Proof.
  intro H. pose proof (rnd_err x) as E. assert (B : eta <= / 1024 * uro * Rabs x). { apply Rle_trans with (/ 1024 * uro * bpow radix2 (-1000)); [|apply Rmult_le_compat_l; [pose proof uro_small; lra|exact H]]. unfold eta, uro. replace (/ 1024) with (bpow radix2 (-10)) by (simpl; lra). rewrite <- !bpow_plus. apply bpow_le. lia. } lra.
Qed.
Lemma approx_range k x X : 0 <= k <= 64 -> approx k x X -> / 2 * X <= FR x <= 2 * X.
Proof.
  intros Hk (_ & P & H). fold uro in H. pose proof uro_small as (U & _). pose proof u_val as UV. assert (k * uro <= / 2) by (rewrite UV; lra). assert (k * uro * X <= / 2 * X) by (apply Rmult_le_compat_r; lra). apply Rabs_le_inv in H. lra.
Qed.
Lemma approx_mul k j x y X Y : 0 <= k <= 16 -> 0 <= j <= 16 -> approx k x X -> approx j y Y -> bpow radix2 (-990) <= X * Y <= bpow radix2 990 -> approx (k + j + 1 + / 64) (x * y)%float (X * Y).
Proof.
  intros Hk Hj Ax Ay (B1 & B2). pose proof (approx_range k x X ltac:(lra) Ax) as Rx. pose proof (approx_range j y Y ltac:(lra) Ay) as Ry. destruct Ax as (Fx & Px & Hx). destruct Ay as (Fy & Py & Hy). fold uro in Hx, Hy. pose proof u_val as UV. destruct uro_small as (U & US).
  assert (PX : 0 < X * Y) by (apply Rmult_lt_0_compat; auto). set (u := uro) in *.
  assert (Bxy : / 4 * (X * Y) <= FR x * FR y <= 4 * (X * Y)). { split; [replace (/ 4 * (X * Y)) with ((/ 2 * X) * (/ 2 * Y)) by field|replace (4 * (X * Y)) with ((2 * X) * (2 * Y)) by ring]; apply Rmult_le_compat; lra. }
  assert (L1 : bpow radix2 (-1000) <= Rabs (FR x * FR y)). { rewrite Rabs_pos_eq by lra. apply Rle_trans with (/ 4 * bpow radix2 (-990)); [|lra]. replace (/ 4) with (bpow radix2 (-2)) by (simpl; lra). rewrite <- bpow_plus. apply bpow_le. lia. }
  assert (L2 : Rabs (rnd (FR x * FR y)) < bpow radix2 1024). { eapply Rle_lt_trans; [apply (rnd_bpow_le _ 992); [lia|]|apply bpow_lt; lia]. rewrite Rabs_pos_eq by lra. change 992%Z with (2 + 990)%Z. rewrite bpow_plus. change (bpow radix2 2) with 4. lra. }
  destruct (fin_mul x y Fx Fy L2) as (F & E). split; [exact F|]. split; [exact PX|]. fold uro. fold u. rewrite E. pose proof (rnd_rel _ L1) as Re. fold u in Re. rewrite (Rabs_pos_eq (FR x * FR y)) in Re by lra.
  set (dx := FR x - X) in *. set (dy := FR y - Y) in *. assert (Ex : FR x = X + dx) by (unfold dx; ring). assert (Ey : FR y = Y + dy) by (unfold dy; ring). clearbody dx dy. rewrite Ex, Ey in *. clear Ex Ey.
  assert (D : Rabs ((X + dx) * (Y + dy) - X * Y) <= (k * u + j * u + k * u * (j * u)) * (X * Y)). { replace ((X + dx) * (Y + dy) - X * Y) with (dx * Y + X * dy + dx * dy) by ring. eapply Rle_trans; [apply Rabs_triang|]. replace ((k * u + j * u + k * u * (j * u)) * (X * Y)) with ((k * u * X * Y + X * (j * u * Y)) + (k * u * X) * (j * u * Y)) by ring. apply Rplus_le_compat; [eapply Rle_trans; [apply Rabs_triang|]; rewrite !Rabs_mult, (Rabs_pos_eq Y), (Rabs_pos_eq X) by lra; apply Rplus_le_compat; [apply Rmult_le_compat_r; lra|apply Rmult_le_compat_l; lra]|]. rewrite Rabs_mult. apply Rmult_le_compat; auto; apply Rabs_pos. }
  assert (ku : 0 <= k * u <= 16 * u) by (split; [apply Rmult_le_pos; lra|apply Rmult_le_compat_r; lra]). assert (ju : 0 <= j * u <= 16 * u) by (split; [apply Rmult_le_pos; lra|apply Rmult_le_compat_r; lra]). assert (kj : 0 <= k * u * (j * u) <= / 1024 * u). { split; [apply Rmult_le_pos; lra|]. apply Rle_trans with (16 * u * (16 * u)); [apply Rmult_le_compat; lra|]. rewrite <- Rmult_assoc. apply Rmult_le_compat_r; [lra|]. rewrite UV. lra. }
  assert (D' : Rabs ((X + dx) * (Y + dy) - X * Y) <= ((k + j + / 1024) * u) * (X * Y)). { eapply Rle_trans; [exact D|]. apply Rmult_le_compat_r; lra. }
  assert (D2 : (X + dx) * (Y + dy) <= (1 + / 1024) * (X * Y)). { apply Rabs_le_inv in D'. assert ((k + j + / 1024) * u * (X * Y) <= / 1024 * (X * Y)); [|lra]. apply Rmult_le_compat_r; [lra|]. apply Rle_trans with (33 * u); [apply Rmult_le_compat_r; lra|]. rewrite UV. lra. }
  assert (D3 : (1 + / 1024) * u * ((X + dx) * (Y + dy)) <= (1 + / 256) * u * (X * Y)). { apply Rle_trans with ((1 + / 1024) * u * ((1 + / 1024) * (X * Y))); [apply Rmult_le_compat_l; [lra|exact D2]|]. replace ((1 + / 1024) * u * ((1 + / 1024) * (X * Y))) with ((1 + / 1024) * (1 + / 1024) * (u * (X * Y))) by ring. rewrite (Rmult_assoc (1 + / 256)). apply Rmult_le_compat_r; [apply Rmult_le_pos; lra|lra]. }
  replace (rnd ((X + dx) * (Y + dy)) - X * Y) with ((rnd ((X + dx) * (Y + dy)) - (X + dx) * (Y + dy)) + ((X + dx) * (Y + dy) - X * Y)) by ring. eapply Rle_trans; [apply Rabs_triang|]. assert (PU : 0 < u * (X * Y)) by (apply Rmult_lt_0_compat; lra). lra.
Qed.
Lemma approx_mono k k' x X : k <= k' -> approx k x X -> approx k' x X.
Proof. intros H (F & P & B). split; [exact F|]. split; [exact P|]. eapply Rle_trans; [exact B|]. apply Rmult_le_compat_r; [lra|]. apply Rmult_le_compat_r; [apply bpow_ge_0|exact H]. Qed.
Lemma approx_add k x y X Y : 0 <= k <= 16 -> approx k x X -> approx k y Y -> bpow radix2 (-990) <= X -> X + Y <= bpow radix2 990 -> approx (k + 1 + / 64) (x + y)%float (X + Y).
Proof.
  intros Hk Ax Ay B1 B2. pose proof (approx_range k x X ltac:(lra) Ax) as Rx. pose proof (approx_range k y Y ltac:(lra) Ay) as Ry. destruct Ax as (Fx & Px & Hx). destruct Ay as (Fy & Py & Hy). fold uro in Hx, Hy. pose proof u_val as UV. destruct uro_small as (U & US). set (u := uro) in *.
  assert (L1 : bpow radix2 (-1000) <= Rabs (FR x + FR y)). { rewrite Rabs_pos_eq by lra. apply Rle_trans with (/ 2 * bpow radix2 (-990)); [|lra]. replace (/ 2) with (bpow radix2 (-1)) by (simpl; lra). rewrite <- bpow_plus. apply bpow_le. lia. }
  assert (L2 : Rabs (rnd (FR x + FR y)) < bpow radix2 1024). { eapply Rle_lt_trans; [apply (rnd_bpow_le _ 991); [lia|]|apply bpow_lt; lia]. rewrite Rabs_pos_eq by lra. change 991%Z with (1 + 990)%Z. rewrite bpow_plus. change (bpow radix2 1) with 2. lra. }
  destruct (fin_add x y Fx Fy L2) as (F & E). split; [exact F|]. split; [lra|]. fold uro. fold u. rewrite E. pose proof (rnd_rel _ L1) as Re. fold u in Re. rewrite (Rabs_pos_eq (FR x + FR y)) in Re by lra.
  assert (D : Rabs (FR x + FR y - (X + Y)) <= k * u * (X + Y)). { replace (FR x + FR y - (X + Y)) with ((FR x - X) + (FR y - Y)) by ring. eapply Rle_trans; [apply Rabs_triang|]. lra. }
  assert (D2 : FR x + FR y <= (1 + / 1024) * (X + Y)). { apply Rabs_le_inv in D. assert (k * u * (X + Y) <= / 1024 * (X + Y)); [|lra]. apply Rmult_le_compat_r; [lra|]. apply Rle_trans with (16 * u); [apply Rmult_le_compat_r; lra|]. rewrite UV. lra. }
  assert (D3 : (1 + / 1024) * u * (FR x + FR y) <= (1 + / 256) * u * (X + Y)). { apply Rle_trans with ((1 + / 1024) * u * ((1 + / 1024) * (X + Y))); [apply Rmult_le_compat_l; [lra|exact D2]|]. replace ((1 + / 1024) * u * ((1 + / 1024) * (X + Y))) with ((1 + / 1024) * (1 + / 1024) * (u * (X + Y))) by ring. rewrite (Rmult_assoc (1 + / 256)). apply Rmult_le_compat_r; [apply Rmult_le_pos; lra|lra]. }
  replace (rnd (FR x + FR y) - (X + Y)) with ((rnd (FR x + FR y) - (FR x + FR y)) + (FR x + FR y - (X + Y))) by ring. eapply Rle_trans; [apply Rabs_triang|]. assert (PU : 0 < u * (X + Y)) by (apply Rmult_lt_0_compat; lra). lra.
Qed.
(** Sizes: products of up to five factors between 2^-200 and 2^200 *)
Definition sized (n : Z) (X : R) : Prop := bpow radix2 (- n) <= X <= bpow radix2 n.
Lemma sized_mul n m X Y : sized n X -> sized m Y -> sized (n + m) (X * Y).
Proof. intros (A & B) (C & D). unfold sized. replace (- (n + m))%Z with (- n + - m)%Z by ring. rewrite !bpow_plus. pose proof (bpow_ge_0 radix2 (- n)). pose proof (bpow_ge_0 radix2 (- m)). split; apply Rmult_le_compat; lra. Qed.
Lemma sized_990 n X : (n <= 990)%Z -> sized n X -> bpow radix2 (-990) <= X <= bpow radix2 990.
Proof. intros H (A & B). split; [eapply Rle_trans; [|exact A]|eapply Rle_trans; [exact B|]]; apply bpow_le; lia. Qed.
Lemma sized_pos n X : sized n X -> 0 < X.
Proof. intros (A & _). eapply Rlt_le_trans; [apply bpow_gt_0|exact A]. Qed.
Lemma sized_3 (x : R) : 1 <= x <= 8 -> sized 3 x.
Proof. intro H. unfold sized. change (bpow radix2 3) with 8. replace (bpow radix2 (- (3))) with (/ 8) by (simpl; lra). lra. Qed.
Lemma sized_pi : sized 3 PI.
Proof. apply sized_3. pose proof pi_close. lra. Qed.
(** Keeps the size next to the error: approx k x X with a size n of X *)
Definition asz k n x X : Prop := approx k x X /\ sized n X.
Lemma asz_mul k j n m x y X Y : 0 <= k <= 16 -> 0 <= j <= 16 -> (n + m <= 990)%Z -> asz k n x X -> asz j m y Y -> asz (k + j + 1 + / 64) (n + m) (x * y)%float (X * Y).
Proof. intros Hk Hj H (A & B) (C & D). pose proof (sized_mul _ _ _ _ B D) as Sz. split; [|exact Sz]. apply approx_mul; auto. apply (sized_990 (n + m)); auto. Qed.
Lemma asz_pi : asz 1 3 pi_F PI. Proof. split; [apply approx_pi|apply sized_pi]. Qed.
Lemma asz_int (z : Z) : (1 <= z <= 8)%Z -> asz 0 3 (nofZ (n:=FNum) z) (IZR z).
Proof. intro H. destruct (FloatShapes.ofZ_F z ltac:(lia)) as (F & E). assert (B : 1 <= IZR z <= 8) by (split; apply IZR_le; lia). split; [apply approx_exact; auto; lra|apply sized_3; exact B]. Qed.
(** A size between 2^-200 and 2^200 *)
Definition fair (r : flt) : Prop := finite r /\ bpow radix2 (-200) <= FR r <= bpow radix2 200.
Lemma asz_fair r : fair r -> asz 0 200 r (FR r).
Proof. intros (F & B). split; [apply approx_exact; auto|exact B]. eapply Rlt_le_trans; [apply bpow_gt_0|apply B]. Qed.
Tactic Notation "szm" ident(H1) ident(H2) ident(H) := lazymatch type of H1 with asz ?k ?n ?x ?X => lazymatch type of H2 with asz ?j ?m ?y ?Y => assert (H : asz (k + j + 1 + / 64) (n + m) (x * y)%float (X * Y)) by (apply asz_mul; [lra|lra|lia|exact H1|exact H2]) end end.
Lemma two_pi_F : asz (2 + / 64) 6 (nofZ (n:=FNum) 2 * pi_F)%float (2 * PI).
Proof. pose proof (asz_int 2 ltac:(lia)) as A. pose proof asz_pi as B. szm A B C. replace (0 + 1 + 1 + / 64) with (2 + / 64) in C by ring. exact C. Qed.
Lemma sq_F r : fair r -> asz (1 + / 64) 400 (r * r)%float (FR r * FR r).
Proof. intro H. pose proof (asz_fair r H) as A. szm A A C. replace (0 + 0 + 1 + / 64) with (1 + / 64) in C by ring. exact C. Qed.
Lemma circle_rad p r c : circle_new (N:=FNum) p r = Ok c -> c_radius c = r.
Proof. unfold circle_new, base_sphere_new. destruct (nleb r n0); [discriminate|]. destruct (point_of p); cbn [bind]; try discriminate. cbn [c_point]. destruct (negb _); [discriminate|]. intro H. injection H as <-. reflexivity. Qed.
Lemma sphere_rad p r c : sphere_new (N:=FNum) p r = Ok c -> c_radius c = r.
Proof. unfold sphere_new, base_sphere_new. destruct (nleb r n0); [discriminate|]. destruct (point_of p); cbn [bind]; try discriminate. cbn [c_point]. destruct (negb _); [discriminate|]. intro H. injection H as <-. reflexivity. Qed.
Theorem C97_circle : forall (T : Trig FNum) (p : list flt) (r : flt) (c : ball FNum), tpi T = pi_F -> circle_new (N:=FNum) p r = Ok c -> fair r ->
  (finite (circle_circumference T c) /\ Rabs (FR (circle_circumference T c) - 2 * PI * FR r) <= 4 * bpow radix2 (-53) * (2 * PI * FR r)) /\
  (finite (circle_area T c) /\ Rabs (FR (circle_area T c) - PI * (FR r * FR r)) <= 4 * bpow radix2 (-53) * (PI * (FR r * FR r))).
Proof.
  intros T p r c HT Hc Hr. unfold circle_circumference, circle_area. rewrite HT, (circle_rad _ _ _ Hc). change (nmul (n:=FNum)) with PrimFloat.mul. pose proof two_pi_F as A. pose proof (asz_fair r Hr) as B. pose proof (sq_F r Hr) as C. pose proof asz_pi as D.
  szm A B E. szm D C G. destruct E as (E & _). destruct G as (G & _). apply (approx_mono _ 4) in E; [|lra]. apply (approx_mono _ 4) in G; [|lra]. destruct E as (E1 & _ & E2). destruct G as (G1 & _ & G2). auto.
Qed.
Print Assumptions C97_circle.
Lemma four_thirds : exists k : flt, ndiv (n:=FNum) (nofZ (n:=FNum) 4) (nofZ (n:=FNum) 3) = Ok k /\ asz (1 + / 1024) 3 k (4 / 3).
Proof.
  destruct (FloatShapes.ofZ_F 4 ltac:(lia)) as (F4 & E4). destruct (FloatShapes.ofZ_F 3 ltac:(lia)) as (F3 & E3). change (nofZ (n:=FNum)) with f_ofZ. set (a := f_ofZ 4) in *. set (b := f_ofZ 3) in *. clearbody a b. assert (B : bpow radix2 (-1000) <= Rabs (FR a / FR b)) by (rewrite E4, E3, Rabs_pos_eq by lra; apply Rle_trans with (bpow radix2 0); [apply bpow_le; lia|change (bpow radix2 0) with 1; lra]).
  destruct (fin_div a b F4 ltac:(rewrite E3; lra)) as (F & E). { eapply Rle_lt_trans; [apply (rnd_bpow_le _ 1); [lia|]|apply bpow_lt; lia]. rewrite E4, E3, Rabs_pos_eq by lra. change (bpow radix2 1) with 2. lra. }
  exists (a / b)%float. split; [reflexivity|]. pose proof (rnd_rel _ B) as Q. rewrite <- E in Q. rewrite E4, E3 in Q. rewrite (Rabs_pos_eq (4 / 3)) in Q by lra. split; [split; [exact F|]; split; [lra|exact Q]|apply sized_3; lra].
Qed.
Theorem C97_sphere : forall (T : Trig FNum) (p : list flt) (r : flt) (c : ball FNum), tpi T = pi_F -> sphere_new (N:=FNum) p r = Ok c -> fair r ->
  (finite (sphere_surface_area T c) /\ Rabs (FR (sphere_surface_area T c) - 4 * PI * (FR r * FR r)) <= 5 * bpow radix2 (-53) * (4 * PI * (FR r * FR r))) /\
  (exists V, sphere_volume T c = Ok V /\ finite V /\ Rabs (FR V - 4 / 3 * PI * (FR r * FR r * FR r)) <= 7 * bpow radix2 (-53) * (4 / 3 * PI * (FR r * FR r * FR r))).
Proof.
  intros T p r c HT Hc Hr. unfold sphere_surface_area, sphere_volume. rewrite HT, (sphere_rad _ _ _ Hc). destruct four_thirds as (k & Ek & Ak). rewrite Ek. cbn [bind]. change (nmul (n:=FNum)) with PrimFloat.mul. pose proof (asz_int 4 ltac:(lia)) as A. pose proof (asz_fair r Hr) as B. pose proof (sq_F r Hr) as C. pose proof asz_pi as D.
  szm A D E. szm E C G. szm C B I. szm Ak D J. szm J I K. destruct G as (G & _). destruct K as (K & _). apply (approx_mono _ 5) in G; [|lra]. apply (approx_mono _ 7) in K; [|lra]. destruct G as (G1 & _ & G2). destruct K as (K1 & _ & K2). split; [auto|]. eexists. split; [reflexivity|]. auto.
Qed.
Print Assumptions C97_sphere.

(** ** Cylinders *)
Lemma cylinder_F p v r c : cylinder_new (N:=FNum) p v r = Ok c -> c = MkCylinder (N:=FNum) p v r /\ length p = 3%nat /\ length v = 3%nat /\ line_new (N:=FNum) p v = Ok (MkLine (N:=FNum) p v) /\ plane_new (N:=FNum) p v = Ok (MkPlane (N:=FNum) p v).
Proof.
  unfold cylinder_new, line_new, plane_new, check_point_vector. change (point_of (N:=FNum)) with (vector_of (N:=FNum)).
  assert (P : forall u : list flt, vector_of (N:=FNum) u = Ok u \/ exists x, vector_of (N:=FNum) u = Raise x) by (intro u; rewrite vector_of_F; destruct (Nat.eqb _ _); [right; eexists; reflexivity|]; destruct (negb _); [right; eexists; reflexivity|left; reflexivity]).
  destruct (P p) as [Ep|(x & Ep)]; rewrite Ep; [|discriminate]. destruct (P v) as [Ev|(x & Ev)]; rewrite Ev; [|discriminate]. cbn [bind]. unfold dim1. destruct (Nat.eqb_spec (@length flt p) 3) as [Lp|NL]; [|intro H; exfalso; revert H; replace (Nat.eqb _ 3) with false by (symmetry; apply Nat.eqb_neq; exact NL); discriminate]. destruct (Nat.eqb_spec (@length flt v) 3) as [Lv|NL]; [|intro H; exfalso; revert H; fn; rewrite Lp; cbn [Nat.eqb negb]; replace (Nat.eqb _ 3) with false by (symmetry; apply Nat.eqb_neq; exact NL); discriminate].
  fn. rewrite Lp, Lv. cbn [Nat.eqb negb]. destruct (is_zero tol_default v) as [z|x|x]; cbn [bind]; try discriminate. destruct z; [discriminate|]. destruct (negb _); [discriminate|]. intro H. injection H as <-. auto.
Qed.
Lemma cylinder_fin p v r c : cylinder_new (N:=FNum) p v r = Ok c -> Forall finite p /\ Forall finite v.
Proof. intro H. apply cylinder_F in H as (_ & _ & _ & H & _). unfold line_new in H. destruct (check_point_vector p v) as [(p', v')| |] eqn:E; cbn [bind] in H; try discriminate. apply check_F in E as (_ & _ & _ & F1 & F2 & _). auto. Qed.
Lemma coords_moderate (v : list flt) n : (n <= 400)%Z -> Forall finite v -> len (map FR v) <= bpow radix2 n -> Forall tame v.
Proof.
  intros Hn F L. apply Forall_forall. intros x Hx. split; [rewrite Forall_forall in F; auto|]. eapply Rle_trans; [apply (coord_le (map FR v)); apply in_map; exact Hx|]. eapply Rle_trans; [exact L|apply bpow_le; lia].
Qed.
Lemma norm_asz (v : list flt) : length v = 3%nat -> Forall finite v -> bpow radix2 (-200) <= len (map FR v) <= bpow radix2 200 -> asz 7 200 (norm_raw (N:=FNum) v) (len (map FR v)).
Proof.
  intros Lv F B. assert (M : Forall moderate v) by (apply half_moderate_m, tame_half, (coords_moderate v 200); auto; [lia|apply B]). destruct (norm_rel v) as (Fn & e & E & He); [rewrite Lv; vm_compute; discriminate|exact M|eapply Rle_trans; [|apply B]; apply bpow_le; lia|].
  assert (P : 0 < len (map FR v)) by (eapply Rlt_le_trans; [apply bpow_gt_0|apply B]). split; [|exact B]. split; [exact Fn|]. split; [exact P|]. rewrite E. rewrite Lv in He. replace (INR 3 + 4) with 7 in He by (simpl; lra). fold uro. replace (len (map FR v) * (1 + e) - len (map FR v)) with (e * len (map FR v)) by ring. rewrite Rabs_mult, (Rabs_pos_eq (len _)) by lra. apply Rmult_le_compat_r; lra.
Qed.
Theorem C97_cylinder : forall (T : Trig FNum) (p v : list flt) (r : flt) (c : cylinder FNum), tpi T = pi_F -> cylinder_new (N:=FNum) p v r = Ok c -> fair r -> bpow radix2 (-200) <= len (map FR v) <= bpow radix2 200 ->
  let h := len (map FR v) in let lat := 2 * PI * FR r * h in let sur := lat + 2 * PI * (FR r * FR r) in let vol := PI * (FR r * FR r) * h in let u := bpow radix2 (-53) in
  (finite (cylinder_length c) /\ Rabs (FR (cylinder_length c) - h) <= 7 * u * h) /\
  (finite (cylinder_lateral_surface_area T c) /\ Rabs (FR (cylinder_lateral_surface_area T c) - lat) <= 12 * u * lat) /\
  (finite (cylinder_surface_area T c) /\ Rabs (FR (cylinder_surface_area T c) - sur) <= 13 * u * sur) /\
  (finite (cylinder_volume T c) /\ Rabs (FR (cylinder_volume T c) - vol) <= 12 * u * vol).
Proof.
  intros T p v r c HT Hc Hr B. cbv zeta. destruct (cylinder_fin _ _ _ _ Hc) as (_ & Fv). destruct (cylinder_F _ _ _ _ Hc) as (-> & _ & Lv & _). pose proof (norm_asz v Lv Fv B) as L. unfold cylinder_surface_area, cylinder_lateral_surface_area, cylinder_volume, cylinder_length. cbn [cy_vector cy_radius]. rewrite HT. change (nmul (n:=FNum)) with PrimFloat.mul. change (nadd (n:=FNum)) with PrimFloat.add. set (nv := norm_raw (N:=FNum) v) in *. clearbody nv. set (h := len (map FR v)) in *. clearbody h.
  pose proof two_pi_F as A. pose proof (asz_fair r Hr) as R1. pose proof (sq_F r Hr) as C. pose proof asz_pi as D. szm A R1 E. szm E L G. szm A C I. szm D C J. szm J L K.
  split; [destruct L as ((L1 & _ & L2) & _); auto|]. split; [destruct G as (G & _); apply (approx_mono _ 12) in G; [|lra]; destruct G as (G1 & _ & G2); auto|].
  split; [|destruct K as (K & _); apply (approx_mono _ 12) in K; [|lra]; destruct K as (K1 & _ & K2); auto].
  destruct G as (G & Gs). destruct I as (I & Is). apply (approx_mono _ (11 + / 8)) in G; [|lra]. apply (approx_mono _ (11 + / 8)) in I; [|lra]. assert (Q : approx (11 + / 8 + 1 + / 64) (nofZ (n:=FNum) 2 * pi_F * r * nv + nofZ (n:=FNum) 2 * pi_F * (r * r))%float (2 * PI * FR r * h + 2 * PI * (FR r * FR r))).
  { apply approx_add; auto; [lra|apply (sized_990 406); [lia|exact Gs]|]. destruct Gs as (_ & Gs). destruct Is as (_ & Is). apply Rle_trans with (bpow radix2 406 + bpow radix2 406); [apply Rplus_le_compat; [exact Gs|exact Is]|]. replace (bpow radix2 406 + bpow radix2 406) with (bpow radix2 407) by (change 407%Z with (1 + 406)%Z; rewrite bpow_plus; change (bpow radix2 1) with 2; ring). apply bpow_le. lia. }
  apply (approx_mono _ 13) in Q; [|lra]. destruct Q as (Q1 & _ & Q2). auto.
Qed.
Print Assumptions C97_cylinder.
(** ** is_point_within: right away from the surface *)
Theorem C97_is_point_within : forall (p v x : list flt) (r : flt) (c : cylinder FNum), cylinder_new (N:=FNum) p v r = Ok c -> finite r -> length x = 3%nat -> Forall tame p -> Forall tame x -> bpow radix2 (-200) <= len (map FR v) <= bpow radix2 200 ->
  forall f, on_line (map FR p) (map FR v) f -> dot (sub (map FR x) f) (map FR v) = 0 ->
  let radial := dist (map FR x) f in let axial := dot (sub (map FR x) (map FR p)) (map FR v) / len (map FR v) in let h := len (map FR v) in
  let e := 31 * bpow radix2 (-53) * (dist (map FR p) (map FR x) + len (map FR p) + h) + bpow radix2 (-510) in
  exists b, cylinder_is_point_within c x = Ok b /\ (radial + e <= FR r -> e <= axial -> axial + e <= h -> b = true) /\ (FR r + e < radial \/ axial < - e \/ h + e < axial -> b = false).
Proof.
  intros p v x r c Hc Fr Lx Tp Tx B f Of Hf. cbv zeta. destruct (cylinder_fin _ _ _ _ Hc) as (_ & Fv). destruct (cylinder_F _ _ _ _ Hc) as (-> & Lp0 & Lv0 & Hl & Hpl). assert (Lp : @length flt p = 3%nat) by exact Lp0. assert (Lv : @length flt v = 3%nat) by exact Lv0. clear Lp0 Lv0. pose proof (norm_asz v Lv Fv B) as ((Fn & Pn & Hn) & _). assert (M : Forall moderate v) by (apply half_moderate_m, tame_half, (coords_moderate v 200); auto; [lia|apply B]).
  assert (Kl : bpow radix2 (-400) <= len (map FR v)) by (eapply Rle_trans; [|apply B]; apply bpow_le; lia). assert (Ln : (Z.of_nat (length p) <= max_dim)%Z) by (rewrite Lp; vm_compute; discriminate). assert (Lxp : length x = length p) by congruence.
  destruct (C84_line_distance_point p v x _ Hl Lxp Ln Tp Tx M Kl f Of Hf) as (d & Ed & Fd & Pd & Hd). destruct (C84_plane_distance_signed p v x _ Hpl Lxp Ln (tame_half _ Tp) (tame_half _ Tx) M Kl) as (s & Es & Fs & Hs).
  unfold cylinder_is_point_within, between_cap_planes, cylinder_length. cbn [cy_point cy_vector cy_radius]. rewrite Hl. cbn [bind]. rewrite Ed. cbn [bind]. rewrite Hpl. cbn [bind]. rewrite Es. cbn [bind]. eexists. split; [reflexivity|].
  change (nleb (n:=FNum)) with PrimFloat.leb. change (n0 (n:=FNum)) with 0%float. set (nv := norm_raw (N:=FNum) v) in *. clearbody nv. destruct zero_F as (Z0 & Fz).
  rewrite Lp in Hd, Hs. replace (3 * INR 3 + 22) with 31 in Hd by (simpl; lra). replace (2 * INR 3 + 12) with 18 in Hs by (simpl; lra). set (radial := dist (map FR x) f) in *. set (axial := dot (sub (map FR x) (map FR p)) (map FR v) / len (map FR v)) in *. set (h := len (map FR v)) in *. assert (P1 : 0 <= dist (map FR p) (map FR x)) by apply len_nonneg. pose proof (len_nonneg (map FR p)) as P2. set (D := dist (map FR p) (map FR x)) in *. set (P := len (map FR p)) in *. clearbody radial axial h D P. pose proof (bpow_gt_0 radix2 (-53)) as U. set (u := bpow radix2 (-53)) in *. clearbody u.
  assert (BB : bpow radix2 (-550) <= bpow radix2 (-510)) by (apply bpow_le; lia). pose proof (bpow_gt_0 radix2 (-510)) as B0. set (t := bpow radix2 (-510)) in *. set (t' := bpow radix2 (-550)) in *. clearbody t t'. assert (UD : 0 <= u * D) by (apply Rmult_le_pos; lra). assert (UP : 0 <= u * P) by (apply Rmult_le_pos; lra). assert (UH : 0 <= u * h) by (apply Rmult_le_pos; lra).
  apply Rabs_le_inv in Hd, Hs, Hn. split.
  - intros H1 H2 H3. rewrite !andb_true_iff. rewrite (leb_F _ _ Fd Fr), (leb_F _ _ Fz Fs), (leb_F _ _ Fs Fs), (leb_F _ _ Fs Fn), Z0. split; [lra|]. split; [split; lra|lra].
  - intro H. apply not_true_is_false. rewrite !andb_true_iff. rewrite (leb_F _ _ Fd Fr), (leb_F _ _ Fz Fs), (leb_F _ _ Fs Fs), (leb_F _ _ Fs Fn), Z0. intros (H1 & (H2 & _) & H3). destruct H as [H|[H|H]]; lra.
Qed.
Print Assumptions C97_is_point_within.
(** Exactly on the surface the answer can be wrong: a point of the base disk, well inside its rim, is reported outside. *)
Theorem C97_boundary_refuted : ~ (forall (p v x : list flt) (r : flt) (c : cylinder FNum), cylinder_new (N:=FNum) p v r = Ok c -> length x = 3%nat -> Forall tame p -> Forall tame v -> Forall tame x ->
  dot (sub (map FR x) (map FR p)) (map FR v) = 0 -> dist (map FR x) (map FR p) <= FR r -> cylinder_is_point_within c x = Ok true).
Proof.
  intro H. assert (E1 : FR 1%float = 1) by (apply one_F). assert (E0 : FR 0%float = 0) by (apply zero_F).
  assert (E3 : FR (-3)%float = -3) by (erewrite FR_val by (vm_compute; reflexivity); simpl; unfold F2R; simpl; lra). assert (E2 : FR 2%float = 2) by (erewrite FR_val by (vm_compute; reflexivity); simpl; unfold F2R; simpl; lra). assert (E4 : FR 4%float = 4) by (erewrite FR_val by (vm_compute; reflexivity); simpl; unfold F2R; simpl; lra).
  assert (B : 4 <= bpow radix2 500) by (apply Rle_trans with (bpow radix2 2); [simpl; lra|apply bpow_le; lia]).
  assert (TM : forall z, finite z -> Rabs (FR z) <= 4 -> tame z) by (intros z F A; split; [exact F|eapply Rle_trans; [exact A|apply Rle_trans with (bpow radix2 2); [simpl; lra|apply bpow_le; lia]]]).
  assert (T0 : tame 0%float) by (apply TM; [reflexivity|rewrite E0, Rabs_R0; lra]). assert (T1 : tame 1%float) by (apply TM; [reflexivity|rewrite E1, Rabs_pos_eq; lra]). assert (T2 : tame 2%float) by (apply TM; [reflexivity|rewrite E2, Rabs_pos_eq; lra]). assert (T3 : tame (-3)%float) by (apply TM; [reflexivity|rewrite E3; apply Rabs_le; lra]).
  assert (Q : cylinder_is_point_within (N:=FNum) (MkCylinder (N:=FNum) [0; 0; 0]%float [1; 1; 1]%float 4%float) [1; -3; 2]%float = Ok true).
  { apply (H [0; 0; 0]%float [1; 1; 1]%float [1; -3; 2]%float 4%float); [reflexivity|reflexivity|repeat (apply Forall_cons; auto)|repeat (apply Forall_cons; auto)|repeat (apply Forall_cons; auto)| |].
    - cbn [map]. rewrite E0, E1, E2, E3. unfold dot, sub. simpl. lra.
    - cbn [map]. rewrite E0, E1, E2, E3, E4. unfold dist, len, dot, sub. simpl. replace 4 with (R_sqrt.sqrt 16) by (replace 16 with (4 * 4) by lra; apply sqrt_square; lra). apply sqrt_le_1_alt. lra. }
  revert Q. change (cylinder_is_point_within (N:=FNum) (MkCylinder (N:=FNum) [0; 0; 0]%float [1; 1; 1]%float 4%float) [1; -3; 2]%float) with (Ok (A:=bool) false). discriminate.
Qed.
Print Assumptions C97_boundary_refuted.
(** ** The hypotheses are met, and the answers are not constant *)
Theorem C97_nonvacuous : let T := MkTrig FNum (fun x => x) (fun x => x) (fun x => x) (fun x _ => x) pi_F in let v := [0; 3; 4]%float in fair 3%float /\ len (map FR v) = 5 /\ bpow radix2 (-200) <= len (map FR v) <= bpow radix2 200 /\
  exists b s c, circle_new (N:=FNum) [1; 2]%float 3%float = Ok b /\ sphere_new (N:=FNum) [1; 2; 3]%float 3%float = Ok s /\ cylinder_new (N:=FNum) [0; 0; 0]%float v 3%float = Ok c /\
    circle_circumference T b = 18.849555921538759%float /\ sphere_volume T s = Ok 113.09733552923254%float /\ cylinder_volume T c = 141.37166941154069%float /\
    cylinder_is_point_within c [1; 2; 2]%float = Ok true /\ cylinder_is_point_within c [4; 2; 2]%float = Ok false /\ cylinder_is_point_within c [0; 6; 8]%float = Ok false.
Proof.
  assert (E3 : FR 3%float = 3) by (erewrite FR_val by (vm_compute; reflexivity); simpl; unfold F2R; simpl; lra). assert (E4 : FR 4%float = 4) by (erewrite FR_val by (vm_compute; reflexivity); simpl; unfold F2R; simpl; lra). assert (E0 : FR 0%float = 0) by (apply zero_F).
  cbv zeta. assert (L : len (map FR [0; 3; 4]%float) = 5). { cbn [map]. rewrite E0, E3, E4. unfold len, dot. simpl. replace (0 * 0 + (3 * 3 + (4 * 4 + 0))) with (5 * 5) by lra. apply sqrt_square. lra. }
  split. { split; [reflexivity|]. rewrite E3. split; [apply Rle_trans with (bpow radix2 0); [apply bpow_le; lia|simpl; lra]|apply Rle_trans with (bpow radix2 2); [simpl; lra|apply bpow_le; lia]]. }
  split; [exact L|]. rewrite L. split; [split; [apply Rle_trans with (bpow radix2 0); [apply bpow_le; lia|simpl; lra]|apply Rle_trans with (bpow radix2 3); [simpl; lra|apply bpow_le; lia]]|].
  do 3 eexists. split; [reflexivity|]. split; [reflexivity|]. split; [reflexivity|]. split; [reflexivity|]. split; [reflexivity|]. split; [reflexivity|]. split; [reflexivity|]. split; reflexivity.
Qed.
Print Assumptions C97_nonvacuous.
