(** * Property C94: the line in which two planes with whole-number coefficients meet, in double precision *)
From Coq Require Import String Reals List ZArith Floats Lra Lia Psatz Bool.
From Flocq Require Import Core BinarySingleNaN.
From Flocq Require Import IEEE754.PrimFloat.
From Verif.Model Require Import Outcome Num Instances Numpy BaseArray Vector Points Functions Line Plane.
From Verif.Spec Require Import Geometry Tolerance Floats Grid.
From Verif.Proof Require Import VecAlg Bridge Vectors Floats FloatErr.
From Verif.Prop Require Import Floats Accuracy AnyOrder Decisions Projections Grid GridCircles GridLines.
From Verif.Prop Require Fits GridSegments Planes.
From Verif.Proof Require Points Lines.
Import ListNotations.
Local Open Scope R_scope.

(** ** Specification: the linear system whose solution is the point of both planes nearest to the origin (with two multipliers), and how well a solver answers it *)
Definition nearest_system (n m : pt) : list pt :=
  match n, m with
  | [n1; n2; n3], [m1; m2; m3] => [[2; 0; 0; n1; m1]; [0; 2; 0; n2; m2]; [0; 0; 2; n3; m3]; [n1; n2; n3; 0; 0]; [m1; m2; m3; 0; 0]]
  | _, _ => []
  end.
(** Given any doubles whose values are exactly the system A x = b, the solver answers with finite doubles that satisfy each equation up to rho. *)
Definition answers_within (LA : linalg FNum) (A : list pt) (b : pt) (rho : R) : Prop :=
  forall (A' : list (list flt)) (b' : list flt), Forall (Forall finite) A' -> Forall finite b' -> map (map FR) A' = A -> map FR b' = b ->
  exists x : list flt, la_solve LA A' b' = Ok x /\ length x = length b /\ Forall finite x /\ forall i, (i < length b)%nat -> Rabs (dot (nth i A []) (map FR x) - nth i b 0) <= rho.

(** ** A point that nearly satisfies two plane equations is near their common line *)
Lemma near_both (p n q m x : pt) (rho : R) : length p = 3%nat -> length q = 3%nat -> length n = 3%nat -> length m = 3%nat -> length x = 3%nat -> ~ is_zero_vec (cross_spec n m) ->
  Rabs (dot n x - dot p n) <= rho -> Rabs (dot m x - dot q m) <= rho ->
  exists w, length w = 3%nat /\ on_plane p n (add x w) /\ on_plane q m (add x w) /\ len w <= rho * (len n + len m) / len (cross_spec n m).
Proof.
  intros Lp Lq Ln Lm Lx NZ Ha Hb. set (c := cross_spec n m) in *. assert (C0 : 0 < len c) by (pose proof (len_nonneg c); destruct (Req_dec (len c) 0) as [Z|]; [exfalso; apply NZ; apply len_zero_iff; exact Z|lra]).
  assert (CC : 0 < dot c c) by (rewrite <- len_sq; apply Rmult_lt_0_compat; auto). assert (Lag : dot c c = dot n n * dot m m - dot n m * dot n m) by (unfold c; apply lagrange; auto).
  set (a := dot n x - dot p n) in *. set (b := dot m x - dot q m) in *.
  set (w := add (scale ((b * dot n m - a * dot m m) / dot c c) n) (scale ((a * dot n m - b * dot n n) / dot c c) m)). assert (Lw : length w = 3%nat) by (unfold w; rewrite length_add, !length_scale, Ln, Lm; reflexivity).
  assert (Wn : dot w n = - a). { unfold w. rewrite dot_add_l, !dot_scale_l, (dot_comm m n) by (rewrite !length_scale; congruence). apply Rmult_eq_reg_r with (dot c c); [|lra]. transitivity ((b * dot n m - a * dot m m) * dot n n + (a * dot n m - b * dot n n) * dot n m); [field; lra|rewrite Lag; ring]. }
  assert (Wm : dot w m = - b). { unfold w. rewrite dot_add_l, !dot_scale_l by (rewrite !length_scale; congruence). apply Rmult_eq_reg_r with (dot c c); [|lra]. transitivity ((b * dot n m - a * dot m m) * dot n m + (a * dot n m - b * dot n n) * dot m m); [field; lra|rewrite Lag; ring]. }
  exists w. split; [exact Lw|]. split; [|split].
  - split; [rewrite length_add, Lx, Lw, Lp; reflexivity|]. rewrite dot_sub_l, dot_add_l by len. rewrite Wn. unfold a. rewrite (dot_comm x n). ring.
  - split; [rewrite length_add, Lx, Lw, Lq; reflexivity|]. rewrite dot_sub_l, dot_add_l by len. rewrite Wm. unfold b. rewrite (dot_comm x m). ring.
  - assert (LW : len w * len c = len (sub (scale b n) (scale a m))).
    { apply Rsqr_inj; [apply Rmult_le_pos; [apply len_nonneg|lra]|apply len_nonneg|]. unfold Rsqr. replace (len w * len c * (len w * len c)) with ((len w * len w) * (len c * len c)) by ring. rewrite !len_sq. rewrite Points.dot_sub_sub by (rewrite !length_scale; congruence). rewrite !dot_scale_l, !dot_scale_r.
      assert (WW : dot w w = ((b * dot n m - a * dot m m) / dot c c) * (- a) + ((a * dot n m - b * dot n n) / dot c c) * (- b)) by (rewrite <- Wn, <- Wm; unfold w at 1; rewrite dot_add_l, !dot_scale_l, (dot_comm n w), (dot_comm m w) by (rewrite !length_scale; congruence); reflexivity). rewrite WW. field. lra. }
    assert (T : len (sub (scale b n) (scale a m)) <= rho * (len n + len m)).
    { replace (sub (scale b n) (scale a m)) with (add (scale b n) (scale (- a) m)) by (apply Points.pt_ext; [rewrite length_add, length_sub, !length_scale; reflexivity|]; intros i _; rewrite Points.nth_add, Points.nth_sub, !Points.nth_scale by (rewrite !length_scale; congruence); ring). eapply Rle_trans; [apply len_triangle; rewrite !length_scale; congruence|]. rewrite !len_scale, Rabs_Ropp. pose proof (len_nonneg n). pose proof (len_nonneg m). assert (Rabs b * len n <= rho * len n) by (apply Rmult_le_compat_r; auto). assert (Rabs a * len m <= rho * len m) by (apply Rmult_le_compat_r; auto). lra. }
    apply Rmult_le_reg_r with (len c); auto. unfold Rdiv. rewrite Rmult_assoc, Rinv_l, Rmult_1_r by lra. lra.
Qed.

(** ** Plane.intersect_plane *)
Lemma plane_new_F (p v : list flt) l : plane_new (N:=FNum) p v = Ok l -> l = MkPlane (N:=FNum) p v /\ p <> [] /\ length v = length p /\ Forall finite p /\ Forall finite v.
Proof. intro H. unfold plane_new in H. destruct (check_point_vector p v) as [(p', d')| |] eqn:E; cbn [bind] in H; try discriminate. injection H as <-. apply check_F in E. destruct E as (-> & -> & Np & Fp & Fv & L & _). auto 10. Qed.
Lemma check_dir f K (p d : list flt) : grid_ok (f + f) -> (Z.of_nat (length d) * (K * K) < 2 ^ 53)%Z -> (0 <= K)%Z -> p <> [] -> length d = length p -> Forall finite p -> Forall (on_grid f K) d -> ~ is_zero_vec (map FR d) -> check_point_vector (N:=FNum) p d = Ok (p, d).
Proof.
  intros G B P Np L Hp Hd NZ. assert (Nd : d <> []) by (intro Z; rewrite Z in L; destruct p; [contradiction|discriminate]). destruct (C86_is_zero f K d G P B Hd) as (b & Eb & Hb).
  unfold check_point_vector. change (point_of (N:=FNum)) with (vector_of (N:=FNum)). rewrite (vector_of_ok p Np Hp), (vector_of_ok d Nd (on_grid_all _ _ _ Hd)). cbn [bind]. unfold dim1. fn. rewrite L, Nat.eqb_refl. cbn [negb]. rewrite Eb. cbn [bind].
  destruct b; [exfalso; apply NZ; apply Hb; reflexivity|reflexivity].
Qed.
Lemma two_val : FR 2%float = 2.
Proof. erewrite FR_val by (vm_compute; reflexivity). simpl. unfold F2R. simpl. lra. Qed.
Theorem C94_intersect_plane : forall LA e f g M M' (p n q m : list flt) (pl pl' : plane FNum), (-100 <= e <= 100)%Z -> (-100 <= f <= 100)%Z -> (-100 <= g <= 100)%Z -> (0 <= M)%Z -> (1 <= M')%Z -> (3 * (M * M') < 2 ^ 53)%Z -> (3 * (M' * M') <= 2 ^ 14)%Z ->
  plane_new p n = Ok pl -> plane_new q m = Ok pl' -> length p = 3%nat -> length q = 3%nat -> Forall (on_grid e M) p -> Forall (on_grid f M') n -> Forall (on_grid e M) q -> Forall (on_grid g M') m ->
  (dependent (map FR n) (map FR m) -> plane_intersect_plane LA tol_default pl pl' = Raise (ValueError "The planes must not be parallel.")) /\
  (~ dependent (map FR n) (map FR m) -> forall rho, answers_within LA (nearest_system (map FR n) (map FR m)) [0; 0; 0; dot (map FR p) (map FR n); dot (map FR q) (map FR m)] rho ->
   let c := cross_spec (map FR n) (map FR m) in let r := rho * (len (map FR n) + len (map FR m)) / len c in
   exists l, plane_intersect_plane LA tol_default pl pl' = Ok l /\ map FR (l_dir l) = c /\ length (l_point l) = 3%nat /\ Forall finite (l_point l) /\
     (forall X, on_line (map FR (l_point l)) (map FR (l_dir l)) X -> exists Y, on_plane (map FR p) (map FR n) Y /\ on_plane (map FR q) (map FR m) Y /\ dist X Y <= r) /\
     (forall Y, on_plane (map FR p) (map FR n) Y -> on_plane (map FR q) (map FR m) Y -> exists X, on_line (map FR (l_point l)) (map FR (l_dir l)) X /\ dist X Y <= r) /\
     Rabs (dot (map FR (l_point l)) c) <= 3 / 2 * rho * len c).
Proof.
  intros LA e f g M M' p n q m pl pl' He Hf Hg PM P' BM BM' Hpl Hpl' Lp Lq Hp Hn Hq Hm. apply plane_new_F in Hpl as (-> & Np & Ln & Fp & Fn), Hpl' as (-> & Nq & Lm & Fq & Fm). rewrite Lp in Ln. rewrite Lq in Lm. assert (Q14 : (M' <= 2 ^ 14)%Z) by nia.
  assert (Nn : n <> []) by (intro Z; rewrite Z in Ln; discriminate). assert (Nm : m <> []) by (intro Z; rewrite Z in Lm; discriminate).
  destruct (C92_is_parallel f g M' M' n m ltac:(lia) ltac:(lia) P' P' Nn ltac:(congruence) ltac:(rewrite Ln; exact BM') Hn Hm) as (b & Eb & Hb).
  unfold plane_intersect_plane. cbn [pl_normal pl_point]. fn. rewrite Eb. cbn [bind]. split; [intro D; apply Hb in D; subst b; reflexivity|]. intros ND rho HS. cbv zeta. set (c := cross_spec (map FR n) (map FR m)) in *. set (r := rho * (len (map FR n) + len (map FR m)) / len c) in *. destruct b; [exfalso; apply ND; apply (proj1 Hb eq_refl)|]. clear Hb Eb.
  assert (LnR : length (map FR n) = 3%nat) by (rewrite map_length; exact Ln). assert (LmR : length (map FR m) = 3%nat) by (rewrite map_length; exact Lm). assert (LpR : length (map FR p) = 3%nat) by (rewrite map_length; exact Lp). assert (LqR : length (map FR q) = 3%nat) by (rewrite map_length; exact Lq).
  destruct (grid_dots e f M M' ltac:(unfold grid_ok; lia) PM ltac:(lia) p n ltac:(congruence) Hp Hn ltac:(rewrite Lp; exact BM)) as (D1 & E1). destruct (grid_dots e g M M' ltac:(unfold grid_ok; lia) PM ltac:(lia) q m ltac:(congruence) Hq Hm ltac:(rewrite Lq; exact BM)) as (D2 & E2).
  pose proof (on_grid_finite _ _ _ D1) as F1. pose proof (on_grid_finite _ _ _ D2) as F2. clear D1 D2.
  destruct (C86_cross f g M' M' n m ltac:(unfold grid_ok; lia) ltac:(lia) Nn Nm ltac:(lia) ltac:(lia) Hn Hm) as (d & Ed & Ld & Gd & Md). assert (Pn : pad_to 3 (map FR n) = map FR n) by (apply Arrays.pad_to_id; lia). assert (Pm : pad_to 3 (map FR m) = map FR m) by (apply Arrays.pad_to_id; lia). rewrite Pn, Pm in Md. fold c in Md. clear Pn Pm.
  assert (NZ : ~ is_zero_vec c) by (intro Z; apply ND; apply cross_zero_iff; auto). rewrite (np_dot_F p n ltac:(congruence)), (np_dot_F q m ltac:(congruence)). cbn [bind]. set (dp := dot_raw (N:=FNum) p n) in *. set (dq := dot_raw (N:=FNum) q m) in *. clearbody dp dq.
  destruct n as [|n1 [|n2 [|n3 [|]]]]; try discriminate Ln. destruct m as [|m1 [|m2 [|m3 [|]]]]; try discriminate Lm.
  inversion_clear Fn as [|? ? N1 Fn']. inversion_clear Fn' as [|? ? N2 Fn]. inversion_clear Fn as [|? ? N3 _]. inversion_clear Fm as [|? ? M1 Fm']. inversion_clear Fm' as [|? ? M2 Fm]. inversion_clear Fm as [|? ? M3 _].
  assert (F0 : finite 0%float) by reflexivity. assert (F22 : finite 2%float) by reflexivity. assert (V0 : FR 0%float = 0) by apply zero_F. pose proof two_val as V2.
  destruct (HS [[2; 0; 0; n1; m1]; [0; 2; 0; n2; m2]; [0; 0; 2; n3; m3]; [n1; n2; n3; 0; 0]; [m1; m2; m3; 0; 0]]%float [0; 0; 0; dp; dq]%float) as (x & Ex & Lx & Fx & Hx).
  { repeat (constructor; [constructor; [assumption|constructor; [assumption|constructor; [assumption|constructor; [assumption|constructor; [assumption|constructor]]]]]|]). constructor. } { constructor; [assumption|constructor; [assumption|constructor; [assumption|constructor; [assumption|constructor; [assumption|constructor]]]]]. }
  { cbn [map nearest_system]. rewrite V0, V2. reflexivity. } { cbn [map]. rewrite V0, E1, E2. reflexivity. }
  change (nofZ (n:=FNum) 2) with 2%float. change (n0 (n:=FNum)) with 0%float. fn. rewrite Ex. cbn [bind]. cbn [length] in Lx. destruct x as [|x [|y [|z [|l [|k [|]]]]]]; try discriminate Lx. cbn [firstn].
  inversion_clear Fx as [|? ? X1 Fx']. inversion_clear Fx' as [|? ? X2 Fx]. inversion_clear Fx as [|? ? X3 _]. assert (FX : Forall finite [x; y; z]) by (constructor; [auto|constructor; [auto|constructor; [auto|constructor]]]).
  change (point_of (N:=FNum)) with (vector_of (N:=FNum)). rewrite (vector_of_ok [x; y; z] ltac:(discriminate) FX). cbn [bind]. fn. rewrite Ed. cbn [bind].
  assert (Bd : (Z.of_nat (@length flt d) * (2 * (M' * M') * (2 * (M' * M'))) < 2 ^ 53)%Z). { assert (Ld' : @length flt d = 3%nat) by exact Ld. rewrite Ld'. assert ((2 * (M' * M')) <= 2 ^ 14)%Z by lia. nia. }
  unfold line_new. rewrite (check_dir (f + g) (2 * (M' * M')) [x; y; z] d ltac:(unfold grid_ok; lia) Bd ltac:(nia) ltac:(discriminate) Ld FX Gd ltac:(rewrite Md; exact NZ)). cbn [bind].
  exists (MkLine (N:=FNum) [x; y; z] d). cbn [l_point l_dir]. split; [reflexivity|]. split; [exact Md|]. split; [reflexivity|]. split; [exact FX|]. clear FX Bd Gd Ed Ex.
  pose proof (Hx 0%nat ltac:(cbn; lia)) as H0. pose proof (Hx 1%nat ltac:(cbn; lia)) as H1. pose proof (Hx 2%nat ltac:(cbn; lia)) as H2. pose proof (Hx 3%nat ltac:(cbn; lia)) as H3. pose proof (Hx 4%nat ltac:(cbn; lia)) as H4. clear Hx.
  cbn [map nearest_system nth dot] in H0, H1, H2, H3, H4. rewrite Md. cbn [map]. set (N := map FR [n1; n2; n3]) in *. set (W := map FR [m1; m2; m3]) in *. set (o := [FR x; FR y; FR z]).
  assert (A1 : Rabs (dot N o - dot (map FR p) N) <= rho) by (unfold o, N at 1; cbn [map dot]; rewrite Rplus_0_r in H3 |- *; match goal with H : Rabs (?u - _) <= rho |- Rabs (?v - _) <= rho => replace v with u by ring end; exact H3).
  assert (A2 : Rabs (dot W o - dot (map FR q) W) <= rho) by (unfold o, W at 1; cbn [map dot]; match goal with H : Rabs (?u - dot (map FR q) _) <= rho |- Rabs (?v - _) <= rho => replace v with u by ring end; exact H4).
  destruct (near_both (map FR p) N (map FR q) W o rho LpR LqR LnR LmR eq_refl NZ A1 A2) as (w & Lw & O1 & O2 & LW). fold c in LW. fold r in LW.
  assert (Lc : length c = 3%nat) by (unfold c; apply length_cross; auto).
  assert (Dw : forall t, dist (add o (scale t c)) (add (add o w) (scale t c)) <= r). { intro t. rewrite dist_sym. unfold dist. replace (sub (add (add o w) (scale t c)) (add o (scale t c))) with w; [exact LW|]. assert (Lo : length o = 3%nat) by reflexivity. apply Points.pt_ext; [rewrite length_sub, !length_add, !length_scale, Lo, Lw, Lc; reflexivity|]. intros i _. repeat rewrite ?Points.nth_sub, ?Points.nth_add by len. ring. }
  split; [|split].
  - intros X (t & ->). exists (add (add o w) (scale t c)). pose proof (proj1 (Fits.planes_meet_line (map FR p) N (map FR q) W (add o w) (add (add o w) (scale t c)) LpR LnR LqR LmR ND O1 O2) ltac:(exists t; reflexivity)) as (I1 & I2). split; [exact I1|]. split; [exact I2|]. apply Dw.
  - intros Y Y1 Y2. destruct (proj2 (Fits.planes_meet_line (map FR p) N (map FR q) W (add o w) Y LpR LnR LqR LmR ND O1 O2) (conj Y1 Y2)) as (t & ->). fold c. exists (add o (scale t c)). split; [exists t; reflexivity|]. apply Dw.
  - set (u := [2 * FR x + FR l * FR n1 + FR k * FR m1; 2 * FR y + FR l * FR n2 + FR k * FR m2; 2 * FR z + FR l * FR n3 + FR k * FR m3]).
    assert (Eu : dot u c = 2 * dot o c). { assert (u = add (scale 2 o) (add (scale (FR l) N) (scale (FR k) W))) as -> by (unfold u, o, N, W, scale; cbn [map add]; repeat (apply (f_equal2 (@cons R)); [ring|]); reflexivity). rewrite !dot_add_l by (rewrite ?length_add, ?length_scale, ?LnR, ?LmR; reflexivity). rewrite !dot_scale_l. unfold c. rewrite (dot_comm N), (dot_comm W), cross_dot_l, cross_dot_r by auto. ring. }
    assert (Lu : len u <= 3 * rho). { assert (rho0 : 0 <= rho) by (eapply Rle_trans; [apply Rabs_pos|exact H0]). pose proof (len_affine 0 rho u u ltac:(lra) rho0) as Q. cbn [length INR] in Q. assert (Fu : Forall2 (fun a b : R => Rabs a <= 0 * Rabs b + rho) u u); [|specialize (Q Fu); unfold u in *; cbn [length INR] in Q; lra].
      unfold u. constructor; [|constructor; [|constructor; [|constructor]]]; rewrite Rmult_0_l, Rplus_0_l; match goal with |- Rabs ?v <= _ => first [replace v with (2 * FR x + (0 * FR y + (0 * FR z + (FR n1 * FR l + (FR m1 * FR k + 0)))) - 0) by ring; exact H0 | replace v with (0 * FR x + (2 * FR y + (0 * FR z + (FR n2 * FR l + (FR m2 * FR k + 0)))) - 0) by ring; exact H1 | replace v with (0 * FR x + (0 * FR y + (2 * FR z + (FR n3 * FR l + (FR m3 * FR k + 0)))) - 0) by ring; exact H2] end. }
    pose proof (cauchy_schwarz u c ltac:(rewrite Lc; reflexivity)) as CS. rewrite Eu, Rabs_mult, (Rabs_pos_eq 2) in CS by lra. assert (len u * len c <= 3 * rho * len c) by (apply Rmult_le_compat_r; [apply len_nonneg|exact Lu]). lra.
Qed.
Print Assumptions C94_intersect_plane.

(** ** Plane.from_vectors and Plane.from_points: on grids the decision is exact, and so is the normal *)
Theorem C94_from_vectors : forall e f M M' (p a b : list flt), (-200 <= f <= 200)%Z -> (0 <= M)%Z -> (1 <= M')%Z -> (Z.of_nat (length a) * (M' * M') <= 2 ^ 14)%Z -> p <> [] -> (length p <= 3)%nat -> a <> [] -> (length a <= 3)%nat -> length b = length a ->
  Forall (on_grid e M) p -> Forall (on_grid f M') a -> Forall (on_grid f M') b ->
  (dependent (map FR a) (map FR b) -> plane_from_vectors (N:=FNum) tol_default p a b = Raise (ValueError "The vectors must not be parallel.")) /\
  (~ dependent (map FR a) (map FR b) -> exists pl, plane_from_vectors (N:=FNum) tol_default p a b = Ok pl /\ map FR (pl_point pl) = pad_to 3 (map FR p) /\ map FR (pl_normal pl) = cross_spec (pad_to 3 (map FR a)) (pad_to 3 (map FR b))).
Proof.
  intros e f M M' p a b Hf PM P' B Np Lp Na La Lb Hp Ha Hb. assert (Nb : b <> []) by (intro Z; rewrite Z in Lb; destruct a; [contradiction|discriminate]). assert (n1 : (1 <= Z.of_nat (length a))%Z) by (destruct a; [contradiction|cbn [length]; lia]). assert (BM : (M' * M' <= 2 ^ 14)%Z) by nia.
  destruct (C92_is_parallel f f M' M' a b ltac:(lia) ltac:(lia) P' P' Na Lb B Ha Hb) as (r & Er & Hr). unfold plane_from_vectors. rewrite (vector_of_ok a Na (on_grid_all _ _ _ Ha)). cbn [bind]. rewrite Er. cbn [bind].
  split; [intro D; apply Hr in D; subst r; reflexivity|]. intro ND. destruct r; [exfalso; apply ND; apply (proj1 Hr eq_refl)|]. clear Hr Er.
  destruct (C86_cross f f M' M' a b ltac:(unfold grid_ok; lia) ltac:(lia) Na Nb La ltac:(lia) Ha Hb) as (n & En & Ln & Gn & Mn). rewrite En. cbn [bind]. change (point_of (N:=FNum)) with (vector_of (N:=FNum)). rewrite (vector_of_ok p Np (on_grid_all _ _ _ Hp)). cbn [bind].
  destruct (grid_pad3 e M p PM Np Lp Hp) as (x & y & z & E3 & EX & G1 & G2 & G3). rewrite E3. cbn [bind]. assert (NZ : ~ is_zero_vec (map FR n)). { rewrite Mn. apply Planes.pad_cross_nonzero; [rewrite !map_length; auto|rewrite map_length; exact La|exact ND]. }
  assert (Ln' : @length flt n = 3%nat) by exact Ln. assert (B3 : (Z.of_nat (@length flt n) * (2 * (M' * M') * (2 * (M' * M'))) < 2 ^ 53)%Z) by (rewrite Ln'; nia).
  unfold plane_new. rewrite (check_dir (f + f) (2 * (M' * M')) [x; y; z] n ltac:(unfold grid_ok; lia) B3 ltac:(nia) ltac:(discriminate) Ln' ltac:(constructor; [apply G1|constructor; [apply G2|constructor; [apply G3|constructor]]]) Gn NZ). cbn [bind].
  eexists. split; [reflexivity|]. cbn [pl_point pl_normal]. split; [symmetry; exact EX|exact Mn].
Qed.
Print Assumptions C94_from_vectors.
(** Whatever the SVD says about the three points, collinear ones never give a plane, and the plane of the others is exact. *)
Theorem C94_from_points : forall LA tr e M M' (a b c : list flt), (-100 <= e <= 100)%Z -> (0 <= M <= 2 ^ 50)%Z -> (1 <= M')%Z -> (Z.of_nat (length a) * (M' * M') <= 2 ^ 14)%Z -> a <> [] -> (length a <= 3)%nat -> length b = length a -> length c = length a ->
  Forall (on_grid e M) a -> Forall (on_grid e M) b -> Forall (on_grid e M) c -> Forall (fun y => Rabs y <= IZR M' * bpow radix2 e) (sub (map FR b) (map FR a)) -> Forall (fun y => Rabs y <= IZR M' * bpow radix2 e) (sub (map FR c) (map FR a)) ->
  let ab := sub (map FR b) (map FR a) in let ac := sub (map FR c) (map FR a) in
  (are_collinear LA tr [a; b; c] = Ok true -> plane_from_points (N:=FNum) LA tr a b c = Raise (ValueError "The points must not be collinear.")) /\
  (are_collinear LA tr [a; b; c] = Ok false -> dependent ab ac -> plane_from_points (N:=FNum) LA tr a b c = Raise (ValueError "The vectors must not be parallel.")) /\
  (are_collinear LA tr [a; b; c] = Ok false -> ~ dependent ab ac -> exists pl, plane_from_points (N:=FNum) LA tr a b c = Ok pl /\ map FR (pl_point pl) = pad_to 3 (map FR a) /\ map FR (pl_normal pl) = cross_spec (pad_to 3 ab) (pad_to 3 ac)).
Proof.
  intros LA tr e M M' a b c He HM P' B Na L3 Lb Lc Ha Hb Hc HB HC. cbv zeta. unfold plane_from_points.
  assert (EP : points_of (N:=FNum) ([a; b; c] : list (vec FNum)) = Ok ([a; b; c] : list (vec FNum))). { apply (points_of_ok [a; b; c] (length a)); [discriminate|destruct a; [contradiction|cbn [length]; lia]|constructor; [auto|constructor; [auto|constructor; [auto|constructor]]]|constructor; [eapply on_grid_all; eauto|constructor; [eapply on_grid_all; eauto|constructor; [eapply on_grid_all; eauto|constructor]]]]. } cbn zeta in EP. fn. rewrite EP. cbn [bind]. clear EP.
  split; [intros ->; reflexivity|]. destruct (C86_from_points e M a b ltac:(unfold grid_ok; lia) ltac:(lia) Na Lb Ha Hb) as (v & Ev & Gv & Lv & Mv). destruct (C86_from_points e M a c ltac:(unfold grid_ok; lia) ltac:(lia) Na Lc Ha Hc) as (w & Ew & Gw & Lw & Mw).
  rewrite <- Mv in HB |- *. rewrite <- Mw in HC |- *. apply (GridSegments.regrid _ _ M') in Gv, Gw; auto. assert (Nv : v <> []) by (intro Z; rewrite Z in Lv; destruct a; [contradiction|discriminate]). assert (Lv' : @length flt v = @length flt a) by exact Lv. assert (Lw' : @length flt w = @length flt v) by (rewrite Lv'; exact Lw).
  destruct (C94_from_vectors e e M M' a v w ltac:(lia) ltac:(lia) P' ltac:(rewrite Lv'; exact B) Na L3 Nv ltac:(rewrite Lv'; exact L3) Lw' Ha Gv Gw) as (K1 & K2).
  split; intros ->; cbn [bind]; rewrite Ev; cbn [bind]; rewrite Ew; cbn [bind]; auto.
Qed.
Print Assumptions C94_from_points.

(** The planes x + y = 2 and z = 3, with a solver that answers exactly. *)
Theorem C94_nonvacuous : exists (LA : linalg FNum) (pl pl' : plane FNum), let p := [2; 0; 0]%float in let n := [1; 1; 0]%float in let q := [0; 0; 3]%float in let m := [0; 0; 1]%float in
  plane_new p n = Ok pl /\ plane_new q m = Ok pl' /\ Forall (on_grid 0 3) p /\ Forall (on_grid 0 3) n /\ Forall (on_grid 0 3) q /\ Forall (on_grid 0 3) m /\ ~ dependent (map FR n) (map FR m) /\
  answers_within LA (nearest_system (map FR n) (map FR m)) [0; 0; 0; dot (map FR p) (map FR n); dot (map FR q) (map FR m)] 0 /\
  plane_intersect_plane LA tol_default pl pl' = Ok (MkLine (N:=FNum) [1; 1; 3]%float [1; -1; 0]%float).
Proof.
  exists (MkLinalg (N:=FNum) (fun rows => Ok ([], [1; 1; 1]%float, [])) (fun _ _ => Ok [1; 1; 3; -2; -6]%float) (fun _ b => Ok b)), (MkPlane (N:=FNum) [2; 0; 0]%float [1; 1; 0]%float), (MkPlane (N:=FNum) [0; 0; 3]%float [0; 0; 1]%float). cbv zeta.
  assert (V0 : FR 0%float = 0) by apply zero_F. assert (V1 : FR 1%float = 1) by apply one_F. assert (V2 : FR 2%float = 2) by apply two_val. assert (V3 : FR 3%float = 3) by (erewrite FR_val by (vm_compute; reflexivity); simpl; unfold F2R; simpl; lra). assert (V6 : FR (-6)%float = -6) by (erewrite FR_val by (vm_compute; reflexivity); simpl; unfold F2R; simpl; lra). assert (V2' : FR (-2)%float = -2) by (erewrite FR_val by (vm_compute; reflexivity); simpl; unfold F2R; simpl; lra).
  assert (G0 : on_grid 0 3 0%float) by (lit 0%Z). assert (G1 : on_grid 0 3 1%float) by (lit 1%Z). assert (G2 : on_grid 0 3 2%float) by (lit 2%Z). assert (G3 : on_grid 0 3 3%float) by (lit 3%Z).
  split; [reflexivity|]. split; [reflexivity|]. do 4 (split; [constructor; [auto|constructor; [auto|constructor; [auto|constructor]]]|]). split. { intro D. apply dependent_sq in D; [|reflexivity]. cbn [map dot] in D. rewrite V0, V1 in D. lra. }
  split; [|reflexivity]. intros A' b' _ _ _ _. exists [1; 1; 3; -2; -6]%float. split; [reflexivity|]. split; [reflexivity|]. split; [repeat constructor; reflexivity|]. intros i Hi. cbn [map nearest_system]. rewrite V0, V1, V2, V3, V2', V6. cbn [length] in Hi.
  destruct i as [|[|[|[|[|]]]]]; cbn [nth dot]; try (unfold Rabs; destruct Rcase_abs; lra). lia.
Qed.
Print Assumptions C94_nonvacuous.
