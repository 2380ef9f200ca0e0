(** * The linear algebra of Cylinder.best_fit for a fixed direction *)
From Coq Require Import String Reals List ZArith Lra Lia Psatz Bool.
From Verif.Model Require Import Outcome Num Instances Numpy BaseArray Vector Points Functions Line Plane Sphere Cylinder.
From Verif.Spec Require Import Geometry Tolerance Mesh Linalg.
From Verif.Proof Require Import VecAlg Bridge Arrays Vectors Points Lines Cylinders.
Import ListNotations.
Local Open Scope R_scope.

Definition is3x3 (M : list pt) : Prop := exists a b c : pt, M = [a; b; c] /\ length a = 3%nat /\ length b = 3%nat /\ length c = 3%nat.
Ltac dm := repeat match goal with H : is3x3 ?M |- _ => let a := fresh "a" in let b := fresh "b" in let c := fresh "c" in destruct H as (a & b & c & -> & ? & ? & ?) end; d3.
Ltac m3 := exists [0;0;0], [0;0;0], [0;0;0].

(** Component of [z] perpendicular to the unit vector [d]. *)
Definition perp (d z : pt) : pt := sub z (scale (dot z d) d).
Lemma length_perp d z : length d = 3%nat -> length z = 3%nat -> length (perp d z) = 3%nat. Proof. intros. unfold perp. len. Qed.

Ltac mred := unfold matvec, matmul, madd, mesh2, outer, transpose, column, projection_matrix, skew_matrix, trace3, scale, perp; cbn [map combine map2 seq fst snd dim2 length nth dot_raw column]; rewrite ?dot_raw_dot; unfold scale; cbn [map nth dot add sub cross_spec]; rops.
Lemma proj_R (d z : pt) : length d = 3%nat -> length z = 3%nat -> matvec (N:=RNum) (projection_matrix (N:=RNum) d) z = perp d z.
Proof. intros. d3. mred. cbn. rops. veq. Qed.
Lemma skew_R (d z : pt) : length d = 3%nat -> length z = 3%nat -> matvec (N:=RNum) (skew_matrix (N:=RNum) d) z = cross_spec d z.
Proof. intros. d3. cbn. rops. veq. Qed.
Lemma skew_T (d z : pt) : length d = 3%nat -> length z = 3%nat -> matvec (N:=RNum) (transpose (N:=RNum) 3 (skew_matrix (N:=RNum) d)) z = scale (-1) (cross_spec d z).
Proof. intros. d3. unfold scale. cbn. rops. veq. Qed.
Lemma outer_R (s w : pt) : length s = 3%nat -> length w = 3%nat -> matvec (N:=RNum) (outer (N:=RNum) s s) w = scale (dot s w) s.
Proof. intros. d3. unfold scale. cbn. rops. veq. Qed.
Lemma outer_3 (s : pt) : length s = 3%nat -> is3x3 (outer (N:=RNum) s s).
Proof. intros. d3. do 3 eexists. split; [reflexivity|]. auto. Qed.
Lemma skew_3 (d : pt) : is3x3 (skew_matrix (N:=RNum) d). Proof. do 3 eexists. split; [reflexivity|]. auto. Qed.
Lemma skewT_3 (d : pt) : is3x3 (transpose (N:=RNum) 3 (skew_matrix (N:=RNum) d)). Proof. do 3 eexists. split; [reflexivity|]. auto. Qed.
Lemma madd_3 A B : is3x3 A -> is3x3 B -> is3x3 (madd (N:=RNum) A B).
Proof. intros. dm. do 3 eexists. split; [reflexivity|]. auto. Qed.
Lemma madd_R A B (w : pt) : is3x3 A -> is3x3 B -> length w = 3%nat -> matvec (N:=RNum) (madd (N:=RNum) A B) w = add (matvec (N:=RNum) A w) (matvec (N:=RNum) B w).
Proof. intros. dm. cbn. rops. veq. Qed.
Lemma matmul_3 A B : is3x3 A -> is3x3 B -> is3x3 (matmul (N:=RNum) A B).
Proof. intros. dm. do 3 eexists. split; [reflexivity|]. auto. Qed.
Lemma matmul_R A B (w : pt) : is3x3 A -> is3x3 B -> length w = 3%nat -> matvec (N:=RNum) (matmul (N:=RNum) A B) w = matvec (N:=RNum) A (matvec (N:=RNum) B w).
Proof. intros. dm. cbn. rops. veq. Qed.
Lemma length_matvec A (w : pt) : is3x3 A -> length (matvec (N:=RNum) A w) = 3%nat.
Proof. intros (a & b & c & -> & _). reflexivity. Qed.
Lemma trace_add M A B : is3x3 M -> is3x3 A -> is3x3 B -> trace3 (N:=RNum) (matmul (N:=RNum) M (madd (N:=RNum) A B)) = trace3 (N:=RNum) (matmul (N:=RNum) M A) + trace3 (N:=RNum) (matmul (N:=RNum) M B).
Proof. intros. dm. cbn. rops. ring. Qed.
Lemma trace_outer M (s : pt) : is3x3 M -> length s = 3%nat -> trace3 (N:=RNum) (matmul (N:=RNum) M (outer (N:=RNum) s s)) = dot s (matvec (N:=RNum) M s).
Proof. intros. dm. cbn. rops. ring. Qed.
Lemma trace_zero M : is3x3 M -> trace3 (N:=RNum) (matmul (N:=RNum) M [[0;0;0];[0;0;0];[0;0;0]]) = 0.
Proof. intros. dm. cbn. rops. ring. Qed.

Lemma a_matrix_R (ss : list pt) : Forall (fun s => length s = 3%nat) ss -> is3x3 (a_matrix (N:=RNum) ss) /\
  (forall w, length w = 3%nat -> matvec (N:=RNum) (a_matrix (N:=RNum) ss) w = vsum 3 (map (fun s => scale (dot s w) s) ss)) /\
  (forall M, is3x3 M -> trace3 (N:=RNum) (matmul (N:=RNum) M (a_matrix (N:=RNum) ss)) = Rsum (map (fun s => dot s (matvec (N:=RNum) M s)) ss)).
Proof.
  induction 1 as [|s ss Hs F (I1 & I2 & I3)].
  - split; [do 3 eexists; split; [reflexivity|auto]|]. split; [intros w Hw; d3; cbn; rops; unfold origin; cbn [repeat]; veq|]. intros M HM. apply trace_zero, HM.
  - change (a_matrix (N:=RNum) (s :: ss)) with (madd (N:=RNum) (outer (N:=RNum) s s) (a_matrix (N:=RNum) ss)). pose proof (outer_3 s Hs). split; [apply madd_3; auto|]. split.
    + intros w Hw. rewrite madd_R, outer_R, I2 by auto. reflexivity.
    + intros M HM. rewrite trace_add, trace_outer, I3 by auto. reflexivity.
Qed.
Lemma a_hat_R (d : pt) (ss : list pt) : length d = 3%nat -> Forall (fun s => length s = 3%nat) ss ->
  let ah := a_hat_matrix (N:=RNum) (a_matrix (N:=RNum) ss) (skew_matrix (N:=RNum) d) in is3x3 ah /\
  forall w, length w = 3%nat -> matvec (N:=RNum) ah w = vsum 3 (map (fun s => scale (dot (cross_spec d s) w) (cross_spec d s)) ss).
Proof.
  intros Ld F ah. destruct (a_matrix_R ss F) as (A1 & A2 & _). pose proof (skew_3 d) as K1. pose proof (skewT_3 d) as K2. unfold ah, a_hat_matrix. split; [apply matmul_3; auto; apply matmul_3; auto|].
  intros w Lw. rewrite matmul_R by (auto; apply matmul_3; auto). rewrite matmul_R by auto. rewrite skew_T by auto.
  rewrite A2 by (rewrite length_scale, length_cross; auto). rewrite skew_R by (first [exact Ld | apply length_vsum; apply Forall_map; eapply Forall_impl; [|exact F]; intros s Hs; simpl; len]).
  clear A1 A2 K1 K2 ah. induction F as [|s ss Hs F IH]; [d3; cbn; veq|].
  cbn [map]. rewrite !vsum_cons. rewrite <- IH. set (X := vsum 3 _). assert (LX : length X = 3%nat) by (apply length_vsum; apply Forall_map; eapply Forall_impl; [|exact F]; intros t Ht; simpl; len).
  clearbody X. clear IH F. d3. unfold scale. cbn. veq.
Qed.

(** ** An orthonormal frame (u1, u2, d) with u2 = d x u1 *)
Record frame (d u1 u2 : pt) : Prop := {
  fr_d : length d = 3%nat; fr_1 : length u1 = 3%nat; fr_2 : length u2 = 3%nat;
  fr_dd : dot d d = 1; fr_11 : dot u1 u1 = 1; fr_22 : dot u2 u2 = 1; fr_12 : dot u1 u2 = 0; fr_1d : dot u1 d = 0; fr_2d : dot u2 d = 0;
  fr_c1 : cross_spec d u1 = u2; fr_c2 : cross_spec d u2 = scale (-1) u1;
  fr_span : forall z, length z = 3%nat -> z = add (add (scale (dot z u1) u1) (scale (dot z u2) u2)) (scale (dot z d) d) }.
Lemma frame_exists (d : pt) : length d = 3%nat -> dot d d = 1 -> exists u1 u2, frame d u1 u2.
Proof.
  intros Ld Ud. assert (K : exists u1, length u1 = 3%nat /\ dot u1 u1 = 1 /\ dot u1 d = 0).
  { destruct (list3 d Ld) as (a & b & c & ->). simpl in Ud. destruct (Req_EM_T (a * a + b * b) 0) as [Z|Z].
    - exists [1; 0; 0]. split; auto. simpl. assert (a = 0) by nra. subst. split; lra.
    - assert (0 < a * a + b * b) by nra. set (s := sqrt (a * a + b * b)). assert (Hs : s * s = a * a + b * b) by (apply sqrt_sqrt; lra). assert (s <> 0) by (intro E; rewrite E in Hs; lra).
      exists [- b / s; a / s; 0]. split; auto. simpl. split; [|field; auto]. transitivity ((a * a + b * b) / (s * s)); [field; auto|]. rewrite Hs. field. auto. }
  destruct K as (u1 & L1 & U1 & D1). exists u1, (cross_spec d u1).
  assert (L2 : length (cross_spec d u1) = 3%nat) by (apply length_cross; auto).
  assert (U2 : dot (cross_spec d u1) (cross_spec d u1) = 1) by (rewrite lagrange by auto; rewrite Ud, U1, (dot_comm d u1), D1; ring).
  constructor; auto.
  - rewrite dot_comm. apply cross_dot_r; auto.
  - apply cross_dot_l; auto.
  - clear U2 L2. destruct (list3 d Ld) as (a & b & c & ->). destruct (list3 u1 L1) as (x & y & z & ->). unfold scale. cbn in *.
    repeat (apply (f_equal2 (@cons R))); try reflexivity.
    + replace (b * (a * y - b * x) - c * (c * x - a * z)) with (a * (x * a + (y * b + (z * c + 0))) - x * (a * a + (b * b + (c * c + 0)))) by ring. rewrite D1, Ud. ring.
    + replace (c * (b * z - c * y) - a * (a * y - b * x)) with (b * (x * a + (y * b + (z * c + 0))) - y * (a * a + (b * b + (c * c + 0)))) by ring. rewrite D1, Ud. ring.
    + replace (a * (c * x - a * z) - b * (b * z - c * y)) with (c * (x * a + (y * b + (z * c + 0))) - z * (a * a + (b * b + (c * c + 0)))) by ring. rewrite D1, Ud. ring.
  - intros w Lw. set (u2 := cross_spec d u1) in *. assert (D2 : dot u2 d = 0) by (apply cross_dot_l; auto). assert (D12 : dot u2 u1 = 0) by (apply cross_dot_r; auto).
    set (z := add (add (scale (dot w u1) u1) (scale (dot w u2) u2)) (scale (dot w d) d)). assert (Lz : length z = length w) by (unfold z; len).
    symmetry. apply (proj1 (sub_zero_iff z w Lz)). apply dot_self_zero_iff. clear Lz. unfold z. clear z.
    set (r := sub _ w). assert (Lr : length r = 3%nat) by (unfold r; len).
    assert (R1 : dot r u1 = 0). { unfold r. rewrite dot_sub_l by len. rewrite !dot_add_l by len. rewrite !dot_scale_l, U1, D12, (dot_comm d u1), D1. ring. }
    assert (R2 : dot r u2 = 0). { unfold r. rewrite dot_sub_l by len. rewrite !dot_add_l by len. rewrite !dot_scale_l, U2, (dot_comm u1 u2), D12, (dot_comm d u2), D2. ring. }
    assert (R3 : dot r d = 0). { unfold r. rewrite dot_sub_l by len. rewrite !dot_add_l by len. rewrite !dot_scale_l, Ud, D1, D2. ring. }
    clearbody r. clear Lw w. assert (C : cross_spec r u2 = origin 3).
    { unfold u2. transitivity (sub (scale (dot r u1) d) (scale (dot r d) u1)); [|rewrite R1, R3, !scale_0, Ld, L1; unfold origin; simpl; repeat f_equal; ring].
      clear - Ld L1 Lr. d3. unfold scale. cbn. veq. }
    pose proof (lagrange r u2 Lr L2) as G. rewrite C, dot_origin_l, R2, U2 in G. lra.
Qed.

Section Planar.
Context (d u1 u2 : pt) (Fr : frame d u1 u2) (ps : list pt) (F : Forall (fun x => length x = 3%nat) ps).
Let Ld := fr_d _ _ _ Fr. Let L1 := fr_1 _ _ _ Fr. Let L2 := fr_2 _ _ _ Fr.
Notation al x := (dot x u1).
Notation be x := (dot x u2).
Definition Saa := Rsum (map (fun x => al x * al x) ps).
Definition Sab := Rsum (map (fun x => al x * be x) ps).
Definition Sbb := Rsum (map (fun x => be x * be x) ps).
Definition Sa3 := Rsum (map (fun x => (al x * al x + be x * be x) * al x) ps).
Definition Sb3 := Rsum (map (fun x => (al x * al x + be x * be x) * be x) ps).
Definition SD := Saa * Sbb - Sab * Sab.
Definition SX := (Sbb * Sa3 - Sab * Sb3) / (2 * SD).
Definition SY := (Saa * Sb3 - Sab * Sa3) / (2 * SD).

Lemma perp_span x : length x = 3%nat -> perp d x = add (scale (al x) u1) (scale (be x) u2).
Proof.
  intro Lx. unfold perp. rewrite (fr_span _ _ _ Fr x Lx) at 1. apply pt_ext; [len|]. intros i _. repeat rewrite ?nth_add, ?nth_scale, ?nth_sub by len. ring.
Qed.
Lemma span_eq z a b : length z = 3%nat -> dot z d = 0 -> dot z u1 = a -> dot z u2 = b -> z = add (scale a u1) (scale b u2).
Proof.
  intros Lz D A B. rewrite (fr_span _ _ _ Fr z Lz). rewrite A, B, D, scale_0. apply add_origin_r. len.
Qed.
Lemma dot_perp x y : length x = 3%nat -> length y = 3%nat -> dot (perp d x) (perp d y) = al x * al y + be x * be y.
Proof.
  intros Lx Ly. rewrite !perp_span by auto. rewrite dot_add_l by len. rewrite !dot_add_r by len. rewrite !dot_scale_l, !dot_scale_r, (fr_11 _ _ _ Fr), (fr_22 _ _ _ Fr), (fr_12 _ _ _ Fr), (dot_comm u2 u1), (fr_12 _ _ _ Fr). ring.
Qed.
Lemma perp_d x : length x = 3%nat -> dot (perp d x) d = 0.
Proof. intro Lx. unfold perp. rewrite dot_sub_l by len. rewrite dot_scale_l, (fr_dd _ _ _ Fr). ring. Qed.
Lemma perp_1 x : length x = 3%nat -> dot (perp d x) u1 = al x.
Proof. intro Lx. unfold perp. rewrite dot_sub_l by len. rewrite dot_scale_l, (dot_comm d u1), (fr_1d _ _ _ Fr). ring. Qed.
Lemma perp_2 x : length x = 3%nat -> dot (perp d x) u2 = be x.
Proof. intro Lx. unfold perp. rewrite dot_sub_l by len. rewrite dot_scale_l, (dot_comm d u2), (fr_2d _ _ _ Fr). ring. Qed.
Lemma cross_perp x : length x = 3%nat -> cross_spec d (perp d x) = add (scale (- be x) u1) (scale (al x) u2).
Proof.
  intro Lx. rewrite perp_span by auto. transitivity (add (scale (al x) (cross_spec d u1)) (scale (be x) (cross_spec d u2))).
  - generalize (dot x u1) (dot x u2). intros a b. clear - Ld L1 L2. d3. unfold scale. cbn. veq.
  - rewrite (fr_c1 _ _ _ Fr), (fr_c2 _ _ _ Fr). apply pt_ext; [len|]. intros i _. repeat rewrite ?nth_add, ?nth_scale by len. ring.
Qed.
Lemma samples_R : fit_samples (N:=RNum) d ps = map (perp d) ps.
Proof. unfold fit_samples. apply map_ext_in. intros x Hx. rewrite Forall_forall in F. apply proj_R; auto. Qed.
Lemma len_samples : Forall (fun s => length s = 3%nat) (map (perp d) ps).
Proof. apply Forall_map. eapply Forall_impl; [|exact F]. intros x Hx. apply length_perp; auto. Qed.
Lemma in3 x : In x ps -> length x = 3%nat. Proof. revert x. apply Forall_forall, F. Qed.

(** a_hat applied to a vector with components a, b. *)
Lemma a_hat_planar w a b : length w = 3%nat -> dot w u1 = a -> dot w u2 = b ->
  matvec (N:=RNum) (a_hat_matrix (N:=RNum) (a_matrix (N:=RNum) (fit_samples (N:=RNum) d ps)) (skew_matrix (N:=RNum) d)) w =
  add (scale (Sbb * a - Sab * b) u1) (scale (Saa * b - Sab * a) u2).
Proof.
  intros Lw A B. rewrite samples_R. destruct (a_hat_R d _ Ld len_samples) as (K1 & K2). rewrite K2 by auto. rewrite map_map. clear K1 K2.
  set (f := fun x => scale (dot (cross_spec d (perp d x)) w) (cross_spec d (perp d x))). change (vsum 3 (map f ps) = add (scale (Sbb * a - Sab * b) u1) (scale (Saa * b - Sab * a) u2)).
  assert (Ef : forall x, In x ps -> f x = scale (al x * b - be x * a) (add (scale (- be x) u1) (scale (al x) u2))).
  { intros x Hx. unfold f. rewrite cross_perp by (apply in3; auto). f_equal. rewrite dot_add_l by len. rewrite !dot_scale_l, (dot_comm u1 w), (dot_comm u2 w), A, B. ring. }
  assert (Lf : Forall (fun r => length r = 3%nat) (map f ps)). { apply Forall_map, Forall_forall. intros x Hx. rewrite Ef by auto. len. }
  apply span_eq.
  - apply length_vsum, Lf.
  - rewrite (dot_vsum 3) by exact Lf. rewrite map_map. rewrite (Rsum_map_ext _ (fun _ => 0)); [rewrite Rsum_map_const; ring|]. intros x Hx. rewrite Ef by auto.
    rewrite dot_scale_l, dot_add_l by len. rewrite !dot_scale_l, (fr_1d _ _ _ Fr), (fr_2d _ _ _ Fr). ring.
  - rewrite (dot_vsum 3) by exact Lf. rewrite map_map. rewrite (Rsum_map_ext _ (fun x => a * (be x * be x) + (- b) * (al x * be x))); [rewrite Rsum_map_add, !Rsum_map_scale; fold Sbb Sab; ring|]. intros x Hx. rewrite Ef by auto.
    rewrite dot_scale_l, dot_add_l by len. rewrite !dot_scale_l, (fr_11 _ _ _ Fr), (dot_comm u2 u1), (fr_12 _ _ _ Fr). ring.
  - rewrite (dot_vsum 3) by exact Lf. rewrite map_map. rewrite (Rsum_map_ext _ (fun x => b * (al x * al x) + (- a) * (al x * be x))); [rewrite Rsum_map_add, !Rsum_map_scale; fold Saa Sab; ring|]. intros x Hx. rewrite Ef by auto.
    rewrite dot_scale_l, dot_add_l by len. rewrite !dot_scale_l, (fr_22 _ _ _ Fr), (fr_12 _ _ _ Fr). ring.
Qed.
Lemma fit_center_R : SD <> 0 -> fit_center (N:=RNum) d ps = Ok (add (scale SX u1) (scale SY u2)).
Proof.
  intro Hd. unfold fit_center. set (ah := a_hat_matrix (N:=RNum) _ _). rewrite colsum_R.
  set (W := vsum 3 _). assert (LW0 : Forall (fun r => length r = 3%nat) (map (fun x => vscale (N:=RNum) (dot_raw (N:=RNum) x x) x) (fit_samples (N:=RNum) d ps))).
  { apply Forall_map. rewrite samples_R. apply Forall_map. eapply Forall_impl; [|exact F]. intros x Hx. change (vscale (N:=RNum)) with scale. rewrite length_scale. apply length_perp; auto. }
  assert (LW : length W = 3%nat) by (apply length_vsum; auto).
  assert (W1 : dot W u1 = Sa3).
  { unfold W. rewrite (dot_vsum 3) by auto. rewrite samples_R, !map_map. apply Rsum_map_ext. intros x Hx. apply in3 in Hx. change (vscale (N:=RNum)) with scale. rewrite dot_scale_l, dot_raw_dot, dot_perp, perp_1 by auto. reflexivity. }
  assert (W2 : dot W u2 = Sb3).
  { unfold W. rewrite (dot_vsum 3) by auto. rewrite samples_R, !map_map. apply Rsum_map_ext. intros x Hx. apply in3 in Hx. change (vscale (N:=RNum)) with scale. rewrite dot_scale_l, dot_raw_dot, dot_perp, perp_2 by auto. reflexivity. }
  assert (Tr : trace3 (N:=RNum) (matmul (N:=RNum) ah (a_matrix (N:=RNum) (fit_samples (N:=RNum) d ps))) = 2 * SD).
  { pose proof len_samples as LS. rewrite <- samples_R in LS. destruct (a_matrix_R _ LS) as (_ & _ & T). unfold ah. rewrite T by (apply a_hat_R; auto). fold ah. rewrite samples_R at 1. rewrite map_map.
    rewrite (Rsum_map_ext _ (fun x => Sbb * (al x * al x) + (Saa * (be x * be x) + (- (2 * Sab)) * (al x * be x)))).
    - rewrite !Rsum_map_add, !Rsum_map_scale. fold Saa Sbb Sab. unfold SD. rn. ring.
    - intros x Hx. apply in3 in Hx. unfold ah. rewrite (a_hat_planar (perp d x) (al x) (be x)) by (try apply length_perp; auto using perp_1, perp_2).
      rewrite dot_add_r by len. rewrite !dot_scale_r, perp_1, perp_2 by auto. ring. }
  rewrite Tr. unfold ah. rewrite (a_hat_planar W Sa3 Sb3) by auto. 
  rewrite (mapM_map _ (fun x => / (2 * SD) * x)).
  - f_equal. change (map (fun x => / (2 * SD) * x)) with (scale (/ (2 * SD))). rewrite scale_add, !scale_scale. unfold SX, SY, Rdiv. f_equal; f_equal; ring.
  - intros x _. rewrite ndiv_R by lra. f_equal. unfold Rdiv. ring.
Qed.
End Planar.

Section Centered.
Context (d u1 u2 : pt) (Fr : frame d u1 u2) (ps : list pt) (F : Forall (fun x => length x = 3%nat) ps) (Hne : ps <> []) (Hc : vsum 3 ps = origin 3).
Let Ld := fr_d _ _ _ Fr. Let L1 := fr_1 _ _ _ Fr. Let L2 := fr_2 _ _ _ Fr.
Notation al x := (dot x u1).
Notation be x := (dot x u2).
Notation n := (INR (length ps)).
Notation X := (SX u1 u2 ps).
Notation Y := (SY u1 u2 ps).
Lemma n_pos : 0 < n. Proof. apply INR_length_pos, Hne. Qed.
Lemma sum_dot w : Rsum (map (fun x => dot x w) ps) = 0.
Proof. rewrite <- (dot_vsum 3) by auto. rewrite Hc. apply dot_origin_l. Qed.
(** Squared distance from the line through [o] along [d]. *)
Definition axd (o x : pt) : R := (al x - al o) * (al x - al o) + (be x - be o) * (be x - be o).
Lemma axd_perp o x : length o = 3%nat -> length x = 3%nat -> axd o x = dot (perp d (sub o x)) (perp d (sub o x)).
Proof. intros Lo Lx. unfold axd. rewrite (dot_perp d u1 u2 Fr) by len. rewrite !dot_sub_l by len. ring. Qed.
Definition K : pt := add (scale X u1) (scale Y u2).
Lemma length_K : length K = 3%nat. Proof. unfold K. len. Qed.
Lemma al_K : al K = X. Proof. unfold K. rewrite dot_add_l by len. rewrite !dot_scale_l, (fr_11 _ _ _ Fr), (dot_comm u2 u1), (fr_12 _ _ _ Fr). ring. Qed.
Lemma be_K : be K = Y. Proof. unfold K. rewrite dot_add_l by len. rewrite !dot_scale_l, (fr_22 _ _ _ Fr), (fr_12 _ _ _ Fr). ring. Qed.
Lemma d_K : dot K d = 0. Proof. unfold K. rewrite dot_add_l by len. rewrite !dot_scale_l, (fr_1d _ _ _ Fr), (fr_2d _ _ _ Fr). ring. Qed.
Definition MS : R := Rsum (map (axd K) ps) / n.
Definition UU : R := Rsum (map (fun x => al x * al x + be x * be x) ps) / n.
Lemma MS_UU : MS = UU + (X * X + Y * Y).
Proof.
  unfold MS, UU. pose proof n_pos as P. rewrite (Rsum_map_ext _ (fun x => (al x * al x + be x * be x) + ((-2 * X) * al x + ((-2 * Y) * be x + (X * X + Y * Y))))).
  - rewrite !Rsum_map_add, !Rsum_map_scale, !sum_dot, !Rsum_map_const. field. lra.
  - intros x _. unfold axd. rewrite al_K, be_K. ring.
Qed.
Lemma axd_nonneg o x : 0 <= axd o x.
Proof. unfold axd. pose proof (Rle_0_sqr (al x - al o)). pose proof (Rle_0_sqr (be x - be o)). unfold Rsqr in *. lra. Qed.
Lemma MS_nonneg : 0 <= MS.
Proof. unfold MS. apply Rle_mult_inv_pos; [|apply n_pos]. apply Rsum_nonneg. intros y Hy. apply in_map_iff in Hy as (x & <- & _). apply axd_nonneg. Qed.
Lemma IZR_n : IZR (Z.of_nat (length ps)) = n. Proof. symmetry. apply INR_IZR_INZ. Qed.
Lemma compute_center_R : SD u1 u2 ps <> 0 -> compute_center (N:=RNum) d ps = Ok K.
Proof.
  intro Hd. unfold compute_center. rewrite (fit_center_R d u1 u2 Fr ps F) by auto. cbn [bind]. fold K. apply point_of_R. intro E. pose proof length_K as L. rewrite E in L. discriminate.
Qed.
Lemma nsum_R (l : list R) : nsum (N:=RNum) l = Rsum l.
Proof. reflexivity. Qed.
Lemma compute_radius_R : SD u1 u2 ps <> 0 -> compute_radius (N:=RNum) d ps = Ok (sqrt MS).
Proof.
  intro Hd. unfold compute_radius. rewrite compute_center_R by auto. cbn [bind]. rops. rewrite IZR_n. pose proof n_pos as P. rewrite ndiv_R by lra. cbn [bind].
  assert (E : nsum (N:=RNum) (map (fun p => dot_raw (N:=RNum) (map2 (N:=RNum) Rminus K p) (matvec (N:=RNum) (projection_matrix (N:=RNum) d) (map2 (N:=RNum) Rminus K p))) ps) = Rsum (map (axd K) ps)).
  { rewrite nsum_R. apply Rsum_map_ext. intros x Hx. rewrite Forall_forall in F. apply F in Hx. pose proof length_K as LK. change (map2 (N:=RNum) Rminus K x) with (map2 (N:=RNum) (nsub (n:=RNum)) K x). rewrite map2_sub.
    rewrite proj_R by len. rewrite dot_raw_dot, axd_perp by auto. set (z := sub K x). assert (Lz : length z = 3%nat) by (unfold z; len).
    unfold perp. repeat rewrite ?dot_sub_l, ?dot_sub_r by len. repeat rewrite ?dot_scale_r, ?dot_scale_l. rewrite (dot_comm d z), (fr_dd _ _ _ Fr). ring. }
  match goal with |- context[nsum ?l] => change (nsum l) with (nsum (N:=RNum) (map (fun p => dot_raw (N:=RNum) (map2 (N:=RNum) Rminus K p) (matvec (N:=RNum) (projection_matrix (N:=RNum) d) (map2 (N:=RNum) Rminus K p))) ps)) end. rewrite E. fold MS. unfold np_sqrt. rops. rewrite (proj2 (Rltb_false MS 0)); [reflexivity|]. pose proof MS_nonneg. lra.
Qed.
Definition err (a b r2 : R) : R := Rsum (map (fun x => ((al x - a) * (al x - a) + (be x - b) * (be x - b) - r2) * ((al x - a) * (al x - a) + (be x - b) * (be x - b) - r2)) ps).
Lemma compute_g_R : SD u1 u2 ps <> 0 -> compute_g (N:=RNum) d ps = Ok (err X Y MS).
Proof.
  intro Hd. unfold compute_g. rewrite (samples_R d u1 u2 Fr ps F). rops. rewrite IZR_n. pose proof n_pos as P. rewrite ndiv_R by lra. cbn [bind]. rewrite (fit_center_R d u1 u2 Fr ps F) by auto. cbn [bind]. fold K.
  f_equal. rewrite !nsum_R, !map_map. unfold err. apply Rsum_map_ext. intros x Hx. pose proof F as F'. rewrite Forall_forall in F'. pose proof (F' x Hx) as Lx. pose proof length_K as LK.
  assert (U : Rsum (map (fun s => dot_raw (N:=RNum) (perp d s) (perp d s)) ps) / n = UU).
  { unfold UU. f_equal. apply Rsum_map_ext. intros y Hy. rewrite dot_raw_dot, (dot_perp d u1 u2 Fr) by auto. reflexivity. }
  match goal with |- context[nsum ?l] => change (nsum l) with (Rsum (map (fun s => dot_raw (N:=RNum) (perp d s) (perp d s)) ps)) end. rewrite U. rewrite !dot_raw_dot, (dot_perp d u1 u2 Fr) by auto. unfold nsq. rops. rewrite MS_UU.
  assert (Ek : dot (perp d x) K = X * al x + Y * be x) by (unfold K; rewrite dot_add_r by len; rewrite !dot_scale_r, (perp_1 d u1 u2 Fr), (perp_2 d u1 u2 Fr) by auto; ring).
  rewrite Ek. ring.
Qed.
(** Linear least squares: X, Y and the mean of squares minimise the algebraic error. *)
Lemma err_min a b r2 : SD u1 u2 ps <> 0 -> err X Y MS <= err a b r2.
Proof.
  intro Hd. pose proof n_pos as P. set (e := fun x => al x * al x + be x * be x - 2 * al x * X - 2 * be x * Y - UU).
  set (da := -2 * (a - X)). set (db := -2 * (b - Y)). set (dk := a * a + b * b - r2 + UU).
  assert (E1 : err X Y MS = Rsum (map (fun x => e x * e x) ps)). { unfold err. apply Rsum_map_ext. intros x _. unfold e. rewrite MS_UU. ring. }
  assert (E2 : err a b r2 = Rsum (map (fun x => e x * e x) ps) + (2 * (da * Rsum (map (fun x => e x * al x) ps) + (db * Rsum (map (fun x => e x * be x) ps) + dk * Rsum (map e ps))) + Rsum (map (fun x => (da * al x + db * be x + dk) * (da * al x + db * be x + dk)) ps))).
  { rewrite <- !Rsum_map_scale, <- !Rsum_map_add, <- !Rsum_map_scale, <- !Rsum_map_add. unfold err. apply Rsum_map_ext. intros x _. unfold e, da, db, dk. ring. }
  assert (Z0 : Rsum (map e ps) = 0).
  { unfold e. rewrite (Rsum_map_ext _ (fun x => (al x * al x + be x * be x) + ((-2 * X) * al x + ((-2 * Y) * be x + - UU)))) by (intros; ring). rewrite !Rsum_map_add, !Rsum_map_scale, !sum_dot, Rsum_map_const. unfold UU. rewrite Rsum_map_add. field. lra. }
  assert (Xeq : 2 * (Saa u1 ps * X + Sab u1 u2 ps * Y) = Sa3 u1 u2 ps) by (unfold SX, SY; unfold SD in *; field; auto).
  assert (Yeq : 2 * (Sab u1 u2 ps * X + Sbb u2 ps * Y) = Sb3 u1 u2 ps) by (unfold SX, SY; unfold SD in *; field; auto).
  assert (Z1 : Rsum (map (fun x => e x * al x) ps) = 0).
  { unfold e. rewrite (Rsum_map_ext _ (fun x => (al x * al x + be x * be x) * al x + ((-2 * X) * (al x * al x) + ((-2 * Y) * (al x * be x) + (- UU) * al x)))) by (intros; ring). rewrite !Rsum_map_add, !Rsum_map_scale, !sum_dot.
    fold (Saa u1 ps) (Sab u1 u2 ps) (Sa3 u1 u2 ps). rewrite <- Xeq. ring. }
  assert (Z2 : Rsum (map (fun x => e x * be x) ps) = 0).
  { unfold e. rewrite (Rsum_map_ext _ (fun x => (al x * al x + be x * be x) * be x + ((-2 * X) * (al x * be x) + ((-2 * Y) * (be x * be x) + (- UU) * be x)))) by (intros; ring). rewrite !Rsum_map_add, !Rsum_map_scale, !sum_dot.
    fold (Sbb u2 ps) (Sab u1 u2 ps) (Sb3 u1 u2 ps). rewrite <- Yeq. ring. }
  rewrite E1, E2, Z0, Z1, Z2.
  assert (0 <= Rsum (map (fun x => (da * al x + db * be x + dk) * (da * al x + db * be x + dk)) ps)). { apply Rsum_nonneg. intros y Hy. apply in_map_iff in Hy as (x & <- & _). pose proof (Rle_0_sqr (da * al x + db * be x + dk)) as S. exact S. }
  lra.
Qed.
End Centered.

(** If the planar Gram determinant vanishes, the points are in a plane through the origin. *)
Lemma SD_zero (d u1 u2 : pt) (ps : list pt) : frame d u1 u2 -> SD u1 u2 ps = 0 -> exists w, length w = 3%nat /\ ~ is_zero_vec w /\ forall x, In x ps -> dot x w = 0.
Proof.
  intros Fr H. pose proof (fr_1 _ _ _ Fr) as L1. pose proof (fr_2 _ _ _ Fr) as L2.
  assert (Sq : forall y, 0 <= y * y) by (intro y; apply Rle_0_sqr).
  destruct (Req_EM_T (Saa u1 ps) 0) as [Z|Z].
  - exists u1. split; auto. split; [intro E; apply dot_self_zero_iff in E; rewrite (fr_11 _ _ _ Fr) in E; lra|]. intros x Hx.
    assert (E : dot x u1 * dot x u1 = 0). { apply (Rsum_zero (map (fun x => dot x u1 * dot x u1) ps)); auto; [intros y Hy; apply in_map_iff in Hy as (z & <- & _); apply Sq|]. apply (in_map (fun x => dot x u1 * dot x u1)), Hx. }
    nra.
  - set (A := Saa u1 ps) in *. set (B := Sab u1 u2 ps). exists (sub (scale A u2) (scale B u1)). split; [len|]. split.
    + intro E. assert (Q : dot (sub (scale A u2) (scale B u1)) u2 = 0) by (apply zero_dot, E). rewrite dot_sub_l in Q by len. rewrite !dot_scale_l, (fr_22 _ _ _ Fr), (fr_12 _ _ _ Fr) in Q. lra.
    + intros x Hx. set (f := fun x => (A * dot x u2 - B * dot x u1) * (A * dot x u2 - B * dot x u1)).
      assert (S : Rsum (map f ps) = A * SD u1 u2 ps).
      { unfold f. rewrite (Rsum_map_ext _ (fun x => (A * A) * (dot x u2 * dot x u2) + ((- (2 * A * B)) * (dot x u1 * dot x u2) + (B * B) * (dot x u1 * dot x u1)))) by (intros; ring).
        rewrite !Rsum_map_add, !Rsum_map_scale. fold (Sbb u2 ps) (Sab u1 u2 ps) (Saa u1 ps). fold A B. unfold SD. fold A B. ring. }
      assert (E : f x = 0). { apply (Rsum_zero (map f ps)); [intros y Hy; apply in_map_iff in Hy as (z & <- & _); apply Sq|rewrite S, H; ring|]. apply (in_map f), Hx. }
      unfold f in E. rewrite dot_sub_r by len. rewrite !dot_scale_r. nra.
Qed.
Lemma unit_scale_dot w : ~ is_zero_vec w -> dot (scale (/ len w) w) (scale (/ len w) w) = 1.
Proof. intro H. pose proof (len_pos w H). rewrite dot_scale_l, dot_scale_r, <- len_sq. field. lra. Qed.
Lemma plane_coplanar (o w : pt) (rows : list pt) : length o = 3%nat -> length w = 3%nat -> ~ is_zero_vec w -> Forall (fun x => length x = 3%nat) rows ->
  (forall x, In x rows -> dot (sub x o) w = 0) -> coplanar rows.
Proof.
  intros Lo Lw Hz F H. destruct (frame_exists (scale (/ len w) w)) as (a & b & Fr); [len|apply unit_scale_dot; auto|]. exists o, a, b.
  pose proof (fr_1 _ _ _ Fr) as La. pose proof (fr_2 _ _ _ Fr) as Lb. split; [congruence|]. split; [congruence|]. intros x Hx. rewrite Forall_forall in F. pose proof (F x Hx) as Lx.
  exists (dot (sub x o) a), (dot (sub x o) b). pose proof (fr_span _ _ _ Fr (sub x o) ltac:(len)) as E. rewrite dot_scale_r, H, Rmult_0_r, scale_0 in E by auto.
  assert (E' : add o (sub x o) = x) by (apply add_sub_cancel; congruence). rewrite <- E' at 1. rewrite E at 1. rewrite add_origin_r by len. rewrite <- add_assoc. reflexivity.
Qed.
