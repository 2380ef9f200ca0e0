(** * Property C73: how accurate the basic measurements are in double precision

    The real-number model says what dot, norm, distance_point, unit and cosine_similarity compute in exact
    arithmetic.  Here the same functions, run on IEEE doubles, are compared with the exact values: the error is a
    small multiple of 2^-53 of the exact value, for every dimension up to a million and every coordinate up to
    2^500 in absolute value.  (The sums are taken in the order of the model; C82 proves the bounds for every order.) *)
From Coq Require Import String Reals List ZArith Floats Lra Lia Psatz Bool.
From Flocq Require Import Core BinarySingleNaN.
From Flocq Require Import IEEE754.PrimFloat.
From Verif.Model Require Import Outcome Num Instances Numpy BaseArray Vector Points.
From Verif.Spec Require Import Geometry Floats.
From Verif.Proof Require Import VecAlg Bridge Floats FloatErr.
From Verif.Prop Require Import Floats.
Import ListNotations.
Local Open Scope R_scope.

(** A finite double of absolute value at most 2^500. *)
Definition moderate (x : flt) : Prop := finite x /\ Rabs (FR x) <= bpow radix2 500.
Definition max_dim : Z := (2 ^ 20)%Z.

Lemma moderate_501 v : Forall moderate v -> Forall small501 v.
Proof. intro H. eapply Forall_impl; [|exact H]. intros x (F & B). split; auto. unfold B500. pose proof (bpow_ge_0 radix2 500). lra. Qed.
Lemma moderate_finite v : Forall moderate v -> Forall finite v.
Proof. intro H. eapply Forall_impl; [|exact H]. intros x (F & B). auto. Qed.

Theorem C73_dot_accurate : forall v o : list flt, length v = length o -> (Z.of_nat (length v) <= max_dim)%Z -> Forall moderate v -> Forall moderate o ->
  exists d, np_dot (N:=FNum) v o = Ok d /\ finite d /\
    Rabs (FR d - dot (map FR v) (map FR o)) <= (INR (length v) + 2) * bpow radix2 (-53) * dot (map Rabs (map FR v)) (map Rabs (map FR o)) + bpow radix2 (-1050).
Proof.
  intros v o L Ln Hv Ho. unfold max_dim in Ln. exists (dot_raw (N:=FNum) v o). split; [apply np_dot_F; auto|].
  destruct (small_dot v o L Ln (moderate_501 v Hv) (moderate_501 o Ho)) as (F & _). split; auto. eapply Rle_trans; [apply dot_error; auto|].
  apply Rplus_le_compat; [|apply dn_bound; auto]. fold (absdot (map FR v) (map FR o)). apply Rmult_le_compat_r; [apply absdot_pos|]. fold uro. eapply Rle_trans; [apply g_bound; lia|]. rewrite S_INR. lra.
Qed.
Print Assumptions C73_dot_accurate.

Lemma norm_501 (v : list flt) : (Z.of_nat (length v) <= max_dim)%Z -> Forall small501 v -> finite (norm_raw (N:=FNum) v) /\
  Rabs (FR (norm_raw (N:=FNum) v) - len (map FR v)) <= (INR (length v) + 3) * uro * len (map FR v) + bpow radix2 (-520).
Proof.
  intros Ln Hv. unfold max_dim in Ln. destruct (small_dot v v eq_refl Ln Hv Hv) as (Fd & _).
  assert (F : finite (norm_raw (N:=FNum) v)).
  { unfold norm_raw. change (nsqrt (n:=FNum)) with PrimFloat.sqrt. apply fin_sqrt; auto. right. apply sq_dot_pos. eapply Forall_impl; [|exact Hv]. intros x (? & ?); auto. }
  split; auto. eapply Rle_trans; [apply norm_error; auto|]. pose proof (tail_bound (length v) Ln) as T. pose proof (g_bound (2 + length v) ltac:(lia)) as G. rewrite plus_INR in G. change (INR 2) with 2 in G.
  pose proof (len_nonneg (map FR v)). assert (g (2 + length v) * len (map FR v) <= (INR (length v) + 3) * uro * len (map FR v)) by (apply Rmult_le_compat_r; [auto|lra]). lra.
Qed.
Theorem C73_norm_accurate : forall v : list flt, (Z.of_nat (length v) <= max_dim)%Z -> Forall moderate v ->
  exists r, norm (N:=FNum) v = Ok r /\ finite r /\
    Rabs (FR r - len (map FR v)) <= (INR (length v) + 3) * bpow radix2 (-53) * len (map FR v) + bpow radix2 (-520).
Proof.
  intros v Ln Hv. exists (norm_raw (N:=FNum) v). split; [reflexivity|]. apply norm_501; auto. apply moderate_501; auto.
Qed.
Print Assumptions C73_norm_accurate.

Lemma subs_ok (a b : list flt) : length a = length b -> Forall moderate a -> Forall moderate b ->
  Forall small501 (map2 (N:=FNum) PrimFloat.sub b a) /\ length (map2 (N:=FNum) PrimFloat.sub b a) = length a /\
  Forall2 (fun y z => Rabs (y - z) <= uro * Rabs z) (map FR (map2 (N:=FNum) PrimFloat.sub b a)) (sub (map FR b) (map FR a)).
Proof.
  revert b. induction a as [|x a IH]; intros [|y b] L Ha Hb; try discriminate; cbn [map2 map sub length].
  - repeat split; constructor.
  - inversion_clear Ha as [|? ? Hx Ha']. inversion_clear Hb as [|? ? Hy Hb']. destruct (IH b ltac:(simpl in L; lia) Ha' Hb') as (A & B & C). destruct (small_sub y x Hy Hx) as (F & E & S).
    split; [constructor; auto|]. split; [fn; congruence|]. constructor; auto. rewrite E. apply rnd_minus.
Qed.
Theorem C73_distance_accurate : forall a b : list flt, a <> [] -> length a = length b -> (Z.of_nat (length a) <= max_dim)%Z -> Forall moderate a -> Forall moderate b ->
  exists r, distance_point (N:=FNum) a b = Ok r /\ finite r /\
    Rabs (FR r - dist (map FR a) (map FR b)) <= (INR (length a) + 5) * bpow radix2 (-53) * dist (map FR a) (map FR b) + bpow radix2 (-520).
Proof.
  intros a b Hne L Ln Ha Hb. destruct (subs_ok a b L Ha Hb) as (S & Ls & C). set (d := map2 (N:=FNum) PrimFloat.sub b a) in *.
  exists (norm_raw (N:=FNum) d). split.
  { unfold distance_point, from_points. change (nsub (n:=FNum)) with PrimFloat.sub. rewrite bcast_F by auto. cbn [bind]. fold d. rewrite vector_of_ok; [reflexivity| |].
    - intro E. rewrite E in Ls. destruct a; [contradiction|discriminate].
    - eapply Forall_impl; [|exact S]. intros x (? & ?); auto. }
  fn. rewrite <- Ls in Ln. destruct (norm_501 d Ln S) as (F & E). split; auto. rewrite Ls in *. rewrite dist_sym. unfold dist. pose proof (len_close uro _ _ (Rlt_le _ _ uro_pos) C) as Q.
  set (D := len (sub (map FR b) (map FR a))) in *. set (K := len (map FR d)) in *. set (r := FR (norm_raw (N:=FNum) d)) in *. fold uro. assert (HD : 0 <= D) by apply len_nonneg.
  apply Rabs_le_inv in E. apply Rabs_le_inv in Q. apply Rabs_le. pose proof uro_pos as U. pose proof (pos_INR (length a)) as N.
  assert (Hu : (INR (length a) + 3) * uro <= 1).
  { pose proof (pow_le2 (length a) Ln). change uro with (/ IZR (2 ^ 53)). rewrite INR_IZR_INZ. apply Rmult_le_reg_r with (IZR (2 ^ 53)); [apply IZR_lt; reflexivity|]. rewrite Rmult_assoc, Rinv_l by (apply IZR_neq; discriminate). rewrite <- (plus_IZR _ 3), Rmult_1_l, Rmult_1_r. apply IZR_le. unfold max_dim in Ln. lia. }
  set (k := (INR (length a) + 3) * uro) in *. assert (Hk : 0 <= k) by (unfold k; apply Rmult_le_pos; lra). replace ((INR (length a) + 5) * uro * D) with ((k + 2 * uro) * D) by (unfold k; ring).
  assert (k * K <= k * (D + uro * D)) by (apply Rmult_le_compat_l; lra). assert (k * (uro * D) <= 1 * (uro * D)) by (apply Rmult_le_compat_r; [apply Rmult_le_pos; lra|lra]). lra.
Qed.
Print Assumptions C73_distance_accurate.

(** ** unit *)
Lemma ndim_small (n : nat) (c : Z) : (Z.of_nat n <= max_dim)%Z -> (0 <= c <= 2 ^ 10)%Z -> (INR n + IZR c) * uro <= bpow radix2 (-30).
Proof.
  intros Ln Hc. unfold max_dim in Ln. rewrite INR_IZR_INZ, <- plus_IZR. change (-30)%Z with (23 + -53)%Z. rewrite bpow_plus. fold uro. apply Rmult_le_compat_r; [pose proof uro_pos; lra|]. change (bpow radix2 23) with (IZR (2 ^ 23)). apply IZR_le. lia.
Qed.
Lemma tiny_rel x e : bpow radix2 (-400) <= x -> (e <= -460)%Z -> bpow radix2 e <= uro * x.
Proof.
  intros H He. apply Rle_trans with (bpow radix2 (-53) * bpow radix2 (-400)); [rewrite <- bpow_plus; apply bpow_le; lia|]. apply Rmult_le_compat_l; [apply bpow_ge_0|auto].
Qed.
Lemma norm_rel (v : list flt) : (Z.of_nat (length v) <= max_dim)%Z -> Forall moderate v -> bpow radix2 (-400) <= len (map FR v) ->
  finite (norm_raw (N:=FNum) v) /\ exists e, FR (norm_raw (N:=FNum) v) = len (map FR v) * (1 + e) /\ Rabs e <= (INR (length v) + 4) * uro.
Proof.
  intros Ln Hv Hl. destruct (norm_501 v Ln (moderate_501 v Hv)) as (F & E). split; auto. pose proof (tiny_rel _ (-520) Hl ltac:(lia)) as T.
  assert (Lp : 0 < len (map FR v)) by (eapply Rlt_le_trans; [apply bpow_gt_0|exact Hl]). set (K := len (map FR v)) in *. set (r := FR (norm_raw (N:=FNum) v)) in *.
  exists ((r - K) / K). split; [field; lra|]. unfold Rdiv. rewrite Rabs_mult, Rabs_inv, (Rabs_pos_eq K) by lra. apply Rmult_le_reg_r with K; auto. rewrite Rmult_assoc, Rinv_l by lra. lra.
Qed.
Lemma small_e n e : (Z.of_nat n <= max_dim)%Z -> Rabs e <= (INR n + 4) * uro -> Rabs e <= / 1024 /\ 0 < 1 + e.
Proof.
  intros Ln He. pose proof (ndim_small n 4 Ln ltac:(lia)) as H. assert (B : bpow radix2 (-30) <= / 1024) by (replace (/ 1024) with (bpow radix2 (-10)) by (simpl; lra); apply bpow_le; lia).
  assert (Rabs e <= / 1024) by lra. split; auto. apply Rabs_le_inv in H0. lra.
Qed.
Lemma inv_close e : Rabs e <= / 1024 -> Rabs (/ (1 + e) - 1) <= Rabs e + 2 * (Rabs e * Rabs e).
Proof.
  intro H. pose proof (Rabs_le_inv _ _ H). replace (/ (1 + e) - 1) with (- e * / (1 + e)) by (field; lra). rewrite Rabs_mult, Rabs_Ropp, Rabs_inv, (Rabs_pos_eq (1 + e)) by lra.
  pose proof (Rabs_pos e). apply Rmult_le_reg_r with (1 + e); [lra|]. rewrite Rmult_assoc, Rinv_l, Rmult_1_r by lra.
  assert (- Rabs e <= e) by (destruct (Rcase_abs e); [rewrite Rabs_left by auto; lra|rewrite Rabs_right by auto; lra]).
  assert (Rabs e + 2 * (Rabs e * Rabs e) >= 0) by nra. assert ((Rabs e + 2 * (Rabs e * Rabs e)) * (1 - Rabs e) <= (Rabs e + 2 * (Rabs e * Rabs e)) * (1 + e)) by (apply Rmult_le_compat_l; lra).
  assert (0 <= Rabs e * Rabs e * (1 - 2 * Rabs e)) by (apply Rmult_le_pos; nra). nra.
Qed.

Lemma Forall2_left {A B} (P : A -> Prop) (Q : A -> B -> Prop) l m : Forall2 (fun y x => P y /\ Q y x) l m -> Forall P l.
Proof. induction 1 as [|y x l m (H & _) F IH]; constructor; auto. Qed.
Theorem C73_unit_accurate : forall v : list flt, (Z.of_nat (length v) <= max_dim)%Z -> Forall moderate v -> bpow radix2 (-400) <= len (map FR v) ->
  exists w, unit_vec (N:=FNum) v = Ok w /\
    Forall2 (fun y x => finite y /\ Rabs (FR y - FR x / len (map FR v)) <= (INR (length v) + 6) * bpow radix2 (-53) * (Rabs (FR x) / len (map FR v)) + bpow radix2 (-1075)) w v.
Proof.
  intros v Ln Hv Hl. destruct (norm_rel v Ln Hv Hl) as (Fn & e & En & He). destruct (small_e _ _ Ln He) as (He' & Hp).
  assert (Lp : 0 < len (map FR v)) by (eapply Rlt_le_trans; [apply bpow_gt_0|exact Hl]). set (K := len (map FR v)) in *.
  assert (Np : 0 < FR (norm_raw (N:=FNum) v)) by (rewrite En; apply Rmult_lt_0_compat; auto).
  unfold unit_vec. cbn [bind norm]. change (neqb (n:=FNum)) with PrimFloat.eqb. change (n0 (n:=FNum)) with 0%float. destruct (PrimFloat.eqb (norm_raw v) 0) eqn:E.
  { apply fzero_eqb in E as (_ & E). lra. }
  unfold vdivs. rewrite mapM_div. cbn [bind]. set (n := length v) in *. fold uro eta.
  assert (A : forall l : list flt, (forall x, In x l -> In x v) -> Forall2 (fun y x => finite y /\ Rabs (FR y - FR x / K) <= (INR n + 6) * uro * (Rabs (FR x) / K) + eta) (map (fun x => x / norm_raw (N:=FNum) v)%float l) l).
  { induction l as [|x l IH]; intro Hin; [constructor|]. constructor; [|apply IH; intros; apply Hin; right; auto]. clear IH.
    assert (Hx : finite x /\ Rabs (FR x) <= K).
    { split; [rewrite Forall_forall in Hv; apply Hv, Hin; left; auto|]. assert (M : forall l', In x l' -> FR x * FR x <= dot (map FR l') (map FR l')).
      { clear. induction l' as [|y l' IH]; intro H; [destruct H|]. destruct H as [->|H]; cbn [map dot]; [pose proof (dot_self_nonneg (map FR l')); lra|specialize (IH H); nra]. }
      specialize (M v (Hin x (or_introl eq_refl))). rewrite <- len_sq in M. fold K in M. apply Rsqr_incr_0; unfold Rsqr; [rewrite <- Rabs_mult, Rabs_pos_eq by nra; auto|apply Rabs_pos|lra]. }
    destruct Hx as (Fx & Hx). set (q := FR x / FR (norm_raw (N:=FNum) v)). set (c := FR x / K).
    assert (Ac : Rabs c = Rabs (FR x) / K) by (unfold c, Rdiv; rewrite Rabs_mult, Rabs_inv, (Rabs_pos_eq K) by lra; reflexivity). rewrite <- Ac.
    assert (Qe : q - c = c * (/ (1 + e) - 1)) by (unfold q, c; rewrite En; field; split; lra).
    pose proof (inv_close e He') as I. set (k := Rabs e) in *. pose proof (Rabs_pos c) as Pc. pose proof (Rabs_pos e) as Pe. fold k in Pe.
    assert (D1 : Rabs (q - c) <= Rabs c * (k + 2 * (k * k))) by (rewrite Qe, Rabs_mult; apply Rmult_le_compat_l; auto).
    assert (C1 : Rabs c <= 1). { rewrite Ac. unfold Rdiv. apply Rmult_le_reg_r with K; auto. rewrite Rmult_assoc, Rinv_l by lra. lra. }
    assert (Q1 : Rabs q <= Rabs c * (1 + k + 2 * (k * k))). { replace q with (q - c + c) by ring. eapply Rle_trans; [apply Rabs_triang|]. lra. }
    assert (K2 : 2 * (k * k) <= / 4 * uro * / 1).
    { pose proof (ndim_small n 4 Ln ltac:(lia)) as S. assert (k * k <= bpow radix2 (-30) * bpow radix2 (-30)) by (apply Rmult_le_compat; lra). rewrite <- bpow_plus in H. assert (B : bpow radix2 (-30 + -30) <= bpow radix2 (-5) * uro) by (unfold uro; rewrite <- bpow_plus; apply bpow_le; lia). change (bpow radix2 (-5)) with (/ 32) in B. pose proof uro_pos. lra. }
    pose proof uro_small as (U & U').
    assert (Qm : Rabs q <= 2) by nra.
    destruct (fin_div x (norm_raw (N:=FNum) v) Fx ltac:(lra)) as (Fq & Eq).
    { fold q. eapply Rle_lt_trans; [apply (rnd_bpow_le q 1); [lia|exact Qm]|]. apply bpow_lt. lia. }
    split; auto. rewrite Eq. fold q. pose proof (rnd_err q) as R. pose proof (Rabs_triang (rnd q - q) (q - c)) as T. replace (rnd q - q + (q - c)) with (rnd q - c) in T by ring.
    assert (U1 : uro * Rabs q <= uro * (Rabs c * (1 + k + 2 * (k * k)))) by (apply Rmult_le_compat_l; lra).
    assert (U2 : uro * (Rabs c * (1 + k + 2 * (k * k))) <= uro * (Rabs c * (5 / 4))) by (apply Rmult_le_compat_l; [lra|apply Rmult_le_compat_l; nra]).
    assert (U3 : Rabs c * (k + 2 * (k * k)) <= Rabs c * ((INR n + 4) * uro + / 4 * uro)) by (apply Rmult_le_compat_l; lra). nra. }
  exists (map (fun x => x / norm_raw (N:=FNum) v)%float v). specialize (A v (fun x H => H)). split; auto. apply wrap1_F. eapply Forall2_left. exact A.
Qed.
Print Assumptions C73_unit_accurate.

(** ** cosine_similarity *)
Lemma absdot_cauchy a b : length a = length b -> absdot a b <= len a * len b.
Proof.
  intro L. unfold absdot. eapply Rle_trans; [apply cauchy_schwarz_le; rewrite !map_length; auto|]. right.
  assert (E : forall v, len (map Rabs v) = len v) by (intro v; apply len_eq_iff; change (absdot v v = dot v v); apply absdot_self). rewrite !E. reflexivity.
Qed.
Lemma clip_close (x : flt) (c e : R) : finite x -> -1 <= c <= 1 -> Rabs (FR x - c) <= e -> finite (nclip1 (N:=FNum) x) /\ Rabs (FR (nclip1 (N:=FNum) x) - c) <= e.
Proof.
  intros F Hc H. change (nclip1 (N:=FNum) x) with (if PrimFloat.ltb x (-1) then (-1)%float else if PrimFloat.ltb 1 x then 1%float else x).
  destruct one_F as (O & Of). assert (M : FR (-1)%float = -1) by (change (-1)%float with (- (1))%float; rewrite opp_F, O; ring). assert (Mf : finite (-1)%float) by reflexivity. apply Rabs_le_inv in H.
  destruct (PrimFloat.ltb x (-1)) eqn:E; [|destruct (PrimFloat.ltb 1 x) eqn:E']; (split; [auto|]).
  - apply ltb_F in E; auto. rewrite M in *. apply Rabs_le. lra.
  - apply ltb_F in E'; auto. rewrite O in *. apply Rabs_le. lra.
  - apply Rabs_le. lra.
Qed.
Theorem C73_cosine_accurate : forall v o : list flt, length v = length o -> v <> [] -> (Z.of_nat (length v) <= max_dim)%Z -> Forall moderate v -> Forall moderate o ->
  bpow radix2 (-400) <= len (map FR v) -> bpow radix2 (-400) <= len (map FR o) ->
  exists c, cosine_similarity (N:=FNum) v o = Ok c /\ finite c /\
    Rabs (FR c - dot (map FR v) (map FR o) / (len (map FR v) * len (map FR o))) <= (3 * INR (length v) + 20) * bpow radix2 (-53).
Proof.
  intros v o L Hne Ln Hv Ho Lv Lo. assert (Ln' : (Z.of_nat (length o) <= max_dim)%Z) by (rewrite <- L; auto).
  destruct (norm_rel v Ln Hv Lv) as (Fa & ea & Ea & Hea). destruct (norm_rel o Ln' Ho Lo) as (Fb & eb & Eb & Heb). rewrite <- L in Heb. destruct (small_e _ _ Ln Hea) as (Hea' & _). destruct (small_e _ _ Ln Heb) as (Heb' & _).
  destruct (C73_dot_accurate v o L Ln Hv Ho) as (d & Ed & Fd & Hd).
  unfold cosine_similarity. cbn [bind norm]. rewrite vector_of_ok; [|intro Q; rewrite Q in L; destruct v; [contradiction|discriminate]|apply moderate_finite; auto]. cbn [bind norm].
  fold (absdot (map FR v) (map FR o)) in Hd. pose proof (absdot_cauchy (map FR v) (map FR o) ltac:(rewrite !map_length; auto)) as AC. pose proof (cauchy_schwarz (map FR v) (map FR o) ltac:(rewrite !map_length; auto)) as CS.
  fold uro in *. set (K := len (map FR v)) in *. set (M := len (map FR o)) in *. set (D := dot (map FR v) (map FR o)) in *. set (A := absdot (map FR v) (map FR o)) in *.
  assert (Kp : 0 < K) by (eapply Rlt_le_trans; [apply bpow_gt_0|exact Lv]). assert (Mp : 0 < M) by (eapply Rlt_le_trans; [apply bpow_gt_0|exact Lo]).
  set (P := K * M). assert (Pp : 0 < P) by (apply Rmult_lt_0_compat; auto). assert (P800 : bpow radix2 (-800) <= P).
  { change (-800)%Z with (-400 + -400)%Z. rewrite bpow_plus. apply Rmult_le_compat; auto; apply bpow_ge_0. }
  assert (tiny : forall e, (e <= -860)%Z -> bpow radix2 e <= uro * P).
  { intros e He. apply Rle_trans with (bpow radix2 (-53) * bpow radix2 (-800)); [rewrite <- bpow_plus; apply bpow_le; lia|]. apply Rmult_le_compat_l; [apply bpow_ge_0|auto]. }
  set (n := length v) in *. pose proof uro_small as (U & U'). pose proof (pos_INR n) as Pn. pose proof (ndim_small n 4 Ln ltac:(lia)) as S4.
  set (k := (INR n + 4) * uro) in *. assert (k0 : 0 <= k) by (unfold k; apply Rmult_le_pos; lra).
  assert (kk : k * k <= / 128 * uro).
  { assert (k * k <= bpow radix2 (-30) * bpow radix2 (-30)) by (apply Rmult_le_compat; lra). rewrite <- bpow_plus in H. assert (B : bpow radix2 (-30 + -30) <= bpow radix2 (-7) * uro) by (unfold uro; rewrite <- bpow_plus; apply bpow_le; lia). change (bpow radix2 (-7)) with (/ 128) in B. lra. }
  assert (k1 : k <= / 1024). { eapply Rle_trans; [exact S4|]. replace (/ 1024) with (bpow radix2 (-10)) by (simpl; lra). apply bpow_le. lia. }
  (* the denominator *)
  assert (Kb : forall w : list flt, (Z.of_nat (length w) <= max_dim)%Z -> Forall moderate w -> len (map FR w) <= bpow radix2 510).
  { intros w Lw Hw. assert (Q : dot (map FR w) (map FR w) <= INR (length w) * (bpow radix2 500 * bpow radix2 500)).
    { clear -Hw. induction Hw as [|x w (_ & Hx) Hw IH]; [cbn; lra|]. cbn [map dot length]. rewrite S_INR. rewrite <- (Rabs_pos_eq (FR x * FR x)), Rabs_mult by nra. pose proof (Rabs_pos (FR x)). assert (Rabs (FR x) * Rabs (FR x) <= bpow radix2 500 * bpow radix2 500) by (apply Rmult_le_compat; auto). lra. }
    apply Rsqr_incr_0; unfold Rsqr; [|apply len_nonneg|apply bpow_ge_0]. rewrite len_sq. eapply Rle_trans; [exact Q|]. rewrite <- bpow_plus, <- bpow_plus. change (510 + 510)%Z with (20 + (500 + 500))%Z. rewrite (bpow_plus radix2 20). apply Rmult_le_compat_r; [apply bpow_ge_0|].
    rewrite INR_IZR_INZ. change (bpow radix2 20) with (IZR (2 ^ 20)). apply IZR_le. exact Lw. }
  assert (Pb : P <= bpow radix2 1020). { change 1020%Z with (510 + 510)%Z. rewrite bpow_plus. apply Rmult_le_compat; try lra; apply Kb; auto. }
  set (na := norm_raw (N:=FNum) v) in *. set (nb := norm_raw (N:=FNum) o) in *. assert (Ep : FR na * FR nb = P * ((1 + ea) * (1 + eb))) by (rewrite Ea, Eb; unfold P; ring).
  set (z := (1 + ea) * (1 + eb)) in *. assert (Hz : Rabs (z - 1) <= 2 * k + / 128 * uro).
  { replace (z - 1) with (ea + eb + ea * eb) by (unfold z; ring). pose proof (Rabs_triang (ea + eb) (ea * eb)) as T1. pose proof (Rabs_triang ea eb) as T2. rewrite Rabs_mult in T1. assert (Rabs ea * Rabs eb <= k * k) by (apply Rmult_le_compat; auto; apply Rabs_pos). lra. }
  pose proof (Rabs_le_inv _ _ Hz) as Hz'. assert (z2 : / 2 <= z <= 2) by lra.
  assert (PzB : Rabs (P * z) <= bpow radix2 1021). { rewrite Rabs_pos_eq by (apply Rmult_le_pos; lra). change 1021%Z with (1020 + 1)%Z. rewrite bpow_plus. change (bpow radix2 1) with 2. apply Rmult_le_compat; lra. }
  destruct (fin_mul na nb Fa Fb) as (Fp & Eprod). { rewrite Ep. eapply Rle_lt_trans; [apply (rnd_bpow_le _ 1021); [lia|exact PzB]|]. apply bpow_lt. lia. }
  rewrite Ep in Eprod. pose proof (rnd_err (P * z)) as R1. rewrite (Rabs_pos_eq (P * z)) in R1 by (apply Rmult_le_pos; lra). pose proof (tiny (-1075)%Z ltac:(lia)) as T1. fold eta in T1.
  set (m := FR (na * nb)%float) in *. rewrite <- Eprod in R1. set (t := m / P). assert (Em : m = P * t) by (unfold t; field; lra).
  assert (Ht : Rabs (t - z) <= 3 * uro + uro * (2 * k + / 128 * uro)).
  { replace (t - z) with ((m - P * z) * / P) by (rewrite Em; field; lra). rewrite Rabs_mult, Rabs_inv, (Rabs_pos_eq P) by lra. apply Rmult_le_reg_r with P; auto. rewrite Rmult_assoc, Rinv_l, Rmult_1_r by lra.
    assert (uro * (P * z) <= uro * (P * (1 + 2 * k + / 128 * uro))) by (apply Rmult_le_compat_l; [lra|apply Rmult_le_compat_l; lra]).
    assert (0 <= uro * P) by (apply Rmult_le_pos; lra). lra. }
  assert (Ht1 : Rabs (t - 1) <= 2 * k + 4 * uro).
  { pose proof (Rabs_triang (t - z) (z - 1)) as T. replace (t - z + (z - 1)) with (t - 1) in T by ring. assert (uro * (2 * k + / 128 * uro) <= uro * (/ 4)) by (apply Rmult_le_compat_l; lra). lra. }
  pose proof (Rabs_le_inv _ _ Ht1) as Ht1'. assert (t2 : / 2 <= t) by lra.
  assert (mp : 0 < m) by (rewrite Em; apply Rmult_lt_0_compat; lra).
  (* the numerator *)
  set (c := D / P). assert (c1 : Rabs c <= 1). { unfold c, Rdiv. rewrite Rabs_mult, Rabs_inv, (Rabs_pos_eq P) by lra. apply Rmult_le_reg_r with P; auto. rewrite Rmult_assoc, Rinv_l by lra. unfold P. lra. }
  set (d' := FR d / P). pose proof (tiny (-1050)%Z ltac:(lia)) as T2.
  assert (Hd' : Rabs (d' - c) <= k).
  { replace (d' - c) with ((FR d - D) * / P) by (unfold d', c; field; lra). rewrite Rabs_mult, Rabs_inv, (Rabs_pos_eq P) by lra. apply Rmult_le_reg_r with P; auto. rewrite Rmult_assoc, Rinv_l, Rmult_1_r by lra.
    assert ((INR n + 2) * uro * A <= (INR n + 2) * uro * P) by (apply Rmult_le_compat_l; [apply Rmult_le_pos; lra|exact AC]). assert (0 <= uro * P) by (apply Rmult_le_pos; lra). unfold k. lra. }
  set (q := FR d / m). assert (Eq : q = d' / t) by (unfold q, d'; rewrite Em; field; split; lra).
  assert (Hq : Rabs (q - c) <= 3 * k + 4 * uro + (/ 2 * uro)).
  { replace (q - c) with ((d' - c - c * (t - 1)) * / t) by (rewrite Eq; field; lra). rewrite Rabs_mult, Rabs_inv, (Rabs_pos_eq t) by lra. apply Rmult_le_reg_r with t; [lra|]. rewrite Rmult_assoc, Rinv_l, Rmult_1_r by lra.
    pose proof (Rabs_triang (d' - c) (- (c * (t - 1)))) as T. rewrite Rabs_Ropp, Rabs_mult in T. assert (Rabs c * Rabs (t - 1) <= 1 * (2 * k + 4 * uro)) by (apply Rmult_le_compat; auto; apply Rabs_pos). fold (d' - c - c * (t - 1)) in T.
    assert ((3 * k + 4 * uro + / 2 * uro) * (1 - (2 * k + 4 * uro)) <= (3 * k + 4 * uro + / 2 * uro) * t) by (apply Rmult_le_compat_l; lra).
    assert (k * uro <= / 1024 * uro) by (apply Rmult_le_compat_r; lra). assert (uro * uro <= / 1024 * uro) by (apply Rmult_le_compat_r; lra). unfold Rminus in *. nra. }
  assert (q2 : Rabs q <= 2). { pose proof (Rabs_triang (q - c) c) as T. replace (q - c + c) with q in T by ring. lra. }
  destruct (fin_div d (na * nb)%float Fd ltac:(unfold m in mp; lra)) as (Fq & Eqd). { fold m. fold q. eapply Rle_lt_trans; [apply (rnd_bpow_le q 1); [lia|exact q2]|]. apply bpow_lt. lia. }
  fold m in Eqd. fold q in Eqd. pose proof (rnd_err q) as R2.
  assert (Hr : Rabs (FR (d / (na * nb))%float - c) <= (3 * INR n + 20) * uro).
  { rewrite Eqd. pose proof (Rabs_triang (rnd q - q) (q - c)) as T. replace (rnd q - q + (q - c)) with (rnd q - c) in T by ring. assert (uro * Rabs q <= uro * 2) by (apply Rmult_le_compat_l; lra).
    assert (eta <= uro) by (apply bpow_le; lia). unfold k in *. lra. }
  change (nmul (n:=FNum)) with PrimFloat.mul. change (neqb (n:=FNum)) with PrimFloat.eqb. change (n0 (n:=FNum)) with 0%float.
  destruct (PrimFloat.eqb (na * nb) 0) eqn:E0. { apply fzero_eqb in E0 as (_ & E0). fold m in E0. lra. }
  rewrite Ed. cbn [bind ndiv FNum]. eexists. split; [reflexivity|]. apply clip_close; auto. apply Rabs_le_inv. exact c1.
Qed.
Print Assumptions C73_cosine_accurate.

(** ** side_vector never names the wrong side *)
Lemma set_dim_F (x y : flt) : finite x -> finite y -> set_dimension1 (N:=FNum) [x; y] 3 = Ok [x; y; 0%float].
Proof.
  intros Fx Fy. unfold set_dimension1. cbn [dim1 length Z.of_nat Pos.of_succ_nat Pos.succ]. change (3 <? 2)%Z with false. cbv iota. change (Z.to_nat 3 - 2)%nat with 1%nat. unfold pad. cbn [zeros repeat app].
  rewrite array1d_of_vec. unfold base_new. cbn [length Nat.eqb]. change (forallb (nfin (n:=FNum)) [x; y; 0%float]) with (forallb f_finite [x; y; 0%float]). rewrite all_finite by (repeat constructor; auto). reflexivity.
Qed.
Lemma int_sign_F x : finite x -> int_sign (N:=FNum) x = Ok (nsign (N:=FNum) x).
Proof. intro F. unfold int_sign. change (neqb (n:=FNum)) with PrimFloat.eqb. replace (PrimFloat.eqb x x) with true; [reflexivity|]. symmetry. apply eqb_F; auto. Qed.
Lemma side_vector_F x1 y1 x2 y2 : finite x1 -> finite y1 -> finite x2 -> finite y2 ->
  side_vector (N:=FNum) [x1; y1] [x2; y2] = int_sign (N:=FNum) (x2 * y1 - y2 * x1)%float.
Proof.
  intros. unfold side_vector. rewrite vector_of_ok; [|discriminate|repeat constructor; auto]. cbn [bind dim1 length Nat.eqb negb orb]. rewrite !set_dim_F by auto. reflexivity.
Qed.
Theorem C73_side_sound : forall x1 y1 x2 y2 : flt, Forall moderate [x1; y1; x2; y2] ->
  exists s, side_vector (N:=FNum) [x1; y1] [x2; y2] = Ok s /\
    let det := FR x2 * FR y1 - FR y2 * FR x1 in
    (s = 1%Z -> det > 0) /\ (s = (-1)%Z -> det < 0) /\ (det = 0 -> s = 0%Z) /\
    (s = 0%Z -> Rabs det <= bpow radix2 (-53) * (Rabs (FR x2 * FR y1) + Rabs (FR y2 * FR x1)) + bpow radix2 (-1074)) /\
    (s = 1%Z \/ s = 0%Z \/ s = (-1)%Z).
Proof.
  intros x1 y1 x2 y2 H. inversion_clear H as [|? ? M1 H']. inversion_clear H' as [|? ? M2 H'']. inversion_clear H'' as [|? ? M3 H3]. inversion_clear H3 as [|? ? M4 _].
  pose proof M1 as (F1 & B1). pose proof M2 as (F2 & B2). pose proof M3 as (F3 & B3). pose proof M4 as (F4 & B4).
  assert (prod : forall a b, moderate a -> moderate b -> finite (a * b)%float /\ FR (a * b)%float = rnd (FR a * FR b) /\ Rabs (FR (a * b)%float) <= bpow radix2 1000).
  { intros a b (Fa & Ba) (Fb & Bb). assert (Q : Rabs (FR a * FR b) <= bpow radix2 1000). { rewrite Rabs_mult. change 1000%Z with (500 + 500)%Z. rewrite bpow_plus. apply Rmult_le_compat; auto; apply Rabs_pos. }
    pose proof (rnd_bpow_le _ 1000 ltac:(lia) Q) as Q'. destruct (fin_mul a b Fa Fb) as (F & E). { eapply Rle_lt_trans; [exact Q'|]. apply bpow_lt. lia. } rewrite E. auto. }
  destruct (prod x2 y1 M3 M2) as (Fp & Ep & Bp). destruct (prod y2 x1 M4 M1) as (Fq & Eq & Bq).
  assert (Fd : finite (x2 * y1 - y2 * x1)%float /\ FR (x2 * y1 - y2 * x1)%float = rnd (FR (x2 * y1)%float - FR (y2 * x1)%float)).
  { apply fin_sub; auto. eapply Rle_lt_trans; [apply (rnd_bpow_le _ 1001); [lia|]|apply (bpow_lt radix2 1001 1024); lia]. pose proof (Rabs_triang (FR (x2 * y1)%float) (- FR (y2 * x1)%float)) as T. rewrite Rabs_Ropp in T. change 1001%Z with (1 + 1000)%Z. rewrite bpow_plus. change (bpow radix2 1) with 2. unfold Rminus. lra. }
  destruct Fd as (Fd & Ed). exists (nsign (N:=FNum) (x2 * y1 - y2 * x1)%float). split.
  { rewrite side_vector_F by auto. apply int_sign_F; auto. }
  cbv zeta. set (p := FR x2 * FR y1) in *. set (q := FR y2 * FR x1) in *. set (dd := (x2 * y1 - y2 * x1)%float) in *. rewrite Ep, Eq in Ed.
  assert (Sg : nsign (N:=FNum) dd = if PrimFloat.ltb dd 0 then (-1)%Z else if PrimFloat.ltb 0 dd then 1%Z else 0%Z) by reflexivity. rewrite Sg. destruct zero_F as (Z0 & Zf).
  assert (Lt : PrimFloat.ltb dd 0 = true -> p < q).
  { intro L. apply ltb_F in L; auto. rewrite Z0, Ed in L. destruct (Rlt_or_le p q) as [|G]; auto. apply rnd_le in G. pose proof (rnd_pos (rnd p - rnd q) ltac:(lra)). lra. }
  assert (Gt : PrimFloat.ltb 0 dd = true -> q < p).
  { intro L. apply ltb_F in L; auto. rewrite Z0, Ed in L. destruct (Rlt_or_le q p) as [|G]; auto. apply rnd_le in G. pose proof (rnd_pos (- (rnd p - rnd q)) ltac:(lra)) as Q. rewrite rnd_opp in Q. lra. }
  assert (Ze : PrimFloat.ltb dd 0 = false -> PrimFloat.ltb 0 dd = false -> rnd p = rnd q).
  { intros L1 L2. assert (D0 : FR dd = 0). { destruct (Rtotal_order (FR dd) 0) as [L|[L|L]]; auto; exfalso; [rewrite <- Z0 in L|unfold Rgt in L; rewrite <- Z0 in L]; apply ltb_F in L; auto; congruence. }
    rewrite Ed in D0. assert (Fz : FR (x2 * y1)%float = FR (y2 * x1)%float); [|rewrite <- Ep, <- Eq; auto]. rewrite <- Ep, <- Eq in D0.
    destruct (Req_dec (FR (x2 * y1)%float - FR (y2 * x1)%float) 0) as [|N]; [lra|]. exfalso. pose proof (rnd_minus (x2 * y1)%float (y2 * x1)%float) as R. rewrite D0 in R. unfold Rminus at 1 in R. rewrite Rplus_0_l, Rabs_Ropp in R.
    pose proof (Rabs_pos_lt _ N). pose proof uro_small. nra. }
  destruct (PrimFloat.ltb dd 0) eqn:L1; [|destruct (PrimFloat.ltb 0 dd) eqn:L2].
  - specialize (Lt eq_refl). repeat split; try discriminate; intros; auto; try lra.
  - specialize (Gt eq_refl). repeat split; try discriminate; intros; auto; try lra.
  - specialize (Ze eq_refl eq_refl). repeat split; try discriminate; auto. intros _. pose proof (rnd_err p) as R1. pose proof (rnd_err q) as R2. pose proof (Rabs_triang (p - rnd p) (rnd q - q)) as T. rewrite (Rabs_minus_sym p) in T. replace (p - rnd p + (rnd q - q)) with (p - q) in T by (rewrite Ze; ring).
    assert (E2 : bpow radix2 (-1074) = 2 * eta) by (unfold eta; change (-1074)%Z with (1 + -1075)%Z; rewrite bpow_plus; reflexivity). rewrite E2. fold uro. lra.
Qed.
Print Assumptions C73_side_sound.

(** ** A concrete case of the hypotheses *)
Theorem C73_nonvacuous :
  let v := [3%float; 4%float] in let o := [(-1)%float; 0.5%float] in
  v <> [] /\ length v = length o /\ (Z.of_nat (length v) <= max_dim)%Z /\ Forall moderate v /\ Forall moderate o /\ bpow radix2 (-400) <= len (map FR v) /\ bpow radix2 (-400) <= len (map FR o).
Proof.
  assert (V : FR 3%float = 3 /\ FR 4%float = 4 /\ FR (-1)%float = -1 /\ FR 0.5%float = / 2).
  { assert (X : forall x f, Prim2SF x = f -> FR x = SF2R radix2 f) by (intros x f <-; unfold FR; rewrite <- SF2R_B2SF, B2SF_Prim2B; reflexivity).
    repeat split; (erewrite X; [|vm_compute; reflexivity]; simpl; unfold F2R; simpl; lra). }
  destruct V as (V1 & V2 & V3 & V4). assert (B : 4 <= bpow radix2 500) by (change 4 with (bpow radix2 2); apply bpow_le; lia).
  assert (T : bpow radix2 (-400) <= 1) by (change 1 with (bpow radix2 0); apply bpow_le; lia).
  assert (ge1 : forall w, 1 <= dot w w -> bpow radix2 (-400) <= len w). { intros w Hw. eapply Rle_trans; [exact T|]. rewrite <- sqrt_1. apply sqrt_le_1_alt. exact Hw. }
  cbv zeta. split; [discriminate|]. split; [reflexivity|]. split; [unfold max_dim; simpl; lia|]. split; [|split; [|split]].
  - constructor; [|constructor; [|constructor]]; (split; [reflexivity|]); rewrite ?V1, ?V2, Rabs_pos_eq; lra.
  - constructor; [|constructor; [|constructor]]; (split; [reflexivity|]); rewrite ?V3, ?V4; apply Rabs_le; lra.
  - apply ge1. cbn [map dot]. rewrite V1, V2. lra.
  - apply ge1. cbn [map dot]. rewrite V3, V4. lra.
Qed.
