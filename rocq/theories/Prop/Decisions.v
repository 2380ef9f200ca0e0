(** * Property C83: in double precision the default tolerance absorbs the rounding errors

    is_parallel, is_perpendicular and LineSegment.contains_point compare a computed number with 1, 0 or -1 by
    math.isclose.  Here the model runs on IEEE doubles: the comparison itself is exact, and together with the
    accuracy of cosine_similarity (C73) this shows on which side of the tolerance the answer falls. *)
From Coq Require Import String Reals List ZArith Floats Lra Lia Psatz Bool.
From Flocq Require Import Core BinarySingleNaN Sterbenz.
From Flocq Require Import IEEE754.PrimFloat.
From Verif.Model Require Import Outcome Num Instances Numpy BaseArray Vector Points Line Plane LineSegment.
From Verif.Spec Require Import Geometry Tolerance Floats.
From Verif.Proof Require Import VecAlg Bridge Vectors Floats FloatErr.
From Verif.Prop Require Import Floats Accuracy AnyOrder.
From Verif.Prop Require Segments.
Import ListNotations.
Local Open Scope R_scope.

Definition relF : flt := rel_tol (N:=FNum) tol_default.
Lemma relF_val : finite relF /\ FR relF = rel_default.
Proof.
  split; [vm_compute; reflexivity|]. erewrite FR_val by (vm_compute; reflexivity). unfold rel_default. simpl. unfold F2R. simpl. lra.
Qed.
Lemma leb_abs x y : finite x -> finite y -> PrimFloat.leb (PrimFloat.abs x) (PrimFloat.abs y) = true <-> Rabs (FR x) <= Rabs (FR y).
Proof. intros Fx Fy. rewrite leb_F by (apply abs_finite; auto). rewrite !abs_F. reflexivity. Qed.
Lemma leb_abs0 x : finite x -> PrimFloat.leb (PrimFloat.abs x) 0 = true <-> Rabs (FR x) <= 0.
Proof. intros Fx. rewrite leb_F by (apply abs_finite; auto || apply zero_F). rewrite abs_F, (proj1 zero_F). reflexivity. Qed.
Lemma rel_default_small : bpow radix2 (-30) <= rel_default <= / 1024.
Proof. unfold rel_default. simpl. lra. Qed.

Lemma isclose_default_F (a b : flt) : finite a -> finite b -> isclose (N:=FNum) tol_default a b =
  Ok (PrimFloat.eqb a b || (PrimFloat.leb (PrimFloat.abs (b - a)) (PrimFloat.abs (relF * b)) || PrimFloat.leb (PrimFloat.abs (b - a)) (PrimFloat.abs (relF * a)) || PrimFloat.leb (PrimFloat.abs (b - a)) 0))%float.
Proof.
  intros Fa Fb. unfold isclose. change (nltb (n:=FNum) (rel_tol tol_default) n0) with false. change (nltb (n:=FNum) (abs_tol tol_default) n0) with false. cbn [orb].
  change (neqb (n:=FNum)) with PrimFloat.eqb. destruct (PrimFloat.eqb a b); [reflexivity|]. change (nfin (n:=FNum)) with f_finite.
  rewrite (proj2 (f_finite_iff a) Fa), (proj2 (f_finite_iff b) Fb). cbn [negb orb]. reflexivity.
Qed.
Opaque relF.

(** ** Comparing with 1, -1 and 0 is exact *)
Lemma sub_exact (c : R) : generic_format radix2 (FLT_exp (-1074) 53) c -> 0 <= c <= 1 -> (rnd (1 - c) <= rel_default <-> 1 - c <= rel_default).
Proof.
  intros G H. pose proof rel_default_small as RS. split; intro L.
  - destruct (Rle_lt_dec (/ 2) c) as [H2|H2].
    + enough (E : rnd (1 - c) = 1 - c) by lra. unfold rnd. apply round_generic; [apply valid_rnd_N|]. apply sterbenz; [apply FLT_exp_valid; reflexivity|apply FLT_exp_monotone| |exact G|lra].
      change 1 with (bpow radix2 0). apply generic_format_bpow. unfold FLT_exp. lia.
    + exfalso. assert (Q : rnd (/ 2) <= rnd (1 - c)) by (apply rnd_le; lra). assert (E : rnd (/ 2) = / 2).
      { pose proof (rnd_dyad 1 (-1) ltac:(lia) ltac:(lia)) as E. rewrite Rmult_1_l in E. exact E. }
      lra.
  - rewrite <- (proj2 relF_val) in *. rewrite <- (rnd_FR relF) by apply relF_val. apply rnd_le. exact L.
Qed.

(** math.isclose(|c|, 1), for a finite c between -1 and 1 *)
Lemma isclose_one (c : flt) : finite c -> -1 <= FR c <= 1 -> exists r, isclose (N:=FNum) tol_default (PrimFloat.abs c) 1%float = Ok r /\ (r = true <-> 1 - Rabs (FR c) <= rel_default).
Proof.
  intros Fc Hc. destruct one_F as (O & Fo). assert (Fa : finite (PrimFloat.abs c)) by (apply abs_finite; auto). rewrite isclose_default_F by auto. eexists. split; [reflexivity|].
  assert (H01 : 0 <= Rabs (FR c) <= 1) by (split; [apply Rabs_pos|apply Rabs_le; lra]). set (k := Rabs (FR c)) in *.
  destruct (fin_sub 1%float (PrimFloat.abs c) Fo Fa) as (Fd & Ed).
  { rewrite abs_F, O. fold k. eapply Rle_lt_trans; [apply (rnd_bpow_le _ 0); [lia|]|apply bpow_lt; lia]. change (bpow radix2 0) with 1. rewrite Rabs_pos_eq; lra. }
  rewrite abs_F, O in Ed. fold k in Ed.
  assert (Mul : forall x, finite x -> 0 <= FR x <= 1 -> finite (relF * x)%float /\ FR (relF * x)%float = rnd (rel_default * FR x)).
  { intros x Fx Hx. destruct relF_val as (Fr & Er). destruct (fin_mul relF x Fr Fx) as (F & E); [|rewrite Er in E; auto].
    rewrite Er. eapply Rle_lt_trans; [apply (rnd_bpow_le _ 0); [lia|]|apply bpow_lt; lia]. change (bpow radix2 0) with 1. pose proof rel_default_small as RS. pose proof (bpow_gt_0 radix2 (-30)). rewrite Rabs_pos_eq by nra. nra. }
  destruct (Mul 1%float Fo ltac:(lra)) as (F1 & E1). destruct (Mul (PrimFloat.abs c) Fa ltac:(rewrite abs_F; exact H01)) as (F2 & E2). rewrite O, Rmult_1_r in E1. rewrite abs_F in E2. fold k in E2.
  assert (Er : rnd rel_default = rel_default) by (rewrite <- (proj2 relF_val); apply rnd_FR, relF_val). rewrite Er in E1.
  pose proof rel_default_small as RS. pose proof (bpow_gt_0 radix2 (-30)) as B30.
  assert (D0 : 0 <= rnd (1 - k)) by (apply rnd_pos; lra).
  assert (E2' : 0 <= rnd (rel_default * k) <= rel_default). { split; [apply rnd_pos; nra|]. rewrite <- Er at 2. apply rnd_le. nra. }
  rewrite !orb_true_iff. rewrite (leb_abs _ _ Fd F1), (leb_abs _ _ Fd F2), (leb_abs0 _ Fd), (eqb_F _ _ Fa Fo). rewrite abs_F, Ed, E1, E2, O.
  rewrite (Rabs_pos_eq (rnd (1 - k))), (Rabs_pos_eq rel_default), (Rabs_pos_eq (rnd (rel_default * k))) by lra. fold k. rewrite <- (sub_exact k); [|unfold k; rewrite <- abs_F; apply gf|exact H01].
  split; [|tauto]. intros [->|[[?|?]|?]]; try lra. replace (1 - 1) with 0 by ring. rewrite rnd_0. lra.
Qed.

(** math.isclose(c, -1) *)
Lemma isclose_minus_one (c : flt) : finite c -> -1 <= FR c <= 1 -> exists r, isclose (N:=FNum) tol_default c (-1)%float = Ok r /\ (r = true <-> 1 + FR c <= rel_default).
Proof.
  intros Fc Hc. destruct one_F as (O & Fo). assert (M : FR (-1)%float = -1) by (erewrite FR_val by (vm_compute; reflexivity); simpl; unfold F2R; simpl; lra). assert (Fm : finite (-1)%float) by (vm_compute; reflexivity).
  rewrite isclose_default_F by auto. eexists. split; [reflexivity|].
  destruct (fin_sub (-1)%float c Fm Fc) as (Fd & Ed).
  { rewrite M. eapply Rle_lt_trans; [apply (rnd_bpow_le _ 1); [lia|]|apply bpow_lt; lia]. change (bpow radix2 1) with 2. apply Rabs_le. lra. }
  rewrite M in Ed. replace (-1 - FR c) with (- (1 + FR c)) in Ed by ring. rewrite rnd_opp in Ed.
  assert (Mul : forall x, finite x -> Rabs (FR x) <= 1 -> finite (relF * x)%float /\ FR (relF * x)%float = rnd (rel_default * FR x)).
  { intros x Fx Hx. destruct relF_val as (Fr & Er). destruct (fin_mul relF x Fr Fx) as (F & E); [|rewrite Er in E; auto].
    rewrite Er. eapply Rle_lt_trans; [apply (rnd_bpow_le _ 0); [lia|]|apply bpow_lt; lia]. change (bpow radix2 0) with 1. pose proof rel_default_small as RS. pose proof (bpow_gt_0 radix2 (-30)). rewrite Rabs_mult, (Rabs_pos_eq rel_default) by lra. nra. }
  assert (Hc' : Rabs (FR c) <= 1) by (apply Rabs_le; lra).
  destruct (Mul (-1)%float Fm ltac:(rewrite M; apply Rabs_le; lra)) as (F1 & E1). destruct (Mul c Fc Hc') as (F2 & E2).
  assert (Er : rnd rel_default = rel_default) by (rewrite <- (proj2 relF_val); apply rnd_FR, relF_val).
  rewrite M in E1. replace (rel_default * -1) with (- rel_default) in E1 by ring. rewrite rnd_opp, Er in E1.
  pose proof rel_default_small as RS. pose proof (bpow_gt_0 radix2 (-30)) as B30.
  assert (D0 : 0 <= rnd (1 + FR c)) by (apply rnd_pos; lra).
  assert (E2' : Rabs (rnd (rel_default * FR c)) <= rel_default).
  { apply Rabs_le. rewrite <- Er at 1 4. rewrite <- rnd_opp. apply Rabs_le_inv in Hc'. split; apply rnd_le; nra. }
  assert (K : rnd (1 + FR c) <= rel_default <-> 1 + FR c <= rel_default).
  { destruct (Rle_lt_dec (FR c) 0) as [N|P].
    - replace (1 + FR c) with (1 - (- FR c)) by ring. apply sub_exact; [rewrite <- opp_F; apply gf|lra].
    - split; intro Q; [exfalso|lra]. assert (rnd 1 <= rnd (1 + FR c)) by (apply rnd_le; lra). assert (rnd 1 = 1) by (rewrite <- O at 1; rewrite rnd_FR; auto). lra. }
  rewrite !orb_true_iff. rewrite (leb_abs _ _ Fd F1), (leb_abs _ _ Fd F2), (leb_abs0 _ Fd), (eqb_F _ _ Fc Fm). rewrite Ed, E1, E2, M, !Rabs_Ropp.
  rewrite (Rabs_pos_eq (rnd (1 + FR c))), (Rabs_pos_eq rel_default) by lra. rewrite <- K.
  split; [|tauto]. intros [->|[[?|?]|?]]; try lra. replace (1 + -1) with 0 by ring. rewrite rnd_0. lra.
Qed.

(** math.isclose(d, 0): with the default tolerances only a zero is close to zero *)
Lemma isclose_zero (d : flt) : finite d -> isclose (N:=FNum) tol_default d 0%float = Ok (PrimFloat.eqb d 0).
Proof.
  intro Fd. destruct zero_F as (Z & Fz). rewrite isclose_default_F by auto. f_equal. apply eq_true_iff_eq.
  rewrite !orb_true_iff. split; [|auto]. intros [H|H]; [exact H|]. apply eqb_F; auto. rewrite Z. destruct (Req_dec (FR d) 0) as [E|E]; auto. exfalso.
  destruct relF_val as (Fr & Er). pose proof rel_default_small as RS. pose proof (bpow_gt_0 radix2 (-30)) as B30. pose proof (FR_min d E) as Mn. pose proof eta_pos as Ep. pose proof (Rabs_pos (FR d)) as Pd.
  destruct (fin_sub 0%float d Fz Fd) as (Fs & Es).
  { rewrite Z. replace (0 - FR d) with (- FR d) by ring. rewrite rnd_opp, rnd_FR, Rabs_Ropp by auto. unfold FR. apply abs_B2R_lt_emax. }
  rewrite Z in Es. replace (0 - FR d) with (- FR d) in Es by ring. rewrite rnd_opp, rnd_FR in Es by auto.
  assert (Rd : Rabs (rel_default * FR d) <= / 1024 * Rabs (FR d)) by (rewrite Rabs_mult, (Rabs_pos_eq rel_default) by lra; apply Rmult_le_compat_r; lra).
  pose proof (rnd_err (rel_default * FR d)) as Re. pose proof uro_small as (U1 & U2).
  assert (Rm : Rabs (rnd (rel_default * FR d)) < Rabs (FR d)).
  { pose proof (Rabs_triang (rnd (rel_default * FR d) - rel_default * FR d) (rel_default * FR d)) as T. replace (rnd (rel_default * FR d) - rel_default * FR d + rel_default * FR d) with (rnd (rel_default * FR d)) in T by ring.
    assert (uro * Rabs (rel_default * FR d) <= / 1024 * (/ 1024 * Rabs (FR d))) by (apply Rmult_le_compat; try lra; apply Rabs_pos). lra. }
  destruct (fin_mul relF d Fr Fd) as (Fm & Em). { rewrite Er. eapply Rlt_le_trans; [exact Rm|]. left. unfold FR. apply abs_B2R_lt_emax. }
  destruct (fin_mul relF 0%float Fr Fz) as (Fm0 & Em0). { rewrite Z, Rmult_0_r, rnd_0, Rabs_R0. apply bpow_gt_0. }
  rewrite Z, Rmult_0_r, rnd_0 in Em0. rewrite Er in Em.
  rewrite (leb_abs _ _ Fs Fm0), (leb_abs _ _ Fs Fm), (leb_abs0 _ Fs) in H. rewrite Es, Em, Em0, Rabs_Ropp, Rabs_R0 in H. lra.
Qed.

Theorem C83_comparisons_exact : forall c : flt, finite c -> -1 <= FR c <= 1 ->
  (exists r, isclose (N:=FNum) tol_default (PrimFloat.abs c) 1%float = Ok r /\ (r = true <-> 1 - Rabs (FR c) <= rel_default)) /\
  (exists r, isclose (N:=FNum) tol_default c (-1)%float = Ok r /\ (r = true <-> 1 + FR c <= rel_default)) /\
  (exists r, isclose (N:=FNum) tol_default c 0%float = Ok r /\ (r = true <-> FR c = 0)).
Proof.
  intros c Fc Hc. split; [apply isclose_one; auto|]. split; [apply isclose_minus_one; auto|]. eexists. split; [apply isclose_zero; auto|].
  rewrite (eqb_F _ _ Fc (proj2 zero_F)), (proj1 zero_F). reflexivity.
Qed.
Print Assumptions C83_comparisons_exact.

(** ** is_parallel *)
Lemma dot_self_pos_F (v : list flt) : (Z.of_nat (length v) <= max_dim)%Z -> Forall moderate v -> bpow radix2 (-400) <= len (map FR v) ->
  finite (dot_raw (N:=FNum) v v) /\ 0 < FR (dot_raw (N:=FNum) v v).
Proof.
  intros Ln Hv Lv. destruct (C73_dot_accurate v v eq_refl Ln Hv Hv) as (d & Ed & Fd & Hd). rewrite np_dot_F in Ed by auto. injection Ed as <-. split; auto.
  change (dot (map Rabs (map FR v)) (map Rabs (map FR v))) with (absdot (map FR v) (map FR v)) in Hd. rewrite absdot_self, <- len_sq in Hd. set (K := len (map FR v)) in *.
  assert (P800 : bpow radix2 (-800) <= K * K). { change (-800)%Z with (-400 + -400)%Z. rewrite bpow_plus. apply Rmult_le_compat; auto; apply bpow_ge_0. }
  pose proof (ndim_small (length v) 2 Ln ltac:(lia)) as S2. fold uro in Hd. assert (B30 : bpow radix2 (-30) <= / 4) by (change (/ 4) with (bpow radix2 (-2)); apply bpow_le; lia).
  assert (B : bpow radix2 (-1050) <= / 4 * (K * K)). { apply Rle_trans with (bpow radix2 (-2) * bpow radix2 (-800)); [rewrite <- bpow_plus; apply bpow_le; lia|]. change (bpow radix2 (-2)) with (/ 4). lra. }
  assert (Kp : 0 < K * K) by (eapply Rlt_le_trans; [apply (bpow_gt_0 radix2 (-800))|exact P800]).
  assert ((INR (length v) + 2) * uro * (K * K) <= / 4 * (K * K)) by (apply Rmult_le_compat_r; lra). apply Rabs_le_inv in Hd. lra.
Qed.
Lemma is_zero_F (v : list flt) : finite (dot_raw (N:=FNum) v v) -> is_zero (N:=FNum) tol_default v = Ok (PrimFloat.eqb (dot_raw (N:=FNum) v v) 0).
Proof. intro F. unfold is_zero. rewrite np_dot_F by auto. cbn [bind]. apply isclose_zero. auto. Qed.
Lemma not_zero_F (v : list flt) : (Z.of_nat (length v) <= max_dim)%Z -> Forall moderate v -> bpow radix2 (-400) <= len (map FR v) -> is_zero (N:=FNum) tol_default v = Ok false.
Proof.
  intros Ln Hv Lv. destruct (dot_self_pos_F v Ln Hv Lv) as (F & P). rewrite is_zero_F by auto. destruct (PrimFloat.eqb _ 0) eqn:E; auto. apply fzero_eqb in E as (_ & E). lra.
Qed.
Lemma cos_range (v o : list flt) : length v = length o -> 0 < len (map FR v) -> 0 < len (map FR o) -> Rabs (cosine (map FR v) (map FR o)) <= 1.
Proof.
  intros L Kv Ko. unfold cosine. unfold Rdiv. assert (P : 0 < len (map FR v) * len (map FR o)) by (apply Rmult_lt_0_compat; auto).
  rewrite Rabs_mult, Rabs_inv, (Rabs_pos_eq (_ * _)) by lra. apply Rmult_le_reg_r with (len (map FR v) * len (map FR o)); auto. rewrite Rmult_assoc, Rinv_l by lra.
  pose proof (cauchy_schwarz (map FR v) (map FR o) ltac:(rewrite !map_length; auto)). lra.
Qed.

Theorem C83_is_parallel : forall v o : list flt, length v = length o -> v <> [] -> (Z.of_nat (length v) <= max_dim)%Z -> Forall moderate v -> Forall moderate o ->
  bpow radix2 (-400) <= len (map FR v) -> bpow radix2 (-400) <= len (map FR o) ->
  let c := Rabs (dot (map FR v) (map FR o) / (len (map FR v) * len (map FR o))) in let e := (3 * INR (length v) + 20) * bpow radix2 (-53) in
  exists r, is_parallel (N:=FNum) tol_default v o = Ok r /\ (1 - rel_default + e <= c -> r = true) /\ (c < 1 - rel_default - e -> r = false).
Proof.
  intros v o L Hne Ln Hv Ho Lv Lo c e. assert (Ec : c = Rabs (cosine (map FR v) (map FR o))) by reflexivity. clearbody c. destruct (C73_cosine_accurate v o L Hne Ln Hv Ho Lv Lo) as (x & Ex & Fx & Hx). fold e in Hx. fold (cosine (map FR v) (map FR o)) in Hx.
  unfold is_parallel. rewrite not_zero_F by auto. unfold por. cbn [bind]. rewrite vector_of_ok; [|intro Q; rewrite Q in L; destruct v; [contradiction|discriminate]|apply moderate_finite; auto].
  cbn [bind]. rewrite not_zero_F by (auto; rewrite <- L; auto). cbn [bind]. rewrite Ex. cbn [bind]. 
  destruct (C70_cosine_range v o x Ex (finite_not_nan _ Fx)) as (_ & Hr). destruct (isclose_one x Fx Hr) as (r & Er & Kr). exists r. split; [exact Er|].
  pose proof (Rabs_triang_inv (FR x) (cosine (map FR v) (map FR o))) as T1. pose proof (Rabs_triang_inv (cosine (map FR v) (map FR o)) (FR x)) as T2. rewrite Rabs_minus_sym in T2. rewrite <- Ec in T1, T2. split; intro H.
  - apply Kr. lra. - destruct r; auto. assert (Q : 1 - Rabs (FR x) <= rel_default) by (apply Kr; reflexivity). lra.
Qed.
Print Assumptions C83_is_parallel.

(** The error of the cosine is always well below the tolerance. *)
Lemma err_below (n : nat) : (Z.of_nat n <= max_dim)%Z -> (3 * INR n + 30) * bpow radix2 (-53) <= rel_default.
Proof.
  intro Ln. unfold max_dim in Ln. eapply Rle_trans; [|apply rel_default_small]. replace (3 * INR n + 30) with (IZR (3 * Z.of_nat n + 30)) by (rewrite plus_IZR, mult_IZR, <- INR_IZR_INZ; reflexivity).
  change (-30)%Z with (23 + -53)%Z. rewrite bpow_plus. apply Rmult_le_compat_r; [apply bpow_ge_0|]. change (bpow radix2 23) with (IZR (2 ^ 23)). apply IZR_le. lia.
Qed.

(** Exactly parallel vectors are always recognised. *)
Definition zero_or_normal (v : list flt) : Prop := is_zero_vec (map FR v) \/ bpow radix2 (-400) <= len (map FR v).
Lemma zero_vec_F (v : list flt) : Forall moderate v -> is_zero_vec (map FR v) -> fzero (dot_raw (N:=FNum) v v).
Proof.
  intros Hv Z. apply zeros_dot; [apply moderate_finite; auto|]. unfold is_zero_vec in Z. rewrite map_length in Z. clear - Hv Z. induction Hv as [|x v (Fx & _) Hv IH]; constructor.
  - cbn in Z. injection Z as Z _. split; auto. - apply IH. cbn in Z. injection Z as _ Z. exact Z.
Qed.
Theorem C83_parallel_recognised : forall v o : list flt, length v = length o -> v <> [] -> (Z.of_nat (length v) <= max_dim)%Z -> Forall moderate v -> Forall moderate o ->
  zero_or_normal v -> zero_or_normal o -> dependent (map FR v) (map FR o) -> is_parallel (N:=FNum) tol_default v o = Ok true.
Proof.
  intros v o L Hne Ln Hv Ho Zv Zo D. destruct Zv as [Zv|Lv].
  { unfold is_parallel, por. destruct (zero_vec_F v Hv Zv) as (F & E). rewrite is_zero_F by auto. cbn [bind]. rewrite (proj1 (fzero_eqb _)) by (split; auto). reflexivity. }
  destruct Zo as [Zo|Lo].
  { unfold is_parallel, por. rewrite not_zero_F by auto. cbn [bind]. rewrite vector_of_ok; [|intro Q; rewrite Q in L; destruct v; [contradiction|discriminate]|apply moderate_finite; auto]. cbn [bind].
    destruct (zero_vec_F o Ho Zo) as (F & E). rewrite is_zero_F by auto. cbn [bind]. rewrite (proj1 (fzero_eqb _)) by (split; auto). reflexivity. }
  destruct (C83_is_parallel v o L Hne Ln Hv Ho Lv Lo) as (r & -> & K & _). f_equal. apply K.
  assert (NZ : forall w : list flt, bpow radix2 (-400) <= len (map FR w) -> ~ is_zero_vec (map FR w)).
  { intros w Lw Z. apply len_zero_iff in Z. rewrite Z in Lw. pose proof (bpow_gt_0 radix2 (-400)). lra. }
  fold (cosine (map FR v) (map FR o)). rewrite dependent_abs_cosine; [|rewrite !map_length; auto|apply NZ; auto|apply NZ; auto|exact D].
  pose proof (err_below (length v) Ln). pose proof (bpow_gt_0 radix2 (-53)). lra.
Qed.
Print Assumptions C83_parallel_recognised.

(** ... so constructions that need independent directions raise instead of returning something meaningless. *)
Theorem C83_parallel_raises : forall v o : list flt, length v = length o -> v <> [] -> (Z.of_nat (length v) <= max_dim)%Z -> Forall moderate v -> Forall moderate o ->
  zero_or_normal v -> zero_or_normal o -> dependent (map FR v) (map FR o) ->
  (forall LA check p q l m, line_new (N:=FNum) p v = Ok l -> line_new (N:=FNum) q o = Ok m -> exists s, line_intersect_line LA tol_default check l m = Raise (ValueError s)) /\
  (forall p, exists s, plane_from_vectors (N:=FNum) tol_default p v o = Raise (ValueError s)) /\
  (forall LA p q a b, plane_new (N:=FNum) p v = Ok a -> plane_new (N:=FNum) q o = Ok b -> exists s, plane_intersect_plane LA tol_default a b = Raise (ValueError s)) /\
  (forall p q a l, plane_new (N:=FNum) p v = Ok a -> line_new (N:=FNum) q o = Ok l -> exists s, plane_project_line tol_default a l = Raise (ValueError s)).
Proof.
  intros v o L Hne Ln Hv Ho Zv Zo D. pose proof (C83_parallel_recognised v o L Hne Ln Hv Ho Zv Zo D) as P.
  assert (LN : forall p d l, line_new (N:=FNum) p d = Ok l -> l = MkLine (N:=FNum) p d).
  { intros p d l H. unfold line_new in H. destruct (check_point_vector p d) as [(p', d')| |] eqn:E; cbn [bind] in H; try discriminate. injection H as <-. apply check_F in E as (-> & -> & _). reflexivity. }
  assert (PN : forall p d l, plane_new (N:=FNum) p d = Ok l -> l = MkPlane (N:=FNum) p d).
  { intros p d l H. unfold plane_new in H. destruct (check_point_vector p d) as [(p', d')| |] eqn:E; cbn [bind] in H; try discriminate. injection H as <-. apply check_F in E as (-> & -> & _). reflexivity. }
  split; [|split; [|split]].
  - intros LA ck p q l m Hl Hm. apply LN in Hl, Hm. subst l m. unfold line_intersect_line. destruct (negb _); [eexists; reflexivity|]. destruct (_ || _); [eexists; reflexivity|]. cbn [l_dir]. rewrite P. eexists; reflexivity.
  - intros p. unfold plane_from_vectors. rewrite vector_of_ok by (auto; apply moderate_finite; auto). cbn [bind]. rewrite P. eexists; reflexivity.
  - intros LA p q a b Ha Hb. apply PN in Ha, Hb. subst a b. unfold plane_intersect_plane. cbn [pl_normal]. rewrite P. eexists; reflexivity.
  - intros p q a l Ha Hl. apply PN in Ha. apply LN in Hl. subst a l. unfold plane_project_line. cbn [pl_normal l_dir]. rewrite P. eexists; reflexivity.
Qed.
Print Assumptions C83_parallel_raises.

(** ** is_perpendicular: with the default tolerance, exactly whether the computed dot product is zero *)
Theorem C83_is_perpendicular : forall v o : list flt, length v = length o -> (Z.of_nat (length v) <= max_dim)%Z -> Forall moderate v -> Forall moderate o ->
  exists d r, np_dot (N:=FNum) v o = Ok d /\ is_perpendicular (N:=FNum) tol_default v o = Ok r /\ (r = true <-> FR d = 0) /\
    (r = true -> Rabs (dot (map FR v) (map FR o)) <= (INR (length v) + 2) * bpow radix2 (-53) * dot (map Rabs (map FR v)) (map Rabs (map FR o)) + bpow radix2 (-1050)).
Proof.
  intros v o L Ln Hv Ho. destruct (C73_dot_accurate v o L Ln Hv Ho) as (d & Ed & Fd & Hd). exists d, (PrimFloat.eqb d 0). split; auto. unfold is_perpendicular. rewrite Ed. cbn [bind].
  split; [apply isclose_zero; auto|]. assert (K : PrimFloat.eqb d 0 = true <-> FR d = 0) by (rewrite (eqb_F _ _ Fd (proj2 zero_F)), (proj1 zero_F); reflexivity). split; auto.
  intro H. apply K in H. rewrite H in Hd. replace (0 - dot (map FR v) (map FR o)) with (- dot (map FR v) (map FR o)) in Hd by ring. rewrite Rabs_Ropp in Hd. exact Hd.
Qed.
Print Assumptions C83_is_perpendicular.

(** In the plane, exactly perpendicular vectors are always recognised. *)
Theorem C83_perpendicular_2d : forall a b c d : flt, Forall moderate [a; b; c; d] -> FR a * FR c + FR b * FR d = 0 -> is_perpendicular (N:=FNum) tol_default [a; b] [c; d] = Ok true.
Proof.
  intros a b c d H E. inversion H as [|? ? Ha H1]; subst. inversion H1 as [|? ? Hb H2]; subst. inversion H2 as [|? ? Hc H3]; subst. inversion H3 as [|? ? Hd H4]; subst. clear H H1 H2 H3 H4.
  assert (Mul : forall x y, moderate x -> moderate y -> finite (x * y)%float /\ FR (x * y)%float = rnd (FR x * FR y)).
  { intros x y (Fx & Hx) (Fy & Hy). apply fin_mul; auto. eapply Rle_lt_trans; [apply (rnd_bpow_le _ 1000); [lia|]|apply bpow_lt; lia]. rewrite Rabs_mult. change 1000%Z with (500 + 500)%Z. rewrite bpow_plus. apply Rmult_le_compat; auto; apply Rabs_pos. }
  destruct (Mul a c Ha Hc) as (F1 & E1). destruct (Mul b d Hb Hd) as (F2 & E2). destruct (add_fzero (b * d) 0 F2) as (F3 & E3). { split; apply zero_F. }
  assert (Z : fzero (a * c + (b * d + 0))%float).
  { assert (Zr : rnd (FR (a * c)%float + FR (b * d + 0)%float) = 0) by (rewrite E1, E3, E2; replace (FR b * FR d) with (- (FR a * FR c)) by lra; rewrite rnd_opp, Rplus_opp_r, rnd_0; reflexivity).
    destruct (fin_add (a * c) (b * d + 0) F1 F3) as (F & Es); [rewrite Zr, Rabs_R0; apply bpow_gt_0|]. split; auto. rewrite Es. exact Zr. }
  unfold is_perpendicular. rewrite np_dot_F by auto. cbn [bind]. change (dot_raw (N:=FNum) [a; b] [c; d]) with (a * c + (b * d + 0))%float. rewrite isclose_zero by apply Z. f_equal. apply fzero_eqb. exact Z.
Qed.
Print Assumptions C83_perpendicular_2d.

(** With integer coordinates that are not too large the test is exact in every dimension. *)
Lemma rnd_int (k : Z) : (Z.abs k < 2 ^ 53)%Z -> rnd (IZR k) = IZR k.
Proof.
  intro H. destruct (Z_le_gt_dec 0 k) as [P|P].
  - pose proof (rnd_dyad k 0 ltac:(lia) ltac:(lia)) as E. change (bpow radix2 0) with 1 in E. rewrite Rmult_1_r in E. exact E.
  - replace k with (- (- k))%Z by lia. rewrite opp_IZR, rnd_opp. f_equal. pose proof (rnd_dyad (- k) 0 ltac:(lia) ltac:(lia)) as E. change (bpow radix2 0) with 1 in E. rewrite Rmult_1_r in E. exact E.
Qed.
Lemma small_int_bound (k : Z) : (Z.abs k < 2 ^ 53)%Z -> Rabs (IZR k) < bpow radix2 1024.
Proof. intro H. rewrite <- abs_IZR. apply Rlt_trans with (bpow radix2 53); [change (bpow radix2 53) with (IZR (2 ^ 53)); apply IZR_lt; auto|apply bpow_lt; lia]. Qed.
Fixpoint zdot (a b : list Z) : Z := match a, b with x :: a, y :: b => (x * y + zdot a b)%Z | _, _ => 0%Z end.
Lemma zdot_abs a b : (Z.abs (zdot a b) <= zdot (map Z.abs a) (map Z.abs b))%Z.
Proof. revert b. induction a as [|x a IH]; intros [|y b]; cbn [zdot map]; try lia. specialize (IH b). pose proof (Z.abs_triangle (x * y) (zdot a b)). rewrite Z.abs_mul in H. lia. Qed.
Lemma zdot_abs_pos a b : (0 <= zdot (map Z.abs a) (map Z.abs b))%Z.
Proof. revert b. induction a as [|x a IH]; intros [|y b]; cbn [zdot map]; try lia. specialize (IH b). nia. Qed.
Lemma dot_int (v o : list flt) (a b : list Z) : Forall2 (fun x k => finite x /\ FR x = IZR k) v a -> Forall2 (fun x k => finite x /\ FR x = IZR k) o b -> length v = length o ->
  (zdot (map Z.abs a) (map Z.abs b) < 2 ^ 53)%Z -> finite (dot_raw (N:=FNum) v o) /\ FR (dot_raw (N:=FNum) v o) = IZR (zdot a b).
Proof.
  intro Fv. revert o b. induction Fv as [|x k v a (Fx & Ex) Fv IH]; intros o b Fo L B; destruct Fo as [|y j o b (Fy & Ey) Fo]; try discriminate L.
  - split; apply zero_F.
  - cbn [zdot map] in B. rewrite dot_cons. cbn [zdot]. pose proof (zdot_abs a b). pose proof (zdot_abs_pos a b). pose proof (Z.abs_nonneg k). pose proof (Z.abs_nonneg j). assert (0 <= Z.abs k * Z.abs j)%Z by nia.
    destruct (IH o b Fo ltac:(simpl in L; lia) ltac:(lia)) as (Fd & Ed).
    assert (M : rnd (FR x * FR y) = IZR (k * j)) by (rewrite Ex, Ey, <- mult_IZR; apply rnd_int; rewrite Z.abs_mul; lia).
    destruct (fin_mul x y Fx Fy) as (Fm & Em). { rewrite M. apply small_int_bound. rewrite Z.abs_mul. lia. } rewrite M in Em.
    pose proof (Z.abs_triangle (k * j) (zdot a b)) as T. rewrite Z.abs_mul in T.
    assert (A : rnd (FR (x * y)%float + FR (dot_raw (N:=FNum) v o)) = IZR (k * j + zdot a b)) by (rewrite Em, Ed, <- plus_IZR; apply rnd_int; lia).
    destruct (fin_add _ _ Fm Fd) as (Fa & Ea). { rewrite A. apply small_int_bound. lia. } rewrite A in Ea. auto.
Qed.
Lemma dot_zdot (a b : list Z) : dot (map IZR a) (map IZR b) = IZR (zdot a b).
Proof. revert b. induction a as [|x a IH]; intros [|y b]; cbn [map dot zdot]; auto. rewrite IH, plus_IZR, mult_IZR. reflexivity. Qed.
Lemma dot_zdot_abs (a b : list Z) : dot (map Rabs (map IZR a)) (map Rabs (map IZR b)) = IZR (zdot (map Z.abs a) (map Z.abs b)).
Proof. revert b. induction a as [|x a IH]; intros [|y b]; cbn [map dot zdot]; auto. rewrite IH, plus_IZR, mult_IZR, !abs_IZR. reflexivity. Qed.
Theorem C83_perpendicular_integers : forall (v o : list flt) (a b : list Z), Forall finite v -> Forall finite o -> map FR v = map IZR a -> map FR o = map IZR b -> length v = length o ->
  dot (map Rabs (map FR v)) (map Rabs (map FR o)) < bpow radix2 53 ->
  exists r, is_perpendicular (N:=FNum) tol_default v o = Ok r /\ (r = true <-> dot (map FR v) (map FR o) = 0).
Proof.
  assert (Q : forall (v : list flt) (a : list Z), Forall finite v -> map FR v = map IZR a -> Forall2 (fun x k => finite x /\ FR x = IZR k) v a).
  { intros v a F. revert a. induction F as [|x v Fx F IH]; intros [|k a] E; try discriminate E; constructor; [injection E as E _; auto|apply IH; injection E as _ E; auto]. }
  intros v o a b Fv Fo Ea Eb L B. rewrite Ea, Eb, dot_zdot_abs in B. change (bpow radix2 53) with (IZR (2 ^ 53)) in B. apply lt_IZR in B.
  destruct (dot_int v o a b (Q _ _ Fv Ea) (Q _ _ Fo Eb) L B) as (Fd & Ed). unfold is_perpendicular. rewrite np_dot_F by auto. cbn [bind]. eexists. split; [apply isclose_zero; auto|].
  rewrite (eqb_F _ _ Fd (proj2 zero_F)), (proj1 zero_F), Ed, Ea, Eb, dot_zdot. reflexivity.
Qed.
Print Assumptions C83_perpendicular_integers.

(** In 3D, vectors with fractional coordinates may be exactly perpendicular without being recognised; Plane.intersect_line then returns
    a point for a line that is exactly parallel to the plane. *)
Theorem C83_perpendicular_3d_refuted : exists (n d p q : list flt) (pl : plane FNum) (l : line FNum) (x : list flt), Forall moderate n /\ Forall moderate d /\
  plane_new (N:=FNum) p n = Ok pl /\ line_new (N:=FNum) q d = Ok l /\ dot (map FR n) (map FR d) = 0 /\
  is_perpendicular (N:=FNum) tol_default n d = Ok false /\ plane_intersect_line (N:=FNum) tol_default pl l = Ok x.
Proof.
  exists [1; 1.0000000009313225746154785156250; 1]%float, [8.67361737988403547205962240695953369140625e-19; 0.9999999990686774253845214843750; -1]%float, [0; 0; 0]%float, [1; 0; 0]%float. do 3 eexists.
  assert (M : forall x f, Prim2SF x = f -> is_finite_SF f = true -> Rabs (SF2R radix2 f) <= bpow radix2 500 -> moderate x).
  { intros x f E Ff B. split; [unfold finite; rewrite <- is_finite_SF_B2SF, B2SF_Prim2B, E; auto|rewrite (FR_val x f E); exact B]. }
  assert (B500 : forall r, Rabs r <= 2 -> Rabs r <= bpow radix2 500) by (intros r Hr; eapply Rle_trans; [exact Hr|]; change 2 with (bpow radix2 1); apply bpow_le; lia).
  split; [|split].
  1-2: repeat (apply Forall_cons; [eapply M; [vm_compute; reflexivity|reflexivity|]; apply B500; simpl; unfold F2R; simpl; apply Rabs_le; lra|]); apply Forall_nil.
  split; [reflexivity|]. split; [reflexivity|]. split; [|split; [reflexivity|reflexivity]].
  cbn [map dot]. repeat (erewrite FR_val by (vm_compute; reflexivity)). simpl. unfold F2R. simpl. lra.
Qed.
Print Assumptions C83_perpendicular_3d_refuted.

(** ** LineSegment.contains_point *)
(** The cosine of slightly perturbed vectors. *)
Lemma dot_perturb (e : R) (x x' y y' : pt) : 0 <= e -> Forall2 (fun p q => Rabs (p - q) <= e * Rabs q) x' x -> Forall2 (fun p q => Rabs (p - q) <= e * Rabs q) y' y -> length x = length y ->
  Rabs (dot x' y' - dot x y) <= (2 * e + e * e) * absdot x y.
Proof.
  intros He Fx. revert y y'. induction Fx as [|p q x' x H Fx IH]; intros y y' Fy L; destruct Fy as [|r s y' y H' Fy]; try discriminate L; unfold absdot in *; cbn [dot map].
  - rewrite Rminus_0_r, Rabs_R0. lra.
  - specialize (IH y y' Fy ltac:(simpl in L; lia)). replace (p * r + dot x' y' - (q * s + dot x y)) with ((p - q) * (r - s) + (p - q) * s + q * (r - s) + (dot x' y' - dot x y)) by ring.
    eapply Rle_trans; [apply Rabs_triang|]. eapply Rle_trans; [apply Rplus_le_compat_r; eapply Rle_trans; [apply Rabs_triang|apply Rplus_le_compat_r, Rabs_triang]|]. rewrite !Rabs_mult.
    pose proof (Rabs_pos q). pose proof (Rabs_pos s). pose proof (Rabs_pos (p - q)). pose proof (Rabs_pos (r - s)).
    assert (Rabs (p - q) * Rabs (r - s) <= (e * Rabs q) * (e * Rabs s)) by (apply Rmult_le_compat; auto). assert (Rabs (p - q) * Rabs s <= e * Rabs q * Rabs s) by (apply Rmult_le_compat_r; auto). assert (Rabs q * Rabs (r - s) <= Rabs q * (e * Rabs s)) by (apply Rmult_le_compat_l; auto). nra.
Qed.
Lemma cos_perturb (x x' y y' : pt) : Forall2 (fun p q => Rabs (p - q) <= uro * Rabs q) x' x -> Forall2 (fun p q => Rabs (p - q) <= uro * Rabs q) y' y -> length x = length y -> 0 < len x -> 0 < len y ->
  0 < len x' /\ 0 < len y' /\ Rabs (cosine x' y' - cosine x y) <= 5 * uro.
Proof.
  intros Fx Fy L X Y. pose proof uro_small as (U1 & U2). pose proof (dot_perturb uro x x' y y' ltac:(lra) Fx Fy L) as D. pose proof (len_close uro _ _ ltac:(lra) Fx) as Lx. pose proof (len_close uro _ _ ltac:(lra) Fy) as Ly.
  pose proof (absdot_cauchy x y L) as AC. pose proof (cauchy_schwarz x y L) as CS. apply Rabs_le_inv in Lx, Ly. unfold cosine. set (A := len x) in *. set (B := len y) in *. set (A' := len x') in *. set (B' := len y') in *. set (d := dot x y) in *. set (d' := dot x' y') in *.
  assert (uro * A <= / 1024 * A) by (apply Rmult_le_compat_r; lra). assert (uro * B <= / 1024 * B) by (apply Rmult_le_compat_r; lra).
  assert (PA : 0 < A') by lra. assert (PB : 0 < B') by lra. split; auto. split; auto. set (P := A * B). assert (Pp : 0 < P) by (apply Rmult_lt_0_compat; auto). assert (P' : 0 < A' * B') by (apply Rmult_lt_0_compat; auto).
  assert (W : Rabs (A' * B' - P) <= (2 * uro + uro * uro) * P).
  { replace (A' * B' - P) with ((A' - A) * (B' - B) + (A' - A) * B + A * (B' - B)) by (unfold P; ring). eapply Rle_trans; [apply Rabs_triang|]. eapply Rle_trans; [apply Rplus_le_compat_r, Rabs_triang|]. rewrite !Rabs_mult, (Rabs_pos_eq A), (Rabs_pos_eq B) by lra.
    assert (HA : Rabs (A' - A) <= uro * A) by (apply Rabs_le; lra). assert (HB : Rabs (B' - B) <= uro * B) by (apply Rabs_le; lra). pose proof (Rabs_pos (A' - A)). pose proof (Rabs_pos (B' - B)).
    assert (Rabs (A' - A) * Rabs (B' - B) <= uro * A * (uro * B)) by (apply Rmult_le_compat; auto). assert (Rabs (A' - A) * B <= uro * A * B) by (apply Rmult_le_compat_r; lra). assert (A * Rabs (B' - B) <= A * (uro * B)) by (apply Rmult_le_compat_l; lra). unfold P. nra. }
  assert (UU : uro * uro <= / 1024 * uro) by (apply Rmult_le_compat_r; lra).
  assert (D2 : Rabs (d' - d) <= (2 * uro + uro * uro) * P). { eapply Rle_trans; [exact D|]. apply Rmult_le_compat_l; [nra|exact AC]. }
  replace (d' / (A' * B') - d / P) with (((d' - d) - d / P * (A' * B' - P)) / (A' * B')) by (unfold P; field; repeat split; lra).
  assert (C1 : Rabs (d / P) <= 1). { unfold Rdiv. rewrite Rabs_mult, Rabs_inv, (Rabs_pos_eq P) by lra. apply Rmult_le_reg_r with P; auto. rewrite Rmult_assoc, Rinv_l by lra. unfold P in *. lra. }
  unfold Rdiv at 1. rewrite Rabs_mult, Rabs_inv, (Rabs_pos_eq (A' * B')) by lra. apply Rmult_le_reg_r with (A' * B'); auto. rewrite Rmult_assoc, Rinv_l, Rmult_1_r by lra.
  eapply Rle_trans; [apply Rabs_triang|]. rewrite Rabs_Ropp, Rabs_mult. assert (Rabs (d / P) * Rabs (A' * B' - P) <= 1 * ((2 * uro + uro * uro) * P)) by (apply Rmult_le_compat; auto; apply Rabs_pos).
  apply Rabs_le_inv in W. assert (uro * uro * P <= / 1024 * uro * P) by (apply Rmult_le_compat_r; lra). assert (0 <= uro * P) by (apply Rmult_le_pos; lra).
  assert (5 * uro * ((1 - (2 * uro + uro * uro)) * P) <= 5 * uro * (A' * B')) by (apply Rmult_le_compat_l; lra). assert (uro * (uro * uro * P) <= / 1024 * (/ 1024 * uro * P)) by (apply Rmult_le_compat; nra). nra.
Qed.

(** Coordinates up to 2^499, so that differences stay below 2^500. *)
Definition half_moderate (x : flt) : Prop := finite x /\ Rabs (FR x) <= bpow radix2 499.
Lemma half_moderate_m v : Forall half_moderate v -> Forall moderate v.
Proof. intro H. eapply Forall_impl; [|exact H]. intros x (F & B). split; auto. eapply Rle_trans; [exact B|]. apply bpow_le. lia. Qed.
Lemma subs_moderate (a b : list flt) : length a = length b -> Forall half_moderate a -> Forall half_moderate b -> Forall moderate (map2 (N:=FNum) PrimFloat.sub b a).
Proof.
  revert b. induction a as [|x a IH]; intros [|y b] L Ha Hb; try discriminate; cbn [map2]; [constructor|].
  inversion_clear Ha as [|? ? Hx Ha']. inversion_clear Hb as [|? ? Hy Hb']. constructor; [|apply IH; auto]. destruct Hx as (Fx & Hx), Hy as (Fy & Hy).
  assert (H : Rabs (rnd (FR y - FR x)) <= bpow radix2 500).
  { apply rnd_bpow_le; [lia|]. change 500%Z with (1 + 499)%Z. rewrite (bpow_plus radix2 1 499). change (bpow radix2 1) with 2. pose proof (Rabs_triang (FR y) (- FR x)) as T. rewrite Rabs_Ropp in T. unfold Rminus. lra. }
  destruct (fin_sub y x Fy Fx) as (F & E). { eapply Rle_lt_trans; [exact H|]. apply bpow_lt. lia. } split; auto. rewrite E. exact H.
Qed.
Lemma from_points_F (a b : list flt) : a <> [] -> length a = length b -> Forall half_moderate a -> Forall half_moderate b ->
  from_points (N:=FNum) a b = Ok (map2 (N:=FNum) PrimFloat.sub b a) /\ length (map2 (N:=FNum) PrimFloat.sub b a) = length a /\ Forall moderate (map2 (N:=FNum) PrimFloat.sub b a) /\
  Forall2 (fun y z => Rabs (y - z) <= uro * Rabs z) (map FR (map2 (N:=FNum) PrimFloat.sub b a)) (sub (map FR b) (map FR a)).
Proof.
  intros Hne L Ha Hb. destruct (subs_ok a b L (half_moderate_m _ Ha) (half_moderate_m _ Hb)) as (_ & Ls & C). pose proof (subs_moderate a b L Ha Hb) as M. split; [|auto].
  unfold from_points. change (nsub (n:=FNum)) with PrimFloat.sub. rewrite bcast_F by auto. cbn [bind]. apply vector_of_ok; [|apply moderate_finite; auto]. intro E. rewrite E in Ls. destruct a; [contradiction|discriminate].
Qed.
Lemma len_half (x' x : pt) : Forall2 (fun y z => Rabs (y - z) <= uro * Rabs z) x' x -> bpow radix2 (-399) <= len x -> bpow radix2 (-400) <= len x'.
Proof.
  intros F H. pose proof uro_small as (U1 & U2). pose proof (len_close uro _ _ ltac:(lra) F) as Q. apply Rabs_le_inv in Q. change (-399)%Z with (1 + -400)%Z in H. rewrite (bpow_plus radix2 1 (-400)) in H. change (bpow radix2 1) with 2 in H.
  assert (uro * len x <= / 1024 * len x) by (apply Rmult_le_compat_r; [apply len_nonneg|lra]). lra.
Qed.

Theorem C83_segment_contains_point : forall (a b q : list flt) (s : segment FNum), segment_new (N:=FNum) a b = Ok s -> length b = length a -> length q = length a -> (Z.of_nat (length a) <= max_dim)%Z ->
  Forall half_moderate a -> Forall half_moderate b -> Forall half_moderate q -> bpow radix2 (-399) <= dist (map FR q) (map FR a) -> bpow radix2 (-399) <= dist (map FR q) (map FR b) ->
  let c := dot (sub (map FR a) (map FR q)) (sub (map FR b) (map FR q)) / (dist (map FR q) (map FR a) * dist (map FR q) (map FR b)) in
  let e := (3 * INR (length a) + 25) * bpow radix2 (-53) in
  exists r, segment_contains_point (N:=FNum) tol_default s q = Ok r /\ (c <= -1 + rel_default - e -> r = true) /\ (c > -1 + rel_default + e -> r = false).
Proof.
  intros a b q s Hs Lb Lq Ln Ha Hb Hq Da Db c e. assert (Hne : q <> []).
  { intro E. subst q. cbn in Lq. destruct a; [|discriminate Lq]. cbn in Hs. discriminate Hs. }
  assert (Es : s = MkSegment (N:=FNum) a b).
  { unfold segment_new in Hs. assert (Na : a <> []) by (intro E; subst a; destruct q; [contradiction|discriminate Lq]). assert (Nb : b <> []) by (intro E; subst b; destruct a; [contradiction|discriminate Lb]).
    change (point_of (N:=FNum)) with (vector_of (N:=FNum)) in Hs. pose proof (moderate_finite _ (half_moderate_m _ Ha)) as Fa0. pose proof (moderate_finite _ (half_moderate_m _ Hb)) as Fb0. rewrite (vector_of_ok a Na Fa0), (vector_of_ok b Nb Fb0) in Hs. cbn [bind] in Hs.
    destruct (is_close1 tol_default a b) as [[|]| |]; cbn [bind] in Hs; try discriminate. injection Hs as <-. reflexivity. }
  subst s. clear Hs. destruct (from_points_F q a Hne Lq Hq Ha) as (Ea & La & Ma & Fa). destruct (from_points_F q b Hne ltac:(congruence) Hq Hb) as (Eb & Lb' & Mb & Fb).
  set (va := map2 (N:=FNum) PrimFloat.sub a q) in *. set (vb := map2 (N:=FNum) PrimFloat.sub b q) in *.
  assert (Dist : forall x y : list flt, length x = length y -> dist (map FR x) (map FR y) = len (sub (map FR y) (map FR x))) by (intros x y Lxy; rewrite dist_sym; reflexivity).
  assert (Ec : c = cosine (sub (map FR a) (map FR q)) (sub (map FR b) (map FR q))) by (unfold c, cosine; rewrite (Dist q a Lq), (Dist q b ltac:(congruence)); reflexivity).
  rewrite (Dist q a Lq) in Da. rewrite (Dist q b ltac:(congruence)) in Db. clearbody c. pose proof (len_half _ _ Fa Da) as La400. pose proof (len_half _ _ Fb Db) as Lb400.
  assert (L : length va = length vb) by (rewrite La, Lb'; reflexivity). assert (Ln' : (Z.of_nat (length va) <= max_dim)%Z) by (rewrite La, Lq; auto). assert (Lnb : (Z.of_nat (length vb) <= max_dim)%Z) by (rewrite Lb', Lq; auto).
  assert (Hva : va <> []) by (intro E; rewrite E in La; destruct q; [contradiction|discriminate La]).
  destruct (C73_cosine_accurate va vb L Hva Ln' Ma Mb La400 Lb400) as (x & Ex & Fx & Hx). fold (cosine (map FR va) (map FR vb)) in Hx.
  assert (Px : 0 < len (sub (map FR a) (map FR q))) by (eapply Rlt_le_trans; [apply bpow_gt_0|exact Da]). assert (Py : 0 < len (sub (map FR b) (map FR q))) by (eapply Rlt_le_trans; [apply bpow_gt_0|exact Db]).
  destruct (cos_perturb _ _ _ _ Fa Fb ltac:(len) Px Py) as (_ & _ & Hp). rewrite <- Ec in Hp.
  assert (Hc : Rabs (FR x - c) <= e).
  { pose proof (Rabs_triang (FR x - cosine (map FR va) (map FR vb)) (cosine (map FR va) (map FR vb) - c)) as T. replace (FR x - cosine (map FR va) (map FR vb) + (cosine (map FR va) (map FR vb) - c)) with (FR x - c) in T by ring.
    pose proof (f_equal INR (eq_trans La Lq)) as EL. fn. rewrite EL in Hx. unfold e. fold uro in *. lra. }
  unfold segment_contains_point. cbn [s_a s_b]. rewrite Ea. cbn [bind]. rewrite Eb. cbn [bind]. unfold por. rewrite not_zero_F by auto. cbn [bind]. rewrite not_zero_F by auto. cbn [bind]. rewrite Ex. cbn [bind].
  destruct (C70_cosine_range va vb x Ex (finite_not_nan _ Fx)) as (_ & Hr). destruct (isclose_minus_one x Fx Hr) as (r & Er & Kr). exists r. split; [exact Er|]. apply Rabs_le_inv in Hc. split; intro H.
  - apply Kr. lra. - destruct r; auto. assert (Q : 1 + FR x <= rel_default) by (apply Kr; reflexivity). lra.
Qed.
Print Assumptions C83_segment_contains_point.

(** Every point exactly on the segment is recognised, endpoints included. *)
Lemma sub_zero_F (q a : list flt) : length q = length a -> Forall half_moderate q -> Forall half_moderate a -> dist (map FR q) (map FR a) = 0 -> is_zero_vec (map FR (map2 (N:=FNum) PrimFloat.sub a q)).
Proof.
  intros L Hq Ha D. destruct (subs_ok q a L (half_moderate_m _ Hq) (half_moderate_m _ Ha)) as (_ & _ & C). apply len_zero_iff. pose proof uro_small as (U1 & U2). pose proof (len_close uro _ _ ltac:(lra) C) as Q.
  assert (Z : len (sub (map FR a) (map FR q)) = 0) by (rewrite dist_sym in D; exact D). rewrite Z in Q. apply Rabs_le_inv in Q. lra.
Qed.
Theorem C83_segment_recognises : forall (a b q : list flt) (s : segment FNum), segment_new (N:=FNum) a b = Ok s -> length b = length a -> length q = length a -> (Z.of_nat (length a) <= max_dim)%Z ->
  Forall half_moderate a -> Forall half_moderate b -> Forall half_moderate q ->
  dist (map FR q) (map FR a) = 0 \/ bpow radix2 (-399) <= dist (map FR q) (map FR a) -> dist (map FR q) (map FR b) = 0 \/ bpow radix2 (-399) <= dist (map FR q) (map FR b) ->
  on_segment (map FR a) (map FR b) (map FR q) -> segment_contains_point (N:=FNum) tol_default s q = Ok true.
Proof.
  intros a b q s Hs Lb Lq Ln Ha Hb Hq Da Db S. assert (Hne : q <> []).
  { intro E. subst q. cbn in Lq. destruct a; [|discriminate Lq]. cbn in Hs. discriminate Hs. }
  destruct (from_points_F q a Hne Lq Hq Ha) as (Ea & La & Ma & Fa). destruct (from_points_F q b Hne ltac:(congruence) Hq Hb) as (Eb & Lb' & Mb & Fb).
  assert (Es : s = MkSegment (N:=FNum) a b).
  { unfold segment_new in Hs. assert (Na : a <> []) by (intro E; subst a; destruct q; [contradiction|discriminate Lq]). assert (Nb : b <> []) by (intro E; subst b; destruct a; [contradiction|discriminate Lb]).
    change (point_of (N:=FNum)) with (vector_of (N:=FNum)) in Hs. pose proof (moderate_finite _ (half_moderate_m _ Ha)) as Fa0. pose proof (moderate_finite _ (half_moderate_m _ Hb)) as Fb0. rewrite (vector_of_ok a Na Fa0), (vector_of_ok b Nb Fb0) in Hs. cbn [bind] in Hs.
    destruct (is_close1 tol_default a b) as [[|]| |]; cbn [bind] in Hs; try discriminate. injection Hs as <-. reflexivity. }
  assert (Ln' : (Z.of_nat (length (map2 (N:=FNum) PrimFloat.sub b q)) <= max_dim)%Z) by (rewrite Lb', Lq; auto). assert (Lna : (Z.of_nat (length (map2 (N:=FNum) PrimFloat.sub a q)) <= max_dim)%Z) by (rewrite La, Lq; auto).
  assert (ZA : dist (map FR q) (map FR a) = 0 -> is_zero (N:=FNum) tol_default (map2 (N:=FNum) PrimFloat.sub a q) = Ok true).
  { intro D. destruct (zero_vec_F _ Ma (sub_zero_F q a Lq Hq Ha D)) as (F & E). rewrite is_zero_F by auto. rewrite (proj1 (fzero_eqb _)) by (split; auto). reflexivity. }
  assert (ZB : dist (map FR q) (map FR b) = 0 -> is_zero (N:=FNum) tol_default (map2 (N:=FNum) PrimFloat.sub b q) = Ok true).
  { intro D. destruct (zero_vec_F _ Mb (sub_zero_F q b ltac:(congruence) Hq Hb D)) as (F & E). rewrite is_zero_F by auto. rewrite (proj1 (fzero_eqb _)) by (split; auto). reflexivity. }
  assert (DL : forall x y : list flt, dist (map FR x) (map FR y) = len (sub (map FR y) (map FR x))) by (intros x y; rewrite dist_sym; reflexivity).
  destruct Da as [Da|Da]; [|destruct Db as [Db|Db]].
  - subst s. unfold segment_contains_point, por. cbn [s_a s_b]. rewrite Ea. cbn [bind]. rewrite Eb. cbn [bind]. rewrite ZA by auto. reflexivity.
  - subst s. unfold segment_contains_point, por. cbn [s_a s_b]. rewrite Ea. cbn [bind]. rewrite Eb. cbn [bind]. rewrite DL in Da. rewrite not_zero_F by (auto; apply (len_half _ _ Fa Da)). cbn [bind]. rewrite ZB by auto. reflexivity.
  - destruct (C83_segment_contains_point a b q s Hs Lb Lq Ln Ha Hb Hq Da Db) as (r & -> & K & _). f_equal. apply K. clear K. rewrite !DL. rewrite DL in Da, Db. pose proof (bpow_gt_0 radix2 (-399)) as P0.
    assert (C : cosine (sub (map FR a) (map FR q)) (sub (map FR b) (map FR q)) = -1).
    { apply Segments.on_segment_iff in S; [|len|len]. destruct S as [Z|[Z|(_ & _ & C)]]; auto; apply len_zero_iff in Z; lra. }
    fold (cosine (sub (map FR a) (map FR q)) (sub (map FR b) (map FR q))). rewrite C. pose proof (err_below (length a) Ln). pose proof (bpow_gt_0 radix2 (-53)). lra.
Qed.
Print Assumptions C83_segment_recognises.

(** The point (2, 1.5, -1) of the segment from (1, 1, 0) to (3, 2, -2): the hypotheses of the theorems above hold, and the model answers. *)
Example C83_nonvacuous :
  let a := [1; 1; 0]%float in let b := [3; 2; -2]%float in let q := [2; 0x1.8p0; -1]%float in
  Forall half_moderate a /\ Forall half_moderate b /\ Forall half_moderate q /\ on_segment (map FR a) (map FR b) (map FR q) /\
  bpow radix2 (-399) <= dist (map FR q) (map FR a) /\ bpow radix2 (-399) <= dist (map FR q) (map FR b) /\
  segment_new (N:=FNum) a b = Ok (MkSegment (N:=FNum) a b) /\ segment_contains_point (N:=FNum) tol_default (MkSegment (N:=FNum) a b) q = Ok true /\
  is_parallel (N:=FNum) tol_default [1; 2; 3]%float [-2; -4; -6]%float = Ok true /\ is_parallel (N:=FNum) tol_default [1; 2; 3]%float [-2; -4; -5]%float = Ok false /\
  is_perpendicular (N:=FNum) tol_default [1; 2; 3]%float [3; 0; -1]%float = Ok true.
Proof.
  intros a b q.
  assert (M : forall x : flt, finite x -> Rabs (FR x) <= 4 -> half_moderate x). { intros x F B. split; auto. eapply Rle_trans; [exact B|]. change 4 with (bpow radix2 2). apply bpow_le. lia. }
  assert (HA : map FR a = [1; 1; 0]). { unfold a. cbn [map]. repeat (erewrite FR_val by (vm_compute; reflexivity)). repeat f_equal; simpl; unfold F2R; simpl; lra. }
  assert (HB : map FR b = [3; 2; -2]). { unfold b. cbn [map]. repeat (erewrite FR_val by (vm_compute; reflexivity)). repeat f_equal; simpl; unfold F2R; simpl; lra. }
  assert (HQ : map FR q = [2; 3 / 2; -1]). { unfold q. cbn [map]. repeat (erewrite FR_val by (vm_compute; reflexivity)). repeat f_equal; simpl; unfold F2R; simpl; lra. }
  assert (FM : forall v : list flt, Forall finite v -> Forall (fun x => Rabs x <= 4) (map FR v) -> Forall half_moderate v).
  { intros v F G. induction F as [|x v Fx F IH]; cbn [map] in G; inversion_clear G; constructor; auto. }
  assert (S1 : 1 <= dist (map FR q) (map FR a)). { rewrite HQ, HA. unfold dist, len. apply Rle_trans with (R_sqrt.sqrt 1); [rewrite sqrt_1; lra|]. apply sqrt_le_1_alt. cbn. lra. }
  assert (S2 : 1 <= dist (map FR q) (map FR b)). { rewrite HQ, HB. unfold dist, len. apply Rle_trans with (R_sqrt.sqrt 1); [rewrite sqrt_1; lra|]. apply sqrt_le_1_alt. cbn. lra. }
  assert (B1 : bpow radix2 (-399) <= 1) by (change 1 with (bpow radix2 0); apply bpow_le; lia).
  split; [|split; [|split; [|split; [|split; [|split; [|split; [|split; [|split; [|split]]]]]]]]].
  1: apply FM; [repeat constructor; vm_compute; reflexivity|rewrite HA; repeat constructor; unfold Rabs; destruct Rcase_abs; lra].
  1: apply FM; [repeat constructor; vm_compute; reflexivity|rewrite HB; repeat constructor; unfold Rabs; destruct Rcase_abs; lra].
  1: apply FM; [repeat constructor; vm_compute; reflexivity|rewrite HQ; repeat constructor; unfold Rabs; destruct Rcase_abs; lra].
  1: exists (/ 2); split; [lra|]; rewrite HQ, HA, HB; cbn; apply f_equal2; [lra|apply f_equal2; [lra|apply f_equal2; [lra|reflexivity]]].
  1, 2: lra.
  all: reflexivity.
Qed.
