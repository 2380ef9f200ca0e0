(** * Singular values are determined by the matrix, and how they compare under linear maps *)
From Coq Require Import Reals List Lra Lia Psatz ZArith Permutation Sorted.
From Verif.Model Require Import Outcome Num Instances Numpy BaseArray Vector Points.
From Verif.Spec Require Import Geometry Mesh Linalg.
From Verif.Proof Require Import VecAlg Bridge Points Lincomb Svd SvdExists Ranks.
Import ListNotations.
Local Open Scope R_scope.

Definition linear_map (d d' : nat) (M : pt -> pt) : Prop :=
  (forall x, length x = d -> length (M x) = d') /\
  (forall x y, length x = d -> length y = d -> M (add x y) = add (M x) (M y)) /\
  (forall t x, length x = d -> M (scale t x) = scale t (M x)).
Lemma linear_lincomb d d' M cs bs : linear_map d d' M -> Forall (fun b => length b = d) bs ->
  M (lincomb d cs bs) = lincomb d' cs (map M bs).
Proof.
  intros (Hl & Ha & Hs) F. assert (Z : M (origin d) = origin d').
  { pose proof (Hs 0 (origin d) (length_origin d)) as E. rewrite !scale_0, Hl, length_origin in E by apply length_origin. exact E. }
  revert cs. induction F as [|b bs Hb F IH]; intros [|c cs]; simpl; auto.
  rewrite Ha, Hs, IH; auto. rewrite length_scale; auto. apply length_lincomb; auto.
Qed.

Lemma sv_dominate d d' A A' U S Vh U' S' Vh' (M : pt -> pt) (c : R) :
  points_ok d A -> points_ok d' A' -> svd_spec d A U S Vh -> svd_spec d' A' U' S' Vh' -> 0 <= c ->
  linear_map d d' M ->
  (forall x, length x = d -> dot (M x) (M x) <= c * c * dot x x) ->
  (forall x, length x = d -> quad A x <= quad A' (M x)) ->
  forall k, (k < length S)%nat -> nth k S 0 <= c * nth k S' 0.
Proof.
  intros HA HA' H H' Hc Hlin HM HQ k Hk. pose proof Hlin as (Hl & _).
  pose proof (sv_nonneg _ _ _ _ _ H k Hk) as Pk.
  assert (Pk' : 0 <= nth k S' 0).
  { destruct (Nat.lt_ge_cases k (length S')) as [L|L]; [apply (sv_nonneg _ _ _ _ _ H' k L)|rewrite nth_overflow by auto; lra]. }
  destruct (kernel_exists k (Datatypes.S k) (fun i j => dot (nth j Vh' []) (M (nth i Vh []))) (Nat.lt_succ_diag_r k)) as (co & (i & Hi & Hci) & Z).
  destruct (svd_span_dirs d _ _ _ _ H (Datatypes.S k) Hk) as (Ld & Fd). set (vs := firstn (Datatypes.S k) Vh) in *.
  assert (Nv : forall l, (l < Datatypes.S k)%nat -> nth l vs [] = nth l Vh []) by (intros; unfold vs; rewrite <- (firstn_skipn (Datatypes.S k) Vh) at 2; rewrite app_nth1; auto; fold vs; lia).
  set (cs := map co (seq 0 (Datatypes.S k))). assert (Lcs : length cs = length vs) by (unfold cs; rewrite map_length, seq_length; congruence).
  set (x := lincomb d cs vs). assert (Lx : length x = d) by (apply length_lincomb; auto).
  assert (Dx : forall l, (l < Datatypes.S k)%nat -> dot (nth l Vh []) x = co l).
  { intros l Hlk. rewrite dot_comm. unfold x. rewrite (dot_lincomb_r d) by auto. rewrite Ld.
    rewrite (Sum_ext _ _ (fun j => co j * delta j l)); [apply (Sum_delta _ l co); auto|].
    intros j Hj. rewrite Nv by auto. rewrite (sv_V _ _ _ _ _ H) by lia. unfold cs. rewrite nth_map_seq by auto. reflexivity. }
  assert (Nx : dot x x = Sum (Datatypes.S k) (fun l => co l * co l)).
  { unfold x at 1. rewrite (dot_lincomb_r d) by auto. rewrite Ld. apply Sum_ext. intros j Hj. rewrite Nv, Dx by auto. unfold cs. rewrite nth_map_seq by auto. reflexivity. }
  assert (Px : 0 < dot x x).
  { rewrite Nx. pose proof (Sum_ge_term (Datatypes.S k) (fun l => co l * co l) i (fun j _ => Rle_0_sqr (co j)) Hi) as Q. simpl in Q. assert (0 < co i * co i) by nra. lra. }
  assert (LM : length (M x) = d') by auto.
  assert (Om : forall l, (l < k)%nat -> dot (nth l Vh' []) (M x) = 0).
  { intros l Hlk. unfold x. rewrite (linear_lincomb d d') by auto. rewrite dot_comm.
    rewrite (dot_lincomb_r d'); [|apply Forall_map; eapply Forall_impl; [|exact Fd]; auto|rewrite map_length; auto].
    rewrite map_length, Ld. rewrite <- (Z l Hlk). apply Sum_ext. intros j Hj. unfold cs. rewrite nth_map_seq by auto. f_equal.
    rewrite (nth_indep _ [] (M [])) by (rewrite map_length; lia). rewrite map_nth, Nv by auto. apply dot_comm. }
  (* lower bound *)
  assert (Lo : nth k S 0 * nth k S 0 * dot x x <= quad A x).
  { unfold quad. rewrite (svd_gram d A U S Vh HA H x x Lx Lx).
    replace (length S) with (Datatypes.S k + (length S - Datatypes.S k))%nat by lia. rewrite Sum_split.
    assert (0 <= Sum (length S - Datatypes.S k) (fun i0 => nth (Datatypes.S k + i0) S 0 * nth (Datatypes.S k + i0) S 0 * (dot (nth (Datatypes.S k + i0) Vh []) x * dot (nth (Datatypes.S k + i0) Vh []) x))).
    { apply Sum_nonneg. intros. apply Rmult_le_pos; apply Rle_0_sqr. }
    assert (nth k S 0 * nth k S 0 * dot x x <= Sum (Datatypes.S k) (fun i0 => nth i0 S 0 * nth i0 S 0 * (dot (nth i0 Vh []) x * dot (nth i0 Vh []) x))); [|lra].
    rewrite Nx, <- Sum_scale. apply Sum_le. intros j Hj. rewrite Dx by auto. apply Rmult_le_compat_r; [apply Rle_0_sqr|].
    pose proof (sv_decr _ _ _ _ _ H j k ltac:(lia)). nra. }
  (* upper bound *)
  assert (Up : quad A' (M x) <= nth k S' 0 * nth k S' 0 * dot (M x) (M x)).
  { unfold quad. rewrite (svd_gram d' A' U' S' Vh' HA' H' (M x) (M x) LM LM).
    eapply Rle_trans; [|apply Rmult_le_compat_l; [apply Rle_0_sqr|apply (bessel d' A' U' S' Vh' H' (M x) (length S') (Nat.le_refl _) LM)]].
    rewrite <- Sum_scale. apply Sum_le. intros j Hj. destruct (Nat.lt_ge_cases j k) as [L|L]; [rewrite Om by auto; lra|].
    apply Rmult_le_compat_r; [apply Rle_0_sqr|]. pose proof (sv_decr _ _ _ _ _ H' k j ltac:(lia)). pose proof (sv_nonneg _ _ _ _ _ H' j Hj). unfold Rsqr. nra. }
  pose proof (HQ x Lx) as HQx. pose proof (HM x Lx) as HMx.
  assert (Fin : nth k S 0 * nth k S 0 * dot x x <= c * nth k S' 0 * (c * nth k S' 0) * dot x x).
  { eapply Rle_trans; [exact Lo|]. eapply Rle_trans; [exact HQx|]. eapply Rle_trans; [exact Up|].
    replace (c * nth k S' 0 * (c * nth k S' 0) * dot x x) with (nth k S' 0 * nth k S' 0 * (c * c * dot x x)) by ring. apply Rmult_le_compat_l; [apply Rle_0_sqr|exact HMx]. }
  apply Rmult_le_reg_r in Fin; auto. apply Rsqr_incr_0_var; [exact Fin|]. apply Rmult_le_pos; auto.
Qed.

Lemma linear_id d : linear_map d d (fun x => x).
Proof. repeat split; auto. Qed.
(** Two correct decompositions of one matrix have the same singular values. *)
Lemma sv_unique d A U S Vh U' S' Vh' : points_ok d A -> svd_spec d A U S Vh -> svd_spec d A U' S' Vh' -> S = S'.
Proof.
  intros HA H H'. assert (L : length S = length S') by (rewrite (sv_len _ _ _ _ _ H), (sv_len _ _ _ _ _ H'); auto).
  apply pt_ext; auto. intros k Hk. apply Rle_antisym.
  - rewrite <- (Rmult_1_l (nth k S' 0)). eapply (sv_dominate d d A A U S Vh U' S' Vh' (fun x => x)); eauto using linear_id; try lra; intros; lra.
  - rewrite <- (Rmult_1_l (nth k S 0)). eapply (sv_dominate d d A A U' S' Vh' U S Vh (fun x => x)); eauto using linear_id; try lra; try lia; intros; lra.
Qed.

Lemma quad_map A x : quad A x = Rsum (map (fun a => dot a x * dot a x) A).
Proof. unfold quad. rewrite (Rsum_map_nth _ A []). reflexivity. Qed.
Lemma quad_perm A B x : Permutation A B -> quad A x = quad B x.
Proof. intro P. rewrite !quad_map. apply Rsum_perm, Permutation_map, P. Qed.
