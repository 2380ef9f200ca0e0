(** * Centroids and singular values under a similarity *)
From Coq Require Import Reals List Lra Lia Psatz ZArith Permutation Sorted.
From Verif.Model Require Import Outcome Num Instances Numpy BaseArray Vector Points.
From Verif.Spec Require Import Geometry Mesh Linalg Similarity.
From Verif.Proof Require Import VecAlg Bridge Points Lincomb Svd SvdExists Ranks Singular Similarity.
Import ListNotations.
Local Open Scope R_scope.

Section S.
Context (n m : nat) (s : R) (T : pt -> pt) (H : similarity n m s T).
Notation V := (vmap n T).

Lemma sim_points_ok u : points_ok n u -> points_ok m (map T u).
Proof.
  intros (Hne & Hn & F). split; [destruct u; [contradiction|discriminate]|]. split; [apply (sim_m n m s T H Hn)|].
  apply Forall_map. eapply Forall_impl; [|exact F]. intros a La. apply (sim_len n m s T H); auto.
Qed.
Lemma sim_origin x : length x = n -> T x = add (T (origin n)) (V x).
Proof. intro L. rewrite <- (sim_add n m s T H) by (auto; apply length_origin). rewrite add_origin_l by auto. reflexivity. Qed.
Lemma sim_vsum u : Forall (fun r => length r = n) u -> vsum m (map T u) = add (scale (INR (length u)) (T (origin n))) (V (vsum n u)).
Proof.
  assert (Lo : length (T (origin n)) = m) by (apply (sim_len n m s T H), length_origin).
  induction 1 as [|x u Lx F IH]; cbn [map length].
  - unfold vsum. simpl. rewrite (vmap_origin n m s T H). simpl. rewrite scale_0, Lo, add_origin_r by apply length_origin. reflexivity.
  - rewrite !vsum_cons, IH, S_INR. rewrite (vmap_add n m s T H) by (auto; apply length_vsum; auto). rewrite (sim_origin x Lx).
    assert (L1 : length (V x) = m) by (apply (vmap_len n m s T H); auto). assert (L2 : length (V (vsum n u)) = m) by (apply (vmap_len n m s T H), length_vsum; auto).
    apply pt_ext; [len|]. intros i _. repeat rewrite ?nth_add, ?nth_scale by len. ring.
Qed.
Lemma sim_cent u : u <> [] -> Forall (fun r => length r = n) u -> cent m (map T u) = T (cent n u).
Proof.
  intros Hne F. unfold cent at 1. rewrite map_length, sim_vsum by auto. rewrite (sim_origin (cent n u)) by (apply length_cent; auto).
  unfold cent. rewrite (vmap_scale n m s T H) by (apply length_vsum; auto). pose proof (INR_length_pos u Hne).
  assert (Lo : length (T (origin n)) = m) by (apply (sim_len n m s T H), length_origin).
  assert (L2 : length (V (vsum n u)) = m) by (apply (vmap_len n m s T H), length_vsum; auto).
  apply pt_ext; [len|]. intros i _. repeat rewrite ?nth_add, ?nth_scale by len. field. lra.
Qed.
Lemma sim_centered u : u <> [] -> Forall (fun r => length r = n) u -> centered m (map T u) = map V (centered n u).
Proof.
  intros Hne F. unfold centered. rewrite sim_cent by auto. rewrite !map_map. apply map_ext_in. intros a Ha.
  rewrite Forall_forall in F. apply (sim_sub n m s T H); auto. apply length_cent. apply Forall_forall; auto.
Qed.
Lemma cent_perm d u w : Permutation u w -> cent d u = cent d w.
Proof. intro P. unfold cent. rewrite (Permutation_length P), (vsum_perm d u w P). reflexivity. Qed.
Lemma centered_perm d u w : Permutation u w -> Permutation (centered d u) (centered d w).
Proof. intro P. unfold centered. rewrite (cent_perm d u w P). apply Permutation_map, P. Qed.
Lemma sim_unique_perm rows : Forall (fun r => length r = n) rows -> Permutation (np_unique (N:=RNum) (map T rows)) (map T (np_unique (N:=RNum) rows)).
Proof.
  intro F. destruct (np_unique_spec n rows F) as (S1 & I1 & F1).
  assert (F' : Forall (fun r => length r = m) (map T rows)) by (apply Forall_map; eapply Forall_impl; [|exact F]; intros; apply (sim_len n m s T H); auto).
  destruct (np_unique_spec m _ F') as (S2 & I2 & F2). apply NoDup_Permutation.
  - apply sorted_nodup; auto.
  - rewrite Forall_forall in F1. apply sorted_nodup in S1. clear -S1 F1 H. induction S1 as [|x l Nx S1 IH]; simpl; constructor.
    + intro Hin. apply in_map_iff in Hin as (y & E & Hy). apply (sim_inj n m s T H) in E; [subst; contradiction| |]; apply F1; simpl; auto.
    + apply IH. intros y Hy. apply F1. right; auto.
  - intro x. rewrite I2, !in_map_iff. split; intros (y & E & Hy); exists y; split; auto; apply I1; auto.
Qed.

(** The adjoint of the linear part. *)
Definition unitv (j : nat) : pt := map (fun i => delta i j) (seq 0 n).
Lemma length_unitv j : length (unitv j) = n.
Proof. unfold unitv. rewrite map_length, seq_length. reflexivity. Qed.
Definition adj (y : pt) : pt := map (fun j => dot (V (unitv j)) y) (seq 0 n).
Lemma length_adj y : length (adj y) = n.
Proof. unfold adj. rewrite map_length, seq_length. reflexivity. Qed.
Lemma vmap_linear : linear_map n m V.
Proof.
  split; [intros; apply (vmap_len n m s T H); auto|]. split; intros; [apply (vmap_add n m s T H); auto|apply (vmap_scale n m s T H); auto].
Qed.
Lemma adj_spec a y : length a = n -> length y = m -> dot a (adj y) = dot (V a) y.
Proof.
  intros La Ly. set (es := map unitv (seq 0 n)). assert (Fe : Forall (fun b => length b = n) es).
  { apply Forall_forall. intros b Hb. apply in_map_iff in Hb as (j & <- & _). apply length_unitv. }
  assert (Le : length es = n) by (unfold es; rewrite map_length, seq_length; auto).
  assert (Ne : forall k, (k < n)%nat -> nth k es [] = unitv k) by (intros; unfold es; apply nth_map_seq; auto).
  assert (Ea : a = lincomb n a es).
  { apply pt_ext; [rewrite length_lincomb; auto|]. intros i Hi. rewrite nth_lincomb by (auto; congruence). rewrite Le.
    rewrite (Sum_ext _ _ (fun k => nth k a 0 * delta k i)); [symmetry; apply (Sum_delta n i (fun k => nth k a 0)); lia|].
    intros k Hk. unfold ent. rewrite Ne by auto. unfold unitv. rewrite nth_map_seq by lia. rewrite delta_sym. reflexivity. }
  rewrite Ea at 2. rewrite (linear_lincomb n m) by (auto; apply vmap_linear).
  rewrite (dot_lincomb_r m); [|apply Forall_map; eapply Forall_impl; [|exact Fe]; intros; apply (vmap_len n m s T H); auto|rewrite map_length; congruence].
  rewrite map_length, Le. rewrite (dot_Sum _ _ n) by (auto; apply length_adj). apply Sum_ext. intros k Hk. f_equal.
  unfold adj. rewrite nth_map_seq by auto. rewrite (nth_indep _ [] (V [])) by (rewrite map_length; lia). rewrite map_nth, Ne by auto. reflexivity.
Qed.
Lemma adj_linear : linear_map m n adj.
Proof.
  split; [intros; apply length_adj|]. split.
  - intros x y Lx Ly. apply pt_ext; [rewrite length_add, !length_adj; lia|]. intros i Hi. rewrite length_adj in Hi. rewrite nth_add by (rewrite !length_adj; auto).
    unfold adj. rewrite !nth_map_seq by auto. apply dot_add_r. congruence.
  - intros t x Lx. apply pt_ext; [rewrite length_scale, !length_adj; lia|]. intros i Hi. rewrite length_adj in Hi. rewrite nth_scale.
    unfold adj. rewrite !nth_map_seq by auto. apply dot_scale_r.
Qed.
Lemma adj_bound y : length y = m -> dot (adj y) (adj y) <= s * s * dot y y.
Proof.
  intro Ly. pose proof (sim_pos n m s T H) as Ps. set (w := adj y). assert (Lw : length w = n) by apply length_adj.
  assert (E : dot w w = dot (V w) y) by (apply adj_spec; auto).
  pose proof (cauchy_schwarz_sq (V w) y ltac:(rewrite (vmap_len n m s T H); congruence)) as C. rewrite <- E, (vmap_dot n m s T H) in C by auto.
  pose proof (dot_self_nonneg w) as Pw. pose proof (dot_self_nonneg y) as Py. destruct Pw as [Pw|Pw].
  - apply Rmult_le_reg_r with (dot w w); auto. replace (s * s * dot y y * dot w w) with (s * s * dot w w * dot y y) by ring. exact C.
  - rewrite <- Pw. nra.
Qed.

(** Singular values are multiplied by the factor. *)
Lemma sim_singular A A' U S Vh U' S' Vh' : points_ok n A -> points_ok m A' -> Permutation A' (map V A) ->
  svd_spec n A U S Vh -> svd_spec m A' U' S' Vh' -> forall k, nth k S' 0 = s * nth k S 0.
Proof.
  intros HA HA' P Hs Hs' k. pose proof (sim_pos n m s T H) as Ps. pose proof HA as (_ & _ & FA). rewrite Forall_forall in FA.
  assert (Q : forall y, quad A' y = Rsum (map (fun a => dot (V a) y * dot (V a) y) A)) by (intro y; rewrite (quad_perm A' (map V A) y P), quad_map, map_map; reflexivity).
  assert (I1 : forall k, (k < length S)%nat -> nth k S 0 <= / s * nth k S' 0).
  { apply (sv_dominate n m A A' U S Vh U' S' Vh' (fun x => scale (/ (s * s)) (V x)) (/ s)); auto.
    - apply Rlt_le, Rinv_0_lt_compat; auto.
    - split; [intros; rewrite length_scale; apply (vmap_len n m s T H); auto|]. split; intros.
      + rewrite (vmap_add n m s T H) by auto. apply scale_add.
      + rewrite (vmap_scale n m s T H) by auto. rewrite !scale_scale. f_equal. ring.
    - intros x Lx. rewrite dot_scale_l, dot_scale_r, (vmap_dot n m s T H) by auto. apply Req_le. field. lra.
    - intros x Lx. rewrite Q, quad_map. apply Req_le, Rsum_map_ext. intros a Ha. rewrite !dot_scale_r, (vmap_dot n m s T H) by auto. field. lra. }
  assert (I2 : forall k, (k < length S')%nat -> nth k S' 0 <= s * nth k S 0).
  { apply (sv_dominate m n A' A U' S' Vh' U S Vh adj s); auto; [lra|apply adj_linear|intros; apply adj_bound; auto|].
    intros y Ly. rewrite Q, quad_map. apply Req_le, Rsum_map_ext. intros a Ha. rewrite adj_spec by auto. reflexivity. }
  assert (N : 0 <= nth k S 0). { destruct (Nat.lt_ge_cases k (length S)) as [L|L]; [apply (sv_nonneg _ _ _ _ _ Hs k L)|rewrite nth_overflow by auto; lra]. }
  assert (N' : 0 <= nth k S' 0). { destruct (Nat.lt_ge_cases k (length S')) as [L|L]; [apply (sv_nonneg _ _ _ _ _ Hs' k L)|rewrite nth_overflow by auto; lra]. }
  apply Rle_antisym.
  - destruct (Nat.lt_ge_cases k (length S')) as [L|L]; [apply I2; auto|]. rewrite nth_overflow by auto. nra.
  - destruct (Nat.lt_ge_cases k (length S)) as [L|L]; [|rewrite (nth_overflow S) by auto; lra].
    pose proof (I1 k L) as B. apply (Rmult_le_compat_l s) in B; [|lra]. replace (s * (/ s * nth k S' 0)) with (nth k S' 0) in B by (field; lra). exact B.
Qed.
Lemma sim_affine_rank LA LA' tolerance rows : svd_correct LA -> svd_correct LA' -> points_ok n rows -> tol_nonneg tolerance -> m = n \/ tolerance <> None ->
  affine_rank LA' (option_map (Rmult s) tolerance) (map T rows) = affine_rank LA tolerance rows.
Proof.
  intros HL HL' Hr Ht Hm. pose proof Hr as (Hne & Hn & F). pose proof (sim_points_ok rows Hr) as Hr'. pose proof (sim_pos n m s T H) as Ps.
  destruct (affine_rank_R LA tolerance n rows HL Hr) as (U & S & Vh & Hs & E).
  destruct (affine_rank_R LA' (option_map (Rmult s) tolerance) m (map T rows) HL' Hr') as (U' & S' & Vh' & Hs' & E').
  cbv zeta in *. destruct (unique_R n rows Hr) as (_ & Hu). destruct (unique_R m (map T rows) Hr') as (_ & Hu').
  pose proof (sim_unique_perm rows F) as Pu. set (u := np_unique (N:=RNum) rows) in *. set (u' := np_unique (N:=RNum) (map T rows)) in *.
  pose proof Hu as (Hune & _ & Fu). assert (P : Permutation (centered m u') (map V (centered n u))).
  { rewrite <- sim_centered by auto. apply centered_perm; auto. }
  pose proof (sim_singular _ _ _ _ _ _ _ _ (centered_ok n u Hu) (centered_ok m u' Hu') P Hs Hs') as Sg.
  assert (Lu : length u' = length u) by (rewrite (Permutation_length Pu), map_length; auto).
  assert (Et : threshold (option_map (Rmult s) tolerance) (length u') m S' = s * threshold tolerance (length u) n S).
  { destruct tolerance as [t|]; [reflexivity|]. destruct Hm as [->|Hm]; [|congruence]. cbn [threshold option_map].
    rewrite (proj2 (svd_max _ _ _ _ _ (centered_ok n u Hu) Hs)), (proj2 (svd_max _ _ _ _ _ (centered_ok n u' Hu') Hs')), Sg, Lu. ring. }
  pose proof (threshold_nonneg n _ _ _ _ tolerance (length u) n (centered_ok n u Hu) Hs Ht) as Pt.
  rewrite E, E'. f_equal. rewrite Et. set (th := threshold tolerance (length u) n S) in *.
  destruct (count_above th S (sv_decr _ _ _ _ _ Hs)) as (C1 & C2 & C3). destruct (count_above (s * th) S' (sv_decr _ _ _ _ _ Hs')) as (D1 & D2 & D3).
  set (c := length (filter (fun x => Rltb th x) S)) in *. set (c' := length (filter (fun x => Rltb (s * th) x) S')) in *.
  destruct (Nat.lt_trichotomy c c') as [L|[L|L]]; auto; exfalso.
  - pose proof (D2 c L) as B. rewrite Sg in B. apply Rmult_lt_reg_l in B; auto. destruct (Nat.lt_ge_cases c (length S)) as [K|K]; [pose proof (C3 c ltac:(lia)); lra|]. rewrite nth_overflow in B by auto. lra.
  - pose proof (C2 c' L) as B. assert (B' : s * th < nth c' S' 0) by (rewrite Sg; apply Rmult_lt_compat_l; auto).
    destruct (Nat.lt_ge_cases c' (length S')) as [K|K]; [pose proof (D3 c' ltac:(lia)); lra|]. rewrite nth_overflow in B' by auto. nra.
Qed.
(** A similarity of a space into itself is onto. *)
Lemma sim_surj y : m = n -> length y = m -> exists x, length x = n /\ y = T x.
Proof.
  intros E Ly. pose proof (sim_pos n m s T H) as Ps.
  set (us := map unitv (seq 0 n)). set (vs := map (fun j => scale (/ s) (V (unitv j))) (seq 0 n)).
  assert (Fu : Forall (fun b => length b = n) us). { apply Forall_forall. intros b Hb. apply in_map_iff in Hb as (j & <- & _). apply length_unitv. }
  assert (Lv : length vs = n) by (unfold vs; rewrite map_length, seq_length; auto).
  assert (Nv : forall k, (k < n)%nat -> nth k vs [] = scale (/ s) (V (unitv k))) by (intros k Hk; unfold vs; rewrite nth_map_seq by auto; reflexivity).
  assert (B : onb n vs).
  { split; rewrite Lv; intros.
    - rewrite Nv by auto. rewrite length_scale, (vmap_len n m s T H); auto using length_unitv.
    - rewrite !Nv by auto. rewrite dot_scale_l, dot_scale_r, (vmap_dot n m s T H) by auto using length_unitv.
      assert (D : dot (unitv j) (unitv k) = delta j k).
      { rewrite (dot_Sum _ _ n) by apply length_unitv. rewrite (Sum_ext _ _ (fun i => delta i j * delta i k)).
        - rewrite (Sum_delta n k (fun i => delta i j)) by auto. apply delta_sym.
        - intros i Hi. unfold unitv. rewrite !nth_map_seq by auto. reflexivity. }
      rewrite D. field. lra. }
  set (z := sub y (T (origin n))). assert (Lz : length z = n) by (unfold z; rewrite length_sub, (sim_len n m s T H) by apply length_origin; lia).
  pose proof (onb_coords n vs z B Lv Lz) as Ez. set (cs := map (fun w => dot w z) vs) in *.
  assert (Ex : lincomb n cs vs = V (scale (/ s) (lincomb n cs us))).
  { rewrite (vmap_scale n m s T H) by (apply length_lincomb; auto). rewrite (linear_lincomb n m V cs us vmap_linear Fu). rewrite E.
    assert (G : forall bs ds, Forall (fun b => length b = n) bs -> scale (/ s) (lincomb n ds bs) = lincomb n ds (map (scale (/ s)) bs)).
    { induction bs as [|b bs IH]; intros [|d ds] F; cbn [map lincomb]; try apply scale_origin. inversion F as [|? ? Fb F']; subst. rewrite scale_add, !scale_scale, IH by auto. rewrite (Rmult_comm d). reflexivity. }
    rewrite G. { unfold us, vs. rewrite !map_map. reflexivity. }
    apply Forall_forall. intros b Hb. apply in_map_iff in Hb as (a & <- & Ha). rewrite Forall_forall in Fu. rewrite (vmap_len n m s T H); auto. }
  exists (scale (/ s) (lincomb n cs us)). assert (Lx : length (scale (/ s) (lincomb n cs us)) = n) by (rewrite length_scale; apply length_lincomb; auto). split; auto.
  rewrite sim_origin by auto. rewrite <- Ex, <- Ez. unfold z. symmetry. apply add_sub_cancel. rewrite (sim_len n m s T H) by apply length_origin. auto.
Qed.
Lemma sim_img (P : pt -> Prop) (P' : pt -> Prop) : m = n -> (forall y, P' y -> length y = m) -> (forall x, P x -> length x = n) -> (forall x, length x = n -> (P' (T x) <-> P x)) ->
  forall y, P' y <-> exists x, length x = n /\ y = T x /\ P x.
Proof.
  intros E L' L K y. split.
  - intro Y. destruct (sim_surj y E (L' y Y)) as (x & Lx & ->). exists x. split; auto. split; auto. apply K; auto.
  - intros (x & Lx & -> & X). apply K; auto.
Qed.
End S.
