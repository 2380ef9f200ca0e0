(** * Consequences of the SVD specification *)
From Coq Require Import Reals List Lra Lia Psatz.
From Verif.Spec Require Import Geometry Mesh.
From Verif.Model Require Import Outcome Num Instances Numpy.
From Verif.Spec Require Import Linalg.
From Verif.Proof Require Import VecAlg Bridge Points Lincomb.
Import ListNotations.
Local Open Scope R_scope.

Section Svd.
Context (d : nat) (A U : list pt) (S : list R) (Vh : list pt) (HA : points_ok d A) (H : svd_spec d A U S Vh).
Notation r := (length S).
Notation n := (length A).
Notation v k := (nth k Vh []).
Notation sg k := (nth k S 0).

Lemma row_len i : (i < n)%nat -> length (nth i A []) = d.
Proof. intro Hi. destruct HA as (_ & _ & F). rewrite Forall_forall in F. apply F, nth_In, Hi. Qed.

Lemma svd_row_dot i x : (i < n)%nat -> length x = d -> dot (nth i A []) x = Sum r (fun k => ent U i k * sg k * dot (v k) x).
Proof.
  intros Hi Lx. rewrite (dot_Sum _ _ d) by (auto using row_len).
  rewrite (Sum_ext d _ (fun j => Sum r (fun k => ent U i k * sg k * ent Vh k j * nth j x 0))).
  2:{ intros j Hj. change (nth j (nth i A []) 0) with (ent A i j). rewrite (sv_A _ _ _ _ _ H) by auto. rewrite <- Sum_scale_r. reflexivity. }
  rewrite Sum_swap. apply Sum_ext. intros k Hk. rewrite (dot_Sum _ _ d) by (auto; apply (sv_dim _ _ _ _ _ H); auto).
  rewrite <- Sum_scale. apply Sum_ext. intros j _. unfold ent. ring.
Qed.

Lemma svd_gram x y : length x = d -> length y = d ->
  Sum n (fun i => dot (nth i A []) x * dot (nth i A []) y) = Sum r (fun k => sg k * sg k * (dot (v k) x * dot (v k) y)).
Proof.
  intros Lx Ly.
  rewrite (Sum_ext n _ (fun i => Sum r (fun k => Sum r (fun l => (ent U i k * ent U i l) * (sg k * dot (v k) x * (sg l * dot (v l) y)))))).
  2:{ intros i Hi. rewrite !svd_row_dot by auto. rewrite Sum_mul. apply Sum_ext; intros k _; apply Sum_ext; intros l _; ring. }
  rewrite Sum_swap. apply Sum_ext. intros k Hk. rewrite Sum_swap.
  rewrite (Sum_ext r _ (fun l => sg k * dot (v k) x * (sg l * dot (v l) y) * delta l k)).
  - rewrite Sum_delta by auto. ring.
  - intros l Hl. rewrite Sum_scale_r, (sv_U _ _ _ _ _ H) by auto. rewrite delta_sym. ring.
Qed.

(** Rows in the span of [m] vectors: the singular value number [m] vanishes. *)
Lemma svd_rank_le m (dirs : list pt) : length dirs = m -> Forall (fun e => length e = d) dirs ->
  (forall a, In a A -> exists cs, length cs = m /\ a = lincomb d cs dirs) -> (m < r)%nat -> sg m = 0.
Proof.
  intros Ld Fd Ha Hm. destruct (sv_nonneg _ _ _ _ _ H m Hm) as [P|E]; [|auto]. exfalso.
  destruct (kernel_exists m (Datatypes.S m) (fun k l => dot (v k) (nth l dirs []))) as (c & (i & Hi & Hc) & Z); [lia|].
  set (vs := firstn (Datatypes.S m) Vh).
  assert (LV : (Datatypes.S m <= length Vh)%nat).
  { destruct (Nat.le_gt_cases (Datatypes.S m) (length Vh)) as [|L]; auto. exfalso.
    pose proof (sv_V _ _ _ _ _ H m m Hm Hm) as E. rewrite delta_eq in E. rewrite nth_overflow in E by lia. simpl in E. lra. }
  assert (Lvs : length vs = Datatypes.S m) by (unfold vs; rewrite firstn_length; lia).
  assert (Nvs : forall k, (k < Datatypes.S m)%nat -> nth k vs [] = v k).
  { intros k Hk. unfold vs. rewrite <- (firstn_skipn (Datatypes.S m) Vh) at 2. rewrite app_nth1; auto. fold vs. lia. }
  assert (Fvs : Forall (fun e => length e = d) vs).
  { apply Forall_forall. intros e He. apply (In_nth _ _ []) in He as (k & Hk & <-). rewrite Nvs by lia. apply (sv_dim _ _ _ _ _ H). lia. }
  set (w := lincomb d (map c (seq 0 (Datatypes.S m))) vs).
  assert (Lw : length w = d) by (apply length_lincomb; auto).
  assert (Lc : length (map c (seq 0 (Datatypes.S m))) = length vs) by (rewrite map_length, seq_length; auto).
  assert (Dw : forall x, dot w x = Sum (Datatypes.S m) (fun k => c k * dot (v k) x)).
  { intro x. unfold w. rewrite dot_lincomb_r by auto. rewrite Lvs. apply Sum_ext. intros k Hk. rewrite nth_map_seq, Nvs by auto. reflexivity. }
  assert (W0 : Sum n (fun k => dot (nth k A []) w * dot (nth k A []) w) = 0).
  { apply Sum_zero_ext. intros k Hk. destruct (Ha (nth k A []) (nth_In A [] Hk)) as (cs & Lcs & ->).
    rewrite dot_lincomb_r by (auto; lia). rewrite Sum_zero_ext; [ring|]. intros l Hl. rewrite (dot_comm (nth l dirs [])), Dw, Z by lia. ring. }
  rewrite svd_gram in W0 by auto.
  assert (Vw : forall k, (k < Datatypes.S m)%nat -> dot (v k) w = c k).
  { intros k Hk. rewrite dot_comm, Dw. rewrite (Sum_ext _ _ (fun l => c l * delta l k)).
    - apply Sum_delta. auto.
    - intros l Hl. rewrite (sv_V _ _ _ _ _ H) by lia. reflexivity. }
  assert (NN : forall k, (k < r)%nat -> 0 <= sg k * sg k * (dot (v k) w * dot (v k) w)).
  { intros k _. pose proof (Rle_0_sqr (sg k)). pose proof (Rle_0_sqr (dot (v k) w)). unfold Rsqr in *. apply Rmult_le_pos; auto. }
  pose proof (Sum_zero _ _ NN W0 i ltac:(lia)) as Q. simpl in Q. rewrite Vw in Q by lia.
  pose proof (sv_decr _ _ _ _ _ H i m ltac:(lia)).
  apply Rmult_integral in Q as [Q|Q]; [|nra]. nra.
Qed.

Lemma svd_tail_zero m k : (m < r)%nat -> sg m = 0 -> (m <= k < r)%nat -> sg k = 0.
Proof. intros Hm E Hk. pose proof (sv_decr _ _ _ _ _ H m k ltac:(lia)). pose proof (sv_nonneg _ _ _ _ _ H k ltac:(lia)). lra. Qed.

(** If the singular values from number [m] on vanish, the rows lie in the span of [m] rows of Vh. *)
Lemma svd_span m : (m <= r)%nat -> (forall k, (m <= k < r)%nat -> sg k = 0) ->
  length (firstn m Vh) = m /\ Forall (fun e => length e = d) (firstn m Vh) /\
  (forall a, In a A -> exists cs, length cs = m /\ a = lincomb d cs (firstn m Vh)).
Proof.
  intros Hm Z.
  assert (LV : (m <= length Vh)%nat).
  { destruct m as [|m]; [lia|]. destruct (Nat.le_gt_cases (Datatypes.S m) (length Vh)) as [|L]; auto. exfalso.
    pose proof (sv_V _ _ _ _ _ H m m ltac:(lia) ltac:(lia)) as E. rewrite delta_eq in E. rewrite nth_overflow in E by lia. simpl in E. lra. }
  set (vs := firstn m Vh). assert (Lvs : length vs = m) by (unfold vs; rewrite firstn_length; lia).
  assert (Nvs : forall k, (k < m)%nat -> nth k vs [] = v k).
  { intros k Hk. unfold vs. rewrite <- (firstn_skipn m Vh) at 2. rewrite app_nth1; auto. fold vs. lia. }
  assert (Fvs : Forall (fun e => length e = d) vs).
  { apply Forall_forall. intros e He. apply (In_nth _ _ []) in He as (k & Hk & <-). rewrite Nvs by lia. apply (sv_dim _ _ _ _ _ H). lia. }
  split; auto. split; auto. intros a Ha. apply (In_nth _ _ []) in Ha as (i & Hi & <-).
  exists (map (fun k => ent U i k * sg k) (seq 0 m)). split; [rewrite map_length, seq_length; auto|].
  apply pt_ext. { rewrite length_lincomb by auto. apply row_len; auto. }
  intros j Hj. rewrite row_len in Hj by auto. rewrite nth_lincomb by (auto; rewrite map_length, seq_length; auto).
  change (nth j (nth i A []) 0) with (ent A i j). rewrite (sv_A _ _ _ _ _ H) by auto.
  replace r with (m + (r - m))%nat at 1 by lia. rewrite Sum_split. rewrite (Sum_zero_ext (r - m)).
  - rewrite Lvs, Rplus_0_r. apply Sum_ext. intros k Hk. rewrite nth_map_seq by auto. unfold ent. rewrite Nvs by auto. reflexivity.
  - intros k Hk. rewrite Z by lia. ring.
Qed.

(** Parseval-free bound: for a unit vector [e], sum_i (A_i.e)^2 <= S_0^2, with equality at v_0. *)
Lemma bessel e m : (m <= r)%nat -> length e = d -> Sum m (fun k => dot (v k) e * dot (v k) e) <= dot e e.
Proof.
  intros Hm Le.
  set (w := fold_right (fun k acc => add (scale (dot (v k) e) (v k)) acc) (origin d) (seq 0 m)).
  assert (L : forall ks, (forall k, In k ks -> (k < r)%nat) -> length (fold_right (fun k acc => add (scale (dot (v k) e) (v k)) acc) (origin d) ks) = d).
  { induction ks as [|k ks IH]; intro Hk; simpl; [apply length_origin|]. rewrite length_add, length_scale, IH by (intros; apply Hk; right; auto).
    rewrite (sv_dim _ _ _ _ _ H) by (apply Hk; left; auto). lia. }
  assert (Dw : forall ks x, (forall k, In k ks -> (k < r)%nat) -> dot (fold_right (fun k acc => add (scale (dot (v k) e) (v k)) acc) (origin d) ks) x
               = Rsum (map (fun k => dot (v k) e * dot (v k) x) ks)).
  { induction ks as [|k ks IH]; intros x Hk; simpl; [apply dot_origin_l|].
    rewrite dot_add_l by (rewrite length_scale, L by (intros; apply Hk; right; auto); apply (sv_dim _ _ _ _ _ H), Hk; left; auto).
    rewrite dot_scale_l, IH by (intros; apply Hk; right; auto). reflexivity. }
  assert (Lw : length w = d) by (apply L; intros k Hk; apply in_seq in Hk; lia).
  assert (Dx : forall x, dot w x = Sum m (fun k => dot (v k) e * dot (v k) x)) by (intro; apply Dw; intros k Hk; apply in_seq in Hk; lia).
  assert (Dv : forall k, (k < m)%nat -> dot (v k) w = dot (v k) e).
  { intros k Hk. rewrite dot_comm, Dx. rewrite (Sum_ext _ _ (fun l => dot (v l) e * delta l k)); [apply (Sum_delta m k (fun l => dot (v l) e)); auto|].
    intros l Hl. rewrite (sv_V _ _ _ _ _ H) by lia. reflexivity. }
  pose proof (dot_self_nonneg (sub e w)) as Q. rewrite dot_sub_sub in Q by congruence.
  rewrite (dot_comm e w), Dx in Q.
  assert (E2 : dot w w = Sum m (fun k => dot (v k) e * dot (v k) e)).
  { rewrite Dx. apply Sum_ext. intros k Hk. rewrite Dv by auto. reflexivity. }
  rewrite E2 in Q. lra.
Qed.
(** Coordinates of the rows with respect to the right singular vectors. *)
Lemma svd_vdot i k : (i < n)%nat -> (k < r)%nat -> dot (nth i A []) (v k) = ent U i k * sg k.
Proof.
  intros Hi Hk. rewrite svd_row_dot by (auto; apply (sv_dim _ _ _ _ _ H); auto).
  rewrite (Sum_ext _ _ (fun l => ent U i l * sg l * delta l k)); [apply (Sum_delta r k (fun l => ent U i l * sg l)); auto|].
  intros l Hl. rewrite (sv_V _ _ _ _ _ H) by auto. reflexivity.
Qed.
Lemma svd_row_norm i : (i < n)%nat -> dot (nth i A []) (nth i A []) = Sum r (fun k => (ent U i k * sg k) * (ent U i k * sg k)).
Proof.
  intro Hi. rewrite svd_row_dot by (auto; apply row_len; auto). apply Sum_ext. intros k Hk. rewrite (dot_comm (v k)), svd_vdot by auto. reflexivity.
Qed.
Lemma svd_tail_sum m : (m <= r)%nat -> Sum n (fun i => Sum (r - m) (fun k => (ent U i (m + k) * sg (m + k)) * (ent U i (m + k) * sg (m + k)))) = Sum (r - m) (fun k => sg (m + k) * sg (m + k)).
Proof.
  intro Hm. rewrite Sum_swap. apply Sum_ext. intros k Hk.
  rewrite (Sum_ext n _ (fun i => (ent U i (m + k) * ent U i (m + k)) * (sg (m + k) * sg (m + k)))) by (intros; ring).
  rewrite Sum_scale_r, (sv_U _ _ _ _ _ H), delta_eq by lia. ring.
Qed.
Lemma svd_frob : Sum n (fun i => dot (nth i A []) (nth i A [])) = Sum r (fun k => sg k * sg k).
Proof.
  rewrite (Sum_ext n _ (fun i => Sum (r - 0) (fun k => (ent U i (0 + k) * sg (0 + k)) * (ent U i (0 + k) * sg (0 + k))))).
  - rewrite svd_tail_sum by lia. rewrite Nat.sub_0_r. reflexivity.
  - intros i Hi. rewrite svd_row_norm by auto. rewrite Nat.sub_0_r. reflexivity.
Qed.
Lemma svd_U_bound i k : (i < n)%nat -> (k < r)%nat -> ent U i k * ent U i k <= 1.
Proof.
  intros Hi Hk. pose proof (sv_U _ _ _ _ _ H k k Hk Hk) as E. rewrite delta_eq in E. rewrite <- E.
  apply (Sum_ge_term n (fun i => ent U i k * ent U i k)); auto. intros. pose proof (Rle_0_sqr (ent U i0 k)). unfold Rsqr in *. auto.
Qed.

Lemma svd_span_dirs m : (m <= r)%nat -> length (firstn m Vh) = m /\ Forall (fun e => length e = d) (firstn m Vh).
Proof.
  intro Hm.
  assert (LV : (m <= length Vh)%nat).
  { destruct m as [|m]; [lia|]. destruct (Nat.le_gt_cases (Datatypes.S m) (length Vh)) as [|L]; auto. exfalso.
    pose proof (sv_V _ _ _ _ _ H m m ltac:(lia) ltac:(lia)) as E. rewrite delta_eq in E. rewrite nth_overflow in E by lia. simpl in E. lra. }
  assert (Lvs : length (firstn m Vh) = m) by (rewrite firstn_length; lia). split; auto.
  apply Forall_forall. intros e He. apply (In_nth _ _ []) in He as (k & Hk & <-).
  assert (E : nth k (firstn m Vh) [] = v k) by (rewrite <- (firstn_skipn m Vh) at 2; rewrite app_nth1; auto).
  rewrite E. apply (sv_dim _ _ _ _ _ H). lia.
Qed.

(** Distance of a row from its projection on the first [m] right singular vectors. *)
Lemma svd_residual m i : (m <= r)%nat -> (i < n)%nat ->
  let y := lincomb d (map (fun k => dot (nth i A []) (v k)) (seq 0 m)) (firstn m Vh) in
  length y = d /\ dist (nth i A []) y * dist (nth i A []) y = Sum (r - m) (fun k => (ent U i (m + k) * sg (m + k)) * (ent U i (m + k) * sg (m + k))).
Proof.
  intros Hm Hi.
  assert (LV : (m <= length Vh)%nat).
  { destruct m as [|m]; [lia|]. destruct (Nat.le_gt_cases (Datatypes.S m) (length Vh)) as [|L]; auto. exfalso.
    pose proof (sv_V _ _ _ _ _ H m m ltac:(lia) ltac:(lia)) as E. rewrite delta_eq in E. rewrite nth_overflow in E by lia. simpl in E. lra. }
  set (vs := firstn m Vh). assert (Lvs : length vs = m) by (unfold vs; rewrite firstn_length; lia).
  assert (Nvs : forall k, (k < m)%nat -> nth k vs [] = v k).
  { intros k Hk. unfold vs. rewrite <- (firstn_skipn m Vh) at 2. rewrite app_nth1; auto. fold vs. lia. }
  assert (Fvs : Forall (fun e => length e = d) vs).
  { apply Forall_forall. intros e He. apply (In_nth _ _ []) in He as (k & Hk & <-). rewrite Nvs by lia. apply (sv_dim _ _ _ _ _ H). lia. }
  intro y. set (cs := map (fun k => dot (nth i A []) (v k)) (seq 0 m)) in y. assert (Lcs : length cs = length vs) by (unfold cs; rewrite map_length, seq_length; auto).
  assert (Ly : length y = d) by (apply length_lincomb; auto). split; auto.
  assert (Dy : forall x, dot y x = Sum m (fun k => dot (nth i A []) (v k) * dot (v k) x)).
  { intro x. unfold y. rewrite dot_lincomb_r by auto. rewrite Lvs. apply Sum_ext. intros k Hk. rewrite Nvs by auto. unfold cs. rewrite nth_map_seq by auto. reflexivity. }
  assert (Vy : forall k, (k < m)%nat -> dot (v k) y = dot (nth i A []) (v k)).
  { intros k Hk. rewrite dot_comm, Dy. rewrite (Sum_ext _ _ (fun l => dot (nth i A []) (v l) * delta l k)); [apply (Sum_delta m k (fun l => dot (nth i A []) (v l))); auto|].
    intros l Hl. rewrite (sv_V _ _ _ _ _ H) by lia. reflexivity. }
  rewrite dist_sq, dot_sub_sub by (rewrite row_len; auto). rewrite (dot_comm _ y), !Dy, svd_row_norm by auto.
  replace r with (m + (r - m))%nat at 1 by lia. rewrite Sum_split.
  rewrite (Sum_ext m (fun k => dot (nth i A []) (v k) * dot (v k) (nth i A [])) (fun k => ent U i k * sg k * (ent U i k * sg k))).
  2:{ intros k Hk. rewrite (dot_comm (v k)), svd_vdot by lia. reflexivity. }
  rewrite (Sum_ext m (fun k => dot (nth i A []) (v k) * dot (v k) y) (fun k => ent U i k * sg k * (ent U i k * sg k))).
  2:{ intros k Hk. rewrite Vy, svd_vdot by lia. reflexivity. }
  ring.
Qed.
End Svd.

(** Counting the singular values above a threshold. *)
Lemma count_above (thr : R) (S : list R) : (forall j k, (j <= k < length S)%nat -> nth k S 0 <= nth j S 0) ->
  let c := length (filter (fun x => Rltb thr x) S) in
  (c <= length S)%nat /\ (forall k, (k < c)%nat -> thr < nth k S 0) /\ (forall k, (c <= k < length S)%nat -> nth k S 0 <= thr).
Proof.
  induction S as [|x S IH]; intro D; simpl.
  - split; auto. split; intros; lia.
  - assert (D' : forall j k, (j <= k < length S)%nat -> nth k S 0 <= nth j S 0) by (intros j k Hk; apply (D (Datatypes.S j) (Datatypes.S k)); simpl; lia).
    destruct (IH D') as (I1 & I2 & I3). destruct (Rltb thr x) eqn:E; [apply Rltb_true in E|apply Rltb_false in E].
    + simpl. split; [lia|]. split; intros [|k] Hk; try lia; auto; [apply I2; lia|apply I3; lia].
    + assert (Z : filter (fun x => Rltb thr x) S = []).
      { destruct (filter (fun x => Rltb thr x) S) eqn:F; auto. assert (In r (filter (fun x => Rltb thr x) S)) by (rewrite F; left; auto).
        apply filter_In in H as [H1 H2]. apply Rltb_true in H2. apply (In_nth _ _ 0) in H1 as (k & Hk & <-).
        pose proof (D 0%nat (Datatypes.S k) ltac:(simpl; lia)). simpl in H. lra. }
      rewrite Z. simpl. split; [lia|]. split; [intros; lia|]. intros k Hk. pose proof (D 0%nat k ltac:(simpl; lia)). simpl in H. destruct k; simpl in *; lra.
Qed.
