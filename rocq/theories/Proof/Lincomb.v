(** * Finite sums, linear combinations, linear dependence *)
From Coq Require Import Reals List Lra Lia Psatz.
From Verif.Spec Require Import Geometry Mesh.
From Verif.Model Require Import Num Instances Numpy.
From Verif.Spec Require Import Linalg.
From Verif.Proof Require Import VecAlg Bridge Points.
Import ListNotations.
Local Open Scope R_scope.

Lemma length_lincomb d cs bs : Forall (fun r => length r = d) bs -> length (lincomb d cs bs) = d.
Proof. intro F. revert cs. induction F as [|b bs Hb F IH]; intros [|c cs]; simpl; try apply length_origin. rewrite length_add, length_scale, IH, Hb. lia. Qed.
Lemma dot_lincomb_perp d cs bs v : Forall (fun r => length r = d) bs -> Forall (fun b => dot b v = 0) bs -> dot (lincomb d cs bs) v = 0.
Proof.
  intro F. revert cs. induction F as [|b bs Hb F IH]; intros [|c cs] P; simpl; try apply dot_origin_l.
  inversion P; subst. rewrite dot_add_l, dot_scale_l, H1, IH; auto; [ring|]. rewrite length_scale, length_lincomb; auto.
Qed.
Lemma coords_lincomb d cs bs : Forall (fun r => length r = d) bs -> orthonormal bs -> length cs = length bs ->
  map (fun b => dot (lincomb d cs bs) b) bs = cs.
Proof.
  intros F [U O]. revert cs. induction F as [|b bs Hb F IH]; intros [|c cs] L; simpl in *; try discriminate; auto.
  inversion O as [|? ? O1 O2]; subst. f_equal.
  - rewrite dot_add_l by (rewrite length_scale, length_lincomb; auto). rewrite dot_scale_l, U by auto.
    rewrite dot_lincomb_perp; auto; [ring|]. eapply Forall_impl; [|exact O1]. intros x Hx. rewrite dot_comm; auto.
  - etransitivity; [|apply (IH (fun b H => U b (or_intror H)) O2 cs); lia]. apply map_ext_in. intros x Hx.
    rewrite dot_add_l by (rewrite length_scale, length_lincomb; auto). rewrite dot_scale_l. rewrite Forall_forall in O1. rewrite O1 by auto. ring.
Qed.
Lemma dot_lincomb d cs es bs : Forall (fun r => length r = d) bs -> orthonormal bs -> length cs = length bs -> length es = length bs ->
  dot (lincomb d cs bs) (lincomb d es bs) = dot cs es.
Proof.
  intros F [U O]. revert cs es. induction F as [|b bs Hb F IH]; intros [|c cs] [|e es] L L'; simpl in *; try discriminate; try apply dot_origin_l.
  inversion O as [|? ? O1 O2]; subst.
  rewrite dot_add_l by (rewrite length_scale, length_lincomb; auto). rewrite !dot_add_r by (rewrite length_scale, length_lincomb; auto).
  rewrite !dot_scale_l, !dot_scale_r, U by auto.
  rewrite (dot_comm b (lincomb _ _ _)). rewrite !(dot_lincomb_perp (length b) _ bs b); auto.
  - rewrite (IH (fun b H => U b (or_intror H)) O2 cs es) by lia. ring.
  - eapply Forall_impl; [|exact O1]. intros x Hx. rewrite dot_comm; auto.
  - eapply Forall_impl; [|exact O1]. intros x Hx. rewrite dot_comm; auto.
Qed.

(** ** Sums over an index range *)
Lemma Sum_0 f : Sum 0 f = 0.
Proof. reflexivity. Qed.
Lemma Sum_S n f : Sum (S n) f = Sum n f + f n.
Proof. unfold Sum. rewrite seq_S, map_app, Rsum_app. simpl. lra. Qed.
Lemma Sum_S_head n f : Sum (S n) f = f 0%nat + Sum n (fun i => f (S i)).
Proof. unfold Sum. rewrite <- cons_seq, map_cons, <- seq_shift, map_map. reflexivity. Qed.
Lemma Sum_ext n f g : (forall i, (i < n)%nat -> f i = g i) -> Sum n f = Sum n g.
Proof. intro H. unfold Sum. f_equal. apply map_ext_in. intros i Hi. apply in_seq in Hi. apply H. lia. Qed.
Lemma Sum_add n f g : Sum n (fun i => f i + g i) = Sum n f + Sum n g.
Proof. apply Rsum_map_add. Qed.
Lemma Sum_scale n c f : Sum n (fun i => c * f i) = c * Sum n f.
Proof. apply Rsum_map_scale. Qed.
Lemma Sum_scale_r n c f : Sum n (fun i => f i * c) = Sum n f * c.
Proof. rewrite Rmult_comm, <- Sum_scale. apply Sum_ext. intros; ring. Qed.
Lemma Sum_const0 n : Sum n (fun _ => 0) = 0.
Proof. induction n; [reflexivity|]. rewrite Sum_S, IHn. ring. Qed.
Lemma Sum_zero_ext n f : (forall i, (i < n)%nat -> f i = 0) -> Sum n f = 0.
Proof. intro H. rewrite (Sum_ext n f (fun _ => 0)) by auto. apply Sum_const0. Qed.
Lemma Sum_swap n m (f : nat -> nat -> R) : Sum n (fun i => Sum m (fun j => f i j)) = Sum m (fun j => Sum n (fun i => f i j)).
Proof.
  induction n; [simpl; rewrite Sum_0; symmetry; apply Sum_zero_ext; auto|].
  rewrite Sum_S, IHn, <- Sum_add. apply Sum_ext. intros. rewrite Sum_S. reflexivity.
Qed.
Lemma Sum_le n f g : (forall i, (i < n)%nat -> f i <= g i) -> Sum n f <= Sum n g.
Proof. intro H. unfold Sum. apply Rsum_map_le. intros i Hi. apply in_seq in Hi. apply H. lia. Qed.
Lemma Sum_nonneg n f : (forall i, (i < n)%nat -> 0 <= f i) -> 0 <= Sum n f.
Proof. intro H. rewrite <- (Sum_const0 n). apply Sum_le; auto. Qed.
Lemma Sum_zero n f : (forall i, (i < n)%nat -> 0 <= f i) -> Sum n f = 0 -> forall i, (i < n)%nat -> f i = 0.
Proof.
  induction n; intros H Z i Hi; [lia|]. rewrite Sum_S in Z. pose proof (Sum_nonneg n f (fun i Hi => H i ltac:(lia))). pose proof (H n ltac:(lia)).
  destruct (Nat.eq_dec i n) as [->|]; [lra|]. apply IHn; [intros; apply H; lia|lra|lia].
Qed.
Lemma Sum_ge_term n f i : (forall i, (i < n)%nat -> 0 <= f i) -> (i < n)%nat -> f i <= Sum n f.
Proof.
  induction n; intros H Hi; [lia|]. rewrite Sum_S. pose proof (Sum_nonneg n f (fun i Hi => H i ltac:(lia))). pose proof (H n ltac:(lia)).
  destruct (Nat.eq_dec i n) as [->|]; [lra|]. pose proof (IHn (fun i Hi => H i ltac:(lia)) ltac:(lia)). lra.
Qed.
Lemma Sum_bound n f c : (forall i, (i < n)%nat -> f i <= c) -> Sum n f <= INR n * c.
Proof.
  induction n; intro H; [rewrite Sum_0; simpl; lra|]. rewrite Sum_S, S_INR. pose proof (H n ltac:(lia)). pose proof (IHn (fun i Hi => H i ltac:(lia))). lra.
Qed.
Lemma Sum_const n c : Sum n (fun _ => c) = INR n * c.
Proof. induction n; [rewrite Sum_0; simpl; ring|]. rewrite Sum_S, IHn, S_INR. ring. Qed.
Lemma nth_skipn {A} m (l : list A) i a : nth i (skipn m l) a = nth (m + i) l a.
Proof. revert l; induction m; intros [|x l]; simpl; auto. destruct i; reflexivity. Qed.
Lemma Sum_split n m f : Sum (n + m) f = Sum n f + Sum m (fun i => f (n + i)%nat).
Proof. induction m; [rewrite Nat.add_0_r, Sum_0; lra|]. rewrite Nat.add_succ_r, !Sum_S, IHm. ring. Qed.
Lemma delta_eq j : delta j j = 1.
Proof. unfold delta. rewrite Nat.eqb_refl. reflexivity. Qed.
Lemma delta_neq j k : j <> k -> delta j k = 0.
Proof. unfold delta. destruct (Nat.eqb_spec j k); [contradiction|reflexivity]. Qed.
Lemma delta_sym j k : delta j k = delta k j.
Proof. unfold delta. rewrite Nat.eqb_sym. reflexivity. Qed.
Lemma Sum_delta n k f : (k < n)%nat -> Sum n (fun i => f i * delta i k) = f k.
Proof.
  induction n; intro H; [lia|]. rewrite Sum_S. destruct (Nat.eq_dec k n) as [->|].
  - rewrite delta_eq, Sum_zero_ext; [ring|]. intros i Hi. rewrite delta_neq by lia. ring.
  - rewrite IHn by lia. rewrite delta_neq by lia. ring.
Qed.
Lemma Sum_mul n m f g : Sum n f * Sum m g = Sum n (fun i => Sum m (fun j => f i * g j)).
Proof. rewrite <- Sum_scale_r. apply Sum_ext. intros. rewrite <- Sum_scale. reflexivity. Qed.

Lemma Rsum_nth (l : list R) : Rsum l = Sum (length l) (fun i => nth i l 0).
Proof. induction l as [|x l IH]; [reflexivity|]. simpl length. rewrite Sum_S_head. simpl. unfold Rsum in *. rewrite IH. reflexivity. Qed.
Lemma Rsum_map_nth {A} (f : A -> R) (l : list A) (a : A) : Rsum (map f l) = Sum (length l) (fun i => f (nth i l a)).
Proof. induction l as [|x l IH]; [reflexivity|]. simpl length. rewrite Sum_S_head. simpl. unfold Rsum in *. rewrite IH. reflexivity. Qed.
Lemma dot_Sum a b d : length a = d -> length b = d -> dot a b = Sum d (fun j => nth j a 0 * nth j b 0).
Proof.
  revert b d. induction a as [|x a IH]; intros [|y b] d La Lb; subst; simpl in *; try discriminate; [reflexivity|].
  rewrite Sum_S_head. f_equal. apply IH; auto.
Qed.
Lemma nth_lincomb d cs bs j : Forall (fun r => length r = d) bs -> length cs = length bs ->
  nth j (lincomb d cs bs) 0 = Sum (length bs) (fun k => nth k cs 0 * ent bs k j).
Proof.
  intro F. revert cs. induction F as [|b bs Hb F IH]; intros [|c cs] L; simpl in *; try discriminate.
  - apply nth_origin.
  - rewrite nth_add by (rewrite length_scale, length_lincomb; auto). rewrite nth_scale, IH by lia. rewrite Sum_S_head. reflexivity.
Qed.
Lemma dot_lincomb_r d cs bs x : Forall (fun r => length r = d) bs -> length cs = length bs ->
  dot (lincomb d cs bs) x = Sum (length bs) (fun k => nth k cs 0 * dot (nth k bs []) x).
Proof.
  intro F. revert cs. induction F as [|b bs Hb F IH]; intros [|c cs] L; simpl in *; try discriminate.
  - apply dot_origin_l.
  - rewrite dot_add_l by (rewrite length_scale, length_lincomb; auto). rewrite dot_scale_l, IH by lia. rewrite Sum_S_head. reflexivity.
Qed.
Lemma nth_map_seq {A} (f : nat -> A) n i a : (i < n)%nat -> nth i (map f (seq 0 n)) a = f i.
Proof. intro H. rewrite (nth_indep _ a (f 0%nat)) by (rewrite map_length, seq_length; auto). rewrite map_nth, seq_nth by auto. reflexivity. Qed.

(** ** More than [m] vectors of dimension [m] are linearly dependent *)
Definition skip (i0 i : nat) : nat := if Nat.ltb i i0 then i else S i.
Lemma Sum_skip n i0 f : (i0 <= n)%nat -> Sum (S n) f = Sum n (fun i => f (skip i0 i)) + f i0.
Proof.
  revert i0. induction n; intros i0 H.
  - assert (i0 = 0%nat) by lia. subst. rewrite Sum_S, Sum_0, Sum_0. ring.
  - destruct (Nat.eq_dec i0 (S n)) as [->|].
    + rewrite Sum_S. f_equal. apply Sum_ext. intros i Hi. unfold skip. destruct (Nat.ltb_spec i (S n)); [reflexivity|lia].
    + rewrite Sum_S, (IHn i0) by lia. rewrite (Sum_S n). unfold skip at 3. destruct (Nat.ltb_spec n i0); [lia|]. ring.
Qed.
Lemma kernel_exists m : forall n (f : nat -> nat -> R), (m < n)%nat ->
  exists c, (exists i, (i < n)%nat /\ c i <> 0) /\ forall j, (j < m)%nat -> Sum n (fun i => c i * f i j) = 0.
Proof.
  induction m; intros n f H.
  - exists (fun _ => 1). split; [exists 0%nat; split; [auto|lra]|]. intros; lia.
  - destruct (Classical_Prop.classic (exists i0, (i0 < n)%nat /\ f i0 m <> 0)) as [(i0 & Hi & Hf)|Hn].
    + destruct n as [|n]; [lia|].
      destruct (IHm n (fun i j => f (skip i0 i) j - f (skip i0 i) m / f i0 m * f i0 j)) as (c & (k & Hk & Hc) & Z); [lia|].
      set (c0 := - Sum n (fun i => c i * f (skip i0 i) m) / f i0 m).
      exists (fun i => if Nat.eqb i i0 then c0 else c (if Nat.ltb i i0 then i else Nat.pred i)).
      assert (E : forall j, Sum (S n) (fun i => (if Nat.eqb i i0 then c0 else c (if Nat.ltb i i0 then i else Nat.pred i)) * f i j)
                  = Sum n (fun i => c i * f (skip i0 i) j) + c0 * f i0 j).
      { intro j. rewrite (Sum_skip n i0) by lia. rewrite Nat.eqb_refl. f_equal. apply Sum_ext. intros i _. unfold skip.
        destruct (Nat.ltb_spec i i0).
        - destruct (Nat.eqb_spec i i0); [lia|]. destruct (Nat.ltb_spec i i0); [reflexivity|lia].
        - destruct (Nat.eqb_spec (S i) i0); [lia|]. destruct (Nat.ltb_spec (S i) i0); [lia|]. reflexivity. }
      split.
      * exists (skip i0 k). unfold skip. destruct (Nat.ltb_spec k i0).
        -- split; [lia|]. destruct (Nat.eqb_spec k i0); [lia|]. destruct (Nat.ltb_spec k i0); [auto|lia].
        -- split; [lia|]. destruct (Nat.eqb_spec (S k) i0); [lia|]. destruct (Nat.ltb_spec (S k) i0); [lia|auto].
      * intros j Hj. rewrite E. destruct (Nat.eq_dec j m) as [->|].
        -- unfold c0. field. auto.
        -- specialize (Z j ltac:(lia)). rewrite (Sum_ext n _ (fun i => c i * f (skip i0 i) j + (- (f i0 j / f i0 m)) * (c i * f (skip i0 i) m))) in Z by (intros; field; auto).
           rewrite Sum_add, Sum_scale in Z. unfold c0. rewrite <- Z. field. auto.
    + destruct (IHm n f) as (c & Hc & Z); [lia|]. exists c. split; auto. intros j Hj. destruct (Nat.eq_dec j m) as [->|]; [|apply Z; lia].
      apply Sum_zero_ext. intros i Hi. destruct (Req_dec (f i m) 0) as [->|Hne]; [ring|]. exfalso. apply Hn. eauto.
Qed.
