From Coq Require Import String Reals List ZArith Lra Lia Psatz Bool.
From Verif.Model Require Import Outcome Num Instances Numpy BaseArray.
From Verif.Spec Require Import Geometry Tolerance Arrays.
From Verif.Proof Require Import VecAlg Bridge.
Import ListNotations.

Section ND.
Context {N : Num}.
Definition nd_ind' (P : nd N -> Prop) (HS : forall x, P (Sc x))
  (HA : forall l, (forall a, In a l -> P a) -> P (Ar l)) : forall a, P a.
Proof.
  fix F 1. intros [x|l]; [apply HS|]. apply HA. induction l as [|b l IH]; intros a Hin.
  - destruct Hin.
  - destruct Hin as [<-|Hin]; [apply F|apply IH, Hin].
Defined.

Lemma shape_eqb_true s t : shape_eqb s t = true <-> s = t.
Proof.
  destruct s, t; simpl; split; intro H; try congruence.
  - destruct list_eq_dec; congruence.
  - injection H as <-. destruct list_eq_dec; congruence.
Qed.
Lemma shape_has_shape (a : nd N) : forall s, shape a = Some s -> has_shape a s.
Proof.
  induction a as [x|l IH] using nd_ind'; simpl; intros s H.
  { injection H as <-; constructor. }
  destruct l as [|b l]; simpl in H. { injection H as <-; constructor. }
  destruct (forallb _ _) eqn:F; [|discriminate]. destruct (shape b) as [t|] eqn:Eb; [|discriminate].
  simpl in H. injection H as <-. change (S (length l)) with (length (b :: l)). apply hs_array; [discriminate|].
  intros a [<-|Hin]; [apply IH; [left; auto|auto]|]. apply IH; [right; auto|].
  rewrite forallb_forall in F. symmetry. apply shape_eqb_true. apply F. apply in_map; auto.
Qed.
Lemma has_shape_shape (a : nd N) s : has_shape a s -> shape a = Some s.
Proof.
  induction 1 as [x| |l s Hne _ IH]; simpl; auto. destruct l as [|b l]; [contradiction|]. simpl.
  rewrite (IH b) by (left; auto).
  assert (F : forallb (shape_eqb (Some s)) (map shape l) = true).
  { apply forallb_forall. intros t Ht. apply in_map_iff in Ht as (c & <- & Hc). rewrite IH by (right; auto). apply shape_eqb_refl. }
  rewrite F. reflexivity.
Qed.
Lemma shape_iff (a : nd N) s : shape a = Some s <-> has_shape a s.
Proof. split; [apply shape_has_shape|apply has_shape_shape]. Qed.
Lemma shape_none (a : nd N) : shape a = None <-> ~ exists s, has_shape a s.
Proof.
  split.
  - intros E (s & H). apply has_shape_shape in H. congruence.
  - intro H. destruct (shape a) eqn:E; auto. exfalso; apply H; eexists; apply shape_iff; eauto.
Qed.
Lemma flat_value_in (a : nd N) x : In x (flat a) <-> value_in x a.
Proof.
  revert x; induction a as [y|l IH] using nd_ind'; intro x; simpl.
  - split; [intros [<-|[]]; constructor|]. inversion 1; auto.
  - rewrite in_flat_map. split.
    + intros (b & Hb & Hx). econstructor; eauto. apply IH; auto.
    + inversion 1 as [|b l' Hb Hx]; subst. exists b; split; auto. apply IH; auto.
Qed.

(** Rank-1 shapes are flat lists. *)
Lemma has_shape_0 (a : nd N) : has_shape a [] -> exists x, a = Sc x.
Proof. inversion 1; eauto. Qed.
Lemma all_scalar (l : list (nd N)) : (forall a, In a l -> has_shape a []) -> exists v, l = map Sc v.
Proof.
  induction l as [|a l IH]; intro H. { exists []; auto. }
  destruct IH as (v & ->). { intros; apply H; right; auto. }
  destruct (has_shape_0 a) as (x & ->). { apply H; left; auto. }
  exists (x :: v); auto.
Qed.
Lemma has_shape_1 (a : nd N) n : has_shape a [n] -> exists v, a = nd_of_vec v /\ length v = n.
Proof.
  inversion 1 as [|E|l s Hne HF E1 E2]; subst. { exists []; auto. }
  destruct (all_scalar l HF) as (v & ->). exists v. split; auto. rewrite map_length; auto.
Qed.
Lemma has_shape_2 (a : nd N) n d : has_shape a [n; d] -> exists rows, a = nd_of_rows rows /\ rows <> [] /\ length rows = n /\ Forall (fun r => length r = d) rows.
Proof.
  inversion 1 as [| |l s Hne HF E1 E2]; subst.
  assert (HR : exists rows, l = map nd_of_vec rows /\ Forall (fun r => length r = d) rows).
  { clear -HF. induction l as [|a l IH]. { exists []; auto. }
    destruct IH as (rows & -> & F). { intros; apply HF; right; auto. }
    destruct (has_shape_1 a d) as (v & -> & L). { apply HF; left; auto. }
    exists (v :: rows); split; auto. }
  destruct HR as (rows & -> & F). exists rows. repeat split; auto.
  - intros ->; apply Hne; auto.
  - rewrite map_length; auto.
Qed.

Lemma forallb_nfin (v : vec N) : forallb nfin v = true <-> Forall (fun x => nfin x = true) v.
Proof. rewrite forallb_forall, Forall_forall. tauto. Qed.

Lemma array1d_ok_iff (a : nd N) v : array1d_new a = Ok v <->
  a = Ar (map Sc v) /\ v <> [] /\ Forall (fun x => nfin x = true) v.
Proof.
  split.
  - unfold array1d_new. destruct (shape a) as [s|] eqn:E; [|discriminate].
    destruct (Nat.eqb_spec (length s) 1) as [L|L]; [|discriminate]. cbn [negb].
    destruct s as [|n [|? ?]]; try discriminate. apply shape_iff in E.
    destruct (has_shape_1 a n E) as (w & -> & Hw). rewrite flat_nd_of_vec. unfold base_new.
    destruct (Nat.eqb_spec (length w) 0) as [L0|L0]; [discriminate|].
    destruct (forallb nfin w) eqn:F; [|discriminate]. simpl. intro H; injection H as <-.
    split; [reflexivity|]. split; [intros ->; apply L0; reflexivity|]. apply forallb_nfin; auto.
  - intros (-> & Hne & F). fold (nd_of_vec v). rewrite array1d_of_vec, base_new_ok; auto. apply forallb_nfin; auto.
Qed.

Lemma array1d_raise (a : nd N) :
  ((~ exists s, has_shape a s) -> array1d_new a = Raise err_ragged) /\
  (forall s, has_shape a s -> length s <> 1%nat -> array1d_new a = Raise err_1d) /\
  (has_shape a [0%nat] -> array1d_new a = Raise err_empty) /\
  (forall n, has_shape a [S n] -> (exists x, value_in x a /\ nfin x = false) -> array1d_new a = Raise err_finite).
Proof.
  unfold array1d_new. repeat split.
  - intro H. apply shape_none in H. rewrite H. reflexivity.
  - intros s H L. apply shape_iff in H. rewrite H. apply Nat.eqb_neq in L. rewrite L. reflexivity.
  - intro H. destruct (has_shape_1 a 0 H) as ([|? ?] & -> & L); [|discriminate]. reflexivity.
  - intros n H (x & Hx & Fx). destruct (has_shape_1 a _ H) as (v & -> & L).
    rewrite shape_nd_of_vec, flat_nd_of_vec. cbn [length negb Nat.eqb]. unfold base_new. rewrite L. cbn [Nat.eqb].
    assert (F : forallb nfin v = false).
    { destruct (forallb nfin v) eqn:F; auto. rewrite forallb_forall in F. rewrite F in Fx; [discriminate|].
      rewrite <- (flat_nd_of_vec v). apply flat_value_in; auto. }
    rewrite F. reflexivity.
Qed.

Lemma array2d_ok_iff (a : nd N) rows : array2d_new a = Ok rows <->
  a = Ar (map (fun r => Ar (map Sc r)) rows) /\ rows <> [] /\
  (exists d, (0 < d)%nat /\ Forall (fun r => length r = d) rows) /\
  Forall (Forall (fun x => nfin x = true)) rows.
Proof.
  split.
  - intro H. assert (Hs : exists rs, a = nd_of_rows rs /\ rs <> []).
    { unfold array2d_new in H. destruct (shape a) as [s|] eqn:E; [|discriminate].
      destruct (Nat.eqb_spec (length s) 2) as [L|L]; [|discriminate].
      destruct s as [|n [|d [|? ?]]]; try discriminate. apply shape_iff in E.
      apply has_shape_2 in E as (rs & -> & Hne & _). eauto. }
    destruct Hs as (rs & -> & Hne). fold (points_of rs) in H. apply points_of_inv in H as (-> & _ & Hd & F & Fin).
    split; [reflexivity|]. split; auto. split; [exists (dim2 rs); auto|].
    clear -Fin. induction rs as [|r rs IH]; constructor; simpl in Fin; rewrite forallb_app in Fin;
      apply andb_true_iff in Fin as [F1 F2]; auto. apply forallb_nfin; auto.
  - intros (-> & Hne & (d & Hd & F) & Fin). change (points_of rows = Ok rows).
    rewrite (points_of_rect rows d) by auto. rewrite base_new_ok; auto.
    + eapply concat_nonempty; eauto.
    + clear -Fin. induction Fin as [|r rs Fr _ IH]; simpl; auto. rewrite forallb_app, IH, andb_true_r. apply forallb_nfin; auto.
Qed.

Lemma array2d_raise (a : nd N) :
  ((~ exists s, has_shape a s) -> array2d_new a = Raise err_ragged) /\
  (forall s, has_shape a s -> length s <> 2%nat -> array2d_new a = Raise err_2d) /\
  (forall n, has_shape a [n; 0%nat] -> array2d_new a = Raise err_empty) /\
  (forall n d, has_shape a [n; S d] -> (exists x, value_in x a /\ nfin x = false) -> array2d_new a = Raise err_finite).
Proof.
  unfold array2d_new. repeat split.
  - intro H. apply shape_none in H. rewrite H. reflexivity.
  - intros s H L. apply shape_iff in H. rewrite H. apply Nat.eqb_neq in L. rewrite L. reflexivity.
  - intros n H. pose proof H as H'. apply shape_iff in H'. rewrite H'. cbn [length negb Nat.eqb].
    apply has_shape_2 in H as (rs & -> & _ & _ & F). rewrite flat_nd_of_rows.
    assert (E : concat rs = []). { clear H'. induction F as [|r rs Hr _ IH]; auto. destruct r; [|discriminate]. simpl; auto. }
    rewrite E. reflexivity.
  - intros n d H (x & Hx & Fx). pose proof H as H'. apply shape_iff in H'. rewrite H'. cbn [length negb Nat.eqb].
    apply has_shape_2 in H as (rs & -> & Hne & _ & F). apply flat_value_in in Hx. rewrite flat_nd_of_rows in *. unfold base_new.
    assert (Hc : concat rs <> []) by (eapply (concat_nonempty rs (S d)); eauto; lia).
    destruct (Nat.eqb_spec (length (concat rs)) 0) as [L|L]. { destruct (concat rs); [congruence|discriminate]. }
    assert (Fn : forallb nfin (concat rs) = false).
    { destruct (forallb nfin (concat rs)) eqn:G; auto. rewrite forallb_forall in G. rewrite G in Fx; [discriminate|auto]. }
    rewrite Fn. reflexivity.
Qed.

(** array_wrap *)
Lemma array_wrap_1d (a b : nd N) : array_wrap false false a = inl b ->
  exists v, b = a /\ a = Ar (map Sc v) /\ v <> [] /\ Forall (fun x => nfin x = true) v.
Proof.
  unfold array_wrap. destruct (array1d_new a) as [v|e|] eqn:E; intro H; try discriminate. injection H as <-.
  apply array1d_ok_iff in E as (E1 & E2 & E3). exists v. repeat split; auto.
Qed.
End ND.

Local Open Scope R_scope.

(** ** set_dimension *)
Lemma set_dimension1_R (v : pt) (dim : Z) : v <> [] -> (Z.of_nat (length v) <= dim)%Z ->
  set_dimension1 (N:=RNum) v dim = Ok (pad_to (Z.to_nat dim) v).
Proof.
  intros Hne H. unfold set_dimension1, dim1. rn. destruct (Z.ltb_spec dim (Z.of_nat (length v))); [lia|].
  rewrite array1d_of_vec, base_new_ok; [reflexivity| |apply forallb_nfin_R].
  unfold pad. destruct v; [contradiction|discriminate].
Qed.
Lemma set_dimension1_lt {N : Num} (v : vec N) (dim : Z) : (dim < Z.of_nat (length v))%Z ->
  set_dimension1 v dim = Raise err_dim_less.
Proof. intro H. unfold set_dimension1, dim1. destruct (Z.ltb_spec dim (Z.of_nat (length v))); [reflexivity|lia]. Qed.
Lemma set_dimension2_R (rows : list pt) d (dim : Z) : rows <> [] -> (0 < d)%nat -> Forall (fun r => length r = d) rows ->
  (Z.of_nat d <= dim)%Z -> set_dimension2 (N:=RNum) rows dim = Ok (map (pad_to (Z.to_nat dim)) rows).
Proof.
  intros Hne Hd F H. unfold set_dimension2. rn.
  assert (E : dim2 (N:=RNum) rows = d) by (destruct F; [contradiction|auto]). rewrite E.
  destruct (Z.ltb_spec dim (Z.of_nat d)); [lia|].
  assert (E2 : map (fun r : pt => pad (N:=RNum) r (Z.to_nat dim - d)) rows = map (pad_to (Z.to_nat dim)) rows).
  { apply map_ext_in. intros r Hr. rewrite Forall_forall in F. unfold pad, pad_to. rewrite F by auto. reflexivity. }
  rn. rewrite E2. change (points_of (N:=RNum) (map (pad_to (Z.to_nat dim)) rows) = Ok (map (pad_to (Z.to_nat dim)) rows)).
  apply (points_of_R _ (Z.to_nat dim)); [destruct rows; [contradiction|discriminate]|lia|].
  rewrite Forall_map. eapply Forall_impl; [|exact F]. intros r Hr. simpl in Hr. rewrite length_pad_to. lia.
Qed.
Lemma set_dimension2_lt {N : Num} (rows : list (vec N)) (dim : Z) : (dim < Z.of_nat (dim2 rows))%Z ->
  set_dimension2 rows dim = Raise err_dim_less.
Proof. intro H. unfold set_dimension2. destruct (Z.ltb_spec dim (Z.of_nat (dim2 rows))); [reflexivity|lia]. Qed.

Lemma pad_to_dot n a b : length a = length b -> dot (pad_to n a) (pad_to n b) = dot a b.
Proof.
  intro H. unfold pad_to. rewrite dot_app by auto. fold (origin (n - length a)). rewrite dot_origin_l. ring.
Qed.
Lemma sub_app a b c d : length a = length c -> sub (a ++ b) (c ++ d) = sub a c ++ sub b d.
Proof. intro H; pattern a, c; apply ind2; auto. intros x y a' c' _ IH; simpl; f_equal; auto. Qed.
Lemma pad_to_sub n a b : length a = length b -> sub (pad_to n a) (pad_to n b) = pad_to n (sub a b).
Proof.
  intro H. unfold pad_to. rewrite sub_app by auto. rewrite <- H, length_sub, <- H, Nat.min_id. f_equal.
  fold (origin (n - length a)). rewrite sub_self, length_origin. reflexivity.
Qed.
Lemma pad_to_dist n a b : length a = length b -> dist (pad_to n a) (pad_to n b) = dist a b.
Proof. intro H. unfold dist, len. rewrite pad_to_sub, pad_to_dot by auto. reflexivity. Qed.
Lemma pad_to_id n a : (n <= length a)%nat -> pad_to n a = a.
Proof. intro H. unfold pad_to. replace (n - length a)%nat with 0%nat by lia. apply app_nil_r. Qed.
Lemma pad_to_twice m n a : (length a <= n)%nat -> (n <= m)%nat -> pad_to m (pad_to n a) = pad_to m a.
Proof.
  intros H H'. unfold pad_to. rewrite app_length, repeat_length, <- app_assoc, <- repeat_app. do 2 f_equal. lia.
Qed.

(** ** is_equal, is_close *)
Lemma row_eqb_iff (a b : pt) : row_eqb (N:=RNum) a b = true <-> a = b.
Proof.
  revert b; induction a as [|x a IH]; intros [|y b]; simpl; split; intro H; try congruence.
  - apply andb_true_iff in H as [H1 H2]. apply Reqb_true in H1. apply IH in H2. congruence.
  - injection H as -> ->. rewrite Reqb_refl. simpl. apply IH; auto.
Qed.
Lemma is_equal2_iff (a b : list pt) : is_equal2 (N:=RNum) a b = true <-> a = b.
Proof.
  revert b; induction a as [|x a IH]; intros [|y b]; simpl; split; intro H; try congruence.
  - apply andb_true_iff in H as [H1 H2]. apply row_eqb_iff in H1. apply IH in H2. congruence.
  - injection H as -> ->. rewrite (proj2 (row_eqb_iff y y) eq_refl). apply IH; auto.
Qed.
Lemma allclose_pairs_R (t : tol RNum) (ps : list (R * R)) : tol_ok t -> ps <> [] ->
  exists r, allclose_pairs t ps = Ok r /\ (r = true <-> Forall (fun p => close (rel_tol t) (abs_tol t) (fst p) (snd p)) ps).
Proof.
  intros Ht Hne. unfold allclose_pairs. destruct ps as [|p0 ps0]; [contradiction|]. remember (p0 :: ps0) as ps eqn:E.
  clear E Hne.
  assert (H : exists bs, mapM (fun p => isclose t (fst p) (snd p)) ps = Ok bs /\
     (forallb (fun b : bool => b) bs = true <-> Forall (fun p => close (rel_tol t) (abs_tol t) (fst p) (snd p)) ps)).
  { induction ps as [|p ps (bs & Hbs & IH)]; simpl. { exists []; split; auto; split; auto. }
    destruct (isclose_R t (fst p) (snd p) Ht) as (r & Hr & Hr'). rn. rewrite Hr. cbn [bind]. rewrite Hbs. cbn [bind].
    exists (r :: bs). split; auto. simpl. rewrite andb_true_iff, IH, Hr', Forall_cons_iff. tauto. }
  destruct H as (bs & Hbs & H). rn. rewrite Hbs. eexists; split; [reflexivity|exact H].
Qed.

Lemma Forall_combine (P : R -> R -> Prop) (a b : pt) : length a = length b ->
  (Forall (fun p => P (fst p) (snd p)) (combine a b) <-> Forall2 P a b).
Proof.
  intro H; pattern a, b; apply ind2; auto. { split; constructor. }
  intros x y a' b' _ IH. simpl. rewrite Forall_cons_iff, IH. simpl. split.
  - intros [? ?]; constructor; auto.
  - inversion 1; auto.
Qed.
Lemma is_close1_R (t : tol RNum) (a b : pt) : tol_ok t -> a <> [] -> length a = length b ->
  exists r, is_close1 t a b = Ok r /\ (r = true <-> Forall2 (close (rel_tol t) (abs_tol t)) a b).
Proof.
  intros Ht Hne H. unfold is_close1, bpairs. rn. rewrite H, Nat.eqb_refl. cbn [bind].
  destruct (allclose_pairs_R t (combine a b) Ht) as (r & Hr & Hr').
  { destruct a, b; simpl in *; congruence. }
  exists r. split; [exact Hr|]. rewrite Hr'. apply Forall_combine; auto.
Qed.
Lemma is_close1_mismatch (t : tol RNum) (a b : pt) : length a <> length b -> length a <> 1%nat -> length b <> 1%nat ->
  is_close1 t a b = Raise err_broadcast.
Proof.
  intros H Ha Hb. unfold is_close1, bpairs. rn. destruct (Nat.eqb_spec (length a) (length b)); [contradiction|].
  destruct a as [|? [|? ?]], b as [|? [|? ?]]; simpl in *; try congruence; reflexivity.
Qed.
Lemma is_close1_bcast_r (t : tol RNum) (a : pt) (y : R) : tol_ok t -> (1 < length a)%nat ->
  exists r, is_close1 t a [y] = Ok r /\ (r = true <-> Forall (fun x => close (rel_tol t) (abs_tol t) x y) a).
Proof.
  intros Ht H. unfold is_close1, bpairs. rn. destruct (Nat.eqb_spec (length a) (length [y])) as [L|L]; [simpl in L; lia|].
  destruct a as [|x1 [|x2 a]]; simpl in H; try lia. cbn [bind].
  destruct (allclose_pairs_R t (map (fun x => (x, y)) (x1 :: x2 :: a)) Ht) as (r & Hr & Hr'); [discriminate|].
  exists r. split; [exact Hr|]. rewrite Hr', Forall_map. reflexivity.
Qed.
Lemma is_close1_sym (t : tol RNum) (a b : pt) : tol_ok t -> a <> [] -> length a = length b -> is_close1 t a b = is_close1 t b a.
Proof.
  intros Ht Hne H. destruct (is_close1_R t a b Ht Hne H) as (r & -> & Hr).
  destruct (is_close1_R t b a Ht) as (r' & -> & Hr'); auto. { destruct a, b; simpl in *; congruence. }
  f_equal. apply eq_true_iff_eq. rewrite Hr, Hr'. split; intro F; clear -F; induction F; constructor; auto using close_sym.
Qed.
