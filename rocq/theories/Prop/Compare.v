(** * C04, continued: is_close and is_equal against scalars, and arrays of any other shape *)
From Coq Require Import String Reals List ZArith Lra Lia Bool Arith Floats.
From Verif.Model Require Import Outcome Num Instances Numpy BaseArray Compare.
From Verif.Spec Require Import Geometry Tolerance Arrays Compare.
From Verif.Proof Require Import VecAlg Bridge Arrays.
Import ListNotations.

Section General.
Context {N : Num}.
Lemma ndim_shape (a : nd N) s : has_shape a s -> ndim a = length s.
Proof.
  intro H. induction H as [x| |l s Hne _ IH]; auto. destruct l as [|b l]; [contradiction|]. cbn [ndim map]. rewrite (IH b) by (left; auto). reflexivity.
Qed.
Definition positive (s : list nat) : Prop := Forall (fun n => (0 < n)%nat) s.

Lemma bpairs_ok {A B} (a : list A) (b : list B) : a <> [] -> b <> [] -> length a = length b \/ length a = 1%nat \/ length b = 1%nat ->
  exists ps, bpairs a b = Ok ps /\ ps <> [] /\ forall x y, In (x, y) ps <-> exists i, nth_error a (if Nat.eqb (length a) 1 then 0 else i) = Some x /\ nth_error b (if Nat.eqb (length b) 1 then 0 else i) = Some y.
Proof.
  intros Ha Hb C. unfold bpairs. destruct (Nat.eqb_spec (length a) (length b)) as [E|E].
  - exists (combine a b). split; auto. split; [destruct a, b; simpl; congruence|]. intros x y. rewrite <- E.
    assert (G : forall (l : list A) (m : list B), length l = length m -> (In (x, y) (combine l m) <-> exists i, nth_error l i = Some x /\ nth_error m i = Some y)).
    { clear. induction l as [|u l IH]; intros [|v m] L; try discriminate L; simpl. { split; [tauto|]. intros (i & H & _). destruct i; discriminate. }
      rewrite IH by (simpl in L; lia). split.
      - intros [H|(i & H1 & H2)]; [injection H as -> ->; exists 0%nat; auto|exists (S i); auto].
      - intros ([|i] & H1 & H2); simpl in H1, H2; [left; congruence|right; eauto]. }
    rewrite G by auto. destruct (Nat.eqb_spec (length a) 1) as [L|L]; [|reflexivity].
    destruct a as [|u [|]]; try discriminate L. destruct b as [|v [|]]; try discriminate E. split.
    + intros ([|[|i]] & H1 & H2); try discriminate. exists 0%nat. auto.
    + intros (i & H1 & H2). exists 0%nat. auto.
  - destruct C as [C|[C|C]]; [contradiction| |].
    + destruct a as [|u [|]]; try discriminate C. exists (map (fun y => (u, y)) b). split; [reflexivity|]. split; [destruct b; simpl; congruence|]. intros x y.
      assert (Lb : Nat.eqb (length b) 1 = false) by (apply Nat.eqb_neq; simpl in E; lia). rewrite Lb. cbn [length Nat.eqb nth_error]. rewrite in_map_iff. split.
      * intros (z & H & I). injection H as -> ->. apply In_nth_error in I as (i & I). exists i. auto.
      * intros (i & H1 & H2). exists y. split; [congruence|eapply nth_error_In; eauto].
    + destruct b as [|v [|]]; try discriminate C. assert (La : Nat.eqb (length a) 1 = false) by (apply Nat.eqb_neq; simpl in E; lia).
      exists (map (fun x => (x, v)) a). split. { destruct a as [|u [|]]; [contradiction|discriminate La|reflexivity]. }
      split; [destruct a; simpl; congruence|]. intros x y. rewrite La. cbn [length Nat.eqb nth_error]. rewrite in_map_iff. split.
      * intros (z & H & I). injection H as -> ->. apply In_nth_error in I as (i & I). exists i. auto.
      * intros (i & H1 & H2). exists x. split; [congruence|eapply nth_error_In; eauto].
Qed.
Lemma bpairs_bad {A B} (a : list A) (b : list B) : ~ (length a = length b \/ length a = 1%nat \/ length b = 1%nat) -> bpairs a b = Raise err_broadcast.
Proof.
  intro C. unfold bpairs. destruct (Nat.eqb_spec (length a) (length b)) as [E|E]; [tauto|]. destruct a as [|? [|]], b as [|? [|]]; simpl in C; tauto.
Qed.

Lemma mapM_exists {A B} (f : A -> res B) (P : A -> B -> Prop) l : (forall x, In x l -> exists y, f x = Ok y /\ P x y) -> exists ys, mapM f l = Ok ys /\ Forall2 P l ys.
Proof.
  induction l as [|x l IH]; intro H. { exists []. split; constructor. }
  destruct (H x ltac:(left; auto)) as (y & E & Py). destruct IH as (ys & Es & F); [intros; apply H; right; auto|]. exists (y :: ys). cbn [mapM]. rewrite E. cbn [bind]. rewrite Es. split; [reflexivity|constructor; auto].
Qed.
Lemma mapM_raise {A B} (f : A -> res B) l e : l <> [] -> (forall x, In x l -> f x = Raise e) -> mapM f l = Raise e.
Proof. destruct l as [|x l]; [contradiction|]. intros _ H. cbn [mapM]. rewrite H by (left; auto). reflexivity. Qed.

Lemma at_index_dim (a : nd N) s : has_shape a s -> forall idx x, at_index a idx = Some x -> length idx = length s.
Proof.
  intro H. induction H as [x| |l s Hne _ IH]; intros idx y E.
  - destruct idx; [auto|discriminate]. - destruct idx as [|i idx]; [discriminate|]. cbn [at_index length Nat.eqb] in E. destruct i; discriminate.
  - destruct idx as [|i idx]; [discriminate|]. cbn [at_index] in E. destruct (nth_error l _) as [b|] eqn:Eb; [|discriminate]. cbn [length]. f_equal. eapply IH; eauto. eapply nth_error_In; eauto.
Qed.

Lemma last_axes_all (k : nat) idx : length idx = k -> last_axes k idx = idx.
Proof. intro H. unfold last_axes. replace (length idx - k)%nat with 0%nat by lia. reflexivity. Qed.
Lemma last_axes_cons (k i : nat) idx : (k <= length idx)%nat -> last_axes k (i :: idx) = last_axes k idx.
Proof. intro H. unfold last_axes. cbn [length]. replace (S (length idx) - k)%nat with (S (length idx - k)) by lia. reflexivity. Qed.

Lemma compatible_tail_l (n : nat) sa sb : (length sb <= length sa)%nat -> (compatible (n :: sa) sb <-> compatible sa sb).
Proof.
  intro L. unfold compatible. cbn [rev]. split; intros H k x y H1 H2.
  - apply (H k); auto. rewrite nth_error_app1; auto. apply nth_error_Some. congruence.
  - apply (H k); auto. assert (k < length (rev sb))%nat by (apply nth_error_Some; congruence). rewrite rev_length in *. rewrite nth_error_app1 in H1; auto. rewrite rev_length. lia.
Qed.
Lemma compatible_sym sa sb : compatible sa sb -> compatible sb sa.
Proof. intros H k x y H1 H2. destruct (H k y x H2 H1) as [|[|]]; auto. Qed.
Lemma compatible_tail_r (n : nat) sa sb : (length sa <= length sb)%nat -> (compatible sa (n :: sb) <-> compatible sa sb).
Proof. intro L. split; intro H; apply compatible_sym; apply (compatible_tail_l n sb sa L); apply compatible_sym; exact H. Qed.
Lemma compatible_cons (m n : nat) sa sb : length sa = length sb -> (compatible (m :: sa) (n :: sb) <-> (m = n \/ m = 1%nat \/ n = 1%nat) /\ compatible sa sb).
Proof.
  intro L. unfold compatible. cbn [rev]. split.
  - intro H. split. { apply (H (length sa)); rewrite nth_error_app2; rewrite rev_length; try lia; [rewrite Nat.sub_diag|rewrite L, Nat.sub_diag]; reflexivity. }
    intros k x y H1 H2. apply (H k); rewrite nth_error_app1; auto; apply nth_error_Some; congruence.
  - intros (H0 & H) k x y H1 H2. assert (Lk : (k < length (rev sa ++ [m]))%nat) by (apply nth_error_Some; congruence). rewrite app_length, rev_length in Lk. cbn [length] in Lk.
    destruct (Nat.eq_dec k (length sa)) as [->|Nk].
    + rewrite nth_error_app2 in H1, H2; rewrite rev_length in *; try lia. rewrite L, Nat.sub_diag in H2. rewrite Nat.sub_diag in H1. cbn in H1, H2. congruence.
    + rewrite nth_error_app1 in H1, H2; rewrite ?rev_length; try lia. eauto.
Qed.

(** Compatible arrays broadcast to the pairs that meet; others raise. *)
Lemma broadcast_ok fuel : forall (a b : nd N) sa sb, has_shape a sa -> has_shape b sb -> positive sa -> positive sb -> (length sa + length sb < fuel)%nat ->
  (compatible sa sb -> exists ps, broadcast_pairs fuel a b = Ok ps /\ ps <> [] /\ forall x y, In (x, y) ps <-> meets a sa b sb x y) /\
  (~ compatible sa sb -> broadcast_pairs fuel a b = Raise err_broadcast).
Proof.
  induction fuel as [|fuel IH]; intros a b sa sb Ha Hb Pa Pb Hf; [lia|].
  assert (Left : forall (l : list (nd N)) s, l <> [] -> (forall c, In c l -> has_shape c s) -> positive s -> (length sb <= length s)%nat -> (length s + length sb < fuel)%nat ->
     (compatible s sb -> exists ps, (let* ps := mapM (fun x => broadcast_pairs fuel x b) l in Ok (concat ps)) = Ok ps /\ ps <> [] /\ forall x y, In (x, y) ps <-> meets (Ar l) (length l :: s) b sb x y) /\
     (~ compatible s sb -> (let* ps := mapM (fun x => broadcast_pairs fuel x b) l in Ok (concat ps)) = Raise err_broadcast)).
  { intros l s Hne Hl Ps Ls Lf. split; intro C.
    - destruct (mapM_exists (fun x => broadcast_pairs fuel x b) (fun x ps => ps <> [] /\ forall u v, In (u, v) ps <-> meets x s b sb u v) l) as (ys & -> & F).
      { intros x Hx. destruct (IH x b s sb (Hl x Hx) Hb Ps Pb Lf) as (K & _). destruct (K C) as (ps & E & E2). eauto. }
      cbn [bind]. exists (concat ys). split; [reflexivity|]. split. { destruct F as [|x ps ? ? (Q & _)]; [contradiction|]. cbn [concat]. destruct ps; [contradiction|discriminate]. }
      intros u v. unfold meets. rewrite (Nat.max_l (length (length l :: s))) by (cbn [length]; lia). split.
      + intro I. apply in_concat in I as (ps & I1 & I2). assert (Q : exists i x, nth_error l i = Some x /\ In (u, v) ps /\ (forall u v, In (u, v) ps <-> meets x s b sb u v)).
        { clear - F I1 I2. induction F as [|x q l ys (_ & F0) F IHF]; [destruct I1|]. destruct I1 as [->|I1]; [exists 0%nat, x; auto|]. destruct (IHF I1) as (i & z & E). exists (S i), z. exact E. }
        destruct Q as (i & x & Ei & _ & Q). apply Q in I2 as (idx & Lx & E1 & E2). rewrite (Nat.max_l _ _ Ls) in Lx. exists (i :: idx). split; [cbn [length]; congruence|].
        rewrite last_axes_all in E1 by auto. rewrite (last_axes_all (length (length l :: s))) by (cbn [length]; congruence). rewrite last_axes_cons by lia. split; auto. cbn [at_index].
        destruct (Nat.eqb_spec (length l) 1) as [L1|L1]; [destruct l as [|z [|]]; try discriminate L1; destruct i as [|[|]]; try discriminate Ei; injection Ei as ->; exact E1|rewrite Ei; exact E1].
      + intros (idx & Lx & E1 & E2). destruct idx as [|i idx]; [discriminate Lx|]. cbn [length] in Lx. injection Lx as Lx. rewrite (last_axes_all (length (length l :: s))) in E1 by (cbn [length]; congruence).
        rewrite last_axes_cons in E2 by lia. cbn [at_index] in E1. destruct (nth_error l _) as [x|] eqn:Ex; [|discriminate]. apply in_concat.
        assert (Q : exists ps, In ps ys /\ (forall u v, In (u, v) ps <-> meets x s b sb u v)).
        { apply nth_error_In in Ex. clear - F Ex. induction F as [|z q l ys (_ & F0) F IHF]; [destruct Ex|]. destruct Ex as [->|Ex]; [exists q; split; [left; auto|auto]|]. destruct (IHF Ex) as (p & I & E). exists p. split; [right; auto|auto]. }
        destruct Q as (ps & I & Q). exists ps. split; auto. apply Q. exists idx. rewrite (Nat.max_l _ _ Ls). rewrite (last_axes_all (length s)) by auto. auto.
    - rewrite (mapM_raise _ l err_broadcast); auto. intros x Hx. apply (IH x b s sb (Hl x Hx) Hb Ps Pb Lf). auto. }
  assert (Right : forall (l : list (nd N)) s, l <> [] -> (forall c, In c l -> has_shape c s) -> positive s -> (length sa <= length s)%nat -> (length sa + length s < fuel)%nat ->
     (compatible sa s -> exists ps, (let* ps := mapM (fun y => broadcast_pairs fuel a y) l in Ok (concat ps)) = Ok ps /\ ps <> [] /\ forall x y, In (x, y) ps <-> meets a sa (Ar l) (length l :: s) x y) /\
     (~ compatible sa s -> (let* ps := mapM (fun y => broadcast_pairs fuel a y) l in Ok (concat ps)) = Raise err_broadcast)).
  { intros l s Hne Hl Ps Ls Lf. split; intro C.
    - destruct (mapM_exists (fun x => broadcast_pairs fuel a x) (fun x ps => ps <> [] /\ forall u v, In (u, v) ps <-> meets a sa x s u v) l) as (ys & -> & F).
      { intros x Hx. destruct (IH a x sa s Ha (Hl x Hx) Pa Ps Lf) as (K & _). destruct (K C) as (ps & E & E2). eauto. }
      cbn [bind]. exists (concat ys). split; [reflexivity|]. split. { destruct F as [|x ps ? ? (Q & _)]; [contradiction|]. cbn [concat]. destruct ps; [contradiction|discriminate]. }
      intros u v. unfold meets. rewrite (Nat.max_r _ (length (length l :: s))) by (cbn [length]; lia). split.
      + intro I. apply in_concat in I as (ps & I1 & I2). assert (Q : exists i x, nth_error l i = Some x /\ In (u, v) ps /\ (forall u v, In (u, v) ps <-> meets a sa x s u v)).
        { clear - F I1 I2. induction F as [|x q l ys (_ & F0) F IHF]; [destruct I1|]. destruct I1 as [->|I1]; [exists 0%nat, x; auto|]. destruct (IHF I1) as (i & z & E). exists (S i), z. exact E. }
        destruct Q as (i & x & Ei & _ & Q). apply Q in I2 as (idx & Lx & E1 & E2). rewrite (Nat.max_r _ _ Ls) in Lx. exists (i :: idx). split; [cbn [length]; congruence|].
        rewrite (last_axes_all (length s)) in E2 by auto. rewrite (last_axes_all (length (length l :: s))) by (cbn [length]; congruence). rewrite last_axes_cons by lia. split; auto. cbn [at_index].
        destruct (Nat.eqb_spec (length l) 1) as [L1|L1]; [destruct l as [|z [|]]; try discriminate L1; destruct i as [|[|]]; try discriminate Ei; injection Ei as ->; exact E2|rewrite Ei; exact E2].
      + intros (idx & Lx & E1 & E2). destruct idx as [|i idx]; [discriminate Lx|]. cbn [length] in Lx. injection Lx as Lx. rewrite (last_axes_all (length (length l :: s))) in E2 by (cbn [length]; congruence).
        rewrite last_axes_cons in E1 by lia. cbn [at_index] in E2. destruct (nth_error l _) as [x|] eqn:Ex; [|discriminate]. apply in_concat.
        assert (Q : exists ps, In ps ys /\ (forall u v, In (u, v) ps <-> meets a sa x s u v)).
        { apply nth_error_In in Ex. clear - F Ex. induction F as [|z q l ys (_ & F0) F IHF]; [destruct Ex|]. destruct Ex as [->|Ex]; [exists q; split; [left; auto|auto]|]. destruct (IHF Ex) as (p & I & E). exists p. split; [right; auto|auto]. }
        destruct Q as (ps & I & Q). exists ps. split; auto. apply Q. exists idx. rewrite (Nat.max_r _ _ Ls). rewrite (last_axes_all (length s)) by auto. auto.
    - rewrite (mapM_raise _ l err_broadcast); auto. intros x Hx. apply (IH a x sa s Ha (Hl x Hx) Pa Ps Lf). auto. }
  inversion Ha as [x Ex Es|Ex Es|la s Hne Hla Ex Es]; subst; [|inversion Pa; lia|]; inversion Hb as [y Ey Et|Ey Et|lb s' Hne' Hlb Ey Et]; subst; try (inversion Pb; lia).
  - split; [|intro C; exfalso; apply C; intros k m n E; destruct k; discriminate]. intros _. exists [(x, y)]. split; [reflexivity|]. split; [discriminate|]. intros u v. split.
    + intros [E|[]]. injection E as -> ->. exists []. auto.
    + intros (idx & Lx & E1 & E2). destruct idx; [|discriminate]. cbn in E1, E2. left. congruence.
  - inversion Pb; subst. destruct (Right lb s') as (R1 & R2); auto; try (cbn [length] in *; lia). cbn [broadcast_pairs]. split; intro C.
    + apply R1. apply compatible_tail_r in C; auto; cbn [length]; lia. + apply R2. intro C'. apply C. apply compatible_tail_r; auto; cbn [length]; lia.
  - inversion Pa; subst. destruct (Left la s) as (R1 & R2); auto; try (cbn [length] in *; lia). cbn [broadcast_pairs]. split; intro C.
    + apply R1. apply compatible_tail_l in C; auto; cbn [length]; lia. + apply R2. intro C'. apply C. apply compatible_tail_l; auto; cbn [length]; lia.
  - inversion Pa as [|? ? Pa0 Pa1]; inversion Pb as [|? ? Pb0 Pb1]; subst. cbn [broadcast_pairs]. rewrite (ndim_shape _ _ Ha), (ndim_shape _ _ Hb). cbn [length] in Hf |- *.
    destruct (Nat.ltb_spec (S (length s')) (S (length s))) as [L1|L1].
    { destruct (Left la s) as (R1 & R2); auto; try (cbn [length] in *; lia). split; intro C.
      + apply R1. apply compatible_tail_l in C; auto; cbn [length]; lia. + apply R2. intro C'. apply C. apply compatible_tail_l; auto; cbn [length]; lia. }
    destruct (Nat.ltb_spec (S (length s)) (S (length s'))) as [L2|L2].
    { destruct (Right lb s') as (R1 & R2); auto; try (cbn [length] in *; lia). split; intro C.
      + apply R1. apply compatible_tail_r in C; auto; cbn [length]; lia. + apply R2. intro C'. apply C. apply compatible_tail_r; auto; cbn [length]; lia. }
    assert (L : length s = length s') by lia. clear L1 L2. rewrite compatible_cons by auto. split.
    + intros (C0 & C). destruct (bpairs_ok la lb Hne Hne' C0) as (rs & -> & Hrs & Irs). cbn [bind].
      destruct (mapM_exists (fun r => broadcast_pairs fuel (fst r) (snd r)) (fun r ps => ps <> [] /\ forall u v, In (u, v) ps <-> meets (fst r) s (snd r) s' u v) rs) as (ys & -> & F).
      { intros (x, y) Hx. apply Irs in Hx as (i & E1 & E2). cbn [fst snd].
        destruct (IH x y s s' (Hla _ (nth_error_In _ _ E1)) (Hlb _ (nth_error_In _ _ E2)) Pa1 Pb1 ltac:(lia)) as (K & _). destruct (K C) as (ps & E & E3). eauto. }
      cbn [bind]. exists (concat ys). split; [reflexivity|]. split. { destruct F as [|x ps ? ? (Q & _)]; [contradiction|]. cbn [concat]. destruct ps; [contradiction|discriminate]. }
      intros u v. unfold meets. cbn [length]. rewrite L, Nat.max_id. split.
      * intro I. apply in_concat in I as (ps & I1 & I2). assert (Q : exists r, In r rs /\ (forall u v, In (u, v) ps <-> meets (fst r) s (snd r) s' u v)).
        { clear - F I1. induction F as [|x q l ys (_ & F0) F IHF]; [destruct I1|]. destruct I1 as [->|I1]; [exists x; split; [left|]; auto|]. destruct (IHF I1) as (z & I & E). exists z. split; [right|]; auto. }
        destruct Q as ((x, y) & Ir & Q). pose proof (proj1 (Q u v) I2) as I3. cbn [fst snd] in I3. destruct I3 as (idx & Lx & E1 & E2). apply Irs in Ir as (i & Ei1 & Ei2). rewrite L, Nat.max_id in Lx. exists (i :: idx). split; [cbn [length]; congruence|].
        rewrite last_axes_all in E1, E2 by congruence. rewrite !last_axes_all by (cbn [length]; congruence). cbn [at_index]. rewrite Ei1, Ei2. auto.
      * intros (idx & Lx & E1 & E2). destruct idx as [|i idx]; [discriminate Lx|]. cbn [length] in Lx. injection Lx as Lx. rewrite last_axes_all in E1, E2 by (cbn [length]; congruence). cbn [at_index] in E1, E2.
        destruct (nth_error la _) as [x|] eqn:Ex; [|discriminate]. destruct (nth_error lb _) as [y|] eqn:Ey; [|discriminate]. apply in_concat.
        assert (Q : exists ps, In ps ys /\ (forall u v, In (u, v) ps <-> meets x s y s' u v)).
        { assert (I : In (x, y) rs) by (apply Irs; eauto). clear - F I. induction F as [|z q l ys (_ & F0) F IHF]; [destruct I|]. destruct I as [->|I]; [exists q; split; [left|]; auto|]. destruct (IHF I) as (p & I' & E). exists p. split; [right|]; auto. }
        destruct Q as (ps & I & Q). exists ps. split; auto. apply Q. exists idx. rewrite L, Nat.max_id. rewrite !last_axes_all by congruence. auto.
    + intro C. destruct (Nat.eq_dec (length la) (length lb)) as [E0|E0]; [|destruct (Nat.eq_dec (length la) 1) as [E1|E1]; [|destruct (Nat.eq_dec (length lb) 1) as [E2|E2]; [|rewrite bpairs_bad by tauto; reflexivity]]].
      all: destruct (bpairs_ok la lb Hne Hne') as (rs & -> & Hrs & Irs); [tauto|]; cbn [bind];
        rewrite (mapM_raise _ rs err_broadcast); auto; intros (x, y) Hx; apply Irs in Hx as (i & I1 & I2); cbn [fst snd];
        apply (IH x y s s' (Hla _ (nth_error_In _ _ I1)) (Hlb _ (nth_error_In _ _ I2)) Pa1 Pb1); [lia|tauto].
Qed.

Lemma flat_nonempty (a : nd N) s : has_shape a s -> (positive s -> flat a <> []) /\ (flat a <> [] -> positive s).
Proof.
  intro H. induction H as [x| |l s Hne _ IH]; split; intro P.
  - discriminate. - constructor. - inversion P; lia. - contradiction.
  - destruct l as [|b l]; [contradiction|]. cbn [flat flat_map]. inversion P; subst. destruct (IH b ltac:(left; auto)) as (K & _). specialize (K H2). destruct (flat b); [contradiction|discriminate].
  - constructor. { destruct l; [contradiction|simpl; lia]. } destruct l as [|b l]; [contradiction|]. cbn [flat] in P.
    assert (Q : exists c, In c (b :: l) /\ flat c <> []). { clear - P. set (m := b :: l) in *. clearbody m. induction m as [|c m IHm]; [contradiction|]. cbn [flat_map] in P. destruct (flat c) as [|x f] eqn:E.
      - destruct IHm as (z & I & E'); [exact P|]. exists z. split; [right|]; auto. - exists c. split; [left; auto|]. rewrite E. discriminate. }
    destruct Q as (c & I & E). exact (proj2 (IH c I) E).
Qed.
End General.

Local Open Scope R_scope.
(** is_close against any array_like, over the reals: the entries that meet under broadcasting must all be close. *)
Theorem C04_is_close_any_operand : forall (t : tol RNum) (a b : nd RNum) (sa sb : list nat),
  0 <= rel_tol t -> 0 <= abs_tol t -> has_shape a sa -> has_shape b sb ->
  (~ In 0%nat sa -> ~ In 0%nat sb -> compatible sa sb -> exists r, is_close_any t a b = Ok r /\
     (r = true <-> forall x y, meets a sa b sb x y -> Rabs (x - y) <= Rmax (rel_tol t * Rmax (Rabs x) (Rabs y)) (abs_tol t))) /\
  (~ In 0%nat sa -> ~ In 0%nat sb -> ~ compatible sa sb -> exists m, is_close_any t a b = Raise (ValueError m)) /\
  (In 0%nat sa \/ In 0%nat sb -> exists m, is_close_any t a b = Raise (ValueError m)).
Proof.
  intros t a b sa sb Hr Ha Sa Sb. assert (Ht : tol_ok t) by (split; auto).
  assert (Pos : forall s, ~ In 0%nat s -> positive s). { intros s H. apply Forall_forall. intros n I. destruct n; [contradiction|lia]. }
  assert (U : is_close_any t a b = match flat a, flat b with
      | x :: _, y :: _ => let* _ := isclose t x y in let* ps := broadcast_pairs (S (ndim a + ndim b)) a b in allclose_pairs t ps | _, _ => Raise err_vectorize end).
  { unfold is_close_any. rewrite (has_shape_shape _ _ Sa), (has_shape_shape _ _ Sb). reflexivity. }
  assert (V : positive sa -> positive sb -> is_close_any t a b = let* ps := broadcast_pairs (S (ndim a + ndim b)) a b in allclose_pairs t ps).
  { intros Pa Pb. rewrite U. pose proof (proj1 (flat_nonempty a sa Sa) Pa) as Fa. pose proof (proj1 (flat_nonempty b sb Sb) Pb) as Fb.
    destruct (flat a) as [|x ?]; [contradiction|]. destruct (flat b) as [|y ?]; [contradiction|]. destruct (isclose_R t x y Ht) as (r & -> & _). reflexivity. }
  assert (Lf : (length sa + length sb < S (ndim a + ndim b))%nat) by (rewrite (ndim_shape _ _ Sa), (ndim_shape _ _ Sb); lia).
  split; [|split].
  - intros Za Zb C. destruct (broadcast_ok _ a b sa sb Sa Sb (Pos _ Za) (Pos _ Zb) Lf) as (K & _). destruct (K C) as (ps & E & Hne & I).
    rewrite V by auto. rewrite E. cbn [bind]. destruct (allclose_pairs_R t ps Ht Hne) as (r & Er & Hr'). exists r. split; [exact Er|]. rewrite Hr', Forall_forall. split.
    + intros H x y M. apply I in M. exact (H _ M). + intros H (x, y) M. apply I in M. exact (H _ _ M).
  - intros Za Zb C. destruct (broadcast_ok _ a b sa sb Sa Sb (Pos _ Za) (Pos _ Zb) Lf) as (_ & K). rewrite V by auto. rewrite (K C). eexists; reflexivity.
  - intro Z. exists "cannot call `vectorize` on size 0 inputs unless `otypes` is set"%string. rewrite U. destruct Z as [Z|Z].
    + destruct (flat a) as [|x f] eqn:E; [reflexivity|]. exfalso. assert (P : positive sa) by (apply (proj2 (flat_nonempty a sa Sa)); rewrite E; discriminate). unfold positive in P. rewrite Forall_forall in P. specialize (P _ Z). lia.
    + destruct (flat a) as [|x f]; [reflexivity|]. destruct (flat b) as [|y g] eqn:E; [reflexivity|]. exfalso. assert (P : positive sb) by (apply (proj2 (flat_nonempty b sb Sb)); rewrite E; discriminate). unfold positive in P. rewrite Forall_forall in P. specialize (P _ Z). lia.
Qed.
Print Assumptions C04_is_close_any_operand.

(** Ragged operands and negative tolerances raise; comparing is symmetric and reflexive for every shape. *)
Theorem C04_is_close_any_raises : forall (t : tol RNum) (a b : nd RNum),
  ((~ exists s, has_shape a s) \/ (~ exists s, has_shape b s) -> exists m, is_close_any t a b = Raise (ValueError m)) /\
  (rel_tol t < 0 \/ abs_tol t < 0 -> exists m, is_close_any t a b = Raise (ValueError m)).
Proof.
  intros t a b. unfold is_close_any. split; intro H.
  - destruct H as [H|H]; apply shape_none in H; rewrite H; [|destruct (shape a)]; eexists; reflexivity.
  - destruct (shape a); [|eexists; reflexivity]. destruct (shape b); [|eexists; reflexivity]. destruct (flat a) as [|x ?]; [eexists; reflexivity|]. destruct (flat b) as [|y ?]; [eexists; reflexivity|].
    rewrite isclose_neg by (unfold tol_ok; lra). eexists; reflexivity.
Qed.
Print Assumptions C04_is_close_any_raises.

Lemma meets_sym (a b : nd RNum) sa sb x y : meets a sa b sb x y <-> meets b sb a sa y x.
Proof. unfold meets. split; intros (idx & L & E1 & E2); exists idx; rewrite Nat.max_comm; auto. Qed.
Theorem C04_is_close_any_sym : forall (t : tol RNum) (a b : nd RNum) (sa sb : list nat),
  0 <= rel_tol t -> 0 <= abs_tol t -> has_shape a sa -> has_shape b sb -> ~ In 0%nat sa -> ~ In 0%nat sb ->
  (compatible sa sb -> is_close_any t a b = is_close_any t b a) /\ is_close_any t a a = Ok true.
Proof.
  intros t a b sa sb Hr Ha Sa Sb Za Zb. split.
  - intro C. destruct (C04_is_close_any_operand t a b sa sb Hr Ha Sa Sb) as (K1 & _). destruct (K1 Za Zb C) as (r1 & -> & E1).
    destruct (C04_is_close_any_operand t b a sb sa Hr Ha Sb Sa) as (K2 & _). destruct (K2 Zb Za (compatible_sym _ _ C)) as (r2 & -> & E2).
    f_equal. apply eq_true_iff_eq. rewrite E1, E2. split; intros H x y M; apply meets_sym in M; apply (close_sym (rel_tol t) (abs_tol t)); exact (H _ _ M).
  - destruct (C04_is_close_any_operand t a a sa sa Hr Ha Sa Sa) as (K1 & _). destruct (K1 Za Za) as (r1 & -> & E1).
    { intros k m n H1 H2. left. congruence. }
    f_equal. apply E1. intros x y (idx & _ & Ex & Ey). assert (x = y) by congruence. subst y. apply (close_refl (rel_tol t) (abs_tol t)); auto.
Qed.
Print Assumptions C04_is_close_any_sym.

(** A scalar operand is compared with every coordinate. *)
Theorem C04_is_close_scalar : forall (t : tol RNum) (a : pt) (y : R), 0 <= rel_tol t -> 0 <= abs_tol t -> a <> [] ->
  exists r, is_close_any t (nd_of_vec a) (Sc (N:=RNum) y) = Ok r /\ is_close_any t (Sc (N:=RNum) y) (nd_of_vec a) = Ok r /\ is_close_any t (nd_of_vec a) (nd_of_vec [y]) = Ok r /\
    (r = true <-> Forall (fun x => Rabs (x - y) <= Rmax (rel_tol t * Rmax (Rabs x) (Rabs y)) (abs_tol t)) a).
Proof.
  intros t a y Hr Ha Hne.
  assert (Sa : has_shape (nd_of_vec (N:=RNum) a) [length a]).
  { replace (length a) with (length (map (Sc (N:=RNum)) a)) by apply map_length. apply hs_array; [destruct a; [contradiction|discriminate]|]. intros b I. apply in_map_iff in I as (x & <- & _). constructor. }
  assert (Sy : has_shape (Sc (N:=RNum) y) []) by constructor.
  assert (Sv : has_shape (nd_of_vec (N:=RNum) [y]) [1%nat]). { apply (hs_array (N:=RNum) [Sc (N:=RNum) y] []); [discriminate|]. intros b [<-|[]]. constructor. }
  assert (Za : ~ In 0%nat [length a]). { intros [H|[]]. destruct a; [contradiction|discriminate H]. }
  destruct (C04_is_close_any_operand t _ _ _ _ Hr Ha Sa Sy) as (K & _). destruct (K Za (fun x => x)) as (r & Er & E). { intros k m n H1 H2. destruct k; discriminate. }
  destruct (C04_is_close_any_operand t _ _ _ _ Hr Ha Sa Sv) as (K' & _). destruct (K' Za) as (r' & Er' & E'). { intros [H|[]]. discriminate. }
  { intros k m n H1 H2. destruct k as [|[|]]; try discriminate. injection H2 as <-. auto. }
  assert (M : forall x i, nth_error a i = Some x -> at_index (nd_of_vec (N:=RNum) a) [i] = Some x).
  { intros x i I. unfold nd_of_vec. cbn [at_index]. rewrite map_length. rn. destruct (Nat.eqb_spec (length a) 1) as [L1|L1].
    - destruct a as [|u [|]]; try discriminate L1. destruct i as [|[|]]; try discriminate I. injection I as <-. reflexivity.
    - rewrite nth_error_map. rn. rewrite I. reflexivity. }
  assert (M' : forall x i, at_index (nd_of_vec (N:=RNum) a) [i] = Some x -> In x a).
  { intros x i I. unfold nd_of_vec in I. cbn [at_index] in I. match type of I with match ?e with _ => _ end = _ => destruct e as [c|] eqn:En; [|discriminate I] end.
    apply nth_error_In, in_map_iff in En as (z & <- & I'). cbn in I. injection I as <-. exact I'. }
  assert (Q : r = true <-> Forall (fun x => Rabs (x - y) <= Rmax (rel_tol t * Rmax (Rabs x) (Rabs y)) (abs_tol t)) a).
  { rewrite E, Forall_forall. split.
    - intros H x I. apply In_nth_error in I as (i & I). apply H. exists [i]. cbn [length]. split; [reflexivity|]. split; [apply M, I|reflexivity].
    - intros H x z (idx & L & E1 & E2). cbn [length] in L. destruct idx as [|i [|]]; try discriminate L. cbn in E2. injection E2 as <-. apply H. exact (M' _ _ E1). }
  exists r. split; [exact Er|]. split; [|split; [|exact Q]].
  - rewrite <- Er. symmetry. apply (C04_is_close_any_sym t _ _ _ _ Hr Ha Sa Sy Za (fun x => x)). intros k m n H1 H2. destruct k; discriminate.
  - rewrite Er'. f_equal. apply eq_true_iff_eq. rewrite Q, E', Forall_forall. split.
    + intros H x I. apply In_nth_error in I as (i & I). apply H. exists [i]. cbn [length]. split; [reflexivity|]. split; [apply M, I|reflexivity].
    + intros H x z (idx & L & E1 & E2). cbn [length] in L. destruct idx as [|i [|]]; try discriminate L. cbn in E2. injection E2 as <-. apply H. exact (M' _ _ E1).
Qed.
Print Assumptions C04_is_close_scalar.

(** The 1D and 2D comparisons used in the rest of the model are instances (for every numeric type). *)
Lemma bpairs_map {A B C D} (f : A -> C) (g : B -> D) a b : bpairs (map f a) (map g b) = let* ps := bpairs a b in Ok (map (fun p => (f (fst p), g (snd p))) ps).
Proof.
  unfold bpairs. rewrite !map_length. destruct (Nat.eqb (length a) (length b)); cbn [bind].
  - f_equal. revert b. induction a as [|x a IH]; intros [|y b]; cbn [map combine]; auto. f_equal. apply IH.
  - destruct a as [|x [|x' a]], b as [|y [|y' b]]; cbn [map bind]; try reflexivity; rewrite ?map_map; reflexivity.
Qed.
Lemma bcast_scalars {N : Num} fuel (ps : list (N * N)) : mapM (fun r : nd N * nd N => broadcast_pairs (S fuel) (fst r) (snd r)) (map (fun p => (Sc (fst p), Sc (snd p))) ps) = Ok (map (fun p => [p]) ps).
Proof. induction ps as [|[x y] ps IH]; [reflexivity|]. cbn [map mapM fst snd broadcast_pairs bind] in *. rewrite IH. reflexivity. Qed.
Lemma concat_single {A} (l : list A) : concat (map (fun p => [p]) l) = l.
Proof. induction l; simpl; congruence. Qed.
Lemma ndim_vec {N : Num} (v : vec N) : ndim (nd_of_vec v) = 1%nat.
Proof. destruct v; reflexivity. Qed.
Lemma bp_step {N : Num} fuel (la lb : list (nd N)) : broadcast_pairs (S fuel) (Ar la) (Ar lb) =
  if Nat.ltb (ndim (Ar lb)) (ndim (Ar la)) then let* ps := mapM (fun x => broadcast_pairs fuel x (Ar lb)) la in Ok (concat ps)
  else if Nat.ltb (ndim (Ar la)) (ndim (Ar lb)) then let* ps := mapM (fun y => broadcast_pairs fuel (Ar la) y) lb in Ok (concat ps)
  else let* rs := bpairs la lb in let* ps := mapM (fun r => broadcast_pairs fuel (fst r) (snd r)) rs in Ok (concat ps).
Proof. reflexivity. Qed.
Lemma bcast_vecs {N : Num} fuel (a b : vec N) : broadcast_pairs (S (S fuel)) (nd_of_vec a) (nd_of_vec b) = bpairs a b.
Proof.
  unfold nd_of_vec. rewrite bp_step. fold (nd_of_vec a) (nd_of_vec b). rewrite !ndim_vec. cbn [Nat.ltb Nat.leb]. rewrite bpairs_map.
  destruct (bpairs a b) as [ps| |]; [|reflexivity|reflexivity]. cbn [bind]. rewrite (bcast_scalars fuel). cbn [bind]. rewrite concat_single. reflexivity.
Qed.
Lemma bcast_rows {N : Num} fuel (ps : list (vec N * vec N)) :
  mapM (fun r : nd N * nd N => broadcast_pairs (S (S fuel)) (fst r) (snd r)) (map (fun p => (nd_of_vec (fst p), nd_of_vec (snd p))) ps) = mapM (fun r => bpairs (fst r) (snd r)) ps.
Proof. induction ps as [|[x y] ps IH]; [reflexivity|]. cbn [map mapM fst snd]. rewrite (bcast_vecs fuel). cbn [fst snd] in IH. rewrite IH. reflexivity. Qed.
Lemma shape_vec {N : Num} (v : vec N) : shape (nd_of_vec v) = Some [length v].
Proof.
  destruct v as [|x v]; [reflexivity|]. unfold nd_of_vec. cbn [map shape]. rewrite map_map. cbn [shape].
  rewrite (proj2 (forallb_forall _ _)); [cbn [option_map length]; rewrite map_length; reflexivity|]. intros s I. apply in_map_iff in I as (y & <- & _). reflexivity.
Qed.
Lemma shape_rows {N : Num} (rows : list (vec N)) d : rows <> [] -> Forall (fun r => length r = d) rows -> shape (nd_of_rows rows) = Some [length rows; d].
Proof.
  intros Hne F. apply has_shape_shape. unfold nd_of_rows. rewrite <- (map_length nd_of_vec). apply hs_array; [destruct rows; [contradiction|discriminate]|].
  intros b I. apply in_map_iff in I as (r & <- & I). rewrite Forall_forall in F. rewrite <- (F r I). apply shape_has_shape, shape_vec.
Qed.
Lemma flat_vec {N : Num} (v : vec N) : flat (nd_of_vec v) = v.
Proof. induction v; cbn; f_equal; auto. Qed.

Lemma bpairs_head {A B} (x : A) (y : B) a b : (length (x :: a) = length (y :: b) \/ length (x :: a) = 1%nat \/ length (y :: b) = 1%nat) -> exists ps, bpairs (x :: a) (y :: b) = Ok ((x, y) :: ps).
Proof.
  intro C. unfold bpairs. destruct (Nat.eqb_spec (length (x :: a)) (length (y :: b))) as [L|L]; [eexists; reflexivity|]. destruct C as [C|[C|C]]; [contradiction| |].
  - destruct a; [eexists; reflexivity|discriminate C].
  - destruct b; [|discriminate C]. destruct a; eexists; reflexivity.
Qed.
Theorem C04_is_close_instances : forall (N : Num) (t : tol N) (a b : vec N) (A B : list (vec N)) (d d' : nat),
  (a <> [] -> b <> [] -> (length a = length b \/ length a = 1%nat \/ length b = 1%nat) -> is_close_any t (nd_of_vec a) (nd_of_vec b) = is_close1 t a b) /\
  (A <> [] -> B <> [] -> (0 < d)%nat -> (0 < d')%nat -> Forall (fun r => length r = d) A -> Forall (fun r => length r = d') B ->
   (length A = length B \/ length A = 1%nat \/ length B = 1%nat) -> (d = d' \/ d = 1%nat \/ d' = 1%nat) ->
   is_close_any t (nd_of_rows A) (nd_of_rows B) = is_close2 t A B).
Proof.
  assert (First : forall (N : Num) (t : tol N) x y ps, (let* _ := isclose t x y in allclose_pairs t ((x, y) :: ps)) = allclose_pairs t ((x, y) :: ps)).
  { intros N t x y ps. cbn [allclose_pairs mapM fst snd]. destruct (isclose t x y) eqn:E; cbn [bind]; auto. }
  intros N t a b A B d d'. split.
  - intros Ha Hb C. unfold is_close_any. rewrite !shape_vec, !flat_vec. destruct a as [|x a]; [contradiction|]. destruct b as [|y b]; [contradiction|].
    rewrite !ndim_vec. cbn [Nat.add]. rewrite (bcast_vecs 1). unfold is_close1. destruct (bpairs_head x y a b C) as (ps & ->). cbn [bind]. apply First.
  - clear a b. intros HA HB Hd Hd' FA FB C Cd. unfold is_close_any. rewrite (shape_rows A d), (shape_rows B d') by auto.
    assert (InW : forall rs u v, bpairs A B = Ok rs -> In (u, v) rs -> length u = d /\ length v = d').
    { intros rs u v E I. destruct (bpairs_ok A B HA HB C) as (rs' & E' & _ & K). rewrite E in E'. injection E' as <-. apply K in I as (i & I1 & I2). rewrite Forall_forall in FA, FB.
      split; [apply FA|apply FB]; eapply nth_error_In; eauto. }
    destruct A as [|a A]; [contradiction|]. destruct B as [|b B]; [contradiction|]. pose proof (Forall_inv FA) as La. pose proof (Forall_inv FB) as Lb. cbn beta in La, Lb.
    destruct a as [|x a]; [simpl in La; lia|]. destruct b as [|y b]; [simpl in Lb; lia|].
    assert (G : broadcast_pairs (S (ndim (nd_of_rows ((x :: a) :: A)) + ndim (nd_of_rows ((y :: b) :: B)))) (nd_of_rows ((x :: a) :: A)) (nd_of_rows ((y :: b) :: B)) =
       let* rs := bpairs ((x :: a) :: A) ((y :: b) :: B) in let* pss := mapM (fun r => bpairs (fst r) (snd r)) rs in Ok (concat pss)).
    { change (ndim (nd_of_rows ((x :: a) :: A))) with 2%nat. change (ndim (nd_of_rows ((y :: b) :: B))) with 2%nat. cbn [Nat.add].
      unfold nd_of_rows. rewrite bp_step. fold (nd_of_rows ((x :: a) :: A)) (nd_of_rows ((y :: b) :: B)).
      change (ndim (nd_of_rows ((x :: a) :: A))) with 2%nat. change (ndim (nd_of_rows ((y :: b) :: B))) with 2%nat. cbn [Nat.ltb Nat.leb].
      rewrite bpairs_map. destruct (bpairs ((x :: a) :: A) ((y :: b) :: B)) as [rs| |]; [|reflexivity|reflexivity]. cbn [bind]. rewrite (bcast_rows 2). reflexivity. }
    rewrite G. clear G. unfold is_close2. cbn [nd_of_rows map nd_of_vec flat flat_map app].
    destruct (bpairs_head (x :: a) (y :: b) A B C) as (rs & Ers). rewrite Ers. cbn [bind].
    destruct (bpairs_head x y a b) as (ps & Eps); [rewrite La, Lb; exact Cd|]. cbn [mapM fst snd]. rewrite Eps. cbn [bind].
    destruct (mapM_exists (fun r : vec N * vec N => bpairs (fst r) (snd r)) (fun _ _ => True) rs) as (qs & Eqs & _).
    { intros (u, v) I. destruct (InW _ u v Ers ltac:(right; exact I)) as (Lu & Lv). cbn [fst snd].
      destruct u as [|u0 u]; [simpl in Lu; lia|]. destruct v as [|v0 v]; [simpl in Lv; lia|]. destruct (bpairs_head u0 v0 u v) as (z & Ez); [rewrite Lu, Lv; exact Cd|]. eauto. }
    rewrite Eqs. cbn [bind concat app]. apply First.
Qed.
Print Assumptions C04_is_close_instances.

(** is_equal against any array_like: the same shape and the same values. *)
Lemma app_inv_length {A} (a b c d : list A) : length a = length c -> (a ++ b = c ++ d)%list -> a = c /\ b = d.
Proof. revert c. induction a as [|x a IH]; intros [|y c] L E; try discriminate L; auto. injection E as <- E. injection L as L. destruct (IH c L E) as (-> & ->). auto. Qed.
Lemma flat_inj {N : Num} (a : nd N) s : has_shape a s -> forall b, has_shape b s -> flat a = flat b -> a = b.
Proof.
  assert (Len : forall (c : nd N) r, has_shape c r -> length (flat c) = fold_right Nat.mul 1%nat r).
  { intros a0 s0 H. induction H as [x| |l s0 Hne _ IH]; auto. cbn [fold_right flat]. clear Hne. induction l as [|c l IHl]; auto. cbn [flat_map length Nat.mul]. rewrite app_length, (IH c ltac:(left; auto)), IHl; auto. intros z I. apply IH. right; auto. }
  intro H. induction H as [x| |l s Hne Hl IH]; intros b Hb E.
  - inversion Hb; subst. cbn in E. congruence.
  - inversion Hb; subst; auto. destruct l; [contradiction|discriminate].
  - inversion Hb as [|E1 E2|l' s' Hne' Hl' E1 E2]; subst. { destruct l; [contradiction|discriminate]. } assert (L : length l = length l') by congruence. clear E2. f_equal. clear Hne Hne' Hb. cbn [flat] in E. revert l' L Hl' E.
    induction l as [|c l IHl]; intros [|c' l'] L Hl' E; try discriminate L; auto. cbn [flat_map] in E.
    assert (Q : flat c = flat c' /\ flat_map flat l = flat_map flat l').
    { assert (Lc : length (flat c) = length (flat c')) by (rewrite (Len c s), (Len c' s); auto; [apply Hl'|apply Hl]; left; auto). apply app_inv_length in E; auto. }
    destruct Q as (Q1 & Q2). f_equal. + apply IH; auto; [left; auto|apply Hl'; left; auto]. + apply IHl; auto; [intros z I; apply Hl; right; auto|intros z I; apply IH; right; auto|intros z I; apply Hl'; right; auto].
Qed.

Theorem C04_is_equal_any_operand : forall a b : nd RNum, is_equal_any a b = true <-> a = b /\ exists s, has_shape a s.
Proof.
  intros a b. unfold is_equal_any. split.
  - intro H. destruct (shape a) as [sa|] eqn:Ea; [|discriminate]. destruct (shape b) as [sb|] eqn:Eb; [|discriminate]. apply andb_prop in H as (H1 & H2).
    cbn [shape_eqb] in H1. destruct (list_eq_dec _ _ _) as [->|]; [|discriminate]. apply row_eqb_iff in H2. apply shape_has_shape in Ea, Eb. split; [|eauto]. eapply flat_inj; eauto.
  - intros (<- & s & H). rewrite (has_shape_shape _ _ H). cbn [shape_eqb]. destruct (list_eq_dec _ _ _) as [_|X]; [|contradiction]. apply row_eqb_iff. reflexivity.
Qed.
Print Assumptions C04_is_equal_any_operand.

(** Non-vacuity: a 2x3 array against a row, a column and a scalar; and an incompatible operand. *)
Example C04_any_example :
  is_close_any (N:=FNum) tol_default (nd_of_rows [[1; 2; 3]; [1; 2; 3]]%float) (nd_of_vec [1; 2; 3]%float) = Ok true /\
  is_close_any (N:=FNum) tol_default (nd_of_rows [[1; 2; 3]; [1; 2; 3]]%float) (nd_of_rows [[1]; [1]]%float) = Ok false /\
  is_close_any (N:=FNum) tol_default (nd_of_rows [[5; 5; 5]; [5; 5; 5]]%float) (Sc 5%float) = Ok true /\
  is_close_any (N:=FNum) tol_default (nd_of_rows [[5; 5; 5]; [5; 5; 5]]%float) (nd_of_vec [5; 5]%float) = Raise err_broadcast /\
  compatible [2; 3]%nat [3]%nat /\ ~ compatible [2; 3]%nat [2]%nat.
Proof.
  split; [vm_compute; reflexivity|]. split; [vm_compute; reflexivity|]. split; [vm_compute; reflexivity|]. split; [vm_compute; reflexivity|]. split.
  - intros k m n H1 H2. destruct k as [|[|[|]]]; cbn in H1, H2; try discriminate. left; congruence.
  - intro H. specialize (H 0%nat 3%nat 2%nat eq_refl eq_refl). lia.
Qed.
