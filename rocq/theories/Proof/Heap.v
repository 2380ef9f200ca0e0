(** * Memory lemmas: frame of a call *)
From Coq Require Import String ZArith List Bool Lia PeanoNat.
From Verif.Model Require Import Outcome Num Numpy BaseArray Heap.
From Verif.Spec Require Import Heap.
From Verif.Proof Require Import Bridge.
Import ListNotations.

Section H.
Context {N : Num}.
Implicit Types (s : state N) (m : list N) (o : op N).

Definition addrs (h : handle) : list nat := match h with A1 _ a => a | A2 _ rows => concat rows | Comp fs => concat fs end.
Definition inmem m (h : handle) : Prop := forall a, In a (addrs h) -> (a < length m)%nat.
Definition distinct (h : handle) : Prop := match h with Comp _ => True | _ => NoDup (addrs h) end.
Definition wf s : Prop := forall h, In h (live s) -> inmem (cells s) h /\ (match h with Comp fs => Forall (@NoDup nat) fs | A1 _ a => NoDup a | A2 _ rows => NoDup (concat rows) end).

Lemma length_upd m a x : length (upd m a x) = length m.
Proof. revert a. induction m; intros [|a']; simpl; auto. Qed.
Lemma nth_upd m a x b d : nth b (upd m a x) d = if Nat.eqb a b && Nat.ltb a (length m) then x else nth b m d.
Proof.
  revert a b. induction m as [|y m IH]; intros a b; [simpl; rewrite Bool.andb_false_r; reflexivity|].
  destruct a as [|a], b as [|b]; simpl; auto. rewrite IH. reflexivity.
Qed.
Lemma length_upds m addr xs : length (upds m addr xs) = length m.
Proof. revert m xs. induction addr as [|a addr IH]; intros m [|x xs]; simpl; auto. rewrite IH. apply length_upd. Qed.
Lemma nth_upds_out m addr xs b d : ~ In b addr -> nth b (upds m addr xs) d = nth b m d.
Proof.
  revert m xs. induction addr as [|a addr IH]; intros m [|x xs] H; simpl; auto. rewrite IH by (intro; apply H; simpl; auto). rewrite nth_upd.
  destruct (Nat.eqb_spec a b); [subst; exfalso; apply H; simpl; auto|reflexivity].
Qed.
Lemma read_upds m addr xs : NoDup addr -> length addr = length xs -> (forall a, In a addr -> (a < length m)%nat) -> read (upds m addr xs) addr = xs.
Proof.
  revert m xs. induction addr as [|a addr IH]; intros m [|x xs] ND L H; try discriminate; auto. inversion_clear ND as [|? ? Na ND']. simpl. f_equal.
  - rewrite nth_upds_out by auto. rewrite nth_upd, Nat.eqb_refl. destruct (Nat.ltb_spec a (length m)); auto. exfalso. specialize (H a (or_introl eq_refl)). lia.
  - apply IH; auto. intros b Hb. rewrite length_upd. apply H. simpl; auto.
Qed.
Lemma read_app m ext addr : (forall a, In a addr -> (a < length m)%nat) -> read (m ++ ext) addr = read m addr.
Proof. intro H. unfold read. apply map_ext_in. intros a Ha. apply app_nth1. auto. Qed.
Lemma read_fresh m v ext : read (m ++ v ++ ext) (seq (length m) (length v)) = v.
Proof.
  revert m. induction v as [|x v IH]; intro m; auto. cbn [length seq read map]. f_equal; [rewrite app_nth2, Nat.sub_diag by lia; reflexivity|].
  specialize (IH (m ++ [x])). rewrite app_length in IH. simpl in IH. rewrite Nat.add_1_r, <- app_assoc in IH. exact IH.
Qed.
Lemma read_fresh2 m rs ext : map (read (m ++ concat rs ++ ext)) (fresh (length m) rs) = rs.
Proof.
  revert m. induction rs as [|r rs IH]; intro m; auto. cbn [fresh concat map]. rewrite <- app_assoc. f_equal; [apply read_fresh|].
  specialize (IH (m ++ r)). rewrite app_length in IH. rewrite <- app_assoc in IH. exact IH.
Qed.
Lemma fresh_seq base (rs : list (vec N)) : concat (fresh base rs) = seq base (length (concat rs)).
Proof. revert base. induction rs as [|r rs IH]; intro base; auto. cbn [fresh concat]. rewrite IH, app_length, seq_app. reflexivity. Qed.
Lemma value_same m m' h : (forall a, In a (addrs h) -> nth a m' n0 = nth a m n0) -> value m' h = value m h.
Proof.
  assert (R : forall addr, (forall a, In a addr -> nth a m' n0 = nth a m n0) -> read m' addr = read m addr) by (intros addr H; apply map_ext_in; auto).
  destruct h as [k a|k rows|fs]; cbn [addrs value]; intro H; [f_equal; auto|apply map_ext_in; intros r Hr; apply R; intros x Hx; apply H, in_concat; eauto..].
Qed.

Lemma nodupb_ok l : nodupb l = true -> NoDup l.
Proof.
  induction l as [|x l IH]; intro H; constructor; simpl in H; apply andb_prop in H as (H1 & H2); auto.
  intro HI. apply Bool.negb_true_iff in H1. rewrite (proj2 (existsb_exists (Nat.eqb x) l)) in H1; [discriminate|]. exists x. split; auto. apply Nat.eqb_refl.
Qed.

(** The frame of one successful call. *)
Definition framed s (o : op N) s' : Prop :=
  (length (cells s) <= length (cells s'))%nat /\
  (exists hs, live s' = live s ++ hs /\ forall h' a, In h' hs -> In a (addrs h') ->
     (length (cells s) <= a < length (cells s'))%nat \/ exists h x, In h (shares o) /\ nth_error (live s) h = Some x /\ In a (addrs x)) /\
  (forall a, (a < length (cells s))%nat -> nth a (cells s') n0 = nth a (cells s) n0 \/ exists h x, writes o = Some h /\ nth_error (live s) h = Some x /\ In a (addrs x)).

Definition nodup_h (h : handle) : Prop := match h with Comp fs => Forall (@NoDup nat) fs | A1 _ a => NoDup a | A2 _ rows => NoDup (concat rows) end.

Lemma wf_ext s m' hs : wf s -> (length (cells s) <= length m')%nat -> (forall h, In h hs -> inmem m' h /\ nodup_h h) -> wf (MkState m' (live s ++ hs)).
Proof.
  intros W L H h Hh. cbn [live cells] in *. apply in_app_or in Hh as [Hh|Hh].
  - destruct (W h Hh) as (I & D). split; auto. intros a Ha. specialize (I a Ha). cbn [cells]. lia.
  - apply H; auto.
Qed.
Lemma alloc1_frame s k v o : wf s -> wf (alloc1 s k v) /\ framed s o (alloc1 s k v).
Proof.
  intro W. unfold alloc1. split.
  - apply wf_ext; auto; [rewrite app_length; lia|]. intros h [<-|[]]. split; [|apply seq_NoDup]. intros a Ha. apply in_seq in Ha. rewrite app_length. lia.
  - split; [cbn [cells]; rewrite app_length; lia|]. split; [eexists; split; [reflexivity|]; intros h' a [<-|[]] Ha; left; apply in_seq in Ha; cbn [cells]; rewrite app_length; lia|].
    intros a Ha. left. cbn [cells]. apply app_nth1; auto.
Qed.
Lemma alloc2_frame s k rs o : wf s -> wf (alloc2 s k rs) /\ framed s o (alloc2 s k rs).
Proof.
  intro W. unfold alloc2. split.
  - apply wf_ext; auto; [rewrite app_length; lia|]. intros h [<-|[]]. split; [|cbn [nodup_h]; rewrite fresh_seq; apply seq_NoDup]. intros a Ha. cbn [addrs] in Ha. rewrite fresh_seq in Ha. apply in_seq in Ha. rewrite app_length. lia.
  - split; [cbn [cells]; rewrite app_length; lia|]. split; [eexists; split; [reflexivity|]; intros h' a [<-|[]] Ha; left; cbn [addrs] in Ha; rewrite fresh_seq in Ha; apply in_seq in Ha; cbn [cells]; rewrite app_length; lia|].
    intros a Ha. left. cbn [cells]. apply app_nth1; auto.
Qed.
Lemma push_frame s h0 x o h : wf s -> nth_error (live s) h0 = Some x -> In h0 (shares o) -> (forall a, In a (addrs h) -> In a (addrs x)) -> nodup_h h -> wf (push s h) /\ framed s o (push s h).
Proof.
  intros W E S H D. unfold push. assert (I : inmem (cells s) x) by (apply W; eapply nth_error_In; eauto). split.
  - apply wf_ext; auto. intros h' [<-|[]]. split; auto. intros a Ha. apply I; auto.
  - split; [cbn [cells]; lia|]. split; [eexists; split; [reflexivity|]; intros h' a [<-|[]] Ha; right; exists h0, x; auto|]. intros a Ha. left. reflexivity.
Qed.
Lemma write_frame s o h x addr xs : wf s -> nth_error (live s) h = Some x -> writes o = Some h -> (forall a, In a addr -> In a (addrs x)) ->
  wf (MkState (upds (cells s) addr xs) (live s)) /\ framed s o (MkState (upds (cells s) addr xs) (live s)).
Proof.
  intros W E S H. split.
  - intros h' Hh. cbn [live cells] in *. destruct (W h' Hh) as (I & D). split; auto. intros a Ha. rewrite length_upds. auto.
  - split; [cbn [cells]; rewrite length_upds; lia|]. split; [exists []; split; [symmetry; apply app_nil_r|intros ? ? []]|].
    intros a Ha. cbn [cells]. destruct (in_dec Nat.eq_dec a addr) as [Hi|Hn]; [right; exists h, x; auto|left; apply nth_upds_out; auto].
Qed.
Lemma upd_upds m a x : upd m a x = upds m [a] [x]. Proof. reflexivity. Qed.

Lemma new1_frame s k src s' o : wf s -> new1 s k src = Ok s' -> incl (refs [src]) (shares o) ->
  wf s' /\ framed s o s' /\ exists addr, live s' = live s ++ [A1 k addr].
Proof.
  intros W E S. destruct src as [l|h]; cbn [new1] in E.
  - apply bind_ok_inv in E as (v & _ & E). injection E as <-. destruct (alloc1_frame s k v o W) as (W' & F). split; auto. split; auto. eexists; reflexivity.
  - destruct (nth_error (live s) h) as [[k' addr|k' rows|fs]|] eqn:Eh; try discriminate.
    + apply bind_ok_inv in E as (v & _ & E). injection E as <-. destruct (push_frame s h (A1 k' addr) o (A1 k addr) W Eh) as (W' & F); auto; [apply S; simpl; auto|apply (W (A1 k' addr)); eapply nth_error_In; eauto|].
      split; auto. split; auto. eexists; reflexivity.
    + apply bind_ok_inv in E as (v & _ & E). discriminate.
Qed.

Lemma fields_frame lv args : forall m m' fs, wf (MkState m lv) -> fields m lv args = Ok (m', fs) ->
  (length m <= length m')%nat /\ (forall a, (a < length m)%nat -> nth a m' n0 = nth a m n0) /\ Forall (@NoDup nat) fs /\
  (forall a, In a (concat fs) -> (length m <= a < length m')%nat \/ exists h x, In h (refs args) /\ nth_error lv h = Some x /\ In a (addrs x)).
Proof.
  induction args as [|src args IH]; intros m m' fs W E; cbn [fields] in E.
  - injection E as <- <-. split; auto. split; auto. split; auto. intros a [].
  - apply bind_ok_inv in E as (s1 & E1 & E). destruct (new1_frame _ _ _ _ (OPoint src) W E1 (incl_refl _)) as (W1 & (L1 & (hs & Ehs & Hhs) & C1) & addr & El). cbn [cells live] in *.
    rewrite El in E. rewrite last_last in E. apply bind_ok_inv in E as ((m2, fs2) & E2 & E). injection E as <- <-.
    assert (W' : wf (MkState (cells s1) lv)). { intros h Hh. cbn [live cells] in *. destruct (W h Hh) as (I & D). split; auto. intros a Ha. specialize (I a Ha). cbn [cells] in I. lia. }
    destruct (IH _ _ _ W' E2) as (L2 & C2 & D2 & H2).
    assert (NDa : NoDup addr). { destruct (W1 (A1 KPoint addr)) as (_ & D); auto. rewrite El. apply in_or_app. simpl; auto. }
    rewrite El in Ehs. apply app_inv_head in Ehs. subst hs.
    split; [lia|]. split; [intros a Ha; rewrite C2 by lia; destruct (C1 a Ha) as [|(h & x & Z & _)]; auto; discriminate|]. split; [constructor; auto|].
    intros a Ha. cbn [concat] in Ha. apply in_app_or in Ha as [Ha|Ha].
    + destruct (Hhs (A1 KPoint addr) a (or_introl eq_refl) Ha) as [|(h & x & Hh & Hx & HI)]; [left; lia|right; exists h, x; split; auto].
      cbn [shares] in Hh. unfold refs in *. cbn [flat_map] in *. rewrite app_nil_r in Hh. apply in_or_app; auto.
    + destruct (H2 a Ha) as [|(h & x & Hh & Hx & HI)]; [left; lia|right; exists h, x; split; auto]. unfold refs. cbn [flat_map]. apply in_or_app. right. exact Hh.
Qed.

Lemma step_frame LA np1 s o s' : wf s -> step LA np1 s o = Ok s' -> wf s' /\ framed s o s'.
Proof.
  intros W E. destruct o as [v|rows|a|a|a|c args|h k|h idx|h i|h i x|h i j x|h d|h|h d|hs g]; cbn [step] in E.
  - injection E as <-. apply alloc1_frame; auto.
  - destruct (forallb _ _); [|discriminate]. injection E as <-. apply alloc2_frame; auto.
  - destruct (new1_frame s KPoint a s' (OPoint a) W E (incl_refl _)) as (W' & F & _). auto.
  - destruct (new1_frame s KVector a s' (OVector a) W E (incl_refl _)) as (W' & F & _). auto.
  - destruct a as [l|h]; cbn [new2] in E.
    + apply bind_ok_inv in E as (rs & _ & E). injection E as <-. apply alloc2_frame; auto.
    + destruct (nth_error (live s) h) as [[k' addr|k' rows|fs]|]; try discriminate; apply bind_ok_inv in E as (rs & _ & E); try discriminate. injection E as <-. apply alloc2_frame; auto.
  - apply bind_ok_inv in E as ((m & fs) & Ef & E). apply bind_ok_inv in E as (u & _ & E). injection E as <-.
    assert (W0 : wf (MkState (cells s) (live s))) by (destruct s; exact W).
    destruct (fields_frame (live s) args (cells s) m fs W0 Ef) as (L & C & D & H). split.
    + apply wf_ext; auto. intros h [<-|[]]. split; auto. intros a Ha. destruct (H a Ha) as [|(h & x & _ & Hx & HI)]; [lia|]. destruct (W x) as (I & _); [eapply nth_error_In; eauto|]. specialize (I a HI). lia.
    + split; auto. split; [eexists; split; [reflexivity|]; intros h' a [<-|[]] Ha; apply (H a Ha)|]. intros a Ha. left. apply C; auto.
  - destruct (nth_error (live s) h) as [[k' addr|k' rows|fs]|] eqn:Eh; try discriminate. destruct (nth_error fs k) as [addr|] eqn:Ek; [|discriminate]. injection E as <-.
    apply (push_frame s h (Comp fs)); auto; [simpl; auto| |].
    + intros a Ha. cbn [addrs] in *. apply in_concat. exists addr. split; auto. eapply nth_error_In; eauto.
    + destruct (W (Comp fs)) as (_ & D); [eapply nth_error_In; eauto|]. rewrite Forall_forall in D. cbn [nodup_h]. apply D. eapply nth_error_In; eauto.
  - destruct (nth_error (live s) h) as [[k' addr|k' rows|fs]|] eqn:Eh; try discriminate. destruct (forallb _ idx && nodupb idx)%bool eqn:Eb; [|discriminate]. injection E as <-. apply andb_prop in Eb as (E1 & E2). apply nodupb_ok in E2. rewrite forallb_forall in E1.
    assert (E1' : forall i, In i idx -> (i < length addr)%nat) by (intros i Hi; apply Nat.ltb_lt, E1; auto).
    apply (push_frame s h (A1 k' addr)); auto; [simpl; auto| |].
    + intros a Ha. cbn [addrs] in *. apply in_map_iff in Ha as (i & <- & Hi). apply nth_In; auto.
    + destruct (W (A1 k' addr)) as (_ & D); [eapply nth_error_In; eauto|]. cbn [nodup_h]. clear - E1' E2 D. induction E2 as [|i idx Ni E2 IH]; cbn [map]; constructor; [|apply IH; intros j Hj; apply E1'; simpl; auto].
      intro HI. apply in_map_iff in HI as (j & Ej & Hj). apply NoDup_nth in Ej; auto; [subst; contradiction|apply E1'; simpl; auto|apply E1'; simpl; auto].
  - destruct (nth_error (live s) h) as [[k' addr|k' rows|fs]|] eqn:Eh; try discriminate. destruct (nth_error rows i) as [addr|] eqn:Ek; [|discriminate]. injection E as <-.
    apply (push_frame s h (A2 k' rows)); auto; [simpl; auto| |].
    + intros a Ha. cbn [addrs] in *. apply in_concat. exists addr. split; auto. eapply nth_error_In; eauto.
    + destruct (W (A2 k' rows)) as (_ & D); [eapply nth_error_In; eauto|]. cbn [nodup_h]. apply nth_error_split in Ek as (l1 & l2 & -> & _). rewrite concat_app in D. cbn [concat] in D. clear - D. induction (concat l1); simpl in D; [|inversion D; auto]. induction addr as [|a addr IH]; constructor; inversion_clear D; [intro; apply H; apply in_or_app; auto|auto].
  - destruct (nth_error (live s) h) as [[k' addr|k' rows|fs]|] eqn:Eh; try discriminate. destruct (nth_error addr i) as [a|] eqn:Ek; [|discriminate]. injection E as <-. rewrite upd_upds.
    apply (write_frame s _ h (A1 k' addr)); auto. intros b [<-|[]]. cbn [addrs]. eapply nth_error_In; eauto.
  - destruct (nth_error (live s) h) as [[k' addr|k' rows|fs]|] eqn:Eh; try discriminate. destruct (nth_error rows i) as [addr|] eqn:Ek; [|discriminate]. destruct (nth_error addr j) as [a|] eqn:Ej; [|discriminate]. injection E as <-. rewrite upd_upds.
    apply (write_frame s _ h (A2 k' rows)); auto. intros b [<-|[]]. cbn [addrs]. apply in_concat. exists addr. split; eapply nth_error_In; eauto.
  - destruct (nth_error (live s) h) as [[k' addr|k' rows|fs]|] eqn:Eh; try discriminate.
    + apply bind_ok_inv in E as (v & _ & E). injection E as <-.
      destruct (write_frame s (ORound h d) h (A1 k' addr) addr v W Eh eq_refl) as (W1 & (L1 & _ & C1)); auto.
      destruct (push_frame (MkState (upds (cells s) addr v) (live s)) h (A1 k' addr) (ORound h d) (A1 k' addr) W1 Eh) as (W2 & (L2 & (hs & Ehs & Hhs) & C2)); auto; [simpl; auto|destruct (W (A1 k' addr)) as (_ & D); auto; eapply nth_error_In; eauto|].
      split; [exact W2|]. split; [exact L1|]. split; [|exact C1]. exists [A1 k' addr]. split; [reflexivity|]. intros h' a [<-|[]] Ha. right. exists h, (A1 k' addr). simpl; auto.
    + apply bind_ok_inv in E as (rs & _ & E). 
      destruct (write_frame s (ORound h d) h (A2 k' rows) (concat rows) (concat rs) W Eh eq_refl) as (W1 & (L1 & _ & C1)); auto.
      destruct np1; injection E as <-.
      * destruct (alloc2_frame (MkState (upds (cells s) (concat rows) (concat rs)) (live s)) k' (map (read (upds (cells s) (concat rows) (concat rs))) rows) (ORound h d) W1) as (W2 & (L2 & (hs & Ehs & Hhs) & C2)).
        cbn [cells live] in *. split; [exact W2|]. split; [lia|]. split.
        -- exists hs. split; auto. intros h' a Hh Ha. destruct (Hhs h' a Hh Ha) as [|]; [left; lia|auto].
        -- intros a Ha. destruct (C2 a ltac:(lia)) as [->|Z]; auto.
      * destruct (push_frame (MkState (upds (cells s) (concat rows) (concat rs)) (live s)) h (A2 k' rows) (ORound h d) (A2 k' rows) W1 Eh) as (W2 & _); auto; [simpl; auto|destruct (W (A2 k' rows)) as (_ & D); auto; eapply nth_error_In; eauto|].
        split; [exact W2|]. split; [exact L1|]. split; [|exact C1]. exists [A2 k' rows]. split; [reflexivity|]. intros h' a [<-|[]] Ha. right. exists h, (A2 k' rows). simpl; auto.
  - destruct (nth_error (live s) h) as [[k' addr|k' rows|fs]|] eqn:Eh; try discriminate; injection E as <-; [apply alloc1_frame|apply alloc2_frame]; auto.
  - destruct (nth_error (live s) h) as [[k' addr|k' rows|fs]|] eqn:Eh; try discriminate; apply bind_ok_inv in E as (v & _ & E); injection E as <-; [apply alloc1_frame|apply alloc2_frame]; auto.
  - apply bind_ok_inv in E as (v & _ & E). injection E as <-. apply alloc2_frame; auto.
Qed.

Lemma after_wf LA np1 s o : wf s -> wf (after LA np1 s o).
Proof. intro W. unfold after. destruct (step LA np1 s o) eqn:E; auto. eapply step_frame; eauto. Qed.
Lemma run_wf LA np1 os : forall s, wf s -> wf (run LA np1 s os).
Proof. induction os as [|o os IH]; intros s W; simpl; auto. apply IH, after_wf, W. Qed.
Lemma initial_wf : wf (@initial N).
Proof. intros h []. Qed.
Lemma after_live LA np1 s o : wf s -> exists hs, live (after LA np1 s o) = live s ++ hs.
Proof.
  intro W. unfold after. destruct (step LA np1 s o) eqn:E; [|exists []; rewrite app_nil_r; reflexivity..].
  destruct (step_frame _ _ _ _ _ W E) as (_ & _ & (hs & El & _) & _). eauto.
Qed.
Lemma run_live LA np1 os : forall s, wf s -> exists hs, live (run LA np1 s os) = live s ++ hs.
Proof.
  induction os as [|o os IH]; intros s W; [exists []; rewrite app_nil_r; reflexivity|]. simpl. destruct (IH _ (after_wf LA np1 s o W)) as (h2 & E2). destruct (after_live LA np1 s o W) as (h1 & E1). exists (h1 ++ h2). rewrite E2, E1, app_assoc. reflexivity.
Qed.

(** Protected cells [D]: objects outside [T] do not reach them. *)
Lemma untouched_cells LA np1 (D : nat -> Prop) os : forall (T : nat -> Prop) s, wf s -> (forall a, D a -> (a < length (cells s))%nat) ->
  (forall j y a, nth_error (live s) j = Some y -> ~ T j -> In a (addrs y) -> ~ D a) -> untouched LA np1 T s os ->
  forall a, D a -> nth a (cells (run LA np1 s os)) n0 = nth a (cells s) n0.
Proof.
  induction os as [|o os IH]; intros T s W B C U a Da; auto. cbn [untouched] in U. destruct U as (Uw & U). simpl.
  assert (K : forall b, D b -> nth b (cells (after LA np1 s o)) n0 = nth b (cells s) n0 /\ (b < length (cells (after LA np1 s o)))%nat).
  { intros b Db. unfold after. destruct (step LA np1 s o) as [s'| |] eqn:E; auto. destruct (step_frame _ _ _ _ _ W E) as (_ & L & _ & Cs). split; [|specialize (B b Db); lia].
    destruct (Cs b (B b Db)) as [|(h & y & Hw & Ey & Hy)]; auto. rewrite Hw in Uw. exfalso. apply (C h y b); auto. }
  rewrite <- (proj1 (K a Da)). eapply IH; eauto; [apply after_wf; auto|intros b Db; apply K; auto|]. clear IH U K.
  intros j y b Ej Nj Hb Db. unfold after in *. destruct (step LA np1 s o) as [s'| |] eqn:E; [|apply (C j y b); auto..].
  destruct (step_frame _ _ _ _ _ W E) as (_ & L & (hs & El & Hhs) & Cs). rewrite El in Ej.
  destruct (Nat.lt_ge_cases j (length (live s))) as [H1|H1].
  - rewrite nth_error_app1 in Ej by auto. apply (C j y b); auto.
  - assert (H2 : (j < length (live s'))%nat) by (rewrite El; apply nth_error_Some; rewrite Ej; discriminate).
    rewrite nth_error_app2 in Ej by auto. apply nth_error_In in Ej. destruct (Hhs y b Ej Hb) as [Hf|(h & z & Hh & Ez & Hz)]; [specialize (B b Db); lia|].
    apply (C h z b); auto. intro Th. apply Nj. right. split; [lia|eauto].
Qed.
(** An object created at [h] whose cells no other object reaches keeps its value as long as it is untouched. *)
Lemma untouched_look LA np1 os s h x : wf s -> nth_error (live s) h = Some x ->
  (forall j y a, nth_error (live s) j = Some y -> j <> h -> In a (addrs x) -> ~ In a (addrs y)) -> untouched LA np1 (eq h) s os ->
  look (run LA np1 s os) h = look s h.
Proof.
  intros W E C U. unfold look. destruct (run_live LA np1 os s W) as (hs & El). rewrite El, nth_error_app1 by (apply nth_error_Some; rewrite E; discriminate). rewrite E. cbn [option_map]. f_equal.
  apply value_same. intros a Ha. apply (untouched_cells LA np1 (fun a => In a (addrs x)) os (eq h)); auto; [apply W; eapply nth_error_In; eauto|].
  intros j y b Ej Nj Hb. intro Hx. apply (C j y b); auto.
Qed.
Lemma fresh_alone s o s' h x : wf s -> framed s o s' -> shares o = [] -> h = length (live s) -> live s' = live s ++ [x] -> nth_error (live s') h = Some x /\
  forall j y a, nth_error (live s') j = Some y -> j <> h -> In a (addrs x) -> ~ In a (addrs y).
Proof.
  intros W (L & (hs & El & Hhs) & _) Sh -> E. rewrite E. rewrite nth_error_app2, Nat.sub_diag by lia. split; [reflexivity|].
  intros j y a Ej Nj Ha Hy. rewrite E in El. apply app_inv_head in El. subst hs.
  assert (j < length (live s))%nat. { assert (j < length (live s ++ [x]))%nat by (apply nth_error_Some; rewrite Ej; discriminate). rewrite app_length in H. simpl in H. lia. }
  rewrite nth_error_app1 in Ej by auto. destruct (W y) as (I & _); [eapply nth_error_In; eauto|]. specialize (I a Hy).
  destruct (Hhs x a (or_introl eq_refl) Ha) as [Hf|(h & z & Hh & _)]; [lia|]. rewrite Sh in Hh. contradiction.
Qed.
End H.
