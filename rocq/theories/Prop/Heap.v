(** * Properties C05, C06: sharing and mutation over all histories *)
From Coq Require Import String ZArith List Bool Lia PeanoNat Reals Lra.
From Verif.Model Require Import Outcome Num Instances Numpy BaseArray Line Heap.
From Verif.Spec Require Import Geometry Heap.
From Verif.Proof Require Import Bridge Arrays Heap Lines.
Import ListNotations.

Section HP.
Context {N : Num} (LA : linalg N) (np1 : bool).
Notation step := (step LA np1). Notation run := (run LA np1). Notation after := (after LA np1).
(** The states some history of calls leads to. *)
Definition reachable (s : state N) : Prop := exists os, s = run initial os.
Lemma reachable_wf s : reachable s -> wf s.
Proof. intros (os & ->). apply run_wf, initial_wf. Qed.

(** Every object has its number; the number of the object a call creates. *)
Definition created (s : state N) : nat := length (live s).

Lemma nonsharing_new s o s' : wf s -> step s o = Ok s' -> shares o = [] -> writes o = None -> exists x, live s' = live s ++ [x].
Proof.
  intros W E Sh Wr. destruct o as [v|rows|a|a|a|c args|h k|h idx|h i|h i x|h i j x|h d|h|h d|hs g]; try discriminate; cbn [Heap.step] in E.
  - injection E as <-. eexists; reflexivity.
  - destruct (forallb _ _); [|discriminate]. injection E as <-. eexists; reflexivity.
  - destruct (new1_frame s KPoint a s' (OPoint a) W E (incl_refl _)) as (_ & _ & addr & ->). eauto.
  - destruct (new1_frame s KVector a s' (OVector a) W E (incl_refl _)) as (_ & _ & addr & ->). eauto.
  - destruct a as [l|h]; cbn [new2] in E; [|destruct (nth_error (live s) h) as [[k' addr|k' rows|fs]|]; try discriminate]; apply bind_ok_inv in E as (rs & _ & E); try discriminate; injection E as <-; eexists; reflexivity.
  - apply bind_ok_inv in E as ((m & fs) & _ & E). apply bind_ok_inv in E as (u & _ & E). injection E as <-. eexists; reflexivity.
  - destruct (nth_error (live s) h) as [[k' addr|k' rows|fs]|]; try discriminate; injection E as <-; eexists; reflexivity.
  - destruct (nth_error (live s) h) as [[k' addr|k' rows|fs]|]; try discriminate; apply bind_ok_inv in E as (v & _ & E); injection E as <-; eexists; reflexivity.
  - apply bind_ok_inv in E as (v & _ & E). injection E as <-. eexists; reflexivity.
Qed.

(** ** C05 *)
(** The result of a call that does not share (Points(...), Point([...]), to_array, any query) keeps its value in
    every later history that does not write through it or through an object sharing with it. *)
Theorem C05_isolated : forall s o s', reachable s -> step s o = Ok s' -> shares o = [] -> writes o = None ->
  created s' = S (created s) /\ forall os, untouched LA np1 (eq (created s)) s' os -> look (run s' os) (created s) = look s' (created s).
Proof.
  intros s o s' R E Sh Wr. apply reachable_wf in R as W. destruct (nonsharing_new s o s' W E Sh Wr) as (x & El). destruct (step_frame _ _ _ _ _ W E) as (W' & F). unfold created. split; [rewrite El, app_length; simpl; lia|].
  intros os U. destruct (fresh_alone s o s' _ x W F Sh eq_refl El) as (Ex & A). eapply untouched_look; eauto.
Qed.

Lemma look_new (s' s : state N) x : live s' = live s ++ [x] -> look s' (created s) = Some (value (cells s') x).
Proof. intro E. unfold look, created. rewrite E, nth_error_app2, Nat.sub_diag by lia. reflexivity. Qed.
Lemma look_alloc2 (s : state N) k rs : look (alloc2 s k rs) (created s) = Some rs.
Proof. erewrite look_new by reflexivity. cbn [value cells alloc2]. f_equal. pose proof (read_fresh2 (cells s) rs []) as H. rewrite app_nil_r in H. exact H. Qed.
Lemma look_alloc1 (s : state N) k v : look (alloc1 s k v) (created s) = Some [v].
Proof. erewrite look_new by reflexivity. cbn [value cells alloc1]. f_equal. f_equal. pose proof (read_fresh (cells s) v []) as H. rewrite app_nil_r in H. exact H. Qed.

(** A Points object holds the values its argument had when it was built, and later changes to the argument
    (or to anything else that is not the Points object itself or a view of it) do not reach it. *)
Theorem C05_points_isolated : forall s a s', reachable s -> step s (OPoints a) = Ok s' ->
  exists rows, look s' (created s) = Some rows /\ (forall h, a = SRef h -> look s h = Some rows) /\ (forall l, a = SList l -> l = nd_of_rows rows) /\
    forall os, untouched LA np1 (eq (created s)) s' os -> look (run s' os) (created s) = Some rows.
Proof.
  intros s a s' R E. destruct (C05_isolated s (OPoints a) s' R E eq_refl eq_refl) as (_ & I).
  assert (K : exists rows, look s' (created s) = Some rows /\ (forall h, a = SRef h -> look s h = Some rows) /\ (forall l, a = SList l -> l = nd_of_rows rows)).
  { cbn [Heap.step] in E. destruct a as [l|h]; cbn [new2] in E.
    - apply bind_ok_inv in E as (rs & Er & E). injection E as <-. exists rs. split; [apply look_alloc2|]. split; [discriminate|]. intros l' El. injection El as <-. apply array2d_ok_iff in Er as (-> & _). reflexivity.
    - destruct (nth_error (live s) h) as [[k' addr|k' rows|fs]|] eqn:Eh; try discriminate; apply bind_ok_inv in E as (rs & Er & E); try discriminate. injection E as <-. exists rs. split; [apply look_alloc2|]. split; [|discriminate].
      intros h' El. injection El as <-. unfold look. rewrite Eh. cbn [option_map value]. f_equal. apply points_of_inv in Er as (-> & _). reflexivity. }
  destruct K as (rows & K1 & K2 & K3). exists rows. split; auto. split; auto. split; auto. intros os U. rewrite I; auto.
Qed.

(** The same for a Point or Vector built from a list of numbers. *)
Theorem C05_list_isolated : forall s l s' o, reachable s -> (o = OPoint (SList l) \/ o = OVector (SList l)) -> step s o = Ok s' ->
  exists v, l = nd_of_vec v /\ look s' (created s) = Some [v] /\ forall os, untouched LA np1 (eq (created s)) s' os -> look (run s' os) (created s) = Some [v].
Proof.
  intros s l s' o R Ho E.
  assert (K : exists v, l = nd_of_vec v /\ look s' (created s) = Some [v]).
  { destruct Ho as [-> | ->]; cbn [Heap.step new1] in E; apply bind_ok_inv in E as (v & Ev & E); injection E as <-; exists v; (split; [apply array1d_ok_iff in Ev as (-> & _); reflexivity|apply look_alloc1]). }
  destruct (C05_isolated s o s' R E) as (_ & I); [destruct Ho as [-> | ->]; reflexivity..|]. destruct K as (v & K1 & K2). exists v. split; auto. split; auto. intros os U. rewrite I; auto.
Qed.

Lemma same_forever (b : bool) (s : state N) i j x y : wf s -> nth_error (live s) i = Some x -> nth_error (live s) j = Some y -> (forall m, value (N:=N) m x = value m y) -> forall os, look (Heap.run LA b s os) i = look (Heap.run LA b s os) j.
Proof.
  intros W Ei Ej H os. destruct (run_live LA b os s W) as (hs & El). unfold look. rewrite El, !nth_error_app1 by (apply nth_error_Some; first [rewrite Ei|rewrite Ej]; discriminate). rewrite Ei, Ej. cbn [option_map]. f_equal. apply H.
Qed.
(** A Point or Vector built from an existing array shows that array's values forever after, whatever happens to
    either: they share memory. *)
Theorem C05_shares : forall s h o s', reachable s -> (o = OPoint (SRef h) \/ o = OVector (SRef h)) -> step s o = Ok s' ->
  created s' = S (created s) /\ (exists v, look s' (created s) = Some [v]) /\ forall os, look (run s' os) (created s) = look (run s' os) h.
Proof.
  intros s h o s' R Ho E. apply reachable_wf in R as W.
  assert (K : exists k k' addr, nth_error (live s) h = Some (A1 k' addr) /\ s' = push s (A1 k addr)).
  { destruct Ho as [-> | ->]; cbn [Heap.step new1] in E; destruct (nth_error (live s) h) as [[k' addr|k' rows|fs]|] eqn:Eh; try discriminate; apply bind_ok_inv in E as (u & _ & E); try discriminate; injection E as <-; do 3 eexists; split; reflexivity. }
  destruct K as (k & k' & addr & Eh & ->). split; [unfold created; cbn [push live]; rewrite app_length; simpl; lia|]. split; [eexists; erewrite look_new by reflexivity; reflexivity|].
  apply same_forever with (x := A1 k addr) (y := A1 k' addr).
  - destruct (step_frame _ _ _ _ _ W E) as (W' & _). exact W'.
  - cbn [push live]. unfold created. rewrite nth_error_app2, Nat.sub_diag by lia. reflexivity.
  - cbn [push live]. rewrite nth_error_app1; auto. apply nth_error_Some. rewrite Eh. discriminate.
  - reflexivity.
Qed.

Lemma fields_share (lv : list handle) (args : list (source N)) : forall m m' fs k h, fields m lv args = Ok (m', fs) -> nth_error args k = Some (SRef h) -> exists k' addr, nth_error fs k = Some addr /\ nth_error lv h = Some (A1 k' addr).
Proof.
  induction args as [|a args IH]; intros m m' fs k h E Ek; [destruct k; discriminate|]. cbn [fields] in E. apply bind_ok_inv in E as (s1 & E1 & E).
  destruct (last (live s1) (Comp [])) as [k1 addr| |] eqn:Ela; try discriminate. apply bind_ok_inv in E as ((m2 & fs2) & E2 & E). injection E as <- <-.
  destruct k as [|k]; cbn [nth_error] in *; [|eapply IH; eauto]. injection Ek as ->. cbn [new1 live] in E1.
  destruct (nth_error lv h) as [[k' addr'|k' rows|fs]|]; try discriminate; apply bind_ok_inv in E1 as (u & _ & E1); try discriminate. injection E1 as <-. cbn [push live] in Ela. rewrite last_last in Ela. injection Ela as _ <-. eauto.
Qed.
(** The attributes of a Line, Plane, LineSegment, Circle, Sphere, Cylinder or Triangle built from existing arrays
    share memory with them as well. *)
Theorem C05_composite_shares : forall s c args s' k h, reachable s -> step s (OComp c args) = Ok s' -> nth_error args k = Some (SRef h) ->
  forall os, exists attrs v, look (run s' os) (created s) = Some attrs /\ nth_error attrs k = Some v /\ look (run s' os) h = Some [v].
Proof.
  intros s c args s' k h R E Ek os. apply reachable_wf in R as W. destruct (step_frame _ _ _ _ _ W E) as (W' & _).
  cbn [Heap.step] in E. apply bind_ok_inv in E as ((m & fs) & Ef & E). apply bind_ok_inv in E as (u & _ & E). injection E as <-.
  destruct (fields_share _ _ _ _ _ _ _ Ef Ek) as (k' & addr & Efk & Eh). destruct (run_live LA np1 os _ W') as (hs & El). cbn [live] in El.
  unfold look, created. rewrite El. rewrite (nth_error_app1 (_ ++ _)) by (rewrite app_length; simpl; lia). rewrite (nth_error_app2 (live s)), Nat.sub_diag by lia. cbn [nth_error option_map value].
  rewrite (nth_error_app1 (_ ++ _)) by (rewrite app_length; assert (h < length (live s))%nat by (apply nth_error_Some; rewrite Eh; discriminate); lia). rewrite (nth_error_app1 (live s)) by (apply nth_error_Some; rewrite Eh; discriminate). rewrite Eh.
  eexists; exists (read (cells (run (MkState m (live s ++ [Comp fs])) os)) addr). split; [reflexivity|]. split; [apply map_nth_error; auto|reflexivity].
Qed.

Lemma comp_check_iff c vs : (exists u, comp_check LA c vs = Ok u) <-> built LA c vs.
Proof.
  split.
  - intros (u & E). destruct c as [| | |r|r|r|]; destruct vs as [|v1 [|v2 [|v3 [|v4 vs]]]]; cbn [comp_check] in E; try discriminate E; apply bind_ok_inv in E as (x & E & _); econstructor; exact E.
  - intros [p d l E|p n l E|a b l E|p r c0 E|p r c0 E|p v r c0 E|a b c0 t E]; exists tt; cbn [comp_check]; rewrite E; reflexivity.
Qed.
Lemma read_frame (m m' : list N) addr : (forall a, In a addr -> (a < length m)%nat) -> (forall a, (a < length m)%nat -> nth a m' n0 = nth a m n0) -> read m' addr = read m addr.
Proof. intros H C. unfold read. apply map_ext_in. intros a Ha. apply C. apply H. exact Ha. Qed.
Lemma read_app_new (m v : list N) : read (m ++ v) (seq (length m) (length v)) = v.
Proof.
  pose proof (look_alloc1 (MkState m []) KPoint v) as K. unfold look, alloc1 in K. cbn in K. injection K as K. exact K.
Qed.
Lemma fields_values (lv : list handle) (args : list (source N)) : forall m m' fs, wf (MkState m lv) -> fields m lv args = Ok (m', fs) -> Forall2 (arg_value (MkState m lv)) args (map (read m') fs).
Proof.
  induction args as [|a args IH]; intros m m' fs W E; cbn [fields] in E; [injection E as <- <-; constructor|]. apply bind_ok_inv in E as (s1 & E1 & E).
  destruct (new1_frame _ _ _ _ (OPoint a) W E1 (incl_refl _)) as (W1 & (L1 & _ & C1) & addr & El). cbn [cells live] in *. rewrite El in E. rewrite last_last in E. apply bind_ok_inv in E as ((m2, fs2) & E2 & E). injection E as <- <-.
  assert (W' : wf (MkState (cells s1) lv)). { intros h Hh. cbn [live cells] in *. destruct (W h Hh) as (I & D). split; auto. intros b Hb. specialize (I b Hb). cbn [cells] in I. lia. }
  destruct (fields_frame lv args (cells s1) m2 fs2 W' E2) as (L2 & C2 & _). pose proof (IH _ _ _ W' E2) as F. cbn [map].
  assert (Ia : forall b, In b addr -> (b < length (cells s1))%nat). { destruct (W1 (A1 KPoint addr)) as (I & _); [rewrite El; apply in_or_app; right; left; reflexivity|]. intros b Hb. apply I. exact Hb. }
  constructor.
  - rewrite (read_frame (cells s1) m2 addr Ia C2). destruct a as [l|h]; cbn [new1 arg_value] in *.
    + apply bind_ok_inv in E1 as (v & Ev & E1). injection E1 as <-. unfold alloc1 in El |- *. cbn [live cells] in *. apply app_inv_head in El. injection El as <-. apply array1d_ok_iff in Ev as (-> & _). rewrite read_app_new. reflexivity.
    + cbn [live] in E1. destruct (nth_error lv h) as [[k' addr'|k' rows|fs]|] eqn:Eh; try discriminate; apply bind_ok_inv in E1 as (u & _ & E1); try discriminate. injection E1 as <-. unfold push in El |- *. cbn [live cells] in *. apply app_inv_head in El. injection El as <-.
      split; [unfold look; cbn [live cells]; rewrite Eh; reflexivity|]. eauto.
  - clear - F C1 W. assert (K : forall b, (b < length m)%nat -> nth b (cells s1) n0 = nth b m n0) by (intros b Hb; destruct (C1 b Hb) as [|(h & x & Z & _)]; auto; discriminate).
    induction F as [|x y l l' H F IHF]; constructor; auto. destruct x as [l0|h]; cbn [arg_value] in *; auto. destruct H as (H & k & ad & Ek). cbn [live] in Ek. split; [|eauto]. rewrite <- H. unfold look. cbn [live cells]. rewrite Ek. cbn [option_map value]. f_equal. f_equal. symmetry. apply read_frame; auto.
    intros b Hb. destruct (W (A1 k ad)) as (I & _); [eapply nth_error_In; exact Ek|]. apply I. exact Hb.
Qed.
(** A Line, Plane, LineSegment, Circle, Sphere, Cylinder or Triangle shows the numbers of its arguments, and its
    constructor has checked exactly these: an object made of attributes the constructor rejects never appears. *)
Theorem C05_composite_built : forall s c args s', reachable s -> step s (OComp c args) = Ok s' ->
  exists attrs, look s' (created s) = Some attrs /\ Forall2 (arg_value s) args attrs /\ built LA c attrs.
Proof.
  intros s c args s' R E. apply reachable_wf in R as W. cbn [Heap.step] in E. apply bind_ok_inv in E as ((m & fs) & Ef & E). apply bind_ok_inv in E as (u & Ec & E). injection E as <-.
  exists (map (read m) fs). split; [apply (look_new (MkState m (live s ++ [Comp fs])) s (Comp fs)); reflexivity|]. destruct s as [cs lv]. split; [eapply fields_values; eauto|]. apply comp_check_iff. eauto.
Qed.
Lemma fields_ok (lv : list handle) (args : list (source N)) : forall m attrs, wf (MkState m lv) -> Forall2 (arg_value (MkState m lv)) args attrs -> Forall (fun v => vector_of v = Ok v) attrs -> exists m' fs, fields m lv args = Ok (m', fs) /\ map (read m') fs = attrs.
Proof.
  induction args as [|a args IH]; intros m attrs W F G; inversion F as [|? v ? attrs' H F']; subst; [exists m, []; split; reflexivity|]. inversion_clear G as [|? ? Gv G']. cbn [fields].
  assert (K : exists s1 addr, new1 (MkState m lv) KPoint a = Ok s1 /\ live s1 = lv ++ [A1 KPoint addr] /\ read (cells s1) addr = v).
  { destruct a as [l|h]; cbn [arg_value new1] in *.
    - subst l. unfold vector_of in Gv. rewrite Gv. cbn [bind]. exists (alloc1 (MkState m lv) KPoint v), (seq (length m) (length v)). split; [reflexivity|]. split; [reflexivity|]. apply read_app_new.
    - destruct H as (H & k & ad & Ek). cbn [live] in *. unfold look in H. cbn [live cells] in H. rewrite Ek in H |- *. cbn [option_map value] in H. injection H as H. cbn [cells]. rewrite H. unfold vector_of in Gv. rewrite Gv. cbn [bind]. exists (push (MkState m lv) (A1 KPoint ad)), ad. split; [reflexivity|]. split; [reflexivity|]. exact H. }
  destruct K as (s1 & addr & E1 & El & Er). rewrite E1. cbn [bind]. rewrite El, last_last.
  destruct (new1_frame _ _ _ _ (OPoint a) W E1 (incl_refl _)) as (W1 & (L1 & _ & C1) & addr' & El'). cbn [cells live] in *.
  assert (W' : wf (MkState (cells s1) lv)). { intros h Hh. cbn [live cells] in *. destruct (W h Hh) as (I & D). split; auto. intros b Hb. specialize (I b Hb). cbn [cells] in I. lia. }
  assert (Kc : forall b, (b < length m)%nat -> nth b (cells s1) n0 = nth b m n0) by (intros b Hb; destruct (C1 b Hb) as [|(h & x & Z & _)]; auto; discriminate).
  assert (F2 : Forall2 (arg_value (MkState (cells s1) lv)) args attrs').
  { clear - F' Kc W. induction F' as [|x y l l' H F IHF]; constructor; auto. destruct x as [l0|h]; cbn [arg_value] in *; auto. destruct H as (H & k & ad & Ek). cbn [live] in Ek. split; [|eauto]. rewrite <- H. unfold look. cbn [live cells]. rewrite Ek. cbn [option_map value]. f_equal. f_equal. apply read_frame; auto.
    intros b Hb. destruct (W (A1 k ad)) as (I & _); [eapply nth_error_In; exact Ek|]. apply I. exact Hb. }
  destruct (IH (cells s1) attrs' W' F2 G') as (m2 & fs2 & E2 & R2). rewrite E2. cbn [bind]. exists m2, (addr :: fs2). split; [reflexivity|]. cbn [map]. f_equal; [|exact R2].
  destruct (fields_frame lv args (cells s1) m2 fs2 W' E2) as (_ & C2 & _). rewrite (read_frame (cells s1) m2 addr); auto. intros b Hb. destruct (W1 (A1 KPoint addr)) as (I & _); [rewrite El; apply in_or_app; right; left; reflexivity|]. apply I. exact Hb.
Qed.
(** Conversely, valid 1D arguments the constructor accepts always give an object: whether one is made depends only
    on the numbers, not on whether they come from lists or from (possibly shared) existing arrays. *)
Theorem C05_composite_accepts : forall s c args attrs, reachable s -> Forall2 (arg_value s) args attrs -> Forall (fun v => vector_of v = Ok v) attrs ->
  ((exists s', step s (OComp c args) = Ok s') <-> built LA c attrs).
Proof.
  intros s c args attrs R F G. apply reachable_wf in R as W. destruct s as [cs lv]. destruct (fields_ok lv args cs attrs W F G) as (m & fs & E & Er). cbn [Heap.step cells live]. rewrite E. cbn [bind]. rewrite Er. rewrite <- comp_check_iff. split.
  - intros (s' & E'). apply bind_ok_inv in E' as (u & Eu & _). eauto.
  - intros (u & Eu). rewrite Eu. cbn [bind]. eauto.
Qed.

(** ** C06 *)
(** No call except item assignment and round changes the value of any existing object ... *)
Theorem C06_pure : forall s o, reachable s -> writes o = None -> forall i, (i < created s)%nat -> look (after s o) i = look s i.
Proof.
  intros s o R Wr i Hi. apply reachable_wf in R as W. unfold Heap.after. destruct (step s o) as [s'| |] eqn:E; auto. destruct (step_frame _ _ _ _ _ W E) as (_ & L & (hs & El & _) & Cs).
  unfold look. rewrite El, nth_error_app1 by auto. destruct (nth_error (live s) i) as [x|] eqn:Ex; auto. cbn [option_map]. f_equal. apply value_same. intros a Ha.
  destruct (Cs a) as [|(h & y & Hw & _)]; auto; [apply (W x); auto; eapply nth_error_In; eauto|congruence].
Qed.
(** ... and so for histories of such calls. *)
Theorem C06_pure_history : forall os s, reachable s -> Forall (fun o => writes o = None) os -> forall i, (i < created s)%nat -> look (run s os) i = look s i.
Proof.
  induction os as [|o os IH]; intros s R F i Hi; auto. inversion_clear F as [|? ? H1 H2]. simpl.
  assert (R' : reachable (after s o)) by (destruct R as (os0 & ->); exists (os0 ++ [o]); unfold Heap.run; rewrite fold_left_app; reflexivity).
  rewrite IH; auto; [apply C06_pure; auto|]. destruct (after_live LA np1 s o (reachable_wf s R)) as (hs & El). unfold created in *. rewrite El, app_length. lia.
Qed.
(** A failing call changes nothing at all. *)
Theorem C06_failure : forall s o, (forall s', step s o <> Ok s') -> after s o = s.
Proof. intros s o H. unfold Heap.after. destruct (step s o) eqn:E; auto. exfalso. eapply H; reflexivity. Qed.

(** Whatever is done later to the result of a call that does not share, the objects that existed before keep
    their values (writes go only through the result and objects made from it or later). *)
Theorem C06_old_objects : forall s o s', reachable s -> step s o = Ok s' -> shares o = [] -> writes o = None ->
  forall os, untouched LA np1 (fun j => (j < created s)%nat) s' os -> forall i, (i < created s)%nat -> look (run s' os) i = look s i.
Proof.
  intros s o s' R E Sh Wr os U i Hi. apply reachable_wf in R as W. destruct (step_frame _ _ _ _ _ W E) as (W' & L & (hs & El & Hhs) & Cs).
  destruct (run_live LA np1 os s' W') as (hs2 & El2). unfold look, created in *. rewrite El2, El. rewrite nth_error_app1 by (rewrite app_length; lia). rewrite nth_error_app1 by auto.
  destruct (nth_error (live s) i) as [x|] eqn:Ex; auto. cbn [option_map]. f_equal. apply value_same. intros a Ha.
  assert (La : (a < length (cells s))%nat) by (apply (W x); auto; eapply nth_error_In; eauto).
  rewrite (untouched_cells LA np1 (fun a => (a < length (cells s))%nat) os (fun j => (j < length (live s))%nat)); auto.
  - destruct (Cs a La) as [|(h & y & Hw & _)]; auto. congruence.
  - intros b Hb. lia.
  - intros j y b Ej Nj Hb Db. rewrite El in Ej. rewrite nth_error_app2 in Ej by lia. apply nth_error_In in Ej. destruct (Hhs y b Ej Hb) as [|(h & z & Hh & _)]; [lia|]. rewrite Sh in Hh. contradiction.
Qed.
(** to_array returns a copy: the same values, isolated in both directions. *)
Theorem C06_to_array : forall s h s', reachable s -> step s (OToArray h) = Ok s' ->
  look s' (created s) = look s h /\
  (forall os, untouched LA np1 (eq (created s)) s' os -> look (run s' os) (created s) = look s h) /\
  (forall os, untouched LA np1 (fun j => (j < created s)%nat) s' os -> forall i, (i < created s)%nat -> look (run s' os) i = look s i).
Proof.
  intros s h s' R E. destruct (C05_isolated s _ s' R E eq_refl eq_refl) as (_ & I).
  assert (K : look s' (created s) = look s h).
  { cbn [Heap.step] in E. destruct (nth_error (live s) h) as [[k' addr|k' rows|fs]|] eqn:Eh; try discriminate; injection E as <-; [rewrite look_alloc1|rewrite look_alloc2]; unfold look; rewrite Eh; reflexivity. }
  split; auto. split; [intros os U; rewrite I; auto|]. apply (C06_old_objects s (OToArray h) s'); auto.
Qed.

Lemma nth_read m addr i d : (i < length addr)%nat -> nth i (read (N:=N) m addr) d = nth (nth i addr 0%nat) m n0.
Proof. intro H. unfold read. rewrite (nth_indep _ d (nth 0 m n0)) by (rewrite map_length; auto). change (nth 0 m n0) with ((fun a => nth a m n0) 0%nat). rewrite map_nth. reflexivity. Qed.
(** Item assignment replaces exactly that item of the object. *)
Theorem C06_set_item : forall s h i x s', reachable s -> step s (OSet1 h i x) = Ok s' ->
  exists v w, look s h = Some [v] /\ look s' h = Some [w] /\ length w = length v /\ (i < length v)%nat /\
    forall j d, nth j w d = if Nat.eqb i j then x else nth j v d.
Proof.
  intros s h i x s' R E. apply reachable_wf in R as W. cbn [Heap.step] in E. destruct (nth_error (live s) h) as [[k addr|k' rows|fs]|] eqn:Eh; try discriminate.
  destruct (nth_error addr i) as [a|] eqn:Ei; [|discriminate]. injection E as <-. unfold look. cbn [live cells]. rewrite Eh. cbn [option_map value].
  destruct (W (A1 k addr)) as (I & D); [eapply nth_error_In; eauto|]. assert (Hi : (i < length addr)%nat) by (apply nth_error_Some; rewrite Ei; discriminate).
  eexists; eexists; split; [reflexivity|]; split; [reflexivity|]. unfold read at 1 2 3. rewrite !map_length. split; auto. split; auto. intros j d.
  destruct (Nat.lt_ge_cases j (length addr)) as [Hj|Hj].
  - rewrite !nth_read by auto. rewrite nth_upd. assert (Ea : a = nth i addr 0%nat) by (symmetry; apply nth_error_nth; auto).
    assert (La : (a < length (cells s))%nat) by (apply I; cbn [addrs]; eapply nth_error_In; eauto). rewrite (proj2 (Nat.ltb_lt _ _) La), Bool.andb_true_r.
    destruct (Nat.eqb_spec i j) as [<-|Nij]; [rewrite <- Ea, Nat.eqb_refl; reflexivity|]. destruct (Nat.eqb_spec a (nth j addr 0%nat)) as [Eq|]; auto. exfalso. apply Nij. rewrite Ea in Eq. apply NoDup_nth in Eq; auto.
  - rewrite !nth_overflow by (unfold read; rewrite map_length; auto). destruct (Nat.eqb_spec i j); [lia|reflexivity].
Qed.

Lemma nodup_app_l {A} (a b : list A) : NoDup (a ++ b) -> NoDup a.
Proof. induction a; simpl; intro H; constructor; inversion H; subst; auto. intro; apply H2; apply in_or_app; auto. Qed.
Lemma nodup_app_r {A} (a b : list A) : NoDup (a ++ b) -> NoDup b.
Proof. induction a; simpl; auto. intro H; inversion H; auto. Qed.
Lemma nodup_app_disj {A} (a b : list A) x : NoDup (a ++ b) -> In x a -> In x b -> False.
Proof. induction a; simpl; [tauto|]. intros H [->|Hx] Hb; inversion H; subst; [apply H2; apply in_or_app; auto|auto]. Qed.
Lemma nodup_cells (rows : list (list nat)) : NoDup (concat rows) -> forall i j i' j', (i < length rows)%nat -> (i' < length rows)%nat ->
  (j < length (nth i rows []))%nat -> (j' < length (nth i' rows []))%nat -> nth j (nth i rows []) 0%nat = nth j' (nth i' rows []) 0%nat -> i = i' /\ j = j'.
Proof.
  induction rows as [|r rows IH]; intros D i j i' j' Hi Hi' Hj Hj' E; simpl in Hi; [lia|]. simpl in D.
  assert (G : forall i j, (i < length rows)%nat -> (j < length (nth i rows []))%nat -> In (nth j (nth i rows []) 0%nat) (concat rows)).
  { intros i0 j0 H1 H2. apply in_concat. exists (nth i0 rows []). split; apply nth_In; auto. }
  destruct i as [|i], i' as [|i']; cbn [nth length] in *.
  - split; auto. apply (NoDup_nth r 0%nat) in E; auto. apply (nodup_app_l _ _ D).
  - exfalso. apply (nodup_app_disj _ _ (nth j r 0%nat) D); [apply nth_In; auto|]. rewrite E. apply G; auto; lia.
  - exfalso. apply (nodup_app_disj _ _ (nth j' r 0%nat) D); [apply nth_In; auto|]. rewrite <- E. apply G; auto; lia.
  - destruct (IH (nodup_app_r _ _ D) i j i' j') as (-> & ->); auto; lia.
Qed.
(** The same for one item of a Points object: exactly that coordinate of that row changes. *)
Theorem C06_set_item2 : forall s h i j x s', reachable s -> step s (OSet2 h i j x) = Ok s' ->
  exists rows rows', look s h = Some rows /\ look s' h = Some rows' /\ length rows' = length rows /\ (i < length rows)%nat /\ (j < length (nth i rows []))%nat /\
    forall i' j' d, nth j' (nth i' rows' []) d = if (Nat.eqb i i' && Nat.eqb j j')%bool then x else nth j' (nth i' rows []) d.
Proof.
  intros s h i j x s' R E. apply reachable_wf in R as W. cbn [Heap.step] in E. destruct (nth_error (live s) h) as [[k addr|k rows|fs]|] eqn:Eh; try discriminate.
  destruct (nth_error rows i) as [addr|] eqn:Ei; [|discriminate]. destruct (nth_error addr j) as [a|] eqn:Ej; [|discriminate]. injection E as <-.
  unfold look. cbn [live cells]. rewrite Eh. cbn [option_map value].
  destruct (W (A2 k rows)) as (I & D); [eapply nth_error_In; eauto|]. cbn [addrs] in I, D.
  assert (Hi : (i < length rows)%nat) by (apply nth_error_Some; rewrite Ei; discriminate).
  assert (Hj : (j < length addr)%nat) by (apply nth_error_Some; rewrite Ej; discriminate).
  assert (Nr : forall m i', (i' < length rows)%nat -> nth i' (map (read (N:=N) m) rows) [] = read m (nth i' rows [])) by (intros m i' H'; rewrite (nth_indep _ [] (read m [])) by (rewrite map_length; auto); apply map_nth).
  eexists; eexists; split; [reflexivity|]; split; [reflexivity|]. rewrite !map_length. split; auto. split; auto.
  assert (Ea : nth i rows [] = addr) by (apply nth_error_nth; auto). assert (Ea' : nth j addr 0%nat = a) by (apply nth_error_nth; auto).
  split; [rewrite Nr, Ea by auto; unfold read; rewrite map_length; auto|]. intros i' j' d.
  destruct (Nat.lt_ge_cases i' (length rows)) as [Hi'|Hi'].
  2: { rewrite !(nth_overflow (map _ rows)) by (rewrite map_length; auto). destruct (Nat.eqb_spec i i'); [lia|]. cbn [andb]. reflexivity. }
  rewrite !Nr by auto. destruct (Nat.lt_ge_cases j' (length (nth i' rows []))) as [Hj'|Hj'].
  2: { rewrite !nth_overflow by (unfold read; rewrite map_length; auto). destruct (Nat.eqb_spec i i') as [<-|]; cbn [andb]; auto. rewrite Ea in Hj'. destruct (Nat.eqb_spec j j'); [lia|reflexivity]. }
  rewrite !nth_read by auto. rewrite nth_upd. assert (La : (a < length (cells s))%nat) by (apply I; apply in_concat; exists addr; split; [eapply nth_error_In; eauto|rewrite <- Ea'; apply nth_In; auto]).
  rewrite (proj2 (Nat.ltb_lt _ _) La), Bool.andb_true_r.
  destruct (Nat.eqb_spec a (nth j' (nth i' rows []) 0%nat)) as [Eq|Nq].
  - destruct (nodup_cells rows D i j i' j') as (<- & <-); auto; [rewrite Ea; auto|rewrite Ea, Ea'; exact Eq|]. rewrite !Nat.eqb_refl. reflexivity.
  - destruct (Nat.eqb_spec i i') as [<-|]; cbn [andb]; auto. destruct (Nat.eqb_spec j j') as [<-|]; auto. rewrite Ea, Ea' in Nq. contradiction.
Qed.
(** An attribute of a composite object is the object's own memory: it shows the attribute for ever, whatever is written through either. *)
Theorem C05_field_shares : forall s h k s', reachable s -> step s (OField h k) = Ok s' ->
  created s' = S (created s) /\ forall os, exists attrs v, look (run s' os) h = Some attrs /\ nth_error attrs k = Some v /\ look (run s' os) (created s) = Some [v].
Proof.
  intros s h k s' R E. apply reachable_wf in R as W. destruct (step_frame _ _ _ _ _ W E) as (W' & _). cbn [Heap.step] in E.
  destruct (nth_error (live s) h) as [[k0 addr|k0 rows|fs]|] eqn:Eh; try discriminate. destruct (nth_error fs k) as [addr|] eqn:Ek; [|discriminate]. injection E as <-.
  split; [unfold created, push; cbn [live]; rewrite app_length; simpl; lia|]. intro os.
  destruct (run_live LA np1 os _ W') as (hs & El). unfold push in El |- *. cbn [live] in El. unfold look, created. rewrite El.
  rewrite !(nth_error_app1 (_ ++ _)) by (rewrite app_length; assert (h < length (live s))%nat by (apply nth_error_Some; rewrite Eh; discriminate); simpl; lia).
  rewrite (nth_error_app1 (live s)) by (apply nth_error_Some; rewrite Eh; discriminate). rewrite Eh. rewrite (nth_error_app2 (live s)), Nat.sub_diag by lia. cbn [nth_error option_map value].
  eexists; eexists. split; [reflexivity|]. split; [apply map_nth_error; exact Ek|reflexivity].
Qed.


Lemma mapM_length {A B} (f : A -> res B) l ys : mapM f l = Ok ys -> length ys = length l.
Proof. revert ys. induction l as [|x l IH]; intros ys H; cbn [mapM] in H; [injection H as <-; auto|]. apply bind_ok_inv in H as (y & _ & H). apply bind_ok_inv in H as (ys' & E & H). injection H as <-. simpl. f_equal. auto. Qed.
Lemma concat_lengths {A B} (rows : list (list A)) (rs : list (list B)) : Forall2 (fun a b => length a = length b) rows rs -> length (concat rows) = length (concat rs).
Proof. induction 1; simpl; auto. rewrite !app_length. lia. Qed.
Lemma read_concat m rows : read (N:=N) m (concat rows) = concat (map (read m) rows).
Proof. unfold read. rewrite concat_map. reflexivity. Qed.
Lemma concat_inj (xs ys : list (vec N)) : Forall2 (fun a b => length a = length b) xs ys -> concat xs = concat ys -> xs = ys.
Proof.
  induction 1 as [|a b xs ys L F IH]; auto. simpl. intro E. assert (E1 : a = b). { apply (f_equal (firstn (length a))) in E. rewrite firstn_app, firstn_all, Nat.sub_diag, firstn_O, app_nil_r in E. rewrite L, firstn_app, firstn_all, Nat.sub_diag, firstn_O, app_nil_r in E. exact E. }
  subst b. apply app_inv_head in E. f_equal; auto.
Qed.
Lemma round_writes m rows rs d : (forall a, In a (concat rows) -> (a < length m)%nat) -> NoDup (concat rows) -> round2 (N:=N) (map (read m) rows) d = Ok rs -> map (read (upds m (concat rows) (concat rs))) rows = rs.
Proof.
  intros I D E. assert (F : Forall2 (fun a b => length a = length b) rows rs).
  { unfold round2 in E. clear I D. revert rs E. induction rows as [|r rows IH]; intros rs E; cbn [map mapM] in E; [injection E as <-; constructor|].
    apply bind_ok_inv in E as (y & Ey & E). apply bind_ok_inv in E as (ys & Eys & E). injection E as <-. constructor; [|apply IH; exact Eys]. apply mapM_length in Ey. rewrite Ey. unfold read. rewrite map_length. reflexivity. }
  apply concat_inj.
  - clear - F. revert F. generalize (upds m (concat rows) (concat rs)). intros m' F. induction F; constructor; auto. unfold read. rewrite map_length. auto.
  - rewrite <- read_concat. apply read_upds; auto. apply concat_lengths; auto.
Qed.
(** round replaces the receiver's own values by the rounded ones and returns an object with the same values;
    for Point and Vector the result is the receiver's own memory. *)
Theorem C06_round : forall s h d s', reachable s -> step s (ORound h d) = Ok s' ->
  exists rows rs, look s h = Some rows /\ round2 rows d = Ok rs /\ look s' h = Some rs /\ look s' (created s) = Some rs /\
    (np1 = false \/ (exists v, rows = [v] /\ exists k a, nth_error (live s) h = Some (A1 k a)) -> forall os, look (run s' os) (created s) = look (run s' os) h).
Proof.
  intros s h d s' R E. apply reachable_wf in R as W. destruct (step_frame _ _ _ _ _ W E) as (W' & _). cbn [Heap.step] in E. destruct (nth_error (live s) h) as [[k addr|k rows|fs]|] eqn:Eh; try discriminate.
  - apply bind_ok_inv in E as (v & Ev & E). injection E as <-. destruct (W (A1 k addr)) as (I & D); [eapply nth_error_In; eauto|].
    assert (Er : read (upds (cells s) addr v) addr = v) by (apply read_upds; auto; apply mapM_length in Ev; rewrite Ev; unfold read; rewrite map_length; reflexivity).
    assert (Hh : (h < length (live s))%nat) by (apply nth_error_Some; rewrite Eh; discriminate).
    exists [read (cells s) addr], [v]. split; [unfold look; rewrite Eh; reflexivity|]. split; [unfold round2; cbn [mapM]; rewrite Ev; reflexivity|].
    split; [unfold look; cbn [live cells]; rewrite nth_error_app1, Eh by auto; cbn [option_map value]; rewrite Er; reflexivity|]. split; [erewrite look_new by reflexivity; cbn [value cells]; rewrite Er; reflexivity|].
    intros _. apply same_forever with (x := A1 k addr) (y := A1 k addr); auto; cbn [live]; [unfold created; rewrite nth_error_app2, Nat.sub_diag by lia; reflexivity|rewrite nth_error_app1; auto].
  - apply bind_ok_inv in E as (rs & Ev & E). destruct (W (A2 k rows)) as (I & D); [eapply nth_error_In; eauto|].
    pose proof (round_writes (cells s) rows rs d I D Ev) as Er. assert (Hh : (h < length (live s))%nat) by (apply nth_error_Some; rewrite Eh; discriminate).
    exists (map (read (cells s)) rows), rs. split; [unfold look; rewrite Eh; reflexivity|]. split; auto.
    destruct np1 eqn:Enp; injection E as <-.
    + rewrite Er. split; [|split; [apply (look_alloc2 (MkState (upds (cells s) (concat rows) (concat rs)) (live s)) k rs)|]].
      * unfold look, alloc2. cbn [live cells]. rewrite nth_error_app1, Eh by auto. cbn [option_map value]. f_equal. rewrite <- Er at 3. apply map_ext_in. intros r Hr. apply read_app. intros a Ha. rewrite length_upds. apply I. cbn [addrs]. apply in_concat. eauto.
      * intros [|(v & _ & k2 & a & Z)]; [discriminate|]. discriminate Z.
    + split; [unfold look; cbn [live cells]; rewrite nth_error_app1, Eh by auto; cbn [option_map value]; rewrite Er; reflexivity|]. split; [erewrite look_new by reflexivity; cbn [value cells]; rewrite Er; reflexivity|].
      intros _. apply same_forever with (x := A2 k rows) (y := A2 k rows); auto; cbn [live]; [unfold created; rewrite nth_error_app2, Nat.sub_diag by lia; reflexivity|rewrite nth_error_app1; auto].
Qed.
(** set_dimension leaves the receiver unchanged and returns new memory. *)
Theorem C06_set_dimension : forall s h d s', reachable s -> step s (OSetDim h d) = Ok s' ->
  (forall i, (i < created s)%nat -> look s' i = look s i) /\ created s' = S (created s) /\
  (forall os, untouched LA np1 (fun j => (j < created s)%nat) s' os -> forall i, (i < created s)%nat -> look (run s' os) i = look s i).
Proof.
  intros s h d s' R E. destruct (C05_isolated s _ s' R E eq_refl eq_refl) as (C & _). split; [|split; auto; apply (C06_old_objects s (OSetDim h d) s'); auto].
  intros i Hi. pose proof (C06_pure s (OSetDim h d) R eq_refl i Hi) as P. unfold Heap.after in P. rewrite E in P. exact P.
Qed.
Lemma nd_of_vec_inj (a b : vec N) : nd_of_vec a = nd_of_vec b -> a = b.
Proof. intro E. injection E as E. revert b E. induction a as [|x a IH]; intros [|y b] E; try discriminate E; auto. injection E as -> E. f_equal. auto. Qed.
Lemma nd_of_rows_inj (a b : list (vec N)) : nd_of_rows a = nd_of_rows b -> a = b.
Proof. intro E. injection E as E. revert b E. induction a as [|x a IH]; intros [|y b] E; try discriminate E; auto. cbn [map] in E. assert (E1 : nd_of_vec x = nd_of_vec y) by congruence. apply nd_of_vec_inj in E1. subst y. f_equal. apply IH. congruence. Qed.
(** The object set_dimension returns shows the rows of the receiver, each followed by zeros up to the given length;
    it keeps them in every later history that does not write through it or through an object sharing with it. *)
Theorem C06_set_dimension_value : forall s h d s', reachable s -> step s (OSetDim h d) = Ok s' ->
  exists rows rows', look s h = Some rows /\ look s' (created s) = Some rows' /\
    Forall2 (fun r r' => Z.of_nat (length r') = d /\ exists k, r' = r ++ repeat n0 k) rows rows' /\
    forall os, untouched LA np1 (eq (created s)) s' os -> look (run s' os) (created s) = Some rows'.
Proof.
  intros s h d s' R E. destruct (C05_isolated s _ s' R E eq_refl eq_refl) as (_ & I). cbn [Heap.step] in E.
  destruct (nth_error (live s) h) as [[k addr|k rs|fs]|] eqn:Eh; try discriminate; apply bind_ok_inv in E as (v & Ev & E); injection E as <-.
  - exists [read (cells s) addr], [v]. split; [unfold look; rewrite Eh; reflexivity|]. split; [apply look_alloc1|]. split; [|intros os U; rewrite I by auto; apply look_alloc1].
    constructor; [|constructor]. unfold set_dimension1 in Ev. destruct (Z.ltb_spec d (Z.of_nat (dim1 (read (cells s) addr)))) as [|Ge]; [discriminate|]. apply array1d_ok_iff in Ev as (Ev & _). apply nd_of_vec_inj in Ev. subst v. unfold dim1 in Ge.
    split; [unfold pad, zeros; rewrite app_length, repeat_length; lia|]. eexists; reflexivity.
  - exists (map (read (cells s)) rs), v. split; [unfold look; rewrite Eh; reflexivity|]. split; [apply look_alloc2|]. split; [|intros os U; rewrite I by auto; apply look_alloc2].
    revert Ev. generalize (map (read (cells s)) rs). clear. intros rows Ev. unfold set_dimension2 in Ev. destruct (Z.ltb_spec d (Z.of_nat (dim2 rows))) as [|Ge]; [discriminate|].
    apply array2d_ok_iff in Ev as (Ev & Ne & (e & P & F) & _). apply nd_of_rows_inj in Ev. subst v.
    assert (Ee : e = Z.to_nat d). { destruct rows as [|r rows]; [contradiction Ne; reflexivity|]. cbn [map] in F. inversion F as [|? ? F1 _]; subst. cbn [dim2] in *. unfold pad, zeros. rewrite app_length, repeat_length. lia. }
    assert (Dp : (0 <= d)%Z) by lia. clear Ge Ne P. revert F. generalize (Z.to_nat d - dim2 rows)%nat. intros n F. induction rows as [|r rows IH]; cbn [map] in *; [constructor|]. constructor; [|apply IH; exact (Forall_inv_tail F)]. pose proof (Forall_inv F) as F1. cbn beta in F1.
    split; [|eexists; reflexivity]. rewrite F1, Ee. apply Z2Nat.id. exact Dp.
Qed.

(** A slice of a 1D array, and a row of a 2D array, show the chosen items of the array for ever. *)
Theorem C05_slice_shares : forall s h idx s', reachable s -> step s (OSlice h idx) = Ok s' ->
  created s' = S (created s) /\ forall os, exists v w, look (run s' os) h = Some [v] /\ look (run s' os) (created s) = Some [w] /\
    Forall2 (fun i x => nth_error v i = Some x) idx w.
Proof.
  intros s h idx s' R E. apply reachable_wf in R as W. destruct (step_frame _ _ _ _ _ W E) as (W' & _). cbn [Heap.step] in E.
  destruct (nth_error (live s) h) as [[k0 addr|k0 rows|fs]|] eqn:Eh; try discriminate. destruct (forallb _ idx && nodupb idx)%bool eqn:Ei; [|discriminate]. injection E as <-.
  split; [unfold created, push; cbn [live]; rewrite app_length; simpl; lia|]. intro os.
  destruct (run_live LA np1 os _ W') as (hs & El). unfold push in El |- *. cbn [live] in El. unfold look, created. rewrite El.
  rewrite !(nth_error_app1 (_ ++ _)) by (rewrite app_length; assert (h < length (live s))%nat by (apply nth_error_Some; rewrite Eh; discriminate); simpl; lia).
  rewrite (nth_error_app1 (live s)) by (apply nth_error_Some; rewrite Eh; discriminate). rewrite Eh. rewrite (nth_error_app2 (live s)), Nat.sub_diag by lia. cbn [nth_error option_map value].
  eexists; eexists. split; [reflexivity|]. split; [reflexivity|]. apply andb_prop in Ei as (Ei & _). rewrite forallb_forall in Ei.
  unfold read at 2. rewrite map_map. assert (Hi : forall i, In i idx -> (i < length addr)%nat) by (intros i Hi; apply Nat.ltb_lt, Ei, Hi). clear - Hi. match goal with |- context [nth _ (cells ?x) n0] => generalize (cells x) end. intro m. induction idx as [|i idx IH]; [constructor|]. cbn [map].
  constructor; [|apply IH; intros j Hj; apply Hi; right; auto]. unfold read. rewrite (map_nth_error _ i addr (d := nth i addr 0%nat)); [reflexivity|]. apply nth_error_nth'. apply Hi. left. reflexivity.
Qed.
Theorem C05_row_shares : forall s h i s', reachable s -> step s (ORow h i) = Ok s' ->
  created s' = S (created s) /\ forall os, exists rows v, look (run s' os) h = Some rows /\ nth_error rows i = Some v /\ look (run s' os) (created s) = Some [v].
Proof.
  intros s h k s' R E. apply reachable_wf in R as W. destruct (step_frame _ _ _ _ _ W E) as (W' & _). cbn [Heap.step] in E.
  destruct (nth_error (live s) h) as [[k0 addr|k0 fs|fs]|] eqn:Eh; try discriminate. destruct (nth_error fs k) as [addr|] eqn:Ek; [|discriminate]. injection E as <-.
  split; [unfold created, push; cbn [live]; rewrite app_length; simpl; lia|]. intro os.
  destruct (run_live LA np1 os _ W') as (hs & El). unfold push in El |- *. cbn [live] in El. unfold look, created. rewrite El.
  rewrite !(nth_error_app1 (_ ++ _)) by (rewrite app_length; assert (h < length (live s))%nat by (apply nth_error_Some; rewrite Eh; discriminate); simpl; lia).
  rewrite (nth_error_app1 (live s)) by (apply nth_error_Some; rewrite Eh; discriminate). rewrite Eh. rewrite (nth_error_app2 (live s)), Nat.sub_diag by lia. cbn [nth_error option_map value].
  eexists; eexists. split; [reflexivity|]. split; [apply map_nth_error; exact Ek|reflexivity].
Qed.
(** A method or function that reads live objects gets exactly the numbers they show at the time of the call, and the
    object it returns shows exactly the numbers it computed, until it is written to. *)
Theorem C06_query_value : forall s hs g vs, reachable s -> Forall2 (fun h v => look s h = Some v) hs vs ->
  (forall rs, g vs = Ok rs -> exists s', step s (OQuery hs g) = Ok s' /\ look s' (created s) = Some rs /\
     forall os, untouched LA np1 (eq (created s)) s' os -> look (run s' os) (created s) = Some rs) /\
  (forall e, g vs = Raise e -> step s (OQuery hs g) = Raise e).
Proof.
  intros s hs g vs R F.
  assert (Ev : flat_map (fun h => match nth_error (live s) h with Some x => [value (cells s) x] | None => [] end) hs = vs).
  { clear R. induction F as [|h v hs vs Hv F IH]; [reflexivity|]. cbn [flat_map]. unfold look in Hv. destruct (nth_error (live s) h) as [x|]; [|discriminate]. injection Hv as <-. cbn [app]. f_equal. exact IH. }
  split; intros rs Hr.
  - assert (E : step s (OQuery hs g) = Ok (alloc2 s KArray rs)) by (cbn [Heap.step]; rewrite Ev, Hr; reflexivity). exists (alloc2 s KArray rs). split; [exact E|]. split; [apply look_alloc2|].
    intros os U. destruct (C05_isolated s _ _ R E eq_refl eq_refl) as (_ & I). rewrite I by auto. apply look_alloc2.
  - cbn [Heap.step]. rewrite Ev, Hr. reflexivity.
Qed.
End HP.

Local Open Scope R_scope.
Lemma new1_ref (s : state RNum) k h k' addr : nth_error (live s) h = Some (A1 k' addr) -> addr <> [] -> new1 s k (SRef h) = Ok (push s (A1 k addr)).
Proof. intros E H. cbn [new1]. rewrite E. pose proof (point_of_R (read (N:=RNum) (cells s) addr)) as P. unfold point_of in P. rewrite P by (destruct addr; [contradiction|discriminate]). reflexivity. Qed.
(** An object is not valid for ever: after writing zero into the array a Line's direction was built from, the
    Line has a zero direction, which its constructor rejects. *)
Theorem C05_valid_forever_refuted : forall (LA : linalg RNum) np1, exists (os : list (op RNum)),
  let s := run LA np1 initial os in
  look s 2 = Some [[1; 2]; [0; 0]] /\ (forall l, line_new (N:=RNum) [1; 2] [0; 0] <> Ok l) /\
  exists s' os', step LA np1 s' (OComp XLine [SRef 0; SRef 1]) = Ok (run LA np1 s' [OComp XLine [SRef 0; SRef 1]]) /\ created s' = 2%nat /\ s = run LA np1 (run LA np1 s' [OComp XLine [SRef 0; SRef 1]]) os'.
Proof.
  intros LA np1. exists [ONew1 [1; 2]; ONew1 [3; 0]; OComp XLine [SRef 0; SRef 1]; OSet1 1 0 0].
  assert (L1 : line_new (N:=RNum) [1; 2] [3; 0] = Ok (MkLine [1; 2] [3; 0])) by (apply line_new_R; [reflexivity|intro Z; inversion Z; lra]).
  set (s2 := run LA np1 initial [ONew1 [1; 2]; ONew1 [3; 0]]).
  assert (E2 : step LA np1 s2 (OComp XLine [SRef 0; SRef 1]) = Ok (MkState [1; 2; 3; 0] [A1 KArray [0; 1]%nat; A1 KArray [2; 3]%nat; Comp [[0; 1]%nat; [2; 3]%nat]])).
  { change s2 with (MkState (N:=RNum) [1; 2; 3; 0] [A1 KArray [0; 1]%nat; A1 KArray [2; 3]%nat]). cbn [step fields cells live]. rewrite (new1_ref _ KPoint 0 KArray [0; 1]%nat) by (first [reflexivity|discriminate]). cbn [bind push live last app cells fields].
    rewrite (new1_ref _ KPoint 1 KArray [2; 3]%nat) by (first [reflexivity|discriminate]). cbn [bind push live last app cells fields map comp_check]. change (read (N:=RNum) _ [0; 1]%nat) with [1; 2]. change (read (N:=RNum) _ [2; 3]%nat) with [3; 0]. rewrite L1. reflexivity. }
  assert (E3 : run LA np1 s2 [OComp XLine [SRef 0; SRef 1]] = MkState [1; 2; 3; 0] [A1 KArray [0; 1]%nat; A1 KArray [2; 3]%nat; Comp [[0; 1]%nat; [2; 3]%nat]]).
  { unfold run. cbn [fold_left]. unfold after. rewrite E2. reflexivity. }
  assert (ES : run LA np1 initial [ONew1 [1; 2]; ONew1 [3; 0]; OComp XLine [SRef 0; SRef 1]; OSet1 1 0 0] = run LA np1 (run LA np1 s2 [OComp XLine [SRef 0; SRef 1]]) [OSet1 1 0 0]) by reflexivity.
  cbv zeta. split; [|split].
  - rewrite ES, E3. reflexivity.
  - intros l H. apply line_new_inv in H as (_ & _ & Z & _). apply Z. reflexivity.
  - exists s2, [OSet1 1 0 0]. split; [rewrite E3; exact E2|]. split; [reflexivity|]. exact ES.
Qed.
Print Assumptions C05_valid_forever_refuted.
(** A non-trivial history satisfying the hypotheses of C05_points_isolated: the caller overwrites the array. *)
Example C05_nonvacuous : forall (LA : linalg RNum) np1, exists s s', reachable LA np1 s /\ step LA np1 s (OPoints (SRef 0)) = Ok s' /\
  untouched LA np1 (eq (created s)) s' [OSet2 0 0 0 5; ORow 0 1; OSet1 2 1 7] /\ look (run LA np1 s' [OSet2 0 0 0 5; ORow 0 1; OSet1 2 1 7]) 0 = Some [[5; 2]; [3; 7]].
Proof.
  intros LA np1. exists (run LA np1 initial [ONew2 [[1; 2]; [3; 4]]]). eexists. split; [eexists; reflexivity|]. split.
  - change (run LA np1 initial [ONew2 [[1; 2]; [3; 4]]]) with (MkState (N:=RNum) [1; 2; 3; 4] [A2 KArray [[0; 1]; [2; 3]]%nat]). cbn [step new2 live nth_error cells]. change (array2d_new _) with (points_of (N:=RNum) [[1; 2]; [3; 4]]). rewrite (points_of_R [[1; 2]; [3; 4]] 2) by (first [discriminate|lia|repeat constructor]). reflexivity.
  - split; [|reflexivity]. cbn. repeat split; auto; intro Z; try discriminate Z. destruct Z as [[Z|Z]|Z]; try discriminate Z.
    + destruct Z as (_ & h & [] & _).
    + destruct Z as (_ & h & [<-|[]] & [Z|(_ & h' & [] & _)]). discriminate Z.
Qed.
Print Assumptions C05_isolated.
Print Assumptions C05_points_isolated.
Print Assumptions C05_list_isolated.
Print Assumptions C05_shares.
Print Assumptions C05_composite_shares.
Print Assumptions C05_field_shares.
Print Assumptions C06_pure.
Print Assumptions C06_pure_history.
Print Assumptions C06_old_objects.
Print Assumptions C06_to_array.
Print Assumptions C06_set_item.
Print Assumptions C06_set_item2.
Print Assumptions C06_round.
Print Assumptions C06_set_dimension.
Print Assumptions C06_set_dimension_value.
Print Assumptions C05_slice_shares.
Print Assumptions C05_row_shares.
Print Assumptions C06_query_value.
