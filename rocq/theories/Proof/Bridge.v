(** * The model over the reals in terms of the specification vocabulary *)
From Coq Require Import String Reals List ZArith Lra Lia Psatz Bool.
From Verif.Model Require Import Outcome Num Instances Numpy BaseArray Vector Points Functions Line.
From Verif.Spec Require Import Geometry Tolerance.
From Verif.Proof Require Import VecAlg.
Import ListNotations.
Local Open Scope R_scope.

(** ** Boolean comparisons *)
Lemma Reqb_true a b : Reqb a b = true <-> a = b.
Proof. unfold Reqb; destruct Req_EM_T; split; congruence. Qed.
Lemma Reqb_false a b : Reqb a b = false <-> a <> b.
Proof. unfold Reqb; destruct Req_EM_T; split; congruence. Qed.
Lemma Rleb_true a b : Rleb a b = true <-> a <= b.
Proof. unfold Rleb; destruct Rle_dec; split; intros; try congruence; lra. Qed.
Lemma Rleb_false a b : Rleb a b = false <-> b < a.
Proof. unfold Rleb; destruct Rle_dec; split; intros; try congruence; lra. Qed.
Lemma Rltb_true a b : Rltb a b = true <-> a < b.
Proof. unfold Rltb; destruct Rlt_dec; split; intros; try congruence; lra. Qed.
Lemma Rltb_false a b : Rltb a b = false <-> b <= a.
Proof. unfold Rltb; destruct Rlt_dec; split; intros; try congruence; lra. Qed.
Lemma Reqb_refl a : Reqb a a = true. Proof. apply Reqb_true; auto. Qed.

(** Model terms mention [num RNum], the specification [R]: the same type up to conversion. *)
Ltac rn := change (num RNum) with R in *.
Ltac len ::= rn; repeat first [ rewrite length_add | rewrite length_sub | rewrite length_scale
   | rewrite length_origin | rewrite length_pad_to | rewrite app_length | rewrite repeat_length
   | rewrite map_length ]; try lia; try congruence.

Ltac rb := repeat match goal with
  | |- context [Reqb ?a ?b] => let E := fresh "E" in destruct (Reqb a b) eqn:E; [apply Reqb_true in E | apply Reqb_false in E]
  | |- context [Rleb ?a ?b] => let E := fresh "E" in destruct (Rleb a b) eqn:E; [apply Rleb_true in E | apply Rleb_false in E]
  | |- context [Rltb ?a ?b] => let E := fresh "E" in destruct (Rltb a b) eqn:E; [apply Rltb_true in E | apply Rltb_false in E]
  end.

(** ** Monad *)
Lemma bind_ok_inv {A B} (r : res A) (f : A -> res B) b : bind r f = Ok b -> exists a, r = Ok a /\ f a = Ok b.
Proof. destruct r; simpl; intro H; try discriminate. eauto. Qed.
Lemma mapM_map {A B} (f : A -> res B) (g : A -> B) l : (forall x, In x l -> f x = Ok (g x)) -> mapM f l = Ok (map g l).
Proof.
  induction l as [|x l IH]; intro H; simpl; auto. rewrite H by (left; auto). simpl. rewrite IH; auto.
  intros; apply H; right; auto.
Qed.
Lemma mapM_Ok {A B} (f : A -> res B) l ys : mapM f l = Ok ys -> Forall2 (fun x y => f x = Ok y) l ys.
Proof.
  revert ys; induction l as [|x l IH]; simpl; intros ys H. { injection H as <-; constructor. }
  apply bind_ok_inv in H as (y & Hy & H). apply bind_ok_inv in H as (ys' & Hys & H). injection H as <-.
  constructor; auto.
Qed.
Lemma Forall2_mapM {A B} (f : A -> res B) l ys : Forall2 (fun x y => f x = Ok y) l ys -> mapM f l = Ok ys.
Proof. induction 1 as [|x y l ys E _ IH]; simpl; auto. rewrite E; simpl; rewrite IH; auto. Qed.

Ltac inv_bind H :=
  match type of H with
  | bind ?r ?f = Ok ?b =>
      let a := fresh "a" in let E := fresh "E" in
      apply bind_ok_inv in H as (a & E & H)
  end.

(** ** Raw operations *)
Lemma map2_add (a b : pt) : map2 (N:=RNum) Rplus a b = add a b.
Proof. revert b; induction a as [|x a IH]; intros [|y b]; simpl; auto. rewrite IH; auto. Qed.
Lemma map2_sub (a b : pt) : map2 (N:=RNum) Rminus a b = sub a b.
Proof. revert b; induction a as [|x a IH]; intros [|y b]; simpl; auto. rewrite IH; auto. Qed.
Lemma vscale_scale (s : R) (v : pt) : vscale (N:=RNum) s v = scale s v.
Proof. reflexivity. Qed.
Lemma dot_raw_dot (a b : pt) : dot_raw (N:=RNum) a b = dot a b.
Proof. unfold dot_raw, nsum. revert b; induction a as [|x a IH]; intros [|y b]; simpl; auto. simpl in IH; rewrite IH; auto. Qed.
Lemma norm_raw_len (a : pt) : norm_raw (N:=RNum) a = len a.
Proof. unfold norm_raw, len. rewrite dot_raw_dot. reflexivity. Qed.
Lemma nsum_Rsum (l : list R) : nsum (N:=RNum) l = Rsum l.
Proof. reflexivity. Qed.

Lemma bcast_eq {N : Num} f (a b : vec N) : length a = length b -> bcast f a b = Ok (map2 f a b).
Proof. intro H. unfold bcast. rewrite H, Nat.eqb_refl. reflexivity. Qed.
Lemma bcast_err {N : Num} f (a b : vec N) : length a <> length b -> length a <> 1%nat -> length b <> 1%nat ->
  bcast f a b = Raise err_broadcast.
Proof.
  intros H Ha Hb. unfold bcast. destruct (Nat.eqb_spec (length a) (length b)); [congruence|].
  destruct a as [|x [|x' a]]; simpl in *; try congruence; destruct b as [|y [|y' b]]; simpl in *; congruence.
Qed.
Lemma forallb_nfin_R (v : pt) : forallb (nfin (n:=RNum)) v = true.
Proof. induction v; simpl; auto. Qed.
Lemma wrap1_R (v : pt) : wrap1 (N:=RNum) v = Ok v.
Proof. unfold wrap1. rewrite forallb_nfin_R. reflexivity. Qed.
Lemma vadd_R (a b : pt) : length a = length b -> vadd (N:=RNum) a b = Ok (add a b).
Proof. intro H. unfold vadd. rewrite bcast_eq by auto. cbn [bind]. rewrite wrap1_R, map2_add. reflexivity. Qed.
Lemma vsub_R (a b : pt) : length a = length b -> vsub (N:=RNum) a b = Ok (sub a b).
Proof. intro H. unfold vsub. rewrite bcast_eq by auto. cbn [bind]. rewrite wrap1_R, map2_sub. reflexivity. Qed.
Lemma vmuls_R (s : R) (v : pt) : vmuls (N:=RNum) s v = Ok (scale s v).
Proof. unfold vmuls. rewrite wrap1_R. reflexivity. Qed.
Lemma int_sign_R (x : R) : int_sign (N:=RNum) x = Ok (nsign (N:=RNum) x).
Proof. unfold int_sign. change (neqb (n:=RNum)) with Reqb. rewrite Reqb_refl. reflexivity. Qed.
Lemma ndiv_R a b : b <> 0 -> ndiv (n:=RNum) a b = Ok (a / b).
Proof. intro H. simpl. destruct Req_EM_T; [contradiction|reflexivity]. Qed.
Lemma ndiv_R0 a : ndiv (n:=RNum) a 0 = NonFinite.
Proof. simpl. destruct Req_EM_T; [reflexivity|congruence]. Qed.
Lemma vdivs_R (v : pt) s : s <> 0 -> vdivs (N:=RNum) v s = Ok (scale (/ s) v).
Proof.
  intro H. unfold vdivs. rewrite (mapM_map _ (fun x => / s * x)).
  - cbn [bind]. rewrite wrap1_R. reflexivity.
  - intros x _. rewrite ndiv_R by auto. f_equal. field; auto.
Qed.
Lemma np_dot_R (a b : pt) : length a = length b -> np_dot (N:=RNum) a b = Ok (dot a b).
Proof. intro H. unfold np_dot. rn. rewrite H, Nat.eqb_refl, dot_raw_dot. reflexivity. Qed.
Lemma np_dot_err {N : Num} (a b : vec N) : length a <> length b -> np_dot a b = Raise err_aligned.
Proof. intro H. unfold np_dot. destruct (Nat.eqb_spec (length a) (length b)); [contradiction|reflexivity]. Qed.

(** ** Constructors, generic in the numbers *)
Section Ctor.
Context {N : Num}.
Lemma shape_nd_of_vec (v : vec N) : shape (nd_of_vec v) = Some [length v].
Proof.
  unfold nd_of_vec. simpl. destruct v as [|x v]; simpl; auto.
  assert (H : forallb (shape_eqb (Some [])) (map shape (map Sc v)) = true).
  { induction v as [|y v IH]; simpl; auto. }
  rewrite H. simpl. rewrite map_length. reflexivity.
Qed.
Lemma flat_nd_of_vec (v : vec N) : flat (nd_of_vec v) = v.
Proof. unfold nd_of_vec. simpl. induction v as [|x v IH]; simpl; auto. rewrite IH; reflexivity. Qed.
Lemma array1d_of_vec (v : vec N) : array1d_new (nd_of_vec v) = (let* _ := base_new v in Ok v).
Proof. unfold array1d_new. rewrite shape_nd_of_vec, flat_nd_of_vec. reflexivity. Qed.
Lemma base_new_ok (v : vec N) : v <> [] -> forallb nfin v = true -> base_new v = Ok tt.
Proof. intros H F. unfold base_new. rewrite F. destruct v; [contradiction|reflexivity]. Qed.
Lemma shape_eqb_refl s : shape_eqb s s = true.
Proof. destruct s; simpl; auto. destruct list_eq_dec; auto. Qed.
Lemma shape_nd_of_rows (rows : list (vec N)) d : rows <> [] -> Forall (fun r => length r = d) rows ->
  shape (nd_of_rows rows) = Some [length rows; d].
Proof.
  intros Hne F. destruct rows as [|r rows]; [contradiction|]. inversion F as [|? ? Hr F']; subst.
  unfold nd_of_rows. cbn [map shape]. fold (nd_of_vec r). rewrite shape_nd_of_vec.
  assert (H : forallb (shape_eqb (Some [length r])) (map shape (map nd_of_vec rows)) = true).
  { clear F Hne. induction F' as [|s rows Hs _ IH]; [reflexivity|].
    cbn [map forallb]. rewrite IH, shape_nd_of_vec, Hs, shape_eqb_refl. reflexivity. }
  rewrite H. simpl. rewrite map_length. reflexivity.
Qed.
Lemma flat_nd_of_rows (rows : list (vec N)) : flat (nd_of_rows rows) = concat rows.
Proof.
  unfold nd_of_rows. cbn [flat]. induction rows as [|r rows IH]; [reflexivity|].
  cbn [map flat_map concat]. rewrite flat_nd_of_vec, IH. reflexivity.
Qed.
Lemma rows_of_nd_of_rows (rows : list (vec N)) : rows_of (nd_of_rows rows) = rows.
Proof.
  unfold nd_of_rows, rows_of. rewrite map_map. rewrite <- (map_id rows) at 2.
  apply map_ext; apply flat_nd_of_vec.
Qed.
Lemma points_of_rect (rows : list (vec N)) d : rows <> [] -> Forall (fun r => length r = d) rows ->
  points_of rows = (let* _ := base_new (concat rows) in Ok rows).
Proof.
  intros H F. unfold points_of, array2d_new. rewrite (shape_nd_of_rows rows d) by auto.
  rewrite flat_nd_of_rows, rows_of_nd_of_rows. reflexivity.
Qed.
End Ctor.

Lemma point_of_R (v : pt) : v <> [] -> point_of (N:=RNum) v = Ok v.
Proof. intro H. unfold point_of. rewrite array1d_of_vec, base_new_ok; auto using forallb_nfin_R. Qed.
Lemma vector_of_R (v : pt) : v <> [] -> vector_of (N:=RNum) v = Ok v.
Proof. apply point_of_R. Qed.
Lemma point_of_nil {N : Num} : point_of (N:=N) [] = Raise err_empty.
Proof. reflexivity. Qed.
Lemma point_of_inv {N : Num} (v w : vec N) : point_of v = Ok w -> w = v /\ v <> [] /\ forallb nfin v = true.
Proof.
  unfold point_of. rewrite array1d_of_vec. unfold base_new. destruct v; simpl; [discriminate|].
  destruct (nfin n && forallb nfin v) eqn:E; simpl; [|discriminate]. intro H; injection H as <-. repeat split; congruence.
Qed.
Lemma vector_of_inv {N : Num} (v w : vec N) : vector_of v = Ok w -> w = v /\ v <> [] /\ forallb nfin v = true.
Proof. apply point_of_inv. Qed.
Lemma concat_nonempty {A} (rows : list (list A)) d : rows <> [] -> (0 < d)%nat -> Forall (fun r => length r = d) rows -> concat rows <> [].
Proof.
  intros H Hd F. destruct F as [|r rows Hr F]; [contradiction|]. simpl. destruct r; simpl in *; [lia|discriminate].
Qed.
Lemma points_of_R (rows : list pt) d : rows <> [] -> (0 < d)%nat -> Forall (fun r => length r = d) rows ->
  points_of (N:=RNum) rows = Ok rows.
Proof.
  intros H Hd F. rewrite (points_of_rect rows d) by auto. rewrite base_new_ok; auto.
  - eapply concat_nonempty; eauto.
  - apply forallb_nfin_R.
Qed.
(** Converse: what a successful Points construction guarantees. *)
Lemma shape_nd_of_rows_inv {N : Num} (rows : list (vec N)) s : shape (nd_of_rows rows) = Some s ->
  rows = [] \/ (rows <> [] /\ exists d, Forall (fun r => length r = d) rows /\ s = [length rows; d]).
Proof.
  destruct rows as [|r rows]; [left; auto|]. intro H. right. split; [discriminate|]. exists (length r).
  assert (F : Forall (fun r0 => length r0 = length r) (r :: rows)).
  { unfold nd_of_rows in H. cbn [map shape] in H. rewrite shape_nd_of_vec in H.
    destruct (forallb _ _) eqn:E; [|discriminate]. clear H. constructor; auto.
    induction rows as [|q rows IH]; constructor.
    - cbn [map forallb] in E. apply andb_true_iff in E as [E _]. rewrite shape_nd_of_vec in E.
      unfold shape_eqb in E. destruct list_eq_dec as [e|e]; congruence.
    - apply IH. cbn [map forallb] in E. apply andb_true_iff in E as [_ E]. exact E. }
  split; auto. rewrite (shape_nd_of_rows (r :: rows) (length r)) in H; congruence.
Qed.
Lemma points_of_inv {N : Num} (rows out : list (vec N)) : points_of rows = Ok out ->
  out = rows /\ rows <> [] /\ (0 < dim2 rows)%nat /\ Forall (fun r => length r = dim2 rows) rows /\ forallb nfin (concat rows) = true.
Proof.
  unfold points_of, array2d_new. destruct (shape (nd_of_rows rows)) as [s|] eqn:E; [|discriminate].
  destruct (shape_nd_of_rows_inv rows s E) as [->|(Hne & d & F & ->)].
  { simpl in E. injection E as <-. simpl. discriminate. }
  cbn [length negb Nat.eqb]. rewrite flat_nd_of_rows, rows_of_nd_of_rows. intro H. inv_bind H. injection H as <-.
  assert (Hd : dim2 rows = d) by (destruct F; [contradiction|auto]). rewrite Hd.
  unfold base_new in E0. destruct (Nat.eqb_spec (length (concat rows)) 0) as [L|L]; [discriminate|].
  destruct (forallb nfin (concat rows)); [|discriminate].
  repeat split; auto. destruct d; [|lia]. exfalso. apply L.
  clear -F. induction F as [|r rows Hr F IH]; simpl; auto. rewrite app_length, Hr; auto.
Qed.

(** ** Vector operations *)
Lemma sub_nonempty a b : a <> [] -> length a = length b -> sub a b <> [].
Proof. destruct a, b; simpl; congruence. Qed.
Lemma from_points_R (a b : pt) : length a = length b -> a <> [] -> from_points (N:=RNum) a b = Ok (sub b a).
Proof.
  intros H Hne. unfold from_points. rewrite bcast_eq by auto. cbn [bind].
  change (nsub (n:=RNum)) with Rminus. rewrite map2_sub. apply vector_of_R.
  apply sub_nonempty; auto. destruct a, b; simpl in *; congruence.
Qed.
Lemma norm_R (v : pt) : norm (N:=RNum) v = Ok (len v).
Proof. unfold norm. rewrite norm_raw_len. reflexivity. Qed.
Lemma unit_R (v : pt) : ~ is_zero_vec v -> unit_vec (N:=RNum) v = Ok (scale (/ len v) v).
Proof.
  intro H. unfold unit_vec. rewrite norm_R. cbn [bind]. pose proof (len_pos v H).
  change (neqb (n:=RNum)) with Reqb; change (n0 (n:=RNum)) with 0. rb; [lra|]. apply vdivs_R; lra.
Qed.
Lemma unit_R_zero (v : pt) : is_zero_vec v -> unit_vec (N:=RNum) v = Raise (ValueError "The magnitude must not be zero.").
Proof.
  intro H. unfold unit_vec. rewrite norm_R. cbn [bind]. apply len_zero_iff in H. rewrite H.
  change (neqb (n:=RNum)) with Reqb; change (n0 (n:=RNum)) with 0. rewrite Reqb_refl. reflexivity.
Qed.
Lemma distance_point_R (a b : pt) : length a = length b -> a <> [] -> distance_point (N:=RNum) a b = Ok (dist a b).
Proof.
  intros H Hne. unfold distance_point. rewrite from_points_R by auto. cbn [bind]. rewrite norm_R.
  fold (dist b a). rewrite dist_sym. reflexivity.
Qed.
Lemma project_vector_R (v o : pt) : length v = length o -> ~ is_zero_vec v ->
  project_vector (N:=RNum) v o = Ok (scale (dot v o / dot v v) v).
Proof.
  intros H Hz. unfold project_vector. rewrite !np_dot_R by auto. cbn [bind].
  pose proof (dot_self_pos v Hz). rewrite ndiv_R by lra. cbn [bind]. apply vmuls_R.
Qed.

(** ** isclose *)
Lemma rel_default_eq : rel_tol (tol_default (N:=RNum)) = rel_default.
Proof. unfold tol_default, rel_tol, rel_default. cbn [ndyad RNum]. unfold Rdyad. f_equal. Qed.
Lemma abs_default_eq : abs_tol (tol_default (N:=RNum)) = 0.
Proof. reflexivity. Qed.
Lemma rel_default_bounds : 0 < rel_default < 1 / 10 ^ 8.
Proof. unfold rel_default. split; lra. Qed.

(** [MkTol r a] with non-negative entries. *)
Definition tol_ok (t : tol RNum) : Prop := 0 <= rel_tol t /\ 0 <= abs_tol t.
Lemma tol_default_ok : tol_ok tol_default.
Proof. unfold tol_ok. rewrite rel_default_eq, abs_default_eq. pose proof rel_default_bounds; lra. Qed.

Lemma close_alt rel abst a b : 0 <= rel -> 0 <= abst ->
  (close rel abst a b <-> a = b \/ Rabs (b - a) <= Rabs (rel * b) \/ Rabs (b - a) <= Rabs (rel * a) \/ Rabs (b - a) <= abst).
Proof.
  intros Hr Ha. unfold close. rewrite !Rabs_mult, (Rabs_pos_eq rel) by auto. rewrite (Rabs_minus_sym a b).
  split.
  - intro H. apply Rmax_Rle in H as [H|H]; [|tauto]. rewrite <- RmaxRmult in H by auto.
    apply Rmax_Rle in H as [H|H]; tauto.
  - rewrite <- RmaxRmult by auto. intros [->|[H|[H|H]]].
    + rewrite Rminus_diag_eq, Rabs_R0 by auto. eapply Rle_trans; [exact Ha|apply Rmax_r].
    + eapply Rle_trans; [exact H|]. eapply Rle_trans; [|apply Rmax_l]. apply Rmax_r.
    + eapply Rle_trans; [exact H|]. eapply Rle_trans; [|apply Rmax_l]. apply Rmax_l.
    + eapply Rle_trans; [exact H|]. apply Rmax_r.
Qed.
Lemma isclose_R (t : tol RNum) a b : tol_ok t ->
  exists r, isclose t a b = Ok r /\ (r = true <-> close (rel_tol t) (abs_tol t) a b).
Proof.
  intros [Hr Ha]. pose proof (close_alt (rel_tol t) (abs_tol t) a b Hr Ha) as CA. unfold isclose. simpl.
  destruct (Rltb (rel_tol t) 0) eqn:E1; [apply Rltb_true in E1; lra|].
  destruct (Rltb (abs_tol t) 0) eqn:E2; [apply Rltb_true in E2; lra|]. simpl.
  destruct (Reqb a b) eqn:E3.
  { apply Reqb_true in E3. eexists; split; eauto. rewrite CA. tauto. }
  apply Reqb_false in E3.
  eexists; split; [reflexivity|]. rewrite CA, !orb_true_iff, !Rleb_true. tauto.
Qed.
Lemma isclose_neg (t : tol RNum) a b : ~ tol_ok t -> isclose t a b = Raise (ValueError "tolerances must be non-negative").
Proof.
  intro H. unfold isclose. simpl. destruct (Rltb (rel_tol t) 0) eqn:E1; [reflexivity|].
  destruct (Rltb (abs_tol t) 0) eqn:E2; [reflexivity|].
  apply Rltb_false in E1. apply Rltb_false in E2. exfalso; apply H; split; auto.
Qed.
Lemma isclose_true (t : tol RNum) a b : tol_ok t -> (isclose t a b = Ok true <-> close (rel_tol t) (abs_tol t) a b).
Proof. intro H. destruct (isclose_R t a b H) as (r & -> & E). rewrite <- E. split; congruence. Qed.
Lemma isclose_false (t : tol RNum) a b : tol_ok t -> (isclose t a b = Ok false <-> ~ close (rel_tol t) (abs_tol t) a b).
Proof.
  intro H. destruct (isclose_R t a b H) as (r & -> & E). rewrite <- E. destruct r; split; congruence.
Qed.
Lemma close_zero rel abst x : 0 <= rel < 1 -> 0 <= abst -> (close rel abst x 0 <-> Rabs x <= abst).
Proof.
  intros [H0 H1] Ha. unfold close. rewrite Rminus_0_r, Rabs_R0.
  rewrite (Rmax_left (Rabs x) 0) by apply Rabs_pos. pose proof (Rabs_pos x).
  split; intro H2.
  - apply Rmax_Rle in H2 as [H2|H2]; auto. assert (Rabs x = 0) by nra. lra.
  - eapply Rle_trans; [exact H2|apply Rmax_r].
Qed.
Lemma close_default_zero x : close rel_default 0 x 0 <-> x = 0.
Proof.
  rewrite close_zero by (pose proof rel_default_bounds; lra). split; intro H.
  - pose proof (Rabs_pos x). destruct (Req_dec x 0); auto. apply Rabs_pos_lt in H1. lra.
  - subst; rewrite Rabs_R0; lra.
Qed.
Lemma close_refl rel abst a : 0 <= rel -> 0 <= abst -> close rel abst a a.
Proof. intros. apply close_alt; auto. Qed.
Lemma close_sym rel abst a b : close rel abst a b -> close rel abst b a.
Proof. unfold close. rewrite Rabs_minus_sym, Rmax_comm. rewrite (Rmax_comm (Rabs a)). rewrite Rmax_comm. auto. Qed.
Lemma close_exact a b : close 0 0 a b <-> a = b.
Proof.
  unfold close. rewrite Rmult_0_l, Rmax_left by lra. split; intro H.
  - pose proof (Rabs_pos (a - b)). destruct (Req_dec (a - b) 0) as [E|E]; [lra|]. apply Rabs_pos_lt in E. lra.
  - rewrite Rminus_diag_eq, Rabs_R0 by auto; lra.
Qed.
Lemma isclose_default_zero x : isclose (tol_default (N:=RNum)) x 0 = Ok (if Req_EM_T x 0 then true else false).
Proof.
  destruct (Req_EM_T x 0) as [E|E].
  - apply isclose_true; auto using tol_default_ok. rewrite rel_default_eq, abs_default_eq. apply close_default_zero; auto.
  - apply isclose_false; auto using tol_default_ok. rewrite rel_default_eq, abs_default_eq. rewrite close_default_zero; auto.
Qed.

Lemma is_zero_default (v : pt) : is_zero (tol_default (N:=RNum)) v = Ok (if is_zero_vec_dec v then true else false).
Proof.
  unfold is_zero. rewrite np_dot_R by auto. cbn [bind]. change (n0 (n:=RNum)) with 0. rewrite isclose_default_zero.
  destruct (is_zero_vec_dec v) as [H|H]; destruct (Req_EM_T (dot v v) 0) as [E|E]; auto.
  - exfalso; apply E, zero_dot; auto.
  - exfalso; apply H, dot_self_zero; auto.
Qed.

(** ** Line / plane constructors *)
Lemma check_point_vector_R (p d : pt) : length p = length d -> ~ is_zero_vec d ->
  check_point_vector (N:=RNum) p d = Ok (p, d).
Proof.
  intros H Hz. assert (Hd : d <> []) by (apply not_zero_nonempty; auto).
  assert (Hp : p <> []) by (destruct p, d; simpl in *; congruence).
  unfold check_point_vector. rewrite point_of_R, vector_of_R by auto. cbn [bind].
  unfold dim1. rn. rewrite H, Nat.eqb_refl. cbn [negb]. rewrite is_zero_default.
  destruct (is_zero_vec_dec d); [contradiction|reflexivity].
Qed.
Lemma check_point_vector_inv (p d : pt) x : check_point_vector (N:=RNum) p d = Ok x ->
  x = (p, d) /\ length p = length d /\ ~ is_zero_vec d /\ p <> [].
Proof.
  unfold check_point_vector. intro H. inv_bind H. inv_bind H.
  apply point_of_inv in E as (-> & Hp & _). apply vector_of_inv in E0 as (-> & Hd & _).
  unfold dim1 in H. rn. destruct (Nat.eqb_spec (length p) (length d)) as [L|L]; [|discriminate]. cbn [negb] in H.
  rewrite is_zero_default in H. cbn [bind] in H. destruct (is_zero_vec_dec d); [discriminate|].
  injection H as <-. auto.
Qed.
Lemma line_new_R (p d : pt) : length p = length d -> ~ is_zero_vec d -> line_new (N:=RNum) p d = Ok (MkLine p d).
Proof. intros. unfold line_new. rewrite check_point_vector_R by auto. reflexivity. Qed.
Lemma line_new_inv (p d : pt) l : line_new (N:=RNum) p d = Ok l ->
  l = MkLine p d /\ length p = length d /\ ~ is_zero_vec d /\ p <> [].
Proof.
  unfold line_new. intro H. inv_bind H. apply check_point_vector_inv in E as (-> & E). injection H as <-. auto.
Qed.
