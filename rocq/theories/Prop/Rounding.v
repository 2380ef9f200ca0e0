(** * Property C71: round on Point, Vector and Points *)
From Coq Require Import String Reals List ZArith Lra Lia Psatz Bool.
From Verif.Model Require Import Outcome Num Instances Numpy BaseArray.
From Verif.Spec Require Import Geometry Rounding.
From Verif.Proof Require Import VecAlg Bridge Arrays Vectors Points Rounding.
Import ListNotations.
Local Open Scope R_scope.

Lemma mapM_forall2 {A B} (f : A -> res B) (P : A -> B -> Prop) (l : list A) (k : list B) :
  (forall x y, In x l -> (f x = Ok y <-> P x y)) -> (mapM f l = Ok k <-> Forall2 P l k).
Proof.
  revert k. induction l as [|x l IH]; intros k H.
  - simpl. split; [intro E; injection E as <-; constructor|intro E; inversion E; reflexivity].
  - cbn [mapM]. split.
    + intro E. apply bind_ok_inv in E as (y & E1 & E). apply bind_ok_inv in E as (ys & E2 & E). injection E as <-. constructor; [apply H; simpl; auto|]. apply IH; auto. intros; apply H; simpl; auto.
    + intro E. inversion E as [|? y ? ys Q1 Q2]; subst. apply H in Q1; [|simpl; auto]. rewrite Q1. cbn [bind]. apply IH in Q2; [rewrite Q2; reflexivity|]. intros; apply H; simpl; auto.
Qed.
Lemma mapM_total {A B} (f : A -> res B) (l : list A) : (forall x, In x l -> exists y, f x = Ok y) -> exists k, mapM f l = Ok k.
Proof.
  induction l as [|x l IH]; intro H; [exists []; reflexivity|]. destruct (H x) as (y & Ey); [simpl; auto|]. destruct IH as (ys & Eys); [intros; apply H; simpl; auto|].
  exists (y :: ys). cbn [mapM]. rewrite Ey. cbn [bind]. rewrite Eys. reflexivity.
Qed.

Lemma Forall2_len {A B} (P : A -> B -> Prop) l k : Forall2 P l k -> length l = length k.
Proof. induction 1; simpl; auto. Qed.

(** Every coordinate becomes its rounded value ([rounded] determines it); shape and dimension are kept. *)
Theorem C71_round : forall (v : pt) (d : Z), exists w, round1 (N:=RNum) v d = Ok w /\ length w = length v /\ Forall2 (rounded d) v w /\
  (forall w', Forall2 (rounded d) v w' -> w' = w).
Proof.
  intros v d. destruct (mapM_total (np_round (N:=RNum) d) v) as (w & E); [intros x _; destruct (rounded_exists d x) as (y & E & _); eauto|]. exists w.
  assert (F : forall k, mapM (np_round (N:=RNum) d) v = Ok k <-> Forall2 (rounded d) v k) by (intro k; apply (mapM_forall2 (B:=R)); intros x y _; apply rounded_R).
  split; [exact E|]. pose proof (proj1 (F w) E) as W. split; [symmetry; eapply Forall2_len; eauto|]. split; auto.
  intros w' W'. apply F in W'. rewrite E in W'. injection W' as ->. reflexivity.
Qed.
Print Assumptions C71_round.
Theorem C71_round_points : forall (rows : list pt) (d : Z), exists ws, round2 (N:=RNum) rows d = Ok ws /\ Forall2 (Forall2 (rounded d)) rows ws.
Proof.
  intros rows d. destruct (mapM_total (fun r => round1 (N:=RNum) r d) rows) as (w & E); [intros x _; destruct (C71_round x d) as (y & Ey & _); eauto|]. exists w.
  split; [exact E|]. revert E. apply (mapM_forall2 (A:=pt) (B:=pt) (fun r => round1 (N:=RNum) r d)). intros x y _. destruct (C71_round x d) as (z & Ez & _ & Fz & Uz). split; intro K.
  - pose proof (eq_trans (eq_sym Ez) K) as Q. injection Q as <-. auto.
  - rewrite (Uz y K). auto.
Qed.
Print Assumptions C71_round_points.
(** Rounding twice changes nothing more, is monotone, and leaves a coordinate that is already a multiple of 10^-d alone. *)
Theorem C71_round_idempotent : forall (v w : pt) (d : Z), round1 (N:=RNum) v d = Ok w -> round1 (N:=RNum) w d = Ok w.
Proof.
  intros v w d E. destruct (C71_round v d) as (w' & E' & _ & F & _). pose proof (eq_trans (eq_sym E) E') as Q. injection Q as <-.
  apply (mapM_forall2 (B:=R) (np_round (N:=RNum) d) (rounded d)); [intros x y _; apply rounded_R|]. clear E E'. induction F; constructor; auto. eapply rounded_idem; eauto.
Qed.
Print Assumptions C71_round_idempotent.
Theorem C71_rounded_facts : forall (d : Z) (x x' y y' : R), rounded d x y -> rounded d x' y' ->
  Rabs (y - x) <= / 2 * powerRZ 10 (- d) /\ (x <= x' -> y <= y') /\ ((exists k : Z, x = IZR k * powerRZ 10 (- d)) -> y = x) /\ rounded d (- x) (- y) /\
  (forall k : Z, Rabs (y - x) <= Rabs (IZR k * powerRZ 10 (- d) - x)).
Proof.
  intros d x x' y y' H H'. split; [destruct H as (k & _ & B & _); auto|]. split; [intro; eapply rounded_mono; eauto|]. split; [|split].
  - intros (k & E). apply (rounded_unique d x); auto. apply (rounded_fix d x k E).
  - destruct H as (k & E & B & C). exists (- k)%Z. assert (Q : Rabs (- y - - x) = Rabs (y - x)) by (rewrite <- Rabs_Ropp; f_equal; ring). rewrite Q.
    split; [rewrite E, opp_IZR; ring|]. split; auto. intro Z. rewrite Z.even_opp. auto.
  - intro k. destruct H as (j & E & B & C). destruct (Rle_dec (Rabs (y - x)) (Rabs (IZR k * powerRZ 10 (- d) - x))) as [|N]; auto. exfalso.
    pose proof (pow10_pos (- d)) as P. assert (Rabs (IZR k * powerRZ 10 (- d) - x) < / 2 * powerRZ 10 (- d)) by lra.
    assert (y = IZR k * powerRZ 10 (- d)); [|subst y; rewrite H0 in *; lra]. apply (rounded_unique d x); [exists j; auto|]. exists k. split; auto. split; [lra|]. intro; lra.
Qed.
Print Assumptions C71_rounded_facts.
Example C71_nonvacuous : rounded 0 (5 / 2) 2 /\ rounded 1 (- (1 / 20)) 0.
Proof.
  split; [exists 2%Z|exists 0%Z]; simpl; (split; [lra|]); (split; [|reflexivity]).
  - replace (2 - 5 / 2) with (- (1 / 2)) by lra. rewrite Rabs_Ropp, Rabs_pos_eq; lra.
  - replace (0 - - (1 / 20)) with (1 / 20) by lra. rewrite Rabs_pos_eq; lra.
Qed.
