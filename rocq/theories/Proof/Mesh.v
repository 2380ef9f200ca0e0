(** * Meshes (lists of rows) and their enumeration by _mesh_to_points *)
From Coq Require Import String Reals List ZArith Lra Lia Psatz Bool.
From Verif.Model Require Import Outcome Num Instances Numpy BaseArray Vector Points Functions Line Plane.
From Verif.Spec Require Import Geometry Mesh.
From Verif.Proof Require Import VecAlg Bridge Arrays Vectors Points Lines.
Import ListNotations.
Local Open Scope R_scope.

Lemma mesh_row n m M i : is_mesh n m M -> (i < n)%nat -> length (nth i M []) = m.
Proof. intros [L F] H. rewrite Forall_forall in F. apply F. apply nth_In. lia. Qed.
Lemma concat_length n m (M : list pt) : is_mesh n m M -> length (concat M) = (n * m)%nat.
Proof.
  intros [L F]. revert n L. induction M as [|r M IH]; intros n L; simpl in *; [subst; auto|].
  inversion F; subst. rewrite app_length, (IH H2 (length M)) by auto. lia.
Qed.
Lemma concat_nth n m (M : list pt) i j : is_mesh n m M -> (i < n)%nat -> (j < m)%nat ->
  nth (i * m + j) (concat M) 0 = ent M i j.
Proof.
  unfold ent. intros [L F]. revert n L i. induction M as [|r M IH]; intros n L i Hi Hj; simpl in *; [lia|].
  inversion F as [|? ? Hr F']; subst. destruct i as [|i]; cbn [nth].
  - rewrite app_nth1 by lia. simpl. reflexivity.
  - rewrite app_nth2 by (simpl; lia). replace (S i * length r + j - length r)%nat with (i * length r + j)%nat by (simpl; lia).
    apply (IH F' (length M)); lia.
Qed.
Lemma zip3_length (xs ys zs : list R) k : length xs = k -> length ys = k -> length zs = k -> length (zip3 (N:=RNum) xs ys zs) = k.
Proof.
  revert ys zs k. induction xs as [|x xs IH]; intros [|y ys] [|z zs] k; simpl; intros; subst; try discriminate; auto.
Qed.
Lemma zip3_nth (xs ys zs : list R) k i : length xs = k -> length ys = k -> length zs = k -> (i < k)%nat ->
  nth i (zip3 (N:=RNum) xs ys zs) [] = [nth i xs 0; nth i ys 0; nth i zs 0].
Proof.
  revert ys zs k i. induction xs as [|x xs IH]; intros [|y ys] [|z zs] k i; simpl; intros; subst; try lia; try discriminate.
  destruct i; auto. rn. apply (IH ys zs (length xs)); lia.
Qed.
Lemma zip3_row (xs ys zs : list R) r : In r (zip3 (N:=RNum) xs ys zs) -> length r = 3%nat.
Proof. revert ys zs. induction xs as [|x xs IH]; intros [|y ys] [|z zs]; simpl; try tauto. intros [<-|H]; auto. eapply IH; eauto. Qed.

(** The points of a mesh in row-major order. *)
Lemma mesh_to_points_spec n m (X Y Z : list pt) : is_mesh n m X -> is_mesh n m Y -> is_mesh n m Z ->
  let ps := mesh_to_points (N:=RNum) X Y Z in
  length ps = (n * m)%nat /\ Forall (fun r => length r = 3%nat) ps /\
  forall i j, (i < n)%nat -> (j < m)%nat -> nth (i * m + j) ps [] = [ent X i j; ent Y i j; ent Z i j].
Proof.
  intros HX HY HZ ps. pose proof (concat_length _ _ _ HX). pose proof (concat_length _ _ _ HY). pose proof (concat_length _ _ _ HZ).
  unfold ps, mesh_to_points. split; [apply zip3_length; auto|]. split.
  - apply Forall_forall. intros r Hr. eapply zip3_row; eauto.
  - intros i j Hi Hj. rn. rewrite (zip3_nth _ _ _ (n * m)%nat) by (auto; nia).
    rewrite !(concat_nth n m) by auto. reflexivity.
Qed.
(** ... and as a Points object. *)
Lemma to_points_gen_R n m (X Y Z : list pt) : is_mesh n m X -> is_mesh n m Y -> is_mesh n m Z -> (0 < n)%nat -> (0 < m)%nat ->
  to_points_gen (N:=RNum) (Ok (X, Y, Z)) = Ok (mesh_to_points (N:=RNum) X Y Z).
Proof.
  intros HX HY HZ Hn Hm. destruct (mesh_to_points_spec n m X Y Z HX HY HZ) as (L & F & _).
  unfold to_points_gen. cbn [bind]. apply (points_of_R _ 3%nat); [|lia|exact F].
  intro E. rn. rewrite E in L. simpl in L. nia.
Qed.
Lemma to_points_gen_empty (X Y Z : list pt) n m : is_mesh n m X -> is_mesh n m Y -> is_mesh n m Z -> (n * m = 0)%nat ->
  exists e, to_points_gen (N:=RNum) (Ok (X, Y, Z)) = Raise (ValueError e).
Proof.
  intros HX HY HZ H. destruct (mesh_to_points_spec n m X Y Z HX HY HZ) as (L & _ & _).
  unfold to_points_gen. cbn [bind]. rewrite H in L. destruct (mesh_to_points (N:=RNum) X Y Z); [|discriminate].
  eexists. reflexivity.
Qed.
(** Enumeration: exactly the mesh points. *)
Lemma mesh_in n m (ps : list pt) (f : nat -> nat -> pt) : length ps = (n * m)%nat ->
  (forall i j, (i < n)%nat -> (j < m)%nat -> nth (i * m + j) ps [] = f i j) ->
  forall q, In q ps <-> exists i j, (i < n)%nat /\ (j < m)%nat /\ q = f i j.
Proof.
  intros L H q. split.
  - intro Hq. apply (In_nth _ _ []) in Hq as (k & Hk & <-). rewrite L in Hk. assert (m <> 0)%nat by nia.
    exists (k / m)%nat, (k mod m)%nat. split; [apply Nat.div_lt_upper_bound; nia|]. split; [apply Nat.mod_upper_bound; auto|].
    rewrite <- H; [|apply Nat.div_lt_upper_bound; nia|apply Nat.mod_upper_bound; auto]. f_equal.
    rewrite (Nat.div_mod k m) at 1 by auto. lia.
  - intros (i & j & Hi & Hj & ->). rewrite <- H by auto. apply nth_In. nia.
Qed.

(** numpy mesh operations *)
Lemma nth_const_map {A B} (c : B) (l : list A) i d : (i < length l)%nat -> nth i (map (fun _ => c) l) d = c.
Proof. revert i; induction l; intros [|i] H; simpl in *; try lia; auto. apply IHl; lia. Qed.
Lemma nth_map_in {A B} (f : A -> B) l i d d' : (i < length l)%nat -> nth i (map f l) d' = f (nth i l d).
Proof. intro H. rewrite (nth_indep _ d' (f d)) by (rewrite map_length; auto). apply map_nth. Qed.
Lemma meshgrid_R (xs ys : list R) X Y : meshgrid (N:=RNum) xs ys = (X, Y) ->
  is_mesh (length ys) (length xs) X /\ is_mesh (length ys) (length xs) Y /\
  forall i j, (i < length ys)%nat -> (j < length xs)%nat -> ent X i j = nth j xs 0 /\ ent Y i j = nth i ys 0.
Proof.
  unfold meshgrid. intro E. injection E as <- <-. split; [split; [apply map_length|apply Forall_map, Forall_forall; auto]|].
  split; [split; [apply map_length|apply Forall_map, Forall_forall; intros; apply map_length]|].
  intros i j Hi Hj. unfold ent. rn. rewrite nth_const_map by auto. split; auto.
  rewrite (nth_map_in _ _ _ 0) by auto. apply nth_const_map; auto.
Qed.
Lemma length_map2 (f : R -> R -> R) (a b : pt) : length (map2 (N:=RNum) f a b) = Nat.min (length a) (length b).
Proof. revert b; induction a as [|x a IH]; intros [|y b]; simpl; auto. Qed.
Lemma nth_map2 (f : R -> R -> R) (a b : pt) i : (i < length a)%nat -> (i < length b)%nat ->
  nth i (map2 (N:=RNum) f a b) 0 = f (nth i a 0) (nth i b 0).
Proof.
  revert b i; induction a as [|x a IH]; intros [|y b] i; simpl; try lia. destruct i; auto. intros. rn. apply IH; lia.
Qed.
Lemma nth_combine {A B} (l : list A) (k : list B) i a b : length l = length k -> nth i (combine l k) (a, b) = (nth i l a, nth i k b).
Proof. intro H. apply combine_nth; auto. Qed.
Lemma mesh2_R (f : R -> R -> R) n m (X Y : list pt) : is_mesh n m X -> is_mesh n m Y ->
  is_mesh n m (mesh2 (N:=RNum) f X Y) /\
  forall i j, (i < n)%nat -> (j < m)%nat -> ent (mesh2 (N:=RNum) f X Y) i j = f (ent X i j) (ent Y i j).
Proof.
  intros HX HY. pose proof HX as [LX FX]. pose proof HY as [LY FY]. unfold mesh2. split; [split|].
  - rewrite map_length, combine_length. rn. lia.
  - apply Forall_map, Forall_forall. intros [x y] H. cbn [fst snd]. rewrite length_map2.
    rewrite Forall_forall in FX, FY. rewrite (FX x), (FY y); [lia|eapply in_combine_r; eauto|eapply in_combine_l; eauto].
  - intros i j Hi Hj. unfold ent. rn. rewrite (nth_map_in _ _ _ ([], [])) by (rewrite combine_length; rn; lia).
    rewrite nth_combine by (rn; lia). cbn [fst snd]. apply nth_map2; rewrite (mesh_row n m); auto.
Qed.
(** Division of a mesh by a non-zero number. *)
Lemma mesh_div_R (den : R) (M : list pt) n m : den <> 0 -> is_mesh n m M ->
  exists W, mapM (fun row => mapM (fun v => ndiv (n:=RNum) v den) row) M = Ok W /\ is_mesh n m W /\
    forall i j, (i < n)%nat -> (j < m)%nat -> ent W i j = ent M i j / den.
Proof.
  intros H [L F]. exists (map (map (fun v => v / den)) M). split; [|split; [split|]].
  - apply mapM_map. intros row _. apply mapM_map. intros v _. apply ndiv_R; auto.
  - rewrite map_length; auto.
  - apply Forall_map. eapply Forall_impl; [|exact F]. intros r Hr. simpl in *. rewrite map_length; auto.
  - intros i j Hi Hj. unfold ent. rewrite (nth_map_in _ _ _ []) by lia. rewrite (nth_map_in _ _ _ 0); auto.
    rewrite (mesh_row n m) by (auto; split; auto). auto.
Qed.
