(** * Facts about the model of objects/points.py over the reals *)
From Coq Require Import String Reals List ZArith Lra Lia Psatz Bool Permutation Sorted.
From Verif.Model Require Import Outcome Num Instances Numpy BaseArray Vector Points Functions.
From Verif.Spec Require Import Geometry Tolerance.
From Verif.Proof Require Import VecAlg Bridge Arrays Vectors.
Import ListNotations.
Local Open Scope R_scope.

(** ** Sums *)
Lemma dot_sub_sub u w : length u = length w -> dot (sub u w) (sub u w) = dot u u - 2 * dot u w + dot w w.
Proof. intro L. rewrite dot_sub_l by auto. rewrite !dot_sub_r by auto. rewrite (dot_comm w u). ring. Qed.
Lemma dot_add_add u w : length u = length w -> dot (add u w) (add u w) = dot u u + 2 * dot u w + dot w w.
Proof. intro L. rewrite dot_add_l by auto. rewrite !dot_add_r by auto. rewrite (dot_comm w u). ring. Qed.
Lemma length_vsum d vs : Forall (fun r => length r = d) vs -> length (vsum d vs) = d.
Proof. induction 1 as [|v vs Hv _ IH]; simpl. - apply length_origin. - rewrite length_add, IH, Hv. lia. Qed.
Lemma vsum_cons d v vs : vsum d (v :: vs) = add v (vsum d vs). Proof. reflexivity. Qed.
Lemma vsum_perm d vs ws : Permutation vs ws -> vsum d vs = vsum d ws.
Proof.
  induction 1; simpl; auto; [congruence| |congruence].
  rewrite <- !add_assoc, (add_comm y x). reflexivity.
Qed.
Lemma dot_vsum d vs q : Forall (fun r => length r = d) vs -> dot (vsum d vs) q = Rsum (map (fun v => dot v q) vs).
Proof.
  induction 1 as [|v vs Hv F IH]; simpl. - apply dot_origin_l.
  - rewrite dot_add_l by (rewrite length_vsum; auto). rewrite IH. reflexivity.
Qed.
Lemma Rsum_app a b : Rsum (a ++ b) = Rsum a + Rsum b.
Proof. induction a; simpl; [ring|]. rewrite IHa. ring. Qed.
Lemma Rsum_map_add {A} (f g : A -> R) l : Rsum (map (fun x => f x + g x) l) = Rsum (map f l) + Rsum (map g l).
Proof. induction l; simpl; [ring|]. rewrite IHl. ring. Qed.
Lemma Rsum_map_scale {A} (f : A -> R) c l : Rsum (map (fun x => c * f x) l) = c * Rsum (map f l).
Proof. induction l; simpl; [ring|]. rewrite IHl. ring. Qed.
Lemma Rsum_map_const {A} c (l : list A) : Rsum (map (fun _ => c) l) = INR (length l) * c.
Proof. induction l; [simpl; ring|]. cbn [map Rsum fold_right length]. change (fold_right Rplus 0 (map (fun _ : A => c) l)) with (Rsum (map (fun _ => c) l)). rewrite IHl, S_INR. ring. Qed.
Lemma Rsum_map_ext {A} (f g : A -> R) l : (forall x, In x l -> f x = g x) -> Rsum (map f l) = Rsum (map g l).
Proof. intro H. f_equal. apply map_ext_in; auto. Qed.
Lemma Rsum_map_le {A} (f g : A -> R) l : (forall x, In x l -> f x <= g x) -> Rsum (map f l) <= Rsum (map g l).
Proof.
  induction l; simpl; intro H; [lra|]. pose proof (H a (or_introl eq_refl)). assert (Rsum (map f l) <= Rsum (map g l)) by (apply IHl; auto). unfold Rsum in *. lra.
Qed.
Lemma Rsum_nonneg l : (forall x, In x l -> 0 <= x) -> 0 <= Rsum l.
Proof. induction l; simpl; intro H; [lra|]. pose proof (H a (or_introl eq_refl)). assert (0 <= Rsum l) by (apply IHl; auto). unfold Rsum in *. lra. Qed.
Lemma Rsum_zero l : (forall x, In x l -> 0 <= x) -> Rsum l = 0 -> forall x, In x l -> x = 0.
Proof.
  induction l; simpl; intros H E x Hx; [tauto|]. pose proof (H a (or_introl eq_refl)). assert (0 <= Rsum l) by (apply Rsum_nonneg; auto).
  unfold Rsum in *. destruct Hx as [->|Hx]; [lra|]. apply IHl; auto. lra.
Qed.
Lemma Rsum_perm a b : Permutation a b -> Rsum a = Rsum b.
Proof. induction 1; simpl; unfold Rsum in *; lra. Qed.
Lemma INR_length_pos {A} (l : list A) : l <> [] -> 0 < INR (length l).
Proof. intro H. apply lt_0_INR. destruct l; [contradiction|simpl; lia]. Qed.

Lemma nth_add i a b : length a = length b -> nth i (add a b) 0 = nth i a 0 + nth i b 0.
Proof.
  revert i b; induction a as [|x a IH]; intros [|i] [|y b] L; simpl in *; try discriminate; auto; try ring.
Qed.
Lemma nth_sub i a b : length a = length b -> nth i (sub a b) 0 = nth i a 0 - nth i b 0.
Proof.
  revert i b; induction a as [|x a IH]; intros [|i] [|y b] L; simpl in *; try discriminate; auto; try ring.
Qed.
Lemma nth_scale i s a : nth i (scale s a) 0 = s * nth i a 0.
Proof. revert i; induction a as [|x a IH]; intros [|i]; simpl; auto; try ring. Qed.
Lemma nth_origin i n : nth i (origin n) 0 = 0.
Proof. unfold origin. apply nth_repeat. Qed.
Lemma pt_ext (a b : pt) : length a = length b -> (forall i, (i < length a)%nat -> nth i a 0 = nth i b 0) -> a = b.
Proof. intros L H. apply (nth_ext a b 0 0); auto. Qed.
Lemma nth_vsum d vs j : Forall (fun r => length r = d) vs -> nth j (vsum d vs) 0 = Rsum (map (fun v => nth j v 0) vs).
Proof.
  induction 1 as [|v vs Hv F IH]; simpl. - apply nth_origin.
  - rewrite nth_add by (rewrite length_vsum; auto). rewrite IH. reflexivity.
Qed.

(** ** Centroid *)
Lemma colsum_R d (rows : list pt) : colsum (N:=RNum) d rows = vsum d rows.
Proof. induction rows; [reflexivity|]. change (colsum (N:=RNum) d (a :: rows)) with (map2 (N:=RNum) Rplus a (colsum (N:=RNum) d rows)). rewrite IHrows, map2_add. reflexivity. Qed.

Definition cent (d : nat) (rows : list pt) : pt := scale (/ INR (length rows)) (vsum d rows).

Lemma dim2_ok d (rows : list pt) : points_ok d rows -> dim2 (N:=RNum) rows = d.
Proof. intros (H & _ & F). destruct F; [contradiction|auto]. Qed.
Lemma length_cent d rows : Forall (fun r => length r = d) rows -> length (cent d rows) = d.
Proof. intro F. unfold cent. rewrite length_scale. apply length_vsum; auto. Qed.
Lemma colmean_R d (rows : list pt) : rows <> [] -> colmean (N:=RNum) d rows = Ok (cent d rows).
Proof.
  intro H. unfold colmean, cent. rewrite colsum_R.
  rewrite (mapM_map _ (fun x => / INR (length rows) * x)); [reflexivity|]. intros x _. rops.
  rewrite <- INR_IZR_INZ. pose proof (INR_length_pos rows H). rewrite ndiv_R by lra. f_equal. field. lra.
Qed.
Lemma centroid_R d (rows : list pt) : points_ok d rows -> centroid (N:=RNum) rows = Ok (cent d rows).
Proof.
  intro H. unfold centroid. rewrite (dim2_ok d rows H). destruct H as (H & Hd & F). rewrite colmean_R by auto. cbn [bind].
  apply point_of_R. intro E. apply (f_equal (@length R)) in E. rewrite length_cent in E by auto. simpl in E. lia.
Qed.
Lemma scale_cent d rows : rows <> [] -> scale (INR (length rows)) (cent d rows) = vsum d rows.
Proof. intro H. pose proof (INR_length_pos rows H). unfold cent. rewrite scale_scale, Rinv_r, scale_1 by lra. reflexivity. Qed.
Lemma cent_nth d rows j : Forall (fun r => length r = d) rows -> rows <> [] ->
  nth j (cent d rows) 0 = Rsum (map (fun r => nth j r 0) rows) / INR (length rows).
Proof.
  intros F H. pose proof (INR_length_pos rows H). unfold cent. rewrite nth_scale, nth_vsum by auto. field. lra.
Qed.
Lemma mean_center_c_R d (rows : list pt) : points_ok d rows ->
  mean_center_c (N:=RNum) rows = Ok (map (fun r => sub r (cent d rows)) rows, cent d rows).
Proof.
  intro H. unfold mean_center_c. rewrite (centroid_R d) by auto. cbn [bind]. destruct H as (H & Hd & F).
  rewrite (mapM_map _ (fun r => sub r (cent d rows))); [reflexivity|].
  intros r Hr. apply vsub_R. rewrite length_cent by auto. rewrite Forall_forall in F; auto.
Qed.
Lemma sum_sub_vsum d rows c : Forall (fun r => length r = d) rows -> length c = d ->
  vsum d (map (fun r => sub r c) rows) = sub (vsum d rows) (scale (INR (length rows)) c).
Proof.
  intros F Lc. induction F as [|r rows Hr F IH].
  - cbn [map vsum fold_right length]. change (INR 0) with 0. rewrite scale_0. subst d. rewrite sub_self, length_origin. reflexivity.
  - cbn [map]. rewrite !vsum_cons, IH. change (length (r :: rows)) with (S (length rows)). rewrite S_INR.
    pose proof (length_vsum d rows F).
    apply pt_ext; [len|]. intros i Hi. rewrite nth_add by len. rewrite !nth_sub by len. rewrite nth_add by len. rewrite !nth_scale. ring.
Qed.
Lemma vsum_centered d rows : points_ok d rows -> vsum d (map (fun r => sub r (cent d rows)) rows) = origin d.
Proof.
  intros (H & Hd & F). rewrite sum_sub_vsum by (auto; apply length_cent; auto). rewrite scale_cent by auto. rewrite sub_self, length_vsum; auto.
Qed.

Lemma sumsq_split d rows q : points_ok d rows -> length q = d ->
  sumsq rows q = sumsq rows (cent d rows) + INR (length rows) * (dist q (cent d rows) * dist q (cent d rows)).
Proof.
  intros H Lq. pose proof H as (Hne & Hd & F). set (c := cent d rows). assert (Lc : length c = d) by (apply length_cent; auto).
  unfold sumsq. rewrite (Rsum_map_ext (fun p => dist p q * dist p q)
    (fun p => dist p c * dist p c + (dist q c * dist q c + (-2) * dot (sub p c) (sub q c)))).
  - rewrite Rsum_map_add. rewrite (Rsum_map_add (fun _ => dist q c * dist q c)), Rsum_map_const, Rsum_map_scale.
    assert (E : Rsum (map (fun p => dot (sub p c) (sub q c)) rows) = 0).
    { rewrite <- (map_map (fun p => sub p c) (fun v => dot v (sub q c))). rewrite <- (dot_vsum d).
      - unfold c. rewrite vsum_centered by auto. apply dot_origin_l.
      - apply Forall_map. eapply Forall_impl; [|exact F]. simpl. intros; len. }
    rewrite E. ring.
  - intros p Hp. rewrite Forall_forall in F. specialize (F p Hp). rewrite !dist_sq.
    rewrite (sub_via p q c) by congruence. rewrite dot_sub_sub by len. ring.
Qed.

(** ** vmax *)
Lemma nmax_R a b : nmax (N:=RNum) a b = Rmax a b.
Proof. unfold nmax. rops. rb. - rewrite Rmax_right; lra. - rewrite Rmax_left; lra. Qed.
Lemma fold_max_spec (l : list R) x : let m := fold_left (nmax (N:=RNum)) l x in (m = x \/ In m l) /\ x <= m /\ forall y, In y l -> y <= m.
Proof.
  revert x. induction l as [|a l IH]; intro x; cbn [fold_left].
  - simpl. split; auto. split; [lra|tauto].
  - destruct (IH (nmax (N:=RNum) x a)) as (H1 & H2 & H3). rewrite nmax_R in *. pose proof (Rmax_l x a). pose proof (Rmax_r x a).
    set (m := fold_left (nmax (N:=RNum)) l (Rmax x a)) in *. split.
    + destruct H1 as [E|E]; [|right; right; auto]. unfold Rmax in E. destruct Rle_dec; [right; left; auto|left; auto].
    + split; [lra|]. intros y [<-|Hy]; [lra|auto].
Qed.
Lemma vmax_spec (l : list R) : l <> [] -> In (vmax (N:=RNum) l) l /\ forall y, In y l -> y <= vmax (N:=RNum) l.
Proof.
  destruct l as [|x l]; [contradiction|]. intros _. unfold vmax. destruct (fold_max_spec l x) as (H1 & H2 & H3).
  split. - destruct H1 as [E|E]; [left; auto|right; auto]. - intros y [<-|Hy]; auto.
Qed.

(** ** unique *)
Lemma lex_ltb_R (a b : pt) : lex_ltb (N:=RNum) a b = true <-> lex_lt a b.
Proof.
  revert b; induction a as [|x a IH]; intros [|y b]; simpl; try (split; [discriminate|tauto]).
  rewrite orb_true_iff, andb_true_iff, Rltb_true, Reqb_true, IH. tauto.
Qed.
Lemma lex_lt_trans a b c : lex_lt a b -> lex_lt b c -> lex_lt a c.
Proof.
  revert b c; induction a as [|x a IH]; intros [|y b] [|z c]; simpl; try tauto.
  intros [H|[-> H]] [H'|[-> H']]; auto; [left; lra|]. right; split; auto. eapply IH; eauto.
Qed.
Lemma lex_lt_irrefl a : ~ lex_lt a a.
Proof. induction a; simpl; [tauto|]. intros [H|[_ H]]; [lra|auto]. Qed.
Lemma lex_total a b : length a = length b -> lex_lt a b \/ a = b \/ lex_lt b a.
Proof.
  revert b; induction a as [|x a IH]; intros [|y b] L; simpl in *; try discriminate; auto.
  destruct (Rtotal_order x y) as [H|[->|H]]; auto. destruct (IH b) as [H|[->|H]]; auto.
Qed.
Lemma insert_row_spec d r (l : list pt) : length r = d -> Forall (fun x => length x = d) l -> StronglySorted lex_lt l ->
  StronglySorted lex_lt (insert_row (N:=RNum) r l) /\ (forall x, In x (insert_row (N:=RNum) r l) <-> x = r \/ In x l) /\
  Forall (fun x => length x = d) (insert_row (N:=RNum) r l).
Proof.
  intros Lr F S. induction S as [|x l S IH Hx]; simpl.
  - split; [constructor; constructor|]. split; [simpl; intros; split; intros [H|H]; auto; tauto|constructor; auto].
  - inversion F as [|? ? Fx Fl]; subst. specialize (IH Fl). destruct IH as (IS & II & IF).
    destruct (lex_ltb (N:=RNum) r x) eqn:E1.
    + apply lex_ltb_R in E1. split; [|split].
      * constructor; [constructor; auto|]. constructor; auto. eapply Forall_impl; [|exact Hx]. intros; eapply lex_lt_trans; eauto.
      * simpl. intros; split; intros [H|H]; auto.
      * constructor; auto.
    + destruct (row_eqb (N:=RNum) r x) eqn:E2.
      * apply row_eqb_iff in E2. subst x. split; [constructor; auto|]. split; [simpl; intros; split; intros H; auto; destruct H; auto|constructor; auto].
      * assert (Hlt : lex_lt x r).
        { assert (Lrx : length r = length x) by congruence. destruct (lex_total r x Lrx) as [H|[H|H]]; auto; exfalso.
          - apply lex_ltb_R in H. rewrite H in E1. discriminate.
          - apply row_eqb_iff in H. rewrite H in E2. discriminate. }
        split; [|split].
        -- constructor; auto. rewrite Forall_forall in *. intros y Hy. apply II in Hy as [->|Hy]; auto.
        -- simpl. intros y. rewrite II. tauto.
        -- constructor; auto.
Qed.
Lemma np_unique_spec d (rows : list pt) : Forall (fun x => length x = d) rows ->
  StronglySorted lex_lt (np_unique (N:=RNum) rows) /\ (forall x, In x (np_unique (N:=RNum) rows) <-> In x rows) /\
  Forall (fun x => length x = d) (np_unique (N:=RNum) rows).
Proof.
  induction 1 as [|r rows Hr F (S & I & L)]; simpl.
  - split; [constructor|]. split; [tauto|constructor].
  - destruct (insert_row_spec d r _ Hr L S) as (S' & I' & L'). split; auto. split; auto. intro x. rewrite I', I. split; intros [H|H]; auto.
Qed.
(** Strictly sorted lists with the same elements are equal. *)
Lemma sorted_unique (l m : list pt) : StronglySorted lex_lt l -> StronglySorted lex_lt m ->
  (forall x, In x l <-> In x m) -> l = m.
Proof.
  intros S. revert m. induction S as [|x l S IH Hx]; intros m Sm H.
  - destruct m as [|y m]; auto. exfalso. apply (H y). left; auto.
  - destruct Sm as [|y m Sm Hy]. { exfalso. apply (H x). left; auto. }
    rewrite Forall_forall in Hx, Hy.
    assert (x = y).
    { destruct (proj1 (H x) (or_introl eq_refl)) as [E|E]; auto. destruct (proj2 (H y) (or_introl eq_refl)) as [E'|E']; auto.
      exfalso. apply (lex_lt_irrefl x). eapply lex_lt_trans; [apply Hx; exact E'|apply Hy; exact E]. }
    subst y. f_equal. apply IH; auto. intro z. split; intro Hz.
    + destruct (proj1 (H z) (or_intror Hz)) as [<-|]; auto. exfalso. apply (lex_lt_irrefl x); auto.
    + destruct (proj2 (H z) (or_intror Hz)) as [<-|]; auto. exfalso. apply (lex_lt_irrefl x); auto.
Qed.
Lemma unique_R d (rows : list pt) : points_ok d rows ->
  unique (N:=RNum) rows = Ok (np_unique (N:=RNum) rows) /\ points_ok d (np_unique (N:=RNum) rows).
Proof.
  intros (H & Hd & F). destruct (np_unique_spec d rows F) as (S & I & L).
  assert (Hne : np_unique (N:=RNum) rows <> []).
  { destruct rows as [|r rows]; [contradiction|]. intro E. assert (K := proj2 (I r) (or_introl eq_refl)). rewrite E in K. destruct K. }
  split; [apply (points_of_R _ d); auto|]. split; auto.
Qed.
Lemma sorted_nodup (l : list pt) : StronglySorted lex_lt l -> NoDup l.
Proof.
  induction 1 as [|x l S IH Hx]; constructor; auto. intro Hin. rewrite Forall_forall in Hx. apply (lex_lt_irrefl x); auto.
Qed.
Lemma as2d_R (rows : list pt) d : rows <> [] -> Forall (fun r => length r = d) rows -> as2d (N:=RNum) rows = Ok rows.
Proof.
  intros Hne F. unfold as2d. destruct F as [|r rs Hr F]; [contradiction|].
  assert (E : forallb (fun r' => Nat.eqb (length r') (length r)) (r :: rs) = true).
  { apply forallb_forall. intros x [<-|Hx]; [apply Nat.eqb_refl|]. rewrite Forall_forall in F. apply Nat.eqb_eq. rewrite F; auto. }
  rn. rewrite E. reflexivity.
Qed.
