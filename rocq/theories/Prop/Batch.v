(** * Property C89: batch methods reject ragged and empty point lists and return one entry per point

    For every number type (exact reals, IEEE doubles, ...). *)
From Coq Require Import String List ZArith Bool Lia Reals Lra Floats.
From Verif.Model Require Import Outcome Num Instances Numpy BaseArray Vector Points Functions Line Plane.
From Verif.Spec Require Import Batch.
From Verif.Proof Require Import Bridge.
Import ListNotations.

Section Batch.
Context {N : Num}.

Lemma as2d_spec (rows : list (vec N)) : (rectangular rows /\ as2d rows = Ok rows) \/ (~ rectangular rows /\ raises_value_error (as2d rows)).
Proof.
  destruct rows as [|r rows]; [right; split; [intros (k & H & _); apply H; reflexivity|eexists; reflexivity]|]. unfold as2d.
  destruct (forallb (fun r' : list N => (length r' =? length r)%nat) (r :: rows)) eqn:E; [left|right]; (split; [|try reflexivity; try (eexists; reflexivity)]).
  - exists (length r). split; [discriminate|]. rewrite forallb_forall in E. apply Forall_forall. intros x I. apply Nat.eqb_eq. apply E; exact I.
  - intros (k & _ & F). assert (X : forallb (fun r' : list N => (length r' =? length r)%nat) (r :: rows) = true); [|congruence].
    apply forallb_forall. intros x I. apply Nat.eqb_eq. pose proof (proj1 (Forall_forall _ _) F x I) as Hx. pose proof (proj1 (Forall_forall _ _) F r (or_introl eq_refl)) as Hr. simpl in Hx, Hr. congruence.
Qed.
Lemma mapM_len {A B} (f : A -> res B) : forall l l', mapM f l = Ok l' -> length l' = length l.
Proof.
  induction l as [|x l IH]; intros l' H; simpl in H; [injection H as <-; reflexivity|]. destruct (f x); simpl in H; try discriminate. destruct (mapM f l) eqn:E; simpl in H; try discriminate. injection H as <-. simpl. f_equal. apply IH. reflexivity.
Qed.

Lemma points_same (rows rows' : list (vec N)) : points_of rows = Ok rows' -> rows' = rows /\ rectangular rows.
Proof.
  intro H. apply points_of_inv in H. destruct H as (E & Hne & Hd & F & _). split; [exact E|]. eexists. split; [exact Hne|exact F].
Qed.

(** The batch methods of Line and Plane, and transform_coordinates. *)
Variables (l : line N) (pl : plane N) (origin : vec N) (basis : list (vec N)).

(** No rows, or rows of different lengths: ValueError, whatever the object. *)
Theorem C89_rejects : forall points : list (vec N), ~ rectangular points ->
  raises_value_error (points_of points) /\ raises_value_error (line_project_points l points) /\ raises_value_error (line_sum_squares l points) /\
  raises_value_error (plane_project_points pl points) /\ raises_value_error (plane_distance_points_signed pl points) /\ raises_value_error (plane_distance_points pl points) /\
  raises_value_error (plane_sum_squares pl points) /\ raises_value_error (transform_coordinates points origin basis).
Proof.
  intros points H. destruct (as2d_spec points) as [[X _]|[_ [m E]]]; [contradiction|].
  split.
  { unfold points_of, array2d_new. destruct (shape (nd_of_rows points)) as [s|] eqn:Hs; [|eexists; reflexivity]. destruct (negb (length s =? 2)%nat) eqn:L2; [eexists; reflexivity|].
    destruct (base_new (flat (nd_of_rows points))) as [u|e|] eqn:B; cbn [bind].
    - exfalso. apply H. destruct u. apply (points_same points (rows_of (nd_of_rows points))). unfold points_of, array2d_new. rewrite Hs, L2, B. reflexivity.
    - unfold base_new in B. destruct (length (flat (nd_of_rows points)) =? 0)%nat; [injection B as <-; eexists; reflexivity|]. destruct (negb (forallb nfin (flat (nd_of_rows points)))); [injection B as <-; eexists; reflexivity|discriminate].
    - unfold base_new in B. destruct (length (flat (nd_of_rows points)) =? 0)%nat; [discriminate|]. destruct (negb (forallb nfin (flat (nd_of_rows points)))); discriminate. }
  unfold line_project_points, line_sum_squares, plane_project_points, plane_distance_points, plane_distance_points_signed, plane_sum_squares, sum_squares_gen, transform_coordinates. rewrite E. cbn [bind].
  split; [eexists; reflexivity|]. split; [eexists; reflexivity|]. split; [eexists; reflexivity|]. split; [eexists; reflexivity|]. split; [eexists; reflexivity|]. split; eexists; reflexivity.
Qed.

(** When a batch method returns, the points were a 2D array and there is exactly one entry per point (for
    project_points again a 2D array; for transform_coordinates one coordinate per basis vector). *)
Theorem C89_shapes : forall points : list (vec N),
  (forall q, line_project_points l points = Ok q -> rectangular points /\ rectangular q /\ length q = length points) /\
  (forall q, plane_project_points pl points = Ok q -> rectangular points /\ rectangular q /\ length q = length points) /\
  (forall d, plane_distance_points_signed pl points = Ok d -> rectangular points /\ length d = length points) /\
  (forall d, plane_distance_points pl points = Ok d -> rectangular points /\ length d = length points) /\
  (forall x, line_sum_squares l points = Ok x -> rectangular points) /\
  (forall x, plane_sum_squares pl points = Ok x -> rectangular points) /\
  (forall q, transform_coordinates points origin basis = Ok q -> rectangular points /\ rectangular basis /\ length q = length points /\ Forall (fun r => length r = length basis) q).
Proof.
  intro points.
  unfold line_project_points, line_sum_squares, plane_project_points, plane_distance_points, plane_distance_points_signed, plane_sum_squares, sum_squares_gen, transform_coordinates.
  destruct (as2d_spec points) as [[X E]|[_ [m E]]]; rewrite E; cbn [bind].
  2:{ split; [discriminate|]. split; [discriminate|]. split; [discriminate|]. split; [discriminate|]. split; [discriminate|]. split; discriminate. }
  split; [|split; [|split; [|split; [|split; [|split]]]]].
  - intros q H. destruct (mapM _ points) as [vs| |] eqn:V; cbn [bind] in H; try discriminate H. destruct (unit_vec _) as [w| |]; cbn [bind] in H; try discriminate H.
    destruct (mapM (fun v => np_dot v w) vs) as [ds| |] eqn:D; cbn [bind] in H; try discriminate H. destruct (mapM _ ds) as [rs| |] eqn:Q; cbn [bind] in H; try discriminate H.
    apply points_same in H. destruct H as [-> HR]. apply mapM_len in V, D, Q. split; [exact X|]. split; [exact HR|]. exact (eq_trans Q (eq_trans D V)).
  - intros q H. destruct (mapM _ points) as [vs| |] eqn:V; cbn [bind] in H; try discriminate H. destruct (unit_vec _) as [w| |]; cbn [bind] in H; try discriminate H.
    destruct (mapM (fun v => np_dot v w) vs) as [ds| |] eqn:D; cbn [bind] in H; try discriminate H. destruct (mapM _ (combine ds points)) as [rs| |] eqn:Q; cbn [bind] in H; try discriminate H.
    apply points_same in H. destruct H as [-> HR]. apply mapM_len in V, D, Q. rewrite combine_length in Q. split; [exact X|]. split; [exact HR|]. pose proof (eq_trans D V) as DV. rewrite DV, Nat.min_id in Q. exact Q.
  - intros d H. destruct (mapM _ points) as [vs| |] eqn:V; cbn [bind] in H; try discriminate H. destruct (unit_vec _) as [w| |]; cbn [bind] in H; try discriminate H. apply mapM_len in V, H. split; [exact X|]. exact (eq_trans H V).
  - intros d H. destruct (mapM _ points) as [vs| |] eqn:V; cbn [bind] in H; try discriminate H. destruct (unit_vec _) as [w| |]; cbn [bind] in H; try discriminate H.
    destruct (mapM _ vs) as [ds| |] eqn:D; cbn [bind] in H; try discriminate H. injection H as <-. apply mapM_len in V, D. split; [exact X|]. rewrite map_length. exact (eq_trans D V).
  - intros x _. exact X.
  - intros x _. exact X.
  - intros q H. destruct (mapM _ points) as [vs| |] eqn:V; cbn [bind] in H; try discriminate H. destruct (as2d_spec basis) as [[XB EB]|[_ [mb EB]]]; rewrite EB in H; cbn [bind] in H; try discriminate H.
    apply mapM_len in V. split; [exact X|]. split; [exact XB|]. split; [exact (eq_trans (mapM_len _ _ _ H) V)|].
    clear V. revert q H. induction vs as [|v vs IH]; intros q H; cbn [mapM] in H; [injection H as <-; constructor|].
    destruct (mapM _ basis) as [r| |] eqn:B; cbn [bind] in H; try discriminate H. destruct (mapM _ vs) as [rs| |] eqn:RS; cbn [bind] in H; try discriminate H. injection H as <-. constructor; [exact (mapM_len _ _ _ B)|apply IH; reflexivity].
Qed.

(** A basis that is not a 2D array is rejected too. *)
Theorem C89_rejects_basis : forall points : list (vec N), ~ rectangular basis -> raises_value_error (transform_coordinates points origin basis).
Proof.
  intros points H. unfold transform_coordinates. destruct (as2d_spec points) as [[_ E]|[_ [m E]]]; rewrite E; cbn [bind]; [|eexists; reflexivity].
  assert (B : forall rows : list (vec N), raises_value_error (mapM (fun r => bcast nsub r origin) rows) \/ exists vs, mapM (fun r => bcast nsub r origin) rows = Ok vs).
  { induction rows as [|r rows IH]; [right; eexists; reflexivity|]. cbn [mapM].
    assert (C : raises_value_error (bcast nsub r origin) \/ exists v, bcast nsub r origin = Ok v).
    { unfold bcast, err_broadcast. destruct (length r =? length origin)%nat; [right; eexists; reflexivity|]. destruct r as [|x [|]], origin as [|y [|]]; (right; eexists; reflexivity) || (left; eexists; reflexivity). }
    destruct C as [[m C]|[v C]]; rewrite C; cbn [bind]; [left; eexists; reflexivity|]. destruct IH as [[m IH]|[vs IH]]; rewrite IH; cbn [bind]; [left; eexists; reflexivity|right; eexists; reflexivity]. }
  destruct (B points) as [[m V]|[vs V]]; rewrite V; cbn [bind]; [eexists; reflexivity|]. destruct (as2d_spec basis) as [[XB _]|[_ [m EB]]]; [contradiction|]. rewrite EB. eexists; reflexivity.
Qed.
End Batch.
Print Assumptions C89_rejects.
Print Assumptions C89_shapes.
Print Assumptions C89_rejects_basis.

Example C89_nonvacuous :
  ~ rectangular [[1; 2; 3]; [4; 5]]%R /\ ~ rectangular (@nil (list R)) /\ rectangular [[1; 2; 3]; [4; 5; 6]]%R /\
  (exists q, plane_project_points (N:=FNum) (MkPlane (N:=FNum) [0; 0; 0]%float [0; 0; 1]%float) [[1; 2; 3]; [4; 5; 6]]%float = Ok q /\ length q = 2%nat) /\
  (exists q, transform_coordinates (N:=FNum) [[1; 2]; [3; 4]; [5; 6]]%float [0; 0]%float [[1; 0]; [1; 1]]%float = Ok q /\ length q = 3%nat).
Proof.
  split; [intros (k & _ & F); inversion_clear F as [|? ? A F']; inversion_clear F' as [|? ? B F'']; simpl in A, B; lia|]. split; [intros (k & H & _); apply H; reflexivity|].
  split; [exists 3%nat; split; [discriminate|repeat constructor]|]. split; eexists; split; reflexivity.
Qed.
