(** * Properties C01-C04, C68: construction and comparison of Point, Vector, Points *)
From Coq Require Import String Reals List ZArith Lra Lia Bool Floats.
From Verif.Model Require Import Outcome Num Instances Numpy BaseArray.
From Verif.Spec Require Import Geometry Tolerance Arrays.
From Verif.Proof Require Import VecAlg Bridge Arrays.
Import ListNotations.

(** ** C01  [array1d_new] is the constructor of Point and of Vector; every numeric type. *)
Theorem C01_point_vector_accepts_exactly : forall (N : Num) (a : nd N) (v : vec N),
  array1d_new a = Ok v <->
  a = Ar (map Sc v) /\ v <> [] /\ Forall (fun x => nfin x = true) v.
Proof. intros. apply array1d_ok_iff. Qed.
Print Assumptions C01_point_vector_accepts_exactly.

Theorem C01_point_vector_rejects : forall (N : Num) (a : nd N),
  ((~ exists s, has_shape a s) -> exists m, array1d_new a = Raise (ValueError m)) /\
  (forall s, has_shape a s -> length s <> 1%nat ->
     array1d_new a = Raise (ValueError "The array must be 1D.")) /\
  (has_shape a [0%nat] -> array1d_new a = Raise (ValueError "The array must not be empty.")) /\
  (forall n, has_shape a [S n] -> (exists x, value_in x a /\ nfin x = false) ->
     array1d_new a = Raise (ValueError "The values must all be finite.")).
Proof.
  intros N a. destruct (array1d_raise a) as (H1 & H2 & H3 & H4).
  repeat split; auto. intro H. eexists. apply H1; auto.
Qed.
Print Assumptions C01_point_vector_rejects.

(** Every input is accepted or raises ValueError: nothing else can happen. *)
Theorem C01_total : forall (N : Num) (a : nd N),
  (exists v, array1d_new a = Ok v) \/ (exists m, array1d_new a = Raise (ValueError m)).
Proof.
  intros N a. unfold array1d_new, base_new. destruct (shape a) as [s|]; [|right; eexists; reflexivity].
  destruct (negb _); [right; eexists; reflexivity|]. destruct (Nat.eqb _ _); [right; eexists; reflexivity|].
  destruct (negb _); [right; eexists; reflexivity|left; eexists; reflexivity].
Qed.
Print Assumptions C01_total.

Example C01_nonvacuous : array1d_new (N:=FNum) (Ar [Sc 1%float; Sc 2%float; Sc 0.5%float]) = Ok [1; 2; 0.5]%float.
Proof. vm_compute. reflexivity. Qed.
Example C01_nan_rejected : array1d_new (N:=FNum) (Ar [Sc 1%float; Sc nan]) = Raise (ValueError "The values must all be finite.").
Proof. vm_compute. reflexivity. Qed.
Example C01_inf_rejected : array1d_new (N:=FNum) (Ar [Sc infinity]) = Raise (ValueError "The values must all be finite.").
Proof. vm_compute. reflexivity. Qed.
Example C01_nested_rejected : array1d_new (N:=FNum) (Ar [Ar [Sc 1%float]; Ar [Sc 2%float]]) = Raise (ValueError "The array must be 1D.").
Proof. vm_compute. reflexivity. Qed.
Example C01_ragged_rejected : array1d_new (N:=FNum) (Ar [Ar [Sc 1%float]; Sc 2%float]) = Raise err_ragged.
Proof. vm_compute. reflexivity. Qed.

(** ** C02  [array2d_new] is the constructor of Points. *)
Theorem C02_points_accepts_exactly : forall (N : Num) (a : nd N) (rows : list (vec N)),
  array2d_new a = Ok rows <->
  a = Ar (map (fun r => Ar (map Sc r)) rows) /\ rows <> [] /\
  (exists d, (0 < d)%nat /\ Forall (fun r => length r = d) rows) /\
  Forall (Forall (fun x => nfin x = true)) rows.
Proof. intros. apply array2d_ok_iff. Qed.
Print Assumptions C02_points_accepts_exactly.

(** The [dimension] attribute of the result is the common row length. *)
Theorem C02_points_dimension : forall (N : Num) (a : nd N) (rows : list (vec N)),
  array2d_new a = Ok rows -> Forall (fun r => length r = dim2 rows) rows /\ (0 < dim2 rows)%nat.
Proof.
  intros N a rows H. apply array2d_ok_iff in H as (_ & Hne & (d & Hd & F) & _).
  assert (E : dim2 rows = d) by (destruct F; [contradiction|auto]). rewrite E; auto.
Qed.
Print Assumptions C02_points_dimension.

Theorem C02_points_rejects : forall (N : Num) (a : nd N),
  ((~ exists s, has_shape a s) -> exists m, array2d_new a = Raise (ValueError m)) /\
  (forall s, has_shape a s -> length s <> 2%nat ->
     array2d_new a = Raise (ValueError "The array must be 2D.")) /\
  (forall n, has_shape a [n; 0%nat] -> array2d_new a = Raise (ValueError "The array must not be empty.")) /\
  (forall n d, has_shape a [n; S d] -> (exists x, value_in x a /\ nfin x = false) ->
     array2d_new a = Raise (ValueError "The values must all be finite.")).
Proof.
  intros N a. destruct (array2d_raise a) as (H1 & H2 & H3 & H4).
  repeat split; auto. intro H. eexists. apply H1; auto.
Qed.
Print Assumptions C02_points_rejects.

Example C02_nonvacuous : array2d_new (N:=FNum) (Ar [Ar [Sc 1%float; Sc 2%float]; Ar [Sc 3%float; Sc 4%float]]) = Ok [[1; 2]; [3; 4]]%float.
Proof. vm_compute. reflexivity. Qed.
Example C02_flat_rejected : array2d_new (N:=FNum) (Ar [Sc 1%float; Sc 2%float]) = Raise (ValueError "The array must be 2D.").
Proof. vm_compute. reflexivity. Qed.
Example C02_empty_rejected : array2d_new (N:=FNum) (Ar [Ar []; Ar []]) = Raise (ValueError "The array must not be empty.").
Proof. vm_compute. reflexivity. Qed.

(** ** C03  set_dimension *)
Theorem C03_set_dimension_pads : forall (v : pt) (dim : Z),
  v <> [] -> (Z.of_nat (length v) <= dim)%Z ->
  exists w, set_dimension1 (N:=RNum) v dim = Ok w /\ Z.of_nat (length w) = dim /\
    (forall i, (i < length v)%nat -> nth i w 0%R = nth i v 0%R) /\
    (forall i, (length v <= i)%nat -> nth i w 0%R = 0%R).
Proof.
  intros v dim Hne H. exists (pad_to (Z.to_nat dim) v). split; [apply set_dimension1_R; auto|].
  split; [rewrite length_pad_to; lia|]. unfold pad_to. split; intros i Hi.
  - apply app_nth1; auto.
  - rewrite app_nth2 by auto. apply nth_repeat.
Qed.
Print Assumptions C03_set_dimension_pads.

Theorem C03_set_dimension_rejects_smaller : forall (N : Num) (v : vec N) (dim : Z),
  (dim < Z.of_nat (length v))%Z ->
  set_dimension1 v dim = Raise (ValueError "The desired dimension cannot be less than the current dimension.").
Proof. intros. apply set_dimension1_lt; auto. Qed.
Print Assumptions C03_set_dimension_rejects_smaller.

(** Idempotence and composition: padding to [m] and then to [n] is padding to [n]. *)
Theorem C03_set_dimension_composes : forall (v w : pt) (m n : Z),
  v <> [] -> (m <= n)%Z -> set_dimension1 (N:=RNum) v m = Ok w ->
  set_dimension1 (N:=RNum) w n = set_dimension1 (N:=RNum) v n /\
  set_dimension1 (N:=RNum) v (Z.of_nat (length v)) = Ok v.
Proof.
  intros v w m n Hne Hmn H.
  destruct (Z.ltb_spec m (Z.of_nat (length v))) as [L|L]. { rewrite set_dimension1_lt in H by auto. discriminate. }
  rewrite set_dimension1_R in H by auto. injection H as <-. split.
  - rewrite !set_dimension1_R; auto; try (rewrite length_pad_to; lia); try lia.
    + rewrite pad_to_twice; auto; lia.
    + intro E. apply (f_equal (@length R)) in E. rewrite length_pad_to in E. destruct v; [contradiction|]. simpl in *. lia.
  - rewrite set_dimension1_R by (auto; lia). rewrite Nat2Z.id, pad_to_id; auto.
Qed.
Print Assumptions C03_set_dimension_composes.

(** Distances, norms and dot products are preserved. *)
Theorem C03_set_dimension_isometry : forall (p q p' q' : pt) (dim : Z),
  length p = length q -> p <> [] ->
  set_dimension1 (N:=RNum) p dim = Ok p' -> set_dimension1 (N:=RNum) q dim = Ok q' ->
  dist p' q' = dist p q /\ dot p' q' = dot p q /\ len p' = len p.
Proof.
  intros p q p' q' dim L Hne Hp Hq.
  assert (Hq0 : q <> []) by (destruct p, q; simpl in *; congruence).
  destruct (Z.ltb_spec dim (Z.of_nat (length p))) as [H|H]. { rewrite set_dimension1_lt in Hp by auto. discriminate. }
  rewrite set_dimension1_R in Hp, Hq by (auto; lia). injection Hp as <-. injection Hq as <-.
  split; [apply pad_to_dist; auto|]. split; [apply pad_to_dot; auto|]. unfold len. rewrite pad_to_dot; auto.
Qed.
Print Assumptions C03_set_dimension_isometry.

(** Points.set_dimension pads every row (columns on the right). *)
Theorem C03_points_set_dimension : forall (rows : list pt) (d : nat) (dim : Z),
  rows <> [] -> (0 < d)%nat -> Forall (fun r => length r = d) rows ->
  ((Z.of_nat d <= dim)%Z -> set_dimension2 (N:=RNum) rows dim = Ok (map (fun r => r ++ repeat 0%R (Z.to_nat dim - d)) rows)) /\
  ((dim < Z.of_nat d)%Z -> set_dimension2 (N:=RNum) rows dim = Raise (ValueError "The desired dimension cannot be less than the current dimension.")).
Proof.
  intros rows d dim Hne Hd F. split; intro H.
  - rewrite (set_dimension2_R rows d dim) by auto. f_equal. apply map_ext_in. intros r Hr. unfold pad_to.
    rewrite Forall_forall in F. rewrite F by auto. reflexivity.
  - apply set_dimension2_lt. rn. destruct F as [|r rs Hr F]; [contradiction|]. simpl. rewrite Hr. auto.
Qed.
Print Assumptions C03_points_set_dimension.

Example C03_nonvacuous : set_dimension1 (N:=RNum) [1%R; 2%R] 4 = Ok [1%R; 2%R; 0%R; 0%R].
Proof. rewrite set_dimension1_R; [reflexivity|discriminate|simpl; lia]. Qed.

(** ** C04  is_equal, is_close *)
Local Open Scope R_scope.
Theorem C04_is_equal_exact : forall (a b : pt) (A B : list pt),
  (is_equal1 (N:=RNum) a b = true <-> a = b) /\ (is_equal2 (N:=RNum) A B = true <-> A = B).
Proof. intros. split; [apply row_eqb_iff|apply is_equal2_iff]. Qed.
Print Assumptions C04_is_equal_exact.

(** The documented formula of math.isclose, coordinate by coordinate. *)
Theorem C04_is_close_formula : forall (rel abst : R) (a b : pt),
  0 <= rel -> 0 <= abst -> a <> [] -> length a = length b ->
  exists r, is_close1 (N:=RNum) (MkTol (N:=RNum) rel abst) a b = Ok r /\
    (r = true <-> Forall2 (fun x y => Rabs (x - y) <= Rmax (rel * Rmax (Rabs x) (Rabs y)) abst) a b).
Proof. intros rel abst a b Hr Ha. apply (is_close1_R (MkTol (N:=RNum) rel abst)). split; auto. Qed.
Print Assumptions C04_is_close_formula.

Theorem C04_is_close_refl_sym : forall (t : tol RNum) (a b : pt),
  0 <= rel_tol t -> 0 <= abs_tol t -> a <> [] -> length a = length b ->
  is_close1 t a a = Ok true /\ is_close1 t a b = is_close1 t b a /\
  (is_equal1 (N:=RNum) a b = true -> is_close1 t a b = Ok true) /\
  (rel_tol t = 0 -> abs_tol t = 0 -> is_close1 t a b = Ok (is_equal1 (N:=RNum) a b)).
Proof.
  intros t a b Hr Ha Hne L. assert (Ht : tol_ok t) by (split; auto).
  assert (Refl : is_close1 t a a = Ok true).
  { destruct (is_close1_R t a a Ht Hne eq_refl) as (r & -> & E). f_equal. apply E. clear -Hr Ha.
    induction a; constructor; auto using close_refl. }
  split; auto. split; [apply is_close1_sym; auto|]. split.
  - intro E. apply row_eqb_iff in E. subst b. exact Refl.
  - intros E1 E2. destruct (is_close1_R t a b Ht Hne L) as (r & -> & E). f_equal.
    apply eq_true_iff_eq. unfold is_equal1. rewrite E, row_eqb_iff, E1, E2. split.
    + intro F. clear -F. induction F as [|x y a b Hxy _ IH]; auto. apply close_exact in Hxy. congruence.
    + intros <-. clear. induction a; constructor; auto. apply close_exact; auto.
Qed.
Print Assumptions C04_is_close_refl_sym.

(** The same for Points: the formula holds for every pair of corresponding coordinates. *)
Lemma pairs_rows (d : nat) (A B : list pt) : length A = length B -> Forall (fun r => length r = d) A -> Forall (fun r => length r = d) B ->
  mapM (fun r : pt * pt => bpairs (fst r) (snd r)) (combine A B) = Ok (map (fun r => combine (fst r) (snd r)) (combine A B)).
Proof.
  intros L FA FB. revert B L FB. induction FA as [|a A La FA IH]; intros [|b B] L FB; try discriminate L; [reflexivity|].
  injection L as L. cbn [combine mapM map fst snd]. pose proof (Forall_inv FB) as Lb. cbn beta in Lb. unfold bpairs at 1. rewrite La, Lb, Nat.eqb_refl. cbn [bind]. rewrite IH by (auto; apply (Forall_inv_tail FB)). reflexivity.
Qed.
Lemma rows_forall (P : R -> R -> Prop) (d : nat) (A B : list pt) : length A = length B -> Forall (fun r => length r = d) A -> Forall (fun r => length r = d) B ->
  (Forall (fun q => P (fst q) (snd q)) (concat (map (fun r => combine (fst r) (snd r)) (combine A B))) <-> Forall2 (Forall2 P) A B).
Proof.
  intros L FA FB. revert B L FB. induction FA as [|a A La FA IH]; intros [|b B] L FB; try discriminate L; [split; constructor|].
  injection L as L. cbn [combine map concat fst snd]. pose proof (Forall_inv FB) as Lb. cbn beta in Lb. rewrite Forall_app, IH by (auto; apply (Forall_inv_tail FB)).
  rewrite (Forall_combine P a b) by congruence. split; [intros (H1 & H2); constructor; auto|intro H; inversion H; auto].
Qed.
Theorem C04_points_is_close : forall (t : tol RNum) (d : nat) (A B : list pt),
  0 <= rel_tol t -> 0 <= abs_tol t -> A <> [] -> (0 < d)%nat -> length A = length B -> Forall (fun r => length r = d) A -> Forall (fun r => length r = d) B ->
  (exists r, is_close2 t A B = Ok r /\
     (r = true <-> Forall2 (Forall2 (fun x y => Rabs (x - y) <= Rmax (rel_tol t * Rmax (Rabs x) (Rabs y)) (abs_tol t))) A B)) /\
  is_close2 t A A = Ok true /\ is_close2 t A B = is_close2 t B A /\
  (is_equal2 (N:=RNum) A B = true -> is_close2 t A B = Ok true) /\
  (rel_tol t = 0 -> abs_tol t = 0 -> is_close2 t A B = Ok (is_equal2 (N:=RNum) A B)).
Proof.
  intros t d A B Hr Ha Hne Hd L FA FB. assert (Ht : tol_ok t) by (split; auto).
  assert (G : forall A B : list pt, A <> [] -> length A = length B -> Forall (fun r => length r = d) A -> Forall (fun r => length r = d) B ->
     exists r, is_close2 t A B = Ok r /\ (r = true <-> Forall2 (Forall2 (close (rel_tol t) (abs_tol t))) A B)).
  { clear A B Hne L FA FB. intros A B Hne L FA FB. unfold is_close2. unfold bpairs at 1. rn. rewrite L, Nat.eqb_refl. cbn [bind]. rewrite (pairs_rows d) by auto. cbn [bind].
    destruct (allclose_pairs_R t (concat (map (fun r => combine (fst r) (snd r)) (combine A B))) Ht) as (r & Er & Hr').
    { destruct A as [|a A]; [contradiction|]. destruct B as [|b B]; [discriminate L|]. pose proof (Forall_inv FA) as La. pose proof (Forall_inv FB) as Lb. cbn beta in La, Lb.
      destruct a; [simpl in La; lia|]. destruct b; [simpl in Lb; lia|]. discriminate. }
    exists r. split; [exact Er|]. rewrite Hr'. apply (rows_forall (close (rel_tol t) (abs_tol t)) d); auto. }
  assert (Hne' : B <> []) by (intros ->; destruct A; [contradiction|discriminate L]).
  assert (Refl : is_close2 t A A = Ok true).
  { destruct (G A A Hne eq_refl FA FA) as (r & -> & E). f_equal. apply E. clear -Hr Ha. induction A as [|a A IH]; constructor; auto. clear IH. induction a; constructor; auto using close_refl. }
  split; [exact (G A B Hne L FA FB)|]. split; auto. split; [|split].
  - destruct (G A B Hne L FA FB) as (r & -> & E). destruct (G B A Hne' (eq_sym L) FB FA) as (r' & -> & E'). f_equal. apply eq_true_iff_eq. rewrite E, E'.
    split; intro F; clear -F; induction F as [|a b ? ? F1 F IH]; constructor; auto; clear -F1; induction F1; constructor; auto using close_sym.
  - intro E. apply is_equal2_iff in E. subst B. exact Refl.
  - intros E1 E2. destruct (G A B Hne L FA FB) as (r & -> & E). f_equal. apply eq_true_iff_eq. rewrite E, is_equal2_iff, E1, E2. split.
    + intro F. clear -F. induction F as [|a b A B F1 F IH]; auto. f_equal; auto. clear -F1. induction F1 as [|x y a b Hxy _ IH]; auto. apply close_exact in Hxy. congruence.
    + intros <-. clear. induction A as [|a A IH]; constructor; auto. clear. induction a; constructor; auto. apply close_exact; auto.
Qed.
Print Assumptions C04_points_is_close.

(** Closeness is not transitive, with the default tolerances. *)
Theorem C04_is_close_transitive_refuted : exists a b c : pt,
  is_close1 (N:=RNum) tol_default a b = Ok true /\ is_close1 (N:=RNum) tol_default b c = Ok true /\
  is_close1 (N:=RNum) tol_default a c = Ok false.
Proof.
  set (k := / 10000000000). exists [1], [1 + 9 * k], [1 + 18 * k].
  assert (H : forall x y, is_close1 (N:=RNum) tol_default [x] [y] = Ok true <-> close rel_default 0 x y).
  { intros x y. destruct (is_close1_R tol_default [x] [y]) as (r & -> & E); auto using tol_default_ok; [discriminate|].
    rewrite rel_default_eq, abs_default_eq in E.
    split.
    - intro Hr; injection Hr as ->. assert (F : Forall2 (close rel_default 0) [x] [y]) by (apply E; auto). inversion F; auto.
    - intro C. f_equal. apply E. constructor; auto. }
  assert (H' : forall x y, ~ close rel_default 0 x y -> is_close1 (N:=RNum) tol_default [x] [y] = Ok false).
  { intros x y C. destruct (is_close1_R tol_default [x] [y]) as (r & -> & E); auto using tol_default_ok; [discriminate|].
    rewrite rel_default_eq, abs_default_eq in E. destruct r; auto. exfalso. apply C.
    assert (F : Forall2 (close rel_default 0) [x] [y]) by (apply E; auto). inversion F; auto. }
  assert (HR : 10 * k < rel_default < 11 * k) by (unfold rel_default, k; split; lra).
  assert (Hk : 0 < k < / 1000) by (unfold k; split; lra).
  clearbody k. rewrite !H. split; [|split].
  - apply close_alt; try lra. right; left. rewrite !Rabs_pos_eq; nra.
  - apply close_alt; try lra. right; left. rewrite !Rabs_pos_eq; nra.
  - apply H'. rewrite close_alt by lra. rewrite !Rabs_pos_eq by nra.
    assert (rel_default * (1 + 18 * k) < 12 * k) by nra. lra.
Qed.
Print Assumptions C04_is_close_transitive_refuted.

(** Broadcasting: objects of different dimension can be "close"; other mismatches raise. *)
Theorem C04_is_close_broadcast : forall (t : tol RNum) (a b : pt) (y : R),
  0 <= rel_tol t -> 0 <= abs_tol t ->
  ((1 < length a)%nat -> (forall x, In x a -> x = y) -> is_close1 t a [y] = Ok true) /\
  (length a <> length b -> length a <> 1%nat -> length b <> 1%nat -> exists m, is_close1 t a b = Raise (ValueError m)).
Proof.
  intros t a b y Hr Ha. assert (Ht : tol_ok t) by (split; auto). split.
  - intros L E. destruct (is_close1_bcast_r t a y Ht L) as (r & -> & Er). f_equal. apply Er. apply Forall_forall.
    intros x Hx. rewrite (E x Hx). apply close_refl; auto.
  - intros. eexists. apply is_close1_mismatch; auto.
Qed.
Print Assumptions C04_is_close_broadcast.

Theorem C04_negative_tolerance_raises : forall (t : tol RNum) (x y : R) (a b : pt),
  rel_tol t < 0 \/ abs_tol t < 0 -> length a = length b ->
  is_close1 t (x :: a) (y :: b) = Raise (ValueError "tolerances must be non-negative").
Proof.
  intros t x y a b H L. unfold is_close1, bpairs. cbn [length]. rn. rewrite L, Nat.eqb_refl. cbn [combine bind allclose_pairs mapM fst snd].
  rewrite isclose_neg; [reflexivity|]. unfold tol_ok. lra.
Qed.
Print Assumptions C04_negative_tolerance_raises.

Example C04_broadcast_example : is_close1 (N:=FNum) tol_default [1; 1]%float [1]%float = Ok true.
Proof. vm_compute. reflexivity. Qed.

(** ** C68  __array_wrap__: only valid data is ever wrapped as Point/Vector/Points *)
Theorem C68_array_wrap_valid : forall (N : Num) (two_d return_scalar : bool) (a b : nd N),
  array_wrap two_d return_scalar a = inl b ->
  b = a /\ (forall x, value_in x a -> nfin x = true) /\
  (two_d = false -> exists n, has_shape a [S n]) /\
  (two_d = true -> exists n d, has_shape a [S n; S d]).
Proof.
  intros N two_d rs a b H. unfold array_wrap in H. destruct rs; [discriminate|]. destruct two_d.
  - destruct (array2d_new a) as [rows|e|] eqn:E; try discriminate. injection H as <-. split; auto.
    pose proof E as E'. apply array2d_ok_iff in E' as (-> & Hne & (d & Hd & F) & Fin). split; [|split; [discriminate|]].
    + intros x Hx. apply flat_value_in in Hx. change (In x (flat (nd_of_rows rows))) in Hx. rewrite flat_nd_of_rows in Hx.
      apply in_concat in Hx as (r & Hr & Hx). rewrite Forall_forall in Fin. specialize (Fin r Hr).
      rewrite Forall_forall in Fin. auto.
    + intros _. destruct d; [lia|]. exists (length rows - 1)%nat, d.
      replace (S (length rows - 1)) with (length rows) by (destruct rows; simpl; [contradiction|lia]).
      apply shape_iff. apply (shape_nd_of_rows rows (S d)); auto.
  - destruct (array1d_new a) as [v|e|] eqn:E; try discriminate. injection H as <-. split; auto.
    apply array1d_ok_iff in E as (-> & Hne & Fin). split; [|split; [|discriminate]].
    + intros x Hx. apply flat_value_in in Hx. change (In x (flat (nd_of_vec v))) in Hx. rewrite flat_nd_of_vec in Hx.
      rewrite Forall_forall in Fin. auto.
    + intros _. exists (length v - 1)%nat. replace (S (length v - 1)) with (length v) by (destruct v; simpl; [contradiction|lia]).
      apply shape_iff, shape_nd_of_vec.
Qed.
Print Assumptions C68_array_wrap_valid.

(** Conversely every valid result is wrapped (unless numpy asks for a scalar). *)
Theorem C68_array_wrap_wraps : forall (N : Num) (a : nd N) v rows,
  (array1d_new a = Ok v -> array_wrap false false a = inl a) /\
  (array2d_new a = Ok rows -> array_wrap true false a = inl a) /\
  array_wrap false true a = inr a /\ array_wrap true true a = inr a.
Proof. intros N a v rows. unfold array_wrap. repeat split; intro H; rewrite H; reflexivity. Qed.
Print Assumptions C68_array_wrap_wraps.

Example C68_overflow_not_wrapped :
  match array_wrap (N:=FNum) false false (Ar [Sc (0x1p1023 * 2)%float; Sc 1%float]) with
  | inl _ => None | inr a => Some (flat a) end = Some [infinity; 1]%float.
Proof. vm_compute. reflexivity. Qed.
Example C68_ufunc_wrapped :
  match array_wrap (N:=FNum) false false (Ar [Sc (1 + 2)%float; Sc 1%float]) with
  | inl a => Some (flat a) | inr _ => None end = Some [3; 1]%float.
Proof. vm_compute. reflexivity. Qed.
