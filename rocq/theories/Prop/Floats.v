(** * Property C70: facts that hold for every IEEE double *)
From Coq Require Import String Reals List ZArith Floats Lra Lia Psatz Bool.
From Flocq Require Import Core BinarySingleNaN.
From Flocq Require Import IEEE754.PrimFloat.
From Verif.Model Require Import Outcome Num Instances Numpy BaseArray Vector Points Functions Line Plane LineSegment Sphere Triangle Cylinder.
From Verif.Spec Require Import Geometry Floats.
From Verif.Proof Require Import VecAlg Bridge Floats.
Import ListNotations.
Local Open Scope R_scope.

Notation flt := PrimFloat.float.
Ltac fn := change (num FNum) with flt in *.

(** ** Clipping: cosine_similarity stays in [-1, 1] and angle_between cannot leave the domain of acos *)
Lemma not_nan_or x : PrimFloat.ltb x x = false.
Proof. rewrite ltb_equiv. unfold Bltb, SpecFloat.SFltb. rewrite B2SF_Prim2B. destruct (Prim2SF x) as [[|]|[|]| |[|] m e]; simpl; auto; rewrite ?Z.compare_refl, ?Pcompare_refl; auto. Qed.
Lemma clip_cases (x : flt) : nclip1 (N:=FNum) x = (-1)%float \/ nclip1 (N:=FNum) x = 1%float \/
  (nclip1 (N:=FNum) x = x /\ PrimFloat.ltb x (-1) = false /\ PrimFloat.ltb 1 x = false).
Proof.
  change (nclip1 (N:=FNum) x) with (if PrimFloat.ltb x (-1) then (-1)%float else if PrimFloat.ltb 1 x then 1%float else x). destruct (PrimFloat.ltb x (-1)) eqn:E; auto. destruct (PrimFloat.ltb 1 x) eqn:E'; auto.
Qed.
Lemma clip_dom (x : flt) : PrimFloat.ltb (nclip1 (N:=FNum) x) (-1) = false /\ PrimFloat.ltb 1 (nclip1 (N:=FNum) x) = false.
Proof. destruct (clip_cases x) as [->|[->|(-> & ? & ?)]]; auto; split; reflexivity. Qed.
Lemma unit_range (x : flt) : PrimFloat.ltb x (-1) = false -> PrimFloat.ltb 1 x = false -> not_nan x -> finite x /\ -1 <= FR x <= 1.
Proof.
  intros H1 H2 Hn. assert (F : finite x).
  { unfold finite, not_nan in *. rewrite ltb_equiv in H1, H2. destruct (Prim2B x) as [[|]|[|]| |[|] m e H] eqn:E; auto; try discriminate. }
  split; auto. destruct one_F as (O & Of). assert (M : FR (-1)%float = -1) by (change (-1)%float with (- (1))%float; rewrite opp_F, O; ring).
  assert (Mf : finite (-1)%float) by reflexivity. split.
  - destruct (Rlt_or_le (FR x) (-1)) as [L|L]; auto. rewrite <- M in L. apply ltb_F in L; auto. congruence.
  - destruct (Rlt_or_le 1 (FR x)) as [L|L]; auto. rewrite <- O in L. apply ltb_F in L; auto. congruence.
Qed.

Theorem C70_cosine_range : forall (v o : list flt) c, cosine_similarity (N:=FNum) v o = Ok c -> not_nan c -> finite c /\ -1 <= FR c <= 1.
Proof.
  intros v o c E Hn. unfold cosine_similarity in E. cbn [bind norm] in E. destruct (vector_of o) as [o'| |]; cbn [bind norm] in E; try discriminate.
  match type of E with (if ?b then _ else _) = _ => destruct b end; try discriminate. destruct (np_dot v o) as [d| |]; cbn [bind] in E; try discriminate.
  cbn [bind ndiv FNum] in E. injection E as <-. apply unit_range; auto; apply clip_dom.
Qed.
Print Assumptions C70_cosine_range.
Theorem C11_cosine_range_doubles : forall (v o : list flt) c, cosine_similarity (N:=FNum) v o = Ok c -> not_nan c -> finite c /\ -1 <= FR c <= 1.
Proof. exact C70_cosine_range. Qed.
Print Assumptions C11_cosine_range_doubles.

Theorem C70_angle_between_domain : forall T (v o : list flt), angle_between (N:=FNum) T v o = let* c := cosine_similarity (N:=FNum) v o in Ok (tacos T c).
Proof.
  intros T v o. unfold angle_between. destruct (cosine_similarity v o) as [c| |] eqn:E; auto. cbn [bind]. unfold math_acos.
  enough (H : PrimFloat.ltb c (-1) = false /\ PrimFloat.ltb 1 c = false).
  { destruct H as (H1 & H2). change (nltb (n:=FNum) c (nopp n1)) with (PrimFloat.ltb c (-1)). change (nltb (n:=FNum) n1 c) with (PrimFloat.ltb 1 c). rewrite H1, H2. reflexivity. }
  unfold cosine_similarity in E. cbn [bind norm] in E. destruct (vector_of o) as [o'| |]; cbn [bind norm] in E; try discriminate.
  match type of E with (if ?b then _ else _) = _ => destruct b end; try discriminate. destruct (np_dot v o) as [d| |]; cbn [bind] in E; try discriminate.
  cbn [bind ndiv FNum] in E. injection E as <-. apply clip_dom.
Qed.
Print Assumptions C70_angle_between_domain.

(** ** Distances are symmetric bit for bit *)
Lemma sub_abs (x y : flt) : PrimFloat.abs (x - y) = PrimFloat.abs (y - x).
Proof.
  apply Prim2B_inj. rewrite !abs_equiv, !sub_equiv. set (a := Prim2B x). set (b := Prim2B y).
  destruct (is_finite a) eqn:Fa; [|destruct a as [[|]|[|]| |[|] ? ? ?], b as [[|]|[|]| |[|] ? ? ?]; try discriminate; reflexivity].
  destruct (is_finite b) eqn:Fb; [|destruct a as [[|]|[|]| |[|] ? ? ?], b as [[|]|[|]| |[|] ? ? ?]; try discriminate; reflexivity].
  pose proof (Bminus_correct prec emax Hprec Hmax mode_NE a b Fa Fb) as C1. pose proof (Bminus_correct prec emax Hprec Hmax mode_NE b a Fb Fa) as C2.
  rewrite <- rnd_eq in C1, C2. replace (B2R b - B2R a) with (- (B2R a - B2R b)) in C2 by ring. rewrite rnd_opp, Rabs_Ropp in C2.
  destruct (Rlt_bool _ _).
  - destruct C1 as (R1 & F1 & _), C2 as (R2 & F2 & _). apply B2R_Bsign_inj.
    + rewrite is_finite_Babs; auto. + rewrite is_finite_Babs; auto.
    + rewrite !B2R_Babs, R1, R2, Rabs_Ropp. reflexivity.
    + rewrite !Bsign_Babs; auto; destruct (Bminus mode_NE _ _); auto; discriminate.
  - destruct C1 as (R1 & _), C2 as (R2 & _). rewrite overflow_inf in R1, R2. destruct (Bminus mode_NE a b), (Bminus mode_NE b a); simpl in R1, R2; try discriminate; reflexivity.
Qed.
Lemma sq_abs (x : flt) : (x * x)%float = (PrimFloat.abs x * PrimFloat.abs x)%float.
Proof. apply Prim2SF_inj. rewrite !mul_spec, abs_spec. destruct (Prim2SF x) as [[|]|[|]| |[|] m e]; reflexivity. Qed.
Lemma sub_sq (x y : flt) : ((x - y) * (x - y))%float = ((y - x) * (y - x))%float.
Proof. rewrite (sq_abs (x - y)), (sq_abs (y - x)), sub_abs. reflexivity. Qed.
Lemma sub_fin_sym (x y : flt) : f_finite (x - y) = f_finite (y - x).
Proof. rewrite !f_finite_equiv, <- !(is_finite_Babs _ _ (Prim2B (_ - _))), <- !abs_equiv, sub_abs. reflexivity. Qed.

Lemma fin_sub_map (a b : list flt) : forallb f_finite (map2 (N:=FNum) PrimFloat.sub a b) = forallb f_finite (map2 (N:=FNum) PrimFloat.sub b a).
Proof. revert b. induction a as [|x a IH]; intros [|y b]; auto. cbn [map2 forallb]. rewrite IH, sub_fin_sym. reflexivity. Qed.
Lemma dot_sub_sym (a b : list flt) : dot_raw (N:=FNum) (map2 (N:=FNum) PrimFloat.sub a b) (map2 (N:=FNum) PrimFloat.sub a b) = dot_raw (N:=FNum) (map2 (N:=FNum) PrimFloat.sub b a) (map2 (N:=FNum) PrimFloat.sub b a).
Proof.
  revert b. induction a as [|x a IH]; intros [|y b]; auto. unfold dot_raw in *. cbn [map2 nsum fold_right]. unfold nsum in IH. rewrite IH. f_equal. apply sub_sq.
Qed.
Lemma map_sub_map2 (x : flt) (b : list flt) : map (PrimFloat.sub x) b = map2 (N:=FNum) PrimFloat.sub (map (fun _ => x) b) b /\ map (fun y => y - x)%float b = map2 (N:=FNum) PrimFloat.sub b (map (fun _ => x) b).
Proof. induction b as [|y b (IH & IH')]; split; auto; cbn [map map2]; [rewrite IH|rewrite IH']; reflexivity. Qed.
Definition same_size (u w : list flt) : Prop := length u = length w /\ forallb f_finite u = forallb f_finite w /\ dot_raw (N:=FNum) u u = dot_raw (N:=FNum) w w.
Lemma same_size_sym u w : same_size u w -> same_size w u.
Proof. intros (? & ? & ?). repeat split; auto. Qed.
Lemma same_size_one x b : same_size (map (PrimFloat.sub x) b) (map (fun y => y - x)%float b).
Proof. split; [rewrite !map_length; reflexivity|]. destruct (map_sub_map2 x b) as (-> & ->). split; [apply fin_sub_map|apply dot_sub_sym]. Qed.
Lemma bcast_sub_sym (a b : list flt) : match bcast (N:=FNum) nsub a b, bcast (N:=FNum) nsub b a with
  | Ok u, Ok w => same_size u w
  | Raise e, Raise e' => e = e'
  | _, _ => False
  end.
Proof.
  change (nsub (n:=FNum)) with PrimFloat.sub. unfold bcast. fn. rewrite (Nat.eqb_sym (length b)). destruct (Nat.eqb_spec (length a) (length b)) as [L|L].
  - cbv beta iota. split; [|split; [apply fin_sub_map|apply dot_sub_sym]]. revert b L. induction a as [|x a IH]; intros [|y b] L; try discriminate; auto. cbn [map2 length]. f_equal. apply IH. auto.
  - destruct a as [|x [|x' a]], b as [|y [|y' b]]; try (exfalso; apply L; reflexivity); try reflexivity; cbv beta iota.
    + apply (same_size_sym _ _ (same_size_one y [])).
    + apply (same_size_one x []).
    + apply (same_size_one x (y :: y' :: b)).
    + apply (same_size_sym _ _ (same_size_one y (x :: x' :: a))).
Qed.
Lemma vector_of_F (v : list flt) : vector_of (N:=FNum) v = if Nat.eqb (length v) 0 then Raise err_empty else if negb (forallb f_finite v) then Raise err_finite else Ok v.
Proof. unfold vector_of. rewrite array1d_of_vec. unfold base_new. fn. destruct (Nat.eqb _ _); auto. change (forallb (nfin (n:=FNum)) v) with (forallb f_finite v). destruct (negb _); auto. Qed.
Theorem C70_distance_symmetric : forall a b : list flt, distance_point (N:=FNum) a b = distance_point (N:=FNum) b a.
Proof.
  intros a b. unfold distance_point, from_points. pose proof (bcast_sub_sym a b) as H. destruct (bcast (N:=FNum) nsub a b) as [u|e|], (bcast (N:=FNum) nsub b a) as [w|e'|]; try contradiction; cbn [bind]; [|congruence].
  destruct H as (L & F & D). rewrite !vector_of_F, L, F. destruct (Nat.eqb _ _); auto. destruct (negb _); auto. cbn [bind norm]. unfold norm, norm_raw. rewrite D. reflexivity.
Qed.
Print Assumptions C70_distance_symmetric.

(** The norm of any vector of doubles is never negative (when it is a number at all). *)
Theorem C70_norm_nonneg : forall v : list flt, exists r, norm (N:=FNum) v = Ok r /\ (not_nan r -> PrimFloat.leb 0 r = true).
Proof. intro v. exists (norm_raw (N:=FNum) v). split; auto. apply sqrt_nonneg_F. Qed.
Print Assumptions C70_norm_nonneg.

(** ** is_close in doubles: reflexive on finite values, symmetric *)
Definition ftol_ok (t : tol FNum) : Prop := PrimFloat.ltb (rel_tol t) 0 = false /\ PrimFloat.ltb (abs_tol t) 0 = false.
Lemma isclose_eq_F (t : tol FNum) (a b : flt) : ftol_ok t -> PrimFloat.eqb a b = true -> isclose (N:=FNum) t a b = Ok true.
Proof.
  intros (H1 & H2) E. unfold isclose. change (nltb (n:=FNum)) with PrimFloat.ltb. change (n0 (n:=FNum)) with 0%float. rewrite H1, H2. cbn [orb]. change (neqb (n:=FNum)) with PrimFloat.eqb. rewrite E. reflexivity.
Qed.
Lemma eqb_sym_F (a b : flt) : PrimFloat.eqb a b = PrimFloat.eqb b a.
Proof.
  rewrite !eqb_equiv. unfold Beqb, SpecFloat.SFeqb. change (SpecFloat.SFcompare (B2SF (Prim2B a)) (B2SF (Prim2B b))) with (Bcompare (Prim2B a) (Prim2B b)).
  change (SpecFloat.SFcompare (B2SF (Prim2B b)) (B2SF (Prim2B a))) with (Bcompare (Prim2B b) (Prim2B a)). rewrite (Bcompare_swap _ _ (Prim2B b)). destruct (Bcompare (Prim2B b) (Prim2B a)) as [[]|]; reflexivity.
Qed.
Lemma isclose_sym_F (t : tol FNum) (a b : flt) : isclose (N:=FNum) t a b = isclose (N:=FNum) t b a.
Proof.
  unfold isclose. destruct (_ || _); auto. change (neqb (n:=FNum)) with PrimFloat.eqb. rewrite (eqb_sym_F b a). destruct (PrimFloat.eqb a b); auto. rewrite (orb_comm (negb (nfin b))). destruct (negb (nfin a) || negb (nfin b)); auto.
  change (nabs (n:=FNum) (nsub b a)) with (PrimFloat.abs (b - a)). change (nabs (n:=FNum) (nsub a b)) with (PrimFloat.abs (a - b)). rewrite (sub_abs b a). cbv zeta. f_equal. f_equal. apply orb_comm.
Qed.
Theorem C70_is_close_reflexive : forall (t : tol FNum) (v : list flt), ftol_ok t -> v <> [] -> Forall finite v -> is_close1 (N:=FNum) t v v = Ok true.
Proof.
  intros t v Ht Hne F. unfold is_close1, bpairs. rewrite Nat.eqb_refl. cbn [bind]. unfold allclose_pairs. destruct v as [|x v]; [contradiction|]. cbn [combine].
  assert (M : forall w : list flt, Forall finite w -> mapM (fun p => isclose (N:=FNum) t (fst p) (snd p)) (combine w w) = Ok (map (fun _ => true) w)).
  { induction 1 as [|y w Hy Fw IH]; auto. cbn [combine mapM fst snd]. rewrite isclose_eq_F by (auto; apply eqb_refl_F, finite_not_nan; auto). cbn [bind]. fn. rewrite IH. reflexivity. }
  specialize (M (x :: v) F). cbn [combine] in M. fn. rewrite M. cbn [bind]. f_equal. clear. induction (x :: v); auto.
Qed.
Print Assumptions C70_is_close_reflexive.
Theorem C70_is_close_symmetric : forall (t : tol FNum) (a b : list flt), is_close1 (N:=FNum) t a b = is_close1 (N:=FNum) t b a.
Proof.
  assert (M : forall (t : tol FNum) (l : list (flt * flt)), allclose_pairs (N:=FNum) t l = allclose_pairs (N:=FNum) t (map (fun p => (snd p, fst p)) l)).
  { intros t l. unfold allclose_pairs. destruct l as [|p l]; auto. cbn [map]. f_equal.
    change ((snd p, fst p) :: map (fun p => (snd p, fst p)) l) with (map (fun p : flt * flt => (snd p, fst p)) (p :: l)). generalize (p :: l). clear. induction l as [|p l IH]; auto.
    cbn [map mapM fst snd]. rewrite isclose_sym_F. destruct (isclose _ _ _); auto. cbn [bind]. fn. rewrite IH. reflexivity. }
  intros t a b. unfold is_close1, bpairs. fn. rewrite (Nat.eqb_sym (length b)). destruct (Nat.eqb_spec (length a) (length b)) as [L|L].
  - cbn [bind]. rewrite M. f_equal. revert b L. induction a as [|x a IH]; intros [|y b] L; try discriminate; auto. cbn [combine map fst snd]. f_equal. apply IH. auto.
  - destruct a as [|x [|x' a]], b as [|y [|y' b]]; try (exfalso; apply L; reflexivity); auto; cbn [bind]; rewrite M, map_map; reflexivity.
Qed.
Print Assumptions C70_is_close_symmetric.

(** ** A line or plane always contains its own point *)
Lemma np_dot_F (a b : list flt) : length a = length b -> np_dot (N:=FNum) a b = Ok (dot_raw (N:=FNum) a b).
Proof. intro L. unfold np_dot. fn. rewrite L, Nat.eqb_refl. reflexivity. Qed.
Lemma bcast_F f (a b : list flt) : length a = length b -> bcast (N:=FNum) f a b = Ok (map2 (N:=FNum) f a b).
Proof. intro L. unfold bcast. fn. rewrite L, Nat.eqb_refl. reflexivity. Qed.
Lemma all_finite (v : list flt) : Forall finite v -> forallb f_finite v = true.
Proof. intro F. apply forallb_forall. rewrite Forall_forall in F. intros x Hx. apply f_finite_iff. auto. Qed.
Lemma finite_all (v : list flt) : forallb f_finite v = true -> Forall finite v.
Proof. rewrite forallb_forall. intro F. apply Forall_forall. intros x Hx. apply f_finite_iff. auto. Qed.
Lemma wrap1_F (v : list flt) : Forall finite v -> wrap1 (N:=FNum) v = Ok v.
Proof. intro F. unfold wrap1. change (forallb (nfin (n:=FNum)) v) with (forallb f_finite v). rewrite all_finite; auto. Qed.
Lemma vector_of_ok (v : list flt) : v <> [] -> Forall finite v -> vector_of (N:=FNum) v = Ok v.
Proof. intros Hne F. rewrite vector_of_F. destruct v; [contradiction|]. cbn [length Nat.eqb]. rewrite all_finite; auto. Qed.
Lemma zeros_dot (a z : list flt) : Forall finite a -> Forall fzero z -> fzero (dot_raw (N:=FNum) a z).
Proof.
  intro F. revert z. induction F as [|x a Hx F IH]; intros z Z; [destruct z; apply fzero_0|]. destruct Z as [|y z Hy Z]; [apply fzero_0|].
  change (fzero (x * y + dot_raw (N:=FNum) a z)%float). apply fzero_add; [|apply IH; auto]. destruct Hy as (Fy & Y). apply fzero_mul; auto. rewrite Y. ring.
Qed.
Lemma fzero_finite x : fzero x -> finite x. Proof. intros (? & ?); auto. Qed.
Lemma zeros_finite z : Forall fzero z -> Forall finite z.
Proof. intro H. eapply Forall_impl; [|exact H]. apply fzero_finite. Qed.
Lemma sq_dot_pos (v : list flt) : Forall finite v -> fpos (dot_raw (N:=FNum) v v).
Proof.
  induction 1 as [|x v Hx F IH]; [apply fpos_0|]. change (fpos (x * x + dot_raw (N:=FNum) v v)%float). apply fpos_add; auto. apply fpos_sq. apply finite_not_nan; auto.
Qed.
(** Two finite lists with the same values (zeros of either sign count as equal). *)
Definition feq (a b : list flt) : Prop := Forall2 (fun x y => finite x /\ finite y /\ FR x = FR y) a b.
Lemma feq_sub (a b : list flt) : feq a b -> Forall fzero (map2 (N:=FNum) PrimFloat.sub a b).
Proof. induction 1 as [|x y a b (Fx & Fy & E) H IH]; constructor; auto. apply fzero_sub; auto. Qed.
Lemma feq_refl (a : list flt) : Forall finite a -> feq a a.
Proof. induction 1; constructor; auto. Qed.
Lemma feq_len a b : feq a b -> length a = length b.
Proof. induction 1; simpl; auto. Qed.
Lemma from_points_feq (a b : list flt) : a <> [] -> feq b a -> exists z, from_points (N:=FNum) a b = Ok z /\ Forall fzero z /\ length z = length a.
Proof.
  intros Hne E. pose proof (feq_len _ _ E) as L. unfold from_points. rewrite bcast_F by auto. cbn [bind]. change (nsub (n:=FNum)) with PrimFloat.sub. pose proof (feq_sub _ _ E) as Z.
  assert (Lz : length (map2 (N:=FNum) PrimFloat.sub b a) = length a).
  { clear -E. induction E; auto. cbn [map2 length]. f_equal. auto. }
  rewrite vector_of_ok; [eexists; eauto| |apply zeros_finite; auto]. intro Q. rewrite Q in Lz. destruct a; [contradiction|discriminate].
Qed.
Lemma distance_feq (a b : list flt) : a <> [] -> feq b a -> exists r, distance_point (N:=FNum) a b = Ok r /\ fzero r.
Proof.
  intros Hne E. destruct (from_points_feq a b Hne E) as (z & Ez & Z & _). unfold distance_point. rewrite Ez. cbn [bind]. eexists. split; [reflexivity|]. apply fzero_sqrt. apply zeros_dot; auto. apply zeros_finite; auto.
Qed.
Lemma isclose_fzero (t : tol FNum) x : ftol_ok t -> fzero x -> isclose (N:=FNum) t x n0 = Ok true.
Proof. intros Ht Z. apply isclose_eq_F; auto. apply fzero_eqb; auto. Qed.
Lemma check_F (p d p' d' : list flt) : check_point_vector (N:=FNum) p d = Ok (p', d') -> p' = p /\ d' = d /\ p <> [] /\ Forall finite p /\ Forall finite d /\ length p = length d /\ ~ fzero (dot_raw (N:=FNum) d d).
Proof.
  unfold check_point_vector. change (point_of (N:=FNum)) with (vector_of (N:=FNum)). rewrite !vector_of_F. intro H.
  destruct (Nat.eqb (length p) 0) eqn:E1; cbn [bind] in H; try discriminate. destruct (forallb f_finite p) eqn:F1; cbn [bind negb] in H; try discriminate.
  destruct (Nat.eqb (length d) 0) eqn:E2; cbn [bind] in H; try discriminate. destruct (forallb f_finite d) eqn:F2; cbn [bind negb] in H; try discriminate.
  unfold dim1 in H. fn. destruct (Nat.eqb_spec (length p) (length d)) as [L|L]; cbn [bind negb] in H; try discriminate. unfold is_zero in H. rewrite np_dot_F in H by auto. cbn [bind] in H.
  assert (Ht : ftol_ok tol_default) by (split; reflexivity).
  assert (Hz : ~ fzero (dot_raw (N:=FNum) d d)). { intro Z. rewrite (isclose_fzero _ _ Ht Z) in H. cbn [bind] in H. discriminate. }
  destruct (isclose (N:=FNum) tol_default _ _) as [[|]| |]; cbn [bind] in H; try discriminate. injection H as <- <-. split; [reflexivity|]. split; [reflexivity|].
  split; [destruct p; discriminate|]. split; [apply finite_all; auto|]. split; [apply finite_all; auto|]. split; auto.
Qed.
Lemma scale_zeros s (d : list flt) : fzero s -> Forall finite d -> Forall fzero (vscale (N:=FNum) s d).
Proof.
  intros (Fs & S) F. unfold vscale. induction F as [|x d Hx F IH]; constructor; auto. change (fzero (s * x)%float). apply fzero_mul; auto. rewrite S. ring.
Qed.
Lemma add_zeros (p z : list flt) : Forall finite p -> Forall fzero z -> length p = length z -> feq (map2 (N:=FNum) PrimFloat.add p z) p.
Proof.
  intro F. revert z. induction F as [|x p Hx F IH]; intros z Z L; destruct Z as [|y z Hy Z]; try discriminate; constructor; [|apply IH; auto].
  destruct (add_fzero x y Hx Hy) as (Fa & E). auto.
Qed.

Theorem C70_line_contains_own_point : forall (t : tol FNum) (p d : list flt) (l : line FNum), ftol_ok t -> line_new (N:=FNum) p d = Ok l ->
  line_contains_point (N:=FNum) t l p = Ok true /\ exists r, line_distance_point (N:=FNum) l p = Ok r /\ PrimFloat.eqb r 0 = true.
Proof.
  intros t p d l Ht H. unfold line_new in H. destruct (check_point_vector p d) as [(p', d')| |] eqn:E; cbn [bind] in H; try discriminate. injection H as <-.
  destruct (check_F _ _ _ _ E) as (-> & -> & Hne & Fp & Fd & L & Hz).
  assert (D : exists r, line_distance_point (N:=FNum) {| l_point := p; l_dir := d |} p = Ok r /\ fzero r).
  { unfold line_distance_point, line_project_point. cbn [l_point l_dir]. destruct (from_points_feq p p Hne (feq_refl p Fp)) as (z & -> & Z & Lz). cbn [bind].
    unfold project_vector. rewrite !np_dot_F by (fn; congruence). cbn [bind ndiv FNum].
    assert (S : fzero (dot_raw (N:=FNum) d z / dot_raw (N:=FNum) d d)%float). { apply fzero_div; auto. apply zeros_dot; auto. apply sq_dot_pos; auto. }
    unfold vmuls. rewrite wrap1_F by (apply zeros_finite, scale_zeros; auto). cbn [bind]. unfold vadd. rewrite bcast_F by (unfold vscale; rewrite map_length; auto). cbn [bind]. change (nadd (n:=FNum)) with PrimFloat.add.
    pose proof (add_zeros p _ Fp (scale_zeros _ d S Fd) ltac:(unfold vscale; rewrite map_length; auto)) as Q.
    set (q := map2 (N:=FNum) PrimFloat.add p _) in *. rewrite wrap1_F by (clear -Q; induction Q; constructor; tauto). cbn [bind].
    apply distance_feq; [|clear -Q; induction Q; constructor; intuition]. intro Q0. apply feq_len in Q. rewrite Q0 in Q. destruct p; [contradiction|discriminate]. }
  destruct D as (r & Er & Zr). split; [|exists r; split; auto; apply fzero_eqb; auto].
  unfold line_contains_point, contains_point_gen. rewrite Er. cbn [bind]. apply isclose_fzero; auto.
Qed.
Print Assumptions C70_line_contains_own_point.

(** ** unit: for finite vectors either the error, or finite components *)
Lemma dot_ge (v : list flt) : finite (dot_raw (N:=FNum) v v) -> Forall (fun x => finite x /\ rnd (FR x * FR x) <= FR (dot_raw (N:=FNum) v v)) v /\ 0 <= FR (dot_raw (N:=FNum) v v).
Proof.
  induction v as [|x v IH]; intro H; [split; [constructor|apply Req_le; reflexivity]|]. change (dot_raw (N:=FNum) (x :: v) (x :: v)) with (x * x + dot_raw (N:=FNum) v v)%float in *.
  apply add_F in H as (Fm & Fd & E). apply mul_F in Fm as Fm'. destruct Fm' as (Fx & _ & Em). destruct (IH Fd) as (A & P). rewrite E, Em.
  assert (M : 0 <= rnd (FR x * FR x)) by (apply rnd_pos; nra).
  assert (R1 : rnd (rnd (FR x * FR x)) = rnd (FR x * FR x)) by (rewrite <- Em; apply rnd_FR; auto).
  assert (R2 : rnd (FR (dot_raw (N:=FNum) v v)) = FR (dot_raw (N:=FNum) v v)) by (apply rnd_FR; auto).
  split; [|apply rnd_pos; lra]. constructor.
  - split; auto. rewrite <- R1 at 1. apply rnd_le. lra.
  - eapply Forall_impl; [|exact A]. intros y (Fy & Hy). split; auto. eapply Rle_trans; [exact Hy|]. rewrite <- R2 at 1. apply rnd_le. lra.
Qed.
Lemma inf_of (x : flt) : fpos x -> ~ finite x -> Prim2B x = B754_infinity false.
Proof. unfold fpos, finite, not_nan. intros (S & N) F. destruct (Prim2B x) as [[|]|[|]| |[|] ? ? ?]; simpl in *; try discriminate; auto; exfalso; auto. Qed.
Lemma div_inf (x y : flt) : finite x -> Prim2B y = B754_infinity false -> fzero (x / y)%float.
Proof. unfold fzero, finite, FR. intros F E. rewrite div_equiv, E. destruct (Prim2B x) as [[|]|[|]| |[|] ? ? ?]; try discriminate; split; reflexivity. Qed.
Lemma mapM_div (v : list flt) (s : flt) : mapM (fun x => ndiv (n:=FNum) x s) v = Ok (map (fun x => x / s)%float v).
Proof. induction v as [|x v IH]; auto. cbn [mapM ndiv FNum bind map] in *. rewrite IH. reflexivity. Qed.
Lemma norm_zero (v : list flt) : Forall finite v -> (PrimFloat.eqb (norm_raw (N:=FNum) v) 0 = true <-> fzero (dot_raw (N:=FNum) v v)).
Proof.
  intro F. rewrite <- fzero_eqb. split; [|apply fzero_sqrt]. intros (Fn & Z). unfold norm_raw in *. change (nsqrt (n:=FNum)) with PrimFloat.sqrt in *.
  apply sqrt_F in Fn as (Fd & P & E). rewrite E in Z. split; auto. destruct (Req_dec (FR (dot_raw (N:=FNum) v v)) 0) as [|Hz]; auto. exfalso.
  apply FR_min in Hz. rewrite Rabs_pos_eq in Hz by auto. pose proof sqrt_eta. pose proof eta_pos. assert (S1 : R_sqrt.sqrt (2 * eta) <= R_sqrt.sqrt (FR (dot_raw (N:=FNum) v v))) by (apply sqrt_le_1_alt; auto).
  pose proof (rnd_ge_mult _ (sqrt_pos (FR (dot_raw (N:=FNum) v v)))). pose proof uro_small. nra.
Qed.
Lemma two_F : FR 2%float = 2.
Proof. unfold FR. rewrite <- SF2R_B2SF, B2SF_Prim2B. vm_compute (Prim2SF 2). simpl. unfold F2R. simpl. lra. Qed.
Theorem C70_unit : forall v : list flt, v <> [] -> Forall finite v ->
  (fzero (dot_raw (N:=FNum) v v) /\ unit_vec (N:=FNum) v = Raise (ValueError "The magnitude must not be zero.")) \/
  (~ fzero (dot_raw (N:=FNum) v v) /\ exists w, unit_vec (N:=FNum) v = Ok w /\ length w = length v /\ Forall (fun x => finite x /\ Rabs (FR x) <= 2) w).
Proof.
  intros v Hne F. pose proof (norm_zero v F) as NZ. unfold unit_vec. cbn [bind norm]. change (neqb (n:=FNum)) with PrimFloat.eqb. change (n0 (n:=FNum)) with 0%float.
  destruct (PrimFloat.eqb (norm_raw v) 0) eqn:E; [left; split; [apply NZ; auto|reflexivity]|]. right. assert (Hz : ~ fzero (dot_raw (N:=FNum) v v)) by (rewrite <- NZ; discriminate). split; auto.
  unfold vdivs. rewrite mapM_div. cbn [bind]. exists (map (fun x => x / norm_raw (N:=FNum) v)%float v).
  assert (A : Forall (fun x => finite x /\ Rabs (FR x) <= 2) (map (fun x => x / norm_raw (N:=FNum) v)%float v)).
  { pose proof (sq_dot_pos v F) as P. destruct (is_finite (Prim2B (dot_raw (N:=FNum) v v))) eqn:Fd.
    - destruct (dot_ge v Fd) as (A & Pd). assert (Y0 : FR (dot_raw (N:=FNum) v v) <> 0) by (intro; apply Hz; split; auto).
      assert (Y : 2 * eta <= FR (dot_raw (N:=FNum) v v)) by (apply FR_min in Y0; rewrite Rabs_pos_eq in Y0; auto).
      assert (Fs : finite (norm_raw (N:=FNum) v)).
      { unfold norm_raw, finite. change (nsqrt (n:=FNum)) with PrimFloat.sqrt. rewrite sqrt_equiv. destruct (Bsqrt_correct prec emax Hprec Hmax mode_NE (Prim2B (dot_raw (N:=FNum) v v))) as (_ & C & _). rewrite C.
        destruct P as (P & _). destruct (Prim2B (dot_raw (N:=FNum) v v)) as [[|]|[|]| |[|] ? ? ?]; auto; discriminate. }
      assert (Es : FR (norm_raw (N:=FNum) v) = rnd (R_sqrt.sqrt (FR (dot_raw (N:=FNum) v v)))) by (apply sqrt_F; auto).
      apply Forall_map. eapply Forall_impl; [|exact A]. intros x (Fx & Hx). pose proof (rnd_ge_mult (FR x * FR x) ltac:(nra)).
      assert (B : Rabs (FR x) <= 2 * FR (norm_raw (N:=FNum) v)) by (rewrite Es; apply root_bound; lra).
      assert (Np : 0 < FR (norm_raw (N:=FNum) v)).
      { assert (0 <= FR (norm_raw (N:=FNum) v)) by (rewrite Es; apply rnd_pos, sqrt_pos). destruct (Req_dec (FR (norm_raw (N:=FNum) v)) 0) as [Z|Z]; [|lra]. exfalso. assert (X : fzero (norm_raw (N:=FNum) v)) by (split; auto). apply fzero_eqb in X. fn. congruence. }
      assert (Q : Rabs (FR x / FR (norm_raw (N:=FNum) v)) <= 2). { unfold Rdiv. rewrite Rabs_mult, Rabs_inv, (Rabs_pos_eq (FR (norm_raw (N:=FNum) v))) by lra. apply Rmult_le_reg_r with (FR (norm_raw (N:=FNum) v)); auto. rewrite Rmult_assoc, Rinv_l by lra. lra. }
      assert (Q' : Rabs (rnd (FR x / FR (norm_raw (N:=FNum) v))) <= Rabs (FR 2)).
      { rewrite two_F, (Rabs_pos_eq 2) by lra. assert (R2 : rnd 2 = 2) by (rewrite <- two_F; apply rnd_FR; reflexivity). apply Rabs_le in Q || idtac. apply Rabs_le_inv in Q. apply Rabs_le. split; [rewrite <- R2, <- rnd_opp|rewrite <- R2]; apply rnd_le; lra. }
      destruct (div_ok x (norm_raw (N:=FNum) v) 2%float Fx ltac:(lra) eq_refl Q') as (Fq & Eq). split; auto. rewrite Eq. rewrite two_F, (Rabs_pos_eq 2) in Q' by lra. exact Q'.
    - assert (I : Prim2B (dot_raw (N:=FNum) v v) = B754_infinity false) by (apply inf_of; auto; unfold finite; congruence).
      assert (I' : Prim2B (norm_raw (N:=FNum) v) = B754_infinity false) by (unfold norm_raw; change (nsqrt (n:=FNum)) with PrimFloat.sqrt; rewrite sqrt_equiv, I; reflexivity).
      apply Forall_map. eapply Forall_impl; [|exact F]. intros x Fx. destruct (div_inf x _ Fx I') as (Fz & Z). split; auto. rewrite Z, Rabs_R0. lra. }
  split; [|split; auto; apply map_length]. apply wrap1_F. eapply Forall_impl; [|exact A]. intros x (? & ?); auto.
Qed.
Print Assumptions C70_unit.

Theorem C70_plane_contains_own_point : forall (t : tol FNum) (p n : list flt) (pl : plane FNum), ftol_ok t -> plane_new (N:=FNum) p n = Ok pl ->
  plane_contains_point (N:=FNum) t pl p = Ok true /\ exists r, plane_distance_point (N:=FNum) pl p = Ok r /\ PrimFloat.eqb r 0 = true.
Proof.
  intros t p n pl Ht H. unfold plane_new in H. destruct (check_point_vector p n) as [(p', n')| |] eqn:E; cbn [bind] in H; try discriminate. injection H as <-.
  destruct (check_F _ _ _ _ E) as (-> & -> & Hne & Fp & Fd & L & Hz).
  assert (D : exists r, plane_distance_point (N:=FNum) {| pl_point := p; pl_normal := n |} p = Ok r /\ fzero r).
  { unfold plane_distance_point, plane_distance_point_signed. cbn [pl_point pl_normal]. destruct (from_points_feq p p Hne (feq_refl p Fp)) as (z & -> & Z & Lz). cbn [bind].
    unfold scalar_projection. destruct (C70_unit n) as [(Z' & _)|(_ & w & -> & Lw & W)]; auto; [destruct n; [destruct p; [contradiction|discriminate]|discriminate]|contradiction|]. cbn [bind].
    rewrite np_dot_F by (fn; congruence). cbn [bind]. eexists. split; [reflexivity|]. assert (Zd : fzero (dot_raw (N:=FNum) w z)) by (apply zeros_dot; auto; eapply Forall_impl; [|exact W]; intros ? (? & ?); auto).
    destruct Zd as (Fz & Rz). split; [apply abs_finite; auto|]. change (FR (PrimFloat.abs (dot_raw (N:=FNum) w z)) = 0). rewrite abs_F, Rz. apply Rabs_R0. }
  destruct D as (r & Er & Zr). split; [|exists r; split; auto; apply fzero_eqb; auto].
  unfold plane_contains_point, contains_point_gen. rewrite Er. cbn [bind]. apply isclose_fzero; auto.
Qed.
Print Assumptions C70_plane_contains_own_point.

(** ** Where doubles and exact arithmetic part: each of these is false of doubles although true over the reals *)
Local Open Scope string_scope.
Local Open Scope float_scope.
(** A line through two points need not contain the second one: containment is tested with absolute tolerance 0. *)
Theorem C70_contains_second_point_refuted :
  exists (p q : list flt) (l : line FNum), line_from_points (N:=FNum) p q = Ok l /\ line_contains_point (N:=FNum) tol_default l p = Ok true /\ line_contains_point (N:=FNum) tol_default l q = Ok false.
Proof. exists [0.1; 0.2], [0.7; 0.9], {| l_point := [0.1; 0.2]; l_dir := [0.7 - 0.1; 0.9 - 0.2] |}. split; [|split]; reflexivity. Qed.
Print Assumptions C70_contains_second_point_refuted.
(** Equal circles that touch: the discriminant comes out negative and math.sqrt raises. *)
Theorem C70_tangent_circles_refuted :
  circle_intersect_circle (N:=FNum) (MkBall [0; 0] 0.1) (MkBall [0.2; 0] 0.1) = Raise (ValueError "math domain error") /\
  circle_new (N:=FNum) [0; 0] 0.1 = Ok (MkBall [0; 0] 0.1) /\ circle_new (N:=FNum) [0.2; 0] 0.1 = Ok (MkBall [0.2; 0] 0.1).
Proof. split; [|split]; reflexivity. Qed.
Print Assumptions C70_tangent_circles_refuted.
(** Triangle.angle of a thin triangle: the law of cosines leaves [-1, 1] and math.acos raises, for every arc cosine. *)
Theorem C70_thin_triangle_angle_refuted : forall T : Trig FNum,
  triangle_angle (N:=FNum) T (MkTriangle [0; 0] [7; 0] [7.7; 1e-9]) "A" = Raise (ValueError "math domain error").
Proof. intro T. reflexivity. Qed.
Print Assumptions C70_thin_triangle_angle_refuted.
(** Underflow: a nonzero vector whose squares vanish has length 0 and is refused as a direction. *)
Theorem C70_underflow_refuted :
  norm (N:=FNum) [1e-200; 0] = Ok 0 /\ is_zero (N:=FNum) tol_default [1e-200; 0] = Ok true /\
  line_new (N:=FNum) [0; 0] [1e-200; 0] = Raise (ValueError "The vector must not be the zero vector.") /\
  project_vector (N:=FNum) [1e-170; 0] [1; 0] = NonFinite.
Proof. split; [|split; [|split]]; reflexivity. Qed.
Print Assumptions C70_underflow_refuted.
(** Overflow: the length is infinite, the "unit" vector is zero, the cosine with itself is 0 (nan clipped away or 0/inf). *)
Theorem C70_overflow_refuted :
  norm (N:=FNum) [1e200; 0] = Ok infinity /\ unit_vec (N:=FNum) [1e200; 0] = Ok [0; 0] /\
  cosine_similarity (N:=FNum) [1e200; 0] [1; 0] = Ok 0 /\
  side_vector (N:=FNum) [1e200; 1e200] [1e200; 1e200] = Raise (ValueError "cannot convert float NaN to integer").
Proof. split; [|split; [|split]]; reflexivity. Qed.
Print Assumptions C70_overflow_refuted.
(** A nan radius passes the check of Circle and Sphere (not radius <= 0) but not that of Cylinder (radius > 0 is false). *)
Theorem C70_nan_radius :
  (exists c, circle_new (N:=FNum) [0; 0] nan = Ok c) /\ (exists c, sphere_new (N:=FNum) [0; 0; 0] nan = Ok c) /\
  cylinder_new (N:=FNum) [0; 0; 0] [0; 0; 1] nan = Raise (ValueError "The radius must be positive.").
Proof. split; [|split]; [eexists|eexists|]; reflexivity. Qed.
Print Assumptions C70_nan_radius.
(** ** The hypotheses are met *)
Theorem C70_nonvacuous : exists (l : line FNum) (p : plane FNum),
  line_new (N:=FNum) [0.1; 0.2; 0.3] [1; 2; 3] = Ok l /\ plane_new (N:=FNum) [0.1; 0.2; 0.3] [1; 2; 3] = Ok p /\ unit_vec (N:=FNum) [3; 4] = Ok [0.6; 0.8] /\
  cosine_similarity (N:=FNum) [1; 0] [1; 1] = Ok 0.70710678118654746.
Proof. eexists; eexists. split; [|split; [|split]]; reflexivity. Qed.
Print Assumptions C70_nonvacuous.
