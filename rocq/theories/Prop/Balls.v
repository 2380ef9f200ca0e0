(** * Properties C45-C49: Circle and Sphere (construction, distance, projection, from_points, intersections) *)
From Coq Require Import String Reals List ZArith Lra Lia Psatz Bool.
From Verif.Model Require Import Outcome Num Instances Numpy BaseArray Vector Points Functions Line Plane Sphere.
From Verif.Spec Require Import Geometry Tolerance Mesh Linalg.
From Verif.Proof Require Import VecAlg Bridge Arrays Vectors Points Lines Lincomb Svd SvdExists Ranks.
From Verif.Prop Require Import Arrays Directions Points Lines Ranks Planes.
Import ListNotations.
Local Open Scope R_scope.

(** ** C45  construction *)
Lemma ball_new_R (p : pt) r n e : 
  (let* c := base_sphere_new (N:=RNum) p r in if negb (Nat.eqb (dim1 (c_point c)) n) then Raise e else Ok c) =
  if Rle_dec r 0 then Raise (ValueError "The radius must be positive.") else
  match p with [] => Raise err_empty | _ => if Nat.eqb (length p) n then Ok (MkBall p r) else Raise e end.
Proof.
  unfold base_sphere_new. rops. destruct (Rle_dec r 0) as [H|H]; rb; try lra; try reflexivity.
  destruct p as [|x p]; [reflexivity|]. rewrite point_of_R by discriminate. cbn [bind c_point dim1]. destruct (Nat.eqb _ n); reflexivity.
Qed.
Theorem C45_construction : forall (p : pt) (r : R),
  (forall c, circle_new (N:=RNum) p r = Ok c <-> c = MkBall p r /\ 0 < r /\ length p = 2%nat) /\
  (forall c, sphere_new (N:=RNum) p r = Ok c <-> c = MkBall p r /\ 0 < r /\ length p = 3%nat) /\
  (~ (0 < r /\ length p = 2%nat) -> exists m, circle_new (N:=RNum) p r = Raise (ValueError m)) /\
  (~ (0 < r /\ length p = 3%nat) -> exists m, sphere_new (N:=RNum) p r = Raise (ValueError m)).
Proof.
  intros p r. unfold circle_new, sphere_new. rewrite !ball_new_R.
  assert (K : forall n m, (0 < n)%nat -> let o := (if Rle_dec r 0 then Raise (ValueError "The radius must be positive.") else
     match p with [] => Raise err_empty | _ => if Nat.eqb (length p) n then Ok (MkBall (N:=RNum) p r) else Raise (ValueError m) end) in
     (forall c, o = Ok c <-> c = MkBall p r /\ 0 < r /\ length p = n) /\ (~ (0 < r /\ length p = n) -> exists m, o = Raise (ValueError m))).
  { intros n m Hn o. unfold o. destruct (Rle_dec r 0) as [H|H].
    - split; [|intros; eexists; reflexivity]. intro c. split; [discriminate|]. lra.
    - destruct p as [|x p]; [split; [|intros; eexists; reflexivity]; intro c; split; [discriminate|simpl; lia]|].
      destruct (Nat.eqb_spec (length (x :: p)) n) as [E|E]; (split; [intro c; split|]).
      + intro Z; injection Z as <-. split; auto. split; auto. lra.
      + intros (-> & _). reflexivity.
      + intro Z. exfalso. apply Z. split; auto. lra.
      + discriminate.
      + intros (_ & _ & Z). contradiction.
      + intros; eexists; reflexivity. }
  destruct (K 2%nat "The point must be 2D."%string ltac:(lia)) as (A & B). destruct (K 3%nat "The point must be 3D."%string ltac:(lia)) as (A' & B').
  split; [exact A|]. split; [exact A'|]. split; auto.
Qed.
Print Assumptions C45_construction.

(** A valid circle or sphere. *)
Definition ball_ok (c : ball RNum) (p : pt) (r : R) : Prop := circle_new (N:=RNum) p r = Ok c \/ sphere_new (N:=RNum) p r = Ok c.
Lemma ball_ok_inv c p r : ball_ok c p r -> c = MkBall (N:=RNum) p r /\ 0 < r /\ p <> [].
Proof.
  destruct (C45_construction p r) as (A & B & _). intros [H|H]; [apply A in H|apply B in H]; destruct H as (-> & Hr & L); (split; [auto|split; [auto|destruct p; [simpl in L; lia|discriminate]]]).
Qed.

Lemma basis_point n : (0 < n)%nat -> exists u, length u = n /\ len u = 1.
Proof. intro H. exists (1 :: zeros (N:=RNum) (n - 1)). split; [simpl; unfold zeros; rewrite repeat_length; lia|apply basis_len]. Qed.

(** The sphere's nearest point to q (not the centre). *)
Definition bproj (p : pt) (r : R) (q : pt) : pt := add p (scale (r / dist q p) (sub q p)).
Lemma bproj_on p r q : length q = length p -> q <> p -> 0 < r -> on_sphere p r (bproj p r q).
Proof.
  intros L Hq Hr. unfold bproj. split; [len|]. unfold dist at 1. rewrite sub_add_cancel by len. rewrite len_scale. fold (dist q p).
  assert (0 < dist q p) by (apply len_pos; intro Z; apply Hq, sub_zero_iff; auto).
  rewrite Rabs_right by (apply Rle_ge, Rmult_le_pos; [lra|left; apply Rinv_0_lt_compat; auto]). field. lra.
Qed.
Lemma bproj_dist p r q : length q = length p -> q <> p -> dist q (bproj p r q) = Rabs (dist q p - r).
Proof.
  intros L Hq. assert (P : 0 < dist q p) by (apply len_pos; intro Z; apply Hq, sub_zero_iff; auto).
  unfold bproj. unfold dist at 1. replace (sub q (add p (scale (r / dist q p) (sub q p)))) with (scale (1 - r / dist q p) (sub q p)).
  - rewrite len_scale. fold (dist q p). rewrite <- (Rabs_right (dist q p)) at 2 by lra. rewrite <- Rabs_mult. f_equal. field. lra.
  - apply pt_ext; [len|]. intros i _. repeat rewrite ?nth_add, ?nth_scale, ?nth_sub by len. ring.
Qed.
Lemma sphere_dist_lower p r q y : length q = length p -> on_sphere p r y -> Rabs (dist q p - r) <= dist q y.
Proof.
  intros L (Ly & Hy). pose proof (dist_triangle q y p ltac:(congruence) L) as T1. pose proof (dist_triangle y q p ltac:(congruence) Ly) as T2.
  rewrite (dist_sym y q) in T2. unfold Rabs. destruct (Rcase_abs _); lra.
Qed.

(** ** C45  distance_point, contains_point *)
Theorem C45_distance_point : forall (p q : pt) (r : R) c, ball_ok c p r -> length q = length p ->
  exists s, ball_distance_point c q = Ok s /\ min_dist (on_sphere p r) q s /\
    (ball_contains_point (N:=RNum) tol_default c q = Ok true <-> on_sphere p r q) /\
    (ball_contains_point (N:=RNum) tol_default c q = Ok false <-> ~ on_sphere p r q) /\
    (forall rel abst, 0 <= rel < 1 -> 0 <= abst ->
      exists b, ball_contains_point (MkTol (N:=RNum) rel abst) c q = Ok b /\ (b = true <-> s <= abst)).
Proof.
  intros p q r c Hc L. apply ball_ok_inv in Hc as (-> & Hr & Hp).
  assert (E : ball_distance_point (MkBall (N:=RNum) p r) q = Ok (Rabs (dist q p - r))).
  { unfold ball_distance_point. cbn [c_point c_radius]. rewrite distance_point_R by auto. cbn [bind]. rewrite (dist_sym p q). reflexivity. }
  assert (Z : Rabs (dist q p - r) = 0 <-> on_sphere p r q).
  { split; intro H; [split; auto; unfold Rabs in H; destruct (Rcase_abs _); lra|]. destruct H as (_ & ->). rewrite Rminus_diag_eq, Rabs_R0; auto. }
  exists (Rabs (dist q p - r)). split; auto. split; [|split; [|split]].
  - split; [|intros y Hy; apply sphere_dist_lower; auto].
    assert (Dq : q = p \/ q <> p) by (destruct (is_zero_vec_dec (sub q p)) as [Z'|Z']; [left; apply sub_zero_iff; auto|right; intro; subst; apply Z'; rewrite sub_self; apply zero_origin]).
    destruct Dq as [->|Dq].
    + destruct (basis_point (length p)) as (u & Lu & Hu); [destruct p; [contradiction|simpl; lia]|].
      assert (D : dist (add p (scale r u)) p = r). { unfold dist. rewrite sub_add_cancel by len. rewrite len_scale, Hu, Rabs_right; lra. }
      exists (add p (scale r u)). split; [split; [len|auto]|]. rewrite dist_sym, D, dist_refl, Rminus_0_l, Rabs_Ropp, Rabs_right; lra.
    + exists (bproj p r q). split; [apply bproj_on; auto|]. rewrite bproj_dist by auto. reflexivity.
  - unfold ball_contains_point. rewrite (contains_gen_default _ q _ E). rewrite <- Z. destruct (Req_EM_T _ 0); split; auto; try discriminate; contradiction.
  - unfold ball_contains_point. rewrite (contains_gen_default _ q _ E). rewrite <- Z. destruct (Req_EM_T _ 0); split; auto; try discriminate; try contradiction.
  - intros rel abst H1 H2. destruct (contains_gen_R (ball_distance_point (MkBall (N:=RNum) p r)) (MkTol (N:=RNum) rel abst) q _ E ltac:(split; simpl; lra)) as (b & Eb & Hb).
    exists b. split; [exact Eb|]. rewrite Hb. cbn [rel_tol abs_tol]. rewrite close_zero by lra. rewrite Rabs_Rabsolu. tauto.
Qed.
Print Assumptions C45_distance_point.

(** ** C45  project_point *)
Theorem C45_project_point : forall (p q : pt) (r : R) c, ball_ok c p r -> length q = length p ->
  (q <> p -> exists m, ball_project_point c q = Ok m /\ on_sphere p r m /\
     (forall y, on_sphere p r y -> y <> m -> dist q m < dist q y) /\
     (exists s, 0 < s /\ sub m p = scale s (sub q p)) /\ ball_project_point c m = Ok m) /\
  ((exists e, ball_project_point c q = Raise e) <-> q = p) /\
  (q = p -> exists msg, ball_project_point c q = Raise (ValueError msg)).
Proof.
  intros p q r c Hc L. apply ball_ok_inv in Hc as (-> & Hr & Hp).
  assert (G : forall q, length q = length p -> q <> p -> ball_project_point (MkBall (N:=RNum) p r) q = Ok (bproj p r q)).
  { clear q L. intros q L Hq. unfold ball_project_point. cbn [c_point c_radius].
    destruct (is_equal1 (N:=RNum) p q) eqn:Eq; [apply (proj1 (C04_is_equal_exact p q [] [])) in Eq; congruence|].
    rewrite from_points_R by auto. cbn [bind]. assert (Z : ~ is_zero_vec (sub q p)) by (intro Z; apply Hq, sub_zero_iff; auto).
    rewrite unit_R by auto. cbn [bind]. rewrite vmuls_R. cbn [bind]. rewrite vadd_R by len. unfold bproj. rewrite scale_scale. reflexivity. }
  split; [|split].
  - intro Hq. assert (P : 0 < dist q p) by (apply len_pos; intro Z; apply Hq, sub_zero_iff; auto). exists (bproj p r q). split; [apply G; auto|].
    pose proof (bproj_on p r q L Hq Hr) as On. split; auto.
    assert (Es : sub (bproj p r q) p = scale (r / dist q p) (sub q p)) by (unfold bproj; apply sub_add_cancel; len).
    split; [|split].
    + intros y Hy Ne. rewrite bproj_dist by auto. destruct (sphere_dist_lower p r q y L Hy) as [H|H]; auto. exfalso. apply Ne.
      (* equality in the triangle inequality *)
      destruct Hy as (Ly & Hy). destruct On as (Lb & _). apply sub_eq_origin; [congruence|].
      set (a := sub q p) in *. set (b := sub y p).
      assert (La : length a = length p) by (unfold a; len). assert (LB : length b = length p) by (unfold b; len).
      assert (Eb : dist q y = len (sub a b)) by (unfold dist; f_equal; apply sub_via; congruence).
      assert (Qa : dot a a = dist q p * dist q p) by (unfold dist; fold a; rewrite len_sq; auto).
      assert (Qb : dot b b = r * r) by (rewrite <- Hy; unfold dist; fold b; rewrite len_sq; auto).
      assert (Q : dot (sub a b) (sub a b) = (dist q p - r) * (dist q p - r)).
      { rewrite <- len_sq, <- Eb, <- H. unfold Rabs. destruct (Rcase_abs _); ring. }
      rewrite dot_sub_sub in Q by congruence. assert (AB : dot a b = dist q p * r) by lra.
      assert (Zero : dot (sub y (bproj p r q)) (sub y (bproj p r q)) = 0).
      { replace (sub y (bproj p r q)) with (sub b (scale (r / dist q p) a)).
        - rewrite dot_sub_sub by len. rewrite dot_scale_r, dot_scale_l, dot_scale_r, (dot_comm b a), AB, Qa, Qb. field. lra.
        - unfold b. rewrite <- Es. symmetry. apply sub_via; congruence. }
      apply dot_self_zero in Zero. unfold is_zero_vec in Zero. rewrite Zero. f_equal. len.
    + exists (r / dist q p). split; auto. apply Rdiv_lt_0_compat; auto.
    + assert (Dm : dist (bproj p r q) p = r) by apply On. rewrite G; [|apply On|intro Z; rewrite Z, dist_refl in Dm; lra]. rn. f_equal. unfold bproj at 1. rewrite Dm.
      replace (r / r) with 1 by (field; lra). rewrite scale_1. apply add_sub_cancel. symmetry. apply On.
  - split; [|intros ->; unfold ball_project_point; cbn [c_point]; rewrite (proj2 (proj1 (C04_is_equal_exact p p [] [])) eq_refl); eexists; reflexivity].
    intros (e & E). destruct (is_zero_vec_dec (sub q p)) as [Z|Z]; [apply sub_zero_iff; auto|]. rewrite G in E; auto; [discriminate|]. intros ->. apply Z. rewrite sub_self. apply zero_origin.
  - intros ->. unfold ball_project_point; cbn [c_point]; rewrite (proj2 (proj1 (C04_is_equal_exact p p [] [])) eq_refl); eexists; reflexivity.
Qed.
Print Assumptions C45_project_point.

Example C45_nonvacuous : exists c, circle_new (N:=RNum) [1; 2] 5 = Ok c /\ ball_contains_point (N:=RNum) tol_default c [4; 6] = Ok true.
Proof.
  assert (Hc : circle_new (N:=RNum) [1; 2] 5 = Ok (MkBall [1; 2] 5)) by (apply C45_construction; split; auto; split; auto; lra).
  eexists. split; [exact Hc|]. destruct (C45_distance_point [1; 2] [4; 6] 5 _ (or_introl Hc) eq_refl) as (s & _ & _ & K & _). apply K.
  split; auto. unfold dist, len. simpl. replace ((4 - 1) * (4 - 1) + ((6 - 2) * (6 - 2) + 0)) with (5 * 5) by ring. apply sqrt_square. lra.
Qed.

(** ** C46  Circle.from_points *)
Lemma on_circle_iff x y r u v : 0 < r -> (on_sphere [x; y] r [u; v] <-> (u - x) * (u - x) + (v - y) * (v - y) = r * r).
Proof.
  intro Hr. unfold on_sphere, dist. split.
  - intros (_ & <-). rewrite len_sq. simpl. ring.
  - intro E. split; auto. apply len_eq_val; [lra|]. simpl. lra.
Qed.
Lemma collinear_det xa ya xb yb xc yc :
  collinear [[xa; ya]; [xb; yb]; [xc; yc]] <-> xa * (yb - yc) - ya * (xb - xc) + (xb * yc - xc * yb) = 0.
Proof.
  split.
  - intro C. apply collinear3_dependent in C; auto. apply dependent_sq in C; auto. simpl in C. 
    assert (Q : (xa * (yb - yc) - ya * (xb - xc) + (xb * yc - xc * yb)) * (xa * (yb - yc) - ya * (xb - xc) + (xb * yc - xc * yb)) = 0) by nra.
    apply Rmult_integral in Q. tauto.
  - intro E. assert (D : dependent (sub [xb; yb] [xa; ya]) (sub [xc; yc] [xa; ya])).
    { apply dependent_sq; auto. simpl. assert (Q : (xa * (yb - yc) - ya * (xb - xc) + (xb * yc - xc * yb)) * (xa * (yb - yc) - ya * (xb - xc) + (xb * yc - xc * yb)) = 0) by (rewrite E; ring). nra. }
    destruct D as [(s & Es)|(s & Es)].
    + exists [xa; ya], (sub [xc; yc] [xa; ya]). split; auto. intros w [<-|[<-|[<-|[]]]].
      * exists 0. rewrite scale_0. symmetry. apply add_origin_r. auto.
      * exists s. rewrite <- Es. symmetry. apply add_sub_cancel. auto.
      * exists 1. rewrite scale_1. symmetry. apply add_sub_cancel. auto.
    + exists [xa; ya], (sub [xb; yb] [xa; ya]). split; auto. intros w [<-|[<-|[<-|[]]]].
      * exists 0. rewrite scale_0. symmetry. apply add_origin_r. auto.
      * exists 1. rewrite scale_1. symmetry. apply add_sub_cancel. auto.
      * exists s. rewrite <- Es. symmetry. apply add_sub_cancel. auto.
Qed.

Lemma sum2_zero a b : a * a + b * b = 0 -> a = 0 /\ b = 0.
Proof. intro H. pose proof (Rle_0_sqr a). pose proof (Rle_0_sqr b). unfold Rsqr in *. split; apply Rsqr_0_uniq; unfold Rsqr; lra. Qed.
(** The circumscribed circle and its uniqueness. *)
Definition circumscribed (p : pt) (r : R) (a b c : pt) : Prop :=
  on_sphere p r a /\ on_sphere p r b /\ on_sphere p r c /\
  (forall p' r', 0 < r' -> on_sphere p' r' a -> on_sphere p' r' b -> on_sphere p' r' c -> p' = p /\ r' = r).

Lemma circumcircle xa ya xb yb xc yc : xa * (yb - yc) - ya * (xb - xc) + (xb * yc - xc * yb) <> 0 ->
  let m := xa * (yb - yc) - ya * (xb - xc) + (xb * yc - xc * yb) in
  let sa := xa * xa + ya * ya in let sb := xb * xb + yb * yb in let sc := xc * xc + yc * yc in
  let x := (1 / 2 * (sa * (yb - yc) - ya * (sb - sc) + (sb * yc - sc * yb))) / m in
  let y := (- (1 / 2) * (sa * (xb - xc) - xa * (sb - sc) + (sb * xc - sc * xb))) / m in
  let q := (sa * (xb * yc - xc * yb) - xa * (sb * yc - sc * yb) + ya * (sb * xc - sc * xb)) / m in
  0 < x * x + y * y + q /\ circumscribed [x; y] (sqrt (x * x + y * y + q)) [xa; ya] [xb; yb] [xc; yc].
Proof.
  intros Hm m sa sb sc x y q.
  assert (Ea : (xa - x) * (xa - x) + (ya - y) * (ya - y) = x * x + y * y + q) by (unfold x, y, q, sa, sb, sc, m; field; exact Hm).
  assert (Eb : (xb - x) * (xb - x) + (yb - y) * (yb - y) = x * x + y * y + q) by (unfold x, y, q, sa, sb, sc, m; field; exact Hm).
  assert (Ec : (xc - x) * (xc - x) + (yc - y) * (yc - y) = x * x + y * y + q) by (unfold x, y, q, sa, sb, sc, m; field; exact Hm).
  assert (P : 0 < x * x + y * y + q).
  { assert (P0 : 0 <= x * x + y * y + q) by (rewrite <- Ea; pose proof (Rle_0_sqr (xa - x)); pose proof (Rle_0_sqr (ya - y)); unfold Rsqr in *; lra).
    destruct P0 as [P0|P0]; auto. exfalso. rewrite <- P0 in Ea, Eb, Ec.
    clearbody x y q. apply sum2_zero in Ea as (Ea & Ea'). apply sum2_zero in Eb as (Eb & Eb'). apply sum2_zero in Ec as (Ec & Ec').
    apply Hm. replace xa with x by lra. replace xb with x by lra. replace xc with x by lra. replace ya with y by lra. replace yb with y by lra. replace yc with y by lra. ring. }
  split; auto. assert (Pr := sqrt_lt_R0 _ P). assert (Qr : sqrt (x * x + y * y + q) * sqrt (x * x + y * y + q) = x * x + y * y + q) by (apply sqrt_sqrt; lra).
  split; [apply on_circle_iff; auto; lra|]. split; [apply on_circle_iff; auto; lra|]. split; [apply on_circle_iff; auto; lra|].
  clearbody x y q. intros p' r' Hr' Ha Hb Hc. destruct (list2 p') as (u & v & ->); [destruct Ha as (L & _); simpl in L; auto|].
  rewrite on_circle_iff in Ha, Hb, Hc by auto.
  assert (D1 : (xa - xb) * (u - x) + (ya - yb) * (v - y) = 0) by lra.
  assert (D2 : (xa - xc) * (u - x) + (ya - yc) * (v - y) = 0) by lra.
  assert (U : (u - x) * m = 0). { unfold m. replace ((u - x) * (xa * (yb - yc) - ya * (xb - xc) + (xb * yc - xc * yb))) with ((ya - yc) * ((xa - xb) * (u - x) + (ya - yb) * (v - y)) - (ya - yb) * ((xa - xc) * (u - x) + (ya - yc) * (v - y))) by ring. rewrite D1, D2. ring. }
  assert (V : (v - y) * m = 0). { unfold m. replace ((v - y) * (xa * (yb - yc) - ya * (xb - xc) + (xb * yc - xc * yb))) with ((xa - xb) * ((xa - xc) * (u - x) + (ya - yc) * (v - y)) - (xa - xc) * ((xa - xb) * (u - x) + (ya - yb) * (v - y))) by ring. rewrite D1, D2. ring. }
  apply Rmult_integral in U as [U|U]; [|contradiction]. apply Rmult_integral in V as [V|V]; [|contradiction].
  assert (u = x) by lra. assert (v = y) by lra. subst u v. split; auto. apply Rsqr_inj; unfold Rsqr; lra.
Qed.

Lemma math_sqrt_R x : 0 <= x -> math_sqrt (N:=RNum) x = Ok (sqrt x).
Proof. intro H. unfold math_sqrt. rops. rb; try lra. reflexivity. Qed.
Lemma from_points_core (LA : linalg RNum) tolerance xa ya xb yb xc yc : are_collinear LA tolerance [[xa; ya]; [xb; yb]; [xc; yc]] = Ok false ->
  (~ collinear [[xa; ya]; [xb; yb]; [xc; yc]] -> exists p r, circle_from_points LA tolerance [xa; ya] [xb; yb] [xc; yc] = Ok (MkBall (N:=RNum) p r) /\ 0 < r /\ length p = 2%nat /\ circumscribed p r [xa; ya] [xb; yb] [xc; yc]) /\
  (collinear [[xa; ya]; [xb; yb]; [xc; yc]] -> circle_from_points LA tolerance [xa; ya] [xb; yb] [xc; yc] = NonFinite).
Proof.
  intro Ec. rewrite collinear_det.
  unfold circle_from_points. rewrite !point_of_R by discriminate. cbn [bind dim1 length Nat.eqb negb orb].
  rewrite (points_of_R _ 2) by (try discriminate; try lia; repeat constructor). cbn [bind]. rn. rewrite Ec. cbn [bind].
  unfold det3. rops. change (ndyad 1 1) with (1 / 2).
  set (m := xa * (yb * 1 - 1 * yc) - ya * (xb * 1 - 1 * xc) + 1 * (xb * yc - yb * xc)).
  match goal with |- context [ndiv (1 / 2 * ?M) m] => set (M1 := M) end. match goal with |- context [ndiv (- (1 / 2) * ?M) m] => set (M2 := M) end.
  set (M3 := (xa * xa + ya * ya) * (xb * yc - yb * xc) - xa * ((xb * xb + yb * yb) * yc - yb * (xc * xc + yc * yc)) + ya * ((xb * xb + yb * yb) * xc - xb * (xc * xc + yc * yc))).
  assert (Em : m = xa * (yb - yc) - ya * (xb - xc) + (xb * yc - xc * yb)) by (unfold m; ring). rewrite <- Em.
  split; intro Hm.
  - assert (Hm' := Hm). rewrite Em in Hm. destruct (circumcircle xa ya xb yb xc yc Hm) as (P & C). rewrite <- Em in P, C. cbv zeta in P, C.
    match type of P with 0 < ?X / m * _ + ?Y / m * _ + ?Q / m => replace X with (1 / 2 * M1) in P, C by (unfold M1; ring); replace Y with (- (1 / 2) * M2) in P, C by (unfold M2; ring); replace Q with M3 in P, C by (unfold M3; ring) end.
    rewrite !ndiv_R by auto. cbn [bind]. rewrite math_sqrt_R by lra. cbn [bind]. exists [1 / 2 * M1 / m; - (1 / 2) * M2 / m]. eexists. split.
    + apply C45_construction. split; [reflexivity|]. split; auto. apply sqrt_lt_R0. auto.
    + split; [apply sqrt_lt_R0; auto|]. split; auto.
  - rewrite Hm. rewrite ndiv_R0. reflexivity.
Qed.

Theorem C46_from_points : forall LA tolerance (a b c : pt), svd_correct LA -> tol_nonneg tolerance ->
  length a = 2%nat -> length b = 2%nat -> length c = 2%nat ->
  (are_collinear LA tolerance [a; b; c] = Ok false ->
     exists p r, circle_from_points LA tolerance a b c = Ok (MkBall (N:=RNum) p r) /\ circle_new (N:=RNum) p r = Ok (MkBall p r) /\
       on_sphere p r a /\ on_sphere p r b /\ on_sphere p r c /\
       (forall p' r', 0 < r' -> on_sphere p' r' a -> on_sphere p' r' b -> on_sphere p' r' c -> p' = p /\ r' = r)) /\
  (are_collinear LA tolerance [a; b; c] = Ok true -> exists m, circle_from_points LA tolerance a b c = Raise (ValueError m)) /\
  (collinear [a; b; c] -> exists m, circle_from_points LA tolerance a b c = Raise (ValueError m)).
Proof.
  intros LA tolerance a b c HL Ht La Lb Lc.
  assert (Hr : points_ok 2 [a; b; c]) by (split; [discriminate|split; [lia|repeat constructor; auto]]).
  destruct (C23_true_configurations LA 2 _ tolerance HL Hr Ht) as (_ & T & _).
  destruct (list2 a La) as (xa & ya & ->). destruct (list2 b Lb) as (xb & yb & ->). destruct (list2 c Lc) as (xc & yc & ->).
  assert (K : are_collinear LA tolerance [[xa; ya]; [xb; yb]; [xc; yc]] = Ok true -> exists m, circle_from_points LA tolerance [xa; ya] [xb; yb] [xc; yc] = Raise (ValueError m)).
  { intro E. unfold circle_from_points. rewrite !point_of_R by discriminate. cbn [bind dim1 length Nat.eqb negb orb]. rewrite (points_of_R _ 2) by apply Hr. cbn [bind]. rn. rewrite E. eexists; reflexivity. }
  split; [|split; auto]. intro E. destruct (from_points_core LA tolerance _ _ _ _ _ _ E) as (A & _). destruct A as (p & r & A1 & A2 & A3 & A4).
  - intro C. apply T in C. rn. rewrite E in C. discriminate.
  - exists p, r. split; auto. split; auto. apply C45_construction. auto.
Qed.
Print Assumptions C46_from_points.

(** Whatever the rank routine answers, a returned circle is the circumscribed circle. *)
Theorem C46_sound_for_any_rank_routine : forall (LA : linalg RNum) tolerance (a b c : pt) k, circle_from_points LA tolerance a b c = Ok k ->
  length a = 2%nat /\ length b = 2%nat /\ length c = 2%nat /\ ~ collinear [a; b; c] /\ circle_new (N:=RNum) (c_point k) (c_radius k) = Ok k /\
  on_sphere (c_point k) (c_radius k) a /\ on_sphere (c_point k) (c_radius k) b /\ on_sphere (c_point k) (c_radius k) c /\
  (forall p' r', 0 < r' -> on_sphere p' r' a -> on_sphere p' r' b -> on_sphere p' r' c -> p' = c_point k /\ r' = c_radius k).
Proof.
  intros LA tolerance a b c k E. pose proof E as E'. unfold circle_from_points in E.
  apply bind_ok_inv in E as (a' & Ea & E). apply point_of_inv in Ea as (-> & _). apply bind_ok_inv in E as (b' & Eb & E). apply point_of_inv in Eb as (-> & _). apply bind_ok_inv in E as (c' & Ec & E). apply point_of_inv in Ec as (-> & _).
  unfold dim1 in E. rn. destruct (Nat.eqb_spec (length a) 2) as [La|]; [|discriminate]. destruct (Nat.eqb_spec (length b) 2) as [Lb|]; [|discriminate]. destruct (Nat.eqb_spec (length c) 2) as [Lc|]; [|discriminate]. cbn [negb orb] in E.
  destruct (list2 a La) as (xa & ya & ->). destruct (list2 b Lb) as (xb & yb & ->). destruct (list2 c Lc) as (xc & yc & ->).
  rewrite (points_of_R _ 2) in E by (try discriminate; try lia; repeat constructor). cbn [bind] in E. apply bind_ok_inv in E as (col & Ecol & E). destruct col; [discriminate|]. clear E.
  destruct (from_points_core LA tolerance _ _ _ _ _ _ Ecol) as (A & B). destruct (Classical_Prop.classic (collinear [[xa; ya]; [xb; yb]; [xc; yc]])) as [C|C].
  { rn. rewrite (B C) in E'. discriminate. }
  destruct (A C) as (p & r & A1 & A2 & A3 & A4). rn. rewrite A1 in E'. injection E' as <-. cbn [c_point c_radius]. do 3 (split; [auto|]). split; auto. split; [apply C45_construction; auto|]. exact A4.
Qed.
Print Assumptions C46_sound_for_any_rank_routine.

Theorem C46_not_2d : forall (LA : linalg RNum) tolerance (a b c : pt), length a <> 2%nat \/ length b <> 2%nat \/ length c <> 2%nat ->
  exists m, circle_from_points LA tolerance a b c = Raise (ValueError m).
Proof.
  intros LA tolerance a b c H. unfold circle_from_points. destruct a as [|x a]; [eexists; reflexivity|]. rewrite (point_of_R (x :: a)) by discriminate. cbn [bind].
  destruct b as [|y b]; [eexists; reflexivity|]. rewrite (point_of_R (y :: b)) by discriminate. cbn [bind]. destruct c as [|z c]; [eexists; reflexivity|]. rewrite (point_of_R (z :: c)) by discriminate. cbn [bind].
  unfold dim1. rn. destruct (Nat.eqb_spec (length (x :: a)) 2) as [E1|E1]; [|eexists; reflexivity]. destruct (Nat.eqb_spec (length (y :: b)) 2) as [E2|E2]; [|eexists; reflexivity]. destruct (Nat.eqb_spec (length (z :: c)) 2) as [E3|E3]; [|eexists; reflexivity]. exfalso. tauto.
Qed.
Print Assumptions C46_not_2d.
Example C46_nonvacuous : exists k, circle_from_points (N:=RNum) (ideal_linalg) (Some 0) [1; 0] [0; 1] [-1; 0] = Ok k /\ c_point k = [0; 0] /\ c_radius k = 1.
Proof.
  destruct (C46_from_points ideal_linalg (Some 0) [1; 0] [0; 1] [-1; 0] (proj1 ideal_linalg_correct) ltac:(simpl; lra) eq_refl eq_refl eq_refl) as (A & _).
  destruct (C23_zero_tolerance_exact ideal_linalg 2 [[1; 0]; [0; 1]; [-1; 0]] (proj1 ideal_linalg_correct)) as (_ & c & _ & _ & E & _ & _ & K & _); [split; [discriminate|split; [lia|repeat constructor]]|].
  destruct A as (p & r & E1 & _ & _ & _ & _ & U).
  - rn. rewrite E. f_equal. destruct c; auto. exfalso. apply proj1 in K. specialize (K eq_refl). apply collinear_det in K. lra.
  - exists (MkBall (N:=RNum) p r). split; [exact E1|]. cbn [c_point c_radius]. destruct (U [0; 0] 1) as (<- & <-); auto; try lra; apply on_circle_iff; lra.
Qed.

(** ** C47  Circle.intersect_circle *)
Lemma circle_inv c p r : circle_new (N:=RNum) p r = Ok c -> c = MkBall (N:=RNum) p r /\ 0 < r /\ exists x y, p = [x; y].
Proof. intro H. apply C45_construction in H as (-> & Hr & L). split; auto. split; auto. apply list2; auto. Qed.

Lemma heron_factor r1 r2 d : 0 < r1 -> 0 < r2 -> 0 < d -> Rabs (r1 - r2) <= d -> d <= r1 + r2 ->
  0 <= r1 * r1 - ((r1 * r1 - r2 * r2 + d * d) / (2 * d)) * ((r1 * r1 - r2 * r2 + d * d) / (2 * d)).
Proof.
  intros H1 H2 Hd Hl Hu.
  replace (r1 * r1 - (r1 * r1 - r2 * r2 + d * d) / (2 * d) * ((r1 * r1 - r2 * r2 + d * d) / (2 * d)))
    with (((r1 + d + r2) * (r1 + d - r2)) * ((r2 + r1 - d) * (r2 - r1 + d)) / (4 * (d * d))) by (field; lra).
  assert (A : - d <= r1 - r2 <= d). { unfold Rabs in Hl. destruct (Rcase_abs _); lra. }
  apply Rmult_le_pos; [|left; apply Rinv_0_lt_compat; nra]. apply Rmult_le_pos; apply Rmult_le_pos; lra.
Qed.
Lemma heron_zero r1 r2 d : 0 < r1 -> 0 < r2 -> 0 < d -> 
  (r1 * r1 - ((r1 * r1 - r2 * r2 + d * d) / (2 * d)) * ((r1 * r1 - r2 * r2 + d * d) / (2 * d)) = 0 <-> d = r1 + r2 \/ d = Rabs (r1 - r2)).
Proof.
  intros H1 H2 Hd.
  replace (r1 * r1 - (r1 * r1 - r2 * r2 + d * d) / (2 * d) * ((r1 * r1 - r2 * r2 + d * d) / (2 * d)))
    with ((r1 + d + r2) * (r1 + d - r2) * (r2 + r1 - d) * (r2 - r1 + d) * / (4 * (d * d))) by (field; lra).
  assert (P : 0 < / (4 * (d * d))) by (apply Rinv_0_lt_compat; nra). split.
  - intro E. apply Rmult_integral in E as [E|E]; [|lra]. apply Rmult_integral in E as [E|E]; [apply Rmult_integral in E as [E|E]; [apply Rmult_integral in E as [E|E]; [lra|]|]|].
    + right. rewrite Rabs_left; lra.
    + left. lra.
    + right. rewrite Rabs_right; lra.
  - intros [->| ->]; [ring_simplify; replace (r2 + r1 - (r1 + r2)) with 0 by ring; ring|]. unfold Rabs. destruct (Rcase_abs _).
    + replace (r1 + - (r1 - r2) - r2) with 0 by ring. ring.
    + replace (r2 - r1 + (r1 - r2)) with 0 by ring. ring.
Qed.

Lemma dist2_sq x1 y1 x2 y2 : dist [x1; y1] [x2; y2] * dist [x1; y1] [x2; y2] = (x1 - x2) * (x1 - x2) + (y1 - y2) * (y1 - y2).
Proof. rewrite dist_sq. simpl. ring. Qed.

(** The common points, in coordinates. *)
Lemma two_circles x1 y1 x2 y2 r1 r2 d a h u v : 0 < d -> d * d = (x1 - x2) * (x1 - x2) + (y1 - y2) * (y1 - y2) ->
  2 * d * a = r1 * r1 - r2 * r2 + d * d -> h * h = r1 * r1 - a * a ->
  ((u - x1) * (u - x1) + (v - y1) * (v - y1) = r1 * r1 /\ (u - x2) * (u - x2) + (v - y2) * (v - y2) = r2 * r2 <->
   (u = x1 + a * (x2 - x1) / d + 1 * h * (y1 - y2) / d /\ v = y1 + a * (y2 - y1) / d - 1 * h * (x1 - x2) / d) \/
   (u = x1 + a * (x2 - x1) / d + -1 * h * (y1 - y2) / d /\ v = y1 + a * (y2 - y1) / d - -1 * h * (x1 - x2) / d)).
Proof.
  intros Hd Qd Qa Qh.
  assert (Back : forall k, k * k = h * h -> u = x1 + (a * (x2 - x1) + k * (y1 - y2)) / d -> v = y1 + (a * (y2 - y1) - k * (x1 - x2)) / d ->
     (u - x1) * (u - x1) + (v - y1) * (v - y1) = r1 * r1 /\ (u - x2) * (u - x2) + (v - y2) * (v - y2) = r2 * r2).
  { intros k Qk Eu Ev. 
    assert (E1 : d * (u - x1) = a * (x2 - x1) + k * (y1 - y2)) by (rewrite Eu; field; lra).
    assert (E2 : d * (v - y1) = a * (y2 - y1) - k * (x1 - x2)) by (rewrite Ev; field; lra).
    assert (A1 : (u - x1) * (u - x1) + (v - y1) * (v - y1) = r1 * r1).
    { apply Rmult_eq_reg_l with (d * d); [|nra]. replace (d * d * ((u - x1) * (u - x1) + (v - y1) * (v - y1))) with ((d * (u - x1)) * (d * (u - x1)) + (d * (v - y1)) * (d * (v - y1))) by ring.
      rewrite E1, E2. replace ((a * (x2 - x1) + k * (y1 - y2)) * (a * (x2 - x1) + k * (y1 - y2)) + (a * (y2 - y1) - k * (x1 - x2)) * (a * (y2 - y1) - k * (x1 - x2))) with ((a * a + k * k) * ((x1 - x2) * (x1 - x2) + (y1 - y2) * (y1 - y2))) by ring.
      rewrite <- Qd, Qk, Qh. ring. }
    assert (D : (u - x1) * (x2 - x1) + (v - y1) * (y2 - y1) = a * d).
    { apply Rmult_eq_reg_l with d; [|lra]. replace (d * ((u - x1) * (x2 - x1) + (v - y1) * (y2 - y1))) with ((d * (u - x1)) * (x2 - x1) + (d * (v - y1)) * (y2 - y1)) by ring.
      rewrite E1, E2. replace ((a * (x2 - x1) + k * (y1 - y2)) * (x2 - x1) + (a * (y2 - y1) - k * (x1 - x2)) * (y2 - y1)) with (a * ((x1 - x2) * (x1 - x2) + (y1 - y2) * (y1 - y2))) by ring. rewrite <- Qd. ring. }
    split; auto. replace ((u - x2) * (u - x2) + (v - y2) * (v - y2)) with ((u - x1) * (u - x1) + (v - y1) * (v - y1) - 2 * ((u - x1) * (x2 - x1) + (v - y1) * (y2 - y1)) + ((x1 - x2) * (x1 - x2) + (y1 - y2) * (y1 - y2))) by ring.
    rewrite A1, D, <- Qd. lra. }
  split.
  - intros (A1 & A2). 
    assert (D : (u - x1) * (x2 - x1) + (v - y1) * (y2 - y1) = a * d) by nra.
    set (k := ((u - x1) * (y1 - y2) - (v - y1) * (x1 - x2)) / d). assert (Dk : (u - x1) * (y1 - y2) - (v - y1) * (x1 - x2) = k * d) by (unfold k; field; lra).
    assert (Qk : k * k = h * h).
    { apply Rmult_eq_reg_l with (d * d); [|nra]. rewrite Qh. replace (d * d * (k * k)) with ((k * d) * (k * d)) by ring. replace (d * d * (r1 * r1 - a * a)) with (d * d * (r1 * r1) - (a * d) * (a * d)) by ring.
      rewrite <- Dk, <- D, Qd, <- A1. ring. }
    assert (Eu : u = x1 + (a * (x2 - x1) + k * (y1 - y2)) / d).
    { assert (d * (d * (u - x1)) = d * (a * (x2 - x1) + k * (y1 - y2))).
      { replace (d * (a * (x2 - x1) + k * (y1 - y2))) with (a * d * (x2 - x1) + k * d * (y1 - y2)) by ring. rewrite <- D, <- Dk. rewrite <- Rmult_assoc, Qd. ring. }
      apply Rmult_eq_reg_l in H; [|lra]. rewrite <- H. field. lra. }
    assert (Ev : v = y1 + (a * (y2 - y1) - k * (x1 - x2)) / d).
    { assert (d * (d * (v - y1)) = d * (a * (y2 - y1) - k * (x1 - x2))).
      { replace (d * (a * (y2 - y1) - k * (x1 - x2))) with (a * d * (y2 - y1) - k * d * (x1 - x2)) by ring. rewrite <- D, <- Dk. rewrite <- Rmult_assoc, Qd. ring. }
      apply Rmult_eq_reg_l in H; [|lra]. rewrite <- H. field. lra. }
    assert (K : (k - h) * (k + h) = 0) by (ring_simplify; lra). apply Rmult_integral in K as [K|K]; [left|right].
    + assert (k = h) by lra. rewrite H in Eu, Ev. split; [rewrite Eu|rewrite Ev]; field; lra.
    + assert (k = - h) by lra. rewrite H in Eu, Ev. split; [rewrite Eu|rewrite Ev]; field; lra.
  - intros [(Eu & Ev)|(Eu & Ev)]; [apply (Back h)|apply (Back (- h))]; auto; try ring; [rewrite Eu|rewrite Ev|rewrite Eu|rewrite Ev]; field; lra.
Qed.

Theorem C47_intersect_circle : forall (p q : pt) (r s : R) c o, circle_new (N:=RNum) p r = Ok c -> circle_new (N:=RNum) q s = Ok o ->
  (p <> q -> Rabs (r - s) <= dist p q <= r + s ->
     exists a b, circle_intersect_circle c o = Ok (a, b) /\ (forall x, on_sphere p r x /\ on_sphere q s x <-> x = a \/ x = b) /\
       (a = b <-> dist p q = r + s \/ dist p q = Rabs (r - s))) /\
  (p = q \/ r + s < dist p q \/ dist p q < Rabs (r - s) -> exists m, circle_intersect_circle c o = Raise (ValueError m)).
Proof.
  intros p q r s c o Hc Ho. apply circle_inv in Hc as (-> & Hr & x1 & y1 & ->). apply circle_inv in Ho as (-> & Hs & x2 & y2 & ->).
  unfold circle_intersect_circle. cbn [c_point c_radius]. rewrite distance_point_R by (try discriminate; reflexivity). cbn [bind]. rops.
  set (d := dist [x1; y1] [x2; y2]). pose proof (dist2_sq x1 y1 x2 y2) as Qd. fold d in Qd. assert (D0 : 0 <= d) by apply dist_nonneg.
  split.
  - intros Ne (Hl & Hu). assert (Hd : 0 < d). { destruct D0 as [D0|D0]; auto. exfalso. apply Ne. apply dist_zero_iff; auto. }
    rb; try lra.
    set (a := (r * r - s * s + d * d) / (2 * d)). change (nofZ 2) with 2. rewrite ndiv_R by lra. cbn [bind]. fold a.
    assert (Hh := heron_factor r s d Hr Hs Hd Hl Hu). fold a in Hh. rewrite math_sqrt_R by auto. cbn [bind]. set (h := sqrt (r * r - a * a)).
    rewrite from_points_R by (try discriminate; reflexivity). cbn [bind]. rewrite vmuls_R. cbn [bind]. rewrite vdivs_R by lra. cbn [bind]. rewrite vadd_R by reflexivity. cbn [bind]. unfold scale. cbn [sub map add].
    change (nofZ (-1)) with (-1). rewrite !ndiv_R by lra. cbn [bind]. rewrite !point_of_R by discriminate. cbn [bind].
    eexists; eexists. split; [reflexivity|].
    assert (Qa : 2 * d * a = r * r - s * s + d * d) by (unfold a; field; lra).
    assert (Qh : h * h = r * r - a * a) by (apply sqrt_sqrt; auto).
    assert (G : forall x, on_sphere [x1; y1] r x /\ on_sphere [x2; y2] s x <->
       x = [x1 + / d * (a * (x2 - x1)) + 1 * h * (y1 - y2) / d; y1 + / d * (a * (y2 - y1)) - 1 * h * (x1 - x2) / d] \/
       x = [x1 + / d * (a * (x2 - x1)) + -1 * h * (y1 - y2) / d; y1 + / d * (a * (y2 - y1)) - -1 * h * (x1 - x2) / d]).
    { intro x. replace (/ d * (a * (x2 - x1))) with (a * (x2 - x1) / d) by (field; lra). replace (/ d * (a * (y2 - y1))) with (a * (y2 - y1) / d) by (field; lra).
      split.
      - intros (A & B). destruct (list2 x) as (u & v & ->); [apply A|]. rewrite on_circle_iff in A by auto. rewrite on_circle_iff in B by auto.
        destruct (proj1 (two_circles x1 y1 x2 y2 r s d a h u v Hd Qd Qa Qh) (conj A B)) as [(-> & ->)|(-> & ->)]; auto.
      - intros [->| ->]; rewrite !on_circle_iff by auto; apply (two_circles x1 y1 x2 y2 r s d a h); auto. }
    split; [exact G|]. rewrite <- (heron_zero r s d) by auto. fold a. rewrite <- Qh.
    split.
    + intro EQ. injection EQ as EQ1 EQ2.
      assert (H1 : h * (y1 - y2) = 0). { assert (h * (y1 - y2) / d = 0) by lra. apply Rmult_eq_reg_r with (/ d); [|apply Rinv_neq_0_compat; lra]. unfold Rdiv in H. lra. }
      assert (H2 : h * (x1 - x2) = 0). { assert (h * (x1 - x2) / d = 0) by lra. apply Rmult_eq_reg_r with (/ d); [|apply Rinv_neq_0_compat; lra]. unfold Rdiv in H. lra. }
      apply Rmult_integral in H1 as [H1|H1]; [rewrite H1; ring|]. apply Rmult_integral in H2 as [H2|H2]; [rewrite H2; ring|]. exfalso. rewrite H1, H2 in Qd. nra.
    + intro EQ. assert (h = 0) by nra. rewrite H. apply (f_equal2 (@cons R)); [field; lra|]. apply (f_equal2 (@cons R)); [field; lra|reflexivity].
  - intros [E|[E|E]].
    + injection E as -> ->. assert (Z : d = 0) by (unfold d; apply dist_refl). rb; try lra. eexists; reflexivity.
    + rb; try lra; eexists; reflexivity.
    + rb; try lra; eexists; reflexivity.
Qed.
Print Assumptions C47_intersect_circle.

(** The two rejected non-concentric configurations are exactly those without a common point. *)
Theorem C47_raises_iff_disjoint : forall (p q : pt) (r s : R) c o, circle_new (N:=RNum) p r = Ok c -> circle_new (N:=RNum) q s = Ok o -> p <> q ->
  ((exists m, circle_intersect_circle c o = Raise (ValueError m)) <-> ~ exists x, on_sphere p r x /\ on_sphere q s x).
Proof.
  intros p q r s c o Hc Ho Ne. destruct (C47_intersect_circle p q r s c o Hc Ho) as (A & B).
  apply circle_inv in Hc as (-> & Hr & x1 & y1 & ->). apply circle_inv in Ho as (-> & Hs & x2 & y2 & ->).
  destruct (Rlt_dec (r + s) (dist [x1; y1] [x2; y2])) as [H|H]; [|destruct (Rlt_dec (dist [x1; y1] [x2; y2]) (Rabs (r - s))) as [H'|H']].
  - split; [|intros _; auto]. intros _ (x & (Lx & X1) & (_ & X2)). pose proof (dist_triangle [x1; y1] x [x2; y2] ltac:(auto) eq_refl) as T. rewrite (dist_sym [x1; y1] x) in T. lra.
  - split; [|intros _; auto]. intros _ (x & (Lx & X1) & (_ & X2)). pose proof (dist_triangle x [x1; y1] [x2; y2] ltac:(auto) ltac:(auto)) as T. pose proof (dist_triangle x [x2; y2] [x1; y1] ltac:(auto) ltac:(auto)) as T'. rewrite (dist_sym [x2; y2] [x1; y1]) in T'.
    unfold Rabs in H'. destruct (Rcase_abs _); lra.
  - destruct A as (a & b & E & G & _); auto; [lra|]. rewrite E. split; [intros (m & Z); discriminate|]. intro Z. exfalso. apply Z. exists a. apply G. auto.
Qed.
Print Assumptions C47_raises_iff_disjoint.
Example C47_nonvacuous : exists c o a b, circle_new (N:=RNum) [0; 0] 1 = Ok c /\ circle_new (N:=RNum) [1; 0] 1 = Ok o /\ circle_intersect_circle c o = Ok (a, b) /\ a <> b.
Proof.
  assert (H1 : circle_new (N:=RNum) [0; 0] 1 = Ok (MkBall [0; 0] 1)) by (apply C45_construction; split; auto; split; auto; lra).
  assert (H2 : circle_new (N:=RNum) [1; 0] 1 = Ok (MkBall [1; 0] 1)) by (apply C45_construction; split; auto; split; auto; lra).
  assert (D : dist [0; 0] [1; 0] = 1). { apply len_eq_val; [lra|]. simpl. ring. }
  destruct (C47_intersect_circle [0; 0] [1; 0] 1 1 _ _ H1 H2) as (A & _). destruct A as (a & b & E & _ & K).
  - intro Z. injection Z. lra.
  - rewrite D, Rminus_diag_eq, Rabs_R0; lra.
  - do 4 eexists. split; [exact H1|]. split; [exact H2|]. split; [exact E|]. intro Z. apply K in Z. rewrite D in Z. rewrite Rminus_diag_eq, Rabs_R0 in Z by auto. lra.
Qed.

(** ** C48  Circle.intersect_line *)
Lemma on_line2 px py ex ey u v : ~ is_zero_vec [ex; ey] -> (on_line [px; py] [ex; ey] [u; v] <-> (u - px) * ey - (v - py) * ex = 0).
Proof.
  intro Hz. apply nz2 in Hz. split.
  - intros (t & E). unfold scale in E. simpl in E. injection E as -> ->. ring.
  - intro K. destruct (Req_dec ex 0) as [Z|Z].
    + destruct Hz as [Hz|Hz]; [contradiction|]. exists ((v - py) / ey). unfold scale. simpl. subst ex.
      assert (u - px = 0) by (apply Rmult_eq_reg_r with ey; lra). apply (f_equal2 (@cons R)); [lra|]. apply (f_equal2 (@cons R)); [field; auto|reflexivity].
    + exists ((u - px) / ex). unfold scale. simpl. apply (f_equal2 (@cons R)); [field; auto|]. apply (f_equal2 (@cons R)); [|reflexivity].
      apply Rmult_eq_reg_r with ex; auto. field_simplify; auto. lra.
Qed.

Theorem C48_intersect_line : forall (p e q : pt) (r : R) c l, circle_new (N:=RNum) q r = Ok c -> line_new (N:=RNum) p e = Ok l -> length p = 2%nat ->
  ((exists x, on_line p e x /\ on_sphere q r x) ->
     exists a b, circle_intersect_line c l = Ok (a, b) /\ (forall x, on_line p e x /\ on_sphere q r x <-> x = a \/ x = b) /\
       (a = b <-> min_dist (on_line p e) q r) /\
       (exists k, 0 <= k /\ sub b a = scale (if Rlt_dec (nth 1 e 0) 0 then - k else k) e)) /\
  ((~ exists x, on_line p e x /\ on_sphere q r x) -> exists m, circle_intersect_line c l = Raise (ValueError m)).
Proof.
  intros p e q r c l Hc Hl L. apply circle_inv in Hc as (-> & Hr & cx & cy & ->). apply line_new_iff in Hl as (-> & O). pose proof O as (Le & Hz & Hp).
  destruct (list2 p L) as (px & py & ->). destruct (list2 e) as (ex & ey & ->); [simpl in Le; auto|]. cbn [nth].
  assert (P := len_pos _ Hz). set (w := len [ex; ey]) in *.
  assert (Qw : w * w = ex * ex + ey * ey) by (unfold w; rewrite len_sq; simpl; ring).
  set (ux := / w * ex). set (uy := / w * ey). assert (Qu : ux * ux + uy * uy = 1).
  { unfold ux, uy. replace (/ w * ex * (/ w * ex) + / w * ey * (/ w * ey)) with ((ex * ex + ey * ey) / (w * w)) by (field; lra). rewrite Qw. field. nra. }
  assert (Ex : ex = w * ux) by (unfold ux; field; lra). assert (Ey : ey = w * uy) by (unfold uy; field; lra).
  set (D := (px - cx) * uy - (py - cy) * ux).
  assert (Sg : (ey < 0 <-> uy < 0)). { rewrite Ey. split; intro; [|nra]. apply Rnot_le_lt; intro. assert (0 <= w * uy) by (apply Rmult_le_pos; lra). lra. }
  set (sg := if Rltb uy 0 then -1 else 1). assert (Qs : sg * sg = 1) by (unfold sg; rb; lra). assert (As : Rabs uy = sg * uy).
  { unfold sg. rb; [rewrite Rabs_left by auto; ring|rewrite Rabs_right by lra; ring]. }
  (* common points in terms of coordinates along and across the line *)
  assert (G : forall u v, on_line [px; py] [ex; ey] [u; v] /\ on_sphere [cx; cy] r [u; v] <->
     exists al, al * al + D * D = r * r /\ u = cx + (D * uy + al * ux) /\ v = cy + (- D * ux + al * uy)).
  { intros u v. rewrite on_line2, on_circle_iff by auto. split.
    - intros (A & B). exists ((u - cx) * ux + (v - cy) * uy).
      assert (A' : (u - cx) * uy - (v - cy) * ux = D).
      { unfold D. rewrite Ex, Ey in A. assert (w * ((u - px) * uy - (v - py) * ux) = 0) by lra. apply Rmult_integral in H as [H|H]; lra. }
      rewrite <- A'. split; [|split].
      + rewrite <- B. transitivity (((u - cx) * (u - cx) + (v - cy) * (v - cy)) * (ux * ux + uy * uy)); [ring|rewrite Qu; ring].
      + transitivity (cx + (u - cx) * (ux * ux + uy * uy)); [rewrite Qu; ring|ring].
      + transitivity (cy + (v - cy) * (ux * ux + uy * uy)); [rewrite Qu; ring|ring].
    - intros (al & A & Eu & Ev). rewrite Eu, Ev, Ex, Ey. split.
      + transitivity (w * (D * (ux * ux + uy * uy) - ((px - cx) * uy - (py - cy) * ux))); [ring|]. rewrite Qu. fold D. ring.
      + rewrite <- A. transitivity ((al * al + D * D) * (ux * ux + uy * uy)); [ring|rewrite Qu; ring]. }
  unfold circle_intersect_line. cbn [l_point l_dir c_point c_radius]. rewrite unit_R by auto. cbn [bind]. unfold scale. cbn [map]. fold w ux uy.
  rewrite vadd_R by reflexivity. cbn [bind]. rewrite !vsub_R by reflexivity. cbn [bind add sub]. rops. change (nofZ (-1)) with (-1).
  replace (px + ux - cx - (px - cx)) with ux by ring. replace (py + uy - cy - (py - cy)) with uy by ring.
  replace ((px - cx) * (py + uy - cy) - (px + ux - cx) * (py - cy)) with D by (unfold D; ring). rewrite Qu. rewrite Rmult_1_r. fold sg.
  split.
  - intros (x & Hx & Hx'). destruct (list2 x) as (u & v & ->); [apply Hx'|]. destruct (proj1 (G u v) (conj Hx Hx')) as (al & Qal & _).
    assert (HD : 0 <= r * r - D * D) by nra. rb; [lra|]. rewrite math_sqrt_R by auto. cbn [bind]. set (h := sqrt (r * r - D * D)). assert (Qh : h * h = r * r - D * D) by (apply sqrt_sqrt; auto). assert (Ph : 0 <= h) by apply sqrt_pos.
    rewrite !ndiv_R by lra. cbn [bind]. rewrite !point_of_R by discriminate. cbn [bind]. rewrite !vadd_R by reflexivity. cbn [bind add].
    eexists; eexists. split; [reflexivity|]. rewrite As.
    set (a := [(D * uy + -1 * sg * ux * h) / 1 + cx; (- D * ux + -1 * (sg * uy) * h) / 1 + cy]).
    set (b := [(D * uy + 1 * sg * ux * h) / 1 + cx; (- D * ux + 1 * (sg * uy) * h) / 1 + cy]).
    assert (Ea : a = [cx + (D * uy + (- (sg * h)) * ux); cy + (- D * ux + (- (sg * h)) * uy)]) by (unfold a; apply (f_equal2 (@cons R)); [field|]; apply (f_equal2 (@cons R)); [field|reflexivity]).
    assert (Eb : b = [cx + (D * uy + (sg * h) * ux); cy + (- D * ux + (sg * h) * uy)]) by (unfold b; apply (f_equal2 (@cons R)); [field|]; apply (f_equal2 (@cons R)); [field|reflexivity]).
    split; [|split].
    + intro x. split.
      * intros (A & B). destruct (list2 x) as (u' & v' & ->); [apply B|]. destruct (proj1 (G u' v') (conj A B)) as (be & Qb & -> & ->). rewrite Ea, Eb.
        assert (K : (be - sg * h) * (be + sg * h) = 0). { transitivity (be * be - (sg * sg) * (h * h)); [ring|]. rewrite Qs, Qh. lra. }
        apply Rmult_integral in K as [K|K]; [right|left]; [replace be with (sg * h) by lra|replace be with (- (sg * h)) by lra]; reflexivity.
      * intros [->| ->]; [rewrite Ea|rewrite Eb]; apply G; eexists; (split; [|split; reflexivity]); transitivity ((sg * sg) * (h * h) + D * D); try ring; rewrite Qs, Qh; ring.
    + (* tangency *)
      assert (Dm : dist [cx; cy] (lproj [px; py] [ex; ey] [cx; cy]) = Rabs D).
      { assert (On : on_line [px; py] [ex; ey] [cx + D * uy; cy - D * ux]).
        { apply on_line2; auto. rewrite Ex, Ey. transitivity (w * (D * (ux * ux + uy * uy) - ((px - cx) * uy - (py - cy) * ux))); [ring|]. rewrite Qu. fold D. ring. }
        assert (M : min_dist (on_line [px; py] [ex; ey]) [cx; cy] (Rabs D)).
        { split.
          - exists [cx + D * uy; cy - D * ux]. split; auto. apply len_eq_val; [apply Rabs_pos|]. rewrite <- Rabs_mult, Rabs_right by nra. simpl. transitivity (D * D * (ux * ux + uy * uy)); [ring|rewrite Qu; ring].
          - intros y Hy. destruct (list2 y) as (yx & yy & ->); [apply on_line_length in Hy; auto|]. apply on_line2 in Hy; auto.
            assert (A' : (yx - cx) * uy - (yy - cy) * ux = D). { unfold D. rewrite Ex, Ey in Hy. assert (w * ((yx - px) * uy - (yy - py) * ux) = 0) by lra. apply Rmult_integral in H as [H|H]; lra. }
            rewrite <- (Rabs_right (dist _ _)) by (apply Rle_ge, dist_nonneg). apply Rsqr_le_abs_0. unfold Rsqr. rewrite dist2_sq. rewrite <- A'.
            assert (Z : 0 <= ((yx - cx) * ux + (yy - cy) * uy) * ((yx - cx) * ux + (yy - cy) * uy)) by apply Rle_0_sqr.
            assert (((yx - cx) * uy - (yy - cy) * ux) * ((yx - cx) * uy - (yy - cy) * ux) + ((yx - cx) * ux + (yy - cy) * uy) * ((yx - cx) * ux + (yy - cy) * uy) = (cx - yx) * (cx - yx) + (cy - yy) * (cy - yy)); [|lra].
            transitivity (((cx - yx) * (cx - yx) + (cy - yy) * (cy - yy)) * (ux * ux + uy * uy)); [ring|rewrite Qu; ring]. }
        eapply min_dist_unique; [apply lproj_min; auto|exact M]. }
      assert (T : min_dist (on_line [px; py] [ex; ey]) [cx; cy] r <-> r = Rabs D).
      { split; intro H; [rewrite <- Dm; eapply min_dist_unique; [exact H|apply lproj_min; auto]|]. rewrite H, <- Dm. apply lproj_min; auto. }
      rewrite T. split.
      * intro EQ. rewrite Ea, Eb in EQ. injection EQ as EQ1 EQ2. assert (Z1 : sg * h * ux = 0) by lra. assert (Z2 : sg * h * uy = 0) by lra. assert (Hh : sg * h * (ux * ux + uy * uy) = 0) by (transitivity (sg * h * ux * ux + sg * h * uy * uy); [ring|rewrite Z1, Z2; ring]).
        rewrite Qu in Hh. assert (h = 0) by (unfold sg in Hh; destruct (Rltb uy 0); lra). assert (Rsqr r = Rsqr D) by (unfold Rsqr; nra). apply Rsqr_eq_abs_0 in H0. rewrite (Rabs_right r) in H0 by lra. auto.
      * intro EQ. assert (r * r = D * D) by (rewrite EQ, <- Rabs_mult, Rabs_right; nra). assert (h = 0) by nra. rewrite Ea, Eb, H0. apply (f_equal2 (@cons R)); [ring|]. apply (f_equal2 (@cons R)); [ring|reflexivity].
    + exists (2 * h / w). split; [apply Rmult_le_pos; [lra|left; apply Rinv_0_lt_compat; auto]|]. rewrite Ea, Eb. unfold scale. cbn [map sub].
      assert (Sw : (if Rlt_dec ey 0 then - (2 * h / w) else 2 * h / w) = sg * (2 * h / w)).
      { unfold sg, Rltb. destruct (Rlt_dec ey 0) as [S1|S1], (Rlt_dec uy 0) as [S2|S2]; try ring; exfalso; tauto. }
      rewrite Sw. apply (f_equal2 (@cons R)); [rewrite Ex; field; lra|]. apply (f_equal2 (@cons R)); [rewrite Ey; field; lra|reflexivity].
  - intro N. destruct (Rlt_dec (r * r - D * D) 0) as [H|H]; [rb; [eexists; reflexivity|lra]|]. exfalso. apply N.
    exists [cx + (D * uy + sqrt (r * r - D * D) * ux); cy + (- D * ux + sqrt (r * r - D * D) * uy)]. apply G. exists (sqrt (r * r - D * D)). split; auto. rewrite sqrt_sqrt by lra. ring.
Qed.
Print Assumptions C48_intersect_line.

(** Lines of dimension above two raise ValueError ... *)
Theorem C48_high_dimension : forall (p e q : pt) (r : R) c l, circle_new (N:=RNum) q r = Ok c -> line_new (N:=RNum) p e = Ok l -> (2 < length p)%nat ->
  exists m, circle_intersect_line c l = Raise (ValueError m).
Proof.
  intros p e q r c l Hc Hl L. apply circle_inv in Hc as (-> & Hr & cx & cy & ->). apply line_new_iff in Hl as (-> & O). pose proof O as (Le & Hz & Hp).
  unfold circle_intersect_line. cbn [l_point l_dir c_point c_radius]. rewrite unit_R by auto. cbn [bind]. rewrite vadd_R by len. cbn [bind].
  unfold vsub. rewrite bcast_err by (rn; simpl; lia). cbn [bind]. eexists; reflexivity.
Qed.
Print Assumptions C48_high_dimension.
(** ... but a one-dimensional line is accepted: NumPy broadcasting silently reads it as the diagonal line y = x. *)
Theorem C48_dimension_checked_refuted : exists c l a b, circle_new (N:=RNum) [0; 0] 1 = Ok c /\ line_new (N:=RNum) [0] [1] = Ok l /\ circle_intersect_line c l = Ok (a, b).
Proof.
  assert (H1 : circle_new (N:=RNum) [0; 0] 1 = Ok (MkBall [0; 0] 1)) by (apply C45_construction; split; auto; split; auto; lra).
  assert (Hz : ~ is_zero_vec [1]) by (intro Z; inversion Z; lra).
  assert (H2 : line_new (N:=RNum) [0] [1] = Ok (MkLine [0] [1])) by (apply line_new_R; auto).
  do 2 eexists. cut (exists a b, circle_intersect_line (MkBall (N:=RNum) [0; 0] 1) (MkLine [0] [1]) = Ok (a, b)); [intros (a & b & E); exists a, b; eauto|].
  unfold circle_intersect_line. cbn [l_point l_dir c_point c_radius]. rewrite unit_R by auto. cbn [bind]. unfold scale. cbn [map]. rewrite vadd_R by reflexivity. cbn [bind add].
  assert (W : len [1] = 1) by (apply len_eq_val; [lra|simpl; ring]). rewrite W. unfold vsub, bcast. cbn [length Nat.eqb map bind]. rewrite !wrap1_R. cbn [bind]. rops. change (nofZ (-1)) with (-1).
  rb; try (exfalso; lra).
  match goal with |- context [math_sqrt ?X] => rewrite (math_sqrt_R X) by lra end. cbn [bind].
  match goal with |- context [ndiv _ ?Y] => assert (HY : Y <> 0) by lra end. rewrite !ndiv_R by auto. cbn [bind]. rewrite !point_of_R by discriminate. cbn [bind]. rewrite !vadd_R by reflexivity. cbn [bind]. eexists; eexists; reflexivity.
Qed.
Print Assumptions C48_dimension_checked_refuted.
