(** * Properties C49 and C51: Sphere.intersect_line, Sphere.to_mesh and to_points *)
From Coq Require Import String Reals List ZArith Lra Lia Psatz Bool.
From Verif.Model Require Import Outcome Num Instances Numpy BaseArray Vector Points Functions Line Plane Sphere.
From Verif.Spec Require Import Geometry Tolerance Mesh Linalg.
From Verif.Proof Require Import VecAlg Bridge Arrays Vectors Points Lines.
From Verif.Proof Require Mesh.
From Verif.Prop Require Import Balls.
Import Verif.Proof.Mesh.
Import ListNotations.
Local Open Scope R_scope.

Lemma sphere_inv c p r : sphere_new (N:=RNum) p r = Ok c -> c = MkBall (N:=RNum) p r /\ 0 < r /\ length p = 3%nat.
Proof. intro H. apply C45_construction in H as (-> & Hr & L). auto. Qed.

(** ** C49  Sphere.intersect_line *)
(** In every dimension: positions along a unit direction, and the sphere. *)
Lemma line_sphere_pos (p u q : pt) (r t : R) : length u = length p -> length q = length p -> dot u u = 1 -> 0 < r ->
  (on_sphere q r (add p (scale t u)) <->
   (t + dot u (sub p q)) * (t + dot u (sub p q)) = dot u (sub p q) * dot u (sub p q) - (dot (sub p q) (sub p q) - r * r)).
Proof.
  intros Lu Lq Uu Hr. unfold on_sphere.
  assert (E : dist (add p (scale t u)) q * dist (add p (scale t u)) q = dot (sub p q) (sub p q) + 2 * t * dot u (sub p q) + t * t).
  { rewrite dist_sq. rewrite sub_add_l by len. rewrite dot_add_add by len. rewrite dot_scale_l, dot_scale_r, dot_scale_l, Uu. ring. }
  pose proof (dist_nonneg (add p (scale t u)) q) as P. split.
  - intros (_ & H). rewrite H in E. lra.
  - intro H. split; [len|]. nra.
Qed.
Lemma unit_dir (e : pt) : ~ is_zero_vec e -> let u := scale (/ len e) e in dot u u = 1 /\ e = scale (len e) u.
Proof.
  intros Hz u. pose proof (len_pos e Hz) as P. unfold u. split.
  - rewrite dot_scale_l, dot_scale_r, <- len_sq. field. lra.
  - rewrite scale_scale. replace (len e * / len e) with 1 by (field; lra). rewrite scale_1. reflexivity.
Qed.
Lemma on_line_unit (p e x : pt) : ~ is_zero_vec e -> (on_line p e x <-> exists t, x = add p (scale t (scale (/ len e) e))).
Proof.
  intro Hz. pose proof (len_pos e Hz) as P. split; intros (t & ->).
  - exists (t * len e). rewrite scale_scale. f_equal. f_equal. field. lra.
  - exists (t * / len e). rewrite scale_scale. reflexivity.
Qed.

Theorem C49_intersect_line : forall (p e q : pt) (r : R) c l, sphere_new (N:=RNum) q r = Ok c -> line_new (N:=RNum) p e = Ok l -> length p = 3%nat ->
  ((exists x, on_line p e x /\ on_sphere q r x) ->
     exists a b, sphere_intersect_line c l = Ok (a, b) /\ (forall x, on_line p e x /\ on_sphere q r x <-> x = a \/ x = b) /\
       (a = b <-> min_dist (on_line p e) q r) /\ (exists k, 0 <= k /\ sub b a = scale k e)) /\
  ((~ exists x, on_line p e x /\ on_sphere q r x) -> sphere_intersect_line c l = Raise (ValueError "The line does not intersect the sphere.")).
Proof.
  intros p e q r c l Hc Hl L. apply sphere_inv in Hc as (-> & Hr & Lq). apply line_new_iff in Hl as (-> & O). pose proof O as (Le & Hz & Hp).
  unfold sphere_intersect_line. cbn [l_point l_dir c_point c_radius].
  rewrite from_points_R by (rn; first [congruence|destruct q; [simpl in Lq; lia|discriminate]]). cbn [bind]. rewrite unit_R by auto. cbn [bind].
  rewrite np_dot_R by len. cbn [bind]. rewrite norm_R. cbn [bind].
  destruct (unit_dir e Hz) as (Uu & Ee). set (u := scale (/ len e) e) in *. assert (Lu : length u = length p) by (unfold u; len).
  set (v := sub p q). set (D := dot u v). rops. rewrite len_sq. set (m := dot v v - D * D).
  replace (D * D - (dot v v - r * r)) with (r * r - m) by (unfold m; ring).
  assert (G : forall t, on_sphere q r (add p (scale t u)) <-> (t + D) * (t + D) = r * r - m).
  { intro t. rewrite (line_sphere_pos p u q r t) by (auto; congruence). fold v D. unfold m. split; intro; lra. }
  assert (Gd : forall t, dist q (add p (scale t u)) * dist q (add p (scale t u)) = (t + D) * (t + D) + m).
  { intro t. rewrite dist_sym, dist_sq, sub_add_l by len. fold v. rewrite dot_add_add by (unfold v; len). rewrite dot_scale_l, dot_scale_r, dot_scale_l, Uu. fold D. unfold m. ring. }
  assert (Pm : 0 <= m). { specialize (Gd (- D)). pose proof (dist_nonneg q (add p (scale (- D) u))). nra. }
  assert (Pe := len_pos e Hz). clearbody m D.
  split.
  - intros (x & Hx & Hx'). apply on_line_unit in Hx as (t0 & ->); auto. fold u in Hx'. apply G in Hx'.
    assert (HD : 0 <= r * r - m) by (rewrite <- Hx'; apply Rle_0_sqr). rb; [lra|]. rewrite math_sqrt_R by auto. cbn [bind]. set (h := sqrt (r * r - m)).
    assert (Qh : h * h = r * r - m) by (apply sqrt_sqrt; auto). assert (Ph : 0 <= h) by apply sqrt_pos.
    change (vscale (N:=RNum)) with scale. rewrite !bcast_eq by (rn; len). cbn [bind]. rewrite !map2_add.
    rewrite !point_of_R by (intro Z; apply (f_equal (@length R)) in Z; lenh Z; simpl in Z; lia). cbn [bind].
    change (nofZ (-1)) with (-1). eexists; eexists. split; [reflexivity|].
    split; [|split].
    + intro x. split.
      * intros (A & B). apply on_line_unit in A as (t & ->); auto. fold u in B |- *. apply G in B.
        assert (K : (t + D - h) * (t + D + h) = 0) by (transitivity ((t + D) * (t + D) - h * h); [ring|lra]).
        apply Rmult_integral in K as [K|K]; [right|left]; f_equal; f_equal; lra.
      * intros [->| ->]; (split; [apply on_line_unit; auto; eexists; reflexivity|apply G; rewrite <- Qh; ring]).
    + assert (C : dist q (add p (scale (- D) u)) * dist q (add p (scale (- D) u)) = m) by (rewrite Gd; ring). pose proof (dist_nonneg q (add p (scale (- D) u))) as Pd.
      assert (T : min_dist (on_line p e) q r <-> r * r = m).
      { split.
        - intros ((y & Hy & Ey) & Hm). apply on_line_unit in Hy as (t & ->); auto. fold u in Ey. assert (A := Gd t). rewrite Ey in A.
          assert (B : r <= dist q (add p (scale (- D) u))) by (apply Hm, on_line_unit; auto; eexists; reflexivity). set (dd := dist q _) in *. clearbody dd. pose proof (Rmult_le_compat r dd r dd ltac:(lra) ltac:(lra) B B). pose proof (Rle_0_sqr (t + D)) as S. unfold Rsqr in S. lra.
        - intro Em. split.
          + exists (add p (scale (- D) u)). split; [apply on_line_unit; auto; eexists; reflexivity|]. set (dd := dist q _) in *. clearbody dd. nra.
          + intros y Hy. apply on_line_unit in Hy as (t & ->); auto. fold u. pose proof (Gd t) as C'. pose proof (dist_nonneg q (add p (scale t u))) as P'. set (dd := dist q (add p (scale t u))) in *. clearbody dd. pose proof (Rle_0_sqr (t + D)) as S. unfold Rsqr in S. apply Rsqr_incr_0_var; auto. unfold Rsqr. lra. }
      rewrite T. split.
      * intro EQ. apply (f_equal (fun w => sub w p)) in EQ. rewrite !sub_add_cancel in EQ by len. apply scale_inj in EQ; [nra|]. apply scale_nonzero; auto. apply Rinv_neq_0_compat. lra.
      * intro EQ. assert (h = 0) by nra. f_equal. f_equal. rewrite H. ring.
    + exists (2 * h * / len e). split; [apply Rmult_le_pos; [lra|left; apply Rinv_0_lt_compat; auto]|].
      unfold u. rewrite !scale_scale. apply pt_ext; [len|]. intros i _. repeat rewrite ?nth_add, ?nth_scale, ?nth_sub by len. ring.
  - intro Hn. rb; [reflexivity|]. exfalso. apply Hn. exists (add p (scale (sqrt (r * r - m) - D) u)). split; [apply on_line_unit; auto; eexists; reflexivity|].
    apply G. replace (sqrt (r * r - m) - D + D) with (sqrt (r * r - m)) by ring. apply sqrt_sqrt. lra.
Qed.
Print Assumptions C49_intersect_line.

(** A line of any other dimension is rejected with ValueError (one-dimensional lines included). *)
Theorem C49_dimension_mismatch : forall (p e q : pt) (r : R) c l, sphere_new (N:=RNum) q r = Ok c -> line_new (N:=RNum) p e = Ok l -> length p <> 3%nat ->
  exists m, sphere_intersect_line c l = Raise (ValueError m).
Proof.
  intros p e q r c l Hc Hl L. apply sphere_inv in Hc as (-> & Hr & Lq). apply line_new_iff in Hl as (-> & O). pose proof O as (Le & Hz & Hp).
  unfold sphere_intersect_line. cbn [l_point l_dir c_point c_radius].
  destruct (list3 q Lq) as (q1 & q2 & q3 & ->). destruct (Nat.eq_dec (length p) 1) as [L1|L1].
  - destruct (list1 p L1) as (x & ->). destruct (list1 e) as (y & ->); [simpl in Le; auto|]. unfold from_points, bcast. cbn [length Nat.eqb map bind].
    rewrite vector_of_R by discriminate. cbn [bind]. rewrite unit_R by auto. cbn [bind]. rewrite np_dot_err by (rn; len; simpl; lia). eexists; reflexivity.
  - unfold from_points. rewrite bcast_err by (rn; simpl; lia). eexists; reflexivity.
Qed.
Print Assumptions C49_dimension_mismatch.
Example C49_nonvacuous : exists c l a b, sphere_new (N:=RNum) [0; 0; 0] 1 = Ok c /\ line_new (N:=RNum) [0; 0; 0] [0; 0; 2] = Ok l /\ sphere_intersect_line c l = Ok (a, b) /\ a <> b.
Proof.
  assert (H1 : sphere_new (N:=RNum) [0; 0; 0] 1 = Ok (MkBall [0; 0; 0] 1)) by (apply C45_construction; split; auto; split; auto; lra).
  assert (H2 : line_new (N:=RNum) [0; 0; 0] [0; 0; 2] = Ok (MkLine [0; 0; 0] [0; 0; 2])) by (apply line_new_R; auto; intro Z; inversion Z; lra).
  destruct (C49_intersect_line [0; 0; 0] [0; 0; 2] [0; 0; 0] 1 _ _ H1 H2 eq_refl) as (A & _). destruct A as (a & b & E & _ & T & _).
  - exists [0; 0; 1]. split; [exists (1 / 2); unfold scale; simpl; repeat (apply (f_equal2 (@cons R)); [lra|]); reflexivity|]. split; auto. apply len_eq_val; [lra|]. simpl. ring.
  - do 4 eexists. split; [exact H1|]. split; [exact H2|]. split; [exact E|]. intro Z. apply T in Z as (_ & Z). specialize (Z [0; 0; 0]). rewrite dist_refl in Z. assert (1 <= 0); [|lra]. apply Z. apply on_line_base; auto.
Qed.

(** ** C51  Sphere.to_mesh, to_points *)
Lemma linspace_R a b n : exists l, linspace (N:=RNum) a b n = Ok l /\ length l = n /\ ((0 < n)%nat -> nth 0 l 0 = a) /\ ((1 < n)%nat -> nth (n - 1) l 0 = b) /\
  (forall i, (i < n)%nat -> (1 < n)%nat -> nth i l 0 = a + INR i * ((b - a) / INR (n - 1))).
Proof.
  destruct n as [|[|m]]; [exists []; simpl; repeat split; auto; lia|exists [a]; simpl; repeat split; auto; try lia; intros; lia|].
  unfold linspace. rops. rewrite ndiv_R by (apply IZR_neq; lia). cbn [bind]. eexists. split; [reflexivity|].
  set (f := fun i => a + IZR (Z.of_nat i) * ((b - a) / IZR (Z.of_nat (S m)))).
  assert (Lm : length (map f (seq 0 (S m))) = S m) by (rewrite map_length, seq_length; auto).
  assert (F : forall i, (i < S m)%nat -> nth i (map f (seq 0 (S m)) ++ [b]) 0 = f i).
  { intros i Hi. rewrite app_nth1 by (rewrite Lm; auto). rewrite (nth_indep _ 0 (f 0%nat)) by (rewrite Lm; auto). rewrite map_nth, seq_nth by auto. reflexivity. }
  assert (B : nth (S m) (map f (seq 0 (S m)) ++ [b]) 0 = b) by (rewrite app_nth2 by (rewrite Lm; auto); rewrite Lm, Nat.sub_diag; reflexivity).
  split; [rewrite app_length, Lm; simpl; lia|]. split; [intros _; change (nth 0 (map f (seq 0 (S m)) ++ [b]) 0 = a); rewrite F by lia; unfold f; simpl; ring|].
  split; [intros _; replace (S (S m) - 1)%nat with (S m) by lia; exact B|].
  intros i Hi _. replace (S (S m) - 1)%nat with (S m) by lia. assert (NZ : INR (S m) <> 0) by (apply not_0_INR; lia). destruct (Nat.eq_dec i (S m)) as [->|].
  - change (nth (S m) (map f (seq 0 (S m)) ++ [b]) 0 = a + INR (S m) * ((b - a) / INR (S m))). rewrite B. field. auto.
  - change (nth i (map f (seq 0 (S m)) ++ [b]) 0 = a + INR i * ((b - a) / INR (S m))). rewrite F by lia. unfold f. rewrite !INR_IZR_INZ. reflexivity.
Qed.
Lemma ent_mesh_affine (c r : R) (f g : R -> R) (xs ys : list R) i j : (i < length xs)%nat -> (j < length ys)%nat ->
  ent (mesh_affine (N:=RNum) c r (outer (N:=RNum) (map f xs) (map g ys))) i j = c + r * (f (nth i xs 0) * g (nth j ys 0)).
Proof.
  intros Hi Hj. unfold ent, mesh_affine, outer. rops. rewrite !map_map.
  rewrite (nth_map_in _ xs i 0) by auto. rewrite !map_map. rewrite (nth_map_in _ ys j 0) by auto. reflexivity.
Qed.
Lemma is_mesh_affine (c r : R) (xs ys : list R) : is_mesh (length xs) (length ys) (mesh_affine (N:=RNum) c r (outer (N:=RNum) xs ys)).
Proof.
  unfold mesh_affine, outer. split; [rewrite !map_length; auto|]. apply Forall_forall. intros w Hw. rewrite map_map in Hw. apply in_map_iff in Hw as (x & <- & _). rewrite !map_length. auto.
Qed.

(** Every mesh entry is on the sphere, for every sphere and every n_angles; the grid has n_angles rows (polar angle)
    and columns (azimuth), starts at the north pole and ends at the south pole, and closes up in the azimuth. *)
Theorem C51_mesh_on_sphere : forall (q : pt) (r : R) c (n : nat), sphere_new (N:=RNum) q r = Ok c ->
  exists X Y Z, sphere_to_mesh RTrig c n = Ok (X, Y, Z) /\ is_mesh n n X /\ is_mesh n n Y /\ is_mesh n n Z /\
    (forall i j, (i < n)%nat -> (j < n)%nat -> on_sphere q r [ent X i j; ent Y i j; ent Z i j]) /\
    (forall j, (j < n)%nat -> [ent X 0 j; ent Y 0 j; ent Z 0 j] = add q [0; 0; r]) /\
    (forall j, (j < n)%nat -> (1 < n)%nat -> [ent X (n - 1) j; ent Y (n - 1) j; ent Z (n - 1) j] = sub q [0; 0; r]) /\
    (forall i, (i < n)%nat -> (1 < n)%nat -> [ent X i 0; ent Y i 0; ent Z i 0] = [ent X i (n - 1); ent Y i (n - 1); ent Z i (n - 1)]) /\
    (forall i j, (i < n)%nat -> (j < n)%nat -> (1 < n)%nat -> let A := INR i * PI / INR (n - 1) in let B := INR j * (2 * PI) / INR (n - 1) in
       [ent X i j; ent Y i j; ent Z i j] = add q (scale r [sin A * sin B; sin A * cos B; cos A])).
Proof.
  intros q r c n Hc. apply sphere_inv in Hc as (-> & Hr & Lq). destruct (list3 q Lq) as (q1 & q2 & q3 & ->).
  unfold sphere_to_mesh. cbn [c_point c_radius tpi RTrig tsin tcos]. rops. destruct (linspace_R 0 PI n) as (la & Ea & La & A0 & A1 & Af). destruct (linspace_R 0 (2 * PI) n) as (lb & Eb & Lb & B0 & B1 & Bf).
  rewrite Ea. cbn [bind]. rewrite Eb. cbn [bind]. do 3 eexists. split; [reflexivity|].
  assert (MX := is_mesh_affine q1 r (map sin la) (map sin lb)). assert (MY := is_mesh_affine q2 r (map sin la) (map cos lb)). assert (MZ := is_mesh_affine q3 r (map cos la) (map (fun _ => 1) lb)).
  rn. rewrite !map_length in MX, MY, MZ. rewrite La, Lb in MX, MY, MZ. split; [exact MX|]. split; [exact MY|]. split; [exact MZ|].
  set (X := mesh_affine q1 r _). set (Y := mesh_affine q2 r _). set (Z := mesh_affine q3 r _).
  assert (G : forall i j, (i < n)%nat -> (j < n)%nat -> [ent X i j; ent Y i j; ent Z i j] =
     [q1 + r * (sin (nth i la 0) * sin (nth j lb 0)); q2 + r * (sin (nth i la 0) * cos (nth j lb 0)); q3 + r * (cos (nth i la 0) * 1)]).
  { intros i j Hi Hj. unfold X, Y, Z. rewrite !ent_mesh_affine by (rewrite ?La, ?Lb; auto). reflexivity. }
  clearbody X Y Z. split; [|split; [|split; [|split]]].
  - intros i j Hi Hj. rewrite G by auto. split; [reflexivity|]. apply len_eq_val; [lra|]. cbn [sub dot].
    set (s := sin (nth i la 0)). set (k := cos (nth i la 0)). set (s' := sin (nth j lb 0)). set (k' := cos (nth j lb 0)).
    assert (Q1 : s * s + k * k = 1) by (pose proof (sin2_cos2 (nth i la 0)) as T; unfold Rsqr in T; exact T). assert (Q2 : s' * s' + k' * k' = 1) by (pose proof (sin2_cos2 (nth j lb 0)) as T; unfold Rsqr in T; exact T).
    clearbody s k s' k'. transitivity (r * r * (s * s * (s' * s' + k' * k') + k * k)); [ring|]. rewrite Q2. transitivity (r * r * (s * s + k * k)); [ring|]. rewrite Q1. ring.
  - intros j Hj. rewrite G by lia. rewrite A0 by lia. rewrite sin_0, cos_0. cbn [add]. veq.
  - intros j Hj H1. rewrite G by lia. rewrite A1 by lia. rewrite sin_PI, cos_PI. cbn [sub]. veq.
  - intros i Hi H1. rewrite !G by lia. rewrite B0, B1 by lia. rewrite sin_0, cos_0, sin_2PI, cos_2PI. reflexivity.
  - intros i j Hi Hj H1. set (A := INR i * PI / INR (n - 1)). set (B := INR j * (2 * PI) / INR (n - 1)). rewrite G by auto. rewrite Af, Bf by auto.
    assert (NZ : INR (n - 1) <> 0) by (apply not_0_INR; lia).
    replace (0 + INR i * ((PI - 0) / INR (n - 1))) with A by (unfold A; field; auto). replace (0 + INR j * ((2 * PI - 0) / INR (n - 1))) with B by (unfold B; field; auto).
    unfold scale. cbn [add map]. veq.
Qed.
Print Assumptions C51_mesh_on_sphere.

Theorem C51_to_points : forall (q : pt) (r : R) c (n : nat), sphere_new (N:=RNum) q r = Ok c -> (0 < n)%nat ->
  exists X Y Z ps, sphere_to_mesh RTrig c n = Ok (X, Y, Z) /\ sphere_to_points RTrig c n = Ok ps /\ length ps = (n * n)%nat /\
    (forall x, In x ps <-> exists i j, (i < n)%nat /\ (j < n)%nat /\ x = [ent X i j; ent Y i j; ent Z i j]) /\
    (forall x, In x ps -> on_sphere q r x).
Proof.
  intros q r c n Hc Hn. destruct (C51_mesh_on_sphere q r c n Hc) as (X & Y & Z & E & MX & MY & MZ & S & _).
  destruct (mesh_to_points_spec _ _ X Y Z MX MY MZ) as (Lp & F & N).
  exists X, Y, Z, (mesh_to_points (N:=RNum) X Y Z). split; auto. split; [unfold sphere_to_points; rewrite E; eapply to_points_gen_R; eauto|]. split; auto.
  assert (I : forall x, In x (mesh_to_points (N:=RNum) X Y Z) <-> exists i j, (i < n)%nat /\ (j < n)%nat /\ x = [ent X i j; ent Y i j; ent Z i j]).
  { apply (mesh_in _ _ _ (fun i j => [ent X i j; ent Y i j; ent Z i j])); auto. }
  split; auto. intros x Hx. apply I in Hx as (i & j & Hi & Hj & ->). apply S; auto.
Qed.
Print Assumptions C51_to_points.
(** n_angles = 0 gives an empty mesh and no Points object. *)
Theorem C51_no_angles : forall (q : pt) (r : R) c, sphere_new (N:=RNum) q r = Ok c -> sphere_to_mesh RTrig c 0 = Ok ([], [], []) /\ exists m, sphere_to_points RTrig c 0 = Raise (ValueError m).
Proof.
  intros q r c Hc. apply sphere_inv in Hc as (-> & Hr & Lq). destruct (list3 q Lq) as (q1 & q2 & q3 & ->). split; [reflexivity|].
  unfold sphere_to_points. change (sphere_to_mesh RTrig _ 0) with (Ok (@nil pt, @nil pt, @nil pt)). eapply (to_points_gen_empty [] [] [] 0 0); repeat split; auto.
Qed.
Print Assumptions C51_no_angles.
Example C51_nonvacuous : exists c, sphere_new (N:=RNum) [1; 2; 3] 4 = Ok c.
Proof. eexists. apply C45_construction; split; [reflexivity|]. split; auto. lra. Qed.
