(** * Property C62: Cylinder.to_mesh and Cylinder.to_points *)
From Coq Require Import String Reals List ZArith Lra Lia Psatz Bool.
From Verif.Model Require Import Outcome Num Instances Numpy BaseArray Vector Points Functions Line Plane Sphere Cylinder.
From Verif.Spec Require Import Geometry Tolerance Mesh Linalg.
From Verif.Proof Require Import VecAlg Bridge Arrays Vectors Points Lines Cylinders.
From Verif.Proof Require Mesh.
From Verif.Prop Require Import Arrays Vectors Directions Points Lines Planes Balls Spheres Cylinders.
Import Verif.Proof.Mesh.
Import ListNotations.
Local Open Scope R_scope.

(** The frame used by to_mesh: three pairwise perpendicular unit vectors. *)
Lemma mesh_frame (v : pt) : length v = 3%nat -> ~ is_zero_vec v -> exists u1 u2 : pt, length u1 = 3%nat /\ length u2 = 3%nat /\
  dot u1 u1 = 1 /\ dot u2 u2 = 1 /\ dot u1 u2 = 0 /\ dot u1 v = 0 /\ dot u2 v = 0 /\
  (let* v_axis := unit_vec (N:=RNum) v in
   let* v_diff := different_direction (N:=RNum) tol_default v_axis in
   let* c1 := cross v_axis v_diff in let* u_1 := unit_vec c1 in
   let* c2 := cross v_axis u_1 in let* u_2 := unit_vec c2 in Ok (v_axis, u_1, u_2)) = Ok (scale (/ len v) v, u1, u2).
Proof.
  intros Lv Hz. pose proof (len_pos v Hz) as P. destruct (unit_dir v Hz) as (U & _). set (a := scale (/ len v) v) in *. assert (La : length a = 3%nat) by (unfold a; len).
  assert (Za : ~ is_zero_vec a) by (intro Z; apply dot_self_zero_iff in Z; lra).
  destruct (C18_different_direction a Za) as (w & Ew & Lw & _ & _ & Nd); [lia|]. rewrite La in Lw.
  set (c1 := cross_spec a w). assert (L1 : length c1 = 3%nat) by (apply length_cross; auto). assert (Z1 : ~ is_zero_vec c1) by (intro Z; apply Nd, cross_zero_iff; auto).
  destruct (unit_dir c1 Z1) as (U1 & _). set (u1 := scale (/ len c1) c1) in *. assert (Lu1 : length u1 = 3%nat) by (unfold u1; len).
  assert (D1 : dot u1 a = 0) by (unfold u1; rewrite dot_scale_l; unfold c1; rewrite cross_dot_l by auto; ring).
  set (c2 := cross_spec a u1). assert (L2 : length c2 = 3%nat) by (apply length_cross; auto).
  assert (S2 : dot c2 c2 = 1). { unfold c2. rewrite lagrange by auto. rewrite U, U1, (dot_comm a u1), D1. ring. }
  assert (Z2 : ~ is_zero_vec c2) by (intro Z; apply dot_self_zero_iff in Z; lra).
  destruct (unit_dir c2 Z2) as (U2 & _). set (u2 := scale (/ len c2) c2) in *. assert (Lu2 : length u2 = 3%nat) by (unfold u2; len).
  assert (D2 : dot u2 a = 0) by (unfold u2; rewrite dot_scale_l; unfold c2; rewrite cross_dot_l by auto; ring).
  assert (D12 : dot u1 u2 = 0) by (unfold u2; rewrite dot_scale_r, dot_comm; unfold c2; rewrite cross_dot_r by auto; ring).
  assert (Ev : forall u, dot u a = 0 -> dot u v = 0). { intros u E. unfold a in E. rewrite dot_scale_r in E. apply Rmult_integral in E as [E|E]; auto. exfalso. pose proof (Rinv_0_lt_compat _ P). lra. }
  exists u1, u2. split; auto. split; auto. split; auto. split; auto. split; auto. split; auto. split; auto.
  rewrite unit_R by auto. cbn [bind]. fold a. rewrite Ew. cbn [bind]. rewrite cross_R3 by auto. cbn [bind]. fold c1. rewrite unit_R by auto. cbn [bind]. fold u1.
  rewrite cross_R3 by auto. cbn [bind]. fold c2. rewrite unit_R by auto. reflexivity.
Qed.

Theorem C62_mesh_on_surface : forall (p v : pt) (r : R) c (n m : nat), cylinder_new (N:=RNum) p v r = Ok c ->
  exists X Y Z, cylinder_to_mesh RTrig c n m = Ok (X, Y, Z) /\ is_mesh m n X /\ is_mesh m n Y /\ is_mesh m n Z /\
    (forall i j, (i < m)%nat -> (j < n)%nat -> let x := [ent X i j; ent Y i j; ent Z i j] in
       min_dist (on_line p v) x r /\ in_cylinder p v r x) /\
    (* column j is a circle about the axis at height j/(n-1); the first is on the base, the last on the top *)
    (forall i j, (i < m)%nat -> (j < n)%nat -> (1 < n)%nat -> let x := [ent X i j; ent Y i j; ent Z i j] in
       let o := add p (scale (INR j / INR (n - 1)) v) in on_plane o v x /\ dist x o = r) /\
    (* one angle step is 2 pi / (m-1), and the mesh closes up *)
    (forall i i' j, (i < m)%nat -> (i' < m)%nat -> (j < n)%nat -> (1 < n)%nat -> let o := add p (scale (INR j / INR (n - 1)) v) in
       dot (sub [ent X i j; ent Y i j; ent Z i j] o) (sub [ent X i' j; ent Y i' j; ent Z i' j] o) = r * r * cos ((INR i - INR i') * (2 * PI / INR (m - 1)))).
Proof.
  intros p v r c n m Hc. apply cylinder_new_iff in Hc as (-> & K). pose proof K as (Lp & Lv & Hz & Hr). pose proof (dot_self_pos v Hz) as P. pose proof (len_pos v Hz) as Pl.
  destruct (mesh_frame v Lv Hz) as (u1 & u2 & L1 & L2 & U1 & U2 & U12 & V1 & V2 & E). unfold cylinder_to_mesh. cbn [cy_point cy_vector cy_radius].
  apply bind_ok_inv in E as (v1 & -> & E). cbn [bind]. apply bind_ok_inv in E as (v2 & -> & E). cbn [bind]. apply bind_ok_inv in E as (v3 & -> & E). cbn [bind].
  apply bind_ok_inv in E as (v4 & -> & E). cbn [bind]. apply bind_ok_inv in E as (v5 & -> & E). cbn [bind]. apply bind_ok_inv in E as (v6 & -> & E). cbn [bind]. injection E as -> -> ->.
  unfold cylinder_length. cbn [cy_vector]. rewrite norm_raw_len. rops. cbn [tpi RTrig tsin tcos].
  destruct (linspace_R 0 (len v) n) as (la & -> & La & A0 & A1 & Af). destruct (linspace_R 0 (2 * PI) m) as (lb & -> & Lb & B0 & B1 & Bf). cbn [bind].
  destruct (meshgrid (N:=RNum) la lb) as [T TH] eqn:G. apply meshgrid_R in G as (MT & MTH & GE). rn. rewrite La, Lb in MT, MTH, GE.
  set (coord := fun i => mesh2 (N:=RNum) (fun t th => nth i p 0 + nth i (scale (/ len v) v) 0 * t + r * sin th * nth i u1 0 + r * cos th * nth i u2 0) T TH).
  exists (coord 0%nat), (coord 1%nat), (coord 2%nat). split; [reflexivity|].
  assert (M : forall k, is_mesh m n (coord k) /\ forall i j, (i < m)%nat -> (j < n)%nat -> ent (coord k) i j =
     nth k p 0 + nth k (scale (/ len v) v) 0 * nth j la 0 + r * sin (nth i lb 0) * nth k u1 0 + r * cos (nth i lb 0) * nth k u2 0).
  { intro k. destruct (mesh2_R (fun t th => nth k p 0 + nth k (scale (/ len v) v) 0 * t + r * sin th * nth k u1 0 + r * cos th * nth k u2 0) m n T TH MT MTH) as (M1 & M2).
    split; [exact M1|]. intros i j Hi Hj. unfold coord. rewrite M2 by auto. destruct (GE i j Hi Hj) as (-> & ->). reflexivity. }
  set (W := fun i => add (scale (r * sin (nth i lb 0)) u1) (scale (r * cos (nth i lb 0)) u2)).
  assert (S : forall j, (j < n)%nat -> exists s, 0 <= s <= 1 /\ nth j la 0 = s * len v /\ ((1 < n)%nat -> s = INR j / INR (n - 1))).
  { intros j Hj. destruct (Nat.lt_ge_cases 1 n) as [Hn|Hn].
    - exists (INR j / INR (n - 1)). assert (0 < INR (n - 1)) by (apply lt_0_INR; lia). pose proof (pos_INR j). assert (INR j <= INR (n - 1)) by (apply le_INR; lia). split; [split|].
      + apply Rle_mult_inv_pos; auto.
      + apply Rmult_le_reg_r with (INR (n - 1)); auto. unfold Rdiv. rewrite Rmult_assoc, Rinv_l by lra. lra.
      + split; auto. rewrite Af by auto. field. lra.
    - exists 0. split; [lra|]. replace j with 0%nat by lia. rewrite A0 by lia. split; [ring|lia]. }
  assert (G : forall i j s, (i < m)%nat -> (j < n)%nat -> nth j la 0 = s * len v -> [ent (coord 0%nat) i j; ent (coord 1%nat) i j; ent (coord 2%nat) i j] = add (add p (scale s v)) (W i)).
  { intros i j s Hi Hj Hs. rewrite !(proj2 (M _)) by auto. rewrite Hs. unfold W. clear - Lp Lv L1 L2 Pl. destruct (list3 p Lp) as (p1 & p2 & p3 & ->). destruct (list3 u1 L1) as (a1 & a2 & a3 & ->). destruct (list3 u2 L2) as (b1 & b2 & b3 & ->).
    set (l := len v) in *. clearbody l. destruct (list3 v Lv) as (v1 & v2 & v3 & ->). unfold scale. cbn [map add nth].
    repeat (apply (f_equal2 (@cons R)); [field; lra|]). reflexivity. }
  assert (LW : forall i, length (W i) = 3%nat) by (intro i; unfold W; len).
  assert (DW : forall i i', dot (W i) (W i') = r * r * (sin (nth i lb 0) * sin (nth i' lb 0) + cos (nth i lb 0) * cos (nth i' lb 0))).
  { intros i i'. unfold W. rewrite dot_add_l by len. rewrite !dot_add_r by len. rewrite !dot_scale_l, !dot_scale_r, U1, U2, U12, (dot_comm u2 u1), U12. ring. }
  assert (DV : forall i, dot (W i) v = 0) by (intro i; unfold W; rewrite dot_add_l by len; rewrite !dot_scale_l, V1, V2; ring).
  assert (NW : forall i, dot (W i) (W i) = r * r). { intro i. rewrite DW. pose proof (sin2_cos2 (nth i lb 0)) as Q. unfold Rsqr in Q. rewrite Q. ring. }
  assert (RW : forall s i, sub (add (add p (scale s v)) (W i)) (add p (scale s v)) = W i) by (intros s i; apply sub_add_cancel; rewrite LW; len).
  split; [apply M|]. split; [apply M|]. split; [apply M|]. split; [|split].
  - intros i j Hi Hj. destruct (S j Hj) as (s & Hs & Es & _). rewrite (G i j s) by auto. split.
    + pose proof (LW i) as LWi. apply (tube_iff p v r); auto; [len|].
      assert (ER : rej v (sub (add (add p (scale s v)) (W i)) p) = W i).
      { unfold rej. assert (E1 : sub (add (add p (scale s v)) (W i)) p = add (scale s v) (W i)). { rewrite add_assoc. apply sub_add_cancel. rewrite length_add; rewrite ?LW; len. }
        rewrite E1, dot_add_l, dot_scale_l, DV by (rewrite ?LW; len). pose proof (LW i). apply pt_ext; [len|]. intros k _. repeat rewrite ?nth_add, ?nth_scale, ?nth_sub by len. field. lra. }
      rewrite ER. apply NW.
    + exists s, (W i). split; [rewrite LW; auto|]. split; auto. split; auto. split; auto. right. apply len_eq_val; [lra|]. rewrite NW. ring.
  - intros i j Hi Hj Hn. destruct (S j Hj) as (s & Hs & Es & Ss). rewrite <- Ss in * by auto. rewrite (G i j s) by auto. split.
    + split; [pose proof (LW i); len|]. rewrite RW. apply DV.
    + unfold dist. rewrite RW. apply len_eq_val; [lra|]. rewrite NW. ring.
  - intros i i' j Hi Hi' Hj Hn. destruct (S j Hj) as (s & Hs & Es & Ss). rewrite <- Ss in * by auto. rewrite (G i j s), (G i' j s) by auto. rewrite !RW, DW. f_equal.
    assert (T1 : forall k, (k < m)%nat -> nth k lb 0 = INR k * (2 * PI / INR (m - 1))).
    { intros k Hk. destruct (Nat.lt_ge_cases 1 m) as [Hm|Hm].
      - rewrite Bf by auto. rewrite Rminus_0_r. ring.
      - replace k with 0%nat by lia. rewrite B0 by lia. simpl. ring. }
    rewrite !T1 by auto. rewrite Rmult_minus_distr_r, cos_minus. ring.
Qed.
Print Assumptions C62_mesh_on_surface.

Theorem C62_to_points : forall (p v : pt) (r : R) c (n m : nat), cylinder_new (N:=RNum) p v r = Ok c -> (0 < n)%nat -> (0 < m)%nat ->
  exists X Y Z ps, cylinder_to_mesh RTrig c n m = Ok (X, Y, Z) /\ cylinder_to_points RTrig c n m = Ok ps /\ length ps = (m * n)%nat /\
    (forall x, In x ps <-> exists i j, (i < m)%nat /\ (j < n)%nat /\ x = [ent X i j; ent Y i j; ent Z i j]) /\
    (forall x, In x ps -> min_dist (on_line p v) x r /\ in_cylinder p v r x).
Proof.
  intros p v r c n m Hc Hn Hm. destruct (C62_mesh_on_surface p v r c n m Hc) as (X & Y & Z & E & MX & MY & MZ & S & _).
  destruct (mesh_to_points_spec _ _ X Y Z MX MY MZ) as (Lp & F & N).
  exists X, Y, Z, (mesh_to_points (N:=RNum) X Y Z). split; auto. split; [unfold cylinder_to_points; rewrite E; eapply to_points_gen_R; eauto|]. split; auto.
  assert (I : forall x, In x (mesh_to_points (N:=RNum) X Y Z) <-> exists i j, (i < m)%nat /\ (j < n)%nat /\ x = [ent X i j; ent Y i j; ent Z i j]).
  { apply (mesh_in _ _ _ (fun i j => [ent X i j; ent Y i j; ent Z i j])); auto. }
  split; auto. intros x Hx. apply I in Hx as (i & j & Hi & Hj & ->). apply S; auto.
Qed.
Print Assumptions C62_to_points.
(** A resolution of zero gives an empty mesh and no Points object. *)
Theorem C62_empty : forall (p v : pt) (r : R) c (n m : nat), cylinder_new (N:=RNum) p v r = Ok c -> (n = 0 \/ m = 0)%nat ->
  exists msg, cylinder_to_points RTrig c n m = Raise (ValueError msg).
Proof.
  intros p v r c n m Hc H. destruct (C62_mesh_on_surface p v r c n m Hc) as (X & Y & Z & E & MX & MY & MZ & _).
  unfold cylinder_to_points. rewrite E. eapply to_points_gen_empty; eauto. destruct H; subst; lia.
Qed.
Print Assumptions C62_empty.
Example C62_nonvacuous : exists c, cylinder_new (N:=RNum) [0; 0; 0] [0; 0; 1] 1 = Ok c /\ (2 < 4)%nat.
Proof. destruct C59_nonvacuous as (c & H & _). exists c. split; auto. Qed.
