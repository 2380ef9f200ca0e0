(** * Property C42: Plane.to_mesh and Plane.to_points *)
From Coq Require Import String Reals List ZArith Lra Lia Psatz Bool.
From Verif.Model Require Import Outcome Num Instances Numpy BaseArray Vector Points Functions Line Plane.
From Verif.Spec Require Import Geometry Tolerance Mesh.
From Verif.Proof Require Import VecAlg Bridge Arrays Vectors Points Lines.
From Verif.Proof Require Mesh.
From Verif.Prop Require Import Planes.
Import Verif.Proof.Mesh.
Import ListNotations.
Local Open Scope R_scope.

Lemma map_plus_nth c (l : list R) j : (j < length l)%nat -> nth j (map (fun x => c + x) l) 0 = c + nth j l 0.
Proof. intro H. rewrite (nth_map_in _ _ _ 0); auto. Qed.

(** Every mesh entry is on the plane (planes of dimension 2 are taken as planes through the
    zero-padded point with zero-padded normal), for all limits, together with the exact position of
    the grid in each of the three branches. *)
Theorem C42_mesh_on_plane : forall (p n : pt) (pl : plane RNum) (lims_x lims_y : list R),
  plane_new (N:=RNum) p n = Ok pl -> (length p = 2 \/ length p = 3)%nat ->
  let p3 := pad_to 3 p in let n3 := pad_to 3 n in
  exists X Y Z, plane_to_mesh pl lims_x lims_y = Ok (X, Y, Z) /\
    is_mesh (length lims_y) (length lims_x) X /\ is_mesh (length lims_y) (length lims_x) Y /\ is_mesh (length lims_y) (length lims_x) Z /\
    forall i j, (i < length lims_y)%nat -> (j < length lims_x)%nat ->
      on_plane p3 n3 [ent X i j; ent Y i j; ent Z i j] /\
      let u := nth 0 p 0 + nth j lims_x 0 in let v := nth 1 p 0 + nth i lims_y 0 in
      (nth 2 n3 0 <> 0 -> ent X i j = u /\ ent Y i j = v) /\
      (nth 2 n3 0 = 0 -> nth 1 n3 0 <> 0 -> ent X i j = u /\ ent Z i j = v) /\
      (nth 2 n3 0 = 0 -> nth 1 n3 0 = 0 -> ent Y i j = u /\ ent Z i j = v).
Proof.
  intros p n pl lx ly Hpl L3 p3 n3. destruct (C35_cartesian p n pl Hpl) as (a & b & c & d & E & Q & S & _); [lia|].
  apply plane_new_inv in Hpl as (-> & L & Hz & Hp). fold p3 n3 in S. fold n3 in Q.
  assert (N2 : nth 2 n3 0 = c) by (rewrite <- Q; reflexivity). assert (N1 : nth 1 n3 0 = b) by (rewrite <- Q; reflexivity). rewrite N1, N2.
  assert (Hn : ~ (a = 0 /\ b = 0 /\ c = 0)).
  { intros (-> & -> & ->). apply Hz. apply dot_self_zero. rewrite <- (pad_dot 3) by auto. fold n3. rewrite <- Q. simpl. ring. }
  unfold plane_to_mesh. rewrite E. cbn [bind pl_point].
  destruct p as [|p0 [|p1 ps]]; try (simpl in L3; lia). cbn [nth]. rops.
  destruct (meshgrid (N:=RNum) (map (fun l => p0 + l) lx) (map (fun l => p1 + l) ly)) as [X Y] eqn:G.
  apply meshgrid_R in G as (MX & MY & GE). rewrite !map_length in MX, MY, GE.
  assert (GE' : forall i j, (i < length ly)%nat -> (j < length lx)%nat -> ent X i j = p0 + nth j lx 0 /\ ent Y i j = p1 + nth i ly 0).
  { intros i j Hi Hj. destruct (GE i j Hi Hj) as [-> ->]. rewrite !map_plus_nth by auto. auto. }
  assert (K : forall k1 k2 den, den <> 0 -> exists W,
    mapM (fun row => mapM (fun v => ndiv (n:=RNum) v den) row) (mesh2 (N:=RNum) (fun x y => - (k1 * x + k2 * y + d)) X Y) = Ok W /\
    is_mesh (length ly) (length lx) W /\ forall i j, (i < length ly)%nat -> (j < length lx)%nat -> k1 * ent X i j + k2 * ent Y i j + den * ent W i j + d = 0).
  { intros k1 k2 den Hd. destruct (mesh2_R (fun x y => - (k1 * x + k2 * y + d)) _ _ X Y MX MY) as [M2 E2].
    destruct (mesh_div_R den _ _ _ Hd M2) as (W & EW & MW & NW). exists W. split; auto. split; auto.
    intros i j Hi Hj. rewrite NW, E2 by auto. field. auto. }
  rn. unfold Reqb. destruct (Req_EM_T c 0) as [Hc|Hc]; cbn [negb].
  - destruct (Req_EM_T b 0) as [Hb|Hb]; cbn [negb].
    + destruct (K b c a) as (W & -> & MW & EW); [tauto|]. cbn [bind]. exists W, X, Y. split; auto. split; auto. split; auto. split; auto.
      intros i j Hi Hj. destruct (GE' i j Hi Hj) as [EX EY]. split; [apply S; rewrite <- (EW i j) by auto; subst; ring|]. split; [tauto|]. split; [tauto|]. auto.
    + destruct (K a c b) as (W & -> & MW & EW); [tauto|]. cbn [bind]. exists X, W, Y. split; auto. split; auto. split; auto. split; auto.
      intros i j Hi Hj. destruct (GE' i j Hi Hj) as [EX EY]. split; [apply S; rewrite <- (EW i j) by auto; subst; ring|]. split; [tauto|]. split; [auto|]. tauto.
  - destruct (K a b c) as (W & -> & MW & EW); [auto|]. cbn [bind]. exists X, Y, W. split; auto. split; auto. split; auto. split; auto.
    intros i j Hi Hj. destruct (GE' i j Hi Hj) as [EX EY]. split; [apply S; rewrite <- (EW i j) by auto; ring|]. split; [auto|]. split; tauto.
Qed.
Print Assumptions C42_mesh_on_plane.

(** to_points enumerates exactly the mesh. *)
Theorem C42_to_points : forall (p n : pt) (pl : plane RNum) (lims_x lims_y : list R),
  plane_new (N:=RNum) p n = Ok pl -> (length p = 2 \/ length p = 3)%nat -> lims_x <> [] -> lims_y <> [] ->
  exists X Y Z ps, plane_to_mesh pl lims_x lims_y = Ok (X, Y, Z) /\ plane_to_points pl lims_x lims_y = Ok ps /\
    length ps = (length lims_y * length lims_x)%nat /\
    (forall q, In q ps <-> exists i j, (i < length lims_y)%nat /\ (j < length lims_x)%nat /\ q = [ent X i j; ent Y i j; ent Z i j]) /\
    (forall q, In q ps -> on_plane (pad_to 3 p) (pad_to 3 n) q).
Proof.
  intros p n pl lx ly H L Hx Hy. destruct (C42_mesh_on_plane p n pl lx ly H L) as (X & Y & Z & E & MX & MY & MZ & S).
  assert (0 < length lx)%nat by (destruct lx; [contradiction|simpl; lia]). assert (0 < length ly)%nat by (destruct ly; [contradiction|simpl; lia]).
  destruct (mesh_to_points_spec _ _ X Y Z MX MY MZ) as (Lp & F & N).
  exists X, Y, Z, (mesh_to_points (N:=RNum) X Y Z). split; auto. split; [unfold plane_to_points; rewrite E; eapply to_points_gen_R; eauto|]. split; auto.
  assert (I : forall q, In q (mesh_to_points (N:=RNum) X Y Z) <-> exists i j, (i < length ly)%nat /\ (j < length lx)%nat /\ q = [ent X i j; ent Y i j; ent Z i j]).
  { apply (mesh_in _ _ _ (fun i j => [ent X i j; ent Y i j; ent Z i j])); auto. }
  split; auto. intros q Hq. apply I in Hq as (i & j & Hi & Hj & ->). apply S; auto.
Qed.
Print Assumptions C42_to_points.

(** The docstring says the plane's point is the origin of the limits.  When the normal has no
    z-component the grid ignores the point's z-coordinate: with default limits the plane's point need
    not even be within the mesh's bounding box. *)
Theorem C42_point_is_origin_refuted : exists (pl : plane RNum) (X Y Z : list pt),
  plane_new (N:=RNum) [0; 0; 5] [1; 0; 0] = Ok pl /\ plane_to_mesh pl [-1; 1] [-1; 1] = Ok (X, Y, Z) /\
  forall i j, (i < 2)%nat -> (j < 2)%nat -> ent Z i j <= 1 /\ nth 2 (pl_point pl) 0 = 5.
Proof.
  assert (K : pv_ok [0; 0; 5] [1; 0; 0]) by (split; [reflexivity|split; [intro Z; inversion Z; lra|discriminate]]).
  destruct (C42_mesh_on_plane [0; 0; 5] [1; 0; 0] _ [-1; 1] [-1; 1] (plane_new_R _ _ K)) as (X & Y & Z & E & _ & _ & _ & S); [simpl; lia|].
  exists (MkPlane (N:=RNum) [0; 0; 5] [1; 0; 0]), X, Y, Z. split; [apply plane_new_R; auto|]. split; auto.
  intros i j Hi Hj. split; [|reflexivity]. destruct (S i j) as (_ & _ & _ & Q); auto. destruct Q as [_ ->]; auto.
  simpl. destruct i as [|[|i]]; simpl; try lia; lra.
Qed.
Print Assumptions C42_point_is_origin_refuted.
Theorem C42_to_mesh_low_high_dim : forall (p n : pt) (pl : plane RNum) (lx ly : list R), plane_new (N:=RNum) p n = Ok pl ->
  (length p <> 2)%nat -> (length p <> 3)%nat -> exists m, plane_to_mesh pl lx ly = Raise (ValueError m).
Proof.
  intros p n pl lx ly H L2 L3. destruct (Nat.le_gt_cases (length p) 3) as [K|K].
  - destruct (C35_cartesian p n pl H K) as (a & b & c & d & E & _). apply plane_new_inv in H as (-> & L & _ & Hp).
    destruct p as [|x [|y p]]; [contradiction| |simpl in *; lia]. unfold plane_to_mesh. rewrite E. cbn [bind pl_point]. eexists; reflexivity.
  - apply plane_new_inv in H as (-> & _). unfold plane_to_mesh. rewrite C35_cartesian_high_dim by auto. eexists; reflexivity.
Qed.
Print Assumptions C42_to_mesh_low_high_dim.
Example C42_nonvacuous : exists pl, plane_new (N:=RNum) [1; 1] [2; 3] = Ok pl.
Proof. eexists. apply plane_new_R; split; [reflexivity|split; [intro Z; inversion Z; lra|discriminate]]. Qed.
