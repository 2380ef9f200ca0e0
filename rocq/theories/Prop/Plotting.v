(** * Property C67: plotting *)
From Coq Require Import String Reals List ZArith Lra Lia Psatz Bool.
From Verif.Model Require Import Outcome Num Instances Numpy BaseArray Vector Points Functions Line Plane LineSegment Sphere Triangle Cylinder Plotter.
From Verif.Spec Require Import Geometry Tolerance Mesh Linalg Plotting.
From Verif.Proof Require Import VecAlg Bridge Arrays Vectors Points Lines Mesh Lincomb Svd SvdExists Ranks Cylinders Triangles.
From Verif.Prop Require Import Arrays Vectors Directions Points Lines Planes Meshes Ranks LinePairs Segments Balls Spheres Triangles Cylinders CylMesh.
Import ListNotations.
Local Open Scope R_scope.

(** What one drawing call shows: a scatter plot its markers, a line plot its polyline, an arrow its
    shaft, a circle its outline, a surface its grid points. *)
Definition shows (d : draw RNum) (x : pt) : Prop :=
  match d with
  | Scatter2 xs ys => marker [xs; ys] x
  | Scatter3 xs ys zs => marker [xs; ys; zs] x
  | Plot2 xs ys => polyline [xs; ys] x
  | Plot3 xs ys zs => polyline [xs; ys; zs] x
  | Arrow a b da db => on_segment [a; b] [a + da; b + db] x
  | CircleArtist c r => on_sphere c r x
  | Surface X Y Z => exists n m i j, is_mesh n m X /\ is_mesh n m Y /\ is_mesh n m Z /\ (i < n)%nat /\ (j < m)%nat /\ x = [ent X i j; ent Y i j; ent Z i j]
  end.
Definition drawing_shows (ds : list (draw RNum)) (x : pt) : Prop := exists d, In d ds /\ shows d x.

(** The objects the public constructors build. *)
Inductive built (LA : linalg RNum) : obj RNum -> Prop :=
| b_point v p : point_of (N:=RNum) v = Ok p -> built LA (OPoint p)
| b_points v rows : points_of (N:=RNum) v = Ok rows -> built LA (OPoints rows)
| b_vector v p : vector_of (N:=RNum) v = Ok p -> built LA (OVector p)
| b_line p d l : line_new (N:=RNum) p d = Ok l -> built LA (OLine l)
| b_segment a b s : segment_new (N:=RNum) a b = Ok s -> built LA (OSegment s)
| b_plane p n pl : plane_new (N:=RNum) p n = Ok pl -> built LA (OPlane pl)
| b_circle p r c : circle_new (N:=RNum) p r = Ok c -> built LA (OCircle c)
| b_sphere p r c : sphere_new (N:=RNum) p r = Ok c -> built LA (OSphere c)
| b_triangle a b c t : triangle_new LA a b c = Ok t -> built LA (OTriangle t)
| b_cylinder p v r c : cylinder_new (N:=RNum) p v r = Ok c -> built LA (OCylinder c).

(** The dimension of an object: that of its points. *)
Definition has_dim (o : obj RNum) (n : nat) : Prop :=
  match o with
  | OPoint p => length p = n | OPoints rows => Forall (fun r => length r = n) rows /\ rows <> [] | OVector v => length v = n
  | OLine l => length (l_point l) = n | OSegment s => length (s_a s) = n | OPlane p => length (pl_point p) = n
  | OCircle c => length (c_point c) = n | OSphere c => length (c_point c) = n | OTriangle t => length (t_a t) = n
  | OCylinder c => length (cy_point c) = n
  end.
Lemma has_dim_obj o n : has_dim o n -> obj_dim o = n.
Proof.
  destruct o; cbn [has_dim obj_dim]; auto. intros (F & N). destruct rows; [contradiction|]. inversion F; subst. reflexivity.
Qed.

(** plotter() returns a callable exactly for dimensions 2 and 3, except for planes in 2D; line segments never. *)
Theorem C67_dispatch : forall LA T p o n, built LA o -> has_dim o n ->
  (forall s, o = OSegment s -> exists m, obj_plotter T p o = Raise (AttributeError m)) /\
  ((forall s, o <> OSegment s) ->
     ((n = 3%nat \/ (n = 2%nat /\ forall pl, o <> OPlane pl)) <-> exists f, obj_plotter T p o = Ok f) /\
     (n = 2%nat -> (exists pl, o = OPlane pl) -> obj_plotter T p o = Raise (ValueError "The object cannot be plotted in 2D.")) /\
     (n <> 2%nat -> n <> 3%nat -> obj_plotter T p o = Raise (ValueError "The dimension must be 2 or 3."))).
Proof.
  intros LA T p o n B Hn. apply has_dim_obj in Hn as Hd. unfold obj_plotter. rewrite Hd. split; [intros s ->; eexists; reflexivity|]. intro NS.
  unfold plotter. assert (E : sets_dimension (obj_cls o) = true) by (destruct o; auto; exfalso; eapply NS; reflexivity). rewrite E. cbn [negb].
  split; [|split].
  - destruct (Nat.eqb_spec n 2) as [->|N2]; [|destruct (Nat.eqb_spec n 3) as [->|N3]].
    + split.
      * intros [|(_ & NP)]; [discriminate|]. destruct B; cbn; eauto; try (exfalso; eapply NP; reflexivity).
        -- apply sphere_inv in H as (-> & _ & L). cbn in Hn. rn. exfalso; lia.
        -- apply cylinder_new_iff in H as (-> & L & _). cbn in Hn. rn. exfalso; lia.
      * intros (f & H). right. split; auto. intros pl ->. cbn in H. discriminate.
    + split; [intros _|auto]. destruct B; cbn; eauto. apply circle_inv in H as (-> & _ & x & y & ->). cbn in Hn. discriminate.
    + split; [intros [|(? & _)]; lia|intros (f & H); discriminate].
  - intros -> (pl & ->). reflexivity.
  - intros N2 N3. rewrite (proj2 (Nat.eqb_neq _ _) N2), (proj2 (Nat.eqb_neq _ _) N3). reflexivity.
Qed.
Print Assumptions C67_dispatch.

Lemma mapM_get_R rows k j : Forall (fun r : pt => length r = k) rows -> (j < k)%nat -> mapM (fun r => get (N:=RNum) r j) rows = Ok (map (fun r => nth j r 0) rows).
Proof.
  intros F H. induction F as [|r rows L F IH]; auto. cbn [mapM map]. unfold get at 1. rewrite (nth_error_nth' r 0) by (rn; lia). cbn [bind]. rewrite IH. reflexivity.
Qed.
Lemma nth_col j i (rows : list pt) : (i < length rows)%nat -> nth i (map (fun r => nth j r 0) rows) 0 = nth j (nth i rows []) 0.
Proof. revert i. induction rows; intros i H; simpl in H; [lia|]. destruct i; auto. apply IHrows. lia. Qed.
Lemma marker_rows2 rows x : Forall (fun r : pt => length r = 2%nat) rows -> (marker [map (fun r => nth 0 r 0) rows; map (fun r => nth 1 r 0) rows] x <-> In x rows).
Proof.
  intro F. split.
  - intros (i & Hi & ->). specialize (Hi _ (or_introl eq_refl)). rewrite map_length in Hi. cbn [map].
    rewrite !nth_col by auto.
    pose proof (nth_In rows [] Hi) as HI. rewrite Forall_forall in F. specialize (F _ HI). destruct (nth i rows []) as [|a [|b [|]]]; try discriminate. exact HI.
  - intro HI. destruct (In_nth rows x [] HI) as (i & Hi & E). exists i. split; [intros c [<-|[<-|[]]]; rewrite map_length; auto|]. cbn [map].
    rewrite !nth_col by auto. rewrite E.
    rewrite Forall_forall in F. specialize (F _ HI). destruct x as [|a [|b [|]]]; try discriminate. reflexivity.
Qed.
Lemma marker_rows3 rows x : Forall (fun r : pt => length r = 3%nat) rows -> (marker [map (fun r => nth 0 r 0) rows; map (fun r => nth 1 r 0) rows; map (fun r => nth 2 r 0) rows] x <-> In x rows).
Proof.
  intro F. split.
  - intros (i & Hi & ->). specialize (Hi _ (or_introl eq_refl)). rewrite map_length in Hi. cbn [map].
    rewrite !nth_col by auto.
    pose proof (nth_In rows [] Hi) as HI. rewrite Forall_forall in F. specialize (F _ HI). destruct (nth i rows []) as [|a [|b [|c [|]]]]; try discriminate. exact HI.
  - intro HI. destruct (In_nth rows x [] HI) as (i & Hi & E). exists i. split; [intros c [<-|[<-|[<-|[]]]]; rewrite map_length; auto|]. cbn [map].
    rewrite !nth_col by auto. rewrite E.
    rewrite Forall_forall in F. specialize (F _ HI). destruct x as [|a [|b [|c [|]]]]; try discriminate. reflexivity.
Qed.
Lemma scatter2_R rows : Forall (fun r : pt => length r = 2%nat) rows -> exists d, scatter_2d (N:=RNum) rows = Ok d /\ forall x, shows d x <-> In x rows.
Proof. intro F. unfold scatter_2d. rewrite !(mapM_get_R rows 2) by (auto; lia). cbn [bind]. eexists; split; [reflexivity|]. intro x. apply marker_rows2; auto. Qed.
Lemma scatter3_R rows : Forall (fun r : pt => length r = 3%nat) rows -> exists d, scatter_3d (N:=RNum) true rows = Ok d /\ forall x, shows d x <-> In x rows.
Proof. intro F. unfold scatter_3d. cbn [negb]. rewrite !(mapM_get_R rows 3) by (auto; lia). cbn [bind]. eexists; split; [reflexivity|]. intro x. apply marker_rows3; auto. Qed.
Lemma polyline_two cols x : cols <> [] -> Forall (fun c => length c = 2%nat) cols ->
  (polyline cols x <-> on_segment (map (fun c => nth 0 c 0) cols) (map (fun c => nth 1 c 0) cols) x).
Proof.
  intros N F. rewrite Forall_forall in F. split.
  - intros (i & Hi & H). destruct cols as [|c cols]; [contradiction|]. specialize (Hi c (or_introl eq_refl)). rewrite (F c (or_introl eq_refl)) in Hi. assert (i = 0%nat) by lia. subst i. exact H.
  - intro H. exists 0%nat. split; auto. intros c Hc. rewrite (F c Hc). lia.
Qed.
Lemma connect2_R (a b : pt) : length a = 2%nat -> length b = 2%nat -> exists d, connect_points_2d (N:=RNum) a b = Ok d /\ forall x, shows d x <-> on_segment a b x.
Proof.
  intros La Lb. d2. eexists; split; [reflexivity|]. intro x9. cbn [shows]. rewrite polyline_two by (first [discriminate|repeat constructor]). reflexivity.
Qed.
Lemma connect3_R (a b : pt) : length a = 3%nat -> length b = 3%nat -> exists d, connect_points_3d (N:=RNum) true a b = Ok d /\ forall x, shows d x <-> on_segment a b x.
Proof.
  intros La Lb. d3. eexists; split; [reflexivity|]. intro x9. cbn [shows]. rewrite polyline_two by (first [discriminate|repeat constructor]). reflexivity.
Qed.
Lemma one_Ok (r : res (draw RNum)) d P : r = Ok d -> (forall x, shows d x <-> P x) -> exists ds, one r = Ok ds /\ forall x, drawing_shows ds x <-> P x.
Proof.
  intros -> H. exists [d]. split; [reflexivity|]. intro x. rewrite <- H. split; [intros (e & [<-|[]] & S); auto|intro S; exists d; simpl; auto].
Qed.
Lemma param_segment (p d : pt) t1 t2 x : length p = length d ->
  (on_segment (add p (scale t1 d)) (add p (scale t2 d)) x <-> exists t, between t1 t2 t /\ x = add p (scale t d)).
Proof.
  intro L. split.
  - intros (s & Hs & ->). exists (t1 + s * (t2 - t1)). split; [unfold between; destruct (Rle_dec t1 t2); [left|right]; nra|].
    apply pt_ext; [len|]; intros i _; repeat rewrite ?nth_add, ?nth_scale, ?nth_sub by len; ring.
  - intros (t & Ht & ->). destruct (Req_EM_T t1 t2) as [<-|N].
    + exists 0. split; [lra|]. assert (t = t1) by (destruct Ht; lra). subst t. apply pt_ext; [len|]; intros i _; repeat rewrite ?nth_add, ?nth_scale, ?nth_sub by len; ring.
    + exists ((t - t1) / (t2 - t1)). split.
      * destruct Ht as [Ht|Ht].
        -- split; [apply Rmult_le_pos; [lra|left; apply Rinv_0_lt_compat; lra]|apply (Rmult_le_reg_r (t2 - t1)); [lra|]; field_simplify; lra].
        -- replace ((t - t1) / (t2 - t1)) with ((t1 - t) / (t1 - t2)) by (field; lra). split; [apply Rmult_le_pos; [lra|left; apply Rinv_0_lt_compat; lra]|apply (Rmult_le_reg_r (t1 - t2)); [lra|]; field_simplify; lra].
      * apply pt_ext; [len|]; intros i _; repeat rewrite ?nth_add, ?nth_scale, ?nth_sub by len; field; lra.
Qed.

(** ** What is shown *)
(** The point the arrow of a vector starts at. *)
Definition start (p : opts RNum) (n : nat) : pt := match o_point p with None => origin n | Some q => q end.
(** The picture of an object of dimension [n]: points as themselves; a vector as the segment from the
    start to start + scalar * vector; a line as its part between the parameters t_1 and t_2; a segment and a
    circle as themselves; a triangle as its vertices, or its three (parametrised) sides. *)
Definition picture (p : opts RNum) (n : nat) (o : obj RNum) (x : pt) : Prop :=
  match o with
  | OPoint q => x = q
  | OPoints rows => In x rows
  | OVector v => on_segment (start p n) (add (start p n) (scale (o_scalar p) v)) x
  | OLine l => exists t : R, between (o_t1 p) (o_t2 p) t /\ x = add (l_point l) (scale t (l_dir l))
  | OSegment s => on_segment (s_a s) (s_b s) x
  | OCircle c => on_sphere (c_point c) (c_radius c) x
  | OTriangle t =>
      (o_part p = "points"%string /\ In x [t_a t; t_b t; t_c t]) \/
      (o_part p = "lines"%string /\ exists s : R, between (o_t1 p) (o_t2 p) s /\
         In x [add (t_b t) (scale s (sub (t_c t) (t_b t))); add (t_c t) (scale s (sub (t_a t) (t_c t))); add (t_a t) (scale s (sub (t_b t) (t_a t)))])
  | OPlane _ | OSphere _ | OCylinder _ => False
  end.

Lemma triangle_plot_R LA (a b c : pt) t p (pp : vec RNum -> res (draw RNum)) (pl : line RNum -> res (draw RNum)) : svd_correct LA -> triangle_new LA a b c = Ok t ->
  (forall q : pt, length q = length a -> exists d, pp q = Ok d /\ forall x, shows d x <-> In x [q]) ->
  (forall (q e : pt), length q = length a -> length q = length e -> exists d, pl (MkLine q e) = Ok d /\ forall x, shows d x <-> exists s : R, between (o_t1 p) (o_t2 p) s /\ x = add q (scale s e)) ->
  exists ds, triangle_plot RTrig p pp pl t = Ok ds /\ forall x, drawing_shows ds x <-> picture p (length a) (OTriangle t) x.
Proof.
  intros HL H Hp Hl. destruct (C53_accessors LA a b c t HL H) as (Av & As & _). destruct (triangle_tri LA a b c t HL H) as (-> & Tr). pose proof Tr as (Na & Lb & Lc & _).
  unfold triangle_plot. cbn [picture t_a t_b t_c]. destruct (String.eqb_spec (o_part p) "points") as [E|N1]; [|destruct (String.eqb_spec (o_part p) "lines") as [E|N2]].
  - destruct (Hp a eq_refl) as (d1 & E1 & S1). destruct (Hp b Lb) as (d2 & E2 & S2). destruct (Hp c Lc) as (d3 & E3 & S3).
    exists [d1; d2; d3]. split.
    + change (triangle_multiple RTrig _ "point" _) with (Ok [VPoint a; VPoint b; VPoint c] : res (list (tri_value RNum))). cbn [bind mapM]. rewrite E1, E2, E3. reflexivity.
    + intro x. split.
      * intros (d & [<-|[<-|[<-|[]]]] & S); left; split; auto; [apply S1 in S|apply S2 in S|apply S3 in S]; destruct S as [<-|[]]; simpl; auto.
      * intros [(_ & [<-|[<-|[<-|[]]]])|(E' & _)]; [exists d1; split; [simpl; auto|apply S1; simpl; auto]|exists d2; split; [simpl; auto|apply S2; simpl; auto]|exists d3; split; [simpl; auto|apply S3; simpl; auto]|rewrite E in E'; discriminate].
  - assert (K : triangle_multiple RTrig (MkTriangle (N:=RNum) a b c) "line" ["a"; "b"; "c"]%string = Ok [VLine (MkLine b (sub c b)); VLine (MkLine c (sub a c)); VLine (MkLine a (sub b a))]).
    { apply C53_multiple. repeat constructor; eexists; (split; [|reflexivity]).
      - apply (As "a"%string a b c). left; auto.
      - apply (As "b"%string b c a). right; left; auto.
      - apply (As "c"%string c a b). right; right; auto. }
    destruct (Hl b (sub c b)) as (d1 & E1 & S1); [auto|len|]. destruct (Hl c (sub a c)) as (d2 & E2 & S2); [auto|len|]. destruct (Hl a (sub b a)) as (d3 & E3 & S3); [auto|len|].
    exists [d1; d2; d3]. split.
    + rewrite K. cbn [bind mapM]. rewrite E1, E2, E3. reflexivity.
    + intro x. split.
      * intros (d & [<-|[<-|[<-|[]]]] & S); right; split; auto; [apply S1 in S|apply S2 in S|apply S3 in S]; destruct S as (s & Hs & ->); exists s; simpl; auto.
      * intros [(E' & _)|(_ & s & Hs & [<-|[<-|[<-|[]]]])]; [rewrite E in E'; discriminate|exists d1; split; [simpl; auto|apply S1; eauto]|exists d2; split; [simpl; auto|apply S2; eauto]|exists d3; split; [simpl; auto|apply S3; eauto]].
  - exists []. split; [reflexivity|]. intro x. split; [intros (d & [] & _)|intros [(E & _)|(E & _)]; contradiction].
Qed.

(** Applied to any axes, the callable of a 2D object draws exactly its picture. *)
Theorem C67_shows_2d : forall LA p o, svd_correct LA -> built LA o -> has_dim o 2 -> (forall s, o <> OSegment s) -> (forall pl, o <> OPlane pl) ->
  length (start p 2) = 2%nat ->
  exists f ds, obj_plotter RTrig p o = Ok f /\ (forall ax, f ax = Ok ds) /\ forall x, drawing_shows ds x <-> picture p 2 o x.
Proof.
  intros LA p o HL B Hd NS NP Hs. destruct (C67_dispatch LA RTrig p o 2 B Hd) as (_ & D). destruct (D NS) as ((D1 & _) & _). destruct (D1 (or_intror (conj eq_refl NP))) as (f & Ef). clear D D1.
  assert (K : forall ax, f ax = obj_plot_2d RTrig p o). { apply has_dim_obj in Hd as Ho. unfold obj_plotter in Ef. rewrite Ho in Ef. unfold plotter in Ef. cbn [Nat.eqb] in Ef. destruct (negb (sets_dimension (obj_cls o))), (negb (has_plot_2d (obj_cls o))); try discriminate. cbn [bind] in Ef. injection Ef as <-. reflexivity. }
  assert (G : exists ds, obj_plot_2d RTrig p o = Ok ds /\ forall x, drawing_shows ds x <-> picture p 2 o x); [|destruct G as (ds & E1 & E2); exists f, ds; split; auto; split; [intro; rewrite K; auto|auto]].
  clear f Ef K. destruct B; cbn [obj_plot_2d picture has_dim] in *.
  - destruct (scatter2_R [p0]) as (d & E & S); [repeat constructor; auto|]. eapply one_Ok; eauto. intro x. rewrite S. simpl. intuition congruence.
  - destruct (scatter2_R rows) as (d & E & S); [apply Hd|]. eapply one_Ok; eauto.
  - unfold vector_plot_2d. clear H. destruct p0 as [|v1 [|v2 [|]]]; try discriminate. unfold start in *.
    destruct (o_point p) as [q|].
    + destruct q as [|x [|y [|]]]; try discriminate. eapply one_Ok; [reflexivity|]. intro z. reflexivity.
    + eapply one_Ok; [reflexivity|]. intro z. reflexivity.
  - apply line_new_iff in H as (-> & L & _). cbn [l_point l_dir] in *. unfold line_plot_2d. rewrite !line_to_point_R by auto. cbn [bind].
    destruct (connect2_R (add p0 (scale (o_t1 p) d)) (add p0 (scale (o_t2 p) d))) as (dr & E & S); [len; rn; lia..|]. eapply one_Ok; eauto. intro x. rewrite S. apply param_segment; auto.
  - exfalso. eapply NS; reflexivity.
  - exfalso. eapply NP; reflexivity.
  - eexists; split; [reflexivity|]. intro x. split; [intros (d & [<-|[]] & S); exact S|intro S; eexists; split; [left; reflexivity|exact S]].
  - apply sphere_inv in H as (-> & _ & L). cbn in Hd. rn. exfalso; lia.
  - pose proof (triangle_tri LA a b c t HL H) as (-> & Tr). cbn [t_a] in Hd. 
    pose proof (triangle_plot_R LA a b c (MkTriangle (N:=RNum) a b c) p) as TP. rn. rewrite Hd in TP. apply TP; auto; clear TP.
    + intros q Lq. apply scatter2_R. repeat constructor; auto.
    + intros q e Lq Le. unfold line_plot_2d. rewrite !line_to_point_R by auto. cbn [bind].
      destruct (connect2_R (add q (scale (o_t1 p) e)) (add q (scale (o_t2 p) e))) as (dr & E & S); [len; rn; lia..|]. exists dr. split; auto. intro x. rewrite S. apply param_segment; auto.
  - apply cylinder_new_iff in H as (-> & L & _). cbn in Hd. rn. exfalso; lia.
Qed.
Print Assumptions C67_shows_2d.

(** Applied to a 3D axes, the callable of a 3D object that is not a surface draws exactly its picture;
    applied to a 2D axes it raises ValueError. *)
Theorem C67_shows_3d : forall LA p o, svd_correct LA -> built LA o -> has_dim o 3 -> (forall s, o <> OSegment s) ->
  (forall x, o <> OPlane x) -> (forall x, o <> OSphere x) -> (forall x, o <> OCylinder x) -> length (start p 3) = 3%nat ->
  exists f ds, obj_plotter RTrig p o = Ok f /\ f true = Ok ds /\ (forall x, drawing_shows ds x <-> picture p 3 o x) /\
    (ds <> [] -> f false = Raise (ValueError "Axis must be instance of class Axes3D.")).
Proof.
  intros LA p o HL B Hd NS N1 N2 N3 Hs. destruct (C67_dispatch LA RTrig p o 3 B Hd) as (_ & D). destruct (D NS) as ((D1 & _) & _). destruct (D1 (or_introl eq_refl)) as (f & Ef). clear D D1.
  assert (K : forall ax, f ax = obj_plot_3d RTrig p ax o). { apply has_dim_obj in Hd as Ho. unfold obj_plotter in Ef. rewrite Ho in Ef. unfold plotter in Ef. cbn [Nat.eqb] in Ef. destruct (negb (sets_dimension (obj_cls o))), (negb (has_plot_3d (obj_cls o))); try discriminate. cbn [bind] in Ef. injection Ef as <-. reflexivity. }
  assert (G : exists ds, obj_plot_3d RTrig p true o = Ok ds /\ (forall x, drawing_shows ds x <-> picture p 3 o x) /\ (ds <> [] -> obj_plot_3d RTrig p false o = Raise err_axes3d)); [|destruct G as (ds & E1 & E2 & E3); exists f, ds; split; auto; split; [rewrite K; auto|split; auto; intro Z; rewrite K; apply E3; auto]].
  clear f Ef K.
  assert (W : forall (r : bool -> res (draw RNum)) P, (exists ds, one (r true) = Ok ds /\ forall x, drawing_shows ds x <-> P x) -> r false = Raise err_axes3d -> exists ds, one (r true) = Ok ds /\ (forall x, drawing_shows ds x <-> P x) /\ (ds <> [] -> one (r false) = Raise err_axes3d)).
  { intros r P (ds & E1 & E2) E3. exists ds. split; auto. split; auto. intros _. rewrite E3. reflexivity. }
  destruct B; cbn [obj_plot_3d picture has_dim] in *.
  - apply (W (fun ax => scatter_3d ax [p0])); [|reflexivity]. destruct (scatter3_R [p0]) as (d & E & S); [repeat constructor; auto|]. eapply one_Ok; eauto. intro x. rewrite S. simpl. intuition congruence.
  - apply (W (fun ax => scatter_3d ax rows)); [|reflexivity]. destruct (scatter3_R rows) as (d & E & S); [apply Hd|]. eapply one_Ok; eauto.
  - clear H. apply (W (fun ax => vector_plot_3d p ax p0)).
    + unfold vector_plot_3d. assert (Es : match o_point p with Some q => q | None => [n0; n0; n0] end = start p 3) by (unfold start; destruct (o_point p); reflexivity). rewrite Es.
      rewrite bcast_eq by (rn; len; lia). cbn [bind]. change (vscale (N:=RNum)) with scale. change (@nadd RNum) with Rplus. rewrite map2_add. destruct (connect3_R (start p 3) (add (start p 3) (scale (o_scalar p) p0))) as (dr & E & S); auto; [len; rn; lia|]. eapply one_Ok; [exact E|exact S].
    + unfold vector_plot_3d. assert (Es : match o_point p with Some q => q | None => [n0; n0; n0] end = start p 3) by (unfold start; destruct (o_point p); reflexivity). rewrite Es.
      rewrite bcast_eq by (rn; len; lia). reflexivity.
  - apply line_new_iff in H as (-> & L & _). cbn [l_point l_dir] in *. apply (W (fun ax => line_plot_3d p ax (MkLine p0 d))); unfold line_plot_3d; rewrite !line_to_point_R by auto; cbn [bind]; [|reflexivity].
    destruct (connect3_R (add p0 (scale (o_t1 p) d)) (add p0 (scale (o_t2 p) d))) as (dr & E & S); [len; rn; lia..|]. eapply one_Ok; eauto. intro x. rewrite S. apply param_segment; auto.
  - exfalso. eapply NS; reflexivity.
  - exfalso. eapply N1; reflexivity.
  - apply circle_inv in H as (-> & _ & x & y & ->). discriminate.
  - exfalso. eapply N2; reflexivity.
  - pose proof (triangle_tri LA a b c t HL H) as (-> & Tr). cbn [t_a] in Hd. pose proof Tr as (Na & Lb & Lc & _).
    pose proof (triangle_plot_R LA a b c (MkTriangle (N:=RNum) a b c) p (fun q => scatter_3d true [q]) (line_plot_3d p true) HL H) as TP. rn. rewrite Hd in TP.
    destruct TP as (ds & E1 & E2).
    + intros q Lq. apply scatter3_R. repeat constructor; auto.
    + intros q e Lq Le. unfold line_plot_3d. rewrite !line_to_point_R by auto. cbn [bind].
      destruct (connect3_R (add q (scale (o_t1 p) e)) (add q (scale (o_t2 p) e))) as (dr & E & S); [len; rn; lia..|]. exists dr. split; auto. intro x. rewrite S. apply param_segment; auto.
    + exists ds. split; auto. split; auto. intro Z. destruct (C53_accessors LA a b c _ HL H) as (_ & As & _). unfold triangle_plot in *. destruct (String.eqb (o_part p) "points"); [reflexivity|]. destruct (String.eqb (o_part p) "lines").
      * assert (Ka : triangle_line (N:=RNum) (MkTriangle a b c) "a" = Ok (MkLine b (sub c b))) by (apply (As "a"%string a b c); left; auto).
        apply bind_ok_inv in E1 as (vs & Ev & _). rewrite Ev. apply C53_multiple in Ev. inversion_clear Ev as [|? v ? vs' Hv _]. destruct Hv as (l & El & ->). rewrite Ka in El. injection El as <-.
        cbn [bind mapM]. unfold line_plot_3d at 1. rewrite !line_to_point_R by len. reflexivity.
      * exfalso. apply Z. injection E1 as <-. reflexivity.
  - exfalso. eapply N3; reflexivity.
Qed.
Print Assumptions C67_shows_3d.

Lemma surface_shows n m (X Y Z : list pt) (P : pt -> Prop) : is_mesh n m X -> is_mesh n m Y -> is_mesh n m Z ->
  (forall i j, (i < n)%nat -> (j < m)%nat -> P [ent X i j; ent Y i j; ent Z i j]) -> forall x, drawing_shows [Surface X Y Z] x -> P x.
Proof.
  intros MX MY MZ H x (d & [<-|[]] & n' & m' & i & j & MX' & _ & _ & Hi & Hj & ->). apply H.
  - destruct MX as (L & _), MX' as (L' & _). lia.
  - destruct MX as (L & F), MX' as (L' & F'). rewrite Forall_forall in F, F'. assert (Hi' : (i < length X)%nat) by lia. pose proof (nth_In X [] Hi') as HI. rewrite <- (F _ HI), (F' _ HI). auto.
Qed.
(** Planes, spheres and cylinders are drawn as a grid of points of the surface (the grids themselves are C42,
    C51, C62); a 2D axes raises AttributeError. *)
Theorem C67_surfaces : forall p,
  (forall (q n : pt) pl, plane_new (N:=RNum) q n = Ok pl -> length q = 3%nat -> exists f ds, obj_plotter RTrig p (OPlane pl) = Ok f /\ f true = Ok ds /\
     (exists m, f false = Raise (AttributeError m)) /\ forall x, drawing_shows ds x -> on_plane q n x) /\
  (forall (q : pt) (r : R) c, sphere_new (N:=RNum) q r = Ok c -> exists f ds, obj_plotter RTrig p (OSphere c) = Ok f /\ f true = Ok ds /\
     (exists m, f false = Raise (AttributeError m)) /\ forall x, drawing_shows ds x -> on_sphere q r x) /\
  (forall (q v : pt) (r : R) c, cylinder_new (N:=RNum) q v r = Ok c -> exists f ds, obj_plotter RTrig p (OCylinder c) = Ok f /\ f true = Ok ds /\
     (exists m, f false = Raise (AttributeError m)) /\ forall x, drawing_shows ds x -> min_dist (on_line q v) x r /\ in_cylinder q v r x).
Proof.
  intro p. split; [|split].
  - intros q n pl H L3. destruct (C42_mesh_on_plane q n pl (o_limx p) (o_limy p) H (or_intror L3)) as (X & Y & Z & E & MX & MY & MZ & S). apply plane_new_inv in H as (-> & Lq & _).
    unfold obj_plotter. cbn [obj_cls obj_dim]. unfold plane_dim, dim1. cbn [pl_point]. rn. rewrite L3. do 2 eexists. split; [reflexivity|]. cbn [obj_plot_3d]. rewrite E. split; [reflexivity|]. split; [eexists; reflexivity|].
    eapply surface_shows; eauto. intros i j Hi Hj. destruct (S i j Hi Hj) as (S1 & _). rewrite !pad_to_id in S1 by (rn; lia). exact S1.
  - intros q r c H. destruct (C51_mesh_on_sphere q r c (o_angles p) H) as (X & Y & Z & E & MX & MY & MZ & S & _). apply sphere_inv in H as (-> & _ & L3).
    unfold obj_plotter. cbn [obj_cls obj_dim]. unfold dim1. cbn [c_point]. rn. rewrite L3. do 2 eexists. split; [reflexivity|]. cbn [obj_plot_3d]. rewrite E. split; [reflexivity|]. split; [eexists; reflexivity|].
    eapply surface_shows; eauto.
  - intros q v r c H. destruct (C62_mesh_on_surface q v r c (o_along p) (o_angles p) H) as (X & Y & Z & E & MX & MY & MZ & S & _). apply cylinder_new_iff in H as (-> & L3 & _).
    unfold obj_plotter. cbn [obj_cls obj_dim]. unfold dim1. cbn [cy_point]. rn. rewrite L3. do 2 eexists. split; [reflexivity|]. cbn [obj_plot_3d]. rewrite E. split; [reflexivity|]. split; [eexists; reflexivity|].
    eapply surface_shows; eauto.
Qed.
Print Assumptions C67_surfaces.

(** The plot methods of a LineSegment themselves work. *)
Theorem C67_segment_methods : forall p (a b : pt) s, segment_new (N:=RNum) a b = Ok s -> length a = length b ->
  (length a = 2%nat -> exists ds, obj_plot_2d RTrig p (OSegment s) = Ok ds /\ forall x, drawing_shows ds x <-> on_segment a b x) /\
  (length a = 3%nat -> exists ds, obj_plot_3d RTrig p true (OSegment s) = Ok ds /\ forall x, drawing_shows ds x <-> on_segment a b x) /\
  (exists m, obj_plotter RTrig p (OSegment s) = Raise (AttributeError m)).
Proof.
  intros p a b s H L. apply segment_ne in H as (-> & _); auto. cbn [obj_plot_2d obj_plot_3d s_a s_b]. split; [|split].
  - intro L2. destruct (connect2_R a b) as (d & E & S); [auto|rn; lia|]. eapply one_Ok; eauto.
  - intro L2. destruct (connect3_R a b) as (d & E & S); [auto|rn; lia|]. eapply one_Ok; eauto.
  - eexists; reflexivity.
Qed.
Print Assumptions C67_segment_methods.

(** skspatial.plotting.plot_2d / plot_3d: several callables draw, in order, what each draws alone; the first
    failing one stops with its own exception. *)
Theorem C67_plot_all : forall ax (fs : list (bool -> res (list (draw RNum)))),
  (forall dss, Forall2 (fun f ds => f ax = Ok ds) fs dss ->
     exists ds, plot_all ax fs = Ok ds /\ forall x, drawing_shows ds x <-> exists ds', In ds' dss /\ drawing_shows ds' x) /\
  (forall pre f post dss e, fs = pre ++ f :: post -> Forall2 (fun f ds => f ax = Ok ds) pre dss -> f ax = Raise e -> plot_all ax fs = Raise e).
Proof.
  intros ax fs. split.
  - intros dss H. unfold plot_all. rewrite (proj2 (mapM_Ok_iff _ _ _) H). exists (concat dss). split; [reflexivity|]. intro x. split.
    + intros (d & Hd & S). apply in_concat in Hd as (ds & H1 & H2). exists ds. split; auto. exists d; auto.
    + intros (ds & H1 & d & H2 & S). exists d. split; auto. apply in_concat. eauto.
  - intros pre f post dss e -> H E. unfold plot_all. rewrite (mapM_first_raise (fun f => f ax) pre f post dss e H E). reflexivity.
Qed.
Print Assumptions C67_plot_all.
(** Without keyword arguments: a line is drawn from its point to its point plus its direction, a vector from the
    origin, a triangle as its three vertices; a plane as the 2 x 2 grid one unit to each side of its point, a sphere as
    its 30 x 30 grid, a cylinder as its grid of 30 angles times 100 heights. *)
Theorem C67_defaults : forall LA o n, svd_correct LA -> built LA o -> has_dim o n -> n = 2%nat \/ n = 3%nat ->
  (forall P : pt -> Prop,
     (exists l, o = OLine l /\ forall x, P x <-> on_segment (l_point l) (add (l_point l) (l_dir l)) x) \/
     (exists v : pt, o = OVector v /\ forall x, P x <-> on_segment (origin n) v x) \/
     (exists t, o = OTriangle t /\ forall x, P x <-> x = t_a t \/ x = t_b t \/ x = t_c t) ->
     exists f ds, obj_plotter RTrig default_opts o = Ok f /\ f true = Ok ds /\ forall x, drawing_shows ds x <-> P x) /\
  (n = 3%nat -> forall X Y Z,
     (exists pl, o = OPlane pl /\ plane_to_mesh pl [-1; 1] [-1; 1] = Ok (X, Y, Z)) \/
     (exists c, o = OSphere c /\ sphere_to_mesh RTrig c 30 = Ok (X, Y, Z)) \/
     (exists c, o = OCylinder c /\ cylinder_to_mesh RTrig c 100 30 = Ok (X, Y, Z)) ->
     exists f, obj_plotter RTrig default_opts o = Ok f /\ f true = Ok [Surface X Y Z]).
Proof.
  intros LA o n HL B Hd Hn. split.
  - intros P HP.
    assert (G : exists f ds, obj_plotter RTrig default_opts o = Ok f /\ f true = Ok ds /\ forall x, drawing_shows ds x <-> picture default_opts n o x).
    { destruct Hn as [->| ->].
      - destruct (C67_shows_2d LA default_opts o HL B Hd) as (f & ds & E1 & E2 & E3).
        + intros s ->. destruct HP as [(? & E & _)|[(? & E & _)|(? & E & _)]]; discriminate.
        + intros s ->. destruct HP as [(? & E & _)|[(? & E & _)|(? & E & _)]]; discriminate.
        + reflexivity.
        + exists f, ds. split; auto.
      - destruct (C67_shows_3d LA default_opts o HL B Hd) as (f & ds & E1 & E2 & E3 & _); try (intros s ->; destruct HP as [(? & E & _)|[(? & E & _)|(? & E & _)]]; discriminate).
        + reflexivity.
        + exists f, ds. split; auto. }
    destruct G as (f & ds & E1 & E2 & E3). exists f, ds. split; auto. split; auto. intro x. rewrite E3. clear E1 E2 E3 f ds.
    destruct HP as [(l & -> & HP)|[(v & -> & HP)|(t & -> & HP)]]; rewrite HP; cbn [picture].
    + inversion B; subst. match goal with H : line_new _ _ = _ |- _ => apply line_new_iff in H as (-> & L & _) end. cbn [l_point l_dir]. unfold default_opts. cbn [o_t1 o_t2]. rops.
      rewrite <- param_segment by auto. rewrite scale_1, scale_0, add_origin_r by auto. reflexivity.
    + unfold start, default_opts. cbn [o_point o_scalar]. rops. cbn [has_dim] in Hd. rewrite scale_1, add_origin_l by auto. reflexivity.
    + unfold default_opts. cbn [o_part]. split; [intros [(_ & [H|[H|[H|[]]]])|(H & _)]; [left|right; left|right; right|discriminate]; auto|]. intros [H|[H|H]]; left; split; auto; rewrite H; cbn; auto.
  - intros -> X Y Z HP. apply has_dim_obj in Hd as Ho. unfold obj_plotter. rewrite Ho.
    destruct HP as [(pl & -> & E)|[(c & -> & E)|(c & -> & E)]]; (eexists; split; [reflexivity|]); cbn [obj_plot_3d]; unfold default_opts; cbn [o_limx o_limy o_angles o_along]; rops; try replace (Ropp 1) with (-1) by lra; rewrite E; reflexivity.
Qed.
Print Assumptions C67_defaults.
Example C67_nonvacuous : exists LA l, built LA (OLine l) /\ svd_correct LA /\ has_dim (OLine l) 3.
Proof.
  pose proof (proj1 ideal_linalg_correct) as HL. exists ideal_linalg, (MkLine (N:=RNum) [0; 0; 0] [1; 2; 3]). split; [|split; auto; reflexivity].
  eapply b_line. apply line_new_R; [reflexivity|]. intro Z. inversion Z; lra.
Qed.
