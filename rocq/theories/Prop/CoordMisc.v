(** * Property C75, concluded: signed area, intersection of two planes, what is not invariant, a concrete change of coordinates *)
From Coq Require Import String Reals List ZArith Lra Lia Psatz Bool.
From Verif.Model Require Import Outcome Num Instances Numpy BaseArray Vector Points Functions Line Plane LineSegment Sphere Triangle Cylinder.
From Verif.Spec Require Import Geometry Tolerance Mesh Linalg Triangle Similarity Measure Cylinder.
From Verif.Proof Require Import VecAlg Bridge Arrays Vectors Points Lines Lincomb Svd SvdExists Ranks Singular Similarity SimRank Triangles Cylinders.
From Verif.Prop Require Import Arrays Vectors Points Planes LinePairs Fits Segments Balls Spheres Triangles Measure Cylinders Coordinates CoordShapes CoordBalls CoordTriangles CoordCylinders.
Import ListNotations.
Local Open Scope R_scope.

(** ** Points.area_signed: multiplied by s^2, and by -1 exactly for the maps that reverse orientation. *)
Theorem C75_area_signed : forall (s : R) (T : pt -> pt), similarity 2 2 s T ->
  exists sg, (sg = 1 \/ sg = -1) /\ forall rows, points_ok 2 rows -> area_signed (N:=RNum) (map T rows) = res_map (Rmult (sg * (s * s))) (area_signed (N:=RNum) rows).
Proof.
  intros s T H. pose proof (sim_pos 2 2 s T H) as P. set (V := vmap 2 T).
  assert (L1 : length (V [1; 0]) = 2%nat) by (apply (vmap_len 2 2 s T H); auto). assert (L2 : length (V [0; 1]) = 2%nat) by (apply (vmap_len 2 2 s T H); auto).
  assert (L0 : length (T (origin 2)) = 2%nat) by (apply (sim_len 2 2 s T H); auto).
  pose proof (vmap_dot 2 2 s T H [1; 0] [1; 0] eq_refl eq_refl) as D1. pose proof (vmap_dot 2 2 s T H [0; 1] [0; 1] eq_refl eq_refl) as D2. pose proof (vmap_dot 2 2 s T H [1; 0] [0; 1] eq_refl eq_refl) as D3. fold V in D1, D2, D3.
  destruct (V [1; 0]) as [|a [|c [|]]] eqn:E1; try discriminate L1. destruct (V [0; 1]) as [|b [|d [|]]] eqn:E2; try discriminate L2. destruct (T (origin 2)) as [|u [|w [|]]] eqn:E0; try discriminate L0.
  cbn [dot] in D1, D2, D3.
  assert (Ex : forall x y, T [x; y] = affine2 a b c d u w [x; y]).
  { intros x y. rewrite (sim_origin 2 2 s T H [x; y] eq_refl). fold V. assert (E : [x; y] = add (scale x [1; 0]) (scale y [0; 1])) by (unfold add, scale; cbn; veq).
    rewrite E at 1. unfold V. rewrite (vmap_add 2 2 s T H), !(vmap_scale 2 2 s T H) by reflexivity. fold V. rewrite E1, E2, E0. unfold affine2, px, py. cbn. veq. }
  assert (Dt : (a * d - b * c) * (a * d - b * c) = s * s * (s * s)) by nra.
  assert (K : exists sg, (sg = 1 \/ sg = -1) /\ a * d - b * c = sg * (s * s)).
  { assert (F : (a * d - b * c - s * s) * (a * d - b * c + s * s) = 0) by nra. apply Rmult_integral in F as [F|F]; [exists 1|exists (-1)]; split; auto; lra. }
  destruct K as (sg & Hsg & Ed). exists sg. split; auto. intros rows Hr.
  assert (Em : map T rows = map (affine2 a b c d u w) rows).
  { apply map_ext_in. intros z Hz. destruct Hr as (_ & _ & F). apply (proj1 (Forall_forall _ _) F) in Hz. destruct z as [|x [|y [|]]]; try discriminate Hz. apply Ex. }
  destruct (area_signed (N:=RNum) rows) as [r|e|] eqn:Ea.
  - rewrite Em, (C64_affine a b c d u w rows r Hr Ea), Ed. reflexivity.
  - destruct (le_lt_dec 3 (length rows)) as [G|G]; [rewrite C64_shoelace in Ea by auto; discriminate|].
    pose proof (sim_points_ok 2 2 s T H rows Hr) as Hr'. pose proof Hr as (N0 & _ & F). pose proof Hr' as (N1 & _ & F1).
    unfold area_signed in *. rewrite (points_of_R rows 2) in Ea by (auto; lia). rewrite (points_of_R (map T rows) 2) by (auto; lia). cbn [bind] in *. rewrite (dim2_ok 2) in Ea by auto. rewrite (dim2_ok 2) by auto.
    cbn [Nat.eqb negb] in *. rn. rewrite map_length. assert (Q : Nat.ltb (length rows) 3 = true) by (apply Nat.ltb_lt; lia). rn. rewrite Q in *. injection Ea as <-. reflexivity.
  - exfalso. destruct (le_lt_dec 3 (length rows)) as [G|G]; [rewrite C64_shoelace in Ea by auto; discriminate|]. destruct (C64_rejects 2 rows Hr (or_intror G)) as (msg & Q). rewrite Q in Ea. discriminate.
Qed.
Print Assumptions C75_area_signed.

(** ** Plane.intersect_plane: the line is carried along as a set of points (the point stored in it is the one nearest to the
    origin, and its direction is the cross product of the normals, neither of which is carried along). *)
Theorem C75_intersect_plane : forall (s : R) (T : pt -> pt) (LA LA' : linalg RNum) (t : tol RNum) (p d q e : pt) (pl pl' : plane RNum),
  similarity 3 3 s T -> solve_correct LA -> solve_correct LA' -> 0 <= rel_tol t -> abs_tol t = 0 ->
  plane_new (N:=RNum) p d = Ok pl -> plane_new (N:=RNum) q e = Ok pl' -> length p = 3%nat -> length q = 3%nat ->
  (exists l l', plane_intersect_plane LA t pl pl' = Ok l /\ plane_intersect_plane LA' t (move_plane 3 T pl) (move_plane 3 T pl') = Ok l' /\
     forall x, length x = 3%nat -> (on_line (l_point l') (l_dir l') (T x) <-> on_line (l_point l) (l_dir l) x)) \/
  ((exists msg, plane_intersect_plane LA t pl pl' = Raise (ValueError msg)) /\
   (exists msg, plane_intersect_plane LA' t (move_plane 3 T pl) (move_plane 3 T pl') = Raise (ValueError msg))).
Proof.
  intros s T LA LA' t p d q e pl pl' H HL HL' Hr Ha Hp Hq Lp Lq. pose proof Hp as Hp0. pose proof Hq as Hq0.
  destruct (C75_planes 3 3 s T H pos3 t p d p pl Hp Lp Lp) as (Mp & _). destruct (C75_planes 3 3 s T H pos3 t q e q pl' Hq Lq Lq) as (Mq & _).
  apply plane_new_inv in Hp as (_ & Op). apply plane_new_inv in Hq as (_ & Oq). pose proof Op as (Ld & Zd & _). pose proof Oq as (Le & Ze & _).
  assert (Ld' : length d = 3%nat) by congruence. assert (Le' : length e = 3%nat) by congruence.
  destruct (C75_vectors 3 3 s T H pos3 t d e Ha Ld' Le') as (_ & _ & _ & _ & _ & _ & Epar & _).
  assert (TP : length (T p) = 3%nat) by (apply (sim_len 3 3 s T H); auto). assert (TQ : length (T q) = 3%nat) by (apply (sim_len 3 3 s T H); auto).
  destruct (is_parallel t d e) as [[|]| |] eqn:E.
  - right. split; [exact (proj1 (C40_rejections LA t p d q e pl pl' Hr (Req_le_sym _ _ Ha) Hp0 Hq0) E)|exact (proj1 (C40_rejections LA' t _ _ _ _ _ _ Hr (Req_le_sym _ _ Ha) Mp Mq) Epar)].
  - left. destruct (C40_intersect_plane LA t p d q e pl pl' HL Hr (Req_le_sym _ _ Ha) Hp0 Hq0 Lp Lq E) as (l & El & _ & Sl & _).
    destruct (C40_intersect_plane LA' t _ _ _ _ _ _ HL' Hr (Req_le_sym _ _ Ha) Mp Mq TP TQ Epar) as (l' & El' & _ & Sl' & _).
    exists l, l'. split; auto. split; auto. intros x Lx. rewrite Sl, Sl', !(sim_on_plane 3 3 s T H) by auto. tauto.
  - exfalso. destruct (is_parallel_R t d e) as (b & Eb & _); [split; lra|congruence|apply not_zero_nonempty; auto|congruence].
  - exfalso. destruct (is_parallel_R t d e) as (b & Eb & _); [split; lra|congruence|apply not_zero_nonempty; auto|congruence].
Qed.
Print Assumptions C75_intersect_plane.

(** ** What depends on the position of the origin: LineSegment compares its endpoints relatively to their coordinates, so moving both
    endpoints by the same vector can turn an accepted segment into a rejected one. *)
Theorem C75_segment_construction_refuted : similarity 1 1 1 (fun x => add x [10000000000]) /\
  (exists sg, segment_new (N:=RNum) [0] [1] = Ok sg) /\ (exists msg, segment_new (N:=RNum) (add [0] [10000000000]) (add [1] [10000000000]) = Raise (ValueError msg)).
Proof.
  split; [split; [lra|split]|split].
  - intros x L. rewrite length_add. rewrite L. reflexivity.
  - intros x y Lx Ly. rewrite Rmult_1_l. destruct x as [|x [|]]; try discriminate Lx. destruct y as [|y [|]]; try discriminate Ly. unfold dist. apply (f_equal len). cbn. veq.
  - assert (N0 : [0] <> []) by discriminate. exists (MkSegment [0] [1]). apply (proj1 (C43_construction [0] [1] N0 eq_refl)). split; [reflexivity|]. intro F. inversion F as [|? ? ? ? C _]; subst. unfold close, rel_default in C.
    rewrite Rabs_R0 in C. rewrite Rabs_left in C by lra. rewrite Rabs_right in C by lra. unfold Rmax in C. repeat destruct Rle_dec; lra.
  - cbn [add]. assert (N0 : [0 + 10000000000] <> []) by discriminate. apply (proj1 (proj2 (C43_construction [0 + 10000000000] [1 + 10000000000] N0 eq_refl))). constructor; [|constructor]. unfold close, rel_default.
    rewrite (Rabs_left (_ - _)) by lra. rewrite !Rabs_right by lra. unfold Rmax. repeat destruct Rle_dec; lra.
Qed.
Print Assumptions C75_segment_construction_refuted.

(** ** A quarter-free rotation by the 3-4-5 angle, combined with doubling of the unit of length and a translation; and the embedding of the
    plane into space at height 7.  Both are changes of coordinates in the sense of the theorems above, and a triangle is really moved by them. *)
Definition turn345 (x : pt) : pt := [2 * (3 / 5 * nth 0 x 0 - 4 / 5 * nth 1 x 0) + 10; 2 * (4 / 5 * nth 0 x 0 + 3 / 5 * nth 1 x 0) - 20].
Definition lift7 (x : pt) : pt := [nth 0 x 0; nth 1 x 0; 7].
Definition mirror3 (x : pt) : pt := [3 * nth 0 x 0 + 1; 3 * nth 2 x 0; 3 * nth 1 x 0 - 5].
Lemma turn345_sim : similarity 2 2 2 turn345.
Proof.
  split; [lra|]. split; [reflexivity|]. intros x y Lx Ly. destruct x as [|x1 [|x2 [|]]]; try discriminate Lx. destruct y as [|y1 [|y2 [|]]]; try discriminate Ly.
  apply Rsqr_inj; [apply dist_nonneg|apply Rmult_le_pos; [lra|apply dist_nonneg]|]. unfold Rsqr. rewrite dist_sq. replace (2 * dist [x1; x2] [y1; y2] * (2 * dist [x1; x2] [y1; y2])) with (4 * (dist [x1; x2] [y1; y2] * dist [x1; x2] [y1; y2])) by ring.
  rewrite dist_sq. cbn. lra.
Qed.
Lemma lift7_sim : similarity 2 3 1 lift7.
Proof.
  split; [lra|]. split; [reflexivity|]. intros x y Lx Ly. destruct x as [|x1 [|x2 [|]]]; try discriminate Lx. destruct y as [|y1 [|y2 [|]]]; try discriminate Ly.
  rewrite Rmult_1_l. unfold dist, len. apply (f_equal sqrt). cbn. ring.
Qed.
Lemma mirror3_sim : similarity 3 3 3 mirror3.
Proof.
  split; [lra|]. split; [reflexivity|]. intros x y Lx Ly. destruct x as [|x1 [|x2 [|x3 [|]]]]; try discriminate Lx. destruct y as [|y1 [|y2 [|y3 [|]]]]; try discriminate Ly.
  apply Rsqr_inj; [apply dist_nonneg|apply Rmult_le_pos; [lra|apply dist_nonneg]|]. unfold Rsqr. rewrite dist_sq. replace (3 * dist [x1; x2; x3] [y1; y2; y3] * (3 * dist [x1; x2; x3] [y1; y2; y3])) with (9 * (dist [x1; x2; x3] [y1; y2; y3] * dist [x1; x2; x3] [y1; y2; y3])) by ring.
  rewrite dist_sq. cbn. ring.
Qed.
Theorem C75_nonvacuous : similarity 2 2 2 turn345 /\ similarity 2 3 1 lift7 /\ similarity 3 3 3 mirror3 /\
  map turn345 [[0; 0]; [5; 0]; [0; 5]] = [[10; -20]; [16; -12]; [2; -14]] /\
  area_signed (N:=RNum) (map turn345 [[0; 0]; [5; 0]; [0; 5]]) = Ok 50 /\ area_signed (N:=RNum) [[0; 0]; [5; 0]; [0; 5]] = Ok (25 / 2) /\
  (forall LA : linalg RNum, svd_correct LA -> exists t, triangle_new LA [0; 0] [1; 0] [0; 1] = Ok t /\ triangle_area (move_triangle turn345 t) = Ok 2 /\
     triangle_area (move_triangle lift7 t) = Ok (1 / 2)) /\
  (exists c, cylinder_new (N:=RNum) [1; 2; 3] [0; 4; 0] 2 = Ok c /\ cylinder_volume (N:=RNum) RTrig (move_cylinder 3 mirror3 c) = 432 * PI /\
     cylinder_is_point_within (move_cylinder 3 mirror3 c) (mirror3 [2; 4; 4]) = Ok true).
Proof.
  assert (Sh : forall rows, points_ok 2 rows -> (3 <= length rows)%nat -> area_signed (N:=RNum) rows = Ok (shoelace rows)) by apply C64_shoelace.
  split; [exact turn345_sim|]. split; [exact lift7_sim|]. split; [exact mirror3_sim|].
  assert (Em : map turn345 [[0; 0]; [5; 0]; [0; 5]] = [[10; -20]; [16; -12]; [2; -14]]) by (unfold turn345; cbn; repeat (f_equal; try lra)).
  assert (E1 : area_signed (N:=RNum) [[0; 0]; [5; 0]; [0; 5]] = Ok (25 / 2)).
  { rewrite Sh; [|split; [discriminate|split; [lia|repeat constructor]]|simpl; lia]. apply (f_equal (@Ok R)). unfold shoelace, turn, px, py. cbn. lra. }
  split; [exact Em|]. split; [|split; [exact E1|split]].
  - rewrite Em, Sh; [|split; [discriminate|split; [lia|repeat constructor]]|simpl; lia]. apply (f_equal (@Ok R)). unfold shoelace, turn, px, py. cbn. lra.
  - intros LA HL.
    assert (G : gram (sub [1; 0] [0; 0]) (sub [0; 1] [0; 0]) = 1) by (unfold gram; cbn; ring).
    assert (Tr : tri [0; 0] [1; 0] [0; 1]) by (split; [discriminate|split; [reflexivity|split; [reflexivity|rewrite G; lra]]]).
    exists (MkTriangle (N:=RNum) [0; 0] [1; 0] [0; 1]). pose proof (corner_triangle LA HL) as Ht. split; [exact Ht|].
    assert (Ar : triangle_area (N:=RNum) (MkTriangle (N:=RNum) [0; 0] [1; 0] [0; 1]) = Ok (1 / 2)).
    { rewrite triangle_area_R by (auto; simpl; lia). apply (f_equal (@Ok R)). rewrite G, sqrt_1. lra. }
    split.
    + rewrite (C75_triangle_area 2 2 2 turn345 turn345_sim (Nat.lt_0_succ 1) LA _ _ _ _ HL Ht eq_refl) by lia. rewrite Ar. unfold res_map; cbn [bind]. apply (f_equal (@Ok R)). lra.
    + rewrite (C75_triangle_area 2 3 1 lift7 lift7_sim (Nat.lt_0_succ 1) LA _ _ _ _ HL Ht eq_refl) by lia. rewrite Ar. unfold res_map; cbn [bind]. apply (f_equal (@Ok R)). lra.
  - assert (K : cyl_ok [1; 2; 3] [0; 4; 0] 2) by (split; [reflexivity|split; [reflexivity|split; [|lra]]]; intro Z; injection Z as Z; lra).
    pose proof (cylinder_new_R _ _ _ K) as Hc. exists (MkCylinder [1; 2; 3] [0; 4; 0] 2). split; [exact Hc|].
    destruct (C75_cylinders 3 mirror3 mirror3_sim [1; 2; 3] [0; 4; 0] [2; 4; 4] 2 _ Hc eq_refl) as (_ & _ & _ & Ev & Ew). split.
    + rewrite Ev. unfold cylinder_volume, cylinder_length. cbn [cy_radius cy_vector]. rewrite norm_raw_len. assert (El : len [0; 4; 0] = 4) by (unfold len; cbn; replace (0 * 0 + (4 * 4 + (0 * 0 + 0))) with (4 * 4) by ring; apply sqrt_square; lra).
      rewrite El. cbn [tpi RTrig]. rops. ring.
    + rewrite Ew. destruct (C59_is_point_within [1; 2; 3] [0; 4; 0] [2; 4; 4] 2 _ Hc eq_refl) as (b & -> & Hb). f_equal. apply Hb. apply in_cylinder_iff; auto.
      assert (Er : rej [0; 4; 0] (sub [2; 4; 4] [1; 2; 3]) = [1; 0; 1]) by (unfold rej; cbn; repeat (f_equal; try (field; lra))). rewrite Er. cbn. lra.
Qed.
Print Assumptions C75_nonvacuous.
