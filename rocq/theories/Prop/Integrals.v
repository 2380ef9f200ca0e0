(** * Property C52: circumference, area, surface area, volume are the integrals they claim to be *)
From Coq Require Import String Reals List ZArith Lra Lia Psatz Bool.
From Coquelicot Require Import Coquelicot.
From Verif.Model Require Import Outcome Num Instances Numpy BaseArray Vector Points Functions Line Plane Sphere Cylinder.
From Verif.Spec Require Import Geometry Tolerance Mesh Linalg.
From Verif.Proof Require Import VecAlg Bridge Arrays Vectors Points Lines Cylinders.
From Verif.Prop Require Import Balls Spheres.
Import ListNotations.
Local Open Scope R_scope.

Lemma is_RInt_of_derive (F f : R -> R) (a b : R) : (forall x, is_derive F x (f x)) -> (forall x, continuous f x) -> is_RInt f a b (F b - F a).
Proof. intros HF Hf. apply (is_RInt_derive F f a b); intros; auto. Qed.

(** Area of a disc as the integral of its vertical chords. *)
Lemma chord_integral r : 0 < r -> is_RInt (fun x => 2 * sqrt (r * r - x * x)) (- r) r (PI * (r * r)).
Proof.
  intro Hr. assert (Cf : forall x, continuous (fun x => 2 * sqrt (r * r - x * x)) x).
  { intro x. apply (continuous_comp (fun x => sqrt (r * r - x * x)) (fun y => 2 * y)); [|apply (ex_derive_continuous (fun y => 2 * y)); auto_derive; auto].
    apply (continuous_comp (fun x => r * r - x * x) sqrt); [apply (ex_derive_continuous (fun x => r * r - x * x)); auto_derive; auto|apply continuous_sqrt]. }
  assert (K : is_RInt (fun t => scal (r * cos t) (2 * sqrt (r * r - (r * sin t) * (r * sin t)))) (- (PI / 2)) (PI / 2)
     (RInt (fun x => 2 * sqrt (r * r - x * x)) (r * sin (- (PI / 2))) (r * sin (PI / 2)))).
  { apply (is_RInt_comp (fun x => 2 * sqrt (r * r - x * x)) (fun t => r * sin t) (fun t => r * cos t)).
    - intros; apply Cf.
    - intros t _. split; [auto_derive; auto; ring|]. apply (ex_derive_continuous (fun t => r * cos t)); auto_derive; auto. }
  rewrite sin_neg, sin_PI2 in K. replace (r * - (1)) with (- r) in K by ring. replace (r * 1) with r in K by ring.
  assert (K2 : is_RInt (fun t => scal (r * cos t) (2 * sqrt (r * r - (r * sin t) * (r * sin t)))) (- (PI / 2)) (PI / 2) (PI * (r * r))).
  { set (F := fun t => r * r * (t + sin t * cos t)).
    replace (PI * (r * r)) with (F (PI / 2) - F (- (PI / 2))).
    2:{ unfold F. rewrite sin_neg, cos_neg, sin_PI2, cos_PI2. field. }
    apply (is_RInt_ext (fun t => r * r * (1 + (cos t * cos t - sin t * sin t)))).
    - intros t Ht. rewrite Rmin_left, Rmax_right in Ht by (pose proof PI_RGT_0; lra). assert (0 <= cos t) by (apply cos_ge_0; lra).
      assert (Q : sin t * sin t + cos t * cos t = 1) by (pose proof (sin2_cos2 t) as T; exact T).
      replace (r * r - r * sin t * (r * sin t)) with ((r * cos t) * (r * cos t)).
      + rewrite sqrt_square by (apply Rmult_le_pos; lra). unfold scal. simpl. unfold mult. simpl. replace 1 with (sin t * sin t + cos t * cos t) at 1. ring.
      + transitivity (r * r * (sin t * sin t + cos t * cos t) - r * sin t * (r * sin t)); [ring|rewrite Q; ring].
    - apply is_RInt_of_derive.
      + intro t. unfold F. auto_derive; auto. ring.
      + intro t. apply (ex_derive_continuous (fun t => r * r * (1 + (cos t * cos t - sin t * sin t)))). auto_derive. auto. }
  assert (E : RInt (fun x => 2 * sqrt (r * r - x * x)) (- r) r = PI * (r * r)) by (rewrite <- (is_RInt_unique _ _ _ _ K); apply is_RInt_unique; exact K2).
  rewrite <- E. apply (RInt_correct (V:=R_CompleteNormedModule)). apply ex_RInt_continuous. intros; apply Cf.
Qed.

Section Measures.
(** Circle: area is the integral of the chord lengths; the circumference is the derivative of the area with respect to
    the radius and the length of the boundary curve (r cos t, r sin t), 0 <= t <= 2 pi (integral of its speed). *)
Theorem C52_circle : forall (p : pt) (r : R) c, circle_new (N:=RNum) p r = Ok c ->
  is_RInt (fun x => 2 * sqrt (r * r - x * x)) (- r) r (circle_area RTrig c) /\
  is_RInt (fun t => sqrt ((Derive (fun t => r * cos t) t) ^ 2 + (Derive (fun t => r * sin t) t) ^ 2)) 0 (2 * PI) (circle_circumference RTrig c) /\
  is_derive (fun s => circle_area RTrig (MkBall (N:=RNum) p s)) r (circle_circumference RTrig c) /\
  0 < circle_area RTrig c /\ 0 < circle_circumference RTrig c.
Proof.
  intros p r c Hc. apply C45_construction in Hc as (-> & Hr & L). unfold circle_area, circle_circumference. cbn [c_radius tpi RTrig]. rops. pose proof PI_RGT_0.
  split; [apply chord_integral; auto|]. split; [|split; [|split]].
  - apply (is_RInt_ext (fun _ => r)).
    + intros t _. assert (D1 : Derive (fun t : R => r * cos t) t = r * - sin t) by (apply is_derive_unique; auto_derive; auto; ring).
      assert (D2 : Derive (fun t : R => r * sin t) t = r * cos t) by (apply is_derive_unique; auto_derive; auto; ring). rewrite D1, D2.
      replace ((r * - sin t) ^ 2 + (r * cos t) ^ 2) with (r * r).
      * symmetry. apply sqrt_square. lra.
      * assert (Q : sin t * sin t + cos t * cos t = 1) by (pose proof (sin2_cos2 t) as T; exact T). transitivity (r * r * (sin t * sin t + cos t * cos t)); [rewrite Q; ring|ring].
    + replace (2 * PI * r) with (scal (2 * PI - 0) r) by (unfold scal; simpl; unfold mult; simpl; ring). apply (is_RInt_const 0 (2 * PI) r).
  - auto_derive; auto. ring.
  - apply Rmult_lt_0_compat; auto. nra.
  - nra.
Qed.
Print Assumptions C52_circle.

(** Sphere: the volume is the integral of the areas of the horizontal slices (circles of radius sqrt (r^2 - z^2)), the
    surface area is the derivative of the volume with respect to the radius and the integral over the polar angle of the
    circumference of the parallel times the arc element r. *)
Theorem C52_sphere : forall (p : pt) (r : R) c, sphere_new (N:=RNum) p r = Ok c ->
  exists V, sphere_volume RTrig c = Ok V /\ 0 < V /\ 0 < sphere_surface_area RTrig c /\
  is_RInt (fun z => PI * (sqrt (r * r - z * z) * sqrt (r * r - z * z))) (- r) r V /\
  is_RInt (fun phi => 2 * PI * (r * sin phi) * r) 0 PI (sphere_surface_area RTrig c) /\
  (forall s, 0 < s -> exists Vs, sphere_volume RTrig (MkBall (N:=RNum) p s) = Ok Vs /\ Vs = 4 / 3 * PI * s ^ 3) /\
  is_derive (fun s => match sphere_volume RTrig (MkBall (N:=RNum) p s) with Ok v => v | _ => 0 end) r (sphere_surface_area RTrig c).
Proof.
  intros p r c Hc. apply C45_construction in Hc as (-> & Hr & L). unfold sphere_surface_area. cbn [c_radius tpi RTrig]. rops. pose proof PI_RGT_0.
  assert (E : forall s, sphere_volume RTrig (MkBall (N:=RNum) p s) = Ok (4 / 3 * PI * (s * s * s))).
  { intro s. unfold sphere_volume. cbn [c_radius tpi RTrig]. rops. rewrite ndiv_R by lra. reflexivity. }
  eexists. split; [apply E|]. assert (0 < r * r * r) by (apply Rmult_lt_0_compat; nra). split; [apply Rmult_lt_0_compat; nra|]. split; [apply Rmult_lt_0_compat; nra|]. split; [|split; [|split]].
  - apply (is_RInt_ext (fun z => PI * (r * r - z * z))).
    + intros z Hz. rewrite Rmin_left, Rmax_right in Hz by lra. rewrite sqrt_sqrt; auto. nra.
    + set (F := fun z => PI * (r * r * z - z * z * z / 3)). replace (4 / 3 * PI * (r * r * r)) with (F r - F (- r)) by (unfold F; field).
      apply is_RInt_of_derive; [intro z; unfold F; auto_derive; auto; field|intro z; apply (ex_derive_continuous (fun z => PI * (r * r - z * z))); auto_derive; auto].
  - set (F := fun t => - (2 * PI * r * r) * cos t). replace (4 * PI * (r * r)) with (F PI - F 0) by (unfold F; rewrite cos_PI, cos_0; ring).
    apply is_RInt_of_derive; [intro z; unfold F; auto_derive; auto; ring|intro z; apply (ex_derive_continuous (fun phi => 2 * PI * (r * sin phi) * r)); auto_derive; auto].
  - intros s Hs. eexists. split; [apply E|]. ring.
  - apply (is_derive_ext (fun s => 4 / 3 * PI * (s * s * s))); [intro s; rewrite E; reflexivity|]. auto_derive; auto. field.
Qed.
Print Assumptions C52_sphere.

(** Cylinder: the length is the distance of the cap centres; the volume is the integral of the cap area along the axis, the
    lateral area the integral of the circumference along the axis, and the surface adds the two caps. *)
Theorem C52_cylinder : forall (p v : pt) (r : R) c k, cylinder_new (N:=RNum) p v r = Ok c -> circle_new (N:=RNum) [0; 0] r = Ok k ->
  cylinder_length c = dist p (add p v) /\ 0 < cylinder_length c /\
  is_RInt (fun _ => circle_area RTrig k) 0 (cylinder_length c) (cylinder_volume RTrig c) /\
  is_RInt (fun _ => circle_circumference RTrig k) 0 (cylinder_length c) (cylinder_lateral_surface_area RTrig c) /\
  cylinder_surface_area RTrig c = cylinder_lateral_surface_area RTrig c + 2 * circle_area RTrig k /\
  is_derive (fun s => cylinder_volume RTrig (MkCylinder (N:=RNum) p v s)) r (cylinder_lateral_surface_area RTrig c) /\
  0 < cylinder_volume RTrig c /\ 0 < cylinder_lateral_surface_area RTrig c < cylinder_surface_area RTrig c.
Proof.
  intros p v r c k Hc Hk. apply C45_construction in Hk as (-> & Hr & _).
  assert (Ec : c = MkCylinder (N:=RNum) p v r /\ ~ is_zero_vec v /\ length p = 3%nat /\ length v = 3%nat).
  { apply cylinder_new_iff in Hc as (-> & Lp & Lv & Hz & _). auto. }
  destruct Ec as (-> & Hz & Lp & Lv). unfold cylinder_volume, cylinder_surface_area, cylinder_lateral_surface_area, cylinder_length, circle_area, circle_circumference.
  cbn [cy_radius cy_vector c_radius tpi RTrig]. rops. rewrite !norm_raw_len. pose proof (len_pos v Hz) as Pv. pose proof PI_RGT_0 as Pp. set (h := len v) in *.
  split; [unfold h; rewrite dist_sym; unfold dist; rewrite sub_add_cancel by congruence; reflexivity|].
  split; auto. split; [|split; [|split; [|split; [|split]]]].
  - replace (PI * (r * r) * h) with (scal (h - 0) (PI * (r * r))) by (unfold scal; simpl; unfold mult; simpl; ring). apply (is_RInt_const 0 h (PI * (r * r))).
  - replace (2 * PI * r * h) with (scal (h - 0) (2 * PI * r)) by (unfold scal; simpl; unfold mult; simpl; ring). apply (is_RInt_const 0 h (2 * PI * r)).
  - ring.
  - auto_derive; auto. ring.
  - apply Rmult_lt_0_compat; auto. apply Rmult_lt_0_compat; nra.
  - assert (0 < 2 * PI * r * h) by (apply Rmult_lt_0_compat; auto; apply Rmult_lt_0_compat; lra). assert (0 < 2 * PI * (r * r)) by (apply Rmult_lt_0_compat; nra). lra.
Qed.
Print Assumptions C52_cylinder.

(** Scaling laws. *)
Theorem C52_scaling : forall (p v : pt) (r s : R), 
  circle_area RTrig (MkBall (N:=RNum) p (s * r)) = s ^ 2 * circle_area RTrig (MkBall (N:=RNum) p r) /\
  circle_circumference RTrig (MkBall (N:=RNum) p (s * r)) = s * circle_circumference RTrig (MkBall (N:=RNum) p r) /\
  sphere_surface_area RTrig (MkBall (N:=RNum) p (s * r)) = s ^ 2 * sphere_surface_area RTrig (MkBall (N:=RNum) p r) /\
  (exists V, sphere_volume RTrig (MkBall (N:=RNum) p r) = Ok V /\ sphere_volume RTrig (MkBall (N:=RNum) p (s * r)) = Ok (s ^ 3 * V)) /\
  (0 <= s -> cylinder_volume RTrig (MkCylinder (N:=RNum) p (scale s v) (s * r)) = s ^ 3 * cylinder_volume RTrig (MkCylinder (N:=RNum) p v r) /\
    cylinder_surface_area RTrig (MkCylinder (N:=RNum) p (scale s v) (s * r)) = s ^ 2 * cylinder_surface_area RTrig (MkCylinder (N:=RNum) p v r)).
Proof.
  intros p v r s. unfold cylinder_volume, cylinder_surface_area, cylinder_lateral_surface_area, cylinder_length, circle_area, circle_circumference, sphere_surface_area, sphere_volume.
  cbn [cy_radius cy_vector c_radius tpi RTrig]. rops. rewrite !norm_raw_len.
  split; [ring|]. split; [ring|]. split; [ring|]. split.
  - rewrite ndiv_R by lra. cbn [bind]. eexists. split; [reflexivity|]. f_equal. ring.
  - intro Hs. rewrite len_scale, Rabs_right by lra. split; ring.
Qed.
Print Assumptions C52_scaling.
End Measures.
Example C52_nonvacuous : exists c k s, cylinder_new (N:=RNum) [0; 0; 0] [0; 0; 2] 3 = Ok c /\ circle_new (N:=RNum) [0; 0] 3 = Ok k /\ sphere_new (N:=RNum) [0; 0; 0] 3 = Ok s.
Proof.
  assert (Hz : ~ is_zero_vec [0; 0; 2]) by (intro Z; inversion Z; lra).
  do 3 eexists. split; [|split; [apply C45_construction; split; [reflexivity|split; auto; lra]|apply C45_construction; split; [reflexivity|split; auto; lra]]].
  apply cylinder_new_R. split; auto. split; auto. split; auto. lra.
Qed.
