(** * Property C81: the text of an object is the constructor call that recreates it *)
From Coq Require Import String Ascii List Arith Lia ZArith Floats.
From Verif.Model Require Import Outcome Num Instances Numpy BaseArray Vector Points Functions Line Plane LineSegment Sphere Triangle Cylinder Plotter Repr.
From Verif.Spec Require Import Repr.
From Verif.Proof Require Import Bridge.
Import ListNotations.
Local Open Scope string_scope.

Lemma app_assoc_s a b c : (a ++ b) ++ c = a ++ (b ++ c).
Proof. induction a; simpl; congruence. Qed.
Lemma app_nil_s a : a ++ "" = a.
Proof. induction a; simpl; congruence. Qed.
Lemma app_char a c b : (a ++ String c "") ++ b = a ++ String c b.
Proof. rewrite app_assoc_s. reflexivity. Qed.
(** Reading over a closed text. *)
Lemma args_closed t : forall d cur rest, closed d t = true -> args cur d (t ++ rest) = args (cur ++ t) 0 rest.
Proof.
  induction t as [|c t IH]; intros d cur rest H; simpl in *.
  - apply Nat.eqb_eq in H. subst d. rewrite app_nil_s. reflexivity.
  - destruct (opening c); [rewrite (IH (S d)) by auto; rewrite app_char; reflexivity|].
    destruct (closing c); [destruct d; [discriminate|]; rewrite IH by auto; rewrite app_char; reflexivity|].
    destruct d; [|rewrite IH by auto; rewrite app_char; reflexivity].
    apply andb_prop in H as (H1 & H2). destruct (Ascii.eqb c ","); [discriminate|]. rewrite IH by auto. rewrite app_char. reflexivity.
Qed.
(** An argument [k=t] followed by the end or by the next argument. *)
Lemma args_last k t : closed 0 k = true -> closed 0 t = true -> args "" 0 (k ++ t ++ ")") = Some [k ++ t].
Proof. intros Hk Ht. rewrite args_closed by auto. rewrite args_closed by auto. reflexivity. Qed.
Lemma args_next k t rest : closed 0 k = true -> closed 0 t = true -> args "" 0 (k ++ t ++ ", " ++ rest) = option_map (cons (k ++ t)) (args "" 0 rest).
Proof. intros Hk Ht. rewrite args_closed by auto. rewrite args_closed by auto. reflexivity. Qed.

Section Printers.
Context {N : Num}.
Variable pv : string -> vec N -> string.
Variable pn : N -> string.
Hypothesis pv_closed : forall c v, closed 0 (pv c v) = true.
Hypothesis pn_closed : forall x, closed 0 (pn x) = true.

Lemma read_two (name k1 k2 t1 t2 : string) : cut "("%char (name ++ "(") = Some (name, "") -> closed 0 t1 = true -> closed 0 t2 = true ->
  closed 0 (k1 ++ "=") = true -> closed 0 (k2 ++ "=") = true -> (forall x, cut "="%char (k1 ++ "=" ++ x) = Some (k1, x)) -> (forall x, cut "="%char (k2 ++ "=" ++ x) = Some (k2, x)) ->
  (forall x, cut "("%char (name ++ "(" ++ x) = Some (name, x)) ->
  read (name ++ "(" ++ (k1 ++ "=") ++ t1 ++ ", " ++ (k2 ++ "=") ++ t2 ++ ")") = Some (name, [(k1, t1); (k2, t2)]).
Proof.
  intros _ H1 H2 C1 C2 E1 E2 En. unfold read. rewrite En. rewrite args_next by auto. rewrite args_last by auto. cbn [option_map].
  cbn [map all_some]. rewrite !app_assoc_s. rewrite E1, E2. reflexivity.
Qed.
Lemma read_three (name k1 k2 k3 t1 t2 t3 : string) : closed 0 t1 = true -> closed 0 t2 = true -> closed 0 t3 = true ->
  closed 0 (k1 ++ "=") = true -> closed 0 (k2 ++ "=") = true -> closed 0 (k3 ++ "=") = true ->
  (forall x, cut "="%char (k1 ++ "=" ++ x) = Some (k1, x)) -> (forall x, cut "="%char (k2 ++ "=" ++ x) = Some (k2, x)) -> (forall x, cut "="%char (k3 ++ "=" ++ x) = Some (k3, x)) ->
  (forall x, cut "("%char (name ++ "(" ++ x) = Some (name, x)) ->
  read (name ++ "(" ++ (k1 ++ "=") ++ t1 ++ ", " ++ (k2 ++ "=") ++ t2 ++ ", " ++ (k3 ++ "=") ++ t3 ++ ")") = Some (name, [(k1, t1); (k2, t2); (k3, t3)]).
Proof.
  intros H1 H2 H3 C1 C2 C3 E1 E2 E3 En. unfold read. rewrite En. rewrite !args_next by auto. rewrite args_last by auto. cbn [option_map].
  cbn [map all_some]. rewrite !app_assoc_s. rewrite E1, E2, E3. reflexivity.
Qed.

(** The text reads as a call of the object's class, one keyword argument per parameter. *)
Theorem C81_reads_as_call : forall o, composite o -> exists s, obj_repr pv pn o = Some s /\ read s = Some (class_name o, shown pv pn o).
Proof.
  intros o Ho. destruct o; cbn in Ho; try contradiction; eexists; (split; [reflexivity|]).
  - exact (read_two "Line" "point" "direction" _ _ eq_refl (pv_closed _ _) (pv_closed _ _) eq_refl eq_refl (fun _ => eq_refl) (fun _ => eq_refl) (fun _ => eq_refl)).
  - exact (read_two "LineSegment" "point_a" "point_b" _ _ eq_refl (pv_closed _ _) (pv_closed _ _) eq_refl eq_refl (fun _ => eq_refl) (fun _ => eq_refl) (fun _ => eq_refl)).
  - exact (read_two "Plane" "point" "normal" _ _ eq_refl (pv_closed _ _) (pv_closed _ _) eq_refl eq_refl (fun _ => eq_refl) (fun _ => eq_refl) (fun _ => eq_refl)).
  - exact (read_two "Circle" "point" "radius" _ _ eq_refl (pv_closed _ _) (pn_closed _) eq_refl eq_refl (fun _ => eq_refl) (fun _ => eq_refl) (fun _ => eq_refl)).
  - exact (read_two "Sphere" "point" "radius" _ _ eq_refl (pv_closed _ _) (pn_closed _) eq_refl eq_refl (fun _ => eq_refl) (fun _ => eq_refl) (fun _ => eq_refl)).
  - exact (read_three "Triangle" "point_a" "point_b" "point_c" _ _ _ (pv_closed _ _) (pv_closed _ _) (pv_closed _ _) eq_refl eq_refl eq_refl (fun _ => eq_refl) (fun _ => eq_refl) (fun _ => eq_refl) (fun _ => eq_refl)).
  - exact (read_three "Cylinder" "point" "vector" "radius" _ _ _ (pv_closed _ _) (pv_closed _ _) (pn_closed _) eq_refl eq_refl eq_refl (fun _ => eq_refl) (fun _ => eq_refl) (fun _ => eq_refl) (fun _ => eq_refl)).
Qed.

(** Objects shown by the same text are of one class and their attributes print alike; with printers that keep the value they are equal. *)
Theorem C81_same_text : forall o o', composite o -> composite o' -> obj_repr pv pn o = obj_repr pv pn o' ->
  obj_cls o = obj_cls o' /\ shown pv pn o = shown pv pn o'.
Proof.
  intros o o' Ho Ho' E. destruct (C81_reads_as_call o Ho) as (s & Hs & Rs). destruct (C81_reads_as_call o' Ho') as (s' & Hs' & Rs').
  rewrite Hs, Hs' in E. injection E as ->. rewrite Rs in Rs'. injection Rs' as En Es. split; auto.
  destruct o, o'; cbn in Ho, Ho'; try contradiction; try discriminate; reflexivity.
Qed.
Theorem C81_distinguishes : forall o o', composite o -> composite o' ->
  (forall c v w, pv c v = pv c w -> v = w) -> (forall x y, pn x = pn y -> x = y) -> obj_repr pv pn o = obj_repr pv pn o' -> o = o'.
Proof.
  intros o o' Ho Ho' Iv In E. destruct (C81_same_text o o' Ho Ho' E) as (Ec & Es).
  destruct o as [| | |[]|[]|[]|[]|[]|[]|[]], o' as [| | |[]|[]|[]|[]|[]|[]|[]]; cbn in Ho, Ho', Ec; try contradiction; try discriminate; cbn in Es; injection Es; intros;
    repeat match goal with H : pv _ _ = pv _ _ |- _ => apply Iv in H | H : pn _ = pn _ |- _ => apply In in H end; subst; reflexivity.
Qed.

(** Evaluating the text of an object a constructor returned calls that constructor again and returns the same object. *)
Lemma pv_idem (p v p' v' : vec N) : check_point_vector p v = Ok (p', v') -> p' = p /\ v' = v.
Proof.
  unfold check_point_vector. destruct (point_of p) as [p0| |] eqn:E1; [|discriminate|discriminate]. destruct (vector_of v) as [v0| |] eqn:E2; [|discriminate|discriminate]. cbn [bind].
  apply point_of_inv in E1 as (-> & _). apply vector_of_inv in E2 as (-> & _).
  destruct (negb _); [discriminate|]. destruct (is_zero _ _) as [[]| |]; cbn [bind]; intro H; try discriminate. injection H as <- <-. auto.
Qed.
Lemma line_idem (p d : vec N) l : line_new p d = Ok l -> line_new (l_point l) (l_dir l) = Ok l.
Proof.
  intro H. pose proof H as H'. unfold line_new in H. destruct (check_point_vector p d) as [[p' d']| |] eqn:E; cbn [bind] in H; [|discriminate|discriminate].
  injection H as <-. apply pv_idem in E as (-> & ->). exact H'.
Qed.
Lemma plane_idem (p d : vec N) l : plane_new p d = Ok l -> plane_new (pl_point l) (pl_normal l) = Ok l.
Proof.
  intro H. pose proof H as H'. unfold plane_new in H. destruct (check_point_vector p d) as [[p' d']| |] eqn:E; cbn [bind] in H; [|discriminate|discriminate].
  injection H as <-. apply pv_idem in E as (-> & ->). exact H'.
Qed.
Lemma segment_idem (a b : vec N) s : segment_new a b = Ok s -> segment_new (s_a s) (s_b s) = Ok s.
Proof.
  intro H. pose proof H as H'. unfold segment_new in H. destruct (point_of a) as [a'| |] eqn:Ea; [|discriminate|discriminate]. destruct (point_of b) as [b'| |] eqn:Eb; [|discriminate|discriminate].
  cbn [bind] in H. destruct (is_close1 _ _ _) as [[]| |]; cbn [bind] in H; try discriminate. injection H as <-.
  apply point_of_inv in Ea as (-> & _). apply point_of_inv in Eb as (-> & _). exact H'.
Qed.
Lemma base_idem (p : vec N) r c : base_sphere_new p r = Ok c -> c_point c = p /\ c_radius c = r.
Proof.
  unfold base_sphere_new. destruct (nleb _ _); [discriminate|]. destruct (point_of p) as [p'| |] eqn:E; cbn [bind]; [|discriminate|discriminate].
  intro H. injection H as <-. apply point_of_inv in E as (-> & _). auto.
Qed.
Lemma circle_idem (p : vec N) r c : circle_new p r = Ok c -> circle_new (c_point c) (c_radius c) = Ok c.
Proof.
  intro H. pose proof H as H'. unfold circle_new in H. destruct (base_sphere_new p r) as [c'| |] eqn:E; cbn [bind] in H; [|discriminate|discriminate].
  destruct (negb _); [discriminate|]. injection H as <-. apply base_idem in E as (-> & ->). exact H'.
Qed.
Lemma sphere_idem (p : vec N) r c : sphere_new p r = Ok c -> sphere_new (c_point c) (c_radius c) = Ok c.
Proof.
  intro H. pose proof H as H'. unfold sphere_new in H. destruct (base_sphere_new p r) as [c'| |] eqn:E; cbn [bind] in H; [|discriminate|discriminate].
  destruct (negb _); [discriminate|]. injection H as <-. apply base_idem in E as (-> & ->). exact H'.
Qed.
Lemma triangle_idem LA (a b c : vec N) t : triangle_new LA a b c = Ok t -> triangle_new LA (t_a t) (t_b t) (t_c t) = Ok t.
Proof.
  intro H. pose proof H as H'. unfold triangle_new in H.
  destruct (point_of a) as [a'| |] eqn:Ea; [|discriminate|discriminate]. destruct (point_of b) as [b'| |] eqn:Eb; [|discriminate|discriminate]. destruct (point_of c) as [c'| |] eqn:Ec; [|discriminate|discriminate].
  cbn [bind] in H. destruct (negb _); [discriminate|]. destruct (points_of _) as [ps| |]; cbn [bind] in H; [|discriminate|discriminate].
  destruct (are_collinear _ _ _) as [[]| |]; cbn [bind] in H; try discriminate. injection H as <-.
  apply point_of_inv in Ea as (-> & _). apply point_of_inv in Eb as (-> & _). apply point_of_inv in Ec as (-> & _). exact H'.
Qed.
Lemma cylinder_idem (p v : vec N) r c : cylinder_new p v r = Ok c -> cylinder_new (cy_point c) (cy_vector c) (cy_radius c) = Ok c.
Proof.
  intro H. pose proof H as H'. unfold cylinder_new in H.
  destruct (point_of p) as [p'| |] eqn:Ea; [|discriminate|discriminate]. destruct (vector_of v) as [v'| |] eqn:Eb; [|discriminate|discriminate]. cbn [bind] in H.
  destruct (negb _); [discriminate|]. destruct (negb _); [discriminate|]. destruct (is_zero _ _) as [[]| |]; cbn [bind] in H; try discriminate.
  destruct (negb _); [discriminate|]. injection H as <-. apply point_of_inv in Ea as (-> & _). apply vector_of_inv in Eb as (-> & _). exact H'.
Qed.
Theorem C81_round_trip : forall LA dv dn o, constructed LA o -> (forall c v, dv (pv c v) = Some v) -> (forall x, dn (pn x) = Some x) ->
  exists s, obj_repr pv pn o = Some s /\ eval dv dn LA s = Some (Ok o).
Proof.
  intros LA dv dn o Ho Dv Dn.
  assert (Hc : composite o) by (destruct Ho; exact I). destruct (C81_reads_as_call o Hc) as (s & Hs & Rs). exists s. split; auto. unfold eval. rewrite Rs.
  destruct Ho as [p d l H|p n l H|a b g H|p r c H|p r c H|a b c t H|p v r c H]; cbn [class_name shown]; rewrite ?Dv, ?Dn.
  - rewrite (line_idem p d l H). reflexivity.
  - rewrite (plane_idem p n l H). reflexivity.
  - rewrite (segment_idem a b g H). reflexivity.
  - rewrite (circle_idem p r c H). reflexivity.
  - rewrite (sphere_idem p r c H). reflexivity.
  - rewrite (triangle_idem LA a b c t H). reflexivity.
  - rewrite (cylinder_idem p v r c H). reflexivity.
Qed.
End Printers.
Print Assumptions C81_reads_as_call.
Print Assumptions C81_same_text.
Print Assumptions C81_distinguishes.
Print Assumptions C81_round_trip.

(** ** Printers that meet the hypotheses, for binary64 numbers: sign, binary digits, exponent; numbers of an array end with a semicolon. *)
Fixpoint show_pos (p : positive) : string := match p with xH => "" | xO q => String "0" (show_pos q) | xI q => String "1" (show_pos q) end.
Fixpoint read_pos (s : string) : option positive :=
  match s with "" => Some xH | String "0" r => option_map xO (read_pos r) | String "1" r => option_map xI (read_pos r) | _ => None end.
Lemma read_show_pos p : read_pos (show_pos p) = Some p.
Proof. induction p; simpl; rewrite ?IHp; reflexivity. Qed.
Definition show_Z (z : Z) : string := match z with Z0 => "z" | Zpos p => String "+" (show_pos p) | Zneg p => String "-" (show_pos p) end.
Definition read_Z (s : string) : option Z :=
  match s with "z" => Some Z0 | String "+" r => option_map Zpos (read_pos r) | String "-" r => option_map Zneg (read_pos r) | _ => None end.
Lemma read_show_Z z : read_Z (show_Z z) = Some z.
Proof. destruct z; simpl; rewrite ?read_show_pos; reflexivity. Qed.
Definition show_sf (f : spec_float) : string :=
  match f with
  | S754_zero b => if b then "-0" else "+0"
  | S754_infinity b => if b then "-i" else "+i"
  | S754_nan => "nan"
  | S754_finite b m e => (if b then "m" else "p") ++ show_pos m ++ "e" ++ show_Z e
  end.
Definition read_sf (s : string) : option spec_float :=
  match s with
  | "-0" => Some (S754_zero true) | "+0" => Some (S754_zero false) | "-i" => Some (S754_infinity true) | "+i" => Some (S754_infinity false) | "nan" => Some S754_nan
  | String b r => match cut "e"%char r with
                  | Some (m, e) => match read_pos m, read_Z e with
                                   | Some m, Some e => Some (S754_finite (Ascii.eqb b "m"%char) m e) | _, _ => None end
                  | None => None end
  | _ => None
  end.
Lemma cut_pos p r : cut "e"%char (show_pos p ++ String "e" r) = Some (show_pos p, r).
Proof. induction p; simpl; rewrite ?IHp; reflexivity. Qed.
Lemma read_show_sf f : read_sf (show_sf f) = Some f.
Proof.
  destruct f as [[]|[]| |[] m e]; try reflexivity; simpl; rewrite cut_pos, read_show_pos, read_show_Z; reflexivity.
Qed.
Definition show_float (x : FNum) : string := show_sf (Prim2SF x).
Definition read_float (s : string) : option FNum := option_map SF2Prim (read_sf s).
Lemma read_show_float x : read_float (show_float x) = Some x.
Proof. unfold read_float, show_float. rewrite read_show_sf. cbn. f_equal. apply SF2Prim_Prim2SF. Qed.
Fixpoint show_list (v : list FNum) : string := match v with nil => "" | x :: r => show_float x ++ ";" ++ show_list r end.
Fixpoint read_list (n : nat) (s : string) : option (list FNum) :=
  match s, n with
  | "", _ => Some nil
  | _, O => None
  | _, S n => match cut ";"%char s with
              | Some (a, r) => match read_float a, read_list n r with Some x, Some l => Some (x :: l) | _, _ => None end
              | None => None end
  end.
Definition show_array (c : string) (v : vec FNum) : string := "array:" ++ show_list v.
Definition read_array (s : string) : option (vec FNum) := match cut ":"%char s with Some (_, r) => read_list (String.length r) r | None => None end.
(** Texts without brackets, comma or semicolon. *)
Fixpoint plain (s : string) : bool :=
  match s with "" => true | String c r => (negb (opening c || closing c || Ascii.eqb c "," || Ascii.eqb c ";") && plain r)%bool end.
Lemma plain_app a b : plain (a ++ b) = andb (plain a) (plain b).
Proof. induction a; simpl; rewrite ?IHa, ?Bool.andb_assoc; reflexivity. Qed.
Lemma plain_pos p : plain (show_pos p) = true.
Proof. induction p; simpl; auto. Qed.
Lemma plain_float x : plain (show_float x) = true.
Proof.
  unfold show_float. destruct (Prim2SF x) as [[]|[]| |[] m e]; try reflexivity; cbn [show_sf]; rewrite !plain_app, plain_pos; destruct e; cbn; rewrite ?plain_pos; reflexivity.
Qed.
Lemma plain_closed a b : plain a = true -> closed 0 (a ++ b) = closed 0 b.
Proof.
  induction a as [|c a IH]; simpl; auto. intro H. apply andb_prop in H as (H1 & H2). apply Bool.negb_true_iff in H1.
  apply Bool.orb_false_iff in H1 as (H1 & H4). apply Bool.orb_false_iff in H1 as (H1 & H3). apply Bool.orb_false_iff in H1 as (H0 & H1).
  rewrite H0, H1, H3. simpl. auto.
Qed.
Lemma plain_cut a b : plain a = true -> cut ";"%char (a ++ ";" ++ b) = Some (a, b).
Proof.
  induction a as [|c a IH]; [reflexivity|]. cbn [plain]. intro H. apply andb_prop in H as (H1 & H2). apply Bool.negb_true_iff in H1.
  apply Bool.orb_false_iff in H1 as (_ & H1). simpl. rewrite H1. cbn in IH. rewrite IH by auto. reflexivity.
Qed.
Lemma show_list_closed v : closed 0 (show_list v) = true.
Proof. induction v as [|x v IH]; cbn [show_list]; auto. rewrite plain_closed by apply plain_float. exact IH. Qed.
Lemma read_show_list v : forall n, (String.length (show_list v) <= n)%nat -> read_list n (show_list v) = Some v.
Proof.
  induction v as [|x v IH]; intros n H; [destruct n; reflexivity|]. cbn [show_list] in *.
  assert (L : forall a b, String.length (a ++ b) = (String.length a + String.length b)%nat) by (induction a; simpl; auto).
  rewrite !L in H. cbn in H. destruct n as [|n]; [lia|].
  assert (Hne : exists c r, show_float x ++ ";" ++ show_list v = String c r) by (destruct (show_float x); cbn; eauto).
  destruct Hne as (c & r & E). cbn [read_list]. rewrite E, <- E. rewrite plain_cut by apply plain_float. rewrite read_show_float, IH by lia. reflexivity.
Qed.
(** Every object made of binary64 numbers that a constructor returned is recreated by its text. *)
Example C81_nonvacuous :
  (forall LA (o : obj FNum), constructed LA o -> exists s, obj_repr show_array show_float o = Some s /\ eval read_array read_float LA s = Some (Ok o)) /\
  (exists l, line_new (N:=FNum) [1; 2]%float [3; 4]%float = Ok l) /\
  (line_repr (N:=FNum) (fun c v => c ++ match v with [x; y] => if (x =? 1)%float then "([1., 2.])" else "([3., 4.])" | _ => "" end) (MkLine (N:=FNum) [1; 2]%float [3; 4]%float)
     = "Line(point=Point([1., 2.]), direction=Vector([3., 4.]))") /\
  read "Line(point=Point([1., 2.]), direction=Vector([3., 4.]))" = Some ("Line", [("point", "Point([1., 2.])"); ("direction", "Vector([3., 4.])")]).
Proof.
  split; [|split; [|split]].
  - intros LA o Ho. apply (C81_round_trip show_array show_float); auto.
    + intros c v. cbn. apply show_list_closed.
    + intro x. rewrite <- (app_nil_s (show_float x)). apply plain_closed, plain_float.
    + intros c v. cbn. apply read_show_list. lia.
    + apply read_show_float.
  - exists (MkLine (N:=FNum) [1; 2]%float [3; 4]%float). reflexivity.
  - reflexivity.
  - reflexivity.
Qed.
Print Assumptions C81_nonvacuous.
