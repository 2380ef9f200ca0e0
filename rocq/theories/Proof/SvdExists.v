(** * Routines meeting the linear algebra specifications exist (so the hypotheses are satisfiable) *)
From Coq Require Import String Reals List Lra Lia Psatz ClassicalChoice ClassicalEpsilon.
From Verif.Spec Require Import Geometry Mesh.
From Verif.Model Require Import Outcome Num Instances Numpy.
From Verif.Spec Require Import Linalg.
From Verif.Proof Require Import VecAlg Bridge Points Lincomb Svd.
Import ListNotations.
Local Open Scope R_scope.

(** ** Bolzano-Weierstrass *)
Definition mono (phi : nat -> nat) := forall n, (phi n < phi (S n))%nat.
Lemma mono_ge phi : mono phi -> forall n, (n <= phi n)%nat.
Proof. intros H n. induction n; [lia|]. pose proof (H n). lia. Qed.
Lemma mono_lt phi : mono phi -> forall m n, (m < n)%nat -> (phi m < phi n)%nat.
Proof. intros H m n L. induction L; [apply H|]. pose proof (H m0). lia. Qed.
Lemma mono_comp f g : mono f -> mono g -> mono (fun n => f (g n)).
Proof. intros Hf Hg n. apply mono_lt; auto. Qed.
Lemma cv_sub u l phi : mono phi -> Un_cv u l -> Un_cv (fun n => u (phi n)) l.
Proof. intros M H e He. destruct (H e He) as (N & HN). exists N. intros n Hn. apply HN. pose proof (mono_ge phi M n). lia. Qed.

Lemma bw1 (u : nat -> R) (B : R) : (forall n, Rabs (u n) <= B) -> exists phi l, mono phi /\ Un_cv (fun n => u (phi n)) l.
Proof.
  intro Hb. destruct (Bolzano_Weierstrass u (fun c => - B <= c <= B)) as (l & Hl).
  { apply compact_P3. } { intro n. pose proof (Hb n) as Q. pose proof (Rle_abs (u n)). pose proof (Rle_abs (- u n)). rewrite Rabs_Ropp in *. lra. }
  assert (G : exists g : nat * nat -> nat, forall p, (snd p <= g p)%nat /\ Rabs (u (g p) - l) < / (INR (fst p) + 1)).
  { apply (choice (fun (p : nat * nat) (q : nat) => (snd p <= q)%nat /\ Rabs (u q - l) < / (INR (fst p) + 1))). intros (n, M). simpl.
    assert (P : 0 < / (INR n + 1)) by (apply Rinv_0_lt_compat; pose proof (pos_INR n); lra).
    destruct (Hl (disc l (mkposreal _ P)) M) as (q & Hq & Hd). { exists (mkposreal _ P). intros y Hy. exact Hy. }
    exists q. split; auto. }
  destruct G as (g & Hg).
  set (phi := fix phi n := match n with O => g (0, 0)%nat | S k => g (S k, S (phi k)) end).
  exists phi, l. split.
  - intro n. change (phi (S n)) with (g (S n, S (phi n))). destruct (Hg (S n, S (phi n))) as [H _]. simpl in H. lia.
  - assert (C : forall n, Rabs (u (phi n) - l) < / (INR n + 1)).
    { intros [|n]; [destruct (Hg (0, 0)%nat) as [_ H]; exact H|]. destruct (Hg (S n, S (phi n))) as [_ H]. exact H. }
    intros e He. destruct (archimed_cor1 e He) as (N & HN & Npos). exists N. intros n Hn. unfold R_dist.
    eapply Rlt_le_trans; [apply C|]. apply Rlt_le. eapply Rle_lt_trans; [|exact HN]. apply Rinv_le_contravar; [apply lt_0_INR; lia|].
    apply le_INR in Hn. lra.
Qed.

Lemma bw (x : nat -> pt) (B : R) d : (forall n j, Rabs (nth j (x n) 0) <= B) ->
  exists phi l, mono phi /\ length l = d /\ forall j, (j < d)%nat -> Un_cv (fun n => nth j (x (phi n)) 0) (nth j l 0).
Proof.
  intro Hb. induction d as [|d (phi & l & Hm & Hl & Hc)].
  - exists (fun n => n), []. split; [intro; lia|]. split; auto. intros; lia.
  - destruct (bw1 (fun n => nth d (x (phi n)) 0) B) as (psi & ld & Hp & Hd). { intro; apply Hb. }
    exists (fun n => phi (psi n)), (l ++ [ld]). split; [apply mono_comp; auto|]. split; [rewrite app_length; simpl; lia|].
    intros j Hj. destruct (Nat.eq_dec j d) as [->|].
    + rewrite app_nth2 by lia. rewrite Hl, Nat.sub_diag. simpl. exact Hd.
    + rewrite app_nth1 by lia. apply (cv_sub (fun n => nth j (x (phi n)) 0)); auto. apply Hc. lia.
Qed.

Lemma cv_const c : Un_cv (fun _ => c) c.
Proof. intros e He. exists 0%nat. intros. unfold R_dist. rewrite Rminus_diag_eq, Rabs_R0; auto. Qed.
Lemma cv_ext u w l : (forall n, u n = w n) -> Un_cv u l -> Un_cv w l.
Proof. intros E H e He. destruct (H e He) as (N & HN). exists N. intros n Hn. rewrite <- E. auto. Qed.
Lemma cv_Sum m (f : nat -> nat -> R) (l : nat -> R) : (forall j, (j < m)%nat -> Un_cv (fun n => f n j) (l j)) -> Un_cv (fun n => Sum m (f n)) (Sum m l).
Proof.
  induction m; intro H; [apply (cv_const 0)|].
  apply (cv_ext (fun n => Sum m (f n) + f n m)); [intro; rewrite Sum_S; reflexivity|]. rewrite Sum_S. apply CV_plus; [apply IHm; intros; apply H; lia|apply H; lia].
Qed.
Section Cv.
Context (d : nat) (x : nat -> pt) (l : pt) (Lx : forall n, length (x n) = d) (Ll : length l = d)
  (C : forall j, (j < d)%nat -> Un_cv (fun n => nth j (x n) 0) (nth j l 0)).
Lemma cv_dot a : length a = d -> Un_cv (fun n => dot a (x n)) (dot a l).
Proof.
  intro La. apply (cv_ext (fun n => Sum d (fun j => nth j a 0 * nth j (x n) 0))); [intro; rewrite (dot_Sum _ _ d); auto|].
  rewrite (dot_Sum _ _ d) by auto. apply (cv_Sum d (fun n j => nth j a 0 * nth j (x n) 0)). intros j Hj. apply CV_mult; [apply cv_const|auto].
Qed.
Lemma cv_dot_self : Un_cv (fun n => dot (x n) (x n)) (dot l l).
Proof.
  apply (cv_ext (fun n => Sum d (fun j => nth j (x n) 0 * nth j (x n) 0))); [intro; rewrite (dot_Sum _ _ d); auto|].
  rewrite (dot_Sum _ _ d) by auto. apply (cv_Sum d (fun n j => nth j (x n) 0 * nth j (x n) 0)). intros j Hj. apply CV_mult; auto.
Qed.
End Cv.

(** ** Maximising |A x|^2 over the unit vectors orthogonal to given ones *)
Definition quad (A : list pt) (x : pt) : R := Sum (length A) (fun i => dot (nth i A []) x * dot (nth i A []) x).
Lemma coord_le x j : Rabs (nth j x 0) * Rabs (nth j x 0) <= dot x x.
Proof.
  revert j. induction x as [|a x IH]; intros [|j]; simpl; rewrite ?Rabs_R0; try lra.
  - rewrite <- Rabs_mult, Rabs_right by nra. pose proof (dot_self_nonneg x). lra.
  - pose proof (IH j). nra.
Qed.
Lemma quad_nonneg A x : 0 <= quad A x.
Proof. apply Sum_nonneg. intros. nra. Qed.
Lemma quad_bounded d A : points_ok d A -> forall x, length x = d -> dot x x = 1 -> quad A x <= Sum (length A) (fun i => dot (nth i A []) (nth i A [])).
Proof.
  intros (_ & _ & F) x Lx Hx. apply Sum_le. intros i Hi. rewrite Forall_forall in F. assert (La := F _ (nth_In A [] Hi)).
  pose proof (cauchy_schwarz_sq (nth i A []) x ltac:(congruence)). rewrite Hx in H. lra.
Qed.
Lemma quad_max d A (ws : list pt) : points_ok d A -> Forall (fun w => length w = d) ws -> (exists x, length x = d /\ dot x x = 1 /\ forall w, In w ws -> dot w x = 0) ->
  exists m, length m = d /\ dot m m = 1 /\ (forall w, In w ws -> dot w m = 0) /\
    forall x, length x = d -> dot x x = 1 -> (forall w, In w ws -> dot w x = 0) -> quad A x <= quad A m.
Proof.
  intros HA Fw (x0 & L0 & U0 & P0). set (K := fun x => length x = d /\ dot x x = 1 /\ forall w, In w ws -> dot w x = 0).
  destruct (completeness (fun y => exists x, K x /\ y = quad A x)) as (m & Hub & Hlub).
  { exists (Sum (length A) (fun i => dot (nth i A []) (nth i A []))). intros y (x & (Lx & Ux & _) & ->). apply (quad_bounded d); auto. }
  { exists (quad A x0), x0. split; [split; auto|reflexivity]. }
  assert (G : exists g : nat -> pt, forall n, K (g n) /\ m - / (INR n + 1) < quad A (g n)).
  { apply (choice (fun n x => K x /\ m - / (INR n + 1) < quad A x)). intro n.
    assert (P : 0 < / (INR n + 1)) by (apply Rinv_0_lt_compat; pose proof (pos_INR n); lra).
    destruct (classic (exists x, K x /\ m - / (INR n + 1) < quad A x)) as [|Hn]; auto. exfalso.
    assert (m <= m - / (INR n + 1)); [|lra]. apply Hlub. intros y (x & Kx & ->). apply Rnot_lt_le. intro. apply Hn. eauto. }
  destruct G as (g & Hg).
  destruct (bw g 1 d) as (phi & l & Hm & Ll & Hc).
  { intros n j. destruct (Hg n) as ((_ & Ux & _) & _). pose proof (coord_le (g n) j). pose proof (Rabs_pos (nth j (g n) 0)). nra. }
  set (h := fun n => g (phi n)). assert (Lh : forall n, length (h n) = d) by (intro n; apply (Hg (phi n))).
  assert (Kl : K l).
  { split; auto. split.
    - apply (UL_sequence (fun n => dot (h n) (h n))); [apply (cv_dot_self d); auto|]. apply (cv_ext (fun _ => 1)); [|apply cv_const]. intro n. symmetry. apply (Hg (phi n)).
    - intros w Hw. rewrite Forall_forall in Fw. apply (UL_sequence (fun n => dot w (h n))); [apply (cv_dot d); auto|].
      apply (cv_ext (fun _ => 0)); [|apply cv_const]. intro n. symmetry. apply (Hg (phi n)); auto. }
  exists l. destruct Kl as (_ & Ul & Pl). split; auto. split; auto. split; auto. intros x Lx Ux Px.
  assert (quad A x <= m) by (apply Hub; exists x; split; [split; auto|reflexivity]).
  assert (m <= quad A l); [|lra].
  assert (Cq : Un_cv (fun n => quad A (h n)) (quad A l)).
  { unfold quad. apply (cv_Sum (length A) (fun n i => dot (nth i A []) (h n) * dot (nth i A []) (h n)) (fun i => dot (nth i A []) l * dot (nth i A []) l)).
    intros i Hi. destruct HA as (_ & _ & F). rewrite Forall_forall in F. assert (La := F _ (nth_In A [] Hi)). apply CV_mult; apply (cv_dot d); auto. }
  apply Rnot_lt_le. intro Hlt. set (e := (m - quad A l) / 2). assert (He : 0 < e) by (unfold e; lra).
  destruct (Cq e He) as (N & HN). destruct (archimed_cor1 e He) as (N2 & HN2 & Npos).
  set (n := Nat.max N N2). specialize (HN n ltac:(lia)). unfold R_dist in HN. apply Rabs_def2 in HN.
  destruct (Hg (phi n)) as (_ & Hq). change (g (phi n)) with (h n) in Hq.
  assert (/ (INR (phi n) + 1) < e).
  { eapply Rle_lt_trans; [|exact HN2]. apply Rinv_le_contravar; [apply lt_0_INR; lia|]. pose proof (mono_ge phi Hm n).
    assert (INR N2 <= INR (phi n)) by (apply le_INR; lia). lra. }
  unfold e in *. lra.
Qed.

(** ** Orthonormal families *)
Definition onb (d : nat) (vs : list pt) : Prop :=
  (forall k, (k < length vs)%nat -> length (nth k vs []) = d) /\
  forall j k, (j < length vs)%nat -> (k < length vs)%nat -> dot (nth j vs []) (nth k vs []) = delta j k.
Lemma unit_of_nonzero x : ~ is_zero_vec x -> dot (scale (/ len x) x) (scale (/ len x) x) = 1.
Proof. intro H. rewrite dot_scale_l, dot_scale_r, <- len_sq. pose proof (len_pos x H). field. lra. Qed.
Lemma exists_orth d (ws : list pt) : (length ws < d)%nat -> Forall (fun w => length w = d) ws ->
  exists x, length x = d /\ dot x x = 1 /\ forall w, In w ws -> dot w x = 0.
Proof.
  intros L F. destruct (kernel_exists (length ws) d (fun i j => ent ws j i) L) as (c & (i & Hi & Hc) & Z).
  set (y := map c (seq 0 d)). assert (Ly : length y = d) by (unfold y; rewrite map_length, seq_length; auto).
  assert (Ny : ~ is_zero_vec y). { intro E. unfold is_zero_vec in E. apply Hc. rewrite <- (nth_map_seq c d i 0) by auto. fold y. rewrite E. apply nth_origin. }
  exists (scale (/ len y) y). split; [rewrite length_scale; auto|]. split; [apply unit_of_nonzero; auto|].
  intros w Hw. rewrite dot_scale_r. apply (In_nth _ _ []) in Hw as (j & Hj & <-). rewrite Forall_forall in F. assert (Lw := F _ (nth_In ws [] Hj)).
  rewrite (dot_Sum _ _ d) by auto. rewrite (Sum_ext d _ (fun i => c i * ent ws j i)).
  - rewrite Z by auto. ring.
  - intros k Hk. unfold y. rewrite nth_map_seq by auto. unfold ent. ring.
Qed.
Lemma onb_bound d vs : onb d vs -> (length vs <= d)%nat.
Proof.
  intros (Hl & Ho). destruct (Nat.le_gt_cases (length vs) d) as [|L]; auto. exfalso.
  destruct (kernel_exists d (length vs) (fun i j => ent vs i j) L) as (c & (i & Hi & Hc) & Z).
  apply Hc.
  assert (E : Sum (length vs) (fun k => c k * dot (nth k vs []) (nth i vs [])) = 0).
  { rewrite (Sum_ext _ _ (fun k => Sum d (fun j => c k * ent vs k j * nth j (nth i vs []) 0))).
    - rewrite Sum_swap. apply Sum_zero_ext. intros j Hj. rewrite Sum_scale_r, Z by auto. ring.
    - intros k Hk. rewrite (dot_Sum _ _ d) by auto. rewrite <- Sum_scale. apply Sum_ext. intros; unfold ent; ring. }
  rewrite (Sum_ext _ _ (fun k => c k * delta k i)) in E by (intros k Hk; rewrite Ho; auto).
  rewrite Sum_delta in E; auto.
Qed.
Lemma onb_snoc d vs x : onb d vs -> length x = d -> dot x x = 1 -> (forall w, In w vs -> dot w x = 0) -> onb d (vs ++ [x]).
Proof.
  intros (Hl & Ho) Lx Ux P. unfold onb. rewrite app_length. simpl length.
  assert (N1 : forall k, (k < length vs)%nat -> nth k (vs ++ [x]) [] = nth k vs []) by (intros; apply app_nth1; auto).
  assert (N2 : nth (length vs) (vs ++ [x]) [] = x) by (rewrite app_nth2, Nat.sub_diag by lia; reflexivity).
  split.
  - intros k Hk. destruct (Nat.eq_dec k (length vs)) as [->|]; [rewrite N2; auto|rewrite N1 by lia; apply Hl; lia].
  - intros j k Hj Hk. destruct (Nat.eq_dec j (length vs)) as [->|], (Nat.eq_dec k (length vs)) as [->|].
    + rewrite N2, delta_eq; auto.
    + rewrite N2, N1, delta_neq by lia. rewrite dot_comm. apply P, nth_In. lia.
    + rewrite N2, N1, delta_neq by lia. apply P, nth_In. lia.
    + rewrite !N1 by lia. apply Ho; lia.
Qed.
Lemma onb_Forall d vs : onb d vs -> Forall (fun w => length w = d) vs.
Proof. intros (Hl & _). apply Forall_forall. intros w Hw. apply (In_nth _ _ []) in Hw as (k & Hk & <-). auto. Qed.
(** A full orthonormal family is a basis. *)
Lemma onb_complete d vs x : onb d vs -> length vs = d -> length x = d -> (forall w, In w vs -> dot w x = 0) -> x = origin d.
Proof.
  intros H Lv Lx P. destruct (is_zero_vec_dec x) as [Hz|Hz]; [unfold is_zero_vec in Hz; congruence|]. exfalso.
  assert (B : onb d (vs ++ [scale (/ len x) x])).
  { apply onb_snoc; auto; [rewrite length_scale; auto|apply unit_of_nonzero; auto|]. intros w Hw. rewrite dot_scale_r, P by auto. ring. }
  apply onb_bound in B. rewrite app_length in B. simpl in B. lia.
Qed.
Lemma onb_coords d vs x : onb d vs -> length vs = d -> length x = d -> x = lincomb d (map (fun w => dot w x) vs) vs.
Proof.
  intros H Lv Lx. pose proof (onb_Forall d vs H) as F. set (y := lincomb d _ vs). assert (Ly : length y = d) by (apply length_lincomb; auto).
  apply sub_zero_iff; [congruence|]. unfold is_zero_vec. rewrite length_sub, Lx, Ly, Nat.min_id. apply (onb_complete d vs); auto; [len|].
  intros w Hw. rewrite dot_sub_r by congruence. rewrite (dot_comm w y). unfold y. rewrite dot_lincomb_r by (auto; apply map_length).
  apply (In_nth _ _ []) in Hw as (k & Hk & <-). destruct H as (_ & Ho).
  rewrite (Sum_ext _ _ (fun l => dot (nth l vs []) x * delta l k)).
  - rewrite (Sum_delta (length vs) k (fun l => dot (nth l vs []) x)) by auto. ring.
  - intros l Hl. rewrite Ho by auto. f_equal. rewrite (nth_indep _ 0 ((fun w => dot w x) [])) by (rewrite map_length; auto). rewrite (map_nth (fun w => dot w x)). reflexivity.
Qed.

(** ** Right singular vectors *)
Lemma right_vectors d A j : points_ok d A -> (j <= d)%nat ->
  exists vs, length vs = j /\ onb d vs /\
    forall k, (k < j)%nat -> forall x, length x = d -> dot x x = 1 -> (forall l, (l < k)%nat -> dot (nth l vs []) x = 0) -> quad A x <= quad A (nth k vs []).
Proof.
  intros HA. induction j as [|j IH]; intro Hj.
  - exists []. split; auto. split; [split; simpl; intros; lia|]. intros; lia.
  - destruct IH as (vs & Lv & Ho & Hm); [lia|]. pose proof (onb_Forall d vs Ho) as F.
    destruct (quad_max d A vs HA F) as (m & Lm & Um & Pm & Mm). { apply exists_orth; auto. lia. }
    exists (vs ++ [m]). split; [rewrite app_length; simpl; lia|]. split; [apply onb_snoc; auto|].
    intros k Hk x Lx Ux Px. destruct (Nat.eq_dec k j) as [->|].
    + rewrite app_nth2 by lia. rewrite Lv, Nat.sub_diag. simpl. apply Mm; auto. intros w Hw. apply (In_nth _ _ []) in Hw as (l & Hl & <-).
      rewrite <- (Px l ltac:(lia)). rewrite app_nth1 by auto. reflexivity.
    + rewrite app_nth1 by lia. apply Hm; auto; [lia|]. intros l Hl. rewrite <- (Px l Hl). rewrite app_nth1 by lia. reflexivity.
Qed.
Definition bil (A : list pt) (x y : pt) : R := Sum (length A) (fun i => dot (nth i A []) x * dot (nth i A []) y).
Lemma quad_comb d A x y a b : points_ok d A -> length x = d -> length y = d ->
  quad A (add (scale a x) (scale b y)) = a * a * quad A x + 2 * a * b * bil A x y + b * b * quad A y.
Proof.
  intros HA Lx Ly. unfold quad, bil. rewrite <- !Sum_scale, <- !Sum_add. apply Sum_ext. intros i Hi.
  rewrite dot_add_r by len. rewrite !dot_scale_r. ring.
Qed.
Lemma bil_zero d A vs j k : points_ok d A -> onb d vs -> (j < k < length vs)%nat ->
  (forall x, length x = d -> dot x x = 1 -> (forall l, (l < j)%nat -> dot (nth l vs []) x = 0) -> quad A x <= quad A (nth j vs [])) ->
  bil A (nth j vs []) (nth k vs []) = 0.
Proof.
  intros HA (Hl & Ho) Hjk Hm. set (x := nth j vs []) in *. set (y := nth k vs []) in *.
  assert (Lx : length x = d) by (apply Hl; lia). assert (Ly : length y = d) by (apply Hl; lia).
  assert (Ux : dot x x = 1) by (unfold x; rewrite Ho, delta_eq by lia; auto). assert (Uy : dot y y = 1) by (unfold y; rewrite Ho, delta_eq by lia; auto).
  assert (Pxy : dot x y = 0) by (unfold x, y; rewrite Ho, delta_neq by lia; auto).
  set (g := bil A x y). set (D := quad A x - quad A y).
  assert (HD : 0 <= D).
  { unfold D. pose proof (Hm y Ly Uy). assert (quad A y <= quad A x); [|lra]. apply H. intros l Hll. unfold y. rewrite Ho, delta_neq by lia. reflexivity. }
  assert (Q : forall t, 2 * t * g <= t * t * D).
  { intro t. set (s := sqrt (1 + t * t)). assert (Ps : 0 < s) by (apply sqrt_lt_R0; nra). assert (Ss : s * s = 1 + t * t) by (apply sqrt_sqrt; nra).
    set (z := add (scale (/ s) x) (scale (t / s) y)).
    assert (Uz : dot z z = 1).
    { unfold z. rewrite dot_quad by congruence. rewrite Ux, Uy, Pxy. replace (/ s * / s * 1 + 2 * / s * (t / s) * 0 + t / s * (t / s) * 1) with ((1 + t * t) / (s * s)) by (field; lra). rewrite Ss. field. nra. }
    assert (Hz : quad A z <= quad A x).
    { apply Hm; auto; [unfold z; len|]. intros l Hll. unfold z. rewrite dot_add_r by len. rewrite !dot_scale_r. unfold x, y. rewrite !Ho, !delta_neq by lia. ring. }
    unfold z in Hz. rewrite (quad_comb d) in Hz by auto. fold g in Hz.
    assert (E : quad A y = quad A x - D) by (unfold D; ring). rewrite E in Hz.
    apply Rmult_le_compat_l with (r := s * s) in Hz; [|nra].
    replace (s * s * (/ s * / s * quad A x + 2 * / s * (t / s) * g + t / s * (t / s) * (quad A x - D)))
      with ((1 + t * t) * quad A x + 2 * t * g - t * t * D) in Hz by (field; lra). rewrite Ss in Hz. lra. }
  pose proof (Q (g / (D + 1))) as Q1. apply Rmult_le_compat_l with (r := (D + 1) * (D + 1)) in Q1; [|nra].
  replace ((D + 1) * (D + 1) * (2 * (g / (D + 1)) * g)) with (2 * (D + 1) * (g * g)) in Q1 by (field; lra).
  replace ((D + 1) * (D + 1) * (g / (D + 1) * (g / (D + 1)) * D)) with (D * (g * g)) in Q1 by (field; lra).
  assert (g * g <= 0) by nra. nra.
Qed.

(** ** Left singular vectors *)
Definition image (A : list pt) (x : pt) : pt := map (fun a => dot a x) A.
Lemma length_image A x : length (image A x) = length A. Proof. apply map_length. Qed.
Lemma nth_image A x i : nth i (image A x) 0 = dot (nth i A []) x.
Proof. unfold image. change 0 with ((fun a => dot a x) []) at 1. apply (map_nth (fun a => dot a x)). Qed.
Lemma dot_image A x y : dot (image A x) (image A y) = bil A x y.
Proof. rewrite (dot_Sum _ _ (length A)) by apply length_image. apply Sum_ext. intros i _. rewrite !nth_image. reflexivity. Qed.

Lemma left_vectors n (ws : list pt) j : (j <= length ws)%nat -> (j <= n)%nat -> Forall (fun w => length w = n) ws ->
  (forall i k, (i < k < length ws)%nat -> dot (nth i ws []) (nth k ws []) = 0 /\ dot (nth k ws []) (nth k ws []) <= dot (nth i ws []) (nth i ws [])) ->
  exists us, length us = j /\ onb n us /\ forall k, (k < j)%nat -> nth k ws [] = scale (len (nth k ws [])) (nth k us []).
Proof.
  intros Hj Hn F Hw. induction j as [|j IH].
  - exists []. split; auto. split; [split; simpl; intros; lia|]. intros; lia.
  - destruct IH as (us & Lu & Ho & Hs); [lia|lia|]. pose proof (onb_Forall n us Ho) as Fu. rewrite Forall_forall in F. set (w := nth j ws []).
    assert (Lw : length w = n) by (apply F, nth_In; lia).
    assert (X : exists x, length x = n /\ dot x x = 1 /\ (forall u, In u us -> dot u x = 0) /\ w = scale (len w) x).
    { destruct (is_zero_vec_dec w) as [Hz|Hz].
      - destruct (exists_orth n us) as (x & Lx & Ux & Px); [lia|auto|]. exists x. split; auto. split; auto. split; auto.
        rewrite (proj2 (len_zero_iff w) Hz), scale_0, Lx. unfold is_zero_vec in Hz. congruence.
      - pose proof (len_pos w Hz) as Pw. exists (scale (/ len w) w). split; [rewrite length_scale; auto|]. split; [apply unit_of_nonzero; auto|].
        split; [|rewrite scale_scale, Rinv_r, scale_1 by lra; auto].
        intros u Hu. rewrite dot_scale_r. apply (In_nth _ _ []) in Hu as (k & Hk & <-). destruct (Hw k j ltac:(lia)) as (Z & Le). fold w in Z, Le.
        assert (Pk : 0 < len (nth k ws [])). { apply len_le_iff in Le. lra. }
        rewrite (Hs k ltac:(lia)), dot_scale_l in Z. apply Rmult_integral in Z as [Z|Z]; [lra|]. rewrite Z. ring. }
    destruct X as (x & Lx & Ux & Px & Ex). exists (us ++ [x]). split; [rewrite app_length; simpl; lia|]. split; [apply onb_snoc; auto|].
    intros k Hk. destruct (Nat.eq_dec k j) as [->|].
    + rewrite app_nth2 by lia. rewrite Lu, Nat.sub_diag. exact Ex.
    + rewrite app_nth1 by lia. apply Hs. lia.
Qed.

Theorem svd_exists d A : points_ok d A -> exists U S Vh, svd_spec d A U S Vh.
Proof.
  intro HA. destruct (right_vectors d A d HA (Nat.le_refl d)) as (vs & Lv & Ho & Hm). pose proof Ho as (Hl & Hd).
  set (ws := map (image A) vs). set (n := length A).
  assert (Nw : forall k, (k < d)%nat -> nth k ws [] = image A (nth k vs [])).
  { intros k Hk. unfold ws. rewrite (nth_indep _ [] (image A [])) by (rewrite map_length; lia). apply map_nth. }
  assert (Lw : length ws = d) by (unfold ws; rewrite map_length; auto).
  assert (Fw : Forall (fun w => length w = n) ws). { unfold ws. apply Forall_map, Forall_forall. intros; apply length_image. }
  assert (Hw : forall i k, (i < k < length ws)%nat -> dot (nth i ws []) (nth k ws []) = 0 /\ dot (nth k ws []) (nth k ws []) <= dot (nth i ws []) (nth i ws [])).
  { intros i k Hik. rewrite Lw in Hik. rewrite !Nw by lia. rewrite !dot_image. split.
    - apply (bil_zero d A vs i k); auto; [lia|]. intros x Lx Ux Px. apply Hm; auto; lia.
    - change (quad A (nth k vs []) <= quad A (nth i vs [])). apply Hm; [lia|apply Hl; lia|rewrite Hd, delta_eq by lia; auto|].
      intros l Hll. rewrite Hd, delta_neq by lia. reflexivity. }
  set (r := Nat.min n d). destruct (left_vectors n ws r) as (us & Lu & Hu & Hs); auto; [lia|lia|].
  exists (map (fun i => map (fun k => nth i (nth k us []) 0) (seq 0 r)) (seq 0 n)), (map (fun k => len (nth k ws [])) (seq 0 r)), vs.
  set (S := map (fun k => len (nth k ws [])) (seq 0 r)). assert (LS : length S = r) by (unfold S; rewrite map_length, seq_length; auto).
  assert (NS : forall k, (k < r)%nat -> nth k S 0 = len (nth k ws [])) by (intros; unfold S; rewrite nth_map_seq; auto).
  assert (EU : forall i k, (i < n)%nat -> (k < r)%nat -> ent (map (fun i => map (fun k => nth i (nth k us []) 0) (seq 0 r)) (seq 0 n)) i k = nth i (nth k us []) 0).
  { intros i k Hi Hk. unfold ent. rewrite nth_map_seq by auto. rewrite nth_map_seq by auto. reflexivity. }
  pose proof Hu as (Hul & Hud).
  constructor; fold n; rewrite ?LS; auto.
  - intros k Hk. rewrite NS by auto. apply len_nonneg.
  - intros j k Hjk. rewrite !NS by lia. destruct (Nat.eq_dec j k) as [->|]; [lra|]. apply len_le_iff. apply Hw. lia.
  - rewrite map_length, seq_length. reflexivity.
  - intros k Hk. apply Hl. lia.
  - intros j k Hj Hk. apply Hd; lia.
  - intros j k Hj Hk. rewrite <- Hud by lia. rewrite (dot_Sum _ _ n) by (apply Hul; lia). apply Sum_ext. intros i Hi. rewrite !EU by auto. reflexivity.
  - intros i j Hi Hj. set (a := nth i A []).
    assert (La : length a = d). { destruct HA as (_ & _ & F). rewrite Forall_forall in F. apply F, nth_In. auto. }
    unfold ent at 1. fold a. rewrite (onb_coords d vs a Ho Lv La) at 1. rewrite nth_lincomb by (try apply onb_Forall; auto; apply map_length).
    rewrite Lv. replace d with (r + (d - r))%nat at 1 by lia. rewrite Sum_split. rewrite (Sum_zero_ext (d - r)).
    + rewrite Rplus_0_r. apply Sum_ext. intros k Hk. rewrite EU, NS by auto.
      rewrite (nth_indep _ 0 ((fun w => dot w a) [])) by (rewrite map_length; lia). rewrite (map_nth (fun w => dot w a)).
      f_equal. pose proof (Hs k Hk) as E. apply (f_equal (fun w => nth i w 0)) in E. rewrite nth_scale in E. rewrite Nw in E at 1 by lia. rewrite nth_image in E. fold a in E.
      rewrite dot_comm, E. ring.
    + intros k Hk. rewrite (nth_indep _ 0 ((fun w => dot w a) [])) by (rewrite map_length; lia). rewrite (map_nth (fun w => dot w a)).
      (* more than n vectors: the image of v_(r+k) vanishes *)
      assert (Hr : r = n) by lia. set (q := (r + k)%nat) in *.
      assert (Z : is_zero_vec (nth q ws [])).
      { destruct (is_zero_vec_dec (nth q ws [])) as [|Hz]; auto. exfalso.
        assert (E : nth q ws [] = origin n); [|apply Hz; rewrite E; unfold is_zero_vec; rewrite length_origin; reflexivity].
        apply (onb_complete n us); auto; [lia| |].
        - rewrite Forall_forall in Fw. apply Fw, nth_In. lia.
        - intros u Hin. apply (In_nth _ _ []) in Hin as (l & Hll & <-). destruct (Hw l q ltac:(lia)) as (Z & Le).
          apply len_le_iff in Le. pose proof (len_pos _ Hz). rewrite (Hs l ltac:(lia)), dot_scale_l in Z. apply Rmult_integral in Z as [Z|Z]; [lra|auto]. }
      unfold is_zero_vec in Z. apply (f_equal (fun w => nth i w 0)) in Z. rewrite nth_origin in Z. rewrite Nw in Z by lia. rewrite nth_image in Z. fold a in Z.
      rewrite dot_comm, Z. ring.
Qed.

(** ** Least squares and square systems *)
Lemma bil_comm A x y : bil A x y = bil A y x.
Proof. apply Sum_ext. intros; ring. Qed.
Lemma image_sub d A x y : points_ok d A -> length x = d -> length y = d -> image A (sub x y) = sub (image A x) (image A y).
Proof.
  intros HA Lx Ly. apply pt_ext; [rewrite length_sub, !length_image; lia|]. intros i _. rewrite nth_sub by (rewrite !length_image; auto).
  rewrite !nth_image. apply dot_sub_r. congruence.
Qed.
Lemma normal_equations d A y : points_ok d A -> length y = length A ->
  exists x, length x = d /\ forall z, length z = d -> dot (image A z) (sub (image A x) y) = 0.
Proof.
  intros HA Ly. destruct (svd_exists d A HA) as (U & S & Vh & H). set (r := length S).
  assert (LV : (r <= length Vh)%nat).
  { destruct r as [|r'] eqn:Er; [lia|]. destruct (Nat.le_gt_cases (Datatypes.S r') (length Vh)) as [|L]; auto. exfalso.
    pose proof (sv_V _ _ _ _ _ H r' r' ltac:(unfold r in Er; lia) ltac:(unfold r in Er; lia)) as E. rewrite delta_eq in E. rewrite nth_overflow in E by lia. simpl in E. lra. }
  set (vs := firstn r Vh). assert (Lvs : length vs = r) by (unfold vs; rewrite firstn_length; lia).
  assert (Nvs : forall k, (k < r)%nat -> nth k vs [] = nth k Vh []).
  { intros k Hk. unfold vs. rewrite <- (firstn_skipn r Vh) at 2. rewrite app_nth1; auto. fold vs. lia. }
  assert (Fvs : Forall (fun e => length e = d) vs).
  { apply Forall_forall. intros e He. apply (In_nth _ _ []) in He as (k & Hk & <-). rewrite Nvs by lia. apply (sv_dim _ _ _ _ _ H). fold r. lia. }
  set (uy := fun k => Sum (length A) (fun i => ent U i k * nth i y 0)).
  set (c := fun k => if Req_EM_T (nth k S 0) 0 then 0 else uy k / nth k S 0).
  set (x := lincomb d (map c (seq 0 r)) vs). exists x. assert (Lx : length x = d) by (apply length_lincomb; auto). split; auto.
  assert (Vx : forall k, (k < r)%nat -> dot (nth k Vh []) x = c k).
  { intros k Hk. rewrite dot_comm. unfold x. rewrite dot_lincomb_r by (auto; rewrite map_length, seq_length; auto). rewrite Lvs.
    rewrite (Sum_ext _ _ (fun l => c l * delta l k)); [apply Sum_delta; auto|]. intros l Hl. rewrite nth_map_seq, Nvs by auto. rewrite (sv_V _ _ _ _ _ H) by auto. reflexivity. }
  intros z Lz. rewrite dot_sub_r by (rewrite length_image; auto). rewrite dot_image. unfold bil. rewrite (svd_gram d A U S Vh) by auto. fold r.
  rewrite (dot_Sum _ y (length A)) by (auto; apply length_image).
  rewrite (Sum_ext (length A) _ (fun i => Sum r (fun k => ent U i k * nth i y 0 * (nth k S 0 * dot (nth k Vh []) z)))).
  2:{ intros i Hi. rewrite nth_image, (svd_row_dot d A U S Vh) by auto. rewrite <- Sum_scale_r. apply Sum_ext. intros; ring. }
  rewrite Sum_swap. apply Rminus_diag_eq. apply Sum_ext. intros k Hk. rewrite Vx by auto. rewrite Sum_scale_r. fold (uy k). unfold c.
  destruct (Req_EM_T (nth k S 0) 0) as [->|Hne]; [ring|field; auto].
Qed.
Lemma lstsq_exists d A y : points_ok d A -> length y = length A ->
  exists x, length x = d /\ forall z, length z = d -> dist (image A x) y <= dist (image A z) y.
Proof.
  intros HA Ly. destruct (normal_equations d A y HA Ly) as (x & Lx & Hx). exists x. split; auto. intros z Lz. unfold dist. apply len_le_iff.
  assert (E : sub (image A z) y = add (image A (sub z x)) (sub (image A x) y)).
  { rewrite (image_sub d) by auto. apply pt_ext; [len; rewrite !length_image; lia|]. intros i _.
    repeat rewrite ?nth_add, ?nth_sub by (len; rewrite ?length_image; lia). ring. }
  rewrite E, dot_add_add by (len; rewrite ?length_image; lia). rewrite Hx by len. pose proof (dot_self_nonneg (image A (sub z x))). lra.
Qed.
Lemma solve_exists A y : A <> [] -> Forall (fun a => length a = length A) A -> length y = length A -> nonsingular (length A) A ->
  exists x, length x = length A /\ image A x = y.
Proof.
  intros Hne F Ly Hn. set (n := length A) in *. assert (HA : points_ok n A) by (split; auto; split; auto; unfold n; destruct A; [contradiction|simpl; lia]).
  destruct (normal_equations n A y HA Ly) as (x & Lx & Hx). exists x. split; auto.
  destruct (svd_exists n A HA) as (U & S & Vh & H). assert (LS : length S = n) by (rewrite (sv_len _ _ _ _ _ H); fold n; lia).
  set (e := sub (image A x) y) in *. assert (Le : length e = n) by (unfold e; rewrite length_sub, length_image; fold n; lia).
  set (us := map (fun k => map (fun i => ent U i k) (seq 0 n)) (seq 0 n)).
  assert (Lus : length us = n) by (unfold us; rewrite map_length, seq_length; auto).
  assert (Nus : forall k, (k < n)%nat -> nth k us [] = map (fun i => ent U i k) (seq 0 n)) by (intros; unfold us; rewrite nth_map_seq; auto).
  assert (Ou : onb n us).
  { split; rewrite Lus.
    - intros k Hk. rewrite Nus by auto. rewrite map_length, seq_length; auto.
    - intros j k Hj Hk. rewrite !Nus by auto. rewrite (dot_Sum _ _ n) by (rewrite map_length, seq_length; auto).
      rewrite <- (sv_U _ _ _ _ _ H) by lia. fold n. apply Sum_ext. intros i Hi. rewrite !nth_map_seq by auto. reflexivity. }
  assert (e0 : e = origin n).
  { apply (onb_complete n us); auto. intros w Hw. apply (In_nth _ _ []) in Hw as (k & Hk & <-). rewrite Lus in Hk.
    rewrite Nus by auto. rewrite (dot_Sum _ _ n) by (auto; rewrite map_length, seq_length; auto).
    rewrite (Sum_ext n _ (fun i => ent U i k * nth i e 0)) by (intros i Hi; rewrite nth_map_seq by auto; reflexivity).
    assert (LVk : length (nth k Vh []) = n) by (apply (sv_dim _ _ _ _ _ H); lia).
    assert (E : dot (image A (nth k Vh [])) e = 0) by (apply Hx; auto).
    assert (Ai : forall i, (i < n)%nat -> dot (nth i A []) (nth k Vh []) = ent U i k * nth k S 0).
    { intros i Hi. rewrite (svd_row_dot n A U S Vh) by auto. rewrite (Sum_ext _ _ (fun l => ent U i l * nth l S 0 * delta l k)).
      - rewrite (Sum_delta (length S) k (fun l => ent U i l * nth l S 0)) by lia. reflexivity.
      - intros l Hl. rewrite (sv_V _ _ _ _ _ H) by lia. reflexivity. }
    rewrite (dot_Sum _ _ n) in E by (auto; apply length_image).
    rewrite (Sum_ext n _ (fun i => nth k S 0 * (ent U i k * nth i e 0))) in E by (intros i Hi; rewrite nth_image, Ai by auto; ring).
    rewrite Sum_scale in E. apply Rmult_integral in E as [E|E]; auto. exfalso.
    assert (Z : nth k Vh [] = origin n).
    { apply Hn; auto. intros a Ha. apply (In_nth _ _ []) in Ha as (i & Hi & <-). rewrite Ai by auto. rewrite E. ring. }
    pose proof (sv_V _ _ _ _ _ H k k ltac:(lia) ltac:(lia)) as D. rewrite Z, delta_eq, dot_origin_l in D. lra. }
  unfold e in e0. apply sub_eq_origin; [rewrite length_image; auto|]. rewrite e0, length_image. reflexivity.
Qed.

(** An implementation meeting all three specifications (chosen non-constructively). *)
Definition ideal_linalg : linalg RNum := MkLinalg (N:=RNum)
  (fun A => match excluded_middle_informative (exists usv : list pt * list R * list pt, let '(U, sv, Vh) := usv in svd_spec (length (hd [] A)) A U sv Vh) with
            | left H => Ok (proj1_sig (constructive_indefinite_description _ H))
            | right _ => Raise (LinAlgError "failed") end)
  (fun A y => match excluded_middle_informative (exists x, length x = length A /\ image A x = y) with
            | left H => Ok (proj1_sig (constructive_indefinite_description _ H))
            | right _ => Raise (LinAlgError "failed") end)
  (fun A y => match excluded_middle_informative (exists x, length x = length (hd [] A) /\ forall z, length z = length (hd [] A) -> dist (image A x) y <= dist (image A z) y) with
            | left H => Ok (proj1_sig (constructive_indefinite_description _ H))
            | right _ => Raise (LinAlgError "failed") end).

Theorem ideal_linalg_correct : svd_correct ideal_linalg /\ solve_correct ideal_linalg /\ lstsq_correct ideal_linalg.
Proof.
  assert (Hd : forall d A, points_ok d A -> length (hd [] A) = d).
  { intros d A (Hne & _ & F). destruct F; [contradiction|auto]. }
  split; [|split].
  - intros d A HA. simpl. destruct excluded_middle_informative as [H|H].
    + destruct (constructive_indefinite_description _ H) as (((U & sv) & Vh) & Hs). exists U, sv, Vh. split; [reflexivity|]. rewrite (Hd d A HA) in Hs. exact Hs.
    + exfalso. apply H. destruct (svd_exists d A HA) as (U & S & Vh & Hs). exists (U, S, Vh). rewrite (Hd d A HA). exact Hs.
  - intros A y Hne F Ly Hn. simpl. destruct excluded_middle_informative as [H|H].
    + destruct (constructive_indefinite_description _ H) as (x & Lx & Hx). exists x. split; [reflexivity|]. split; auto.
    + exfalso. apply H. apply solve_exists; auto.
  - intros d A y HA Ly. simpl. destruct excluded_middle_informative as [H|H].
    + destruct (constructive_indefinite_description _ H) as (x & Lx & Hx). exists x. split; [reflexivity|]. simpl. rewrite (Hd d A HA) in *. split; auto.
    + exfalso. apply H. rewrite (Hd d A HA). apply lstsq_exists; auto.
Qed.
Print Assumptions ideal_linalg_correct.
