(** * affine_rank in terms of the SVD of the centred rows *)
From Coq Require Import Reals List Lra Lia Psatz ZArith.
From Verif.Model Require Import Outcome Num Instances Numpy BaseArray Vector Points.
From Verif.Spec Require Import Geometry Mesh Linalg.
From Verif.Proof Require Import VecAlg Bridge Points Lincomb Svd SvdExists.
Import ListNotations.
Local Open Scope R_scope.

Definition centered (d : nat) (u : list pt) : list pt := map (fun r => sub r (cent d u)) u.
Lemma centered_ok d u : points_ok d u -> points_ok d (centered d u).
Proof.
  intros (Hne & Hd & F). split; [unfold centered; destruct u; [contradiction|discriminate]|]. split; auto. unfold centered. apply Forall_map.
  pose proof (length_cent d u F). eapply Forall_impl; [|exact F]. simpl. intros. len.
Qed.

Lemma nth_centered d u i : (i < length u)%nat -> nth i (centered d u) [] = sub (nth i u []) (cent d u).
Proof.
  intro Hi. unfold centered. set (f := fun r => sub r (cent d u)). rewrite (nth_indep _ [] (f [])) by (rewrite map_length; auto). rewrite map_nth. reflexivity.
Qed.

(** The threshold used by matrix_rank. *)
Definition threshold (tolerance : option R) (n d : nat) (S : list R) : R :=
  match tolerance with
  | None => vmax (N:=RNum) S * (IZR (Z.of_nat (Nat.max n d)) * Rdyad 1 52)
  | Some t => t
  end.
Definition tol_nonneg (tolerance : option R) : Prop := match tolerance with None => True | Some t => 0 <= t end.

Lemma svd_max d A U S Vh : points_ok d A -> svd_spec d A U S Vh -> S <> [] /\ vmax (N:=RNum) S = nth 0 S 0.
Proof.
  intros (Hne & Hd & _) H. assert (L : (0 < length S)%nat).
  { rewrite (sv_len _ _ _ _ _ H). destruct A; [contradiction|]. cbn [length]. lia. }
  assert (Sn : S <> []) by (destruct S; [simpl in L; lia|discriminate]). split; auto.
  destruct (vmax_spec S Sn) as (Hin & Hle). apply Rle_antisym.
  - apply (In_nth _ _ 0) in Hin as (k & Hk & <-). apply (sv_decr _ _ _ _ _ H). lia.
  - apply Hle. apply nth_In. auto.
Qed.
Lemma threshold_nonneg d A U S Vh tolerance n' d' : points_ok d A -> svd_spec d A U S Vh -> tol_nonneg tolerance ->
  0 <= threshold tolerance n' d' S.
Proof.
  intros HA H Ht. destruct tolerance as [t|]; [exact Ht|]. unfold threshold. destruct (svd_max d A U S Vh HA H) as (Sn & ->).
  apply Rmult_le_pos. { apply (sv_nonneg _ _ _ _ _ H). destruct S; [contradiction|simpl; lia]. }
  apply Rmult_le_pos; [apply IZR_le; lia|]. unfold Rdyad. apply Rlt_le, Rdiv_lt_0_compat; [lra|]. apply IZR_lt. lia.
Qed.

Lemma affine_rank_R LA tolerance d rows : svd_correct LA -> points_ok d rows ->
  exists U S Vh, let u := np_unique (N:=RNum) rows in
    svd_spec d (centered d u) U S Vh /\
    affine_rank LA tolerance rows = Ok (length (filter (fun x => Rltb (threshold tolerance (length u) d S) x) S)).
Proof.
  intros HL H. destruct (unique_R d rows H) as [E Hu]. set (u := np_unique (N:=RNum) rows) in *.
  destruct (HL d (centered d u) (centered_ok d u Hu)) as (U & S & Vh & Es & Hs). exists U, S, Vh. split; auto.
  unfold affine_rank. rewrite E. cbn [bind]. unfold mean_center. rewrite (mean_center_c_R d) by auto. cbn [bind].
  unfold matrix_rank. fold (centered d u). rewrite Es. cbn [bind]. rewrite (dim2_ok d) by auto.
  assert (Lc : length (centered d u) = length u) by (unfold centered; apply map_length). f_equal. f_equal. rn. rewrite Lc. destruct tolerance; reflexivity.
Qed.

(** Linear combinations are linear. *)
Lemma lincomb_nil d bs : lincomb d [] bs = origin d.
Proof. destruct bs; reflexivity. Qed.
Lemma lincomb_add d cs es bs : Forall (fun r => length r = d) bs -> length cs = length bs -> length es = length bs ->
  lincomb d (add cs es) bs = add (lincomb d cs bs) (lincomb d es bs).
Proof.
  intros F L1 L2. apply pt_ext; [rewrite length_add, !length_lincomb by auto; lia|]. intros j _.
  rewrite nth_add by (rewrite !length_lincomb; auto). rewrite !nth_lincomb by (auto; rewrite ?length_add, ?L1, ?L2; lia).
  rewrite <- Sum_add. apply Sum_ext. intros k _. rewrite nth_add by congruence. ring.
Qed.
Lemma lincomb_scale d s cs bs : Forall (fun r => length r = d) bs -> length cs = length bs ->
  lincomb d (scale s cs) bs = scale s (lincomb d cs bs).
Proof.
  intros F L1. apply pt_ext; [rewrite length_scale, !length_lincomb by auto; lia|]. intros j _.
  rewrite nth_scale. rewrite !nth_lincomb by (auto; rewrite ?length_scale; auto).
  rewrite <- Sum_scale. apply Sum_ext. intros k _. rewrite nth_scale. ring.
Qed.
Lemma lincomb_origin d m bs : Forall (fun r => length r = d) bs -> lincomb d (origin m) bs = origin d.
Proof.
  intro F. revert m. induction F as [|b bs Hb F IH]; intros [|m]; simpl; auto. fold (origin m). rewrite IH, scale_0, Hb. apply add_origin_r, length_origin.
Qed.

Lemma flat_centered d m u : points_ok d u ->
  (in_flat d m u <-> exists dirs, length dirs = m /\ Forall (fun v => length v = d) dirs /\
     forall a, In a (centered d u) -> exists cs, length cs = m /\ a = lincomb d cs dirs).
Proof.
  intros (Hne & Hd & F). pose proof (length_cent d u F) as Lc. assert (Fu := F). rewrite Forall_forall in Fu. split.
  - intros (p & dirs & Lp & Ld & Fd & Hx). exists dirs. split; auto. split; auto.
    assert (V : exists cs, length cs = m /\ vsum d u = add (scale (INR (length u)) p) (lincomb d cs dirs)).
    { clear Hne Lc. induction u as [|x u IH].
      - exists (origin m). split; [apply length_origin|]. simpl. rewrite scale_0, lincomb_origin by auto. rewrite Lp, add_origin_r by apply length_origin. reflexivity.
      - inversion F; subst. destruct IH as (cs & Lcs & E); auto. { intros y Hy. apply Fu. right; auto. } { intros y Hy. apply Hx. right; auto. }
        destruct (Hx x (or_introl eq_refl)) as (es & Les & Ex). exists (add es cs). split; [rewrite length_add; lia|].
        rewrite lincomb_add by (auto; congruence). unfold vsum in *. cbn [fold_right length]. rewrite E, Ex, S_INR.
        set (a := lincomb _ es dirs). set (b := lincomb _ cs dirs).
        assert (La : length a = length p) by (unfold a; rewrite length_lincomb; auto). assert (Lb : length b = length p) by (unfold b; rewrite length_lincomb; auto).
        apply pt_ext; [len|]. intros i _. repeat rewrite ?nth_add, ?nth_scale by len. ring. }
    destruct V as (cm & Lcm & E). intros a Ha. apply in_map_iff in Ha as (x & <- & Hin). destruct (Hx x Hin) as (es & Les & Ex).
    exists (sub es (scale (/ INR (length u)) cm)). split; [len|].
    assert (Ls : length (scale (/ INR (length u)) cm) = m) by len.
    rewrite (sub_scale es) by len. rewrite lincomb_add, !lincomb_scale by (auto; len). rewrite Ex. unfold cent. rewrite E.
    set (a := lincomb d es dirs). set (b := lincomb d cm dirs).
    assert (La : length a = d) by (unfold a; rewrite length_lincomb; auto). assert (Lb : length b = d) by (unfold b; rewrite length_lincomb; auto).
    pose proof (INR_length_pos u Hne).
    apply pt_ext; [len|]. intros i _. repeat rewrite ?nth_add, ?nth_scale, ?nth_sub by len. field. lra.
  - intros (dirs & Ld & Fd & Ha). exists (cent d u), dirs. split; auto. split; auto. split; auto. intros x Hin.
    destruct (Ha (sub x (cent d u))) as (cs & Lcs & E). { unfold centered. apply (in_map (fun r => sub r (cent d u))); auto. }
    exists cs. split; auto. rewrite <- E. symmetry. apply add_sub_cancel. rewrite (Fu x Hin). auto.
Qed.

Lemma flat_same_set d m u w : (forall x, In x u <-> In x w) -> in_flat d m u -> in_flat d m w.
Proof. intros E (p & dirs & Lp & Ld & Fd & Hx). exists p, dirs. split; auto. split; auto. split; auto. intros x Hin. apply Hx, E, Hin. Qed.

Lemma unique_flat d m rows : points_ok d rows -> (in_flat d m (np_unique (N:=RNum) rows) <-> in_flat d m rows).
Proof. intros (_ & _ & F). destruct (np_unique_spec d rows F) as (_ & I & _). split; apply flat_same_set; intro x; rewrite I; tauto. Qed.

Lemma flat_concurrent d rows : points_ok d rows -> (in_flat d 0 rows <-> concurrent rows).
Proof.
  intros (Hne & Hd & F). rewrite Forall_forall in F. split.
  - intros (p & dirs & Lp & Ld & Fd & Hx) a b Ha Hb. destruct (Hx a Ha) as (cs & Lcs & ->), (Hx b Hb) as (es & Les & ->).
    destruct cs, es; simpl in *; try discriminate. reflexivity.
  - intro C. destruct rows as [|x rows]; [contradiction|]. exists x, []. split; [apply F; left; auto|]. split; auto. split; auto.
    intros y Hy. exists []. split; auto. rewrite (C y x Hy (or_introl eq_refl)). simpl. symmetry. apply add_origin_r. apply F; left; auto.
Qed.
Lemma flat_collinear d rows : points_ok d rows -> (in_flat d 1 rows <-> collinear rows).
Proof.
  intros (Hne & Hd & F). rewrite Forall_forall in F. split.
  - intros (p & dirs & Lp & Ld & Fd & Hx). destruct dirs as [|e [|]]; try discriminate. inversion Fd; subst.
    exists p, e. split; [congruence|]. intros x Hin. destruct (Hx x Hin) as (cs & Lcs & ->). destruct cs as [|c [|]]; try discriminate.
    exists c. simpl. rewrite add_origin_r; auto. rewrite length_scale; auto.
  - intros (p & e & Le & Hx). destruct rows as [|x0 rows]; [contradiction|].
    assert (Lp : length p = d). { destruct (Hx x0 (or_introl eq_refl)) as (t & E). rewrite <- (F x0 (or_introl eq_refl)), E, length_add, length_scale. lia. }
    exists p, [e]. split; auto. split; auto. split; [constructor; [congruence|constructor]|]. intros x Hin. destruct (Hx x Hin) as (t & ->).
    exists [t]. split; auto. simpl. rewrite add_origin_r; auto. rewrite length_scale; congruence.
Qed.
Lemma flat_coplanar d rows : points_ok d rows -> (in_flat d 2 rows <-> coplanar rows).
Proof.
  intros (Hne & Hd & F). rewrite Forall_forall in F. split.
  - intros (p & dirs & Lp & Ld & Fd & Hx). destruct dirs as [|e [|f [|]]]; try discriminate. inversion Fd; subst. inversion H2; subst.
    exists p, e, f. split; [congruence|]. split; [congruence|]. intros x Hin. destruct (Hx x Hin) as (cs & Lcs & ->). destruct cs as [|c [|c' [|]]]; try discriminate.
    exists c, c'. simpl. rewrite add_origin_r; [|rewrite length_scale; congruence]. rewrite add_assoc. reflexivity.
  - intros (p & e & f & Le & Lf & Hx). destruct rows as [|x0 rows]; [contradiction|].
    assert (Lp : length p = d). { destruct (Hx x0 (or_introl eq_refl)) as (s & t & E). rewrite <- (F x0 (or_introl eq_refl)), E, !length_add, !length_scale. lia. }
    exists p, [e; f]. split; auto. split; auto. split; [constructor; [congruence|constructor; [congruence|constructor]]|]. intros x Hin. destruct (Hx x Hin) as (s & t & ->).
    exists [s; t]. split; auto. simpl. rewrite add_origin_r; [|rewrite length_scale; congruence]. rewrite add_assoc. reflexivity.
Qed.

Lemma flat_rank_le LA tolerance d m rows : svd_correct LA -> points_ok d rows -> tol_nonneg tolerance -> in_flat d m rows ->
  exists r, affine_rank LA tolerance rows = Ok r /\ (r <= m)%nat.
Proof.
  intros HL H Ht Hf. destruct (affine_rank_R LA tolerance d rows HL H) as (U & S & Vh & Hs & E). rewrite E. eexists. split; [reflexivity|].
  destruct (unique_R d rows H) as [_ Hu]. set (u := np_unique (N:=RNum) rows) in *. pose proof (centered_ok d u Hu) as Hc.
  pose proof (threshold_nonneg d _ _ _ _ tolerance (length u) d Hc Hs Ht) as Pt.
  destruct (count_above (threshold tolerance (length u) d S) S (sv_decr _ _ _ _ _ Hs)) as (C1 & C2 & C3).
  set (c := length (filter _ S)) in *. destruct (Nat.le_gt_cases c m) as [|L]; auto. exfalso.
  apply unique_flat in Hf; auto. fold u in Hf. apply flat_centered in Hf as (dirs & Ld & Fd & Ha); auto.
  pose proof (svd_rank_le d _ _ _ _ Hc Hs m dirs Ld Fd Ha ltac:(lia)). pose proof (C2 m L). lra.
Qed.
Lemma rank_flat d m A U S Vh : points_ok d A -> svd_spec d A U S Vh -> (m <= length S)%nat -> (forall k, (m <= k < length S)%nat -> nth k S 0 = 0) ->
  exists dirs, length dirs = m /\ Forall (fun v => length v = d) dirs /\ forall a, In a A -> exists cs, length cs = m /\ a = lincomb d cs dirs.
Proof. intros HA Hs Hm Hz. exists (firstn m Vh). apply (svd_span d A U S Vh); auto. Qed.
Lemma zero_tol_flat LA d rows r : svd_correct LA -> points_ok d rows -> affine_rank LA (Some 0) rows = Ok r -> in_flat d r rows.
Proof.
  intros HL H. destruct (affine_rank_R LA (Some 0) d rows HL H) as (U & S & Vh & Hs & E). rewrite E. intro Er. injection Er as <-.
  destruct (unique_R d rows H) as [_ Hu]. set (u := np_unique (N:=RNum) rows) in *. pose proof (centered_ok d u Hu) as Hc.
  destruct (count_above (threshold (Some 0) (length u) d S) S (sv_decr _ _ _ _ _ Hs)) as (C1 & C2 & C3).
  apply unique_flat; auto. apply flat_centered; auto. eapply rank_flat; eauto.
  intros k Hk. pose proof (C3 k Hk). simpl in H0. pose proof (sv_nonneg _ _ _ _ _ Hs k ltac:(lia)). lra.
Qed.

(** Soundness of a positive tolerance: the points are close to a flat of the reported dimension. *)
Lemma rank_near LA tolerance d rows r : svd_correct LA -> points_ok d rows -> tol_nonneg tolerance -> affine_rank LA tolerance rows = Ok r ->
  exists U S Vh, let u := np_unique (N:=RNum) rows in let T := threshold tolerance (length u) d S in
    svd_spec d (centered d u) U S Vh /\ 0 <= T /\ (r <= length S)%nat /\
    forall eps, 0 <= eps -> INR (length S) * (T * T) <= eps * eps -> near_flat d r eps rows.
Proof.
  intros HL H Ht. destruct (affine_rank_R LA tolerance d rows HL H) as (U & S & Vh & Hs & E). rewrite E. intro Er. injection Er as Er.
  destruct (unique_R d rows H) as [_ Hu]. pose proof H as (_ & _ & F). destruct (np_unique_spec d rows F) as (_ & I & _).
  set (u := np_unique (N:=RNum) rows) in *. pose proof (centered_ok d u Hu) as Hc.
  pose proof (threshold_nonneg d _ _ _ _ tolerance (length u) d Hc Hs Ht) as Pt.
  destruct (count_above (threshold tolerance (length u) d S) S (sv_decr _ _ _ _ _ Hs)) as (C1 & _ & C3). rn. rewrite Er in C1, C3.
  exists U, S, Vh. split; auto. split; auto. split; auto. intros eps Pe Be. set (T := threshold tolerance (length u) d S) in *.
  pose proof Hu as (Hne & Hd & Fu). pose proof (length_cent d u Fu) as Lc.
  destruct (svd_span_dirs d _ _ _ _ Hs r C1) as (Ld & Fd).
  exists (cent d u), (firstn r Vh). split; auto. split; auto. split; auto. intros x Hx. apply I in Hx.
  apply (In_nth _ _ []) in Hx as (i & Hi & <-). rewrite Forall_forall in Fu. assert (Lx : length (nth i u []) = d) by (apply Fu, nth_In; auto).
  assert (Hi' : (i < length (centered d u))%nat) by (unfold centered; rewrite map_length; auto).
  destruct (svd_residual d _ _ _ _ Hc Hs r i C1 Hi') as (Ly & Ry).
  eexists. split; [|]. 2:{
    assert (Ei : nth i (centered d u) [] = sub (nth i u []) (cent d u)).
    { apply nth_centered. auto. }
    set (y := lincomb d (map (fun k => dot (nth i (centered d u) []) (nth k Vh [])) (seq 0 r)) (firstn r Vh)) in *.
    instantiate (1 := map (fun k => dot (nth i (centered d u) []) (nth k Vh [])) (seq 0 r)). fold y.
    assert (Ed : dist (nth i u []) (add (cent d u) y) = dist (nth i (centered d u) []) y).
    { unfold dist. f_equal. rewrite Ei. apply sub_sub_l; congruence. }
    rewrite Ed. apply Rsqr_incr_0_var; auto. unfold Rsqr. rewrite Ry. eapply Rle_trans; [|exact Be].
    eapply Rle_trans; [apply (Sum_bound _ _ (T * T))|].
    - intros k Hk. pose proof (C3 (r + k)%nat ltac:(lia)) as Q. pose proof (sv_nonneg _ _ _ _ _ Hs (r + k)%nat ltac:(lia)) as P0.
      pose proof (svd_U_bound d _ _ _ _ Hs i (r + k)%nat Hi' ltac:(lia)) as B. set (q := ent U i (r + k)) in *. set (s := nth (r + k) S 0) in *.
      replace (q * s * (q * s)) with (q * q * (s * s)) by ring. assert (s * s <= T * T) by nra. pose proof (Rle_0_sqr q). unfold Rsqr in *. nra.
    - apply Rmult_le_compat_r; [nra|]. apply le_INR. lia. }
  rewrite map_length, seq_length. reflexivity.
Qed.

Lemma default_near LA d rows r D : svd_correct LA -> points_ok d rows -> affine_rank LA None rows = Ok r ->
  (forall x y, In x rows -> In y rows -> dist x y <= D) ->
  let M := INR (Nat.max (length rows) d) in near_flat d r (M * M * / 2 ^ 52 * D) rows.
Proof.
  intros HL H Er HD M. destruct (rank_near LA None d rows r HL H I Er) as (U & S & Vh & Hs & Pt & Cr & Hn).
  destruct (unique_R d rows H) as [_ Hu]. pose proof H as (Hne & Hd & F). destruct (np_unique_spec d rows F) as (Ss & Iu & _).
  set (u := np_unique (N:=RNum) rows) in *. pose proof (centered_ok d u Hu) as Hc.
  assert (PD : 0 <= D). { destruct rows as [|x rows]; [contradiction|]. rewrite <- (dist_refl x). apply HD; left; auto. }
  assert (Lu : (length u <= length rows)%nat).
  { apply NoDup_incl_length; [apply sorted_nodup; auto|]. intros x Hx. apply Iu, Hx. }
  assert (PM : 0 <= M) by apply pos_INR. assert (P52 : 0 < / 2 ^ 52) by (apply Rinv_0_lt_compat, pow_lt; lra).
  apply Hn. { repeat apply Rmult_le_pos; auto. lra. }
  destruct (svd_max d _ _ _ _ Hc Hs) as (Sn & Em). unfold threshold. rewrite Em.
  assert (L0 : (0 < length S)%nat) by (destruct S; [contradiction|simpl; lia]).
  pose proof (sv_nonneg _ _ _ _ _ Hs 0%nat L0) as P0. set (s0 := nth 0 S 0) in *.
  assert (B0 : s0 * s0 <= INR (length u) * (D * D)).
  { apply Rle_trans with (Sum (length S) (fun k => nth k S 0 * nth k S 0)).
    { apply (Sum_ge_term (length S) (fun k => nth k S 0 * nth k S 0) 0); auto. intros. nra. }
    rewrite <- (svd_frob d _ _ _ _ Hc Hs).
    assert (E : Sum (length (centered d u)) (fun i => dot (nth i (centered d u) []) (nth i (centered d u) [])) = sumsq u (cent d u)).
    { unfold sumsq. rewrite (Rsum_map_nth _ u []). unfold centered at 1. rewrite map_length. apply Sum_ext. intros i Hi. rewrite dist_sq.
      rewrite nth_centered by auto. reflexivity. }
    rewrite E. clear E. pose proof Hu as (Hneu & _ & Fu). destruct u as [|x0 u']; [contradiction|]. set (u := x0 :: u') in *.
    assert (Lx0 : length x0 = d) by (inversion Fu; auto).
    pose proof (sumsq_split d u x0 Hu Lx0) as Q. apply Rle_trans with (sumsq u x0).
    { rewrite Q. pose proof (Rmult_le_pos _ _ (pos_INR (length u)) (Rle_0_sqr (dist x0 (cent d u)))) as Q'. unfold Rsqr in Q'. rn. lra. }
    rn.
    unfold sumsq. rewrite (Rsum_map_nth _ u []). apply Sum_bound. intros i Hi.
    assert (dist (nth i u []) x0 <= D) by (apply HD; apply Iu; [apply nth_In; auto|left; auto]). pose proof (dist_nonneg (nth i u []) x0). nra. }
  set (Mu := IZR (Z.of_nat (Nat.max (length u) d))). assert (PMu : 0 <= Mu) by (apply IZR_le; lia).
  assert (BM : Mu <= M) by (unfold Mu, M; rewrite INR_IZR_INZ; apply IZR_le; lia).
  assert (Ed : Rdyad 1 52 = / 2 ^ 52) by (unfold Rdyad, Rdiv; rewrite Rmult_1_l; f_equal; rewrite pow_IZR; reflexivity).
  rewrite Ed. set (e := / 2 ^ 52) in *.
  assert (Br : INR (length S) <= M) by (apply le_INR; rewrite (sv_len _ _ _ _ _ Hs); lia).
  assert (Bu : INR (length u) <= M) by (apply le_INR; lia).
  pose proof (pos_INR (length S)). pose proof (pos_INR (length u)).
  replace (INR (length S) * (s0 * (Mu * e) * (s0 * (Mu * e)))) with (INR (length S) * (s0 * s0) * (Mu * Mu) * (e * e)) by ring.
  replace (M * M * e * D * (M * M * e * D)) with (M * (M * (D * D)) * (M * M) * (e * e)) by ring.
  apply Rmult_le_compat_r; [nra|]. apply Rmult_le_compat; [repeat apply Rmult_le_pos; auto|nra| |nra].
  apply Rmult_le_compat; auto; [nra|]. eapply Rle_trans; [exact B0|]. apply Rmult_le_compat_r; [nra|auto].
Qed.

(** A family within [eps] of a flat of dimension m < d: there is a unit direction in which the family extends at most 2 eps;
    it can be chosen orthogonal to fewer than d - m further directions. *)
Lemma near_flat_direction d m eps rows ws : near_flat d m eps rows -> Forall (fun r => length r = d) rows -> Forall (fun w => length w = d) ws -> (m + length ws < d)%nat ->
  exists w, length w = d /\ dot w w = 1 /\ (forall z, In z ws -> dot z w = 0) /\ forall x y, In x rows -> In y rows -> Rabs (dot (sub x y) w) <= 2 * eps.
Proof.
  intros (p & dirs & Lp & Ld & Fd & Hx) F Fw Lm. destruct (exists_orth d (dirs ++ ws)) as (w & Lw & Uw & Ow); [rewrite app_length; lia|apply Forall_app; auto|].
  exists w. split; auto. split; auto. split; [intros z Hz; apply Ow, in_or_app; auto|].
  rewrite Forall_forall in F. intros x y Ix Iy.
  assert (K : forall z, In z rows -> Rabs (dot (sub z p) w) <= eps).
  { intros z Iz. destruct (Hx z Iz) as (cs & Lcs & B). assert (Lc : length (lincomb d cs dirs) = d) by (apply length_lincomb; auto).
    assert (E : dot (sub z p) w = dot (sub z (add p (lincomb d cs dirs))) w).
    { assert (Lz := F z Iz). rewrite !dot_sub_l, dot_add_l by (rewrite ?length_add; lia). rewrite (dot_lincomb_perp d cs dirs w); auto; [ring|].
      apply Forall_forall. intros b Hb. apply Ow, in_or_app. auto. }
    rewrite E. eapply Rle_trans; [apply cauchy_schwarz; rewrite length_sub, length_add, F by auto; lia|]. fold (dist z (add p (lincomb d cs dirs))).
    assert (Lw1 : len w = 1) by (apply len_eq_val; lra). rewrite Lw1. lra. }
  assert (Lx := F x Ix). assert (Ly := F y Iy).
  replace (dot (sub x y) w) with (dot (sub x p) w - dot (sub y p) w) by (rewrite !dot_sub_l by congruence; ring).
  pose proof (K x Ix) as Kx. pose proof (K y Iy) as Ky. unfold Rabs in *. repeat destruct Rcase_abs; lra.
Qed.
Lemma lincomb_pad d j cs dirs : Forall (fun v => length v = d) dirs -> length cs = length dirs ->
  lincomb d (cs ++ repeat 0 j) (dirs ++ repeat (origin d) j) = lincomb d cs dirs.
Proof.
  intros Fd L. revert cs L. induction Fd as [|e dirs He Fd IH]; intros [|c cs] L; simpl in *; try discriminate.
  - induction j as [|j IH]; simpl; auto. rewrite IH, scale_0, length_origin. apply add_origin_r, length_origin.
  - f_equal. apply IH. lia.
Qed.
Lemma near_flat_mono d m m' eps rows : (m <= m')%nat -> near_flat d m eps rows -> near_flat d m' eps rows.
Proof.
  intros Hm (p & dirs & Lp & Ld & Fd & Hx). exists p, (dirs ++ repeat (origin d) (m' - m)). split; auto. split; [rewrite app_length, repeat_length; lia|].
  split. { apply Forall_app; split; auto. apply Forall_forall. intros e He. apply repeat_spec in He. subst. apply length_origin. }
  intros x Hin. destruct (Hx x Hin) as (cs & Lcs & B). exists (cs ++ repeat 0 (m' - m)). split; [rewrite app_length, repeat_length; lia|].
  rewrite lincomb_pad by (auto; congruence). auto.
Qed.
