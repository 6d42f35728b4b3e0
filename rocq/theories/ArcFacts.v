(** * ArcFacts: the lengths of the slice bases against the length of the arc (C94). *)
From Coq Require Import ZArith Reals Lra Lia List Bool.
From Verif Require Import Num Py Validation Utilities Objects Slope Planes Analysis
     RealNum RealFacts ListFacts Spec CircleFacts PlaneFacts SoilFacts SliceFacts ViewFacts FosFacts FosMore
     CohesiveFacts MidSum SliceLimit CutFacts CutLimit CutCode.
Import ListNotations.
Local Open Scope R_scope.

(** ** Two inequalities *)
Lemma x_cos_le_sin x : 0 <= x <= PI / 2 -> x * cos x <= sin x.
Proof.
  intros X. destruct (Rle_lt_or_eq_dec 0 x (proj1 X)) as [P|<-]; [|rewrite sin_0; lra].
  destruct (MVT_cor2 (fun y => sin y - y * cos y) (fun y => y * sin y) 0 x P) as (c & E & C).
  - intros c C. replace (c * sin c) with (cos c - (1 * cos c + c * - sin c)) by ring.
    apply (derivable_pt_lim_minus sin (fun y => y * cos y)); [apply derivable_pt_lim_sin|].
    apply (derivable_pt_lim_mult (fun y => y) cos); [apply derivable_pt_lim_id|apply derivable_pt_lim_cos].
  - rewrite sin_0 in E. assert (0 <= sin c) by (apply sin_ge_0; pose proof PI_RGT_0; lra).
    assert (0 <= c * sin c * (x - 0)) by (repeat apply Rmult_le_pos; lra). lra.
Qed.
Lemma sin_le_x x : 0 <= x -> sin x <= x.
Proof. intros X. destruct (Rle_lt_or_eq_dec 0 x X) as [P|<-]; [left; now apply sin_lt_x|rewrite sin_0; lra]. Qed.

(** angles [t1 < t2]: the chord of the sines against the angle *)
Lemma mid_angle t1 t2 : - (PI / 2) < t1 -> t1 <= t2 -> t2 < PI / 2 ->
  sin t2 - sin t1 <= (t2 - t1) * sqrt (1 - (sin t1 + sin t2) / 2 * ((sin t1 + sin t2) / 2)).
Proof.
  intros A B C. set (d := (t2 - t1) / 2). set (s := (t1 + t2) / 2).
  assert (CS : 0 < cos s) by (apply cos_gt_0; unfold s; lra).
  assert (E1 : sin t2 = sin s * cos d + cos s * sin d) by (rewrite <- sin_plus; f_equal; unfold s, d; lra).
  assert (E2 : sin t1 = sin s * cos d - cos s * sin d) by (rewrite <- sin_minus; f_equal; unfold s, d; lra).
  assert (DS : 0 <= d) by (unfold d; lra).
  pose proof (sin_le_x d DS) as SD.
  assert (LE : cos s <= sqrt (1 - (sin t1 + sin t2) / 2 * ((sin t1 + sin t2) / 2))).
  { rewrite <- (sqrt_square (cos s)) by lra. apply sqrt_le_1_alt.
    replace ((sin t1 + sin t2) / 2) with (sin s * cos d) by (rewrite E1, E2; field).
    pose proof (sin2_cos2 s) as Q1. pose proof (sin2_cos2 d) as Q2. unfold Rsqr in *.
    replace (1 - sin s * cos d * (sin s * cos d)) with (cos s * cos s + sin s * sin s * (sin d * sin d)).
    - pose proof (Rle_0_sqr (sin s * sin d)) as Q. unfold Rsqr in Q. nra.
    - replace (cos d * cos d) with (1 - sin d * sin d) by lra.
      replace (sin s * cos d * (sin s * cos d)) with (sin s * sin s * (cos d * cos d)) by ring.
      replace (cos d * cos d) with (1 - sin d * sin d) by lra.
      replace (cos s * cos s) with (1 - sin s * sin s) by lra. ring. }
  replace (sin t2 - sin t1) with (2 * (cos s * sin d)) by (rewrite E1, E2; ring).
  replace (t2 - t1) with (2 * d) by (unfold d; field).
  rewrite Rmult_assoc. apply Rmult_le_compat_l; [lra|]. rewrite (Rmult_comm (cos s)). apply Rle_trans with (d * cos s).
  - apply Rmult_le_compat_r; lra.
  - apply Rmult_le_compat_l; auto.
Qed.
Lemma end_angle t1 t2 : - (PI / 2) < t1 -> t1 <= t2 -> t2 < PI / 2 ->
  t2 - t1 <= (sin t2 - sin t1) / 2 * (/ cos t1 + / cos t2).
Proof.
  intros A B C. set (d := (t2 - t1) / 2). set (s := (t1 + t2) / 2).
  assert (C1 : 0 < cos t1) by (apply cos_gt_0; lra). assert (C2 : 0 < cos t2) by (apply cos_gt_0; lra).
  assert (CS : 0 < cos s) by (apply cos_gt_0; unfold s; lra).
  assert (CD : 0 < cos d) by (apply cos_gt_0; unfold d; lra).
  assert (E1 : sin t2 - sin t1 = 2 * (cos s * sin d)).
  { replace (sin t2) with (sin (s + d)) by (f_equal; unfold s, d; lra).
    replace (sin t1) with (sin (s - d)) by (f_equal; unfold s, d; lra). rewrite sin_plus, sin_minus. ring. }
  assert (E2 : cos t2 = cos s * cos d - sin s * sin d) by (rewrite <- cos_plus; f_equal; unfold s, d; lra).
  assert (E3 : cos t1 = cos s * cos d + sin s * sin d) by (rewrite <- cos_minus; f_equal; unfold s, d; lra).
  assert (DS : 0 <= d <= PI / 2) by (unfold d; lra).
  pose proof (x_cos_le_sin d DS) as XC. pose proof (sin2_cos2 s) as Q1. pose proof (sin2_cos2 d) as Q2. unfold Rsqr in *.
  assert (SD : 0 <= sin d) by (apply sin_ge_0; pose proof PI_RGT_0; lra).
  apply Rmult_le_reg_r with (cos t1 * cos t2); [now apply Rmult_lt_0_compat|].
  replace ((sin t2 - sin t1) / 2 * (/ cos t1 + / cos t2) * (cos t1 * cos t2)) with
    ((sin t2 - sin t1) / 2 * (cos t1 + cos t2)) by (field; lra).
  rewrite E1. replace (cos t1 + cos t2) with (2 * (cos s * cos d)) by (rewrite E2, E3; ring).
  replace (cos t1 * cos t2) with (cos s * cos s - sin d * sin d).
  2:{ rewrite E2, E3. replace ((cos s * cos d + sin s * sin d) * (cos s * cos d - sin s * sin d)) with
        (cos s * cos s * (cos d * cos d) - sin s * sin s * (sin d * sin d)) by ring.
      replace (cos d * cos d) with (1 - sin d * sin d) by lra. replace (sin s * sin s) with (1 - cos s * cos s) by lra. ring. }
  replace (t2 - t1) with (2 * d) by (unfold d; field).
  assert (K : cos s * cos s * (d - sin d * cos d) <= d * (sin d * sin d)).
  { assert (X1 : d - sin d * cos d <= d * (sin d * sin d)).
    { replace (sin d * sin d) with (1 - cos d * cos d) by lra.
      assert (d * (cos d * cos d) <= sin d * cos d); [|lra].
      rewrite <- Rmult_assoc. apply Rmult_le_compat_r; lra. }
    assert (X2 : 0 <= d * (sin d * sin d)) by (apply Rmult_le_pos; [lra|now apply Rmult_le_pos]).
    assert (X3 : 0 <= cos s * cos s <= 1) by (pose proof (Rle_0_sqr (sin s)); unfold Rsqr in *; nra).
    nra. }
  lra.
Qed.

(** ** Along the base *)
Definition angle_at (cx r x : R) : R := asin ((x - cx) / r).
Section Arc.
  Context (cx r : R) (RP : 0 < r).
  Notation cs := (cos_at cx r).
  Notation inside x := ((x - cx) * (x - cx) < r * r).
  Lemma ratio_in x : inside x -> -1 < (x - cx) / r < 1.
  Proof.
    intros X. assert (Q : - r < x - cx < r) by nra. split.
    - apply Rmult_lt_reg_r with r; auto. unfold Rdiv. rewrite Rmult_assoc, Rinv_l by lra. lra.
    - apply Rmult_lt_reg_r with r; auto. unfold Rdiv. rewrite Rmult_assoc, Rinv_l by lra. lra.
  Qed.
  Lemma angle_sin x : inside x -> sin (angle_at cx r x) = (x - cx) / r.
  Proof. intros X. apply sin_asin. pose proof (ratio_in x X). lra. Qed.
  Lemma angle_in x : inside x -> - (PI / 2) < angle_at cx r x < PI / 2.
  Proof. intros X. apply asin_bound_lt. now apply ratio_in. Qed.
  Lemma drop_ratio x y : y = (x - cx) / r -> sqrt (1 - y * y) = cs x.
  Proof.
    intros ->. unfold cos_at, drop_at.
    replace (1 - (x - cx) / r * ((x - cx) / r)) with ((r * r - (x - cx) * (x - cx)) / (r * r)) by (field; lra).
    destruct (Rle_lt_dec 0 (r * r - (x - cx) * (x - cx))) as [P|P].
    - rewrite sqrt_div_alt by nra. now rewrite sqrt_square by lra.
    - rewrite (sqrt_neg_0 (r * r - (x - cx) * (x - cx))) by lra. rewrite sqrt_neg_0; [lra|].
      assert (0 < / (r * r)) by (apply Rinv_0_lt_compat; nra). unfold Rdiv. nra.
  Qed.
  Lemma angle_cos x : inside x -> cos (angle_at cx r x) = cs x.
  Proof.
    intros X. unfold angle_at. rewrite cos_asin by (pose proof (ratio_in x X); lra). unfold Rsqr. now apply drop_ratio.
  Qed.
  Lemma angle_le p q : inside p -> inside q -> p <= q -> angle_at cx r p <= angle_at cx r q.
  Proof.
    intros P Q L. destruct (Rle_lt_dec (angle_at cx r p) (angle_at cx r q)) as [|B]; auto. exfalso.
    pose proof (angle_in p P). pose proof (angle_in q Q).
    pose proof (sin_increasing_1 (angle_at cx r q) (angle_at cx r p) ltac:(lra) ltac:(lra) ltac:(lra) ltac:(lra) B) as I.
    rewrite !angle_sin in I by auto. unfold Rdiv in I. apply Rmult_lt_reg_r in I; [lra|now apply Rinv_0_lt_compat].
  Qed.
  Lemma mid_inside p q : inside p -> inside q -> inside ((p + q) / 2).
  Proof. intros P Q. assert (- r < p - cx < r) by nra. assert (- r < q - cx < r) by nra. nra. Qed.
  Lemma cs_pos x : inside x -> 0 < cs x.
  Proof. apply cos_pos; auto. Qed.

  Lemma cell_low p q : inside p -> inside q -> p <= q ->
    (q - p) / cs ((p + q) / 2) <= r * (angle_at cx r q - angle_at cx r p).
  Proof.
    intros P Q L. pose proof (cs_pos _ (mid_inside p q P Q)) as CP.
    apply Rmult_le_reg_r with (cs ((p + q) / 2)); auto. unfold Rdiv. rewrite Rmult_assoc, Rinv_l, Rmult_1_r by lra.
    fold ((p + q) / 2).
    pose proof (mid_angle (angle_at cx r p) (angle_at cx r q) (proj1 (angle_in p P)) (angle_le p q P Q L) (proj2 (angle_in q Q))) as M.
    rewrite !angle_sin in M by auto. rewrite (drop_ratio ((p + q) / 2)) in M by (field; lra).
    apply Rmult_le_compat_l with (r := r) in M; [|lra].
    replace (r * ((q - cx) / r - (p - cx) / r)) with (q - p) in M by (field; lra). lra.
  Qed.
  Lemma cell_high p q : inside p -> inside q -> p <= q ->
    r * (angle_at cx r q - angle_at cx r p) <= (q - p) / 2 * (/ cs p + / cs q).
  Proof.
    intros P Q L.
    pose proof (end_angle (angle_at cx r p) (angle_at cx r q) (proj1 (angle_in p P)) (angle_le p q P Q L) (proj2 (angle_in q Q))) as M.
    rewrite !angle_sin, !angle_cos in M by auto.
    apply Rmult_le_compat_l with (r := r) in M; [|lra].
    replace (r * (((q - cx) / r - (p - cx) / r) / 2 * (/ cs p + / cs q))) with ((q - p) / 2 * (/ cs p + / cs q)) in M
      by (pose proof (cs_pos p P); pose proof (cs_pos q Q); field; lra).
    exact M.
  Qed.
  Lemma sec_convex p q : inside p -> inside q -> / cs ((p + q) / 2) <= (/ cs p + / cs q) / 2.
  Proof.
    intros P Q. pose proof (cs_pos p P) as CP. pose proof (cs_pos q Q) as CQ. pose proof (cs_pos _ (mid_inside p q P Q)) as CM.
    assert (K : (cs p + cs q) / 2 <= cs ((p + q) / 2)).
    { unfold cos_at. replace ((drop_at cx r p / r + drop_at cx r q / r) / 2) with ((drop_at cx r p + drop_at cx r q) / 2 / r) by (field; lra).
      apply Rmult_le_compat_r; [left; now apply Rinv_0_lt_compat|].
      pose proof (drop_positive cx r p P) as DP. pose proof (drop_positive cx r q Q) as DQ.
      assert (EP : drop_at cx r p * drop_at cx r p = r * r - (p - cx) * (p - cx)) by (apply sqrt_sqrt; lra).
      assert (EQ : drop_at cx r q * drop_at cx r q = r * r - (q - cx) * (q - cx)) by (apply sqrt_sqrt; lra).
      rewrite <- (sqrt_square ((drop_at cx r p + drop_at cx r q) / 2)) by lra.
      change (drop_at cx r ((p + q) / 2)) with (sqrt (r * r - ((p + q) / 2 - cx) * ((p + q) / 2 - cx))).
      apply sqrt_le_1_alt. set (x := drop_at cx r p) in *. set (y := drop_at cx r q) in *.
      pose proof (Rle_0_sqr (x - y)) as S1. pose proof (Rle_0_sqr (p - q)) as S2. unfold Rsqr in *. nra. }
    apply Rle_trans with (/ ((cs p + cs q) / 2)); [apply Rinv_le_contravar; lra|].
    apply Rmult_le_reg_r with ((cs p + cs q) / 2 * (2 * (cs p * cs q))).
    { apply Rmult_lt_0_compat; [lra|]. apply Rmult_lt_0_compat; [lra|]. now apply Rmult_lt_0_compat. }
    replace (/ ((cs p + cs q) / 2) * ((cs p + cs q) / 2 * (2 * (cs p * cs q)))) with (2 * (cs p * cs q)) by (field; lra).
    replace ((/ cs p + / cs q) / 2 * ((cs p + cs q) / 2 * (2 * (cs p * cs q)))) with ((cs p + cs q) * (cs p + cs q) / 2) by (field; lra).
    pose proof (Rle_0_sqr (cs p - cs q)) as S1. unfold Rsqr in S1. nra.
  Qed.
  Lemma sec_ge_1 x : inside x -> 1 <= / cs x.
  Proof.
    intros X. pose proof (cs_pos x X). rewrite <- Rinv_1. apply Rinv_le_contravar; auto.
    unfold cos_at. apply Rmult_le_reg_r with r; auto. unfold Rdiv. rewrite Rmult_assoc, Rinv_l by lra.
    rewrite Rmult_1_l, Rmult_1_r. unfold drop_at. pose proof (Rle_0_sqr (x - cx)) as Q. unfold Rsqr in Q.
    apply Rle_trans with (sqrt (r * r)); [apply sqrt_le_1; nra|rewrite sqrt_square; lra].
  Qed.

  Section Cells.
    Context (xl w : R) (n : nat) (W : 0 <= w).
    Notation e i := (edge_of xl w (Z.of_nat i)).
    Notation m i := (mid_of xl w (Z.of_nat i)).
    Context (IN : forall i, (i <= n)%nat -> inside (e i)).
    Lemma edge_S i : e (S i) = e i + w.
    Proof. unfold edge_of. rewrite Nat2Z.inj_succ, succ_IZR. ring. Qed.
    Lemma mid_e i : m i = (e i + e (S i)) / 2.
    Proof. rewrite edge_S. unfold mid_of, edge_of. field. Qed.
    Lemma edge_m i : e (S i) = (m i + m (S i)) / 2.
    Proof. rewrite !mid_e, !edge_S. field. Qed.
    Lemma in_mid i : (i < n)%nat -> inside (m i).
    Proof. intros L. rewrite mid_e. apply mid_inside; apply IN; lia. Qed.
    Lemma arc_low k : (k <= n)%nat ->
      cells (fun x => w / cs x) xl w k <= r * (angle_at cx r (e k) - angle_at cx r (e 0)).
    Proof.
      induction k as [|k IH]; intros L; [unfold cells; cbn [zrange map rsum]; lra|].
      rewrite cells_S. specialize (IH ltac:(lia)).
      pose proof (cell_low (e k) (e (S k)) (IN k ltac:(lia)) (IN (S k) L) ltac:(rewrite edge_S; lra)) as C.
      rewrite <- mid_e in C. replace (e (S k) - e k) with w in C by (rewrite edge_S; ring). lra.
    Qed.
    Lemma arc_high k : (S k <= n)%nat ->
      r * (angle_at cx r (e (S k)) - angle_at cx r (e 0)) <=
      cells (fun x => w / cs x) xl w (S k) + w / 2 * (/ cs (e 0) + / cs (e (S k)) - / cs (m 0) - / cs (m k)).
    Proof.
      induction k as [|k IH]; intros L.
      - rewrite cells_S. unfold cells. cbn [zrange map rsum].
        pose proof (cell_high (e 0) (e 1) (IN 0%nat ltac:(lia)) (IN 1%nat L) ltac:(rewrite edge_S; lra)) as C.
        replace (e 1 - e 0) with w in C by (rewrite edge_S; ring). unfold Rdiv in *; cbv beta in *; lra.
      - rewrite cells_S. specialize (IH ltac:(lia)).
        pose proof (cell_high (e (S k)) (e (S (S k))) (IN (S k) ltac:(lia)) (IN (S (S k)) L) ltac:(rewrite (edge_S (S k)); lra)) as C.
        replace (e (S (S k)) - e (S k)) with w in C by (rewrite (edge_S (S k)); ring).
        pose proof (sec_convex (m k) (m (S k)) (in_mid k ltac:(lia)) (in_mid (S k) ltac:(lia))) as V.
        rewrite <- edge_m in V. apply Rmult_le_compat_l with (r := w) in V; auto. unfold Rdiv in *; cbv beta in *; lra.
    Qed.
    Lemma arc_bounds : (0 < n)%nat ->
      r * (angle_at cx r (e n) - angle_at cx r (e 0)) - w / 2 * (/ cs (e 0) + / cs (e n) - 2) <=
      cells (fun x => w / cs x) xl w n <= r * (angle_at cx r (e n) - angle_at cx r (e 0)).
    Proof.
      intros N. split; [|apply arc_low; lia]. assert (X : exists k, n = S k) by (exists (pred n); lia).
      destruct X as (k & X). pose proof (arc_high k ltac:(lia)) as H. rewrite <- X in H.
      pose proof (sec_ge_1 _ (in_mid 0 ltac:(lia))) as S0. pose proof (sec_ge_1 _ (in_mid k ltac:(lia))) as S1.
      assert (0 <= w / 2 * (/ cs (m 0) + / cs (m k) - 2)) by (apply Rmult_le_pos; lra). lra.
    Qed.
  End Cells.
End Arc.

(** ** The factors of a slope in one clay *)
Definition clay (k : R) (v : view R) : Prop :=
  0 < k /\ v_mats v <> [] /\ forall rl m, In (rl, m) (v_mats v) -> m_tan_phi m = 0 /\ m_cohesion m = k.
(** ... said of the slope itself: no friction, cohesion [k] everywhere *)
Definition one_clay {EN : Env} (k : R) (s : st R) : Prop :=
  0 < k /\ mats_of s <> [] /\
  forall m, In m (mats_of s) -> m_friction_angle m = 0 /\ m_cohesion m = k.
Lemma one_clay_view {EN : Env} k s v : sound s v -> one_clay k s -> clay k v.
Proof.
  intros SV (KP & MA & CM). split; [exact KP|]. split.
  - intros Q. apply MA. rewrite <- (so_mats_eq s v SV), Q. reflexivity.
  - intros rl m I. destruct (so_mats s v SV rl m I) as (_ & TO & _).
    destruct (CM m) as (F0 & C0).
    { rewrite <- (so_mats_eq s v SV). apply in_map_iff. now exists (rl, m). }
    split; [|exact C0]. red in TO. rewrite TO, F0. unfold nradians. unR. rewrite Rmult_0_l.
    unfold Rtan_py. rewrite sin_0, cos_0. destruct (Req_EM_T 1 0); lra.
Qed.
(** the whole length of the bases *)
Definition bases (w : R) (sl : list (slice R)) : R := rsum (map (fun s => w / sl_cos s) sl).

Section Clay.
  Context (k : R) (v : view R) (GV : good_view v) (CL : clay k v).
  Context (cx cy r : R) (a b : R * R) (D1 : 0 <= cx) (D2 : 0 <= cy) (D3 : 0 <= r).
  Context (EP : end_points (v_geom v) cx cy r a b) (WF : water_fits v).
  Notation w := (width v a b).
  Lemma clay_stiff sl : slices_ok v cx cy r a b sl -> forall t, In t sl -> stiff t /\ sl_c t = k.
  Proof.
    intros SO t I. pose proof (radius_pos v GV cx cy r a b D3 EP) as RP.
    destruct (Forall2_In_r _ _ _ _ SO I) as (i & _ & [_ _ _ DP EC _ _ (m & LM & E1 & E2) _]).
    destruct (layer_at_In _ _ _ LM) as (rl & IM). destruct CL as (KP & _ & CM). destruct (CM rl m IM) as (T0 & C0).
    unfold stiff. rewrite E1, E2, T0, C0, EC. repeat split; auto. now apply Rdiv_lt_0_compat.
  Qed.
  Lemma clay_swedish sl : slices_ok v cx cy r a b sl -> swedish w sl = k * bases w sl / driving sl.
  Proof.
    intros SO. unfold swedish, bases. f_equal. rewrite <- rsum_scale. f_equal. apply map_ext_in. intros t I.
    now destruct (clay_stiff sl SO t I) as (_ & ->).
  Qed.
  Lemma clay_width : 0 < w.
  Proof.
    pose proof (end_points_ok _ (gv_geom v GV) _ _ _ _ _ EP) as (_ & _ & _ & _ & L).
    unfold width. apply Rdiv_lt_0_compat; [lra|]. apply IZR_lt. pose proof (gv_slices v GV). lia.
  Qed.
  Lemma clay_value : exists sl, slices_ok v cx cy r a b sl /\
    (driving sl <= 0 -> ordinary v cx cy r a b = Ok None /\ bishop v cx cy r = Ok None) /\
    (0 < driving sl -> ordinary v cx cy r a b = Ok (Some (k * bases w sl / driving sl)) /\
                       bishop v cx cy r = Ok (Some (k * bases w sl / driving sl))).
  Proof.
    destruct CL as (KP & MA & _).
    destruct (ordinary_spec v GV cx cy r a b D1 D2 D3 EP WF) as [(M & _)|(sl & SO & O)]; [contradiction|].
    exists sl. split; [exact SO|].
    destruct (water_total v (gv_geom v GV) WF) as (o & WD).
    pose proof (fun t I => proj1 (clay_stiff sl SO t I)) as ST.
    destruct (bishop_at v GV cx cy r o D1 D2 D3 WD) as
      [(l & C & L & _)|(a' & b' & EP' & [(M & _)|(sl' & SO' & B)])].
    { exfalso. eapply end_points_two; eauto. }
    { contradiction. }
    destruct (end_points_det _ _ _ _ _ _ _ _ EP EP') as (Q1 & Q2). subst a' b'.
    rewrite (slices_det _ _ _ _ _ _ _ _ SO' SO) in B. split; intros Q.
    - destruct O as [(_ & ->)|(X & _)]; [|lra]. destruct B as [(_ & ->)|(X & _)]; [auto|lra].
    - destruct O as [(X & _)|(_ & ->)]; [lra|]. destruct B as [(X & _)|(_ & ->)]; [lra|].
      unfold fos_of. rewrite <- (clay_swedish sl SO), (stiff_resisting w sl ST). split; auto.
      apply stiff_loop; auto using clay_width.
  Qed.

  (** the lengths of the bases against the arc *)
  Context (ta tb : R) (TA : - (PI / 2) < ta < PI / 2) (TB : - (PI / 2) < tb < PI / 2).
  Context (XA : fst a = cx + r * sin ta) (XB : fst b = cx + r * sin tb).
  Lemma angle_of x t : 0 < r -> - (PI / 2) < t < PI / 2 -> x = cx + r * sin t ->
    (x - cx) * (x - cx) < r * r /\ angle_at cx r x = t /\ cos_at cx r x = cos t.
  Proof.
    intros RP T ->.
    assert (I : (cx + r * sin t - cx) * (cx + r * sin t - cx) < r * r).
    { pose proof (sin2_cos2 t) as Q. unfold Rsqr in Q. pose proof (cos_gt_0 t ltac:(lra) ltac:(lra)) as C.
      assert (0 < r * r * (cos t * cos t)) by (repeat apply Rmult_lt_0_compat; auto). nra. }
    split; [exact I|]. assert (A : angle_at cx r (cx + r * sin t) = t).
    { unfold angle_at. replace ((cx + r * sin t - cx) / r) with (sin t) by (field; lra). apply asin_sin. lra. }
    split; [exact A|]. rewrite <- (angle_cos cx r RP _ I). now rewrite A.
  Qed.
  Lemma clay_bases sl : slices_ok v cx cy r a b sl ->
    r * (tb - ta) - w / 2 * (/ cos ta + / cos tb - 2) <= bases w sl <= r * (tb - ta).
  Proof.
    intros SO. pose proof (radius_pos v GV cx cy r a b D3 EP) as RP. pose proof clay_width as WP.
    destruct (angle_of (fst a) ta RP TA XA) as (IA & AA & CA). destruct (angle_of (fst b) tb RP TB XB) as (IB & AB & CB).
    set (n := Z.to_nat (v_slices v)). pose proof (gv_slices v GV) as NP.
    assert (E0 : edge_of (fst a) w (Z.of_nat 0) = fst a) by (unfold edge_of; cbn [Z.of_nat]; ring).
    assert (EN : edge_of (fst a) w (Z.of_nat n) = fst b).
    { unfold edge_of, n, width. rewrite Z2Nat.id by lia. field. apply not_0_IZR. lia. }
    assert (IN : forall i, (i <= n)%nat -> (edge_of (fst a) w (Z.of_nat i) - cx) * (edge_of (fst a) w (Z.of_nat i) - cx) < r * r).
    { intros i L. assert (fst a <= edge_of (fst a) w (Z.of_nat i) <= fst b).
      { rewrite <- EN. unfold edge_of. assert (0 <= IZR (Z.of_nat i)) by (apply IZR_le; lia).
        assert (IZR (Z.of_nat i) <= IZR (Z.of_nat n)) by (apply IZR_le; lia). split; nra. }
      assert (- r < fst a - cx < r) by nra. assert (- r < fst b - cx < r) by nra. nra. }
    pose proof (arc_bounds cx r RP (fst a) w n ltac:(lra) IN ltac:(unfold n; lia)) as B.
    rewrite E0, EN, AA, AB, CA, CB in B.
    replace (bases w sl) with (cells (fun x => w / cos_at cx r x) (fst a) w n); [exact B|].
    symmetry. unfold bases. apply (sum_cells (slice_ok v cx cy r (fst a) w) _ _ _ _ _ _ SO).
    intros i s _ [_ _ _ _ EC _ _ _ _]. now rewrite EC.
  Qed.
End Clay.

(** ** More and more slices *)
Section ClayLimit.
  Context (k : R) (v : view R) (GV : good_view v) (CL : clay k v).
  Context (cx cy r : R) (a b : R * R) (CT : cuttable v cx cy r a b).
  Context (ta tb : R) (TA : - (PI / 2) < ta < PI / 2) (TB : - (PI / 2) < tb < PI / 2).
  Context (XA : fst a = cx + r * sin ta) (XB : fst b = cx + r * sin tb).
  Context (rho c t u : R -> R) (AL : along v cx cy r (fst a) (fst b) rho c t u).
  Context (prP : Riemann_integrable (push (v_udls v) cx r rho) (fst a) (fst b)).
  Notation P := (RiemannInt prP + line_sum (sin_at cx r) (fst a) (fst b) (v_lls v)).
  Notation sls n := (own v cx cy r a b n).
  Notation wd n := ((fst b - fst a) / INR (S n)).

  Lemma clay_cut n : clay k (cut n v).
  Proof. exact CL. Qed.
  Lemma bases_cv : Un_cv (fun n => bases (wd n) (sls n)) (r * (tb - ta)).
  Proof.
    set (K := / cos ta + / cos tb - 2).
    assert (Z0 : Un_cv (fun n => wd n / 2 * K) 0).
    {
      assert (U : Un_cv (fun n => / INR (S n)) 0).
      { intros e E. destruct (archimed_cor1 e E) as (N & B & C). exists N. intros n L. unfold R_dist.
        rewrite Rminus_0_r, Rabs_pos_eq by (left; apply Rinv_0_lt_compat, lt_0_INR; lia).
        apply Rle_lt_trans with (/ INR N); auto. apply Rinv_le_contravar; [apply lt_0_INR; lia|apply le_INR; lia]. }
      pose proof (CV_mult _ _ _ _ U (cv_const ((fst b - fst a) / 2 * K))) as M. rewrite Rmult_0_l in M.
      revert M. apply cv_ext. intros n. unfold Rdiv. ring. }
    assert (B : forall n, (1 <= n)%nat ->
      r * (tb - ta) - wd n / 2 * K <= bases (wd n) (sls n) <= r * (tb - ta)).
    { intros n N. destruct n as [|n]; [lia|]. destruct (ct_centre _ _ _ _ _ _ CT) as (D1 & D2 & D3).
      pose proof (clay_bases (cut (S (S n)) v) (cut_good v GV n) cx cy r a b D3 (ct_ends _ _ _ _ _ _ CT)
                    ta tb TA TB XA XB _ (own_ok v GV cx cy r a b CT (S n))) as Q.
      now rewrite (width_cut v a b (S n)) in Q. }
    intros e E. destruct (Z0 e E) as (N & Q). exists (Nat.max 1 N). intros n L.
    specialize (Q n ltac:(lia)). specialize (B n ltac:(lia)). unfold R_dist in *. rewrite Rminus_0_r in Q.
    apply Rabs_def2 in Q. apply Rabs_def1; lra.
  Qed.
  Lemma clay_limit : 0 < P ->
    exists F N, (forall n, (N <= n)%nat -> ordinary (cut (S n) v) cx cy r a b = Ok (Some (F n)) /\
                                         bishop (cut (S n) v) cx cy r = Ok (Some (F n))) /\
      Un_cv F (k * (r * (tb - ta)) / P).
  Proof.
    intros PP. exists (fun n => k * bases (wd n) (sls n) / driving (sls n)).
    pose proof (own_driving v GV cx cy r a b CT rho c t u AL prP) as OD.
    destruct (cv_pos _ _ OD PP) as (N & E). exists (Nat.max 1 N). split.
    - intros n L. destruct n as [|n]; [lia|]. destruct (ct_centre _ _ _ _ _ _ CT) as (D1 & D2 & D3).
      destruct (clay_value k (cut (S (S n)) v) (cut_good v GV n) (clay_cut _) cx cy r a b D1 D2 D3
                  (ct_ends _ _ _ _ _ _ CT) (ct_water _ _ _ _ _ _ CT)) as (sl & SO & _ & Q).
      rewrite (slices_det _ _ _ _ _ _ _ _ SO (own_ok v GV cx cy r a b CT (S n))), (width_cut v a b (S n)) in Q.
      apply Q. apply E. lia.
    - apply cv_div; [|exact OD|lra]. apply CV_mult; [apply cv_const|apply bases_cv].
  Qed.
  Context (prH : Riemann_integrable (hold (v_udls v) cx r rho c t u) (fst a) (fst b)).
  Lemma clay_integral :
    RiemannInt prH + line_sum (fun x => cos_at cx r x * t x) (fst a) (fst b) (v_lls v) = k * (r * (tb - ta)).
  Proof.
    apply (UL_sequence (fun n => k * bases (wd n) (sls n))).
    - pose proof (own_resisting v GV cx cy r a b CT rho c t u AL prH) as OR.
      apply (cv_near _ _ _ OR). intros e E. exists 1%nat. intros n L. destruct n as [|n]; [lia|].
      destruct (ct_centre _ _ _ _ _ _ CT) as (D1 & D2 & D3).
      pose proof (clay_stiff k (cut (S (S n)) v) (cut_good v GV n) (clay_cut _) cx cy r a b D3
                    (ct_ends _ _ _ _ _ _ CT) _ (own_ok v GV cx cy r a b CT (S n))) as ST.
      assert (Q : k * bases (wd (S n)) (sls (S n)) = resisting (wd (S n)) (sls (S n))).
      { unfold bases, resisting, base_len. rewrite <- rsum_scale. f_equal. apply map_ext_in. intros s I.
        destruct (ST s I) as ((-> & _) & ->). ring. }
      rewrite Q. unfold R_dist. rewrite Rminus_0_r, Rminus_diag_eq, Rabs_R0; auto.
    - apply CV_mult; [apply cv_const|apply bases_cv].
  Qed.
End ClayLimit.
