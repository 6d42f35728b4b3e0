(** * CutLimit: the sums of the two methods and the factors they give tend to the
    integrals along the base when the number of slices grows (C92, C93). *)
From Coq Require Import ZArith Reals Lra Lia List Bool.
From Verif Require Import Num Py Validation Utilities Objects Slope Planes Analysis
     RealNum RealFacts ListFacts Spec PlaneFacts CircleFacts SoilFacts SliceFacts ViewFacts FosFacts
     FosMore MidSum Tame SliceLimit CutFacts.
Import ListNotations.
Local Open Scope R_scope.

Lemma sum_cells (P : Z -> slice R -> Prop) f h xl w n sl : Forall2 P (zrange 0 n) sl ->
  (forall i s, (i < n)%nat -> P (Z.of_nat i) s -> f s = h (mid_of xl w (Z.of_nat i))) ->
  rsum (map f sl) = cells h xl w n.
Proof.
  intros F E. unfold cells. f_equal.
  assert (E' : forall i s, In i (zrange 0 n) -> P i s -> f s = h (mid_of xl w i)).
  { intros i s I Q. apply zrange_In in I. rewrite <- (Z2Nat.id i) in Q |- * by lia. apply E; [lia|auto]. }
  clear E. induction F as [|i s l sl Q F IH]; [reflexivity|]. cbn [map]. f_equal.
  - apply E'; [now left|auto].
  - apply IH. intros j t J. apply E'. now right.
Qed.

(** number of line loads on a cell *)
Definition held_all (ls : list (R * R)) (w x : R) : R := rsum (map (fun l => held (fst l) w x) ls).
Lemma held_all_pos ls w x : 0 <= held_all ls w x.
Proof.
  unfold held_all. induction ls as [|l ls IH]; cbn [map rsum]; [lra|]. pose proof (held_01 (fst l) w x). lra.
Qed.
Lemma line_held ls w x : line_on ls w x = 0 \/ 1 <= held_all ls w x.
Proof.
  unfold line_on. induction ls as [|l ls IH]; [now left|]. unfold held_all in *. cbn [map rsum].
  pose proof (held_all_pos ls w x) as P. unfold held_all in P.
  destruct (Rle_dec (x - w / 2) (fst l)) as [A|A]; [destruct (Rlt_dec (fst l) (x + w / 2)) as [B|B]|].
  - right. rewrite (held_in (fst l) w x A B). lra.
  - assert (Q : ll_share (x - w / 2) (x + w / 2) l = 0).
    { unfold ll_share. destruct (Rle_dec (x - w / 2) (fst l)); [|reflexivity].
      destruct (Rlt_dec (fst l) (x + w / 2)); [contradiction|reflexivity]. }
    rewrite Q. destruct IH as [-> | IH]; [left; ring|]. right. pose proof (held_01 (fst l) w x). lra.
  - assert (Q : ll_share (x - w / 2) (x + w / 2) l = 0).
    { unfold ll_share. destruct (Rle_dec (x - w / 2) (fst l)); [contradiction|reflexivity]. }
    rewrite Q. destruct IH as [-> | IH]; [left; ring|]. right. pose proof (held_01 (fst l) w x). lra.
Qed.
Lemma held_all_few ls xl w n : 0 <= w -> cells (held_all ls w) xl w n <= INR (length ls).
Proof.
  intros W. induction ls as [|l ls IH].
  - rewrite (cells_ext _ (fun _ => 0 * 0)); [rewrite cells_scale; cbn; lra|].
    intros i _. unfold held_all. cbn. ring.
  - change (length (l :: ls)) with (S (length ls)). rewrite S_INR.
    rewrite (cells_ext _ (fun x => held (fst l) w x + held_all ls w x)) by (intros i _; reflexivity).
    rewrite cells_plus. pose proof (held_once (fst l) xl w n W). lra.
Qed.
Lemma line_on_pos ls w x : (forall l, In l ls -> 0 <= snd l) -> 0 <= line_on ls w x.
Proof.
  unfold line_on. induction ls as [|l ls IH]; intros P; cbn [map rsum]; [lra|].
  assert (0 <= ll_share (x - w / 2) (x + w / 2) l).
  { unfold ll_share. pose proof (P l (or_introl eq_refl)). destruct (Rle_dec _ _); [destruct (Rlt_dec _ _)|]; lra. }
  assert (forall l', In l' ls -> 0 <= snd l') by (intros l' J; apply P; now right). specialize (IH H0). lra.
Qed.
Lemma line_on_total ls xl w n : 0 <= w -> (forall l, In l ls -> 0 <= snd l) ->
  cells (line_on ls w) xl w n <= rsum (map snd ls).
Proof.
  intros W. induction ls as [|l ls IH]; intros P.
  - rewrite (cells_ext _ (fun _ => 0 * 0)); [rewrite cells_scale; cbn; lra|].
    intros i _. unfold line_on. cbn. ring.
  - rewrite (cells_ext _ (fun x => ll_share (x - w / 2) (x + w / 2) l + line_on ls w x)) by (intros i _; reflexivity).
    rewrite cells_plus, cells_share by assumption. cbn [map rsum].
    assert (ll_share xl (edge_of xl w (Z.of_nat n)) l <= snd l).
    { unfold ll_share. pose proof (P l (or_introl eq_refl)). destruct (Rle_dec _ _); [destruct (Rlt_dec _ _)|]; lra. }
    assert (Q : forall l', In l' ls -> 0 <= snd l') by (intros l' J; apply P; now right). specialize (IH Q). lra.
Qed.

(** A positive part changes by the load itself except where there is a line load *)
Lemma max_load A d D : 0 <= D ->
  Rabs (Rmax 0 (A + d + D) - Rmax 0 A - d - D) <= 2 * Rabs d + (if Req_EM_T D 0 then 0 else Rabs A).
Proof.
  intros P. destruct (Req_EM_T D 0) as [->|N]; unfold Rmax, Rabs; repeat destruct (Rle_dec _ _);
    repeat destruct (Rcase_abs _); lra.
Qed.

Lemma cv_div s t l m : Un_cv s l -> Un_cv t m -> m <> 0 -> Un_cv (fun n => s n / t n) (l / m).
Proof.
  intros S T M. apply CV_mult; auto.
  apply (continuity_seq Rinv t m); auto. apply (continuity_pt_inv (fun x => x)); auto.
  apply derivable_continuous_pt, derivable_pt_id.
Qed.
Lemma cv_pos s l : Un_cv s l -> 0 < l -> exists N, forall n, (N <= n)%nat -> 0 < s n.
Proof.
  intros C P. destruct (C l P) as (N & Q). exists N. intros n G. specialize (Q n G). unfold R_dist in Q.
  apply Rabs_def2 in Q. lra.
Qed.
Lemma cv_neg s l : Un_cv s l -> l < 0 -> exists N, forall n, (N <= n)%nat -> s n < 0.
Proof.
  intros C P. destruct (C (- l) ltac:(lra)) as (N & Q). exists N. intros n G. specialize (Q n G). unfold R_dist in Q.
  apply Rabs_def2 in Q. lra.
Qed.
Lemma cv_near s t l : Un_cv s l -> Un_cv (fun n => t n - s n) 0 -> Un_cv t l.
Proof.
  intros A B. pose proof (CV_plus _ _ _ _ A B) as C. rewrite Rplus_0_r in C. revert C.
  intros C e P. destruct (C e P) as (N & Q). exists N. intros n G. specialize (Q n G).
  now replace (s n + (t n - s n)) with (t n) in Q by ring.
Qed.

Section Sums.
  Context (v : view R) (G : good_geom (v_geom v)) (DS : descending (v_mats v)) (MA : v_mats v <> []).
  Context (LP : forall l, In l (v_lls v) -> 0 <= snd l).
  Context (cx cy r : R) (a b : R * R) (AB : fst a < fst b) (RP : 0 < r).
  Context (IN : forall x, fst a <= x <= fst b -> (x - cx) * (x - cx) < r * r).
  Notation xa := (fst a).
  Notation xb := (fst b).
  Notation us := (v_udls v).
  Notation ls := (v_lls v).
  Notation wd n := ((xb - xa) / INR (S n)).
  Notation rho := (rho0 v cx cy r).
  Notation c := (of_mat v cx cy r (@m_cohesion R)).
  Notation t := (of_mat v cx cy r (@m_tan_phi R)).
  Notation u := (u0 v cx cy r).
  Notation sn := (sin_at cx r).
  Notation cs := (cos_at cx r).

  Lemma width_cut n : width (cut (S n) v) a b = wd n.
  Proof. unfold width, cut. cbn [v_slices]. now rewrite <- INR_IZR_INZ. Qed.
  Lemma mid_in n i : (i < S n)%nat -> xa < mid_of xa (wd n) (Z.of_nat i) < xb.
  Proof. intros I. apply MidSum.mid_between; auto. Qed.

  Lemma slice_vals n i s : (i < S n)%nat ->
    slice_ok (cut (S n) v) cx cy r xa (wd n) (Z.of_nat i) s ->
    let x := mid_of xa (wd n) (Z.of_nat i) in
    sl_W s = wd n * rho x + strip_on us (wd n) x + line_on ls (wd n) x /\
    sl_sin s = sn x /\ sl_cos s = cs x /\ sl_c s = c x /\ sl_tan s = t x /\ sl_u s = u x.
  Proof.
    intros I K x. destruct K as [X YB YT D C S (W & SW & EW) (m & LM & EC & ET) U].
    cbn [cut v_geom v_mats v_udls v_lls v_water_RL v_water_H] in *.
    fold x in X, YB, YT, D, C, S, U. rewrite YB in YT. rewrite YB, YT in SW, U. rewrite YB in LM.
    split; [|split; [exact S|split; [exact C|split; [|split]]]].
    - apply (soil_column v DS MA) in SW; [|apply Rmax_r].
      rewrite EW, SW. unfold rho0, top_at, strip_on, line_on.
      destruct (mid_edges xa (wd n) (Z.of_nat i)) as (E1 & E2). fold x in E1, E2. rewrite E1, E2. reflexivity.
    - rewrite EC. symmetry. now apply of_mat_at.
    - rewrite ET. symmetry. now apply of_mat_at.
    - exact U.
  Qed.

  Context (sl : nat -> list (slice R)).
  Context (SL : forall n, slices_ok (cut (S n) v) cx cy r a b (sl n)).
  Lemma SL' n : Forall2 (slice_ok (cut (S n) v) cx cy r xa (wd n)) (zrange 0 (S n)) (sl n).
  Proof. pose proof (SL n) as Q. unfold slices_ok in Q. rewrite width_cut in Q. cbn [cut v_slices] in Q. now rewrite Nat2Z.id in Q. Qed.

  Lemma driving_sum n : driving (sl n) = cut_sum xa (push us cx r rho) sn us ls (wd n) (S n).
  Proof.
    unfold driving, cut_sum. apply (sum_cells _ _ _ _ _ _ _ (SL' n)). intros i s I K.
    destruct (slice_vals n i s I K) as (-> & -> & _). unfold push. ring.
  Qed.

  (** line loads act where the base is inside one layer *)
  Context (NA : forall l, In l ls -> fst l <> xa).
  Context (NL : forall l rl m, In l ls -> xa < fst l < xb -> In (rl, m) (v_mats v) -> base_at cx cy r (fst l) <> rl).

  Lemma cos_le x : xa <= x <= xb -> 0 < cs x <= 1.
  Proof.
    intros X. specialize (IN x X). split; [now apply cos_pos|].
    unfold cos_at. apply Rmult_le_reg_r with r; auto. unfold Rdiv. rewrite Rmult_assoc, Rinv_l by lra.
    rewrite Rmult_1_l, Rmult_1_r. unfold drop_at.
    pose proof (Rle_0_sqr (x - cx)) as Q. unfold Rsqr in Q.
    apply Rle_trans with (sqrt (r * r)); [apply sqrt_le_1; lra|rewrite sqrt_square; lra].
  Qed.
  Lemma sin_le x : xa <= x <= xb -> Rabs (sn x) <= 1.
  Proof.
    intros X. specialize (IN x X). unfold sin_at.
    unfold Rdiv. rewrite Rabs_mult, Rabs_inv, (Rabs_right r) by lra. apply Rmult_le_reg_r with r; auto.
    rewrite Rmult_assoc, Rinv_l, Rmult_1_r, Rmult_1_l by lra. apply Rabs_le. split; nra.
  Qed.

  Lemma driving_cv (pr : Riemann_integrable (push us cx r rho) xa xb) :
    Un_cv (fun n => driving (sl n)) (RiemannInt pr + line_sum sn xa xb ls).
  Proof.
    apply (cv_ext _ _ _ (fun n => eq_sym (driving_sum n))).
    apply (cut_cv xa xb AB) with (B := 1).
    - intros x X. apply sin_le. lra.
    - intros l J. split; [now apply NA|]. intros _. apply sin_cont.
  Qed.

  Lemma resisting_cv (pr : Riemann_integrable (hold us cx r rho c t u) xa xb) :
    Un_cv (fun n => resisting (wd n) (sl n)) (RiemannInt pr + line_sum (fun x => cs x * t x) xa xb ls).
  Proof.
    destruct (tame_bounded _ xa xb AB (of_mat_tame v cx cy r xa xb RP IN (@m_tan_phi R))) as (T & T0 & TB).
    destruct (tame_bounded _ xa xb AB (slack_tame v G cx cy r xa xb RP IN us)) as (A & A0 & AL).
    destruct (strips_near us) as (K & K0 & SN).
    apply cv_near with (fun n => cut_sum xa (hold us cx r rho c t u) (fun x => cs x * t x) us ls (wd n) (S n)).
    { apply (cut_cv xa xb AB) with (B := T).
      - intros x X. rewrite Rabs_mult. pose proof (cos_le x ltac:(lra)). rewrite (Rabs_right (cs x)) by lra.
        pose proof (TB x ltac:(lra)). pose proof (Rabs_pos (t x)). nra.
      - intros l J. split; [now apply NA|]. intros X. apply continuity_pt_mult.
        + apply cos_cont; auto. apply IN. lra.
        + apply (of_mat_cont v cx cy r xa xb IN); [lra|]. intros rl m. now apply NL. }
    apply (small_cv xa xb AB) with (2 * T * K + T * A * INR (length ls)). intros n.
    pose proof (wd_pos xa xb AB n) as W. set (w := wd n) in *.
    assert (E : resisting w (sl n) = cells (fun x => c x * (w / cs x) +
      Rmax 0 ((w * rho x + strip_on us w x + line_on ls w x) * cs x - u x * (w / cs x)) * t x) xa w (S n)).
    { unfold resisting. apply (sum_cells _ _ _ _ _ _ _ (SL' n)). intros i s I Q. unfold base_len.
      destruct (slice_vals n i s I Q) as (-> & _ & -> & -> & -> & ->). reflexivity. }
    rewrite E. unfold cut_sum.
    match goal with |- Rabs (cells ?f _ _ _ - cells ?h _ _ _) <= _ =>
      replace (cells f xa w (S n) - cells h xa w (S n)) with (cells (fun x => f x + -1 * h x) xa w (S n))
        by (rewrite cells_plus, cells_scale; ring) end.
    eapply Rle_trans; [apply cells_abs|].
    apply Rle_trans with (cells (fun x => 2 * T * Rabs (strip_on us w x - w * strip_at us x) + T * A * w * held_all ls w x) xa w (S n)).
    - apply cells_le. intros i I. pose proof (mid_in n i I) as X. fold w in X. set (x := mid_of xa w (Z.of_nat i)) in *.
      pose proof (cos_le x ltac:(lra)) as CL. pose proof (TB x ltac:(lra)) as TX. pose proof (AL x ltac:(lra)) as AX.
      set (d := strip_on us w x - w * strip_at us x).
      set (al := (rho x + strip_at us x) * cs x - u x / cs x) in *.
      pose proof (max_load (w * al) (d * cs x) (line_on ls w x * cs x)) as M.
      specialize (M ltac:(apply Rmult_le_pos; [now apply line_on_pos|lra])).
      replace ((w * rho x + strip_on us w x + line_on ls w x) * cs x - u x * (w / cs x)) with
        (w * al + d * cs x + line_on ls w x * cs x) by (unfold d, al; field; lra).
      unfold hold. fold al.
      match goal with |- Rabs ?e <= _ => replace e with
        ((Rmax 0 (w * al + d * cs x + line_on ls w x * cs x) - Rmax 0 (w * al) - d * cs x - line_on ls w x * cs x) * t x) end.
      2:{ fold d. replace (Rmax 0 (w * al)) with (w * Rmax 0 al); [field; lra|].
          rewrite <- (Rmult_0_r w) at 2. symmetry. apply RmaxRmult. lra. }
      rewrite Rabs_mult. apply Rle_trans with ((2 * Rabs d + w * A * held_all ls w x) * T); [|right; ring].
      apply Rmult_le_compat; try apply Rabs_pos; auto. eapply Rle_trans; [exact M|].
      apply Rplus_le_compat.
      + apply Rmult_le_compat_l; [lra|]. rewrite Rabs_mult, (Rabs_right (cs x)) by lra.
        pose proof (Rabs_pos d). nra.
      + pose proof (held_all_pos ls w x) as HP. destruct (Req_EM_T _ _) as [Q|Q].
        * apply Rmult_le_pos; auto. apply Rmult_le_pos; lra.
        * destruct (line_held ls w x) as [Z|Z]; [rewrite Z in Q; exfalso; apply Q; ring|].
          rewrite Rabs_mult, (Rabs_right w) by lra.
          apply Rle_trans with (w * A * 1); [rewrite Rmult_1_r; apply Rmult_le_compat_l; lra|].
          apply Rmult_le_compat_l; auto. apply Rmult_le_pos; lra.
    - rewrite cells_plus, !cells_scale. pose proof (SN xa w (S n) W) as S1.
      pose proof (held_all_few ls xa w (S n) ltac:(lra)) as S2.
      assert (Z1 : 0 <= 2 * T) by lra. assert (Z2 : 0 <= T * A * w) by (apply Rmult_le_pos; [apply Rmult_le_pos; lra|lra]).
      pose proof (Rmult_le_compat_l _ _ _ Z1 S1). pose proof (Rmult_le_compat_l _ _ _ Z2 S2). lra.
  Qed.

  (** ** Bishop's sum *)
  Lemma m_alpha_at n i s F : (i < S n)%nat ->
    slice_ok (cut (S n) v) cx cy r xa (wd n) (Z.of_nat i) s ->
    m_alpha F s = m_at cx r t F (mid_of xa (wd n) (Z.of_nat i)).
  Proof.
    intros I K. destruct (slice_vals n i s I K) as (_ & E1 & E2 & _ & E3 & _). unfold m_alpha, m_at.
    now rewrite E1, E2, E3.
  Qed.
  Definition load_num w x : R := w * (c x + (rho x + strip_at us x - u x) * t x) +
    (strip_on us w x - w * strip_at us x + line_on ls w x) * t x.
  Lemma bishop_sum n F : bishop_resisting (wd n) F (sl n) =
    cells (fun x => load_num (wd n) x / m_at cx r t F x) xa (wd n) (S n).
  Proof.
    unfold bishop_resisting. apply (sum_cells _ _ _ _ _ _ _ (SL' n)). intros i s I K.
    rewrite (m_alpha_at n i s F I K). destruct (slice_vals n i s I K) as (-> & _ & _ & -> & -> & ->).
    unfold load_num. f_equal. ring.
  Qed.
  Lemma inv_cont mu y : 0 < mu -> continuity_pt (fun z => / Rmax mu z) y.
  Proof.
    intros P. apply (continuity_pt_inv (fun z => Rmax mu z)).
    - apply cont_max; [apply const_cont|apply id_cont].
    - pose proof (Rmax_l mu y). lra.
  Qed.
  Lemma bishop_integrable F mu : 0 < mu -> (forall x, xa < x < xb -> mu <= m_at cx r t F x) ->
    inhabited (Riemann_integrable (bishop_hold us cx r rho c t u F) xa xb).
  Proof.
    intros P M.
    assert (T : forall x, xa <= x <= xb -> tame (fun y => (c y + (rho y + strip_at us y - u y) * t y) *
                                                  / Rmax mu (m_at cx r t F y)) x).
    { intros x X. apply tame_mult.
      - apply tame_plus; [now apply (of_mat_tame v cx cy r xa xb)|]. apply tame_mult; [|now apply (of_mat_tame v cx cy r xa xb)].
        apply tame_minus; [|now apply (u0_tame v G cx cy r xa xb)].
        apply tame_plus; [now apply (rho0_tame v cx cy r xa xb)|apply strip_tame].
      - apply (tame_op1 (fun z => / Rmax mu z) (m_at cx r t F)); [intros y; now apply inv_cont|].
        now apply (m_tame v cx cy r xa xb). }
    destruct (tame_integrable _ xa xb AB T) as [pr]. constructor.
    apply (integrable_inside _ _ xa xb AB) with (2 := pr). intros x X. unfold bishop_hold, Rdiv.
    rewrite Rmax_right; auto.
  Qed.
  Lemma bishop_cv_at F mu (pr : Riemann_integrable (bishop_hold us cx r rho c t u F) xa xb) :
    0 < mu -> (forall x, xa < x < xb -> mu <= m_at cx r t F x) ->
    Un_cv (fun n => bishop_resisting (wd n) F (sl n))
          (RiemannInt pr + line_sum (fun x => t x / m_at cx r t F x) xa xb ls).
  Proof.
    intros P M.
    destruct (tame_bounded _ xa xb AB (of_mat_tame v cx cy r xa xb RP IN (@m_tan_phi R))) as (T & T0 & TB).
    apply cv_ext with (fun n => cut_sum xa (bishop_hold us cx r rho c t u F) (fun x => t x / m_at cx r t F x) us ls (wd n) (S n)).
    { intros n. rewrite bishop_sum. unfold cut_sum. apply cells_ext. intros i _. unfold load_num, bishop_hold, Rdiv. ring. }
    apply (cut_cv xa xb AB) with (B := T / mu).
    - intros x X. unfold Rdiv. rewrite Rabs_mult. pose proof (M x X). rewrite Rabs_inv, (Rabs_right (m_at _ _ _ _ _)) by lra.
      apply Rmult_le_compat; auto using Rabs_pos.
      + left. apply Rinv_0_lt_compat. lra.
      + apply TB. lra.
      + apply Rinv_le_contravar; lra.
    - intros l J. split; [now apply NA|]. intros X.
      assert (CT : continuity_pt t (fst l)).
      { apply (of_mat_cont v cx cy r xa xb IN); [lra|]. intros rl m. now apply NL. }
      apply (continuity_pt_div t (m_at cx r t F)); auto.
      + unfold m_at. apply (continuity_pt_plus cs (fun x => sn x * t x / F)).
        * apply cos_cont; auto. apply IN. lra.
        * apply (continuity_pt_mult (fun x => sn x * t x) (fun _ => / F)); [|apply const_cont].
          apply continuity_pt_mult; auto. apply sin_cont.
      + pose proof (M (fst l) X). lra.
  Qed.
  (** the weights and strengths add up to something bounded *)
  Lemma load_bound : exists B, 0 <= B /\ forall n, cells (fun x => Rabs (load_num (wd n) x)) xa (wd n) (S n) <= B.
  Proof.
    destruct (tame_bounded _ xa xb AB (of_mat_tame v cx cy r xa xb RP IN (@m_tan_phi R))) as (T & T0 & TB).
    destruct (tame_bounded (fun y => c y + (rho y + strip_at us y - u y) * t y) xa xb AB) as (A & A0 & AL).
    { intros x X. apply tame_plus; [now apply (of_mat_tame v cx cy r xa xb)|]. apply tame_mult; [|now apply (of_mat_tame v cx cy r xa xb)].
      apply tame_minus; [|now apply (u0_tame v G cx cy r xa xb)].
      apply tame_plus; [now apply (rho0_tame v cx cy r xa xb)|apply strip_tame]. }
    destruct (strips_near us) as (K & K0 & SN).
    set (Q := rsum (map snd ls)).
    assert (Q0 : 0 <= Q).
    { unfold Q. clear - LP. induction (v_lls v) as [|l k IH]; cbn [map rsum]; [lra|].
      pose proof (LP l (or_introl eq_refl)). assert (forall l', In l' k -> 0 <= snd l') by (intros l' J; apply LP; now right).
      specialize (IH H0). lra. }
    exists ((xb - xa) * A + T * (K * (xb - xa) + Q)).
    assert (0 <= K * (xb - xa)) by (apply Rmult_le_pos; lra).
    split. { apply Rplus_le_le_0_compat; apply Rmult_le_pos; lra. }
    intros n. pose proof (wd_pos xa xb AB n) as W. pose proof (width_all xa xb (S n) ltac:(lia)) as WA. set (w := wd n) in *.
    assert (WL : w <= xb - xa).
    { rewrite S_INR in WA. pose proof (pos_INR n). nra. }
    apply Rle_trans with (cells (fun x => w * A * 1 + T * (Rabs (strip_on us w x - w * strip_at us x) + line_on ls w x)) xa w (S n)).
    - apply cells_le. intros i I. pose proof (mid_in n i I) as X. fold w in X. set (x := mid_of xa w (Z.of_nat i)) in *.
      unfold load_num. eapply Rle_trans; [apply Rabs_triang|]. apply Rplus_le_compat.
      + rewrite Rabs_mult, (Rabs_right w) by lra. rewrite Rmult_1_r. apply Rmult_le_compat_l; [lra|]. apply AL. lra.
      + rewrite Rabs_mult, Rmult_comm. apply Rmult_le_compat; auto using Rabs_pos; [apply TB; lra|].
        eapply Rle_trans; [apply Rabs_triang|]. apply Rplus_le_compat_l. right. apply Rabs_right, Rle_ge, line_on_pos; auto.
    - rewrite cells_plus, !cells_scale, cells_plus. pose proof (SN xa w (S n) W) as S1.
      pose proof (line_on_total ls xa w (S n) ltac:(lra) LP) as S2. fold Q in S2.
      assert (ONE : forall k, cells (fun _ => 1) xa w k = INR k).
      { induction k as [|k IH]; [reflexivity|]. now rewrite cells_S, IH, S_INR. }
      rewrite ONE. apply Rplus_le_compat.
      + right. transitivity (INR (S n) * w * A); [ring|]. rewrite WA. ring.
      + apply Rmult_le_compat_l; auto. apply Rplus_le_compat; auto. eapply Rle_trans; [exact S1|].
        apply Rmult_le_compat_l; lra.
  Qed.

  Lemma m_change F F' x T : xa <= x <= xb -> Rabs (t x) <= T ->
    Rabs (m_at cx r t F' x - m_at cx r t F x) <= T * Rabs (/ F' - / F).
  Proof.
    intros X TX. unfold m_at.
    replace (cs x + sn x * t x / F' - (cs x + sn x * t x / F)) with (sn x * t x * (/ F' - / F)) by (unfold Rdiv; ring).
    rewrite !Rabs_mult. apply Rmult_le_compat_r; [apply Rabs_pos|].
    pose proof (sin_le x X). pose proof (Rabs_pos (t x)). pose proof (Rabs_pos (sn x)). nra.
  Qed.
  Lemma inv_cv (s : nat -> R) l : Un_cv s l -> l <> 0 -> Un_cv (fun n => / s n) (/ l).
  Proof.
    intros C N. apply (continuity_seq Rinv s l); auto. apply (continuity_pt_inv (fun x => x)); auto.
    apply derivable_continuous_pt, derivable_pt_id.
  Qed.
  (** the factors put in may vary with the number of slices *)
  Lemma bishop_cv (Fn : nat -> R) F mu (pr : Riemann_integrable (bishop_hold us cx r rho c t u F) xa xb) :
    Un_cv Fn F -> F <> 0 -> 0 < mu -> (forall x, xa < x < xb -> mu <= m_at cx r t F x) ->
    Un_cv (fun n => bishop_resisting (wd n) (Fn n) (sl n))
          (RiemannInt pr + line_sum (fun x => t x / m_at cx r t F x) xa xb ls) /\
    exists N, forall n, (N <= n)%nat -> forall s, In s (sl n) -> 0 < m_alpha (Fn n) s.
  Proof.
    intros C F0 P M. pose proof (inv_cv Fn F C F0) as CI.
    destruct (tame_bounded _ xa xb AB (of_mat_tame v cx cy r xa xb RP IN (@m_tan_phi R))) as (T & T0 & TB).
    destruct load_bound as (B & B0 & LB).
    assert (EV : exists N, forall n, (N <= n)%nat -> T * Rabs (/ Fn n - / F) <= mu / 2).
    { destruct (CI (mu / 2 / (T + 1))) as (N & Q); [apply Rdiv_lt_0_compat; lra|].
      exists N. intros n L. specialize (Q n L). unfold R_dist in Q.
      apply Rmult_lt_compat_r with (r := T + 1) in Q; [|lra].
      replace (mu / 2 / (T + 1) * (T + 1)) with (mu / 2) in Q by (field; lra).
      pose proof (Rabs_pos (/ Fn n - / F)). nra. }
    destruct EV as (N & EV).
    assert (ML : forall n x, (N <= n)%nat -> xa < x < xb -> mu / 2 <= m_at cx r t (Fn n) x).
    { intros n x L X. specialize (EV n L). pose proof (m_change F (Fn n) x T ltac:(lra) ltac:(apply TB; lra)) as Q.
      specialize (M x X). apply Rabs_def2 in Q || (pose proof (Rle_trans _ _ _ Q EV) as Q'; unfold Rabs in Q'; destruct (Rcase_abs _) in Q'; lra). }
    split.
    - apply cv_near with (fun n => bishop_resisting (wd n) F (sl n)); [now apply bishop_cv_at with mu|].
      intros e E.
      destruct (CI (e / (B * T * (2 / (mu * mu)) + 1))) as (N' & Q').
      { assert (0 <= B * T * (2 / (mu * mu))).
        { apply Rmult_le_pos; [now apply Rmult_le_pos|]. left. apply Rdiv_lt_0_compat; nra. }
        apply Rdiv_lt_0_compat; lra. }
      exists (max N N'). intros n L. unfold R_dist. rewrite Rminus_0_r, !bishop_sum.
      specialize (Q' n ltac:(lia)). unfold R_dist in Q'. specialize (LB n).
      pose proof (wd_pos xa xb AB n) as W. set (w := wd n) in *.
      match goal with |- Rabs (cells ?f _ _ _ - cells ?h _ _ _) < _ =>
        replace (cells f xa w (S n) - cells h xa w (S n)) with (cells (fun x => f x + -1 * h x) xa w (S n))
          by (rewrite cells_plus, cells_scale; ring) end.
      apply Rle_lt_trans with (T * (2 / (mu * mu)) * Rabs (/ Fn n - / F) * B).
      + eapply Rle_trans; [apply cells_abs|].
        apply Rle_trans with (cells (fun x => T * (2 / (mu * mu)) * Rabs (/ Fn n - / F) * Rabs (load_num w x)) xa w (S n)).
        * apply cells_le. intros i I. pose proof (mid_in n i I) as X. fold w in X. set (x := mid_of xa w (Z.of_nat i)) in *.
          pose proof (m_change F (Fn n) x T ltac:(lra) ltac:(apply TB; lra)) as D.
          pose proof (M x X) as M1. pose proof (ML n x ltac:(lia) X) as M2.
          set (m1 := m_at cx r t F x) in *. set (m2 := m_at cx r t (Fn n) x) in *.
          replace (load_num w x / m2 + -1 * (load_num w x / m1)) with
            (- (m2 - m1) * (/ (m1 * m2)) * load_num w x) by (field; split; lra).
          rewrite !Rabs_mult, Rabs_Ropp. apply Rmult_le_compat_r; [apply Rabs_pos|].
          assert (IV : Rabs (/ (m1 * m2)) <= 2 / (mu * mu)).
          { rewrite Rabs_right by (apply Rle_ge; left; apply Rinv_0_lt_compat; nra).
            replace (2 / (mu * mu)) with (/ (mu * (mu / 2))) by (field; lra).
            apply Rinv_le_contravar; [nra|]. apply Rmult_le_compat; lra. }
          apply Rle_trans with (T * Rabs (/ Fn n - / F) * (2 / (mu * mu))); [|right; ring].
          apply Rmult_le_compat; auto using Rabs_pos.
        * rewrite cells_scale. apply Rmult_le_compat_l; auto.
          apply Rmult_le_pos; [|apply Rabs_pos]. apply Rmult_le_pos; auto. left. apply Rdiv_lt_0_compat; nra.
      + set (k := B * T * (2 / (mu * mu))) in *.
        assert (K0 : 0 <= k).
        { unfold k. apply Rmult_le_pos; [now apply Rmult_le_pos|]. left. apply Rdiv_lt_0_compat; nra. }
        apply Rmult_lt_compat_r with (r := k + 1) in Q'; [|lra].
        replace (e / (k + 1) * (k + 1)) with e in Q' by (field; lra).
        replace (T * (2 / (mu * mu)) * Rabs (/ Fn n - / F) * B) with (k * Rabs (/ Fn n - / F)) by (unfold k; ring).
        pose proof (Rabs_pos (/ Fn n - / F)). nra.
    - exists N. intros n L s J.
      destruct (Forall2_In_r _ _ _ _ (SL' n) J) as (i & I & K). apply zrange_In in I.
      rewrite <- (Z2Nat.id i) in K by lia. rewrite (m_alpha_at n (Z.to_nat i) s (Fn n)); [|lia|exact K].
      specialize (ML n _ L (mid_in n (Z.to_nat i) ltac:(lia))). lra.
  Qed.
End Sums.
