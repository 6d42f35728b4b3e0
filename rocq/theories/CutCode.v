(** * CutCode: the factors computed by the code tend to those of the integral equations
    when the number of slices grows (C92, C93). *)
From Coq Require Import ZArith Reals Lra Lia List Bool.
From Verif Require Import Num Py Validation Utilities Objects Slope Planes Analysis
     RealNum RealFacts ListFacts Spec PlaneFacts CircleFacts SoilFacts SliceFacts ViewFacts FosFacts
     FosMore MidSum Tame SliceLimit CutFacts CutLimit.
Import ListNotations.
Local Open Scope R_scope.

(** A circle that can be cut: it meets the ground at [a] and [b] and is not vertical there,
    no line load stands at [a], and under the line loads the base is not on the boundary of
    two layers. *)
Record cuttable (v : view R) (cx cy r : R) (a b : R * R) : Prop := {
  ct_mats : v_mats v <> [];
  ct_centre : 0 <= cx /\ 0 <= cy /\ 0 <= r;
  ct_ends : end_points (v_geom v) cx cy r a b;
  ct_left : (fst a - cx) * (fst a - cx) < r * r;
  ct_right : (fst b - cx) * (fst b - cx) < r * r;
  ct_water : water_fits v;
  ct_lls : forall l, In l (v_lls v) -> 0 <= snd l;
  ct_first : forall l, In l (v_lls v) -> fst l <> fst a;
  ct_layers : forall l rl m, In l (v_lls v) -> fst a < fst l < fst b -> In (rl, m) (v_mats v) ->
    base_at cx cy r (fst l) <> rl;
}.

Lemma cv_const k : Un_cv (fun _ => k) k.
Proof. intros e E. exists O. intros n _. unfold R_dist. rewrite Rminus_diag_eq, Rabs_R0; auto. Qed.

Section Code.
  Context (v : view R) (GV : good_view v) (cx cy r : R) (a b : R * R) (CT : cuttable v cx cy r a b).
  Notation xa := (fst a).
  Notation xb := (fst b).
  Notation us := (v_udls v).
  Notation ls := (v_lls v).
  Notation wd n := ((xb - xa) / INR (S n)).
  Let G : good_geom (v_geom v) := gv_geom v GV.
  Let DS : descending (v_mats v) := gv_desc v GV.
  Let MA : v_mats v <> [] := ct_mats _ _ _ _ _ _ CT.

  Lemma cut_AB : xa < xb.
  Proof. destruct (end_points_ok _ G _ _ _ _ _ (ct_ends _ _ _ _ _ _ CT)) as (_ & _ & _ & _ & L). lra. Qed.
  Lemma cut_r : 0 < r.
  Proof. apply (radius_pos v GV cx cy r a b); [apply CT|apply CT]. Qed.
  Lemma cut_in x : xa <= x <= xb -> (x - cx) * (x - cx) < r * r.
  Proof.
    intros X. pose proof (ct_left _ _ _ _ _ _ CT). pose proof (ct_right _ _ _ _ _ _ CT). pose proof cut_r.
    assert (- r < xa - cx) by nra. assert (xb - cx < r) by nra. nra.
  Qed.
  Lemma cut_good n : good_view (cut (S (S n)) v).
  Proof. destruct GV as [A B C]. constructor; auto. cbn [cut v_slices]. lia. Qed.

  (** the slices, written out *)
  Definition own_slice (w : R) (i : Z) : slice R :=
    let x := mid_of xa w i in
    MkSlice x (top_at (v_geom v) cx cy r x) (base_at cx cy r x) (cos_at cx r x) (sin_at cx r x)
      (w * rho0 v cx cy r x + rsum (map (udl_share (edge_of xa w i) (edge_of xa w (i + 1))) us)
                            + rsum (map (ll_share (edge_of xa w i) (edge_of xa w (i + 1))) ls))
      (of_mat v cx cy r (@m_cohesion R) x) (of_mat v cx cy r (@m_tan_phi R) x) (u0 v cx cy r x).
  Definition own (n : nat) : list (slice R) := map (own_slice (wd n)) (zrange 0 (S n)).
  Lemma own_ok n : slices_ok (cut (S n) v) cx cy r a b (own n).
  Proof.
    unfold slices_ok. rewrite width_cut. cbn [cut v_slices]. rewrite Nat2Z.id. unfold own.
    assert (Q : forall i, In i (zrange 0 (S n)) -> slice_ok (cut (S n) v) cx cy r xa (wd n) i (own_slice (wd n) i)).
    { intros i I. apply zrange_In in I.
      pose proof (mid_in a b cut_AB n (Z.to_nat i) ltac:(lia)) as X. rewrite Z2Nat.id in X by lia.
      set (x := mid_of xa (wd n) i) in *.
      constructor; cbn [own_slice sl_x sl_yt sl_yb sl_cos sl_sin sl_W sl_c sl_tan sl_u
                        cut v_geom v_mats v_udls v_lls v_water_RL v_water_H]; fold x; try reflexivity.
      - apply drop_positive, cut_in. lra.
      - exists (wd n * rho0 v cx cy r x). split; [|reflexivity].
        destruct (weight_fun_int (v_mats v) (base_at cx cy r x) (top_at (v_geom v) cx cy r x) (Rmax_r _ _)) as (pr & E).
        exists (weight_fun (v_mats v)), pr. split; [now apply weight_fun_layer|]. now rewrite E.
      - destruct (layer_at_exists (v_mats v) (base_at cx cy r x) MA) as (m & LM). exists m. split; auto.
        split; now apply of_mat_at. }
    revert Q. generalize (zrange 0 (S n)). intros l Q. induction l as [|i l IH]; cbn [map]; constructor.
    - apply Q. now left.
    - apply IH. intros j J. apply Q. now right.
  Qed.

  Section Any.
    Context (rho c t u : R -> R) (AL : along v cx cy r xa xb rho c t u).
    Let EQ := along_eq v DS MA cx cy r xa xb rho c t u AL.
    Notation rho' := (rho0 v cx cy r).
    Notation c' := (of_mat v cx cy r (@m_cohesion R)).
    Notation t' := (of_mat v cx cy r (@m_tan_phi R)).
    Notation u' := (u0 v cx cy r).

    Lemma push_eq x : xa < x < xb -> push us cx r rho x = push us cx r rho' x.
    Proof. intros X. unfold push. now rewrite (proj1 (EQ x X)). Qed.
    Lemma hold_eq x : xa < x < xb -> hold us cx r rho c t u x = hold us cx r rho' c' t' u' x.
    Proof. intros X. unfold hold. destruct (EQ x X) as (-> & -> & -> & ->). reflexivity. Qed.
    Lemma m_eq F x : xa < x < xb -> m_at cx r t F x = m_at cx r t' F x.
    Proof. intros X. unfold m_at. destruct (EQ x X) as (_ & _ & -> & _). reflexivity. Qed.
    Lemma bishop_hold_eq F x : xa < x < xb ->
      bishop_hold us cx r rho c t u F x = bishop_hold us cx r rho' c' t' u' F x.
    Proof. intros X. unfold bishop_hold. rewrite m_eq by auto. destruct (EQ x X) as (-> & -> & -> & ->). reflexivity. Qed.
    Lemma line_sum_eq g g' : (forall x, xa < x < xb -> g x = g' x) -> line_sum g xa xb ls = line_sum g' xa xb ls.
    Proof.
      intros E. unfold line_sum. apply rsum_ext. intros l J. pose proof (ct_first _ _ _ _ _ _ CT l J).
      destruct (Rle_dec _ _); auto. destruct (Rlt_dec _ _); auto. rewrite E; auto. lra.
    Qed.
    Lemma push_int : inhabited (Riemann_integrable (push us cx r rho) xa xb).
    Proof.
      destruct (tame_integrable _ xa xb cut_AB (push_tame v cx cy r xa xb cut_r cut_in us)) as [pr].
      constructor. apply (integrable_inside _ _ xa xb cut_AB push_eq pr).
    Qed.
    Lemma hold_int : inhabited (Riemann_integrable (hold us cx r rho c t u) xa xb).
    Proof.
      destruct (tame_integrable _ xa xb cut_AB (hold_tame v G cx cy r xa xb cut_r cut_in us)) as [pr].
      constructor. apply (integrable_inside _ _ xa xb cut_AB hold_eq pr).
    Qed.
    Lemma bishop_int F mu : 0 < mu -> (forall x, xa < x < xb -> mu <= m_at cx r t F x) ->
      inhabited (Riemann_integrable (bishop_hold us cx r rho c t u F) xa xb).
    Proof.
      intros P M. destruct (bishop_integrable v G cx cy r a b cut_AB cut_r cut_in F mu P) as [pr].
      { intros x X. rewrite <- m_eq; auto. }
      constructor. apply (integrable_inside _ _ xa xb cut_AB (bishop_hold_eq F) pr).
    Qed.

    (** what drives and what resists in the limit *)
    Context (prP : Riemann_integrable (push us cx r rho) xa xb).
    Context (prH : Riemann_integrable (hold us cx r rho c t u) xa xb).
    Let P : R := RiemannInt prP + line_sum (sin_at cx r) xa xb ls.
    Let Q : R := RiemannInt prH + line_sum (fun x => cos_at cx r x * t x) xa xb ls.

    Lemma own_driving : Un_cv (fun n => driving (own n)) P.
    Proof.
      destruct (tame_integrable _ xa xb cut_AB (push_tame v cx cy r xa xb cut_r cut_in us)) as [pr].
      pose proof (driving_cv v DS MA cx cy r a b cut_AB cut_r cut_in own own_ok (ct_first _ _ _ _ _ _ CT) pr) as C.
      replace P with (RiemannInt pr + line_sum (sin_at cx r) xa xb ls); auto. unfold P. f_equal.
      apply RiemannInt_P18; [pose proof cut_AB; lra|]. intros x X. symmetry. now apply push_eq.
    Qed.
    Lemma own_resisting : Un_cv (fun n => resisting (wd n) (own n)) Q.
    Proof.
      destruct (tame_integrable _ xa xb cut_AB (hold_tame v G cx cy r xa xb cut_r cut_in us)) as [pr].
      pose proof (resisting_cv v G DS MA (ct_lls _ _ _ _ _ _ CT) cx cy r a b cut_AB cut_r cut_in own own_ok
                    (ct_first _ _ _ _ _ _ CT) (ct_layers _ _ _ _ _ _ CT) pr) as C.
      replace Q with (RiemannInt pr + line_sum (fun x => cos_at cx r x * t' x) xa xb ls); auto. unfold Q. f_equal.
      - apply RiemannInt_P18; [pose proof cut_AB; lra|]. intros x X. symmetry. now apply hold_eq.
      - apply line_sum_eq. intros x X. destruct (EQ x X) as (_ & _ & -> & _). reflexivity.
    Qed.

    Lemma ordinary_own n : ordinary (cut (S (S n)) v) cx cy r a b =
      Ok (if Rle_dec (driving (own (S n))) 0 then None
          else Some (resisting (wd (S n)) (own (S n)) / driving (own (S n)))).
    Proof.
      destruct (ct_centre _ _ _ _ _ _ CT) as (D1 & D2 & D3).
      destruct (ordinary_spec _ (cut_good n) cx cy r a b D1 D2 D3 (ct_ends _ _ _ _ _ _ CT) (ct_water _ _ _ _ _ _ CT))
        as [(M & _)|(sl & SO & E)]; [contradiction|].
      rewrite (slices_det _ _ _ _ _ _ _ _ SO (own_ok (S n))) in E. rewrite (width_cut v a b (S n)) in E.
      destruct E as [(L & ->)|(L & ->)]; destruct (Rle_dec _ _); auto; lra.
    Qed.

    Theorem ordinary_limit :
      (0 < P -> exists F N, (forall n, (N <= n)%nat -> ordinary (cut (S n) v) cx cy r a b = Ok (Some (F n))) /\
         Un_cv F (Q / P)) /\
      (P < 0 -> exists N, forall n, (N <= n)%nat -> ordinary (cut (S n) v) cx cy r a b = Ok None).
    Proof.
      split; intros SG.
      - exists (fun n => resisting (wd n) (own n) / driving (own n)).
        destruct (cv_pos _ _ own_driving SG) as (N & E). exists (Nat.max 1 N). split.
        + intros n L. destruct n as [|n]; [lia|]. rewrite ordinary_own. specialize (E (S n) ltac:(lia)).
          destruct (Rle_dec _ _); [lra|reflexivity].
        + apply cv_div; [apply own_resisting|apply own_driving|lra].
      - destruct (cv_neg _ _ own_driving SG) as (N & E). exists (Nat.max 1 N).
        intros n L. destruct n as [|n]; [lia|]. rewrite ordinary_own. specialize (E (S n) ltac:(lia)).
        destruct (Rle_dec _ _); [reflexivity|lra].
    Qed.

    (** One turn of the integral equation *)
    Definition limit_turn (F F' : R) : Prop :=
      0 < F /\ (exists mu, 0 < mu /\ forall x, xa < x < xb -> mu <= m_at cx r t F x) /\
      exists pr : Riemann_integrable (bishop_hold us cx r rho c t u F) xa xb,
        F' = (RiemannInt pr + line_sum (fun x => t x / m_at cx r t F x) xa xb ls) / P.
    Context (PP : 0 < P).
    (** the iterates with [S n] slices *)
    Fixpoint it (k n : nat) : R :=
      match k with
      | O => resisting (wd n) (own n) / driving (own n)
      | S k => bishop_resisting (wd n) (it k n) (own n) / driving (own n)
      end.
    Lemma turn_cv k F F' : limit_turn F F' -> 0 < F' -> Un_cv (it k) F ->
      Un_cv (it (S k)) F' /\ exists N, forall n, (N <= n)%nat -> next (wd n) (own n) (it k n) (it (S k) n).
    Proof.
      intros (F0 & (mu & MU & M) & pr & ->) F1 C.
      assert (M' : forall x, xa < x < xb -> mu <= m_at cx r t' F x) by (intros x X; rewrite <- m_eq; auto).
      destruct (bishop_integrable v G cx cy r a b cut_AB cut_r cut_in F mu MU M') as [pr'].
      destruct (bishop_cv v G DS MA (ct_lls _ _ _ _ _ _ CT) cx cy r a b cut_AB cut_r cut_in own own_ok
                  (ct_first _ _ _ _ _ _ CT) (ct_layers _ _ _ _ _ _ CT) (it k) F mu pr' C ltac:(lra) MU M') as (BC & N1 & E1).
      replace (RiemannInt pr' + line_sum (fun x => t' x / m_at cx r t' F x) xa xb ls) with
              (RiemannInt pr + line_sum (fun x => t x / m_at cx r t F x) xa xb ls) in BC.
      2:{ f_equal.
          - apply RiemannInt_P18; [pose proof cut_AB; lra|]. intros x X. now apply bishop_hold_eq.
          - apply line_sum_eq. intros x X. rewrite m_eq by auto. destruct (EQ x X) as (_ & _ & -> & _). reflexivity. }
      set (B := RiemannInt pr + line_sum (fun x => t x / m_at cx r t F x) xa xb ls) in *.
      assert (BP : 0 < B).
      { replace B with (B / P * P) by (field; lra). now apply Rmult_lt_0_compat. }
      split; [apply cv_div; [exact BC|apply own_driving|lra]|].
      destruct (cv_pos _ _ own_driving PP) as (N2 & E2). destruct (cv_pos _ _ BC BP) as (N3 & E3).
      destruct (cv_pos _ _ C F0) as (N4 & E4).
      exists (N1 + N2 + N3 + N4)%nat. intros n L. cbn [it]. apply next_turn.
      - specialize (E4 n ltac:(lia)). lra.
      - intros s J. specialize (E1 n ltac:(lia) s J). lra.
      - apply E2. lia.
      - left. apply E3. lia.
    Qed.
    Lemma iterates_cv (f : nat -> R) J : f O = Q / P -> (forall k, (k < J)%nat -> limit_turn (f k) (f (S k))) ->
      (forall k, (k <= J)%nat -> 0 < f k) ->
      forall k, (k <= J)%nat -> Un_cv (it k) (f k) /\
        exists N, forall n, (N <= n)%nat -> forall i, (i < k)%nat -> next (wd n) (own n) (it i n) (it (S i) n).
    Proof.
      intros F0 T FP. induction k as [|k IH]; intros L.
      - split; [rewrite F0; apply cv_div; [apply own_resisting|apply own_driving|lra]|]. exists O. intros; lia.
      - destruct (IH ltac:(lia)) as (C & N & E).
        destruct (turn_cv k (f k) (f (S k)) (T k ltac:(lia)) (FP (S k) L) C) as (C' & N' & E').
        split; auto. exists (N + N')%nat. intros n B i I. destruct (Nat.eq_dec i k) as [->|NE].
        + apply E'. lia.
        + apply E; lia.
    Qed.
    Lemma iterate_it n k : (forall i, (i < k)%nat -> next (wd n) (own n) (it i n) (it (S i) n)) ->
      forall i, (i <= k)%nat -> iterate (wd n) (own n) i (it 0 n) (it i n).
    Proof.
      intros E. induction i as [|i IH]; intros L; [constructor|]. econstructor; [apply IH; lia|]. apply E. lia.
    Qed.

    Theorem bishop_limit (f : nat -> R) J :
      f O = Q / P -> (forall k, (k < J)%nat -> limit_turn (f k) (f (S k))) -> (forall k, (k <= J)%nat -> 0 < f k) ->
      (J <= Z.to_nat (v_max_iterations v))%nat ->
      (forall k, (S k < J)%nat -> v_tolerance v <= 0 \/ v_tolerance v < Rabs (f (S k) - f k)) ->
      ((J < Z.to_nat (v_max_iterations v))%nat -> exists k, J = S k /\ Rabs (f J - f k) < v_tolerance v) ->
      exists F N, (forall n, (N <= n)%nat -> bishop (cut (S n) v) cx cy r = Ok (Some (F n))) /\ Un_cv F (f J).
    Proof.
      intros F0 T FP JM TO ST. pose proof (iterates_cv f J F0 T FP) as IC.
      destruct (IC J (le_n _)) as (CJ & N & NX).
      assert (DIFF : forall k, (S k <= J)%nat -> Un_cv (fun n => Rabs (it (S k) n - it k n)) (Rabs (f (S k) - f k))).
      { intros k L. apply cv_cvabs. apply CV_minus; apply IC; lia. }
      assert (EV : exists N', forall n, (N' <= n)%nat ->
        forall k, (S k < J)%nat -> v_tolerance v <= Rabs (it (S k) n - it k n)).
      { clear - DIFF TO. revert DIFF TO. induction J as [|J IH]; intros DIFF TO; [exists O; intros; lia|].
        destruct IH as (N1 & E1); [intros k L; apply DIFF; lia|intros k L; apply TO; lia|].
        destruct J as [|J]; [exists O; intros; lia|].
        specialize (DIFF J ltac:(lia)). destruct (TO J ltac:(lia)) as [TZ|TP].
        { exists O. intros n _ k _. pose proof (Rabs_pos (it (S k) n - it k n)). lra. }
        destruct (cv_pos _ _ (CV_minus _ _ _ _ DIFF (cv_const (v_tolerance v))) ltac:(lra)) as (N2 & E2).
        exists (N1 + N2)%nat. intros n L k K. destruct (Nat.eq_dec k J) as [->|NE].
        - specialize (E2 n ltac:(lia)). cbv beta in E2. lra.
        - apply E1; lia. }
      destruct EV as (N1 & E1).
      assert (ES : exists N', forall n, (N' <= n)%nat -> (J < Z.to_nat (v_max_iterations v))%nat ->
        exists k, J = S k /\ Rabs (it J n - it k n) < v_tolerance v).
      { destruct (le_lt_dec (Z.to_nat (v_max_iterations v)) J) as [L|L]; [exists O; intros; lia|].
        destruct (ST L) as (k & E & D). rewrite E in D. specialize (DIFF k ltac:(lia)).
        destruct (cv_pos _ _ (CV_minus _ _ _ _ (cv_const (v_tolerance v)) DIFF) ltac:(lra)) as (N2 & E2).
        exists N2. intros n K _. exists k. split; auto. rewrite E. specialize (E2 n K). cbv beta in E2. lra. }
      destruct ES as (N2 & E2). destruct (cv_pos _ _ own_driving PP) as (N3 & E3).
      exists (it J), (1 + N + N1 + N2 + N3)%nat. split; auto. intros n L. destruct n as [|n]; [lia|].
      destruct (ct_centre _ _ _ _ _ _ CT) as (D1 & D2 & D3).
      apply (bishop_value _ (cut_good n) cx cy r a b (own (S n))); auto.
      - apply CT.
      - apply CT.
      - apply own_ok.
      - apply E3. lia.
      - rewrite width_cut. specialize (NX (S n) ltac:(lia)). pose proof (iterate_it (S n) J NX) as IT.
        exists J. split; auto. split; [now apply IT|]. split.
        + intros i F1 F2 I I1 I2. cbn [cut v_tolerance].
          rewrite (iterate_det _ _ _ _ _ I1 _ (IT i ltac:(lia))) in *.
          rewrite (next_det _ _ _ _ _ I2 (NX i ltac:(lia))). apply E1; lia.
        + intros JL. destruct (E2 (S n) ltac:(lia) JL) as (k & E & D). exists k, (it k (S n)). split; auto.
          split; [apply IT; lia|exact D].
    Qed.
  End Any.
End Code.
