(** * Surcharge: the same slope with more load on the crest (C95). *)
From Coq Require Import ZArith Reals Lra Lia List Bool String.
From Verif Require Import Num Py Validation Utilities Objects Slope Planes Analysis
     Dynamic Api RealNum RealFacts ListFacts MonadFacts Spec CircleFacts PlaneFacts SoilFacts SliceFacts
     SlopeFacts KeepFacts FormFacts LayerFacts SearchFacts MatInv Invariant History EditFacts LoadFacts OptionFacts ViewFacts FosFacts FosMore StrengthFacts
     FosTotal WetFacts FosCode.
Import ListNotations.
Local Open Scope R_scope.

(** ** Views *)
Record more_load (v v' : view R) (us : list (R * R * R)) (ls : list (R * R)) : Prop := {
  ml_geom : v_geom v' = v_geom v;
  ml_mats : v_mats v' = v_mats v;
  ml_water : v_water_RL v' = v_water_RL v;
  ml_H : v_water_H v' = v_water_H v;
  ml_slices : v_slices v' = v_slices v;
  ml_udls : v_udls v' = v_udls v ++ us;
  ml_lls : v_lls v' = v_lls v ++ ls;
  ml_us : forall u, In u us -> 0 <= snd u;
  ml_ls : forall l, In l ls -> 0 <= snd l;
}.
(** the weight that the new loads put on the slice between [x1] and [x2] *)
Definition extra (us : list (R * R * R)) (ls : list (R * R)) (x1 x2 : R) : R :=
  rsum (map (udl_share x1 x2) us) + rsum (map (ll_share x1 x2) ls).
Lemma rsum_app l l' : rsum (l ++ l') = rsum l + rsum l'.
Proof. induction l as [|x l IH]; cbn [app rsum]; [ring|rewrite IH; ring]. Qed.

(** the same slice with more weight *)
Record heavier (s s' : slice R) : Prop := {
  hv_x : sl_x s' = sl_x s;
  hv_cos : sl_cos s' = sl_cos s;
  hv_sin : sl_sin s' = sl_sin s;
  hv_c : sl_c s' = sl_c s;
  hv_tan : sl_tan s' = sl_tan s;
  hv_u : sl_u s' = sl_u s;
  hv_W : sl_W s <= sl_W s';
  hv_pos : 0 < sl_cos s;
}.
Lemma extra_nonneg v v' us ls x1 x2 : more_load v v' us ls -> 0 <= extra us ls x1 x2.
Proof.
  intros ML. unfold extra.
  assert (0 <= rsum (map (udl_share x1 x2) us)).
  { apply rsum_nonneg. intros x I. apply in_map_iff in I as (u & <- & I). apply udl_share_nonneg, (ml_us _ _ _ _ ML u I). }
  assert (0 <= rsum (map (ll_share x1 x2) ls)).
  { apply rsum_nonneg. intros x I. apply in_map_iff in I as (u & <- & I). apply ll_share_nonneg, (ml_ls _ _ _ _ ML u I). }
  lra.
Qed.
Lemma slice_heavier v v' us ls cx cy r xl w i s s' : more_load v v' us ls -> 0 < r ->
  slice_ok v cx cy r xl w i s -> slice_ok v' cx cy r xl w i s' ->
  heavier s s' /\ sl_W s' = sl_W s + extra us ls (edge_of xl w i) (edge_of xl w (i + 1)).
Proof.
  intros ML RP [X YB YT D C SI (W & SW & EW) (m & LM & EC & ET) U]
         [X' YB' YT' D' C' SI' (W' & SW' & EW') (m' & LM' & EC' & ET') U'].
  pose proof (extra_nonneg v v' us ls (edge_of xl w i) (edge_of xl w (i + 1)) ML) as EN.
  destruct ML as [MG MM MW MH MS MU ML _ _]. rewrite MG, MM, MW, MH, MU, ML in *.
  assert (EB : sl_yb s' = sl_yb s) by congruence.
  assert (EY : sl_yt s' = sl_yt s) by congruence.
  rewrite EB, EY in *. pose proof (layer_at_unique _ _ _ _ LM' LM) as ->.
  assert (W' = W).
  { apply (soil_weight_det (v_mats v) w (sl_yb s) (sl_yt s)); auto.
    - intros E. destruct (layer_at_In _ _ _ LM) as (rl & IM). rewrite E in IM. destruct IM.
    - rewrite YT. apply Rmax_r. }
  subst W'. rewrite !map_app, !rsum_app in EW'.
  assert (Q : sl_W s' = sl_W s + extra us ls (edge_of xl w i) (edge_of xl w (i + 1))) by (unfold extra; lra).
  split; [|exact Q]. constructor; try congruence; [lra|]. rewrite C. now apply Rdiv_lt_0_compat.
Qed.
Lemma width_more v v' us ls a b : more_load v v' us ls -> width v' a b = width v a b.
Proof. intros ML. unfold width. now rewrite (ml_slices _ _ _ _ ML). Qed.
Lemma slices_heavier v v' us ls cx cy r a b sl sl' : more_load v v' us ls -> 0 < r ->
  slices_ok v cx cy r a b sl -> slices_ok v' cx cy r a b sl' -> Forall2 heavier sl sl'.
Proof.
  intros ML RP. unfold slices_ok. rewrite (width_more _ _ _ _ _ _ ML), (ml_slices _ _ _ _ ML).
  generalize (zrange 0 (Z.to_nat (v_slices v))) as l. intros l A. revert sl'.
  induction A as [|i s l sl K A IH]; intros sl' B; inversion B; subst; constructor; auto.
  now destruct (slice_heavier v v' us ls _ _ _ _ _ _ _ _ ML RP K H1).
Qed.

(** ** Sums over pairs of slices *)
Section Pairs.
  Context (w : R) (W0 : 0 < w).
  Definition gain (f : slice R -> R) (p : slice R * slice R) : R := (sl_W (snd p) - sl_W (fst p)) * f (fst p).
  Lemma gain_eq f s s' : gain f (s, s') = (sl_W s' - sl_W s) * f s.
  Proof. reflexivity. Qed.
  Definition gains (f : slice R -> R) (sl sl' : list (slice R)) : R := rsum (map (gain f) (combine sl sl')).
  Lemma driving_more sl sl' : Forall2 heavier sl sl' -> driving sl' = driving sl + gains sl_sin sl sl'.
  Proof.
    unfold driving, gains. induction 1 as [|s s' sl sl' H F IH]; cbn [combine map rsum]; [lra|].
    rewrite IH, (hv_sin _ _ H). rewrite gain_eq. lra.
  Qed.
  Lemma resisting_more sl sl' : (forall s, In s sl -> 0 <= sl_tan s) -> Forall2 heavier sl sl' ->
    resisting w sl' <= resisting w sl + gains (fun s => sl_cos s * sl_tan s) sl sl'.
  Proof.
    intros T. unfold resisting, gains. induction 1 as [|s s' sl sl' H F IH]; cbn [combine map rsum]; [lra|].
    specialize (IH (fun t I => T t (or_intror I))). specialize (T s (or_introl eq_refl)).
    destruct H as [_ C S CC TT U Wt P]. rewrite gain_eq. unfold base_len in *. rewrite C, CC, TT, U.
    set (p := sl_W s * sl_cos s - sl_u s * (w / sl_cos s)).
    replace (sl_W s' * sl_cos s - sl_u s * (w / sl_cos s)) with (p + (sl_W s' - sl_W s) * sl_cos s) by (unfold p; ring).
    set (d := (sl_W s' - sl_W s) * sl_cos s). assert (D : 0 <= d) by (apply Rmult_le_pos; lra).
    assert (M : Rmax 0 (p + d) <= Rmax 0 p + d) by (rminmax; lra).
    apply Rmult_le_compat_r with (r := sl_tan s) in M; auto.
    replace ((sl_W s' - sl_W s) * (sl_cos s * sl_tan s)) with (d * sl_tan s) by (unfold d; ring). lra.
  Qed.
  Lemma resisting_all sl sl' : Forall2 heavier sl sl' ->
    (forall s s', In (s, s') (combine sl sl') -> sl_W s < sl_W s' -> 0 <= sl_W s * sl_cos s - sl_u s * base_len w s) ->
    resisting w sl' = resisting w sl + gains (fun s => sl_cos s * sl_tan s) sl sl'.
  Proof.
    unfold resisting, gains. induction 1 as [|s s' sl sl' H F IH]; intros Q; cbn [combine map rsum]; [lra|].
    rewrite IH by (intros; apply (Q s0 s'0); auto; now right).
    specialize (Q s s' (or_introl eq_refl)).
    destruct H as [_ C S CC TT U Wt P]. rewrite gain_eq. unfold base_len in *. rewrite C, CC, TT, U.
    destruct Wt as [L|E]; [|rewrite <- E; ring]. specialize (Q L).
    assert (D : 0 <= (sl_W s' - sl_W s) * sl_cos s) by (apply Rmult_le_pos; lra).
    rewrite !Rmax_right by lra. ring.
  Qed.
  Lemma bishop_more F sl sl' : Forall2 heavier sl sl' ->
    bishop_resisting w F sl' = bishop_resisting w F sl + gains (fun s => sl_tan s / m_alpha F s) sl sl'.
  Proof.
    unfold bishop_resisting, gains. induction 1 as [|s s' sl sl' H F2 IH]; cbn [combine map rsum]; [lra|].
    rewrite IH. destruct H as [_ C S CC TT U Wt P]. rewrite gain_eq. unfold m_alpha. rewrite C, S, CC, TT, U.
    unfold Rdiv. ring.
  Qed.
  Lemma gains_le f g sl sl' : Forall2 heavier sl sl' ->
    (forall s s', In (s, s') (combine sl sl') -> sl_W s < sl_W s' -> f s <= g s) -> gains f sl sl' <= gains g sl sl'.
  Proof.
    unfold gains. induction 1 as [|s s' sl sl' H F IH]; intros Q; cbn [combine map rsum]; [lra|].
    specialize (IH (fun t t' I => Q t t' (or_intror I))). specialize (Q s s' (or_introl eq_refl)).
    rewrite !gain_eq. destruct (hv_W _ _ H) as [L|E]; [|rewrite <- E; lra].
    specialize (Q L). apply Rmult_le_compat_l with (r := sl_W s' - sl_W s) in Q; lra.
  Qed.
  Lemma gains_lt f g sl sl' : Forall2 heavier sl sl' ->
    (forall s s', In (s, s') (combine sl sl') -> sl_W s < sl_W s' -> f s < g s) ->
    (exists s s', In (s, s') (combine sl sl') /\ sl_W s < sl_W s') -> gains f sl sl' < gains g sl sl'.
  Proof.
    unfold gains. induction 1 as [|s s' sl sl' H F IH]; intros Q (t & t' & I & L); cbn [combine map rsum] in *; [destruct I|].
    assert (LE : rsum (map (gain f) (combine sl sl')) <= rsum (map (gain g) (combine sl sl'))).
    { apply gains_le; auto. intros x x' J K. left. apply (Q x x'); [now right|exact K]. }
    destruct I as [E|I].
    - injection E as <- <-. specialize (Q s s' (or_introl eq_refl) L). rewrite !gain_eq.
      apply Rmult_lt_compat_l with (r := sl_W s' - sl_W s) in Q; lra.
    - specialize (IH (fun x x' J => Q x x' (or_intror J)) (ex_intro _ t (ex_intro _ t' (conj I L)))).
      assert (gain f (s, s') <= gain g (s, s')); [|lra]. rewrite !gain_eq.
      destruct (hv_W _ _ H) as [K|E]; [|rewrite <- E; lra]. specialize (Q s s' (or_introl eq_refl) K).
      apply Rmult_le_compat_l; lra.
  Qed.
  Lemma gains_scale k f sl sl' : gains (fun s => k * f s) sl sl' = k * gains f sl sl'.
  Proof.
    unfold gains. rewrite <- rsum_scale. f_equal. apply map_ext. intros p. unfold gain. ring.
  Qed.

  (** *** The ordinary factor *)
  Definition touched (sl sl' : list (slice R)) (P : slice R -> Prop) : Prop :=
    forall s s', In (s, s') (combine sl sl') -> sl_W s < sl_W s' -> P s.
  Lemma ordinary_lower sl sl' : Forall2 heavier sl sl' -> (forall s, In s sl -> 0 <= sl_tan s) -> 0 < driving sl ->
    touched sl sl' (fun s => 0 <= sl_sin s /\ sl_tan s * sl_cos s <= resisting w sl / driving sl * sl_sin s) ->
    0 < driving sl' /\ resisting w sl' / driving sl' <= resisting w sl / driving sl.
  Proof.
    intros H T D Q. set (f := resisting w sl / driving sl) in *.
    assert (S : 0 <= gains sl_sin sl sl').
    { replace 0 with (gains (fun _ => 0) sl sl').
      - apply gains_le; auto. intros s s' I L. apply (Q s s' I L).
      - unfold gains. induction (combine sl sl') as [|p l IH]; cbn [map rsum]; auto. rewrite IH. unfold gain. ring. }
    assert (G : gains (fun s => sl_cos s * sl_tan s) sl sl' <= f * gains sl_sin sl sl').
    { rewrite <- gains_scale. apply gains_le; auto. intros s s' I L. destruct (Q s s' I L). lra. }
    pose proof (resisting_more sl sl' T H) as RM. rewrite (driving_more sl sl' H).
    split; [lra|]. apply Rmult_le_reg_r with (driving sl + gains sl_sin sl sl'); [lra|].
    unfold Rdiv at 1. rewrite Rmult_assoc, Rinv_l, Rmult_1_r by lra.
    replace (resisting w sl) with (f * driving sl) in RM by (unfold f; field; lra). lra.
  Qed.
  Lemma ordinary_higher sl sl' : Forall2 heavier sl sl' -> 0 < driving sl -> 0 < driving sl' ->
    touched sl sl' (fun s => 0 <= sl_W s * sl_cos s - sl_u s * base_len w s /\
                             resisting w sl / driving sl * sl_sin s < sl_tan s * sl_cos s) ->
    (exists s s', In (s, s') (combine sl sl') /\ sl_W s < sl_W s') ->
    resisting w sl / driving sl < resisting w sl' / driving sl'.
  Proof.
    intros H D D' Q X. set (f := resisting w sl / driving sl) in *.
    assert (G : f * gains sl_sin sl sl' < gains (fun s => sl_cos s * sl_tan s) sl sl').
    { rewrite <- gains_scale. apply gains_lt; auto. intros s s' I L. destruct (Q s s' I L). lra. }
    rewrite (resisting_all sl sl' H) by (intros s s' I L; apply (Q s s' I L)).
    rewrite (driving_more sl sl' H) in *.
    apply Rmult_lt_reg_r with (driving sl + gains sl_sin sl sl'); [lra|].
    unfold Rdiv. rewrite Rmult_assoc, Rinv_l, Rmult_1_r by lra.
    replace (resisting w sl) with (f * driving sl) by (unfold f; field; lra). lra.
  Qed.
End Pairs.

(** ** The limit of Bishop's iteration *)
Section Limit.
  Context (w : R) (sl : list (slice R)) (L : forall s, In s sl -> leaning_slice w s) (D : 0 < driving sl).
  Lemma turn_at F : 0 < F -> turn w sl F = bishop_resisting w F sl / driving sl.
  Proof. intros P. unfold turn. destruct (Req_EM_T F 0); [lra|reflexivity]. Qed.
  Lemma turn_ratio F F' : 0 < F < F' -> turn w sl F' * F < turn w sl F * F'.
  Proof.
    intros P. rewrite !turn_at by lra. pose proof (some_slice sl D) as NE.
    assert (Q : bishop_resisting w F' sl * F < bishop_resisting w F sl * F').
    { clear D. unfold bishop_resisting.
      assert (ONE : forall s, In s sl ->
        (sl_c s * w + (sl_W s - sl_u s * w) * sl_tan s) / m_alpha F' s * F <
        (sl_c s * w + (sl_W s - sl_u s * w) * sl_tan s) / m_alpha F s * F').
      { intros s I. destruct (L s I) as (C & S & T & ST). fold (strength w s).
        pose proof (leaning_alpha w sl L F s ltac:(lra) I) as A. pose proof (leaning_alpha w sl L F' s ltac:(lra) I) as A'.
        assert (AF : F * m_alpha F s = F * sl_cos s + sl_sin s * sl_tan s) by (unfold m_alpha; field; lra).
        assert (AF' : F' * m_alpha F' s = F' * sl_cos s + sl_sin s * sl_tan s) by (unfold m_alpha; field; lra).
        assert (F * sl_cos s < F' * sl_cos s) by (apply Rmult_lt_compat_r; lra).
        unfold Rdiv. rewrite !Rmult_assoc. apply Rmult_lt_compat_l; auto.
        apply Rmult_lt_reg_l with (m_alpha F s * m_alpha F' s); [now apply Rmult_lt_0_compat|].
        replace (m_alpha F s * m_alpha F' s * (/ m_alpha F' s * F)) with (F * m_alpha F s) by (field; lra).
        replace (m_alpha F s * m_alpha F' s * (/ m_alpha F s * F')) with (F' * m_alpha F' s) by (field; lra). lra. }
      revert NE ONE. clear L. induction sl as [|s l IH]; intros NE ONE; [congruence|]. cbn [map rsum].
      rewrite !Rmult_plus_distr_r. apply Rplus_lt_le_compat; [apply ONE; now left|].
      destruct l as [|t l]; [cbn; lra|]. left. apply IH; [discriminate|]. intros x I. apply ONE. now right. }
    unfold Rdiv. pose proof (Rinv_0_lt_compat _ D).
    replace (bishop_resisting w F' sl * / driving sl * F) with (bishop_resisting w F' sl * F * / driving sl) by ring.
    replace (bishop_resisting w F sl * / driving sl * F') with (bishop_resisting w F sl * F' * / driving sl) by ring.
    now apply Rmult_lt_compat_r.
  Qed.
  Lemma resist_cont f : 0 < f -> continuity_pt (fun F => bishop_resisting w F sl) f.
  Proof.
    intros P. unfold bishop_resisting. clear D. induction sl as [|s l IH]; cbn [map rsum].
    - apply continuity_pt_const. intros x y. reflexivity.
    - apply (continuity_pt_plus (fun F => (sl_c s * w + (sl_W s - sl_u s * w) * sl_tan s) / m_alpha F s)
               (fun F => rsum (map (fun s => (sl_c s * w + (sl_W s - sl_u s * w) * sl_tan s) / m_alpha F s) l))).
      2:{ apply IH. intros t I. apply L. now right. }
      apply (continuity_pt_mult (fun _ => sl_c s * w + (sl_W s - sl_u s * w) * sl_tan s) (fun F => / m_alpha F s)).
      { apply continuity_pt_const. intros x y. reflexivity. }
      apply (continuity_pt_inv (fun F => m_alpha F s)).
      2:{ destruct (L s (or_introl eq_refl)) as (C & S & T & _). unfold m_alpha.
          assert (0 <= sl_sin s * sl_tan s / f); [|lra].
          apply Rmult_le_pos; [apply Rmult_le_pos; lra|left; now apply Rinv_0_lt_compat]. }
      unfold m_alpha. apply (continuity_pt_plus (fun _ => sl_cos s) (fun F => sl_sin s * sl_tan s / F)).
      { apply continuity_pt_const. intros x y. reflexivity. }
      apply (continuity_pt_mult (fun _ => sl_sin s * sl_tan s) (fun F => / F)).
      { apply continuity_pt_const. intros x y. reflexivity. }
      apply (continuity_pt_inv (fun F => F)); [|lra]. apply derivable_continuous_pt, derivable_pt_id.
  Qed.
  Lemma limit_fixed F0 f : 0 < F0 -> Un_cv (turns w sl F0) f -> 0 < f -> turn w sl f = f.
  Proof.
    intros P C PF. apply (UL_sequence (fun k => turns w sl F0 (S k))).
    - rewrite turn_at by auto.
      assert (CC : continuity_pt (fun F => bishop_resisting w F sl / driving sl) f).
      { apply (continuity_pt_mult (fun F => bishop_resisting w F sl) (fun _ => / driving sl)); [now apply resist_cont|].
        apply continuity_pt_const. intros x y. reflexivity. }
      pose proof (continuity_seq _ _ f CC C) as Q. intros e E. destruct (Q e E) as (N & K). exists N. intros n G.
      specialize (K n G). cbn [turns]. now rewrite turn_at by now apply turns_pos.
    - intros e E. destruct (C e E) as (N & K). exists N. intros n G. apply K. lia.
  Qed.
  Lemma limit_le F0 f' f : 0 < F0 -> Un_cv (turns w sl F0) f' -> 0 < f -> turn w sl f <= f -> f' <= f.
  Proof.
    intros P C PF T. destruct (Rle_lt_dec f' f) as [|B]; auto. exfalso.
    pose proof (limit_fixed F0 f' P C ltac:(lra)) as FX. pose proof (turn_ratio f f' ltac:(lra)) as Q. rewrite FX in Q.
    assert (turn w sl f * f' <= f * f') by (apply Rmult_le_compat_r; lra). lra.
  Qed.
  Lemma limit_gt F0 f' f : 0 < F0 -> Un_cv (turns w sl F0) f' -> 0 < f -> f < turn w sl f -> f < f'.
  Proof.
    intros P C PF T.
    assert (UP : forall m, 0 < m <= f -> m < turn w sl m).
    { intros m M. destruct (Rle_lt_or_eq_dec m f (proj2 M)) as [Lt|E]; [|now rewrite E].
      pose proof (turn_ratio m f ltac:(lra)) as Q.
      assert (f * m < turn w sl f * m) by (apply Rmult_lt_compat_r; lra).
      apply Rmult_lt_reg_r with f; auto. lra. }
    set (m := Rmin F0 f). assert (MP : 0 < m) by (apply Rmin_glb_lt; lra).
    assert (LOW : forall k, m <= turns w sl F0 k).
    { induction k as [|k IH]; cbn [turns]; [apply Rmin_l|].
      apply Rle_trans with (turn w sl m); [left; apply UP; split; [auto|apply Rmin_r]|]. apply turn_mono; auto. }
    assert (ML : m <= f').
    { destruct (Rle_lt_dec m f') as [|B]; auto. exfalso. destruct (C (m - f') ltac:(lra)) as (N & K).
      specialize (K N (le_n N)). unfold R_dist in K. apply Rabs_def2 in K. specialize (LOW N). lra. }
    pose proof (limit_fixed F0 f' P C ltac:(lra)) as FX.
    destruct (Rle_lt_dec f' f) as [B|]; auto. exfalso. pose proof (UP f' ltac:(lra)). lra.
  Qed.
End Limit.

Section BishopMore.
  Context (w : R) (sl sl' : list (slice R)) (H2 : Forall2 heavier sl sl').
  Context (L : forall s, In s sl -> leaning_slice w s) (D : 0 < driving sl).
  Context (L' : forall s, In s sl' -> leaning_slice w s) (D' : 0 < driving sl').
  Context (UN : forall s, In s sl -> sl_sin s * sl_sin s + sl_cos s * sl_cos s = 1).
  Lemma gain_alpha f s : 0 < f -> In s sl ->
    (sl_tan s / m_alpha f s <= f * sl_sin s <-> sl_tan s * sl_cos s <= f * sl_sin s) /\
    (f * sl_sin s < sl_tan s / m_alpha f s <-> f * sl_sin s < sl_tan s * sl_cos s).
  Proof.
    intros P I. destruct (L s I) as (C & S & T & _). specialize (UN s I).
    pose proof (leaning_alpha w sl L f s P I) as A.
    assert (E : f * sl_sin s * m_alpha f s - sl_tan s = sl_cos s * (f * sl_sin s - sl_tan s * sl_cos s)).
    { unfold m_alpha. replace (sl_tan s) with (sl_tan s * (sl_sin s * sl_sin s + sl_cos s * sl_cos s)) at 2 by (rewrite UN; ring).
      field. lra. }
    assert (X : sl_tan s / m_alpha f s * m_alpha f s = sl_tan s) by (field; lra).
    split; split; intros Q.
    - apply Rmult_le_compat_r with (r := m_alpha f s) in Q; [|lra]. rewrite X in Q.
      destruct (Rle_lt_dec (sl_tan s * sl_cos s) (f * sl_sin s)) as [|B]; auto. exfalso.
      assert (sl_cos s * (f * sl_sin s - sl_tan s * sl_cos s) < sl_cos s * 0) by (apply Rmult_lt_compat_l; lra). lra.
    - apply Rmult_le_reg_r with (m_alpha f s); auto. rewrite X.
      assert (0 <= sl_cos s * (f * sl_sin s - sl_tan s * sl_cos s)) by (apply Rmult_le_pos; lra). lra.
    - apply Rmult_lt_compat_r with (r := m_alpha f s) in Q; [|lra]. rewrite X in Q.
      destruct (Rle_lt_dec (sl_tan s * sl_cos s) (f * sl_sin s)) as [B|]; auto. exfalso.
      assert (0 <= sl_cos s * (f * sl_sin s - sl_tan s * sl_cos s)) by (apply Rmult_le_pos; lra). lra.
    - apply Rmult_lt_reg_r with (m_alpha f s); auto. rewrite X.
      assert (sl_cos s * (f * sl_sin s - sl_tan s * sl_cos s) < sl_cos s * 0) by (apply Rmult_lt_compat_l; lra). lra.
  Qed.
  Lemma pair_left s s' : In (s, s') (combine sl sl') -> In s sl.
  Proof. apply in_combine_l. Qed.
  Lemma turn_lower f : 0 < f -> turn w sl f = f ->
    touched sl sl' (fun s => sl_tan s * sl_cos s <= f * sl_sin s) -> turn w sl' f <= f.
  Proof.
    intros P FX Q. rewrite turn_at in * by auto. rewrite (bishop_more w f sl sl' H2).
    assert (G : gains (fun s => sl_tan s / m_alpha f s) sl sl' <= f * gains sl_sin sl sl').
    { rewrite <- gains_scale. apply gains_le; auto. intros s s' I W. apply gain_alpha; eauto using pair_left. }
    rewrite (driving_more sl sl' H2) in *.
    assert (E : bishop_resisting w f sl = f * driving sl) by (rewrite <- FX at 2; field; lra).
    apply Rmult_le_reg_r with (driving sl + gains sl_sin sl sl'); auto.
    unfold Rdiv. rewrite Rmult_assoc, Rinv_l, Rmult_1_r by lra. lra.
  Qed.
  Lemma turn_higher f : 0 < f -> turn w sl f = f ->
    touched sl sl' (fun s => f * sl_sin s < sl_tan s * sl_cos s) ->
    (exists s s', In (s, s') (combine sl sl') /\ sl_W s < sl_W s') -> f < turn w sl' f.
  Proof.
    intros P FX Q X. rewrite turn_at in * by auto. rewrite (bishop_more w f sl sl' H2).
    assert (G : f * gains sl_sin sl sl' < gains (fun s => sl_tan s / m_alpha f s) sl sl').
    { rewrite <- gains_scale. apply gains_lt; auto. intros s s' I W. apply gain_alpha; eauto using pair_left. }
    rewrite (driving_more sl sl' H2) in *.
    assert (E : bishop_resisting w f sl = f * driving sl) by (rewrite <- FX at 2; field; lra).
    apply Rmult_lt_reg_r with (driving sl + gains sl_sin sl sl'); auto.
    unfold Rdiv. rewrite Rmult_assoc, Rinv_l, Rmult_1_r by lra. lra.
  Qed.
End BishopMore.
Lemma resisting_grow w sl sl' : Forall2 heavier sl sl' -> (forall s, In s sl -> 0 <= sl_tan s) ->
  resisting w sl <= resisting w sl'.
Proof.
  intros F T. unfold resisting. apply rsum_mono. induction F as [|s s' l l' H F IH]; constructor.
  - destruct H as [_ C S CC TT U Wt P]. unfold base_len. rewrite C, CC, TT, U.
    apply Rplus_le_compat_l, Rmult_le_compat_r; [apply T; now left|].
    assert (sl_W s * sl_cos s <= sl_W s' * sl_cos s) by (apply Rmult_le_compat_r; lra). rminmax; lra.
  - apply IH. intros t I. apply T. now right.
Qed.

(** ** Slopes *)
Section States.
  Context {EN : Env}.
  Notation stR := (st R).
  (** where a load stands *)
  Definition strip_of (tx : R) (u : R * R * option R) : R * R * R :=
    let '(m, o, len) := u in
    (match len with Some l => Rmax 0 (tx - o - l) | None => 0 end, tx - o, m).
  Definition line_of (tx : R) (l : R * R) : R * R := (Rmax 0 (tx - snd l), fst l).
  Definition strip_data (u : udl R) : R * R * option R := (u_magnitude u, u_offset u, u_length u).
  Definition line_data (l : lload R) : R * R := (l_magnitude l, l_offset l).

  Lemma view_loads (s : stR) v : reachable s -> view_of s = Ok v ->
    v_udls v = map (fun u => strip_of (fst (g_top (s_geom (snd s)))) (strip_data u)) (udls_of s) /\
    v_lls v = map (fun l => line_of (fst (g_top (s_geom (snd s)))) (line_data l)) (lls_of s).
  Proof.
    intros Hr E. destruct (reachable_inv s Hr) as (C & UF & LF). set (tx := fst (g_top (s_geom (snd s)))) in *.
    unfold view_of in E.
    destruct (rmapM _ (mats_of s)) as [ms|]; [|discriminate]. cbn [rbind] in E.
    rewrite (rmapM_map _ (fun u => strip_of tx (strip_data u))) in E.
    2:{ intros u Hu. apply in_derefs in Hu. destruct Hu as (n & Hn & Q).
        pose proof (UF n u Hn Q) as X.
        pose proof (c_udls _ C) as Y. rewrite Forall_forall in Y. specialize (Y u (nth_error_In _ _ Q)).
        assert (QL : u_left u = Some (fst (udl_left_right tx u))) by (rewrite <- X at 1; reflexivity).
        assert (QR : u_right u = Some (snd (udl_left_right tx u))) by (rewrite <- X at 1; reflexivity).
        rewrite QL, QR. f_equal. unfold strip_of, strip_data, udl_left_right. cbn [fst snd]. unR. f_equal. f_equal.
        destruct Y as [_ O]. destruct (u_length u) as [len|]; auto.
        rewrite (proj2 (Reqb_false len 0)) by lra. cbn [negb]. unR. reflexivity. }
    cbn [rbind] in E. rewrite (rmapM_map _ (fun l => line_of tx (line_data l))) in E.
    2:{ intros l Hl. apply in_derefs in Hl. destruct Hl as (n & Hn & Q). pose proof (LF n l Hn Q) as X.
        assert (QC : l_coord l = Some (Rmax 0 (tx - l_offset l)))
          by (rewrite <- X at 1; unfold ll_coords; cbn [l_coord set_ll_coord]; unR; reflexivity).
        rewrite QC. reflexivity. }
    cbn [rbind] in E. injection E as <-. cbn. auto.
  Qed.

  (** [s'] is [s] with more loads on the same cross-section *)
  Record surcharged (s s' : stR) (us : list (R * R * option R)) (ls : list (R * R)) : Prop := {
    sc_geom : s_geom (snd s') = s_geom (snd s);
    sc_mats : mats_of s' = mats_of s;
    sc_water : s_water_RL (snd s') = s_water_RL (snd s) /\ s_water_H (snd s') = s_water_H (snd s);
    sc_slices : s_slices (snd s') = s_slices (snd s);
    sc_udls : map strip_data (udls_of s') = map strip_data (udls_of s) ++ us;
    sc_lls : map line_data (lls_of s') = map line_data (lls_of s) ++ ls;
  }.
  Lemma same_layers (l l' : list (R * material R)) :
    (forall rl m, In (rl, m) l -> m_RL m = Some rl) -> (forall rl m, In (rl, m) l' -> m_RL m = Some rl) ->
    map snd l = map snd l' -> l = l'.
  Proof.
    revert l'. induction l as [|[rl m] l IH]; intros [|[rl' m'] l'] A B E; try discriminate; auto.
    cbn in E. injection E as <- E. pose proof (A rl m (or_introl eq_refl)) as Q.
    rewrite (B rl' m (or_introl eq_refl)) in Q. injection Q as ->. f_equal. apply IH; auto.
    - intros x y I. apply A. now right.
    - intros x y I. apply B. now right.
  Qed.
  Definition stand (s : stR) us ls :=
    (map (strip_of (fst (g_top (s_geom (snd s))))) us, map (line_of (fst (g_top (s_geom (snd s))))) ls).
  Lemma surcharged_view (s s' : stR) us ls v v' : reachable s -> reachable s' -> surcharged s s' us ls ->
    view_of s = Ok v -> view_of s' = Ok v' -> more_load v v' (fst (stand s us ls)) (snd (stand s us ls)).
  Proof.
    intros RS RS' [G M (W & H) S U L] E E'.
    destruct (view_sound s RS) as (v0 & E0 & SV). assert (v0 = v) by congruence. subst v0.
    destruct (view_sound s' RS') as (v0 & E1 & SV'). assert (v0 = v') by congruence. subst v0.
    destruct (view_loads s v RS E) as (VU & VL). destruct (view_loads s' v' RS' E') as (VU' & VL').
    rewrite G in *. set (tx := fst (g_top (s_geom (snd s)))) in *. unfold stand. fold tx. cbn [fst snd].
    assert (EU : v_udls v' = v_udls v ++ map (strip_of tx) us).
    { rewrite VU', VU. rewrite <- !(map_map strip_data (strip_of tx)), U, map_app. reflexivity. }
    assert (EL : v_lls v' = v_lls v ++ map (line_of tx) ls).
    { rewrite VL', VL. rewrite <- !(map_map line_data (line_of tx)), L, map_app. reflexivity. }
    constructor; auto.
    - now rewrite (so_geom s v SV), (so_geom s' v' SV').
    - symmetry. apply same_layers.
      + intros rl m I. apply (so_mats s v SV rl m I).
      + intros rl m I. apply (so_mats s' v' SV' rl m I).
      + now rewrite (so_mats_eq s v SV), (so_mats_eq s' v' SV').
    - now rewrite (so_water s v SV), (so_water s' v' SV').
    - now rewrite (so_H_eq s v SV), (so_H_eq s' v' SV').
    - now rewrite (so_slices s v SV), (so_slices s' v' SV').
    - intros [[a b] m] I. assert (J : In (a, b, m) (v_udls v')) by (rewrite EU; apply in_or_app; now right).
      cbn [snd]. pose proof (so_udls s' v' SV' a b m J). lra.
    - intros [c m] I. assert (J : In (c, m) (v_lls v')) by (rewrite EL; apply in_or_app; now right).
      cbn [snd]. pose proof (so_lls s' v' SV' c m J). lra.
  Qed.

  (** Adding loads through the interface, when the section does not have to grow *)
  Definition waters (s : stR) := (s_water_RL (snd s), s_water_H (snd s), s_slices (snd s)).
  Lemma waters_boundary h a l : keeps (same waters) (set_external_boundary h a l).
  Proof.
    unfold set_external_boundary, update_udl_coordinates, update_ll_coordinates, remove_analysis_limits,
      set_analysis_limits. untouched.
  Qed.
  Hint Resolve waters_boundary : keeps.
  Lemma waters_options l h : keeps (same waters) (update_boundary_options l h).
  Proof. unfold update_boundary_options. untouched. Qed.
  Hint Resolve waters_options : keeps.
  Lemma waters_udls l : keeps (same waters) (set_udls l).
  Proof. unfold set_udls, update_udl_coordinates. untouched. Qed.
  Lemma waters_lls l : keeps (same waters) (set_lls l).
  Proof. unfold set_lls, update_ll_coordinates. untouched. Qed.
  Lemma strip_core (l l' : list (udl R)) : map udl_core l = map udl_core l' -> map strip_data l = map strip_data l'.
  Proof.
    revert l'. induction l as [|u l IH]; intros [|u' l'] E; try discriminate; auto. cbn [map] in *.
    injection E as A B C D F G. rewrite (IH l' G). unfold strip_data at 1 3. now rewrite A, B, C.
  Qed.
  Lemma line_core (l l' : list (lload R)) : map ll_core l = map ll_core l' -> map line_data l = map line_data l'.
  Proof.
    revert l'. induction l as [|u l IH]; intros [|u' l'] E; try discriminate; auto. cbn [map] in *.
    injection E as A B C D G. rewrite (IH l' G). unfold line_data at 1 3. now rewrite A, B.
  Qed.
  Lemma udls_surcharge (s s' : stR) l : reachable s -> Forall (fun r => ref_exists (fst s) r = true) l ->
    exec (SetUdls l) s = (Ok tt, s') -> s_geom (snd s') = s_geom (snd s) ->
    exists added, picks_udls (h_udls (fst s)) l added /\ surcharged s s' (map strip_data (derefs (h_udls (fst s)) added)) [].
  Proof.
    intros RS F E G. destruct (udls_assigned s l RS F) as (s1 & added & E1 & P & U & _). exists added. split; [exact P|].
    assert (s1 = s') by congruence. subst s1. clear E1.
    pose proof E as E2. cbn [exec] in E2. rewrite with_refs_intro in E2 by exact F.
    pose proof (set_udls_loads _ _ _ E2) as Q. unfold loads, with_udls in Q. injection Q as Q1 Q2 Q3 Q4 Q5 Q6.
    pose proof (waters_udls l s) as K. unfold same in K. rewrite E2 in K. cbn [snd] in K. unfold waters in K.
    injection K as K1 K2 K3.
    assert (PA : added = new_udls (h_udls (fst s)) l) by (rewrite Q1 in U; apply app_inv_head in U; auto).
    rewrite PA. constructor; auto.
    - unfold mats_of. now rewrite Q5, Q6.
    - rewrite <- map_app. unfold udls_of. rewrite Q1, <- derefs_app. apply strip_core.
      now rewrite !derefs_map, Q2.
    - rewrite app_nil_r. unfold lls_of. rewrite Q3. apply line_core. now rewrite !derefs_map, Q4.
  Qed.
  Lemma lls_surcharge (s s' : stR) l : reachable s -> Forall (fun r => ref_exists (fst s) r = true) l ->
    exec (SetLls l) s = (Ok tt, s') -> s_geom (snd s') = s_geom (snd s) ->
    exists added, picks_lls (h_lls (fst s)) l added /\ surcharged s s' [] (map line_data (derefs (h_lls (fst s)) added)).
  Proof.
    intros RS F E G. destruct (lls_assigned s l RS F) as (s1 & added & E1 & P & U & _). exists added. split; [exact P|].
    assert (s1 = s') by congruence. subst s1. clear E1.
    pose proof E as E2. cbn [exec] in E2. rewrite with_refs_intro in E2 by exact F.
    pose proof (set_lls_loads _ _ _ E2) as Q. unfold loads, with_lls in Q. injection Q as Q1 Q2 Q3 Q4 Q5 Q6.
    pose proof (waters_lls l s) as K. unfold same in K. rewrite E2 in K. cbn [snd] in K. unfold waters in K.
    injection K as K1 K2 K3.
    assert (PA : added = new_lls (h_lls (fst s)) l) by (rewrite Q3 in U; apply app_inv_head in U; auto).
    rewrite PA. constructor; auto.
    - unfold mats_of. now rewrite Q5, Q6.
    - rewrite app_nil_r. unfold udls_of. rewrite Q1. apply strip_core. now rewrite !derefs_map, Q2.
    - rewrite <- map_app. unfold lls_of. rewrite Q3, <- derefs_app. apply line_core.
      now rewrite !derefs_map, Q4.
  Qed.
End States.
