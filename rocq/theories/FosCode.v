(** * FosCode: the ordering results of WetFacts and StrengthFacts restated for
    what the code itself computes (C25, C38, C46, C56). *)
From Coq Require Import ZArith Reals Lra Lia List Bool Sorted.
From Verif Require Import Num Py Validation Utilities Objects Slope Planes Analysis
     Dynamic Api RealNum RealFacts ListFacts MonadFacts SlopeFacts MaterialFacts
     Invariant History Spec Demo DemoCircle CircleFacts
     PlaneFacts SoilFacts MatInv ViewFacts SearchFacts SliceFacts FosFacts FosMore StrengthFacts
     ScaleFacts FosTotal WetFacts.
Import ListNotations.
Local Open Scope R_scope.

(** The same slope analysed with [n] turns of the iteration and tolerance zero,
    so that the iteration is not cut short *)
Definition allow (n : nat) (v : view R) : view R :=
  MkView (v_geom v) (v_mats v) (v_udls v) (v_lls v) (v_water_RL v) (v_water_H v)
         (v_limits v) (v_slices v) (v_iterations v) (v_min_failure v) 0 (Z.of_nat n).

Section Code.
  Context {EN : Env}.
  Notation stR := (st R).

  Lemma slices_code v cx cy r a b w sl : good_view v -> 0 <= r ->
    end_points (v_geom v) cx cy r a b ->
    slices_of v cx cy r (fst a) (fst b) = Ok (Some (w, sl)) ->
    w = width v a b /\ slices_ok v cx cy r a b sl.
  Proof.
    intros GV HR EP SO.
    assert (WD : exists o, water_data v = Ok o).
    { clear - SO. unfold slices_of in SO. destruct (nleb _ _); [discriminate|].
      destruct (pydiv _ _); cbn [rbind] in SO; [|discriminate].
      destruct (existsb _ _); [discriminate|]. destruct (existsb _ _); [discriminate|].
      destruct (water_data v) as [o|]; [eauto|discriminate]. }
    destruct WD as (o & WD).
    destruct (slices_at v GV cx cy r a b o (radius_pos v GV cx cy r a b HR EP) EP WD)
      as [(_ & Q)|(sl' & Q & SO')]; rewrite SO in Q; [discriminate|].
    injection Q as -> <-. auto.
  Qed.

  (** C40 *)
  Lemma slice_strength (s : stR) v cx cy r a b w sl t :
    reachable s -> view_of s = Ok v -> 0 <= r ->
    end_points (s_geom (snd s)) cx cy r a b ->
    slices_of v cx cy r (fst a) (fst b) = Ok (Some (w, sl)) -> In t sl ->
    (fst a < sl_x t < fst b /\ on_circle cx cy r (sl_x t, sl_yb t) /\ sl_yb t < cy) /\
    exists m, layer_at (v_mats v) (sl_yb t) m /\ sl_c t = m_cohesion m /\ sl_tan t = m_tan_phi m.
  Proof.
    intros RS E HR EP SO I. destruct (view_good s v RS E) as (GV & SV & GE). rewrite <- GE in EP.
    destruct (slices_code _ _ _ _ _ _ _ _ GV HR EP SO) as (-> & S1).
    destruct (Forall2_In_r _ _ _ _ S1 I) as (i & II & K).
    apply zrange_In in II. rewrite Z2Nat.id in II by (pose proof (gv_slices v GV); lia).
    pose proof (end_points_ok _ (gv_geom v GV) _ _ _ _ _ EP) as (_ & _ & _ & _ & LL).
    pose proof (mid_inside v a b i (gv_slices v GV) ltac:(lra) ltac:(lia)) as MI.
    split; [|exact (sk_mat _ _ _ _ _ _ _ _ K)].
    pose proof (sk_drop _ _ _ _ _ _ _ _ K) as D.
    rewrite (sk_x _ _ _ _ _ _ _ _ K), (sk_yb _ _ _ _ _ _ _ _ K).
    set (x := mid_of (fst a) (width v a b) i) in *. split; [exact MI|].
    unfold base_at. fold (drop_at cx r x). split; [|lra].
    unfold on_circle. cbn [fst snd].
    assert (Q : drop_at cx r x * drop_at cx r x = r * r - (x - cx) * (x - cx)).
    { unfold drop_at in *. apply sqrt_sqrt.
      destruct (Rle_lt_dec 0 (r * r - (x - cx) * (x - cx))); auto.
      rewrite sqrt_neg_0 in D; lra. }
    nra.
  Qed.

  (** ** One turn *)
  Lemma turn_drained (s : stR) v v' cx cy r a b w sl w' sl' F G G' : reachable s -> friction_90 s ->
    view_of s = Ok v -> view_of (step s RemoveWater) = Ok v' ->
    0 <= r -> end_points (s_geom (snd s)) cx cy r a b ->
    slices_of v cx cy r (fst a) (fst b) = Ok (Some (w, sl)) ->
    slices_of v' cx cy r (fst a) (fst b) = Ok (Some (w', sl')) ->
    (forall t, In t sl -> 0 < sl_cos t + sl_sin t * sl_tan t / F) ->
    bishop_step w sl F = Ok (Some G) -> bishop_step w' sl' F = Ok (Some G') -> G <= G'.
  Proof.
    intros RS FR E E' D3 EP SO SO' MA N N'.
    destruct (view_good s v RS E) as (GV & SV & GE).
    destruct (view_good _ v' (reachable_step RemoveWater s RS) E') as (GV' & SV' & GE').
    pose proof EP as EP1. rewrite <- GE in EP1. pose proof EP as EP2.
    change (s_geom (snd s)) with (s_geom (snd (step s RemoveWater))) in EP2. rewrite <- GE' in EP2.
    destruct (slices_code _ _ _ _ _ _ _ _ GV D3 EP1 SO) as (-> & S1).
    destruct (slices_code _ _ _ _ _ _ _ _ GV' D3 EP2 SO') as (-> & S2).
    apply bishop_step_some in N, N'.
    exact (step_drained s v v' cx cy r a b sl sl' F G G' RS FR E E'
             (radius_pos v GV cx cy r a b D3 EP1) EP S1 S2 MA N N').
  Qed.
  Lemma turn_reinforced (s s' : stR) v v' cx cy r a b w sl w' sl' F G G' :
    reachable s -> reachable s' -> reinforced s s' -> friction_90 s ->
    Forall2 (fun m m' => m_friction_angle m' = m_friction_angle m) (mats_of s) (mats_of s') ->
    view_of s = Ok v -> view_of s' = Ok v' ->
    0 <= r -> end_points (s_geom (snd s)) cx cy r a b ->
    slices_of v cx cy r (fst a) (fst b) = Ok (Some (w, sl)) ->
    slices_of v' cx cy r (fst a) (fst b) = Ok (Some (w', sl')) ->
    (forall t, In t sl -> 0 < sl_cos t + sl_sin t * sl_tan t / F) ->
    bishop_step w sl F = Ok (Some G) -> bishop_step w' sl' F = Ok (Some G') -> G <= G'.
  Proof.
    intros RS RS' RF FR M E E' D3 EP SO SO' MA N N'.
    destruct (view_good s v RS E) as (GV & SV & GE).
    destruct (view_good _ v' RS' E') as (GV' & SV' & GE').
    pose proof EP as EP1. rewrite <- GE in EP1. pose proof EP as EP2.
    rewrite <- (rf_geom _ _ RF), <- GE' in EP2.
    destruct (slices_code _ _ _ _ _ _ _ _ GV D3 EP1 SO) as (-> & S1).
    destruct (slices_code _ _ _ _ _ _ _ _ GV' D3 EP2 SO') as (-> & S2).
    apply bishop_step_some in N, N'.
    exact (step_reinforced s s' v v' cx cy r a b sl sl' F G G' RS RS' RF FR M E E'
             (radius_pos v GV cx cy r a b D3 EP1) EP S1 S2 MA N N').
  Qed.

  (** ** All turns *)
  Lemma slices_allow n v cx cy r a b sl : slices_ok v cx cy r a b sl ->
    slices_ok (allow n v) cx cy r a b sl.
  Proof.
    intros F. red in F |- *. change (v_slices (allow n v)) with (v_slices v).
    change (width (allow n v) a b) with (width v a b).
    induction F as [|i t l sl [] F IH]; constructor; auto. constructor; auto.
  Qed.
  Lemma good_allow n v : good_view v -> good_view (allow n v).
  Proof. intros []. constructor; auto. Qed.
  Lemma reported_all w sl n F f : iterate w sl n F f -> reported w 0 sl n F f.
  Proof.
    intros I. exists n. split; auto. split; auto. split; [intros; apply Rabs_pos|lia].
  Qed.
  Lemma zero_iterate w sl n : (forall s, In s sl -> sl_sin s * sl_tan s <> 0) -> 0 < driving sl ->
    iterate w sl n 0 0.
  Proof. intros A B. induction n; econstructor; eauto. now apply next_zero. Qed.

  (** What the code answers with [n] turns *)
  Definition answers v cx cy r (F : nat -> R) : Prop :=
    (forall n, bishop (allow n v) cx cy r = Ok (Some (F n)) /\ 0 <= F n).
  Lemma answers_turns s v cx cy r a b sl : sound s v -> leaning (v_geom v) cx cy r a b -> wet_ok s ->
    slices_ok v cx cy r a b sl -> 0 < driving sl ->
    (forall t, In t sl -> leaning_slice (width v a b) t) ->
    0 < resisting (width v a b) sl ->
    answers v cx cy r (turns (width v a b) sl (resisting (width v a b) sl / driving sl)).
  Proof.
    intros SV [D1 D2 D3 EP BC BU] WK SO D P R0 n. pose proof (sound_good s v SV) as GV.
    assert (HF : 0 < resisting (width v a b) sl / driving sl) by now apply Rdiv_lt_0_compat.
    split; [|left; now apply turns_pos].
    apply (bishop_value (allow n v) (good_allow n v GV) cx cy r a b sl); auto.
    - intros rl Q. apply (fits s v SV WK rl Q).
    - now apply slices_allow.
    - cbn [allow v_tolerance v_max_iterations]. rewrite Nat2Z.id.
      change (width (allow n v) a b) with (width v a b).
      apply reported_all. now apply turns_iterate.
  Qed.
  Lemma answers_zero s v cx cy r a b sl : sound s v -> leaning (v_geom v) cx cy r a b -> wet_ok s ->
    slices_ok v cx cy r a b sl -> 0 < driving sl ->
    (forall t, In t sl -> leaning_slice (width v a b) t) ->
    (forall t, In t sl -> 0 < sl_tan t) -> resisting (width v a b) sl = 0 ->
    answers v cx cy r (fun _ => 0).
  Proof.
    intros SV [D1 D2 D3 EP BC BU] WK SO D P T R0 n. pose proof (sound_good s v SV) as GV.
    split; [|lra].
    apply (bishop_value (allow n v) (good_allow n v GV) cx cy r a b sl); auto.
    - intros rl Q. apply (fits s v SV WK rl Q).
    - now apply slices_allow.
    - cbn [allow v_tolerance v_max_iterations]. rewrite Nat2Z.id.
      change (width (allow n v) a b) with (width v a b). rewrite R0.
      unfold Rdiv. rewrite Rmult_0_l.
      apply reported_all. apply zero_iterate; auto. intros t I. apply Rgt_not_eq.
      apply Rmult_lt_0_compat; auto. apply (P t I).
  Qed.
  Lemma const_cv c : Un_cv (fun _ => c) c.
  Proof. intros e H. exists O. intros n _. unfold R_dist. rewrite Rminus_diag_eq, Rabs_R0; auto. Qed.

  (** The factors with any number of turns, and their limits, are ordered. *)
  Definition ordered_answers v v' cx cy r : Prop :=
    exists F F', (forall n, bishop (allow n v) cx cy r = Ok (Some (F n)) /\
                            bishop (allow n v') cx cy r = Ok (Some (F' n)) /\
                            0 <= F n <= F' n) /\
      exists f f', Un_cv F f /\ Un_cv F' f' /\ 0 <= f <= f'.
  Lemma harder_answers (s s' : stR) v v' cx cy r a b : sound s v -> sound s' v' -> harder v v' ->
    same_friction v v' -> some_strength s -> some_strength s' -> heavy s -> heavy s' ->
    leaning (v_geom v) cx cy r a b -> wet_ok s -> wet_ok s' -> mats_of s <> [] -> mats_of s' <> [] ->
    ordered_answers v v' cx cy r.
  Proof.
    intros SV SV' HD SF SS SS' HV HV' LN WK WK' NE NE'.
    assert (LN' : leaning (v_geom v') cx cy r a b) by (rewrite (hd_geom _ _ HD); exact LN).
    destruct (leaning_slices s v cx cy r a b SV SS (or_introl HV) LN WK NE) as (sl & SO & D & P & R0 & RT & RD & B).
    destruct (leaning_slices s' v' cx cy r a b SV' SS' (or_introl HV') LN' WK' NE')
      as (sl' & SO' & D' & P' & R0' & RT' & RD' & B').
    pose proof (radius_pos v (sound_good _ _ SV) cx cy r a b (ln_r _ _ _ _ _ _ LN) (ln_ends _ _ _ _ _ _ LN)) as HR.
    pose proof (width_pos s v cx cy r a b SV (ln_ends _ _ _ _ _ _ LN)) as Hw.
    pose proof (slices_stronger v v' cx cy r a b sl sl' HD (sound_usable s v SV (some_friction s SS))
      (proj1 (so_H s v SV)) HR SO SO') as ST.
    pose proof (slices_tan v v' cx cy r a b sl sl' HD SF SO SO') as TN.
    pose proof (resisting_mono (width v a b) _ _ Hw ST) as RM.
    pose proof (width_same _ _ a b HD) as WS.
    destruct (Rle_lt_or_eq_dec _ _ R0) as [RP|RZ].
    - destruct (sequences_ordered (width v a b) sl (width v' a b) sl' WS P D P' D' Hw ST TN RP)
        as (O & _ & _ & f & f' & C & C' & LE).
      assert (RP' : 0 < resisting (width v' a b) sl') by (rewrite WS; lra).
      pose proof (answers_turns s v cx cy r a b sl SV LN WK SO D P RP) as A.
      pose proof (answers_turns s' v' cx cy r a b sl' SV' LN' WK' SO' D' P' RP') as A'.
      eexists _, _. split.
      + intros n. split; [apply (A n)|]. split; [apply (A' n)|]. split; [apply (A n)|apply O].
      + exists f, f'. split; [exact C|]. split; [exact C'|]. split; [|exact LE].
        refine (Rle_cv_lim _ (const_cv 0) C). intros n. apply (A n).
    - assert (T : forall t, In t sl -> 0 < sl_tan t) by (destruct RT as [RT|RT]; [lra|exact RT]).
      pose proof (answers_zero s v cx cy r a b sl SV LN WK SO D P T (eq_sym RZ)) as A.
      destruct (Rle_lt_or_eq_dec _ _ R0') as [RP'|RZ'].
      + pose proof (answers_turns s' v' cx cy r a b sl' SV' LN' WK' SO' D' P' RP') as A'.
        assert (HF : 0 < resisting (width v' a b) sl' / driving sl') by now apply Rdiv_lt_0_compat.
        destruct (turns_limit (width v' a b) sl' P' D' _ HF) as (f' & C' & L').
        eexists (fun _ => 0), _. split.
        * intros n. split; [apply (A n)|]. split; [apply (A' n)|]. split; [lra|apply (A' n)].
        * exists 0, f'. split; [apply const_cv|]. split; [exact C'|]. lra.
      + assert (T' : forall t, In t sl' -> 0 < sl_tan t) by (destruct RT' as [RT'|RT']; [lra|exact RT']).
        pose proof (answers_zero s' v' cx cy r a b sl' SV' LN' WK' SO' D' P' T' (eq_sym RZ')) as A'.
        exists (fun _ => 0), (fun _ => 0). split.
        * intros n. split; [apply (A n)|]. split; [apply (A' n)|]. lra.
        * exists 0, 0. split; [apply const_cv|]. split; [apply const_cv|]. lra.
  Qed.
  Lemma drained_answers (s : stR) v v' cx cy r a b : reachable s -> some_strength s -> heavy s -> wet_ok s ->
    mats_of s <> [] -> view_of s = Ok v -> view_of (step s RemoveWater) = Ok v' ->
    leaning (s_geom (snd s)) cx cy r a b ->
    ordered_answers v v' cx cy r.
  Proof.
    intros RS SS HV WK NE E E' LN.
    destruct (view_sound s RS) as (v0 & E0 & SV). assert (v0 = v) by congruence. subst v0.
    destruct (view_sound _ (reachable_step RemoveWater s RS)) as (v0 & E1 & SV').
    assert (v0 = v') by congruence. subst v0.
    destruct (drained s v E) as (v0 & E2 & HD & SF & WN & _). assert (v0 = v') by congruence. subst v0.
    rewrite <- (so_geom s v SV) in LN.
    apply (harder_answers s (step s RemoveWater) v v' cx cy r a b); auto using drained_heavy, drained_strength.
    intros rl Q. rewrite <- (so_water _ _ SV'), WN in Q. discriminate.
  Qed.
  Lemma reinforced_answers (s s' : stR) v v' cx cy r a b : reachable s -> reachable s' -> reinforced s s' ->
    Forall2 (fun m m' => m_friction_angle m' = m_friction_angle m) (mats_of s) (mats_of s') ->
    some_strength s -> heavy s -> wet_ok s -> mats_of s <> [] ->
    view_of s = Ok v -> view_of s' = Ok v' ->
    leaning (s_geom (snd s)) cx cy r a b ->
    ordered_answers v v' cx cy r.
  Proof.
    intros RS RS' RF M SS HV WK NE E E' LN.
    pose proof (reinforced_harder _ _ _ _ RS RS' RF E E') as HD.
    pose proof (reinforced_friction _ _ _ _ RS RS' M E E') as SF.
    destruct (view_sound s RS) as (v0 & E0 & SV). assert (v0 = v) by congruence. subst v0.
    destruct (view_sound s' RS') as (v0 & E1 & SV'). assert (v0 = v') by congruence. subst v0.
    rewrite <- (so_geom s v SV) in LN.
    pose proof (Forall2_and _ _ _ _ (rf_mats _ _ RF) M) as MM.
    apply (harder_answers s s' v v' cx cy r a b); auto.
    - intros m I. destruct (Forall2_In_r _ _ _ _ MM I) as (m0 & I0 & (_ & _ & C & _) & F).
      destruct (SS m0 I0) as (A & B). rewrite F. split; auto. destruct B; [left; lra|auto].
    - intros m I. destruct (Forall2_In_r _ _ _ _ MM I) as (m0 & I0 & (U & _) & _).
      rewrite U. now apply HV.
    - intros rl Q. rewrite (rf_water _ _ RF) in Q. rewrite (rf_geom _ _ RF). now apply WK.
    - intros Q. rewrite Q in MM. inversion MM as [Z1|]. congruence.
  Qed.

  (** C56: the factors with 0, 1, 2, ... turns rise or fall for ever and have a limit *)
  Lemma answers_converge (s : stR) v cx cy r a b : reachable s -> view_of s = Ok v -> some_strength s ->
    heavy s \/ dry v -> leaning (v_geom v) cx cy r a b -> wet_ok s -> mats_of s <> [] ->
    exists F, (forall n, bishop (allow n v) cx cy r = Ok (Some (F n)) /\ 0 <= F n) /\
      ((forall n, F n <= F (S n)) \/ (forall n, F (S n) <= F n)) /\
      exists f, Un_cv F f /\ 0 <= f.
  Proof.
    intros RS E SS HV LN WK NE.
    destruct (view_sound s RS) as (v0 & E0 & SV). assert (v0 = v) by congruence. subst v0.
    destruct (leaning_slices s v cx cy r a b SV SS HV LN WK NE) as (sl & SO & D & P & R0 & RT & RD & B).
    destruct (Rle_lt_or_eq_dec _ _ R0) as [RP|RZ].
    - assert (HF : 0 < resisting (width v a b) sl / driving sl) by now apply Rdiv_lt_0_compat.
      exists (turns (width v a b) sl (resisting (width v a b) sl / driving sl)).
      split; [now apply (answers_turns s v cx cy r a b sl)|].
      split; [now apply turns_monotone|]. now apply turns_limit.
    - assert (T : forall t, In t sl -> 0 < sl_tan t) by (destruct RT as [RT|RT]; [lra|exact RT]).
      exists (fun _ => 0). split; [now apply (answers_zero s v cx cy r a b sl SV LN WK SO D P T)|].
      split; [left; intros; lra|]. exists 0. split; [apply const_cv|lra].
  Qed.
End Code.
