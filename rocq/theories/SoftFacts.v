(** * SoftFacts: soils without any strength, and circles with negative dimensions. *)
From Coq Require Import ZArith Reals Lra Lia List Bool String.
From Verif Require Import Num Py Validation Utilities Objects Slope Planes Analysis
     Dynamic Api RealNum RealFacts ListFacts MonadFacts SlopeFacts MaterialFacts Invariant
     History Spec Demo DemoCircle CircleFacts EditFacts GroundFacts PlaneFacts SoilFacts MatInv SliceFacts ViewFacts FosFacts
     FosMore ScaleFacts StrengthFacts FosTotal WetFacts FosCode.
Import ListNotations.
Local Open Scope R_scope.

Section Soft.
  Context {EN : Env}.
  Notation stR := (st R).
  Lemma leaning_driving (s : stR) v cx cy r a b : sound s v ->
    leaning (v_geom v) cx cy r a b -> wet_ok s -> mats_of s <> [] ->
    exists sl, slices_ok v cx cy r a b sl /\ 0 < driving sl.
  Proof.
    intros SV [D1 D2 D3 EP BC BU] WK MNE. pose proof (sound_good s v SV) as GV.
    pose proof (radius_pos v GV cx cy r a b D3 EP) as HR.
    assert (NE : v_mats v <> []).
    { intros E. apply MNE. rewrite <- (so_mats_eq s v SV), E. reflexivity. }
    destruct (water_data v) as [o|e] eqn:WD.
    2:{ destruct (water_data_err v GV e WD) as (_ & F). exfalso. apply F. apply (fits s v SV WK). }
    pose proof (end_points_ok _ (gv_geom v GV) _ _ _ _ _ EP) as (_ & _ & _ & _ & LL).
    assert (N : 0 < IZR (v_slices v)) by (apply IZR_lt; pose proof (gv_slices v GV); lia).
    assert (Hw : 0 < width v a b) by (unfold width; apply Rdiv_lt_0_compat; lra).
    destruct (bishop_at v GV cx cy r o D1 D2 D3 WD) as
      [(l & C & L & _)|(a' & b' & EP' & Q)]; [exfalso; eapply end_points_two; eauto|].
    destruct (end_points_det _ _ _ _ _ _ _ _ EP EP') as (-> & ->).
    destruct Q as [(M & _)|(sl & SO & _)]; [contradiction|].
    assert (P : forall t, In t sl -> 0 < sl_sin t /\ 0 < sl_W t).
    { intros t I. destruct (Forall2_In_r _ _ _ _ SO I) as (i & II & K).
      apply zrange_In in II. rewrite Z2Nat.id in II by (pose proof (gv_slices v GV); lia).
      pose proof (mid_inside v a b i (gv_slices v GV) ltac:(lra) ltac:(lia)) as MI.
      assert (SI : 0 < sl_sin t).
      { rewrite (sk_sin _ _ _ _ _ _ _ _ K). apply Rdiv_lt_0_compat; lra. }
      assert (Y : sl_yb t < sl_yt t).
      { rewrite (sk_yt _ _ _ _ _ _ _ _ K), (sk_yb _ _ _ _ _ _ _ _ K).
        pose proof (BU _ MI) as B.
        pose proof (Rmax_l (surface (v_geom v) (mid_of (fst a) (width v a b) i))
                      (base_at cx cy r (mid_of (fst a) (width v a b) i))). lra. }
      split; [exact SI|].
      eapply Rlt_le_trans; [|exact (slice_weight_low s v cx cy r (fst a) (width v a b) i t SV (Rlt_le _ _ Hw) K)].
      apply Rmult_lt_0_compat; lra. }
    assert (NS : sl <> []).
    { intros ->. unfold slices_ok in SO. inversion SO as [E|]. apply (f_equal (@List.length Z)) in E.
      rewrite zrange_length in E. cbn in E. pose proof (gv_slices v GV). lia. }
    exists sl. split; [exact SO|].
    apply rsum_pos; auto. intros t I. destruct (P t I) as (SI & WP). now apply Rmult_lt_0_compat.
  Qed.
  (** every soil of the slope is without strength *)
  Definition no_strength (s : stR) : Prop :=
    forall m, In m (mats_of s) -> m_cohesion m = 0 /\ m_friction_angle m = 0.
  Lemma soft_view (s : stR) v : sound s v -> no_strength s -> strengthless v.
  Proof.
    intros SV NS rl m I. destruct (so_mats s v SV rl m I) as (_ & TO & _).
    destruct (NS m) as (C & F).
    { rewrite <- (so_mats_eq s v SV). apply in_map_iff. now exists (rl, m). }
    split; [exact C|]. red in TO. rewrite TO, F. unfold nradians. unR.
    rewrite Rmult_0_l. unfold Rtan_py. rewrite cos_0, sin_0.
    destruct (Req_EM_T 1 0); [lra|]. field.
  Qed.
  Lemma soft_factor (s : stR) v cx cy r a b : reachable s -> view_of s = Ok v -> no_strength s ->
    leaning (s_geom (snd s)) cx cy r a b -> wet_ok s -> mats_of s <> [] ->
    bishop v cx cy r = if (s_max_iterations (snd s) <=? 0)%Z then Ok (Some 0) else Err NanProduced.
  Proof.
    intros Hr E NS LN WK NE. destruct (view_sound s Hr) as (v' & E' & SV).
    assert (v' = v) by congruence. subst v'.
    assert (LN' : leaning (v_geom v) cx cy r a b) by (now rewrite (so_geom _ _ SV)).
    destruct (leaning_driving s v cx cy r a b SV LN' WK NE) as (sl & SO & DR).
    destruct LN' as [D1 D2 D3 EP _ _].
    rewrite (strengthless_factor v cx cy r a b sl); auto.
    - now rewrite (so_max _ _ SV).
    - eapply sound_good; eauto.
    - eapply soft_view; eauto.
    - intros rl Q. apply (fits s v SV WK rl Q).
  Qed.
  Lemma bishop_negative (v : view R) cx cy r : cx < 0 \/ cy < 0 \/ r < 0 ->
    forall f, bishop v cx cy r <> Ok (Some f).
  Proof.
    intros N f. unfold bishop.
    destruct (circle_external _ _ _ _) as [il|]; cbn [rbind]; [|discriminate].
    destruct (first_two il) as [[a b]|]; [|discriminate].
    unfold ordinary. rewrite !assert_pos.
    destruct (Rltb cx 0) eqn:A; cbn [rbind]; [discriminate|].
    destruct (Rltb cy 0) eqn:B; cbn [rbind]; [discriminate|].
    destruct (Rltb r 0) eqn:D; cbn [rbind]; [discriminate|].
    rbool. lra.
  Qed.
End Soft.
