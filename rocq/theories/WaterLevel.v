(** * WaterLevel: two water levels in the same slope (C91). *)
From Coq Require Import ZArith Reals Lra Lia List Bool String Sorted.
From Verif Require Import Num Py Validation Utilities Objects Slope Planes Analysis
     Dynamic Api RealNum RealFacts ListFacts MonadFacts SlopeFacts MaterialFacts
     Invariant History EditFacts Spec Demo DemoCircle CircleFacts GroundFacts OptionFacts
     PlaneFacts SoilFacts MatInv ViewFacts SearchFacts SliceFacts FosFacts FosMore StrengthFacts
     ScaleFacts FosTotal WetFacts FosCode.
Import ListNotations.
Local Open Scope R_scope.

(** The pressure on a base under a lower level, where no part of the face is under water
    or the factor on the pressure there is one *)
Lemma lower_pressure g H rl rl' x yt yb : good_geom g -> 0 <= rl' <= rl ->
  H = 1 \/ rl <= snd (g_bot g) ->
  water_at g H (Some rl') x yt yb <= water_at g H (Some rl) x yt yb.
Proof.
  intros G L C. unfold water_at.
  assert (K : forall l, l <= rl ->
    (if Rlt_dec (surface g x) l then if Rlt_dec x (fst (g_bot g)) then H else 1 else 1) = 1).
  { intros l Q. destruct (Rlt_dec (surface g x) l) as [A|A]; auto. destruct (Rlt_dec x _) as [B|B]; auto.
    destruct C as [C|C]; auto. pose proof (surface_bounds g G x). lra. }
  rewrite !K by lra.
  destruct (Req_EM_T rl' 0) as [E|E], (Req_EM_T rl 0) as [F|F]; try lra.
  - pose proof (Rmax_l 0 (Rmin rl yt - yb)). lra.
  - assert (Rmax 0 (Rmin rl' yt - yb) <= Rmax 0 (Rmin rl yt - yb)) by (rminmax; lra). lra.
Qed.

Section Levels.
  Context {EN : Env}.
  Notation stR := (st R).
  (** [lowered s s']: the second slope is the first with a water level that is no higher *)
  Record lowered (s s' : stR) : Prop := {
    lw_heap : fst s' = fst s;
    lw_geom : s_geom (snd s') = s_geom (snd s);
    lw_locs : s_materials (snd s') = s_materials (snd s) /\ s_udls (snd s') = s_udls (snd s) /\
              s_lls (snd s') = s_lls (snd s);
    lw_opts : s_slices (snd s') = s_slices (snd s) /\ s_iterations (snd s') = s_iterations (snd s) /\
              s_tolerance (snd s') = s_tolerance (snd s) /\ s_max_iterations (snd s') = s_max_iterations (snd s) /\
              s_min_failure (snd s') = s_min_failure (snd s) /\ s_limits (snd s') = s_limits (snd s) /\
              s_water_H (snd s') = s_water_H (snd s) /\ s_planes (snd s') = s_planes (snd s);
    lw_level : exists rl rl', s_water_RL (snd s) = Some rl /\ s_water_RL (snd s') = Some rl' /\
               0 <= rl' <= rl /\ rl <= g_ext_h (s_geom (snd s)) /\
               (s_water_H (snd s) = 1 \/ rl <= snd (g_bot (s_geom (snd s))));
  }.
  Lemma lowered_view (s s' : stR) v : reachable s -> lowered s s' -> view_of s = Ok v ->
    exists v', view_of s' = Ok v' /\ harder v v' /\ same_friction v v' /\
      v_max_iterations v' = v_max_iterations v /\ v_tolerance v' = v_tolerance v /\
      entry_exit_planes v' = entry_exit_planes v.
  Proof.
    intros RS [LH LG (L1 & L2 & L3) (O1 & O2 & O3 & O4 & O5 & O6 & O7 & O8) (rl & rl' & W & W' & R1 & R2 & R3)] E.
    pose proof (core_good s (proj1 (reachable_inv s RS))) as GG.
    unfold view_of in *. unfold mats_of, udls_of, lls_of in *.
    rewrite LH, L1, L2, L3, LG, O1, O2, O3, O4, O5, O6, O7, W'.
    destruct (rmapM _ (derefs (h_materials (fst s)) _)) as [ms|]; [|discriminate]. cbn [rbind] in *.
    destruct (rmapM _ (derefs (h_udls (fst s)) _)) as [us|]; [|discriminate]. cbn [rbind] in *.
    destruct (rmapM _ (derefs (h_lls (fst s)) _)) as [ls|]; [|discriminate]. cbn [rbind] in *.
    injection E as <-. eexists. split; [reflexivity|]. cbn.
    split; [|split; [apply Forall2_refl; auto|auto]].
    constructor; cbn; auto.
    - apply Forall2_refl, firmer_refl.
    - right. right. intros x yt yb. rewrite W. now apply lower_pressure.
  Qed.

  (** Two depths below the crest *)
  Lemma levels_lowered (s : stR) v d v' d' : reachable s -> denotes v d -> denotes v' d' -> 0 <= d <= d' ->
    s_water_H (snd s) = 1 \/ snd (g_top (s_geom (snd s))) - d <= snd (g_bot (s_geom (snd s))) ->
    exec (SetWater v) s = (Ok tt, step s (SetWater v)) /\
    exec (SetWater v') s = (Ok tt, step s (SetWater v')) /\
    lowered (step s (SetWater v)) (step s (SetWater v')).
  Proof.
    intros RS D D' L C. pose proof (core_good s (proj1 (reachable_inv s RS))) as GG.
    assert (SE : forall v d, denotes v d -> 0 <= d ->
      exec (SetWater v) s = (Ok tt, (fst s, set_s_search [] (set_s_water_depth (Some d)
        (set_s_water_RL (Some (Rmax 0 (snd (g_top (s_geom (snd s))) - d))) (snd s)))))).
    { clear. intros v d D P. cbn [exec]. unfold set_water_table.
      assert (N : is_none v = false) by (destruct v; cbn in *; tauto). rewrite N.
      rewrite bind_assoc, bind_lift.
      assert (Q : assert_positive_number v = Ok tt) by (apply assert_positive_ok; exists d; auto). rewrite Q.
      rewrite bind_assoc, bind_lift. rewrite (proj1 (denotes_as_num v d) D).
      msteps. unR. reflexivity. }
    unfold step. rewrite (SE v d D) by lra. rewrite (SE v' d' D') by lra. cbn [snd].
    split; auto. split; auto.
    destruct (top_level s (reachable_inv s RS)) as (T1 & T2). pose proof (gg_bot _ GG) as B.
    constructor; cbn; auto; [auto 10|].
    do 2 eexists. split; [reflexivity|]. split; [reflexivity|]. split; [split; [apply Rmax_l|rminmax; lra]|].
    split; [rewrite T1; apply Rmax_lub; lra|]. destruct C as [C|C]; [left; auto|right].
    destruct GG. apply Rmax_lub; lra.
  Qed.
  Lemma set_water_same (s : stR) x : fst (step s (SetWater x)) = fst s /\
    s_geom (snd (step s (SetWater x))) = s_geom (snd s) /\
    s_materials (snd (step s (SetWater x))) = s_materials (snd s) /\
    s_max_iterations (snd (step s (SetWater x))) = s_max_iterations (snd s).
  Proof.
    unfold step. cbn [exec]. unfold set_water_table. destruct (is_none x); [cbn; auto|].
    rewrite bind_assoc, bind_lift. destruct (assert_positive_number x); [|cbn; auto].
    rewrite bind_assoc, bind_lift. destruct (as_num x); cbn; auto.
  Qed.
  Lemma set_water_keeps (s : stR) x : s_geom (snd (step s (SetWater x))) = s_geom (snd s) /\
    mats_of (step s (SetWater x)) = mats_of s.
  Proof. destruct (set_water_same s x) as (A & B & C & _). unfold mats_of. rewrite A, C. auto. Qed.
  Lemma set_water_turns (s : stR) x :
    s_max_iterations (snd (step s (SetWater x))) = s_max_iterations (snd s).
  Proof. apply set_water_same. Qed.
  Lemma lowered_wet (s s' : stR) : lowered s s' -> wet_ok s /\ wet_ok s'.
  Proof.
    intros [_ G _ _ (rl & rl' & W & W' & R1 & R2 & _)]. split; intros l Q; [|rewrite G]; rewrite Q in *; 
      [injection W as ->|injection W' as ->]; lra.
  Qed.
  Lemma lowered_mats (s s' : stR) : lowered s s' -> mats_of s' = mats_of s.
  Proof. intros [A _ (B & _) _ _]. unfold mats_of. now rewrite A, B. Qed.

  Lemma ordinary_lowered (s s' : stR) v v' cx cy r a b : reachable s -> reachable s' -> lowered s s' ->
    friction_90 s -> view_of s = Ok v -> view_of s' = Ok v' ->
    0 <= cx -> 0 <= cy -> 0 <= r -> end_points (s_geom (snd s)) cx cy r a b ->
    (ordinary v cx cy r a b = Ok None /\ ordinary v' cx cy r a b = Ok None) \/
    (exists f f', ordinary v cx cy r a b = Ok (Some f) /\ ordinary v' cx cy r a b = Ok (Some f') /\
       f <= f').
  Proof.
    intros RS RS' LW F E E' D1 D2 D3 EP.
    destruct (view_sound s RS) as (v0 & E0 & SV). assert (v0 = v) by congruence. subst v0.
    destruct (view_sound s' RS') as (v0 & E1 & SV'). assert (v0 = v') by congruence. subst v0.
    destruct (lowered_view s s' v RS LW E) as (v0 & E2 & HD & _). assert (v0 = v') by congruence. subst v0.
    destruct (lowered_wet s s' LW) as (W & W').
    eapply ordinary_harder; eauto using sound_good.
    - eapply sound_usable; eauto.
    - apply SV.
    - eapply fits; eauto.
    - eapply fits; eauto.
    - rewrite (so_geom s v SV). auto.
  Qed.
  Lemma turn_lowered (s s' : stR) v v' cx cy r a b w sl w' sl' F G G' : reachable s -> reachable s' ->
    lowered s s' -> friction_90 s -> view_of s = Ok v -> view_of s' = Ok v' ->
    0 <= r -> end_points (s_geom (snd s)) cx cy r a b ->
    slices_of v cx cy r (fst a) (fst b) = Ok (Some (w, sl)) ->
    slices_of v' cx cy r (fst a) (fst b) = Ok (Some (w', sl')) ->
    (forall t, In t sl -> 0 < sl_cos t + sl_sin t * sl_tan t / F) ->
    bishop_step w sl F = Ok (Some G) -> bishop_step w' sl' F = Ok (Some G') -> G <= G'.
  Proof.
    intros RS RS' LW FR E E' D3 EP SO SO' MA N N'.
    destruct (view_good s v RS E) as (GV & SV & GE). destruct (view_good _ v' RS' E') as (GV' & SV' & GE').
    destruct (lowered_view s s' v RS LW E) as (v0 & E2 & HD & SF & _). assert (v0 = v') by congruence. subst v0.
    pose proof EP as EP1. rewrite <- GE in EP1. pose proof EP as EP2.
    rewrite <- (lw_geom _ _ LW), <- GE' in EP2.
    destruct (slices_code _ _ _ _ _ _ _ _ GV D3 EP1 SO) as (-> & S1).
    destruct (slices_code _ _ _ _ _ _ _ _ GV' D3 EP2 SO') as (-> & S2).
    apply bishop_step_some in N, N'.
    exact (step_harder v v' cx cy r a b sl sl' F G G' GV GV' HD (sound_usable s v SV FR) SF
             (proj1 (so_H s v SV)) (radius_pos v GV cx cy r a b D3 EP1) EP1 S1 S2 MA N N').
  Qed.
  Lemma lowered_answers (s s' : stR) v v' cx cy r a b : reachable s -> reachable s' -> lowered s s' ->
    some_strength s -> heavy s -> mats_of s <> [] -> view_of s = Ok v -> view_of s' = Ok v' ->
    leaning (s_geom (snd s)) cx cy r a b -> ordered_answers v v' cx cy r.
  Proof.
    intros RS RS' LW SS HV NE E E' LN.
    destruct (view_sound s RS) as (v0 & E0 & SV). assert (v0 = v) by congruence. subst v0.
    destruct (view_sound s' RS') as (v0 & E1 & SV'). assert (v0 = v') by congruence. subst v0.
    destruct (lowered_view s s' v RS LW E) as (v0 & E2 & HD & SF & _). assert (v0 = v') by congruence. subst v0.
    destruct (lowered_wet s s' LW) as (W & W'). pose proof (lowered_mats s s' LW) as M.
    rewrite <- (so_geom s v SV) in LN.
    apply (harder_answers s s' v v' cx cy r a b); auto.
    - intros m. rewrite M. apply SS.
    - intros m. rewrite M. apply HV.
    - now rewrite M.
  Qed.
  Lemma factor_lowered (s s' : stR) v v' cx cy r f' : reachable s -> reachable s' -> lowered s s' ->
    friction_90 s -> (s_max_iterations (snd s) <= 0)%Z -> view_of s = Ok v -> view_of s' = Ok v' ->
    bishop v' cx cy r = Ok (Some f') -> exists f, bishop v cx cy r = Ok (Some f) /\ f <= f'.
  Proof.
    intros RS RS' LW F K E E' B'.
    destruct (view_sound s RS) as (v0 & E0 & SV). assert (v0 = v) by congruence. subst v0.
    destruct (view_sound s' RS') as (v0 & E1 & SV'). assert (v0 = v') by congruence. subst v0.
    destruct (lowered_view s s' v RS LW E) as (v0 & E2 & HD & _ & MX & _). assert (v0 = v') by congruence. subst v0.
    destruct (lowered_wet s s' LW) as (W & _).
    pose proof (sound_good _ _ SV) as GV. pose proof (sound_good _ _ SV') as GV'.
    destruct (bishop_some v' GV' cx cy r f' B') as (D1 & D2 & D3 & a & b & sl' & EP & SO' & DR' & RP).
    rewrite (hd_geom v v' HD) in EP.
    assert (K0 : Z.to_nat (v_max_iterations v) = 0%nat) by (rewrite (so_max s v SV); lia).
    rewrite MX, K0 in RP. apply loop_some in RP. cbn [bishop_loop] in RP. injection RP as RP.
    destruct (water_total v (gv_geom v GV) (fits s v SV W)) as (o & WD).
    assert (D3' : 0 <= r) by lra.
    destruct (bishop_at v GV cx cy r o D1 D2 D3' WD) as
      [(l & C & L & _)|(a' & b' & EP' & Q)]; [exfalso; eapply end_points_two; eauto|].
    destruct (end_points_det _ _ _ _ _ _ _ _ EP EP') as (-> & ->).
    pose proof (slices_mats _ _ _ _ _ _ _ (gv_slices v' GV') SO') as NE.
    destruct Q as [(M & _)|(sl & SO & Q)].
    { exfalso. apply NE. pose proof (hd_mats v v' HD) as Fm. rewrite M in Fm. now inversion Fm. }
    pose proof (slices_stronger _ _ _ _ _ _ _ _ _ HD (sound_usable s v SV F) (proj1 (so_H s v SV)) D3 SO SO') as ST.
    rewrite (driving_same _ _ ST), (width_same v v' a b HD) in *.
    destruct Q as [(Q & _)|(DR & Q)]; [lra|].
    unfold fos_of in Q. rewrite K0 in Q. cbn [bishop_loop] in Q. eexists. split; [exact Q|].
    rewrite <- RP. apply Rmult_le_compat_r; [left; now apply Rinv_0_lt_compat|].
    apply resisting_mono; auto. apply end_points_ok in EP as (_ & _ & _ & _ & LL); [|apply GV].
    unfold width. apply Rdiv_lt_0_compat; [lra|]. apply IZR_lt. pose proof (gv_slices v GV). lia.
  Qed.
  Lemma minimum_lowered m (s s' s1 s2 : stR) f f' : reachable s -> reachable s' -> lowered s s' ->
    friction_90 s -> (s_max_iterations (snd s) <= 0)%Z ->
    analyse_slope m s = (Ok tt, s1) -> analyse_slope m s' = (Ok tt, s2) ->
    get_min_FOS (snd s1) = Ok (Some f) -> get_min_FOS (snd s2) = Ok (Some f') -> f <= f'.
  Proof.
    intros RS RS' LW F K A1 A2 G1 G2.
    destruct (min_spec m _ _ A1) as (v & cs & E & AN & [(Q & _)|(c & g & Q & _ & _ & _ & _ & MIN)]); [congruence|].
    destruct (min_spec m _ _ A2) as (v' & cs' & E' & AN' & [(Q' & _)|(c' & g' & Q' & IN' & FA' & _)]); [congruence|].
    assert (g = f) by congruence. subst g. assert (g' = f') by congruence. subst g'.
    destruct (lowered_view s s' v RS LW E) as (v0 & E2 & HD & _ & _ & _ & PL). assert (v0 = v') by congruence. subst v0.
    assert (SP : s_planes (snd s') = s_planes (snd s)) by apply LW.
    assert (CS : cs' = cs).
    { unfold analysed in AN, AN'. rewrite SP, PL in AN'.
      destruct AN as [(N & X)|(N & X)], AN' as [(N' & X')|(N' & X')]; congruence. }
    subst cs'. unfold factor in FA'.
    destruct (factor_lowered s s' v v' _ _ _ _ RS RS' LW F K E E' FA') as (h & FH & L).
    pose proof (MIN c' h IN' FH). lra.
  Qed.
End Levels.

(** The demo slope with the factor on water pressure set to one *)
Section DemoLevels.
  Context {EN : Env}.
  Definition demo_full : st R := step demo4 (WaterOpts false (PFloat 1)).
  Lemma demo_full_state : exec (WaterOpts false (PFloat 1)) demo4 = (Ok tt, demo_full) /\
    fst demo_full = fst demo4 /\ s_geom (snd demo_full) = s_geom (snd demo4) /\
    s_materials (snd demo_full) = s_materials (snd demo4) /\ s_water_H (snd demo_full) = 1 /\
    mats_of demo_full = mats_of demo4.
  Proof.
    unfold demo_full, step. cbn [exec]. unfold update_water_analysis_options.
    cbn. unR. rnum. cbn. unR. auto 10.
  Qed.
End DemoLevels.
