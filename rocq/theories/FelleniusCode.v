(** * FelleniusCode: the two methods as the code runs them (C97). *)
From Coq Require Import ZArith Reals Lra Lia List Bool String.
From Verif Require Import Num Py Validation Utilities Objects Slope Planes Analysis
     Dynamic Api RealNum RealFacts MonadFacts History ListFacts Spec CircleFacts PlaneFacts SoilFacts SliceFacts MatInv
     SearchFacts ViewFacts FosFacts FosMore StrengthFacts ScaleFacts FosTotal WetFacts FosCode CohesiveFacts
     Demo DemoCircle Surcharge SurchargeCode SurchargeDemo Fellenius.
Import ListNotations.
Local Open Scope R_scope.

Section Code.
  Context {EN : Env}.
  Notation stR := (st R).

  (** The answer is one of the values of the iteration. *)
  Lemma bishop_turns (s : stR) v cx cy r a b w sl f : reachable s -> view_of s = Ok v ->
    0 <= r -> end_points (v_geom v) cx cy r a b ->
    slices_of v cx cy r (fst a) (fst b) = Ok (Some (w, sl)) -> (forall t, In t sl -> leaning_slice w t) -> 0 < driving sl ->
    0 < resisting w sl / driving sl -> bishop v cx cy r = Ok (Some f) ->
    exists j, (j <= Z.to_nat (v_max_iterations v))%nat /\ ((0 < v_max_iterations v)%Z -> (0 < j)%nat) /\
      f = turns w sl (resisting w sl / driving sl) j.
  Proof.
    intros RS E D3 EP S1 P D FP B. destruct (view_good s v RS E) as (GV & SV & G).
    destruct (slices_code v cx cy r a b w sl GV D3 EP S1) as (EW & SO).
    destruct (bishop_some v GV cx cy r f B) as (_ & _ & _ & a0 & b0 & sl0 & EP0 & SO0 & _ & (j & J & IT & _ & SM)).
    destruct (end_points_det _ _ _ _ _ _ _ _ EP EP0) as ( <- & <- ).
    rewrite (slices_det _ _ _ _ _ _ _ _ SO0 SO) in *. rewrite <- EW in *. clear sl0 SO0 EP0.
    exists j. split; [exact J|]. split.
    - intros M. destruct j as [|j]; [|lia]. exfalso. destruct SM as (i & _ & X & _); [|discriminate]. lia.
    - exact (iterate_det _ _ _ _ _ IT _ (turns_iterate w sl P D _ j FP)).
  Qed.

  Section Circle.
    Context (s : stR) (v : view R) (RS : reachable s) (E : view_of s = Ok v).
    Context (SS : some_strength s) (HD : heavy s \/ dry v) (WK : wet_ok s) (NE : mats_of s <> []).
    Context (cx cy r : R) (a b : R * R) (LN : leaning (s_geom (snd s)) cx cy r a b).
    Context (w : R) (sl : list (slice R)) (S1 : slices_of v cx cy r (fst a) (fst b) = Ok (Some (w, sl))).

    Lemma lean_facts : exists GV : good_view v, sound s v /\ leaning (v_geom v) cx cy r a b /\ 0 < r /\ 0 < w /\
      w = width v a b /\ slices_ok v cx cy r a b sl /\ 0 < driving sl /\ (forall t, In t sl -> leaning_slice w t) /\
      (forall t, In t sl -> unit_slice t) /\
      ordinary v cx cy r a b = Ok (Some (resisting w sl / driving sl)).
    Proof.
      destruct (view_good s v RS E) as (GV & SV & G). rewrite <- G in LN. exists GV. split; [exact SV|]. split; [exact LN|].
      pose proof LN as [D1 D2 D3 EP BC BU]. pose proof (radius_pos v GV cx cy r a b D3 EP) as RP. split; [exact RP|].
      destruct (slices_code v cx cy r a b w sl GV D3 EP S1) as (EW & SO).
      split; [rewrite EW; exact (width_pos s v cx cy r a b SV EP)|]. split; [exact EW|]. split; [exact SO|].
      destruct (leaning_slices s v cx cy r a b SV SS HD LN WK NE) as (sl0 & SO0 & D & P & _).
      rewrite (slices_det _ _ _ _ _ _ _ _ SO0 SO) in *. clear sl0 SO0. rewrite <- EW in P.
      split; [exact D|]. split; [exact P|]. split; [intros t I; exact (slices_unit v cx cy r a b sl t RP SO I)|].
      destruct (ordinary_spec v GV cx cy r a b D1 D2 D3 EP (fits s v SV WK)) as [(M & _)|(sl0 & SO0 & Q)].
      { exfalso. exact (slices_mats _ _ _ _ _ _ _ (gv_slices v GV) SO M). }
      rewrite (slices_det _ _ _ _ _ _ _ _ SO0 SO), <- EW in Q. destruct Q as [(X & _)|(_ & Q)]; [lra|exact Q].
    Qed.

    (** The sign of the gain decides which method is on the safe side. *)
    Lemma gain_decides f0 f : (forall t, In t sl -> no_tension w t) ->
      ordinary v cx cy r a b = Ok (Some f0) -> 0 < f0 -> bishop v cx cy r = Ok (Some f) ->
      (0 <= gain w sl f0 -> f0 <= f) /\ (gain w sl f0 <= 0 -> f <= f0) /\
      ((0 < s_max_iterations (snd s))%Z -> (0 < gain w sl f0 -> f0 < f) /\ (gain w sl f0 < 0 -> f < f0)).
    Proof.
      intros NT O FP B. destruct lean_facts as (GV & SV & LV & RP & WP & EW & SO & D & P & UN & O1).
      assert (F0 : f0 = resisting w sl / driving sl) by congruence. subst f0.
      destruct (bishop_turns s v cx cy r a b w sl f RS E (ln_r _ _ _ _ _ _ LV) (ln_ends _ _ _ _ _ _ LV) S1 P D FP B)
        as (j & _ & J1 & ->).
      split; [intros K; now apply turns_above|]. split; [intros K; now apply turns_below|].
      rewrite (so_max s v SV) in J1. intros M. specialize (J1 M). destruct j as [|j]; [lia|].
      now apply turns_strictly.
    Qed.

    (** The first turn decides, whether or not a base is in tension. *)
    Lemma first_turn f0 f : ordinary v cx cy r a b = Ok (Some f0) -> 0 < f0 -> bishop v cx cy r = Ok (Some f) ->
      (resisting w sl <= bishop_resisting w f0 sl -> f0 <= f) /\
      (bishop_resisting w f0 sl <= resisting w sl -> f <= f0) /\
      ((0 < s_max_iterations (snd s))%Z ->
         (resisting w sl < bishop_resisting w f0 sl <-> f0 < f) /\
         (bishop_resisting w f0 sl < resisting w sl <-> f < f0)).
    Proof.
      intros O FP B. destruct lean_facts as (GV & SV & LV & RP & WP & EW & SO & D & P & UN & O1).
      assert (F0 : f0 = resisting w sl / driving sl) by congruence.
      destruct (bishop_turns s v cx cy r a b w sl f RS E (ln_r _ _ _ _ _ _ LV) (ln_ends _ _ _ _ _ _ LV) S1 P D ltac:(now rewrite <- F0) B)
        as (j & _ & J1 & FJ). rewrite <- F0 in FJ.
      assert (IV : 0 < / driving sl) by now apply Rinv_0_lt_compat.
      assert (T1 : turn w sl f0 = bishop_resisting w f0 sl / driving sl).
      { unfold turn. destruct (Req_EM_T f0 0); [lra|reflexivity]. }
      assert (UP : resisting w sl <= bishop_resisting w f0 sl -> f0 <= turn w sl f0).
      { intros L. rewrite T1, F0 at 1. apply Rmult_le_compat_r; lra. }
      assert (DN : bishop_resisting w f0 sl <= resisting w sl -> turn w sl f0 <= f0).
      { intros L. rewrite T1. rewrite F0 at 2. apply Rmult_le_compat_r; lra. }
      assert (UP1 : f0 <= turn w sl f0 -> forall k, f0 <= turns w sl f0 k /\ turn w sl f0 <= turns w sl f0 (S k)).
      { intros L k. assert (Q : turn w sl f0 <= turns w sl f0 (S k)).
        { induction k as [|k IH]; [cbn; lra|]. eapply Rle_trans; [exact IH|]. now apply turns_rise. }
        split; [|exact Q]. clear Q. induction k as [|k IH]; [cbn; lra|]. eapply Rle_trans; [exact IH|]. now apply turns_rise. }
      assert (DN1 : turn w sl f0 <= f0 -> forall k, turns w sl f0 k <= f0 /\ turns w sl f0 (S k) <= turn w sl f0).
      { intros L k. assert (Q : turns w sl f0 (S k) <= turn w sl f0).
        { induction k as [|k IH]; [cbn; lra|]. eapply Rle_trans; [|exact IH]. now apply turns_fall. }
        split; [|exact Q]. clear Q. induction k as [|k IH]; [cbn; lra|]. eapply Rle_trans; [|exact IH]. now apply turns_fall. }
      assert (A : resisting w sl <= bishop_resisting w f0 sl -> f0 <= f) by (intros L; rewrite FJ; apply UP1; auto).
      assert (C : bishop_resisting w f0 sl <= resisting w sl -> f <= f0) by (intros L; rewrite FJ; apply DN1; auto).
      split; [exact A|]. split; [exact C|]. rewrite (so_max s v SV) in J1. intros M. specialize (J1 M). destruct j as [|j]; [lia|].
      split; (split; [intros L|intros L; apply Rnot_le_lt; intros X; first [specialize (A X)|specialize (C X)]; lra]).
      - apply Rlt_le_trans with (turn w sl f0).
        + rewrite T1, F0 at 1. now apply Rmult_lt_compat_r.
        + rewrite FJ. apply UP1. apply UP. lra.
      - apply Rle_lt_trans with (turn w sl f0).
        + rewrite FJ. apply DN1. apply DN. lra.
        + rewrite T1. rewrite F0 at 2. now apply Rmult_lt_compat_r.
    Qed.

    (** One soil without cohesion, no water *)
    Lemma sand_conservative phi f0 f : dry v ->
      (forall m, In m (mats_of s) -> m_cohesion m = 0 /\ m_friction_angle m = phi) ->
      ordinary v cx cy r a b = Ok (Some f0) -> bishop v cx cy r = Ok (Some f) ->
      0 < f0 <= f /\ ((0 < s_max_iterations (snd s))%Z -> f0 < f).
    Proof.
      intros DV ONE O B. destruct lean_facts as (GV & SV & LV & RP & WP & EW & SO & D & P & UN & O1).
      destruct (leaning_slices s v cx cy r a b SV SS HD LV WK NE) as (sl0 & SO0 & _ & _ & _ & _ & RD & _).
      rewrite (slices_det _ _ _ _ _ _ _ _ SO0 SO) in *. clear sl0 SO0. rewrite <- EW in RD.
      assert (F0 : f0 = resisting w sl / driving sl) by congruence.
      assert (FP : 0 < f0) by (rewrite F0; apply Rdiv_lt_0_compat; auto).
      pose proof (slices_dry _ _ _ _ _ _ _ _ DV S1) as DS.
      set (t := Rtan_py (phi * (PI / 180))).
      assert (SAND : forall q, In q sl -> sl_tan q = t /\ sl_c q = 0 /\ sl_u q = 0 /\ 0 < sl_W q).
      { intros q I. destruct (P q I) as (C0 & S0 & T0 & ST). destruct (Forall2_In_r _ _ _ _ SO I) as (i & _ & K).
        destruct (sk_mat _ _ _ _ _ _ _ _ K) as (m & LM & EC & ET). destruct (layer_at_In _ _ _ LM) as (rl & IM).
        destruct (so_mats s v SV rl m IM) as (_ & TO & _).
        destruct (ONE m) as (CZ & FZ); [rewrite <- (so_mats_eq s v SV); apply in_map_iff; now exists (rl, m)|].
        assert (ET' : sl_tan q = t) by (rewrite ET; red in TO; rewrite TO, FZ; unfold nradians; unR; reflexivity).
        assert (EC' : sl_c q = 0) by congruence. split; [exact ET'|]. split; [exact EC'|]. split; [exact (DS q I)|].
        unfold strength in ST. rewrite EC', (DS q I) in ST. rewrite !Rmult_0_l, Rminus_0_r, Rplus_0_l in ST.
        destruct (Rlt_le_dec 0 (sl_W q)) as [|N]; auto. exfalso.
        assert (sl_W q * sl_tan q <= 0); [|lra]. rewrite <- (Rmult_0_l (sl_tan q)). now apply Rmult_le_compat_r. }
      assert (NT : forall q, In q sl -> no_tension w q).
      { intros q I. destruct (SAND q I) as (_ & _ & U & W). destruct (P q I) as (C0 & _). unfold no_tension. rewrite U, Rmult_0_l.
        assert (0 < sl_W q * sl_cos q) by now apply Rmult_lt_0_compat. lra. }
      assert (TWO : exists q q', In q sl /\ In q' sl /\ sl_sin q < sl_sin q').
      { pose proof (so_slices_b s v SV) as NB. clear - SO NB RP EW WP. unfold slices_ok in SO. rewrite <- EW in SO.
        assert (Z2 : exists k, Z.to_nat (v_slices v) = S (S k)).
        { exists (Z.to_nat (v_slices v - 2)). lia. }
        destruct Z2 as (k & Z2). rewrite Z2 in SO. cbn [zrange] in SO. remember (zrange (0 + 1 + 1) k) as zs.
        inversion SO as [|? s0 ? l0 K0 F0]; subst sl. inversion F0 as [|? s1 ? l1 K1 F1]; subst l0.
        exists s1, s0. split; [right; now left|]. split; [now left|].
        rewrite (sk_sin _ _ _ _ _ _ _ _ K0), (sk_sin _ _ _ _ _ _ _ _ K1). unfold mid_of. cbn [Z.add Pos.add].
        apply Rmult_lt_compat_r; [now apply Rinv_0_lt_compat|]. lra. }
      assert (TP : 0 < t).
      { destruct TWO as (q & _ & I & _). destruct (P q I) as (_ & _ & T0 & ST). destruct (SAND q I) as (ET & EC & EU & _).
        rewrite ET in T0. destruct (Rle_lt_or_eq_dec _ _ T0) as [|Z]; auto. exfalso. unfold strength in ST.
        rewrite ET, EC, <- Z in ST. lra. }
      destruct (gain_decides f0 f NT O FP B) as (UP & _ & SU).
      rewrite F0 in UP, SU, FP. split; [split; [lra|]|].
      - rewrite F0. apply UP. exact (sand_gain w sl P D NT t TP SAND FP).
      - intros M. rewrite F0. destruct (SU M) as (SU' & _). apply SU'.
        destruct TWO as (q & q' & I & I' & L). exact (sand_gain_pos w sl P D UN NT t TP SAND q q' FP I I' L).
    Qed.
  End Circle.

  Lemma dry_wet (s : stR) v : reachable s -> view_of s = Ok v -> dry v -> wet_ok s.
  Proof.
    intros RS E D rl Q. destruct (view_good s v RS E) as (GV & SV & G). pose proof (so_water s v SV) as W. rewrite Q in W.
    destruct D as [D|D]; [congruence|]. assert (rl = 0) by congruence. subst rl. rewrite <- G.
    destruct (gv_geom v GV) as [_ _ _ ? ? ? _]. lra.
  Qed.
  Lemma sand_both (s : stR) v phi cx cy r a b : reachable s -> view_of s = Ok v -> dry v -> mats_of s <> [] -> 0 < phi <= 90 ->
    (forall m, In m (mats_of s) -> m_cohesion m = 0 /\ m_friction_angle m = phi) ->
    leaning (s_geom (snd s)) cx cy r a b ->
    exists f0 f, ordinary v cx cy r a b = Ok (Some f0) /\ bishop v cx cy r = Ok (Some f) /\
      0 < f0 <= f /\ ((0 < s_max_iterations (snd s))%Z -> f0 < f).
  Proof.
    intros RS E DV NE PH ONE LN. pose proof (dry_wet s v RS E DV) as WK.
    assert (SS : some_strength s) by (intros m I; destruct (ONE m I) as (_ & ->); split; [lra|right; lra]).
    destruct (view_good s v RS E) as (GV & SV & G). assert (LV : leaning (v_geom v) cx cy r a b) by now rewrite G.
    pose proof (radius_pos v GV cx cy r a b (ln_r _ _ _ _ _ _ LV) (ln_ends _ _ _ _ _ _ LV)) as RP.
    destruct (water_total v (gv_geom v GV) (fits _ v SV WK)) as (o & WD).
    destruct (slices_at v GV _ _ _ _ _ o RP (ln_ends _ _ _ _ _ _ LV) WD) as [(M & _)|(sl & S1 & _)].
    { exfalso. apply NE. rewrite <- (so_mats_eq s v SV), M. reflexivity. }
    destruct (lean_facts s v RS E SS (or_intror DV) WK NE cx cy r a b LN _ sl S1) as (_ & _ & _ & _ & _ & _ & _ & _ & _ & _ & O).
    destruct (leaning_factor s v cx cy r a b RS E SS (or_intror DV) LV WK NE) as (f & B & _ & _).
    do 2 eexists. split; [exact O|]. split; [exact B|].
    exact (sand_conservative s v RS E SS (or_intror DV) WK NE cx cy r a b LN _ sl S1 phi _ f DV ONE O B).
  Qed.
  (** The lowest factor of an analysis of circles given by the user *)
  Lemma sand_min m (s s1 : stR) v phi f : reachable s -> view_of s = Ok v -> dry v -> 0 < phi <= 90 ->
    (forall m, In m (mats_of s) -> m_cohesion m = 0 /\ m_friction_angle m = phi) ->
    s_planes (snd s) <> [] ->
    (forall p, In p (s_planes (snd s)) -> exists a b, leaning (s_geom (snd s)) (p_cx p) (p_cy p) (p_radius p) a b) ->
    analyse_slope m s = (Ok tt, s1) -> get_min_FOS (snd s1) = Ok (Some f) ->
    exists p a b f0, In p (s_planes (snd s)) /\ leaning (s_geom (snd s)) (p_cx p) (p_cy p) (p_radius p) a b /\
      ordinary v (p_cx p) (p_cy p) (p_radius p) a b = Ok (Some f0) /\
      bishop v (p_cx p) (p_cy p) (p_radius p) = Ok (Some f) /\ 0 < f0 <= f.
  Proof.
    intros RS E DV PH ONE PL LN A1 G1.
    destruct (min_spec m _ _ A1) as (v0 & cs0 & E0 & AN0 & [(Q & _)|(c & g & Q & IC & FC & _ & _ & _)]); [congruence|].
    assert (v0 = v) by congruence. subst v0. assert (g = f) by congruence. subst g.
    assert (cs0 = s_planes (snd s)) by (destruct AN0 as [(X & _)|(_ & X)]; congruence). subst cs0.
    destruct (LN c IC) as (a & b & L). unfold factor in FC.
    destruct (view_good s v RS E) as (GV & SV & G).
    destruct (bishop_some v GV _ _ _ f FC) as (_ & _ & _ & a0 & b0 & sl & _ & SO & _ & _).
    assert (NE : mats_of s <> []).
    { intros M. apply (slices_mats _ _ _ _ _ _ _ (gv_slices v GV) SO). rewrite <- (so_mats_eq s v SV) in M. now apply map_eq_nil in M. }
    destruct (sand_both s v phi _ _ _ a b RS E DV NE PH ONE L) as (f0 & f1 & O & B & LE & _).
    assert (f1 = f) by congruence. subst f1. exists c, a, b, f0. split; [exact IC|]. split; [exact L|]. split; [exact O|]. split; [exact B|exact LE].
  Qed.

  (** Soils without friction: the methods agree. *)
  Lemma clay_agree (s : stR) v cx cy r a b f : reachable s -> view_of s = Ok v -> cohesive s -> wet_ok s ->
    end_points (s_geom (snd s)) cx cy r a b -> bishop v cx cy r = Ok (Some f) -> ordinary v cx cy r a b = Ok (Some f).
  Proof.
    intros RS E C WK EP B. destruct (view_good s v RS E) as (GV & SV & G). rewrite <- G in EP.
    destruct (bishop_some v GV cx cy r f B) as (D1 & D2 & D3 & a0 & b0 & sl & EP0 & SO & DR & RPT).
    destruct (end_points_det _ _ _ _ _ _ _ _ EP EP0) as (QA & QB). subst a0 b0.
    pose proof (cohesive_slices s v cx cy r a b sl SV C D3 SO) as ST.
    pose proof (width_pos s v cx cy r a b SV EP) as WP. rewrite (stiff_resisting _ sl ST) in RPT.
    apply loop_some in RPT. rewrite (stiff_loop _ sl ST WP DR) in RPT. injection RPT as <-.
    destruct (ordinary_spec v GV cx cy r a b D1 D2 (Rlt_le _ _ D3) EP (fits s v SV WK)) as [(M & _)|(sl0 & SO0 & Q)].
    { exfalso. exact (slices_mats _ _ _ _ _ _ _ (gv_slices v GV) SO M). }
    rewrite (slices_det _ _ _ _ _ _ _ _ SO0 SO), (stiff_resisting _ sl ST) in Q.
    destruct Q as [(X & _)|(_ & Q)]; [lra|exact Q].
  Qed.

  (** ** One sand and one circle on the demo slope *)
  Lemma arc_exec c phi : exec (AddCircle 12 (29 / 2) (15 / 2)) (bank c phi) = (Ok tt, with_arc (bank c phi)).
  Proof.
    cbn [exec]. unfold add_single_circular_plane.
    destruct (circle_external_spec demo_geom demo_good 12 (29 / 2) (15 / 2)) as (l & E & C).
    erewrite bind_ok by reflexivity. change (s_geom (snd (bank c phi))) with demo_geom.
    unfold mlift at 1. rewrite E. unfold mbind at 1.
    destruct (first_two_spec _ _ _ _ _ C) as [(a & b & F & EP)|(_ & L)].
    2:{ exfalso. eapply end_points_two; [apply demo_ends|exact C|exact L]. }
    destruct (end_points_det _ _ _ _ _ _ _ _ demo_ends EP) as (-> & ->). rewrite F. reflexivity.
  Qed.
  Lemma arc_reachable c phi : 0 <= c -> 0 <= phi -> reachable (with_arc (bank c phi)).
  Proof.
    intros C P. eapply accepted_reachable; [apply (bank_reachable c phi C P)|]. econstructor; [apply arc_exec|constructor].
  Qed.

  (** ** The sand over mud of C95: Bishop's factor is the lower one *)
  Lemma veneer_lower : exists v f0 f, view_of veneer = Ok v /\
    leaning (s_geom (snd veneer)) 12 (29 / 2) (15 / 2) (6, 10) (12, 7) /\
    ordinary v 12 (29 / 2) (15 / 2) (6, 10) (12, 7) = Ok (Some f0) /\
    bishop v 12 (29 / 2) (15 / 2) = Ok (Some f) /\ 0 < f < f0.
  Proof.
    destruct (view_sound veneer veneer_reachable) as (v & E & SV).
    pose proof (sound_good _ v SV) as GV. pose proof (so_geom _ _ SV) as G.
    assert (LN : leaning (s_geom (snd veneer)) 12 (29 / 2) (15 / 2) (6, 10) (12, 7)).
    { constructor; try lra; [exact demo_ends|cbn; lra|exact demo_buried]. }
    assert (LV : leaning (v_geom v) 12 (29 / 2) (15 / 2) (6, 10) (12, 7)) by now rewrite G.
    assert (RP : 0 < 15 / 2) by lra.
    destruct (water_total v (gv_geom v GV) (fits _ v SV veneer_wet)) as (o & WD).
    destruct (slices_at v GV _ _ _ _ _ o RP (ln_ends _ _ _ _ _ _ LV) WD) as [(M & _)|(sl & S1 & _)].
    { exfalso. rewrite (veneer_mats v SV) in M. discriminate. }
    assert (DV : dry v) by (left; exact (so_water _ _ SV)).
    destruct (lean_facts veneer v veneer_reachable E veneer_strength (or_introl veneer_heavy) veneer_wet ltac:(discriminate)
                12 (29 / 2) (15 / 2) (6, 10) (12, 7) LN _ sl S1) as (_ & _ & _ & _ & WP & _ & SO & D & P & UN & O).
    set (w := width v (6, 10) (12, 7)) in *.
    destruct (veneer_slices v sl SV SO) as (s0 & rest & -> & PK & CP & C0 & S0 & UN0 & W0 & DR & HP & HH). fold w in HP, HH.
    assert (WC : 0 < sl_W s0 * sl_cos s0) by now apply Rmult_lt_0_compat.
    assert (RR : 0 < resisting w (s0 :: rest)) by (rewrite (pocket_ordinary _ w s0 rest PK); lra).
    assert (FP : 0 < resisting w (s0 :: rest) / driving (s0 :: rest)) by now apply Rdiv_lt_0_compat.
    set (f0 := resisting w (s0 :: rest) / driving (s0 :: rest)) in *.
    assert (FL : f0 * sl_sin s0 < sl_tan s0 * sl_cos s0) by (apply (pocket_flat (1 / 100) w f0 s0 rest); auto).
    destruct (leaning_factor veneer v 12 (29 / 2) (15 / 2) (6, 10) (12, 7) veneer_reachable E veneer_strength
                (or_introl veneer_heavy) LV veneer_wet ltac:(discriminate)) as (f & B & _ & FPOS).
    exists v, f0, f. split; [exact E|]. split; [exact LN|]. split; [exact O|]. split; [exact B|]. split; [auto|].
    destruct PK as ((T0 & CC0 & U0) & PR).
    assert (NT : forall t, In t (s0 :: rest) -> no_tension w t).
    { intros t [ <- |I]; unfold no_tension.
      - rewrite U0, Rmult_0_l. lra.
      - rewrite Forall_forall in PR. destruct (PR t I) as (_ & -> & _). rewrite Rmult_0_l, Rminus_0_r.
        destruct (P t (or_intror I)) as (C & _).
        assert (0 <= sl_W t); [|apply Rmult_le_pos; lra].
        destruct (Forall2_In_r _ _ _ _ SO (or_intror I)) as (i & II & K). apply zrange_In in II.
        rewrite Z2Nat.id in II by (pose proof (gv_slices v GV); lia).
        assert (N : v_slices v = 25%Z) by exact (so_slices _ _ SV).
        assert (WE : width v (6, 10) (12, 7) = 6 / 25) by (unfold width; rewrite N; cbn [fst]; lra). rewrite WE in K.
        destruct (veneer_slice v i t SV ltac:(lia) K) as (_ & _ & _ & W & _). lra. }
    destruct (gain_decides veneer v veneer_reachable E veneer_strength (or_introl veneer_heavy) veneer_wet ltac:(discriminate)
                12 (29 / 2) (15 / 2) (6, 10) (12, 7) LN _ _ S1 f0 f NT O FP B) as (_ & _ & SU).
    destruct (SU ltac:(cbn; lia)) as (_ & LOW). apply LOW. fold w.
    unfold gain. cbn [map rsum].
    assert (Z : rsum (map (fun s => share f0 s * (f0 * (sl_W s * sl_sin s) - plain_hold w s)) rest) = 0).
    { clearbody f0. clear - PR. induction PR as [|t l (T & _) F IH]; [reflexivity|]. cbn [map rsum]. rewrite IH. unfold share. rewrite T, Rmult_0_r.
      unfold Rdiv. rewrite !Rmult_0_l. ring. }
    rewrite Z, Rplus_0_r. unfold share, plain_hold. rewrite T0, CC0, U0 in *.
    assert (0 < f0 * sl_cos s0) by now apply Rmult_lt_0_compat.
    assert (SP : 0 < sl_sin s0 * 1 / (f0 * sl_cos s0 + sl_sin s0 * 1)) by (apply Rdiv_lt_0_compat; lra).
    assert (Q : f0 * (sl_W s0 * sl_sin s0) - (0 * (w / sl_cos s0) + (sl_W s0 * sl_cos s0 - 0 * (w / sl_cos s0)) * 1) < 0).
    { assert (sl_W s0 * (f0 * sl_sin s0) < sl_W s0 * (1 * sl_cos s0)) by now apply Rmult_lt_compat_l. lra. }
    set (x := sl_sin s0 * 1 / _) in *. set (y := _ - _) in Q |- *. assert (0 < x * - y) by (apply Rmult_lt_0_compat; lra). lra.
  Qed.
End Code.
