(** * SurchargeCode: more load on the crest and what the code answers (C95). *)
From Coq Require Import ZArith Reals Lra Lia List Bool String.
From Verif Require Import Num Py Validation Utilities Objects Slope Planes Analysis
     Dynamic Api RealNum RealFacts ListFacts Spec CircleFacts PlaneFacts SoilFacts SliceFacts
     SearchFacts ViewFacts FosFacts FosMore StrengthFacts ScaleFacts FosTotal WetFacts FosCode CohesiveFacts Surcharge.
Import ListNotations.
Local Open Scope R_scope.

Section Code.
  Context {EN : Env}.
  Notation stR := (st R).

  Lemma slice_unit v cx cy r xl w i s : 0 < r -> slice_ok v cx cy r xl w i s ->
    sl_sin s * sl_sin s + sl_cos s * sl_cos s = 1.
  Proof.
    intros RP [_ _ _ D C SI _ _ _]. rewrite C, SI. set (x := mid_of xl w i) in *.
    assert (Q : drop_at cx r x * drop_at cx r x = r * r - (x - cx) * (x - cx)).
    { unfold drop_at in *. apply sqrt_sqrt. destruct (Rle_lt_dec 0 (r * r - (x - cx) * (x - cx))) as [|N]; auto.
      rewrite sqrt_neg_0 in D by lra. lra. }
    replace ((cx - x) / r * ((cx - x) / r) + drop_at cx r x / r * (drop_at cx r x / r)) with
      (((x - cx) * (x - cx) + drop_at cx r x * drop_at cx r x) / (r * r)) by (field; lra).
    rewrite Q. field. lra.
  Qed.
  Lemma slices_unit v cx cy r a b sl s : 0 < r -> slices_ok v cx cy r a b sl -> In s sl ->
    sl_sin s * sl_sin s + sl_cos s * sl_cos s = 1.
  Proof.
    intros RP SO I. destruct (Forall2_In_r _ _ _ _ SO I) as (i & _ & K). exact (slice_unit _ _ _ _ _ _ _ _ RP K).
  Qed.
  Lemma slices_tan_nonneg s v cx cy r a b sl t : sound s v -> friction_90 s -> slices_ok v cx cy r a b sl -> In t sl ->
    0 <= sl_tan t.
  Proof.
    intros SV F SO I. destruct (Forall2_In_r _ _ _ _ SO I) as (i & _ & [_ _ _ _ _ _ _ (m & LM & _ & ->) _]).
    destruct (layer_at_In _ _ _ LM) as (rl & IM). apply (sound_usable s v SV F rl m IM).
  Qed.
  Lemma surcharged_wet (s s' : stR) us ls : surcharged s s' us ls -> wet_ok s -> wet_ok s'.
  Proof. intros [G _ (W & _) _ _ _] K rl. rewrite W, G. apply K. Qed.

  (** What changes in the slices *)
  Lemma surcharged_slices (s s' : stR) us ls v v' cx cy r a b w sl w' sl' :
    reachable s -> reachable s' -> surcharged s s' us ls -> view_of s = Ok v -> view_of s' = Ok v' ->
    0 <= r -> end_points (s_geom (snd s)) cx cy r a b ->
    slices_of v cx cy r (fst a) (fst b) = Ok (Some (w, sl)) ->
    slices_of v' cx cy r (fst a) (fst b) = Ok (Some (w', sl')) ->
    w' = w /\ List.length sl' = List.length sl /\
    forall i t t', nth_error sl i = Some t -> nth_error sl' i = Some t' ->
      sl_cos t' = sl_cos t /\ sl_sin t' = sl_sin t /\ sl_c t' = sl_c t /\ sl_tan t' = sl_tan t /\ sl_u t' = sl_u t /\
      sl_W t' = sl_W t + extra (fst (stand s us ls)) (snd (stand s us ls))
                            (fst a + IZR (Z.of_nat i) * w) (fst a + IZR (Z.of_nat i + 1) * w).
  Proof.
    intros RS RS' SC E E' D3 EP S1 S2.
    destruct (view_good s v RS E) as (GV & SV & G). destruct (view_good s' v' RS' E') as (GV' & SV' & G').
    pose proof (surcharged_view s s' us ls v v' RS RS' SC E E') as ML.
    rewrite <- G in EP. assert (EP' : end_points (v_geom v') cx cy r a b) by (rewrite (ml_geom _ _ _ _ ML); exact EP).
    destruct (slices_code v cx cy r a b w sl GV D3 EP S1) as (-> & SO).
    destruct (slices_code v' cx cy r a b w' sl' GV' D3 EP' S2) as (-> & SO').
    pose proof (radius_pos v GV cx cy r a b D3 EP) as RP.
    rewrite (width_more _ _ _ _ a b ML). split; [reflexivity|].
    unfold slices_ok in SO, SO'. rewrite (width_more _ _ _ _ a b ML), (ml_slices _ _ _ _ ML) in SO'.
    split. { rewrite <- (Forall2_len _ _ _ SO), <- (Forall2_len _ _ _ SO'). reflexivity. }
    intros i t t' I I'.
    assert (AT : forall k n (l l' : list (slice R)),
      Forall2 (slice_ok v cx cy r (fst a) (width v a b)) (zrange k n) l ->
      Forall2 (slice_ok v' cx cy r (fst a) (width v a b)) (zrange k n) l' ->
      forall i, nth_error l i = Some t -> nth_error l' i = Some t' ->
        heavier t t' /\ sl_W t' = sl_W t + extra (fst (stand s us ls)) (snd (stand s us ls))
          (edge_of (fst a) (width v a b) (k + Z.of_nat i)) (edge_of (fst a) (width v a b) (k + Z.of_nat i + 1))).
    { intros k n. revert k. induction n as [|n IH]; intros k l l' A B j J J'; cbn [zrange] in A, B; inversion A; inversion B; subst.
      - destruct j; discriminate.
      - destruct j as [|j].
        + injection J as ->. injection J' as ->. rewrite Z.add_0_r.
          apply (slice_heavier v v' _ _ cx cy r _ _ _ _ _ ML RP); auto.
        + cbn in J, J'. specialize (IH (k + 1)%Z _ _ H3 H8 j J J').
          replace (k + Z.of_nat (S j))%Z with (k + 1 + Z.of_nat j)%Z by lia. exact IH. }
    destruct (AT 0%Z _ _ _ SO SO' i I I') as (HV & EW).
    destruct HV as [_ A1 A2 A3 A4 A5 _ _]. do 5 (split; [assumption|]).
    rewrite EW. unfold edge_of. rewrite Z.add_0_l. reflexivity.
  Qed.

  Section Circle.
    Context (s s' : stR) (us : list (R * R * option R)) (ls : list (R * R)) (v v' : view R).
    Context (RS : reachable s) (RS' : reachable s') (SC : surcharged s s' us ls).
    Context (E : view_of s = Ok v) (E' : view_of s' = Ok v') (WK : wet_ok s).
    Context (cx cy r : R) (a b : R * R) (D1 : 0 <= cx) (D2 : 0 <= cy) (D3 : 0 <= r).
    Context (EP : end_points (s_geom (snd s)) cx cy r a b).
    Context (w : R) (sl : list (slice R)) (w' : R) (sl' : list (slice R)).
    Context (S1 : slices_of v cx cy r (fst a) (fst b) = Ok (Some (w, sl))).
    Context (S2 : slices_of v' cx cy r (fst a) (fst b) = Ok (Some (w', sl'))).

    Lemma circle_facts : exists GV : good_view v, exists GV' : good_view v', sound s v /\ sound s' v' /\
      end_points (v_geom v) cx cy r a b /\ end_points (v_geom v') cx cy r a b /\
      0 < r /\ w = width v a b /\ w' = w /\ 0 < w /\ width v' a b = w /\
      slices_ok v cx cy r a b sl /\ slices_ok v' cx cy r a b sl' /\ Forall2 heavier sl sl'.
    Proof.
      destruct (view_good s v RS E) as (GV & SV & G). destruct (view_good s' v' RS' E') as (GV' & SV' & G').
      pose proof (surcharged_view s s' us ls v v' RS RS' SC E E') as ML.
      exists GV, GV'. split; [exact SV|]. split; [exact SV'|].
      assert (EP1 : end_points (v_geom v) cx cy r a b) by now rewrite G.
      assert (EP' : end_points (v_geom v') cx cy r a b) by (rewrite (ml_geom _ _ _ _ ML); exact EP1).
      split; [exact EP1|]. split; [exact EP'|].
      destruct (slices_code v cx cy r a b w sl GV D3 EP1 S1) as (EW & SO).
      destruct (slices_code v' cx cy r a b w' sl' GV' D3 EP' S2) as (EW' & SO').
      pose proof (radius_pos v GV cx cy r a b D3 EP1) as RP. split; [exact RP|]. split; [exact EW|].
      pose proof (width_more _ _ _ _ a b ML) as WM.
      split; [congruence|]. split; [rewrite EW; exact (width_pos s v cx cy r a b SV EP1)|].
      split; [congruence|]. split; [exact SO|]. split; [exact SO'|].
      exact (slices_heavier v v' _ _ cx cy r a b sl sl' ML RP SO SO').
    Qed.

    Lemma surcharged_ordinary f : friction_90 s -> ordinary v cx cy r a b = Ok (Some f) ->
      (touched sl sl' (fun t => 0 <= sl_sin t /\ sl_tan t * sl_cos t <= f * sl_sin t) ->
       exists f', ordinary v' cx cy r a b = Ok (Some f') /\ f' <= f) /\
      (touched sl sl' (fun t => 0 <= sl_W t * sl_cos t - sl_u t * (w / sl_cos t) /\ f * sl_sin t < sl_tan t * sl_cos t) ->
       (exists t t', In (t, t') (combine sl sl') /\ sl_W t < sl_W t') ->
       ordinary v' cx cy r a b = Ok None \/ exists f', ordinary v' cx cy r a b = Ok (Some f') /\ f < f').
    Proof.
      intros F O. destruct circle_facts as (GV & GV' & SV & SV' & EP1 & EP2 & RP & EW & EW' & WP & WM & SO & SO' & HV).
      pose proof (fun t I => slices_tan_nonneg s v cx cy r a b sl t SV F SO I) as TN.
      destruct (ordinary_spec v GV cx cy r a b D1 D2 D3 EP1 (fits s v SV WK)) as [(_ & Q)|(sl0 & SO0 & Q)]; [congruence|].
      rewrite (slices_det _ _ _ _ _ _ _ _ SO0 SO), <- EW in Q. clear sl0 SO0.
      destruct Q as [(_ & Q)|(DR & Q)]; [congruence|]. assert (FE : f = resisting w sl / driving sl) by congruence.
      destruct (ordinary_spec v' GV' cx cy r a b D1 D2 D3 EP2 (fits s' v' SV' (surcharged_wet _ _ _ _ SC WK)))
        as [(M & _)|(sl0 & SO0 & Q')].
      { exfalso. exact (slices_mats _ _ _ _ _ _ _ (gv_slices v' GV') SO' M). }
      rewrite (slices_det _ _ _ _ _ _ _ _ SO0 SO'), WM in Q'. clear sl0 SO0. split.
      - intros T. rewrite FE in T. destruct (ordinary_lower w sl sl' HV TN DR T) as (DR' & LE).
        destruct Q' as [(X & _)|(_ & Q')]; [lra|]. eexists. split; [exact Q'|]. now rewrite FE.
      - intros T X. destruct Q' as [(_ & Q')|(DR' & Q')]; [now left|]. right. eexists. split; [exact Q'|].
        rewrite FE in *. exact (ordinary_higher w sl sl' HV DR DR' T X).
    Qed.

    (** *** Soils without friction *)
    Lemma surcharged_clay f : cohesive s -> bishop v cx cy r = Ok (Some f) ->
      touched sl sl' (fun t => 0 <= sl_sin t) ->
      exists f', bishop v' cx cy r = Ok (Some f') /\ f' <= f /\
        ordinary v cx cy r a b = Ok (Some f) /\ ordinary v' cx cy r a b = Ok (Some f').
    Proof.
      intros C B T. destruct circle_facts as (GV & GV' & SV & SV' & EP1 & EP2 & RP & EW & EW' & WP & WM & SO & SO' & HV).
      assert (C' : cohesive s') by (intros m; rewrite (sc_mats _ _ _ _ SC); apply C).
      pose proof (cohesive_slices s v cx cy r a b sl SV C RP SO) as ST.
      pose proof (cohesive_slices s' v' cx cy r a b sl' SV' C' RP SO') as ST'.
      destruct (bishop_some v GV cx cy r f B) as (_ & _ & _ & a0 & b0 & sl0 & EP0 & SO0 & DR & RPT).
      destruct (end_points_det _ _ _ _ _ _ _ _ EP1 EP0) as (-> & ->).
      rewrite (slices_det _ _ _ _ _ _ _ _ SO0 SO) in *. clear sl0 SO0 EP0.
      rewrite <- EW in RPT. rewrite (stiff_resisting w sl ST) in RPT.
      apply loop_some in RPT. rewrite (stiff_loop w sl ST WP DR) in RPT. assert (FE : f = swedish w sl) by congruence.
      assert (TN : forall t, In t sl -> 0 <= sl_tan t) by (intros t I; destruct (ST t I) as (-> & _); lra).
      destruct (ordinary_lower w sl sl' HV TN DR) as (DR' & LE).
      { intros t t' I W. split; [exact (T t t' I W)|]. destruct (ST t (in_combine_l _ _ _ _ I)) as (-> & _).
        rewrite (stiff_resisting w sl ST). rewrite Rmult_0_l. apply Rmult_le_pos; [|exact (T t t' I W)].
        left. now apply stiff_pos. }
      rewrite (stiff_resisting w sl ST), (stiff_resisting w sl' ST') in LE.
      exists (swedish w sl'). split; [|split; [now rewrite FE|]].
      - apply (bishop_value v' GV' cx cy r a b sl'); auto.
        + apply (fits s' v' SV' (surcharged_wet _ _ _ _ SC WK)).
        + apply loop_some. rewrite WM, (stiff_resisting w sl' ST'). now apply stiff_loop.
      - split.
        + destruct (ordinary_spec v GV cx cy r a b D1 D2 D3 EP1 (fits s v SV WK)) as [(M & _)|(sl0 & SO0 & Q)].
          { exfalso. exact (slices_mats _ _ _ _ _ _ _ (gv_slices v GV) SO M). }
          rewrite (slices_det _ _ _ _ _ _ _ _ SO0 SO), <- EW, (stiff_resisting w sl ST) in Q.
          destruct Q as [(X & _)|(_ & Q)]; [lra|]. now rewrite FE.
        + destruct (ordinary_spec v' GV' cx cy r a b D1 D2 D3 EP2 (fits s' v' SV' (surcharged_wet _ _ _ _ SC WK)))
            as [(M & _)|(sl0 & SO0 & Q')].
          { exfalso. exact (slices_mats _ _ _ _ _ _ _ (gv_slices v' GV') SO' M). }
          rewrite (slices_det _ _ _ _ _ _ _ _ SO0 SO'), WM, (stiff_resisting w sl' ST') in Q'.
          destruct Q' as [(X & _)|(_ & Q')]; [lra|]. exact Q'.
    Qed.

    (** *** Circles that lean one way *)
    Lemma surcharged_bishop : some_strength s -> heavy s \/ dry v -> mats_of s <> [] -> fst b <= cx ->
      buried (v_geom v) cx cy r a b ->
      exists F F' f f',
        (forall n, bishop (allow n v) cx cy r = Ok (Some (F n)) /\ bishop (allow n v') cx cy r = Ok (Some (F' n))) /\
        Un_cv F f /\ Un_cv F' f' /\ 0 <= f /\ 0 <= f' /\
        (0 < f -> touched sl sl' (fun t => sl_tan t * sl_cos t <= f * sl_sin t) -> f' <= f) /\
        (0 < f -> touched sl sl' (fun t => f * sl_sin t < sl_tan t * sl_cos t) ->
         (exists t t', In (t, t') (combine sl sl') /\ sl_W t < sl_W t') -> f < f').
    Proof.
      intros SS HD NE BC BU.
      destruct circle_facts as (GV & GV' & SV & SV' & EP1 & EP2 & RP & EW & EW' & WP & WM & SO & SO' & HV).
      assert (SS' : some_strength s') by (intros m; rewrite (sc_mats _ _ _ _ SC); apply SS).
      assert (HD' : heavy s' \/ dry v').
      { destruct HD as [H|H]; [left; intros m; rewrite (sc_mats _ _ _ _ SC); apply H|right].
        unfold dry in *. destruct (surcharged_view s s' us ls v v' RS RS' SC E E') as [_ _ W _ _ _ _ _ _]. now rewrite W. }
      assert (NE' : mats_of s' <> []) by now rewrite (sc_mats _ _ _ _ SC).
      assert (VG : v_geom v' = v_geom v) by apply (surcharged_view s s' us ls v v' RS RS' SC E E').
      assert (LN : leaning (v_geom v) cx cy r a b) by (constructor; auto).
      assert (LN' : leaning (v_geom v') cx cy r a b) by (rewrite VG; exact LN).
      pose proof (surcharged_wet _ _ _ _ SC WK) as WK'.
      destruct (leaning_slices s v cx cy r a b SV SS HD LN WK NE) as (sl0 & SO0 & D & P & R0 & RT & RD & B).
      rewrite (slices_det _ _ _ _ _ _ _ _ SO0 SO) in *. clear sl0 SO0.
      destruct (leaning_slices s' v' cx cy r a b SV' SS' HD' LN' WK' NE') as (sl0 & SO0 & D' & P' & R0' & RT' & RD' & B').
      rewrite (slices_det _ _ _ _ _ _ _ _ SO0 SO') in *. clear sl0 SO0. rewrite WM in *. rewrite <- EW in *.
      assert (TN : forall t, In t sl -> 0 <= sl_tan t) by (intros t I; destruct (P t I); tauto).
      pose proof (resisting_grow w sl sl' HV TN) as RG.
      assert (SEQ : exists F' f', answers v' cx cy r F' /\ Un_cv F' f' /\ 0 <= f' /\
        (0 < resisting w sl' -> exists F0, 0 < F0 /\ Un_cv (turns w sl' F0) f')).
      { destruct (Rle_lt_or_eq_dec _ _ R0') as [R1|R1].
        - assert (R1' : 0 < resisting (width v' a b) sl') by now rewrite WM.
          assert (Pw : forall t, In t sl' -> leaning_slice (width v' a b) t) by now rewrite WM.
          pose proof (answers_turns s' v' cx cy r a b sl' SV' LN' WK' SO' D' Pw R1') as A. rewrite WM in A.
          assert (F0 : 0 < resisting w sl' / driving sl') by now apply Rdiv_lt_0_compat.
          destruct (turns_limit w sl' P' D' _ F0) as (f' & C' & N'). eexists _, f'. split; [exact A|]. eauto.
        - assert (TT : forall t, In t sl' -> 0 < sl_tan t) by (destruct RT' as [X|X]; [lra|exact X]).
          assert (Pw : forall t, In t sl' -> leaning_slice (width v' a b) t) by now rewrite WM.
          assert (R1' : resisting (width v' a b) sl' = 0) by (rewrite WM; auto).
          pose proof (answers_zero s' v' cx cy r a b sl' SV' LN' WK' SO' D' Pw TT R1') as A.
          exists (fun _ => 0), 0. split; [exact A|]. split; [apply const_cv|]. split; [lra|]. intros X. lra. }
      destruct SEQ as (F' & f' & A' & C' & N' & LIM').
      destruct (Rle_lt_or_eq_dec _ _ R0) as [R1|R1].
      - assert (R1' : 0 < resisting (width v a b) sl) by now rewrite <- EW.
        assert (Pw : forall t, In t sl -> leaning_slice (width v a b) t) by now rewrite <- EW.
        pose proof (answers_turns s v cx cy r a b sl SV LN WK SO D Pw R1') as A. rewrite <- EW in A.
        assert (F0 : 0 < resisting w sl / driving sl) by now apply Rdiv_lt_0_compat.
        destruct (turns_limit w sl P D _ F0) as (f & C & N).
        destruct (LIM' ltac:(lra)) as (F0' & F0P & CV').
        exists (turns w sl (resisting w sl / driving sl)), F', f, f'.
        split; [intros n; split; [apply (A n)|apply (A' n)]|]. do 4 (split; [assumption|]).
        pose proof (fun t I => slices_unit v cx cy r a b sl t RP SO I) as UN. split.
        + intros FP T. apply (limit_le w sl' P' D' F0' f' f F0P CV' FP).
          apply (turn_lower w sl sl' HV P D D' UN f FP); auto. now apply (limit_fixed w sl P D _ f F0).
        + intros FP T X. apply (limit_gt w sl' P' D' F0' f' f F0P CV' FP).
          apply (turn_higher w sl sl' HV P D D' UN f FP); auto. now apply (limit_fixed w sl P D _ f F0).
      - assert (TT : forall t, In t sl -> 0 < sl_tan t) by (destruct RT as [X|X]; [lra|exact X]).
        assert (Pw : forall t, In t sl -> leaning_slice (width v a b) t) by now rewrite <- EW.
        assert (R1' : resisting (width v a b) sl = 0) by (rewrite <- EW; auto).
        pose proof (answers_zero s v cx cy r a b sl SV LN WK SO D Pw TT R1') as A.
        exists (fun _ => 0), F', 0, f'. split; [intros n; split; [apply (A n)|apply (A' n)]|].
        split; [apply const_cv|]. split; [exact C'|]. split; [lra|]. split; [exact N'|]. split; intros X; lra.
    Qed.
  End Circle.

  (** ** The whole analysis of given circles in soils without friction *)
  Lemma surcharged_min m (s s' s1 s2 : stR) us ls f : reachable s -> reachable s' -> surcharged s s' us ls ->
    cohesive s -> wet_ok s -> s_planes (snd s) <> [] -> s_planes (snd s') = s_planes (snd s) ->
    (forall p v v' a b w sl w' sl', In p (s_planes (snd s)) -> view_of s = Ok v -> view_of s' = Ok v' ->
       end_points (s_geom (snd s)) (p_cx p) (p_cy p) (p_radius p) a b ->
       slices_of v (p_cx p) (p_cy p) (p_radius p) (fst a) (fst b) = Ok (Some (w, sl)) ->
       slices_of v' (p_cx p) (p_cy p) (p_radius p) (fst a) (fst b) = Ok (Some (w', sl')) ->
       touched sl sl' (fun t => 0 <= sl_sin t)) ->
    analyse_slope m s = (Ok tt, s1) -> analyse_slope m s' = (Ok tt, s2) ->
    get_min_FOS (snd s1) = Ok (Some f) ->
    exists f', get_min_FOS (snd s2) = Ok (Some f') /\ f' <= f.
  Proof.
    intros RS RS' SC C WK PL PS T A1 A2 G1.
    destruct (search_spec m s s1 A1) as (v & cs & E & AN & _ & HIN & _ & _).
    destruct (min_spec m _ _ A1) as (v0 & cs0 & E0 & AN0 & [(Q & _)|(c & g & Q & IC & FC & _ & _ & _)]); [congruence|].
    assert (v0 = v) by congruence. subst v0. assert (g = f) by congruence. subst g.
    assert (cs0 = s_planes (snd s)) by (destruct AN0 as [(X & _)|(_ & X)]; congruence). subst cs0.
    assert (cs = s_planes (snd s)) by (destruct AN as [(X & _)|(_ & X)]; congruence). subst cs.
    assert (PF : passes m f).
    { unfold get_min_FOS in G1. destruct (s_search (snd s1)) as [|p ps] eqn:ES; [discriminate|].
      assert (IP : In p (p :: ps)) by now left. apply HIN in IP as (c1 & f1 & _ & (_ & _ & _ & PF & _) & PP).
      rewrite PF in G1. injection G1 as <-. exact (proj1 PP). }
    destruct (min_spec m _ _ A2) as (v' & cs & E' & AN' & MIN).
    assert (cs = s_planes (snd s)) by (destruct AN' as [(X & _)|(_ & X)]; congruence). subst cs.
    destruct (view_good s v RS E) as (GV & SV & G). destruct (view_good s' v' RS' E') as (GV' & SV' & G').
    pose proof (surcharged_view s s' us ls v v' RS RS' SC E E') as ML.
    unfold factor in FC.
    destruct (bishop_some v GV _ _ _ f FC) as (D1 & D2 & D3 & a & b & sl & EP & SO & _ & _).
    destruct (water_total v (gv_geom v GV) (fits s v SV WK)) as (o & WD).
    destruct (slices_at v GV _ _ _ a b o D3 EP WD) as [(M & _)|(sl1 & S1 & _)].
    { exfalso. exact (slices_mats _ _ _ _ _ _ _ (gv_slices v GV) SO M). }
    assert (EP' : end_points (v_geom v') (p_cx c) (p_cy c) (p_radius c) a b) by (rewrite (ml_geom _ _ _ _ ML); exact EP).
    destruct (water_total v' (gv_geom v' GV') (fits s' v' SV' (surcharged_wet _ _ _ _ SC WK))) as (o' & WD').
    destruct (slices_at v' GV' _ _ _ a b o' D3 EP' WD') as [(M & _)|(sl2 & S2 & _)].
    { exfalso. rewrite (ml_mats _ _ _ _ ML) in M. exact (slices_mats _ _ _ _ _ _ _ (gv_slices v GV) SO M). }
    rewrite G in EP. assert (D3' : 0 <= p_radius c) by lra.
    destruct (surcharged_clay s s' us ls v v' RS RS' SC E E' WK _ _ _ a b D1 D2 D3' EP _ _ _ _ S1 S2 f C FC
                (T c v v' a b _ _ _ _ IC E E' EP S1 S2)) as (f' & B' & LE & _).
    destruct MIN as [(Q' & NO)|(c' & g' & Q' & _ & _ & _ & _ & MN)].
    - exfalso. apply (NO c f' IC B'). unfold passes in *. destruct m as [x|]; auto. destruct PF as [PF|PF]; [now left|right; lra].
    - exists g'. split; [exact Q'|]. pose proof (MN c f' IC B'). lra.
  Qed.
End Code.
