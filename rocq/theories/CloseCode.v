(** * CloseCode: how far the reported factor is from the exact solution (C98). *)
From Coq Require Import ZArith Reals Lra Lia List Bool String.
From Verif Require Import Num Py Validation Utilities Objects Slope Planes Analysis
     Dynamic Api RealNum RealFacts ListFacts Spec CircleFacts PlaneFacts SoilFacts SliceFacts MatInv EditFacts
     SearchFacts ViewFacts FosFacts FosMore StrengthFacts ScaleFacts FosTotal WetFacts FosCode Surcharge
     SurchargeCode Fellenius FelleniusCode CloseFacts.
Import ListNotations.
Local Open Scope R_scope.

Section Code.
  Context {EN : Env}.
  Notation stR := (st R).

  (** tangent of the friction angle times slope of the circle where it enters the crest *)
  Definition entry_steepness (s : stR) (cx cy : R) (a : R * R) (k : R) : Prop :=
    0 <= k /\ forall m, In m (mats_of s) -> 0 <= m_friction_angle m < 90 /\
      (cx - fst a) * tan (m_friction_angle m * (PI / 180)) <= k * Rabs (cy - snd a).

  Lemma tan_py_flat p : 0 <= p < 90 -> Rtan_py (p * (PI / 180)) = tan (p * (PI / 180)) /\ 0 <= tan (p * (PI / 180)).
  Proof.
    intros P. destruct (Rle_lt_or_eq_dec _ _ (proj1 P)) as [Q|Q].
    - destruct (Rtan_py_acute p ltac:(lra)) as (A & B). split; [exact A|lra].
    - rewrite <- Q, Rmult_0_l. rewrite Rtan_py_tan by (rewrite cos_0; lra). rewrite tan_0. lra.
  Qed.

  Section Circle.
    Context (s : stR) (v : view R) (RS : reachable s) (E : view_of s = Ok v).
    Context (SS : some_strength s) (HD : heavy s \/ dry v) (WK : wet_ok s) (NE : mats_of s <> []).
    Context (cx cy r : R) (a b : R * R) (LN : leaning (s_geom (snd s)) cx cy r a b).
    Context (w : R) (sl : list (slice R)) (S1 : slices_of v cx cy r (fst a) (fst b) = Ok (Some (w, sl))).

    Lemma entry_steep k : entry_steepness s cx cy a k -> steep_at_most k sl.
    Proof.
      intros (K0 & KS) t I.
      destruct (lean_facts s v RS E SS HD WK NE cx cy r a b LN w sl S1) as (GV & SV & LV & RP & WP & EW & SO & D & P & UN & O).
      destruct (P t I) as (C & S & T & _). destruct (Forall2_In_r _ _ _ _ SO I) as (i & II & K).
      apply zrange_In in II. rewrite Z2Nat.id in II by (pose proof (gv_slices v GV); lia).
      destruct (sk_mat _ _ _ _ _ _ _ _ K) as (m & LM & EC & ET). destruct (layer_at_In _ _ _ LM) as (rl & IM).
      destruct (so_mats s v SV rl m IM) as (_ & TO & _).
      destruct (KS m) as (F9 & KM); [rewrite <- (so_mats_eq s v SV); apply in_map_iff; now exists (rl, m)|].
      destruct (tan_py_flat _ F9) as (TE & TP).
      assert (ET' : sl_tan t = tan (m_friction_angle m * (PI / 180))) by (rewrite ET; red in TO; rewrite TO; unfold nradians; unR; exact TE).
      pose proof (end_points_ok _ (gv_geom v GV) _ _ _ _ _ (ln_ends _ _ _ _ _ _ LV)) as (ON & _ & _ & _ & LL).
      pose proof (so_slices_b s v SV) as NB.
      pose proof (mid_inside v a b i ltac:(lia) ltac:(lra) ltac:(lia)) as MI.
      rewrite (sk_sin _ _ _ _ _ _ _ _ K), (sk_cos _ _ _ _ _ _ _ _ K), ET'. set (x := mid_of (fst a) (width v a b) i) in *.
      assert (DA : Rabs (cy - snd a) <= drop_at cx r x).
      { unfold drop_at. rewrite <- sqrt_Rsqr_abs. apply sqrt_le_1_alt. unfold Rsqr. 
        pose proof (ln_way _ _ _ _ _ _ LV) as BC.
        assert ((x - cx) * (x - cx) <= (fst a - cx) * (fst a - cx)) by nra.
        red in ON. nra. }
      assert (Q : (cx - x) * tan (m_friction_angle m * (PI / 180)) <= k * drop_at cx r x).
      { apply Rle_trans with ((cx - fst a) * tan (m_friction_angle m * (PI / 180))); [apply Rmult_le_compat_r; lra|].
        eapply Rle_trans; [exact KM|]. now apply Rmult_le_compat_l. }
      assert (0 < / r) by now apply Rinv_0_lt_compat. unfold Rdiv.
      apply Rmult_le_compat_r with (r := / r) in Q; lra.
    Qed.

    (** The answers of the code for every number of turns, their limit and their distance from it *)
    Lemma close_code k f0 : entry_steepness s cx cy a k -> ordinary v cx cy r a b = Ok (Some f0) -> 0 < f0 ->
      exists F f, (forall n, bishop (allow n v) cx cy r = Ok (Some (F n)) /\ 0 < F n) /\ F 0%nat = f0 /\
        Un_cv F f /\ 0 <= f /\ (0 < f -> solves w sl f) /\ (forall x, solves w sl x -> x = f) /\
        (forall n, Rabs (F (S n) - f) <= k / (F n + k) * Rabs (F n - f)) /\
        (forall n, Rabs (F n - f) <= (k / (Rmin f0 f + k)) ^ n * Rabs (f0 - f)) /\
        (forall n, F n * Rabs (F (S n) - f) <= k * Rabs (F (S n) - F n)).
    Proof.
      intros KS O FP. pose proof (entry_steep k KS) as ST.
      destruct (lean_facts s v RS E SS HD WK NE cx cy r a b LN w sl S1) as (GV & SV & LV & RP & WP & EW & SO & D & P & UN & O1).
      assert (F0 : f0 = resisting w sl / driving sl) by congruence.
      assert (RR : 0 < resisting w sl).
      { replace (resisting w sl) with (f0 * driving sl) by (rewrite F0; field; lra). now apply Rmult_lt_0_compat. }
      assert (A : answers v cx cy r (turns w sl f0)).
      { rewrite F0, EW in *. apply (answers_turns s v cx cy r a b sl SV LV WK SO D); auto. }
      destruct (turns_limit w sl P D f0 FP) as (f & C & F1).
      exists (turns w sl f0), f. split; [intros n; split; [apply (A n)|now apply turns_pos]|]. split; [reflexivity|].
      split; [exact C|]. split; [exact F1|]. split; [intros X; exact (limit_solves w sl P D f0 f FP C X)|].
      split; [intros x X; symmetry; exact (limit_unique w sl P D f0 f x FP C X)|].
      split; [intros n; cbn [turns]; apply (turn_nearer w sl P D k ST f0 f _ FP C); now apply turns_pos|].
      split; [intros n; exact (turns_rate w sl P D k ST f0 f n FP C)|].
      intros n. cbn [turns]. apply (turn_error w sl P D k ST f0 f _ FP C). now apply turns_pos.
    Qed.

    (** The reported factor: it is the last permitted value, or the last change says how far it is off. *)
    Lemma close_reported k f0 g : entry_steepness s cx cy a k -> ordinary v cx cy r a b = Ok (Some f0) -> 0 < f0 ->
      bishop v cx cy r = Ok (Some g) ->
      exists F f, (forall n, bishop (allow n v) cx cy r = Ok (Some (F n))) /\ Un_cv F f /\
        (g = F (Z.to_nat (s_max_iterations (snd s))) \/
         exists n, (S n < Z.to_nat (s_max_iterations (snd s)))%nat /\ g = F (S n) /\ Rabs (g - F n) < s_tolerance (snd s) /\
           Rmin f0 g <= F n /\ F n * Rabs (g - f) <= k * Rabs (g - F n) /\
           (k <= Rmin f0 g -> Rabs (g - f) < s_tolerance (snd s))).
    Proof.
      intros KS O FP B. destruct (close_code k f0 KS O FP) as (F & f & A & FZ & C & _ & _ & _ & _ & _ & ER).
      exists F, f. split; [intros n; apply (A n)|]. split; [exact C|].
      destruct (lean_facts s v RS E SS HD WK NE cx cy r a b LN w sl S1) as (GV & SV & LV & RP & WP & EW & SO & D & P & UN & O1).
      assert (F0 : f0 = resisting w sl / driving sl) by congruence.
      assert (RR : 0 < resisting w sl).
      { replace (resisting w sl) with (f0 * driving sl) by (rewrite F0; field; lra). now apply Rmult_lt_0_compat. }
      assert (A2 : answers v cx cy r (turns w sl f0)).
      { rewrite F0, EW in *. apply (answers_turns s v cx cy r a b sl SV LV WK SO D); auto. }
      assert (FT : forall n, F n = turns w sl f0 n).
      { intros n. destruct (A n) as (Q & _). destruct (A2 n) as (Q2 & _). congruence. }
      destruct (bishop_some v GV cx cy r g B) as (_ & _ & _ & a0 & b0 & sl0 & EP0 & SO0 & _ & (j & J & IT & _ & SM)).
      destruct (end_points_det _ _ _ _ _ _ _ _ (ln_ends _ _ _ _ _ _ LV) EP0) as (QA & QB). subst a0 b0.
      rewrite (slices_det _ _ _ _ _ _ _ _ SO0 SO) in *. rewrite <- EW in *. clear sl0 SO0 EP0. rewrite <- F0 in *.
      pose proof (iterate_det _ _ _ _ _ IT _ (turns_iterate w sl P D f0 j FP)) as GJ.
      rewrite (so_max s v SV), (so_tol s v SV) in *.
      destruct (Nat.eq_dec j (Z.to_nat (s_max_iterations (snd s)))) as [->|NJ]; [left; now rewrite FT|]. right.
      destruct (SM ltac:(lia)) as (i & F1 & -> & IT1 & TL).
      pose proof (iterate_det _ _ _ _ _ IT1 _ (turns_iterate w sl P D f0 i FP)) as G1. rewrite <- FT in G1, GJ.
      exists i. split; [lia|]. split; [exact GJ|]. rewrite G1 in TL. split; [exact TL|].
      assert (MN : Rmin f0 g <= F i).
      { rewrite GJ, !FT. destruct (turns_monotone w sl P D f0 FP) as [U|U].
        - eapply Rle_trans; [apply Rmin_l|]. clear - U. induction i as [|i IH]; [cbn; lra|]. eapply Rle_trans; [exact IH|apply U].
        - eapply Rle_trans; [apply Rmin_r|]. apply U. }
      split; [exact MN|]. pose proof (ER i) as E1. rewrite <- GJ in E1. split; [exact E1|].
      intros KL. assert (FI : 0 < F i) by apply (A i). apply Rle_lt_trans with (Rabs (g - F i)); [|exact TL].
      apply Rmult_le_reg_l with (F i); auto. eapply Rle_trans; [exact E1|]. apply Rmult_le_compat_r; [apply Rabs_pos|lra].
    Qed.
  End Circle.
End Code.
