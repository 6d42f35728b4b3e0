(** * CohesiveFacts: soils without friction (pyslope.py:1490-1504, 1710-1731).
    For [friction_angle = 0] Bishop's equation does not contain the factor on its
    right side: the answer is the ordinary one, in closed form. *)
From Coq Require Import ZArith Reals Lra Lia List Bool String Permutation Sorted.
From Verif Require Import Num Py Validation Utilities Objects Slope Planes Analysis
     Dynamic Api RealNum RealFacts ListFacts Spec CircleFacts PlaneFacts SoilFacts SliceFacts
     SearchFacts MatInv Invariant History EditFacts ViewFacts FosFacts GridFacts FosMore
     StrengthFacts FosTotal WetFacts.
Import ListNotations.
Local Open Scope R_scope.

(** cohesion times length of the base, over the driving moment *)
Definition swedish (w : R) (sl : list (slice R)) : R :=
  rsum (map (fun s => sl_c s * (w / sl_cos s)) sl) / driving sl.
Definition stiff (s : slice R) : Prop := sl_tan s = 0 /\ 0 < sl_c s /\ 0 < sl_cos s.

Section Closed.
  Context (w : R) (sl : list (slice R)) (L : forall s, In s sl -> stiff s) (W0 : 0 < w)
          (D : 0 < driving sl).
  Lemma stiff_resisting : resisting w sl / driving sl = swedish w sl.
  Proof.
    unfold resisting, swedish, base_len. f_equal. f_equal. apply map_ext_in. intros s I.
    destruct (L s I) as (-> & _). ring.
  Qed.
  Lemma stiff_pos : 0 < swedish w sl.
  Proof.
    apply Rdiv_lt_0_compat; [|exact D]. apply rsum_pos.
    - intros ->. unfold driving in D. cbn in D. lra.
    - intros s I. destruct (L s I) as (_ & A & B). apply Rmult_lt_0_compat; auto.
      now apply Rdiv_lt_0_compat.
  Qed.
  Lemma stiff_turn F : F <> 0 -> next w sl F (swedish w sl).
  Proof.
    intros NF.
    assert (A : forall s, In s sl -> m_alpha F s = sl_cos s).
    { intros s I. destruct (L s I) as (E & _). unfold m_alpha. rewrite E. field. exact NF. }
    assert (Q : bishop_resisting w F sl / driving sl = swedish w sl).
    { unfold bishop_resisting, swedish. f_equal. f_equal. apply map_ext_in. intros s I.
      rewrite (A s I). destruct (L s I) as (-> & _ & C). field. lra. }
    rewrite <- Q. constructor; auto.
    - intros s I. rewrite (A s I). destruct (L s I) as (_ & _ & C). lra.
    - pose proof stiff_pos as P. rewrite <- Q in P.
      destruct (Rle_lt_dec 0 (bishop_resisting w F sl)) as [|N]; auto.
      exfalso. assert (bishop_resisting w F sl / driving sl < 0); [|lra].
      pose proof (Rinv_0_lt_compat _ D). unfold Rdiv. nra.
  Qed.
  Lemma stiff_loop tol k : bishop_loop w tol sl k (swedish w sl) = Ok (Some (swedish w sl)).
  Proof.
    assert (NZ : swedish w sl <> 0) by (pose proof stiff_pos; lra).
    induction k as [|k IH]; [reflexivity|]. cbn [bishop_loop].
    rewrite (proj2 (bishop_step_some _ _ _ _) (stiff_turn _ NZ)). cbn [rbind].
    destruct (nltb _ tol); [reflexivity | exact IH].
  Qed.
End Closed.

Section Cohesive.
  Context {EN : Env}.
  Notation stR := (st R).

  Definition cohesive (s : stR) : Prop :=
    forall m, In m (mats_of s) -> m_friction_angle m = 0 /\ 0 < m_cohesion m.

  Lemma cohesive_slices s v cx cy r a b sl : sound s v -> cohesive s -> 0 < r ->
    slices_ok v cx cy r a b sl -> forall t, In t sl -> stiff t.
  Proof.
    intros SV C RP SO t I. unfold slices_ok in SO.
    destruct (Forall2_In_r _ _ _ _ SO I) as (i & _ & [_ _ _ DP EC _ _ (m & LM & E1 & E2) _]).
    destruct (layer_at_In _ _ _ LM) as (rl & IM).
    destruct (so_mats s v SV rl m IM) as (MO & TO & _).
    destruct (C m) as (F0 & C0).
    { rewrite <- (so_mats_eq s v SV). apply in_map_iff. now exists (rl, m). }
    split; [|split].
    - rewrite E2. red in TO. rewrite TO, F0. unfold nradians. unR. rewrite Rmult_0_l.
      unfold Rtan_py. rewrite sin_0, cos_0. destruct (Req_EM_T 1 0); lra.
    - now rewrite E1.
    - rewrite EC. now apply Rdiv_lt_0_compat.
  Qed.

  (** ** The factor in closed form *)
  Lemma cohesive_factor s v cx cy r : reachable s -> view_of s = Ok v -> cohesive s -> wet_ok s ->
    0 <= cx -> 0 <= cy -> 0 <= r ->
    (exists l, crossings (s_geom (snd s)) cx cy r l /\ (List.length l <= 1)%nat /\
       bishop v cx cy r = Ok None) \/
    (exists a b, end_points (s_geom (snd s)) cx cy r a b /\
       ((mats_of s = [] /\ bishop v cx cy r = Ok None) \/
        (exists sl, slices_ok v cx cy r a b sl /\
           ((driving sl <= 0 /\ bishop v cx cy r = Ok None) \/
            (0 < driving sl /\ 0 < swedish (width v a b) sl /\
             bishop v cx cy r = Ok (Some (swedish (width v a b) sl))))))).
  Proof.
    intros RS EV C W D1 D2 D3.
    destruct (view_sound s RS) as (v' & EV' & SV). assert (v' = v) by congruence. subst v'.
    pose proof (sound_good s v SV) as GV.
    destruct (water_total v (gv_geom v GV) (fits s v SV W)) as (o & WD).
    rewrite <- (so_geom s v SV).
    destruct (bishop_at v GV cx cy r o D1 D2 D3 WD) as
      [X|(a & b & EP & [(M & Q)|(sl & SO & [Q|(DR & Q)])])]; [now left | right | right | right];
      exists a, b; (split; [exact EP|]).
    - left. split; [|exact Q]. rewrite <- (so_mats_eq s v SV), M. reflexivity.
    - right. exists sl. split; [exact SO|]. now left.
    - right. exists sl. split; [exact SO|]. right. split; [exact DR|].
      pose proof (radius_pos v GV cx cy r a b D3 EP) as RP.
      pose proof (cohesive_slices s v cx cy r a b sl SV C RP SO) as ST.
      pose proof (width_pos s v cx cy r a b SV EP) as WP.
      split; [now apply stiff_pos|]. rewrite Q. unfold fos_of. rewrite stiff_resisting by exact ST.
      now apply stiff_loop.
  Qed.

  (** ** The analysis always answers *)
  Lemma fos_loop_ok v l : (forall p, In p l -> exists f, factor v p = Ok f) ->
    exists done, fos_loop v l = (Ok tt, done).
  Proof.
    induction l as [|p l IH]; intros H; cbn [fos_loop]; eauto.
    destruct (H p (or_introl eq_refl)) as (f & E). unfold factor in E. rewrite E.
    destruct IH as (done & ->); eauto. intros q I. apply H. now right.
  Qed.
  Lemma cohesive_some s v cx cy r : reachable s -> view_of s = Ok v -> cohesive s -> wet_ok s ->
    0 <= cx -> 0 <= cy -> 0 <= r -> exists f, bishop v cx cy r = Ok f.
  Proof.
    intros RS EV C W D1 D2 D3.
    destruct (cohesive_factor s v cx cy r RS EV C W D1 D2 D3) as
      [(l & _ & _ & Q)|(a & b & _ & [(_ & Q)|(sl & _ & [(_ & Q)|(_ & _ & Q)])])]; eauto.
  Qed.
  Lemma cohesive_analysed m (s : stR) : reachable s -> offsets_ok s -> cohesive s -> wet_ok s ->
    s_planes (snd s) = [] ->
    (num_points_top_of (T := R) (s_iterations (snd s)) -
       Z.of_nat (List.length (lls_of s) + List.length (udls_of s)) <> 1)%Z ->
    exists s', analyse_slope m s = (Ok tt, s').
  Proof.
    intros RS OF C W PL NL. destruct (view_sound s RS) as (v & EV & SV).
    destruct (search_states s v RS OF EV NL) as (ps & EP & _ & A).
    destruct (fos_loop_ok v ps) as (done & EF).
    { intros p I. destruct (A p I) as (_ & (_ & RP & _) & CX & CY). unfold factor.
      eapply cohesive_some; eauto. lra. }
    unfold analyse_slope, mbind, mret, mlift, self_get, mget.
    rewrite PL, EV, EP, EF. unfold self_upd, mupd. eauto.
  Qed.

  (** ** Water does not matter *)
  Definition dried (t : slice R) : slice R :=
    MkSlice (sl_x t) (sl_yt t) (sl_yb t) (sl_cos t) (sl_sin t) (sl_W t) (sl_c t) (sl_tan t) 0.
  (** the same model with another water table *)
  Definition rewatered (v v' : view R) : Prop :=
    v_geom v' = v_geom v /\ v_mats v' = v_mats v /\ v_udls v' = v_udls v /\ v_lls v' = v_lls v /\
    v_slices v' = v_slices v.
  Lemma slice_rewatered v v' cx cy r xl w i t : rewatered v v' -> v_water_RL v' = None ->
    slice_ok v cx cy r xl w i t -> slice_ok v' cx cy r xl w i (dried t).
  Proof.
    intros (E1 & E2 & E3 & E4 & _) E5 [X YB YT D C SI SW SM U].
    constructor; cbn [sl_x sl_yt sl_yb sl_cos sl_sin sl_W sl_c sl_tan sl_u dried];
      rewrite ?E1, ?E2, ?E3, ?E4, ?E5; auto.
  Qed.
  Lemma slices_rewatered v v' cx cy r a b sl : rewatered v v' -> v_water_RL v' = None ->
    slices_ok v cx cy r a b sl -> slices_ok v' cx cy r a b (map dried sl).
  Proof.
    intros RW E SO. unfold slices_ok, width in *. rewrite (proj2 (proj2 (proj2 (proj2 RW)))).
    induction SO as [|i t l sl S1 _ IH]; cbn [map]; constructor; auto.
    eapply slice_rewatered; eauto.
  Qed.
  Lemma dried_driving sl : driving (map dried sl) = driving sl.
  Proof. unfold driving. now rewrite map_map. Qed.
  Lemma dried_swedish w sl : swedish w (map dried sl) = swedish w sl.
  Proof. unfold swedish. now rewrite dried_driving, map_map. Qed.

  Lemma drained_view (s : stR) v : view_of s = Ok v ->
    exists v', view_of (step s RemoveWater) = Ok v' /\ rewatered v v' /\ v_water_RL v' = None /\
      entry_exit_planes v' = entry_exit_planes v.
  Proof.
    intros E. unfold view_of in *. cbn [step exec remove_water_table snd] in *.
    destruct (rmapM _ (mats_of s)) as [ms|] eqn:E1; [|discriminate]. cbn [rbind] in E.
    destruct (rmapM _ (udls_of s)) as [us|] eqn:E2; [|discriminate]. cbn [rbind] in E.
    destruct (rmapM _ (lls_of s)) as [ls|] eqn:E3; [|discriminate]. cbn [rbind] in E.
    injection E as <-. unfold step. cbn [exec]. unfold remove_water_table. destruct s as [h sl].
    change (mats_of (snd ((self_upd (set_s_water_RL None) ;;;
              self_upd (set_s_water_depth None) ;;; reset_results) (h, sl)))) with (mats_of (h, sl)).
    change (udls_of (snd ((self_upd (set_s_water_RL None) ;;;
              self_upd (set_s_water_depth None) ;;; reset_results) (h, sl)))) with (udls_of (h, sl)).
    change (lls_of (snd ((self_upd (set_s_water_RL None) ;;;
              self_upd (set_s_water_depth None) ;;; reset_results) (h, sl)))) with (lls_of (h, sl)).
    rewrite E1, E2, E3. cbn [rbind]. eexists. split; [reflexivity|].
    repeat split; reflexivity.
  Qed.

  Lemma cohesive_drained s v v' cx cy r : reachable s -> cohesive s -> wet_ok s ->
    view_of s = Ok v -> view_of (step s RemoveWater) = Ok v' ->
    bishop v' cx cy r = bishop v cx cy r.
  Proof.
    intros RS C W EV EV'.
    destruct (drained_view s v EV) as (v0 & E0 & RW & WN & _). assert (v0 = v') by congruence. subst v0.
    assert (D : (cx < 0 \/ cy < 0 \/ r < 0) \/ (0 <= cx /\ 0 <= cy /\ 0 <= r)).
    { destruct (Rlt_le_dec cx 0); auto. destruct (Rlt_le_dec cy 0); auto.
      destruct (Rlt_le_dec r 0); auto. }
    destruct D as [D|(D1 & D2 & D3)].
    { unfold bishop. rewrite (proj1 RW). destruct (circle_external _ _ _ _) as [l|]; [|reflexivity].
      cbn [rbind]. destruct (first_two l) as [[a b]|]; [|reflexivity].
      unfold ordinary. rewrite !assert_pos.
      destruct (Rltb cx 0) eqn:X1; rbool; cbn [rbind]; [reflexivity|].
      destruct (Rltb cy 0) eqn:X2; rbool; cbn [rbind]; [reflexivity|].
      destruct (Rltb r 0) eqn:X3; rbool; cbn [rbind]; [reflexivity|]. lra. }
    set (s' := step s RemoveWater) in *.
    assert (RS' : reachable s') by now apply reachable_step.
    assert (C' : cohesive s') by (unfold cohesive, s'; rewrite drained_mats; exact C).
    assert (W' : wet_ok s').
    { intros rl Q. assert (s_water_RL (snd s') = None); [|congruence].
      destruct s as [h sl]. reflexivity. }
    assert (G' : s_geom (snd s') = s_geom (snd s)) by (destruct s; reflexivity).
    assert (SL : v_slices v = s_slices (snd s) /\ (2 <= v_slices v)%Z).
    { destruct (view_sound s RS) as (v1 & Q & SV). assert (v1 = v) by congruence. subst v1.
      split; [|apply (gv_slices v (sound_good s v SV))].
      unfold view_of in EV. do 3 (destruct (rmapM _ _); cbn [rbind] in EV; [|discriminate]).
      injection EV as <-. reflexivity. }
    assert (WI : forall a b, width v' a b = width v a b).
    { intros a b. unfold width. now rewrite (proj2 (proj2 (proj2 (proj2 RW)))). }
    destruct (cohesive_factor s v cx cy r RS EV C W D1 D2 D3) as
      [(l & CR & LL & ->)|(a & b & EP & Q)].
    - destruct (cohesive_factor s' v' cx cy r RS' EV' C' W' D1 D2 D3) as
        [(l' & _ & _ & ->)|(a & b & EP & _)]; [reflexivity|].
      rewrite G' in EP. exfalso. eapply end_points_two; eauto.
    - destruct (cohesive_factor s' v' cx cy r RS' EV' C' W' D1 D2 D3) as
        [(l' & CR & LL & _)|(a' & b' & EP' & Q')].
      { rewrite G' in CR. exfalso. eapply end_points_two; eauto. }
      rewrite G' in EP'. destruct (end_points_det _ _ _ _ _ _ _ _ EP EP') as (-> & ->).
      assert (M' : mats_of s' = mats_of s) by apply drained_mats.
      destruct Q as [(M & ->)|(sl & SO & Q)].
      { destruct Q' as [(_ & ->)|(sl' & SO' & _)]; [reflexivity|]. exfalso.
        assert (N : (2 <= v_slices v')%Z) by (rewrite (proj2 (proj2 (proj2 (proj2 RW)))); apply SL).
        apply (slices_mats v' cx cy r a b sl' N SO').
        destruct (view_sound s RS) as (v1 & Q1 & SV). assert (v1 = v) by congruence. subst v1.
        rewrite (proj1 (proj2 RW)). pose proof (so_mats_eq s v SV) as Z. rewrite M in Z.
        destruct (v_mats v); [reflexivity | discriminate]. }
      pose proof (slices_rewatered v v' cx cy r a b sl RW WN SO) as SO1.
      destruct Q' as [(M & _)|(sl' & SO' & Q')].
      { exfalso. rewrite M' in M.
        apply (slices_mats v cx cy r a b sl (proj2 SL) SO).
        destruct (view_sound s RS) as (v1 & Q1 & SV). assert (v1 = v) by congruence. subst v1.
        pose proof (so_mats_eq s v SV) as Z. rewrite M in Z.
        destruct (v_mats v); [reflexivity | discriminate]. }
      assert (sl' = map dried sl) by (eapply slices_det; eauto). subst sl'.
      rewrite dried_driving, dried_swedish, WI in Q'.
      destruct Q as [(D & ->)|(D & _ & ->)], Q' as [(D' & ->)|(D' & _ & ->)]; auto; lra.
  Qed.

  Lemma fos_loop_same v v' l : (forall p, In p l -> factor v' p = factor v p) ->
    fos_loop v' l = fos_loop v l.
  Proof.
    induction l as [|p l IH]; intros H; cbn [fos_loop]; auto.
    pose proof (H p (or_introl eq_refl)) as E. unfold factor in E. rewrite E.
    rewrite IH; auto. intros q I. apply H. now right.
  Qed.
  (** and the whole analysis gives the same answers with and without water *)
  Lemma cohesive_same_search m (s : stR) : reachable s -> cohesive s -> wet_ok s ->
    fst (analyse_slope m (step s RemoveWater)) = fst (analyse_slope m s) /\
    (fst (analyse_slope m s) = Ok tt ->
     s_search (snd (snd (analyse_slope m (step s RemoveWater)))) =
     s_search (snd (snd (analyse_slope m s)))).
  Proof.
    intros RS C W. destruct (view_sound s RS) as (v & EV & SV).
    destruct (drained_view s v EV) as (v' & EV' & RW & WN & EE).
    assert (FF : forall p, factor v' p = factor v p).
    { intros p. unfold factor. eapply cohesive_drained; eauto. }
    unfold analyse_slope, mbind, mret, mlift, self_get, mget. rewrite EV, EV'.
    replace (s_planes (snd (step s RemoveWater))) with (s_planes (snd s)) by (destruct s; reflexivity).
    destruct (s_planes (snd s)) as [|p0 ps0].
    - rewrite EE. destruct (entry_exit_planes v) as [ps|e]; [|split; [reflexivity | discriminate]].
      rewrite (fos_loop_same v v' ps) by auto.
      destruct (fos_loop v ps) as [[[]|e] done]; unfold self_upd, mupd; cbn;
        (split; [reflexivity|]); [reflexivity | discriminate].
    - rewrite (fos_loop_same v v' (p0 :: ps0)) by auto.
      destruct (fos_loop v (p0 :: ps0)) as [[[]|e] done]; unfold self_upd, mupd; cbn;
        (split; [reflexivity|]); [reflexivity | discriminate].
  Qed.
End Cohesive.
