(** * LinearFacts: soils without friction and other cohesions (pyslope.py:1232-1259, 1710-1731).
    Multiplying the cohesions of a frictionless slope by one number multiplies
    every factor by it, in the same order of circles. *)
From Coq Require Import ZArith Reals Lra Lia List Bool String Permutation Sorted.
From Verif Require Import Num Py Validation Utilities Objects Slope Planes Analysis
     Dynamic Api RealNum RealFacts ListFacts Spec CircleFacts PlaneFacts SoilFacts SliceFacts
     SearchFacts MatInv Invariant History EditFacts ViewFacts FosFacts GridFacts FosMore
     StrengthFacts FosTotal WetFacts CohesiveFacts.
Import ListNotations.
Local Open Scope R_scope.

(** the factor of a circle times [t] *)
Definition times_fos (t : R) (p : plane R) : plane R :=
  set_fos (match p_fos p with Some (Some f) => Some (t * f) | _ => None end) p.
Definition times_res (t : R) (o : res (option R)) : res (option R) :=
  match o with Ok (Some f) => Ok (Some (t * f)) | o => o end.

Section Linear.
  Context {EN : Env} (t : R) (T0 : 0 < t).
  Notation stR := (st R).

  (** the same slope with [t] times the cohesion; the water may differ *)
  Definition times_cohesion (m m' : material R) : Prop :=
    m_unit_weight m' = m_unit_weight m /\ m_RL m' = m_RL m /\
    m_friction_angle m' = m_friction_angle m /\ m_cohesion m' = t * m_cohesion m.
  Record recohered (s s' : stR) : Prop := {
    rc_geom : s_geom (snd s') = s_geom (snd s);
    rc_udls : udls_of s' = udls_of s;
    rc_lls : lls_of s' = lls_of s;
    rc_limits : s_limits (snd s') = s_limits (snd s);
    rc_slices : s_slices (snd s') = s_slices (snd s);
    rc_iterations : s_iterations (snd s') = s_iterations (snd s);
    rc_failure : s_min_failure (snd s') = s_min_failure (snd s);
    rc_planes : s_planes (snd s') = s_planes (snd s);
    rc_mats : Forall2 times_cohesion (mats_of s) (mats_of s');
  }.

  Definition layer_times (l l' : R * material R) : Prop :=
    fst l' = fst l /\ m_unit_weight (snd l') = m_unit_weight (snd l) /\
    m_cohesion (snd l') = t * m_cohesion (snd l).
  Record view_times (v v' : view R) : Prop := {
    vt_geom : v_geom v' = v_geom v;
    vt_udls : v_udls v' = v_udls v;
    vt_lls : v_lls v' = v_lls v;
    vt_limits : v_limits v' = v_limits v;
    vt_slices : v_slices v' = v_slices v;
    vt_iterations : v_iterations v' = v_iterations v;
    vt_failure : v_min_failure v' = v_min_failure v;
    vt_mats : Forall2 layer_times (v_mats v) (v_mats v');
  }.
  Lemma recohered_view s s' v v' : reachable s -> reachable s' -> recohered s s' ->
    view_of s = Ok v -> view_of s' = Ok v' -> view_times v v'.
  Proof.
    intros RS RS' [G U L LI SL IT MF PL M] E E'.
    destruct (view_sound s RS) as (v0 & E0 & SV). assert (v0 = v) by congruence. subst v0.
    destruct (view_sound s' RS') as (v0 & E1 & SV'). assert (v0 = v') by congruence. subst v0.
    assert (Q : v_udls v' = v_udls v /\ v_lls v' = v_lls v).
    { unfold view_of in E, E'. rewrite U, L in E'.
      destruct (rmapM _ (mats_of s)); [|discriminate]. destruct (rmapM _ (mats_of s')); [|discriminate].
      cbn [rbind] in E, E'. destruct (rmapM _ (udls_of s)) as [us|]; [|discriminate]. cbn [rbind] in E, E'.
      destruct (rmapM _ (lls_of s)); [|discriminate]. cbn [rbind] in E, E'.
      injection E as <-. injection E' as <-. split; reflexivity. }
    destruct Q as (QU & QL). constructor; auto.
    - now rewrite (so_geom _ _ SV'), (so_geom _ _ SV).
    - now rewrite (so_lim_eq _ _ SV'), (so_lim_eq _ _ SV).
    - now rewrite (so_slices _ _ SV'), (so_slices _ _ SV).
    - now rewrite (so_iter_eq _ _ SV'), (so_iter_eq _ _ SV).
    - now rewrite (so_fail _ _ SV'), (so_fail _ _ SV).
    - rewrite <- (so_mats_eq _ _ SV), <- (so_mats_eq _ _ SV') in M. apply Forall2_map2 in M.
      eapply Forall2_in; [|exact M]. intros [rl m] [rl' m'] I I' (T1 & T2 & T3 & T4). cbn [snd] in *.
      destruct (so_mats _ _ SV rl m I) as (_ & _ & _ & R1).
      destruct (so_mats _ _ SV' rl' m' I') as (_ & _ & _ & R1').
      split; [cbn; congruence|]. split; auto.
  Qed.

  Definition slice_times (a b : slice R) : Prop :=
    sl_W b = sl_W a /\ sl_sin b = sl_sin a /\ sl_cos b = sl_cos a /\ sl_c b = t * sl_c a.
  Lemma slice_linear v v' cx cy r xl w i a b : view_times v v' ->
    slice_ok v cx cy r xl w i a -> slice_ok v' cx cy r xl w i b -> slice_times a b.
  Proof.
    intros [HG HU HL _ _ _ _ HM]
           [X YB YT D C SI (W & SW & EW) (m & LM & EC & ET) U]
           [X' YB' YT' D' C' SI' (W' & SW' & EW') (m' & LM' & EC' & ET') U'].
    rewrite HG in *. rewrite HU, HL in *.
    assert (EB : sl_yb b = sl_yb a) by congruence.
    assert (EY : sl_yt b = sl_yt a) by congruence.
    rewrite EB, EY in *.
    assert (AT : forall y k, layer_at (v_mats v') y k -> exists k0, layer_at (v_mats v) y k0 /\
                   m_unit_weight k = m_unit_weight k0 /\ m_cohesion k = t * m_cohesion k0).
    { intros y k LK. assert (FQ : forall l l', layer_times l l' -> fst l' = fst l) by (intros l l' Q; apply Q).
      destruct (layer_at_rel layer_times _ _ y k FQ HM LK) as (rl & k0 & A & B).
      exists k0. split; auto. apply B. }
    destruct (AT _ _ LM') as (m0 & LM0 & _ & Q2).
    pose proof (layer_at_unique _ _ _ _ LM0 LM) as ->.
    destruct (layer_at_In _ _ _ LM) as (rl & IM).
    assert (W' = W).
    { apply (soil_weight_det (v_mats v) w (sl_yb a) (sl_yt a)); auto.
      - intros E. rewrite E in IM. destruct IM.
      - rewrite YT. apply Rmax_r.
      - destruct SW as (uw & pr & UW & ->). destruct SW' as (uw' & pr' & UW' & ->).
        exists uw, pr. split; auto. f_equal. apply RiemannInt_P18; [rewrite YT; apply Rmax_r|].
        intros y _. destruct (layer_at_exists (v_mats v') y) as (k & LK).
        { intros E. rewrite E in LM'. destruct LM' as (ab & ? & be & Q & _). now destruct ab. }
        destruct (AT _ _ LK) as (k0 & LK0 & EK & _).
        rewrite (UW' y k LK), (UW y k0 LK0). auto. }
    subst W'. split; [congruence|]. split; [congruence|]. split; [congruence|].
    rewrite EC, EC'. exact Q2.
  Qed.
  Lemma slices_linear v v' cx cy r a b sl sl' : view_times v v' ->
    slices_ok v cx cy r a b sl -> slices_ok v' cx cy r a b sl' -> Forall2 slice_times sl sl'.
  Proof.
    intros VT A B. unfold slices_ok, width in *. rewrite (vt_slices v v' VT) in B. revert sl' B.
    induction A as [|i s l sl A1 A IH]; intros sl' B; inversion B; subst; constructor; auto.
    eapply slice_linear; eauto.
  Qed.
  Lemma driving_linear sl sl' : Forall2 slice_times sl sl' -> driving sl' = driving sl.
  Proof.
    unfold driving. induction 1 as [|a b l l' (E1 & E2 & _) _ IH]; cbn [map rsum]; [reflexivity|].
    now rewrite IH, E1, E2.
  Qed.
  Lemma swedish_linear w sl sl' : Forall2 slice_times sl sl' -> swedish w sl' = t * swedish w sl.
  Proof.
    intros F. unfold swedish. rewrite (driving_linear sl sl' F). unfold Rdiv. rewrite <- Rmult_assoc.
    f_equal. induction F as [|a b l l' (_ & _ & E3 & E4) _ IH]; cbn [map rsum]; [ring|].
    rewrite IH, E3, E4. ring.
  Qed.

  (** ** Every circle *)
  Lemma cohesion_factor s s' v v' cx cy r : reachable s -> reachable s' -> recohered s s' ->
    cohesive s -> wet_ok s -> wet_ok s' -> view_of s = Ok v -> view_of s' = Ok v' ->
    bishop v' cx cy r = times_res t (bishop v cx cy r).
  Proof.
    intros RS RS' RC C W W' EV EV'.
    pose proof (recohered_view s s' v v' RS RS' RC EV EV') as VT.
    destruct (view_sound s RS) as (v0 & E0 & SV). assert (v0 = v) by congruence. subst v0.
    destruct (view_sound s' RS') as (v0 & E1 & SV'). assert (v0 = v') by congruence. subst v0.
    assert (D : (cx < 0 \/ cy < 0 \/ r < 0) \/ (0 <= cx /\ 0 <= cy /\ 0 <= r)).
    { destruct (Rlt_le_dec cx 0); auto. destruct (Rlt_le_dec cy 0); auto.
      destruct (Rlt_le_dec r 0); auto. }
    destruct D as [D|(D1 & D2 & D3)].
    { unfold bishop. rewrite (vt_geom _ _ VT). destruct (circle_external _ _ _ _) as [l|]; [|reflexivity].
      cbn [rbind]. destruct (first_two l) as [[a b]|]; [|reflexivity].
      unfold ordinary. rewrite !assert_pos.
      destruct (Rltb cx 0) eqn:X1; rbool; cbn [rbind]; [reflexivity|].
      destruct (Rltb cy 0) eqn:X2; rbool; cbn [rbind]; [reflexivity|].
      destruct (Rltb r 0) eqn:X3; rbool; cbn [rbind]; [reflexivity|]. lra. }
    assert (C' : cohesive s').
    { intros m' I. destruct (Forall2_In_r _ _ _ _ (rc_mats s s' RC) I) as (m & IM & _ & _ & Q1 & Q2).
      destruct (C m IM) as (A & B). split; [congruence|]. rewrite Q2. now apply Rmult_lt_0_compat. }
    pose proof (rc_geom _ _ RC) as G'.
    assert (SL : (2 <= v_slices v)%Z) by (pose proof (so_slices_b _ _ SV); lia).
    assert (SL' : (2 <= v_slices v')%Z) by (pose proof (so_slices_b _ _ SV'); lia).
    assert (WI : forall a b, width v' a b = width v a b).
    { intros a b. unfold width. now rewrite (vt_slices _ _ VT). }
    destruct (cohesive_factor s v cx cy r RS EV C W D1 D2 D3) as
      [(l & CR & LL & ->)|(a & b & EP & Q)].
    - destruct (cohesive_factor s' v' cx cy r RS' EV' C' W' D1 D2 D3) as
        [(l' & _ & _ & ->)|(a & b & EP & _)]; [reflexivity|].
      rewrite G' in EP. exfalso. eapply end_points_two; eauto.
    - destruct (cohesive_factor s' v' cx cy r RS' EV' C' W' D1 D2 D3) as
        [(l' & CR & LL & _)|(a' & b' & EP' & Q')].
      { rewrite G' in CR. exfalso. eapply end_points_two; eauto. }
      rewrite G' in EP'. destruct (end_points_det _ _ _ _ _ _ _ _ EP EP') as (-> & ->).
      destruct Q as [(M & ->)|(sl & SO & Q)].
      { destruct Q' as [(_ & ->)|(sl' & SO' & _)]; [reflexivity|]. exfalso.
        apply (slices_mats v' cx cy r a b sl' SL' SO').
        pose proof (vt_mats _ _ VT) as F. pose proof (so_mats_eq s v SV) as Z. rewrite M in Z.
        destruct (v_mats v); [now inversion F | discriminate]. }
      destruct Q' as [(M & _)|(sl' & SO' & Q')].
      { exfalso. apply (slices_mats v cx cy r a b sl SL SO).
        pose proof (vt_mats _ _ VT) as F. pose proof (so_mats_eq s' v' SV') as Z. rewrite M in Z.
        destruct (v_mats v'); [now inversion F | discriminate]. }
      pose proof (slices_linear v v' cx cy r a b sl sl' VT SO SO') as F.
      rewrite (driving_linear _ _ F), (swedish_linear _ _ _ F), WI in Q'.
      destruct Q as [(D & ->)|(D & _ & ->)], Q' as [(D' & ->)|(D' & _ & ->)]; auto; lra.
  Qed.

  (** ** The whole analysis *)
  Lemma fos_loop_linear v v' l : (forall p, In p l -> factor v' p = times_res t (factor v p)) ->
    fst (fos_loop v' l) = fst (fos_loop v l) /\
    (fst (fos_loop v l) = Ok tt -> snd (fos_loop v' l) = map (times_fos t) (snd (fos_loop v l))).
  Proof.
    induction l as [|p l IH]; intros Q; cbn [fos_loop]; [split; auto|].
    pose proof (Q p (or_introl eq_refl)) as E. unfold factor in E. rewrite E.
    destruct IH as (I1 & I2); [intros q I; apply Q; now right|].
    destruct (bishop v _ _ _) as [[f|]|e]; cbn [times_res].
    - destruct (fos_loop v l) as [r1 d1], (fos_loop v' l) as [r2 d2]. cbn [fst snd] in *.
      split; auto. intros O. cbn [map]. rewrite I2 by auto. reflexivity.
    - destruct (fos_loop v l) as [r1 d1], (fos_loop v' l) as [r2 d2]. cbn [fst snd] in *.
      split; auto. intros O. cbn [map]. rewrite I2 by auto. reflexivity.
    - split; [reflexivity | discriminate].
  Qed.
  Lemma planes_linear v v' : view_times v v' -> entry_exit_planes v' = entry_exit_planes v.
  Proof.
    intros [E1 E2 E3 E4 _ E5 E6 _]. unfold entry_exit_planes, left_coords, right_coords.
    now rewrite E1, E2, E3, E4, E5, E6.
  Qed.
  Lemma filter_linear l : filter has_fos (map (times_fos t) l) = map (times_fos t) (filter has_fos l).
  Proof.
    induction l as [|p l IH]; cbn [map filter]; auto.
    assert (E : has_fos (times_fos t p) = has_fos p).
    { unfold has_fos, times_fos. cbn [set_fos p_fos]. now destruct (p_fos p) as [[f|]|]. }
    rewrite E, IH. now destruct (has_fos p).
  Qed.
  Lemma val_linear p : fos_val (times_fos t p) = t * fos_val p.
  Proof. unfold fos_val, times_fos. cbn [set_fos p_fos]. destruct (p_fos p) as [[f|]|]; unR; ring. Qed.
  Lemma times_ltb a b : Rltb (t * a) (t * b) = Rltb a b.
  Proof.
    destruct (Rltb a b) eqn:E; rbool.
    - apply Rltb_true. now apply Rmult_lt_compat_l.
    - apply Rltb_false. apply Rmult_le_compat_l; lra.
  Qed.
  Lemma times_leb a b : Rleb (t * a) (t * b) = Rleb a b.
  Proof.
    destruct (Rleb a b) eqn:E; rbool.
    - apply Rleb_true. apply Rmult_le_compat_l; lra.
    - apply Rleb_false. now apply Rmult_lt_compat_l.
  Qed.
  Lemma insert_linear p l :
    insert (fun a b => nltb (fos_val a) (fos_val b)) (times_fos t p) (map (times_fos t) l) =
    map (times_fos t) (insert (fun a b => nltb (fos_val a) (fos_val b)) p l).
  Proof.
    induction l as [|q l IH]; cbn [map insert]; auto. rewrite IH, !val_linear.
    unR. rewrite times_ltb. destruct (Rltb _ _); reflexivity.
  Qed.
  Lemma sort_linear l :
    sort_by fos_val (map (times_fos t) l) = map (times_fos t) (sort_by fos_val l).
  Proof.
    unfold sort_by. induction l as [|p l IH]; cbn [map sort]; auto. now rewrite IH, insert_linear.
  Qed.
  (** a limit on the factors shown, [t] times larger as well *)
  Lemma tidy_linear m l :
    tidy (option_map (Rmult t) m) (map (times_fos t) l) = map (times_fos t) (tidy m l).
  Proof.
    unfold tidy. cbv zeta. rewrite filter_linear, sort_linear. destruct m as [m|]; cbn [option_map]; auto.
    unR. assert (Z : Reqb (t * m) 0 = Reqb m 0).
    { destruct (Reqb m 0) eqn:E; rbool.
      - subst m. rewrite Rmult_0_r. apply Reqb_refl.
      - apply Reqb_false. intros Q. apply Rmult_integral in Q. lra. }
    rewrite Z. destruct (Reqb m 0); auto.
    induction (sort_by fos_val (filter has_fos l)) as [|p q IH]; cbn [map filter]; auto.
    rewrite val_linear, times_leb, IH. destruct (Rleb _ m); reflexivity.
  Qed.
  Lemma cohesion_search m (s s' : stR) : reachable s -> reachable s' -> recohered s s' ->
    cohesive s -> wet_ok s -> wet_ok s' ->
    fst (analyse_slope (option_map (Rmult t) m) s') = fst (analyse_slope m s) /\
    (fst (analyse_slope m s) = Ok tt ->
     s_search (snd (snd (analyse_slope (option_map (Rmult t) m) s'))) =
     map (times_fos t) (s_search (snd (snd (analyse_slope m s))))).
  Proof.
    intros RS RS' RC C W W'. destruct (view_sound s RS) as (v & EV & SV).
    destruct (view_sound s' RS') as (v' & EV' & SV').
    pose proof (recohered_view s s' v v' RS RS' RC EV EV') as VT.
    assert (FF : forall p, factor v' p = times_res t (factor v p)).
    { intros p. unfold factor. exact (cohesion_factor s s' v v' _ _ _ RS RS' RC C W W' EV EV'). }
    unfold analyse_slope, mbind, mret, mlift, self_get, mget. rewrite EV, EV', (rc_planes _ _ RC).
    destruct (s_planes (snd s)) as [|p0 ps0].
    - rewrite (planes_linear v v' VT). destruct (entry_exit_planes v) as [ps|e]; [|split; [reflexivity | discriminate]].
      destruct (fos_loop_linear v v' ps (fun p _ => FF p)) as (Q1 & Q2).
      destruct (fos_loop v ps) as [[[]|e] done], (fos_loop v' ps) as [r' done'];
        cbn [fst snd] in Q1, Q2; subst r'; unfold self_upd, mupd; cbn;
        (split; [reflexivity|]); [|discriminate].
      intros _. rewrite Q2 by auto. apply tidy_linear.
    - destruct (fos_loop_linear v v' (p0 :: ps0) (fun p _ => FF p)) as (Q1 & Q2).
      destruct (fos_loop v (p0 :: ps0)) as [[[]|e] done], (fos_loop v' (p0 :: ps0)) as [r' done'];
        cbn [fst snd] in Q1, Q2; subst r'; unfold self_upd, mupd; cbn;
        (split; [reflexivity|]); [|discriminate].
      intros _. rewrite Q2 by auto. apply tidy_linear.
  Qed.
  (** the smallest factor and its circle *)
  Lemma cohesion_min (s s' : stR) s1 s1' f : reachable s -> reachable s' -> recohered s s' ->
    cohesive s -> wet_ok s -> wet_ok s' ->
    analyse_slope None s = (Ok tt, s1) -> analyse_slope None s' = (Ok tt, s1') ->
    get_min_FOS (snd s1) = Ok (Some f) ->
    get_min_FOS (snd s1') = Ok (Some (t * f)) /\
    get_min_FOS_circle (snd s1') = get_min_FOS_circle (snd s1).
  Proof.
    intros RS RS' RC C W W' A A' G.
    destruct (cohesion_search None s s' RS RS' RC C W W') as (_ & Q). cbn [option_map] in Q.
    rewrite A, A' in Q. cbn [fst snd] in Q. specialize (Q eq_refl).
    unfold get_min_FOS, get_min_FOS_circle in *. rewrite Q.
    destruct (s_search (snd s1)) as [|p l]; [discriminate|]. cbn [map].
    unfold times_fos. cbn [set_fos p_fos p_cx p_cy p_radius].
    destruct (p_fos p) as [[g|]|]; try discriminate. injection G as ->. split; reflexivity.
  Qed.
End Linear.
