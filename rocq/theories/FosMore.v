(** * FosMore: the factors of whole analyses (C35, C43, C44, C47). *)
From Coq Require Import ZArith Reals Lra Lia List Bool String Permutation Sorted.
From Verif Require Import Num Py Validation Utilities Objects Slope Planes Analysis
     Dynamic Api RealNum RealFacts ListFacts Spec CircleFacts PlaneFacts SoilFacts SliceFacts
     SearchFacts MatInv Invariant History EditFacts ViewFacts FosFacts.
Import ListNotations.
Local Open Scope R_scope.

(** Friction angles of the usual range have a tangent that is not negative. *)
Lemma tan_nonneg a : 0 <= a <= 90 -> 0 <= Rtan_py (a * (PI / 180)).
Proof.
  intros (A & B). destruct (Req_dec a 0) as [->|A0].
  { rewrite Rmult_0_l, Rtan_py_tan by (rewrite cos_0; lra). rewrite tan_0. lra. }
  destruct (Req_dec a 90) as [->|B0].
  { unfold Rtan_py. destruct (Req_EM_T _ 0) as [_|E]; [lra|]. exfalso. apply E.
    replace (90 * (PI / 180)) with (PI / 2) by field. apply cos_PI2. }
  destruct (Rtan_py_acute a ltac:(lra)) as (-> & H). lra.
Qed.

Lemma Forall2_In_r {A B} (P : A -> B -> Prop) l l' y : Forall2 P l l' -> In y l' ->
  exists x, In x l /\ P x y.
Proof.
  induction 1 as [|a b l l' Q _ IH]; [intros []|]. intros [ <- | I ].
  - exists a. split; [now left|auto].
  - destruct (IH I) as (x & J & K). exists x. split; [now right|auto].
Qed.

Section Analyses.
  Context {EN : Env}.
  Notation stR := (st R).

  (** ** C35 *)
  Lemma fos_loop_total v l : (forall p, In p l -> (exists f, factor v p = Ok f) \/ factor v p = Err NanProduced) ->
    fst (fos_loop v l) = Ok tt \/ fst (fos_loop v l) = Err NanProduced.
  Proof.
    induction l as [|p l IH]; intros H; cbn [fos_loop]; auto.
    destruct (H p (or_introl eq_refl)) as [(f & E)|E]; unfold factor in E; rewrite E; auto.
    destruct (fos_loop v l) as [r l'] eqn:EL. cbn [fst]. apply IH. intros q I. apply H. now right.
  Qed.

  Lemma analyse_total m (s : stR) : reachable s -> offsets_ok s -> s_planes (snd s) = [] ->
    (num_points_top_of (T := R) (s_iterations (snd s)) -
       Z.of_nat (List.length (lls_of s) + List.length (udls_of s)) <> 1)%Z ->
    (forall rl, s_water_RL (snd s) = Some rl -> rl <= g_ext_h (s_geom (snd s))) ->
    fst (analyse_slope m s) = Ok tt \/ fst (analyse_slope m s) = Err NanProduced.
  Proof.
    intros RS OF PL NL WF. destruct (view_sound s RS) as (v & EV & SV).
    destruct (search_states s v RS OF EV NL) as (ps & EP & _ & A).
    assert (F : fst (fos_loop v ps) = Ok tt \/ fst (fos_loop v ps) = Err NanProduced).
    { apply fos_loop_total. intros p I. destruct (A p I) as (_ & (_ & RP & _) & CX & CY).
      unfold factor. destruct (bishop v (p_cx p) (p_cy p) (p_radius p)) as [f|e] eqn:EB; eauto.
      right. destruct (bishop_err v (sound_good s v SV) _ _ _ _ EB) as [(_ & Q)|[(_ & Q)| ->]]; auto.
      - lra.
      - exfalso. apply Q. intros rl. rewrite (so_water s v SV), (so_geom s v SV). apply WF. }
    unfold analyse_slope, mbind, mret, mlift, self_get, mget.
    rewrite PL, EV, EP. cbn [fst snd]. destruct (fos_loop v ps) as [r done] eqn:EF. cbn [fst] in F.
    unfold self_upd, mupd. destruct F as [-> | ->]; cbn; auto.
  Qed.

  (** ** C44 *)
  Definition friction_90 (s : stR) : Prop :=
    forall m, In m (mats_of s) -> m_friction_angle m <= 90.
  Lemma factor_nonneg s v cx cy r f : sound s v ->
    (1 <= v_max_iterations v)%Z \/ friction_90 s ->
    bishop v cx cy r = Ok (Some f) -> 0 <= f.
  Proof.
    intros SV C E. pose proof (sound_good s v SV) as GV.
    destruct (bishop_some v GV cx cy r f E) as (_ & _ & RP & a & b & sl & EP & SO & D & j & J & I & _ & L).
    destruct j as [|j].
    2:{ inversion I; subst. eapply next_nonneg; eauto. }
    inversion I; subst. destruct C as [C|C].
    { destruct L as (i & F1 & Q & _); [lia|discriminate]. }
    apply Rmult_le_pos; [|left; now apply Rinv_0_lt_compat].
    unfold resisting. apply rsum_nonneg. intros x IX. apply in_map_iff in IX as (sx & <- & IX).
    unfold slices_ok in SO. destruct (Forall2_In_r _ _ _ _ SO IX) as (i & _ & S1).
    destruct S1 as [_ _ _ DP EC _ _ (m & LM & -> & ->) _].
    destruct (layer_at_In _ _ _ LM) as (rl & IM).
    destruct (so_mats s v SV rl m IM) as (MO & TO & _).
    assert (FR : m_friction_angle m <= 90).
    { apply C. rewrite <- (so_mats_eq s v SV). apply in_map_iff. now exists (rl, m). }
    assert (0 < sl_cos sx). { rewrite EC. apply Rdiv_lt_0_compat; auto. }
    assert (0 < width v a b).
    { apply end_points_ok in EP as (_ & _ & _ & _ & LL); [|apply GV]. unfold width.
      apply Rdiv_lt_0_compat; [lra|]. apply IZR_lt. pose proof (gv_slices v GV). lia. }
    apply Rplus_le_le_0_compat; apply Rmult_le_pos.
    - apply MO.
    - left. apply Rdiv_lt_0_compat; auto.
    - apply Rmax_l.
    - red in TO. rewrite TO. unfold nradians. unR.
      apply tan_nonneg. split; auto. apply MO.
  Qed.

  Lemma factors_nonneg m (s s' : stR) p f : reachable s ->
    (1 <= s_max_iterations (snd s))%Z \/ friction_90 s ->
    analyse_slope m s = (Ok tt, s') -> In p (s_search (snd s')) -> p_fos p = Some (Some f) -> 0 <= f.
  Proof.
    intros RS C E I F. destruct (search_spec m s s' E) as (v & cs & EV & _ & _ & P & _).
    destruct (view_sound s RS) as (v' & EV' & SV). assert (v' = v) by congruence. subst v'.
    apply P in I as (c & g & _ & (_ & _ & _ & F' & FA) & _).
    assert (g = f) by congruence. subst g.
    eapply factor_nonneg; eauto. now rewrite (so_max s v SV).
  Qed.

  (** ** C47 *)
  Definition strengthless (v : view R) : Prop :=
    forall rl m, In (rl, m) (v_mats v) -> m_cohesion m = 0 /\ m_tan_phi m = 0.
  Lemma strengthless_slices v cx cy r a b sl : strengthless v -> slices_ok v cx cy r a b sl ->
    forall s, In s sl -> sl_c s = 0 /\ sl_tan s = 0.
  Proof.
    intros ST SO s I. unfold slices_ok in SO. destruct (Forall2_In_r _ _ _ _ SO I) as (i & _ & S1).
    destruct S1 as [_ _ _ _ _ _ _ (m & LM & -> & ->) _].
    destruct (layer_at_In _ _ _ LM) as (rl & IM). eauto.
  Qed.
  Lemma strengthless_fos v cx cy r a b sl : good_view v -> strengthless v ->
    slices_ok v cx cy r a b sl -> 0 < driving sl ->
    fos_of v a b sl = if (v_max_iterations v <=? 0)%Z then Ok (Some 0) else Err NanProduced.
  Proof.
    intros GV ST SO D. pose proof (strengthless_slices _ _ _ _ _ _ _ ST SO) as Z.
    assert (Q : resisting (width v a b) sl = 0).
    { unfold resisting. rewrite <- (rsum_zero sl). f_equal. apply map_ext_in. intros s I.
      destruct (Z s I) as (-> & ->). ring. }
    unfold fos_of. rewrite Q. unfold Rdiv. rewrite Rmult_0_l.
    destruct (v_max_iterations v <=? 0)%Z eqn:EM; rbool.
    - replace (Z.to_nat (v_max_iterations v)) with 0%nat; [reflexivity|].
      apply Z.leb_le in EM. lia.
    - apply Z.leb_gt in EM. destruct (Z.to_nat (v_max_iterations v)) as [|k] eqn:EK; [lia|].
      cbn [bishop_loop]. unfold bishop_step. unR. rewrite Reqb_refl.
      rewrite (proj2 (existsb_exists _ _)); [reflexivity|].
      destruct sl as [|s0 sl]; [unfold driving in D; cbn in D; lra|].
      exists s0. split; [now left|]. destruct (Z s0 (or_introl eq_refl)) as (_ & ->).
      apply Reqb_true. ring.
  Qed.
  Lemma strengthless_factor v cx cy r a b sl : good_view v -> strengthless v ->
    0 <= cx -> 0 <= cy -> 0 <= r -> water_fits v ->
    end_points (v_geom v) cx cy r a b -> slices_ok v cx cy r a b sl -> 0 < driving sl ->
    bishop v cx cy r = if (v_max_iterations v <=? 0)%Z then Ok (Some 0) else Err NanProduced.
  Proof.
    intros GV ST D1 D2 D3 W EP SO DR.
    destruct (water_total v (gv_geom v GV) W) as (o & WD).
    destruct (bishop_at v GV cx cy r o D1 D2 D3 WD) as
      [(l & C & L & _)|(a' & b' & EP' & [(M & _)|(sl' & SO' & [(DR' & _)|(_ & Q)])])].
    - exfalso. eapply end_points_two; eauto.
    - exfalso. apply (slices_mats _ _ _ _ _ _ _ (gv_slices v GV) SO M).
    - destruct (end_points_det _ _ _ _ _ _ _ _ EP EP') as (-> & ->).
      rewrite (slices_det _ _ _ _ _ _ _ _ SO SO') in DR. lra.
    - destruct (end_points_det _ _ _ _ _ _ _ _ EP EP') as (-> & ->).
      rewrite Q, <- (slices_det _ _ _ _ _ _ _ _ SO SO'). eapply strengthless_fos; eauto.
  Qed.
End Analyses.
