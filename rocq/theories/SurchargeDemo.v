(** * SurchargeDemo: a slope that a strip load makes safer (C95).
    The demo ground; 0.3 m of sand at 45 degrees over a soil of 0.01 kPa, both 18 kN/m3;
    the circle through (6, 10) and (12, 7); 20 kPa on the crest between 6 and 6.2. *)
From Coq Require Import ZArith Reals Lra Lia List Bool String.
From Verif Require Import Num Py Validation Utilities Objects Slope Planes Analysis
     Dynamic Api RealNum RealFacts MonadFacts ListFacts SlopeFacts MaterialFacts LoadFacts LayerFacts Invariant MatInv
     EditFacts History Spec Demo DemoCircle CircleFacts PlaneFacts SoilFacts
     SliceFacts SearchFacts ViewFacts FosFacts FosMore StrengthFacts ScaleFacts FosTotal WetFacts FosCode
     CohesiveFacts Surcharge SurchargeCode.
Import ListNotations.
Local Open Scope R_scope.

Section Veneer.
  Context {EN : Env}.
  Notation stR := (st R).

  Definition sand45 : material R :=
    MkMaterial 18 45 0 (3 / 10) "sand" "" "" (Rtan_py (45 * (PI / 180))) None.
  Definition mud : material R :=
    MkMaterial 18 0 (1 / 100) 5 "mud" "" "" (Rtan_py (0 * (PI / 180))) None.
  Definition strip0 : udl R :=
    MkUdl 20 (9 / 5) (Some (1 / 5)) (if is_color "red"%string then "red"%string else "red"%string) false None None.
  Definition veneer_ops : list (op R) :=
    [ NewMaterial (PFloat 18) (PFloat 45) (PFloat 0) (PFloat (3 / 10)) (PStr "sand") PNone;
      NewMaterial (PFloat 18) (PFloat 0) (PFloat (1 / 100)) (PFloat 5) (PStr "mud") PNone;
      NewUdl (PFloat 20) (PFloat (9 / 5)) (PFloat (1 / 5)) "red" false;
      SetMaterials [RefMaterial 0; RefMaterial 1] ].
  Definition veneer1 : stR := (MkHeap [sand45; mud] [strip0] [], snd demo0).
  Definition veneer : stR :=
    (MkHeap [assigned 10 0 sand45; assigned 10 1 mud] [strip0] [], demo_sl [0%nat; 1%nat] [] [] UmUnset None None).
  Definition loaded : stR :=
    (MkHeap [assigned 10 0 sand45; assigned 10 1 mud] [udl_coords 8 strip0] [],
     demo_sl [0%nat; 1%nat] [0%nat] [] (UmNum 20) None None).

  Lemma veneer_acc : accepted demo0 veneer_ops veneer.
  Proof.
    assert (M1 : new_material (PFloat 18) (PFloat 45) (PFloat 0) (PFloat (3 / 10)) (PStr "sand") PNone = Ok sand45).
    { apply (proj2 (material_spec _ _ _ _ _ _ _ _)).
      exists 18, 45, 0, (3 / 10), "sand"%string, ""%string. unfold sand45. rnum. unfold plain_denotes.
      cbn [denotes plain_number is_text]. ands; auto; lra. }
    assert (M2 : new_material (PFloat 18) (PFloat 0) (PFloat (1 / 100)) (PFloat 5) (PStr "mud") PNone = Ok mud).
    { apply (proj2 (material_spec _ _ _ _ _ _ _ _)).
      exists 18, 0, (1 / 100), 5, "mud"%string, ""%string. unfold mud. rnum. unfold plain_denotes.
      cbn [denotes plain_number is_text]. ands; auto; lra. }
    assert (L1 : new_udl (PFloat 20) (PFloat (9 / 5)) (PFloat (1 / 5)) "red" false = Ok strip0).
    { apply udl_spec. exists 20, (9 / 5), (Some (1 / 5)). split; [split; cbn; auto|]. split; [split; cbn; auto|].
      split.
      - right. exists (1 / 5). split; [split; cbn; auto|]. split; [lra|]. now rnum.
      - unfold strip0. now rnum. }
    assert (A1 : accepted demo0 (firstn 3 veneer_ops) veneer1).
    { cbn [firstn veneer_ops].
      econstructor; [cbn [exec]; unfold alloc; rewrite M1; reflexivity|].
      econstructor; [cbn [exec]; unfold alloc; rewrite M2; reflexivity|].
      econstructor; [cbn [exec]; unfold alloc; rewrite L1; reflexivity|].
      constructor. }
    assert (R1 : reachable veneer1) by (eapply accepted_reachable; [apply demo0_reachable|exact A1]).
    change veneer_ops with (firstn 3 veneer_ops ++ skipn 3 veneer_ops).
    eapply accepted_app; [exact A1|]. cbn [skipn veneer_ops]. econstructor; [|constructor].
    destruct (reachable_inv _ R1) as (C & _ & _).
    cbn [exec]. rewrite with_refs_intro by (repeat constructor).
    rewrite set_materials_eff by exact C. cbn [material_locs rbind].
    unfold sorted_locs, sort_by. cbn. unR. rnum. cbn. unR. rnum. cbn.
    unfold deepened. cbn. rnum. unfold layered, veneer. cbn. reflexivity.
  Qed.
  Lemma veneer_reachable : reachable veneer.
  Proof. eapply accepted_reachable; [apply demo0_reachable|apply veneer_acc]. Qed.
  Lemma loaded_exec : exec (SetUdls [RefUdl 0]) veneer = (Ok tt, loaded).
  Proof.
    cbn [exec]. rewrite with_refs_intro by (repeat constructor).
    assert (E1 : set_udl_one (RefUdl 0) veneer =
      (Ok tt, (fst veneer, demo_sl [0%nat; 1%nat] [0%nat] [] UmUnset None None))).
    { cbn [set_udl_one]. erewrite bind_ok; [|reflexivity]. cbn. unR. rnum. cbn [mwhen].
      msteps. unfold udl_min_length. cbn. unR. rnum. reflexivity. }
    unfold set_udls. cbn [mforM]. rewrite bind_assoc. erewrite bind_ok by exact E1.
    rewrite bind_ret. erewrite bind_ok by apply update_udl_coordinates_eff.
    rewrite bind_get. cbn. msteps. reflexivity.
  Qed.
  Lemma loaded_reachable : reachable loaded.
  Proof.
    eapply accepted_reachable; [apply veneer_reachable|]. econstructor; [apply loaded_exec|constructor].
  Qed.
  Lemma veneer_surcharged : surcharged veneer loaded [(20, 9 / 5, Some (1 / 5))] [].
  Proof. constructor; try reflexivity. split; reflexivity. Qed.
  Lemma veneer_strength : some_strength veneer.
  Proof. intros m I. cbn in I. destruct I as [ <- | [ <- | [] ] ]; cbn; lra. Qed.
  Lemma veneer_heavy : heavy veneer.
  Proof. intros m I. cbn in I. destruct I as [ <- | [ <- | [] ] ]; cbn; lra. Qed.
  Lemma veneer_wet : wet_ok veneer.
  Proof. intros rl Q. discriminate. Qed.

  (** ** The slices of the circle *)
  Definition pocket (k : R) (s0 : slice R) (rest : list (slice R)) : Prop :=
    (sl_tan s0 = 1 /\ sl_c s0 = 0 /\ sl_u s0 = 0) /\ Forall (fun t => sl_tan t = 0 /\ sl_u t = 0 /\ sl_c t = k) rest.
  Definition held (k w : R) (l : list (slice R)) : R := rsum (map (fun t => k * base_len w t) l).
  Lemma pocket_ordinary k w s0 rest : pocket k s0 rest -> 0 <= sl_W s0 * sl_cos s0 ->
    resisting w (s0 :: rest) = sl_W s0 * sl_cos s0 + held k w rest.
  Proof.
    intros ((T & C & U) & F) P. unfold resisting. cbn [map rsum]. rewrite T, C, U. rewrite Rmax_right by lra.
    assert (Q : rsum (map (fun s => sl_c s * base_len w s +
                      Rmax 0 (sl_W s * sl_cos s - sl_u s * base_len w s) * sl_tan s) rest) = held k w rest).
    { unfold held. induction F as [|t l (A & B & D) F IH]; [reflexivity|]. cbn [map rsum]. rewrite IH, A, D. ring. }
    rewrite Q. ring.
  Qed.
  Lemma pocket_bishop k w f s0 rest : pocket k s0 rest -> (forall t, In t rest -> 0 < sl_cos t) ->
    bishop_resisting w f (s0 :: rest) = sl_W s0 / (sl_cos s0 + sl_sin s0 / f) + held k w rest.
  Proof.
    intros ((T & C & U) & F) P. unfold bishop_resisting. cbn [map rsum]. unfold m_alpha at 1. rewrite T, C, U. f_equal.
    - replace (0 * w + (sl_W s0 - 0 * w) * 1) with (sl_W s0) by ring. replace (sl_sin s0 * 1 / f) with (sl_sin s0 / f); auto.
      unfold Rdiv. ring.
    - unfold held. induction F as [|t l (A & B & D) F IH]; [reflexivity|]. cbn [map rsum].
      rewrite IH by (intros; apply P; now right). f_equal. unfold m_alpha, base_len. rewrite A, B, D.
      pose proof (P t (or_introl eq_refl)). replace (sl_cos t + sl_sin t * 0 / f) with (sl_cos t) by (unfold Rdiv; ring).
      field. lra.
  Qed.
  Lemma pocket_flat k w f s0 rest : pocket k s0 rest -> (forall t, In t rest -> 0 < sl_cos t) ->
    0 < sl_cos s0 -> 0 < sl_sin s0 -> sl_sin s0 * sl_sin s0 + sl_cos s0 * sl_cos s0 = 1 -> 0 < sl_W s0 -> 0 < f ->
    held k w rest * sl_sin s0 < sl_cos s0 * driving rest ->
    0 < driving rest -> 0 < driving (s0 :: rest) ->
    f = resisting w (s0 :: rest) / driving (s0 :: rest) \/ f = bishop_resisting w f (s0 :: rest) / driving (s0 :: rest) ->
    f * sl_sin s0 < sl_tan s0 * sl_cos s0.
  Proof.
    intros PK P C S UN W FP K D0 D Q. pose proof PK as ((T & _) & _). rewrite T, Rmult_1_l.
    destruct (Rlt_le_dec (f * sl_sin s0) (sl_cos s0)) as [|N]; auto. exfalso.
    assert (ED : driving (s0 :: rest) = sl_W s0 * sl_sin s0 + driving rest) by reflexivity.
    set (d := driving rest) in *. set (h := held k w rest) in *.
    assert (UP : f * (sl_W s0 * sl_sin s0 + d) <= f * (sl_W s0 * sl_sin s0) + h).
    { destruct Q as [Q|Q].
      - assert (E : f * driving (s0 :: rest) = resisting w (s0 :: rest)) by (rewrite Q; field; lra).
        rewrite (pocket_ordinary k w s0 rest PK) in E by (left; now apply Rmult_lt_0_compat). fold h in E. rewrite ED in E.
        rewrite E. assert (sl_W s0 * sl_cos s0 <= sl_W s0 * (f * sl_sin s0)) by (apply Rmult_le_compat_l; lra). lra.
      - assert (E : f * driving (s0 :: rest) = bishop_resisting w f (s0 :: rest)) by (rewrite Q at 1; field; lra).
        rewrite (pocket_bishop k w f s0 rest PK P) in E. fold h in E. rewrite ED in E. rewrite E.
        assert (M : 0 < sl_cos s0 + sl_sin s0 / f).
        { assert (0 < sl_sin s0 / f) by now apply Rdiv_lt_0_compat. lra. }
        assert (sl_W s0 / (sl_cos s0 + sl_sin s0 / f) <= f * (sl_W s0 * sl_sin s0)); [|lra].
        apply Rmult_le_reg_r with (sl_cos s0 + sl_sin s0 / f); auto.
        replace (sl_W s0 / (sl_cos s0 + sl_sin s0 / f) * (sl_cos s0 + sl_sin s0 / f)) with (sl_W s0)
          by (unfold Rdiv at 1; rewrite Rmult_assoc, Rinv_l by lra; ring).
        replace (f * (sl_W s0 * sl_sin s0) * (sl_cos s0 + sl_sin s0 / f)) with
          (sl_W s0 * (f * sl_sin s0 * sl_cos s0 + sl_sin s0 * sl_sin s0)) by (field; lra).
        assert (sl_cos s0 * sl_cos s0 <= f * sl_sin s0 * sl_cos s0) by (apply Rmult_le_compat_r; lra).
        rewrite <- (Rmult_1_r (sl_W s0)) at 1. apply Rmult_le_compat_l; lra. }
    assert (FD : f * d <= h) by lra.
    assert (d * sl_cos s0 <= d * (f * sl_sin s0)) by (apply Rmult_le_compat_l; lra).
    assert (f * d * sl_sin s0 <= h * sl_sin s0) by (apply Rmult_le_compat_r; lra). lra.
  Qed.

  Lemma veneer_mats v : sound veneer v -> v_mats v = [(97 / 10, assigned 10 0 sand45); (5, assigned 10 1 mud)].
  Proof.
    intros SV. pose proof (so_mats_eq _ _ SV) as M. pose proof (so_mats _ _ SV) as K.
    destruct (v_mats v) as [|[r1 m1] [|[r2 m2] [|]]]; try discriminate. cbn in M. injection M as -> ->.
    destruct (K r1 _ (or_introl eq_refl)) as (_ & _ & _ & E1).
    destruct (K r2 _ (or_intror (or_introl eq_refl))) as (_ & _ & _ & E2).
    cbn in E1, E2. injection E1 as <-. injection E2 as <-. f_equal; [f_equal; lra|f_equal; f_equal; lra].
  Qed.
  Lemma veneer_slice v i t : sound veneer v -> (0 <= i < 25)%Z ->
    slice_ok v 12 (29 / 2) (15 / 2) 6 (6 / 25) i t ->
    3 / 5 <= sl_cos t /\ 0 < sl_sin t /\ sl_u t = 0 /\ 0 < sl_W t /\
    (i = 0%Z -> sl_tan t = 1 /\ sl_c t = 0 /\ sl_sin t <= 4 / 5) /\
    ((1 <= i)%Z -> sl_tan t = 0 /\ sl_c t = 1 / 100) /\
    (i = 1%Z -> 1 / 2 < sl_W t * sl_sin t).
  Proof.
    intros SV I [_ YB YT DP C SI (soil & SW & EW) (m & LM & EC & ET) EU].
    assert (I1 : 0 <= IZR i) by (apply IZR_le; lia). assert (I2 : IZR i <= 24) by (apply IZR_le; lia).
    set (x := mid_of 6 (6 / 25) i) in *.
    assert (X : x = 6 + (IZR i + 1 / 2) * (6 / 25)) by reflexivity.
    assert (X1 : 6 < x < 12) by lra. set (d := drop_at 12 (15 / 2) x) in *.
    assert (DX : forall q, 0 <= q -> q * q < 15 / 2 * (15 / 2) - (x - 12) * (x - 12) -> q < d) by (intros; now apply sqrt_above).
    assert (D0 : 9 / 2 < d) by (apply DX; [lra|]; clear - X1; nra).
    assert (YL : sl_yb t < surface (v_geom v) x).
    { rewrite YB. unfold base_at. fold d. rewrite (so_geom _ _ SV). apply (demo_buried x). cbn [fst]. lra. }
    assert (YE : sl_yt t = surface (v_geom v) x) by (rewrite YT; apply Rmax_left; lra).
    assert (LL : v_lls v = []).
    { pose proof (so_lls_eq _ _ SV) as Q. destruct (v_lls v); [reflexivity|discriminate]. }
    assert (UU : v_udls v = []).
    { pose proof (so_udls_eq _ _ SV) as Q. destruct (v_udls v); [reflexivity|discriminate]. }
    rewrite LL, UU in EW. cbn [map rsum] in EW.
    assert (NE : v_mats v <> []) by (rewrite (veneer_mats v SV); discriminate).
    assert (YY : sl_yb t < sl_yt t) by (rewrite YE; exact YL).
    pose proof (soil_weight_heavy veneer v (6 / 25) _ _ _ SV veneer_heavy NE ltac:(lra) YY SW) as HW.
    split; [rewrite C; lra|]. assert (S0 : 0 < sl_sin t) by (rewrite SI; lra). split; [exact S0|].
    split; [rewrite EU, (so_water _ _ SV); reflexivity|].
    assert (W0 : 0 < sl_W t).
    { assert (0 < 6 / 25 * (sl_yt t - sl_yb t)) by (apply Rmult_lt_0_compat; lra). lra. }
    split; [exact W0|]. rewrite (veneer_mats v SV) in LM. split; [|split].
    - intros ->. assert (DL : d < 47 / 10).
      { unfold d, drop_at. rewrite <- (sqrt_square (47 / 10)) by lra. rewrite X. apply sqrt_lt_1; lra. }
      assert (E : m = assigned 10 0 sand45).
      { destruct LM as ([|[r0 m0] l] & rl & bl & E & F & _); cbn in E; [congruence|]. injection E as <- <- E.
        exfalso. inversion F. cbn in *. rewrite YB in *. unfold base_at in *. fold d in H1. lra. }
      subst m. cbn in EC, ET. split; [|split; [lra|rewrite SI, X; lra]]. rewrite ET.
      destruct (Rtan_py_acute 45 ltac:(lra)) as (Q & _). rewrite Q.
      replace (45 * (PI / 180)) with (PI / 4) by field. apply tan_PI4.
    - intros P. assert (IZ : 1 <= IZR i) by (apply IZR_le; lia).
      assert (X2 : 159 / 25 <= x) by lra.
      assert (DL : 49 / 10 < d) by (apply DX; [lra|]; clear - X1 X2; nra).
      assert (E : m = assigned 10 1 mud).
      { destruct LM as ([|[r0 m0] [|[r1 m1] l]] & rl & bl & E & F & B); cbn in E; [| |destruct l; discriminate].
        - injection E as <- <- <-. exfalso. destruct B as [B|B]; [|discriminate].
          rewrite YB in B. unfold base_at in B. fold d in B. lra.
        - congruence. }
      subst m. cbn in ET. split; [|exact EC]. rewrite ET.
      unfold Rtan_py. rewrite Rmult_0_l, cos_0, sin_0. destruct (Req_EM_T 1 0); [lra|field].
    - intros ->. assert (DL : 49 / 10 < d) by (apply DX; [lra|]; rewrite X; lra).
      assert (SX : surface (v_geom v) x = 10).
      { rewrite (so_geom _ _ SV). cbn [veneer snd demo_sl s_geom]. unfold surface, clamp.
        cbn [demo_geom g_top g_bot g_gradient fst snd]. rewrite Rmin_right by (rewrite X; lra). rewrite Rmax_left by (rewrite X; lra). lra. }
      rewrite YE, SX, YB in HW. unfold base_at in HW. fold d in HW. rewrite EW, SI, X.
      assert (L : 9 / 10 < soil) by lra.
      replace ((12 - (6 + (1 + 1 / 2) * (6 / 25))) / (15 / 2)) with (94 / 125) by field.
      apply Rlt_le_trans with (9 / 10 * (94 / 125)); [lra|]. apply Rmult_le_compat_r; lra.
  Qed.

  Lemma veneer_slices v sl : sound veneer v -> slices_ok v 12 (29 / 2) (15 / 2) (6, 10) (12, 7) sl ->
    exists s0 rest, sl = s0 :: rest /\ pocket (1 / 100) s0 rest /\ (forall t, In t rest -> 0 < sl_cos t) /\
      0 < sl_cos s0 /\ 0 < sl_sin s0 /\ sl_sin s0 * sl_sin s0 + sl_cos s0 * sl_cos s0 = 1 /\ 0 < sl_W s0 /\
      0 < driving rest /\ 0 < held (1 / 100) (width v (6, 10) (12, 7)) rest /\
      held (1 / 100) (width v (6, 10) (12, 7)) rest * sl_sin s0 < sl_cos s0 * driving rest.
  Proof.
    intros SV SO. assert (N : v_slices v = 25%Z) by exact (so_slices _ _ SV).
    assert (WE : width v (6, 10) (12, 7) = 6 / 25) by (unfold width; rewrite N; cbn [fst]; lra).
    pose proof SO as SO0. unfold slices_ok in SO. rewrite N, WE in SO. change (Z.to_nat 25) with 25%nat in SO.
    change (zrange 0 25) with (0%Z :: 1%Z :: zrange 2 23) in SO.
    remember (zrange 2 23) as zs eqn:EZ. cbn [fst] in SO.
    inversion SO as [|? s0 ? l0 K0 F0]; subst sl. inversion F0 as [|? s1 ? l1 K1 F1]; subst l0.
    destruct (veneer_slice v 0 s0 SV ltac:(lia) K0) as (C0 & S0 & U0 & W0 & A0 & _ & _).
    destruct (veneer_slice v 1 s1 SV ltac:(lia) K1) as (C1 & S1 & U1 & W1 & _ & B1 & D1).
    assert (F : Forall (fun t => 3 / 5 <= sl_cos t /\ 0 < sl_sin t /\ 0 < sl_W t /\ sl_tan t = 0 /\ sl_u t = 0 /\ sl_c t = 1 / 100) l1).
    { apply Forall_forall. intros t I. destruct (Forall2_In_r _ _ _ _ F1 I) as (i & IZ & K).
      rewrite EZ in IZ. apply zrange_In in IZ. destruct (veneer_slice v i t SV ltac:(lia) K) as (C & S2 & U & W & _ & B & _).
      destruct B as (T & CC); [lia|]. repeat split; assumption. }
    assert (LN : List.length l1 = 23%nat) by (rewrite <- (Forall2_len _ _ _ F1), EZ; apply zrange_length).
    assert (DV : 0 <= driving l1).
    { clear - F. unfold driving. induction F as [|t l (_ & S & W & _) F IH]; cbn [map rsum]; [lra|].
      assert (0 < sl_W t * sl_sin t) by now apply Rmult_lt_0_compat. lra. }
    assert (BL : forall t, 3 / 5 <= sl_cos t -> 0 < 1 / 100 * base_len (6 / 25) t <= 1 / 250).
    { intros t C. unfold base_len. assert (0 < / sl_cos t) by (apply Rinv_0_lt_compat; lra).
      assert (/ sl_cos t <= / (3 / 5)) by (apply Rinv_le_contravar; lra).
      replace (/ (3 / 5)) with (5 / 3) in * by field. unfold Rdiv at 2 4. lra. }
    assert (HL : 0 <= held (1 / 100) (6 / 25) l1 <= IZR (Z.of_nat (List.length l1)) * (1 / 250)).
    { clear - F BL. unfold held. induction F as [|t l (C & _) F IH]; [cbn; lra|].
      cbn [List.length]. rewrite Nat2Z.inj_succ, succ_IZR. cbn [map rsum]. pose proof (BL t C). lra. }
    rewrite LN in HL. cbn in HL. pose proof (BL s1 C1) as HB1. destruct (A0 eq_refl) as (T0 & CC0 & S08).
    specialize (D1 eq_refl). destruct B1 as (T1 & CC1); [lia|].
    exists s0, (s1 :: l1). split; [reflexivity|]. split.
    { split; [auto|]. constructor; [auto|]. eapply Forall_impl; [|exact F]. cbn. tauto. }
    split. { intros t [ <- | I]; [lra|]. rewrite Forall_forall in F. destruct (F t I) as (C & _). lra. }
    split; [lra|]. split; [exact S0|]. split.
    { refine (slice_unit v 12 (29 / 2) (15 / 2) 6 (6 / 25) 0 s0 _ K0). lra. }
    split; [exact W0|]. rewrite WE.
    assert (ED : driving (s1 :: l1) = sl_W s1 * sl_sin s1 + driving l1) by reflexivity.
    assert (EH : held (1 / 100) (6 / 25) (s1 :: l1) = 1 / 100 * base_len (6 / 25) s1 + held (1 / 100) (6 / 25) l1) by reflexivity.
    split; [lra|]. split; [lra|].
    assert (Q1 : held (1 / 100) (6 / 25) (s1 :: l1) <= 1 / 10) by lra. assert (Q2 : 1 / 2 < driving (s1 :: l1)) by lra.
    apply Rle_lt_trans with (1 / 10 * (4 / 5)); [apply Rmult_le_compat; lra|].
    apply Rlt_le_trans with (3 / 5 * (1 / 2)); [lra|]. apply Rmult_le_compat; lra.
  Qed.

  (** Only the first slice gets more weight *)
  Lemma veneer_touched v v' w w' s0 rest sl' : view_of veneer = Ok v -> view_of loaded = Ok v' ->
    slices_of v 12 (29 / 2) (15 / 2) 6 12 = Ok (Some (w, s0 :: rest)) ->
    slices_of v' 12 (29 / 2) (15 / 2) 6 12 = Ok (Some (w', sl')) -> w = 6 / 25 ->
    (forall P : slice R -> Prop, P s0 -> touched (s0 :: rest) sl' P) /\
    exists t t', In (t, t') (combine (s0 :: rest) sl') /\ sl_W t < sl_W t'.
  Proof.
    intros E E' S1 S2 WE.
    assert (EP : end_points (s_geom (snd veneer)) 12 (29 / 2) (15 / 2) (6, 10) (12, 7)) by exact demo_ends.
    destruct (surcharged_slices veneer loaded _ _ v v' 12 (29 / 2) (15 / 2) (6, 10) (12, 7) w (s0 :: rest) w' sl'
                veneer_reachable loaded_reachable veneer_surcharged E E' ltac:(lra) EP S1 S2) as (_ & LN & AT).
    assert (EX : forall i, (0 <= i)%Z -> extra (fst (stand veneer [(20, 9 / 5, Some (1 / 5))] []))
        (snd (stand veneer [(20, 9 / 5, Some (1 / 5))] [])) (6 + IZR i * w) (6 + IZR (i + 1) * w) =
        if Z.eq_dec i 0 then 4 else 0).
    { intros i I. unfold extra, stand. cbn [map fst snd rsum]. unfold strip_of, udl_share. cbn [fst snd].
      cbn [veneer snd demo_sl s_geom demo_geom g_top fst]. rewrite plus_IZR, WE. rewrite (Rmax_right 0 (8 - 9 / 5 - 1 / 5)) by lra.
      assert (IZ : 0 <= IZR i) by (apply IZR_le; lia).
      rewrite (Rmax_left (6 + IZR i * (6 / 25))) by lra. destruct (Z.eq_dec i 0) as [->|NZ].
      - rewrite Rmin_right by lra. rewrite Rmax_right by lra. lra.
      - assert (1 <= IZR i) by (apply IZR_le; lia). rewrite Rmin_right by lra. rewrite Rmax_left by lra. lra. }
    split.
    - intros P P0 t t' I W.
      apply In_nth_error in I as (i & I). assert (I1 : nth_error (s0 :: rest) i = Some t /\ nth_error sl' i = Some t').
      { clear - I. revert sl' i I. induction (s0 :: rest) as [|x l IH]; intros [|y l'] [|i] I; try discriminate.
        - injection I as -> ->. auto. - apply (IH l' i I). }
      destruct I1 as (I1 & I2). destruct (AT i t t' I1 I2) as (_ & _ & _ & _ & _ & EW). cbn [fst] in EW.
      rewrite EX in EW by lia. destruct (Z.eq_dec (Z.of_nat i) 0) as [Q|Q]; [|lra].
      assert (i = 0%nat) by lia. subst i. injection I1 as <-. exact P0.
    - destruct sl' as [|t' l']; [discriminate|]. exists s0, t'. split; [now left|].
      destruct (AT 0%nat s0 t' eq_refl eq_refl) as (_ & _ & _ & _ & _ & EW). cbn [fst] in EW.
      change (Z.of_nat 0) with 0%Z in EW. rewrite (EX 0%Z ltac:(lia)) in EW. cbn in EW. lra.
  Qed.

  Lemma cv_floor u l k : Un_cv u l -> (forall n, k <= u n) -> k <= l.
  Proof.
    intros C B. destruct (Rle_lt_dec k l) as [|G]; auto. exfalso. destruct (C (k - l) ltac:(lra)) as (N & K).
    specialize (K N (le_n N)). pose proof (B N). unfold R_dist in K. rewrite Rabs_right in K; lra.
  Qed.

  Lemma veneer_safer : exists v v' f f' F F' B B',
    reachable veneer /\ exec (SetUdls [RefUdl 0]) veneer = (Ok tt, loaded) /\
    s_geom (snd loaded) = s_geom (snd veneer) /\
    view_of veneer = Ok v /\ view_of loaded = Ok v' /\
    end_points (s_geom (snd veneer)) 12 (29 / 2) (15 / 2) (6, 10) (12, 7) /\
    ordinary v 12 (29 / 2) (15 / 2) (6, 10) (12, 7) = Ok (Some f) /\
    ordinary v' 12 (29 / 2) (15 / 2) (6, 10) (12, 7) = Ok (Some f') /\ 0 < f < f' /\
    (forall n, bishop (allow n v) 12 (29 / 2) (15 / 2) = Ok (Some (F n)) /\
               bishop (allow n v') 12 (29 / 2) (15 / 2) = Ok (Some (F' n))) /\
    Un_cv F B /\ Un_cv F' B' /\ 0 < B < B'.
  Proof.
    destruct (view_sound veneer veneer_reachable) as (v & E & SV).
    destruct (view_sound loaded loaded_reachable) as (v' & E' & SV').
    pose proof (sound_good _ v SV) as GV. pose proof (sound_good _ v' SV') as GV'.
    pose proof (so_geom _ _ SV) as G. pose proof (so_geom _ _ SV') as G'.
    assert (EP : end_points (s_geom (snd veneer)) 12 (29 / 2) (15 / 2) (6, 10) (12, 7)) by exact demo_ends.
    assert (EP1 : end_points (v_geom v) 12 (29 / 2) (15 / 2) (6, 10) (12, 7)) by (rewrite G; exact demo_ends).
    assert (EP2 : end_points (v_geom v') 12 (29 / 2) (15 / 2) (6, 10) (12, 7)) by (rewrite G'; exact demo_ends).
    assert (BU : buried (v_geom v) 12 (29 / 2) (15 / 2) (6, 10) (12, 7)) by (rewrite G; exact demo_buried).
    assert (LN : leaning (v_geom v) 12 (29 / 2) (15 / 2) (6, 10) (12, 7)) by (constructor; auto; cbn; lra).
    assert (RP : 0 < 15 / 2) by lra.
    destruct (water_total v (gv_geom v GV) (fits _ v SV veneer_wet)) as (o & WD).
    destruct (slices_at v GV _ _ _ _ _ o RP EP1 WD) as [(M & _)|(sl & S1 & SO)].
    { exfalso. rewrite (veneer_mats v SV) in M. discriminate. }
    assert (WK' : wet_ok loaded) by (intros rl Q; discriminate).
    destruct (water_total v' (gv_geom v' GV') (fits _ v' SV' WK')) as (o' & WD').
    destruct (slices_at v' GV' _ _ _ _ _ o' RP EP2 WD') as [(M & _)|(sl' & S2 & SO')].
    { exfalso. pose proof (so_mats_eq _ _ SV') as Q. rewrite M in Q. discriminate. }
    fold (width v (6, 10) (12, 7)) in *. 
    change (slices_ok v 12 (29 / 2) (15 / 2) (6, 10) (12, 7) sl) in SO.
    assert (WE : width v (6, 10) (12, 7) = 6 / 25).
    { assert (N : v_slices v = 25%Z) by exact (so_slices _ _ SV). unfold width. rewrite N. cbn [fst]. lra. }
    set (w := width v (6, 10) (12, 7)) in *.
    destruct (veneer_slices v sl SV SO) as (s0 & rest & -> & PK & CP & C0 & S0 & UN & W0 & DR & HP & HD).
    fold w in HP, HD.
    assert (DD : 0 < driving (s0 :: rest)).
    { assert (0 < sl_W s0 * sl_sin s0) by now apply Rmult_lt_0_compat.
      assert (Q : driving (s0 :: rest) = sl_W s0 * sl_sin s0 + driving rest) by reflexivity. lra. }
    assert (WC : 0 < sl_W s0 * sl_cos s0) by now apply Rmult_lt_0_compat.
    assert (RR : 0 < resisting w (s0 :: rest)) by (rewrite (pocket_ordinary _ w s0 rest PK); lra).
    destruct (veneer_touched v v' w _ s0 rest sl' E E' S1 S2 WE) as (TT & TX).
    pose proof (surcharged_ordinary veneer loaded _ _ v v' veneer_reachable loaded_reachable veneer_surcharged E E' veneer_wet
                  12 (29 / 2) (15 / 2) (6, 10) (12, 7) ltac:(lra) ltac:(lra) ltac:(lra) EP _ _ _ _ S1 S2) as SUO.
    destruct (surcharged_bishop veneer loaded _ _ v v' veneer_reachable loaded_reachable veneer_surcharged E E' veneer_wet
                  12 (29 / 2) (15 / 2) (6, 10) (12, 7) ltac:(lra) ltac:(lra) ltac:(lra) EP _ _ _ _ S1 S2
                  veneer_strength (or_introl veneer_heavy) ltac:(discriminate) ltac:(cbn; lra) BU)
      as (F & F' & B & B' & AN & CF & CF' & B0 & B0' & _ & HI).
    set (f := resisting w (s0 :: rest) / driving (s0 :: rest)).
    assert (FP : 0 < f) by now apply Rdiv_lt_0_compat.
    assert (O : ordinary v 12 (29 / 2) (15 / 2) (6, 10) (12, 7) = Ok (Some f)).
    { destruct (ordinary_spec v GV 12 (29 / 2) (15 / 2) (6, 10) (12, 7) ltac:(lra) ltac:(lra) ltac:(lra) EP1 (fits _ v SV veneer_wet))
        as [(M & _)|(sl0 & SO0 & Q)].
      { exfalso. exact (slices_mats _ _ _ _ _ _ _ (gv_slices v GV) SO M). }
      rewrite (slices_det _ _ _ _ _ _ _ _ SO0 SO) in Q. destruct Q as [(X & _)|(_ & Q)]; [lra|exact Q]. }
    assert (F90 : friction_90 veneer).
    { intros m I. cbn in I. destruct I as [ <- | [ <- | [] ] ]; cbn; lra. }
    destruct (SUO f F90 O) as (_ & OH).
    assert (FL : f * sl_sin s0 < sl_tan s0 * sl_cos s0).
    { apply (pocket_flat (1 / 100) w f s0 rest); auto. }
    destruct PK as ((T0 & CC0 & U0) & PR) eqn:EPK.
    assert (OT : touched (s0 :: rest) sl' (fun t => 0 <= sl_W t * sl_cos t - sl_u t * (w / sl_cos t) /\ f * sl_sin t < sl_tan t * sl_cos t)).
    { apply TT. split; [rewrite U0; lra|exact FL]. }
    destruct (view_good _ _ loaded_reachable E') as (_ & _ & _).
    assert (OS : exists f', ordinary v' 12 (29 / 2) (15 / 2) (6, 10) (12, 7) = Ok (Some f') /\ f < f').
    { destruct (OH OT TX) as [X|X]; [|exact X]. exfalso.
      destruct (ordinary_spec v' GV' 12 (29 / 2) (15 / 2) (6, 10) (12, 7) ltac:(lra) ltac:(lra) ltac:(lra) EP2 (fits _ v' SV' WK'))
        as [(M & _)|(sl0 & SO0 & Q)].
      { exact (slices_mats _ _ _ _ _ _ _ (gv_slices v' GV') SO' M). }
      destruct Q as [(D' & _)|(_ & Q)]; [|congruence].
      assert (HV' : heavy loaded) by exact veneer_heavy.
      assert (LN' : leaning (v_geom v') 12 (29 / 2) (15 / 2) (6, 10) (12, 7)).
      { rewrite G'. rewrite G in LN. exact LN. }
      destruct (leaning_slices loaded v' _ _ _ _ _ SV' veneer_strength (or_introl HV') LN' WK' ltac:(discriminate))
        as (sl1 & SO1 & D1 & _).
      rewrite (slices_det _ _ _ _ _ _ _ _ SO0 SO1) in D'. lra. }
    destruct OS as (f' & O' & FF).
    destruct (leaning_slices veneer v _ _ _ _ _ SV veneer_strength (or_introl veneer_heavy) LN veneer_wet ltac:(discriminate))
      as (sl1 & SO1 & D1 & P1 & _).
    rewrite (slices_det _ _ _ _ _ _ _ _ SO1 SO) in *. clear sl1 SO1. fold w in P1.
    pose proof (answers_turns veneer v _ _ _ _ _ _ SV LN veneer_wet SO D1 P1 RR) as AT. fold w f in AT.
    assert (CT : Un_cv (turns w (s0 :: rest) f) B).
    { intros e EE. destruct (CF e EE) as (N & K). exists N. intros n L. specialize (K n L).
      destruct (AN n) as (A1 & _). destruct (AT n) as (A2 & _). assert (Q : turns w (s0 :: rest) f n = F n) by congruence.
      now rewrite Q. }
    assert (BP : 0 < B).
    { apply Rlt_le_trans with (held (1 / 100) w rest / driving (s0 :: rest)); [now apply Rdiv_lt_0_compat|].
      apply (cv_floor _ _ _ CT). intros n.
      assert (IV : 0 < / driving (s0 :: rest)) by now apply Rinv_0_lt_compat.
      destruct n as [|n]; cbn [turns].
      - unfold f. rewrite (pocket_ordinary _ w s0 rest PK) by lra. unfold Rdiv. apply Rmult_le_compat_r; lra.
      - pose proof (turns_pos w (s0 :: rest) P1 D1 f n FP) as TP. set (x := turns w (s0 :: rest) f n) in *.
        unfold turn. destruct (Req_EM_T x 0); [lra|]. rewrite (pocket_bishop (1 / 100) w x s0 rest PK CP).
        unfold Rdiv at 1 2. apply Rmult_le_compat_r; [lra|].
        assert (0 < sl_W s0 / (sl_cos s0 + sl_sin s0 / x)); [|lra].
        apply Rdiv_lt_0_compat; auto. assert (0 < sl_sin s0 / x) by now apply Rdiv_lt_0_compat. lra. }
    assert (FX : turn w (s0 :: rest) B = B) by (apply (limit_fixed w (s0 :: rest) P1 D1 f B FP CT BP)).
    assert (BL : B * sl_sin s0 < sl_tan s0 * sl_cos s0).
    { apply (pocket_flat (1 / 100) w B s0 rest); auto. right. unfold turn in FX.
      destruct (Req_EM_T B 0); [lra|]. now rewrite FX. }
    pose proof (HI BP (TT _ BL) TX) as BB.
    exists v, v', f, f', F, F', B, B'. split; [exact veneer_reachable|]. split; [exact loaded_exec|]. split; [reflexivity|].
    split; [exact E|]. split; [exact E'|]. split; [exact EP|]. split; [exact O|]. split; [exact O'|]. split; [lra|].
    split; [exact AN|]. split; [exact CF|]. split; [exact CF'|]. lra.
  Qed.
End Veneer.

(** ** The same strip on a bank of clay *)
Section Clay.
  Context {EN : Env}.
  Notation stR := (st R).
  Definition strip_udl : op R := NewUdl (PFloat 20) (PFloat (9 / 5)) (PFloat (1 / 5)) "red" false.
  Definition clay_ops : list (op R) :=
    [ NewMaterial (PFloat 18) (PFloat 0) (PFloat 10) (PFloat 5) (PStr "soil") PNone; strip_udl;
      SetMaterials [RefMaterial 0] ].
  Definition clay1 : stR := (MkHeap [bank_soil 10 0] [strip0] [], snd demo0).
  Definition clay2 : stR :=
    (MkHeap [assigned 10 0 (bank_soil 10 0)] [strip0] [], demo_sl [0%nat] [] [] UmUnset None None).
  Definition with_arc (s : stR) : stR := (fst s, set_s_search [] (set_s_planes [demo_plane] (snd s))).
  Definition clay3 : stR := with_arc clay2.
  Definition clay4 : stR := with_arc
    (MkHeap [assigned 10 0 (bank_soil 10 0)] [udl_coords 8 strip0] [], demo_sl [0%nat] [0%nat] [] (UmNum 20) None None).

  Lemma clay2_acc : accepted demo0 clay_ops clay2.
  Proof.
    assert (M1 : new_material (PFloat 18) (PFloat 0) (PFloat 10) (PFloat 5) (PStr "soil") PNone = Ok (bank_soil 10 0)).
    { apply (proj2 (material_spec _ _ _ _ _ _ _ _)).
      exists 18, 0, 10, 5, "soil"%string, ""%string. unfold bank_soil. rnum. unfold plain_denotes.
      cbn [denotes plain_number is_text]. ands; auto; lra. }
    assert (L1 : new_udl (PFloat 20) (PFloat (9 / 5)) (PFloat (1 / 5)) "red" false = Ok strip0).
    { apply udl_spec. exists 20, (9 / 5), (Some (1 / 5)). split; [split; cbn; auto|]. split; [split; cbn; auto|].
      split.
      - right. exists (1 / 5). split; [split; cbn; auto|]. split; [lra|]. now rnum.
      - unfold strip0. now rnum. }
    assert (A1 : accepted demo0 (firstn 2 clay_ops) clay1).
    { cbn [firstn clay_ops].
      econstructor; [cbn [exec]; unfold alloc; rewrite M1; reflexivity|].
      econstructor; [cbn [exec strip_udl]; unfold alloc; rewrite L1; reflexivity|].
      constructor. }
    assert (R1 : reachable clay1) by (eapply accepted_reachable; [apply demo0_reachable|exact A1]).
    change clay_ops with (firstn 2 clay_ops ++ skipn 2 clay_ops).
    eapply accepted_app; [exact A1|]. cbn [skipn clay_ops]. econstructor; [|constructor].
    destruct (reachable_inv _ R1) as (C & _ & _).
    cbn [exec]. rewrite with_refs_intro by (repeat constructor).
    rewrite set_materials_eff by exact C. cbn [material_locs rbind].
    unfold sorted_locs, sort_by. cbn. unR.
    unfold deepened. cbn. rnum. unfold layered, clay2. cbn. reflexivity.
  Qed.
  Lemma clay3_exec : exec (AddCircle 12 (29 / 2) (15 / 2)) clay2 = (Ok tt, clay3).
  Proof.
    cbn [exec]. unfold add_single_circular_plane.
    destruct (circle_external_spec demo_geom demo_good 12 (29 / 2) (15 / 2)) as (l & E & C).
    erewrite bind_ok by reflexivity. change (s_geom (snd clay2)) with demo_geom.
    unfold mlift at 1. rewrite E. unfold mbind at 1.
    destruct (first_two_spec _ _ _ _ _ C) as [(a & b & F & EP)|(_ & L)].
    2:{ exfalso. eapply end_points_two; [apply demo_ends|exact C|exact L]. }
    destruct (end_points_det _ _ _ _ _ _ _ _ demo_ends EP) as (-> & ->). rewrite F. reflexivity.
  Qed.
  Lemma clay3_reachable : reachable clay3.
  Proof.
    eapply accepted_reachable; [eapply accepted_reachable; [apply demo0_reachable|apply clay2_acc]|].
    econstructor; [apply clay3_exec|constructor].
  Qed.
  Lemma clay4_exec : exec (SetUdls [RefUdl 0]) clay3 = (Ok tt, clay4).
  Proof.
    cbn [exec]. rewrite with_refs_intro by (repeat constructor).
    assert (E1 : set_udl_one (RefUdl 0) clay3 =
      (Ok tt, (fst clay3, set_s_search [] (set_s_planes [demo_plane] (demo_sl [0%nat] [0%nat] [] UmUnset None None))))).
    { cbn [set_udl_one]. erewrite bind_ok; [|reflexivity]. cbn. unR. rnum. cbn [mwhen].
      msteps. unfold udl_min_length. cbn. unR. rnum. reflexivity. }
    unfold set_udls. cbn [mforM]. rewrite bind_assoc. erewrite bind_ok by exact E1.
    rewrite bind_ret. erewrite bind_ok by apply update_udl_coordinates_eff.
    rewrite bind_get. cbn. msteps. reflexivity.
  Qed.
  Lemma clay4_reachable : reachable clay4.
  Proof.
    eapply accepted_reachable; [apply clay3_reachable|]. econstructor; [apply clay4_exec|constructor].
  Qed.
  Lemma clay_surcharged : surcharged clay3 clay4 [(20, 9 / 5, Some (1 / 5))] [].
  Proof. constructor; try reflexivity. split; reflexivity. Qed.
  Lemma clay_cohesive : cohesive clay3.
  Proof. intros m [ <- | [] ]. cbn. lra. Qed.
  Lemma clay_analysed (s : stR) v f : view_of s = Ok v -> s_planes (snd s) = [demo_plane] ->
    bishop v 12 (29 / 2) (15 / 2) = Ok (Some f) ->
    exists s', analyse_slope None s = (Ok tt, s') /\ get_min_FOS (snd s') = Ok (Some f).
  Proof.
    intros E P B.
    assert (F : fos_loop v (s_planes (snd s)) = (Ok tt, [set_fos (Some f) demo_plane])).
    { rewrite P. cbn [fos_loop demo_plane p_cx p_cy p_radius]. rewrite B. reflexivity. }
    assert (A : analysed s v (s_planes (snd s))) by (right; split; [rewrite P; discriminate|reflexivity]).
    eexists. split; [exact (analyse_intro None s v _ _ E A F)|]. reflexivity.
  Qed.
  Lemma clay_slopes p v v' a b w sl w' sl' : In p (s_planes (snd clay3)) -> view_of clay3 = Ok v -> view_of clay4 = Ok v' ->
    end_points (s_geom (snd clay3)) (p_cx p) (p_cy p) (p_radius p) a b ->
    slices_of v (p_cx p) (p_cy p) (p_radius p) (fst a) (fst b) = Ok (Some (w, sl)) ->
    slices_of v' (p_cx p) (p_cy p) (p_radius p) (fst a) (fst b) = Ok (Some (w', sl')) ->
    touched sl sl' (fun t => 0 <= sl_sin t).
  Proof.
    intros [ <- | [] ] E E' EP S1 _. cbn [demo_plane p_cx p_cy p_radius] in *.
    destruct (end_points_det _ _ _ _ _ _ _ _ demo_ends EP) as (-> & ->).
    destruct (view_good clay3 v clay3_reachable E) as (GV & SV & G). rewrite <- G in EP.
    destruct (slices_code v 12 (29 / 2) (15 / 2) (6, 10) (12, 7) w sl GV ltac:(lra) EP S1) as (_ & SO).
    intros t t' I _. apply in_combine_l in I. destruct (Forall2_In_r _ _ _ _ SO I) as (i & IZ & [_ _ _ _ _ SI _ _ _]).
    apply zrange_In in IZ. assert (N : v_slices v = 25%Z) by exact (so_slices _ _ SV). rewrite N in IZ.
    assert (I1 : 0 <= IZR i) by (apply IZR_le; lia). assert (I2 : IZR i <= 24) by (apply IZR_le; lia).
    rewrite SI. unfold mid_of, width. rewrite N. cbn [fst]. lra.
  Qed.
  Lemma clay_less : exists f f' s1 s2,
    reachable clay3 /\ exec (SetUdls [RefUdl 0]) clay3 = (Ok tt, clay4) /\
    analyse_slope None clay3 = (Ok tt, s1) /\ analyse_slope None clay4 = (Ok tt, s2) /\
    get_min_FOS (snd s1) = Ok (Some f) /\ get_min_FOS (snd s2) = Ok (Some f') /\ 0 < f' <= f.
  Proof.
    destruct (view_sound clay3 clay3_reachable) as (v & E & SV).
    destruct (view_sound clay4 clay4_reachable) as (v' & E' & SV').
    assert (ST : some_strength clay3) by (intros m [ <- | [] ]; cbn; lra).
    assert (ST' : some_strength clay4) by (intros m [ <- | [] ]; cbn; lra).
    assert (K : forall s u, sound s u -> s_geom (snd s) = demo_geom -> mats_of s <> [] -> s_water_RL (snd s) = None ->
      some_strength s -> exists f, bishop u 12 (29 / 2) (15 / 2) = Ok (Some f) /\ 0 < f).
    { intros s u SU G M W SS. pose proof (so_geom _ _ SU) as GU. rewrite G in GU.
      destruct (one_way s u 12 (29 / 2) (15 / 2) (6, 10) (12, 7) SU SS) as (f & B & P);
        try lra; try (rewrite GU); [left; rewrite (so_water _ _ SU); exact W | | apply demo_ends | cbn; lra | apply demo_buried | eauto].
      intros Q. apply M. rewrite <- (so_mats_eq _ _ SU), Q. reflexivity. }
    destruct (K clay3 v SV eq_refl ltac:(discriminate) eq_refl ST) as (f & B & P).
    destruct (K clay4 v' SV' eq_refl ltac:(discriminate) eq_refl ST') as (f1 & B1 & P1).
    destruct (clay_analysed clay3 v f E eq_refl B) as (s1 & A1 & G1).
    destruct (clay_analysed clay4 v' f1 E' eq_refl B1) as (s2 & A2 & G2).
    destruct (surcharged_min None clay3 clay4 s1 s2 _ _ f clay3_reachable clay4_reachable clay_surcharged clay_cohesive
                ltac:(intros rl Q; discriminate) ltac:(discriminate) eq_refl clay_slopes A1 A2 G1) as (f2 & G3 & L).
    exists f, f2, s1, s2. split; [exact clay3_reachable|]. split; [exact clay4_exec|]. split; [exact A1|]. split; [exact A2|].
    split; [exact G1|]. split; [exact G3|]. split; [|exact L]. assert (f2 = f1) by congruence. lra.
  Qed.
End Clay.
