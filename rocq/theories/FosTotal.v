(** * FosTotal: a circle that leans one way through dry soil gets a factor (C55). *)
From Coq Require Import ZArith Reals Lra Lia List Bool String Permutation Sorted.
From Verif Require Import Num Py Validation Utilities Objects Slope Planes Analysis
     Dynamic Api RealNum RealFacts ListFacts MonadFacts Spec CircleFacts PlaneFacts SoilFacts SliceFacts
     SearchFacts MatInv Invariant History EditFacts ViewFacts FosFacts FosMore StrengthFacts
     ScaleFacts Demo DemoCircle.
Import ListNotations.
Local Open Scope R_scope.

Lemma tan_pos a : 0 < a <= 90 -> 0 < Rtan_py (a * (PI / 180)).
Proof.
  intros (A & B). destruct (Req_dec a 90) as [->|B0].
  { unfold Rtan_py. destruct (Req_EM_T _ 0) as [_|E]; [lra|]. exfalso. apply E.
    replace (90 * (PI / 180)) with (PI / 2) by field. apply cos_PI2. }
  destruct (Rtan_py_acute a ltac:(lra)) as (-> & H). lra.
Qed.

(** Soil and loads weigh at least 1 kN/m3 of soil. *)
Lemma soil_weight_low s v w yb yt W : sound s v -> v_mats v <> [] -> 0 <= w -> yb <= yt ->
  soil_weight (v_mats v) w yb yt W -> w * (yt - yb) <= W.
Proof.
  intros SV NE Hw Y (uw & pr & U & ->). apply Rmult_le_compat_l; auto.
  assert (C : Riemann_integrable (fct_cte 1) yb yt) by apply RiemannInt_P14.
  replace (yt - yb) with (RiemannInt C).
  2:{ rewrite RiemannInt_P15. lra. }
  apply RiemannInt_P19; auto. intros x _. unfold fct_cte.
  destruct (layer_at_exists (v_mats v) x NE) as (m & L). rewrite (U x m L).
  destruct (layer_at_In _ _ _ L) as (rl & I). apply (so_mats s v SV rl m I).
Qed.
Lemma udl_share_nonneg a b u : 0 <= snd u -> 0 <= udl_share a b u.
Proof. intros H. apply Rmult_le_pos; auto. apply Rmax_l. Qed.
Lemma ll_share_nonneg a b l : 0 <= snd l -> 0 <= ll_share a b l.
Proof. intros H. unfold ll_share. destruct (Rle_dec _ _); [destruct (Rlt_dec _ _)|]; lra. Qed.
Lemma slice_weight_low s v cx cy r xl w i sl : sound s v -> 0 <= w ->
  slice_ok v cx cy r xl w i sl -> w * (sl_yt sl - sl_yb sl) <= sl_W sl.
Proof.
  intros SV Hw K. destruct (sk_W _ _ _ _ _ _ _ _ K) as (W & SW & ->).
  destruct (sk_mat _ _ _ _ _ _ _ _ K) as (m & LM & _).
  assert (NE : v_mats v <> []).
  { intros E. destruct (layer_at_In _ _ _ LM) as (rl & I). rewrite E in I. destruct I. }
  assert (Y : sl_yb sl <= sl_yt sl) by (rewrite (sk_yt _ _ _ _ _ _ _ _ K); apply Rmax_r).
  pose proof (soil_weight_low _ _ _ _ _ _ SV NE Hw Y SW) as L.
  assert (0 <= rsum (map (udl_share (edge_of xl w i) (edge_of xl w (i + 1))) (v_udls v))).
  { apply rsum_nonneg. intros x I. apply in_map_iff in I as ([[a b] q] & <- & I).
    apply udl_share_nonneg. cbn. apply (so_udls s v SV) in I. lra. }
  assert (0 <= rsum (map (ll_share (edge_of xl w i) (edge_of xl w (i + 1))) (v_lls v))).
  { apply rsum_nonneg. intros x I. apply in_map_iff in I as ([c q] & <- & I).
    apply ll_share_nonneg. cbn. apply (so_lls s v SV) in I. lra. }
  lra.
Qed.

(** The iteration never fails on slices with positive strength that all lean
    the same way. *)
Lemma loop_total w tol sl k : (forall s, In s sl -> plain_slice w s /\ 0 < strength w s) ->
  0 < driving sl -> forall F, 0 < F ->
  exists f, bishop_loop w tol sl k F = Ok (Some f) /\ 0 < f.
Proof.
  intros P D. assert (NE : sl <> []) by (intros ->; unfold driving in D; cbn in D; lra).
  induction k as [|k IH]; intros F HF; cbn [bishop_loop]; [eauto|].
  assert (N : next w sl F (bishop_resisting w F sl / driving sl) /\ 0 < bishop_resisting w F sl).
  { assert (Q : 0 < bishop_resisting w F sl).
    { unfold bishop_resisting. destruct sl as [|s sl]; [congruence|]. cbn [map rsum].
      apply Rplus_lt_le_0_compat.
      - destruct (P s (or_introl eq_refl)) as (A & B). apply Rdiv_lt_0_compat; auto.
        eapply alpha_pos; eauto.
      - apply rsum_nonneg. intros x I. apply in_map_iff in I as (t & <- & I).
        destruct (P t (or_intror I)) as (A & B). left. apply Rdiv_lt_0_compat; auto.
        eapply alpha_pos; eauto. }
    split; auto. apply next_turn; try lra. intros s I. apply Rgt_not_eq.
    eapply alpha_pos; [apply P|]; auto. }
  destruct N as (N & Q). rewrite (proj2 (bishop_step_some _ _ _ _) N). cbn [rbind].
  assert (0 < bishop_resisting w F sl / driving sl) by now apply Rdiv_lt_0_compat.
  destruct (nltb _ tol); eauto.
Qed.

(** Between its end points the circle runs below the ground. *)
Definition buried (g : geom R) (cx cy r : R) (a b : R * R) : Prop :=
  forall x, fst a < x < fst b -> base_at cx cy r x < surface g x.
Section OneWay.
  Context {EN : Env}.
  Notation stR := (st R).
  (** Every layer has some strength. *)
  Definition some_strength (s : stR) : Prop :=
    forall m, In m (mats_of s) -> m_friction_angle m <= 90 /\
      (0 < m_cohesion m \/ 0 < m_friction_angle m).

  Lemma mid_inside v a b i : (2 <= v_slices v)%Z -> fst a < fst b -> (0 <= i < v_slices v)%Z ->
    fst a < mid_of (fst a) (width v a b) i < fst b.
  Proof.
    intros N L I. unfold mid_of, width.
    assert (0 < IZR (v_slices v)) by (apply IZR_lt; lia).
    assert (0 <= IZR i) by (apply IZR_le; lia).
    assert (IZR i + 1 <= IZR (v_slices v)) by (rewrite <- plus_IZR; apply IZR_le; lia).
    assert (Q : 0 < (IZR i + 1 / 2) / IZR (v_slices v) < 1).
    { split; [apply Rdiv_lt_0_compat; lra|]. apply Rmult_lt_reg_r with (IZR (v_slices v)); auto.
      unfold Rdiv at 1. rewrite Rmult_assoc, Rinv_l, Rmult_1_r, Rmult_1_l by lra. lra. }
    replace ((IZR i + 1 / 2) * ((fst b - fst a) / IZR (v_slices v)))
      with ((IZR i + 1 / 2) / IZR (v_slices v) * (fst b - fst a)) by (unfold Rdiv; ring).
    set (q := (IZR i + 1 / 2) / IZR (v_slices v)) in *. nra.
  Qed.

  Lemma one_way s v cx cy r a b : sound s v -> some_strength s -> dry v -> v_mats v <> [] ->
    0 <= cy -> 0 <= r -> end_points (v_geom v) cx cy r a b -> 0 <= cx -> fst b <= cx ->
    buried (v_geom v) cx cy r a b ->
    exists f, bishop v cx cy r = Ok (Some f) /\ 0 < f.
  Proof.
    intros SV SS DV NE D2 D3 EP D1 BC BU. pose proof (sound_good s v SV) as GV.
    pose proof (radius_pos v GV cx cy r a b D3 EP) as HR.
    assert (WD : water_data v = Ok None).
    { unfold water_data, water_level. destruct DV as [-> | ->]; auto. unR. now rewrite Reqb_refl. }
    pose proof (end_points_ok _ (gv_geom v GV) _ _ _ _ _ EP) as (_ & _ & _ & _ & LL).
    assert (N : 0 < IZR (v_slices v)) by (apply IZR_lt; pose proof (gv_slices v GV); lia).
    assert (Hw : 0 < width v a b) by (unfold width; apply Rdiv_lt_0_compat; lra).
    destruct (bishop_at v GV cx cy r None D1 D2 D3 WD) as
      [(l & C & L & _)|(a' & b' & EP' & Q)]; [exfalso; eapply end_points_two; eauto|].
    destruct (end_points_det _ _ _ _ _ _ _ _ EP EP') as (-> & ->).
    destruct Q as [(M & _)|(sl & SO & Q)]; [contradiction|].
    assert (P : forall t, In t sl -> plain_slice (width v a b) t /\ 0 < strength (width v a b) t /\
                  0 < sl_W t * sl_sin t /\ 0 < sl_W t * sl_cos t /\ 0 <= sl_c t /\ sl_u t = 0 /\
                  (0 < sl_c t \/ 0 < sl_tan t)).
    { intros t I. destruct (Forall2_In_r _ _ _ _ SO I) as (i & II & K).
      apply zrange_In in II. rewrite Z2Nat.id in II by (pose proof (gv_slices v GV); lia).
      pose proof (mid_inside v a b i (gv_slices v GV) ltac:(lra) ltac:(lia)) as MI.
      assert (SI : 0 < sl_sin t).
      { rewrite (sk_sin _ _ _ _ _ _ _ _ K). apply Rdiv_lt_0_compat; lra. }
      assert (CO : 0 < sl_cos t).
      { rewrite (sk_cos _ _ _ _ _ _ _ _ K). apply Rdiv_lt_0_compat; auto. apply (sk_drop _ _ _ _ _ _ _ _ K). }
      assert (WP : 0 < sl_W t).
      { eapply Rlt_le_trans; [|exact (slice_weight_low s v cx cy r (fst a) (width v a b) i t SV (Rlt_le _ _ Hw) K)].
        apply Rmult_lt_0_compat; auto. rewrite (sk_yt _ _ _ _ _ _ _ _ K), (sk_yb _ _ _ _ _ _ _ _ K).
        pose proof (BU _ MI) as B.
        pose proof (Rmax_l (surface (v_geom v) (mid_of (fst a) (width v a b) i))
                      (base_at cx cy r (mid_of (fst a) (width v a b) i))). lra. }
      assert (UP : sl_u t = 0).
      { rewrite (sk_u _ _ _ _ _ _ _ _ K). unfold water_at. destruct DV as [-> | ->]; auto.
        destruct (Req_EM_T 0 0); [auto|congruence]. }
      destruct (sk_mat _ _ _ _ _ _ _ _ K) as (m & LM & EC & ET).
      destruct (layer_at_In _ _ _ LM) as (rl & IM).
      destruct (so_mats s v SV rl m IM) as ((_ & F0 & C0 & _) & TO & _).
      destruct (SS m) as (F9 & ST).
      { rewrite <- (so_mats_eq s v SV). apply in_map_iff. now exists (rl, m). }
      assert (T0 : 0 <= sl_tan t).
      { rewrite ET. red in TO. rewrite TO. unfold nradians. unR. apply tan_nonneg. lra. }
      assert (ST' : 0 < sl_c t \/ 0 < sl_tan t).
      { destruct ST as [ST|ST]; [left; lra|right]. rewrite ET. red in TO. rewrite TO.
        unfold nradians. unR. apply tan_pos. lra. }
      assert (SP : 0 < strength (width v a b) t).
      { unfold strength. rewrite UP, Rmult_0_l, Rminus_0_r. destruct ST' as [ST'|ST'].
        - apply Rplus_lt_le_0_compat; [apply Rmult_lt_0_compat; lra|]. apply Rmult_le_pos; lra.
        - apply Rplus_le_lt_0_compat; [apply Rmult_le_pos; lra|]. apply Rmult_lt_0_compat; lra. }
      split; [repeat split; lra|]. split; auto. split; [now apply Rmult_lt_0_compat|].
      split; [now apply Rmult_lt_0_compat|]. split; [lra|auto]. }
    assert (NS : sl <> []).
    { intros ->. unfold slices_ok in SO. inversion SO as [E|]. apply (f_equal (@List.length Z)) in E.
      rewrite zrange_length in E. cbn in E. pose proof (gv_slices v GV). lia. }
    assert (DR : 0 < driving sl).
    { unfold driving. destruct sl as [|t sl]; [congruence|]. cbn [map rsum].
      apply Rplus_lt_le_0_compat; [apply P; now left|]. apply rsum_nonneg. intros x I.
      apply in_map_iff in I as (t' & <- & I). left. apply P. now right. }
    destruct Q as [(Q & _)|(_ & Q)]; [lra|]. rewrite Q. unfold fos_of. apply loop_total; auto.
    - intros t I. destruct (P t I) as (A & B & _). auto.
    - apply Rdiv_lt_0_compat; auto. unfold resisting.
      assert (T : forall t, In t sl -> 0 < sl_c t * base_len (width v a b) t +
        Rmax 0 (sl_W t * sl_cos t - sl_u t * base_len (width v a b) t) * sl_tan t).
      { intros t I. destruct (P t I) as ((CO & T0 & _) & _ & _ & WC & C0 & -> & ST).
        rewrite Rmult_0_l, Rminus_0_r.
        assert (0 < base_len (width v a b) t) by (unfold base_len; now apply Rdiv_lt_0_compat).
        rewrite Rmax_right by lra. destruct ST as [ST|ST].
        - apply Rplus_lt_le_0_compat; [now apply Rmult_lt_0_compat|]. apply Rmult_le_pos; lra.
        - apply Rplus_le_lt_0_compat; [apply Rmult_le_pos; lra|]. now apply Rmult_lt_0_compat. }
      destruct sl as [|t sl]; [congruence|]. cbn [map rsum].
      apply Rplus_lt_le_0_compat; [apply T; now left|]. apply rsum_nonneg. intros x I.
      apply in_map_iff in I as (t' & <- & I). left. apply T. now right.
  Qed.
End OneWay.

(** ** The demo circle *)
Lemma sqrt_above a b : 0 <= a -> a * a < b -> a < sqrt b.
Proof.
  intros A L. rewrite <- (sqrt_square a) by auto. apply sqrt_lt_1; auto; nra.
Qed.
Lemma demo_buried : buried demo_geom 12 (29 / 2) (15 / 2) (6, 10) (12, 7).
Proof.
  intros x. cbn [fst snd]. intros X. unfold base_at, drop_at.
  destruct (Rle_lt_dec 8 x) as [L|L].
  - rewrite demo_surface by lra.
    assert (3 / 4 * x - 3 / 2 < sqrt (15 / 2 * (15 / 2) - (x - 12) * (x - 12))); [|lra].
    apply sqrt_above; [lra|]. nra.
  - assert (E : surface demo_geom x = 10).
    { unfold surface, clamp. cbn [demo_geom g_top g_bot g_gradient fst snd].
      rewrite Rmin_right by lra. rewrite Rmax_left by lra. lra. }
    rewrite E. assert (9 / 2 < sqrt (15 / 2 * (15 / 2) - (x - 12) * (x - 12))); [|lra].
    apply sqrt_above; [lra|]. nra.
Qed.
Section DemoFactor.
  Context {EN : Env}.
  Lemma demo4_reachable : reachable demo4.
  Proof.
    eapply accepted_reachable; [apply demo2_reachable|].
    econstructor; [apply demo3_exec|]. econstructor; [apply demo4_exec|constructor].
  Qed.
  Lemma demo4_strength : some_strength demo4.
  Proof.
    intros m I. cbn in I. destruct I as [ <- | [ <- | [] ] ]; cbn; lra.
  Qed.
  Lemma demo4_view : exists v, view_of demo4 = Ok v /\ sound demo4 v /\ v_geom v = demo_geom /\
    v_mats v <> [] /\ dry v.
  Proof.
    destruct (view_sound demo4 demo4_reachable) as (v & E & S). exists v. split; auto. split; auto.
    split; [exact (so_geom _ _ S)|]. split.
    - intros Q. pose proof (so_mats_eq _ _ S) as M. rewrite Q in M. discriminate.
    - left. exact (so_water _ _ S).
  Qed.
  Lemma demo_factor : exists v f, view_of demo4 = Ok v /\
    bishop v 12 (29 / 2) (15 / 2) = Ok (Some f) /\ 0 < f.
  Proof.
    destruct demo4_view as (v & E & S & G & M & D).
    destruct (one_way demo4 v 12 (29 / 2) (15 / 2) (6, 10) (12, 7) S demo4_strength D M) as (f & B & P);
      try lra; try (rewrite G); [apply demo_ends | cbn; lra | apply demo_buried |].
    eauto.
  Qed.
  (** The circle added by hand and analysed *)
  Definition demo_plane : plane R := MkPlane (6, 10) (12, 7) 12 (29 / 2) (15 / 2) None.
  Definition demo5 : st R := (fst demo4, set_s_search [] (set_s_planes [demo_plane] (snd demo4))).
  Lemma demo5_exec : exec (AddCircle 12 (29 / 2) (15 / 2)) demo4 = (Ok tt, demo5).
  Proof.
    cbn [exec]. unfold add_single_circular_plane.
    destruct (circle_external_spec demo_geom demo_good 12 (29 / 2) (15 / 2)) as (l & E & C).
    erewrite bind_ok by reflexivity. change (s_geom (snd demo4)) with demo_geom.
    unfold mlift at 1. rewrite E. unfold mbind at 1.
    destruct (first_two_spec _ _ _ _ _ C) as [(a & b & F & EP)|(_ & L)].
    2:{ exfalso. eapply end_points_two; [apply demo_ends|exact C|exact L]. }
    destruct (end_points_det _ _ _ _ _ _ _ _ demo_ends EP) as (-> & ->). rewrite F. reflexivity.
  Qed.
  Lemma demo5_reachable : reachable demo5.
  Proof.
    eapply accepted_reachable; [apply demo4_reachable|].
    econstructor; [apply demo5_exec|constructor].
  Qed.
  Lemma demo5_analysed m : exists f s', 0 < f /\ analyse_slope m demo5 = (Ok tt, s') /\
    (passes m f -> get_min_FOS (snd s') = Ok (Some f)).
  Proof.
    destruct demo_factor as (v & f & E & B & P).
    assert (E' : view_of demo5 = Ok v) by exact E.
    assert (F : fos_loop v (s_planes (snd demo5)) = (Ok tt, [set_fos (Some f) demo_plane])).
    { cbn [demo5 snd set_s_planes s_planes fos_loop demo_plane p_cx p_cy p_radius set_s_search].
      rewrite B. reflexivity. }
    assert (A : analysed demo5 v (s_planes (snd demo5))).
    { right. split; auto. discriminate. }
    exists f. eexists. split; auto. split; [exact (analyse_intro m demo5 v _ _ E' A F)|].
    intros PA. cbn [snd set_s_search].
    assert (I : tidy m [set_fos (Some f) demo_plane] = [set_fos (Some f) demo_plane]).
    { unfold tidy. cbn [filter has_fos set_fos p_fos sort_by]. cbn. destruct m as [x|]; auto.
      cbn in PA. unR. destruct (Reqb x 0) eqn:X; auto. rbool. destruct PA as [PA|PA]; [lra|].
      cbn. rewrite (proj2 (Rleb_true f x)); auto. }
    rewrite I. reflexivity.
  Qed.
End DemoFactor.
Section DemoRun.
  Context {EN : Env}.
  Lemma accepted_quiet (s s' : st R) ops : accepted s ops s' -> quiet_run s ops /\ run s ops = s'.
  Proof.
    induction 1 as [|s o l s1 s2 E A IH]; [split; [exact I|reflexivity]|].
    assert (N : step s o = s1) by (unfold step; now rewrite E).
    cbn [quiet_run]. rewrite N. destruct IH as (Q & G). split.
    - split; [rewrite E; reflexivity|exact Q].
    - unfold run in *. cbn [fold_left]. now rewrite N.
  Qed.
  (** the demo model, the circle and an analysis, from the constructor on *)
  Definition demo_run : list (op R) :=
    firstn 7 demo_ops ++ [AddCircle 12 (29 / 2) (15 / 2); Analyse None].
  Lemma demo_run_ok : quiet_run demo0 demo_run /\
    exists f, 0 < f /\ get_min_FOS (snd (run demo0 demo_run)) = Ok (Some f).
  Proof.
    destruct (demo5_analysed None) as (f & s' & P & E & G).
    assert (A : accepted demo0 demo_run s').
    { change demo_run with (firstn 4 demo_ops ++ [SetMaterials [RefMaterial 1; RefMaterial 0];
        SetUdls [RefUdl 0]; SetLls [RefLload 0]; AddCircle 12 (29 / 2) (15 / 2); Analyse None]).
      eapply accepted_app; [apply demo1_acc|].
      econstructor; [apply demo2_exec|]. econstructor; [apply demo3_exec|].
      econstructor; [apply demo4_exec|]. econstructor; [apply demo5_exec|].
      econstructor; [exact E|constructor]. }
    destruct (accepted_quiet _ _ _ A) as (Q & ->). split; auto. exists f. split; auto.
    apply G. exact I.
  Qed.
End DemoRun.
