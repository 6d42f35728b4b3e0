(** * WeakFacts: a slope of weak clay has a circle with a small factor, and its
    page is shown (C65, C69). *)
From Coq Require Import ZArith Reals Lra Lia List Bool.
From Verif Require Import Num Py Validation Utilities Objects Slope Planes Analysis
     Dynamic Api RealNum RealFacts ListFacts MonadFacts SlopeFacts Invariant
     History Spec EditFacts GroundFacts CircleFacts SearchFacts PlaneFacts ViewFacts FosFacts SliceFacts
     GridFacts FaceFacts FosMore FosTotal SoilFacts StrengthFacts ScaleFacts WetFacts CohesiveFacts HitFacts.
Import ListNotations.
Local Open Scope R_scope.

Lemma rsum_at_most {A} (f : A -> R) K l : (forall x, In x l -> f x <= K) ->
  rsum (map f l) <= IZR (Z.of_nat (List.length l)) * K.
Proof.
  induction l as [|x l IH]; intros F; [cbn; lra|].
  cbn [map rsum List.length]. rewrite Nat2Z.inj_succ, succ_IZR.
  pose proof (F x (or_introl eq_refl)). specialize (IH (fun y I => F y (or_intror I))). lra.
Qed.
Lemma rsum_at_least {A} (f : A -> R) l x : (forall y, In y l -> 0 <= f y) -> In x l ->
  f x <= rsum (map f l).
Proof.
  induction l as [|y l IH]; intros F J; [destruct J|].
  destruct J as [ -> |I]; cbn [map rsum].
  - assert (0 <= rsum (map f l)).
    { apply rsum_nonneg. intros z J. apply in_map_iff in J as (u & <- & J). apply F. now right. }
    lra.
  - pose proof (F y (or_introl eq_refl)). specialize (IH (fun z J => F z (or_intror J)) I). lra.
Qed.

Section Weak.
  Context {EN : Env}.
  Notation stR := (st R).

  (** an upper bound of the factor of a circle that leans under the face *)
  Lemma weak_factor (s : stR) v cx cy r lx rx C : reachable s -> view_of s = Ok v ->
    cohesive s -> heavy s -> wet_ok s -> mats_of s <> [] ->
    (forall m, In m (mats_of s) -> m_cohesion m <= C) ->
    let g := s_geom (snd s) in
    0 <= lx <= fst (g_top g) -> fst (g_top g) < rx <= fst (g_bot g) ->
    on_circle cx cy r (lx, snd (g_top g)) -> on_circle cx cy r (rx, surface g rx) ->
    leaning g cx cy r (lx, snd (g_top g)) (rx, surface g rx) -> snd (g_top g) < cy ->
    exists f, bishop v cx cy r = Ok (Some f) /\ 0 < f /\
      f * ((cy - snd (g_top g)) * ((rx - lx) * (rx - lx) * (rx - lx)))
        <= 2 * C * IZR (s_slices (snd s)) * (r * r * r).
  Proof.
    intros Hr Ev CO HV WK NE MX g A B Ca Cb LN CY.
    destruct (view_sound s Hr) as (v0 & E0 & SV). assert (v0 = v) by congruence. subst v0.
    pose proof (core_good s (proj1 (reachable_inv s Hr))) as G. fold g in G.
    set (a := (lx, snd (g_top g))) in *. set (b := (rx, surface g rx)) in *.
    assert (SS : some_strength s).
    { intros m I. destruct (CO m I). split; [lra|now left]. }
    pose proof LN as [D1 D2 D3 EP BC BU].
    assert (LN' : leaning (v_geom v) cx cy r a b) by (rewrite (so_geom _ _ SV); exact LN).
    destruct (leaning_slices s v cx cy r a b SV SS (or_introl HV) LN' WK NE) as
      (sl & SO & DR & P & _).
    destruct (cohesive_factor s v cx cy r Hr Ev CO WK D1 D2 D3) as
      [(l & Cr & Ll & _)|(a' & b' & EP' & Q)]; [exfalso; eapply end_points_two; eauto|].
    destruct (end_points_det _ _ _ _ _ _ _ _ EP EP') as (Qa & Qb). subst a' b'.
    destruct Q as [(M & _)|(sl' & SO' & Q)]; [contradiction|].
    assert (sl' = sl) by (eapply slices_det; eauto). subst sl'.
    destruct Q as [(DN & _)|(_ & FP & Q)]; [lra|].
    exists (swedish (width v a b) sl). split; [exact Q|]. split; [exact FP|].
    pose proof (sound_good s v SV) as GV.
    pose proof (radius_pos v GV cx cy r a b D3 ltac:(rewrite (so_geom _ _ SV); exact EP)) as RP.
    pose proof (width_pos s v cx cy r a b SV ltac:(rewrite (so_geom _ _ SV); exact EP)) as WP.
    set (w := width v a b) in *.
    assert (N10 : (10 <= v_slices v)%Z) by (apply SV).
    assert (N0 : 10 <= IZR (v_slices v)) by (apply (IZR_le 10); lia).
    assert (Wd : IZR (v_slices v) * w = rx - lx).
    { unfold w, width. cbn [a b fst]. field. lra. }
    set (Da := cy - snd (g_top g)) in *. set (d := rx - lx) in *.
    assert (Da0 : 0 < Da) by (unfold Da; lra). assert (d0 : 0 < d) by (unfold d; lra).
    (* the base lengths *)
    assert (Num : rsum (map (fun t => sl_c t * (w / sl_cos t)) sl)
                  <= IZR (v_slices v) * (C * (w * (r / Da)))).
    { assert (Len : Z.of_nat (List.length sl) = v_slices v).
      { assert (L0 : List.length (zrange 0 (Z.to_nat (v_slices v))) = List.length sl)
          by (clear - SO; induction SO; cbn; congruence).
        rewrite zrange_length in L0. lia. }
      rewrite <- Len. apply rsum_at_most. intros t I.
      destruct (Forall2_In_r _ _ _ _ SO I) as (i & II & K). fold w in K.
      apply zrange_In in II. rewrite Z2Nat.id in II by lia.
      pose proof (mid_inside v a b i ltac:(lia) ltac:(cbn [a b fst]; lra) ltac:(lia)) as MI.
      fold w in MI. cbn [a b fst] in MI.
      destruct (sk_mat _ _ _ _ _ _ _ _ K) as (m & LM & Ec & _).
      destruct (layer_at_In _ _ _ LM) as (rl & IM).
      assert (Im : In m (mats_of s)) by (rewrite <- (so_mats_eq s v SV); apply in_map_iff; now exists (rl, m)).
      pose proof (MX m Im) as Cm. destruct (CO m Im) as (_ & C0). rewrite Ec.
      assert (Dp : Da <= drop_at cx r (mid_of lx w i)).
      { unfold drop_at. unfold on_circle in Ca. cbn [a fst snd] in Ca.
        rewrite <- (sqrt_Rsqr Da) by lra. apply sqrt_le_1_alt. unfold Rsqr, Da.
        cbn [b fst] in BC. nra. }
      rewrite (sk_cos _ _ _ _ _ _ _ _ K). cbn [a fst].
      set (dp := drop_at cx r (mid_of lx w i)) in *.
      apply Rmult_le_compat; [lra | | exact Cm |].
      - left. apply Rdiv_lt_0_compat; [lra|]. apply Rdiv_lt_0_compat; lra.
      - replace (w / (dp / r)) with (w * (r * / dp)) by (field; lra). unfold Rdiv.
        apply Rmult_le_compat_l; [lra|]. apply Rmult_le_compat_l; [lra|].
        apply Rinv_le_contravar; lra. }
    (* one slice near the middle *)
    set (i0 := ((v_slices v - 1) / 2)%Z).
    assert (I0 : (v_slices v - 2 <= 2 * i0 <= v_slices v - 1)%Z).
    { unfold i0. pose proof (Z.div_mod (v_slices v - 1) 2 ltac:(lia)).
      pose proof (Z.mod_pos_bound (v_slices v - 1) 2 ltac:(lia)). lia. }
    assert (Den : 981 / 100 * w * (9 / 80 * (d * d * d)) <= driving sl * (2 * (r * r))).
    { assert (J : In i0 (zrange 0 (Z.to_nat (v_slices v)))) by (apply zrange_In; lia).
      destruct (Forall2_In_l _ _ _ _ SO J) as (t & I & K). fold w in K.
      assert (Pt : forall u, In u sl -> 0 <= sl_W u * sl_sin u).
      { intros u Iu. destruct (P u Iu) as (_ & Su & _).
        destruct (Forall2_In_r _ _ _ _ SO Iu) as (k & IK & Ku). fold w in Ku.
        apply zrange_In in IK. rewrite Z2Nat.id in IK by lia.
        pose proof (mid_inside v a b k ltac:(lia) ltac:(cbn [a b fst]; lra) ltac:(lia)) as MI. fold w in MI.
        destruct (slice_weight_soil s v _ _ _ _ _ _ _ SV Ku) as (W & SW & LW).
        assert (Hy : sl_yb u < sl_yt u).
        { rewrite (sk_yt _ _ _ _ _ _ _ _ Ku), (sk_yb _ _ _ _ _ _ _ _ Ku), (so_geom _ _ SV). fold g.
          eapply Rlt_le_trans; [|apply Rmax_l]. apply BU. exact MI. }
        assert (NEv : v_mats v <> []).
        { intros Q0. apply NE. now rewrite <- (so_mats_eq s v SV), Q0. }
        pose proof (soil_weight_heavy s v w _ _ W SV HV NEv WP Hy SW).
        assert (0 < w * (sl_yt u - sl_yb u)) by (apply Rmult_lt_0_compat; lra). nra. }
      apply Rle_trans with (sl_W t * sl_sin t * (2 * (r * r)));
        [|apply Rmult_le_compat_r; [nra|apply (rsum_at_least _ sl t Pt I)]].
      pose proof (mid_inside v a b i0 ltac:(lia) ltac:(cbn [a b fst]; lra) ltac:(lia)) as MI. fold w in MI.
      destruct (slice_weight_soil s v _ _ _ _ _ _ _ SV K) as (W & SW & LW).
      cbn [a b fst] in MI, K, SW. set (x := mid_of lx w i0) in *.
      pose proof (face_depth g G cx cy r lx rx x A B Ca Cb D3 MI) as Dp.
      assert (Hy : surface g x - base_at cx cy r x <= sl_yt t - sl_yb t).
      { rewrite (sk_yt _ _ _ _ _ _ _ _ K), (sk_yb _ _ _ _ _ _ _ _ K), (so_geom _ _ SV).
        fold g x. pose proof (Rmax_l (surface g x) (base_at cx cy r x)). lra. }
      assert (Hy0 : sl_yb t < sl_yt t).
      { pose proof (BU x MI) as Q0. lra. }
      assert (NEv : v_mats v <> []).
      { intros Q0. apply NE. now rewrite <- (so_mats_eq s v SV), Q0. }
      pose proof (soil_weight_heavy s v w _ _ W SV HV NEv WP Hy0 SW) as SH.
      assert (Xa : 9 / 20 * d <= x - lx /\ d / 2 <= rx - x).
      { unfold x, mid_of. rewrite <- Wd.
        assert (IZR (v_slices v) - 2 <= 2 * IZR i0 <= IZR (v_slices v) - 1).
        { rewrite <- mult_IZR, <- !minus_IZR. split; apply IZR_le; lia. }
        assert (rx = lx + IZR (v_slices v) * w) by (pose proof Wd as Wx; unfold d in Wx; lra).
        split; [|]; nra. }
      assert (Sx : (rx - x) / r <= sl_sin t).
      { rewrite (sk_sin _ _ _ _ _ _ _ _ K). fold x. unfold Rdiv. apply Rmult_le_compat_r.
        - left. now apply Rinv_0_lt_compat.
        - cbn [b fst] in BC. lra. }
      assert (S1 : (rx - x) <= sl_sin t * r).
      { apply (Rmult_le_compat_r r) in Sx; [|lra]. unfold Rdiv in Sx.
        rewrite Rmult_assoc, Rinv_l in Sx by lra. lra. }
      set (D := sl_yt t - sl_yb t) in *.
      assert (Z1 : (x - lx) * (rx - x) <= 2 * r * D).
      { eapply Rle_trans; [exact Dp|]. apply Rmult_le_compat_l; lra. }
      assert (Z2 : 9 / 80 * (d * d * d) <= (x - lx) * (rx - x) * (rx - x)).
      { assert (9 / 20 * d * (d / 2) <= (x - lx) * (rx - x)) by (apply Rmult_le_compat; lra).
        assert (9 / 20 * d * (d / 2) * (d / 2) <= (x - lx) * (rx - x) * (rx - x))
          by (apply Rmult_le_compat; try lra; nra). lra. }
      assert (Z3 : (x - lx) * (rx - x) * (rx - x) <= 2 * r * D * (sl_sin t * r)).
      { apply Rmult_le_compat; try lra. apply Rmult_le_pos; lra. }
      assert (S0 : 0 <= sl_sin t) by (destruct (P t I) as (_ & Q1 & _); lra).
      assert (Z4 : 981 / 100 * (w * D) * (sl_sin t * (2 * (r * r))) <= sl_W t * (sl_sin t * (2 * (r * r)))).
      { apply Rmult_le_compat_r; [|lra]. apply Rmult_le_pos; [lra|nra]. }
      assert (Z5 : 981 / 100 * w * (9 / 80 * (d * d * d)) <= 981 / 100 * w * (2 * r * D * (sl_sin t * r))).
      { apply Rmult_le_compat_l; [nra|]. lra. }
      replace (981 / 100 * w * (2 * r * D * (sl_sin t * r)))
        with (981 / 100 * (w * D) * (sl_sin t * (2 * (r * r)))) in Z5 by ring.
      replace (sl_W t * sl_sin t * (2 * (r * r))) with (sl_W t * (sl_sin t * (2 * (r * r)))) by ring. lra. }
    (* together *)
    rewrite <- (so_slices _ _ SV). set (n := IZR (v_slices v)) in *.
    unfold swedish in *. set (F := rsum (map (fun t => sl_c t * (w / sl_cos t)) sl)) in *.
    set (R0 := driving sl) in *.
    assert (C0 : 0 <= C).
    { destruct (mats_of s) as [|m l] eqn:Em; [contradiction|].
      pose proof (MX m (or_introl eq_refl)). destruct (CO m) as (_ & ?); [rewrite Em; now left|]. lra. }
    assert (K1 : F / R0 * R0 = F) by (field; lra).
    set (q := F / R0) in *.
    assert (K2 : q * (981 / 100 * w * (9 / 80 * (d * d * d))) <= q * (R0 * (2 * (r * r)))).
    { apply Rmult_le_compat_l; lra. }
    assert (K3 : q * (R0 * (2 * (r * r))) = F * (2 * (r * r))) by (rewrite <- K1; ring).
    assert (K4 : F * (2 * (r * r)) <= n * (C * (w * (r / Da))) * (2 * (r * r))).
    { apply Rmult_le_compat_r; [nra|exact Num]. }
    assert (K5 : n * (C * (w * (r / Da))) * (2 * (r * r)) * Da = w * (2 * C * n * (r * r * r))) by (field; lra).
    assert (K6 : q * (981 / 100 * w * (9 / 80 * (d * d * d))) * Da <= w * (2 * C * n * (r * r * r))).
    { rewrite <- K5. apply Rmult_le_compat_r; lra. }
    apply (Rmult_le_reg_l w); [exact WP|].
    eapply Rle_trans; [|exact K6].
    replace (q * (981 / 100 * w * (9 / 80 * (d * d * d))) * Da)
      with (w * (q * (Da * (d * d * d))) * (8829 / 8000)) by field.
    assert (0 <= w * (q * (Da * (d * d * d)))).
    { apply Rmult_le_pos; [lra|]. apply Rmult_le_pos; [lra|]. apply Rmult_le_pos; [lra|]. nra. }
    lra.
  Qed.

  (** the flattest of five or six circles *)
  Lemma flattest_size l r n cx cy rad : fst l < fst r -> snd r <= snd l ->
    (5 <= n <= 6)%Z -> circle_k l r n 1 l r cx cy rad ->
    let h := chord l r / 2 in let cs := (fst r - fst l) / chord l r in
    rad * cs <= 693 / 100 * h /\ 28 / 10 * h <= cy - snd l.
  Proof.
    intros D Dn N (Er & _ & Ey) h cs.
    destruct (chord_unit l r D Dn) as (H0 & C0 & S0 & U & X & Y). fold h cs in H0, C0, S0, U, X, Y.
    set (sn := (snd l - snd r) / chord l r) in *.
    destruct (first_rise_near l r D Dn) as (B1 & B2). fold h cs in B1, B2.
    pose proof (rise_near l r D Dn n 1 ltac:(lia) ltac:(lia) ltac:(lia)) as (E1 & _). fold h cs in E1.
    destruct (first_rise_bounds l r D) as (B0 & _).
    assert (P : 5 <= IZR n) by (apply (IZR_le 5); lia).
    set (e := rise l r n 1) in *.
    assert (E2 : e <= h * cs / (775 / 100)).
    { unfold e, rise. cbn [Z.of_nat]. change (IZR (Z.pos (Pos.of_succ_nat 0))) with 1.
      assert (Q : 0 < / IZR n <= / 5).
      { split; [apply Rinv_0_lt_compat; lra | apply Rinv_le_contravar; lra]. }
      unfold Rdiv at 1. rewrite Rmult_1_r.
      apply Rle_trans with (first_rise l r * / 5); [apply Rmult_le_compat_l; lra|]. lra. }
    assert (M : 0 < h * cs) by nra.
    assert (E0 : 0 < e) by lra.
    assert (Z : 2 * e * (rad - e) = h * h - e * e).
    { rewrite Er. unfold rise_radius. fold h. field. lra. }
    assert (Q : 2 * e * rad = h * h + e * e) by lra.
    assert (E3 : e <= h / (775 / 100)) by nra.
    split.
    - apply (Rmult_le_reg_l (2 * e)); [lra|].
      replace (2 * e * (rad * cs)) with ((2 * e * rad) * cs) by ring. rewrite Q.
      assert (A1 : h * cs <= 132 / 10 * e) by lra.
      assert (A2 : h * h * cs <= 132 / 10 * e * h) by nra.
      assert (A4 : e * e * cs <= e * (h / (775 / 100))) by nra. nra.
    - assert (A2 : e * e <= h * h / 60) by nra.
      assert (K : 38 / 10 * h <= cs * (rad - e)).
      { apply (Rmult_le_reg_l (2 * e)); [lra|].
        replace (2 * e * (cs * (rad - e))) with (cs * (2 * e * (rad - e))) by ring. rewrite Z.
        assert (59 / 60 * (h * h) * cs <= cs * (h * h - e * e)) by nra.
        assert (2 * e * (38 / 10 * h) <= 2 * (h * cs / (775 / 100)) * (38 / 10 * h)) by nra. nra. }
      rewrite Ey. fold e cs.
      assert (sn <= 1) by nra.
      replace (snd r) with (snd l - 2 * h * sn) by lra. nra.
  Qed.
  Lemma fifth_power c : 44 / 100 <= c -> 16 / 1000 <= c * c * c * (c * c).
  Proof.
    intros H. assert (A : 19 / 100 <= c * c) by nra.
    assert (B : 19 / 100 * (19 / 100) <= c * c * (c * c)) by (apply Rmult_le_compat; lra).
    nra.
  Qed.
  Lemma weak_pair (s : stR) v lx rx c C : reachable s -> view_of s = Ok v ->
    cohesive s -> heavy s -> wet_ok s -> mats_of s <> [] ->
    (forall m, In m (mats_of s) -> m_cohesion m <= C) ->
    let g := s_geom (snd s) in
    let n := num_circles_of (s_iterations (snd s)) in
    let l := (lx, snd (g_top g)) in let r := (rx, surface g rx) in
    (n <= 6)%Z -> g_gradient g <= 2 ->
    0 <= lx <= fst (g_top g) -> fst (g_top g) < rx <= fst (g_bot g) -> steady g n lx rx ->
    3 / 10 * (rx - lx) <= snd (g_top g) - surface g rx ->
    800 * (C * IZR (s_slices (snd s))) <= rx - lx ->
    pair_circle l r n 1 c ->
    exists f, factor v c = Ok (Some f) /\ 0 < f <= 5.
  Proof.
    intros Hr Ev CO HV WK NE MX g n l r N6 G2 A B S Gr CN Pc.
    pose proof (core_good s (proj1 (reachable_inv s Hr))) as G. fold g in G.
    assert (N5 : (5 <= n)%Z) by (unfold n, num_circles_of; lia).
    pose proof (pair_leans g lx rx n c G A B S N5 Gr Pc) as LN. fold l r in LN.
    pose proof Pc as (_ & _ & _ & Ck).
    assert (D : fst l < fst r) by (cbn; lra).
    pose proof (grad_nonneg g G) as Gn.
    assert (Fr : surface g rx = snd (g_top g) - (rx - fst (g_top g)) * g_gradient g)
      by (apply surface_face; auto; lra).
    assert (Dn : snd r <= snd l) by (cbn; nra).
    destruct (circle_through l r D Dn n 1 _ _ _ ltac:(lia) ltac:(lia) Ck) as (Cl & Cr & _).
    destruct (flattest_size l r n _ _ _ D Dn ltac:(lia) Ck) as (Rc & Da).
    destruct (chord_unit l r D Dn) as (H0 & C0 & S0 & U & X & Y).
    set (h := chord l r / 2) in *. set (cs := (fst r - fst l) / chord l r) in *.
    set (sn := (snd l - snd r) / chord l r) in *.
    assert (C2 : 44 / 100 <= cs).
    { assert (snd l - snd r <= 2 * (fst r - fst l)) by (cbn [l r fst snd]; rewrite Fr; nra).
      assert (sn <= 2 * cs) by nra. nra. }
    change (snd l) with (snd (g_top g)) in Da.
    destruct (weak_factor s v (p_cx c) (p_cy c) (p_radius c) lx rx C Hr Ev CO HV WK NE MX A B Cl Cr LN)
      as (f & Ef & F0 & Fb); [fold g; lra|].
    exists f. split; [exact Ef|]. split; [exact F0|].
    fold g in Fb. set (Dd := p_cy c - snd (g_top g)) in *. set (d := rx - lx) in *. set (ra := p_radius c) in *.
    assert (Xd : d = 2 * h * cs) by (exact X).
    set (K := C * IZR (s_slices (snd s))) in *.
    assert (P5 := fifth_power cs C2).
    assert (Ra : ra * ra * ra * (cs * cs * cs) <= 333 * (h * h * h)).
    { destruct (Rle_lt_dec ra 0) as [Q|Q].
      - assert (0 <= ra * ra) by nra. assert (ra * ra * ra <= 0) by nra.
        assert (0 < cs * cs) by nra. assert (0 < cs * cs * cs) by nra.
        assert (0 < h * h) by nra. assert (0 < h * h * h) by nra. nra.
      - assert (Q1 : 0 <= ra * cs) by nra.
        assert (Q2 : (ra * cs) * (ra * cs) <= (693 / 100 * h) * (693 / 100 * h)) by (apply Rmult_le_compat; lra).
        assert (Q3 : (ra * cs) * (ra * cs) * (ra * cs) <= (693 / 100 * h) * (693 / 100 * h) * (693 / 100 * h))
          by (apply Rmult_le_compat; try lra; nra).
        assert (0 < h * h) by nra. assert (0 < h * h * h) by nra. lra. }
    destruct (Rle_lt_dec f 5) as [Q|Q]; [exact Q|exfalso].
    assert (h2 : 0 < h * h) by nra. assert (h3 : 0 < h * h * h) by nra.
    assert (c2 : 0 < cs * cs) by nra. assert (c3 : 0 < cs * cs * cs) by nra.
    assert (L1 : 5 * (28 / 10 * h * (8 * (h * h * h) * (cs * cs * cs))) < f * (Dd * (d * d * d))).
    { assert (Xd3 : d * d * d = 8 * (h * h * h) * (cs * cs * cs)) by (rewrite Xd; ring). rewrite Xd3.
      assert (0 < 8 * (h * h * h) * (cs * cs * cs)) by nra.
      assert (28 / 10 * h * (8 * (h * h * h) * (cs * cs * cs)) <= Dd * (8 * (h * h * h) * (cs * cs * cs))) by nra.
      assert (0 < 28 / 10 * h * (8 * (h * h * h) * (cs * cs * cs))) by (apply Rmult_lt_0_compat; nra).
      nra. }
    assert (K0 : 0 <= K).
    { destruct (mats_of s) as [|m ms] eqn:Em; [contradiction|].
      pose proof (MX m (or_introl eq_refl)). destruct (CO m) as (_ & ?); [rewrite Em; now left|].
      unfold K. apply Rmult_le_pos; [lra|].
      destruct (view_sound s Hr) as (v0 & E0 & SV).
      pose proof (so_slices_b _ _ SV) as SB. rewrite (so_slices _ _ SV) in SB. apply (IZR_le 0). lia. }
    assert (L2 : 112 * h * (h * h * h) * (cs * cs * cs) * (cs * cs * cs) < 2 * K * (333 * (h * h * h))).
    { apply Rlt_le_trans with (2 * K * (ra * ra * ra) * (cs * cs * cs)).
      - apply Rmult_lt_compat_r; [exact c3|]. unfold K. lra.
      - replace (2 * K * (ra * ra * ra) * (cs * cs * cs)) with (2 * K * (ra * ra * ra * (cs * cs * cs))) by ring.
        apply Rmult_le_compat_l; lra. }
    assert (L3 : 112 * h * ((cs * cs * cs) * (cs * cs * cs)) < 666 * K).
    { apply (Rmult_lt_reg_r (h * h * h)); [exact h3|]. lra. }
    assert (L4 : 16 / 1000 * (h * cs) <= h * ((cs * cs * cs) * (cs * cs * cs))).
    { replace (h * ((cs * cs * cs) * (cs * cs * cs))) with (h * cs * (cs * cs * cs * (cs * cs))) by ring.
      assert (0 < h * cs) by nra. nra. }
    lra.
  Qed.

  (** the analysis of the page keeps the circles with a factor of at most 5 *)
  Lemma weak_found (s s' : stR) C : reachable s -> lls_of s = [] -> udls_of s = [] ->
    s_planes (snd s) = [] -> face_grid (1 / 100) s -> falls s ->
    (s_iterations (snd s) < 5600)%Z -> g_gradient (s_geom (snd s)) <= 2 ->
    cohesive s -> heavy s -> wet_ok s -> mats_of s <> [] ->
    (forall m, In m (mats_of s) -> m_cohesion m <= C) ->
    800 * (C * IZR (s_slices (snd s))) <= lim_right (s_limits (snd s)) - lim_left_r (s_limits (snd s)) ->
    analyse_slope (Some 5) s = (Ok tt, s') -> s_search (snd s') <> [].
  Proof.
    intros Hr NL NU NP F (Cd & Gr) IT G2 CO HV WK NE MX CN E Q.
    destruct (search_spec (Some 5) s s' E) as (v & cs & Ev & A & _ & Iff & _).
    destruct A as [(_ & A)|(A & _)]; [|contradiction].
    destruct (last_tried s v cs Hr NL NU Ev A F Cd) as (c & I & Pc).
    destruct (view_sound s Hr) as (v0 & E0 & SO). assert (v0 = v) by congruence. subst v0.
    destruct (so_lim _ _ SO) as (L1 & L2 & L3 & L4 & L5 & L6).
    rewrite (so_lim_eq _ _ SO) in L1, L2, L3, L4, L5, L6.
    pose proof (so_iter _ _ SO) as IB. rewrite (so_iter_eq _ _ SO) in IB.
    pose proof (num_points_bot_spec _ (proj1 IB)) as B1. cbv zeta in B1.
    pose proof (ten_entries _ (proj1 IB)) as Top.
    assert (K2 : (1 <= num_points_bot_of (T := R) (s_iterations (snd s)))%Z)
      by (eapply Z.le_trans; [|exact (proj1 B1)]; eapply Z.le_trans; [|exact Top]; lia).
    destruct (face_steady (1 / 100) s (lim_left_r (s_limits (snd s))) (lim_right (s_limits (snd s)))
                Hr ltac:(lra) F) as (S & Z1 & Z2 & _); [lra | now apply last_exit |].
    assert (N6 : (num_circles_of (s_iterations (snd s)) <= 6)%Z).
    { unfold num_circles_of.
      assert (s_iterations (snd s) / 800 < 7)%Z by (apply Z.div_lt_upper_bound; lia). lia. }
    destruct (weak_pair s v _ _ c C Hr Ev CO HV WK NE MX N6 G2 Z1 Z2 S Gr CN Pc) as (f & B & P).
    assert (J : In (set_fos (Some f) c) (s_search (snd s'))).
    { apply Iff. exists c, f. split; [exact I|]. split; [|split; [cbn; lra|reflexivity]].
      unfold record_of, circle_of. cbn. auto. }
    rewrite Q in J. destruct J.
  Qed.
End Weak.
