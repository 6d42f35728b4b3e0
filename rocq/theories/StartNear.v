(** * StartNear: the circle laid through two points of the ground, computed and exact (C119;
    pyslope.py:1117-1150, utilities.py:27-49). *)
From Coq Require Import ZArith Reals Lra Lia Bool List SpecFloat.
From Verif Require Import Num FloatNum RealNum Py Validation Utilities Objects Slope Planes RealFacts RoundTheory NearFacts SumNear WeightNear CircleNear
     SinNear AtanNear AngleNear TurnNear CrossNear.
Import ListNotations.
Local Open Scope R_scope.

Lemma p60 : p2 (-60) <= u / 100.
Proof.
  unfold u. replace (-60)%Z with (-53 + - (7))%Z by reflexivity. rewrite p2_add, p2_neg, (p2_IZR 7) by lia.
  change (2 ^ 7)%Z with 128%Z. pose proof (p2_pos (-53)). lra.
Qed.
Lemma below_top x e : Rabs x <= p2 e -> (e < 1023)%Z -> Rabs x < p2 1023.
Proof. intros B L. apply Rle_lt_trans with (1 := B). now apply p2_lt. Qed.

Section Start.
  Context (l r : point float) (t : float) (S : R).
  Context (V1 : valid (fst l)) (V2 : valid (snd l)) (V3 : valid (fst r)) (V4 : valid (snd r)) (Vt : valid t).
  Context (B1 : Rabs (FR (fst l)) <= S) (B2 : Rabs (FR (snd l)) <= S) (B3 : Rabs (FR (fst r)) <= S) (B4 : Rabs (FR (snd r)) <= S) (BS : S <= p2 100).
  Let DX := FR (fst r) - FR (fst l).
  Let DY := FR (snd l) - FR (snd r).
  Let D := sqrt (DX ^ 2 + DY ^ 2).
  Context (BX : p2 (-100) <= DX) (Bt : p2 (-100) <= FR t <= p2 100).
  Let dx := nsub (fst r) (fst l).
  Let dy := nsub (snd l) (snd r).

  Lemma DX_pos : 0 < DX.
  Proof. pose proof (p2_pos (-100)). lra. Qed.
  Lemma p101 : p2 100 + p2 100 = p2 101.
  Proof. change 101%Z with (100 + 1)%Z. rewrite p2_add, (p2_IZR 1) by lia. change (2 ^ 1)%Z with 2%Z. ring. Qed.
  Lemma DX_big : Rabs DX <= p2 101.
  Proof. unfold DX, Rminus. apply Rle_trans with (1 := Rabs_triang _ _). rewrite Rabs_Ropp. pose proof p101. lra. Qed.
  Lemma DY_big : Rabs DY <= p2 101.
  Proof. unfold DY, Rminus. apply Rle_trans with (1 := Rabs_triang _ _). rewrite Rabs_Ropp. pose proof p101. lra. Qed.
  Lemma D_square : DX ^ 2 + DY ^ 2 = D ^ 2.
  Proof. unfold D. rewrite pow2_sqrt; [reflexivity|]. pose proof (pow2_ge_0 DX). pose proof (pow2_ge_0 DY). lra. Qed.
  Lemma D_low : DX <= D /\ Rabs DY <= D.
  Proof.
    pose proof DX_pos. assert (D0 : 0 <= D) by apply sqrt_pos. pose proof D_square as Q. pose proof (pow2_ge_0 DX). pose proof (pow2_ge_0 DY).
    split; (apply Rsqr_incr_0; unfold Rsqr; [|try lra; apply Rabs_pos|lra]).
    - nra.
    - replace (Rabs DY * Rabs DY) with (DY ^ 2) by (rewrite <- pow2_abs; ring). nra.
  Qed.
  Lemma D_band : p2 (-100) <= D <= p2 102.
  Proof.
    pose proof D_low as (L & _). split; [lra|]. pose proof DX_big as X. pose proof DY_big as Y. assert (D0 : 0 <= D) by apply sqrt_pos.
    apply Rsqr_incr_0; unfold Rsqr; [|lra|left; apply p2_pos]. replace (D * D) with (DX ^ 2 + DY ^ 2) by (rewrite D_square; ring).
    rewrite <- (pow2_abs DX), <- (pow2_abs DY). change 102%Z with (101 + 1)%Z. rewrite p2_add, (p2_IZR 1) by lia. change (2 ^ 1)%Z with 2%Z.
    assert (Q : forall a b, 0 <= a <= b -> a ^ 2 <= b ^ 2) by (intros; apply pow_incr; lra).
    pose proof (Q (Rabs DX) _ (conj (Rabs_pos _) X)). pose proof (Q (Rabs DY) _ (conj (Rabs_pos _) Y)). pose proof (p2_pos 101). nra.
  Qed.
  Lemma dx_near : valid dx /\ Rabs (FR dx - DX) <= u * Rabs DX.
  Proof. apply (sub_near (fst r) (fst l) V3 V1). apply (below_top _ 101); [apply DX_big|lia]. Qed.
  Lemma dy_near : valid dy /\ Rabs (FR dy - DY) <= u * Rabs DY.
  Proof. apply (sub_near (snd l) (snd r) V2 V4). apply (below_top _ 101); [apply DY_big|lia]. Qed.

  (** the angle of the chord *)
  Let beta := natan (ndiv dy dx).
  Lemma chord_angle : FR dx <> 0 /\
    (valid (ncos beta) /\ Rabs (FR (ncos beta) - DX / D) <= 7 * u) /\ (valid (nsin beta) /\ Rabs (FR (nsin beta) - DY / D) <= 7 * u).
  Proof.
    pose proof DX_pos as Xp. pose proof D_band as (Dl & _). pose proof (p2_pos (-100)). destruct dx_near as (Vd & Nd). destruct dy_near as (Vy & Ny).
    rewrite (Rabs_right DX) in Nd by lra. pose proof u_pos as Up. assert (Ur : u <= / 1000000) by (rewrite u_val; lra).
    pose proof (abs_span _ _ Nd) as Sd. assert (Hd : 0.99 * DX <= FR dx) by nra. split; [lra|].
    set (z := DY / DX). set (z1 := FR dy / FR dx).
    assert (Nz : Rabs (z1 - z) <= (2.3 * u) * Rabs z).
    { replace (z1 - z) with (((FR dy - DY) * DX - DY * (FR dx - DX)) * (/ DX * / FR dx)) by (unfold z1, z; field; lra).
      assert (I1 : 0 < / DX) by (apply Rinv_0_lt_compat; lra). assert (I2 : 0 < / FR dx) by (apply Rinv_0_lt_compat; lra).
      rewrite Rabs_mult, (Rabs_right (/ DX * / FR dx)) by (apply Rle_ge, Rmult_le_pos; lra).
      assert (A : Rabs ((FR dy - DY) * DX - DY * (FR dx - DX)) <= Rabs DY * (2 * u * DX)).
      { apply Rle_trans with (1 := Rabs_triang _ _). rewrite Rabs_Ropp, !Rabs_mult, (Rabs_right DX) by lra. pose proof (Rabs_pos DY).
        assert (Rabs DY * Rabs (FR dx - DX) <= Rabs DY * (u * DX)) by (apply Rmult_le_compat_l; lra).
        assert (Rabs (FR dy - DY) * DX <= u * Rabs DY * DX) by (apply Rmult_le_compat_r; lra). lra. }
      apply Rle_trans with (Rabs DY * (2 * u * DX) * (/ DX * / FR dx)).
      { apply Rmult_le_compat_r; [apply Rmult_le_pos; lra|exact A]. }
      unfold z, Rdiv. rewrite Rabs_mult, (Rabs_right (/ DX)) by lra.
      replace (Rabs DY * (2 * u * DX) * (/ DX * / FR dx)) with ((2 * u * DX * / FR dx) * (Rabs DY * / DX)) by ring.
      apply Rmult_le_compat_r; [apply Rmult_le_pos; [apply Rabs_pos|lra]|].
      apply Rmult_le_reg_r with (FR dx); [lra|]. rewrite Rmult_assoc, Rinv_l, Rmult_1_r by lra. nra. }
    assert (Az : Rabs (atan z1 - atan z) <= 2.3 * u).
    { apply Rle_trans with (1 := atan_relative z z1 (2.3 * u) ltac:(lra) Nz). pose proof (lean z). nra. }
    assert (Zb : Rabs z1 <= p2 205).
    { assert (Rabs z <= p2 201).
      { unfold z, Rdiv. rewrite Rabs_mult, Rabs_inv, (Rabs_right DX) by lra. apply Rmult_le_reg_r with DX; [assumption|].
        rewrite Rmult_assoc, Rinv_l, Rmult_1_r by lra. apply Rle_trans with (1 := DY_big). change 201%Z with (101 + 100)%Z. rewrite p2_add.
        assert (P1 : p2 100 * p2 (-100) = 1) by (rewrite <- p2_add; reflexivity). pose proof (p2_pos 101). pose proof (p2_pos 100).
        apply Rle_trans with (p2 101 * (p2 100 * p2 (-100))); [rewrite P1; lra|]. rewrite <- Rmult_assoc. apply Rmult_le_compat_l; [nra|lra]. }
      replace z1 with ((z1 - z) + z) by ring. apply Rle_trans with (1 := Rabs_triang _ _).
      change 205%Z with (4 + 201)%Z. rewrite p2_add, (p2_IZR 4) by lia. change (2 ^ 4)%Z with 16%Z. pose proof (p2_pos 201). nra. }
    destruct (div_near dy dx Vy Vd) as (Vq & Nq); [lra|fold z1; apply (below_top _ 205); [exact Zb|lia]|]. fold z1 in Nq. unfold near in Nq.
    change (SFdiv prec emax dy dx) with (ndiv dy dx) in *. set (q := ndiv dy dx) in *.
    assert (Et : eta <= p2 (-60)) by (unfold eta; apply p2_le; lia).
    assert (Aq : Rabs (atan (FR q) - atan z1) <= u + p2 (-60)).
    { destruct (Rle_dec (u * Rabs z1) eta) as [L|L].
      - rewrite Rmax_right in Nq by lra. apply Rle_trans with (1 := atan_lip _ _). lra.
      - rewrite Rmax_left in Nq by lra. apply Rle_trans with (1 := atan_relative z1 (FR q) u ltac:(lra) Nq).
        pose proof (lean z1). pose proof (p2_pos (-60)). nra. }
    destruct (atan_near q Vq) as (Va & Na). change (f_atan q) with beta in *. pose proof (atan_size (FR q)) as As. pose proof p60 as P60.
    assert (Ta : Rabs (FR beta - atan z) <= 5.9 * u).
    { replace (FR beta - atan z) with ((FR beta - atan (FR q)) + ((atan (FR q) - atan z1) + (atan z1 - atan z))) by ring.
      apply Rle_trans with (1 := Rabs_triang _ _). pose proof (Rabs_triang (atan (FR q) - atan z1) (atan z1 - atan z)). nra. }
    assert (Ba : Rabs (FR beta) <= 1.99).
    { replace (FR beta) with ((FR beta - atan (FR q)) + atan (FR q)) by ring. apply Rle_trans with (1 := Rabs_triang _ _). nra. }
    destruct (cos_of_atan DY DX D Xp ltac:(lra) D_square) as (EC & ES). fold z in EC, ES.
    destruct (cos_near beta Va Ba) as (Vc & Nc). destruct (sin_near beta Va Ba) as (Vs & Ns).
    change (f_cos beta) with (ncos beta) in *. change (f_sin beta) with (nsin beta) in *.
    split; (split; [assumption|]).
    - rewrite <- EC. replace (FR (ncos beta) - cos (atan z)) with ((FR (ncos beta) - cos (FR beta)) + (cos (FR beta) - cos (atan z))) by ring.
      apply Rle_trans with (1 := Rabs_triang _ _). pose proof (cos_lip (FR beta) (atan z)).
      assert (Rabs (cos (FR beta)) <= 1) by (apply Rabs_le, COS_bound). nra.
    - rewrite <- ES. replace (FR (nsin beta) - sin (atan z)) with ((FR (nsin beta) - sin (FR beta)) + (sin (FR beta) - sin (atan z))) by ring.
      apply Rle_trans with (1 := Rabs_triang _ _). pose proof (sin_lip (FR beta) (atan z)).
      assert (Rabs (sin (FR beta)) <= 1) by (apply Rabs_le, SIN_bound). nra.
  Qed.

  (** half the chord and the square of it *)
  Let H := D / 2.
  Let t0 := FR t.
  Let R0 := (H * H + t0 * t0) / (2 * t0).
  Let half := ndiv (nsqrt (nadd (nsq dy) (nsq dx))) (nz 2).
  Lemma two_close : about (nz 2 : float) 2 2 0 0.
  Proof.
    destruct (nz_FR 2 ltac:(cbn; lia)) as (V & E). pose proof (exact_close (nz 2) 2 V) as Q. rewrite E in Q. apply Q. rewrite Rabs_right; lra.
  Qed.
  Lemma half_close : about half H H 300 0.
  Proof.
    pose proof DX_pos. pose proof D_band as (Dl & Dh). pose proof (p2_pos (-100)). destruct D_low as (L1 & L2). pose proof u_pos. assert (Ur : u <= / 1000000) by (rewrite u_val; lra).
    assert (Mn : many = 35184372088832) by reflexivity.
    assert (AX : about dx DX D 1 0).
    { destruct dx_near as (V & N). split; [exact V|]. rewrite (Rabs_right DX) in * by lra. split; [exact L1|]. nra. }
    assert (AY : about dy DY D 1 0).
    { destruct dy_near as (V & N). split; [exact V|]. split; [exact L2|]. nra. }
    pose proof (band_mul _ _ _ _ _ _ (conj Dl Dh) (conj Dl Dh)) as (Q1 & Q2).
    assert (V2' : D * D <= vast) by (apply huge; apply Rle_trans with (1 := Q2); apply p2_le; lia).
    assert (E2 : eta <= u * (D * D)) by (apply (bulky _ _ Q1); lia).
    pose proof (times_close _ _ _ _ _ _ _ _ AX AX ltac:(lra) ltac:(lra) V2' E2) as SX.
    pose proof (times_close _ _ _ _ _ _ _ _ AY AY ltac:(lra) ltac:(lra) V2' E2) as SY.
    pose proof (plus_close false _ _ _ _ _ _ _ _ SY SX ltac:(lra) ltac:(lra) V2' V2') as SS. cbv iota in SS. rewrite Rmax_left in SS by lra.
    assert (DD : 0 < D * D) by (apply Rmult_lt_0_compat; lra).
    assert (EQ : DY * DY + DX * DX = D * D) by (pose proof D_square; nra). rewrite EQ in SS.
    assert (SG : about (nadd (nmul dy dy) (nmul dx dx)) (D * D) (D * D * 12) 8 0).
    { apply about_gross with (D * D + D * D); [apply about_weaken with (1 := SS); lra|lra|lra]. }
    destruct (root_close _ _ D 8 SG ltac:(lra) ltac:(lra) DD) as (_ & RT); [nra|lra|apply (bulky _ _ Dl); lia|apply Rle_trans with (1 := Dh); apply p2_le; lia|lra|].
    rewrite sqrt_square in RT by lra. replace (6 * 8 * (D / D)) with 48 in RT by (field; lra).
    assert (Z : Rabs (D / 2) <= D / 2) by (rewrite Rabs_right; lra).
    assert (EB : 2 * (48 * u * (3 * D) + D / 2 * (0 * u * 2)) / 2 = 144 * u * D) by field.
    assert (uD : 0 < u * D <= / 1000000 * D) by nra.
    destruct (over_close _ _ _ _ _ _ _ _ (D / 2) RT two_close ltac:(lra) ltac:(lra) ltac:(lra) ltac:(lra) Z) as (_ & V & N).
    { rewrite EB. apply huge. apply Rle_trans with D; [lra|]. apply Rle_trans with (1 := Dh). apply p2_le; lia. }
    { apply (bulky _ (-101)); [|lia]. change (-101)%Z with (-100 + - (1))%Z. rewrite p2_add, p2_neg, (p2_IZR 1) by lia. change (2 ^ 1)%Z with 2%Z. lra. }
    rewrite EB in N. split; [exact V|]. split; [unfold H; rewrite Rabs_right; lra|]. unfold half. unfold nsq in *. apply Rle_trans with (1 := N). unfold H. nra.
  Qed.
  Lemma H_band : p2 (-101) <= H <= p2 101.
  Proof.
    pose proof D_band as (Dl & Dh). unfold H. replace (-101)%Z with (-100 + - (1))%Z by reflexivity. replace 101%Z with (102 + - (1))%Z by reflexivity.
    rewrite !p2_add, p2_neg, (p2_IZR 1) by lia. change (2 ^ 1)%Z with 2%Z. lra.
  Qed.
  Lemma R0_band : p2 (-101) <= R0 <= p2 400 /\ t0 <= 2 * R0 /\ R0 * (2 * t0) = H * H + t0 * t0 /\ 0 < t0.
  Proof.
    pose proof H_band as (Hl & Hh). pose proof (p2_pos (-101)). pose proof (p2_pos (-100)). assert (T0 : 0 < t0) by (unfold t0; lra).
    assert (E : R0 * (2 * t0) = H * H + t0 * t0) by (unfold R0; field; lra).
    assert (HR : H <= R0). { apply (Rmult_le_reg_r (2 * t0)); [lra|]. rewrite E. pose proof (Rle_0_sqr (H - t0)) as Q. unfold Rsqr in Q. lra. }
    assert (TR : t0 <= 2 * R0). { apply (Rmult_le_reg_r t0); [lra|]. assert (0 <= H * H) by nra. lra. }
    split; [|auto]. split; [lra|].
    apply (Rmult_le_reg_r (2 * t0)); [lra|]. rewrite E.
    destruct (band_mul _ _ _ _ _ _ (conj Hl Hh) (conj Hl Hh)) as (_ & Q1). destruct (band_mul _ _ _ _ _ _ Bt Bt) as (_ & Q2). fold t0 in Q2.
    pose proof (p2_pos 400). apply Rle_trans with (p2 400 * (2 * p2 (-100))); [|apply Rmult_le_compat_l; unfold t0; lra].
    replace (p2 400 * (2 * p2 (-100))) with (2 * p2 300) by (replace 300%Z with (400 + -100)%Z by reflexivity; rewrite p2_add; ring).
    assert (p2 (101 + 101) <= p2 300) by (apply p2_le; lia). assert (p2 (100 + 100) <= p2 300) by (apply p2_le; lia). lra.
  Qed.
  (** the radius *)
  Lemma radius_close : exists rad, circle_radius_from_abcd t (nsq half) = Ok rad /\ about rad R0 R0 1850 0.
  Proof.
    pose proof u_pos. assert (Ur : u <= / 1000000) by (rewrite u_val; lra). assert (Mn : many = 35184372088832) by reflexivity.
    pose proof H_band as HB. pose proof (p2_pos (-101)). destruct R0_band as (RB & TR & ER & T0). pose proof half_close as AH.
    assert (Bt' : p2 (-100) <= t0 <= p2 100) by exact Bt.
    pose proof (band_mul _ _ _ _ _ _ HB HB) as (Q1 & Q2). pose proof (band_mul _ _ _ _ _ _ Bt' Bt') as (Q3 & Q4).
    assert (V1' : H * H <= vast) by (apply huge; apply Rle_trans with (1 := Q2); apply p2_le; lia).
    assert (V2' : t0 * t0 <= vast) by (apply huge; apply Rle_trans with (1 := Q4); apply p2_le; lia).
    assert (AT : about t t0 t0 0 0) by (apply exact_close; [exact Vt|unfold t0; rewrite Rabs_right; unfold t0 in T0; lra]).
    pose proof (times_close _ _ _ _ _ _ _ _ AH AH ltac:(lra) ltac:(lra) V1' ltac:(apply (bulky _ _ Q1); lia)) as AC.
    pose proof (times_close _ _ _ _ _ _ _ _ AT AT ltac:(lra) ltac:(lra) V2' ltac:(apply (bulky _ _ Q3); lia)) as AQ.
    pose proof (plus_close false _ _ _ _ _ _ _ _ AC AQ ltac:(lra) ltac:(lra) V1' V2') as AN. cbv iota in AN. rewrite Rmax_left in AN by lra.
    assert (L2 : p2 (-99) = 2 * p2 (-100)) by (replace (-99)%Z with (1 + -100)%Z by reflexivity; rewrite p2_add, (p2_IZR 1) by lia; reflexivity).
    assert (A2 : about (nmul (nz 2) t) (2 * t0) (2 * t0) 3 0).
    { pose proof (times_close _ _ _ _ _ _ _ _ two_close AT ltac:(lra) ltac:(lra)) as Q. apply about_weaken with (k := 2 * 0 + 0 + 3) (d := 0); [apply Q|lra|lra].
      - apply huge. apply Rle_trans with (p2 1 * p2 100); [rewrite (p2_IZR 1) by lia; change (2 ^ 1)%Z with 2%Z; lra|]. rewrite <- p2_add. apply p2_le; lia.
      - apply (bulky _ (-99)); [lra|lia]. }
    assert (Rp : 0 < R0) by lra.
    assert (Z : Rabs ((H * H + t0 * t0) / (2 * t0)) <= R0) by (fold R0; rewrite Rabs_right; lra).
    assert (EB : 2 * ((2 * 300 + 300 + 3 + 2) * u * (H * H + t0 * t0) + R0 * (3 * u * (2 * t0))) / (2 * t0) = 1816 * u * R0) by (rewrite <- ER; field; lra).
    assert (uR : 0 < u * R0 <= / 1000000 * R0) by nra.
    destruct (over_close _ _ _ _ _ _ _ _ R0 AN A2 ltac:(lra) ltac:(lra) ltac:(lra) ltac:(nra) Z) as (NZ & V & N).
    { rewrite EB. apply huge. apply Rle_trans with (2 * R0); [lra|]. apply Rle_trans with (p2 1 * p2 400); [rewrite (p2_IZR 1) by lia; change (2 ^ 1)%Z with 2%Z; lra|].
      rewrite <- p2_add. apply p2_le; lia. }
    { apply (bulky _ (-101)); [lra|lia]. }
    rewrite EB in N. fold R0 in N.
    exists (ndiv (nadd (nmul half half) (nmul t t)) (nmul (nz 2) t)). split.
    - unfold circle_radius_from_abcd, pydiv. destruct (nz_FR 0 ltac:(cbn; lia)) as (V0 & E0).
      replace (neqb (nmul (nz 2) t) (nz 0)) with false; [reflexivity|]. symmetry. cbn [neqb FNum]. rewrite eqb_FR, E0 by (apply A2 || assumption).
      apply Reqb_false. exact NZ.
    - split; [exact V|]. split; [rewrite Rabs_right; lra|]. apply Rle_trans with (1 := N). nra.
  Qed.
  (** the centre *)
  Let X0 := (FR (fst l) + FR (fst r)) / 2 + DY / D * (R0 - t0).
  Let Y0 := (FR (snd l) + FR (snd r)) / 2 + DX / D * (R0 - t0).
  Lemma mid_close a b : valid a -> valid b -> Rabs (FR a) <= S -> Rabs (FR b) <= S -> about (ndiv (nadd a b) (nz 2)) ((FR a + FR b) / 2) S 8 0.
  Proof.
    intros Va Vb La Lb. pose proof u_pos. assert (Ur : u <= / 1000000) by (rewrite u_val; lra). assert (Mn : many = 35184372088832) by reflexivity.
    assert (SL : p2 (-101) <= S).
    { pose proof (Rle_abs (FR (fst r))). pose proof (Rle_abs (- FR (fst l))) as Q. rewrite Rabs_Ropp in Q. unfold DX in BX.
      replace (-101)%Z with (-100 + - (1))%Z by reflexivity. rewrite p2_add, p2_neg, (p2_IZR 1) by lia. change (2 ^ 1)%Z with 2%Z. lra. }
    pose proof (p2_pos (-101)).
    assert (VS : S <= vast) by (apply huge; apply Rle_trans with (1 := BS); apply p2_le; lia).
    pose proof (plus_close false _ _ _ _ _ _ _ _ (exact_close a S Va La) (exact_close b S Vb Lb) ltac:(lra) ltac:(lra) VS VS) as A. cbv iota in A.
    rewrite Rmax_left in A by lra.
    assert (Z : Rabs ((FR a + FR b) / 2) <= S).
    { unfold Rdiv. rewrite Rabs_mult, (Rabs_right (/ 2)) by lra. pose proof (Rabs_triang (FR a) (FR b)). lra. }
    assert (EB : 2 * ((0 + 2) * u * (S + S) + S * (0 * u * 2)) / 2 = 4 * u * S) by field.
    assert (uS : 0 < u * S <= / 1000000 * S) by nra.
    destruct (over_close _ _ _ _ _ _ _ _ S A two_close ltac:(lra) ltac:(lra) ltac:(lra) ltac:(lra) Z) as (_ & V & N).
    { rewrite EB. apply huge. apply Rle_trans with (p2 1 * p2 100); [rewrite (p2_IZR 1) by lia; change (2 ^ 1)%Z with 2%Z; lra|].
      rewrite <- p2_add. apply p2_le; lia. }
    { apply (bulky _ _ SL); lia. }
    rewrite EB in N. split; [exact V|]. split; [exact Z|]. apply Rle_trans with (1 := N). nra.
  Qed.
  Lemma centre_close rad : about rad R0 R0 1850 0 ->
    about (fst (circle_centre beta (mid_coord l r) (nsub rad t))) X0 (S + 3 * R0) 1900 0 /\
    about (snd (circle_centre beta (mid_coord l r) (nsub rad t))) Y0 (S + 3 * R0) 1900 0.
  Proof.
    intros AR. pose proof u_pos. assert (Ur : u <= / 1000000) by (rewrite u_val; lra). assert (Mn : many = 35184372088832) by reflexivity.
    destruct R0_band as (RB & TR & ER & T0). pose proof (p2_pos (-101)). destruct D_low as (L1 & L2). pose proof DX_pos as Xp.
    assert (Bt' : p2 (-100) <= t0 <= p2 100) by exact Bt.
    assert (VR : 3 * R0 <= vast).
    { apply huge. apply Rle_trans with (p2 2 * p2 400); [rewrite (p2_IZR 2) by lia; change (2 ^ 2)%Z with 4%Z; lra|]. rewrite <- p2_add. apply p2_le; lia. }
    assert (VS : S <= vast) by (apply huge; apply Rle_trans with (1 := BS); apply p2_le; lia).
    assert (AT : about t t0 t0 0 0) by (apply exact_close; [exact Vt|unfold t0; rewrite Rabs_right; unfold t0 in T0; lra]).
    pose proof (plus_close true _ _ _ _ _ _ _ _ AR AT ltac:(lra) ltac:(lra) ltac:(lra) ltac:(lra)) as AD. cbv iota in AD. rewrite Rmax_left in AD by lra.
    assert (AE : about (nsub rad t) (R0 - t0) (3 * R0) 1852 0).
    { apply about_gross with (R0 + t0); [apply about_weaken with (1 := AD); lra|lra|lra]. }
    destruct chord_angle as (_ & (Vc & Nc) & (Vs & Ns)).
    assert (ID : 0 < / D) by (apply Rinv_0_lt_compat; lra).
    assert (Ac : about (ncos beta) (DX / D) 1 7 0).
    { split; [exact Vc|]. split; [|lra]. unfold Rdiv. rewrite Rabs_mult, (Rabs_right (/ D)), (Rabs_right DX) by lra.
      apply (Rmult_le_reg_r D); [lra|]. rewrite Rmult_assoc, Rinv_l by lra. lra. }
    assert (As : about (nsin beta) (DY / D) 1 7 0).
    { split; [exact Vs|]. split; [|lra]. unfold Rdiv. rewrite Rabs_mult, (Rabs_right (/ D)) by lra.
      apply (Rmult_le_reg_r D); [lra|]. rewrite Rmult_assoc, Rinv_l by lra. lra. }
    assert (E3 : eta <= u * (1 * (3 * R0))) by (apply (bulky _ (-101)); [lra|lia]).
    pose proof (times_close _ _ _ _ _ _ _ _ As AE ltac:(lra) ltac:(lra) ltac:(lra) E3) as PX.
    pose proof (times_close _ _ _ _ _ _ _ _ Ac AE ltac:(lra) ltac:(lra) ltac:(lra) E3) as PY.
    pose proof (plus_close false _ _ _ _ _ _ _ _ (mid_close _ _ V1 V3 B1 B3) PX ltac:(lra) ltac:(lra) ltac:(lra) ltac:(lra)) as CX.
    pose proof (plus_close false _ _ _ _ _ _ _ _ (mid_close _ _ V2 V4 B2 B4) PY ltac:(lra) ltac:(lra) ltac:(lra) ltac:(lra)) as CY.
    cbv iota in CX, CY. rewrite Rmax_right in CX, CY by lra. rewrite Rmult_1_l in CX, CY.
    split; [apply about_weaken with (1 := CX); lra|apply about_weaken with (1 := CY); lra].
  Qed.
  (** the exact circle *)
  Lemma through : on_circle X0 Y0 R0 (FRp l) /\ on_circle X0 Y0 R0 (FRp r).
  Proof.
    destruct R0_band as (_ & _ & ER & T0). destruct D_low as (L1 & _). pose proof DX_pos as Xp. pose proof D_square as Q.
    assert (Hp : H * H = DX * DX / 4 + DY * DY / 4) by (unfold H; lra).
    assert (HH : R0 * R0 = H * H + (R0 - t0) * (R0 - t0)) by lra.
    assert (UN : DX / D * (DX / D) + DY / D * (DY / D) = 1).
    { replace (DX / D * (DX / D) + DY / D * (DY / D)) with ((DX ^ 2 + DY ^ 2) / (D ^ 2)) by (field; lra). rewrite Q. field. lra. }
    assert (PE : DX * (DY / D) = DY * (DX / D)) by (field; lra).
    unfold on_circle, FRp, X0, Y0. cbn [fst snd].
    set (c := DX / D) in *. set (s := DY / D) in *. set (w := R0 - t0) in *. rewrite HH, Hp.
    replace (FR (fst l) - ((FR (fst l) + FR (fst r)) / 2 + s * w)) with (- (DX / 2 + s * w)) by (unfold DX; field).
    replace (FR (snd l) - ((FR (snd l) + FR (snd r)) / 2 + c * w)) with (DY / 2 - c * w) by (unfold DY; field).
    replace (FR (fst r) - ((FR (fst l) + FR (fst r)) / 2 + s * w)) with (DX / 2 - s * w) by (unfold DX; field).
    replace (FR (snd r) - ((FR (snd l) + FR (snd r)) / 2 + c * w)) with (- (DY / 2 + c * w)) by (unfold DY; field).
    assert (W : (c * c + s * s) * (w * w) = w * w) by (rewrite UN; ring). assert (P2 : DX * s * w = DY * c * w) by (rewrite PE; ring).
    split; lra.
  Qed.
  (** the computed circle against the exact one and against the two points *)
  Lemma short x y x' y' : dist_euc x y x' y' <= Rabs (x - x') + Rabs (y - y').
  Proof.
    unfold dist_euc. set (a := x - x'). set (b := y - y'). pose proof (Rabs_pos a) as A. pose proof (Rabs_pos b) as B.
    rewrite <- (sqrt_square (Rabs a + Rabs b)) by lra. apply sqrt_le_1_alt. unfold Rsqr.
    assert (Ea : Rabs a * Rabs a = a * a) by (rewrite <- Rabs_mult; apply Rabs_right, Rle_ge, Rle_0_sqr).
    assert (Eb : Rabs b * Rabs b = b * b) by (rewrite <- Rabs_mult; apply Rabs_right, Rle_ge, Rle_0_sqr).
    assert (0 <= Rabs a * Rabs b) by (apply Rmult_le_pos; assumption). nra.
  Qed.
  Lemma from_centre x y rr p : 0 <= rr -> on_circle x y rr p -> dist_euc (fst p) (snd p) x y = rr.
  Proof. intros Q O. unfold dist_euc, on_circle, Rsqr in *. rewrite O. now apply sqrt_square. Qed.
  Lemma moved px py x y x' y' e : Rabs (x' - x) <= e -> Rabs (y' - y) <= e -> Rabs (dist_euc px py x' y' - dist_euc px py x y) <= 2 * e.
  Proof.
    intros A B. pose proof (triangle px py x' y' x y) as T1. pose proof (triangle px py x y x' y') as T2.
    pose proof (short x y x' y') as S1. pose proof (short x' y' x y) as S2. rewrite (Rabs_minus_sym x x'), (Rabs_minus_sym y y') in S1. apply Rabs_le. lra.
  Qed.
  Lemma circle_close : exists rad, circle_radius_from_abcd t (nsq half) = Ok rad /\ 0 < R0 /\ about rad R0 R0 1850 0 /\
    let c := circle_centre beta (mid_coord l r) (nsub rad t) in
    about (fst c) X0 (S + 3 * R0) 1900 0 /\ about (snd c) Y0 (S + 3 * R0) 1900 0 /\ on_circle X0 Y0 R0 (FRp l) /\ on_circle X0 Y0 R0 (FRp r) /\
    Rabs (dist_euc (FR (fst l)) (FR (snd l)) (FR (fst c)) (FR (snd c)) - FR rad) <= 16384 * u * (S + R0) /\
    Rabs (dist_euc (FR (fst r)) (FR (snd r)) (FR (fst c)) (FR (snd c)) - FR rad) <= 16384 * u * (S + R0).
  Proof.
    destruct radius_close as (rad & E & A). exists rad. split; [exact E|]. destruct R0_band as (RB & _). pose proof (p2_pos (-101)). assert (Rp : 0 < R0) by lra.
    split; [exact Rp|]. split; [exact A|]. intros c. destruct (centre_close rad A) as (CX & CY). fold c in CX, CY. destruct through as (T1 & T2).
    split; [exact CX|]. split; [exact CY|]. split; [exact T1|]. split; [exact T2|].
    destruct A as (_ & _ & A). destruct CX as (_ & _ & CX). destruct CY as (_ & _ & CY). rewrite Rplus_0_r in A, CX, CY.
    assert (Sp : 0 <= S) by (apply Rle_trans with (2 := B1); apply Rabs_pos). pose proof u_pos as U.
    assert (uS : 0 <= u * S) by (apply Rmult_le_pos; lra). assert (uR : 0 <= u * R0) by (apply Rmult_le_pos; lra).
    pose proof (from_centre _ _ _ _ (Rlt_le _ _ Rp) T1) as D1. pose proof (from_centre _ _ _ _ (Rlt_le _ _ Rp) T2) as D2. unfold FRp in D1, D2. cbn [fst snd] in D1, D2.
    split.
    - pose proof (moved (FR (fst l)) (FR (snd l)) _ _ _ _ _ CX CY) as M. rewrite D1 in M. apply abs_span in M, A. apply Rabs_le. lra.
    - pose proof (moved (FR (fst r)) (FR (snd r)) _ _ _ _ _ CX CY) as M. rewrite D2 in M. apply abs_span in M, A. apply Rabs_le. lra.
  Qed.
  (** the angle and the half chord are those the search starts from *)
  Lemma start_values b h e : start_circle l r = Ok (b, h, e) -> b = beta /\ h = half.
  Proof.
    unfold start_circle, pydiv. fold dx dy. destruct (neqb dx (nz 0)); [discriminate|]. cbn [rbind]. fold beta. fold half.
    destruct (neqb (ncos beta) (nz 0)); [discriminate|]. cbn [rbind]. destruct (pysqrt _) as [v|]; [|discriminate]. cbn [rbind]. intros E. injection E as <- <- _. auto.
  Qed.
End Start.
