(** * AngleNear: the sine and the cosine of the base of a slice (pyslope.py:1371-1376) against
    the exact ones of its circle. *)
From Coq Require Import Reals ZArith Lra Lia Bool SpecFloat List.
From Verif Require Import Num FloatNum RealNum Py Objects Slope Planes Analysis RoundTheory NearFacts
     SumNear WeightNear FosNear CircleNear WaterNear SliceNear SinNear AtanNear.
Local Open Scope R_scope.

Lemma atan_relative z z' d : 0 <= d <= / 2 -> Rabs (z' - z) <= d * Rabs z ->
  Rabs (atan z' - atan z) <= d * (Rabs z / (1 + z ^ 2 / 4)).
Proof.
  intros D L. pose proof (pow2_ge_0 z) as Z2.
  assert (G : forall a b, a < b -> (forall c, a < c < b -> z ^ 2 / 4 <= c ^ 2) ->
    Rabs (atan b - atan a) <= Rabs (b - a) / (1 + z ^ 2 / 4)).
  { intros a b AB C. destruct (MVT_cor2 atan (fun c => / (1 + c ^ 2)) a b AB) as (c & E & Cc); [intros; apply derivable_pt_lim_atan|].
    specialize (C c Cc). rewrite E, Rabs_mult, Rmult_comm. unfold Rdiv. apply Rmult_le_compat_l; [apply Rabs_pos|].
    rewrite Rabs_inv, Rabs_right by lra. apply Rinv_le_contravar; lra. }
  assert (I : forall c, (Rmin z z' <= c <= Rmax z z') -> z ^ 2 / 4 <= c ^ 2).
  { intros c C. destruct (Rle_dec 0 z) as [P|P].
    - rewrite (Rabs_right z) in L by lra. apply Rabs_le_inv in L.
      assert (z / 2 <= c) by (revert C; unfold Rmin; destruct Rle_dec; intros; nra). cbn [pow]. nra.
    - rewrite (Rabs_left1 z) in L by lra. apply Rabs_le_inv in L.
      assert (c <= z / 2) by (revert C; unfold Rmax; destruct Rle_dec; intros; nra). cbn [pow]. nra. }
  assert (F : Rabs (z' - z) / (1 + z ^ 2 / 4) <= d * (Rabs z / (1 + z ^ 2 / 4))).
  { unfold Rdiv at 1 3. rewrite <- Rmult_assoc. apply Rmult_le_compat_r; [|assumption]. apply Rlt_le, Rinv_0_lt_compat. lra. }
  destruct (Rtotal_order z z') as [M|[M|M]].
  - apply Rle_trans with (2 := F). apply G; [assumption|]. intros c C. apply I.
    rewrite Rmin_left, Rmax_right by lra. lra.
  - rewrite <- M, Rminus_eq_0, Rabs_R0. apply Rmult_le_pos; [lra|]. apply Rmult_le_pos; [apply Rabs_pos|].
    apply Rlt_le, Rinv_0_lt_compat. lra.
  - apply Rle_trans with (2 := F). rewrite (Rabs_minus_sym (atan z')), (Rabs_minus_sym z'). apply G; [assumption|]. intros c C. apply I.
    rewrite Rmin_right, Rmax_left by lra. lra.
Qed.
Lemma lean z : 0 <= Rabs z / (1 + z ^ 2 / 4) <= 1.
Proof.
  pose proof (Rabs_pos z) as A. assert (Q : z ^ 2 = Rabs z ^ 2) by (symmetry; apply pow2_abs). rewrite Q. set (a := Rabs z) in *.
  assert (0 < 1 + a ^ 2 / 4) by (pose proof (pow2_ge_0 a); lra). split.
  - apply Rmult_le_pos; [assumption|apply Rlt_le, Rinv_0_lt_compat; assumption].
  - apply Rmult_le_reg_r with (1 + a ^ 2 / 4); [assumption|]. unfold Rdiv at 1. rewrite Rmult_assoc, Rinv_l, Rmult_1_r, Rmult_1_l by lra.
    pose proof (pow2_ge_0 (1 - a / 2)). cbn [pow] in *. nra.
Qed.
(** the same with the quotient written out *)
Lemma lean_radius D h r : 0 < h -> 0 < r -> h ^ 2 + D ^ 2 = r ^ 2 ->
  Rabs (D / h) / (1 + (D / h) ^ 2 / 4) / h <= 4 / r.
Proof.
  intros H R E. assert (A : Rabs (D / h) = Rabs D * / h) by (unfold Rdiv; rewrite Rabs_mult, Rabs_inv, (Rabs_right h) by lra; reflexivity).
  rewrite A. clear A. assert (Dr : Rabs D <= r).
  { apply Rsqr_incr_0; [|apply Rabs_pos|lra]. unfold Rsqr. replace (Rabs D * Rabs D) with (D ^ 2) by (rewrite <- pow2_abs; ring).
    cbn [pow] in *. nra. }
  pose proof (pow2_ge_0 D). assert (0 < h ^ 2) by (cbn [pow]; nra). assert (Q : 0 < 4 * h ^ 2 + D ^ 2) by lra.
  replace (Rabs D * / h / (1 + (D / h) ^ 2 / 4) / h) with (4 * Rabs D / (4 * h ^ 2 + D ^ 2)).
  2:{ field. cbn [pow] in *. repeat split; nra. }
  apply Rmult_le_reg_r with (4 * h ^ 2 + D ^ 2); [assumption|]. unfold Rdiv at 1. rewrite Rmult_assoc, Rinv_l, Rmult_1_r by lra.
  apply Rmult_le_reg_r with r; [assumption|]. replace (4 / r * (4 * h ^ 2 + D ^ 2) * r) with (4 * (4 * h ^ 2 + D ^ 2)) by (field; lra).
  pose proof (Rabs_pos D). assert (Rabs D * r <= r * r) by nra. cbn [pow] in *. nra.
Qed.

Lemma cos_of_atan D h r : 0 < h -> 0 < r -> h ^ 2 + D ^ 2 = r ^ 2 -> cos (atan (D / h)) = h / r /\ sin (atan (D / h)) = D / r.
Proof.
  intros H R E. rewrite cos_atan, sin_atan.
  assert (Q : sqrt (1 + (D / h)²) = r / h).
  { replace (1 + (D / h)²) with ((r / h) ^ 2).
    - apply sqrt_pow2. apply Rmult_le_pos; [lra|apply Rlt_le, Rinv_0_lt_compat; assumption].
    - unfold Rsqr. replace ((r / h) ^ 2) with (r ^ 2 / h ^ 2) by (field; lra). rewrite <- E. field. lra. }
  rewrite Q. split; field; lra.
Qed.

(** no binary64 number lies between 1 and 1 + 2^-52 *)
Lemma unit_most y : valid y -> FR y < 1 + 2 * u -> FR y <= 1.
Proof.
  intros V L. destruct y as [s| | |s m e]; cbn [FR]; try lra. destruct s.
  - pose proof (p2_pos e). assert (0 < IZR (Zpos m)) by (apply (IZR_lt 0); lia).
    assert (0 < IZR (Zpos m) * p2 e) by (apply Rmult_lt_0_compat; assumption). cbn [sgn]. lra.
  - destruct (valid_finite _ _ _ V) as (E & B). pose proof (digits_pos m) as D. cbn [FR sgn] in *. rewrite Rmult_1_l in *. unfold fe in E.
    destruct (Z.le_gt_cases (-52) e) as [G|G].
    + replace (p2 e) with (p2 (-52) * IZR (2 ^ (e + 52))) in * by (rewrite <- p2_IZR, <- p2_add by lia; f_equal; lia).
      rewrite (Rmult_comm (p2 (-52))), <- Rmult_assoc, <- mult_IZR in *. set (k := (Zpos m * 2 ^ (e + 52))%Z) in *.
      assert (Q : 2 * u = p2 (-52)) by (unfold u; rewrite <- p2_1, <- p2_add; reflexivity). rewrite Q in L.
      assert (O : 1 = IZR (2 ^ 52) * p2 (-52)) by (rewrite <- p2_IZR, <- p2_add by lia; symmetry; apply p2_0).
      rewrite O in L at 1. rewrite O. apply Rmult_le_compat_r; [left; apply p2_pos|]. apply IZR_le.
      assert (K : IZR k < IZR (2 ^ 52 + 1)).
      { apply Rmult_lt_reg_r with (p2 (-52)); [apply p2_pos|]. rewrite plus_IZR. lra. }
      apply lt_IZR in K. lia.
    + apply Rle_trans with (IZR (2 ^ 53) * p2 (-53)).
      * apply Rmult_le_compat; [apply IZR_le; lia|left; apply p2_pos| |apply p2_le; lia]. apply IZR_le.
        apply Z.le_trans with (2 ^ Zpos (digits2_pos m))%Z; [lia|]. apply Z.pow_le_mono_r; lia.
      * rewrite <- p2_IZR, <- p2_add by lia. change (53 + -53)%Z with 0%Z. rewrite p2_0. lra.
Qed.
Lemma FR_opp y : valid y -> exists z, valid z /\ FR z = - FR y.
Proof.
  intros (F & V). destruct y as [s|s| |s m e]; try discriminate F.
  - exists (S754_zero s). split; [apply valid_zero|]. cbn [FR]. lra.
  - exists (S754_finite (negb s) m e). split; [split; [exact F|exact V]|]. destruct s; cbn [FR sgn negb]; lra.
Qed.
Lemma unit_size y : valid y -> Rabs (FR y) < 1 + 2 * u -> Rabs (FR y) <= 1.
Proof.
  intros V L. assert (A : - (1 + 2 * u) < FR y < 1 + 2 * u) by (apply Rabs_def2 in L; lra).
  destruct (FR_opp y V) as (z & Vz & Ez). pose proof (unit_most y V ltac:(lra)). pose proof (unit_most z Vz ltac:(lra)). apply Rabs_le. lra.
Qed.

Section Angle.
  Variables (v : view float) (water : option (float * float)) (cx cy r b x : float) (mat : material float).
  Hypothesis (PS : plain_section (v_geom v)).
  Hypothesis (Vcx : valid cx) (Vcy : valid cy) (Vr : valid r) (Vx : valid x).
  Hypothesis (Bcx : Rabs (FR cx) <= wide) (Bcy : Rabs (FR cy) <= wide) (Br : p2 (-100) <= FR r <= wide).
  Hypothesis (Bx : Rabs (FR x) <= wide) (Bb : 0 <= FR b <= wide).
  Hypothesis (IN : nltb (nsq r) (nsq (nsub x cx)) = false).
  Let s := make_slice v water cx cy r b x mat.
  Let D := FR cx - FR x.
  Let h := sqrt (FR r * FR r - (FR x - FR cx) * (FR x - FR cx)).
  Let ty := FR (snd (g_top (v_geom v))).

  Lemma slice_angle e : base_off (FR r) h (FR cy) ty e -> 8 * e <= h ->
    (valid (sl_cos s) /\ FR (sl_cos s) <= 1 /\ Rabs (FR (sl_cos s) - h / FR r) <= 7 * u + 5 * (e / FR r)) /\
    (valid (sl_sin s) /\ Rabs (FR (sl_sin s)) <= 1 /\ Rabs (FR (sl_sin s) - D / FR r) <= 7 * u + 5 * (e / FR r)).
  Proof.
    intros E He. destruct (slice_base v water cx cy r b x mat PS Vcx Vcy Vr Vx Bcx Bcy Br Bx Bb IN) as (Vyb & Byb & Nyb).
    fold h in Nyb. fold s in Vyb, Byb, Nyb. destruct (Nyb e E) as (Ny & _ & _).
    assert (Rp : 0 < FR r) by (pose proof (p2_pos (-100)); lra). set (R := FR r) in *.
    assert (Ur : u <= / 1000000) by (rewrite u_val; lra). pose proof u_pos as Up.
    assert (H0 : 0 <= h) by apply sqrt_pos. assert (HR : h <= R) by (apply half_le_sqrt; lra).
    assert (ep : 0 < e).
    { destruct PS as (_ & _ & T & _). fold ty in T.
      assert (0 < p2 (-49) * ty) by (apply Rmult_lt_0_compat; [apply p2_pos|lra]).
      pose proof (Rabs_pos (FR cy)). pose proof (p2_pos (-53)). assert (0 <= p2 (-53) * Rabs (FR cy)) by (apply Rmult_le_pos; lra).
      destruct E as [E|(E0 & E)].
      - assert (0 <= p2 (-24) * R) by (apply Rmult_le_pos; [left; apply p2_pos|lra]). lra.
      - assert (0 <= p2 (-48) * (R * R / h)); [|lra]. apply Rmult_le_pos; [left; apply p2_pos|].
        apply Rmult_le_pos; [nra|apply Rlt_le, Rinv_0_lt_compat; lra]. }
    assert (Hp : 0 < h) by lra.
    assert (Hs : h ^ 2 + D ^ 2 = R ^ 2).
    { unfold h, D. rewrite pow2_sqrt; [unfold R; ring|]. destruct (Rle_dec 0 (FR r * FR r - (FR x - FR cx) * (FR x - FR cx))) as [|N]; [assumption|].
      exfalso. apply Rnot_le_lt in N. unfold h in Hp. rewrite sqrt_neg_0 in Hp; [lra|]. fold R in N. lra. }
    (* h is at least 2^-24 r *)
    assert (Hl : p2 (-24) * R <= h).
    { destruct PS as (_ & _ & T & _). fold ty in T.
      assert (T0 : 0 <= p2 (-49) * ty) by (apply Rmult_le_pos; [left; apply p2_pos|lra]).
      pose proof (Rabs_pos (FR cy)). pose proof (p2_pos (-53)). assert (0 <= p2 (-53) * Rabs (FR cy)) by (apply Rmult_le_pos; lra).
      destruct E as [E|(E0 & E)]; [lra|].
      assert (Q : p2 (-48) * (R * R / h) <= h) by lra.
      apply Rmult_le_compat_r with (r := h) in Q; [|lra].
      replace (p2 (-48) * (R * R / h) * h) with (p2 (-48) * R ^ 2) in Q by (field; lra).
      replace (p2 (-48)) with (p2 (-24) ^ 2) in Q by (cbn [pow]; rewrite Rmult_1_r, <- p2_add; reflexivity).
      rewrite <- Rpow_mult_distr in Q. pose proof (p2_pos (-24)).
      apply Rsqr_incr_0; [unfold Rsqr; cbn [pow] in Q; lra|apply Rmult_le_pos; lra|lra]. }
    assert (Dr : Rabs D <= R).
    { apply Rsqr_incr_0; [|apply Rabs_pos|lra]. unfold Rsqr. replace (Rabs D * Rabs D) with (D ^ 2) by (rewrite <- pow2_abs; ring).
      cbn [pow] in *. nra. }
    destruct wide_vast as (WF & FV). pose proof wide_big as WB. pose proof vast_big as VB. pose proof top_vast as TV.
    assert (W23 : forall t, Rabs t <= 1000 * wide -> Rabs t < p2 1023).
    { intros t Ht. lra. }
    (* the difference of the abscissae *)
    destruct (sub_near cx x Vcx Vx) as (Vd & Nd); [apply W23; fold D; lra|]. fold D in Nd.
    set (d := SFsub prec emax cx x) in *.
    (* and of the ordinates *)
    assert (Eh : Rabs ((FR cy - FR (sl_yb s)) - h) <= e).
    { rewrite Rabs_minus_sym in Ny. replace (FR cy - FR (sl_yb s) - h) with (FR cy - h - FR (sl_yb s)) by ring. exact Ny. }
    destruct (sub_near cy (sl_yb s) Vcy Vyb) as (Vh & Nh).
    { apply W23. replace (FR cy - FR (sl_yb s)) with ((FR cy - FR (sl_yb s) - h) + h) by ring.
      apply Rle_trans with (1 := Rabs_triang _ _). rewrite (Rabs_right h) by lra. lra. }
    set (hh := SFsub prec emax cy (sl_yb s)) in *.
    assert (Sh : Rabs (FR hh - h) <= 1.01 * e + u * h).
    { replace (FR hh - h) with ((FR hh - (FR cy - FR (sl_yb s))) + (FR cy - FR (sl_yb s) - h)) by ring.
      apply Rle_trans with (1 := Rabs_triang _ _).
      assert (Rabs (FR cy - FR (sl_yb s)) <= h + e).
      { replace (FR cy - FR (sl_yb s)) with ((FR cy - FR (sl_yb s) - h) + h) by ring.
        apply Rle_trans with (1 := Rabs_triang _ _). rewrite (Rabs_right h) by lra. lra. }
      nra. }
    assert (H8 : 0.87 * h <= FR hh).
    { apply Rabs_le_inv in Sh. nra. }
    set (z := D / h). set (z1 := FR d / FR hh).
    set (dl := 1.17 * (e / h) + 2.3 * u).
    assert (eh : 0 < e / h <= / 8).
    { split; [apply Rmult_lt_0_compat; [assumption|apply Rinv_0_lt_compat; assumption]|].
      apply Rmult_le_reg_r with h; [assumption|]. unfold Rdiv. rewrite Rmult_assoc, Rinv_l by lra. lra. }
    assert (Hd : 0 <= dl <= / 2) by (unfold dl; lra).
    assert (Nz : Rabs (z1 - z) <= dl * Rabs z).
    { replace (z1 - z) with (((FR d - D) * h - D * (FR hh - h)) * (/ h * / FR hh)) by (unfold z1, z; field; lra).
      assert (Ih : 0 < / h) by (apply Rinv_0_lt_compat; lra). assert (Ihh : 0 < / FR hh) by (apply Rinv_0_lt_compat; lra).
      rewrite Rabs_mult, (Rabs_right (/ h * / FR hh)) by (apply Rle_ge, Rmult_le_pos; lra).
      assert (A : Rabs ((FR d - D) * h - D * (FR hh - h)) <= Rabs D * (1.01 * e + 2 * u * h)).
      { apply Rle_trans with (1 := Rabs_triang _ _). rewrite Rabs_Ropp, !Rabs_mult, (Rabs_right h) by lra.
        pose proof (Rabs_pos D). assert (Rabs D * Rabs (FR hh - h) <= Rabs D * (1.01 * e + u * h)) by (apply Rmult_le_compat_l; lra).
        assert (Rabs (FR d - D) * h <= u * Rabs D * h) by (apply Rmult_le_compat_r; lra). lra. }
      apply Rle_trans with (Rabs D * (1.01 * e + 2 * u * h) * (/ h * / FR hh)).
      { apply Rmult_le_compat_r; [apply Rmult_le_pos; lra|exact A]. }
      unfold z, Rdiv. rewrite Rabs_mult, (Rabs_right (/ h)) by lra.
      replace (Rabs D * (1.01 * e + 2 * u * h) * (/ h * / FR hh)) with (((1.01 * e + 2 * u * h) * / FR hh) * (Rabs D * / h)) by ring.
      apply Rmult_le_compat_r; [apply Rmult_le_pos; [apply Rabs_pos|lra]|].
      apply Rmult_le_reg_r with (FR hh); [lra|]. rewrite Rmult_assoc, Rinv_l, Rmult_1_r by lra.
      apply Rle_trans with (dl * (0.87 * h)); [|apply Rmult_le_compat_l; lra].
      assert (eh' : e / h * h = e) by (field; lra). assert (0 <= u * h) by (apply Rmult_le_pos; lra).
      unfold dl. set (k := e / h) in *. lra. }
    assert (Az : Rabs (atan z1 - atan z) <= 4.7 * (e / R) + 2.3 * u).
    { apply Rle_trans with (1 := atan_relative z z1 dl Hd Nz). unfold dl. pose proof (lean z) as L.
      pose proof (lean_radius D h R Hp Rp Hs) as L2. fold z in L2. set (l := Rabs z / (1 + z ^ 2 / 4)) in *.
      assert (Q : e / h * l <= 4 * (e / R)).
      { replace (e / h * l) with (e * (l / h)) by (field; lra). replace (4 * (e / R)) with (e * (4 / R)) by (field; lra).
        apply Rmult_le_compat_l; lra. }
      nra. }
    (* the quotient *)
    assert (Zb : Rabs z1 <= p2 30).
    { assert (Rabs z <= p2 24).
      { unfold z, Rdiv. rewrite Rabs_mult, Rabs_inv, (Rabs_right h) by lra. apply Rmult_le_reg_r with h; [assumption|].
        rewrite Rmult_assoc, Rinv_l, Rmult_1_r by lra. apply Rle_trans with R; [assumption|].
        apply Rmult_le_compat_l with (r := p2 24) in Hl; [|left; apply p2_pos]. rewrite <- Rmult_assoc, <- p2_add in Hl.
        change (24 + -24)%Z with 0%Z in Hl. rewrite p2_0 in Hl. lra. }
      replace z1 with ((z1 - z) + z) by ring. apply Rle_trans with (1 := Rabs_triang _ _).
      change 30%Z with (6 + 24)%Z. rewrite p2_add, (p2_IZR 6) by lia. change (2 ^ 6)%Z with 64%Z. pose proof (p2_pos 24). nra. }
    destruct (div_near d hh Vd Vh) as (Vq & Nq); [lra|fold z1; apply Rle_lt_trans with (1 := Zb); apply p2_lt; lia|]. fold z1 in Nq. unfold near in Nq.
    set (q := SFdiv prec emax d hh) in *.
    assert (Et : eta <= p2 (-60)) by (unfold eta; apply p2_le; lia).
    assert (Aq : Rabs (atan (FR q) - atan z1) <= u + p2 (-60)).
    { destruct (Rle_dec (u * Rabs z1) eta) as [L|L].
      - rewrite Rmax_right in Nq by lra. apply Rle_trans with (1 := atan_lip _ _). lra.
      - rewrite Rmax_left in Nq by lra. apply Rle_trans with (1 := atan_relative z1 (FR q) u ltac:(lra) Nq).
        pose proof (lean z1). pose proof (p2_pos (-60)). nra. }
    destruct (atan_near q Vq) as (Va & Na). set (al := f_atan q) in *. pose proof (atan_size (FR q)) as As.
    assert (P60 : p2 (-60) <= u / 100).
    { unfold u. replace (-60)%Z with (-53 + - (7))%Z by reflexivity. rewrite p2_add, p2_neg, (p2_IZR 7) by lia.
      change (2 ^ 7)%Z with 128%Z. pose proof (p2_pos (-53)). lra. }
    assert (Ta : Rabs (FR al - atan z) <= 5.9 * u + 4.7 * (e / R)).
    { replace (FR al - atan z) with ((FR al - atan (FR q)) + ((atan (FR q) - atan z1) + (atan z1 - atan z))) by ring.
      apply Rle_trans with (1 := Rabs_triang _ _).
      pose proof (Rabs_triang (atan (FR q) - atan z1) (atan z1 - atan z)). nra. }
    assert (Ba : Rabs (FR al) <= 1.99).
    { replace (FR al) with ((FR al - atan (FR q)) + atan (FR q)) by ring. apply Rle_trans with (1 := Rabs_triang _ _). nra. }
    assert (Ec : sl_cos s = f_cos al /\ sl_sin s = f_sin al).
    { assert (A : np_arctan_div (nsub cx x) (nsub cy (sl_yb s)) = al).
      { unfold np_arctan_div. cbn [neqb FNum nsub]. fold d. fold hh. destruct (nz_FR 0 eq_refl) as (V0 & E0).
        rewrite eqb_FR by assumption. unfold Reqb. rewrite E0. destruct (Req_EM_T (FR hh) 0); [lra|]. reflexivity. }
      split; [change (sl_cos s) with (ncos (np_arctan_div (nsub cx x) (nsub cy (sl_yb s))))
             |change (sl_sin s) with (nsin (np_arctan_div (nsub cx x) (nsub cy (sl_yb s))))]; rewrite A; reflexivity. }
    destruct Ec as (-> & ->). destruct (cos_of_atan D h R Hp Rp Hs) as (EC & ES). fold z in EC, ES.
    destruct (cos_near al Va Ba) as (Vc & Nc). destruct (sin_near al Va Ba) as (Vs & Ns).
    assert (eR : 0 < e / R) by (apply Rmult_lt_0_compat; [assumption|apply Rinv_0_lt_compat; assumption]).
    assert (One : forall y t, valid y -> -1 <= t <= 1 -> Rabs (FR y - t) <= u * Rabs t + p2 (-60) -> Rabs (FR y) <= 1).
    { intros y t Vy Bt Ny'. apply unit_size; [exact Vy|]. assert (Rabs t <= 1) by (apply Rabs_le; lra).
      assert (u * Rabs t <= u * 1) by (apply Rmult_le_compat_l; lra). apply abs_span in Ny'. apply Rabs_def1; lra. }
    split; (split; [assumption|]); split.
    - pose proof (abs_span _ _ (One _ _ Vc (COS_bound _) Nc)). lra.
    - rewrite <- EC. replace (FR (f_cos al) - cos (atan z)) with ((FR (f_cos al) - cos (FR al)) + (cos (FR al) - cos (atan z))) by ring.
      apply Rle_trans with (1 := Rabs_triang _ _). pose proof (cos_lip (FR al) (atan z)).
      assert (Rabs (cos (FR al)) <= 1) by (apply Rabs_le, COS_bound). nra.
    - exact (One _ _ Vs (SIN_bound _) Ns).
    - rewrite <- ES. replace (FR (f_sin al) - sin (atan z)) with ((FR (f_sin al) - sin (FR al)) + (sin (FR al) - sin (atan z))) by ring.
      apply Rle_trans with (1 := Rabs_triang _ _). pose proof (sin_lip (FR al) (atan z)).
      assert (Rabs (sin (FR al)) <= 1) by (apply Rabs_le, SIN_bound). nra.
  Qed.
End Angle.
