(** * RiseNear: the distances from chord to arc that the search goes through, computed and exact (C120;
    pyslope.py:1117-1150). *)
From Coq Require Import ZArith Reals Lra Lia Bool List SpecFloat.
From Verif Require Import Num FloatNum RealNum Py Validation Utilities Objects Slope Planes RealFacts RoundTheory NearFacts SumNear WeightNear CircleNear
     SinNear AtanNear AngleNear TurnNear CrossNear EndsNear StartNear.
Import ListNotations.
Local Open Scope R_scope.

Lemma eleven : about (nlit 11 10 : float) (11 / 10) (11 / 10) 1 0.
Proof.
  assert (E : (nlit 11 10 : float) = S754_finite false 4953959590107546 (-52)) by (vm_compute; reflexivity).
  rewrite E. split; [split; reflexivity|]. split; [rewrite Rabs_right; lra|]. rewrite FR_dyadic by lia. change (2 ^ (- -52))%Z with 4503599627370496%Z. rewrite u_val.
  apply Rabs_le. lra.
Qed.
Lemma p2_step e k : (0 <= k)%Z -> p2 (k + e) = IZR (2 ^ k) * p2 e.
Proof. intros K. now rewrite p2_add, (p2_IZR k). Qed.

Section Rise.
  Context (half cosb : float) (H c : R) (AH : about half H H 300 0) (AC : about cosb c 1 7 0).
  Context (BH : p2 (-40) <= H <= p2 91) (Bc : / 1024 <= c <= 1).
  Let P := 11 / 10 * (H / c).
  Let E := P - sqrt (P * P - H * H).
  Let rho := nmul (ndiv half cosb) (nlit 11 10).
  Let disc := nsub (nsq rho) (nsq half).
  Lemma P_sizes : 0 < H /\ 11 / 10 * H <= P /\ P <= 1200 * H /\ p2 (-40) <= P <= p2 102.
  Proof.
    pose proof (p2_pos (-40)) as PZ. assert (Hp : 0 < H) by lra. assert (I : 0 < / c) by (apply Rinv_0_lt_compat; lra).
    assert (I1 : 1 <= / c <= 1024). { split; [rewrite <- Rinv_1 at 1|rewrite <- (Rinv_inv 1024)]; apply Rinv_le_contravar; lra. }
    assert (Q : H <= H / c <= 1024 * H) by (unfold Rdiv; split; nra). unfold P. split; [exact Hp|]. split; [lra|]. split; [lra|]. split; [lra|].
    change 102%Z with (11 + 91)%Z. rewrite p2_step by lia. change (2 ^ 11)%Z with 2048%Z. lra.
  Qed.
  Lemma E_sizes : 0 < P * P - H * H /\ P <= 3 * sqrt (P * P - H * H) /\ H * H <= 2 * P * E /\ E <= H /\ / 5000000 * P <= E.
  Proof.
    destruct P_sizes as (Hp & P1 & P2 & _). assert (PH : 121 / 100 * (H * H) <= P * P) by nra. assert (HH : 0 < H * H) by nra.
    assert (V : 0 < P * P - H * H) by lra. set (w := sqrt (P * P - H * H)) in *. assert (w0 : 0 < w) by now apply sqrt_lt_R0.
    assert (ww : w * w = P * P - H * H) by (apply sqrt_sqrt; lra).
    assert (W3 : P <= 3 * w) by (apply Rsqr_incr_0; unfold Rsqr; lra).
    assert (WP : w <= P) by (apply Rsqr_incr_0; unfold Rsqr; lra).
    assert (EF : E * (P + w) = H * H) by (unfold E; fold w; lra). assert (E0 : 0 <= E) by (unfold E; fold w; lra).
    assert (EH : H * H <= 2 * P * E) by nra.
    split; [exact V|]. split; [exact W3|]. split; [exact EH|]. split.
    - apply Rmult_le_reg_r with (P + w); [lra|]. rewrite EF. nra.
    - apply Rmult_le_reg_r with (2 * P); [lra|]. assert (P * P <= 1440000 * (H * H)) by nra. nra.
  Qed.
  Lemma edge_close : FR cosb <> 0 /\ valid disc /\ 0 < FR disc /\ about (nsub rho (nsqrt disc)) E (4 * P) 2000000 0.
  Proof.
    pose proof u_pos as Up. assert (Ur : u <= / 1000000000000) by (rewrite u_val; lra). assert (Mn : many = 35184372088832) by reflexivity.
    destruct P_sizes as (Hp & P1 & P2 & PB). pose proof (p2_pos (-40)). assert (Pp : 0 < P) by lra. destruct E_sizes as (V & W3 & _ & EH & _).
    set (z := H / c). assert (EP : P = 11 / 10 * z) by reflexivity. assert (Zp : 0 < z) by lra.
    assert (Z : Rabs (H / c) <= z) by (fold z; rewrite Rabs_right; lra).
    assert (uz : 0 < u * z <= / 1000000000000 * z) by nra.
    assert (EB : 2 * (300 * u * H + z * (7 * u * 1)) / c <= 15000 * (u * z)).
    { replace (2 * (300 * u * H + z * (7 * u * 1)) / c) with (600 * (u * z) + 14 * (u * z) * / c) by (unfold z; field; lra).
      assert (/ c <= 1024) by (rewrite <- (Rinv_inv 1024); apply Rinv_le_contravar; lra). nra. }
    assert (EB0 : 0 <= 2 * (300 * u * H + z * (7 * u * 1)) / c).
    { unfold Rdiv. apply Rmult_le_pos; [nra|]. left. apply Rinv_0_lt_compat. lra. }
    destruct (over_close _ _ _ _ _ _ _ _ z AH AC ltac:(lra) ltac:(lra) ltac:(lra) ltac:(lra) Z) as (NZ & Vq & Nq).
    { apply huge. apply Rle_trans with (2 * P); [lra|]. apply Rle_trans with (p2 (1 + 102)); [rewrite p2_step by lia; change (2 ^ 1)%Z with 2%Z; lra|apply p2_le; lia]. }
    { apply (bulky _ (-41)); [|lia]. replace (-41)%Z with (-40 + - (1))%Z by reflexivity. rewrite p2_add, p2_neg, (p2_IZR 1) by lia. change (2 ^ 1)%Z with 2%Z. lra. }
    split; [exact NZ|].
    assert (AQ : about (ndiv half cosb) z z 15010 0).
    { split; [exact Vq|]. split; [rewrite Rabs_right; lra|]. fold z in Nq. apply Rle_trans with (1 := Nq). nra. }
    assert (AR : about rho P P 30030 0).
    { pose proof (times_close _ _ _ _ _ _ _ _ AQ eleven ltac:(lra) ltac:(lra)) as Q. replace (z * (11 / 10)) with P in Q by (rewrite EP; ring).
      apply about_weaken with (k := 2 * 15010 + 1 + 3) (d := 0); [apply Q|lra|lra].
      - apply huge. apply Rle_trans with (p2 102); [lra|apply p2_le; lia].
      - apply (bulky _ (-40)); [lra|lia]. }
    pose proof (band_mul _ _ _ _ _ _ PB PB) as (Q1 & Q2). pose proof (band_mul _ _ _ _ _ _ BH BH) as (Q3 & Q4).
    assert (VP : P * P <= vast) by (apply huge; apply Rle_trans with (1 := Q2); apply p2_le; lia).
    assert (VH : H * H <= vast) by (apply huge; apply Rle_trans with (1 := Q4); apply p2_le; lia).
    pose proof (times_close _ _ _ _ _ _ _ _ AR AR ltac:(lra) ltac:(lra) VP ltac:(apply (bulky _ _ Q1); lia)) as AR2.
    pose proof (times_close _ _ _ _ _ _ _ _ AH AH ltac:(lra) ltac:(lra) VH ltac:(apply (bulky _ _ Q3); lia)) as AH2.
    pose proof (plus_close true _ _ _ _ _ _ _ _ AR2 AH2 ltac:(lra) ltac:(lra) VP VH) as AD. cbv iota in AD. rewrite Rmax_left in AD by lra.
    assert (PP : 0 < P * P) by nra. assert (HHPP : H * H <= P * P) by lra. assert (HH0 : 0 < H * H) by nra.
    assert (AG : about disc (P * P - H * H) (P * P * 12) 90100 0).
    { apply about_gross with (P * P + H * H); [apply about_weaken with (1 := AD); lra|lra|lra]. }
    assert (W9 : P * P <= 9 * (P * P - H * H)).
    { replace (9 * (P * P - H * H)) with ((3 * sqrt (P * P - H * H)) * (3 * sqrt (P * P - H * H))) by (pose proof (sqrt_sqrt (P * P - H * H) ltac:(lra)); lra).
      apply Rmult_le_compat; lra. }
    destruct (root_close _ _ P 90100 AG Pp ltac:(lra) V) as (Dp & AS).
    { nra. }
    { lra. }
    { apply (bulky _ (-40)); [lra|lia]. }
    { apply Rle_trans with (p2 102); [lra|apply p2_le; lia]. }
    { lra. }
    split; [apply AG|]. split; [exact Dp|].
    set (w := sqrt (P * P - H * H)) in *. assert (w0 : 0 < w) by lra.
    assert (Pw : 0 < P / w <= 3).
    { split; [apply Rdiv_lt_0_compat; lra|]. apply (Rmult_le_reg_r w); [exact w0|]. unfold Rdiv. rewrite Rmult_assoc, Rinv_l by lra. lra. }
    assert (V3 : 3 * P <= vast).
    { apply huge. apply Rle_trans with (p2 (2 + 102)); [rewrite p2_step by lia; change (2 ^ 2)%Z with 4%Z; lra|apply p2_le; lia]. }
    pose proof (plus_close true _ _ _ _ _ _ _ _ AR AS ltac:(lra) ltac:(lra) ltac:(lra) V3) as AE. cbv iota in AE.
    replace (4 * P) with (P + 3 * P) by ring. apply about_weaken with (1 := AE); [|lra]. apply Rle_trans with (1700000 + 2); [|lra].
    apply Rplus_le_compat_r. apply Rmax_lub; lra.
  Qed.
  (** the distance of one turn *)
  Lemma turn_close edge k n : about edge E (4 * P) 2000000 0 -> (1 <= k <= n)%Z -> (n <= 2 ^ 30)%Z ->
    neqb (nz n : float) (nz 0) = false /\
    let t := ndiv (nmul edge (nz k)) (nz n) in
    valid t /\ p2 (-100) <= FR t <= p2 100 /\ Rabs (FR t - E * (IZR k / IZR n)) <= p2 (-30) * P * (IZR k / IZR n).
  Proof.
    intros (Ve & _ & Ne) K N. rewrite Rplus_0_r in Ne.
    pose proof u_pos as Up. assert (Uv : u = / 9007199254740992) by (rewrite u_val; lra). assert (Mn : many = 35184372088832) by reflexivity.
    destruct P_sizes as (Hp & P1 & P2 & PB). pose proof (p2_pos (-40)). assert (Pp : 0 < P) by lra. destruct E_sizes as (V & W3 & _ & EH & EL).
    assert (N30 : (2 ^ 30 = 1073741824)%Z) by reflexivity. rewrite N30 in N.
    destruct (nz_FR 0 ltac:(cbn; lia)) as (V0 & E0). destruct (nz_FR k ltac:(change (2 ^ 53)%Z with 9007199254740992%Z; lia)) as (Vk & Ek).
    destruct (nz_FR n ltac:(change (2 ^ 53)%Z with 9007199254740992%Z; lia)) as (Vn & En).
    assert (K1 : 1 <= IZR k) by (apply IZR_le; lia). assert (N1 : IZR k <= IZR n) by (apply IZR_le; lia). assert (N2 : IZR n <= 1073741824) by (apply IZR_le; lia).
    split; [apply eqb_false; [assumption..|rewrite En, E0; lra]|]. intros t.
    pose proof (abs_span _ _ Ne) as Sp. assert (uP : 0 < u * P) by nra. assert (ue : u * P = / 9007199254740992 * P) by (rewrite Uv; reflexivity).
    set (e := FR edge) in *. assert (eP : e <= P /\ / 10000000 * P <= e) by lra. assert (e0 : 0 < e) by lra.
    assert (ek : e <= e * IZR k <= 1073741824 * P) by nra.
    assert (Le : p2 (-64) <= / 10000000 * P).
    { replace (-64)%Z with (-40 + - (24))%Z by reflexivity. rewrite p2_add, p2_neg, (p2_IZR 24) by lia. change (2 ^ 24)%Z with 16777216%Z. lra. }
    assert (He : 1073741824 * P <= p2 132).
    { change 132%Z with (30 + 102)%Z. rewrite p2_step by lia. change (2 ^ 30)%Z with 1073741824%Z. lra. }
    assert (A1 : about edge e e 0 0) by (apply exact_close; [exact Ve|fold e; rewrite Rabs_right; lra]).
    assert (A2 : about (nz k) (IZR k) (IZR k) 0 0) by (rewrite <- Ek; apply exact_close; [exact Vk|rewrite Ek, Rabs_right; lra]).
    assert (A3 : about (nz n) (IZR n) (IZR n) 0 0) by (rewrite <- En; apply exact_close; [exact Vn|rewrite En, Rabs_right; lra]).
    pose proof (times_close _ _ _ _ _ _ _ _ A1 A2 ltac:(lra) ltac:(lra)) as AM.
    assert (VM : e * IZR k <= vast) by (apply huge; apply Rle_trans with (p2 132); [lra|apply p2_le; lia]).
    specialize (AM VM ltac:(apply (bulky _ (-64)); [lra|lia])).
    set (z := e * IZR k / IZR n). assert (In : / 1073741824 <= / IZR n <= 1).
    { split; [apply Rinv_le_contravar; lra|rewrite <- Rinv_1; apply Rinv_le_contravar; lra]. }
    assert (zl : p2 (-94) <= z).
    { unfold z, Rdiv. replace (-94)%Z with (-64 + - (30))%Z by reflexivity. rewrite p2_add, p2_neg, (p2_IZR 30) by lia. change (2 ^ 30)%Z with 1073741824%Z.
      pose proof (p2_pos (-64)). apply Rmult_le_compat; lra. }
    pose proof (p2_pos (-94)). assert (Z : Rabs (e * IZR k / IZR n) <= z) by (fold z; rewrite Rabs_right; lra).
    assert (kn : 0 < IZR k / IZR n <= 1).
    { split; [apply Rdiv_lt_0_compat; lra|]. apply (Rmult_le_reg_r (IZR n)); [lra|]. unfold Rdiv. rewrite Rmult_assoc, Rinv_l by lra. lra. }
    assert (zk : z = e * (IZR k / IZR n)) by (unfold z; field; lra). set (f := IZR k / IZR n) in *.
    assert (zP : z <= P * f) by (rewrite zk; apply Rmult_le_compat_r; lra).
    assert (Pf : P * f <= P) by nra.
    assert (EB : 2 * ((2 * 0 + 0 + 3) * u * (e * IZR k) + z * (0 * u * IZR n)) / IZR n = 6 * (u * z)) by (unfold z; field; lra).
    assert (uz : 0 < u * z <= / 1000000 * z) by (rewrite Uv; nra).
    destruct (over_close _ _ _ _ _ _ _ _ z AM A3 ltac:(lra) ltac:(lra) ltac:(lra) ltac:(lra) Z) as (_ & Vt & Nt).
    { rewrite EB. apply huge. apply Rle_trans with (2 * P); [lra|]. apply Rle_trans with (p2 (1 + 102)); [rewrite p2_step by lia; change (2 ^ 1)%Z with 2%Z; lra|apply p2_le; lia]. }
    { apply (bulky _ (-94)); [exact zl|lia]. }
    rewrite EB in Nt. fold z in Nt. fold t in Nt, Vt. split; [exact Vt|].
    assert (Nt' : Rabs (FR t - z) <= 9 * (u * z)) by (apply Rle_trans with (1 := Nt); nra). pose proof (abs_span _ _ Nt') as St.
    assert (De : Rabs (z - E * f) <= 8000000 * u * P * f).
    { rewrite zk. replace (e * f - E * f) with ((e - E) * f) by ring. rewrite Rabs_mult, (Rabs_right f) by lra. apply Rmult_le_compat_r; lra. }
    assert (P30 : p2 (-30) = 8388608 * u) by (unfold u; replace (-30)%Z with (23 + -53)%Z by reflexivity; rewrite p2_step by lia; reflexivity).
    assert (upf : 0 <= u * (P * f)) by nra. assert (uzp : u * z <= u * (P * f)) by (apply Rmult_le_compat_l; lra).
    split.
    - assert (eH : e <= 2 * H).
      { apply Rle_trans with (E + 8000000 * (u * P)); [lra|]. assert (u * P <= u * (1200 * H)) by (apply Rmult_le_compat_l; lra).
        assert (u * (1200 * H) <= / 9000000000 * H) by (rewrite Uv; lra). lra. }
      assert (zH : z <= 2 * H) by (rewrite zk; nra). split.
      + apply Rle_trans with (p2 (-94) / 2); [|lra]. replace (-94)%Z with (6 + -100)%Z by reflexivity. rewrite p2_step by lia. change (2 ^ 6)%Z with 64%Z.
        pose proof (p2_pos (-100)). lra.
      + apply Rle_trans with (4 * H); [lra|]. change 100%Z with (9 + 91)%Z. rewrite p2_step by lia. change (2 ^ 9)%Z with 512%Z. lra.
    - rewrite P30. apply abs_span in De. apply Rabs_le. lra.
  Qed.
End Rise.
