(** * AtanNear: the rounding error of the arctangent of the model at binary64. *)
From Coq Require Import Reals Machin ZArith Lra Lia Bool SpecFloat List.
From Verif Require Import Num FloatNum RoundTheory SinNear.
Local Open Scope R_scope.

(** ** Half the angle three times *)
Lemma half_angle x y : 0 < x -> atan (y / x) = 2 * atan (y / (x + sqrt (x ^ 2 + y ^ 2))).
Proof.
  intros X. set (th := atan (y / x)). set (h := th / 2).
  pose proof (atan_bound (y / x)) as B. fold th in B. pose proof PI_RGT_0 as Pp.
  assert (Ch : 0 < cos h) by (apply cos_gt_0; unfold h; lra).
  assert (Ct : 0 < cos th) by (apply cos_gt_0; lra).
  assert (Th : th = 2 * h) by (unfold h; lra).
  assert (T : tan h = sin th / (1 + cos th)).
  { rewrite Th. rewrite sin_2a, cos_2a_cos. unfold tan. field. split; [|lra].
    replace (1 + (2 * cos h * cos h - 1)) with (2 * cos h * cos h) by ring. nra. }
  set (z := y / x) in *. assert (P : 0 < 1 + z ^ 2) by (pose proof (pow2_ge_0 z); lra).
  assert (Q : 0 < sqrt (1 + z ^ 2)) by (apply sqrt_lt_R0; assumption).
  assert (Sq : sqrt (x ^ 2 + y ^ 2) = x * sqrt (1 + z ^ 2)).
  { replace (x ^ 2 + y ^ 2) with (x ^ 2 * (1 + z ^ 2)) by (unfold z; field; lra).
    rewrite sqrt_mult by (try apply pow2_ge_0; lra). rewrite sqrt_pow2 by lra. reflexivity. }
  assert (E : tan h = y / (x + sqrt (x ^ 2 + y ^ 2))).
  { rewrite T, Sq. unfold th. rewrite sin_atan, cos_atan. unfold Rsqr. replace (z * z) with (z ^ 2) by ring.
    replace y with (z * x) by (unfold z; field; lra). field. repeat split; nra. }
  rewrite <- E, atan_tan by (unfold h; lra). exact Th.
Qed.

Definition widen (y x : R) : R := x + sqrt (x ^ 2 + y ^ 2).

Lemma widen_pos y x : 0 < x -> 2 * x <= widen y x.
Proof.
  intros X. unfold widen. assert (x <= sqrt (x ^ 2 + y ^ 2)); [|lra].
  rewrite <- (sqrt_pow2 x) at 1 by lra. apply sqrt_le_1_alt. pose proof (pow2_ge_0 y). lra.
Qed.
Lemma widen_ratio y x c d : 0 < x -> 0 <= c -> 0 <= d -> d ^ 2 <= c ^ 2 + 1 -> c * Rabs y <= x ->
  (c + d) * Rabs y <= widen y x.
Proof.
  intros X C D E L. unfold widen. pose proof (Rabs_pos y) as A.
  assert (d * Rabs y <= sqrt (x ^ 2 + y ^ 2)); [|lra].
  rewrite <- (sqrt_pow2 (d * Rabs y)) by nra. apply sqrt_le_1_alt. rewrite Rpow_mult_distr, pow2_abs.
  assert ((c * Rabs y) ^ 2 <= x ^ 2) by (apply pow_incr; split; [nra|assumption]).
  rewrite Rpow_mult_distr, pow2_abs in H. pose proof (pow2_ge_0 y). nra.
Qed.

Lemma atan_eighth y : let x3 := widen y (widen y (widen y 1)) in
  atan y = 8 * atan (y / x3) /\ 8 <= x3 /\ 5 * Rabs y <= x3.
Proof.
  intros x3. set (x1 := widen y 1). set (x2 := widen y x1).
  assert (P1 : 2 <= x1) by (pose proof (widen_pos y 1 ltac:(lra)); unfold x1; lra).
  assert (P2 : 4 <= x2) by (pose proof (widen_pos y x1 ltac:(lra)); unfold x2; lra).
  assert (P3 : 8 <= x3) by (pose proof (widen_pos y x2 ltac:(lra)); unfold x3; fold x1; fold x2; lra).
  split; [|split; [assumption|]].
  - replace (atan y) with (atan (y / 1)) by (f_equal; field).
    rewrite (half_angle 1 y) by lra. change (1 + sqrt (1 ^ 2 + y ^ 2)) with x1.
    rewrite (half_angle x1 y) by lra. change (x1 + sqrt (x1 ^ 2 + y ^ 2)) with x2.
    rewrite (half_angle x2 y) by lra. change (x2 + sqrt (x2 ^ 2 + y ^ 2)) with x3. ring.
  - pose proof (Rabs_pos y) as A.
    assert (R1 : (0 + 1) * Rabs y <= x1) by (apply widen_ratio; lra).
    assert (R2 : (1 + 1.4) * Rabs y <= x2) by (apply widen_ratio; lra).
    assert (R3 : (2.4 + 2.6) * Rabs y <= x3) by (apply (widen_ratio y x2); lra). lra.
Qed.

(** ** The series *)
Definition atan_term (b : R) (j : nat) : R := (-1) ^ j * b ^ (2 * j + 1).
Fixpoint asum (b : R) (m : nat) : R :=
  match m with O => 0 | S j => asum b j + atan_term b j / INR (2 * j + 1) end.
Fixpoint gsum (b : R) (m : nat) : R :=
  match m with O => 0 | S j => gsum b j + (-1) ^ j * b ^ (2 * j) end.

Lemma asum_deriv m b : derivable_pt_lim (fun x => asum x m) b (gsum b m).
Proof.
  induction m as [|m IH]; cbn [asum gsum]; [apply derivable_pt_lim_const|].
  apply (derivable_pt_lim_plus (fun x => asum x m) (fun x => atan_term x m / INR (2 * m + 1))); [assumption|].
  assert (N : INR (2 * m + 1) <> 0) by (apply not_0_INR; lia).
  replace ((-1) ^ m * b ^ (2 * m)) with ((-1) ^ m / INR (2 * m + 1) * (INR (2 * m + 1) * b ^ pred (2 * m + 1))).
  2:{ replace (pred (2 * m + 1)) with (2 * m)%nat by lia. field. assumption. }
  pose proof (derivable_pt_lim_scal (fun x => x ^ (2 * m + 1)) ((-1) ^ m / INR (2 * m + 1)) b _
    (derivable_pt_lim_pow b (2 * m + 1))) as D.
  intros eps He. destruct (D eps He) as [dl Hd]. exists dl. intros h H1 H2. specialize (Hd h H1 H2).
  unfold mult_real_fct in Hd. unfold atan_term.
  replace (((-1) ^ m * (b + h) ^ (2 * m + 1) / INR (2 * m + 1) - (-1) ^ m * b ^ (2 * m + 1) / INR (2 * m + 1)) / h)
    with (((-1) ^ m / INR (2 * m + 1) * (b + h) ^ (2 * m + 1) - (-1) ^ m / INR (2 * m + 1) * b ^ (2 * m + 1)) / h)
    by (field; split; assumption). assumption.
Qed.

Lemma gsum_closed m b : / (1 + b ^ 2) - gsum b m = (-1) ^ m * b ^ (2 * m) / (1 + b ^ 2).
Proof.
  assert (P : 1 + b ^ 2 <> 0) by (pose proof (pow2_ge_0 b); lra).
  induction m as [|m IH]; cbn [gsum].
  - rewrite Nat.mul_0_r. cbn [pow]. field. nra.
  - replace (/ (1 + b ^ 2) - (gsum b m + (-1) ^ m * b ^ (2 * m)))
      with ((/ (1 + b ^ 2) - gsum b m) - (-1) ^ m * b ^ (2 * m)) by ring.
    rewrite IH. replace (2 * S m)%nat with (S (S (2 * m))) by lia. cbn [pow]. field. nra.
Qed.

Lemma atan_remainder m b : Rabs (atan b - asum b m) <= Rabs (atan_term b m).
Proof.
  set (g := fun x => atan x - asum x m).
  assert (D : forall c, derivable_pt_lim g c ((-1) ^ m * c ^ (2 * m) / (1 + c ^ 2))).
  { intros c. rewrite <- gsum_closed. apply (derivable_pt_lim_minus atan (fun x => asum x m));
      [apply derivable_pt_lim_atan|apply asum_deriv]. }
  assert (S0 : forall k, asum 0 k = 0).
  { induction k as [|k IH]; cbn [asum]; [reflexivity|]. rewrite IH. unfold atan_term.
    rewrite Nat.add_1_r. cbn [pow]. unfold Rdiv. ring. }
  assert (G0 : g 0 = 0) by (unfold g; rewrite atan_0, S0; ring).
  assert (B : forall c, Rabs c <= Rabs b -> Rabs ((-1) ^ m * c ^ (2 * m) / (1 + c ^ 2)) <= Rabs b ^ (2 * m)).
  { intros c L. pose proof (pow2_ge_0 c) as C. unfold Rdiv. rewrite !Rabs_mult, pow_1_abs, Rmult_1_l, Rabs_inv, (Rabs_right (1 + c ^ 2)) by lra.
    rewrite <- RPow_abs. assert (0 <= Rabs c ^ (2 * m)) by (apply pow_le, Rabs_pos).
    apply Rle_trans with (Rabs c ^ (2 * m) * 1).
    - apply Rmult_le_compat_l; [assumption|]. rewrite <- Rinv_1 at 2. apply Rinv_le_contravar; lra.
    - rewrite Rmult_1_r. apply pow_incr. split; [apply Rabs_pos|assumption]. }
  assert (Ft : Rabs (atan_term b m) = Rabs b ^ (2 * m) * Rabs b).
  { unfold atan_term. rewrite Rabs_mult, pow_1_abs, Rmult_1_l, Nat.add_1_r, <- RPow_abs. cbn [pow]. ring. }
  rewrite Ft. change (Rabs (g b) <= Rabs b ^ (2 * m) * Rabs b).
  destruct (Rtotal_order 0 b) as [L|[<-|L]].
  - destruct (MVT_cor2 g (fun c => (-1) ^ m * c ^ (2 * m) / (1 + c ^ 2)) 0 b L) as (c & E & C); [intros; apply D|].
    rewrite G0, !Rminus_0_r in E. rewrite E, Rabs_mult. apply Rmult_le_compat_r; [apply Rabs_pos|].
    apply B. rewrite !Rabs_right by lra. lra.
  - rewrite G0, !Rabs_R0. lra.
  - destruct (MVT_cor2 g (fun c => (-1) ^ m * c ^ (2 * m) / (1 + c ^ 2)) b 0 L) as (c & E & C); [intros; apply D|].
    rewrite G0 in E. replace (g b) with (- (0 - g b)) by ring. rewrite Rabs_Ropp, E, Rabs_mult.
    replace (Rabs (0 - b)) with (Rabs b) by (rewrite <- Rabs_Ropp; f_equal; ring).
    apply Rmult_le_compat_r; [apply Rabs_pos|]. apply B. rewrite !Rabs_left by lra. lra.
Qed.

Lemma atan_term_step b j : atan_term b (S j) = - atan_term b j * b ^ 2.
Proof. unfold atan_term. replace (2 * S j + 1)%nat with (S (S (2 * j + 1))) by lia. cbn [pow]. ring. Qed.
Lemma atan_term_small b j : Rabs b <= 0.21 -> Rabs (atan_term b j) <= 0.21 * (/ 16) ^ j.
Proof.
  intros B. induction j as [|j IH].
  - unfold atan_term. cbn [Nat.mul Nat.add pow]. rewrite Rmult_1_l, Rmult_1_r. lra.
  - rewrite atan_term_step, Rabs_mult, Rabs_Ropp, <- RPow_abs. pose proof (Rabs_pos b).
    assert (Rabs b ^ 2 <= / 16) by (cbn [pow]; nra). assert (0 <= Rabs b ^ 2) by apply pow2_ge_0.
    assert (0 <= (/ 16) ^ j) by (apply pow_le; lra). cbn [pow] in *.
    replace (0.21 * (/ 16 * (/ 16) ^ j)) with (0.21 * (/ 16) ^ j * / 16) by ring.
    apply Rmult_le_compat; try assumption; apply Rabs_pos.
Qed.

Section Series.
  Variables (K r : Z).
  Hypotheses (HK : (80 <= K)%Z) (Hr : Rabs (IZR r / p2 K) <= 0.21).
  Let b := IZR r / p2 K.
  Let Sc := p2 K.

  Lemma sc_big : 1000 <= Sc.
  Proof.
    unfold Sc. apply Rle_trans with (p2 10); [|apply p2_le; lia].
    rewrite p2_IZR by lia. apply IZR_le. vm_compute. discriminate.
  Qed.

  Lemma atan_step_error t j : Rabs (IZR t - Sc * atan_term b j) <= 2 ->
    Rabs (IZR (- fmul K t (fmul K r r)) - Sc * atan_term b (S j)) <= 2.
  Proof.
    intros D. pose proof sc_big as B. pose proof (fmul_value K t (fmul K r r) ltac:(lia)) as G.
    pose proof (square_near K r ltac:(lia)) as Q. fold b in Q. fold Sc in G, Q.
    set (x2 := fmul K r r) in *. set (X := IZR x2 / Sc) in *. set (d := IZR t - Sc * atan_term b j) in *.
    assert (E : IZR t * IZR x2 / Sc - Sc * atan_term b j * b ^ 2 = d * b ^ 2 + (d + Sc * atan_term b j) * (X - b ^ 2)).
    { unfold d, X. field. lra. }
    assert (b2 : 0 <= b ^ 2 <= / 16).
    { split; [apply pow2_ge_0|]. rewrite <- pow2_abs. pose proof (Rabs_pos b). fold b in Hr. cbn [pow]. nra. }
    assert (Tb : Rabs (atan_term b j) <= 0.21).
    { apply Rle_trans with (1 := atan_term_small b j Hr). assert ((/ 16) ^ j <= 1); [|lra].
      rewrite <- (pow1 j). apply pow_incr. lra. }
    assert (P1 : Rabs ((d + Sc * atan_term b j) * (X - b ^ 2)) <= 0.212).
    { rewrite Rabs_mult. apply Rle_trans with ((2 + Sc * 0.21) * / Sc).
      - apply Rmult_le_compat; [apply Rabs_pos|apply Rabs_pos| |assumption].
        apply Rle_trans with (1 := Rabs_triang _ _). rewrite (Rabs_mult Sc), (Rabs_right Sc) by lra. nra.
      - apply Rmult_le_reg_r with Sc; [lra|]. rewrite Rmult_assoc, Rinv_l by lra. lra. }
    assert (P2 : Rabs (d * b ^ 2) <= / 8).
    { rewrite Rabs_mult, (Rabs_right (b ^ 2)) by lra. pose proof (Rabs_pos d). nra. }
    assert (P3 : Rabs (IZR t * IZR x2 / Sc - Sc * atan_term b j * b ^ 2) <= 0.34).
    { rewrite E. apply Rle_trans with (1 := Rabs_triang _ _). lra. }
    rewrite atan_term_step, opp_IZR.
    replace (Sc * (- atan_term b j * b ^ 2)) with (- (Sc * atan_term b j * b ^ 2)) by ring.
    apply Rabs_le_inv in P3. apply Rabs_le. lra.
  Qed.

  Lemma atan_series_error k : forall j t acc, let n := (1 + 2 * Z.of_nat j)%Z in
    Rabs (IZR t - Sc * atan_term b j) <= 2 ->
    Rabs (IZR acc - Sc * asum b j) <= 3 * INR j ->
    exists m, (j <= m <= j + k)%nat /\ (m = (j + k)%nat \/ Rabs (atan_term b m) <= 2 / Sc) /\
      Rabs (IZR (atan_series K k (fmul K r r) t n acc) - Sc * asum b m) <= 3 * INR m.
  Proof.
    induction k as [|k IH]; intros j t acc n D A; cbn [atan_series].
    - exists j. split; [lia|]. split; [left; lia|assumption].
    - destruct (t =? 0)%Z eqn:Z0.
      + apply Z.eqb_eq in Z0. exists j. split; [lia|]. split; [|assumption]. right.
        rewrite Z0 in D. pose proof sc_big as B. apply Rmult_le_reg_l with Sc; [lra|].
        rewrite <- (Rabs_right Sc) at 1 by lra. rewrite <- Rabs_mult.
        replace (Sc * (2 / Sc)) with 2 by (field; lra).
        rewrite <- Rabs_Ropp. replace (- (Sc * atan_term b j)) with (0 - Sc * atan_term b j) by ring. assumption.
      + pose proof (atan_step_error t j D) as D'.
        specialize (IH (S j) (- fmul K t (fmul K r r))%Z (acc + t / n)%Z). cbv zeta in IH.
        replace (1 + 2 * Z.of_nat (S j))%Z with (n + 2)%Z in IH by (unfold n; lia).
        destruct IH as (m & M1 & M2 & M3); [assumption| |].
        * cbn [asum]. rewrite plus_IZR, S_INR.
          assert (En : INR (2 * j + 1) = IZR n).
          { rewrite INR_IZR_INZ. f_equal. unfold n. lia. }
          rewrite En. assert (N1 : 1 <= IZR n) by (apply (IZR_le 1); unfold n; lia).
          pose proof (floor_div t n ltac:(unfold n; lia)) as F.
          assert (Q : Rabs (IZR t / IZR n - Sc * (atan_term b j / IZR n)) <= 2).
          { replace (IZR t / IZR n - Sc * (atan_term b j / IZR n)) with ((IZR t - Sc * atan_term b j) * / IZR n) by (field; lra).
            rewrite Rabs_mult, Rabs_inv, (Rabs_right (IZR n)) by lra.
            apply Rle_trans with (2 * 1); [|lra]. apply Rmult_le_compat; [apply Rabs_pos| |assumption|].
            - apply Rlt_le, Rinv_0_lt_compat. lra.
            - rewrite <- Rinv_1. apply Rinv_le_contravar; lra. }
          apply Rabs_le_inv in Q. apply Rabs_le_inv in A. apply Rabs_le.
          replace (IZR acc + IZR (t / n) - Sc * (asum b j + atan_term b j / IZR n))
            with ((IZR acc - Sc * asum b j) + (IZR (t / n) - Sc * (atan_term b j / IZR n))) by ring. lra.
        * exists m. split; [lia|]. split; [destruct M2; [left; lia|right; assumption]|assumption].
  Qed.

  Lemma atan_series_near : Rabs (IZR (atan_series K 60 (fmul K r r) r 1 0) / p2 K - atan b) <= p2 (-71).
  Proof.
    pose proof (p2_pos K) as P. pose proof (atan_series_error 60 0 r 0%Z) as Se. cbv zeta in Se.
    destruct Se as (m & M1 & M2 & M3).
    - unfold atan_term. cbn [Nat.mul Nat.add pow]. unfold b, Sc.
      replace (IZR r - p2 K * (1 * (IZR r / p2 K * 1))) with 0 by (field; lra). rewrite Rabs_R0. lra.
    - cbn [asum INR]. rewrite Rmult_0_r, Rminus_0_r, Rabs_R0. lra.
    - fold Sc in P. pose proof (atan_remainder m b) as Re.
      assert (Tm : Rabs (atan_term b m) <= 5 / Sc + p2 (-90)).
      { pose proof (p2_pos (-90)). assert (0 <= / Sc) by (apply Rlt_le, Rinv_0_lt_compat; assumption).
        destruct M2 as [->|M2]; [|unfold Rdiv in *; lra].
        apply Rle_trans with (1 := atan_term_small b (0 + 60) Hr).
        assert ((/ 16) ^ (0 + 60) <= p2 (-90)); [|unfold Rdiv; lra].
        change (0 + 60)%nat with 60%nat. rewrite pow_inv. change (-90)%Z with (- (90))%Z. rewrite p2_neg.
        apply Rinv_le_contravar; [apply p2_pos|]. rewrite p2_IZR, pow_IZR by lia. apply IZR_le. vm_compute. discriminate. }
      assert (Im : INR m <= 60).
      { replace 60 with (INR 60) by (rewrite INR_IZR_INZ; reflexivity). apply le_INR. lia. }
      change (1 + 2 * Z.of_nat 0)%Z with 1%Z in M3.
      set (v := IZR (atan_series K 60 (fmul K r r) r 1 0)) in *. fold Sc.
      replace (v / Sc - atan b) with ((v - Sc * asum b m) / Sc + - (atan b - asum b m)) by (field; lra).
      apply Rle_trans with (1 := Rabs_triang _ _). rewrite Rabs_Ropp. unfold Rdiv at 1.
      rewrite Rabs_mult, (Rabs_right (/ Sc)) by (apply Rle_ge, Rlt_le, Rinv_0_lt_compat; assumption).
      assert (Q : Rabs (v - Sc * asum b m) * / Sc <= 300 * / Sc).
      { apply Rmult_le_compat_r; [apply Rlt_le, Rinv_0_lt_compat; assumption|lra]. }
      pose proof (p2_80 K HK). fold Sc in H. lra.
  Qed.
End Series.

(** ** The reduction in fixed point *)
Lemma sqrt_floor z : (0 <= z)%Z -> sqrt (IZR z) - 1 <= IZR (Z.sqrt z) <= sqrt (IZR z).
Proof.
  intros N. pose proof (Z.sqrt_spec z N) as [L H]. pose proof (Z.sqrt_nonneg z) as P. split.
  - assert (sqrt (IZR z) <= IZR (Z.sqrt z) + 1); [|lra].
    rewrite <- (sqrt_square (IZR (Z.sqrt z) + 1)) by (apply (IZR_le 0) in P; lra).
    apply sqrt_le_1_alt. rewrite <- plus_IZR, <- mult_IZR. apply IZR_le. lia.
  - rewrite <- (sqrt_square (IZR (Z.sqrt z))) by (apply (IZR_le 0) in P; lra).
    apply sqrt_le_1_alt. rewrite <- mult_IZR. apply IZR_le. lia.
Qed.

Lemma sqrt_diff v w x y : 0 < x -> 0 < y -> x ^ 2 <= v -> y ^ 2 <= w ->
  Rabs (sqrt v - sqrt w) <= Rabs (v - w) / (x + y).
Proof.
  intros X Y V W. assert (A : x <= sqrt v).
  { rewrite <- (sqrt_pow2 x) by lra. apply sqrt_le_1_alt. assumption. }
  assert (B : y <= sqrt w).
  { rewrite <- (sqrt_pow2 y) by lra. apply sqrt_le_1_alt. assumption. }
  assert (V0 : 0 <= v) by (pose proof (pow2_ge_0 x); lra). assert (W0 : 0 <= w) by (pose proof (pow2_ge_0 y); lra).
  pose proof (sqrt_sqrt v V0) as Sv. pose proof (sqrt_sqrt w W0) as Sw.
  apply Rmult_le_reg_r with (x + y); [lra|]. unfold Rdiv. rewrite Rmult_assoc, Rinv_l, Rmult_1_r by lra.
  replace (v - w) with ((sqrt v - sqrt w) * (sqrt v + sqrt w)) by (rewrite <- Sv at 3; rewrite <- Sw at 3; ring).
  rewrite Rabs_mult. apply Rmult_le_compat_l; [apply Rabs_pos|]. rewrite Rabs_right; lra.
Qed.

Lemma atan_lip a b : Rabs (atan a - atan b) <= Rabs (a - b).
Proof.
  apply lipschitz with (fun c => / (1 + c ^ 2)); [apply derivable_pt_lim_atan|].
  intros c. pose proof (pow2_ge_0 c). rewrite Rabs_inv, Rabs_right by lra. apply Rle_trans with (/ 1); [apply Rinv_le_contravar; lra|lra].
Qed.

Section Half.
  Variables (K t : Z).
  Hypothesis (HK : (80 <= K)%Z).
  Let Sc := p2 K.
  Let y := IZR t / Sc.
  Let y2 := fmul K t t.

  Lemma half_near h x e : 1 <= x -> Rabs (IZR h / Sc - x) <= e / Sc -> 0 <= e <= 30 ->
    Rabs (IZR (half_x K y2 h) / Sc - widen y x) <= (2 * e + 3) / Sc.
  Proof.
    intros X E He. pose proof (sc_big K HK) as B. fold Sc in B. assert (Sp : 0 < Sc) by lra.
    assert (Ip : 0 < / Sc) by (apply Rinv_0_lt_compat; assumption).
    assert (I1 : / Sc <= / 1000) by (apply Rinv_le_contravar; lra).
    set (g := IZR h / Sc) in *. assert (Eg : Rabs (g - x) <= 0.03).
    { apply Rle_trans with (1 := E). unfold Rdiv. nra. }
    apply Rabs_le_inv in Eg. assert (G : 0.9 <= g) by lra.
    pose proof (square_near K t ltac:(lia)) as Q1. fold y2 in Q1. fold Sc in Q1. fold y in Q1.
    pose proof (square_near K h ltac:(lia)) as Q2. fold Sc in Q2. fold g in Q2.
    set (a := (fmul K h h + y2)%Z).
    assert (Ea : Rabs (IZR a / Sc - (g ^ 2 + y ^ 2)) <= 2 / Sc).
    { unfold a. rewrite plus_IZR. replace ((IZR (fmul K h h) + IZR y2) / Sc - (g ^ 2 + y ^ 2))
        with ((IZR (fmul K h h) / Sc - g ^ 2) + (IZR y2 / Sc - y ^ 2)) by (field; lra).
      apply Rle_trans with (1 := Rabs_triang _ _). unfold Rdiv. lra. }
    assert (Ga : 0.8 <= IZR a / Sc).
    { apply Rabs_le_inv in Ea. pose proof (pow2_ge_0 y). assert (0.81 <= g ^ 2) by (cbn [pow]; nra).
      assert (2 / Sc <= 0.002) by (unfold Rdiv; nra). lra. }
    assert (a0 : (0 <= a)%Z).
    { apply le_IZR. apply Rmult_le_reg_r with (/ Sc); [assumption|]. unfold Rdiv in Ga. lra. }
    assert (F : Rabs (IZR (fsqrt K a) / Sc - sqrt (IZR a / Sc)) <= / Sc).
    { unfold fsqrt. pose proof (sqrt_floor (Z.shiftl a K)) as L. rewrite Z.shiftl_mul_pow2 in * by lia.
      specialize (L ltac:(apply Z.mul_nonneg_nonneg; [assumption|apply Z.pow_nonneg; lia])).
      rewrite mult_IZR, <- p2_IZR in L by lia. fold Sc in L.
      assert (Sr : sqrt (IZR a * Sc) = sqrt (IZR a / Sc) * Sc).
      { replace (IZR a * Sc) with (IZR a / Sc * (Sc ^ 2)) by (field; lra).
        rewrite sqrt_mult_alt by lra. rewrite sqrt_pow2 by lra. reflexivity. }
      rewrite Sr in L. set (q := IZR (Z.sqrt (a * 2 ^ K))) in *. set (w := sqrt (IZR a / Sc)) in *.
      replace (q / Sc - w) with ((q - w * Sc) * / Sc) by (field; lra).
      rewrite Rabs_mult, (Rabs_right (/ Sc)) by lra. rewrite <- (Rmult_1_l (/ Sc)) at 2.
      apply Rmult_le_compat_r; [lra|]. apply Rabs_le. lra. }
    assert (R1 : Rabs (sqrt (IZR a / Sc) - sqrt (g ^ 2 + y ^ 2)) <= 2 / Sc).
    { apply Rle_trans with (Rabs (IZR a / Sc - (g ^ 2 + y ^ 2)) / (0.5 + 0.5)).
      - apply sqrt_diff; try lra. pose proof (pow2_ge_0 y). assert (0.81 <= g ^ 2) by (cbn [pow]; nra). lra.
      - replace (0.5 + 0.5) with 1 by lra. apply Rle_trans with (2 := Ea). right. field. }
    assert (R2 : Rabs (sqrt (g ^ 2 + y ^ 2) - sqrt (x ^ 2 + y ^ 2)) <= Rabs (g - x)).
    { apply Rle_trans with (Rabs ((g ^ 2 + y ^ 2) - (x ^ 2 + y ^ 2)) / (g + x)).
      - apply sqrt_diff; try lra; pose proof (pow2_ge_0 y); lra.
      - replace (g ^ 2 + y ^ 2 - (x ^ 2 + y ^ 2)) with ((g - x) * (g + x)) by ring.
        rewrite Rabs_mult, (Rabs_right (g + x)) by lra. right. field. lra. }
    unfold half_x. fold a. rewrite plus_IZR. unfold widen.
    replace ((IZR h + IZR (fsqrt K a)) / Sc - (x + sqrt (x ^ 2 + y ^ 2)))
      with ((g - x) + ((IZR (fsqrt K a) / Sc - sqrt (IZR a / Sc)) +
        ((sqrt (IZR a / Sc) - sqrt (g ^ 2 + y ^ 2)) + (sqrt (g ^ 2 + y ^ 2) - sqrt (x ^ 2 + y ^ 2))))).
    2:{ unfold g. field. lra. }
    apply Rle_trans with (1 := Rabs_triang _ _).
    pose proof (Rabs_triang (IZR (fsqrt K a) / Sc - sqrt (IZR a / Sc))
      ((sqrt (IZR a / Sc) - sqrt (g ^ 2 + y ^ 2)) + (sqrt (g ^ 2 + y ^ 2) - sqrt (x ^ 2 + y ^ 2)))) as T1.
    pose proof (Rabs_triang (sqrt (IZR a / Sc) - sqrt (g ^ 2 + y ^ 2))
      (sqrt (g ^ 2 + y ^ 2) - sqrt (x ^ 2 + y ^ 2))) as T2.
    unfold Rdiv in *. lra.
  Qed.

  Lemma atan_fix_near : Rabs (IZR (atan_fix K t) / Sc - atan y) <= p2 (-67).
  Proof.
    pose proof (sc_big K HK) as B. fold Sc in B. assert (Sp : 0 < Sc) by lra.
    assert (Ip : 0 < / Sc) by (apply Rinv_0_lt_compat; assumption).
    assert (I1 : / Sc <= / 1000) by (apply Rinv_le_contravar; lra).
    destruct (atan_eighth y) as (Ey & X8 & X5). set (x1 := widen y 1) in *. set (x2 := widen y x1) in *. set (x3 := widen y x2) in *.
    unfold atan_fix. cbv zeta. fold y2. set (h1 := half_x K y2 (one K)). set (h2 := half_x K y2 h1). set (h3 := half_x K y2 h2).
    assert (P1 : 2 <= x1) by (pose proof (widen_pos y 1 ltac:(lra)); unfold x1; lra).
    assert (P2 : 4 <= x2) by (pose proof (widen_pos y x1 ltac:(lra)); unfold x2; lra).
    assert (E1 : Rabs (IZR h1 / Sc - x1) <= (2 * 0 + 3) / Sc).
    { apply half_near; [lra| |lra]. rewrite one_value by lia. fold Sc.
      replace (Sc / Sc - 1) with 0 by (field; lra). rewrite Rabs_R0. unfold Rdiv. lra. }
    assert (E2 : Rabs (IZR h2 / Sc - x2) <= (2 * (2 * 0 + 3) + 3) / Sc) by (apply half_near; [lra|exact E1|lra]).
    assert (E3 : Rabs (IZR h3 / Sc - x3) <= (2 * (2 * (2 * 0 + 3) + 3) + 3) / Sc) by (apply half_near; [lra|exact E2|lra]).
    replace (2 * (2 * (2 * 0 + 3) + 3) + 3) with 21 in E3 by ring. set (g := IZR h3 / Sc) in *.
    assert (G : 7 <= g).
    { apply Rabs_le_inv in E3. unfold Rdiv in E3. lra. }
    assert (H3 : (0 < h3)%Z).
    { apply lt_IZR. apply Rmult_lt_reg_r with (/ Sc); [assumption|]. unfold g, Rdiv in G. lra. }
    set (t3 := fdiv K t h3).
    assert (Et : Rabs (IZR t3 / Sc - y / g) <= / Sc).
    { unfold t3, fdiv. destruct (Z.eqb_spec h3 0); [lia|]. pose proof (floor_div (Z.shiftl t K) h3 H3) as F.
      rewrite Z.shiftl_mul_pow2 in * by lia. rewrite mult_IZR, <- p2_IZR in F by lia. fold Sc in F.
      set (q := IZR (t * 2 ^ K / h3)) in *. assert (h3p : 0 < IZR h3) by (apply (IZR_lt 0); assumption).
      assert (Q : IZR t * Sc / IZR h3 = y / g * Sc) by (unfold y, g; field; lra). rewrite Q in F.
      replace (q / Sc - y / g) with ((q - y / g * Sc) * / Sc) by (field; lra).
      rewrite Rabs_mult, (Rabs_right (/ Sc)) by lra. rewrite <- (Rmult_1_l (/ Sc)) at 2.
      apply Rmult_le_compat_r; [lra|]. apply Rabs_le. lra. }
    assert (Eq : Rabs (y / g - y / x3) <= 21 / Sc).
    { replace (y / g - y / x3) with (y / x3 * (x3 - g) * / g) by (field; lra).
      rewrite !Rabs_mult, Rabs_inv, (Rabs_right g), (Rabs_minus_sym x3) by lra.
      assert (L1 : Rabs (y / x3) <= 1).
      { unfold Rdiv. rewrite Rabs_mult, Rabs_inv, (Rabs_right x3) by lra. apply Rmult_le_reg_r with x3; [lra|].
        rewrite Rmult_assoc, Rinv_l by lra. pose proof (Rabs_pos y). lra. }
      assert (L2 : / g <= 1) by (rewrite <- Rinv_1; apply Rinv_le_contravar; lra).
      assert (L3 : 0 < / g) by (apply Rinv_0_lt_compat; lra).
      pose proof (Rabs_pos (g - x3)). pose proof (Rabs_pos (y / x3)).
      apply Rle_trans with (1 * Rabs (g - x3) * 1); [|lra].
      apply Rmult_le_compat; [nra|lra| |lra]. apply Rmult_le_compat_r; lra. }
    assert (Y5 : Rabs (y / x3) <= 0.2).
    { unfold Rdiv. rewrite Rabs_mult, Rabs_inv, (Rabs_right x3) by lra. apply Rmult_le_reg_r with x3; [lra|].
      rewrite Rmult_assoc, Rinv_l by lra. lra. }
    assert (S20 : / Sc <= p2 (-80)) by (apply inv_80; assumption).
    assert (S13 : p2 (-80) <= / 8192).
    { apply Rle_trans with (p2 (- (13))); [apply p2_le; lia|]. rewrite p2_neg, p2_IZR by lia. change (2 ^ 13)%Z with 8192%Z. lra. }
    assert (Ed : Rabs (IZR t3 / Sc - y / x3) <= 22 / Sc).
    { replace (IZR t3 / Sc - y / x3) with ((IZR t3 / Sc - y / g) + (y / g - y / x3)) by ring.
      apply Rle_trans with (1 := Rabs_triang _ _). unfold Rdiv in *. lra. }
    assert (Bt : Rabs (IZR t3 / Sc) <= 0.21).
    { replace (IZR t3 / Sc) with ((IZR t3 / Sc - y / x3) + y / x3) by ring.
      apply Rle_trans with (1 := Rabs_triang _ _). unfold Rdiv in *. lra. }
    pose proof (atan_series_near K t3 HK Bt) as N. fold Sc in N.
    rewrite mult_IZR, Ey. set (v := IZR (atan_series K 60 (fmul K t3 t3) t3 1 0)) in *.
    assert (La : Rabs (atan (IZR t3 / Sc) - atan (y / x3)) <= Rabs (IZR t3 / Sc - y / x3)) by apply atan_lip.
    replace (8 * v / Sc - 8 * atan (y / x3))
      with (8 * ((v / Sc - atan (IZR t3 / Sc)) + (atan (IZR t3 / Sc) - atan (y / x3)))) by (field; lra).
    rewrite Rabs_mult, (Rabs_right 8) by lra.
    pose proof (Rabs_triang (v / Sc - atan (IZR t3 / Sc)) (atan (IZR t3 / Sc) - atan (y / x3))) as T.
    assert (C1 : 22 / Sc <= p2 (-71)).
    { unfold Rdiv. apply Rle_trans with (22 * p2 (-80)); [nra|].
      replace (-80)%Z with (-71 + - (9))%Z by reflexivity. rewrite p2_add, p2_neg, (p2_IZR 9) by lia.
      change (2 ^ 9)%Z with 512%Z. pose proof (p2_pos (-71)). lra. }
    assert (C2 : p2 (-67) = 16 * p2 (-71)).
    { replace (-67)%Z with (4 + -71)%Z by reflexivity. rewrite p2_add, (p2_IZR 4) by lia. reflexivity. }
    lra.
  Qed.
End Half.

Lemma pi_upper : PI <= 3.16.
Proof.
  pose proof (proj2 (PI_2_3_7_ineq 1)) as P. cbn [sum_f_R0 Nat.mul Nat.add] in P.
  unfold tg_alt, PI_2_3_7_tg, Ratan_seq in P. cbn [Nat.mul Nat.add pow] in P.
  rewrite !INR_IZR_INZ in P. cbn in P. lra.
Qed.
Lemma atan_size a : Rabs (atan a) <= 1.58.
Proof.
  pose proof (atan_bound a) as B. pose proof pi_upper. apply Rabs_le. lra.
Qed.

Lemma atan_near x : valid x ->
  valid (f_atan x) /\ Rabs (FR (f_atan x) - atan (FR x)) <= u * Rabs (atan (FR x)) + p2 (-60).
Proof.
  intros V.
  assert (G : valid (twice atan_fix x) /\ Rabs (FR (twice atan_fix x) - atan (FR x)) <= u * Rabs (atan (FR x)) + p2 (-60)).
  { apply twice_near; [pose proof (atan_size (FR x)); lra|]. intros K HK.
    pose proof (atan_fix_near K (to_fix K x) ltac:(lia)) as N.
    pose proof (to_fix_near K x ltac:(lia)) as M. destruct (inv_80 K ltac:(lia)) as [_ I].
    pose proof (atan_lip (IZR (to_fix K x) / p2 K) (FR x)) as L.
    replace (IZR (atan_fix K (to_fix K x)) / p2 K - atan (FR x))
      with ((IZR (atan_fix K (to_fix K x)) / p2 K - atan (IZR (to_fix K x) / p2 K)) +
        (atan (IZR (to_fix K x) / p2 K) - atan (FR x))) by ring.
    apply Rle_trans with (1 := Rabs_triang _ _).
    assert (A : p2 (-80) <= p2 (-67)) by (apply p2_le; lia).
    assert (C : 2 * p2 (-67) <= p2 (-61)).
    { replace (2 * p2 (-67)) with (p2 (-66)); [apply p2_le; lia|].
      replace (-66)%Z with (1 + -67)%Z by reflexivity. rewrite p2_add, p2_1. reflexivity. }
    lra. }
  destruct x as [s|s| |s m e]; try (destruct V as [Fi _]; discriminate Fi); [|exact G].
  cbn [f_atan]. split; [exact V|]. cbn [FR]. rewrite atan_0, Rminus_eq_0, Rabs_R0. pose proof (p2_pos (-60)). lra.
Qed.
