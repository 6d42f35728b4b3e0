(** * SinNear: the rounding error of the sine and the cosine of the model at binary64.

    [FloatNum] computes both in fixed point with 80 or 160 bits after the point; here the
    result is compared with the sine and cosine of the real numbers. *)
From Coq Require Import Reals ZArith Lra Lia Bool SpecFloat List.
From Verif Require Import Num FloatNum RoundTheory.
Local Open Scope R_scope.

(** ** Fixed point *)
Lemma floor_div a b : (0 < b)%Z -> IZR a / IZR b - 1 <= IZR (a / b) <= IZR a / IZR b.
Proof.
  intros B. pose proof (Z.mod_pos_bound a b B) as M. pose proof (Z.div_mod a b ltac:(lia)) as D.
  assert (Bp : 0 < IZR b) by (apply (IZR_lt 0); assumption).
  assert (Q : IZR a / IZR b = IZR (a / b) + IZR (a mod b) / IZR b).
  { rewrite D at 1. rewrite plus_IZR, mult_IZR. field. lra. }
  assert (M1 : 0 <= IZR (a mod b) / IZR b).
  { apply Rmult_le_pos; [apply (IZR_le 0); lia|apply Rlt_le, Rinv_0_lt_compat; assumption]. }
  assert (M2 : IZR (a mod b) / IZR b <= 1).
  { apply Rmult_le_reg_r with (IZR b); [assumption|]. unfold Rdiv. rewrite Rmult_assoc, Rinv_l, Rmult_1_r, Rmult_1_l by lra.
    apply IZR_le. lia. }
  lra.
Qed.

Lemma one_value K : (0 <= K)%Z -> IZR (one K) = p2 K.
Proof. intros HK. unfold one. rewrite Z.shiftl_mul_pow2, Z.mul_1_l, p2_IZR by assumption. reflexivity. Qed.

Lemma fmul_value K a b : (0 <= K)%Z ->
  IZR a * IZR b / p2 K - 1 <= IZR (fmul K a b) <= IZR a * IZR b / p2 K.
Proof.
  intros HK. unfold fmul. rewrite Z.shiftr_div_pow2 by assumption.
  rewrite p2_IZR by assumption. rewrite <- mult_IZR. apply floor_div. apply Z.pow_pos_nonneg; lia.
Qed.

(** ** The series

    [T] is the exact sequence of terms for the square [y] of the argument. *)
Section Series.
  Variables (K : Z) (T : nat -> R) (y : R) (n0 : Z) (x2 : Z).
  Hypotheses (HK : (10 <= K)%Z) (Hn : (0 <= n0)%Z)
    (Hy : 0 <= y <= 4) (HT : forall j, Rabs (T j) <= 2)
    (Hx : Rabs (IZR x2 / p2 K - y) <= / p2 K)
    (Step : forall j, T (S j) = - T j * y / IZR ((n0 + 2 * Z.of_nat j + 1) * (n0 + 2 * Z.of_nat j + 2))).

  Let Sc := p2 K.

  Lemma scale_big : 1000 <= Sc.
  Proof.
    unfold Sc. apply Rle_trans with (p2 10); [|apply p2_le; assumption].
    rewrite p2_IZR by lia. apply IZR_le. vm_compute. discriminate.
  Qed.

  (** one step: the error of a term in units of the last place *)
  Lemma step_error t j : let n := (n0 + 2 * Z.of_nat j)%Z in
    Rabs (IZR t - Sc * T j) <= 5 -> ((1 <= n)%Z \/ IZR t = Sc * T j) ->
    Rabs (IZR (- fmul K t x2 / ((n + 1) * (n + 2))) - Sc * T (S j)) <= 5.
  Proof.
    intros n D N. pose proof scale_big as B. assert (Sp : 0 < Sc) by lra.
    assert (n0' : (0 <= n)%Z) by (unfold n; lia).
    set (c := ((n + 1) * (n + 2))%Z). assert (Cp : (2 <= c)%Z) by (unfold c; nia).
    pose proof (floor_div (- fmul K t x2) c ltac:(lia)) as F.
    pose proof (fmul_value K t x2 ltac:(lia)) as G. fold Sc in G, Hx.
    set (d := IZR t - Sc * T j) in *. set (X := IZR x2 / Sc) in *.
    assert (E : IZR t * IZR x2 / Sc - Sc * T j * y = d * y + (d + Sc * T j) * (X - y)).
    { unfold d, X. field. lra. }
    set (w := IZR t * IZR x2 / Sc) in *.
    assert (dX : Rabs (X - y) <= / Sc) by exact Hx.
    assert (P1 : Rabs ((d + Sc * T j) * (X - y)) <= 2 + Rabs d / Sc).
    { rewrite Rabs_mult. apply Rle_trans with ((Rabs d + Sc * 2) * / Sc).
      - apply Rmult_le_compat; [apply Rabs_pos|apply Rabs_pos| |assumption].
        apply Rle_trans with (1 := Rabs_triang _ _). rewrite (Rabs_mult Sc), (Rabs_right Sc) by lra.
        pose proof (HT j). nra.
      - right. field. lra. }
    assert (P2 : Rabs (d * y) <= 4 * Rabs d).
    { rewrite Rabs_mult, (Rabs_right y) by lra. pose proof (Rabs_pos d). nra. }
    assert (P3 : Rabs d / Sc <= Rabs d / 1000).
    { unfold Rdiv. apply Rmult_le_compat_l; [apply Rabs_pos|]. apply Rinv_le_contravar; lra. }
    pose proof (Rabs_pos d) as d0.
    assert (P4 : Rabs (w - Sc * T j * y) <= 2 + 4.001 * Rabs d).
    { rewrite E. apply Rle_trans with (1 := Rabs_triang _ _). lra. }
    assert (P5 : Rabs (IZR (fmul K t x2) - Sc * T j * y) <= 3 + 4.001 * Rabs d).
    { apply Rabs_le. assert (Q := P4). revert Q. unfold Rabs at 1. destruct Rcase_abs; intros; split; lra. }
    assert (Cr : 2 <= IZR c) by (apply (IZR_le 2); assumption).
    rewrite Step. fold n. fold c.
    rewrite opp_IZR in F.
    replace (Sc * (- T j * y / IZR c)) with (- (Sc * T j * y) / IZR c) by (field; lra).
    assert (P6 : Rabs (- IZR (fmul K t x2) / IZR c - - (Sc * T j * y) / IZR c) <= (3 + 4.001 * Rabs d) / IZR c).
    { replace (- IZR (fmul K t x2) / IZR c - - (Sc * T j * y) / IZR c)
        with (- (IZR (fmul K t x2) - Sc * T j * y) * / IZR c) by (field; lra).
      rewrite Rabs_mult, Rabs_Ropp, (Rabs_right (/ IZR c)).
      - apply Rmult_le_compat_r; [apply Rlt_le, Rinv_0_lt_compat; lra|assumption].
      - apply Rle_ge, Rlt_le, Rinv_0_lt_compat; lra. }
    assert (P7 : (3 + 4.001 * Rabs d) / IZR c <= 4).
    { apply Rmult_le_reg_r with (IZR c); [lra|]. unfold Rdiv. rewrite Rmult_assoc, Rinv_l, Rmult_1_r by lra.
      destruct N as [N|N].
      - assert (C6 : 6 <= IZR c) by (apply (IZR_le 6); unfold c; nia). lra.
      - assert (Z0 : d = 0) by (unfold d; lra). rewrite Z0, Rabs_R0. lra. }
    apply Rabs_le. revert P6. unfold Rabs at 1. destruct Rcase_abs; intros; split; lra.
  Qed.

  Fixpoint psum (j : nat) : R := match j with O => 0 | S i => psum i + T i end.

  (** the loop from term [j] on adds terms [j], ..., [m - 1]; it stops at the first
      computed term that is 0, or after [k] terms *)
  Lemma series_error k : forall j t acc, let n := (n0 + 2 * Z.of_nat j)%Z in
    Rabs (IZR t - Sc * T j) <= 5 -> ((1 <= n)%Z \/ IZR t = Sc * T j) ->
    Rabs (IZR acc - Sc * psum j) <= 5 * INR j ->
    exists m, (j <= m <= j + k)%nat /\ (m = (j + k)%nat \/ Rabs (T m) <= 5 / Sc) /\
      (t <> 0%Z -> k <> 0%nat -> (j < m)%nat) /\
      Rabs (IZR (sin_series K k x2 t n acc) - Sc * psum m) <= 5 * INR m.
  Proof.
    induction k as [|k IH]; intros j t acc n D N A; cbn [sin_series].
    - exists j. split; [lia|]. split; [left; lia|]. split; [lia|assumption].
    - destruct (t =? 0)%Z eqn:Z0.
      + apply Z.eqb_eq in Z0. exists j. split; [lia|]. split; [|split; [lia|assumption]]. right.
        rewrite Z0 in D. pose proof scale_big as B. apply Rmult_le_reg_l with Sc; [lra|].
        rewrite <- (Rabs_right Sc) at 1 by lra. rewrite <- Rabs_mult.
        replace (Sc * (5 / Sc)) with 5 by (field; lra).
        rewrite <- Rabs_Ropp. replace (- (Sc * T j)) with (0 - Sc * T j) by ring. assumption.
      + pose proof (step_error t j D N) as D'. cbv zeta in D'. fold n in D'.
        specialize (IH (S j) (- fmul K t x2 / ((n + 1) * (n + 2)))%Z (acc + t)%Z). cbv zeta in IH.
        replace (n0 + 2 * Z.of_nat (S j))%Z with (n + 2)%Z in IH by (unfold n; lia).
        destruct IH as (m & M1 & M2 & M3 & M4).
        * assumption.
        * left. unfold n. lia.
        * cbn [psum]. rewrite plus_IZR, S_INR.
          replace (IZR acc + IZR t - Sc * (psum j + T j))
            with ((IZR acc - Sc * psum j) + (IZR t - Sc * T j)) by ring.
          apply Rle_trans with (1 := Rabs_triang _ _). lra.
        * exists m. split; [lia|]. split; [destruct M2; [left; lia|right; assumption]|]. split; [lia|assumption].
  Qed.
End Series.

(** ** The exact terms *)
Lemma sin_step a j : sin_term a (S j) =
  - sin_term a j * a ^ 2 / IZR ((1 + 2 * Z.of_nat j + 1) * (1 + 2 * Z.of_nat j + 2)).
Proof.
  unfold sin_term. replace (2 * S j + 1)%nat with (S (S (2 * j + 1))) by lia.
  rewrite !fact_simpl, !mult_INR, !S_INR. cbn [pow].
  rewrite mult_IZR, !plus_IZR, mult_IZR, <- INR_IZR_INZ, plus_INR, mult_INR. cbn [INR].
  pose proof (INR_fact_neq_0 (2 * j + 1)). pose proof (pos_INR j). field. repeat split; try lra; assumption.
Qed.

Lemma cos_step a j : cos_term a (S j) =
  - cos_term a j * a ^ 2 / IZR ((0 + 2 * Z.of_nat j + 1) * (0 + 2 * Z.of_nat j + 2)).
Proof.
  unfold cos_term. replace (2 * S j)%nat with (S (S (2 * j))) by lia.
  rewrite !fact_simpl, !mult_INR, !S_INR. cbn [pow].
  rewrite mult_IZR, !plus_IZR, mult_IZR, <- INR_IZR_INZ, mult_INR. cbn [INR].
  pose proof (INR_fact_neq_0 (2 * j)). pose proof (pos_INR j). field. repeat split; try lra; assumption.
Qed.

Lemma sin_term_0 a : sin_term a 0 = a.
Proof. unfold sin_term. cbn. field. Qed.
Lemma cos_term_0 a : cos_term a 0 = 1.
Proof. unfold cos_term. cbn. field. Qed.

Section Terms.
  Variables (T : nat -> R) (y : R) (n0 : Z).
  Hypotheses (Hn : (0 <= n0)%Z) (Hy : 0 <= y <= 4)
    (Step : forall j, T (S j) = - T j * y / IZR ((n0 + 2 * Z.of_nat j + 1) * (n0 + 2 * Z.of_nat j + 2)))
    (First : Rabs (T 0%nat) <= 2 /\ (n0 = 0%Z -> Rabs (T 0%nat) <= 1)).

  Lemma term_shrinks j : Rabs (T (S j)) <= 2 * (/ 3) ^ j.
  Proof.
    induction j as [|j IH].
    - rewrite Step. set (c := ((n0 + 2 * Z.of_nat 0 + 1) * (n0 + 2 * Z.of_nat 0 + 2))%Z).
      assert (C2 : 2 <= IZR c) by (apply (IZR_le 2); unfold c; nia). unfold Rdiv.
      rewrite !Rabs_mult, Rabs_Ropp, (Rabs_right y), Rabs_inv, (Rabs_right (IZR c)) by lra.
      apply Rmult_le_reg_r with (IZR c); [lra|]. rewrite !Rmult_assoc, Rinv_l by lra. cbn [pow].
      destruct First as [F1 F2]. pose proof (Rabs_pos (T 0%nat)).
      destruct (Z.eq_dec n0 0) as [E|N].
      + specialize (F2 E). nra.
      + assert (C6 : 6 <= IZR c) by (apply (IZR_le 6); unfold c; nia). nra.
    - rewrite Step. set (c := ((n0 + 2 * Z.of_nat (S j) + 1) * (n0 + 2 * Z.of_nat (S j) + 2))%Z).
      assert (C12 : 12 <= IZR c) by (apply (IZR_le 12); unfold c; nia). unfold Rdiv.
      rewrite !Rabs_mult, Rabs_Ropp, (Rabs_right y), Rabs_inv, (Rabs_right (IZR c)) by lra.
      apply Rmult_le_reg_r with (IZR c); [lra|]. rewrite !Rmult_assoc, Rinv_l by lra. cbn [pow].
      pose proof (Rabs_pos (T (S j))). assert (0 <= (/ 3) ^ j) by (apply pow_le; lra).
      apply Rle_trans with (2 * (/ 3) ^ j * 4); [nra|].
      replace (2 * (/ 3 * (/ 3) ^ j * IZR c)) with (2 * (/ 3) ^ j * (IZR c / 3)) by field.
      apply Rmult_le_compat_l; lra.
  Qed.
  Lemma term_small j : Rabs (T j) <= 2.
  Proof.
    destruct j as [|j]; [apply First|]. apply Rle_trans with (1 := term_shrinks j).
    assert ((/ 3) ^ j <= 1); [|lra]. rewrite <- (pow1 j). apply pow_incr. lra.
  Qed.

End Terms.

Lemma psum_sum T m : psum T (S m) = sum_f_R0 T m.
Proof. induction m as [|m IH]; [cbn; ring|]. change (psum T (S (S m))) with (psum T (S m) + T (S m)). rewrite IH. reflexivity. Qed.
Lemma sin_term_even a i : 0 <= a -> 0 <= sin_term a (2 * i).
Proof.
  intros A. unfold sin_term. rewrite pow_1_even, Rmult_1_l. apply Rmult_le_pos; [apply pow_le; assumption|].
  apply Rlt_le, Rinv_0_lt_compat, INR_fact_lt_0.
Qed.

Lemma sin_low a i : 0 <= a <= 4 -> psum (sin_term a) (2 * i) <= sin a \/ i = 0%nat.
Proof.
  intros [A0 A4]. destruct i as [|i]; [right; reflexivity|left].
  replace (2 * S i)%nat with (S (2 * i + 1)) by lia. rewrite psum_sum. apply (pre_sin_bound a i A0 A4).
Qed.
Lemma sin_high a i : 0 <= a <= 4 -> sin a <= psum (sin_term a) (2 * i + 1).
Proof.
  intros [A0 A4]. destruct i as [|i].
  - cbn [Nat.mul Nat.add psum]. rewrite sin_term_0, Rplus_0_l. destruct (Req_dec a 0) as [->|N]; [rewrite sin_0; lra|].
    apply Rlt_le, sin_lt_x. lra.
  - replace (2 * S i + 1)%nat with (S (2 * (i + 1))) by lia. rewrite psum_sum. apply (pre_sin_bound a i A0 A4).
Qed.
Lemma cos_low a i : -2 <= a <= 2 -> psum (cos_term a) (2 * i) <= cos a \/ i = 0%nat.
Proof.
  intros [A0 A4]. destruct i as [|i]; [right; reflexivity|left].
  replace (2 * S i)%nat with (S (2 * i + 1)) by lia. rewrite psum_sum. apply (pre_cos_bound a i A0 A4).
Qed.
Lemma cos_high a i : -2 <= a <= 2 -> cos a <= psum (cos_term a) (2 * i + 1).
Proof.
  intros [A0 A4]. destruct i as [|i].
  - cbn [Nat.mul Nat.add psum]. rewrite cos_term_0, Rplus_0_l. apply COS_bound.
  - replace (2 * S i + 1)%nat with (S (2 * (i + 1))) by lia. rewrite psum_sum. apply (pre_cos_bound a i A0 A4).
Qed.

(** the alternating bound *)
Lemma remainder T F : (forall i, psum T (2 * i) <= F \/ i = 0%nat) -> (forall i, F <= psum T (2 * i + 1)) ->
  forall m, (1 <= m)%nat -> Rabs (F - psum T m) <= Rabs (T m).
Proof.
  intros Low High m M. destruct (Nat.Even_or_Odd m) as [[i ->]|[i ->]].
  - destruct (Low i) as [A|A]; [|lia]. pose proof (High i) as B.
    replace (2 * i + 1)%nat with (S (2 * i)) in B by lia. cbn [psum] in B.
    rewrite !Rabs_right by lra. lra.
  - pose proof (High i) as A. destruct (Low (i + 1)%nat) as [B|B]; [|lia].
    replace (2 * (i + 1))%nat with (S (2 * i + 1)) in B by lia. cbn [psum] in B.
    rewrite !Rabs_left1 by lra. lra.
Qed.

Lemma sin_term_opp a i : sin_term (- a) i = - sin_term a i.
Proof.
  unfold sin_term. replace (- a) with (-1 * a) by ring. rewrite Rpow_mult_distr.
  replace ((-1) ^ (2 * i + 1)) with (-1); [unfold Rdiv; ring|].
  rewrite Nat.add_1_r. symmetry. apply pow_1_odd.
Qed.
Lemma psum_opp a m : psum (sin_term (- a)) m = - psum (sin_term a) m.
Proof. induction m as [|m IH]; cbn [psum]; [ring|]. rewrite IH, sin_term_opp. ring. Qed.

Lemma sin_remainder a m : -2 <= a <= 2 -> (1 <= m)%nat -> Rabs (sin a - psum (sin_term a) m) <= Rabs (sin_term a m).
Proof.
  intros A M. destruct (Rle_dec 0 a) as [P|P].
  - apply remainder; [intros i; apply sin_low; lra|intros i; apply sin_high; lra|assumption].
  - rewrite <- (Ropp_involutive a), sin_neg, psum_opp, sin_term_opp, Rabs_Ropp.
    replace (- sin (- a) - - psum (sin_term (- a)) m) with (- (sin (- a) - psum (sin_term (- a)) m)) by ring.
    rewrite Rabs_Ropp. apply remainder; [intros i; apply sin_low; lra|intros i; apply sin_high; lra|assumption].
Qed.
Lemma cos_remainder a m : -2 <= a <= 2 -> (1 <= m)%nat -> Rabs (cos a - psum (cos_term a) m) <= Rabs (cos_term a m).
Proof.
  intros A M. apply remainder; [intros i; apply cos_low; assumption|intros i; apply cos_high; assumption|assumption].
Qed.

(** ** Both functions in fixed point, for arguments up to 2 *)
Lemma square_near K r : (0 <= K)%Z -> Rabs (IZR (fmul K r r) / p2 K - (IZR r / p2 K) ^ 2) <= / p2 K.
Proof.
  intros HK. pose proof (fmul_value K r r HK) as G. pose proof (p2_pos K) as P.
  replace (IZR (fmul K r r) / p2 K - (IZR r / p2 K) ^ 2)
    with ((IZR (fmul K r r) - IZR r * IZR r / p2 K) * / p2 K) by (field; lra).
  rewrite Rabs_mult, (Rabs_right (/ p2 K)) by (apply Rle_ge, Rlt_le, Rinv_0_lt_compat; assumption).
  rewrite <- (Rmult_1_l (/ p2 K)) at 2. apply Rmult_le_compat_r; [apply Rlt_le, Rinv_0_lt_compat; assumption|].
  apply Rabs_le. lra.
Qed.

Lemma last_term : 2 * (/ 3) ^ 59 <= p2 (-90).
Proof.
  replace (-90)%Z with (- (90))%Z by reflexivity. rewrite p2_neg, p2_IZR by lia. rewrite pow_inv.
  assert (P : IZR (2 ^ 91) <= 3 ^ 59).
  { rewrite pow_IZR. apply IZR_le. vm_compute. discriminate. }
  assert (Q : 0 < IZR (2 ^ 90)) by (apply (IZR_lt 0); reflexivity).
  replace (2 ^ 91)%Z with (2 * 2 ^ 90)%Z in P by reflexivity. rewrite mult_IZR in P.
  apply Rmult_le_reg_r with (IZR (2 ^ 90)); [assumption|]. rewrite Rinv_l by lra.
  assert (Q3 : 0 < 3 ^ 59) by (apply pow_lt; lra).
  apply Rmult_le_reg_l with (3 ^ 59); [assumption|].
  replace (3 ^ 59 * (2 * / 3 ^ 59 * IZR (2 ^ 90))) with (2 * IZR (2 ^ 90)) by (field; lra). lra.
Qed.

Lemma p2_80 K : (80 <= K)%Z -> 305 / p2 K + p2 (-90) <= p2 (-71).
Proof.
  intros HK. assert (A : 305 <= p2 9) by (rewrite p2_IZR by lia; apply (IZR_le 305); vm_compute; discriminate).
  assert (B : 305 / p2 K <= (305 / 512) * p2 (-71)).
  { unfold Rdiv at 1. rewrite <- p2_neg. apply Rle_trans with (305 * p2 (-80)).
    - apply Rmult_le_compat_l; [lra|]. apply p2_le. lia.
    - replace (-80)%Z with (-71 + - (9))%Z by reflexivity. rewrite p2_add, p2_neg, (p2_IZR 9) by lia.
      change (2 ^ 9)%Z with 512%Z. pose proof (p2_pos (-71)). lra. }
  replace (-90)%Z with (-71 + - (19))%Z by reflexivity. rewrite p2_add, p2_neg, (p2_IZR 19) by lia.
  change (2 ^ 19)%Z with 524288%Z. pose proof (p2_pos (-71)). lra.
Qed.

Section Fixed.
  Variables (K r : Z).
  Hypotheses (HK : (80 <= K)%Z) (Hr : -2 <= IZR r / p2 K <= 2).
  Let a := IZR r / p2 K.

  Lemma arg_square : 0 <= a ^ 2 <= 4.
  Proof. unfold a in *. split; [apply pow2_ge_0|]. cbn [pow]. nra. Qed.

  Lemma series_near T n0 t F : (0 <= n0)%Z ->
    (forall j, T (S j) = - T j * a ^ 2 / IZR ((n0 + 2 * Z.of_nat j + 1) * (n0 + 2 * Z.of_nat j + 2))) ->
    Rabs (T 0%nat) <= 2 -> (n0 = 0%Z -> Rabs (T 0%nat) <= 1) -> IZR t = p2 K * T 0%nat ->
    (forall m, (1 <= m)%nat -> Rabs (F - psum T m) <= Rabs (T m)) -> (t = 0%Z -> F = 0) ->
    Rabs (IZR (sin_series K 60 (fmul K r r) t n0 0) / p2 K - F) <= p2 (-71).
  Proof.
    intros N0 St F1 F2 Et Re Z0. pose proof (p2_pos K) as P.
    destruct (Z.eq_dec t 0) as [E|N].
    { rewrite (Z0 E), E. cbn [sin_series Z.eqb]. unfold Rdiv; rewrite Rmult_0_l, Rminus_0_r, Rabs_R0. apply Rlt_le, p2_pos. }
    pose proof (series_error K T (a ^ 2) n0 (fmul K r r) ltac:(lia) N0 arg_square
      (term_small T (a ^ 2) n0 N0 arg_square St (conj F1 F2)) (square_near K r ltac:(lia)) St
      60 0 t 0%Z) as Se. cbv zeta in Se.
    replace (n0 + 2 * Z.of_nat 0)%Z with n0 in Se by lia.
    destruct Se as (m & M1 & M2 & M3 & M4).
    - rewrite Et, Rminus_eq_0, Rabs_R0. lra.
    - right. assumption.
    - cbn [psum INR]. rewrite Rmult_0_r, Rminus_0_r, Rabs_R0. lra.
    - specialize (M3 N ltac:(discriminate)). specialize (Re m ltac:(lia)).
      assert (Tm : Rabs (T m) <= 5 / p2 K + p2 (-90)).
      { pose proof (p2_pos (-90)). assert (0 <= 5 / p2 K) by (apply Rmult_le_pos; [lra|apply Rlt_le, Rinv_0_lt_compat; assumption]).
        destruct M2 as [->|M2]; [|lra].
        apply Rle_trans with (1 := term_shrinks T (a ^ 2) n0 N0 arg_square St (conj F1 F2) 59).
        pose proof last_term. lra. }
      assert (Im : INR m <= 60).
      { replace 60 with (INR 60) by (rewrite INR_IZR_INZ; reflexivity). apply le_INR. lia. }
      set (v := IZR (sin_series K 60 (fmul K r r) t n0 0)) in *.
      replace (v / p2 K - F) with ((v - p2 K * psum T m) / p2 K + - (F - psum T m)) by (field; lra).
      apply Rle_trans with (1 := Rabs_triang _ _). rewrite Rabs_Ropp. unfold Rdiv at 1.
      rewrite Rabs_mult, (Rabs_right (/ p2 K)) by (apply Rle_ge, Rlt_le, Rinv_0_lt_compat; assumption).
      assert (Q : Rabs (v - p2 K * psum T m) * / p2 K <= 300 * / p2 K).
      { apply Rmult_le_compat_r; [apply Rlt_le, Rinv_0_lt_compat; assumption|lra]. }
      pose proof (p2_80 K HK). lra.
  Qed.

  Lemma sin_series_near : Rabs (IZR (sin_series K 60 (fmul K r r) r 1 0) / p2 K - sin a) <= p2 (-71).
  Proof.
    pose proof (p2_pos K) as P.
    apply (series_near (sin_term a)); [lia|apply sin_step| |discriminate| | |].
    - rewrite sin_term_0. apply Rabs_le. exact Hr.
    - rewrite sin_term_0. unfold a. field. lra.
    - intros m. apply sin_remainder. exact Hr.
    - intros ->. unfold a. unfold Rdiv. rewrite Rmult_0_l. apply sin_0.
  Qed.
  Lemma cos_series_near : Rabs (IZR (sin_series K 60 (fmul K r r) (one K) 0 0) / p2 K - cos a) <= p2 (-71).
  Proof.
    pose proof (p2_pos K) as P.
    apply (series_near (cos_term a)); [lia|apply cos_step| | | | |].
    - rewrite cos_term_0, Rabs_R1. lra.
    - rewrite cos_term_0, Rabs_R1. lra.
    - rewrite cos_term_0, one_value by lia. ring.
    - intros m. apply cos_remainder. exact Hr.
    - intros E. apply f_equal with (f := IZR) in E. rewrite one_value in E by lia. lra.
  Qed.
End Fixed.

(** a half turn holds 2 *)
Lemma pi_fix_80 : (2 * one 80 < pi_fix 80)%Z.
Proof. reflexivity. Qed.
Lemma pi_fix_160 : (2 * one 160 < pi_fix 160)%Z.
Proof. reflexivity. Qed.

Lemma reduce_id K x : (2 * one K < pi_fix K)%Z -> (0 <= K)%Z -> -2 <= IZR x / p2 K <= 2 -> reduce K x = x.
Proof.
  intros P HK [A B]. unfold reduce. set (p := pi_fix K) in *. pose proof (p2_pos K) as Q.
  assert (U : (x <= 2 * one K)%Z).
  { apply le_IZR. rewrite mult_IZR, one_value by assumption. apply Rmult_le_reg_r with (/ p2 K); [apply Rinv_0_lt_compat; assumption|].
    rewrite Rmult_assoc, Rinv_r by lra. unfold Rdiv in B. lra. }
  assert (L : (- (2 * one K) <= x)%Z).
  { apply le_IZR. rewrite opp_IZR, mult_IZR, one_value by assumption. apply Rmult_le_reg_r with (/ p2 K); [apply Rinv_0_lt_compat; assumption|].
    replace (- (2 * p2 K) * / p2 K) with (-2) by (field; lra). exact A. }
  destruct (Z_le_gt_dec 0 x) as [N|N].
  - rewrite Z.mod_small by lia. destruct (Z.ltb_spec p x); lia.
  - assert (M : (x mod (2 * p) = x + 2 * p)%Z).
    { symmetry. apply Z.mod_unique with (-1)%Z; lia. }
    rewrite M. destruct (Z.ltb_spec p (x + 2 * p)); lia.
Qed.

Lemma to_fix_near K x : (0 <= K)%Z -> Rabs (IZR (to_fix K x) / p2 K - FR x) <= / p2 K.
Proof.
  intros HK. pose proof (p2_pos K) as P. assert (I : 0 < / p2 K) by (apply Rinv_0_lt_compat; assumption).
  destruct x as [s|s| |s m e]; cbn [to_fix FR]; try (unfold Rdiv; rewrite Rmult_0_l, Rminus_eq_0, Rabs_R0; lra).
  set (z := if s then Zneg m else Zpos m).
  replace (sgn s * (IZR (Zpos m) * p2 e)) with (IZR z * p2 e).
  2:{ unfold z, sgn. destruct s; [|ring]. change (Zneg m) with (- Zpos m)%Z. rewrite opp_IZR. ring. }
  assert (E : p2 e = p2 (K + e) / p2 K).
  { rewrite p2_add. field. lra. }
  rewrite E. destruct (Z_le_gt_dec 0 (K + e)) as [N|N].
  - rewrite Z.shiftl_mul_pow2, mult_IZR, <- p2_IZR by assumption.
    replace (IZR z * p2 (K + e) / p2 K - IZR z * (p2 (K + e) / p2 K)) with 0 by (field; lra). rewrite Rabs_R0. lra.
  - assert (Sh : Z.shiftl z (K + e) = (z / 2 ^ (- (K + e)))%Z).
    { rewrite <- Z.shiftr_div_pow2 by lia. rewrite <- Z.shiftl_opp_r. f_equal. lia. }
    rewrite Sh. pose proof (floor_div z (2 ^ (- (K + e))) ltac:(apply Z.pow_pos_nonneg; lia)) as G.
    rewrite <- p2_IZR, p2_neg in G by lia. unfold Rdiv in G at 1 2. rewrite Rinv_inv in G.
    replace (IZR (z / 2 ^ (- (K + e))) / p2 K - IZR z * (p2 (K + e) / p2 K))
      with ((IZR (z / 2 ^ (- (K + e))) - IZR z * p2 (K + e)) * / p2 K) by (field; lra).
    rewrite Rabs_mult, (Rabs_right (/ p2 K)) by lra. rewrite <- (Rmult_1_l (/ p2 K)) at 2.
    apply Rmult_le_compat_r; [lra|]. apply Rabs_le. lra.
Qed.

Lemma of_fix_near K z v d : (80 <= K <= 1000)%Z -> Rabs v <= 5 -> 0 <= d <= p2 (-60) ->
  Rabs (IZR z / p2 K - v) <= d ->
  valid (of_fix K z) /\ Rabs (FR (of_fix K z) - v) <= u * Rabs v + 2 * d.
Proof.
  intros HK V D E. pose proof (p2_pos K) as P.
  assert (Q : IZR z * p2 (- K) = IZR z / p2 K) by (rewrite p2_neg; reflexivity).
  assert (Sm : p2 (-60) <= 1) by (rewrite <- p2_0; apply p2_le; lia).
  assert (Sz : Rabs (IZR z / p2 K) <= Rabs v + d).
  { replace (IZR z / p2 K) with ((IZR z / p2 K - v) + v) by ring. apply Rle_trans with (1 := Rabs_triang _ _). lra. }
  destruct (normalize_near z (- K)) as (Va & N & _); [lia| |].
  - rewrite Q. apply Rle_lt_trans with (1 := Sz). apply Rle_lt_trans with (p2 3).
    + rewrite p2_IZR by lia. change (2 ^ 3)%Z with 8%Z. lra.
    + apply p2_lt. lia.
  - split; [exact Va|]. unfold of_fix, of_Z_exp. rewrite Q in N.
    replace (FR (binary_normalize prec emax z (- K) false) - v)
      with ((FR (binary_normalize prec emax z (- K) false) - IZR z / p2 K) + (IZR z / p2 K - v)) by ring.
    apply Rle_trans with (1 := Rabs_triang _ _). pose proof (p2_pos (-53)) as U. change (p2 (-53)) with u in U.
    assert (U1 : u <= 1) by (rewrite <- p2_0; apply p2_le; lia).
    assert (u * Rabs (IZR z / p2 K) <= u * (Rabs v + d)) by (apply Rmult_le_compat_l; lra). nra.
Qed.

(** ** The functions on floats *)
Lemma lipschitz f f' : (forall c, derivable_pt_lim f c (f' c)) -> (forall c, Rabs (f' c) <= 1) ->
  forall a b, Rabs (f a - f b) <= Rabs (a - b).
Proof.
  intros D B a b. destruct (Rtotal_order a b) as [L|[->|L]].
  - destruct (MVT_cor2 f f' a b L) as (c & E & _); [intros; apply D|].
    rewrite (Rabs_minus_sym (f a)), (Rabs_minus_sym a), E, Rabs_mult. specialize (B c). pose proof (Rabs_pos (b - a)). nra.
  - rewrite !Rminus_eq_0. lra.
  - destruct (MVT_cor2 f f' b a L) as (c & E & _); [intros; apply D|].
    rewrite E, Rabs_mult. specialize (B c). pose proof (Rabs_pos (a - b)). nra.
Qed.
Lemma sin_lip a b : Rabs (sin a - sin b) <= Rabs (a - b).
Proof.
  apply lipschitz with cos; [apply derivable_pt_lim_sin|]. intros c. apply Rabs_le, COS_bound.
Qed.
Lemma cos_lip a b : Rabs (cos a - cos b) <= Rabs (a - b).
Proof.
  apply lipschitz with (fun c => - sin c); [apply derivable_pt_lim_cos|].
  intros c. rewrite Rabs_Ropp. apply Rabs_le, SIN_bound.
Qed.

Lemma inv_80 K : (80 <= K)%Z -> 0 < / p2 K <= p2 (-80).
Proof.
  intros HK. rewrite <- p2_neg. split; [apply p2_pos|]. apply p2_le. lia.
Qed.

(** [g] within 2^-61 of [F] at both precisions gives [twice g] within half a unit and that *)
Lemma twice_near g F x : Rabs (F (FR x)) <= 5 ->
  (forall K, (K = 80)%Z \/ (K = 160)%Z -> Rabs (IZR (g K (to_fix K x)) / p2 K - F (FR x)) <= p2 (-61)) ->
  valid (twice g x) /\ Rabs (FR (twice g x) - F (FR x)) <= u * Rabs (F (FR x)) + p2 (-60).
Proof.
  intros B E. assert (D : 0 <= p2 (-61) <= p2 (-60)) by (split; [apply Rlt_le, p2_pos|apply p2_le; lia]).
  assert (W : 2 * p2 (-61) = p2 (-60)).
  { replace (-60)%Z with (1 + -61)%Z by reflexivity. rewrite p2_add, p2_1. reflexivity. }
  unfold twice. cbv zeta. rewrite <- W. destruct (small _).
  - apply of_fix_near; [lia|assumption|assumption|apply E; right; reflexivity].
  - apply of_fix_near; [lia|assumption|assumption|apply E; left; reflexivity].
Qed.

Lemma Rabs_le_inv a b : Rabs a <= b -> - b <= a <= b.
Proof. unfold Rabs. destruct Rcase_abs; lra. Qed.
Lemma near_arg K x : (80 <= K)%Z -> Rabs (FR x) <= 1.99 -> -2 <= IZR (to_fix K x) / p2 K <= 2.
Proof.
  intros HK B. pose proof (to_fix_near K x ltac:(lia)) as N. destruct (inv_80 K HK) as [I1 I2].
  assert (S : p2 (-80) <= p2 (-7)) by (apply p2_le; lia).
  change (-7)%Z with (- (7))%Z in S. rewrite (p2_neg 7), (p2_IZR 7) in S by lia. change (2 ^ 7)%Z with 128%Z in S.
  set (t := IZR (to_fix K x) / p2 K) in *. apply Rabs_le_inv in N. apply Rabs_le_inv in B. lra.
Qed.

Lemma fixed_arg g F K x : (K = 80)%Z \/ (K = 160)%Z -> Rabs (FR x) <= 1.99 ->
  (forall a b, Rabs (F a - F b) <= Rabs (a - b)) ->
  (-2 <= IZR (to_fix K x) / p2 K <= 2 ->
    Rabs (IZR (g K (to_fix K x)) / p2 K - F (IZR (to_fix K x) / p2 K)) <= p2 (-71)) ->
  Rabs (IZR (g K (to_fix K x)) / p2 K - F (FR x)) <= p2 (-70).
Proof.
  intros HK B L G. assert (K8 : (80 <= K)%Z) by lia. specialize (G (near_arg K x K8 B)).
  set (a := IZR (to_fix K x) / p2 K) in *.
  replace (IZR (g K (to_fix K x)) / p2 K - F (FR x))
    with ((IZR (g K (to_fix K x)) / p2 K - F a) + (F a - F (FR x))) by ring.
  apply Rle_trans with (1 := Rabs_triang _ _). specialize (L a (FR x)).
  pose proof (to_fix_near K x ltac:(lia)) as N. fold a in N. destruct (inv_80 K K8) as [_ I].
  assert (A : p2 (-80) <= p2 (-71)) by (apply p2_le; lia).
  assert (C : 2 * p2 (-71) = p2 (-70)).
  { replace (-70)%Z with (1 + -71)%Z by reflexivity. rewrite p2_add, p2_1. reflexivity. }
  lra.
Qed.

Lemma sin_fix_near K x : (K = 80)%Z \/ (K = 160)%Z -> Rabs (FR x) <= 1.99 ->
  Rabs (IZR (sin_fix K (to_fix K x)) / p2 K - sin (FR x)) <= p2 (-70).
Proof.
  intros HK B. apply fixed_arg; [assumption|assumption|apply sin_lip|]. intros R. unfold sin_fix. cbv zeta.
  rewrite reduce_id; [|destruct HK as [-> | ->]; [apply pi_fix_80|apply pi_fix_160]|lia|assumption].
  apply sin_series_near; [lia|assumption].
Qed.
Lemma cos_fix_near K x : (K = 80)%Z \/ (K = 160)%Z -> Rabs (FR x) <= 1.99 ->
  Rabs (IZR (cos_fix K (to_fix K x)) / p2 K - cos (FR x)) <= p2 (-70).
Proof.
  intros HK B. apply fixed_arg; [assumption|assumption|apply cos_lip|]. intros R. unfold cos_fix. cbv zeta.
  rewrite reduce_id; [|destruct HK as [-> | ->]; [apply pi_fix_80|apply pi_fix_160]|lia|assumption].
  apply cos_series_near; [lia|assumption].
Qed.

Lemma one_le_5 v : -1 <= v <= 1 -> Rabs v <= 5.
Proof. intros. apply Rabs_le. lra. Qed.

Lemma sin_near x : valid x -> Rabs (FR x) <= 1.99 ->
  valid (f_sin x) /\ Rabs (FR (f_sin x) - sin (FR x)) <= u * Rabs (sin (FR x)) + p2 (-60).
Proof.
  intros V B.
  assert (G : valid (twice sin_fix x) /\ Rabs (FR (twice sin_fix x) - sin (FR x)) <= u * Rabs (sin (FR x)) + p2 (-60)).
  { apply twice_near; [apply one_le_5, SIN_bound|]. intros K HK. apply Rle_trans with (p2 (-70)); [apply sin_fix_near; assumption|apply p2_le; lia]. }
  destruct x as [s|s| |s m e]; try (destruct V as [Fi _]; discriminate Fi); [|exact G].
  cbn [f_sin]. split; [exact V|]. cbn [FR]. rewrite sin_0, Rminus_eq_0, Rabs_R0. pose proof (p2_pos (-60)). lra.
Qed.
Lemma cos_near x : valid x -> Rabs (FR x) <= 1.99 ->
  valid (f_cos x) /\ Rabs (FR (f_cos x) - cos (FR x)) <= u * Rabs (cos (FR x)) + p2 (-60).
Proof.
  intros V B. unfold f_cos. destruct V as [Fi _]. unfold fin in Fi. rewrite Fi.
  apply twice_near; [apply one_le_5, COS_bound|]. intros K HK. apply Rle_trans with (p2 (-70)); [apply cos_fix_near; assumption|apply p2_le; lia].
Qed.
