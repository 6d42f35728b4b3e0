(** * BishopNear: one computed Bishop iteration against the exact one (pyslope.py:1714-1731). *)
From Coq Require Import ZArith Reals Lra Lia Bool List SpecFloat.
From Verif Require Import Num FloatNum RealNum Py Objects Slope Planes Analysis RealFacts SliceFacts
     RoundTheory NearFacts SumNear WeightNear FosNear CircleNear.
Import ListNotations.
Local Open Scope R_scope.

(** ** The exact terms, the previous factor being [p] *)
Definition turn_num (b : R) (s : slice float) : R :=
  FR (sl_c s) * b + (FR (sl_W s) - FR (sl_u s) * b) * FR (sl_tan s).
Definition turn_den (p : R) (s : slice float) : R := FR (sl_cos s) + FR (sl_sin s) * FR (sl_tan s) / p.
Definition turn (b p : R) (s : slice float) : R := turn_num b s / turn_den p s.
(** the same with nothing subtracted *)
Definition turn_num_gross (b : R) (s : slice float) : R :=
  FR (sl_c s) * b + (FR (sl_W s) + FR (sl_u s) * b) * FR (sl_tan s).
Definition turn_den_gross (p : R) (s : slice float) : R := FR (sl_cos s) + Rabs (FR (sl_sin s)) * FR (sl_tan s) / p.
Definition turn_gross (b p : R) (s : slice float) : R :=
  turn_num_gross b s * turn_den_gross p s / (turn_den p s * turn_den p s).
(** the denominator is not lost in cancellation *)
Definition plain_turn (p : R) (s : slice float) : Prop :=
  p2 (-48) * turn_den_gross p s <= Rabs (turn_den p s) /\ p2 (-80) <= Rabs (turn_den p s).

(** ** The quotient of two numbers known up to errors *)
Lemma quot_about a b va vb ga gb k c d e : about a va ga k d -> about b vb gb c e -> 0 <= k <= 100 -> 0 <= c <= 100 ->
  0 <= d -> 0 <= e -> 0 < Rabs vb -> 2 * (c * u * gb + e) <= Rabs vb -> ga * gb / (vb * vb) <= / 2 * vast ->
  d / Rabs vb + ga / Rabs vb * (e / Rabs vb) <= 1 ->
  FR b <> 0 /\
  about (ndiv a b) (va / vb) (ga * gb / (vb * vb)) (2 * k + 2 * c + 2) (4 * (d / Rabs vb + ga / Rabs vb * (e / Rabs vb)) + eta).
Proof.
  intros (Va & Ga & Ea) (Vb & Gb & Eb) K C D E B0 L V S.
  set (B := Rabs vb) in *. assert (BB : vb * vb = B * B) by (unfold B; rewrite <- Rabs_mult; rewrite Rabs_right; [reflexivity|apply Rle_ge, Rle_0_sqr]).
  assert (NZ : vb <> 0) by (intros Z; unfold B in B0; rewrite Z, Rabs_R0 in B0; lra).
  assert (G0 : 0 <= ga) by (pose proof (Rabs_pos va); lra).
  pose proof u_pos as U. pose proof eta_pos as EP. pose proof vast_big as VB. pose proof top_vast as TV.
  set (P := ga / B) in *. set (t := gb / B). set (g := ga * gb / (vb * vb)) in *.
  assert (GE : g = P * t) by (unfold g, P, t; rewrite BB; field; lra).
  assert (I0 : 0 < / B) by now apply Rinv_0_lt_compat.
  assert (P0 : 0 <= P) by (unfold P, Rdiv; apply Rmult_le_pos; lra).
  assert (T1 : 1 <= t) by (unfold t; apply (Rmult_le_reg_r B); [lra|]; replace (gb / B * B) with gb by (field; lra); lra).
  assert (PT : P * 1 <= P * t) by (apply Rmult_le_compat_l; lra).
  set (dl := d / B + P * (e / B)) in *.
  assert (E0 : 0 <= e / B) by (unfold Rdiv; apply Rmult_le_pos; lra). assert (D0 : 0 <= d / B) by (unfold Rdiv; apply Rmult_le_pos; lra).
  assert (PE : 0 <= P * (e / B)) by (apply Rmult_le_pos; lra).
  set (x := FR a) in *. set (y := FR b) in *.
  assert (YB : B <= 2 * Rabs y).
  { pose proof (Rabs_triang_inv vb (vb - y)) as T. replace (vb - (vb - y)) with y in T by ring. rewrite (Rabs_minus_sym vb y) in T. fold B in T. lra. }
  assert (YN : y <> 0) by (intros Z; rewrite Z, Rabs_R0 in YB; lra). split; [exact YN|].
  assert (IY : 0 < / Rabs y <= 2 / B).
  { assert (0 < Rabs y) by lra. split; [now apply Rinv_0_lt_compat|]. replace (2 / B) with (/ (B / 2)) by (field; lra). apply Rinv_le_contravar; lra. }
  assert (AV : Rabs (va / vb) <= P).
  { unfold Rdiv. rewrite Rabs_mult, Rabs_inv. fold B. unfold P, Rdiv. apply Rmult_le_compat_r; lra. }
  set (w := (2 * k + 2 * c) * u * g + 2 * dl).
  assert (X : Rabs (x / y - va / vb) <= w).
  { replace (x / y - va / vb) with ((x - va - va / vb * (y - vb)) * / y) by (field; auto). rewrite Rabs_mult, Rabs_inv.
    assert (N1 : Rabs (x - va - va / vb * (y - vb)) <= (k * u * ga + d) + P * (c * u * gb + e)).
    { unfold Rminus at 1. apply Rle_trans with (1 := Rabs_triang _ _). rewrite Rabs_Ropp, Rabs_mult.
      assert (Rabs (va / vb) * Rabs (y - vb) <= P * (c * u * gb + e)) by (apply Rmult_le_compat; try apply Rabs_pos; assumption). lra. }
    apply Rle_trans with (((k * u * ga + d) + P * (c * u * gb + e)) * (2 / B)).
    { apply Rmult_le_compat; try lra. apply Rabs_pos. }
    replace (((k * u * ga + d) + P * (c * u * gb + e)) * (2 / B)) with (2 * (k * u) * P + 2 * (c * u) * (P * t) + 2 * dl)
      by (unfold dl, t, P; field; lra).
    unfold w. rewrite GE. assert (2 * (k * u) * P <= 2 * (k * u) * (P * t)).
    { apply Rmult_le_compat_l; [|lra]. apply Rmult_le_pos; [lra|]. apply Rmult_le_pos; lra. }
    lra. }
  assert (g0 : 0 <= g) by lra.
  assert (KU : (2 * k + 2 * c) * u * g <= / 2 * g).
  { apply Rmult_le_compat_r; [lra|]. rewrite u_val. lra. }
  assert (Y : Rabs (x / y) <= g + w).
  { replace (x / y) with (va / vb + (x / y - va / vb)) by ring. apply Rle_trans with (1 := Rabs_triang _ _). lra. }
  destruct (div_near a b Va Vb YN) as (VQ & N). { fold x y. unfold w in Y. lra. }
  split; [exact VQ|]. split; [lra|]. cbn [ndiv FNum]. fold x y in N. set (r := FR (SFdiv prec emax a b)) in *.
  replace (r - va / vb) with ((x / y - va / vb) + (r - x / y)) by ring. apply Rle_trans with (1 := Rabs_triang _ _).
  assert (Z : Rabs (r - x / y) <= 2 * u * g + 2 * dl + eta).
  { apply Rle_trans with (1 := N). assert (0 <= u * g) by (apply Rmult_le_pos; lra). assert (0 <= dl) by (unfold dl; lra). apply Rmax_lub; [|lra].
    apply Rle_trans with (u * (g + w)); [apply Rmult_le_compat_l; lra|].
    assert (u * w <= u * g + u * (2 * dl)) by (rewrite <- Rmult_plus_distr_l; apply Rmult_le_compat_l; [lra|]; unfold w; lra).
    assert (u * (2 * dl) <= 1 * (2 * dl)) by (apply Rmult_le_compat_r; [lra|]; rewrite u_val; lra). lra. }
  unfold w in X. lra.
Qed.

Definition turn_num_f (b : float) (s : slice float) : float :=
  nadd (nmul (sl_c s) b) (nmul (nsub (sl_W s) (nmul (sl_u s) b)) (sl_tan s)).
Definition turn_den_f (p : float) (s : slice float) : float :=
  nadd (sl_cos s) (ndiv (nmul (sl_sin s) (sl_tan s)) p).
Lemma mild_exact x : mild x -> about x (FR x) (FR x) 0 0.
Proof. intros (V & B). pose proof (about_exact x V) as A. rewrite Rabs_right in A by lra. exact A. Qed.
Lemma mild_prod x y : mild x -> mild y -> about (nmul x y) (FR x * FR y) (FR x * FR y) 2 eta.
Proof.
  intros X Y. assert (L : FR x <= p2 400) by (apply Rle_trans with (p2 100); [apply X|apply p2_le; lia]).
  pose proof (mild_mul _ _ _ _ _ y (mild_exact x X) ltac:(lra) ltac:(lra) Y L) as A. apply about_weaken with (1 := A); lra.
Qed.
Lemma eta_m : 0 < eta * p2 100 /\ eta <= eta * p2 100 /\ eta * p2 100 * p2 100 <= dust /\ 1000 * (eta * p2 100) <= p2 (-960).
Proof.
  pose proof eta_pos as E. pose proof big_100 as B. split; [apply Rmult_lt_0_compat; lra|].
  split; [rewrite <- (Rmult_1_r eta) at 1; apply Rmult_le_compat_l; lra|]. split.
  - unfold eta, dust. rewrite <- !p2_add. apply p2_le. lia.
  - apply Rle_trans with (p2 10 * (eta * p2 100)).
    + apply Rmult_le_compat_r; [apply Rmult_le_pos; lra|]. rewrite p2_IZR by lia. apply IZR_le. vm_compute. discriminate.
    + unfold eta. rewrite <- !p2_add. apply p2_le. lia.
Qed.
Lemma num_bounds b s : mild b -> plain_slice s -> 0 <= turn_num_gross (FR b) s <= p2 302.
Proof.
  intros Mb ((_ & W) & (_ & C) & (_ & T) & (_ & U) & _). destruct Mb as (_ & Bb). unfold turn_num_gross.
  change 302%Z with (1 + 301)%Z. apply sum_500.
  - apply weaker with (100 + 100)%Z; [|lia]. now apply prod_100.
  - change 301%Z with ((1 + 200) + 100)%Z. apply prod_100; [|assumption]. apply sum_500.
    + apply weaker with 100%Z; [assumption|lia].
    + change 200%Z with (100 + 100)%Z. now apply prod_100.
Qed.
Lemma num_about b s : mild b -> plain_slice s ->
  about (turn_num_f b s) (turn_num (FR b) s) (turn_num_gross (FR b) s) 8 (30 * (eta * p2 100)).
Proof.
  intros Mb Ps. pose proof (num_bounds b s Mb Ps) as NB. pose proof Ps as (MW & MC & MT & MU & _).
  destruct eta_m as (M0 & M1 & M2 & M3). pose proof eta_pos as EP. pose proof dust_small as DS. pose proof vast_big as VB. pose proof u_pos as U0.
  assert (U1 : u <= / 1000) by (rewrite u_val; lra).
  pose proof (mild_prod _ _ MC Mb) as AC. pose proof (mild_prod _ _ MU Mb) as AU. pose proof (mild_exact _ MW) as AW.
  assert (UB : 0 <= FR (sl_u s) * FR b <= p2 200) by (change 200%Z with (100 + 100)%Z; apply prod_100; [apply MU|apply Mb]).
  assert (CB : 0 <= FR (sl_c s) * FR b <= p2 200) by (change 200%Z with (100 + 100)%Z; apply prod_100; [apply MC|apply Mb]).
  assert (V200 : p2 200 <= vast) by (apply p2_le; lia). assert (V100 : p2 100 <= p2 200) by (apply p2_le; lia).
  destruct MW as (VW & BW).
  assert (W4 : FR (sl_W s) + FR (sl_u s) * FR b <= p2 400).
  { apply Rle_trans with (p2 (1 + 200)); [|apply p2_le; lia]. rewrite p2_add, p2_1. lra. }
  assert (E1 : eta <= / 1000) by (pose proof eta_dust; pose proof fair_big; assert (0 <= 10000000000000 * eta * fair) by (apply Rmult_le_pos; lra); lra).
  pose proof (sub_about _ _ _ _ _ _ _ _ _ _ AW AU ltac:(unfold many; lra) ltac:(unfold many; lra) ltac:(lra) ltac:(lra) ltac:(lra) ltac:(lra)) as AS.
  rewrite (Rmax_right 0 2) in AS by lra.
  assert (X1 : (1 + u) * (0 + eta) <= 2 * eta) by (rewrite Rplus_0_l; apply Rmult_le_compat_r; lra).
  pose proof (about_weaken _ _ _ _ _ 4 (2 * eta) AS ltac:(lra) X1) as AS'.
  pose proof (mild_mul _ _ _ _ _ (sl_tan s) AS' ltac:(lra) ltac:(lra) MT W4) as AT.
  pose proof (about_weaken _ _ _ _ _ 6 (5 * (eta * p2 100)) AT ltac:(lra) ltac:(lra)) as AT'.
  assert (GT : (FR (sl_W s) + FR (sl_u s) * FR b) * FR (sl_tan s) <= vast).
  { apply Rle_trans with (p2 (400 + 100)); [|apply p2_le; lia]. apply prod_100; [lra|apply MT]. }
  assert (S960 : p2 (-960) <= / 1000).
  { apply Rle_trans with (p2 (-10)); [apply p2_le; lia|]. change (-10)%Z with (- (10))%Z. rewrite p2_neg, p2_IZR by lia. change (2 ^ 10)%Z with 1024%Z. lra. }
  pose proof (add_about _ _ _ _ _ _ _ _ _ _ AC AT' ltac:(unfold many; lra) ltac:(unfold many; lra) ltac:(lra) ltac:(lra) ltac:(lra) GT) as AR.
  rewrite (Rmax_right 2 6) in AR by lra. apply about_weaken with (1 := AR); [lra|].
  assert ((1 + u) * (eta + 5 * (eta * p2 100)) <= 2 * (eta + 5 * (eta * p2 100))) by (apply Rmult_le_compat_r; lra). lra.
Qed.
Definition fair_p (p : float) : Prop := valid p /\ p2 (-100) <= FR p <= p2 100.
Lemma den_bounds p s : fair_p p -> plain_slice s -> 0 <= Rabs (FR (sl_sin s)) * FR (sl_tan s) / FR p <= p2 200 /\ 0 <= turn_den_gross (FR p) s <= p2 201.
Proof.
  intros (_ & Bp) (_ & _ & (_ & T) & _ & (_ & C) & (_ & Sn)). pose proof (p2_pos (-100)) as P. unfold turn_den_gross, Rdiv.
  assert (I : 0 <= / FR p <= p2 100).
  { split; [left; apply Rinv_0_lt_compat; lra|]. change 100%Z with (- -100)%Z. rewrite p2_neg. apply Rinv_le_contravar; lra. }
  assert (A : 0 <= Rabs (FR (sl_sin s)) * FR (sl_tan s) * / FR p <= p2 200).
  { change 200%Z with ((0 + 100) + 100)%Z. apply prod_100; [|assumption]. apply prod_100; [|assumption].
    rewrite p2_0. pose proof (Rabs_pos (FR (sl_sin s))). lra. }
  split; [exact A|]. change 201%Z with (1 + 200)%Z. apply sum_500; [|exact A]. apply weaker with 0%Z; [rewrite p2_0; lra|lia].
Qed.
Lemma den_about p s : fair_p p -> plain_slice s ->
  about (turn_den_f p s) (turn_den (FR p) s) (turn_den_gross (FR p) s) 6 (8 * (eta * p2 100)).
Proof.
  intros Fp Ps. destruct (den_bounds p s Fp Ps) as (Q0 & Q1). destruct Fp as (Vp & Bp). pose proof (p2_pos (-100)) as P.
  pose proof Ps as (_ & _ & (VT & BT) & _ & (Vc & Bc) & (Vs & Bs)).
  destruct eta_m as (M0 & M1 & M2 & M3). pose proof eta_pos as EP. pose proof vast_big as VB. pose proof u_pos as U0.
  assert (U1 : u <= / 1000) by (rewrite u_val; lra).
  pose proof (about_exact _ Vs) as A0.
  assert (G1 : (Rabs (FR (sl_sin s)) + 0) * Rabs (FR (sl_tan s)) <= vast).
  { rewrite Rplus_0_r, (Rabs_right (FR (sl_tan s))) by lra. apply Rle_trans with (p2 (0 + 100)); [|apply p2_le; lia].
    apply prod_100; [|assumption]. rewrite p2_0. pose proof (Rabs_pos (FR (sl_sin s))). lra. }
  pose proof (mul_about _ (sl_tan s) _ _ _ _ A0 VT ltac:(unfold many; lra) ltac:(lra) G1) as A1.
  rewrite (Rabs_right (FR (sl_tan s))) in A1 by lra.
  pose proof (about_weaken _ _ _ _ _ 2 eta A1 ltac:(lra) ltac:(lra)) as A1'.
  pose proof (div_about _ p _ _ _ _ A1' Vp) as A2. rewrite (Rabs_right (FR p)) in A2 by lra.
  assert (I : 0 <= / FR p <= p2 100).
  { split; [left; apply Rinv_0_lt_compat; lra|]. change 100%Z with (- -100)%Z. rewrite p2_neg. apply Rinv_le_contravar; lra. }
  assert (EI : eta * / FR p <= eta * p2 100) by (apply Rmult_le_compat_l; lra).
  assert (V200 : p2 200 + 1 <= vast).
  { apply Rle_trans with (p2 (1 + 200)); [|apply p2_le; lia]. rewrite p2_add, p2_1. assert (1 <= p2 200) by (rewrite <- p2_0; apply p2_le; lia). lra. }
  assert (S960 : p2 (-960) <= / 1000).
  { apply Rle_trans with (p2 (-10)); [apply p2_le; lia|]. change (-10)%Z with (- (10))%Z. rewrite p2_neg, p2_IZR by lia. change (2 ^ 10)%Z with 1024%Z. lra. }
  assert (G2 : (Rabs (FR (sl_sin s)) * FR (sl_tan s) + eta) / FR p <= vast) by (unfold Rdiv in *; rewrite Rmult_plus_distr_r; lra).
  specialize (A2 ltac:(lra) ltac:(unfold many; lra) ltac:(lra) G2).
  assert (X : 2 * eta / FR p + eta <= 3 * (eta * p2 100)) by (unfold Rdiv; lra).
  pose proof (about_weaken _ _ _ _ _ 4 _ A2 ltac:(lra) X) as A2'.
  pose proof (about_exact _ Vc) as AC. rewrite (Rabs_right (FR (sl_cos s))) in AC by lra.
  pose proof (add_about _ _ _ _ _ _ _ _ _ _ AC A2' ltac:(unfold many; lra) ltac:(unfold many; lra) ltac:(lra) ltac:(lra) ltac:(lra) ltac:(lra)) as A3.
  rewrite (Rmax_right 0 4) in A3 by lra. apply about_weaken with (1 := A3); [lra|].
  assert ((1 + u) * (0 + 3 * (eta * p2 100)) <= 2 * (3 * (eta * p2 100))) by (rewrite Rplus_0_l; apply Rmult_le_compat_r; lra). lra.
Qed.
Lemma p48 : p2 (-48) = 32 * u.
Proof. unfold u. replace (-48)%Z with (5 + -53)%Z by lia. rewrite p2_add. f_equal. rewrite p2_IZR by lia. f_equal. Qed.
Lemma turn_about b p s : mild b -> fair_p p -> plain_slice s -> plain_turn (FR p) s ->
  FR (turn_den_f p s) <> 0 /\ valid (turn_den_f p s) /\
  about (ndiv (turn_num_f b s) (turn_den_f p s)) (turn (FR b) (FR p) s) (turn_gross (FR b) (FR p) s) 30 dust /\
  turn_gross (FR b) (FR p) s <= p2 663.
Proof.
  intros Mb Fp Ps (T1 & T2). pose proof (num_about b s Mb Ps) as AN. pose proof (den_about p s Fp Ps) as AD.
  pose proof (num_bounds b s Mb Ps) as NB. destruct (den_bounds p s Fp Ps) as (_ & DB).
  destruct eta_m as (M0 & M1 & M2 & M3). pose proof (p2_pos (-80)) as P8. pose proof u_pos as U. pose proof eta_pos as EP.
  set (D := turn_den (FR p) s) in *. set (B := Rabs D) in *. rewrite p48 in T1.
  assert (BB : D * D = B * B) by (unfold B; rewrite <- Rabs_mult; rewrite Rabs_right; [reflexivity|apply Rle_ge, Rle_0_sqr]).
  assert (I : 0 <= / B <= p2 80).
  { split; [left; apply Rinv_0_lt_compat; lra|]. change 80%Z with (- -80)%Z. rewrite p2_neg. apply Rinv_le_contravar; lra. }
  set (N := turn_num_gross (FR b) s) in *. set (G := turn_den_gross (FR p) s) in *.
  assert (GE : N * G / (D * D) = N * / B * (G * / B)) by (rewrite BB; field; lra).
  assert (NI : 0 <= N * / B <= p2 382) by (change 382%Z with (302 + 80)%Z; now apply prod_100).
  assert (GI : 0 <= G * / B <= p2 281) by (change 281%Z with (201 + 80)%Z; now apply prod_100).
  assert (GV : 0 <= N * G / (D * D) <= p2 663) by (rewrite GE; change 663%Z with (382 + 281)%Z; now apply prod_100).
  assert (V663 : p2 663 <= / 2 * vast).
  { apply Rle_trans with (p2 (-1 + 900)); [apply p2_le; lia|]. rewrite p2_add. change (-1)%Z with (- (1))%Z. rewrite p2_neg, p2_1. unfold vast. lra. }
  set (em := eta * p2 100) in *.
  assert (EB : 0 <= em * / B <= p2 (-785)).
  { replace (-785)%Z with (-865 + 80)%Z by lia. apply prod_100; [|assumption]. split; [lra|]. apply Rle_trans with (p2 (-960)); [lra|apply p2_le; lia]. }
  assert (EB' : 0 <= em * / B <= p2 (-895)).
  { replace (-895)%Z with (-975 + 80)%Z by lia. apply prod_100; [|assumption]. split; [lra|]. unfold em, eta. rewrite <- p2_add. apply p2_le. lia. }
  assert (NE : 0 <= N * / B * (em * / B) <= p2 (-513)) by (replace (-513)%Z with (382 + -895)%Z by lia; now apply prod_100).
  assert (D13 : 1000 * p2 (-513) <= dust).
  { apply Rle_trans with (p2 10 * p2 (-513)).
    - apply Rmult_le_compat_r; [left; apply p2_pos|]. rewrite p2_IZR by lia. apply IZR_le. vm_compute. discriminate.
    - unfold dust. rewrite <- p2_add. apply p2_le. lia. }
  assert (L13 : p2 (-895) <= p2 (-513)) by (apply p2_le; lia). assert (E13 : eta <= p2 (-513)) by (unfold eta; apply p2_le; lia).
  pose proof dust_small as DS.
  assert (K : 2 * (6 * u * G + 8 * em) <= B).
  { assert (1000 * em <= p2 (-80)) by (apply Rle_trans with (1 := M3); apply p2_le; lia).
    assert (0 <= u * G) by (apply Rmult_le_pos; lra). lra. }
  assert (S1 : 30 * em / B + N / B * (8 * em / B) = 30 * (em * / B) + 8 * (N * / B * (em * / B))) by (unfold Rdiv; ring).
  destruct (quot_about _ _ _ _ _ _ _ _ _ _ AN AD) as (NZ & Q); fold B D; try lra; try (fold N G; lra).
  split; [exact NZ|]. split; [apply AD|]. split; [|exact (proj2 GV)].
  unfold turn, turn_gross. fold D N G. apply about_weaken with (1 := Q); fold B; [lra|]. rewrite S1. lra.
Qed.

(** ** One iteration *)
Definition turn_error (b p : R) (sl : list (slice float)) : R :=
  (2 * INR (List.length sl) + 30) * u * total (turn_gross b p) sl + 2 * INR (List.length sl) * dust.
Section Step.
  Context (b p : float) (sl : list (slice float)) (Mb : mild b) (Fp : fair_p p) (Ps : Forall plain_slice sl)
          (Pt : Forall (plain_turn (FR p)) sl) (N : INR (List.length sl) <= 1000000000000).
  Let HR := total (turn (FR b) (FR p)) sl.
  Let HD := total pull sl.
  Definition turns_f := nsum (map (fun s => ndiv (turn_num_f b s) (turn_den_f p s)) sl).
  Lemma turns_about : about turns_f HR (total (turn_gross (FR b) (FR p)) sl) (30 + 2 * INR (List.length sl)) (2 * INR (List.length sl) * dust).
  Proof.
    unfold turns_f, nsum. rewrite fold_map. pose proof dust_pos. pose proof dust_small.
    apply (sum_list_about (fun s => ndiv (turn_num_f b s) (turn_den_f p s)) (turn (FR b) (FR p)) (turn_gross (FR b) (FR p)) 30 dust); try lra.
    - rewrite Forall_forall in *. intros s I. apply turn_about; auto.
    - apply Rle_trans with (INR (List.length sl) * p2 663).
      + apply total_bound. rewrite Forall_forall in *. intros s I. apply turn_about; auto.
      + apply Rle_trans with (p2 40 * p2 663).
        * apply Rmult_le_compat_r; [left; apply p2_pos|]. apply Rle_trans with (1 := N). rewrite p2_IZR by lia. apply IZR_le. vm_compute. discriminate.
        * rewrite <- p2_add. apply p2_le. lia.
  Qed.
  Lemma turns_span : valid turns_f /\ HR - turn_error (FR b) (FR p) sl <= FR turns_f <= HR + turn_error (FR b) (FR p) sl /\
    9 * u * HR <= turn_error (FR b) (FR p) sl /\ 0 <= turn_error (FR b) (FR p) sl.
  Proof.
    pose proof turns_about as (V & G & E). split; [exact V|]. apply abs_span in E.
    assert (EE : turn_error (FR b) (FR p) sl = (30 + 2 * INR (List.length sl)) * u * total (turn_gross (FR b) (FR p)) sl + 2 * INR (List.length sl) * dust)
      by (unfold turn_error; ring).
    rewrite EE. split; [lra|]. pose proof u_pos as U. pose proof dust_pos. pose proof (pos_INR (List.length sl)) as NP.
    assert (G0 : 0 <= total (turn_gross (FR b) (FR p)) sl) by (pose proof (Rabs_pos HR); lra).
    set (g := total (turn_gross (FR b) (FR p)) sl) in *. set (n := INR (List.length sl)) in *.
    assert (0 <= n * dust) by (apply Rmult_le_pos; lra). assert (0 <= u * g) by (apply Rmult_le_pos; lra).
    assert (0 <= n * (u * g)) by (apply Rmult_le_pos; lra).
    assert (HG : HR <= g) by (pose proof (Rle_abs HR); lra).
    assert (u * HR <= u * g) by (apply Rmult_le_compat_l; lra). split; lra.
  Qed.
  Lemma step_shape : bishop_step b sl p =
    Ok (if nleb (drv_f sl) (nz 0) || nltb turns_f (nz 0) then None else Some (ndiv turns_f (drv_f sl))).
  Proof.
    unfold bishop_step. destruct Fp as (Vp & Bp). pose proof (p2_pos (-100)). destruct (nz_FR 0 eq_refl) as (V0 & E0).
    cbn [neqb FNum]. rewrite eqb_FR, E0, (proj2 (Reqb_false (FR p) 0)) by (assumption || lra).
    rewrite (proj2 (existsb_false _ _)); [reflexivity|].
    rewrite Forall_forall in *. intros s I. destruct (turn_about b p s Mb Fp (Ps s I) (Pt s I)) as (NZ & VD & _).
    change (nadd (sl_cos s) (ndiv (nmul (sl_sin s) (sl_tan s)) p)) with (turn_den_f p s).
    rewrite eqb_FR, E0 by assumption. apply Reqb_false. exact NZ.
  Qed.
  Lemma step_none : HD < - pull_error sl \/ HR < - turn_error (FR b) (FR p) sl -> bishop_step b sl p = Ok None.
  Proof.
    intros L. rewrite step_shape. destruct (drv_span sl Ps N) as (VD & SD). destruct turns_span as (VT & ST & _).
    fold HD in SD. destruct (nz_FR 0 eq_refl) as (V0 & E0). cbn [nleb nltb FNum]. rewrite leb_FR, ltb_FR, E0 by assumption. unfold Rleb, Rltb.
    destruct (Rle_dec (FR (drv_f sl)) 0); [reflexivity|]. destruct (Rlt_dec (FR turns_f) 0); [reflexivity|]. lra.
  Qed.
  Lemma step_near : 2 * pull_error sl < HD -> turn_error (FR b) (FR p) sl <= HD -> turn_error (FR b) (FR p) sl <= HR -> HR <= fair * HD ->
    exists F, bishop_step b sl p = Ok (Some F) /\ valid F /\
      Rabs (FR F - HR / HD) <= 3 * (turn_error (FR b) (FR p) sl + HR / HD * pull_error sl) / HD + eta.
  Proof.
    intros LD LR LP LF. destruct (drv_span sl Ps N) as (VD & SD). destruct turns_span as (VT & ST & T9 & T0). fold HD in SD.
    assert (P0 : 0 <= pull_error sl).
    { unfold pull_error. pose proof (pull_gross_nonneg sl Ps). pose proof u_pos. pose proof dust_pos. pose proof (pos_INR (List.length sl)).
      apply Rplus_le_le_0_compat; [|apply Rmult_le_pos; lra]. apply Rmult_le_pos; [|assumption]. apply Rmult_le_pos; lra. }
    destruct (quot_near turns_f (drv_f sl) HR HD _ _ VT VD ST SD ltac:(lra) T9 T0 P0 LD LR LF) as (Dp & V & E).
    rewrite step_shape. destruct (nz_FR 0 eq_refl) as (V0 & E0). cbn [nleb nltb FNum]. rewrite leb_FR, ltb_FR, E0 by assumption. unfold Rleb, Rltb.
    destruct (Rle_dec (FR (drv_f sl)) 0); [lra|]. destruct (Rlt_dec (FR turns_f) 0); [lra|]. cbn [orb].
    exists (ndiv turns_f (drv_f sl)). auto.
  Qed.
End Step.

(** ** The answer of the iteration: the value of an iteration started within the tolerance of it *)
Lemma loop_last {T} {NT : Num T} b tol sl k : forall p0 (F : T), bishop_loop b tol sl k p0 = Ok (Some F) -> (0 < k)%nat ->
  exists p, bishop_step b sl p = Ok (Some F) /\
    (nltb (nabs (nsub F p)) tol = true \/
     exists ps, List.length ps = k /\ nth_error (p0 :: ps) (k - 1) = Some p /\ nth_error (p0 :: ps) k = Some F /\
       forall i x y, nth_error (p0 :: ps) i = Some x -> nth_error (p0 :: ps) (S i) = Some y ->
         bishop_step b sl x = Ok (Some y) /\ nltb (nabs (nsub y x)) tol = false).
Proof.
  induction k as [|k IH]; intros p0 F E L; [lia|]. cbn [bishop_loop] in E.
  destruct (bishop_step b sl p0) as [[fs|]|] eqn:Q; cbn [rbind] in E; try discriminate E.
  destruct (nltb (nabs (nsub fs p0)) tol) eqn:T0.
  { injection E as <-. exists p0. auto. }
  destruct k as [|k].
  { cbn [bishop_loop] in E. injection E as <-. exists p0. split; [exact Q|]. right. exists [fs]. do 3 (split; [reflexivity|]).
    intros [|i] x y X Y; cbn in X, Y; [|destruct i; discriminate Y]. injection X as <-. injection Y as <-. auto. }
  destruct (IH fs F E ltac:(lia)) as (p & S1 & [A | (ps & L1 & N1 & N2 & C)]); exists p; (split; [exact S1|]); [now left|].
  right. exists (fs :: ps). split; [cbn; lia|]. replace (S (S k) - 1)%nat with (S (S k - 1)) by lia. split; [exact N1|]. split; [exact N2|].
  intros [|i] x y X Y; [|exact (C i x y X Y)]. cbn in X, Y. injection X as <-. injection Y as <-. auto.
Qed.
