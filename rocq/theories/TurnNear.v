(** * TurnNear: the computed Bishop iteration of a circle against the exact one of its slices
    (pyslope.py:1710-1731). *)
From Coq Require Import ZArith Reals Lra Lia Bool List SpecFloat.
From Verif Require Import Num FloatNum RealNum Py Objects Slope Planes Analysis RealFacts SliceFacts RoundTheory NearFacts SumNear
     WeightNear FosNear CircleNear BishopNear WaterNear SliceNear SinNear AtanNear AngleNear TanNear FactorNear.
Import ListNotations.
Local Open Scope R_scope.

(** ** The terms of a slice of exact numbers, the previous factor being [p] *)
Definition num_x (b : R) (k : body) : R := bc k * b + (bW k - bu k * b) * bt k.
Definition den_x (p : R) (k : body) : R := bco k + bsi k * bt k / p.
Definition turn_x (b p : R) (k : body) : R := num_x b k / den_x p k.
(** nothing subtracted *)
Definition num_gross_x (b : R) (k : body) : R := bc k * b + (bW k + bu k * b) * bt k.
Definition den_gross_x (p : R) (k : body) : R := bco k + Rabs (bsi k) * bt k / p.
(** how far the numbers of a slice move the two *)
Definition num_off (b : R) (k : body) (o : off) : R := (oW o + b * ou o) * (bt k + ot o) + (bW k + bu k * b) * ot o.
Definition den_off (p : R) (k : body) (o : off) : R := oa o + (oa o * (bt k + ot o) + ot o) / p.
Definition turn_off (b p : R) (k : body) (o : off) : R :=
  2 * (num_off b k o + Rabs (turn_x b p k) * den_off p k o) / Rabs (den_x p k).
Definition turn_gross_x (b p : R) (k : body) (o : off) : R :=
  4 * (num_gross_x b k + num_off b k o) * (den_gross_x p k + den_off p k o) / (den_x p k * den_x p k).
(** the denominator is not lost in cancellation *)
Definition firm_den (p : R) (k : body) (o : off) : Prop :=
  2 * den_off p k o <= Rabs (den_x p k) /\ p2 (-47) * (den_gross_x p k + den_off p k o) <= Rabs (den_x p k) /\
  p2 (-79) <= Rabs (den_x p k).

Section One.
  Context (b p : R) (s : slice float) (k : body) (o : off) (Pp : 0 < p) (K : sound b k) (P : plain_slice s) (S : stands s k o) (FD : firm_den p k o).
  Lemma num_x_near : Rabs (turn_num b s - num_x b k) <= num_off b k o /\ 0 <= turn_num_gross b s <= num_gross_x b k + num_off b k o /\
    0 <= num_off b k o /\ Rabs (num_x b k) <= num_gross_x b k.
  Proof.
    destruct (offs s k o S) as (OW & Ou & Oa & Ot). destruct S as (SW & Sc & St & Su & _). destruct K as (Kb & KW & Kc & Kt & Ku & _).
    destruct P as ((_ & BW) & (_ & BC) & (_ & BT) & (_ & BU) & _). unfold turn_num, turn_num_gross, num_x, num_gross_x, num_off. rewrite Sc.
    assert (UB : Rabs (FR (sl_u s) * b - bu k * b) <= b * ou o).
    { replace (FR (sl_u s) * b - bu k * b) with (b * (FR (sl_u s) - bu k)) by ring. rewrite Rabs_mult, (Rabs_right b) by lra. apply Rmult_le_compat_l; lra. }
    assert (U0 : 0 <= bu k * b) by (apply Rmult_le_pos; lra). assert (U1 : 0 <= FR (sl_u s) * b) by (apply Rmult_le_pos; lra).
    assert (B0 : 0 <= b * ou o) by (apply Rmult_le_pos; lra).
    pose proof (abs_span _ _ SW) as SW'. pose proof (abs_span _ _ UB) as UB'. pose proof (abs_span _ _ St) as St'.
    set (t' := FR (sl_tan s)) in *. set (W' := FR (sl_W s)) in *. set (u' := FR (sl_u s) * b) in *. set (ub := bu k * b) in *.
    assert (T0 : 0 <= (oW o + b * ou o) * (bt k + ot o)) by (apply Rmult_le_pos; lra).
    assert (T1 : 0 <= (bW k + ub) * ot o) by (apply Rmult_le_pos; lra).
    assert (C0 : 0 <= bc k * b) by (apply Rmult_le_pos; lra).
    assert (D : Rabs ((W' - u') * t' - (bW k - ub) * bt k) <= (oW o + b * ou o) * (bt k + ot o) + (bW k + ub) * ot o).
    { replace ((W' - u') * t' - (bW k - ub) * bt k) with ((W' - u' - (bW k - ub)) * t' + (bW k - ub) * (t' - bt k)) by ring.
      apply Rle_trans with (1 := Rabs_triang _ _). rewrite !Rabs_mult, (Rabs_right t') by lra.
      apply Rplus_le_compat; apply Rmult_le_compat; try apply Rabs_pos; try lra; apply Rabs_le; lra. }
    pose proof (prod_near (bW k + ub) (W' + u') (bt k) t' (oW o + b * ou o) (ot o) ltac:(apply Rabs_le; lra) St ltac:(lra) ltac:(lra)) as E.
    assert (E1 : (oW o + b * ou o) * t' <= (oW o + b * ou o) * (bt k + ot o)) by (apply Rmult_le_compat_l; lra).
    apply abs_span in D. apply abs_span in E.
    assert (G0 : 0 <= (W' + u') * t') by (apply Rmult_le_pos; lra).
    assert (M : Rabs ((bW k - ub) * bt k) <= (bW k + ub) * bt k).
    { rewrite Rabs_mult, (Rabs_right (bt k)) by lra. apply Rmult_le_compat_r; [lra|]. apply Rabs_le. lra. }
    assert (MM : forall x y, Rabs x <= y -> - y <= x <= y) by (intros x y; unfold Rabs; destruct (Rcase_abs x); lra).
    apply MM in M. split; [apply Rabs_le; lra|]. split; [lra|]. split; [lra|]. apply Rabs_le. lra.
  Qed.
  Lemma den_x_near : Rabs (turn_den p s - den_x p k) <= den_off p k o /\ 0 <= turn_den_gross p s <= den_gross_x p k + den_off p k o /\
    0 <= den_off p k o /\ Rabs (den_x p k) <= den_gross_x p k.
  Proof.
    destruct (offs s k o S) as (OW & Ou & Oa & Ot). destruct S as (_ & _ & St & _ & Sc & Ss & _). destruct K as (_ & _ & _ & Kt & _ & Kc & Ks).
    destruct P as (_ & _ & (_ & BT) & _ & (_ & BC) & (_ & BS)). unfold turn_den, turn_den_gross, den_x, den_gross_x, den_off.
    pose proof (abs_span _ _ St) as St'. pose proof (p2_pos (-100)) as P100.
    assert (Ip : 0 < / p) by (apply Rinv_0_lt_compat; exact Pp).
    set (t' := FR (sl_tan s)) in *. set (i' := FR (sl_sin s)) in *. set (c' := FR (sl_cos s)) in *. set (i := bsi k) in *.
    assert (Q : forall f : R -> R, Rabs (f i' - f i) <= oa o -> Rabs (f i) <= 1 -> Rabs (f i' * t' / p - f i * bt k / p) <= (oa o * (bt k + ot o) + ot o) / p).
    { intros f A B. replace (f i' * t' / p - f i * bt k / p) with (((f i' - f i) * t' + f i * (t' - bt k)) * / p) by (field; lra).
      rewrite Rabs_mult, (Rabs_right (/ p)) by lra. apply Rmult_le_compat_r; [lra|]. apply Rle_trans with (1 := Rabs_triang _ _).
      rewrite !Rabs_mult, (Rabs_right t') by lra. apply Rplus_le_compat.
      - apply Rmult_le_compat; try lra. apply Rabs_pos.
      - replace (ot o) with (1 * ot o) by ring. apply Rmult_le_compat; try assumption; apply Rabs_pos. }
    pose proof (Q (fun y => y) Ss Ks) as Q1. cbn beta in Q1.
    pose proof (Q Rabs (Rle_trans _ _ _ (Rabs_triang_inv2 _ _) Ss) ltac:(rewrite Rabs_Rabsolu; exact Ks)) as Q2.
    apply abs_span in Q1, Q2, Sc. fold c' in Sc.
    assert (N0 : 0 <= Rabs i' * t' / p) by (apply Rmult_le_pos; [apply Rmult_le_pos; [apply Rabs_pos|lra]|lra]).
    assert (E0 : 0 <= (oa o * (bt k + ot o) + ot o) / p).
    { apply Rmult_le_pos; [|lra]. apply Rplus_le_le_0_compat; [apply Rmult_le_pos|]; lra. }
    split; [apply Rabs_le; lra|]. split; [lra|]. split; [lra|].
    apply Rle_trans with (1 := Rabs_triang _ _). rewrite (Rabs_right (bco k)) by lra. apply Rplus_le_compat_l.
    unfold Rdiv. rewrite !Rabs_mult, (Rabs_right (/ p)), (Rabs_right (bt k)) by lra. lra.
  Qed.
  Lemma turn_x_near : plain_turn p s /\ Rabs (turn b p s - turn_x b p k) <= turn_off b p k o /\ turn_gross b p s <= turn_gross_x b p k o /\
    Rabs (turn_x b p k) <= turn_gross_x b p k o.
  Proof.
    destruct num_x_near as (N1 & N2 & N3 & N4). destruct den_x_near as (D1 & D2 & D3 & D4). destruct FD as (F1 & F2 & F3).
    pose proof (p2_pos (-79)) as P79. set (D := den_x p k) in *. set (B := Rabs D) in *. set (D' := turn_den p s) in *.
    assert (H : / 2 * B <= Rabs D').
    { pose proof (Rabs_triang_inv D (D - D')) as T. replace (D - (D - D')) with D' in T by ring. rewrite (Rabs_minus_sym D D') in T. fold B in T. lra. }
    assert (Bp : 0 < B) by lra. assert (B' : 0 < Rabs D') by lra.
    assert (NZ : D <> 0) by (intros Z; unfold B in Bp; rewrite Z, Rabs_R0 in Bp; lra).
    assert (NZ' : D' <> 0) by (intros Z; rewrite Z, Rabs_R0 in B'; lra).
    assert (BB : D * D = B * B) by (unfold B; rewrite <- Rabs_mult; rewrite Rabs_right; [reflexivity|apply Rle_ge, Rle_0_sqr]).
    assert (BB' : D' * D' = Rabs D' * Rabs D') by (rewrite <- Rabs_mult; rewrite Rabs_right; [reflexivity|apply Rle_ge, Rle_0_sqr]).
    assert (I : 0 < / Rabs D' <= 2 / B).
    { split; [now apply Rinv_0_lt_compat|]. replace (2 / B) with (/ (/ 2 * B)) by (field; lra). apply Rinv_le_contravar; lra. }
    assert (I2 : 0 < 1 / B) by (apply Rmult_lt_0_compat; [lra|now apply Rinv_0_lt_compat]).
    split; [|split; [|split]].
    - unfold plain_turn. fold D'. replace (p2 (-48)) with (/ 2 * p2 (-47)) by (replace (-48)%Z with (- (1) + -47)%Z by lia; rewrite p2_add, p2_neg, p2_1; ring).
      replace (p2 (-80)) with (/ 2 * p2 (-79)) by (replace (-80)%Z with (- (1) + -79)%Z by lia; rewrite p2_add, p2_neg, p2_1; ring).
      pose proof (p2_pos (-47)).
      assert (p2 (-47) * turn_den_gross p s <= p2 (-47) * (den_gross_x p k + den_off p k o)) by (apply Rmult_le_compat_l; lra). split; lra.
    - unfold turn, turn_x, turn_off. fold D D'. replace (turn_x b p k) with (num_x b k / D) by reflexivity. set (N := num_x b k) in *. set (N' := turn_num b s) in *.
      replace (N' / D' - N / D) with ((N' - N - N / D * (D' - D)) * / D') by (field; auto). rewrite Rabs_mult, Rabs_inv.
      replace (2 * (num_off b k o + Rabs (N / D) * den_off p k o) / Rabs D) with ((num_off b k o + Rabs (N / D) * den_off p k o) * (2 / B)) by (unfold B; field; unfold B in Bp; lra).
      apply Rmult_le_compat; [apply Rabs_pos|lra| |lra]. unfold Rminus at 1. apply Rle_trans with (1 := Rabs_triang _ _). rewrite Rabs_Ropp, Rabs_mult.
      apply Rplus_le_compat; [exact N1|]. apply Rmult_le_compat_l; [apply Rabs_pos|exact D1].
    - unfold turn_gross, turn_gross_x. fold D D'. rewrite BB, BB'. set (n' := turn_num_gross b s) in *. set (d' := turn_den_gross p s) in *.
      set (n := num_gross_x b k + num_off b k o) in *. set (d := den_gross_x p k + den_off p k o) in *.
      replace (n' * d' / (Rabs D' * Rabs D')) with (n' * / Rabs D' * (d' * / Rabs D')) by (field; lra).
      replace (4 * n * d / (B * B)) with (n * (2 / B) * (d * (2 / B))) by (field; lra).
      apply Rmult_le_compat; try (apply Rmult_le_pos; lra); apply Rmult_le_compat; lra.
    - unfold turn_x, turn_gross_x. fold D. rewrite BB. set (n := num_gross_x b k + num_off b k o) in *. set (d := den_gross_x p k + den_off p k o) in *.
      unfold Rdiv at 1. rewrite Rabs_mult, Rabs_inv. fold B. replace (4 * n * d / (B * B)) with (n * / B * (4 * d * / B)) by (field; lra).
      assert (IB : 0 < / B) by now apply Rinv_0_lt_compat. pose proof (Rabs_pos (num_x b k)) as A0.
      assert (n0 : 0 <= n * / B) by (apply Rmult_le_pos; unfold n; lra).
      assert (Q : 1 <= 4 * d * / B).
      { apply (Rmult_le_reg_r B); [lra|]. replace (4 * d * / B * B) with (4 * d) by (field; lra). unfold d. lra. }
      apply Rle_trans with (n * / B * 1); [rewrite Rmult_1_r; apply Rmult_le_compat_r; unfold n; lra|]. apply Rmult_le_compat_l; assumption.
  Qed.
End One.

Section Sums.
  Context (b p : float) (sl : list (slice float)) (k : slice float -> body) (o : slice float -> off).
  Context (Mb : mild b) (Fp : fair_p p) (N : INR (List.length sl) <= 1000000000000).
  Context (F : Forall (fun s => plain_slice s /\ sound (FR b) (k s) /\ stands s (k s) (o s)) sl).
  Context (FD : Forall (fun s => firm_den (FR p) (k s) (o s)) sl).
  Let n := INR (List.length sl).
  Let HX := total (fun s => turn_x (FR b) (FR p) (k s)) sl.
  Let DX := total (fun s => pull_x (k s)) sl.
  Let e1 := (2 * n + 30) * u * total (fun s => turn_gross_x (FR b) (FR p) (k s) (o s)) sl + total (fun s => turn_off (FR b) (FR p) (k s) (o s)) sl + 2 * n * dust.
  Let e2 := (2 * n + 9) * u * total (fun s => pull_gross_x (k s)) sl + 2 * total (fun s => pull_off (k s) (o s)) sl + 2 * n * dust.
  Lemma turn_each : Forall (fun s => plain_turn (FR p) s /\ Rabs (turn (FR b) (FR p) s - turn_x (FR b) (FR p) (k s)) <= turn_off (FR b) (FR p) (k s) (o s) /\
    turn_gross (FR b) (FR p) s <= turn_gross_x (FR b) (FR p) (k s) (o s) /\ Rabs (turn_x (FR b) (FR p) (k s)) <= turn_gross_x (FR b) (FR p) (k s) (o s)) sl.
  Proof.
    rewrite Forall_forall in *. intros s I. destruct (F s I) as (P & S & St). destruct Fp as (_ & Bp). pose proof (p2_pos (-100)).
    apply (turn_x_near (FR b) (FR p) s (k s) (o s)); try assumption; [lra|]. exact (FD s I).
  Qed.
  Lemma turn_all : Forall (plain_turn (FR p)) sl.
  Proof. apply Forall_impl with (2 := turn_each). tauto. Qed.
  Lemma turn_sums : valid (turns_f b p sl) /\ HX - e1 <= FR (turns_f b p sl) <= HX + e1 /\ 9 * u * HX <= e1 /\ 0 <= e1.
  Proof.
    pose proof (plain_all b sl k o F) as PA.
    destruct (turns_span b p sl Mb Fp PA turn_all N) as (V & Sp & _ & T0). split; [exact V|]. unfold turn_error in Sp. fold n in Sp.
    set (G := total (fun s => turn_gross_x (FR b) (FR p) (k s) (o s)) sl) in *. set (O := total (fun s => turn_off (FR b) (FR p) (k s) (o s)) sl) in *.
    assert (A : Rabs (total (turn (FR b) (FR p)) sl - HX) <= O).
    { apply (total_near (turn (FR b) (FR p)) (fun s => turn_x (FR b) (FR p) (k s)) (fun s => turn_off (FR b) (FR p) (k s) (o s))).
      apply Forall_impl with (2 := turn_each). tauto. }
    assert (B : total (turn_gross (FR b) (FR p)) sl <= G) by (apply total_le; apply Forall_impl with (2 := turn_each); tauto).
    assert (C : HX <= G).
    { apply total_le. apply Forall_impl with (2 := turn_each). intros s (_ & _ & _ & Q). pose proof (Rle_abs (turn_x (FR b) (FR p) (k s))). lra. }
    assert (G0 : 0 <= G).
    { apply total_nonneg. apply Forall_impl with (2 := turn_each). intros s (_ & _ & _ & Q). pose proof (Rabs_pos (turn_x (FR b) (FR p) (k s))). lra. }
    assert (n0 : 0 <= n) by apply pos_INR. pose proof u_pos as U. pose proof dust_pos.
    assert (q0 : 0 <= (2 * n + 30) * u) by (apply Rmult_le_pos; lra). set (q := (2 * n + 30) * u) in *.
    assert (E : q * total (turn_gross (FR b) (FR p)) sl <= q * G) by (apply Rmult_le_compat_l; lra).
    assert (O0 : 0 <= O) by (pose proof (Rabs_pos (total (turn (FR b) (FR p)) sl - HX)); lra).
    apply abs_span in A. unfold e1. fold q G O. assert (ND : 0 <= n * dust) by (apply Rmult_le_pos; lra).
    assert (Q9 : 9 * u <= q) by (unfold q; apply Rmult_le_compat_r; lra).
    assert (9 * u * HX <= 9 * u * G) by (apply Rmult_le_compat_l; lra). assert (9 * u * G <= q * G) by (apply Rmult_le_compat_r; lra).
    assert (0 <= q * G) by (apply Rmult_le_pos; lra).
    split; [|split]; lra.
  Qed.
  Lemma turn_step : 2 * e2 < DX -> e1 <= DX -> e1 <= HX -> HX <= fair * DX ->
    exists f, bishop_step b sl p = Ok (Some f) /\ valid f /\ Rabs (FR f - HX / DX) <= 3 * (e1 + HX / DX * e2) / DX + eta.
  Proof.
    intros LD LR LP LF. destruct turn_sums as (VT & ST & T9 & T0). destruct (pull_sums b sl k o N F) as (SD & P0).
    pose proof (plain_all b sl k o F) as PA. destruct (drv_span sl PA N) as (VD & _).
    destruct (quot_near (turns_f b p sl) (drv_f sl) HX DX e1 e2 VT VD ST SD ltac:(lra) T9 T0 P0 LD LR LF) as (Dp & V & E).
    rewrite (step_shape b p sl Mb Fp PA turn_all). destruct (nz_FR 0 eq_refl) as (V0 & E0). cbn [nleb nltb FNum]. rewrite leb_FR, ltb_FR, E0 by assumption. unfold Rleb, Rltb.
    destruct (Rle_dec (FR (drv_f sl)) 0); [lra|]. destruct (Rlt_dec (FR (turns_f b p sl)) 0); [lra|]. cbn [orb].
    exists (ndiv (turns_f b p sl) (drv_f sl)). auto.
  Qed.
  Lemma turn_none : DX < - e2 \/ HX < - e1 -> bishop_step b sl p = Ok None.
  Proof.
    intros L. destruct turn_sums as (VT & ST & _). destruct (pull_sums b sl k o N F) as (SD & _).
    pose proof (plain_all b sl k o F) as PA. destruct (drv_span sl PA N) as (VD & _).
    rewrite (step_shape b p sl Mb Fp PA turn_all). destruct (nz_FR 0 eq_refl) as (V0 & E0). cbn [nleb nltb FNum]. rewrite leb_FR, ltb_FR, E0 by assumption. unfold Rleb, Rltb.
    destruct (Rle_dec (FR (drv_f sl)) 0); [reflexivity|]. destruct (Rlt_dec (FR (turns_f b p sl)) 0); [reflexivity|]. change (DX - e2 <= FR (drv_f sl) <= DX + e2) in SD. lra.
  Qed.
End Sums.

(** ** From a step that stops to the solution of the equation *)
(** what the exact step of a slice changes when the previous factor goes from [p] to [q] *)
Lemma turn_slope b p q k : 0 < p -> 0 < q -> den_x p k <> 0 -> den_x q k <> 0 ->
  turn_x b p k - turn_x b q k = (p - q) * (num_x b k * (bsi k * bt k) / ((p * den_x p k) * (q * den_x q k))).
Proof.
  intros Pp Pq Dp Dq. unfold turn_x.
  assert (E : den_x q k - den_x p k = bsi k * bt k * (p - q) / (p * q)) by (unfold den_x; field; lra).
  set (D := den_x p k) in *. set (D' := den_x q k) in *.
  replace (num_x b k / D - num_x b k / D') with (num_x b k * (D' - D) / (D * D')) by (field; auto). rewrite E. field. repeat split; auto; lra.
Qed.
Definition slope_x (b p q : R) (k : body) : R := Rabs (num_x b k * (bsi k * bt k)) / (Rabs (p * den_x p k) * Rabs (q * den_x q k)).
Lemma turn_lipschitz b p q (ks : list body) : 0 < p -> 0 < q -> Forall (fun k => den_x p k <> 0 /\ den_x q k <> 0) ks ->
  Rabs (total (turn_x b p) ks - total (turn_x b q) ks) <= Rabs (p - q) * total (slope_x b p q) ks.
Proof.
  intros Pp Pq F. induction F as [|k ks (Dp & Dq) F IH]; [cbn; rewrite Rminus_eq_0, Rabs_R0; lra|].
  cbn [total fold_right]. fold (total (turn_x b p) ks) (total (turn_x b q) ks) (total (slope_x b p q) ks).
  assert (E : Rabs (turn_x b p k - turn_x b q k) <= Rabs (p - q) * slope_x b p q k).
  { rewrite turn_slope by assumption. rewrite Rabs_mult. apply Rmult_le_compat_l; [apply Rabs_pos|]. unfold slope_x, Rdiv. rewrite Rabs_mult, Rabs_inv, (Rabs_mult (p * _)). lra. }
  pose proof (Rabs_triang (turn_x b p k - turn_x b q k) (total (turn_x b p) ks - total (turn_x b q) ks)) as T.
  match type of T with Rabs ?x <= _ => match goal with |- Rabs ?y <= _ => replace y with x by ring end end. lra.
Qed.
Lemma root_near b p q f (ks : list body) D e d : 0 < p -> 0 < q -> Forall (fun k => den_x p k <> 0 /\ den_x q k <> 0) ks -> 0 < D ->
  total (turn_x b q) ks = q * D -> Rabs (f - total (turn_x b p) ks / D) <= e -> Rabs (f - p) <= d -> 0 <= d ->
  total (slope_x b p q) ks < D ->
  Rabs (f - q) <= (e + total (slope_x b p q) ks / D * d) / (1 - total (slope_x b p q) ks / D).
Proof.
  intros Pp Pq F Dp Q E1 E2 D0 L. set (m := total (slope_x b p q) ks) in *.
  assert (M0 : 0 <= m).
  { apply total_nonneg. rewrite Forall_forall in *. intros k I. unfold slope_x. apply Rmult_le_pos; [apply Rabs_pos|]. left. apply Rinv_0_lt_compat.
    destruct (F k I) as (A & B). apply Rmult_lt_0_compat; apply Rabs_pos_lt; apply Rmult_integral_contrapositive_currified; lra. }
  assert (ID : 0 < / D) by now apply Rinv_0_lt_compat.
  assert (M1 : 0 <= m / D < 1). { unfold Rdiv. split; [apply Rmult_le_pos; lra|]. apply (Rmult_lt_reg_r D); [exact Dp|]. rewrite Rmult_assoc, Rinv_l by lra. lra. }
  pose proof (turn_lipschitz b p q ks Pp Pq F) as T. fold m in T. rewrite Q in T.
  assert (E3 : Rabs (total (turn_x b p) ks / D - q) <= Rabs (p - q) * (m / D)).
  { replace (total (turn_x b p) ks / D - q) with ((total (turn_x b p) ks - q * D) * / D) by (field; lra). rewrite Rabs_mult, (Rabs_right (/ D)) by lra.
    unfold Rdiv. rewrite <- Rmult_assoc. apply Rmult_le_compat_r; lra. }
  assert (E4 : Rabs (p - q) <= d + Rabs (f - q)).
  { replace (p - q) with ((p - f) + (f - q)) by ring. apply Rle_trans with (1 := Rabs_triang _ _). rewrite (Rabs_minus_sym p f). lra. }
  assert (E5 : Rabs (p - q) * (m / D) <= (d + Rabs (f - q)) * (m / D)) by (apply Rmult_le_compat_r; lra).
  assert (E6 : Rabs (f - q) <= e + (d + Rabs (f - q)) * (m / D)).
  { replace (f - q) with ((f - total (turn_x b p) ks / D) + (total (turn_x b p) ks / D - q)) at 1 by ring. apply Rle_trans with (1 := Rabs_triang _ _). lra. }
  apply (Rmult_le_reg_r (1 - m / D)); [lra|]. replace ((e + m / D * d) / (1 - m / D) * (1 - m / D)) with (e + m / D * d) by (field; lra). lra.
Qed.
(** two numbers that the program finds closer than the tolerance *)
Lemma abs_FR x : valid x -> valid (nabs x) /\ FR (nabs x) = Rabs (FR x).
Proof.
  intros (F & V). cbn [nabs FNum]. destruct x as [sg|sg| |sg m e]; try discriminate F; cbn [SFabs FR].
  - split; [split; reflexivity|]. now rewrite Rabs_R0.
  - split; [split; assumption|]. assert (0 < IZR (Zpos m) * p2 e) by (apply Rmult_lt_0_compat; [apply (IZR_lt 0); lia|apply p2_pos]).
    destruct sg; cbn [sgn]; [rewrite Rabs_left|rewrite Rabs_right]; lra.
Qed.
Lemma stop_near f p tol : valid f -> valid p -> valid tol -> Rabs (FR f) <= fair -> Rabs (FR p) <= fair -> nltb (nabs (nsub f p)) tol = true ->
  Rabs (FR f - FR p) <= (1 + 2 * u) * FR tol.
Proof.
  intros Vf Vp Vt Bf Bp L. destruct (sub_near f p Vf Vp) as (V & N).
  { assert (FT : 4 * fair <= p2 1023) by (change 4 with (IZR (2 ^ 2)); rewrite <- p2_IZR by lia; unfold fair; rewrite <- p2_add; apply p2_le; lia).
    pose proof (p2_pos 400). fold fair in *. apply Rle_lt_trans with (fair + fair); [|lra].
    replace (FR f - FR p) with (FR f + - FR p) by ring. apply Rle_trans with (1 := Rabs_triang _ _). rewrite Rabs_Ropp. lra. }
  change (SFsub prec emax f p) with (nsub f p) in *. destruct (abs_FR _ V) as (VA & EA). cbn [nltb FNum] in L. rewrite ltb_FR in L by assumption.
  rewrite EA in L. unfold Rltb in L. destruct (Rlt_dec _ _) as [L'|]; [|discriminate L]. set (x := FR f - FR p) in *. set (y := FR (nsub f p)) in *.
  pose proof (Rabs_triang_inv x (x - y)) as T. replace (x - (x - y)) with y in T by ring. rewrite (Rabs_minus_sym x y) in T.
  pose proof u_pos as U. assert (u <= / 4) by (rewrite u_val; lra). pose proof (Rabs_pos x) as X0.
  assert (E : Rabs x * (1 - u) <= FR tol) by lra.
  assert (E2 : (1 + 2 * u) * (Rabs x * (1 - u)) <= (1 + 2 * u) * FR tol) by (apply Rmult_le_compat_l; lra).
  apply Rle_trans with (2 := E2). assert (0 <= Rabs x * (u * (1 - 2 * u))) by (apply Rmult_le_pos; [exact X0|apply Rmult_le_pos; lra]). lra.
Qed.
