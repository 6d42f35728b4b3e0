(** * PropsRise: the circles tried for two points of the ground have the radii they should have, up to rounding (C120).

    [FR x] is the real number a binary64 number stands for, [valid x] says that [x] is finite and in the
    one form binary64 has for it.  [laid] and [fits] are those of C119. *)
From Coq Require Import ZArith Reals Lra Lia Bool List String SpecFloat.
From Verif Require Import Num RealNum FloatNum Py Validation Utilities Objects Slope Planes
     RoundTheory NearFacts SumNear CrossNear EndsNear StartNear RiseNear PropsNear PropsStart.
Import ListNotations.
Local Open Scope R_scope.

(** Two points of moderate size, the left one first, on a chord that is not too close to the vertical. *)
Definition chord_of (l r : point float) : R := dist_euc (FR (fst l)) (FR (snd l)) (FR (fst r)) (FR (snd r)).
Definition spread (l r : point float) (S : R) : Prop :=
  (valid (fst l) /\ valid (snd l) /\ valid (fst r) /\ valid (snd r)) /\
  (Rabs (FR (fst l)) <= S /\ Rabs (FR (snd l)) <= S /\ Rabs (FR (fst r)) <= S /\ Rabs (FR (snd r)) <= S /\ S <= p2 89) /\
  p2 (-39) <= FR (fst r) - FR (fst l) /\ chord_of l r <= 1024 * (FR (fst r) - FR (fst l)).
(** The radius of the first circle: 1.1 times half the chord over the cosine of its angle. *)
Definition radius_1 (l r : point float) : R :=
  11 / 10 * (chord_of l r / 2 / ((FR (fst r) - FR (fst l)) / chord_of l r)).
(** The distance from the chord to the arc of this circle. *)
Definition rise_1 (l r : point float) : R :=
  radius_1 l r - sqrt (radius_1 l r * radius_1 l r - chord_of l r / 2 * (chord_of l r / 2)).
(** The radius of the circle through both points whose arc lies [t] off the chord. *)
Definition radius_for (l r : point float) (t : R) : R :=
  (chord_of l r / 2 * (chord_of l r / 2) + t * t) / (2 * t).
(** The distance of the turn [k] of [n], up to rounding. *)
Definition rise_of (l r : point float) (k n : Z) (t : float) : Prop :=
  valid t /\ Rabs (FR t - rise_1 l r * (IZR k / IZR n)) <= p2 (-30) * radius_1 l r * (IZR k / IZR n).

Lemma chord_sqrt l r : chord_of l r = sqrt ((FR (fst r) - FR (fst l)) ^ 2 + (FR (snd l) - FR (snd r)) ^ 2).
Proof. unfold chord_of, dist_euc, Rsqr. f_equal. ring. Qed.
Lemma spread_more l r S : spread l r S ->
  S <= p2 100 /\ p2 (-100) <= FR (fst r) - FR (fst l) /\ (p2 (-40) <= chord_of l r / 2 <= p2 91) /\
  / 1024 <= (FR (fst r) - FR (fst l)) / chord_of l r <= 1 /\ 0 < chord_of l r.
Proof.
  intros (_ & (B1 & B2 & B3 & B4 & BS) & BX & Bc). assert (L1 : p2 (-100) <= p2 (-39)) by (apply p2_le; lia). assert (L2 : p2 89 <= p2 100) by (apply p2_le; lia).
  assert (BX' : p2 (-100) <= FR (fst r) - FR (fst l)) by lra. destruct (D_low l r BX') as (Q & _). rewrite <- chord_sqrt in Q.
  pose proof (p2_pos (-39)). set (D := chord_of l r) in *. set (X := FR (fst r) - FR (fst l)) in *. assert (Dp : 0 < D) by lra.
  split; [lra|]. split; [exact BX'|]. split; [split|split; [|exact Dp]].
  - replace (-40)%Z with (-39 + - (1))%Z by reflexivity. rewrite p2_add, p2_neg, (p2_IZR 1) by lia. change (2 ^ 1)%Z with 2%Z. lra.
  - pose proof (short (FR (fst l)) (FR (snd l)) (FR (fst r)) (FR (snd r))) as Sh. change (D <= Rabs (FR (fst l) - FR (fst r)) + Rabs (FR (snd l) - FR (snd r))) in Sh.
    assert (T : forall a b, Rabs a <= S -> Rabs b <= S -> Rabs (a - b) <= 2 * S).
    { intros a b A B. unfold Rminus. apply Rle_trans with (1 := Rabs_triang _ _). rewrite Rabs_Ropp. lra. }
    pose proof (T _ _ B1 B3). pose proof (T _ _ B2 B4). change 91%Z with (2 + 89)%Z. rewrite p2_step by lia. change (2 ^ 2)%Z with 4%Z. pose proof (p2_pos 89). lra.
  - split; apply (Rmult_le_reg_r D); auto; unfold Rdiv; rewrite ?Rmult_assoc, ?Rinv_l by lra; lra.
Qed.
Lemma start_found l r S : spread l r S -> exists beta half edge, start_circle l r = Ok (beta, half, edge) /\
  about half (chord_of l r / 2) (chord_of l r / 2) 300 0 /\ about edge (rise_1 l r) (4 * radius_1 l r) 2000000 0.
Proof.
  intros Sp. destruct (spread_more l r S Sp) as (BS & BX & BH & Bc & Dp). destruct Sp as ((V1 & V2 & V3 & V4) & (B1 & B2 & B3 & B4 & _) & _ & _).
  pose proof (half_close l r S V1 V2 V3 V4 B1 B2 B3 B4 BS BX) as AH. destruct (chord_angle l r S V1 V2 V3 V4 B1 B2 B3 B4 BS BX) as (NX & (Vc & Nc) & _).
  rewrite <- !chord_sqrt in *. set (half := ndiv _ _) in AH. set (beta := natan _) in Vc, Nc.
  assert (AC : about (ncos beta) ((FR (fst r) - FR (fst l)) / chord_of l r) 1 7 0).
  { split; [exact Vc|]. split; [rewrite Rabs_right; lra|lra]. }
  destruct (edge_close half (ncos beta) _ _ AH AC BH Bc) as (NC & VD & Dg & AE).
  destruct (nz_FR 0 ltac:(cbn; lia)) as (V0 & E0).
  eexists beta, half, _. split; [|split; [exact AH|exact AE]].
  unfold start_circle, pydiv. destruct (dx_near l r S V1 V3 B1 B3 BS) as (Vd & _).
  rewrite eqb_false by (try assumption; rewrite E0; exact NX). cbn [rbind]. fold half. fold beta.
  rewrite eqb_false by (try assumption; rewrite E0; exact NC). cbn [rbind]. unfold pysqrt. rewrite ltb_false by (try assumption; rewrite E0; lra). reflexivity.
Qed.
Lemma turn_found l r S edge k n : spread l r S -> about edge (rise_1 l r) (4 * radius_1 l r) 2000000 0 -> (1 <= k <= n)%Z -> (n <= 2 ^ 30)%Z ->
  pydiv (nmul edge (nz k)) (nz n) = Ok (ndiv (nmul edge (nz k)) (nz n)) /\
  rise_of l r k n (ndiv (nmul edge (nz k)) (nz n)) /\ laid l r (ndiv (nmul edge (nz k)) (nz n)) S.
Proof.
  intros Sp AE K N. destruct (spread_more l r S Sp) as (BS & BX & BH & Bc & Dp). destruct Sp as ((V1 & V2 & V3 & V4) & (B1 & B2 & B3 & B4 & _) & _ & _).
  destruct (turn_close _ _ BH Bc edge k n AE K N) as (Q & V & B & NE). split; [unfold pydiv; now rewrite Q|].
  split; [split; assumption|]. split; [auto 6|]. split; [auto 6|]. auto.
Qed.

(** The start of the search over the circles of two points never fails and finds these values. *)
Theorem C120_start : forall l r S, spread l r S ->
  exists beta half edge, start_circle l r = Ok (beta, half, edge) /\ (valid half /\ valid edge) /\
    Rabs (FR half - chord_of l r / 2) <= 300 * p2 (-53) * (chord_of l r / 2) /\
    Rabs (FR edge - rise_1 l r) <= p2 (-30) * radius_1 l r.
Proof.
  intros l r S Sp. destruct (start_found l r S Sp) as (beta & half & edge & E & (VH & _ & NH) & (VE & GE & NE)).
  exists beta, half, edge. split; [exact E|]. split; [auto|]. rewrite Rplus_0_r in NH, NE. change (p2 (-53)) with u. split; [exact NH|].
  apply Rle_trans with (1 := NE). assert (P30 : p2 (-30) = 8388608 * u) by (unfold u; replace (-30)%Z with (23 + -53)%Z by reflexivity; rewrite p2_step by lia; reflexivity).
  rewrite P30. pose proof u_pos. assert (0 <= radius_1 l r) by (pose proof (Rabs_pos (rise_1 l r)); lra). nra.
Qed.
Print Assumptions C120_start.
(** Every circle that is analysed comes from one of the [n] turns and has the radius of this turn; the turns come in order. *)
Definition of_turn (l r : point float) (n k : Z) (p : plane float) : Prop :=
  exists t, rise_of l r k n t /\ valid (p_radius p) /\
    Rabs (FR (p_radius p) - radius_for l r (FR t)) <= 1850 * p2 (-53) * radius_for l r (FR t).
Inductive in_turns (l r : point float) (n : Z) : Z -> list (plane float) -> Prop :=
| no_more k : in_turns l r n k []
| one_more k k' p ps : (1 <= k' <= k)%Z -> of_turn l r n k' p -> in_turns l r n (k' - 1) ps -> in_turns l r n k (p :: ps).
Lemma in_turns_up l r n k k' ps : in_turns l r n k ps -> (k <= k')%Z -> in_turns l r n k' ps.
Proof. intros I L. destruct I; [constructor|]. apply one_more with k'0; auto. lia. Qed.
Lemma loop_turns g l0 r0 S half edge beta n : spread l0 r0 S -> start_circle l0 r0 = Ok (beta, half, edge) ->
  about edge (rise_1 l0 r0) (4 * radius_1 l0 r0) 2000000 0 -> (n <= 2 ^ 30)%Z ->
  forall k l r ps, (Z.of_nat k <= n)%Z -> circles_loop g beta (nsq half) edge n k l r = Ok ps -> in_turns l0 r0 n (Z.of_nat k) ps.
Proof.
  intros Sp E AE N. induction k as [|k IH]; intros l r ps K; cbn [circles_loop].
  - intros Q. injection Q as <-. constructor.
  - destruct (turn_found l0 r0 S edge (Z.of_nat (Datatypes.S k)) n Sp AE ltac:(lia) N) as (Q & RO & LA). rewrite Q. cbn [rbind].
    set (t := ndiv (nmul edge (nz (Z.of_nat (Datatypes.S k)))) (nz n)) in *.
    destruct (C119_circle l0 r0 t S _ _ _ LA E) as (rad & ER & _). rewrite ER. cbn [rbind].
    destruct (circle_centre beta (mid_coord l r) (nsub rad t)) as (cx, cy). destruct (circle_external g cx cy rad) as [il|]; [|discriminate]. cbn [rbind].
    destruct (first_two il) as [(a, b)|].
    + destruct (circles_loop g beta (nsq half) edge n k a b) as [rest|] eqn:G; [|discriminate]. cbn [rbind]. intros X. injection X as <-.
      apply one_more with (Z.of_nat (Datatypes.S k)); [lia| |].
      * exists t. split; [exact RO|]. cbn [p_radius].
        destruct (start_values l0 r0 _ _ _ E) as (_ & EH). rewrite EH in ER.
        destruct LA as ((V1 & V2 & V3 & V4 & Vt) & (B1 & B2 & B3 & B4 & BS) & BX & Bt).
        destruct (radius_close l0 r0 t S V1 V2 V3 V4 Vt B1 B2 B3 B4 BS BX Bt) as (rad' & ER' & (VR & _ & NR)).
        assert (rad' = rad) by congruence. subst rad'. rewrite <- !chord_sqrt, Rplus_0_r in NR. split; [exact VR|exact NR].
      * replace (Z.of_nat (Datatypes.S k) - 1)%Z with (Z.of_nat k) by lia. now apply (IH a b); [lia|].
    + intros X. apply in_turns_up with (Z.of_nat k); [|lia]. now apply (IH l r); [lia|].
Qed.
Theorem C120_turns : forall g l r S n ps, spread l r S -> (0 < n <= 2 ^ 30)%Z -> generate_planes g l r n = Ok ps -> in_turns l r n n ps.
Proof.
  intros g l r S n ps Sp N G. destruct (start_found l r S Sp) as (beta & half & edge & E & _ & AE). unfold generate_planes in G. rewrite E in G. cbn [rbind] in G.
  pose proof (loop_turns g l r S half edge beta n Sp E AE ltac:(lia) (Z.to_nat n) l r ps ltac:(lia) G) as Q. now rewrite Z2Nat.id in Q by lia.
Qed.
Print Assumptions C120_turns.
(** The first circle passes through both points, up to rounding. *)
Theorem C120_first : forall g l r S n ps, spread l r S -> (0 < n <= 2 ^ 30)%Z -> generate_planes g l r n = Ok ps ->
  exists t c rad, first_turn l r n t c rad /\ rise_of l r n n t /\ fits l r t S c rad /\
    (forall il p q, circle_external g (fst c) (snd c) rad = Ok il -> first_two il = Some (p, q) ->
     exists rest, ps = MkPlane p q (fst c) (snd c) rad None :: rest).
Proof.
  intros g l r S n ps Sp N G. destruct (start_found l r S Sp) as (beta & half & edge & E & _ & AE).
  destruct (turn_found l r S edge n n Sp AE ltac:(lia) ltac:(lia)) as (_ & RO & LA).
  destruct (C119_first g l r n S beta half edge ps ltac:(lia) E LA G) as (c & rad & FT & F & Q). eexists _, c, rad. split; [exact FT|]. auto.
Qed.
Print Assumptions C120_first.

(** ** A case: the points (0, 8) and (6, 0); the first radius is 55/6. *)
Example C120_case : let l := (f_of_Z 0, f_of_Z 8) in let r := (f_of_Z 6, f_of_Z 0) in
  spread l r 8 /\ chord_of l r = 10 /\ radius_1 l r = 55 / 6 /\ 13 / 10 < rise_1 l r < 3 / 2 + 1 / 10.
Proof.
  intros l r. destruct (valid_int 0 eq_refl) as (V0 & E0). destruct (valid_int 8 eq_refl) as (V8 & E8). destruct (valid_int 6 eq_refl) as (V6 & E6).
  assert (D : chord_of l r = 10).
  { unfold chord_of, l, r. cbn [fst snd]. rewrite E0, E8, E6. unfold dist_euc, Rsqr. replace ((0 - 6) * (0 - 6) + (8 - 0) * (8 - 0)) with (10 * 10) by ring. apply sqrt_square; lra. }
  assert (P : p2 (-39) <= 1 /\ 8 <= p2 89).
  { replace (-39)%Z with (- (39))%Z by lia. rewrite p2_neg, (p2_IZR 39), (p2_IZR 89) by lia. change (2 ^ 39)%Z with 549755813888%Z.
    change (2 ^ 89)%Z with 618970019642690137449562112%Z. lra. }
  assert (R1 : radius_1 l r = 55 / 6) by (unfold radius_1; rewrite D; unfold l, r; cbn [fst snd]; rewrite E0, E6; field).
  split; [|split; [exact D|split; [exact R1|]]].
  - unfold spread. rewrite D. unfold l, r. cbn [fst snd]. rewrite E0, E8, E6. split; [auto 6|]. split; [|lra]. rewrite (Rabs_right 0), (Rabs_right 8), (Rabs_right 6) by lra. lra.
  - unfold rise_1. rewrite R1, D. set (v := 55 / 6 * (55 / 6) - 10 / 2 * (10 / 2)). pose proof (sqrt_pos v) as S0. pose proof (sqrt_sqrt v ltac:(unfold v; lra)) as SS. unfold v in SS at 3. nra.
Qed.
