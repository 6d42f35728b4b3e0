(** * PropsStart: the circle laid through two points of the ground passes through them up to rounding (C119).

    [FR x] is the real number a binary64 number stands for, [valid x] says that [x] is finite and in the
    one form binary64 has for it.  [dist_euc] is the distance of the standard library. *)
From Coq Require Import ZArith Reals Lra Lia Bool List String SpecFloat.
From Verif Require Import Num RealNum FloatNum Py Validation Utilities Objects Slope Planes
     RoundTheory NearFacts SumNear CrossNear StartNear PropsNear.
Import ListNotations.
Local Open Scope R_scope.

(** Two points and the distance from their chord to the arc below it, of moderate size. *)
Definition laid (l r : point float) (t : float) (S : R) : Prop :=
  (valid (fst l) /\ valid (snd l) /\ valid (fst r) /\ valid (snd r) /\ valid t) /\
  (Rabs (FR (fst l)) <= S /\ Rabs (FR (snd l)) <= S /\ Rabs (FR (fst r)) <= S /\ Rabs (FR (snd r)) <= S /\ S <= p2 100) /\
  p2 (-100) <= FR (fst r) - FR (fst l) /\ p2 (-100) <= FR t <= p2 100.
(** The circle through both points whose arc lies [t] below the chord: its centre is [R - t] from the middle
    of the chord, on the perpendicular through it and, when [R > t], above it. *)
Definition arc_of (l r : point float) (t X Y R : R) : Prop :=
  0 < R /\ on_circle X Y R (FRp l) /\ on_circle X Y R (FRp r) /\
  let D := dist_euc (FR (fst l)) (FR (snd l)) (FR (fst r)) (FR (snd r)) in
  X - (FR (fst l) + FR (fst r)) / 2 = (R - t) * ((FR (snd l) - FR (snd r)) / D) /\
  Y - (FR (snd l) + FR (snd r)) / 2 = (R - t) * ((FR (fst r) - FR (fst l)) / D).
(** The computed circle is the exact one up to rounding, and passes through both points up to rounding. *)
Definition fits (l r : point float) (t : float) (S : R) (c : point float) (rad : float) : Prop :=
  exists X Y R, arc_of l r (FR t) X Y R /\
    (valid (fst c) /\ valid (snd c) /\ valid rad) /\
    Rabs (FR rad - R) <= 1850 * p2 (-53) * R /\
    Rabs (FR (fst c) - X) <= 1900 * p2 (-53) * (S + 3 * R) /\ Rabs (FR (snd c) - Y) <= 1900 * p2 (-53) * (S + 3 * R) /\
    Rabs (dist_euc (FR (fst l)) (FR (snd l)) (FR (fst c)) (FR (snd c)) - FR rad) <= p2 (-39) * (S + R) /\
    Rabs (dist_euc (FR (fst r)) (FR (snd r)) (FR (fst c)) (FR (snd c)) - FR rad) <= p2 (-39) * (S + R).

(** For every distance from chord to arc. *)
Theorem C119_circle : forall l r t S beta half edge, laid l r t S -> start_circle l r = Ok (beta, half, edge) ->
  exists rad, circle_radius_from_abcd t (nsq half) = Ok rad /\ fits l r t S (circle_centre beta (mid_coord l r) (nsub rad t)) rad.
Proof.
  intros l r t S beta half edge ((V1 & V2 & V3 & V4 & Vt) & (B1 & B2 & B3 & B4 & BS) & BX & Bt) E.
  destruct (start_values l r _ _ _ E) as (-> & ->).
  destruct (circle_close l r t S V1 V2 V3 V4 Vt B1 B2 B3 B4 BS BX Bt) as (rad & ER & Rp & AR & (VX & _ & NX) & (VY & _ & NY) & T1 & T2 & D1 & D2).
  exists rad. split; [exact ER|]. destruct AR as (VR & _ & NR). rewrite Rplus_0_r in NR, NX, NY.
  assert (P39 : 16384 * u = p2 (-39)) by (unfold u; replace (-39)%Z with (14 + -53)%Z by reflexivity; rewrite p2_add, (p2_IZR 14) by lia; reflexivity).
  rewrite P39 in D1, D2.
  assert (ED : dist_euc (FR (fst l)) (FR (snd l)) (FR (fst r)) (FR (snd r)) = sqrt ((FR (fst r) - FR (fst l)) ^ 2 + (FR (snd l) - FR (snd r)) ^ 2)).
  { unfold dist_euc, Rsqr. f_equal. ring. }
  eexists _, _, _. split; [split; [exact Rp|split; [exact T1|split; [exact T2|]]]|].
  - intros D. unfold D. rewrite ED. split; ring.
  - split; [split; [exact VX|split; [exact VY|exact VR]]|]. change (p2 (-53)) with u. auto 6.
Qed.
Print Assumptions C119_circle.
(** The circle of the first turn of [n], as the program computes it. *)
Definition first_turn (l r : point float) (n : Z) (t : float) (c : point float) (rad : float) : Prop :=
  exists beta half edge, start_circle l r = Ok (beta, half, edge) /\ t = ndiv (nmul edge (nz n)) (nz n) /\
    circle_radius_from_abcd t (nsq half) = Ok rad /\ c = circle_centre beta (mid_coord l r) (nsub rad t).
(** The first circle of a pair of points: if it cuts the ground twice it is the first analysed. *)
Theorem C119_first : forall g l r n S beta half edge ps, (0 < n)%Z -> start_circle l r = Ok (beta, half, edge) ->
  let t := ndiv (nmul edge (nz n)) (nz n) in laid l r t S -> generate_planes g l r n = Ok ps ->
  exists c rad, first_turn l r n t c rad /\ fits l r t S c rad /\
    (forall il p q, circle_external g (fst c) (snd c) rad = Ok il -> first_two il = Some (p, q) ->
     exists rest, ps = MkPlane p q (fst c) (snd c) rad None :: rest).
Proof.
  intros g l r n S beta half edge ps N E t L G. destruct (C119_circle l r t S _ _ _ L E) as (rad & ER & F).
  eexists _, rad. split; [exists beta, half, edge; auto|]. split; [exact F|]. intros il p q EX FT. revert G. unfold generate_planes. rewrite E. cbn [rbind].
  destruct (Z.to_nat n) as [|k] eqn:K; [lia|]. cbn [circles_loop]. rewrite <- K, Z2Nat.id by lia.
  unfold pydiv at 1. destruct (neqb (nz n) (nz 0)); [discriminate|]. cbn [rbind]. fold t. rewrite ER. cbn [rbind].
  destruct (circle_centre beta (mid_coord l r) (nsub rad t)) as (cx, cy). cbn [fst snd] in EX |- *. rewrite EX. cbn [rbind]. rewrite FT. cbn [rbind].
  destruct (circles_loop _ _ _ _ _ _ _ _) as [rest|]; [|discriminate]. cbn [rbind]. intros G. injection G as <-. now exists rest.
Qed.
Print Assumptions C119_first.

(** ** A case: the points (0, 8) and (6, 0), the arc one metre below the chord of ten. *)
Example C119_case : let l := (f_of_Z 0, f_of_Z 8) in let r := (f_of_Z 6, f_of_Z 0) in
  laid l r (f_of_Z 1) 8 /\ (exists beta half edge, start_circle l r = Ok (beta, half, edge)) /\
  arc_of l r 1 (3 + 48 / 5) (4 + 36 / 5) 13.
Proof.
  intros l r. destruct (valid_int 0 eq_refl) as (V0 & E0). destruct (valid_int 8 eq_refl) as (V8 & E8). destruct (valid_int 6 eq_refl) as (V6 & E6). destruct (valid_int 1 eq_refl) as (V1 & E1).
  assert (P : p2 (-100) <= 1 /\ 8 <= p2 100).
  { replace (-100)%Z with (- (100))%Z by lia. rewrite p2_neg, (p2_IZR 100) by lia. change (2 ^ 100)%Z with 1267650600228229401496703205376%Z. lra. }
  split.
  { unfold laid, l, r. cbn [fst snd]. rewrite E0, E8, E6, E1. split; [auto 6|]. split; [|lra]. rewrite (Rabs_right 0), (Rabs_right 8), (Rabs_right 6) by lra. lra. }
  split. { destruct (start_circle l r) as [((b, h), e)|x] eqn:Q; [now exists b, h, e|]. vm_compute in Q. discriminate. }
  unfold arc_of, on_circle, FRp, l, r. cbn [fst snd]. rewrite E0, E8, E6.
  assert (D : dist_euc 0 8 6 0 = 10) by (unfold dist_euc, Rsqr; replace ((0 - 6) * (0 - 6) + (8 - 0) * (8 - 0)) with (10 * 10) by ring; apply sqrt_square; lra).
  rewrite D. lra.
Qed.
