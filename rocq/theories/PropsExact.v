(** * PropsExact: more slices and more turns tend to the solution of one integral equation (C99). *)
From Coq Require Import ZArith Reals Lra Lia List Bool.
From Verif Require Import Num Py Validation Utilities Objects Slope Planes Analysis
     Dynamic Api RealNum RealFacts Spec Demo DemoCircle CircleFacts SoilFacts ViewFacts FosFacts
     FosMore StrengthFacts ScaleFacts FosTotal WetFacts FosCode SliceLimit CutFacts CutLimit CutCode CutOneWay
     ExactLimit PropsCut.
Import ListNotations.
Local Open Scope R_scope.

(** [x] is a positive solution of Bishop's equation written with integrals along the base
    instead of sums over slices. *)
Definition bishop_equation (v : view R) (cx r xa xb : R) (rho c t u : R -> R) (x : R) : Prop :=
  0 < x /\
  exists (prP : Riemann_integrable (push (v_udls v) cx r rho) xa xb)
         (prB : Riemann_integrable (bishop_hold (v_udls v) cx r rho c t u x) xa xb),
    x * (RiemannInt prP + line_sum (sin_at cx r) xa xb (v_lls v)) =
    RiemannInt prB + line_sum (fun y => t y / m_at cx r t x y) xa xb (v_lls v).

(** [F n J] is the answer with [n + 2] slices and [J] turns of the iteration; [fn n] is the exact
    solution with [n + 2] slices, [h J] is what [J] turns give when the slices become thin. *)
Theorem C99_exact : forall (EN : Env) (s : st R) v cx cy r a b rho c t u,
  reachable s -> view_of s = Ok v -> some_strength s -> dry v ->
  cuttable v cx cy r a b -> fst b <= cx -> buried (v_geom v) cx cy r a b ->
  along v cx cy r (fst a) (fst b) rho c t u ->
  exists F fn h f,
    (forall n J, bishop (cut (S (S n)) (allow J v)) cx cy r = Ok (Some (F n J)) /\ 0 < F n J) /\
    (forall n, Un_cv (F n) (fn n)) /\ Un_cv fn f /\
    (forall J, Un_cv (fun n => F n J) (h J)) /\ Un_cv h f /\
    (forall x, bishop_equation v cx r (fst a) (fst b) rho c t u x <-> x = f).
Proof.
  intros EN s v cx cy r a b rho c t u RS E SS DV CT BC BU AL. destruct (view_good s v RS E) as (GV & SV & _).
  destruct (push_int v GV cx cy r a b CT rho c t u AL) as [prP].
  pose proof (way_push s v SV cx cy r a b CT BC BU rho c t u AL prP) as PP.
  destruct (exact_limit s v SV SS DV cx cy r a b CT BC BU rho c t u AL prP) as (F & fn & h & f & A & B & C & D & L & T & U).
  exists F, fn, h, f. do 5 (split; [assumption|]). intros x. split.
  - intros (X & prP' & prB & Q). apply U.
    destruct (way_turn s v SV SS DV cx cy r a b CT BC BU rho c t u AL prP x X) as (g & TX & _).
    replace g with x in TX; [exact TX|]. destruct TX as (_ & _ & pr & ->).
    rewrite (RiemannInt_P5 prP' prP), (RiemannInt_P5 prB pr) in Q. rewrite <- Q. field. lra.
  - intros ->. destruct T as (X & _ & pr & Q). split; [exact X|]. exists prP, pr. rewrite Q at 1. field. lra.
Qed.
Print Assumptions C99_exact.

(** There is such a limit for the demo slope: two layers, a strip load, a line load. *)
Example C99_example : forall EN : Env, exists v rho c t u F fn h f,
  reachable (EN := EN) demo4 /\ view_of demo4 = Ok v /\ v_lls v <> [] /\ v_udls v <> [] /\
  (forall n J, bishop (cut (S (S n)) (allow J v)) 12 (29 / 2) (15 / 2) = Ok (Some (F n J)) /\ 0 < F n J) /\
  (forall n, Un_cv (F n) (fn n)) /\ Un_cv fn f /\ (forall J, Un_cv (fun n => F n J) (h J)) /\ Un_cv h f /\
  bishop_equation v 12 (15 / 2) 6 12 rho c t u f.
Proof.
  intros EN. destruct (C92_example EN) as (v & rho & c & t & u & RS & E & SS & DV & L & U & CT & BC & BU & AL).
  destruct (C99_exact EN demo4 v 12 (29 / 2) (15 / 2) (6, 10) (12, 7) rho c t u RS E SS DV CT BC BU AL)
    as (F & fn & h & f & A & B & C & D & H & Q).
  exists v, rho, c, t, u, F, fn, h, f. do 9 (split; [assumption|]). now apply Q.
Qed.
