(** * PropsCut: cutting a circle into more and more slices (C92, C93). *)
From Coq Require Import ZArith Reals Lra Lia List Bool.
From Verif Require Import Num Py Validation Utilities Objects Slope Planes Analysis
     Dynamic Api RealNum RealFacts Spec Demo DemoCircle CircleFacts SoilFacts ViewFacts FosFacts
     FosMore StrengthFacts ScaleFacts FosTotal WetFacts FosCode SliceLimit CutFacts CutLimit CutCode CutOneWay.
Import ListNotations.
Local Open Scope R_scope.

(** [cut n v] is the analysis of the same slope with [n] slices.  The setter only takes 10
    to 500 (C26); the limits are about the computation for any number. *)

(** ** C92: the ordinary method *)
Theorem C92_limit : forall (EN : Env) (s : st R) v cx cy r a b rho c t u,
  reachable s -> view_of s = Ok v -> cuttable v cx cy r a b ->
  along v cx cy r (fst a) (fst b) rho c t u ->
  exists (prP : Riemann_integrable (push (v_udls v) cx r rho) (fst a) (fst b))
         (prH : Riemann_integrable (hold (v_udls v) cx r rho c t u) (fst a) (fst b)),
    let P := RiemannInt prP + line_sum (sin_at cx r) (fst a) (fst b) (v_lls v) in
    let Q := RiemannInt prH + line_sum (fun x => cos_at cx r x * t x) (fst a) (fst b) (v_lls v) in
    (0 < P -> exists F N, (forall n, (N <= n)%nat -> ordinary (cut (S n) v) cx cy r a b = Ok (Some (F n))) /\
       Un_cv F (Q / P)) /\
    (P < 0 -> exists N, forall n, (N <= n)%nat -> ordinary (cut (S n) v) cx cy r a b = Ok None).
Proof.
  intros EN s v cx cy r a b rho c t u RS E CT AL. destruct (view_good s v RS E) as (GV & _ & _).
  destruct (push_int v GV cx cy r a b CT rho c t u AL) as [prP].
  destruct (hold_int v GV cx cy r a b CT rho c t u AL) as [prH].
  exists prP, prH. exact (ordinary_limit v GV cx cy r a b CT rho c t u AL prP prH).
Qed.
Print Assumptions C92_limit.

(** The quantities along the base exist and there is only one choice of them *)
Theorem C92_along : forall (EN : Env) (s : st R) v cx cy r a b,
  reachable s -> view_of s = Ok v -> v_mats v <> [] ->
  (exists rho c t u, along v cx cy r a b rho c t u) /\
  (forall rho c t u rho' c' t' u', along v cx cy r a b rho c t u -> along v cx cy r a b rho' c' t' u' ->
     forall x, a < x < b -> rho x = rho' x /\ c x = c' x /\ t x = t' x /\ u x = u' x).
Proof.
  intros EN s v cx cy r a b RS E MA. destruct (view_good s v RS E) as (GV & _ & _). destruct GV as [_ DS _]. split.
  - do 4 eexists. apply along_own; auto.
  - intros rho c t u rho' c' t' u' A B x X.
    destruct (along_eq v DS MA cx cy r a b _ _ _ _ A x X) as (-> & -> & -> & ->).
    destruct (along_eq v DS MA cx cy r a b _ _ _ _ B x X) as (-> & -> & -> & ->). auto.
Qed.
Print Assumptions C92_along.

(** Circles that lean one way through dry soil: both integrals are positive, so there is a
    factor for every fine enough cut and it has a positive limit. *)
Theorem C92_leaning : forall (EN : Env) (s : st R) v cx cy r a b rho c t u,
  reachable s -> view_of s = Ok v -> some_strength s -> dry v ->
  cuttable v cx cy r a b -> fst b <= cx -> buried (v_geom v) cx cy r a b ->
  along v cx cy r (fst a) (fst b) rho c t u ->
  exists (prP : Riemann_integrable (push (v_udls v) cx r rho) (fst a) (fst b))
         (prH : Riemann_integrable (hold (v_udls v) cx r rho c t u) (fst a) (fst b)) F N,
    let P := RiemannInt prP + line_sum (sin_at cx r) (fst a) (fst b) (v_lls v) in
    let Q := RiemannInt prH + line_sum (fun x => cos_at cx r x * t x) (fst a) (fst b) (v_lls v) in
    0 < P /\ 0 < Q /\
    (forall n, (N <= n)%nat -> ordinary (cut (S n) v) cx cy r a b = Ok (Some (F n))) /\ Un_cv F (Q / P).
Proof.
  intros EN s v cx cy r a b rho c t u RS E SS DV CT BC BU AL. destruct (view_good s v RS E) as (GV & SV & _).
  destruct (push_int v GV cx cy r a b CT rho c t u AL) as [prP].
  destruct (hold_int v GV cx cy r a b CT rho c t u AL) as [prH].
  pose proof (way_push s v SV cx cy r a b CT BC BU rho c t u AL prP) as P0.
  pose proof (way_hold s v SV SS DV cx cy r a b CT BU rho c t u AL prH) as Q0.
  destruct (proj1 (ordinary_limit v GV cx cy r a b CT rho c t u AL prP prH) P0) as (F & N & A & C).
  exists prP, prH, F, N. auto.
Qed.
Print Assumptions C92_leaning.

(** ** C93: Bishop's method.  [f 0, f 1, ...] are the iterates of the integral equation. *)
Theorem C93_limit : forall (EN : Env) (s : st R) v cx cy r a b rho c t u
    (prP : Riemann_integrable (push (v_udls v) cx r rho) (fst a) (fst b))
    (prH : Riemann_integrable (hold (v_udls v) cx r rho c t u) (fst a) (fst b)) (f : nat -> R) J,
  reachable s -> view_of s = Ok v -> cuttable v cx cy r a b ->
  along v cx cy r (fst a) (fst b) rho c t u ->
  0 < RiemannInt prP + line_sum (sin_at cx r) (fst a) (fst b) (v_lls v) ->
  f O = (RiemannInt prH + line_sum (fun x => cos_at cx r x * t x) (fst a) (fst b) (v_lls v)) /
        (RiemannInt prP + line_sum (sin_at cx r) (fst a) (fst b) (v_lls v)) ->
  (forall k, (k < J)%nat -> limit_turn v cx r a b rho c t u prP (f k) (f (S k))) ->
  (forall k, (k <= J)%nat -> 0 < f k) ->
  (* the iteration ends after [J] turns, not exactly at the tolerance *)
  (J <= Z.to_nat (v_max_iterations v))%nat ->
  (forall k, (S k < J)%nat -> v_tolerance v <= 0 \/ v_tolerance v < Rabs (f (S k) - f k)) ->
  ((J < Z.to_nat (v_max_iterations v))%nat -> exists k, J = S k /\ Rabs (f J - f k) < v_tolerance v) ->
  exists F N, (forall n, (N <= n)%nat -> bishop (cut (S n) v) cx cy r = Ok (Some (F n))) /\ Un_cv F (f J).
Proof.
  intros EN s v cx cy r a b rho c t u prP prH f J RS E CT AL PP. destruct (view_good s v RS E) as (GV & _ & _).
  exact (bishop_limit v GV cx cy r a b CT rho c t u AL prP prH PP f J).
Qed.
Print Assumptions C93_limit.

(** Circles that lean one way through dry soil, [J] turns *)
Theorem C93_leaning : forall (EN : Env) (s : st R) v cx cy r a b rho c t u J,
  reachable s -> view_of s = Ok v -> some_strength s -> dry v ->
  cuttable v cx cy r a b -> fst b <= cx -> buried (v_geom v) cx cy r a b ->
  along v cx cy r (fst a) (fst b) rho c t u ->
  exists (prP : Riemann_integrable (push (v_udls v) cx r rho) (fst a) (fst b))
         (prH : Riemann_integrable (hold (v_udls v) cx r rho c t u) (fst a) (fst b)) f F N,
    f O = (RiemannInt prH + line_sum (fun x => cos_at cx r x * t x) (fst a) (fst b) (v_lls v)) /
          (RiemannInt prP + line_sum (sin_at cx r) (fst a) (fst b) (v_lls v)) /\
    (forall k, (k < J)%nat -> limit_turn v cx r a b rho c t u prP (f k) (f (S k))) /\
    (forall k, 0 < f k) /\
    (forall n, (N <= n)%nat -> bishop (cut (S n) (allow J v)) cx cy r = Ok (Some (F n))) /\ Un_cv F (f J).
Proof.
  intros EN s v cx cy r a b rho c t u J RS E SS DV CT BC BU AL. destruct (view_good s v RS E) as (GV & SV & _).
  destruct (push_int v GV cx cy r a b CT rho c t u AL) as [prP].
  destruct (hold_int v GV cx cy r a b CT rho c t u AL) as [prH].
  pose proof (way_push s v SV cx cy r a b CT BC BU rho c t u AL prP) as P0.
  pose proof (way_hold s v SV SS DV cx cy r a b CT BU rho c t u AL prH) as Q0.
  destruct (way_turns s v SV SS DV cx cy r a b CT BC BU rho c t u AL prP _ (Rdiv_lt_0_compat _ _ Q0 P0) J)
    as (f & F0 & T & FP).
  destruct (bishop_limit (allow J v) (good_allow J v GV) cx cy r a b (cuttable_allow J v cx cy r a b CT)
              rho c t u (along_allow J v cx cy r _ _ rho c t u AL) prP prH P0 f J F0 T (fun k _ => FP k))
    as (F & N & A & C).
  - cbn [allow v_max_iterations]. rewrite Nat2Z.id. lia.
  - intros k _. left. cbn [allow v_tolerance]. lra.
  - cbn [allow v_max_iterations]. rewrite Nat2Z.id. lia.
  - exists prP, prH, f, F, N. auto.
Qed.
Print Assumptions C93_leaning.

(** The demo slope has two layers, a strip load and a line load; the circle through (6, 10)
    and (12, 7) passes through both layers. *)
Example C92_example : forall EN : Env, exists v rho c t u,
  reachable (EN := EN) demo4 /\ view_of demo4 = Ok v /\ some_strength demo4 /\ dry v /\
  v_lls v <> [] /\ v_udls v <> [] /\
  cuttable v 12 (29 / 2) (15 / 2) (6, 10) (12, 7) /\ 12 <= 12 /\
  buried (v_geom v) 12 (29 / 2) (15 / 2) (6, 10) (12, 7) /\
  along v 12 (29 / 2) (15 / 2) 6 12 rho c t u.
Proof.
  intros EN. destruct demo4_view as (v & E & SV & G & M & D).
  destruct (proj1 (C92_along EN demo4 v 12 (29 / 2) (15 / 2) 6 12 demo4_reachable E M)) as (rho & c & t & u & AL).
  exists v, rho, c, t, u. split; [apply demo4_reachable|]. split; [exact E|]. split; [apply demo4_strength|].
  split; [exact D|]. split.
  { intros Q. pose proof (so_lls_eq _ _ SV) as L. rewrite Q in L. discriminate. }
  split. { intros Q. pose proof (so_udls_eq _ _ SV) as L. rewrite Q in L. discriminate. }
  split; [now apply demo_cuttable|]. split; [lra|]. split; [rewrite G; apply demo_buried|exact AL].
Qed.
