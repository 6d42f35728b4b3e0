(** * PropsArc: in clay the resistance is the cohesion times the length of the arc (C94). *)
From Coq Require Import ZArith Reals Lra Lia List Bool.
From Verif Require Import Num Py Validation Utilities Objects Slope Planes Analysis
     Dynamic Api RealNum RealFacts Spec Demo DemoCircle CircleFacts SoilFacts SliceFacts ViewFacts FosFacts
     FosMore StrengthFacts ScaleFacts FosTotal WetFacts FosCode SliceLimit CutFacts CutLimit CutCode CutOneWay
     CohesiveFacts ArcFacts.
Import ListNotations.
Local Open Scope R_scope.

(** [ta], [tb]: the angles of the two end points seen from the centre, measured from the
    vertical, so the arc between them is [r * (tb - ta)] long. *)
Theorem C94_length : forall (EN : Env) (s : st R) v k cx cy r a b ta tb,
  reachable s -> view_of s = Ok v -> one_clay k s -> wet_ok s ->
  0 <= cx -> 0 <= cy -> 0 <= r -> end_points (s_geom (snd s)) cx cy r a b ->
  - (PI / 2) < ta < PI / 2 -> - (PI / 2) < tb < PI / 2 ->
  fst a = cx + r * sin ta -> fst b = cx + r * sin tb ->
  exists sl, slices_ok v cx cy r a b sl /\
    let D := rsum (map (fun t => sl_W t * sl_sin t) sl) in
    (D <= 0 -> ordinary v cx cy r a b = Ok None /\ bishop v cx cy r = Ok None) /\
    (0 < D -> exists len,
       ordinary v cx cy r a b = Ok (Some (k * len / D)) /\ bishop v cx cy r = Ok (Some (k * len / D)) /\
       len <= r * (tb - ta) /\
       r * (tb - ta) - (fst b - fst a) / IZR (v_slices v) / 2 * (/ cos ta + / cos tb - 2) <= len).
Proof.
  intros EN s v k cx cy r a b ta tb RS E CL WK D1 D2 D3 EP TA TB XA XB.
  destruct (view_good s v RS E) as (GV & SV & G). rewrite <- G in EP.
  pose proof (one_clay_view k s v SV CL) as CV.
  destruct (clay_value k v GV CV cx cy r a b D1 D2 D3 EP (fits s v SV WK)) as (sl & SO & N & Y).
  exists sl. split; [exact SO|]. split; [exact N|]. intros D. destruct (Y D) as (O & B).
  exists (bases (width v a b) sl). split; [exact O|]. split; [exact B|].
  destruct (clay_bases v GV cx cy r a b D3 EP ta tb TA TB XA XB sl SO) as (L & U). split; [exact U|exact L].
Qed.
Print Assumptions C94_length.

(** More and more slices *)
Theorem C94_limit : forall (EN : Env) (s : st R) v k cx cy r a b ta tb rho c t u
    (prP : Riemann_integrable (push (v_udls v) cx r rho) (fst a) (fst b)),
  reachable s -> view_of s = Ok v -> one_clay k s -> cuttable v cx cy r a b ->
  - (PI / 2) < ta < PI / 2 -> - (PI / 2) < tb < PI / 2 ->
  fst a = cx + r * sin ta -> fst b = cx + r * sin tb ->
  along v cx cy r (fst a) (fst b) rho c t u ->
  let P := RiemannInt prP + line_sum (sin_at cx r) (fst a) (fst b) (v_lls v) in
  0 < P ->
  exists F N, (forall n, (N <= n)%nat -> ordinary (cut (S n) v) cx cy r a b = Ok (Some (F n)) /\
                                         bishop (cut (S n) v) cx cy r = Ok (Some (F n))) /\
    Un_cv F (k * (r * (tb - ta)) / P).
Proof.
  intros EN s v k cx cy r a b ta tb rho c t u prP RS E CL CT TA TB XA XB AL.
  destruct (view_good s v RS E) as (GV & SV & _).
  exact (clay_limit k v GV (one_clay_view k s v SV CL) cx cy r a b CT ta tb TA TB XA XB rho c t u AL prP).
Qed.
Print Assumptions C94_limit.

(** The integral of the resistance along the base is cohesion times arc *)
Theorem C94_integral : forall (EN : Env) (s : st R) v k cx cy r a b ta tb rho c t u
    (prH : Riemann_integrable (hold (v_udls v) cx r rho c t u) (fst a) (fst b)),
  reachable s -> view_of s = Ok v -> one_clay k s -> cuttable v cx cy r a b ->
  - (PI / 2) < ta < PI / 2 -> - (PI / 2) < tb < PI / 2 ->
  fst a = cx + r * sin ta -> fst b = cx + r * sin tb ->
  along v cx cy r (fst a) (fst b) rho c t u ->
  RiemannInt prH + line_sum (fun x => cos_at cx r x * t x) (fst a) (fst b) (v_lls v) = k * (r * (tb - ta)).
Proof.
  intros EN s v k cx cy r a b ta tb rho c t u prH RS E CL CT TA TB XA XB AL.
  destruct (view_good s v RS E) as (GV & SV & _).
  exact (clay_integral k v GV (one_clay_view k s v SV CL) cx cy r a b CT ta tb TA TB XA XB rho c t u AL prH).
Qed.
Print Assumptions C94_integral.

(** The bank of 10 kPa clay and the circle through (6, 10) and (12, 7): the arc is
    [15/2 * asin (4/5)], about 6.95 m; the driving integral is positive. *)
Example C94_example : forall EN : Env, exists v rho c t u
    (prP : Riemann_integrable (push (v_udls v) 12 (15 / 2) rho) 6 12),
  reachable (bank 10 0) /\ view_of (bank 10 0) = Ok v /\ one_clay 10 (bank 10 0) /\ wet_ok (bank 10 0) /\
  end_points (s_geom (snd (bank 10 0))) 12 (29 / 2) (15 / 2) (6, 10) (12, 7) /\
  cuttable v 12 (29 / 2) (15 / 2) (6, 10) (12, 7) /\
  - (PI / 2) < asin (- (4 / 5)) < PI / 2 /\ - (PI / 2) < 0 < PI / 2 /\
  fst (6, 10) = 12 + 15 / 2 * sin (asin (- (4 / 5))) /\ fst (12, 7) = 12 + 15 / 2 * sin 0 /\
  along v 12 (29 / 2) (15 / 2) 6 12 rho c t u /\
  0 < RiemannInt prP + line_sum (sin_at 12 (15 / 2)) 6 12 (v_lls v).
Proof.
  intros EN. assert (RS : reachable (bank 10 0)) by (apply bank_reachable; lra).
  destruct (view_sound (bank 10 0) RS) as (v & E & SV). pose proof (sound_good _ v SV) as GV.
  pose proof (so_geom _ _ SV) as G.
  assert (CL : one_clay 10 (bank 10 0)).
  { split; [lra|]. split; [discriminate|]. intros m [ <- | [] ]. split; reflexivity. }
  assert (LL : v_lls v = []).
  { pose proof (so_lls_eq _ _ SV) as Q. destruct (v_lls v); [reflexivity|discriminate]. }
  assert (EP : end_points (s_geom (snd (bank 10 0))) 12 (29 / 2) (15 / 2) (6, 10) (12, 7)) by exact demo_ends.
  assert (CT : cuttable v 12 (29 / 2) (15 / 2) (6, 10) (12, 7)).
  { constructor; try (rewrite LL; intros l []); try (cbn; lra).
    - exact (proj1 (proj2 (one_clay_view 10 _ v SV CL))).
    - rewrite G. exact EP.
    - intros rl Q. rewrite (so_water _ _ SV) in Q. discriminate.
    - intros l rl m I. rewrite LL in I. destruct I. }
  assert (AL : exists rho c t u, along v 12 (29 / 2) (15 / 2) 6 12 rho c t u).
  { do 4 eexists. apply along_own; [apply GV|]. exact (ct_mats _ _ _ _ _ _ CT). }
  destruct AL as (rho & c & t & u & AL).
  destruct (push_int v GV _ _ _ _ _ CT rho c t u AL) as [prP]. exists v, rho, c, t, u, prP.
  split; [exact RS|]. split; [exact E|]. split; [exact CL|]. split; [intros rl Q; discriminate|].
  split; [exact EP|]. split; [exact CT|]. pose proof PI_RGT_0 as PP.
  split; [apply asin_bound_lt; lra|]. split; [lra|].
  split; [rewrite sin_asin by lra; cbn [fst]; lra|]. split; [rewrite sin_0; cbn [fst]; lra|].
  split; [exact AL|].
  refine (way_push (bank 10 0) v SV 12 (29 / 2) (15 / 2) (6, 10) (12, 7) CT _ _ rho c t u AL prP).
  - cbn [fst]. lra.
  - rewrite G. exact demo_buried.
Qed.
