(** * PropsClose: how far a reported factor is from the exact solution (C98). *)
From Coq Require Import ZArith Reals Lra Lia List Bool String.
From Verif Require Import Num Py Validation Utilities Objects Slope Planes Analysis
     Dynamic Api RealNum RealFacts Spec FloatNum FloatWitness FloatMore FloatFos Demo DemoCircle
     CircleFacts SliceFacts ViewFacts SearchFacts FosFacts FosMore ScaleFacts StrengthFacts FosTotal WetFacts FosCode
     Surcharge SurchargeDemo Fellenius FelleniusCode CloseFacts CloseCode FloatClose.
Import ListNotations.
Local Open Scope R_scope.

(** [entry_steepness s cx cy a k]: for every soil, tan phi times the slope of the circle at its
    entry [a], (cx - x) / |cy - y|, is at most k.  [solves w sl f]: f > 0 satisfies Bishop's equation
      sum of (c w + (W - u w) tan) / (cos + sin tan / f) = f * sum of W sin. *)

(** For a circle that leans one way the answers for 0, 1, 2, ... turns tend to a limit, which
    is the only solution if it is not zero; every turn divides the distance from it by
    at least 1 + F / k. *)
Theorem C98_rate : forall (EN : Env) (s : st R) v, reachable s -> view_of s = Ok v ->
  some_strength s -> heavy s \/ dry v -> wet_ok s -> mats_of s <> [] ->
  forall cx cy r a b, leaning (s_geom (snd s)) cx cy r a b ->
  forall w sl, slices_of v cx cy r (fst a) (fst b) = Ok (Some (w, sl)) ->
  forall k f0, entry_steepness s cx cy a k -> ordinary v cx cy r a b = Ok (Some f0) -> 0 < f0 ->
  exists F f, (forall n, bishop (allow n v) cx cy r = Ok (Some (F n)) /\ 0 < F n) /\ F 0%nat = f0 /\
    Un_cv F f /\ 0 <= f /\ (0 < f -> solves w sl f) /\ (forall x, solves w sl x -> x = f) /\
    (forall n, Rabs (F (S n) - f) <= k / (F n + k) * Rabs (F n - f)) /\
    (forall n, Rabs (F n - f) <= (k / (Rmin f0 f + k)) ^ n * Rabs (f0 - f)) /\
    (forall n, F n * Rabs (F (S n) - f) <= k * Rabs (F (S n) - F n)).
Proof. intros EN. exact close_code. Qed.
Print Assumptions C98_rate.

(** The factor the code reports: it is the value after the last permitted turn, or its
    distance from the limit is at most k / F times the last change, F being the value before; so it
    is within the tolerance if k is at most the ordinary factor and the reported one. *)
Theorem C98_reported : forall (EN : Env) (s : st R) v, reachable s -> view_of s = Ok v ->
  some_strength s -> heavy s \/ dry v -> wet_ok s -> mats_of s <> [] ->
  forall cx cy r a b, leaning (s_geom (snd s)) cx cy r a b ->
  forall w sl, slices_of v cx cy r (fst a) (fst b) = Ok (Some (w, sl)) ->
  forall k f0 g, entry_steepness s cx cy a k -> ordinary v cx cy r a b = Ok (Some f0) -> 0 < f0 ->
  bishop v cx cy r = Ok (Some g) ->
  exists F f, (forall n, bishop (allow n v) cx cy r = Ok (Some (F n))) /\ Un_cv F f /\
    (g = F (Z.to_nat (s_max_iterations (snd s))) \/
     exists n, (S n < Z.to_nat (s_max_iterations (snd s)))%nat /\ g = F (S n) /\ Rabs (g - F n) < s_tolerance (snd s) /\
       Rmin f0 g <= F n /\ F n * Rabs (g - f) <= k * Rabs (g - F n) /\
       (k <= Rmin f0 g -> Rabs (g - f) < s_tolerance (snd s))).
Proof. intros EN. exact close_reported. Qed.
Print Assumptions C98_reported.

(** Without the condition on k the reported factor need not be within the tolerance: a cut of 3 m in half
    a metre reports 0.255334, the solution is 0.268374, the tolerance 0.005 *)
Theorem C98_early_stop : exists (EN : Env) (s : st float),
  reachable s /\ s_max_iterations (snd s) = 15%Z /\ micro (s_tolerance (snd s)) = 5000%Z /\
  fst (exec (Analyse None) s) = Ok tt /\
  fos_turns 0 s = 254490%Z /\ micro_fos s = 255334%Z /\
  micro_fos (run s [AnalysisOpts None None None (Some (f_lit 1 10000000)) (Some 1000%Z)]) = 268374%Z.
Proof. exact stops_early. Qed.
Print Assumptions C98_early_stop.

(** *** The hypotheses can be met: 45 degrees and 10 kPa on the demo slope, k = 4/3 *)
Example C98_rate_example : forall EN : Env, exists v w sl F f, reachable (bank 10 45) /\ view_of (bank 10 45) = Ok v /\
  slices_of v 12 (29 / 2) (15 / 2) 6 12 = Ok (Some (w, sl)) /\
  (forall n, bishop (allow n v) 12 (29 / 2) (15 / 2) = Ok (Some (F n))) /\ Un_cv F f /\
  (forall n, F n * Rabs (F (S n) - f) <= 4 / 3 * Rabs (F (S n) - F n)).
Proof.
  intros EN. assert (RS : reachable (bank 10 45)) by (apply bank_reachable; lra).
  destruct (view_sound _ RS) as (v & E & SV). pose proof (sound_good _ v SV) as GV. pose proof (so_geom _ _ SV) as G.
  assert (LN : leaning (s_geom (snd (bank 10 45))) 12 (29 / 2) (15 / 2) (6, 10) (12, 7)).
  { constructor; try lra; [exact demo_ends|cbn; lra|exact demo_buried]. }
  assert (LV : leaning (v_geom v) 12 (29 / 2) (15 / 2) (6, 10) (12, 7)) by now rewrite G.
  assert (SS : some_strength (bank 10 45)) by (intros m [ <- | [] ]; cbn; lra).
  assert (DV : dry v) by (left; exact (so_water _ _ SV)). assert (WK : wet_ok (bank 10 45)) by discriminate.
  destruct (water_total v (gv_geom v GV) (fits _ v SV WK)) as (o & WD).
  assert (RP0 : 0 < 15 / 2) by lra.
  destruct (slices_at v GV _ _ _ _ _ o RP0 (ln_ends _ _ _ _ _ _ LV) WD) as [(M & _)|(sl & S1 & _)].
  { exfalso. pose proof (so_mats_eq _ _ SV) as Q. rewrite M in Q. discriminate. }
  destruct (lean_facts _ v RS E SS (or_intror DV) WK ltac:(discriminate) _ _ _ _ _ LN _ sl S1)
    as (_ & _ & _ & _ & _ & EW & SO & D & _ & _ & O).
  destruct (leaning_slices _ v _ _ _ _ _ SV SS (or_intror DV) LV WK ltac:(discriminate)) as (sl0 & SO0 & _ & _ & _ & _ & RD & _).
  rewrite (FosFacts.slices_det _ _ _ _ _ _ _ _ SO0 SO) in RD. specialize (RD DV).
  destruct (C98_rate EN _ v RS E SS (or_intror DV) WK ltac:(discriminate) _ _ _ _ _ LN _ sl S1 (4 / 3) (resisting (width v (6, 10) (12, 7)) sl / driving sl)) as
    (F & f & A & _ & C & _ & _ & _ & _ & _ & ER); [|exact O|now apply Rdiv_lt_0_compat|].
  { split; [lra|]. intros m [ <- | [] ]. cbn -[tan PI]. split; [lra|]. replace (45 * (PI / 180)) with (PI / 4) by field.
    rewrite tan_PI4. rewrite Rabs_pos_eq; lra. }
  exists v, (width v (6, 10) (12, 7)), sl, F, f. split; [exact RS|]. split; [exact E|]. split; [exact S1|].
  split; [intros n; apply (A n)|]. split; [exact C|exact ER].
Qed.
