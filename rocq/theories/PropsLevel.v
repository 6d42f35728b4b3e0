(** * PropsLevel: two water levels in the same slope (C91). *)
From Coq Require Import ZArith Reals Lra Lia List Bool String.
From Verif Require Import Num Py Validation Utilities Objects Slope Planes Analysis
     Dynamic Api RealNum RealFacts MonadFacts History EditFacts Spec FloatNum FloatWitness FloatMore FloatFos
     Demo DemoCircle CircleFacts ViewFacts FosFacts FosMore StrengthFacts FosTotal WetFacts FosCode
     SearchFacts WaterLevel FloatLevel.
Import ListNotations.
Local Open Scope R_scope.

(** The full claim: with the water table [d] below the crest the factor of a circle is no
    larger than with the water table [d' >= d] below it.  It is false (C91_raises_refuted):
    where the face is under water the pressure is multiplied by the factor H, elsewhere it
    is not, so a level that rises past the middle of a slice lowers the pressure there.
    It holds when H = 1, or when neither level reaches above the toe. *)
Definition unreduced (s : st R) (d : R) : Prop :=
  s_water_H (snd s) = 1 \/ snd (g_top (s_geom (snd s))) - d <= snd (g_bot (s_geom (snd s))).

Theorem C91_ordinary_partial : forall (EN : Env) (s : st R) x d x' d' v v' cx cy r a b,
  reachable s -> denotes x d -> denotes x' d' -> 0 <= d <= d' -> unreduced s d -> friction_90 s ->
  view_of (step s (SetWater x)) = Ok v -> view_of (step s (SetWater x')) = Ok v' ->
  0 <= cx -> 0 <= cy -> 0 <= r -> end_points (s_geom (snd s)) cx cy r a b ->
  fst (exec (SetWater x) s) = Ok tt /\ fst (exec (SetWater x') s) = Ok tt /\
  ((ordinary v cx cy r a b = Ok None /\ ordinary v' cx cy r a b = Ok None) \/
   (exists f f', ordinary v cx cy r a b = Ok (Some f) /\ ordinary v' cx cy r a b = Ok (Some f') /\
      f <= f')).
Proof.
  intros EN s x d x' d' v v' cx cy r a b RS D D' L U F E E' D1 D2 D3 EP.
  destruct (levels_lowered s x d x' d' RS D D' L U) as (A & A' & LW).
  split; [now rewrite A|]. split; [now rewrite A'|].
  destruct (set_water_keeps s x) as (G & M).
  apply (ordinary_lowered _ _ v v' cx cy r a b (reachable_step (SetWater x) s RS)
           (reachable_step (SetWater x') s RS) LW); auto.
  - intros m. rewrite M. apply F.
  - now rewrite G.
Qed.
Print Assumptions C91_ordinary_partial.

(** One turn of Bishop's iteration from the same value, denominators positive *)
Theorem C91_step_partial : forall (EN : Env) (s : st R) x d x' d' v v' cx cy r a b w sl w' sl' F G G',
  reachable s -> denotes x d -> denotes x' d' -> 0 <= d <= d' -> unreduced s d -> friction_90 s ->
  view_of (step s (SetWater x)) = Ok v -> view_of (step s (SetWater x')) = Ok v' ->
  0 <= r -> end_points (s_geom (snd s)) cx cy r a b ->
  slices_of v cx cy r (fst a) (fst b) = Ok (Some (w, sl)) ->
  slices_of v' cx cy r (fst a) (fst b) = Ok (Some (w', sl')) ->
  (forall t, In t sl -> 0 < sl_cos t + sl_sin t * sl_tan t / F) ->
  bishop_step w sl F = Ok (Some G) -> bishop_step w' sl' F = Ok (Some G') -> G <= G'.
Proof.
  intros EN s x d x' d' v v' cx cy r a b w sl w' sl' F G G' RS D D' L U FR E E' D3 EP.
  destruct (levels_lowered s x d x' d' RS D D' L U) as (_ & _ & LW).
  destruct (set_water_keeps s x) as (GE & M).
  apply (turn_lowered _ _ v v' cx cy r a b w sl w' sl' F G G' (reachable_step (SetWater x) s RS)
           (reachable_step (SetWater x') s RS) LW); auto.
  - intros m. rewrite M. apply FR.
  - now rewrite GE.
Qed.
Print Assumptions C91_step_partial.

(** Circles that lean one way, soil heavier than water: the factor the code gives with any
    number of turns, and the limit *)
Theorem C91_leaning_partial : forall (EN : Env) (s : st R) x d x' d' v v' cx cy r a b,
  reachable s -> denotes x d -> denotes x' d' -> 0 <= d <= d' -> unreduced s d ->
  some_strength s -> heavy s -> mats_of s <> [] ->
  view_of (step s (SetWater x)) = Ok v -> view_of (step s (SetWater x')) = Ok v' ->
  leaning (s_geom (snd s)) cx cy r a b ->
  exists F F', (forall n, bishop (allow n v) cx cy r = Ok (Some (F n)) /\
                          bishop (allow n v') cx cy r = Ok (Some (F' n)) /\
                          0 <= F n <= F' n) /\
    exists f f', Un_cv F f /\ Un_cv F' f' /\ 0 <= f <= f'.
Proof.
  intros EN s x d x' d' v v' cx cy r a b RS D D' L U SS HV NE E E' LN.
  destruct (levels_lowered s x d x' d' RS D D' L U) as (_ & _ & LW).
  destruct (set_water_keeps s x) as (GE & M).
  apply (lowered_answers _ _ v v' cx cy r a b (reachable_step (SetWater x) s RS)
           (reachable_step (SetWater x') s RS) LW); auto.
  - intros m. rewrite M. apply SS.
  - intros m. rewrite M. apply HV.
  - now rewrite M.
  - now rewrite GE.
Qed.
Print Assumptions C91_leaning_partial.

(** The reported minimum when the ordinary method is chosen *)
Theorem C91_minimum_partial : forall (EN : Env) m (s s1 s2 : st R) x d x' d' f f',
  reachable s -> denotes x d -> denotes x' d' -> 0 <= d <= d' -> unreduced s d -> friction_90 s ->
  (s_max_iterations (snd s) <= 0)%Z ->
  exec (Analyse m) (step s (SetWater x)) = (Ok tt, s1) -> exec (Analyse m) (step s (SetWater x')) = (Ok tt, s2) ->
  get_min_FOS (snd s1) = Ok (Some f) -> get_min_FOS (snd s2) = Ok (Some f') -> f <= f'.
Proof.
  intros EN m s s1 s2 x d x' d' f f' RS D D' L U FR K A1 A2.
  destruct (levels_lowered s x d x' d' RS D D' L U) as (X & _ & LW).
  destruct (set_water_keeps s x) as (_ & M).
  apply (minimum_lowered m _ _ s1 s2 f f' (reachable_step (SetWater x) s RS)
           (reachable_step (SetWater x') s RS) LW); auto.
  - intros n. rewrite M. apply FR.
  - now rewrite set_water_turns.
Qed.
Print Assumptions C91_minimum_partial.

(** A water table one centimetre higher, and four hundredths more safety *)
Theorem C91_raises_refuted : exists (EN : Env) (s : st float),
  reachable s /\ s_max_iterations (snd s) = 15%Z /\
  fst (exec (SetWater (fl 53 100)) s) = Ok tt /\ fst (exec (SetWater (fl 52 100)) s) = Ok tt /\
  fst (exec (Analyse None) (step s (SetWater (fl 53 100)))) = Ok tt /\
  fst (exec (Analyse None) (step s (SetWater (fl 52 100)))) = Ok tt /\
  (0 < micro_fos (step s (SetWater (fl 53 100))) < 979000)%Z /\
  (1016000 < micro_fos (step s (SetWater (fl 52 100))))%Z /\
  (0 < fos_turns 0 (step s (SetWater (fl 53 100))) < 921000)%Z /\
  (959000 < fos_turns 0 (step s (SetWater (fl 52 100))))%Z.
Proof. exact level_raises. Qed.
Print Assumptions C91_raises_refuted.

(** The demo slope with H = 1, the water 1 m and 2 m below the crest *)
Example C91_example : forall EN : Env,
  reachable demo_full /\ unreduced demo_full 1 /\ some_strength demo_full /\ friction_90 demo_full /\
  heavy demo_full /\ mats_of demo_full <> [] /\
  leaning (s_geom (snd demo_full)) 12 (29 / 2) (15 / 2) (6, 10) (12, 7) /\
  end_points (s_geom (snd demo_full)) 12 (29 / 2) (15 / 2) (6, 10) (12, 7) /\
  denotes (PFloat 1 : pyval R) 1 /\ denotes (PFloat 2 : pyval R) 2 /\
  exists v v', view_of (step demo_full (SetWater (PFloat 1))) = Ok v /\
               view_of (step demo_full (SetWater (PFloat 2))) = Ok v'.
Proof.
  intros EN. destruct demo_full_state as (_ & _ & G & _ & H1 & M).
  assert (RS : reachable demo_full) by apply (reachable_step (WaterOpts false (PFloat 1)) demo4 demo4_reachable).
  split; auto. split; [now left|].
  assert (SS : some_strength demo_full) by (intros m; rewrite M; apply demo4_strength).
  split; auto. split; [now apply some_friction|].
  split; [intros m; rewrite M; apply demo_heavy|]. split; [rewrite M; discriminate|].
  rewrite G. split; [exact demo_leaning|]. split; [exact demo_ends|]. split; [reflexivity|]. split; [reflexivity|].
  destruct (view_sound _ (reachable_step (SetWater (PFloat 1)) _ RS)) as (v & E & _).
  destruct (view_sound _ (reachable_step (SetWater (PFloat 2)) _ RS)) as (v' & E' & _). eauto.
Qed.
