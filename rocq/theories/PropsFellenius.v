(** * PropsFellenius: the ordinary method and Bishop's method (C97). *)
From Coq Require Import ZArith Reals Lra Lia List Bool String.
From Verif Require Import Num Py Validation Utilities Objects Slope Planes Analysis
     Dynamic Api RealNum RealFacts Spec FloatNum FloatWitness FloatMore FloatFos Demo DemoCircle
     CircleFacts SliceFacts ViewFacts SearchFacts FosFacts FosMore ScaleFacts StrengthFacts FosTotal WetFacts FosCode
     CohesiveFacts Surcharge SurchargeDemo Fellenius FelleniusCode FloatFellenius.
Import ListNotations.
Local Open Scope R_scope.

(** Which of the two methods gives less.  For a circle that leans one way the first turn of
    the iteration decides it for good; in one sand without water the ordinary factor is
    the lower one, without friction they are equal, and in layered soils, or in one soil with cohesion
    and friction, it can be either ([C97_lower_layers], [C97_lower_float]). *)

(** [resisting]: the ordinary resistance, bases in tension left out; [bishop_resisting w F]: the
    resistance with Bishop's normal forces at the factor F *)
Theorem C97_first_turn : forall (EN : Env) (s : st R) v, reachable s -> view_of s = Ok v ->
  some_strength s -> heavy s \/ dry v -> wet_ok s -> mats_of s <> [] ->
  forall cx cy r a b, leaning (s_geom (snd s)) cx cy r a b ->
  forall w sl, slices_of v cx cy r (fst a) (fst b) = Ok (Some (w, sl)) ->
  forall f0 f, ordinary v cx cy r a b = Ok (Some f0) -> 0 < f0 -> bishop v cx cy r = Ok (Some f) ->
  (resisting w sl <= bishop_resisting w f0 sl -> f0 <= f) /\
  (bishop_resisting w f0 sl <= resisting w sl -> f <= f0) /\
  ((0 < s_max_iterations (snd s))%Z ->
     (resisting w sl < bishop_resisting w f0 sl <-> f0 < f) /\
     (bishop_resisting w f0 sl < resisting w sl <-> f < f0)).
Proof. intros EN. exact first_turn. Qed.
Print Assumptions C97_first_turn.

(** The same when no base is in tension, as one sum over the slices:
    [gain w sl F] = sum of sin tan / (F cos + sin tan) * (F W sin - (c l + (W cos - u l) tan)),  l = w / cos *)
Theorem C97_criterion : forall (EN : Env) (s : st R) v, reachable s -> view_of s = Ok v ->
  some_strength s -> heavy s \/ dry v -> wet_ok s -> mats_of s <> [] ->
  forall cx cy r a b, leaning (s_geom (snd s)) cx cy r a b ->
  forall w sl, slices_of v cx cy r (fst a) (fst b) = Ok (Some (w, sl)) ->
  forall f0 f, (forall t, In t sl -> no_tension w t) ->
  ordinary v cx cy r a b = Ok (Some f0) -> 0 < f0 -> bishop v cx cy r = Ok (Some f) ->
  (0 <= gain w sl f0 -> f0 <= f) /\ (gain w sl f0 <= 0 -> f <= f0) /\
  ((0 < s_max_iterations (snd s))%Z -> (0 < gain w sl f0 -> f0 < f) /\ (gain w sl f0 < 0 -> f < f0)).
Proof. intros EN. exact gain_decides. Qed.
Print Assumptions C97_criterion.

(** One friction angle, no cohesion, no water, any unit weights and loads *)
Theorem C97_sand : forall (EN : Env) (s : st R) v phi cx cy r a b, reachable s -> view_of s = Ok v -> dry v ->
  mats_of s <> [] -> 0 < phi <= 90 ->
  (forall m, In m (mats_of s) -> m_cohesion m = 0 /\ m_friction_angle m = phi) ->
  leaning (s_geom (snd s)) cx cy r a b ->
  exists f0 f, ordinary v cx cy r a b = Ok (Some f0) /\ bishop v cx cy r = Ok (Some f) /\
    0 < f0 <= f /\ ((0 < s_max_iterations (snd s))%Z -> f0 < f).
Proof. intros EN. exact sand_both. Qed.
Print Assumptions C97_sand.

(** The lowest factor an analysis of given circles reports is at least the ordinary factor of
    one of those circles *)
Theorem C97_sand_minimum : forall (EN : Env) mx (s s1 : st R) v phi f, reachable s -> view_of s = Ok v -> dry v ->
  0 < phi <= 90 -> (forall m, In m (mats_of s) -> m_cohesion m = 0 /\ m_friction_angle m = phi) ->
  s_planes (snd s) <> [] ->
  (forall p, In p (s_planes (snd s)) -> exists a b, leaning (s_geom (snd s)) (p_cx p) (p_cy p) (p_radius p) a b) ->
  analyse_slope mx s = (Ok tt, s1) -> get_min_FOS (snd s1) = Ok (Some f) ->
  exists p a b f0, In p (s_planes (snd s)) /\ leaning (s_geom (snd s)) (p_cx p) (p_cy p) (p_radius p) a b /\
    ordinary v (p_cx p) (p_cy p) (p_radius p) a b = Ok (Some f0) /\
    bishop v (p_cx p) (p_cy p) (p_radius p) = Ok (Some f) /\ 0 < f0 <= f.
Proof. intros EN. exact sand_min. Qed.
Print Assumptions C97_sand_minimum.

(** No friction: the methods agree for every circle that has a Bishop factor *)
Theorem C97_clay : forall (EN : Env) (s : st R) v cx cy r a b f, reachable s -> view_of s = Ok v -> cohesive s ->
  wet_ok s -> end_points (s_geom (snd s)) cx cy r a b -> bishop v cx cy r = Ok (Some f) ->
  ordinary v cx cy r a b = Ok (Some f).
Proof. intros EN. exact clay_agree. Qed.
Print Assumptions C97_clay.

(** Two soils, in exact arithmetic *)
Theorem C97_lower_layers : forall EN : Env, exists (s : st R) v cx cy r a b f0 f, reachable s /\ view_of s = Ok v /\
  some_strength s /\ heavy s /\ s_water_RL (snd s) = None /\ leaning (s_geom (snd s)) cx cy r a b /\
  ordinary v cx cy r a b = Ok (Some f0) /\ bishop v cx cy r = Ok (Some f) /\ 0 < f < f0.
Proof.
  intros EN. destruct veneer_lower as (v & f0 & f & E & LN & O & B & L).
  exists veneer, v, 12, (29 / 2), (15 / 2), (6, 10), (12, 7), f0, f.
  split; [exact veneer_reachable|]. split; [exact E|]. split; [exact veneer_strength|]. split; [exact veneer_heavy|].
  split; [reflexivity|]. split; [exact LN|]. split; [exact O|]. split; [exact B|exact L].
Qed.
Print Assumptions C97_lower_layers.

(** One soil, in binary64: the ordinary method gives 6.454732, the default iteration
    6.453754 and the converged iteration 6.453736 *)
Theorem C97_lower_float : exists (EN : Env) (s : st float) m,
  reachable s /\ mats_of s = [m] /\ m_cohesion m = f_of_Z 6 /\ m_friction_angle m = f_of_Z 28 /\
  s_water_RL (snd s) = None /\ s_udls (snd s) = [] /\ s_lls (snd s) = [] /\ s_max_iterations (snd s) = 15%Z /\
  fst (exec (Analyse None) s) = Ok tt /\ fos_turns 0 s = 6454732%Z /\ micro_fos s = 6453754%Z /\
  micro_fos (run s [AnalysisOpts None None None (Some (f_lit 1 1000000)) (Some 30%Z)]) = 6453736%Z.
Proof. exact bishop_lower. Qed.
Print Assumptions C97_lower_float.

(** *** The hypotheses can be met *)
(** 30 degrees on the demo slope and its circle through (6, 10) and (12, 7) *)
Lemma sand_demo (EN : Env) : leaning (s_geom (snd (bank 0 30))) 12 (29 / 2) (15 / 2) (6, 10) (12, 7) /\
  mats_of (bank 0 30) <> [] /\
  (forall m, In m (mats_of (bank 0 30)) -> m_cohesion m = 0 /\ m_friction_angle m = 30) /\
  s_water_RL (snd (bank 0 30)) = None.
Proof.
  split; [constructor; try lra; [exact demo_ends|cbn; lra|exact demo_buried]|]. split; [discriminate|].
  split; [|reflexivity]. intros m [ <- |[]]. split; reflexivity.
Qed.
Example C97_sand_example : forall EN : Env, exists v f0 f, reachable (bank 0 30) /\ view_of (bank 0 30) = Ok v /\
  ordinary v 12 (29 / 2) (15 / 2) (6, 10) (12, 7) = Ok (Some f0) /\ bishop v 12 (29 / 2) (15 / 2) = Ok (Some f) /\ 0 < f0 < f.
Proof.
  intros EN. assert (RS : reachable (bank 0 30)) by (apply bank_reachable; lra).
  destruct (view_sound _ RS) as (v & E & SV). destruct (sand_demo EN) as (LN & NE & ONE & WN).
  destruct (C97_sand EN (bank 0 30) v 30 12 (29 / 2) (15 / 2) (6, 10) (12, 7) RS E) as (f0 & f & O & B & L & ST); auto; [|lra|].
  { left. rewrite (so_water _ _ SV). exact WN. }
  exists v, f0, f. repeat split; auto; [lra|]. apply ST. cbn. lia.
Qed.
Example C97_sand_minimum_example : forall EN : Env, exists f s1 p a b f0 v, reachable (with_arc (bank 0 30)) /\
  analyse_slope None (with_arc (bank 0 30)) = (Ok tt, s1) /\ get_min_FOS (snd s1) = Ok (Some f) /\
  view_of (with_arc (bank 0 30)) = Ok v /\
  ordinary v (p_cx p) (p_cy p) (p_radius p) a b = Ok (Some f0) /\ 0 < f0 <= f.
Proof.
  intros EN. assert (RS : reachable (with_arc (bank 0 30))) by (apply arc_reachable; lra).
  destruct (view_sound _ RS) as (v & E & SV). destruct (sand_demo EN) as (LN & NE & ONE & WN).
  assert (DV : dry v) by (left; rewrite (so_water _ _ SV); exact WN).
  destruct (C97_sand EN (with_arc (bank 0 30)) v 30 _ _ _ _ _ RS E DV NE ltac:(lra) ONE LN) as (f0 & f & O & B & L & _).
  destruct (clay_analysed _ v f E eq_refl B) as (s1 & A & G).
  destruct (C97_sand_minimum EN None (with_arc (bank 0 30)) s1 v 30 f RS E DV ltac:(lra) ONE ltac:(discriminate)) as
    (p & a & b & f1 & _ & _ & O1 & _ & L1); auto.
  { intros p [ <- |[]]. exists (6, 10), (12, 7). exact LN. }
  exists f, s1, p, a, b, f1, v. repeat (split; [assumption|]). exact L1.
Qed.
(** [C97_criterion] is what the proof of [C97_lower_layers] applies; [C97_clay]: *)
Example C97_clay_example : forall EN : Env, exists v f, reachable clay3 /\ view_of clay3 = Ok v /\ cohesive clay3 /\
  bishop v 12 (29 / 2) (15 / 2) = Ok (Some f) /\ ordinary v 12 (29 / 2) (15 / 2) (6, 10) (12, 7) = Ok (Some f) /\ 0 < f.
Proof.
  intros EN. destruct (view_sound clay3 clay3_reachable) as (v & E & SV).
  assert (WK : wet_ok clay3) by discriminate.
  assert (SS : some_strength clay3) by (intros m [ <- | [] ]; cbn; lra).
  assert (LV : leaning (v_geom v) 12 (29 / 2) (15 / 2) (6, 10) (12, 7)).
  { rewrite (so_geom _ _ SV). constructor; try lra; [exact demo_ends|cbn; lra|exact demo_buried]. }
  assert (DV : dry v) by (left; exact (so_water _ _ SV)).
  destruct (leaning_factor clay3 v _ _ _ _ _ clay3_reachable E SS (or_intror DV) LV WK ltac:(discriminate)) as (f & B & _ & P).
  exists v, f. split; [exact clay3_reachable|]. split; [exact E|]. split; [exact clay_cohesive|]. split; [exact B|].
  split; [|auto]. apply (C97_clay EN clay3 v _ _ _ _ _ f clay3_reachable E clay_cohesive WK demo_ends B).
Qed.
