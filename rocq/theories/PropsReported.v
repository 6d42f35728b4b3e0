(** * PropsReported: what is true of the factors reported for circles that lean one
    way when the iteration is never cut short (C57, C58). *)
From Coq Require Import ZArith Reals Lra Lia List Bool String Sorted.
From Verif Require Import Num Py Validation Utilities Objects Slope Planes Analysis
     Dynamic Api RealNum RealFacts ListFacts MonadFacts SlopeFacts MaterialFacts
     Invariant History Spec Demo DemoCircle CircleFacts
     PlaneFacts SoilFacts MatInv ViewFacts SearchFacts SliceFacts FosFacts FosMore StrengthFacts
     ScaleFacts FosTotal WetFacts FosCode ReportedFacts.
Import ListNotations.
Local Open Scope R_scope.

(** ** C57: the claim itself is false ([C57_water_raises_refuted]).  It holds when
    every circle is one added by hand that leans one way, every layer has weight and
    some strength, and the tolerance is not positive. *)
Theorem C57_leaning_partial : forall (EN : Env) (s : st R),
  reachable s -> some_strength s -> heavy s -> wet_ok s -> mats_of s <> [] ->
  s_tolerance (snd s) <= 0 -> all_lean s -> no_larger s (step s RemoveWater).
Proof. exact @drained_reported. Qed.
Print Assumptions C57_leaning_partial.
(** what [no_larger] says *)
Theorem C57_meaning_partial : forall (EN : Env) (s s' : st R), no_larger s s' <->
  (exists s1 s1' f f', analyse_slope None s = (Ok tt, s1) /\ analyse_slope None s' = (Ok tt, s1') /\
     get_min_FOS (snd s1) = Ok (Some f) /\ get_min_FOS (snd s1') = Ok (Some f') /\ 0 <= f <= f') /\
  (forall s1 s1' p, analyse_slope None s = (Ok tt, s1) -> analyse_slope None s' = (Ok tt, s1') ->
     In p (s_planes (snd s)) -> exists f f', In (set_fos (Some f) p) (s_search (snd s1)) /\
       In (set_fos (Some f') p) (s_search (snd s1')) /\ 0 <= f <= f').
Proof.
  intros EN s s'. split; [intros [A B]; exact (conj A B)|intros (A & B); exact (Build_no_larger _ _ A B)].
Qed.
Print Assumptions C57_meaning_partial.
(** the wet demo slope with one circle and tolerance zero *)
Example C57_example : forall EN : Env,
  reachable (with_circle demo) /\ s_water_RL (snd (with_circle demo)) = Some 9 /\
  some_strength (with_circle demo) /\ heavy (with_circle demo) /\ wet_ok (with_circle demo) /\
  mats_of (with_circle demo) <> [] /\ s_tolerance (snd (with_circle demo)) <= 0 /\
  all_lean (with_circle demo).
Proof.
  intros EN. split; [apply with_circle_reachable; auto using demo_reachable|].
  split; [reflexivity|]. split; [exact demo_strength|]. split; [apply demo_heavy|].
  split; [exact demo_wet|]. split; [discriminate|]. split; [cbn; lra|].
  now apply with_circle_leans.
Qed.

(** ** C58: the claim itself is false ([C58_cohesion_lowers_refuted]). *)
Theorem C58_leaning_partial : forall (EN : Env) (s s' : st R),
  reachable s -> reachable s' -> reinforced s s' ->
  Forall2 (fun m m' => m_friction_angle m' = m_friction_angle m) (mats_of s) (mats_of s') ->
  some_strength s -> heavy s -> wet_ok s -> mats_of s <> [] ->
  s_tolerance (snd s) <= 0 -> s_tolerance (snd s') <= 0 ->
  s_max_iterations (snd s') = s_max_iterations (snd s) ->
  s_planes (snd s') = s_planes (snd s) -> all_lean s -> no_larger s s'.
Proof. exact @reinforced_reported. Qed.
Print Assumptions C58_leaning_partial.
(** 5 kPa against 9 kPa, both with 30 degrees *)
Example C58_example : forall EN : Env,
  let s := with_circle (bank 5 30) in let s' := with_circle (bank 9 30) in
  reachable s /\ reachable s' /\ reinforced s s' /\
  Forall2 (fun m m' => m_friction_angle m' = m_friction_angle m) (mats_of s) (mats_of s') /\
  some_strength s /\ heavy s /\ wet_ok s /\ mats_of s <> [] /\
  s_tolerance (snd s) <= 0 /\ s_tolerance (snd s') <= 0 /\
  s_max_iterations (snd s') = s_max_iterations (snd s) /\
  s_planes (snd s') = s_planes (snd s) /\ all_lean s.
Proof.
  intros EN s s'.
  split; [apply with_circle_reachable; [apply bank_reachable; lra|reflexivity|reflexivity]|].
  split; [apply with_circle_reachable; [apply bank_reachable; lra|reflexivity|reflexivity]|].
  split; [constructor; try reflexivity; constructor; [|constructor]; repeat split; cbn; try lra|].
  split; [constructor; [reflexivity|constructor]|].
  split; [intros m [ <- | [] ]; cbn; lra|]. split; [intros m [ <- | [] ]; cbn; lra|].
  split; [intros rl Q; discriminate|]. split; [discriminate|].
  split; [cbn; lra|]. split; [cbn; lra|]. split; [reflexivity|]. split; [reflexivity|].
  now apply with_circle_leans.
Qed.
