(** * FloatFellenius: binary64 run in which Bishop's factor is the lower one (C97). *)
From Coq Require Import ZArith List Bool String SpecFloat.
From Verif Require Import Num Py Validation Utilities Objects Slope Planes Analysis
     Dynamic Api FloatNum FloatWitness FloatMore FloatFos.
Import ListNotations.
Local Open Scope Z_scope.

(** One soil of 18 kN/m3, 28 degrees and 6 kPa, no water, no load; the circle round (20, 67)
    with radius 59, which leans one way; the ordinary method, the default iteration and 30 turns without a tolerance *)
Lemma bishop_lower : exists (EN : Env) (s : st float) m,
  reachable s /\ mats_of s = [m] /\ m_cohesion m = f_of_Z 6 /\ m_friction_angle m = f_of_Z 28 /\
  s_water_RL (snd s) = None /\ s_udls (snd s) = [] /\ s_lls (snd s) = [] /\ s_max_iterations (snd s) = 15 /\
  fst (exec (Analyse None) s) = Ok tt /\ fos_turns 0 s = 6454732 /\ micro_fos s = 6453754 /\
  micro_fos (run s [AnalysisOpts None None None (Some (f_lit 1 1000000)) (Some 30)]) = 6453736.
Proof.
  exists plainEnv, (run (EN := plainEnv) (start (fl 3 1) PNone (fl 4 1))
     [ NewMaterial (fl 18 1) (fl 28 1) (fl 6 1) (fl 6 1) PNone PNone; SetMaterials [RefMaterial 0];
       AnalysisOpts (Some 10) None None None None; circle 40 134 118 ]).
  eexists. split; [reach (fl 3 1) (@PNone float) (fl 4 1)|].
  split; [vm_compute; reflexivity|].
  do 7 (split; [vm_compute; reflexivity|]).
  split; [vm_compute; reflexivity|]. split; vm_compute; reflexivity.
Qed.
