(** * FloatFos: binary64 runs that contradict a stated property of the factor
    (C25, C43, C46, C47). *)
From Coq Require Import ZArith List Bool String SpecFloat.
From Verif Require Import Num Py Validation Utilities Objects Slope Planes Analysis
     Dynamic Api FloatNum FloatWitness FloatMore.
Import ListNotations.
Local Open Scope Z_scope.

Section Runs.
  Context {EN : Env}.
  (** 3 m high, 4 m long (crest edge (8, 10), toe (12, 7)); two layers of
      20 kN/m3 meeting at the level 4; 10 slices, the default tolerance of
      0.005 and the default limit of 15 turns. *)
  Definition layered_bank (phi1 c1 phi2 c2 : Z) (ops : list (op float)) : st float :=
    run (start (fl 3 1) PNone (fl 4 1))
        ([ NewMaterial (fl 20 1) (fl phi1 1) (fl c1 1) (fl 6 1) PNone PNone;
           NewMaterial (fl 20 1) (fl phi2 1) (fl c2 1) (fl 10 1) PNone PNone;
           SetMaterials [RefMaterial 0; RefMaterial 1];
           AnalysisOpts (Some 10) None None None None ] ++ ops).
  Definition circle (x y r : Z) : op float := AddCircle (f_lit x 2) (f_lit y 2) (f_lit r 2).
  (** the factor after a changed limit on the number of turns *)
  Definition fos_turns (k : Z) (s : st float) : Z :=
    micro_fos (run s [AnalysisOpts None None None None (Some k)]).
End Runs.

(** C43: the iteration runs in a circle of two values. *)
Lemma no_convergence : exists (EN : Env) (s : st float) p,
  reachable s /\ s_planes (snd s) = [p] /\
  s_max_iterations (snd s) = 15 /\ micro (s_tolerance (snd s)) = 5000 /\
  fst (exec (Analyse None) s) = Ok tt /\
  micro_fos s = 1517548 /\ fos_turns 14 s = 487259 /\ fos_turns 16 s = 487202.
Proof.
  exists plainEnv, (layered_bank (EN := plainEnv) 45 0 10 1 [SetWater (fl 2 1); WaterOpts false (fl 1 1); circle 25 15 12]).
  eexists.
  split; [unfold layered_bank; reach (fl 3 1) (@PNone float) (fl 4 1)|].
  do 4 (split; [vm_compute; reflexivity|]).
  do 2 (split; [vm_compute; reflexivity|]). vm_compute; reflexivity.
Qed.

(** C25: converged factors, more with water than without *)
Lemma water_raises : exists (EN : Env) (s : st float),
  reachable s /\ s_water_RL (snd s) = None /\
  fst (exec (SetWater (fl 3 1)) s) = Ok tt /\
  fst (exec (Analyse None) s) = Ok tt /\
  fst (exec (Analyse None) (step s (SetWater (fl 3 1)))) = Ok tt /\
  micro_fos s < 756000 /\ 857000 < micro_fos (step s (SetWater (fl 3 1))).
Proof.
  exists plainEnv, (layered_bank (EN := plainEnv) 50 0 0 10 [circle 24 18 14]).
  split; [unfold layered_bank; reach (fl 3 1) (@PNone float) (fl 4 1)|].
  do 4 (split; [vm_compute; reflexivity|]). split; vm_compute; reflexivity.
Qed.

(** C46: 10 kPa more cohesion in the upper layer, converged factors *)
Lemma cohesion_lowers : exists (EN : Env) (s s' : st float) ops,
  s = layered_bank 50 10 0 5 ops /\ s' = layered_bank 50 20 0 5 ops /\
  reachable s /\ reachable s' /\
  fst (exec (Analyse None) s) = Ok tt /\ fst (exec (Analyse None) s') = Ok tt /\
  micro_fos s' < 332000 /\ 3446000 < micro_fos s.
Proof.
  exists plainEnv. do 2 eexists. exists [SetWater (fl 2 1); circle 16 18 13].
  split; [reflexivity|]. split; [reflexivity|].
  split; [unfold layered_bank; reach (fl 3 1) (@PNone float) (fl 4 1)|].
  split; [unfold layered_bank; reach (fl 3 1) (@PNone float) (fl 4 1)|].
  do 2 (split; [vm_compute; reflexivity|]). split; vm_compute; reflexivity.
Qed.

(** C47: no cohesion, no friction *)
Lemma strengthless_nan : exists (EN : Env) (s : st float) m,
  reachable s /\ mats_of s = [m] /\ m_cohesion m = f_of_Z 0 /\ m_friction_angle m = f_of_Z 0 /\
  s_max_iterations (snd s) = 15 /\
  fst (exec (Analyse None) s) = Err NanProduced /\ fos_turns 0 s = 0.
Proof.
  exists plainEnv, (run (EN := plainEnv) (start (fl 3 1) PNone (fl 4 1))
     [ NewMaterial (fl 20 1) (fl 0 1) (fl 0 1) (fl 6 1) PNone PNone; SetMaterials [RefMaterial 0];
       AnalysisOpts (Some 10) None None None None; arc ]).
  eexists.
  split; [reach (fl 3 1) (@PNone float) (fl 4 1)|].
  repeat (split; [vm_compute; reflexivity|]). vm_compute. reflexivity.
Qed.
