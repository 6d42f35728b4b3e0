(** * FloatClose: binary64 run that stops away from the solution (C98). *)
From Coq Require Import ZArith List Bool String SpecFloat.
From Verif Require Import Num Py Validation Utilities Objects Slope Planes Analysis
     Dynamic Api FloatNum FloatWitness FloatMore FloatFos.
Import ListNotations.
Local Open Scope Z_scope.

(** A steep cut of 3 m in half a metre, one sand of 45 degrees, the default iteration: the
    first change is below the tolerance of 0.005, the solution is 0.013 away *)
Lemma stops_early : exists (EN : Env) (s : st float),
  reachable s /\ s_max_iterations (snd s) = 15 /\ micro (s_tolerance (snd s)) = 5000 /\
  fst (exec (Analyse None) s) = Ok tt /\
  fos_turns 0 s = 254490 /\ micro_fos s = 255334 /\
  micro_fos (run s [AnalysisOpts None None None (Some (f_lit 1 10000000)) (Some 1000)]) = 268374.
Proof.
  exists plainEnv, (run (EN := plainEnv) (start (fl 3 1) PNone (fl 1 2))
     [ NewMaterial (fl 18 1) (fl 45 1) (fl 0 1) (fl 6 1) PNone PNone; SetMaterials [RefMaterial 0];
       AnalysisOpts (Some 10) None None None None; circle 32 20 21 ]).
  split; [reach (fl 3 1) (@PNone float) (fl 1 2)|].
  do 5 (split; [vm_compute; reflexivity|]). vm_compute; reflexivity.
Qed.
