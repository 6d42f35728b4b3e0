(** * FloatLevel: binary64 run in which a higher water table gives more safety (C91). *)
From Coq Require Import ZArith List Bool String SpecFloat.
From Verif Require Import Num Py Validation Utilities Objects Slope Planes Analysis
     Dynamic Api FloatNum FloatWitness FloatMore FloatFos.
Import ListNotations.
Local Open Scope Z_scope.

(** 30 degrees with 2 and 5 kPa, every option but the number of slices as it comes; the
    water 0.53 m and 0.52 m below the crest; the default iteration and the ordinary method *)
Lemma level_raises : exists (EN : Env) (s : st float),
  reachable s /\ s_max_iterations (snd s) = 15 /\
  fst (exec (SetWater (fl 53 100)) s) = Ok tt /\ fst (exec (SetWater (fl 52 100)) s) = Ok tt /\
  fst (exec (Analyse None) (step s (SetWater (fl 53 100)))) = Ok tt /\
  fst (exec (Analyse None) (step s (SetWater (fl 52 100)))) = Ok tt /\
  0 < micro_fos (step s (SetWater (fl 53 100))) < 979000 /\
  1016000 < micro_fos (step s (SetWater (fl 52 100))) /\
  0 < fos_turns 0 (step s (SetWater (fl 53 100))) < 921000 /\
  959000 < fos_turns 0 (step s (SetWater (fl 52 100))).
Proof.
  exists plainEnv, (layered_bank (EN := plainEnv) 30 2 30 5 [circle 24 29 15]).
  split; [unfold layered_bank; reach (fl 3 1) (@PNone float) (fl 4 1)|].
  do 5 (split; [vm_compute; reflexivity|]). split; [split; vm_compute; reflexivity|].
  split; [vm_compute; reflexivity|]. split; [split; vm_compute; reflexivity|]. vm_compute; reflexivity.
Qed.
