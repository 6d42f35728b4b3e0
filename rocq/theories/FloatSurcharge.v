(** * FloatSurcharge: binary64 run in which a load on the crest gives more safety (C95). *)
From Coq Require Import ZArith List Bool String SpecFloat.
From Verif Require Import Num Py Validation Utilities Objects Slope Planes Analysis
     Dynamic Api FloatNum FloatWitness FloatMore FloatFos.
Import ListNotations.
Local Open Scope Z_scope.

(** One soil of 35 degrees and 2 kPa; the circle round (8.5, 14) with radius 7; 100 kPa on
    the metre next to the crest edge; the default iteration and the ordinary method *)
Lemma load_raises : exists (EN : Env) (s : st float),
  reachable s /\ s_udls (snd s) = [] /\ s_lls (snd s) = [] /\ s_max_iterations (snd s) = 15 /\
  fst (exec (SetUdls [RefUdl 0]) s) = Ok tt /\
  s_geom (snd (step s (SetUdls [RefUdl 0]))) = s_geom (snd s) /\
  s_udls (snd (step s (SetUdls [RefUdl 0]))) = [0%nat] /\
  fst (exec (Analyse None) s) = Ok tt /\
  fst (exec (Analyse None) (step s (SetUdls [RefUdl 0]))) = Ok tt /\
  0 < micro_fos s < 3700000 /\ 3900000 < micro_fos (step s (SetUdls [RefUdl 0])) /\
  0 < fos_turns 0 s < 3410000 /\ 3690000 < fos_turns 0 (step s (SetUdls [RefUdl 0])).
Proof.
  exists plainEnv, (bank (EN := plainEnv) [AnalysisOpts (Some 10) None None None None; circle 17 28 14;
    NewUdl (fl 100 1) (fl 0 1) (fl 1 1) "red" false]).
  split; [unfold bank; reach (fl 3 1) (@PNone float) (fl 4 1)|].
  do 8 (split; [vm_compute; reflexivity|]). split; [split; vm_compute; reflexivity|].
  split; [vm_compute; reflexivity|]. split; [split; vm_compute; reflexivity|]. vm_compute; reflexivity.
Qed.
