(** * FloatSplit: a strip load drawn as two strips, and the automatic search (C96). *)
From Coq Require Import ZArith List Bool String SpecFloat.
From Verif Require Import Num Py Validation Utilities Objects Slope Planes Analysis
     Dynamic Api ShareFacts FloatNum FloatWitness FloatMore FloatFos.
Import ListNotations.
Local Open Scope Z_scope.

(** 20 kPa between x = 5.5 and x = 7, as one strip and as [6, 7] and [5.5, 6] *)
Definition strips : list (op float) :=
  [ NewUdl (fl 20 1) (fl 1 1) (fl 3 2) "red" false;
    NewUdl (fl 20 1) (fl 1 1) (fl 1 1) "red" false;
    NewUdl (fl 20 1) (fl 2 1) (fl 1 2) "red" false ].
Definition narrow : list (op float) :=
  [ SetLimits (fl 78 10) (fl 13 1) (fl 79 10) (fl 85 10);
    AnalysisOpts (Some 10) (Some 500) (Some (f_lit 76 10)) None None ].
Lemma split_changes_search : exists (EN : Env) (s s' : st float),
  reachable s /\ reachable s' /\
  slope_numbers (snd s') = slope_numbers (snd s) /\ s_planes (snd s) = [] /\
  map m_RL (mats_of s') = map m_RL (mats_of s) /\ s_lls (snd s) = [] /\ s_lls (snd s') = [] /\
  (exists q, map (fun u => (u_magnitude u, u_offset u, u_length u)) (udls_of s) = [(q, f_of_Z 1, Some (f_lit 3 2))] /\
     map (fun u => (u_magnitude u, u_offset u, u_length u)) (udls_of s') =
       [(q, f_of_Z 1, Some (f_of_Z 1)); (q, f_of_Z 2, Some (f_lit 1 2))]) /\
  micro_fos s = 1616542 /\ micro_fos s' = 1538564.
Proof.
  exists plainEnv, (bank (EN := plainEnv) (strips ++ SetUdls [RefUdl 0] :: narrow)),
    (bank (EN := plainEnv) (strips ++ SetUdls [RefUdl 1; RefUdl 2] :: narrow)).
  split; [unfold bank; reach (fl 3 1) (@PNone float) (fl 4 1)|].
  split; [unfold bank; reach (fl 3 1) (@PNone float) (fl 4 1)|].
  do 5 (split; [vm_compute; reflexivity|]).
  split; [exists (f_of_Z 20); split; vm_compute; reflexivity|].
  split; vm_compute; reflexivity.
Qed.
