(** * FloatOrder: more circles, wider limits and a first circle that raise the reported
    factor (C101). *)
From Coq Require Import ZArith List Bool String SpecFloat.
From Verif Require Import Num Py Validation Utilities Objects Slope Planes Analysis
     Dynamic Api FloatNum FloatWitness FloatMore FloatFos.
Import ListNotations.
Local Open Scope Z_scope.

(** the circles between x = 6 and x = 13 *)
Definition sought : list (op float) :=
  [ SetLimits (fl 6 1) (fl 13 1) (fl 78 10) (fl 85 10);
    AnalysisOpts (Some 10) (Some 500) (Some (f_lit 7615 1000)) (Some (f_lit 1 1)) (Some 1) ].
Lemma more_raises : exists (EN : Env) (s : st float),
  reachable s /\ s_planes (snd s) = [] /\ s_iterations (snd s) = 500 /\ micro_fos s = 1712129 /\
  (let t := run s [AnalysisOpts None (Some 4800) None None None] in micro_fos t = 1725740) /\
  (let t := run s [SetLimits (fl 59 10) (fl 13 1) (fl 78 10) (fl 85 10)] in
     micro_fos t = 1734018 /\ s_limits (snd s) = MkLimits (f_of_Z 6) (f_lit 78 10) (f_lit 85 10) (f_of_Z 13) /\
     s_limits (snd t) = MkLimits (f_lit 59 10) (f_lit 78 10) (f_lit 85 10) (f_of_Z 13)) /\
  (let t := run s [arc] in s_planes (snd t) <> [] /\ micro_fos t = 1733814).
Proof.
  exists plainEnv, (bank (EN := plainEnv) sought).
  split; [unfold bank; reach (fl 3 1) (@PNone float) (fl 4 1)|].
  split; [vm_compute; reflexivity|]. split; [vm_compute; reflexivity|]. split; [vm_compute; reflexivity|].
  split; [vm_compute; reflexivity|]. split; [split; [|split]; vm_compute; reflexivity|].
  split; [|vm_compute; reflexivity].
  match goal with |- ?l <> [] => assert (Q : List.length l = 1%nat) by (vm_compute; reflexivity) end.
  intros E. rewrite E in Q. discriminate Q.
Qed.
