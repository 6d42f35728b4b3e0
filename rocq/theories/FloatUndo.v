(** * FloatUndo: calls that are not undone by the removal that follows them (C104). *)
From Coq Require Import ZArith List Bool String SpecFloat.
From Verif Require Import Num Py Validation Utilities Objects Slope Planes Analysis
     Dynamic Api FloatNum FloatWitness FloatMore.
Import ListNotations.
Local Open Scope Z_scope.

(** one layer, ten slices and one given circle; a line 7 m and a strip 12 m from the crest,
    a second layer 11 m deep, none of them in the slope *)
Definition spare : list (op float) :=
  [ AnalysisOpts (Some 10) None None None None; arc;
    NewLload (fl 20 1) (fl 7 1) "red" false; NewUdl (fl 20 1) (fl 12 1) (fl 1 1) "red" false;
    NewMaterial (fl 20 1) (fl 35 1) (fl 2 1) (fl 11 1) PNone PNone ].
Lemma not_undone : exists (EN : Env) (s : st float),
  reachable s /\ s_udls (snd s) = [] /\ s_lls (snd s) = [] /\ s_materials (snd s) = [0%nat] /\
  micro_fos s = 1745720 /\
  (let t := run s [SetLls [RefLload 0]; RemoveLls [0%nat] false] in
     s_lls (snd t) = [] /\ micro_fos t = 1906957) /\
  (let t := run s [SetUdls [RefUdl 0]; RemoveUdls [0%nat] false] in
     s_udls (snd t) = [] /\ micro_fos t = 9852976) /\
  (let t := run s [SetMaterials [RefMaterial 1]; RemoveMaterial (Some (RefMaterial 1)) PNone false] in
     s_materials (snd t) = [0%nat] /\ micro_fos t = 2394798).
Proof.
  exists plainEnv, (bank (EN := plainEnv) spare).
  split; [unfold bank; reach (fl 3 1) (@PNone float) (fl 4 1)|].
  do 4 (split; [vm_compute; reflexivity|]).
  split; [|split]; split; vm_compute; reflexivity.
Qed.
