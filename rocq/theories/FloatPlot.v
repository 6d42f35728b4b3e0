(** * FloatPlot: binary64 runs after which no figure is drawn (C64, C65). *)
From Coq Require Import ZArith List Bool String SpecFloat.
From Verif Require Import Num Py Validation Utilities Objects Slope Planes Analysis
     Dynamic Api FloatNum FloatWitness FloatMore FloatFos Plot.
Import ListNotations.
Local Open Scope Z_scope.

Section Runs.
  Context {EN : Env}.
  Definition prec0 : float -> nat := fun _ => 0%nat.
  (** 3 m high, 4 m long; two distributed loads *)
  Definition loaded : list (op float) :=
    [ NewUdl (fl 10 1) (fl 1 1) (fl 2 1) "red" false;
      NewUdl (fl 20 1) (fl 4 1) (fl 2 1) "red" false; SetUdls [RefUdl 0; RefUdl 1] ].
  (** 30 m high, 30 m long at first; two layers *)
  Definition tall (ops : list (op float)) : st float :=
    run (start (fl 3 1) PNone (fl 4 1))
        ([ SetBoundary (fl 30 1) PNone (fl 30 1);
           NewMaterial (fl 20 1) (fl 30 1) (fl 0 1) (fl 6 1) PNone PNone;
           NewMaterial (fl 20 1) (fl 30 1) (fl 0 1) (fl 10 1) PNone PNone;
           SetMaterials [RefMaterial 0; RefMaterial 1] ] ++ ops).
End Runs.

(** One load taken away, one left: TypeError. *)
Lemma no_figure_load : exists (EN : Env) (s : st float) fig,
  reachable s /\ plot_boundary prec0 true s = Ok fig /\
  List.length (s_udls (snd s)) = 2%nat /\
  fst (exec (RemoveUdls [0%nat] false) s) = Ok tt /\
  List.length (s_udls (snd (step s (RemoveUdls [0%nat] false)))) = 1%nat /\
  plot_boundary prec0 true (step s (RemoveUdls [0%nat] false)) = Err TypeError.
Proof.
  exists plainEnv, (bank (EN := plainEnv) loaded). eexists.
  split; [unfold bank; reach (fl 3 1) (@PNone float) (fl 4 1)|].
  do 4 (split; [vm_compute; reflexivity|]). vm_compute; reflexivity.
Qed.
(** The slope made lower below a water level or below the level of a layer *)
Lemma no_figure_water : exists (EN : Env) (s : st float) fig,
  reachable s /\ plot_boundary prec0 true s = Ok fig /\
  fst (exec (SetBoundary (fl 1 1) PNone (fl 1 1)) s) = Ok tt /\
  plot_boundary prec0 true (step s (SetBoundary (fl 1 1) PNone (fl 1 1))) = Err TypeError.
Proof.
  exists plainEnv, (bank (EN := plainEnv) [SetWater (fl 1 1)]). eexists.
  split; [unfold bank; reach (fl 3 1) (@PNone float) (fl 4 1)|].
  do 2 (split; [vm_compute; reflexivity|]). vm_compute; reflexivity.
Qed.
Lemma no_figure_layer : exists (EN : Env) (s : st float) fig,
  reachable s /\ s_water_RL (snd s) = None /\ plot_boundary prec0 true s = Ok fig /\
  fst (exec (SetBoundary (fl 1 1) PNone (fl 1 1)) s) = Ok tt /\
  plot_boundary prec0 true (step s (SetBoundary (fl 1 1) PNone (fl 1 1))) = Err TypeError.
Proof.
  exists plainEnv, (tall (EN := plainEnv) []). eexists.
  split; [unfold tall; reach (fl 3 1) (@PNone float) (fl 4 1)|].
  do 3 (split; [vm_compute; reflexivity|]). vm_compute; reflexivity.
Qed.
(** An analysed circle whose arc misses all sample angles *)
Lemma no_figure_arc : exists (EN : Env) (s : st float) p fig,
  reachable s /\ s_planes (snd s) = [p] /\ plot_boundary prec0 true s = Ok fig /\
  fst (exec (Analyse None) s) = Ok tt /\ micro_fos s = 2381615 /\
  plot_critical prec0 true (step s (Analyse None)) = Err IndexError /\
  plot_all_planes prec0 None true (step s (Analyse None)) = Err IndexError.
Proof.
  exists plainEnv, (bank (EN := plainEnv) [AddCircle (f_lit 257 2) (f_lit 997 4) (f_lit 268333 1000)]).
  do 2 eexists.
  split; [unfold bank; reach (fl 3 1) (@PNone float) (fl 4 1)|].
  do 5 (split; [vm_compute; reflexivity|]). vm_compute; reflexivity.
Qed.
(** A negative factor (friction of 135 degrees, no turn allowed): KeyError *)
Lemma no_figure_key : exists (EN : Env) (s : st float) p fig,
  reachable s /\ s_planes (snd s) = [p] /\ s_max_iterations (snd s) = 0 /\
  plot_boundary prec0 true s = Ok fig /\
  fst (exec (Analyse None) s) = Ok tt /\ micro_fos s < 0 /\
  plot_critical prec0 true (step s (Analyse None)) = Err KeyError.
Proof.
  exists plainEnv, (layered_bank (EN := plainEnv) 135 0 135 0
                      [AnalysisOpts None None None None (Some 0); circle 24 18 14]).
  do 2 eexists.
  split; [unfold layered_bank; reach (fl 3 1) (@PNone float) (fl 4 1)|].
  do 5 (split; [vm_compute; reflexivity|]). vm_compute; reflexivity.
Qed.
(** No circle has a factor: IndexError.  The limit of the analysis leaves none. *)
Lemma no_figure_none : exists (EN : Env) (s : st float) p fig,
  reachable s /\ s_planes (snd s) = [p] /\ plot_boundary prec0 true s = Ok fig /\
  fst (exec (Analyse (Some (f_of_Z 1))) s) = Ok tt /\
  s_search (snd (step s (Analyse (Some (f_of_Z 1))))) = [] /\
  plot_critical prec0 true (step s (Analyse (Some (f_of_Z 1)))) = Err IndexError.
Proof.
  exists plainEnv, (bank (EN := plainEnv) [circle 24 18 14]).
  do 2 eexists.
  split; [unfold bank; reach (fl 3 1) (@PNone float) (fl 4 1)|].
  do 4 (split; [vm_compute; reflexivity|]). vm_compute; reflexivity.
Qed.
