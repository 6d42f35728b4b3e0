(** * Api: the calls a user can make, and histories of such calls. *)
From Coq Require Import ZArith List Bool String.
From Verif Require Import Num Py Validation Utilities Objects Slope Planes Analysis Dynamic.
Import ListNotations.

Section Api.
  Context {T : Type} {NT : Num T} {EN : Env}.

  (** One public call.  The constructors of the objects come first, then the
      methods of Slope (pyslope.py:315-1259, 1733). *)
  Inductive op :=
  | NewMaterial (unit_weight friction cohesion depth name color : pyval T)
  | NewUdl (magnitude offset length : pyval T) (color : string) (dynamic : bool)
  | NewLload (magnitude offset : pyval T) (color : string) (dynamic : bool)
  | SetBoundary (height angle length : pyval T)
  | BoundaryOpts (min_ext_l min_ext_h : pyval T)
  | SetWater (depth : pyval T)
  | RemoveWater
  | WaterOpts (auto : bool) (H : pyval T)
  | SetUdls (l : list objref)
  | RemoveUdls (l : list nat) (all : bool)
  | SetLls (l : list objref)
  | RemoveLls (l : list nat) (all : bool)
  | SetMaterials (l : list objref)
  | RemoveMaterial (m : option objref) (depth : pyval T) (all : bool)
  | AnalysisOpts (slices iterations : option Z) (min_failure tolerance : option T)
                 (max_iterations : option Z)
  | SetLimits (left_x right_x left_x_right right_x_left : pyval T)
  | RemoveLimits
  | AddEntryExit (l_cx r_cx : T) (num_circles : Z)
  | AddCircle (c_x c_y radius : T)
  | RemovePlanes
  | Analyse (max_fos : option T)
  | AnalyseDynamic (crit : critical T).

  (** Allocation of a new object; a raised constructor allocates nothing. *)
  Definition alloc {A} (r : res A) (add : A -> heap T -> heap T) : M (st T) unit :=
    a <- mlift r ;; mupd (fun s => (add a (fst s), snd s)).

  (** Python evaluates the arguments before the call: naming an object that
      does not exist raises NameError and the method is not entered. *)
  Definition ref_exists (h : heap T) (r : objref) : bool :=
    match r with
    | RefMaterial n => Nat.ltb n (List.length (h_materials h))
    | RefUdl n => Nat.ltb n (List.length (h_udls h))
    | RefLload n => Nat.ltb n (List.length (h_lls h))
    | RefOther => true
    end.
  Definition with_refs (l : list objref) (m : M (st T) unit) : M (st T) unit :=
    h <- mget fst ;;
    if forallb (ref_exists h) l then m else mraise NameError.

  Definition exec (o : op) : M (st T) unit :=
    match o with
    | NewMaterial uw phi c d n col =>
        alloc (new_material uw phi c d n col)
              (fun m h => MkHeap (h_materials h ++ [m]) (h_udls h) (h_lls h))
    | NewUdl m off len col dyn =>
        alloc (new_udl m off len col dyn)
              (fun u h => MkHeap (h_materials h) (h_udls h ++ [u]) (h_lls h))
    | NewLload m off col dyn =>
        alloc (new_lload m off col dyn)
              (fun l h => MkHeap (h_materials h) (h_udls h) (h_lls h ++ [l]))
    | SetBoundary h a l => set_external_boundary h a l
    | BoundaryOpts l h => update_boundary_options l h
    | SetWater d => set_water_table d
    | RemoveWater => remove_water_table
    | WaterOpts a h => update_water_analysis_options a h
    | SetUdls l => with_refs l (set_udls l)
    | RemoveUdls l a => with_refs (map RefUdl l) (remove_udls l a)
    | SetLls l => with_refs l (set_lls l)
    | RemoveLls l a => with_refs (map RefLload l) (remove_lls l a)
    | SetMaterials l => with_refs l (set_materials l)
    | RemoveMaterial m d a =>
        with_refs (match m with Some r => [r] | None => [] end) (remove_material m d a)
    | AnalysisOpts s i mf t mi => update_analysis_options s i mf t mi
    | SetLimits a b c d => set_analysis_limits a b c d
    | RemoveLimits => remove_analysis_limits
    | AddEntryExit l r n => add_single_entry_exit_plane l r n
    | AddCircle x y r => add_single_circular_plane x y r
    | RemovePlanes => remove_individual_planes
    | Analyse m => analyse_slope m
    | AnalyseDynamic c => analyse_dynamic c ;;; mret tt
    end.

  (** A user who catches every exception and carries on with the object. *)
  Definition step (s : st T) (o : op) : st T := snd (exec o s).
  Definition run (s : st T) (l : list op) : st T := fold_left step l s.

  (** [Slope(height, angle, length)] on a fresh heap. *)
  Definition new_slope (h : heap T) (height angle length : pyval T) : res (st T) :=
    match init_slope height angle length (h, blank_slope) with
    | (Ok _, s) => Ok s
    | (Err e, _) => Err e
    end.

  (** States reachable by some history on one slope. *)
  Definition reachable (s : st T) : Prop :=
    exists height angle length ops s0,
      new_slope empty_heap height angle length = Ok s0 /\ s = run s0 ops.
End Api.
Arguments op T : clear implicits.
