(** * FloatMore: more binary64 runs that contradict a stated property
    (C12, C33, C36, C39 and the end points kept over an edit). *)
From Coq Require Import ZArith List Bool String SpecFloat.
From Verif Require Import Num Py Validation Utilities Objects Slope Planes Analysis
     Dynamic Api FloatNum FloatWitness.
Import ListNotations.
Local Open Scope Z_scope.

Ltac reach h a l := apply (reachable_run h a l); apply start_ok; eexists; vm_compute; reflexivity.

Section Runs.
  Context {EN : Env}.
  Definition one_layer : list (op float) :=
    [ NewMaterial (fl 20 1) (fl 35 1) (fl 2 1) (fl 5 1) PNone PNone;
      SetMaterials [RefMaterial 0] ].
  (** 3 m high, 4 m long: crest edge (8, 10), toe (12, 7) *)
  Definition bank (ops : list (op float)) : st float :=
    run (start (fl 3 1) PNone (fl 4 1)) (one_layer ++ ops).
  (** through (6, 10) and (12, 7) *)
  Definition arc : op float := AddCircle (f_of_Z 12) (f_lit 29 2) (f_lit 15 2).
End Runs.

(** Distance of a point from a stored circle, in millionths. *)
Definition miss (p : plane float) (q : float * float) : Z :=
  micro (nabs (nsub (dist_points q (p_cx p, p_cy p)) (p_radius p))).

(** C33: five circles asked for the entry at x = 7 and the exit at x = 13 *)
Lemma circles_drift : exists (EN : Env) (s : st float) p,
  reachable s /\ s_planes (snd s) = [] /\
  fst (exec (AddEntryExit (f_of_Z 7) (f_of_Z 13) 5) s) = Ok tt /\
  nth_error (s_planes (snd (snd (exec (AddEntryExit (f_of_Z 7) (f_of_Z 13) 5) s)))) 4 = Some p /\
  external_y (s_geom (snd s)) (f_of_Z 7) = Some (f_of_Z 10) /\
  external_y (s_geom (snd s)) (f_of_Z 13) = Some (f_of_Z 7) /\
  300000 < miss p (f_of_Z 7, f_of_Z 10) /\ 50000 < miss p (f_of_Z 13, f_of_Z 7) /\
  micro (fst (p_l p)) < 6500000 /\ micro (fst (p_r p)) < 11600000.
Proof.
  exists plainEnv, (@bank plainEnv []). eexists.
  split; [unfold bank; reach (fl 3 1) (@PNone float) (fl 4 1)|].
  split; [vm_compute; reflexivity|].
  split; [vm_compute; reflexivity|]. split; [vm_compute; reflexivity|].
  repeat split; vm_compute; reflexivity.
Qed.

(** C12: the entry points are limited to [0, 1] and a line load stands at 7 *)
Definition loaded {EN : Env} : st float :=
  bank [ NewLload (fl 20 1) (fl 1 1) "red" false; SetLls [RefLload 0];
         SetLimits (fl 0 1) (fl 20 1) (fl 1 1) (fl 9 1) ].
Lemma entry_outside_limits : exists (EN : Env) (s : st float) v ls,
  reachable s /\ view_of s = Ok v /\ left_coords v = Ok ls /\
  micro (lim_left (s_limits (snd s))) = 0 /\ micro (lim_left_r (s_limits (snd s))) = 1000000 /\
  exists l, In l ls /\ micro (fst l) = 6999000.
Proof.
  exists plainEnv, (@loaded plainEnv). do 2 eexists.
  split; [unfold loaded, bank; rewrite <- ?app_assoc;
          reach (fl 3 1) (@PNone float) (fl 4 1)|].
  split; [vm_compute; reflexivity|]. split; [vm_compute; reflexivity|].
  split; [vm_compute; reflexivity|]. split; [vm_compute; reflexivity|].
  eexists. split.
  - do 13 right. left. reflexivity.
  - vm_compute. reflexivity.
Qed.

(** C36: 1 m high, 2.73 m long *)
Definition narrow {EN : Env} : st float := run (start (fl 1 1) PNone (fl 273 100)) one_layer.
Lemma rounding_crash : exists (EN : Env) (s : st float),
  reachable s /\ s = run (start (fl 1 1) PNone (fl 273 100)) one_layer /\
  s_planes (snd s) = [] /\ fst (exec (Analyse None) s) = Err TypeError.
Proof.
  exists plainEnv, (@narrow plainEnv).
  split; [unfold narrow; reach (fl 1 1) (@PNone float) (fl 273 100)|].
  split; [reflexivity|]. split; vm_compute; reflexivity.
Qed.

(** C39: a line load of 20 kN/m on the crest, inside a circle from x = 6 to 12 *)
Definition soil_and_load {EN : Env} (s : st float) : Z :=
  match view_of s, s_planes (snd s) with
  | Ok v, [p] =>
      match slices_of v (p_cx p) (p_cy p) (p_radius p) (fst (p_l p)) (fst (p_r p)) with
      | Ok (Some (_, sl)) => micro (nsum (map (@sl_W _) sl))
      | _ => -1
      end
  | _, _ => -1
  end.
Definition load_at (off : pyval float) : list (op float) :=
  [ NewLload (fl 20 1) off "red" false; SetLls [RefLload 0] ].
Definition sliced {EN : Env} (n : Z) : st float :=
  bank [AnalysisOpts (Some n) None None None None; arc].

Lemma load_doubled : exists (EN : Env) (s : st float) p l,
  reachable s /\ s_slices (snd s) = 25 /\ s_planes (snd s) = [p] /\ lls_of s = [] /\
  micro (fst (p_l p)) = 6000000 /\ micro (fst (p_r p)) = 12000000 /\
  lls_of (run s (load_at (fl 128 100))) = [l] /\ micro (l_magnitude l) = 20000000 /\
  option_map micro (l_coord l) = Some 6720000 /\
  soil_and_load (run s (load_at (fl 128 100))) - soil_and_load s = 40000000.
Proof.
  exists plainEnv, (@sliced plainEnv 25). do 2 eexists.
  split; [unfold sliced, bank; reach (fl 3 1) (@PNone float) (fl 4 1)|].
  repeat (split; [vm_compute; reflexivity|]). vm_compute. reflexivity.
Qed.
Definition off_lost : pyval float := fl 8000000000000007 10000000000000000.
Lemma load_lost : exists (EN : Env) (s : st float) p l,
  reachable s /\ s_slices (snd s) = 10 /\ s_planes (snd s) = [p] /\ lls_of s = [] /\
  micro (fst (p_l p)) = 6000000 /\ micro (fst (p_r p)) = 12000000 /\
  lls_of (run s (load_at off_lost)) = [l] /\ micro (l_magnitude l) = 20000000 /\
  option_map micro (l_coord l) = Some 7199999 /\
  micro_fos (run s (load_at off_lost)) = micro_fos s /\
  micro_fos (run s (load_at (fl 8 10))) < micro_fos s - 100000.
Proof.
  exists plainEnv, (@sliced plainEnv 10). do 2 eexists.
  split; [unfold sliced, bank; reach (fl 3 1) (@PNone float) (fl 4 1)|].
  repeat (split; [vm_compute; reflexivity|]). vm_compute. reflexivity.
Qed.

(** A stored circle keeps its end points when the ground is moved. *)
Lemma end_points_stale : exists (EN : Env) (s : st float) a b y,
  reachable s /\ fst (exec (Analyse None) s) = Ok tt /\
  get_min_FOS_end_points (snd (snd (exec (Analyse None) s))) = Ok (a, b) /\
  external_y (s_geom (snd s)) (fst a) = Some y /\ micro (snd a) + 400000 < micro y.
Proof.
  exists plainEnv, (bank (EN := plainEnv) [arc; SetBoundary (fl 35 10) PNone (fl 4 1)]).
  do 3 eexists.
  split; [unfold bank; reach (fl 3 1) (@PNone float) (fl 4 1)|].
  repeat (split; [vm_compute; reflexivity|]). vm_compute. reflexivity.
Qed.

(** A search limited to entries in [7, 8] and exits in [13, 14]; the least distance
    leaves only the pair furthest apart. *)
Definition limited {EN : Env} : st float :=
  bank [ SetLimits (fl 7 1) (fl 14 1) (fl 8 1) (fl 13 1);
         AnalysisOpts (Some 10) (Some 500) (Some (f_lit 76 10)) None None ].
Lemma ends_outside_limits : exists (EN : Env) (s : st float) a b,
  reachable s /\ s_planes (snd s) = [] /\ udls_of s = [] /\ lls_of s = [] /\
  micro (lim_left (s_limits (snd s))) = 7000000 /\
  micro (lim_right_l (s_limits (snd s))) = 13000000 /\
  fst (exec (Analyse None) s) = Ok tt /\
  get_min_FOS_end_points (snd (snd (exec (Analyse None) s))) = Ok (a, b) /\
  micro (fst b) < 12000000.
Proof.
  exists plainEnv, (@limited plainEnv). do 2 eexists.
  split; [unfold limited, bank; reach (fl 3 1) (@PNone float) (fl 4 1)|].
  do 7 (split; [vm_compute; reflexivity|]). vm_compute. reflexivity.
Qed.
