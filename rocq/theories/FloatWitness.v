(** * FloatWitness: concrete binary64 runs that contradict a stated property. *)
From Coq Require Import ZArith List Bool String SpecFloat.
From Verif Require Import Num Py Validation Utilities Objects Slope Planes Analysis
     Dynamic Api FloatNum.
Import ListNotations.
Local Open Scope Z_scope.

Section Witness.
  Context {EN : Env}.
  Definition fl (n : Z) (d : positive) : pyval float := PFloat (f_lit n d).
  Notation stF := (st float).

  Definition start (h a l : pyval float) : stF :=
    match new_slope empty_heap h a l with Ok s => s | Err _ => (empty_heap, blank_slope) end.

  (** C19: the same strip load assigned twice, removed once *)
  Definition two_udls : stF :=
    run (start (fl 3 1) PNone (fl 4 1))
        [ NewUdl (fl 20 1) (fl 1 1) (fl 2 1) "red" false; SetUdls [RefUdl 0; RefUdl 0] ].
  Definition two_lls : stF :=
    run (start (fl 3 1) PNone (fl 4 1))
        [ NewLload (fl 20 1) (fl 1 1) "red" false; SetLls [RefLload 0; RefLload 0] ].
End Witness.

Definition plainEnv : Env := {| is_color := fun _ => false |}.

Lemma reachable_run {EN : Env} h a l (s0 : st float) ops :
  new_slope empty_heap h a l = Ok s0 -> reachable (run s0 ops).
Proof. intros E. exists h, a, l, ops, s0. auto. Qed.
Lemma reachable_more {EN : Env} (s : st float) ops : reachable s -> reachable (run s ops).
Proof.
  intros (h & a & l & ops0 & s0 & E & ->). exists h, a, l, (ops0 ++ ops), s0. split; auto.
  unfold run. now rewrite fold_left_app.
Qed.
Lemma start_ok h a l :
  (exists s, new_slope empty_heap h a l = Ok s) ->
  new_slope empty_heap h a l = Ok (start h a l).
Proof. intros (s & E). unfold start. now rewrite E. Qed.

Lemma duplicate_udl_left : exists (EN : Env) (s : st float) u,
  reachable s /\ nth_error (h_udls (fst s)) 0 = Some u /\
  fst (exec (RemoveUdls [0%nat] false) s) = Ok tt /\
  udls_of (snd (exec (RemoveUdls [0%nat] false) s)) = [u].
Proof.
  exists plainEnv, (@two_udls plainEnv). eexists. split.
  - unfold two_udls. apply (reachable_run (fl 3 1) PNone (fl 4 1)). apply start_ok.
    eexists. vm_compute. reflexivity.
  - split; [vm_compute; reflexivity|]. split; vm_compute; reflexivity.
Qed.
Lemma duplicate_ll_left : exists (EN : Env) (s : st float) l,
  reachable s /\ nth_error (h_lls (fst s)) 0 = Some l /\
  fst (exec (RemoveLls [0%nat] false) s) = Ok tt /\
  lls_of (snd (exec (RemoveLls [0%nat] false) s)) = [l].
Proof.
  exists plainEnv, (@two_lls plainEnv). eexists. split.
  - unfold two_lls. apply (reachable_run (fl 3 1) PNone (fl 4 1)). apply start_ok.
    eexists. vm_compute. reflexivity.
  - split; [vm_compute; reflexivity|]. split; vm_compute; reflexivity.
Qed.

(** C22: a second, higher slope takes over the two layers of the first one *)
Section Shared.
  Context {EN : Env}.
  Definition layers : list (op float) :=
    [ NewMaterial (fl 20 1) (fl 35 1) (fl 2 1) (fl 1 2) PNone PNone;
      NewMaterial (fl 18 1) (fl 20 1) (fl 0 1) (fl 5 1) PNone PNone;
      SetMaterials [RefMaterial 0; RefMaterial 1];
      AnalysisOpts (Some 10) None None None None ].
  Definition first : st float :=
    let s := run (start (fl 1 1) PNone (fl 1 1)) layers in
    let b := g_bot (s_geom (snd s)) in
    run s [ AddCircle (fst b) (nadd (snd b) (f_lit 5 2)) (f_of_Z 3) ].
  Definition second : st float :=
    match new_slope (fst first) (fl 10 1) PNone (fl 10 1) with
    | Ok s => s | Err _ => (fst first, blank_slope) end.
  (** factor of safety in millionths, -1 if there is none *)
  Definition micro_fos (s : st float) : Z :=
    match get_min_FOS (snd (run s [Analyse None])) with Ok (Some f) => micro f | _ => -1 end.
End Shared.

Lemma sharing_changes_results : exists (EN : Env) (a b : st float),
  reachable a /\ (exists h x l, new_slope (fst a) h x l = Ok b) /\
  (let b' := exec (SetMaterials [RefMaterial 0; RefMaterial 1]) b in
   fst b' = Ok tt /\
   0 < micro_fos a /\ 0 < micro_fos (fst (snd b'), snd a) /\
   micro_fos (fst (snd b'), snd a) <> micro_fos a).
Proof.
  exists plainEnv, (@first plainEnv), (@second plainEnv). split; [|split].
  - unfold first. cbv zeta. apply reachable_more.
    apply (reachable_run (fl 1 1) PNone (fl 1 1)). apply start_ok.
    eexists. vm_compute. reflexivity.
  - exists (fl 10 1), PNone, (fl 10 1). vm_compute. reflexivity.
  - split; [vm_compute; reflexivity|]. split; [|split]; vm_compute; discriminate || reflexivity.
Qed.

(** C29: two good circles and one with its centre left of the model *)
Section Failing.
  Context {EN : Env}.
  Definition three_circles : st float :=
    run (start (fl 3 1) PNone (fl 4 1))
        [ NewMaterial (fl 20 1) (fl 35 1) (fl 2 1) (fl 5 1) PNone PNone;
          SetMaterials [RefMaterial 0];
          AnalysisOpts (Some 10) None None None None;
          AddCircle (f_lit 12 1) (f_lit 12 1) (f_lit 55 10);
          AddCircle (f_lit 12 1) (f_lit 13 1) (f_lit 61 10);
          AddCircle (f_lit (-2) 1) (f_lit (-75) 10) (f_lit 20025 1000) ].
  (** the factors recorded for the individual circles, in millionths *)
  Definition recorded (s : st float) : list Z :=
    map (fun p => match p_fos p with Some (Some f) => micro f | _ => -1 end)
        (s_planes (snd s)).
  Definition reported (s : st float) : Z :=
    match get_min_FOS (snd s) with Ok (Some f) => micro f | _ => -1 end.
End Failing.
Lemma raised_then_reported : exists (EN : Env) (s : st float),
  reachable s /\
  (let r := exec (Analyse None) s in
   fst r = Err ValueError /\
   exists f, In f (recorded (snd r)) /\ 0 < f < reported (snd r)).
Proof.
  exists plainEnv, (@three_circles plainEnv). split.
  - unfold three_circles. apply (reachable_run (fl 3 1) PNone (fl 4 1)). apply start_ok.
    eexists. vm_compute. reflexivity.
  - split; [vm_compute; reflexivity|]. exists 1672643. split; vm_compute; auto.
Qed.
(** C29: the result of an older model is reported again *)
Section Stale.
  Context {EN : Env}.
  Definition old_result : st float :=
    run (start (fl 3 1) PNone (fl 4 1))
        [ NewMaterial (fl 20 1) (fl 35 1) (fl 2 1) (fl 2 1) PNone PNone;
          SetMaterials [RefMaterial 0];
          AnalysisOpts (Some 10) None None None None;
          AddCircle (f_lit 11 1) (f_lit 14 1) (f_lit 88 10);
          Analyse None;
          SetWater (fl 0 1);
          SetBoundary (fl 2 1) PNone (fl 3 1) ].
End Stale.
Lemma old_result_reported : exists (EN : Env) (s : st float),
  reachable s /\ get_min_FOS (snd s) = Err IndexError /\
  (let r := exec (Analyse None) s in fst r = Err TypeError /\ 0 < reported (snd r)).
Proof.
  exists plainEnv, (@old_result plainEnv). split.
  - unfold old_result. apply (reachable_run (fl 3 1) PNone (fl 4 1)). apply start_ok.
    eexists. vm_compute. reflexivity.
  - split; [vm_compute; reflexivity|]. split; vm_compute; reflexivity.
Qed.

(** C50: a slope with one circle, and a dynamic load on it *)
Section Search.
  Context {EN : Env}.
  Definition one_circle (more : list (op float)) : st float :=
    run (start (fl 3 1) PNone (fl 4 1))
        ([ NewMaterial (fl 20 1) (fl 35 1) (fl 2 1) (fl 5 1) PNone PNone;
           SetMaterials [RefMaterial 0];
           AnalysisOpts (Some 10) None None None None;
           AddCircle (f_lit 12 1) (f_lit 12 1) (f_lit 55 10) ] ++ more).
  Definition continuous_load : st float :=
    one_circle [ NewUdl (fl 20 1) (fl 0 1) PNone "red" true; SetUdls [RefUdl 0] ].
  Definition line_load : st float :=
    one_circle [ NewLload (fl 100 1) (fl 0 1) "red" true; SetLls [RefLload 0] ].
End Search.
Lemma dynamic_search_raises : exists (EN : Env) (s : st float),
  reachable s /\ fst (exec (Analyse None) s) = Ok tt /\ 0 < micro_fos s /\
  fst (exec (AnalyseDynamic (CFloat (f_lit 13 10))) s) = Err TypeError.
Proof.
  exists plainEnv, (@continuous_load plainEnv). split.
  - unfold continuous_load, one_circle. apply (reachable_run (fl 3 1) PNone (fl 4 1)). apply start_ok.
    eexists. vm_compute. reflexivity.
  - split; [vm_compute; reflexivity|]. split; vm_compute; reflexivity.
Qed.
Lemma decimal_search_raises : exists (EN : Env) (s : st float),
  reachable s /\ fst (exec (Analyse None) s) = Ok tt /\ 0 < micro_fos s /\
  fst (exec (AnalyseDynamic (CDecimal (f_lit 16 10))) s) = Err TypeError.
Proof.
  exists plainEnv, (@line_load plainEnv). split.
  - unfold line_load, one_circle. apply (reachable_run (fl 3 1) PNone (fl 4 1)). apply start_ok.
    eexists. vm_compute. reflexivity.
  - split; [vm_compute; reflexivity|]. split; vm_compute; reflexivity.
Qed.
