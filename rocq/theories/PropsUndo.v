(** * PropsUndo: the last setting counts, and undoing a call restores the results (C104). *)
From Coq Require Import ZArith Reals Lra Lia List Bool String Permutation.
From Verif Require Import Num Py Validation Utilities Objects Slope Planes Analysis
     Dynamic Api RealNum RealFacts MonadFacts ListFacts SlopeFacts MaterialFacts LoadFacts LayerFacts Invariant
     EditFacts History Spec FloatNum FloatWitness Demo SearchFacts ShareFacts Surcharge SplitFacts OrderFacts
     GroundFacts UndoFacts FloatUndo.
Import ListNotations.
Local Open Scope R_scope.

(** [same_answer]: an analysis of one slope is accepted when one of the other is, raises the
    same otherwise, and stores the same list of circles and factors. *)
Definition same_answer {EN : Env} (s s' : st R) : Prop := forall mx,
  fst (exec (Analyse mx) s) = fst (exec (Analyse mx) s') /\
  (fst (exec (Analyse mx) s) = Ok tt ->
   s_search (snd (snd (exec (Analyse mx) s))) = s_search (snd (snd (exec (Analyse mx) s')))).
Lemma same_answer_of {EN : Env} (s s' : st R) : same_numbers s s' -> same_answer s s'.
Proof. intros N mx. destruct (only_numbers mx s s' N) as [A B]. split; [exact A|]. exact (B tt). Qed.

(** A call that names everything its topic consists of ([settles]; the topics are the water
    table, the factor of the water, the limits, the options of the analysis and the given
    circles) gives the same result after any number of other calls on that topic; and once
    it is accepted nothing at all is left of them.  Every arithmetic. *)
Theorem C104_last : forall (T : Type) (NT : Num T) (EN : Env) (s : st T) o t ops,
  about o = Some t -> settles o = true -> Forall (fun o' => about o' = Some t) ops ->
  fst (exec o (run s ops)) = fst (exec o s) /\
  (fst (exec o s) = Ok tt -> exec o (run s ops) = exec o s).
Proof. intros T NT EN s o t ops. exact (last_counts o t ops s). Qed.
Print Assumptions C104_last.
Example C104_last_case : forall (EN : Env),
  exec RemoveWater (run demo [SetWater (PFloat 2); SetWater (PStr "deep"); RemoveWater; SetWater (PInt 4)]) =
  exec RemoveWater demo /\
  exec RemovePlanes (run demo [AddCircle 12 (29 / 2) (15 / 2); AddEntryExit 7 13 5]) = exec RemovePlanes demo /\
  exec RemoveLimits (run demo [SetLimits (PFloat 1) (PFloat 19) PNone PNone]) = exec RemoveLimits demo.
Proof.
  intros EN. split; [|split].
  - apply (C104_last R RNum EN demo RemoveWater OnWater); try reflexivity. now repeat constructor.
  - apply (C104_last R RNum EN demo RemovePlanes OnCircles); try reflexivity. now repeat constructor.
  - apply (C104_last R RNum EN demo RemoveLimits OnLimits); try reflexivity.
    + now repeat constructor.
    + now rewrite (GroundFacts.limits_restored demo demo_reachable).
Qed.

(** Assigning a strip load and removing it again: the slope answers as before, provided the
    model was wide enough for the load and it has no equal in the slope.  Without the
    conditions it is false: a load that does not fit widens the model (C104_wide),
    and an equal of the load is removed as well (C19). *)
Theorem C104_strip : forall (EN : Env) (s : st R) n u, reachable s ->
  nth_error (h_udls (fst s)) n = Some u -> 0 < u_magnitude u ->
  udl_min_length u <= s_min_ext_l (snd s) -> Forall (fun c => ~ same_udl u c) (udls_of s) ->
  exists s1 s2, exec (SetUdls [RefUdl n]) s = (Ok tt, s1) /\
    exec (RemoveUdls [n] false) s1 = (Ok tt, s2) /\ same_answer s2 s.
Proof.
  intros EN s n u H1 H2 H3 H4 H5. destruct (undo_udl s n u H1 H2 H3 H4 H5) as (s1 & s2 & A & B & N).
  exists s1, s2. split; [exact A|]. split; [exact B|]. now apply same_answer_of.
Qed.
Print Assumptions C104_strip.
Example C104_strip_case : forall (EN : Env), exists s1 s2,
  exec (SetUdls [RefUdl 0]) demo2 = (Ok tt, s1) /\ exec (RemoveUdls [0%nat] false) s1 = (Ok tt, s2) /\
  same_answer s2 demo2.
Proof.
  intros EN. apply (C104_strip EN demo2 0 demo_udl0 demo2_reachable eq_refl).
  - cbn. lra.
  - unfold udl_min_length. cbn [demo_udl0 u_length u_offset demo2 snd demo_sl s_min_ext_l]. unR. rnum. lra.
  - constructor.
Qed.

(** The same for a line load *)
Theorem C104_line : forall (EN : Env) (s : st R) n u, reachable s ->
  nth_error (h_lls (fst s)) n = Some u -> 0 < l_magnitude u ->
  3 * l_offset u <= s_min_ext_l (snd s) -> Forall (fun c => ~ same_ll u c) (lls_of s) ->
  exists s1 s2, exec (SetLls [RefLload n]) s = (Ok tt, s1) /\
    exec (RemoveLls [n] false) s1 = (Ok tt, s2) /\ same_answer s2 s.
Proof.
  intros EN s n u H1 H2 H3 H4 H5. destruct (undo_ll s n u H1 H2 H3 H4 H5) as (s1 & s2 & A & B & N).
  exists s1, s2. split; [exact A|]. split; [exact B|]. now apply same_answer_of.
Qed.
Print Assumptions C104_line.
Example C104_line_case : forall (EN : Env), exists s1 s2,
  exec (SetLls [RefLload 0]) demo3 = (Ok tt, s1) /\ exec (RemoveLls [0%nat] false) s1 = (Ok tt, s2) /\
  same_answer s2 demo3.
Proof.
  intros EN. assert (R3 : reachable demo3).
  { eapply accepted_reachable; [apply demo2_reachable|]. econstructor; [apply demo3_exec|constructor]. }
  apply (C104_line EN demo3 0 demo_ll0 R3 eq_refl).
  - cbn. lra.
  - cbn [demo_ll0 l_offset demo3 snd demo_sl s_min_ext_l]. lra.
  - constructor.
Qed.

(** The same for a layer of a depth other than zero inside the model, in a slope whose
    layers have the elevations their depths give ([laid], the state after every accepted
    set_materials).  Without the conditions it is false: a deeper layer deepens the model
    (C104_wide), a layer of depth zero is not removed (C16), and set_materials
    brings stale elevations up to date (C15). *)
Theorem C104_layer : forall (EN : Env) (s s1 : st R) n m, reachable s -> laid s ->
  nth_error (h_materials (fst s)) n = Some m -> m_depth m <> 0 ->
  m_depth m <= g_ext_h (s_geom (snd s)) -> exec (SetMaterials [RefMaterial n]) s = (Ok tt, s1) ->
  exists s2, exec (RemoveMaterial (Some (RefMaterial n)) PNone false) s1 = (Ok tt, s2) /\
    same_answer s2 s.
Proof.
  intros EN s s1 n m H1 H2 H3 H4 H5 H6. destruct (undo_layer s s1 n m H1 H2 H3 H4 H5 H6) as (s2 & B & N).
  exists s2. split; [exact B|]. now apply same_answer_of.
Qed.
Print Assumptions C104_layer.

(** A layer removed and assigned again: the slope answers as before *)
Theorem C104_layer_again : forall (EN : Env) (s : st R) n m, reachable s -> laid s ->
  In n (s_materials (snd s)) -> nth_error (h_materials (fst s)) n = Some m -> m_depth m <> 0 ->
  exists s1 s2, exec (RemoveMaterial (Some (RefMaterial n)) PNone false) s = (Ok tt, s1) /\
    exec (SetMaterials [RefMaterial n]) s1 = (Ok tt, s2) /\ same_answer s2 s.
Proof.
  intros EN s n m H1 H2 H3 H4 H5. destruct (again_layer s n m H1 H2 H3 H4 H5) as (s1 & s2 & A & B & N).
  exists s1, s2. split; [exact A|]. split; [exact B|]. now apply same_answer_of.
Qed.
Print Assumptions C104_layer_again.
Lemma demo2_laid {EN : Env} : laid demo2.
Proof. exact (elevations_after_set demo1 demo2 _ demo1_reachable demo2_exec). Qed.
Example C104_layer_again_case : forall (EN : Env), exists s1 s2,
  exec (RemoveMaterial (Some (RefMaterial 1)) PNone false) demo2 = (Ok tt, s1) /\
  exec (SetMaterials [RefMaterial 1]) s1 = (Ok tt, s2) /\ same_answer s2 demo2.
Proof.
  intros EN. apply (C104_layer_again EN demo2 1 clay_in demo2_reachable demo2_laid); [cbn; tauto|reflexivity|].
  cbn. lra.
Qed.
(** sand alone, then clay, then clay removed *)
Example C104_layer_case : forall (EN : Env), exists s s1 s2,
  List.length (mats_of s) = 1%nat /\ exec (SetMaterials [RefMaterial 1]) s = (Ok tt, s1) /\
  exec (RemoveMaterial (Some (RefMaterial 1)) PNone false) s1 = (Ok tt, s2) /\ same_answer s2 s.
Proof.
  intros EN. destruct (removed_object demo2 1 clay_in demo2_reachable eq_refl) as (s & E & H & M); [cbn; lra|].
  destruct (again_layer demo2 1 clay_in demo2_reachable demo2_laid) as (s' & s1 & E' & E1 & _);
    [cbn; tauto|reflexivity|cbn; lra|].
  rewrite E in E'. injection E' as <-.
  assert (Rs : reachable s).
  { replace s with (step demo2 (RemoveMaterial (Some (RefMaterial 1)) PNone false)) by (unfold step; now rewrite E).
    apply reachable_step, demo2_reachable. }
  assert (G : s_geom (snd s) = s_geom (snd demo2)).
  { cbn [exec] in E. apply with_refs_ok in E. destruct E as [_ E]. rewrite remove_material_eff in E.
    destruct (removal_depth _ _ _); [|discriminate]. now injection E as <-. }
  assert (L : laid s).
  { unfold laid. rewrite G, M. pose proof demo2_laid as L. unfold laid in L. rewrite Forall_forall in *.
    intros x X. apply filter_In in X. now apply L. }
  destruct (C104_layer EN s s1 1 clay_in Rs L) as (s2 & E2 & A); [now rewrite H|cbn; lra| |exact E1|].
  { rewrite G. cbn. lra. }
  exists s, s1, s2. split; [|auto]. rewrite M. unfold mats_of. cbn.
  destruct (Req_EM_T _ _); [lra|]. destruct (Req_EM_T _ _); [reflexivity|lra].
Qed.

(** A strip load removed and assigned again is the last of the list: the same calls are
    accepted and the factors are the same *)
Theorem C104_strip_again : forall (EN : Env) (s : st R) n u a b mx, reachable s ->
  nth_error (h_udls (fst s)) n = Some u -> s_udls (snd s) = a ++ n :: b ->
  Forall (fun c => ~ same_udl u c) (derefs (h_udls (fst s)) (a ++ b)) ->
  udl_min_length u <= s_min_ext_l (snd s) ->
  exists s1 s2, exec (RemoveUdls [n] false) s = (Ok tt, s1) /\ exec (SetUdls [RefUdl n]) s1 = (Ok tt, s2) /\
    (fst (exec (Analyse mx) s2) = Ok tt <-> fst (exec (Analyse mx) s) = Ok tt) /\
    (forall r, exec (Analyse mx) s = (Ok tt, r) ->
     exists r2, exec (Analyse mx) s2 = (Ok tt, r2) /\
       map p_fos (s_search (snd r2)) = map p_fos (s_search (snd r)) /\ get_min_FOS (snd r2) = get_min_FOS (snd r)).
Proof.
  intros EN s n u a b mx H1 H2 H3 H4 H5. destruct (again_udl s n u a b H1 H2 H3 H4 H5) as (s1 & s2 & A & B & M & O & N).
  exists s1, s2. split; [exact A|]. split; [exact B|]. exact (reordered_answer s s1 s2 _ _ mx H1 A B M O N).
Qed.
Print Assumptions C104_strip_again.
Example C104_strip_again_case : forall (EN : Env), exists s1 s2,
  exec (RemoveUdls [0%nat] false) demo = (Ok tt, s1) /\ exec (SetUdls [RefUdl 0]) s1 = (Ok tt, s2) /\
  (fst (exec (Analyse None) s2) = Ok tt <-> fst (exec (Analyse None) demo) = Ok tt).
Proof.
  intros EN. destruct (C104_strip_again EN demo 0 demo_udl [] [] None demo_reachable eq_refl eq_refl)
    as (s1 & s2 & A & B & C & _).
  - constructor.
  - change (udl_min_length demo_udl) with (udl_min_length demo_udl0). unfold udl_min_length. cbn [demo_udl0 u_length u_offset demo snd demo_sl s_min_ext_l]. unR. rnum. lra.
  - eauto.
Qed.

(** The same for a line load *)
Theorem C104_line_again : forall (EN : Env) (s : st R) n u a b mx, reachable s ->
  nth_error (h_lls (fst s)) n = Some u -> s_lls (snd s) = a ++ n :: b ->
  Forall (fun c => ~ same_ll u c) (derefs (h_lls (fst s)) (a ++ b)) ->
  3 * l_offset u <= s_min_ext_l (snd s) ->
  exists s1 s2, exec (RemoveLls [n] false) s = (Ok tt, s1) /\ exec (SetLls [RefLload n]) s1 = (Ok tt, s2) /\
    (fst (exec (Analyse mx) s2) = Ok tt <-> fst (exec (Analyse mx) s) = Ok tt) /\
    (forall r, exec (Analyse mx) s = (Ok tt, r) ->
     exists r2, exec (Analyse mx) s2 = (Ok tt, r2) /\
       map p_fos (s_search (snd r2)) = map p_fos (s_search (snd r)) /\ get_min_FOS (snd r2) = get_min_FOS (snd r)).
Proof.
  intros EN s n u a b mx H1 H2 H3 H4 H5. destruct (again_ll s n u a b H1 H2 H3 H4 H5) as (s1 & s2 & A & B & M & O & N).
  exists s1, s2. split; [exact A|]. split; [exact B|]. exact (reordered_answer s s1 s2 _ _ mx H1 A B M O N).
Qed.
Print Assumptions C104_line_again.
Example C104_line_again_case : forall (EN : Env), exists s1 s2,
  exec (RemoveLls [0%nat] false) demo = (Ok tt, s1) /\ exec (SetLls [RefLload 0]) s1 = (Ok tt, s2) /\
  (fst (exec (Analyse None) s2) = Ok tt <-> fst (exec (Analyse None) demo) = Ok tt).
Proof.
  intros EN. destruct (C104_line_again EN demo 0 demo_ll [] [] None demo_reachable eq_refl eq_refl)
    as (s1 & s2 & A & B & C & _).
  - constructor.
  - change (l_offset demo_ll) with (l_offset demo_ll0). cbn [demo_ll0 l_offset demo snd demo_sl s_min_ext_l]. lra.
  - eauto.
Qed.

(** In binary64, one given circle of factor 1.746: a line load 7 m from the crest, assigned
    and removed, leaves 1.907; a strip 12 m from the crest 9.853; a layer 11 m deep 2.395 *)
Theorem C104_wide : exists (EN : Env) (s : st float),
  reachable s /\ s_udls (snd s) = [] /\ s_lls (snd s) = [] /\ s_materials (snd s) = [0%nat] /\
  micro_fos s = 1745720%Z /\
  (let t := run s [SetLls [RefLload 0]; RemoveLls [0%nat] false] in
     s_lls (snd t) = [] /\ micro_fos t = 1906957%Z) /\
  (let t := run s [SetUdls [RefUdl 0]; RemoveUdls [0%nat] false] in
     s_udls (snd t) = [] /\ micro_fos t = 9852976%Z) /\
  (let t := run s [SetMaterials [RefMaterial 1]; RemoveMaterial (Some (RefMaterial 1)) PNone false] in
     s_materials (snd t) = [0%nat] /\ micro_fos t = 2394798%Z).
Proof. exact not_undone. Qed.
Print Assumptions C104_wide.
