(** * UndoFacts: the last setting counts, and undoing a call restores the results (C104). *)
From Coq Require Import ZArith Reals Lra Lia List Bool String Permutation Sorted.
From Verif Require Import Num Py Validation Utilities Objects Slope Planes Analysis
     Dynamic Api RealNum RealFacts ListFacts MonadFacts SlopeFacts MaterialFacts LoadFacts Invariant
     EditFacts History SearchFacts KeepFacts ShareFacts Surcharge SplitFacts OrderFacts LayerFacts.
Import ListNotations.
Local Open Scope R_scope.

(** ** The last setting counts *)
Inductive topic := OnWater | OnFactor | OnLimits | OnOptions | OnCircles.
Definition about {T} (o : op T) : option topic :=
  match o with
  | SetWater _ | RemoveWater => Some OnWater
  | WaterOpts _ _ => Some OnFactor
  | SetLimits _ _ _ _ | RemoveLimits => Some OnLimits
  | AnalysisOpts _ _ _ _ _ => Some OnOptions
  | AddEntryExit _ _ _ | AddCircle _ _ _ | RemovePlanes => Some OnCircles
  | _ => None
  end.
(** the call names everything its topic consists of *)
Definition settles {T} (o : op T) : bool :=
  match o with
  | SetWater _ | RemoveWater | WaterOpts _ _ | RemoveLimits | RemovePlanes => true
  | SetLimits a b c d => negb (is_none a || is_none b || is_none c || is_none d)
  | AnalysisOpts (Some n) (Some k) (Some _) (Some _) (Some _) => negb (Z.eqb n 0 || Z.eqb k 0)
  | _ => false
  end.

Section Last.
  Context {T : Type} {NT : Num T} {EN : Env}.
  Notation stT := (st T).
  (** everything but the topic and the results *)
  Definition besides (t : topic) (s : stT) :=
    let sl := snd s in
    (fst s, (s_geom sl, s_has_boundary sl, s_min_ext_h sl, s_min_ext_l sl, s_materials sl, s_udls sl,
     s_lls sl, s_udl_max sl, s_dynamic sl),
     match t with OnWater => (None, None) | _ => (s_water_RL sl, s_water_depth sl) end,
     match t with OnFactor => None | _ => Some (s_water_H sl) end,
     match t with OnLimits => None | _ => Some (s_limits sl) end,
     match t with OnOptions => None | _ => Some (s_slices sl, s_iterations sl, s_min_failure sl,
                                                 s_tolerance sl, s_max_iterations sl) end,
     match t with OnCircles => [] | _ => s_planes sl end).
  Lemma about_keeps o t : about o = Some t -> keeps (same (besides t)) (exec o).
  Proof.
    destruct o; cbn [about]; intros E; try discriminate E; injection E as <-; cbn [exec];
      unfold remove_analysis_limits, set_water_table, remove_water_table, update_water_analysis_options,
        set_analysis_limits, update_analysis_options, add_single_entry_exit_plane,
        add_single_circular_plane, remove_individual_planes; untouched.
  Qed.
  Lemma run_keeps t ops : Forall (fun o => about o = Some t) ops ->
    forall s : stT, besides t (run s ops) = besides t s.
  Proof.
    induction 1 as [|o ops A _ IH]; intros s; [reflexivity|].
    change (run s (o :: ops)) with (run (step s o) ops). rewrite IH. exact (about_keeps o t A s).
  Qed.
  Lemma limits_anew g lim lim' a b c d : negb (is_none a || is_none b || is_none c || is_none d) = true ->
    limits_result (T := T) g lim a b c d = limits_result g lim' a b c d.
  Proof.
    rewrite negb_true_iff, !orb_false_iff. intros (((Ea & Eb) & Ec) & Ed).
    unfold limits_result, limit_arg. now rewrite Ea, Eb, Ec, Ed.
  Qed.
  Lemma settled o t (s s' : stT) : about o = Some t -> settles o = true -> besides t s = besides t s' ->
    fst (exec o s) = fst (exec o s') /\ (forall u, fst (exec o s) = Ok u -> exec o s = exec o s').
  Proof.
    intros A Q B. destruct s as [h sl], s' as [h' sl'].
    destruct o; cbn [about] in A; try discriminate A; injection A as <-; try discriminate Q;
      destruct sl, sl'; unfold besides in B; cbn in B; injection B; intros; subst; cbn [exec].
    - unfold set_water_table. destruct (is_none depth); [split; [reflexivity|]; intros ? _; reflexivity|].
      msteps. destruct (assert_positive_number depth); [|split; [reflexivity|discriminate]].
      msteps. destruct (as_num depth); [|split; [reflexivity|discriminate]]. split; reflexivity.
    - split; reflexivity.
    - unfold update_water_analysis_options. destruct auto; [split; reflexivity|].
      msteps. destruct (assert_number H); [|split; [reflexivity|discriminate]].
      msteps. destruct (as_num H); [|split; [reflexivity|discriminate]]. split; reflexivity.
    - destruct slices as [n|]; [|discriminate Q]. destruct iterations as [k|]; [|discriminate Q].
      destruct min_failure as [mf|]; [|discriminate Q]. destruct tolerance as [tl|]; [|discriminate Q].
      destruct max_iterations as [mi|]; [|discriminate Q]. cbn [settles] in Q.
      rewrite negb_true_iff, orb_false_iff in Q. destruct Q as (Qn & Qk).
      unfold update_analysis_options. rewrite Qn, Qk. cbn [negb mwhen]. split; reflexivity.
    - rewrite !set_limits_eff. cbn [snd Slope.s_geom Slope.s_limits].
      rewrite (limits_anew _ _ s_limits0 _ _ _ _ Q).
      destruct (limits_result _ _ _ _ _ _); [split; reflexivity|split; [reflexivity|discriminate]].
    - unfold remove_analysis_limits. rewrite !bind_self_get. unfold mbind. rewrite !set_limits_eff. cbn [snd Slope.s_geom Slope.s_limits].
      rewrite (limits_anew _ _ s_limits0) by reflexivity.
      destruct (limits_result _ _ _ _ _ _); [split; reflexivity|split; [reflexivity|discriminate]].
    - split; reflexivity.
  Qed.
  Lemma last_counts o t ops (s : stT) : about o = Some t -> settles o = true ->
    Forall (fun o' => about o' = Some t) ops ->
    fst (exec o (run s ops)) = fst (exec o s) /\
    (fst (exec o s) = Ok tt -> exec o (run s ops) = exec o s).
  Proof.
    intros A Q F. destruct (settled o t s (run s ops) A Q) as (E & X); [symmetry; now apply run_keeps|].
    split; [now symmetry|]. intros K. symmetry. exact (X tt K).
  Qed.
End Last.

(** ** Loads: calls that leave the section alone *)
Section AnyLoads.
  Context {T : Type} {NT : Num T} {EN : Env}.
  Notation stT := (st T).
  Definition crest_x (s : stT) : T := fst (g_top (s_geom (snd s))).
  Lemma refs_intro l (m : M stT unit) s : Forall (fun r => ref_exists (fst s) r = true) l -> with_refs l m s = m s.
  Proof. intros F. unfold with_refs. rewrite bind_get. now rewrite (proj2 (forallb_forall _ _) (proj1 (Forall_forall _ _) F)). Qed.
  Lemma add_udl_eff (s : stT) n u : nth_error (h_udls (fst s)) n = Some u ->
    nltb (nz 0) (u_magnitude u) = true -> nltb (s_min_ext_l (snd s)) (udl_min_length u) = false ->
    exists s1, exec (SetUdls [RefUdl n]) s = (Ok tt, s1) /\
      fst s1 = MkHeap (h_materials (fst s))
                      (upd_all (udl_coords (crest_x s)) (s_udls (snd s) ++ [n]) (h_udls (fst s)))
                      (h_lls (fst s)) /\
      s_udls (snd s1) = s_udls (snd s) ++ [n] /\ s_lls (snd s1) = s_lls (snd s) /\
      s_materials (snd s1) = s_materials (snd s) /\ slope_numbers (snd s1) = slope_numbers (snd s) /\
      s_min_ext_l (snd s1) = s_min_ext_l (snd s).
  Proof.
    intros E M L. cbn [exec]. rewrite refs_intro.
    2:{ repeat constructor. cbn. apply Nat.ltb_lt, nth_error_Some. congruence. }
    unfold set_udls. cbn [mforM set_udl_one]. rewrite !bind_assoc.
    erewrite bind_ok by (unfold get_udl, deref; rewrite E; reflexivity).
    rewrite M. cbn [mwhen]. msteps. cbn [set_s_udls s_min_ext_l]. rewrite L. msteps.
    erewrite bind_ok by apply update_udl_coordinates_eff. msteps. cbn [set_s_udls s_udls s_geom].
    match goal with |- context [match ?l with [] => _ | _ :: _ => _ end] => destruct l end; msteps; rewrite reset_eff;
      eexists; (split; [reflexivity|]); repeat split.
  Qed.
  Lemma add_ll_eff (s : stT) n l : nth_error (h_lls (fst s)) n = Some l ->
    nltb (nz 0) (l_magnitude l) = true -> nltb (s_min_ext_l (snd s)) (nmul (l_offset l) (nz 3)) = false ->
    exists s1, exec (SetLls [RefLload n]) s = (Ok tt, s1) /\
      fst s1 = MkHeap (h_materials (fst s)) (h_udls (fst s))
                      (upd_all (ll_coords (crest_x s)) (s_lls (snd s) ++ [n]) (h_lls (fst s))) /\
      s_lls (snd s1) = s_lls (snd s) ++ [n] /\ s_udls (snd s1) = s_udls (snd s) /\
      s_materials (snd s1) = s_materials (snd s) /\ slope_numbers (snd s1) = slope_numbers (snd s) /\
      s_min_ext_l (snd s1) = s_min_ext_l (snd s).
  Proof.
    intros E M L. cbn [exec]. rewrite refs_intro.
    2:{ repeat constructor. cbn. apply Nat.ltb_lt, nth_error_Some. congruence. }
    unfold set_lls. cbn [mforM set_ll_one]. rewrite !bind_assoc.
    erewrite bind_ok by (unfold get_ll, deref; rewrite E; reflexivity).
    rewrite M. cbn [mwhen]. msteps. cbn [set_s_lls s_min_ext_l]. rewrite L. msteps.
    erewrite bind_ok by apply update_ll_coordinates_eff. rewrite reset_eff.
    eexists; (split; [reflexivity|]); repeat split.
  Qed.
  Lemma drop_udl_eff (s : stT) n u : nth_error (h_udls (fst s)) n = Some u ->
    exists s1, exec (RemoveUdls [n] false) s = (Ok tt, s1) /\ fst s1 = fst s /\
      s_udls (snd s1) = remove_while_iterating (udl_matches u (h_udls (fst s)))
        (same_obj udl_eqb (h_udls (fst s))) (List.length (s_udls (snd s))) 0 (s_udls (snd s)) /\
      s_lls (snd s1) = s_lls (snd s) /\ s_materials (snd s1) = s_materials (snd s) /\
      slope_numbers (snd s1) = slope_numbers (snd s) /\ s_min_ext_l (snd s1) = s_min_ext_l (snd s).
  Proof.
    intros E. cbn [exec map]. rewrite refs_intro.
    2:{ repeat constructor. cbn. apply Nat.ltb_lt, nth_error_Some. congruence. }
    unfold remove_udls. cbn [mforM]. rewrite !bind_assoc.
    erewrite bind_ok by (unfold get_udl, deref; rewrite E; reflexivity).
    msteps. cbn [s_udls set_s_udls].
    match goal with |- context [match ?l with [] => _ | _ :: _ => _ end] => destruct l end; msteps; rewrite reset_eff;
      eexists; (split; [reflexivity|]); repeat split.
  Qed.
  Lemma drop_ll_eff (s : stT) n l : nth_error (h_lls (fst s)) n = Some l ->
    exists s1, exec (RemoveLls [n] false) s = (Ok tt, s1) /\ fst s1 = fst s /\
      s_lls (snd s1) = remove_while_iterating (ll_matches l (h_lls (fst s)))
        (same_obj lload_eqb (h_lls (fst s))) (List.length (s_lls (snd s))) 0 (s_lls (snd s)) /\
      s_udls (snd s1) = s_udls (snd s) /\ s_materials (snd s1) = s_materials (snd s) /\
      slope_numbers (snd s1) = slope_numbers (snd s) /\ s_min_ext_l (snd s1) = s_min_ext_l (snd s).
  Proof.
    intros E. cbn [exec map]. rewrite refs_intro.
    2:{ repeat constructor. cbn. apply Nat.ltb_lt, nth_error_Some. congruence. }
    unfold remove_lls. cbn [mforM]. rewrite !bind_assoc.
    erewrite bind_ok by (unfold get_ll, deref; rewrite E; reflexivity).
    msteps. rewrite reset_eff. eexists; (split; [reflexivity|]); repeat split.
  Qed.
End AnyLoads.

(** ** A load assigned and removed again, in exact arithmetic *)
Lemma spaced_last (m : nat -> bool) l n : Forall (fun k => m k = false) l -> spaced m (l ++ [n]).
Proof.
  induction 1 as [|k l Q F IH]; [exact I|]. cbn [app]. destruct l as [|j l]; [split; [congruence|exact I]|].
  split; [congruence|exact IH].
Qed.
Lemma filter_last (m : nat -> bool) l n : Forall (fun k => m k = false) l -> m n = true ->
  filter (fun k => negb (m k)) (l ++ [n]) = l.
Proof.
  intros F E. rewrite filter_app. cbn [filter]. rewrite E. cbn [negb]. rewrite app_nil_r.
  induction F as [|k l Q F IH]; [reflexivity|]. cbn [filter]. rewrite Q. cbn [negb]. now rewrite IH.
Qed.
Lemma derefs_ext {A} (h h' : list A) locs : (forall n, In n locs -> nth_error h' n = nth_error h n) ->
  derefs h' locs = derefs h locs.
Proof.
  intros Q. unfold derefs. induction locs as [|n locs IH]; [reflexivity|]. cbn [flat_map].
  rewrite Q by now left. f_equal. apply IH. intros k K. apply Q. now right.
Qed.
Lemma numbers_geom {T} (sl sl' : slope T) : slope_numbers sl' = slope_numbers sl -> s_geom sl' = s_geom sl.
Proof. unfold slope_numbers. congruence. Qed.

Section Undo.
  Context {EN : Env}.
  Notation stR := (st R).
  Lemma fresh_udls (s : stR) n k : reachable s -> In k (s_udls (snd s)) ->
    nth_error (upd_all (udl_coords (crest_x s)) (s_udls (snd s) ++ [n]) (h_udls (fst s))) k =
    nth_error (h_udls (fst s)) k.
  Proof.
    intros Rs K. destruct (reachable_inv s Rs) as (C & U & _).
    rewrite nth_error_upd_all by (intros; apply udl_coords_idem).
    destruct (c_udl_locs s C k K) as (u & E & _). rewrite E. 
    destruct (mem_nat _ _); [|reflexivity]. cbn [option_map]. f_equal. exact (U k u K E).
  Qed.
  Lemma fresh_lls (s : stR) n k : reachable s -> In k (s_lls (snd s)) ->
    nth_error (upd_all (ll_coords (crest_x s)) (s_lls (snd s) ++ [n]) (h_lls (fst s))) k =
    nth_error (h_lls (fst s)) k.
  Proof.
    intros Rs K. destruct (reachable_inv s Rs) as (C & _ & U).
    rewrite nth_error_upd_all by (intros; apply ll_coords_idem).
    destruct (c_ll_locs s C k K) as (u & E & _). rewrite E.
    destruct (mem_nat _ _); [|reflexivity]. cbn [option_map]. f_equal. exact (U k u K E).
  Qed.
  Lemma undo_udl (s : stR) n u : reachable s -> nth_error (h_udls (fst s)) n = Some u ->
    0 < u_magnitude u -> udl_min_length u <= s_min_ext_l (snd s) ->
    Forall (fun c => ~ same_udl u c) (udls_of s) ->
    exists s1 s2, exec (SetUdls [RefUdl n]) s = (Ok tt, s1) /\
      exec (RemoveUdls [n] false) s1 = (Ok tt, s2) /\ same_numbers s2 s.
  Proof.
    intros Rs E M L F. destruct (reachable_inv s Rs) as (C & U & _).
    destruct (add_udl_eff s n u E) as (s1 & E1 & H1 & U1 & L1 & M1 & N1 & X1).
    { unR. now apply Rltb_true. } { unR. now apply Rltb_false. }
    set (h1 := upd_all (udl_coords (crest_x s)) (s_udls (snd s) ++ [n]) (h_udls (fst s))) in *.
    assert (En : nth_error (h_udls (fst s1)) n = Some (udl_coords (crest_x s) u)).
    { rewrite H1. cbn [h_udls]. unfold h1. rewrite nth_error_upd_all by (intros; apply udl_coords_idem).
      rewrite E. replace (mem_nat _ _) with true; [reflexivity|]. symmetry. apply mem_nat_In.
      apply in_or_app; right; now left. }
    destruct (drop_udl_eff s1 n _ En) as (s2 & E2 & H2 & U2 & L2 & M2 & N2 & X2).
    exists s1, s2. split; [exact E1|]. split; [exact E2|].
    rewrite H1, U1 in U2. cbn [h_udls] in U2. fold h1 in U2.
    set (m := udl_matches (udl_coords (crest_x s) u) h1) in *.
    assert (F' : Forall (fun k => m k = false) (s_udls (snd s))).
    { apply Forall_forall. intros k K. destruct (c_udl_locs s C k K) as (c & Ec & _).
      destruct (m k) eqn:Q; [|reflexivity]. exfalso.
      assert (Ec' : nth_error h1 k = Some c) by (unfold h1; rewrite fresh_udls; auto).
      apply (udl_matches_spec _ _ _ _ Ec') in Q. rewrite Forall_forall in F. apply (F c); [|exact Q].
      apply in_derefs. eauto. }
    assert (Mn : m n = true).
    { rewrite H1 in En. cbn [h_udls] in En. apply (udl_matches_spec _ _ _ _ En). repeat split. }
    pose proof (rwi_spaced m (same_obj udl_eqb h1) (fun x y => udl_close _ h1 x y) (same_obj_refl udl_eqb h1)
      (List.length (s_udls (snd s) ++ [n])) [] (s_udls (snd s) ++ [n]) (Forall_nil _)
      (spaced_last m _ n F') (le_n _)) as W. cbn [List.length app] in W. rewrite W, filter_last in U2 by assumption.
    split; [|split; [|split]].
    - unfold mats_of. now rewrite H2, H1, M2, M1.
    - unfold udls_of. rewrite H2, H1, U2. cbn [h_udls]. f_equal. apply derefs_ext. intros k K. now apply fresh_udls.
    - unfold lls_of. now rewrite H2, H1, L2, L1.
    - congruence.
  Qed.
  Lemma undo_ll (s : stR) n u : reachable s -> nth_error (h_lls (fst s)) n = Some u ->
    0 < l_magnitude u -> 3 * l_offset u <= s_min_ext_l (snd s) ->
    Forall (fun c => ~ same_ll u c) (lls_of s) ->
    exists s1 s2, exec (SetLls [RefLload n]) s = (Ok tt, s1) /\
      exec (RemoveLls [n] false) s1 = (Ok tt, s2) /\ same_numbers s2 s.
  Proof.
    intros Rs E M L F. destruct (reachable_inv s Rs) as (C & _ & U).
    destruct (add_ll_eff s n u E) as (s1 & E1 & H1 & U1 & L1 & M1 & N1 & X1).
    { unR. now apply Rltb_true. } { unR. apply Rltb_false. lra. }
    set (h1 := upd_all (ll_coords (crest_x s)) (s_lls (snd s) ++ [n]) (h_lls (fst s))) in *.
    assert (En : nth_error (h_lls (fst s1)) n = Some (ll_coords (crest_x s) u)).
    { rewrite H1. cbn [h_lls]. unfold h1. rewrite nth_error_upd_all by (intros; apply ll_coords_idem).
      rewrite E. replace (mem_nat _ _) with true; [reflexivity|]. symmetry. apply mem_nat_In.
      apply in_or_app; right; now left. }
    destruct (drop_ll_eff s1 n _ En) as (s2 & E2 & H2 & U2 & L2 & M2 & N2 & X2).
    exists s1, s2. split; [exact E1|]. split; [exact E2|].
    rewrite H1, U1 in U2. cbn [h_lls] in U2. fold h1 in U2.
    set (m := ll_matches (ll_coords (crest_x s) u) h1) in *.
    assert (F' : Forall (fun k => m k = false) (s_lls (snd s))).
    { apply Forall_forall. intros k K. destruct (c_ll_locs s C k K) as (c & Ec & _).
      destruct (m k) eqn:Q; [|reflexivity]. exfalso.
      assert (Ec' : nth_error h1 k = Some c) by (unfold h1; rewrite fresh_lls; auto).
      apply (ll_matches_spec _ _ _ _ Ec') in Q. rewrite Forall_forall in F. apply (F c); [|exact Q].
      apply in_derefs. eauto. }
    assert (Mn : m n = true).
    { rewrite H1 in En. cbn [h_lls] in En. apply (ll_matches_spec _ _ _ _ En). repeat split. }
    pose proof (rwi_spaced m (same_obj lload_eqb h1) (fun x y => ll_close _ h1 x y) (same_obj_refl lload_eqb h1)
      (List.length (s_lls (snd s) ++ [n])) [] (s_lls (snd s) ++ [n]) (Forall_nil _)
      (spaced_last m _ n F') (le_n _)) as W. cbn [List.length app] in W. rewrite W, filter_last in U2 by assumption.
    split; [|split; [|split]].
    - unfold mats_of. now rewrite H2, H1, M2, M1.
    - unfold udls_of. now rewrite H2, H1, L2, L1.
    - unfold lls_of. rewrite H2, H1, U2. cbn [h_lls]. f_equal. apply derefs_ext. intros k K. now apply fresh_lls.
    - congruence.
  Qed.
End Undo.

(** ** A load removed and assigned again *)
Section Again.
  Context {EN : Env}.
  Notation stR := (st R).
  Lemma spaced_one (m : nat -> bool) a n b : Forall (fun k => m k = false) (a ++ b) -> spaced m (a ++ n :: b).
  Proof.
    intros F. apply Forall_app in F. destruct F as (Fa & Fb). induction Fa as [|k a Q F IH].
    - cbn [app]. destruct Fb as [|j b Q F]; [exact I|]. split; [auto|]. clear -F Q.
      revert j Q. induction F as [|i b P F IH]; intros j Q; [exact I|]. split; [congruence|now apply IH].
    - cbn [app]. destruct (a ++ n :: b) eqn:E; [destruct a; discriminate|]. split; [congruence|exact IH].
  Qed.
  Lemma filter_one (m : nat -> bool) a n b : Forall (fun k => m k = false) (a ++ b) -> m n = true ->
    filter (fun k => negb (m k)) (a ++ n :: b) = a ++ b.
  Proof.
    intros F E. rewrite filter_app. cbn [filter]. rewrite E. cbn [negb]. rewrite <- filter_app.
    induction F as [|k l Q F IH]; [reflexivity|]. cbn [filter]. rewrite Q. cbn [negb]. now rewrite IH.
  Qed.
  Lemma again_udl (s : stR) n u a b : reachable s -> nth_error (h_udls (fst s)) n = Some u ->
    s_udls (snd s) = a ++ n :: b -> Forall (fun c => ~ same_udl u c) (derefs (h_udls (fst s)) (a ++ b)) ->
    udl_min_length u <= s_min_ext_l (snd s) ->
    exists s1 s2, exec (RemoveUdls [n] false) s = (Ok tt, s1) /\
      exec (SetUdls [RefUdl n]) s1 = (Ok tt, s2) /\
      mats_of s2 = mats_of s /\ reordered s s2 /\ slope_numbers (snd s2) = slope_numbers (snd s).
  Proof.
    intros Rs E U0 F L. destruct (reachable_inv s Rs) as (C & U & _).
    assert (In n (s_udls (snd s))) as In0 by (rewrite U0; apply in_or_app; right; now left).
    assert (M : 0 < u_magnitude u).
    { destruct (c_udl_locs s C n In0) as (c & Ec & P). congruence. }
    destruct (drop_udl_eff s n u E) as (s1 & E1 & H1 & U1 & L1 & M1 & N1 & X1).
    set (h := h_udls (fst s)) in *. set (m := udl_matches u h) in *.
    assert (F' : Forall (fun k => m k = false) (a ++ b)).
    { apply Forall_forall. intros k K. assert (K' : In k (s_udls (snd s))).
      { rewrite U0. apply in_app_or in K. apply in_or_app. destruct K; [now left|right; now right]. }
      destruct (c_udl_locs s C k K') as (c & Ec & _). fold h in Ec.
      destruct (m k) eqn:Q; [|reflexivity]. exfalso. apply (udl_matches_spec _ _ _ _ Ec) in Q.
      rewrite Forall_forall in F. apply (F c); [|exact Q]. apply in_derefs. eauto. }
    assert (Mn : m n = true) by (apply (udl_matches_spec _ _ _ _ E); repeat split).
    pose proof (rwi_spaced m (same_obj udl_eqb h) (fun x y => udl_close _ h x y) (same_obj_refl udl_eqb h)
      (List.length (s_udls (snd s))) [] (s_udls (snd s)) (Forall_nil _)) as W.
    rewrite U0 in W, U1. specialize (W (spaced_one m a n b F') (le_n _)). cbn [List.length app] in W.
    rewrite W, filter_one in U1 by assumption.
    destruct (add_udl_eff s1 n u) as (s2 & E2 & H2 & U2 & L2 & M2 & N2 & X2).
    { now rewrite H1. } { unR. now apply Rltb_true. } { rewrite X1. unR. now apply Rltb_false. }
    assert (G1 : s_geom (snd s1) = s_geom (snd s)) by (now apply numbers_geom).
    assert (Q : forall k, In k (a ++ n :: b) -> nth_error (h_udls (fst s2)) k = nth_error h k).
    { intros k K. rewrite H2. cbn [h_udls]. rewrite H1. fold h. unfold crest_x. rewrite G1.
      rewrite nth_error_upd_all by (intros; apply udl_coords_idem).
      rewrite <- U0 in K. destruct (c_udl_locs s C k K) as (c & Ec & _). fold h in Ec. rewrite Ec.
      destruct (mem_nat _ _); [|reflexivity]. cbn [option_map]. f_equal. exact (U k c K Ec). }
    exists s1, s2. split; [exact E1|]. split; [exact E2|]. split; [|split; [split|congruence]].
    - unfold mats_of. rewrite H2. cbn [h_materials]. now rewrite H1, M2, M1.
    - unfold udls_of. rewrite U2, U1, U0.
      rewrite (derefs_ext h (h_udls (fst s2)) ((a ++ b) ++ [n])).
      2:{ intros k K. apply Q. apply in_app_or in K. apply in_or_app. destruct K as [K|[<-|[]]].
          - apply in_app_or in K. destruct K; [now left|right; now right].
          - right. now left. }
      apply Permutation_map. rewrite !derefs_app. cbn [app]. change (n :: b) with ([n] ++ b). rewrite derefs_app.
      rewrite <- app_assoc. apply Permutation_app_head, Permutation_app_comm.
    - unfold lls_of. rewrite H2. cbn [h_lls]. rewrite H1, L2, L1. apply Permutation_refl.
  Qed.
  Lemma again_ll (s : stR) n u a b : reachable s -> nth_error (h_lls (fst s)) n = Some u ->
    s_lls (snd s) = a ++ n :: b -> Forall (fun c => ~ same_ll u c) (derefs (h_lls (fst s)) (a ++ b)) ->
    3 * l_offset u <= s_min_ext_l (snd s) ->
    exists s1 s2, exec (RemoveLls [n] false) s = (Ok tt, s1) /\
      exec (SetLls [RefLload n]) s1 = (Ok tt, s2) /\
      mats_of s2 = mats_of s /\ reordered s s2 /\ slope_numbers (snd s2) = slope_numbers (snd s).
  Proof.
    intros Rs E U0 F L. destruct (reachable_inv s Rs) as (C & _ & U).
    assert (In n (s_lls (snd s))) as In0 by (rewrite U0; apply in_or_app; right; now left).
    assert (M : 0 < l_magnitude u).
    { destruct (c_ll_locs s C n In0) as (c & Ec & P). congruence. }
    destruct (drop_ll_eff s n u E) as (s1 & E1 & H1 & U1 & L1 & M1 & N1 & X1).
    set (h := h_lls (fst s)) in *. set (m := ll_matches u h) in *.
    assert (F' : Forall (fun k => m k = false) (a ++ b)).
    { apply Forall_forall. intros k K. assert (K' : In k (s_lls (snd s))).
      { rewrite U0. apply in_app_or in K. apply in_or_app. destruct K; [now left|right; now right]. }
      destruct (c_ll_locs s C k K') as (c & Ec & _). fold h in Ec.
      destruct (m k) eqn:Q; [|reflexivity]. exfalso. apply (ll_matches_spec _ _ _ _ Ec) in Q.
      rewrite Forall_forall in F. apply (F c); [|exact Q]. apply in_derefs. eauto. }
    assert (Mn : m n = true) by (apply (ll_matches_spec _ _ _ _ E); repeat split).
    pose proof (rwi_spaced m (same_obj lload_eqb h) (fun x y => ll_close _ h x y) (same_obj_refl lload_eqb h)
      (List.length (s_lls (snd s))) [] (s_lls (snd s)) (Forall_nil _)) as W.
    rewrite U0 in W, U1. specialize (W (spaced_one m a n b F') (le_n _)). cbn [List.length app] in W.
    rewrite W, filter_one in U1 by assumption.
    destruct (add_ll_eff s1 n u) as (s2 & E2 & H2 & U2 & L2 & M2 & N2 & X2).
    { now rewrite H1. } { unR. now apply Rltb_true. } { rewrite X1. unR. apply Rltb_false. lra. }
    assert (G1 : s_geom (snd s1) = s_geom (snd s)) by (now apply numbers_geom).
    assert (Q : forall k, In k (a ++ n :: b) -> nth_error (h_lls (fst s2)) k = nth_error h k).
    { intros k K. rewrite H2. cbn [h_lls]. rewrite H1. fold h. unfold crest_x. rewrite G1.
      rewrite nth_error_upd_all by (intros; apply ll_coords_idem).
      rewrite <- U0 in K. destruct (c_ll_locs s C k K) as (c & Ec & _). fold h in Ec. rewrite Ec.
      destruct (mem_nat _ _); [|reflexivity]. cbn [option_map]. f_equal. exact (U k c K Ec). }
    exists s1, s2. split; [exact E1|]. split; [exact E2|]. split; [|split; [split|congruence]].
    - unfold mats_of. rewrite H2. cbn [h_materials]. now rewrite H1, M2, M1.
    - unfold udls_of. rewrite H2. cbn [h_udls]. rewrite H1, L2, L1. apply Permutation_refl.
    - unfold lls_of. rewrite U2, U1, U0.
      rewrite (derefs_ext h (h_lls (fst s2)) ((a ++ b) ++ [n])).
      2:{ intros k K. apply Q. apply in_app_or in K. apply in_or_app. destruct K as [K|[<-|[]]].
          - apply in_app_or in K. destruct K; [now left|right; now right].
          - right. now left. }
      apply Permutation_map. rewrite !derefs_app. cbn [app]. change (n :: b) with ([n] ++ b). rewrite derefs_app.
      rewrite <- app_assoc. apply Permutation_app_head, Permutation_app_comm.
  Qed.
  Lemma reordered_answer (s s1 s2 : stR) o1 o2 mx : reachable s -> exec o1 s = (Ok tt, s1) -> exec o2 s1 = (Ok tt, s2) ->
    mats_of s2 = mats_of s -> reordered s s2 -> slope_numbers (snd s2) = slope_numbers (snd s) ->
    (fst (exec (Analyse mx) s2) = Ok tt <-> fst (exec (Analyse mx) s) = Ok tt) /\
    (forall a, exec (Analyse mx) s = (Ok tt, a) ->
     exists a2, exec (Analyse mx) s2 = (Ok tt, a2) /\
       map p_fos (s_search (snd a2)) = map p_fos (s_search (snd a)) /\ get_min_FOS (snd a2) = get_min_FOS (snd a)).
  Proof.
    intros Rs E1 E2 M O N.
    assert (R1 : reachable s1) by (replace s1 with (step s o1) by (unfold step; now rewrite E1); now apply reachable_step).
    assert (R2 : reachable s2) by (replace s2 with (step s1 o2) by (unfold step; now rewrite E2); now apply reachable_step).
    assert (ST : settings s2 = settings s) by (unfold settings, slope_numbers in *; congruence).
    assert (SE : searched s2 = searched s) by (unfold searched, slope_numbers in *; congruence).
    assert (PP : Permutation (map given (s_planes (snd s))) (map given (s_planes (snd s2)))).
    { replace (s_planes (snd s2)) with (s_planes (snd s)); [apply Permutation_refl|unfold slope_numbers in N; congruence]. }
    split; [apply order_raises; auto; now apply same_soil_refl|].
    intros a Ea. destruct (order_same s s2 a mx Rs R2 ST (same_soil_refl _ _ M) SE O PP Ea) as (a2 & A & _ & B & D). eauto.
  Qed.
End Again.

(** ** A layer assigned and removed, or removed and assigned again *)
Section Layers.
  Context {EN : Env}.
  Notation stR := (st R).
  (** every layer of the slope has the elevation its depth gives, inside the model *)
  Definition laid (s : stR) : Prop :=
    Forall (fun m => m_RL m = Some (g_ext_h (s_geom (snd s)) - m_depth m) /\
                     m_depth m <= g_ext_h (s_geom (snd s))) (mats_of s).
  Lemma laid_at (s : stR) k m : laid s -> In k (s_materials (snd s)) ->
    nth_error (h_materials (fst s)) k = Some m ->
    m_RL m = Some (g_ext_h (s_geom (snd s)) - m_depth m) /\ m_depth m <= g_ext_h (s_geom (snd s)).
  Proof.
    intros L K E. unfold laid in L. rewrite Forall_forall in L. apply L. apply in_derefs. eauto.
  Qed.
  Lemma derefs_numbers {A B} (f : A -> B) (h h' : list A) locs :
    (forall n, In n locs -> option_map f (nth_error h' n) = option_map f (nth_error h n)) ->
    map f (derefs h' locs) = map f (derefs h locs).
  Proof.
    intros Q. unfold derefs. induction locs as [|n locs IH]; [reflexivity|].
    cbn [flat_map map]. pose proof (Q n (or_introl eq_refl)) as E.
    assert (I : forall k, In k locs -> option_map f (nth_error h' k) = option_map f (nth_error h k))
      by (intros; apply Q; now right).
    specialize (IH I). cbn. destruct (nth_error h n), (nth_error h' n); cbn in *; try discriminate; try exact IH.
    injection E as E. now rewrite E, IH.
  Qed.
  Lemma assigned_numbers (s : stR) eh locs k m : NoDup locs -> In k locs ->
    nth_error (h_materials (fst s)) k = Some m -> m_RL m = Some (eh - m_depth m) ->
    option_map soil_numbers (nth_error (assign_pure eh 0 locs (h_materials (fst s))) k) =
    option_map soil_numbers (nth_error (h_materials (fst s)) k).
  Proof.
    intros N K E L. apply In_nth_error in K. destruct K as (i & K).
    rewrite (assign_pure_in _ _ _ _ i k N K), E. cbn [option_map Nat.add]. f_equal.
    unfold soil_numbers, assigned. destruct m; cbn in *. subst. reflexivity.
  Qed.
  Lemma undo_layer (s s1 : stR) n m : reachable s -> laid s ->
    nth_error (h_materials (fst s)) n = Some m -> m_depth m <> 0 ->
    m_depth m <= g_ext_h (s_geom (snd s)) ->
    exec (SetMaterials [RefMaterial n]) s = (Ok tt, s1) ->
    exists s2, exec (RemoveMaterial (Some (RefMaterial n)) PNone false) s1 = (Ok tt, s2) /\
               same_numbers s2 s.
  Proof.
    intros Rs La Em Nz Le E0.
    assert (Dn : depth_of (h_materials (fst s)) n = m_depth m) by (unfold depth_of; now rewrite Em).
    destruct (remove_undoes_add s s1 n Rs E0) as (s2 & E2 & M2); [congruence|].
    exists s2. split; [exact E2|].
    pose proof (reachable_inv s Rs) as (C & _ & _).
    pose proof E0 as E. cbn [exec] in E. apply with_refs_ok in E. destruct E as [_ E].
    rewrite set_materials_eff in E by auto. cbn [material_locs rbind] in E.
    destruct (rev _) as [|d ds] eqn:Er; [discriminate|].
    destruct (has_dup _) eqn:D; [discriminate|]. injection E as E. apply has_dup_false in D.
    assert (Dd : d <= g_ext_h (s_geom (snd s))).
    { assert (In d (map (depth_of (h_materials (fst s))) (sorted_locs s [n]))) as I.
      { apply in_rev. rewrite Er. now left. }
      apply in_map_iff in I. destruct I as (k & <- & K). unfold sorted_locs in K.
      apply (Permutation_in k (Permutation_sym (sort_by_perm _ _))) in K. cbn [app] in K.
      destruct K as [<-|K]; [congruence|].
      destruct (c_mat_set _ C k K) as (mk & Ek & _). unfold depth_of. rewrite Ek.
      now apply (laid_at s k mk). }
    assert (De : deepened d s = s).
    { unfold deepened. assert (Rltb (g_ext_h (s_geom (snd s))) d = false) as -> by (apply Rltb_false; lra). reflexivity. }
    rewrite De in E.
    assert (H2 : fst s2 = fst s1 /\ snd s2 = set_s_search [] (set_s_materials (s_materials (snd s2)) (snd s1))).
    { cbn [exec] in E2. apply with_refs_ok in E2. destruct E2 as [_ E2]. rewrite remove_material_eff in E2.
      destruct (removal_depth _ _ _); [|discriminate]. injection E2 as <-. split; reflexivity. }
    destruct H2 as [H2 S2]. split; [|split; [|split]].
    - unfold mats_of. rewrite M2, H2, <- E. cbn [layered fst h_materials].
      apply derefs_numbers. intros k K. destruct (c_mat_set _ C k K) as (mk & Ek & _).
      apply (assigned_numbers s _ _ k mk); auto.
      + now apply NoDup_map_inv in D.
      + unfold sorted_locs. eapply Permutation_in; [apply sort_by_perm|]. cbn [app]. now right.
      + now apply (laid_at s k mk).
    - unfold udls_of. rewrite S2, H2, <- E. reflexivity.
    - unfold lls_of. rewrite S2, H2, <- E. reflexivity.
    - rewrite S2, <- E. reflexivity.
  Qed.

  Lemma again_layer (s : stR) n m : reachable s -> laid s -> In n (s_materials (snd s)) ->
    nth_error (h_materials (fst s)) n = Some m -> m_depth m <> 0 ->
    exists s1 s2, exec (RemoveMaterial (Some (RefMaterial n)) PNone false) s = (Ok tt, s1) /\
      exec (SetMaterials [RefMaterial n]) s1 = (Ok tt, s2) /\ same_numbers s2 s.
  Proof.
    intros Rs La In0 Em Nz. pose proof (reachable_inv s Rs) as (C & _ & _).
    set (h := h_materials (fst s)) in *.
    assert (Rn : Forall (fun r => ref_exists (fst s) r = true) [RefMaterial n]).
    { constructor; [|constructor]. cbn [ref_exists]. apply Nat.ltb_lt, nth_error_Some. fold h. congruence. }
    set (l1 := filter (fun k => match nth_error h k with
                     | Some mk => negb (Reqb (m_depth mk) (m_depth m)) | None => true end) (s_materials (snd s))).
    assert (E1 : exec (RemoveMaterial (Some (RefMaterial n)) PNone false) s =
                 (Ok tt, (fst s, set_s_search [] (set_s_materials l1 (snd s))))).
    { cbn [exec]. rewrite with_refs_intro by exact Rn. rewrite remove_material_eff.
      unfold removal_depth, deref. fold h. rewrite Em. cbn [rbind].
      unfold h. rewrite (after_removal_filter s (PFloat (m_depth m)) (m_depth m) C eq_refl Nz). reflexivity. }
    set (s1 := (fst s, set_s_search [] (set_s_materials l1 (snd s))) : stR) in *.
    assert (R1 : reachable s1).
    { replace s1 with (step s (RemoveMaterial (Some (RefMaterial n)) PNone false)) by (unfold step; now rewrite E1).
      now apply reachable_step. }
    pose proof (reachable_inv s1 R1) as (C1 & _ & _).
    assert (Nd : NoDup (s_materials (snd s))).
    { eapply NoDup_map_inv. eapply strictly_sorted_nodup. apply (c_mat_sorted _ C). }
    assert (L1 : forall k, In k l1 <-> In k (s_materials (snd s)) /\ k <> n).
    { intros k. unfold l1. rewrite filter_In. split; intros [K Q]; split; auto.
      - intros ->. rewrite Em, Reqb_refl in Q. discriminate.
      - destruct (c_mat_set _ C k K) as (mk & Ek & _). fold h in Ek. rewrite Ek.
        apply negb_true_iff, Reqb_false. intros Q'. apply Q. apply (same_depth_eq s); auto.
        unfold depth_of. fold h. now rewrite Ek, Em. }
    assert (P : Permutation (s_materials (snd s)) (n :: l1)).
    { apply NoDup_Permutation; auto.
      - constructor; [rewrite L1; tauto|]. unfold l1. now apply NoDup_filter.
      - intros k. cbn [In]. rewrite L1. destruct (Nat.eq_dec k n) as [->|Q]; [tauto|].
        split; [tauto|]. intros [K|[K _]]; [congruence|auto]. }
    assert (SL : sorted_locs s1 [n] = s_materials (snd s)).
    { symmetry. apply (ListFacts.sorted_unique (depth_of h)).
      - etransitivity; [exact P|]. apply sort_by_perm.
      - intros a b A B. now apply (same_depth_eq s).
      - apply strictly_sorted_le. apply (c_mat_sorted _ C).
      - apply sort_by_sorted. }
    assert (Rn1 : Forall (fun r => ref_exists (fst s1) r = true) [RefMaterial n]) by exact Rn.
    eexists. eexists. split; [exact E1|]. split.
    - cbn [exec]. rewrite with_refs_intro by exact Rn1. rewrite set_materials_eff by exact C1.
      cbn [material_locs rbind]. rewrite SL. change (h_materials (fst s1)) with h.
      destruct (rev (map (depth_of h) (s_materials (snd s)))) as [|d ds] eqn:Er.
      { exfalso. apply (f_equal (@rev R)) in Er. rewrite rev_involutive in Er.
        destruct (s_materials (snd s)); [destruct In0|discriminate]. }
      assert (has_dup (map (depth_of h) (s_materials (snd s))) = false) as ->.
      { apply has_dup_false. eapply strictly_sorted_nodup. apply (c_mat_sorted _ C). }
      assert (Dd : d <= g_ext_h (s_geom (snd s))).
      { assert (In d (map (depth_of h) (s_materials (snd s)))) as I.
        { apply in_rev. rewrite Er. now left. }
        apply in_map_iff in I. destruct I as (k & <- & K).
        destruct (c_mat_set _ C k K) as (mk & Ek & _). unfold depth_of, h. rewrite Ek.
        now apply (laid_at s k mk). }
      unfold deepened. change (g_ext_h (s_geom (snd s1))) with (g_ext_h (s_geom (snd s))).
      assert (Rltb (g_ext_h (s_geom (snd s))) d = false) as -> by (apply Rltb_false; lra). reflexivity.
    - split; [|split; [|split]]; [|reflexivity..].
      unfold mats_of. cbn [layered fst snd s1 h_materials s_materials set_s_search set_s_materials].
      apply derefs_numbers. intros k K. destruct (c_mat_set _ C k K) as (mk & Ek & _).
      apply (assigned_numbers s _ _ k mk); auto. now apply (laid_at s k mk).
  Qed.
End Layers.
