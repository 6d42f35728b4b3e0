(** * AnyFacts: what holds in every arithmetic, binary64 included
    (pyslope.py:268-298, 315-407, 812-876, 926-1013).

    Nothing here uses a law of the numbers: rounding, infinities and NaN are
    allowed.  Comparisons are those of the program. *)
From Coq Require Import ZArith List Bool String Lia.
From Verif Require Import Num Py Validation Utilities Objects Slope Planes Analysis
     Dynamic Api ListFacts MonadFacts KeepFacts.
Import ListNotations.

Section Any.
  Context {T : Type} {NT : Num T} {EN : Env}.
  Notation stT := (st T).

  (** the limits as last accepted: neither pair is in the wrong order *)
  Definition limits_apart (s : stT) : Prop :=
    let l := s_limits (snd s) in
    nleb (lim_left_r l) (lim_left l) = false /\ nleb (lim_right l) (lim_right_l l) = false.
  Definition ranged (s : stT) : Prop :=
    (10 <= s_slices (snd s) <= 500)%Z /\ (500 <= s_iterations (snd s) <= 100000)%Z.
  (** the coordinates are the ones of the code for some minimum sizes *)
  Definition computed (s : stT) : Prop :=
    let g := s_geom (snd s) in
    (exists mh, g_ext_h g = pymax (pymax (nmul (nz 3) (g_height g)) mh)
                                  (ndiv (nmul (nz 5) (g_length g)) (nz 2))) /\
    (exists ml, g_ext_l g = pymax (pymax (nmul (nz 5) (g_length g)) ml)
                                  (nmul (nz 4) (g_height g))) /\
    g_top g = (ndiv (nsub (g_ext_l g) (g_length g)) (nz 2), g_ext_h g) /\
    g_bot g = (nadd (fst (g_top g)) (g_length g), nsub (g_ext_h g) (g_height g)) /\
    g_gradient g = ndiv (g_height g) (g_length g).
  Definition lawful (s : stT) : Prop := limits_apart s /\ ranged s /\ computed s.
  Definition stays (s s' : stT) : Prop := lawful s -> lawful s'.
  Lemma stays_refl s : stays s s.
  Proof. intros Q. exact Q. Qed.
  Lemma stays_trans a b c : stays a b -> stays b c -> stays a c.
  Proof. unfold stays. auto. Qed.
  Hint Resolve stays_refl stays_trans : core.
  Ltac stay := repeat (cbv zeta; first [ solve [auto with keeps nocore] | solve [intros ? Q; exact Q] | keep1
    | progress unfold set_udl_one, set_ll_one ]).

  (** an accepted call leaves limits in order, a rejected one changes nothing *)
  Lemma set_limits_cases a b c d (s : stT) :
    (exists e, set_analysis_limits a b c d s = (Err e, s)) \/
    (exists s', set_analysis_limits a b c d s = (Ok tt, s') /\ limits_apart s' /\
       fst s' = fst s /\ s_geom (snd s') = s_geom (snd s) /\
       s_slices (snd s') = s_slices (snd s) /\ s_iterations (snd s') = s_iterations (snd s)).
  Proof.
    unfold set_analysis_limits. msteps.
    destruct (limit_arg a _ _) as [lx|e]; [|left; eexists; reflexivity]. msteps.
    destruct (limit_arg c _ _) as [lxr|e]; [|left; eexists; reflexivity]. msteps.
    destruct (limit_arg d _ _) as [rxl|e]; [|left; eexists; reflexivity]. msteps.
    destruct (limit_arg b _ _) as [rx|e]; [|left; eexists; reflexivity]. msteps.
    destruct (as_num lx) as [x1|e]; [|left; eexists; reflexivity]. msteps.
    destruct (as_num lxr) as [x2|e]; [|left; eexists; reflexivity]. msteps.
    destruct (as_num rx) as [x3|e]; [|left; eexists; reflexivity]. msteps.
    destruct (as_num rxl) as [x4|e]; [|left; eexists; reflexivity]. msteps. cbv zeta.
    match goal with |- context [if ?c then _ else _] => destruct c eqn:E end;
      [left; eexists; reflexivity|].
    apply orb_false_iff in E as (E1 & E2). right. msteps. rewrite reset_eff.
    eexists. split; [reflexivity|]. split; [split; assumption|]. repeat split; reflexivity.
  Qed.
  Lemma set_limits_stays a b c d : keeps stays (set_analysis_limits a b c d).
  Proof.
    intros s LS. destruct (set_limits_cases a b c d s) as [(e & ->)|(s' & -> & L & E1 & E2 & E3 & E4)];
      [exact LS|]. destruct LS as (_ & R0 & C0). split; [exact L|]. split.
    - unfold ranged in *. cbn [snd]. now rewrite E3, E4.
    - unfold computed in *. cbn [snd]. now rewrite E2.
  Qed.
  Hint Resolve set_limits_stays : keeps.
  Lemma reset_stays : keeps stays reset_results.
  Proof. intros s Q. exact Q. Qed.
  Hint Resolve reset_stays : keeps.
  Lemma remove_limits_stays : keeps stays remove_analysis_limits.
  Proof. unfold remove_analysis_limits. stay. Qed.
  Hint Resolve remove_limits_stays : keeps.
  Lemma update_udl_stays : keeps stays update_udl_coordinates.
  Proof. unfold update_udl_coordinates. stay. Qed.
  Lemma update_ll_stays : keeps stays update_ll_coordinates.
  Proof. unfold update_ll_coordinates. stay. Qed.
  Hint Resolve update_udl_stays update_ll_stays : keeps.
  Lemma compute_geom_computed (h l mh ml : T) g (s : stT) : compute_geom h l mh ml = Ok g ->
    s_geom (snd s) = g -> computed s.
  Proof.
    unfold compute_geom. cbv zeta. unfold pydiv. destruct (neqb l _); [discriminate|]. cbn [rbind].
    intros Q E. injection Q as <-. unfold computed. rewrite E.
    cbn [g_height g_length g_gradient g_top g_bot g_ext_l g_ext_h fst snd].
    split; [eexists; reflexivity|]. split; [eexists; reflexivity|]. auto.
  Qed.
  Lemma set_boundary_stays h a l : keeps stays (set_external_boundary h a l).
  Proof.
    intros s LS. unfold set_external_boundary. msteps.
    destruct (boundary_inputs h a l) as [hl|e]; [|exact LS]. msteps.
    destruct (compute_geom _ _ _ _) as [g|e] eqn:E; [|exact LS]. msteps.
    destruct LS as (L0 & R0 & _).
    assert (K : keeps stays (update_udl_coordinates ;;; update_ll_coordinates ;;;
                  remove_analysis_limits ;;; reset_results)) by stay.
    apply K. split; [exact L0|]. split; [exact R0|]. eapply compute_geom_computed; eauto.
  Qed.
  Hint Resolve set_boundary_stays : keeps.
  Lemma boundary_options_stays a b : keeps stays (update_boundary_options a b).
  Proof. unfold update_boundary_options. stay. Qed.
  Hint Resolve boundary_options_stays : keeps.
  Lemma analysis_options_stays a b c d e : keeps stays (update_analysis_options a b c d e).
  Proof.
    unfold update_analysis_options. stay.
    - intros s (L0 & (_ & R0) & C0). split; [exact L0|]. split; [|exact C0].
      split; [|exact R0]. cbn. lia.
    - intros s (L0 & (R0 & _) & C0). split; [exact L0|]. split; [|exact C0].
      split; [exact R0|]. cbn. lia.
  Qed.
  Hint Resolve analysis_options_stays : keeps.
  Lemma assign_stays l : forall i, keeps stays (assign_materials i l).
  Proof.
    induction l as [|n l IH]; intros i; cbn [assign_materials]; stay; apply IH.
  Qed.
  Hint Resolve assign_stays : keeps.
  Lemma set_materials_stays l : keeps stays (set_materials l).
  Proof. unfold set_materials. stay. Qed.
  Lemma remove_material_stays m d a : keeps stays (remove_material m d a).
  Proof. unfold remove_material. stay. Qed.
  Lemma analyse_stays m : keeps stays (analyse_slope m).
  Proof. unfold analyse_slope. stay. Qed.
  Lemma set_udls_stays l : keeps stays (set_udls l).
  Proof. unfold set_udls. stay. Qed.
  Lemma set_lls_stays l : keeps stays (set_lls l).
  Proof. unfold set_lls. stay. Qed.
  Lemma remove_udls_stays l a : keeps stays (remove_udls l a).
  Proof. unfold remove_udls. stay. Qed.
  Lemma remove_lls_stays l a : keeps stays (remove_lls l a).
  Proof. unfold remove_lls. stay. Qed.
  Hint Resolve set_materials_stays remove_material_stays analyse_stays set_udls_stays
       set_lls_stays remove_udls_stays remove_lls_stays : keeps.
  Lemma move_stays o : keeps stays (set_dynamic_offset o).
  Proof. unfold set_dynamic_offset. stay. Qed.
  Lemma dynamic_stays c : keeps stays (analyse_dynamic c).
  Proof.
    apply keeps_dynamic; eauto with keeps.
    - apply move_stays.
    - intros d s Q. exact Q.
  Qed.
  Lemma exec_stays o : keeps stays (exec o).
  Proof.
    destruct o; cbn [exec]; unfold alloc, with_refs.
    all: match goal with
         | |- keeps _ (_ <- analyse_dynamic _ ;; _) =>
             apply keeps_bind; [eauto with keeps | apply dynamic_stays | intros ?; keep1]
         | _ => idtac end.
    all: try solve [stay].
    all: unfold set_water_table, remove_water_table, update_water_analysis_options,
           add_single_entry_exit_plane, add_single_circular_plane, remove_individual_planes;
         stay.
  Qed.
  Lemma run_stays ops : forall s : stT, lawful s -> lawful (run s ops).
  Proof.
    induction ops as [|o ops IH]; intros s LS; [exact LS|]. cbn [run fold_left].
    apply IH. unfold step. now apply exec_stays.
  Qed.

  (** a new slope *)
  Lemma bind_inv {A B} (m : M stT A) (k : A -> M stT B) s r s' :
    mbind m k s = (Ok r, s') -> exists a s1, m s = (Ok a, s1) /\ k a s1 = (Ok r, s').
  Proof. unfold mbind. destruct (m s) as [[a|e] s1]; [eauto | discriminate]. Qed.
  Lemma bind_err_inv {A B} (m : M stT A) (k : A -> M stT B) s e s' :
    mbind m k s = (Err e, s') ->
    m s = (Err e, s') \/ exists a s1, m s = (Ok a, s1) /\ k a s1 = (Err e, s').
  Proof.
    unfold mbind. destruct (m s) as [[a|e'] s1]; intros Q; [right; eauto|left].
    now injection Q as -> ->.
  Qed.
  Lemma keeps_ok {A} (Rel : stT -> stT -> Prop) (m : M stT A) s r s' :
    keeps Rel m -> m s = (r, s') -> Rel s s'.
  Proof. intros K E. specialize (K s). now rewrite E in K. Qed.
  Definition shape_of (s : stT) := s_geom (snd s).
  Definition numbers_of (s : stT) := (s_slices (snd s), s_iterations (snd s)).
  Lemma shape_limits : keeps (same shape_of) remove_analysis_limits.
  Proof. unfold remove_analysis_limits, set_analysis_limits. untouched. Qed.
  Lemma numbers_limits : keeps (same numbers_of) remove_analysis_limits.
  Proof. unfold remove_analysis_limits, set_analysis_limits. untouched. Qed.
  Lemma shape_water a h : keeps (same shape_of) (update_water_analysis_options a h).
  Proof. unfold update_water_analysis_options. untouched. Qed.
  Lemma numbers_water a h : keeps (same numbers_of) (update_water_analysis_options a h).
  Proof. unfold update_water_analysis_options. untouched. Qed.
  Hint Resolve shape_limits : keeps.
  Lemma boundary_computed h a l (s s' : stT) : set_external_boundary h a l s = (Ok tt, s') -> computed s'.
  Proof.
    unfold set_external_boundary. msteps.
    destruct (boundary_inputs h a l) as [hl|e]; [|discriminate]. msteps.
    destruct (compute_geom _ _ _ _) as [g|e] eqn:E; [|discriminate]. msteps. intros Q.
    assert (K : keeps (same shape_of) (update_udl_coordinates ;;; update_ll_coordinates ;;;
                  remove_analysis_limits ;;; reset_results)).
    { unfold update_udl_coordinates, update_ll_coordinates. untouched. }
    apply (keeps_ok _ _ _ _ _ K) in Q. eapply compute_geom_computed; [exact E|]. exact Q.
  Qed.
  (** a rejected call changed nothing or had already moved the cross-section *)
  Definition rest_of (s : stT) := (h_materials (fst s), s_materials (snd s), s_limits (snd s),
    s_water_RL (snd s), s_search (snd s), s_planes (snd s), s_udls (snd s), s_lls (snd s)).
  Lemma boundary_rejected h a l (s s' : stT) e :
    set_external_boundary h a l s = (Err e, s') ->
    s' = s \/ (computed s' /\ rest_of s' = rest_of s).
  Proof.
    unfold set_external_boundary. msteps.
    destruct (boundary_inputs h a l) as [hl|e'].
    2:{ intros Q. injection Q as _ <-. now left. }
    msteps. destruct (compute_geom _ _ _ _) as [g|e'] eqn:E.
    2:{ intros Q. injection Q as _ <-. now left. }
    msteps. intros Q. right. split.
    - assert (K : keeps (same shape_of) (update_udl_coordinates ;;; update_ll_coordinates ;;;
                    remove_analysis_limits ;;; reset_results)).
      { unfold update_udl_coordinates, update_ll_coordinates. untouched. }
      apply (keeps_ok _ _ _ _ _ K) in Q. eapply compute_geom_computed; [exact E|]. exact Q.
    - assert (K1 : keeps (same rest_of) update_udl_coordinates) by (unfold update_udl_coordinates; untouched).
      assert (K2 : keeps (same rest_of) update_ll_coordinates) by (unfold update_ll_coordinates; untouched).
      set (s0 := (fst _, set_s_geom _ _)) in Q. assert (Q0 : rest_of s0 = rest_of s) by reflexivity.
      rewrite <- Q0. clearbody s0. clear - Q K1 K2.
      apply bind_err_inv in Q as [Q|([] & s1 & E1 & Q)]; [exact (keeps_ok _ _ _ _ _ K1 Q)|].
      apply (keeps_ok _ _ _ _ _ K1) in E1. red in E1. rewrite <- E1.
      apply bind_err_inv in Q as [Q|([] & s2 & E2 & Q)]; [exact (keeps_ok _ _ _ _ _ K2 Q)|].
      apply (keeps_ok _ _ _ _ _ K2) in E2. red in E2. rewrite <- E2.
      apply bind_err_inv in Q as [Q|([] & s3 & E3 & Q)].
      + unfold remove_analysis_limits in Q. rewrite bind_self_get in Q.
        apply bind_err_inv in Q as [Q|([] & s4 & E4 & Q)].
        * match type of Q with set_analysis_limits ?a ?b ?c ?d _ = _ =>
            destruct (set_limits_cases a b c d s2) as [(e' & Q')|(s5 & Q' & _)] end; [|congruence].
          rewrite Q' in Q. now injection Q as _ <-.
        * rewrite reset_eff in Q. discriminate.
      + rewrite reset_eff in Q. discriminate.
  Qed.
  Lemma boundary_rejected_all h a l (s s' : stT) e :
    exec (SetBoundary h a l) s = (Err e, s') ->
    s' = s \/
    (h_materials (fst s') = h_materials (fst s) /\ s_materials (snd s') = s_materials (snd s) /\
     s_limits (snd s') = s_limits (snd s) /\ s_water_RL (snd s') = s_water_RL (snd s) /\
     s_search (snd s') = s_search (snd s) /\ s_planes (snd s') = s_planes (snd s) /\
     s_udls (snd s') = s_udls (snd s) /\ s_lls (snd s') = s_lls (snd s) /\ computed s').
  Proof.
    intros Q. destruct (boundary_rejected h a l s s' e Q) as [E|(C & E)]; [now left|right].
    unfold rest_of in E. injection E as -> -> -> -> -> -> -> ->. tauto.
  Qed.
  Lemma new_lawful hp height angle length (s : stT) :
    new_slope hp height angle length = Ok s -> lawful s.
  Proof.
    unfold new_slope. destruct (init_slope height angle length (hp, blank_slope)) as [[[]|e] s0] eqn:E;
      [|discriminate]. intros Q. injection Q as ->. unfold init_slope in E.
    do 7 rewrite bind_self_upd in E.
    apply bind_inv in E as (? & s1 & _ & E). apply bind_inv in E as ([] & s2 & B & E).
    apply boundary_computed in B. apply bind_inv in E as ([] & s3 & O & E).
    assert (G3 : shape_of s3 = shape_of s2 /\ numbers_of s3 = (25, 1000)%Z).
    { unfold update_analysis_options in O. cbn [Z.eqb negb mwhen] in O.
      repeat first [rewrite bind_self_upd in O | rewrite bind_self_get in O | rewrite bind_assoc in O].
      rewrite reset_eff in O. injection O as <-. split; reflexivity. }
    apply bind_inv in E as ([] & s4 & W & E).
    pose proof (keeps_ok _ _ _ _ _ (shape_water true (PInt 1)) W) as G4. red in G4.
    pose proof (keeps_ok _ _ _ _ _ (numbers_water true (PInt 1)) W) as N4. red in N4.
    pose proof (keeps_ok _ _ _ _ _ shape_limits E) as G5. red in G5.
    pose proof (keeps_ok _ _ _ _ _ numbers_limits E) as N5. red in N5.
    destruct G3 as (G3 & N3). rewrite N4, N3 in N5. rewrite G4, G3 in G5.
    split; [|split].
    - unfold remove_analysis_limits in E. rewrite bind_self_get in E.
      apply bind_inv in E as ([] & s5 & L & E).
      match type of L with set_analysis_limits ?a ?b ?c ?d _ = _ =>
        destruct (set_limits_cases a b c d s4) as [(e & Q)|(s' & Q & LA & _)] end; [congruence|].
      rewrite Q in L. injection L as ->. rewrite reset_eff in E. injection E as <-. exact LA.
    - unfold ranged. injection N5 as -> ->. lia.
    - unfold computed in *. unfold shape_of in G5. rewrite G5. exact B.
  Qed.
  Lemma reachable_lawful (s : stT) : reachable s -> lawful s.
  Proof.
    intros (h & a & l & ops & s0 & E & ->). apply run_stays. eapply new_lawful; eauto.
  Qed.
End Any.
