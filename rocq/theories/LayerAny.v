(** * LayerAny: layers and loads in every arithmetic, and their order wherever the
    comparisons behave (C89). *)
From Coq Require Import ZArith List Bool String Lia Permutation Sorted.
From Verif Require Import Num Py Validation Utilities Objects Slope Planes Analysis
     Dynamic Api ListFacts MonadFacts KeepFacts MaterialFacts AnyFacts.
Import ListNotations.

(** The comparisons are those of a total order on the numbers called [fine]. *)
Record ordering {T : Type} {NT : Num T} (fine : T -> Prop) : Prop := {
  or_irr : forall x, fine x -> nltb x x = false;
  or_trans : forall x y z, fine x -> fine y -> fine z ->
    nltb y x = false -> nltb z y = false -> nltb z x = false;
  or_tri : forall x y, fine x -> fine y -> nltb y x = false -> neqb x y = false -> nltb x y = true;
  or_asym : forall x y, fine x -> fine y -> nltb x y = true -> nltb y x = false;
  or_eq : forall x y z, fine x -> fine y -> neqb x z = true -> neqb y z = true -> neqb x y = true;
  or_refl : forall x, fine x -> neqb x x = true;
  or_eqlt : forall x y, fine x -> fine y -> neqb x y = true -> nltb x y = false;
  or_sym : forall x y, fine x -> fine y -> neqb x y = neqb y x;
}.

Section LayerAny.
  Context {T : Type} {NT : Num T} {EN : Env}.
  Notation stT := (st T).

  (** ** Calls that leave layers alone *)
  Definition matsT (s : stT) := (h_materials (fst s), s_materials (snd s)).
  Lemma matsT_upd_udl n f : keeps (same matsT) (upd_udl n f).
  Proof. intros s. reflexivity. Qed.
  Lemma matsT_upd_ll n f : keeps (same matsT) (upd_ll n f).
  Proof. intros s. reflexivity. Qed.
  Hint Resolve matsT_upd_udl matsT_upd_ll : keeps.
  Lemma matsT_udl_coordinates : keeps (same matsT) update_udl_coordinates.
  Proof. unfold update_udl_coordinates. untouched. Qed.
  Lemma matsT_ll_coordinates : keeps (same matsT) update_ll_coordinates.
  Proof. unfold update_ll_coordinates. untouched. Qed.
  Hint Resolve matsT_udl_coordinates matsT_ll_coordinates : keeps.
  Lemma matsT_limits a b c d : keeps (same matsT) (set_analysis_limits a b c d).
  Proof. unfold set_analysis_limits. untouched. Qed.
  Hint Resolve matsT_limits : keeps.
  Lemma matsT_remove_limits : keeps (same matsT) remove_analysis_limits.
  Proof. unfold remove_analysis_limits. untouched. Qed.
  Hint Resolve matsT_remove_limits : keeps.
  Lemma matsT_set_boundary h a l : keeps (same matsT) (set_external_boundary h a l).
  Proof. unfold set_external_boundary. untouched. Qed.
  Hint Resolve matsT_set_boundary : keeps.
  Lemma matsT_boundary_options l h : keeps (same matsT) (update_boundary_options l h).
  Proof. unfold update_boundary_options. untouched. Qed.
  Hint Resolve matsT_boundary_options : keeps.
  Lemma matsT_set_udls l : keeps (same matsT) (set_udls l).
  Proof. unfold set_udls. untouched. Qed.
  Lemma matsT_set_lls l : keeps (same matsT) (set_lls l).
  Proof. unfold set_lls. untouched. Qed.
  Lemma matsT_remove_udls l a : keeps (same matsT) (remove_udls l a).
  Proof. unfold remove_udls. untouched. Qed.
  Lemma matsT_remove_lls l a : keeps (same matsT) (remove_lls l a).
  Proof. unfold remove_lls. untouched. Qed.
  Hint Resolve matsT_set_udls matsT_set_lls matsT_remove_udls matsT_remove_lls : keeps.
  Lemma matsT_analyse m : keeps (same matsT) (analyse_slope m).
  Proof. unfold analyse_slope. untouched. Qed.
  Lemma matsT_move o : keeps (same matsT) (set_dynamic_offset o).
  Proof. unfold set_dynamic_offset. untouched. Qed.
  Lemma matsT_dynamic c : keeps (same matsT) (analyse_dynamic c).
  Proof.
    apply keeps_dynamic; auto using matsT_move, matsT_analyse.
    - apply same_trans.
    - intros d s. reflexivity.
  Qed.
  Hint Resolve matsT_analyse matsT_dynamic : keeps.
  Definition layer_call (o : op T) : bool :=
    match o with NewMaterial _ _ _ _ _ _ | SetMaterials _ | RemoveMaterial _ _ _ => true | _ => false end.
  Lemma matsT_other o : layer_call o = false -> keeps (same matsT) (exec o).
  Proof.
    destruct o; cbn [layer_call exec]; try discriminate; intros _;
      unfold with_refs, alloc, set_water_table, remove_water_table, update_water_analysis_options,
        update_analysis_options,
        add_single_entry_exit_plane, add_single_circular_plane, remove_individual_planes;
      untouched.
  Qed.

  (** ** The three calls on layers *)
  Lemma set_materials_split args (s s' : stT) r : set_materials args s = (r, s') ->
    (matsT s' = matsT s /\ exists e, r = Err e) \/
    exists news level, material_locs args = Ok news /\
      let locs := sort_by (depth_of (h_materials (fst s))) (news ++ s_materials (snd s)) in
      has_dup (map (depth_of (h_materials (fst s))) locs) = false /\
      s_materials (snd s') = locs /\
      h_materials (fst s') = assign_pure level 0 locs (h_materials (fst s)) /\
      level = g_ext_h (s_geom (snd s')).
  Proof.
    unfold set_materials. rewrite bind_lift. destruct (material_locs args) as [news|e] eqn:EN1.
    2:{ intros Q. injection Q as <- <-. left. eauto. }
    rewrite bind_self_get, bind_heap_get. cbv zeta.
    set (locs := sort_by _ _). set (ds := map _ locs).
    rewrite bind_lift. destruct (match rev ds with d :: _ => Ok d | [] => Err IndexError end) as [d|e].
    2:{ intros Q. injection Q as <- <-. left. eauto. }
    rewrite bind_self_get. unfold mbind at 1.
    assert (K : keeps (same matsT) (mwhen (nltb (g_ext_h (s_geom (snd s))) d)
                  (update_boundary_options PNone (PFloat d)))) by untouched.
    destruct (mwhen _ _ s) as [[[]|e] s1] eqn:E1.
    2:{ intros Q. injection Q as <- <-. left. split; [exact (keeps_ok _ _ _ _ _ K E1)|eauto]. }
    pose proof (keeps_ok _ _ _ _ _ K E1) as Q1. unfold same, matsT in Q1. injection Q1 as H1 H2.
    destruct (has_dup ds) eqn:D.
    { intros Q. injection Q as <- <-. left. unfold matsT. rewrite H1, H2. eauto. }
    unfold mbind at 1. rewrite assign_materials_eff. rewrite bind_self_upd, reset_eff.
    intros Q. injection Q as _ <-. right. exists news. eexists. split; [reflexivity|].
    cbn [fst snd h_materials s_materials set_s_search set_s_materials s_geom].
    split; [exact D|]. split; [reflexivity|]. rewrite H1. split; reflexivity.
  Qed.
  Lemma set_materials_any args (s s' : stT) r : set_materials args s = (r, s') ->
    matsT s' = matsT s \/
    exists news level, material_locs args = Ok news /\
      let locs := sort_by (depth_of (h_materials (fst s))) (news ++ s_materials (snd s)) in
      has_dup (map (depth_of (h_materials (fst s))) locs) = false /\
      s_materials (snd s') = locs /\
      h_materials (fst s') = assign_pure level 0 locs (h_materials (fst s)) /\
      level = g_ext_h (s_geom (snd s')).
  Proof. intros E. destruct (set_materials_split _ _ _ _ E) as [(Q & _)|Q]; auto. Qed.
  Lemma remove_material_any m d all (s s' : stT) r : remove_material m d all s = (r, s') ->
    h_materials (fst s') = h_materials (fst s) /\
    (s_materials (snd s') = s_materials (snd s) \/ s_materials (snd s') = [] \/
     exists p, s_materials (snd s') = remove_first p (s_materials (snd s))).
  Proof.
    unfold remove_material. intros Q.
    destruct ((match m with
              | Some (RefMaterial n) => mm <- get_material n ;; mret (PFloat (m_depth mm))
              | _ => mret d end) s) as [[dd|e] s1] eqn:E1;
      unfold mbind at 1 in Q; rewrite E1 in Q.
    2:{ injection Q as _ <-. assert (s1 = s).
        { destruct m as [[n|n|n|]|]; try (injection E1 as _ <-; reflexivity).
          unfold get_material in E1. unfold mbind in E1. cbn in E1.
          destruct (deref _ _); injection E1 as _ <-; reflexivity. }
        subst s1. auto. }
    assert (s1 = s).
    { destruct m as [[n|n|n|]|]; try (injection E1 as _ <-; reflexivity).
      unfold get_material in E1. unfold mbind in E1. cbn in E1.
      destruct (deref _ _); injection E1 as _ <-; reflexivity. }
    subst s1. rewrite bind_when in Q. destruct (truthy dd).
    - repeat first [rewrite bind_assoc in Q | rewrite bind_heap_get in Q | rewrite bind_self_get in Q].
      destruct (find _ _) as [n|].
      + rewrite bind_self_upd, bind_when in Q. destruct all.
        * rewrite bind_self_upd, reset_eff in Q. injection Q as _ <-. cbn. auto.
        * rewrite reset_eff in Q. injection Q as _ <-. cbn. split; auto. right; right. eauto.
      + rewrite bind_ret, bind_when in Q. destruct all.
        * rewrite bind_self_upd, reset_eff in Q. injection Q as _ <-. cbn. auto.
        * rewrite reset_eff in Q. injection Q as _ <-. cbn. auto.
    - rewrite bind_when in Q. destruct all.
      * rewrite bind_self_upd, reset_eff in Q. injection Q as _ <-. cbn. auto.
      * rewrite reset_eff in Q. injection Q as _ <-. cbn. auto.
  Qed.

  (** ** The invariant *)
  Definition layer_set (h : list (material T)) (locs : list nat) (level : T) : Prop :=
    forall n, In n locs -> exists m, nth_error h n = Some m /\
      m_RL m = Some (nsub level (m_depth m)) /\ m_color m <> EmptyString.
  Lemma assign_in level locs : forall i h n, In n locs -> (n < List.length h)%nat ->
    exists m, nth_error (assign_pure level i locs h) n = Some m /\
      m_RL m = Some (nsub level (m_depth m)) /\ m_color m <> EmptyString.
  Proof.
    induction locs as [|k locs IH]; intros i h n Hn L; [destruct Hn|]. cbn [assign_pure].
    destruct (in_dec Nat.eq_dec n locs) as [I|N].
    - apply IH; auto. now rewrite upd_nth_length.
    - rewrite assign_pure_notin by auto. destruct Hn as [ -> |Hn]; [|contradiction].
      rewrite nth_error_upd_nth, Nat.eqb_refl.
      destruct (nth_error h n) as [m|] eqn:E; [|apply nth_error_None in E; lia].
      eexists. split; [reflexivity|]. split; [reflexivity|]. apply material_color_nonempty.
  Qed.

  Lemma insert_in {A} (lt : A -> A -> bool) x l y : In y (insert lt x l) <-> y = x \/ In y l.
  Proof.
    induction l as [|z l IH]; cbn [insert]; [cbn; intuition|].
    destruct (lt z x); cbn; [rewrite IH|]; intuition.
  Qed.
  Lemma sort_in {A} (lt : A -> A -> bool) l y : In y (sort lt l) <-> In y l.
  Proof. induction l as [|x l IH]; cbn [sort]; [tauto|]. rewrite insert_in, IH. cbn. intuition. Qed.
  Lemma remove_first_in {A} (p : A -> bool) l y : In y (remove_first p l) -> In y l.
  Proof. induction l as [|x l IH]; cbn; auto. destruct (p x); cbn; intuition. Qed.

  Section Ordered.
    Context (fine : T -> Prop) (OR : ordering fine).
    Definition no_later {A} (key : A -> T) (a b : A) : Prop := nltb (key b) (key a) = false.
    Lemma insert_no_later {A} (key : A -> T) x l : fine (key x) -> (forall y, In y l -> fine (key y)) ->
      StronglySorted (no_later key) l ->
      StronglySorted (no_later key) (insert (fun a b => nltb (key a) (key b)) x l).
    Proof.
      intros FX FL. induction 1 as [|y l SS IH FA]; cbn [insert].
      - constructor; constructor.
      - assert (FY : fine (key y)) by (apply FL; now left).
        destruct (nltb (key y) (key x)) eqn:E.
        + constructor; [apply IH; intros; apply FL; now right|].
          apply Forall_forall. intros z Hz. apply insert_in in Hz as [ -> |Hz].
          * unfold no_later. now apply (or_asym _ OR).
          * rewrite Forall_forall in FA. now apply FA.
        + constructor; [constructor; auto|]. constructor; [exact E|].
          rewrite Forall_forall in *. intros z Hz. unfold no_later in *.
          apply (or_trans _ OR) with (key y); auto. apply FL. now right.
    Qed.
    Lemma sort_no_later {A} (key : A -> T) l : (forall y, In y l -> fine (key y)) ->
      StronglySorted (no_later key) (sort_by key l).
    Proof.
      unfold sort_by. induction l as [|x l IH]; intros FL; cbn [sort]; [constructor|].
      apply insert_no_later; [apply FL; now left| |apply IH; intros; apply FL; now right].
      intros y Hy. apply sort_in in Hy. apply FL. now right.
    Qed.
    Definition before {A} (key : A -> T) (a b : A) : Prop := nltb (key a) (key b) = true.
    Lemma strict_of_no_dup {A} (key : A -> T) l : (forall y, In y l -> fine (key y)) ->
      StronglySorted (no_later key) l -> has_dup (map key l) = false -> StronglySorted (before key) l.
    Proof.
      intros FL. induction 1 as [|x l SS IH FA]; cbn [map has_dup]; intros D; constructor.
      - apply IH; [intros; apply FL; now right|]. now apply orb_false_iff in D.
      - apply orb_false_iff in D as (D & _). rewrite Forall_forall in *. intros y Hy.
        apply (or_tri _ OR); [apply FL; now left|apply FL; now right|now apply FA|].
        destruct (neqb (key x) (key y)) eqn:E; auto. rewrite <- D. symmetry.
        apply existsb_exists. exists (key y). split; auto. now apply in_map.
    Qed.
    Definition fine_depths (s : stT) : Prop := forall m, In m (h_materials (fst s)) -> fine (m_depth m).

    Record Layered (s : stT) : Prop := {
      ly_set : exists level, layer_set (h_materials (fst s)) (s_materials (snd s)) level;
      ly_order : fine_depths s ->
        StronglySorted (before (depth_of (h_materials (fst s)))) (s_materials (snd s));
    }.
    Lemma depth_fine (s : stT) n : fine_depths s -> (n < List.length (h_materials (fst s)))%nat ->
      fine (depth_of (h_materials (fst s)) n).
    Proof.
      intros FD L. unfold depth_of. destruct (nth_error (h_materials (fst s)) n) eqn:E.
      - apply FD. eapply nth_error_In; eauto.
      - apply nth_error_None in E. lia.
    Qed.
    Lemma layer_set_valid h locs level n : layer_set h locs level -> In n locs -> (n < List.length h)%nat.
    Proof. intros L I. destruct (L n I) as (m & E & _). apply nth_error_Some. congruence. Qed.
    Lemma material_locs_valid (h : heap T) args news : material_locs args = Ok news ->
      forallb (ref_exists h) args = true -> forall n, In n news -> (n < List.length (h_materials h))%nat.
    Proof.
      revert news. induction args as [|[k|k|k|] args IH]; intros news; cbn [material_locs]; try discriminate.
      - intros Q _ n I. injection Q as <-. destruct I.
      - destruct (material_locs args) as [ns|]; cbn [rbind]; [|discriminate]. intros Q.
        injection Q as <-. cbn [forallb ref_exists]. intros Q. apply andb_true_iff in Q as (Q1 & Q2).
        intros n [ <- |I]; [now apply Nat.ltb_lt|]. eapply IH; eauto.
    Qed.
    Lemma sub_sorted {A} (Rel : A -> A -> Prop) p l : StronglySorted Rel l ->
      StronglySorted Rel (remove_first p l).
    Proof. apply StronglySorted_incl_sub. Qed.

    Lemma layered_mats (a b : stT) : matsT b = matsT a -> Layered a -> Layered b.
    Proof.
      unfold matsT. intros E. injection E as E1 E2. intros [A B]. constructor.
      - destruct A as (lv & A). exists lv. now rewrite E1, E2.
      - unfold fine_depths in *. rewrite E1, E2. exact B.
    Qed.
    Lemma exec_layered o (s : stT) : Layered s -> Layered (snd (exec o s)).
    Proof.
      intros LY. destruct (layer_call o) eqn:K.
      2:{ apply (layered_mats s); auto. exact (matsT_other o K s). }
      destruct LY as [(lv & LS) LO].
      destruct o; try discriminate K; cbn [exec].
      - unfold alloc. rewrite bind_lift. destruct (new_material _ _ _ _ _ _) as [m|] eqn:E;
          [|constructor; eauto].
        cbn [snd mupd]. constructor; cbn [fst snd h_materials].
        + exists lv. intros k Hk. destruct (LS k Hk) as (mk & Ek & P). exists mk. split; auto.
          rewrite nth_error_app1; auto. apply nth_error_Some. congruence.
        + intros FD. apply (StronglySorted_ext (before (depth_of (h_materials (fst s))))).
          * intros x y Hx Hy. unfold before, depth_of.
            destruct (LS x Hx) as (mx & Ex & _). destruct (LS y Hy) as (my & Ey & _).
            rewrite !nth_error_app1 by (apply nth_error_Some; congruence). auto.
          * apply LO. intros k Hk. apply FD. cbn. apply in_or_app. now left.
      - unfold with_refs. rewrite bind_get. destruct (forallb _ l) eqn:FR; [|constructor; eauto].
        destruct (set_materials l s) as [r s'] eqn:E. cbn [snd].
        destruct (set_materials_any _ _ _ _ E) as [Q|(news & lv' & EN1 & D & E1 & E2 & _)].
        { apply (layered_mats s); auto. constructor; eauto. }
        pose proof (material_locs_valid _ _ _ EN1 FR) as V.
        assert (VL : forall n, In n (news ++ s_materials (snd s)) -> (n < List.length (h_materials (fst s)))%nat).
        { intros n I. apply in_app_or in I as [I|I]; auto. eapply layer_set_valid; eauto. }
        constructor.
        + exists lv'. rewrite E1, E2. intros n Hn. apply assign_in; auto.
          apply VL. unfold sort_by in Hn. now apply sort_in in Hn.
        + intros FD'. assert (FD : fine_depths s).
          { intros m I. apply In_nth_error in I as (n & Hn).
            pose proof (assign_pure_data lv' (s_materials (snd s')) 0 (h_materials (fst s)) n) as Q.
            rewrite Hn, E1, <- E2 in Q. destruct (nth_error (h_materials (fst s')) n) as [m'|] eqn:En;
              [|discriminate]. cbn in Q. unfold mat_data in Q.
            assert (m_depth m = m_depth m') as -> by congruence.
            apply FD'. eapply nth_error_In; eauto. }
          assert (ST : StronglySorted (before (depth_of (h_materials (fst s)))) (s_materials (snd s'))).
          { rewrite E1. apply strict_of_no_dup; auto.
            - intros y Hy. unfold sort_by in Hy. apply sort_in in Hy. apply depth_fine; auto.
            - apply sort_no_later. intros y Hy. apply depth_fine; auto. }
          eapply StronglySorted_ext; [|exact ST]. intros x y _ _. unfold before.
          rewrite E2, !assign_pure_depth. auto.
      - unfold with_refs. rewrite bind_get. destruct (forallb _ _); [|constructor; eauto].
        match goal with |- Layered (snd (?f s)) => destruct (f s) as [r s'] eqn:E end. cbn [snd].
        destruct (remove_material_any _ _ _ _ _ _ E) as (E1 & E2).
        constructor.
        + exists lv. rewrite E1. intros k Hk. apply LS.
          destruct E2 as [E2|[E2|(p & E2)]]; rewrite E2 in Hk; auto; [destruct Hk|].
          eapply remove_first_in; eauto.
        + unfold fine_depths. rewrite E1. intros FD. specialize (LO FD).
          destruct E2 as [E2|[E2|(p & E2)]]; rewrite E2; auto; [constructor|]. now apply sub_sorted.
    Qed.
    Lemma run_layered ops : forall s : stT, Layered s -> Layered (run s ops).
    Proof.
      induction ops as [|o ops IH]; intros s LS; [exact LS|]. cbn [run fold_left].
      apply IH. unfold step. now apply exec_layered.
    Qed.
    Lemma new_layered h a l (s : stT) : new_slope empty_heap h a l = Ok s -> Layered s.
    Proof.
      unfold new_slope. destruct (init_slope h a l (empty_heap, blank_slope)) as [[[]|e] s0] eqn:E;
        [|discriminate]. intros Q. injection Q as ->.
      assert (M : s_materials (snd s) = []).
      { unfold init_slope in E. rewrite bind_self_upd in E.
        match type of E with ?m ?s1 = _ => assert (K : keeps (same (fun s : stT => s_materials (snd s))) m) end.
        { unfold update_analysis_options, update_water_analysis_options, update_boundary_options,
            set_external_boundary, remove_analysis_limits, set_analysis_limits,
            update_udl_coordinates, update_ll_coordinates. untouched. }
        apply (keeps_ok _ _ _ _ _ K) in E. exact E. }
      constructor; rewrite M.
      - exists (nz 0). intros n [].
      - constructor.
    Qed.
    Lemma reachable_layered (s : stT) : reachable s -> Layered s.
    Proof. intros (h & a & l & ops & s0 & E & ->). apply run_layered. eapply new_layered; eauto. Qed.
  End Ordered.
End LayerAny.
