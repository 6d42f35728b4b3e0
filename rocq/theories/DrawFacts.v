(** * DrawFacts: histories after which the figure can be drawn.

    [plot_iff] (FigureFacts) gives the condition on one state.  Here: the condition
    holds after every history that never makes the model shallower and never removes
    distributed loads one by one. *)
From Coq Require Import ZArith Reals Lra Lia List Bool String Permutation Sorted.
From Verif Require Import Num Py Validation Utilities Objects Slope Planes Analysis
     Dynamic Api RealNum RealFacts ListFacts MonadFacts SlopeFacts MaterialFacts KeepFacts
     Invariant History Spec EditFacts LayerFacts LoadFacts OptionFacts SearchFacts MatInv
     GrowFacts Plot FigureFacts.
Import ListNotations.
Local Open Scope R_scope.

Section Draw.
  Context {EN : Env}.
  Notation stR := (st R).

  Definition scale_ok (s : stR) : Prop :=
    s_udls (snd s) = [] \/ exists t, s_udl_max (snd s) = UmNum t /\ t <> 0.
  Definition levels_inside (s : stR) : Prop :=
    forall n m, In n (s_materials (snd s)) -> nth_error (h_materials (fst s)) n = Some m ->
    exists y, m_RL m = Some y /\ y <= g_ext_h (s_geom (snd s)).
  Definition water_inside (s : stR) : Prop :=
    forall y, s_water_RL (snd s) = Some y -> y <= g_ext_h (s_geom (snd s)).
  Definition fit (s : stR) : Prop := levels_inside s /\ scale_ok s /\ water_inside s.

  Lemma fit_drawable s : fit s -> drawable s.
  Proof.
    intros (L & U & W). right. split; [|split].
    - intros m Hm. assert (I : In m (mats_of s)).
      { revert Hm. generalize (mats_of s). induction l as [|a l IH]; [auto|].
        destruct l as [|b l]; [intros []|]. cbn [removelast In] in *.
        intros [ <- | Q ]; auto. }
      apply in_derefs in I. destruct I as (n & Hn & Q). eauto.
    - destruct U as [U|U]; auto. left. unfold udls_of. now rewrite U.
    - intros y Hy _. auto.
  Qed.

  (** *** The scale of the distributed loads *)
  Definition um (s : stR) := (s_udls (snd s), s_udl_max (snd s)).
  Lemma scale_same s s' : um s' = um s -> scale_ok s -> scale_ok s'.
  Proof. unfold um, scale_ok. intros Q. injection Q as -> ->. auto. Qed.
  Lemma um_set_boundary h a l : keeps (same um) (set_external_boundary h a l).
  Proof. unfold set_external_boundary. untouched. Qed.
  Hint Resolve um_set_boundary : keeps.
  Lemma um_boundary_options l h : keeps (same um) (update_boundary_options l h).
  Proof. unfold update_boundary_options. untouched. Qed.
  Hint Resolve um_boundary_options : keeps.
  Lemma um_assign locs : forall i, keeps (same um) (assign_materials i locs).
  Proof. induction locs; intros i; cbn [assign_materials]; untouched. Qed.
  Hint Resolve um_assign : keeps.
  Lemma um_set_materials l : keeps (same um) (set_materials l).
  Proof. unfold set_materials. untouched. Qed.
  Lemma um_remove_material m d a : keeps (same um) (remove_material m d a).
  Proof. unfold remove_material. untouched. Qed.
  Lemma um_analyse m : keeps (same um) (analyse_slope m).
  Proof. unfold analyse_slope. untouched. Qed.
  Lemma um_set_lls l : keeps (same um) (set_lls l).
  Proof. unfold set_lls. untouched. Qed.
  Lemma um_remove_lls l a : keeps (same um) (remove_lls l a).
  Proof. unfold remove_lls. untouched. Qed.
  Hint Resolve um_set_materials um_remove_material um_analyse um_set_lls um_remove_lls : keeps.

  Lemma scale_set_udls l (s s' : stR) :
    Inv s' -> set_udls l s = (Ok tt, s') -> scale_ok s'.
  Proof.
    intros (C & _) E. destruct (s_udls (snd s')) as [|n ns] eqn:Q; [now left|right].
    destruct (udls_max_eff l s s' E) as (m & M & I & _).
    { destruct (c_udl_locs _ C n) as (u & Eu & _); [rewrite Q; now left|].
      unfold udls_of. rewrite Q. cbn. rewrite Eu. discriminate. }
    exists m. split; auto. apply in_map_iff in I. destruct I as (u & <- & Iu).
    apply in_derefs in Iu. destruct Iu as (k & Hk & Ek).
    destruct (c_udl_locs _ C k Hk) as (u' & Eu & Pu).
    rewrite Ek in Eu. injection Eu as <-. lra.
  Qed.
  Lemma scale_move_udls o ns : forall s : stR,
    Inv s -> scale_ok s -> Forall (fun n => (n < List.length (h_udls (fst s)))%nat) ns ->
    exists s', mforM ns (fun n =>
      u <- get_udl n ;;
      mwhen (u_dynamic u) (upd_udl n (set_udl_offset o)) ;;;
      set_udls [RefUdl n]) s = (Ok tt, s') /\ Inv s' /\ scale_ok s' /\ heap_le s s'.
  Proof.
    induction ns as [|n ns IH]; intros s I J F; cbn [mforM].
    - exists s. auto using heap_le_refl.
    - inversion F as [|? ? Hn Fn]; subst.
      destruct (nth_error_lt_Some _ _ Hn) as [u Eu].
      rewrite bind_assoc. erewrite bind_ok by (unfold get_udl, deref; rewrite Eu; reflexivity).
      set (s1 := if u_dynamic u then snd (upd_udl n (set_udl_offset o) s) else s).
      assert (E1 : mwhen (u_dynamic u) (upd_udl n (set_udl_offset o)) s = (Ok tt, s1)).
      { subst s1. destruct (u_dynamic u); reflexivity. }
      assert (C1 : Core s1 /\ LlF s1 /\ heap_le s s1).
      { subst s1. destruct I as (C & U & L). destruct (u_dynamic u).
        - split; [now apply upd_udl_core|]. split; [exact L|].
          unfold heap_le; cbn. rewrite upd_nth_length. lia.
        - auto using heap_le_refl. }
      destruct C1 as (C1 & L1 & H1).
      rewrite bind_assoc. erewrite bind_ok by exact E1.
      destruct (inv_set_udls [RefUdl n] s1 C1 L1) as (s2 & E2 & I2 & H2).
      { constructor; [|constructor]. cbn [ref_exists]. apply Nat.ltb_lt.
        destruct H1 as (_ & H1 & _). lia. }
      erewrite bind_ok by exact E2.
      assert (H02 : heap_le s s2) by (eapply heap_le_trans; eauto).
      destruct (IH s2 I2) as (s3 & E3 & I3 & J3 & H3).
      { eapply scale_set_udls; eauto. }
      { eapply Forall_impl; [|exact Fn]. cbn. intros k Hk.
        destruct H02 as (_ & Q & _). lia. }
      exists s3. split; [exact E3|]. split; auto. split; auto. eapply heap_le_trans; eauto.
  Qed.
  Lemma remove_all_eff ns (s s' : stR) :
    remove_udls ns true s = (Ok tt, s') -> s_udls (snd s') = [].
  Proof.
    unfold remove_udls. unfold mbind at 1.
    destruct (mforM ns _ s) as [[[]|e] s1]; [|discriminate].
    cbn [mwhen]. rewrite !bind_assoc, !bind_self_upd. unfold heap_get.
    rewrite bind_get, bind_self_get. cbn. intros Q. injection Q as <-. reflexivity.
  Qed.
  Lemma scale_move o (s : stR) : Inv s -> scale_ok (snd (set_dynamic_offset o s)).
  Proof.
    intros I. pose proof I as (C & _ & _).
    pose proof (udl_locs_valid s C) as FU.
    unfold set_dynamic_offset. rewrite !bind_self_get.
    destruct (inv_remove_udls [] true s I (Forall_nil _)) as (s1 & E1 & I1 & H1 & _ & _).
    assert (J1 : scale_ok s1).
    { left. eapply remove_all_eff; eauto. }
    erewrite bind_ok by exact E1.
    destruct (inv_remove_lls [] true s1 I1 (Forall_nil _)) as (s2 & E2 & I2 & H2 & _ & _).
    assert (J2 : scale_ok s2).
    { apply (scale_same s1); auto. pose proof (um_remove_lls [] true s1) as Q.
      rewrite E2 in Q. exact Q. }
    erewrite bind_ok by exact E2.
    destruct (scale_move_udls o (s_udls (snd s)) s2 I2 J2) as (s3 & E3 & I3 & J3 & H3).
    { rewrite H2, H1. exact FU. }
    erewrite bind_ok by exact E3.
    apply (scale_same s3); auto.
    match goal with |- um (snd (?m s3)) = _ => assert (K : keeps (same um) m) end.
    { untouched. }
    apply K.
  Qed.
  Definition scaled (a b : stR) : Prop := Inv a -> scale_ok a -> Inv b /\ scale_ok b.
  Lemma scaled_dynamic c : keeps scaled (analyse_dynamic c).
  Proof.
    apply keeps_dynamic.
    - intros s I J. auto.
    - intros a b d F G I J. destruct (F I J). auto.
    - intros o s I J. split; [|now apply scale_move].
      destruct (inv_set_dynamic_offset o s I) as (s' & -> & I'). exact I'.
    - intros s I J. split; [apply (same_model_inv s); auto; apply same_model_analyse|].
      apply (scale_same s); auto. apply um_analyse.
    - intros d s I J. split; [apply (same_model_inv s); auto; constructor; reflexivity|].
      apply (scale_same s); auto.
  Qed.

  Lemma forallb_refs (s : stR) l :
    forallb (ref_exists (fst s)) l = true -> refs_ok s l.
  Proof. intros E. apply Forall_forall. now apply forallb_forall. Qed.
  Definition picks_off (o : op R) : bool :=
    match o with RemoveUdls _ false => true | _ => false end.
  Definition load_call (o : op R) : bool :=
    match o with SetUdls _ | RemoveUdls _ _ | AnalyseDynamic _ => true | _ => false end.
  Lemma um_other o : load_call o = false -> keeps (same um) (exec o).
  Proof.
    destruct o; cbn [load_call exec]; try discriminate; intros _;
      unfold with_refs, alloc, set_water_table, remove_water_table, update_water_analysis_options,
        update_analysis_options, set_analysis_limits, remove_analysis_limits,
        add_single_entry_exit_plane, add_single_circular_plane, remove_individual_planes;
      untouched.
  Qed.
  Lemma scale_step o (s : stR) :
    picks_off o = false -> Inv s -> scale_ok s -> scale_ok (step s o).
  Proof.
    intros P I J. destruct (load_call o) eqn:LC.
    2:{ exact (scale_same s _ (um_other o LC s) J). }
    unfold step.
    destruct o; try discriminate P; try discriminate LC; cbn [exec]; unfold with_refs.
    - rewrite bind_get. destruct (forallb _ l) eqn:F; [|exact J].
      destruct I as (C & U & L).
      destruct (inv_set_udls l s C L) as (s' & E & I' & _); [now apply forallb_refs|].
      rewrite E. eapply scale_set_udls; eauto.
    - rewrite bind_get. destruct (forallb _ _) eqn:F; [|exact J].
      destruct all; [|discriminate P]. left. apply forallb_refs in F.
      destruct (inv_remove_udls l true s I) as (s1 & E1 & _ & _ & R1).
      { now apply refs_udls. }
      rewrite E1. eapply remove_all_eff; eauto.
    - assert (K : scaled s (snd ((analyse_dynamic crit ;;; mret tt) s))).
      { apply keeps_bind.
        - intros a b d F G Ia Ja. destruct (F Ia Ja). auto.
        - apply scaled_dynamic.
        - intros r x Ix Jx. auto. }
      apply K; auto.
  Qed.

  (** *** The water level *)
  Definition wl (s : stR) := s_water_RL (snd s).
  Lemma wl_set_boundary h a l : keeps (same wl) (set_external_boundary h a l).
  Proof. unfold set_external_boundary. untouched. Qed.
  Hint Resolve wl_set_boundary : keeps.
  Lemma wl_boundary_options l h : keeps (same wl) (update_boundary_options l h).
  Proof. unfold update_boundary_options. untouched. Qed.
  Hint Resolve wl_boundary_options : keeps.
  Lemma wl_assign locs : forall i, keeps (same wl) (assign_materials i locs).
  Proof. induction locs; intros i; cbn [assign_materials]; untouched. Qed.
  Hint Resolve wl_assign : keeps.
  Lemma wl_set_materials l : keeps (same wl) (set_materials l).
  Proof. unfold set_materials. untouched. Qed.
  Lemma wl_remove_material m d a : keeps (same wl) (remove_material m d a).
  Proof. unfold remove_material. untouched. Qed.
  Lemma wl_analyse m : keeps (same wl) (analyse_slope m).
  Proof. unfold analyse_slope. untouched. Qed.
  Lemma wl_set_udls l : keeps (same wl) (set_udls l).
  Proof. unfold set_udls. untouched. Qed.
  Lemma wl_set_lls l : keeps (same wl) (set_lls l).
  Proof. unfold set_lls. untouched. Qed.
  Lemma wl_remove_udls l a : keeps (same wl) (remove_udls l a).
  Proof. unfold remove_udls. untouched. Qed.
  Lemma wl_remove_lls l a : keeps (same wl) (remove_lls l a).
  Proof. unfold remove_lls. untouched. Qed.
  Hint Resolve wl_set_materials wl_remove_material wl_analyse wl_set_udls wl_set_lls
       wl_remove_udls wl_remove_lls : keeps.
  Lemma wl_move o : keeps (same wl) (set_dynamic_offset o).
  Proof. unfold set_dynamic_offset. untouched. Qed.
  Lemma wl_dynamic c : keeps (same wl) (analyse_dynamic c).
  Proof.
    apply keeps_dynamic; auto using wl_move, wl_analyse.
    - apply same_trans.
    - intros d s. reflexivity.
  Qed.
  Hint Resolve wl_dynamic : keeps.
  Definition water_call (o : op R) : bool :=
    match o with SetWater _ | RemoveWater => true | _ => false end.
  Lemma wl_other o : water_call o = false -> keeps (same wl) (exec o).
  Proof.
    destruct o; cbn [water_call exec]; try discriminate; intros _;
      unfold with_refs, alloc, update_water_analysis_options,
        update_analysis_options, set_analysis_limits, remove_analysis_limits,
        add_single_entry_exit_plane, add_single_circular_plane, remove_individual_planes;
      untouched.
  Qed.
  Lemma pyval_cases (v : pyval R) :
    v = PNone \/ (exists d, denotes v d) \/ (v <> PNone /\ forall d, ~ denotes v d).
  Proof.
    destruct v as [ | [] | | | ]; cbn; auto; right;
      first [left; eexists; reflexivity | right; split; [discriminate | intros ? []]].
  Qed.
  Lemma water_step o (s : stR) :
    reachable s -> water_inside s ->
    g_ext_h (s_geom (snd s)) <= g_ext_h (s_geom (snd (step s o))) ->
    water_inside (step s o).
  Proof.
    intros Hr W Le. destruct (water_call o) eqn:K.
    2:{ pose proof (wl_other o K s) as E. unfold same, wl in E. intros y.
        unfold step. rewrite E. intros Q. specialize (W y Q). unfold step in Le. lra. }
    destruct o; try discriminate K; unfold step.
    - match goal with |- context [exec (SetWater ?v)] => rename v into d end.
      destruct (pyval_cases d) as [-> | [(x & D) | (N & D)]].
      + intros y Q. discriminate Q.
      + destruct (Rle_dec 0 x).
        * destruct (water_set s d x Hr D) as (s' & rl & E & _ & E2 & _ & B & _ & G); auto.
          rewrite E. cbn [snd]. intros y Q. rewrite E2 in Q. injection Q as <-. lra.
        * rewrite water_rejected; [exact W| |].
          -- intros ->. exact D.
          -- intros z Dz. destruct d as [ | [] | | | ]; cbn in *; try tauto; subst; lra.
      + rewrite water_rejected; auto. intros z Dz. destruct (D z Dz).
    - intros y Q. discriminate Q.
  Qed.

  (** *** The levels of the layers *)
  Lemma levels_step o (s : stR) :
    Inv s -> levels_inside s ->
    g_ext_h (s_geom (snd s)) <= g_ext_h (s_geom (snd (step s o))) ->
    levels_inside (step s o).
  Proof.
    intros I V Le. destruct (material_call o) eqn:K.
    { pose proof I as (C & _ & _). revert Le. unfold step.
      destruct o; try discriminate K; cbn [exec].
      - unfold alloc. rewrite bind_lift.
        destruct (new_material _ _ _ _ _ _) as [m|] eqn:E; [|auto].
        intros _ n k Hn Q. cbn in *. apply (V n k Hn).
        destruct (c_mat_set _ C n Hn) as (m' & E' & _).
        rewrite nth_error_app1 in Q; auto. apply nth_error_Some. congruence.
      - unfold with_refs. rewrite bind_get. destruct (forallb _ l); [|auto].
        rewrite set_materials_eff by auto.
        destruct (material_locs l) as [news|] eqn:Em; [|auto].
        destruct (rev _) as [|d ds] eqn:Er; [auto|].
        destruct (deepened_mats d s) as [Q1 Q2].
        destruct (has_dup _) eqn:D.
        { cbn [snd]. intros Le n m Hn Q. rewrite Q2 in Hn. rewrite Q1 in Q.
          destruct (V n m Hn Q) as (y & Ey & By). exists y. split; auto. lra. }
        intros _. apply has_dup_false in D. cbn [snd]. unfold layered.
        intros n m Hn Q. cbn [fst snd h_materials] in *.
        cbn [s_materials set_s_search set_s_materials] in Hn.
        destruct (In_nth_error _ _ Hn) as [k Hk].
        rewrite (assign_pure_in _ _ _ _ k n (NoDup_map_inv _ _ D) Hk) in Q. rewrite Q1 in Q.
        destruct (nth_error (h_materials (fst s)) n) as [m0|] eqn:E0; [|discriminate].
        cbn in Q. injection Q as <-. cbn [m_RL m_depth assigned set_RL_color].
        eexists. split; [reflexivity|]. unR.
        assert (P : mat_ok m0).
        { apply (proj1 (Forall_forall _ _) (c_mats _ C)). eapply nth_error_In; eauto. }
        destruct P as (_ & _ & _ & P).
        cbn [s_geom set_s_search set_s_materials snd]. lra.
      - unfold with_refs. rewrite bind_get. destruct (forallb _ _); [|auto].
        rewrite remove_material_eff. destruct (removal_depth _ _ _); [|auto].
        intros _ n k Hn Q. cbn in *. apply (V n k); auto. revert Hn. unfold after_removal.
        destruct all; [intros []|]. destruct (truthy a); auto. destruct (find _ _); auto.
        clear. induction (s_materials (snd s)) as [|x l IH]; cbn; [intros []|].
        destruct (same_obj _ _ _ x); cbn; intuition. }
    pose proof (mats_other o K s) as E. unfold same, mats in E. injection E as E1 E2.
    intros n m Hn Q. unfold step in *. rewrite E1 in Q. rewrite E2 in Hn.
    destruct (V n m Hn Q) as (y & Ey & By). exists y. split; auto. lra.
  Qed.

  (** ** Histories *)
  Fixpoint never_shallower (s : stR) (ops : list (op R)) : Prop :=
    match ops with
    | [] => True
    | o :: ops' =>
        g_ext_h (s_geom (snd s)) <= g_ext_h (s_geom (snd (step s o))) /\
        never_shallower (step s o) ops'
    end.
  Lemma fit_run ops : forall s : stR,
    reachable s -> fit s -> never_shallower s ops ->
    Forall (fun o => picks_off o = false) ops -> fit (run s ops).
  Proof.
    induction ops as [|o ops IH]; intros s Hr F N P; [exact F|].
    destruct N as [N1 N2]. inversion P as [|? ? P1 P2]; subst.
    apply (IH (step s o)); auto using reachable_step.
    destruct F as (V & J & W). pose proof (reachable_inv s Hr) as I.
    split; [now apply levels_step|]. split; [now apply scale_step|]. now apply water_step.
  Qed.
  Lemma new_reachable h a l (s0 : stR) :
    new_slope empty_heap h a l = Ok s0 -> reachable s0.
  Proof. intros E. exists h, a, l, [], s0. auto. Qed.
  Lemma fit_new h a l (s0 : stR) : new_slope empty_heap h a l = Ok s0 -> fit s0.
  Proof.
    rewrite init_eff. destruct (boundary_inputs _ _ _) as [[hh ll]|]; [|discriminate].
    intros Q; injection Q as <-. split; [|split].
    - intros n m [].
    - now left.
    - intros y Q. discriminate Q.
  Qed.
  Lemma fit_new_run h a l s0 ops :
    new_slope empty_heap h a l = Ok s0 -> never_shallower s0 ops ->
    Forall (fun o => picks_off o = false) ops -> drawable (run s0 ops).
  Proof.
    intros E N P. apply fit_drawable, fit_run; auto.
    - eapply new_reachable; eauto.
    - eapply fit_new; eauto.
  Qed.
  (** leaving the boundary alone is enough *)
  Lemma calm_never_shallower ops : forall s : stR,
    Exact s -> Forall (fun o => about_boundary o = false) ops -> never_shallower s ops.
  Proof.
    induction ops as [|o ops IH]; intros s X F; [exact Logic.I|].
    inversion F as [|? ? F1 F2]; subst. pose proof (grow_exec o F1 s) as G.
    split; [now apply grow_ext_h|]. apply IH; auto. apply (G X).
  Qed.
End Draw.
