(** * GrowFacts: the size of the section against the boundary attributes.

    [Exact s]: the geometry is the one computed from the slope's own height and
    length and the two minimum sizes the object holds at the moment.  Every call
    keeps this except a rejected [update_boundary_options], which may have stored
    a minimum height before it raises.  The calls that are not about the boundary
    keep the slope and can only raise the two minimum sizes. *)
From Coq Require Import ZArith Reals Lra Lia List Bool String Permutation Sorted.
From Verif Require Import Num Py Validation Utilities Objects Slope Planes Analysis
     Dynamic Api RealNum RealFacts ListFacts MonadFacts SlopeFacts MaterialFacts KeepFacts
     Invariant History Spec EditFacts.
Import ListNotations.
Local Open Scope R_scope.

Section Grow.
  Context {EN : Env}.
  Notation stR := (st R).

  Definition Exact (s : stR) : Prop :=
    let sl := snd s in
    s_has_boundary sl = true /\
    0 <= g_height (s_geom sl) /\ 1 / 1000 <= g_length (s_geom sl) /\
    s_geom sl = geom_of (g_height (s_geom sl)) (g_length (s_geom sl))
                        (s_min_ext_h sl) (s_min_ext_l sl).
  Definition grow (a b : stR) : Prop :=
    Exact a ->
    Exact b /\
    g_height (s_geom (snd b)) = g_height (s_geom (snd a)) /\
    g_length (s_geom (snd b)) = g_length (s_geom (snd a)) /\
    s_min_ext_h (snd a) <= s_min_ext_h (snd b) /\
    s_min_ext_l (snd a) <= s_min_ext_l (snd b).
  Lemma grow_refl s : grow s s.
  Proof. intros H. split; [exact H|]. repeat split; lra. Qed.
  Lemma grow_trans a b c : grow a b -> grow b c -> grow a c.
  Proof.
    intros F G E. destruct (F E) as (E1 & H1 & L1 & A1 & B1).
    destruct (G E1) as (E2 & H2 & L2 & A2 & B2).
    split; [exact E2|]. repeat split; lra || congruence.
  Qed.
  Hint Resolve grow_refl grow_trans : core.

  (** a write elsewhere *)
  Definition shape (s : stR) :=
    (s_has_boundary (snd s), s_geom (snd s), s_min_ext_h (snd s), s_min_ext_l (snd s)).
  Lemma grow_same a b : shape b = shape a -> grow a b.
  Proof.
    unfold shape. intros Q. injection Q as Q1 Q2 Q3 Q4. intros (X1 & X2 & X3 & X4).
    unfold Exact. rewrite Q1, Q2, Q3, Q4. auto 10 using Rle_refl.
  Qed.
  Lemma grow_keeps {A} (m : M stR A) : keeps (same shape) m -> keeps grow m.
  Proof. intros K s. apply grow_same, K. Qed.

  Lemma exact_ext_h s : Exact s -> s_min_ext_h (snd s) <= g_ext_h (s_geom (snd s)).
  Proof.
    intros (_ & _ & _ & ->). cbn.
    match goal with |- _ <= Rmax (Rmax ?a ?b) ?c =>
      pose proof (Rmax_r a b); pose proof (Rmax_l (Rmax a b) c) end. lra.
  Qed.

  Lemma opt_dim_float (v : R) : 0 < v -> opt_dim (PFloat v) = Ok (Some v).
  Proof.
    intros H. unfold opt_dim, assert_strictly_positive_number.
    cbn [truthy isinstance_num negb as_num rbind]. unR.
    rewrite (proj2 (Reqb_false v 0)) by lra. cbn [negb].
    rewrite (proj2 (Rltb_false v 0)) by lra. reflexivity.
  Qed.
  Lemma opt_dim_cases (v : R) :
    opt_dim (PFloat v) = Ok (Some v) \/ opt_dim (PFloat v) = Ok None \/
    exists e, opt_dim (PFloat v) = Err e.
  Proof.
    unfold opt_dim. cbn [truthy as_num rbind].
    destruct (negb _); [|auto].
    unfold assert_strictly_positive_number. cbn [isinstance_num negb as_num rbind].
    match goal with |- context [if ?b then _ else _] => destruct b end; cbn [rbind]; eauto.
  Qed.

  (** an accepted call to the boundary options computes from the new values *)
  Lemma options_exact l h (s s' : stR) :
    Exact s -> update_boundary_options l h s = (Ok tt, s') -> Exact s'.
  Proof.
    intros (B & H & L & G). rewrite update_boundary_eff by assumption.
    destruct (opt_dim h) as [oh|e]; [|discriminate]. cbn zeta.
    destruct (opt_dim l) as [ol|e]; [|discriminate].
    intros Q. apply (f_equal snd) in Q. cbn [snd] in Q. subst s'.
    unfold Exact, rebuilt. cbn. repeat split; assumption.
  Qed.
  Lemma boundary_exact h a l (s : stR) :
    Exact s -> Exact (snd (set_external_boundary h a l s)).
  Proof.
    intros X. rewrite set_external_boundary_eff.
    destruct (boundary_inputs h a l) as [[hh ll]|e] eqn:E; [|exact X].
    apply boundary_inputs_bounds in E. unfold Exact, rebuilt. cbn. tauto.
  Qed.

  (** the two enlargements the setters ask for *)
  Lemma grow_length v (s : stR) :
    s_min_ext_l (snd s) < v -> grow s (snd (update_boundary_options (PFloat v) PNone s)).
  Proof.
    intros Hv X. destruct X as (B & H & L & G). rewrite update_boundary_eff by assumption.
    replace (opt_dim PNone) with (@Ok (option R) None) by reflexivity. cbn zeta.
    destruct (opt_dim_cases v) as [-> | [-> | (e & ->)]]; cbn [snd upd_dim].
    - unfold Exact, rebuilt. cbn. repeat split; try assumption; lra.
    - unfold Exact, rebuilt. cbn. repeat split; try assumption; lra.
    - apply (grow_refl s). unfold Exact; auto.
  Qed.
  Lemma grow_depth v (s : stR) :
    g_ext_h (s_geom (snd s)) < v -> grow s (snd (update_boundary_options PNone (PFloat v) s)).
  Proof.
    intros Hv X. pose proof (exact_ext_h s X). destruct X as (B & H' & L & G).
    rewrite update_boundary_eff by assumption. cbn zeta.
    replace (opt_dim PNone) with (@Ok (option R) None) by reflexivity.
    destruct (opt_dim_cases v) as [-> | [-> | (e & ->)]]; cbn [snd upd_dim].
    - unfold Exact, rebuilt. cbn. repeat split; try assumption; lra.
    - unfold Exact, rebuilt. cbn. repeat split; try assumption; lra.
    - apply (grow_refl s). unfold Exact; auto.
  Qed.

  (** *** The methods *)
  Ltac quiet := apply grow_keeps; untouched.
  Lemma grow_udl_one r : keeps grow (set_udl_one r).
  Proof.
    destruct r as [n|n|n|]; cbn [set_udl_one]; try (apply keeps_ret; eauto).
    apply keeps_bind; eauto; [quiet|intros u].
    apply keeps_when; eauto.
    apply keeps_bind; eauto; [quiet|intros locs].
    apply keeps_bind; eauto; [quiet|intros _].
    intros s. rewrite bind_self_get.
    destruct (nltb _ _) eqn:E; cbn [mwhen]; [|apply grow_refl].
    unR. rbool. now apply grow_length.
  Qed.
  Lemma grow_ll_one r : keeps grow (set_ll_one r).
  Proof.
    destruct r as [n|n|n|]; cbn [set_ll_one]; try (apply keeps_ret; eauto).
    apply keeps_bind; eauto; [quiet|intros u].
    apply keeps_when; eauto.
    apply keeps_bind; eauto; [quiet|intros locs].
    apply keeps_bind; eauto; [quiet|intros _].
    intros s. rewrite bind_self_get.
    destruct (nltb _ _) eqn:E; cbn [mwhen]; [|apply grow_refl].
    unR. rbool. now apply grow_length.
  Qed.
  Lemma grow_set_udls l : keeps grow (set_udls l).
  Proof.
    unfold set_udls. apply keeps_bind; eauto.
    - apply keeps_forM; eauto. intros. apply grow_udl_one.
    - intros _. quiet.
  Qed.
  Lemma grow_set_lls l : keeps grow (set_lls l).
  Proof.
    unfold set_lls. apply keeps_bind; eauto.
    - apply keeps_forM; eauto. intros. apply grow_ll_one.
    - intros _. quiet.
  Qed.
  Lemma shape_assign locs : forall i, keeps (same shape) (assign_materials i locs).
  Proof. induction locs; intros i; cbn [assign_materials]; untouched. Qed.
  Hint Resolve shape_assign : keeps.
  Lemma grow_set_materials l : keeps grow (set_materials l).
  Proof.
    unfold set_materials.
    apply keeps_bind; eauto; [quiet|intros news].
    apply keeps_bind; eauto; [quiet|intros olds].
    apply keeps_bind; eauto; [quiet|intros h]. cbv zeta.
    apply keeps_bind; eauto; [quiet|intros d].
    intros s. rewrite bind_self_get.
    set (k := fun _ : unit => _).
    match goal with |- grow s (snd (mbind ?m _ s)) =>
      assert (G : grow s (snd (m s))) end.
    { destruct (nltb _ _) eqn:E; cbn [mwhen]; [|apply grow_refl].
      unR. rbool. now apply grow_depth. }
    unfold mbind. destruct (mwhen _ _ s) as [[u|e] s1]; cbn [snd] in *; [|exact G].
    eapply grow_trans; [exact G|]. subst k.
    match goal with |- grow s1 (snd (?m s1)) => assert (K : keeps grow m) end.
    { quiet. }
    apply K.
  Qed.
  Lemma grow_move o : keeps grow (set_dynamic_offset o).
  Proof.
    unfold set_dynamic_offset.
    apply keeps_bind; eauto; [quiet|intros us].
    apply keeps_bind; eauto; [quiet|intros ls].
    apply keeps_bind; eauto; [unfold remove_udls; quiet|intros _].
    apply keeps_bind; eauto; [unfold remove_lls; quiet|intros _].
    apply keeps_bind; eauto; [|intros _]; apply keeps_forM; eauto; intros n _.
    - apply keeps_bind; eauto; [quiet|intros u].
      apply keeps_bind; eauto; [quiet|intros _]. apply grow_set_udls.
    - apply keeps_bind; eauto; [quiet|intros u].
      apply keeps_bind; eauto; [quiet|intros _]. apply grow_set_lls.
  Qed.
  Lemma grow_dynamic c : keeps grow (analyse_dynamic c).
  Proof.
    apply keeps_dynamic; eauto.
    - apply grow_move.
    - unfold analyse_slope. quiet.
    - intros d s. now apply grow_same.
  Qed.

  (** the two calls about the boundary itself *)
  Definition about_boundary (o : op R) : bool :=
    match o with SetBoundary _ _ _ | BoundaryOpts _ _ => true | _ => false end.
  Lemma grow_exec o : about_boundary o = false -> keeps grow (exec o).
  Proof.
    intros H. destruct o; try discriminate; cbn [exec]; unfold alloc, with_refs.
    all: match goal with
         | |- keeps _ (_ <- analyse_dynamic _ ;; _) =>
             apply keeps_bind; [eauto | apply grow_dynamic | intros ?; quiet]
         | _ => idtac end.
    all: try solve [quiet].
    all: try (unfold set_water_table, remove_water_table, update_water_analysis_options,
           set_analysis_limits, remove_analysis_limits, add_single_entry_exit_plane,
           add_single_circular_plane, remove_individual_planes, remove_udls, remove_lls,
           remove_material, analyse_slope, update_analysis_options; solve [quiet]).
    all: apply keeps_bind; eauto; [quiet|intros h].
    all: match goal with |- keeps _ (if ?b then _ else _) => destruct b end.
    all: try solve [apply keeps_raise; eauto | quiet].
    all: auto using grow_set_udls, grow_set_lls, grow_set_materials.
  Qed.

  (** a history in which no call to the boundary options was rejected *)
  Fixpoint options_accepted (s : stR) (ops : list (op R)) : Prop :=
    match ops with
    | [] => True
    | o :: ops' =>
        match o with BoundaryOpts _ _ => fst (exec o s) = Ok tt | _ => True end /\
        options_accepted (step s o) ops'
    end.
  Lemma exact_step s o :
    Exact s -> match o with BoundaryOpts _ _ => fst (exec o s) = Ok tt | _ => True end ->
    Exact (step s o).
  Proof.
    intros X A. unfold step.
    destruct (about_boundary o) eqn:E; [|now apply grow_exec].
    destruct o; try discriminate E; cbn [exec] in *.
    - now apply boundary_exact.
    - match goal with |- context [update_boundary_options ?l ?h s] =>
        destruct (update_boundary_options l h s) as [r s'] eqn:Q end.
      cbn [fst] in A. subst r. eapply options_exact; eauto.
  Qed.
  Lemma exact_run ops : forall s, Exact s -> options_accepted s ops -> Exact (run s ops).
  Proof.
    induction ops as [|o ops IH]; intros s X A; [exact X|].
    destruct A as [A1 A2]. apply (IH (step s o)); auto using exact_step.
  Qed.
  Lemma exact_new hp h a l s0 : new_slope hp h a l = Ok s0 -> Exact s0.
  Proof.
    rewrite init_eff. destruct (boundary_inputs h a l) as [[hh ll]|e] eqn:E; [|discriminate].
    intros Q; injection Q as <-. apply boundary_inputs_bounds in E.
    unfold Exact, started. cbn. tauto.
  Qed.
  Lemma grow_run ops : forall s,
    Forall (fun o => about_boundary o = false) ops -> grow s (run s ops).
  Proof.
    induction ops as [|o ops IH]; intros s F; [apply grow_refl|].
    inversion F as [|? ? F1 F2]; subst.
    eapply grow_trans; [apply (grow_exec o F1 s)|]. apply (IH (step s o) F2).
  Qed.
  Lemma grow_ext_h s s' : Exact s -> grow s s' ->
    g_ext_h (s_geom (snd s)) <= g_ext_h (s_geom (snd s')).
  Proof.
    intros X G. destruct (G X) as (X' & Hh & Hl & Mh & Ml).
    destruct X as (_ & _ & _ & ->). destruct X' as (_ & _ & _ & ->).
    rewrite Hh, Hl. cbn. apply Rle_max_compat_r, Rle_max_compat_l, Mh.
  Qed.
End Grow.
