(** * MatInv: what the layers look like at any time.

    All elevations were given by the same call, so they are one level minus the
    depths, and the tangent of the friction angle belongs to the friction angle. *)
From Coq Require Import ZArith Reals Lra Lia List Bool String Permutation Sorted.
From Verif Require Import Num Py Validation Utilities Objects Slope Planes Analysis
     Dynamic Api RealNum RealFacts ListFacts MonadFacts SlopeFacts MaterialFacts Invariant
     History Spec EditFacts KeepFacts LayerFacts SoilFacts.
Import ListNotations.
Local Open Scope R_scope.

Definition set_from (h : list (material R)) (locs : list nat) (H0 : R) : Prop :=
  forall n m, In n locs -> nth_error h n = Some m ->
    m_RL m = Some (H0 - m_depth m) /\ m_depth m <= H0.
Definition tan_ok (m : material R) : Prop :=
  m_tan_phi m = Rtan_py (nradians (m_friction_angle m)).

Section MatInv.
  Context {EN : Env}.
  Notation stR := (st R).
  Definition mats (s : stR) := (h_materials (fst s), s_materials (snd s)).

  Lemma mats_upd_udl n f : keeps (same mats) (upd_udl n f).
  Proof. intros s. reflexivity. Qed.
  Lemma mats_upd_ll n f : keeps (same mats) (upd_ll n f).
  Proof. intros s. reflexivity. Qed.
  Hint Resolve mats_upd_udl mats_upd_ll : keeps.
  Lemma mats_udl_coordinates : keeps (same mats) update_udl_coordinates.
  Proof. unfold update_udl_coordinates. untouched. Qed.
  Lemma mats_ll_coordinates : keeps (same mats) update_ll_coordinates.
  Proof. unfold update_ll_coordinates. untouched. Qed.
  Hint Resolve mats_udl_coordinates mats_ll_coordinates : keeps.
  Lemma mats_set_boundary h a l : keeps (same mats) (set_external_boundary h a l).
  Proof. unfold set_external_boundary. untouched. Qed.
  Hint Resolve mats_set_boundary : keeps.
  Lemma mats_boundary_options l h : keeps (same mats) (update_boundary_options l h).
  Proof. unfold update_boundary_options. untouched. Qed.
  Hint Resolve mats_boundary_options : keeps.
  Lemma mats_set_udls l : keeps (same mats) (set_udls l).
  Proof. unfold set_udls. untouched. Qed.
  Lemma mats_set_lls l : keeps (same mats) (set_lls l).
  Proof. unfold set_lls. untouched. Qed.
  Lemma mats_remove_udls l a : keeps (same mats) (remove_udls l a).
  Proof. unfold remove_udls. untouched. Qed.
  Lemma mats_remove_lls l a : keeps (same mats) (remove_lls l a).
  Proof. unfold remove_lls. untouched. Qed.
  Hint Resolve mats_set_udls mats_set_lls mats_remove_udls mats_remove_lls : keeps.
  Lemma mats_analyse m : keeps (same mats) (analyse_slope m).
  Proof. unfold analyse_slope. untouched. Qed.
  Lemma mats_move o : keeps (same mats) (set_dynamic_offset o).
  Proof. unfold set_dynamic_offset. untouched. Qed.
  Lemma mats_dynamic c : keeps (same mats) (analyse_dynamic c).
  Proof.
    apply keeps_dynamic; auto using mats_move, mats_analyse.
    - apply same_trans.
    - intros d s. reflexivity.
  Qed.
  Hint Resolve mats_analyse mats_dynamic : keeps.

  Definition material_call (o : op R) : bool :=
    match o with NewMaterial _ _ _ _ _ _ | SetMaterials _ | RemoveMaterial _ _ _ => true | _ => false end.
  Lemma mats_other o : material_call o = false -> keeps (same mats) (exec o).
  Proof.
    destruct o; cbn [material_call exec]; try discriminate; intros _;
      unfold with_refs, alloc, set_water_table, remove_water_table, update_water_analysis_options,
        update_analysis_options, set_analysis_limits, remove_analysis_limits,
        add_single_entry_exit_plane, add_single_circular_plane, remove_individual_planes;
      untouched.
  Qed.

  Definition MatInv (s : stR) : Prop :=
    (exists H0, 0 < H0 /\ set_from (h_materials (fst s)) (s_materials (snd s)) H0) /\
    Forall tan_ok (h_materials (fst s)).

  Lemma new_material_tan uw phi c d n col (m : material R) :
    new_material uw phi c d n col = Ok m -> tan_ok m.
  Proof.
    unfold new_material.
    destruct (assert_range uw _ _ _ _); cbn [rbind]; [|discriminate].
    destruct (assert_positive_number phi); cbn [rbind]; [|discriminate].
    destruct (assert_number c); cbn [rbind]; [|discriminate].
    destruct (assert_number d); cbn [rbind]; [|discriminate].
    destruct (as_num uw) as [u|]; cbn [rbind] in *; [|discriminate].
    destruct (as_num phi) as [p|]; cbn [rbind] in *; [|discriminate].
    destruct (as_num c) as [cc|]; cbn [rbind] in *; [|discriminate].
    destruct (as_num d) as [dd|]; cbn [rbind] in *; [|discriminate].
    destruct (text_arg n); cbn [rbind]; [|discriminate].
    destruct (text_arg col); cbn [rbind]; [|discriminate].
    injection 1 as <-. unfold tan_ok. cbn [m_tan_phi m_friction_angle]. reflexivity.
  Qed.

  Lemma exec_mat o (s : stR) : Core s -> MatInv s -> MatInv (snd (exec o s)).
  Proof.
    intros C ((H0 & P & F) & Tn). destruct (material_call o) eqn:K.
    2:{ pose proof (mats_other o K s) as E. unfold same, mats in E. injection E as E1 E2.
        split; [exists H0; split; auto|]; rewrite ?E1, ?E2; auto. }
    destruct o; try discriminate K; cbn [exec].
    - unfold alloc. rewrite bind_lift.
      destruct (new_material _ _ _ _ _ _) as [m|] eqn:E; [|split; eauto].
      cbn [snd mupd fst h_materials]. split.
      + exists H0. split; auto. intros n k Hn Q. cbn in *. apply (F n k Hn).
        destruct (c_mat_set _ C n Hn) as (m' & E' & _).
        rewrite nth_error_app1 in Q; auto. apply nth_error_Some. congruence.
      + apply Forall_app. split; auto. constructor; auto. eapply new_material_tan; eauto.
    - unfold with_refs. rewrite bind_get. destruct (forallb _ l); [|split; eauto].
      rewrite set_materials_eff by auto.
      destruct (material_locs l) as [news|] eqn:Em; [|split; eauto].
      destruct (rev _) as [|d ds] eqn:Er; [split; eauto|].
      destruct (deepened_mats d s) as [Q1 Q2].
      destruct (has_dup _) eqn:D.
      { cbn [snd]. split; [exists H0; split; auto|]; rewrite ?Q1, ?Q2; auto. }
      apply has_dup_false in D. cbn [snd]. unfold layered. cbn [fst snd h_materials].
      split.
      + exists (g_ext_h (s_geom (snd (deepened d s)))).
        destruct (deepened_ext_h s d C) as (EH & _). pose proof (ext_h_pos s C).
        split; [rewrite EH; rminmax; lra|].
        intros n m Hn Q. cbn [s_materials set_s_search set_s_materials] in Hn.
        destruct (last_max _ _ _ (sorted_locs_sorted s news) Er) as [Hd Md].
        destruct (In_nth_error _ _ Hn) as [k Hk].
        cbn [fst h_materials] in Q.
        rewrite (assign_pure_in _ _ _ _ k n (NoDup_map_inv _ _ D) Hk) in Q. rewrite Q1 in Q.
        destruct (nth_error (h_materials (fst s)) n) as [m0|] eqn:E0; [|discriminate].
        cbn in Q. injection Q as <-. cbn [m_RL m_depth assigned set_RL_color]. split; [reflexivity|].
        rewrite EH. assert (m_depth m0 <= d).
        { apply Md. apply in_map_iff. exists n. split; auto. unfold depth_of. now rewrite E0. }
        rminmax; lra.
      + rewrite Q1. apply Forall_assign_pure; auto.
    - unfold with_refs. rewrite bind_get. destruct (forallb _ _); [|split; eauto].
      rewrite remove_material_eff. destruct (removal_depth _ _ _); [|split; eauto].
      cbn [snd fst h_materials]. split; [|exact Tn]. exists H0. split; auto.
      intros n k Hn Q. cbn in Hn. apply (F n k); auto. revert Hn. unfold after_removal.
      destruct all; [intros []|]. destruct (truthy a); auto. destruct (find _ _); auto.
      clear. induction (s_materials (snd s)) as [|x l IH]; cbn; [intros []|].
      destruct (same_obj _ _ _ x); cbn; intuition.
  Qed.

  Lemma run_mat l : forall s : stR, Inv s -> MatInv s -> MatInv (run s l).
  Proof.
    unfold run. induction l as [|o l IH]; intros s I K; cbn [fold_left]; auto.
    apply IH; [now apply exec_inv|]. apply exec_mat; auto. apply I.
  Qed.
  Lemma reachable_mat (s : stR) : reachable s -> MatInv s.
  Proof.
    intros (hh & a & l & ops & s0 & E & ->).
    assert (I0 : Inv s0) by (eapply new_slope_inv; [| | |exact E]; constructor).
    apply run_mat; auto. rewrite init_eff in E.
    destruct (boundary_inputs _ _ _) as [[? ?]|]; [|discriminate]. injection E as <-.
    split; [|constructor]. exists 1. split; [lra|]. intros n m [].
  Qed.

  (** ** The view of a reachable state *)
  Lemma rmapM_map {A B} (f : A -> res B) (g : A -> B) l :
    (forall a, In a l -> f a = Ok (g a)) -> rmapM f l = Ok (map g l).
  Proof.
    induction l as [|a l IH]; intros H; cbn [rmapM map]; auto.
    rewrite H by (now left). cbn [rbind]. rewrite IH by (intros; apply H; now right). reflexivity.
  Qed.

  Lemma view_mats (s : stR) v : reachable s -> view_of s = Ok v ->
    exists H0, 0 < H0 /\
      v_mats v = map (fun m => (H0 - m_depth m, m)) (mats_of s) /\
      Forall (fun m => m_depth m <= H0) (mats_of s).
  Proof.
    intros Hr E. destruct (reachable_mat s Hr) as ((H0 & P & F) & _).
    exists H0. split; auto.
    assert (A : forall m, In m (mats_of s) -> m_RL m = Some (H0 - m_depth m) /\ m_depth m <= H0).
    { intros m Hm. apply in_derefs in Hm. destruct Hm as (n & Hn & Q). eauto. }
    split.
    - unfold view_of in E.
      rewrite (rmapM_map _ (fun m => (H0 - m_depth m, m))) in E.
      2:{ intros m Hm. destruct (A m Hm) as [-> _]. reflexivity. }
      cbn [rbind] in E.
      destruct (rmapM _ (udls_of s)); cbn [rbind] in E; [|discriminate].
      destruct (rmapM _ (lls_of s)); cbn [rbind] in E; [|discriminate].
      injection E as <-. reflexivity.
    - apply Forall_forall. intros m Hm. now apply A.
  Qed.
  Lemma view_descending (s : stR) v : reachable s -> view_of s = Ok v -> descending (v_mats v).
  Proof.
    intros Hr E. destruct (view_mats s v Hr E) as (H0 & _ & -> & _).
    unfold descending. eapply sorted_map; [|apply (proj1 (layers_sorted s Hr))].
    intros a b H. cbn in *. lra.
  Qed.
  Lemma view_mat_facts (s : stR) v : reachable s -> view_of s = Ok v ->
    forall rl m, In (rl, m) (v_mats v) -> mat_ok m /\ tan_ok m /\ 0 <= rl.
  Proof.
    intros Hr E rl m Hm. destruct (view_mats s v Hr E) as (H0 & _ & Q & F).
    rewrite Q in Hm. apply in_map_iff in Hm. destruct Hm as (m' & X & Hm). injection X as <- ->.
    rewrite Forall_forall in F. pose proof (F m Hm) as L.
    apply in_derefs in Hm. destruct Hm as (n & Hn & Em).
    destruct (reachable_inv s Hr) as (C & _ & _). destruct (reachable_mat s Hr) as (_ & Tn).
    pose proof (c_mats _ C) as Fm. rewrite Forall_forall in Fm, Tn.
    pose proof (nth_error_In _ _ Em). repeat split; auto; try apply Fm; auto. lra.
  Qed.

  (** C15: distances between layers are the differences of the depths *)
  Lemma layer_spacing (s : stR) : reachable s ->
    exists level, 0 < level /\
      forall m, In m (mats_of s) -> m_RL m = Some (level - m_depth m) /\ m_depth m <= level.
  Proof.
    intros Hr. destruct (reachable_mat s Hr) as ((H0 & P & F) & _). exists H0. split; auto.
    intros m Hm. apply in_derefs in Hm. destruct Hm as (n & Hn & Q). eauto.
  Qed.
End MatInv.
