(** * LayerMore: refutations for C15 and C16. *)
From Coq Require Import ZArith Reals Lra Lia List Bool String Permutation Sorted.
From Verif Require Import Num Py Validation Utilities Objects Slope Planes Analysis
     Dynamic Api RealNum RealFacts ListFacts MonadFacts SlopeFacts MaterialFacts
     Invariant History Spec EditFacts LayerFacts Demo.
Import ListNotations.
Local Open Scope R_scope.

Section LayerMore.
  Context (EN : Env).
  Notation stR := (st R).

  (** Raising the model height after the layers and the water table were set. *)
  Lemma elevations_stale :
    exists s : stR, reachable s /\
      exists m d, In m (mats_of s) /\ m_RL m = Some 8 /\ m_depth m = 2 /\
        s_water_depth (snd s) = Some d /\ d = 1 /\ s_water_RL (snd s) = Some 9 /\
        g_ext_h (s_geom (snd s)) = 30.
  Proof.
    destruct (reachable_inv _ demo_reachable) as (C & _ & _). destruct C.
    set (s := rebuilt (geom_of 3 4 30 10) (fst demo, set_s_min_ext_h 30 (snd demo))).
    assert (E : exec (BoundaryOpts PNone (PInt 30)) demo = (Ok tt, s)).
    { cbn [exec]. rewrite update_boundary_eff by assumption.
      unfold opt_dim, assert_strictly_positive_number. cbn -[rebuilt geom_of]. unR. rnum.
      reflexivity. }
    exists s. split.
    - eapply accepted_reachable; [apply demo_reachable|].
      econstructor; [exact E|constructor].
    - exists sand_in, 1. split; [now left|]. split.
      + unfold sand_in. cbn. f_equal. lra.
      + cbn. ands; try reflexivity. now rnum.
  Qed.

  (** A layer of depth zero is listed but not removed. *)
  Definition skin : material R :=
    MkMaterial 18 30 5 0 "" "" "" (Rtan_py (30 * (PI / 180))) None.
  Definition skinned : stR :=
    (MkHeap [assigned 10 0 skin] [] [], demo_sl [0%nat] [] [] UmUnset None None).
  Lemma skinned_acc :
    accepted demo0 [NewMaterial (PFloat 18) (PInt 30) (PFloat 5) (PFloat 0) PNone PNone;
                    SetMaterials [RefMaterial 0]] skinned.
  Proof.
    assert (M1 : new_material (PFloat 18) (PInt 30) (PFloat 5) (PFloat 0) PNone PNone = Ok skin).
    { apply (proj2 (material_spec _ _ _ _ _ _ _ _)). exists 18, 30, 5, 0, ""%string, ""%string.
      unfold skin. rnum. unfold plain_denotes.
      cbn [denotes plain_number is_text]. ands; auto; lra. }
    econstructor; [cbn [exec]; unfold alloc; rewrite M1; reflexivity|].
    econstructor; [|constructor].
    match goal with |- exec _ ?x = _ => assert (Hr : reachable x) end.
    { eapply (accepted_reachable demo0 _
        [NewMaterial (PFloat 18) (PInt 30) (PFloat 5) (PFloat 0) PNone PNone]);
        [apply demo0_reachable|].
      econstructor; [|constructor]. cbn [exec]. unfold alloc. rewrite M1. reflexivity. }
    destruct (reachable_inv _ Hr) as (C & _ & _).
    cbn [exec]. rewrite with_refs_intro by (repeat constructor).
    rewrite set_materials_eff by exact C. cbn. unfold deepened. cbn. rnum.
    unfold layered. cbn. reflexivity.
  Qed.
  Lemma zero_depth_not_removed :
    exists (s s' : stR), reachable s /\
      exec (RemoveMaterial (Some (RefMaterial 0)) PNone false) s = (Ok tt, s') /\
      List.length (mats_of s') = 1%nat.
  Proof.
    exists skinned.
    destruct (zero_depth_stays skinned 0 (assigned 10 0 skin)) as (s' & E & Q); auto.
    exists s'. split.
    - eapply accepted_reachable; [apply demo0_reachable|apply skinned_acc].
    - split; auto. rewrite Q. reflexivity.
  Qed.
End LayerMore.
