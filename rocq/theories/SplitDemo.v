(** * SplitDemo: a layer and a strip load in two pieces (C96). *)
From Coq Require Import ZArith Reals Lra Lia List Bool String.
From Verif Require Import Num Py Validation Utilities Objects Slope Planes Analysis
     Dynamic Api RealNum RealFacts MonadFacts ListFacts SlopeFacts MaterialFacts LoadFacts LayerFacts Invariant MatInv
     EditFacts History Spec Demo DemoCircle CircleFacts PlaneFacts SoilFacts
     SliceFacts SearchFacts ViewFacts FosFacts FosMore StrengthFacts ScaleFacts FosTotal WetFacts FosCode
     CohesiveFacts Surcharge SurchargeCode SurchargeDemo SplitFacts.
Import ListNotations.
Local Open Scope R_scope.

Section Pieces.
  Context {EN : Env}.
  Notation stR := (st R).

  (** ** The soil of [bank 5 30], drawn as 2 m over 3 m *)
  Definition upper : material R :=
    MkMaterial 18 30 5 2 "upper" "" "" (Rtan_py (30 * (PI / 180))) None.
  Definition drawn_ops : list (op R) :=
    [ NewMaterial (PFloat 18) (PFloat 30) (PFloat 5) (PFloat 2) (PStr "upper") PNone;
      NewMaterial (PFloat 18) (PFloat 30) (PFloat 5) (PFloat 5) (PStr "soil") PNone;
      SetMaterials [RefMaterial 0; RefMaterial 1] ].
  Definition drawn : stR :=
    (MkHeap [assigned 10 0 upper; assigned 10 1 (bank_soil 5 30)] [] [], demo_sl [0%nat; 1%nat] [] [] UmUnset None None).
  Lemma new_soil d n : 0 < d -> new_material (PFloat 18) (PFloat 30) (PFloat 5) (PFloat d) (PStr n) PNone =
    Ok (MkMaterial 18 30 5 d n "" "" (Rtan_py (30 * (PI / 180))) None).
  Proof.
    intros D. apply (proj2 (material_spec _ _ _ _ _ _ _ _)).
    exists 18, 30, 5, d, n, ""%string. rnum. unfold plain_denotes.
    cbn [denotes plain_number is_text]. ands; auto; lra.
  Qed.
  Lemma drawn_acc : accepted demo0 drawn_ops drawn.
  Proof.
    assert (A1 : accepted demo0 (firstn 2 drawn_ops) (MkHeap [upper; bank_soil 5 30] [] [], snd demo0)).
    { cbn [firstn drawn_ops].
      econstructor; [cbn [exec]; unfold alloc; rewrite new_soil by lra; reflexivity|].
      econstructor; [cbn [exec]; unfold alloc; rewrite new_soil by lra; reflexivity|]. constructor. }
    assert (R1 : reachable (MkHeap [upper; bank_soil 5 30] [] [], snd demo0))
      by (eapply accepted_reachable; [apply demo0_reachable|exact A1]).
    change drawn_ops with (firstn 2 drawn_ops ++ skipn 2 drawn_ops).
    eapply accepted_app; [exact A1|]. cbn [skipn drawn_ops]. econstructor; [|constructor].
    destruct (reachable_inv _ R1) as (C & _ & _).
    cbn [exec]. rewrite with_refs_intro by (repeat constructor).
    rewrite set_materials_eff by exact C. cbn [material_locs rbind].
    unfold sorted_locs, sort_by. cbn. unR. rnum. cbn. unR. rnum. cbn.
    unfold deepened. cbn. rnum. unfold layered, drawn. cbn. reflexivity.
  Qed.
  Lemma drawn_reachable : reachable drawn.
  Proof. eapply accepted_reachable; [apply demo0_reachable|apply drawn_acc]. Qed.
  Lemma drawn_pieces :
    map piece (mats_of (bank 5 30)) = [] ++ ((18, 30, 5), Some (10 - 5)) :: [] /\
    map piece (mats_of drawn) = [] ++ ((18, 30, 5), Some (10 - 2)) :: ((18, 30, 5), Some (10 - 5)) :: [].
  Proof. split; reflexivity. Qed.

  (** ** 20 kPa on the 2 m next to the crest edge, as one strip and as two *)
  Definition strip_udl' (o l : R) : udl R :=
    MkUdl 20 o (Some l) (if is_color "red"%string then "red"%string else "red"%string) false None None.
  Definition yard_ops : list (op R) :=
    [ NewMaterial (PFloat 18) (PFloat 30) (PFloat 5) (PFloat 5) (PStr "soil") PNone;
      NewUdl (PFloat 20) (PFloat 0) (PFloat 2) "red" false;
      NewUdl (PFloat 20) (PFloat 0) (PFloat 1) "red" false;
      NewUdl (PFloat 20) (PFloat 1) (PFloat 1) "red" false;
      SetMaterials [RefMaterial 0] ].
  Definition yard1 : stR := (MkHeap [bank_soil 5 30] [strip_udl' 0 2; strip_udl' 0 1; strip_udl' 1 1] [], snd demo0).
  Definition yard2 : stR :=
    (MkHeap [assigned 10 0 (bank_soil 5 30)] [strip_udl' 0 2; strip_udl' 0 1; strip_udl' 1 1] [],
     demo_sl [0%nat] [] [] UmUnset None None).
  Definition yard : stR := with_arc yard2.
  Definition in_one : stR := with_arc
    (MkHeap [assigned 10 0 (bank_soil 5 30)] [udl_coords 8 (strip_udl' 0 2); strip_udl' 0 1; strip_udl' 1 1] [],
     demo_sl [0%nat] [0%nat] [] (UmNum 20) None None).
  Definition in_two : stR := with_arc
    (MkHeap [assigned 10 0 (bank_soil 5 30)] [strip_udl' 0 2; udl_coords 8 (strip_udl' 0 1); udl_coords 8 (strip_udl' 1 1)] [],
     demo_sl [0%nat] [1%nat; 2%nat] [] (UmNum 20) None None).
  Lemma new_strip o l : 0 <= o -> 0 < l -> new_udl (PFloat 20) (PFloat o) (PFloat l) "red" false = Ok (strip_udl' o l).
  Proof.
    intros O L. apply udl_spec. exists 20, o, (Some l). split; [split; cbn; auto; lra|]. split; [split; cbn; auto; lra|].
    split.
    - right. exists l. split; [split; cbn; auto; lra|]. split; [lra|]. now rnum.
    - unfold strip_udl'. now rnum.
  Qed.
  Lemma yard2_acc : accepted demo0 yard_ops yard2.
  Proof.
    assert (A1 : accepted demo0 (firstn 4 yard_ops) yard1).
    { cbn [firstn yard_ops].
      econstructor; [cbn [exec]; unfold alloc; rewrite new_soil by lra; reflexivity|].
      do 3 (econstructor; [cbn [exec]; unfold alloc; rewrite new_strip by lra; reflexivity|]).
      constructor. }
    assert (R1 : reachable yard1) by (eapply accepted_reachable; [apply demo0_reachable|exact A1]).
    change yard_ops with (firstn 4 yard_ops ++ skipn 4 yard_ops).
    eapply accepted_app; [exact A1|]. cbn [skipn yard_ops]. econstructor; [|constructor].
    destruct (reachable_inv _ R1) as (C & _ & _).
    cbn [exec]. rewrite with_refs_intro by (repeat constructor).
    rewrite set_materials_eff by exact C. cbn [material_locs rbind].
    unfold sorted_locs, sort_by. cbn. unR.
    unfold deepened. cbn. rnum. unfold layered, yard2. cbn. reflexivity.
  Qed.
  Lemma yard_exec : exec (AddCircle 12 (29 / 2) (15 / 2)) yard2 = (Ok tt, yard).
  Proof.
    cbn [exec]. unfold add_single_circular_plane.
    destruct (circle_external_spec demo_geom demo_good 12 (29 / 2) (15 / 2)) as (l & E & C).
    erewrite bind_ok by reflexivity. change (s_geom (snd yard2)) with demo_geom.
    unfold mlift at 1. rewrite E. unfold mbind at 1.
    destruct (first_two_spec _ _ _ _ _ C) as [(a & b & F & EP)|(_ & L)].
    2:{ exfalso. eapply end_points_two; [apply demo_ends|exact C|exact L]. }
    destruct (end_points_det _ _ _ _ _ _ _ _ demo_ends EP) as (-> & ->). rewrite F. reflexivity.
  Qed.
  Lemma yard_reachable : reachable yard.
  Proof.
    eapply accepted_reachable; [eapply accepted_reachable; [apply demo0_reachable|apply yard2_acc]|].
    econstructor; [apply yard_exec|constructor].
  Qed.
  Lemma in_one_exec : exec (SetUdls [RefUdl 0]) yard = (Ok tt, in_one).
  Proof.
    cbn [exec]. rewrite with_refs_intro by (repeat constructor).
    assert (E1 : set_udl_one (RefUdl 0) yard =
      (Ok tt, (fst yard, set_s_search [] (set_s_planes [demo_plane] (demo_sl [0%nat] [0%nat] [] UmUnset None None))))).
    { cbn [set_udl_one]. erewrite bind_ok; [|reflexivity]. cbn. unR. rnum. cbn [mwhen].
      msteps. unfold udl_min_length. cbn. unR. rnum. reflexivity. }
    unfold set_udls. cbn [mforM]. rewrite bind_assoc. erewrite bind_ok by exact E1.
    rewrite bind_ret. erewrite bind_ok by apply update_udl_coordinates_eff.
    rewrite bind_get. cbn. msteps. reflexivity.
  Qed.
  Lemma in_two_exec : exec (SetUdls [RefUdl 1; RefUdl 2]) yard = (Ok tt, in_two).
  Proof.
    cbn [exec]. rewrite with_refs_intro by (repeat constructor).
    set (y1 := (fst yard, set_s_search [] (set_s_planes [demo_plane] (demo_sl [0%nat] [1%nat] [] UmUnset None None))) : stR).
    assert (E1 : set_udl_one (RefUdl 1) yard = (Ok tt, y1)).
    { cbn [set_udl_one]. erewrite bind_ok; [|reflexivity]. cbn. unR. rnum. cbn [mwhen].
      msteps. unfold udl_min_length. cbn. unR. rnum. reflexivity. }
    assert (E2 : set_udl_one (RefUdl 2) y1 =
      (Ok tt, (fst yard, set_s_search [] (set_s_planes [demo_plane] (demo_sl [0%nat] [1%nat; 2%nat] [] UmUnset None None))))).
    { cbn [set_udl_one]. erewrite bind_ok; [|reflexivity]. cbn. unR. rnum. cbn [mwhen].
      msteps. unfold udl_min_length. cbn. unR. rnum. reflexivity. }
    unfold set_udls. cbn [mforM]. rewrite bind_assoc. erewrite bind_ok by exact E1.
    rewrite bind_assoc. erewrite bind_ok by exact E2.
    rewrite bind_ret. erewrite bind_ok by apply update_udl_coordinates_eff.
    rewrite bind_get. cbn. unR. rnum. msteps. reflexivity.
  Qed.
  Lemma in_one_reachable : reachable in_one.
  Proof.
    eapply accepted_reachable; [apply yard_reachable|]. econstructor; [apply in_one_exec|constructor].
  Qed.
  Lemma in_two_reachable : reachable in_two.
  Proof.
    eapply accepted_reachable; [apply yard_reachable|]. econstructor; [apply in_two_exec|constructor].
  Qed.
  Lemma in_two_pieces : exists us,
    map strip_data (udls_of in_one) = [] ++ (20, 0, Some (1 + 1)) :: [] /\ strip_pieces (20, 0, Some (1 + 1)) us /\
    map strip_data (udls_of in_two) = [] ++ us ++ [] /\ map line_data (lls_of in_two) = map line_data (lls_of in_one).
  Proof.
    exists [(20, 0, Some 1); (20, 0 + 1, Some 1)]. split; [|split; [constructor; lra|split; [|reflexivity]]].
    - cbn. unfold strip_data. cbn. repeat f_equal; lra.
    - cbn. unfold strip_data. cbn. repeat f_equal; lra.
  Qed.
End Pieces.
