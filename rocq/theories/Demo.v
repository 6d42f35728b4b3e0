(** * Demo: a concrete reachable model, used to show that the hypotheses of the
    theorems are met by a non-trivial case. *)
From Coq Require Import ZArith Reals Lra Lia List Bool String.
From Verif Require Import Num Py Validation Utilities Objects Slope Planes Analysis
     Dynamic Api RealNum RealFacts ListFacts MonadFacts SlopeFacts MaterialFacts Invariant
     History Spec EditFacts LayerFacts.
Import ListNotations.
Local Open Scope R_scope.

(** decide comparisons of numerals *)
Ltac rnum1 :=
  match goal with
  | |- context [Rltb ?a ?b] =>
      first [ rewrite (proj2 (Rltb_true a b)) by lra
            | rewrite (proj2 (Rltb_false a b)) by lra ]
  | |- context [Rleb ?a ?b] =>
      first [ rewrite (proj2 (Rleb_true a b)) by lra
            | rewrite (proj2 (Rleb_false a b)) by lra ]
  | |- context [Reqb ?a ?b] =>
      first [ rewrite (proj2 (Reqb_true a b)) by lra
            | rewrite (proj2 (Reqb_false a b)) by lra ]
  | |- context [Rmax ?a ?b] =>
      first [ rewrite (Rmax_left a b) by lra | rewrite (Rmax_right a b) by lra ]
  | |- context [Rmin ?a ?b] =>
      first [ rewrite (Rmin_left a b) by lra | rewrite (Rmin_right a b) by lra ]
  | |- context [Rabs ?a] =>
      first [ rewrite (Rabs_right a) by lra | rewrite (Rabs_left a) by lra ]
  end.
Ltac rnum := repeat (rnum1; cbn [negb andb orb rbind]).
Ltac ands := repeat match goal with |- _ /\ _ => split end.

Section Demo.
  Context {EN : Env}.
  Notation stR := (st R).

  Lemma accepted_run (s s' : stR) ops : accepted s ops s' -> s' = run s ops.
  Proof.
    induction 1 as [|s o l s' s'' E A IH]; auto.
    unfold run. cbn [fold_left]. unfold step at 2. rewrite E. exact IH.
  Qed.
  Lemma accepted_reachable (s s' : stR) ops : reachable s -> accepted s ops s' -> reachable s'.
  Proof.
    intros (h & a & l & ops0 & s0 & E & ->) A. apply accepted_run in A.
    exists h, a, l, (ops0 ++ ops), s0. split; auto.
    rewrite A. unfold run. now rewrite fold_left_app.
  Qed.
  Lemma accepted_app (s s1 s2 : stR) a b :
    accepted s a s1 -> accepted s1 b s2 -> accepted s (a ++ b) s2.
  Proof. induction 1; cbn; auto. intros. econstructor; eauto. Qed.
  Lemma new_reachable h a l (s : stR) : new_slope empty_heap h a l = Ok s -> reachable s.
  Proof. intros E. exists h, a, l, [], s. auto. Qed.

  (** 3 m high, 4 m long *)
  Definition demo_geom : geom R := MkGeom 3 4 (3 / 4) (8, 10) (12, 7) 20 10.
  Lemma demo_geom_of : geom_of 3 4 6 10 = demo_geom.
  Proof. unfold geom_of, demo_geom. rnum. repeat f_equal; lra. Qed.
  Definition demo_sl (mats udls lls : list nat) (um : udlmax R) (wrl wd : option R) : slope R :=
    MkSlope demo_geom true 6 10 mats udls lls um wrl wd
            (cos (atan (3 / 4)) * cos (atan (3 / 4))) (MkLimits 0 8 8 20) 25 1000 0
            (5 / 1000) 15 [] [] [].
  Definition demo0 : stR := (empty_heap, demo_sl [] [] [] UmUnset None None).
  Lemma demo0_started : started empty_heap demo_geom = demo0.
  Proof.
    unfold started, optioned. cbn. rnum. reflexivity.
  Qed.
  Lemma demo0_new : new_slope empty_heap (PFloat 3) PNone (PFloat 4) = Ok demo0.
  Proof.
    rewrite init_eff.
    rewrite (boundary_inputs_length _ _ _ 3 0 4); cbn [denotes]; auto; try lra.
    rnum. now rewrite demo_geom_of, demo0_started.
  Qed.
  Lemma demo0_reachable : reachable demo0.
  Proof. eapply new_reachable, demo0_new. Qed.

  (** two layers, a strip load, a line load and a water table *)
  Definition demo_sand : material R :=
    MkMaterial 18 30 5 2 "sand" "" "" (Rtan_py (30 * (PI / 180))) None.
  Definition demo_clay : material R :=
    MkMaterial 20 35 0 5 "clay" "" "" (Rtan_py (35 * (PI / 180))) None.
  Definition colour (c : string) : string := if is_color c then c else "red"%string.
  Definition demo_ops : list (op R) :=
    [ NewMaterial (PFloat 18) (PInt 30) (PFloat 5) (PFloat 2) (PStr "sand") PNone;
      NewMaterial (PFloat 20) (PInt 35) (PFloat 0) (PFloat 5) (PStr "clay") PNone;
      NewUdl (PFloat 20) (PFloat 1) (PFloat 2) "red" false;
      NewLload (PFloat 10) (PFloat (1 / 2)) "blue" false;
      SetMaterials [RefMaterial 1; RefMaterial 0];
      SetUdls [RefUdl 0];
      SetLls [RefLload 0];
      SetWater (PFloat 1) ].
  Definition sand_in : material R := assigned 10 0 demo_sand.
  Definition clay_in : material R := assigned 10 1 demo_clay.
  Definition demo_udl0 : udl R :=
    MkUdl 20 1 (Some 2) (if is_color "red"%string then "red"%string else "red"%string) false None None.
  Definition demo_ll0 : lload R :=
    MkLload 10 (1 / 2) (if is_color "blue"%string then "blue"%string else "blue"%string) false None.
  Definition demo_udl : udl R := udl_coords 8 demo_udl0.
  Definition demo_ll : lload R := ll_coords 8 demo_ll0.
  Definition demo : stR :=
    (MkHeap [sand_in; clay_in] [demo_udl] [demo_ll],
     demo_sl [0%nat; 1%nat] [0%nat] [0%nat] (UmNum 20) (Some 9) (Some 1)).

  Lemma demo_materials :
    new_material (PFloat 18) (PInt 30) (PFloat 5) (PFloat 2) (PStr "sand") PNone = Ok demo_sand /\
    new_material (PFloat 20) (PInt 35) (PFloat 0) (PFloat 5) (PStr "clay") PNone = Ok demo_clay.
  Proof.
    split; apply (proj2 (material_spec _ _ _ _ _ _ _ _)).
    - exists 18, 30, 5, 2, "sand"%string, ""%string. unfold demo_sand. rnum. unfold plain_denotes.
      cbn [denotes plain_number is_text]. ands; auto; lra.
    - exists 20, 35, 0, 5, "clay"%string, ""%string. unfold demo_clay. rnum. unfold plain_denotes.
      cbn [denotes plain_number is_text]. ands; auto; lra.
  Qed.
  Lemma demo_loads :
    new_udl (PFloat 20) (PFloat 1) (PFloat 2) "red" false = Ok demo_udl0 /\
    new_lload (PFloat 10) (PFloat (1 / 2)) "blue" false = Ok demo_ll0.
  Proof.
    split.
    - apply udl_spec. exists 20, 1, (Some 2). split; [split; cbn; auto|]. split; [split; cbn; auto|].
      split.
      + right. exists 2. split; [split; cbn; auto|]. split; [lra|]. now rnum.
      + unfold demo_udl0. now rnum.
    - apply lload_spec. exists 10, (1 / 2). split; [split; cbn; auto|]. split; [split; cbn; auto|].
      unfold demo_ll0. now rnum.
  Qed.

  Definition demo1 : stR :=
    (MkHeap [demo_sand; demo_clay] [demo_udl0] [demo_ll0], snd demo0).
  Lemma demo1_acc : accepted demo0 (firstn 4 demo_ops) demo1.
  Proof.
    destruct demo_materials as [M1 M2]. destruct demo_loads as [L1 L2].
    cbn [firstn demo_ops].
    econstructor; [cbn [exec]; unfold alloc; rewrite M1; reflexivity|].
    econstructor; [cbn [exec]; unfold alloc; rewrite M2; reflexivity|].
    econstructor; [cbn [exec]; unfold alloc; rewrite L1; reflexivity|].
    econstructor; [cbn [exec]; unfold alloc; rewrite L2; reflexivity|].
    constructor.
  Qed.
  Lemma demo1_reachable : reachable demo1.
  Proof. eapply accepted_reachable; [apply demo0_reachable|apply demo1_acc]. Qed.
  Definition demo2 : stR :=
    (MkHeap [sand_in; clay_in] [demo_udl0] [demo_ll0],
     demo_sl [0%nat; 1%nat] [] [] UmUnset None None).
  Lemma demo2_exec : exec (SetMaterials [RefMaterial 1; RefMaterial 0]) demo1 = (Ok tt, demo2).
  Proof.
    destruct (reachable_inv _ demo1_reachable) as (C & _ & _).
    cbn [exec]. rewrite with_refs_intro by (repeat constructor).
    rewrite set_materials_eff by exact C. cbn [material_locs rbind].
    unfold sorted_locs, sort_by. cbn. unR. rnum. cbn. unR. rnum. cbn.
    unfold deepened. cbn. rnum. unfold layered, demo2, sand_in, clay_in. cbn. reflexivity.
  Qed.
  Lemma demo2_reachable : reachable demo2.
  Proof.
    eapply accepted_reachable; [apply demo1_reachable|].
    econstructor; [apply demo2_exec|constructor].
  Qed.
  Definition demo3 : stR :=
    (MkHeap [sand_in; clay_in] [demo_udl] [demo_ll0],
     demo_sl [0%nat; 1%nat] [0%nat] [] (UmNum 20) None None).
  Lemma demo3_exec : exec (SetUdls [RefUdl 0]) demo2 = (Ok tt, demo3).
  Proof.
    cbn [exec]. rewrite with_refs_intro by (repeat constructor).
    assert (E1 : set_udl_one (RefUdl 0) demo2 =
      (Ok tt, (fst demo2, demo_sl [0%nat; 1%nat] [0%nat] [] UmUnset None None))).
    { cbn [set_udl_one]. erewrite bind_ok; [|reflexivity]. cbn. unR. rnum. cbn [mwhen].
      msteps. unfold udl_min_length. cbn. unR. rnum. reflexivity. }
    unfold set_udls. cbn [mforM]. rewrite bind_assoc. erewrite bind_ok by exact E1.
    rewrite bind_ret. erewrite bind_ok by apply update_udl_coordinates_eff.
    rewrite bind_get. cbn. msteps. reflexivity.
  Qed.
  Definition demo4 : stR :=
    (MkHeap [sand_in; clay_in] [demo_udl] [demo_ll],
     demo_sl [0%nat; 1%nat] [0%nat] [0%nat] (UmNum 20) None None).
  Lemma demo4_exec : exec (SetLls [RefLload 0]) demo3 = (Ok tt, demo4).
  Proof.
    cbn [exec]. rewrite with_refs_intro by (repeat constructor).
    assert (E1 : set_ll_one (RefLload 0) demo3 =
      (Ok tt, (fst demo3, demo_sl [0%nat; 1%nat] [0%nat] [0%nat] (UmNum 20) None None))).
    { cbn [set_ll_one]. erewrite bind_ok; [|reflexivity]. cbn. unR. rnum. cbn [mwhen].
      msteps. cbn. unR. rnum. reflexivity. }
    unfold set_lls. cbn [mforM]. rewrite bind_assoc. erewrite bind_ok by exact E1.
    rewrite bind_ret. erewrite bind_ok by apply update_ll_coordinates_eff. reflexivity.
  Qed.
  Lemma demo_exec : exec (SetWater (PFloat 1)) demo4 = (Ok tt, demo).
  Proof.
    cbn [exec]. unfold set_water_table. cbn [is_none]. msteps.
    cbn. unR. rnum. msteps. unR. cbn. unR. rnum.
    replace (10 - 1) with 9 by lra. reflexivity.
  Qed.
  Lemma demo_acc : accepted demo0 demo_ops demo.
  Proof.
    change demo_ops with (firstn 4 demo_ops ++ skipn 4 demo_ops).
    eapply accepted_app; [apply demo1_acc|]. cbn [skipn demo_ops].
    econstructor; [apply demo2_exec|].
    econstructor; [apply demo3_exec|].
    econstructor; [apply demo4_exec|].
    econstructor; [apply demo_exec|constructor].
  Qed.
  Lemma demo_reachable : reachable demo.
  Proof. eapply accepted_reachable; [apply demo0_reachable|apply demo_acc]. Qed.
End Demo.
