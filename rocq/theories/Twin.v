(** * Twin: the demo slope at any size (C90). *)
From Coq Require Import ZArith Reals Lra Lia List Bool String Permutation Sorted.
From Verif Require Import Num Py Validation Utilities Objects Slope Planes Analysis
     Dynamic Api RealNum RealFacts ListFacts MonadFacts Spec SearchFacts FosFacts ScaleFacts
     SlopeFacts MaterialFacts Invariant History EditFacts LayerFacts Demo CircleFacts DemoCircle
     ViewFacts FosTotal SizeFacts.
Import ListNotations.
Local Open Scope R_scope.

Section Twin.
  Context {EN : Env} (k : R) (K : 1 / 4000 <= k).
  Notation stR := (st R).
  Definition twin_ops : list (op R) :=
    [ BoundaryOpts (PFloat (k * 10)) (PFloat (k * 6));
      NewMaterial (PFloat 18) (PInt 30) (PFloat (k * 5)) (PFloat (k * 2)) (PStr "sand") PNone;
      NewMaterial (PFloat 20) (PInt 35) (PFloat 0) (PFloat (k * 5)) (PStr "clay") PNone;
      NewUdl (PFloat (k * 20)) (PFloat (k * 1)) (PFloat (k * 2)) "red" false;
      NewLload (PFloat (k * k * 10)) (PFloat (k * (1 / 2))) "blue" false;
      SetMaterials [RefMaterial 1; RefMaterial 0];
      SetUdls [RefUdl 0];
      SetLls [RefLload 0] ].
  Definition twin_sand : material R :=
    MkMaterial 18 30 (k * 5) (k * 2) "sand" "" "" (Rtan_py (30 * (PI / 180))) None.
  Definition twin_clay : material R :=
    MkMaterial 20 35 0 (k * 5) "clay" "" "" (Rtan_py (35 * (PI / 180))) None.
  Definition twin_udl0 : udl R :=
    MkUdl (k * 20) (k * 1) (Some (k * 2)) (if is_color "red"%string then "red"%string else "red"%string) false None None.
  Definition twin_ll0 : lload R :=
    MkLload (k * k * 10) (k * (1 / 2)) (if is_color "blue"%string then "blue"%string else "blue"%string) false None.
  Definition twin_sl (mats udls lls : list nat) (um : udlmax R) : slope R :=
    MkSlope (grow_geom k demo_geom) true (k * 6) (k * 10) mats udls lls um None None
            (cos (atan (3 / 4)) * cos (atan (3 / 4))) (MkLimits 0 (k * 8) (k * 8) (k * 20)) 25 1000 0
            (5 / 1000) 15 [] [] [].
  Definition twin0 : stR := (empty_heap, twin_sl [] [] [] UmUnset).
  Lemma twin_geom_of : geom_of (k * 3) (k * 4) (k * 6) (k * 10) = grow_geom k demo_geom.
  Proof.
    unfold geom_of, grow_geom, demo_geom, grow_pt.
    cbn [g_height g_length g_gradient g_top g_bot g_ext_l g_ext_h fst snd].
    rewrite (Rmax_left (3 * (k * 3)) (k * 6)) by lra. rewrite (Rmax_right _ (5 * (k * 4) / 2)) by lra.
    rewrite (Rmax_left (5 * (k * 4)) (k * 10)) by lra. rewrite (Rmax_left _ (4 * (k * 3))) by lra.
    f_equal; try lra; try (f_equal; lra). field. lra.
  Qed.
  Lemma twin_started : exists s0, new_slope empty_heap (PFloat (k * 3)) PNone (PFloat (k * 4)) = Ok s0 /\
    exec (BoundaryOpts (PFloat (k * 10)) (PFloat (k * 6))) s0 = (Ok tt, twin0).
  Proof.
    rewrite init_eff. rewrite (boundary_inputs_length _ _ _ (k * 3) 0 (k * 4)); cbn [denotes]; auto; try lra.
    rewrite (Rmax_left (k * 4)) by lra. eexists. split; [reflexivity|]. cbn [exec].
    rewrite update_boundary_eff; [|reflexivity|cbn; lra|cbn; lra].
    assert (OD : forall x, 0 < x -> opt_dim (PFloat (k * x)) = Ok (Some (k * x))).
    { intros x X. assert (0 < k * x) by (apply Rmult_lt_0_compat; lra).
      unfold opt_dim, assert_strictly_positive_number. cbn [truthy isinstance_num negb as_num rbind]. unR.
      rewrite (proj2 (Reqb_false (k * x) 0)) by lra. cbn [negb].
      rewrite (proj2 (Rltb_false (k * x) 0)) by lra. reflexivity. }
    rewrite !OD by lra. cbv zeta.
    unfold started, optioned, rebuilt. cbn. rewrite twin_geom_of. unfold twin0, twin_sl. cbn.
    replace (k * 3 / (k * 4)) with (3 / 4) by (field; lra).
    rewrite (Rmin_left 0).
    2:{ pose proof (Rmax_r (5 * (k * 4)) 10). pose proof (Rmax_l (Rmax (5 * (k * 4)) 10) (4 * (k * 3))). lra. }
    assert (L : default_limits (grow_geom k demo_geom) = MkLimits 0 (k * 8) (k * 8) (k * 20)) by reflexivity.
    rewrite L. reflexivity.
  Qed.
  Lemma twin_materials :
    new_material (PFloat 18) (PInt 30) (PFloat (k * 5)) (PFloat (k * 2)) (PStr "sand") PNone = Ok twin_sand /\
    new_material (PFloat 20) (PInt 35) (PFloat 0) (PFloat (k * 5)) (PStr "clay") PNone = Ok twin_clay.
  Proof.
    split; apply (proj2 (material_spec _ _ _ _ _ _ _ _)).
    - exists 18, 30, (k * 5), (k * 2), "sand"%string, ""%string. unfold twin_sand. rnum. unfold plain_denotes.
      cbn [denotes plain_number is_text]. ands; auto; lra.
    - exists 20, 35, 0, (k * 5), "clay"%string, ""%string. unfold twin_clay. rnum. unfold plain_denotes.
      cbn [denotes plain_number is_text]. ands; auto; lra.
  Qed.
  Lemma twin_loads :
    new_udl (PFloat (k * 20)) (PFloat (k * 1)) (PFloat (k * 2)) "red" false = Ok twin_udl0 /\
    new_lload (PFloat (k * k * 10)) (PFloat (k * (1 / 2))) "blue" false = Ok twin_ll0.
  Proof.
    split.
    - apply udl_spec. exists (k * 20), (k * 1), (Some (k * 2)). split; [split; cbn; auto|]. split; [split; cbn; auto|].
      split.
      + right. exists (k * 2). split; [split; cbn; auto|]. split; [lra|]. now rnum.
      + unfold twin_udl0. now rnum.
    - apply lload_spec. exists (k * k * 10), (k * (1 / 2)). split; [split; cbn; auto|]. split; [split; cbn; auto|].
      assert (0 < k * k) by nra. unfold twin_ll0. now rnum.
  Qed.
  Definition twin1 : stR :=
    (MkHeap [twin_sand; twin_clay] [twin_udl0] [twin_ll0], snd twin0).
  Lemma twin1_acc : accepted twin0 (firstn 4 (skipn 1 twin_ops)) twin1.
  Proof.
    destruct twin_materials as [M1 M2]. destruct twin_loads as [L1 L2].
    cbn [firstn skipn twin_ops].
    econstructor; [cbn [exec]; unfold alloc; rewrite M1; reflexivity|].
    econstructor; [cbn [exec]; unfold alloc; rewrite M2; reflexivity|].
    econstructor; [cbn [exec]; unfold alloc; rewrite L1; reflexivity|].
    econstructor; [cbn [exec]; unfold alloc; rewrite L2; reflexivity|].
    constructor.
  Qed.
  Lemma twin0_reachable : reachable twin0.
  Proof.
    destruct twin_started as (s0 & N & E). eapply accepted_reachable; [eapply new_reachable; exact N|].
    econstructor; [exact E|constructor].
  Qed.
  Lemma twin1_reachable : reachable twin1.
  Proof. eapply accepted_reachable; [apply twin0_reachable|apply twin1_acc]. Qed.
  Definition twin2 : stR :=
    (MkHeap [assigned (k * 10) 0 twin_sand; assigned (k * 10) 1 twin_clay] [twin_udl0] [twin_ll0],
     twin_sl [0%nat; 1%nat] [] [] UmUnset).
  Lemma twin2_exec : exec (SetMaterials [RefMaterial 1; RefMaterial 0]) twin1 = (Ok tt, twin2).
  Proof.
    destruct (reachable_inv _ twin1_reachable) as (C & _ & _).
    cbn [exec]. rewrite with_refs_intro by (repeat constructor).
    rewrite set_materials_eff by exact C. cbn [material_locs rbind].
    unfold sorted_locs, sort_by. cbn. unR. rnum. cbn. unR. rnum. cbn.
    unfold deepened. cbn. rnum. unfold layered, twin2. cbn. reflexivity.
  Qed.
  Definition twin3 : stR :=
    (MkHeap (h_materials (fst twin2)) [udl_coords (k * 8) twin_udl0] [twin_ll0],
     twin_sl [0%nat; 1%nat] [0%nat] [] (UmNum (k * 20))).
  Lemma twin3_exec : exec (SetUdls [RefUdl 0]) twin2 = (Ok tt, twin3).
  Proof.
    cbn [exec]. rewrite with_refs_intro by (repeat constructor).
    assert (E1 : set_udl_one (RefUdl 0) twin2 =
      (Ok tt, (fst twin2, twin_sl [0%nat; 1%nat] [0%nat] [] UmUnset))).
    { cbn [set_udl_one]. erewrite bind_ok; [|reflexivity]. cbn. unR. rnum. cbn [mwhen].
      msteps. unfold udl_min_length. cbn. unR. rnum. reflexivity. }
    unfold set_udls. cbn [mforM]. rewrite bind_assoc. erewrite bind_ok by exact E1.
    rewrite bind_ret. erewrite bind_ok by apply update_udl_coordinates_eff.
    rewrite bind_get. cbn. msteps. reflexivity.
  Qed.
  Definition twin4 : stR :=
    (MkHeap (h_materials (fst twin2)) [udl_coords (k * 8) twin_udl0] [ll_coords (k * 8) twin_ll0],
     twin_sl [0%nat; 1%nat] [0%nat] [0%nat] (UmNum (k * 20))).
  Lemma twin4_exec : exec (SetLls [RefLload 0]) twin3 = (Ok tt, twin4).
  Proof.
    cbn [exec]. rewrite with_refs_intro by (repeat constructor).
    assert (0 < k * k) by nra.
    assert (E1 : set_ll_one (RefLload 0) twin3 =
      (Ok tt, (fst twin3, twin_sl [0%nat; 1%nat] [0%nat] [0%nat] (UmNum (k * 20))))).
    { cbn [set_ll_one]. erewrite bind_ok; [|reflexivity]. cbn. unR. rnum. cbn [mwhen].
      msteps. cbn. unR. rnum. reflexivity. }
    unfold set_lls. cbn [mforM]. rewrite bind_assoc. erewrite bind_ok by exact E1.
    rewrite bind_ret. erewrite bind_ok by apply update_ll_coordinates_eff. reflexivity.
  Qed.
  Lemma twin4_reachable : reachable twin4.
  Proof.
    eapply accepted_reachable; [apply twin1_reachable|].
    econstructor; [apply twin2_exec|]. econstructor; [apply twin3_exec|]. econstructor; [apply twin4_exec|constructor].
  Qed.
  Lemma twin4_view v : view_of demo4 = Ok v -> view_of twin4 = Ok (grow_view k v).
  Proof.
    intros E. injection E as <-. unfold twin4, view_of. cbn. unfold grow_view. cbn.
    unfold udl_coords, ll_coords, udl_left_right. cbn. unR. rnum. cbn.
    unfold grow_limits, grow_material. cbn. unfold assigned. cbn. unR.
    unfold grow_pt; cbn. rewrite <- !Rmult_minus_distr_l.
    replace (k * 0) with 0 by lra.
    reflexivity.
  Qed.
End Twin.

(** ** The same circle at the size of the twin *)
Lemma demo_meeting p : on_circle 12 (29 / 2) (15 / 2) p -> on_ground demo_geom p ->
  p = (6, 10) \/ p = (12, 7).
Proof.
  destruct p as [x y]. unfold on_circle, on_ground.
  intros C ((X0 & X1) & Y). cbn [fst snd] in C, X0, X1, Y. cbn [g_ext_l demo_geom] in X1.
  destruct (Rle_lt_dec x 8) as [A|A]; [|destruct (Rle_lt_dec x 12) as [B|B]].
  - rewrite (surface_crest _ demo_good) in Y by (cbn; lra). cbn in Y. subst y.
    assert (Q : (x - 6) * (x - 18) = 0) by nra. apply Rmult_integral in Q as [Q|Q]; [left; f_equal; lra|lra].
  - rewrite demo_surface in Y by lra. subst y.
    assert (Q : (x - 12) * (25 * x - 120) = 0) by nra.
    apply Rmult_integral in Q as [Q|Q]; [right; f_equal; lra|lra].
  - rewrite (surface_toe _ demo_good) in Y by (cbn; lra). cbn in Y. subst y.
    assert (Q : (x - 12) * (x - 12) = 0) by nra. apply Rmult_integral in Q as [Q|Q]; lra.
Qed.
Lemma demo_apart k : 1 / 600 < k -> apart k demo_geom 12 (29 / 2) (15 / 2).
Proof.
  intros K p q P1 P2 Q1 Q2.
  destruct (demo_meeting p P1 P2) as [-> | ->], (demo_meeting q Q1 Q2) as [-> | ->]; cbn [fst];
    match goal with |- context [Rabs ?d] => first [replace d with 0 by lra; rewrite Rabs_R0
      | replace d with 6 by lra; rewrite (Rabs_right 6) by lra
      | replace d with (- (6)) by lra; rewrite Rabs_Ropp, (Rabs_right 6) by lra] end; lra.
Qed.
Section TwinCircle.
  Context {EN : Env} (k : R) (K : 1 / 600 < k).
  Definition twin5 : st R :=
    (fst (twin4 k), set_s_search [] (set_s_planes [grow_plane k demo_plane] (snd (twin4 k)))).
  Lemma twin5_exec : exec (AddCircle (k * 12) (k * (29 / 2)) (k * (15 / 2))) (twin4 k) = (Ok tt, twin5).
  Proof.
    cbn [exec]. unfold add_single_circular_plane.
    destruct (circle_external_spec demo_geom demo_good 12 (29 / 2) (15 / 2)) as (l & E & C).
    erewrite bind_ok by reflexivity. change (s_geom (snd (twin4 k))) with (grow_geom k demo_geom).
    assert (KP : 0 < k) by lra.
    pose proof (grow_external k KP demo_geom 12 (29 / 2) (15 / 2)
                  ltac:(apply apart_gaps; [apply demo_good|now apply demo_apart])) as X.
    rewrite E in X. unfold mlift at 1. rewrite X. unfold mbind at 1.
    destruct (first_two_spec _ _ _ _ _ C) as [(a & b & F & EP)|(_ & L)].
    2:{ exfalso. eapply end_points_two; [apply demo_ends|exact C|exact L]. }
    destruct (end_points_det _ _ _ _ _ _ _ _ demo_ends EP) as (-> & ->).
    rewrite (grow_two k KP), F. reflexivity.
  Qed.
  Lemma twin5_reachable : reachable twin5.
  Proof.
    eapply accepted_reachable; [apply (twin4_reachable k); lra|].
    econstructor; [apply twin5_exec|constructor].
  Qed.
  Lemma twin5_view v : view_of demo5 = Ok v -> view_of twin5 = Ok (grow_view k v).
  Proof. apply twin4_view. lra. Qed.
  Lemma twin5_analysed m : exists f s', 0 < f /\ analyse_slope m demo5 = (Ok tt, s') /\
    (passes m f -> get_min_FOS (snd s') = Ok (Some f)) /\
    fst (analyse_slope m twin5) = Ok tt /\
    s_search (snd (snd (analyse_slope m twin5))) = map (grow_plane k) (s_search (snd s')).
  Proof.
    destruct (demo5_analysed m) as (f & s' & P & A & G). exists f, s'. split; auto. split; auto. split; auto.
    destruct demo4_view as (v & E & _ & GV & _).
    destruct (analyse_grow k ltac:(lra) m demo5 twin5 v) as (X & Y).
    - rewrite GV. apply demo_good.
    - exact E.
    - apply twin5_view. exact E.
    - discriminate.
    - reflexivity.
    - constructor; [|constructor]. rewrite GV. now apply demo_apart.
    - rewrite A in X, Y. cbn [fst snd] in X, Y. auto.
  Qed.
End TwinCircle.
(** ** A slope so small that its whole ground is within a centimetre *)
Section Tiny.
  Context {EN : Env}.
  Lemma crossings_short k l : 0 < k -> k <= 1 / 2000 ->
    crossings (grow_geom k demo_geom) (k * 12) (k * (29 / 2)) (k * (15 / 2)) l -> (List.length l <= 1)%nat.
  Proof.
    intros K0 K (SS & C). destruct l as [|a [|b l]]; cbn; auto. exfalso.
    pose proof (grow_good k K0 _ demo_good) as G.
    destruct (crossing_ground _ G _ _ _ _ (proj1 (proj1 (C a) (or_introl eq_refl)))) as (_ & A & _).
    destruct (crossing_ground _ G _ _ _ _ (proj1 (proj1 (C b) (or_intror (or_introl eq_refl))))) as (_ & B & _).
    inversion SS as [|? ? _ Q]; subst. inversion Q as [|? ? L _]; subst.
    cbn in A, B. cbn in L. lra.
  Qed.
  Lemma tiny_factor k v : 0 < k -> k <= 1 / 2000 -> v_geom v = demo_geom ->
    bishop (grow_view k v) (k * 12) (k * (29 / 2)) (k * (15 / 2)) = Ok None.
  Proof.
    intros K0 K G. unfold bishop.
    destruct (circle_external_spec _ (grow_good k K0 _ demo_good) (k * 12) (k * (29 / 2)) (k * (15 / 2))) as (l & E & C).
    cbn [grow_view v_geom]. rewrite G, E. cbn [rbind].
    destruct (first_two_spec _ _ _ _ _ C) as [(a & b & F & EP)|(F & _)].
    - exfalso. eapply end_points_two; [exact EP|exact C|]. now apply crossings_short with k.
    - rewrite F. reflexivity.
  Qed.
End Tiny.
