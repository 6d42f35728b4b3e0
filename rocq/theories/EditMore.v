(** * EditMore: refutations and remaining facts for C03-C08. *)
From Coq Require Import ZArith Reals Lra Lia List Bool String Permutation Sorted SpecFloat.
From Verif Require Import Num Py Validation Utilities Objects Slope Planes Analysis
     Dynamic Api RealNum FloatNum RealFacts ListFacts MonadFacts SlopeFacts MaterialFacts
     Invariant History Spec EditFacts GroundFacts LayerFacts Demo.
Import ListNotations.
Local Open Scope R_scope.

(** ** C03 *)
Lemma zero_height (EN : Env) :
  exists s : st R, new_slope empty_heap (PFloat 0) PNone (PFloat 4) = Ok s /\
                   g_height (s_geom (snd s)) = 0.
Proof.
  eexists. rewrite init_eff.
  rewrite (boundary_inputs_length _ _ _ 0 0 4); cbn [denotes]; auto; try lra.
Qed.
Lemma nan_height (EN : Env) :
  exists s : st float, new_slope empty_heap (PFloat S754_nan) PNone (PFloat (nz 4)) = Ok s /\
                       g_height (s_geom (snd s)) = S754_nan.
Proof. eexists. split; vm_compute; reflexivity. Qed.

Lemma not_pos_err v :
  (forall x, denotes v x -> x < 0) ->
  assert_strictly_positive_number v = Err ValueError /\ assert_positive_number v = Err ValueError.
Proof. intros H. split; [exact (assert_positive_err v H) | exact (assert_positive_err v H)]. Qed.

Lemma negative_rejected (EN : Env) (s : st R) v :
  reachable s -> v <> PNone -> (forall x, denotes v x -> x < 0) ->
  (forall a l, exists e, exec (SetBoundary v a l) s = (Err e, s)) /\
  (~ falsy v -> forall l, exists e, exec (BoundaryOpts l v) s = (Err e, s)) /\
  (~ falsy v -> exists e, exec (BoundaryOpts v PNone) s = (Err e, s)) /\
  (forall a b d, exists e, exec (SetLimits a b v d) s = (Err e, s)).
Proof.
  intros Hr Hn Hv. destruct (reachable_inv s Hr) as (C & _ & _).
  destruct (not_pos_err v Hv) as [E1 E2].
  assert (N : is_none v = false) by (destruct v; try reflexivity; now elim Hn).
  split; [|split; [|split]].
  - intros a l. cbn [exec]. rewrite set_external_boundary_eff. unfold boundary_inputs.
    rewrite N, E1. cbn [rbind]. eauto.
  - intros Hf l. cbn [exec]. destruct C. rewrite update_boundary_eff by assumption.
    unfold opt_dim at 1. destruct (truthy v) eqn:T.
    + rewrite E1. cbn [rbind]. eauto.
    + elim Hf. now apply falsy_truthy.
  - intros Hf. cbn [exec]. destruct C. rewrite update_boundary_eff by assumption.
    unfold opt_dim. cbn [truthy]. destruct (truthy v) eqn:T.
    + rewrite E1. cbn. destruct s; eauto.
    + elim Hf. now apply falsy_truthy.
  - intros a b d. cbn [exec]. rewrite set_limits_eff. unfold limits_result.
    destruct (limit_arg a _ _); cbn [rbind]; eauto.
    unfold limit_arg at 1. rewrite N, E1. cbn [rbind]. eauto.
Qed.

(** ** C04 *)
Lemma geometry_consistent (EN : Env) (s : st R) :
  reachable s ->
  let g := s_geom (snd s) in
  0 <= g_height g /\ 1 / 1000 <= g_length g /\
  fst (g_bot g) = fst (g_top g) + g_length g /\
  snd (g_bot g) = snd (g_top g) - g_height g /\
  g_ext_l g - fst (g_bot g) = fst (g_top g) /\
  0 < fst (g_top g) < fst (g_bot g) /\ fst (g_bot g) < g_ext_l g /\
  0 <= snd (g_bot g) <= snd (g_top g) /\ snd (g_top g) = g_ext_h g /\
  g_ext_l g = Rmax (Rmax (5 * g_length g) (4 * g_height g)) (s_min_ext_l (snd s)) /\
  3 * g_height g <= g_ext_h g /\ 5 / 2 * g_length g <= g_ext_h g /\
  g_gradient g = g_height g / g_length g.
Proof.
  intros Hr g. destruct (reachable_section EN s Hr) as (h & l & mh & Hh & Hl & Hm & CS).
  pose proof (section_facts h l mh _ _ Hh Hl CS) as F. fold g in F, CS.
  destruct CS. rewrite cs_height, cs_length in *. tauto.
Qed.

Lemma stale_exec (EN : Env) :
  exec (BoundaryOpts (PFloat (-1)) (PFloat 100)) demo0 =
  (Err ValueError, (fst demo0, set_s_min_ext_h 100 (snd demo0))).
Proof.
  destruct (reachable_inv _ demo0_reachable) as (C & _ & _). destruct C.
  cbn [exec]. rewrite update_boundary_eff by assumption.
  unfold opt_dim, assert_strictly_positive_number. cbn. unR. rnum. cbn. unR. rnum. reflexivity.
Qed.
Lemma min_height_stale (EN : Env) :
  exists s : st R, reachable s /\ g_ext_h (s_geom (snd s)) < s_min_ext_h (snd s).
Proof.
  exists (run demo0 [BoundaryOpts (PFloat (-1)) (PFloat 100)]).
  split.
  - destruct demo0_reachable as (h & a & l & ops & s0 & E & Q).
    exists h, a, l, (ops ++ [BoundaryOpts (PFloat (-1)) (PFloat 100)]), s0. split; auto.
    unfold run. rewrite fold_left_app. fold (run s0 ops). now rewrite <- Q.
  - unfold run. cbn [fold_left]. unfold step. rewrite stale_exec. cbn. lra.
Qed.
Lemma options_not_atomic (EN : Env) :
  exists (s s' : st R) e, reachable s /\
    exec (BoundaryOpts (PFloat (-1)) (PFloat 100)) s = (Err e, s') /\
    s_min_ext_h (snd s') = 100 /\ s_min_ext_h (snd s) = 6.
Proof.
  exists demo0. eexists. eexists. split; [apply demo0_reachable|].
  split; [apply stale_exec|]. split; reflexivity.
Qed.

Section More.
  Context (EN : Env).
  Notation stR := (st R).

  (** ** C06 *)

  Lemma materials_not_atomic :
    exists (s s' : stR) e l, reachable s /\
      exec (SetMaterials l) s = (Err e, s') /\
      g_ext_h (s_geom (snd s)) = 10 /\ g_ext_h (s_geom (snd s')) = 20.
  Proof.
    set (m := MkMaterial 18 30 5 20 "" "" "" (Rtan_py (30 * (PI / 180))) None).
    assert (M1 : new_material (PFloat 18) (PInt 30) (PFloat 5) (PFloat 20) PNone PNone = Ok m).
    { apply (proj2 (material_spec _ _ _ _ _ _ _ _)). do 6 eexists. unfold plain_denotes.
      ands; cbn [denotes plain_number is_text]; try reflexivity; try exact I; try lra.
      unfold m. rnum. reflexivity. }
    set (s := (MkHeap [m] [] [], snd demo0) : stR).
    assert (Hr : reachable s).
    { apply (accepted_reachable demo0 _
        [NewMaterial (PFloat 18) (PInt 30) (PFloat 5) (PFloat 20) PNone PNone]);
        [apply demo0_reachable|].
      econstructor; [|constructor]. cbn [exec]. unfold alloc. rewrite M1. reflexivity. }
    destruct (reachable_inv _ Hr) as (C & _ & _).
    exists s. eexists. exists ValueError, [RefMaterial 0; RefMaterial 0].
    split; [exact Hr|]. split; [|split; [reflexivity|]].
    - cbn [exec]. rewrite with_refs_intro by (repeat constructor).
      rewrite set_materials_eff by exact C. cbn [material_locs rbind].
      unfold sorted_locs, sort_by. cbn -[deepened]. unR. rnum. cbn -[deepened]. unR. rnum.
      cbn [orb]. reflexivity.
    - destruct (deepened_ext_h s 20 C) as (-> & _). cbn. now rnum.
  Qed.
  Lemma rejected_rest (s s' : stR) e :
    reachable s ->
    (forall l h, exec (BoundaryOpts l h) s = (Err e, s') ->
       s' = (fst s, set_s_min_ext_h (s_min_ext_h (snd s')) (snd s))) /\
    (forall l, exec (SetMaterials l) s = (Err e, s') ->
       h_materials (fst s') = h_materials (fst s) /\
       s_materials (snd s') = s_materials (snd s) /\
       g_height (s_geom (snd s')) = g_height (s_geom (snd s)) /\
       g_length (s_geom (snd s')) = g_length (s_geom (snd s)) /\
       fst (g_top (s_geom (snd s'))) = fst (g_top (s_geom (snd s))) /\
       s_water_RL (snd s') = s_water_RL (snd s) /\ s_udls (snd s') = s_udls (snd s) /\
       s_lls (snd s') = s_lls (snd s)).
  Proof.
    intros Hr. pose proof (reachable_inv s Hr) as I0. pose proof I0 as (C & _ & _). split.
    - intros l h E. cbn [exec] in E. 
      destruct (inv_update_boundary _ _ _ C _ _ E) as [[Q _]|(e' & _ & [->|(v & _ & ->)])];
        [discriminate| |reflexivity].
      destruct s as [hp []]; reflexivity.
    - intros l E. cbn [exec] in E. unfold with_refs in E. rewrite bind_get in E.
      destruct (forallb _ l); [|injection E as _ <-; tauto].
      rewrite set_materials_eff in E by auto.
      destruct (material_locs l) as [x|]; [|injection E as _ <-; tauto].
      destruct (rev _) as [|d ds]; [injection E as _ <-; tauto|].
      destruct (has_dup _); [|discriminate]. injection E as _ <-.
      destruct (deepened_mats d s) as [-> ->].
      destruct (deepened_ext_h s d C) as (_ & -> & -> & _).
      destruct (c_geom _ C) as (mh & _ & Eg).
      unfold deepened. destruct (Rltb _ _); cbn; [|tauto].
      ands; try reflexivity. rewrite Eg. reflexivity.
  Qed.
  
  (** the model height follows the minimum *)
  Lemma min_height_set (s s' : stR) l h :
    reachable s -> exec (BoundaryOpts l h) s = (Ok tt, s') ->
    s_min_ext_h (snd s') <= g_ext_h (s_geom (snd s')).
  Proof.
    intros Hr E. destruct (reachable_inv s Hr) as (C & _ & _). destruct C.
    cbn [exec] in E. rewrite update_boundary_eff in E by assumption.
    destruct (opt_dim h); [|discriminate]. cbn zeta in E.
    destruct (opt_dim l); [|discriminate]. injection E as <-. cbn. rminmax; lra.
  Qed.
End More.

(** ** C05, C07, C08 examples *)
Lemma slope_45 (EN : Env) :
  exists s : st R, new_slope empty_heap (PInt 3) (PInt 45) PNone = Ok s /\
                   g_length (s_geom (snd s)) = 3 /\ atan (g_gradient (s_geom (snd s))) = PI / 4.
Proof.
  assert (T : tan (45 * (PI / 180)) = 1).
  { replace (45 * (PI / 180)) with (PI / 4) by lra. apply tan_PI4. }
  exists (started empty_heap (geom_of 3 3 6 10)).
  assert (E : new_slope empty_heap (PInt 3) (PInt 45) PNone = Ok (started empty_heap (geom_of 3 3 6 10))).
  { rewrite init_eff. rewrite (boundary_inputs_angle _ _ 3 45); cbn [denotes]; auto; try lra.
    - destruct (Rtan_py_acute 45) as [-> _]; [lra|]. rewrite T. rnum.
      replace (3 / 1) with 3 by lra. reflexivity.
    - destruct (Rtan_py_acute 45) as [-> H]; lra. }
  split; auto. split; [reflexivity|].
  destruct (angle_gradient empty_heap (PInt 3) (PInt 45) 3 45 _ eq_refl ltac:(lra) eq_refl ltac:(lra) E)
    as (_ & _ & ->); [rewrite T; lra | lra].
Qed.
Lemma two_geometry_calls (EN : Env) :
  exists s' : st R,
    accepted demo0 [BoundaryOpts (PInt 30) (PInt 20); SetBoundary (PInt 2) PNone (PInt 5)] s' /\
    gives_all [BoundaryOpts (PInt 30) (PInt 20); SetBoundary (PInt 2) PNone (PInt 5)]
              (3, 4, 6, 10) (2, 5, 20, 30) /\ g_ext_l (s_geom (snd s')) = 30.
Proof.
  destruct (reachable_inv _ demo0_reachable) as (C & _ & _). destruct C.
  eexists. split; [|split].
  - econstructor.
    + cbn [exec]. rewrite update_boundary_eff by assumption.
      unfold opt_dim, assert_strictly_positive_number. cbn -[rebuilt geom_of]. unR. rnum. cbn -[rebuilt geom_of]. reflexivity.
    + econstructor; [|constructor]. cbn [exec]. rewrite set_external_boundary_eff.
      rewrite (boundary_inputs_length _ _ _ 2 0 5); cbn [denotes]; auto; try lra.
  - econstructor; [apply (gives_options (PInt 30) (PInt 20) 3 4 6 10 20 30)|].
    + right. cbn. split; lra.
    + right. cbn. split; lra.
    + econstructor; [|constructor]. eapply (gives_boundary _ _ _ 2 5 0 5); cbn; auto.
      left. split; auto. now rnum.
  - cbn. now rnum.
Qed.
Lemma demo_surface :
  cross_section 3 4 6 10 demo_geom /\ external_y demo_geom 10 = Some (17 / 2).
Proof.
  split; [rewrite <- demo_geom_of; apply geom_of_section|].
  unfold external_y, demo_geom. cbn. unR. rnum. f_equal. lra.
Qed.
Lemma surface_shape h l mh ml g :
  0 < h -> 1 / 1000 <= l -> cross_section h l mh ml g ->
  (forall x x', x <= x' -> surface g x' <= surface g x) /\
  (forall x, snd (g_bot g) <= surface g x <= snd (g_top g)) /\
  continuity (surface g).
Proof.
  intros Hh Hl CS. split; [|split].
  - intros; eapply surface_decreasing; eauto.
  - intros; eapply surface_range; eauto.
  - eapply surface_continuous; eauto.
Qed.
