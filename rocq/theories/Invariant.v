(** * Invariant: what holds of a slope after any history of calls (reals). *)
From Coq Require Import ZArith Reals Lra Lia List Bool String Permutation Sorted.
From Verif Require Import Num Py Validation Utilities Objects Slope Planes Analysis
     Dynamic Api RealNum RealFacts ListFacts MonadFacts SlopeFacts.
Import ListNotations.
Local Open Scope R_scope.

Definition mat_ok (m : material R) : Prop :=
  1 <= m_unit_weight m <= 50 /\ 0 <= m_friction_angle m /\ 0 <= m_cohesion m /\
  0 <= m_depth m.
Definition udl_ok (u : udl R) : Prop :=
  0 <= u_magnitude u /\ match u_length u with Some l => 0 < l | None => True end.
Definition ll_ok (l : lload R) : Prop := 0 <= l_magnitude l.

Definition limits_ok (g : geom R) (l : limits R) : Prop :=
  0 <= lim_left l /\ lim_left l < lim_left_r l /\ lim_left_r l <= fst (g_top g) /\
  fst (g_top g) <= lim_right_l l /\ lim_right_l l < lim_right l /\
  lim_right l <= g_ext_l g.

Definition top_x (s : st R) : R := fst (g_top (s_geom (snd s))).

Record Core (s : st R) : Prop := {
  c_bd : s_has_boundary (snd s) = true;
  c_mh : 0 < s_min_ext_h (snd s);
  c_ml : 0 < s_min_ext_l (snd s);
  c_h : 0 <= g_height (s_geom (snd s));
  c_l : 1 / 1000 <= g_length (s_geom (snd s));
  c_geom : exists mh, 0 < mh /\
     s_geom (snd s) = geom_of (g_height (s_geom (snd s))) (g_length (s_geom (snd s)))
                              mh (s_min_ext_l (snd s));
  c_lim : limits_ok (s_geom (snd s)) (s_limits (snd s));
  c_H : 0 <= s_water_H (snd s) <= 1;
  c_slices : (10 <= s_slices (snd s) <= 500)%Z;
  c_iter : (500 <= s_iterations (snd s) <= 100000)%Z;
  c_mats : Forall mat_ok (h_materials (fst s));
  c_udls : Forall udl_ok (h_udls (fst s));
  c_lls : Forall ll_ok (h_lls (fst s));
  c_mat_sorted : StronglySorted (fun a b => depth_of (h_materials (fst s)) a <
                                            depth_of (h_materials (fst s)) b)
                                (s_materials (snd s));
  c_mat_set : forall n, In n (s_materials (snd s)) ->
     exists m, nth_error (h_materials (fst s)) n = Some m /\ m_RL m <> None /\
               m_color m <> EmptyString;
  c_udl_locs : forall n, In n (s_udls (snd s)) ->
     exists u, nth_error (h_udls (fst s)) n = Some u /\ 0 < u_magnitude u;
  c_ll_locs : forall n, In n (s_lls (snd s)) ->
     exists l, nth_error (h_lls (fst s)) n = Some l /\ 0 < l_magnitude l;
}.
Definition UdlF (s : st R) : Prop :=
  forall n u, In n (s_udls (snd s)) -> nth_error (h_udls (fst s)) n = Some u ->
              udl_coords (top_x s) u = u.
Definition LlF (s : st R) : Prop :=
  forall n l, In n (s_lls (snd s)) -> nth_error (h_lls (fst s)) n = Some l ->
              ll_coords (top_x s) l = l.
Definition Inv (s : st R) : Prop := Core s /\ UdlF s /\ LlF s.

(** ** Calls that only touch search state or plain options *)
(** [same_model a b]: [b] differs from [a] at most in circles, results, dynamic
    results, largest UDL, water table, tolerance, iteration limit and minimum
    failure distance. *)
Record same_model (a b : st R) : Prop := {
  sm_heap : fst b = fst a;
  sm_geom : s_geom (snd b) = s_geom (snd a);
  sm_bd : s_has_boundary (snd b) = s_has_boundary (snd a);
  sm_mh : s_min_ext_h (snd b) = s_min_ext_h (snd a);
  sm_ml : s_min_ext_l (snd b) = s_min_ext_l (snd a);
  sm_mats : s_materials (snd b) = s_materials (snd a);
  sm_udls : s_udls (snd b) = s_udls (snd a);
  sm_lls : s_lls (snd b) = s_lls (snd a);
  sm_H : s_water_H (snd b) = s_water_H (snd a);
  sm_lim : s_limits (snd b) = s_limits (snd a);
  sm_slices : s_slices (snd b) = s_slices (snd a);
  sm_iter : s_iterations (snd b) = s_iterations (snd a);
}.
Lemma same_model_refl s : same_model s s.
Proof. constructor; reflexivity. Qed.
Lemma same_model_trans a b c : same_model a b -> same_model b c -> same_model a c.
Proof. intros H1 H2; constructor; etransitivity; first [apply H2 | apply H1]. Qed.

Lemma same_model_core a b : same_model a b -> Core a -> Core b.
Proof.
  intros S C. destruct S, C. constructor; try congruence.
  - rewrite sm_geom0, sm_ml0; assumption.
  - rewrite sm_mats0. rewrite sm_heap0. assumption.
  - rewrite sm_mats0. rewrite sm_heap0. assumption.
  - rewrite sm_udls0. rewrite sm_heap0. assumption.
  - rewrite sm_lls0. rewrite sm_heap0. assumption.
Qed.
Lemma same_model_inv a b : same_model a b -> Inv a -> Inv b.
Proof.
  intros S (C & U & L). split; [now apply (same_model_core a)|].
  destruct S. split; unfold UdlF, LlF, top_x in *; rewrite sm_heap0, sm_geom0.
  - rewrite sm_udls0; auto.
  - rewrite sm_lls0; auto.
Qed.

Section Preservation.
  Context {EN : Env}.
  Notation stR := (st R).

  Lemma geom_limits_ok h l mh ml :
    0 <= h -> 1 / 1000 <= l ->
    limits_ok (geom_of h l mh ml) (default_limits (geom_of h l mh ml)).
  Proof.
    intros Hh Hl. pose proof (geom_of_top h l mh ml Hh Hl) as [H1 H2].
    unfold limits_ok, default_limits; cbn [lim_left lim_left_r lim_right_l lim_right].
    lra.
  Qed.

  (** Rebuilding the boundary re-establishes everything, fresh coordinates
      included. *)
  Lemma rebuilt_core h l mh (s : stR) :
    0 <= h -> 1 / 1000 <= l -> 0 < mh ->
    0 < s_min_ext_h (snd s) -> 0 < s_min_ext_l (snd s) ->
    0 <= s_water_H (snd s) <= 1 ->
    (10 <= s_slices (snd s) <= 500)%Z -> (500 <= s_iterations (snd s) <= 100000)%Z ->
    Forall mat_ok (h_materials (fst s)) -> Forall udl_ok (h_udls (fst s)) ->
    Forall ll_ok (h_lls (fst s)) ->
    StronglySorted (fun a b => depth_of (h_materials (fst s)) a <
                               depth_of (h_materials (fst s)) b) (s_materials (snd s)) ->
    (forall n, In n (s_materials (snd s)) ->
     exists m, nth_error (h_materials (fst s)) n = Some m /\ m_RL m <> None /\
               m_color m <> EmptyString) ->
    (forall n, In n (s_udls (snd s)) ->
     exists u, nth_error (h_udls (fst s)) n = Some u /\ 0 < u_magnitude u) ->
    (forall n, In n (s_lls (snd s)) ->
     exists l, nth_error (h_lls (fst s)) n = Some l /\ 0 < l_magnitude l) ->
    Inv (rebuilt (geom_of h l mh (s_min_ext_l (snd s))) s).
  Proof.
    intros. set (g := geom_of h l mh (s_min_ext_l (snd s))).
    split; [|split].
    - constructor; cbn; auto.
      + exists mh. split; auto.
      + now apply geom_limits_ok.
      + apply Forall_upd_all; auto.
      + apply Forall_upd_all; auto.
      + intros n Hn. destruct (H12 n Hn) as (u & E & P).
        rewrite nth_error_upd_all by (intros; apply udl_coords_idem).
        rewrite (proj2 (mem_nat_In _ _) Hn), E. cbn. eexists; split; [reflexivity|]. exact P.
      + intros n Hn. destruct (H13 n Hn) as (u & E & P).
        rewrite nth_error_upd_all by (intros; apply ll_coords_idem).
        rewrite (proj2 (mem_nat_In _ _) Hn), E. cbn. eexists; split; [reflexivity|]. exact P.
    - unfold UdlF, top_x; cbn. intros n u Hn.
      rewrite nth_error_upd_all by (intros; apply udl_coords_idem).
      rewrite (proj2 (mem_nat_In _ _) Hn).
      destruct (nth_error (h_udls (fst s)) n); cbn; [|discriminate].
      injection 1 as <-. apply udl_coords_idem.
    - unfold LlF, top_x; cbn. intros n u Hn.
      rewrite nth_error_upd_all by (intros; apply ll_coords_idem).
      rewrite (proj2 (mem_nat_In _ _) Hn).
      destruct (nth_error (h_lls (fst s)) n); cbn; [|discriminate].
      injection 1 as <-. apply ll_coords_idem.
  Qed.

  Lemma inv_set_boundary h a l (s : stR) :
    Core s -> forall r s', set_external_boundary h a l s = (r, s') ->
    (exists e, r = Err e /\ s' = s) \/ (r = Ok tt /\ Inv s').
  Proof.
    intros C r s'. rewrite set_external_boundary_eff.
    destruct (boundary_inputs h a l) as [[hh ll]|e] eqn:E; intros Q;
      injection Q as <- <-; [right|left; eauto].
    split; auto. apply boundary_inputs_bounds in E. destruct C.
    apply rebuilt_core; tauto.
  Qed.

  Lemma inv_update_boundary l h (s : stR) :
    Core s -> forall r s', update_boundary_options l h s = (r, s') ->
    (r = Ok tt /\ Inv s') \/
    (exists e, r = Err e /\ (s' = s \/ exists v, 0 < v /\ s' = (fst s, set_s_min_ext_h v (snd s)))).
  Proof.
    intros C r s'. destruct C.
    rewrite update_boundary_eff by assumption.
    destruct (opt_dim h) as [oh|e] eqn:Eh.
    2:{ intros Q; injection Q as <- <-. right. exists e. auto. }
    cbn zeta. destruct (opt_dim l) as [ol|e] eqn:El.
    2:{ intros Q; injection Q as <- <-. right. exists e. split; auto.
        destruct oh as [v|]; cbn; [right|left; destruct s; reflexivity].
        exists v. split; auto. eapply opt_dim_pos; eauto. }
    intros Q; injection Q as <- <-. left. split; auto.
    set (sl2 := upd_dim set_s_min_ext_l ol (upd_dim set_s_min_ext_h oh (snd s))).
    assert (0 < s_min_ext_h sl2).
    { subst sl2. destruct ol as [v|], oh as [w|]; cbn; auto;
      eapply opt_dim_pos; eauto. }
    assert (0 < s_min_ext_l sl2).
    { subst sl2. destruct ol as [v|], oh as [w|]; cbn; auto;
      eapply opt_dim_pos; eauto. }
    apply (rebuilt_core _ _ _ (fst s, sl2)); auto; subst sl2; destruct ol, oh; auto.
  Qed.

  Lemma min_ext_h_core v (s : stR) :
    0 < v -> Core s -> Core (fst s, set_s_min_ext_h v (snd s)).
  Proof. intros Hv C; destruct C; constructor; cbn; auto. Qed.
  Lemma min_ext_h_inv v (s : stR) :
    0 < v -> Inv s -> Inv (fst s, set_s_min_ext_h v (snd s)).
  Proof. intros Hv (C & U & L). split; [now apply min_ext_h_core|]. split; assumption. Qed.

  (** ** Loads *)
  Definition refs_ok (s : stR) (l : list objref) : Prop :=
    Forall (fun r => ref_exists (fst s) r = true) l.

  (** heap sizes only grow *)
  Definition heap_le (a b : stR) : Prop :=
    (List.length (h_materials (fst a)) <= List.length (h_materials (fst b)))%nat /\
    (List.length (h_udls (fst a)) <= List.length (h_udls (fst b)))%nat /\
    (List.length (h_lls (fst a)) <= List.length (h_lls (fst b)))%nat.
  Lemma heap_le_refl s : heap_le s s.
  Proof. unfold heap_le; lia. Qed.
  Lemma heap_le_trans a b c : heap_le a b -> heap_le b c -> heap_le a c.
  Proof. unfold heap_le; lia. Qed.
  Lemma heap_le_rebuilt g s : heap_le s (rebuilt g s).
  Proof. unfold heap_le, rebuilt; cbn. rewrite !upd_all_length. lia. Qed.
  Lemma refs_ok_le a b l : heap_le a b -> refs_ok a l -> refs_ok b l.
  Proof.
    intros (H1 & H2 & H3) H. eapply Forall_impl; [|exact H].
    intros [n|n|n|]; cbn [ref_exists]; auto; intros Q; apply Nat.ltb_lt in Q;
      apply Nat.ltb_lt; lia.
  Qed.

  Lemma update_boundary_pos_eff v (s : stR) :
    Core s -> 0 < v ->
    exists s', update_boundary_options (PFloat v) PNone s = (Ok tt, s') /\
               Inv s' /\ heap_le s s'.
  Proof.
    intros C Hv. destruct (update_boundary_options (PFloat v) PNone s) as [r s'] eqn:E.
    assert (Q : exists g sl, s' = rebuilt g (fst s, sl) /\ r = Ok tt).
    { destruct C. rewrite update_boundary_eff in E by assumption.
      unfold opt_dim in E at 1. cbn [truthy] in E.
      unfold opt_dim, assert_strictly_positive_number in E.
      cbn [truthy isinstance_num negb as_num rbind] in E. unR.
      rewrite (proj2 (Reqb_false v 0)) in E by lra. cbn [negb] in E.
      rewrite (proj2 (Rltb_false v 0)) in E by lra. cbn [rbind] in E.
      injection E as <- <-. eauto. }
    destruct Q as (g & sl & -> & ->).
    destruct (inv_update_boundary _ _ _ C _ _ E) as [[_ I]|(e & Q & _)]; [|discriminate].
    exists (rebuilt g (fst s, sl)). split; auto. split; auto.
    exact (heap_le_rebuilt g (fst s, sl)).
  Qed.

  Lemma set_udl_one_ok r (s : stR) :
    Core s -> LlF s -> ref_exists (fst s) r = true ->
    exists s', set_udl_one r s = (Ok tt, s') /\ Core s' /\ LlF s' /\ heap_le s s'.
  Proof.
    intros C L HR. destruct r as [n|n|n|]; cbn [set_udl_one];
      try (exists s; auto using heap_le_refl; fail).
    cbn [ref_exists] in HR. apply Nat.ltb_lt in HR.
    destruct (nth_error_lt_Some _ _ HR) as [u Eu].
    erewrite bind_ok by (unfold get_udl, deref; rewrite Eu; reflexivity).
    destruct (@nltb R RNum (nz 0) (u_magnitude u)) eqn:Em; cbn [mwhen];
      [|exists s; auto using heap_le_refl].
    unR. rbool. rewrite bind_self_get, bind_self_upd, bind_self_get.
    set (s1 := (fst s, set_s_udls (s_udls (snd s) ++ [n]) (snd s)) : stR).
    assert (C1 : Core s1).
    { destruct C; constructor; cbn; auto.
      intros m Hm. apply in_app_iff in Hm. destruct Hm as [Hm|[<-|[]]]; eauto. }
    assert (L1 : LlF s1) by exact L.
    destruct (Rltb (s_min_ext_l (snd s1)) (udl_min_length u)) eqn:El; cbn [mwhen];
      [|exists s1; split; [reflexivity|]; split; [exact C1|]; split; [exact L1|];
        unfold heap_le; cbn; lia].
    apply Rltb_true in El.
    destruct (update_boundary_pos_eff (udl_min_length u) s1 C1) as (s' & E & (I & _ & L') & H).
    { pose proof (c_ml _ C1). lra. }
    exists s'. auto.
  Qed.

  Lemma set_udl_loop_ok l : forall s : stR,
    Core s -> LlF s -> refs_ok s l ->
    exists s', mforM l set_udl_one s = (Ok tt, s') /\ Core s' /\ LlF s' /\ heap_le s s'.
  Proof.
    induction l as [|r l IH]; intros s C L HR; cbn [mforM].
    - exists s; auto using heap_le_refl.
    - inversion HR as [|? ? Hr Rl]; subst.
      destruct (set_udl_one_ok r s C L Hr) as (s1 & E1 & C1 & L1 & H1).
      erewrite bind_ok by exact E1.
      destruct (IH s1 C1 L1) as (s2 & E2 & C2 & L2 & H2).
      { eapply refs_ok_le; eauto. }
      exists s2. eauto using heap_le_trans.
  Qed.

  Lemma udl_coords_core (s : stR) f :
    (forall u, u_magnitude (f u) = u_magnitude u /\ u_length (f u) = u_length u) ->
    forall locs, Core s ->
    Core (MkHeap (h_materials (fst s)) (upd_all f locs (h_udls (fst s))) (h_lls (fst s)),
          snd s).
  Proof.
    intros Hf locs C. destruct C; constructor; cbn; auto.
    - apply Forall_upd_all; auto. intros u [H1 H2]. unfold udl_ok.
      destruct (Hf u) as [-> ->]. auto.
    - intros n Hn. destruct (c_udl_locs0 n Hn) as (u & E & P).
      assert (G : forall locs h u, nth_error h n = Some u -> 0 < u_magnitude u ->
                exists u', nth_error (upd_all f locs h) n = Some u' /\ 0 < u_magnitude u').
      { clear - Hf. unfold upd_all. induction locs as [|m locs IH]; intros h u E P; cbn; eauto.
        destruct (Nat.eqb m n) eqn:Q.
        - eapply (IH _ (f u)); [|destruct (Hf u) as [-> _]; exact P].
          rewrite nth_error_upd_nth, Q, E. reflexivity.
        - eapply (IH _ u); auto. rewrite nth_error_upd_nth, Q. exact E. }
      eauto.
  Qed.
  Lemma ll_coords_core (s : stR) f :
    (forall u, l_magnitude (f u) = l_magnitude u) ->
    forall locs, Core s ->
    Core (MkHeap (h_materials (fst s)) (h_udls (fst s)) (upd_all f locs (h_lls (fst s))),
          snd s).
  Proof.
    intros Hf locs C. destruct C; constructor; cbn; auto.
    - apply Forall_upd_all; auto. intros u H1. unfold ll_ok. rewrite Hf. auto.
    - intros n Hn. destruct (c_ll_locs0 n Hn) as (u & E & P).
      assert (G : forall locs h u, nth_error h n = Some u -> 0 < l_magnitude u ->
                exists u', nth_error (upd_all f locs h) n = Some u' /\ 0 < l_magnitude u').
      { clear - Hf. unfold upd_all. induction locs as [|m locs IH]; intros h u E P; cbn; eauto.
        destruct (Nat.eqb m n) eqn:Q.
        - eapply (IH _ (f u)); [|rewrite Hf; exact P].
          rewrite nth_error_upd_nth, Q, E. reflexivity.
        - eapply (IH _ u); auto. rewrite nth_error_upd_nth, Q. exact E. }
      eauto.
  Qed.

  Lemma refresh_udls_ok (s : stR) :
    Core s -> LlF s ->
    exists s', update_udl_coordinates s = (Ok tt, s') /\ Inv s' /\ heap_le s s' /\
               s' = (MkHeap (h_materials (fst s))
                       (upd_all (udl_coords (top_x s)) (s_udls (snd s)) (h_udls (fst s)))
                       (h_lls (fst s)), snd s).
  Proof.
    intros C L. rewrite update_udl_coordinates_eff. eexists; split; [reflexivity|].
    split; [split; [|split]|split; [|reflexivity]].
    - apply udl_coords_core; auto.
    - unfold UdlF, top_x; cbn. intros n u Hn.
      rewrite nth_error_upd_all by (intros; apply udl_coords_idem).
      rewrite (proj2 (mem_nat_In _ _) Hn).
      destruct (nth_error (h_udls (fst s)) n); cbn; [|discriminate].
      injection 1 as <-. apply udl_coords_idem.
    - exact L.
    - unfold heap_le; cbn. rewrite upd_all_length. lia.
  Qed.
  Lemma refresh_lls_ok (s : stR) :
    Core s -> UdlF s ->
    exists s', update_ll_coordinates s = (Ok tt, s') /\ Inv s' /\ heap_le s s' /\
               s' = (MkHeap (h_materials (fst s)) (h_udls (fst s))
                       (upd_all (ll_coords (top_x s)) (s_lls (snd s)) (h_lls (fst s))),
                     snd s).
  Proof.
    intros C L. rewrite update_ll_coordinates_eff. eexists; split; [reflexivity|].
    split; [split; [|split]|split; [|reflexivity]].
    - apply ll_coords_core; auto.
    - exact L.
    - unfold LlF, top_x; cbn. intros n u Hn.
      rewrite nth_error_upd_all by (intros; apply ll_coords_idem).
      rewrite (proj2 (mem_nat_In _ _) Hn).
      destruct (nth_error (h_lls (fst s)) n); cbn; [|discriminate].
      injection 1 as <-. apply ll_coords_idem.
    - unfold heap_le; cbn. rewrite upd_all_length. lia.
  Qed.

  Lemma inv_set_udls l (s : stR) :
    Core s -> LlF s -> refs_ok s l ->
    exists s', set_udls l s = (Ok tt, s') /\ Inv s' /\ heap_le s s'.
  Proof.
    intros C L HR. unfold set_udls.
    destruct (set_udl_loop_ok l s C L HR) as (s1 & E1 & C1 & L1 & H1).
    erewrite bind_ok by exact E1.
    destruct (refresh_udls_ok s1 C1 L1) as (s2 & E2 & I2 & H2 & _).
    erewrite bind_ok by exact E2.
    rewrite bind_get.
    destruct (map u_magnitude (udls_of s2)) as [|x xs].
    - rewrite bind_ret, reset_eff. eexists; split; [reflexivity|]. split.
      + apply (same_model_inv s2); auto. constructor; reflexivity.
      + eapply heap_le_trans; [exact H1|]. exact H2.
    - rewrite bind_self_upd, reset_eff. eexists; split; [reflexivity|]. split.
      + apply (same_model_inv s2); auto. constructor; reflexivity.
      + eapply heap_le_trans; [exact H1|]. exact H2.
  Qed.

  Lemma set_ll_one_ok r (s : stR) :
    Core s -> UdlF s -> ref_exists (fst s) r = true ->
    exists s', set_ll_one r s = (Ok tt, s') /\ Core s' /\ UdlF s' /\ heap_le s s'.
  Proof.
    intros C L HR. destruct r as [n|n|n|]; cbn [set_ll_one];
      try (exists s; auto using heap_le_refl; fail).
    cbn [ref_exists] in HR. apply Nat.ltb_lt in HR.
    destruct (nth_error_lt_Some _ _ HR) as [u Eu].
    erewrite bind_ok by (unfold get_ll, deref; rewrite Eu; reflexivity).
    destruct (@nltb R RNum (nz 0) (l_magnitude u)) eqn:Em; cbn [mwhen];
      [|exists s; auto using heap_le_refl].
    unR. rbool. rewrite bind_self_get, bind_self_upd, bind_self_get.
    set (s1 := (fst s, set_s_lls (s_lls (snd s) ++ [n]) (snd s)) : stR).
    assert (C1 : Core s1).
    { destruct C; constructor; cbn; auto.
      intros m Hm. apply in_app_iff in Hm. destruct Hm as [Hm|[<-|[]]]; eauto. }
    assert (L1 : UdlF s1) by exact L.
    destruct (Rltb (s_min_ext_l (snd s1)) (l_offset u * 3)) eqn:El; cbn [mwhen];
      [|exists s1; split; [reflexivity|]; split; [exact C1|]; split; [exact L1|];
        unfold heap_le; cbn; lia].
    apply Rltb_true in El.
    destruct (update_boundary_pos_eff (l_offset u * 3) s1 C1) as (s' & E & (I & L' & _) & H).
    { pose proof (c_ml _ C1). lra. }
    exists s'. auto.
  Qed.

  Lemma set_ll_loop_ok l : forall s : stR,
    Core s -> UdlF s -> refs_ok s l ->
    exists s', mforM l set_ll_one s = (Ok tt, s') /\ Core s' /\ UdlF s' /\ heap_le s s'.
  Proof.
    induction l as [|r l IH]; intros s C L HR; cbn [mforM].
    - exists s; auto using heap_le_refl.
    - inversion HR as [|? ? Hr Rl]; subst.
      destruct (set_ll_one_ok r s C L Hr) as (s1 & E1 & C1 & L1 & H1).
      erewrite bind_ok by exact E1.
      destruct (IH s1 C1 L1) as (s2 & E2 & C2 & L2 & H2).
      { eapply refs_ok_le; eauto. }
      exists s2. eauto using heap_le_trans.
  Qed.

  Lemma inv_set_lls l (s : stR) :
    Core s -> UdlF s -> refs_ok s l ->
    exists s', set_lls l s = (Ok tt, s') /\ Inv s' /\ heap_le s s'.
  Proof.
    intros C L HR. unfold set_lls.
    destruct (set_ll_loop_ok l s C L HR) as (s1 & E1 & C1 & L1 & H1).
    erewrite bind_ok by exact E1.
    destruct (refresh_lls_ok s1 C1 L1) as (s2 & E2 & I2 & H2 & _).
    erewrite bind_ok by exact E2.
    rewrite reset_eff. eexists; split; [reflexivity|]. split.
    + apply (same_model_inv s2); auto. constructor; reflexivity.
    + eapply heap_le_trans; [exact H1|]. exact H2.
  Qed.

  (** ** Removing loads *)
  Lemma remove_first_incl {A} (p : A -> bool) l : incl (remove_first p l) l.
  Proof.
    induction l as [|x l IH]; cbn; [apply incl_refl|].
    destruct (p x); [apply incl_tl, incl_refl|].
    intros y [<-|Hy]; [now left | right; auto].
  Qed.
  Lemma rwi_incl m e fuel : forall i l, incl (remove_while_iterating m e fuel i l) l.
  Proof.
    induction fuel as [|f IH]; intros i l; cbn; [apply incl_refl|].
    destruct (nth_error l i); [|apply incl_refl].
    eapply incl_tran; [apply IH|].
    destruct (m n); [apply remove_first_incl | apply incl_refl].
  Qed.

  Lemma fewer_udls_inv locs (s : stR) :
    incl locs (s_udls (snd s)) -> Inv s -> Inv (fst s, set_s_udls locs (snd s)).
  Proof.
    intros H (C & U & L). split; [|split; [|exact L]].
    - destruct C; constructor; cbn; auto.
    - unfold UdlF in *; cbn. intros n u Hn. apply U. auto.
  Qed.
  Lemma fewer_lls_inv locs (s : stR) :
    incl locs (s_lls (snd s)) -> Inv s -> Inv (fst s, set_s_lls locs (snd s)).
  Proof.
    intros H (C & U & L). split; [|split; [exact U|]].
    - destruct C; constructor; cbn; auto.
    - unfold LlF in *; cbn. intros n u Hn. apply L. auto.
  Qed.

  Lemma inv_remove_udls ns all (s : stR) :
    Inv s -> Forall (fun n => (n < List.length (h_udls (fst s)))%nat) ns ->
    exists s', remove_udls ns all s = (Ok tt, s') /\ Inv s' /\ fst s' = fst s /\
               incl (s_udls (snd s')) (s_udls (snd s)) /\ s_lls (snd s') = s_lls (snd s).
  Proof.
    intros I F. unfold remove_udls.
    assert (Loop : forall ns (s : stR), Inv s ->
      Forall (fun n => (n < List.length (h_udls (fst s)))%nat) ns ->
      exists s', mforM ns (fun n =>
        u <- get_udl n ;;
        h <- heap_get h_udls ;;
        locs <- self_get s_udls ;;
        self_upd (set_s_udls
          (remove_while_iterating (udl_matches u h) (same_obj udl_eqb h)
                                  (List.length locs) 0 locs))) s = (Ok tt, s') /\
        Inv s' /\ fst s' = fst s /\ incl (s_udls (snd s')) (s_udls (snd s)) /\
        s_lls (snd s') = s_lls (snd s)).
    { clear s I F ns. induction ns as [|n ns IH]; intros s I F; cbn [mforM].
      - exists s. split; [reflexivity|]. split; auto. split; auto. split; auto. apply incl_refl.
      - inversion F as [|? ? Hn Fn]; subst.
        destruct (nth_error_lt_Some _ _ Hn) as [u Eu].
        rewrite bind_assoc. erewrite bind_ok by (unfold get_udl, deref; rewrite Eu; reflexivity).
        msteps.
        set (locs' := remove_while_iterating _ _ _ _ _).
        destruct (IH (fst s, set_s_udls locs' (snd s))) as (s' & E & I' & H1 & H2 & H3).
        { apply fewer_udls_inv; auto. subst locs'. apply rwi_incl. }
        { exact Fn. }
        exists s'. split; [exact E|]. split; auto. split; auto. split; auto.
        eapply incl_tran; [exact H2|]. cbn. subst locs'. apply rwi_incl. }
    destruct (Loop ns s I F) as (s1 & E1 & I1 & H1 & H2 & H3).
    erewrite bind_ok by exact E1. rewrite bind_when.
    assert (Fin : forall s : stR, Inv s ->
      exists s', (h <- heap_get h_udls ;;
                  locs <- self_get s_udls ;;
                  (match locs with
                   | [] => mret tt
                   | x :: l => self_upd (set_s_udl_max (UmObj (max_by h x l)))
                   end) ;;;
                  reset_results) s = (Ok tt, s') /\ Inv s' /\ fst s' = fst s /\
                 s_udls (snd s') = s_udls (snd s) /\ s_lls (snd s') = s_lls (snd s)).
    { intros s0 I0. msteps. destruct (s_udls (snd s0)) eqn:E; msteps; rewrite reset_eff;
        eexists; (split; [reflexivity|]); cbn; repeat split; auto;
        apply (same_model_inv s0); auto; constructor; reflexivity. }
    destruct all.
    - destruct (Fin (fst s1, set_s_udl_max (UmNum (nz 0)) (set_s_udls [] (snd s1))))
        as (s' & E & I' & F1 & F2 & F3).
      { apply (same_model_inv (fst s1, set_s_udls [] (snd s1))); [constructor; reflexivity|].
        apply fewer_udls_inv; auto. intros x []. }
      exists s'. split; [exact E|]. split; auto. split; [rewrite F1; exact H1|].
      split; [rewrite F2; cbn; intros x []|]. rewrite F3; exact H3.
    - destruct (Fin s1 I1) as (s' & E & I' & F1 & F2 & F3).
      exists s'. split; [exact E|]. split; auto. split; [congruence|].
      split; [rewrite F2; auto|]. congruence.
  Qed.

  Lemma inv_remove_lls ns all (s : stR) :
    Inv s -> Forall (fun n => (n < List.length (h_lls (fst s)))%nat) ns ->
    exists s', remove_lls ns all s = (Ok tt, s') /\ Inv s' /\ fst s' = fst s /\
               incl (s_lls (snd s')) (s_lls (snd s)) /\ s_udls (snd s') = s_udls (snd s).
  Proof.
    intros I F. unfold remove_lls.
    assert (Loop : forall ns (s : stR), Inv s ->
      Forall (fun n => (n < List.length (h_lls (fst s)))%nat) ns ->
      exists s', mforM ns (fun n =>
        u <- get_ll n ;;
        h <- heap_get h_lls ;;
        locs <- self_get s_lls ;;
        self_upd (set_s_lls
          (remove_while_iterating (ll_matches u h) (same_obj lload_eqb h)
                                  (List.length locs) 0 locs))) s = (Ok tt, s') /\
        Inv s' /\ fst s' = fst s /\ incl (s_lls (snd s')) (s_lls (snd s)) /\
        s_udls (snd s') = s_udls (snd s)).
    { clear s I F ns. induction ns as [|n ns IH]; intros s I F; cbn [mforM].
      - exists s. split; [reflexivity|]. split; auto. split; auto. split; auto. apply incl_refl.
      - inversion F as [|? ? Hn Fn]; subst.
        destruct (nth_error_lt_Some _ _ Hn) as [u Eu].
        rewrite bind_assoc. erewrite bind_ok by (unfold get_ll, deref; rewrite Eu; reflexivity).
        msteps.
        set (locs' := remove_while_iterating _ _ _ _ _).
        destruct (IH (fst s, set_s_lls locs' (snd s))) as (s' & E & I' & H1 & H2 & H3).
        { apply fewer_lls_inv; auto. subst locs'. apply rwi_incl. }
        { exact Fn. }
        exists s'. split; [exact E|]. split; auto. split; auto. split; auto.
        eapply incl_tran; [exact H2|]. cbn. subst locs'. apply rwi_incl. }
    destruct (Loop ns s I F) as (s1 & E1 & I1 & H1 & H2 & H3).
    erewrite bind_ok by exact E1. rewrite bind_when.
    destruct all.
    - msteps. rewrite reset_eff. eexists; split; [reflexivity|]. cbn.
      split; [|split; auto; split; auto; intros x []].
      apply (same_model_inv (fst s1, set_s_lls [] (snd s1))); [constructor; reflexivity|].
      apply fewer_lls_inv; auto. intros x [].
    - rewrite reset_eff. eexists; split; [reflexivity|]. cbn.
      split; [|auto]. apply (same_model_inv s1); auto. constructor; reflexivity.
  Qed.
End Preservation.
