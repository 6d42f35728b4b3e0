(** * GroundFacts: ground surface and search limits (C08-C11). *)
From Coq Require Import ZArith Reals Lra Lia List Bool String.
From Verif Require Import Num Py Validation Utilities Objects Slope Planes Analysis
     Dynamic Api RealNum RealFacts ListFacts MonadFacts SlopeFacts MaterialFacts Invariant
     History Spec EditFacts.
Import ListNotations.
Local Open Scope R_scope.

(** ** C08 *)
Section C08.
  Context (h l mh ml : R) (g : geom R).
  Context (Hh : 0 < h) (Hl : 1 / 1000 <= l) (CS : cross_section h l mh ml g).
  Let F := section_facts _ _ _ _ _ (Rlt_le _ _ Hh) Hl CS.

  Lemma grad_pos : 0 < g_gradient g.
  Proof. destruct CS. rewrite cs_gradient. apply Rdiv_lt_0_compat; lra. Qed.

  Lemma surface_decreasing x x' : x <= x' -> surface g x' <= surface g x.
  Proof.
    intros H. pose proof grad_pos as G. unfold surface, clamp.
    destruct F as (_ & _ & _ & T & _).
    assert (Rmax (fst (g_top g)) (Rmin (fst (g_bot g)) x) <=
            Rmax (fst (g_top g)) (Rmin (fst (g_bot g)) x')) by (rminmax; lra).
    nra.
  Qed.
  Lemma surface_range x : snd (g_bot g) <= surface g x <= snd (g_top g).
  Proof.
    pose proof grad_pos as G. unfold surface, clamp.
    destruct F as (F1 & F2 & _ & F4 & _ & _ & _ & _ & _ & _ & _ & _ & _ & F14).
    assert (0 <= Rmax (fst (g_top g)) (Rmin (fst (g_bot g)) x) - fst (g_top g) <= g_length g)
      by (rminmax; lra).
    assert (E : g_length g * g_gradient g = g_height g).
    { rewrite F14. destruct CS. field. lra. }
    rewrite F2, <- E. nra.
  Qed.
  Lemma surface_continuous : continuity (surface g).
  Proof.
    apply (continuity_minus (fun _ => snd (g_top g))
             (fun x => (clamp (fst (g_top g)) (fst (g_bot g)) x - fst (g_top g)) * g_gradient g)).
    - apply continuity_const. intros ? ?; reflexivity.
    - apply (continuity_mult (fun x => clamp (fst (g_top g)) (fst (g_bot g)) x - fst (g_top g))
               (fun _ => g_gradient g)).
      + apply (continuity_minus (fun x => clamp (fst (g_top g)) (fst (g_bot g)) x)
                 (fun _ => fst (g_top g))).
        * intros x e He. exists e. split; auto. intros y [_ Hy].
          cbn in *. unfold R_dist, clamp in *.
          eapply Rle_lt_trans; [|exact Hy].
          unfold Rabs; repeat destruct Rcase_abs; rminmax; lra.
        * apply continuity_const. intros ? ?; reflexivity.
      + apply continuity_const. intros ? ?; reflexivity.
  Qed.
  Lemma x_of_level y :
    snd (g_bot g) < y < snd (g_top g) ->
    exists x, external_x g y = Ok (Some x) /\
      fst (g_top g) < x < fst (g_bot g) /\ external_y g x = Some y.
  Proof.
    intros Hy. pose proof grad_pos as G.
    destruct F as (F1 & F2 & F3 & F4 & F5 & F6 & F7 & _ & _ & _ & _ & _ & _ & F14).
    exists (fst (g_top g) + (snd (g_top g) - y) / g_gradient g).
    assert (E : g_length g * g_gradient g = g_height g).
    { rewrite F14. destruct CS. field. lra. }
    assert (A : 0 < (snd (g_top g) - y) / g_gradient g < g_length g).
    { split; [apply Rdiv_lt_0_compat; lra|].
      apply Rmult_lt_reg_r with (g_gradient g); auto.
      unfold Rdiv. rewrite Rmult_assoc, Rinv_l, E by lra. lra. }
    split; [|split].
    - unfold external_x. unR. rewrite (proj2 (Rltb_false _ _)) by lra.
      rewrite (proj2 (Rltb_true y (g_ext_h g))) by lra.
      unfold pydiv. unR. rewrite (proj2 (Reqb_false (g_gradient g) 0)) by lra. reflexivity.
    - lra.
    - unfold external_y. unR.
      rewrite (proj2 (Rltb_false _ 0)) by lra.
      rewrite (proj2 (Rltb_false (g_ext_l g) _)) by lra. cbn [orb].
      rewrite (proj2 (Rleb_false _ (fst (g_top g)))) by lra.
      rewrite (proj2 (Rleb_false (fst (g_bot g)) _)) by lra.
      f_equal. field. lra.
  Qed.
  (** the other levels: the right edge below the toe level, toe and crest at theirs,
      nothing above the crest *)
  Lemma x_elsewhere :
    (forall y, y < snd (g_bot g) -> external_x g y = Ok (Some (g_ext_l g))) /\
    external_x g (snd (g_bot g)) = Ok (Some (fst (g_bot g))) /\
    external_x g (snd (g_top g)) = Ok (Some (fst (g_top g))) /\
    (forall y, snd (g_top g) < y -> external_x g y = Ok None).
  Proof.
    pose proof grad_pos as G.
    destruct F as (F1 & F2 & F3 & F4 & F5 & F6 & F7 & _ & _ & _ & _ & _ & _ & F14).
    assert (E : g_length g * g_gradient g = g_height g).
    { rewrite F14. destruct CS. field. lra. }
    assert (P : 0 < g_height g) by (rewrite <- E; apply Rmult_lt_0_compat; lra).
    unfold external_x. split; [|split; [|split]]; intros; unR; rcase; try (exfalso; lra); auto.
    unfold pydiv. unR. rewrite (proj2 (Reqb_false (g_gradient g) 0)) by lra. cbn [rbind].
    do 2 f_equal. replace (snd (g_top g) - snd (g_bot g)) with (g_length g * g_gradient g) by lra.
    rewrite F1. field. lra.
  Qed.
End C08.

(** ** C09-C11 *)
Section C10.
  Context {EN : Env}.
  Notation stR := (st R).

  Lemma limit_arg_ok v cur c w : limit_arg v cur c = Ok w -> forall x,
    as_num w = Ok x -> given_or v cur x.
  Proof.
    unfold limit_arg, given_or. intros H x E. destruct (is_none v) eqn:N.
    - injection H as <-. cbn in E. left. split; [|congruence].
      destruct v; try discriminate; reflexivity.
    - destruct c; cbn in H; [|discriminate]. injection H as <-. right.
      split; [intros ->; discriminate | now apply denotes_as_num].
  Qed.

  Lemma limits_stored a b c d (s s' : stR) :
    exec (SetLimits a b c d) s = (Ok tt, s') ->
    exists x1 x2 x3 x4,
      given_or a (lim_left (s_limits (snd s))) x1 /\
      given_or c (lim_left_r (s_limits (snd s))) x2 /\
      given_or d (lim_right_l (s_limits (snd s))) x3 /\
      given_or b (lim_right (s_limits (snd s))) x4 /\
      fst s' = fst s /\
      snd s' = set_s_search [] (set_s_limits
        (MkLimits (Rmax x1 0) (Rmin x2 (fst (g_top (s_geom (snd s)))))
                  (Rmax x3 (fst (g_top (s_geom (snd s)))))
                  (Rmin x4 (g_ext_l (s_geom (snd s))))) (snd s)).
  Proof.
    cbn [exec]. rewrite set_limits_eff.
    destruct (limits_result _ _ _ _ _ _) as [lim|] eqn:H; intros Q; [|discriminate].
    injection Q as <-. unfold limits_result in H.
    destruct (limit_arg a _ _) as [v1|] eqn:E1; cbn [rbind] in H; [|discriminate].
    destruct (limit_arg c _ _) as [v2|] eqn:E2; cbn [rbind] in H; [|discriminate].
    destruct (limit_arg d _ _) as [v3|] eqn:E3; cbn [rbind] in H; [|discriminate].
    destruct (limit_arg b _ _) as [v4|] eqn:E4; cbn [rbind] in H; [|discriminate].
    destruct (as_num v1) as [x1|] eqn:G1; cbn [rbind] in H; [|discriminate].
    destruct (as_num v2) as [x2|] eqn:G2; cbn [rbind] in H; [|discriminate].
    destruct (as_num v4) as [x4|] eqn:G4; cbn [rbind] in H; [|discriminate].
    destruct (as_num v3) as [x3|] eqn:G3; cbn [rbind] in H; [|discriminate].
    unR. destruct (_ || _); [discriminate|]. injection H as <-.
    exists x1, x2, x3, x4.
    repeat split; eauto using limit_arg_ok.
  Qed.

  Lemma limits_rejected a b c d (s s' : stR) e :
    exec (SetLimits a b c d) s = (Err e, s') -> s' = s.
  Proof.
    cbn [exec]. rewrite set_limits_eff.
    destruct (limits_result _ _ _ _ _ _); intros Q; [discriminate|now injection Q].
  Qed.
  Lemma limits_restored (s : stR) :
    reachable s ->
    exec RemoveLimits s =
    (Ok tt, (fst s, set_s_search [] (set_s_limits
       (MkLimits 0 (fst (g_top (s_geom (snd s)))) (fst (g_top (s_geom (snd s))))
                 (g_ext_l (s_geom (snd s)))) (snd s)))).
  Proof.
    intros Hr. destruct (reachable_inv s Hr) as (C & _ & _). cbn [exec].
    apply remove_limits_eff. now apply core_top.
  Qed.

  Lemma limits_inv (s : stR) : reachable s -> limits_ok (s_geom (snd s)) (s_limits (snd s)).
  Proof. intros Hr. destruct (reachable_inv s Hr) as (C & _ & _). apply C. Qed.

  (** one limit at a time *)
  Lemma single_left (s : stR) v x :
    reachable s -> denotes v x -> 0 <= x < lim_left_r (s_limits (snd s)) ->
    exec (SetLimits v PNone PNone PNone) s =
    (Ok tt, (fst s, set_s_search [] (set_s_limits
       (MkLimits x (lim_left_r (s_limits (snd s))) (lim_right_l (s_limits (snd s)))
                 (lim_right (s_limits (snd s)))) (snd s)))).
  Proof.
    intros Hr D Hx. pose proof (limits_inv s Hr) as (L1 & L2 & L3 & L4 & L5 & L6).
    cbn [exec]. rewrite set_limits_eff. unfold limits_result.
    cbn [limit_arg is_none rbind].
    assert (is_none v = false) as N by (destruct v; cbn in *; auto; contradiction).
    unfold limit_arg at 1. rewrite N.
    rewrite (proj2 (assert_positive_ok v tt)) by (exists x; split; auto; lra). cbn [rbind].
    rewrite (proj1 (denotes_as_num _ _) D). cbn [rbind as_num]. unR.
    rewrite Rmax_left, !Rmin_left, Rmax_left by lra.
    rewrite (proj2 (Rleb_false _ x)), (proj2 (Rleb_false _ _)) by lra. reflexivity.
  Qed.
  Lemma single_left_right (s : stR) v x :
    reachable s -> denotes v x -> lim_left (s_limits (snd s)) < x <= fst (g_top (s_geom (snd s))) ->
    exec (SetLimits PNone PNone v PNone) s =
    (Ok tt, (fst s, set_s_search [] (set_s_limits
       (MkLimits (lim_left (s_limits (snd s))) x (lim_right_l (s_limits (snd s)))
                 (lim_right (s_limits (snd s)))) (snd s)))).
  Proof.
    intros Hr D Hx. pose proof (limits_inv s Hr) as (L1 & L2 & L3 & L4 & L5 & L6).
    cbn [exec]. rewrite set_limits_eff. unfold limits_result.
    cbn [limit_arg is_none rbind].
    assert (is_none v = false) as N by (destruct v; cbn in *; auto; contradiction).
    unfold limit_arg at 1. rewrite N.
    rewrite (proj2 (assert_strict_ok v tt)) by (exists x; split; auto; lra). cbn [rbind as_num].
    rewrite (proj1 (denotes_as_num _ _) D). cbn [rbind]. unR.
    rewrite Rmax_left, !Rmin_left, Rmax_left by lra.
    rewrite (proj2 (Rleb_false x _)), (proj2 (Rleb_false _ _)) by lra. reflexivity.
  Qed.
  Lemma single_right (s : stR) v x :
    reachable s -> denotes v x -> lim_right_l (s_limits (snd s)) < x <= g_ext_l (s_geom (snd s)) ->
    exec (SetLimits PNone v PNone PNone) s =
    (Ok tt, (fst s, set_s_search [] (set_s_limits
       (MkLimits (lim_left (s_limits (snd s))) (lim_left_r (s_limits (snd s)))
                 (lim_right_l (s_limits (snd s))) x) (snd s)))).
  Proof.
    intros Hr D Hx. pose proof (limits_inv s Hr) as (L1 & L2 & L3 & L4 & L5 & L6).
    cbn [exec]. rewrite set_limits_eff. unfold limits_result.
    cbn [limit_arg is_none rbind].
    assert (is_none v = false) as N by (destruct v; cbn in *; auto; contradiction).
    unfold limit_arg at 1. rewrite N.
    rewrite (proj2 (assert_strict_ok _ tt))
      by (exists (lim_right_l (s_limits (snd s))); split; [reflexivity|lra]).
    cbn [rbind as_num].
    rewrite (proj1 (denotes_as_num _ _) D). cbn [rbind]. unR.
    rewrite Rmax_left, !Rmin_left, Rmax_left by lra.
    rewrite (proj2 (Rleb_false _ (lim_left _))), (proj2 (Rleb_false x _)) by lra. reflexivity.
  Qed.
  (** the inner right limit on its own is never accepted *)
  Lemma single_right_left (s : stR) v :
    v <> PNone -> exec (SetLimits PNone PNone PNone v) s = (Err ValueError, s).
  Proof.
    intros N. cbn [exec]. rewrite set_limits_eff. unfold limits_result.
    cbn [limit_arg is_none rbind]. unfold limit_arg at 1.
    destruct v; try contradiction; reflexivity.
  Qed.
End C10.
