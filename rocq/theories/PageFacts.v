(** * PageFacts: forms whose page is shown (slope/views.py:248-342), in real numbers. *)
From Coq Require Import ZArith Reals Lra Lia List Bool String Permutation.
From Verif Require Import Num Py Validation Utilities Objects Slope Planes Analysis
     Dynamic Api RealNum RealFacts ListFacts MonadFacts SlopeFacts Invariant
     History Spec EditFacts GroundFacts CircleFacts SearchFacts PlaneFacts ViewFacts FosFacts
     GridFacts FaceFacts FosTotal SoilFacts WetFacts CohesiveFacts GrowFacts HitFacts WeakFacts
     Plot PlotFacts Web FigureFacts ShowFacts FormFacts FormMore.
Import ListNotations.
Local Open Scope R_scope.

Section Shown.
  Context {EN : Env}.
  Notation stR := (st R).

  (** the crest of a model without loads *)
  Definition crest_x (f : form R) : R :=
    (Rmax (Rmax (5 * dims_length f) 10) (4 * w_height f) - dims_length f) / 2.
  (** the four limits: the entries at the top, the exits on the face at least
      20 cm further; the line from the innermost entry to the last exit falls by
      at least 3 in 10 *)
  Definition face_limits (f : form R) : Prop :=
    w_consider_limits f = true /\ w_consider_inner f = true /\
    0 <= w_left f < w_left_r f /\ w_left_r f <= crest_x f <= w_right_l f /\
    w_left_r f + 1 / 5 <= w_right_l f < w_right f /\ w_right f <= crest_x f + dims_length f /\
    3 / 10 * (w_right f - w_left_r f)
      <= (w_right f - crest_x f) * (w_height f / dims_length f).
  Definition clay_row (C : R) (r : option (material_row R)) : Prop :=
    match r with
    | Some r => wm_friction r = 0 /\ 0 < Rabs (wm_cohesion r) <= C /\ 981 / 100 < wm_unit_weight r
    | None => False
    end.

  Lemma page_shown prec f C : form_valid f = true -> w_dynamic f = false -> setup_ok f ->
    w_lls f = [] -> w_udls f = [] -> face_limits f -> w_height f <= 2 * dims_length f ->
    w_materials f <> [] -> Forall (clay_row C) (w_materials f) ->
    800 * (C * IZR (w_slices f)) <= w_right f - w_left_r f ->
    exists fig search, post prec f = Ok (fig, search) /\ search <> [].
  Proof.
    intros V D O NL NU (F1 & F2 & F3 & F4 & F5 & F6 & F7) H2 NM CR CN.
    destruct (create_outcome f V) as [(_ & s & Hr & B & Z) | (N & _)]; [|contradiction].
    destruct (b_section f s B) as (mh & ml & Mh & Ml & W & G).
    specialize (W NL NU). subst ml.
    assert (L0 : 1 / 1000 <= dims_length f) by apply Rmax_r.
    assert (Tx : fst (g_top (s_geom (snd s))) = crest_x f) by (rewrite G; reflexivity).
    assert (Bx : fst (g_bot (s_geom (snd s))) = crest_x f + dims_length f) by (rewrite G; reflexivity).
    assert (Gr : g_gradient (s_geom (snd s)) = w_height f / dims_length f) by (rewrite G; reflexivity).
    assert (Ex : crest_x f + dims_length f <= g_ext_l (s_geom (snd s))).
    { rewrite G. unfold geom_of, crest_x. cbn [g_ext_l].
      pose proof (Rmax_l (Rmax (5 * dims_length f) 10) (4 * w_height f)).
      pose proof (Rmax_l (5 * dims_length f) 10). lra. }
    assert (LA : limits_accepted f (s_geom (snd s))).
    { unfold limits_accepted. rewrite F1, F2, Tx.
      rewrite (Rmin_left (w_left_r f)), (Rmax_left (w_right_l f)), (Rmin_left (w_right f)) by lra. lra. }
    destruct Z as [(_ & Lm & E)|(N & _)]; [|contradiction].
    assert (Lim : s_limits (snd s) = MkLimits (w_left f) (w_left_r f) (w_right_l f) (w_right f)).
    { rewrite Lm. unfold limits_given. rewrite F1, F2, Tx.
      rewrite (Rmin_left (w_left_r f)), (Rmax_left (w_right_l f)), (Rmin_left (w_right f)) by lra. reflexivity. }
    assert (Nl : lls_of s = []).
    { pose proof (b_lls f s B) as Q. rewrite NL in Q. cbn in Q. destruct (lls_of s); [reflexivity | discriminate]. }
    assert (Nu : udls_of s = []).
    { pose proof (b_udls f s B) as Q. rewrite NU in Q. cbn in Q. destruct (udls_of s); [reflexivity | discriminate]. }
    pose proof (form_valid_R f V) as (Vi & Vs & _).
    assert (Row : forall m, In m (mats_of s) -> m_friction_angle m = 0 /\ 0 < m_cohesion m <= C /\
                    981 / 100 < m_unit_weight m).
    { intros m I. apply (in_map layer_values) in I.
      apply (Permutation_in _ (b_layers f s B)) in I. apply in_map_iff in I as (r & Q & I).
      rewrite Forall_forall in CR. specialize (CR r I). destruct r as [r|]; [|destruct CR].
      unfold row_values, layer_values in Q. injection Q as <- <- <- _ _ _. exact CR. }
    assert (CO : cohesive s) by (intros m I; destruct (Row m I) as (? & ? & ?); split; lra).
    assert (NE : mats_of s <> []).
    { intros Q. pose proof (b_layers f s B) as P. rewrite Q in P. cbn [map] in P.
      apply Permutation_nil in P. apply map_eq_nil in P. contradiction. }
    pose proof (built_wet f s O Hr B) as WK.
    destruct (cohesive_analysed (Some 5) s Hr (built_offsets f s B) CO WK (b_planes f s B)) as (s' & An).
    { rewrite Nl, Nu. cbn [List.length]. pose proof (ten_entries (s_iterations (snd s))) as T.
      rewrite (b_iterations f s B) in *. specialize (T ltac:(lia)). lia. }
    assert (Cs : create_slope f = Ok s').
    { rewrite E. unfold web_analysis. rewrite D. unR. now rewrite An. }
    assert (FG : face_grid (1 / 5) s).
    { unfold face_grid. rewrite Lim, Bx. cbn [lim_right lim_left_r lim_right_l]. split; [lra|].
      assert (0 < / IZR (num_points_bot_of (T := R) (s_iterations (snd s)))).
      { apply Rinv_0_lt_compat, IZR_lt. pose proof (ten_entries (s_iterations (snd s))) as T.
        pose proof (num_points_bot_spec (s_iterations (snd s))) as U. cbv zeta in U.
        rewrite (b_iterations f s B) in *. specialize (T ltac:(lia)). specialize (U ltac:(lia)).
        eapply Z.lt_le_trans; [|exact (proj1 U)]. eapply Z.lt_le_trans; [|exact T]. lia. }
      unfold Rdiv at 2. nra. }
    assert (FG' : face_grid (1 / 100) s) by (destruct FG; split; lra).
    assert (Gd : good_geom (s_geom (snd s))) by exact (core_good s (proj1 (reachable_inv s Hr))).
    assert (Fa : falls s).
    { unfold falls. rewrite Lim, (b_failure f s B). cbn [lim_right lim_left_r fst snd].
      rewrite surface_face by (auto; rewrite ?Tx, ?Bx; lra). rewrite Tx, Gr.
      assert (Ry : 3 / 10 * (w_right f - w_left_r f) <=
        snd (g_top (s_geom (snd s))) -
        (snd (g_top (s_geom (snd s))) - (w_right f - crest_x f) * (w_height f / dims_length f))) by lra.
      split; [|exact Ry]. apply chord_gt; cbn [fst snd]; lra. }
    assert (G2 : g_gradient (s_geom (snd s)) <= 2).
    { rewrite Gr. apply (Rmult_le_reg_r (dims_length f)); [lra|].
      unfold Rdiv. rewrite Rmult_assoc, Rinv_l by lra. lra. }
    assert (IT : (s_iterations (snd s) < 5600)%Z) by (rewrite (b_iterations f s B); lia).
    assert (Ne : s_search (snd s') <> []).
    { apply (weak_found s s' C); auto.
      - apply (b_planes f s B).
      - intros m I. now destruct (Row m I) as (_ & _ & ?).
      - intros m I. destruct (Row m I) as (_ & ? & _). lra.
      - rewrite (b_slices f s B), Lim. exact CN. }
    pose proof (face_hit s s' (Some 5) Hr Nl Nu (b_planes f s B) FG G2 IT An) as Hit.
    destruct (page_outcome prec f s' Cs) as [(Q & _)|(p & rest & Q & [(_ & fig & P)|(N & _)])].
    - contradiction.
    - exists fig. eexists. split; [exact P|]. discriminate.
    - elim N. apply Hit. rewrite Q. now left.
  Qed.
End Shown.
