(** * FormMore: the answer to a submitted form (slope/views.py:248-342, 477-489). *)
From Coq Require Import ZArith Reals Lra Lia List Bool String Permutation Sorted.
From Verif Require Import Num Py Validation Utilities Objects Slope Planes Analysis
     Dynamic Api RealNum RealFacts ListFacts MonadFacts SlopeFacts MaterialFacts KeepFacts
     Invariant History Spec EditFacts LayerFacts OptionFacts LoadFacts MatInv SearchFacts
     DynFacts DynMore PlaneFacts ViewFacts FosFacts GridFacts FosMore FosTotal WetFacts GrowFacts
     Plot Web FigureFacts DrawFacts ShowFacts PictureFacts SessionFacts FormFacts CohesiveFacts.
Import ListNotations.
Local Open Scope R_scope.

(** ** The critical factor of the form is a Decimal *)
Section Decimal.
  Context {T : Type} {NT : Num T} {EN : Env}.
  Notation stT := (st T).

  Lemma decimal_midpoint t a b c d : exists e, e <> NanProduced /\
    @midpoint_of T NT (CDecimal t) a b c d = Err e.
  Proof.
    unfold midpoint_of. destruct (pydiv _ _) as [m|e] eqn:E; cbn [rbind].
    - exists TypeError. split; [discriminate | reflexivity].
    - exists e. split; [|reflexivity]. unfold pydiv in E. destruct (neqb _ _); [|discriminate].
      injection E as <-. discriminate.
  Qed.
  Lemma decimal_loop k t l r p (s : stT) : exists e, e <> NanProduced /\
    dynamic_loop (S k) (CDecimal t) l r p s = (Err e, s).
  Proof.
    cbn [dynamic_loop]. rewrite bind_self_get.
    assert (D : forall x d, (exists v, dict_get x d = @Ok T v) \/ @dict_get T NT x d = Err KeyError).
    { intros x d. induction d as [|[y v] d IH]; [right; reflexivity|]. cbn [dict_get].
      destruct (neqb y x); [left; eauto | exact IH]. }
    rewrite bind_lift. destruct (D l (s_dynamic (snd s))) as [(v & ->) | ->];
      [|exists KeyError; split; [discriminate | reflexivity]].
    rewrite bind_lift. destruct (D r (s_dynamic (snd s))) as [(w & ->) | ->];
      [|exists KeyError; split; [discriminate | reflexivity]].
    rewrite bind_lift. destruct (decimal_midpoint t l r v w) as (e & N & ->). eauto.
  Qed.

  (** the table of results emptied *)
  Definition emptied (s : stT) : stT := (fst s, set_s_dynamic [] (snd s)).
  (** How far the search gets: not started; the first trial raised; the second
      did; both went through and the wanted factor lies between them. *)
  Inductive given_up (crit : T) : stT -> stT -> Prop :=
  | gu_start s e :
      far_left (fst (g_top (s_geom (snd s)))) (g_length (s_geom (snd s))) (udls_of s) = Err e ->
      given_up crit s (emptied s)
  | gu_first s s1 far e :
      far_left (fst (g_top (s_geom (snd s)))) (g_length (s_geom (snd s))) (udls_of s) = Ok far ->
      try_offset (nz 0) (emptied s) = (Err e, s1) -> given_up crit s s1
  | gu_second s s1 s2 far f0 e :
      far_left (fst (g_top (s_geom (snd s)))) (g_length (s_geom (snd s))) (udls_of s) = Ok far ->
      try_offset (nz 0) (emptied s) = (Ok f0, s1) -> nltb crit f0 = false ->
      try_offset (nsub far (nlit 1 100)) s1 = (Err e, s2) -> given_up crit s s2
  | gu_between s s1 s2 far f0 f1 :
      far_left (fst (g_top (s_geom (snd s)))) (g_length (s_geom (snd s))) (udls_of s) = Ok far ->
      try_offset (nz 0) (emptied s) = (Ok f0, s1) -> nltb crit f0 = false ->
      try_offset (nsub far (nlit 1 100)) s1 = (Ok f1, s2) -> nltb f1 crit = false ->
      given_up crit s s2.
  Lemma decimal_dynamic t (s : stT) r s' : analyse_dynamic (CDecimal t) s = (r, s') ->
    (exists far f0, far_left (fst (g_top (s_geom (snd s)))) (g_length (s_geom (snd s))) (udls_of s) = Ok far /\
       r = Ok (Some 0%Z) /\ try_offset (nz 0) (emptied s) = (Ok f0, s') /\ nltb t f0 = true) \/
    (exists far f0 s1 f1,
       far_left (fst (g_top (s_geom (snd s)))) (g_length (s_geom (snd s))) (udls_of s) = Ok far /\
       r = Ok (Some 1%Z) /\
       try_offset (nz 0) (emptied s) = (Ok f0, s1) /\ nltb t f0 = false /\
       try_offset (nsub far (nlit 1 100)) s1 = (Ok f1, s') /\ nltb f1 t = true) \/
    (exists e, r = Err e /\ given_up t s s').
  Proof.
    unfold analyse_dynamic. msteps.
    change (udls_of (fst s, set_s_dynamic [] (snd s))) with (udls_of s).
    destruct (far_left _ _ _) as [far|e] eqn:EF; cbn zeta.
    2:{ intros Q. injection Q as <- <-. right; right. exists e. split; [reflexivity|]. econstructor; eauto. }
    fold (emptied s). cbn [crit_val].
    unfold mbind at 1. destruct (try_offset (nz 0) (emptied s)) as [[f0|e] s1] eqn:E0.
    2:{ intros Q. injection Q as <- <-. right; right. exists e. split; [reflexivity|]. eapply gu_first; eauto. }
    destruct (nltb t f0) eqn:L0.
    { intros Q. injection Q as <- <-. left. exists far, f0. auto. }
    unfold mbind at 1. destruct (try_offset _ s1) as [[f1|e] s2] eqn:E1.
    2:{ intros Q. injection Q as <- <-. right; right. exists e. split; [reflexivity|]. eapply gu_second; eauto. }
    destruct (nltb f1 t) eqn:L1.
    { intros Q. injection Q as <- <-. right; left. exists far, f0, s1, f1. auto 10. }
    unfold mbind at 1.
    destruct (decimal_loop 9 t (nsub far (nlit 1 100)) (nz 0) (nz 0) s2) as (e & _ & ->).
    intros Q. injection Q as <- <-. right; right. exists e. split; [reflexivity|]. eapply gu_between; eauto.
  Qed.
End Decimal.

Section Answer.
  Context {EN : Env}.
  Notation stR := (st R).

  (** ** The model is made as the form says *)
  Lemma create_outcome f :
    form_valid f = true ->
    (setup_ok f /\ exists s, reachable s /\ built f s /\
       ((limits_accepted f (s_geom (snd s)) /\
         s_limits (snd s) = limits_given f (s_geom (snd s)) /\
         create_slope f = match web_analysis f s with (Ok _, s') => Ok s' | (Err e, _) => Err e end) \/
        (~ limits_accepted f (s_geom (snd s)) /\ create_slope f = Err ValueError))) \/
    (~ setup_ok f /\ create_slope f = Err ValueError).
  Proof.
    intros V. unfold create_slope.
    destruct (web_slope_spec f) as [[D E]|[N E]]; rewrite E; cbn [rbind].
    2:{ right. split; [intros [D _]; contradiction | reflexivity]. }
    rewrite exec_all_app.
    destruct (setup_outcome f V D) as [(Ok1 & s & E1 & Hr & B & Df) | (N1 & s & E1)]; rewrite E1.
    2:{ right. split; [exact N1 | reflexivity]. }
    left. split; [exact Ok1|].
    assert (G : 0 < fst (g_top (s_geom (snd s))) < g_ext_l (s_geom (snd s))).
    { pose proof (reachable_inv s Hr) as (C & _ & _). pose proof (c_l _ C). pose proof (c_lim _ C) as L.
      rewrite Df in L. unfold limits_ok, default_limits in L. cbn in L. lra. }
    destruct (limits_cases f s Df G) as [(A & E2) | (A & E2)]; rewrite E2.
    - set (s' := match limit_ops f with [] => s | _ => _ end) in *.
      exists s'. assert (Hg : s_geom (snd s') = s_geom (snd s)).
      { unfold s'. destruct (limit_ops f); reflexivity. }
      split.
      { destruct (exec_all_run _ _ _ E2) as [-> _]. now apply reachable_ops. }
      split.
      { destruct B. unfold s' in *. destruct (limit_ops f); constructor; assumption. }
      left. rewrite Hg. split; [exact A|]. split; [|reflexivity].
      unfold s', limit_ops, limits_given. destruct (w_consider_limits f); [|exact Df].
      destruct (w_consider_inner f); reflexivity.
    - exists s. split; [exact Hr|]. split; [exact B|]. right. split; [exact A | reflexivity].
  Qed.

  Lemma created f s : create_slope f = Ok s ->
    exists s0 s1, web_slope f = Ok s0 /\ exec_all (setup_ops f ++ limit_ops f) s0 = (Ok tt, s1) /\
      web_analysis f s1 = (Ok tt, s).
  Proof.
    unfold create_slope. destruct (web_slope f) as [s0|]; cbn [rbind]; [|discriminate].
    destruct (exec_all _ s0) as [[[]|] s1] eqn:E1; [|discriminate].
    destruct (web_analysis f s1) as [[[]|] s2] eqn:E2; [|discriminate].
    intros Q. injection Q as <-. exists s0, s1. auto.
  Qed.
  Definition analysis_ops (f : form R) (l : list (op R)) : Prop :=
    l = [Analyse (Some 5)] \/ l = [AnalyseDynamic (CDecimal (w_critical f))] \/
    l = [AnalyseDynamic (CDecimal (w_critical f)); Analyse (Some 5)].
  Lemma analysis_run f (s s' : stR) : web_analysis f s = (Ok tt, s') ->
    (exists l, analysis_ops f l /\ s' = run s l) /\ current s'.
  Proof.
    unfold web_analysis. unR. destruct (w_dynamic f).
    - unfold mtry, mbind.
      destruct (analyse_dynamic (CDecimal (w_critical f)) s) as [[a|e] s1] eqn:E.
      + intros Q; injection Q as <-. split; [|eapply current_dynamic; eauto].
        exists [AnalyseDynamic (CDecimal (w_critical f))]. split; [right; left; reflexivity|].
        unfold run. cbn [fold_left]. unfold step. cbn [exec]. unfold mbind. now rewrite E.
      + assert (K : analyse_slope (Some 5) s1 = (Ok tt, s') ->
          (exists l, analysis_ops f l /\ s' = run s l) /\ SearchFacts.current s').
        { intros Q. split; [|eapply current_analyse; eauto].
          exists [AnalyseDynamic (CDecimal (w_critical f)); Analyse (Some 5)].
          split; [right; right; reflexivity|].
          unfold run. cbn [fold_left]. unfold step. cbn [exec]. unfold mbind. rewrite E.
          cbn [snd]. now rewrite Q. }
        destruct e; try exact K. discriminate.
    - intros Q. split; [|eapply current_analyse; eauto].
      exists [Analyse (Some 5)]. split; [left; reflexivity|].
      unfold run. cbn [fold_left]. unfold step. cbn [exec]. now rewrite Q.
  Qed.

  (** the calls a form makes *)
  Definition web_call (o : op R) : bool :=
    match o with
    | AnalysisOpts _ _ _ _ None | SetLimits _ _ _ _ | Analyse _ | AnalyseDynamic _ => true
    | AnalysisOpts _ _ _ _ (Some _) => false
    | _ => setting_up o
    end.
  Lemma web_calls f l : analysis_ops f l ->
    Forall (fun o => web_call o = true) (setup_ops f ++ limit_ops f ++ l).
  Proof.
    intros A. apply Forall_app. split.
    - unfold setup_ops. repeat (apply Forall_app; split).
      + repeat constructor.
      + generalize 0%nat. induction (w_materials f) as [|[r|] rows IH]; intros i; cbn [row_ops]; repeat constructor; auto.
      + generalize 0%nat. induction (w_lls f) as [|[r|] rows IH]; intros i; cbn [row_ops]; repeat constructor; auto.
      + generalize 0%nat. induction (w_udls f) as [|[r|] rows IH]; intros i; cbn [row_ops]; repeat constructor; auto.
      + destruct (w_consider_water f); repeat constructor.
    - apply Forall_app. split.
      + unfold limit_ops. destruct (w_consider_limits f), (w_consider_inner f); repeat constructor.
      + destruct A as [ -> | [ -> | -> ] ]; repeat constructor.
  Qed.
  Lemma max_kept o (s : stR) : web_call o = true ->
    s_max_iterations (snd (step s o)) = s_max_iterations (snd s).
  Proof.
    intros W. unfold step. destruct (is_options o) eqn:E.
    - destruct o; try discriminate E; try discriminate W.
      match goal with |- context [exec (AnalysisOpts ?a ?b ?c ?d ?e) s] =>
        destruct e; [discriminate W|];
        destruct (options_set s a b c d None) as (s' & Q & _ & _ & _ & _ & Q' & _) end.
      rewrite Q. exact Q'.
    - pose proof (opts_kept o s E) as Q. unfold opts in Q. congruence.
  Qed.
  Lemma max_run l : forall s : stR, Forall (fun o => web_call o = true) l ->
    s_max_iterations (snd (run s l)) = s_max_iterations (snd s).
  Proof.
    induction l as [|o l IH]; intros s F; [reflexivity|].
    inversion F as [|? ? F1 F2]; subst. unfold run. cbn [fold_left]. fold (run (step s o) l).
    rewrite IH by exact F2. now apply max_kept.
  Qed.

  Lemma created_run f s : create_slope f = Ok s ->
    exists l, Forall (fun o => web_call o = true) l /\ dims_ok f /\
      web_slope f = Ok (first_model f) /\ s = run (first_model f) l /\ SearchFacts.current s.
  Proof.
    intros E. destruct (created f s E) as (s0 & s1 & E0 & E1 & E2).
    destruct (web_slope_spec f) as [[D Q]|[_ Q]]; [|congruence].
    assert (s0 = first_model f) by congruence. subst s0.
    destruct (exec_all_run _ _ _ E1) as [R1 _].
    destruct (analysis_run f s1 s E2) as [(l & A & R2) C].
    exists ((setup_ops f ++ limit_ops f) ++ l). split; [rewrite <- app_assoc; now apply web_calls|].
    split; [exact D|]. split; [exact Q|]. split; [|exact C].
    unfold run. rewrite fold_left_app. fold (run (first_model f) (setup_ops f ++ limit_ops f)).
    rewrite <- R1. exact R2.
  Qed.
  Lemma calm_drawn_new f l : Forall (fun o => web_call o = true) l ->
    web_slope f = Ok (first_model f) ->
    exists fig, plot_boundary (fun _ => 0%nat) true (run (first_model f) l) = Ok fig.
  Proof.
    intros W E.
    assert (A : Forall (fun o => about_boundary o = false) l).
    { eapply Forall_impl; [|exact W]. intros []; cbn; try reflexivity; discriminate. }
    assert (P : Forall (fun o => picks_off o = false) l).
    { eapply Forall_impl; [|exact W]. intros []; cbn; try reflexivity; discriminate. }
    unfold web_slope in E. destruct (w_by_length f); eapply calm_drawn; eauto.
  Qed.
  Lemma created_sound f s : create_slope f = Ok s ->
    reachable s /\ drawable s /\ ranked (s_search (snd s)).
  Proof.
    intros E. destruct (created_run f s E) as (l & W & D & E0 & -> & C).
    assert (Hr : reachable (run (first_model f) l)) by (apply reachable_ops, first_reachable, D).
    split; [exact Hr|]. split.
    - destruct (calm_drawn_new f l W E0) as (fig & Q).
      destruct (boundary_outcome _ (fun _ => 0%nat) true Hr) as [[X _] | [_ X]]; [exact X | congruence].
    - destruct C as [Z | (m & A)]; [rewrite Z; split; constructor|].
      split.
      + eapply (analysis_ok m); [exact Hr | | exact A]. rewrite (max_run l _ W). cbn. lia.
      + destruct (search_spec m _ _ A) as (v & cs & _ & _ & _ & _ & S & _). exact S.
  Qed.

  (** ** The outcome of the ordinary analysis *)
  Lemma rmapM_length {A B} (g : A -> res B) l : forall l',
    rmapM g l = Ok l' -> List.length l' = List.length l.
  Proof.
    induction l as [|a l IH]; intros l'; cbn [rmapM]; [intros Q; now injection Q as <-|].
    destruct (g a); cbn [rbind]; [|discriminate]. destruct (rmapM g l) as [k|]; cbn [rbind]; [|discriminate].
    intros Q. injection Q as <-. cbn. f_equal. now apply IH.
  Qed.
  Lemma one_point_fails m (s : stR) : reachable s -> s_planes (snd s) = [] ->
    (num_points_top_of (T := R) (s_iterations (snd s)) -
       Z.of_nat (List.length (lls_of s) + List.length (udls_of s)) = 1)%Z ->
    analyse_slope m s = (Err ZeroDivisionError, s).
  Proof.
    intros Hr PL N. destruct (view_sound s Hr) as (v & EV & SV).
    unfold analyse_slope, mbind, mret, mlift, self_get, mget. rewrite PL, EV.
    unfold entry_exit_planes, left_coords.
    assert (Il : v_iterations v = s_iterations (snd s)).
    { unfold view_of in EV. do 3 (destruct (rmapM _ _); cbn [rbind] in EV; [|discriminate]).
      injection EV as <-. reflexivity. }
    assert (Ll : (List.length (v_lls v) = List.length (lls_of s) /\
                  List.length (v_udls v) = List.length (udls_of s))%nat).
    { unfold view_of in EV.
      destruct (rmapM _ (mats_of s)); cbn [rbind] in EV; [|discriminate].
      destruct (rmapM _ (udls_of s)) as [us|] eqn:EU; cbn [rbind] in EV; [|discriminate].
      destruct (rmapM _ (lls_of s)) as [ls|] eqn:EL; cbn [rbind] in EV; [|discriminate].
      injection EV as <-. cbn. split; eapply rmapM_length; eauto. }
    destruct Ll as [L1 L2]. rewrite Il, L1, L2.
    replace (num_points_top_of (s_iterations (snd s)) - Z.of_nat (List.length (lls_of s)) -
             Z.of_nat (List.length (udls_of s)))%Z with 1%Z by lia.
    rewrite spread_left_one. reflexivity.
  Qed.

  Definition spare_points (f : form R) : Z :=
    (num_points_top_of (T := R) (w_iterations f) -
     Z.of_nat (List.length (real_lls (w_lls f)) + List.length (real_udls (w_udls f))))%Z.
  Lemma spare_built f s : built f s ->
    (num_points_top_of (T := R) (s_iterations (snd s)) -
       Z.of_nat (List.length (lls_of s) + List.length (udls_of s)))%Z = spare_points f.
  Proof.
    intros B. unfold spare_points. rewrite (b_iterations f s B), <- (b_lls f s B), <- (b_udls f s B).
    now rewrite !map_length.
  Qed.
  Lemma built_offsets f s : built f s -> offsets_ok s.
  Proof.
    intros B. split.
    - intros u Hu. apply (in_map udl_core) in Hu. rewrite (b_udls f s B) in Hu.
      apply filter_In in Hu as [Hu _]. apply in_map_iff in Hu as ([r|] & Q & _);
        unfold udl_core, udl_values in Q; injection Q as _ <- _ _ _; [apply Rabs_pos | lra].
    - intros u Hu. apply (in_map ll_core) in Hu. rewrite (b_lls f s B) in Hu.
      apply filter_In in Hu as [Hu _]. apply in_map_iff in Hu as ([r|] & Q & _);
        unfold ll_core, ll_values in Q; injection Q as _ <- _ _; [apply Rabs_pos | lra].
  Qed.
  Lemma built_wet f s : setup_ok f -> reachable s -> built f s -> wet_ok s.
  Proof.
    intros (_ & _ & _ & W) Hr B rl E. rewrite (b_level f s B) in E.
    destruct (w_consider_water f) eqn:Ew; [|discriminate]. injection E as <-.
    specialize (W eq_refl).
    destruct (top_level s (reachable_inv s Hr)) as (T1 & T2).
    apply Rmax_lub; lra.
  Qed.
  (** rows of soils without friction *)
  Definition cohesive_row (r : option (material_row R)) : Prop :=
    match r with Some r => wm_friction r = 0 /\ wm_cohesion r <> 0 | None => False end.
  Lemma built_cohesive f s : built f s -> Forall cohesive_row (w_materials f) -> cohesive s.
  Proof.
    intros B F m I. apply (in_map layer_values) in I.
    apply (Permutation_in _ (b_layers f s B)) in I. apply in_map_iff in I as (r & Q & I).
    rewrite Forall_forall in F. specialize (F r I). destruct r as [r|]; [|destruct F].
    destruct F as (F1 & F2). unfold row_values, layer_values in Q. injection Q as _ <- <- _ _ _.
    split; [exact F1 | now apply Rabs_pos_lt].
  Qed.
  Lemma normal_outcome f : form_valid f = true -> w_dynamic f = false -> setup_ok f ->
    exists s, reachable s /\ built f s /\
     ((~ limits_accepted f (s_geom (snd s)) /\ create_slope f = Err ValueError) \/
      (limits_accepted f (s_geom (snd s)) /\ spare_points f = 1%Z /\
       create_slope f = Err ZeroDivisionError) \/
      (limits_accepted f (s_geom (snd s)) /\ spare_points f <> 1%Z /\
       ((exists s', create_slope f = Ok s') \/
        (create_slope f = Err NanProduced /\ ~ Forall cohesive_row (w_materials f))))).
  Proof.
    intros V D O.
    destruct (create_outcome f V) as [(_ & s & Hr & B & [(L & _ & E)|(A & E)]) | (N & _)];
      [ | | contradiction]; exists s; (split; [exact Hr|]); (split; [exact B|]).
    2:{ left. auto. }
    right. unfold web_analysis in E. rewrite D in E.
    pose proof (spare_built f s B) as SP. pose proof (built_wet f s O Hr B) as W.
    destruct (Z.eq_dec (spare_points f) 1) as [Q|Q].
    - left. split; [exact L|]. split; [exact Q|]. rewrite one_point_fails in E; [exact E | exact Hr | apply B | congruence].
    - right. split; [exact L|]. split; [exact Q|].
      destruct (analyse_total (Some (nz 5)) s Hr (built_offsets f s B) (b_planes f s B)) as [F|F].
      + congruence.
      + exact W.
      + destruct (analyse_slope _ s) as [[[]|e] s']; cbn [fst] in F; [|discriminate]. left. eauto.
      + right. split; [destruct (analyse_slope _ s) as [r s']; cbn [fst] in F; now subst r|].
        intros C. destruct (cohesive_analysed (Some (nz 5)) s Hr (built_offsets f s B)
          (built_cohesive f s B C) W (b_planes f s B)) as (s' & Z); [congruence|].
        rewrite Z in F. discriminate.
  Qed.
  Lemma no_limits f g : w_consider_limits f = false -> limits_accepted f g.
  Proof. intros L. unfold limits_accepted. now rewrite L. Qed.
  (** a valid form of soils without friction is answered *)
  Lemma cohesive_form f : form_valid f = true -> w_dynamic f = false -> setup_ok f ->
    w_consider_limits f = false -> Forall cohesive_row (w_materials f) -> spare_points f <> 1%Z ->
    exists s, create_slope f = Ok s.
  Proof.
    intros V D O L C Q. destruct (normal_outcome f V D O) as (s & _ & _ & [(A & _)|[(_ & A & _)|(_ & _ & [A|(_ & A)])]]);
      auto; [elim A; now apply no_limits | contradiction | contradiction].
  Qed.
  (** two rows left blank have the same depth *)
  Lemma two_blank f a b c : form_valid f = true ->
    w_materials f = a ++ None :: b ++ None :: c -> create_slope f = Err ValueError.
  Proof.
    intros V E. destruct (create_outcome f V) as [((_ & _ & ND & _) & _) | (_ & Q)]; [exfalso|exact Q].
    rewrite E, map_app in ND. apply NoDup_remove_2 in ND. apply ND. apply in_or_app. right.
    apply (in_map row_depth) with (x := None). apply in_or_app. right. now left.
  Qed.

  (** ** The outcome of the dynamic analysis *)
  Lemma dynamic_outcome f s : form_valid f = true -> w_dynamic f = true -> create_slope f = Ok s ->
    exists s0, reachable s0 /\ built f s0 /\ limits_accepted f (s_geom (snd s0)) /\
      let c := w_critical f in
      ((exists f0, try_offset 0 (emptied s0) = (Ok f0, s) /\ c < f0) \/
       (exists far f0 s1 f1,
          farthest s0 far /\
          try_offset 0 (emptied s0) = (Ok f0, s1) /\ f0 <= c /\
          try_offset (far - 1 / 100) s1 = (Ok f1, s) /\ f1 < c) \/
       (exists s1, given_up c s0 s1 /\ analyse_slope (Some 5) s1 = (Ok tt, s))).
  Proof.
    intros V D E.
    destruct (create_outcome f V) as [(_ & s0 & Hr & B & [(L & _ & Q)|(_ & Q)]) | (_ & Q)];
      [ | congruence | congruence].
    exists s0. split; [exact Hr|]. split; [exact B|]. split; [exact L|]. cbv zeta.
    rewrite E in Q. unfold web_analysis in Q. rewrite D in Q. unfold mtry, mbind, mret in Q.
    destruct (analyse_dynamic (CDecimal (w_critical f)) s0) as [r s1] eqn:A.
    destruct (decimal_dynamic _ _ _ _ A) as
      [(far & f0 & _ & -> & T0 & C0) | [(far & f0 & s2 & f1 & F & -> & T0 & C0 & T1 & C1) | (e & -> & G)]].
    - left. cbv beta iota in Q. injection Q as ->. exists f0. unR. rbool. auto.
    - right; left. cbv beta iota in Q. injection Q as ->. exists far, f0, s2, f1. unR. rbool.
      apply far_left_ok in F as (F & _). auto.
    - cbv beta iota in Q. right; right. exists s1. split; [exact G|].
      assert (K : match analyse_slope (Some 5) s1 with (Ok _, s') => Ok s' | (Err e, _) => Err e end = Ok s ->
                  analyse_slope (Some 5) s1 = (Ok tt, s)).
      { destruct (analyse_slope (Some 5) s1) as [[[]|] s2]; [|discriminate]. intros Z. now injection Z as ->. }
      apply K. symmetry. destruct e; cbv beta iota in Q; unR; try exact Q. discriminate Q.
  Qed.

  (** A moving distributed load without a length: the dynamic analysis stops
      before its first trial and the ordinary one is done. *)
  Definition endless_dynamic (v : R * R * option R * string * bool) : Prop :=
    snd (fst (fst v)) = None /\ snd v = true.
  Lemma endless_far x us : forall a, Exists endless_dynamic (map udl_core us) ->
    far_left x a us = @Err R TypeError.
  Proof.
    induction us as [|u us IH]; intros a E; [inversion E|].
    cbn [map] in E. apply Exists_cons in E. cbn [far_left].
    destruct (u_dynamic u) eqn:Du.
    - destruct (u_length u) as [l|] eqn:Lu; [|reflexivity]. destruct E as [(E & _)|E]; [|now apply IH].
      unfold udl_core in E. cbn [fst snd] in E. congruence.
    - destruct E as [(_ & E)|E]; [|now apply IH]. unfold udl_core in E. cbn [snd] in E. congruence.
  Qed.
  Lemma endless_outcome f : form_valid f = true -> w_dynamic f = true -> setup_ok f ->
    Exists endless_dynamic (real_udls (w_udls f)) ->
    exists s, reachable s /\ built f s /\
      (limits_accepted f (s_geom (snd s)) ->
       create_slope f = match analyse_slope (Some 5) (emptied s) with
                        | (Ok _, s') => Ok s' | (Err e, _) => Err e end).
  Proof.
    intros V D O X.
    destruct (create_outcome f V) as [(_ & s & Hr & B & [(L & _ & E)|(A & E)]) | (N & _)];
      [ | | contradiction]; exists s; (split; [exact Hr|]); (split; [exact B|]); intros L'; [|contradiction].
    assert (Q : analyse_dynamic (CDecimal (w_critical f)) s = (Err TypeError, emptied s)).
    { unfold analyse_dynamic. rewrite bind_self_upd, !bind_self_get, bind_get.
      fold (emptied s). change (udls_of (emptied s)) with (udls_of s).
      rewrite endless_far; [reflexivity|]. now rewrite (b_udls f s B). }
    rewrite E. unfold web_analysis. rewrite D. unfold mtry, mbind. rewrite Q.
    cbv beta iota. unR. reflexivity.
  Qed.
  Lemma endless_answered f : form_valid f = true -> w_dynamic f = true -> setup_ok f ->
    Exists endless_dynamic (real_udls (w_udls f)) -> w_consider_limits f = false ->
    Forall cohesive_row (w_materials f) -> spare_points f <> 1%Z ->
    exists s, create_slope f = Ok s.
  Proof.
    intros V D O X L C Q.
    destruct (create_outcome f V) as [(_ & s & Hr & B & [(L' & _ & E)|(A & E)]) | (N & _)];
      [ | elim A; now apply no_limits | contradiction].
    assert (Z : analyse_dynamic (CDecimal (w_critical f)) s = (Err TypeError, emptied s)).
    { unfold analyse_dynamic. rewrite bind_self_upd, !bind_self_get, bind_get.
      fold (emptied s). change (udls_of (emptied s)) with (udls_of s).
      rewrite endless_far; [reflexivity|]. now rewrite (b_udls f s B). }
    assert (Hr' : reachable (emptied s)).
    { replace (emptied s) with (step s (AnalyseDynamic (CDecimal (w_critical f)))).
      - now apply reachable_step.
      - unfold step. cbn [exec]. unfold mbind. now rewrite Z. }
    destruct (cohesive_analysed (Some 5) (emptied s) Hr') as (s' & A).
    - exact (built_offsets f s B).
    - exact (built_cohesive f s B C).
    - exact (built_wet f s O Hr B).
    - exact (b_planes f s B).
    - change (lls_of (emptied s)) with (lls_of s). change (udls_of (emptied s)) with (udls_of s).
      change (s_iterations (snd (emptied s))) with (s_iterations (snd s)).
      rewrite (spare_built f s B). exact Q.
    - exists s'. rewrite E. unfold web_analysis. rewrite D. unfold mtry, mbind. rewrite Z.
      cbv beta iota. unR. now rewrite A.
  Qed.

  (** ** The page and the report *)
  Lemma page_outcome prec f s : create_slope f = Ok s ->
    (s_search (snd s) = [] /\ post prec f = Err IndexError) \/
    exists p rest, s_search (snd s) = p :: rest /\
      ((arc_hit p /\ exists fig, post prec f = Ok (fig, map (fun p => (p, web_arc p)) (p :: rest))) \/
       (~ arc_hit p /\ post prec f = Err IndexError)).
  Proof.
    intros E. destruct (created_sound f s E) as (Hr & D & (F & _)).
    destruct (critical_outcome s prec true Hr F) as (A & B & _).
    unfold post. rewrite E. cbn [rbind].
    destruct (s_search (snd s)) as [|p rest] eqn:Es.
    - left. rewrite (A D eq_refl). auto.
    - right. exists p, rest. split; [reflexivity|].
      destruct (B D p rest eq_refl) as [[X (fig & ->)] | [X ->]]; cbn [rbind]; [left|right]; eauto.
  Qed.
  Lemma map_fst_arcs l : map fst (map (fun p => (p, web_arc p)) l) = (l : list (plane R)).
  Proof. rewrite map_map. apply map_id. Qed.
  Lemma page_ranked prec f fig search : post prec f = Ok (fig, search) -> ranked (map fst search).
  Proof.
    intros P. destruct (post_inv prec f fig search P) as (s & E & _ & -> & _).
    rewrite map_fst_arcs. apply (created_sound f s E).
  Qed.
  (** any ranked list, on top of any figure *)
  Lemma lists_shown fig (search : list (plane R * list (point R))) m : ranked (map fst search) ->
    let shown := filter (fun c => shown_below (Some m) (fst c)) search in
    updateFOS m search = Ok (rev shown) /\
    exists rep, report fig search m = Ok rep /\
      planes_in rep = planes_in fig ++ rev (map (fun c => line_of' (fst c)) shown) /\
      f_shapes rep = f_shapes fig /\ f_notes rep = f_notes fig.
  Proof.
    intros K shown. split; [now apply display_filter|]. unfold report.
    destruct (traces_ok (Some m) _ (proj1 K)) as (ts & E). rewrite E. cbn [rbind].
    eexists. split; [reflexivity|]. split; [|split; reflexivity].
    destruct (traces_lines _ _ _ E) as (A & _).
    unfold planes_in in *. cbn [f_traces]. rewrite flat_map_app. f_equal.
    transitivity (rev (map line_of' (filter (shown_below (Some m)) (map fst search)))).
    { rewrite <- A. clear. induction (flat_map _ ts) as [|x l IH]; [reflexivity|].
      cbn [rev]. rewrite flat_map_app, IH. cbn [flat_map].
      destruct x; cbn [app rev]; rewrite ?app_nil_r; reflexivity. }
    f_equal. unfold shown. clear. induction search as [|x l IH]; [reflexivity|].
    cbn [map filter fst]. destruct (shown_below (Some m) (fst x)); cbn [map fst]; now rewrite IH.
  Qed.
  Lemma page_and_report prec f fig search m : post prec f = Ok (fig, search) ->
    let shown := filter (fun c => shown_below (Some m) (fst c)) search in
    updateFOS m search = Ok (rev shown) /\
    exists rep t, report fig search m = Ok rep /\
      planes_in rep = t :: rev (map (fun c => line_of' (fst c)) shown).
  Proof.
    intros P shown. split; [apply display_filter; eapply page_ranked; eauto|].
    destruct (report_is_all_planes prec f fig search m P) as (s & E & ->).
    destruct (post_inv prec f fig search P) as (s2 & E2 & Ec & Es & _).
    assert (s2 = s) by congruence. subst s2.
    destruct (created_sound f s E) as (Hr & D & (F & _)).
    pose proof (all_planes_outcome s prec (Some m) true Hr F) as O. rewrite Ec in O.
    destruct O as (rep & O). rewrite O. exists rep.
    destruct (all_planes_drawn s prec (Some m) true rep O) as (p & rest & g & t & _ & _ & _ & _ & Q).
    exists t. split; [reflexivity|]. rewrite Q. f_equal. f_equal. unfold shown. rewrite Es.
    generalize (s_search (snd s)). intros l. induction l as [|x l IH]; [reflexivity|].
    cbn [map filter fst]. destruct (shown_below (Some m) x); cbn [map fst]; now rewrite IH.
  Qed.
End Answer.
