(** * ReportedFacts: the factors that the analysis reports for circles leaning one
    way, when the iteration is never cut short (C57, C58). *)
From Coq Require Import ZArith Reals Lra Lia List Bool Sorted.
From Verif Require Import Num Py Validation Utilities Objects Slope Planes Analysis
     Dynamic Api RealNum RealFacts ListFacts MonadFacts SlopeFacts MaterialFacts
     Invariant History EditFacts Spec Demo DemoCircle CircleFacts
     PlaneFacts SoilFacts MatInv ViewFacts SearchFacts SliceFacts FosFacts FosMore StrengthFacts
     ScaleFacts FosTotal WetFacts FosCode.
Import ListNotations.
Local Open Scope R_scope.

(** A tolerance of zero or less never stops the iteration. *)
Lemma loop_patient w tol sl k : tol <= 0 -> forall F,
  bishop_loop w tol sl k F = bishop_loop w 0 sl k F.
Proof.
  intros L. induction k as [|k IH]; intros F; cbn [bishop_loop]; auto.
  destruct (bishop_step w sl F) as [[F1|]|e]; cbn [rbind]; auto.
  unR. pose proof (Rabs_pos (F1 - F)).
  rewrite (proj2 (Rltb_false (Rabs (F1 - F)) tol)) by lra.
  rewrite (proj2 (Rltb_false (Rabs (F1 - F)) 0)) by lra. apply IH.
Qed.
Lemma bishop_patient (v : view R) cx cy r : v_tolerance v <= 0 ->
  bishop v cx cy r = bishop (allow (Z.to_nat (v_max_iterations v)) v) cx cy r.
Proof.
  intros L. unfold bishop. cbn [allow v_geom v_tolerance v_max_iterations].
  rewrite Nat2Z.id. destruct (circle_external _ _ _ _) as [l|]; cbn [rbind]; auto.
  destruct (first_two l) as [[a b]|]; auto.
  change (ordinary (allow (Z.to_nat (v_max_iterations v)) v) cx cy r a b) with (ordinary v cx cy r a b).
  destruct (ordinary v cx cy r a b) as [[fs|]|]; cbn [rbind]; auto.
  change (slices_of (allow (Z.to_nat (v_max_iterations v)) v) cx cy r (fst a) (fst b))
    with (slices_of v cx cy r (fst a) (fst b)).
  destruct (slices_of v cx cy r (fst a) (fst b)) as [[[w sl]|]|]; cbn [rbind]; auto.
  now apply loop_patient.
Qed.

Section Reported.
  Context {EN : Env}.
  Notation stR := (st R).

  (** the circles added by hand, all of them leaning one way *)
  Definition all_lean (s : stR) : Prop :=
    s_planes (snd s) <> [] /\
    forall p, In p (s_planes (snd s)) ->
      exists a b, leaning (s_geom (snd s)) (p_cx p) (p_cy p) (p_radius p) a b.

  (** what two analyses of the same circles report: every circle has a factor in
      both, none is larger in the first, and so neither is the smallest *)
  Record no_larger (s s' : stR) : Prop := {
    nl_runs : exists s1 s1' f f', analyse_slope None s = (Ok tt, s1) /\
      analyse_slope None s' = (Ok tt, s1') /\
      get_min_FOS (snd s1) = Ok (Some f) /\ get_min_FOS (snd s1') = Ok (Some f') /\ 0 <= f <= f';
    nl_each : forall s1 s1' p, analyse_slope None s = (Ok tt, s1) ->
      analyse_slope None s' = (Ok tt, s1') -> In p (s_planes (snd s)) ->
      exists f f', In (set_fos (Some f) p) (s_search (snd s1)) /\
        In (set_fos (Some f') p) (s_search (snd s1')) /\ 0 <= f <= f';
  }.

  Lemma compared (s s' : stR) v v' : view_of s = Ok v -> view_of s' = Ok v' ->
    s_planes (snd s) <> [] -> s_planes (snd s') = s_planes (snd s) ->
    (forall p, In p (s_planes (snd s)) -> exists f f',
       factor v p = Ok (Some f) /\ factor v' p = Ok (Some f') /\ 0 <= f <= f') ->
    no_larger s s'.
  Proof.
    intros E E' NE PL A.
    assert (AN : analysed s v (s_planes (snd s))) by (right; auto).
    assert (AN' : analysed s' v' (s_planes (snd s))) by (right; rewrite PL; auto).
    assert (RUN : forall (t : stR) u, view_of t = Ok u -> analysed t u (s_planes (snd s)) ->
      (forall p, In p (s_planes (snd s)) -> exists f, factor u p = Ok (Some f)) ->
      exists t1, analyse_slope None t = (Ok tt, t1)).
    { intros t u Et At Ft.
      assert (L : exists done, fos_loop u (s_planes (snd s)) = (Ok tt, done)).
      { clear - Ft. induction (s_planes (snd s)) as [|p l IH]; cbn [fos_loop]; [eauto|].
        destruct (Ft p (or_introl eq_refl)) as (f & F). unfold factor in F. rewrite F.
        destruct IH as (d & ->); [intros q I; apply Ft; now right|]. eauto. }
      destruct L as (d & L). eexists. exact (analyse_intro None t u _ d Et At L). }
    assert (EACH : forall (t t1 : stR) u p f, view_of t = Ok u -> s_planes (snd t) = s_planes (snd s) ->
      analyse_slope None t = (Ok tt, t1) -> In p (s_planes (snd s)) -> factor u p = Ok (Some f) ->
      In (set_fos (Some f) p) (s_search (snd t1))).
    { intros t t1 u p f Et Pt At I F. destruct (search_spec None t t1 At) as (u0 & cs & E0 & A0 & _ & IFF & _).
      assert (u0 = u) by congruence. subst u0. apply IFF.
      assert (CS : cs = s_planes (snd s)).
      { destruct A0 as [(Q & _)|(_ & Q)]; [rewrite Pt in Q; congruence|now rewrite Pt in Q]. }
      subst cs. exists p, f. split; auto. split; [|split; [exact Logic.I|reflexivity]].
      red. repeat (split; [reflexivity|]). exact F. }
    constructor.
    - destruct (RUN s v E AN) as (s1 & A1).
      { intros p I. destruct (A p I) as (f & _ & F & _). eauto. }
      destruct (RUN s' v' E' AN') as (s1' & A1').
      { intros p I. destruct (A p I) as (_ & f & _ & F & _). eauto. }
      exists s1, s1'.
      assert (CSQ : forall (t : stR) u cs, view_of t = Ok u -> s_planes (snd t) = s_planes (snd s) ->
        analysed t u cs -> cs = s_planes (snd s)).
      { intros t u cs Et Pt [(Q & _)|(_ & Q)]; [rewrite Pt in Q; congruence|now rewrite Pt in Q]. }
      destruct (min_spec None s s1 A1) as (u & cs & Eu & AU & D).
      destruct (min_spec None s' s1' A1') as (u' & cs' & Eu' & AU' & D').
      assert (u = v) by congruence. assert (u' = v') by congruence. subst u u'.
      rewrite (CSQ s v cs E eq_refl AU) in D. rewrite (CSQ s' v' cs' E' PL AU') in D'.
      destruct (s_planes (snd s)) as [|p0 l0] eqn:PS; [congruence|].
      destruct (A p0 (or_introl eq_refl)) as (f0 & f0' & F0 & F0' & _).
      destruct D as [(_ & D)|(c & f & G & IC & FC & _ & _ & MIN)].
      { exfalso. apply (D p0 f0); cbn; auto. }
      destruct D' as [(_ & D')|(c' & f' & G' & IC' & FC' & _)].
      { exfalso. apply (D' p0 f0'); cbn; auto. }
      exists f, f'. split; [exact A1|]. split; [exact A1'|]. split; [exact G|]. split; [exact G'|].
      destruct (A c IC) as (g & g1 & Fg & _ & Lg). assert (g = f) by congruence. subst f.
      destruct (A c' IC') as (h & h' & Fh & Fh' & Lh). assert (h' = f') by congruence. subst f'.
      pose proof (MIN c' h IC' Fh). lra.
    - intros s1 s1' p A1 A1' I. destruct (A p I) as (f & f' & F & F' & L). exists f, f'.
      split; [now apply (EACH s s1 v)|]. split; [now apply (EACH s' s1' v')|]. exact L.
  Qed.

  Lemma ordered_reported (v v' : view R) cx cy r : v_tolerance v <= 0 -> v_tolerance v' <= 0 ->
    v_max_iterations v' = v_max_iterations v -> ordered_answers v v' cx cy r ->
    exists f f', bishop v cx cy r = Ok (Some f) /\ bishop v' cx cy r = Ok (Some f') /\ 0 <= f <= f'.
  Proof.
    intros L L' M (F & F' & A & _).
    destruct (A (Z.to_nat (v_max_iterations v))) as (B & B' & O).
    do 2 eexists. rewrite (bishop_patient v), (bishop_patient v') by assumption. rewrite M. eauto.
  Qed.

  (** C57 *)
  Lemma drained_reported (s : stR) : reachable s -> some_strength s -> heavy s -> wet_ok s ->
    mats_of s <> [] -> s_tolerance (snd s) <= 0 -> all_lean s -> no_larger s (step s RemoveWater).
  Proof.
    intros RS SS HV WK NE TL (PN & LN).
    destruct (view_sound s RS) as (v & E & SV).
    destruct (drained s v E) as (v' & E' & _ & _ & _ & MX & TOL & _ & PL).
    apply (compared s _ v v' E E' PN PL). intros p I. destruct (LN p I) as (a & b & L).
    apply ordered_reported; auto.
    - rewrite (so_tol s v SV); auto.
    - rewrite TOL, (so_tol s v SV); auto.
    - exact (drained_answers s v v' _ _ _ a b RS SS HV WK NE E E' L).
  Qed.

  (** C58 *)
  Lemma reinforced_reported (s s' : stR) : reachable s -> reachable s' -> reinforced s s' ->
    Forall2 (fun m m' => m_friction_angle m' = m_friction_angle m) (mats_of s) (mats_of s') ->
    some_strength s -> heavy s -> wet_ok s -> mats_of s <> [] ->
    s_tolerance (snd s) <= 0 -> s_tolerance (snd s') <= 0 ->
    s_max_iterations (snd s') = s_max_iterations (snd s) ->
    s_planes (snd s') = s_planes (snd s) -> all_lean s -> no_larger s s'.
  Proof.
    intros RS RS' RF M SS HV WK NE TL TL' MX PL (PN & LN).
    destruct (view_sound s RS) as (v & E & SV). destruct (view_sound s' RS') as (v' & E' & SV').
    apply (compared s s' v v' E E' PN PL). intros p I. destruct (LN p I) as (a & b & L).
    apply ordered_reported.
    - now rewrite (so_tol s v SV).
    - now rewrite (so_tol s' v' SV').
    - now rewrite (so_max s v SV), (so_max s' v' SV').
    - exact (reinforced_answers s s' v v' _ _ _ a b RS RS' RF M SS HV WK NE E E' L).
  Qed.

  (** The demo circle, with tolerance zero, on the wet demo slope and on two banks *)
  Definition with_circle (s : stR) : stR :=
    (fst s, set_s_search [] (set_s_planes [demo_plane]
              (set_s_search [] (set_s_tolerance 0 (snd s))))).
  Lemma with_circle_reachable (s : stR) : reachable s -> s_geom (snd s) = demo_geom ->
    s_planes (snd s) = [] -> reachable (with_circle s).
  Proof.
    intros RS G P.
    eapply accepted_reachable; [exact RS|].
    apply (EditFacts.acc_cons s (AnalysisOpts None None None (Some 0) None) [AddCircle 12 (29 / 2) (15 / 2)]
             (fst s, set_s_search [] (set_s_tolerance 0 (snd s)))); [destruct s; reflexivity|].
    econstructor; [|constructor].
    cbn [exec]. unfold add_single_circular_plane.
    destruct (circle_external_spec demo_geom demo_good 12 (29 / 2) (15 / 2)) as (l & E & C).
    erewrite bind_ok by reflexivity. cbn [snd fst set_s_search set_s_tolerance s_geom]. rewrite G.
    unfold mlift at 1. rewrite E. unfold mbind at 1.
    destruct (first_two_spec _ _ _ _ _ C) as [(a & b & F & EP)|(_ & L)].
    2:{ exfalso. eapply end_points_two; [apply demo_ends|exact C|exact L]. }
    destruct (end_points_det _ _ _ _ _ _ _ _ demo_ends EP) as (-> & ->). rewrite F.
    unfold with_circle. cbn. rewrite P. reflexivity.
  Qed.
  Lemma with_circle_leans (s : stR) : s_geom (snd s) = demo_geom -> all_lean (with_circle s).
  Proof.
    intros G. split; [discriminate|]. intros p [ <- | [] ]. exists (6, 10), (12, 7).
    change (s_geom (snd (with_circle s))) with (s_geom (snd s)). rewrite G. exact demo_leaning.
  Qed.
End Reported.
