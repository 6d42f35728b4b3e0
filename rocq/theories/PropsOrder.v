(** * PropsOrder: the order of circles and loads, and more circles (C101). *)
From Coq Require Import ZArith Reals Lra Lia List Bool String Permutation.
From Verif Require Import Num Py Validation Utilities Objects Slope Planes Analysis
     Dynamic Api RealNum RealFacts MonadFacts ListFacts SlopeFacts MaterialFacts LoadFacts LayerFacts Invariant MatInv
     EditFacts History Spec FloatNum FloatWitness FloatMore Demo DemoCircle CircleFacts PlaneFacts SoilFacts
     SliceFacts SearchFacts ViewFacts FosFacts FosMore StrengthFacts ScaleFacts FosTotal WetFacts FosCode
     CohesiveFacts Surcharge SurchargeCode SurchargeDemo SplitFacts SplitDemo OrderFacts FloatOrder.
Import ListNotations.
Local Open Scope R_scope.

(** The order of the circles and of the loads does not matter (C101_order).  Adding circles to
    circles the user gave never raises the reported factor (C101_more, C101_add); the
    automatic search can report a higher one with more circles, with wider limits and when
    the first circle is given (C101_automatic).
    [settings]: ground, water, number of slices, tolerance and number of turns; [searched]:
    limits, number of circles, least distance; [reordered]: the same strips (pressure,
    offset, length) and lines (force, offset) in some order; [given]: a circle and its end
    points, without its result. *)
Theorem C101_order : forall (EN : Env) (s s' : st R) mx, reachable s -> reachable s' ->
  settings s' = settings s -> same_soil s s' -> searched s' = searched s -> reordered s s' ->
  Permutation (map given (s_planes (snd s))) (map given (s_planes (snd s'))) ->
  (fst (exec (Analyse mx) s') = Ok tt <-> fst (exec (Analyse mx) s) = Ok tt) /\
  (forall s1, exec (Analyse mx) s = (Ok tt, s1) ->
   exists s1', exec (Analyse mx) s' = (Ok tt, s1') /\
     Permutation (s_search (snd s1)) (s_search (snd s1')) /\
     map p_fos (s_search (snd s1')) = map p_fos (s_search (snd s1)) /\
     get_min_FOS (snd s1') = get_min_FOS (snd s1)).
Proof. intros EN s s' mx H1 H2 H3 H4 H5 H6 H7. split; [now apply order_raises|]. intros s1 E. now apply (order_same s). Qed.
Print Assumptions C101_order.

(** More circles than before, all given by the user: the analysis of the fewer succeeds as
    well, and the factor reported for the more is the smaller of the old one and the
    smallest of the new circles *)
Theorem C101_more : forall (EN : Env) (s s' s1' : st R) extra mx, reachable s -> reachable s' ->
  settings s' = settings s -> same_soil s s' -> same_load s s' -> s_planes (snd s) <> [] ->
  Permutation (map given (s_planes (snd s) ++ extra)) (map given (s_planes (snd s'))) ->
  exec (Analyse mx) s' = (Ok tt, s1') ->
  exists s1, exec (Analyse mx) s = (Ok tt, s1) /\
    forall f, get_min_FOS (snd s1) = Ok (Some f) ->
      exists f', get_min_FOS (snd s1') = Ok (Some f') /\ f' <= f /\
        (f' = f \/ exists v c, view_of s = Ok v /\ In c extra /\ factor v c = Ok (Some f')) /\
        (forall v c g, view_of s = Ok v -> In c extra -> factor v c = Ok (Some g) -> f' <= g).
Proof. intros EN. exact more_circles. Qed.
Print Assumptions C101_more.

(** One circle more: nothing changes (it misses the ground), the analysis raises what the
    circle raises, or the smaller factor is reported; [least f o]: the smaller of [f] and
    the factor [o] of the circle, if it has one *)
Theorem C101_add : forall (EN : Env) (s s1 a : st R) v cx cy r f u, reachable s -> view_of s = Ok v ->
  s_planes (snd s) <> [] -> exec (Analyse None) s = (Ok tt, a) -> get_min_FOS (snd a) = Ok (Some f) ->
  exec (AddCircle cx cy r) s = (Ok u, s1) ->
  s1 = s \/
  (exists e, bishop v cx cy r = Err e /\ fst (exec (Analyse None) s1) = Err e) \/
  (exists o a1, bishop v cx cy r = Ok o /\ exec (Analyse None) s1 = (Ok tt, a1) /\
     get_min_FOS (snd a1) = Ok (Some (least f o))).
Proof. intros EN. exact add_circle. Qed.
Print Assumptions C101_add.

(** In binary64: 1.7121; with 4800 instead of 500 circles 1.7257; with the left limit moved
    out by 0.1 m 1.7340; after the first circle is given 1.7338 *)
Theorem C101_automatic : exists (EN : Env) (s : st float),
  reachable s /\ s_planes (snd s) = [] /\ s_iterations (snd s) = 500%Z /\ micro_fos s = 1712129%Z /\
  (let t := run s [AnalysisOpts None (Some 4800%Z) None None None] in micro_fos t = 1725740%Z) /\
  (let t := run s [SetLimits (fl 59 10) (fl 13 1) (fl 78 10) (fl 85 10)] in
     micro_fos t = 1734018%Z /\ s_limits (snd s) = MkLimits (f_of_Z 6) (f_lit 78 10) (f_lit 85 10) (f_of_Z 13) /\
     s_limits (snd t) = MkLimits (f_lit 59 10) (f_lit 78 10) (f_lit 85 10) (f_of_Z 13)) /\
  (let t := run s [arc] in s_planes (snd t) <> [] /\ micro_fos t = 1733814%Z).
Proof. exact more_raises. Qed.
Print Assumptions C101_automatic.

(** Two strips given in either order *)
Section Case.
  Context {EN : Env}.
  Definition in_turn : st R := with_arc
    (MkHeap [assigned 10 0 (bank_soil 5 30)] [strip_udl' 0 2; udl_coords 8 (strip_udl' 0 1); udl_coords 8 (strip_udl' 1 1)] [],
     demo_sl [0%nat] [2%nat; 1%nat] [] (UmNum 20) None None).
  Lemma in_turn_exec : exec (SetUdls [RefUdl 2; RefUdl 1]) yard = (Ok tt, in_turn).
  Proof.
    cbn [exec]. rewrite with_refs_intro by (repeat constructor).
    set (y1 := (fst yard, set_s_search [] (set_s_planes [demo_plane] (demo_sl [0%nat] [2%nat] [] UmUnset None None))) : st R).
    assert (E1 : set_udl_one (RefUdl 2) yard = (Ok tt, y1)).
    { cbn [set_udl_one]. erewrite bind_ok; [|reflexivity]. cbn. unR. rnum. cbn [mwhen].
      msteps. unfold udl_min_length. cbn. unR. rnum. reflexivity. }
    assert (E2 : set_udl_one (RefUdl 1) y1 =
      (Ok tt, (fst yard, set_s_search [] (set_s_planes [demo_plane] (demo_sl [0%nat] [2%nat; 1%nat] [] UmUnset None None))))).
    { cbn [set_udl_one]. erewrite bind_ok; [|reflexivity]. cbn. unR. rnum. cbn [mwhen].
      msteps. unfold udl_min_length. cbn. unR. rnum. reflexivity. }
    unfold set_udls. cbn [mforM]. rewrite bind_assoc. erewrite bind_ok by exact E1.
    rewrite bind_assoc. erewrite bind_ok by exact E2.
    rewrite bind_ret. erewrite bind_ok by apply update_udl_coordinates_eff.
    rewrite bind_get. cbn. unR. rnum. msteps. reflexivity.
  Qed.
End Case.
Example C101_order_case : forall EN : Env,
  reachable in_two /\ reachable in_turn /\ settings in_turn = settings in_two /\ same_soil in_two in_turn /\
  searched in_turn = searched in_two /\ reordered in_two in_turn /\
  map strip_data (udls_of in_turn) <> map strip_data (udls_of in_two) /\
  map given (s_planes (snd in_turn)) = [given demo_plane] /\
  map given (s_planes (snd in_two)) = [given demo_plane].
Proof.
  intros EN. split; [apply in_two_reachable|].
  split; [eapply accepted_reachable; [apply yard_reachable|]; econstructor; [apply in_turn_exec|constructor]|].
  split; [reflexivity|]. split; [apply same_soil_refl; reflexivity|]. split; [reflexivity|].
  split; [split; [apply perm_swap|apply perm_nil]|]. split; [|split; reflexivity].
  cbn. intros Q. injection Q as Q _. lra.
Qed.
(** Any circle added to the one of the demo, and the same one once more *)
Example C101_add_case : forall EN : Env,
  exists v a f, reachable demo5 /\ view_of demo5 = Ok v /\ s_planes (snd demo5) <> [] /\
    exec (Analyse None) demo5 = (Ok tt, a) /\ get_min_FOS (snd a) = Ok (Some f) /\
    (forall cx cy r, exists s1, exec (AddCircle cx cy r) demo5 = (Ok tt, s1)) /\
    exists s1, exec (AddCircle 12 (29 / 2) (15 / 2)) demo5 = (Ok tt, s1) /\
      s_planes (snd s1) = [demo_plane; demo_plane] /\ bishop v 12 (29 / 2) (15 / 2) = Ok (Some f).
Proof.
  intros EN. destruct (demo5_analysed None) as (f & a & P & E & G). specialize (G I).
  destruct (search_spec None demo5 a E) as (v & cs & Ev & A & _).
  assert (cs = [demo_plane]) by (destruct A as [(Q & _)|(_ & Q)]; [discriminate Q|exact Q]). subst cs.
  exists v, a, f. split; [apply demo5_reachable|]. split; [exact Ev|]. split; [discriminate|].
  split; [exact E|]. split; [exact G|]. split.
  - intros cx cy r. cbn [exec]. unfold add_single_circular_plane. rewrite bind_self_get, bind_lift.
    change (s_geom (snd demo5)) with demo_geom.
    destruct (circle_external_spec demo_geom demo_good cx cy r) as (l & -> & _).
    destruct (first_two l) as [[x y]|]; eexists; [|reflexivity].
    rewrite bind_self_get, bind_self_upd, reset_eff. reflexivity.
  - eexists. split; [|split].
    + cbn [exec]. unfold add_single_circular_plane. rewrite bind_self_get, bind_lift.
      change (s_geom (snd demo5)) with demo_geom.
      destruct (circle_external_spec demo_geom demo_good 12 (29 / 2) (15 / 2)) as (l & E1 & C). rewrite E1.
      destruct (first_two_spec _ _ _ _ _ C) as [(x & y & F & EP)|(_ & L)].
      2:{ exfalso. eapply end_points_two; [apply demo_ends|exact C|exact L]. }
      destruct (end_points_det _ _ _ _ _ _ _ _ demo_ends EP) as (-> & ->). rewrite F.
      rewrite bind_self_get, bind_self_upd, reset_eff. reflexivity.
    + reflexivity.
    + destruct (min_spec None demo5 a E) as (v' & cs & Ev' & A' & D). assert (v' = v) by congruence. subst v'.
      assert (cs = [demo_plane]) by (destruct A' as [(Q & _)|(_ & Q)]; [discriminate Q|exact Q]). subst cs.
      destruct D as [(D & _)|(c & g & D & [<-|[]] & F & _)]; [congruence|]. assert (g = f) by congruence. subst g. exact F.
Qed.
