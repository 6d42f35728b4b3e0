(** * PropsSplit: the same soil and the same load in other pieces (C96). *)
From Coq Require Import ZArith Reals Lra Lia List Bool String.
From Verif Require Import Num Py Validation Utilities Objects Slope Planes Analysis
     Dynamic Api RealNum RealFacts MonadFacts History EditFacts LoadFacts Spec FloatNum FloatWitness FloatMore FloatFos
     Demo DemoCircle CircleFacts SliceFacts ViewFacts SearchFacts FosFacts FosMore FosTotal WetFacts ShareFacts
     Surcharge SurchargeDemo SplitFacts SplitDemo FloatSplit.
Import ListNotations.
Local Open Scope R_scope.

(** The full claim: the results depend only on which soil lies where and which load stands
    where, not on the pieces they are entered in.  It holds for every circle, for the circles
    given by the user, and for the automatic search when only the layers are cut up.  It is
    false for the automatic search when a load is cut up (C96_automatic_refuted): the left
    end of every strip is one of the entry points.
    [same_soil s s']: at every level both have a soil of the same unit weight, friction angle
    and cohesion.  [same_load s s']: over every stretch of the crest the strips of both give
    the same force, and so do the lines.  [settings]: ground, water, number of slices, tolerance and number of turns. *)

(** Every circle has the same factor *)
Theorem C96_circle_partial : forall (EN : Env) (s s' : st R) v v', reachable s -> reachable s' ->
  view_of s = Ok v -> view_of s' = Ok v' -> settings s' = settings s -> same_soil s s' -> same_load s s' ->
  (forall cx cy r, bishop v' cx cy r = bishop v cx cy r) /\
  (forall cx cy r a b, end_points (v_geom v) cx cy r a b -> ordinary v' cx cy r a b = ordinary v cx cy r a b) /\
  (forall l, fos_loop v' l = fos_loop v l).
Proof. intros EN. exact split_circle. Qed.
Print Assumptions C96_circle_partial.

(** An analysis of circles given by the user stores the same results *)
Theorem C96_given_partial : forall (EN : Env) (s s' : st R) mx, reachable s -> reachable s' ->
  settings s' = settings s -> same_soil s s' -> same_load s s' ->
  s_planes (snd s) <> [] -> s_planes (snd s') = s_planes (snd s) ->
  fst (exec (Analyse mx) s') = fst (exec (Analyse mx) s) /\
  (forall u, fst (exec (Analyse mx) s) = Ok u ->
     s_search (snd (step s' (Analyse mx))) = s_search (snd (step s (Analyse mx))) /\
     s_planes (snd (step s' (Analyse mx))) = s_planes (snd (step s (Analyse mx)))).
Proof. intros EN. exact split_given. Qed.
Print Assumptions C96_given_partial.

(** The automatic search, when the loads are entered in the same pieces; [searching]: the
    limits, the number of circles, the least distance and the circles given by the user *)
Theorem C96_search_partial : forall (EN : Env) (s s' : st R) mx, reachable s -> reachable s' ->
  settings s' = settings s -> same_soil s s' -> searching s' = searching s ->
  map strip_data (udls_of s') = map strip_data (udls_of s) -> map line_data (lls_of s') = map line_data (lls_of s) ->
  fst (exec (Analyse mx) s') = fst (exec (Analyse mx) s) /\
  (forall u, fst (exec (Analyse mx) s) = Ok u ->
     s_search (snd (step s' (Analyse mx))) = s_search (snd (step s (Analyse mx))) /\
     s_planes (snd (step s' (Analyse mx))) = s_planes (snd (step s (Analyse mx)))).
Proof. intros EN. exact split_search. Qed.
Print Assumptions C96_search_partial.

(** A layer cut in two is the same soil; [piece]: unit weight, friction angle, cohesion and
    the level of the underside *)
Theorem C96_layer : forall (s s' : st R) A d rl1 rl B, rl <= rl1 ->
  map piece (mats_of s) = A ++ (d, Some rl) :: B ->
  map piece (mats_of s') = A ++ (d, Some rl1) :: (d, Some rl) :: B -> same_soil s s'.
Proof. exact layer_split. Qed.
Print Assumptions C96_layer.

(** Strips cut in two along their length or across their pressure, and line loads cut in
    two, are the same load; a strip is (pressure, offset, length), a line (force, offset) *)
Theorem C96_load : forall (s s' : st R) A u us B C q q' o D, s_geom (snd s') = s_geom (snd s) ->
  (map strip_data (udls_of s) = A ++ u :: B /\ strip_pieces u us /\ map strip_data (udls_of s') = A ++ us ++ B /\
   map line_data (lls_of s') = map line_data (lls_of s)) \/
  (map line_data (lls_of s) = C ++ (q + q', o) :: D /\ map line_data (lls_of s') = C ++ (q, o) :: (q', o) :: D /\
   map strip_data (udls_of s') = map strip_data (udls_of s)) -> same_load s s'.
Proof. exact loads_split. Qed.
Print Assumptions C96_load.

Theorem C96_same_soil_refl : forall (s s' : st R), mats_of s' = mats_of s -> same_soil s s'.
Proof. exact same_soil_refl. Qed.
Print Assumptions C96_same_soil_refl.

(** In binary64 the automatic search reports 1.6165 for the strip and 1.5386 for its halves. *)
Theorem C96_automatic_refuted : exists (EN : Env) (s s' : st float),
  reachable s /\ reachable s' /\
  slope_numbers (snd s') = slope_numbers (snd s) /\ s_planes (snd s) = [] /\
  map m_RL (mats_of s') = map m_RL (mats_of s) /\ s_lls (snd s) = [] /\ s_lls (snd s') = [] /\
  (exists q, map (fun u => (u_magnitude u, u_offset u, u_length u)) (udls_of s) = [(q, f_of_Z 1, Some (f_lit 3 2))] /\
     map (fun u => (u_magnitude u, u_offset u, u_length u)) (udls_of s') =
       [(q, f_of_Z 1, Some (f_of_Z 1)); (q, f_of_Z 2, Some (f_lit 1 2))]) /\
  micro_fos s = 1616542%Z /\ micro_fos s' = 1538564%Z.
Proof. exact split_changes_search. Qed.
Print Assumptions C96_automatic_refuted.

(** One soil, drawn as one layer and as two: the automatic search *)
Example C96_soil_case : forall (EN : Env),
  reachable (bank 5 30) /\ reachable drawn /\ settings drawn = settings (bank 5 30) /\
  List.length (mats_of (bank 5 30)) = 1%nat /\ List.length (mats_of drawn) = 2%nat /\
  same_soil (bank 5 30) drawn /\ searching drawn = searching (bank 5 30) /\ s_planes (snd drawn) = [] /\
  map strip_data (udls_of drawn) = map strip_data (udls_of (bank 5 30)) /\
  map line_data (lls_of drawn) = map line_data (lls_of (bank 5 30)).
Proof.
  intros EN. split; [apply bank_reachable; lra|]. split; [apply drawn_reachable|]. do 3 (split; [reflexivity|]).
  split; [|do 3 (split; [reflexivity|]); reflexivity].
  destruct drawn_pieces as (P & Q). eapply layer_split; [|exact P|exact Q]. lra.
Qed.
(** One strip and its two halves; the circle of the demo *)
Example C96_load_case : forall (EN : Env),
  reachable in_one /\ reachable in_two /\ settings in_two = settings in_one /\
  List.length (udls_of in_one) = 1%nat /\ List.length (udls_of in_two) = 2%nat /\
  same_soil in_one in_two /\ same_load in_one in_two /\
  s_planes (snd in_one) = [demo_plane] /\ s_planes (snd in_two) = s_planes (snd in_one).
Proof.
  intros EN. split; [apply in_one_reachable|]. split; [apply in_two_reachable|]. do 3 (split; [reflexivity|]).
  split; [apply same_soil_refl; reflexivity|]. split; [|split; reflexivity].
  destruct in_two_pieces as (us & P). apply (loads_split _ _ [] (20, 0, Some (1 + 1)) us [] [] 0 0 0 []); [reflexivity|].
  left. exact P.
Qed.
