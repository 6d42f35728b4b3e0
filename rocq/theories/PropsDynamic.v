(** * PropsDynamic: the search for the critical offset (C48-C51). *)
From Coq Require Import ZArith Reals Lra Lia List Bool String Permutation Sorted.
From Verif Require Import Num Py Validation Utilities Objects Slope Planes Analysis
     Dynamic Api RealNum RealFacts ListFacts MonadFacts SlopeFacts MaterialFacts
     Invariant History Spec EditFacts LayerFacts LoadFacts FitFacts OptionFacts SearchFacts
     DynFacts DynMore FloatNum FloatWitness Demo.
Import ListNotations.
Local Open Scope R_scope.

(** ** C48 *)
Theorem C48_search : forall c (s : st R) res s',
  analyse_dynamic c s = (res, s') ->
  (endless s /\ res = Err TypeError /\ s' = fresh_table s) \/
  exists far tr st2 s1,
    farthest s (far + 1 / 100) /\ ~ endless s /\
    (List.length tr <= 12)%nat /\ trials (fresh_table s) tr s1 /\
    goes (crit_val c) far Start tr st2 /\
    ( (* returned 0 *)
      (exists f, res = Ok (Some 0%Z) /\ tr = [(0, f)] /\ crit_val c < f /\ s' = s1) \/
      (* returned 1 *)
      (exists f0 f1, res = Ok (Some 1%Z) /\ tr = [(0, f0); (far, f1)] /\ f1 < crit_val c /\ s' = s1) \/
      (* returned None *)
      (res = Ok None /\ (2 < List.length tr)%nat /\
       s' = (fst s1, set_s_dynamic (sort_by snd (s_dynamic (snd s1))) (snd s1)) /\
       exists f0 f1 tr' o f, tr = (0, f0) :: (far, f1) :: tr' ++ [(o, f)] /\
         never (crit_val c) 0 tr' /\
         ((List.length tr < 12)%nat -> stop (crit_val c) (last_factor 0 tr') f)) \/
      (* a trial raised *)
      (exists o e, (List.length tr < 12)%nat /\ next (crit_val c) far st2 o /\
                   never (crit_val c) 0 (skipn 2 tr) /\ try_offset o s1 = (Err e, s') /\ res = Err e) \/
      (* no next offset *)
      (exists l lf r rf, st2 = Br l lf r rf /\ s' = s1 /\ never (crit_val c) 0 (skipn 2 tr) /\
         (l <> r -> rf <= crit_val c <= lf) /\
         ((res = Err ZeroDivisionError /\ (l = r \/ lf = rf)) \/
          (res = Err TypeError /\ l <> r /\ exists t, c = CDecimal t)))).
Proof. exact @dynamic_spec. Qed.
Print Assumptions C48_search.
Theorem C48_offsets : forall c far tr st2,
  goes c far Start tr st2 ->
  Forall (fun of => Rmin 0 far <= fst of <= Rmax 0 far) tr /\
  (forall o, next c far st2 o -> Rmin 0 far <= o <= Rmax 0 far).
Proof. exact dynamic_offsets. Qed.
Print Assumptions C48_offsets.
Theorem C48_between : forall c far l lf r rf o,
  next c far (Br l lf r rf) o -> rf <= c <= lf /\ Rmin l r <= o <= Rmax l r.
Proof. exact next_bracketed. Qed.
Print Assumptions C48_between.
Theorem C48_division : forall c far tr l lf r rf,
  goes c far Start tr (Br l lf r rf) -> (l <> r -> rf <= c <= lf) -> (l = r \/ lf = rf) ->
  far = 0 \/ exists o, In (o, c) tr.
Proof. exact division_cause. Qed.
Print Assumptions C48_division.
Example C48_example :
  goes (3 / 2) 4 Start [(0, 1); (4, 2); (2, 6 / 5); (11 / 4, 8 / 5)] (Br (11 / 4) (8 / 5) 2 (6 / 5)).
Proof.
  assert (D : forall o f x fx, o <> x -> refresh o f x fx = fx).
  { intros o f x fx H. unfold refresh. destruct (Req_EM_T o x); [contradiction|reflexivity]. }
  eapply g_step; [reflexivity|apply af_start|].
  eapply g_step; [split; [lra|reflexivity]|apply af_far|]. rewrite D by lra.
  eapply g_step; [|apply af_low; lra|]; [cbn [next]; ands; lra|]. rewrite D by lra.
  eapply g_step; [|apply af_high; lra|]; [cbn [next]; ands; lra|]. rewrite D by lra.
  constructor.
Qed.

(** a factor far from the critical one after a very different one is no reason to stop; one just
    below it that is rounded up to it is *)
Example C48_stop : never (3 / 2) 0 [(2, 6 / 5); (11 / 4, 8 / 5)] /\ stop (3 / 2) (8 / 5) (14996 / 10000) /\
  ~ stop (3 / 2) (8 / 5) (14994 / 10000).
Proof.
  cbn [never]. unfold stop, rounds_to. split; [|split].
  - split; [|split; [|exact I]]; intros (_ & [A|A] & _); revert A; split_Rabs; lra.
  - split; [lra|]. split; [right; split_Rabs; lra|]. exists 1500%Z. split; [left; split_Rabs; lra|lra].
  - intros (_ & _ & k & K & L). assert (B : (k <= 1499)%Z).
    { apply Z.lt_succ_r, lt_IZR. destruct K as [K|(K & _)]; revert K; split_Rabs; cbn [Z.succ Z.add]; lra. }
    apply IZR_le in B. lra.
Qed.

(** ** C49 *)
Theorem C49_results : forall (EN : Env) c (s : st R) res s',
  reachable s -> analyse_dynamic c s = (res, s') ->
  exists tr n, (n <= 12)%nat /\
    (n = List.length tr \/ (n = S (List.length tr) /\ exists e, res = Err e)) /\
    Forall (fun of => exists si, lists si = lists s /\ statics si = statics s /\
       at_offset (fst of) si /\ analyse_slope None si = (Ok tt, si) /\
       get_min_FOS (snd si) = Ok (Some (snd of))) tr /\
    NoDup (map fst (get_dynamic_results (snd s'))) /\
    (forall o f, In (o, f) (get_dynamic_results (snd s')) <-> last_at o tr = Some f) /\
    (res = Ok None -> StronglySorted (fun a b => snd a <= snd b) (get_dynamic_results (snd s'))).
Proof. exact @dynamic_results. Qed.
Print Assumptions C49_results.
Example C49_example : forall EN : Env, exists s : st R,
  reachable s /\ exists l, In 1%nat (s_lls (snd s)) /\ nth_error (h_lls (fst s)) 1 = Some l /\
                           l_dynamic l = true /\ l_magnitude l = 30.
Proof.
  intros EN.
  set (l0 := MkLload 30 1 (if is_color "blue"%string then "blue"%string else "blue"%string) true None).
  set (o := NewLload (PFloat 30) (PFloat 1) "blue"%string true).
  assert (E1 : exec o demo =
    (Ok tt, (MkHeap (h_materials (fst demo)) (h_udls (fst demo)) (h_lls (fst demo) ++ [l0]),
             snd demo))).
  { cbn [exec o]. unfold alloc.
    assert (N : new_lload (PFloat 30) (PFloat 1) "blue"%string true = Ok l0).
    { apply lload_spec. exists 30, 1. split; [split; cbn; auto|]. split; [split; cbn; auto|].
      unfold l0. now rnum. }
    rewrite N. reflexivity. }
  assert (R1 : reachable (snd (exec o demo))).
  { rewrite E1. eapply accepted_reachable; [apply demo_reachable|].
    econstructor; [exact E1|constructor]. }
  rewrite E1 in R1. cbn [snd] in R1.
  destruct (lls_assigned _ [RefLload 1] R1 ltac:(repeat constructor))
    as (s' & added & E2 & P & L & C & _).
  exists s'. split.
  - eapply accepted_reachable; [exact R1|]. econstructor; [exact E2|constructor].
  - assert (Q : option_map ll_core (nth_error (h_lls (fst s')) 1) = Some (ll_core l0)).
    { rewrite <- nth_error_map, C. reflexivity. }
    destruct (nth_error (h_lls (fst s')) 1) as [w|]; [|discriminate]. exists w.
    cbn in Q. unfold ll_core in Q. injection Q as -> _ _ ->. ands; auto.
    rewrite L. apply in_or_app. right.
    inversion P as [|n u l k Eu Mu Pr|n u l k Eu Mu Pr|r l k N]; subst.
    + now left.
    + cbn in Eu. injection Eu as <-. cbn in Mu. lra.
    + exfalso. now apply (N 1%nat).
Qed.

(** ** C50: false *)
Theorem C50_continuous_refuted : exists (EN : Env) (s : st float),
  reachable s /\ fst (exec (Analyse None) s) = Ok tt /\ (0 < micro_fos s)%Z /\
  fst (exec (AnalyseDynamic (CFloat (f_lit 13 10))) s) = Err TypeError.
Proof. exact dynamic_search_raises. Qed.
Print Assumptions C50_continuous_refuted.
Theorem C50_decimal_refuted : exists (EN : Env) (s : st float),
  reachable s /\ fst (exec (Analyse None) s) = Ok tt /\ (0 < micro_fos s)%Z /\
  fst (exec (AnalyseDynamic (CDecimal (f_lit 16 10))) s) = Err TypeError.
Proof. exact decimal_search_raises. Qed.
Print Assumptions C50_decimal_refuted.
(** All the ways in which the search can raise. *)
Theorem C50_raises_partial : forall c (s : st R) e s',
  analyse_dynamic c s = (Err e, s') ->
  (e = TypeError /\ exists u, In u (udls_of s) /\ u_dynamic u = true /\ u_length u = None) \/
  (exists tr s1 o, trials (fresh_table s) tr s1 /\ try_offset o s1 = (Err e, s')) \/
  (e = ZeroDivisionError /\ exists tr s1 far, trials (fresh_table s) tr s1 /\
     farthest s (far + 1 / 100) /\
     (far = 0 \/ exists o, In (o, crit_val c) tr)) \/
  (e = TypeError /\ exists t, c = CDecimal t).
Proof. exact @dynamic_raises. Qed.
Print Assumptions C50_raises_partial.
(** One trial: move the loads, analyse, take the factor.  A search without any factor is a
    TypeError. *)
Theorem C50_trial : forall (T : Type) (NT : Num T) (EN : Env) (o : T) (s : st T),
  try_offset o s =
  match set_dynamic_offset o s with
  | (Err e, s1) => (Err e, s1)
  | (Ok _, s1) =>
      match exec (Analyse None) s1 with
      | (Err e, s2) => (Err e, s2)
      | (Ok _, s2) =>
          match get_min_FOS (snd s2) with
          | Err e => (Err e, s2)
          | Ok None => (Err TypeError, s2)
          | Ok (Some f) =>
              (Ok f, (fst s2, set_s_dynamic (dict_set o f (s_dynamic (snd s2))) (snd s2)))
          end
      end
  end.
Proof.
  intros T NT EN o s. unfold try_offset, mbind at 1. cbn [exec].
  destruct (set_dynamic_offset o s) as [[?|e] s1]; [|reflexivity]. unfold mbind at 1.
  destruct (analyse_slope None s1) as [[?|e] s2]; [|reflexivity]. unfold mbind at 1.
  destruct (get_min_FOS (snd s2)) as [[f|]|e]; reflexivity.
Qed.
Print Assumptions C50_trial.

(** ** C51 *)
Theorem C51_kept : forall (EN : Env) c (s : st R), reachable s ->
  let s' := snd (analyse_dynamic c s) in
  lists s' = lists s /\ statics s' = statics s /\
  Forall2 (fun u u' => u_magnitude u' = u_magnitude u /\ u_length u' = u_length u /\
             u_color u' = u_color u /\ u_dynamic u' = u_dynamic u /\
             (u_dynamic u = false -> u_offset u' = u_offset u))
          (h_udls (fst s)) (h_udls (fst s')) /\
  Forall2 (fun l l' => l_magnitude l' = l_magnitude l /\ l_color l' = l_color l /\
             l_dynamic l' = l_dynamic l /\ (l_dynamic l = false -> l_offset l' = l_offset l))
          (h_lls (fst s)) (h_lls (fst s')).
Proof. exact @dynamic_kept. Qed.
Print Assumptions C51_kept.
Example C51_example : forall EN : Env, reachable demo /\ lists demo = ([0%nat], [0%nat]).
Proof. intros EN. split; [apply demo_reachable|reflexivity]. Qed.
