(** * LoadFacts: surface loads (C18, C19, C20). *)
From Coq Require Import ZArith Reals Lra Lia List Bool String Permutation Sorted.
From Verif Require Import Num Py Validation Utilities Objects Slope Planes Analysis
     Dynamic Api RealNum RealFacts ListFacts MonadFacts SlopeFacts MaterialFacts KeepFacts
     Invariant History Spec EditFacts LayerFacts.
Import ListNotations.

(** What the user gave for a load; the coordinates are left out. *)
Definition udl_core {T} (u : udl T) : T * T * option T * string * bool :=
  (u_magnitude u, u_offset u, u_length u, u_color u, u_dynamic u).
Definition ll_core {T} (l : lload T) : T * T * string * bool :=
  (l_magnitude l, l_offset l, l_color l, l_dynamic l).

Lemma map_upd_nth {A B} (c : A -> B) n f l :
  (forall a, c (f a) = c a) -> map c (upd_nth n f l) = map c l.
Proof.
  intros H. revert n. induction l as [|a l IH]; intros [|n]; cbn; auto; now rewrite ?H, ?IH.
Qed.

Section Frame.
  Context {T : Type} {NT : Num T} {EN : Env}.

  Definition loads (s : st T) :=
    (s_udls (snd s), map udl_core (h_udls (fst s)), s_lls (snd s), map ll_core (h_lls (fst s)),
     (s_materials (snd s), h_materials (fst s))).

  Lemma loads_udl_xy n (a b : udl T -> T) :
    keeps (same loads) (upd_udl n (fun u => set_udl_xy (a u) (b u) u)).
  Proof. intros s. unfold same, loads. cbn. now rewrite map_upd_nth. Qed.
  Lemma loads_ll_coord n (a : lload T -> T) :
    keeps (same loads) (upd_ll n (fun u => set_ll_coord (a u) u)).
  Proof. intros s. unfold same, loads. cbn. now rewrite map_upd_nth. Qed.
  Hint Resolve loads_udl_xy loads_ll_coord : keeps.

  Lemma loads_udl_coordinates : keeps (same loads) update_udl_coordinates.
  Proof.
    unfold update_udl_coordinates. untouched.
  Qed.
  Lemma loads_ll_coordinates : keeps (same loads) update_ll_coordinates.
  Proof.
    unfold update_ll_coordinates. untouched.
  Qed.
  Hint Resolve loads_udl_coordinates loads_ll_coordinates : keeps.
  Lemma loads_set_limits a b c d : keeps (same loads) (set_analysis_limits a b c d).
  Proof. unfold set_analysis_limits. untouched. Qed.
  Hint Resolve loads_set_limits : keeps.
  Lemma loads_remove_limits : keeps (same loads) remove_analysis_limits.
  Proof. unfold remove_analysis_limits. untouched. Qed.
  Hint Resolve loads_remove_limits : keeps.
  Lemma loads_set_boundary h a l : keeps (same loads) (set_external_boundary h a l).
  Proof. unfold set_external_boundary. untouched. Qed.
  Hint Resolve loads_set_boundary : keeps.
  Lemma loads_boundary_options l h : keeps (same loads) (update_boundary_options l h).
  Proof. unfold update_boundary_options. untouched. Qed.

  (** The loads a call adds: objects of that kind with a positive magnitude. *)
  Definition new_udls (h : list (udl T)) (l : list objref) : list nat :=
    flat_map (fun r => match r with
      | RefUdl n => match nth_error h n with
                    | Some u => if nltb (nz 0) (u_magnitude u) then [n] else []
                    | None => [] end
      | _ => [] end) l.
  Definition new_lls (h : list (lload T)) (l : list objref) : list nat :=
    flat_map (fun r => match r with
      | RefLload n => match nth_error h n with
                    | Some u => if nltb (nz 0) (l_magnitude u) then [n] else []
                    | None => [] end
      | _ => [] end) l.
  Lemma new_udls_core h h' l : map udl_core h' = map udl_core h -> new_udls h' l = new_udls h l.
  Proof.
    intros E. unfold new_udls. apply flat_map_ext. intros [n|n|n|]; auto.
    assert (Q : option_map udl_core (nth_error h' n) = option_map udl_core (nth_error h n))
      by (rewrite <- !nth_error_map; now rewrite E).
    destruct (nth_error h' n), (nth_error h n); cbn in Q; try discriminate; auto.
    unfold udl_core in Q. injection Q as Q _ _ _ _. now rewrite Q.
  Qed.
  Lemma new_lls_core h h' l : map ll_core h' = map ll_core h -> new_lls h' l = new_lls h l.
  Proof.
    intros E. unfold new_lls. apply flat_map_ext. intros [n|n|n|]; auto.
    assert (Q : option_map ll_core (nth_error h' n) = option_map ll_core (nth_error h n))
      by (rewrite <- !nth_error_map; now rewrite E).
    destruct (nth_error h' n), (nth_error h n); cbn in Q; try discriminate; auto.
    unfold ll_core in Q. injection Q as Q _ _ _. now rewrite Q.
  Qed.

  Definition with_udls (s : st T) (more : list nat) :=
    (s_udls (snd s) ++ more, map udl_core (h_udls (fst s)), s_lls (snd s),
     map ll_core (h_lls (fst s)), (s_materials (snd s), h_materials (fst s))).
  Definition with_lls (s : st T) (more : list nat) :=
    (s_udls (snd s), map udl_core (h_udls (fst s)), s_lls (snd s) ++ more,
     map ll_core (h_lls (fst s)), (s_materials (snd s), h_materials (fst s))).

  Lemma keeps_at {A} (m : M (st T) A) s :
    keeps (same loads) m -> loads (snd (m s)) = loads s.
  Proof. intros K. apply K. Qed.

  Lemma set_udl_one_loads r s s' :
    set_udl_one r s = (Ok tt, s') -> loads s' = with_udls s (new_udls (h_udls (fst s)) [r]).
  Proof.
    unfold with_udls, new_udls. cbn [flat_map]. rewrite app_nil_r.
    destruct r as [n|n|n|]; cbn [set_udl_one];
      try (intros Q; injection Q as <-; now rewrite app_nil_r).
    unfold mbind at 1. unfold get_udl, deref.
    destruct (nth_error (h_udls (fst s)) n) as [u|]; [|discriminate].
    destruct (nltb (nz 0) (u_magnitude u)); cbn [mwhen];
      [|intros Q; injection Q as <-; now rewrite app_nil_r].
    rewrite bind_self_get, bind_self_upd, bind_self_get. cbn [snd fst].
    destruct (nltb _ _); cbn [mwhen]; [|intros Q; now injection Q as <-].
    intros Q. pose proof (keeps_at _ (fst s, set_s_udls (s_udls (snd s) ++ [n]) (snd s))
      (loads_boundary_options (PFloat (udl_min_length u)) PNone)) as K.
    rewrite Q in K. cbn [snd] in K. rewrite K. reflexivity.
  Qed.
  Lemma set_ll_one_loads r s s' :
    set_ll_one r s = (Ok tt, s') -> loads s' = with_lls s (new_lls (h_lls (fst s)) [r]).
  Proof.
    unfold with_lls, new_lls. cbn [flat_map]. rewrite app_nil_r.
    destruct r as [n|n|n|]; cbn [set_ll_one];
      try (intros Q; injection Q as <-; now rewrite app_nil_r).
    unfold mbind at 1. unfold get_ll, deref.
    destruct (nth_error (h_lls (fst s)) n) as [u|]; [|discriminate].
    destruct (nltb (nz 0) (l_magnitude u)); cbn [mwhen];
      [|intros Q; injection Q as <-; now rewrite app_nil_r].
    rewrite bind_self_get, bind_self_upd, bind_self_get. cbn [snd fst].
    destruct (nltb _ _); cbn [mwhen]; [|intros Q; now injection Q as <-].
    intros Q. pose proof (keeps_at _ (fst s, set_s_lls (s_lls (snd s) ++ [n]) (snd s))
      (loads_boundary_options (PFloat (nmul (l_offset u) (nz 3))) PNone)) as K.
    rewrite Q in K. cbn [snd] in K. rewrite K. reflexivity.
  Qed.
  Lemma set_udl_loop_loads l : forall s s',
    mforM l set_udl_one s = (Ok tt, s') -> loads s' = with_udls s (new_udls (h_udls (fst s)) l).
  Proof.
    induction l as [|r l IH]; cbn [mforM]; intros s s'.
    - intros Q; injection Q as <-. unfold with_udls; cbn. now rewrite app_nil_r.
    - unfold mbind. destruct (set_udl_one r s) as [[[]|e] s1] eqn:E1; [|discriminate].
      intros E2. apply IH in E2. apply set_udl_one_loads in E1. rewrite E2.
      unfold loads, with_udls in *. injection E1 as -> H2 -> -> -> ->.
      rewrite (new_udls_core (h_udls (fst s)) _ l H2), H2, <- app_assoc.
      unfold new_udls. cbn [flat_map]. now rewrite app_nil_r.
  Qed.
  Lemma set_ll_loop_loads l : forall s s',
    mforM l set_ll_one s = (Ok tt, s') -> loads s' = with_lls s (new_lls (h_lls (fst s)) l).
  Proof.
    induction l as [|r l IH]; cbn [mforM]; intros s s'.
    - intros Q; injection Q as <-. unfold with_lls; cbn. now rewrite app_nil_r.
    - unfold mbind. destruct (set_ll_one r s) as [[[]|e] s1] eqn:E1; [|discriminate].
      intros E2. apply IH in E2. apply set_ll_one_loads in E1. rewrite E2.
      unfold loads, with_lls in *. injection E1 as -> -> -> H2 -> ->.
      rewrite (new_lls_core (h_lls (fst s)) _ l H2), H2, <- app_assoc.
      unfold new_lls. cbn [flat_map]. now rewrite app_nil_r.
  Qed.
  Lemma set_udls_loads l s s' :
    set_udls l s = (Ok tt, s') -> loads s' = with_udls s (new_udls (h_udls (fst s)) l).
  Proof.
    unfold set_udls. unfold mbind at 1.
    destruct (mforM l set_udl_one s) as [[[]|e] s1] eqn:E1; [|discriminate].
    apply set_udl_loop_loads in E1. rewrite <- E1. intros E2.
    match type of E2 with ?m s1 = _ =>
      assert (K : keeps (same loads) m) by untouched; specialize (K s1); rewrite E2 in K end.
    exact K.
  Qed.
  Lemma set_lls_loads l s s' :
    set_lls l s = (Ok tt, s') -> loads s' = with_lls s (new_lls (h_lls (fst s)) l).
  Proof.
    unfold set_lls. unfold mbind at 1.
    destruct (mforM l set_ll_one s) as [[[]|e] s1] eqn:E1; [|discriminate].
    apply set_ll_loop_loads in E1. rewrite <- E1. intros E2.
    match type of E2 with ?m s1 = _ =>
      assert (K : keeps (same loads) m) by untouched; specialize (K s1); rewrite E2 in K end.
    exact K.
  Qed.
End Frame.

Local Open Scope R_scope.

(** ** C20 *)
(** [picks_udls h args locs]: [locs] are the UDLs among [args] whose magnitude is
    positive, in order; anything else is passed over. *)
Inductive picks_udls (h : list (udl R)) : list objref -> list nat -> Prop :=
| pu_nil : picks_udls h [] []
| pu_take n u l k : nth_error h n = Some u -> 0 < u_magnitude u ->
    picks_udls h l k -> picks_udls h (RefUdl n :: l) (n :: k)
| pu_zero n u l k : nth_error h n = Some u -> u_magnitude u = 0 ->
    picks_udls h l k -> picks_udls h (RefUdl n :: l) k
| pu_other r l k : (forall n, r <> RefUdl n) -> picks_udls h l k -> picks_udls h (r :: l) k.
Inductive picks_lls (h : list (lload R)) : list objref -> list nat -> Prop :=
| pl_nil : picks_lls h [] []
| pl_take n u l k : nth_error h n = Some u -> 0 < l_magnitude u ->
    picks_lls h l k -> picks_lls h (RefLload n :: l) (n :: k)
| pl_zero n u l k : nth_error h n = Some u -> l_magnitude u = 0 ->
    picks_lls h l k -> picks_lls h (RefLload n :: l) k
| pl_other r l k : (forall n, r <> RefLload n) -> picks_lls h l k -> picks_lls h (r :: l) k.

Lemma new_udls_picks h l :
  Forall udl_ok h -> Forall (fun r => match r with RefUdl n => (n < List.length h)%nat | _ => True end) l ->
  picks_udls h l (new_udls h l).
Proof.
  intros F. induction 1 as [|r l Hr Hl IH]; [constructor|].
  unfold new_udls in *. cbn [flat_map].
  destruct r as [n|n|n|]; try (apply pu_other; [discriminate|exact IH]).
  destruct (nth_error_lt_Some _ _ Hr) as [u Eu]. rewrite Eu.
  pose proof (proj1 (Forall_forall _ _) F u (nth_error_In _ _ Eu)) as [P _].
  unR. destruct (Rltb 0 (u_magnitude u)) eqn:E; rbool; cbn [app].
  - eapply pu_take; eauto.
  - eapply pu_zero; eauto. lra.
Qed.
Lemma new_lls_picks h l :
  Forall ll_ok h -> Forall (fun r => match r with RefLload n => (n < List.length h)%nat | _ => True end) l ->
  picks_lls h l (new_lls h l).
Proof.
  intros F. induction 1 as [|r l Hr Hl IH]; [constructor|].
  unfold new_lls in *. cbn [flat_map].
  destruct r as [n|n|n|]; try (apply pl_other; [discriminate|exact IH]).
  destruct (nth_error_lt_Some _ _ Hr) as [u Eu]. rewrite Eu.
  pose proof (proj1 (Forall_forall _ _) F u (nth_error_In _ _ Eu)) as P. unfold ll_ok in P.
  unR. destruct (Rltb 0 (l_magnitude u)) eqn:E; rbool; cbn [app].
  - eapply pl_take; eauto.
  - eapply pl_zero; eauto. lra.
Qed.

Lemma max_list_spec l : forall x : R,
  In (max_list x l) (x :: l) /\ Forall (fun y => y <= max_list x l) (x :: l).
Proof.
  unfold max_list. induction l as [|y l IH]; intros x; cbn [fold_left].
  - split; [now left|]. constructor; [lra|constructor].
  - rewrite pymax_R. destruct (IH (Rmax x y)) as [I F]. inversion F as [|? ? F1 F2]; subst. split.
    + destruct I as [I|I]; [|right; now right]. rewrite <- I.
      unfold Rmax. destruct (Rle_dec x y); [right; now left | now left].
    + pose proof (Rmax_l x y). pose proof (Rmax_r x y).
      constructor; [lra|]. constructor; [lra|]. exact F2.
Qed.

Section Loads.
  Context {EN : Env}.
  Notation stR := (st R).

  Lemma udls_max_eff l (s s' : stR) : set_udls l s = (Ok tt, s') ->
    udls_of s' <> [] ->
    exists m, s_udl_max (snd s') = UmNum m /\ In m (map u_magnitude (udls_of s')) /\
              Forall (fun u => u_magnitude u <= m) (udls_of s').
  Proof.
    unfold set_udls. unfold mbind at 1.
    destruct (mforM l set_udl_one s) as [[[]|e] s1]; [|discriminate].
    unfold mbind at 1. destruct (update_udl_coordinates s1) as [[[]|e] s2]; [|discriminate].
    rewrite bind_get. destruct (map u_magnitude (udls_of s2)) as [|x xs] eqn:E.
    - rewrite bind_ret, reset_eff. intros Q; injection Q as <-.
      change (udls_of (fst s2, set_s_search [] (snd s2))) with (udls_of s2).
      destruct (udls_of s2); [congruence|discriminate].
    - rewrite bind_self_upd, reset_eff. intros Q; injection Q as <-.
      change (udls_of _) with (udls_of s2). intros _.
      exists (max_list x xs). split; [reflexivity|]. rewrite E.
      destruct (max_list_spec xs x) as [I F]. split; auto.
      rewrite <- E in F. now apply Forall_map in F.
  Qed.

  Lemma udls_assigned (s : stR) l :
    reachable s -> Forall (fun r => ref_exists (fst s) r = true) l ->
    exists s' added, exec (SetUdls l) s = (Ok tt, s') /\
      picks_udls (h_udls (fst s)) l added /\
      s_udls (snd s') = s_udls (snd s) ++ added /\
      map udl_core (h_udls (fst s')) = map udl_core (h_udls (fst s)) /\
      s_lls (snd s') = s_lls (snd s) /\ s_materials (snd s') = s_materials (snd s) /\
      (udls_of s' <> [] ->
       exists m, s_udl_max (snd s') = UmNum m /\ In m (map u_magnitude (udls_of s')) /\
                 Forall (fun u => u_magnitude u <= m) (udls_of s')).
  Proof.
    intros Hr F. apply reachable_inv in Hr as (C & U & L).
    destruct (inv_set_udls l s C L F) as (s' & E & I & _).
    exists s', (new_udls (h_udls (fst s)) l). cbn [exec]. rewrite with_refs_intro by exact F.
    split; auto. split.
    - apply new_udls_picks; [apply (c_udls _ C)|].
      eapply Forall_impl; [|exact F]. intros [n|n|n|]; cbn; auto. apply Nat.ltb_lt.
    - pose proof (set_udls_loads l s s' E) as Q. unfold loads, with_udls in Q.
      injection Q as H1 H2 H3 H4 H5 H6. split; auto. split; auto. split; auto. split; auto.
      now apply (udls_max_eff l s).
  Qed.
  Lemma lls_assigned (s : stR) l :
    reachable s -> Forall (fun r => ref_exists (fst s) r = true) l ->
    exists s' added, exec (SetLls l) s = (Ok tt, s') /\
      picks_lls (h_lls (fst s)) l added /\
      s_lls (snd s') = s_lls (snd s) ++ added /\
      map ll_core (h_lls (fst s')) = map ll_core (h_lls (fst s)) /\
      s_udls (snd s') = s_udls (snd s) /\ s_materials (snd s') = s_materials (snd s).
  Proof.
    intros Hr F. apply reachable_inv in Hr as (C & U & L).
    destruct (inv_set_lls l s C U F) as (s' & E & I & _).
    exists s', (new_lls (h_lls (fst s)) l). cbn [exec]. rewrite with_refs_intro by exact F.
    split; auto. split.
    - apply new_lls_picks; [apply (c_lls _ C)|].
      eapply Forall_impl; [|exact F]. intros [n|n|n|]; cbn; auto. apply Nat.ltb_lt.
    - pose proof (set_lls_loads l s s' E) as Q. unfold loads, with_lls in Q.
      injection Q as H1 H2 H3 H4 H5 H6. auto.
  Qed.
End Loads.

(** ** C19 *)
Lemma remove_first_app_skip {A} (p : A -> bool) pre l :
  Forall (fun x => p x = false) pre -> remove_first p (pre ++ l) = pre ++ remove_first p l.
Proof. induction 1 as [|x l' Hx Hl IH]; cbn; auto. now rewrite Hx, IH. Qed.
Lemma remove_first_others {A} (m p : A -> bool) l :
  (forall y, p y = true -> m y = true) ->
  filter (fun y => negb (m y)) (remove_first p l) = filter (fun y => negb (m y)) l.
Proof.
  intros H. induction l as [|y l IH]; cbn; auto.
  destruct (p y) eqn:E; [now rewrite (H y E)|]. cbn. now rewrite IH.
Qed.

Section Removal.
  Context (m : nat -> bool) (eqb : nat -> nat -> bool).
  (** what [list.remove] finds equal to a matching load matches too *)
  Context (close : forall x y, m x = true -> eqb x y = true -> m y = true).
  Context (self : forall x, eqb x x = true).

  Lemma rwi_others fuel : forall i l,
    filter (fun y => negb (m y)) (remove_while_iterating m eqb fuel i l) =
    filter (fun y => negb (m y)) l.
  Proof.
    induction fuel as [|f IH]; intros i l; cbn; auto.
    destruct (nth_error l i) as [x|]; auto. rewrite IH.
    destruct (m x) eqn:E; auto. apply remove_first_others. intros y. now apply close.
  Qed.

  (** no two neighbours both match *)
  Fixpoint spaced (l : list nat) : Prop :=
    match l with
    | x :: (y :: _) as l' => (m x = true -> m y = false) /\ spaced l'
    | _ => True
    end.
  Lemma rwi_spaced fuel : forall pre l,
    Forall (fun x => m x = false) pre -> spaced l -> (List.length l <= fuel)%nat ->
    remove_while_iterating m eqb fuel (List.length pre) (pre ++ l) =
    pre ++ filter (fun y => negb (m y)) l.
  Proof.
    induction fuel as [|f IH]; intros pre l Hp Hs Hl.
    - destruct l; [cbn; now rewrite app_nil_r|cbn in Hl; lia].
    - cbn [remove_while_iterating]. destruct l as [|x l].
      + cbn [filter]. rewrite app_nil_r.
        rewrite (proj2 (nth_error_None pre (List.length pre))); [reflexivity|lia].
      + rewrite nth_error_app2 by lia. rewrite Nat.sub_diag. cbn [nth_error filter].
        assert (Hsl : spaced l) by (destruct l; [exact I|apply Hs]).
        destruct (m x) eqn:E; cbn [negb].
        * rewrite remove_first_app_skip; cbn [remove_first].
          2:{ eapply Forall_impl; [|exact Hp]. cbn. intros y Hy.
              destruct (eqb x y) eqn:Q; auto. rewrite (close x y E Q) in Hy. discriminate. }
          rewrite self. destruct l as [|y l].
          { cbn [filter]. rewrite app_nil_r. destruct f; cbn [remove_while_iterating]; [reflexivity|].
            rewrite (proj2 (nth_error_None pre (S (List.length pre)))); [reflexivity|lia]. }
          destruct Hs as [Hy Hs2]. specialize (Hy E). cbn [filter]. rewrite Hy. cbn [negb].
          replace (S (List.length pre)) with (List.length (pre ++ [y]))
            by (rewrite app_length; cbn; lia).
          replace (pre ++ y :: l) with ((pre ++ [y]) ++ l) by (now rewrite <- app_assoc).
          rewrite IH; [now rewrite <- app_assoc| | |cbn in Hl |- *; lia].
          -- apply Forall_app; auto.
          -- destruct l; [exact I|apply Hs2].
        * replace (S (List.length pre)) with (List.length (pre ++ [x]))
            by (rewrite app_length; cbn; lia).
          replace (pre ++ x :: l) with ((pre ++ [x]) ++ l) by (now rewrite <- app_assoc).
          rewrite IH; [now rewrite <- app_assoc| |exact Hsl|cbn in Hl |- *; lia].
          apply Forall_app; auto.
  Qed.
End Removal.

(** the values the removal compares *)
Definition same_udl (u c : udl R) : Prop :=
  u_offset c = u_offset u /\ u_magnitude c = u_magnitude u /\ u_length c = u_length u.
Definition same_ll (u c : lload R) : Prop :=
  l_offset c = l_offset u /\ l_magnitude c = l_magnitude u.

Lemma opt_eqb_R a b : @opt_eqb R RNum a b = true <-> a = b.
Proof.
  destruct a as [a|], b as [b|]; cbn; unR; try (split; congruence).
  rewrite Reqb_true. split; congruence.
Qed.
Lemma udl_matches_spec u h n c : nth_error h n = Some c ->
  (@udl_matches R RNum u h n = true <-> same_udl u c).
Proof.
  intros E. unfold udl_matches, same_udl. rewrite E. unR.
  rewrite !andb_true_iff, !Reqb_true, opt_eqb_R. tauto.
Qed.
Lemma ll_matches_spec u h n c : nth_error h n = Some c ->
  (@ll_matches R RNum u h n = true <-> same_ll u c).
Proof.
  intros E. unfold ll_matches, same_ll. rewrite E. unR.
  rewrite !andb_true_iff, !Reqb_true. tauto.
Qed.
Lemma udl_close u h x y :
  @udl_matches R RNum u h x = true -> same_obj (@udl_eqb R RNum) h x y = true ->
  @udl_matches R RNum u h y = true.
Proof.
  unfold same_obj, udl_matches, udl_eqb. rewrite orb_true_iff, Nat.eqb_eq.
  intros M [<-|H]; auto. destruct (nth_error h x) as [a|]; [|discriminate].
  destruct (nth_error h y) as [b|]; [|discriminate]. unR.
  rewrite !andb_true_iff, !Reqb_true, !opt_eqb_R in *.
  destruct H as [[[[<- <-] <-] _] _]. exact M.
Qed.
Lemma ll_close u h x y :
  @ll_matches R RNum u h x = true -> same_obj (@lload_eqb R RNum) h x y = true ->
  @ll_matches R RNum u h y = true.
Proof.
  unfold same_obj, ll_matches, lload_eqb. rewrite orb_true_iff, Nat.eqb_eq.
  intros M [<-|H]; auto. destruct (nth_error h x) as [a|]; [|discriminate].
  destruct (nth_error h y) as [b|]; [|discriminate]. unR.
  rewrite !andb_true_iff, !Reqb_true in *. destruct H as [[[<- <-] _] _]. exact M.
Qed.
Lemma same_obj_refl {A} (e : A -> A -> bool) h x : same_obj e h x x = true.
Proof. unfold same_obj. now rewrite Nat.eqb_refl. Qed.

(** [drops P l l']: [l'] is [l] without the elements for which [P] holds. *)
Inductive drops {A} (P : A -> Prop) : list A -> list A -> Prop :=
| drops_nil : drops P [] []
| drops_drop x l l' : P x -> drops P l l' -> drops P (x :: l) l'
| drops_keep x l l' : ~ P x -> drops P l l' -> drops P (x :: l) (x :: l').

Section Remove.
  Context {EN : Env}.
  Notation stR := (st R).

  Lemma remove_udls_one n u (s : stR) :
    nth_error (h_udls (fst s)) n = Some u ->
    exists s', remove_udls [n] false s = (Ok tt, s') /\ fst s' = fst s /\
      s_udls (snd s') = remove_while_iterating (udl_matches u (h_udls (fst s)))
        (same_obj udl_eqb (h_udls (fst s))) (List.length (s_udls (snd s))) 0 (s_udls (snd s)) /\
      s_lls (snd s') = s_lls (snd s) /\ s_materials (snd s') = s_materials (snd s) /\
      s_geom (snd s') = s_geom (snd s).
  Proof.
    intros E. unfold remove_udls. cbn [mforM]. rewrite !bind_assoc.
    erewrite bind_ok by (unfold get_udl, deref; rewrite E; reflexivity).
    msteps. cbn [s_udls].
    set (l' := remove_while_iterating _ _ _ _ _).
    cbn [set_s_udls s_udls].
    destruct l' as [|x l']; msteps; rewrite reset_eff; eexists;
      (split; [reflexivity|]); cbn; auto.
  Qed.
  Lemma remove_lls_one n u (s : stR) :
    nth_error (h_lls (fst s)) n = Some u ->
    exists s', remove_lls [n] false s = (Ok tt, s') /\ fst s' = fst s /\
      s_lls (snd s') = remove_while_iterating (ll_matches u (h_lls (fst s)))
        (same_obj lload_eqb (h_lls (fst s))) (List.length (s_lls (snd s))) 0 (s_lls (snd s)) /\
      s_udls (snd s') = s_udls (snd s) /\ s_materials (snd s') = s_materials (snd s) /\
      s_geom (snd s') = s_geom (snd s).
  Proof.
    intros E. unfold remove_lls. cbn [mforM]. rewrite !bind_assoc.
    erewrite bind_ok by (unfold get_ll, deref; rewrite E; reflexivity).
    msteps. rewrite reset_eff. eexists; (split; [reflexivity|]); cbn; auto.
  Qed.

  Lemma filter_drops {A} (h : list A) (P : A -> Prop) (f : nat -> bool) locs :
    (forall n, In n locs -> exists a, nth_error h n = Some a /\ (f n = true <-> P a)) ->
    drops P (derefs h locs) (derefs h (filter (fun n => negb (f n)) locs)).
  Proof.
    induction locs as [|n locs IH]; intros H; [constructor|].
    destruct (H n) as (a & E & Q); [now left|].
    assert (IH' := IH (fun k Hk => H k (or_intror Hk))).
    rewrite (derefs_cons h n locs a E). cbn [filter].
    destruct (f n); cbn [negb].
    - constructor 2; [now apply Q|exact IH'].
    - rewrite (derefs_cons h n _ a E). constructor 3; [|exact IH'].
      intros Pa. apply Q in Pa. discriminate.
  Qed.

  (** Two loads of the list with the values [u] never stand next to each other. *)
  Definition not_adjacent {A} (P : A -> Prop) (l : list A) : Prop :=
    forall a x y b, l = a ++ x :: y :: b -> P x -> ~ P y.

  Lemma spaced_of {A} (h : list A) (P : A -> Prop) (f : nat -> bool) locs :
    (forall n, In n locs -> exists a, nth_error h n = Some a /\ (f n = true <-> P a)) ->
    not_adjacent P (derefs h locs) -> spaced f locs.
  Proof.
    induction locs as [|n locs IH]; intros H N; [exact I|].
    destruct locs as [|k locs]; [exact I|].
    destruct (H n) as (a & E & Q); [now left|].
    destruct (H k) as (b & E' & Q'); [right; now left|].
    rewrite (derefs_cons h n _ a E), (derefs_cons h k _ b E') in N.
    split.
    - intros F. destruct (f k) eqn:Fk; auto. exfalso.
      apply (N [] a b (derefs h locs) eq_refl); tauto.
    - apply IH; [intros j Hj; apply H; now right|].
      rewrite (derefs_cons h k _ b E').
      intros a' x y b' Eq. apply (N (a :: a') x y b'). cbn. now rewrite Eq.
  Qed.

  Lemma udls_removed (s : stR) n u :
    reachable s -> nth_error (h_udls (fst s)) n = Some u ->
    exists s', exec (RemoveUdls [n] false) s = (Ok tt, s') /\
      (forall K, drops (same_udl u) (udls_of s) K -> drops (same_udl u) (udls_of s') K) /\
      (not_adjacent (same_udl u) (udls_of s) ->
       drops (same_udl u) (udls_of s) (udls_of s')) /\
      lls_of s' = lls_of s /\ mats_of s' = mats_of s /\ s_geom (snd s') = s_geom (snd s).
  Proof.
    intros Hr E. apply reachable_inv in Hr as (C & _ & _).
    destruct (remove_udls_one n u s E) as (s' & Ex & Eh & El & E1 & E2 & E3).
    exists s'. cbn [exec]. rewrite with_refs_intro.
    2:{ repeat constructor. cbn. apply Nat.ltb_lt. apply nth_error_Some. congruence. }
    split; auto. unfold udls_of, lls_of, mats_of. rewrite Eh, E1, E2, El.
    set (h := h_udls (fst s)) in *. set (locs := s_udls (snd s)) in *.
    assert (V : forall k, In k locs ->
      exists a, nth_error h k = Some a /\ (udl_matches u h k = true <-> same_udl u a)).
    { intros k Hk. destruct (c_udl_locs _ C k Hk) as (a & Ea & _). exists a. split; auto.
      now apply udl_matches_spec. }
    split; [|split; [|auto]].
    - assert (G : forall l l', filter (fun y => negb (udl_matches u h y)) l =
                  filter (fun y => negb (udl_matches u h y)) l' ->
                 incl l locs -> incl l' locs -> forall K, drops (same_udl u) (derefs h l) K ->
                 drops (same_udl u) (derefs h l') K).
      { intros l l' Q I1 I2 K D.
        pose proof (filter_drops h (same_udl u) (udl_matches u h) l
          (fun k Hk => V k (I1 k Hk))) as D1.
        pose proof (filter_drops h (same_udl u) (udl_matches u h) l'
          (fun k Hk => V k (I2 k Hk))) as D2.
        rewrite <- Q in D2. replace K with (derefs h (filter (fun n => negb (udl_matches u h n)) l));
          [exact D2|].
        clear -D D1. revert K D. induction D1; intros K D; inversion D; subst; auto; try contradiction.
        - f_equal; auto. }
      intros K D. eapply G; [| | |exact D]; [symmetry; apply rwi_others| |].
      + intros x y. now apply udl_close.
      + apply incl_refl.
      + apply rwi_incl.
    - intros N. pose proof (spaced_of h (same_udl u) _ locs V N) as Sp.
      pose proof (rwi_spaced (udl_matches u h) (same_obj udl_eqb h)
        (fun x y => udl_close u h x y) (same_obj_refl udl_eqb h) (List.length locs) [] locs
        (Forall_nil _) Sp (le_n _)) as Q. cbn [List.length app] in Q. rewrite Q.
      now apply filter_drops.
  Qed.
  Lemma lls_removed (s : stR) n u :
    reachable s -> nth_error (h_lls (fst s)) n = Some u ->
    exists s', exec (RemoveLls [n] false) s = (Ok tt, s') /\
      (forall K, drops (same_ll u) (lls_of s) K -> drops (same_ll u) (lls_of s') K) /\
      (not_adjacent (same_ll u) (lls_of s) ->
       drops (same_ll u) (lls_of s) (lls_of s')) /\
      udls_of s' = udls_of s /\ mats_of s' = mats_of s /\ s_geom (snd s') = s_geom (snd s).
  Proof.
    intros Hr E. apply reachable_inv in Hr as (C & _ & _).
    destruct (remove_lls_one n u s E) as (s' & Ex & Eh & El & E1 & E2 & E3).
    exists s'. cbn [exec]. rewrite with_refs_intro.
    2:{ repeat constructor. cbn. apply Nat.ltb_lt. apply nth_error_Some. congruence. }
    split; auto. unfold udls_of, lls_of, mats_of. rewrite Eh, E1, E2, El.
    set (h := h_lls (fst s)) in *. set (locs := s_lls (snd s)) in *.
    assert (V : forall k, In k locs ->
      exists a, nth_error h k = Some a /\ (ll_matches u h k = true <-> same_ll u a)).
    { intros k Hk. destruct (c_ll_locs _ C k Hk) as (a & Ea & _). exists a. split; auto.
      now apply ll_matches_spec. }
    split; [|split; [|auto]].
    - assert (G : forall l l', filter (fun y => negb (ll_matches u h y)) l =
                  filter (fun y => negb (ll_matches u h y)) l' ->
                 incl l locs -> incl l' locs -> forall K, drops (same_ll u) (derefs h l) K ->
                 drops (same_ll u) (derefs h l') K).
      { intros l l' Q I1 I2 K D.
        pose proof (filter_drops h (same_ll u) (ll_matches u h) l
          (fun k Hk => V k (I1 k Hk))) as D1.
        pose proof (filter_drops h (same_ll u) (ll_matches u h) l'
          (fun k Hk => V k (I2 k Hk))) as D2.
        rewrite <- Q in D2. replace K with (derefs h (filter (fun n => negb (ll_matches u h n)) l));
          [exact D2|].
        clear -D D1. revert K D. induction D1; intros K D; inversion D; subst; auto; try contradiction.
        - f_equal; auto. }
      intros K D. eapply G; [| | |exact D]; [symmetry; apply rwi_others| |].
      + intros x y. now apply ll_close.
      + apply incl_refl.
      + apply rwi_incl.
    - intros N. pose proof (spaced_of h (same_ll u) _ locs V N) as Sp.
      pose proof (rwi_spaced (ll_matches u h) (same_obj lload_eqb h)
        (fun x y => ll_close u h x y) (same_obj_refl lload_eqb h) (List.length locs) [] locs
        (Forall_nil _) Sp (le_n _)) as Q. cbn [List.length app] in Q. rewrite Q.
      now apply filter_drops.
  Qed.
End Remove.
