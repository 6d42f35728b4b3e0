(** * FitFacts: assigned loads stay on the crest (C18). *)
From Coq Require Import ZArith Reals Lra Lia List Bool String Permutation Sorted.
From Verif Require Import Num Py Validation Utilities Objects Slope Planes Analysis
     Dynamic Api RealNum RealFacts ListFacts MonadFacts SlopeFacts MaterialFacts KeepFacts
     Invariant History Spec EditFacts LayerFacts LoadFacts DynFacts.
Import ListNotations.
Local Open Scope R_scope.

(** A call that does not lower MIN_EXT_L; the dynamic search is used only on
    slopes of at least 1 cm length (it tries offsets down to length - 1 cm). *)
Definition calm (s : st R) (o : op R) : Prop :=
  match o with
  | BoundaryOpts min_ext_l _ =>
      forall x, denotes min_ext_l x -> x = 0 \/ s_min_ext_l (snd s) <= x
  | AnalyseDynamic _ => 1 / 100 <= g_length (s_geom (snd s))
  | _ => True
  end.
(** A history of such calls. *)
Fixpoint calm_run {EN : Env} (s : st R) (ops : list (op R)) : Prop :=
  match ops with
  | [] => True
  | o :: ops' => calm s o /\ calm_run (step s o) ops'
  end.

Section Fit.
  Context {EN : Env}.
  Notation stR := (st R).

  Definition ml (s : stR) : R := s_min_ext_l (snd s).
  Definition ld (s : stR) :=
    (s_udls (snd s), map udl_core (h_udls (fst s)), s_lls (snd s), map ll_core (h_lls (fst s))).
  Definition Fit (s : stR) : Prop :=
    (forall n u, In n (s_udls (snd s)) -> nth_error (h_udls (fst s)) n = Some u ->
                 udl_min_length u <= ml s) /\
    (forall n l, In n (s_lls (snd s)) -> nth_error (h_lls (fst s)) n = Some l ->
                 l_offset l * 3 <= ml s).

  Lemma core_nth {A B} (c : A -> B) h h' n a' : map c h' = map c h ->
    nth_error h' n = Some a' -> exists a, nth_error h n = Some a /\ c a = c a'.
  Proof.
    intros E H. assert (Q : nth_error (map c h) n = Some (c a')).
    { rewrite <- E, nth_error_map, H. reflexivity. }
    rewrite nth_error_map in Q. destruct (nth_error h n) as [a|]; cbn in Q; [|discriminate].
    exists a. split; congruence.
  Qed.
  Lemma min_length_core (u v : udl R) : udl_core u = udl_core v -> udl_min_length u = udl_min_length v.
  Proof. unfold udl_core, udl_min_length. intros Q. injection Q as _ -> -> _ _. reflexivity. Qed.

  Lemma Fit_ld s s' : ld s' = ld s -> ml s <= ml s' -> Fit s -> Fit s'.
  Proof.
    unfold ld. intros E Hm (F1 & F2). injection E as E1 E2 E3 E4. split.
    - intros n u' Hn Hu. destruct (core_nth udl_core _ _ _ _ E2 Hu) as (u & Eu & Q).
      rewrite <- (min_length_core _ _ Q). rewrite E1 in Hn. specialize (F1 n u Hn Eu). lra.
    - intros n l' Hn Hl. destruct (core_nth ll_core _ _ _ _ E4 Hl) as (l & El & Q).
      unfold ll_core in Q. injection Q as _ Q _ _. rewrite <- Q.
      rewrite E3 in Hn. specialize (F2 n l Hn El). lra.
  Qed.
  Lemma loads_ld (s s' : stR) : loads s' = loads s -> ld s' = ld s.
  Proof. unfold loads, ld. intros Q. injection Q as -> -> -> -> _ _. reflexivity. Qed.

  Definition ldml (s : stR) := (ld s, ml s).
  Lemma Fit_same {A} (m : M stR A) s : keeps (same ldml) m -> Fit s -> Fit (snd (m s)).
  Proof.
    intros K. specialize (K s). unfold same in K.
    apply Fit_ld; [exact (f_equal fst K)|]. apply Req_le. symmetry. exact (f_equal snd K).
  Qed.

  Lemma ldml_udl_xy n (a b : udl R -> R) :
    keeps (same ldml) (upd_udl n (fun u => set_udl_xy (a u) (b u) u)).
  Proof. intros s. unfold same, ldml, ld, ml. cbn. now rewrite map_upd_nth. Qed.
  Lemma ldml_ll_coord n (a : lload R -> R) :
    keeps (same ldml) (upd_ll n (fun u => set_ll_coord (a u) u)).
  Proof. intros s. unfold same, ldml, ld, ml. cbn. now rewrite map_upd_nth. Qed.
  Hint Resolve ldml_udl_xy ldml_ll_coord : keeps.
  Lemma ldml_set_boundary h a l : keeps (same ldml) (set_external_boundary h a l).
  Proof. unfold set_external_boundary. untouched. Qed.
  Hint Resolve ldml_set_boundary : keeps.
  Lemma ldml_boundary_height h : keeps (same ldml) (update_boundary_options PNone h).
  Proof. unfold update_boundary_options. cbn [truthy]. unfold mwhen at 2. untouched. Qed.
  Hint Resolve ldml_boundary_height : keeps.
  Lemma ldml_assign locs : forall i, keeps (same ldml) (assign_materials i locs).
  Proof. induction locs; intros i; cbn [assign_materials]; untouched. Qed.
  Hint Resolve ldml_assign : keeps.
  Lemma ldml_set_materials l : keeps (same ldml) (set_materials l).
  Proof. unfold set_materials. untouched. Qed.
  Lemma ldml_remove_material m d a : keeps (same ldml) (remove_material m d a).
  Proof. unfold remove_material. untouched. Qed.
  Lemma ldml_analyse m : keeps (same ldml) (analyse_slope m).
  Proof. unfold analyse_slope. untouched. Qed.

  Lemma update_ml v s s' : Core s -> 0 < v ->
    update_boundary_options (PFloat v) PNone s = (Ok tt, s') -> ml s' = v.
  Proof.
    intros C Hv. destruct C. rewrite update_boundary_eff by assumption.
    unfold opt_dim at 1. cbn [truthy].
    unfold opt_dim, assert_strictly_positive_number.
    cbn [truthy isinstance_num negb as_num rbind]. unR.
    rewrite (proj2 (Reqb_false v 0)) by lra. cbn [negb].
    rewrite (proj2 (Rltb_false v 0)) by lra. cbn [rbind].
    intros E. injection E as <-. reflexivity.
  Qed.

  (** Assigning one load makes room for it. *)
  Lemma set_udl_one_ml r (s s' : stR) :
    Core s -> set_udl_one r s = (Ok tt, s') ->
    ml s <= ml s' /\
    (forall n u, In n (new_udls (h_udls (fst s)) [r]) -> nth_error (h_udls (fst s)) n = Some u ->
                 udl_min_length u <= ml s').
  Proof.
    intros C. unfold new_udls. cbn [flat_map]. rewrite app_nil_r.
    destruct r as [n|n|n|]; cbn [set_udl_one];
      try (intros Q; injection Q as <-; split; [lra|intros ? ? []]).
    unfold mbind at 1. unfold get_udl, deref.
    destruct (nth_error (h_udls (fst s)) n) as [u|] eqn:Eu; [|discriminate].
    destruct (nltb (nz 0) (u_magnitude u)) eqn:Em; cbn [mwhen];
      [|intros Q; injection Q as <-; split; [lra|intros ? ? []]].
    rewrite bind_self_get, bind_self_upd, bind_self_get. cbn [snd fst].
    set (s1 := (fst s, set_s_udls (s_udls (snd s) ++ [n]) (snd s)) : stR).
    assert (C1 : Core s1).
    { unR. rbool. destruct C; constructor; cbn; auto.
      intros m Hm. apply in_app_iff in Hm. destruct Hm as [Hm|[<-|[]]]; eauto. }
    unR. change (s_min_ext_l (set_s_udls (s_udls (snd s) ++ [n]) (snd s))) with (s_min_ext_l (snd s1)).
    destruct (Rltb (s_min_ext_l (snd s1)) (udl_min_length u)) eqn:El; cbn [mwhen].
    - apply Rltb_true in El. intros Q. apply update_ml in Q; auto.
      2:{ pose proof (c_ml _ C1). lra. }
      change (ml s) with (s_min_ext_l (snd s1)). split; [lra|].
      intros k v [<-|[]] Ev. rewrite Eu in Ev. injection Ev as <-. lra.
    - apply Rltb_false in El. intros Q. injection Q as <-. split; [apply Rle_refl|].
      intros k v [<-|[]] Ev. rewrite Eu in Ev. injection Ev as <-. exact El.
  Qed.
  Lemma set_ll_one_ml r (s s' : stR) :
    Core s -> set_ll_one r s = (Ok tt, s') ->
    ml s <= ml s' /\
    (forall n u, In n (new_lls (h_lls (fst s)) [r]) -> nth_error (h_lls (fst s)) n = Some u ->
                 l_offset u * 3 <= ml s').
  Proof.
    intros C. unfold new_lls. cbn [flat_map]. rewrite app_nil_r.
    destruct r as [n|n|n|]; cbn [set_ll_one];
      try (intros Q; injection Q as <-; split; [lra|intros ? ? []]).
    unfold mbind at 1. unfold get_ll, deref.
    destruct (nth_error (h_lls (fst s)) n) as [u|] eqn:Eu; [|discriminate].
    destruct (nltb (nz 0) (l_magnitude u)) eqn:Em; cbn [mwhen];
      [|intros Q; injection Q as <-; split; [lra|intros ? ? []]].
    rewrite bind_self_get, bind_self_upd, bind_self_get. cbn [snd fst].
    set (s1 := (fst s, set_s_lls (s_lls (snd s) ++ [n]) (snd s)) : stR).
    assert (C1 : Core s1).
    { unR. rbool. destruct C; constructor; cbn; auto.
      intros m Hm. apply in_app_iff in Hm. destruct Hm as [Hm|[<-|[]]]; eauto. }
    unR. change (s_min_ext_l (set_s_lls (s_lls (snd s) ++ [n]) (snd s))) with (s_min_ext_l (snd s1)).
    destruct (Rltb (s_min_ext_l (snd s1)) (l_offset u * 3)) eqn:El; cbn [mwhen].
    - apply Rltb_true in El. intros Q. apply update_ml in Q; auto.
      2:{ pose proof (c_ml _ C1). lra. }
      change (ml s) with (s_min_ext_l (snd s1)). split; [lra|].
      intros k v [<-|[]] Ev. rewrite Eu in Ev. injection Ev as <-. lra.
    - apply Rltb_false in El. intros Q. injection Q as <-. split; [apply Rle_refl|].
      intros k v [<-|[]] Ev. rewrite Eu in Ev. injection Ev as <-. exact El.
  Qed.

  Lemma Fit_set_udl_one r (s s' : stR) :
    Core s -> Fit s -> set_udl_one r s = (Ok tt, s') -> Fit s'.
  Proof.
    intros C (F1 & F2) E. destruct (set_udl_one_ml r s s' C E) as (Hm & Hn).
    pose proof (set_udl_one_loads r s s' E) as L. unfold loads, with_udls in L.
    injection L as L1 L2 L3 L4 _ _. split.
    - intros n u' Hi Hu. destruct (core_nth udl_core _ _ _ _ L2 Hu) as (u & Eu & Q).
      rewrite <- (min_length_core _ _ Q). rewrite L1 in Hi. apply in_app_iff in Hi.
      destruct Hi as [Hi|Hi]; [specialize (F1 n u Hi Eu); lra|]. eapply Hn; eauto.
    - intros n l' Hi Hl. destruct (core_nth ll_core _ _ _ _ L4 Hl) as (l & El & Q).
      unfold ll_core in Q. injection Q as _ Q _ _. rewrite <- Q.
      rewrite L3 in Hi. specialize (F2 n l Hi El). lra.
  Qed.
  Lemma Fit_set_ll_one r (s s' : stR) :
    Core s -> Fit s -> set_ll_one r s = (Ok tt, s') -> Fit s'.
  Proof.
    intros C (F1 & F2) E. destruct (set_ll_one_ml r s s' C E) as (Hm & Hn).
    pose proof (set_ll_one_loads r s s' E) as L. unfold loads, with_lls in L.
    injection L as L1 L2 L3 L4 _ _. split.
    - intros n u' Hi Hu. destruct (core_nth udl_core _ _ _ _ L2 Hu) as (u & Eu & Q).
      rewrite <- (min_length_core _ _ Q). rewrite L1 in Hi. specialize (F1 n u Hi Eu). lra.
    - intros n l' Hi Hl. destruct (core_nth ll_core _ _ _ _ L4 Hl) as (l & El & Q).
      unfold ll_core in Q. injection Q as _ Q _ _. rewrite <- Q.
      rewrite L3 in Hi. apply in_app_iff in Hi. destruct Hi as [Hi|Hi].
      + specialize (F2 n l Hi El). lra.
      + eapply Hn; eauto.
  Qed.
  Lemma Fit_udl_loop l : forall s s' : stR,
    Core s -> LlF s -> refs_ok s l -> Fit s -> mforM l set_udl_one s = (Ok tt, s') -> Fit s'.
  Proof.
    induction l as [|r l IH]; intros s s' C L HR F; cbn [mforM].
    - intros Q; now injection Q as <-.
    - inversion HR as [|? ? Hr Rl]; subst.
      destruct (set_udl_one_ok r s C L Hr) as (s1 & E1 & C1 & L1 & H1).
      erewrite bind_ok by exact E1. apply IH; auto.
      + eapply refs_ok_le; eauto.
      + eapply Fit_set_udl_one; [exact C|exact F|exact E1].
  Qed.
  Lemma Fit_ll_loop l : forall s s' : stR,
    Core s -> UdlF s -> refs_ok s l -> Fit s -> mforM l set_ll_one s = (Ok tt, s') -> Fit s'.
  Proof.
    induction l as [|r l IH]; intros s s' C L HR F; cbn [mforM].
    - intros Q; now injection Q as <-.
    - inversion HR as [|? ? Hr Rl]; subst.
      destruct (set_ll_one_ok r s C L Hr) as (s1 & E1 & C1 & L1 & H1).
      erewrite bind_ok by exact E1. apply IH; auto.
      + eapply refs_ok_le; eauto.
      + eapply Fit_set_ll_one; [exact C|exact F|exact E1].
  Qed.
  Lemma Fit_set_udls l (s : stR) :
    Core s -> LlF s -> refs_ok s l -> Fit s -> Fit (snd (set_udls l s)).
  Proof.
    intros C L HR F. unfold set_udls.
    destruct (set_udl_loop_ok l s C L HR) as (s1 & E1 & C1 & L1 & H1).
    erewrite bind_ok by exact E1.
    apply Fit_same; [untouched|]. eapply Fit_udl_loop; [exact C|exact L|exact HR|exact F|exact E1].
  Qed.
  Lemma Fit_set_lls l (s : stR) :
    Core s -> UdlF s -> refs_ok s l -> Fit s -> Fit (snd (set_lls l s)).
  Proof.
    intros C L HR F. unfold set_lls.
    destruct (set_ll_loop_ok l s C L HR) as (s1 & E1 & C1 & L1 & H1).
    erewrite bind_ok by exact E1.
    apply Fit_same; [untouched|]. eapply Fit_ll_loop; [exact C|exact L|exact HR|exact F|exact E1].
  Qed.

  (** Removing loads and creating objects. *)
  Lemma Fit_fewer (s s' : stR) :
    fst s' = fst s -> incl (s_udls (snd s')) (s_udls (snd s)) ->
    incl (s_lls (snd s')) (s_lls (snd s)) -> ml s' = ml s -> Fit s -> Fit s'.
  Proof.
    intros Eh I1 I2 Em (F1 & F2). split; intros n u Hn; rewrite Eh, Em; eauto.
  Qed.
  Lemma nth_error_snoc_old {A} (l : list A) a n b x :
    nth_error l n = Some b -> nth_error (l ++ [a]) n = Some x -> x = b.
  Proof.
    intros E. rewrite nth_error_app1; [congruence|]. apply nth_error_Some. congruence.
  Qed.
  Lemma ml_remove_udls ns all : keeps (same ml) (remove_udls ns all).
  Proof. unfold remove_udls. untouched. Qed.
  Lemma ml_remove_lls ns all : keeps (same ml) (remove_lls ns all).
  Proof. unfold remove_lls. untouched. Qed.

  (** ** Moving the dynamic loads *)
  (** every assigned dynamic load is already at offset [o] *)
  Definition at_offset (o : R) (s : stR) : Prop :=
    (forall n u, In n (s_udls (snd s)) -> nth_error (h_udls (fst s)) n = Some u ->
                 u_dynamic u = true -> u_offset u = o) /\
    (forall n l, In n (s_lls (snd s)) -> nth_error (h_lls (fst s)) n = Some l ->
                 l_dynamic l = true -> l_offset l = o).

  Lemma at_offset_set_udl o n (s s' : stR) :
    at_offset o s ->
    (forall u, nth_error (h_udls (fst s)) n = Some u -> u_dynamic u = true -> u_offset u = o) ->
    set_udls [RefUdl n] s = (Ok tt, s') -> at_offset o s'.
  Proof.
    intros (A1 & A2) Hn E. pose proof (set_udls_loads _ _ _ E) as L. unfold loads, with_udls in L.
    injection L as L1 L2 L3 L4 _ _. split.
    - intros k u' Hk Hu Hd. destruct (core_nth udl_core _ _ _ _ L2 Hu) as (u & Eu & Q).
      unfold udl_core in Q. injection Q as _ Q1 _ _ Q2. rewrite <- Q1. rewrite <- Q2 in Hd.
      rewrite L1 in Hk. apply in_app_iff in Hk. destruct Hk as [Hk|Hk]; [eauto|].
      unfold new_udls in Hk. cbn [flat_map] in Hk. rewrite app_nil_r in Hk.
      assert (k = n) as ->.
      { destruct (nth_error (h_udls (fst s)) n); [|destruct Hk].
        match type of Hk with context [if ?b then _ else _] => destruct b end;
          [|destruct Hk]. now destruct Hk as [<-|[]]. }
      eauto.
    - intros k u' Hk Hu Hd. destruct (core_nth ll_core _ _ _ _ L4 Hu) as (u & Eu & Q).
      unfold ll_core in Q. injection Q as _ Q1 _ Q2. rewrite <- Q1. rewrite <- Q2 in Hd.
      rewrite L3 in Hk. eauto.
  Qed.
  Lemma at_offset_set_ll o n (s s' : stR) :
    at_offset o s ->
    (forall u, nth_error (h_lls (fst s)) n = Some u -> l_dynamic u = true -> l_offset u = o) ->
    set_lls [RefLload n] s = (Ok tt, s') -> at_offset o s'.
  Proof.
    intros (A1 & A2) Hn E. pose proof (set_lls_loads _ _ _ E) as L. unfold loads, with_lls in L.
    injection L as L1 L2 L3 L4 _ _. split.
    - intros k u' Hk Hu Hd. destruct (core_nth udl_core _ _ _ _ L2 Hu) as (u & Eu & Q).
      unfold udl_core in Q. injection Q as _ Q1 _ _ Q2. rewrite <- Q1. rewrite <- Q2 in Hd.
      rewrite L1 in Hk. eauto.
    - intros k u' Hk Hu Hd. destruct (core_nth ll_core _ _ _ _ L4 Hu) as (u & Eu & Q).
      unfold ll_core in Q. injection Q as _ Q1 _ Q2. rewrite <- Q1. rewrite <- Q2 in Hd.
      rewrite L3 in Hk. apply in_app_iff in Hk. destruct Hk as [Hk|Hk]; [eauto|].
      unfold new_lls in Hk. cbn [flat_map] in Hk. rewrite app_nil_r in Hk.
      assert (k = n) as ->.
      { destruct (nth_error (h_lls (fst s)) n); [|destruct Hk].
        match type of Hk with context [if ?b then _ else _] => destruct b end;
          [|destruct Hk]. now destruct Hk as [<-|[]]. }
      eauto.
  Qed.

  Lemma move_udls_fit o ns : forall s s' : stR,
    Inv s -> Forall (fun n => (n < List.length (h_udls (fst s)))%nat) ns ->
    Fit s -> at_offset o s ->
    mforM ns (fun n =>
      u <- get_udl n ;;
      mwhen (u_dynamic u) (upd_udl n (set_udl_offset o)) ;;;
      set_udls [RefUdl n]) s = (Ok tt, s') -> Fit s' /\ at_offset o s'.
  Proof.
    induction ns as [|n ns IH]; intros s s' I F FT A; cbn [mforM].
    - intros Q; injection Q as <-. auto.
    - inversion F as [|? ? Hn Fn]; subst.
      destruct (nth_error_lt_Some _ _ Hn) as [u Eu].
      rewrite bind_assoc. erewrite bind_ok by (unfold get_udl, deref; rewrite Eu; reflexivity).
      set (s1 := if u_dynamic u then snd (upd_udl n (set_udl_offset o) s) else s).
      assert (E1 : mwhen (u_dynamic u) (upd_udl n (set_udl_offset o)) s = (Ok tt, s1)).
      { subst s1. destruct (u_dynamic u); reflexivity. }
      assert (C1 : Core s1 /\ LlF s1 /\ heap_le s s1).
      { subst s1. destruct I as (C & U & L). destruct (u_dynamic u).
        - split; [now apply upd_udl_core|]. split; [exact L|].
          unfold heap_le; cbn. rewrite upd_nth_length. lia.
        - auto using heap_le_refl. }
      destruct C1 as (C1 & L1 & H1).
      assert (FA : Fit s1 /\ at_offset o s1 /\
                   (forall v, nth_error (h_udls (fst s1)) n = Some v ->
                              u_dynamic v = true -> u_offset v = o)).
      { subst s1. destruct (u_dynamic u) eqn:Ed.
        2:{ split; [exact FT|]. split; [exact A|]. intros v Ev. rewrite Eu in Ev.
            injection Ev as <-. congruence. }
        destruct FT as (F1 & F2). destruct A as (A1 & A2).
        split; [|split; [split|]]; unfold upd_udl; cbn; auto.
        - split; cbn; auto. intros k v Hk. rewrite nth_error_upd_nth.
          destruct (Nat.eqb_spec n k) as [<-|]; [|now apply F1].
          rewrite Eu. intros Q; injection Q as <-.
          assert (X : udl_min_length (set_udl_offset o u) = udl_min_length u).
          { unfold udl_min_length. cbn. now rewrite (A1 n u Hk Eu Ed). }
          eapply Rle_trans; [apply Req_le; exact X|]. now apply (F1 n u).
        - intros k v Hk. rewrite nth_error_upd_nth.
          destruct (Nat.eqb_spec n k) as [<-|]; [|now apply A1].
          rewrite Eu. intros Q; injection Q as <-. reflexivity.
        - intros v. rewrite nth_error_upd_nth, Nat.eqb_refl, Eu.
          intros Q; injection Q as <-. reflexivity. }
      destruct FA as (FT1 & A1 & On).
      rewrite bind_assoc. erewrite bind_ok by exact E1.
      assert (RO : refs_ok s1 [RefUdl n]).
      { constructor; [|constructor]. cbn [ref_exists]. apply Nat.ltb_lt.
        destruct H1 as (_ & H1 & _). lia. }
      destruct (inv_set_udls [RefUdl n] s1 C1 L1 RO) as (s2 & E2 & I2 & H2).
      erewrite bind_ok by exact E2. apply IH; auto.
      + eapply Forall_impl; [|exact Fn]. cbn. intros k Hk.
        destruct H1 as (_ & H1 & _), H2 as (_ & H2 & _). lia.
      + pose proof (Fit_set_udls [RefUdl n] s1 C1 L1 RO FT1) as Q. now rewrite E2 in Q.
      + eapply at_offset_set_udl; eauto.
  Qed.
  Lemma move_lls_fit o ns : forall s s' : stR,
    Inv s -> Forall (fun n => (n < List.length (h_lls (fst s)))%nat) ns ->
    Fit s -> at_offset o s ->
    mforM ns (fun n =>
      u <- get_ll n ;;
      mwhen (l_dynamic u) (upd_ll n (set_ll_offset o)) ;;;
      set_lls [RefLload n]) s = (Ok tt, s') -> Fit s' /\ at_offset o s'.
  Proof.
    induction ns as [|n ns IH]; intros s s' I F FT A; cbn [mforM].
    - intros Q; injection Q as <-. auto.
    - inversion F as [|? ? Hn Fn]; subst.
      destruct (nth_error_lt_Some _ _ Hn) as [u Eu].
      rewrite bind_assoc. erewrite bind_ok by (unfold get_ll, deref; rewrite Eu; reflexivity).
      set (s1 := if l_dynamic u then snd (upd_ll n (set_ll_offset o) s) else s).
      assert (E1 : mwhen (l_dynamic u) (upd_ll n (set_ll_offset o)) s = (Ok tt, s1)).
      { subst s1. destruct (l_dynamic u); reflexivity. }
      assert (C1 : Core s1 /\ UdlF s1 /\ heap_le s s1).
      { subst s1. destruct I as (C & U & L). destruct (l_dynamic u).
        - split; [now apply upd_ll_core|]. split; [exact U|].
          unfold heap_le; cbn. rewrite upd_nth_length. lia.
        - auto using heap_le_refl. }
      destruct C1 as (C1 & L1 & H1).
      assert (FA : Fit s1 /\ at_offset o s1 /\
                   (forall v, nth_error (h_lls (fst s1)) n = Some v ->
                              l_dynamic v = true -> l_offset v = o)).
      { subst s1. destruct (l_dynamic u) eqn:Ed.
        2:{ split; [exact FT|]. split; [exact A|]. intros v Ev. rewrite Eu in Ev.
            injection Ev as <-. congruence. }
        destruct FT as (F1 & F2). destruct A as (A1 & A2).
        split; [|split; [split|]]; unfold upd_ll; cbn; auto.
        - split; cbn; auto. intros k v Hk. rewrite nth_error_upd_nth.
          destruct (Nat.eqb_spec n k) as [<-|]; [|now apply F2].
          rewrite Eu. intros Q; injection Q as <-. cbn.
          rewrite <- (A2 n u Hk Eu Ed). now apply (F2 n u).
        - intros k v Hk. rewrite nth_error_upd_nth.
          destruct (Nat.eqb_spec n k) as [<-|]; [|now apply A2].
          rewrite Eu. intros Q; injection Q as <-. reflexivity.
        - intros v. rewrite nth_error_upd_nth, Nat.eqb_refl, Eu.
          intros Q; injection Q as <-. reflexivity. }
      destruct FA as (FT1 & A1 & On).
      rewrite bind_assoc. erewrite bind_ok by exact E1.
      assert (RO : refs_ok s1 [RefLload n]).
      { constructor; [|constructor]. cbn [ref_exists]. apply Nat.ltb_lt.
        destruct H1 as (_ & _ & H1). lia. }
      destruct (inv_set_lls [RefLload n] s1 C1 L1 RO) as (s2 & E2 & I2 & H2).
      erewrite bind_ok by exact E2. apply IH; auto.
      + eapply Forall_impl; [|exact Fn]. cbn. intros k Hk.
        destruct H1 as (_ & _ & H1), H2 as (_ & _ & H2). lia.
      + pose proof (Fit_set_lls [RefLload n] s1 C1 L1 RO FT1) as Q. now rewrite E2 in Q.
      + eapply at_offset_set_ll; eauto.
  Qed.

  Lemma Fit_set_dynamic_offset o (s : stR) :
    Inv s -> Fit s ->
    exists s', set_dynamic_offset o s = (Ok tt, s') /\ Inv s' /\ Fit s' /\ at_offset o s'.
  Proof.
    intros I FT. pose proof I as (C & _ & _).
    pose proof (udl_locs_valid s C) as FU. pose proof (ll_locs_valid s C) as FL.
    unfold set_dynamic_offset. rewrite !bind_self_get.
    pose proof (ml_remove_udls [] true s) as M1.
    assert (Z1 : s_udls (snd (snd (remove_udls [] true s))) = []).
    { unfold remove_udls. cbn [mforM]. msteps. cbn [mwhen]. msteps.
      match goal with |- context [match ?x with _ => _ end] => destruct x end; reflexivity. }
    destruct (inv_remove_udls [] true s I (Forall_nil _)) as (s1 & E1 & I1 & H1 & X1 & Y1).
    rewrite E1 in M1, Z1. cbn [snd] in M1, Z1.
    erewrite bind_ok by exact E1.
    pose proof (ml_remove_lls [] true s1) as M2.
    assert (Z2 : s_lls (snd (snd (remove_lls [] true s1))) = []) by reflexivity.
    destruct (inv_remove_lls [] true s1 I1 (Forall_nil _)) as (s2 & E2 & I2 & H2 & X2 & Y2).
    rewrite E2 in M2, Z2. cbn [snd] in M2, Z2.
    erewrite bind_ok by exact E2.
    assert (Hu2 : s_udls (snd s2) = []) by congruence.
    assert (F2 : Fit s2).
    { split; intros n u; [rewrite Hu2|rewrite Z2]; intros []. }
    assert (A2 : at_offset o s2).
    { split; intros n u; [rewrite Hu2|rewrite Z2]; intros []. }
    destruct (move_udls_ok o (s_udls (snd s)) s2 I2) as (s3 & E3 & I3 & H3).
    { rewrite H2, H1. exact FU. }
    destruct (move_udls_fit o (s_udls (snd s)) s2 s3 I2) as (F3 & A3); auto.
    { rewrite H2, H1. exact FU. }
    erewrite bind_ok by exact E3.
    assert (FL3 : Forall (fun n => (n < List.length (h_lls (fst s3)))%nat) (s_lls (snd s))).
    { eapply Forall_impl; [|exact FL]. cbn. intros k Hk.
      destruct H3 as (_ & _ & Q). rewrite H2, H1 in Q. lia. }
    destruct (move_lls_ok o (s_lls (snd s)) s3 I3 FL3) as (s4 & E4 & I4 & H4).
    destruct (move_lls_fit o (s_lls (snd s)) s3 s4 I3 FL3 F3 A3 E4) as (F4 & A4).
    exists s4. auto.
  Qed.

  (** ** The search *)
  Definition IF (s : stR) : Prop := Inv s /\ Fit s.
  Lemma Fit_ldml s s' : ldml s' = ldml s -> Fit s -> Fit s'.
  Proof.
    intros K. apply Fit_ld; [exact (f_equal fst K)|].
    apply Req_le. symmetry. exact (f_equal snd K).
  Qed.
  Lemma IF_analyse m s : IF s -> IF (snd (analyse_slope m s)).
  Proof.
    intros (I & F). split.
    - apply (same_model_inv s); auto. apply same_model_analyse.
    - apply (Fit_same _ s (ldml_analyse m) F).
  Qed.
  Lemma IF_try_offset o s : IF s -> IF (snd (try_offset o s)).
  Proof.
    intros (I & F). destruct (Fit_set_dynamic_offset o s I F) as (s1 & E1 & I1 & F1 & _).
    unfold try_offset. erewrite bind_ok by exact E1.
    pose proof (IF_analyse None s1 (conj I1 F1)) as SM.
    destruct (analyse_slope None s1) as [[u|e] s2] eqn:E2; cbn [snd] in SM.
    2:{ erewrite bind_err by exact E2. exact SM. }
    erewrite bind_ok by exact E2.
    unfold mbind at 1. destruct (get_min_FOS (snd s2)) as [f|e]; [|exact SM].
    rewrite bind_lift. destruct f as [f|]; [|exact SM]. msteps.
    destruct SM as (I2 & F2). split.
    - apply (same_model_inv s2); auto. constructor; reflexivity.
    - exact F2.
  Qed.
  Lemma IF_dynamic_loop k : forall crit l r p (s : stR),
    IF s -> IF (snd (dynamic_loop k crit l r p s)).
  Proof.
    induction k as [|k IH]; intros crit l r p s I; cbn [dynamic_loop]; [exact I|].
    msteps. destruct (dict_get l _); [|exact I].
    msteps. destruct (dict_get r _); [|exact I].
    msteps. destruct (midpoint_of _ _ _ _ _); [|exact I].
    pose proof (IF_try_offset a1 s I) as I1.
    destruct (try_offset a1 s) as [[f|e] s1] eqn:E; cbn [snd] in I1.
    - erewrite bind_ok by exact E. destruct (converged _ _ _); [exact I1|].
      destruct (nltb f _); now apply IH.
    - erewrite bind_err by exact E. exact I1.
  Qed.
  Lemma IF_analyse_dynamic c (s : stR) : IF s -> IF (snd (analyse_dynamic c s)).
  Proof.
    intros (I & F). unfold analyse_dynamic. msteps.
    set (s0 := (fst s, set_s_dynamic [] (snd s)) : stR).
    assert (I0 : IF s0).
    { split; [|exact F]. apply (same_model_inv s); auto; constructor; reflexivity. }
    destruct (far_left _ _ _) as [fl|e]; [|exact I0].
    pose proof (IF_try_offset (nz 0) s0 I0) as I1.
    destruct (try_offset (nz 0) s0) as [[f|e] s1] eqn:E; cbn [snd] in I1;
      [erewrite bind_ok by exact E | erewrite bind_err by exact E; exact I1].
    destruct (nltb _ f); [exact I1|].
    pose proof (IF_try_offset (nsub fl (nlit 1 100)) s1 I1) as I2.
    destruct (try_offset (nsub fl (nlit 1 100)) s1) as [[f2|e] s2] eqn:E2; cbn [snd] in I2;
      [erewrite bind_ok by exact E2 | erewrite bind_err by exact E2; exact I2].
    destruct (nltb f2 _); [exact I2|].
    pose proof (IF_dynamic_loop 10 c (nsub fl (nlit 1 100)) (nz 0) (nz 0) s2 I2) as I3.
    destruct (dynamic_loop 10 c _ _ _ s2) as [[u|e] s3] eqn:E3; cbn [snd] in I3;
      [erewrite bind_ok by exact E3 | erewrite bind_err by exact E3; exact I3].
    msteps. destruct I3 as (I3 & F3). split; [|exact F3].
    apply (same_model_inv s3); auto. constructor; reflexivity.
  Qed.

  (** ** Every call, every history *)
  Lemma Fit_refs l (m : M stR unit) (s : stR) :
    Fit s -> (refs_ok s l -> Fit (snd (m s))) -> Fit (snd (with_refs l m s)).
  Proof.
    intros I H. unfold with_refs. msteps.
    destruct (forallb (ref_exists (fst s)) l) eqn:E; [|exact I].
    apply H. apply Forall_forall. intros r Hr.
    now apply (proj1 (forallb_forall _ _) E).
  Qed.
  Lemma opt_dim_denotes v t : opt_dim v = Ok (Some t) -> denotes v t.
  Proof.
    unfold opt_dim. destruct (truthy v); [|discriminate].
    destruct (assert_strictly_positive_number v); [|discriminate]. cbn [rbind].
    destruct (as_num v) eqn:E; [|discriminate]. cbn [rbind]. intros Q; injection Q as <-.
    now apply denotes_as_num.
  Qed.
  Lemma Fit_boundary_options l h (s : stR) :
    Core s -> calm s (BoundaryOpts l h) -> Fit s -> Fit (snd (update_boundary_options l h s)).
  Proof.
    intros C K F. pose proof (loads_boundary_options l h s) as L. unfold same in L.
    apply loads_ld in L. apply (Fit_ld s); auto. clear L.
    destruct C. rewrite update_boundary_eff by assumption.
    destruct (opt_dim h) as [oh|e]; [|apply Rle_refl]. cbn zeta.
    destruct (opt_dim l) as [ol|e] eqn:El; [|destruct oh; apply Rle_refl].
    destruct ol as [x|]; [|destruct oh; apply Rle_refl].
    cbn. unfold ml. destruct (K x (opt_dim_denotes _ _ El)) as [Z|Z]; [|destruct oh; exact Z].
    apply opt_dim_pos in El. lra.
  Qed.

  Lemma exec_fit o (s : stR) : Inv s -> calm s o -> Fit s -> Fit (snd (exec o s)).
  Proof.
    intros I K F. pose proof I as (C & U & L).
    destruct o; cbn [exec].
    - apply (Fit_same _ s); [unfold alloc; untouched|exact F].
    - unfold alloc. msteps. destruct (new_udl _ _ _ _ _) eqn:E; [|exact F].
      destruct F as (F1 & F2). split; cbn; auto.
      intros n u Hn Hu. destruct (c_udl_locs s C n Hn) as (v & Ev & _).
      rewrite (nth_error_snoc_old _ _ _ _ _ Ev Hu). eapply F1; eauto.
    - unfold alloc. msteps. destruct (new_lload _ _ _ _) eqn:E; [|exact F].
      destruct F as (F1 & F2). split; cbn; auto.
      intros n u Hn Hu. destruct (c_ll_locs s C n Hn) as (v & Ev & _).
      rewrite (nth_error_snoc_old _ _ _ _ _ Ev Hu). eapply F2; eauto.
    - apply (Fit_same _ s); [apply ldml_set_boundary|exact F].
    - now apply Fit_boundary_options.
    - apply (Fit_same _ s); [unfold set_water_table; untouched|exact F].
    - apply (Fit_same _ s); [unfold remove_water_table; untouched|exact F].
    - apply (Fit_same _ s); [unfold update_water_analysis_options; untouched|exact F].
    - apply Fit_refs; auto. intros HR. now apply Fit_set_udls.
    - apply Fit_refs; auto. intros HR. pose proof (ml_remove_udls l all s) as M1.
      destruct (inv_remove_udls l all s I (refs_udls _ _ HR)) as (s' & E & H & H1 & H2 & H3).
      rewrite E in *. apply (Fit_fewer s); auto. cbn [snd]. rewrite H3. apply incl_refl.
    - apply Fit_refs; auto. intros HR. now apply Fit_set_lls.
    - apply Fit_refs; auto. intros HR. pose proof (ml_remove_lls l all s) as M1.
      destruct (inv_remove_lls l all s I (refs_lls _ _ HR)) as (s' & E & H & H1 & H2 & H3).
      rewrite E in *. apply (Fit_fewer s); auto. cbn [snd]. rewrite H3. apply incl_refl.
    - apply Fit_refs; auto. intros HR.
      apply (Fit_same _ s); [apply ldml_set_materials|exact F].
    - apply Fit_refs; auto. intros HR.
      apply (Fit_same _ s); [apply ldml_remove_material|exact F].
    - apply (Fit_same _ s); [unfold update_analysis_options; untouched|exact F].
    - apply (Fit_same _ s); [unfold set_analysis_limits; untouched|exact F].
    - apply (Fit_same _ s); [unfold remove_analysis_limits; untouched|exact F].
    - apply (Fit_same _ s); [unfold add_single_entry_exit_plane; untouched|exact F].
    - apply (Fit_same _ s); [unfold add_single_circular_plane; untouched|exact F].
    - apply (Fit_same _ s); [unfold remove_individual_planes; untouched|exact F].
    - apply (Fit_same _ s); [apply ldml_analyse|exact F].
    - pose proof (IF_analyse_dynamic crit s (conj I F)) as (_ & H). unfold mbind.
      destruct (analyse_dynamic crit s) as [[a|e] s']; exact H.
  Qed.

  (** ** Offsets are never negative *)
  Definition offs (s : stR) : Prop :=
    Forall (fun u => 0 <= u_offset u) (h_udls (fst s)) /\
    Forall (fun l => 0 <= l_offset l) (h_lls (fst s)).
  Definition cores (s : stR) := (map udl_core (h_udls (fst s)), map ll_core (h_lls (fst s))).
  Definition offs_rel (s s' : stR) : Prop := offs s -> offs s'.
  Lemma offs_refl s : offs_rel s s.
  Proof. intros H; exact H. Qed.
  Lemma offs_trans a b c : offs_rel a b -> offs_rel b c -> offs_rel a c.
  Proof. unfold offs_rel. auto. Qed.
  Lemma core_Forall {A B} (c : A -> B) (P : A -> Prop) h h' :
    (forall a b, c a = c b -> P a -> P b) -> map c h' = map c h -> Forall P h -> Forall P h'.
  Proof.
    intros HP E F. apply Forall_forall. intros x Hx. apply In_nth_error in Hx.
    destruct Hx as (n & Hn). destruct (core_nth c _ _ _ _ E Hn) as (a & Ea & Q).
    apply (HP a); auto. apply (proj1 (Forall_forall _ _) F). eapply nth_error_In; eauto.
  Qed.
  Lemma offs_cores s s' : cores s' = cores s -> offs s -> offs s'.
  Proof.
    unfold cores. intros E (F1 & F2). injection E as E1 E2. split.
    - eapply core_Forall; [|exact E1|exact F1]. intros a b Q. unfold udl_core in Q.
      injection Q as _ Q _ _ _. rewrite Q. auto.
    - eapply core_Forall; [|exact E2|exact F2]. intros a b Q. unfold ll_core in Q.
      injection Q as _ Q _ _. rewrite Q. auto.
  Qed.
  Lemma cores_offs {A} (m : M stR A) : keeps (same cores) m -> keeps offs_rel m.
  Proof. intros K s. unfold offs_rel. apply offs_cores. exact (K s). Qed.

  Lemma cores_udl_xy n (a b : udl R -> R) :
    keeps (same cores) (upd_udl n (fun u => set_udl_xy (a u) (b u) u)).
  Proof. intros s. unfold same, cores. cbn. now rewrite map_upd_nth. Qed.
  Lemma cores_ll_coord n (a : lload R -> R) :
    keeps (same cores) (upd_ll n (fun u => set_ll_coord (a u) u)).
  Proof. intros s. unfold same, cores. cbn. now rewrite map_upd_nth. Qed.
  Hint Resolve cores_udl_xy cores_ll_coord : keeps.
  Lemma cores_set_boundary h a l : keeps (same cores) (set_external_boundary h a l).
  Proof. unfold set_external_boundary. untouched. Qed.
  Hint Resolve cores_set_boundary : keeps.
  Lemma cores_boundary_options l h : keeps (same cores) (update_boundary_options l h).
  Proof. unfold update_boundary_options. untouched. Qed.
  Hint Resolve cores_boundary_options : keeps.
  Lemma cores_assign locs : forall i, keeps (same cores) (assign_materials i locs).
  Proof. induction locs; intros i; cbn [assign_materials]; untouched. Qed.
  Hint Resolve cores_assign : keeps.
  Lemma cores_set_materials l : keeps (same cores) (set_materials l).
  Proof. unfold set_materials. untouched. Qed.
  Lemma cores_remove_material m d a : keeps (same cores) (remove_material m d a).
  Proof. unfold remove_material. untouched. Qed.
  Lemma cores_analyse m : keeps (same cores) (analyse_slope m).
  Proof. unfold analyse_slope. untouched. Qed.
  Lemma cores_set_udls l : keeps (same cores) (set_udls l).
  Proof. unfold set_udls. untouched. Qed.
  Lemma cores_set_lls l : keeps (same cores) (set_lls l).
  Proof. unfold set_lls. untouched. Qed.
  Lemma cores_remove_udls l a : keeps (same cores) (remove_udls l a).
  Proof. unfold remove_udls. untouched. Qed.
  Lemma cores_remove_lls l a : keeps (same cores) (remove_lls l a).
  Proof. unfold remove_lls. untouched. Qed.

  Lemma offs_set_dynamic_offset o (s : stR) : 0 <= o -> offs s -> offs (snd (set_dynamic_offset o s)).
  Proof.
    intros Ho. revert s. change (keeps offs_rel (set_dynamic_offset o)).
    assert (K1 : forall n, keeps offs_rel (upd_udl n (set_udl_offset o))).
    { intros n s (F1 & F2). split; cbn; auto. apply Forall_upd_nth; auto. }
    assert (K2 : forall n, keeps offs_rel (upd_ll n (set_ll_offset o))).
    { intros n s (F1 & F2). split; cbn; auto. apply Forall_upd_nth; auto. }
    pose proof offs_refl as RR. pose proof offs_trans as RT.
    unfold set_dynamic_offset.
    repeat first [ solve [auto using cores_offs, cores_set_udls, cores_set_lls,
                            cores_remove_udls, cores_remove_lls with keeps] | keep1 ].
  Qed.

  Lemma far_left_ge (x : R) us : forall l fl, far_left x l us = Ok fl -> l <= fl.
  Proof.
    induction us as [|u us IH]; intros l fl; cbn [far_left].
    - intros Q; injection Q as <-. lra.
    - destruct (u_dynamic u); [|apply IH].
      destruct (u_length u); [|discriminate]. intros Q. apply IH in Q. unR.
      eapply Rle_trans; [apply Rmax_l|exact Q].
  Qed.
  Lemma offs_analyse_dynamic c (s : stR) :
    1 / 100 <= g_length (s_geom (snd s)) -> offs s -> offs (snd (analyse_dynamic c s)).
  Proof.
    intros Hl.
    destruct (far_left (fst (g_top (s_geom (snd s)))) (g_length (s_geom (snd s))) (udls_of s))
      as [fl|e] eqn:E.
    - intros Ho. apply far_left_ge in E as Hfl.
      apply (search_all offs 0 (fl - 1 / 100)); auto; try lra.
      + intros o s1 Ho1 F1. unfold try_offset.
        pose proof (offs_set_dynamic_offset o s1 (proj1 Ho1) F1) as F2.
        destruct (set_dynamic_offset o s1) as [[u|e] s2] eqn:E1; cbn [snd] in F2;
          [erewrite bind_ok by exact E1 | erewrite bind_err by exact E1; exact F2].
        pose proof (offs_cores _ _ (cores_analyse None s2) F2) as F3.
        destruct (analyse_slope None s2) as [[v|e] s3] eqn:E2; cbn [snd] in F3;
          [erewrite bind_ok by exact E2 | erewrite bind_err by exact E2; exact F3].
        unfold mbind at 1. destruct (get_min_FOS (snd s3)) as [f|e]; [|exact F3].
        rewrite bind_lift. destruct f as [f|]; [|exact F3]. msteps. exact F3.
      + intros fl' Q. rewrite E in Q. injection Q as <-. lra.
    - intros Ho. unfold analyse_dynamic. msteps.
      match goal with |- context [far_left ?a ?b ?c] =>
        replace (far_left a b c) with (@Err R e) by (symmetry; exact E) end.
      exact Ho.
  Qed.

  Lemma new_udl_offset m o l c d u : new_udl m o l c d = Ok u -> 0 <= u_offset u.
  Proof.
    unfold new_udl.
    repeat match goal with |- context [rbind ?x _] => destruct x; cbn [rbind]; try discriminate end.
    intros Q; injection Q as <-. cbn. unR. apply Rabs_pos.
  Qed.
  Lemma new_lload_offset m o c d u : new_lload m o c d = Ok u -> 0 <= l_offset u.
  Proof.
    unfold new_lload.
    repeat match goal with |- context [rbind ?x _] => destruct x; cbn [rbind]; try discriminate end.
    intros Q; injection Q as <-. cbn. unR. apply Rabs_pos.
  Qed.
  Lemma exec_offs o (s : stR) : calm s o -> offs s -> offs (snd (exec o s)).
  Proof.
    intros K F. destruct o; cbn [exec];
      try (unfold with_refs; msteps; destruct (forallb _ _); [|exact F]).
    - apply (offs_cores s); [|exact F]. unfold alloc. msteps.
      destruct (new_material _ _ _ _ _ _); reflexivity.
    - unfold alloc. msteps. destruct (new_udl _ _ _ _ _) as [u|e] eqn:E; [|exact F].
      destruct F as (F1 & F2). split; cbn; auto. apply Forall_app; split; auto.
      constructor; auto. eapply new_udl_offset; eauto.
    - unfold alloc. msteps. destruct (new_lload _ _ _ _) as [u|e] eqn:E; [|exact F].
      destruct F as (F1 & F2). split; cbn; auto. apply Forall_app; split; auto.
      constructor; auto. eapply new_lload_offset; eauto.
    - apply (offs_cores s); [apply cores_set_boundary|exact F].
    - apply (offs_cores s); [apply cores_boundary_options|exact F].
    - revert F. apply (cores_offs (set_water_table depth)). unfold set_water_table. untouched.
    - revert F. apply (cores_offs remove_water_table). unfold remove_water_table. untouched.
    - revert F. apply (cores_offs (update_water_analysis_options auto H)).
      unfold update_water_analysis_options. untouched.
    - apply (offs_cores s); [apply cores_set_udls|exact F].
    - apply (offs_cores s); [apply cores_remove_udls|exact F].
    - apply (offs_cores s); [apply cores_set_lls|exact F].
    - apply (offs_cores s); [apply cores_remove_lls|exact F].
    - apply (offs_cores s); [apply cores_set_materials|exact F].
    - apply (offs_cores s); [apply cores_remove_material|exact F].
    - revert F. apply (cores_offs (update_analysis_options slices iterations min_failure tolerance max_iterations)).
      unfold update_analysis_options. untouched.
    - revert F. apply (cores_offs (set_analysis_limits left_x right_x left_x_right right_x_left)).
      unfold set_analysis_limits. untouched.
    - revert F. apply (cores_offs remove_analysis_limits). unfold remove_analysis_limits. untouched.
    - revert F. apply (cores_offs (add_single_entry_exit_plane l_cx r_cx num_circles)).
      unfold add_single_entry_exit_plane. untouched.
    - revert F. apply (cores_offs (add_single_circular_plane c_x c_y radius)).
      unfold add_single_circular_plane. untouched.
    - revert F. apply (cores_offs remove_individual_planes). unfold remove_individual_planes. untouched.
    - apply (offs_cores s); [apply cores_analyse|exact F].
    - pose proof (offs_analyse_dynamic crit s K F) as H. unfold mbind.
      destruct (analyse_dynamic crit s) as [[a|e] s']; exact H.
  Qed.

  Lemma calm_run_fit ops : forall s : stR,
    calm_run s ops -> Inv s -> Fit s -> offs s ->
    Inv (run s ops) /\ Fit (run s ops) /\ offs (run s ops).
  Proof.
    unfold run. induction ops as [|o ops IH]; intros s K I F O; cbn [fold_left]; auto.
    destruct K as (K1 & K2). apply IH; auto.
    - now apply exec_inv.
    - now apply exec_fit.
    - now apply exec_offs.
  Qed.

  (** C18 *)
  Lemma loads_on_crest h a l ops (s0 s : stR) :
    new_slope empty_heap h a l = Ok s0 -> calm_run s0 ops -> s = run s0 ops ->
    let crest := fst (g_top (s_geom (snd s))) in
    (forall n u, In n (s_udls (snd s)) -> nth_error (h_udls (fst s)) n = Some u ->
       exists lft rgt, u_left u = Some lft /\ u_right u = Some rgt /\
         rgt = crest - u_offset u /\
         lft = match u_length u with Some len => rgt - len | None => 0 end /\
         0 <= lft /\ lft < rgt /\ rgt <= crest) /\
    (forall n x, In n (s_lls (snd s)) -> nth_error (h_lls (fst s)) n = Some x ->
       l_coord x = Some (crest - l_offset x) /\ 0 <= crest - l_offset x <= crest).
  Proof.
    intros E K ->.
    assert (I0 : Inv s0).
    { eapply new_slope_inv; [| | |exact E]; constructor. }
    assert (Z : Fit s0 /\ offs s0).
    { rewrite init_eff in E. destruct (boundary_inputs h a l) as [[hh ll]|e]; [|discriminate].
      injection E as <-. split; split; cbn; try apply Forall_nil; intros ? ? []. }
    destruct Z as (F0 & O0).
    destruct (calm_run_fit ops s0 K I0 F0 O0) as ((C & U & L) & (F1 & F2) & (O1 & O2)).
    set (s := run s0 ops) in *. cbn zeta.
    assert (Hc : 2 / 5 * ml s <= fst (g_top (s_geom (snd s)))).
    { destruct (c_geom s C) as (mh & Hmh & G).
      pose proof (c_l s C) as Hl. pose proof (c_h s C) as Hh.
      rewrite G. unfold geom_of. cbn [g_top fst]. unfold ml.
      set (hh := g_height (s_geom (snd s))) in *. set (ln := g_length (s_geom (snd s))) in *.
      set (m := s_min_ext_l (snd s)).
      pose proof (Rmax_l (Rmax (5 * ln) m) (4 * hh)).
      pose proof (Rmax_l (5 * ln) m). pose proof (Rmax_r (5 * ln) m). lra. }
    split.
    - intros n u Hn Hu. specialize (F1 n u Hn Hu). specialize (U n u Hn Hu).
      pose proof (proj1 (Forall_forall _ _) O1 u (nth_error_In _ _ Hu)) as Ho. cbn in Ho.
      pose proof (proj1 (Forall_forall _ _) (c_udls s C) u (nth_error_In _ _ Hu)) as (_ & Hk).
      unfold udl_coords in U. cbv zeta in U.
      unfold udl_min_length in F1. unfold top_x in U.
      set (cr := fst (g_top (s_geom (snd s)))) in *.
      exists (fst (udl_left_right cr u)), (snd (udl_left_right cr u)).
      split; [rewrite <- U at 1; reflexivity|]. split; [rewrite <- U at 1; reflexivity|].
      unfold udl_left_right in *. cbn [fst snd] in *. unR.
      destruct (u_length u) as [len|]; unR.
      + rewrite (proj2 (Reqb_false len 0)) in * by lra. cbn [negb] in *.
        unR. split; [reflexivity|].
        rewrite Rmax_right by lra. split; [reflexivity|]. lra.
      + lra.
    - intros n u Hn Hu. specialize (F2 n u Hn Hu). specialize (L n u Hn Hu).
      pose proof (proj1 (Forall_forall _ _) O2 u (nth_error_In _ _ Hu)) as Ho. cbn in Ho.
      unfold ll_coords, top_x in L.
      set (cr := fst (g_top (s_geom (snd s)))) in *.
      split; [|lra]. rewrite <- L at 1. cbn. unR. rewrite Rmax_right by lra. reflexivity.
  Qed.
End Fit.
