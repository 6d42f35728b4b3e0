(** * SessionFacts: the pages, the stored session, the report and the circles on display. *)
From Coq Require Import ZArith Reals Lra Lia List Bool String Sorted.
From Verif Require Import Num Py Validation Utilities Objects Slope Planes Analysis
     Dynamic Api RealNum RealFacts ListFacts MonadFacts SlopeFacts
     Invariant History Spec SearchFacts FosTotal Plot Web ShowFacts PictureFacts.
Import ListNotations.

Section Generic.
  Context {T : Type} {NT : Num T} {EN : Env}.

  (** What a visitor was last shown: [None] if nothing yet, [Some None] after a
      reset, [Some (Some p)] if the page [p] came after the last reset. *)
  Definition shown_step (w : option (option page)) (x : request T * response T)
    : option (option page) :=
    match x with
    | (GetReset, _) => Some None
    | (_, Page p) => Some (Some p)
    | _ => w
    end.
  Definition last_shown (l : list (request T * response T)) : option (option page) :=
    fold_left shown_step l None.

  Definition keeps_shown (w : option (option page)) (ss : session T) : Prop :=
    match w with
    | None => ss = no_session
    | Some None => ss = MkSession Blank Blank false
    | Some (Some (fig, search)) =>
        search <> [] /\ ss_plot ss = Holds fig /\ ss_search ss = Holds search
    end.

  Lemma page_search prec (s : st T) fig :
    plot_critical prec true s = Ok fig -> s_search (snd s) <> [].
  Proof.
    unfold plot_critical. destruct (plot_boundary prec true s); cbn [rbind]; [|discriminate].
    now destruct (s_search (snd s)).
  Qed.
  Lemma map_some {A B} (f : A -> B) l : l <> [] -> map f l <> [].
  Proof. now destruct l. Qed.
  Lemma first_page_search prec fig search : first_page prec = Ok (fig, search) -> search <> [].
  Proof.
    unfold first_page. destruct (new_slope _ _ _ _) as [s|]; cbn [rbind]; [|discriminate].
    destruct (exec_all _ s) as [[u|e] s']; [|discriminate].
    destruct (plot_critical prec true s') as [f|] eqn:E; cbn [rbind]; [|discriminate].
    injection 1 as <- <-. eapply map_some, page_search; eauto.
  Qed.
  Lemma post_inv prec f fig search : post prec f = Ok (fig, search) ->
    exists s, create_slope f = Ok s /\ plot_critical prec true s = Ok fig /\
      search = map (fun p => (p, web_arc p)) (s_search (snd s)) /\ search <> [].
  Proof.
    unfold post. destruct (create_slope f) as [s|]; cbn [rbind]; [|discriminate].
    destruct (plot_critical prec true s) as [x|] eqn:E; cbn [rbind]; [|discriminate].
    injection 1 as <- <-. exists s. repeat split; auto. eapply map_some, page_search; eauto.
  Qed.

  Lemma answer_shown r fm w (ss : session T) q :
    (forall fig search, r = Ok (fig, search) -> search <> []) ->
    keeps_shown w ss -> q <> GetReset ->
    keeps_shown (shown_step w (q, fst (answer r fm ss))) (snd (answer r fm ss)).
  Proof.
    intros N K Q. destruct r as [[fig search]|e]; cbn [answer fst snd].
    - specialize (N fig search eq_refl).
      assert (E : keeps_shown (Some (Some (fig, search)))
                    (MkSession (Holds fig) (stored search) fm)).
      { cbn [keeps_shown ss_plot ss_search]. repeat split; auto. now destruct search. }
      now destruct q.
    - now destruct q.
  Qed.
  Lemma serve_shown prec q w (ss : session T) :
    keeps_shown w ss -> keeps_shown (shown_step w (q, fst (serve prec q ss))) (snd (serve prec q ss)).
  Proof.
    intros K. destruct q as [|f| |m].
    - assert (A : keeps_shown (shown_step w (GetIndex, fst (answer (first_page prec) false ss)))
                              (snd (answer (first_page prec) false ss))).
      { apply answer_shown; auto; [|discriminate]. intros fig search. apply first_page_search. }
      unfold serve. destruct (ss_forms ss); [|exact A].
      destruct (ss_plot ss) as [| |fig] eqn:P; try exact A.
      destruct (ss_search ss) as [| |search] eqn:Q; try exact A.
      cbn [fst snd shown_step]. destruct w as [[[a b]|]|].
      + destruct K as (N & P' & Q'). rewrite P in P'. rewrite Q in Q'.
        injection P' as ->. injection Q' as ->. repeat split; auto.
      + cbn [keeps_shown] in K. subst ss. discriminate P.
      + cbn [keeps_shown] in K. subst ss. discriminate P.
    - destruct f as [f|]; [|exact K]. unfold serve. apply answer_shown; auto; [|discriminate].
      intros fig search E. now destruct (post_inv prec f fig search E) as (? & ? & ? & ? & ?).
    - reflexivity.
    - unfold serve.
      assert (Z : forall a (r : response T * session T), snd r = ss ->
        fst r = a -> (match a with Page _ => False | _ => True end) ->
        keeps_shown (shown_step w (GetPdf m, fst r)) (snd r)).
      { intros a r E1 E2 N. rewrite E1, E2. now destruct a. }
      destruct (ss_plot ss) as [| |fig]; [now eapply Z | now eapply Z |].
      destruct (ss_search ss) as [| |search]; [now eapply Z | now eapply Z |].
      destruct m as [m|]; [|now eapply Z].
      destruct (report fig search m); now eapply Z.
  Qed.
  Lemma visit_shown prec l : forall w (ss : session T), keeps_shown w ss ->
    keeps_shown (fold_left shown_step (combine l (fst (visit prec l ss))) w)
                (snd (visit prec l ss)).
  Proof.
    induction l as [|q l IH]; intros w ss K; [exact K|]. cbn [visit].
    pose proof (serve_shown prec q w ss K) as K'.
    destruct (serve prec q ss) as [a ss']. cbn [fst snd] in K'.
    specialize (IH _ _ K'). destruct (visit prec l ss') as [rest ss'']. exact IH.
  Qed.

  (** The answer to a request for the report, after any visit. *)
  Lemma report_answer prec l (answers : list (response T)) ss m :
    visit prec l no_session = (answers, ss) ->
    serve prec (GetPdf (Some m)) ss =
    (match last_shown (combine l answers) with
     | None => Failure KeyError
     | Some None => ToIndex
     | Some (Some (fig, search)) =>
         match report fig search m with Ok f => Report f | Err e => Failure e end
     end, ss).
  Proof.
    intros E. pose proof (visit_shown prec l None no_session eq_refl) as K.
    rewrite E in K. cbn [fst snd] in K. fold (last_shown (combine l answers)) in K.
    unfold serve. destruct (last_shown (combine l answers)) as [[[fig search]|]|].
    - destruct K as (N & -> & ->). now destruct (report fig search m).
    - cbn [keeps_shown] in K. now subst ss.
    - cbn [keeps_shown] in K. now subst ss.
  Qed.

  (** Every page shown is the page of a first visit or the page of a form
      submitted before. *)
  Definition from_form prec (l : list (request T)) (p : page) : Prop :=
    first_page prec = Ok p \/ exists f, In (PostIndex (Some f)) l /\ post prec f = Ok p.
  Definition knows prec l (ss : session T) : Prop :=
    forall fig search, ss_plot ss = Holds fig -> ss_search ss = Holds search ->
      from_form prec l (fig, search).
  Lemma from_more prec l l' p : from_form prec l p -> from_form prec (l ++ l') p.
  Proof.
    intros [F | (f & I & F)]; [now left|]. right. exists f. split; auto. apply in_or_app. auto.
  Qed.
  Lemma stored_holds search x : @stored T search = Holds x -> x = search.
  Proof. destruct search; cbn [stored]; [discriminate|]. now injection 1. Qed.
  Lemma serve_knows prec q l (ss : session T) : knows prec l ss ->
    knows prec (l ++ [q]) (snd (serve prec q ss)) /\
    forall p, fst (serve prec q ss) = Page p -> from_form prec (l ++ [q]) p.
  Proof.
    intros K.
    assert (K' : knows prec (l ++ [q]) ss) by (intros fig search P Q; apply from_more; auto).
    assert (A : forall r fm, (forall p, r = Ok p -> from_form prec (l ++ [q]) p) ->
      knows prec (l ++ [q]) (snd (answer r fm ss)) /\
      forall p, fst (answer r fm ss) = Page p -> from_form prec (l ++ [q]) p).
    { intros [[fig search]|e] fm F; cbn [answer fst snd]; [|split; auto; discriminate].
      split.
      - intros fg sr P Q. cbn [ss_plot ss_search] in *. injection P as <-.
        apply stored_holds in Q. subst. auto.
      - intros p E. injection E as <-. auto. }
    destruct q as [|f| |m]; unfold serve.
    - assert (D : knows prec (l ++ [GetIndex]) (snd (answer (first_page prec) false ss)) /\
        forall p, fst (answer (first_page prec) false ss) = Page p ->
                  from_form prec (l ++ [GetIndex]) p).
      { apply A. intros p E. now left. }
      destruct (ss_forms ss); [|exact D].
      destruct (ss_plot ss) as [| |fig] eqn:P; try exact D.
      destruct (ss_search ss) as [| |search] eqn:Q; try exact D.
      split; [exact K'|]. cbn [fst]. intros p E. injection E as <-. auto.
    - destruct f as [f|]; [|split; auto; discriminate]. apply A. intros p E. right. exists f.
      split; auto. apply in_or_app. right. now left.
    - split; [|discriminate]. intros fig search P. discriminate.
    - destruct (ss_plot ss) as [| |fig]; [split; auto; discriminate | split; auto; discriminate |].
      destruct (ss_search ss) as [| |search]; [split; auto; discriminate | split; auto; discriminate |].
      destruct m as [m|]; [|split; auto; discriminate].
      destruct (report fig search m); split; auto; discriminate.
  Qed.
  Lemma visit_knows prec l : forall l0 (ss : session T), knows prec l0 ss ->
    forall p, In (Page p) (fst (visit prec l ss)) -> from_form prec (l0 ++ l) p.
  Proof.
    induction l as [|q l IH]; intros l0 ss K p I; [destruct I|]. cbn [visit] in I.
    destruct (serve_knows prec q l0 ss K) as [K' F].
    destruct (serve prec q ss) as [a ss']. cbn [fst snd] in *.
    specialize (IH (l0 ++ [q]) ss' K' p). rewrite <- app_assoc in IH.
    destruct (visit prec l ss') as [rest ss'']. cbn [fst] in *.
    destruct I as [-> | I]; [|auto].
    specialize (F p eq_refl). change (q :: l) with ([q] ++ l). rewrite app_assoc.
    now apply from_more.
  Qed.
  Lemma pages_from prec l p :
    In (Page p) (fst (visit prec l no_session)) -> from_form prec l p.
  Proof. apply (visit_knows prec l []). intros fig search E. discriminate. Qed.

  (** Looking at the page again, or at the report, changes nothing. *)
  Definition looking (q : request T) : Prop :=
    match q with GetIndex | GetPdf _ => True | _ => False end.
  Lemma page_again prec f p l : forall (ss ss' : session T),
    serve prec (PostIndex (Some f)) ss = (Page p, ss') ->
    Forall looking l ->
    snd (visit prec l ss') = ss' /\
    forall i, nth_error l i = Some GetIndex ->
              nth_error (fst (visit prec l ss')) i = Some (Page p).
  Proof.
    intros ss ss' E. unfold serve in E.
    destruct (post prec f) as [[fig search]|] eqn:P; [|discriminate].
    cbn [answer] in E. injection E as <- <-.
    destruct (post_inv prec f fig search P) as (s & _ & _ & _ & N).
    assert (G : serve prec GetIndex (MkSession (Holds fig) (stored search) true)
                = (Page (fig, search), MkSession (Holds fig) (stored search) true)).
    { unfold serve. cbn [ss_forms ss_plot ss_search]. now destruct search. }
    set (ss' := MkSession (Holds fig) (stored search) true) in *.
    assert (K : forall m, snd (serve prec (GetPdf m) ss') = ss').
    { intros m. unfold serve, ss'. cbn [ss_plot ss_search].
      destruct (stored search); [reflexivity | reflexivity |].
      destruct m; [|reflexivity]. now destruct (report fig a t). }
    induction l as [|q l IH]; intros F.
    - split; [reflexivity|]. intros [|i] H; discriminate.
    - inversion F as [|? ? Q F']; subst. specialize (IH F'). cbn [visit].
      assert (Z : snd (serve prec q ss') = ss' /\
                  (q = GetIndex -> fst (serve prec q ss') = Page (fig, search))).
      { destruct q; try destruct Q; [rewrite G; auto | split; [apply K | discriminate]]. }
      destruct Z as [Z1 Z2]. destruct (serve prec q ss') as [a s1]. cbn [fst snd] in *. subst s1.
      destruct (visit prec l ss') as [rest ss2]. cbn [fst snd] in *. split; [apply IH|].
      intros [|i] H; cbn [nth_error] in *; [|now apply IH].
      injection H as ->. now rewrite Z2.
  Qed.

  (** The report is the figure of all circles below the limit. *)
  Lemma report_is_all_planes prec f fig search m :
    post prec f = Ok (fig, search) ->
    exists s, create_slope f = Ok s /\
      report fig search m = plot_all_planes prec (Some m) true s.
  Proof.
    intros P. destruct (post_inv prec f fig search P) as (s & C & E & -> & _).
    exists s. split; auto. unfold report, plot_all_planes. rewrite E. cbn [rbind].
    rewrite map_map. cbn [fst]. now rewrite map_id.
  Qed.
End Generic.

(** ** The circles on display, in real numbers *)
Local Open Scope R_scope.
Notation listed := (list (plane R * list (point R))) (only parsing).
Definition factor_in (c : plane R * list (point R)) (f : R) : Prop := p_fos (fst c) = Some (Some f).
(** all analysed, in the order of their factors *)
Definition ranked (l : list (plane R)) : Prop :=
  Forall analysed_ok l /\
  StronglySorted (fun p q => forall f g, p_fos p = Some (Some f) -> p_fos q = Some (Some g) -> f <= g) l.

Lemma shown_filter limit (search : listed) :
  ranked (map fst search) ->
  shown_circles limit search = Ok (filter (fun c => shown_below (Some limit) (fst c)) search).
Proof.
  intros [A S]. induction search as [|c search IH]; [reflexivity|].
  cbn [map] in A, S. inversion A as [|? ? (f & F & P) A']; subst.
  inversion S as [|? ? S' L]; subst. cbn [shown_circles filter].
  assert (Q : Plot.fos_of (fst c) = Ok f) by (unfold Plot.fos_of; now rewrite F).
  rewrite Q. cbn [rbind]. unfold shown_below at 1. rewrite F. unR.
  rewrite (proj2 (Rltb_false f 0)) by lra.
  destruct (Rlt_dec f limit) as [D | D].
  - rewrite (proj2 (Rltb_true f limit)) by lra. now rewrite IH.
  - rewrite (proj2 (Rltb_false f limit)) by lra. f_equal. symmetry.
    assert (N : Forall (fun q => shown_below (Some limit) q = false) (map fst search)).
    { clear - A' L F D. rewrite Forall_forall in *. intros q I.
      destruct (A' q I) as (g & G & _). specialize (L q I f g F G).
      unfold shown_below. rewrite G. destruct (Rlt_dec g limit); auto. lra. }
    clear - N. induction search as [|d search IH]; [reflexivity|].
    cbn [map] in N. inversion N as [|? ? E N']; subst. cbn [filter].
    rewrite E. auto.
Qed.
Lemma display_filter limit (search : listed) :
  ranked (map fst search) ->
  updateFOS limit search = Ok (rev (filter (fun c => shown_below (Some limit) (fst c)) search)).
Proof.
  intros K. unfold updateFOS. unR. destruct (Rltb 0 limit) eqn:E; rbool.
  - now rewrite shown_filter.
  - destruct K as [A _]. do 1 f_equal.
    induction search as [|c search IH]; [reflexivity|]. cbn [map] in A.
    inversion A as [|? ? (f & F & P) A']; subst. cbn [filter]. unfold shown_below at 1.
    rewrite F. destruct (Rlt_dec f limit); [lra|]. auto.
Qed.
