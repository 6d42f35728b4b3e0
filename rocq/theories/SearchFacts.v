(** * SearchFacts: results, their validity and their order (C27-C30). *)
From Coq Require Import ZArith Reals Lra Lia List Bool String Permutation Sorted.
From Verif Require Import Num Py Validation Utilities Objects Slope Planes Analysis
     Dynamic Api RealNum RealFacts ListFacts MonadFacts SlopeFacts MaterialFacts KeepFacts
     Invariant History Spec EditFacts LayerFacts DynFacts.
Import ListNotations.
Local Open Scope R_scope.

Ltac ands_ := repeat match goal with |- _ /\ _ => split end.

(** ** C27: a successful edit ends by discarding the results *)
Section Ends.
  Context {T : Type} {NT : Num T} {EN : Env}.
  Definition ends {A} (m : M (st T) A) : Prop :=
    forall s a s', m s = (Ok a, s') -> s_search (snd s') = [].
  Lemma ends_bind {A B} (m : M (st T) A) (k : A -> M (st T) B) :
    (forall a, ends (k a)) -> ends (mbind m k).
  Proof.
    intros H s b s'. unfold mbind. destruct (m s) as [[a|e] s1]; [|discriminate]. apply H.
  Qed.
  Lemma ends_reset : ends reset_results.
  Proof. intros s a s' E. injection E as _ <-. reflexivity. Qed.
  Lemma ends_raise {A} e : ends (A := A) (mraise e).
  Proof. intros s a s' E. discriminate. Qed.

  Definition edits (o : op T) : bool :=
    match o with
    | NewMaterial _ _ _ _ _ _ | NewUdl _ _ _ _ _ | NewLload _ _ _ _
    | AddCircle _ _ _ | Analyse _ | AnalyseDynamic _ => false
    | _ => true
    end.
  Ltac endsin := repeat (cbv zeta; first
    [ apply ends_reset | apply ends_raise | apply ends_bind; intros ?
    | match goal with |- ends (if ?b then _ else _) => destruct b end ]).
  Lemma edit_discards o (s s' : st T) :
    edits o = true -> exec o s = (Ok tt, s') -> s_search (snd s') = [].
  Proof.
    intros H. assert (K : ends (exec o)); [|exact (K s tt s')].
    destruct o; try discriminate; cbn [exec]; unfold with_refs; endsin.
  Qed.
  Lemma circle_discards x y r (s s' : st T) :
    exec (AddCircle x y r) s = (Ok tt, s') ->
    (s' = s /\ exists il, circle_external (s_geom (snd s)) x y r = Ok il /\ first_two il = None) \/
    s_search (snd s') = [].
  Proof.
    cbn [exec]. unfold add_single_circular_plane. rewrite bind_self_get, bind_lift.
    destruct (circle_external _ _ _ _) as [il|e]; [|discriminate].
    destruct (first_two il) as [[l q]|] eqn:E.
    - intros Q. right. injection Q as <-. reflexivity.
    - intros Q. left. injection Q as <-. split; auto. exists il. auto.
  Qed.
  Lemma new_no_results h height angle length (s : st T) :
    new_slope h height angle length = Ok s -> s_search (snd s) = [].
  Proof.
    unfold new_slope.
    destruct (init_slope height angle length (h, blank_slope)) as [[a|e] s1] eqn:E; [|discriminate].
    intros Q. injection Q as <-. revert E.
    assert (K : ends (init_slope height angle length)); [|exact (K _ _ _)].
    unfold init_slope, remove_analysis_limits. endsin.
  Qed.
  Lemma no_results (sl : slope T) : s_search sl = [] ->
    get_min_FOS sl = Err IndexError /\ get_min_FOS_circle sl = Err IndexError /\
    get_min_FOS_end_points sl = Err IndexError.
  Proof.
    intros E. unfold get_min_FOS, get_min_FOS_circle, get_min_FOS_end_points.
    rewrite E. auto.
  Qed.
  Lemma edit_no_results o (s s' : st T) :
    edits o = true -> exec o s = (Ok tt, s') ->
    get_min_FOS (snd s') = Err IndexError /\ get_min_FOS_circle (snd s') = Err IndexError /\
    get_min_FOS_end_points (snd s') = Err IndexError.
  Proof. intros H E. eapply no_results, edit_discards; eauto. Qed.
  Lemma circle_no_results x y r (s s' : st T) :
    exec (AddCircle x y r) s = (Ok tt, s') ->
    (s' = s /\ exists il, circle_external (s_geom (snd s)) x y r = Ok il /\ first_two il = None) \/
    (get_min_FOS (snd s') = Err IndexError /\ get_min_FOS_circle (snd s') = Err IndexError /\
     get_min_FOS_end_points (snd s') = Err IndexError).
  Proof. intros E. destruct (circle_discards _ _ _ _ _ E); auto using no_results. Qed.
  Lemma fresh_no_results h height angle length (s : st T) :
    new_slope h height angle length = Ok s ->
    get_min_FOS (snd s) = Err IndexError /\ get_min_FOS_circle (snd s) = Err IndexError /\
    get_min_FOS_end_points (snd s) = Err IndexError.
  Proof. intros E. eapply no_results, new_no_results; eauto. Qed.
End Ends.

(** ** C30: what an analysis stores *)
Section Store.
  Context {T : Type} {NT : Num T} {EN : Env}.

  (** the circle of a stored record *)
  Definition circle_of (p : plane T) := (p_cx p, p_cy p, p_radius p).
  Definition factor (v : view T) (p : plane T) : res (option T) :=
    bishop v (p_cx p) (p_cy p) (p_radius p).
  Lemma fos_loop_ok v l done :
    fos_loop v l = (Ok tt, done) ->
    Forall2 (fun p d => exists f, factor v p = Ok f /\ d = set_fos f p) l done.
  Proof.
    revert done. induction l as [|p l IH]; intros done; cbn [fos_loop].
    - intros Q. injection Q as <-. constructor.
    - destruct (bishop v _ _ _) as [f|e] eqn:E; [|discriminate].
      destruct (fos_loop v l) as [r l''] eqn:EL. intros Q. injection Q as -> <-.
      constructor; auto. exists f. auto.
  Qed.
  Lemma fos_loop_again v l done :
    fos_loop v l = (Ok tt, done) -> fos_loop v done = (Ok tt, done).
  Proof.
    revert done. induction l as [|p l IH]; intros done; cbn [fos_loop].
    - intros Q. injection Q as <-. reflexivity.
    - destruct (bishop v _ _ _) as [f|e] eqn:E; [|discriminate].
      destruct (fos_loop v l) as [r l''] eqn:EL. intros Q. injection Q as -> <-.
      cbn [fos_loop]. cbn [p_cx p_cy p_radius set_fos]. rewrite E.
      rewrite (IH l'' eq_refl). reflexivity.
  Qed.

  (** the circles analysed by [analyse_slope] *)
  Definition analysed (s : st T) (v : view T) (cs : list (plane T)) : Prop :=
    (s_planes (snd s) = [] /\ entry_exit_planes v = Ok cs) \/
    (s_planes (snd s) <> [] /\ cs = s_planes (snd s)).
  Lemma analyse_ok m (s s' : st T) :
    analyse_slope m s = (Ok tt, s') ->
    exists v cs done, view_of s = Ok v /\ analysed s v cs /\
      fos_loop v cs = (Ok tt, done) /\
      s' = (fst s, set_s_search (tidy m done)
              (if match s_planes (snd s) with [] => true | _ => false end
               then snd s else set_s_planes done (snd s))).
  Proof.
    unfold analyse_slope. rewrite bind_self_get.
    unfold mbind at 1. destruct (view_of s) as [v|e] eqn:Ev; [|discriminate].
    destruct (s_planes (snd s)) as [|p ps] eqn:Ep.
    - rewrite bind_lift. destruct (entry_exit_planes v) as [cs|e] eqn:Ec; [|discriminate].
      destruct (fos_loop v cs) as [[[]|e] done] eqn:El.
      2:{ rewrite bind_self_upd, bind_lift. discriminate. }
      rewrite bind_self_upd, bind_lift, self_upd_eff. intros Q. injection Q as <-.
      exists v, cs, done. split; auto. split; [left; auto|]. split; auto.
    - destruct (fos_loop v (p :: ps)) as [[[]|e] done] eqn:El.
      2:{ rewrite !bind_self_upd, bind_lift. discriminate. }
      rewrite !bind_self_upd, bind_lift, self_upd_eff. intros Q. injection Q as <-.
      exists v, (p :: ps), done. split; auto. split; [|split; auto].
      right. rewrite Ep. split; [discriminate|auto].
  Qed.
  Lemma analyse_intro m (s : st T) v cs done :
    view_of s = Ok v -> analysed s v cs -> fos_loop v cs = (Ok tt, done) ->
    analyse_slope m s = (Ok tt, (fst s, set_s_search (tidy m done)
              (if match s_planes (snd s) with [] => true | _ => false end
               then snd s else set_s_planes done (snd s)))).
  Proof.
    intros Ev Ha El. unfold analyse_slope. rewrite bind_self_get.
    unfold mbind at 1. rewrite Ev. destruct Ha as [(Ep & Ec)|(Ep & ->)].
    - rewrite Ep, bind_lift, Ec, El. rewrite bind_self_upd, bind_lift, self_upd_eff. reflexivity.
    - destruct (s_planes (snd s)) as [|p ps]; [contradiction|].
      rewrite El. rewrite !bind_self_upd, bind_lift, self_upd_eff. reflexivity.
  Qed.

  (** analysing twice gives the same state *)
  Lemma analyse_again m (s s' : st T) :
    analyse_slope m s = (Ok tt, s') -> analyse_slope m s' = (Ok tt, s').
  Proof.
    intros E. destruct (analyse_ok m s s' E) as (v & cs & done & Ev & Ha & El & ->).
    destruct Ha as [(Ep & Ec)|(Ep & ->)].
    - rewrite Ep. erewrite (analyse_intro m _ v cs done); auto; cbn [fst snd s_planes set_s_search].
      + rewrite Ep. reflexivity.
      + left. cbn. auto.
    - assert (Nd : done <> []).
      { destruct (s_planes (snd s)) as [|p ps]; [contradiction|]. cbn [fos_loop] in El.
        destruct (bishop v _ _ _); [|discriminate]. destruct (fos_loop v ps). injection El as _ <-.
        discriminate. }
      destruct (s_planes (snd s)) as [|p ps] eqn:Eps; [contradiction|].
      erewrite (analyse_intro m _ v done done); cbn [fst snd s_planes set_s_search set_s_planes].
      + destruct done; [contradiction|reflexivity].
      + exact Ev.
      + right. auto.
      + eapply fos_loop_again; eauto.
  Qed.
End Store.

Section StoreR.
  Context {EN : Env}.
  Notation stR := (st R).

  (** the filter of [max_fos]; None and 0 mean no filter *)
  Definition passes (m : option R) (f : R) : Prop :=
    match m with None => True | Some x => x = 0 \/ f <= x end.
  (** [p] is the record of circle [c] with the factor [f] *)
  Definition record_of (v : view R) (p c : plane R) (f : R) : Prop :=
    circle_of p = circle_of c /\ p_l p = p_l c /\ p_r p = p_r c /\
    p_fos p = Some (Some f) /\ factor v c = Ok (Some f).

  Lemma tidy_sorted m l : StronglySorted (key_le fos_val) (tidy m l).
  Proof.
    unfold tidy. pose proof (sort_by_sorted fos_val (filter has_fos l)) as S.
    destruct m as [x|]; auto. destruct (neqb x _); auto.
    induction S as [|a l' S IH F]; cbn [filter]; [constructor|].
    destruct (nleb _ x); auto. constructor; auto.
    apply Forall_forall. intros y Hy. apply filter_In in Hy as (Hy & _).
    now apply (proj1 (Forall_forall _ _) F).
  Qed.
  Lemma tidy_In m l p : In p (tidy m l) <->
    In p l /\ exists f, p_fos p = Some (Some f) /\ passes m f.
  Proof.
    assert (B : In p (sort_by fos_val (filter has_fos l)) <->
                In p l /\ exists f, p_fos p = Some (Some f)).
    { unfold sort_by. rewrite sort_In, filter_In. unfold has_fos.
      destruct (p_fos p) as [[f|]|]; split; intros (H1 & H2); split; auto; eauto;
        try discriminate; destruct H2 as (? & ?); discriminate. }
    unfold tidy. destruct m as [x|]; cbn [passes].
    2:{ rewrite B. split; [intros (H & f & E)|intros (H & f & E & _)]; eauto 6. }
    unR. destruct (Reqb x 0) eqn:E0; rbool.
    - rewrite B. split; [intros (H & f & E)|intros (H & f & E & _)]; eauto 6.
    - rewrite filter_In, B. unfold fos_val. split.
      + intros ((H & f & E) & L). rewrite E in L. unR. rbool. split; auto. exists f. auto.
      + intros (H & f & E & [Q|Q]); [contradiction|]. split; eauto. rewrite E. unR.
        now apply Rleb_true.
  Qed.
  Lemma tidy_perm m l : exists rest, Permutation (filter has_fos l) (tidy m l ++ rest) /\
    Forall (fun p => ~ passes m (fos_val p)) rest.
  Proof.
    unfold tidy. pose proof (sort_by_perm fos_val (filter has_fos l)) as P.
    destruct m as [x|]; cbn [passes].
    2:{ exists []. rewrite app_nil_r. auto. }
    unR. destruct (Reqb x 0) eqn:E0; rbool.
    { exists []. rewrite app_nil_r. auto. }
    set (L := sort_by fos_val (filter has_fos l)) in *.
    exists (filter (fun p => negb (Rleb (fos_val p) x)) L). split.
    - eapply Permutation_trans; [exact P|]. clear. induction L as [|a L IH]; cbn [filter]; auto.
      destruct (Rleb (fos_val a) x); cbn [negb app]; [auto|].
      eapply Permutation_trans; [constructor; exact IH|]. apply Permutation_middle.
    - apply Forall_forall. intros p Hp. apply filter_In in Hp as (_ & Hp).
      destruct (Rleb (fos_val p) x) eqn:E; [discriminate|]. rbool. intros [Q|Q]; [contradiction|lra].
  Qed.

  (** the kept circles, as a filter of the analysed ones *)
  Lemma search_spec m (s s' : stR) :
    analyse_slope m s = (Ok tt, s') ->
    exists v cs, view_of s = Ok v /\ analysed s v cs /\
      (forall c, In c cs -> exists f, factor v c = Ok f) /\
      (forall p, In p (s_search (snd s')) <->
         exists c f, In c cs /\ record_of v p c f /\ passes m f /\ p = set_fos (Some f) c) /\
      StronglySorted (fun p q => forall f g, p_fos p = Some (Some f) -> p_fos q = Some (Some g) -> f <= g)
                     (s_search (snd s')) /\
      (List.length (s_search (snd s')) =
         List.length (filter (fun c => match factor v c with
           | Ok (Some f) => match m with None => true
                                       | Some x => Reqb x 0 || Rleb f x end
           | _ => false end) cs))%nat.
  Proof.
    intros E. destruct (analyse_ok m s s' E) as (v & cs & done & Ev & Ha & El & ->).
    apply fos_loop_ok in El. exists v, cs. split; auto. split; auto.
    assert (In2 : forall c, In c cs -> exists f, factor v c = Ok f /\ In (set_fos f c) done).
    { clear - El. induction El as [|c d cs done (f & E & ->) F IH]; intros x [].
      - subst. exists f. split; auto. now left.
      - destruct (IH x) as (g & G1 & G2); auto. exists g. split; auto. now right. }
    assert (In1 : forall d, In d done -> exists c f, In c cs /\ factor v c = Ok f /\ d = set_fos f c).
    { clear - El. induction El as [|c d cs done (f & E & ->) F IH]; intros x [].
      - subst. exists c, f. split; [now left|auto].
      - destruct (IH x) as (c' & g & G1 & G2 & G3); auto. exists c', g. split; [now right|auto]. }
    split; [intros c Hc; destruct (In2 c Hc) as (f & Hf & _); eauto|].
    assert (SS : forall A (b : bool) (a a' : slope R), s_search (set_s_search A (if b then a else a')) = A)
      by (intros; destruct b; reflexivity).
    cbn [snd]. rewrite SS. split; [|split].
    - intros p. rewrite tidy_In. split.
      + intros (H & f & Ef & Hp). destruct (In1 p H) as (c & g & Hc & Hg & ->).
        cbn in Ef. injection Ef as ->. exists c, f. split; auto.
        split; [|auto]. unfold record_of, circle_of. cbn. auto.
      + intros (c & f & Hc & Hr & Hp & ->). destruct (In2 c Hc) as (g & Hg & Hi).
        destruct Hr as (_ & _ & _ & _ & Hf). rewrite Hg in Hf. injection Hf as ->.
        split; auto. exists f. auto.
    - pose proof (tidy_sorted m done) as S. clear - S.
      induction S as [|a l S IH F]; constructor; auto.
      eapply Forall_impl; [|exact F]. intros b Hb f g Ea Eb.
      unfold key_le, fos_val in Hb. now rewrite Ea, Eb in Hb.
    - assert (P : List.length (tidy m done) = List.length (filter
         (fun p => match p_fos p with Some (Some f) => match m with None => true
                      | Some x => Reqb x 0 || Rleb f x end | _ => false end) done)).
      { unfold tidy. assert (Q : forall g : plane R -> bool,
          List.length (filter g (sort_by fos_val (filter has_fos done))) =
          List.length (filter g (filter has_fos done))).
        { intros g. apply Permutation_length. generalize (sort_by_perm fos_val (filter has_fos done)).
          generalize (sort_by fos_val (filter has_fos done)). intros L P. symmetry in P.
          induction P; cbn [filter]; auto.
          - destruct (g x); auto.
          - destruct (g x), (g y); auto. apply perm_swap.
          - eapply Permutation_trans; eauto. }
        destruct m as [x|].
        - unR. destruct (Reqb x 0) eqn:E0.
          + etransitivity; [symmetry; apply (Permutation_length (sort_by_perm _ _))|].
            reflexivity.
          + rewrite Q. clear. induction done as [|p done IH]; cbn [filter]; auto.
            unfold has_fos at 1. destruct (p_fos p) as [[f|]|] eqn:Ep; auto.
            cbn [filter]. replace (fos_val p) with f by (unfold fos_val; now rewrite Ep).
            cbn [orb]. destruct (Rleb f x); cbn [List.length]; auto.
        - etransitivity; [symmetry; apply (Permutation_length (sort_by_perm _ _))|].
          reflexivity. }
      rewrite P. clear - El. induction El as [|c d cs done (f & E & ->) F IH]; cbn [filter]; auto.
      cbn [p_fos set_fos]. rewrite E. destruct f as [f|]; auto.
      destruct m as [x|]; [destruct (Reqb x 0 || Rleb f x)|]; cbn [List.length]; auto.
  Qed.

  (** the reported factor *)
  Lemma min_spec m (s s' : stR) :
    analyse_slope m s = (Ok tt, s') ->
    exists v cs, view_of s = Ok v /\ analysed s v cs /\
      ((get_min_FOS (snd s') = Err IndexError /\
        forall c f, In c cs -> factor v c = Ok (Some f) -> ~ passes m f) \/
       (exists c f, get_min_FOS (snd s') = Ok (Some f) /\ In c cs /\ factor v c = Ok (Some f) /\
          get_min_FOS_circle (snd s') = Ok (circle_of c) /\
          get_min_FOS_end_points (snd s') = Ok (p_l c, p_r c) /\
          forall c' f', In c' cs -> factor v c' = Ok (Some f') -> f <= f')).
  Proof.
    intros E. destruct (search_spec m s s' E) as (v & cs & Ev & Ha & Hf & Hin & Hs & _).
    exists v, cs. split; auto. split; auto.
    unfold get_min_FOS, get_min_FOS_circle, get_min_FOS_end_points.
    destruct (s_search (snd s')) as [|p ps] eqn:Es.
    - left. split; auto. intros c f Hc Hcf Hp.
      assert (Q : In (set_fos (Some f) c) []); [|destruct Q].
      apply Hin. exists c, f. split; auto. split; [|auto]. unfold record_of, circle_of. cbn. auto.
    - right. destruct (proj1 (Hin p) (or_introl eq_refl)) as (c & f & Hc & Hr & Hp & ->).
      exists c, f. cbn. destruct Hr as (_ & _ & _ & _ & Hcf).
      split; auto. split; auto. split; auto. split; auto. split; auto.
      intros c' f' Hc' Hf'.
      assert (Pm : passes m f' -> f <= f').
      { intros Q. assert (I' : In (set_fos (Some f') c') (set_fos (Some f) c :: ps)).
        { apply Hin. exists c', f'. split; auto. split; [|auto]. unfold record_of, circle_of. cbn. auto. }
        inversion Hs as [|? ? S1 F1]; subst. destruct I' as [I'|I'].
        - pose proof (f_equal (@p_fos R) I') as Q'. cbn in Q'. injection Q' as ->. lra.
        - rewrite Forall_forall in F1. apply (F1 _ I' f f'); reflexivity. }
      destruct m as [x|]; cbn [passes] in *; auto.
      destruct (Rle_dec f' x); auto. destruct Hp; [auto|lra].
  Qed.
End StoreR.

(** ** C28: reported results belong to the current model *)
Section Valid.
  Context {EN : Env}.
  Notation stR := (st R).

  Lemma analyse_transfer m (s s' : stR) :
    analyse_slope m s = (Ok tt, s) -> view_of s' = view_of s ->
    s_planes (snd s') = s_planes (snd s) -> s_search (snd s') = s_search (snd s) ->
    analyse_slope m s' = (Ok tt, s').
  Proof.
    intros E Ev Ep Es. destruct (analyse_ok m s s E) as (v & cs & done & Ev0 & Ha & El & Q).
    rewrite (analyse_intro m s' v cs done); auto; try congruence.
    2:{ unfold analysed in *. now rewrite Ep. }
    f_equal. rewrite Ep. apply (f_equal snd) in Q. cbn [snd] in Q.
    destruct (s_planes (snd s)) as [|p ps] eqn:Eps.
    - assert (Hs : tidy m done = s_search (snd s')) by (rewrite Es, Q; reflexivity).
      rewrite Hs. destruct s' as [h' sl']. destruct sl'. reflexivity.
    - assert (Hs : tidy m done = s_search (snd s')) by (rewrite Es, Q; reflexivity).
      assert (Hp : done = s_planes (snd s')) by (rewrite Ep, <- Eps, Q; reflexivity).
      rewrite Hs, Hp. destruct s' as [h' sl']. destruct sl'. reflexivity.
  Qed.

  Definition current (s : stR) : Prop :=
    s_search (snd s) = [] \/ exists m, analyse_slope m s = (Ok tt, s).
  Lemma current_transfer s s' :
    current s -> view_of s' = view_of s ->
    s_planes (snd s') = s_planes (snd s) -> s_search (snd s') = s_search (snd s) -> current s'.
  Proof.
    intros [Z|(m & E)] Ev Ep Es; [left; congruence|].
    right. exists m. eapply analyse_transfer; eauto.
  Qed.
  Lemma current_analyse m s s' : analyse_slope m s = (Ok tt, s') -> current s'.
  Proof. intros E. right. exists m. eapply analyse_again; eauto. Qed.
  Lemma current_try o (s s' : stR) f : try_offset o s = (Ok f, s') -> current s'.
  Proof.
    unfold try_offset, mbind at 1. destruct (set_dynamic_offset o s) as [[[]|e] s1]; [|discriminate].
    unfold mbind at 1. destruct (analyse_slope None s1) as [[[]|e] s2] eqn:E2; [|discriminate].
    apply current_analyse in E2.
    unfold mbind at 1. destruct (get_min_FOS (snd s2)) as [[g|]|e]; try discriminate.
    msteps. intros Q. injection Q as _ <-. eapply current_transfer; [exact E2| | |]; reflexivity.
  Qed.
  Lemma current_loop k : forall c l r p (s s' : stR),
    current s -> dynamic_loop k c l r p s = (Ok tt, s') -> current s'.
  Proof.
    induction k as [|k IH]; intros c l r p s s' J; cbn [dynamic_loop].
    - intros Q; injection Q as <-. exact J.
    - msteps. destruct (dict_get l _); [|discriminate].
      msteps. destruct (dict_get r _); [|discriminate].
      msteps. destruct (midpoint_of _ _ _ _ _) as [mid|]; [|discriminate].
      destruct (try_offset mid s) as [[f|e] s1] eqn:E.
      2:{ erewrite bind_err by exact E. discriminate. }
      erewrite bind_ok by exact E. apply current_try in E.
      destruct (converged _ _ _); [intros Q; injection Q as <-; exact E|].
      destruct (nltb f _); now apply IH.
  Qed.
  Lemma current_dynamic c (s s' : stR) a : analyse_dynamic c s = (Ok a, s') -> current s'.
  Proof.
    unfold analyse_dynamic. msteps. destruct (far_left _ _ _) as [fl|e]; [|discriminate].
    match goal with |- context [mbind (try_offset ?o) _ ?x] =>
      destruct (try_offset o x) as [[f|e] s1] eqn:E1;
        [erewrite bind_ok by exact E1 | erewrite bind_err by exact E1; discriminate] end.
    apply current_try in E1.
    destruct (nltb _ f); [intros Q; injection Q as _ <-; exact E1|].
    match goal with |- context [mbind (try_offset ?o) _ ?x] =>
      destruct (try_offset o x) as [[f2|e] s2] eqn:E2;
        [erewrite bind_ok by exact E2 | erewrite bind_err by exact E2; discriminate] end.
    apply current_try in E2.
    destruct (nltb f2 _); [intros Q; injection Q as _ <-; exact E2|].
    match goal with |- context [mbind (dynamic_loop ?k ?c ?l ?r ?p) _ ?x] =>
      destruct (dynamic_loop k c l r p x) as [[[]|e] s3] eqn:E3;
        [erewrite bind_ok by exact E3 | erewrite bind_err by exact E3; discriminate] end.
    apply current_loop in E3; auto.
    msteps. intros Q. injection Q as _ <-. eapply current_transfer; [exact E3| | |]; reflexivity.
  Qed.

  (** reading through a longer heap *)
  Lemma derefs_longer {A} (h k : list A) locs :
    (forall n, In n locs -> exists a, nth_error h n = Some a) -> derefs (h ++ k) locs = derefs h locs.
  Proof.
    intros H. symmetry. apply derefs_ext. intros n Hn. destruct (H n Hn) as (a & E).
    rewrite nth_error_app1; auto. apply nth_error_Some. congruence.
  Qed.
  Lemma view_longer (s : stR) a b c : Inv s ->
    view_of (MkHeap (h_materials (fst s) ++ a) (h_udls (fst s) ++ b) (h_lls (fst s) ++ c), snd s) = view_of s.
  Proof.
    intros (C & _ & _). unfold view_of, mats_of, udls_of, lls_of. cbn [fst snd h_materials h_udls h_lls].
    rewrite !derefs_longer; auto.
    - intros n Hn. destruct (c_ll_locs s C n Hn) as (x & E & _). eauto.
    - intros n Hn. destruct (c_udl_locs s C n Hn) as (x & E & _). eauto.
    - intros n Hn. destruct (c_mat_set s C n Hn) as (x & E & _). eauto.
  Qed.

  Definition is_analysis (o : op R) : bool :=
    match o with Analyse _ | AnalyseDynamic _ => true | _ => false end.
  (** no analysis of the history raises *)
  Fixpoint quiet_run (s : stR) (ops : list (op R)) : Prop :=
    match ops with
    | [] => True
    | o :: ops' => (is_analysis o = true -> fst (exec o s) = Ok tt) /\ quiet_run (step s o) ops'
    end.

  Lemma reachable_step o (s : stR) : reachable s -> reachable (step s o).
  Proof.
    intros (h & a & l & ops & s0 & E & ->). exists h, a, l, (ops ++ [o]), s0. split; auto.
    unfold run. now rewrite fold_left_app.
  Qed.
  Lemma set_materials_err l (s s' : stR) e :
    Core s -> exec (SetMaterials l) s = (Err e, s') -> s' = s \/ s_search (snd s') = [].
  Proof.
    intros C. cbn [exec]. unfold with_refs. msteps. destruct (forallb _ _).
    2:{ intros Q. left. now injection Q as _ <-. }
    rewrite set_materials_eff by exact C.
    destruct (material_locs l); [|intros Q; left; now injection Q as _ <-].
    destruct (rev _) as [|d ds]; [intros Q; left; now injection Q as _ <-|].
    destruct (has_dup _); [|discriminate]. intros Q. injection Q as _ <-.
    unfold deepened. destruct (Rltb _ d); [right; reflexivity|left; reflexivity].
  Qed.

  Lemma current_step o (s : stR) :
    reachable s -> (is_analysis o = true -> fst (exec o s) = Ok tt) ->
    current s -> current (step s o).
  Proof.
    intros Hr Hq J. unfold step. pose proof (reachable_inv s Hr) as I. pose proof I as (C & _ & _).
    destruct (exec o s) as [[[]|e] s'] eqn:E; cbn [snd].
    - destruct (edits o) eqn:Ed.
      { left. eapply edit_discards; eauto. }
      destruct o; try discriminate Ed; cbn [exec] in E.
      + unfold alloc in E. rewrite bind_lift in E. destruct (new_material _ _ _ _ _ _); [|discriminate].
        injection E as <-. eapply current_transfer; [exact J| | |]; try reflexivity.
        pose proof (view_longer s [a] [] [] I) as V. rewrite !app_nil_r in V. exact V.
      + unfold alloc in E. rewrite bind_lift in E. destruct (new_udl _ _ _ _ _); [|discriminate].
        injection E as <-. eapply current_transfer; [exact J| | |]; try reflexivity.
        pose proof (view_longer s [] [a] [] I) as V. rewrite !app_nil_r in V. exact V.
      + unfold alloc in E. rewrite bind_lift in E. destruct (new_lload _ _ _ _); [|discriminate].
        injection E as <-. eapply current_transfer; [exact J| | |]; try reflexivity.
        pose proof (view_longer s [] [] [a] I) as V. rewrite !app_nil_r in V. exact V.
      + destruct (circle_discards c_x c_y radius s s' E) as [(-> & _)|Z]; [exact J|left; exact Z].
      + eapply current_analyse; eauto.
      + unfold mbind in E. destruct (analyse_dynamic crit s) as [[a|e] s1] eqn:E1; [|discriminate].
        injection E as <-. eapply current_dynamic; eauto.
    - destruct (atomic_edit o) eqn:Ea.
      { rewrite (rejected_unchanged s o e s' Hr Ea E). exact J. }
      destruct o; try discriminate Ea; cbn [is_analysis] in Hq;
        try (specialize (Hq eq_refl); discriminate).
      + cbn [exec] in E.
        destruct (inv_update_boundary _ _ _ C _ _ E) as [(Q & _)|(e' & _ & [->|(v & _ & ->)])].
        * discriminate.
        * exact J.
        * eapply current_transfer; [exact J| | |]; reflexivity.
      + destruct (set_materials_err l s s' e C E) as [->|Z]; [exact J|left; exact Z].
  Qed.
  Lemma current_run ops : forall s : stR,
    reachable s -> quiet_run s ops -> current s -> current (run s ops).
  Proof.
    unfold run. induction ops as [|o ops IH]; intros s Hr Q J; cbn [fold_left]; auto.
    destruct Q as (Q1 & Q2). apply IH; auto using reachable_step, current_step.
  Qed.

  (** C28 *)
  Lemma results_current h a l (s0 s : stR) ops f :
    new_slope empty_heap h a l = Ok s0 -> quiet_run s0 ops -> s = run s0 ops ->
    get_min_FOS (snd s) = Ok f ->
    (exists m, analyse_slope m s = (Ok tt, s)) /\
    exists s1, analyse_slope None s = (Ok tt, s1) /\
      get_min_FOS (snd s1) = Ok f /\
      get_min_FOS_circle (snd s1) = get_min_FOS_circle (snd s) /\
      get_min_FOS_end_points (snd s1) = get_min_FOS_end_points (snd s).
  Proof.
    intros E Q -> Ef.
    assert (J : current (run s0 ops)).
    { apply current_run; auto.
      - exists h, a, l, [], s0. auto.
      - left. eapply new_no_results; eauto. }
    set (s := run s0 ops) in *. clearbody s.
    destruct J as [Z|(m & Em)].
    { unfold get_min_FOS in Ef. rewrite Z in Ef. discriminate. }
    split; [exists m; exact Em|].
    destruct (analyse_ok m s s Em) as (v & cs & done & Ev & Ha & El & Qs).
    pose proof (analyse_intro None s v cs done Ev Ha El) as E1.
    eexists. split; [exact E1|].
    assert (Hm : s_search (snd s) = tidy m done).
    { rewrite Qs. cbn [snd]. destruct (s_planes (snd s)); reflexivity. }
    cbn [snd]. unfold get_min_FOS, get_min_FOS_circle, get_min_FOS_end_points in *.
    assert (SS : forall A (b : bool) (x y : slope R), s_search (set_s_search A (if b then x else y)) = A)
      by (intros; destruct b; reflexivity).
    rewrite SS. rewrite Hm in *. clear - Ef.
    destruct (tidy m done) as [|p ps] eqn:Et; [discriminate|].
    assert (Hd : exists qs, tidy None done = p :: qs).
    { unfold tidy in *. set (L := sort_by fos_val (filter has_fos done)) in *.
      assert (S : StronglySorted (key_le fos_val) L) by apply sort_by_sorted.
      destruct m as [x|]; [|eauto]. unR. destruct (Reqb x 0); [eauto|].
      destruct L as [|q L']; [discriminate|]. cbn [filter] in Et.
      destruct (Rleb (fos_val q) x) eqn:Eq; [injection Et as <- _; eauto|].
      exfalso. inversion S as [|? ? S1 F1]; subst.
      assert (Hp : In p (filter (fun p => Rleb (fos_val p) x) L')) by (rewrite Et; now left).
      apply filter_In in Hp as (Hp & Hx). rewrite Forall_forall in F1. specialize (F1 p Hp).
      unfold key_le in F1. rbool. lra. }
    destruct Hd as (qs & ->). auto.
  Qed.
End Valid.

(** ** C29: what a raised analysis leaves behind *)
Section Failed.
  Context {T : Type} {NT : Num T} {EN : Env}.
  Lemma fos_loop_err v l e done :
    fos_loop v l = (Err e, done) ->
    exists before c rest updated, l = before ++ c :: rest /\ done = updated ++ c :: rest /\
      Forall2 (fun p d => exists f, factor v p = Ok f /\ d = set_fos f p) before updated /\
      factor v c = Err e.
  Proof.
    revert done. induction l as [|p l IH]; intros done; cbn [fos_loop]; [discriminate|].
    destruct (bishop v _ _ _) as [f|e'] eqn:E.
    - destruct (fos_loop v l) as [r l''] eqn:El. intros Q. injection Q as -> <-.
      destruct (IH l'' eq_refl) as (b & c & rest & u & -> & -> & F & Ec).
      exists (p :: b), c, rest, (set_fos f p :: u). ands_; auto. constructor; auto. exists f. auto.
    - intros Q. injection Q as <- <-. exists [], p, l, []. ands_; auto.
  Qed.
  Lemma failed_analysis m (s s' : st T) e :
    analyse_slope m s = (Err e, s') ->
    s' = s \/
    exists v cs before c rest updated,
      view_of s = Ok v /\ analysed s v cs /\ cs = before ++ c :: rest /\
      factor v c = Err e /\
      Forall2 (fun p d => exists f, factor v p = Ok f /\ d = set_fos f p) before updated /\
      s_search (snd s') = updated ++ c :: rest /\
      view_of s' = Ok v.
  Proof.
    unfold analyse_slope. rewrite bind_self_get.
    unfold mbind at 1. destruct (view_of s) as [v|e'] eqn:Ev.
    2:{ intros Q. injection Q as _ <-. auto. }
    destruct (s_planes (snd s)) as [|p ps] eqn:Ep.
    - rewrite bind_lift. destruct (entry_exit_planes v) as [cs|e'] eqn:Ec.
      2:{ intros Q. injection Q as _ <-. auto. }
      destruct (fos_loop v cs) as [[[]|e'] done] eqn:El.
      { rewrite bind_self_upd, bind_lift, self_upd_eff. discriminate. }
      rewrite bind_self_upd, bind_lift. intros Q. injection Q as -> <-. right.
      destruct (fos_loop_err _ _ _ _ El) as (b & c & rest & u & -> & -> & F & Ef).
      exists v, (b ++ c :: rest), b, c, rest, u. ands_; auto. left. auto.
    - destruct (fos_loop v (p :: ps)) as [[[]|e'] done] eqn:El.
      { rewrite !bind_self_upd, bind_lift, self_upd_eff. discriminate. }
      rewrite !bind_self_upd, bind_lift. intros Q. injection Q as -> <-. right.
      destruct (fos_loop_err _ _ _ _ El) as (b & c & rest & u & El' & -> & F & Ef).
      exists v, (p :: ps), b, c, rest, u. ands_; auto.
      right. rewrite Ep. split; [discriminate|auto].
  Qed.
  (** what [get_min_FOS] then reports *)
  Lemma failed_report m (s s' : st T) e f :
    analyse_slope m s = (Err e, s') -> get_min_FOS (snd s') = Ok (Some f) ->
    s' = s \/
    exists v cs c, view_of s' = Ok v /\ analysed s v cs /\ hd_error cs = Some c /\
      (factor v c = Ok (Some f) \/ (factor v c = Err e /\ p_fos c = Some (Some f))).
  Proof.
    intros E G. destruct (failed_analysis m s s' e E)
      as [->|(v & cs & b & c & rest & u & Ev & Ha & -> & Ec & F & Es & Ev')]; [auto|right].
    unfold get_min_FOS in G. rewrite Es in G.
    destruct F as [|p d b u (x & Ex & ->) F]; cbn [app] in *.
    - exists v, (c :: rest), c. ands_; auto. right. split; auto.
      destruct (p_fos c); [congruence|discriminate].
    - exists v, (p :: b ++ c :: rest), p. ands_; auto. left. cbn in G. congruence.
  Qed.
End Failed.
