(** * FirstFacts: the page of a first visit, and the points sent with a circle. *)
From Coq Require Import ZArith Reals Lra Lia List Bool String Sorted.
From Verif Require Import Num Py Validation Utilities Objects Slope Planes Analysis
     Dynamic Api RealNum RealFacts ListFacts MonadFacts SlopeFacts
     Invariant History Spec SearchFacts FosTotal Plot PlotFacts Web ShowFacts PictureFacts SessionFacts FormFacts FormMore.
Import ListNotations.
Local Open Scope R_scope.

(** The form of a first visit as it came: the defaults of models.py:30-50 and of
    forms.py:85-140, with [n] slices, the slope given by its angle. *)
Definition untouched (n : Z) : form R :=
  MkForm 1 45 1 false n 500 [None] [] [] false 1 false false 0 8 4 6 false (3 / 2).

Section First.
  Context {EN : Env}.

  Lemma blank_made c : c = PNone \/ c = PStr "" -> exists x : material R, m_depth x = 5 /\
    new_material (PInt 20) (PInt 35) (PInt 2) (PInt 5) (PStr "") c = Ok x.
  Proof.
    intros C. unfold new_material. cbn -[Rabs Rleb Rltb]. unR.
    repeat match goal with |- context [Rltb ?a ?b] =>
      first [rewrite (proj2 (Rltb_true a b)) by lra
            |replace (Rltb a b) with false by (symmetry; apply Bool.not_true_iff_false; rewrite Rltb_true; lra)] end.
    cbn -[Rabs]. destruct C as [-> | ->]; (eexists; split; [|reflexivity]); cbn -[Rabs];
      rewrite Rabs_right; lra.
  Qed.
  Lemma options_late (s : st R) c n i : c = PNone \/ c = PStr "" ->
    fst s = empty_heap -> s_materials (snd s) = [] -> ~ g_ext_h (s_geom (snd s)) < 5 ->
    exec_all [AnalysisOpts (Some n) (Some i) None None None;
              NewMaterial (PInt 20) (PInt 35) (PInt 2) (PInt 5) (PStr "") c; SetMaterials [RefMaterial 0]] s =
    exec_all [NewMaterial (PInt 20) (PInt 35) (PInt 2) (PInt 5) (PStr "") c; SetMaterials [RefMaterial 0];
              AnalysisOpts (Some n) (Some i) None None None] s.
  Proof.
    intros C Hh Hm Hg. destruct s as [h sl]. cbn [fst snd] in *. subst h. destruct sl. cbn in Hm. subst.
    cbn in Hg. cbn [exec_all exec]. destruct (blank_made c C) as (x & D & ->).
    unfold alloc, with_refs, set_materials, update_analysis_options, mwhen, mbind, mget, mlift, mupd, mret,
      self_get, self_upd, heap_get, reset_results.
    cbn -[Rltb Z.max Z.min Z.eqb].
    destruct (Z.eqb n 0), (Z.eqb i 0); cbn -[Rltb Z.max Z.min Z.eqb]; rewrite D;
    (replace (Rltb (g_ext_h s_geom) 5) with false
      by (symmetry; apply Bool.not_true_iff_false; rewrite Rltb_true; exact Hg)); reflexivity.
  Qed.
  Lemma same_inputs : new_slope empty_heap (PInt 1) (PInt 45) PNone =
    new_slope (T := R) empty_heap (PFloat 1) (PFloat 45) PNone.
  Proof.
    rewrite !init_eff. replace (boundary_inputs (T := R) (PInt 1) (PInt 45) PNone) with
      (boundary_inputs (PFloat 1) (PFloat 45) PNone); [reflexivity|].
    unfold boundary_inputs, assert_range, assert_positive_number, assert_strictly_positive_number.
    cbn [is_none isinstance_num type_num negb as_num rbind andb orb]. unR. cbn [truthy]. unR.
    rewrite (proj2 (Reqb_false 45 0)) by lra. reflexivity.
  Qed.

  Lemma exec_all_cons (o : op R) l s : exec_all (o :: l) s =
    match exec o s with (Ok _, s') => exec_all l s' | (Err e, s') => (Err e, s') end.
  Proof. cbn [exec_all]. unfold mbind. destruct (exec o s) as [[[]|e] s']; reflexivity. Qed.

  Lemma first_is prec : first_page prec = post prec (untouched 10).
  Proof.
    unfold first_page, post, create_slope, web_slope. cbn [w_by_length untouched w_height w_angle].
    rewrite same_inputs. change (IZR 1) with 1.
    destruct (new_slope empty_heap (PFloat 1) (PFloat 45) PNone) as [s|e] eqn:E; [|reflexivity].
    cbn [rbind].
    assert (Q : fst s = empty_heap /\ s_materials (snd s) = [] /\ ~ g_ext_h (s_geom (snd s)) < 5).
    { pose proof E as E'. rewrite init_eff in E. destruct (boundary_inputs _ _ _) as [[h l]|] eqn:B; [|discriminate E].
      apply (f_equal (fun r => match r with Ok x => x | Err _ => s end)) in E. cbn in E. subst s.
      split; [reflexivity|]. split; [reflexivity|].
      cbn -[Rmax Rltb]. pose proof (Rmax_l (Rmax (3 * h) 6) (5 * l / 2)). pose proof (Rmax_r (3 * h) 6). lra. }
    destruct Q as (Qh & Qm & Qg).
    assert (C : forall c, c = PNone \/ c = PStr "" -> exec (NewMaterial (PInt 20) (PInt 35) (PInt 2) (PInt 5) (PStr "") c) s =
      exec (NewMaterial (PInt 20) (PInt 35) (PInt 2) (PInt 5) (PStr "") (PStr "")) s).
    { intros c [-> | ->]; reflexivity. }
    change (setup_ops (untouched 10) ++ limit_ops (untouched 10)) with
      [AnalysisOpts (T := R) (Some 10%Z) (Some 500%Z) None None None;
       NewMaterial (PInt 20) (PInt 35) (PInt 2) (PInt 5) (PStr "") PNone; SetMaterials [RefMaterial 0]].
    rewrite (options_late s PNone 10 500 (or_introl eq_refl) Qh Qm Qg).
    rewrite !exec_all_cons, (C PNone (or_introl eq_refl)).
    destruct (exec (NewMaterial _ _ _ _ _ _) s) as [[[]|e] s1]; [|reflexivity].
    rewrite !exec_all_cons. destruct (exec (SetMaterials [RefMaterial 0]) s1) as [[[]|e] s2]; [|reflexivity].
    rewrite !exec_all_cons. destruct (exec (AnalysisOpts (Some 10%Z) (Some 500%Z) None None None) s2) as [[[]|e] s3]; [|reflexivity].
    change (exec_all [] s3) with (Ok tt, s3).
    rewrite !exec_all_cons. cbn [exec]. unfold web_analysis. cbn [w_dynamic untouched].
    destruct (analyse_slope (Some (nz 5)) s3) as [[[]|e] s4]; reflexivity.
  Qed.

  (** ** The points sent with a circle *)
  Lemma web_arc_is (p : plane R) : web_arc p =
    p_l p :: filter (fun q => if Rle_dec (fst (p_l p)) (fst q)
                              then if Rle_dec (fst q) (fst (p_r p)) then true else false else false)
                    (map (sample (p_cx p) (p_cy p) (p_radius p)) (zrange 0 90)) ++ [p_r p].
  Proof.
    unfold web_arc. cbn [app]. f_equal. f_equal.
    assert (E : generate_circle_coordinates (p_cx p) (p_cy p) (p_radius p) =
                map (sample (p_cx p) (p_cy p) (p_radius p)) (zrange 0 90)).
    { unfold generate_circle_coordinates. rewrite circle_angles_eq, map_map. apply map_ext. intros k.
      unfold sample, nradians. unR. rewrite plus_IZR, mult_IZR.
      replace ((2 * IZR k + 1) * (PI / 180)) with ((2 * IZR k + 1) * PI / 180) by lra.
      f_equal; f_equal; ring. }
    rewrite E. apply filter_ext. intros q. unR.
    destruct (Rle_dec (fst (p_l p)) (fst q)); destruct (Rle_dec (fst q) (fst (p_r p)));
      rcase; try reflexivity; try contradiction; rbool; lra.
  Qed.
  Lemma web_arc_sorted (p : plane R) : 0 <= p_radius p -> fst (p_l p) <= fst (p_r p) ->
    StronglySorted (fun a b : R * R => fst a <= fst b) (web_arc p) /\
    Forall (fun q => q = p_l p \/ q = p_r p \/
              Rabs (dist_euc (fst q) (snd q) (p_cx p) (p_cy p) - p_radius p) <= / 1000) (web_arc p).
  Proof.
    intros P L. unfold web_arc. cbn [app].
    set (m := filter _ _).
    assert (B : forall q, In q m -> fst (p_l p) <= fst q <= fst (p_r p) /\
              Rabs (dist_euc (fst q) (snd q) (p_cx p) (p_cy p) - p_radius p) <= / 1000).
    { intros q I. apply filter_In in I. destruct I as [I C]. unR. rbool. split; [lra|now apply coords_near]. }
    assert (O : StronglySorted (fun a b : R * R => fst a <= fst b) m) by now apply strong_filter, coords_sorted.
    split.
    - constructor.
      + clearbody m. induction m as [|a m IH]; cbn [app]; [repeat constructor|].
        apply StronglySorted_inv in O as [O F]. constructor.
        * apply IH; auto. intros q I. apply B. now right.
        * apply Forall_app. split; [exact F|]. constructor; [|constructor]. apply B. now left.
      + apply Forall_app. split; [|constructor; [exact L|constructor]].
        apply Forall_forall. intros q I. apply B, I.
    - constructor; [now left|]. apply Forall_app. split; [|constructor; [right; now left|constructor]].
      apply Forall_forall. intros q I. right. right. apply B, I.
  Qed.

  Lemma form_valid_iff (f : form R) : form_valid f = true <->
    (500 <= w_iterations f <= 5000)%Z /\ (10 <= w_slices f <= 50)%Z /\ 0 <= w_critical f <= 5.
  Proof.
    split; [apply form_valid_R|]. intros ((A & B) & (C & D) & (E & F)).
    unfold form_valid. rewrite !andb_true_iff, !Z.leb_le. unR. repeat split; auto; rcase; lra.
  Qed.
End First.

(** ** The report without a number, and what a visitor who looks finds *)
Section Visits.
  Context {T : Type} {NT : Num T} {EN : Env}.
  Lemma report_no_number prec (l : list (request T)) answers ss :
    visit prec l no_session = (answers, ss) ->
    serve prec (GetPdf None) ss =
    (match last_shown (combine l answers) with
     | None => Failure KeyError
     | Some None => ToIndex
     | Some (Some _) => Failure ValueError
     end, ss).
  Proof.
    intros E. pose proof (visit_shown prec l None no_session eq_refl) as K.
    rewrite E in K. cbn [fst snd] in K. fold (last_shown (combine l answers)) in K.
    unfold serve. destruct (last_shown (combine l answers)) as [[[fig search]|]|].
    - now destruct K as (N & -> & ->).
    - cbn [keeps_shown] in K. now subst ss.
    - cbn [keeps_shown] in K. now subst ss.
  Qed.

  (** the page of the last form answered with a page since the last reset *)
  Definition posted_step (w : option page) (x : request T * response T) : option page :=
    match x with
    | (GetReset, _) => None
    | (PostIndex _, Page p) => Some p
    | _ => w
    end.
  Definition last_posted (l : list (request T * response T)) : option page := fold_left posted_step l None.
  Definition keeps_posted (w : option page) (ss : session T) : Prop :=
    match w with
    | Some (fig, search) => ss_forms ss = true /\ ss_plot ss = Holds fig /\ ss_search ss = Holds search
    | None => ss_forms ss = false
    end.
  Lemma serve_posted prec q w (ss : session T) :
    keeps_posted w ss -> keeps_posted (posted_step w (q, fst (serve prec q ss))) (snd (serve prec q ss)).
  Proof.
    intros K. destruct q as [|f| |m]; cbn [serve].
    - destruct w as [[fig search]|].
      + destruct K as (A & B & C). rewrite A, B, C. cbn. auto.
      + cbn [keeps_posted] in K. rewrite K. unfold answer.
        destruct (first_page prec) as [[fig search]|e]; cbn; auto.
    - destruct f as [f|]; [|exact K]. unfold answer. destruct (post prec f) as [[fig search]|e] eqn:E; cbn [fst snd posted_step]; [|exact K].
      destruct (post_inv prec f fig search E) as (_ & _ & _ & _ & N). cbn. repeat split. now destruct search.
    - reflexivity.
    - destruct (ss_plot ss) as [| |fig]; [exact K|exact K|]. destruct (ss_search ss) as [| |search]; [exact K|exact K|].
      destruct m as [m|]; [|exact K]. destruct (report fig search m); exact K.
  Qed.
  Lemma visit_posted prec l : forall w (ss : session T), keeps_posted w ss ->
    keeps_posted (fold_left posted_step (combine l (fst (visit prec l ss))) w) (snd (visit prec l ss)).
  Proof.
    induction l as [|q l IH]; intros w ss K; [exact K|]. cbn [visit].
    pose proof (serve_posted prec q w ss K) as K'.
    destruct (serve prec q ss) as [a ss']. cbn [fst snd] in K'.
    specialize (IH _ _ K'). destruct (visit prec l ss') as [rest ss'']. exact IH.
  Qed.
  Lemma looked prec (l : list (request T)) answers ss :
    visit prec l no_session = (answers, ss) ->
    fst (serve prec GetIndex ss) =
    match last_posted (combine l answers) with
    | Some p => Page p
    | None => match first_page prec with Ok p => Page p | Err e => Failure e end
    end.
  Proof.
    intros E. pose proof (visit_posted prec l None no_session eq_refl) as K.
    rewrite E in K. cbn [fst snd] in K. fold (last_posted (combine l answers)) in K.
    cbn [serve]. destruct (last_posted (combine l answers)) as [[fig search]|].
    - now destruct K as (-> & -> & ->).
    - cbn [keeps_posted] in K. rewrite K. unfold answer. now destruct (first_page prec) as [[fig search]|e].
  Qed.
  (** what a submitted form is answered does not depend on the visit *)
  Lemma posted_answer prec (ss : session T) f :
    fst (serve prec (PostIndex f) ss) =
    match f with
    | None => ToReset
    | Some f => match post prec f with Ok p => Page p | Err e => Failure e end
    end.
  Proof. destruct f as [f|]; [|reflexivity]. cbn [serve]. unfold answer. now destruct (post prec f) as [[fig search]|e]. Qed.
End Visits.
