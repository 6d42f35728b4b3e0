(** * InputFacts: shown and hidden inputs, the two buttons, the sliders (C83-C85). *)
From Coq Require Import ZArith Reals Lra Lia List Bool String Permutation.
From Verif Require Import Num Py Validation Utilities Objects Slope Planes Analysis
     Dynamic Api RealNum RealFacts ListFacts MonadFacts SlopeFacts MaterialFacts
     Invariant History Spec Plot Web Browser FormFacts FormMore Inputs.
Import ListNotations.
Local Open Scope R_scope.

(** ** Hidden inputs *)
Section Hidden.
  Context {T : Type} {NT : Num T} {EN : Env}.
  (** the content of an input: a number or a tick *)
  Definition content (f : form T) (i : input) : T + bool :=
    match i with
    | Angle => inl (w_angle f) | Length => inl (w_length f)
    | WaterDepth => inl (w_water_depth f)
    | LeftX => inl (w_left f) | RightX => inl (w_right f)
    | InnerBox => inr (w_consider_inner f)
    | LeftXRight => inl (w_left_r f) | RightXLeft => inl (w_right_l f)
    end.
  (** two forms that look the same *)
  Definition look_alike (f f' : form T) : Prop :=
    w_height f' = w_height f /\ w_by_length f' = w_by_length f /\
    w_slices f' = w_slices f /\ w_iterations f' = w_iterations f /\
    w_materials f' = w_materials f /\ w_lls f' = w_lls f /\ w_udls f' = w_udls f /\
    w_consider_water f' = w_consider_water f /\ w_consider_limits f' = w_consider_limits f /\
    w_dynamic f' = w_dynamic f /\ w_critical f' = w_critical f /\
    forall i, shown f i = true -> content f' i = content f i.

  Lemma hidden_same f f' : look_alike f f' -> create_slope f' = create_slope f.
  Proof.
    intros (A1 & A2 & A3 & A4 & A5 & A6 & A7 & A8 & A9 & A10 & A11 & H).
    assert (W : web_slope f' = web_slope f).
    { unfold web_slope. rewrite A1, A2. destruct (w_by_length f) eqn:B.
      - pose proof (H Length) as Q. unfold shown, displays, loaded, place, slope_rows in Q. rewrite B in Q.
        specialize (Q eq_refl). cbn [content] in Q. injection Q as ->. reflexivity.
      - pose proof (H Angle) as Q. unfold shown, displays, loaded, place, slope_rows in Q. rewrite B in Q.
        specialize (Q eq_refl). cbn [content] in Q. injection Q as ->. reflexivity. }
    assert (U : setup_ops f' = setup_ops f).
    { unfold setup_ops. rewrite A3, A4, A5, A6, A7, A8. destruct (w_consider_water f) eqn:B; [|reflexivity].
      pose proof (H WaterDepth) as Q. unfold shown, displays, loaded, place, water_rows in Q. rewrite B in Q.
      specialize (Q eq_refl). cbn [content] in Q. injection Q as ->. reflexivity. }
    assert (L : limit_ops f' = limit_ops f).
    { unfold limit_ops. rewrite A9. destruct (w_consider_limits f) eqn:B; [|reflexivity].
      assert (Q : forall i, In i [LeftX; RightX; InnerBox] -> content f' i = content f i).
      { intros i I. apply H. unfold shown, displays, loaded, limits_rows. rewrite B.
        destruct (w_consider_inner f); destruct I as [ <- | [ <- | [ <- | [] ] ] ]; reflexivity. }
      pose proof (Q InnerBox (or_intror (or_intror (or_introl eq_refl)))) as Q3.
      pose proof (Q LeftX (or_introl eq_refl)) as Q1.
      pose proof (Q RightX (or_intror (or_introl eq_refl))) as Q2.
      cbn [content] in Q1, Q2, Q3. injection Q1 as ->. injection Q2 as ->. injection Q3 as ->.
      destruct (w_consider_inner f) eqn:C; [|reflexivity].
      pose proof (H LeftXRight) as Q4. pose proof (H RightXLeft) as Q5.
      unfold shown, displays, loaded, place, limits_rows in Q4, Q5. rewrite B, C in Q4, Q5.
      specialize (Q4 eq_refl). specialize (Q5 eq_refl). cbn [content] in Q4, Q5.
      injection Q4 as ->. injection Q5 as ->. reflexivity. }
    unfold create_slope. rewrite W, U, L. unfold web_analysis. rewrite A10, A11. reflexivity.
  Qed.
  Lemma hidden_page prec f f' : look_alike f f' -> post prec f' = post prec f.
  Proof. intros E. unfold post. now rewrite (hidden_same _ _ E). Qed.

  (** the form with another number in one input *)
  Definition typed (i : input) (x : T) (f : form T) : form T :=
    let pick j y := match i, j with
                    | Angle, Angle | Length, Length | WaterDepth, WaterDepth | LeftX, LeftX
                    | RightX, RightX | LeftXRight, LeftXRight | RightXLeft, RightXLeft => x
                    | _, _ => y end in
    MkForm (w_height f) (pick Angle (w_angle f)) (pick Length (w_length f)) (w_by_length f)
      (w_slices f) (w_iterations f) (w_materials f) (w_lls f) (w_udls f)
      (w_consider_water f) (pick WaterDepth (w_water_depth f))
      (w_consider_limits f) (w_consider_inner f)
      (pick LeftX (w_left f)) (pick RightX (w_right f))
      (pick LeftXRight (w_left_r f)) (pick RightXLeft (w_right_l f))
      (w_dynamic f) (w_critical f).
  Lemma blank_hidden prec ss (f : form T) (readable : input -> bool) i :
    In i all_inputs -> readable i = false ->
    serve prec (PostIndex (clean (f, readable))) ss = (ToReset, ss).
  Proof.
    intros I N. unfold clean. cbn [fst snd].
    destruct (forallb readable all_inputs) eqn:E; [|reflexivity].
    rewrite forallb_forall in E. rewrite (E i I) in N. discriminate.
  Qed.
End Hidden.

(** What a row shows does not depend on what it showed before. *)
Section Follow.
  Context {T : Type}.
  Lemma rows_are (f : form T) old k :
    slope_rows f old k = match k with 1 => negb (w_by_length f) | 2 => w_by_length f | _ => old k end%nat /\
    water_rows f old k = match k with 1 => w_consider_water f | _ => old k end%nat /\
    limits_rows f old k = match k with
                          | 1 | 2 | 3 => w_consider_limits f
                          | 4 | 5 => w_consider_limits f && w_consider_inner f
                          | _ => old k
                          end%nat.
  Proof.
    unfold slope_rows, water_rows, limits_rows, show_rows.
    destruct (w_by_length f), (w_consider_water f), (w_consider_limits f), (w_consider_inner f);
      do 6 (destruct k as [|k]; [repeat split|]); repeat split.
  Qed.
  Definition same_display (d e : display) : Prop :=
    let '(a, b, c) := d in let '(a', b', c') := e in
    forall k, a k = a' k /\ b k = b' k /\ c k = c' k.
  Lemma choose_follows (f : form T) d c : same_display d (loaded f) ->
    same_display (snd (choose (f, d) c)) (loaded (fst (choose (f, d) c))).
  Proof.
    destruct d as [[a b] l]. unfold same_display, loaded, choose. cbn [fst snd]. intros E.
    set (g := chosen c f).
    enough (Q : forall k, let '(a', b', l') := match c with
        | DefineBy _ => (slope_rows g a, b, l)
        | TickWater _ => (a, water_rows g b, l)
        | TickLimits _ | TickInner _ => (a, b, limits_rows g l)
        end in a' k = slope_rows g (fun _ => true) k /\ b' k = water_rows g (fun _ => true) k /\
               l' k = limits_rows g (fun _ => true) k) by (destruct c; exact Q).
    intros k. unfold g. clear g.
    destruct (E k) as (Ea & Eb & El). revert Ea Eb El.
    destruct (rows_are f (fun _ => true) k) as (-> & -> & ->).
    destruct (rows_are (chosen c f) (fun _ => true) k) as (-> & -> & ->).
    destruct c; cbn [chosen w_by_length w_consider_water w_consider_limits w_consider_inner];
    match goal with |- context [slope_rows ?g a] => destruct (rows_are g a k) as (-> & _)
                  | |- context [water_rows ?g b] => destruct (rows_are g b k) as (_ & -> & _)
                  | |- context [limits_rows ?g l] => destruct (rows_are g l k) as (_ & _ & ->) end;
    intros Ea Eb El; cbn [chosen w_by_length w_consider_water w_consider_limits w_consider_inner];
    do 6 (destruct k as [|k]; [auto|]); auto.
  Qed.
  Lemma display_follows (f : form T) l i :
    displays (snd (choices f l)) i = shown (fst (choices f l)) i.
  Proof.
    assert (Q : same_display (snd (choices f l)) (loaded (fst (choices f l)))).
    { unfold choices. assert (B : same_display (loaded f) (loaded f)) by (intros k; auto).
      revert B. generalize (loaded f) at 1 3 4. revert f. induction l as [|c l IH]; intros f d B; [exact B|].
      cbn [fold_left]. pose proof (choose_follows f d c B) as B'.
      destruct (choose (f, d) c) as [f' d']. apply IH, B'. }
    unfold shown, displays. destruct (choices f l) as [f' [[a b] c]]. cbn [fst snd] in *.
    unfold same_display, loaded in *. destruct i; cbn [place]; apply Q.
  Qed.
End Follow.

(** A form that is answered is refused with -1 in any input that is shown. *)
Lemma shown_matters {EN : Env} (f : form R) s i :
  form_valid f = true -> create_slope f = Ok s -> shown f i = true -> i <> InnerBox ->
  create_slope (typed i (-1) f) = Err ValueError.
Proof.
  intros V E Sh NI.
  assert (V' : form_valid (typed i (-1) f) = true) by exact V.
  destruct (create_outcome (typed i (-1) f) V')
    as [(Set' & s' & Hr & Bu & [(La & _)|(_ & Q)])|(_ & Q)]; [|exact Q|exact Q].
  exfalso.
  pose proof (reachable_inv s' Hr) as I.
  assert (P : 0 < fst (g_top (s_geom (snd s')))) by apply (core_top s' (proj1 I)).
  destruct Set' as (D & _ & _ & W). unfold dims_ok in D.
  unfold limits_accepted in La.
  unfold shown, displays, loaded, place, slope_rows, water_rows, limits_rows in Sh.
  destruct i; cbn [typed w_height w_by_length w_length w_angle w_consider_water w_water_depth
    w_consider_limits w_consider_inner w_left w_right w_left_r w_right_l] in *.
  - destruct (w_by_length f); [discriminate|lra].
  - destruct (w_by_length f); [lra|discriminate].
  - destruct (w_consider_water f); [|discriminate]. specialize (W eq_refl). lra.
  - destruct (w_consider_limits f); [|discriminate].
    destruct (w_consider_inner f); lra.
  - destruct (w_consider_limits f); [|discriminate].
    destruct (w_consider_inner f); [|lra].
    pose proof (Rmin_l (-1) (g_ext_l (s_geom (snd s')))).
    pose proof (Rmax_r (w_right_l f) (fst (g_top (s_geom (snd s'))))). lra.
  - now elim NI.
  - destruct (w_consider_limits f), (w_consider_inner f); try discriminate.
    pose proof (Rmin_l (-1) (fst (g_top (s_geom (snd s'))))). lra.
  - destruct (w_consider_limits f), (w_consider_inner f); try discriminate. lra.
Qed.

(** ** The buttons *)
Lemma analyse_after l : forall b,
  analyse_on (changes b l) = analyse_on b || existsb (fun c => match c with OldInput => true | _ => false end) l.
Proof.
  induction l as [|c l IH]; intros b; [now rewrite orb_false_r|].
  unfold changes in *. cbn [fold_left existsb]. rewrite IH.
  destruct c; cbn [press analyse_on orb]; try reflexivity. now rewrite orb_true_r.
Qed.
Lemma analyse_iff fos l : analyse_on (changes (page_loaded fos) l) = true <-> In OldInput l.
Proof.
  rewrite analyse_after. cbn [page_loaded analyse_on orb]. rewrite existsb_exists. split.
  - intros (c & I & Q). destruct c; try discriminate. exact I.
  - intros I. now exists OldInput.
Qed.
(** the link is live when the display limit was touched after the last edit *)
Lemma link_after l fos : pdf_href (changes (page_loaded fos) (l ++ [OldInput])) = None.
Proof. unfold changes. now rewrite fold_left_app. Qed.
Definition unnoticed (c : page_change) : bool :=
  match c with NewRowInput | Dropdown | RowAdded | RowDeleted => true | _ => false end.
Lemma unnoticed_changes l : forall b, forallb unnoticed l = true -> changes b l = b.
Proof.
  induction l as [|c l IH]; intros b A; [reflexivity|].
  cbn [forallb] in A. apply andb_true_iff in A as (A & B).
  unfold changes in *. cbn [fold_left]. rewrite (IH _ B). destruct c; try discriminate; reflexivity.
Qed.

(** ** The sliders *)
Lemma set_last_app t l a : set_last t (l ++ [a]) = l ++ [t].
Proof.
  induction l as [|b l IH]; [reflexivity|].
  cbn [app set_last]. rewrite IH. destruct l; reflexivity.
Qed.
Definition labelled_right (s : slider) (texts : list string) : Prop :=
  sl_texts s = texts ++ [sl_value s].
Lemma drag_right k v : forall l ts,
  Forall2 labelled_right l ts -> Forall2 labelled_right (drag_nth k v l) ts.
Proof.
  induction k as [|k IH]; intros l ts F; destruct F; cbn [drag_nth]; constructor; auto.
  unfold labelled_right, dragged in *. cbn [sl_texts sl_value]. rewrite H. apply set_last_app.
Qed.
Lemma slider_texts l ds : Forall2 labelled_right (drags l ds) (map sl_texts l).
Proof.
  unfold drags.
  assert (A : Forall2 labelled_right (map labelled l) (map sl_texts l)).
  { induction l as [|s l IH]; cbn [map]; constructor; auto. reflexivity. }
  revert A. generalize (map labelled l). generalize (map sl_texts l).
  induction ds as [|d ds IH]; intros ts m A; [exact A|].
  cbn [fold_left]. apply IH. apply drag_right. exact A.
Qed.
Lemma drag_length k v : forall l, List.length (drag_nth k v l) = List.length l.
Proof. induction k as [|k IH]; intros [|s l]; cbn [drag_nth List.length]; auto. Qed.
Lemma drag_value k v : forall l j,
  nth_error (map sl_value (drag_nth k v l)) j =
  if Nat.eqb k j then match nth_error (map sl_value l) j with Some _ => Some v | None => None end
  else nth_error (map sl_value l) j.
Proof.
  induction k as [|k IH]; intros [|s l] [|j]; cbn [drag_nth map nth_error Nat.eqb]; auto.
  now destruct (Nat.eqb k j).
Qed.
