(** * PropsInput: shown and hidden inputs, buttons and sliders of the page (C83-C85). *)
From Coq Require Import ZArith Reals Lra Lia List Bool String.
From Verif Require Import Num Py Validation Utilities Objects Slope Planes Analysis
     Dynamic Api RealNum RealFacts Plot Web Browser FormFacts FormMore Inputs InputFacts PropsWeb.
Import ListNotations.
Local Open Scope R_scope.

(** ** C83 *)
(** In every arithmetic: what is hidden has no effect on the slope and the page. *)
Theorem C83_hidden : forall T (NT : Num T) (EN : Env) prec (f f' : form T), look_alike f f' ->
  create_slope f' = create_slope f /\ post prec f' = post prec f.
Proof. intros T NT EN prec f f' E. split; [exact (hidden_same f f' E) | exact (hidden_page prec f f' E)]. Qed.
Print Assumptions C83_hidden.
Example C83_hidden_example : look_alike (clay_form 3) (typed Angle 60 (typed LeftX 2 (clay_form 3))) /\
  clay_form 3 <> typed Angle 60 (typed LeftX 2 (clay_form 3)).
Proof.
  split.
  - repeat (split; [reflexivity|]). intros [] Q; first [reflexivity | discriminate].
  - intros Q. apply (f_equal (@w_angle R)) in Q. cbn in Q. lra.
Qed.
(** What is shown has one: an accepted form is refused when a shown number is changed
    to -1. *)
Theorem C83_shown : forall (EN : Env) (f : form R) s i,
  form_valid f = true -> create_slope f = Ok s -> shown f i = true -> i <> InnerBox ->
  create_slope (typed i (-1) f) = Err ValueError.
Proof. exact @shown_matters. Qed.
Print Assumptions C83_shown.
Example C83_shown_example : forall EN : Env,
  form_valid weak_form = true /\ (exists s, create_slope weak_form = Ok s) /\
  (forall i, shown weak_form i = match i with Angle => false | _ => true end).
Proof.
  intros EN. destruct (C69_example EN (fun _ => O)) as (V & _ & _ & _ & _ & _ & _ & _ & _ & _ & fig & l & P & _).
  split; [exact V|]. split; [|intros []; reflexivity].
  unfold post in P. destruct (create_slope weak_form) as [s|e]; [now exists s | discriminate].
Qed.
(** Row by row, whatever was shown before: the height, the box for water and the box
    for limits are never touched. *)
Theorem C83_rows : forall (T : Type) (f : form T) old k,
  slope_rows f old k = match k with 1 => negb (w_by_length f) | 2 => w_by_length f | _ => old k end%nat /\
  water_rows f old k = match k with 1 => w_consider_water f | _ => old k end%nat /\
  limits_rows f old k = match k with
                        | 1 | 2 | 3 => w_consider_limits f
                        | 4 | 5 => w_consider_limits f && w_consider_inner f
                        | _ => old k
                        end%nat.
Proof. exact @rows_are. Qed.
Print Assumptions C83_rows.
(** After any sequence of choices the display is the one of the form as it is. *)
Theorem C83_follows : forall (T : Type) (f : form T) l i,
  displays (snd (choices f l)) i = shown (fst (choices f l)) i.
Proof. exact @display_follows. Qed.
Print Assumptions C83_follows.
Example C83_follows_example :
  let '(f, d) := choices (clay_form 3) [DefineBy false; TickLimits true; TickInner true; TickLimits false; DefineBy true; TickLimits true] in
  map (displays d) [Angle; Length; WaterDepth; LeftX; InnerBox; RightXLeft] = [false; true; true; true; true; true] /\
  map (displays (snd (choices f [TickInner false]))) [LeftX; InnerBox; RightXLeft] = [true; true; false].
Proof. split; reflexivity. Qed.
(** False: a hidden input that was emptied still decides.  The form that only differs in
    it is answered, this one is thrown away. *)
Theorem C83_blank_refuted : forall (EN : Env) prec (ss : session R), exists (f : form R) readable i,
  shown f i = false /\ (forall j, j <> i -> readable j = true) /\
  clean (f, fun _ => true) = Some f /\
  (exists p ss', serve prec (PostIndex (clean (f, fun _ => true))) ss = (Page p, ss')) /\
  serve prec (PostIndex (clean (f, readable))) ss = (ToReset, ss).
Proof.
  intros EN prec ss. exists weak_form, (fun i => match i with Angle => false | _ => true end), Angle.
  destruct (C69_example EN prec) as (V & _ & _ & _ & _ & _ & _ & _ & _ & _ & fig & l & P & _).
  assert (C : clean (weak_form, fun _ => true) = Some weak_form).
  { unfold clean. cbn [fst snd forallb all_inputs andb]. now rewrite V. }
  split; [reflexivity|]. split; [intros [] N; first [reflexivity | now elim N]|].
  split; [exact C|]. split.
  - rewrite C. cbn [serve]. rewrite P. cbn [answer]. eexists _, _. reflexivity.
  - apply (blank_hidden prec ss weak_form _ Angle); [now left | reflexivity].
Qed.
Print Assumptions C83_blank_refuted.

(** ** C84 *)
(** Whether the button works depends on the inputs that were there from the start. *)
Theorem C84_button_partial : forall fos l,
  (analyse_on (changes (page_loaded fos) l) = true <-> In OldInput l) /\
  pdf_href (changes (page_loaded fos) (l ++ [OldInput])) = None.
Proof. intros fos l. split; [apply analyse_iff | apply link_after]. Qed.
Print Assumptions C84_button_partial.
(** Any number of changes to added rows, drop-down lists and the rows themselves
    goes unnoticed, the report of the old model stays on offer. *)
Theorem C84_unnoticed : forall fos l,
  Forall (fun c => c = NewRowInput \/ c = Dropdown \/ c = RowAdded \/ c = RowDeleted) l ->
  analyse_on (changes (page_loaded fos) l) = false /\
  pdf_href (changes (page_loaded fos) l) = Some ("pdf/" ++ fos)%string.
Proof.
  intros fos l F. rewrite (unnoticed_changes l); [split; reflexivity|].
  apply forallb_forall. intros c I. rewrite Forall_forall in F.
  destruct (F c I) as [ -> | [ -> | [ -> | -> ] ] ]; reflexivity.
Qed.
Print Assumptions C84_unnoticed.
(** So the claim is false: the new row cannot be analysed. *)
Theorem C84_stale_refuted : forall fos, exists l, In NewRowInput l /\
  analyse_on (changes (page_loaded fos) l) = false /\
  pdf_href (changes (page_loaded fos) l) <> None.
Proof. intros fos. exists [RowAdded; NewRowInput]. repeat split; [right; now left | discriminate]. Qed.
Print Assumptions C84_stale_refuted.
Example C84_example : analyse_on (changes (page_loaded "2.0") [RowAdded; NewRowInput; Dropdown]) = false /\
  changes (page_loaded "2.0") [RowAdded; OldInput; DisplayLimit "3.0"] = MkButtons true (Some "pdf/3.0"%string).
Proof. split; reflexivity. Qed.

(** ** C85 *)
Theorem C85_text : forall l ds,
  Forall2 (fun s texts => sl_texts s = texts ++ [sl_value s]) (drags l ds) (map sl_texts l).
Proof. exact slider_texts. Qed.
Print Assumptions C85_text.
(** The value is the one of the last move of that slider. *)
Theorem C85_value : forall l ds k v j,
  nth_error (map sl_value (drags l (ds ++ [(k, v)]))) j =
  if Nat.eqb k j
  then match nth_error (map sl_value (drags l ds)) j with Some _ => Some v | None => None end
  else nth_error (map sl_value (drags l ds)) j.
Proof. intros l ds k v j. unfold drags. rewrite fold_left_app. apply drag_value. Qed.
Print Assumptions C85_value.
Example C85_example : drags [MkSlider "2.0" []; MkSlider "500" []] [(1%nat, "750"%string)] =
  [MkSlider "2.0" ["2.0"%string]; MkSlider "750" ["750"%string]].
Proof. reflexivity. Qed.
