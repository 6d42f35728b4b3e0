(** * Inputs: which inputs of the page are shown, when it can be sent, and the
    numbers beside the sliders (/repo/static/slope/hide_form.js,
    button_control.js, update_pdf_link.js, slider_values.js;
    /repo/slope/templates/slope/index.html). *)
From Coq Require Import ZArith List Bool String.
From Verif Require Import Num Py Validation Utilities Objects Slope Planes Analysis
     Dynamic Api Plot Web Browser.
Import ListNotations.

(** ** hide_form.js *)
(** The inputs that the script can hide.  [InnerBox] is the check box
    "Consider Internal Limits?". *)
Inductive input :=
| Angle | Length | WaterDepth | LeftX | RightX | InnerBox | LeftXRight | RightXLeft.
(** The rows of a tab are the fields of its form in the order of forms.py (index.html:123-130). *)
Inductive tab := SlopeTab | WaterTab | LimitsTab.
(** forms.py:17, 159-162, 173-180 *)
Definition place (i : input) : tab * nat :=
  match i with
  | Angle => (SlopeTab, 1) | Length => (SlopeTab, 2)
  | WaterDepth => (WaterTab, 1)
  | LeftX => (LimitsTab, 1) | RightX => (LimitsTab, 2) | InnerBox => (LimitsTab, 3)
  | LeftXRight => (LimitsTab, 4) | RightXLeft => (LimitsTab, 5)
  end%nat.
(** rows [a .. b-1] of a tab get the display [d] *)
Definition show_rows (a b : nat) (d : bool) (rows : nat -> bool) (i : nat) : bool :=
  if Nat.leb a i && Nat.ltb i b then d else rows i.
Section Inputs.
  Context {T : Type} {NT : Num T} {EN : Env}.
  (** hide_form.js:5-19 [updateSlopeForm]; [old]: the rows as they were shown before *)
  Definition slope_rows (f : form T) (old : nat -> bool) : nat -> bool :=
    if w_by_length f
    then show_rows 2 3 true (show_rows 1 2 false old)
    else show_rows 2 3 false (show_rows 1 2 true old).
  (** hide_form.js:26-35 [updateWaterForm] *)
  Definition water_rows (f : form T) (old : nat -> bool) : nat -> bool :=
    show_rows 1 2 (w_consider_water f) old.
  (** hide_form.js:42-72 [updateLimitsForm] *)
  Definition limits_rows (f : form T) (old : nat -> bool) : nat -> bool :=
    if w_consider_limits f && w_consider_inner f then show_rows 1 6 true old
    else if w_consider_limits f
         then show_rows 4 6 false (show_rows 1 4 true old)
         else show_rows 1 6 false old.
  (** what of the three tabs is displayed *)
  Definition display : Type := ((nat -> bool) * (nat -> bool) * (nat -> bool))%type.
  Definition displays (d : display) (i : input) : bool :=
    let '(a, b, c) := d in
    let (t, k) := place i in
    match t with SlopeTab => a k | WaterTab => b k | LimitsTab => c k end.
  (** hide_form.js:20, 36, 74: when the page is loaded every row is shown and each
      function runs once *)
  Definition loaded (f : form T) : display :=
    (slope_rows f (fun _ => true), water_rows f (fun _ => true), limits_rows f (fun _ => true)).
  Definition shown (f : form T) (i : input) : bool := displays (loaded f) i.
  (** hide_form.js:22-23, 38-39, 76-79: the four inputs whose change the script hears *)
  Inductive choice := DefineBy (by_length : bool) | TickWater (b : bool) | TickLimits (b : bool) | TickInner (b : bool).
  Definition chosen (c : choice) (f : form T) : form T :=
    MkForm (w_height f) (w_angle f) (w_length f)
      (match c with DefineBy b => b | _ => w_by_length f end)
      (w_slices f) (w_iterations f) (w_materials f) (w_lls f) (w_udls f)
      (match c with TickWater b => b | _ => w_consider_water f end) (w_water_depth f)
      (match c with TickLimits b => b | _ => w_consider_limits f end)
      (match c with TickInner b => b | _ => w_consider_inner f end)
      (w_left f) (w_right f) (w_left_r f) (w_right_l f) (w_dynamic f) (w_critical f).
  Definition choose (fd : form T * display) (c : choice) : form T * display :=
    let f := chosen c (fst fd) in
    let '(a, b, l) := snd fd in
    (f, match c with
        | DefineBy _ => (slope_rows f a, b, l)
        | TickWater _ => (a, water_rows f b, l)
        | TickLimits _ | TickInner _ => (a, b, limits_rows f l)
        end).
  Definition choices (f : form T) (l : list choice) : form T * display := fold_left choose l (f, loaded f).

  (** What the visitor sends: the numbers, and which of the inputs above hold the text
      of a number.  Fields of a ModelForm made from a FloatField without [blank] are
      required (models.py:30-48): an empty one makes [is_valid] false, whether
      it is shown or not.  Check boxes are always readable. *)
  Definition raw : Type := (form T * (input -> bool))%type.
  Definition all_inputs : list input :=
    [Angle; Length; WaterDepth; LeftX; RightX; LeftXRight; RightXLeft].
  (** views.py:271-277 *)
  Definition clean (r : raw) : option (form T) :=
    if forallb (snd r) all_inputs && form_valid (fst r) then Some (fst r) else None.
End Inputs.
Arguments raw T : clear implicits.

(** ** button_control.js:11-24 with update_pdf_link.js: the two buttons *)
(** What the visitor can change after the page has been loaded. *)
Inductive page_change :=
| OldInput               (* an [input] that was on the page when it was loaded *)
| NewRowInput            (* an [input] of a row added by add_rows.js; [cloneNode] copies no listener *)
| Dropdown               (* analysis_choice or slope_choice, a [select] *)
| RowAdded | RowDeleted
| DisplayLimit (fos : string).
Record buttons := MkButtons {
  analyse_on : bool;            (* the button Analyse *)
  pdf_href : option string;     (* [None]: an empty link *)
}.
(** index.html:46 ([disabled]), update_pdf_link.js:16-22 *)
Definition page_loaded (fos : string) : buttons :=
  MkButtons false (Some ("pdf/" ++ fos)%string).
Definition press (b : buttons) (c : page_change) : buttons :=
  match c with
  | OldInput => MkButtons true (pdf_link (pdf_href b) EditInput)
  | DisplayLimit fos => MkButtons (analyse_on b) (pdf_link (pdf_href b) (EditDisplay fos))
  | NewRowInput | Dropdown | RowAdded | RowDeleted => b
  end.
Definition changes (b : buttons) (l : list page_change) : buttons := fold_left press l b.

(** ** slider_values.js:7-25 *)
(** A slider with the texts beside it, in page order. *)
Record slider := MkSlider { sl_value : string; sl_texts : list string }.
Fixpoint set_last (t : string) (l : list string) : list string :=
  match l with
  | [] => []
  | [_] => [t]
  | a :: l' => a :: set_last t l'
  end.
(** slider_values.js:11-17: when the page is loaded each slider gets one text more *)
Definition labelled (s : slider) : slider :=
  MkSlider (sl_value s) (sl_texts s ++ [sl_value s]).
(** slider_values.js:20-23 *)
Definition dragged (v : string) (s : slider) : slider := MkSlider v (set_last v (sl_texts s)).
Fixpoint drag_nth (k : nat) (v : string) (l : list slider) : list slider :=
  match l, k with
  | [], _ => []
  | s :: l', O => dragged v s :: l'
  | s :: l', S k' => s :: drag_nth k' v l'
  end.
Definition drags (l : list slider) (ds : list (nat * string)) : list slider :=
  fold_left (fun l d => drag_nth (fst d) (snd d) l) ds (map labelled l).
