(** * Browser: the scripts of the web page that carry data
    (/repo/static/slope/add_rows.js, charting.js, update_pdf_link.js,
    button_control.js). *)
From Coq Require Import ZArith List Bool String Reals.
From Verif Require Import Num Py Objects.
Import ListNotations.

(** ** add_rows.js: the rows of one formset *)
(** The inputs of a row are named [material-<i>-<field>]; a row is represented by
    its number [i].  The pattern [material-(\d){1}-] matches the names whose
    number has one digit and no others. *)
Definition one_digit (i : nat) : bool := Nat.ltb i 10.
Record formset := MkFormset {
  fs_rows : list nat;      (* numbers in the names, in page order *)
  fs_count : nat;          (* materialFormCount *)
  fs_total : nat;          (* value of TOTAL_FORMS *)
}.
(** The page as Django delivers it: [n] rows numbered from 0. *)
Definition fresh_rows (n : nat) : formset := MkFormset (seq 0 n) (n - 1) n.
(** add_rows.js:28-48, the same for the other two formsets *)
Definition add_row (f : formset) : formset :=
  match fs_rows f with
  | [] => f
  | first :: _ =>
      let count := S (fs_count f) in
      MkFormset (fs_rows f ++ [if one_digit first then count else first]) count (S count)
  end.
(** add_rows.js:92-104 [updateForms] *)
Fixpoint renumber (k : nat) (rows : list nat) : list nat :=
  match rows with
  | [] => []
  | i :: rows' => (if one_digit i then k else i) :: renumber (S k) rows'
  end.
Fixpoint drop_nth (k : nat) (l : list nat) : list nat :=
  match l, k with
  | [], _ => []
  | _ :: l', O => l'
  | a :: l', S k' => a :: drop_nth k' l'
  end.
(** add_rows.js:133-143: the delete button of the row at position [k] *)
Definition delete_row (k : nat) (f : formset) : formset :=
  match fs_count f with
  | O => MkFormset (renumber 0 (fs_rows f)) O (fs_total f)
  | S c => MkFormset (renumber 0 (drop_nth k (fs_rows f))) c (S c)
  end.
Inductive click := AddRow | DeleteRow (k : nat).
Definition clicked (f : formset) (c : click) : formset :=
  match c with AddRow => add_row f | DeleteRow k => delete_row k f end.
Definition clicks (f : formset) (l : list click) : formset := fold_left clicked l f.

(** ** update_pdf_link.js:1-14 and button_control.js:12-23: the PDF link *)
(** [None]: an empty link. *)
Inductive page_event :=
| EditInput                      (* any input but the display limit changes *)
| EditDisplay (fos : string).    (* the display limit changes *)
(** Line 8 says [link.href = ''] where a comparison was meant, so the second
    branch is always taken. *)
Definition pdf_link (href : option string) (e : page_event) : option string :=
  match e with
  | EditInput => None
  | EditDisplay fos => Some ("pdf/" ++ fos)%string
  end.

(** ** charting.js:122-132: the key of the colour of a circle, in tenths *)
Definition js_round (x : R) : Z := Int_part (x + / 2).
Definition js_color_key (fos : R) : Z := Z.min (js_round (fos * 10)) 50.
