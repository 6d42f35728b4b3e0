(** * Screen: the legend of the figures (/repo/pyslope/pyslope.py:2754-2833) and the
    parts of /repo/static/slope/charting.js that depend on the slider and on the size
    of the screen. *)
From Coq Require Import ZArith List Bool String Ascii.
From Verif Require Import Num Py Validation Utilities Objects Slope Planes Analysis
     Dynamic Api Plot Web.
Import ListNotations.

Section Screen.
  Context {T : Type} {NT : Num T} {EN : Env}.
  Local Open Scope num_scope.

  (** ** The legend *)
  (** pyslope.py:2757-2758; heights in parts of the plot *)
  Definition legend_top : T := nlit 9 10.
  Definition legend_bottom : T := nlit 5 10.
  (** pyslope.py:2780-2781, 2793-2803: [yi + k * (yf - yi) / MAX_COLOUR_KEY] *)
  Definition legend_y (k : T) : T :=
    legend_top + k * (legend_bottom - legend_top) / MAX_COLOUR_KEY.
  (** pyslope.py:2773-2787: the upper and the lower edge of each cell *)
  Definition legend_cells : list (T * T * hue) :=
    map (fun kv => (legend_y (fst kv), legend_y (fst kv + nlit 1 10), snd kv)) COLOUR_FOS_DICT.
  (** [round(k, 1) % 1 == 0], for a key that is not negative *)
  Definition whole (k : T) : bool := nround 1 k =? nz (ntrunc (nround 1 k)).
  (** pyslope.py:2789-2816: the numbers beside the scale *)
  Definition legend_label (k : T) : T :=
    if k <? nlit 5 2 then legend_y (k - nlit 15 100)
    else if nlit 9 2 <? k then legend_y k
    else legend_y (k + nlit 1 10).
  Definition legend_labels : list (T * T) :=
    flat_map (fun kv => if whole (fst kv) then [(fst kv, legend_label (fst kv))] else [])
             COLOUR_FOS_DICT.

  (** ** The slider, in a window at least 900 pixels wide (charting.js:60-65: a new
      plot is made).  What [Plotly.update] does in a narrower one is not modelled. *)
  Notation circle := (plane T * list (point T))%type.
  (** charting.js:140: the number shown for a circle; rounding as in JavaScript is
      not modelled, any function will do *)
  Context (hover : T -> T).
  (** charting.js:84-102: the number of the first line that has one, or 0 *)
  Fixpoint previous_fos (shown : list circle) : res T :=
    match shown with
    | [] => Ok (nz 0)
    | c :: shown' =>
        let! fos := fos_of (fst c) in
        if hover fos =? nz 0 then previous_fos shown' else Ok (hover fos)
    end.
  (** charting.js:110-149 *)
  Fixpoint circles_between (previous limit : T) (search : list circle) : res (list circle) :=
    match search with
    | [] => Ok []
    | c :: search' =>
        let! fos := fos_of (fst c) in
        if fos <? previous then circles_between previous limit search'
        else if fos <? limit then
          let! rest := circles_between previous limit search' in Ok (c :: rest)
        else Ok []
    end.
  (** charting.js:70-155 [updateFOS] on a plot that shows [shown] *)
  Definition update_shown (limit : T) (search shown : list circle) : res (list circle) :=
    let! previous := previous_fos shown in
    if previous <? limit
    then let! l := circles_between previous limit search in Ok (shown ++ rev l)
    else Ok shown.
  (** charting.js:4-69 [createPlot] *)
  Definition create_shown (limit : T) (search : list circle) : res (list circle) :=
    update_shown limit search [].
  (** charting.js:157-182.  [Slide t v]: the slider is moved, its value is the text
      [t] of the number [v].  [stored_latest_fos] is undefined at first and an Event
      object after the first move; compared with a text it is undefined (nothing is
      greater) or the text "[object Event]". *)
  Inductive screen_event := Slide (t : string) (v : T) | Resize.
  Record screen := MkScreen { sc_stored : option string; sc_limit : T; sc_shown : list circle }.
  Definition text_greater (t : string) (stored : option string) : bool :=
    match stored with None => false | Some s => String.ltb s t end.
  Definition load_page (v : T) (search : list circle) : res screen :=
    let! shown := create_shown v search in Ok (MkScreen None v shown).
  Definition on_event (search : list circle) (e : screen_event) (s : screen) : res screen :=
    match e with
    | Resize => let! shown := create_shown (sc_limit s) search in
                Ok (MkScreen (sc_stored s) (sc_limit s) shown)
    | Slide t v =>
        let! shown := (if text_greater t (sc_stored s) then update_shown v search (sc_shown s)
                       else create_shown v search) in
        Ok (MkScreen (Some "[object Event]"%string) v shown)
    end.
  Fixpoint on_events (search : list circle) (l : list screen_event) (s : screen) : res screen :=
    match l with
    | [] => Ok s
    | e :: l' => let! s := on_event search e s in on_events search l' s
    end.

  (** ** Narrow screens *)
  (** what the inputs of a row of the form hold *)
  Definition row_inputs (r : option (material_row T)) : T * T * T * string :=
    match r with
    | Some r => (wm_unit_weight r, wm_cohesion r, wm_friction r, wm_name r)
    | None => (nz 20, nz 2, nz 35, EmptyString)
    end.
  Definition fillcolor (t : trace T) : option string :=
    match t with TrLayer m _ => Some (m_color m) | _ => None end.
  (** charting.js:32-47: row [i] of the form and line [i + 1] of the figure *)
  Fixpoint soil_rows (rows : list (option (material_row T))) (traces : list (trace T))
    : res (list (T * T * T * string * option string)) :=
    match rows, traces with
    | [], _ => Ok []
    | _ :: _, [] => Err TypeError
    | r :: rows', t :: traces' =>
        let! rest := soil_rows rows' traces' in Ok ((row_inputs r, fillcolor t) :: rest)
    end.
  Definition mobile_table (f : form T) (fig : figure T)
    : res (list (T * T * T * string * option string)) :=
    soil_rows (w_materials f) (tl (f_traces fig)).
End Screen.
Arguments screen_event T : clear implicits.
Arguments screen T : clear implicits.
