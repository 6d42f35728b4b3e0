(** * Web: from a submitted form to a page (/repo/slope/views.py:248-342, 349-489, with the
    fields of /repo/slope/forms.py and the defaults of /repo/slope/models.py).

    Django's part (parsing, [is_valid], rendering, sessions) is not modelled: a
    [form] is the [cleaned_data] of forms that Django found valid.  A FloatField
    gives a float, an IntegerField an int, a DecimalField a Decimal. *)
From Coq Require Import ZArith List Bool String.
From Verif Require Import Num Py Validation Utilities Objects Slope Planes Analysis
     Dynamic Api Plot.
Import ListNotations.

Section Web.
  Context {T : Type} {NT : Num T} {EN : Env}.

  (** forms.py:26-84.  A row that was left as it came
      ([cleaned_data] is [{}]) is [None]. *)
  Record material_row := MkMatRow {
    wm_unit_weight : T; wm_friction : T; wm_cohesion : T; wm_depth : T;
    wm_name : string; wm_color : string;
  }.
  Record udl_row := MkUdlRow {
    wu_magnitude : T; wu_offset : T; wu_length : T; wu_color : string; wu_dynamic : bool;
  }.
  Record ll_row := MkLlRow {
    wl_magnitude : T; wl_offset : T; wl_color : string; wl_dynamic : bool;
  }.
  Record form := MkForm {
    w_height : T; w_angle : T; w_length : T;              (* SlopeForm *)
    w_by_length : bool;                                   (* slope_choice *)
    w_slices : Z; w_iterations : Z;
    w_materials : list (option material_row);
    w_lls : list (option ll_row);
    w_udls : list (option udl_row);
    w_consider_water : bool; w_water_depth : T;
    w_consider_limits : bool; w_consider_inner : bool;
    w_left : T; w_right : T; w_left_r : T; w_right_l : T;
    w_dynamic : bool;                                     (* analysis_choice *)
    w_critical : T;                                       (* critical_FOS, a Decimal *)
  }.
  (** What [is_valid] checks of the numbers (forms.py:101-152). *)
  Definition form_valid (f : form) : bool :=
    Z.leb 500 (w_iterations f) && Z.leb (w_iterations f) 5000
    && Z.leb 10 (w_slices f) && Z.leb (w_slices f) 50
    && nleb (nz 0) (w_critical f) && nleb (w_critical f) (nz 5).

  (** views.py:378-407; the blank row takes the defaults of models.py:6-12 *)
  Definition material_op (r : option material_row) : op T :=
    match r with
    | Some r => NewMaterial (PFloat (wm_unit_weight r)) (PFloat (wm_friction r))
                            (PFloat (wm_cohesion r)) (PFloat (wm_depth r))
                            (PStr (wm_name r)) (PStr (wm_color r))
    | None => NewMaterial (PInt 20) (PInt 35) (PInt 2) (PInt 5) (PStr "") PNone
    end.
  (** views.py:409-430, models.py:23-27 *)
  Definition ll_op (r : option ll_row) : op T :=
    match r with
    | Some r => NewLload (PFloat (wl_magnitude r)) (PFloat (wl_offset r))
                         (wl_color r) (wl_dynamic r)
    | None => NewLload (PInt 0) (PInt 0) "blue" false
    end.
  (** views.py:432-455, models.py:15-20 *)
  Definition udl_op (r : option udl_row) : op T :=
    match r with
    | Some r => NewUdl (PFloat (wu_magnitude r)) (PFloat (wu_offset r))
                       (PFloat (wu_length r)) (wu_color r) (wu_dynamic r)
    | None => NewUdl (PInt 0) (PInt 0) (PInt 0) "red" false
    end.
  (** Row after row: make the object, give it to the slope.  The heap starts
      empty, so the object of row [i] is number [i]. *)
  Fixpoint row_ops {A} (make : A -> op T) (give : nat -> op T) (i : nat) (l : list A)
    : list (op T) :=
    match l with
    | [] => []
    | r :: l' => make r :: give i :: row_ops make give (S i) l'
    end.
  (** views.py:372-459, up to the water table *)
  Definition setup_ops (f : form) : list (op T) :=
    [AnalysisOpts (Some (w_slices f)) (Some (w_iterations f)) None None None]
    ++ row_ops material_op (fun i => SetMaterials [RefMaterial i]) 0 (w_materials f)
    ++ row_ops ll_op (fun i => SetLls [RefLload i]) 0 (w_lls f)
    ++ row_ops udl_op (fun i => SetUdls [RefUdl i]) 0 (w_udls f)
    ++ (if w_consider_water f then [SetWater (PFloat (w_water_depth f))] else []).
  (** views.py:461-475 *)
  Definition limit_ops (f : form) : list (op T) :=
    if w_consider_limits f then
      if w_consider_inner f
      then [SetLimits (PFloat (w_left f)) (PFloat (w_right f))
                      (PFloat (w_left_r f)) (PFloat (w_right_l f))]
      else [SetLimits (PFloat (w_left f)) (PFloat (w_right f)) PNone PNone]
    else [].
  Fixpoint exec_all (l : list (op T)) : M (st T) unit :=
    match l with
    | [] => mret tt
    | o :: l' => exec o ;;; exec_all l'
    end.
  (** views.py:477-487 *)
  Definition web_analysis (f : form) : M (st T) unit :=
    if w_dynamic f
    then mtry (analyse_dynamic (CDecimal (w_critical f)) ;;; mret tt)
              (analyse_slope (Some (nz 5)))
    else analyse_slope (Some (nz 5)).
  (** views.py:359-370; [Slope]'s default angle is 30 *)
  Definition web_slope (f : form) : res (st T) :=
    if w_by_length f
    then new_slope empty_heap (PFloat (w_height f)) (PInt 30) (PFloat (w_length f))
    else new_slope empty_heap (PFloat (w_height f)) (PFloat (w_angle f)) PNone.
  (** views.py:349-489 [create_slope] *)
  Definition create_slope (f : form) : res (st T) :=
    let! s := web_slope f in
    match exec_all (setup_ops f ++ limit_ops f) s with
    | (Err e, _) => Err e
    | (Ok _, s) =>
        match web_analysis f s with
        | (Err e, _) => Err e
        | (Ok _, s) => Ok s
        end
    end.

  (** views.py:281-309: the coordinates sent to the browser.  Unlike the figures
      of pyslope.py the arc is not cut off at the level of the entry point. *)
  Definition web_arc (p : plane T) : list (point T) :=
    [p_l p]
    ++ filter (fun q => nleb (fst q) (fst (p_r p)) && nleb (fst (p_l p)) (fst q))
              (generate_circle_coordinates (p_cx p) (p_cy p) (p_radius p))
    ++ [p_r p].
  (** views.py:248-342: the answer to a valid POST, the figure and the circles *)
  Definition post (prec : T -> nat) (f : form)
    : res (figure T * list (plane T * list (point T))) :=
    let! s := create_slope f in
    let search := map (fun p => (p, web_arc p)) (s_search (snd s)) in
    let! fig := plot_critical prec true s in
    Ok (fig, search).

  (** ** The requests of one visitor (views.py:43-346) *)
  (** what the browser gets: the figure and the circles with their drawn arcs *)
  Definition page : Type := (figure T * list (plane T * list (point T)))%type.
  (** views.py:168-213: the page of a first visit *)
  Definition first_page (prec : T -> nat) : res page :=
    let! s := new_slope empty_heap (PInt 1) (PInt 45) PNone in
    match exec_all [ NewMaterial (PInt 20) (PInt 35) (PInt 2) (PInt 5) (PStr "") (PStr "");
                     SetMaterials [RefMaterial 0];
                     AnalysisOpts (Some 10%Z) (Some 500%Z) None None None;
                     Analyse (Some (nz 5)) ] s with
    | (Err e, _) => Err e
    | (Ok _, s) =>
        let search := map (fun p => (p, web_arc p)) (s_search (snd s)) in
        let! fig := plot_critical prec true s in
        Ok (fig, search)
    end.

  (** A key of the session: never set, set to something falsy, or set. *)
  Inductive slot (A : Type) := Absent | Blank | Holds (a : A).
  Arguments Absent {A}.
  Arguments Blank {A}.
  Arguments Holds {A} a.
  Record session := MkSession {
    ss_plot : slot (figure T);                         (* "plot_json" *)
    ss_search : slot (list (plane T * list (point T)));  (* "search" *)
    ss_forms : bool;                                   (* "forms" holds a form *)
  }.
  Definition no_session : session := MkSession Absent Absent false.
  Definition stored (search : list (plane T * list (point T)))
    : slot (list (plane T * list (point T))) :=
    match search with [] => Blank | _ => Holds search end.

  Inductive request :=
  | GetIndex
  | PostIndex (f : option form)       (* [None]: some form is not valid *)
  | GetReset
  | GetPdf (max_fos : option T).      (* [None]: the text is not a number *)
  Inductive response :=
  | Page (p : page)
  | ToReset | ToIndex                 (* redirects *)
  | Report (f : figure T)
  | Failure (e : exn).

  (** views.py:56-119: the traces added to the stored figure *)
  Definition report (fig : figure T) (search : list (plane T * list (point T))) (m : T)
    : res (figure T) :=
    let! ts := rmapM (plane_trace (Some m)) (map fst search) in
    Ok (MkFig (f_traces fig ++ rev (flat_map (fun o => match o with Some t => [t] | None => [] end) ts))
              (f_shapes fig) (f_notes fig)).

  Definition answer (r : res page) (forms : bool) (ss : session) : response * session :=
    match r with
    | Err e => (Failure e, ss)
    | Ok (fig, search) => (Page (fig, search), MkSession (Holds fig) (stored search) forms)
    end.
  (** views.py:43-346.  A request that fails leaves the session as it was. *)
  Definition serve (prec : T -> nat) (r : request) (ss : session) : response * session :=
    match r with
    | GetIndex =>
        match ss_forms ss, ss_plot ss, ss_search ss with
        | true, Holds fig, Holds search => (Page (fig, search), ss)
        | _, _, _ => answer (first_page prec) false ss
        end
    | PostIndex None => (ToReset, ss)
    | PostIndex (Some f) => answer (post prec f) true ss
    | GetReset => (ToIndex, MkSession Blank Blank false)
    | GetPdf m =>
        match ss_plot ss, ss_search ss with
        | Absent, _ => (Failure KeyError, ss)
        | Blank, _ => (ToIndex, ss)
        | Holds _, Absent => (Failure KeyError, ss)
        | Holds _, Blank => (ToIndex, ss)
        | Holds fig, Holds search =>
            match m with
            | None => (Failure ValueError, ss)
            | Some m => match report fig search m with
                        | Ok f => (Report f, ss)
                        | Err e => (Failure e, ss)
                        end
            end
        end
    end.
  (** a visit: the answers, and the session at the end *)
  Fixpoint visit (prec : T -> nat) (l : list request) (ss : session)
    : list response * session :=
    match l with
    | [] => ([], ss)
    | r :: l' =>
        let (a, ss') := serve prec r ss in
        let (rest, ss'') := visit prec l' ss' in
        (a :: rest, ss'')
    end.

  (** charting.js:75-155 [updateFOS] right after [createPlot]: the circles added to the
      figure, the most critical last.  The lines of the figure itself have texts
      as [hovertemplate], so [previous_fos] is 0. *)
  Fixpoint shown_circles (limit : T) (search : list (plane T * list (point T)))
    : res (list (plane T * list (point T))) :=
    match search with
    | [] => Ok []
    | c :: search' =>
        let! fos := fos_of (fst c) in
        if nltb fos (nz 0) then shown_circles limit search'
        else if nltb fos limit then
          let! rest := shown_circles limit search' in Ok (c :: rest)
        else Ok []
    end.
  Definition updateFOS (limit : T) (search : list (plane T * list (point T)))
    : res (list (plane T * list (point T))) :=
    if nltb (nz 0) limit
    then let! l := shown_circles limit search in Ok (rev l)
    else Ok [].
End Web.
Arguments slot A : clear implicits.
Arguments Absent {A}.
Arguments Blank {A}.
Arguments Holds {A} a.
Arguments session T : clear implicits.
Arguments request T : clear implicits.
Arguments response T : clear implicits.
Arguments material_row T : clear implicits.
Arguments udl_row T : clear implicits.
Arguments ll_row T : clear implicits.
Arguments form T : clear implicits.
