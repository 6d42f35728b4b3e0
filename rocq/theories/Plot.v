(** * Plot: the data of the figures (/repo/pyslope/pyslope.py:2123-2925 and the
    drawing functions of /repo/pyslope/utilities.py:114-145, 162-441).

    A figure is modelled by what is drawn and where: the coordinates of the lines,
    of the shapes and of the annotations.  Styles (fonts, widths, opacity, hover
    texts, figure size) are left out. *)
From Coq Require Import ZArith List Bool String.
From Verif Require Import Num Py Validation Utilities Objects Slope Planes Analysis.
Import ListNotations.

(** [d[k] = v] and [d[k]] on a dict with float keys, in insertion order *)
Section Assoc.
  Context {T : Type} {NT : Num T} {V : Type}.
  Fixpoint assoc_set (k : T) (v : V) (d : list (T * V)) : list (T * V) :=
    match d with
    | [] => [(k, v)]
    | (k', v') :: d' => if neqb k' k then (k', v) :: d' else (k', v') :: assoc_set k v d'
    end.
  Fixpoint assoc_get (k : T) (d : list (T * V)) : res V :=
    match d with
    | [] => Err KeyError
    | (k', v') :: d' => if neqb k' k then Ok v' else assoc_get k d'
    end.
End Assoc.

(** A colour of the scale of factors: step [f] of 10 on the way from colour
    number [i] (red, orange, green, #0c84a8, #0c1ea8, purple) to the next one. *)
Definition hue : Type := (Z * Z)%type.

Section Plot.
  Context {T : Type} {NT : Num T} {EN : Env}.
  Local Open Scope num_scope.

  (** utilities.py:114-142 [create_fos_color_dictionary]; the colours of the
      [colour] package are kept as [hue]s.  [int((p2 - p1) * 10)] is 10. *)
  Definition fos_color_keys : list (T * hue) :=
    flat_map (fun i => map (fun f => (nround 1 (nz f / nz 10 + nz i), (i, f)))
                           (zrange 0 11))
             (zrange 0 5).
  Definition COLOUR_FOS_DICT : list (T * hue) :=
    fold_left (fun d kv => assoc_set (fst kv) (snd kv) d) fos_color_keys [].
  (** pyslope.py:26 [max(COLOUR_FOS_DICT)]: the key 5.0 *)
  Definition MAX_COLOUR_KEY : T :=
    match map fst COLOUR_FOS_DICT with
    | [] => nz 0
    | x :: l => fold_left pymax l x
    end.
  (** pyslope.py:2297, 2360 *)
  Definition fos_hue (fos : T) : res hue :=
    assoc_get (pymin (nround 1 fos) MAX_COLOUR_KEY) COLOUR_FOS_DICT.
  (** pyslope.py:2877-2880 *)
  Definition plane_hue (fos : T) : res hue :=
    if nz 5 <? fos then assoc_get (nz 5) COLOUR_FOS_DICT
    else assoc_get (nround 1 fos) COLOUR_FOS_DICT.

  (** ** What a figure contains *)
  Inductive trace :=
  | TrBoundary (pts : list (point T))
  | TrLayer (m : material T) (pts : list (point T))
  | TrWater (pts : list (point T))
  | TrPlane (fos : T) (col : hue) (pts : list (point T))
  | TrCentre (fos : T) (col : hue) (c : point T).
  Inductive shape :=
  (** utilities.py:162-227 [draw_line]: from the anchor, in pixels *)
  | ShLine (anchor : point T) (dx dy : Z) (color : string)
  (** pyslope.py:2575-2606: the bar and the area of a Udl, [y] in pixels *)
  | ShBar (x0 x1 y : T) (color : string)
  | ShArea (x0 x1 y : T) (color : string)
  (** pyslope.py:2625-2740: rectangles of the material table, in parts of the plot *)
  | ShBox (x0 x1 y0 y1 : T) (color : string).
  Inductive note :=
  | NtForce (at_ : point T) (force : T) (units : string) (precision : nat)
  | NtWater (at_ : point T)
  | NtLimit (mark : string) (at_ : T * option T)
  | NtName (at_ : point T) (text : string)
  | NtNum (at_ : point T) (v : T).
  Record figure := MkFig {
    f_traces : list trace;
    f_shapes : list shape;
    f_notes : list note;
  }.
  Definition add_trace (t : trace) (f : figure) : figure :=
    MkFig (f_traces f ++ [t]) (f_shapes f) (f_notes f).
  Definition add_shapes (l : list shape) (f : figure) : figure :=
    MkFig (f_traces f) (f_shapes f ++ l) (f_notes f).
  Definition add_notes (l : list note) (f : figure) : figure :=
    MkFig (f_traces f) (f_shapes f) (f_notes f ++ l).

  (** ** Arrows *)
  (** utilities.py:162-227 [draw_line], without offsets as at every call *)
  Definition draw_line (angle length : T) (sup : point T) (color : string) : shape :=
    ShLine sup (ntrunc (length * ncos (nradians angle)))
           (ntrunc (length * nsin (nradians angle))) color.
  (** utilities.py:230-310 [draw_arrowhead] *)
  Definition draw_arrowhead (angle length : T) (sup : point T) (color : string)
    : list shape :=
    [ draw_line (nz 225 + angle) length sup color;
      draw_line (nz 135 + angle) length sup color ].
  (** utilities.py:313-441 [draw_arrow] *)
  Definition draw_arrow (angle force : T) (sup : point T) (color : string)
             (arrowhead arrowlength : T) (value : option (string * nat)) (f : figure)
    : figure :=
    let draw (d : T) :=
      let f := add_shapes (draw_arrowhead angle (arrowhead * d) sup color
                 ++ [draw_line angle (nz (-1) * arrowlength * d) sup color]) f in
      match value with
      | Some (units, p) => add_notes [NtForce sup force units p] f
      | None => f
      end in
    if nz 0 <? force then draw (nz 1)
    else if force <? nz 0 then draw (nz (-1))
    else f.

  (** ** The layers *)
  (** pyslope.py:2158-2216: the outline of one layer after the other.  [top] is
      the upper edge, left to right.  Sorting a pair whose x coordinate is None
      raises TypeError (line 2192). *)
  Definition second_y (l : list (point T)) : T :=
    match l with _ :: p :: _ => snd p | _ => nz 0 end.
  Fixpoint layer_loop (g : geom T) (ms : list (T * material T)) (top : list (point T))
    : res (list (material T * list (point T))) :=
    match ms with
    | [] => Ok []
    | (y, m) :: ms' =>
        let! x := external_x g y in
        let is_last := match ms' with [] => true | _ => false end in
        let bot_y := snd (g_bot g) in
        let top :=
          if ((bot_y <=? second_y top) && (y <? bot_y)) || (is_last && (bot_y <? second_y top))
          then top ++ [g_bot g; (g_ext_l g, bot_y)] else top in
        let! bot :=
          (if is_last then Ok (rev (sort_points [(g_ext_l g, nz 0); (nz 0, nz 0)]))
           else match x with
                | Some x => Ok (rev (sort_points [(nz 0, y); (x, y)]))
                | None => Err TypeError
                end) in
        let! rest := layer_loop g ms' (sort_points bot) in
        Ok ((m, top ++ bot) :: rest)
    end.
  (** pyslope.py:2158: [_external_boundary[1:3]] *)
  Definition layer_outlines (g : geom T) (ms : list (T * material T))
    : res (list (material T * list (point T))) :=
    layer_loop g ms [(nz 0, snd (g_top g)); g_top g].

  (** ** Water, limits, loads *)
  (** pyslope.py:2382-2433 [_plot_water]; [x <= ...] raises when [x] is None *)
  Definition plot_water (g : geom T) (y : T) (f : figure) : res figure :=
    let! x := external_x g y in
    match x with
    | None => Err TypeError
    | Some x =>
        let pts := [(nz 0, y); (x, y)]
                   ++ (if x <=? fst (g_bot g)
                       then [g_bot g; (g_ext_l g, snd (g_bot g))] else []) in
        let p := (fst (g_top g) / nz 4, y) in
        Ok (add_notes [NtWater p; NtWater p] (add_trace (TrWater pts) f))
    end.

  (** pyslope.py:2435-2490 [_plot_limits] *)
  Definition plot_limits (g : geom T) (l : limits T) (f : figure) : figure :=
    let on x := (x, external_y g x) in
    let inner := negb (lim_left_r l =? lim_right_l l) in
    let right := on (lim_left l) :: (if inner then [on (lim_right_l l)] else []) in
    let left := on (lim_right l) :: (if inner then [on (lim_left_r l)] else []) in
    add_notes (map (NtLimit ">") right ++ map (NtLimit "<") left
               ++ map (NtLimit "|") (left ++ right)) f.

  (** pyslope.py:2492-2522 [_plot_ll].  [precision] is computed from the text of
      the magnitude (Utilities.get_precision); here it is a parameter. *)
  Definition plot_ll (g : geom T) (prec : T -> nat) (l : lload T) (f : figure)
    : res figure :=
    let! c := attr (l_coord l) in
    let at_ := (c, snd (g_top g)) in
    let f := draw_arrow (nz (-90)) (l_magnitude l) at_ "black" (nz 10) (nz 150)
                        (Some ("kN/m"%string, prec (l_magnitude l))) f in
    Ok (draw_arrow (nz (-90)) (l_magnitude l) at_ (l_color l) (nz 10) (nz 150) None f).

  (** [udl.magnitude / self._udl_max] *)
  Definition over_max (mag : T) (um : udlmax T) : res T :=
    match um with
    | UmUnset => Err AttributeError
    | UmNum t => pydiv mag t
    | UmObj _ => Err TypeError
    end.
  (** pyslope.py:2524-2608 [_plot_udl] *)
  Definition plot_udl (g : geom T) (um : udlmax T) (prec : T -> nat) (u : udl T)
             (f : figure) : res figure :=
    let! a := attr (u_left u) in
    let! b := attr (u_right u) in
    let y := snd (g_top g) in
    let mag := u_magnitude u in
    let! q := over_max mag um in
    let h := nz 100 * q in
    let f := draw_arrow (nz (-90)) mag (a, y) (u_color u) (nz 10) h None f in
    let f := draw_arrow (nz (-90)) mag ((a + b) / nz 2, y) "black" (nz 0) (h + nz 10)
                        (Some ("kPa"%string, prec mag)) f in
    let f := draw_arrow (nz (-90)) mag (b, y) (u_color u) (nz 10) h None f in
    Ok (add_shapes [ShBar a b h (u_color u); ShArea a b h (u_color u)] f).

  (** ** The material table *)
  (** pyslope.py:2610-2752 [_plot_material_table].  Columns: 20, 12, 15, 12 and
      12 units of 71. *)
  Definition row_h : T := nlit 5 100.
  Definition table_x0 : T := nlit 1 10.
  Definition table_y0 : T := nlit 1 10.
  Definition table_w : T := nlit 4 10.
  Definition column_ends : list T := map (fun k => nz k / nz 71) [20; 32; 47; 59; 71]%Z.
  Definition column_x (i : nat) : T :=
    match i with
    | O => table_x0
    | S k => table_x0 + nth k column_ends (nz 0) * table_w
    end.
  Definition table_row (y : T) (m : material T) : list shape * list note :=
    ([ShBox (column_x 1) (column_x 2) (y - row_h / nz 2) (y + row_h / nz 2) (m_color m)],
     [ NtName (column_x 0, y) (m_name m); NtNum (column_x 2, y) (m_unit_weight m);
       NtNum (column_x 3, y) (m_cohesion m); NtNum (column_x 4, y) (m_friction_angle m) ]).
  (** the text rows, [y] being decreased by [row_h] before each of them *)
  Fixpoint table_rows (y : T) (ms : list (material T)) : list shape * list note :=
    match ms with
    | [] => ([], [])
    | m :: ms' =>
        let y := y - row_h in
        let r := table_row y m in
        let rest := table_rows y ms' in
        (fst r ++ fst rest, snd r ++ snd rest)
    end.
  Definition table_top (n : nat) : T := table_y0 + row_h * nz (Z.of_nat n + 1).
  Definition table_header : list string :=
    ["MATERIAL"; "COLOR"; "gamma (kN/m3)"; "c (kPa)"; "phi (deg)"]%string.
  Definition plot_material_table (ms : list (material T)) (f : figure) : figure :=
    let n := List.length ms in
    let y1 := table_top n in
    let x1 := table_x0 + table_w in
    let boxes := [ ShBox table_x0 x1 (y1 - row_h) y1 "lightgrey";
                   ShBox table_x0 x1 table_y0 (y1 - row_h) "white" ]
                 ++ map (fun c => let x := table_x0 + c * table_w in
                                  ShBox x x table_y0 y1 "") column_ends in
    let header := map (fun p => NtName (column_x (fst p), y1 - row_h / nz 2) (snd p))
                      (combine (seq 0 5) table_header) in
    let lines := map (fun r => let y := y1 - row_h - nz r * row_h in
                               ShBox table_x0 x1 y y "") (zrange 0 n) in
    let rows := table_rows (y1 - row_h / nz 2) ms in
    add_notes (header ++ snd rows) (add_shapes (boxes ++ lines ++ fst rows) f).

  (** ** Whole figures *)
  Fixpoint fold_res {A} (f : A -> figure -> res figure) (l : list A) (fig : figure)
    : res figure :=
    match l with
    | [] => Ok fig
    | a :: l' => let! fig := f a fig in fold_res f l' fig
    end.

  (** pyslope.py:2123-2239 [plot_boundary]; the legend (lines 2754-2833) shows
      the colour scale and does not depend on the model, see Screen. *)
  Definition plot_boundary (prec : T -> nat) (material_table : bool) (s : st T)
    : res figure :=
    let sl := snd s in
    let g := s_geom sl in
    let fig := MkFig [TrBoundary (external_boundary g)] [] [] in
    match s_materials sl with
    | [] => Ok fig
    | _ =>
        let! ms := rmapM (fun m => let! rl := attr (m_RL m) in Ok (rl, m)) (mats_of s) in
        let! outlines := layer_outlines g ms in
        let fig := fold_left (fun f o => add_trace (TrLayer (fst o) (snd o)) f) outlines fig in
        let fig := if material_table then plot_material_table (mats_of s) fig else fig in
        let! fig := fold_res (plot_udl g (s_udl_max sl) prec) (udls_of s) fig in
        let! fig := fold_res (plot_ll g prec) (lls_of s) fig in
        let! fig := (match s_water_RL sl with
                     | Some y => if negb (y =? nz 0) then plot_water g y fig else Ok fig
                     | None => Ok fig
                     end) in
        Ok (plot_limits g (s_limits sl) fig)
    end.

  (** pyslope.py:2883-2897, 2299-2316: the points of the drawn half circle that
      lie between the end points and not above the entry point *)
  Definition arc_points (c_x c_y radius : T) (l_c r_c : point T) : list (point T) :=
    filter (fun p => (fst p <=? fst r_c) && (fst l_c <=? fst p) && (snd p <=? snd l_c))
           (generate_circle_coordinates c_x c_y radius).

  (** [i["FOS"]], which is a number unless the circle was never analysed *)
  Definition fos_of (p : plane T) : res T :=
    match p_fos p with
    | None => Err KeyError
    | Some None => Err TypeError
    | Some (Some f) => Ok f
    end.

  (** pyslope.py:2835-2925 [_plot_failure_plane] with [show_center] as called by
      [plot_critical], and 2340-2380 [_plot_annotate_FOS].  Line 2900 reads the
      first point of the arc. *)
  Definition plot_failure_plane (p : plane T) (f : figure) : res figure :=
    let! fos := fos_of p in
    let c_x := nround 3 (p_cx p) in
    let c_y := nround 3 (p_cy p) in
    let radius := nround 3 (p_radius p) in
    let fos := nround 3 fos in
    let! col := plane_hue fos in
    let arc := arc_points c_x c_y radius (p_l p) (p_r p) in
    match arc with
    | [] => Err IndexError
    | q :: _ =>
        let f := add_trace (TrPlane fos col (arc ++ [p_r p; (c_x, c_y); p_l p; q])) f in
        let! col' := fos_hue fos in
        Ok (add_trace (TrCentre fos col' (c_x, c_y)) f)
    end.

  (** pyslope.py:2241-2260 [plot_critical] *)
  Definition plot_critical (prec : T -> nat) (material_table : bool) (s : st T)
    : res figure :=
    let! fig := plot_boundary prec material_table s in
    match s_search (snd s) with
    | [] => Err IndexError
    | p :: _ => plot_failure_plane p fig
    end.

  (** pyslope.py:2288-2331: the line of one circle, [None] when it is not shown *)
  Definition plane_trace (max_fos : option T) (p : plane T) : res (option trace) :=
    let! fos := fos_of p in
    if match max_fos with None => true | Some m => fos <? m end
    then let! col := fos_hue fos in
         Ok (Some (TrPlane (nround 3 fos) col
           ([p_l p] ++ arc_points (p_cx p) (p_cy p) (p_radius p) (p_l p) (p_r p) ++ [p_r p])))
    else Ok None.
  (** pyslope.py:2262-2338 [plot_all_planes] *)
  Definition plot_all_planes (prec : T -> nat) (max_fos : option T) (material_table : bool)
             (s : st T) : res figure :=
    let! fig := plot_critical prec material_table s in
    let! ts := rmapM (plane_trace max_fos) (s_search (snd s)) in
    Ok (MkFig (f_traces fig ++ rev (flat_map (fun o => match o with Some t => [t] | None => [] end) ts))
              (f_shapes fig) (f_notes fig)).
End Plot.
Arguments trace T : clear implicits.
Arguments shape T : clear implicits.
Arguments note T : clear implicits.
Arguments figure T : clear implicits.
