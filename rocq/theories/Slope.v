(** * Slope: state of a Slope object and its editing methods
    (/repo/pyslope/pyslope.py:241-1013, 1225-1230, 2067-2121). *)
From Coq Require Import ZArith List Bool String.
From Verif Require Import Num Py Validation Utilities Objects.
Import ListNotations.

Section SlopeState.
  Context {T : Type} {NT : Num T} {EN : Env}.
  Local Open Scope num_scope.

  (** The attributes assigned together by [set_external_boundary]
      (pyslope.py:377-396). *)
  Record geom := MkGeom {
    g_height : T;
    g_length : T;
    g_gradient : T;
    g_top : point T;
    g_bot : point T;
    g_ext_l : T;   (* _external_length *)
    g_ext_h : T;   (* _external_height *)
  }.

  (** pyslope.py:377-385 [_external_boundary] *)
  Definition external_boundary (g : geom) : list (point T) :=
    [ (nz 0, nz 0); (nz 0, snd (g_top g)); g_top g; g_bot g;
      (g_ext_l g, snd (g_bot g)); (g_ext_l g, nz 0); (nz 0, nz 0) ].

  (** [_limits] (pyslope.py:1010): [left_x, left_x_right, right_x_left, right_x] *)
  Record limits := MkLimits {
    lim_left : T;        (* left_x *)
    lim_left_r : T;      (* left_x_right *)
    lim_right_l : T;     (* right_x_left *)
    lim_right : T;       (* right_x *)
  }.

  (** The dictionaries of [_search] and [_individual_planes]
      (pyslope.py:1160-1166, 1213-1219).  [p_fos]: [None] when the key "FOS" is
      absent, [Some None] when its value is Python's None. *)
  Record plane := MkPlane {
    p_l : point T;
    p_r : point T;
    p_cx : T;
    p_cy : T;
    p_radius : T;
    p_fos : option (option T);
  }.
  Definition set_fos (f : option T) (p : plane) : plane :=
    MkPlane (p_l p) (p_r p) (p_cx p) (p_cy p) (p_radius p) (Some f).

  (** [_udl_max]: unset until a Udl is assigned, a number after [set_udls]
      (line 484) or [remove_all] (line 539), but a Udl OBJECT after
      [remove_udls] leaves some loads (line 542). *)
  Inductive udlmax := UmUnset | UmNum (t : T) | UmObj (l : nat).

  (** The attributes of a Slope.  [_min_FOS], [_min_FOS_location] and
      [_min_FOS_dict] (lines 304-313) are written but never read; left out. *)
  Record slope := MkSlope {
    s_geom : geom;
    s_has_boundary : bool;       (* _external_boundary is not None *)
    s_min_ext_h : T;             (* _MIN_EXT_H *)
    s_min_ext_l : T;             (* _MIN_EXT_L *)
    s_materials : list nat;
    s_udls : list nat;
    s_lls : list nat;
    s_udl_max : udlmax;
    s_water_RL : option T;
    s_water_depth : option T;
    s_water_H : T;               (* _water_analysis_H *)
    s_limits : limits;
    s_slices : Z;
    s_iterations : Z;
    s_min_failure : T;           (* _min_failure_distance *)
    s_tolerance : T;
    s_max_iterations : Z;
    s_planes : list plane;       (* _individual_planes *)
    s_search : list plane;       (* _search *)
    s_dynamic : list (T * T);    (* _dynamic_results, insertion order *)
  }.

  (** Attribute assignments [self.x = v]. *)
  Definition set_s_geom (v : geom) (s : slope) : slope :=
        MkSlope v (s_has_boundary s) (s_min_ext_h s) (s_min_ext_l s) (s_materials s) (s_udls
      s) (s_lls s) (s_udl_max s) (s_water_RL s) (s_water_depth s) (s_water_H s) (s_limits s)
      (s_slices s) (s_iterations s) (s_min_failure s) (s_tolerance s) (s_max_iterations s)
      (s_planes s) (s_search s) (s_dynamic s).
  Definition set_s_has_boundary (v : bool) (s : slope) : slope :=
        MkSlope (s_geom s) v (s_min_ext_h s) (s_min_ext_l s) (s_materials s) (s_udls s)
      (s_lls s) (s_udl_max s) (s_water_RL s) (s_water_depth s) (s_water_H s) (s_limits s)
      (s_slices s) (s_iterations s) (s_min_failure s) (s_tolerance s) (s_max_iterations s)
      (s_planes s) (s_search s) (s_dynamic s).
  Definition set_s_min_ext_h (v : T) (s : slope) : slope :=
        MkSlope (s_geom s) (s_has_boundary s) v (s_min_ext_l s) (s_materials s) (s_udls s)
      (s_lls s) (s_udl_max s) (s_water_RL s) (s_water_depth s) (s_water_H s) (s_limits s)
      (s_slices s) (s_iterations s) (s_min_failure s) (s_tolerance s) (s_max_iterations s)
      (s_planes s) (s_search s) (s_dynamic s).
  Definition set_s_min_ext_l (v : T) (s : slope) : slope :=
        MkSlope (s_geom s) (s_has_boundary s) (s_min_ext_h s) v (s_materials s) (s_udls s)
      (s_lls s) (s_udl_max s) (s_water_RL s) (s_water_depth s) (s_water_H s) (s_limits s)
      (s_slices s) (s_iterations s) (s_min_failure s) (s_tolerance s) (s_max_iterations s)
      (s_planes s) (s_search s) (s_dynamic s).
  Definition set_s_materials (v : list nat) (s : slope) : slope :=
        MkSlope (s_geom s) (s_has_boundary s) (s_min_ext_h s) (s_min_ext_l s) v (s_udls s)
      (s_lls s) (s_udl_max s) (s_water_RL s) (s_water_depth s) (s_water_H s) (s_limits s)
      (s_slices s) (s_iterations s) (s_min_failure s) (s_tolerance s) (s_max_iterations s)
      (s_planes s) (s_search s) (s_dynamic s).
  Definition set_s_udls (v : list nat) (s : slope) : slope :=
        MkSlope (s_geom s) (s_has_boundary s) (s_min_ext_h s) (s_min_ext_l s) (s_materials
      s) v (s_lls s) (s_udl_max s) (s_water_RL s) (s_water_depth s) (s_water_H s) (s_limits
      s) (s_slices s) (s_iterations s) (s_min_failure s) (s_tolerance s) (s_max_iterations
      s) (s_planes s) (s_search s) (s_dynamic s).
  Definition set_s_lls (v : list nat) (s : slope) : slope :=
        MkSlope (s_geom s) (s_has_boundary s) (s_min_ext_h s) (s_min_ext_l s) (s_materials
      s) (s_udls s) v (s_udl_max s) (s_water_RL s) (s_water_depth s) (s_water_H s) (s_limits
      s) (s_slices s) (s_iterations s) (s_min_failure s) (s_tolerance s) (s_max_iterations
      s) (s_planes s) (s_search s) (s_dynamic s).
  Definition set_s_udl_max (v : udlmax) (s : slope) : slope :=
        MkSlope (s_geom s) (s_has_boundary s) (s_min_ext_h s) (s_min_ext_l s) (s_materials
      s) (s_udls s) (s_lls s) v (s_water_RL s) (s_water_depth s) (s_water_H s) (s_limits s)
      (s_slices s) (s_iterations s) (s_min_failure s) (s_tolerance s) (s_max_iterations s)
      (s_planes s) (s_search s) (s_dynamic s).
  Definition set_s_water_RL (v : option T) (s : slope) : slope :=
        MkSlope (s_geom s) (s_has_boundary s) (s_min_ext_h s) (s_min_ext_l s) (s_materials
      s) (s_udls s) (s_lls s) (s_udl_max s) v (s_water_depth s) (s_water_H s) (s_limits s)
      (s_slices s) (s_iterations s) (s_min_failure s) (s_tolerance s) (s_max_iterations s)
      (s_planes s) (s_search s) (s_dynamic s).
  Definition set_s_water_depth (v : option T) (s : slope) : slope :=
        MkSlope (s_geom s) (s_has_boundary s) (s_min_ext_h s) (s_min_ext_l s) (s_materials
      s) (s_udls s) (s_lls s) (s_udl_max s) (s_water_RL s) v (s_water_H s) (s_limits s)
      (s_slices s) (s_iterations s) (s_min_failure s) (s_tolerance s) (s_max_iterations s)
      (s_planes s) (s_search s) (s_dynamic s).
  Definition set_s_water_H (v : T) (s : slope) : slope :=
        MkSlope (s_geom s) (s_has_boundary s) (s_min_ext_h s) (s_min_ext_l s) (s_materials
      s) (s_udls s) (s_lls s) (s_udl_max s) (s_water_RL s) (s_water_depth s) v (s_limits s)
      (s_slices s) (s_iterations s) (s_min_failure s) (s_tolerance s) (s_max_iterations s)
      (s_planes s) (s_search s) (s_dynamic s).
  Definition set_s_limits (v : limits) (s : slope) : slope :=
        MkSlope (s_geom s) (s_has_boundary s) (s_min_ext_h s) (s_min_ext_l s) (s_materials
      s) (s_udls s) (s_lls s) (s_udl_max s) (s_water_RL s) (s_water_depth s) (s_water_H s) v
      (s_slices s) (s_iterations s) (s_min_failure s) (s_tolerance s) (s_max_iterations s)
      (s_planes s) (s_search s) (s_dynamic s).
  Definition set_s_slices (v : Z) (s : slope) : slope :=
        MkSlope (s_geom s) (s_has_boundary s) (s_min_ext_h s) (s_min_ext_l s) (s_materials
      s) (s_udls s) (s_lls s) (s_udl_max s) (s_water_RL s) (s_water_depth s) (s_water_H s)
      (s_limits s) v (s_iterations s) (s_min_failure s) (s_tolerance s) (s_max_iterations s)
      (s_planes s) (s_search s) (s_dynamic s).
  Definition set_s_iterations (v : Z) (s : slope) : slope :=
        MkSlope (s_geom s) (s_has_boundary s) (s_min_ext_h s) (s_min_ext_l s) (s_materials
      s) (s_udls s) (s_lls s) (s_udl_max s) (s_water_RL s) (s_water_depth s) (s_water_H s)
      (s_limits s) (s_slices s) v (s_min_failure s) (s_tolerance s) (s_max_iterations s)
      (s_planes s) (s_search s) (s_dynamic s).
  Definition set_s_min_failure (v : T) (s : slope) : slope :=
        MkSlope (s_geom s) (s_has_boundary s) (s_min_ext_h s) (s_min_ext_l s) (s_materials
      s) (s_udls s) (s_lls s) (s_udl_max s) (s_water_RL s) (s_water_depth s) (s_water_H s)
      (s_limits s) (s_slices s) (s_iterations s) v (s_tolerance s) (s_max_iterations s)
      (s_planes s) (s_search s) (s_dynamic s).
  Definition set_s_tolerance (v : T) (s : slope) : slope :=
        MkSlope (s_geom s) (s_has_boundary s) (s_min_ext_h s) (s_min_ext_l s) (s_materials
      s) (s_udls s) (s_lls s) (s_udl_max s) (s_water_RL s) (s_water_depth s) (s_water_H s)
      (s_limits s) (s_slices s) (s_iterations s) (s_min_failure s) v (s_max_iterations s)
      (s_planes s) (s_search s) (s_dynamic s).
  Definition set_s_max_iterations (v : Z) (s : slope) : slope :=
        MkSlope (s_geom s) (s_has_boundary s) (s_min_ext_h s) (s_min_ext_l s) (s_materials
      s) (s_udls s) (s_lls s) (s_udl_max s) (s_water_RL s) (s_water_depth s) (s_water_H s)
      (s_limits s) (s_slices s) (s_iterations s) (s_min_failure s) (s_tolerance s) v
      (s_planes s) (s_search s) (s_dynamic s).
  Definition set_s_planes (v : list plane) (s : slope) : slope :=
        MkSlope (s_geom s) (s_has_boundary s) (s_min_ext_h s) (s_min_ext_l s) (s_materials
      s) (s_udls s) (s_lls s) (s_udl_max s) (s_water_RL s) (s_water_depth s) (s_water_H s)
      (s_limits s) (s_slices s) (s_iterations s) (s_min_failure s) (s_tolerance s)
      (s_max_iterations s) v (s_search s) (s_dynamic s).
  Definition set_s_search (v : list plane) (s : slope) : slope :=
        MkSlope (s_geom s) (s_has_boundary s) (s_min_ext_h s) (s_min_ext_l s) (s_materials
      s) (s_udls s) (s_lls s) (s_udl_max s) (s_water_RL s) (s_water_depth s) (s_water_H s)
      (s_limits s) (s_slices s) (s_iterations s) (s_min_failure s) (s_tolerance s)
      (s_max_iterations s) (s_planes s) v (s_dynamic s).
  Definition set_s_dynamic (v : list (T * T)) (s : slope) : slope :=
        MkSlope (s_geom s) (s_has_boundary s) (s_min_ext_h s) (s_min_ext_l s) (s_materials
      s) (s_udls s) (s_lls s) (s_udl_max s) (s_water_RL s) (s_water_depth s) (s_water_H s)
      (s_limits s) (s_slices s) (s_iterations s) (s_min_failure s) (s_tolerance s)
      (s_max_iterations s) (s_planes s) (s_search s) v.

  (** A method call sees the heap of objects and the slope [self]. *)
  Definition st : Type := (heap T * slope)%type.
  Definition self_upd (f : slope -> slope) : M st unit :=
    mupd (fun s => (fst s, f (snd s))).
  Definition self_get {A} (f : slope -> A) : M st A := mget (fun s => f (snd s)).
  Definition heap_get {A} (f : heap T -> A) : M st A := mget (fun s => f (fst s)).

  Definition upd_material (l : nat) (f : material T -> material T) : M st unit :=
    mupd (fun s => (MkHeap (upd_nth l f (h_materials (fst s)))
                           (h_udls (fst s)) (h_lls (fst s)), snd s)).
  Definition upd_udl (l : nat) (f : udl T -> udl T) : M st unit :=
    mupd (fun s => (MkHeap (h_materials (fst s))
                           (upd_nth l f (h_udls (fst s))) (h_lls (fst s)), snd s)).
  Definition upd_ll (l : nat) (f : lload T -> lload T) : M st unit :=
    mupd (fun s => (MkHeap (h_materials (fst s)) (h_udls (fst s))
                           (upd_nth l f (h_lls (fst s))), snd s)).

  (** Dereference; a dangling location is a NameError: the caller has no such
      object.  [Api.exec] rejects such arguments before the call, so inside a
      method the error does not occur. *)
  Definition deref {A} (l : list A) (n : nat) : res A :=
    match nth_error l n with Some a => Ok a | None => Err NameError end.
  Definition get_material (n : nat) : M st (material T) :=
    fun s => (deref (h_materials (fst s)) n, s).
  Definition get_udl (n : nat) : M st (udl T) :=
    fun s => (deref (h_udls (fst s)) n, s).
  Definition get_ll (n : nat) : M st (lload T) :=
    fun s => (deref (h_lls (fst s)) n, s).

  (** The objects a slope currently holds, in order. *)
  Definition derefs {A} (h : list A) (locs : list nat) : list A :=
    flat_map (fun n => match nth_error h n with Some a => [a] | None => [] end) locs.
  Definition mats_of (s : st) : list (material T) :=
    derefs (h_materials (fst s)) (s_materials (snd s)).
  Definition udls_of (s : st) : list (udl T) :=
    derefs (h_udls (fst s)) (s_udls (snd s)).
  Definition lls_of (s : st) : list (lload T) :=
    derefs (h_lls (fst s)) (s_lls (snd s)).

  (** pyslope.py:300-313 [_reset_results] *)
  Definition reset_results : M st unit := self_upd (set_s_search []).

  (** pyslope.py:491-503 [_update_udl_coordinates] *)
  Definition udl_left_right (top_x : T) (u : udl T) : T * T :=
    let right_x := top_x - u_offset u in
    let left_x :=
      match u_length u with
      | Some len => if negb (len =? nz 0) then pymax (nz 0) (right_x - len) else nz 0
      | None => nz 0
      end in
    (left_x, right_x).
  Definition update_udl_coordinates : M st unit :=
    locs <- self_get s_udls ;;
    mforM locs (fun n =>
      top <- self_get (fun s => g_top (s_geom s)) ;;
      upd_udl n (fun u => let lr := udl_left_right (fst top) u in
                          set_udl_xy (fst lr) (snd lr) u)).

  (** pyslope.py:583-590 [_update_ll_coordinates] *)
  Definition update_ll_coordinates : M st unit :=
    locs <- self_get s_lls ;;
    mforM locs (fun n =>
      top <- self_get (fun s => g_top (s_geom s)) ;;
      upd_ll n (fun l => set_ll_coord (pymax (nz 0) (fst top - l_offset l)) l)).

  (** [self._limits[i]] when the argument is None, else the argument after the
      validation the code runs in that branch. *)
  Definition limit_arg (v : pyval T) (current : T) (check : res unit) : res (pyval T) :=
    if is_none v then Ok (PFloat current)
    else let! _ := check in Ok v.

  (** pyslope.py:938-1013 [set_analysis_limits].  Lines 975-987 validate the
      wrong variable: the [right_x_left] branch checks [right_x] and the
      [right_x] branch checks [right_x_left] (already defaulted by then).
      Lines 992-996 are dead code: neither inner limit can be None there. *)
  Definition set_analysis_limits (left_x right_x left_x_right right_x_left : pyval T)
    : M st unit :=
    lim <- self_get s_limits ;;
    lx <- mlift (limit_arg left_x (lim_left lim) (assert_positive_number left_x)) ;;
    lxr <- mlift (limit_arg left_x_right (lim_left_r lim)
                    (assert_strictly_positive_number left_x_right)) ;;
    rxl <- mlift (limit_arg right_x_left (lim_right_l lim)
                    (assert_strictly_positive_number right_x)) ;;
    rx <- mlift (limit_arg right_x (lim_right lim)
                    (assert_strictly_positive_number rxl)) ;;
    lx' <- mlift (as_num lx) ;;
    lxr' <- mlift (as_num lxr) ;;
    rx' <- mlift (as_num rx) ;;
    rxl' <- mlift (as_num rxl) ;;
    g <- self_get s_geom ;;
    let left_x := pymax lx' (nz 0) in
    let left_x_right := pymin lxr' (fst (g_top g)) in
    let right_x := pymin rx' (g_ext_l g) in
    let right_x_left := pymax rxl' (fst (g_top g)) in
    if (left_x_right <=? left_x) || (right_x <=? right_x_left)
    then mraise ValueError
    else
      self_upd (set_s_limits (MkLimits left_x left_x_right right_x_left right_x)) ;;;
      reset_results.

  (** pyslope.py:926-936 [remove_analysis_limits] *)
  Definition remove_analysis_limits : M st unit :=
    g <- self_get s_geom ;;
    set_analysis_limits (PInt 0) (PFloat (g_ext_l g))
                        (PFloat (fst (g_top g))) (PFloat (fst (g_top g))) ;;;
    reset_results.

  (** pyslope.py:365-396: the coordinates computed from height, length and the
      minimum model dimensions; [length] is already clamped (line 363). *)
  Definition compute_geom (height length min_ext_h min_ext_l : T) : res geom :=
    let tot_h := pymax (pymax (nz 3 * height) min_ext_h) (nz 5 * length / nz 2) in
    let tot_l := pymax (pymax (nz 5 * length) min_ext_l) (nz 4 * height) in
    let dx := (tot_l - length) / nz 2 in
    let top := (dx, tot_h) in
    let bot := (dx + length, tot_h - height) in
    let! grad := pydiv height length in
    Ok (MkGeom height length grad top bot tot_l tot_h).

  (** pyslope.py:345-363: validation and the slope length actually used. *)
  Definition boundary_inputs (height angle length : pyval T) : res (T * T) :=
    let! _ := (if is_none height then Ok tt
               else assert_strictly_positive_number height) in
    let! _ := (if is_none angle then Ok tt
               else assert_range angle (nz 0) (nz 90) true false) in
    let! _ := (if is_none length then Ok tt
               else assert_positive_number length) in
    let! len :=
      (if is_none length then
         if negb (truthy angle) then Err ValueError
         else let! h := as_num height in
              let! a := as_num angle in
              pydiv h (ntan (nradians a))
       else as_num length) in
    let len := pymax len (nlit 1 1000) in
    let! h := as_num height in
    Ok (h, len).

  (** pyslope.py:315-407 [set_external_boundary] *)
  Definition set_external_boundary (height angle length : pyval T) : M st unit :=
    hl <- mlift (boundary_inputs height angle length) ;;
    mh <- self_get s_min_ext_h ;;
    ml <- self_get s_min_ext_l ;;
    g <- mlift (compute_geom (fst hl) (snd hl) mh ml) ;;
    self_upd (set_s_has_boundary true) ;;;
    self_upd (set_s_geom g) ;;;
    update_udl_coordinates ;;;
    update_ll_coordinates ;;;
    remove_analysis_limits ;;;
    reset_results.

  (** pyslope.py:878-924 [update_boundary_options] *)
  Definition update_boundary_options (min_ext_l min_ext_h : pyval T) : M st unit :=
    mwhen (truthy min_ext_h)
      (mlift (assert_strictly_positive_number min_ext_h) ;;;
       v <- mlift (as_num min_ext_h) ;;
       self_upd (set_s_min_ext_h v)) ;;;
    mwhen (truthy min_ext_l)
      (mlift (assert_strictly_positive_number min_ext_l) ;;;
       v <- mlift (as_num min_ext_l) ;;
       self_upd (set_s_min_ext_l v)) ;;;
    has <- self_get s_has_boundary ;;
    mwhen has
      (g <- self_get s_geom ;;
       set_external_boundary (PFloat (g_height g)) (PInt 30) (PFloat (g_length g))) ;;;
    reset_results.

  (** pyslope.py:435-450 [remove_water_table] *)
  Definition remove_water_table : M st unit :=
    self_upd (set_s_water_RL None) ;;;
    self_upd (set_s_water_depth None) ;;;
    reset_results.

  (** pyslope.py:409-433 [set_water_table] *)
  Definition set_water_table (depth : pyval T) : M st unit :=
    (if is_none depth then remove_water_table
     else
       mlift (assert_positive_number depth) ;;;
       d <- mlift (as_num depth) ;;
       g <- self_get s_geom ;;
       self_upd (set_s_water_RL (Some (pymax (nz 0) (snd (g_top g) - d)))) ;;;
       self_upd (set_s_water_depth (Some d))) ;;;
    reset_results.

  (** Python's [max(x.magnitude for x in l)] on a non-empty list. *)
  Definition max_list (x : T) (l : list T) : T := fold_left pymax l x.

  (** pyslope.py:471-479: one turn of the loop of [set_udls] *)
  Definition udl_min_length (u : udl T) : T :=
    let len := match u_length u with
               | Some l => if negb (l =? nz 0) then l else nz 3
               | None => nz 3
               end in
    (u_offset u + len) * nlit 5 2.
  Definition set_udl_one (r : objref) : M st unit :=
    match r with
    | RefUdl n =>
        u <- get_udl n ;;
        mwhen (nz 0 <? u_magnitude u)
          (locs <- self_get s_udls ;;
           self_upd (set_s_udls (locs ++ [n])) ;;;
           ml <- self_get s_min_ext_l ;;
           mwhen (ml <? udl_min_length u)
             (update_boundary_options (PFloat (udl_min_length u)) PNone))
    | _ => mret tt
    end.

  (** pyslope.py:452-487 [set_udls] *)
  Definition set_udls (udls : list objref) : M st unit :=
    mforM udls set_udl_one ;;;
    update_udl_coordinates ;;;
    us <- mget udls_of ;;
    (match map u_magnitude us with
     | [] => mret tt
     | x :: l => self_upd (set_s_udl_max (UmNum (max_list x l)))
     end) ;;;
    reset_results.

  (** pyslope.py:566-574: one turn of the loop of [set_lls] *)
  Definition set_ll_one (r : objref) : M st unit :=
    match r with
    | RefLload n =>
        l <- get_ll n ;;
        mwhen (nz 0 <? l_magnitude l)
          (locs <- self_get s_lls ;;
           self_upd (set_s_lls (locs ++ [n])) ;;;
           ml <- self_get s_min_ext_l ;;
           mwhen (ml <? l_offset l * nz 3)
             (update_boundary_options (PFloat (l_offset l * nz 3)) PNone))
    | _ => mret tt
    end.

  (** pyslope.py:547-579 [set_lls] *)
  Definition set_lls (lls : list objref) : M st unit :=
    mforM lls set_ll_one ;;;
    update_ll_coordinates ;;;
    reset_results.

  (** [l.remove(x)]: drop the first element equal to [x] *)
  Fixpoint remove_first {A} (eqb : A -> bool) (l : list A) : list A :=
    match l with
    | [] => []
    | y :: l' => if eqb y then l' else y :: remove_first eqb l'
    end.

  (** [for check in l: if matches(check): l.remove(check)], where the list is
      shortened while it is being iterated: Python keeps an index [i] and moves
      it on by one each turn, whatever was removed.  [fuel] bounds the turns;
      [length l] turns always suffice. *)
  Fixpoint remove_while_iterating (matches : nat -> bool) (eqb : nat -> nat -> bool)
           (fuel i : nat) (l : list nat) : list nat :=
    match fuel with
    | O => l
    | S f =>
        match nth_error l i with
        | None => l
        | Some x =>
            let l' := if matches x then remove_first (eqb x) l else l in
            remove_while_iterating matches eqb f (S i) l'
        end
    end.

  (** equality used by [list.remove]: identity or [__eq__] *)
  Definition same_obj {A} (eqb : A -> A -> bool) (h : list A) (a b : nat) : bool :=
    Nat.eqb a b ||
    match nth_error h a, nth_error h b with
    | Some x, Some y => eqb x y
    | _, _ => false
    end.

  (** pyslope.py:530-534: the test of [remove_udls] *)
  Definition udl_matches (u : udl T) (h : list (udl T)) (n : nat) : bool :=
    match nth_error h n with
    | Some c => neqb (u_offset c) (u_offset u) && neqb (u_magnitude c) (u_magnitude u)
                && opt_eqb (u_length c) (u_length u)
    | None => false
    end.

  (** [max(l, key=lambda x: x.magnitude)]: the first location of largest magnitude *)
  Definition max_by (h : list (udl T)) (x : nat) (l : list nat) : nat :=
    fold_left (fun best n =>
                 match nth_error h best, nth_error h n with
                 | Some b, Some c => if u_magnitude b <? u_magnitude c then n else best
                 | _, _ => best
                 end) l x.

  (** pyslope.py:505-545 [remove_udls] *)
  Definition remove_udls (udls : list nat) (remove_all : bool) : M st unit :=
    mforM udls (fun n =>
      u <- get_udl n ;;
      h <- heap_get h_udls ;;
      locs <- self_get s_udls ;;
      self_upd (set_s_udls
        (remove_while_iterating (udl_matches u h) (same_obj udl_eqb h)
                                (List.length locs) 0 locs))) ;;;
    mwhen remove_all
      (self_upd (set_s_udls []) ;;; self_upd (set_s_udl_max (UmNum (nz 0)))) ;;;
    h <- heap_get h_udls ;;
    locs <- self_get s_udls ;;
    (match locs with
     | [] => mret tt
     | x :: l => self_upd (set_s_udl_max (UmObj (max_by h x l)))
     end) ;;;
    reset_results.

  (** pyslope.py:619-622: the test of [remove_lls] *)
  Definition ll_matches (u : lload T) (h : list (lload T)) (n : nat) : bool :=
    match nth_error h n with
    | Some c => neqb (l_offset c) (l_offset u) && neqb (l_magnitude c) (l_magnitude u)
    | None => false
    end.

  (** pyslope.py:592-629 [remove_lls] *)
  Definition remove_lls (lls : list nat) (remove_all : bool) : M st unit :=
    mforM lls (fun n =>
      u <- get_ll n ;;
      h <- heap_get h_lls ;;
      locs <- self_get s_lls ;;
      self_upd (set_s_lls
        (remove_while_iterating (ll_matches u h) (same_obj lload_eqb h)
                                (List.length locs) 0 locs))) ;;;
    mwhen remove_all (self_upd (set_s_lls [])) ;;;
    reset_results.

  (** pyslope.py:669-674: only Material instances *)
  Fixpoint material_locs (l : list objref) : res (list nat) :=
    match l with
    | [] => Ok []
    | RefMaterial n :: l' => let! ns := material_locs l' in Ok (n :: ns)
    | _ :: _ => Err ValueError
    end.

  (** [len(depths) > len(set(depths))] *)
  Fixpoint has_dup (l : list T) : bool :=
    match l with
    | [] => false
    | x :: l' => existsb (neqb x) l' || has_dup l'
    end.

  Definition depth_of (h : list (material T)) (n : nat) : T :=
    match nth_error h n with Some m => m_depth m | None => nz 0 end.

  (** pyslope.py:694-705: RL and colour of the [i]-th material *)
  Definition material_color (i : nat) (m : material T) : string :=
    if is_color (m_user_color m) && negb (String.eqb (m_user_color m) "")
    then m_user_color m
    else nth (Nat.modulo i 10) MATERIAL_COLORS EmptyString.
  Fixpoint assign_materials (i : nat) (locs : list nat) : M st unit :=
    match locs with
    | [] => mret tt
    | n :: locs' =>
        g <- self_get s_geom ;;
        upd_material n (fun m => set_RL_color (g_ext_h g - m_depth m)
                                              (material_color i m) m) ;;;
        assign_materials (S i) locs'
    end.

  (** pyslope.py:631-710 [set_materials] *)
  Definition set_materials (args : list objref) : M st unit :=
    news <- mlift (material_locs args) ;;
    olds <- self_get s_materials ;;
    h <- heap_get h_materials ;;
    let materials := sort_by (depth_of h) (news ++ olds) in
    let depths := map (depth_of h) materials in
    deepest <- mlift (match rev depths with d :: _ => Ok d | [] => Err IndexError end) ;;
    g <- self_get s_geom ;;
    mwhen (g_ext_h g <? deepest)
      (update_boundary_options PNone (PFloat deepest)) ;;;
    if has_dup depths then mraise ValueError
    else
      assign_materials 0 materials ;;;
      self_upd (set_s_materials materials) ;;;
      reset_results.

  (** [m.depth_to_bottom == depth] *)
  Definition num_eqb_val (t : T) (v : pyval T) : bool :=
    match as_num v with Ok x => neqb t x | Err _ => false end.

  (** pyslope.py:712-772 [remove_material] *)
  Definition remove_material (m : option objref) (depth : pyval T) (remove_all : bool)
    : M st unit :=
    depth <- (match m with
              | Some (RefMaterial n) =>
                  mm <- get_material n ;; mret (PFloat (m_depth mm))
              | _ => mret depth
              end) ;;
    mwhen (truthy depth)
      (h <- heap_get h_materials ;;
       locs <- self_get s_materials ;;
       match find (fun n => num_eqb_val (depth_of h n) depth) locs with
       | Some n => self_upd (set_s_materials
                               (remove_first (same_obj material_eqb h n) locs))
       | None => mret tt
       end) ;;;
    mwhen remove_all (self_upd (set_s_materials [])) ;;;
    reset_results.

  (** pyslope.py:774-810 [update_water_analysis_options] *)
  Definition update_water_analysis_options (auto : bool) (H : pyval T) : M st unit :=
    (if auto then
       g <- self_get s_geom ;;
       self_upd (set_s_water_H (nsq (ncos (natan (g_gradient g)))))
     else
       mlift (assert_number H) ;;;
       h <- mlift (as_num H) ;;
       self_upd (set_s_water_H
         (if nz 1 <? h then nz 1 else if h <? nz 0 then nz 0 else h))) ;;;
    reset_results.

  (** pyslope.py:812-876 [update_analysis_options].  The integer options are
      modelled as Python ints, the others as floats; the code validates none of
      them. *)
  Definition update_analysis_options (slices iterations : option Z)
             (min_failure_dist tolerance : option T) (max_iterations : option Z)
    : M st unit :=
    (match slices with
     | Some n => mwhen (negb (Z.eqb n 0))
                   (self_upd (set_s_slices (Z.max (Z.min 500 n) 10)))
     | None => mret tt end) ;;;
    (match iterations with
     | Some n => mwhen (negb (Z.eqb n 0))
                   (self_upd (set_s_iterations (Z.max (Z.min n 100000) 500)))
     | None => mret tt end) ;;;
    (match min_failure_dist with
     | Some d => g <- self_get s_geom ;;
                 self_upd (set_s_min_failure (pymin d (g_ext_l g * nlit 9 10)))
     | None => mret tt end) ;;;
    (match tolerance with
     | Some t => self_upd (set_s_tolerance t)
     | None => mret tt end) ;;;
    (match max_iterations with
     | Some n => self_upd (set_s_max_iterations n)
     | None => mret tt end) ;;;
    reset_results.

  (** pyslope.py:1225-1230 [remove_individual_planes] *)
  Definition remove_individual_planes : M st unit :=
    self_upd (set_s_planes []) ;;; reset_results.

  (** pyslope.py:2067-2080 [get_external_y_intersection] *)
  Definition external_y (g : geom) (x : T) : option T :=
    if (x <? nz 0) || (g_ext_l g <? x) then None
    else if x <=? fst (g_top g) then Some (snd (g_top g))
    else if fst (g_bot g) <=? x then Some (snd (g_bot g))
    else Some (snd (g_top g) - (x - fst (g_top g)) * g_gradient g).

  (** pyslope.py:2082-2101 [get_external_x_intersection] *)
  Definition external_x (g : geom) (y : T) : res (option T) :=
    if y <? snd (g_bot g) then Ok (Some (g_ext_l g))
    else if y <? g_ext_h g then
      let! q := pydiv (snd (g_top g) - y) (g_gradient g) in
      Ok (Some (fst (g_top g) + q))
    else if y =? snd (g_bot g) then Ok (Some (fst (g_bot g)))
    else if y =? snd (g_top g) then Ok (Some (fst (g_top g)))
    else Ok None.

  (** The blank object before [__init__] runs.  None of these placeholder
      values is read before [__init__] assigns the attribute. *)
  Definition blank_slope : slope :=
    let z := nz 0 in
    MkSlope (MkGeom z z z (z, z) (z, z) z z) false z z [] [] [] UmUnset
            None None z (MkLimits z z z z) 0 0 z z 0 [] [] [].

  (** pyslope.py:268-298 [Slope.__init__] *)
  Definition init_slope (height angle length : pyval T) : M st unit :=
    self_upd (set_s_materials []) ;;;
    self_upd (set_s_water_RL None) ;;;
    self_upd (set_s_udls []) ;;;
    self_upd (set_s_lls []) ;;;
    self_upd (set_s_dynamic []) ;;;
    self_upd (set_s_planes []) ;;;
    self_upd (set_s_has_boundary false) ;;;
    update_boundary_options (PInt 10) (PInt 6) ;;;
    set_external_boundary height angle length ;;;
    update_analysis_options (Some 25%Z) (Some 1000%Z) (Some (nz 0))
                            (Some (nlit 5 1000)) (Some 15%Z) ;;;
    update_water_analysis_options true (PInt 1) ;;;
    remove_analysis_limits.
End SlopeState.
Arguments geom T : clear implicits.
Arguments limits T : clear implicits.
Arguments plane T : clear implicits.
Arguments udlmax T : clear implicits.
Arguments slope T : clear implicits.
Arguments st T : clear implicits.
