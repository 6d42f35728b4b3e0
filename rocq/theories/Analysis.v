(** * Analysis: slice method and critical circle
    (/repo/pyslope/pyslope.py:1232-1731, 1920-2014, 2029-2065).

    numpy vectors become lists, one entry per slice.  [np.maximum],
    [np.minimum] and [np.clip] are [pymax]/[pymin], which differ from numpy only
    on NaN. *)
From Coq Require Import ZArith List Bool.
From Verif Require Import Num Py Validation Utilities Objects Slope Planes.
Import ListNotations.

Section Analysis.
  Context {T : Type} {NT : Num T} {EN : Env}.
  Local Open Scope num_scope.

  (** [np.linspace(a, b, n)]: [a + i * step], the last entry exactly [b]. *)
  Definition linspace (a b : T) (n : Z) : list T :=
    let step := (b - a) / nz (n - 1) in
    if (n <=? 0)%Z then []
    else if (n =? 1)%Z then [a]
    else map (fun i => nz i * step + a) (zrange 0 (Z.to_nat n - 1)) ++ [b].

  (** pyslope.py:1964-1973: layers top to bottom as (top, bottom, unit weight);
      the last one has no bottom (-inf). *)
  Fixpoint layers (top : T) (mats : list (T * material T))
    : list (T * option T * T) :=
    match mats with
    | [] => []
    | [(_, m)] => [(top, None, m_unit_weight m)]
    | (rl, m) :: mats' => (top, Some rl, m_unit_weight m) :: layers rl mats'
    end.

  (** pyslope.py:1987-1990: contribution of one layer to a strip *)
  Definition layer_weight (yt yb : T) (l : T * option T * T) : T :=
    let '(top, bottom, uw) := l in
    let lower := match bottom with Some b => pymax yb b | None => yb end in
    let overlap := pymin yt top - lower in
    uw * (if overlap <? nz 0 then nz 0 else overlap).

  (** pyslope.py:1920-1993 [_calculate_strip_weights], one strip *)
  Definition strip_weight (v : view T) (b yt yb : T) : T :=
    fold_left (fun w l => w + layer_weight yt yb l)
              (layers (g_ext_h (v_geom v)) (v_mats v)) (nz 0) * b.

  (** pyslope.py:1479-1488 (and 1995-2014): the material at the base of a slice *)
  Fixpoint base_material (mats : list (T * material T)) (yb : T) : option (material T) :=
    match mats with
    | [] => None
    | [(_, m)] => Some m
    | (rl, m) :: mats' => if rl <? yb then Some m else base_material mats' yb
    end.

  (** [np.arctan(a / b)] with numpy's division: a zero divisor gives an infinity
      and hence a right angle. *)
  Definition np_arctan_div (a b : T) : T :=
    if b =? nz 0 then
      (if a <? nz 0 then nz 0 - npi / nz 2 else npi / nz 2)
    else natan (a / b).

  (** One slice. *)
  Record slice := MkSlice {
    sl_x : T;
    sl_yt : T;
    sl_yb : T;
    sl_cos : T;
    sl_sin : T;
    sl_W : T;       (* soil plus loads *)
    sl_c : T;       (* cohesion at the base *)
    sl_tan : T;     (* tan of the friction angle at the base *)
    sl_u : T;       (* water head times 9.81 times the factor on water pressure *)
  }.

  (** pyslope.py:1380-1388: ground surface above [x]; unlike
      [get_external_y_intersection] there is no range check. *)
  Definition ground_y (g : geom T) (x : T) : T :=
    if x <=? fst (g_top g) then snd (g_top g)
    else if fst (g_bot g) <=? x then snd (g_bot g)
    else snd (g_top g) - (x - fst (g_top g)) * g_gradient g.

  (** pyslope.py:1422-1437: a UDL on the strip [xl, xr] *)
  Definition udl_on (xl xr : T) (w : T) (u : T * T * T) : T :=
    let '(u_l, u_r, mag) := u in
    let overlap := pymin xr u_r - pymax xl u_l in
    w + pymax overlap (nz 0) * mag.

  (** pyslope.py:1439-1441: a line load on the strip [xl, xr) *)
  Definition ll_on (xl xr : T) (w : T) (l : T * T) : T :=
    let '(coord, mag) := l in
    if (xl <=? coord) && (coord <? xr) then w + mag else w.

  (** pyslope.py:1444-1464: water pressure at the base per unit length, without
      the base length.  [x_water] is the answer of
      [get_external_x_intersection]. *)
  Definition water_u (g : geom T) (H rl x_water x yt yb : T) : T :=
    let head := pymax (pymin rl yt - yb) (nz 0) in
    head * nlit 981 100
    * (if (x_water <? x) && (x <? fst (g_bot g)) then H else nz 1).

  (** [self._water_RL] is truthy: set, and not zero *)
  Definition water_level (v : view T) : option T :=
    match v_water_RL v with
    | Some rl => if rl =? nz 0 then None else Some rl
    | None => None
    end.

  (** pyslope.py:1444-1446: where the water table meets the slope, if there is
      a water table; comparing None with an array raises TypeError. *)
  Definition water_data (v : view T) : res (option (T * T)) :=
    match water_level v with
    | None => Ok None
    | Some rl =>
        let! x := external_x (v_geom v) rl in
        match x with
        | Some x => Ok (Some (rl, x))
        | None => Err TypeError
        end
    end.

  (** pyslope.py:1362-1488 for one slice of centre [x] and width [b].
      The caller has checked that [x] is inside the circle and that there are
      materials. *)
  Definition make_slice (v : view T) (water : option (T * T)) (c_x c_y radius b x : T)
             (mat : material T) : slice :=
    let g := v_geom v in
    let yb := c_y - nsqrt (nsq radius - nsq (x - c_x)) in
    let yt := pymax (ground_y g x) yb in
    let alpha := np_arctan_div (c_x - x) (c_y - yb) in
    let xl := x - b / nz 2 in
    let xr := x + b / nz 2 in
    let w0 := strip_weight v b yt yb in
    let w1 := fold_left (udl_on xl xr) (v_udls v) w0 in
    let w2 := fold_left (ll_on xl xr) (v_lls v) w1 in
    MkSlice x yt yb (ncos alpha) (nsin alpha) w2 (m_cohesion mat) (m_tan_phi mat)
            (match water with
             | Some (rl, xw) => water_u g (v_water_H v) rl xw x yt yb
             | None => nz 0
             end).

  (** Bottom of the slice at [x] (pyslope.py:1363-1367) *)
  Definition slice_bottom (c_x c_y radius x : T) : T :=
    c_y - nsqrt (nsq radius - nsq (x - c_x)).

  (** The slices of a circle between two ground points, shared by the ordinary
      (1338-1488) and the Bishop (1576-1707) computations, which recompute the
      same numbers.  [Ok None] stands for the [return None] of lines 1348-1349,
      1364-1365, 1406-1407 and 1469-1470. *)
  Definition slices_of (v : view T) (c_x c_y radius x_left x_right : T)
    : res (option (T * list slice)) :=
    let total_width := x_right - x_left in
    if total_width <=? nlit 1 1000000 then Ok None
    else
      let! b := pydiv total_width (nz (v_slices v)) in
      let half := b / nz 2 in
      let xs := linspace (x_left + half) (x_right - half) (v_slices v) in
      if existsb (fun x => nsq radius <? nsq (x - c_x)) xs then Ok None
      else
        let cosines := map (fun x => ncos (np_arctan_div (c_x - x)
                              (c_y - slice_bottom c_x c_y radius x))) xs in
        if existsb (fun c => c =? nz 0) cosines then Ok None
        else
          let! water := water_data v in
          match v_mats v with
          | [] => Ok None
          | (_, m0) :: _ =>
              Ok (Some (b, map (fun x =>
                    let mat := match base_material (v_mats v)
                                       (slice_bottom c_x c_y radius x) with
                               | Some m => m | None => m0 end in
                    make_slice v water c_x c_y radius b x mat) xs))
          end.

  (** pyslope.py:1490-1504: the ordinary (Swedish) factor of safety *)
  Definition ordinary_fos (b : T) (sl : list slice) : option T :=
    let resisting := nsum (map (fun s =>
          let l := b / sl_cos s in
          sl_c s * l + pymax (nz 0) (sl_W s * sl_cos s - sl_u s * l) * sl_tan s) sl) in
    let driving := nsum (map (fun s => sl_W s * sl_sin s) sl) in
    if driving <=? nz 0 then None else Some (resisting / driving).

  (** pyslope.py:1261-1504 [_analyse_circular_failure_ordinary], called with
      both end points known. *)
  Definition ordinary (v : view T) (c_x c_y radius : T) (left right : point T)
    : res (option T) :=
    let! _ := assert_strictly_positive_number (PFloat c_x) in
    let! _ := assert_strictly_positive_number (PFloat c_y) in
    let! _ := assert_strictly_positive_number (PFloat radius) in
    let! o := slices_of v c_x c_y radius (fst left) (fst right) in
    Ok (match o with None => None | Some (b, sl) => ordinary_fos b sl end).

  (** pyslope.py:1714-1726: one Bishop iteration.  [None]: the circle is
      discarded (lines 1715-1716, 1723-1724).  When [prev = 0] numpy divides by
      zero: a term [sin*tan] that is not zero gives an infinite denominator and
      a zero contribution, a zero one gives NaN. *)
  Definition bishop_step (b : T) (sl : list slice) (prev : T) : res (option T) :=
    let driving := nsum (map (fun s => sl_W s * sl_sin s) sl) in
    let finish (terms : list T) : option T :=
      let resisting := nsum terms in
      if (driving <=? nz 0) || (resisting <? nz 0) then None
      else Some (resisting / driving) in
    if prev =? nz 0 then
      if existsb (fun s => sl_sin s * sl_tan s =? nz 0) sl then Err NanProduced
      else Ok (finish (map (fun _ => nz 0) sl))
    else
      let denom s := sl_cos s + sl_sin s * sl_tan s / prev in
      if existsb (fun s => denom s =? nz 0) sl then Ok None
      else Ok (finish (map (fun s =>
             (sl_c s * b + (sl_W s - sl_u s * b) * sl_tan s) / denom s) sl)).

  (** pyslope.py:1710-1731: the iteration, [k] turns left *)
  Fixpoint bishop_loop (b tol : T) (sl : list slice) (k : nat) (prev : T)
    : res (option T) :=
    match k with
    | O => Ok (Some prev)
    | S k' =>
        let! o := bishop_step b sl prev in
        match o with
        | None => Ok None
        | Some fs => if nabs (fs - prev) <? tol then Ok (Some fs)
                     else bishop_loop b tol sl k' fs
        end
    end.

  (** pyslope.py:1506-1731 [_analyse_circular_failure_bishop], called without
      end points as [analyse_slope] does. *)
  Definition bishop (v : view T) (c_x c_y radius : T) : res (option T) :=
    let! il := circle_external (v_geom v) c_x c_y radius in
    match first_two il with
    | None => Ok None
    | Some (l_c, r_c) =>
        let! o := ordinary v c_x c_y radius l_c r_c in
        match o with
        | None => Ok None
        | Some fs =>
            let! o := slices_of v c_x c_y radius (fst l_c) (fst r_c) in
            match o with
            | None => Ok None
            | Some (b, sl) =>
                bishop_loop b (v_tolerance v) sl (Z.to_nat (v_max_iterations v)) fs
            end
        end
    end.

  (** pyslope.py:1245-1250: the loop over the planes; an exception leaves the
      planes already done updated and the others as they were. *)
  Fixpoint fos_loop (v : view T) (l : list (plane T)) : res unit * list (plane T) :=
    match l with
    | [] => (Ok tt, [])
    | p :: l' =>
        match bishop v (p_cx p) (p_cy p) (p_radius p) with
        | Err e => (Err e, l)
        | Ok f => let '(r, l'') := fos_loop v l' in (r, set_fos f p :: l'')
        end
    end.

  Definition fos_val (p : plane T) : T :=
    match p_fos p with Some (Some f) => f | _ => nz 0 end.
  Definition has_fos (p : plane T) : bool :=
    match p_fos p with Some (Some _) => true | _ => false end.

  (** pyslope.py:1252-1257: drop the circles without a factor, sort, and keep
      those up to [max_fos] (0 and None mean no filter). *)
  Definition tidy (max_fos : option T) (l : list (plane T)) : list (plane T) :=
    let l := sort_by fos_val (filter has_fos l) in
    match max_fos with
    | Some m => if m =? nz 0 then l else filter (fun p => fos_val p <=? m) l
    | None => l
    end.

  (** pyslope.py:1232-1259 [analyse_slope].  The dictionaries of the individual
      planes are the very objects that receive the "FOS" key, and on an
      exception [_search] is the untidied list. *)
  Definition analyse_slope (max_fos : option T) : M (st T) unit :=
    planes <- self_get s_planes ;;
    v <- (fun s => (view_of s, s)) ;;
    match planes with
    | [] =>
        ps <- mlift (entry_exit_planes v) ;;
        let '(r, done) := fos_loop v ps in
        self_upd (set_s_search done) ;;;
        mlift r ;;;
        self_upd (set_s_search (tidy max_fos done))
    | _ =>
        let '(r, done) := fos_loop v planes in
        self_upd (set_s_planes done) ;;;
        self_upd (set_s_search done) ;;;
        mlift r ;;;
        self_upd (set_s_search (tidy max_fos done))
    end.

  (** pyslope.py:2029-2037 [get_min_FOS] *)
  Definition get_min_FOS (s : slope T) : res (option T) :=
    match s_search s with
    | [] => Err IndexError
    | p :: _ => match p_fos p with Some f => Ok f | None => Err KeyError end
    end.

  (** pyslope.py:2039-2052 [get_min_FOS_circle] *)
  Definition get_min_FOS_circle (s : slope T) : res (T * T * T) :=
    match s_search s with
    | [] => Err IndexError
    | p :: _ => Ok (p_cx p, p_cy p, p_radius p)
    end.

  (** pyslope.py:2054-2065 [get_min_FOS_end_points] *)
  Definition get_min_FOS_end_points (s : slope T) : res (point T * point T) :=
    match s_search s with
    | [] => Err IndexError
    | p :: _ => Ok (p_l p, p_r p)
    end.

  (** pyslope.py:1995-2014 [_get_material_at_depth] *)
  Definition get_material_at_depth (mats : list (T * material T)) (yb : T)
    : res (material T) :=
    match find (fun x => fst x <? yb) mats with
    | Some (_, m) => Ok m
    | None => match rev mats with (_, m) :: _ => Ok m | [] => Err IndexError end
    end.
End Analysis.
Arguments slice T : clear implicits.
