(** * Planes: failure circles (/repo/pyslope/pyslope.py:1015-1223, 1843-1918). *)
From Coq Require Import ZArith List Bool.
From Verif Require Import Num Py Validation Utilities Objects Slope.
Import ListNotations.

Section Planes.
  Context {T : Type} {NT : Num T} {EN : Env}.
  Local Open Scope num_scope.

  (** [l.sort()] on points *)
  Definition sort_points : list (point T) -> list (point T) := sort point_ltb.

  (** pyslope.py:1871-1878: leftmost crossing with the line of the crest, kept
      when it lies on the crest. *)
  Definition top_hits (g : geom T) (hits : list (point T)) : list (point T) :=
    match sort_points hits with
    | [] => []
    | p :: _ =>
        if (nz 0 <=? fst p) && (fst p <=? fst (g_top g)) then [p] else []
    end.

  (** pyslope.py:1892-1899: rightmost crossing with the line of the toe level,
      kept when it lies on the toe level. *)
  Definition bot_hits (g : geom T) (hits : list (point T)) : list (point T) :=
    match rev (sort_points hits) with
    | [] => []
    | p :: _ =>
        if (fst (g_bot g) <=? fst p) && (fst p <=? g_ext_l g) then [p] else []
    end.

  (** pyslope.py:1905-1907: crossings with the face of the slope *)
  Definition mid_hits (g : geom T) (hits : list (point T)) : list (point T) :=
    filter (fun a => (fst (g_top g) <=? fst a) && (fst a <=? fst (g_bot g))) hits.

  (** pyslope.py:1911-1916: drop a point closer than 0.01 m (in x) to the
      previous point of the sorted list, kept or not. *)
  Fixpoint drop_close (x : T) (l : list (point T)) : list (point T) :=
    match l with
    | [] => []
    | i :: l' =>
        if nlit 1 100 <? nabs (fst i - x)
        then i :: drop_close (fst i) l'
        else drop_close (fst i) l'
    end.

  (** pyslope.py:1843-1918 [_get_circle_external_intersection] *)
  Definition circle_external (g : geom T) (c_x c_y radius : T) : res (list (point T)) :=
    let! t := cirle_line_intersection (nz 0, snd (g_top g)) (g_top g) c_x c_y radius in
    let! b := cirle_line_intersection (g_bot g) (g_ext_l g, snd (g_bot g)) c_x c_y radius in
    let! m := cirle_line_intersection (g_top g) (g_bot g) c_x c_y radius in
    let i_list := top_hits g t ++ bot_hits g b ++ mid_hits g m in
    Ok (drop_close (nz (-1)) (sort_by fst i_list)).

  (** [i_list[0], i_list[1]] when [len(set(i_list)) >= 2] *)
  Definition first_two (l : list (point T)) : option (point T * point T) :=
    if Nat.ltb (distinct_count l) 2 then None
    else match l with
         | a :: b :: _ => Some (a, b)
         | _ => None
         end.

  (** pyslope.py:1117-1136: angle of the chord, half its length and the
      distance from chord to arc of the first circle. *)
  Definition start_circle (l_c r_c : point T) : res (T * T * T) :=
    let! q := pydiv (snd l_c - snd r_c) (fst r_c - fst l_c) in
    let beta := natan q in
    let half := nsqrt (nsq (snd l_c - snd r_c) + nsq (fst r_c - fst l_c)) / nz 2 in
    let! sr := pydiv half (ncos beta) in
    let start_radius := sr * nlit 11 10 in
    let! c := pysqrt (nsq start_radius - nsq half) in
    Ok (beta, half, start_radius - c).

  (** pyslope.py:1138-1167, turns [i .. num_circles - 1] of the loop; [k] is
      [num_circles - i].  The end points [l_c], [r_c] are overwritten by the
      intersections found for the previous circle. *)
  Fixpoint circles_loop (g : geom T) (beta C start_edge : T) (num_circles : Z)
           (k : nat) (l_c r_c : point T) : res (list (plane T)) :=
    match k with
    | O => Ok []
    | S k' =>
        let! edge := pydiv (start_edge * nz (Z.of_nat k)) (nz num_circles) in
        let! radius := circle_radius_from_abcd edge C in
        let '(c_x, c_y) := circle_centre beta (mid_coord l_c r_c) (radius - edge) in
        let! il := circle_external g c_x c_y radius in
        match first_two il with
        | None => circles_loop g beta C start_edge num_circles k' l_c r_c
        | Some (l', r') =>
            let! rest := circles_loop g beta C start_edge num_circles k' l' r' in
            Ok (MkPlane l' r' c_x c_y radius None :: rest)
        end
    end.

  (** pyslope.py:1083-1169 [_generate_planes] *)
  Definition generate_planes (g : geom T) (l_c r_c : point T) (num_circles : Z)
    : res (list (plane T)) :=
    let! s := start_circle l_c r_c in
    let '(beta, half, edge) := s in
    circles_loop g beta (nsq half) edge num_circles (Z.to_nat num_circles) l_c r_c.

  (** pyslope.py:1020-1021 *)
  Definition num_circles_of (iterations : Z) : Z := Z.max 5 (iterations / 800).

  (** pyslope.py:1024-1029 *)
  Definition num_points_top_of (iterations : Z) : Z :=
    ntrunc (nsqrt (nz iterations / nz (num_circles_of iterations))).

  (** pyslope.py:1032-1033: the while loop, at most [fuel] turns
      ([iterations] turns suffice when [top] and [circles] are positive). *)
  Fixpoint grow_bot (top circles iterations : Z) (fuel : nat) (bot : Z) : Z :=
    match fuel with
    | O => bot
    | S f => if Z.ltb (top * bot * circles) iterations
             then grow_bot top circles iterations f (bot + 1)
             else bot
    end.
  Definition num_points_bot_of (iterations : Z) : Z :=
    let top := num_points_top_of iterations in
    grow_bot top (num_circles_of iterations) iterations (Z.to_nat iterations) top.

  (** [range(a, b)] *)
  Fixpoint zrange (a : Z) (k : nat) : list Z :=
    match k with O => [] | S k' => a :: zrange (a + 1) k' end.

  (** pyslope.py:1046-1049: entry points spread over the left limits *)
  Definition spread_left (lim : limits T) (k : Z) : res (list T) :=
    rmapM (fun n =>
             let! q := pydiv (nz n) (nz (k - 1)) in
             Ok (lim_left lim + q * (lim_left_r lim - lim_left lim)))
          (zrange 0 (Z.to_nat k)).

  (** pyslope.py:1054-1057: exit points spread over the right limits *)
  Definition spread_right (lim : limits T) (k : Z) : res (list T) :=
    rmapM (fun n =>
             let! q := pydiv (nz n) (nz k) in
             Ok (lim_right_l lim + q * (lim_right lim - lim_right_l lim)))
          (zrange 1 (Z.to_nat k)).

  (** pyslope.py:1075-1079: one pair of end points; [get_external_y_intersection]
      may have given None for the exit point, on which [dist_points] raises. *)
  Definition pair_planes (g : geom T) (min_dist : T) (num_circles : Z)
             (l_c : point T) (r : T * option T) : res (list (plane T)) :=
    match snd r with
    | None => Err TypeError
    | Some ry =>
        let r_c := (fst r, ry) in
        if min_dist <? dist_points l_c r_c
        then generate_planes g l_c r_c num_circles
        else Ok []
    end.

  (** What the search and the analyses read: a snapshot of the slope and of the
      objects it holds.  The materials, loads and limits appear by value. *)
  Record view := MkView {
    v_geom : geom T;
    v_mats : list (T * material T);       (* RL and material, top to bottom *)
    v_udls : list (T * T * T);            (* left, right, magnitude *)
    v_lls : list (T * T);                 (* coord, magnitude *)
    v_water_RL : option T;
    v_water_H : T;
    v_limits : limits T;
    v_slices : Z;
    v_iterations : Z;
    v_min_failure : T;
    v_tolerance : T;
    v_max_iterations : Z;
  }.
  Definition attr {A} (o : option A) : res A :=
    match o with Some a => Ok a | None => Err AttributeError end.
  Definition view_of (s : st T) : res view :=
    let sl := snd s in
    let! ms := rmapM (fun m => let! rl := attr (m_RL m) in Ok (rl, m)) (mats_of s) in
    let! us := rmapM (fun u => let! a := attr (u_left u) in
                               let! b := attr (u_right u) in
                               Ok (a, b, u_magnitude u)) (udls_of s) in
    let! ls := rmapM (fun l => let! c := attr (l_coord l) in
                               Ok (c, l_magnitude l)) (lls_of s) in
    Ok (MkView (s_geom sl) ms us ls (s_water_RL sl) (s_water_H sl) (s_limits sl)
               (s_slices sl) (s_iterations sl) (s_min_failure sl)
               (s_tolerance sl) (s_max_iterations sl)).

  (** pyslope.py:1035-1070: the entry points *)
  Definition left_coords (v : view) : res (list (point T)) :=
    let g := v_geom v in
    let k := (num_points_top_of (v_iterations v)
              - Z.of_nat (length (v_lls v)) - Z.of_nat (length (v_udls v)))%Z in
    let! xs := spread_left (v_limits v) k in
    let xs := xs ++ map (fun l => fst l - nlit 1 1000) (v_lls v)
                 ++ map (fun u => fst (fst u) - nlit 1 1000) (v_udls v) in
    Ok (map (fun x => (x, snd (g_top g))) xs).

  (** pyslope.py:1054-1061: the exit points *)
  Definition right_coords (v : view) : res (list (T * option T)) :=
    let! xs := spread_right (v_limits v) (num_points_bot_of (v_iterations v)) in
    Ok (map (fun x => (x, external_y (v_geom v) x)) xs).

  (** pyslope.py:1015-1081 [_set_entry_exit_planes]: the list stored in
      [_search]. *)
  Definition entry_exit_planes (v : view) : res (list (plane T)) :=
    let nc := num_circles_of (v_iterations v) in
    let! ls := left_coords v in
    let! rs := right_coords v in
    let! pls := rmapM (fun l_c =>
                   let! ps := rmapM (pair_planes (v_geom v) (v_min_failure v) nc l_c) rs in
                   Ok (concat ps)) ls in
    Ok (concat pls).

  (** pyslope.py:1171-1194 [add_single_entry_exit_plane].  A missing y
      coordinate makes the subtraction of line 1118 raise TypeError. *)
  Definition add_single_entry_exit_plane (l_cx r_cx : T) (num_circles : Z)
    : M (st T) unit :=
    g <- self_get s_geom ;;
    ps <- mlift (match external_y g l_cx, external_y g r_cx with
                 | Some ly, Some ry =>
                     generate_planes g (l_cx, ly) (r_cx, ry) num_circles
                 | _, _ => Err TypeError
                 end) ;;
    old <- self_get s_planes ;;
    self_upd (set_s_planes (old ++ ps)) ;;;
    reset_results.

  (** pyslope.py:1196-1223 [add_single_circular_plane] *)
  Definition add_single_circular_plane (c_x c_y radius : T) : M (st T) unit :=
    g <- self_get s_geom ;;
    il <- mlift (circle_external g c_x c_y radius) ;;
    match first_two il with
    | None => mret tt
    | Some (l, r) =>
        old <- self_get s_planes ;;
        self_upd (set_s_planes (old ++ [MkPlane l r c_x c_y radius None])) ;;;
        reset_results
    end.
End Planes.
Arguments view T : clear implicits.
