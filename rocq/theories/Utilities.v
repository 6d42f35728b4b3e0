(** * Utilities: model of the numerical part of /repo/pyslope/utilities.py *)
From Coq Require Import ZArith List Bool String Ascii.
From Verif Require Import Num Py.
Import ListNotations.

Section Utilities.
  Context {T : Type} {NT : Num T}.
  Local Open Scope num_scope.

  (** utilities.py:27-28 [mid_coord] *)
  Definition mid_coord (p1 p2 : point T) : point T :=
    ((fst p1 + fst p2) / nz 2, (snd p1 + snd p2) / nz 2).

  (** utilities.py:31-32 [dist_points]; the radicand is a sum of squares, so
      [math.sqrt] cannot raise. *)
  Definition dist_points (p1 p2 : point T) : T :=
    nsqrt (nsq (nabs (fst p1 - fst p2)) + nsq (nabs (snd p1 - snd p2))).

  (** utilities.py:35-42 [circle_radius_from_abcd] *)
  Definition circle_radius_from_abcd (c_to_e C : T) : res T :=
    pydiv (C + nsq c_to_e) (nz 2 * c_to_e).

  (** utilities.py:45-49 [circle_centre] *)
  Definition circle_centre (beta : T) (chord_intersection : point T)
             (chord_to_centre : T) : point T :=
    let dy := ncos beta * chord_to_centre in
    let dx := nsin beta * chord_to_centre in
    (fst chord_intersection + dx, snd chord_intersection + dy).

  (** utilities.py:52-83 [cirle_line_intersection] *)
  Definition cirle_line_intersection (top_coord bot_coord : point T) (cx cy r : T)
    : res (list (point T)) :=
    let tx := fst top_coord - cx in
    let ty := snd top_coord - cy in
    let bx := fst bot_coord - cx in
    let by_ := snd bot_coord - cy in
    let dx := bx - tx in
    let dy := by_ - ty in
    let dr := nsqrt (nsq dx + nsq dy) in
    let D := tx * by_ - bx * ty in
    let disc := nabs (nsq r * nsq dr) - nabs (nsq D) in
    if disc <? nz 0 then Ok []
    else
      let m := if dy <? nz 0 then nz (-1) else nz 1 in
      let! x1 := pydiv (D * dy + m * dx * nsqrt disc) (nsq dr) in
      let! x2 := pydiv (D * dy - m * dx * nsqrt disc) (nsq dr) in
      let! y1 := pydiv ((nz 0 - (D * dx)) + nabs dy * nsqrt disc) (nsq dr) in
      let! y2 := pydiv ((nz 0 - (D * dx)) - nabs dy * nsqrt disc) (nsq dr) in
      let p1 := (x1 + cx, y1 + cy) in
      let p2 := (x2 + cx, y2 + cy) in
      if disc =? nz 0 then Ok [p1] else Ok [p1; p2].

  (** The Python range [range(1, 180, step)] used below. *)
  Fixpoint zrange_step (start stop step : Z) (fuel : nat) : list Z :=
    match fuel with
    | O => []
    | S f => if Z.ltb start stop
             then start :: zrange_step (start + step) stop step f
             else []
    end.

  (** utilities.py:86-111 [generate_circle_coordinates], at the default
      [number_points = 90] that every call site uses: [int(180/90) = 2], hence
      the angles 1, 3, ..., 179 degrees. *)
  Definition circle_angles : list Z := zrange_step 1 180 2 180.
  Definition generate_circle_coordinates (c_x c_y radius : T) : list (point T) :=
    map (fun alpha =>
           (nround 3 (c_x - ncos (nradians (nz alpha)) * radius),
            nround 3 (c_y - nsin (nradians (nz alpha)) * radius)))
        circle_angles.
End Utilities.

(** utilities.py:5-16 [MATERIAL_COLORS] *)
Definition MATERIAL_COLORS : list string :=
  ["#efa59c"; "#77e1ca"; "#cdacfc"; "#f2c6a7"; "#7edff4";
   "#f2a8c3"; "#cde9ba"; "#f2c1fa"; "#f1dba3"; "#a3acf7"]%string.

(** utilities.py:148-159 [get_precision], on the text [mag = str(n)].
    [split_dot s] is [s.split(".")]. *)
Definition dot : ascii := "."%char.
Fixpoint split_dot (s : string) : list string :=
  match s with
  | EmptyString => [EmptyString]
  | String c s' =>
      if Ascii.eqb c dot then EmptyString :: split_dot s'
      else match split_dot s' with
           | [] => [String c EmptyString]
           | w :: ws => String c w :: ws
           end
  end.
Fixpoint has_dot (s : string) : bool :=
  match s with
  | EmptyString => false
  | String c s' => Ascii.eqb c dot || has_dot s'
  end.
Definition is_zero_char (c : option ascii) : bool :=
  match c with Some c => Ascii.eqb c "0"%char | None => false end.
(** the loop of lines 155-157, started at index [i] with [k] turns left *)
Fixpoint precision_loop (decimals : string) (i k : nat) : option nat :=
  match k with
  | O => None
  | S k' =>
      if is_zero_char (String.get i decimals)
         && is_zero_char (String.get (i + 1) decimals)
         && is_zero_char (String.get (i + 2) decimals)
      then Some i
      else precision_loop decimals (i + 1) k'
  end.
Definition get_precision (mag : string) : nat :=
  if negb (has_dot mag) then 0
  else let decimals := nth 1 (split_dot mag) EmptyString in
       match precision_loop decimals 0 (String.length decimals - 3) with
       | Some i => i
       | None => String.length decimals
       end.
