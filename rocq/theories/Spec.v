(** * Spec: vocabulary of the property statements.

    Written from the documentation, without the functions of the model; only the
    records that stand for Python objects and values are shared. *)
From Coq Require Import ZArith Reals Lra Lia List Bool String Permutation Sorted.
From Verif Require Import Num Py Objects Slope RealNum.
Import ListNotations.
Local Open Scope R_scope.

(** The number a Python value stands for; [True] is 1 and [False] is 0. *)
Definition denotes (v : pyval R) (x : R) : Prop :=
  match v with
  | PBool true => x = 1
  | PBool false => x = 0
  | PInt z => x = IZR z
  | PFloat t => x = t
  | PNone | PStr _ => False
  end.
(** An int or a float, not a bool. *)
Definition plain_number (v : pyval R) : Prop :=
  match v with PInt _ | PFloat _ => True | _ => False end.
Definition plain_denotes (v : pyval R) (x : R) : Prop := plain_number v /\ denotes v x.
(** An optional text: None stands for the empty string. *)
Definition is_text (v : pyval R) (t : string) : Prop :=
  match v with PNone => t = EmptyString | PStr s => t = s | _ => False end.
(** The values Python treats as false. *)
Definition falsy (v : pyval R) : Prop :=
  v = PNone \/ v = PStr EmptyString \/ denotes v 0.

(** The documented cross-section: height, length and minimum model size decide
    everything. *)
Record cross_section (h l mh ml : R) (g : geom R) : Prop := {
  cs_height : g_height g = h;
  cs_length : g_length g = l;
  cs_gradient : g_gradient g = h / l;
  cs_ext_h : g_ext_h g = Rmax (Rmax (3 * h) (5 / 2 * l)) mh;
  cs_ext_l : g_ext_l g = Rmax (Rmax (5 * l) (4 * h)) ml;
  cs_top_x : fst (g_top g) = (g_ext_l g - l) / 2;
  cs_top_y : snd (g_top g) = g_ext_h g;
  cs_bot_x : fst (g_bot g) = fst (g_top g) + l;
  cs_bot_y : snd (g_bot g) = snd (g_top g) - h;
}.

(** [clamp lo hi x]: the point of the interval nearest to [x]. *)
Definition clamp (lo hi x : R) : R := Rmax lo (Rmin hi x).

(** The ground surface: level with the crest, down the face at the gradient,
    level with the toe. *)
Definition surface (g : geom R) (x : R) : R :=
  snd (g_top g) - (clamp (fst (g_top g)) (fst (g_bot g)) x - fst (g_top g)) * g_gradient g.

(** Value stored for an optional argument. *)
Definition given_or (v : pyval R) (old : R) (x : R) : Prop :=
  (v = PNone /\ x = old) \/ (v <> PNone /\ denotes v x).
