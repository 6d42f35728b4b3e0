(** * Objects: Material, Udl and LineLoad (/repo/pyslope/pyslope.py:29-238),
    and the heap of such objects.

    Python objects have identity and are mutated in place by the slopes they are
    assigned to, so the model keeps them in a heap and slopes hold locations. *)
From Coq Require Import ZArith List Bool String.
From Verif Require Import Num Py Validation.
Import ListNotations.

(** The only third-party decision the model depends on: does the [colour]
    package accept this string (utilities.py:19-24 [is_color])?  Every theorem
    quantifies over it. *)
Class Env := { is_color : string -> bool }.

Section Objects.
  Context {T : Type} {NT : Num T} {EN : Env}.
  Local Open Scope num_scope.

  (** pyslope.py:67-72, 86, 101 and the [RL] attribute added by
      [set_materials] (pyslope.py:695); [None] until then. *)
  Record material := MkMaterial {
    m_unit_weight : T;
    m_friction_angle : T;
    m_cohesion : T;
    m_depth : T;              (* depth_to_bottom *)
    m_name : string;
    m_color : string;
    m_user_color : string;    (* user_defined_color *)
    m_tan_phi : T;            (* tan_friction_angle *)
    m_RL : option T;
  }.

  (** [None] or a [str], anything else fails the assert of lines 93-94. *)
  Definition text_arg (v : pyval T) : res string :=
    match v with
    | PNone => Ok EmptyString
    | PStr s => Ok s
    | _ => Err AssertionError
    end.

  (** pyslope.py:74-101 [Material.__post_init__] *)
  Definition new_material (unit_weight friction_angle cohesion depth name color : pyval T)
    : res material :=
    let! _ := assert_range unit_weight (nz 1) (nz 50) false false in
    let! _ := assert_positive_number friction_angle in
    let! _ := assert_number cohesion in
    let! _ := assert_number depth in
    let! uw := as_num unit_weight in
    let! phi := as_num friction_angle in
    let! c := as_num cohesion in
    let! d := as_num depth in
    let! nm := text_arg name in
    let! col := text_arg color in
    Ok (MkMaterial uw phi (nabs c) (nabs d) nm col col
                   (ntan (nradians phi)) None).

  (** pyslope.py:148-152 and the coordinates set by
      [_update_udl_coordinates] (pyslope.py:502-503).  The display [precision]
      (line 168) is modelled separately as [Utilities.get_precision]. *)
  Record udl := MkUdl {
    u_magnitude : T;
    u_offset : T;
    u_length : option T;
    u_color : string;
    u_dynamic : bool;         (* dynamic_offset *)
    u_left : option T;
    u_right : option T;
  }.

  (** pyslope.py:154-171 [Udl.__post_init__] *)
  Definition new_udl (magnitude offset length : pyval T) (color : string) (dynamic : bool)
    : res udl :=
    let! _ := assert_number magnitude in
    let! _ := assert_number offset in
    let! len :=
      (if truthy length
       then let! _ := assert_number length in
            let! l := as_num length in Ok (Some (nabs l))
       else Ok None) in
    let! mag := as_num magnitude in
    let! off := as_num offset in
    Ok (MkUdl (nabs mag) (nabs off) len
              (if is_color color then color else "red"%string) dynamic None None).

  (** pyslope.py:220-223 and the coordinate set by
      [_update_ll_coordinates] (pyslope.py:590). *)
  Record lload := MkLload {
    l_magnitude : T;
    l_offset : T;
    l_color : string;
    l_dynamic : bool;
    l_coord : option T;
  }.

  (** pyslope.py:225-235 [LineLoad.__post_init__] *)
  Definition new_lload (magnitude offset : pyval T) (color : string) (dynamic : bool)
    : res lload :=
    let! _ := assert_number magnitude in
    let! _ := assert_number offset in
    let! mag := as_num magnitude in
    let! off := as_num offset in
    Ok (MkLload (nabs mag) (nabs off)
                (if is_color color then color else "blue"%string) dynamic None).

  (** The dataclass [__eq__] generated for Udl (fields magnitude, offset,
      length, color, dynamic_offset), used by [list.remove]. *)
  Definition opt_eqb (a b : option T) : bool :=
    match a, b with
    | None, None => true
    | Some x, Some y => neqb x y
    | _, _ => false
    end.
  Definition udl_eqb (a b : udl) : bool :=
    neqb (u_magnitude a) (u_magnitude b) && neqb (u_offset a) (u_offset b)
    && opt_eqb (u_length a) (u_length b) && String.eqb (u_color a) (u_color b)
    && Bool.eqb (u_dynamic a) (u_dynamic b).
  (** The dataclass [__eq__] generated for LineLoad. *)
  Definition lload_eqb (a b : lload) : bool :=
    neqb (l_magnitude a) (l_magnitude b) && neqb (l_offset a) (l_offset b)
    && String.eqb (l_color a) (l_color b) && Bool.eqb (l_dynamic a) (l_dynamic b).
  (** The dataclass [__eq__] generated for Material (lines 67-72). *)
  Definition material_eqb (a b : material) : bool :=
    neqb (m_unit_weight a) (m_unit_weight b)
    && neqb (m_friction_angle a) (m_friction_angle b)
    && neqb (m_cohesion a) (m_cohesion b) && neqb (m_depth a) (m_depth b)
    && String.eqb (m_name a) (m_name b) && String.eqb (m_color a) (m_color b).

  (** Attribute assignments done by the slope methods. *)
  Definition set_RL_color (rl : T) (col : string) (m : material) : material :=
    MkMaterial (m_unit_weight m) (m_friction_angle m) (m_cohesion m) (m_depth m)
               (m_name m) col (m_user_color m) (m_tan_phi m) (Some rl).
  Definition set_udl_xy (left right : T) (u : udl) : udl :=
    MkUdl (u_magnitude u) (u_offset u) (u_length u) (u_color u) (u_dynamic u)
          (Some left) (Some right).
  Definition set_udl_offset (o : T) (u : udl) : udl :=
    MkUdl (u_magnitude u) o (u_length u) (u_color u) (u_dynamic u)
          (u_left u) (u_right u).
  Definition set_ll_coord (c : T) (l : lload) : lload :=
    MkLload (l_magnitude l) (l_offset l) (l_color l) (l_dynamic l) (Some c).
  Definition set_ll_offset (o : T) (l : lload) : lload :=
    MkLload (l_magnitude l) o (l_color l) (l_dynamic l) (l_coord l).

  (** The heap: objects by location. *)
  Record heap := MkHeap {
    h_materials : list material;
    h_udls : list udl;
    h_lls : list lload;
  }.
  Definition empty_heap : heap := MkHeap [] [] [].
End Objects.
Arguments material T : clear implicits.
Arguments udl T : clear implicits.
Arguments lload T : clear implicits.
Arguments heap T : clear implicits.

(** A value passed where load or material objects are expected. *)
Inductive objref :=
| RefMaterial (l : nat)
| RefUdl (l : nat)
| RefLload (l : nat)
| RefOther.

(** In-place update of one object. *)
Fixpoint upd_nth {A} (n : nat) (f : A -> A) (l : list A) : list A :=
  match l, n with
  | [], _ => []
  | a :: l', O => f a :: l'
  | a :: l', S n' => a :: upd_nth n' f l'
  end.
