(** * Migrate: the stored tables and the changes /repo/slope/migrations makes to them. *)
From Coq Require Import ZArith List Bool String.
From Verif Require Import Num Py.
Import ListNotations.
Local Open Scope string_scope.

(** What a column is declared as.  [blank] only matters to forms and to the default Django
    puts in when there is none. *)
Inductive kind := KKey | KFloat | KChar (max : nat) | KBool.
Inductive default := NoDefault | DNone | DInt (z : Z) | DText (s : string) | DBool (b : bool).
Record field := MkField { f_kind : kind; f_null : bool; f_blank : bool; f_default : default }.

Section Migrate.
  Context {T : Type} {NT : Num T}.

  Inductive value := VNull | VKey (n : nat) | VFloat (x : T) | VText (s : string) | VBool (b : bool).
  (** A row has one value per column, in the order of the columns. *)
  Definition row : Type := list value.
  Record table := MkTable { t_name : string; t_fields : list (string * field); t_rows : list row }.
  Definition db : Type := list table.

  (** Django's [effective_default] of a column (db/backends/base/schema.py). *)
  Definition effective (f : field) : value :=
    match f_default f with
    | DNone => VNull
    | DInt z => VFloat (nz z)
    | DText s => VText s
    | DBool b => VBool b
    | NoDefault => if negb (f_null f) && f_blank f
                   then match f_kind f with KChar _ => VText "" | _ => VNull end else VNull
    end.
  Definition is_null (v : value) : bool := match v with VNull => true | _ => false end.

  Inductive mop :=
  | CreateModel (name : string) (fields : list (string * field))
  | AlterField (model name : string) (f : field)
  | AddField (model name : string) (f : field)
  | RemoveField (model name : string)
  | RenameModel (old new : string).

  (** Whether the tables and columns an operation names are there (KeyError,
      FieldDoesNotExist, OperationalError otherwise). *)
  Definition named {A} (n : string) (l : list (string * A)) : bool := existsb (fun na => String.eqb (fst na) n) l.
  Definition columns (m : string) (s : list (string * list (string * field))) : list (string * field) :=
    flat_map (fun nf => if String.eqb (fst nf) m then snd nf else []) s.
  Definition possible (o : mop) (s : list (string * list (string * field))) : bool :=
    match o with
    | CreateModel n _ => negb (named n s)
    | AlterField m n _ | RemoveField m n => named n (columns m s)
    | AddField m n _ => named m s && negb (named n (columns m s))
    | RenameModel old new => named old s && negb (named new s)
    end.
  Definition tables (d : db) : list (string * list (string * field)) := map (fun t => (t_name t, t_fields t)) d.

  (** The columns of a row one by one; [None] when a NULL would be left in a column that
      does not allow it (IntegrityError). *)
  Fixpoint alter_row (name : string) (f : field) (fs : list (string * field)) (r : row) : option row :=
    match fs, r with
    | (n, old) :: fs', v :: r' =>
        if String.eqb n name then
          let v' := if f_null old && negb (f_null f) && is_null v then effective f else v in
          if negb (f_null f) && is_null v' then None else Some (v' :: r')
        else option_map (cons v) (alter_row name f fs' r')
    | _, _ => Some r
    end.
  Fixpoint alter_fields (name : string) (f : field) (fs : list (string * field)) : list (string * field) :=
    match fs with
    | [] => []
    | (n, old) :: fs' => if String.eqb n name then (n, f) :: fs' else (n, old) :: alter_fields name f fs'
    end.
  Fixpoint remove_cell (name : string) (fs : list (string * field)) (r : row) : row :=
    match fs, r with
    | (n, _) :: fs', v :: r' => if String.eqb n name then r' else v :: remove_cell name fs' r'
    | _, _ => r
    end.
  Fixpoint remove_field (name : string) (fs : list (string * field)) : list (string * field) :=
    match fs with
    | [] => []
    | (n, old) :: fs' => if String.eqb n name then fs' else (n, old) :: remove_field name fs'
    end.
  Definition add_cell (f : field) (r : row) : option row :=
    if negb (f_null f) && is_null (effective f) then None else Some (r ++ [effective f])%list.
  Fixpoint all_rows (g : row -> option row) (rs : list row) : option (list row) :=
    match rs with
    | [] => Some []
    | r :: rs' => match g r, all_rows g rs' with
                  | Some r', Some rs'' => Some (r' :: rs'')
                  | _, _ => None
                  end
    end.

  Definition change (o : mop) (t : table) : option table :=
    match o with
    | CreateModel _ _ => Some t
    | AlterField m n f => if String.eqb (t_name t) m then
        option_map (MkTable (t_name t) (alter_fields n f (t_fields t)))
          (all_rows (alter_row n f (t_fields t)) (t_rows t)) else Some t
    | AddField m n f => if String.eqb (t_name t) m then
        option_map (MkTable (t_name t) (t_fields t ++ [(n, f)])%list) (all_rows (add_cell f) (t_rows t)) else Some t
    | RemoveField m n => if String.eqb (t_name t) m then
        Some (MkTable (t_name t) (remove_field n (t_fields t)) (map (remove_cell n (t_fields t)) (t_rows t))) else Some t
    | RenameModel old new => if String.eqb (t_name t) old then Some (MkTable new (t_fields t) (t_rows t)) else Some t
    end.
  Fixpoint change_all (o : mop) (d : db) : option db :=
    match d with
    | [] => Some []
    | t :: d' => match change o t, change_all o d' with Some t', Some d'' => Some (t' :: d'') | _, _ => None end
    end.
  Definition apply_op (o : mop) (d : db) : option db :=
    if possible o (tables d) then
      match o with
      | CreateModel n fs => Some (d ++ [MkTable n fs []])%list
      | _ => change_all o d
      end
    else None.
  (** One migration is one transaction. *)
  Fixpoint apply_ops (os : list mop) (d : db) : option db :=
    match os with
    | [] => Some d
    | o :: os' => match apply_op o d with Some d' => apply_ops os' d' | None => None end
    end.
  (** [manage.py migrate] with the migrations that are left: how many were done, what the
      tables are then and whether it got to the end. *)
  Fixpoint migrate (ms : list (list mop)) (d : db) : nat * db * bool :=
    match ms with
    | [] => (O, d, true)
    | m :: ms' => match apply_ops m d with
                  | Some d' => let '(n, d'', ok) := migrate ms' d' in (S n, d'', ok)
                  | None => (O, d, false)
                  end
    end.
End Migrate.
Arguments value T : clear implicits.
Arguments row T : clear implicits.
Arguments table T : clear implicits.
Arguments db T : clear implicits.

Definition key : string * field := ("id", MkField KKey false false NoDefault).
Definition float_ (d : Z) : field := MkField KFloat false false (DInt d).
Definition flag_ : field := MkField KBool false false (DBool false).
Definition char_ (n : nat) (null blank : bool) (d : default) : field := MkField (KChar n) null blank d.

(** 0001_initial.py:12-87 *)
Definition m01 : list mop :=
  [CreateModel "materialmodel" [key; ("unit_weight", float_ 20); ("friction_angle", float_ 35); ("cohesion", float_ 2);
     ("depth_to_bottom", float_ 5); ("name", char_ 50 false false (DText "")); ("color", char_ 20 false false (DText ""))];
   CreateModel "pointloadmodel" [key; ("magnitude", float_ 0); ("offset", float_ 0);
     ("color", char_ 20 false false (DText "blue")); ("dynamic_offset", flag_)];
   CreateModel "slopemodel" [key; ("height", float_ 1); ("angle", float_ 30); ("length", float_ 0)];
   CreateModel "udlmodel" [key; ("magnitude", float_ 0); ("offset", float_ 0); ("length", float_ 0);
     ("color", char_ 20 false false (DText "red")); ("dynamic_offset", flag_)]].
(** 0002_auto_20220328_2237.py:12-33 *)
Definition m02 : list mop :=
  [AlterField "materialmodel" "color" (char_ 20 false true (DText ""));
   AlterField "materialmodel" "name" (char_ 50 false true (DText ""));
   AlterField "pointloadmodel" "color" (char_ 20 false true (DText "blue"));
   AlterField "udlmodel" "color" (char_ 20 false true (DText "red"))].
(** 0003_auto_20220328_2247.py:12-23 *)
Definition m03 : list mop :=
  [AlterField "materialmodel" "color" (char_ 20 false true NoDefault);
   AlterField "materialmodel" "name" (char_ 50 false true NoDefault)].
(** 0004_auto_20220329_1844.py:12-35 *)
Definition m04 : list mop :=
  [AlterField "materialmodel" "color" (char_ 20 true true NoDefault);
   AlterField "materialmodel" "name" (char_ 50 true true NoDefault);
   AlterField "pointloadmodel" "color" (char_ 20 true true (DText "blue"));
   AlterField "udlmodel" "color" (char_ 20 true true (DText "red"))].
(** 0005_auto_20220411_0843.py:12-23 *)
Definition m05 : list mop :=
  [AlterField "materialmodel" "color" (char_ 20 true true (DText ""));
   AlterField "materialmodel" "name" (char_ 50 true true (DText ""))].
(** 0006_auto_20220411_0851.py:12-23 *)
Definition m06 : list mop :=
  [AlterField "materialmodel" "color" (char_ 20 true true DNone);
   AlterField "materialmodel" "name" (char_ 50 true true DNone)].
(** 0007_auto_20220411_0856.py:12-24 *)
Definition m07 : list mop :=
  [RemoveField "materialmodel" "color";
   AlterField "materialmodel" "name" (char_ 50 true true (DText "Fill"))].
(** 0008_materialmodel_color.py:12-18 *)
Definition m08 : list mop := [AddField "materialmodel" "color" (char_ 20 true true DNone)].
(** 0009_auto_20220415_1142.py:12-33 *)
Definition m09 : list mop :=
  [AlterField "materialmodel" "color" (char_ 20 false true DNone);
   AlterField "materialmodel" "name" (char_ 50 false true (DText "Fill"));
   AlterField "slopemodel" "angle" (float_ 45);
   AlterField "slopemodel" "length" (float_ 1)].
(** 0010_alter_materialmodel_name.py:12-18 *)
Definition m10 : list mop := [AlterField "materialmodel" "name" (char_ 50 false true (DText ""))].
(** 0011_limitsmodel_watertablemodel.py:12-49 *)
Definition m11 : list mop :=
  [CreateModel "limitsmodel" [key; ("consider_limits", flag_); ("left_x", float_ 0); ("right_x", float_ 3);
     ("consider_internal_limits", flag_); ("left_x_right", float_ 1); ("right_x_left", float_ 2)];
   CreateModel "watertablemodel" [key; ("consider_water", flag_); ("water_depth", float_ 1)]].
(** 0012_auto_20220423_2339.py:12-28 *)
Definition m12 : list mop :=
  [AlterField "limitsmodel" "left_x_right" (float_ 4);
   AlterField "limitsmodel" "right_x" (float_ 8);
   AlterField "limitsmodel" "right_x_left" (float_ 6)].
(** 0013_rename_pointloadmodel_lineloadmodel.py:12-17 *)
Definition m13 : list mop := [RenameModel "pointloadmodel" "lineloadmodel"].
Definition migrations : list (list mop) := [m01; m02; m03; m04; m05; m06; m07; m08; m09; m10; m11; m12; m13].
