(** * PropsMigrate: what bringing the database up to date does to the stored rows (C100). *)
From Coq Require Import ZArith Reals List Bool String Lia.
From Verif Require Import Num Py RealNum Migrate MigrateFacts.
Import ListNotations.
Local Open Scope list_scope.
Local Open Scope string_scope.

(** The tables of slope/models.py:6-51, with the key Django adds.  The order is that of creation. *)
Definition key_ := MkField KKey false false NoDefault.
Definition float_field (z : Z) := MkField KFloat false false (DInt z).
Definition bool_field := MkField KBool false false (DBool false).
Definition models : schema :=
  [("materialmodel", [("id", key_); ("unit_weight", float_field 20); ("friction_angle", float_field 35);
      ("cohesion", float_field 2); ("depth_to_bottom", float_field 5);
      ("name", MkField (KChar 50) false true (DText "")); ("color", MkField (KChar 20) false true DNone)]);
   ("lineloadmodel", [("id", key_); ("magnitude", float_field 0); ("offset", float_field 0);
      ("color", MkField (KChar 20) true true (DText "blue")); ("dynamic_offset", bool_field)]);
   ("slopemodel", [("id", key_); ("height", float_field 1); ("angle", float_field 45); ("length", float_field 1)]);
   ("udlmodel", [("id", key_); ("magnitude", float_field 0); ("offset", float_field 0); ("length", float_field 0);
      ("color", MkField (KChar 20) true true (DText "red")); ("dynamic_offset", bool_field)]);
   ("limitsmodel", [("id", key_); ("consider_limits", bool_field); ("left_x", float_field 0); ("right_x", float_field 8);
      ("consider_internal_limits", bool_field); ("left_x_right", float_field 4); ("right_x_left", float_field 6)]);
   ("watertablemodel", [("id", key_); ("consider_water", bool_field); ("water_depth", float_field 1)])].

(** An empty database gets exactly those tables, empty. *)
Theorem C100_fresh : forall (T : Type) (NT : Num T),
  migrate migrations ([] : db T) = (13%nat, map (fun nf => MkTable (fst nf) (snd nf) []) models, true).
Proof. intros. vm_compute. reflexivity. Qed.
Print Assumptions C100_fresh.

(** The tables at each stage on the way. *)
Definition text_field (n : nat) (null blank : bool) (d : default) := MkField (KChar n) null blank d.
Definition name_at (k : nat) : field :=
  match k with
  | 1 => text_field 50 false false (DText "") | 2 => text_field 50 false true (DText "")
  | 3 => text_field 50 false true NoDefault | 4 => text_field 50 true true NoDefault
  | 5 => text_field 50 true true (DText "") | 6 => text_field 50 true true DNone
  | 7 | 8 => text_field 50 true true (DText "Fill") | 9 => text_field 50 false true (DText "Fill")
  | _ => text_field 50 false true (DText "")
  end%nat.
Definition colour_at (k : nat) : fields :=
  match k with
  | 1 => [("color", text_field 20 false false (DText ""))] | 2 => [("color", text_field 20 false true (DText ""))]
  | 3 => [("color", text_field 20 false true NoDefault)] | 4 => [("color", text_field 20 true true NoDefault)]
  | 5 => [("color", text_field 20 true true (DText ""))] | 6 | 8 => [("color", text_field 20 true true DNone)]
  | 7 => []
  | _ => [("color", text_field 20 false true DNone)]
  end%nat.
Definition load_colour_at (k : nat) (c : string) : field :=
  text_field 20 (Nat.leb 4 k) (Nat.leb 2 k) (DText c).
Definition stage (k : nat) : schema :=
  (if Nat.eqb k 0 then [] else
  [("materialmodel", [("id", key_); ("unit_weight", float_field 20); ("friction_angle", float_field 35);
      ("cohesion", float_field 2); ("depth_to_bottom", float_field 5); ("name", name_at k)] ++ colour_at k);
   (if Nat.leb 13 k then "lineloadmodel" else "pointloadmodel",
     [("id", key_); ("magnitude", float_field 0); ("offset", float_field 0);
      ("color", load_colour_at k "blue"); ("dynamic_offset", bool_field)]);
   ("slopemodel", [("id", key_); ("height", float_field 1); ("angle", float_field (if Nat.leb 9 k then 45 else 30));
      ("length", float_field (if Nat.leb 9 k then 1 else 0))]);
   ("udlmodel", [("id", key_); ("magnitude", float_field 0); ("offset", float_field 0); ("length", float_field 0);
      ("color", load_colour_at k "red"); ("dynamic_offset", bool_field)])] ++
  (if Nat.leb 11 k then
  [("limitsmodel", [("id", key_); ("consider_limits", bool_field); ("left_x", float_field 0);
      ("right_x", float_field (if Nat.leb 12 k then 8 else 3)); ("consider_internal_limits", bool_field);
      ("left_x_right", float_field (if Nat.leb 12 k then 4 else 1));
      ("right_x_left", float_field (if Nat.leb 12 k then 6 else 2))]);
   ("watertablemodel", [("id", key_); ("consider_water", bool_field); ("water_depth", float_field 1)])]
  else []))%list.
Theorem C100_stages : forall k, (k <= 13)%nat -> schema_at k = stage k.
Proof. intros k L. do 14 (destruct k as [|k]; [reflexivity|]). lia. Qed.
Print Assumptions C100_stages.
(** Any database at any stage: the run stops at the first migration it cannot carry out, and
    that happens exactly when there is a material and the stage is before the eighth, or the
    stage is the eighth and a material has no colour. *)
Theorem C100_outcome : forall (T : Type) (NT : Num T) k (d : db T),
  (k <= 13)%nat -> conforms (stage k) d ->
  exists n d' ok, migrate (skipn k migrations) d = (n, d', ok) /\
    conforms (stage (k + n)) d' /\
    (ok = true -> (k + n = 13)%nat /\ conforms models d') /\ (ok = false -> (k + n = 8)%nat) /\
    (ok = false <-> (k < 8)%nat /\ rows_of "materialmodel" d <> [] \/
                    k = 8%nat /\ In (Some VNull) (colours d)).
Proof.
  intros T NT k d L C. rewrite <- C100_stages in C by exact L. assert (J : (k + (13 - k) = 13)%nat) by lia.
  pose proof (migrate_ok (13 - k) k d J C) as M. pose proof (outcome k d L C) as O.
  destruct (migrate (skipn k migrations) d) as [[n d'] ok]. exists n, d', ok. cbn [snd] in O.
  destruct M as (LE & C' & _ & A & B). rewrite C100_stages in C' by exact LE. split; [reflexivity|]. split; [exact C'|]. split; [|split; [intros E; now apply B|exact O]].
  intros E. specialize (A E). split; [exact A|]. rewrite A in C'. exact C'.
Qed.
Print Assumptions C100_outcome.

(** Whether it stops or not: every row is still there and every value in it, except names of
    materials that were missing and, before the seventh migration, colours of materials. *)
Theorem C100_kept : forall (T : Type) (NT : Num T) k (d : db T),
  (k <= 13)%nat -> conforms (stage k) d -> kept_all (Nat.ltb k 7) d (snd (fst (migrate (skipn k migrations) d))).
Proof.
  intros T NT k d L C. rewrite <- C100_stages in C by exact L. assert (J : (k + (13 - k) = 13)%nat) by lia. pose proof (migrate_ok (13 - k) k d J C) as M.
  destruct (migrate (skipn k migrations) d) as [[n d'] ok]. now destruct M as (_ & _ & K & _).
Qed.
Print Assumptions C100_kept.

(** A run that stops has by then taken every material's colour away, and running again stops
    at once and changes nothing. *)
Theorem C100_stuck : forall (T : Type) (NT : Num T) k (d : db T) n d',
  (k < 8)%nat -> conforms (stage k) d -> migrate (skipn k migrations) d = (n, d', false) ->
  (forall c, In c (colours d') -> c = Some VNull) /\ colours d' <> [] /\
  migrate (skipn (k + n) migrations) d' = (0%nat, d', false).
Proof. intros T NT k d n d' L C. rewrite <- C100_stages in C by lia. now apply stuck_again. Qed.
Print Assumptions C100_stuck.

(** *** Concrete cases *)
(** a material and a uniform load stored when the seventh migration was still to come *)
Definition stored : db R :=
  map (fun nf => MkTable (fst nf) (snd nf)
    (if String.eqb (fst nf) "materialmodel"
     then [[VKey 1; VFloat 20%R; VFloat 35%R; VFloat 2%R; VFloat 5%R; VNull; VText "green"]]
     else if String.eqb (fst nf) "udlmodel"
     then [[VKey 1; VFloat 10%R; VFloat 0%R; VFloat 1%R; VText "red"; VBool false]] else []))
    (stage 6).
Example C100_stored : conforms (stage 6) stored /\
  colours stored = [Some (VText "green")] /\ rows_of "udlmodel" stored <> [] /\
  exists d', migrate (skipn 6 migrations) stored = (2%nat, d', false) /\ colours d' = [Some VNull].
Proof.
  split; [|split; [reflexivity|split; [discriminate|]]].
  - repeat (constructor || split || discriminate || (intros; discriminate)).
  - eexists. split; vm_compute; reflexivity.
Qed.
(** with no material the same database gets through *)
Definition stored_load : db R := map (fun t => if String.eqb (t_name t) "materialmodel" then MkTable (t_name t) (t_fields t) [] else t) stored.
Example C100_stored_load : conforms (stage 6) stored_load /\ rows_of "udlmodel" stored_load <> [] /\
  exists d', migrate (skipn 6 migrations) stored_load = (7%nat, d', true).
Proof.
  split; [|split; [discriminate|]].
  - repeat (constructor || split || discriminate || (intros; discriminate)).
  - eexists. vm_compute. reflexivity.
Qed.
