(** * Validation: model of /repo/pyslope/data_validation.py *)
From Coq Require Import ZArith List Bool String.
From Verif Require Import Num Py.
Import ListNotations.

Section Validation.
  Context {T : Type} {NT : Num T}.

  (** data_validation.py:4-9 [assert_integer] *)
  Definition assert_integer (n : pyval T) : res unit :=
    if negb (isinstance_int n) then Err ValueError else Ok tt.

  (** data_validation.py:12-20 [assert_positive_number] *)
  Definition assert_positive_number (n : pyval T) : res unit :=
    if negb (isinstance_num n) then Err ValueError
    else let! v := as_num n in
         if nltb v (nz 0) then Err ValueError else Ok tt.

  (** data_validation.py:23-31 [assert_strictly_positive_number]; the test in
      the code is [n < 0], not [n <= 0]. *)
  Definition assert_strictly_positive_number (n : pyval T) : res unit :=
    if negb (isinstance_num n) then Err ValueError
    else let! v := as_num n in
         if nltb v (nz 0) then Err ValueError else Ok tt.

  (** data_validation.py:34-40 [assert_number] *)
  Definition assert_number (n : pyval T) : res unit :=
    if negb (type_num n) then Err ValueError else Ok tt.

  (** data_validation.py:43-75 [assert_range].  [low] and [high] are numbers at
      every call site, so the type test of lines 50-54 never fires and is left
      out. *)
  Definition assert_range (n : pyval T) (low high : T) (not_low not_high : bool)
    : res unit :=
    if negb (isinstance_num n) then Err ValueError
    else let! v := as_num n in
         if nltb v low then Err ValueError
         else if nltb high v then Err ValueError
         else if not_low && neqb v low then Err ValueError
         else if not_high && neqb v high then Err ValueError
         else Ok tt.

  (** data_validation.py:78-83 [assert_length] *)
  Definition assert_length {A} (li : list A) (num : nat) : res unit :=
    if negb (Nat.eqb (List.length li) num) then Err ValueError else Ok tt.

  (** data_validation.py:86-93 [assert_list_contents], with [eqb] standing for
      Python's [==] on the items. *)
  Fixpoint assert_list_contents {A} (eqb : A -> A -> bool) (li content : list A)
    : res unit :=
    match li with
    | [] => Ok tt
    | a :: li' =>
        if negb (existsb (eqb a) content) then Err ValueError
        else assert_list_contents eqb li' content
    end.

  (** data_validation.py:96-103 [assert_contents] *)
  Definition assert_contents {A} (eqb : A -> A -> bool) (var : A) (content : list A)
    : res unit :=
    if negb (existsb (eqb var) content) then Err ValueError else Ok tt.
End Validation.
