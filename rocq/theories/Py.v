(** * Py: Python values, exceptions and the state-and-exception monad. *)
From Coq Require Import ZArith List Bool String.
From Verif Require Import Num.
Import ListNotations.

(** The exceptions the modelled code can raise.  [NanProduced] is not a Python
    exception: it marks the one place where numpy silently divides zero by zero
    and the Python result becomes NaN (see [Analysis.bishop_step]); the model
    stops there instead of propagating NaN through sorting. *)
Inductive exn :=
| ValueError | TypeError | ZeroDivisionError | IndexError | KeyError
| AttributeError | AssertionError | NameError
| NanProduced.

(** Result of a pure computation that may raise. *)
Inductive res (A : Type) : Type :=
| Ok (a : A)
| Err (e : exn).
Arguments Ok {A} a.
Arguments Err {A} e.

Definition rbind {A B} (x : res A) (f : A -> res B) : res B :=
  match x with Ok a => f a | Err e => Err e end.

Declare Scope res_scope.
Delimit Scope res_scope with res.
Notation "'let!' x ':=' a 'in' b" := (rbind a (fun x => b))
  (at level 200, x pattern, a at level 100, b at level 200, right associativity).

(** Evaluate left to right, stop at the first exception. *)
Fixpoint rmapM {A B} (f : A -> res B) (l : list A) : res (list B) :=
  match l with
  | [] => Ok []
  | a :: l' => let! b := f a in let! bs := rmapM f l' in Ok (b :: bs)
  end.

(** Methods: they read and write a state, and an exception keeps the writes
    made before it was raised (Python has no rollback). *)
Definition M (S A : Type) : Type := S -> res A * S.

Definition mret {S A} (a : A) : M S A := fun s => (Ok a, s).
Definition mraise {S A} (e : exn) : M S A := fun s => (Err e, s).
Definition mbind {S A B} (m : M S A) (f : A -> M S B) : M S B :=
  fun s => match m s with
           | (Ok a, s') => f a s'
           | (Err e, s') => (Err e, s')
           end.
Definition mget {S A} (f : S -> A) : M S A := fun s => (Ok (f s), s).
Definition mupd {S} (f : S -> S) : M S unit := fun s => (Ok tt, f s).
Definition mlift {S A} (r : res A) : M S A := fun s => (r, s).
(** [try: m except Exception: h]; what is not an exception is not caught *)
Definition mtry {S A} (m : M S A) (h : M S A) : M S A :=
  fun s => match m s with
           | (Ok a, s') => (Ok a, s')
           | (Err NanProduced, s') => (Err NanProduced, s')
           | (Err _, s') => h s'
           end.
Definition mwhen {S} (b : bool) (m : M S unit) : M S unit :=
  if b then m else mret tt.

Notation "x <- m ;; k" := (mbind m (fun x => k))
  (at level 61, m at next level, right associativity).
Notation "' p <- m ;; k" := (mbind m (fun x => match x with p => k end))
  (at level 61, p pattern, m at next level, right associativity).
Notation "m ;;; k" := (mbind m (fun _ => k))
  (at level 61, right associativity).

(** [for a in l: f(a)] *)
Fixpoint mforM {S A} (l : list A) (f : A -> M S unit) : M S unit :=
  match l with
  | [] => mret tt
  | a :: l' => f a ;;; mforM l' f
  end.

Section Values.
  Context {T : Type} {NT : Num T}.

  (** The Python values a caller can pass where a number is expected. *)
  Inductive pyval :=
  | PNone
  | PBool (b : bool)
  | PInt (z : Z)
  | PFloat (t : T)
  | PStr (s : string).

  (** [bool(v)] *)
  Definition truthy (v : pyval) : bool :=
    match v with
    | PNone => false
    | PBool b => b
    | PInt z => negb (Z.eqb z 0)
    | PFloat t => negb (neqb t (nz 0))
    | PStr s => negb (String.eqb s "")
    end.

  Definition is_none (v : pyval) : bool :=
    match v with PNone => true | _ => false end.

  (** [isinstance(v, (int, float))]: Python's [bool] is a subclass of [int]. *)
  Definition isinstance_num (v : pyval) : bool :=
    match v with PBool _ | PInt _ | PFloat _ => true | _ => false end.

  (** [isinstance(v, int)] *)
  Definition isinstance_int (v : pyval) : bool :=
    match v with PBool _ | PInt _ => true | _ => false end.

  (** [type(v) in [int, float]]: excludes [bool]. *)
  Definition type_num (v : pyval) : bool :=
    match v with PInt _ | PFloat _ => true | _ => false end.

  (** The number a value denotes in arithmetic; arithmetic on anything else
      raises TypeError.  (An int is converted to the float carrier: Python
      compares ints and floats exactly, a difference visible only beyond 2^53.) *)
  Definition as_num (v : pyval) : res T :=
    match v with
    | PBool b => Ok (nz (if b then 1 else 0))
    | PInt z => Ok (nz z)
    | PFloat t => Ok t
    | PNone | PStr _ => Err TypeError
    end.

  (** Python's [a / b] on floats. *)
  Definition pydiv (a b : T) : res T :=
    if neqb b (nz 0) then Err ZeroDivisionError else Ok (ndiv a b).

  (** Python's [math.sqrt]. *)
  Definition pysqrt (a : T) : res T :=
    if nltb a (nz 0) then Err ValueError else Ok (nsqrt a).

  (** [list.sort(key=k)]: Python's sort is stable; for a key compared by [<]
      that is a total preorder, insertion from the right gives the same list. *)
  Section Sort.
    Context {A : Type} (lt : A -> A -> bool).
    Fixpoint insert (x : A) (l : list A) : list A :=
      match l with
      | [] => [x]
      | y :: l' => if lt y x then y :: insert x l' else x :: y :: l'
      end.
    Fixpoint sort (l : list A) : list A :=
      match l with
      | [] => []
      | x :: l' => insert x (sort l')
      end.
  End Sort.

  Definition sort_by {A} (key : A -> T) : list A -> list A :=
    sort (fun a b => nltb (key a) (key b)).

  (** A point, as the tuples [(x, y)] of the code. *)
  Definition point : Type := (T * T)%type.

  (** [==] on tuples of floats *)
  Definition point_eqb (p q : point) : bool :=
    neqb (fst p) (fst q) && neqb (snd p) (snd q).

  (** [<] on tuples of floats (lexicographic) *)
  Definition point_ltb (p q : point) : bool :=
    if neqb (fst p) (fst q) then nltb (snd p) (snd q)
    else nltb (fst p) (fst q).

  (** [len(set(l))] for a list of points *)
  Fixpoint point_mem (p : point) (l : list point) : bool :=
    match l with [] => false | q :: l' => point_eqb p q || point_mem p l' end.
  Fixpoint distinct_count (l : list point) : nat :=
    match l with
    | [] => 0
    | p :: l' => if point_mem p l' then distinct_count l' else S (distinct_count l')
    end.
End Values.
Arguments pyval T : clear implicits.
Arguments point T : clear implicits.
