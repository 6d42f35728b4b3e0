(** * Num: the arithmetic the Python code runs on, as an interface.

    The code of /repo/pyslope computes with Python floats (and numpy float64).
    The model is written ONCE, over the operations below, and is then used at
    two carriers:

    - [RealNum.RNum]  : exact real numbers (Coq's [R]); theorems about geometry,
      loads, weights and factors of safety are proved there;
    - [FloatNum.FNum] : IEEE-754 binary64 (Coq's [SpecFloat], prec 53, emax 1024),
      with NaN and infinities; used to run the model and to exhibit behaviours
      that only exist because of rounding or NaN.

    [Num] is an ordinary record (a type class), not a module type: a theorem
    over it quantifies over the instance explicitly. *)
From Coq Require Import ZArith List Bool String.
Import ListNotations.

Class Num (T : Type) := {
  (** [nlit n d] is the Python literal whose decimal value is [n/d]. *)
  nlit  : Z -> positive -> T;
  nadd  : T -> T -> T;
  nsub  : T -> T -> T;
  nmul  : T -> T -> T;
  (** division when the divisor is known not to be zero; Python's [/] with its
      ZeroDivisionError is [Py.pydiv]. *)
  ndiv  : T -> T -> T;
  nabs  : T -> T;
  (** square root of a non-negative number; Python's [math.sqrt] with its
      ValueError is [Py.pysqrt]. *)
  nsqrt : T -> T;
  natan : T -> T;
  ncos  : T -> T;
  nsin  : T -> T;
  ntan  : T -> T;
  npi   : T;
  nltb  : T -> T -> bool;
  nleb  : T -> T -> bool;
  neqb  : T -> T -> bool;
  (** [int(x)]: truncation towards zero *)
  ntrunc : T -> Z;
  (** [round(x, k)]: round half to even at [k] decimals *)
  nround : nat -> T -> T;
}.

Declare Scope num_scope.
Delimit Scope num_scope with num.
Notation "x + y" := (nadd x y) : num_scope.
Notation "x - y" := (nsub x y) : num_scope.
Notation "x * y" := (nmul x y) : num_scope.
Notation "x / y" := (ndiv x y) : num_scope.
Notation "x <? y" := (nltb x y) : num_scope.
Notation "x <=? y" := (nleb x y) : num_scope.
Notation "x =? y" := (neqb x y) : num_scope.

Section Generic.
  Context {T : Type} {NT : Num T}.
  Local Open Scope num_scope.

  (** A Python int used in float arithmetic. *)
  Definition nz (z : Z) : T := nlit z 1.

  (** Python's [max(a, b)]: the first argument unless the second is larger.
      (CPython [builtin_max]: keeps the first maximal item.) *)
  Definition pymax (a b : T) : T := if nltb a b then b else a.
  (** Python's [min(a, b)]: the first argument unless the second is smaller. *)
  Definition pymin (a b : T) : T := if nltb b a then b else a.

  (** [x ** 2] *)
  Definition nsq (x : T) : T := x * x.

  (** [math.radians]: CPython multiplies by the constant [pi / 180]. *)
  Definition nradians (x : T) : T := x * (npi / nz 180).

  (** [numpy.sum] of a vector.  numpy sums pairwise; the model sums left to
      right from zero, which is the same real number (a simplification at
      binary64 only). *)
  Definition nsum (l : list T) : T := fold_left nadd l (nz 0).
End Generic.
