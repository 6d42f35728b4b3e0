(** * FloatNum: the model at IEEE-754 binary64.

    Basic arithmetic is the standard library's [SpecFloat] (the specification of
    binary64 with rounding to nearest even, infinities and NaN); nothing here is
    an axiom and everything computes.

    The transcendental functions of the C library are not specified by IEEE-754.
    They are computed below in fixed point (80 to 160 bits) and rounded once.
    [SinNear], [AtanNear] and [TanNear] compare them with the functions of the reals
    (C112): one rounding and 2^-60.  No theorem depends on their last bit. *)
From Coq Require Import ZArith List Bool SpecFloat.
From Verif Require Import Num.
Local Open Scope Z_scope.

Definition prec := 53.
Definition emax := 1024.
Definition float := spec_float.

Definition of_Z_exp (m e : Z) : float := binary_normalize prec emax m e false.
Definition f_of_Z (z : Z) : float := of_Z_exp z 0.
Definition f_lit (n : Z) (d : positive) : float :=
  match d with
  | xH => f_of_Z n
  | _ => SFdiv prec emax (f_of_Z n) (f_of_Z (Zpos d))
  end.

(** ** Fixed point: at precision [K] an integer [z] stands for [z / 2^K]. *)
Definition one (K : Z) : Z := Z.shiftl 1 K.
Definition fmul (K a b : Z) : Z := Z.shiftr (a * b) K.
Definition fdiv (K a b : Z) : Z := if b =? 0 then 0 else (Z.shiftl a K) / b.
Definition fsqrt (K a : Z) : Z := Z.sqrt (Z.shiftl a K).

(** value of a finite float in fixed point (bits below 2^-K are dropped) *)
Definition to_fix (K : Z) (x : float) : Z :=
  match x with
  | S754_finite s m e => Z.shiftl (if s then Zneg m else Zpos m) (K + e)
  | _ => 0
  end.
Definition of_fix (K z : Z) : float := of_Z_exp z (- K).

(** arctangent of a small argument by its power series; at most [k] terms, up to the
    first one that is 0 *)
Fixpoint atan_series (K : Z) (k : nat) (x2 term : Z) (n : Z) (acc : Z) : Z :=
  match k with
  | O => acc
  | S k' => if term =? 0 then acc
            else atan_series K k' x2 (- fmul K term x2) (n + 2) (acc + term / n)
  end.
(** the tangent of half the angle with the tangent y / x is y / (x + sqrt(x^2 + y^2)) *)
Definition half_x (K y2 x : Z) : Z := x + fsqrt K (fmul K x x + y2).
Definition atan_fix (K t : Z) : Z :=
  let y2 := fmul K t t in
  let t3 := fdiv K t (half_x K y2 (half_x K y2 (half_x K y2 (one K)))) in
  8 * atan_series K 60 (fmul K t3 t3) t3 1 0.
(** pi at precision 160 *)
Definition pi_160 : Z := Eval vm_compute in Z.shiftr (4 * atan_fix 180 (one 180)) 20.
Definition pi_fix (K : Z) : Z := Z.shiftr pi_160 (160 - K).

Fixpoint sin_series (K : Z) (k : nat) (x2 term n acc : Z) : Z :=
  match k with
  | O => acc
  | S k' => if term =? 0 then acc
            else sin_series K k' x2 (- fmul K term x2 / ((n + 1) * (n + 2))) (n + 2)
                            (acc + term)
  end.
(** reduction modulo 2 pi, then series *)
Definition reduce (K x : Z) : Z :=
  let p := pi_fix K in
  let r := Z.modulo x (2 * p) in
  if p <? r then r - 2 * p else r.
Definition sin_fix (K x : Z) : Z :=
  let r := reduce K x in sin_series K 60 (fmul K r r) r 1 0.
Definition cos_fix (K x : Z) : Z :=
  let r := reduce K x in sin_series K 60 (fmul K r r) (one K) 0 0.
(** precision 80 is enough unless the result is small; then precision 160 *)
Definition small (z : Z) : bool := Z.abs z <? one 66.
Definition twice (f : Z -> Z -> Z) (x : float) : float :=
  let z := f 80 (to_fix 80 x) in
  if small z then of_fix 160 (f 160 (to_fix 160 x)) else of_fix 80 z.

Definition f_is_finite (x : float) : bool :=
  match x with S754_finite _ _ _ | S754_zero _ => true | _ => false end.

Definition f_pi : float := Eval vm_compute in of_fix 160 pi_160.
Definition f_atan (x : float) : float :=
  match x with
  | S754_zero s => S754_zero s
  | S754_nan => S754_nan
  | S754_infinity s => SFdiv prec emax (if s then SFopp f_pi else f_pi) (f_of_Z 2)
  | S754_finite _ _ _ => twice atan_fix x
  end.
Definition f_cos (x : float) : float :=
  if f_is_finite x then twice cos_fix x else S754_nan.
Definition f_sin (x : float) : float :=
  match x with
  | S754_zero s => S754_zero s
  | S754_finite _ _ _ => twice sin_fix x
  | _ => S754_nan
  end.
Definition f_tan (x : float) : float :=
  match x with
  | S754_zero s => S754_zero s
  | S754_finite _ _ _ =>
      let s := sin_fix 80 (to_fix 80 x) in
      let c := cos_fix 80 (to_fix 80 x) in
      if small s || small c
      then of_fix 160 (fdiv 160 (sin_fix 160 (to_fix 160 x)) (cos_fix 160 (to_fix 160 x)))
      else of_fix 80 (fdiv 80 s c)
  | _ => S754_nan
  end.

(** [int(x)] on a finite float *)
Definition f_trunc (x : float) : Z :=
  match x with
  | S754_finite s m e =>
      let a := if 0 <=? e then Z.shiftl (Zpos m) e else Z.shiftr (Zpos m) (- e) in
      if s then - a else a
  | _ => 0
  end.

(** [round(x, k)]: the exact value is rounded half to even at [k] decimals, and
    the decimal result is then converted to binary64. *)
Definition f_round (k : nat) (x : float) : float :=
  match x with
  | S754_finite s m e =>
      let p := 10 ^ Z.of_nat k in
      let num := if 0 <=? e then Zpos m * 2 ^ e * p else Zpos m * p in
      let den := if 0 <=? e then 1 else 2 ^ (- e) in
      let q := num / den in
      let r := num mod den in
      let n := match (2 * r ?= den) with
               | Lt => q
               | Gt => q + 1
               | Eq => if Z.even q then q else q + 1
               end in
      f_lit (if s then - n else n) (Z.to_pos p)
  | _ => x
  end.

Global Instance FNum : Num float := {
  nlit := f_lit;
  nadd := SFadd prec emax;
  nsub := SFsub prec emax;
  nmul := SFmul prec emax;
  ndiv := SFdiv prec emax;
  nabs := SFabs;
  nsqrt := SFsqrt prec emax;
  natan := f_atan;
  ncos := f_cos;
  nsin := f_sin;
  ntan := f_tan;
  npi := f_pi;
  nltb := SFltb;
  nleb := SFleb;
  neqb := SFeqb;
  ntrunc := f_trunc;
  nround := f_round;
}.

(** decimal rendering for tests: the float times 10^6, truncated *)
Definition micro (x : float) : Z :=
  f_trunc (SFmul prec emax x (f_of_Z 1000000)).
