(** * RealNum: the model at exact real numbers. *)
From Coq Require Import ZArith Reals Lra Lia List Bool.
From Verif Require Import Num.

Definition Rltb (x y : R) : bool := if Rlt_dec x y then true else false.
Definition Rleb (x y : R) : bool := if Rle_dec x y then true else false.
Definition Reqb (x y : R) : bool := if Req_EM_T x y then true else false.

(** [math.tan]; the cosine of a binary64 number is never zero, and the tangent
    of the binary64 number nearest to a right angle is 16331239353195370; the
    model takes that value at an exact right angle (Slope(angle=90)). *)
Definition Rtan_py (x : R) : R :=
  if Req_EM_T (cos x) 0 then 16331239353195370%R else (sin x / cos x)%R.

(** [int(x)] *)
Definition Rtrunc (x : R) : Z :=
  if Rle_dec 0 x then Int_part x else Z.opp (Int_part (- x)).

(** nearest integer, ties to even *)
Definition Rnear (y : R) : Z :=
  let f := Int_part y in
  let d := (y - IZR f)%R in
  if Rlt_dec d (/ 2) then f
  else if Rlt_dec (/ 2) d then (f + 1)%Z
  else if Z.even f then f else (f + 1)%Z.

Definition Rround (k : nat) (x : R) : R :=
  (IZR (Rnear (x * 10 ^ k)) / 10 ^ k)%R.

Global Instance RNum : Num R := {
  nlit n d := (IZR n / IZR (Zpos d))%R;
  nadd := Rplus;
  nsub := Rminus;
  nmul := Rmult;
  ndiv := Rdiv;
  nabs := Rabs;
  nsqrt := sqrt;
  natan := atan;
  ncos := cos;
  nsin := sin;
  ntan := Rtan_py;
  npi := PI;
  nltb := Rltb;
  nleb := Rleb;
  neqb := Reqb;
  ntrunc := Rtrunc;
  nround := Rround;
}.
