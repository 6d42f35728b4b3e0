(** * Report: the text printed for the results of a dynamic analysis. *)
From Coq Require Import ZArith NArith Reals List Ascii String Decimal DecimalString.
From Verif Require Import Num Py Objects Slope Dynamic RealNum.
Import ListNotations.
Local Open Scope string_scope.

Definition digit (n : N) : string := String (ascii_of_N (48 + n)) "".
(** [str] of a number of thousandths: shortest text, at least one decimal.
    Simplified: Python changes to an exponent from 1e16 on; "-0.0", "inf" and
    "nan" are left out. *)
Definition decimals (r : N) : string :=
  let a := digit (r / 100) in
  let b := digit (r / 10 mod 10) in
  let c := digit (r mod 10) in
  if (r mod 100 =? 0)%N then a else if (r mod 10 =? 0)%N then a ++ b else a ++ b ++ c.
Definition whole (n : N) : string := NilZero.string_of_uint (N.to_uint n).
Definition text_of_thousandths (z : Z) : string :=
  let n := Z.abs_N z in
  (if (z <? 0)%Z then "-" else "") ++ whole (n / 1000) ++ "." ++ decimals (n mod 1000).
(** "0" * k; negative counts give nothing, as does truncated subtraction *)
Fixpoint zeros (k : nat) : string := match k with O => "" | S k => String "0" (zeros k) end.
(** pyslope.py:2022, 2025 *)
Definition padded (s : string) : string := s ++ zeros (5 - String.length s).

(** pyslope.py:2019-2027 [print_dynamic_results]: the lines, over exact numbers;
    [Rnear (x * 1000)] are the thousandths of [round(x, 3)] *)
Definition result_line (k v : R) : string :=
  "Offset: " ++ padded (text_of_thousandths (Rnear (k * 10 ^ 3))) ++ " m, FOS: " ++
  padded (text_of_thousandths (Rnear (v * 10 ^ 3))).
Definition print_dynamic_results (s : slope R) : list string :=
  map (fun kv => result_line (fst kv) (snd kv)) (get_dynamic_results s).
