(** * PropsReport: the printed table of the dynamic analysis (C87). *)
From Coq Require Import ZArith Reals Lra List String.
From Verif Require Import Num Py Objects Slope Dynamic RealNum Report ReportFacts.
Import ListNotations.
Local Open Scope R_scope.

(** ** C87: false; the numbers are right, but from 10 on there are fewer decimals *)
Theorem C87_decimals_refuted : exists s : slope R,
  get_dynamic_results s = [(25 / 2, 13 / 10); (100, 13 / 10)] /\
  print_dynamic_results s =
    ["Offset: 12.50 m, FOS: 1.300"; "Offset: 100.0 m, FOS: 1.300"]%string.
Proof.
  exists (set_s_dynamic [(25 / 2, 13 / 10); (100, 13 / 10)] blank_slope). split; [reflexivity|].
  unfold print_dynamic_results, get_dynamic_results. cbn [s_dynamic set_s_dynamic map fst snd].
  now rewrite two_decimals, one_decimal.
Qed.
Print Assumptions C87_decimals_refuted.
(** One line per result in the order of the table; each of the two texts is a
    decimal number, the one nearest to the value among the thousandths. *)
Theorem C87_values_partial : forall s : slope R,
  Forall2 (fun kv line => exists dk dv, (1 <= dk)%nat /\ (1 <= dv)%nat /\ line_says kv dk dv line)
          (get_dynamic_results s) (print_dynamic_results s).
Proof. exact lines_say. Qed.
Print Assumptions C87_values_partial.
Theorem C87_three_partial : forall s : slope R,
  (forall k v, In (k, v) (get_dynamic_results s) -> small k /\ small v) ->
  Forall2 (fun kv line => line_says kv 3 3 line) (get_dynamic_results s) (print_dynamic_results s).
Proof. exact three_decimals. Qed.
Print Assumptions C87_three_partial.
Example C87_example : exists s : slope R,
  get_dynamic_results s = [(0, 1987 / 1000)] /\ small 0 /\ small (1987 / 1000) /\
  print_dynamic_results s = ["Offset: 0.000 m, FOS: 1.987"]%string.
Proof.
  exists (set_s_dynamic [(0, 1987 / 1000)] blank_slope). split; [reflexivity|].
  split; [unfold small; lra|]. split; [unfold small; lra|].
  unfold print_dynamic_results, get_dynamic_results. cbn [s_dynamic set_s_dynamic map fst snd].
  now rewrite zero_line.
Qed.
