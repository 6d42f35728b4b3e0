(** * ReportFacts: what the printed table of the dynamic analysis says (C87). *)
From Coq Require Import ZArith NArith Reals Lra Lia List Ascii String Decimal DecimalString
     DecimalFacts DecimalN DecimalPos.
From Verif Require Import Num Py Objects Slope Dynamic RealNum Report PlotFacts.
Import ListNotations.
Local Open Scope string_scope.

(** [t] is a decimal text for [z] thousandths with [d] decimals: an optional sign,
    digits, a point, [d] digits *)
Definition says (t : string) (z : Z) (d : nat) : Prop :=
  exists a b ua ub, t = (if (z <? 0)%Z then "-" else "") ++ a ++ "." ++ b /\
    NilZero.uint_of_string a = Some ua /\ NilEmpty.uint_of_string b = Some ub /\
    String.length b = d /\
    ((N.of_uint ua * 10 ^ N.of_nat d + N.of_uint ub) * 1000 = Z.abs_N z * 10 ^ N.of_nat d)%N.

Lemma app_length s t : String.length (s ++ t) = (String.length s + String.length t)%nat.
Proof. induction s; cbn; auto. Qed.
Lemma app_assoc_s a b c : (a ++ b) ++ c = a ++ b ++ c.
Proof. induction a; cbn; congruence. Qed.

(** all fractions, with up to two zeros behind *)
Definition frac_ok (k : nat) (r : N) : bool :=
  let b := decimals r ++ zeros k in
  match NilEmpty.uint_of_string b with
  | Some u => (N.of_uint u * 1000 =? r * 10 ^ N.of_nat (String.length b))%N
  | None => false
  end.
Definition below (n : nat) : list N := map N.of_nat (seq 0 n).
Lemma in_below n r : (r < N.of_nat n)%N -> In r (below n).
Proof.
  intros L. apply in_map_iff. exists (N.to_nat r). split; [apply N2Nat.id|]. apply in_seq. lia.
Qed.
Lemma fractions : forallb (fun r => frac_ok 0 r && frac_ok 1 r && frac_ok 2 r)%bool (below 1000) = true.
Proof. vm_compute. reflexivity. Qed.
Lemma fraction r k : (r < 1000)%N -> (k <= 2)%nat -> exists u,
  NilEmpty.uint_of_string (decimals r ++ zeros k) = Some u /\
  (N.of_uint u * 1000 = r * 10 ^ N.of_nat (String.length (decimals r ++ zeros k)))%N.
Proof.
  intros L K. pose proof (proj1 (forallb_forall _ _) fractions r (in_below 1000 r L)) as F.
  cbv beta in F. rewrite !Bool.andb_true_iff in F. destruct F as ((F0 & F1) & F2).
  assert (F : frac_ok k r = true) by (destruct k as [|[|[|k]]]; auto; lia).
  unfold frac_ok in F. destruct (NilEmpty.uint_of_string _) as [u|]; [|discriminate].
  exists u. split; auto. now apply N.eqb_eq.
Qed.
Lemma decimals_length r : (1 <= String.length (decimals r) <= 3)%nat.
Proof. unfold decimals. destruct (_ =? 0)%N; [cbn; lia|]. destruct (_ =? 0)%N; cbn; lia. Qed.

Lemma string_of_uint_length u : String.length (NilEmpty.string_of_uint u) = nb_digits u.
Proof. induction u; cbn; auto. Qed.
Lemma to_uint_nonnil n : N.to_uint n <> Nil.
Proof.
  destruct n as [|p]; cbn; [discriminate|]. intros E.
  pose proof (DecimalPos.Unsigned.to_uint_nonnil p). auto.
Qed.
Lemma whole_read n : NilZero.uint_of_string (whole n) = Some (N.to_uint n).
Proof. unfold whole. apply NilZero.usu. apply to_uint_nonnil. Qed.
Lemma whole_length n : (1 <= String.length (whole n))%nat.
Proof.
  unfold whole, NilZero.string_of_uint. pose proof (to_uint_nonnil n) as NN.
  destruct (N.to_uint n); [congruence| ..]; cbn; lia.
Qed.
Lemma whole_one n : (n < 10)%N -> String.length (whole n) = 1%nat.
Proof.
  intros L.
  assert (F : forallb (fun n => Nat.eqb (String.length (whole n)) 1) (below 10) = true) by reflexivity.
  apply Nat.eqb_eq. exact (proj1 (forallb_forall _ _) F n (in_below 10 n L)).
Qed.

Lemma zeros_app a b : zeros (a + b) = zeros a ++ zeros b.
Proof. induction a; cbn; congruence. Qed.
Lemma zeros_length k : String.length (zeros k) = k.
Proof. induction k; cbn; auto. Qed.

(** the text is right whatever it is padded to *)
Lemma padded_says z : exists d, (1 <= d)%nat /\ says (padded (text_of_thousandths z)) z d.
Proof.
  unfold padded, text_of_thousandths. cbv zeta. set (n := Z.abs_N z).
  set (sign := if (z <? 0)%Z then "-" else ""). set (r := (n mod 1000)%N).
  set (k := (5 - _)%nat).
  assert (K : (k <= 2)%nat).
  { subst k. rewrite !app_length. pose proof (whole_length (n / 1000)). pose proof (decimals_length r).
    cbn [String.length]. lia. }
  assert (L : (r < 1000)%N) by (apply N.mod_lt; lia).
  destruct (fraction r k L K) as (u & E1 & E2).
  exists (String.length (decimals r ++ zeros k)). split.
  { rewrite app_length. pose proof (decimals_length r). lia. }
  exists (whole (n / 1000)), (decimals r ++ zeros k), (N.to_uint (n / 1000)), u.
  split; [now rewrite !app_assoc_s|]. split; [apply whole_read|]. split; auto. split; auto.
  rewrite DecimalN.Unsigned.of_to. fold n.
  set (q := (10 ^ N.of_nat _)%N) in *. pose proof (N.div_mod n 1000 ltac:(lia)) as D. fold r in D.
  rewrite N.mul_add_distr_r, E2. rewrite D at 2. ring.
Qed.
(** up to 9.999 there are three decimals *)
Lemma padded_three z : (0 <= z < 10000)%Z ->
  says (padded (text_of_thousandths z)) z 3 /\ String.length (padded (text_of_thousandths z)) = 5%nat.
Proof.
  intros Z. unfold padded, text_of_thousandths. cbv zeta. set (n := Z.abs_N z).
  assert (S : (z <? 0)%Z = false) by (apply Z.ltb_ge; lia). rewrite S. cbn [append].
  set (r := (n mod 1000)%N).
  assert (W : String.length (whole (n / 1000)) = 1%nat).
  { apply whole_one. apply N.div_lt_upper_bound; lia. }
  set (k := (5 - _)%nat).
  assert (K : (k + String.length (decimals r) = 3)%nat).
  { subst k. rewrite !app_length. cbn [String.length]. rewrite W. pose proof (decimals_length r). lia. }
  assert (D3 : String.length (decimals r ++ zeros k) = 3%nat) by (rewrite app_length, zeros_length; lia).
  split.
  - destruct (fraction r k) as (u & E1 & E2); [apply N.mod_lt; lia | pose proof (decimals_length r); lia |].
    exists (whole (n / 1000)), (decimals r ++ zeros k), (N.to_uint (n / 1000)), u.
    rewrite S. split; [now rewrite !app_assoc_s|]. split; [apply whole_read|]. split; auto.
    split; auto. rewrite DecimalN.Unsigned.of_to. fold n. rewrite D3 in E2.
    set (q := (10 ^ N.of_nat _)%N) in *. pose proof (N.div_mod n 1000 ltac:(lia)) as D. fold r in D.
    rewrite N.mul_add_distr_r, E2. rewrite D at 2. ring.
  - rewrite app_length, zeros_length, !app_length, W. cbn [String.length].
    rewrite app_length, zeros_length in D3. lia.
Qed.

(** ** C87 *)
Section Lines.
  Local Open Scope R_scope.
  (** [z] thousandths are nearest to [x] *)
  Definition nearest_thousandths (z : Z) (x : R) : Prop := Rabs (IZR z - 1000 * x) <= / 2.
  Definition line_says (kv : R * R) (dk dv : nat) (line : string) : Prop :=
    exists tk tv zk zv, line = ("Offset: " ++ tk ++ " m, FOS: " ++ tv)%string /\
      nearest_thousandths zk (fst kv) /\ says tk zk dk /\
      nearest_thousandths zv (snd kv) /\ says tv zv dv.
  Lemma near_thousandths x : nearest_thousandths (Rnear (x * 10 ^ 3)) x.
  Proof.
    unfold nearest_thousandths. replace (1000 * x) with (x * 10 ^ 3) by ring. apply near_half.
  Qed.
  Lemma lines_say (s : slope R) : Forall2 (fun kv line => exists dk dv, (1 <= dk)%nat /\ (1 <= dv)%nat /\
      line_says kv dk dv line) (get_dynamic_results s) (print_dynamic_results s).
  Proof.
    unfold print_dynamic_results. induction (get_dynamic_results s) as [|[k v] l IH]; constructor; auto.
    destruct (padded_says (Rnear (k * 10 ^ 3))) as (dk & Lk & Sk).
    destruct (padded_says (Rnear (v * 10 ^ 3))) as (dv & Lv & Sv).
    exists dk, dv. split; auto. split; auto. do 4 eexists. split; [reflexivity|].
    split; [apply near_thousandths|]. split; [exact Sk|]. split; [apply near_thousandths|exact Sv].
  Qed.
  Definition small (x : R) : Prop := 0 <= x <= 9999 / 1000.
  Lemma small_range x : small x -> (0 <= Rnear (x * 10 ^ 3) < 10000)%Z.
  Proof.
    intros (A & B). rewrite <- (near_int 0) at 1. split; [apply near_mono; cbn; lra|].
    enough (Rnear (x * 10 ^ 3) <= Rnear (IZR 9999))%Z as Q by (rewrite near_int in Q; lia).
    apply near_mono. lra.
  Qed.
  Lemma three_decimals (s : slope R) :
    (forall k v, In (k, v) (get_dynamic_results s) -> small k /\ small v) ->
    Forall2 (fun kv line => line_says kv 3 3 line) (get_dynamic_results s) (print_dynamic_results s).
  Proof.
    unfold print_dynamic_results. induction (get_dynamic_results s) as [|[k v] l IH]; intros Q; constructor.
    2:{ apply IH. intros. apply Q. now right. }
    destruct (Q k v (or_introl eq_refl)) as (Sk & Sv).
    destruct (padded_three _ (small_range k Sk)) as (Pk & _).
    destruct (padded_three _ (small_range v Sv)) as (Pv & _).
    do 4 eexists. split; [reflexivity|].
    split; [apply near_thousandths|]. split; [exact Pk|]. split; [apply near_thousandths|exact Pv].
  Qed.
  Lemma two_decimals k v : k = 25 / 2 -> v = 13 / 10 ->
    result_line k v = "Offset: 12.50 m, FOS: 1.300"%string.
  Proof.
    intros -> ->. unfold result_line.
    replace (25 / 2 * 10 ^ 3) with (IZR 12500) by lra. replace (13 / 10 * 10 ^ 3) with (IZR 1300) by lra.
    rewrite !near_int. vm_compute. reflexivity.
  Qed.
  Lemma one_decimal k v : k = 100 -> v = 13 / 10 ->
    result_line k v = "Offset: 100.0 m, FOS: 1.300"%string.
  Proof.
    intros -> ->. unfold result_line.
    replace (100 * 10 ^ 3) with (IZR 100000) by lra. replace (13 / 10 * 10 ^ 3) with (IZR 1300) by lra.
    rewrite !near_int. vm_compute. reflexivity.
  Qed.
  Lemma zero_line k v : k = 0 -> v = 1987 / 1000 ->
    result_line k v = "Offset: 0.000 m, FOS: 1.987"%string.
  Proof.
    intros -> ->. unfold result_line.
    replace (0 * 10 ^ 3) with (IZR 0) by lra. replace (1987 / 1000 * 10 ^ 3) with (IZR 1987) by lra.
    rewrite !near_int. vm_compute. reflexivity.
  Qed.
End Lines.
