(** * TextFacts: the number of decimals shown for a load (utilities.py:148-159). *)
From Coq Require Import Arith Lia List Bool String Ascii.
From Verif Require Import Utilities.
Import ListNotations.
Local Open Scope string_scope.

(** [s] has three zeros from position [i] on *)
Definition zeros_at (s : string) (i : nat) : Prop :=
  String.get i s = Some "0"%char /\ String.get (i + 1) s = Some "0"%char /\
  String.get (i + 2) s = Some "0"%char.
Lemma zero_char c : is_zero_char c = true <-> c = Some "0"%char.
Proof.
  unfold is_zero_char. destruct c as [c|]; [|split; discriminate].
  rewrite Ascii.eqb_eq. split; [now intros -> | now intros [= ->]].
Qed.
Lemma zeros_at_bool s i :
  is_zero_char (String.get i s) && is_zero_char (String.get (i + 1) s)
  && is_zero_char (String.get (i + 2) s) = true <-> zeros_at s i.
Proof. unfold zeros_at. rewrite !andb_true_iff, !zero_char. tauto. Qed.

Lemma loop_spec s k : forall i,
  match precision_loop s i k with
  | Some p => (i <= p < i + k)%nat /\ zeros_at s p /\ forall j, (i <= j < p)%nat -> ~ zeros_at s j
  | None => forall j, (i <= j < i + k)%nat -> ~ zeros_at s j
  end.
Proof.
  induction k as [|k IH]; intros i; cbn [precision_loop]; [intros j; lia|].
  destruct (_ && _ && _) eqn:E.
  - apply zeros_at_bool in E. split; [lia|]. split; [exact E|]. intros j; lia.
  - assert (N : ~ zeros_at s i) by (intros Z; apply zeros_at_bool in Z; congruence).
    specialize (IH (i + 1)%nat). destruct (precision_loop s (i + 1) k) as [p|].
    + destruct IH as (A & B & C). split; [lia|]. split; [exact B|].
      intros j J. destruct (Nat.eq_dec j i) as [->|]; [exact N | apply C; lia].
    + intros j J. destruct (Nat.eq_dec j i) as [->|]; [exact N | apply IH; lia].
Qed.

Lemma split_plain s : has_dot s = false -> split_dot s = [s].
Proof.
  induction s as [|c s IH]; [reflexivity|]. cbn [has_dot split_dot].
  destruct (Ascii.eqb c dot); [discriminate|]. cbn [orb]. intros E. now rewrite IH.
Qed.
Lemma split_two a d : has_dot a = false -> has_dot d = false ->
  split_dot (a ++ String dot d) = [a; d].
Proof.
  intros A D. induction a as [|c a IH]; cbn [append has_dot split_dot] in *.
  - now rewrite split_plain.
  - destruct (Ascii.eqb c dot); [discriminate|]. now rewrite IH.
Qed.
Lemma dot_inside a d : has_dot (a ++ String dot d) = true.
Proof. induction a as [|c a IH]; cbn [append has_dot]; [reflexivity | rewrite IH; apply orb_true_r]. Qed.

(** A text with one point keeps all its decimals unless three zeros follow one
    another before the last of them; then it is cut off there. *)
Lemma precision_spec a d : has_dot a = false -> has_dot d = false ->
  let p := get_precision (a ++ String dot d) in
  ((p < String.length d - 3)%nat /\ zeros_at d p /\ forall j, (j < p)%nat -> ~ zeros_at d j) \/
  (p = String.length d /\ forall j, (j < String.length d - 3)%nat -> ~ zeros_at d j).
Proof.
  intros A D p. unfold p, get_precision. rewrite dot_inside, split_two by assumption. cbn [negb nth].
  pose proof (loop_spec d (String.length d - 3) 0) as L.
  destruct (precision_loop d 0 _) as [q|].
  - left. destruct L as (L1 & L2 & L3). split; [lia|]. split; [exact L2|]. intros j J. apply L3. lia.
  - right. split; [reflexivity|]. intros j J. apply L. lia.
Qed.
Lemma precision_whole s : has_dot s = false -> get_precision s = 0%nat.
Proof. intros E. unfold get_precision. now rewrite E. Qed.
(** every decimal that is not shown is a zero *)
Definition nothing_lost (d : string) (p : nat) : Prop :=
  forall i, (p <= i < String.length d)%nat -> String.get i d = Some "0"%char.
Lemma precision_keeps a d : has_dot a = false -> has_dot d = false ->
  (forall j, (j < String.length d - 3)%nat -> ~ zeros_at d j) ->
  nothing_lost d (get_precision (a ++ String dot d)).
Proof.
  intros A D N i I. destruct (precision_spec a d A D) as [(L & Z & _) | (E & _)].
  - elim (N _ L Z).
  - rewrite E in I. lia.
Qed.
