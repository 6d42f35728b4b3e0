(** * ListFacts: lists, in-place updates, sorting. *)
From Coq Require Import ZArith Reals Lra Lia List Bool Permutation Sorted.
From Verif Require Import Num Py Objects Slope RealNum RealFacts.
Import ListNotations.

(** ** In-place updates *)
Lemma upd_nth_length {A} n (f : A -> A) l : length (upd_nth n f l) = length l.
Proof. revert n; induction l as [|a l IH]; intros [|n]; cbn; auto. Qed.

Lemma nth_error_upd_nth {A} n m (f : A -> A) l :
  nth_error (upd_nth n f l) m =
  if Nat.eqb n m then option_map f (nth_error l m) else nth_error l m.
Proof.
  revert n m; induction l as [|a l IH]; intros [|n] [|m]; cbn; auto.
  - now destruct (Nat.eqb n m).
Qed.

(** update of several locations, one after the other *)
Definition upd_all {A} (f : A -> A) (locs : list nat) (l : list A) : list A :=
  fold_left (fun l n => upd_nth n f l) locs l.

Lemma upd_all_length {A} (f : A -> A) locs l : length (upd_all f locs l) = length l.
Proof.
  unfold upd_all; revert l; induction locs as [|n locs IH]; intros l; cbn; auto.
  now rewrite IH, upd_nth_length.
Qed.

Definition mem_nat (n : nat) (l : list nat) : bool := existsb (Nat.eqb n) l.
Lemma mem_nat_In n l : mem_nat n l = true <-> In n l.
Proof.
  unfold mem_nat. rewrite existsb_exists. split.
  - intros (x & H & E). apply Nat.eqb_eq in E. now subst.
  - intros H. exists n. split; auto. apply Nat.eqb_refl.
Qed.
Lemma mem_nat_not_In n l : mem_nat n l = false <-> ~ In n l.
Proof.
  split; intros H.
  - intros I. apply mem_nat_In in I. congruence.
  - destruct (mem_nat n l) eqn:E; auto. apply mem_nat_In in E. contradiction.
Qed.

Lemma nth_error_upd_all {A} (f : A -> A) locs l n :
  (forall a, f (f a) = f a) ->
  nth_error (upd_all f locs l) n =
  if mem_nat n locs then option_map f (nth_error l n) else nth_error l n.
Proof.
  intros Hf. unfold upd_all. revert l.
  induction locs as [|m locs IH]; intros l; cbn [fold_left]; [reflexivity|].
  rewrite IH, nth_error_upd_nth. unfold mem_nat; cbn [existsb].
  fold (mem_nat n locs). rewrite (Nat.eqb_sym n m).
  destruct (Nat.eqb m n), (mem_nat n locs); cbn; auto.
  destruct (nth_error l n); cbn; auto. now rewrite Hf.
Qed.

Lemma Forall_upd_nth {A} (P : A -> Prop) n f l :
  (forall a, P a -> P (f a)) -> Forall P l -> Forall P (upd_nth n f l).
Proof.
  intros Hf H; revert n; induction H as [|a l Ha H IH]; intros [|n]; cbn; constructor; auto.
Qed.
Lemma Forall_upd_all {A} (P : A -> Prop) f locs l :
  (forall a, P a -> P (f a)) -> Forall P l -> Forall P (upd_all f locs l).
Proof.
  intros Hf. unfold upd_all. revert l.
  induction locs as [|n locs IH]; intros l H; cbn; auto.
  apply IH. now apply Forall_upd_nth.
Qed.

(** ** Dereferencing *)
Lemma derefs_app {A} (h : list A) a b : derefs h (a ++ b) = derefs h a ++ derefs h b.
Proof. unfold derefs. now rewrite flat_map_app. Qed.
Lemma derefs_cons {A} (h : list A) n l x :
  nth_error h n = Some x -> derefs h (n :: l) = x :: derefs h l.
Proof. intros H. unfold derefs; cbn. now rewrite H. Qed.
Lemma in_derefs {A} (h : list A) locs x :
  In x (derefs h locs) <-> exists n, In n locs /\ nth_error h n = Some x.
Proof.
  unfold derefs. rewrite in_flat_map. split.
  - intros (n & Hn & Hx). exists n. split; auto.
    destruct (nth_error h n); cbn in Hx; [|easy]. destruct Hx as [->|[]]. auto.
  - intros (n & Hn & Hx). exists n. split; auto. rewrite Hx. now left.
Qed.
Lemma derefs_ext {A} (h h' : list A) locs :
  (forall n, In n locs -> nth_error h n = nth_error h' n) -> derefs h locs = derefs h' locs.
Proof.
  intros H. unfold derefs. induction locs as [|n l IH]; cbn; auto.
  rewrite H by (now left). rewrite IH; auto. intros; apply H; now right.
Qed.
Lemma derefs_upd_all {A} (h : list A) f locs :
  (forall a, f (f a) = f a) -> derefs (upd_all f locs h) locs = map f (derefs h locs).
Proof.
  intros Hf.
  assert (G : forall l, incl l locs ->
            derefs (upd_all f locs h) l = map f (derefs h l)).
  { induction l as [|n l IH]; intros I; cbn; auto.
    rewrite nth_error_upd_all by auto.
    assert (E : mem_nat n locs = true) by (apply mem_nat_In, I; now left).
    rewrite E.
    assert (IH' : derefs (upd_all f locs h) l = map f (derefs h l))
      by (apply IH; intros x Hx; apply I; now right).
    unfold derefs in *. rewrite IH', map_app.
    destruct (nth_error h n); cbn; auto. }
  apply G. intros x; auto.
Qed.
Lemma nth_error_lt_Some {A} (l : list A) n : n < length l -> exists x, nth_error l n = Some x.
Proof.
  intros H. destruct (nth_error l n) eqn:E; eauto.
  apply nth_error_None in E. lia.
Qed.
Lemma derefs_length {A} (h : list A) locs :
  Forall (fun n => n < length h) locs -> length (derefs h locs) = length locs.
Proof.
  induction 1 as [|n l Hn H IH]; cbn; auto.
  destruct (nth_error_lt_Some h n Hn) as [x E]. rewrite E. cbn. auto.
Qed.

(** ** Sorting *)
Section Sorting.
  Context {A : Type} (lt : A -> A -> bool).
  Lemma insert_perm x l : Permutation (x :: l) (insert lt x l).
  Proof.
    induction l as [|y l IH]; cbn; auto.
    destruct (lt y x); auto.
    rewrite perm_swap. now apply perm_skip.
  Qed.
  Lemma sort_perm l : Permutation l (sort lt l).
  Proof.
    induction l as [|x l IH]; cbn; auto.
    rewrite <- insert_perm. now apply perm_skip.
  Qed.
  Lemma sort_In x l : In x (sort lt l) <-> In x l.
  Proof.
    split; apply Permutation_in; [symmetry|]; apply sort_perm.
  Qed.
  Lemma sort_length l : length (sort lt l) = length l.
  Proof. symmetry. apply Permutation_length, sort_perm. Qed.

  (** total preorder given by [lt] *)
  Hypothesis lt_total : forall x y, lt x y = false -> lt y x = false \/ lt y x = true.
  Hypothesis lt_asym : forall x y, lt x y = true -> lt y x = false.
  Hypothesis lt_trans' : forall x y z, lt y x = false -> lt z y = false -> lt z x = false.
  Definition le_of (x y : A) : Prop := lt y x = false.

  Lemma insert_sorted x l : StronglySorted le_of l -> StronglySorted le_of (insert lt x l).
  Proof.
    induction 1 as [|y l H IH Hy]; cbn.
    - constructor; constructor.
    - destruct (lt y x) eqn:E.
      + constructor; auto.
        rewrite Forall_forall in *. intros z Hz.
        apply (Permutation_in _ (Permutation_sym (insert_perm x l))) in Hz.
        destruct Hz as [<-|Hz]; auto. red. auto.
      + constructor; [constructor; auto|].
        constructor; [exact E|].
        rewrite Forall_forall in *. intros z Hz.
        apply (lt_trans' x y z); [exact E | apply (Hy z Hz)].
  Qed.
  Lemma sort_sorted l : StronglySorted le_of (sort lt l).
  Proof. induction l as [|x l IH]; cbn; [constructor | now apply insert_sorted]. Qed.

  Lemma insert_id x l : Forall (le_of x) l -> insert lt x l = x :: l.
  Proof. intros H. destruct l as [|y l]; cbn; auto. inversion H; subst. unfold le_of in *. now rewrite H2. Qed.
  Lemma sort_id l : StronglySorted le_of l -> sort lt l = l.
  Proof.
    induction 1 as [|x l H IH Hx]; cbn; auto. rewrite IH. now apply insert_id.
  Qed.
End Sorting.

(** sorting by a real key *)
Definition key_le {A} (key : A -> R) (x y : A) : Prop := (key x <= key y)%R.
Lemma sort_by_sorted {A} (key : A -> R) l : StronglySorted (key_le key) (sort_by key l).
Proof.
  unfold sort_by.
  assert (H : StronglySorted (le_of (fun a b => nltb (key a) (key b)))
                (sort (fun a b => nltb (key a) (key b)) l)).
  { apply sort_sorted; cbn [nltb RNum]; intros.
    - apply Rltb_true in H. apply Rltb_false. lra.
    - apply Rltb_false in H, H0. apply Rltb_false. lra. }
  induction H as [|x l' H IH Hx]; constructor; auto.
  eapply Forall_impl; [|exact Hx]. intros y Hy. unfold le_of in Hy. cbn in Hy.
  apply Rltb_false in Hy. exact Hy.
Qed.
Lemma sort_by_id {A} (key : A -> R) l :
  StronglySorted (key_le key) l -> sort_by key l = l.
Proof.
  intros H. apply sort_id.
  induction H as [|x l' H IH Hx]; constructor; auto.
  eapply Forall_impl; [|exact Hx]. intros y Hy. unfold le_of; cbn.
  apply Rltb_false. exact Hy.
Qed.
Lemma sort_by_perm {T} {NT : Num T} {A} (key : A -> T) l : Permutation l (sort_by key l).
Proof. apply sort_perm. Qed.

(** Two lists sorted by a key that is injective on them, permutations of each
    other, are equal. *)
Lemma sorted_unique {A} (key : A -> R) l1 l2 :
  Permutation l1 l2 ->
  (forall x y, In x l1 -> In y l1 -> key x = key y -> x = y) ->
  StronglySorted (key_le key) l1 -> StronglySorted (key_le key) l2 -> l1 = l2.
Proof.
  revert l2; induction l1 as [|x l1 IH]; intros l2 P Hinj S1 S2.
  - apply Permutation_nil in P. now subst.
  - destruct l2 as [|y l2]; [apply Permutation_sym, Permutation_nil in P; discriminate|].
    inversion S1 as [|? ? S1' F1]; inversion S2 as [|? ? S2' F2]; subst.
    assert (x = y).
    { assert (Hy : In y (x :: l1)) by (eapply Permutation_in; [symmetry; exact P | now left]).
      assert (Hx : In x (y :: l2)) by (eapply Permutation_in; [exact P | now left]).
      destruct Hy as [->|Hy]; auto. destruct Hx as [->|Hx]; auto.
      rewrite Forall_forall in *. apply Hinj; [now left | now right|].
      specialize (F1 _ Hy). specialize (F2 _ Hx). unfold key_le in *. lra. }
    subst y. f_equal. apply IH; auto.
    + now apply Permutation_cons_inv in P.
    + intros; apply Hinj; auto; now right.
Qed.

(** ** Results *)
Lemma rmapM_ok {A B} (f : A -> res B) l ys :
  rmapM f l = Ok ys -> Forall2 (fun x y => f x = Ok y) l ys.
Proof.
  revert ys; induction l as [|x l IH]; intros ys; cbn.
  - injection 1 as <-. constructor.
  - destruct (f x) eqn:E; cbn; [|discriminate].
    destruct (rmapM f l) eqn:E2; cbn; [|discriminate].
    injection 1 as <-. constructor; auto.
Qed.
Lemma rmapM_total {A B} (f : A -> res B) l :
  (forall x, In x l -> exists y, f x = Ok y) -> exists ys, rmapM f l = Ok ys.
Proof.
  induction l as [|x l IH]; intros H; cbn; eauto.
  destruct (H x) as [y ->]; [now left|]. cbn.
  destruct IH as [ys ->]; [intros; apply H; now right|]. cbn. eauto.
Qed.
Lemma rmapM_map {A B} (f : A -> res B) (g : A -> B) l :
  (forall x, In x l -> f x = Ok (g x)) -> rmapM f l = Ok (map g l).
Proof.
  induction l as [|x l IH]; intros H; cbn; auto.
  rewrite H by (now left). cbn. rewrite IH; auto. intros; apply H; now right.
Qed.
Lemma rmapM_ext {A B} (f g : A -> res B) l :
  (forall x, In x l -> f x = g x) -> rmapM f l = rmapM g l.
Proof.
  induction l as [|x l IH]; intros H; cbn; auto.
  rewrite H by (now left). rewrite IH; auto. intros; apply H; now right.
Qed.
Lemma rmapM_In {A B} (f : A -> res B) l ys y :
  rmapM f l = Ok ys -> In y ys -> exists x, In x l /\ f x = Ok y.
Proof.
  intros H. apply rmapM_ok in H. induction H as [|x z l ys Hx H IH]; [easy|].
  intros [<-|Hy]; [exists x; split; auto; now left|].
  destruct (IH Hy) as (x' & ? & ?). exists x'; split; auto; now right.
Qed.
