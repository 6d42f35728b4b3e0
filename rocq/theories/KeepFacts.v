(** * KeepFacts: relations between the state before and after a call.

    [keeps Rel m]: whatever [m] does, raising included, the state after it is
    related to the state before it.  For a reflexive and transitive relation it
    is enough to look at the primitive writes. *)
From Coq Require Import ZArith List Bool String Lia.
From Verif Require Import Num Py Validation Utilities Objects Slope Planes Analysis
     Dynamic Api ListFacts MonadFacts.
Import ListNotations.

Section Keeps.
  Context {S : Type} (Rel : S -> S -> Prop).
  Context (refl : forall s, Rel s s).
  Context (trans : forall a b c, Rel a b -> Rel b c -> Rel a c).
  Definition keeps {A} (m : M S A) : Prop := forall s, Rel s (snd (m s)).

  Lemma keeps_ret {A} (a : A) : keeps (mret a).
  Proof. intros s; apply refl. Qed.
  Lemma keeps_raise {A} e : keeps (@mraise S A e).
  Proof. intros s; apply refl. Qed.
  Lemma keeps_get {A} (f : S -> A) : keeps (mget f).
  Proof. intros s; apply refl. Qed.
  Lemma keeps_lift {A} (r : res A) : keeps (mlift r).
  Proof. intros s; apply refl. Qed.
  Lemma keeps_read {A} (f : S -> res A) : keeps (fun s => (f s, s)).
  Proof. intros s; apply refl. Qed.
  Lemma keeps_upd f : (forall s, Rel s (f s)) -> keeps (mupd f).
  Proof. intros H s; apply H. Qed.
  Lemma keeps_bind {A B} (m : M S A) (k : A -> M S B) :
    keeps m -> (forall a, keeps (k a)) -> keeps (mbind m k).
  Proof.
    intros Hm Hk s. specialize (Hm s). unfold mbind.
    destruct (m s) as [[a|e] s1]; cbn [snd] in *; auto.
    eapply trans; [exact Hm|apply Hk].
  Qed.
  Lemma keeps_when b m : keeps m -> keeps (mwhen b m).
  Proof. intros Hm. destruct b; [exact Hm | apply keeps_ret]. Qed.
  Lemma keeps_forM {A} (l : list A) f : (forall a, In a l -> keeps (f a)) -> keeps (mforM l f).
  Proof.
    induction l as [|a l IH]; cbn [mforM]; intros H; [apply keeps_ret|].
    apply keeps_bind; [apply H; now left|]. intros _. apply IH. intros; apply H; now right.
  Qed.
End Keeps.

(** Decompose a method into its primitive writes. *)
Ltac keep1 :=
  first
  [ apply keeps_bind; [solve [eauto] | | intros ?]
  | apply keeps_ret; solve [eauto] | apply keeps_raise; solve [eauto]
  | apply keeps_get; solve [eauto] | apply keeps_lift; solve [eauto]
  | apply keeps_read; solve [eauto]
  | apply keeps_when; [solve [eauto] | ]
  | apply keeps_forM; [solve [eauto] | solve [eauto] | intros ? ?]
  | match goal with
    | |- keeps _ (if ?b then _ else _) => destruct b
    | |- keeps _ (match ?x with _ => _ end) => destruct x
    end ].
Ltac keep := repeat (cbv zeta; keep1).

(** ** A generic account of what every method may change. *)
Section Methods.
  Context {T : Type} {NT : Num T} {EN : Env}.
  Context (Rel : st T -> st T -> Prop).
  Context (refl : forall s, Rel s s).
  Context (trans : forall a b c, Rel a b -> Rel b c -> Rel a c).
  Notation keeps := (keeps Rel).

  Lemma keeps_self_get {A} (f : slope T -> A) : keeps (self_get f).
  Proof. now apply keeps_get. Qed.
  Lemma keeps_heap_get {A} (f : heap T -> A) : keeps (heap_get f).
  Proof. now apply keeps_get. Qed.
  Lemma keeps_get_udl n : keeps (get_udl n).
  Proof. now apply keeps_read. Qed.
  Lemma keeps_get_ll n : keeps (get_ll n).
  Proof. now apply keeps_read. Qed.
  Lemma keeps_get_material n : keeps (get_material n).
  Proof. now apply keeps_read. Qed.

  Definition writes (f : slope T -> slope T) : Prop :=
    forall s, Rel s (fst s, f (snd s)).
  Lemma keeps_self_upd f : writes f -> keeps (self_upd f).
  Proof. intros H s; apply H. Qed.
End Methods.
#[export] Hint Resolve keeps_self_get keeps_heap_get keeps_get_udl keeps_get_ll
  keeps_get_material keeps_self_upd : keeps.

(** ** Attributes a method does not touch *)
Definition same {S X : Type} (f : S -> X) (s s' : S) : Prop := f s' = f s.
Lemma same_refl {S X} (f : S -> X) s : same f s s.
Proof. reflexivity. Qed.
Lemma same_trans {S X} (f : S -> X) a b c : same f a b -> same f b c -> same f a c.
Proof. unfold same. congruence. Qed.
#[export] Hint Resolve same_refl same_trans : core.

Section Untouched.
  Context {T : Type} {NT : Num T} {EN : Env} {X : Type} (f : st T -> X).
  (** [blind w]: the write [w] does not change [f] *)
  Definition blind (w : slope T -> slope T) : Prop := forall s, f (fst s, w (snd s)) = f s.
  Lemma same_self_upd w : blind w -> keeps (same f) (self_upd w).
  Proof. intros H s; apply H. Qed.
End Untouched.
(** Decompose down to the writes and close those that leave [f] alone. *)
Ltac untouched :=
  repeat (cbv zeta; first [ solve [auto with keeps nocore] | solve [intros ?; reflexivity] | keep1
    | progress unfold set_udl_one, set_ll_one ]).

(** The dynamic search is made of moves of the loads, analyses and writes to
    the table of results. *)
Section Dynamic.
  Context {T : Type} {NT : Num T} {EN : Env}.
  Context (Rel : st T -> st T -> Prop).
  Context (refl : forall s, Rel s s).
  Context (trans : forall a b c, Rel a b -> Rel b c -> Rel a c).
  Context (moves : forall o, keeps Rel (set_dynamic_offset o)).
  Context (analyses : keeps Rel (analyse_slope None)).
  Context (records : forall d s, Rel s (fst s, set_s_dynamic d (snd s))).

  Ltac dyn := repeat (cbv zeta; first [ apply moves | apply analyses
    | apply keeps_self_get; exact refl | solve [intros ?; apply records] | keep1 ]).
  Lemma keeps_try o : keeps Rel (try_offset o).
  Proof. unfold try_offset. dyn. Qed.
  Lemma keeps_loop k c : forall l r p, keeps Rel (dynamic_loop k c l r p).
  Proof.
    induction k as [|k IH]; intros l r p; cbn [dynamic_loop]; [now apply keeps_ret|].
    repeat first [apply keeps_try | apply IH | apply keeps_self_get; exact refl | keep1].
  Qed.
  Lemma keeps_dynamic c : keeps Rel (analyse_dynamic c).
  Proof.
    unfold analyse_dynamic.
    repeat (cbv zeta; first [apply keeps_try | apply keeps_loop | apply keeps_self_get; exact refl
      | solve [intros ?; apply records] | keep1]).
  Qed.
End Dynamic.
