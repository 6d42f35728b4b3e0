(** * MonadFacts: symbolic execution of methods. *)
From Coq Require Import ZArith List Bool.
From Verif Require Import Num Py Objects Slope.
Import ListNotations.

Section Laws.
  Context {S A B : Type}.
  Lemma bind_ok (m : M S A) (k : A -> M S B) s a s' :
    m s = (Ok a, s') -> mbind m k s = k a s'.
  Proof. intros H. unfold mbind. now rewrite H. Qed.
  Lemma bind_err (m : M S A) (k : A -> M S B) s e s' :
    m s = (Err e, s') -> mbind m k s = (Err e, s').
  Proof. intros H. unfold mbind. now rewrite H. Qed.
  Lemma bind_get (f : S -> A) (k : A -> M S B) s : mbind (mget f) k s = k (f s) s.
  Proof. reflexivity. Qed.
  Lemma bind_upd (f : S -> S) (k : unit -> M S B) s : mbind (mupd f) k s = k tt (f s).
  Proof. reflexivity. Qed.
  Lemma bind_lift (r : res A) (k : A -> M S B) s :
    mbind (mlift r) k s = match r with Ok a => k a s | Err e => (Err e, s) end.
  Proof. now destruct r. Qed.
  Lemma bind_ret (a : A) (k : A -> M S B) s : mbind (mret a) k s = k a s.
  Proof. reflexivity. Qed.
  Lemma bind_raise e (k : A -> M S B) s : mbind (mraise e) k s = (Err e, s).
  Proof. reflexivity. Qed.
End Laws.
Lemma bind_assoc {S A B C} (m : M S A) (f : A -> M S B) (g : B -> M S C) s :
  mbind (mbind m f) g s = mbind m (fun a => mbind (f a) g) s.
Proof. unfold mbind. now destruct (m s) as [[a|e] s']. Qed.
Lemma bind_when {S B} (b : bool) (m : M S unit) (k : unit -> M S B) s :
  mbind (mwhen b m) k s = if b then mbind m k s else k tt s.
Proof. now destruct b. Qed.
Lemma bind_if {S A B} (b : bool) (m1 m2 : M S A) (k : A -> M S B) s :
  mbind (if b then m1 else m2) k s = if b then mbind m1 k s else mbind m2 k s.
Proof. now destruct b. Qed.

Section Self.
  Context {T : Type} {NT : Num T} {B : Type}.
  Lemma bind_self_get {A} (f : slope T -> A) (k : A -> M (st T) B) s :
    mbind (self_get f) k s = k (f (snd s)) s.
  Proof. reflexivity. Qed.
  Lemma bind_heap_get {A} (f : heap T -> A) (k : A -> M (st T) B) s :
    mbind (heap_get f) k s = k (f (fst s)) s.
  Proof. reflexivity. Qed.
  Lemma bind_self_upd f (k : unit -> M (st T) B) (s : st T) :
    mbind (self_upd f) k s = k tt (fst s, f (snd s)).
  Proof. reflexivity. Qed.
  Lemma self_upd_eff f (s : st T) : self_upd f s = (Ok tt, (fst s, f (snd s))).
  Proof. reflexivity. Qed.
  Lemma reset_eff (s : st T) : reset_results s = (Ok tt, (fst s, set_s_search [] (snd s))).
  Proof. reflexivity. Qed.
  Lemma bind_reset (k : unit -> M (st T) B) (s : st T) :
    mbind reset_results k s = k tt (fst s, set_s_search [] (snd s)).
  Proof. reflexivity. Qed.
End Self.

(** One step of symbolic execution of [m s] in the goal. *)
Ltac mstep :=
  first [ rewrite bind_assoc | rewrite bind_self_get | rewrite bind_self_upd
        | rewrite bind_reset | rewrite bind_heap_get | rewrite bind_lift
        | rewrite bind_get | rewrite bind_upd | rewrite bind_ret | rewrite bind_raise
        | rewrite bind_when | rewrite bind_if ];
  cbv beta; cbn [fst snd].
Ltac msteps := repeat mstep.
