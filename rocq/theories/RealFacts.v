(** * RealFacts: reflection of the real-number instance. *)
From Coq Require Import ZArith Reals Lra Lia List Bool.
From Verif Require Import Num Py RealNum.
Import ListNotations.
Local Open Scope R_scope.

Global Arguments nz : simpl never.
Global Arguments pymax : simpl never.
Global Arguments pymin : simpl never.
Global Arguments nsq : simpl never.
Global Arguments nsum : simpl never.
Global Arguments nradians : simpl never.

Lemma Rltb_true x y : Rltb x y = true <-> x < y.
Proof. unfold Rltb; destruct (Rlt_dec x y); split; intros; try easy; lra. Qed.
Lemma Rltb_false x y : Rltb x y = false <-> y <= x.
Proof. unfold Rltb; destruct (Rlt_dec x y); split; intros; try easy; lra. Qed.
Lemma Rleb_true x y : Rleb x y = true <-> x <= y.
Proof. unfold Rleb; destruct (Rle_dec x y); split; intros; try easy; lra. Qed.
Lemma Rleb_false x y : Rleb x y = false <-> y < x.
Proof. unfold Rleb; destruct (Rle_dec x y); split; intros; try easy; lra. Qed.
Lemma Reqb_true x y : Reqb x y = true <-> x = y.
Proof. unfold Reqb; destruct (Req_EM_T x y); split; intros; try easy; lra. Qed.
Lemma Reqb_false x y : Reqb x y = false <-> x <> y.
Proof. unfold Reqb; destruct (Req_EM_T x y); split; intros; try easy; lra. Qed.
Lemma Reqb_refl x : Reqb x x = true.
Proof. now apply Reqb_true. Qed.
Lemma Reqb_sym x y : Reqb x y = Reqb y x.
Proof.
  destruct (Reqb x y) eqn:E; symmetry.
  - apply Reqb_true in E; subst; apply Reqb_refl.
  - apply Reqb_false in E. apply Reqb_false. auto.
Qed.

Lemma nz_R z : @nz R RNum z = IZR z.
Proof. unfold nz; cbn [nlit RNum]. unfold Rdiv. rewrite Rinv_1. ring. Qed.
Lemma nlit_R n d : @nlit R RNum n d = IZR n / IZR (Zpos d).
Proof. reflexivity. Qed.
Lemma pymax_R a b : @pymax R RNum a b = Rmax a b.
Proof.
  unfold pymax, Rmax; cbn [nltb RNum]. unfold Rltb.
  destruct (Rlt_dec a b), (Rle_dec a b); lra.
Qed.
Lemma pymin_R a b : @pymin R RNum a b = Rmin a b.
Proof.
  unfold pymin, Rmin; cbn [nltb RNum]. unfold Rltb.
  destruct (Rlt_dec b a), (Rle_dec a b); lra.
Qed.
Lemma nsq_R a : @nsq R RNum a = a * a.
Proof. reflexivity. Qed.

(** Bring every generic operation at the reals to the library's notation. *)
Ltac unR :=
  repeat rewrite ?nz_R, ?pymax_R, ?pymin_R, ?nsq_R, ?nlit_R in *;
  cbn [nadd nsub nmul ndiv nabs nsqrt natan ncos nsin ntan npi nltb nleb neqb
       ntrunc nround RNum] in *.

(** Turn boolean tests on reals in the context into inequalities. *)
Ltac rbool1 :=
  match goal with
  | H : Rltb _ _ = true |- _ => apply Rltb_true in H
  | H : Rltb _ _ = false |- _ => apply Rltb_false in H
  | H : Rleb _ _ = true |- _ => apply Rleb_true in H
  | H : Rleb _ _ = false |- _ => apply Rleb_false in H
  | H : Reqb _ _ = true |- _ => apply Reqb_true in H
  | H : Reqb _ _ = false |- _ => apply Reqb_false in H
  | H : (_ && _)%bool = true |- _ => apply andb_true_iff in H; destruct H
  | H : (_ || _)%bool = false |- _ => apply orb_false_iff in H; destruct H
  | H : negb _ = true |- _ => apply negb_true_iff in H
  | H : negb _ = false |- _ => apply negb_false_iff in H
  end.
Ltac rbool := repeat rbool1.

(** Case analysis on every boolean test on reals in the goal. *)
Ltac rcase :=
  repeat match goal with
  | |- context [Rltb ?a ?b] =>
      let E := fresh "E" in destruct (Rltb a b) eqn:E; rbool
  | |- context [Rleb ?a ?b] =>
      let E := fresh "E" in destruct (Rleb a b) eqn:E; rbool
  | |- context [Reqb ?a ?b] =>
      let E := fresh "E" in destruct (Reqb a b) eqn:E; rbool
  end.

Lemma Rmax_cases a b : (a <= b /\ Rmax a b = b) \/ (b <= a /\ Rmax a b = a).
Proof. unfold Rmax; destruct (Rle_dec a b); [left | right]; split; lra. Qed.
Lemma Rmin_cases a b : (a <= b /\ Rmin a b = a) \/ (b <= a /\ Rmin a b = b).
Proof. unfold Rmin; destruct (Rle_dec a b); [left | right]; split; lra. Qed.

(** Case analysis on every maximum and minimum. *)
Ltac rminmax :=
  repeat match goal with
  | |- context [Rmax ?a ?b] =>
      let E := fresh "E" in let Q := fresh "Q" in
      destruct (Rmax_cases a b) as [[E Q] | [E Q]]; rewrite Q in *; clear Q
  | |- context [Rmin ?a ?b] =>
      let E := fresh "E" in let Q := fresh "Q" in
      destruct (Rmin_cases a b) as [[E Q] | [E Q]]; rewrite Q in *; clear Q
  | H : context [Rmax ?a ?b] |- _ =>
      let E := fresh "E" in let Q := fresh "Q" in
      destruct (Rmax_cases a b) as [[E Q] | [E Q]]; rewrite Q in *; clear Q
  | H : context [Rmin ?a ?b] |- _ =>
      let E := fresh "E" in let Q := fresh "Q" in
      destruct (Rmin_cases a b) as [[E Q] | [E Q]]; rewrite Q in *; clear Q
  end.

(** ** Sums *)
Lemma fold_left_Rplus l a : fold_left Rplus l a = a + fold_left Rplus l 0.
Proof.
  revert a; induction l as [|x l IH]; intros a; cbn [fold_left]; [ring|].
  rewrite IH, (IH (0 + x)). ring.
Qed.
Fixpoint rsum (l : list R) : R := match l with [] => 0 | x :: l' => x + rsum l' end.
Lemma nsum_R l : @nsum R RNum l = rsum l.
Proof.
  unfold nsum. rewrite nz_R. cbn [nadd RNum].
  induction l as [|x l IH]; cbn [fold_left rsum]; [reflexivity|].
  rewrite fold_left_Rplus, IH. ring.
Qed.
Lemma rsum_app a b : rsum (a ++ b) = rsum a + rsum b.
Proof. induction a as [|x a IH]; cbn [rsum app]; [ring | rewrite IH; ring]. Qed.
Lemma rsum_scale {A} (f : A -> R) k l :
  rsum (map (fun x => k * f x) l) = k * rsum (map f l).
Proof. induction l as [|x l IH]; cbn [map rsum]; [ring | rewrite IH; ring]. Qed.
Lemma rsum_plus {A} (f g : A -> R) l :
  rsum (map (fun x => f x + g x) l) = rsum (map f l) + rsum (map g l).
Proof. induction l as [|x l IH]; cbn [map rsum]; [ring | rewrite IH; ring]. Qed.
Lemma rsum_ext {A} (f g : A -> R) l :
  (forall x, In x l -> f x = g x) -> rsum (map f l) = rsum (map g l).
Proof.
  induction l as [|x l IH]; intros H; cbn [map rsum]; [reflexivity|].
  rewrite H by (now left). rewrite IH; [reflexivity|]. intros; apply H; now right.
Qed.
Lemma rsum_le {A} (f g : A -> R) l :
  (forall x, In x l -> f x <= g x) -> rsum (map f l) <= rsum (map g l).
Proof.
  induction l as [|x l IH]; intros H; cbn [map rsum]; [lra|].
  apply Rplus_le_compat; [apply H; now left | apply IH; intros; apply H; now right].
Qed.
Lemma rsum_nonneg l : (forall x, In x l -> 0 <= x) -> 0 <= rsum l.
Proof.
  induction l as [|x l IH]; intros H; cbn [rsum]; [lra|].
  assert (0 <= x) by (apply H; now left).
  assert (0 <= rsum l) by (apply IH; intros; apply H; now right). lra.
Qed.
Lemma rsum_zero {A} (l : list A) : rsum (map (fun _ => 0) l) = 0.
Proof. induction l as [|x l IH]; cbn [map rsum]; [reflexivity | rewrite IH; ring]. Qed.
