(** * Tame: functions that are continuous on both sides of every point have an integral.
    Used for the strength, weight and water pressure along the base of a circle (C92, C93). *)
From Coq Require Import Reals RList Lra List.
Import ListNotations.
Local Open Scope R_scope.

(** [f] agrees with a continuous function on an interval that ends (starts) at [x] *)
Definition tame_l (f : R -> R) (x : R) : Prop := exists d g, 0 < d /\
  (forall y, x - d <= y <= x -> continuity_pt g y) /\ (forall y, x - d < y < x -> f y = g y).
Definition tame_r (f : R -> R) (x : R) : Prop := exists d g, 0 < d /\
  (forall y, x <= y <= x + d -> continuity_pt g y) /\ (forall y, x < y < x + d -> f y = g y).
Definition tame (f : R -> R) (x : R) : Prop := tame_l f x /\ tame_r f x.

(** ** Closure *)
Lemma tame_op1 (o : R -> R) f x : (forall y, continuity_pt o y) -> tame f x -> tame (fun y => o (f y)) x.
Proof.
  intros C ((d & g & D & G & E) & (d' & g' & D' & G' & E')). split.
  - exists d, (fun y => o (g y)). split; auto. split; [|intros y Y; now rewrite E].
    intros y Y. apply (continuity_pt_comp g o); auto.
  - exists d', (fun y => o (g' y)). split; auto. split; [|intros y Y; now rewrite E'].
    intros y Y. apply (continuity_pt_comp g' o); auto.
Qed.
Lemma tame_op2 (o : R -> R -> R) f h x :
  (forall u v y, continuity_pt u y -> continuity_pt v y -> continuity_pt (fun z => o (u z) (v z)) y) ->
  tame f x -> tame h x -> tame (fun y => o (f y) (h y)) x.
Proof.
  intros C ((d & g & D & G & E) & (d' & g' & D' & G' & E')) ((e & k & P & K & Q) & (e' & k' & P' & K' & Q')). split.
  - exists (Rmin d e), (fun y => o (g y) (k y)). pose proof (Rmin_l d e). pose proof (Rmin_r d e).
    split; [now apply Rmin_glb_lt|]. split.
    + intros y Y. apply C; [apply G; lra|apply K; lra].
    + intros y Y. rewrite E, Q by lra. reflexivity.
  - exists (Rmin d' e'), (fun y => o (g' y) (k' y)). pose proof (Rmin_l d' e'). pose proof (Rmin_r d' e').
    split; [now apply Rmin_glb_lt|]. split.
    + intros y Y. apply C; [apply G'; lra|apply K'; lra].
    + intros y Y. rewrite E', Q' by lra. reflexivity.
Qed.
Lemma tame_plus f h x : tame f x -> tame h x -> tame (fun y => f y + h y) x.
Proof. apply (tame_op2 Rplus). intros u v y. apply (continuity_pt_plus u v). Qed.
Lemma tame_minus f h x : tame f x -> tame h x -> tame (fun y => f y - h y) x.
Proof. apply (tame_op2 Rminus). intros u v y. apply (continuity_pt_minus u v). Qed.
Lemma tame_mult f h x : tame f x -> tame h x -> tame (fun y => f y * h y) x.
Proof. apply (tame_op2 Rmult). intros u v y. apply (continuity_pt_mult u v). Qed.
Lemma Rmax_half x y : Rmax x y = (x + y + Rabs (x - y)) / 2.
Proof. unfold Rmax, Rabs. destruct (Rle_dec x y), (Rcase_abs (x - y)); lra. Qed.
Lemma Rmin_half x y : Rmin x y = (x + y - Rabs (x - y)) / 2.
Proof. unfold Rmin, Rabs. destruct (Rle_dec x y), (Rcase_abs (x - y)); lra. Qed.
Lemma cont_half u y : continuity_pt u y -> continuity_pt (fun z => u z / 2) y.
Proof.
  intros C. apply (continuity_pt_mult u (fun _ => / 2)); auto.
  apply continuity_pt_const. intros ? ?; reflexivity.
Qed.
Lemma cont_abs u y : continuity_pt u y -> continuity_pt (fun z => Rabs (u z)) y.
Proof. intros C. apply (continuity_pt_comp u Rabs); auto. apply Rcontinuity_abs. Qed.
Lemma cont_ext u v y : (forall z, u z = v z) -> continuity_pt u y -> continuity_pt v y.
Proof.
  intros E C e P. destruct (C e P) as (d & D & H). exists d. split; auto. intros z Z. rewrite <- !E. auto.
Qed.
Lemma cont_max u v y : continuity_pt u y -> continuity_pt v y -> continuity_pt (fun z => Rmax (u z) (v z)) y.
Proof.
  intros U V. apply (cont_ext (fun z => (u z + v z + Rabs (u z - v z)) / 2)); [intros z; symmetry; apply Rmax_half|].
  apply (cont_half (fun z => u z + v z + Rabs (u z - v z))).
  apply (continuity_pt_plus (fun z => u z + v z) (fun z => Rabs (u z - v z))).
  - now apply (continuity_pt_plus u v).
  - apply (cont_abs (fun z => u z - v z)). now apply (continuity_pt_minus u v).
Qed.
Lemma cont_min u v y : continuity_pt u y -> continuity_pt v y -> continuity_pt (fun z => Rmin (u z) (v z)) y.
Proof.
  intros U V. apply (cont_ext (fun z => (u z + v z - Rabs (u z - v z)) / 2)); [intros z; symmetry; apply Rmin_half|].
  apply (cont_half (fun z => u z + v z - Rabs (u z - v z))).
  apply (continuity_pt_minus (fun z => u z + v z) (fun z => Rabs (u z - v z))).
  - now apply (continuity_pt_plus u v).
  - apply (cont_abs (fun z => u z - v z)). now apply (continuity_pt_minus u v).
Qed.
Lemma tame_max f h x : tame f x -> tame h x -> tame (fun y => Rmax (f y) (h y)) x.
Proof. apply (tame_op2 Rmax). intros u v y. apply cont_max. Qed.
Lemma tame_min f h x : tame f x -> tame h x -> tame (fun y => Rmin (f y) (h y)) x.
Proof. apply (tame_op2 Rmin). intros u v y. apply cont_min. Qed.
Lemma tame_const c x : tame (fun _ => c) x.
Proof.
  split; exists 1, (fun _ => c); (split; [lra|]); split; auto; intros y Y;
    apply continuity_pt_const; intros ? ?; reflexivity.
Qed.
(** continuous around [x] *)
Lemma tame_cont f x d : 0 < d -> (forall y, x - d <= y <= x + d -> continuity_pt f y) -> tame f x.
Proof.
  intros D C. split; exists d, f; (split; [lra|]); split; auto; intros y Y; apply C; lra.
Qed.
Lemma tame_ext f h x d : 0 < d -> (forall y, x - d < y < x + d -> f y = h y) -> tame f x -> tame h x.
Proof.
  intros D E ((e & g & P & G & Q) & (e' & g' & P' & G' & Q')). split.
  - exists (Rmin d e), g. pose proof (Rmin_l d e). pose proof (Rmin_r d e).
    split; [now apply Rmin_glb_lt|]. split; intros y Y; [apply G; lra|rewrite <- E by lra; apply Q; lra].
  - exists (Rmin d e'), g'. pose proof (Rmin_l d e'). pose proof (Rmin_r d e').
    split; [now apply Rmin_glb_lt|]. split; intros y Y; [apply G'; lra|rewrite <- E by lra; apply Q'; lra].
Qed.

(** ** Values of any type that do not change just left and just right of [x] *)
Definition settled {A} (f : R -> A) (x : R) : Prop :=
  (exists d a, 0 < d /\ forall y, x - d < y < x -> f y = a) /\
  (exists d a, 0 < d /\ forall y, x < y < x + d -> f y = a).
Lemma settled_map {A B} (o : A -> B) f x : settled f x -> settled (fun y => o (f y)) x.
Proof.
  intros ((d & u & D & E) & (d' & u' & D' & E')). split; [exists d, (o u)|exists d', (o u')];
    (split; [assumption|]); intros y Y; [now rewrite E|now rewrite E'].
Qed.
Lemma settled_pair {A B C} (o : A -> B -> C) f h x : settled f x -> settled h x ->
  settled (fun y => o (f y) (h y)) x.
Proof.
  intros ((d & u & D & E) & (d' & u' & D' & E')) ((e & w & P & Q) & (e' & w' & P' & Q')). split.
  - exists (Rmin d e), (o u w). pose proof (Rmin_l d e). pose proof (Rmin_r d e).
    split; [now apply Rmin_glb_lt|]. intros y Y. now rewrite E, Q by lra.
  - exists (Rmin d' e'), (o u' w'). pose proof (Rmin_l d' e'). pose proof (Rmin_r d' e').
    split; [now apply Rmin_glb_lt|]. intros y Y. now rewrite E', Q' by lra.
Qed.
Lemma settled_const {A} (a : A) x : settled (fun _ => a) x.
Proof. split; exists 1, a; (split; [lra|]); auto. Qed.
Lemma settled_tame f x : settled f x -> tame f x.
Proof.
  intros ((d & u & D & E) & (d' & u' & D' & E')). split; [exists d, (fun _ => u)|exists d', (fun _ => u')];
    (split; [assumption|]); split; auto; intros y Y; apply continuity_pt_const; intros ? ?; reflexivity.
Qed.
Lemma settled_lt p x : settled (fun y => if Rlt_dec y p then true else false) x.
Proof.
  split.
  - destruct (Rlt_dec p x).
    + exists (x - p), false. split; [lra|]. intros y Y. destruct (Rlt_dec y p); [lra|reflexivity].
    + exists 1, true. split; [lra|]. intros y Y. destruct (Rlt_dec y p); [reflexivity|lra].
  - destruct (Rlt_dec x p).
    + exists (p - x), true. split; [lra|]. intros y Y. destruct (Rlt_dec y p); [reflexivity|lra].
    + exists 1, false. split; [lra|]. intros y Y. destruct (Rlt_dec y p); [lra|reflexivity].
Qed.

(** ** The integral exists *)
Lemma integrable_inside f g a b : a < b -> (forall x, a < x < b -> f x = g x) ->
  Riemann_integrable g a b -> Riemann_integrable f a b.
Proof.
  intros AB E pr eps. destruct (pr eps) as (phi & psi & B & I).
  set (at_ends := fun (h k : R -> R) x => if Rlt_dec a x then if Rlt_dec x b then h x else k x else k x).
  assert (ST : forall (h : StepFun a b) k l lf, adapted_couple h a b l lf -> adapted_couple (at_ends h k) a b l lf).
  { intros h k l lf (A1 & A2 & A3 & A4 & A5). repeat split; auto. intros i L x X.
    rewrite <- (A5 i L x X). unfold at_ends. rewrite Rmin_left in A2 by lra. rewrite Rmax_right in A3 by lra.
    assert (P : pos_Rl l 0 <= pos_Rl l i).
    { apply RList_P5; auto. apply RList_P3. exists i. split; auto. apply Nat.lt_le_trans with (1 := L). apply Nat.le_pred_l. }
    assert (Q : pos_Rl l (S i) <= pos_Rl l (pred (length l))).
    { apply RList_P7; auto. apply RList_P3. exists (S i). split; auto.
      apply Nat.lt_succ_lt_pred in L. exact L. }
    rewrite A2 in P. rewrite A3 in Q. unfold open_interval in X. destruct (Rlt_dec a x); [|lra].
    destruct (Rlt_dec x b); [reflexivity|lra]. }
  destruct phi as (phi & l1 & v1 & A1). destruct psi as (psi & l2 & v2 & A2). cbn [fe] in *.
  pose (phi' := mkStepFun (fe := at_ends phi f) (existT _ l1 (existT _ v1 (ST (mkStepFun (fe := phi) (existT _ l1 (existT _ v1 A1))) f l1 v1 A1)))
        : StepFun a b).
  pose (psi' := mkStepFun (fe := at_ends psi (fun _ => 0)) (existT _ l2 (existT _ v2 (ST (mkStepFun (fe := psi) (existT _ l2 (existT _ v2 A2))) (fun _ => 0) l2 v2 A2)))
        : StepFun a b).
  exists phi', psi'. split.
  - intros t T. cbn. unfold at_ends. destruct (Rlt_dec a t) as [L|L]; [destruct (Rlt_dec t b) as [L'|L']|].
    + rewrite E by lra. apply B. exact T.
    + rewrite Rminus_diag_eq, Rabs_R0 by reflexivity. lra.
    + rewrite Rminus_diag_eq, Rabs_R0 by reflexivity. lra.
  - exact I.
Qed.

Lemma tame_integrable f a b : a < b -> (forall x, a <= x <= b -> tame f x) ->
  inhabited (Riemann_integrable f a b).
Proof.
  intros AB T.
  set (S := fun t => a <= t <= b /\ inhabited (Riemann_integrable f a t)).
  assert (S0 : S a) by (split; [lra|constructor; apply RiemannInt_P7]).
  destruct (completeness S) as (m & UB & LU); [exists b; intros t (Q & _); lra|exists a; exact S0|].
  assert (M : a <= m <= b) by (split; [apply UB; exact S0|apply LU; intros t (Q & _); lra]).
  (* up to m *)
  assert (IM : inhabited (Riemann_integrable f a m)).
  { destruct (Req_dec a m) as [<-|N]; [constructor; apply RiemannInt_P7|].
    destruct (T m M) as ((d & g & D & G & E) & _).
    assert (Z : exists t, S t /\ m - d < t).
    { destruct (Classical_Prop.classic (exists t, S t /\ m - d < t)) as [Q|Q]; auto. exfalso.
      assert (m <= m - d); [|lra]. apply LU. intros t St. destruct (Rle_dec t (m - d)); auto.
      exfalso. apply Q. exists t. split; auto. lra. }
    destruct Z as (t & ((TB & [I]) & L)). assert (Tm : t <= m) by (apply UB; split; [lra|now constructor]).
    destruct (Req_dec t m) as [->|Nt]; [now constructor|].
    constructor. apply RiemannInt_P24 with t; auto. apply integrable_inside with g; [lra|intros; apply E; lra|].
    apply continuity_implies_RiemannInt; [lra|]. intros y Y. apply G. lra. }
  (* beyond m *)
  destruct (Req_dec m b) as [->|N]; auto. exfalso. destruct (T m M) as (_ & (d & g & D & G & E)).
  set (t := Rmin b (m + d)). assert (Q : m < t <= b /\ t <= m + d).
  { unfold t. pose proof (Rmin_l b (m + d)). pose proof (Rmin_r b (m + d)).
    assert (m < Rmin b (m + d)) by (apply Rmin_glb_lt; lra). lra. }
  assert (S t).
  { split; [lra|]. destruct IM as [IM]. constructor. apply RiemannInt_P24 with m; auto.
    apply integrable_inside with g; [lra|intros; apply E; lra|].
    apply continuity_implies_RiemannInt; [lra|]. intros y Y. apply G. lra. }
  pose proof (UB t H). lra.
Qed.

Lemma tame_bounded f a b : a < b -> (forall x, a <= x <= b -> tame f x) ->
  exists B, 0 <= B /\ forall x, a <= x <= b -> Rabs (f x) <= B.
Proof.
  intros AB T.
  set (S := fun t => a <= t <= b /\ exists B, 0 <= B /\ forall x, a <= x <= t -> Rabs (f x) <= B).
  assert (S0 : S a).
  { split; [lra|]. exists (Rabs (f a)). split; [apply Rabs_pos|]. intros x X. replace x with a by lra. lra. }
  destruct (completeness S) as (m & UB & LU); [exists b; intros t (Q & _); lra|exists a; exact S0|].
  assert (M : a <= m <= b) by (split; [apply UB; exact S0|apply LU; intros t (Q & _); lra]).
  assert (CB : forall g p q, p <= q -> (forall y, p <= y <= q -> continuity_pt g y) ->
    exists B, 0 <= B /\ forall y, p <= y <= q -> Rabs (g y) <= B).
  { intros g p q PQ C.
    destruct (continuity_ab_maj (fun y => Rabs (g y)) p q PQ) as (z & Z & _).
    { intros y Y. apply cont_abs. now apply C. }
    exists (Rabs (g z)). split; [apply Rabs_pos|exact Z]. }
  assert (IM : exists B, 0 <= B /\ forall x, a <= x <= m -> Rabs (f x) <= B).
  { destruct (T m M) as ((d & g & D & G & E) & _).
    assert (Z : exists t, S t /\ m - d < t).
    { destruct (Classical_Prop.classic (exists t, S t /\ m - d < t)) as [Q|Q]; auto. exfalso.
      assert (m <= m - d); [|lra]. apply LU. intros t St. destruct (Rle_dec t (m - d)); auto.
      exfalso. apply Q. exists t. split; auto. lra. }
    destruct Z as (t & ((TB & (B & B0 & I)) & L)).
    destruct (CB g (m - d) m ltac:(lra) G) as (B' & B0' & I').
    exists (B + B' + Rabs (f m)). pose proof (Rabs_pos (f m)). split; [lra|]. intros x X.
    destruct (Rle_dec x t) as [|N]; [specialize (I x ltac:(lra)); lra|].
    destruct (Req_dec x m) as [->|Nm]; [lra|]. rewrite E by lra. specialize (I' x ltac:(lra)). lra. }
  destruct (Req_dec m b) as [->|N]; auto. exfalso. destruct (T m M) as (_ & (d & g & D & G & E)).
  set (t := Rmin b (m + d / 2)). assert (Q : m < t <= b /\ t < m + d).
  { unfold t. pose proof (Rmin_l b (m + d / 2)). pose proof (Rmin_r b (m + d / 2)).
    assert (m < Rmin b (m + d / 2)) by (apply Rmin_glb_lt; lra). lra. }
  assert (S t).
  { split; [lra|]. destruct IM as (B & B0 & I). destruct (CB g m (m + d) ltac:(lra) G) as (B' & B0' & I').
    exists (B + B'). split; [lra|]. intros x X.
    destruct (Rle_dec x m); [specialize (I x ltac:(lra)); lra|]. rewrite E by lra. specialize (I' x ltac:(lra)). lra. }
  pose proof (UB t H). lra.
Qed.
