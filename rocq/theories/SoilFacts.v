(** * SoilFacts: layers under the ground, weight of a strip, strength at the base
    of a slice (C37, C40). *)
From Coq Require Import ZArith Reals Lra Lia List Bool String Permutation Sorted.
From Verif Require Import Num Py Validation Utilities Objects Slope Planes Analysis
     Dynamic Api RealNum RealFacts ListFacts.
Import ListNotations.
Local Open Scope R_scope.

(** ** Vocabulary *)
(** A layering: elevation of the bottom and material, from the top down. *)
Definition layering := list (R * material R).
Definition descending (L : layering) : Prop :=
  StronglySorted (fun a b => fst b < fst a) L.
(** The layer at elevation [y]: all layers above it end at [y] or higher, and it
    ends below [y] or is the deepest one. *)
Definition layer_at (L : layering) (y : R) (m : material R) : Prop :=
  exists above rl below, L = above ++ (rl, m) :: below /\
    Forall (fun l => y <= fst l) above /\ (rl < y \/ below = []).

Lemma layer_at_unique L y m m' : layer_at L y m -> layer_at L y m' -> m = m'.
Proof.
  revert m m'. induction L as [|[r n] L IH]; intros m m' (a & rl & b & E & F & C) (a' & rl' & b' & E' & F' & C').
  - destruct a; discriminate.
  - destruct a as [|x a], a' as [|x' a']; cbn in *.
    + congruence.
    + injection E as -> -> ->. injection E' as <- ->. inversion F'; subst. cbn in *.
      destruct C as [C | C]; [lra|]. destruct a'; discriminate.
    + injection E' as -> -> ->. injection E as <- ->. inversion F; subst. cbn in *.
      destruct C' as [C' | C']; [lra|]. destruct a; discriminate.
    + injection E as <- ->. injection E' as <- E'. inversion F; inversion F'; subst.
      apply IH; do 3 eexists; eauto.
Qed.
Lemma layer_at_exists L y : L <> [] -> exists m, layer_at L y m.
Proof.
  induction L as [|[r n] L IH]; [congruence|]. intros _.
  destruct (Rlt_le_dec r y) as [H | H].
  - exists n, [], r, L. auto.
  - destruct L as [|l L].
    + exists n, [], r, []. auto.
    + destruct IH as (m & a & rl & b & E & F & C); [discriminate|].
      exists m, ((r, n) :: a), rl, b. split; [cbn; congruence|]. split; auto.
Qed.

(** ** C40 *)
Lemma base_material_spec L y m : base_material L y = Some m <-> layer_at L y m.
Proof.
  assert (A : L <> [] -> exists k, base_material L y = Some k /\ layer_at L y k).
  { induction L as [|[r n] L IH]; [congruence|]. intros _.
    destruct L as [|l L].
    - exists n. split; [reflexivity|]. exists [], r, []. auto.
    - destruct IH as (k & E & a & rl & b & Q & F & C); [discriminate|].
      change (base_material ((r, n) :: l :: L) y) with
        (if Rltb r y then Some n else base_material (l :: L) y).
      destruct (Rltb r y) eqn:B; rbool.
      + exists n. split; auto. exists [], r, (l :: L). auto.
      + exists k. split; auto. exists ((r, n) :: a), rl, b.
        split; [cbn; congruence|]. split; auto. }
  split.
  - intros H. destruct L as [|l L]; [discriminate|].
    destruct A as (k & E & K); [discriminate|]. congruence.
  - intros H. destruct L as [|l L].
    + destruct H as ([|? ?] & ? & ? & Q & _); discriminate.
    + destruct A as (k & E & K); [discriminate|]. rewrite E. f_equal.
      eapply layer_at_unique; eauto.
Qed.
Lemma material_at_depth_spec L y m :
  get_material_at_depth L y = Ok m <-> layer_at L y m.
Proof.
  assert (A : L <> [] -> exists k, get_material_at_depth L y = Ok k /\ layer_at L y k).
  { unfold get_material_at_depth. unR.
    induction L as [|[r n] L IH]; [congruence|]. intros _. cbn [find fst].
    destruct (Rltb r y) eqn:B; rbool.
    - exists n. split; auto. exists [], r, L. auto.
    - destruct L as [|l L].
      + exists n. split; auto. exists [], r, []. auto.
      + destruct IH as (k & E & a & rl & b & Q & F & C); [discriminate|].
        exists k. split.
        * destruct (find _ (l :: L)) as [[? ?]|]; auto.
          rewrite <- E. change (rev ((r, n) :: l :: L)) with (rev (l :: L) ++ [(r, n)]).
          destruct (rev (l :: L)) as [|q qs] eqn:RV; [|reflexivity].
          apply (f_equal (@List.length _)) in RV. rewrite rev_length in RV. discriminate.
        * exists ((r, n) :: a), rl, b. split; [cbn; congruence|]. split; auto. }
  split.
  - intros H. destruct L as [|l L]; [discriminate|].
    destruct A as (k & E & K); [discriminate|]. congruence.
  - intros H. destruct L as [|l L].
    + destruct H as ([|? ?] & ? & ? & Q & _); discriminate.
    + destruct A as (k & E & K); [discriminate|]. rewrite E. f_equal.
      eapply layer_at_unique; eauto.
Qed.

(** ** C37 *)
(** [uw] is the unit weight of the layering as a function of elevation. *)
Definition unit_weight_fun (L : layering) (uw : R -> R) : Prop :=
  forall y m, layer_at L y m -> uw y = m_unit_weight m.

(** A function constant inside an interval is integrable there. *)
Lemma open_const_int f c a b : a <= b -> (forall x, a < x < b -> f x = c) ->
  {pr : Riemann_integrable f a b | RiemannInt pr = c * (b - a)}.
Proof.
  intros AB H.
  assert (S : IsStepFun f a b).
  { exists [a; b]. exists [c]. unfold adapted_couple. cbn.
    repeat split.
    - intros i Hi. cbn in Hi. destruct i; [cbn; auto | lia].
    - rewrite Rmin_left; auto.
    - rewrite Rmax_right; auto.
    - intros i Hi. destruct i; [|lia]. cbn. intros x Hx. unfold open_interval in Hx. auto. }
  assert (P : Riemann_integrable f a b).
  { intros eps. exists (mkStepFun S). exists (mkStepFun (StepFun_P4 a b 0)). split.
    - intros t _. cbn. rewrite Rminus_diag_eq by reflexivity. rewrite Rabs_R0.
      unfold fct_cte. lra.
    - rewrite StepFun_P18. replace (0 * (b - a)) with 0 by ring. rewrite Rabs_R0. apply eps. }
  exists P.
  rewrite (RiemannInt_P18 P (RiemannInt_P14 a b c) AB).
  - apply RiemannInt_P15.
  - intros x Hx. unfold fct_cte. auto.
Qed.
Lemma int_ext f g a b : (forall x, f x = g x) ->
  Riemann_integrable f a b -> Riemann_integrable g a b.
Proof.
  intros E P eps. destruct (P eps) as (phi & psi & A & B).
  exists phi, psi. split; auto. intros t Ht. rewrite <- E. auto.
Qed.

Definition ind (a : R) (y : R) : R := if Rltb a y then 1 else 0.
Definition pos (x : R) : R := Rmax 0 x.
Lemma ind_int rl a b : a <= b ->
  {pr : Riemann_integrable (ind rl) a b | RiemannInt pr = pos (b - Rmax a rl)}.
Proof.
  intros AB. destruct (Rle_dec b rl) as [H | H]; [|destruct (Rle_dec rl a) as [H' | H']].
  - destruct (open_const_int (ind rl) 0 a b AB) as (P & E).
    + intros x Hx. unfold ind. rewrite (proj2 (Rltb_false _ _)) by lra. reflexivity.
    + exists P. rewrite E. unfold pos. rewrite (Rmax_right a rl) by lra.
      rewrite Rmax_left by lra. ring.
  - destruct (open_const_int (ind rl) 1 a b AB) as (P & E).
    + intros x Hx. unfold ind. rewrite (proj2 (Rltb_true _ _)) by lra. reflexivity.
    + exists P. rewrite E. unfold pos. rewrite (Rmax_left a rl) by lra.
      rewrite Rmax_right by lra. ring.
  - destruct (open_const_int (ind rl) 0 a rl) as (P & E); [lra| |].
    { intros x Hx. unfold ind. rewrite (proj2 (Rltb_false _ _)) by lra. reflexivity. }
    destruct (open_const_int (ind rl) 1 rl b) as (P' & E'); [lra| |].
    { intros x Hx. unfold ind. rewrite (proj2 (Rltb_true _ _)) by lra. reflexivity. }
    exists (RiemannInt_P24 P P').
    rewrite <- (RiemannInt_P26 P P'), E, E'. unfold pos.
    rewrite (Rmax_right a rl) by lra. rewrite Rmax_right by lra. ring.
Qed.

(** closed form of the integral *)
Fixpoint column (L : layering) (yt yb : R) : R :=
  match L with
  | [] => 0
  | [(_, m)] => m_unit_weight m * pos (yt - yb)
  | (rl, m) :: (((_, m') :: _) as L') =>
      column L' yt yb + (m_unit_weight m - m_unit_weight m') * pos (yt - Rmax yb rl)
  end.
Fixpoint weight_fun (L : layering) (y : R) : R :=
  match L with
  | [] => 0
  | [(_, m)] => m_unit_weight m
  | (rl, m) :: (((_, m') :: _) as L') =>
      weight_fun L' y + (m_unit_weight m - m_unit_weight m') * ind rl y
  end.
Lemma weight_fun_int L : forall yb yt, yb <= yt ->
  {pr : Riemann_integrable (weight_fun L) yb yt | RiemannInt pr = column L yt yb}.
Proof.
  induction L as [|[rl m] L IH]; intros yb yt H.
  - exists (RiemannInt_P14 yb yt 0). cbn [column].
    etransitivity; [exact (RiemannInt_P15 (RiemannInt_P14 yb yt 0)) | ring].
  - destruct L as [|[rl' m'] L].
    + exists (RiemannInt_P14 yb yt (m_unit_weight m)). cbn [column].
      etransitivity; [exact (RiemannInt_P15 (RiemannInt_P14 yb yt (m_unit_weight m)))|].
      unfold pos. rewrite Rmax_right by lra. ring.
    + destruct (IH yb yt H) as (P & E). destruct (ind_int rl yb yt H) as (P' & E').
      change (weight_fun ((rl, m) :: (rl', m') :: L)) with
        (fun y => weight_fun ((rl', m') :: L) y + (m_unit_weight m - m_unit_weight m') * ind rl y).
      exists (RiemannInt_P10 (m_unit_weight m - m_unit_weight m') P P').
      change (column ((rl, m) :: (rl', m') :: L) yt yb) with
        (column ((rl', m') :: L) yt yb + (m_unit_weight m - m_unit_weight m') * pos (yt - Rmax yb rl)).
      rewrite <- E, <- E'. apply RiemannInt_P13.
Qed.
Lemma weight_fun_layer L : descending L -> unit_weight_fun L (weight_fun L).
Proof.
  induction 1 as [|[rl m] L S IH F]; intros y k H.
  - destruct H as ([|? ?] & ? & ? & Q & _); discriminate.
  - destruct L as [|[rl' m'] L].
    + destruct H as (a & r & b & Q & _). destruct a as [|? a]; [|destruct a; discriminate].
      injection Q as -> -> <-. reflexivity.
    + change (weight_fun ((rl, m) :: (rl', m') :: L) y) with
        (weight_fun ((rl', m') :: L) y + (m_unit_weight m - m_unit_weight m') * ind rl y).
      unfold ind. destruct (Rltb rl y) eqn:E; rbool.
      * inversion F as [|? ? F1 _]; subst. cbn in F1.
        rewrite (IH y m').
        2:{ exists [], rl', L. split; auto. split; auto. left. lra. }
        assert (k = m).
        { eapply layer_at_unique; [exact H|]. exists [], rl, ((rl', m') :: L). auto. }
        subst. ring.
      * rewrite (IH y k); [ring|].
        destruct H as (a & r & b & Q & Fa & C). destruct a as [|x a].
        -- injection Q as -> -> <-. destruct C as [C | C]; [lra | discriminate].
        -- injection Q as <- ->. inversion Fa; subst. do 3 eexists; eauto.
Qed.
Lemma unit_weight_unique L f g : L <> [] ->
  unit_weight_fun L f -> unit_weight_fun L g -> forall y, f y = g y.
Proof.
  intros N F G y. destruct (layer_at_exists L y N) as (m & H). rewrite (F y m H). symmetry. auto.
Qed.

(** the code's sum over layers *)
Lemma pos_if x : (if Rltb x 0 then 0 else x) = pos x.
Proof. unfold pos. destruct (Rltb x 0) eqn:E; rbool; [rewrite Rmax_left | rewrite Rmax_right]; lra. Qed.
Lemma fold_weight yt yb (l : list (R * option R * R)) : forall a : R,
  fold_left (fun w x => nadd w (layer_weight yt yb x)) l a =
  a + rsum (map (layer_weight yt yb) l).
Proof.
  induction l as [|x l IH]; intros a; cbn [fold_left map rsum]; [ring|].
  rewrite IH. cbn [nadd RNum]. ring.
Qed.
Lemma column_slope L : forall rl0 yt yb, descending L -> L <> [] ->
  Forall (fun l => fst l < rl0) L ->
  column L yt yb = column L (Rmin yt rl0) yb +
    match L with [] => 0 | (_, m) :: _ => m_unit_weight m * pos (yt - Rmax yb rl0) end.
Proof.
  induction L as [|[rl m] L IH]; intros rl0 yt yb S N F; [congruence|].
  inversion S as [|? ? S' F']; subst. inversion F as [|? ? F1 F2]; subst. cbn in F1.
  destruct L as [|[rl' m'] L].
  - cbn. transitivity (m_unit_weight m * (pos (Rmin yt rl0 - yb) + pos (yt - Rmax yb rl0))); [|ring].
    f_equal. unfold pos. rminmax; lra.
  - change (column ((rl, m) :: (rl', m') :: L) yt yb) with
      (column ((rl', m') :: L) yt yb + (m_unit_weight m - m_unit_weight m') * pos (yt - Rmax yb rl)).
    change (column ((rl, m) :: (rl', m') :: L) (Rmin yt rl0) yb) with
      (column ((rl', m') :: L) (Rmin yt rl0) yb
       + (m_unit_weight m - m_unit_weight m') * pos (Rmin yt rl0 - Rmax yb rl)).
    rewrite (IH rl0 yt yb) by (auto; discriminate).
    transitivity (column ((rl', m') :: L) (Rmin yt rl0) yb
      + m_unit_weight m' * pos (yt - Rmax yb rl0)
      + (m_unit_weight m - m_unit_weight m') * (pos (Rmin yt rl0 - Rmax yb rl) + pos (yt - Rmax yb rl0)));
      [|ring].
    do 2 f_equal. unfold pos. rminmax; lra.
Qed.
Lemma layers_column L : forall top yt yb, descending L ->
  match L with [] => True | (rl, _) :: _ => rl <= top \/ yt <= top end ->
  rsum (map (layer_weight yt yb) (layers top L)) = column L (Rmin yt top) yb.
Proof.
  induction L as [|[rl m] L IH]; intros top yt yb S T; [reflexivity|].
  inversion S as [|? ? S' F']; subst.
  destruct L as [|[rl' m'] L].
  - cbn [layers map rsum column]. unfold layer_weight. unR. rewrite pos_if. ring.
  - change (layers top ((rl, m) :: (rl', m') :: L)) with
      ((top, Some rl, m_unit_weight m) :: layers rl ((rl', m') :: L)).
    cbn [map rsum]. inversion F' as [|? ? F1 F2]; subst. cbn in F1.
    rewrite IH by (auto; left; lra).
    change (column ((rl, m) :: (rl', m') :: L) (Rmin yt top) yb) with
      (column ((rl', m') :: L) (Rmin yt top) yb
       + (m_unit_weight m - m_unit_weight m') * pos (Rmin yt top - Rmax yb rl)).
    unfold layer_weight. unR. rewrite pos_if.
    destruct (Rle_dec rl top) as [H | H].
    + rewrite (column_slope ((rl', m') :: L) rl (Rmin yt top) yb) by (auto; discriminate).
      replace (Rmin (Rmin yt top) rl) with (Rmin yt rl) by (rminmax; lra). ring.
    + assert (yt <= top) by (destruct T; lra).
      replace (Rmin yt rl) with (Rmin yt top) by (rminmax; lra).
      replace (pos (Rmin yt top - Rmax yb rl)) with 0; [ring|].
      unfold pos. rminmax; lra.
Qed.

(** The weight of a strip of width [b] between [yb] and [yt]. *)
Lemma strip_weight_spec (v : view R) b yb yt uw :
  v_mats v <> [] -> descending (v_mats v) -> yb <= yt <= g_ext_h (v_geom v) ->
  unit_weight_fun (v_mats v) uw ->
  exists pr : Riemann_integrable uw yb yt,
    strip_weight v b yt yb = b * RiemannInt pr.
Proof.
  intros N S Y U. destruct (weight_fun_int (v_mats v) yb yt (proj1 Y)) as (P & E).
  assert (X : forall y, weight_fun (v_mats v) y = uw y)
    by (apply (unit_weight_unique (v_mats v)); auto using weight_fun_layer).
  exists (int_ext _ _ _ _ X P).
  rewrite <- (RiemannInt_P18 P (int_ext _ _ _ _ X P)) by (tauto || auto).
  rewrite E. unfold strip_weight. rewrite fold_weight, layers_column; auto.
  - unR. rewrite Rmin_left by lra. ring.
  - destruct (v_mats v) as [|[? ?] ?]; auto. right; lra.
Qed.

Lemma strip_weight_column (v : view R) b yb yt :
  descending (v_mats v) -> yt <= g_ext_h (v_geom v) ->
  strip_weight v b yt yb = b * column (v_mats v) yt yb.
Proof.
  intros S Y. unfold strip_weight. rewrite fold_weight, layers_column; auto.
  - unR. rewrite Rmin_left by lra. ring.
  - destruct (v_mats v) as [|[? ?] ?]; auto.
Qed.

(** Every layer of a layering is found at some elevation, so the unit weight
    function takes no other values than those of the layers. *)
Lemma unit_weight_exists L : L <> [] -> descending L -> exists uw, unit_weight_fun L uw.
Proof. intros _ S. exists (weight_fun L). apply weight_fun_layer; auto. Qed.

Lemma layer_at_In L y m : layer_at L y m -> exists rl, In (rl, m) L.
Proof. intros (a & rl & b & -> & _). exists rl. apply in_or_app; right; left; auto. Qed.

(** additivity, emptiness, bounds *)
Lemma strip_weight_split (v : view R) b y0 y1 y2 :
  v_mats v <> [] -> descending (v_mats v) -> y0 <= y1 <= y2 -> y2 <= g_ext_h (v_geom v) ->
  strip_weight v b y2 y0 = strip_weight v b y2 y1 + strip_weight v b y1 y0.
Proof.
  intros N S Y T. destruct (unit_weight_exists _ N S) as (uw & U).
  destruct (strip_weight_spec v b y1 y2 uw) as (P & ->); auto; try lra.
  destruct (strip_weight_spec v b y0 y1 uw) as (Q & ->); auto; try lra.
  destruct (strip_weight_spec v b y0 y2 uw) as (Z & ->); auto; try lra.
  rewrite <- (RiemannInt_P26 Q P Z). ring.
Qed.
Lemma strip_weight_empty (v : view R) b y :
  v_mats v <> [] -> descending (v_mats v) -> y <= g_ext_h (v_geom v) ->
  strip_weight v b y y = 0.
Proof.
  intros N S T. destruct (unit_weight_exists _ N S) as (uw & U).
  destruct (strip_weight_spec v b y y uw) as (P & ->); auto; try lra.
  rewrite RiemannInt_P9. ring.
Qed.
Lemma strip_weight_bounds (v : view R) b yb yt lo hi :
  v_mats v <> [] -> descending (v_mats v) -> yb <= yt <= g_ext_h (v_geom v) -> 0 <= b ->
  (forall rl m, In (rl, m) (v_mats v) -> lo <= m_unit_weight m <= hi) ->
  lo * (b * (yt - yb)) <= strip_weight v b yt yb <= hi * (b * (yt - yb)).
Proof.
  intros N S Y B H. destruct (unit_weight_exists _ N S) as (uw & U).
  destruct (strip_weight_spec v b yb yt uw) as (P & ->); auto.
  assert (K : forall y, lo <= uw y <= hi).
  { intros y. destruct (layer_at_exists (v_mats v) y N) as (m & A). rewrite (U y m A).
    destruct (layer_at_In _ _ _ A) as (rl & I). eauto. }
  assert (A1 : RiemannInt (RiemannInt_P14 yb yt lo) <= RiemannInt P).
  { apply RiemannInt_P19; [tauto|]. intros x _. apply K. }
  assert (A2 : RiemannInt P <= RiemannInt (RiemannInt_P14 yb yt hi)).
  { apply RiemannInt_P19; [tauto|]. intros x _. apply K. }
  rewrite (RiemannInt_P15 (RiemannInt_P14 yb yt lo)) in A1.
  rewrite (RiemannInt_P15 (RiemannInt_P14 yb yt hi)) in A2.
  split; nra.
Qed.
