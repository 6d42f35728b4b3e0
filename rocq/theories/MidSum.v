(** * MidSum: sums over the middles of equal cells, and the integral they approach.
    Used for what happens when a circle is cut into more slices (C92, C93). *)
From Coq Require Import ZArith Reals RList Lra Lia List Bool.
From Verif Require Import Num Py Validation Utilities Objects Slope Planes Analysis
     RealNum RealFacts SliceFacts.
Import ListNotations.
Local Open Scope R_scope.

(** Sum of [f] over the middles of the first [k] cells of width [w] right of [xl] *)
Definition cells (f : R -> R) (xl w : R) (k : nat) : R :=
  rsum (map (fun i => f (mid_of xl w i)) (zrange 0 k)).
(** The midpoint rule with [n] cells between [a] and [b] *)
Definition midsum (f : R -> R) (a b : R) (n : nat) : R :=
  (b - a) / INR n * cells f a ((b - a) / INR n) n.

Lemma cells_S f xl w k : cells f xl w (S k) = cells f xl w k + f (mid_of xl w (Z.of_nat k)).
Proof. unfold cells. rewrite zrange_snoc, map_app, rsum_app. cbn. replace (0 + Z.of_nat k)%Z with (Z.of_nat k) by lia. ring. Qed.
Lemma cells_ext f g xl w k : (forall i, (i < k)%nat -> f (mid_of xl w (Z.of_nat i)) = g (mid_of xl w (Z.of_nat i))) ->
  cells f xl w k = cells g xl w k.
Proof. induction k as [|k IH]; intros E; [reflexivity|]. rewrite !cells_S, IH, E; auto. Qed.
Lemma cells_le f g xl w k : (forall i, (i < k)%nat -> f (mid_of xl w (Z.of_nat i)) <= g (mid_of xl w (Z.of_nat i))) ->
  cells f xl w k <= cells g xl w k.
Proof.
  induction k as [|k IH]; intros E; [unfold cells; cbn; lra|]. rewrite !cells_S.
  apply Rplus_le_compat; auto.
Qed.
Lemma cells_plus f g xl w k : cells (fun x => f x + g x) xl w k = cells f xl w k + cells g xl w k.
Proof. induction k as [|k IH]; [unfold cells; cbn; ring|]. rewrite !cells_S, IH. ring. Qed.
Lemma cells_scale c f xl w k : cells (fun x => c * f x) xl w k = c * cells f xl w k.
Proof. induction k as [|k IH]; [unfold cells; cbn; ring|]. rewrite !cells_S, IH. ring. Qed.
Lemma cells_abs f xl w k : Rabs (cells f xl w k) <= cells (fun x => Rabs (f x)) xl w k.
Proof.
  induction k as [|k IH]; [unfold cells; cbn; rewrite Rabs_R0; lra|]. rewrite !cells_S.
  eapply Rle_trans; [apply Rabs_triang|lra].
Qed.

(** ** Counting the middles left of a point *)
Definition left_of (d x : R) : R := if Rlt_dec x d then 1 else 0.
Definition cnt (d xl w : R) (k : nat) : R := cells (left_of d) xl w k.
Lemma cnt_all d xl w k : 0 < w -> INR k * w <= d - xl -> cnt d xl w k = INR k.
Proof.
  intros W. unfold cnt. induction k as [|k IH]; intros L; [reflexivity|]. rewrite cells_S, S_INR in *.
  rewrite IH by nra. unfold left_of, mid_of. rewrite <- INR_IZR_INZ.
  destruct (Rlt_dec _ d) as [|N]; [lra|]. exfalso. apply N. nra.
Qed.
Lemma cnt_near d xl w k : 0 < w -> xl <= d ->
  Rabs (w * cnt d xl w k - Rmin (d - xl) (INR k * w)) <= w / 2.
Proof.
  intros W L. induction k as [|k IH].
  { unfold cnt, cells. cbn. rewrite Rmult_0_r, Rmult_0_l, Rmin_right by lra. rewrite Rminus_0_r, Rabs_R0. lra. }
  unfold cnt in *. rewrite cells_S, S_INR. unfold left_of at 2, mid_of. rewrite <- INR_IZR_INZ.
  destruct (Rle_dec (INR k * w) (d - xl)) as [C|C].
  - fold (cnt d xl w k). rewrite (cnt_all d xl w k W C). rewrite Rmult_plus_distr_l.
    destruct (Rlt_dec _ d) as [Q|Q].
    + destruct (Rle_dec (d - xl) ((INR k + 1) * w)) as [Z|Z].
      * rewrite Rmin_left by lra. apply Rabs_le. nra.
      * rewrite Rmin_right by lra. apply Rabs_le. nra.
    + rewrite Rmin_left by nra. apply Rabs_le. nra.
  - destruct (Rlt_dec _ d) as [Q|Q]; [exfalso; nra|]. rewrite Rplus_0_r.
    rewrite Rmin_left in * by nra. exact IH.
Qed.

(** ** Step functions *)
(** Constant pieces between consecutive points *)
Inductive pieces (f : R -> R) : list R -> list R -> Prop :=
| pieces_one c : pieces f [c] []
| pieces_cons c d l v lf : c <= d -> (forall x, c < x < d -> f x = v) ->
    pieces f (d :: l) lf -> pieces f (c :: d :: l) (v :: lf).
Lemma adapted_pieces f : forall l lf a b, adapted_couple f a b l lf -> pieces f l lf.
Proof.
  intros l lf a b (O & _ & _ & L & C). clear a b. revert lf L O C.
  induction l as [|c l IH]; intros lf L O C; [discriminate|].
  destruct l as [|d l].
  - destruct lf; [constructor|discriminate].
  - destruct lf as [|v lf]; [discriminate|]. constructor.
    + apply (O 0%nat). cbn. lia.
    + intros x X. apply (C 0%nat); [cbn; lia|exact X].
    + apply IH.
      * cbn in *. lia.
      * intros i I. apply (O (S i)). cbn in *. lia.
      * intros i I. apply (C (S i)). cbn in *. lia.
Qed.
(** The part of [f] between [c] and [d] *)
Definition between (c d : R) (f : R -> R) (x : R) : R := if Rle_dec c x then if Rlt_dec x d then f x else 0 else 0.

Lemma piece_near f c d v xl w k : 0 < w -> xl <= c <= d -> d <= xl + INR k * w ->
  (forall x, c < x < d -> f x = v) ->
  Rabs (w * cells (between c d f) xl w k - v * (d - c)) <= (2 * Rabs v + Rabs (f c)) * w.
Proof.
  intros W L D C.
  (* all middles but those on c itself *)
  assert (P : Rabs (cells (between c d f) xl w k - v * (cnt d xl w k - cnt c xl w k))
              <= (Rabs (f c) + Rabs v) * cells (fun x => if Req_EM_T x c then 1 else 0) xl w k).
  { unfold cnt. clear D. induction k as [|k IH]; [unfold cells; cbn; rewrite Rminus_0_r, Rmult_0_r, Rminus_0_r, Rabs_R0, Rmult_0_r; lra|].
    rewrite !cells_S. set (x := mid_of xl w (Z.of_nat k)).
    assert (Q : Rabs (between c d f x - v * (left_of d x - left_of c x)) <=
                (Rabs (f c) + Rabs v) * (if Req_EM_T x c then 1 else 0)).
    { unfold between, left_of. destruct (Req_EM_T x c) as [->|N].
      - destruct (Rle_dec c c); [|lra]. destruct (Rlt_dec c c); [lra|]. destruct (Rlt_dec c d).
        + rewrite Rmult_1_r. replace (f c - v * (1 - 0)) with (f c + - v) by ring.
          eapply Rle_trans; [apply Rabs_triang|]. rewrite Rabs_Ropp. lra.
        + replace (0 - v * (0 - 0)) with 0 by ring. rewrite Rabs_R0.
          pose proof (Rabs_pos (f c)). pose proof (Rabs_pos v). lra.
      - rewrite Rmult_0_r. destruct (Rle_dec c x).
        + destruct (Rlt_dec x c); [lra|]. destruct (Rlt_dec x d).
          * rewrite (C x) by lra. replace (v - v * (1 - 0)) with 0 by ring. rewrite Rabs_R0. lra.
          * replace (0 - v * (0 - 0)) with 0 by ring. rewrite Rabs_R0. lra.
        + destruct (Rlt_dec x c); [|lra]. destruct (Rlt_dec x d); [|lra].
          replace (0 - v * (1 - 1)) with 0 by ring. rewrite Rabs_R0. lra. }
    match goal with |- Rabs ?A <= _ =>
      replace A with ((cells (between c d f) xl w k - v * (cells (left_of d) xl w k - cells (left_of c) xl w k)) +
        (between c d f x - v * (left_of d x - left_of c x))) by ring end.
    eapply Rle_trans; [apply Rabs_triang|]. rewrite Rmult_plus_distr_l. lra. }
  (* at most one middle is [c] *)
  assert (O : cells (fun x => if Req_EM_T x c then 1 else 0) xl w k <= 1).
  { clear - W. assert (Q : forall k, (exists i, (i < k)%nat /\ mid_of xl w (Z.of_nat i) = c) \/
      cells (fun x => if Req_EM_T x c then 1 else 0) xl w k = 0).
    { intros n. induction n as [|n IH]; [right; reflexivity|]. destruct IH as [(i & I & Q)|Q].
      - left. exists i. split; [lia|exact Q].
      - rewrite cells_S, Q. destruct (Req_EM_T _ c) as [Z|Z]; [left; exists n; split; [lia|exact Z]|right; ring]. }
    induction k as [|k IH]; [unfold cells; cbn; lra|]. rewrite cells_S.
    destruct (Req_EM_T _ c) as [Z|Z]; [|lra].
    destruct (Q k) as [(i & I & E)|E]; [|lra]. exfalso. unfold mid_of in *. rewrite <- !INR_IZR_INZ in *.
    apply lt_INR in I. nra. }
  assert (N : Rabs (w * (cnt d xl w k - cnt c xl w k) - (d - c)) <= w).
  { pose proof (cnt_near d xl w k W ltac:(lra)) as A. pose proof (cnt_near c xl w k W ltac:(lra)) as B.
    rewrite Rmin_left in A, B by lra.
    replace (w * (cnt d xl w k - cnt c xl w k) - (d - c)) with
      ((w * cnt d xl w k - (d - xl)) + - (w * cnt c xl w k - (c - xl))) by ring.
    eapply Rle_trans; [apply Rabs_triang|]. rewrite Rabs_Ropp. lra. }
  set (n := cnt d xl w k - cnt c xl w k) in *. set (m := cells (between c d f) xl w k) in *.
  replace (w * m - v * (d - c)) with (w * (m - v * n) + v * (w * n - (d - c))) by ring.
  eapply Rle_trans; [apply Rabs_triang|]. rewrite !Rabs_mult, (Rabs_right w) by lra.
  pose proof (Rabs_pos (f c)). pose proof (Rabs_pos v). pose proof (Rabs_pos (m - v * n)).
  assert (w * Rabs (m - v * n) <= w * (Rabs (f c) + Rabs v)).
  { apply Rmult_le_compat_l; [lra|]. nra. }
  assert (Rabs v * Rabs (w * n - (d - c)) <= Rabs v * w) by (apply Rmult_le_compat_l; lra).
  nra.
Qed.

Lemma pieces_near f l lf : pieces f l lf -> exists K, 0 <= K /\ forall xl w k, 0 < w ->
  xl <= hd 0 l -> last l 0 <= xl + INR k * w ->
  Rabs (w * cells (between (hd 0 l) (last l 0) f) xl w k - Int_SF lf l) <= K * w.
Proof.
  induction 1 as [c|c d l v lf L C P (K & K0 & IH)].
  - exists 0. split; [lra|]. intros xl w k W _ _. cbn [hd last Int_SF].
    assert (Z : cells (between c c f) xl w k = 0).
    { induction k as [|k IH]; [reflexivity|]. rewrite cells_S, IH. unfold between.
      destruct (Rle_dec _ _); [|ring]. destruct (Rlt_dec _ _); [lra|ring]. }
    rewrite Z, Rmult_0_r, Rminus_0_r, Rabs_R0. lra.
  - assert (M : d <= last (d :: l) 0).
    { clear - P. revert lf P. generalize d. induction l as [|e l IH]; intros x lf P; [cbn; lra|].
      inversion P; subst. change (last (x :: e :: l) 0) with (last (e :: l) 0).
      eapply Rle_trans; [|eapply IH; eauto]. assumption. }
    exists (K + (2 * Rabs v + Rabs (f c))).
    split; [pose proof (Rabs_pos (f c)); pose proof (Rabs_pos v); lra|].
    intros xl w k W A B. change (last (c :: d :: l) 0) with (last (d :: l) 0) in *.
    set (e := last (d :: l) 0) in *. cbn [hd] in *.
    assert (E : cells (between c e f) xl w k = cells (between c d f) xl w k + cells (between d e f) xl w k).
    { rewrite <- cells_plus. apply cells_ext. intros i _. set (x := mid_of xl w (Z.of_nat i)). unfold between.
      destruct (Rle_dec c x), (Rle_dec d x), (Rlt_dec x d), (Rlt_dec x e); try lra. }
    change (Int_SF (v :: lf) (c :: d :: l)) with (v * (d - c) + Int_SF lf (d :: l)).
    rewrite E. specialize (IH xl w k W ltac:(lra) B).
    pose proof (piece_near f c d v xl w k W ltac:(lra) ltac:(lra) C) as Q.
    match goal with |- Rabs ?X <= _ => replace X with ((w * cells (between d e f) xl w k - Int_SF lf (d :: l)) +
      (w * cells (between c d f) xl w k - v * (d - c))) by ring end.
    eapply Rle_trans; [apply Rabs_triang|]. lra.
Qed.

Lemma last_pos (l : list R) : l <> [] -> last l 0 = pos_Rl l (pred (length l)).
Proof.
  induction l as [|x l IH]; intros N; [congruence|]. destruct l as [|y l]; [reflexivity|].
  change (last (x :: y :: l) 0) with (last (y :: l) 0). rewrite IH by discriminate. reflexivity.
Qed.

Section Converge.
  Context (a b : R) (AB : a < b).
  Lemma width_pos n : (0 < n)%nat -> 0 < (b - a) / INR n.
  Proof. intros N. apply Rdiv_lt_0_compat; [lra|]. now apply lt_0_INR. Qed.
  Lemma width_all n : (0 < n)%nat -> INR n * ((b - a) / INR n) = b - a.
  Proof. intros N. field. apply lt_0_INR in N. lra. Qed.
  Lemma mid_between n i : (i < n)%nat -> a < mid_of a ((b - a) / INR n) (Z.of_nat i) < b.
  Proof.
    intros I. pose proof (width_pos n ltac:(lia)) as W. pose proof (width_all n ltac:(lia)) as E.
    unfold mid_of. rewrite <- INR_IZR_INZ. pose proof (pos_INR i).
    assert (INR i + 1 <= INR n) by (rewrite <- S_INR; apply le_INR; lia). split; nra.
  Qed.
  Lemma cell_width_cv : Un_cv (fun n => (b - a) / INR (S n)) 0.
  Proof.
    intros e E. destruct (archimed_cor1 (e / (b - a)) ltac:(apply Rdiv_lt_0_compat; lra)) as (N & L & P).
    exists N. intros n G. unfold R_dist. rewrite Rminus_0_r.
    pose proof (width_pos (S n) ltac:(lia)). rewrite Rabs_right by lra.
    assert (Q : / INR (S n) <= / INR N).
    { apply Rinv_le_contravar; [now apply lt_0_INR|]. apply le_INR. lia. }
    unfold Rdiv at 1. apply Rle_lt_trans with ((b - a) * / INR N).
    - apply Rmult_le_compat_l; lra.
    - apply Rmult_lt_reg_r with (/ (b - a)); [apply Rinv_0_lt_compat; lra|].
      replace ((b - a) * / INR N * / (b - a)) with (/ INR N) by (field; split; [lra|]; apply lt_0_INR in P; lra).
      exact L.
  Qed.

  Lemma step_near (f : StepFun a b) : exists K, 0 <= K /\ forall n, (0 < n)%nat ->
    Rabs (midsum f a b n - RiemannInt_SF f) <= K * ((b - a) / INR n).
  Proof.
    unfold RiemannInt_SF. destruct (Rle_dec a b) as [L|]; [|lra].
    unfold subdivision, subdivision_val. destruct (pre f) as (l & lf & AD). cbn [projT1 projT2].
    destruct (pieces_near f l lf (adapted_pieces _ _ _ _ _ AD)) as (K & K0 & H). exists K. split; auto.
    intros n N. pose proof (width_pos n N) as W. pose proof (width_all n N) as E.
    destruct AD as (_ & A & B & LL & _). rewrite Rmin_left in A by lra. rewrite Rmax_right in B by lra.
    assert (NE : l <> []) by (destruct l; discriminate).
    assert (HD : hd 0 l = a) by (destruct l; [congruence|exact A]).
    rewrite <- last_pos in B by assumption.
    specialize (H a _ n W ltac:(lra) ltac:(lra)). rewrite HD, B in H.
    unfold midsum. erewrite cells_ext; [exact H|].
    intros i I. pose proof (mid_between n i I). unfold between.
    destruct (Rle_dec _ _); [|lra]. destruct (Rlt_dec _ _); [reflexivity|lra].
  Qed.
  Lemma step_cv (f : StepFun a b) : Un_cv (fun n => midsum f a b (S n)) (RiemannInt_SF f).
  Proof.
    destruct (step_near f) as (K & K0 & H). intros e E.
    destruct (cell_width_cv (e / (K + 1)) ltac:(apply Rdiv_lt_0_compat; lra)) as (N & L). exists N. intros n G.
    specialize (L n G). unfold R_dist in *. rewrite Rminus_0_r in L.
    pose proof (width_pos (S n) ltac:(lia)) as W. rewrite Rabs_right in L by lra.
    eapply Rle_lt_trans; [apply H; lia|].
    apply Rmult_lt_compat_r with (r := K + 1) in L; [|lra].
    replace (e / (K + 1) * (K + 1)) with e in L by (field; lra). nra.
  Qed.

  (** ** Every function with an integral *)
  Theorem mid_converges f (pr : Riemann_integrable f a b) :
    Un_cv (fun n => midsum f a b (S n)) (RiemannInt pr).
  Proof.
    intros e E. unfold RiemannInt. destruct (RiemannInt_exists pr RinvN RinvN_cv) as (I & CV).
    destruct (CV (e / 4) ltac:(lra)) as (N1 & C1). assert (CR : Un_cv RinvN 0) by apply RinvN_cv.
    destruct (CR (e / 4) ltac:(lra)) as (N2 & C2).
    set (k := max N1 N2). specialize (C1 k ltac:(lia)). specialize (C2 k ltac:(lia)).
    destruct (phi_sequence_prop RinvN pr k) as (psi & BD & SM). set (phi := phi_sequence RinvN pr k) in *.
    unfold R_dist in C2. rewrite Rminus_0_r, Rabs_right in C2 by (left; apply RinvN_pos).
    destruct (step_cv phi (e / 4) ltac:(lra)) as (N3 & C3). destruct (step_cv psi (e / 4) ltac:(lra)) as (N4 & C4).
    exists (max N3 N4). intros n G. specialize (C3 n ltac:(lia)). specialize (C4 n ltac:(lia)).
    assert (D : Rabs (midsum f a b (S n) - midsum phi a b (S n)) <= midsum psi a b (S n)).
    { unfold midsum. pose proof (width_pos (S n) ltac:(lia)) as W. set (w := (b - a) / INR (S n)) in *.
      replace (w * cells f a w (S n) - w * cells phi a w (S n)) with (w * cells (fun x => f x + -1 * phi x) a w (S n)).
      2:{ rewrite cells_plus, cells_scale. ring. }
      rewrite Rabs_mult, (Rabs_right w) by lra. apply Rmult_le_compat_l; [lra|].
      eapply Rle_trans; [apply cells_abs|]. apply cells_le. intros i L.
      pose proof (mid_between (S n) i L). fold w in H. replace (f _ + -1 * _) with
        (f (mid_of a w (Z.of_nat i)) - phi (mid_of a w (Z.of_nat i))) by ring.
      apply BD. rewrite Rmin_left, Rmax_right by lra. lra. }
    unfold R_dist in *.
    replace (midsum f a b (S n) - I) with ((midsum f a b (S n) - midsum phi a b (S n)) +
      ((midsum phi a b (S n) - RiemannInt_SF phi) + (RiemannInt_SF phi - I))) by ring.
    eapply Rle_lt_trans; [apply Rabs_triang|].
    pose proof (Rabs_triang (midsum phi a b (S n) - RiemannInt_SF phi) (RiemannInt_SF phi - I)).
    apply Rabs_def2 in C4 as (C4 & _). apply Rabs_def2 in SM as (SM & _). cbn [RinvN] in *. 
    lra.
  Qed.
End Converge.
