(** * SliceLimit: the sums over the slices of a circle when there are more and more of
    them, loads included (C92, C93). *)
From Coq Require Import ZArith Reals RList Lra Lia List Bool.
From Verif Require Import Num Py Validation Utilities Objects Slope Planes Analysis
     RealNum RealFacts SliceFacts MidSum Tame.
Import ListNotations.
Local Open Scope R_scope.

(** ** Loads on the cell of width [w] around [x] *)
Definition strip_on (us : list (R * R * R)) (w x : R) : R :=
  rsum (map (udl_share (x - w / 2) (x + w / 2)) us).
Definition line_on (ls : list (R * R)) (w x : R) : R :=
  rsum (map (ll_share (x - w / 2) (x + w / 2)) ls).
(** Load per length at [x] *)
Definition strip_at (us : list (R * R * R)) (x : R) : R :=
  rsum (map (fun u => if Rle_dec (fst (fst u)) x then if Rlt_dec x (snd (fst u)) then snd u else 0 else 0) us).
(** Sum over the line loads between [a] and [b] *)
Definition line_sum (g : R -> R) (a b : R) (ls : list (R * R)) : R :=
  rsum (map (fun l => if Rle_dec a (fst l) then if Rlt_dec (fst l) b then snd l * g (fst l) else 0 else 0) ls).
Definition held (p w x : R) : R := ll_share (x - w / 2) (x + w / 2) (p, 1).

Lemma held_01 p w x : 0 <= held p w x <= 1.
Proof. unfold held, ll_share. cbn [fst snd]. destruct (Rle_dec _ _); [destruct (Rlt_dec _ _)|]; lra. Qed.
Lemma held_in p w x : x - w / 2 <= p -> p < x + w / 2 -> held p w x = 1.
Proof.
  intros A B. unfold held, ll_share. cbn [fst snd]. destruct (Rle_dec (x - w / 2) p); [|contradiction].
  destruct (Rlt_dec p (x + w / 2)); [reflexivity|contradiction].
Qed.
Lemma mid_edges xl w i : mid_of xl w i - w / 2 = edge_of xl w i /\ mid_of xl w i + w / 2 = edge_of xl w (i + 1).
Proof. unfold mid_of, edge_of. rewrite plus_IZR. split; lra. Qed.
Lemma cells_share (l : R * R) xl w n : 0 <= w ->
  cells (fun x => ll_share (x - w / 2) (x + w / 2) l) xl w n = ll_share xl (edge_of xl w (Z.of_nat n)) l.
Proof.
  intros W. unfold cells.
  rewrite <- (shares_add ll_share xl w l (fun a b c => ll_share_split a b c l) (fun a => ll_share_nil a l) W n).
  apply rsum_ext. intros i _. destruct (mid_edges xl w i) as (-> & ->). reflexivity.
Qed.
Lemma held_once p xl w n : 0 <= w -> 0 <= cells (held p w) xl w n <= 1.
Proof.
  intros W. unfold held. rewrite cells_share by assumption. unfold ll_share. cbn [fst snd].
  destruct (Rle_dec _ _); [destruct (Rlt_dec _ _)|]; lra.
Qed.

Lemma udl_cell u w x : 0 < w ->
  Rabs (udl_share (x - w / 2) (x + w / 2) u -
        w * (if Rle_dec (fst (fst u)) x then if Rlt_dec x (snd (fst u)) then snd u else 0 else 0)) <=
  Rabs (snd u) * w * (held (fst (fst u)) w x + held (snd (fst u)) w x).
Proof.
  intros W. destruct u as [[l r] m]. cbn [fst snd]. unfold udl_share. cbn [fst snd].
  set (ov := Rmax 0 (Rmin (x + w / 2) r - Rmax (x - w / 2) l)).
  set (k := if Rle_dec l x then if Rlt_dec x r then 1 else 0 else 0).
  replace (m * ov - w * (if Rle_dec l x then if Rlt_dec x r then m else 0 else 0)) with (m * (ov - w * k))
    by (unfold k; destruct (Rle_dec l x); [destruct (Rlt_dec x r)|]; ring).
  rewrite Rabs_mult, !Rmult_assoc. apply Rmult_le_compat_l; [apply Rabs_pos|].
  assert (O : 0 <= ov <= w) by (unfold ov; clear - W; unfold Rmax, Rmin; repeat destruct (Rle_dec _ _); lra).
  assert (K : 0 <= w * k <= w) by (unfold k; destruct (Rle_dec l x); [destruct (Rlt_dec x r)|]; lra).
  assert (B : Rabs (ov - w * k) <= w) by (apply Rabs_le; lra).
  destruct (Rle_dec (x - w / 2) l) as [A1|A1]; [destruct (Rlt_dec l (x + w / 2)) as [A2|A2]|].
  - assert (held l w x = 1) by (now apply held_in).
    pose proof (held_01 r w x). nra.
  - replace (ov - w * k) with 0; [rewrite Rabs_R0; pose proof (held_01 l w x); pose proof (held_01 r w x); nra|].
    unfold ov, k. destruct (Rle_dec l x); [lra|]. unfold Rmax, Rmin; repeat destruct (Rle_dec _ _); lra.
  - destruct (Rle_dec (x - w / 2) r) as [B1|B1]; [destruct (Rlt_dec r (x + w / 2)) as [B2|B2]|].
    + assert (held r w x = 1) by (now apply held_in).
      pose proof (held_01 l w x). nra.
    + replace (ov - w * k) with 0; [rewrite Rabs_R0; pose proof (held_01 l w x); pose proof (held_01 r w x); nra|].
      unfold ov, k. destruct (Rle_dec l x); [|lra]. destruct (Rlt_dec x r); [|lra]. unfold Rmax, Rmin; repeat destruct (Rle_dec _ _); lra.
    + replace (ov - w * k) with 0; [rewrite Rabs_R0; pose proof (held_01 l w x); pose proof (held_01 r w x); nra|].
      unfold ov, k. destruct (Rle_dec l x); [|lra]. destruct (Rlt_dec x r); [lra|]. unfold Rmax, Rmin; repeat destruct (Rle_dec _ _); lra.
Qed.
Lemma strips_near us : exists K, 0 <= K /\ forall xl w n, 0 < w ->
  cells (fun x => Rabs (strip_on us w x - w * strip_at us x)) xl w n <= K * w.
Proof.
  induction us as [|u us (K & K0 & IH)].
  - exists 0. split; [lra|]. intros xl w n W. erewrite (cells_ext _ (fun x => 0 * 0)).
    + rewrite cells_scale. lra.
    + intros i _. unfold strip_on, strip_at. cbn. rewrite Rmult_0_r, Rminus_0_r, Rabs_R0. ring.
  - exists (K + 2 * Rabs (snd u)). pose proof (Rabs_pos (snd u)) as P. split; [lra|]. intros xl w n W.
    specialize (IH xl w n W). pose proof (held_once (fst (fst u)) xl w n ltac:(lra)) as H1.
    pose proof (held_once (snd (fst u)) xl w n ltac:(lra)) as H2.
    apply Rle_trans with (cells (fun x => Rabs (snd u) * w * (held (fst (fst u)) w x + held (snd (fst u)) w x) +
                                          Rabs (strip_on us w x - w * strip_at us x)) xl w n).
    + apply cells_le. intros i _. set (x := mid_of xl w (Z.of_nat i)).
      pose proof (udl_cell u w x W) as Q. unfold strip_on, strip_at in *. cbn [map rsum].
      match goal with |- Rabs (?A + ?B - w * (?C + ?D)) <= _ =>
        replace (A + B - w * (C + D)) with ((A - w * C) + (B - w * D)) by ring end.
      eapply Rle_trans; [apply Rabs_triang|]. lra.
    + rewrite cells_plus, cells_scale, cells_plus.
      assert (0 <= Rabs (snd u) * w) by (apply Rmult_le_pos; lra). nra.
Qed.

Section Cut.
  Context (a b : R) (AB : a < b).
  Notation wd n := ((b - a) / INR (S n)).
  Lemma wd_pos n : 0 < wd n.
  Proof. apply width_pos; [assumption|lia]. Qed.
  Lemma last_edge n : edge_of a (wd n) (Z.of_nat (S n)) = b.
  Proof. unfold edge_of. rewrite <- INR_IZR_INZ, width_all by (auto; lia). lra. Qed.

  (** a line load: only the slice that holds it counts *)
  Lemma line_cv g l : (a < fst l < b -> continuity_pt g (fst l)) -> fst l <> a ->
    Un_cv (fun n => cells (fun x => ll_share (x - wd n / 2) (x + wd n / 2) l * g x) a (wd n) (S n))
          (if Rle_dec a (fst l) then if Rlt_dec (fst l) b then snd l * g (fst l) else 0 else 0).
  Proof.
    intros C NA. destruct l as [p P]. cbn [fst snd] in *.
    assert (OUT : p < a \/ b <= p -> forall n, cells (fun x => ll_share (x - wd n / 2) (x + wd n / 2) (p, P) * g x) a (wd n) (S n) = 0).
    { intros Q n. rewrite (cells_ext _ (fun x => 0 * 0)); [rewrite cells_scale; ring|].
      intros i I. pose proof (wd_pos n) as W. pose proof (last_edge n) as E. unfold edge_of in E. rewrite <- INR_IZR_INZ in E.
      set (w := wd n) in *. pose proof (pos_INR i). assert (INR i + 1 <= INR (S n)) by (rewrite <- S_INR; apply le_INR; lia).
      unfold ll_share, mid_of. rewrite <- INR_IZR_INZ. cbn [fst snd]. destruct (Rle_dec _ _); [|ring].
      destruct (Rlt_dec _ _); [|ring]. exfalso. destruct Q; nra. }
    destruct (Rle_dec a p) as [L|L]; [destruct (Rlt_dec p b) as [L'|L']|].
    - assert (I : a < p < b) by lra. specialize (C I). intros e E.
      destruct (C (e / (Rabs P + 1)) ltac:(pose proof (Rabs_pos P); apply Rdiv_lt_0_compat; lra)) as (d & D & N).
      destruct (cell_width_cv a b AB d ltac:(lra)) as (M & Q). exists M. intros n G. specialize (Q n G).
      unfold R_dist in *. rewrite Rminus_0_r in Q. pose proof (wd_pos n) as W. rewrite Rabs_right in Q by lra.
      set (w := wd n) in *.
      assert (T : cells (fun x => ll_share (x - w / 2) (x + w / 2) (p, P)) a w (S n) = P).
      { rewrite cells_share by lra. fold w. replace (edge_of a w (Z.of_nat (S n))) with b by (symmetry; apply last_edge).
        unfold ll_share. cbn [fst snd]. destruct (Rle_dec a p); [|lra]. destruct (Rlt_dec p b); lra. }
      replace (P * g p) with (g p * P) by ring. rewrite <- T at 1. rewrite <- cells_scale.
      match goal with |- Rabs (?A - ?B) < _ => replace (A - B) with (A + -1 * B) by ring end.
      rewrite <- cells_scale, <- cells_plus.
      eapply Rle_lt_trans; [apply cells_abs|].
      apply Rle_lt_trans with (cells (fun x => Rabs P * (e / (Rabs P + 1)) * held p w x) a w (S n)).
      + apply cells_le. intros i _. set (x := mid_of a w (Z.of_nat i)). unfold held, ll_share. cbn [fst snd].
        destruct (Rle_dec (x - w / 2) p); [destruct (Rlt_dec p (x + w / 2))|].
        * replace (P * g x + -1 * (g p * P)) with (P * (g x - g p)) by ring. rewrite Rabs_mult, Rmult_1_r.
          apply Rmult_le_compat_l; [apply Rabs_pos|]. destruct (Req_dec x p) as [->|Nx].
          { rewrite Rminus_diag_eq, Rabs_R0 by reflexivity. pose proof (Rabs_pos P). left. apply Rdiv_lt_0_compat; lra. }
          left. apply (N x). split; [split; [exact Logic.I|congruence]|]. cbn. unfold R_dist.
          apply Rabs_def1; lra.
        * rewrite Rmult_0_l, Rmult_0_r, Rmult_0_r, Rmult_0_r, Rplus_0_r, Rabs_R0. lra.
        * rewrite Rmult_0_l, Rmult_0_r, Rmult_0_r, Rmult_0_r, Rplus_0_r, Rabs_R0. lra.
      + rewrite cells_scale. pose proof (held_once p a w (S n) ltac:(lra)) as HO. pose proof (Rabs_pos P).
        assert (Z : Rabs P * (e / (Rabs P + 1)) < e).
        { apply Rmult_lt_reg_r with (Rabs P + 1); [lra|]. field_simplify; [|lra]. nra. }
        assert (0 <= Rabs P * (e / (Rabs P + 1))).
        { apply Rmult_le_pos; [lra|]. left. apply Rdiv_lt_0_compat; lra. }
        nra.
    - intros e E. exists 0%nat. intros n _. rewrite OUT by lra. unfold R_dist. rewrite Rminus_0_r, Rabs_R0. exact E.
    - intros e E. exists 0%nat. intros n _. rewrite OUT by lra. unfold R_dist. rewrite Rminus_0_r, Rabs_R0. exact E.
  Qed.
  Lemma lines_cv g ls : (forall l, In l ls -> fst l <> a /\ (a < fst l < b -> continuity_pt g (fst l))) ->
    Un_cv (fun n => cells (fun x => line_on ls (wd n) x * g x) a (wd n) (S n)) (line_sum g a b ls).
  Proof.
    unfold line_on, line_sum. induction ls as [|l ls IH]; intros C.
    - intros e E. exists 0%nat. intros n _. rewrite (cells_ext _ (fun x => 0 * 0)) by (intros; cbn; ring).
      rewrite cells_scale, Rmult_0_l. cbn. unfold R_dist. rewrite Rminus_0_r, Rabs_R0. exact E.
    - cbn [map rsum]. destruct (C l (or_introl eq_refl)) as (C1 & C2).
      specialize (IH (fun k K => C k (or_intror K))).
      pose proof (CV_plus _ _ _ _ (line_cv g l C2 C1) IH) as P.
      intros e E. destruct (P e E) as (N & Q). exists N. intros n G. specialize (Q n G). cbv beta in Q.
      rewrite <- cells_plus in Q. erewrite cells_ext; [exact Q|]. intros i _. cbn. ring.
  Qed.

  (** Sums that vanish with the width *)
  Lemma small_cv (s : nat -> R) K : (forall n, Rabs (s n) <= K * wd n) -> Un_cv s 0.
  Proof.
    intros B e E. assert (K0 : 0 <= K).
    { pose proof (B 0%nat). pose proof (Rabs_pos (s 0%nat)). pose proof (wd_pos 0). nra. }
    destruct (cell_width_cv a b AB (e / (K + 1)) ltac:(apply Rdiv_lt_0_compat; lra)) as (N & L). exists N. intros n G.
    specialize (L n G). unfold R_dist in *. rewrite Rminus_0_r in *. pose proof (wd_pos n) as W.
    rewrite Rabs_right in L by lra. eapply Rle_lt_trans; [apply B|].
    apply Rmult_lt_compat_r with (r := K + 1) in L; [|lra].
    replace (e / (K + 1) * (K + 1)) with e in L by (field; lra). nra.
  Qed.
  Lemma cv_ext (s t : nat -> R) l : (forall n, s n = t n) -> Un_cv s l -> Un_cv t l.
  Proof. intros E C e P. destruct (C e P) as (N & Q). exists N. intros n G. rewrite <- E. auto. Qed.

  (** what the code adds up when every load contributes [g] times its size; [h] already
      has the strip loads *)
  Definition cut_sum (h g : R -> R) (us : list (R * R * R)) (ls : list (R * R)) (w : R) (n : nat) : R :=
    cells (fun x => w * h x + (strip_on us w x - w * strip_at us x + line_on ls w x) * g x) a w n.
  Theorem cut_cv h g us ls B (pr : Riemann_integrable h a b) :
    (forall x, a < x < b -> Rabs (g x) <= B) ->
    (forall l, In l ls -> fst l <> a /\ (a < fst l < b -> continuity_pt g (fst l))) ->
    Un_cv (fun n => cut_sum h g us ls (wd n) (S n)) (RiemannInt pr + line_sum g a b ls).
  Proof.
    intros GB C.
    pose proof (mid_converges a b AB _ pr) as P1. pose proof (lines_cv g ls C) as P2.
    destruct (strips_near us) as (K & K0 & SN).
    assert (P3 : Un_cv (fun n => cells (fun x => (strip_on us (wd n) x - wd n * strip_at us x) * g x) a (wd n) (S n)) 0).
    { apply small_cv with (Rabs B * K). intros n. pose proof (wd_pos n) as W. specialize (SN a (wd n) (S n) W).
      eapply Rle_trans; [apply cells_abs|].
      apply Rle_trans with (cells (fun x => Rabs B * Rabs (strip_on us (wd n) x - wd n * strip_at us x)) a (wd n) (S n)).
      - apply cells_le. intros i I. rewrite Rabs_mult, Rmult_comm. apply Rmult_le_compat_r; [apply Rabs_pos|].
        eapply Rle_trans; [apply GB; apply MidSum.mid_between; auto|]. apply RRle_abs.
      - rewrite cells_scale, Rmult_assoc. apply Rmult_le_compat_l; [apply Rabs_pos|exact SN]. }
    pose proof (CV_plus _ _ _ _ P1 (CV_plus _ _ _ _ P2 P3)) as P. rewrite Rplus_0_r in P.
    revert P. apply cv_ext. intros n. cbv beta. unfold midsum, cut_sum. rewrite <- cells_scale, <- !cells_plus.
    apply cells_ext. intros i _. ring.
  Qed.
End Cut.
