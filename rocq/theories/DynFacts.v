(** * DynFacts: the search for the offset of dynamic loads (C18, C48-C51). *)
From Coq Require Import ZArith Reals Lra Lia List Bool String Permutation Sorted.
From Verif Require Import Num Py Validation Utilities Objects Slope Planes Analysis
     Dynamic Api RealNum RealFacts ListFacts MonadFacts SlopeFacts MaterialFacts KeepFacts
     Invariant History Spec EditFacts LayerFacts.
Import ListNotations.
Local Open Scope R_scope.

Section Dyn.
  Context {EN : Env}.
  Notation stR := (st R).

  (** ** The record of results *)
  Lemma dict_get_set (k v : R) d k' :
    dict_get k' (dict_set k v d) = if Reqb k k' then Ok v else dict_get k' d.
  Proof.
    induction d as [|[a b] d IH]; cbn [dict_set dict_get]; unR.
    - reflexivity.
    - destruct (Reqb a k) eqn:E; cbn [dict_get]; unR.
      + apply Reqb_true in E. subst a. destruct (Reqb k k'); reflexivity.
      + destruct (Reqb a k') eqn:E'; [|exact IH].
        destruct (Reqb k k') eqn:E2; [|reflexivity]. rbool. congruence.
  Qed.
  Lemma dict_keys_set (k v : R) d x : In x (map fst (dict_set k v d)) -> x = k \/ In x (map fst d).
  Proof.
    induction d as [|[a b] d IH]; cbn [dict_set map In fst].
    - intuition.
    - destruct (neqb a k); cbn [map In fst]; intuition.
  Qed.
  Lemma dict_get_keys (k v : R) d : dict_get k d = Ok v -> In (k, v) d.
  Proof.
    induction d as [|[a b] d IH]; cbn [dict_get]; [discriminate|]. unR.
    destruct (Reqb a k) eqn:E.
    - rbool. subst. intros Q; injection Q as <-. now left.
    - intros Q. right. auto.
  Qed.

  (** ** One trial *)
  Definition dyn (s : stR) := s_dynamic (snd s).
  Lemma dyn_set_udls l : keeps (same dyn) (set_udls l).
  Proof. unfold set_udls. untouched. Qed.
  Lemma dyn_set_lls l : keeps (same dyn) (set_lls l).
  Proof. unfold set_lls. untouched. Qed.
  Hint Resolve dyn_set_udls dyn_set_lls : keeps.
  Lemma dyn_remove_udls l a : keeps (same dyn) (remove_udls l a).
  Proof. unfold remove_udls. untouched. Qed.
  Lemma dyn_remove_lls l a : keeps (same dyn) (remove_lls l a).
  Proof. unfold remove_lls. untouched. Qed.
  Hint Resolve dyn_remove_udls dyn_remove_lls : keeps.
  Lemma dyn_set_dynamic_offset o : keeps (same dyn) (set_dynamic_offset o).
  Proof. unfold set_dynamic_offset. untouched. Qed.
  Lemma dyn_analyse m : keeps (same dyn) (analyse_slope m).
  Proof. unfold analyse_slope. untouched. Qed.

  Lemma try_offset_ok o (s : stR) f s' :
    try_offset o s = (Ok f, s') -> s_dynamic (snd s') = dict_set o f (s_dynamic (snd s)).
  Proof.
    unfold try_offset, mbind at 1. pose proof (dyn_set_dynamic_offset o s) as K1.
    destruct (set_dynamic_offset o s) as [[[]|e] s1]; [|discriminate].
    pose proof (dyn_analyse None s1) as K2. unfold mbind at 1.
    destruct (analyse_slope None s1) as [[[]|e] s2]; [|discriminate].
    unfold same, dyn in K1, K2. cbn [snd] in K1, K2.
    unfold mbind at 1. destruct (get_min_FOS (snd s2)) as [[g|]|e]; try discriminate.
    msteps. intros Q. injection Q as <- <-. cbn. congruence.
  Qed.

  (** ** Midpoints *)
  Lemma midpoint_between c l r lf rf m :
    rf <= crit_val c <= lf -> midpoint_of c l r lf rf = Ok m ->
    Rmin l r <= m <= Rmax l r.
  Proof.
    intros Hb. unfold midpoint_of, pydiv. unR.
    destruct (Reqb (l - r) 0) eqn:E1; [discriminate|]. cbn [rbind].
    destruct c as [c|c]; cbn [crit_sub rbind crit_val] in *; [|discriminate]. unR.
    destruct (Reqb ((lf - rf) / (l - r)) 0) eqn:E2; [discriminate|]. cbn [rbind].
    intros Q. injection Q as <-. rbool.
    assert (L : lf - rf <> 0).
    { intros Z. apply E2. rewrite Z. unfold Rdiv. apply Rmult_0_l. }
    set (q := (c - rf) / (lf - rf)).
    assert (Hq : 0 <= q <= 1).
    { unfold q. split.
      - apply Rmult_le_pos; [lra|]. apply Rlt_le, Rinv_0_lt_compat. lra.
      - apply (Rmult_le_reg_r (lf - rf)); [lra|]. unfold Rdiv.
        rewrite Rmult_assoc, Rinv_l by lra. lra. }
    replace ((c - rf) / ((lf - rf) / (l - r))) with (q * (l - r)).
    2:{ unfold q. field. split; [|exact L]. lra. }
    pose proof (Rmin_l l r). pose proof (Rmin_r l r).
    pose proof (Rmax_l l r). pose proof (Rmax_r l r).
    split.
    - replace (r + q * (l - r)) with (q * l + (1 - q) * r) by ring.
      apply Rle_trans with (q * Rmin l r + (1 - q) * Rmin l r); [lra|].
      apply Rplus_le_compat; apply Rmult_le_compat_l; lra.
    - replace (r + q * (l - r)) with (q * l + (1 - q) * r) by ring.
      apply Rle_trans with (q * Rmax l r + (1 - q) * Rmax l r); [|lra].
      apply Rplus_le_compat; apply Rmult_le_compat_l; lra.
  Qed.

  (** the two ends of the bracket have factors on either side *)
  Definition bracket (c : critical R) (l r : R) (s : stR) : Prop :=
    exists lf rf, dict_get l (s_dynamic (snd s)) = Ok lf /\
                  dict_get r (s_dynamic (snd s)) = Ok rf /\
                  (l = r \/ rf <= crit_val c <= lf).

  (** ** What holds for every trial holds for the search *)
  Section Search.
    Context (P : stR -> Prop) (lo hi : R).
    Context (P_rec : forall s d, P s -> P (fst s, set_s_dynamic d (snd s)))
            (P_try : forall o s, lo <= o <= hi -> P s -> P (snd (try_offset o s))).

    Lemma search_loop k : forall c l r p (s : stR),
      lo <= l <= hi -> lo <= r <= hi -> bracket c l r s ->
      P s -> P (snd (dynamic_loop k c l r p s)).
    Proof.
      induction k as [|k IH]; intros c l r p s Hl Hr (lf & rf & El & Er & Hb) Ps;
        cbn [dynamic_loop]; [exact Ps|].
      msteps. rewrite El. msteps. rewrite Er. msteps.
      destruct (midpoint_of c l r lf rf) as [m|e] eqn:Em; [|exact Ps]. msteps.
      destruct Hb as [->|Hb].
      { exfalso. revert Em. unfold midpoint_of, pydiv. unR.
        replace (r - r) with 0 by ring. destruct (Reqb 0 0) eqn:E; rbool; [discriminate|congruence]. }
      pose proof (midpoint_between _ _ _ _ _ _ Hb Em) as Hm.
      assert (Hm' : lo <= m <= hi).
      { revert Hm. unfold Rmin, Rmax. destruct (Rle_dec l r); lra. }
      pose proof (P_try m s Hm' Ps) as P1.
      destruct (try_offset m s) as [[f|e] s1] eqn:E; cbn [snd] in P1.
      2:{ erewrite bind_err by exact E. exact P1. }
      erewrite bind_ok by exact E.
      destruct (converged _ _ _); [exact P1|].
      pose proof (try_offset_ok _ _ _ _ E) as Ed.
      destruct (nltb f (crit_val c)) eqn:Ef; unR; rbool; apply IH; auto.
      - unfold bracket. rewrite Ed, !dict_get_set. unR.
        destruct (Reqb m l) eqn:E1; rbool.
        + subst. exists f, f. rewrite (proj2 (Reqb_true l l)) by reflexivity. auto.
        + exists lf, f. rewrite (proj2 (Reqb_true m m)) by reflexivity.
          split; auto. split; auto. right. lra.
      - unfold bracket. rewrite Ed, !dict_get_set. unR.
        destruct (Reqb m r) eqn:E1; rbool.
        + subst. exists f, f. rewrite (proj2 (Reqb_true r r)) by reflexivity. auto.
        + exists f, rf. rewrite (proj2 (Reqb_true m m)) by reflexivity.
          split; auto. split; auto. right. lra.
    Qed.

    Lemma search_all c (s : stR) :
      lo <= 0 <= hi ->
      (forall fl, far_left (fst (g_top (s_geom (snd s)))) (g_length (s_geom (snd s))) (udls_of s) = Ok fl ->
                  lo <= fl - 1 / 100 <= hi) ->
      P s -> P (snd (analyse_dynamic c s)).
    Proof.
      intros H0 Hfl Ps. unfold analyse_dynamic. msteps.
      set (s0 := (fst s, set_s_dynamic [] (snd s)) : stR).
      assert (P0 : P s0) by (apply P_rec; exact Ps).
      change (udls_of s0) with (udls_of s).
      destruct (far_left _ _ _) as [fl|e] eqn:Efl; [|exact P0].
      specialize (Hfl fl eq_refl). msteps.
      rewrite ?nlit_R, ?nz_R.
      unR.
      pose proof (P_try 0 s0 H0 P0) as P1.
      destruct (try_offset 0 s0) as [[f|e] s1] eqn:E1; cbn [snd] in P1;
        [erewrite bind_ok by exact E1 | erewrite bind_err by exact E1; exact P1].
      destruct (Rltb (crit_val c) f) eqn:T1; [exact P1|].
      pose proof (P_try (fl - 1 / 100) s1 Hfl P1) as P2.
      destruct (try_offset (fl - 1 / 100) s1) as [[f2|e] s2] eqn:E2; cbn [snd] in P2;
        [erewrite bind_ok by exact E2 | erewrite bind_err by exact E2; exact P2].
      destruct (Rltb f2 (crit_val c)) eqn:T2; [exact P2|]. rbool.
      assert (B : bracket c (fl - 1 / 100) 0 s2).
      { unfold bracket. rewrite (try_offset_ok _ _ _ _ E2), (try_offset_ok _ _ _ _ E1).
        rewrite !dict_get_set. rewrite (proj2 (Reqb_true _ _) (eq_refl (fl - 1 / 100))).
        destruct (Reqb (fl - 1 / 100) 0) eqn:E; rbool.
        - exists f2, f2. auto.
        - exists f2, f. rewrite (proj2 (Reqb_true 0 0)) by reflexivity. auto. }
      pose proof (search_loop 10 c (fl - 1 / 100) 0 0 s2 Hfl H0 B P2) as P3.
      destruct (dynamic_loop 10 c _ _ _ s2) as [[u|e] s3] eqn:E3; cbn [snd] in P3;
        [erewrite bind_ok by exact E3 | erewrite bind_err by exact E3; exact P3].
      msteps. apply P_rec. exact P3.
    Qed.
  End Search.
End Dyn.
