(** * WetFacts: Bishop's iteration on circles that lean one way (C25, C46, C55-C57). *)
From Coq Require Import ZArith Reals Lra Lia List Bool String Permutation Sorted.
From Verif Require Import Num Py Validation Utilities Objects Slope Planes Analysis
     Dynamic Api RealNum RealFacts ListFacts MonadFacts Spec CircleFacts PlaneFacts SoilFacts
     SliceFacts SearchFacts MatInv Invariant History ViewFacts FosFacts FosMore StrengthFacts
     ScaleFacts FosTotal EditFacts LayerFacts MaterialFacts SlopeFacts Demo DemoCircle.
Import ListNotations.
Local Open Scope R_scope.

(** ** Slices that lean one way and have strength *)
Definition leaning_slice (w : R) (s : slice R) : Prop :=
  0 < sl_cos s /\ 0 < sl_sin s /\ 0 <= sl_tan s /\ 0 < strength w s.

Lemma leaning_plain w s : leaning_slice w s -> plain_slice w s.
Proof. intros (A & B & C & D). repeat split; lra. Qed.

(** the [k]-th value, written out *)
Definition turn (w : R) (sl : list (slice R)) (F : R) : R :=
  if Req_EM_T F 0 then 0 else bishop_resisting w F sl / driving sl.
Fixpoint turns (w : R) (sl : list (slice R)) (F : R) (k : nat) : R :=
  match k with O => F | S k => turn w sl (turns w sl F k) end.
(** no value of the iteration is above this one *)
Definition ceiling (w : R) (sl : list (slice R)) : R :=
  rsum (map (fun s => strength w s / sl_cos s) sl) / driving sl.

Section Leaning.
  Context (w : R) (sl : list (slice R)) (L : forall s, In s sl -> leaning_slice w s)
          (D : 0 < driving sl).

  Lemma some_slice : sl <> [].
  Proof. intros E. rewrite E in D. unfold driving in D. cbn in D. lra. Qed.
  Lemma rsum_pos {A} (f : A -> R) l : l <> [] -> (forall a, In a l -> 0 < f a) -> 0 < rsum (map f l).
  Proof.
    destruct l as [|a l]; [congruence|]. intros _ P. cbn [map rsum].
    apply Rplus_lt_le_0_compat; [apply P; now left|]. apply rsum_nonneg. intros x I.
    apply in_map_iff in I as (b & <- & I). left. apply P. now right.
  Qed.
  Lemma leaning_alpha F s : 0 < F -> In s sl -> 0 < m_alpha F s.
  Proof. intros HF I. eapply alpha_pos; eauto. apply leaning_plain. now apply L. Qed.
  Lemma resist_pos F : 0 < F -> 0 < bishop_resisting w F sl.
  Proof.
    intros HF. apply rsum_pos; [apply some_slice|]. intros s I.
    apply Rdiv_lt_0_compat; [apply (L s I)|now apply leaning_alpha].
  Qed.
  Lemma turn_pos F : 0 < F -> 0 < turn w sl F.
  Proof.
    intros HF. unfold turn. destruct (Req_EM_T F 0); [lra|]. apply Rdiv_lt_0_compat; auto.
    now apply resist_pos.
  Qed.
  Lemma turn_next F : 0 < F -> next w sl F (turn w sl F).
  Proof.
    intros HF. unfold turn. destruct (Req_EM_T F 0); [lra|]. constructor; auto.
    - intros s I. apply Rgt_not_eq. now apply leaning_alpha.
    - left. now apply resist_pos.
  Qed.
  Lemma turn_mono F F' : 0 < F <= F' -> turn w sl F <= turn w sl F'.
  Proof.
    intros HF. unfold turn. destruct (Req_EM_T F 0); [lra|]. destruct (Req_EM_T F' 0); [lra|].
    apply Rmult_le_compat_r; [left; now apply Rinv_0_lt_compat|]. apply resist_mono; auto.
    intros s I. apply leaning_plain. now apply L.
  Qed.
  Lemma turn_ceiling F : 0 < F -> turn w sl F <= ceiling w sl.
  Proof.
    intros HF. unfold turn. destruct (Req_EM_T F 0); [lra|]. unfold ceiling.
    apply Rmult_le_compat_r; [left; now apply Rinv_0_lt_compat|].
    apply rsum_mono. clear D. induction sl as [|s l IH]; [constructor|]. constructor.
    - destruct (L s (or_introl eq_refl)) as (A & B & C & E). fold (strength w s).
      apply Rmult_le_compat_l; [lra|]. apply Rinv_le_contravar; auto. unfold m_alpha.
      assert (0 <= sl_sin s * sl_tan s / F); [|lra].
      apply Rmult_le_pos; [apply Rmult_le_pos; lra|]. left. now apply Rinv_0_lt_compat.
    - apply IH. intros t I. apply L. now right.
  Qed.

  Lemma turns_pos F k : 0 < F -> 0 < turns w sl F k.
  Proof. intros HF. induction k; cbn [turns]; auto. now apply turn_pos. Qed.
  Lemma turns_iterate F k : 0 < F -> iterate w sl k F (turns w sl F k).
  Proof.
    intros HF. induction k; cbn [turns]; [constructor|]. econstructor; eauto.
    apply turn_next. now apply turns_pos.
  Qed.
  (** The values rise for ever or fall for ever. *)
  Lemma turns_rise F : 0 < F -> F <= turn w sl F -> forall k, turns w sl F k <= turns w sl F (S k).
  Proof.
    intros HF U k. induction k as [|k IH]; [exact U|]. cbn [turns] in *. apply turn_mono.
    split; [now apply turns_pos|exact IH].
  Qed.
  Lemma turns_fall F : 0 < F -> turn w sl F <= F -> forall k, turns w sl F (S k) <= turns w sl F k.
  Proof.
    intros HF U k. induction k as [|k IH]; [exact U|]. cbn [turns] in *. apply turn_mono.
    split; [now apply (turns_pos F (S k))|exact IH].
  Qed.
  Lemma turns_monotone F : 0 < F ->
    (forall k, turns w sl F k <= turns w sl F (S k)) \/ (forall k, turns w sl F (S k) <= turns w sl F k).
  Proof.
    intros HF. destruct (Rle_lt_dec F (turn w sl F)) as [U|U];
      [left; now apply turns_rise|right; apply turns_fall; lra].
  Qed.
  Lemma turns_cap F k : 0 < F -> turns w sl F k <= Rmax F (ceiling w sl).
  Proof.
    intros HF. destruct k; cbn [turns]; [apply Rmax_l|]. eapply Rle_trans; [|apply Rmax_r].
    apply turn_ceiling. now apply turns_pos.
  Qed.
  (** They have a limit. *)
  Lemma turns_limit F : 0 < F -> exists f, Un_cv (turns w sl F) f /\ 0 <= f.
  Proof.
    intros HF. destruct (turns_monotone F HF) as [U|U].
    - destruct (growing_cv (turns w sl F)) as (f & C).
      + intros k. apply U.
      + exists (Rmax F (ceiling w sl)). intros x (k & ->). now apply turns_cap.
      + exists f. split; auto. eapply Rle_trans; [|apply (growing_ineq _ _ U C 0)]. cbn. lra.
    - destruct (decreasing_cv (turns w sl F)) as (f & C).
      + intros k. apply U.
      + exists 0. intros x (k & ->). unfold opp_seq. pose proof (turns_pos F k HF). lra.
      + exists f. split; auto. destruct (Rle_lt_dec 0 f) as [|N]; auto. exfalso.
        destruct (C (- f)) as (k & K); [lra|]. specialize (K k (le_n k)). unfold R_dist in K.
        pose proof (turns_pos F k HF). apply Rabs_def2 in K. lra.
  Qed.
  (** Before the values have used up the room they have, one change is below
      the tolerance. *)
  Lemma small_change F tol n : 0 < F -> 0 < tol -> Rmax F (ceiling w sl) <= IZR (Z.of_nat n) * tol ->
    exists i, (i < n)%nat /\ Rabs (turns w sl F (S i) - turns w sl F i) < tol.
  Proof.
    intros HF HT. revert n.
    assert (Q : forall n, (exists i, (i < n)%nat /\ Rabs (turns w sl F (S i) - turns w sl F i) < tol) \/
      ((forall k, turns w sl F k <= turns w sl F (S k)) /\ turns w sl F 0 + IZR (Z.of_nat n) * tol <= turns w sl F n) \/
      ((forall k, turns w sl F (S k) <= turns w sl F k) /\ turns w sl F n + IZR (Z.of_nat n) * tol <= turns w sl F 0)).
    { induction n as [|n IH].
      - right. destruct (turns_monotone F HF) as [U|U]; [left|right]; (split; [exact U|]);
          cbn [Z.of_nat]; lra.
      - destruct IH as [(i & I & S1)|IH]; [left; exists i; split; [lia|auto]|].
        destruct (Rlt_le_dec (Rabs (turns w sl F (S n) - turns w sl F n)) tol) as [T|T];
          [left; exists n; split; [lia|auto]|].
        right. rewrite Nat2Z.inj_succ, succ_IZR.
        destruct IH as [(U & IH)|(U & IH)]; [left|right]; (split; [exact U|]);
          pose proof (U n) as Un; [rewrite Rabs_right in T by lra | rewrite Rabs_left1 in T by lra]; lra. }
    intros n B. pose proof (turns_cap F n HF) as CAP. pose proof (turns_pos F n HF) as POS.
    destruct (Q n) as [I|[(_ & I)|(_ & I)]]; auto; exfalso; change (turns w sl F 0) with F in I.
    - lra.
    - pose proof (Rmax_l F (ceiling w sl)). lra.
  Qed.
  (** So a large enough limit on the number of turns makes the reported factor
      a converged one. *)
  Lemma converges F tol n f : 0 < F -> 0 < tol -> Rmax F (ceiling w sl) <= IZR (Z.of_nat n) * tol ->
    reported w tol sl n F f ->
    exists i F1, iterate w sl i F F1 /\ next w sl F1 f /\ Rabs (f - F1) < tol.
  Proof.
    intros HF HT B (j & J & I & BIG & SMALL).
    destruct (small_change F tol n HF HT B) as (i & LI & C).
    destruct (Nat.lt_ge_cases j n) as [LT|GE].
    - destruct (SMALL LT) as (i' & F1 & -> & I1 & S1). exists i', F1. split; auto. split; auto.
      inversion I as [|k G0 G1 G2 I2 N2]; subst. now rewrite (iterate_det _ _ _ _ _ I1 _ I2).
    - assert (j = n) by lia. subst j. destruct (Nat.lt_ge_cases (S i) n) as [LT|GE'].
      + exfalso. assert (T := BIG i _ _ LT (turns_iterate F i HF) (turn_next _ (turns_pos F i HF))).
        cbn [turns] in C. lra.
      + assert (n = S i) by lia. subst n.
        exists i, (turns w sl F i). pose proof (turns_iterate F (S i) HF) as I'.
        rewrite (iterate_det _ _ _ _ _ I _ I'). split; [now apply turns_iterate|].
        split; [apply turn_next; now apply turns_pos|exact C].
  Qed.
End Leaning.

(** ** Soil heavier than water *)
Section Wet.
  Context {EN : Env}.
  Notation stR := (st R).
  Definition heavy (s : stR) : Prop := forall m, In m (mats_of s) -> 981 / 100 < m_unit_weight m.

  Lemma soil_weight_heavy s v w yb yt W : sound s v -> heavy s -> v_mats v <> [] -> 0 < w -> yb < yt ->
    soil_weight (v_mats v) w yb yt W -> 981 / 100 * (w * (yt - yb)) < W.
  Proof.
    intros SV HV NE Hw Y (uw & pr & U & ->).
    assert (E : exists lo, 981 / 100 < lo /\ forall rl m, In (rl, m) (v_mats v) -> lo <= m_unit_weight m).
    { assert (G : forall l : list (R * material R), (forall rl m, In (rl, m) l -> 981 / 100 < m_unit_weight m) ->
        exists lo, 981 / 100 < lo /\ forall rl m, In (rl, m) l -> lo <= m_unit_weight m).
      { induction l as [|[rl m] l IH]; intros P.
        - exists 10. split; [lra|]. intros ? ? [].
        - destruct IH as (lo & A & B); [intros; eapply P; right; eauto|].
          exists (Rmin lo (m_unit_weight m)). split.
          + apply Rmin_glb_lt; auto. eapply P. now left.
          + intros rl' m' [E|I]; [injection E as <- <-; apply Rmin_r|].
            eapply Rle_trans; [apply Rmin_l|eauto]. }
      apply G. intros rl m I. apply HV. rewrite <- (so_mats_eq s v SV). apply in_map_iff.
      now exists (rl, m). }
    destruct E as (lo & LO & BL).
    assert (C : Riemann_integrable (fct_cte lo) yb yt) by apply RiemannInt_P14.
    assert (I : RiemannInt C <= RiemannInt pr).
    { apply RiemannInt_P19; [lra|]. intros x _. unfold fct_cte.
      destruct (layer_at_exists (v_mats v) x NE) as (m & LA). rewrite (U x m LA).
      destruct (layer_at_In _ _ _ LA) as (rl & IN). eauto. }
    rewrite RiemannInt_P15 in I.
    apply Rlt_le_trans with (w * (lo * (yt - yb))).
    - replace (981 / 100 * (w * (yt - yb))) with (w * (981 / 100 * (yt - yb))) by ring.
      apply Rmult_lt_compat_l; auto. apply Rmult_lt_compat_r; lra.
    - apply Rmult_le_compat_l; lra.
  Qed.
  Lemma slice_weight_soil s v cx cy r xl w i sl : sound s v ->
    slice_ok v cx cy r xl w i sl ->
    exists W, soil_weight (v_mats v) w (sl_yb sl) (sl_yt sl) W /\ W <= sl_W sl.
  Proof.
    intros SV K. destruct (sk_W _ _ _ _ _ _ _ _ K) as (W & SW & ->). exists W. split; auto.
    assert (0 <= rsum (map (udl_share (edge_of xl w i) (edge_of xl w (i + 1))) (v_udls v))).
    { apply rsum_nonneg. intros x I. apply in_map_iff in I as ([[a b] q] & <- & I).
      apply udl_share_nonneg. cbn. apply (so_udls s v SV) in I. lra. }
    assert (0 <= rsum (map (ll_share (edge_of xl w i) (edge_of xl w (i + 1))) (v_lls v))).
    { apply rsum_nonneg. intros x I. apply in_map_iff in I as ([c q] & <- & I).
      apply ll_share_nonneg. cbn. apply (so_lls s v SV) in I. lra. }
    lra.
  Qed.
  Lemma water_below g H rl x yt yb : 0 <= H <= 1 -> yb <= yt ->
    water_at g H rl x yt yb <= 981 / 100 * (yt - yb).
  Proof.
    intros HH Y. unfold water_at. destruct rl as [rl|]; [|nra].
    destruct (Req_EM_T rl 0); [nra|].
    assert (A : 0 <= Rmax 0 (Rmin rl yt - yb) <= yt - yb).
    { split; [apply Rmax_l|]. apply Rmax_lub; [lra|]. pose proof (Rmin_r rl yt). lra. }
    destruct (Rlt_dec _ _); [destruct (Rlt_dec _ _)|]; nra.
  Qed.

  (** The circle leans one way: its centre is not left of its lower end, and it
      runs below the ground. *)
  Record leaning (g : geom R) (cx cy r : R) (a b : R * R) : Prop := {
    ln_cx : 0 <= cx;
    ln_cy : 0 <= cy;
    ln_r : 0 <= r;
    ln_ends : end_points g cx cy r a b;
    ln_way : fst b <= cx;
    ln_buried : buried g cx cy r a b;
  }.
  Definition wet_ok (s : stR) : Prop :=
    forall rl, s_water_RL (snd s) = Some rl -> rl <= g_ext_h (s_geom (snd s)).

  Lemma leaning_slices s v cx cy r a b : sound s v -> some_strength s ->
    (heavy s \/ dry v) ->
    leaning (v_geom v) cx cy r a b -> wet_ok s -> mats_of s <> [] ->
    exists sl, slices_ok v cx cy r a b sl /\ 0 < driving sl /\
      (forall t, In t sl -> leaning_slice (width v a b) t) /\
      0 <= resisting (width v a b) sl /\
      (0 < resisting (width v a b) sl \/ forall t, In t sl -> 0 < sl_tan t) /\
      (dry v -> 0 < resisting (width v a b) sl) /\
      bishop v cx cy r = fos_of v a b sl.
  Proof.
    intros SV SS HV [D1 D2 D3 EP BC BU] WK MNE. pose proof (sound_good s v SV) as GV.
    pose proof (radius_pos v GV cx cy r a b D3 EP) as HR.
    assert (NE : v_mats v <> []).
    { intros E. apply MNE. rewrite <- (so_mats_eq s v SV), E. reflexivity. }
    destruct (water_data v) as [o|e] eqn:WD.
    2:{ destruct (water_data_err v GV e WD) as (_ & F). exfalso. apply F. apply (fits s v SV WK). }
    pose proof (end_points_ok _ (gv_geom v GV) _ _ _ _ _ EP) as (_ & _ & _ & _ & LL).
    assert (N : 0 < IZR (v_slices v)) by (apply IZR_lt; pose proof (gv_slices v GV); lia).
    assert (Hw : 0 < width v a b) by (unfold width; apply Rdiv_lt_0_compat; lra).
    destruct (bishop_at v GV cx cy r o D1 D2 D3 WD) as
      [(l & C & L & _)|(a' & b' & EP' & Q)]; [exfalso; eapply end_points_two; eauto|].
    destruct (end_points_det _ _ _ _ _ _ _ _ EP EP') as (-> & ->).
    destruct Q as [(M & _)|(sl & SO & Q)]; [contradiction|].
    assert (P : forall t, In t sl -> leaning_slice (width v a b) t /\ 0 < sl_W t /\ 0 <= sl_c t /\
                  (0 < sl_c t \/ 0 < sl_tan t) /\ (dry v -> sl_u t = 0)).
    { intros t I. destruct (Forall2_In_r _ _ _ _ SO I) as (i & II & K).
      apply zrange_In in II. rewrite Z2Nat.id in II by (pose proof (gv_slices v GV); lia).
      pose proof (mid_inside v a b i (gv_slices v GV) ltac:(lra) ltac:(lia)) as MI.
      assert (SI : 0 < sl_sin t).
      { rewrite (sk_sin _ _ _ _ _ _ _ _ K). apply Rdiv_lt_0_compat; lra. }
      assert (CO : 0 < sl_cos t).
      { rewrite (sk_cos _ _ _ _ _ _ _ _ K). apply Rdiv_lt_0_compat; auto. apply (sk_drop _ _ _ _ _ _ _ _ K). }
      assert (Y : sl_yb t < sl_yt t).
      { rewrite (sk_yt _ _ _ _ _ _ _ _ K), (sk_yb _ _ _ _ _ _ _ _ K).
        pose proof (BU _ MI) as B.
        pose proof (Rmax_l (surface (v_geom v) (mid_of (fst a) (width v a b) i))
                      (base_at cx cy r (mid_of (fst a) (width v a b) i))). lra. }
      assert (WP : 0 < sl_W t).
      { eapply Rlt_le_trans; [|exact (slice_weight_low s v cx cy r (fst a) (width v a b) i t SV (Rlt_le _ _ Hw) K)].
        apply Rmult_lt_0_compat; lra. }
      assert (UP : dry v -> sl_u t = 0).
      { intros DV. rewrite (sk_u _ _ _ _ _ _ _ _ K). unfold water_at. destruct DV as [-> | ->]; auto.
        destruct (Req_EM_T 0 0); [auto|congruence]. }
      assert (EFF : 0 < sl_W t - sl_u t * width v a b).
      { destruct HV as [HV|DV]; [|rewrite (UP DV); lra].
        destruct (slice_weight_soil s v cx cy r _ _ i t SV K) as (W & SW & LW).
        pose proof (soil_weight_heavy s v _ _ _ W SV HV NE Hw Y SW) as HW.
        pose proof (water_below (v_geom v) (v_water_H v) (v_water_RL v)
          (mid_of (fst a) (width v a b) i) (sl_yt t) (sl_yb t) (so_H s v SV) (Rlt_le _ _ Y)) as U.
        rewrite <- (sk_u _ _ _ _ _ _ _ _ K) in U. nra. }
      destruct (sk_mat _ _ _ _ _ _ _ _ K) as (m & LM & EC & ET).
      destruct (layer_at_In _ _ _ LM) as (rl & IM).
      destruct (so_mats s v SV rl m IM) as ((_ & F0 & C0 & _) & TO & _).
      destruct (SS m) as (F9 & ST).
      { rewrite <- (so_mats_eq s v SV). apply in_map_iff. now exists (rl, m). }
      assert (T0 : 0 <= sl_tan t).
      { rewrite ET. red in TO. rewrite TO. unfold nradians. unR. apply tan_nonneg. lra. }
      assert (ST' : 0 < sl_c t \/ 0 < sl_tan t).
      { destruct ST as [ST|ST]; [left; lra|right]. rewrite ET. red in TO. rewrite TO.
        unfold nradians. unR. apply tan_pos. lra. }
      assert (SP : 0 < strength (width v a b) t).
      { unfold strength. destruct ST' as [ST'|ST'].
        - apply Rplus_lt_le_0_compat; [apply Rmult_lt_0_compat; lra|]. apply Rmult_le_pos; lra.
        - apply Rplus_le_lt_0_compat; [apply Rmult_le_pos; lra|]. apply Rmult_lt_0_compat; lra. }
      split; [repeat split; auto|]. split; auto. split; [lra|auto]. }
    assert (NS : sl <> []).
    { intros ->. unfold slices_ok in SO. inversion SO as [E|]. apply (f_equal (@List.length Z)) in E.
      rewrite zrange_length in E. cbn in E. pose proof (gv_slices v GV). lia. }
    assert (DR : 0 < driving sl).
    { apply rsum_pos; auto. intros t I. destruct (P t I) as ((_ & SI & _) & WP & _).
      now apply Rmult_lt_0_compat. }
    destruct Q as [(Q & _)|(_ & Q)]; [lra|].
    assert (T : forall t, In t sl -> 0 < base_len (width v a b) t /\
      0 <= Rmax 0 (sl_W t * sl_cos t - sl_u t * base_len (width v a b) t) * sl_tan t /\
      0 <= sl_c t * base_len (width v a b) t /\
      (0 < sl_c t -> 0 < sl_c t * base_len (width v a b) t)).
    { intros t I. destruct (P t I) as ((CO & _ & T0 & _) & _ & C0 & _).
      assert (BL : 0 < base_len (width v a b) t) by (unfold base_len; now apply Rdiv_lt_0_compat).
      split; auto. split; [apply Rmult_le_pos; auto; apply Rmax_l|].
      split; [apply Rmult_le_pos; lra|]. intros. now apply Rmult_lt_0_compat. }
    exists sl. split; auto. split; auto. split; [intros t I; now apply P|].
    split.
    { apply rsum_nonneg. intros x I. apply in_map_iff in I as (t & <- & I).
      destruct (T t I) as (_ & A & B & _). lra. }
    split.
    { destruct (Rlt_le_dec 0 (resisting (width v a b) sl)) as [|LE]; auto. right.
      intros t I. destruct (P t I) as (_ & _ & _ & [C|TT] & _); auto. exfalso.
      assert (0 < resisting (width v a b) sl); [|lra].
      destruct (in_split _ _ I) as (l1 & l2 & ->). unfold resisting.
      rewrite map_app, rsum_app. cbn [map rsum].
      assert (forall l, incl l (l1 ++ t :: l2) -> 0 <= rsum (map (fun s0 => sl_c s0 * base_len (width v a b) s0 +
         Rmax 0 (sl_W s0 * sl_cos s0 - sl_u s0 * base_len (width v a b) s0) * sl_tan s0) l)) as NN.
      { intros l Hl. apply rsum_nonneg. intros x J. apply in_map_iff in J as (q & <- & J).
        destruct (T q (Hl q J)) as (_ & A & B & _). lra. }
      pose proof (NN l1 ltac:(intros q J; apply in_or_app; now left)).
      pose proof (NN l2 ltac:(intros q J; apply in_or_app; right; now right)).
      destruct (T t I) as (_ & A & _ & B). specialize (B C). lra. }
    split; auto. intros DV. apply rsum_pos; auto. intros t I.
    destruct (P t I) as ((CO & _ & T0 & _) & WP & C0 & ST & UP).
    destruct (T t I) as (BL & A & B & C). destruct ST as [ST|ST]; [specialize (C ST); lra|].
    rewrite (UP DV), Rmult_0_l, Rminus_0_r.
    assert (0 < sl_W t * sl_cos t) by now apply Rmult_lt_0_compat.
    rewrite Rmax_right by lra. apply Rplus_le_lt_0_compat; [lra|]. now apply Rmult_lt_0_compat.
  Qed.

  Lemma zero_loop w tol sl k : (forall s, In s sl -> sl_sin s * sl_tan s <> 0) -> 0 < driving sl ->
    exists f, bishop_loop w tol sl k 0 = Ok (Some f) /\ 0 <= f.
  Proof.
    intros P D. induction k as [|k IH]; cbn [bishop_loop]; [exists 0; split; auto; lra|].
    rewrite (proj2 (bishop_step_some _ _ _ _) (next_zero _ _ P D)). cbn [rbind].
    destruct (nltb _ tol); [exists 0; split; auto; lra|auto].
  Qed.
  (** C55 *)
  Lemma leaning_factor s v cx cy r a b : reachable s -> view_of s = Ok v -> some_strength s ->
    heavy s \/ dry v -> leaning (v_geom v) cx cy r a b -> wet_ok s -> mats_of s <> [] ->
    exists f, bishop v cx cy r = Ok (Some f) /\ 0 <= f /\ (dry v -> 0 < f).
  Proof.
    intros RS E SS HV LN WK NE.
    destruct (view_sound s RS) as (v0 & E0 & SV). assert (v0 = v) by congruence. subst v0.
    destruct (leaning_slices s v cx cy r a b SV SS HV LN WK NE) as (sl & SO & D & P & R0 & RT & RD & B).
    rewrite B. unfold fos_of.
    destruct (Rle_lt_or_eq_dec _ _ R0) as [RP|RZ].
    - destruct (loop_total (width v a b) (v_tolerance v) sl (Z.to_nat (v_max_iterations v))
        (fun t I => conj (leaning_plain _ _ (P t I)) (proj2 (proj2 (proj2 (P t I))))) D
        (resisting (width v a b) sl / driving sl)) as (f & EF & PF).
      + now apply Rdiv_lt_0_compat.
      + exists f. split; auto. split; [lra|auto].
    - rewrite <- RZ. unfold Rdiv at 1. rewrite Rmult_0_l.
      destruct (zero_loop (width v a b) (v_tolerance v) sl (Z.to_nat (v_max_iterations v))) as (f & EF & PF); auto.
      + intros t I. destruct RT as [RT|RT]; [lra|]. specialize (RT t I). apply Rgt_not_eq.
        apply Rmult_lt_0_compat; auto. apply (P t I).
      + exists f. split; auto. split; auto. intros DV. specialize (RD DV). lra.
  Qed.

  (** C56 *)
  Lemma leaning_converges s v cx cy r a b : reachable s -> view_of s = Ok v -> some_strength s ->
    heavy s \/ dry v -> leaning (v_geom v) cx cy r a b -> wet_ok s -> mats_of s <> [] ->
    exists sl, slices_ok v cx cy r a b sl /\
      let w := width v a b in let F0 := resisting w sl / driving sl in
      (dry v -> 0 < F0) /\
      (0 < F0 ->
        ((forall k, turns w sl F0 k <= turns w sl F0 (S k)) \/
         (forall k, turns w sl F0 (S k) <= turns w sl F0 k)) /\
        (forall k, iterate w sl k F0 (turns w sl F0 k)) /\
        (exists f, Un_cv (turns w sl F0) f /\ 0 <= f) /\
        (forall f, 0 < s_tolerance (snd s) ->
           Rmax F0 (ceiling w sl) <= IZR (s_max_iterations (snd s)) * s_tolerance (snd s) ->
           bishop v cx cy r = Ok (Some f) ->
           exists k F1, iterate w sl k F0 F1 /\ next w sl F1 f /\ Rabs (f - F1) < s_tolerance (snd s))).
  Proof.
    intros RS E SS HV LN WK NE.
    destruct (view_sound s RS) as (v0 & E0 & SV). assert (v0 = v) by congruence. subst v0.
    destruct (leaning_slices s v cx cy r a b SV SS HV LN WK NE) as (sl & SO & D & P & R0 & RT & RD & B).
    exists sl. split; auto. cbv zeta. split.
    { intros DV. apply Rdiv_lt_0_compat; auto. }
    intros F0. split; [now apply turns_monotone|]. split; [intros k; now apply turns_iterate|].
    split; [now apply turns_limit|]. intros f HT HB EB.
    rewrite B in EB. unfold fos_of in EB. apply loop_some in EB.
    rewrite (so_tol s v SV), (so_max s v SV) in EB.
    assert (0 < Z.of_nat (Z.to_nat (s_max_iterations (snd s))))%Z as NP.
    { destruct (Z_lt_le_dec 0 (s_max_iterations (snd s))); [lia|]. exfalso.
      assert (IZR (s_max_iterations (snd s)) <= 0) by now apply (IZR_le _ 0).
      pose proof (Rmax_l (resisting (width v a b) sl / driving sl) (ceiling (width v a b) sl)). nra. }
    eapply converges; [exact P | exact D | exact F0 | exact HT | | exact EB].
    rewrite Z2Nat.id by lia. exact HB.
  Qed.

  (** C25 and C46: the values and their limits *)
  Lemma sequences_ordered w sl w' sl' : w' = w ->
    (forall s, In s sl -> leaning_slice w s) -> 0 < driving sl ->
    (forall s, In s sl' -> leaning_slice w' s) -> 0 < driving sl' ->
    0 < w -> Forall2 stronger sl sl' -> Forall2 same_tan sl sl' ->
    0 < resisting w sl ->
    let F0 := resisting w sl / driving sl in
    let F0' := resisting w' sl' / driving sl' in
    (forall k, turns w sl F0 k <= turns w' sl' F0' k) /\
    (forall k, iterate w sl k F0 (turns w sl F0 k)) /\
    (forall k, iterate w' sl' k F0' (turns w' sl' F0' k)) /\
    exists f f', Un_cv (turns w sl F0) f /\ Un_cv (turns w' sl' F0') f' /\ f <= f'.
  Proof.
    intros -> P D P' D' Hw ST TN RP F0 F0'.
    pose proof (driving_same _ _ ST) as DS. pose proof (resisting_mono w _ _ Hw ST) as RM.
    assert (HF : 0 < F0) by now apply Rdiv_lt_0_compat.
    assert (HF' : 0 < F0') by (apply Rdiv_lt_0_compat; lra).
    assert (LE : F0 <= F0').
    { unfold F0, F0'. rewrite DS. apply Rmult_le_compat_r; auto. left. now apply Rinv_0_lt_compat. }
    assert (A : forall k, turns w sl F0 k <= turns w sl' F0' k).
    { intros k. eapply (iterate_mono w sl sl' k Hw (Forall2_and _ _ _ _ ST TN));
        [intros t I; apply leaning_plain; auto | split; [left; exact HF|exact LE]
        | now apply turns_iterate | now apply turns_iterate]. }
    split; auto. split; [intros; now apply turns_iterate|]. split; [intros; now apply turns_iterate|].
    destruct (turns_limit w sl P D F0 HF) as (f & C & _).
    destruct (turns_limit w sl' P' D' F0' HF') as (f' & C' & _).
    exists f, f'. split; auto. split; auto. eapply Rle_cv_lim; eauto.
  Qed.

  Lemma some_friction s : some_strength s -> friction_90 s.
  Proof. intros SS m I. apply (SS m I). Qed.
  Lemma width_pos s v cx cy r a b : sound s v -> end_points (v_geom v) cx cy r a b -> 0 < width v a b.
  Proof.
    intros SV EP. pose proof (sound_good s v SV) as GV.
    pose proof (end_points_ok _ (gv_geom v GV) _ _ _ _ _ EP) as (_ & _ & _ & _ & LL).
    assert (N : 0 < IZR (v_slices v)) by (apply IZR_lt; pose proof (gv_slices v GV); lia).
    unfold width; apply Rdiv_lt_0_compat; lra.
  Qed.
  Lemma drained_mats s : mats_of (step s RemoveWater) = mats_of s.
  Proof. reflexivity. Qed.
  Lemma drained_heavy s : heavy s -> heavy (step s RemoveWater).
  Proof. intros HV m. rewrite drained_mats. apply HV. Qed.
  Lemma drained_strength s : some_strength s -> some_strength (step s RemoveWater).
  Proof. intros HV m. rewrite drained_mats. apply HV. Qed.

  (** ** The demo slope *)
  Lemma demo_leaning : leaning demo_geom 12 (29 / 2) (15 / 2) (6, 10) (12, 7).
  Proof. constructor; try (cbn; lra); [apply demo_ends|apply demo_buried]. Qed.
  Lemma demo_heavy : heavy demo /\ heavy demo4.
  Proof. split; intros m I; cbn in I; destruct I as [ <- | [ <- | [] ] ]; cbn; lra. Qed.
  Lemma demo_strength : some_strength demo.
  Proof. intros m I; cbn in I; destruct I as [ <- | [ <- | [] ] ]; cbn; lra. Qed.
  Lemma demo_wet : wet_ok demo.
  Proof. intros rl E. cbn in E. injection E as <-. cbn. lra. Qed.
End Wet.

(** ** For histories *)
Section Histories.
  Context {EN : Env}.
  Notation stR := (st R).
  Lemma view_good (s : stR) v : reachable s -> view_of s = Ok v ->
    good_view v /\ sound s v /\ v_geom v = s_geom (snd s).
  Proof.
    intros RS E. destruct (view_sound s RS) as (v0 & E0 & SV). assert (v0 = v) by congruence. subst v0.
    split; [now apply sound_good with s|]. split; auto. apply SV.
  Qed.
  Lemma ordinary_state (s : stR) v cx cy r a b : reachable s -> view_of s = Ok v -> wet_ok s ->
    0 <= cx -> 0 <= cy -> 0 <= r -> end_points (s_geom (snd s)) cx cy r a b ->
    (mats_of s = [] /\ ordinary v cx cy r a b = Ok None) \/
    (exists sl, slices_ok v cx cy r a b sl /\
       ((driving sl <= 0 /\ ordinary v cx cy r a b = Ok None) \/
        (0 < driving sl /\
         ordinary v cx cy r a b = Ok (Some (resisting (width v a b) sl / driving sl))))).
  Proof.
    intros RS E WK D1 D2 D3 EP. destruct (view_good s v RS E) as (GV & SV & G). rewrite <- G in EP.
    destruct (ordinary_spec v GV cx cy r a b D1 D2 D3 EP (fits s v SV WK)) as [(M & Q)|Q]; auto.
    left. split; auto. now rewrite <- (so_mats_eq s v SV), M.
  Qed.
  Lemma reported_state (s : stR) v cx cy r f : reachable s -> view_of s = Ok v -> wet_ok s ->
    (bishop v cx cy r = Ok (Some f) <->
     0 <= cx /\ 0 <= cy /\ 0 < r /\
     exists a b sl, end_points (s_geom (snd s)) cx cy r a b /\ slices_ok v cx cy r a b sl /\
      0 < driving sl /\
      reported (width v a b) (s_tolerance (snd s)) sl (Z.to_nat (s_max_iterations (snd s)))
               (resisting (width v a b) sl / driving sl) f).
  Proof.
    intros RS E WK. destruct (view_good s v RS E) as (GV & SV & G). rewrite <- G.
    rewrite <- (so_tol s v SV), <- (so_max s v SV). split; [now apply bishop_some|].
    intros (D1 & D2 & D3 & a & b & sl & EP & SO & D & RP).
    eapply bishop_value; eauto; [lra|]. now apply (fits s v SV WK).
  Qed.
  Lemma converged_state (s : stR) v cx cy r f : reachable s -> view_of s = Ok v -> wet_ok s ->
    bishop v cx cy r = Ok (Some f) ->
    exists a b sl, end_points (s_geom (snd s)) cx cy r a b /\ slices_ok v cx cy r a b sl /\
      let w := width v a b in let F0 := resisting w sl / driving sl in
      (iterate w sl (Z.to_nat (s_max_iterations (snd s))) F0 f \/
       exists k F1, iterate w sl k F0 F1 /\ next w sl F1 f /\ Rabs (f - F1) < s_tolerance (snd s)).
  Proof.
    intros RS E WK B. apply (reported_state s v cx cy r f RS E WK) in B.
    destruct B as (_ & _ & _ & a & b & sl & EP & SO & D & j & J & I & _ & S1).
    exists a, b, sl. split; auto. split; auto. cbv zeta.
    destruct (Nat.lt_ge_cases j (Z.to_nat (s_max_iterations (snd s)))) as [L|L].
    - right. destruct (S1 L) as (i & F1 & -> & I1 & C). exists i, F1. split; auto. split; auto.
      inversion I as [|k G0 G1 G2 I2 N2]; subst. now rewrite (iterate_det _ _ _ _ _ I1 _ I2).
    - left. now replace j with (Z.to_nat (s_max_iterations (snd s))) in I by lia.
  Qed.
  Lemma weights_state (s : stR) v cx cy r a b w sl : reachable s -> view_of s = Ok v ->
    0 <= r -> end_points (s_geom (snd s)) cx cy r a b ->
    slices_of v cx cy r (fst a) (fst b) = Ok (Some (w, sl)) ->
    w = width v a b /\ exists soil,
      Forall2 (fun t W => soil_weight (v_mats v) w (sl_yb t) (sl_yt t) W) sl soil /\
      rsum (map (@sl_W R) sl) = rsum soil
      + rsum (map (fun u => snd u * Rmax 0 (Rmin (fst b) (snd (fst u)) - Rmax (fst a) (fst (fst u))))
                  (v_udls v))
      + rsum (map (fun l => if Rle_dec (fst a) (fst l)
                            then if Rlt_dec (fst l) (fst b) then snd l else 0 else 0) (v_lls v)).
  Proof.
    intros RS E HR EP SO. destruct (view_good s v RS E) as (GV & SV & G). rewrite <- G in EP.
    pose proof (end_points_ok _ (gv_geom v GV) _ _ _ _ _ EP) as (_ & _ & _ & _ & LL).
    assert (WD : exists o, water_data v = Ok o).
    { clear - SO. unfold slices_of in SO. destruct (nleb _ _); [discriminate|].
      destruct (pydiv _ _); cbn [rbind] in SO; [|discriminate].
      destruct (existsb _ _); [discriminate|]. destruct (existsb _ _); [discriminate|].
      destruct (water_data v) as [o|]; [eauto|discriminate]. }
    destruct WD as (o & WD).
    destruct (slices_at v GV cx cy r a b o (radius_pos v GV cx cy r a b HR EP) EP WD)
      as [(_ & Q)|(sl' & Q & SO')]; rewrite SO in Q; [discriminate|].
    injection Q as -> <-. split; [reflexivity|].
    apply (slices_total v cx cy r (fst a) (fst b) (v_slices v) sl);
      [pose proof (gv_slices v GV); lia | lra | exact SO'].
  Qed.
End Histories.

(** ** One material of any strength on the demo slope *)
Section Bank.
  Context {EN : Env}.
  Context (c phi : R) (C0 : 0 <= c) (P0 : 0 <= phi).
  Definition bank_soil : material R :=
    MkMaterial 18 phi c 5 "soil" "" "" (Rtan_py (phi * (PI / 180))) None.
  Definition bank : st R :=
    (MkHeap [assigned 10 0 bank_soil] [] [], demo_sl [0%nat] [] [] UmUnset None None).
  Definition bank_ops : list (op R) :=
    [ NewMaterial (PFloat 18) (PFloat phi) (PFloat c) (PFloat 5) (PStr "soil") PNone;
      SetMaterials [RefMaterial 0] ].
  Lemma bank_acc : accepted demo0 bank_ops bank.
  Proof.
    assert (M : new_material (PFloat 18) (PFloat phi) (PFloat c) (PFloat 5) (PStr "soil") PNone = Ok bank_soil).
    { apply (proj2 (material_spec _ _ _ _ _ _ _ _)).
      exists 18, phi, c, 5, "soil"%string, ""%string. unfold bank_soil. rnum. unfold plain_denotes.
      cbn [denotes plain_number is_text]. ands; auto; lra. }
    assert (A1 : accepted demo0 [NewMaterial (PFloat 18) (PFloat phi) (PFloat c) (PFloat 5) (PStr "soil") PNone]
                          (MkHeap [bank_soil] [] [], snd demo0)).
    { econstructor; [cbn [exec]; unfold alloc; rewrite M; reflexivity|constructor]. }
    assert (R1 : reachable (MkHeap [bank_soil] [] [], snd demo0))
      by (eapply accepted_reachable; [apply demo0_reachable|exact A1]).
    apply (accepted_app _ _ _ _ _ A1). econstructor; [|constructor].
    destruct (reachable_inv _ R1) as (CC & _ & _).
    cbn [exec]. rewrite with_refs_intro by (repeat constructor).
    rewrite set_materials_eff by exact CC. cbn [material_locs rbind].
    unfold sorted_locs, sort_by. cbn. unR. unfold deepened. cbn. rnum. unfold layered, bank. cbn. reflexivity.
  Qed.
  Lemma bank_reachable : reachable bank.
  Proof. eapply accepted_reachable; [apply demo0_reachable|apply bank_acc]. Qed.
End Bank.
