(** * Fellenius: the ordinary method against Bishop's (C97). *)
From Coq Require Import ZArith Reals Lra Lia List Bool String.
From Verif Require Import Num Py Validation Utilities Objects Slope Planes Analysis
     Dynamic Api RealNum RealFacts ListFacts Spec CircleFacts PlaneFacts SoilFacts SliceFacts MatInv
     SearchFacts ViewFacts FosFacts FosMore StrengthFacts ScaleFacts FosTotal WetFacts FosCode CohesiveFacts SurchargeCode.
Import ListNotations.
Local Open Scope R_scope.

(** ** Slices *)
(** what the ordinary method lets the base of a slice hold, with no base in tension *)
Definition plain_hold (w : R) (s : slice R) : R :=
  sl_c s * (w / sl_cos s) + (sl_W s * sl_cos s - sl_u s * (w / sl_cos s)) * sl_tan s.
(** the share of a slice's surplus that Bishop's normal force passes on *)
Definition share (F : R) (s : slice R) : R :=
  sl_sin s * sl_tan s / (F * sl_cos s + sl_sin s * sl_tan s).
Definition gain (w : R) (sl : list (slice R)) (F : R) : R :=
  rsum (map (fun s => share F s * (F * (sl_W s * sl_sin s) - plain_hold w s)) sl).
Definition no_tension (w : R) (s : slice R) : Prop := 0 <= sl_W s * sl_cos s - sl_u s * (w / sl_cos s).
Definition unit_slice (s : slice R) : Prop := sl_sin s * sl_sin s + sl_cos s * sl_cos s = 1.

Lemma hold_gap w F s : 0 < F -> leaning_slice w s -> unit_slice s ->
  (sl_c s * w + (sl_W s - sl_u s * w) * sl_tan s) / m_alpha F s =
  plain_hold w s + share F s * (F * (sl_W s * sl_sin s) - plain_hold w s).
Proof.
  intros FP (C & S & T & _) UN. unfold unit_slice in UN. unfold m_alpha, plain_hold, share.
  assert (0 <= sl_sin s * sl_tan s) by (apply Rmult_le_pos; lra).
  assert (P : 0 < F * sl_cos s + sl_sin s * sl_tan s) by (apply Rplus_lt_le_0_compat; [now apply Rmult_lt_0_compat|lra]).
  replace (sl_cos s + sl_sin s * sl_tan s / F) with ((F * sl_cos s + sl_sin s * sl_tan s) / F) by (field; lra).
  assert (W1 : sl_W s = sl_W s * (sl_sin s * sl_sin s + sl_cos s * sl_cos s)) by (rewrite UN; ring).
  rewrite W1 at 1. field. lra.
Qed.

Lemma zero_terms {A} (f : A -> R) l : 0 = rsum (map f l) -> (forall q, In q l -> 0 <= f q) -> forall q, In q l -> f q = 0.
Proof.
  induction l as [|x l IH]; intros Z NN q J; [destruct J|]. cbn [map rsum] in Z.
  assert (0 <= f x) by (apply NN; now left).
  assert (0 <= rsum (map f l)) by (apply rsum_nonneg; intros y Y; apply in_map_iff in Y as (k & <- & K); apply NN; now right).
  destruct J as [ <- |J]; [lra|]. apply IH; auto; [lra|]. intros k K. apply NN. now right.
Qed.

Section Slices.
  Context (w : R) (sl : list (slice R)).
  Context (P : forall s, In s sl -> leaning_slice w s) (D : 0 < driving sl).
  Context (UN : forall s, In s sl -> unit_slice s) (NT : forall s, In s sl -> no_tension w s).
  Let F0 := resisting w sl / driving sl.

  Lemma resisting_plain : resisting w sl = rsum (map (plain_hold w) sl).
  Proof.
    unfold resisting. f_equal. apply map_ext_in. intros s I. unfold plain_hold, base_len.
    pose proof (NT s I) as N. unfold no_tension in N. now rewrite Rmax_right by lra.
  Qed.
  Lemma bishop_plain F : 0 < F -> bishop_resisting w F sl = rsum (map (plain_hold w) sl) + gain w sl F.
  Proof.
    intros FP. unfold bishop_resisting, gain. clear - P UN FP.
    induction sl as [|s l IH]; cbn [map rsum]; [ring|].
    rewrite IH by (intros; first [apply P|apply UN]; now right).
    rewrite (hold_gap w F s FP (P s (or_introl eq_refl)) (UN s (or_introl eq_refl))). ring.
  Qed.
  Lemma turn_gain : 0 < F0 -> turn w sl F0 = F0 + gain w sl F0 / driving sl.
  Proof.
    intros FP. unfold turn. destruct (Req_EM_T F0 0); [lra|]. rewrite bishop_plain by auto.
    unfold F0 at 2. rewrite resisting_plain. field. lra.
  Qed.
  Lemma turns_above k : 0 < F0 -> 0 <= gain w sl F0 -> F0 <= turns w sl F0 k.
  Proof.
    intros FP G. assert (U : F0 <= turn w sl F0).
    { rewrite turn_gain by auto. assert (0 <= gain w sl F0 / driving sl) by (apply Rmult_le_pos; [lra|left; now apply Rinv_0_lt_compat]). lra. }
    induction k as [|k IH]; [cbn; lra|]. eapply Rle_trans; [exact IH|]. now apply turns_rise.
  Qed.
  Lemma turns_below k : 0 < F0 -> gain w sl F0 <= 0 -> turns w sl F0 k <= F0.
  Proof.
    intros FP G. assert (U : turn w sl F0 <= F0).
    { rewrite turn_gain by auto. assert (0 <= - gain w sl F0 / driving sl) by (apply Rmult_le_pos; [lra|left; now apply Rinv_0_lt_compat]).
      unfold Rdiv in *. lra. }
    induction k as [|k IH]; [cbn; lra|]. eapply Rle_trans; [|exact IH]. now apply turns_fall.
  Qed.
  Lemma turns_strictly k : 0 < F0 ->
    (0 < gain w sl F0 -> F0 < turns w sl F0 (S k)) /\ (gain w sl F0 < 0 -> turns w sl F0 (S k) < F0).
  Proof.
    intros FP. assert (IV : 0 < / driving sl) by now apply Rinv_0_lt_compat. split; intros G.
    - apply Rlt_le_trans with (turn w sl F0).
      + rewrite turn_gain by auto. assert (0 < gain w sl F0 / driving sl) by now apply Rmult_lt_0_compat. lra.
      + change (turn w sl F0) with (turns w sl F0 1).
        assert (U : F0 <= turn w sl F0).
        { rewrite turn_gain by auto. assert (0 < gain w sl F0 / driving sl) by now apply Rmult_lt_0_compat. lra. }
        induction k as [|k IH]; [lra|]. eapply Rle_trans; [exact IH|]. now apply turns_rise.
    - apply Rle_lt_trans with (turn w sl F0).
      + change (turn w sl F0) with (turns w sl F0 1).
        assert (U : turn w sl F0 <= F0).
        { rewrite turn_gain by auto. assert (0 < - gain w sl F0 / driving sl) by (apply Rmult_lt_0_compat; lra).
          unfold Rdiv in *. lra. }
        induction k as [|k IH]; [lra|]. eapply Rle_trans; [|exact IH]. now apply turns_fall.
      + rewrite turn_gain by auto. assert (0 < - gain w sl F0 / driving sl) by (apply Rmult_lt_0_compat; lra).
        unfold Rdiv in *. lra.
  Qed.

  (** The gain is a covariance: it only sees how the shares differ from any fixed number. *)
  Lemma gain_shift q : gain w sl F0 =
    rsum (map (fun s => (share F0 s - q) * (F0 * (sl_W s * sl_sin s) - plain_hold w s)) sl).
  Proof.
    assert (Z : rsum (map (fun s => F0 * (sl_W s * sl_sin s) - plain_hold w s) sl) = 0).
    { assert (Q : forall l, rsum (map (fun s => F0 * (sl_W s * sl_sin s) - plain_hold w s) l) =
                F0 * driving l - rsum (map (plain_hold w) l)).
      { unfold driving. induction l as [|s l IH]; cbn [map rsum]; [ring|]. rewrite IH. ring. }
      rewrite Q, <- resisting_plain. unfold F0. field. lra. }
    unfold gain. transitivity (rsum (map (fun s => share F0 s * (F0 * (sl_W s * sl_sin s) - plain_hold w s)) sl) -
      q * rsum (map (fun s => F0 * (sl_W s * sl_sin s) - plain_hold w s) sl)); [rewrite Z; ring|].
    clear. generalize sl as l. generalize F0 as F. intros F. induction l as [|s l IH]; cbn [map rsum]; [ring|].
    replace (share F s * (F * (sl_W s * sl_sin s) - plain_hold w s) +
      rsum (map (fun s0 => share F s0 * (F * (sl_W s0 * sl_sin s0) - plain_hold w s0)) l) -
      q * (F * (sl_W s * sl_sin s) - plain_hold w s + rsum (map (fun s0 => F * (sl_W s0 * sl_sin s0) - plain_hold w s0) l)))
      with ((share F s - q) * (F * (sl_W s * sl_sin s) - plain_hold w s) +
      (rsum (map (fun s0 => share F s0 * (F * (sl_W s0 * sl_sin s0) - plain_hold w s0)) l) -
       q * rsum (map (fun s0 => F * (sl_W s0 * sl_sin s0) - plain_hold w s0) l))) by ring.
    rewrite IH. reflexivity.
  Qed.
  Lemma gain_threshold q : (forall s, In s sl ->
      0 <= (share F0 s - q) * (F0 * (sl_W s * sl_sin s) - plain_hold w s)) -> 0 <= gain w sl F0.
  Proof.
    intros T. rewrite (gain_shift q). apply rsum_nonneg. intros x I. apply in_map_iff in I as (s & <- & I). auto.
  Qed.

  (** *** One soil without cohesion, no water *)
  Context (t : R) (TP : 0 < t) (SAND : forall s, In s sl -> sl_tan s = t /\ sl_c s = 0 /\ sl_u s = 0 /\ 0 < sl_W s).
  Lemma sand_term s : 0 < F0 -> In s sl ->
    (share F0 s - t * t / (F0 * F0 + t * t)) * (F0 * (sl_W s * sl_sin s) - plain_hold w s) =
    sl_W s * t * F0 * ((F0 * sl_sin s - t * sl_cos s) * (F0 * sl_sin s - t * sl_cos s)) /
      ((F0 * sl_cos s + sl_sin s * t) * (F0 * F0 + t * t)).
  Proof.
    intros FP I. destruct (SAND s I) as (T & C & U & W). destruct (P s I) as (C0 & S0 & _).
    unfold share, plain_hold. rewrite T, C, U.
    assert (0 < F0 * sl_cos s) by now apply Rmult_lt_0_compat. assert (0 < sl_sin s * t) by now apply Rmult_lt_0_compat.
    assert (0 < F0 * F0) by now apply Rmult_lt_0_compat. assert (0 < t * t) by now apply Rmult_lt_0_compat.
    field. lra.
  Qed.
  Lemma sand_den s : 0 < F0 -> In s sl -> 0 < (F0 * sl_cos s + sl_sin s * t) * (F0 * F0 + t * t).
  Proof.
    intros FP I. destruct (P s I) as (C0 & S0 & _). apply Rmult_lt_0_compat; apply Rplus_lt_0_compat; now apply Rmult_lt_0_compat.
  Qed.
  Lemma sand_gain : 0 < F0 -> 0 <= gain w sl F0.
  Proof.
    intros FP. apply (gain_threshold (t * t / (F0 * F0 + t * t))). intros s I. rewrite sand_term by auto.
    destruct (SAND s I) as (_ & _ & _ & W). apply Rmult_le_pos.
    - apply Rmult_le_pos; [|apply Rle_0_sqr]. apply Rmult_le_pos; [apply Rmult_le_pos|]; lra.
    - left. now apply Rinv_0_lt_compat, sand_den.
  Qed.
  (** It is positive as soon as two bases differ. *)
  Lemma sand_gain_pos s s' : 0 < F0 -> In s sl -> In s' sl -> sl_sin s < sl_sin s' -> 0 < gain w sl F0.
  Proof.
    intros FP I I' L. destruct (Rle_lt_or_eq_dec _ _ (sand_gain FP)) as [|Z]; auto. exfalso.
    rewrite (gain_shift (t * t / (F0 * F0 + t * t))) in Z.
    assert (NN : forall q, In q sl -> 0 <= (share F0 q - t * t / (F0 * F0 + t * t)) * (F0 * (sl_W q * sl_sin q) - plain_hold w q)).
    { intros q J. rewrite sand_term by auto. destruct (SAND q J) as (_ & _ & _ & W). apply Rmult_le_pos.
      - apply Rmult_le_pos; [|apply Rle_0_sqr]. apply Rmult_le_pos; [apply Rmult_le_pos|]; lra.
      - left. now apply Rinv_0_lt_compat, sand_den. }
    assert (ZZ : forall q, In q sl -> F0 * sl_sin q = t * sl_cos q).
    { intros q J. assert (E : (share F0 q - t * t / (F0 * F0 + t * t)) * (F0 * (sl_W q * sl_sin q) - plain_hold w q) = 0).
      { exact (zero_terms _ sl Z NN q J). }
      rewrite sand_term in E by auto. destruct (SAND q J) as (_ & _ & _ & W). pose proof (sand_den q FP J) as DN.
      apply Rmult_integral in E. destruct E as [E|E]; [|apply Rinv_neq_0_compat in E; [contradiction|lra]].
      apply Rmult_integral in E. destruct E as [E|E]; [|apply Rmult_integral in E; lra].
      assert (0 < sl_W q * t * F0) by (apply Rmult_lt_0_compat; [now apply Rmult_lt_0_compat|auto]). lra. }
    pose proof (ZZ s I) as A. pose proof (ZZ s' I') as B. destruct (P s I) as (C & S & _). destruct (P s' I') as (C' & S' & _).
    pose proof (UN s I) as U. pose proof (UN s' I') as U'. unfold unit_slice in U, U'.
    assert (CL : sl_cos s' < sl_cos s).
    { destruct (Rlt_le_dec (sl_cos s') (sl_cos s)) as [|N]; auto. exfalso.
      assert (sl_cos s * sl_cos s <= sl_cos s' * sl_cos s') by (apply Rmult_le_compat; lra).
      assert (sl_sin s * sl_sin s < sl_sin s' * sl_sin s') by (apply Rmult_le_0_lt_compat; lra). lra. }
    assert (F0 * sl_sin s < F0 * sl_sin s') by (apply Rmult_lt_compat_l; auto).
    assert (t * sl_cos s' < t * sl_cos s) by (apply Rmult_lt_compat_l; auto). lra.
  Qed.
End Slices.
