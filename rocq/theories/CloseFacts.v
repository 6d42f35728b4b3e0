(** * CloseFacts: how far a value of Bishop's iteration is from the exact solution (C98). *)
From Coq Require Import ZArith Reals Lra Lia List Bool String.
From Verif Require Import Num Py Validation Utilities Objects Slope Planes Analysis
     Dynamic Api RealNum RealFacts ListFacts Spec CircleFacts PlaneFacts SoilFacts SliceFacts MatInv
     SearchFacts ViewFacts FosFacts FosMore StrengthFacts ScaleFacts FosTotal WetFacts FosCode Surcharge
     SurchargeCode Fellenius FelleniusCode.
Import ListNotations.
Local Open Scope R_scope.

(** slope of the base times tangent of the friction angle, at most [k] *)
Definition steep_at_most (k : R) (sl : list (slice R)) : Prop :=
  forall s, In s sl -> sl_sin s * sl_tan s <= k * sl_cos s.
(** the equation the iteration is after *)
Definition solves (w : R) (sl : list (slice R)) (f : R) : Prop :=
  0 < f /\ bishop_resisting w f sl = f * driving sl.

Section Close.
  Context (w : R) (sl : list (slice R)) (L : forall s, In s sl -> leaning_slice w s) (D : 0 < driving sl).
  Context (k : R) (K : steep_at_most k sl).

  Lemma steep_nonneg : 0 <= k.
  Proof.
    destruct sl as [|s l]; [unfold driving in D; cbn in D; lra|].
    destruct (L s (or_introl eq_refl)) as (C & S & T & _). pose proof (K s (or_introl eq_refl)) as B.
    assert (0 <= sl_sin s * sl_tan s) by (apply Rmult_le_pos; lra).
    destruct (Rle_lt_dec 0 k) as [|N]; auto. exfalso.
    assert (0 < - k * sl_cos s) by (apply Rmult_lt_0_compat; lra). lra.
  Qed.
  (** one slice *)
  Lemma slice_gap s x y : In s sl -> 0 < x -> 0 < y ->
    strength w s / m_alpha x s - strength w s / m_alpha y s =
      share x s * (strength w s / m_alpha y s / y) * (x - y) /\
    0 <= share x s <= k / (x + k) /\ 0 < strength w s / m_alpha y s / y.
  Proof.
    intros I X Y. destruct (L s I) as (C & S & T & ST). pose proof (K s I) as B. pose proof steep_nonneg as K0.
    assert (E : 0 <= sl_sin s * sl_tan s) by (apply Rmult_le_pos; lra).
    assert (PX : 0 < x * sl_cos s + sl_sin s * sl_tan s) by (apply Rplus_lt_le_0_compat; [now apply Rmult_lt_0_compat|lra]).
    assert (PY : 0 < y * sl_cos s + sl_sin s * sl_tan s) by (apply Rplus_lt_le_0_compat; [now apply Rmult_lt_0_compat|lra]).
    assert (AX : m_alpha x s = (x * sl_cos s + sl_sin s * sl_tan s) / x) by (unfold m_alpha; field; lra).
    assert (AY : m_alpha y s = (y * sl_cos s + sl_sin s * sl_tan s) / y) by (unfold m_alpha; field; lra).
    assert (AP : 0 < m_alpha y s) by (rewrite AY; now apply Rdiv_lt_0_compat).
    split; [rewrite AX, AY; unfold share; field; lra|]. split; [split|].
    - unfold share. apply Rmult_le_pos; [lra|]. left. now apply Rinv_0_lt_compat.
    - unfold share. apply Rmult_le_reg_r with (x * sl_cos s + sl_sin s * sl_tan s); auto.
      unfold Rdiv. rewrite Rmult_assoc, Rinv_l, Rmult_1_r by lra.
      apply Rmult_le_reg_r with (x + k); [lra|].
      replace (k * / (x + k) * (x * sl_cos s + sl_sin s * sl_tan s) * (x + k))
        with (k * (x * sl_cos s + sl_sin s * sl_tan s)) by (field; lra).
      assert (x * (sl_sin s * sl_tan s) <= x * (k * sl_cos s)) by (apply Rmult_le_compat_l; lra). lra.
    - apply Rdiv_lt_0_compat; auto. now apply Rdiv_lt_0_compat.
  Qed.
  Lemma resist_gap x y : 0 < x -> 0 < y ->
    Rabs (bishop_resisting w x sl - bishop_resisting w y sl) <= k / (x + k) * (bishop_resisting w y sl / y) * Rabs (x - y).
  Proof.
    intros X Y. unfold bishop_resisting.
    assert (G : forall l, incl l sl ->
      Rabs (rsum (map (fun s => (sl_c s * w + (sl_W s - sl_u s * w) * sl_tan s) / m_alpha x s) l) -
            rsum (map (fun s => (sl_c s * w + (sl_W s - sl_u s * w) * sl_tan s) / m_alpha y s) l)) <=
      k / (x + k) * (rsum (map (fun s => (sl_c s * w + (sl_W s - sl_u s * w) * sl_tan s) / m_alpha y s) l) / y) * Rabs (x - y)).
    { induction l as [|s l IH]; intros IN; cbn [map rsum].
      - rewrite Rminus_0_r, Rabs_R0. unfold Rdiv. rewrite !Rmult_0_l, Rmult_0_r, Rmult_0_l. lra.
      - specialize (IH (fun t J => IN t (or_intror J))).
        destruct (slice_gap s x y (IN s (or_introl eq_refl)) X Y) as (E & (S0 & S1) & P). unfold strength in E, P.
        set (h := fun z t => (sl_c t * w + (sl_W t - sl_u t * w) * sl_tan t) / m_alpha z t) in *.
        change ((sl_c s * w + (sl_W s - sl_u s * w) * sl_tan s) / m_alpha x s) with (h x s) in *.
        change ((sl_c s * w + (sl_W s - sl_u s * w) * sl_tan s) / m_alpha y s) with (h y s) in *.
        set (Ax := rsum (map _ l)) in IH |- *. set (Ay := rsum (map (fun s0 => _ / m_alpha y s0) l)) in IH |- *.
        replace (h x s + Ax - (h y s + Ay)) with ((h x s - h y s) + (Ax - Ay)) by ring.
        eapply Rle_trans; [apply Rabs_triang|].
        replace (k / (x + k) * ((h y s + Ay) / y) * Rabs (x - y)) with
          (k / (x + k) * (h y s / y) * Rabs (x - y) + k / (x + k) * (Ay / y) * Rabs (x - y)) by (unfold Rdiv; ring).
        apply Rplus_le_compat; [|exact IH]. rewrite E, Rabs_mult.
        apply Rmult_le_compat_r; [apply Rabs_pos|]. rewrite Rabs_pos_eq.
        + apply Rmult_le_compat_r; lra.
        + apply Rmult_le_pos; lra. }
    apply G. apply incl_refl.
  Qed.
  Lemma turn_gap x y : 0 < x -> 0 < y ->
    Rabs (turn w sl x - turn w sl y) <= k / (x + k) * (turn w sl y / y) * Rabs (x - y).
  Proof.
    intros X Y. rewrite !turn_at by auto. pose proof (resist_gap x y X Y) as G.
    assert (IV : 0 < / driving sl) by now apply Rinv_0_lt_compat.
    unfold Rdiv at 1 2. rewrite <- Rmult_minus_distr_r, Rabs_mult, (Rabs_pos_eq (/ driving sl)) by lra.
    apply Rmult_le_compat_r with (r := / driving sl) in G; [|lra]. unfold Rdiv in *. lra.
  Qed.

  (** the exact solution *)
  Lemma limit_solves F0 f : 0 < F0 -> Un_cv (turns w sl F0) f -> 0 < f -> solves w sl f.
  Proof.
    intros P C PF. split; [exact PF|]. pose proof (limit_fixed w sl L D F0 f P C PF) as X.
    rewrite turn_at in X by auto. rewrite <- X at 2. field. lra.
  Qed.
  Lemma solves_turn x : solves w sl x -> turn w sl x = x.
  Proof. intros (P & E). rewrite turn_at by auto. rewrite E. field. lra. Qed.
  Lemma solution_unique x y : solves w sl x -> solves w sl y -> x = y.
  Proof.
    assert (G : forall p q, solves w sl p -> solves w sl q -> ~ p < q).
    { intros p q SP SQ LT. pose proof (proj1 SP) as PP. pose proof (turn_ratio w sl L D p q ltac:(lra)) as T.
      rewrite (solves_turn p SP), (solves_turn q SQ) in T. lra. }
    intros SX SY. pose proof (G x y SX SY). pose proof (G y x SY SX). lra.
  Qed.
  Lemma limit_unique F0 f x : 0 < F0 -> Un_cv (turns w sl F0) f -> solves w sl x -> f = x.
  Proof.
    intros P C SX. pose proof (solves_turn x SX) as T. destruct SX as (PX & EX).
    pose proof (limit_le w sl L D F0 f x P C PX ltac:(lra)) as LE.
    destruct (Rle_lt_or_eq_dec _ _ LE) as [LT|]; auto. exfalso.
    destruct (turns_limit w sl L D F0 P) as (g & CG & G0). pose proof (UL_sequence _ _ _ C CG). subst g.
    destruct (Rle_lt_or_eq_dec _ _ G0) as [FP|FZ].
    - pose proof (solution_unique f x (limit_solves F0 f P C FP) (conj PX EX)). lra.
    - (* the values fall to zero but cannot pass below the smaller of F0 and x *)
      assert (LO : forall n, Rmin F0 x <= turns w sl F0 n).
      { induction n as [|n IH]; [apply Rmin_l|]. cbn [turns].
        assert (0 < Rmin F0 x) by (unfold Rmin; destruct (Rle_dec F0 x); lra).
        eapply Rle_trans; [|apply (turn_mono w sl L D (Rmin F0 x)); split; auto].
        unfold Rmin in *. destruct (Rle_dec F0 x) as [Q|Q]; [|lra].
        destruct (Rle_lt_or_eq_dec _ _ Q) as [Q'|Q']; [|rewrite Q'; lra].
        pose proof (turn_ratio w sl L D F0 x ltac:(lra)) as TR. rewrite T in TR.
        left. apply Rmult_lt_reg_r with x; lra. }
      assert (Rmin F0 x <= f) by (eapply Rle_cv_lim; [exact LO|apply const_cv|exact C]).
      unfold Rmin in *. destruct (Rle_dec F0 x); lra.
  Qed.

  (** One turn brings every value nearer. *)
  Lemma turn_nearer F0 f x : 0 < F0 -> Un_cv (turns w sl F0) f -> 0 < x ->
    Rabs (turn w sl x - f) <= k / (x + k) * Rabs (x - f).
  Proof.
    intros P C X. destruct (turns_limit w sl L D F0 P) as (g & CG & G0). pose proof (UL_sequence _ _ _ C CG). subst g.
    pose proof steep_nonneg as K0.
    assert (Q0 : 0 <= k / (x + k)) by (apply Rmult_le_pos; [lra|left; apply Rinv_0_lt_compat; lra]).
    destruct (Rle_lt_or_eq_dec _ _ G0) as [FP|FZ].
    - pose proof (turn_gap x f X FP) as G. rewrite (limit_fixed w sl L D F0 f P C FP) in G.
      replace (f / f) with 1 in G by (field; lra). lra.
    - (* every value of the iteration is then above the next *)
      assert (DN : forall n, turns w sl F0 (S n) <= turns w sl F0 n).
      { destruct (turns_monotone w sl L D F0 P) as [U|U]; [|exact U]. exfalso.
        pose proof (growing_ineq _ _ U C 0) as Q. cbn in Q. lra. }
      assert (C1 : Un_cv (fun n => turns w sl F0 (S n)) f).
      { intros e EP. destruct (C e EP) as (N & HN). exists N. intros n HH. apply HN. lia. }
      assert (CA : Un_cv (fun n => Rabs (turn w sl x - turns w sl F0 (S n))) (Rabs (turn w sl x - f))).
      { apply cv_cvabs. apply CV_minus; [apply const_cv|exact C1]. }
      assert (CB : Un_cv (fun n => k / (x + k) * Rabs (x - turns w sl F0 n)) (k / (x + k) * Rabs (x - f))).
      { apply CV_mult; [apply const_cv|]. apply cv_cvabs. apply CV_minus; [apply const_cv|exact C]. }
      refine (Rle_cv_lim _ CA CB). intros n. cbn [turns].
      pose proof (turns_pos w sl L D F0 n P) as Y. eapply Rle_trans; [apply (turn_gap x _ X Y)|].
      apply Rmult_le_compat_r; [apply Rabs_pos|]. rewrite <- (Rmult_1_r (k / (x + k))) at 2.
      apply Rmult_le_compat_l; auto. pose proof (DN n) as DD. cbn [turns] in DD.
      apply Rmult_le_reg_r with (turns w sl F0 n); auto. unfold Rdiv. rewrite Rmult_assoc, Rinv_l by lra. lra.
  Qed.
  (** What the last change says about the distance *)
  Lemma turn_error F0 f x : 0 < F0 -> Un_cv (turns w sl F0) f -> 0 < x ->
    x * Rabs (turn w sl x - f) <= k * Rabs (turn w sl x - x).
  Proof.
    intros P C X. pose proof (turn_nearer F0 f x P C X) as G. pose proof steep_nonneg as K0.
    apply Rmult_le_compat_r with (r := x + k) in G; [|lra].
    replace (k / (x + k) * Rabs (x - f) * (x + k)) with (k * Rabs (x - f)) in G by (field; lra).
    assert (T : Rabs (x - f) <= Rabs (turn w sl x - x) + Rabs (turn w sl x - f)).
    { replace (x - f) with (- (turn w sl x - x) + (turn w sl x - f)) by ring.
      eapply Rle_trans; [apply Rabs_triang|]. rewrite Rabs_Ropp. lra. }
    apply Rmult_le_compat_l with (r := k) in T; auto. lra.
  Qed.
  (** The distance after [n] turns *)
  Lemma turns_between F0 f n : 0 < F0 -> Un_cv (turns w sl F0) f -> Rmin F0 f <= turns w sl F0 n.
  Proof.
    intros P C. destruct (turns_monotone w sl L D F0 P) as [U|U].
    - eapply Rle_trans; [apply Rmin_l|]. induction n as [|n IH]; [cbn; lra|]. eapply Rle_trans; [exact IH|apply U].
    - eapply Rle_trans; [apply Rmin_r|]. apply (decreasing_ineq _ _ U C n).
  Qed.
  Lemma turns_rate F0 f n : 0 < F0 -> Un_cv (turns w sl F0) f ->
    Rabs (turns w sl F0 n - f) <= (k / (Rmin F0 f + k)) ^ n * Rabs (F0 - f).
  Proof.
    intros P C. pose proof steep_nonneg as K0. destruct (turns_limit w sl L D F0 P) as (g & CG & G0).
    pose proof (UL_sequence _ _ _ C CG). subst g.
    assert (M0 : 0 <= Rmin F0 f) by (unfold Rmin; destruct (Rle_dec F0 f); lra).
    destruct (Rle_lt_or_eq_dec _ _ K0) as [KP|KZ].
    - induction n as [|n IH]; [cbn; lra|]. cbn [turns pow].
      pose proof (turns_pos w sl L D F0 n P) as X. eapply Rle_trans; [apply (turn_nearer F0 f _ P C X)|].
      rewrite Rmult_assoc. apply Rmult_le_compat; [|apply Rabs_pos| |exact IH].
      + apply Rmult_le_pos; [lra|left; apply Rinv_0_lt_compat; lra].
      + apply Rmult_le_compat_l; [lra|]. apply Rinv_le_contravar; [lra|]. pose proof (turns_between F0 f n P C). lra.
    - (* no friction where the base is inclined: the first value is exact *)
      destruct n as [|n]; [cbn; lra|]. cbn [turns].
      pose proof (turns_pos w sl L D F0 n P) as X. pose proof (turn_nearer F0 f _ P C X) as G. rewrite <- KZ in *.
      unfold Rdiv in *. rewrite Rmult_0_l, Rmult_0_l in G.
      eapply Rle_trans; [exact G|]. apply Rmult_le_pos; [|apply Rabs_pos]. apply pow_le. rewrite Rmult_0_l. lra.
  Qed.
End Close.
