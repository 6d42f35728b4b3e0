(** * ExactLimit: the solutions of Bishop's equation for more and more slices (C99). *)
From Coq Require Import ZArith Reals Lra Lia List Bool.
From Verif Require Import Num Py Validation Utilities Objects Slope Planes Analysis
     Dynamic Api RealNum RealFacts ListFacts Spec CircleFacts PlaneFacts SoilFacts SliceFacts MatInv
     SearchFacts ViewFacts FosFacts FosMore StrengthFacts ScaleFacts FosTotal WetFacts FosCode MidSum Tame SliceLimit
     CutFacts CutLimit CutCode CutOneWay Surcharge CloseFacts.
Import ListNotations.
Local Open Scope R_scope.

(** ** Fixed points of functions that converge *)
Section Fixed.
  Context (G : nat -> R -> R) (T : R -> R -> Prop) (k : R) (K : 0 <= k) (f : nat -> R).
  Context (TP : forall x g, T x g -> 0 < x /\ 0 < g /\ Un_cv (fun n => G n x) g).
  Context (TE : forall x, 0 < x -> exists g, T x g).
  Context (MO : forall n x y, 0 < x <= y -> G n x <= G n y).
  Context (FA : forall n x y, 0 < x <= y -> G n y * (y + k) * x <= G n x * (x + k) * y).
  Context (F0 : forall n, 0 <= f n).
  Context (FL : forall n y, 0 < y -> G n y <= y -> f n <= y).
  Context (FG : forall n x, 0 < x -> x < G n x -> x < f n).

  Lemma T_det x g h : T x g -> T x h -> g = h.
  Proof. intros A B. destruct (TP x g A) as (_ & _ & C). destruct (TP x h B) as (_ & _ & D). exact (UL_sequence _ _ _ C D). Qed.
  Lemma T_mono x y g h : x <= y -> T x g -> T y h -> g <= h.
  Proof.
    intros L A B. destruct (TP x g A) as (X & _ & C). destruct (TP y h B) as (_ & _ & D).
    refine (Rle_cv_lim _ C D). intros n. apply MO. lra.
  Qed.
  Lemma T_fall x y g h : x <= y -> T x g -> T y h -> h * (y + k) * x <= g * (x + k) * y.
  Proof.
    intros L A B. destruct (TP x g A) as (X & _ & C). destruct (TP y h B) as (_ & _ & D).
    assert (C' : Un_cv (fun n => G n x * ((x + k) * y)) (g * ((x + k) * y))) by (apply CV_mult; [exact C|apply cv_const]).
    assert (D' : Un_cv (fun n => G n y * ((y + k) * x)) (h * ((y + k) * x))) by (apply CV_mult; [exact D|apply cv_const]).
    assert (h * ((y + k) * x) <= g * ((x + k) * y)); [|lra].
    refine (Rle_cv_lim _ D' C'). intros n. pose proof (FA n x y ltac:(lra)). lra.
  Qed.
  (** below a value that rises, every value rises *)
  Lemma T_below x y g h : x < y -> T x g -> T y h -> y <= h -> x < g.
  Proof.
    intros L A B H. pose proof (T_fall x y g h ltac:(lra) A B) as Q. destruct (TP x g A) as (X & GP & _).
    assert (y * ((y + k) * x) <= h * ((y + k) * x)) by (apply Rmult_le_compat_r; [apply Rmult_le_pos; lra|lra]).
    assert (Q2 : (y + k) * x <= g * (x + k)).
    { apply Rmult_le_reg_r with y; [lra|]. lra. }
    apply Rmult_lt_reg_r with (x + k); [lra|]. assert (x * (x + k) < (y + k) * x) by nra. lra.
  Qed.

  (** a turn brings a value nearer to a fixed point *)
  Lemma T_near F x g : T F F -> T x g -> Rabs (g - F) <= k / (x + k) * Rabs (x - F).
  Proof.
    intros A B. destruct (TP F F A) as (FP & _). destruct (TP x g B) as (X & GP & _).
    assert (IV : 0 < / (x + k)) by (apply Rinv_0_lt_compat; lra).
    destruct (Rle_lt_dec x F) as [L|L].
    - pose proof (T_mono x F g F L B A). pose proof (T_fall x F g F L B A) as Q.
      rewrite Rabs_left1, Rabs_left1 by lra.
      assert (Q2 : (F + k) * x <= g * (x + k)) by (apply Rmult_le_reg_r with F; [exact FP|lra]).
      apply Rmult_le_reg_r with (x + k); [lra|].
      replace (k / (x + k) * - (x - F) * (x + k)) with (k * (F - x)) by (field; lra). lra.
    - pose proof (T_mono F x F g ltac:(lra) A B). pose proof (T_fall F x F g ltac:(lra) A B) as Q.
      rewrite Rabs_right, Rabs_right by lra.
      assert (Q2 : g * (x + k) <= (F + k) * x) by (apply Rmult_le_reg_r with F; [exact FP|lra]).
      apply Rmult_le_reg_r with (x + k); [lra|].
      replace (k / (x + k) * (x - F) * (x + k)) with (k * (x - F)) by (field; lra). lra.
  Qed.
  Lemma T_sequence F h : T F F -> (forall i, T (h i) (h (S i))) -> Un_cv h F.
  Proof.
    intros A HT. destruct (TP F F A) as (FP & _). set (m := Rmin F (h O)).
    assert (MP : 0 < m) by (apply Rmin_glb_lt; [lra|apply (TP _ _ (HT O))]).
    assert (LB : forall i, m <= h i).
    { induction i as [|i IH]; [apply Rmin_r|]. pose proof (HT i) as B. destruct (Rle_lt_dec (h i) F) as [L|L].
      - apply Rle_trans with (h i); auto. destruct (Rle_lt_or_eq_dec _ _ L) as [L'|E].
        + left. exact (T_below (h i) F (h (S i)) F L' B A (Rle_refl F)).
        + right. rewrite E in B |- *. exact (T_det F F (h (S i)) A B).
      - apply Rle_trans with F; [apply Rmin_l|]. exact (T_mono F (h i) F (h (S i)) ltac:(lra) A B). }
    set (q := k / (m + k)). assert (Q : 0 <= q < 1).
    { split; [apply Rmult_le_pos; [exact K|left; apply Rinv_0_lt_compat; lra]|].
      unfold q. apply Rmult_lt_reg_r with (m + k); [lra|]. unfold Rdiv. rewrite Rmult_assoc, Rinv_l by lra. lra. }
    assert (B : forall i, Rabs (h i - F) <= q ^ i * Rabs (h O - F)).
    { induction i as [|i IH]; [cbn [pow]; lra|]. eapply Rle_trans; [apply (T_near F (h i) (h (S i)) A (HT i))|].
      cbn [pow]. rewrite Rmult_assoc. pose proof (LB i). apply Rmult_le_compat.
      - apply Rmult_le_pos; [exact K|left; apply Rinv_0_lt_compat; lra].
      - apply Rabs_pos.
      - unfold q, Rdiv. apply Rmult_le_compat_l; [exact K|]. apply Rinv_le_contravar; lra.
      - exact IH. }
    clear LB. clearbody q. intros e E. pose proof (Rabs_pos (h O - F)) as D.
    destruct (pow_lt_1_zero q ltac:(rewrite Rabs_right; lra) (e / (Rabs (h O - F) + 1))) as (N & PW).
    { apply Rdiv_lt_0_compat; lra. }
    exists N. intros i I. unfold R_dist. eapply Rle_lt_trans; [apply B|]. specialize (PW i I).
    rewrite Rabs_right in PW by (apply Rle_ge, pow_le; lra).
    apply Rle_lt_trans with (q ^ i * (Rabs (h O - F) + 1)); [apply Rmult_le_compat_l; [apply pow_le|]; lra|].
    apply Rmult_lt_compat_r with (r := Rabs (h O - F) + 1) in PW; [|lra].
    unfold Rdiv in PW. rewrite Rmult_assoc, Rinv_l in PW by lra. lra.
  Qed.

  Lemma fixed_limit : (exists x g, T x g /\ x <= g) ->
    exists F, Un_cv f F /\ T F F /\ (forall x, T x x -> x = F) /\ (forall h, (forall i, T (h i) (h (S i))) -> Un_cv h F).
  Proof.
    intros (x1 & y1 & TX & LX). set (E := fun x => x = 0 \/ exists g, T x g /\ x <= g).
    destruct (TE 1 ltac:(lra)) as (g1 & T1). destruct (TP 1 g1 T1) as (_ & G1 & _).
    assert (BD : bound E).
    { exists (Rmax 1 (g1 * (1 + k))). intros x [->|(g & A & L)]; [eapply Rle_trans; [|apply Rmax_l]; lra|].
      destruct (Rle_lt_dec x 1) as [|X]; [eapply Rle_trans; [|apply Rmax_l]; lra|].
      pose proof (T_fall 1 x g1 g ltac:(lra) T1 A) as Q. eapply Rle_trans; [|apply Rmax_r].
      assert (x * (x + k) <= g * (x + k)) by (apply Rmult_le_compat_r; lra).
      assert (x + k <= g1 * (1 + k)); [|lra]. apply Rmult_le_reg_l with x; lra. }
    destruct (completeness E BD (ex_intro _ 0 (or_introl eq_refl))) as (F & UB & LU).
    assert (FP : 0 <= F) by (apply UB; now left).
    assert (UP : forall y g, F < y -> T y g -> g < y).
    { intros y g L A. apply Rnot_le_lt. intros N. assert (E y) by (right; exists g; auto). pose proof (UB y H). lra. }
    assert (DN : forall x g, 0 < x < F -> T x g -> x < g).
    { intros x g L A. destruct (Rle_lt_dec g x) as [N|]; auto. exfalso.
      assert (UX : is_upper_bound E x).
      { intros y [->|(h & B & H)]; [lra|]. destruct (Rle_lt_dec y x) as [|Y]; auto. exfalso.
        pose proof (T_below x y g h Y A B H). lra. }
      pose proof (LU x UX). lra. }
    assert (FQ : 0 < F).
    { apply Rlt_le_trans with x1; [apply (TP _ _ TX)|]. apply UB. right. eauto. }
    assert (FX : T F F).
    { destruct (TE F FQ) as (g & A). assert (g = F) as EG; [|rewrite EG in A; exact A].
      apply Rle_antisym; apply Rnot_lt_le; intros N.
      + (* g > F *)
        destruct (TE ((F + g) / 2) ltac:(lra)) as (h & B). pose proof (UP ((F + g) / 2) h ltac:(lra) B).
        pose proof (T_mono F ((F + g) / 2) g h ltac:(lra) A B). lra.
      + (* g < F *)
        destruct (TP F g A) as (_ & GP & _).
        destruct (TE ((F + g) / 2) ltac:(lra)) as (h & B). pose proof (DN ((F + g) / 2) h ltac:(lra) B).
        pose proof (T_mono ((F + g) / 2) F h g ltac:(lra) B A). lra. }
    exists F. split; [|split; [exact FX|split; [|intros h HT; now apply T_sequence]]].
    - (* the solutions tend to the bound *)
      intros e EP.
      assert (HI : exists N, forall n, (N <= n)%nat -> f n < F + e).
      { destruct (TE (F + e / 2) ltac:(lra)) as (g & A). pose proof (UP (F + e / 2) g ltac:(lra) A) as L.
        destruct (TP _ _ A) as (X & _ & C).
        destruct (cv_pos _ (F + e / 2 - g) (CV_minus _ _ _ _ (cv_const (F + e / 2)) C) ltac:(lra)) as (N & H).
        exists N. intros n B. specialize (H n B). cbv beta in H. pose proof (FL n (F + e / 2) X ltac:(lra)). lra. }
      assert (LO : exists N, forall n, (N <= n)%nat -> F - e < f n).
      { destruct (Rlt_le_dec (F - e) 0) as [Z|Z]; [exists O; intros n _; pose proof (F0 n); lra|].
        assert (X : 0 < F - e / 2 < F) by lra.
        destruct (TE (F - e / 2) ltac:(lra)) as (g & A). pose proof (DN _ _ X A) as L.
        destruct (TP _ _ A) as (X1 & _ & C).
        destruct (cv_pos _ (g - (F - e / 2)) (CV_minus _ _ _ _ C (cv_const (F - e / 2))) ltac:(lra)) as (N & H).
        exists N. intros n B. specialize (H n B). cbv beta in H. pose proof (FG n (F - e / 2) X1 ltac:(lra)). lra. }
      destruct HI as (N1 & H1). destruct LO as (N2 & H2). exists (N1 + N2)%nat. intros n B.
      specialize (H1 n ltac:(lia)). specialize (H2 n ltac:(lia)). unfold R_dist. apply Rabs_def1; lra.
    - intros x A. destruct (TP x x A) as (X & _ & _). apply Rle_antisym; apply Rnot_lt_le; intros N.
      + pose proof (UP x x N A). lra.
      + pose proof (DN x x ltac:(lra) A). lra.
  Qed.
End Fixed.

(** ** One turn *)
Section Turn.
  Context (w : R) (sl : list (slice R)) (L : forall s, In s sl -> leaning_slice w s) (D : 0 < driving sl).
  Lemma turn_fall k x y : steep_at_most k sl -> 0 < x <= y -> turn w sl y * (y + k) * x <= turn w sl x * (x + k) * y.
  Proof.
    intros K X. rewrite !turn_at by lra.
    assert (Q : bishop_resisting w y sl * ((y + k) * x) <= bishop_resisting w x sl * ((x + k) * y)).
    { unfold bishop_resisting. clear D. revert L K. induction sl as [|s l IH]; intros L K; cbn [map rsum]; [lra|].
      assert (I1 := IH (fun t J => L t (or_intror J)) (fun t J => K t (or_intror J))).
      do 2 rewrite Rmult_plus_distr_r with (r3 := (_ + _) * _). apply Rplus_le_compat; [|exact I1]. clear IH I1.
      destruct (L s (or_introl eq_refl)) as (C & S & T & ST). pose proof (K s (or_introl eq_refl)) as B. fold (strength w s).
      assert (E : 0 <= sl_sin s * sl_tan s) by (apply Rmult_le_pos; lra).
      assert (PX : 0 < x * sl_cos s + sl_sin s * sl_tan s) by (apply Rplus_lt_le_0_compat; [apply Rmult_lt_0_compat|]; lra).
      assert (PY : 0 < y * sl_cos s + sl_sin s * sl_tan s) by (apply Rplus_lt_le_0_compat; [apply Rmult_lt_0_compat|]; lra).
      replace (strength w s / m_alpha y s * ((y + k) * x)) with
        (strength w s * x * y * ((y + k) / (y * sl_cos s + sl_sin s * sl_tan s))) by (unfold m_alpha; field; lra).
      replace (strength w s / m_alpha x s * ((x + k) * y)) with
        (strength w s * x * y * ((x + k) / (x * sl_cos s + sl_sin s * sl_tan s))) by (unfold m_alpha; field; lra).
      apply Rmult_le_compat_l; [apply Rmult_le_pos; [apply Rmult_le_pos|]; lra|].
      apply Rmult_le_reg_r with ((y * sl_cos s + sl_sin s * sl_tan s) * (x * sl_cos s + sl_sin s * sl_tan s)); [now apply Rmult_lt_0_compat|].
      replace ((y + k) / (y * sl_cos s + sl_sin s * sl_tan s) * ((y * sl_cos s + sl_sin s * sl_tan s) * (x * sl_cos s + sl_sin s * sl_tan s)))
        with ((y + k) * (x * sl_cos s + sl_sin s * sl_tan s)) by (field; lra).
      replace ((x + k) / (x * sl_cos s + sl_sin s * sl_tan s) * ((y * sl_cos s + sl_sin s * sl_tan s) * (x * sl_cos s + sl_sin s * sl_tan s)))
        with ((x + k) * (y * sl_cos s + sl_sin s * sl_tan s)) by (field; lra).
      assert ((y - x) * (sl_sin s * sl_tan s) <= (y - x) * (k * sl_cos s)) by (apply Rmult_le_compat_l; lra). lra. }
    assert (IV : 0 < / driving sl) by now apply Rinv_0_lt_compat.
    apply Rmult_le_compat_r with (r := / driving sl) in Q; [|lra]. unfold Rdiv. lra.
  Qed.
  Lemma turns_limit_sig F : 0 < F -> { f | Un_cv (turns w sl F) f }.
  Proof.
    intros HF. destruct (Rle_lt_dec F (turn w sl F)) as [U|U].
    - apply growing_cv; [intros n; now apply turns_rise|].
      exists (Rmax F (ceiling w sl)). intros x (j & ->). now apply turns_cap.
    - apply decreasing_cv; [intros n; apply turns_fall; auto; lra|].
      exists 0. intros x (j & ->). unfold opp_seq. pose proof (turns_pos w sl L D F j HF). lra.
  Qed.
End Turn.

(** ** The slices of a circle that leans one way *)
Section OneWay.
  Context {EN : Env} (s : st R) (v : view R) (SV : sound s v) (SS : some_strength s) (DV : dry v).
  Context (cx cy r : R) (a b : R * R) (CT : cuttable v cx cy r a b).
  Context (BC : fst b <= cx) (BU : buried (v_geom v) cx cy r a b).
  Context (rho c t u : R -> R) (AL : along v cx cy r (fst a) (fst b) rho c t u).
  Notation xa := (fst a).
  Notation xb := (fst b).
  Notation us := (v_udls v).
  Notation ls := (v_lls v).
  Notation wd n := ((xb - xa) / INR (S n)).
  Let GV := sound_good s v SV.
  Let AB := cut_AB v GV cx cy r a b CT.
  Let RP := cut_r v GV cx cy r a b CT.
  Let IN := cut_in v GV cx cy r a b CT.
  Notation own n := (own v cx cy r a b n).

  Lemma wd_pos n : 0 < wd n.
  Proof. apply Rdiv_lt_0_compat; [pose proof AB; lra|]. apply lt_0_INR. lia. Qed.
  Lemma strip_on_pos w x : 0 <= strip_on us w x.
  Proof.
    unfold strip_on. apply rsum_nonneg. intros y I. apply in_map_iff in I as ([[p q] m] & <- & I).
    apply (so_udls s v SV) in I. unfold udl_share. cbn [fst snd]. 
    apply Rmult_le_pos; [lra|apply Rmax_l].
  Qed.
  Lemma own_vals n q : In q (own n) -> exists x, xa < x < xb /\ wd n * rho x <= sl_W q /\
    sl_sin q = sin_at cx r x /\ sl_cos q = cos_at cx r x /\ sl_c q = c x /\ sl_tan q = t x /\ sl_u q = 0.
  Proof.
    intros I. pose proof (SL' v cx cy r a b _ (own_ok v GV cx cy r a b CT) n) as F.
    destruct (Forall2_In_r _ _ _ _ F I) as (i & II & K). apply zrange_In in II.
    set (j := Z.to_nat i). assert (J : (j < S n)%nat) by lia. replace i with (Z.of_nat j) in K by lia.
    pose proof (mid_in a b AB n j J) as X.
    destruct (slice_vals v (gv_desc v GV) (ct_mats _ _ _ _ _ _ CT) cx cy r a b n j q J K) as (EW & ES & EC & E1 & E2 & EU).
    destruct (along_eq v (gv_desc v GV) (ct_mats _ _ _ _ _ _ CT) cx cy r xa xb rho c t u AL _ X) as (R1 & R2 & R3 & R4).
    exists (mid_of xa (wd n) (Z.of_nat j)). split; [exact X|]. split.
    - rewrite EW, R1. pose proof (strip_on_pos (wd n) (mid_of xa (wd n) (Z.of_nat j))).
      pose proof (line_on_pos ls (wd n) (mid_of xa (wd n) (Z.of_nat j)) (ct_lls _ _ _ _ _ _ CT)). lra.
    - split; [exact ES|]. split; [exact EC|]. split; [congruence|]. split; [congruence|].
      rewrite EU, <- R4. now apply (way_u v DV cx cy r a b rho c t u AL).
  Qed.

  Lemma own_leaning n q : In q (own n) -> leaning_slice (wd n) q /\ 0 < sl_W q /\ 0 <= sl_c q /\ sl_u q = 0.
  Proof.
    intros I. destruct (own_vals n q I) as (x & X & W & ES & EC & E1 & E2 & EU). pose proof (wd_pos n) as WP.
    destruct (way_rho s v SV cx cy r a b CT BU rho c t u AL x X) as (D1 & D2).
    destruct (strength_at s v SV SS cx cy r a b rho c t u AL) as (k & K & ST). destruct (ST x X) as (C0 & T0 & E).
    assert (WQ : 0 < sl_W q). { apply Rlt_le_trans with (wd n * rho x); [apply Rmult_lt_0_compat; lra|exact W]. }
    repeat split; auto; try lra.
    - rewrite EC. apply (way_cos s v SV cx cy r a b CT x). lra.
    - rewrite ES. now apply (way_sin s v SV cx cy r a b CT BC x).
    - unfold strength. rewrite EU, E1, E2. rewrite Rmult_0_l, Rminus_0_r.
      assert (Q : 0 < c x + rho x * t x).
      { eapply Rlt_le_trans; [|apply (E (rho x)); lra]. apply Rmult_lt_0_compat; auto. apply Rmin_glb_lt; lra. }
      apply Rlt_le_trans with (wd n * (c x + rho x * t x)); [now apply Rmult_lt_0_compat|].
      assert (wd n * rho x * t x <= sl_W q * t x) by (apply Rmult_le_compat_r; lra). lra.
  Qed.
  Lemma own_some n : exists q l, own n = q :: l.
  Proof. unfold CutCode.own. cbn [zrange map]. eauto. Qed.
  Lemma own_push n : 0 < driving (own n).
  Proof.
    unfold driving. destruct (own_some n) as (q & l & E). assert (A : forall z, In z (own n) -> 0 < sl_W z * sl_sin z).
    { intros z I. destruct (own_leaning n z I) as ((_ & S & _) & W & _). now apply Rmult_lt_0_compat. }
    rewrite E in *. cbn [map rsum]. apply Rplus_lt_le_0_compat; [apply A; now left|].
    apply rsum_nonneg. intros y J. apply in_map_iff in J as (z & <- & J). left. apply A. now right.
  Qed.
  Lemma own_hold n : 0 < resisting (wd n) (own n).
  Proof.
    unfold resisting. destruct (own_some n) as (q & l & E).
    match goal with |- 0 < rsum (map ?g _) => assert (A : forall z, In z (own n) -> 0 < g z) end.
    { intros z I. destruct (own_leaning n z I) as ((C & _ & T & S) & W & C0 & U). cbv beta.
      pose proof (wd_pos n) as WP. unfold strength in S. rewrite U in *.
      rewrite Rmult_0_l, Rminus_0_r in S. rewrite ?Rmult_0_l, ?Rminus_0_r.
      assert (WC : 0 < sl_W z * sl_cos z) by now apply Rmult_lt_0_compat.
      rewrite Rmax_right by lra.
      destruct (Rle_lt_or_eq_dec _ _ C0) as [CP|CZ].
      - apply Rplus_lt_le_0_compat; [|apply Rmult_le_pos; lra].
        apply Rmult_lt_0_compat; auto. now apply Rdiv_lt_0_compat.
      - rewrite <- CZ in *. rewrite !Rmult_0_l, Rplus_0_l in *.
        assert (0 < sl_tan z). { apply Rnot_le_lt. intros N. assert (sl_tan z = 0) as Z by lra. rewrite Z in S. lra. }
        now apply Rmult_lt_0_compat. }
    rewrite E in *. cbn [map rsum]. apply Rplus_lt_le_0_compat; [apply A; now left|].
    apply rsum_nonneg. intros y J. apply in_map_iff in J as (z & <- & J). left. apply A. now right.
  Qed.
  Lemma most_tan (M : layering) : exists T, 0 <= T /\ forall rl m, In (rl, m) M -> m_tan_phi m <= T.
  Proof.
    induction M as [|[rl m] M (T & T0 & IH)]; [exists 0; split; [lra|intros rl m []]|].
    exists (Rmax T (m_tan_phi m)). split; [eapply Rle_trans; [exact T0|apply Rmax_l]|].
    intros rl' m' [J|J]; [injection J as <- <-; apply Rmax_r|]. eapply Rle_trans; [eauto|apply Rmax_l].
  Qed.
  Lemma own_steep : exists k, 0 <= k /\ forall n, steep_at_most k (own n).
  Proof.
    destruct (most_tan (v_mats v)) as (T & T0 & TB). destruct (way_least s v SV cx cy r a b CT BC) as (mu & MU & LE).
    exists (T / mu). split; [apply Rmult_le_pos; [lra|left; now apply Rinv_0_lt_compat]|].
    intros n q I. destruct (own_vals n q I) as (x & X & _ & -> & -> & _ & -> & _).
    destruct (al_mat _ _ _ _ _ _ _ _ _ _ AL x X) as (m & LM & _ & ->). destruct (layer_at_In _ _ _ LM) as (rl & J).
    pose proof (TB rl m J) as TM. pose proof (LE x X) as L. pose proof (way_sin s v SV cx cy r a b CT BC x X) as S.
    destruct (mat_strength s v SV SS rl m J) as (_ & M0 & _).
    assert (S1 : sin_at cx r x <= 1).
    { pose proof (sin_le cx r a b RP IN x ltac:(lra)) as Q. eapply Rle_trans; [apply RRle_abs|exact Q]. }
    apply Rle_trans with T; [apply Rle_trans with (1 * T); [apply Rmult_le_compat; lra|lra]|].
    replace T with (T / mu * mu) at 1 by (field; lra). apply Rmult_le_compat_l; [|exact L].
    apply Rmult_le_pos; [lra|left; now apply Rinv_0_lt_compat].
  Qed.

  Lemma turn_cv_at (prP : Riemann_integrable (push us cx r rho) xa xb) F F' :
    limit_turn v cx r a b rho c t u prP F F' -> Un_cv (fun n => turn (wd n) (own n) F) F'.
  Proof.
    intros (F0 & (mu & MU & M) & pr & ->). pose proof (way_push s v SV cx cy r a b CT BC BU rho c t u AL prP) as PP.
    assert (M' : forall x, xa < x < xb -> mu <= m_at cx r (of_mat v cx cy r (@m_tan_phi R)) F x).
    { intros x X. rewrite <- (m_eq v GV cx cy r a b CT rho c t u AL); auto. }
    destruct (bishop_integrable v (gv_geom v GV) cx cy r a b AB RP IN F mu MU M') as [pr'].
    destruct (bishop_cv v (gv_geom v GV) (gv_desc v GV) (ct_mats _ _ _ _ _ _ CT) (ct_lls _ _ _ _ _ _ CT) cx cy r a b AB RP IN
                (CutCode.own v cx cy r a b) (own_ok v GV cx cy r a b CT)
                (ct_first _ _ _ _ _ _ CT) (ct_layers _ _ _ _ _ _ CT) (fun _ => F) F mu pr' (cv_const F) ltac:(lra) MU M') as (BV & _).
    replace (RiemannInt pr' + line_sum (fun x => of_mat v cx cy r (@m_tan_phi R) x / m_at cx r (of_mat v cx cy r (@m_tan_phi R)) F x) xa xb ls) with
            (RiemannInt pr + line_sum (fun x => t x / m_at cx r t F x) xa xb ls) in BV.
    2:{ f_equal.
        - apply RiemannInt_P18; [pose proof AB; lra|]. intros x X. now apply (bishop_hold_eq v GV cx cy r a b CT rho c t u AL).
        - apply (line_sum_eq v cx cy r a b CT). intros x X. rewrite (m_eq v GV cx cy r a b CT rho c t u AL) by auto.
          destruct (along_eq v (gv_desc v GV) (ct_mats _ _ _ _ _ _ CT) cx cy r xa xb rho c t u AL x X) as (_ & _ & -> & _). reflexivity. }
    pose proof (cv_div _ _ _ _ BV (own_driving v GV cx cy r a b CT rho c t u AL prP) ltac:(lra)) as C.
    intros e EP. destruct (C e EP) as (N & Q). exists N. intros n L. rewrite turn_at by auto. now apply Q.
  Qed.

  (** The least cohesion and the least friction that are not zero *)
  Lemma least_pos (f : material R -> R) (M : layering) : (forall rl m, In (rl, m) M -> 0 <= f m) ->
    exists e, 0 < e /\ forall rl m, In (rl, m) M -> f m = 0 \/ e <= f m.
  Proof.
    induction M as [|[rl m] M IH]; intros Q; [exists 1; split; [lra|intros rl m []]|].
    destruct IH as (e & E & B); [intros rl' m' J; apply (Q rl' m'); now right|].
    destruct (Rle_lt_or_eq_dec _ _ (Q rl m (or_introl eq_refl))) as [P|Z].
    - exists (Rmin e (f m)). split; [now apply Rmin_glb_lt|]. intros rl' m' [J|J].
      + injection J as <- <-. right. apply Rmin_r.
      + destruct (B rl' m' J) as [|L]; auto. right. eapply Rle_trans; [apply Rmin_l|exact L].
    - exists e. split; auto. intros rl' m' [J|J]; [injection J as <- <-; left; lra|eauto].
  Qed.
  Lemma floors : exists tau kap, 0 < tau /\ 0 < kap /\ forall x, xa < x < xb ->
    0 <= c x /\ (tau <= t x \/ t x = 0 /\ kap <= c x).
  Proof.
    destruct (least_pos (@m_tan_phi R) (v_mats v)) as (tau & TP & TB); [intros rl m J; apply (mat_strength s v SV SS rl m J)|].
    destruct (least_pos (@m_cohesion R) (v_mats v)) as (kap & KP & KB); [intros rl m J; apply (mat_strength s v SV SS rl m J)|].
    exists tau, kap. split; auto. split; auto. intros x X.
    destruct (al_mat _ _ _ _ _ _ _ _ _ _ AL x X) as (m & LM & -> & ->). destruct (layer_at_In _ _ _ LM) as (rl & J).
    destruct (mat_strength s v SV SS rl m J) as (C0 & T0 & D). split; auto.
    destruct (TB rl m J) as [Z|L]; auto. right. split; auto. destruct (KB rl m J) as [Z'|L]; auto. lra.
  Qed.
  Lemma weight_bound : exists B, 0 <= B /\ forall x, xa < x < xb -> 0 <= rho x + strip_at us x <= B.
  Proof.
    destruct (tame_bounded _ xa xb AB (rho0_tame v cx cy r xa xb RP IN)) as (B1 & P1 & Q1).
    destruct (tame_bounded _ xa xb AB (fun x _ => strip_tame us x)) as (B2 & P2 & Q2).
    exists (B1 + B2). split; [lra|]. intros x X.
    destruct (along_eq v (gv_desc v GV) (ct_mats _ _ _ _ _ _ CT) cx cy r xa xb rho c t u AL x X) as (R1 & _).
    destruct (way_rho s v SV cx cy r a b CT BU rho c t u AL x X). pose proof (way_strip s v SV x).
    specialize (Q1 x ltac:(lra)). specialize (Q2 x ltac:(lra)). rewrite <- R1 in Q1.
    pose proof (RRle_abs (rho x)). pose proof (RRle_abs (strip_at us x)). lra.
  Qed.
  Lemma one_turn x : xa < x < xb -> sin_at cx r x * sin_at cx r x + cos_at cx r x * cos_at cx r x = 1.
  Proof.
    intros X. pose proof RP as P. pose proof (IN x ltac:(lra)) as I. unfold sin_at, cos_at, drop_at.
    assert (Q : sqrt (r * r - (x - cx) * (x - cx)) * sqrt (r * r - (x - cx) * (x - cx)) = r * r - (x - cx) * (x - cx)) by (apply sqrt_sqrt; lra).
    set (z := sqrt (r * r - (x - cx) * (x - cx))) in *. clearbody z. field_simplify_eq; [|lra].
    replace (z ^ 2) with (z * z) by ring. rewrite Q. ring.
  Qed.
  Lemma integral_ge f x0 d kap (pr : Riemann_integrable f xa xb) : 0 < d -> xa < x0 - d -> x0 + d < xb ->
    (forall x, xa < x < xb -> 0 <= f x) -> (forall x, x0 - d < x < x0 + d -> kap <= f x) ->
    2 * d * kap <= RiemannInt pr.
  Proof.
    intros D A B P KP.
    pose proof (RiemannInt_P22 pr (ltac:(lra) : xa <= x0 - d <= xb)) as p1.
    pose proof (RiemannInt_P23 pr (ltac:(lra) : xa <= x0 - d <= xb)) as p2.
    pose proof (RiemannInt_P22 p2 (ltac:(lra) : x0 - d <= x0 + d <= xb)) as p3.
    pose proof (RiemannInt_P23 p2 (ltac:(lra) : x0 - d <= x0 + d <= xb)) as p4.
    rewrite <- (RiemannInt_P26 p1 p2 pr), <- (RiemannInt_P26 p3 p4 p2).
    assert (0 <= RiemannInt p1) by (apply integral_nonneg; [lra|intros; apply P; lra]).
    assert (0 <= RiemannInt p4) by (apply integral_nonneg; [lra|intros; apply P; lra]).
    assert (KK : Riemann_integrable (fct_cte kap) (x0 - d) (x0 + d)) by apply RiemannInt_P14.
    assert (Q : RiemannInt KK <= RiemannInt p3) by (apply RiemannInt_P19; [lra|intros; apply KP; lra]).
    rewrite RiemannInt_P15 in Q. lra.
  Qed.
  Lemma integral_scaled f g k (pf : Riemann_integrable f xa xb) (pg : Riemann_integrable g xa xb) :
    (forall x, xa < x < xb -> k * f x <= g x) -> k * RiemannInt pf <= RiemannInt pg.
  Proof.
    intros Q. assert (Z : Riemann_integrable (fct_cte 0) xa xb) by apply RiemannInt_P14.
    pose proof (RiemannInt_P10 k Z pf) as pk. pose proof (RiemannInt_P13 Z pf pk) as E.
    rewrite RiemannInt_P15 in E. assert (L : RiemannInt pk <= RiemannInt pg); [|lra].
    apply RiemannInt_P19; [pose proof AB; lra|]. intros x X. unfold fct_cte. specialize (Q x X). lra.
  Qed.
  (** a small enough factor grows at the next turn *)
  Lemma way_grows (prP : Riemann_integrable (push us cx r rho) xa xb) :
    exists F F', limit_turn v cx r a b rho c t u prP F F' /\ F <= F'.
  Proof.
    pose proof (way_push s v SV cx cy r a b CT BC BU rho c t u AL prP) as PP.
    destruct floors as (tau & kap & TP & KP & FL). destruct weight_bound as (B & B0 & WB).
    destruct (way_least s v SV cx cy r a b CT BC) as (mu & MU & LE).
    assert (NUM : forall F, 0 < F -> forall x, xa < x < xb -> 0 < m_at cx r t F x /\ 0 <= bishop_hold us cx r rho c t u F x).
    { intros F F0 x X. destruct (FL x X) as (C0 & D). destruct (WB x X) as (W0 & _).
      assert (T0 : 0 <= t x) by (destruct D as [|(-> & _)]; lra). pose proof (LE x X). pose proof (way_sin s v SV cx cy r a b CT BC x X).
      assert (M : 0 < m_at cx r t F x).
      { unfold m_at. apply Rplus_lt_le_0_compat; [lra|]. apply Rmult_le_pos; [apply Rmult_le_pos; lra|left; now apply Rinv_0_lt_compat]. }
      split; auto. unfold bishop_hold. rewrite (way_u v DV cx cy r a b rho c t u AL x X), Rminus_0_r.
      apply Rmult_le_pos; [|left; now apply Rinv_0_lt_compat]. assert (0 <= (rho x + strip_at us x) * t x) by (apply Rmult_le_pos; lra). lra. }
    assert (CASE : (exists l, In l ls /\ xa < fst l < xb /\ t (fst l) = 0) \/
                   (forall l, In l ls -> xa < fst l < xb -> tau <= t (fst l))).
    { clear - FL. generalize (v_lls v). intros q. induction q as [|l ll IH]; [right; intros l []|].
      destruct IH as [(l' & I & Q)|N]; [left; exists l'; split; [now right|exact Q]|].
      destruct (Rlt_dec xa (fst l)) as [L1|L1]; [destruct (Rlt_dec (fst l) xb) as [L2|L2]|].
      - destruct (FL (fst l) (conj L1 L2)) as (_ & [L|(Z & _)]).
        + right. intros l' [ <- | I ] X; auto.
        + left. exists l. split; [now left|]. split; auto.
      - right. intros l' [ <- | I ] X; [lra|auto].
      - right. intros l' [ <- | I ] X; [lra|auto]. }
    destruct CASE as [(l & IL & XL & TZ)|TL].
    - (* a line load on soil without friction *)
      destruct (layer_near cx cy r xa xb IN (v_mats v) (fst l) ltac:(lra) (fun rl m J => ct_layers _ _ _ _ _ _ CT l rl m IL XL J)) as (e & E0 & NE).
      set (d := Rmin e (Rmin (fst l - xa) (xb - fst l)) / 2).
      assert (D : 0 < d /\ d < e /\ d < fst l - xa /\ d < xb - fst l).
      { unfold d. pose proof (Rmin_l e (Rmin (fst l - xa) (xb - fst l))). pose proof (Rmin_r e (Rmin (fst l - xa) (xb - fst l))).
        pose proof (Rmin_l (fst l - xa) (xb - fst l)). pose proof (Rmin_r (fst l - xa) (xb - fst l)).
        assert (0 < Rmin e (Rmin (fst l - xa) (xb - fst l))) by (repeat apply Rmin_glb_lt; lra). lra. }
      clearbody d.
      assert (TN : forall y, fst l - d < y < fst l + d -> t y = 0).
      { intros y Y. specialize (NE y ltac:(lra)).
        destruct (al_mat _ _ _ _ _ _ _ _ _ _ AL y ltac:(lra)) as (m & LM & _ & ->).
        destruct (al_mat _ _ _ _ _ _ _ _ _ _ AL (fst l) XL) as (m' & LM' & _ & E'). rewrite <- TZ, E'.
        apply base_material_spec in LM. apply base_material_spec in LM'. congruence. }
      set (P := RiemannInt prP + line_sum (sin_at cx r) xa xb ls) in *.
      assert (F0 : 0 < 2 * d * kap / P) by (apply Rdiv_lt_0_compat; auto; repeat apply Rmult_lt_0_compat; lra).
      destruct (way_turn s v SV SS DV cx cy r a b CT BC BU rho c t u AL prP _ F0) as (F' & T & _).
      exists (2 * d * kap / P), F'. split; [exact T|]. destruct T as (_ & _ & pr & ->).
      apply Rmult_le_compat_r; [left; now apply Rinv_0_lt_compat|].
      assert (2 * d * kap <= RiemannInt pr).
      { apply (integral_ge _ (fst l) d kap pr); try lra; [intros x X; now apply NUM|].
        intros x X. assert (X' : xa < x < xb) by lra. destruct (FL x X') as (_ & [Q|(_ & Q)]); [rewrite (TN x X) in Q; lra|].
        unfold bishop_hold, m_at. rewrite (TN x X), !Rmult_0_r. unfold Rdiv. rewrite Rmult_0_l, !Rplus_0_r.
        destruct (way_cos s v SV cx cy r a b CT x ltac:(lra)) as (C1 & C2).
        apply Rle_trans with (kap * 1); [lra|]. apply Rmult_le_compat; try lra. rewrite <- Rinv_1. apply Rinv_le_contravar; lra. }
      assert (0 <= line_sum (fun x => t x / m_at cx r t (2 * d * kap / P) x) xa xb ls); [|lra].
      apply (line_nonneg v cx cy r a b CT). intros x X. destruct (NUM _ F0 x X) as (M & _).
      destruct (FL x X) as (_ & Q). apply Rmult_le_pos; [destruct Q as [|(-> & _)]; lra|left; now apply Rinv_0_lt_compat].
    - set (F := Rmin (tau * mu) (kap / (B + 1))).
      assert (F0 : 0 < F) by (apply Rmin_glb_lt; [now apply Rmult_lt_0_compat|apply Rdiv_lt_0_compat; lra]).
      assert (F1 : F <= tau * mu) by apply Rmin_l.
      assert (F2 : F * (B + 1) <= kap).
      { apply Rle_trans with (kap / (B + 1) * (B + 1)); [apply Rmult_le_compat_r; [lra|apply Rmin_r]|right; field; lra]. }
      clearbody F.
      destruct (way_turn s v SV SS DV cx cy r a b CT BC BU rho c t u AL prP F F0) as (F' & T & _).
      exists F, F'. split; [exact T|]. destruct T as (_ & _ & pr & ->).
      apply Rmult_le_reg_r with (RiemannInt prP + line_sum (sin_at cx r) xa xb ls); [exact PP|].
      unfold Rdiv. rewrite Rmult_assoc, Rinv_l, Rmult_1_r, Rmult_plus_distr_l by lra.
      (* one column with friction *)
      assert (GR : forall x, xa < x < xb -> tau <= t x -> F * sin_at cx r x <= t x / m_at cx r t F x).
      { intros x X TX. destruct (NUM F F0 x X) as (M & _). pose proof (one_turn x X) as O. pose proof (LE x X) as L.
        pose proof (way_sin s v SV cx cy r a b CT BC x X) as S. destruct (way_cos s v SV cx cy r a b CT x ltac:(lra)) as (C1 & C2).
        assert (S1 : sin_at cx r x <= 1) by nra.
        apply Rmult_le_reg_r with (m_at cx r t F x); [exact M|].
        replace (t x / m_at cx r t F x * m_at cx r t F x) with (t x) by (field; lra).
        unfold m_at. replace (F * sin_at cx r x * (cos_at cx r x + sin_at cx r x * t x / F)) with
          (F * sin_at cx r x * cos_at cx r x + sin_at cx r x * sin_at cx r x * t x) by (field; lra).
        assert (FT : F <= t x * cos_at cx r x) by (apply Rle_trans with (tau * mu); auto; apply Rmult_le_compat; lra).
        assert (F * sin_at cx r x <= t x * cos_at cx r x).
        { apply Rle_trans with (F * 1); [apply Rmult_le_compat_l; lra|lra]. }
        assert (F * sin_at cx r x * cos_at cx r x <= t x * cos_at cx r x * cos_at cx r x) by (apply Rmult_le_compat_r; lra).
        replace (sin_at cx r x * sin_at cx r x) with (1 - cos_at cx r x * cos_at cx r x) by lra. lra. }
      apply Rplus_le_compat.
      + apply integral_scaled. intros x X. destruct (WB x X) as (W0 & W1). destruct (FL x X) as (C0 & Q).
        pose proof (way_sin s v SV cx cy r a b CT BC x X) as S. pose proof (one_turn x X) as O.
        destruct (way_cos s v SV cx cy r a b CT x ltac:(lra)) as (C1 & C2). assert (S1 : sin_at cx r x <= 1) by nra.
        destruct (NUM F F0 x X) as (M & _).
        unfold push, bishop_hold. rewrite (way_u v DV cx cy r a b rho c t u AL x X), Rminus_0_r.
        set (W := rho x + strip_at us x) in *. destruct Q as [TX|(TZ & CX)].
        * pose proof (GR x X TX) as G. apply Rmult_le_compat_l with (r := W) in G; [|exact W0].
          assert (0 <= c x / m_at cx r t F x) by (apply Rmult_le_pos; auto; left; now apply Rinv_0_lt_compat).
          unfold Rdiv in *. lra.
        * unfold m_at. rewrite TZ, !Rmult_0_r. unfold Rdiv. rewrite Rmult_0_l, !Rplus_0_r.
          assert (W * sin_at cx r x <= B * 1) by (apply Rmult_le_compat; lra).
          assert (F * (W * sin_at cx r x) <= F * (B * 1)) by (apply Rmult_le_compat_l; lra).
          apply Rle_trans with (c x * 1); [lra|]. apply Rmult_le_compat_l; auto. rewrite <- Rinv_1. apply Rinv_le_contravar; lra.
      + unfold line_sum. rewrite <- rsum_scale. apply rsum_le. intros l I.
        pose proof (ct_first _ _ _ _ _ _ CT l I). pose proof (ct_lls _ _ _ _ _ _ CT l I) as LP.
        destruct (Rle_dec _ _); [|lra]. destruct (Rlt_dec _ _); [|lra].
        assert (X : xa < fst l < xb) by lra. pose proof (GR _ X (TL l I X)) as G.
        apply Rmult_le_compat_l with (r := snd l) in G; [|exact LP]. lra.
  Qed.

  Lemma it_turns J n : it v cx cy r a b J n = turns (wd n) (own n) (resisting (wd n) (own n) / driving (own n)) J.
  Proof.
    assert (HF : 0 < resisting (wd n) (own n) / driving (own n)) by (apply Rdiv_lt_0_compat; [apply own_hold|apply own_push]).
    induction J as [|J IH]; [reflexivity|]. cbn [it turns]. rewrite turn_at, IH; [reflexivity|].
    apply (turns_pos _ _ (fun q I => proj1 (own_leaning n q I)) (own_push n) _ J HF).
  Qed.
  Lemma way_slices (prP : Riemann_integrable (push us cx r rho) xa xb) : exists h,
    forall J, Un_cv (it v cx cy r a b J) (h J) /\ limit_turn v cx r a b rho c t u prP (h J) (h (S J)).
  Proof.
    destruct (hold_int v GV cx cy r a b CT rho c t u AL) as [prH].
    pose proof (way_push s v SV cx cy r a b CT BC BU rho c t u AL prP) as P0.
    pose proof (way_hold s v SV SS DV cx cy r a b CT BU rho c t u AL prH) as Q0.
    assert (EX : forall J, exists f, (forall k, (k <= J)%nat -> Un_cv (it v cx cy r a b k) (f k)) /\
      forall k, (k < J)%nat -> limit_turn v cx r a b rho c t u prP (f k) (f (S k))).
    { intros J. destruct (way_turns s v SV SS DV cx cy r a b CT BC BU rho c t u AL prP _ (Rdiv_lt_0_compat _ _ Q0 P0) J)
        as (f & F0 & T & FP). exists f. split; [|exact T]. intros k L.
      apply (iterates_cv v GV cx cy r a b CT rho c t u AL prP prH P0 f J F0 T (fun k _ => FP k) k L). }
    assert (LIM : forall J, { l | Un_cv (it v cx cy r a b J) l }).
    { intros J. apply R_complete. destruct (EX J) as (f & C & _). apply CV_Cauchy. exists (f J). now apply C. }
    exists (fun J => proj1_sig (LIM J)). intros J. split; [exact (proj2_sig (LIM J))|].
    destruct (EX (S J)) as (f & C & T). specialize (T J ltac:(lia)).
    rewrite (UL_sequence _ _ _ (proj2_sig (LIM J)) (C J ltac:(lia))).
    rewrite (UL_sequence _ _ _ (proj2_sig (LIM (S J))) (C (S J) (le_n _))). exact T.
  Qed.

  (** [F n J]: the code's answer with [n + 2] slices and [J] turns *)
  Theorem exact_limit (prP : Riemann_integrable (push us cx r rho) xa xb) : exists F fn h f,
    (forall n J, bishop (cut (S (S n)) (allow J v)) cx cy r = Ok (Some (F n J)) /\ 0 < F n J) /\
    (forall n, Un_cv (F n) (fn n)) /\ Un_cv fn f /\
    (forall J, Un_cv (fun n => F n J) (h J)) /\ Un_cv h f /\
    limit_turn v cx r a b rho c t u prP f f /\
    (forall x, limit_turn v cx r a b rho c t u prP x x -> x = f).
  Proof.
    destruct own_steep as (k & K & ST).
    assert (LS : forall n q, In q (own n) -> leaning_slice (wd n) q) by (intros n q I; apply (own_leaning n q I)).
    assert (HF : forall n, 0 < resisting (wd n) (own n) / driving (own n)).
    { intros n. apply Rdiv_lt_0_compat; [apply own_hold|apply own_push]. }
    assert (LIM : forall n, { f | Un_cv (turns (wd n) (own n) (resisting (wd n) (own n) / driving (own n))) f }).
    { intros n. exact (turns_limit_sig (wd n) (own n) (LS n) (own_push n) _ (HF n)). }
    set (fn := fun n => proj1_sig (LIM (S n))).
    assert (CV : forall n, Un_cv (turns (wd (S n)) (own (S n)) (resisting (wd (S n)) (own (S n)) / driving (own (S n)))) (fn n)).
    { intros n. exact (proj2_sig (LIM (S n))). }
    clearbody fn. clear LIM.
    destruct (fixed_limit (fun n x => turn (wd (S n)) (own (S n)) x) (limit_turn v cx r a b rho c t u prP) k K fn) as (f & C & FX & UN & SQ).
    - intros x g T. pose proof T as (X & _). split; [exact X|]. split.
      + destruct (way_turn s v SV SS DV cx cy r a b CT BC BU rho c t u AL prP x X) as (g' & T' & G').
        replace g with g'; auto. exact (UL_sequence _ _ _ (turn_cv_at prP x g' T') (turn_cv_at prP x g T)).
      + pose proof (turn_cv_at prP x g T) as Q. intros e EP. destruct (Q e EP) as (N & B). exists N.
        intros n L. apply B. lia.
    - intros x X. destruct (way_turn s v SV SS DV cx cy r a b CT BC BU rho c t u AL prP x X) as (g & T & _). eauto.
    - intros n x y X. exact (turn_mono _ _ (LS (S n)) (own_push (S n)) x y X).
    - intros n x y X. exact (turn_fall _ _ (LS (S n)) (own_push (S n)) k x y (ST (S n)) X).
    - intros n. refine (Rle_cv_lim _ (cv_const 0) (CV n)). intros j. left. exact (turns_pos _ _ (LS (S n)) (own_push (S n)) _ j (HF (S n))).
    - intros n y Y T. exact (limit_le _ _ (LS (S n)) (own_push (S n)) _ _ y (HF (S n)) (CV n) Y T).
    - intros n y Y T. exact (limit_gt _ _ (LS (S n)) (own_push (S n)) _ _ y (HF (S n)) (CV n) Y T).
    - apply way_grows.
    - destruct (way_slices prP) as (h & HH).
      exists (fun n => turns (wd (S n)) (own (S n)) (resisting (wd (S n)) (own (S n)) / driving (own (S n)))), fn, h, f.
      split; [|split; [auto|split; [auto|split; [|split; [|auto]]]]].
      2:{ intros J e EP. destruct (proj1 (HH J) e EP) as (N & Q). exists N. intros n L. cbv beta. rewrite <- it_turns.
          apply Q. lia. }
      2:{ apply SQ. intros i. apply HH. }
      intros n J. split; [|exact (turns_pos _ _ (LS (S n)) (own_push (S n)) _ J (HF (S n)))].
      destruct (ct_centre _ _ _ _ _ _ CT) as (D1 & D2 & D3).
      apply (bishop_value (allow J (cut (S (S n)) v)) (good_allow J _ (cut_good v GV n)) cx cy r a b (own (S n))); auto.
      + apply CT.
      + apply CT.
      + apply slices_allow. apply (own_ok v GV cx cy r a b CT).
      + apply own_push.
      + change (width (allow J (cut (S (S n)) v)) a b) with (width (cut (S (S n)) v) a b). rewrite width_cut.
        cbn [allow v_tolerance v_max_iterations]. rewrite Nat2Z.id.
        apply reported_all. apply (turns_iterate _ _ (LS (S n)) (own_push (S n))). apply HF.
  Qed.
End OneWay.
