(** * CutOneWay: for a circle that leans one way through dry soil the integral equations
    of C92 and C93 have positive terms at every turn. *)
From Coq Require Import ZArith Reals Lra Lia List Bool.
From Verif Require Import Num Py Validation Utilities Objects Slope Planes Analysis
     Api RealNum RealFacts ListFacts Spec PlaneFacts CircleFacts SoilFacts SliceFacts MatInv Invariant ViewFacts FosFacts
     FosMore StrengthFacts ScaleFacts FosTotal MidSum Tame SliceLimit CutFacts CutLimit CutCode Demo DemoCircle FosCode.
Import ListNotations.
Local Open Scope R_scope.

Lemma integral_nonneg f a b (pr : Riemann_integrable f a b) : a <= b -> (forall x, a < x < b -> 0 <= f x) ->
  0 <= RiemannInt pr.
Proof.
  intros L P. assert (C : Riemann_integrable (fct_cte 0) a b) by apply RiemannInt_P14.
  apply Rle_trans with (RiemannInt C); [rewrite RiemannInt_P15; lra|]. apply RiemannInt_P19; auto.
Qed.
Lemma integral_pos f h a b x0 (pr : Riemann_integrable f a b) : a < x0 < b ->
  (forall x, a < x < b -> 0 <= f x) -> (forall x, a < x < b -> h x <= f x) ->
  continuity_pt h x0 -> 0 < h x0 -> 0 < RiemannInt pr.
Proof.
  intros X P HF C H0. destruct (C (h x0 / 2) ltac:(lra)) as (e & E & N).
  assert (N' : forall y, x0 - e < y < x0 + e -> h x0 / 2 <= h y).
  { intros y Y. destruct (Req_dec y x0) as [->|NE]; [lra|].
    assert (Q : Rabs (h y - h x0) < h x0 / 2).
    { apply N. split; [split; [exact I|congruence]|]. cbn. unfold R_dist. apply Rabs_def1; lra. }
    apply Rabs_def2 in Q. lra. }
  set (d := Rmin e (Rmin (x0 - a) (b - x0)) / 2).
  assert (D : 0 < d /\ d < e /\ d < x0 - a /\ d < b - x0).
  { unfold d. pose proof (Rmin_l e (Rmin (x0 - a) (b - x0))). pose proof (Rmin_r e (Rmin (x0 - a) (b - x0))).
    pose proof (Rmin_l (x0 - a) (b - x0)). pose proof (Rmin_r (x0 - a) (b - x0)).
    assert (0 < Rmin e (Rmin (x0 - a) (b - x0))) by (repeat apply Rmin_glb_lt; lra). lra. }
  clearbody d.
  pose proof (RiemannInt_P22 pr (ltac:(lra) : a <= x0 - d <= b)) as p1.
  pose proof (RiemannInt_P23 pr (ltac:(lra) : a <= x0 - d <= b)) as p2.
  pose proof (RiemannInt_P22 p2 (ltac:(lra) : x0 - d <= x0 + d <= b)) as p3.
  pose proof (RiemannInt_P23 p2 (ltac:(lra) : x0 - d <= x0 + d <= b)) as p4.
  rewrite <- (RiemannInt_P26 p1 p2 pr), <- (RiemannInt_P26 p3 p4 p2).
  assert (0 <= RiemannInt p1) by (apply integral_nonneg; [lra|intros; apply P; lra]).
  assert (0 <= RiemannInt p4) by (apply integral_nonneg; [lra|intros; apply P; lra]).
  assert (K : Riemann_integrable (fct_cte (h x0 / 2)) (x0 - d) (x0 + d)) by apply RiemannInt_P14.
  assert (RiemannInt K <= RiemannInt p3).
  { apply RiemannInt_P19; [lra|]. intros x Y. unfold fct_cte.
    apply Rle_trans with (h x); [apply N'; lra|apply HF; lra]. }
  rewrite RiemannInt_P15 in H2. nra.
Qed.

(** some amount below every positive strength *)
Lemma least_strength (M : layering) :
  (forall rl m, In (rl, m) M -> 0 <= m_cohesion m /\ 0 <= m_tan_phi m /\ (0 < m_cohesion m \/ 0 < m_tan_phi m)) ->
  exists k, 0 < k /\ forall rl m, In (rl, m) M -> k <= m_cohesion m + m_tan_phi m.
Proof.
  induction M as [|[rl m] M IH]; intros Q.
  - exists 1. split; [lra|]. intros rl m [].
  - destruct IH as (k & K & E); [intros rl' m' J; apply (Q rl' m'); now right|].
    destruct (Q rl m (or_introl eq_refl)) as (A & B & C).
    exists (Rmin k (m_cohesion m + m_tan_phi m)). split; [apply Rmin_glb_lt; lra|].
    intros rl' m' [J|J].
    + injection J as <- <-. apply Rmin_r.
    + eapply Rle_trans; [apply Rmin_l|]. eauto.
Qed.

Section OneWay.
  Context {EN : Env} (s : st R) (v : view R) (SV : sound s v) (SS : some_strength s) (DV : dry v).
  Context (cx cy r : R) (a b : R * R) (CT : cuttable v cx cy r a b).
  Context (BC : fst b <= cx) (BU : buried (v_geom v) cx cy r a b).
  Context (rho c t u : R -> R) (AL : along v cx cy r (fst a) (fst b) rho c t u).
  Notation xa := (fst a).
  Notation xb := (fst b).
  Notation us := (v_udls v).
  Notation ls := (v_lls v).
  Let GV := sound_good s v SV.
  Let AB := cut_AB v GV cx cy r a b CT.
  Let RP := cut_r v GV cx cy r a b CT.
  Let IN := cut_in v GV cx cy r a b CT.
  Let depth x := surface (v_geom v) x - base_at cx cy r x.

  Lemma mat_strength rl m : In (rl, m) (v_mats v) ->
    0 <= m_cohesion m /\ 0 <= m_tan_phi m /\ (0 < m_cohesion m \/ 0 < m_tan_phi m).
  Proof.
    intros I. destruct (so_mats s v SV rl m I) as ((_ & F & CO & _) & TO & _).
    assert (J : In m (mats_of s)) by (rewrite <- (so_mats_eq s v SV); apply in_map_iff; exists (rl, m); auto).
    destruct (SS m J) as (F9 & D). unfold tan_ok in TO. unR.
    assert (TE : m_tan_phi m = Rtan_py (m_friction_angle m * (PI / 180))) by (rewrite TO; unfold nradians; unR; reflexivity).
    split; auto. destruct (Rle_lt_or_eq_dec _ _ F) as [L|E].
    - pose proof (tan_pos (m_friction_angle m) ltac:(lra)). rewrite TE. split; [lra|]. now right.
    - split; [|left; lra]. rewrite TE. apply tan_nonneg. lra.
  Qed.
  Lemma way_u x : xa < x < xb -> u x = 0.
  Proof.
    intros X. rewrite (al_u _ _ _ _ _ _ _ _ _ _ AL x X). unfold water_at.
    destruct DV as [-> | ->]; auto. destruct (Req_EM_T 0 0); [auto|lra].
  Qed.
  Lemma way_rho x : xa < x < xb -> depth x <= rho x /\ 0 < depth x.
  Proof.
    intros X. pose proof (BU x X) as B. unfold depth. split; [|lra].
    pose proof (soil_weight_low s v 1 _ _ _ SV (ct_mats _ _ _ _ _ _ CT) ltac:(lra) (Rmax_r _ _) (al_rho _ _ _ _ _ _ _ _ _ _ AL x X)) as Q.
    unfold top_at in Q. rewrite Rmax_left in Q by lra. lra.
  Qed.
  Lemma way_strip x : 0 <= strip_at us x.
  Proof.
    unfold strip_at. apply rsum_nonneg. intros y I. apply in_map_iff in I as ([[p q] m] & <- & I). cbn [fst snd].
    apply (so_udls s v SV) in I. destruct (Rle_dec _ _); [destruct (Rlt_dec _ _)|]; lra.
  Qed.
  Lemma way_sin x : xa < x < xb -> 0 < sin_at cx r x.
  Proof. intros X. apply Rdiv_lt_0_compat; auto. lra. Qed.
  Lemma way_cos x : xa <= x <= xb -> 0 < cos_at cx r x <= 1.
  Proof. intros X. apply (cos_le cx r a b); auto. Qed.
  Lemma depth_cont x : xa < x < xb -> continuity_pt depth x.
  Proof.
    intros X. apply continuity_pt_minus; [apply surface_cont|].
    apply (continuity_pt_minus (fun _ => cy) (drop_at cx r)); [apply const_cont|apply drop_cont, IN; lra].
  Qed.
  Lemma line_nonneg g : (forall x, xa < x < xb -> 0 <= g x) -> 0 <= line_sum g xa xb ls.
  Proof.
    intros P. apply rsum_nonneg. intros y I. apply in_map_iff in I as (l & <- & I).
    pose proof (ct_first _ _ _ _ _ _ CT l I). pose proof (ct_lls _ _ _ _ _ _ CT l I).
    destruct (Rle_dec _ _); [|lra]. destruct (Rlt_dec _ _); [|lra]. apply Rmult_le_pos; auto. apply P. lra.
  Qed.
  Let x0 := (xa + xb) / 2.
  Lemma x0_in : xa < x0 < xb.
  Proof. unfold x0. pose proof AB. lra. Qed.

  Lemma way_push (prP : Riemann_integrable (push us cx r rho) xa xb) :
    0 < RiemannInt prP + line_sum (sin_at cx r) xa xb ls.
  Proof.
    apply Rplus_lt_le_0_compat.
    - apply (integral_pos _ (fun x => depth x * sin_at cx r x) xa xb x0 prP x0_in).
      + intros x X. destruct (way_rho x X). pose proof (way_strip x). pose proof (way_sin x X).
        unfold push. apply Rmult_le_pos; lra.
      + intros x X. destruct (way_rho x X). pose proof (way_strip x). pose proof (way_sin x X).
        unfold push. apply Rmult_le_compat_r; lra.
      + apply continuity_pt_mult; [apply depth_cont, x0_in|apply sin_cont].
      + apply Rmult_lt_0_compat; [apply way_rho, x0_in|apply way_sin, x0_in].
    - apply line_nonneg. intros x X. left. now apply way_sin.
  Qed.
  Lemma strength_at : exists k, 0 < k /\ forall x, xa < x < xb -> 0 <= c x /\ 0 <= t x /\
    forall W, 0 <= W -> k * Rmin 1 W <= c x + W * t x.
  Proof.
    destruct (least_strength (v_mats v) mat_strength) as (k & K & E). exists k. split; auto.
    intros x X. destruct (al_mat _ _ _ _ _ _ _ _ _ _ AL x X) as (m & LM & -> & ->).
    destruct (layer_at_In _ _ _ LM) as (rl & I). destruct (mat_strength rl m I) as (A & B & _).
    split; auto. split; auto. intros W W0. specialize (E rl m I).
    unfold Rmin. destruct (Rle_dec 1 W) as [L|L]; nra.
  Qed.
  Lemma way_hold (prH : Riemann_integrable (hold us cx r rho c t u) xa xb) :
    0 < RiemannInt prH + line_sum (fun x => cos_at cx r x * t x) xa xb ls.
  Proof.
    destruct strength_at as (k & K & ST). apply Rplus_lt_le_0_compat.
    - assert (LO : forall x, xa < x < xb -> k * Rmin 1 (depth x * cos_at cx r x) <= hold us cx r rho c t u x).
      { intros x X. destruct (way_rho x X) as (D1 & D2). pose proof (way_strip x). pose proof (way_cos x ltac:(lra)) as C.
        destruct (ST x X) as (C0 & T0 & E). unfold hold. rewrite (way_u x X).
        unfold Rdiv at 2. rewrite Rmult_0_l, Rminus_0_r.
        assert (W : depth x * cos_at cx r x <= (rho x + strip_at us x) * cos_at cx r x) by (apply Rmult_le_compat_r; lra).
        assert (W0 : 0 <= depth x * cos_at cx r x) by (apply Rmult_le_pos; lra).
        rewrite Rmax_right by lra.
        eapply Rle_trans; [apply (E _ W0)|]. apply Rplus_le_compat.
        - apply Rmult_le_reg_r with (cos_at cx r x); [lra|]. unfold Rdiv. rewrite Rmult_assoc, Rinv_l by lra. nra.
        - now apply Rmult_le_compat_r. }
      apply (integral_pos _ (fun x => k * Rmin 1 (depth x * cos_at cx r x)) xa xb x0 prH x0_in).
      + intros x X. eapply Rle_trans; [|apply LO; auto]. destruct (way_rho x X). pose proof (way_cos x ltac:(lra)).
        apply Rmult_le_pos; [lra|]. apply Rmin_glb; [lra|]. apply Rmult_le_pos; lra.
      + exact LO.
      + apply (continuity_pt_mult (fun _ => k)); [apply const_cont|]. apply cont_min; [apply const_cont|].
        apply continuity_pt_mult; [apply depth_cont, x0_in|]. apply cos_cont; auto. apply IN. pose proof x0_in. lra.
      + pose proof x0_in. apply Rmult_lt_0_compat; auto. apply Rmin_glb_lt; [lra|].
        apply Rmult_lt_0_compat; [apply way_rho, x0_in|apply way_cos; lra].
    - apply line_nonneg. intros x X. destruct (ST x X) as (_ & T0 & _). pose proof (way_cos x ltac:(lra)).
      apply Rmult_le_pos; lra.
  Qed.
  Lemma way_least : exists mu, 0 < mu /\ forall x, xa < x < xb -> mu <= cos_at cx r x.
  Proof.
    exists (cos_at cx r xa). split; [apply way_cos; pose proof AB; lra|]. intros x X.
    unfold cos_at, Rdiv. apply Rmult_le_compat_r; [left; now apply Rinv_0_lt_compat|].
    unfold drop_at. apply sqrt_le_1; [pose proof (IN xa); lra|pose proof (IN x); lra|]. nra.
  Qed.
  Lemma way_turn (prP : Riemann_integrable (push us cx r rho) xa xb) F : 0 < F ->
    exists F', limit_turn v cx r a b rho c t u prP F F' /\ 0 < F'.
  Proof.
    intros F0. destruct strength_at as (k & K & ST). destruct way_least as (mu & MU & LE).
    assert (M : forall x, xa < x < xb -> mu <= m_at cx r t F x).
    { intros x X. destruct (ST x X) as (_ & T0 & _). pose proof (way_sin x X). pose proof (LE x X). unfold m_at.
      assert (0 <= sin_at cx r x * t x / F); [|lra]. apply Rmult_le_pos; [apply Rmult_le_pos; lra|].
      left. now apply Rinv_0_lt_compat. }
    destruct (bishop_int v GV cx cy r a b CT rho c t u AL F mu MU M) as [pr].
    exists ((RiemannInt pr + line_sum (fun x => t x / m_at cx r t F x) xa xb ls) /
            (RiemannInt prP + line_sum (sin_at cx r) xa xb ls)).
    split. { split; auto. split; [eauto|]. exists pr. reflexivity. }
    apply Rdiv_lt_0_compat; [|apply way_push]. apply Rplus_lt_le_0_compat.
    - destruct (tame_bounded _ xa xb AB (m_tame v cx cy r xa xb RP IN F)) as (B & B0 & MB).
      assert (UP : forall x, xa < x < xb -> m_at cx r t F x <= B).
      { intros x X. rewrite (m_eq v GV cx cy r a b CT rho c t u AL F x X). eapply Rle_trans; [apply RRle_abs|].
        apply MB. lra. }
      assert (LO : forall x, xa < x < xb -> k * Rmin 1 (depth x) * / (B + 1) <= bishop_hold us cx r rho c t u F x).
      { intros x X. destruct (way_rho x X) as (D1 & D2). pose proof (way_strip x).
        destruct (ST x X) as (C0 & T0 & E). unfold bishop_hold. rewrite (way_u x X), Rminus_0_r.
        pose proof (M x X). pose proof (UP x X). unfold Rdiv. apply Rmult_le_compat.
        - apply Rmult_le_pos; [lra|]. apply Rmin_glb; lra.
        - left. apply Rinv_0_lt_compat. lra.
        - eapply Rle_trans; [apply (E (depth x)); lra|]. apply Rplus_le_compat_l. apply Rmult_le_compat_r; lra.
        - apply Rinv_le_contravar; lra. }
      apply (integral_pos _ (fun x => k * Rmin 1 (depth x) * / (B + 1)) xa xb x0 pr x0_in).
      + intros x X. eapply Rle_trans; [|apply LO; auto]. destruct (way_rho x X).
        apply Rmult_le_pos; [|left; apply Rinv_0_lt_compat; lra]. apply Rmult_le_pos; [lra|]. apply Rmin_glb; lra.
      + exact LO.
      + apply (continuity_pt_mult (fun x => k * Rmin 1 (depth x)) (fun _ => / (B + 1))); [|apply const_cont].
        apply (continuity_pt_mult (fun _ => k)); [apply const_cont|]. apply cont_min; [apply const_cont|].
        apply depth_cont, x0_in.
      + apply Rmult_lt_0_compat; [|apply Rinv_0_lt_compat; lra]. apply Rmult_lt_0_compat; auto.
        apply Rmin_glb_lt; [lra|]. apply way_rho, x0_in.
    - apply line_nonneg. intros x X. destruct (ST x X) as (_ & T0 & _). pose proof (M x X).
      apply Rmult_le_pos; auto. left. apply Rinv_0_lt_compat. lra.
  Qed.
  Lemma way_turns (prP : Riemann_integrable (push us cx r rho) xa xb) F0 : 0 < F0 -> forall J,
    exists f, f O = F0 /\ (forall k, (k < J)%nat -> limit_turn v cx r a b rho c t u prP (f k) (f (S k))) /\
      forall k, 0 < f k.
  Proof.
    intros P0. induction J as [|J (f & E0 & T & FP)].
    - exists (fun _ => F0). split; auto. split; [intros; lia|auto].
    - destruct (way_turn prP (f J) (FP J)) as (F' & L & P').
      exists (fun k => if le_lt_dec k J then f k else F'). split; [destruct (le_lt_dec 0 J); [auto|lia]|]. split.
      + intros k K. destruct (le_lt_dec k J) as [A|A]; [|lia]. destruct (le_lt_dec (S k) J) as [B|B].
        * apply T. lia.
        * now replace k with J by lia.
      + intros k. destruct (le_lt_dec k J); auto.
  Qed.
End OneWay.

Lemma cuttable_allow J v cx cy r a b : cuttable v cx cy r a b -> cuttable (allow J v) cx cy r a b.
Proof. intros []. constructor; auto. Qed.
Lemma along_allow J v cx cy r xa xb rho c t u : along v cx cy r xa xb rho c t u ->
  along (allow J v) cx cy r xa xb rho c t u.
Proof. intros []. constructor; auto. Qed.

(** ** The demo circle *)
Section DemoCut.
  Context {EN : Env}.
  Lemma demo_cuttable v : sound demo4 v -> cuttable v 12 (29 / 2) (15 / 2) (6, 10) (12, 7).
  Proof.
    intros SV. pose proof (so_geom _ _ SV) as G.
    assert (LL : forall l, In l (v_lls v) -> fst l = 15 / 2 /\ 0 <= snd l).
    { intros [c m] I. destruct (so_lls_at _ _ SV c m I) as (l & J & -> & ->). rewrite G.
      cbn in J. destruct J as [ <- | [] ]. cbn. split; [rminmax; lra|lra]. }
    constructor.
    - intros Q. pose proof (so_mats_eq _ _ SV) as M. rewrite Q in M. discriminate.
    - lra.
    - rewrite G. exact demo_ends.
    - cbn. lra.
    - cbn. lra.
    - intros rl Q. rewrite (so_water _ _ SV) in Q. discriminate.
    - intros l I. apply LL, I.
    - intros l I. rewrite (proj1 (LL l I)). cbn. lra.
    - intros l rl m I _ J. rewrite (proj1 (LL l I)).
      assert (B : base_at 12 (29 / 2) (15 / 2) (15 / 2) = 17 / 2).
      { unfold base_at, drop_at. replace (15 / 2 * (15 / 2) - (15 / 2 - 12) * (15 / 2 - 12)) with (6 * 6) by lra.
        rewrite sqrt_square by lra. lra. }
      rewrite B. destruct (so_mats _ _ SV rl m J) as (_ & _ & _ & RL).
      assert (K : In m (mats_of demo4)) by (rewrite <- (so_mats_eq _ _ SV); apply in_map_iff; exists (rl, m); auto).
      cbn in K. destruct K as [ <- | [ <- | [] ] ]; cbn in RL; injection RL as <-; lra.
  Qed.
End DemoCut.
