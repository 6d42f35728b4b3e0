(** * OptionFacts: water table, options, results discarded (C23, C24, C26-C28). *)
From Coq Require Import ZArith Reals Lra Lia List Bool String Permutation Sorted.
From Verif Require Import Num Py Validation Utilities Objects Slope Planes Analysis
     Dynamic Api RealNum RealFacts ListFacts MonadFacts SlopeFacts MaterialFacts KeepFacts
     Invariant History Spec EditFacts LayerFacts.
Import ListNotations.
Local Open Scope R_scope.

Section Options.
  Context {EN : Env}.
  Notation stR := (st R).

  (** ** C23 *)
  Lemma top_level (s : stR) : Inv s -> snd (g_top (s_geom (snd s))) = g_ext_h (s_geom (snd s)) /\
                              0 < g_ext_h (s_geom (snd s)).
  Proof.
    intros (C & _ & _). destruct (c_geom s C) as (mh & Hm & G). rewrite G. cbn.
    split; auto. pose proof (c_l s C).
    eapply Rlt_le_trans; [|apply Rmax_r]. lra.
  Qed.
  Lemma water_set (s : stR) v d :
    reachable s -> denotes v d -> 0 <= d ->
    exists s' rl, exec (SetWater v) s = (Ok tt, s') /\
      s_water_depth (snd s') = Some d /\ s_water_RL (snd s') = Some rl /\
      rl = Rmax 0 (snd (g_top (s_geom (snd s))) - d) /\
      0 <= rl <= g_ext_h (s_geom (snd s')) /\
      fst s' = fst s /\ s_geom (snd s') = s_geom (snd s).
  Proof.
    intros Hr D Hd. apply reachable_inv in Hr. destruct (top_level s Hr) as (T1 & T2).
    cbn [exec]. unfold set_water_table.
    assert (N : is_none v = false) by (destruct v; cbn in *; tauto). rewrite N.
    rewrite bind_assoc, bind_lift.
    destruct (assert_positive_number v) as [[]|e] eqn:E.
    2:{ exfalso. assert (Q : assert_positive_number v = Ok tt)
          by (apply assert_positive_ok; exists d; auto). congruence. }
    rewrite bind_assoc, bind_lift. rewrite (proj1 (denotes_as_num v d) D).
    msteps. do 2 eexists. split; [reflexivity|]. cbn. unR.
    split; auto. split; auto. split; auto. split; auto. rewrite T1.
    split; [apply Rmax_l|]. apply Rmax_lub; lra.
  Qed.
  Lemma water_none (s : stR) :
    exists s', exec (SetWater PNone) s = (Ok tt, s') /\
      s_water_depth (snd s') = None /\ s_water_RL (snd s') = None /\
      fst s' = fst s /\ s_geom (snd s') = s_geom (snd s).
  Proof. eexists. split; [reflexivity|]. cbn. auto. Qed.
  Lemma water_rejected (s : stR) v :
    v <> PNone -> (forall d, denotes v d -> d < 0) ->
    exec (SetWater v) s = (Err ValueError, s).
  Proof.
    intros N D. cbn [exec]. unfold set_water_table.
    replace (is_none v) with false by (destruct v; cbn; congruence).
    rewrite bind_assoc, bind_lift, assert_positive_err by exact D. reflexivity.
  Qed.

  (** ** C24 *)
  Lemma cos_atan_sq g : cos (atan g) * cos (atan g) = 1 / (1 + g * g).
  Proof.
    pose proof (cos_gt_0 (atan g)) as P. destruct (atan_bound g) as (B1 & B2).
    assert (Hc : 0 < cos (atan g)) by (apply P; lra). clear P.
    assert (T : sin (atan g) = g * cos (atan g)).
    { pose proof (tan_atan g) as T. unfold tan in T.
      rewrite <- T at 2. field. lra. }
    pose proof (sin2_cos2 (atan g)) as S. unfold Rsqr in S. rewrite T in S.
    apply (Rmult_eq_reg_l (1 + g * g)); [|nra]. field_simplify; [|nra]. nra.
  Qed.
  Lemma factor_range (s : stR) : reachable s -> 0 <= s_water_H (snd s) <= 1.
  Proof. intros Hr. apply reachable_inv in Hr as (C & _ & _). apply (c_H s C). Qed.
  Lemma factor_auto (s : stR) v :
    exists s', exec (WaterOpts true v) s = (Ok tt, s') /\
      s_water_H (snd s') = 1 / (1 + g_gradient (s_geom (snd s)) * g_gradient (s_geom (snd s))) /\
      fst s' = fst s /\ s_geom (snd s') = s_geom (snd s) /\
      s_water_RL (snd s') = s_water_RL (snd s).
  Proof.
    cbn [exec]. rewrite water_options_eff. eexists. split; [reflexivity|]. cbn.
    rewrite cos_atan_sq. auto.
  Qed.
  Lemma factor_manual (s : stR) v h :
    plain_denotes v h ->
    exists s', exec (WaterOpts false v) s = (Ok tt, s') /\
      s_water_H (snd s') = clamp 0 1 h /\
      fst s' = fst s /\ s_geom (snd s') = s_geom (snd s) /\
      s_water_RL (snd s') = s_water_RL (snd s).
  Proof.
    intros (Pn & D). cbn [exec]. rewrite water_options_eff.
    assert (E : assert_number v = Ok tt) by (destruct v; cbn in Pn; try tauto; reflexivity).
    rewrite E. cbn [rbind]. rewrite (proj1 (denotes_as_num v h) D).
    eexists. split; [reflexivity|]. cbn. split; auto. unfold manual_H, clamp.
    rcase; unfold Rmax, Rmin; repeat destruct (Rle_dec _ _); lra.
  Qed.
  Lemma factor_rejected (s : stR) v :
    ~ plain_number v -> exists e, exec (WaterOpts false v) s = (Err e, s).
  Proof.
    intros Pn. cbn [exec]. rewrite water_options_eff.
    destruct v; cbn in Pn; try tauto; eexists; reflexivity.
  Qed.

  (** ** C26 *)
  Lemma options_range (s : stR) : reachable s ->
    (10 <= s_slices (snd s) <= 500)%Z /\ (500 <= s_iterations (snd s) <= 100000)%Z.
  Proof. intros Hr. apply reachable_inv in Hr as (C & _ & _). split; apply C. Qed.

  (** [option_set lo hi given old new]: not given, or given as 0: kept; else the
      nearest value of the range. *)
  Definition option_set (lo hi : Z) (given : option Z) (old new : Z) : Prop :=
    match given with
    | None => new = old
    | Some n => (n = 0 /\ new = old)%Z \/ (n <> 0 /\ n < lo /\ new = lo)%Z \/
                (n <> 0 /\ lo <= n <= hi /\ new = n)%Z \/ (n <> 0 /\ hi < n /\ new = hi)%Z
    end.
  Lemma clamp_opt_set lo hi g old : (0 < lo <= hi)%Z ->
    option_set lo hi g old (clamp_opt lo hi g old).
  Proof.
    intros H. destruct g as [n|]; cbn; [|reflexivity].
    destruct (Z.eqb_spec n 0); [left; auto|right].
    destruct (Z_lt_le_dec n lo); [left; lia|right].
    destruct (Z_lt_le_dec hi n); [right; lia|left; lia].
  Qed.
  Lemma options_set (s : stR) sl it mf tol mi :
    exists s', exec (AnalysisOpts sl it mf tol mi) s = (Ok tt, s') /\
      option_set 10 500 sl (s_slices (snd s)) (s_slices (snd s')) /\
      option_set 500 100000 it (s_iterations (snd s)) (s_iterations (snd s')) /\
      match mf with None => s_min_failure (snd s') = s_min_failure (snd s)
                  | Some d => s_min_failure (snd s') <= d /\
                      (d <= g_ext_l (s_geom (snd s)) * (9 / 10) -> s_min_failure (snd s') = d) end /\
      s_tolerance (snd s') = match tol with None => s_tolerance (snd s) | Some t => t end /\
      s_max_iterations (snd s') = match mi with None => s_max_iterations (snd s) | Some n => n end /\
      fst s' = fst s /\ s_geom (snd s') = s_geom (snd s) /\ s_limits (snd s') = s_limits (snd s).
  Proof.
    cbn [exec]. rewrite analysis_options_eff. eexists. split; [reflexivity|]. cbn.
    split; [apply clamp_opt_set; lia|]. split; [apply clamp_opt_set; lia|].
    split.
    { destruct mf as [d|]; auto. split; [apply Rmin_l|]. intros Q. now apply Rmin_left. }
    destruct tol, mi; cbn; auto.
  Qed.
End Options.

(** ** The other calls leave the options alone *)
Section Kept.
  Context {T : Type} {NT : Num T} {EN : Env}.
  Definition opts (s : st T) :=
    (s_slices (snd s), s_iterations (snd s), s_min_failure (snd s),
     s_tolerance (snd s), s_max_iterations (snd s)).

  Lemma opts_set_boundary h a l : keeps (same opts) (set_external_boundary h a l).
  Proof. unfold set_external_boundary. untouched. Qed.
  Hint Resolve opts_set_boundary : keeps.
  Lemma opts_boundary_options l h : keeps (same opts) (update_boundary_options l h).
  Proof. unfold update_boundary_options. untouched. Qed.
  Hint Resolve opts_boundary_options : keeps.
  Lemma opts_assign locs : forall i, keeps (same opts) (assign_materials i locs).
  Proof. induction locs; intros i; cbn [assign_materials]; untouched. Qed.
  Hint Resolve opts_assign : keeps.
  Lemma opts_set_materials l : keeps (same opts) (set_materials l).
  Proof. unfold set_materials. untouched. Qed.
  Lemma opts_remove_material m d a : keeps (same opts) (remove_material m d a).
  Proof. unfold remove_material. untouched. Qed.
  Lemma opts_analyse m : keeps (same opts) (analyse_slope m).
  Proof. unfold analyse_slope. untouched. Qed.
  Lemma opts_set_udls l : keeps (same opts) (set_udls l).
  Proof. unfold set_udls. untouched. Qed.
  Lemma opts_set_lls l : keeps (same opts) (set_lls l).
  Proof. unfold set_lls. untouched. Qed.
  Lemma opts_remove_udls l a : keeps (same opts) (remove_udls l a).
  Proof. unfold remove_udls. untouched. Qed.
  Lemma opts_remove_lls l a : keeps (same opts) (remove_lls l a).
  Proof. unfold remove_lls. untouched. Qed.
  Hint Resolve opts_set_materials opts_remove_material opts_analyse opts_set_udls opts_set_lls
       opts_remove_udls opts_remove_lls : keeps.
  Lemma opts_move o : keeps (same opts) (set_dynamic_offset o).
  Proof. unfold set_dynamic_offset. untouched. Qed.
  Lemma opts_dynamic c : keeps (same opts) (analyse_dynamic c).
  Proof.
    apply keeps_dynamic; eauto with keeps.
    - apply opts_move.
    - intros d s. reflexivity.
  Qed.

  Definition is_options (o : op T) : bool :=
    match o with AnalysisOpts _ _ _ _ _ => true | _ => false end.
  Lemma opts_kept o (s : st T) : is_options o = false -> opts (snd (exec o s)) = opts s.
  Proof.
    intros H. assert (K : keeps (same opts) (exec o)); [|exact (K s)].
    destruct o; try discriminate; cbn [exec]; unfold alloc, with_refs.
    all: match goal with
         | |- keeps _ (_ <- analyse_dynamic _ ;; _) =>
             apply keeps_bind; [eauto with keeps | apply opts_dynamic | intros ?; keep1]
         | _ => idtac end.
    all: try solve [untouched].
    all: try (unfold set_water_table, remove_water_table, update_water_analysis_options,
           set_analysis_limits, remove_analysis_limits, add_single_entry_exit_plane,
           add_single_circular_plane, remove_individual_planes; solve [untouched]).
  Qed.
End Kept.
