(** * PropsSoil: weight and strength of the soil, line loads in binary64
    (C15, C37, C39, C40). *)
From Coq Require Import ZArith Reals Lra Lia List Bool String Sorted.
From Verif Require Import Num Py Validation Utilities Objects Slope Planes Analysis
     Dynamic Api RealNum RealFacts ListFacts MonadFacts SlopeFacts MaterialFacts
     Invariant History Spec FloatNum FloatWitness Demo
     CircleFacts PlaneFacts SoilFacts MatInv ViewFacts FloatMore DemoCircle SliceFacts FosFacts
     FosMore StrengthFacts ScaleFacts FosTotal WetFacts FosCode.
Import ListNotations.
Local Open Scope R_scope.

(** ** C15, continued: whatever happened to the model height since, the layers
    keep the spacing of their depths below one common level *)
Theorem C15_spacing_partial : forall (EN : Env) (s : st R), reachable s ->
  exists level, 0 < level /\
    forall m, In m (mats_of s) -> m_RL m = Some (level - m_depth m) /\ m_depth m <= level.
Proof. exact @layer_spacing. Qed.
Print Assumptions C15_spacing_partial.
Example C15_spacing_example : forall EN : Env, reachable demo /\
  mats_of demo = [sand_in; clay_in] /\ m_RL sand_in = Some (10 - 2) /\ m_depth sand_in = 2.
Proof. intros EN. split; [apply demo_reachable|]. repeat split. Qed.

(** ** C37 *)
Theorem C37_layering : forall (EN : Env) (s : st R) v,
  reachable s -> view_of s = Ok v ->
  descending (v_mats v) /\ map snd (v_mats v) = mats_of s.
Proof.
  intros EN s v Hr E. destruct (view_sound s Hr) as (v' & E' & S).
  assert (v' = v) by congruence. subst v'. split; apply S.
Qed.
Print Assumptions C37_layering.
Theorem C37_unit_weight : forall L, L <> [] -> descending L -> exists uw, unit_weight_fun L uw.
Proof. exact unit_weight_exists. Qed.
Print Assumptions C37_unit_weight.
Theorem C37_integral : forall (v : view R) b yb yt uw,
  v_mats v <> [] -> descending (v_mats v) -> yb <= yt <= g_ext_h (v_geom v) ->
  unit_weight_fun (v_mats v) uw ->
  exists pr : Riemann_integrable uw yb yt,
    strip_weight v b yt yb = b * RiemannInt pr.
Proof. exact strip_weight_spec. Qed.
Print Assumptions C37_integral.
Theorem C37_additive : forall (v : view R) b y0 y1 y2,
  v_mats v <> [] -> descending (v_mats v) -> y0 <= y1 <= y2 -> y2 <= g_ext_h (v_geom v) ->
  strip_weight v b y2 y0 = strip_weight v b y2 y1 + strip_weight v b y1 y0.
Proof. exact strip_weight_split. Qed.
Print Assumptions C37_additive.
Theorem C37_empty : forall (v : view R) b y,
  v_mats v <> [] -> descending (v_mats v) -> y <= g_ext_h (v_geom v) ->
  strip_weight v b y y = 0.
Proof. exact strip_weight_empty. Qed.
Print Assumptions C37_empty.
Theorem C37_bounds : forall (v : view R) b yb yt lo hi,
  v_mats v <> [] -> descending (v_mats v) -> yb <= yt <= g_ext_h (v_geom v) -> 0 <= b ->
  (forall rl m, In (rl, m) (v_mats v) -> lo <= m_unit_weight m <= hi) ->
  lo * (b * (yt - yb)) <= strip_weight v b yt yb <= hi * (b * (yt - yb)).
Proof. exact strip_weight_bounds. Qed.
Print Assumptions C37_bounds.
(** 2 m of sand over 3 m of clay, half a metre wide *)
Example C37_example : forall EN : Env, exists v, reachable demo /\ view_of demo = Ok v /\
  v_mats v <> [] /\ g_ext_h (v_geom v) = 10 /\
  strip_weight v (1 / 2) 10 5 = 1 / 2 * (18 * 2 + 20 * 3).
Proof.
  intros EN. destruct (view_sound demo demo_reachable) as (v & E & S).
  exists v. split; [apply demo_reachable|]. split; auto.
  assert (M : v_mats v = [(8, sand_in); (5, clay_in)]).
  { cbn in E. injection E as <-. cbn [v_mats]. repeat f_equal; rnum; lra. }
  rewrite M. split; [discriminate|]. split; [rewrite (so_geom _ _ S); reflexivity|].
  rewrite strip_weight_column.
  - rewrite M. unfold column, pos. cbn. rminmax; lra.
  - apply S.
  - rewrite (so_geom _ _ S). cbn. lra.
Qed.

(** ** C39: false *)
Theorem C39_doubled_refuted : exists (EN : Env) (s : st float) p l,
  reachable s /\ s_slices (snd s) = 25%Z /\ s_planes (snd s) = [p] /\ lls_of s = [] /\
  micro (fst (p_l p)) = 6000000%Z /\ micro (fst (p_r p)) = 12000000%Z /\
  lls_of (run s (load_at (fl 128 100))) = [l] /\ micro (l_magnitude l) = 20000000%Z /\
  option_map micro (l_coord l) = Some 6720000%Z /\
  (soil_and_load (run s (load_at (fl 128 100))) - soil_and_load s = 40000000)%Z.
Proof. exact load_doubled. Qed.
Print Assumptions C39_doubled_refuted.
Theorem C39_lost_refuted : exists (EN : Env) (s : st float) p l,
  reachable s /\ s_slices (snd s) = 10%Z /\ s_planes (snd s) = [p] /\ lls_of s = [] /\
  micro (fst (p_l p)) = 6000000%Z /\ micro (fst (p_r p)) = 12000000%Z /\
  lls_of (run s (load_at off_lost)) = [l] /\ micro (l_magnitude l) = 20000000%Z /\
  option_map micro (l_coord l) = Some 7199999%Z /\
  micro_fos (run s (load_at off_lost)) = micro_fos s /\
  (micro_fos (run s (load_at (fl 8 10))) < micro_fos s - 100000)%Z.
Proof. exact load_lost. Qed.
Print Assumptions C39_lost_refuted.

(** ** C40 *)
Theorem C40_base : forall L y m, base_material L y = Some m <-> layer_at L y m.
Proof. exact base_material_spec. Qed.
Print Assumptions C40_base.
Theorem C40_lookup : forall L y m, get_material_at_depth L y = Ok m <-> layer_at L y m.
Proof. exact material_at_depth_spec. Qed.
Print Assumptions C40_lookup.
Theorem C40_one_layer : forall L y, L <> [] ->
  exists m, layer_at L y m /\ forall m', layer_at L y m' -> m' = m.
Proof.
  intros L y H. destruct (layer_at_exists L y H) as (m & A). exists m. split; auto.
  intros m' A'. exact (layer_at_unique _ _ _ _ A' A).
Qed.
Print Assumptions C40_one_layer.
(** Every slice has the strength of the layer at the middle of its base. *)
Theorem C40_slices : forall (EN : Env) (s : st R) v cx cy r a b w sl t,
  reachable s -> view_of s = Ok v -> 0 <= r ->
  end_points (s_geom (snd s)) cx cy r a b ->
  slices_of v cx cy r (fst a) (fst b) = Ok (Some (w, sl)) -> In t sl ->
  (fst a < sl_x t < fst b /\ on_circle cx cy r (sl_x t, sl_yb t) /\ sl_yb t < cy) /\
  exists m, layer_at (v_mats v) (sl_yb t) m /\ sl_c t = m_cohesion m /\ sl_tan t = m_tan_phi m.
Proof. exact @slice_strength. Qed.
Print Assumptions C40_slices.
Example C40_example : forall EN : Env, layer_at [(8, sand_in); (5, clay_in)] 9 sand_in /\
  layer_at [(8, sand_in); (5, clay_in)] 8 clay_in /\
  layer_at [(8, sand_in); (5, clay_in)] 1 clay_in.
Proof.
  intros EN. split; [|split].
  - exists [], 8, [(5, clay_in)]. repeat split; auto. left. lra.
  - exists [(8, sand_in)], 5, []. repeat split; auto. constructor; auto. cbn. lra.
  - exists [(8, sand_in)], 5, []. repeat split; auto. constructor; auto. cbn. lra.
Qed.
