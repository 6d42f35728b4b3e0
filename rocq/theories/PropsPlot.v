(** * PropsPlot: the figures (C59-C65). *)
From Coq Require Import ZArith Reals Lra Lia List Bool String Sorted.
From Verif Require Import Num Py Validation Utilities Objects Slope Planes Analysis
     Dynamic Api RealNum RealFacts ListFacts MonadFacts SlopeFacts MaterialFacts
     Invariant History Spec FloatNum FloatWitness FloatMore FloatFos FloatPlot Demo DemoCircle
     CircleFacts GroundFacts PlaneFacts SoilFacts MatInv SearchFacts FosFacts FosTotal GrowFacts
     Plot PlotFacts LayerArea FigureFacts DrawFacts ShowFacts PictureFacts
     WetFacts CohesiveFacts FaceFacts HitFacts OutlineFacts.
Import ListNotations.
Local Open Scope R_scope.

(** The demo slope: two layers, two loads and water. *)
Example demo_figure : forall (EN : Env) prec table, exists fig,
  reachable demo /\ 0 < g_height (s_geom (snd demo)) /\ mats_of demo <> [] /\
  udls_of demo <> [] /\ lls_of demo <> [] /\ s_water_RL (snd demo) = Some 9 /\
  plot_boundary prec table demo = Ok fig.
Proof.
  intros EN prec table.
  destruct (proj2 (plot_iff demo prec table demo_reachable) (proj1 demo_drawable)) as (fig & E).
  exists fig. split; [apply demo_reachable|]. split; [cbn; lra|]. split; [discriminate|].
  split; [discriminate|]. split; [discriminate|]. split; [reflexivity|exact E].
Qed.

(** ** C59 *)
Theorem C59_layers : forall (EN : Env) (s : st R) prec table fig,
  reachable s -> 0 < g_height (s_geom (snd s)) -> mats_of s <> [] ->
  plot_boundary prec table s = Ok fig ->
  let g := s_geom (snd s) in
  map fst (layers_in fig) = mats_of s /\
  (exists levels, Forall2 (fun m y => m_RL m = Some y) (mats_of s) levels /\
     levels_ok (snd (g_top g)) levels /\
     Forall2 (fun o b =>
       exists (pu : Riemann_integrable (fun x => Rmin (fst b) (surface g x)) 0 (g_ext_l g))
              (pl : Riemann_integrable (fun x => Rmin (snd b) (surface g x)) 0 (g_ext_l g)),
         polygon_area (snd o) = RiemannInt pu - RiemannInt pl)
       (layers_in fig) (bands (snd (g_top g)) levels)) /\
  (exists pr : Riemann_integrable (surface g) 0 (g_ext_l g),
     rsum (map (fun o => polygon_area (snd o)) (layers_in fig)) = RiemannInt pr) /\
  (forall o p, In o (layers_in fig) -> In p (snd o) -> in_section g p).
Proof. exact @layers_drawn. Qed.
Print Assumptions C59_layers.

(** In any arithmetic the outline of the section is drawn once, as a closed line through
    its six corners. *)
Theorem C59_outline : forall (T : Type) (NT : Num T) prec table (s : st T) fig,
  plot_boundary prec table s = Ok fig ->
  let g := s_geom (snd s) in
  outlines_in fig = [[(nz 0, nz 0); (nz 0, snd (g_top g)); g_top g; g_bot g;
                      (g_ext_l g, snd (g_bot g)); (g_ext_l g, nz 0); (nz 0, nz 0)]].
Proof. exact @outline_drawn. Qed.
Print Assumptions C59_outline.

(** ** C60 *)
Theorem C60_found : forall f c,
  fos_hue f = Ok c <-> (0 <= fos_key f)%Z /\ c = hue_at (fos_key f).
Proof. exact hue_found. Qed.
Print Assumptions C60_found.
Theorem C60_circle : forall f, 0 <= f -> plane_hue f = Ok (hue_at (fos_key f)).
Proof. exact plane_hue_key. Qed.
Print Assumptions C60_circle.
Theorem C60_nearest : forall f, 0 <= f ->
  (0 <= fos_key f <= 50)%Z /\ Rabs (IZR (fos_key f) / 10 - Rmin f 5) <= / 20.
Proof. exact fos_key_near. Qed.
Print Assumptions C60_nearest.
Theorem C60_monotone : forall a b, a <= b -> (fos_key a <= fos_key b)%Z.
Proof. exact fos_key_mono. Qed.
Print Assumptions C60_monotone.
Example C60_example : fos_hue (127 / 100) = Ok (1, 3)%Z.
Proof.
  apply C60_found. replace (fos_key (127 / 100)) with 13%Z; [ split; [ lia | reflexivity ] |].
  destruct (C60_nearest (127 / 100) ltac:(lra)) as (_ & A).
  rewrite Rmin_left in A by lra. apply abs_le_inv in A.
  assert (A1 : IZR (fos_key (127 / 100)) < IZR 14) by lra.
  assert (A2 : IZR 12 < IZR (fos_key (127 / 100))) by lra.
  apply lt_IZR in A1. apply lt_IZR in A2. lia.
Qed.

(** ** C61 *)
Theorem C61_points : forall cx cy r l e p,
  In p (arc_points cx cy r l e) <->
  (exists k, (0 <= k < 90)%Z /\ p = sample cx cy r k) /\
  fst l <= fst p <= fst e /\ snd p <= snd l.
Proof. exact arc_iff. Qed.
Print Assumptions C61_points.
Theorem C61_near : forall cx cy r l e p, 0 <= r -> In p (arc_points cx cy r l e) ->
  Rabs (dist_euc (fst p) (snd p) cx cy - r) <= / 1000
  /\ fst l <= fst p <= fst e /\ snd p <= snd l.
Proof. exact arc_near. Qed.
Print Assumptions C61_near.
Theorem C61_sorted : forall cx cy r l e, 0 <= r ->
  StronglySorted (fun p q : R * R => fst p <= fst q) (arc_points cx cy r l e).
Proof. exact arc_sorted. Qed.
Print Assumptions C61_sorted.
Example C61_example : exists p,
  In p (arc_points (Rround 3 12) (Rround 3 (29 / 2)) (Rround 3 (15 / 2)) (6, 10) (12, 7)).
Proof.
  destruct (demo_hit 1) as (k & K & A). eexists. apply C61_points.
  split; [ exists k; split; [ exact K | reflexivity ] | exact A ].
Qed.

(** ** C62 *)
Theorem C62_critical : forall (EN : Env) (s : st R) prec table fig,
  plot_critical prec table s = Ok fig ->
  exists p rest f t, s_search (snd s) = p :: rest /\ p_fos p = Some (Some f) /\
    planes_in fig = [t] /\ sector_of p f t.
Proof. intros EN. exact critical_drawn. Qed.
Print Assumptions C62_critical.
Theorem C62_all : forall (EN : Env) (s : st R) prec mf table fig,
  plot_all_planes prec mf table s = Ok fig ->
  exists p rest f t, s_search (snd s) = p :: rest /\ p_fos p = Some (Some f) /\
    sector_of p f t /\
    Forall (fun p => exists f, p_fos p = Some (Some f)) (s_search (snd s)) /\
    planes_in fig = t :: rev (map line_of' (filter (shown_below mf) (s_search (snd s)))).
Proof. intros EN. exact all_planes_drawn. Qed.
Print Assumptions C62_all.
(** after an analysis: the circles are drawn in the order of falling factors *)
Theorem C62_order : forall (EN : Env) m (s s' : st R) prec mf table fig,
  analyse_slope m s = (Ok tt, s') -> plot_all_planes prec mf table s' = Ok fig ->
  exists t, planes_in fig = t :: rev (map line_of' (filter (shown_below mf) (s_search (snd s')))) /\
    StronglySorted (fun a b => fst (fst b) <= fst (fst a)) (tl (planes_in fig)).
Proof. intros EN. exact order_drawn. Qed.
Print Assumptions C62_order.
Example C62_example : forall (EN : Env) prec mf table, exists s' fig,
  reachable demo5 /\ analyse_slope None demo5 = (Ok tt, s') /\
  plot_critical prec table s' = Ok fig /\
  exists fig', plot_all_planes prec mf table s' = Ok fig'.
Proof.
  intros EN prec mf table. destruct (demo_shown prec mf table) as (f & s' & fig' & _ & E & _ & P).
  exists s'. pose proof P as Q. unfold plot_all_planes in Q.
  destruct (plot_critical prec table s') as [fig|]; [| discriminate ]. exists fig.
  split; [apply demo5_reachable|]. split; [exact E|]. split; [reflexivity|]. eauto.
Qed.

(** ** C63 *)
Theorem C63_contents : forall (EN : Env) (s : st R) prec table fig,
  reachable s -> mats_of s <> [] -> plot_boundary prec table s = Ok fig ->
  let g := s_geom (snd s) in
  (forall y, s_water_RL (snd s) = Some y -> y <> 0 -> 0 < g_height g ->
     exists pts, water_in fig = [pts] /\
       forall x v, on_path pts (x, v) <-> 0 <= x <= g_ext_l g /\ v = Rmin y (surface g x)) /\
  (s_water_RL (snd s) = None -> water_in fig = []) /\
  (exists t, (udls_of s <> [] -> s_udl_max (snd s) = UmNum t) /\
     areas_in fig = map (fun u => (udl_span (top_x s) u, 100 * (u_magnitude u / t))) (udls_of s)) /\
  forces_in fig
  = map (fun u => let (a, b) := udl_span (top_x s) u in
                  ((a + b) / 2, snd (g_top g), u_magnitude u, "kPa"%string)) (udls_of s)
    ++ map (fun l => (ll_place (top_x s) l, snd (g_top g), l_magnitude l, "kN/m"%string))
           (lls_of s) /\
  limits_in fig = ground_marks g (s_limits (snd s)).
Proof. intros EN. exact contents_drawn. Qed.
Print Assumptions C63_contents.
Theorem C63_table : forall (EN : Env) (s : st R) prec fig, reachable s -> mats_of s <> [] ->
  plot_boundary prec true s = Ok fig ->
  forall i m, nth_error (mats_of s) i = Some m ->
  row_shown (List.length (mats_of s)) i m fig.
Proof. exact @table_drawn. Qed.
Print Assumptions C63_table.

(** ** C64 *)
Theorem C64_outcome : forall (EN : Env) (s : st R) prec table, reachable s ->
  (drawable s /\ exists fig, plot_boundary prec table s = Ok fig) \/
  (~ drawable s /\ plot_boundary prec table s = Err TypeError).
Proof. exact @boundary_outcome. Qed.
Print Assumptions C64_outcome.
Theorem C64_drawn : forall (EN : Env) h a l s0 ops prec table,
  new_slope empty_heap h a l = Ok s0 ->
  Forall (fun o => about_boundary o = false) ops ->
  Forall (fun o => picks_off o = false) ops ->
  exists fig, plot_boundary prec table (run s0 ops : st R) = Ok fig.
Proof. intros EN. exact calm_drawn. Qed.
Print Assumptions C64_drawn.
Theorem C64_deeper : forall (EN : Env) h a l s0 ops prec table,
  new_slope empty_heap h a l = Ok s0 -> never_shallower s0 ops ->
  Forall (fun o => picks_off o = false) ops ->
  exists fig, plot_boundary prec table (run s0 ops : st R) = Ok fig.
Proof. intros EN. exact deeper_drawn. Qed.
Print Assumptions C64_deeper.
Example C64_example : forall EN : Env,
  new_slope empty_heap (PFloat 3) PNone (PFloat 4) = Ok demo0 /\ run demo0 demo_ops = demo /\
  Forall (fun o => about_boundary o = false) demo_ops /\
  Forall (fun o => picks_off o = false) demo_ops /\ never_shallower demo0 demo_ops.
Proof.
  intros EN. split; [apply demo0_new|]. split; [symmetry; apply accepted_run, demo_acc|].
  assert (F : Forall (fun o => about_boundary o = false) demo_ops)
    by (repeat constructor).
  split; [exact F|]. split; [repeat constructor|].
  apply calm_never_shallower; [|exact F]. eapply exact_new. apply demo0_new.
Qed.
Theorem C64_load : forall (EN : Env) ns (s s' : st R) prec table, reachable s ->
  exec (RemoveUdls ns false) s = (Ok tt, s') ->
  s_udls (snd s') <> [] -> s_materials (snd s') <> [] ->
  plot_boundary prec table s' = Err TypeError.
Proof. exact @remove_some_no_figure. Qed.
Print Assumptions C64_load.
Theorem C64_load_refuted : exists (EN : Env) (s : st float) fig,
  reachable s /\ plot_boundary prec0 true s = Ok fig /\
  List.length (s_udls (snd s)) = 2%nat /\
  fst (exec (RemoveUdls [0%nat] false) s) = Ok tt /\
  List.length (s_udls (snd (step s (RemoveUdls [0%nat] false)))) = 1%nat /\
  plot_boundary prec0 true (step s (RemoveUdls [0%nat] false)) = Err TypeError.
Proof. exact no_figure_load. Qed.
Print Assumptions C64_load_refuted.
Theorem C64_water_refuted : exists (EN : Env) (s : st float) fig,
  reachable s /\ plot_boundary prec0 true s = Ok fig /\
  fst (exec (SetBoundary (fl 1 1) PNone (fl 1 1)) s) = Ok tt /\
  plot_boundary prec0 true (step s (SetBoundary (fl 1 1) PNone (fl 1 1))) = Err TypeError.
Proof. exact no_figure_water. Qed.
Print Assumptions C64_water_refuted.
Theorem C64_layer_refuted : exists (EN : Env) (s : st float) fig,
  reachable s /\ s_water_RL (snd s) = None /\ plot_boundary prec0 true s = Ok fig /\
  fst (exec (SetBoundary (fl 1 1) PNone (fl 1 1)) s) = Ok tt /\
  plot_boundary prec0 true (step s (SetBoundary (fl 1 1) PNone (fl 1 1))) = Err TypeError.
Proof. exact no_figure_layer. Qed.
Print Assumptions C64_layer_refuted.

(** ** C65 *)
Theorem C65_outcome : forall (EN : Env) m (s s' : st R) prec mf table, reachable s ->
  (1 <= s_max_iterations (snd s))%Z -> analyse_slope m s = (Ok tt, s') ->
  (~ drawable s -> plot_all_planes prec mf table s' = Err TypeError) /\
  (drawable s -> s_search (snd s') = [] -> plot_all_planes prec mf table s' = Err IndexError) /\
  (drawable s -> forall p rest, s_search (snd s') = p :: rest ->
     (arc_hit p /\ exists fig, plot_all_planes prec mf table s' = Ok fig) \/
     (~ arc_hit p /\ plot_all_planes prec mf table s' = Err IndexError)).
Proof. exact @analysis_shown. Qed.
Print Assumptions C65_outcome.
Example C65_example : forall (EN : Env) prec mf table, exists f s' fig,
  reachable demo5 /\ (1 <= s_max_iterations (snd demo5))%Z /\ drawable demo5 /\
  analyse_slope None demo5 = (Ok tt, s') /\ s_search (snd s') = [set_fos (Some f) demo_plane] /\
  arc_hit (set_fos (Some f) demo_plane) /\ plot_all_planes prec mf table s' = Ok fig.
Proof.
  intros EN prec mf table. destruct (demo_shown prec mf table) as (f & s' & fig & _ & E & S1 & P).
  exists f, s', fig. split; [apply demo5_reachable|]. split; [cbn; lia|].
  split; [apply demo_drawable|]. split; [exact E|]. split; [exact S1|].
  split; [apply demo_hit|exact P].
Qed.
(** The exits of the search lie on the face, at least 20 cm right of the entries,
    and the face is no steeper than 2:1: no arc passes between the sampled angles. *)
Theorem C65_face_partial : forall (EN : Env) (s s' : st R) prec mf table, reachable s ->
  lls_of s = [] -> udls_of s = [] -> s_planes (snd s) = [] -> face_grid (1 / 5) s ->
  g_gradient (s_geom (snd s)) <= 2 -> (s_iterations (snd s) < 5600)%Z ->
  (1 <= s_max_iterations (snd s))%Z -> drawable s ->
  forall m, analyse_slope m s = (Ok tt, s') -> s_search (snd s') <> [] ->
  (forall p, In p (s_search (snd s')) -> arc_hit p) /\
  (exists fig, plot_critical prec table s' = Ok fig) /\
  (exists fig, plot_all_planes prec mf table s' = Ok fig).
Proof. exact @face_drawn. Qed.
Print Assumptions C65_face_partial.
(** such a search is never empty if the line from the innermost entry to the last
    exit falls by 3 in 10 ([falls]) *)
Theorem C65_found : forall (EN : Env) (s s' : st R), reachable s ->
  lls_of s = [] -> udls_of s = [] -> s_planes (snd s) = [] -> face_grid (1 / 100) s -> falls s ->
  some_strength s -> heavy s \/ s_water_RL (snd s) = None -> wet_ok s -> mats_of s <> [] ->
  analyse_slope None s = (Ok tt, s') -> s_search (snd s') <> [].
Proof. exact @face_found. Qed.
Print Assumptions C65_found.
(** without friction nothing is left to assume about the analysis *)
Theorem C65_cohesive_partial : forall (EN : Env) (s : st R) prec mf table, reachable s ->
  lls_of s = [] -> udls_of s = [] -> s_planes (snd s) = [] -> face_grid (1 / 5) s -> falls s ->
  g_gradient (s_geom (snd s)) <= 2 -> (s_iterations (snd s) < 5600)%Z ->
  (1 <= s_max_iterations (snd s))%Z -> drawable s ->
  cohesive s -> heavy s \/ s_water_RL (snd s) = None -> wet_ok s -> mats_of s <> [] ->
  exists s', analyse_slope None s = (Ok tt, s') /\
    (forall p, In p (s_search (snd s')) -> arc_hit p) /\
    (exists fig, plot_critical prec table s' = Ok fig) /\
    (exists fig, plot_all_planes prec mf table s' = Ok fig).
Proof. exact @cohesive_drawn. Qed.
Print Assumptions C65_cohesive_partial.
Example C65_face_example : forall EN : Env,
  reachable face_bank /\ lls_of face_bank = [] /\ udls_of face_bank = [] /\
  s_planes (snd face_bank) = [] /\ face_grid (1 / 5) face_bank /\ falls face_bank /\
  g_gradient (s_geom (snd face_bank)) <= 2 /\ (s_iterations (snd face_bank) < 5600)%Z /\
  (1 <= s_max_iterations (snd face_bank))%Z /\ drawable face_bank /\ cohesive face_bank /\
  heavy face_bank /\ wet_ok face_bank /\ mats_of face_bank <> [].
Proof. exact @face_bank_ok. Qed.
Theorem C65_arc_refuted : exists (EN : Env) (s : st float) p fig,
  reachable s /\ s_planes (snd s) = [p] /\ plot_boundary prec0 true s = Ok fig /\
  fst (exec (Analyse None) s) = Ok tt /\ micro_fos s = 2381615%Z /\
  plot_critical prec0 true (step s (Analyse None)) = Err IndexError /\
  plot_all_planes prec0 None true (step s (Analyse None)) = Err IndexError.
Proof. exact no_figure_arc. Qed.
Print Assumptions C65_arc_refuted.
Theorem C65_none_refuted : exists (EN : Env) (s : st float) p fig,
  reachable s /\ s_planes (snd s) = [p] /\ plot_boundary prec0 true s = Ok fig /\
  fst (exec (Analyse (Some (f_of_Z 1))) s) = Ok tt /\
  s_search (snd (step s (Analyse (Some (f_of_Z 1))))) = [] /\
  plot_critical prec0 true (step s (Analyse (Some (f_of_Z 1)))) = Err IndexError.
Proof. exact no_figure_none. Qed.
Print Assumptions C65_none_refuted.
Theorem C65_key_refuted : exists (EN : Env) (s : st float) p fig,
  reachable s /\ s_planes (snd s) = [p] /\ s_max_iterations (snd s) = 0%Z /\
  plot_boundary prec0 true s = Ok fig /\
  fst (exec (Analyse None) s) = Ok tt /\ (micro_fos s < 0)%Z /\
  plot_critical prec0 true (step s (Analyse None)) = Err KeyError.
Proof. exact no_figure_key. Qed.
Print Assumptions C65_key_refuted.
