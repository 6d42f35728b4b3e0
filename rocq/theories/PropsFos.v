(** * PropsFos: the factor of safety of a circle (C25, C35, C38, C41-C47, C55-C58, C66). *)
From Coq Require Import ZArith Reals Lra Lia List Bool String Sorted.
From Verif Require Import Num Py Validation Utilities Objects Slope Planes Analysis
     Dynamic Api RealNum RealFacts ListFacts MonadFacts SlopeFacts MaterialFacts
     Invariant History Spec FloatNum FloatWitness FloatMore FloatFos Demo DemoCircle CircleFacts
     PlaneFacts SoilFacts MatInv ViewFacts SearchFacts SliceFacts FosFacts FosMore StrengthFacts
     ScaleFacts FosTotal WetFacts FosCode GridFacts CohesiveFacts LinearFacts SoftFacts.
Import ListNotations.
Local Open Scope R_scope.

(** The demo circle and the wet demo slope meet the hypotheses used below. *)
Example demo_hypotheses : forall EN : Env,
  reachable demo /\ s_water_RL (snd demo) = Some 9 /\ wet_ok demo /\ mats_of demo <> [] /\
  some_strength demo /\ friction_90 demo /\ heavy demo /\
  leaning (s_geom (snd demo)) 12 (29 / 2) (15 / 2) (6, 10) (12, 7) /\
  exists v v', view_of demo = Ok v /\ view_of (step demo RemoveWater) = Ok v'.
Proof.
  intros EN. split; [apply demo_reachable|]. split; [reflexivity|]. split; [apply demo_wet|].
  split; [discriminate|]. split; [apply demo_strength|].
  split; [apply some_friction, demo_strength|]. split; [apply demo_heavy|].
  split; [exact demo_leaning|].
  destruct (view_sound demo demo_reachable) as (v & E & _). exists v.
  destruct (drained demo v E) as (v' & E' & _). eauto.
Qed.

(** ** C25 *)
Theorem C25_ordinary : forall (EN : Env) (s : st R) v v' cx cy r a b,
  reachable s -> friction_90 s -> wet_ok s ->
  view_of s = Ok v -> view_of (step s RemoveWater) = Ok v' ->
  0 <= cx -> 0 <= cy -> 0 <= r -> end_points (s_geom (snd s)) cx cy r a b ->
  (ordinary v cx cy r a b = Ok None /\ ordinary v' cx cy r a b = Ok None) \/
  (exists f f', ordinary v cx cy r a b = Ok (Some f) /\ ordinary v' cx cy r a b = Ok (Some f') /\
     f <= f').
Proof. exact @ordinary_drained. Qed.
Print Assumptions C25_ordinary.
(** One turn from the same value, as long as the denominators are positive. *)
Theorem C25_step : forall (EN : Env) (s : st R) v v' cx cy r a b w sl w' sl' F G G',
  reachable s -> friction_90 s ->
  view_of s = Ok v -> view_of (step s RemoveWater) = Ok v' ->
  0 <= r -> end_points (s_geom (snd s)) cx cy r a b ->
  slices_of v cx cy r (fst a) (fst b) = Ok (Some (w, sl)) ->
  slices_of v' cx cy r (fst a) (fst b) = Ok (Some (w', sl')) ->
  (forall t, In t sl -> 0 < sl_cos t + sl_sin t * sl_tan t / F) ->
  bishop_step w sl F = Ok (Some G) -> bishop_step w' sl' F = Ok (Some G') -> G <= G'.
Proof. exact @turn_drained. Qed.
Print Assumptions C25_step.
(** Circles that lean one way, soil heavier than water: the factor the code
    gives with any number of turns ([allow n]: max_iterations = n, tolerance = 0),
    and the limit *)
Theorem C25_leaning : forall (EN : Env) (s : st R) v v' cx cy r a b,
  reachable s -> some_strength s -> heavy s -> wet_ok s -> mats_of s <> [] ->
  view_of s = Ok v -> view_of (step s RemoveWater) = Ok v' ->
  leaning (s_geom (snd s)) cx cy r a b ->
  exists F F', (forall n, bishop (allow n v) cx cy r = Ok (Some (F n)) /\
                          bishop (allow n v') cx cy r = Ok (Some (F' n)) /\
                          0 <= F n <= F' n) /\
    exists f f', Un_cv F f /\ Un_cv F' f' /\ 0 <= f <= f'.
Proof. exact @drained_answers. Qed.
Print Assumptions C25_leaning.
(** The reported minimum when the ordinary method is chosen *)
Theorem C25_minimum : forall (EN : Env) m (s s1 s2 : st R) f f',
  reachable s -> friction_90 s -> (s_max_iterations (snd s) <= 0)%Z -> wet_ok s ->
  analyse_slope m s = (Ok tt, s1) -> analyse_slope m (step s RemoveWater) = (Ok tt, s2) ->
  get_min_FOS (snd s1) = Ok (Some f) -> get_min_FOS (snd s2) = Ok (Some f') -> f <= f'.
Proof. exact @minimum_drained. Qed.
Print Assumptions C25_minimum.

(** ** C57: false for the factor the code reports *)
Theorem C57_water_raises_refuted : exists (EN : Env) (s : st float),
  reachable s /\ s_water_RL (snd s) = None /\
  fst (exec (SetWater (fl 3 1)) s) = Ok tt /\
  fst (exec (Analyse None) s) = Ok tt /\
  fst (exec (Analyse None) (step s (SetWater (fl 3 1)))) = Ok tt /\
  (micro_fos s < 756000)%Z /\ (857000 < micro_fos (step s (SetWater (fl 3 1))))%Z.
Proof. exact water_raises. Qed.
Print Assumptions C57_water_raises_refuted.

(** ** C35 *)
Theorem C35_no_exception : forall (EN : Env) m (s : st R),
  reachable s -> offsets_ok s -> s_planes (snd s) = [] ->
  (num_points_top_of (T := R) (s_iterations (snd s)) -
     Z.of_nat (List.length (lls_of s) + List.length (udls_of s)) <> 1)%Z ->
  wet_ok s ->
  fst (analyse_slope m s) = Ok tt \/ fst (analyse_slope m s) = Err NanProduced.
Proof. exact @analyse_total. Qed.
Print Assumptions C35_no_exception.
Example C35_example : forall EN : Env,
  reachable demo /\ offsets_ok demo /\ s_planes (snd demo) = [] /\ wet_ok demo /\
  (num_points_top_of (T := R) (s_iterations (snd demo)) -
     Z.of_nat (List.length (lls_of demo) + List.length (udls_of demo)) <> 1)%Z.
Proof.
  intros EN. split; [apply demo_reachable|]. split.
  - split; intros x I; cbn in I; destruct I as [ <- | [] ]; cbn; lra.
  - split; [reflexivity|]. split; [apply demo_wet|].
    destruct (num_points_top_spec 1000 ltac:(lia)) as (L & _ & U). cbn [demo snd demo_sl s_iterations].
    change (num_circles_of 1000) with 5%Z in U.
    change (Z.of_nat (List.length (lls_of demo) + List.length (udls_of demo))) with 2%Z. nia.
Qed.

(** ** C38 *)
Theorem C38_udl : forall xl xr n u, (0 < n)%Z -> xl <= xr ->
  let w := (xr - xl) / IZR n in
  rsum (map (fun i => udl_on (edge_of xl w i) (edge_of xl w (i + 1)) 0 u) (zrange 0 (Z.to_nat n)))
  = snd u * Rmax 0 (Rmin xr (snd (fst u)) - Rmax xl (fst (fst u))).
Proof. exact udl_on_once. Qed.
Print Assumptions C38_udl.
Theorem C38_line_load : forall xl xr n l, (0 < n)%Z -> xl <= xr ->
  let w := (xr - xl) / IZR n in
  let total := rsum (map (fun i => ll_on (edge_of xl w i) (edge_of xl w (i + 1)) 0 l)
                         (zrange 0 (Z.to_nat n))) in
  (xl <= fst l < xr -> total = snd l) /\ (fst l < xl \/ xr <= fst l -> total = 0).
Proof. exact ll_on_once. Qed.
Print Assumptions C38_line_load.
(** The weights of the slices the analysis makes of a circle add up to soil and loads. *)
Theorem C38_total : forall (EN : Env) (s : st R) v cx cy r a b w sl,
  reachable s -> view_of s = Ok v ->
  0 <= r -> end_points (s_geom (snd s)) cx cy r a b ->
  slices_of v cx cy r (fst a) (fst b) = Ok (Some (w, sl)) ->
  w = width v a b /\ exists soil,
    Forall2 (fun t W => soil_weight (v_mats v) w (sl_yb t) (sl_yt t) W) sl soil /\
    rsum (map (@sl_W R) sl) = rsum soil
    + rsum (map (fun u => snd u * Rmax 0 (Rmin (fst b) (snd (fst u)) - Rmax (fst a) (fst (fst u))))
                (v_udls v))
    + rsum (map (fun l => if Rle_dec (fst a) (fst l)
                          then if Rlt_dec (fst l) (fst b) then snd l else 0 else 0) (v_lls v)).
Proof. exact @weights_state. Qed.
Print Assumptions C38_total.
(** 20 kPa from 5 to 7 and 10 kN/m at 15/2 on a circle from 6 to 12 *)
Example C38_example : forall EN : Env, exists v w sl, reachable demo /\ view_of demo = Ok v /\
  end_points (s_geom (snd demo)) 12 (29 / 2) (15 / 2) (6, 10) (12, 7) /\
  slices_of v 12 (29 / 2) (15 / 2) 6 12 = Ok (Some (w, sl)) /\
  v_udls v = [(5, 7, 20)] /\ v_lls v = [(15 / 2, 10)] /\
  snd (5, 7, 20) * Rmax 0 (Rmin 12 (snd (fst (5, 7, 20))) - Rmax 6 (fst (fst (5, 7, 20)))) = 20.
Proof.
  intros EN. destruct (view_sound demo demo_reachable) as (v & E & S). exists v.
  assert (LN : leaning (v_geom v) 12 (29 / 2) (15 / 2) (6, 10) (12, 7))
    by (rewrite (so_geom _ _ S); exact demo_leaning).
  destruct (leaning_slices demo v _ _ _ _ _ S demo_strength (or_introl (proj1 demo_heavy)) LN demo_wet
              ltac:(discriminate)) as (sl0 & SO & _).
  assert (EP : end_points (v_geom v) 12 (29 / 2) (15 / 2) (6, 10) (12, 7)) by apply LN.
  destruct (view_good demo v demo_reachable E) as (GV & _ & G).
  destruct (water_total v (gv_geom v GV)) as (o & WD).
  { intros rl Q. rewrite G. apply (demo_wet rl). rewrite <- Q. symmetry. apply (so_water _ _ S). }
  destruct (slices_at v GV 12 (29 / 2) (15 / 2) (6, 10) (12, 7) o ltac:(lra) EP WD)
    as [(M & _)|(sl & Q & _)].
  { exfalso. exact (slices_mats _ _ _ _ _ _ _ (gv_slices v GV) SO M). }
  exists (width v (6, 10) (12, 7)), sl. split; [apply demo_reachable|]. split; auto.
  split; [now rewrite <- G|]. split; [exact Q|]. clear Q.
  unfold view_of in E. cbn in E. unR. cbn in E. injection E as <-. cbn.
  split; [rnum; do 3 f_equal; lra|]. split; [rnum; do 2 f_equal; lra|]. rnum. lra.
Qed.

(** ** C41: the starting value; [slice_ok] says what the slices are *)
Theorem C41_ordinary : forall (EN : Env) (s : st R) v cx cy r a b,
  reachable s -> view_of s = Ok v -> wet_ok s ->
  0 <= cx -> 0 <= cy -> 0 <= r -> end_points (s_geom (snd s)) cx cy r a b ->
  (mats_of s = [] /\ ordinary v cx cy r a b = Ok None) \/
  (exists sl, slices_ok v cx cy r a b sl /\
     ((driving sl <= 0 /\ ordinary v cx cy r a b = Ok None) \/
      (0 < driving sl /\
       ordinary v cx cy r a b = Ok (Some (resisting (width v a b) sl / driving sl))))).
Proof. exact @ordinary_state. Qed.
Print Assumptions C41_ordinary.

(** ** C42 *)
Theorem C42_bishop : forall (EN : Env) (s : st R) v cx cy r f,
  reachable s -> view_of s = Ok v -> wet_ok s ->
  (bishop v cx cy r = Ok (Some f) <->
   0 <= cx /\ 0 <= cy /\ 0 < r /\
   exists a b sl, end_points (s_geom (snd s)) cx cy r a b /\ slices_ok v cx cy r a b sl /\
    0 < driving sl /\
    let w := width v a b in let F0 := resisting w sl / driving sl in
    let n := Z.to_nat (s_max_iterations (snd s)) in
    exists k, (k <= n)%nat /\ iterate w sl k F0 f /\
      (forall i F1 F2, (S i < k)%nat -> iterate w sl i F0 F1 -> next w sl F1 F2 ->
         s_tolerance (snd s) <= Rabs (F2 - F1)) /\
      ((k < n)%nat -> exists i F1, k = S i /\ iterate w sl i F0 F1 /\
         Rabs (f - F1) < s_tolerance (snd s))).
Proof. exact @reported_state. Qed.
Print Assumptions C42_bishop.
Example C42_example : forall EN : Env, exists v f, reachable demo4 /\ view_of demo4 = Ok v /\
  wet_ok demo4 /\ bishop v 12 (29 / 2) (15 / 2) = Ok (Some f) /\ 0 < f.
Proof.
  intros EN. destruct demo_factor as (v & f & E & B & P). exists v, f.
  split; [apply demo4_reachable|]. split; auto. split; auto. intros rl Q. discriminate.
Qed.

(** ** C43: false; the iteration can run in a circle *)
Theorem C43_no_convergence_refuted : exists (EN : Env) (s : st float) p,
  reachable s /\ s_planes (snd s) = [p] /\
  s_max_iterations (snd s) = 15%Z /\ micro (s_tolerance (snd s)) = 5000%Z /\
  fst (exec (Analyse None) s) = Ok tt /\
  micro_fos s = 1517548%Z /\ fos_turns 14 s = 487259%Z /\ fos_turns 16 s = 487202%Z.
Proof. exact no_convergence. Qed.
Print Assumptions C43_no_convergence_refuted.
(** What holds: it has converged or all turns were used. *)
Theorem C43_converged_partial : forall (EN : Env) (s : st R) v cx cy r f,
  reachable s -> view_of s = Ok v -> wet_ok s ->
  bishop v cx cy r = Ok (Some f) ->
  exists a b sl, end_points (s_geom (snd s)) cx cy r a b /\ slices_ok v cx cy r a b sl /\
    let w := width v a b in let F0 := resisting w sl / driving sl in
    (iterate w sl (Z.to_nat (s_max_iterations (snd s))) F0 f \/
     exists k F1, iterate w sl k F0 F1 /\ next w sl F1 f /\ Rabs (f - F1) < s_tolerance (snd s)).
Proof. exact @converged_state. Qed.
Print Assumptions C43_converged_partial.

(** ** C44 *)
Theorem C44_nonnegative : forall (EN : Env) m (s s' : st R) p f,
  reachable s -> (1 <= s_max_iterations (snd s))%Z \/ friction_90 s ->
  analyse_slope m s = (Ok tt, s') -> In p (s_search (snd s')) -> p_fos p = Some (Some f) -> 0 <= f.
Proof. exact @factors_nonneg. Qed.
Print Assumptions C44_nonnegative.
Example C44_example : forall EN : Env, exists s' p f,
  reachable demo5 /\ (1 <= s_max_iterations (snd demo5))%Z /\
  analyse_slope None demo5 = (Ok tt, s') /\ In p (s_search (snd s')) /\ p_fos p = Some (Some f).
Proof.
  intros EN. destruct (demo5_analysed None) as (f & s' & P & E & G). specialize (G I).
  unfold get_min_FOS in G.
  destruct (s_search (snd s')) as [|p l] eqn:L; [discriminate|]. exists s', p, f.
  split; [apply demo5_reachable|]. split; [cbn; lia|]. split; auto. rewrite L. split; [now left|].
  cbn in G. destruct (p_fos p) as [o|]; congruence.
Qed.

(** ** C45 *)
Theorem C45_factor : forall k, 0 < k -> forall v cx cy r, dry v ->
  bishop (scale_view k v) cx cy r = bishop v cx cy r.
Proof. exact factor_scale. Qed.
Print Assumptions C45_factor.
Theorem C45_analysis : forall k, 0 < k -> forall m (s s' : st R) v,
  view_of s = Ok v -> view_of s' = Ok (scale_view k v) -> dry v ->
  s_planes (snd s') = s_planes (snd s) ->
  fst (analyse_slope m s') = fst (analyse_slope m s) /\
  (fst (analyse_slope m s) = Ok tt ->
   s_search (snd (snd (analyse_slope m s'))) = s_search (snd (snd (analyse_slope m s))) /\
   s_planes (snd (snd (analyse_slope m s'))) = s_planes (snd (snd (analyse_slope m s)))).
Proof. exact analyse_scale. Qed.
Print Assumptions C45_analysis.
Example C45_example : forall EN : Env, exists v f, reachable demo4 /\ view_of demo4 = Ok v /\ dry v /\
  bishop v 12 (29 / 2) (15 / 2) = Ok (Some f) /\ 0 < f /\ v_udls (scale_view 1000 v) <> v_udls v.
Proof.
  intros EN. destruct demo4_view as (v & E & S & G & M & D). destruct demo_factor as (v0 & f & E0 & B & P).
  assert (v0 = v) by congruence. subst v0. exists v, f.
  split; [apply demo4_reachable|]. split; auto. split; auto. split; auto. split; auto.
  pose proof (so_udls_eq _ _ S) as U. change (map u_magnitude (udls_of demo4)) with [20] in U.
  cbn [scale_view v_udls]. destruct (v_udls v) as [|[q m] [|x l]]; cbn in U; try discriminate.
  injection U as ->. cbn. intros Q. injection Q. lra.
Qed.

(** ** C46 *)
Theorem C46_ordinary : forall (EN : Env) (s s' : st R) v v' cx cy r a b,
  reachable s -> reachable s' -> reinforced s s' -> friction_90 s -> wet_ok s ->
  view_of s = Ok v -> view_of s' = Ok v' ->
  0 <= cx -> 0 <= cy -> 0 <= r -> end_points (s_geom (snd s)) cx cy r a b ->
  (ordinary v cx cy r a b = Ok None /\ ordinary v' cx cy r a b = Ok None) \/
  (exists f f', ordinary v cx cy r a b = Ok (Some f) /\ ordinary v' cx cy r a b = Ok (Some f') /\
     f <= f').
Proof. exact @ordinary_reinforced. Qed.
Print Assumptions C46_ordinary.
Theorem C46_step : forall (EN : Env) (s s' : st R) v v' cx cy r a b w sl w' sl' F G G',
  reachable s -> reachable s' -> reinforced s s' -> friction_90 s ->
  Forall2 (fun m m' => m_friction_angle m' = m_friction_angle m) (mats_of s) (mats_of s') ->
  view_of s = Ok v -> view_of s' = Ok v' ->
  0 <= r -> end_points (s_geom (snd s)) cx cy r a b ->
  slices_of v cx cy r (fst a) (fst b) = Ok (Some (w, sl)) ->
  slices_of v' cx cy r (fst a) (fst b) = Ok (Some (w', sl')) ->
  (forall t, In t sl -> 0 < sl_cos t + sl_sin t * sl_tan t / F) ->
  bishop_step w sl F = Ok (Some G) -> bishop_step w' sl' F = Ok (Some G') -> G <= G'.
Proof. exact @turn_reinforced. Qed.
Print Assumptions C46_step.
Theorem C46_leaning : forall (EN : Env) (s s' : st R) v v' cx cy r a b,
  reachable s -> reachable s' -> reinforced s s' ->
  Forall2 (fun m m' => m_friction_angle m' = m_friction_angle m) (mats_of s) (mats_of s') ->
  some_strength s -> heavy s -> wet_ok s -> mats_of s <> [] ->
  view_of s = Ok v -> view_of s' = Ok v' ->
  leaning (s_geom (snd s)) cx cy r a b ->
  exists F F', (forall n, bishop (allow n v) cx cy r = Ok (Some (F n)) /\
                          bishop (allow n v') cx cy r = Ok (Some (F' n)) /\
                          0 <= F n <= F' n) /\
    exists f f', Un_cv F f /\ Un_cv F' f' /\ 0 <= f <= f'.
Proof. exact @reinforced_answers. Qed.
Print Assumptions C46_leaning.
(** 5 kPa and 30 degrees against 9 kPa and 40 degrees (30 for the iterates) *)
Example C46_example : forall EN : Env,
  reachable (bank 5 30) /\ reachable (bank 9 40) /\ reachable (bank 9 30) /\
  reinforced (bank 5 30) (bank 9 40) /\ reinforced (bank 5 30) (bank 9 30) /\
  Forall2 (fun m m' : material R => m_friction_angle m' = m_friction_angle m)
          (mats_of (bank 5 30)) (mats_of (bank 9 30)) /\
  some_strength (bank 5 30) /\ heavy (bank 5 30) /\ wet_ok (bank 5 30) /\
  leaning (s_geom (snd (bank 5 30))) 12 (29 / 2) (15 / 2) (6, 10) (12, 7).
Proof.
  intros EN. split; [apply bank_reachable; lra|]. split; [apply bank_reachable; lra|].
  split; [apply bank_reachable; lra|].
  split; [constructor; try reflexivity; constructor; [|constructor]; repeat split; cbn; try lra|].
  split; [constructor; try reflexivity; constructor; [|constructor]; repeat split; cbn; try lra|].
  split; [constructor; [reflexivity|constructor]|].
  split; [intros m [ <- | [] ]; cbn; lra|]. split; [intros m [ <- | [] ]; cbn; lra|].
  split; [intros rl Q; discriminate|]. exact demo_leaning.
Qed.

(** ** C58: false for the factor the code reports *)
Theorem C58_cohesion_lowers_refuted : exists (EN : Env) (s s' : st float) ops,
  s = layered_bank 50 10 0 5 ops /\ s' = layered_bank 50 20 0 5 ops /\
  reachable s /\ reachable s' /\
  fst (exec (Analyse None) s) = Ok tt /\ fst (exec (Analyse None) s') = Ok tt /\
  (micro_fos s' < 332000)%Z /\ (3446000 < micro_fos s)%Z.
Proof. exact cohesion_lowers. Qed.
Print Assumptions C58_cohesion_lowers_refuted.

(** ** C47: false; NaN unless the ordinary method is chosen *)
Theorem C47_nan_refuted : exists (EN : Env) (s : st float) m,
  reachable s /\ mats_of s = [m] /\ m_cohesion m = f_of_Z 0 /\ m_friction_angle m = f_of_Z 0 /\
  s_max_iterations (snd s) = 15%Z /\
  fst (exec (Analyse None) s) = Err NanProduced /\ fos_turns 0 s = 0%Z.
Proof. exact strengthless_nan. Qed.
Print Assumptions C47_nan_refuted.
Theorem C47_factor_partial : forall v cx cy r a b sl,
  good_view v -> strengthless v -> 0 <= cx -> 0 <= cy -> 0 <= r -> water_fits v ->
  end_points (v_geom v) cx cy r a b -> slices_ok v cx cy r a b sl -> 0 < driving sl ->
  bishop v cx cy r = if (v_max_iterations v <=? 0)%Z then Ok (Some 0) else Err NanProduced.
Proof. exact strengthless_factor. Qed.
Print Assumptions C47_factor_partial.
(** in terms of the slope *)
Theorem C47_soft_partial : forall (EN : Env) (s : st R) v cx cy r a b,
  reachable s -> view_of s = Ok v ->
  (forall m, In m (mats_of s) -> m_cohesion m = 0 /\ m_friction_angle m = 0) ->
  leaning (s_geom (snd s)) cx cy r a b -> wet_ok s -> mats_of s <> [] ->
  bishop v cx cy r = if (s_max_iterations (snd s) <=? 0)%Z then Ok (Some 0) else Err NanProduced.
Proof. exact @soft_factor. Qed.
Print Assumptions C47_soft_partial.
Example C47_example : forall EN : Env,
  reachable (bank 0 0) /\ wet_ok (bank 0 0) /\ mats_of (bank 0 0) <> [] /\
  (forall m, In m (mats_of (bank 0 0)) -> m_cohesion m = 0 /\ m_friction_angle m = 0) /\
  leaning (s_geom (snd (bank 0 0))) 12 (29 / 2) (15 / 2) (6, 10) (12, 7) /\
  exists v, view_of (bank 0 0) = Ok v /\ bishop v 12 (29 / 2) (15 / 2) = Err NanProduced.
Proof.
  intros EN.
  assert (A : reachable (bank 0 0)) by (apply bank_reachable; lra).
  assert (B : wet_ok (bank 0 0)) by (intros rl Q; discriminate).
  assert (C : mats_of (bank 0 0) <> []) by discriminate.
  assert (D : forall m, In m (mats_of (bank 0 0)) -> m_cohesion m = 0 /\ m_friction_angle m = 0)
    by (intros m [ <- | [] ]; split; reflexivity).
  repeat (split; [assumption|]). split; [exact demo_leaning|].
  destruct (view_sound (bank 0 0) A) as (v & E & _). exists v. split; [exact E|].
  rewrite (C47_soft_partial EN (bank 0 0) v _ _ _ _ _ A E D demo_leaning B C). reflexivity.
Qed.

(** ** C55 *)
Theorem C55_factor : forall (EN : Env) (s : st R) v cx cy r a b,
  reachable s -> view_of s = Ok v -> some_strength s -> heavy s \/ dry v ->
  leaning (v_geom v) cx cy r a b -> wet_ok s -> mats_of s <> [] ->
  exists f, bishop v cx cy r = Ok (Some f) /\ 0 <= f /\ (dry v -> 0 < f).
Proof. exact @leaning_factor. Qed.
Print Assumptions C55_factor.

(** ** C56 *)
Theorem C56_answers : forall (EN : Env) (s : st R) v cx cy r a b,
  reachable s -> view_of s = Ok v -> some_strength s -> heavy s \/ dry v ->
  leaning (v_geom v) cx cy r a b -> wet_ok s -> mats_of s <> [] ->
  exists F, (forall n, bishop (allow n v) cx cy r = Ok (Some (F n)) /\ 0 <= F n) /\
    ((forall n, F n <= F (S n)) \/ (forall n, F (S n) <= F n)) /\
    exists f, Un_cv F f /\ 0 <= f.
Proof. exact @answers_converge. Qed.
Print Assumptions C56_answers.
Theorem C56_converges : forall (EN : Env) (s : st R) v cx cy r a b,
  reachable s -> view_of s = Ok v -> some_strength s -> heavy s \/ dry v ->
  leaning (v_geom v) cx cy r a b -> wet_ok s -> mats_of s <> [] ->
  exists sl, slices_ok v cx cy r a b sl /\
    let w := width v a b in let F0 := resisting w sl / driving sl in
    (dry v -> 0 < F0) /\
    (0 < F0 ->
      ((forall k, turns w sl F0 k <= turns w sl F0 (S k)) \/
       (forall k, turns w sl F0 (S k) <= turns w sl F0 k)) /\
      (forall k, iterate w sl k F0 (turns w sl F0 k)) /\
      (exists f, Un_cv (turns w sl F0) f /\ 0 <= f) /\
      (forall f, 0 < s_tolerance (snd s) ->
         Rmax F0 (ceiling w sl) <= IZR (s_max_iterations (snd s)) * s_tolerance (snd s) ->
         bishop v cx cy r = Ok (Some f) ->
         exists k F1, iterate w sl k F0 F1 /\ next w sl F1 f /\ Rabs (f - F1) < s_tolerance (snd s))).
Proof. exact @leaning_converges. Qed.
Print Assumptions C56_converges.

(** ** C66 *)
Theorem C66_closed_form : forall (EN : Env) (s : st R) v cx cy r,
  reachable s -> view_of s = Ok v -> cohesive s -> wet_ok s ->
  0 <= cx -> 0 <= cy -> 0 <= r ->
  (exists l, crossings (s_geom (snd s)) cx cy r l /\ (List.length l <= 1)%nat /\
     bishop v cx cy r = Ok None) \/
  (exists a b, end_points (s_geom (snd s)) cx cy r a b /\
     ((mats_of s = [] /\ bishop v cx cy r = Ok None) \/
      (exists sl, slices_ok v cx cy r a b sl /\
         ((driving sl <= 0 /\ bishop v cx cy r = Ok None) \/
          (0 < driving sl /\ 0 < swedish (width v a b) sl /\
           bishop v cx cy r = Ok (Some (swedish (width v a b) sl))))))).
Proof. exact @cohesive_factor. Qed.
Print Assumptions C66_closed_form.
Theorem C66_answers : forall (EN : Env) m (s : st R),
  reachable s -> offsets_ok s -> cohesive s -> wet_ok s -> s_planes (snd s) = [] ->
  (num_points_top_of (T := R) (s_iterations (snd s)) -
     Z.of_nat (List.length (lls_of s) + List.length (udls_of s)) <> 1)%Z ->
  exists s', analyse_slope m s = (Ok tt, s').
Proof. exact @cohesive_analysed. Qed.
Print Assumptions C66_answers.
Theorem C66_water : forall (EN : Env) m (s : st R),
  reachable s -> cohesive s -> wet_ok s ->
  fst (analyse_slope m (step s RemoveWater)) = fst (analyse_slope m s) /\
  (fst (analyse_slope m s) = Ok tt ->
   s_search (snd (snd (analyse_slope m (step s RemoveWater)))) =
   s_search (snd (snd (analyse_slope m s)))).
Proof. exact @cohesive_same_search. Qed.
Print Assumptions C66_water.
(** 10 kPa without friction, water 1 m below the crest *)
Definition wet_bank {EN : Env} : st R :=
  (fst (bank 10 0), set_s_search [] (set_s_water_depth (Some 1) (set_s_water_RL (Some 9) (snd (bank 10 0))))).
Example C66_example : forall EN : Env,
  exec (SetWater (PFloat 1)) (bank 10 0) = (Ok tt, wet_bank) /\
  reachable wet_bank /\ cohesive wet_bank /\ wet_ok wet_bank /\ offsets_ok wet_bank /\
  s_planes (snd wet_bank) = [] /\ mats_of wet_bank <> [] /\
  (num_points_top_of (T := R) (s_iterations (snd wet_bank)) -
     Z.of_nat (List.length (lls_of wet_bank) + List.length (udls_of wet_bank)) <> 1)%Z /\
  end_points (s_geom (snd wet_bank)) 12 (29 / 2) (15 / 2) (6, 10) (12, 7).
Proof.
  intros EN.
  assert (E : exec (SetWater (PFloat 1)) (bank 10 0) = (Ok tt, wet_bank)).
  { cbn [exec]. unfold set_water_table. cbn [is_none]. msteps.
    cbn. unR. rnum. msteps. unR. cbn. unR. rnum.
    replace (10 - 1) with 9 by lra. reflexivity. }
  split; [exact E|]. split.
  { replace wet_bank with (step (bank 10 0) (SetWater (PFloat 1))) by (unfold step; now rewrite E).
    apply reachable_step, bank_reachable; lra. }
  split; [intros m [ <- | [] ]; cbn; lra|].
  split; [intros rl Q; injection Q as <-; cbn; lra|].
  split; [split; intros x []|]. split; [reflexivity|]. split; [discriminate|].
  split; [|apply demo_leaning].
  destruct (num_points_top_spec 1000 ltac:(lia)) as (L & _ & U).
  cbn [wet_bank bank snd demo_sl s_iterations set_s_search set_s_water_depth set_s_water_RL].
  change (num_circles_of 1000) with 5%Z in U.
  change (Z.of_nat (List.length (lls_of wet_bank) + List.length (udls_of wet_bank))) with 0%Z. nia.
Qed.
Theorem C66_linear : forall (EN : Env) t, 0 < t -> forall (s s' : st R) v v' cx cy r,
  reachable s -> reachable s' -> recohered t s s' -> cohesive s -> wet_ok s -> wet_ok s' ->
  view_of s = Ok v -> view_of s' = Ok v' ->
  bishop v' cx cy r = times_res t (bishop v cx cy r).
Proof. exact @cohesion_factor. Qed.
Print Assumptions C66_linear.
Theorem C66_linear_search : forall (EN : Env) t, 0 < t -> forall m (s s' : st R),
  reachable s -> reachable s' -> recohered t s s' -> cohesive s -> wet_ok s -> wet_ok s' ->
  fst (analyse_slope (option_map (Rmult t) m) s') = fst (analyse_slope m s) /\
  (fst (analyse_slope m s) = Ok tt ->
   s_search (snd (snd (analyse_slope (option_map (Rmult t) m) s'))) =
   map (times_fos t) (s_search (snd (snd (analyse_slope m s))))).
Proof. exact @cohesion_search. Qed.
Print Assumptions C66_linear_search.
Theorem C66_linear_min : forall (EN : Env) t, 0 < t -> forall (s s' : st R) s1 s1' f,
  reachable s -> reachable s' -> recohered t s s' -> cohesive s -> wet_ok s -> wet_ok s' ->
  analyse_slope None s = (Ok tt, s1) -> analyse_slope None s' = (Ok tt, s1') ->
  get_min_FOS (snd s1) = Ok (Some f) ->
  get_min_FOS (snd s1') = Ok (Some (t * f)) /\
  get_min_FOS_circle (snd s1') = get_min_FOS_circle (snd s1).
Proof. exact @cohesion_min. Qed.
Print Assumptions C66_linear_min.
(** 10 kPa under water and 20 kPa without: twice the factor *)
Example C66_linear_example : forall EN : Env,
  reachable wet_bank /\ reachable (bank 20 0) /\ recohered 2 wet_bank (bank 20 0) /\
  cohesive wet_bank /\ wet_ok wet_bank /\ wet_ok (bank 20 0) /\
  exists s1 s1', analyse_slope None wet_bank = (Ok tt, s1) /\ analyse_slope None (bank 20 0) = (Ok tt, s1').
Proof.
  intros EN. destruct (C66_example EN) as (_ & RS & C & W & OF & PL & _ & NL & _).
  assert (RS' : reachable (bank 20 0)) by (apply bank_reachable; lra).
  assert (RC : recohered 2 wet_bank (bank 20 0)).
  { constructor; try reflexivity. apply Forall2_cons; [|apply Forall2_nil].
    unfold times_cohesion. cbn. do 3 (split; [reflexivity|]). lra. }
  assert (W' : wet_ok (bank 20 0)) by (intros rl Q; discriminate).
  repeat match goal with |- _ /\ _ => split end; auto.
  destruct (C66_answers EN None wet_bank RS OF C W PL NL) as (s1 & A).
  destruct (cohesion_search 2 ltac:(lra) None wet_bank (bank 20 0) RS RS' RC C W W') as (Q & _).
  cbn [option_map] in Q. rewrite A in Q. cbn [fst] in Q.
  destruct (analyse_slope None (bank 20 0)) as [r s1'] eqn:A'. cbn [fst] in Q. subst r. eauto.
Qed.
