(** * PropsResults: water table, options, life of the results (C23, C24, C26-C30). *)
From Coq Require Import ZArith Reals Lra Lia List Bool String Permutation Sorted.
From Verif Require Import Num Py Validation Utilities Objects Slope Planes Analysis
     Dynamic Api RealNum RealFacts ListFacts MonadFacts SlopeFacts MaterialFacts
     Invariant History Spec EditFacts LayerFacts OptionFacts SearchFacts FloatNum
     FloatWitness ViewFacts FosTotal Demo.
Import ListNotations.
Local Open Scope R_scope.

(** ** C23 *)
Theorem C23_water_set : forall (EN : Env) (s : st R) v d,
  reachable s -> denotes v d -> 0 <= d ->
  exists s' rl, exec (SetWater v) s = (Ok tt, s') /\
    s_water_depth (snd s') = Some d /\ s_water_RL (snd s') = Some rl /\
    rl = Rmax 0 (snd (g_top (s_geom (snd s))) - d) /\
    0 <= rl <= g_ext_h (s_geom (snd s')) /\
    fst s' = fst s /\ s_geom (snd s') = s_geom (snd s).
Proof. exact @water_set. Qed.
Print Assumptions C23_water_set.
Theorem C23_water_none : forall (EN : Env) (s : st R),
  exists s', exec (SetWater PNone) s = (Ok tt, s') /\
    s_water_depth (snd s') = None /\ s_water_RL (snd s') = None /\
    fst s' = fst s /\ s_geom (snd s') = s_geom (snd s).
Proof. exact @water_none. Qed.
Print Assumptions C23_water_none.
Theorem C23_water_rejected : forall (EN : Env) (s : st R) v,
  v <> PNone -> (forall d, denotes v d -> d < 0) ->
  exec (SetWater v) s = (Err ValueError, s).
Proof. exact @water_rejected. Qed.
Print Assumptions C23_water_rejected.
Example C23_example : forall EN : Env,
  reachable demo /\ denotes (PFloat 4) 4 /\ 0 <= 4 /\
  snd (g_top (s_geom (snd demo))) - 4 = 6 /\
  (PStr "deep" <> (PNone : pyval R) /\ forall d : R, denotes (PStr "deep") d -> d < 0).
Proof.
  intros EN. split; [apply demo_reachable|]. split; [reflexivity|]. split; [lra|].
  split; [cbn; lra|]. split; [discriminate|]. intros d [].
Qed.

(** ** C24 *)
Theorem C24_factor_range : forall (EN : Env) (s : st R),
  reachable s -> 0 <= s_water_H (snd s) <= 1.
Proof. exact @factor_range. Qed.
Print Assumptions C24_factor_range.
Theorem C24_factor_auto : forall (EN : Env) (s : st R) v,
  exists s', exec (WaterOpts true v) s = (Ok tt, s') /\
    s_water_H (snd s') = 1 / (1 + g_gradient (s_geom (snd s)) * g_gradient (s_geom (snd s))) /\
    fst s' = fst s /\ s_geom (snd s') = s_geom (snd s) /\
    s_water_RL (snd s') = s_water_RL (snd s).
Proof. exact @factor_auto. Qed.
Print Assumptions C24_factor_auto.
Theorem C24_factor_manual : forall (EN : Env) (s : st R) v h,
  plain_denotes v h ->
  exists s', exec (WaterOpts false v) s = (Ok tt, s') /\
    s_water_H (snd s') = clamp 0 1 h /\
    fst s' = fst s /\ s_geom (snd s') = s_geom (snd s) /\
    s_water_RL (snd s') = s_water_RL (snd s).
Proof. exact @factor_manual. Qed.
Print Assumptions C24_factor_manual.
Theorem C24_factor_rejected : forall (EN : Env) (s : st R) v,
  ~ plain_number v -> exists e, exec (WaterOpts false v) s = (Err e, s).
Proof. exact @factor_rejected. Qed.
Print Assumptions C24_factor_rejected.
Example C24_example : forall EN : Env,
  reachable demo /\ s_water_H (snd demo) = 16 / 25 /\
  plain_denotes (PFloat (7 / 2)) (7 / 2) /\ clamp 0 1 (7 / 2) = 1 /\
  ~ plain_number (PBool true : pyval R).
Proof.
  intros EN. split; [apply demo_reachable|]. split.
  - cbn. rewrite cos_atan_sq. lra.
  - split; [split; cbn; auto|]. split; [unfold clamp; rnum; reflexivity|]. intros [].
Qed.

(** ** C26 *)
Theorem C26_options_range : forall (EN : Env) (s : st R), reachable s ->
  (10 <= s_slices (snd s) <= 500)%Z /\ (500 <= s_iterations (snd s) <= 100000)%Z.
Proof. exact @options_range. Qed.
Print Assumptions C26_options_range.
Theorem C26_options_set : forall (EN : Env) (s : st R) sl it mf tol mi,
  exists s', exec (AnalysisOpts sl it mf tol mi) s = (Ok tt, s') /\
    option_set 10 500 sl (s_slices (snd s)) (s_slices (snd s')) /\
    option_set 500 100000 it (s_iterations (snd s)) (s_iterations (snd s')) /\
    match mf with None => s_min_failure (snd s') = s_min_failure (snd s)
                | Some d => s_min_failure (snd s') <= d /\
                    (d <= g_ext_l (s_geom (snd s)) * (9 / 10) -> s_min_failure (snd s') = d) end /\
    s_tolerance (snd s') = match tol with None => s_tolerance (snd s) | Some t => t end /\
    s_max_iterations (snd s') = match mi with None => s_max_iterations (snd s) | Some n => n end /\
    fst s' = fst s /\ s_geom (snd s') = s_geom (snd s) /\ s_limits (snd s') = s_limits (snd s).
Proof. exact @options_set. Qed.
Print Assumptions C26_options_set.
Theorem C26_options_kept : forall (T : Type) (NT : Num T) (EN : Env) (o : op T) (s : st T),
  is_options o = false -> opts (snd (exec o s)) = opts s.
Proof. exact @opts_kept. Qed.
Print Assumptions C26_options_kept.
Example C26_example : forall EN : Env,
  reachable demo /\ option_set 10 500 (Some 7)%Z 25 10 /\ option_set 500 100000 (Some 0)%Z 1000 1000 /\
  option_set 500 100000 (Some 200000)%Z 1000 100000 /\
  is_options (AnalyseDynamic (CFloat 1) : op R) = false.
Proof.
  intros EN. split; [apply demo_reachable|]. unfold option_set. ands; auto; lia.
Qed.

(** ** C27 *)
Theorem C27_edit_discards : forall (T : Type) (NT : Num T) (EN : Env) (o : op T) (s s' : st T),
  edits o = true -> exec o s = (Ok tt, s') ->
  get_min_FOS (snd s') = Err IndexError /\ get_min_FOS_circle (snd s') = Err IndexError /\
  get_min_FOS_end_points (snd s') = Err IndexError.
Proof. exact @edit_no_results. Qed.
Print Assumptions C27_edit_discards.
Theorem C27_circle_discards : forall (T : Type) (NT : Num T) (EN : Env) x y r (s s' : st T),
  exec (AddCircle x y r) s = (Ok tt, s') ->
  (s' = s /\ exists il, circle_external (s_geom (snd s)) x y r = Ok il /\ first_two il = None) \/
  (get_min_FOS (snd s') = Err IndexError /\ get_min_FOS_circle (snd s') = Err IndexError /\
   get_min_FOS_end_points (snd s') = Err IndexError).
Proof. exact @circle_no_results. Qed.
Print Assumptions C27_circle_discards.
Theorem C27_new_no_results : forall (T : Type) (NT : Num T) h height angle length (s : st T),
  new_slope h height angle length = Ok s ->
  get_min_FOS (snd s) = Err IndexError /\ get_min_FOS_circle (snd s) = Err IndexError /\
  get_min_FOS_end_points (snd s) = Err IndexError.
Proof. exact @fresh_no_results. Qed.
Print Assumptions C27_new_no_results.
Example C27_example : forall EN : Env,
  edits (SetWater (PFloat 1) : op R) = true /\
  exec (SetWater (PFloat 1)) demo4 = (Ok tt, demo) /\
  new_slope empty_heap (PFloat 3) PNone (PFloat 4) = Ok demo0.
Proof. intros EN. split; [reflexivity|]. split; [apply demo_exec|apply demo0_new]. Qed.

(** ** C28 *)
Theorem C28_results_current : forall (EN : Env) h a l (s0 s : st R) ops f,
  new_slope empty_heap h a l = Ok s0 -> quiet_run s0 ops -> s = run s0 ops ->
  get_min_FOS (snd s) = Ok f ->
  (exists m, analyse_slope m s = (Ok tt, s)) /\
  exists s1, analyse_slope None s = (Ok tt, s1) /\
    get_min_FOS (snd s1) = Ok f /\
    get_min_FOS_circle (snd s1) = get_min_FOS_circle (snd s) /\
    get_min_FOS_end_points (snd s1) = get_min_FOS_end_points (snd s).
Proof. exact @results_current. Qed.
Print Assumptions C28_results_current.
(** two layers, two loads and one circle, analysed *)
Example C28_example : forall EN : Env,
  new_slope empty_heap (PFloat 3) PNone (PFloat 4) = Ok demo0 /\ quiet_run demo0 demo_run /\
  exists f, 0 < f /\ get_min_FOS (snd (run demo0 demo_run)) = Ok (Some f).
Proof. intros EN. split; [apply demo0_new|apply demo_run_ok]. Qed.

(** ** C29: false; a raised analysis leaves the untidied list of circles *)
Theorem C29_not_minimum_refuted : exists (EN : Env) (s : st float),
  reachable s /\
  (let r := exec (Analyse None) s in
   fst r = Err ValueError /\
   exists f, In f (recorded (snd r)) /\ (0 < f < reported (snd r))%Z).
Proof. exact raised_then_reported. Qed.
Print Assumptions C29_not_minimum_refuted.
Theorem C29_stale_refuted : exists (EN : Env) (s : st float),
  reachable s /\ get_min_FOS (snd s) = Err IndexError /\
  (let r := exec (Analyse None) s in fst r = Err TypeError /\ (0 < reported (snd r))%Z).
Proof. exact old_result_reported. Qed.
Print Assumptions C29_stale_refuted.
(** What is reported then: the old result, or the record of the first circle. *)
Theorem C29_reported_partial : forall (T : Type) (NT : Num T) m (s s' : st T) e f,
  analyse_slope m s = (Err e, s') -> get_min_FOS (snd s') = Ok (Some f) ->
  s' = s \/
  exists v cs c, view_of s' = Ok v /\ analysed s v cs /\ hd_error cs = Some c /\
    (factor v c = Ok (Some f) \/ (factor v c = Err e /\ p_fos c = Some (Some f))).
Proof. exact @failed_report. Qed.
Print Assumptions C29_reported_partial.

(** ** C30 *)
Theorem C30_search : forall m (s s' : st R),
  analyse_slope m s = (Ok tt, s') ->
  exists v cs, view_of s = Ok v /\ analysed s v cs /\
    (forall c, In c cs -> exists f, factor v c = Ok f) /\
    (forall p, In p (s_search (snd s')) <->
       exists c f, In c cs /\ record_of v p c f /\ passes m f /\ p = set_fos (Some f) c) /\
    StronglySorted (fun p q => forall f g, p_fos p = Some (Some f) -> p_fos q = Some (Some g) -> f <= g)
                   (s_search (snd s')) /\
    (List.length (s_search (snd s')) =
       List.length (filter (fun c => match factor v c with
         | Ok (Some f) => match m with None => true
                                     | Some x => Reqb x 0 || Rleb f x end
         | _ => false end) cs))%nat.
Proof. exact @search_spec. Qed.
Print Assumptions C30_search.
Theorem C30_minimum : forall m (s s' : st R),
  analyse_slope m s = (Ok tt, s') ->
  exists v cs, view_of s = Ok v /\ analysed s v cs /\
    ((get_min_FOS (snd s') = Err IndexError /\
      forall c f, In c cs -> factor v c = Ok (Some f) -> ~ passes m f) \/
     (exists c f, get_min_FOS (snd s') = Ok (Some f) /\ In c cs /\ factor v c = Ok (Some f) /\
        get_min_FOS_circle (snd s') = Ok (circle_of c) /\
        get_min_FOS_end_points (snd s') = Ok (p_l c, p_r c) /\
        forall c' f', In c' cs -> factor v c' = Ok (Some f') -> f <= f')).
Proof. exact @min_spec. Qed.
Print Assumptions C30_minimum.
Example C30_example : forall EN : Env, reachable demo5 /\
  (exists f s', 0 < f /\ analyse_slope None demo5 = (Ok tt, s') /\
     get_min_FOS (snd s') = Ok (Some f)) /\
  (exists s', analyse_slope (Some 0) demo5 = (Ok tt, s')).
Proof.
  intros EN. split; [apply demo5_reachable|].
  destruct (demo5_analysed None) as (f & s' & P & E & G).
  destruct (demo5_analysed (Some 0)) as (f1 & s1 & _ & E1 & _).
  split; [exists f, s'; split; auto; split; auto; now apply G | eauto].
Qed.
