(** * PropsCircles: failure circles and the automatic search (C12, C31-C34, C36, C52-C54). *)
From Coq Require Import ZArith Reals Lra Lia List Bool String Sorted.
From Verif Require Import Num Py Validation Utilities Objects Slope Planes Analysis
     Dynamic Api RealNum RealFacts ListFacts MonadFacts SlopeFacts
     Invariant History Spec SearchFacts FloatNum FloatWitness Demo
     CircleFacts PlaneFacts ViewFacts GridFacts FloatMore DemoCircle FaceFacts CohesiveFacts WetFacts
     FosTotal HitFacts.
Import ListNotations.
Local Open Scope R_scope.

(** ** C12: true without loads; a load adds an entry point 1 mm left of it,
    inside the limits or not *)
Theorem C12_without_loads_partial : forall (EN : Env) (s : st R) v ps p,
  reachable s -> lls_of s = [] -> udls_of s = [] ->
  view_of s = Ok v -> entry_exit_planes v = Ok ps -> In p ps ->
  exists lx rx, lim_left (s_limits (snd s)) <= lx <= lim_left_r (s_limits (snd s)) /\
    trial_of s lx rx p.
Proof. exact @search_inside_plain. Qed.
Print Assumptions C12_without_loads_partial.
Theorem C12_with_loads_partial : forall (EN : Env) (s : st R) v ps p,
  reachable s -> offsets_ok s ->
  view_of s = Ok v -> entry_exit_planes v = Ok ps -> In p ps ->
  exists lx rx, entry_of s lx /\ trial_of s lx rx p.
Proof. exact @search_inside. Qed.
Print Assumptions C12_with_loads_partial.
Theorem C12_entry_refuted : exists (EN : Env) (s : st float) v ls,
  reachable s /\ view_of s = Ok v /\ left_coords v = Ok ls /\
  (micro (lim_left (s_limits (snd s))) = 0 /\ micro (lim_left_r (s_limits (snd s))) = 1000000 /\
   exists l, In l ls /\ micro (fst l) = 6999000)%Z.
Proof. exact entry_outside_limits. Qed.
Print Assumptions C12_entry_refuted.
Example C12_example : forall EN : Env,
  reachable demo2 /\ lls_of demo2 = [] /\ udls_of demo2 = [] /\
  reachable demo /\ offsets_ok demo /\
  exists v ps, view_of demo = Ok v /\ entry_exit_planes v = Ok ps.
Proof.
  intros EN. split; [apply demo2_reachable|]. do 2 (split; [reflexivity|]).
  pose proof demo_reachable as Hr. split; auto.
  assert (O : offsets_ok demo).
  { split; intros x [ <- | [] ]; cbn; lra. }
  split; auto. destruct (view_sound _ Hr) as (v & E & _). exists v.
  assert (L : num_points_top_of (T := R) (s_iterations (snd demo)) = 14%Z).
  { change (s_iterations (snd demo)) with 1000%Z.
    pose proof (num_points_top_spec 1000 ltac:(lia)) as Q. cbv zeta in Q.
    change (num_circles_of 1000) with 5%Z in Q. nia. }
  destruct (search_states demo v Hr O E) as (ps & Q & _).
  - cbv zeta. rewrite L. cbn. lia.
  - eauto.
Qed.

(** ** C31 *)
Theorem C31_intersection : forall (a b : R * R) cx cy r, a <> b -> 0 <= r ->
  exists l, cirle_line_intersection a b cx cy r = Ok l /\
    (forall p, In p l <-> on_circle cx cy r p /\ on_line a b p) /\ NoDup l /\
    (line_dist a b (cx, cy) < r -> List.length l = 2%nat) /\
    (line_dist a b (cx, cy) = r -> List.length l = 1%nat) /\
    (r < line_dist a b (cx, cy) -> l = []).
Proof. exact intersection_spec. Qed.
Print Assumptions C31_intersection.
(** A negative radius, which add_single_circular_plane accepts, counts as its
    absolute value. *)
Theorem C31_any_radius : forall (a b : R * R) cx cy r, a <> b ->
  exists l, cirle_line_intersection a b cx cy r = Ok l /\
    forall p, In p l <-> on_circle cx cy r p /\ on_line a b p.
Proof. exact intersection_any. Qed.
Print Assumptions C31_any_radius.
Example C31_example : (0, 10) <> (8, 10) /\ on_circle 12 (29 / 2) (15 / 2) (6, 10) /\
  on_line (0, 10) (8, 10) (6, 10).
Proof.
  split; [intros E; injection E; lra|]. split; [unfold on_circle; cbn; lra|].
  exists (3 / 4). cbn. f_equal; lra.
Qed.

(** ** C32: when a circle is added or generated *)
Theorem C32_end_points : forall g, good_geom g -> forall cx cy r a b,
  end_points g cx cy r a b ->
  on_circle cx cy r a /\ on_ground g a /\ on_circle cx cy r b /\ on_ground g b /\
  fst a + 1 / 100 < fst b.
Proof. exact end_points_ok. Qed.
Print Assumptions C32_end_points.
Theorem C32_ground : forall (EN : Env) (s : st R), reachable s -> good_geom (s_geom (snd s)).
Proof. intros EN s Hr. exact (core_good s (proj1 (reachable_inv s Hr))). Qed.
Print Assumptions C32_ground.
Theorem C32_added_circle : forall (EN : Env) (s : st R) x y r,
  reachable s ->
  exists s', exec (AddCircle x y r) s = (Ok tt, s') /\ fst s' = fst s /\
    ((exists l, crossings (s_geom (snd s)) x y r l /\ (List.length l <= 1)%nat /\ s' = s) \/
     (exists a b, end_points (s_geom (snd s)) x y r a b /\
        snd s' = set_s_search [] (set_s_planes
                   (s_planes (snd s) ++ [MkPlane a b x y r None]) (snd s)))).
Proof. exact @added_circle. Qed.
Print Assumptions C32_added_circle.
Theorem C32_added_pair : forall (EN : Env) (s : st R) lx rx n,
  reachable s -> 0 <= lx -> lx < rx -> rx <= g_ext_l (s_geom (snd s)) ->
  exists s' ps, exec (AddEntryExit lx rx n) s = (Ok tt, s') /\
    s_planes (snd s') = s_planes (snd s) ++ ps /\
    forall p, In p ps ->
      end_points (s_geom (snd s)) (p_cx p) (p_cy p) (p_radius p) (p_l p) (p_r p).
Proof.
  intros EN s lx rx n Hr A B C.
  destruct (added_pair s lx rx n Hr A B C) as (s' & ps & E & _ & P & (_ & F & _)).
  exists s', ps. split; auto. split; [rewrite P; reflexivity|].
  intros p I. rewrite Forall_forall in F. apply (F p I).
Qed.
Print Assumptions C32_added_pair.
Theorem C32_search : forall (EN : Env) (s : st R) v ps p,
  reachable s -> offsets_ok s ->
  view_of s = Ok v -> entry_exit_planes v = Ok ps -> In p ps ->
  end_points (s_geom (snd s)) (p_cx p) (p_cy p) (p_radius p) (p_l p) (p_r p).
Proof. exact @search_on_ground. Qed.
Print Assumptions C32_search.
Example C32_example : good_geom demo_geom /\
  end_points demo_geom 12 (29 / 2) (15 / 2) (6, 10) (12, 7) /\
  forall EN : Env, reachable demo /\ s_geom (snd demo) = demo_geom /\ g_ext_l demo_geom = 20.
Proof.
  split; [exact demo_good|]. split; [exact demo_ends|]. intros EN.
  split; [apply demo_reachable|]. split; reflexivity.
Qed.

(** ** C33: true for the first circle, and for the following ones as long as the
    earlier circles meet the ground at the requested points *)
Theorem C33_pair_partial : forall (EN : Env) (s : st R) lx rx n,
  reachable s -> 0 <= lx -> lx < rx -> rx <= g_ext_l (s_geom (snd s)) ->
  let g := s_geom (snd s) in
  let l := (lx, surface g lx) in
  let r := (rx, surface g rx) in
  exists s' ps, exec (AddEntryExit lx rx n) s = (Ok tt, s') /\
    s_planes (snd s') = s_planes (snd s) ++ ps /\
    (Z.of_nat (List.length ps) <= Z.max 0 n)%Z /\
    forall i p, nth_error ps i = Some p ->
      (forall j q, (j < i)%nat -> nth_error ps j = Some q -> p_l q = l /\ p_r q = r) ->
      on_circle (p_cx p) (p_cy p) (p_radius p) l /\
      on_circle (p_cx p) (p_cy p) (p_radius p) r /\
      above_chord l r (p_cx p) (p_cy p).
Proof.
  intros EN s lx rx n Hr A B C g l r.
  destruct (added_pair s lx rx n Hr A B C) as (s' & ps & E & _ & P & (L & _ & F)).
  exists s', ps. split; auto. split; [rewrite P; reflexivity|]. split; auto.
Qed.
Print Assumptions C33_pair_partial.
(** Exactly the circles of the family ([GridFacts]), which drifts with the end
    points of the circles before *)
Theorem C33_family : forall (EN : Env) (s : st R) lx rx n,
  reachable s -> 0 <= lx -> lx < rx -> rx <= g_ext_l (s_geom (snd s)) ->
  let g := s_geom (snd s) in
  let l := (lx, surface g lx) in let r := (rx, surface g rx) in
  exists s' ps, exec (AddEntryExit lx rx n) s = (Ok tt, s') /\
    s_planes (snd s') = s_planes (snd s) ++ ps /\
    family g l r n (Z.to_nat n) l r ps /\
    forall qs, family g l r n (Z.to_nat n) l r qs -> qs = ps.
Proof.
  intros EN s lx rx n Hr A B C g l r.
  destruct (pair_state s lx rx n Hr A B C) as (s' & ps & E & P & F).
  exists s', ps. split; auto. split; auto. split; auto. exact (family_det _ _ _ _ _ _ _ _ F).
Qed.
Print Assumptions C33_family.
(** An exit on the face: every circle passes through the two points, the whole
    documented family is there.  The same for an exit beyond the toe, if the
    flattest circle passes under the toe level before the toe. *)
Theorem C33_face_partial : forall (EN : Env) (s : st R) lx rx n,
  reachable s ->
  let g := s_geom (snd s) in
  0 <= lx <= fst (g_top g) -> fst (g_top g) < rx <= fst (g_bot g) -> lx + 1 / 100 < rx ->
  let l := (lx, snd (g_top g)) in let r := (rx, surface g rx) in
  exists s' ps, exec (AddEntryExit lx rx n) s = (Ok tt, s') /\
    s_planes (snd s') = s_planes (snd s) ++ ps /\ List.length ps = Z.to_nat n /\
    forall i p, nth_error ps i = Some p ->
      p_l p = l /\ p_r p = r /\
      on_circle (p_cx p) (p_cy p) (p_radius p) l /\ on_circle (p_cx p) (p_cy p) (p_radius p) r /\
      above_chord l r (p_cx p) (p_cy p) /\
      p_radius p = rise_radius l r (rise l r n (Z.to_nat n - i)).
Proof.
  intros EN s lx rx n Hr g A B C. apply (face_pair s lx rx n Hr); [exact A | |].
  - pose proof (core_good s (proj1 (reachable_inv s Hr))) as G. destruct G. subst g. lra.
  - split; [exact C|]. split; [apply B|]. left. apply B.
Qed.
Print Assumptions C33_face_partial.
Theorem C33_toe_partial : forall (EN : Env) (s : st R) lx rx n,
  reachable s ->
  let g := s_geom (snd s) in
  0 <= lx <= fst (g_top g) -> rx <= g_ext_l g -> steady g n lx rx ->
  let l := (lx, snd (g_top g)) in let r := (rx, surface g rx) in
  exists s' ps, exec (AddEntryExit lx rx n) s = (Ok tt, s') /\
    s_planes (snd s') = s_planes (snd s) ++ ps /\ List.length ps = Z.to_nat n /\
    forall i p, nth_error ps i = Some p ->
      p_l p = l /\ p_r p = r /\
      on_circle (p_cx p) (p_cy p) (p_radius p) l /\ on_circle (p_cx p) (p_cy p) (p_radius p) r /\
      above_chord l r (p_cx p) (p_cy p) /\
      p_radius p = rise_radius l r (rise l r n (Z.to_nat n - i)).
Proof. exact @face_pair. Qed.
Print Assumptions C33_toe_partial.
Theorem C33_drift_refuted : exists (EN : Env) (s : st float) p,
  reachable s /\ s_planes (snd s) = [] /\
  fst (exec (AddEntryExit (f_of_Z 7) (f_of_Z 13) 5) s) = Ok tt /\
  nth_error (s_planes (snd (snd (exec (AddEntryExit (f_of_Z 7) (f_of_Z 13) 5) s)))) 4 = Some p /\
  external_y (s_geom (snd s)) (f_of_Z 7) = Some (f_of_Z 10) /\
  external_y (s_geom (snd s)) (f_of_Z 13) = Some (f_of_Z 7) /\
  (300000 < miss p (f_of_Z 7, f_of_Z 10) /\ 50000 < miss p (f_of_Z 13, f_of_Z 7) /\
   micro (fst (p_l p)) < 6500000 /\ micro (fst (p_r p)) < 11600000)%Z.
Proof. exact circles_drift. Qed.
Print Assumptions C33_drift_refuted.
Example C33_example : forall EN : Env, reachable demo /\ 0 <= 6 /\ 6 < 12 /\
  12 <= g_ext_l (s_geom (snd demo)) /\ 6 <= fst (g_top (s_geom (snd demo))) /\
  fst (g_top (s_geom (snd demo))) < 12 <= fst (g_bot (s_geom (snd demo))) /\
  steady (s_geom (snd demo)) 5 6 12.
Proof. intros EN. split; [apply demo_reachable|]. unfold steady. cbn. lra. Qed.

(** ** C34 *)
Theorem C34_grid : forall it, (500 <= it)%Z ->
  let top := num_points_top_of (T := R) it in
  let bot := num_points_bot_of (T := R) it in
  let nc := num_circles_of it in
  (top <= bot /\ it <= top * bot * nc < it + top * nc)%Z.
Proof. exact num_points_bot_spec. Qed.
Print Assumptions C34_grid.
Theorem C34_top : forall it, (500 <= it)%Z ->
  let top := num_points_top_of (T := R) it in
  let nc := num_circles_of it in
  nc = Z.max 5 (it / 800) /\
  (1 <= top /\ top * top * nc <= it < (top + 1) * (top + 1) * nc)%Z.
Proof. intros it H. split; [reflexivity|]. exact (num_points_top_spec it H). Qed.
Print Assumptions C34_top.
(** Exactly the circles of every pair of the grid that is far enough apart, in
    this order *)
Theorem C34_exact : forall (EN : Env) (s : st R) v, reachable s -> offsets_ok s -> view_of s = Ok v ->
  let g := s_geom (snd s) in
  let lim := s_limits (snd s) in
  let top := num_points_top_of (T := R) (s_iterations (snd s)) in
  let bot := num_points_bot_of (T := R) (s_iterations (snd s)) in
  let nc := num_circles_of (s_iterations (snd s)) in
  let k := (top - Z.of_nat (List.length (load_ends v)))%Z in
  k <> 1%Z ->
  exists f, (forall lx rx, In lx (entries lim k (load_ends v)) -> In rx (exits lim bot) ->
               let l := (lx, snd (g_top g)) in let r := (rx, surface g rx) in
               if Rlt_dec (s_min_failure (snd s)) (chord l r)
               then family g l r nc (Z.to_nat nc) l r (f lx rx) else f lx rx = []) /\
    entry_exit_planes v = Ok (List.concat (map (fun lx =>
      List.concat (map (f lx) (exits lim bot))) (entries lim k (load_ends v)))).
Proof. exact @search_state. Qed.
Print Assumptions C34_exact.
Theorem C34_stored : forall (EN : Env) (s : st R) v, reachable s -> offsets_ok s -> view_of s = Ok v ->
  let top := num_points_top_of (T := R) (s_iterations (snd s)) in
  let bot := num_points_bot_of (T := R) (s_iterations (snd s)) in
  let nc := num_circles_of (s_iterations (snd s)) in
  let loads := Z.of_nat (List.length (lls_of s) + List.length (udls_of s)) in
  (top - loads <> 1)%Z ->
  exists ps, entry_exit_planes v = Ok ps /\
    (Z.of_nat (List.length ps) <= Z.max top loads * bot * nc)%Z.
Proof.
  intros EN s v Hr O E top bot nc loads K.
  destruct (search_states s v Hr O E K) as (ps & Q1 & Q2 & _). exists ps. auto.
Qed.
Print Assumptions C34_stored.
Example C34_example : num_points_top_of (T := R) 2000 = 20%Z /\
  num_points_bot_of (T := R) 2000 = 20%Z /\ num_circles_of 2000 = 5%Z.
Proof.
  pose proof (num_points_top_spec 2000 ltac:(lia)) as Q.
  pose proof (num_points_bot_spec 2000 ltac:(lia)) as Q'. cbv zeta in Q, Q'.
  change (num_circles_of 2000) with 5%Z in *.
  assert (E : num_points_top_of (T := R) 2000 = 20%Z) by nia.
  rewrite E in Q'. split; auto. split; [lia|reflexivity].
Qed.
Example C34_exact_example : forall EN : Env, reachable demo /\ offsets_ok demo /\
  num_points_top_of (T := R) (s_iterations (snd demo)) = 14%Z /\
  exists v, view_of demo = Ok v /\ load_ends v = [15 / 2; 5].
Proof.
  intros EN. split; [apply demo_reachable|]. split; [split; intros x [ <- | [] ]; cbn; lra|]. split.
  - change (s_iterations (snd demo)) with 1000%Z.
    pose proof (num_points_top_spec 1000 ltac:(lia)) as Q. cbv zeta in Q.
    change (num_circles_of 1000) with 5%Z in Q. nia.
  - destruct (view_sound demo demo_reachable) as (v & E & _). exists v. split; auto.
    cbn in E. injection E as <-. unfold load_ends. cbn. unR. rnum. f_equal; [lra|]. f_equal. lra.
Qed.

(** ** C36: false *)
Theorem C36_rounding_refuted : exists (EN : Env) (s : st float),
  reachable s /\ s = run (start (fl 1 1) PNone (fl 273 100)) one_layer /\
  s_planes (snd s) = [] /\ fst (exec (Analyse None) s) = Err TypeError.
Proof. exact rounding_crash. Qed.
Print Assumptions C36_rounding_refuted.

(** ** C52 *)
Theorem C52_either_order : forall (EN : Env) (s : st R) lx rx n, lx <> rx ->
  exec (AddEntryExit lx rx n) s = exec (AddEntryExit rx lx n) s.
Proof. exact @pair_swap. Qed.
Print Assumptions C52_either_order.
Theorem C52_outside : forall (EN : Env) (s : st R) lx rx n, reachable s ->
  (lx < 0 \/ g_ext_l (s_geom (snd s)) < lx \/ rx < 0 \/ g_ext_l (s_geom (snd s)) < rx) ->
  exec (AddEntryExit lx rx n) s = (Err TypeError, s).
Proof. exact @pair_outside. Qed.
Print Assumptions C52_outside.
Theorem C52_equal : forall (EN : Env) (s : st R) x n, reachable s ->
  0 <= x <= g_ext_l (s_geom (snd s)) ->
  exec (AddEntryExit x x n) s = (Err ZeroDivisionError, s).
Proof. exact @pair_vertical. Qed.
Print Assumptions C52_equal.
Example C52_example : forall EN : Env, reachable demo /\ g_ext_l (s_geom (snd demo)) = 20.
Proof. intros EN. split; [apply demo_reachable|reflexivity]. Qed.

(** ** C53: false; the factor however is computed with the crossings of the
    present ground, whatever end points are stored *)
Theorem C53_stale_refuted : exists (EN : Env) (s : st float) a b y,
  reachable s /\ fst (exec (Analyse None) s) = Ok tt /\
  get_min_FOS_end_points (snd (snd (exec (Analyse None) s))) = Ok (a, b) /\
  external_y (s_geom (snd s)) (fst a) = Some y /\ (micro (snd a) + 400000 < micro y)%Z.
Proof. exact end_points_stale. Qed.
Print Assumptions C53_stale_refuted.

(** ** C54: false; true if the exits lie on the face *)
Theorem C54_face_partial : forall (EN : Env) m (s s' : st R) a b, reachable s ->
  lls_of s = [] -> udls_of s = [] -> s_planes (snd s) = [] -> face_grid (1 / 100) s ->
  analyse_slope m s = (Ok tt, s') -> get_min_FOS_end_points (snd s') = Ok (a, b) ->
  let g := s_geom (snd s) in let lim := s_limits (snd s) in
  lim_left lim <= fst a <= lim_left_r lim /\ snd a = surface g (fst a) /\
  lim_right_l lim < fst b <= lim_right lim /\ snd b = surface g (fst b).
Proof. exact @ends_inside. Qed.
Print Assumptions C54_face_partial.
Example C54_example : forall EN : Env, exists s' a b,
  reachable face_bank /\ lls_of face_bank = [] /\ udls_of face_bank = [] /\
  s_planes (snd face_bank) = [] /\ face_grid (1 / 100) face_bank /\
  s_limits (snd face_bank) = MkLimits 2 8 9 12 /\
  analyse_slope None face_bank = (Ok tt, s') /\ get_min_FOS_end_points (snd s') = Ok (a, b).
Proof.
  intros EN. destruct face_bank_ok as (Hr & NL & NU & NP & F & Fa & G2 & IT & MX & DR & CO & HV & WK & NE).
  assert (F' : face_grid (1 / 100) face_bank) by (destruct F; split; lra).
  destruct (cohesive_drawn face_bank (fun _ => 0%nat) None true Hr NL NU NP F Fa G2 IT MX DR CO
              (or_introl HV) WK NE) as (s' & E & _).
  assert (Q : s_search (snd s') <> []).
  { apply (face_found face_bank s'); auto. intros m I. destruct (CO m I) as (-> & C). split; [lra | now left]. }
  exists s'. destruct (s_search (snd s')) as [|p ps] eqn:Es; [contradiction|].
  exists (p_l p), (p_r p). repeat (split; [assumption || reflexivity|]).
  unfold get_min_FOS_end_points. now rewrite Es.
Qed.
Theorem C54_outside_refuted : exists (EN : Env) (s : st float) a b,
  reachable s /\ s_planes (snd s) = [] /\ udls_of s = [] /\ lls_of s = [] /\
  (micro (lim_left (s_limits (snd s))) = 7000000 /\
   micro (lim_right_l (s_limits (snd s))) = 13000000)%Z /\
  fst (exec (Analyse None) s) = Ok tt /\
  get_min_FOS_end_points (snd (snd (exec (Analyse None) s))) = Ok (a, b) /\
  (micro (fst b) < 12000000)%Z.
Proof.
  destruct ends_outside_limits as (EN & s & a & b & H1 & H2 & H3 & H4 & H5 & H6 & H7 & H8 & H9).
  exists EN, s, a, b. tauto.
Qed.
Print Assumptions C54_outside_refuted.
