(** * PropsEdit: constructors, geometry, ground surface and search limits (C01-C11). *)
From Coq Require Import ZArith Reals Lra Lia List Bool String Permutation Sorted SpecFloat.
From Verif Require Import Num Py Validation Utilities Objects Slope Planes Analysis
     Dynamic Api RealNum FloatNum RealFacts ListFacts MonadFacts SlopeFacts MaterialFacts
     Invariant History Spec EditFacts AngleFacts GroundFacts LayerFacts EditMore Demo
     GrowFacts FosFacts SoftFacts.
Import ListNotations.
Local Open Scope R_scope.

(** ** C01 *)
Theorem C01_material_constructor : forall (EN : Env) uw phi c d name col m,
  new_material uw phi c d name col = Ok m <->
  exists u p cc dd nm cl,
    denotes uw u /\ 1 <= u <= 50 /\ denotes phi p /\ 0 <= p /\
    plain_denotes c cc /\ plain_denotes d dd /\ is_text name nm /\ is_text col cl /\
    m = MkMaterial u p (Rabs cc) (Rabs dd) nm cl cl (Rtan_py (p * (PI / 180))) None.
Proof. exact material_spec. Qed.
Print Assumptions C01_material_constructor.
Example C01_example : forall EN : Env,
  new_material (PFloat 18) (PInt 30) (PFloat 5) (PFloat 2) (PStr "sand") PNone = Ok demo_sand.
Proof. intros EN. apply demo_materials. Qed.

(** ** C02 *)
Theorem C02_udl_constructor : forall (EN : Env) mag off len col dyn u,
  new_udl mag off len col dyn = Ok u <->
  exists m o l,
    plain_denotes mag m /\ plain_denotes off o /\
    ((falsy len /\ l = None) \/
     (exists x, plain_denotes len x /\ x <> 0 /\ l = Some (Rabs x))) /\
    u = MkUdl (Rabs m) (Rabs o) l (if is_color col then col else "red"%string) dyn None None.
Proof. exact udl_spec. Qed.
Print Assumptions C02_udl_constructor.
Theorem C02_line_load_constructor : forall (EN : Env) mag off col dyn u,
  new_lload mag off col dyn = Ok u <->
  exists m o,
    plain_denotes mag m /\ plain_denotes off o /\
    u = MkLload (Rabs m) (Rabs o) (if is_color col then col else "blue"%string) dyn None.
Proof. exact lload_spec. Qed.
Print Assumptions C02_line_load_constructor.
Example C02_example : forall EN : Env,
  new_udl (PFloat 20) (PFloat 1) (PFloat 2) "red" false = Ok demo_udl0 /\
  new_lload (PFloat 10) (PFloat (1 / 2)) "blue" false = Ok demo_ll0.
Proof. intros EN. exact demo_loads. Qed.

(** ** C03: false: a slope of height zero is accepted, in binary64 also NaN. *)
Theorem C03_zero_height_refuted : forall EN : Env,
  exists s : st R, new_slope empty_heap (PFloat 0) PNone (PFloat 4) = Ok s /\
                   g_height (s_geom (snd s)) = 0.
Proof. exact zero_height. Qed.
Print Assumptions C03_zero_height_refuted.
Theorem C03_nan_height_refuted : forall EN : Env,
  exists s : st float, new_slope empty_heap (PFloat S754_nan) PNone (PFloat (nz 4)) = Ok s /\
                       g_height (s_geom (snd s)) = S754_nan.
Proof. exact nan_height. Qed.
Print Assumptions C03_nan_height_refuted.
(** What holds: negative numbers and values that are no numbers are rejected by
    every such parameter (missing: zero). *)
Theorem C03_not_positive_partial : forall (EN : Env) (s : st R) v,
  reachable s -> v <> PNone -> (forall x, denotes v x -> x < 0) ->
  (forall a l, exists e, exec (SetBoundary v a l) s = (Err e, s)) /\
  (~ falsy v -> forall l, exists e, exec (BoundaryOpts l v) s = (Err e, s)) /\
  (~ falsy v -> exists e, exec (BoundaryOpts v PNone) s = (Err e, s)) /\
  (forall a b d, exists e, exec (SetLimits a b v d) s = (Err e, s)).
Proof. exact negative_rejected. Qed.
Print Assumptions C03_not_positive_partial.
(** What the check lets through: numbers that are not negative. *)
Theorem C03_accepted : forall (v : pyval R) u,
  assert_strictly_positive_number v = Ok u <-> exists x, denotes v x /\ 0 <= x.
Proof. exact assert_strict_ok. Qed.
Print Assumptions C03_accepted.
(** A circle with a negative dimension is never given a factor. *)
Theorem C03_circle_partial : forall (v : view R) cx cy r, cx < 0 \/ cy < 0 \/ r < 0 ->
  forall f, bishop v cx cy r <> Ok (Some f).
Proof. exact bishop_negative. Qed.
Print Assumptions C03_circle_partial.
Example C03_example : forall EN : Env, reachable demo /\ (forall x, denotes (PFloat (-3)) x -> x < 0).
Proof. intros EN. split; [apply demo_reachable | cbn; intros; lra]. Qed.

(** ** C04 *)
Theorem C04_geometry_consistent : forall (EN : Env) (s : st R),
  reachable s ->
  let g := s_geom (snd s) in
  0 <= g_height g /\ 1 / 1000 <= g_length g /\
  fst (g_bot g) = fst (g_top g) + g_length g /\
  snd (g_bot g) = snd (g_top g) - g_height g /\
  g_ext_l g - fst (g_bot g) = fst (g_top g) /\
  0 < fst (g_top g) < fst (g_bot g) /\ fst (g_bot g) < g_ext_l g /\
  0 <= snd (g_bot g) <= snd (g_top g) /\ snd (g_top g) = g_ext_h g /\
  g_ext_l g = Rmax (Rmax (5 * g_length g) (4 * g_height g)) (s_min_ext_l (snd s)) /\
  3 * g_height g <= g_ext_h g /\ 5 / 2 * g_length g <= g_ext_h g /\
  g_gradient g = g_height g / g_length g.
Proof. exact geometry_consistent. Qed.
Print Assumptions C04_geometry_consistent.
Example C04_example : forall EN : Env, reachable demo /\ s_geom (snd demo) = demo_geom.
Proof. intros EN. split; [apply demo_reachable | reflexivity]. Qed.
(** A model height below MIN_EXT_H can be produced by a rejected call. *)
Theorem C04_min_height_refuted : forall EN : Env,
  exists s : st R, reachable s /\ g_ext_h (s_geom (snd s)) < s_min_ext_h (snd s).
Proof. exact min_height_stale. Qed.
Print Assumptions C04_min_height_refuted.
Theorem C04_min_height_after_options : forall (EN : Env) (s s' : st R) l h,
  reachable s -> exec (BoundaryOpts l h) s = (Ok tt, s') ->
  s_min_ext_h (snd s') <= g_ext_h (s_geom (snd s')).
Proof. exact min_height_set. Qed.
Print Assumptions C04_min_height_after_options.
(** The whole clause for histories in which no call of update_boundary_options was
    rejected (missing: the others). *)
Theorem C04_section_partial : forall (EN : Env) h a l ops (s0 s : st R),
  new_slope empty_heap h a l = Ok s0 -> options_accepted s0 ops -> s = run s0 ops ->
  let g := s_geom (snd s) in
  g_ext_h g = Rmax (Rmax (3 * g_height g) (s_min_ext_h (snd s))) (5 * g_length g / 2) /\
  g_ext_l g = Rmax (Rmax (5 * g_length g) (s_min_ext_l (snd s))) (4 * g_height g).
Proof.
  intros EN h a l ops s0 s E A -> g.
  destruct (exact_run ops s0 (exact_new _ _ _ _ _ E) A) as (_ & _ & _ & Q).
  unfold g. rewrite Q. split; reflexivity.
Qed.
Print Assumptions C04_section_partial.
Example C04_section_example : forall EN : Env,
  exists s0 : st R, new_slope empty_heap (PFloat 3) PNone (PFloat 4) = Ok s0 /\
  options_accepted s0 [SetWater (PFloat (-1)); SetLimits (PFloat 2) PNone PNone PNone].
Proof.
  intros EN. exists demo0. split; [exact demo0_new|]. repeat split.
Qed.

(** ** C05 *)
Theorem C05_angle_as_length : forall hp height angle angle' h a a',
  denotes height h -> 0 <= h -> denotes angle a -> 0 < a < 90 ->
  (angle' = PNone \/ denotes angle' a' /\ 0 < a' <= 90) ->
  new_slope hp height angle PNone =
  new_slope hp height angle' (PFloat (h / tan (a * (PI / 180)))).
Proof. exact @angle_as_length. Qed.
Print Assumptions C05_angle_as_length.
Theorem C05_face_angle : forall hp height angle h a s,
  denotes height h -> 0 < h -> denotes angle a -> 0 < a < 90 ->
  new_slope hp height angle PNone = Ok s ->
  1 / 1000 <= h / tan (a * (PI / 180)) ->
  g_length (s_geom (snd s)) = h / tan (a * (PI / 180)) /\
  g_gradient (s_geom (snd s)) = tan (a * (PI / 180)) /\
  atan (g_gradient (s_geom (snd s))) = a * (PI / 180).
Proof. exact @angle_gradient. Qed.
Print Assumptions C05_face_angle.
Theorem C05_right_angle : forall hp height angle h s,
  denotes height h -> 0 <= h <= 10 ^ 13 -> denotes angle 90 ->
  new_slope hp height angle PNone = Ok s ->
  g_length (s_geom (snd s)) = 1 / 1000.
Proof. exact @angle_90. Qed.
Print Assumptions C05_right_angle.
Theorem C05_angle_ignored : forall hp height angle length h a l,
  denotes height h -> 0 <= h -> denotes angle a -> 0 < a <= 90 ->
  denotes length l -> 0 <= l ->
  new_slope hp height angle length = new_slope hp height PNone length.
Proof. exact @angle_ignored. Qed.
Print Assumptions C05_angle_ignored.
(** Exactly the angles above 0 and up to 90 degrees are accepted; an angle or a length is needed. *)
Theorem C05_accepted : forall (EN : Env) hp (s : st R) height angle length,
  let good := (exists h, denotes height h /\ 0 <= h) /\
    (angle = PNone \/ exists a, denotes angle a /\ 0 < a <= 90) /\
    (length = PNone /\ angle <> PNone \/ exists l, denotes length l /\ 0 <= l) in
  ((exists s', new_slope hp height angle length = Ok s') <-> good) /\
  ((exists s', exec (SetBoundary height angle length) s = (Ok tt, s')) <-> good) /\
  (height <> PNone -> forall e, new_slope hp height angle length = Err e -> e = ValueError) /\
  (height <> PNone -> forall e s', exec (SetBoundary height angle length) s = (Err e, s') -> e = ValueError).
Proof.
  intros EN hp s height angle length good. split; [apply new_slope_accepted|]. split; [apply set_boundary_accepted|].
  split; intros N e; [now apply new_slope_error|intros s'; now apply set_boundary_error].
Qed.
Print Assumptions C05_accepted.
Example C05_accepted_example : forall (EN : Env) hp,
  (exists s' : st R, new_slope hp (PInt 3) (PInt 90) PNone = Ok s') /\
  new_slope hp (PInt 3) (PInt 0) PNone = Err ValueError /\
  new_slope hp (PInt 3) (PInt 0) (PInt 4) = Err ValueError.
Proof.
  intros EN hp. destruct (C05_accepted EN hp demo (PInt 3) (PInt 90) PNone) as ((_ & A) & _). split.
  - apply A. split; [exists 3; cbn; lra|]. split; [right; exists 90; cbn; lra|]. left. split; [reflexivity|discriminate].
  - destruct (C05_accepted EN hp demo (PInt 3) (PInt 0) PNone) as ((B & _) & _ & E & _).
    destruct (C05_accepted EN hp demo (PInt 3) (PInt 0) (PInt 4)) as ((B' & _) & _ & E' & _).
    split.
    + destruct (new_slope hp (PInt 3) (PInt 0) PNone) as [x|e]; [|now rewrite (E ltac:(discriminate) e eq_refl)].
      destruct (B (ex_intro _ x eq_refl)) as (_ & [Q|(a & D & Q)] & _); [discriminate|]. cbn in D. lra.
    + destruct (new_slope hp (PInt 3) (PInt 0) (PInt 4)) as [x|e]; [|now rewrite (E' ltac:(discriminate) e eq_refl)].
      destruct (B' (ex_intro _ x eq_refl)) as (_ & [Q|(a & D & Q)] & _); [discriminate|]. cbn in D. lra.
Qed.
Example C05_example : forall EN : Env,
  exists s : st R, new_slope empty_heap (PInt 3) (PInt 45) PNone = Ok s /\
                   g_length (s_geom (snd s)) = 3 /\ atan (g_gradient (s_geom (snd s))) = PI / 4.
Proof. exact slope_45. Qed.

(** ** C06 *)
Theorem C06_rejected_unchanged : forall (EN : Env) (s : st R) o e s',
  reachable s -> atomic_edit o = true -> exec o s = (Err e, s') -> s' = s.
Proof. exact @rejected_unchanged. Qed.
Print Assumptions C06_rejected_unchanged.
Example C06_example : forall EN : Env,
  exec (SetLimits PNone PNone PNone (PFloat 15)) demo = (Err ValueError, demo).
Proof. intros EN. apply single_right_left. discriminate. Qed.
(** The two methods left out are not atomic. *)
Theorem C06_boundary_options_refuted : forall EN : Env,
  exists (s s' : st R) e, reachable s /\
    exec (BoundaryOpts (PFloat (-1)) (PFloat 100)) s = (Err e, s') /\
    s_min_ext_h (snd s') = 100 /\ s_min_ext_h (snd s) = 6.
Proof. exact options_not_atomic. Qed.
Print Assumptions C06_boundary_options_refuted.
Theorem C06_set_materials_refuted : forall EN : Env,
  exists (s s' : st R) e l, reachable s /\
    exec (SetMaterials l) s = (Err e, s') /\
    g_ext_h (s_geom (snd s)) = 10 /\ g_ext_h (s_geom (snd s')) = 20.
Proof. exact materials_not_atomic. Qed.
Print Assumptions C06_set_materials_refuted.
(** What a rejected call of these two can change: the minimum model height and
    what follows from it; layers, water table and options are as before. *)
Theorem C06_rest_partial : forall (EN : Env) (s s' : st R) e,
  reachable s ->
  (forall l h, exec (BoundaryOpts l h) s = (Err e, s') ->
     s' = (fst s, set_s_min_ext_h (s_min_ext_h (snd s')) (snd s))) /\
  (forall l, exec (SetMaterials l) s = (Err e, s') ->
     h_materials (fst s') = h_materials (fst s) /\
     s_materials (snd s') = s_materials (snd s) /\
     g_height (s_geom (snd s')) = g_height (s_geom (snd s)) /\
     g_length (s_geom (snd s')) = g_length (s_geom (snd s)) /\
     fst (g_top (s_geom (snd s'))) = fst (g_top (s_geom (snd s))) /\
     s_water_RL (snd s') = s_water_RL (snd s) /\ s_udls (snd s') = s_udls (snd s) /\
     s_lls (snd s') = s_lls (snd s)).
Proof. exact rejected_rest. Qed.
Print Assumptions C06_rest_partial.

(** ** C07 *)
Theorem C07_geometry_calls : forall (EN : Env) height angle length s ops d s',
  new_slope empty_heap height angle length = Ok s ->
  gives_all ops (g_height (s_geom (snd s)), g_length (s_geom (snd s)), 6, 10) d ->
  accepted s ops s' ->
  let '(h, l, mh, ml) := d in cross_section h l mh ml (s_geom (snd s')).
Proof. exact @geometry_calls. Qed.
Print Assumptions C07_geometry_calls.
Theorem C07_same_numbers_same_section : forall h l mh ml g g',
  cross_section h l mh ml g -> cross_section h l mh ml g' -> g = g'.
Proof. exact section_unique. Qed.
Print Assumptions C07_same_numbers_same_section.
Theorem C07_repeat : forall (EN : Env) o (s s' : st R),
  match o with SetBoundary _ _ _ | BoundaryOpts _ _ => True | _ => False end ->
  reachable s -> exec o s = (Ok tt, s') -> exec o s' = (Ok tt, s').
Proof. exact @geometry_repeat. Qed.
Print Assumptions C07_repeat.
Example C07_example : forall EN : Env,
  exists s' : st R,
    accepted demo0 [BoundaryOpts (PInt 30) (PInt 20); SetBoundary (PInt 2) PNone (PInt 5)] s' /\
    gives_all [BoundaryOpts (PInt 30) (PInt 20); SetBoundary (PInt 2) PNone (PInt 5)]
              (3, 4, 6, 10) (2, 5, 20, 30) /\ g_ext_l (s_geom (snd s')) = 30.
Proof. exact two_geometry_calls. Qed.

(** ** C08 *)
Theorem C08_surface_defined : forall h l mh ml g x,
  0 <= h -> 1 / 1000 <= l -> cross_section h l mh ml g ->
  (exists y, external_y g x = Some y) <-> 0 <= x <= g_ext_l g.
Proof. exact y_defined. Qed.
Print Assumptions C08_surface_defined.
Theorem C08_surface_value : forall h l mh ml g x y,
  0 <= h -> 1 / 1000 <= l -> cross_section h l mh ml g ->
  external_y g x = Some y -> y = surface g x.
Proof. exact y_value. Qed.
Print Assumptions C08_surface_value.
Theorem C08_surface_shape : forall h l mh ml g,
  0 < h -> 1 / 1000 <= l -> cross_section h l mh ml g ->
  (forall x x', x <= x' -> surface g x' <= surface g x) /\
  (forall x, snd (g_bot g) <= surface g x <= snd (g_top g)) /\
  continuity (surface g).
Proof. exact surface_shape. Qed.
Print Assumptions C08_surface_shape.
Theorem C08_face_lookup : forall h l mh ml g,
  0 < h -> 1 / 1000 <= l -> cross_section h l mh ml g ->
  forall y, snd (g_bot g) < y < snd (g_top g) ->
  exists x, external_x g y = Ok (Some x) /\
    fst (g_top g) < x < fst (g_bot g) /\ external_y g x = Some y.
Proof. exact x_of_level. Qed.
Print Assumptions C08_face_lookup.
Theorem C08_other_levels : forall h l mh ml g,
  0 < h -> 1 / 1000 <= l -> cross_section h l mh ml g ->
  (forall y, y < snd (g_bot g) -> external_x g y = Ok (Some (g_ext_l g))) /\
  external_x g (snd (g_bot g)) = Ok (Some (fst (g_bot g))) /\
  external_x g (snd (g_top g)) = Ok (Some (fst (g_top g))) /\
  (forall y, snd (g_top g) < y -> external_x g y = Ok None).
Proof. exact x_elsewhere. Qed.
Print Assumptions C08_other_levels.
Example C08_example :
  cross_section 3 4 6 10 demo_geom /\ external_y demo_geom 10 = Some (17 / 2).
Proof. exact demo_surface. Qed.

(** ** C09 *)
Theorem C09_limits_ordered : forall (EN : Env) (s : st R),
  reachable s ->
  let g := s_geom (snd s) in let l := s_limits (snd s) in
  0 <= lim_left l /\ lim_left l < lim_left_r l /\ lim_left_r l <= fst (g_top g) /\
  fst (g_top g) <= lim_right_l l /\ lim_right_l l < lim_right l /\ lim_right l <= g_ext_l g.
Proof. exact @limits_inv. Qed.
Print Assumptions C09_limits_ordered.
Example C09_example : forall EN : Env,
  reachable demo /\ s_limits (snd demo) = MkLimits 0 8 8 20.
Proof. intros EN. split; [apply demo_reachable | reflexivity]. Qed.

(** ** C10 *)
Theorem C10_limits_stored : forall (EN : Env) a b c d (s s' : st R),
  exec (SetLimits a b c d) s = (Ok tt, s') ->
  exists x1 x2 x3 x4,
    given_or a (lim_left (s_limits (snd s))) x1 /\
    given_or c (lim_left_r (s_limits (snd s))) x2 /\
    given_or d (lim_right_l (s_limits (snd s))) x3 /\
    given_or b (lim_right (s_limits (snd s))) x4 /\
    fst s' = fst s /\
    snd s' = set_s_search [] (set_s_limits
      (MkLimits (Rmax x1 0) (Rmin x2 (fst (g_top (s_geom (snd s)))))
                (Rmax x3 (fst (g_top (s_geom (snd s)))))
                (Rmin x4 (g_ext_l (s_geom (snd s))))) (snd s)).
Proof. exact @limits_stored. Qed.
Print Assumptions C10_limits_stored.
Theorem C10_limits_rejected : forall (EN : Env) a b c d (s s' : st R) e,
  exec (SetLimits a b c d) s = (Err e, s') -> s' = s.
Proof. exact @limits_rejected. Qed.
Print Assumptions C10_limits_rejected.
Theorem C10_limits_restored : forall (EN : Env) (s : st R),
  reachable s ->
  exec RemoveLimits s =
  (Ok tt, (fst s, set_s_search [] (set_s_limits
     (MkLimits 0 (fst (g_top (s_geom (snd s)))) (fst (g_top (s_geom (snd s))))
               (g_ext_l (s_geom (snd s)))) (snd s)))).
Proof. exact @limits_restored. Qed.
Print Assumptions C10_limits_restored.

(** ** C11: three of the four limits *)
Theorem C11_left_x_partial : forall (EN : Env) (s : st R) v x,
  reachable s -> denotes v x -> 0 <= x < lim_left_r (s_limits (snd s)) ->
  exec (SetLimits v PNone PNone PNone) s =
  (Ok tt, (fst s, set_s_search [] (set_s_limits
     (MkLimits x (lim_left_r (s_limits (snd s))) (lim_right_l (s_limits (snd s)))
               (lim_right (s_limits (snd s)))) (snd s)))).
Proof. exact @single_left. Qed.
Print Assumptions C11_left_x_partial.
Theorem C11_left_x_right_partial : forall (EN : Env) (s : st R) v x,
  reachable s -> denotes v x ->
  lim_left (s_limits (snd s)) < x <= fst (g_top (s_geom (snd s))) ->
  exec (SetLimits PNone PNone v PNone) s =
  (Ok tt, (fst s, set_s_search [] (set_s_limits
     (MkLimits (lim_left (s_limits (snd s))) x (lim_right_l (s_limits (snd s)))
               (lim_right (s_limits (snd s)))) (snd s)))).
Proof. exact @single_left_right. Qed.
Print Assumptions C11_left_x_right_partial.
Theorem C11_right_x_partial : forall (EN : Env) (s : st R) v x,
  reachable s -> denotes v x ->
  lim_right_l (s_limits (snd s)) < x <= g_ext_l (s_geom (snd s)) ->
  exec (SetLimits PNone v PNone PNone) s =
  (Ok tt, (fst s, set_s_search [] (set_s_limits
     (MkLimits (lim_left (s_limits (snd s))) (lim_left_r (s_limits (snd s)))
               (lim_right_l (s_limits (snd s))) x) (snd s)))).
Proof. exact @single_right. Qed.
Print Assumptions C11_right_x_partial.
Example C11_example : forall EN : Env,
  reachable demo /\ denotes (PInt 3) 3 /\ 0 <= 3 < lim_left_r (s_limits (snd demo)).
Proof. intros EN. split; [apply demo_reachable|]. cbn. split; [reflexivity | lra]. Qed.
(** The fourth, [right_x_left], is rejected whatever its value. *)
Theorem C11_right_x_left_refuted : forall (EN : Env) (s : st R) v,
  v <> PNone -> exec (SetLimits PNone PNone PNone v) s = (Err ValueError, s).
Proof. exact @single_right_left. Qed.
Print Assumptions C11_right_x_left_refuted.
