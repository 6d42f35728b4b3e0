(** * Similar: two slopes of the same shape and different size (C90). *)
From Coq Require Import ZArith Reals Lra Lia List Bool String Permutation Sorted.
From Verif Require Import Num Py Validation Utilities Objects Slope Planes Analysis
     Dynamic Api RealNum RealFacts ListFacts MonadFacts Spec SearchFacts FosFacts ScaleFacts
     SlopeFacts MaterialFacts Invariant History EditFacts LayerFacts Demo CircleFacts DemoCircle
     MatInv ViewFacts FosTotal SizeFacts Twin.
Import ListNotations.
Local Open Scope R_scope.

(** [similar k s s']: the second slope is the first one with every length [k] times as
    long.  The soils weigh the same and have the same friction angle; cohesion and strip
    loads are [k] times as large, line loads [k * k] times. *)
Record similar (k : R) (s s' : st R) : Prop := {
  si_geom : s_geom (snd s') = grow_geom k (s_geom (snd s));
  si_soils : Forall2 (fun m m' => m_unit_weight m' = m_unit_weight m /\
    m_friction_angle m' = m_friction_angle m /\ m_cohesion m' = k * m_cohesion m /\
    m_RL m' = option_map (Rmult k) (m_RL m)) (mats_of s) (mats_of s');
  si_udls : Forall2 (fun u u' => u_magnitude u' = k * u_magnitude u /\ u_offset u' = k * u_offset u /\
    u_length u' = option_map (Rmult k) (u_length u)) (udls_of s) (udls_of s');
  si_lls : Forall2 (fun l l' => l_magnitude l' = k * k * l_magnitude l /\ l_offset l' = k * l_offset l)
    (lls_of s) (lls_of s');
  si_water : s_water_RL (snd s') = option_map (Rmult k) (s_water_RL (snd s));
  si_H : s_water_H (snd s') = s_water_H (snd s);
  si_slices : s_slices (snd s') = s_slices (snd s);
  si_tol : s_tolerance (snd s') = s_tolerance (snd s);
  si_max : s_max_iterations (snd s') = s_max_iterations (snd s);
}.

(** ** What the factor reads from a layer *)
Definition same_layer (l l' : R * material R) : Prop :=
  fst l' = fst l /\ m_unit_weight (snd l') = m_unit_weight (snd l) /\
  m_cohesion (snd l') = m_cohesion (snd l) /\ m_tan_phi (snd l') = m_tan_phi (snd l).
Lemma layers_same L L' : Forall2 same_layer L L' -> forall top : R, layers top L' = layers top L.
Proof.
  induction 1 as [|[rl m] [rl' m'] L L' (A & B & _) F IH]; intros top; auto.
  cbn [fst snd] in *. subst rl'. destruct F as [|[r1 m1] [r2 m2] L L' X F].
  - cbn [layers]. now rewrite B.
  - cbn [layers] in *. rewrite B, IH. reflexivity.
Qed.
Lemma base_same L L' (y : R) : Forall2 same_layer L L' ->
  match base_material L y, base_material L' y with
  | Some m, Some m' => m_cohesion m' = m_cohesion m /\ m_tan_phi m' = m_tan_phi m
  | None, None => True
  | _, _ => False
  end.
Proof.
  induction 1 as [|[rl m] [rl' m'] L L' (A & B & C & D) F IH]; cbn [base_material]; auto.
  cbn [fst snd] in *. subst rl'. destruct F as [|l1 l2 L L' X F]; auto.
  destruct l1 as [r1 m1], l2 as [r2 m2]. destruct (nltb rl y); auto.
Qed.
Lemma factor_same v v' cx cy r : Forall2 same_layer (v_mats v) (v_mats v') ->
  v_geom v' = v_geom v -> v_udls v' = v_udls v -> v_lls v' = v_lls v ->
  v_water_RL v' = v_water_RL v -> v_water_H v' = v_water_H v -> v_slices v' = v_slices v ->
  v_tolerance v' = v_tolerance v -> v_max_iterations v' = v_max_iterations v ->
  bishop v' cx cy r = bishop v cx cy r.
Proof.
  destruct v, v'. cbn. intros F -> -> -> -> -> -> -> ->.
  set (v := MkView _ v_mats _ _ _ _ _ _ _ _ _ _). set (v' := MkView _ v_mats0 _ _ _ _ _ _ _ _ _ _).
  assert (SW : forall b yt yb, strip_weight v' b yt yb = strip_weight v b yt yb).
  { intros. unfold strip_weight. cbn. now rewrite (layers_same _ _ F). }
  assert (MS : forall w b x m m', m_cohesion m' = m_cohesion m -> m_tan_phi m' = m_tan_phi m ->
    make_slice v' w cx cy r b x m' = make_slice v w cx cy r b x m).
  { intros w b x m m' E1 E2. unfold make_slice. cbv zeta. rewrite SW, E1, E2. reflexivity. }
  assert (SL : forall xl xr, slices_of v' cx cy r xl xr = slices_of v cx cy r xl xr).
  { intros xl xr. unfold slices_of. cbv zeta. change (water_data v') with (water_data v).
    cbn [Planes.v_slices v v'].
    destruct (nleb _ _); auto. destruct (pydiv _ _); cbn [rbind]; auto.
    destruct (existsb _ _); auto. destruct (existsb _ _); auto.
    destruct (water_data v); cbn [rbind]; auto.
    cbn [Planes.v_mats v v']. inversion F as [Q1 Q2|l1 l2 L L' X F' Q1 Q2]; auto.
    destruct l1 as [r1 m1], l2 as [r2 m2]. do 3 f_equal. apply map_ext. intros x.
    pose proof (base_same _ _ (slice_bottom cx cy r x) F) as BS. rewrite <- Q1, <- Q2 in BS.
    fold v v'.
    destruct (base_material ((r1, m1) :: L) _), (base_material ((r2, m2) :: L') _); try contradiction.
    - now apply MS.
    - apply MS; apply X. }
  unfold bishop, ordinary. cbn [Planes.v_geom Planes.v_tolerance Planes.v_max_iterations v v'].
  fold v v'.
  destruct (circle_external _ cx cy r); cbn [rbind]; auto. destruct (first_two _) as [[p q]|]; auto.
  now rewrite SL.
Qed.

(** ** The view of a slope, soil by soil and load by load *)
Section Shape.
  Context {EN : Env}.
  Notation stR := (st R).
  Definition udl_seen (tx : R) (u : udl R) : R * R * R :=
    (match u_length u with Some len => Rmax 0 (tx - u_offset u - len) | None => 0 end, tx - u_offset u, u_magnitude u).
  Definition ll_seen (tx : R) (l : lload R) : R * R := (Rmax 0 (tx - l_offset l), l_magnitude l).
  Lemma view_shape (s : stR) : reachable s -> exists rls,
    map Some rls = map m_RL (mats_of s) /\ Forall tan_ok (mats_of s) /\
    view_of s = Ok (MkView (s_geom (snd s)) (combine rls (mats_of s))
       (map (udl_seen (top_x s)) (udls_of s)) (map (ll_seen (top_x s)) (lls_of s))
       (s_water_RL (snd s)) (s_water_H (snd s)) (s_limits (snd s))
       (s_slices (snd s)) (s_iterations (snd s)) (s_min_failure (snd s))
       (s_tolerance (snd s)) (s_max_iterations (snd s))).
  Proof.
    intros Hr. destruct (reachable_inv s Hr) as (C & UF & LF).
    destruct (reachable_mat s Hr) as ((H0 & P & F) & Tn).
    assert (AM : forall m, In m (mats_of s) -> m_RL m = Some (H0 - m_depth m)).
    { intros m Hm. apply in_derefs in Hm. destruct Hm as (n & Hn & Q). now apply (F n m). }
    exists (map (fun m => H0 - m_depth m) (mats_of s)). split.
    { rewrite map_map. apply map_ext_in. intros m M. now rewrite AM. }
    split.
    { apply Forall_forall. intros m Hm. apply in_derefs in Hm. destruct Hm as (n & _ & Q).
      rewrite Forall_forall in Tn. apply Tn. eapply nth_error_In; eauto. }
    unfold view_of. rewrite (rmapM_map _ (fun m => (H0 - m_depth m, m))).
    2:{ intros m Hm. rewrite (AM m Hm). reflexivity. }
    cbn [rbind]. rewrite (rmapM_map _ (udl_seen (top_x s))).
    2:{ intros u Hu. apply in_derefs in Hu. destruct Hu as (n & Hn & Q).
        pose proof (UF n u Hn Q) as QU.
        assert (QL : u_left u = Some (fst (udl_left_right (top_x s) u))) by (rewrite <- QU at 1; reflexivity).
        assert (QR : u_right u = Some (snd (udl_left_right (top_x s) u))) by (rewrite <- QU at 1; reflexivity).
        rewrite QL, QR. cbn [attr rbind]. unfold udl_seen, udl_left_right. cbn [fst snd]. unR.
        destruct (u_length u) as [len|] eqn:L; auto.
        assert (OK : udl_ok u).
        { pose proof (c_udls _ C) as X. rewrite Forall_forall in X. apply X. eapply nth_error_In; eauto. }
        destruct OK as [_ O]. rewrite L in O. rewrite (proj2 (Reqb_false len 0)) by lra. cbn [negb]. unR. reflexivity. }
    cbn [rbind]. rewrite (rmapM_map _ (ll_seen (top_x s))).
    2:{ intros l Hl. apply in_derefs in Hl. destruct Hl as (n & Hn & Q).
        pose proof (LF n l Hn Q) as QL.
        assert (QC : l_coord l = Some (Rmax 0 (top_x s - l_offset l)))
          by (rewrite <- QL at 1; unfold ll_coords; cbn [l_coord set_ll_coord]; unR; reflexivity).
        rewrite QC. reflexivity. }
    cbn [rbind]. do 2 f_equal.
    induction (mats_of s) as [|m l IH]; cbn; auto. f_equal. apply IH. intros; apply AM; now right.
  Qed.
End Shape.

Section Factors.
  Context {EN : Env} (k : R) (K : 0 < k).
  Notation stR := (st R).
  Lemma similar_views (s s' : stR) : reachable s -> reachable s' -> similar k s s' ->
    exists v v', view_of s = Ok v /\ view_of s' = Ok v' /\ v_geom v = s_geom (snd s) /\
      forall cx cy r, bishop v' cx cy r = bishop (grow_view k v) cx cy r.
  Proof.
    intros RS RS' [SG SM SU SL SW SH SS ST SX].
    destruct (view_shape s RS) as (rls & Q & TN & E). destruct (view_shape s' RS') as (rls' & Q' & TN' & E').
    do 2 eexists. split; [exact E|]. split; [exact E'|]. split; [reflexivity|].
    assert (TX : top_x s' = k * top_x s) by (unfold top_x; rewrite SG; reflexivity).
    intros cx cy r. apply factor_same; cbn; auto.
    - clear E E'. revert rls rls' Q Q' TN TN'.
      induction SM as [|m m' l l' (A1 & A2 & A3 & A4) F IH]; intros rls rls' Q Q' TN TN'.
      + destruct rls, rls'; try discriminate. constructor.
      + destruct rls as [|rl rls], rls' as [|rl' rls']; try discriminate. cbn in Q, Q'.
        injection Q as Q1 Q2. injection Q' as Q1' Q2'. inversion TN; inversion TN'; subst.
        cbn. constructor; [|now apply IH]. unfold same_layer, grow_material; cbn.
        rewrite A4, <- Q1 in Q1'. injection Q1' as ->. unfold tan_ok in *. repeat split; auto. congruence.
    - rewrite map_map. rewrite TX. clear - SU K. induction SU as [|u u' l l' (A & B & C) F IH]; cbn [map]; auto.
      f_equal; auto. unfold udl_seen, grow_pt. cbn [fst snd]. rewrite A, B, C.
      f_equal. f_equal; [|ring]. destruct (u_length u) as [len|]; cbn [option_map]; [|ring].
      rewrite <- (Rmult_0_r k) at 1. rewrite <- max_k by auto. f_equal; ring.
    - rewrite map_map. rewrite TX. clear - SL K. induction SL as [|u u' l l' (A & B) F IH]; cbn [map]; auto.
      f_equal; auto. unfold ll_seen. cbn [fst snd]. rewrite A, B. f_equal.
      rewrite <- (Rmult_0_r k) at 1. rewrite <- max_k by auto. f_equal; ring.
  Qed.
  Lemma similar_factor (s s' : stR) v v' cx cy r : reachable s -> reachable s' -> similar k s s' ->
    view_of s = Ok v -> view_of s' = Ok v' -> apart k (s_geom (snd s)) cx cy r ->
    bishop v' (k * cx) (k * cy) (k * r) = bishop v cx cy r.
  Proof.
    intros RS RS' SI E E' A. destruct (similar_views s s' RS RS' SI) as (w & w' & F & F' & G & B).
    rewrite E in F. injection F as <-. rewrite E' in F'. injection F' as <-.
    rewrite B. apply factor_grow; auto; rewrite G; auto. apply core_good. now apply reachable_inv.
  Qed.
  Lemma fos_loop_same (v w : view R) l : (forall cx cy r, bishop v cx cy r = bishop w cx cy r) ->
    fos_loop v l = fos_loop w l.
  Proof. intros B. induction l as [|p l IH]; cbn [fos_loop]; auto. now rewrite B, IH. Qed.
  Lemma similar_analysis m (s s' : stR) : reachable s -> reachable s' -> similar k s s' ->
    s_planes (snd s) <> [] -> s_planes (snd s') = map (grow_plane k) (s_planes (snd s)) ->
    Forall (apart_plane k (s_geom (snd s))) (s_planes (snd s)) ->
    fst (analyse_slope m s') = fst (analyse_slope m s) /\
    (fst (analyse_slope m s) = Ok tt ->
     s_search (snd (snd (analyse_slope m s'))) =
     map (grow_plane k) (s_search (snd (snd (analyse_slope m s)))) /\
     get_min_FOS (snd (snd (analyse_slope m s'))) = get_min_FOS (snd (snd (analyse_slope m s)))).
  Proof.
    intros RS RS' SI NE P FA. destruct (similar_views s s' RS RS' SI) as (v & v' & E & E' & G & B).
    assert (GG : good_geom (v_geom v)) by (rewrite G; apply core_good; now apply reachable_inv).
    rewrite <- G in FA.
    unfold analyse_slope, mbind, mret, mlift, self_get, mget.
    rewrite E, E', P. cbn [fst snd]. destruct (s_planes (snd s)) as [|p ps] eqn:EP; [congruence|].
    cbn [map]. change (grow_plane k p :: map (grow_plane k) ps) with (map (grow_plane k) (p :: ps)).
    rewrite (fos_loop_same v' (grow_view k v)) by auto.
    rewrite fos_loop_grow by auto. destruct (fos_loop v (p :: ps)) as [r done]. cbn [fst snd].
    unfold self_upd, mupd. destruct r as [[]|e]; cbn; (split; [reflexivity|]); [intros _|discriminate].
    assert (TG : tidy m (map (grow_plane k) done) = map (grow_plane k) (tidy m done)) by apply tidy_grow.
    split; [exact TG|].
    unfold get_min_FOS. cbn. rewrite TG. destruct (tidy m done); reflexivity.
  Qed.
End Factors.

(** ** The demo slope at another size *)
Section TwinSimilar.
  Context {EN : Env} (k : R) (K : 1 / 4000 <= k).
  Lemma twin4_similar : similar k demo4 (twin4 k).
  Proof.
    constructor; try reflexivity.
    - unfold mats_of, derefs. cbn.
      repeat constructor; cbn; try lra; f_equal; unR; ring.
    - unfold udls_of, derefs. cbn. repeat constructor.
    - unfold lls_of, derefs. cbn. repeat constructor.
  Qed.
End TwinSimilar.
Lemma twin5_similar {EN : Env} k : similar k demo5 (twin5 k).
Proof. destruct (twin4_similar k) as [A B C D E F G X Y]. constructor; auto. Qed.
(** at a scale of 1 to 2000 the whole ground is one centimetre wide, and no circle is left *)
Lemma twin_small {EN : Env} : exists v v' f, view_of demo4 = Ok v /\ view_of (twin4 (1 / 2000)) = Ok v' /\
  bishop v 12 (29 / 2) (15 / 2) = Ok (Some f) /\
  bishop v' (1 / 2000 * 12) (1 / 2000 * (29 / 2)) (1 / 2000 * (15 / 2)) = Ok None.
Proof.
  destruct demo_factor as (v & f & E & B & _). exists v, (grow_view (1 / 2000) v), f.
  split; auto. split; [apply twin4_view; auto; lra|]. split; auto. apply tiny_factor; try lra.
  destruct demo4_view as (w & E' & _ & G & _). congruence.
Qed.
