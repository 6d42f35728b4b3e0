(** * SplitFacts: the same soil and the same loads in other pieces (C96). *)
From Coq Require Import ZArith Reals Lra Lia List Bool.
From Verif Require Import Num Py Validation Utilities Objects Slope Planes Analysis
     Dynamic Api RealNum RealFacts MonadFacts ListFacts Spec CircleFacts PlaneFacts SoilFacts SliceFacts
     MatInv SearchFacts ViewFacts FosFacts FosMore WetFacts Surcharge.
Import ListNotations.
Local Open Scope R_scope.

(** Views with the same soil at every level and the same load over every stretch *)
Record same_action (v v' : view R) : Prop := {
  sa_geom : v_geom v' = v_geom v;
  sa_water : v_water_RL v' = v_water_RL v;
  sa_H : v_water_H v' = v_water_H v;
  sa_slices : v_slices v' = v_slices v;
  sa_tol : v_tolerance v' = v_tolerance v;
  sa_max : v_max_iterations v' = v_max_iterations v;
  sa_none : v_mats v = [] <-> v_mats v' = [];
  sa_soil : forall y m m', layer_at (v_mats v) y m -> layer_at (v_mats v') y m' ->
    m_unit_weight m' = m_unit_weight m /\ m_cohesion m' = m_cohesion m /\ m_tan_phi m' = m_tan_phi m;
  sa_strips : forall a b, a <= b -> rsum (map (udl_share a b) (v_udls v')) = rsum (map (udl_share a b) (v_udls v));
  sa_lines : forall a b, rsum (map (ll_share a b) (v_lls v')) = rsum (map (ll_share a b) (v_lls v));
}.

Lemma slice_same v v' cx cy r xl w i s : same_action v v' -> 0 < w -> v_mats v' <> [] ->
  slice_ok v cx cy r xl w i s -> slice_ok v' cx cy r xl w i s.
Proof.
  intros [G W HH _ _ _ NO SO US LS] WP NE [X YB YT D C S (soil & (uw & pr & U & EQ) & EW) (m & LM & EC & ET) EU].
  assert (NE0 : v_mats v <> []) by (intros Q; apply NE, NO, Q).
  constructor; auto.
  - now rewrite G.
  - exists soil. split.
    + exists uw, pr. split; auto. intros y k L'. destruct (layer_at_exists _ y NE0) as (k0 & L0).
      destruct (SO y k0 k L0 L') as (E & _). rewrite E. auto.
    + rewrite US, LS; auto. unfold edge_of. rewrite plus_IZR. lra.
  - destruct (layer_at_exists _ (sl_yb s) NE) as (m' & LM'). exists m'. split; auto.
    destruct (SO _ _ _ LM LM') as (_ & A & B). rewrite A, B. auto.
  - now rewrite G, W, HH.
Qed.

Section Same.
  Context (v v' : view R) (GV : good_view v) (GV' : good_view v') (SA : same_action v v').
  Lemma water_same : water_data v' = water_data v.
  Proof. unfold water_data, water_level. now rewrite (sa_geom _ _ SA), (sa_water _ _ SA). Qed.
  Lemma slices_same cx cy r a b : 0 < r -> end_points (v_geom v) cx cy r a b ->
    slices_of v' cx cy r (fst a) (fst b) = slices_of v cx cy r (fst a) (fst b).
  Proof.
    intros RP EP. assert (EP' : end_points (v_geom v') cx cy r a b) by now rewrite (sa_geom _ _ SA).
    pose proof (end_points_ok _ (gv_geom v GV) _ _ _ _ _ EP) as (_ & _ & _ & _ & LL).
    assert (WE : width v' a b = width v a b) by (unfold width; now rewrite (sa_slices _ _ SA)).
    destruct (water_data v) as [o|e] eqn:WD.
    - pose proof water_same as WD'. rewrite WD in WD'.
      destruct (slices_at v GV cx cy r a b o RP EP WD) as [(M & Q)|(sl & Q & SO)];
        destruct (slices_at v' GV' cx cy r a b o RP EP' WD') as [(M' & Q')|(sl' & Q' & SO')].
      + now rewrite Q, Q'.
      + exfalso. apply (slices_mats _ _ _ _ _ _ _ (gv_slices v' GV') SO'). now apply (sa_none _ _ SA).
      + exfalso. apply (slices_mats _ _ _ _ _ _ _ (gv_slices v GV) SO). now apply (sa_none _ _ SA).
      + rewrite Q, Q', WE. do 3 f_equal. apply (slices_det v' cx cy r a b); auto.
        pose proof (slices_mats _ _ _ _ _ _ _ (gv_slices v' GV') SO') as NE.
        unfold slices_ok in *. rewrite WE, (sa_slices _ _ SA).
        assert (WP : 0 < width v a b).
        { unfold width. apply Rdiv_lt_0_compat; [lra|]. apply IZR_lt. pose proof (gv_slices v GV). lia. }
        clear - SO SA WP NE. induction SO; constructor; auto. now apply (slice_same v v').
    - unfold slices_of. rewrite water_same, WD, (sa_slices _ _ SA). reflexivity.
  Qed.
  Lemma ordinary_same cx cy r a b : end_points (v_geom v) cx cy r a b ->
    ordinary v' cx cy r a b = ordinary v cx cy r a b.
  Proof.
    intros EP. unfold ordinary. rewrite !assert_pos.
    destruct (Rltb cx 0); [reflexivity|]. destruct (Rltb cy 0); [reflexivity|].
    destruct (Rltb r 0) eqn:E; [reflexivity|]. rbool. cbn [rbind].
    rewrite slices_same; auto. exact (radius_pos v GV cx cy r a b E EP).
  Qed.
  Lemma bishop_same cx cy r : bishop v' cx cy r = bishop v cx cy r.
  Proof.
    unfold bishop. rewrite (sa_geom _ _ SA).
    destruct (circle_external_spec _ (gv_geom v GV) cx cy r) as (l & -> & C). cbn [rbind].
    destruct (first_two_spec _ _ _ _ _ C) as [(a & b & -> & EP)|( -> & _)]; [|reflexivity].
    rewrite ordinary_same by auto.
    destruct (ordinary v cx cy r a b) as [[f|]|e] eqn:O; cbn [rbind]; try reflexivity.
    assert (RP : 0 < r).
    { apply (radius_pos v GV cx cy r a b); auto. destruct (Rle_lt_dec 0 r) as [|N]; auto. exfalso.
      unfold ordinary in O. rewrite !assert_pos in O. destruct (Rltb cx 0); [discriminate|].
      destruct (Rltb cy 0); [discriminate|]. rewrite (proj2 (Rltb_true r 0) N) in O. discriminate. }
    rewrite slices_same by auto. now rewrite (sa_tol _ _ SA), (sa_max _ _ SA).
  Qed.
  Lemma loop_same l : fos_loop v' l = fos_loop v l.
  Proof.
    induction l as [|p l IH]; [reflexivity|]. cbn [fos_loop]. rewrite bishop_same, IH. reflexivity.
  Qed.
End Same.

(** ** Loads *)
Lemma share_stack x1 x2 a b q q' :
  udl_share x1 x2 (a, b, q + q') = udl_share x1 x2 (a, b, q) + udl_share x1 x2 (a, b, q').
Proof. unfold udl_share. cbn [fst snd]. ring. Qed.
Lemma line_stack x1 x2 c q q' : ll_share x1 x2 (c, q + q') = ll_share x1 x2 (c, q) + ll_share x1 x2 (c, q').
Proof. unfold ll_share. cbn [fst snd]. destruct (Rle_dec _ _); [destruct (Rlt_dec _ _)|]; ring. Qed.

Lemma strip_split tx x1 x2 q o l1 l2 : x1 <= x2 -> 0 <= l1 -> 0 <= l2 ->
  udl_share x1 x2 (strip_of tx (q, o, Some (l1 + l2))) =
  udl_share x1 x2 (strip_of tx (q, o, Some l1)) + udl_share x1 x2 (strip_of tx (q, o + l1, Some l2)).
Proof.
  intros X A B. unfold udl_share, strip_of. cbn [fst snd]. rewrite <- Rmult_plus_distr_l. f_equal.
  unfold Rmin, Rmax. repeat destruct (Rle_dec _ _); lra.
Qed.
Lemma strip_split_end tx x1 x2 q o l : x1 <= x2 -> 0 <= l ->
  udl_share x1 x2 (strip_of tx (q, o, None)) =
  udl_share x1 x2 (strip_of tx (q, o, Some l)) + udl_share x1 x2 (strip_of tx (q, o + l, None)).
Proof.
  intros X A. unfold udl_share, strip_of. cbn [fst snd]. rewrite <- Rmult_plus_distr_l. f_equal.
  unfold Rmin, Rmax. repeat destruct (Rle_dec _ _); lra.
Qed.
Lemma strip_stack tx x1 x2 q q' o l :
  udl_share x1 x2 (strip_of tx (q + q', o, l)) =
  udl_share x1 x2 (strip_of tx (q, o, l)) + udl_share x1 x2 (strip_of tx (q', o, l)).
Proof. unfold strip_of. apply share_stack. Qed.

(** ** Slopes *)
Section States.
  Context {EN : Env}.
  Notation stR := (st R).
  (** the soil at a level *)
  Definition soil_at (s : stR) (y : R) (m : material R) : Prop :=
    exists above rl below, mats_of s = above ++ m :: below /\
      Forall (fun k => exists rk, m_RL k = Some rk /\ y <= rk) above /\
      m_RL m = Some rl /\ (rl < y \/ below = []).
  Definition soil_data (m : material R) : R * R * R := (m_unit_weight m, m_friction_angle m, m_cohesion m).
  Definition same_soil (s s' : stR) : Prop :=
    (mats_of s = [] <-> mats_of s' = []) /\
    forall y m m', soil_at s y m -> soil_at s' y m' -> soil_data m' = soil_data m.
  (** the loads on a stretch of the crest *)
  Definition crest (s : stR) : R := fst (g_top (s_geom (snd s))).
  Definition pressure_on (s : stR) (x1 x2 : R) : R :=
    rsum (map (fun u => udl_share x1 x2 (strip_of (crest s) (strip_data u))) (udls_of s)).
  Definition force_on (s : stR) (x1 x2 : R) : R :=
    rsum (map (fun l => ll_share x1 x2 (line_of (crest s) (line_data l))) (lls_of s)).
  Definition same_load (s s' : stR) : Prop :=
    forall x1 x2, x1 <= x2 -> pressure_on s' x1 x2 = pressure_on s x1 x2 /\ force_on s' x1 x2 = force_on s x1 x2.
  (** the ground, the water and the settings of the analysis *)
  Definition settings (s : stR) :=
    (s_geom (snd s), s_water_RL (snd s), s_water_H (snd s),
     (s_slices (snd s), s_tolerance (snd s), s_max_iterations (snd s))).

  Lemma layer_soil (s : stR) v y m : sound s v -> layer_at (v_mats v) y m -> soil_at s y m.
  Proof.
    intros SV (a & rl & b & E & F & C). exists (map snd a), rl, (map snd b).
    assert (Q : forall r k, In (r, k) (v_mats v) -> m_RL k = Some r) by (intros r k I; apply (so_mats s v SV r k I)).
    split; [rewrite <- (so_mats_eq s v SV), E, map_app; reflexivity|]. split.
    - rewrite Forall_forall in *. intros k I. apply in_map_iff in I. destruct I as ([r k'] & <- & I).
      exists r. split; [|exact (F _ I)]. apply Q. rewrite E. apply in_or_app. now left.
    - split; [apply Q; rewrite E; apply in_or_app; right; now left|].
      destruct C as [C| -> ]; [now left|now right].
  Qed.
  Lemma states_action (s s' : stR) v v' : reachable s -> reachable s' -> view_of s = Ok v -> view_of s' = Ok v' ->
    settings s' = settings s -> same_soil s s' -> same_load s s' -> same_action v v'.
  Proof.
    intros RS RS' E E' G (NO & SO) SL.
    destruct (view_sound s RS) as (v0 & E0 & SV). assert (v0 = v) by congruence. subst v0.
    destruct (view_sound s' RS') as (v0 & E1 & SV'). assert (v0 = v') by congruence. subst v0.
    destruct (view_loads s v RS E) as (VU & VL). destruct (view_loads s' v' RS' E') as (VU' & VL').
    unfold settings in G. injection G as G1 G2 G3 G4 G5 G6.
    constructor.
    - now rewrite (so_geom s v SV), (so_geom s' v' SV').
    - now rewrite (so_water s v SV), (so_water s' v' SV').
    - now rewrite (so_H_eq s v SV), (so_H_eq s' v' SV').
    - now rewrite (so_slices s v SV), (so_slices s' v' SV').
    - now rewrite (so_tol s v SV), (so_tol s' v' SV').
    - now rewrite (so_max s v SV), (so_max s' v' SV').
    - rewrite <- (so_mats_eq s v SV), <- (so_mats_eq s' v' SV') in NO.
      split; intros Q.
      + rewrite Q in NO. apply map_eq_nil with (f := snd). now apply NO.
      + rewrite Q in NO. apply map_eq_nil with (f := snd). now apply NO.
    - intros y m m' L L'. pose proof (SO y m m' (layer_soil s v y m SV L) (layer_soil s' v' y m' SV' L')) as Q.
      unfold soil_data in Q. injection Q as Q1 Q2 Q3. split; [auto|]. split; [auto|].
      destruct L as (a & rl & b & LE & _). destruct L' as (a' & rl' & b' & LE' & _).
      destruct (so_mats s v SV rl m) as (_ & T & _); [rewrite LE; apply in_or_app; right; now left|].
      destruct (so_mats s' v' SV' rl' m') as (_ & T' & _); [rewrite LE'; apply in_or_app; right; now left|].
      unfold tan_ok in *. now rewrite T, T', Q2.
    - intros a b O. destruct (SL a b O) as (P & _). unfold pressure_on, crest in P. rewrite VU, VU', !map_map. exact P.
    - intros a b. destruct (Rle_lt_dec a b) as [O|O].
      + destruct (SL a b O) as (_ & P). unfold force_on, crest in P. rewrite VL, VL', !map_map. exact P.
      + assert (Z : forall l, rsum (map (ll_share a b) l) = 0).
        { induction l as [|[c q] l IH]; [reflexivity|]. cbn [map rsum]. rewrite IH. unfold ll_share. cbn [fst snd].
          destruct (Rle_dec a c); [destruct (Rlt_dec c b)|]; lra. }
        now rewrite !Z.
  Qed.
  (** every circle has the same factor *)
  Lemma split_circle (s s' : stR) v v' : reachable s -> reachable s' -> view_of s = Ok v -> view_of s' = Ok v' ->
    settings s' = settings s -> same_soil s s' -> same_load s s' ->
    (forall cx cy r, bishop v' cx cy r = bishop v cx cy r) /\
    (forall cx cy r a b, end_points (v_geom v) cx cy r a b -> ordinary v' cx cy r a b = ordinary v cx cy r a b) /\
    (forall l, fos_loop v' l = fos_loop v l).
  Proof.
    intros RS RS' E E' G SO SL. pose proof (states_action s s' v v' RS RS' E E' G SO SL) as SA.
    destruct (view_good s v RS E) as (GV & _). destruct (view_good s' v' RS' E') as (GV' & _).
    split; [|split]; intros.
    - now apply bishop_same.
    - now apply ordinary_same.
    - now apply loop_same.
  Qed.
  Lemma analyse_as (s s' : stR) v v' mx : view_of s = Ok v -> view_of s' = Ok v' ->
    (forall l, fos_loop v' l = fos_loop v l) -> s_planes (snd s') = s_planes (snd s) ->
    (s_planes (snd s) = [] -> entry_exit_planes v' = entry_exit_planes v) ->
    fst (analyse_slope mx s') = fst (analyse_slope mx s) /\
    (forall u, fst (analyse_slope mx s) = Ok u ->
       s_search (snd (snd (analyse_slope mx s'))) = s_search (snd (snd (analyse_slope mx s))) /\
       s_planes (snd (snd (analyse_slope mx s'))) = s_planes (snd (snd (analyse_slope mx s)))).
  Proof.
    intros E E' F P EE. unfold analyse_slope. rewrite !bind_self_get. rewrite P.
    assert (Q : forall s B (k : view R -> M (st R) B), mbind (fun s => (view_of s, s)) k s =
              match view_of s with Ok v => k v s | Err e => (Err e, s) end).
    { intros t B k. unfold mbind. now destruct (view_of t). }
    rewrite !Q, E, E'. clear Q.
    destruct (s_planes (snd s)) as [|p ps] eqn:PL.
    - rewrite !bind_lift, EE by auto. destruct (entry_exit_planes v) as [q|e]; [|split; [reflexivity|discriminate]].
      rewrite F. destruct (fos_loop v q) as [[[]|e] done]; split; try reflexivity; try discriminate.
      intros u _. split; [reflexivity|]. exact (eq_trans P (eq_sym PL)).
    - rewrite F. destruct (fos_loop v (p :: ps)) as [[[]|e] done]; split; try reflexivity; try discriminate.
      intros u _. split; reflexivity.
  Qed.
  (** the circles given by the user *)
  Lemma split_given (s s' : stR) mx : reachable s -> reachable s' ->
    settings s' = settings s -> same_soil s s' -> same_load s s' ->
    s_planes (snd s) <> [] -> s_planes (snd s') = s_planes (snd s) ->
    fst (exec (Analyse mx) s') = fst (exec (Analyse mx) s) /\
    (forall u, fst (exec (Analyse mx) s) = Ok u ->
       s_search (snd (step s' (Analyse mx))) = s_search (snd (step s (Analyse mx))) /\
       s_planes (snd (step s' (Analyse mx))) = s_planes (snd (step s (Analyse mx)))).
  Proof.
    intros RS RS' G SO SL N P. destruct (view_sound s RS) as (v & E & _). destruct (view_sound s' RS') as (v' & E' & _).
    destruct (split_circle s s' v v' RS RS' E E' G SO SL) as (_ & _ & F).
    apply (analyse_as s s' v v' mx); auto. intros Q. contradiction.
  Qed.
  (** the automatic search, with the same loads *)
  Definition searching (s : stR) := (s_limits (snd s), s_iterations (snd s), s_min_failure (snd s), s_planes (snd s)).
  Lemma split_search (s s' : stR) mx : reachable s -> reachable s' ->
    settings s' = settings s -> same_soil s s' -> searching s' = searching s ->
    map strip_data (udls_of s') = map strip_data (udls_of s) -> map line_data (lls_of s') = map line_data (lls_of s) ->
    fst (exec (Analyse mx) s') = fst (exec (Analyse mx) s) /\
    (forall u, fst (exec (Analyse mx) s) = Ok u ->
       s_search (snd (step s' (Analyse mx))) = s_search (snd (step s (Analyse mx))) /\
       s_planes (snd (step s' (Analyse mx))) = s_planes (snd (step s (Analyse mx)))).
  Proof.
    intros RS RS' G SO SE U L. destruct (view_sound s RS) as (v & E & SV). destruct (view_sound s' RS') as (v' & E' & SV').
    assert (CR : crest s' = crest s) by (unfold crest; unfold settings in G; injection G as -> _; reflexivity).
    assert (SL : same_load s s').
    { intros x1 x2 O. unfold pressure_on, force_on. rewrite CR. split.
      - rewrite <- !(map_map strip_data (fun d => udl_share x1 x2 (strip_of (crest s) d))), U. reflexivity.
      - rewrite <- !(map_map line_data (fun d => ll_share x1 x2 (line_of (crest s) d))), L. reflexivity. }
    destruct (split_circle s s' v v' RS RS' E E' G SO SL) as (_ & _ & F).
    unfold searching in SE. injection SE as S1 S2 S3 S4.
    destruct (view_loads s v RS E) as (VU & VL). destruct (view_loads s' v' RS' E') as (VU' & VL').
    fold (crest s) in VU, VL. fold (crest s') in VU', VL'. rewrite CR in VU', VL'.
    rewrite <- (map_map strip_data (strip_of (crest s))) in VU, VU'. rewrite <- (map_map line_data (line_of (crest s))) in VL, VL'.
    rewrite U in VU'. rewrite L in VL'. rewrite <- VU in VU'. rewrite <- VL in VL'.
    assert (GE : v_geom v' = v_geom v)
      by (rewrite (so_geom s v SV), (so_geom s' v' SV'); unfold settings in G; injection G as -> _; reflexivity).
    apply (analyse_as s s' v v' mx); auto. intros _. unfold entry_exit_planes, left_coords, right_coords.
    rewrite VU', VL', GE, (so_lim_eq s v SV), (so_lim_eq s' v' SV'), (so_iter_eq s v SV), (so_iter_eq s' v' SV'),
      (so_fail s v SV), (so_fail s' v' SV'), S1, S2, S3. reflexivity.
  Qed.

  (** ** A layer in two pieces *)
  Definition piece (m : material R) : R * R * R * option R := (soil_data m, m_RL m).
  Definition soil_of (L : list (R * R * R * option R)) (y : R) (d : R * R * R) : Prop :=
    exists above rl below, L = above ++ (d, Some rl) :: below /\
      Forall (fun k => exists rk, snd k = Some rk /\ y <= rk) above /\ (rl < y \/ below = []).
  Lemma soil_at_piece (s : stR) y m : soil_at s y m -> soil_of (map piece (mats_of s)) y (soil_data m).
  Proof.
    intros (a & rl & b & E & F & Q & C). exists (map piece a), rl, (map piece b). rewrite E, map_app. cbn [map].
    unfold piece at 2. rewrite Q. split; [reflexivity|]. split.
    - rewrite Forall_forall in *. intros k I. apply in_map_iff in I. destruct I as (x & <- & I). exact (F x I).
    - destruct C as [C| -> ]; auto.
  Qed.
  Lemma soil_of_cases L y d : soil_of L y d -> forall k rl L', L = (k, Some rl) :: L' ->
    (d = k /\ (rl < y \/ L' = [])) \/ (y <= rl /\ soil_of L' y d).
  Proof.
    intros (a & q & b & E & F & C) k rl L' ->. destruct a as [|x a]; cbn in E.
    - injection E as E1 E2 E3. subst. left. auto.
    - injection E as E1 E2. subst. inversion F as [|? ? (rk & X & Y)]; subst. cbn in X. injection X as X. subst rk.
      right. split; auto. exists a, q, b. auto.
  Qed.
  Lemma soil_of_head L y d : soil_of L y d -> forall k o L', L = (k, o) :: L' -> exists rl, o = Some rl.
  Proof.
    intros (a & q & b & E & F & C) k o L' ->. destruct a as [|x a]; cbn in E.
    - injection E as _ E2 _. eauto.
    - injection E as E1 _. subst x. inversion F as [|? ? (rk & X & Y)]; subst. cbn in X. eauto.
  Qed.
  Lemma soil_of_unique L y d d' : soil_of L y d -> soil_of L y d' -> d = d'.
  Proof.
    revert d d'. induction L as [|[k o] L IH]; intros d d' P Q.
    - destruct P as ([|] & ? & ? & E & _); discriminate.
    - destruct (soil_of_head _ _ _ P _ _ _ eq_refl) as (rl & ->).
      destruct (soil_of_cases _ _ _ P _ _ _ eq_refl) as [( -> & A)|(A & P')];
        destruct (soil_of_cases _ _ _ Q _ _ _ eq_refl) as [( -> & B)|(B & Q')]; auto.
      + destruct A as [A| -> ]; [lra|]. destruct Q' as ([|] & ? & ? & E & _); discriminate.
      + destruct B as [B| -> ]; [lra|]. destruct P' as ([|] & ? & ? & E & _); discriminate.
  Qed.
  Lemma soil_of_split A d rl1 rl B y k k' : rl <= rl1 ->
    soil_of (A ++ (d, Some rl) :: B) y k -> soil_of (A ++ (d, Some rl1) :: (d, Some rl) :: B) y k' -> k' = k.
  Proof.
    intros O. induction A as [|[q n] A IH]; intros P P'.
    - cbn [app] in *. destruct (soil_of_cases _ _ _ P' _ _ _ eq_refl) as [( -> & [Y|Y])|(Y & L)]; [|discriminate|].
      + destruct (soil_of_cases _ _ _ P _ _ _ eq_refl) as [( -> & _)|(Y' & _)]; [auto|lra].
      + eapply soil_of_unique; eauto.
    - cbn [app] in *. destruct (soil_of_head _ _ _ P _ _ _ eq_refl) as (r & ->).
      destruct (soil_of_cases _ _ _ P _ _ _ eq_refl) as [( -> & [Y|Y])|(Y & L)];
        destruct (soil_of_cases _ _ _ P' _ _ _ eq_refl) as [( -> & [Y'|Y'])|(Y' & L')];
        auto; try lra; try (now apply IH); exfalso; destruct A; discriminate.
  Qed.
  Lemma layer_split (s s' : stR) A d rl1 rl B : rl <= rl1 ->
    map piece (mats_of s) = A ++ (d, Some rl) :: B ->
    map piece (mats_of s') = A ++ (d, Some rl1) :: (d, Some rl) :: B -> same_soil s s'.
  Proof.
    intros O E E'. split.
    - split; intros Q.
      + rewrite Q in E. destruct A; discriminate.
      + rewrite Q in E'. destruct A; discriminate.
    - intros y m m' P P'. apply soil_at_piece in P, P'. rewrite E in P. rewrite E' in P'.
      eapply soil_of_split; eauto.
  Qed.
  Lemma same_soil_refl (s s' : stR) : mats_of s' = mats_of s -> same_soil s s'.
  Proof.
    intros E. split; [now rewrite E|]. intros y m m' P P'. apply soil_at_piece in P, P'. rewrite E in P'.
    eapply soil_of_unique; eauto.
  Qed.

  (** ** A load in pieces *)
  Inductive strip_pieces : R * R * option R -> list (R * R * option R) -> Prop :=
  | SpBeside : forall q o l1 l2, 0 <= l1 -> 0 <= l2 ->
      strip_pieces (q, o, Some (l1 + l2)) [(q, o, Some l1); (q, o + l1, Some l2)]
  | SpEnd : forall q o l, 0 <= l -> strip_pieces (q, o, None) [(q, o, Some l); (q, o + l, None)]
  | SpStack : forall q q' o l, strip_pieces (q + q', o, l) [(q, o, l); (q', o, l)].
  Lemma loads_split (s s' : stR) A u us B C q q' o D : s_geom (snd s') = s_geom (snd s) ->
    (map strip_data (udls_of s) = A ++ u :: B /\ strip_pieces u us /\ map strip_data (udls_of s') = A ++ us ++ B /\
     map line_data (lls_of s') = map line_data (lls_of s)) \/
    (map line_data (lls_of s) = C ++ (q + q', o) :: D /\ map line_data (lls_of s') = C ++ (q, o) :: (q', o) :: D /\
     map strip_data (udls_of s') = map strip_data (udls_of s)) -> same_load s s'.
  Proof.
    intros G H x1 x2 O. unfold pressure_on, force_on. assert (CR : crest s' = crest s) by (unfold crest; now rewrite G).
    rewrite CR. rewrite <- !(map_map strip_data (fun d => udl_share x1 x2 (strip_of (crest s) d))).
    rewrite <- !(map_map line_data (fun d => ll_share x1 x2 (line_of (crest s) d))).
    destruct H as [(E & P & E' & L)|(E & E' & U)].
    - split; [|now rewrite L]. rewrite E, E', !map_app, !rsum_app. cbn [map rsum].
      f_equal. f_equal. inversion P; subst; cbn [map rsum].
      + rewrite strip_split by auto. ring.
      + rewrite (strip_split_end (crest s) x1 x2 q0 o0 l) by auto. ring.
      + rewrite strip_stack. ring.
    - split; [now rewrite U|]. rewrite E, E', !map_app, !rsum_app. cbn [map rsum]. f_equal.
      assert (Q : ll_share x1 x2 (line_of (crest s) (q + q', o)) =
                  ll_share x1 x2 (line_of (crest s) (q, o)) + ll_share x1 x2 (line_of (crest s) (q', o)))
        by (unfold line_of; cbn [fst snd]; apply line_stack). rewrite Q. ring.
  Qed.
End States.
