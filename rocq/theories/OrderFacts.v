(** * OrderFacts: the order of the circles and of the loads, and one circle more (C101). *)
From Coq Require Import ZArith Reals Lra Lia List Bool String Permutation Sorted.
From Verif Require Import Num Py Validation Utilities Objects Slope Planes Analysis
     Dynamic Api RealNum RealFacts MonadFacts ListFacts History LoadFacts Spec CircleFacts SliceFacts ViewFacts
     SearchFacts FosFacts WetFacts Surcharge SplitFacts.
Import ListNotations.
Local Open Scope R_scope.

(** ** Lists in another order *)
Lemma rmapM_perm {A B} (f : A -> res B) l l' : Permutation l l' -> forall ys, rmapM f l = Ok ys ->
  exists ys', rmapM f l' = Ok ys' /\ Permutation ys ys'.
Proof.
  intros P. induction P as [|x l l' P IH|x y l|l l1 l2 P1 IH1 P2 IH2]; intros ys E.
  - exists ys. injection E as <-. auto.
  - cbn [rmapM] in *. destruct (f x) as [b|]; [|discriminate]. cbn [rbind] in *.
    destruct (rmapM f l) as [bs|] eqn:Q; [|discriminate]. injection E as <-.
    destruct (IH bs eq_refl) as (bs' & -> & P'). exists (b :: bs'). auto.
  - cbn [rmapM] in *. destruct (f y) as [b|]; [|discriminate]. destruct (f x) as [c|]; [|discriminate].
    cbn [rbind] in *. destruct (rmapM f l) as [bs|]; [|discriminate]. injection E as <-.
    exists (c :: b :: bs). split; [reflexivity|constructor].
  - destruct (IH1 ys E) as (y1 & E1 & Q1). destruct (IH2 y1 E1) as (y2 & E2 & Q2).
    exists y2. split; [auto|]. now transitivity y1.
Qed.
Lemma concat_perm {A} (l l' : list (list A)) : Permutation l l' -> Permutation (List.concat l) (List.concat l').
Proof.
  intros P. induction P; cbn [List.concat]; auto.
  - now apply Permutation_app_head.
  - rewrite !app_assoc. apply Permutation_app_tail. apply Permutation_app_comm.
  - etransitivity; eauto.
Qed.
Lemma filter_perm {A} (f : A -> bool) l l' : Permutation l l' -> Permutation (filter f l) (filter f l').
Proof.
  intros P. induction P; cbn [filter]; auto.
  - destruct (f x); auto.
  - destruct (f x), (f y); auto. apply perm_swap.
  - etransitivity; eauto.
Qed.
Lemma rsum_perm l l' : Permutation l l' -> rsum l = rsum l'.
Proof. intros P. induction P; cbn [rsum]; lra. Qed.
(** two sorted lists of the same members carry the same keys *)
Lemma sorted_unique (l l' : list R) : Permutation l l' -> StronglySorted Rle l -> StronglySorted Rle l' -> l = l'.
Proof.
  revert l'. induction l as [|a l IH]; intros [|b l'] P A1 B1; auto.
  - apply Permutation_nil in P. discriminate.
  - symmetry in P. apply Permutation_nil in P. discriminate.
  - inversion A1 as [|? ? A2 A3]; subst. inversion B1 as [|? ? B2 B3]; subst.
    rewrite Forall_forall in A3, B3.
    assert (K : a = b).
    { assert (I : In a (b :: l')) by (apply (Permutation_in _ P); now left).
      assert (J : In b (a :: l)) by (symmetry in P; apply (Permutation_in _ P); now left).
      destruct I as [I|I]; auto. destruct J as [J|J]; auto.
      apply Rle_antisym; [now apply A3|now apply B3]. }
    subst b. f_equal. apply Permutation_cons_inv in P. now apply IH.
Qed.
Lemma sorted_keys {A} (k : A -> R) l l' : Permutation l l' ->
  StronglySorted (key_le k) l -> StronglySorted (key_le k) l' -> map k l = map k l'.
Proof.
  assert (Q : forall l, StronglySorted (key_le k) l -> StronglySorted Rle (map k l)).
  { clear. intros l S1. induction S1 as [|a l S1 IH F]; cbn [map]; constructor; auto.
    rewrite Forall_forall in *. intros x I. apply in_map_iff in I as (y & <- & I). exact (F y I). }
  intros P A1 B1. apply sorted_unique; auto. now apply Permutation_map.
Qed.

(** ** The list of circles *)
(** what the user gave: the circle and its end points, without a result *)
Definition given (p : plane R) : R * R * R * (point R * point R) := (circle_of p, (p_l p, p_r p)).
Lemma set_fos_given f p q : given p = given q -> set_fos f p = set_fos f q.
Proof.
  destruct p, q. unfold given, circle_of, set_fos. cbn. intros Q. injection Q as -> -> -> -> ->. reflexivity.
Qed.
Lemma loop_given v l l' d : map given l = map given l' -> fos_loop v l = (Ok tt, d) -> fos_loop v l' = (Ok tt, d).
Proof.
  revert l' d. induction l as [|p l IH]; intros [|q l'] d M E; try discriminate; auto.
  cbn [map] in M. assert (G : given p = given q) by congruence.
  assert (M' : map given l = map given l') by congruence. cbn [fos_loop] in *.
  assert (K : (p_cx p, p_cy p, p_radius p) = (p_cx q, p_cy q, p_radius q)) by (unfold given, circle_of in G; congruence).
  injection K as K1 K2 K3. rewrite <- K1, <- K2, <- K3.
  destruct (bishop v (p_cx p) (p_cy p) (p_radius p)) as [f|]; [|discriminate].
  destruct (fos_loop v l) as [r d'] eqn:Q. injection E as -> <-.
  rewrite (IH l' d' M' eq_refl). now rewrite (set_fos_given f p q G).
Qed.
Lemma loop_perm v l l' : Permutation l l' -> forall d, fos_loop v l = (Ok tt, d) ->
  exists d', fos_loop v l' = (Ok tt, d') /\ Permutation d d'.
Proof.
  intros P. induction P as [|x l l' P IH|x y l|l l1 l2 P1 IH1 P2 IH2]; intros d E.
  - exists d. injection E as <-. auto.
  - cbn [fos_loop] in *. destruct (bishop v (p_cx x) (p_cy x) (p_radius x)) as [f|]; [|discriminate].
    destruct (fos_loop v l) as [r d0] eqn:Q. injection E as -> <-.
    destruct (IH d0 eq_refl) as (d' & -> & P'). exists (set_fos f x :: d'). auto.
  - cbn [fos_loop] in *. destruct (bishop v (p_cx y) (p_cy y) (p_radius y)) as [f|]; [|discriminate].
    destruct (bishop v (p_cx x) (p_cy x) (p_radius x)) as [g|]; [|discriminate].
    destruct (fos_loop v l) as [r d0]. injection E as -> <-.
    exists (set_fos g x :: set_fos f y :: d0). split; [reflexivity|constructor].
  - destruct (IH1 d E) as (d1 & E1 & Q1). destruct (IH2 d1 E1) as (d2 & E2 & Q2).
    exists d2. split; [auto|]. now transitivity d1.
Qed.
Lemma tidy_order m d d' : Permutation d d' -> Permutation (tidy m d) (tidy m d') /\
  map p_fos (tidy m d) = map p_fos (tidy m d').
Proof.
  intros P.
  assert (Q : Permutation (sort_by fos_val (filter has_fos d)) (sort_by fos_val (filter has_fos d'))).
  { transitivity (filter has_fos d); [symmetry; apply sort_by_perm|].
    transitivity (filter has_fos d'); [now apply filter_perm|apply sort_by_perm]. }
  assert (QT : Permutation (tidy m d) (tidy m d')).
  { unfold tidy. destruct m as [x|]; auto. destruct (neqb x (nz 0)); auto. now apply filter_perm. }
  split; [exact QT|].
  pose proof (sorted_keys fos_val _ _ QT (tidy_sorted m d) (tidy_sorted m d')) as K.
  assert (F : forall d, map p_fos (tidy m d) = map (fun f => Some (Some f)) (map fos_val (tidy m d))).
  { intros e. rewrite map_map. apply map_ext_in. intros p I. apply tidy_In in I as (_ & f & Ef & _).
    unfold fos_val. now rewrite Ef. }
  now rewrite !F, K.
Qed.
Lemma plan_order (v v' : view R) cs : v_geom v' = v_geom v -> v_limits v' = v_limits v ->
  v_iterations v' = v_iterations v -> v_min_failure v' = v_min_failure v ->
  Permutation (v_udls v) (v_udls v') -> Permutation (v_lls v) (v_lls v') ->
  entry_exit_planes v = Ok cs -> exists cs', entry_exit_planes v' = Ok cs' /\ Permutation cs cs'.
Proof.
  intros G L I F U W. unfold entry_exit_planes, right_coords. rewrite G, L, I, F.
  destruct (left_coords v) as [ls|] eqn:EL; [|discriminate].
  assert (LP : exists ls', left_coords v' = Ok ls' /\ Permutation ls ls').
  { unfold left_coords in *. rewrite G, L, I, <- (Permutation_length U), <- (Permutation_length W).
    destruct (spread_left _ _) as [xs|]; [|discriminate]. cbn [rbind] in *. injection EL as <-.
    eexists. split; [reflexivity|]. apply Permutation_map. apply Permutation_app_head.
    apply Permutation_app; now apply Permutation_map. }
  destruct LP as (ls' & -> & P). cbn [rbind].
  destruct (spread_right _ _) as [xs|]; [|discriminate]. cbn [rbind].
  destruct (rmapM _ ls) as [pl|] eqn:E; [|discriminate]. cbn [rbind]. intros Q. injection Q as <-.
  destruct (rmapM_perm _ _ _ P _ E) as (pl' & -> & P'). cbn [rbind]. eexists. split; [reflexivity|].
  now apply concat_perm.
Qed.

(** ** Slopes *)
Section States.
  Context {EN : Env}.
  Notation stR := (st R).
  (** the same loads in another order *)
  Definition reordered (s s' : stR) : Prop :=
    Permutation (map strip_data (udls_of s)) (map strip_data (udls_of s')) /\
    Permutation (map line_data (lls_of s)) (map line_data (lls_of s')).
  Lemma reordered_load (s s' : stR) : s_geom (snd s') = s_geom (snd s) -> reordered s s' -> same_load s s'.
  Proof.
    intros G (U & W) x1 x2 O. unfold pressure_on, force_on.
    assert (CR : crest s' = crest s) by (unfold crest; now rewrite G). rewrite CR.
    rewrite <- !(map_map strip_data (fun d => udl_share x1 x2 (strip_of (crest s) d))).
    rewrite <- !(map_map line_data (fun d => ll_share x1 x2 (line_of (crest s) d))).
    split; apply rsum_perm, Permutation_map; now symmetry.
  Qed.
  (** the limits of the search, the number of circles and the least distance *)
  Definition searched (s : stR) := (s_limits (snd s), s_iterations (snd s), s_min_failure (snd s)).
  Lemma order_same (s s' s1 : stR) mx : reachable s -> reachable s' ->
    settings s' = settings s -> same_soil s s' -> searched s' = searched s -> reordered s s' ->
    Permutation (map given (s_planes (snd s))) (map given (s_planes (snd s'))) ->
    exec (Analyse mx) s = (Ok tt, s1) ->
    exists s1', exec (Analyse mx) s' = (Ok tt, s1') /\
      Permutation (s_search (snd s1)) (s_search (snd s1')) /\
      map p_fos (s_search (snd s1')) = map p_fos (s_search (snd s1)) /\
      get_min_FOS (snd s1') = get_min_FOS (snd s1).
  Proof.
    intros RS RS' ST SO SE RO PP E. destruct (view_sound s RS) as (v & Ev & SV).
    destruct (view_sound s' RS') as (v' & Ev' & SV').
    assert (G : s_geom (snd s') = s_geom (snd s)) by (unfold settings in ST; congruence).
    pose proof (reordered_load s s' G RO) as SL.
    destruct (split_circle s s' v v' RS RS' Ev Ev' ST SO SL) as (_ & _ & F).
    cbn [exec] in *. destruct (analyse_ok mx s s1 E) as (v0 & cs & d & Ev0 & AN & FL & ->).
    assert (v0 = v) by congruence. subst v0.
    assert (Q : exists cs' d', analysed s' v' cs' /\ fos_loop v' cs' = (Ok tt, d') /\ Permutation d d').
    { destruct AN as [(P0 & EE)|(P0 & ->)].
      - rewrite P0 in PP. cbn [map] in PP. apply Permutation_nil in PP. apply map_eq_nil in PP.
        destruct (view_loads s v RS Ev) as (VU & VL). destruct (view_loads s' v' RS' Ev') as (VU' & VL').
        destruct RO as (U & W). unfold searched in SE. injection SE as S1 S2 S3.
        destruct (plan_order v v' cs) as (cs' & EE' & P').
        + now rewrite (so_geom s v SV), (so_geom s' v' SV').
        + now rewrite (so_lim_eq s v SV), (so_lim_eq s' v' SV').
        + now rewrite (so_iter_eq s v SV), (so_iter_eq s' v' SV').
        + now rewrite (so_fail s v SV), (so_fail s' v' SV').
        + rewrite VU, VU', G. rewrite <- !(map_map strip_data (strip_of (fst (g_top (s_geom (snd s)))))).
          now apply Permutation_map.
        + rewrite VL, VL', G. rewrite <- !(map_map line_data (line_of (fst (g_top (s_geom (snd s)))))).
          now apply Permutation_map.
        + exact EE.
        + destruct (loop_perm v cs cs' P' d FL) as (d' & FL' & PD). exists cs', d'.
          split; [left; auto|]. rewrite F. auto.
      - destruct (Permutation_map_inv _ _ (Permutation_sym PP)) as (l3 & M & P3).
        destruct (loop_perm v _ l3 P3 d FL) as (d' & FL' & PD).
        exists (s_planes (snd s')), d'. split; [|split; [|exact PD]].
        + right. split; auto. intros Q. rewrite Q in PP. cbn [map] in PP. symmetry in PP.
          apply Permutation_nil in PP. apply map_eq_nil in PP. contradiction.
        + rewrite F. apply (loop_given v l3); auto. }
    destruct Q as (cs' & d' & AN' & FL' & PD).
    destruct (tidy_order mx d d' PD) as (P & K).
    exists (fst s', set_s_search (tidy mx d')
              (if match s_planes (snd s') with [] => true | _ => false end
               then snd s' else set_s_planes d' (snd s'))).
    split; [now apply (analyse_intro mx s' v' cs' d')|].
    assert (SS : forall A (b : bool) (a a' : slope R), s_search (set_s_search A (if b then a else a')) = A)
      by (intros; destruct b; reflexivity).
    cbn [snd]. unfold get_min_FOS. rewrite !SS. split; [exact P|]. split; [now symmetry|].
    clear - K. destruct (tidy mx d), (tidy mx d'); cbn [map] in K; try discriminate; auto.
    injection K as K _. now rewrite K.
  Qed.
  Lemma same_soil_sym (s s' : stR) : same_soil s s' -> same_soil s' s.
  Proof. intros (N & Q). split; [tauto|]. intros y m m' A B. symmetry. eapply Q; eauto. Qed.
  Lemma order_raises (s s' : stR) mx : reachable s -> reachable s' ->
    settings s' = settings s -> same_soil s s' -> searched s' = searched s -> reordered s s' ->
    Permutation (map given (s_planes (snd s))) (map given (s_planes (snd s'))) ->
    fst (exec (Analyse mx) s') = Ok tt <-> fst (exec (Analyse mx) s) = Ok tt.
  Proof.
    intros RS RS' ST SO SE RO PP.
    assert (Q : forall t t' : stR, reachable t -> reachable t' -> settings t' = settings t -> same_soil t t' ->
              searched t' = searched t -> reordered t t' ->
              Permutation (map given (s_planes (snd t))) (map given (s_planes (snd t'))) ->
              fst (exec (Analyse mx) t) = Ok tt -> fst (exec (Analyse mx) t') = Ok tt).
    { clear. intros t t' R1 R2 A B C D P E. destruct (exec (Analyse mx) t) as [r t1] eqn:Q. cbn [fst] in E. subst r.
      destruct (order_same t t' t1 mx R1 R2 A B C D P Q) as (t2 & -> & _). reflexivity. }
    split; intros E.
    - apply (Q s' s); auto; [now apply same_soil_sym|destruct RO; split; now symmetry|now symmetry].
    - now apply (Q s s').
  Qed.

  (** ** More circles *)
  Lemma factor_given (v : view R) p q : given p = given q -> factor v p = factor v q.
  Proof. unfold given, circle_of, factor. intros Q. injection Q as -> -> -> _ _. reflexivity. Qed.
  Lemma loop_all (v : view R) l : (exists d, fos_loop v l = (Ok tt, d)) <->
    (forall p, In p l -> exists f, factor v p = Ok f).
  Proof.
    induction l as [|p l IH]; [split; [intros _ p []|exists []; reflexivity]|].
    cbn [fos_loop]. fold (factor v p). split.
    - intros (d & E). destruct (factor v p) as [f|] eqn:Q; [|discriminate].
      destruct (fos_loop v l) as [r d'] eqn:L. injection E as -> <-.
      intros q [<-|I]; [eauto|]. apply IH; eauto.
    - intros A. destruct (A p (or_introl eq_refl)) as (f & ->).
      destruct (proj2 IH) as (d & ->); [|eauto]. intros q I. apply A. now right.
  Qed.
  Lemma min_passes mx (s s' : stR) f : analyse_slope mx s = (Ok tt, s') ->
    get_min_FOS (snd s') = Ok (Some f) -> passes mx f.
  Proof.
    intros E M. destruct (search_spec mx s s' E) as (v & cs & _ & _ & _ & I & _).
    unfold get_min_FOS in M. destruct (s_search (snd s')) as [|p l]; [discriminate|].
    destruct (proj1 (I p) (or_introl eq_refl)) as (c & g & _ & _ & P & ->). cbn in M. injection M as ->. exact P.
  Qed.
  Lemma more_circles (s s' s1' : stR) extra mx : reachable s -> reachable s' ->
    settings s' = settings s -> same_soil s s' -> same_load s s' -> s_planes (snd s) <> [] ->
    Permutation (map given (s_planes (snd s) ++ extra)) (map given (s_planes (snd s'))) ->
    exec (Analyse mx) s' = (Ok tt, s1') ->
    exists s1, exec (Analyse mx) s = (Ok tt, s1) /\
      forall f, get_min_FOS (snd s1) = Ok (Some f) ->
        exists f', get_min_FOS (snd s1') = Ok (Some f') /\ f' <= f /\
          (f' = f \/ exists v c, view_of s = Ok v /\ In c extra /\ factor v c = Ok (Some f')) /\
          (forall v c g, view_of s = Ok v -> In c extra -> factor v c = Ok (Some g) -> f' <= g).
  Proof.
    intros RS RS' ST SO SL N PP E. destruct (view_sound s RS) as (v & Ev & SV).
    destruct (view_sound s' RS') as (v' & Ev' & SV').
    destruct (split_circle s s' v v' RS RS' Ev Ev' ST SO SL) as (B & _ & _).
    assert (F : forall c, factor v' c = factor v c) by (intros; apply B).
    cbn [exec] in *.
    assert (N' : s_planes (snd s') <> []).
    { intros Q. rewrite Q in PP. symmetry in PP. apply Permutation_nil in PP. apply map_eq_nil in PP.
      destruct (s_planes (snd s)); [contradiction|discriminate]. }
    assert (I1 : forall c, In c (s_planes (snd s) ++ extra) -> exists c', In c' (s_planes (snd s')) /\ given c' = given c).
    { intros c I. assert (J : In (given c) (map given (s_planes (snd s')))) by (eapply Permutation_in; [exact PP|now apply in_map]).
      apply in_map_iff in J as (c' & G & J). eauto. }
    assert (I2 : forall c, In c (s_planes (snd s')) -> exists c', In c' (s_planes (snd s) ++ extra) /\ given c' = given c).
    { intros c I. symmetry in PP. assert (J : In (given c) (map given (s_planes (snd s) ++ extra))) by (eapply Permutation_in; [exact PP|now apply in_map]).
      apply in_map_iff in J as (c' & G & J). eauto. }
    destruct (search_spec mx s' s1' E) as (v0 & cs' & E0 & A' & OK' & _). assert (v0 = v') by congruence. subst v0.
    assert (cs' = s_planes (snd s')) by (destruct A' as [(Q & _)|(_ & Q)]; [contradiction|exact Q]). subst cs'.
    assert (OK : forall c, In c (s_planes (snd s)) -> exists f, factor v c = Ok f).
    { intros c I. destruct (I1 c) as (c' & J & G); [apply in_or_app; now left|].
      destruct (OK' c' J) as (f & Q). exists f. rewrite <- (factor_given v c' c G), <- F. exact Q. }
    destruct (proj2 (loop_all v _) OK) as (d & L).
    pose proof (analyse_intro mx s v _ d Ev (or_intror (conj N eq_refl)) L) as AE.
    eexists. split; [exact AE|]. intros f M. pose proof (min_passes mx _ _ f AE M) as PF.
    destruct (min_spec mx _ _ AE) as (v1 & cs1 & E1 & A1 & D1). assert (v1 = v) by congruence. subst v1.
    assert (cs1 = s_planes (snd s)) by (destruct A1 as [(Q & _)|(_ & Q)]; [contradiction|exact Q]). subst cs1.
    destruct D1 as [(D1 & _)|(c & f0 & D1 & Ic & Fc & _ & _ & LE)]; [congruence|].
    assert (f0 = f) by congruence. subst f0. clear D1.
    destruct (min_spec mx _ _ E) as (v2 & cs2 & E2 & A2 & D2). assert (v2 = v') by congruence. subst v2.
    assert (cs2 = s_planes (snd s')) by (destruct A2 as [(Q & _)|(_ & Q)]; [contradiction|exact Q]). subst cs2.
    destruct (I1 c) as (c' & J & G); [apply in_or_app; now left|].
    assert (Fc' : factor v' c' = Ok (Some f)) by (rewrite F, (factor_given v c' c G); exact Fc).
    destruct D2 as [(_ & D2)|(k & f' & D2 & Ik & Fk & _ & _ & LE')]; [exfalso; exact (D2 c' f J Fc' PF)|].
    exists f'. split; [exact D2|]. split; [exact (LE' c' f J Fc')|]. split.
    - destruct (I2 k Ik) as (k' & Jk & Gk). rewrite F, <- (factor_given v k' k Gk) in Fk.
      apply in_app_or in Jk. destruct Jk as [Jk|Jk]; [left|right; eauto].
      apply Rle_antisym; [exact (LE' c' f J Fc')|exact (LE k' f' Jk Fk)].
    - intros w e g Ew Ie Fe. assert (w = v) by congruence. subst w.
      destruct (I1 e) as (e' & Je & Ge); [apply in_or_app; now right|].
      apply (LE' e' g Je). rewrite F, (factor_given v e' e Ge). exact Fe.
  Qed.

  (** ** One circle more *)
  (** the smaller of a factor and the factor of a circle, if it has one *)
  Definition least (f : R) (o : option R) : R := match o with Some g => Rmin f g | None => f end.
  Lemma add_circle (s s1 a : stR) v cx cy r f u : reachable s -> view_of s = Ok v -> s_planes (snd s) <> [] ->
    exec (Analyse None) s = (Ok tt, a) -> get_min_FOS (snd a) = Ok (Some f) ->
    exec (AddCircle cx cy r) s = (Ok u, s1) ->
    s1 = s \/
    (exists e, bishop v cx cy r = Err e /\ fst (exec (Analyse None) s1) = Err e) \/
    (exists o a1, bishop v cx cy r = Ok o /\ exec (Analyse None) s1 = (Ok tt, a1) /\
       get_min_FOS (snd a1) = Ok (Some (least f o))).
  Proof.
    intros RS Ev N EA M EC.
    assert (R1 : reachable s1) by (replace s1 with (step s (AddCircle cx cy r)) by (unfold step; now rewrite EC); now apply reachable_step).
    cbn [exec] in EC. unfold add_single_circular_plane in EC. rewrite bind_self_get, bind_lift in EC.
    destruct (circle_external _ cx cy r) as [il|]; [|discriminate].
    destruct (first_two il) as [[a0 b0]|]; [|left; now injection EC as _ <-].
    rewrite bind_self_get, bind_self_upd, reset_eff in EC. injection EC as _ EC. cbn [fst snd] in EC.
    set (p := MkPlane a0 b0 cx cy r None) in *. right.
    assert (ST : settings s1 = settings s) by (rewrite <- EC; reflexivity).
    assert (SO : same_soil s s1) by (apply same_soil_refl; rewrite <- EC; reflexivity).
    assert (SL : same_load s s1) by (intros x1 x2 _; rewrite <- EC; split; reflexivity).
    assert (P1 : s_planes (snd s1) = s_planes (snd s) ++ [p]) by (rewrite <- EC; reflexivity).
    assert (E1 : view_of s1 = Ok v) by (rewrite <- EC; exact Ev).
    assert (N1 : s_planes (snd s1) <> []) by (rewrite P1; destruct (s_planes (snd s)); discriminate).
    cbn [exec] in EA. destruct (search_spec None s a EA) as (v0 & cs & E0 & A0 & OK & _).
    assert (v0 = v) by congruence. subst v0.
    assert (cs = s_planes (snd s)) by (destruct A0 as [(Q & _)|(_ & Q)]; [contradiction|exact Q]). subst cs.
    destruct (bishop v cx cy r) as [o|e] eqn:B.
    - right. exists o.
      assert (OK1 : forall c, In c (s_planes (snd s1)) -> exists f, factor v c = Ok f).
      { intros c I. rewrite P1 in I. apply in_app_or in I. destruct I as [I|[<-|[]]]; [now apply OK|].
        exists o. exact B. }
      destruct (proj2 (loop_all v _) OK1) as (d & L).
      pose proof (analyse_intro None s1 v _ d E1 (or_intror (conj N1 eq_refl)) L) as AE.
      match type of AE with _ = (_, ?x) => set (z := x) in AE end.
      exists z. split; [reflexivity|]. split; [exact AE|].
      destruct (more_circles s s1 z [p] None RS R1 ST SO SL N) as (a' & EA' & X); [rewrite P1; reflexivity|exact AE|].
      assert (a' = a) by (cbn [exec] in EA'; congruence). subst a'.
      destruct (X f M) as (f' & M' & LE & OR & LE2). rewrite M'. f_equal. f_equal.
      assert (FP : factor v p = Ok o) by exact B.
      destruct o as [g|]; cbn [least].
      + pose proof (LE2 v p g Ev (or_introl eq_refl) FP) as LG.
        destruct OR as [->|(w & c & Ew & [<-|[]] & Fc)].
        * unfold Rmin. destruct (Rle_dec f g); lra.
        * assert (w = v) by congruence. subst w. rewrite FP in Fc. injection Fc as ->.
          unfold Rmin. destruct (Rle_dec f f'); lra.
      + destruct OR as [->|(w & c & Ew & [<-|[]] & Fc)]; [reflexivity|].
        assert (w = v) by congruence. subst w. rewrite FP in Fc. discriminate.
    - left. exists e. split; [reflexivity|]. cbn [exec].
      assert (L : forall l, (forall c, In c l -> exists f, factor v c = Ok f) -> fst (fos_loop v (l ++ [p])) = Err e).
      { clear - B. induction l as [|c l IH]; intros A; cbn [app fos_loop].
        - change (bishop v (p_cx p) (p_cy p) (p_radius p)) with (bishop v cx cy r). now rewrite B.
        - destruct (A c (or_introl eq_refl)) as (g & Q). unfold factor in Q. rewrite Q.
          specialize (IH (fun c I => A c (or_intror I))). destruct (fos_loop v (l ++ [p])). exact IH. }
      specialize (L _ OK). rewrite <- P1 in L. unfold analyse_slope. rewrite bind_self_get. unfold mbind at 1. rewrite E1.
      destruct (s_planes (snd s1)) as [|q l]; [contradiction|].
      destruct (fos_loop v (q :: l)) as [rr d]. cbn [fst] in L. subst rr.
      rewrite !bind_self_upd, bind_lift. reflexivity.
  Qed.
End States.
