(** * ViewFacts: what an analysis of a reachable slope works with. *)
From Coq Require Import ZArith Reals Lra Lia List Bool String Permutation Sorted.
From Verif Require Import Num Py Validation Utilities Objects Slope Planes Analysis
     Dynamic Api RealNum RealFacts ListFacts MonadFacts SlopeFacts MaterialFacts Invariant
     History Spec EditFacts KeepFacts LayerFacts SoilFacts MatInv CircleFacts PlaneFacts.
Import ListNotations.
Local Open Scope R_scope.

(** No assigned load has a negative offset.  The constructors make them
    non-negative; only the dynamic search can change that, on slopes shorter
    than 1 cm. *)
Definition offsets_ok (s : st R) : Prop :=
  (forall u, In u (udls_of s) -> 0 <= u_offset u) /\
  (forall l, In l (lls_of s) -> 0 <= l_offset l).

(** The data of the analysis, and what holds of it. *)
Record sound (s : st R) (v : view R) : Prop := {
  so_geom : v_geom v = s_geom (snd s);
  so_good : good_geom (v_geom v);
  so_crest : 1 / 1000 <= fst (g_top (v_geom v));
  so_height : 0 < g_ext_h (v_geom v);
  so_lim_eq : v_limits v = s_limits (snd s);
  so_lim : limits_ok (v_geom v) (v_limits v);
  so_slices : v_slices v = s_slices (snd s);
  so_slices_b : (10 <= v_slices v <= 500)%Z;
  so_iter_eq : v_iterations v = s_iterations (snd s);
  so_iter : (500 <= v_iterations v <= 100000)%Z;
  so_fail : v_min_failure v = s_min_failure (snd s);
  so_tol : v_tolerance v = s_tolerance (snd s);
  so_max : v_max_iterations v = s_max_iterations (snd s);
  so_water : v_water_RL v = s_water_RL (snd s);
  so_H_eq : v_water_H v = s_water_H (snd s);
  so_H : 0 <= v_water_H v <= 1;
  so_mats_eq : map snd (v_mats v) = mats_of s;
  so_desc : descending (v_mats v);
  so_mats : forall rl m, In (rl, m) (v_mats v) -> mat_ok m /\ tan_ok m /\ 0 <= rl /\ m_RL m = Some rl;
  so_lls_eq : map snd (v_lls v) = map l_magnitude (lls_of s);
  so_lls : forall c m, In (c, m) (v_lls v) -> 0 <= c /\ 0 < m;
  so_udls_eq : map snd (v_udls v) = map u_magnitude (udls_of s);
  so_udls : forall a b m, In (a, b, m) (v_udls v) -> 0 <= a /\ 0 < m;
  so_lls_top : offsets_ok s -> forall c m, In (c, m) (v_lls v) -> 0 <= c <= fst (g_top (v_geom v));
  so_udls_top : offsets_ok s -> forall a b m, In (a, b, m) (v_udls v) ->
                  0 <= a <= fst (g_top (v_geom v)) /\ b <= fst (g_top (v_geom v));
  so_lls_at : forall c m, In (c, m) (v_lls v) -> exists l, In l (lls_of s) /\
                c = Rmax 0 (fst (g_top (v_geom v)) - l_offset l) /\ m = l_magnitude l;
  so_udls_at : forall a b m, In (a, b, m) (v_udls v) -> exists u, In u (udls_of s) /\
                b = fst (g_top (v_geom v)) - u_offset u /\ m = u_magnitude u /\
                a = match u_length u with
                    | Some len => Rmax 0 (fst (g_top (v_geom v)) - u_offset u - len)
                    | None => 0 end;
}.

Section View.
  Context {EN : Env}.
  Notation stR := (st R).

  Lemma view_sound (s : stR) : reachable s -> exists v, view_of s = Ok v /\ sound s v.
  Proof.
    intros Hr. destruct (reachable_inv s Hr) as (C & UF & LF).
    destruct (reachable_mat s Hr) as ((H0 & P & F) & Tn).
    set (tx := top_x s) in *.
    assert (AM : forall m, In m (mats_of s) -> m_RL m = Some (H0 - m_depth m) /\ m_depth m <= H0).
    { intros m Hm. apply in_derefs in Hm. destruct Hm as (n & Hn & Q). eauto. }
    assert (AU : forall u, In u (udls_of s) -> udl_coords tx u = u /\ udl_ok u /\ 0 < u_magnitude u).
    { intros u Hu. apply in_derefs in Hu. destruct Hu as (n & Hn & Q). split; [eapply UF; eauto|].
      split; [pose proof (c_udls _ C) as X; rewrite Forall_forall in X; apply X; eapply nth_error_In; eauto|].
      destruct (c_udl_locs _ C n Hn) as (u' & Q' & M). congruence. }
    assert (AL : forall u, In u (lls_of s) -> ll_coords tx u = u /\ 0 < l_magnitude u).
    { intros u Hu. apply in_derefs in Hu. destruct Hu as (n & Hn & Q). split; [eapply LF; eauto|].
      destruct (c_ll_locs _ C n Hn) as (u' & Q' & M). congruence. }
    set (um := fun u => (fst (udl_left_right tx u), snd (udl_left_right tx u), u_magnitude u)).
    set (lm := fun l => (Rmax 0 (tx - l_offset l), l_magnitude l)).
    assert (E : view_of s = Ok (MkView (s_geom (snd s)) (map (fun m => (H0 - m_depth m, m)) (mats_of s))
       (map um (udls_of s)) (map lm (lls_of s))
       (s_water_RL (snd s)) (s_water_H (snd s)) (s_limits (snd s))
       (s_slices (snd s)) (s_iterations (snd s)) (s_min_failure (snd s))
       (s_tolerance (snd s)) (s_max_iterations (snd s)))).
    { unfold view_of. rewrite (rmapM_map _ (fun m => (H0 - m_depth m, m))).
      2:{ intros m Hm. destruct (AM m Hm) as [-> _]. reflexivity. }
      cbn [rbind].
      rewrite (rmapM_map _ um).
      2:{ intros u Hu. destruct (AU u Hu) as [Q _].
          assert (QL : u_left u = Some (fst (udl_left_right tx u))) by (rewrite <- Q at 1; reflexivity).
          assert (QR : u_right u = Some (snd (udl_left_right tx u))) by (rewrite <- Q at 1; reflexivity).
          rewrite QL, QR. reflexivity. }
      cbn [rbind]. rewrite (rmapM_map _ lm); [reflexivity|].
      intros u Hu. destruct (AL u Hu) as [Q _].
      assert (QC : l_coord u = Some (Rmax 0 (tx - l_offset u)))
        by (rewrite <- Q at 1; unfold ll_coords; cbn [l_coord set_ll_coord]; unR; reflexivity).
      rewrite QC. reflexivity. }
    eexists. split; [exact E|].
    pose proof (view_descending s _ Hr E) as VD. pose proof (view_mat_facts s _ Hr E) as VM.
    pose proof (core_good s C) as G.
    assert (TX : 1 / 1000 <= fst (g_top (s_geom (snd s)))).
    { destruct (c_geom _ C) as (mh & Hmh & ->). pose proof (c_l _ C). pose proof (c_h _ C).
      unfold geom_of. cbn. set (h := g_height _) in *. set (l := g_length _) in *.
      assert (5 * l <= Rmax (Rmax (5 * l) (s_min_ext_l (snd s))) (4 * h)) by (rminmax; lra). lra. }
    assert (UA : forall a b m, In (a, b, m) (map um (udls_of s)) -> exists u, In u (udls_of s) /\
                b = fst (g_top (s_geom (snd s))) - u_offset u /\ m = u_magnitude u /\
                a = match u_length u with
                    | Some len => Rmax 0 (fst (g_top (s_geom (snd s))) - u_offset u - len)
                    | None => 0 end).
    { intros a b m H. apply in_map_iff in H as (u & Q & Hu).
      destruct (AU u Hu) as (_ & [_ O] & _). unfold um in Q. injection Q as <- <- <-.
      exists u. split; auto. unfold udl_left_right. cbn [fst snd]. unR. unfold tx, top_x.
      split; auto. split; auto. destruct (u_length u) as [len|]; auto.
      rewrite (proj2 (Reqb_false len 0)) by lra. cbn [negb]. unR. reflexivity. }
    constructor; cbn [v_geom v_mats v_udls v_lls v_water_RL v_water_H v_limits v_slices
      v_iterations v_min_failure v_tolerance v_max_iterations] in *; auto; try apply C.
    - rewrite <- (gg_crest _ G). pose proof (ext_h_pos s C). rewrite (gg_crest _ G). exact H.
    - rewrite map_map. apply map_id.
    - intros rl m H. destruct (VM rl m H) as (V1 & V2 & V3). split; auto. split; auto. split; auto.
      apply in_map_iff in H as (m' & Q & Hm). injection Q as <- ->. now apply AM.
    - rewrite map_map. reflexivity.
    - intros c m H. apply in_map_iff in H as (l & Q & Hl). unfold lm in Q. injection Q as <- <-.
      split; [apply Rmax_l|]. now apply AL.
    - rewrite map_map. reflexivity.
    - intros a b m H. destruct (UA a b m H) as (u & Hu & -> & -> & ->).
      split; [|now apply AU]. destruct (u_length u); [apply Rmax_l | lra].
    - intros [_ O] c m H. apply in_map_iff in H as (l & Q & Hl). unfold lm in Q.
      injection Q as <- <-. specialize (O l Hl). unfold tx, top_x. rminmax; lra.
    - intros [O _] a b m H. destruct (UA a b m H) as (u & Hu & -> & -> & ->). specialize (O u Hu).
      destruct (AU u Hu) as (_ & [_ Z] & _). destruct (u_length u); [|lra]. rminmax; lra.
    - intros c m H. apply in_map_iff in H as (l & Q & Hl). unfold lm in Q.
      injection Q as <- <-. exists l. auto.
  Qed.

  Lemma search_states (s : stR) v : reachable s -> offsets_ok s -> view_of s = Ok v -> 
    let top := num_points_top_of (T := R) (s_iterations (snd s)) in
    let bot := num_points_bot_of (T := R) (s_iterations (snd s)) in
    let nc := num_circles_of (s_iterations (snd s)) in
    let loads := Z.of_nat (List.length (lls_of s) + List.length (udls_of s)) in
    (top - loads <> 1)%Z ->
    exists ps, entry_exit_planes v = Ok ps /\
      (Z.of_nat (List.length ps) <= Z.max top loads * bot * nc)%Z /\
      forall p, In p ps -> trial v p /\ fresh_plane (s_geom (snd s)) p /\ 0 <= p_cx p /\ 0 <= p_cy p.
  Proof.
    intros Hr O E top bot nc loads K. destruct (view_sound s Hr) as (v' & E' & S).
    assert (v' = v) by congruence. subst v'. destruct S.
    assert (LN : (Z.of_nat (List.length (v_lls v)) + Z.of_nat (List.length (v_udls v)) = loads)%Z).
    { unfold loads. apply (f_equal (@List.length _)) in so_lls_eq0, so_udls_eq0.
      rewrite !map_length in so_lls_eq0, so_udls_eq0. lia. }
    destruct (search_total v so_good0 so_lim0 (proj1 so_iter0)) as (ps & Q1 & Q2 & Q3).
    - exact (so_lls_top0 O).
    - intros a b m H. now apply (so_udls_top0 O a b m).
    - rewrite so_iter_eq0, LN. exact K.
    - exact so_crest0.
    - rewrite so_iter_eq0, LN in Q2. exists ps. rewrite <- so_geom0. auto.
  Qed.

  (** where a trial circle of the automatic search comes from *)
  Definition entry_of (s : stR) (x : R) : Prop :=
    let g := s_geom (snd s) in
    lim_left (s_limits (snd s)) <= x <= lim_left_r (s_limits (snd s)) \/
    (exists l, In l (lls_of s) /\ x = Rmax 0 (fst (g_top g) - l_offset l) - 1 / 1000) \/
    (exists u, In u (udls_of s) /\
       x = match u_length u with
           | Some len => Rmax 0 (fst (g_top g) - u_offset u - len)
           | None => 0 end - 1 / 1000).
  Definition trial_of (s : stR) (lx rx : R) (p : plane R) : Prop :=
    let g := s_geom (snd s) in
    let nc := num_circles_of (s_iterations (snd s)) in
    lim_right_l (s_limits (snd s)) < rx <= lim_right (s_limits (snd s)) /\
    s_min_failure (snd s) <
      sqrt ((rx - lx) * (rx - lx) + (snd (g_top g) - surface g rx) * (snd (g_top g) - surface g rx)) /\
    exists ps, generate_planes g (lx, snd (g_top g)) (rx, surface g rx) nc = Ok ps /\ In p ps /\
      pair_circles g (lx, snd (g_top g)) (rx, surface g rx) nc ps.

  Lemma search_inside (s : stR) v ps p : reachable s -> offsets_ok s ->
    view_of s = Ok v -> entry_exit_planes v = Ok ps -> In p ps ->
    exists lx rx, entry_of s lx /\ trial_of s lx rx p.
  Proof.
    intros Hr O E EP Hp. pose proof (view_sound s Hr) as (v' & E' & S).
    assert (v' = v) by congruence. subst v'.
    assert (K : (num_points_top_of (T := R) (s_iterations (snd s)) -
                 Z.of_nat (List.length (lls_of s) + List.length (udls_of s)) <> 1)%Z).
    { intros K. unfold entry_exit_planes in EP. rewrite left_coords_one in EP; [discriminate|].
      rewrite (so_iter_eq _ _ S). rewrite <- K.
      pose proof (f_equal (@List.length _) (so_lls_eq _ _ S)) as Q1.
      pose proof (f_equal (@List.length _) (so_udls_eq _ _ S)) as Q2.
      rewrite !map_length in Q1, Q2. lia. }
    destruct (search_states s v Hr O E K) as (ps' & Q & _ & A).
    assert (ps' = ps) by congruence. subst ps'.
    destruct (A p Hp) as ((lx & rx & qs & X1 & X2 & X3 & X4 & X5 & X6) & _).
    rewrite (so_iter_eq _ _ S), (so_geom _ _ S) in X4, X5.
    rewrite (so_geom _ _ S), (so_fail _ _ S) in X3. rewrite (so_lim_eq _ _ S) in X2.
    exists lx, rx. split.
    - destruct X1 as [X1|[(c & m & I & X1)|(a & b & m & I & X1)]].
      + left. rewrite (so_lim_eq _ _ S) in X1. exact X1.
      + right. left. destruct (so_lls_at _ _ S c m I) as (l & Hl & -> & _).
        rewrite (so_geom _ _ S) in X1. eauto.
      + right. right. destruct (so_udls_at _ _ S a b m I) as (u & Hu & _ & _ & ->).
        rewrite (so_geom _ _ S) in X1. eauto.
    - split; auto. split; [|eauto]. replace ((rx - lx) * (rx - lx)) with ((lx - rx) * (lx - rx)) by ring. auto.
  Qed.

  Lemma search_inside_plain (s : stR) v ps p : reachable s ->
    lls_of s = [] -> udls_of s = [] ->
    view_of s = Ok v -> entry_exit_planes v = Ok ps -> In p ps ->
    exists lx rx, lim_left (s_limits (snd s)) <= lx <= lim_left_r (s_limits (snd s)) /\
      trial_of s lx rx p.
  Proof.
    intros Hr L U E EP Hp. destruct (search_inside s v ps p Hr) as (lx & rx & Q & T); auto.
    - split; [rewrite U|rewrite L]; intros ? [].
    - exists lx, rx. split; auto. destruct Q as [Q|[(l & I & _)|(u & I & _)]]; auto.
      + rewrite L in I. destruct I.
      + rewrite U in I. destruct I.
  Qed.

  (** the circles of the search as far as the ground is concerned *)
  Lemma search_on_ground (s : stR) v ps p : reachable s -> offsets_ok s ->
    view_of s = Ok v -> entry_exit_planes v = Ok ps -> In p ps ->
    end_points (s_geom (snd s)) (p_cx p) (p_cy p) (p_radius p) (p_l p) (p_r p).
  Proof.
    intros Hr O E EP Hp. destruct (search_inside s v ps p Hr O E EP Hp) as (lx & rx & _ & T).
    destruct T as (_ & _ & qs & _ & I & (_ & F & _)).
    rewrite Forall_forall in F. apply (F p I).
  Qed.
End View.
