(** * PlaneFacts: the circles of a pair of points and of the automatic search
    (C12, C32-C34). *)
From Coq Require Import ZArith Reals Lra Lia List Bool String Permutation Sorted.
From Verif Require Import Num Py Validation Utilities Objects Slope Planes Analysis
     Dynamic Api RealNum RealFacts ListFacts MonadFacts SlopeFacts MaterialFacts Invariant
     History Spec EditFacts GroundFacts CircleFacts SearchFacts.
Import ListNotations.
Local Open Scope R_scope.

(** ** The first circle of a pair *)
Section Start.
  Context (l r : R * R) (LR : fst l < fst r).
  Let dx := fst r - fst l.
  Let dy := snd l - snd r.
  Let len := sqrt (dy * dy + dx * dx).

  Lemma chord_pos : 0 < len /\ len * len = dy * dy + dx * dx.
  Proof.
    assert (0 < dx) by (unfold dx; lra).
    assert (0 < dy * dy + dx * dx) by nra.
    split; [now apply sqrt_lt_R0|]. apply sqrt_sqrt. lra.
  Qed.
  Lemma chord_angle :
    cos (atan (dy / dx)) = dx / len /\ sin (atan (dy / dx)) = dy / len.
  Proof.
    assert (D : 0 < dx) by (unfold dx; lra). destruct chord_pos as [L LL].
    assert (E : sqrt (1 + (dy / dx)²) = len / dx).
    { apply sqrt_lem_1.
      - apply Rplus_le_le_0_compat; [lra | apply Rle_0_sqr].
      - apply Rlt_le, Rdiv_lt_0_compat; auto.
      - unfold Rsqr. transitivity (len * len / (dx * dx)); [field; lra|].
        rewrite LL. field. lra. }
    rewrite cos_atan, sin_atan, E. split; field; lra.
  Qed.

  Lemma start_circle_spec :
    exists edge, start_circle l r = Ok (atan (dy / dx), len / 2, edge) /\ 0 < edge < len / 2.
  Proof.
    assert (D : 0 < dx) by (unfold dx; lra). destruct chord_pos as [L LL].
    destruct chord_angle as [CA SA].
    unfold start_circle, pydiv, pysqrt. unR. fold dx. fold dy. fold len.
    rewrite (proj2 (Reqb_false dx 0)) by lra. cbn [rbind].
    rewrite CA. rewrite (proj2 (Reqb_false (dx / len) 0)).
    2:{ apply Rgt_not_eq, Rdiv_lt_0_compat; lra. }
    cbn [rbind].
    set (h := len / 2). assert (Hh : 0 < h) by (unfold h; lra).
    replace (h / (dx / len) * (11 / 10)) with (h * (len / dx * (11 / 10))) by (field; lra).
    assert (DL : dx <= len) by (apply Rsqr_incr_0_var; [unfold Rsqr; rewrite LL; nra | lra]).
    assert (K : 11 / 10 <= len / dx * (11 / 10)).
    { rewrite <- (Rmult_1_l (11 / 10)) at 1. apply Rmult_le_compat_r; [lra|].
      apply Rmult_le_reg_r with dx; auto. unfold Rdiv. rewrite Rmult_assoc, Rinv_l by lra. lra. }
    set (k := len / dx * (11 / 10)) in *.
    assert (P : 0 < h * k * (h * k) - h * h).
    { assert (0 < h * h) by nra. assert (1 < k * k) by nra.
      replace (h * k * (h * k) - h * h) with (h * h * (k * k - 1)) by ring. nra. }
    rewrite ?nsq_R. rewrite (proj2 (Rltb_false _ 0)) by lra. cbn [rbind].
    eexists. split; [reflexivity|].
    pose proof (sqrt_lt_R0 _ P) as SP. pose proof (sqrt_sqrt _ (Rlt_le _ _ P)) as SS.
    set (c := sqrt (h * k * (h * k) - h * h)) in *.
    assert (h < h * k) by nra. set (q := h * k) in *.
    split; nra.
  Qed.
End Start.

(** ** One circle of the family *)
(** The centre lies above the chord, on its perpendicular bisector. *)
Definition above_chord (l r : R * R) (cx cy : R) : Prop :=
  exists t, 0 < t /\ cx = (fst l + fst r) / 2 + t * (snd l - snd r) /\
            cy = (snd l + snd r) / 2 + t * (fst r - fst l).

Lemma radius_spec e half : 0 < e < half ->
  exists rad, circle_radius_from_abcd e (nsq half) = Ok rad /\ e < rad /\
    half * half + (rad - e) * (rad - e) = rad * rad.
Proof.
  intros H. unfold circle_radius_from_abcd, pydiv. unR.
  rewrite (proj2 (Reqb_false (2 * e) 0)) by lra. eexists. split; [reflexivity|]. split.
  - apply Rmult_lt_reg_r with (2 * e); [lra|]. unfold Rdiv.
    rewrite Rmult_assoc, Rinv_l by lra. nra.
  - field. lra.
Qed.

(** What is known of every circle kept: its end points, a positive radius, no
    factor of safety yet. *)
Definition fresh_plane (g : geom R) (p : plane R) : Prop :=
  end_points g (p_cx p) (p_cy p) (p_radius p) (p_l p) (p_r p) /\
  0 < p_radius p /\ p_fos p = None.

Lemma edge_bounds (edge half : R) (n : Z) (k : nat) :
  0 < edge < half -> (0 < n)%Z -> (Z.of_nat k < n)%Z ->
  0 < edge * nz (Z.of_nat (S k)) / nz n < half.
Proof.
  intros E N K. rewrite !nz_R.
  assert (A : 0 < IZR n) by (apply IZR_lt; lia).
  assert (B : 0 < IZR (Z.of_nat (S k)) <= IZR n).
  { split; [apply IZR_lt; lia | apply IZR_le; lia]. }
  unfold Rdiv. rewrite Rmult_assoc. set (q := IZR (Z.of_nat (S k)) * / IZR n).
  assert (Q : 0 < q <= 1).
  { unfold q. split; [apply Rmult_lt_0_compat; [lra | apply Rinv_0_lt_compat; lra]|].
    apply Rmult_le_reg_r with (IZR n); auto. rewrite Rmult_assoc, Rinv_l by lra. lra. }
  nra.
Qed.

Section Family.
  Context (g : geom R) (G : good_geom g).

  Lemma circles_loop_spec beta half edge n :
    0 < edge < half -> (0 < n)%Z ->
    forall k l r, (Z.of_nat k <= n)%Z ->
    exists ps, circles_loop g beta (nsq half) edge n k l r = Ok ps /\
      (List.length ps <= k)%nat /\ Forall (fresh_plane g) ps /\
      (0 <= sin beta -> 0 <= cos beta -> 0 <= fst l + fst r -> 0 <= snd l + snd r ->
       Forall (fun p => 0 <= p_cx p /\ 0 <= p_cy p) ps) /\
      (forall i p, nth_error ps i = Some p ->
         (forall j q, (j < i)%nat -> nth_error ps j = Some q -> p_l q = l /\ p_r q = r) ->
         exists e, 0 < e < half /\
           half * half + (p_radius p - e) * (p_radius p - e) = p_radius p * p_radius p /\
           0 < p_radius p - e /\
           p_cx p = (fst l + fst r) / 2 + sin beta * (p_radius p - e) /\
           p_cy p = (snd l + snd r) / 2 + cos beta * (p_radius p - e)).
  Proof.
    intros E N k. induction k as [|k IH]; intros l r K.
    - exists []. cbn. ands_; auto; intros; try constructor. destruct i; discriminate.
    - cbn [circles_loop]. unR. unfold pydiv at 1. unR.
      assert (N' : IZR n <> 0) by (apply not_0_IZR; lia).
      rewrite (proj2 (Reqb_false (IZR n) 0) N'). cbn [rbind].
      pose proof (edge_bounds edge half n k E N ltac:(lia)) as EB. unR.
      set (e := edge * IZR (Z.of_nat (S k)) / IZR n) in *.
      destruct (radius_spec e half EB) as (rad & RE & R1 & R2). unR.
      rewrite RE. cbn [rbind]. unfold circle_centre, mid_coord. unR. cbn [fst snd].
      set (cx := (fst l + fst r) / 2 + sin beta * (rad - e)).
      set (cy := (snd l + snd r) / 2 + cos beta * (rad - e)).
      destruct (circle_external_spec g G cx cy rad) as (il & IE & IC). rewrite IE. cbn [rbind].
      destruct (first_two_spec g cx cy rad il IC) as [(a & b & F2 & EP) | (F2 & _)]; rewrite F2.
      + destruct (IH a b ltac:(lia)) as (ps & P1 & P2 & P3 & P4 & P5). rewrite P1. cbn [rbind].
        eexists. split; [reflexivity|].
        split; [cbn; lia|]. split; [|split].
        * constructor; auto. unfold fresh_plane. cbn. split; auto. split; auto. lra.
        * intros S0 C0 X0 Y0. constructor.
          -- cbn. unfold cx, cy. split; nra.
          -- destruct (end_points_ok _ G _ _ _ _ _ EP) as (_ & (A1 & A2) & _ & (B1 & B2) & _).
             apply P4; auto; [lra|]. rewrite A2, B2.
             destruct G.
             assert (SR : forall x, 0 <= surface g x).
             { intros x. destruct (Rle_dec x (fst (g_top g))).
               - rewrite surface_crest by auto. lra.
               - destruct (Rle_dec (fst (g_bot g)) x).
                 + rewrite surface_toe by auto. lra.
                 + rewrite surface_face by (auto; lra).
                   pose proof (grad_nonneg g G). nra. }
             pose proof (SR (fst a)). pose proof (SR (fst b)). lra.
        * intros i p Hi Hp. destruct i as [|i].
          -- cbn in Hi. injection Hi as <-. cbn. exists e. ands_; auto; lra.
          -- assert (AB : a = l /\ b = r) by (apply (Hp 0%nat (MkPlane a b cx cy rad None)); [lia | reflexivity]).
             destruct AB as [-> ->]. apply (P5 i p Hi).
             intros j q Hj Hq. apply (Hp (S j) q); [lia | exact Hq].
      + destruct (IH l r ltac:(lia)) as (ps & P1 & P2 & P3 & P4 & P5). rewrite P1.
        exists ps. ands_; auto; lia.
  Qed.
End Family.

Section Pair.
  Context (g : geom R) (G : good_geom g).

  Lemma surface_bounds x : snd (g_bot g) <= surface g x <= snd (g_top g).
  Proof.
    pose proof (grad_nonneg g G). destruct G.
    destruct (Rle_dec x (fst (g_top g))); [rewrite surface_crest by auto; lra|].
    destruct (Rle_dec (fst (g_bot g)) x); [rewrite surface_toe by auto; lra|].
    rewrite surface_face by (auto; lra). nra.
  Qed.

  (** The circles of a pair: at most [n], each with its end points on the
      ground.  A circle preceded only by circles that found the requested
      points again passes through both, its centre above the chord. *)
  Definition pair_circles (l r : R * R) (n : Z) (ps : list (plane R)) : Prop :=
    (Z.of_nat (List.length ps) <= Z.max 0 n)%Z /\ Forall (fresh_plane g) ps /\
    forall i p, nth_error ps i = Some p ->
      (forall j q, (j < i)%nat -> nth_error ps j = Some q -> p_l q = l /\ p_r q = r) ->
      on_circle (p_cx p) (p_cy p) (p_radius p) l /\
      on_circle (p_cx p) (p_cy p) (p_radius p) r /\
      above_chord l r (p_cx p) (p_cy p).

  Lemma generate_planes_spec l r n :
    fst l < fst r ->
    exists ps, generate_planes g l r n = Ok ps /\ pair_circles l r n ps /\
      (snd r <= snd l -> 0 <= fst l + fst r -> 0 <= snd l + snd r ->
       Forall (fun p => 0 <= p_cx p /\ 0 <= p_cy p) ps).
  Proof.
    intros LR. unfold generate_planes.
    destruct (start_circle_spec l r LR) as (edge & E & B). rewrite E. cbn [rbind].
    destruct (chord_pos l r LR) as [L LL]. destruct (chord_angle l r LR) as [CA SA].
    set (len := sqrt _) in *. set (dy := snd l - snd r) in *. set (dx := fst r - fst l) in *.
    assert (D : 0 < dx) by (unfold dx; lra).
    destruct (Z_lt_le_dec 0 n) as [N | N].
    2:{ replace (Z.to_nat n) with 0%nat by lia. exists []. cbn [circles_loop].
        split; auto. split; [|intros; constructor]. split; [cbn; lia|]. split; [constructor|].
        intros [|i] p H; discriminate. }
    destruct (circles_loop_spec g G (atan (dy / dx)) (len / 2) edge n B N (Z.to_nat n) l r
                ltac:(lia)) as (ps & P1 & P2 & P3 & P4 & P5).
    exists ps. split; [exact P1|]. split; [split; [lia|split; [exact P3|]]|].
    - intros i p Hi Hp. destruct (P5 i p Hi Hp) as (e & E1 & E2 & E3 & EX & EY).
      rewrite SA in EX. rewrite CA in EY. set (d := p_radius p - e) in *.
      assert (K : forall u v, u * u + v * v = len * len / 4 ->
                              u * dy + v * dx = 0 ->
                  (u + dy / len * d) * (u + dy / len * d) + (v + dx / len * d) * (v + dx / len * d)
                  = p_radius p * p_radius p).
      { intros u v H1 H2.
        transitivity (u * u + v * v + 2 * (u * dy + v * dx) / len * d
                      + (dy * dy + dx * dx) / (len * len) * (d * d)); [field; lra|].
        rewrite H1, H2, <- LL. rewrite <- E2. field. lra. }
      assert (Q : dy * dy / 4 + dx * dx / 4 = len * len / 4) by lra.
      split; [|split].
      + unfold on_circle. rewrite EX, EY. rewrite <- (K (dx / 2) (- dy / 2)) by lra.
        unfold dx, dy. field. fold dx dy. lra.
      + unfold on_circle. rewrite EX, EY. rewrite <- (K (- dx / 2) (dy / 2)) by lra.
        unfold dx, dy. field. fold dx dy. lra.
      + exists (d / len). split; [apply Rdiv_lt_0_compat; auto|].
        rewrite EX, EY. fold dx dy. split; field; lra.
    - intros RL X Y. apply P4; auto.
      + rewrite SA. apply Rmult_le_pos; [unfold dy; lra|]. apply Rlt_le, Rinv_0_lt_compat; auto.
      + rewrite CA. apply Rlt_le, Rdiv_lt_0_compat; auto.
  Qed.
End Pair.

(** ** C32, C33: circles added by the user *)
Section Added.
  Context {EN : Env}.
  Notation stR := (st R).

  Lemma added_circle (s : stR) x y r :
    reachable s ->
    exists s', exec (AddCircle x y r) s = (Ok tt, s') /\ fst s' = fst s /\
      ((exists l, crossings (s_geom (snd s)) x y r l /\ (List.length l <= 1)%nat /\ s' = s) \/
       (exists a b, end_points (s_geom (snd s)) x y r a b /\
          snd s' = set_s_search [] (set_s_planes
                     (s_planes (snd s) ++ [MkPlane a b x y r None]) (snd s)))).
  Proof.
    intros Hr. apply reachable_inv in Hr as (C & _). pose proof (core_good s C) as G.
    destruct (circle_external_spec _ G x y r) as (il & E & IC).
    cbn [exec]. unfold add_single_circular_plane. rewrite bind_self_get, bind_lift, E.
    destruct (first_two_spec _ _ _ _ _ IC) as [(a & b & F & EP) | (F & L)]; rewrite F.
    - msteps. rewrite ?reset_eff. eexists. split; [reflexivity|]. split; [reflexivity|].
      right. exists a, b. split; auto.
    - eexists. split; [reflexivity|]. split; auto. left. eauto.
  Qed.

  Lemma added_pair (s : stR) lx rx n :
    reachable s -> 0 <= lx -> lx < rx -> rx <= g_ext_l (s_geom (snd s)) ->
    let g := s_geom (snd s) in
    exists s' ps, exec (AddEntryExit lx rx n) s = (Ok tt, s') /\ fst s' = fst s /\
      snd s' = set_s_search [] (set_s_planes (s_planes (snd s) ++ ps) (snd s)) /\
      pair_circles g (lx, surface g lx) (rx, surface g rx) n ps.
  Proof.
    intros Hr L0 LR RE g. apply reachable_inv in Hr as (C & _). pose proof (core_good s C) as G.
    fold g in G, RE.
    destruct (generate_planes_spec g G (lx, surface g lx) (rx, surface g rx) n LR)
      as (ps & P1 & P2 & _).
    cbn [exec]. unfold add_single_entry_exit_plane. rewrite bind_self_get, bind_lift. fold g.
    rewrite !(external_y_R g G).
    assert (Q : forall x, 0 <= x <= g_ext_l g -> Rltb x 0 || Rltb (g_ext_l g) x = false).
    { intros x B. rewrite !(proj2 (Rltb_false _ _)) by lra. reflexivity. }
    rewrite !Q by lra. rewrite P1. msteps. rewrite ?reset_eff.
    do 2 eexists. split; [reflexivity|]. split; [reflexivity|]. split; [reflexivity|]. exact P2.
  Qed.

  (** The order of the two points does not matter. *)
  Lemma circles_loop_swap g beta C edge n k : forall l r : point R,
    circles_loop g beta C edge n k l r = circles_loop g beta C edge n k r l.
  Proof.
    induction k as [|k IH]; intros l r; cbn [circles_loop]; auto.
    replace (mid_coord r l) with (mid_coord l r)
      by (unfold mid_coord; unR; f_equal; f_equal; ring).
    rewrite (IH l r). reflexivity.
  Qed.
  Lemma generate_planes_swap g (l r : point R) n : fst l <> fst r ->
    generate_planes g l r n = generate_planes g r l n.
  Proof.
    intros N. unfold generate_planes.
    assert (E : start_circle l r = start_circle r l).
    { unfold start_circle, pydiv. unR. rewrite ?nsq_R.
      rewrite !(proj2 (Reqb_false _ 0)) by lra. cbn [rbind].
      replace ((snd r - snd l) / (fst l - fst r)) with ((snd l - snd r) / (fst r - fst l))
        by (field; lra).
      replace ((snd r - snd l) * (snd r - snd l) + (fst l - fst r) * (fst l - fst r))
        with ((snd l - snd r) * (snd l - snd r) + (fst r - fst l) * (fst r - fst l)) by ring.
      reflexivity. }
    rewrite E. destruct (start_circle r l) as [[[beta half] edge]|e]; cbn [rbind]; auto.
    apply circles_loop_swap.
  Qed.
  Lemma pair_swap (s : stR) lx rx n : lx <> rx ->
    exec (AddEntryExit lx rx n) s = exec (AddEntryExit rx lx n) s.
  Proof.
    intros N. cbn [exec]. unfold add_single_entry_exit_plane. rewrite !bind_self_get, !bind_lift.
    destruct (external_y _ lx) as [ly|], (external_y _ rx) as [ry|]; auto.
    rewrite (generate_planes_swap _ (lx, ly) (rx, ry)) by exact N. reflexivity.
  Qed.
  Lemma pair_outside (s : stR) lx rx n : reachable s ->
    (lx < 0 \/ g_ext_l (s_geom (snd s)) < lx \/ rx < 0 \/ g_ext_l (s_geom (snd s)) < rx) ->
    exec (AddEntryExit lx rx n) s = (Err TypeError, s).
  Proof.
    intros Hr B. apply reachable_inv in Hr as (C & _). pose proof (core_good s C) as G.
    cbn [exec]. unfold add_single_entry_exit_plane. rewrite bind_self_get, bind_lift.
    rewrite !(external_y_R _ G).
    destruct (Rltb lx 0) eqn:E1, (Rltb _ lx) eqn:E2, (Rltb rx 0) eqn:E3, (Rltb _ rx) eqn:E4;
      cbn [orb]; auto. rbool. lra.
  Qed.
  Lemma pair_vertical (s : stR) x n : reachable s -> 0 <= x <= g_ext_l (s_geom (snd s)) ->
    exec (AddEntryExit x x n) s = (Err ZeroDivisionError, s).
  Proof.
    intros Hr B. apply reachable_inv in Hr as (C & _). pose proof (core_good s C) as G.
    cbn [exec]. unfold add_single_entry_exit_plane. rewrite bind_self_get, bind_lift.
    rewrite !(external_y_R _ G).
    rewrite !(proj2 (Rltb_false _ _)) by lra. cbn [orb].
    unfold generate_planes, start_circle, pydiv. cbn [fst]. unR.
    rewrite (proj2 (Reqb_true (x - x) 0)) by lra. reflexivity.
  Qed.
End Added.

(** ** The grid of the automatic search *)
Section Grid.
  Lemma zrange_In a k z : In z (zrange a k) <-> (a <= z < a + Z.of_nat k)%Z.
  Proof.
    revert a. induction k as [|k IH]; intros a; cbn [zrange In]; [lia|].
    rewrite IH. lia.
  Qed.
  Lemma zrange_length a k : List.length (zrange a k) = k.
  Proof. revert a. induction k as [|k IH]; intros a; cbn; auto. Qed.

  Lemma frac_bounds a b : (0 <= a <= b)%Z -> (0 < b)%Z -> 0 <= IZR a / IZR b <= 1.
  Proof.
    intros H P. assert (0 < IZR b) by (apply IZR_lt; lia).
    assert (0 <= IZR a <= IZR b) by (split; apply IZR_le; lia).
    split; [apply Rmult_le_pos; [lra | apply Rlt_le, Rinv_0_lt_compat; lra]|].
    apply Rmult_le_reg_r with (IZR b); auto. unfold Rdiv. rewrite Rmult_assoc, Rinv_l by lra. lra.
  Qed.

  Lemma spread_left_spec (lim : limits R) k :
    lim_left lim <= lim_left_r lim -> k <> 1%Z ->
    exists xs, spread_left lim k = Ok xs /\ List.length xs = Z.to_nat k /\
      forall x, In x xs -> lim_left lim <= x <= lim_left_r lim.
  Proof.
    intros B K. unfold spread_left.
    erewrite rmapM_map with
      (g := fun n => lim_left lim + IZR n / IZR (k - 1) * (lim_left_r lim - lim_left lim)).
    - eexists. split; [reflexivity|]. split; [now rewrite map_length, zrange_length|].
      intros x H. apply in_map_iff in H as (z & <- & Hz). apply zrange_In in Hz.
      pose proof (frac_bounds z (k - 1) ltac:(lia) ltac:(lia)). nra.
    - intros z Hz. unfold pydiv. unR. rewrite (proj2 (Reqb_false _ 0)); [reflexivity|].
      apply not_0_IZR. lia.
  Qed.
  Lemma spread_left_one (lim : limits R) : spread_left lim 1 = Err ZeroDivisionError.
  Proof.
    unfold spread_left. change (Z.to_nat 1) with 1%nat. cbn [zrange rmapM].
    unfold pydiv. unR. change (1 - 1)%Z with 0%Z. rewrite Reqb_refl. reflexivity.
  Qed.
  Lemma spread_right_spec (lim : limits R) k :
    lim_right_l lim < lim_right lim ->
    exists xs, spread_right lim k = Ok xs /\ List.length xs = Z.to_nat k /\
      forall x, In x xs -> lim_right_l lim < x <= lim_right lim.
  Proof.
    intros B. unfold spread_right.
    erewrite rmapM_map with
      (g := fun n => lim_right_l lim + IZR n / IZR k * (lim_right lim - lim_right_l lim)).
    - eexists. split; [reflexivity|]. split; [now rewrite map_length, zrange_length|].
      intros x H. apply in_map_iff in H as (z & <- & Hz). apply zrange_In in Hz.
      pose proof (frac_bounds z k ltac:(lia) ltac:(lia)).
      assert (0 < IZR z / IZR k).
      { apply Rdiv_lt_0_compat; apply IZR_lt; lia. }
      nra.
    - intros z Hz. apply zrange_In in Hz. unfold pydiv. unR.
      rewrite (proj2 (Reqb_false _ 0)); [reflexivity|]. apply not_0_IZR. lia.
  Qed.

  Lemma num_circles_pos it : (5 <= num_circles_of it)%Z.
  Proof. unfold num_circles_of. lia. Qed.

  Lemma Rtrunc_spec x : 0 <= x -> (IZR (Rtrunc x) <= x < IZR (Rtrunc x) + 1) /\ (0 <= Rtrunc x)%Z.
  Proof.
    intros H. unfold Rtrunc. destruct (Rle_dec 0 x) as [_|N]; [|lra].
    destruct (base_Int_part x) as [A B]. split; [lra|].
    apply Z.lt_succ_r. apply lt_IZR. rewrite succ_IZR. lra.
  Qed.

  (** The number of entry points is the largest whose square grid of pairs,
      times the number of circles, does not exceed the number of iterations. *)
  Lemma num_points_top_spec it : (500 <= it)%Z ->
    let k := num_points_top_of (T := R) it in
    (1 <= k /\ k * k * num_circles_of it <= it < (k + 1) * (k + 1) * num_circles_of it)%Z.
  Proof.
    intros H k. pose proof (num_circles_pos it) as NC.
    set (nc := num_circles_of it) in *.
    assert (P : 0 < IZR nc) by (apply IZR_lt; lia).
    assert (Q : 0 <= IZR it / IZR nc).
    { apply Rmult_le_pos; [apply IZR_le; lia | apply Rlt_le, Rinv_0_lt_compat; auto]. }
    assert (KE : k = Rtrunc (sqrt (IZR it / IZR nc))).
    { unfold k, num_points_top_of. fold nc. unR. reflexivity. }
    clearbody k.
    pose proof (sqrt_pos (IZR it / IZR nc)) as S0.
    pose proof (sqrt_sqrt _ Q) as SS.
    destruct (Rtrunc_spec _ S0) as [[A B] C]. rewrite <- KE in A, B, C.
    set (q := sqrt (IZR it / IZR nc)) in *.
    assert (K0 : 0 <= IZR k) by (apply IZR_le; auto).
    assert (E : q * q * IZR nc = IZR it) by (rewrite SS; field; lra).
    assert (U : (it < (k + 1) * (k + 1) * nc)%Z).
    { apply lt_IZR. rewrite !mult_IZR, plus_IZR. rewrite <- E.
      apply Rmult_lt_compat_r; auto. nra. }
    assert (L : (k * k * nc <= it)%Z).
    { apply le_IZR. rewrite !mult_IZR. rewrite <- E.
      apply Rmult_le_compat_r; [lra|]. nra. }
    split; [|split; auto].
    destruct (Z_lt_le_dec k 1); auto. exfalso. assert (k = 0%Z) by lia.
    rewrite H0 in U.
    assert (nc <= it)%Z; [|lia].
    unfold nc, num_circles_of. assert (it / 800 <= it)%Z by (apply Z.div_le_upper_bound; lia). lia.
  Qed.

  Lemma grow_bot_spec top nc it : (0 < top)%Z -> (0 < nc)%Z ->
    forall fuel bot, (it <= top * (bot + Z.of_nat fuel) * nc)%Z ->
    (bot = top \/ top * (bot - 1) * nc < it)%Z -> (top * top * nc <= it)%Z -> (top <= bot)%Z ->
    let b := grow_bot top nc it fuel bot in
    (top <= b /\ it <= top * b * nc < it + top * nc)%Z.
  Proof.
    intros T N. induction fuel as [|fuel IH]; intros bot F B S L; cbn [grow_bot].
    - cbv zeta. destruct B as [-> | B]; nia.
    - destruct (Z.ltb_spec (top * bot * nc) it) as [Q | Q].
      + apply IH; try nia.
      + cbv zeta. destruct B as [-> | B]; nia.
  Qed.
  Lemma num_points_bot_spec it : (500 <= it)%Z ->
    let top := num_points_top_of (T := R) it in
    let bot := num_points_bot_of (T := R) it in
    let nc := num_circles_of it in
    (top <= bot /\ it <= top * bot * nc < it + top * nc)%Z.
  Proof.
    intros H. pose proof (num_points_top_spec it H) as (T & L & U).
    pose proof (num_circles_pos it). cbv zeta. unfold num_points_bot_of.
    apply grow_bot_spec; try lia. nia.
  Qed.
End Grid.

(** ** C12, C34: the automatic search *)
Lemma concat_length_le {A} (ls : list (list A)) m :
  Forall (fun l => (List.length l <= m)%nat) ls ->
  (List.length (List.concat ls) <= List.length ls * m)%nat.
Proof. induction 1; cbn; [lia|]. rewrite app_length. lia. Qed.

Lemma Forall2_len {A B} (P : A -> B -> Prop) l l' : Forall2 P l l' -> List.length l = List.length l'.
Proof. induction 1; cbn; auto. Qed.
Lemma abs_sq x : Rabs x * Rabs x = x * x.
Proof. rewrite <- Rabs_mult. apply Rabs_right. nra. Qed.

Section Search.
  Context (v : view R) (G : good_geom (v_geom v)) (LO : limits_ok (v_geom v) (v_limits v)).
  Context (IT : (500 <= v_iterations v)%Z).
  Let g := v_geom v.
  Let lim := v_limits v.
  Let nc := num_circles_of (v_iterations v).
  Let top := num_points_top_of (T := R) (v_iterations v).
  Let bot := num_points_bot_of (T := R) (v_iterations v).
  Let loads := (Z.of_nat (List.length (v_lls v)) + Z.of_nat (List.length (v_udls v)))%Z.
  Context (LL : forall c m, In (c, m) (v_lls v) -> 0 <= c <= fst (g_top g)).
  Context (UL : forall a b m, In (a, b, m) (v_udls v) -> 0 <= a <= fst (g_top g)).

  (** the entry points: spread over the limits, or 1 mm left of a load *)
  Definition entry_x (x : R) : Prop :=
    lim_left lim <= x <= lim_left_r lim \/
    (exists c m, In (c, m) (v_lls v) /\ x = c - 1 / 1000) \/
    (exists a b m, In (a, b, m) (v_udls v) /\ x = a - 1 / 1000).

  Lemma left_coords_spec : (top - loads <> 1)%Z ->
    exists ls, left_coords v = Ok ls /\
      (Z.of_nat (List.length ls) = Z.max top loads)%Z /\
      forall l, In l ls -> entry_x (fst l) /\ snd l = snd (g_top g).
  Proof.
    intros K. unfold left_coords. fold top.
    replace (top - Z.of_nat (List.length (v_lls v)) - Z.of_nat (List.length (v_udls v)))%Z
      with (top - loads)%Z by (unfold loads; lia).
    destruct (spread_left_spec lim (top - loads)) as (xs & E & N & B);
      [destruct LO as (_ & LO2 & _); fold lim in LO2; lra | exact K|].
    fold lim. rewrite E. cbn [rbind]. eexists. split; [reflexivity|]. split.
    - rewrite map_length, !app_length, !map_length, N. unfold loads in *. lia.
    - intros l H. apply in_map_iff in H as (x & <- & H). cbn [fst snd]. split; auto.
      apply in_app_iff in H as [H | H]; [left; auto|].
      apply in_app_iff in H as [H | H]; apply in_map_iff in H as (y & <- & H).
      + right; left. destruct y as [c m]. exists c, m. split; auto.
      + right; right. destruct y as [[a b] m]. exists a, b, m. split; auto.
  Qed.
  Lemma left_coords_one : (top - loads = 1)%Z -> left_coords v = Err ZeroDivisionError.
  Proof.
    intros K. unfold left_coords. fold top.
    replace (top - Z.of_nat (List.length (v_lls v)) - Z.of_nat (List.length (v_udls v)))%Z
      with 1%Z by (unfold loads in *; lia).
    now rewrite spread_left_one.
  Qed.
  Lemma entry_left x : entry_x x -> - (1 / 1000) <= x <= fst (g_top g).
  Proof.
    pose proof LO as LO'. fold g lim in LO'. destruct LO' as (L1 & L2 & L3 & _).
    intros [H | [(c & m & H & ->) | (a & b & m & H & ->)]]; [lra| |].
    - apply LL in H. lra.
    - apply UL in H. lra.
  Qed.
  Lemma right_coords_spec :
    exists rs, right_coords v = Ok rs /\ List.length rs = Z.to_nat bot /\
      forall r, In r rs -> lim_right_l lim < fst r <= lim_right lim /\
                           snd r = Some (surface g (fst r)).
  Proof.
    unfold right_coords. fold bot.
    pose proof LO as LO'. fold g lim in LO'. destruct LO' as (L1 & L2 & L3 & L4 & L5 & L6).
    destruct (spread_right_spec lim bot L5) as (xs & E & N & B). fold lim. rewrite E. cbn [rbind].
    eexists. split; [reflexivity|]. split; [now rewrite map_length|].
    intros r H. apply in_map_iff in H as (x & <- & H). cbn [fst snd]. split; auto.
    specialize (B x H). pose proof G as G0. fold g in G0. destruct G0.
    rewrite (external_y_R g G). rewrite !(proj2 (Rltb_false _ _)) by lra. reflexivity.
  Qed.

  (** a circle of the automatic search: the pair it was generated from *)
  Definition trial (p : plane R) : Prop :=
    exists lx rx ps, entry_x lx /\ lim_right_l lim < rx <= lim_right lim /\
      v_min_failure v < sqrt ((lx - rx) * (lx - rx) +
                              (snd (g_top g) - surface g rx) * (snd (g_top g) - surface g rx)) /\
      generate_planes g (lx, snd (g_top g)) (rx, surface g rx) nc = Ok ps /\
      pair_circles g (lx, snd (g_top g)) (rx, surface g rx) nc ps /\ In p ps.

  Lemma pair_total l r : entry_x (fst l) -> snd l = snd (g_top g) ->
    lim_right_l lim < fst r <= lim_right lim -> snd r = Some (surface g (fst r)) ->
    (1 / 1000 <= fst (g_top g)) ->
    exists ps, pair_planes g (v_min_failure v) nc l r = Ok ps /\
      (List.length ps <= Z.to_nat nc)%nat /\
      forall p, In p ps -> trial p /\ fresh_plane g p /\ 0 <= p_cx p /\ 0 <= p_cy p.
  Proof.
    intros EX LY RX RY TX. unfold pair_planes. rewrite RY. unR.
    pose proof (entry_left _ EX) as EL.
    pose proof LO as LO'. fold g lim in LO'. destruct LO' as (L1 & L2 & L3 & L4 & L5 & L6).
    assert (LR : fst l < fst r) by lra.
    destruct (Rltb _ _) eqn:D; rbool.
    2:{ exists []. split; auto. split; [cbn; lia|]. intros p []. }
    destruct l as [lx ly]. cbn [fst snd] in *. subst ly.
    destruct (generate_planes_spec g G (lx, snd (g_top g)) (fst r, surface g (fst r)) nc LR)
      as (ps & P1 & P2 & P3).
    exists ps. split; auto. pose proof (num_circles_pos (v_iterations v)) as NC. fold nc in NC.
    assert (P2' := P2). destruct P2' as (N & F & _). split; [lia|].
    intros p Hp. split.
    - exists lx, (fst r), ps. ands_; auto; try lra.
      unfold dist_points in D. unR. cbn [fst snd] in D.
      rewrite !abs_sq in D.
      exact D.
    - rewrite Forall_forall in F. split; auto.
      cbn [fst snd] in P3. pose proof G as G0. fold g in G0. destruct G0.
      pose proof (surface_bounds g G (fst r)). rewrite Forall_forall in P3. apply P3; auto; lra.
  Qed.

  Lemma search_total : (top - loads <> 1)%Z -> 1 / 1000 <= fst (g_top g) ->
    exists ps, entry_exit_planes v = Ok ps /\
      (Z.of_nat (List.length ps) <= Z.max top loads * bot * nc)%Z /\
      forall p, In p ps -> trial p /\ fresh_plane g p /\ 0 <= p_cx p /\ 0 <= p_cy p.
  Proof.
    intros K TX. unfold entry_exit_planes. fold nc.
    destruct (left_coords_spec K) as (ls & E1 & N1 & B1). rewrite E1. cbn [rbind].
    destruct right_coords_spec as (rs & E2 & N2 & B2). rewrite E2. cbn [rbind].
    set (P := fun p => trial p /\ fresh_plane g p /\ 0 <= p_cx p /\ 0 <= p_cy p).
    assert (ROW : forall l, In l ls ->
              exists row, (let! ps := rmapM (pair_planes (v_geom v) (v_min_failure v) nc l) rs in
                           Ok (List.concat ps)) = Ok row /\
                (List.length row <= Z.to_nat bot * Z.to_nat nc)%nat /\ forall p, In p row -> P p).
    { intros l Hl. destruct (B1 l Hl) as [X1 Y1].
      destruct (rmapM_total (pair_planes g (v_min_failure v) nc l) rs) as (ps & E).
      { intros r Hr. destruct (B2 r Hr) as [X2 Y2].
        destruct (pair_total l r X1 Y1 X2 Y2 TX) as (q & Q & _). eauto. }
      fold g. rewrite E. cbn [rbind]. eexists. split; [reflexivity|].
      assert (A : Forall (fun q => (List.length q <= Z.to_nat nc)%nat /\ forall p, In p q -> P p) ps).
      { apply Forall_forall. intros q Hq. destruct (rmapM_In _ _ _ _ E Hq) as (r & Hr & Er).
        destruct (B2 r Hr) as [X2 Y2].
        destruct (pair_total l r X1 Y1 X2 Y2 TX) as (q' & Q1 & Q2 & Q3).
        rewrite Er in Q1. injection Q1 as <-. split; auto. }
      split.
      - rewrite <- N2. replace (List.length rs) with (List.length ps).
        + apply concat_length_le. eapply Forall_impl; [|exact A]. intros q [H _]; exact H.
        + apply rmapM_ok in E. now apply Forall2_len in E.
      - intros p Hp. apply in_concat in Hp as (q & Hq & Hp).
        rewrite Forall_forall in A. apply (A q Hq). exact Hp. }
    destruct (rmapM_total (fun l => let! ps := rmapM (pair_planes (v_geom v) (v_min_failure v) nc l) rs in
                           Ok (List.concat ps)) ls) as (pls & E).
    { intros l Hl. destruct (ROW l Hl) as (row & Q & _). eauto. }
    rewrite E. cbn [rbind]. eexists. split; [reflexivity|].
    assert (A : Forall (fun q => (List.length q <= Z.to_nat bot * Z.to_nat nc)%nat /\ forall p, In p q -> P p) pls).
    { apply Forall_forall. intros q Hq. destruct (rmapM_In _ _ _ _ E Hq) as (l & Hl & El).
      destruct (ROW l Hl) as (row & Q1 & Q2). rewrite El in Q1. injection Q1 as <-. exact Q2. }
    split.
    - pose proof (num_circles_pos (v_iterations v)) as NC. fold nc in NC.
      assert (B : (List.length (List.concat pls) <= List.length ls * (Z.to_nat bot * Z.to_nat nc))%nat).
      { replace (List.length ls) with (List.length pls).
        - apply concat_length_le. eapply Forall_impl; [|exact A]. intros q [H _]; exact H.
        - apply rmapM_ok in E. apply Forall2_len in E. auto. }
      destruct (num_points_bot_spec _ IT) as (T & _). fold top bot in T.
      destruct (num_points_top_spec _ IT) as (T' & _). fold top in T'.
      assert (Z.of_nat (List.length ls * (Z.to_nat bot * Z.to_nat nc)) = Z.max top loads * bot * nc)%Z.
      { rewrite !Nat2Z.inj_mul, N1, !Z2Nat.id by lia. ring. }
      lia.
    - intros p Hp. apply in_concat in Hp as (q & Hq & Hp).
      rewrite Forall_forall in A. apply (A q Hq). exact Hp.
  Qed.
End Search.
