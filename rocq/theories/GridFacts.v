(** * GridFacts: exactly which circles a pair of points and the automatic search
    produce (C33, C34). *)
From Coq Require Import ZArith Reals Lra Lia List Bool.
From Verif Require Import Num Py Validation Utilities Objects Slope Planes Analysis
     Dynamic Api RealNum RealFacts ListFacts MonadFacts SlopeFacts Invariant
     History Spec EditFacts GroundFacts CircleFacts SearchFacts PlaneFacts ViewFacts FosFacts.
Import ListNotations.
Local Open Scope R_scope.

(** ** Specification *)
(** Length of the chord between two points, and the radius of the first circle:
    1.1 times that of the circle through both points that is vertical at the
    left one *)
Definition chord (l r : R * R) : R :=
  sqrt ((snd l - snd r) * (snd l - snd r) + (fst r - fst l) * (fst r - fst l)).
Definition first_radius (l r : R * R) : R :=
  11 / 10 * (chord l r * chord l r / (2 * (fst r - fst l))).
(** Height of its arc over the chord; circle [k] of [n], counted down from [n],
    has [k/n] of that height *)
Definition first_rise (l r : R * R) : R :=
  first_radius l r - sqrt (first_radius l r * first_radius l r - chord l r / 2 * (chord l r / 2)).
Definition rise (l r : R * R) (n : Z) (k : nat) : R :=
  first_rise l r * IZR (Z.of_nat k) / IZR n.
(** Radius of a circle with a chord of that length and an arc of height [e] *)
Definition rise_radius (l r : R * R) (e : R) : R :=
  (chord l r / 2 * (chord l r / 2) + e * e) / (2 * e).
(** The circles of a pair [l0], [r0]: each is set over the middle of the present
    points [l], [r], perpendicular to the original chord; it is left out when it
    meets the ground less than twice, and otherwise its end points become the
    present points. *)
Section Family.
  Context (g : geom R) (l0 r0 : R * R) (n : Z).
  Definition circle_k (k : nat) (l r : R * R) (cx cy rad : R) : Prop :=
    let e := rise l0 r0 n k in
    rad = rise_radius l0 r0 e /\
    cx = (fst l + fst r) / 2 + (snd l0 - snd r0) / chord l0 r0 * (rad - e) /\
    cy = (snd l + snd r) / 2 + (fst r0 - fst l0) / chord l0 r0 * (rad - e).
  Inductive family : nat -> R * R -> R * R -> list (plane R) -> Prop :=
  | family_none l r : family 0 l r []
  | family_skip k l r cx cy rad il ps :
      circle_k (S k) l r cx cy rad -> crossings g cx cy rad il -> (List.length il <= 1)%nat ->
      family k l r ps -> family (S k) l r ps
  | family_keep k l r cx cy rad a b ps :
      circle_k (S k) l r cx cy rad -> end_points g cx cy rad a b ->
      family k a b ps -> family (S k) l r (MkPlane a b cx cy rad None :: ps).
End Family.

(** The grid of the automatic search: entry points spread over the left limits
    and one 1 mm left of each load, exit points spread over the right limits *)
Definition entries (lim : limits R) (k : Z) (loads : list R) : list R :=
  map (fun i => lim_left lim + IZR i / IZR (k - 1) * (lim_left_r lim - lim_left lim))
      (zrange 0 (Z.to_nat k))
  ++ map (fun x => x - 1 / 1000) loads.
Definition exits (lim : limits R) (k : Z) : list R :=
  map (fun i => lim_right_l lim + IZR i / IZR k * (lim_right lim - lim_right_l lim))
      (zrange 1 (Z.to_nat k)).

(** ** A pair *)
Section Pair.
  Context (g : geom R) (G : good_geom g).

  Lemma start_exact l r : fst l < fst r ->
    start_circle l r = Ok (atan ((snd l - snd r) / (fst r - fst l)), chord l r / 2, first_rise l r).
  Proof.
    intros LR. destruct (start_circle_spec l r LR) as (edge & E & _). rewrite E. do 2 f_equal.
    revert E. unfold start_circle, pydiv, pysqrt. unR.
    destruct (chord_pos l r LR) as [L LL]. destruct (chord_angle l r LR) as [CA SA].
    assert (D : 0 < fst r - fst l) by lra.
    rewrite (proj2 (Reqb_false (fst r - fst l) 0)) by lra. cbn [rbind].
    rewrite CA. fold (chord l r) in L, LL |- *. rewrite (proj2 (Reqb_false _ 0)).
    2:{ apply Rgt_not_eq, Rdiv_lt_0_compat; auto. }
    cbn [rbind]. rewrite ?nsq_R.
    replace (chord l r / 2 / ((fst r - fst l) / chord l r) * (11 / 10)) with (first_radius l r)
      by (unfold first_radius; field; lra).
    destruct (Rltb _ 0); cbn [rbind]; [discriminate|]. intros E. injection E as E. rewrite <- E.
    reflexivity.
  Qed.
  Lemma first_rise_bounds l r : fst l < fst r -> 0 < first_rise l r < chord l r / 2.
  Proof.
    intros LR. destruct (start_circle_spec l r LR) as (edge & E & B).
    rewrite (start_exact l r LR) in E. injection E as <-. exact B.
  Qed.

  Lemma loop_family l0 r0 n : fst l0 < fst r0 -> (0 < n)%Z ->
    forall k l r ps, (Z.of_nat k <= n)%Z ->
    circles_loop g (atan ((snd l0 - snd r0) / (fst r0 - fst l0))) (nsq (chord l0 r0 / 2))
                 (first_rise l0 r0) n k l r = Ok ps ->
    family g l0 r0 n k l r ps.
  Proof.
    intros LR N. induction k as [|k IH]; intros l r ps K; cbn [circles_loop].
    - intros E. injection E as <-. constructor.
    - pose proof (first_rise_bounds l0 r0 LR) as B.
      pose proof (edge_bounds (first_rise l0 r0) (chord l0 r0 / 2) n k B N ltac:(lia)) as EB.
      destruct (chord_angle l0 r0 LR) as [CA SA]. fold (chord l0 r0) in CA, SA.
      unfold pydiv. unR. rewrite ?nz_R in *.
      rewrite (proj2 (Reqb_false (IZR n) 0)) by (apply not_0_IZR; lia). cbn [rbind].
      fold (rise l0 r0 n (S k)). fold (rise l0 r0 n (S k)) in EB.
      set (e := rise l0 r0 n (S k)) in *.
      unfold circle_radius_from_abcd, pydiv. unR. rewrite ?nsq_R.
      rewrite (proj2 (Reqb_false (2 * e) 0)) by lra. cbn [rbind].
      fold (rise_radius l0 r0 e). unfold circle_centre, mid_coord. unR. cbn [fst snd].
      rewrite CA, SA. set (rad := rise_radius l0 r0 e).
      assert (C : circle_k l0 r0 n (S k) l r
        ((fst l + fst r) / 2 + (snd l0 - snd r0) / chord l0 r0 * (rad - e))
        ((snd l + snd r) / 2 + (fst r0 - fst l0) / chord l0 r0 * (rad - e)) rad).
      { split; [reflexivity|]. split; reflexivity. }
      destruct (circle_external_spec g G
        ((fst l + fst r) / 2 + (snd l0 - snd r0) / chord l0 r0 * (rad - e))
        ((snd l + snd r) / 2 + (fst r0 - fst l0) / chord l0 r0 * (rad - e)) rad) as (il & Q & CR).
      rewrite Q. cbn [rbind].
      destruct (first_two_spec g _ _ _ il CR) as [(a & b & F & EP)|(F & LE)]; rewrite F.
      + destruct (circles_loop g _ _ _ n k a b) as [rest|] eqn:ER; cbn [rbind]; [|discriminate].
        intros E. injection E as <-. apply family_keep; auto. apply IH; [lia|].
        rewrite <- ER. unR. rewrite ?nsq_R. reflexivity.
      + intros E. eapply family_skip; eauto. apply IH; [lia|].
        rewrite <- E. unR. rewrite ?nsq_R. reflexivity.
  Qed.
  Lemma generate_family l r n ps : fst l < fst r -> generate_planes g l r n = Ok ps ->
    family g l r n (Z.to_nat n) l r ps.
  Proof.
    intros LR. unfold generate_planes. rewrite (start_exact l r LR). cbn [rbind].
    destruct (Z_lt_le_dec 0 n) as [N|N].
    - apply loop_family; auto. lia.
    - replace (Z.to_nat n) with 0%nat by lia. cbn. intros E. injection E as <-. constructor.
  Qed.
End Pair.

(** The circles of a pair are determined. *)
Lemma family_det g l0 r0 n k l r ps : family g l0 r0 n k l r ps ->
  forall ps', family g l0 r0 n k l r ps' -> ps' = ps.
Proof.
  induction 1 as [l r|k l r cx cy rad il ps C CR LE F IH|k l r cx cy rad a b ps C EP F IH];
    intros ps' F'; inversion F' as [|k' l' r' cx' cy' rad' il' qs C' CR' LE' F''|k' l' r' cx' cy' rad' a' b' qs C' EP' F'']; subst; auto.
  - exfalso. destruct C as (-> & -> & ->), C' as (-> & -> & ->). eapply end_points_two; eauto.
  - exfalso. destruct C as (-> & -> & ->), C' as (-> & -> & ->). eapply end_points_two; eauto.
  - destruct C as (-> & -> & ->), C' as (-> & -> & ->).
    destruct (end_points_det _ _ _ _ _ _ _ _ EP EP') as (-> & ->). f_equal. auto.
Qed.

(** ** The search *)
Section Grid.
  Context (v : view R) (G : good_geom (v_geom v)) (LO : limits_ok (v_geom v) (v_limits v)).
  Context (LL : forall c m, In (c, m) (v_lls v) -> 0 <= c <= fst (g_top (v_geom v))).
  Context (UL : forall a b m, In (a, b, m) (v_udls v) -> 0 <= a <= fst (g_top (v_geom v))).
  Let g := v_geom v.
  Let top := num_points_top_of (T := R) (v_iterations v).
  Let bot := num_points_bot_of (T := R) (v_iterations v).
  Let nc := num_circles_of (v_iterations v).
  Let loads := (map fst (v_lls v) ++ map (fun u => fst (fst u)) (v_udls v))%list.
  Let k := (top - Z.of_nat (List.length loads))%Z.

  Lemma left_exact : k <> 1%Z ->
    left_coords v = Ok (map (fun x => (x, snd (g_top g))) (entries (v_limits v) k loads)).
  Proof.
    intros K. unfold left_coords. fold top.
    replace (top - Z.of_nat (List.length (v_lls v)) - Z.of_nat (List.length (v_udls v)))%Z with k
      by (unfold k, loads; rewrite app_length, !map_length; lia).
    unfold spread_left. rewrite (rmapM_map _ (fun i => lim_left (v_limits v) +
      IZR i / IZR (k - 1) * (lim_left_r (v_limits v) - lim_left (v_limits v)))).
    - cbn [rbind]. do 2 f_equal. unfold entries, loads. f_equal.
      rewrite map_app, !map_map. f_equal.
    - intros i _. unfold pydiv. unR. rewrite (proj2 (Reqb_false (IZR (k - 1)) 0)); [reflexivity|].
      apply not_0_IZR. lia.
  Qed.
  Lemma right_exact :
    right_coords v = Ok (map (fun x => (x, Some (surface g x))) (exits (v_limits v) bot)).
  Proof.
    destruct (right_coords_spec v G LO) as (rs & E & _ & P). rewrite E. f_equal.
    revert E P. unfold right_coords, spread_right. fold bot.
    destruct (Z_lt_le_dec 0 bot) as [B|B].
    2:{ replace (Z.to_nat bot) with 0%nat by lia. cbn. intros E _. injection E as <-.
        unfold exits. replace (Z.to_nat bot) with 0%nat by lia. reflexivity. }
    rewrite (rmapM_map _ (fun i => lim_right_l (v_limits v) +
      IZR i / IZR bot * (lim_right (v_limits v) - lim_right_l (v_limits v)))).
    - cbn [rbind]. intros E P. injection E as <-. fold (exits (v_limits v) bot) in *.
      apply map_ext_in. intros x I. f_equal.
      apply (P (x, external_y (v_geom v) x)). apply in_map_iff. eauto.
    - intros i _. unfold pydiv. unR. rewrite (proj2 (Reqb_false (IZR bot) 0)); [reflexivity|].
      apply not_0_IZR. lia.
  Qed.

  (** The circles of the pair with entry [lx] and exit [rx] *)
  Definition pair_of (lx rx : R) (ps : list (plane R)) : Prop :=
    let l := (lx, snd (g_top g)) in let r := (rx, surface g rx) in
    if Rlt_dec (v_min_failure v) (chord l r)
    then family g l r nc (Z.to_nat nc) l r ps else ps = [].
  Lemma dist_chord l r : dist_points (T := R) l r = chord l r.
  Proof.
    unfold dist_points, chord. unR. rewrite ?nsq_R, !abs_sq. f_equal. ring.
  Qed.
  Lemma pair_exact lx rx ps : lx < rx ->
    pair_planes g (v_min_failure v) nc (lx, snd (g_top g)) (rx, Some (surface g rx)) = Ok ps ->
    pair_of lx rx ps.
  Proof.
    intros LR. unfold pair_planes. cbn [fst snd]. rewrite dist_chord. unR.
    unfold pair_of. destruct (Rlt_dec _ _) as [L|L].
    - rewrite (proj2 (Rltb_true _ _) L). apply generate_family; auto.
    - rewrite (proj2 (Rltb_false _ _)) by lra. intros E. now injection E as <-.
  Qed.

  Lemma exits_in x : In x (exits (v_limits v) bot) -> lim_right_l (v_limits v) < x <= lim_right (v_limits v).
  Proof.
    intros I. destruct (right_coords_spec v G LO) as (rs & E & _ & P).
    rewrite right_exact in E. injection E as <-.
    apply (P (x, Some (surface g x))). apply in_map_iff. eauto.
  Qed.
  Lemma entries_in x : k <> 1%Z -> In x (entries (v_limits v) k loads) -> entry_x v x.
  Proof.
    intros K I.
    destruct (left_coords_spec v LO) as (ls & E & _ & P).
    { unfold k, loads in K. rewrite app_length, !map_length in K.
      fold top. lia. }
    rewrite (left_exact K) in E. injection E as <-.
    apply (P (x, snd (g_top g))). apply in_map_iff. eauto.
  Qed.

  Lemma search_exact : k <> 1%Z -> 1 / 1000 <= fst (g_top g) ->
    exists f, (forall lx rx, In lx (entries (v_limits v) k loads) -> In rx (exits (v_limits v) bot) ->
                 pair_of lx rx (f lx rx)) /\
      entry_exit_planes v = Ok (List.concat (map (fun lx =>
        List.concat (map (f lx) (exits (v_limits v) bot))) (entries (v_limits v) k loads))).
  Proof.
    intros K CR.
    set (f := fun lx rx =>
      match pair_planes g (v_min_failure v) nc (lx, snd (g_top g)) (rx, Some (surface g rx)) with
      | Ok ps => ps | Err _ => [] end).
    assert (T : forall lx rx, In lx (entries (v_limits v) k loads) -> In rx (exits (v_limits v) bot) ->
       pair_planes g (v_min_failure v) nc (lx, snd (g_top g)) (rx, Some (surface g rx)) = Ok (f lx rx)
       /\ lx < rx).
    { intros lx rx I J. pose proof (entries_in lx K I) as EN. pose proof (exits_in rx J) as EX.
      destruct (pair_total v G LO LL UL (lx, snd (g_top g)) (rx, Some (surface g rx))) as (ps & E & _);
        auto. fold g nc in E. split; [unfold f; now rewrite E|].
      pose proof (entry_left v LO LL UL lx EN) as [_ A].
      pose proof LO as (_ & _ & _ & L4 & _). lra. }
    exists f. split.
    - intros lx rx I J. destruct (T lx rx I J) as (E & L). now apply pair_exact.
    - unfold entry_exit_planes. fold nc g. rewrite (left_exact K). cbn [rbind].
      rewrite right_exact. cbn [rbind].
      rewrite (rmapM_map _ (fun l_c : point R => List.concat (map (f (fst l_c)) (exits (v_limits v) bot)))).
      + cbn [rbind]. rewrite map_map. reflexivity.
      + intros l_c I. apply in_map_iff in I as (lx & <- & I). cbn [fst].
        rewrite (rmapM_map _ (fun r : R * option R => f lx (fst r))).
        * cbn [rbind]. rewrite map_map. reflexivity.
        * intros r J. apply in_map_iff in J as (rx & <- & J). cbn [fst].
          apply (T lx rx I J).
  Qed.
End Grid.

(** ** For histories *)
Section States.
  Context {EN : Env}.
  Notation stR := (st R).
  (** Where the entry points next to the loads are: left ends of the loads *)
  Definition load_ends (v : view R) : list R := map fst (v_lls v) ++ map (fun u => fst (fst u)) (v_udls v).
  Lemma search_state (s : stR) v : reachable s -> offsets_ok s -> view_of s = Ok v ->
    let g := s_geom (snd s) in
    let lim := s_limits (snd s) in
    let top := num_points_top_of (T := R) (s_iterations (snd s)) in
    let bot := num_points_bot_of (T := R) (s_iterations (snd s)) in
    let nc := num_circles_of (s_iterations (snd s)) in
    let k := (top - Z.of_nat (List.length (load_ends v)))%Z in
    k <> 1%Z ->
    exists f, (forall lx rx, In lx (entries lim k (load_ends v)) -> In rx (exits lim bot) ->
                 let l := (lx, snd (g_top g)) in let r := (rx, surface g rx) in
                 if Rlt_dec (s_min_failure (snd s)) (chord l r)
                 then family g l r nc (Z.to_nat nc) l r (f lx rx) else f lx rx = []) /\
      entry_exit_planes v = Ok (List.concat (map (fun lx =>
        List.concat (map (f lx) (exits lim bot))) (entries lim k (load_ends v)))).
  Proof.
    intros RS O E g lim top bot nc k K.
    destruct (view_sound s RS) as (v0 & E0 & S). assert (v0 = v) by congruence. subst v0.
    pose proof (search_exact v (so_good _ _ S) (so_lim _ _ S)
      (so_lls_top _ _ S O) (fun a b m I => proj1 (so_udls_top _ _ S O a b m I))) as Q.
    unfold pair_of in Q. cbv zeta in Q.
    rewrite (so_geom _ _ S), (so_lim_eq _ _ S), (so_iter_eq _ _ S), (so_fail _ _ S) in Q.
    apply Q; [exact K|]. rewrite <- (so_geom _ _ S). apply S.
  Qed.
  Lemma pair_state (s : stR) lx rx n : reachable s -> 0 <= lx -> lx < rx ->
    rx <= g_ext_l (s_geom (snd s)) ->
    let g := s_geom (snd s) in
    let l := (lx, surface g lx) in let r := (rx, surface g rx) in
    exists s' ps, exec (AddEntryExit lx rx n) s = (Ok tt, s') /\
      s_planes (snd s') = s_planes (snd s) ++ ps /\
      family g l r n (Z.to_nat n) l r ps.
  Proof.
    intros RS A B C g l r.
    pose proof (core_good s (proj1 (reachable_inv s RS))) as G.
    destruct (generate_planes_spec g G l r n B) as (ps & E & _).
    cbn [exec]. unfold add_single_entry_exit_plane. rewrite bind_self_get, bind_lift. fold g.
    rewrite !(external_y_R g G). fold g in C.
    assert (Q : forall x, 0 <= x <= g_ext_l g -> Rltb x 0 || Rltb (g_ext_l g) x = false).
    { intros x D. rewrite !(proj2 (Rltb_false _ _)) by lra. reflexivity. }
    rewrite !Q by lra. fold l r. rewrite E. msteps. rewrite ?reset_eff.
    do 2 eexists. split; [reflexivity|]. split; [reflexivity|]. apply generate_family; auto.
  Qed.
End States.
