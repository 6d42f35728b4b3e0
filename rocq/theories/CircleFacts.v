(** * CircleFacts: circles, lines and the ground surface (C31, C32). *)
From Coq Require Import ZArith Reals Lra Lia List Bool String Permutation Sorted.
From Verif Require Import Num Py Validation Utilities Objects Slope Planes Analysis
     Dynamic Api RealNum RealFacts ListFacts MonadFacts SlopeFacts MaterialFacts Invariant
     History Spec EditFacts GroundFacts.
Import ListNotations.
Local Open Scope R_scope.

(** ** Vocabulary *)
Definition on_circle (cx cy r : R) (p : R * R) : Prop :=
  (fst p - cx) * (fst p - cx) + (snd p - cy) * (snd p - cy) = r * r.
Definition on_line (a b p : R * R) : Prop :=
  exists t, p = (fst a + t * (fst b - fst a), snd a + t * (snd b - snd a)).
(** distance of a point from the line through [a] and [b] *)
Definition line_dist (a b c : R * R) : R :=
  Rabs ((fst b - fst a) * (snd c - snd a) - (snd b - snd a) * (fst c - fst a)) /
  sqrt ((fst b - fst a) * (fst b - fst a) + (snd b - snd a) * (snd b - snd a)).

Lemma sum_sq_pos x y : x <> 0 \/ y <> 0 -> 0 < x * x + y * y.
Proof.
  intros [H | H].
  - assert (0 < x * x) by (apply Rsqr_pos_lt in H; exact H).
    assert (0 <= y * y) by nra. lra.
  - assert (0 < y * y) by (apply Rsqr_pos_lt in H; exact H).
    assert (0 <= x * x) by nra. lra.
Qed.

(** the two candidate points, for a sign *)
Definition hit (cx cy dx dy D s : R) : R * R :=
  ((D * dy + dx * s) / (dx * dx + dy * dy) + cx,
   (- (D * dx) + dy * s) / (dx * dx + dy * dy) + cy).

Lemma cirle_eff (a b : R * R) cx cy r :
  a <> b ->
  let dx := fst b - fst a in
  let dy := snd b - snd a in
  let D := (fst a - cx) * (snd b - cy) - (fst b - cx) * (snd a - cy) in
  let disc := r * r * (dx * dx + dy * dy) - D * D in
  let sg := if Rltb dy 0 then -1 else 1 in
  cirle_line_intersection a b cx cy r =
  Ok (if Rltb disc 0 then []
      else if Reqb disc 0 then [hit cx cy dx dy D (sg * sqrt disc)]
      else [hit cx cy dx dy D (sg * sqrt disc); hit cx cy dx dy D (- sg * sqrt disc)]).
Proof.
  intros Hab dx dy D disc sg.
  assert (Hd : 0 < dx * dx + dy * dy).
  { apply sum_sq_pos. unfold dx, dy. destruct a as [ax ay], b as [bx by_]; cbn [fst snd] in *.
    destruct (Req_dec (bx - ax) 0); auto. destruct (Req_dec (by_ - ay) 0); auto.
    exfalso. apply Hab. f_equal; lra. }
  unfold cirle_line_intersection. unR.
  replace (fst b - cx - (fst a - cx)) with dx by (unfold dx; ring).
  replace (snd b - cy - (snd a - cy)) with dy by (unfold dy; ring).
  rewrite sqrt_sqrt by lra. fold D.
  rewrite (Rabs_right (r * r * (dx * dx + dy * dy))).
  2:{ apply Rle_ge, Rmult_le_pos; nra. }
  rewrite (Rabs_right (D * D)) by nra. fold disc.
  destruct (Rltb disc 0) eqn:E; [reflexivity|]. rbool.
  unfold pydiv. unR. rewrite !(proj2 (Reqb_false (dx * dx + dy * dy) 0)) by lra.
  cbn [rbind].
  assert (A : forall k, (0 - D * dx + Rabs dy * k) = - (D * dx) + dy * (sg * k)).
  { intros k. unfold sg. destruct (Rltb dy 0) eqn:Q; rbool;
      [rewrite Rabs_left by lra | rewrite Rabs_right by lra]; ring. }
  assert (A' : forall k, (0 - D * dx - Rabs dy * k) = - (D * dx) + dy * (- sg * k)).
  { intros k. unfold sg. destruct (Rltb dy 0) eqn:Q; rbool;
      [rewrite Rabs_left by lra | rewrite Rabs_right by lra]; ring. }
  assert (B : forall k, D * dy + (if Rltb dy 0 then -1 else 1) * dx * k = D * dy + dx * (sg * k)).
  { intros k. unfold sg. ring. }
  assert (B' : forall k, D * dy - (if Rltb dy 0 then -1 else 1) * dx * k = D * dy + dx * (- sg * k)).
  { intros k. unfold sg. ring. }
  unfold hit. rewrite !A, !A', !B, !B'.
  destruct (Reqb disc 0); reflexivity.
Qed.

Section Line.
  Context (a b : R * R) (cx cy r : R) (Hab : a <> b).
  Let dx := fst b - fst a.
  Let dy := snd b - snd a.
  Let D := (fst a - cx) * (snd b - cy) - (fst b - cx) * (snd a - cy).
  Let disc := r * r * (dx * dx + dy * dy) - D * D.

  Lemma len_pos : 0 < dx * dx + dy * dy.
  Proof.
    apply sum_sq_pos. unfold dx, dy. destruct a as [ax ay], b as [bx by_]; cbn [fst snd] in *.
    destruct (Req_dec (bx - ax) 0); auto. destruct (Req_dec (by_ - ay) 0); auto.
    exfalso. apply Hab. f_equal; lra.
  Qed.
  Lemma on_line_iff p : on_line a b p <-> (fst p - cx) * dy - (snd p - cy) * dx = D.
  Proof.
    pose proof len_pos as L. unfold on_line. split.
    - intros (t & ->). unfold D, dx, dy. cbn [fst snd]. ring.
    - intros H. destruct p as [x y]; cbn [fst snd] in *.
      exists (((x - fst a) * dx + (y - snd a) * dy) / (dx * dx + dy * dy)).
      assert (E : (x - fst a) * dy = (y - snd a) * dx) by (unfold D, dx, dy in *; lra).
      assert (E1 : (x - fst a) * (dx * dx + dy * dy) = ((x - fst a) * dx + (y - snd a) * dy) * dx).
      { transitivity ((x - fst a) * dx * dx + ((x - fst a) * dy) * dy); [ring|]. rewrite E. ring. }
      assert (E2 : (y - snd a) * (dx * dx + dy * dy) = ((x - fst a) * dx + (y - snd a) * dy) * dy).
      { transitivity (((y - snd a) * dx) * dx + (y - snd a) * dy * dy); [ring|]. rewrite <- E. ring. }
      f_equal.
      + fold dx. apply Rmult_eq_reg_r with (dx * dx + dy * dy); [|lra].
        transitivity (fst a * (dx * dx + dy * dy) + ((x - fst a) * dx + (y - snd a) * dy) * dx).
        * rewrite <- E1. ring.
        * field. lra.
      + fold dy. apply Rmult_eq_reg_r with (dx * dx + dy * dy); [|lra].
        transitivity (snd a * (dx * dx + dy * dy) + ((x - fst a) * dx + (y - snd a) * dy) * dy).
        * rewrite <- E2. ring.
        * field. lra.
  Qed.

  Lemma hit_line s : on_line a b (hit cx cy dx dy D s).
  Proof.
    pose proof len_pos. apply on_line_iff. unfold hit. cbn [fst snd]. field. lra.
  Qed.
  Lemma hit_circle s : s * s = disc -> on_circle cx cy r (hit cx cy dx dy D s).
  Proof.
    pose proof len_pos as L. intros H. unfold on_circle, hit. cbn [fst snd].
    transitivity ((D * D + s * s) / (dx * dx + dy * dy)); [field; lra|].
    rewrite H. unfold disc. field. lra.
  Qed.
  Lemma hit_complete p : on_line a b p -> on_circle cx cy r p ->
    exists s, s * s = disc /\ p = hit cx cy dx dy D s.
  Proof.
    pose proof len_pos as L. rewrite on_line_iff. unfold on_circle. intros HL HC.
    destruct p as [x y]; cbn [fst snd] in *.
    exists ((x - cx) * dx + (y - cy) * dy). split.
    - unfold disc. rewrite <- HC, <- HL. ring.
    - unfold hit. rewrite <- HL. f_equal; field; lra.
  Qed.
  Lemma hit_inj s s' : hit cx cy dx dy D s = hit cx cy dx dy D s' -> s = s'.
  Proof.
    pose proof len_pos as L. unfold hit. intros H. injection H as H1 H2.
    assert (E1 : dx * s = dx * s').
    { assert ((D * dy + dx * s) / (dx * dx + dy * dy) * (dx * dx + dy * dy) =
              (D * dy + dx * s') / (dx * dx + dy * dy) * (dx * dx + dy * dy)) as Q
        by (f_equal; lra).
      unfold Rdiv in Q. rewrite !Rmult_assoc, !Rinv_l in Q by lra. lra. }
    assert (E2 : dy * s = dy * s').
    { assert ((- (D * dx) + dy * s) / (dx * dx + dy * dy) * (dx * dx + dy * dy) =
              (- (D * dx) + dy * s') / (dx * dx + dy * dy) * (dx * dx + dy * dy)) as Q
        by (f_equal; lra).
      unfold Rdiv in Q. rewrite !Rmult_assoc, !Rinv_l in Q by lra. lra. }
    apply Rmult_eq_reg_l with (dx * dx + dy * dy); [|lra].
    transitivity (dx * (dx * s) + dy * (dy * s)); [ring|]. rewrite E1, E2. ring.
  Qed.

  Lemma line_dist_sq : line_dist a b (cx, cy) * line_dist a b (cx, cy) * (dx * dx + dy * dy) = D * D.
  Proof.
    pose proof len_pos as L. unfold line_dist. cbn [fst snd]. fold dx dy.
    replace (dx * (cy - snd a) - dy * (cx - fst a)) with D by (unfold D, dx, dy; ring).
    transitivity (Rabs D * Rabs D * ((dx * dx + dy * dy) / (sqrt (dx * dx + dy * dy) * sqrt (dx * dx + dy * dy)))).
    - field. apply Rgt_not_eq, sqrt_lt_R0. lra.
    - rewrite sqrt_sqrt by lra. unfold Rdiv. rewrite Rinv_r by lra.
      rewrite <- Rabs_mult. rewrite Rabs_right by nra. ring.
  Qed.
  Lemma line_dist_nonneg : 0 <= line_dist a b (cx, cy).
  Proof.
    unfold line_dist. apply Rmult_le_pos; [apply Rabs_pos|].
    apply Rlt_le, Rinv_0_lt_compat, sqrt_lt_R0. apply len_pos.
  Qed.
  Lemma disc_dist : disc = (r * r - line_dist a b (cx, cy) * line_dist a b (cx, cy)) * (dx * dx + dy * dy).
  Proof. unfold disc. rewrite Rmult_minus_distr_r, line_dist_sq. ring. Qed.

  Lemma disc_sign : 0 <= r ->
    (line_dist a b (cx, cy) < r <-> 0 < disc) /\ (line_dist a b (cx, cy) = r <-> disc = 0) /\
    (r < line_dist a b (cx, cy) <-> disc < 0).
  Proof.
    intros Hr. pose proof len_pos as L. pose proof line_dist_nonneg as N. pose proof disc_dist as E.
    set (d := line_dist a b (cx, cy)) in *.
    assert (A : d < r -> 0 < disc) by (intros; rewrite E; apply Rmult_lt_0_compat; nra).
    assert (B : d = r -> disc = 0) by (intros Q; rewrite E, Q; ring).
    assert (C : r < d -> disc < 0).
    { intros. rewrite E. assert (r * r - d * d < 0) by nra. nra. }
    destruct (Rtotal_order d r) as [H | [H | H]]; repeat split; intros; try lra;
      try (specialize (A H)); try (specialize (B H)); try (specialize (C H)); try lra; auto.
  Qed.

  (** C31 *)
  Lemma intersection_spec : 0 <= r ->
    exists l, cirle_line_intersection a b cx cy r = Ok l /\
      (forall p, In p l <-> on_circle cx cy r p /\ on_line a b p) /\ NoDup l /\
      (line_dist a b (cx, cy) < r -> List.length l = 2%nat) /\
      (line_dist a b (cx, cy) = r -> List.length l = 1%nat) /\
      (r < line_dist a b (cx, cy) -> l = []).
  Proof.
    intros Hr. destruct (disc_sign Hr) as (S1 & S2 & S3).
    eexists. split; [apply cirle_eff, Hab|]. cbv zeta.
    fold dx. fold dy. fold D. fold disc.
    set (sg := if Rltb dy 0 then -1 else 1).
    assert (SG : sg * sg = 1) by (unfold sg; destruct (Rltb dy 0); ring).
    assert (SQ : forall k, k * k = disc -> 0 <= disc -> k = sg * sqrt disc \/ k = - sg * sqrt disc).
    { intros k Hk P. assert (Q : (k - sg * sqrt disc) * (k + sg * sqrt disc) = 0).
      { transitivity (k * k - sg * sg * (sqrt disc * sqrt disc)); [ring|].
        rewrite SG, sqrt_sqrt, Hk by lra. ring. }
      apply Rmult_integral in Q as [Q | Q]; [left | right]; lra. }
    assert (HS : 0 <= disc -> (sg * sqrt disc) * (sg * sqrt disc) = disc).
    { intros P. transitivity (sg * sg * (sqrt disc * sqrt disc)); [ring|].
      rewrite SG, sqrt_sqrt by lra. ring. }
    assert (HS' : 0 <= disc -> (- sg * sqrt disc) * (- sg * sqrt disc) = disc).
    { intros P. rewrite <- (HS P) at 3. ring. }
    destruct (Rltb disc 0) eqn:E1; rbool.
    - split; [|split; [constructor|split; [|split; [|reflexivity]]]].
      + intros p. split; [intros []|]. intros [C L].
        destruct (hit_complete p L C) as (k & K & _).
        assert (0 <= k * k) by nra. lra.
      + intros Q. apply S1 in Q. lra.
      + intros Q. apply S2 in Q. lra.
    - destruct (Reqb disc 0) eqn:E2; rbool.
      + split; [|split; [|split; [|split; [reflexivity|]]]].
        * intros p. split.
          -- intros [<- | []]. split; [apply hit_circle, HS; lra | apply hit_line].
          -- intros [C L]. destruct (hit_complete p L C) as (k & K & ->). left.
             f_equal. rewrite E2, sqrt_0. assert (k = 0) by nra. lra.
        * constructor; [intros []|constructor].
        * intros Q. apply S1 in Q. lra.
        * intros Q. apply S3 in Q. lra.
      + assert (P : 0 < disc) by lra. pose proof (sqrt_lt_R0 _ P) as SP.
        split; [|split; [|split; [reflexivity|split]]].
        * intros p. split.
          -- intros [<- | [<- | []]]; (split; [apply hit_circle; auto; lra | apply hit_line]).
          -- intros [C L]. destruct (hit_complete p L C) as (k & K & ->).
             destruct (SQ k K) as [-> | ->]; cbn [In]; auto.
        * constructor; [|constructor; [intros []|constructor]].
          intros [Q | []]. apply hit_inj in Q.
          assert (sg * sqrt disc = 0) by lra. apply Rmult_integral in H as [H | H]; [|lra].
          rewrite H in SG. lra.
        * intros Q. apply S2 in Q. lra.
        * intros Q. apply S3 in Q. lra.
  Qed.
End Line.

Lemma intersection_even (a b : R * R) cx cy r : a <> b ->
  cirle_line_intersection a b cx cy r = cirle_line_intersection a b cx cy (Rabs r).
Proof.
  intros H. rewrite !cirle_eff by exact H. cbv zeta.
  assert (E : Rabs r * Rabs r = r * r) by (rewrite <- Rabs_mult; apply Rabs_right; nra).
  rewrite E. reflexivity.
Qed.
Lemma on_circle_even cx cy r p : on_circle cx cy (Rabs r) p <-> on_circle cx cy r p.
Proof.
  unfold on_circle.
  assert (E : Rabs r * Rabs r = r * r) by (rewrite <- Rabs_mult; apply Rabs_right; nra).
  now rewrite E.
Qed.
Lemma intersection_any (a b : R * R) cx cy r : a <> b ->
  exists l, cirle_line_intersection a b cx cy r = Ok l /\
    forall p, In p l <-> on_circle cx cy r p /\ on_line a b p.
Proof.
  intros H. rewrite intersection_even by exact H.
  destruct (intersection_spec a b cx cy (Rabs r) H (Rabs_pos r)) as (l & E & I & _).
  exists l. split; auto. intros p. rewrite I, on_circle_even. tauto.
Qed.

(** ** The cross-section *)
Record good_geom (g : geom R) : Prop := {
  gg_top : 0 < fst (g_top g);
  gg_bot : fst (g_top g) < fst (g_bot g);
  gg_ext : fst (g_bot g) < g_ext_l g;
  gg_low : 0 <= snd (g_bot g);
  gg_drop : snd (g_bot g) <= snd (g_top g);
  gg_crest : snd (g_top g) = g_ext_h g;
  gg_grad : (fst (g_bot g) - fst (g_top g)) * g_gradient g = snd (g_top g) - snd (g_bot g);
}.
Lemma section_good h l mh ml g :
  0 <= h -> 1 / 1000 <= l -> cross_section h l mh ml g -> good_geom g.
Proof.
  intros Hh Hl CS.
  destruct (section_facts _ _ _ _ _ Hh Hl CS) as
    (F1 & F2 & F3 & F4 & F5 & F6 & F7 & F8 & F9 & F10 & F11 & F12 & F13 & F14).
  constructor; try lra. rewrite F14, F1, F2. destruct CS. field. lra.
Qed.
Lemma geom_of_good h l mh ml : 0 <= h -> 1 / 1000 <= l -> good_geom (geom_of h l mh ml).
Proof.
  intros Hh Hl. pose proof (geom_of_top h l mh ml Hh Hl) as [H1 H2].
  unfold geom_of in *. cbn in *.
  assert (3 * h <= Rmax (Rmax (3 * h) mh) (5 * l / 2)) by (rminmax; lra).
  assert (5 * l <= Rmax (Rmax (5 * l) ml) (4 * h)) by (rminmax; lra).
  constructor; cbn; try lra. field. lra.
Qed.
Lemma core_good (s : st R) : Core s -> good_geom (s_geom (snd s)).
Proof.
  intros C. destruct (c_geom _ C) as (mh & P & ->). apply geom_of_good; apply C.
Qed.
Lemma grad_nonneg g : good_geom g -> 0 <= g_gradient g.
Proof. intros []. apply Rnot_lt_le. intros H. nra. Qed.

Definition on_ground (g : geom R) (p : R * R) : Prop :=
  0 <= fst p <= g_ext_l g /\ snd p = surface g (fst p).

Section Ground.
  Context (g : geom R) (G : good_geom g).
  Lemma surface_crest x : x <= fst (g_top g) -> surface g x = snd (g_top g).
  Proof.
    destruct G. intros H. unfold surface, clamp. rewrite Rmin_right by lra.
    rewrite Rmax_left by lra. ring.
  Qed.
  Lemma surface_toe x : fst (g_bot g) <= x -> surface g x = snd (g_bot g).
  Proof.
    destruct G. intros H. unfold surface, clamp. rewrite Rmin_left by lra.
    rewrite Rmax_right by lra. lra.
  Qed.
  Lemma surface_face x : fst (g_top g) <= x <= fst (g_bot g) ->
    surface g x = snd (g_top g) - (x - fst (g_top g)) * g_gradient g.
  Proof.
    destruct G. intros H. unfold surface, clamp. rewrite Rmin_right by lra.
    now rewrite Rmax_right by lra.
  Qed.
  Lemma ground_y_R x : ground_y g x = surface g x.
  Proof.
    unfold ground_y. unR. destruct (Rleb x _) eqn:E1; rbool; [now rewrite surface_crest|].
    destruct (Rleb (fst (g_bot g)) x) eqn:E2; rbool; [now rewrite surface_toe|].
    now rewrite surface_face by lra.
  Qed.
  Lemma external_y_R x : external_y g x =
    if Rltb x 0 || Rltb (g_ext_l g) x then None else Some (surface g x).
  Proof.
    rewrite <- ground_y_R. unfold external_y, ground_y. unR.
    destruct (_ || _); auto. destruct (Rleb x _); auto. now destruct (Rleb _ x).
  Qed.

  Lemma crest_line p : on_line (0, snd (g_top g)) (g_top g) p <-> snd p = snd (g_top g).
  Proof.
    destruct G. split.
    - intros (t & ->). cbn. ring.
    - intros H. exists (fst p / fst (g_top g)). destruct p as [x y]; cbn in *. f_equal.
      + field. lra.
      + rewrite H. ring.
  Qed.
  Lemma toe_line p : on_line (g_bot g) (g_ext_l g, snd (g_bot g)) p <-> snd p = snd (g_bot g).
  Proof.
    destruct G. split.
    - intros (t & ->). cbn. ring.
    - intros H. exists ((fst p - fst (g_bot g)) / (g_ext_l g - fst (g_bot g))).
      destruct p as [x y]; cbn in *. f_equal.
      + field. lra.
      + rewrite H. ring.
  Qed.
  Lemma face_line p : fst (g_top g) <= fst p <= fst (g_bot g) ->
    (on_line (g_top g) (g_bot g) p <-> snd p = surface g (fst p)).
  Proof.
    intros B. rewrite (surface_face (fst p) B). destruct G. split.
    - intros (t & ->). cbn.
      transitivity (snd (g_top g) - t * (snd (g_top g) - snd (g_bot g))); [ring|].
      rewrite <- gg_grad0. ring.
    - intros H. exists ((fst p - fst (g_top g)) / (fst (g_bot g) - fst (g_top g))).
      destruct p as [x y]; cbn in *. f_equal.
      + field. lra.
      + rewrite H.
        replace (snd (g_bot g) - snd (g_top g)) with
          (- ((fst (g_bot g) - fst (g_top g)) * g_gradient g)) by lra.
        field. lra.
  Qed.

  (** The crossings of a circle with the ground that bound a slide from left to
      right: the first crossing with the level of the crest, the crossings with
      the face, the last crossing with the level of the toe. *)
  Definition crossing (cx cy r : R) (p : R * R) : Prop :=
    on_circle cx cy r p /\
    ((0 <= fst p <= fst (g_top g) /\ snd p = snd (g_top g) /\
      forall q, on_circle cx cy r q -> snd q = snd (g_top g) -> fst p <= fst q) \/
     (fst (g_bot g) <= fst p <= g_ext_l g /\ snd p = snd (g_bot g) /\
      forall q, on_circle cx cy r q -> snd q = snd (g_bot g) -> fst q <= fst p) \/
     (fst (g_top g) <= fst p <= fst (g_bot g) /\ snd p = surface g (fst p))).

  Lemma crossing_ground cx cy r p : crossing cx cy r p -> on_circle cx cy r p /\ on_ground g p.
  Proof.
    intros [C H]. split; auto. unfold on_ground. pose proof G as G'. destruct G'.
    destruct H as [(A & B & _) | [(A & B & _) | (A & B)]].
    - rewrite surface_crest by lra. lra.
    - rewrite surface_toe by lra. lra.
    - split; [lra | exact B].
  Qed.

  Lemma sort_points_sorted (l : list (R * R)) :
    StronglySorted (fun p q => fst p <= fst q) (sort_points l).
  Proof.
    unfold sort_points.
    assert (H : StronglySorted (le_of (point_ltb (T := R))) (sort (point_ltb (T := R)) l)).
    { apply sort_sorted; unfold point_ltb; unR; intros.
      - destruct (Reqb (fst x) (fst y)) eqn:E; rewrite Reqb_sym, E; rbool.
        + apply Rltb_false. lra.
        + apply Rltb_false. lra.
      - revert H H0. rcase; intros; rbool; try apply Rltb_false; lra. }
    induction H as [|x l' H IH Hx]; constructor; auto.
    eapply Forall_impl; [|exact Hx]. intros y Hy. unfold le_of, point_ltb in Hy. unR.
    destruct (Reqb (fst y) (fst x)) eqn:E; rbool; lra.
  Qed.
  Lemma sorted_rev (l : list (R * R)) :
    StronglySorted (fun p q => fst p <= fst q) l -> StronglySorted (fun p q => fst q <= fst p) (rev l).
  Proof.
    induction 1 as [|x l H IH Hx]; cbn; [constructor|].
    clear H. assert (Hx' : Forall (fun q => fst x <= fst q) (rev l)).
    { rewrite Forall_forall in *. intros q Hq. apply Hx. now apply in_rev. }
    clear Hx. induction IH as [|y l' H IH Hy]; cbn; [repeat constructor|].
    inversion Hx' as [|? ? A B]; subst. constructor; [auto|].
    rewrite Forall_app. split; auto.
  Qed.

  (** for hits on one level *)
  Lemma top_hits_In y hits p : (forall q, In q hits -> snd q = y) ->
    (In p (top_hits g hits) <->
     In p hits /\ (forall q, In q hits -> fst p <= fst q) /\ 0 <= fst p <= fst (g_top g)).
  Proof.
    intros L. unfold top_hits. pose proof (sort_points_sorted hits) as S.
    pose proof (fun q => sort_In (point_ltb (T := R)) q hits) as I. fold (sort_points hits) in I.
    destruct (sort_points hits) as [|m ms].
    - split; [intros []|]. intros (H & _). apply I in H. destruct H.
    - inversion S as [|? ? _ F]; subst. rewrite Forall_forall in F. unR. split.
      + destruct (_ && _) eqn:E; [|intros []]. rbool. intros [<- | []].
        split; [apply I; now left|]. split; [|lra].
        intros q Hq. apply I in Hq as [<- | Hq]; [lra|auto].
      + intros (H & A & B).
        assert (fst m = fst p).
        { apply Rle_antisym.
          - apply I in H as [<- | H]; [lra | auto].
          - apply A, I. now left. }
        assert (m = p).
        { destruct m as [mx my], p as [px py]. cbn in *.
          assert (my = y) by (apply (L (mx, my)), I; now left).
          assert (py = y) by (apply (L (px, py)), H). congruence. }
        subst m. rewrite (proj2 (Rleb_true _ _)) by lra. rewrite (proj2 (Rleb_true _ _)) by lra.
        now left.
  Qed.
  Lemma bot_hits_In y hits p : (forall q, In q hits -> snd q = y) ->
    (In p (bot_hits g hits) <->
     In p hits /\ (forall q, In q hits -> fst q <= fst p) /\ fst (g_bot g) <= fst p <= g_ext_l g).
  Proof.
    intros L. unfold bot_hits.
    assert (S : StronglySorted (fun p q : point R => fst q <= fst p) (rev (sort_points hits)))
      by apply sorted_rev, sort_points_sorted.
    pose proof (fun q => sort_In (point_ltb (T := R)) q hits) as I. fold (sort_points hits) in I.
    assert (I' : forall q : point R, In q (rev (sort_points hits)) <-> In q hits).
    { intros q. rewrite <- in_rev. apply I. }
    destruct (rev (sort_points hits)) as [|m ms].
    - split; [intros []|]. intros (H & _). apply I' in H. destruct H.
    - apply StronglySorted_inv in S as [_ F]. rewrite Forall_forall in F. unR. split.
      + destruct (_ && _) eqn:E; [|intros []]. rbool. intros [<- | []].
        split; [apply I'; now left|]. split; [|lra].
        intros q Hq. apply I' in Hq as [<- | Hq]; [lra|auto].
      + intros (H & A & B).
        assert (fst m = fst p).
        { apply Rle_antisym.
          - apply A, I'. now left.
          - apply I' in H as [<- | H]; [lra | auto]. }
        assert (m = p).
        { destruct m as [mx my], p as [px py]. cbn in *.
          assert (my = y) by (apply (L (mx, my)), I'; now left).
          assert (py = y) by (apply (L (px, py)), H). congruence. }
        subst m. rewrite (proj2 (Rleb_true _ _)) by lra. rewrite (proj2 (Rleb_true _ _)) by lra.
        now left.
  Qed.

  Lemma drop_close_In (l : list (R * R)) : forall x0 p,
    StronglySorted (fun p q => fst p <= fst q) l ->
    (forall a b, In a l -> In b l -> fst a = fst b -> a = b) ->
    (forall a, In a l -> x0 <= fst a) ->
    (In p (drop_close x0 l) <->
     In p l /\ x0 + 1 / 100 < fst p /\
     forall q, In q l -> fst q < fst p -> fst q + 1 / 100 < fst p).
  Proof.
    induction l as [|i l IH]; intros x0 p S U B; cbn [drop_close].
    - cbn. tauto.
    - inversion S as [|? ? S' F]; subst. rewrite Forall_forall in F.
      assert (IH' := IH (fst i) p S' (fun a b Ha Hb => U a b (or_intror Ha) (or_intror Hb)) F).
      unR. assert (B0 : x0 <= fst i) by (apply B; now left).
      rewrite (Rabs_right (fst i - x0)) by lra.
      destruct (Rltb _ _) eqn:E; rbool.
      + cbn [In]. rewrite IH'. split.
        * intros [-> | (H1 & H2 & H3)].
          -- split; [auto|]. split; [lra|]. intros q [-> | Hq] Q; [lra|].
             specialize (F q Hq). lra.
          -- split; [auto|]. split; [lra|]. intros q [<- | Hq] Q; [lra|auto].
        * intros ([-> | H1] & H2 & H3); [auto|].
          destruct (Rle_lt_or_eq_dec _ _ (F p H1)) as [Q | Q].
          -- right. split; auto.
          -- left. apply U; cbn; auto.
      + rewrite IH'. split.
        * intros (H1 & H2 & H3). split; [now right|]. split; [lra|].
          intros q [<- | Hq] Q; [lra|auto].
        * intros ([-> | H1] & H2 & H3); [lra|].
          destruct (Rle_lt_or_eq_dec _ _ (F p H1)) as [Q | Q].
          -- split; auto. split; [apply H3; cbn; auto|]. intros q Hq. apply H3. now right.
          -- lra.
  Qed.
  Lemma drop_close_sub (l : list (R * R)) : forall x0 p, In p (drop_close x0 l) -> In p l.
  Proof.
    induction l as [|i l IH]; intros x0 p; cbn [drop_close]; auto.
    unR. destruct (Rltb _ _); cbn; [intros [-> | H] | intros H]; eauto.
  Qed.
  Lemma drop_close_sorted (l : list (R * R)) : forall x0,
    StronglySorted (fun p q => fst p <= fst q) l -> (forall a, In a l -> x0 <= fst a) ->
    StronglySorted (fun p q => fst p + 1 / 100 < fst q) (drop_close x0 l) /\
    Forall (fun q => x0 + 1 / 100 < fst q) (drop_close x0 l).
  Proof.
    induction l as [|i l IH]; intros x0 S B; cbn [drop_close]; [split; constructor|].
    inversion S as [|? ? S' F]; subst. rewrite Forall_forall in F.
    destruct (IH (fst i) S' F) as [I1 I2].
    assert (B0 : x0 <= fst i) by (apply B; now left).
    unR. rewrite (Rabs_right (fst i - x0)) by lra.
    destruct (Rltb _ _) eqn:E; rbool.
    - split; [constructor; auto|]. constructor; [lra|].
      eapply Forall_impl; [|exact I2]. cbn. intros; lra.
    - split; auto. eapply Forall_impl; [|exact I2]. cbn. intros; lra.
  Qed.

  (** The list of crossings: increasing, more than a centimetre apart, and
      exactly those with no other crossing up to a centimetre to the left. *)
  Definition crossings (cx cy r : R) (l : list (R * R)) : Prop :=
    StronglySorted (fun p q => fst p + 1 / 100 < fst q) l /\
    forall p, In p l <->
      crossing cx cy r p /\
      forall q, crossing cx cy r q -> fst q < fst p -> fst q + 1 / 100 < fst p.

  Lemma circle_external_spec cx cy r :
    exists l, circle_external g cx cy r = Ok l /\ crossings cx cy r l.
  Proof.
    assert (G' := G). destruct G'.
    assert (N1 : (0, snd (g_top g)) <> g_top g).
    { intros Q. apply (f_equal fst) in Q. cbn in Q. lra. }
    assert (N2 : g_bot g <> (g_ext_l g, snd (g_bot g))).
    { intros Q. apply (f_equal fst) in Q. cbn in Q. lra. }
    assert (N3 : g_top g <> g_bot g) by (intros Q; rewrite Q in gg_bot0; lra).
    destruct (intersection_any _ _ cx cy r N1) as (t & Et & It).
    destruct (intersection_any _ _ cx cy r N2) as (b & Eb & Ib).
    destruct (intersection_any _ _ cx cy r N3) as (m & Em & Im).
    unfold circle_external. unR. rewrite Et. cbn [rbind]. rewrite Eb. cbn [rbind].
    rewrite Em. cbn [rbind].
    eexists. split; [reflexivity|].
    set (il := top_hits g t ++ bot_hits g b ++ mid_hits g m).
    assert (I : forall p, In p il <-> crossing cx cy r p).
    { intros p. unfold il, crossing. rewrite !in_app_iff.
      rewrite (top_hits_In (snd (g_top g)) t p).
      2:{ intros q Hq. apply It in Hq as [_ Hq]. now apply crest_line. }
      rewrite (bot_hits_In (snd (g_bot g)) b p).
      2:{ intros q Hq. apply Ib in Hq as [_ Hq]. now apply toe_line. }
      unfold mid_hits. rewrite filter_In. unR.
      rewrite It, Ib, Im, crest_line, toe_line.
      split.
      - intros [((C & L) & A & B) | [((C & L) & A & B) | ((C & L) & A)]].
        + split; auto. left. split; [lra|]. split; auto. intros q C' L'.
          apply A, It. split; auto. now apply crest_line.
        + split; auto. right; left. split; [lra|]. split; auto. intros q C' L'.
          apply A, Ib. split; auto. now apply toe_line.
        + split; auto. right; right. rbool. split; [lra|]. now apply face_line.
      - intros (C & [(A & B & D) | [(A & B & D) | (A & B)]]).
        + left. split; auto. split; auto. intros q Hq. apply It in Hq as [C' L'].
          apply D; auto. now apply crest_line.
        + right; left. split; auto. split; auto. intros q Hq. apply Ib in Hq as [C' L'].
          apply D; auto. now apply toe_line.
        + right; right. split; [split; auto; now apply face_line|].
          now rewrite !(proj2 (Rleb_true _ _)) by lra. }
    assert (I' : forall p, In p (sort_by fst il) <-> crossing cx cy r p).
    { intros p. rewrite <- I. split; apply Permutation_in;
        [symmetry; apply sort_by_perm | apply sort_by_perm]. }
    pose proof (sort_by_sorted (fst : R * R -> R) il) as S. unfold key_le in S.
    assert (B : forall a, In a (sort_by fst il) -> -1 <= fst a).
    { intros a Ha. apply I', crossing_ground in Ha as [_ [Ha _]]. lra. }
    replace (IZR (-1)) with (-1) by lra.
    split.
    - now apply drop_close_sorted.
    - intros p. rewrite drop_close_In; auto.
      + rewrite I'. split.
        * intros (A1 & _ & A2). split; auto. intros q Hq. apply A2. now apply I'.
        * intros (A1 & A2). split; auto. split.
          -- apply crossing_ground in A1 as [_ [A1 _]]. lra.
          -- intros q Hq. apply A2. now apply I'.
      + intros p1 p2 H1 H2 Q.
        apply I', crossing_ground in H1 as [_ [_ H1]].
        apply I', crossing_ground in H2 as [_ [_ H2]].
        destruct p1, p2; cbn in *. congruence.
  Qed.

  Lemma first_two_sorted (l : list (R * R)) :
    StronglySorted (fun p q => fst p + 1 / 100 < fst q) l ->
    first_two l = match l with a :: b :: _ => Some (a, b) | _ => None end.
  Proof.
    intros S. unfold first_two.
    assert (D : distinct_count l = List.length l).
    { induction S as [|x l S IH F]; auto. cbn [distinct_count List.length].
      replace (point_mem x l) with false; [now rewrite IH|].
      symmetry. clear - F. induction F as [|y l H F IH]; auto. cbn [point_mem].
      rewrite IH. unfold point_eqb. unR. rewrite (proj2 (Reqb_false _ _)) by lra. reflexivity. }
    rewrite D. destruct l as [|a [|b l]]; reflexivity.
  Qed.

  (** A circle with its end points as kept for the analysis. *)
  Definition end_points (cx cy r : R) (a b : R * R) : Prop :=
    exists l, crossings cx cy r (a :: b :: l).
  Lemma first_two_spec cx cy r l :
    crossings cx cy r l ->
    (exists a b, first_two l = Some (a, b) /\ end_points cx cy r a b) \/
    (first_two l = None /\ (List.length l <= 1)%nat).
  Proof.
    intros C. rewrite first_two_sorted by apply C.
    destruct l as [|a [|b l]]; [right; auto | right; auto | left].
    exists a, b. split; auto. now exists l.
  Qed.
  Lemma end_points_ok cx cy r a b : end_points cx cy r a b ->
    on_circle cx cy r a /\ on_ground g a /\ on_circle cx cy r b /\ on_ground g b /\
    fst a + 1 / 100 < fst b.
  Proof.
    intros (l & S & I).
    destruct (crossing_ground cx cy r a) as [A1 A2]; [apply I; cbn; auto|].
    destruct (crossing_ground cx cy r b) as [B1 B2]; [apply I; cbn; auto|].
    split; [|split; [|split; [|split]]]; auto.
    inversion S as [|? ? _ F]; subst. inversion F; subst; auto.
  Qed.
End Ground.
