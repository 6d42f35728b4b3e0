(** * FaceFacts: pairs of points whose circles all keep their end points (C33, C54). *)
From Coq Require Import ZArith Reals Lra Lia List Bool Sorted.
From Verif Require Import Num Py Validation Utilities Objects Slope Planes Analysis
     Dynamic Api RealNum RealFacts ListFacts MonadFacts SlopeFacts Invariant
     History Spec EditFacts GroundFacts CircleFacts SearchFacts PlaneFacts ViewFacts FosFacts
     GridFacts.
Import ListNotations.
Local Open Scope R_scope.

(** ** Where a circle through two points of the ground meets it *)
Section Ends.
  Context (g : geom R) (G : good_geom g).

  Lemma end_points_intro cx cy r p q :
    crossing g cx cy r p -> crossing g cx cy r q -> fst p + 1 / 100 < fst q ->
    (forall z, crossing g cx cy r z -> z = p \/ fst q <= fst z) ->
    end_points g cx cy r p q.
  Proof.
    intros P Q D A.
    destruct (circle_external_spec g G cx cy r) as (l & _ & C). pose proof C as (SO & I).
    assert (Ip : In p l).
    { apply I. split; [exact P|]. intros z Z L. destruct (A z Z) as [->|]; lra. }
    assert (Iq : In q l).
    { apply I. split; [exact Q|]. intros z Z L. destruct (A z Z) as [->|]; lra. }
    assert (U : forall z, In z l -> z = p \/ z = q \/ fst q < fst z).
    { intros z Iz. apply I in Iz as [Z _]. destruct (A z Z) as [->|L]; [now left|right].
      destruct (Req_dec (fst z) (fst q)) as [E|N]; [left|right; lra].
      apply crossing_ground in Z as (_ & _ & Z2); [|exact G].
      apply crossing_ground in Q as (_ & _ & Q2); [|exact G].
      destruct z, q; cbn [fst snd] in *. congruence. }
    destruct l as [|x l]; [destruct Ip|].
    inversion SO as [|? ? S1 F1]; subst. rewrite Forall_forall in F1.
    assert (x = p).
    { destruct Ip as [->|Ip]; [reflexivity|]. specialize (F1 p Ip).
      destruct (U x (or_introl eq_refl)) as [->|[->|L]]; [reflexivity|lra|lra]. }
    subst x. destruct Iq as [->|Iq]; [lra|].
    destruct l as [|y l]; [destruct Iq|].
    inversion S1 as [|? ? S2 F2]; subst. rewrite Forall_forall in F2.
    assert (y = q).
    { destruct Iq as [->|Iq]; [reflexivity|]. specialize (F2 q Iq).
      pose proof (F1 y (or_introl eq_refl)) as L1.
      destruct (U y (or_intror (or_introl eq_refl))) as [->|[->|L]]; [lra|reflexivity|lra]. }
    subst y. now exists l.
  Qed.

  (** On the line of the face the equation of a circle is a convex quadratic. *)
  Definition face_eq (cx cy r x : R) : R :=
    (x - cx) * (x - cx)
    + (snd (g_top g) - (x - fst (g_top g)) * g_gradient g - cy)
      * (snd (g_top g) - (x - fst (g_top g)) * g_gradient g - cy) - r * r.
  Lemma face_convex cx cy r a z b : a < z < b ->
    face_eq cx cy r a <= 0 -> face_eq cx cy r b <= 0 -> face_eq cx cy r z < 0.
  Proof.
    intros O A B.
    assert (K : face_eq cx cy r z * (b - a)
                = face_eq cx cy r a * (b - z) + face_eq cx cy r b * (z - a)
                  - (1 + g_gradient g * g_gradient g) * (z - a) * (b - z) * (b - a)).
    { unfold face_eq. ring. }
    assert (P : 0 < (1 + g_gradient g * g_gradient g) * (z - a) * (b - z) * (b - a)).
    { repeat apply Rmult_lt_0_compat; try lra. nra. }
    assert (0 < b - a) by lra.
    assert (face_eq cx cy r a * (b - z) <= 0) by nra.
    assert (face_eq cx cy r b * (z - a) <= 0) by nra.
    nra.
  Qed.
  Lemma face_top cx cy r a : on_circle cx cy r (a, snd (g_top g)) ->
    face_eq cx cy r (fst (g_top g)) = (fst (g_top g) - a) * (fst (g_top g) + a - 2 * cx).
  Proof. unfold on_circle, face_eq. cbn [fst snd]. intros C. nra. Qed.
  Lemma face_bot cx cy r b : on_circle cx cy r (b, snd (g_bot g)) ->
    face_eq cx cy r (fst (g_bot g)) = (fst (g_bot g) - b) * (fst (g_bot g) + b - 2 * cx).
  Proof.
    unfold on_circle, face_eq. cbn [fst snd]. intros C. rewrite (gg_grad g G).
    replace (snd (g_top g) - (snd (g_top g) - snd (g_bot g)) - cy) with (snd (g_bot g) - cy) by ring.
    nra.
  Qed.
  Lemma face_on cx cy r p : fst (g_top g) <= fst p <= fst (g_bot g) ->
    snd p = surface g (fst p) -> on_circle cx cy r p -> face_eq cx cy r (fst p) = 0.
  Proof.
    intros B E C. rewrite surface_face in E by (exact G || exact B).
    unfold on_circle in C. unfold face_eq. rewrite <- E. lra.
  Qed.

  Lemma crest_twice cx cy r a z : on_circle cx cy r (a, snd (g_top g)) ->
    on_circle cx cy r z -> snd z = snd (g_top g) -> fst z = a \/ fst z = 2 * cx - a.
  Proof.
    unfold on_circle. cbn [fst snd]. intros A Z E. rewrite E in Z.
    assert (Q : (fst z - a) * (fst z - (2 * cx - a)) = 0) by nra.
    apply Rmult_integral in Q as [Q|Q]; [left|right]; lra.
  Qed.
  Lemma crest_crossing cx cy r a : on_circle cx cy r (a, snd (g_top g)) ->
    0 <= a <= fst (g_top g) -> a <= cx -> crossing g cx cy r (a, snd (g_top g)).
  Proof.
    intros C A B. split; [exact C|]. left. cbn [fst snd]. split; [exact A|]. split; [reflexivity|].
    intros q Q E. destruct (crest_twice cx cy r a q C Q E); lra.
  Qed.
  Lemma crest_only cx cy r a z : on_circle cx cy r (a, snd (g_top g)) -> a < cx ->
    on_circle cx cy r z -> snd z = snd (g_top g) ->
    (forall q, on_circle cx cy r q -> snd q = snd (g_top g) -> fst z <= fst q) ->
    z = (a, snd (g_top g)).
  Proof.
    intros C A Z E M. specialize (M _ C eq_refl). cbn [fst] in M.
    destruct (crest_twice cx cy r a z C Z E) as [Q|Q]; [|lra].
    destruct z; cbn [fst snd] in *. congruence.
  Qed.

  (** left end on the crest, right end on the face *)
  Lemma face_ends cx cy r a b :
    0 <= a <= fst (g_top g) -> fst (g_top g) < b <= fst (g_bot g) -> a + 1 / 100 < b ->
    (a + b) / 2 <= cx ->
    on_circle cx cy r (a, snd (g_top g)) -> on_circle cx cy r (b, surface g b) ->
    end_points g cx cy r (a, snd (g_top g)) (b, surface g b).
  Proof.
    intros A B D M Ca Cb. apply end_points_intro; cbn [fst]; auto.
    - apply crest_crossing; [exact Ca | exact A | lra].
    - split; [exact Cb|]. right; right. cbn [fst snd]. split; [lra|reflexivity].
    - intros z (Z & [(X & Y & N)|[(X & Y & N)|(X & Y)]]).
      + left. eapply crest_only; eauto; lra.
      + right. lra.
      + destruct (Rle_lt_dec b (fst z)) as [L|L]; [now right|left].
        pose proof (face_on cx cy r z X Y Z) as E.
        pose proof (face_on cx cy r (b, surface g b) ltac:(cbn [fst]; lra) eq_refl Cb) as Eb.
        cbn [fst] in Eb. pose proof (face_top cx cy r a Ca) as Et.
        assert (T0 : face_eq cx cy r (fst (g_top g)) <= 0) by (rewrite Et; nra).
        destruct (Req_dec (fst z) (fst (g_top g))) as [Q|Q].
        * rewrite Q, Et in E. apply Rmult_integral in E as [E|E]; [|lra].
          assert (Sz : snd z = snd (g_top g)).
          { rewrite Y, Q, surface_crest; auto; lra. }
          destruct z; cbn [fst snd] in *. f_equal; lra.
        * pose proof (face_convex cx cy r (fst (g_top g)) (fst z) b ltac:(lra) T0 ltac:(lra)). lra.
  Qed.
  (** left end on the crest, right end beyond the toe: the circle must cross the
      level of the toe under the slope *)
  Lemma toe_ends cx cy r a b :
    0 <= a <= fst (g_top g) -> fst (g_bot g) < b <= g_ext_l g -> a + 1 / 100 < b ->
    (a + b) / 2 <= cx -> 2 * cx - b < fst (g_bot g) ->
    on_circle cx cy r (a, snd (g_top g)) -> on_circle cx cy r (b, surface g b) ->
    end_points g cx cy r (a, snd (g_top g)) (b, surface g b).
  Proof.
    intros A B D M K Ca Cb. pose proof (gg_bot g G) as TB.
    rewrite surface_toe in * by (auto; lra).
    assert (TW : forall z, on_circle cx cy r z -> snd z = snd (g_bot g) ->
                 fst z = b \/ fst z = 2 * cx - b).
    { intros z Z E. unfold on_circle in *. cbn [fst snd] in *. rewrite E in Z.
      assert (Q : (fst z - b) * (fst z - (2 * cx - b)) = 0) by nra.
      apply Rmult_integral in Q as [Q|Q]; [left|right]; lra. }
    apply end_points_intro; cbn [fst]; auto.
    - apply crest_crossing; [exact Ca | exact A | lra].
    - split; [exact Cb|]. right; left. cbn [fst snd]. split; [lra|]. split; [reflexivity|].
      intros q Q E. destruct (TW q Q E); lra.
    - intros z (Z & [(X & Y & N)|[(X & Y & N)|(X & Y)]]).
      + left. eapply crest_only; eauto; lra.
      + right. specialize (N _ Cb eq_refl). cbn [fst] in N. lra.
      + left. pose proof (face_on cx cy r z X Y Z) as E.
        pose proof (face_top cx cy r a Ca) as Et. pose proof (face_bot cx cy r b Cb) as Eb.
        assert (T0 : face_eq cx cy r (fst (g_top g)) <= 0) by (rewrite Et; nra).
        assert (B0 : face_eq cx cy r (fst (g_bot g)) < 0) by (rewrite Eb; nra).
        destruct (Req_dec (fst z) (fst (g_top g))) as [Q|Q].
        * rewrite Q, Et in E. apply Rmult_integral in E as [E|E]; [|lra].
          assert (Sz : snd z = snd (g_top g)).
          { rewrite Y, Q, surface_crest; auto; lra. }
          destruct z; cbn [fst snd] in *. f_equal; lra.
        * destruct (Req_dec (fst z) (fst (g_bot g))) as [Q'|Q']; [rewrite Q' in E; lra|].
          pose proof (face_convex cx cy r (fst (g_top g)) (fst z) (fst (g_bot g)) ltac:(lra) T0 ltac:(lra)). lra.
  Qed.
End Ends.

(** ** The circles of a pair *)
Section Pairs.
  Context (l r : R * R) (D : fst l < fst r) (Dn : snd r <= snd l).
  Notation c := (chord l r).

  Lemma chord_sq : c * c = (snd l - snd r) * (snd l - snd r) + (fst r - fst l) * (fst r - fst l).
  Proof. unfold chord. apply sqrt_sqrt. nra. Qed.
  Lemma chord_gt : 0 < c.
  Proof. unfold chord. apply sqrt_lt_R0. nra. Qed.
  Lemma rise_bounds n k : (0 < k)%nat -> (Z.of_nat k <= n)%Z -> 0 < rise l r n k < c / 2.
  Proof.
    intros K N. destruct (first_rise_bounds l r D) as (A & B). unfold rise.
    assert (P : 0 < IZR n) by (apply IZR_lt; lia).
    assert (Pk : 0 < IZR (Z.of_nat k)) by (apply IZR_lt; lia).
    assert (L : IZR (Z.of_nat k) <= IZR n) by (apply IZR_le; lia).
    assert (Q : 0 < IZR (Z.of_nat k) / IZR n <= 1).
    { split; [now apply Rdiv_lt_0_compat|]. apply (Rmult_le_reg_r (IZR n)); [exact P|].
      unfold Rdiv. rewrite Rmult_assoc, Rinv_l by lra. lra. }
    unfold Rdiv in *. rewrite Rmult_assoc. nra.
  Qed.
  Lemma radius_rise e : 0 < e < c / 2 ->
    e < rise_radius l r e /\ 2 * e * rise_radius l r e = c / 2 * (c / 2) + e * e.
  Proof.
    intros E. unfold rise_radius. split.
    - apply (Rmult_lt_reg_r (2 * e)); [lra|]. unfold Rdiv at 1. rewrite Rmult_assoc, Rinv_l by lra. nra.
    - field. lra.
  Qed.
  (** circle [k] while the points are the requested ones *)
  Lemma circle_through n k cx cy rad : (0 < k)%nat -> (Z.of_nat k <= n)%Z ->
    circle_k l r n k l r cx cy rad ->
    on_circle cx cy rad l /\ on_circle cx cy rad r /\ (fst l + fst r) / 2 <= cx.
  Proof.
    intros K N (Er & Ex & Ey). pose proof (rise_bounds n k K N) as B.
    set (e := rise l r n k) in *. destruct (radius_rise e B) as (R1 & R2). rewrite <- Er in R1, R2.
    pose proof chord_sq as Q. pose proof chord_gt as P.
    set (sn := (snd l - snd r) / c) in *. set (cs := (fst r - fst l) / c) in *.
    assert (S1 : sn * c = snd l - snd r) by (unfold sn; field; lra).
    assert (C1 : cs * c = fst r - fst l) by (unfold cs; field; lra).
    assert (U : sn * sn + cs * cs = 1).
    { apply (Rmult_eq_reg_r (c * c)); [|nra]. rewrite Rmult_1_l.
      replace ((sn * sn + cs * cs) * (c * c)) with ((sn * c) * (sn * c) + (cs * c) * (cs * c)) by ring.
      rewrite S1, C1. lra. }
    assert (S0 : 0 <= sn).
    { unfold sn. apply Rmult_le_pos; [lra|]. left. now apply Rinv_0_lt_compat. }
    unfold on_circle.
    assert (Lx : fst l = (fst l + fst r) / 2 - c / 2 * cs) by lra.
    assert (Ly : snd l = (snd l + snd r) / 2 + c / 2 * sn) by lra.
    assert (Rx : fst r = (fst l + fst r) / 2 + c / 2 * cs) by lra.
    assert (Ry : snd r = (snd l + snd r) / 2 - c / 2 * sn) by lra.
    assert (KK : c / 2 * (c / 2) + (rad - e) * (rad - e) = rad * rad) by nra.
    split; [|split].
    - replace (fst l - cx) with (- (c / 2 * cs + sn * (rad - e))) by lra.
      replace (snd l - cy) with (c / 2 * sn - cs * (rad - e)) by lra.
      replace (- (c / 2 * cs + sn * (rad - e)) * - (c / 2 * cs + sn * (rad - e)) +
               (c / 2 * sn - cs * (rad - e)) * (c / 2 * sn - cs * (rad - e)))
        with ((sn * sn + cs * cs) * (c / 2 * (c / 2) + (rad - e) * (rad - e))) by ring.
      rewrite U, KK. ring.
    - replace (fst r - cx) with (c / 2 * cs - sn * (rad - e)) by lra.
      replace (snd r - cy) with (- (c / 2 * sn + cs * (rad - e))) by lra.
      replace ((c / 2 * cs - sn * (rad - e)) * (c / 2 * cs - sn * (rad - e)) +
               - (c / 2 * sn + cs * (rad - e)) * - (c / 2 * sn + cs * (rad - e)))
        with ((sn * sn + cs * cs) * (c / 2 * (c / 2) + (rad - e) * (rad - e))) by ring.
      rewrite U, KK. ring.
    - rewrite Ex. nra.
  Qed.
  (** centre and radius, written out *)
  Definition pair_circle (n : Z) (k : nat) (p : plane R) : Prop :=
    p_l p = l /\ p_r p = r /\ p_fos p = None /\ circle_k l r n k l r (p_cx p) (p_cy p) (p_radius p).
  (** all circles kept, from the deepest to the flattest *)
  Definition whole_family (n : Z) (k : nat) (ps : list (plane R)) : Prop :=
    List.length ps = k /\
    forall i p, nth_error ps i = Some p -> pair_circle n (k - i) p.

  Lemma steady_family g n k ps : good_geom g -> (Z.of_nat k <= n)%Z ->
    (forall j cx cy rad, (0 < j <= k)%nat -> circle_k l r n j l r cx cy rad ->
       end_points g cx cy rad l r) ->
    family g l r n k l r ps -> whole_family n k ps.
  Proof.
    intros G. revert ps. induction k as [|k IH]; intros ps N E F.
    - inversion F; subst. split; [reflexivity|]. intros [|i]; discriminate.
    - assert (U : forall cx cy rad il, circle_k l r n (S k) l r cx cy rad ->
                crossings g cx cy rad il -> exists t, il = l :: r :: t).
      { intros cx cy rad il C X. destruct (E (S k) cx cy rad ltac:(lia) C) as (t & X').
        exists t. eapply crossings_det; eauto. }
      inversion F as [|? ? ? cx cy rad il ? C X L F'|? ? ? cx cy rad a b ? C (t & X) F']; subst.
      + destruct (U _ _ _ _ C X) as (t & ->). cbn in L. lia.
      + destruct (U _ _ _ _ C X) as (t' & Q). injection Q as -> -> _.
        destruct (IH ps0) as (I1 & I2); [lia | intros; eapply E; eauto; lia | exact F' |].
        split; [cbn [List.length]; congruence|].
        intros [|i] p Q; cbn [nth_error] in Q.
        * injection Q as <-. split; [reflexivity|]. split; [reflexivity|]. split; [reflexivity|]. exact C.
        * cbn [Nat.sub]. now apply I2.
  Qed.
End Pairs.

(** ** Pairs whose circles keep their end points *)
(** The exit is on the face; or the flattest circle crosses the level of the toe
    under the slope. *)
Definition under_slope (g : geom R) (n : Z) (l r : R * R) : R :=
  let e := rise l r n 1 in
  fst l + 2 * ((snd l - snd r) / chord l r * (rise_radius l r e - e)).
Definition steady (g : geom R) (n : Z) (lx rx : R) : Prop :=
  lx + 1 / 100 < rx /\ fst (g_top g) < rx /\
  (rx <= fst (g_bot g) \/
   under_slope g n (lx, snd (g_top g)) (rx, surface g rx) < fst (g_bot g)).

Lemma flatter l r n k : fst l < fst r -> (0 < k)%nat -> (Z.of_nat k <= n)%Z ->
  rise_radius l r (rise l r n k) - rise l r n k
  <= rise_radius l r (rise l r n 1) - rise l r n 1.
Proof.
  intros D K N.
  pose proof (rise_bounds l r D n k K N) as (A1 & A2).
  pose proof (rise_bounds l r D n 1 ltac:(lia) ltac:(lia)) as (B1 & B2).
  assert (L : rise l r n 1 <= rise l r n k).
  { unfold rise. destruct (first_rise_bounds l r D) as (F & _).
    assert (P : 0 < IZR n) by (apply IZR_lt; lia).
    assert (Q : IZR (Z.of_nat 1) <= IZR (Z.of_nat k)) by (apply IZR_le; lia).
    unfold Rdiv. apply Rmult_le_compat_r; [left; now apply Rinv_0_lt_compat|].
    apply Rmult_le_compat_l; lra. }
  set (e := rise l r n k) in *. set (e1 := rise l r n 1) in *. set (h := chord l r / 2) in *.
  assert (Q : forall x, 0 < x -> rise_radius l r x - x = h * h / (2 * x) - x / 2).
  { intros x X. unfold rise_radius. fold h. field. lra. }
  rewrite !Q by lra.
  assert (h * h / (2 * e) <= h * h / (2 * e1)).
  { unfold Rdiv. apply Rmult_le_compat_l; [nra|]. apply Rinv_le_contravar; lra. }
  lra.
Qed.

Section Keep.
  Context (g : geom R) (G : good_geom g).
  Lemma surface_down lx rx : lx <= fst (g_top g) -> surface g rx <= snd (g_top g).
  Proof.
    intros _. pose proof (gg_bot g G). pose proof (gg_drop g G). pose proof (grad_nonneg g G).
    destruct (Rle_lt_dec rx (fst (g_top g))) as [A|A]; [rewrite surface_crest; auto; lra|].
    destruct (Rle_lt_dec (fst (g_bot g)) rx) as [B|B]; [rewrite surface_toe; auto; lra|].
    rewrite surface_face by (auto; lra). nra.
  Qed.
  Lemma steady_ends n lx rx k cx cy rad : 0 <= lx <= fst (g_top g) -> rx <= g_ext_l g ->
    steady g n lx rx -> (0 < k)%nat -> (Z.of_nat k <= n)%Z ->
    let l := (lx, snd (g_top g)) in let r := (rx, surface g rx) in
    circle_k l r n k l r cx cy rad -> end_points g cx cy rad l r.
  Proof.
    intros A E (D & T0 & H) K N l r C.
    assert (Dx : fst l < fst r) by (cbn [l r fst]; lra).
    assert (Dn : snd r <= snd l) by (cbn [l r snd]; eapply surface_down; apply A).
    destruct (circle_through l r Dx Dn n k cx cy rad K N C) as (Cl & Cr & M).
    cbn [l r fst] in M.
    destruct (Rle_lt_dec rx (fst (g_bot g))) as [B|B]; [now apply face_ends|].
    destruct H as [H|H]; [lra|].
    apply toe_ends; auto.
    destruct C as (Er & Ex & _). pose proof (flatter l r n k Dx K N) as F. rewrite <- Er in F.
    pose proof (chord_gt l r Dx) as P.
    assert (S0 : 0 <= (snd l - snd r) / chord l r).
    { apply Rmult_le_pos; [lra|]. left. apply Rinv_0_lt_compat; lra. }
    unfold under_slope in H. fold l r in H.
    set (sn := (snd l - snd r) / chord l r) in *.
    assert (Q : sn * (rad - rise l r n k) <= sn * (rise_radius l r (rise l r n 1) - rise l r n 1)).
    { apply Rmult_le_compat_l; auto. }
    cbn [l r fst] in Ex. change (fst l) with lx in H. lra.
  Qed.
  Lemma steady_whole n lx rx ps : 0 <= lx <= fst (g_top g) -> rx <= g_ext_l g ->
    steady g n lx rx ->
    let l := (lx, snd (g_top g)) in let r := (rx, surface g rx) in
    family g l r n (Z.to_nat n) l r ps -> whole_family l r n (Z.to_nat n) ps.
  Proof.
    intros A E S l r F.
    destruct (Z_le_gt_dec n 0) as [Z|Z].
    { replace (Z.to_nat n) with 0%nat in * by lia. inversion F; subst.
      split; [reflexivity|]. intros [|i]; discriminate. }
    apply (steady_family l r g); [exact G | lia | | exact F].
    intros j cx cy rad J C. apply (steady_ends n lx rx j cx cy rad A E S); [lia | lia | exact C].
  Qed.
  (** what a circle of such a pair is *)
  Lemma pair_circle_ok n k lx rx p : 0 <= lx <= fst (g_top g) -> lx < rx ->
    (0 < k)%nat -> (Z.of_nat k <= n)%Z ->
    let l := (lx, snd (g_top g)) in let r := (rx, surface g rx) in
    pair_circle l r n k p ->
    on_circle (p_cx p) (p_cy p) (p_radius p) l /\ on_circle (p_cx p) (p_cy p) (p_radius p) r /\
    above_chord l r (p_cx p) (p_cy p) /\ p_radius p = rise_radius l r (rise l r n k).
  Proof.
    intros A D K N l r (_ & _ & _ & C).
    assert (Dx : fst l < fst r) by (cbn [l r fst]; lra).
    assert (Dn : snd r <= snd l) by (cbn [l r snd]; eapply surface_down; apply A).
    destruct (circle_through l r Dx Dn n k _ _ _ K N C) as (Cl & Cr & M).
    split; [exact Cl|]. split; [exact Cr|]. destruct C as (Er & Ex & Ey). split; [|exact Er].
    pose proof (chord_gt l r Dx) as P.
    pose proof (rise_bounds l r Dx n k K N) as B.
    destruct (radius_rise l r (rise l r n k) B) as (R1 & _). rewrite <- Er in R1.
    exists ((p_radius p - rise l r n k) / chord l r). split; [apply Rdiv_lt_0_compat; lra|].
    split; [rewrite Ex | rewrite Ey]; field; lra.
  Qed.
End Keep.

Section FaceStates.
  Context {EN : Env}.
  Notation stR := (st R).

  Lemma face_pair (s : stR) lx rx n : reachable s ->
    let g := s_geom (snd s) in
    0 <= lx <= fst (g_top g) -> rx <= g_ext_l g -> steady g n lx rx ->
    let l := (lx, snd (g_top g)) in let r := (rx, surface g rx) in
    exists s' ps, exec (AddEntryExit lx rx n) s = (Ok tt, s') /\
      s_planes (snd s') = s_planes (snd s) ++ ps /\
      List.length ps = Z.to_nat n /\
      forall i p, nth_error ps i = Some p ->
        p_l p = l /\ p_r p = r /\
        on_circle (p_cx p) (p_cy p) (p_radius p) l /\ on_circle (p_cx p) (p_cy p) (p_radius p) r /\
        above_chord l r (p_cx p) (p_cy p) /\
        p_radius p = rise_radius l r (rise l r n (Z.to_nat n - i)).
  Proof.
    intros Hr g A E S l r. pose proof S as (D & _ & _).
    pose proof (core_good s (proj1 (reachable_inv s Hr))) as G. fold g in G.
    destruct (pair_state s lx rx n Hr) as (s' & ps & X & P & F); try (fold g; lra).
    fold g in F. rewrite surface_crest in F by (auto; lra).
    exists s', ps. split; [exact X|]. split; [exact P|].
    destruct (steady_whole g G n lx rx ps A E S F) as (L & W). split; [exact L|].
    intros i p I. pose proof (W i p I) as C. pose proof C as (C1 & C2 & _).
    split; [exact C1|]. split; [exact C2|].
    assert (J : (i < List.length ps)%nat) by (apply nth_error_Some; congruence).
    apply (pair_circle_ok g G n (Z.to_nat n - i) lx rx p); auto; [lra | lia | lia].
  Qed.

  Lemma exits_first lim k x : In x (exits lim k) -> lim_right_l lim < lim_right lim ->
    lim_right_l lim + (lim_right lim - lim_right_l lim) / IZR k <= x.
  Proof.
    unfold exits. intros I L. apply in_map_iff in I as (i & <- & I). apply zrange_In in I.
    assert (P : 0 < IZR k) by (apply IZR_lt; lia).
    assert (Q : 1 <= IZR i) by (apply (IZR_le 1); lia).
    assert (V : 0 < / IZR k) by now apply Rinv_0_lt_compat.
    assert (W : 0 < (lim_right lim - lim_right_l lim) / IZR k) by (apply Rmult_lt_0_compat; lra).
    replace (IZR i / IZR k * (lim_right lim - lim_right_l lim))
      with (IZR i * ((lim_right lim - lim_right_l lim) / IZR k)) by (field; lra).
    nra.
  Qed.

  Lemma ten_entries it : (500 <= it)%Z -> (10 <= num_points_top_of (T := R) it)%Z.
  Proof.
    intros IT. destruct (num_points_top_spec _ IT) as (T1 & T2 & T3).
    pose proof (Z_div_mod_eq_full it 800) as Dv.
    pose proof (Z.mod_pos_bound it 800 ltac:(lia)) as Mb.
    set (k := num_points_top_of (T := R) it) in *.
    destruct (Z_le_gt_dec 10 k) as [Y|Y]; [exact Y|exfalso].
    assert (Y2 : ((k + 1) * (k + 1) <= 100)%Z) by nia.
    assert (Y3 : (num_circles_of it * 100 <= it)%Z) by (unfold num_circles_of; lia).
    pose proof (num_circles_pos it). nia.
  Qed.
  (** The search without loads *)
  Lemma steady_search (s : stR) v ps p : reachable s -> lls_of s = [] -> udls_of s = [] ->
    view_of s = Ok v -> entry_exit_planes v = Ok ps ->
    let g := s_geom (snd s) in
    let lim := s_limits (snd s) in
    let nc := num_circles_of (s_iterations (snd s)) in
    (forall lx rx, lim_left lim <= lx <= lim_left_r lim ->
       In rx (exits lim (num_points_bot_of (T := R) (s_iterations (snd s)))) -> steady g nc lx rx) ->
    In p ps ->
    exists lx rx j, lim_left lim <= lx <= lim_left_r lim /\
      In rx (exits lim (num_points_bot_of (T := R) (s_iterations (snd s)))) /\
      lim_right_l lim < rx <= lim_right lim /\
      (0 < j)%nat /\ (Z.of_nat j <= nc)%Z /\
      pair_circle (lx, snd (g_top g)) (rx, surface g rx) nc j p.
  Proof.
    intros Hr NL NU E EP g lim nc S I.
    destruct (view_sound s Hr) as (v0 & E0 & SO). assert (v0 = v) by congruence. subst v0.
    assert (O : offsets_ok s) by (split; [rewrite NU | rewrite NL]; intros x []).
    assert (V : v_lls v = [] /\ v_udls v = []).
    { split.
      - pose proof (so_lls_eq _ _ SO) as Q. rewrite NL in Q. now destruct (v_lls v).
      - pose proof (so_udls_eq _ _ SO) as Q. rewrite NU in Q. now destruct (v_udls v). }
    destruct V as (V1 & V2).
    assert (LE : load_ends v = []) by (unfold load_ends; now rewrite V1, V2).
    pose proof (so_iter _ _ SO) as IT. rewrite (so_iter_eq _ _ SO) in IT.
    pose proof (ten_entries _ (proj1 IT)) as Top.
    destruct (search_state s v Hr O E) as (f & F1 & F2).
    { rewrite LE. cbn [List.length Z.of_nat]. lia. }
    rewrite F2 in EP. injection EP as <-.
    apply in_concat in I as (l1 & I1 & I). apply in_map_iff in I1 as (lx & <- & I1).
    apply in_concat in I as (l2 & I2 & I). apply in_map_iff in I2 as (rx & <- & I2).
    specialize (F1 lx rx I1 I2). cbv zeta in F1.
    destruct (so_lim _ _ SO) as (L1 & L2 & L3 & L4 & L5 & L6).
    rewrite (so_geom _ _ SO), (so_lim_eq _ _ SO) in *. fold g lim in L1, L2, L3, L4, L5, L6.
    assert (Lx : lim_left lim <= lx <= lim_left_r lim).
    { pose proof (entries_in v (so_lim _ _ SO) lx) as Q.
      rewrite (so_iter_eq _ _ SO), (so_lim_eq _ _ SO) in Q. fold (load_ends v) in Q.
      destruct Q as [Q|[(c & m & Q & _)|(a & b & m & Q & _)]]; [ | | | |].
      - rewrite LE. cbn [List.length Z.of_nat]. lia.
      - exact I1.
      - rewrite ?(so_lim_eq _ _ SO) in Q. exact Q.
      - rewrite V1 in Q. destruct Q.
      - rewrite V2 in Q. destruct Q. }
    assert (Rx : lim_right_l lim < rx <= lim_right lim).
    { pose proof (exits_in v (so_good _ _ SO) (so_lim _ _ SO) rx) as Q.
      rewrite (so_iter_eq _ _ SO), (so_lim_eq _ _ SO) in Q. now apply Q. }
    exists lx, rx.
    destruct (Rlt_dec (s_min_failure (snd s)) (chord (lx, snd (g_top g)) (rx, surface g rx))) as [K|K];
      fold g lim nc in F1; destruct (Rlt_dec _ _) in F1; try contradiction; [|rewrite F1 in I; destruct I].
    pose proof (core_good s (proj1 (reachable_inv s Hr))) as G. fold g in G.
    destruct (steady_whole g G nc lx rx (f lx rx)) as (W1 & W2);
      [lra | lra | now apply S | exact F1 |].
    apply In_nth_error in I as (i & I).
    assert (J : (i < List.length (f lx rx))%nat) by (apply nth_error_Some; congruence).
    exists (Z.to_nat nc - i)%nat. split; [exact Lx|]. split; [exact I2|]. split; [exact Rx|].
    split; [lia|]. split; [lia|]. now apply W2.
  Qed.
  Lemma steady_analysed m (s s' : stR) p : reachable s -> lls_of s = [] -> udls_of s = [] ->
    s_planes (snd s) = [] -> analyse_slope m s = (Ok tt, s') ->
    let g := s_geom (snd s) in
    let lim := s_limits (snd s) in
    let nc := num_circles_of (s_iterations (snd s)) in
    (forall lx rx, lim_left lim <= lx <= lim_left_r lim ->
       In rx (exits lim (num_points_bot_of (T := R) (s_iterations (snd s)))) -> steady g nc lx rx) ->
    In p (s_search (snd s')) ->
    exists lx rx j c f, lim_left lim <= lx <= lim_left_r lim /\
      In rx (exits lim (num_points_bot_of (T := R) (s_iterations (snd s)))) /\
      lim_right_l lim < rx <= lim_right lim /\
      (0 < j)%nat /\ (Z.of_nat j <= nc)%Z /\
      pair_circle (lx, snd (g_top g)) (rx, surface g rx) nc j c /\ p = set_fos (Some f) c.
  Proof.
    intros Hr NL NU NP E g lim nc S I.
    destruct (search_spec m s s' E) as (v & cs & Ev & A & _ & Q & _).
    destruct (proj1 (Q p) I) as (c & f & I2 & _ & _ & Ep).
    destruct A as [(_ & A)|(A & _)]; [|contradiction].
    destruct (steady_search s v cs c Hr NL NU Ev A S I2) as (lx & rx & j & X1 & X2 & X3 & X4 & X5 & X6).
    exists lx, rx, j, c, f. auto 10.
  Qed.
  (** The exits lie on the face, the first more than [d] to the right of the entries. *)
  Definition face_grid (d : R) (s : stR) : Prop :=
    let lim := s_limits (snd s) in
    lim_right lim <= fst (g_bot (s_geom (snd s))) /\
    lim_left_r lim + d
      < lim_right_l lim
        + (lim_right lim - lim_right_l lim) / IZR (num_points_bot_of (T := R) (s_iterations (snd s))).
  Lemma face_steady d (s : stR) lx rx : reachable s -> 1 / 100 <= d -> face_grid d s ->
    let g := s_geom (snd s) in
    let lim := s_limits (snd s) in
    lim_left lim <= lx <= lim_left_r lim ->
    In rx (exits lim (num_points_bot_of (T := R) (s_iterations (snd s)))) ->
    steady g (num_circles_of (s_iterations (snd s))) lx rx /\
    0 <= lx <= fst (g_top g) /\ fst (g_top g) < rx <= fst (g_bot g) /\ lx + d < rx.
  Proof.
    intros Hr P (B & D0) g lim Lx Rx.
    destruct (view_sound s Hr) as (v & E & SO).
    destruct (so_lim _ _ SO) as (L1 & L2 & L3 & L4 & L5 & L6).
    pose proof (exits_in v (so_good _ _ SO) (so_lim _ _ SO) rx) as Q.
    rewrite (so_iter_eq _ _ SO), (so_lim_eq _ _ SO) in Q. specialize (Q Rx).
    rewrite (so_geom _ _ SO) in L3, L4, L6. rewrite (so_lim_eq _ _ SO) in L1, L2, L3, L4, L5, L6.
    fold lim in Q, L1, L2, L3, L4, L5, L6, B, D0. fold g in L3, L4, L6, B.
    pose proof (exits_first lim _ rx Rx L5).
    split; [split; [lra|]; split; [lra|]; left; lra|]. lra.
  Qed.
  Lemma face_analysed m d (s s' : stR) p : reachable s -> lls_of s = [] -> udls_of s = [] ->
    s_planes (snd s) = [] -> 1 / 100 <= d -> face_grid d s -> analyse_slope m s = (Ok tt, s') ->
    let g := s_geom (snd s) in
    let lim := s_limits (snd s) in
    let nc := num_circles_of (s_iterations (snd s)) in
    In p (s_search (snd s')) ->
    exists lx rx j, lim_left lim <= lx <= lim_left_r lim /\ lim_right_l lim < rx <= lim_right lim /\
      0 <= lx <= fst (g_top g) /\ fst (g_top g) < rx <= fst (g_bot g) /\ lx + d < rx /\
      p_l p = (lx, snd (g_top g)) /\ p_r p = (rx, surface g rx) /\
      (0 < j)%nat /\ (Z.of_nat j <= nc)%Z /\
      circle_k (p_l p) (p_r p) nc j (p_l p) (p_r p) (p_cx p) (p_cy p) (p_radius p).
  Proof.
    intros Hr NL NU NP P F E g lim nc I.
    destruct (steady_analysed m s s' p Hr NL NU NP E) as
      (lx & rx & j & c & f & X1 & X2 & X3 & X4 & X5 & (Y1 & Y2 & _ & Y4) & ->); auto.
    { intros lx rx A B. now apply (face_steady d s lx rx Hr P F A B). }
    destruct (face_steady d s lx rx Hr P F X1 X2) as (_ & Z1 & Z2 & Z3).
    exists lx, rx, j. cbn [set_fos p_l p_r p_cx p_cy p_radius]. rewrite Y1, Y2. repeat match goal with |- _ /\ _ => split end; try exact Y4; auto; apply Z1 || apply Z2 || apply X1 || apply X3.
  Qed.
  (** the end points reported *)
  Lemma ends_inside m (s s' : stR) a b : reachable s -> lls_of s = [] -> udls_of s = [] ->
    s_planes (snd s) = [] -> face_grid (1 / 100) s -> analyse_slope m s = (Ok tt, s') ->
    get_min_FOS_end_points (snd s') = Ok (a, b) ->
    let g := s_geom (snd s) in
    let lim := s_limits (snd s) in
    lim_left lim <= fst a <= lim_left_r lim /\ snd a = surface g (fst a) /\
    lim_right_l lim < fst b <= lim_right lim /\ snd b = surface g (fst b).
  Proof.
    intros Hr NL NU NP F E Q g lim. unfold get_min_FOS_end_points in Q.
    destruct (s_search (snd s')) as [|p ps] eqn:Es; [discriminate Q|].
    destruct (face_analysed m (1 / 100) s s' p Hr NL NU NP ltac:(lra) F E) as
      (lx & rx & j & X1 & X2 & X3 & X4 & _ & Y1 & Y2 & _); [rewrite Es; now left|].
    injection Q as <- <-. rewrite Y1, Y2. cbn [fst snd]. fold g lim in X1, X2, X3, X4 |- *.
    pose proof (core_good s (proj1 (reachable_inv s Hr))) as G. fold g in G.
    rewrite (surface_crest g G) by lra. auto.
  Qed.
End FaceStates.
