(** * HitFacts: the circles of a pair lean towards the slope and their arcs hold a
    drawn point (C54, C65, C69). *)
From Coq Require Import ZArith Reals Lra Lia List Bool.
From Verif Require Import Num Py Validation Utilities Objects Slope Planes Analysis
     Dynamic Api RealNum RealFacts ListFacts MonadFacts SlopeFacts Invariant
     History Spec Demo DemoCircle EditFacts GroundFacts CircleFacts SearchFacts PlaneFacts ViewFacts FosFacts SliceFacts
     GridFacts FaceFacts FosTotal ScaleFacts WetFacts Plot PlotFacts FigureFacts PictureFacts CohesiveFacts.
Import ListNotations.
Local Open Scope R_scope.

(** ** The height of the first arc *)
Section First.
  Context (l r : R * R) (D : fst l < fst r) (Dn : snd r <= snd l).
  Let h := chord l r / 2.
  Let cs := (fst r - fst l) / chord l r.
  Let sn := (snd l - snd r) / chord l r.

  Lemma chord_unit : 0 < h /\ 0 < cs <= 1 /\ 0 <= sn /\ sn * sn + cs * cs = 1 /\
    fst r - fst l = 2 * h * cs /\ snd l - snd r = 2 * h * sn.
  Proof.
    pose proof (chord_sq l r D Dn) as Q. pose proof (chord_gt l r D Dn) as P.
    set (c := chord l r) in *.
    assert (S1 : sn * c = snd l - snd r) by (unfold sn; field; lra).
    assert (C1 : cs * c = fst r - fst l) by (unfold cs; field; lra).
    assert (U : sn * sn + cs * cs = 1).
    { apply (Rmult_eq_reg_r (c * c)); [|nra]. rewrite Rmult_1_l.
      replace ((sn * sn + cs * cs) * (c * c)) with ((sn * c) * (sn * c) + (cs * c) * (cs * c)) by ring.
      rewrite S1, C1. lra. }
    assert (S0 : 0 <= sn).
    { unfold sn. apply Rmult_le_pos; [lra|]. left. apply Rinv_0_lt_compat. exact P. }
    assert (C0 : 0 < cs) by (unfold cs; apply Rdiv_lt_0_compat; lra).
    unfold h. repeat split; try lra; try nra.
  Qed.
  Lemma first_rise_near : h * cs / (22 / 10) <= first_rise l r <= h * cs / (155 / 100).
  Proof.
    destruct chord_unit as (H0 & C0 & S0 & U & X & Y).
    assert (Rr : first_radius l r = 11 / 10 * (h / cs)).
    { unfold first_radius. rewrite X. replace (chord l r) with (2 * h) by (unfold h; lra). field. lra. }
    unfold first_rise. rewrite Rr. fold h. set (q := 11 / 10 * (h / cs)).
    assert (Q : q * cs = 11 / 10 * h) by (unfold q; field; lra).
    assert (Qh : 11 / 10 * h <= q) by nra.
    set (w := sqrt (q * q - h * h)).
    assert (W0 : 0 <= w) by apply sqrt_pos.
    assert (W : w * w = q * q - h * h) by (unfold w; apply sqrt_sqrt; nra).
    assert (Wq : w <= q) by nra.
    assert (E : (q - w) * (q + w) = h * h) by nra.
    (* 0.45 h <= w cs *)
    assert (Wc : 45 / 100 * h <= w * cs).
    { destruct (Rle_lt_dec (45 / 100 * h) (w * cs)) as [A|A]; [exact A|exfalso].
      assert (B0 : 0 <= w * cs) by nra.
      assert (B : (w * cs) * (w * cs) < (45 / 100 * h) * (45 / 100 * h)) by nra.
      replace ((w * cs) * (w * cs)) with ((w * w) * (cs * cs)) in B by ring. rewrite W in B.
      replace ((q * q - h * h) * (cs * cs)) with ((q * cs) * (q * cs) - (h * h) * (cs * cs)) in B by ring.
      rewrite Q in B. nra. }
    assert (F : (q - w) * ((q + w) * cs) = h * (h * cs)) by (rewrite <- Rmult_assoc, E; ring).
    assert (G1 : 155 / 100 * h <= (q + w) * cs) by lra.
    assert (G2 : (q + w) * cs <= 22 / 10 * h) by nra.
    assert (V : 0 <= q - w) by lra.
    split.
    - apply (Rmult_le_reg_r (22 / 10 * h)); [lra|].
      replace (h * cs / (22 / 10) * (22 / 10 * h)) with (h * (h * cs)) by field.
      rewrite <- F. apply Rmult_le_compat_l; lra.
    - apply (Rmult_le_reg_r (155 / 100 * h)); [lra|].
      replace (h * cs / (155 / 100) * (155 / 100 * h)) with (h * (h * cs)) by field.
      rewrite <- F. apply Rmult_le_compat_l; lra.
  Qed.
  Lemma rise_near n k : (0 < k)%nat -> (Z.of_nat k <= n)%Z -> (n <= 6)%Z ->
    h * cs / (132 / 10) <= rise l r n k <= h * cs / (155 / 100).
  Proof.
    intros K N N6. destruct first_rise_near as (A & B).
    destruct chord_unit as (H0 & C0 & _).
    assert (P : 0 < IZR n) by (apply IZR_lt; lia).
    assert (Pk : 1 <= IZR (Z.of_nat k)) by (apply (IZR_le 1); lia).
    assert (L : IZR (Z.of_nat k) <= IZR n) by (apply IZR_le; lia).
    assert (L6 : IZR n <= 6) by (apply (IZR_le _ 6); lia).
    unfold rise. set (t := IZR (Z.of_nat k) / IZR n).
    replace (first_rise l r * IZR (Z.of_nat k) / IZR n) with (first_rise l r * t) by (unfold t; field; lra).
    assert (T : / 6 <= t <= 1).
    { assert (T1 : t * IZR n = IZR (Z.of_nat k)) by (unfold t; field; lra). nra. }
    assert (M : 0 < h * cs) by nra. nra.
  Qed.
End First.

(** ** A circle that leans: the flattest of a pair whose chord falls 3 in 10 or more *)
Lemma flattest_leans l r n cx cy rad : fst l < fst r -> 3 / 10 * (fst r - fst l) <= snd l - snd r ->
  (5 <= n)%Z -> circle_k l r n 1 l r cx cy rad -> fst r <= cx.
Proof.
  intros D Gr N (Er & Ex & _).
  assert (Dn : snd r <= snd l) by lra.
  destruct (chord_unit l r D Dn) as (H0 & C0 & S0 & U & X & Y).
  destruct (first_rise_near l r D Dn) as (_ & B).
  destruct (first_rise_bounds l r D) as (B0 & _).
  set (h := chord l r / 2) in *. set (cs := (fst r - fst l) / chord l r) in *.
  set (sn := (snd l - snd r) / chord l r) in *.
  assert (P : 5 <= IZR n) by (apply (IZR_le 5); lia).
  set (e := rise l r n 1) in *.
  assert (E0 : 0 < e /\ e <= h * cs / (775 / 100)).
  { unfold e, rise. cbn [Z.of_nat]. change (IZR (Z.pos (Pos.of_succ_nat 0))) with 1.
    assert (Q : 0 < / IZR n <= / 5).
    { split; [apply Rinv_0_lt_compat; lra | apply Rinv_le_contravar; lra]. }
    unfold Rdiv at 1 3. rewrite Rmult_1_r.
    split; [apply Rmult_lt_0_compat; lra|].
    apply Rle_trans with (first_rise l r * / 5); [apply Rmult_le_compat_l; lra|]. lra. }
  assert (Z : 2 * e * (rad - e) = h * h - e * e).
  { rewrite Er. unfold rise_radius. fold h. field. lra. }
  assert (M : 3 / 10 * cs <= sn) by nra.
  assert (G : h * cs <= sn * (rad - e)); [|nra].
  apply (Rmult_le_reg_l (2 * e)); [lra|].
  replace (2 * e * (sn * (rad - e))) with (sn * (2 * e * (rad - e))) by ring. rewrite Z.
  assert (E1 : e <= h / (775 / 100)) by nra.
  assert (E2 : e * e <= h * h / 60) by nra.
  assert (E3 : 0 <= h * h - e * e) by nra.
  assert (E4 : 59 / 60 * (h * h) <= h * h - e * e) by lra.
  apply Rle_trans with (3 / 10 * cs * (59 / 60 * (h * h))).
  - assert (0 < h * cs) by nra. assert (2 * e <= 2 * h / (775 / 100)) by lra.
    assert (2 * e * (h * cs) <= 2 * h / (775 / 100) * (h * cs)) by nra.
    replace (3 / 10 * cs * (59 / 60 * (h * h))) with (177 / 600 * h * (h * cs)) by field. nra.
  - apply Rmult_le_compat; nra.
Qed.

(** ** The drawn points *)
Lemma small_angle d : Rabs d <= PI / 180 -> Rabs (sin d) <= 1 / 45 /\ 0 <= 1 - cos d <= 1 / 4050.
Proof.
  intros A. pose proof PI_4 as P4. pose proof PI_RGT_0 as P0.
  assert (B : Rabs d <= 1 / 45) by lra.
  assert (S : Rabs (sin d) <= Rabs d).
  { destruct (Rle_lt_dec 0 d) as [Q|Q].
    - rewrite (Rabs_right d) in * by lra. destruct Q as [Q|Q].
      + pose proof (sin_lt_x d Q). pose proof (sin_ge_0 d ltac:(lra) ltac:(lra)).
        rewrite Rabs_right; lra.
      + subst d. rewrite sin_0, Rabs_R0. lra.
    - rewrite <- (Rabs_Ropp (sin d)), <- sin_neg. rewrite (Rabs_left d) in * by lra.
      pose proof (sin_lt_x (- d) ltac:(lra)). pose proof (sin_ge_0 (- d) ltac:(lra) ltac:(lra)).
      rewrite Rabs_right; lra. }
  split; [lra|]. split; [pose proof (COS_bound d); lra|].
  pose proof (sin2_cos2 d) as Q. unfold Rsqr in Q.
  assert (C : 1 - cos d = 2 * (sin (d / 2) * sin (d / 2))).
  { replace d with (2 * (d / 2)) at 1 by lra. rewrite cos_2a_sin. ring. }
  rewrite C.
  assert (S2 : Rabs (sin (d / 2)) <= Rabs (d / 2)).
  { assert (K : forall x, 0 <= x -> x <= 1 -> Rabs (sin x) <= x).
    { intros x X X1. destruct X as [X|X].
      - pose proof (sin_lt_x x X). pose proof (sin_ge_0 x ltac:(lra) ltac:(pose proof PI2_3_2; lra)).
        rewrite Rabs_right; lra.
      - subst x. rewrite sin_0, Rabs_R0. lra. }
    destruct (Rle_lt_dec 0 d) as [Z|Z].
    - rewrite (Rabs_right d) in B by lra. rewrite (Rabs_right (d / 2)) by lra. apply K; lra.
    - rewrite (Rabs_left d) in B by lra. rewrite (Rabs_left (d / 2)) by lra.
      rewrite <- Rabs_Ropp, <- sin_neg. apply K; lra. }
  assert (H2 : Rabs (d / 2) <= 1 / 90).
  { unfold Rdiv at 1. rewrite Rabs_mult, (Rabs_right (/ 2)) by lra. lra. }
  assert (T : Rabs (sin (d / 2)) <= 1 / 90) by lra.
  apply abs_le_inv in T. nra.
Qed.

(** what the rounding to the third decimal and the angle of the nearest sample do *)
Lemma near_point h c s e R0 x y sd dd ex ey :
  1 / 10 <= h -> 44 / 100 <= c <= 1 -> 0 <= s -> s * s + c * c = 1 ->
  h * c / (132 / 10) <= e <= h * c / (155 / 100) -> 2 * e * R0 = h * h + e * e ->
  - (1 / 45) <= sd <= 1 / 45 -> 0 <= dd <= 1 / 4050 ->
  - (2 / 1000) <= ex <= 2 / 1000 -> - (2 / 1000) <= ey <= 2 / 1000 ->
  x = s * (R0 * dd - e) + R0 * c * sd + ex -> y = c * (R0 * dd - e) - R0 * s * sd + ey ->
  - (h * c) <= x <= h * c /\ y <= h * s.
Proof.
  intros H C S U E Q SD DD EX EY -> ->.
  assert (E0 : 0 < e) by nra.
  assert (R1 : 0 <= R0).
  { destruct (Rle_lt_dec 0 R0) as [A|A]; [exact A|]. nra. }
  assert (Rc : R0 * c <= 693 / 100 * h).
  { apply (Rmult_le_reg_l (2 * e)); [lra|].
    replace (2 * e * (R0 * c)) with ((2 * e * R0) * c) by ring. rewrite Q.
    assert (A1 : h * c <= 132 / 10 * e) by lra.
    assert (A2 : h * h * c <= 132 / 10 * e * h) by nra.
    assert (A3 : e <= h / (155 / 100)) by nra.
    assert (A4 : e * e * c <= e * (h / (155 / 100))) by nra. nra. }
  assert (Rx : R0 <= 158 / 10 * h) by nra.
  assert (S1 : s <= 898 / 1000) by nra.
  assert (Rd : 0 <= R0 * dd <= 158 / 10 * h / 4050) by nra.
  assert (Rs : Rabs (R0 * c * sd) <= 693 / 100 * h / 45).
  { apply Rabs_le. assert (0 <= R0 * c) by nra. nra. }
  apply abs_le_inv in Rs.
  assert (Ry : - (158 / 10 * h / 45) <= R0 * sd <= 158 / 10 * h / 45) by nra.
  split; [split|].
  - assert (A : s * e <= 58 / 100 * (h * c)).
    { apply Rle_trans with (898 / 1000 * e); nra. }
    assert (B : 0 <= s * (R0 * dd)) by nra.
    assert (K : 44 / 100 * h <= h * c) by nra. nra.
  - assert (A : 0 <= s * e) by nra.
    assert (B : s * (R0 * dd) <= 158 / 10 * h / 4050) by nra.
    assert (K : 44 / 100 * h <= h * c) by nra. nra.
  - assert (A : h * c * c / (132 / 10) <= c * e) by nra.
    assert (B : c * (R0 * dd) <= 158 / 10 * h / 4050) by nra.
    assert (Cs : - (R0 * s * sd) <= 158 / 10 * h / 45 * s).
    { replace (- (R0 * s * sd)) with (- (R0 * sd) * s) by ring. apply Rmult_le_compat_r; lra. }
    assert (K : s * s <= s) by nra.
    assert (L : h * (c * c) = h - h * (s * s)) by (replace (c * c) with (1 - s * s) by lra; ring).
    assert (M : h * (s * s) <= h * s) by nra. nra.
Qed.

Lemma nearest_sample t : 0 <= t <= PI / 2 ->
  exists k, (0 <= k < 90)%Z /\ Rabs (t - (2 * IZR k + 1) * PI / 180) <= PI / 180.
Proof.
  intros T. pose proof PI_RGT_0 as P.
  set (u := t * 90 / PI).
  assert (U : t = u * PI / 90) by (unfold u; field; lra).
  assert (U0 : 0 <= u <= 45).
  { unfold u. split.
    - apply Rmult_le_pos; [lra|]. left. now apply Rinv_0_lt_compat.
    - apply (Rmult_le_reg_r PI); [lra|]. unfold Rdiv. rewrite Rmult_assoc, Rinv_l by lra. lra. }
  destruct (archimed u) as (A & B). exists (up u - 1)%Z.
  rewrite minus_IZR. set (k := IZR (up u)) in *.
  split.
  - assert (0 < up u)%Z by (apply lt_IZR; fold k; lra).
    assert (up u < 47)%Z by (apply lt_IZR; fold k; lra). lia.
  - rewrite U. apply Rabs_le. split; nra.
Qed.

Lemma pair_hit l r n k p : fst l < fst r -> snd r <= snd l -> snd l - snd r <= 2 * (fst r - fst l) ->
  1 / 5 <= fst r - fst l -> (0 < k)%nat -> (Z.of_nat k <= n)%Z -> (n <= 6)%Z ->
  p_l p = l -> p_r p = r -> circle_k l r n k l r (p_cx p) (p_cy p) (p_radius p) -> arc_hit p.
Proof.
  intros D Dn G W K N N6 El Er (Rr & Cx & Cy).
  destruct (chord_unit l r D Dn) as (H0 & C0 & S0 & U & X & Y).
  pose proof (rise_near l r D Dn n k K N N6) as E.
  pose proof (chord_angle l r D) as CA.
  set (e := rise l r n k) in *.
  assert (Q : 2 * e * p_radius p = chord l r / 2 * (chord l r / 2) + e * e).
  { rewrite Rr. unfold rise_radius. field. nra. }
  set (h := chord l r / 2) in *. set (cs := (fst r - fst l) / chord l r) in *.
  set (sn := (snd l - snd r) / chord l r) in *.
  set (b := atan ((snd l - snd r) / (fst r - fst l))) in *.
  assert (Bb : 0 <= b < PI / 2).
  { split; [|apply atan_bound]. unfold b. rewrite <- atan_0.
    destruct (Rle_lt_dec ((snd l - snd r) / (fst r - fst l)) 0) as [Z|Z].
    - assert (0 <= (snd l - snd r) / (fst r - fst l)).
      { apply Rmult_le_pos; [lra|]. left. apply Rinv_0_lt_compat. lra. }
      replace ((snd l - snd r) / (fst r - fst l)) with 0 by lra. lra.
    - left. now apply atan_increasing. }
  destruct (nearest_sample (PI / 2 - b)) as (j & J & A); [lra|].
  exists j. split; [exact J|]. cbn [sample fst snd]. rewrite El, Er.
  set (d := PI / 2 - b - (2 * IZR j + 1) * PI / 180) in *.
  replace ((2 * IZR j + 1) * PI / 180) with (PI / 2 - (b + d)) by (unfold d; lra).
  rewrite cos_shift, sin_shift, sin_plus, cos_plus.
  destruct (small_angle d A) as (A1 & A2). apply abs_le_inv in A1.
  change (sqrt ((snd l - snd r) * (snd l - snd r) + (fst r - fst l) * (fst r - fst l)))
    with (chord l r) in CA. fold b cs sn in CA. destruct CA as (CA & SA). rewrite CA, SA.
  pose proof (round3_err (p_cx p)) as E1. pose proof (round3_err (p_cy p)) as E2.
  pose proof (round3_err (p_radius p)) as E3.
  set (x0 := Rround 3 (p_cx p)) in *. set (y0 := Rround 3 (p_cy p)) in *.
  set (r0 := Rround 3 (p_radius p)) in *.
  set (ct := sn * cos d + cs * sin d). set (st := cs * cos d - sn * sin d).
  pose proof (round3_err (x0 - r0 * ct)) as E4. pose proof (round3_err (y0 - r0 * st)) as E5.
  apply abs_le_inv in E1, E2, E3, E4, E5.
  assert (T : ct * ct + st * st = 1).
  { pose proof (sin2_cos2 d) as Z. unfold Rsqr in Z.
    replace (ct * ct + st * st) with ((sn * sn + cs * cs) * (sin d * sin d + cos d * cos d))
      by (unfold ct, st; ring). rewrite U, Z. ring. }
  assert (T1 : -1 <= ct <= 1) by nra. assert (T2 : -1 <= st <= 1) by nra.
  set (qx := Rround 3 (x0 - r0 * ct)) in *. set (qy := Rround 3 (y0 - r0 * st)) in *.
  destruct (near_point h cs sn e (p_radius p) (qx - (fst l + fst r) / 2) (qy - (snd l + snd r) / 2)
              (- sin d) (1 - cos d) (qx - (p_cx p - p_radius p * ct)) (qy - (p_cy p - p_radius p * st)))
    as ((P1 & P2) & P3); try lra; auto.
  - nra.
  - split; [|lra]. assert (sn <= 2 * cs) by nra. nra.
  - assert (- (5 / 10000) <= (r0 - p_radius p) * ct <= 5 / 10000) by nra.
    replace (qx - (p_cx p - p_radius p * ct))
      with ((qx - (x0 - r0 * ct)) + (x0 - p_cx p) - (r0 - p_radius p) * ct) by ring. lra.
  - assert (- (5 / 10000) <= (r0 - p_radius p) * st <= 5 / 10000) by nra.
    replace (qy - (p_cy p - p_radius p * st))
      with ((qy - (y0 - r0 * st)) + (y0 - p_cy p) - (r0 - p_radius p) * st) by ring. lra.
  - rewrite Cx. unfold ct. ring.
  - rewrite Cy. unfold st. ring.
Qed.

(** ** The ground over the circle *)
Section Over.
  Context (g : geom R) (G : good_geom g).
  Lemma face_depth cx cy r a b x :
    0 <= a <= fst (g_top g) -> fst (g_top g) < b <= fst (g_bot g) ->
    on_circle cx cy r (a, snd (g_top g)) -> on_circle cx cy r (b, surface g b) -> 0 <= r ->
    a < x < b -> (x - a) * (b - x) <= 2 * r * (surface g x - base_at cx cy r x).
  Proof.
    intros A B Ca Cb R0 X. unfold on_circle in Ca, Cb. cbn [fst snd] in Ca, Cb.
    pose proof (grad_nonneg g G) as Gr.
    assert (Fb : surface g b = snd (g_top g) - (b - fst (g_top g)) * g_gradient g)
      by (apply surface_face; auto; lra).
    set (Y := snd (g_top g)) in *. set (yb := surface g b) in *.
    set (m := (Y - yb) / (b - a)).
    assert (M : Y - yb = m * (b - a)) by (unfold m; field; lra).
    assert (M0 : 0 <= m).
    { apply Rmult_le_pos; [rewrite Fb; nra|]. left. apply Rinv_0_lt_compat. lra. }
    set (y := Y - m * (x - a)).
    assert (In0 : r * r - (x - cx) * (x - cx) - (y - cy) * (y - cy) = (1 + m * m) * ((x - a) * (b - x))).
    { assert (Q : (x - cx) * (x - cx) + (y - cy) * (y - cy) - r * r
                  = (1 + m * m) * ((x - a) * (x - b))
                    + ((b - x) * ((a - cx) * (a - cx) + (Y - cy) * (Y - cy) - r * r)
                       + (x - a) * ((b - cx) * (b - cx) + (yb - cy) * (yb - cy) - r * r)) / (b - a)).
      { replace yb with (Y - m * (b - a)) by lra. unfold y. field. lra. }
      rewrite Ca, Cb in Q.
      replace (((b - x) * (r * r - r * r) + (x - a) * (r * r - r * r)) / (b - a)) with 0 in Q by (field; lra).
      lra. }
    assert (XX : 0 < (x - a) * (b - x)) by nra.
    assert (In1 : (x - a) * (b - x) <= r * r - (x - cx) * (x - cx) - (y - cy) * (y - cy)).
    { rewrite In0. assert (0 <= m * m) by nra. nra. }
    assert (Up : y <= surface g x).
    { destruct (Rle_lt_dec x (fst (g_top g))) as [P|P].
      - rewrite surface_crest by (auto; lra). fold Y. unfold y. nra.
      - rewrite surface_face by (auto; lra). fold Y. unfold y.
        assert (m * (x - a) - (x - fst (g_top g)) * g_gradient g
                = (m * (b - a) - (b - fst (g_top g)) * g_gradient g) + (b - x) * (g_gradient g - m)) by ring.
        assert (m <= g_gradient g).
        { assert (m * (b - a) <= (b - a) * g_gradient g) by (rewrite <- M, Fb; nra). nra. }
        assert (m * (b - a) - (b - fst (g_top g)) * g_gradient g = 0) by lra. nra. }
    apply Rle_trans with (2 * r * (y - base_at cx cy r x)); [|apply Rmult_le_compat_l; lra].
    unfold base_at, drop_at.
    set (w := r * r - (x - cx) * (x - cx)) in *.
    pose proof (Rle_0_sqr (y - cy)) as Q. unfold Rsqr in Q.
    pose proof (Rle_0_sqr (x - cx)) as Q'. unfold Rsqr in Q'.
    assert (W0 : 0 <= w) by lra.
    pose proof (sqrt_sqrt w W0) as Sq. pose proof (sqrt_pos w) as S0. set (d := sqrt w) in *.
    assert (D1 : d <= r) by (unfold w in *; nra).
    assert (D2 : (cy - y) * (cy - y) < d * d) by lra.
    assert (D3 : - d < cy - y < d) by nra.
    replace (y - (cy - d)) with (d - (cy - y)) by ring.
    assert (D4 : (d - (cy - y)) * (d + (cy - y)) <= (d - (cy - y)) * (2 * r)) by (apply Rmult_le_compat_l; lra).
    nra.
  Qed.
  Lemma face_buried cx cy r a b :
    0 <= a <= fst (g_top g) -> fst (g_top g) < b <= fst (g_bot g) ->
    on_circle cx cy r (a, snd (g_top g)) -> on_circle cx cy r (b, surface g b) -> 0 <= r ->
    buried g cx cy r (a, snd (g_top g)) (b, surface g b).
  Proof.
    intros A B Ca Cb R0 x X. cbn [fst] in X.
    pose proof (face_depth cx cy r a b x A B Ca Cb R0 X).
    assert (0 < (x - a) * (b - x)) by nra. nra.
  Qed.
End Over.

Section Found.
  Context {EN : Env}.
  Notation stR := (st R).

  Lemma last_entry lim k : (2 <= k)%Z -> In (lim_left_r lim) (entries lim k []).
  Proof.
    intros K. unfold entries. rewrite app_nil_r. apply in_map_iff. exists (k - 1)%Z. split.
    - assert (0 < IZR (k - 1)) by (apply IZR_lt; lia). field. lra.
    - apply zrange_In. lia.
  Qed.
  Lemma last_exit lim k : (1 <= k)%Z -> In (lim_right lim) (exits lim k).
  Proof.
    intros K. unfold exits. apply in_map_iff. exists k. split.
    - assert (0 < IZR k) by (apply IZR_lt; lia). field. lra.
    - apply zrange_In. lia.
  Qed.
  (** The flattest circle of the innermost entry and the outermost exit is tried. *)
  Lemma last_tried (s : stR) v ps : reachable s -> lls_of s = [] -> udls_of s = [] ->
    view_of s = Ok v -> entry_exit_planes v = Ok ps -> face_grid (1 / 100) s ->
    let g := s_geom (snd s) in
    let lim := s_limits (snd s) in
    let nc := num_circles_of (s_iterations (snd s)) in
    let l := (lim_left_r lim, snd (g_top g)) in
    let r := (lim_right lim, surface g (lim_right lim)) in
    s_min_failure (snd s) < chord l r ->
    exists c, In c ps /\ pair_circle l r nc 1 c.
  Proof.
    intros Hr NL NU E EP F g lim nc l r C.
    destruct (view_sound s Hr) as (v0 & E0 & SO). assert (v0 = v) by congruence. subst v0.
    assert (O : offsets_ok s) by (split; [rewrite NU | rewrite NL]; intros x []).
    assert (V : v_lls v = [] /\ v_udls v = []).
    { split.
      - pose proof (so_lls_eq _ _ SO) as Q. rewrite NL in Q. now destruct (v_lls v).
      - pose proof (so_udls_eq _ _ SO) as Q. rewrite NU in Q. now destruct (v_udls v). }
    destruct V as (V1 & V2).
    assert (LE : load_ends v = []) by (unfold load_ends; now rewrite V1, V2).
    pose proof (so_iter _ _ SO) as IT. rewrite (so_iter_eq _ _ SO) in IT.
    pose proof (ten_entries _ (proj1 IT)) as Top.
    destruct (search_state s v Hr O E) as (f & F1 & F2).
    { rewrite LE. cbn [List.length Z.of_nat]. lia. }
    rewrite F2 in EP. injection EP as <-. rewrite LE in *. cbn [List.length Z.of_nat] in *.
    rewrite Z.sub_0_r in *.
    destruct (so_lim _ _ SO) as (L1 & L2 & L3 & L4 & L5 & L6).
    rewrite (so_lim_eq _ _ SO) in L1, L2, L3, L4, L5, L6. fold lim in L1, L2, L3, L4, L5, L6.
    pose proof (num_points_bot_spec _ (proj1 IT)) as B1. cbv zeta in B1.
    assert (K1 : (2 <= num_points_top_of (T := R) (s_iterations (snd s)))%Z)
      by (eapply Z.le_trans; [|exact Top]; lia).
    assert (K2 : (1 <= num_points_bot_of (T := R) (s_iterations (snd s)))%Z)
      by (eapply Z.le_trans; [|exact (proj1 B1)]; eapply Z.le_trans; [|exact K1]; lia).
    pose proof (last_entry lim _ K1) as I1. pose proof (last_exit lim _ K2) as I2.
    destruct (face_steady (1 / 100) s (lim_left_r lim) (lim_right lim) Hr ltac:(lra) F) as (S & Z1 & Z2 & _);
      [fold lim; lra | exact I2 |].
    pose proof (core_good s (proj1 (reachable_inv s Hr))) as G. fold g in G, S, Z1, Z2.
    pose proof (F1 _ _ I1 I2) as F3. cbv zeta in F3. fold g nc l r in F3.
    destruct (Rlt_dec _ _) as [_|K] in F3; [|contradiction].
    pose proof (gg_ext g G).
    destruct (steady_whole g G nc (lim_left_r lim) (lim_right lim) _ Z1 ltac:(lra) S F3) as (W1 & W2).
    pose proof (num_circles_pos (s_iterations (snd s))) as NC. fold nc in NC.
    destruct (nth_error (f (lim_left_r lim) (lim_right lim)) (Z.to_nat nc - 1)) as [c|] eqn:EN1.
    - exists c. split.
      + apply in_concat. eexists. split; [apply in_map_iff; eexists; split; [reflexivity|exact I1]|].
        apply in_concat. eexists. split; [apply in_map_iff; eexists; split; [reflexivity|exact I2]|].
        now apply nth_error_In in EN1.
      + pose proof (W2 _ _ EN1) as Q.
        replace (Z.to_nat nc - (Z.to_nat nc - 1))%nat with 1%nat in Q by lia. exact Q.
    - apply nth_error_None in EN1. lia.
  Qed.
  Lemma pair_leans (g : geom R) lx rx n c : good_geom g ->
    0 <= lx <= fst (g_top g) -> fst (g_top g) < rx <= fst (g_bot g) -> steady g n lx rx -> (5 <= n)%Z ->
    let l := (lx, snd (g_top g)) in let r := (rx, surface g rx) in
    3 / 10 * (rx - lx) <= snd (g_top g) - surface g rx ->
    pair_circle l r n 1 c -> leaning g (p_cx c) (p_cy c) (p_radius c) l r.
  Proof.
    intros G A B S N l r Gr Pc. pose proof Pc as (_ & _ & _ & C).
    pose proof (gg_ext g G) as Ge. pose proof (gg_low g G) as Gl. pose proof (grad_nonneg g G) as Gn.
    assert (D : fst l < fst r) by (cbn; lra).
    assert (Dn : snd r <= snd l) by (cbn; lra).
    assert (W : fst r <= p_cx c) by (eapply flattest_leans; eauto).
    destruct (circle_through l r D Dn n 1 _ _ _ ltac:(lia) ltac:(lia) C) as (Cl & Cr & _).
    pose proof (rise_bounds l r D n 1 ltac:(lia) ltac:(lia)) as Rb.
    destruct (radius_rise l r _ Rb) as (R1 & _).
    pose proof C as (Er & _ & Ey). rewrite <- Er in R1.
    pose proof (chord_gt l r D Dn) as P.
    assert (Sg : snd (g_bot g) <= surface g rx).
    { rewrite surface_face by (auto; lra). pose proof (gg_grad g G). nra. }
    constructor.
    - cbn [r fst] in W. lra.
    - rewrite Ey. assert (0 <= (fst r - fst l) / chord l r * (p_radius c - rise l r n 1)).
      { apply Rmult_le_pos; [|lra]. apply Rmult_le_pos; [lra|]. left. now apply Rinv_0_lt_compat. }
      cbn [l r snd] in *. pose proof (gg_drop g G). lra.
    - lra.
    - apply (steady_ends g G n lx rx 1); auto; lia || lra.
    - exact W.
    - apply face_buried; auto. lra.
  Qed.
  (** the grid has a pair whose flattest circle leans *)
  Definition falls (s : stR) : Prop :=
    let g := s_geom (snd s) in
    let lim := s_limits (snd s) in
    let l := (lim_left_r lim, snd (g_top g)) in
    let r := (lim_right lim, surface g (lim_right lim)) in
    s_min_failure (snd s) < chord l r /\ 3 / 10 * (fst r - fst l) <= snd l - snd r.
  Lemma face_found (s s' : stR) : reachable s -> lls_of s = [] -> udls_of s = [] ->
    s_planes (snd s) = [] -> face_grid (1 / 100) s -> falls s ->
    some_strength s -> heavy s \/ s_water_RL (snd s) = None -> wet_ok s -> mats_of s <> [] ->
    analyse_slope None s = (Ok tt, s') -> s_search (snd s') <> [].
  Proof.
    intros Hr NL NU NP F (C & Gr) SS HV WK NE E Q.
    destruct (search_spec None s s' E) as (v & cs & Ev & A & _ & Iff & _).
    destruct A as [(_ & A)|(A & _)]; [|contradiction].
    destruct (last_tried s v cs Hr NL NU Ev A F C) as (c & I & Pc).
    pose proof (core_good s (proj1 (reachable_inv s Hr))) as G.
    destruct (view_sound s Hr) as (v0 & E0 & SO). assert (v0 = v) by congruence. subst v0.
    destruct (so_lim _ _ SO) as (L1 & L2 & L3 & L4 & L5 & L6).
    rewrite (so_lim_eq _ _ SO) in L1, L2, L3, L4, L5, L6.
    pose proof (so_iter _ _ SO) as IT. rewrite (so_iter_eq _ _ SO) in IT.
    pose proof (num_points_bot_spec _ (proj1 IT)) as B1. cbv zeta in B1.
    pose proof (ten_entries _ (proj1 IT)) as Top.
    assert (K2 : (1 <= num_points_bot_of (T := R) (s_iterations (snd s)))%Z)
      by (eapply Z.le_trans; [|exact (proj1 B1)]; eapply Z.le_trans; [|exact Top]; lia).
    destruct (face_steady (1 / 100) s (lim_left_r (s_limits (snd s))) (lim_right (s_limits (snd s)))
                Hr ltac:(lra) F) as (S & Z1 & Z2 & _); [lra | now apply last_exit |].
    assert (NC : (5 <= num_circles_of (s_iterations (snd s)))%Z) by (unfold num_circles_of; lia).
    pose proof (pair_leans _ _ _ _ c G Z1 Z2 S NC Gr Pc) as LN.
    rewrite <- (so_geom _ _ SO) in LN.
    assert (HD : heavy s \/ dry v).
    { destruct HV as [HV|HV]; [now left|]. right. left. rewrite (so_water _ _ SO). exact HV. }
    destruct (leaning_factor s v _ _ _ _ _ Hr Ev SS HD LN WK NE) as (f & B & _).
    assert (J : In (set_fos (Some f) c) (s_search (snd s'))).
    { apply Iff. exists c, f. split; [exact I|]. split; [|split; [cbn; auto|reflexivity]].
      unfold record_of, circle_of. cbn. unfold factor. auto. }
    rewrite Q in J. destruct J.
  Qed.
  (** then the figures can be drawn *)
  Lemma face_hit (s s' : stR) m : reachable s -> lls_of s = [] -> udls_of s = [] ->
    s_planes (snd s) = [] -> face_grid (1 / 5) s -> g_gradient (s_geom (snd s)) <= 2 ->
    (s_iterations (snd s) < 5600)%Z ->
    analyse_slope m s = (Ok tt, s') -> forall p, In p (s_search (snd s')) -> arc_hit p.
  Proof.
    intros Hr NL NU NP F G2 IT E p I.
    pose proof (core_good s (proj1 (reachable_inv s Hr))) as G.
    destruct (face_analysed m (1 / 5) s s' p Hr NL NU NP ltac:(lra) F E I) as
      (lx & rx & j & X1 & X2 & X3 & X4 & X5 & Y1 & Y2 & J1 & J2 & C).
    pose proof (grad_nonneg _ G) as Gn.
    apply (pair_hit (p_l p) (p_r p) (num_circles_of (s_iterations (snd s))) j p); auto;
      rewrite ?Y1, ?Y2; cbn [fst snd].
    - lra.
    - rewrite surface_face by (auto; lra). nra.
    - rewrite surface_face by (auto; lra). nra.
    - lra.
    - unfold num_circles_of.
      assert (s_iterations (snd s) / 800 < 7)%Z by (apply Z.div_lt_upper_bound; lia). lia.
  Qed.
  Lemma face_drawn (s s' : stR) prec mf table : reachable s -> lls_of s = [] -> udls_of s = [] ->
    s_planes (snd s) = [] -> face_grid (1 / 5) s -> g_gradient (s_geom (snd s)) <= 2 ->
    (s_iterations (snd s) < 5600)%Z -> (1 <= s_max_iterations (snd s))%Z -> drawable s ->
    forall m, analyse_slope m s = (Ok tt, s') -> s_search (snd s') <> [] ->
    (forall p, In p (s_search (snd s')) -> arc_hit p) /\
    (exists fig, plot_critical prec table s' = Ok fig) /\
    (exists fig, plot_all_planes prec mf table s' = Ok fig).
  Proof.
    intros Hr NL NU NP F G2 IT MX DR m E NE.
    pose proof (face_hit s s' m Hr NL NU NP F G2 IT E) as HT.
    split; [exact HT|].
    assert (Hr' : reachable s').
    { replace s' with (step s (Analyse m)); [ now apply reachable_step |].
      unfold step. cbn [exec]. now rewrite E. }
    pose proof (analysis_ok m s s' Hr MX E) as OK.
    pose proof (proj2 (analysis_drawable m s s' E) DR) as DR'.
    destruct (critical_outcome s' prec table Hr' OK) as (_ & B & _).
    pose proof (all_planes_outcome s' prec mf table Hr' OK) as AP.
    destruct (s_search (snd s')) as [|p ps] eqn:Es; [contradiction|].
    destruct (B DR' p ps eq_refl) as [(_ & fig & Q)|(N & _)]; [|elim N; apply HT; now left].
    split; [eauto|]. now rewrite Q in AP.
  Qed.

  (** The whole chain for soils without friction: such a search can be drawn. *)
  Lemma cohesive_drawn (s : stR) prec mf table : reachable s -> lls_of s = [] -> udls_of s = [] ->
    s_planes (snd s) = [] -> face_grid (1 / 5) s -> falls s -> g_gradient (s_geom (snd s)) <= 2 ->
    (s_iterations (snd s) < 5600)%Z -> (1 <= s_max_iterations (snd s))%Z -> drawable s ->
    cohesive s -> heavy s \/ s_water_RL (snd s) = None -> wet_ok s -> mats_of s <> [] ->
    exists s', analyse_slope None s = (Ok tt, s') /\
      (forall p, In p (s_search (snd s')) -> arc_hit p) /\
      (exists fig, plot_critical prec table s' = Ok fig) /\
      (exists fig, plot_all_planes prec mf table s' = Ok fig).
  Proof.
    intros Hr NL NU NP F Fa G2 IT MX DR CO HV WK NE.
    destruct (view_sound s Hr) as (v & _ & SO).
    pose proof (so_iter _ _ SO) as IB. rewrite (so_iter_eq _ _ SO) in IB.
    destruct (cohesive_analysed None s Hr) as (s' & E); auto.
    - split; [rewrite NU | rewrite NL]; intros x [].
    - rewrite NL, NU. cbn [List.length]. pose proof (ten_entries _ (proj1 IB)). lia.
    - exists s'. split; [exact E|]. apply (face_drawn s s' prec mf table Hr NL NU NP F G2 IT MX DR None E).
      apply (face_found s s'); auto.
      + destruct F; split; lra.
      + intros m I. destruct (CO m I) as (-> & C). split; [lra | now left].
  Qed.

  (** 10 kPa without friction; entries at 2-8 m, exits on the face *)
  Definition face_bank : stR :=
    (fst (bank 10 0), set_s_search [] (set_s_limits (MkLimits 2 8 9 12) (snd (bank 10 0)))).
  Lemma face_bank_set :
    exec (SetLimits (PFloat 2) (PFloat 12) (PFloat 8) (PFloat 9)) (bank 10 0) = (Ok tt, face_bank).
  Proof.
    cbn [exec]. rewrite set_limits_eff. unfold limits_result, limit_arg, assert_positive_number,
      assert_strictly_positive_number. cbn [is_none isinstance_num negb as_num rbind]. unR.
    rewrite ?(proj2 (Rltb_false 2 0)), ?(proj2 (Rltb_false 8 0)), ?(proj2 (Rltb_false 12 0)),
      ?(proj2 (Rltb_false 9 0)) by lra. cbn [rbind isinstance_num negb as_num]. unR.
    rewrite ?(proj2 (Rltb_false 9 0)) by lra. cbn [rbind as_num].
    cbn [bank snd s_geom demo_sl demo_geom g_top fst g_ext_l].
    rewrite ?pymin_R, ?pymax_R.
    rewrite (Rmax_left 2 0), (Rmin_left 8 8), (Rmin_left 12 20), (Rmax_left 9 8) by lra.
    rewrite (proj2 (Rleb_false 8 2)), (proj2 (Rleb_false 12 9)) by lra. reflexivity.
  Qed.
  Lemma face_bank_ok : reachable face_bank /\ lls_of face_bank = [] /\ udls_of face_bank = [] /\
    s_planes (snd face_bank) = [] /\ face_grid (1 / 5) face_bank /\ falls face_bank /\
    g_gradient (s_geom (snd face_bank)) <= 2 /\ (s_iterations (snd face_bank) < 5600)%Z /\
    (1 <= s_max_iterations (snd face_bank))%Z /\ drawable face_bank /\ cohesive face_bank /\
    heavy face_bank /\ wet_ok face_bank /\ mats_of face_bank <> [].
  Proof.
    split.
    { replace face_bank with (step (bank 10 0) (SetLimits (PFloat 2) (PFloat 12) (PFloat 8) (PFloat 9)))
        by (unfold step; now rewrite face_bank_set).
      apply reachable_step, bank_reachable; lra. }
    split; [reflexivity|]. split; [reflexivity|]. split; [reflexivity|].
    split.
    { unfold face_grid. cbn [face_bank snd set_s_search set_s_limits s_limits s_geom bank demo_sl demo_geom
        g_bot fst lim_right lim_left_r lim_right_l s_iterations]. split; [lra|].
      assert (0 < / IZR (num_points_bot_of (T := R) 1000)).
      { apply Rinv_0_lt_compat, IZR_lt.
        pose proof (ten_entries 1000 ltac:(lia)) as A.
        pose proof (num_points_bot_spec 1000 ltac:(lia)) as B. cbv zeta in B.
        eapply Z.lt_le_trans; [|exact (proj1 B)]. eapply Z.lt_le_trans; [|exact A]. lia. }
      unfold Rdiv at 2. lra. }
    assert (Sf : surface demo_geom 12 = 7).
    { rewrite surface_face; [ cbn; lra | exact demo_good | cbn; lra ]. }
    split.
    { unfold falls. cbn [face_bank snd set_s_search set_s_limits s_limits s_geom bank demo_sl lim_right lim_left_r
        fst s_min_failure]. rewrite Sf. cbn [demo_geom g_top snd]. split; [|lra].
      apply chord_gt; cbn; lra. }
    split; [cbn; lra|]. split; [cbn; lia|]. split; [cbn; lia|].
    split.
    { right. split; [intros m []|]. split; [now left|]. intros y Q. discriminate Q. }
    split; [intros m [ <- | [] ]; cbn; lra|].
    split; [intros m [ <- | [] ]; cbn; lra|].
    split; [|discriminate].
    intros rl Q. discriminate Q.
  Qed.
End Found.
